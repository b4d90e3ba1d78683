(** C76: swaptions in the Hull-White model. *)
From Coquelicot Require Import Coquelicot.
From Coq Require Import ZArith Reals List Bool Arith Lia Lra Psatz Permutation.
From Verif Require Import TensorModel TensorProofs InterpModel BrentModel BrentProofs BrentProofs2 PropsBrent ExtReal HaganWestModel BootstrapModel BlackScholesModel BlackScholesSpec NormalProofs BlackScholesProofs ImpliedVolProofs GaussConv MvNormalSpec MvNormalProofs PropsMvNormal GbmModel GbmProofs PiecewiseModel
  HullWhiteModel HullWhiteSpec HullWhiteProofs HullWhiteProofs2 HullWhiteBondSpec HullWhiteBondProofs PropsHullWhiteBond HullWhiteOptionModel PropsHullWhiteOption HwSwaptionModel HwSwaptionSpec HwSwaptionProofs PropsHullWhite TimeGridModel TimeGridSpec TimeGridProofs LsmModel PropsLsm.
Import ListNotations.
Open Scope R_scope.

(** A tensor with [b] rows of length [n]. *)
Definition rectangular (b n : nat) (rows : list (list R)) : Prop := length rows = b /\ forall j, (j < b)%nat -> length (nth j rows []) = n.
Definition shaped (a : swaptions) (b n : nat) : Prop :=
  length (expiries a) = b /\ (0 < b)%nat /\ (0 < n)%nat /\ rectangular b n (payment_times a) /\ rectangular b n (daycount_fractions a) /\ rectangular b n (fixed_coupons a).
(** Payment date [i] of swaption [j], and the amount paid then. *)
Definition payment_time (a : swaptions) (j i : nat) : R := nth i (nth j (payment_times a) []) 0.
Definition payment_amount (a : swaptions) (j i : nat) : R := nth i (nth j (daycount_fractions a) []) 0 * nth i (nth j (fixed_coupons a) []) 0.
(** The value at the expiry of the swap that pays the fixed leg, for a short rate. *)
Definition payer_swap (h : hw) (a : swaptions) (n j : nat) (r : R) : R :=
  swap_value n (payment_amount a j) (fun i => discount_bond_price h 0 r (nth j (expiries a) 0) (payment_time a j i)).

Lemma entry_nth rows b n j i : rectangular b n rows -> (j < b)%nat -> (i < n)%nat -> entry rows j i = nth i (nth j rows []) 0.
Proof. intros (_ & H) Hj Hi. unfold entry, pick. rewrite (H j Hj). destruct (Nat.eqb_spec n 1); [replace i with O by lia; reflexivity|reflexivity]. Qed.
Lemma num_is a b n : shaped a b n -> num_payments a = n.
Proof. intros (_ & B0 & _ & (_ & H) & _). unfold num_payments. apply H, B0. Qed.
Lemma rsum_to f n : rsum f n = sum_to n f.
Proof. induction n as [|n IH]; [reflexivity|]. cbn [sum_to rsum]. rewrite IH. reflexivity. Qed.
Lemma zero_is h a b n j r : shaped a b n -> (j < b)%nat -> zero_fun h a j r = payer_swap h a n j r.
Proof.
  intros SH Hj. pose proof (num_is a b n SH) as NN. destruct SH as (LE & B0 & N0 & RP & RD & RC). unfold zero_fun, payer_swap. rewrite swap_as_sum by exact N0. rewrite rsum_to, NN.
  match goal with |- ?x + 1 = 1 - ?z => cut (x = - z); [intros ->; ring|] end. rewrite <- sum_to_opp. apply sum_to_ext. intros i Hi. unfold jamshidian_coefficient, coefficient, weight. rewrite NN.
  rewrite !(entry_nth _ b n j i) by assumption. fold (payment_amount a j i) (payment_time a j i). destruct (Nat.eqb _ _); ring.
Qed.
Lemma continuous_swap n (c : nat -> R) (P : R -> nat -> R) : (forall i, continuity (fun r => P r i)) -> continuity (fun r => swap_value n c (P r)).
Proof.
  intros H. unfold swap_value. apply continuity_minus; [apply continuity_minus; [apply continuity_const; intros ? ?; reflexivity|apply H]|].
  induction n as [|m IH]; cbn [sum_to]; [apply continuity_const; intros ? ?; reflexivity|]. apply (continuity_plus (fun r => sum_to m (fun i => c i * P r i)) (fun r => c m * P r m)); [exact IH|]. apply (continuity_mult (fun _ => c m) (fun r => P r m)); [apply continuity_const; intros ? ?; reflexivity|apply H].
Qed.
Lemma continuous_bond h T S : continuity (fun r => discount_bond_price h 0 r T S).
Proof. unfold discount_bond_price, bond_reconstitution. cbv zeta. intros r. apply continuity_pt_filterlim.
  match goal with |- filterlim ?F _ _ => apply (ex_derive_continuous (K := R_AbsRing) (V := R_NormedModule) F r) end. auto_derive. exact Logic.I. Qed.

Section Analytic.
  Variables (rtol : R) (h : hw) (k : R) (y : R -> R) (G : R -> R -> R) (a : swaptions) (b n : nat).
  Hypothesis HC : hw_coordinate h 0 k. Hypothesis D1 : hw_dim h = 1%nat.
  Hypothesis SV : state_variance (param_at (hw_vol h 0)) k y. Hypothesis HL : loading k G.
  Hypothesis SH : shaped a b n. Hypothesis R0 : 0 <= rtol.
  Notation T j := (nth j (expiries a) 0).
  Lemma results_exist : exists results, break_even rtol h a = Some results /\ length results = b.
  Proof using SH. clear D1.
    unfold break_even, brentq. cbn [andb]. eexists. split; [reflexivity|]. rewrite map_length, combine_length. destruct SH as (LE & _).
    match goal with |- context [brent_while ?ps ?pol ?m ?st] => assert (L : length ps = length st) by (rewrite !map_length, combine_length, map_length, map_length, repeat_length, seq_length; lia); destruct (brent_while_runs ps pol m st L) as (q & _ & -> & _) end.
    rewrite !map_length, seq_length, LE. 
    assert (RL : forall ps q st, length ps = length st -> length (runs ps q st) = length st).
    { clear. intros ps q st L. unfold runs. rewrite map_length, combine_length. lia. }
    rewrite RL; rewrite !map_length, combine_length, !map_length, repeat_length, seq_length, ?LE; lia.
  Qed.
  Lemma result_at results j : break_even rtol h a = Some results -> (j < b)%nat -> payer_swap h a n j (- (1)) * payer_swap h a n j 1 <= 0 ->
    exists res, nth_error results j = Some res /\ - (1) <= estimated_root res <= 1 /\ (converged res = true <-> Rabs (payer_swap h a n j (estimated_root res)) <= 2 / 10000000).
  Proof using SH R0. clear D1.
    intros E Hj SC. destruct results_exist as (rs & E' & LR). assert (rs = results) by congruence. subst rs. destruct (nth_error results j) as [res|] eqn:ER; [|apply nth_error_None in ER; lia]. exists res. split; [reflexivity|].
    assert (LE : length (expiries a) = b) by apply SH. unfold break_even in E.
    assert (EQ : forall r, zero_fun h a j r = payer_swap h a n j r) by (intros r; apply (zero_is h a b n j r SH Hj)).
    pose proof (C29_result _ _ _ _ _ _ _ _ _ E ltac:(rewrite map_length, seq_length, repeat_length; reflexivity) j (zero_fun h a j) (BInput (- (1)) 1 None None) res) as C.
    destruct C as (B & _ & CV & _).
    - rewrite (map_nth_error (zero_fun h a) j (seq 0 (length (expiries a))) (d := j)); [reflexivity|]. rewrite nth_error_nth' with (d := 0%nat) by (rewrite seq_length; lia). rewrite seq_nth by lia. reflexivity.
    - rewrite nth_error_nth' with (d := BInput (- (1)) 1 None None) by (rewrite repeat_length; lia). rewrite nth_repeat. reflexivity.
    - exact ER.
    - split; left; reflexivity.
    - cbn [left_bracket right_bracket]. rewrite !EQ. exact SC.
    - lra.
    - exact R0.
    - lra.
    - cbn [left_bracket right_bracket] in B. rewrite Rmin_left, Rmax_right in B by lra. rewrite EQ in CV. split; assumption.
  Qed.
  Lemma value_is payer r j : is_payer_swaption a = [payer] -> (j < b)%nat -> 0 <= T j -> (forall i, (i < n)%nat -> T j < payment_time a j i) -> 0 < y (T j) ->
    swaption_value h a n r j = Fin (jamshidian_value h n (payment_amount a j) (payment_time a j) (T j) payer r).
  Proof using HC SV HL SH. clear D1 R0.
    intros PF Hj T0 TS YP. pose proof SH as (LE & B0 & N0 & RP & RD & RC). unfold swaption_value. rewrite PF.
    assert (OP : forall i, (i < n)%nat -> bond_option h (discount_bond_price h 0 r (T j) (entry (payment_times a) j i)) (T j) (entry (payment_times a) j i) (negb (pick true [payer] i)) = Fin (option_part h (payment_time a j) (T j) payer r i)).
    { intros i Hi. rewrite (entry_nth _ b n j i RP Hj Hi). fold (payment_time a j i). unfold pick. cbn [length Nat.eqb nth]. apply (option_part_is h k y G HC SV HL n (payment_time a j) (T j)); assumption. }
    rewrite (fold_sum _ (fun i => option_part h (payment_time a j) (T j) payer r i * coefficient a j i) n 0%nat) by (intros i Hi; rewrite OP by lia; reflexivity).
    rewrite OP by lia. cbn [xadd]. f_equal. unfold jamshidian_value, weight.
    rewrite <- (sum_last n _ (option_part h (payment_time a j) (T j) payer r) N0). apply sum_to_ext. intros i Hi. cbn [Nat.add]. unfold coefficient. rewrite (entry_nth _ b n j i RD Hj Hi), (entry_nth _ b n j i RC Hj Hi). fold (payment_amount a j i). destruct (Nat.eqb _ _); ring.
  Qed.
  Lemma prices_are payer notional results : is_payer_swaption a = [payer] -> notionals a = Some notional -> fits b notional -> break_even rtol h a = Some results ->
    swaption_price rtol h a = Some (map (fun j => Fin (pick 0 notional j) *x swaption_value h a n (estimated_root (nth j results (BResult 0 0 0 false))) j) (seq 0 b)).
  Proof using HC D1 SH.
    intros PF NF FN BE. pose proof SH as (LE & B0 & N0 & RP & RD & RC). unfold swaption_price. rewrite NF, BE, (num_is a b n SH), PF, LE. destruct (Nat.eqb_spec n 0); [lia|]. rewrite (not_generic' h k HC D1).
    assert (CN : common_length n (length [payer]) = Some n) by (unfold common_length; cbn [length]; destruct (Nat.eqb_spec n 1) as [->|]; reflexivity). rewrite CN.
    destruct (common_fits b (length notional) b) as (r & CR & RF & RN); [exact FN|left; reflexivity|]. rewrite CR. rewrite (RN (or_intror eq_refl)). f_equal. apply map_ext_in. intros j Hj. apply in_seq in Hj. f_equal.
    unfold pick at 1. rewrite map_length, seq_length. set (F := fun j => swaption_value h a n (estimated_root (nth j results (BResult 0 0 0 false))) j). replace (if Nat.eqb b 1 then O else j) with j by (destruct (Nat.eqb_spec b 1); lia).
    rewrite (nth_indep (map F (seq 0 b)) NaN (F 0%nat)) by (rewrite map_length, seq_length; lia). rewrite map_nth, seq_nth by lia. reflexivity.
  Qed.
End Analytic.

(** ** The analytic price *)
(** The price of swaption [j] differs from the notional times the expectation of
    exp(-integral of r up to T) (swap value)^+ by at most the notional times P(0, T)
    times the value that is left of the swap at the break-even short rate that the
    root search found.  If the search reports convergence, that value is at most
    2e-7.  The true break-even rate must lie between -1 and 1. *)
Theorem C76_price : forall rtol h k y G a b n payer notional,
  hw_coordinate h 0 k -> hw_dim h = 1%nat -> state_variance (param_at (hw_vol h 0)) k y -> loading k G -> 0 <= rtol ->
  shaped a b n -> is_payer_swaption a = [payer] -> notionals a = Some notional -> fits b notional ->
  exists prices results, swaption_price rtol h a = Some prices /\ length prices = b /\ break_even rtol h a = Some results /\
    forall j, (j < b)%nat -> let T := nth j (expiries a) 0 in let N := pick 0 notional j in
      0 <= T -> (forall i, (i < n)%nat -> T < payment_time a j i) -> 0 < y T -> is_RInt (hw_forward h 0) 0 T (hw_rate h 0 T * T) ->
      regular_leg n (payment_amount a j) (payment_time a j) -> payer_swap h a n j (- (1)) * payer_swap h a n j 1 <= 0 ->
      exists res p V, nth_error results j = Some res /\ - (1) <= estimated_root res <= 1 /\ nth j prices NaN = Fin p /\
        (forall m mx alpha beta, rate_and_integral (hw_forward h 0) (param_at (hw_vol h 0)) k y G T m mx alpha beta ->
           iid_expectation 2 (discounted_swaption h y n (payment_amount a j) (payment_time a j) (swaption_payoff payer) T m mx alpha beta) V) /\
        (payer_swap h a n j (estimated_root res) <= 1 -> Rabs (p - N * V) <= Rabs N * initial_bond h 0 T * Rabs (payer_swap h a n j (estimated_root res))) /\
        (converged res = true -> Rabs (payer_swap h a n j (estimated_root res)) <= 2 / 10000000).
Proof.
  intros rtol h k y G a b n payer notional HC D1 SV HL R0 SH PF NF FN. destruct (results_exist rtol h a b n SH) as (results & BE & LR).
  eexists. exists results. split; [apply (prices_are rtol h k a b n HC D1 SH payer notional results); assumption|]. split; [rewrite map_length, seq_length; reflexivity|]. split; [exact BE|].
  intros j Hj. cbv zeta. intros T0 TS YP HF REG SC. destruct (result_at rtol h a b n SH R0 results j BE Hj SC) as (res & ER & RB & CV).
  set (T := nth j (expiries a) 0) in *. set (N := pick 0 notional j). set (c := payment_amount a j) in *. set (tm := payment_time a j) in *.
  destruct (IVT_cor (payer_swap h a n j) (- (1)) 1) as (root & RR & RZ); [apply continuous_swap; intros i; apply continuous_bond|lra|exact SC|].
  assert (N0 : (0 < n)%nat) by apply SH.
  exists res, (N * jamshidian_value h n c tm T payer (estimated_root res)), (jamshidian_value h n c tm T payer root). split; [exact ER|]. split; [exact RB|].
  assert (EX : forall m mx alpha beta, rate_and_integral (hw_forward h 0) (param_at (hw_vol h 0)) k y G T m mx alpha beta ->
    iid_expectation 2 (discounted_swaption h y n c tm (swaption_payoff payer) T m mx alpha beta) (jamshidian_value h n c tm T payer root)).
  { intros m mx al be RI. assert (Z : swap_value n c (fun i => discount_bond_price h 0 root T (tm i)) = 0) by exact RZ. eapply iid_ext; [|apply (jamshidian_expectation h k y G HC SV HL n c tm T N0 REG T0 TS YP payer root m mx al be); [lra|exact HF|exact RI]].
    intros z. unfold discounted_swaption. rewrite Z, Rminus_0_r. reflexivity. }
  split; [|split; [exact EX|split]].
  - match goal with |- nth j (map ?F (seq 0 b)) NaN = _ => set (FF := F) end. rewrite (nth_indep (map FF (seq 0 b)) NaN (FF 0%nat)) by (rewrite map_length, seq_length; exact Hj). rewrite map_nth, seq_nth by exact Hj. unfold FF. cbn [Nat.add].
    rewrite (nth_error_nth results j _ ER). rewrite (value_is h k y G a b n HC SV HL SH payer (estimated_root res) j PF Hj T0 TS YP). reflexivity.
  - intros L1. destruct (law_exists h k y G HC SV HL T (hw_rate h 0 T * T) T0 YP HF) as (m & mx & al & be & RI). rewrite <- Rmult_minus_distr_l, Rabs_mult, Rmult_assoc. apply Rmult_le_compat_l; [apply Rabs_pos|]. rewrite (Rmult_comm (initial_bond h 0 T)).
    apply (iid_near 2 (discounted_swaption h y n c tm (fun v => swaption_payoff payer (v - payer_swap h a n j (estimated_root res))) T m mx al be) (discounted_swaption h y n c tm (swaption_payoff payer) T m mx al be) (fun z => exp (- (m + al * nth 0 z 0 + be * nth 1 z 0)))).
    + apply (jamshidian_expectation h k y G HC SV HL n c tm T N0 REG T0 TS YP payer (estimated_root res) m mx al be L1 HF RI).
    + apply EX, RI.
    + apply (discount_expectation h k y G HC SV HL T m mx al be T0 HF RI).
    + intros z. unfold discounted_swaption. rewrite <- Rmult_minus_distr_l, Rabs_mult, Rmult_comm. rewrite (Rabs_right (exp _)) by (apply Rle_ge, Rlt_le, exp_pos). apply Rmult_le_compat_r; [left; apply exp_pos|apply payoff_near].
  - apply CV.
Qed.
Print Assumptions C76_price.

(** Payer minus receiver is the value today of the swap that starts at the expiry,
    up to the same remainder, whatever the sign of the coupons. *)
Definition with_flag (a : swaptions) (payer : bool) : swaptions := Swaptions (expiries a) (payment_times a) (daycount_fractions a) (fixed_coupons a) (notionals a) [payer].
Theorem C76_parity : forall rtol h k y G a b n notional,
  hw_coordinate h 0 k -> hw_dim h = 1%nat -> state_variance (param_at (hw_vol h 0)) k y -> loading k G -> 0 <= rtol ->
  shaped a b n -> notionals a = Some notional -> fits b notional ->
  exists payers receivers results, swaption_price rtol h (with_flag a true) = Some payers /\ swaption_price rtol h (with_flag a false) = Some receivers /\ break_even rtol h a = Some results /\
    forall j, (j < b)%nat -> let T := nth j (expiries a) 0 in let N := pick 0 notional j in
      0 <= T -> (forall i, (i < n)%nat -> T < payment_time a j i) -> 0 < y T -> is_RInt (hw_forward h 0) 0 T (hw_rate h 0 T * T) ->
      exists res p q, nth_error results j = Some res /\ nth j payers NaN = Fin p /\ nth j receivers NaN = Fin q /\
        p - q = N * (initial_bond h 0 T - initial_bond h 0 (payment_time a j (n - 1)) - sum_to n (fun i => payment_amount a j i * initial_bond h 0 (payment_time a j i))
                     - payer_swap h a n j (estimated_root res) * initial_bond h 0 T).
Proof.
  intros rtol h k y G a b n notional HC D1 SV HL R0 SH NF FN. destruct (results_exist rtol h a b n SH) as (results & BE & LR).
  assert (W : forall payer, shaped (with_flag a payer) b n) by (intros payer; exact SH). assert (BW : forall payer, break_even rtol h (with_flag a payer) = Some results) by (intros payer; exact BE).
  do 2 eexists. exists results. split; [apply (prices_are rtol h k _ b n HC D1 (W true) true notional results); try assumption; reflexivity|]. split; [apply (prices_are rtol h k _ b n HC D1 (W false) false notional results); try assumption; reflexivity|]. split; [exact BE|].
  intros j Hj. cbv zeta. intros T0 TS YP HF. assert (N0 : (0 < n)%nat) by apply SH. destruct (nth_error results j) as [res|] eqn:ER; [|apply nth_error_None in ER; lia].
  set (T := nth j (expiries a) 0) in *. set (N := pick 0 notional j).
  exists res, (N * jamshidian_value h n (payment_amount a j) (payment_time a j) T true (estimated_root res)), (N * jamshidian_value h n (payment_amount a j) (payment_time a j) T false (estimated_root res)). split; [reflexivity|].
  assert (VAL : forall payer, nth j (map (fun j0 => Fin (pick 0 notional j0) *x swaption_value h (with_flag a payer) n (estimated_root (nth j0 results (BResult 0 0 0 false))) j0) (seq 0 b)) NaN = Fin (N * jamshidian_value h n (payment_amount a j) (payment_time a j) T payer (estimated_root res))).
  { intros payer. match goal with |- nth j (map ?F (seq 0 b)) NaN = _ => set (FF := F) end. rewrite (nth_indep (map FF (seq 0 b)) NaN (FF 0%nat)) by (rewrite map_length, seq_length; exact Hj). rewrite map_nth, seq_nth by exact Hj. unfold FF. cbn [Nat.add].
    rewrite (nth_error_nth results j _ ER). rewrite (value_is h k y G _ b n HC SV HL (W payer) payer (estimated_root res) j eq_refl Hj T0 TS YP). reflexivity. }
  split; [apply VAL|]. split; [apply VAL|]. rewrite <- Rmult_minus_distr_l. f_equal.
  rewrite (jamshidian_parity h k y G HC SV HL n (payment_amount a j) (payment_time a j) T N0 T0 TS YP (estimated_root res) HF). unfold payer_swap. fold T. unfold swap_value at 1. ring.
Qed.
Print Assumptions C76_parity.

(** ** A model with constant parameters *)
Definition flat (k s rate : R) : hw := HW 1 (fun _ => Const k) (fun _ => Const s) None (fun _ _ => rate) (fun _ _ => rate).
Definition flat_y (k s t : R) : R := s ^ 2 * (1 - exp (- (2 * k * t))) / (2 * k).
Definition flat_G (k t T : R) : R := (1 - exp (- (k * (T - t)))) / k.
Lemma flat_facts k s rate : k <> 0 -> hw_coordinate (flat k s rate) 0 k /\ state_variance (param_at (hw_vol (flat k s rate) 0)) k (flat_y k s) /\ loading k (flat_G k) /\
  forall T, 0 <= T -> is_RInt (hw_forward (flat k s rate) 0) 0 T (hw_rate (flat k s rate) 0 T * T).
Proof.
  intros K0. split; [|split; [|split]].
  - split; [reflexivity|]. split; [exact K0|]. split; [exact Logic.I|]. intros x [].
  - intros t T. unfold flat_y. cbn [hw_vol flat param_at]. set (F := fun u => s ^ 2 * exp (- (2 * k * (t - u))) / (2 * k)). apply (rint_val _ _ _ (F t - F 0)); [|unfold F; replace (2 * k * (t - t)) with 0 by ring; rewrite Ropp_0, exp_0, Rminus_0_r; field; exact K0].
    apply rint_derive; unfold F; [intros u; auto_derive; [exact Logic.I|]; unfold Rminus; field; exact K0|intros u; apply (ex_derive_continuous (K := R_AbsRing) (V := R_NormedModule)); auto_derive; exact Logic.I].
  - intros t T. set (F := fun u => - exp (- (k * (u - t))) / k). apply (rint_val _ _ _ (F T - F t)); [|unfold F, flat_G; replace (k * (t - t)) with 0 by ring; rewrite Ropp_0, exp_0; field; exact K0].
    apply rint_derive; unfold F; [intros u; auto_derive; [exact Logic.I|]; unfold Rminus; field; exact K0|intros u; apply (ex_derive_continuous (K := R_AbsRing) (V := R_NormedModule)); auto_derive; exact Logic.I].
  - intros T T0. cbn [hw_forward hw_rate flat]. apply (rint_val _ _ _ ((T - 0) * rate)); [apply (is_RInt_const (V := R_NormedModule))|ring].
Qed.
Lemma bond_scaled k s rate r r' T S : discount_bond_price (flat k s rate) 0 r' T S = discount_bond_price (flat k s rate) 0 r T S * exp (- ((r' - r) * flat_G k T S)).
Proof. unfold discount_bond_price, bond_reconstitution, flat_G. cbv zeta. cbn [hw_mr flat param_at]. rewrite Rmult_assoc, <- exp_plus. f_equal. f_equal. replace (- k * (S - T)) with (- (k * (S - T))) by ring. ring. Qed.
Lemma small_exp x : 0 < x -> exp (- x) < 1.
Proof. intros H. apply Rlt_le_trans with (exp 0); [apply exp_increasing; lra|rewrite exp_0; lra]. Qed.

(** ** Where the property fails *)
(** The default notional, None, is refused. *)
Theorem C76_notional_refuted : forall rtol h a, notionals a = None -> swaption_price rtol h a = None.
Proof. intros rtol h a E. unfold swaption_price. rewrite E. reflexivity. Qed.
Print Assumptions C76_notional_refuted.
(** Mean reversion 1, volatility 1, curve flat at 2, two swaptions with the expiry
    1 and payments at 2 and 3.  One flag per swaption is documented, but the flags
    are matched with the payments: the first swaption of [payer; receiver] does not
    have the price of the payer swaption. *)
Definition steep : hw := flat 1 1 2.
Definition even_coupons (T : R) : list R := [1 / (2 * discount_bond_price steep 0 0 T 2); 1 / (2 * discount_bond_price steep 0 0 T 3) - 1].
Definition two_flags (flags : list bool) : swaptions := Swaptions [1; 1] [[2; 3]; [2; 3]] [[1; 1]; [1; 1]] [even_coupons 1; even_coupons 1] (Some [1]) flags.
Lemma even_sign T a j : T < 2 -> nth j (expiries a) 0 = T -> (forall i, (i < 2)%nat -> payment_time a j i = nth i [2; 3] 0) -> (forall i, (i < 2)%nat -> payment_amount a j i = nth i (even_coupons T) 0) ->
  payer_swap steep a 2 j (- (1)) * payer_swap steep a 2 j 1 <= 0.
Proof.
  intros T2 ET EP EA. unfold payer_swap. rewrite !swap_as_sum by lia. unfold weight. cbn [sum_to Nat.eqb]. rewrite ET, !EP, !EA by lia. unfold even_coupons. cbn [nth].
  pose proof (discount_pos steep 0 0 T 2) as P2. pose proof (discount_pos steep 0 0 T 3) as P3. unfold steep in *. rewrite !(bond_scaled 1 1 2 0 (- (1))), !(bond_scaled 1 1 2 0 1).
  set (p2 := discount_bond_price (flat 1 1 2) 0 0 T 2) in *. set (p3 := discount_bond_price (flat 1 1 2) 0 0 T 3) in *.
  assert (GP : forall S, T < S -> 0 < flat_G 1 T S) by (intros S HS; unfold flat_G; pose proof (small_exp (1 * (S - T)) ltac:(lra)); lra). pose proof (GP 2 T2) as G2. pose proof (GP 3 ltac:(lra)) as G3. set (g2 := flat_G 1 T 2) in *. set (g3 := flat_G 1 T 3) in *.
  replace (- ((1 - 0) * g2)) with (- g2) by ring. replace (- ((1 - 0) * g3)) with (- g3) by ring. replace (- ((- (1) - 0) * g2)) with g2 by ring. replace (- ((- (1) - 0) * g3)) with g3 by ring.
  match goal with |- ?x * ?z <= 0 => replace x with (1 - (exp g2 + exp g3) / 2) by (field; lra); replace z with (1 - (exp (- g2) + exp (- g3)) / 2) by (field; lra) end.
  pose proof (small_exp g2 G2). pose proof (small_exp g3 G3). pose proof (exp_ineq1 g2 ltac:(lra)). pose proof (exp_ineq1 g3 ltac:(lra)). nra.
Qed.
Theorem C76_flags_refuted : forall rtol, 0 <= rtol ->
  exists p u q v, swaption_price rtol steep (two_flags [true; false]) = Some [p; u] /\ swaption_price rtol steep (two_flags [true]) = Some [q; v] /\ p <> q.
Proof.
  intros rtol R0. destruct (flat_facts 1 1 2 ltac:(lra)) as (HC & SV & HL & HF). fold steep in HC, SV, HF.
  assert (SH : forall fl, shaped (two_flags fl) 2 2) by (intros fl; repeat split; try (cbn; lia); intros j Hj; (destruct j as [|[|j]]; [reflexivity|reflexivity|lia])).
  destruct (results_exist rtol steep (two_flags [true]) 2 2 (SH _)) as (results & BE & LR). assert (BE' : break_even rtol steep (two_flags [true; false]) = Some results) by exact BE.
  destruct (result_at rtol steep (two_flags [true]) 2 2 (SH _) R0 results 0 BE ltac:(lia)) as (res & ER & RB & _).
  { apply (even_sign 1); [lra|reflexivity| |]; intros i Hi; destruct i as [|[|i]]; try lia; unfold payment_time, payment_amount; cbn [two_flags payment_times daycount_fractions fixed_coupons nth]; unfold even_coupons; cbn [nth]; try reflexivity; ring. }
  assert (NR : nth 0 results (BResult 0 0 0 false) = res) by (apply nth_error_nth, ER). set (r := estimated_root res) in *.
  unfold swaption_price. cbn [notionals two_flags]. rewrite BE, BE'. cbn [num_payments two_flags payment_times nth length Nat.eqb common_length expiries is_payer_swaption]. rewrite (not_generic' steep 1 HC eq_refl).
  cbn [common_length Nat.eqb seq map length]. do 4 eexists. split; [reflexivity|]. split; [reflexivity|]. unfold pick. cbn [Nat.eqb length nth]. rewrite NR. fold r.
  unfold swaption_value. cbn [seq map fold_right Nat.sub two_flags expiries nth is_payer_swaption]. unfold pick. cbn [length Nat.eqb nth negb]. unfold entry, pick. cbn [payment_times two_flags nth length Nat.eqb].
  set (K := discount_bond_price steep 0 r 1 2). set (L := discount_bond_price steep 0 r 1 3). assert (LP : 0 < L) by apply discount_pos. assert (KP : 0 < K) by apply discount_pos.
  assert (YP : 0 < flat_y 1 1 1) by (unfold flat_y; pose proof (small_exp (2 * 1 * 1) ltac:(lra)); lra).
  destruct (C68_parity steep 1 _ _ L 1 3 HC SV HL LP ltac:(lra) ltac:(lra) YP) as (c3 & p3 & -> & -> & E3). destruct (C68_parity steep 1 _ _ K 1 2 HC SV HL KP ltac:(lra) ltac:(lra) YP) as (c2 & p2 & _ & -> & _).
  cbn [xmul xadd]. unfold coefficient, entry, pick. cbn [daycount_fractions fixed_coupons two_flags nth length Nat.eqb]. unfold even_coupons. cbn [nth length Nat.eqb].
  set (w := 1 / (2 * discount_bond_price steep 0 0 1 3)). assert (WP : 0 < w) by (unfold w; apply Rdiv_lt_0_compat; [lra|]; pose proof (discount_pos steep 0 0 1 3); lra). set (w2 := 1 / (2 * discount_bond_price steep 0 0 1 2)).
  intros E. injection E as E. assert (D : w * (c3 - p3) = 0) by lra. apply Rmult_integral in D as [D|D]; [lra|]. rewrite E3 in D.
  assert (LF : initial_bond steep 0 3 < L * initial_bond steep 0 1); [|lra]. unfold L. rewrite (C67_formula steep 0 1 _ _ r 1 3 HC SV HL ltac:(lra)). pose proof (exp_pos (- (hw_rate steep 0 1 * 1))) as IP. fold (initial_bond steep 0 1) in IP. pose proof (exp_pos (- (hw_rate steep 0 3 * 3))) as JP. fold (initial_bond steep 0 3) in JP.
  replace (initial_bond steep 0 3 / initial_bond steep 0 1 * exp (- ((r - hw_forward steep 0 1) * flat_G 1 1 3) - flat_y 1 1 1 * flat_G 1 1 3 ^ 2 / 2) * initial_bond steep 0 1) with (initial_bond steep 0 3 * exp (- ((r - hw_forward steep 0 1) * flat_G 1 1 3) - flat_y 1 1 1 * flat_G 1 1 3 ^ 2 / 2)) by (field; lra).
  assert (GB : 0 < flat_G 1 1 3 < 1) by (unfold flat_G; pose proof (small_exp (1 * (3 - 1)) ltac:(lra)); pose proof (exp_pos (- (1 * (3 - 1)))); lra). assert (YB : flat_y 1 1 1 < 1) by (unfold flat_y; pose proof (exp_pos (- (2 * 1 * 1))); lra).
  cbn [hw_forward steep flat]. set (g := flat_G 1 1 3) in *. set (yy := flat_y 1 1 1) in *. assert (XP : 0 < - ((r - 2) * g) - yy * g ^ 2 / 2) by nra. pose proof (exp_ineq1 _ (Rgt_not_eq _ _ XP)). nra.
Qed.
Print Assumptions C76_flags_refuted.
(** Three swaptions with two payments each and three flags are refused. *)
Theorem C76_flags_shape_refuted : forall rtol h a b n notional f1 f2 f3, shaped a b n -> notionals a = Some notional -> n <> 1%nat -> n <> 3%nat -> is_payer_swaption a = [f1; f2; f3] -> swaption_price rtol h a = None.
Proof.
  intros rtol h a b n notional f1 f2 f3 SH NF N1 N3 PF. unfold swaption_price. rewrite NF, PF, (num_is a b n SH). destruct (Nat.eqb n 0); [reflexivity|]. destruct (break_even rtol h a); [|reflexivity]. destruct (sample_with_generic h); [reflexivity|].
  unfold common_length at 1. cbn [length Nat.eqb]. destruct (Nat.eqb_spec n 3); [contradiction|]. destruct (Nat.eqb_spec n 1); [contradiction|]. reflexivity.
Qed.
Print Assumptions C76_flags_shape_refuted.
(** A swaption that expired in the past is documented to have the price 0.  The
    expiry -1, payments at 2 and 3. *)
Definition past : swaptions := Swaptions [- (1)] [[2; 3]] [[1; 1]] [even_coupons (- (1))] (Some [1]) [true].
Lemma past_option r S : r <= 1 -> 0 < S -> exists p, bond_option steep (discount_bond_price steep 0 r (- (1)) S) (- (1)) S false = Fin p /\ 0 < p.
Proof.
  intros R1 S0. set (K := discount_bond_price steep 0 r (- (1)) S). assert (KP : 0 < K) by apply discount_pos. set (F := initial_bond steep 0 S / initial_bond steep 0 (- (1))).
  assert (IP : forall t, 0 < initial_bond steep 0 t) by (intros t; apply exp_pos). assert (FP : 0 < F) by (apply Rdiv_lt_0_compat; apply IP).
  assert (V : variance_at steep 0 (- (1)) < 0).
  { unfold variance_at. cbn. unfold variance_int. replace (2 * 1 * 0) with 0 by ring. rewrite exp_0. pose proof (small_exp 2 ltac:(lra)) as E. replace (2 * 1 * - (1)) with (- (2)) by ring. lra. }
  assert (W : bond_option_variance steep (- (1)) S < 0).
  { unfold bond_option_variance. cbv zeta. cbn [hw_mr steep flat param_at]. assert (Q : exp (- (1) * S) < exp (- (1) * - (1))) by (apply exp_increasing; lra). set (d := exp (- (1) * - (1)) - exp (- (1) * S)) in *. assert (0 < d) by (unfold d; lra). replace (variance_at steep 0 (- (1)) * d ^ 2 / 1 ^ 2) with (variance_at steep 0 (- (1)) * (d * d)) by field. assert (0 < d * d) by nra. nra. }
  assert (FK : F < K).
  { unfold K, discount_bond_price, bond_reconstitution. cbv zeta. cbn [hw_mr steep flat param_at hw_forward]. unfold F, initial_bond. cbn [hw_rate steep flat]. replace (- (2) * S) with (- (2 * S)) by ring. replace (- (2) * - (1)) with (- (2 * - (1))) by ring.
    set (q := exp (- (2 * S)) / exp (- (2 * - (1)))). assert (QP : 0 < q) by (unfold q; apply Rdiv_lt_0_compat; apply exp_pos). set (g := (1 - exp (- (1) * (S - - (1)))) / 1). assert (GP : 0 < g) by (unfold g; replace (- (1) * (S - - (1))) with (- (S + 1)) by ring; pose proof (small_exp (S + 1) ltac:(lra)); lra).
    assert (Y : compute_yt steep 0 (- (1)) < 0) by (unfold compute_yt; pose proof (exp_pos (-2 * param_at (hw_mr steep 0) (- (1)) * - (1))); nra). set (yy := compute_yt steep 0 (- (1))) in *.
    assert (X : 0 < - ((r - 2) * g) - 1 / 2 * (yy * g ^ 2)) by (assert (0 < g * g) by nra; nra). change (q < q * exp (- ((r - 2) * g) - 1 / 2 * (yy * g ^ 2))). pose proof (exp_ineq1 _ (Rgt_not_eq _ _ X)). nra. }
  exists (K - F). split; [|lra]. unfold bond_option. cbv zeta. replace (xsqrt (Fin (bond_option_variance steep (- (1)) S))) with NaN by (cbn [xsqrt]; destruct (rlt_spec (bond_option_variance steep (- (1)) S) 0); [reflexivity|lra]).
  destruct (rlt_spec S (- (1))); [lra|]. cbn [xlt]. replace (- hw_rate steep 0 S * S) with (- (hw_rate steep 0 S * S)) by ring. replace (- hw_rate steep 0 (- (1)) * - (1)) with (- (hw_rate steep 0 (- (1)) * - (1))) by ring. fold (initial_bond steep 0 S) (initial_bond steep 0 (- (1))).
  rewrite xdiv_f by (apply Rgt_not_eq, IP). fold F. unfold xsub. cbn [xopp xadd]. rewrite xmax_f. f_equal. rewrite Rmax_left; lra.
Qed.
Theorem C76_past_refuted : forall rtol, 0 <= rtol -> exists p, swaption_price rtol steep past = Some [Fin p] /\ 0 < p.
Proof.
  intros rtol R0. destruct (flat_facts 1 1 2 ltac:(lra)) as (HC & _). fold steep in HC.
  assert (SH : shaped past 1 2) by (repeat split; try (cbn; lia); intros j Hj; (destruct j as [|j]; [reflexivity|lia])).
  destruct (results_exist rtol steep past 1 2 SH) as (results & BE & LR). destruct (result_at rtol steep past 1 2 SH R0 results 0 BE ltac:(lia)) as (res & ER & RB & _).
  { apply (even_sign (- (1))); [lra|reflexivity| |]; intros i Hi; destruct i as [|[|i]]; try lia; unfold payment_time, payment_amount; cbn [past payment_times daycount_fractions fixed_coupons nth]; unfold even_coupons; cbn [nth]; try reflexivity; ring. }
  assert (NR : nth 0 results (BResult 0 0 0 false) = res) by (apply nth_error_nth, ER). set (r := estimated_root res) in *.
  unfold swaption_price. cbn [notionals past]. rewrite BE. cbn [num_payments past payment_times nth length Nat.eqb common_length expiries is_payer_swaption]. rewrite (not_generic' steep 1 HC eq_refl).
  cbn [common_length Nat.eqb seq map length]. unfold pick. cbn [Nat.eqb length nth]. rewrite NR. fold r.
  unfold swaption_value. cbn [seq map fold_right Nat.sub past expiries nth is_payer_swaption]. unfold pick. cbn [length Nat.eqb nth negb]. unfold entry, pick. cbn [payment_times past nth length Nat.eqb].
  destruct (past_option r 2 (proj2 RB) ltac:(lra)) as (p2 & -> & P2). destruct (past_option r 3 (proj2 RB) ltac:(lra)) as (p3 & -> & P3).
  cbn [xmul xadd]. unfold coefficient, entry, pick. cbn [daycount_fractions fixed_coupons past nth length Nat.eqb]. unfold even_coupons. cbn [nth length Nat.eqb].
  pose proof (discount_pos steep 0 0 (- (1)) 2) as Q2. pose proof (discount_pos steep 0 0 (- (1)) 3) as Q3. eexists. split; [reflexivity|].
  set (w2 := 1 / (2 * discount_bond_price steep 0 0 (- (1)) 2)). set (w3 := 1 / (2 * discount_bond_price steep 0 0 (- (1)) 3)). assert (W2 : 0 < w2) by (unfold w2; apply Rdiv_lt_0_compat; lra). assert (W3 : 0 < w3) by (unfold w3; apply Rdiv_lt_0_compat; lra). nra.
Qed.
Print Assumptions C76_past_refuted.

(** ** Valuation by simulation *)
Lemma sort_found l x : In x l -> (searchsorted_left (sort l) x < length (sort l))%nat /\ at_ (sort l) (searchsorted_left (sort l) x) = x.
Proof.
  intros H. pose proof (sort_nondecr l) as ND. set (s := sort l) in *. assert (IS : In x s) by (apply sort_in, H). apply (In_nth _ _ 0) in IS. destruct IS as (m & M & E).
  assert (L : (searchsorted_left s x <= m)%nat) by (destruct (le_lt_dec (searchsorted_left s x) m) as [Q|Q]; [exact Q|]; pose proof (ssl_below s x m Q) as B; unfold at_ in B; lra).
  split; [lia|]. apply Rle_antisym; [|apply ssl_above; [exact ND|lia]]. rewrite <- E at 2. change (nth m s 0) with (at_ s m). apply nondecr_le; [exact ND|exact L|exact M].
Qed.
Lemma range_steps limit delta : 0 < delta <= limit -> exists m, step_range delta limit delta = Some (map (fun i => INR (S i) * delta) (seq 0 m)) /\ limit <= INR (S m) * delta /\ forall k, (k < m)%nat -> INR (S k) * delta < limit.
Proof.
  intros D. destruct (range_ok (limit - delta) delta ltac:(lra) ltac:(lra)) as (m & E & A & B). exists m. split.
  - unfold range_from_0 in E. unfold step_range. destruct (Req_EM_T delta 0); [lra|]. destruct (rlt_spec limit delta); [lra|]. rewrite andb_false_r. destruct (rlt_spec delta 0); [lra|]. destruct (rlt_spec (limit - delta) 0); [lra|]. rewrite andb_false_r in E. cbn [andb] in *. injection E as E. f_equal.
    assert (LM : Z.to_nat (ceil (Rabs ((limit - delta) / delta))) = m) by (apply (f_equal (@length R)) in E; rewrite !map_length, !seq_length in E; exact E). rewrite LM. apply map_ext. intros i. rewrite S_INR. ring.
  - rewrite S_INR. split; [lra|]. intros k Hk. rewrite S_INR. specialize (B k Hk). lra.
Qed.
Lemma sorted_unique_increasing l : NoDup l -> increasing (sort l).
Proof.
  intros ND i Hi. pose proof (sort_nondecr l i Hi) as L. assert (NS : NoDup (sort l)) by (apply (Permutation_NoDup (Permutation_sym (sort_perm l))), ND). destruct L as [L|L]; [unfold at_ in L; lra|].
  exfalso. pose proof (proj1 (NoDup_nth (sort l) 0) NS i (S i) ltac:(lia) Hi L). lia.
Qed.
Lemma last_nth_R (l : list R) : last l 0 = nth (length l - 1) l 0.
Proof. induction l as [|x l IH]; [reflexivity|]. destruct l as [|z l]; [reflexivity|]. change (last (x :: z :: l) 0) with (last (z :: l) 0). rewrite IH. cbn [length]. replace (S (S (length l)) - 1)%nat with (S (length l)) by lia. replace (S (length l) - 1)%nat with (length l) by lia. reflexivity. Qed.
Lemma increasing_lt l : increasing l -> forall i j, (i < j)%nat -> (j < length l)%nat -> nth i l 0 < nth j l 0.
Proof. intros H i j L K. induction L as [|j L IH]; [pose proof (H i K); lra|]. specialize (IH ltac:(lia)). pose proof (H j K). lra. Qed.
(** The simulation times: the multiples of the time step before the expiry, and
    the expiry; they begin with the time step. *)
Definition simulation_times (T step : R) (times : list R) : Prop :=
  increasing times /\ nth 0 times 0 = step /\ last times 0 = T /\ forall t, In t times <-> t = T \/ exists i : nat, t = INR (S i) * step /\ t < T.
Lemma sim_times T step steps : 0 < step <= T -> step_range step T step = Some steps -> simulation_times T step (sort ([T] ++ steps)) /\ searchsorted_left (sort ([T] ++ steps)) T = (length (sort ([T] ++ steps)) - 1)%nat.
Proof.
  intros D E. destruct (range_steps T step D) as (m & E' & A & B). rewrite E in E'. injection E' as ->. set (l := [T] ++ map (fun i => INR (S i) * step) (seq 0 m)).
  assert (IN : forall t, In t l <-> t = T \/ exists i : nat, t = INR (S i) * step /\ t < T).
  { intros t. unfold l. cbn [app In]. rewrite in_map_iff. split.
    - intros [<-|(i & <- & Hi)]; [left; reflexivity|]. right. exists i. split; [reflexivity|]. apply B. apply in_seq in Hi. lia.
    - intros [->|(i & -> & L)]; [left; reflexivity|]. right. exists i. split; [reflexivity|]. apply in_seq. split; [lia|]. destruct (le_lt_dec m i) as [Q|Q]; [exfalso|lia]. apply le_n_S, le_INR in Q. nra. }
  assert (ND : NoDup l).
  { unfold l. cbn [app]. constructor; [|].
    - intros H. apply in_map_iff in H. destruct H as (i & E1 & Hi). apply in_seq in Hi. specialize (B i ltac:(lia)). lra.
    - apply FinFun.Injective_map_NoDup; [|apply seq_NoDup]. intros i j Q. apply Rmult_eq_reg_r in Q; [|lra]. apply INR_eq in Q. lia. }
  pose proof (sorted_unique_increasing l ND) as INC. assert (LT : forall t, In t l -> step <= t <= T).
  { intros t H. apply IN in H. destruct H as [->|(i & -> & L)]; [lra|]. rewrite S_INR in *. pose proof (pos_INR i). split; nra. }
  assert (LP : (0 < length (sort l))%nat) by (rewrite sort_length; cbn; lia).
  assert (ST : In step l) by (apply IN; destruct (Req_dec step T) as [->|N]; [left; reflexivity|right; exists 0%nat; cbn [INR]; split; [ring|lra]]).
  destruct (sort_found l T (proj2 (IN T) (or_introl eq_refl))) as (SL & SE).
  assert (LAST : searchsorted_left (sort l) T = (length (sort l) - 1)%nat).
  { destruct (Nat.eq_dec (searchsorted_left (sort l) T) (length (sort l) - 1)) as [Q|Q]; [exact Q|exfalso]. pose proof (increasing_lt _ INC (searchsorted_left (sort l) T) (length (sort l) - 1) ltac:(lia) ltac:(lia)) as C. unfold at_ in SE. rewrite SE in C. assert (IL : In (nth (length (sort l) - 1) (sort l) 0) l) by (apply sort_in, nth_In; lia). apply LT in IL. lra. }
  split; [|exact LAST]. split; [exact INC|]. split; [|split].
  - apply (proj2 (sort_in l step)) in ST. apply (In_nth _ _ 0) in ST. destruct ST as (q & Q & EQ). destruct (Nat.eq_dec q 0) as [->|NQ]; [exact EQ|exfalso]. pose proof (increasing_lt _ INC 0 q ltac:(lia) Q) as C. assert (IL : In (nth 0 (sort l) 0) l) by (apply sort_in, nth_In; lia). apply LT in IL. lra.
  - rewrite last_nth_R. pose proof SE as SE2. rewrite LAST in SE2. exact SE2.
  - intros t. rewrite sort_in. apply IN.
Qed.
(** The price is the mean over the samples of the payoff discounted along the path,
    but the discount factor begins at the first simulation time, not at 0. *)
Theorem C76_simulated : forall cholesky generated h k V M y G T payments coefs notional payer num step,
  hw_setting h k V M -> hw_dim h = 1%nat -> hw_corr h = None -> state_variance (param_at (hw_vol h 0)) (k 0%nat) y -> loading (k 0%nat) G ->
  0 < step <= T -> length coefs = length payments -> (0 < length coefs)%nat -> (0 < num)%nat ->
  exists times rate, simulation_times T step times /\ hw_sample_paths cholesky generated h times None None false = Some rate /\
    let r i s := nth i rate (fun _ _ => 0) s 0%nat in let last := (length times - 1)%nat in
    swaption_price_mc cholesky generated h T payments coefs notional payer num step =
      Some (notional * (sum_to num (fun s =>
        exp (- sum_to last (fun j => r (S j) s * (nth (S j) times 0 - nth j times 0))) *
        swaption_payoff payer (swap_value (length coefs) (fun i => nth i coefs 0) (fun i => discount_bond_price h 0 (r last s) T (nth i payments 0)))) / INR num)).
Proof.
  intros ch gen h k V M y G T payments coefs notional payer num step HS D1 CN SV HL ST LC L0 N0. destruct (range_steps T step ST) as (m & E & _). set (steps := map (fun i => INR (S i) * step) (seq 0 m)) in *.
  destruct (sim_times T step steps ST E) as (TI & IX). set (times := sort ([T] ++ steps)) in *. pose proof TI as (INC & T1 & TL & _).
  assert (LT : (0 < length times)%nat) by (unfold times; rewrite sort_length; cbn; lia).
  set (tau := map (fun t => t - T) payments). set (ct := sort (nodup Req_EM_T tau)).
  assert (SG : simulation_grid h times (sort (0 :: times ++ all_jumps h))) by (split; [apply sort_nondecr|apply sort_perm]).
  destruct (C67_curve_paths ch gen h times ct None false gen k V M (fun _ => identity_matrix) (sort (0 :: times ++ all_jumps h)) (fun a => if Nat.eqb a 0 then y else fun t => exp (- 2 * k a * t) * V a t) (fun a => if Nat.eqb a 0 then G else fun t T => (1 - exp (- (k a * (T - t)))) / k a)) as (curve & rate & idx & SE & LR & PR).
  - exact HS.
  - rewrite D1. lia.
  - intros Q. rewrite Q in LT. cbn in LT. lia.
  - exact INC.
  - rewrite T1. lra.
  - exact SG.
  - unfold step_factors. rewrite CN. reflexivity.
  - reflexivity.
  - intros a Ha. replace a with 0%nat by lia. cbn [Nat.eqb]. split; assumption.
  - exists times, rate. split; [exact TI|]. assert (SP : hw_sample_paths ch gen h times None None false = Some rate) by (unfold sample_discount_curve_paths in SE; destruct (hw_sample_paths ch gen h times None None false); [congruence|discriminate SE]). split; [exact SP|].
    cbv zeta. unfold swaption_price_mc. rewrite E. fold times tau. cbv zeta. fold ct. rewrite SE. destruct (Nat.eqb_spec num 0); [lia|]. f_equal. f_equal. f_equal. rewrite rsum_to. apply sum_to_ext. intros s _. rewrite IX. set (la := (length times - 1)%nat).
    assert (DF : path_discount_factor times (fun j => nth j rate (fun _ _ => 0) s 0%nat) la = exp (- sum_to la (fun j => nth (S j) rate (fun _ _ => 0) s 0%nat * (nth (S j) times 0 - nth j times 0)))).
    { unfold path_discount_factor. f_equal. f_equal. rewrite rsum_to, sum_to_first. cbn [time_step_at]. rewrite Rmult_0_r, Rplus_0_l. reflexivity. }
    rewrite DF. set (D := exp (- sum_to la (fun j => nth (S j) rate (fun _ _ => 0) s 0%nat * (nth (S j) times 0 - nth j times 0)))). assert (DP : 0 < D) by apply exp_pos.
    assert (SW : payoff_swap coefs (fun i => curve s (searchsorted_left ct (at_ tau i)) la 0%nat) = swap_value (length coefs) (fun i => nth i coefs 0) (fun i => discount_bond_price h 0 (nth la rate (fun _ _ => 0) s 0%nat) T (nth i payments 0))).
    { assert (BP : forall i, (i < length coefs)%nat -> curve s (searchsorted_left ct (at_ tau i)) la 0%nat = discount_bond_price h 0 (nth la rate (fun _ _ => 0) s 0%nat) T (nth i payments 0)).
      { intros i Hi. assert (IT : In (at_ tau i) tau) by (apply nth_In; unfold tau; rewrite map_length; lia). destruct (sort_found (nodup Req_EM_T tau) (at_ tau i) (proj2 (nodup_In Req_EM_T tau _) IT)) as (SL & SA). fold ct in SL, SA.
        destruct (PR la ltac:(unfold la; lia)) as (_ & _ & P). destruct (P s 0%nat ltac:(lia)) as (_ & Q). specialize (Q _ SL). cbv zeta in Q. cbn [Nat.eqb] in Q.
        assert (ET : nth la times 0 = T) by (rewrite <- TL, last_nth_R; reflexivity). unfold at_ in SA. rewrite ET in Q. replace (T + nth (searchsorted_left ct (at_ tau i)) ct 0) with (nth i payments 0) in Q.
        - fold (at_ tau i) in Q. rewrite Q. symmetry. apply (C67_formula h 0 (k 0%nat)); [|exact SV|exact HL|lra]. destruct (HS 0%nat ltac:(lia)) as (MR & K0 & VO & PJ & _ & _). repeat split; assumption.
        - fold (at_ tau i) in SA. rewrite SA. unfold at_, tau. set (F := fun t => t - T). rewrite (nth_indep (map F payments) 0 (F 0)) by (rewrite map_length; lia). rewrite map_nth. unfold F. ring. }
      unfold payoff_swap, swap_value. cbv zeta. rewrite rsum_to, BP by lia. rewrite (sum_to_ext (length coefs) (fun i => at_ coefs i * curve s (searchsorted_left ct (at_ tau i)) la 0%nat) (fun i => nth i coefs 0 * discount_bond_price h 0 (nth la rate (fun _ _ => 0) s 0%nat) T (nth i payments 0))) by (intros i Hi; rewrite BP by exact Hi; reflexivity). ring. }
    rewrite SW. set (v := swap_value _ _ _). unfold swaption_payoff. destruct payer.
    + unfold Rmax. destruct (Rle_dec (D * v) 0), (Rle_dec v 0); nra.
    + unfold Rmax. destruct (Rle_dec (- (1) * (D * v)) 0), (Rle_dec (- v) 0); nra.
Qed.
Print Assumptions C76_simulated.
(** ** Where the simulation fails *)
(** In the deterministic model with the flat rate 1 the simulated rates are 1. *)
Lemma quiet_setting : hw_setting quiet (fun _ => 1) (fun _ _ => 0) (fun _ _ => 0).
Proof.
  intros a Ha. split; [reflexivity|]. split; [lra|]. split; [exact Logic.I|]. split; [intros x []|]. split; intros t T; apply (rint_ext (fun _ => 0)); try exact T; try (intros u _; cbn; ring); apply (rint_val _ _ _ ((t - 0) * 0)); try apply (is_RInt_const (V := R_NormedModule)); ring.
Qed.
Lemma quiet_rates ch gen times rate : times <> [] -> increasing times -> 0 <= nth 0 times 0 -> hw_sample_paths ch gen quiet times None None false = Some rate -> forall i s, (i < length times)%nat -> nth i rate (fun _ _ => 0) s 0%nat = 1.
Proof.
  intros TN TI T0 E i s Hi. destruct (C66_path ch gen quiet times None false gen (fun _ => 1) (fun _ _ => 0) (fun _ _ => 0) (fun _ => identity_matrix) (sort (0 :: times ++ all_jumps quiet)) quiet_setting) as (r & idx & E' & _ & P); [cbn; lia|exact TN|exact TI|exact T0|split; [apply sort_nondecr|apply sort_perm]|unfold step_factors; cbn; reflexivity|reflexivity|].
  rewrite E in E'. injection E' as <-. destruct (P i Hi) as (_ & _ & Q). rewrite Q by (cbn; lia). unfold hw_solution. cbn [hw_forward quiet]. rewrite (sum_to_ext _ _ (fun _ => 0)) by (intros j _; rewrite Rminus_0_r, sqrt_0; ring). rewrite sum_zero by reflexivity. ring.
Qed.
Lemma quiet_bond r t T : 0 <= t -> r = 1 -> discount_bond_price quiet 0 r t T = exp (- (T - t)).
Proof.
  intros T0 ->. destruct C68_zero_variance_refuted as (HC & SV & HL & _). rewrite (C67_formula quiet 0 1 _ _ 1 t T HC SV HL T0). unfold initial_bond, Rdiv at 1. rewrite <- exp_Ropp, <- !exp_plus. f_equal. cbn [hw_rate hw_forward quiet]. lra.
Qed.
Lemma nodup_singleton (a : R) : nodup Req_EM_T [a] = [a].
Proof. reflexivity. Qed.
(** One simulation step of length 1, a swap of one payment at time 2 without coupon:
    the result lacks the discounting from the expiry 1. *)
Theorem C76_simulated_refuted : forall cholesky generated num, (0 < num)%nat ->
  let y (_ : R) := 0 in let G t T := (1 - exp (- (1 * (T - t)))) / 1 in
  rate_and_integral (hw_forward quiet 0) (param_at (hw_vol quiet 0)) 1 y G 1 1 0 0 0 /\
  exists p, swaption_price_mc cholesky generated quiet 1 [2] [0] 1 true num 1 = Some p /\
    ~ iid_expectation 2 (discounted_swaption quiet y 1 (fun _ => 0) (fun _ => 2) (swaption_payoff true) 1 1 0 0 0) p.
Proof.
  intros ch gen num N0 y G. destruct C68_zero_variance_refuted as (HC & SV & HL & _ & RI & _). fold y G in SV, HL, RI. split; [exact RI|].
  destruct (C76_simulated ch gen quiet (fun _ => 1) (fun _ _ => 0) (fun _ _ => 0) y G 1 [2] [0] 1 true num 1 quiet_setting eq_refl eq_refl SV HL ltac:(lra) eq_refl ltac:(cbn; lia) N0) as (times & rate & (INC & F1 & LA & _) & SP & E).
  assert (L1 : length times = 1%nat).
  { destruct times as [|a [|b l]]; [cbn in F1; lra|reflexivity|exfalso]. rewrite last_nth_R in LA. pose proof (increasing_lt _ INC 0 (length (a :: b :: l) - 1) ltac:(cbn; lia) ltac:(cbn; lia)). lra. }
  assert (TN : times <> []) by (intros Q; rewrite Q in L1; discriminate L1).
  cbv zeta in E. rewrite L1 in E. cbn [Nat.sub length] in E. set (x := exp (- (1))) in *. assert (XP : 0 < x < 1) by (split; [apply exp_pos|unfold x; apply Rlt_le_trans with (exp 0); [apply exp_increasing; lra|rewrite exp_0; lra]]).
  assert (B1 : forall r, r = 1 -> swap_value 1 (fun i => nth i [0] 0) (fun i => discount_bond_price quiet 0 r 1 (nth i [2] 0)) = 1 - x).
  { intros r R1. unfold swap_value. cbn [Nat.sub sum_to nth]. rewrite (quiet_bond r 1 2 ltac:(lra) R1). replace (exp (- (2 - 1))) with x by (unfold x; f_equal; ring). ring. }
  exists (1 - x). split.
  - rewrite E. f_equal. rewrite (sum_to_ext num _ (fun _ => 1 - x)).
    + rewrite sum_to_const. field. apply not_0_INR. lia.
    + intros s _. cbn [sum_to]. rewrite Ropp_0, exp_0, B1 by (apply (quiet_rates ch gen times rate TN INC ltac:(lra) SP 0 s); lia). unfold swaption_payoff. rewrite Rmax_left by lra. ring.
  - intros E1. assert (E2 : iid_expectation 2 (discounted_swaption quiet y 1 (fun _ => 0) (fun _ => 2) (swaption_payoff true) 1 1 0 0 0) (x * (1 - x))).
    { assert (C : forall z, discounted_swaption quiet y 1 (fun _ => 0) (fun _ => 2) (swaption_payoff true) 1 1 0 0 0 z = x * (1 - x)).
      { intros z. unfold discounted_swaption. f_equal; [unfold x; f_equal; ring|]. unfold swap_value. cbn [Nat.sub sum_to]. rewrite quiet_bond; [|lra|unfold y; rewrite sqrt_0; cbn [hw_forward quiet]; ring]. replace (exp (- (2 - 1))) with x by (unfold x; f_equal; ring). unfold swaption_payoff. rewrite Rmax_left; lra. }
      exists (fun _ => x * (1 - x)). split; [|apply expect_const]. intros u. exists (fun _ => x * (1 - x)). split; [|apply expect_const]. intros w. cbn [iid_expectation]. symmetry. apply C. }
    pose proof (iid_unique 2 _ _ _ E1 E2) as Q. nra.
Qed.
Print Assumptions C76_simulated_refuted.
(** The flag of a Bermudan swaption is ignored: receiver and payer are always worth
    the same, and in the example the receiver swaption, which pays exp(-1) * 3 less
    1 - exp(-1) > 0 at its only exercise time 1, gets the price 0. *)
Theorem C76_bermudan_receiver_refuted : 
  (forall cholesky generated pinv bs design h ets payments coefs notional num step,
     bermudan_swaption_price cholesky generated pinv bs design h ets payments coefs notional true num step =
     bermudan_swaption_price cholesky generated pinv bs design h ets payments coefs notional false num step) /\
  (forall cholesky generated pinv bs design num, (0 < num)%nat ->
     0 < swaption_payoff false (swap_value 1 (fun _ => 3) (fun _ => discount_bond_price quiet 0 1 1 2)) /\
     bermudan_swaption_price cholesky generated pinv bs design quiet [1] [[2]] [[3]] 1 false num 1 = Some 0).
Proof.
  split; [reflexivity|]. intros ch gen pinv bs design num N0. set (x := exp (- (1))). assert (XP : 1 / 4 < x < 1).
  { split; [|unfold x; apply Rlt_le_trans with (exp 0); [apply exp_increasing; lra|rewrite exp_0; lra]]. unfold x. rewrite exp_Ropp. pose proof exp_le_3. pose proof (exp_pos 1). apply Rlt_le_trans with (/ 3); [lra|]. apply Rinv_le_contravar; lra. }
  assert (QB : forall r, r = 1 -> discount_bond_price quiet 0 r 1 2 = x) by (intros r Hr; rewrite (quiet_bond r 1 2 ltac:(lra) Hr); unfold x; f_equal; ring).
  split; [unfold swap_value, swaption_payoff; cbn [Nat.sub sum_to]; rewrite QB by reflexivity; rewrite Rmax_left; lra|].
  unfold bermudan_swaption_price. destruct (range_steps 1 1 ltac:(lra)) as (m & E & A & B). assert (m = 0)%nat as -> by (destruct m as [|m]; [reflexivity|specialize (B 0%nat ltac:(lia)); cbn in B; lra]). cbn [last]. rewrite E. cbn [seq map app flat_map length nth].
  rewrite !nodup_singleton. unfold sort. cbn [fold_right insert].
  unfold entry, at_. cbn [nth]. assert (EP : pick [] [[2]] 0 = [2]) by reflexivity. assert (EQ : pick 0 [2] 0 = 2) by reflexivity. rewrite ?EP, ?EQ. set (ct := [2 - 1]).
  destruct C68_zero_variance_refuted as (HC & SV & HL & _).
  assert (INC : increasing [1]) by (intros i Hi; cbn in Hi; lia).
  destruct (C67_curve_paths ch gen quiet [1] ct None false gen (fun _ => 1) (fun _ _ => 0) (fun _ _ => 0) (fun _ => identity_matrix) (sort (0 :: [1] ++ all_jumps quiet)) (fun _ _ => 0) (fun _ t T => (1 - exp (- (1 * (T - t)))) / 1) quiet_setting) as (curve & r & idx & SE & LR & P); [cbn; lia|discriminate|exact INC|cbn; lra|split; [apply sort_nondecr|apply sort_perm]|unfold step_factors; cbn; reflexivity|reflexivity|intros a Ha; replace a with 0%nat by (cbn in Ha; lia); split; assumption|].
  rewrite SE. assert (E' : hw_sample_paths ch gen quiet [1] None None false = Some r) by (unfold sample_discount_curve_paths in SE; destruct (hw_sample_paths ch gen quiet [1] None None false); [congruence|discriminate SE]).
  assert (S1 : searchsorted_left [1] 1 = 0%nat) by (unfold searchsorted_left; cbn [filter length]; destruct (Rlt_dec 1 1) as [Q|_]; [lra|reflexivity]). assert (S2 : searchsorted_left ct (2 - 1) = 0%nat) by (unfold searchsorted_left, ct; cbn [filter length]; destruct (Rlt_dec (2 - 1) (2 - 1)) as [Q|_]; [lra|reflexivity]).
  rewrite (C47_european num 1 0%nat) by exact N0. cbn [option_map]. f_equal. rewrite Rmult_1_l. unfold LsmSpec.mean_from. rewrite Nat.sub_0_r. rewrite (rsum_ext _ (fun _ => 0)).
  - rewrite rsum_to, sum_zero by reflexivity. unfold Rdiv. ring.
  - intros k _. match goal with |- ?d * Rmax ?p 0 = 0 => replace (Rmax p 0) with 0; [ring|] end. symmetry. apply Rmax_right. unfold payoff_swap. cbn [length Nat.sub rsum nth]. unfold at_. cbn [nth]. rewrite S1, ?EP, ?EQ, ?S2.
    assert (CV : curve (0 + k)%nat 0%nat 0%nat 0%nat = x).
    { destruct (P 0%nat ltac:(cbn; lia)) as (_ & _ & Q). destruct (Q (0 + k)%nat 0%nat ltac:(cbn; lia)) as (_ & V). specialize (V 0%nat ltac:(cbn; lia)). cbv zeta in V. rewrite V, (quiet_rates ch gen [1] r ltac:(discriminate) INC ltac:(cbn; lra) E' 0 (0 + k)%nat ltac:(cbn; lia)). unfold ct. cbn [nth].
      unfold initial_bond, Rdiv at 1. rewrite <- exp_Ropp, <- !exp_plus. unfold x. f_equal. cbn [hw_rate hw_forward quiet]. lra. }
    rewrite CV. lra.
Qed.
Print Assumptions C76_bermudan_receiver_refuted.

(** * Example *)
(** Mean reversion 1, volatility 1, the curve flat at 0: the payer swaption that
    expires at 1, with payments at 2 and 3 and the coupon 1/4. *)
Example swaption_ex : let h := flat 1 1 0 in let a := Swaptions [1] [[2; 3]] [[1; 1]] [[1 / 4; 1 / 4]] (Some [1]) [true] in
  hw_coordinate h 0 1 /\ hw_dim h = 1%nat /\ state_variance (param_at (hw_vol h 0)) 1 (flat_y 1 1) /\ loading 1 (flat_G 1) /\ shaped a 1 2 /\ fits 1 [1] /\
  (forall i, (i < 2)%nat -> 1 < payment_time a 0 i) /\ 0 < flat_y 1 1 1 /\ is_RInt (hw_forward h 0) 0 1 (hw_rate h 0 1 * 1) /\
  regular_leg 2 (payment_amount a 0) (payment_time a 0) /\ payer_swap h a 2 0 (- (1)) * payer_swap h a 2 0 1 <= 0.
Proof.
  intros h a. destruct (flat_facts 1 1 0 ltac:(lra)) as (HC & SV & HL & HF). split; [exact HC|]. split; [reflexivity|]. split; [exact SV|]. split; [exact HL|].
  split; [repeat split; try (cbn; lia); intros j Hj; (destruct j as [|j]; [reflexivity|lia])|]. split; [left; reflexivity|].
  split; [intros i Hi; (destruct i as [|[|i]]; [cbn; lra|cbn; lra|lia])|]. assert (YB : 0 < flat_y 1 1 1 < 1).
  { unfold flat_y. pose proof (small_exp (2 * 1 * 1) ltac:(lra)) as Q. pose proof (exp_pos (- (2 * 1 * 1))). split; lra. }
  split; [apply YB|]. split; [apply HF; lra|]. split.
  - left. intros i Hi. unfold payment_amount. (destruct i as [|[|i]]; [cbn; lra|cbn; lra|lia]).
  - assert (B : forall r T, discount_bond_price h 0 r 1 T = exp (- (r * flat_G 1 1 T) - flat_y 1 1 1 * flat_G 1 1 T ^ 2 / 2)).
    { intros r T. rewrite (C67_formula h 0 1 _ _ r 1 T HC SV HL ltac:(lra)). unfold initial_bond, Rdiv at 1. cbn [hw_rate hw_forward h flat]. rewrite !Rmult_0_l, Ropp_0, exp_0, Rinv_1, !Rmult_1_l, Rminus_0_r. reflexivity. }
    assert (G2 : 0 < flat_G 1 1 2 < 1) by (unfold flat_G; pose proof (small_exp (1 * (2 - 1)) ltac:(lra)); pose proof (exp_pos (- (1 * (2 - 1)))); lra).
    assert (G3 : 3 / 4 < flat_G 1 1 3 < 1).
    { unfold flat_G. pose proof (exp_pos (- (1 * (3 - 1)))). assert (E2 : exp (- (1 * (3 - 1))) < 1 / 4); [|lra]. replace (- (1 * (3 - 1))) with (- (1) + - (1)) by ring. rewrite exp_plus. assert (exp (- (1)) < 1 / 2); [|pose proof (exp_pos (- (1))); nra]. rewrite exp_Ropp. pose proof (exp_ineq1 1 ltac:(lra)). replace (1 / 2) with (/ 2) by field. apply Rinv_lt_contravar; lra. }
    set (yy := flat_y 1 1 1) in *. set (g2 := flat_G 1 1 2) in *. set (g3 := flat_G 1 1 3) in *.
    assert (V : forall r, payer_swap h a 2 0 r = 1 - exp (- (r * g3) - yy * g3 ^ 2 / 2) - (1 / 4 * exp (- (r * g2) - yy * g2 ^ 2 / 2) + 1 / 4 * exp (- (r * g3) - yy * g3 ^ 2 / 2))).
    { intros r. unfold payer_swap, swap_value. cbn [Nat.sub sum_to]. change (nth 0 (expiries a) 0) with 1. change (payment_time a 0 0) with 2. change (payment_time a 0 1) with 3. rewrite !B. fold yy g2 g3. unfold payment_amount, a. cbn. field. }
    rewrite !V. assert (E1 : 1 <= exp (- (- (1) * g3) - yy * g3 ^ 2 / 2)).
    { apply Rle_trans with (exp 0); [rewrite exp_0; lra|]. apply Rlt_le, exp_increasing. clearbody yy g3. clear - YB G3. assert (yy * g3 ^ 2 <= g3 ^ 2) by nra. nra. }
    pose proof (exp_pos (- (- (1) * g2) - yy * g2 ^ 2 / 2)) as E2. set (e3 := exp (- (- (1) * g3) - yy * g3 ^ 2 / 2)) in *. set (e2 := exp (- (- (1) * g2) - yy * g2 ^ 2 / 2)) in *.
    assert (F3 : exp (- (1 * g3) - yy * g3 ^ 2 / 2) <= 4 / 7).
    { apply Rle_trans with (exp (- (3 / 4))); [apply Rlt_le, exp_increasing; assert (0 <= yy * g3 ^ 2) by nra; lra|]. rewrite exp_Ropp. pose proof (exp_ineq1 (3 / 4) ltac:(lra)). replace (4 / 7) with (/ (7 / 4)) by field. apply Rinv_le_contravar; lra. }
    assert (F2 : exp (- (1 * g2) - yy * g2 ^ 2 / 2) <= 1) by (apply Rle_trans with (exp 0); [apply Rlt_le, exp_increasing; assert (0 <= yy * g2 ^ 2) by nra; lra|rewrite exp_0; lra]).
    set (h3 := exp (- (1 * g3) - yy * g3 ^ 2 / 2)) in *. set (h2 := exp (- (1 * g2) - yy * g2 ^ 2 / 2)) in *. clearbody e3 e2 h3 h2. clear - E1 E2 F3 F2. assert (1 - e3 - (1 / 4 * e2 + 1 / 4 * e3) <= 0) by lra. assert (0 <= 1 - h3 - (1 / 4 * h2 + 1 / 4 * h3)) by lra. nra.
Qed.
