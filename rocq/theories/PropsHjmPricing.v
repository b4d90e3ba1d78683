(** C80: bond options, caps and swaptions by simulation of the quasi-Gaussian HJM
    model. *)
From Coquelicot Require Import Coquelicot.
From Coq Require Import ZArith Reals List Bool Arith Lia Lra.
From Verif Require Import TensorModel TensorProofs SegmentModel BrentModel ExtReal HaganWestModel BootstrapModel TimeGridModel TimeGridSpec TimeGridProofs PropsTimeGrid EulerModel EulerSpec PropsEuler MvNormalSpec MvNormalProofs PropsMvNormal GbmModel GbmProofs PropsMc
  ImpliedVolProofs HullWhiteBondSpec HullWhiteBondProofs PropsHullWhiteBond PropsHullWhiteOption HjmModel HjmSpec HjmProofs HjmProofs2 PropsHjm HjmQuasiModel HjmQuasiSpec HjmQuasiProofs PropsHjmQuasi HwSwaptionModel HwSwaptionSpec PropsHwSwaption HjmPricingModel HjmPricingSpec HjmPricingProofs.
Import ListNotations.
Open Scope R_scope.

(** The bond prices of the model at a simulated state. *)
Definition bond_at (h : qg) (G : nat -> R -> R -> R) (x : nat -> R) (y : nat -> nat -> R) (t T : R) : R :=
  bond_formula (q_dim h) (q_curve h) G (fun a b _ => y a b) x t T.
Lemma bond_at_pos h G x y t T : 0 < bond_at h G x y t T.
Proof. unfold bond_at, bond_formula, q_curve. apply Rmult_lt_0_compat; [apply Rdiv_lt_0_compat|]; apply exp_pos. Qed.
Lemma bond_at_ext h G x y x' y' t T : (forall a, (a < q_dim h)%nat -> x a = x' a) -> (forall a b, (a < q_dim h)%nat -> (b < q_dim h)%nat -> y a b = y' a b) -> bond_at h G x y t T = bond_at h G x' y' t T.
Proof.
  intros EX EY. unfold bond_at, bond_formula. f_equal. f_equal. f_equal; f_equal; [apply sums_ext; intros a Ha; rewrite EX by exact Ha; reflexivity|]. apply sums_ext. intros a Ha. apply sums_ext. intros b Hb. rewrite EY by assumption. reflexivity.
Qed.
Section Setting.
  Variables (h : qg) (G : nat -> R -> R -> R).
  (** Mean reversions that are not 0, with the loadings of the bonds. *)
  Definition mean_reverting : Prop := (forall i, (i < q_dim h)%nat -> q_mr h i <> 0) /\ forall i, (i < q_dim h)%nat -> loading (q_mr h i) (G i).
End Setting.

(** ** Bond options *)
(** The simulated times: the expiries and the multiples of the step before the last
    of them. *)
Definition option_times (expiries : list R) (step : R) (times : list R) : Prop :=
  increasing times /\ forall t, In t times <-> In t expiries \/ exists i : nat, t = INR (S i) * step /\ exists e, In e expiries /\ t < e.
(** The factor that the code uses for the time number k of the simulation. *)
Definition discount_from_first (times rate : nat -> R) (k : nat) : R := exp (- sum_to k (fun j => rate (S j) * (times (S j) - times j))).
Lemma option_times_ok (options : list bond_opt) step : options <> [] -> 0 < step -> (exists o, In o options /\ step <= bo_expiry o) ->
  let expiries := nodup Req_EM_T (map bo_expiry options) in
  exists steps, step_range step (max_of expiries) step = Some steps /\ option_times (map bo_expiry options) step (sort (nodup Req_EM_T (expiries ++ steps))).
Proof.
  intros ON S0 (o & IO & LO) expiries. assert (NE : expiries <> []) by (intros Q; destruct options as [|a l]; [contradiction|]; assert (IE : In (bo_expiry a) expiries) by (apply nodup_In; left; reflexivity); rewrite Q in IE; destruct IE).
  assert (ME : In (max_of expiries) (map bo_expiry options)) by (apply (nodup_In Req_EM_T), max_of_in, NE).
  assert (MG : forall e, In e (map bo_expiry options) -> e <= max_of expiries) by (intros e IE; apply max_of_ge, nodup_In, IE).
  assert (SM : 0 < step <= max_of expiries) by (split; [exact S0|]; eapply Rle_trans; [exact LO|]; apply MG, in_map, IO).
  destruct (range_steps (max_of expiries) step SM) as (m & E & A & B). exists (map (fun i => INR (S i) * step) (seq 0 m)). split; [exact E|]. split; [apply sorted_unique_increasing, NoDup_nodup|].
  intros t. rewrite sort_in, nodup_In, in_app_iff. unfold expiries at 1. rewrite nodup_In, (in_map_iff (fun i : nat => INR (S i) * step) (seq 0 m)). split.
  - intros [H|(i & <- & Hi)]; [left; exact H|]. right. exists i. split; [reflexivity|]. exists (max_of expiries). split; [exact ME|]. apply B. apply in_seq in Hi. lia.
  - intros [H|(i & -> & e & IE & L)]; [left; exact H|]. right. exists i. split; [reflexivity|]. apply in_seq. split; [lia|]. destruct (le_lt_dec m i) as [Q|Q]; [exfalso|lia]. apply MG in IE. apply le_n_S, le_INR in Q. nra.
Qed.
(** The price is the mean over the paths of the payoff at expiry, with the bond price
    of the model at the simulated state, times a discount factor.  That factor
    starts at the first simulated time. *)
Theorem C80_bond_options_partial : forall h G unwritten tol draws options num step, mean_reverting h G -> options <> [] -> (0 < num)%nat -> 0 < step -> 2 * tol < step -> 0 <= tol < 1 ->
  (forall o, In o options -> 0 <= bo_expiry o) -> (exists o, In o options /\ step <= bo_expiry o) -> (forall times, option_times (map bo_expiry options) step times -> gaps_above (2 * tol) times) ->
  exists times grid idx X Y, option_times (map bo_expiry options) step times /\ nth 0 grid 0 = 0 /\ gaps_above tol grid /\ gaps_at_most (step + tol) grid /\
    (forall s, follows h (fun n => nth n grid 0) (fun n => draws n s) (X s) (Y s)) /\
    (forall k, (k < length times)%nat -> (nth k idx 0%nat < length grid)%nat /\ 0 <= nth k times 0 - nth (nth k idx 0%nat) grid 0 <= tol) /\
    let rate s k := sum_to (q_dim h) (X s (nth k idx 0%nat)) + q_forward h (nth (nth k idx 0%nat) grid 0) in
    exists prices, hjm_bond_option_price h unwritten tol draws options num (Some step) = Some prices /\ length prices = length options /\
      forall i, (i < length options)%nat -> let o := nth i options (BondOpt 0 0 0 true) in exists k, (k < length times)%nat /\ nth k times 0 = bo_expiry o /\
        nth i prices NaN = Fin (mean_over num (fun s => discount_from_first (fun j => nth j times 0) (rate s) k *
          option_payoff (bo_call o) (bo_strike o) (bond_at h G (X s (nth k idx 0%nat)) (Y s (nth k idx 0%nat)) (bo_expiry o) (bo_maturity o)))).
Proof.
  intros h G uw tol draws options num step (K0 & LG) ON N0 S0 S2 TT EP EL GP. destruct (option_times_ok options step ON S0 EL) as (steps & ES & OT).
  set (times := sort (nodup Req_EM_T (nodup Req_EM_T (map bo_expiry options) ++ steps))) in *. specialize (GP times OT).
  assert (IT : forall o, In o options -> In (bo_expiry o) (nodup Req_EM_T (nodup Req_EM_T (map bo_expiry options) ++ steps))) by (intros o IO; apply nodup_In, in_or_app; left; apply nodup_In, in_map, IO).
  assert (TN : times <> []) by (intros Q; destruct options as [|o l]; [contradiction|]; assert (C := proj2 (proj2 OT (bo_expiry o)) (or_introl (or_introl eq_refl))); rewrite Q in C; destruct C).
  assert (T0 : 0 <= nth 0 times 0).
  { assert (IN : In (nth 0 times 0) times) by (apply nth_In; destruct times; [contradiction|cbn; lia]). apply (proj1 (proj2 OT _)) in IN. destruct IN as [IN|(i & -> & _)]; [apply in_map_iff in IN; destruct IN as (o & <- & IO); apply EP, IO|]. apply Rmult_le_pos; [apply pos_INR|lra]. }
  destruct (C79_paths h uw times step tol draws TN GP T0 S2 S0 TT) as (grid & idx & o & X & Y & E & G0 & GA & GM & FO & OK).
  exists times, grid, idx, X, Y. split; [exact OT|]. split; [exact G0|]. split; [exact GA|]. split; [exact GM|]. split; [exact FO|]. split; [intros k Hk; destruct (OK k Hk) as (A & B & _); split; assumption|].
  intros rate. set (tau := map (fun o => bo_maturity o - bo_expiry o) options). set (ct := sort (nodup Req_EM_T tau)).
  destruct (C79_curve_paths h uw times ct (Some step) None tol draws o K0 E) as (p & EC & PV).
  eexists. split; [unfold hjm_bond_option_price; destruct options as [|o0 l]; [contradiction|]; cbv zeta; rewrite ES; fold times tau ct; rewrite EC; reflexivity|]. split; [apply map_length|].
  intros i Hi. set (op := nth i options (BondOpt 0 0 0 true)). assert (IO : In op options) by (apply nth_In, Hi).
  destruct (sort_found _ _ (IT op IO)) as (LK & EK). fold times in LK, EK. set (k := searchsorted_left times (bo_expiry op)) in *. unfold at_ in EK.
  exists k. split; [exact LK|]. split; [exact EK|].
  match goal with |- nth i (map ?f options) NaN = _ => pose (F := f); change (map f options) with (map F options) end. rewrite (nth_indep _ NaN (F (BondOpt 0 0 0 true))) by (rewrite map_length; exact Hi). rewrite map_nth. unfold F. fold op. cbv zeta. fold k.
  apply mean_fin; [exact N0|]. intros s _. rewrite util_discount_at by exact LK. cbn [xmul]. f_equal.
  assert (CT : nth (searchsorted_left ct (bo_maturity op - bo_expiry op)) ct 0 = bo_maturity op - bo_expiry op) by (apply (sort_found (nodup Req_EM_T tau)); apply nodup_In; unfold tau; apply (in_map (fun o => bo_maturity o - bo_expiry o) _ _ IO)).
  f_equal.
  - unfold discount_from_first. f_equal. f_equal. apply sums_ext. intros j Hj. f_equal. destruct (OK (S j) ltac:(lia)) as (_ & _ & Q). destruct (Q s) as (_ & _ & QR & _). exact QR.
  - destruct (OK k LK) as (_ & _ & Q). destruct (Q s) as (QX & QY & _). rewrite (PV G k _ s LG). rewrite CT, EK. replace (bo_expiry op + (bo_maturity op - bo_expiry op)) with (bo_maturity op) by ring.
    fold (bond_at h G (nth k (qo_x o) (fun _ _ => 0) s) (nth k (qo_y o) (fun _ _ _ => 0) s) (bo_expiry op) (bo_maturity op)). rewrite (bond_at_ext h G _ _ _ _ _ _ QX QY). reflexivity.
Qed.
Print Assumptions C80_bond_options_partial.
(** A time step is required, and it must not exceed the last expiry. *)
Theorem C80_time_step_required : forall h unwritten tol draws options num step, hjm_bond_option_price h unwritten tol draws options num None = None /\
  (0 < step -> (forall o, In o options -> bo_expiry o < step) -> hjm_bond_option_price h unwritten tol draws options num (Some step) = None).
Proof.
  intros h uw tol draws options num step. split; [destruct options; reflexivity|]. intros S0 L. unfold hjm_bond_option_price. destruct options as [|o l]; [reflexivity|]. cbv zeta. set (ex := nodup Req_EM_T (map bo_expiry (o :: l))).
  assert (NE : ex <> []) by (intros Q; assert (IE : In (bo_expiry o) ex) by (apply nodup_In; left; reflexivity); rewrite Q in IE; destruct IE).
  assert (ML : max_of ex < step) by (pose proof (max_of_in ex NE) as IM; apply nodup_In, in_map_iff in IM; destruct IM as (o' & <- & IO); apply L, IO).
  unfold step_range. destruct (Req_EM_T step 0); [reflexivity|]. destruct (rlt_spec 0 step); [|lra]. destruct (rlt_spec (max_of ex) step); [|lra]. reflexivity.
Qed.
Print Assumptions C80_time_step_required.

(** Without volatility the states are 0. *)
Lemma still h grid z X Y : (forall t r i, q_vol h t r i = 0) -> follows h grid z X Y -> forall n, (forall i, (i < q_dim h)%nat -> X n i = 0) /\ (forall i j, (i < q_dim h)%nat -> (j < q_dim h)%nat -> Y n i j = 0).
Proof.
  intros V (X0 & Y0 & ST). induction n as [|n (IX & IY)]; [split; assumption|]. destruct (ST n) as (SX & SY). split.
  - intros i Hi. rewrite SX by exact Hi. unfold x_drift. rewrite V, IX by exact Hi. rewrite (sums_ext _ (Y n i) (fun _ => 0)) by (intros j Hj; apply IY; assumption). rewrite sums_zero by reflexivity. ring.
  - intros i j Hi Hj. rewrite SY by assumption. unfold y_drift. rewrite !V, IY by assumption. ring.
Qed.
Lemma telescope c (f : nat -> R) n : sum_to n (fun j => c * (f (S j) - f j)) = c * (f n - f 0%nat).
Proof. induction n as [|n IH]; [cbn; ring|]. cbn [sum_to]. rewrite IH. ring. Qed.
Lemma mean_const n c : (0 < n)%nat -> mean_over n (fun _ => c) = c.
Proof. intros N. unfold mean_over. rewrite sum_to_const. field. apply not_0_INR. lia. Qed.
Definition still_model (k c : R) : qg := QG 1 (fun _ => k) (fun _ _ _ => 0) (fun i j => if Nat.eqb i j then 1 else 0) (fun i j => if Nat.eqb i j then 1 else 0) (fun _ => c) (fun _ => c).
Lemma still_bond k c G x y t T : x 0%nat = 0 -> y 0%nat 0%nat = 0 -> bond_at (still_model k c) G x y t T = exp (- (c * (T - t))).
Proof.
  intros X0 Y0. unfold bond_at, bond_formula, q_curve. cbn [still_model q_dim q_rate sum_to]. rewrite X0, Y0. unfold Rdiv at 1. rewrite <- exp_Ropp, <- !exp_plus. f_equal. field.
Qed.
(** When rates are constant, the discount factor should be exp(-c T) and not
    exp(-c (T - first simulated time)): the prices are too large by the factor
    exp(c step). *)
Theorem C80_first_period_refuted : forall k c K T M call num step draws unwritten, k <> 0 -> (0 < num)%nat -> 0 < step <= T ->
  hjm_bond_option_price (still_model k c) unwritten 0 draws [BondOpt K T M call] num (Some step) = Some [Fin (exp (- (c * (T - step))) * option_payoff call K (exp (- (c * (M - T)))))].
Proof.
  intros k c K T M call num step draws uw K0 N0 ST.
  assert (MR : mean_reverting (still_model k c) (fun _ => flat_G k)) by (split; intros i Hi; [exact K0|apply (flat_facts k 0 0 K0)]).
  destruct (C80_bond_options_partial (still_model k c) (fun _ => flat_G k) uw 0 draws [BondOpt K T M call] num step MR) as (times & grid & idx & X & Y & (OI & OT) & G0 & GA & GM & FO & CL & prices & E & LP & PR); [discriminate|exact N0|lra|lra|lra| | | |].
  - intros o [<-|[]]. cbn. lra.
  - eexists. split; [left; reflexivity|cbn; lra].
  - intros times (I & _). rewrite Rmult_0_r. exact I.
  - rewrite E. destruct prices as [|p [|q l]]; cbn in LP; try lia. f_equal. f_equal. destruct (PR 0%nat ltac:(cbn; lia)) as (j & Hj & EJ & V). cbn [nth bo_strike bo_expiry bo_maturity bo_call] in EJ, V. rewrite V. f_equal. cbn [map In bo_expiry] in OT.
    assert (SI : forall s n, X s n 0%nat = 0 /\ Y s n 0%nat 0%nat = 0) by (intros s n; destruct (still (still_model k c) _ _ _ _ (fun _ _ _ => eq_refl) (FO s) n) as (A & B); split; [apply A|apply B]; cbn; lia).
    transitivity (mean_over num (fun _ => exp (- (c * (T - step))) * option_payoff call K (exp (- (c * (M - T)))))); [|apply mean_const, N0].
    unfold mean_over. f_equal. apply sums_ext. intros s _. rewrite (still_bond k c) by apply SI. f_equal. unfold discount_from_first. f_equal. f_equal. rewrite (sums_ext _ _ (fun j => c * (nth (S j) times 0 - nth j times 0))).
    + rewrite (telescope c (fun j => nth j times 0)), EJ. f_equal. f_equal.
      assert (LT : (0 < length times)%nat) by lia. assert (IS : In step times) by (apply OT; destruct (Rle_lt_or_eq_dec step T ltac:(lra)) as [L|L]; [right; exists 0%nat; split; [cbn; ring|exists T; split; [left; reflexivity|exact L]]|left; left; symmetry; exact L]).
      apply Rle_antisym.
      * apply (In_nth _ _ 0) in IS. destruct IS as (m & Hm & <-). destruct m as [|m]; [lra|]. left. apply increasing_lt; [exact OI|lia|exact Hm].
      * pose proof (nth_In times 0 LT) as I0. apply OT in I0. destruct I0 as [[<-|[]]|(i & -> & _)]; [lra|]. rewrite S_INR. pose proof (pos_INR i). nra.
    + intros i _. cbn [still_model q_dim q_forward sum_to]. rewrite (proj1 (SI s _)). ring.
Qed.
Print Assumptions C80_first_period_refuted.
(** With a rate of 1, expiry 1, a step of 1 and strike 0 the price of the bond that
    matures at 2 is exp(-1), not exp(-2). *)
Example undiscounted : forall draws, hjm_bond_option_price (still_model 1 1) None 0 draws [BondOpt 0 1 2 true] 5 (Some 1) = Some [Fin (exp (- (1)))].
Proof.
  intros draws. rewrite C80_first_period_refuted by (try lra; lia). f_equal. f_equal. f_equal. unfold option_payoff. rewrite Rminus_diag_eq by reflexivity. rewrite Rmult_0_r, Ropp_0, exp_0. replace (- (1 * (2 - 1))) with (- (1)) by ring. rewrite Rmax_left by (pose proof (exp_pos (- (1))); lra). ring.
Qed.

(** ** Caps and floors *)
(** A cap is worth the sum of its caplets. *)
Theorem C80_caps_partial : forall h G unwritten tol draws caplets notional cap num step, mean_reverting h G -> caplets <> [] -> (0 < num)%nat -> 0 < step -> 2 * tol < step -> 0 <= tol < 1 ->
  (forall c, In c caplets -> 0 <= ca_expiry c /\ 0 < ca_daycount c /\ 0 < 1 + ca_daycount c * ca_strike c) -> (exists c, In c caplets /\ step <= ca_expiry c) -> (forall times, option_times (map ca_expiry caplets) step times -> gaps_above (2 * tol) times) ->
  exists times grid idx X Y, option_times (map ca_expiry caplets) step times /\ nth 0 grid 0 = 0 /\ gaps_above tol grid /\ gaps_at_most (step + tol) grid /\
    (forall s, follows h (fun n => nth n grid 0) (fun n => draws n s) (X s) (Y s)) /\
    (forall k, (k < length times)%nat -> (nth k idx 0%nat < length grid)%nat /\ 0 <= nth k times 0 - nth (nth k idx 0%nat) grid 0 <= tol) /\
    let rate s k := sum_to (q_dim h) (X s (nth k idx 0%nat)) + q_forward h (nth (nth k idx 0%nat) grid 0) in
    exists at_time, (forall i, (i < length caplets)%nat -> (at_time i < length times)%nat /\ nth (at_time i) times 0 = ca_expiry (nth i caplets (Caplet 0 0 0 0))) /\
    hjm_cap_floor_price h unwritten tol draws caplets notional cap num (Some step) = Some (Fin (notional * sum_to (length caplets) (fun i => let c := nth i caplets (Caplet 0 0 0 0) in let g := nth (at_time i) idx 0%nat in
      mean_over num (fun s => discount_from_first (fun j => nth j times 0) (rate s) (at_time i) *
        caplet_value cap (ca_daycount c) (ca_strike c) (bond_at h G (X s g) (Y s g) (ca_expiry c) (ca_maturity c)))))).
Proof.
  intros h G uw tol draws caplets notional cap num step MR CN N0 S0 S2 TT CP EL GP. set (conv := fun c => BondOpt (1 / (1 + ca_daycount c * ca_strike c)) (ca_expiry c) (ca_maturity c) (negb cap)).
  assert (EE : map bo_expiry (map conv caplets) = map ca_expiry caplets) by (rewrite map_map; reflexivity).
  destruct (C80_bond_options_partial h G uw tol draws (map conv caplets) num step MR) as (times & grid & idx & X & Y & OT & G0 & GA & GM & FO & CL & prices & E & LP & PR); [destruct caplets; [contradiction|discriminate]|exact N0|exact S0|exact S2|exact TT| | | |].
  - intros o IO. apply in_map_iff in IO. destruct IO as (c & <- & IC). apply CP, IC.
  - destruct EL as (c & IC & LC). exists (conv c). split; [apply in_map, IC|exact LC].
  - rewrite EE. exact GP.
  - rewrite EE in OT. exists times, grid, idx, X, Y. split; [exact OT|]. split; [exact G0|]. split; [exact GA|]. split; [exact GM|]. split; [exact FO|]. split; [exact CL|]. intros rate.
    rewrite map_length in *. set (cd := Caplet 0 0 0 0).
    assert (AT : forall i, (i < length caplets)%nat -> nth i (map conv caplets) (BondOpt 0 0 0 true) = conv (nth i caplets cd)) by (intros i Hi; rewrite (nth_indep _ _ (conv cd)) by (rewrite map_length; exact Hi); apply map_nth).
    set (at_time := fun i => searchsorted_left times (ca_expiry (nth i caplets cd))).
    assert (TK : forall i k, (i < length caplets)%nat -> (k < length times)%nat -> nth k times 0 = ca_expiry (nth i caplets cd) -> k = at_time i).
    { intros i k Hi Hk Q. unfold at_time. rewrite <- Q. assert (ND : nondecr times) by (intros j Hj; pose proof (proj1 OT j Hj); unfold at_; lra). assert (L1 : (searchsorted_left times (nth k times 0%R) <= k)%nat) by (destruct (le_lt_dec (searchsorted_left times (nth k times 0%R)) k) as [W|W]; [exact W|]; pose proof (ssl_below times (nth k times 0%R) k W) as B; unfold at_ in B; lra).
      destruct (le_lt_eq_dec _ _ L1) as [W|W]; [|symmetry; exact W]. exfalso. assert (AB : at_ times (searchsorted_left times (nth k times 0)) >= nth k times 0) by (apply Rle_ge, ssl_above; [exact ND|lia]). pose proof (increasing_lt times (proj1 OT) _ _ W Hk). unfold at_ in AB. lra. }
    exists at_time. split.
    + intros i Hi. destruct (PR i Hi) as (k & Hk & QK & _). rewrite AT in QK by exact Hi. cbn [conv bo_expiry] in QK. rewrite <- (TK i k Hi Hk QK). split; assumption.
    + unfold hjm_cap_floor_price. cbv zeta. fold conv. rewrite E. f_equal.
      match goal with |- xsum (map ?f (combine caplets prices)) = _ => pose (F := f); change (map f (combine caplets prices)) with (map F (combine caplets prices)) end.
      assert (LC : length (combine caplets prices) = length caplets) by (rewrite combine_length; lia).
      assert (EM : map F (combine caplets prices) = map (fun i => F (nth i (combine caplets prices) (cd, NaN))) (seq 0 (length caplets))).
      { apply (nth_ext _ _ (F (cd, NaN)) (F (cd, NaN))); [rewrite !map_length, seq_length; exact LC|]. intros n Hn. rewrite map_length, LC in Hn. rewrite map_nth. symmetry. pose (W := fun i => F (nth i (combine caplets prices) (cd, NaN))). change (nth n (map W (seq 0 (length caplets))) (F (cd, NaN)) = W n).
        rewrite (nth_indep _ _ (W 0%nat)) by (rewrite map_length, seq_length; exact Hn). rewrite map_nth, seq_nth by exact Hn. reflexivity. }
      rewrite EM. rewrite (xsum_to _ (fun i => let c := nth i caplets cd in let g := nth (at_time i) idx 0%nat in notional * mean_over num (fun s => discount_from_first (fun j => nth j times 0) (rate s) (at_time i) * caplet_value cap (ca_daycount c) (ca_strike c) (bond_at h G (X s g) (Y s g) (ca_expiry c) (ca_maturity c))))).
      * f_equal. rewrite <- sums_scal. apply sums_ext. intros i _. reflexivity.
      * intros i Hi. rewrite combine_nth by (symmetry; exact LP). destruct (PR i Hi) as (k & Hk & QK & V). rewrite AT in QK, V by exact Hi. cbn [conv bo_expiry bo_strike bo_maturity bo_call] in QK, V. rewrite (TK i k Hi Hk QK) in V. rewrite V. cbv zeta. unfold F. set (c := nth i caplets cd) in *.
        assert (IC : In c caplets) by (apply nth_In, Hi). destruct (CP c IC) as (C0 & C1 & C2). destruct (rlt_spec (ca_expiry c) 0); [lra|]. cbn [xmul]. f_equal. unfold mean_over. unfold Rdiv. rewrite <- !Rmult_assoc. f_equal. rewrite <- !sums_scal. apply sums_ext. intros s _.
        rewrite <- caplet_identity by (try assumption; apply bond_at_pos). unfold rate, Rdiv. ring.
Qed.
Print Assumptions C80_caps_partial.

(** ** Swaptions *)
(** The price at requested time number i, whose grid point is g, given what the
    simulation returns. *)
Lemma swaption_core h G unwritten tol draws expiry payments coefs notional payer num times time_step num_time_steps o grid X Y i g :
  let sim := match times with Some t => t | None => sort (map (fun _ => expiry) payments) end in
  mean_reverting h G -> (0 < num)%nat -> payments <> [] -> length coefs = length payments ->
  (time_step <> None \/ num_time_steps <> None) -> q_sample_paths h unwritten sim time_step num_time_steps tol draws = Some o ->
  i = searchsorted_left sim expiry -> (i < length sim)%nat -> q_outputs_ok h grid X Y o i g -> let t := nth i sim 0 in
  hjm_swaption_price h unwritten tol draws expiry payments coefs (Some notional) (Some payer) num times time_step num_time_steps None =
    Some (Fin (notional * mean_over num (fun s => discount_after (fun j => sum_to (q_dim h) (X s j) + q_forward h (grid j)) grid g *
      swaption_payoff payer (swap_value (length payments) (fun j => nth j coefs 0) (fun j => bond_at h G (X s g) (Y s g) t (t + (nth j payments 0 - expiry))))))).
Proof.
  intros sim (K0 & LG) N0 PN LC SN E EI LI OK t. set (tau := map (fun t => t - expiry) payments). set (ct := sort (nodup Req_EM_T tau)).
  destruct (C79_curve_paths h unwritten sim ct time_step num_time_steps tol draws o K0 E) as (p & EC & PV).
  assert (IC : forall x, In x tau -> (searchsorted_left ct x < length ct)%nat /\ nth (searchsorted_left ct x) ct 0 = x) by (intros x Hx; apply (sort_found (nodup Req_EM_T tau)), nodup_In, Hx).
  unfold hjm_swaption_price. cbv zeta. fold sim tau ct. rewrite <- EI.
  assert (CK : Nat.ltb i (length sim) && forallb (fun t => Nat.ltb (searchsorted_left ct t) (length ct)) tau = true).
  { apply andb_true_intro. split; [apply Nat.ltb_lt, LI|]. apply forallb_forall. intros x Hx. apply Nat.ltb_lt, IC, Hx. }
  assert (MP : forall (A : Type) (a b : A), (match payments with [] => a | _ :: _ => b end) = b) by (intros; destruct payments; [contradiction|reflexivity]). rewrite MP, EC, CK.
  match goal with |- match times with Some _ => ?v | None => _ end = _ => transitivity v end; [destruct times; [reflexivity|]; destruct time_step, num_time_steps; try reflexivity; destruct SN as [SN|SN]; contradiction|].
  f_equal. erewrite mean_fin; [|exact N0|].
  - cbn [xmul]. reflexivity.
  - intros s _. cbv beta zeta. destruct (OK s) as (QX & QY & _ & QD). rewrite QD. cbn [xmul].
    assert (EB : payoff_swap coefs (fun j => p s (searchsorted_left ct (at_ tau j)) i) = swap_value (length payments) (fun j => nth j coefs 0) (fun j => bond_at h G (X s g) (Y s g) t (t + (nth j payments 0 - expiry)))).
    { assert (EJ : forall j, (j < length payments)%nat -> p s (searchsorted_left ct (at_ tau j)) i = bond_at h G (X s g) (Y s g) t (t + (nth j payments 0 - expiry))).
      { intros j Hj. assert (ET : at_ tau j = nth j payments 0 - expiry) by (unfold at_, tau; rewrite (nth_indep _ 0 ((fun t => t - expiry) 0)) by (rewrite map_length; exact Hj); apply (map_nth (fun t => t - expiry))).
        rewrite (PV G i _ s LG). fold t. rewrite (proj2 (IC (at_ tau j) ltac:(unfold at_; apply nth_In; unfold tau; rewrite map_length; exact Hj))), ET. apply (bond_at_ext h G _ _ _ _ _ _ QX QY). }
      unfold payoff_swap, swap_value. cbv zeta. rewrite LC. assert (LP : (0 < length payments)%nat) by (destruct payments; [contradiction|cbn; lia]). rewrite EJ by lia. rewrite rsum_is. f_equal. apply sums_ext. intros j Hj. unfold at_ at 1. rewrite EJ by exact Hj. reflexivity. }
    rewrite EB. set (v := swap_value _ _ _). unfold swaption_payoff. set (D := discount_after _ _ _).
    assert (D0 : 0 <= D) by (unfold D, discount_after; left; apply exp_pos).
    assert (SC : forall a, D * Rmax a 0 = Rmax (D * a) 0) by (intros a; rewrite <- (RmaxRmult a 0 D) by exact D0; rewrite Rmult_0_r; reflexivity).
    rewrite SC. destruct payer; [apply xmax_f|]. cbn [xmul]. rewrite xmax_f. f_equal. f_equal. ring.
Qed.
Lemma some_none {A : Type} (a : A) : Some a <> None.
Proof. discriminate. Qed.
(** The price is the mean of the discounted payoffs at expiry; here the discount
    factors start at 0. *)
Theorem C80_swaption : forall h G unwritten tol draws expiry payments coefs notional payer num step, mean_reverting h G -> (0 < num)%nat -> payments <> [] -> length coefs = length payments ->
  0 <= expiry -> 0 < step -> 2 * tol < step -> 0 <= tol < 1 ->
  exists grid X Y g, nth 0 grid 0 = 0 /\ gaps_above tol grid /\ gaps_at_most (step + tol) grid /\ (g < length grid)%nat /\ 0 <= expiry - nth g grid 0 <= tol /\
    (forall s, follows h (fun n => nth n grid 0) (fun n => draws n s) (X s) (Y s)) /\
    hjm_swaption_price h unwritten tol draws expiry payments coefs (Some notional) (Some payer) num None (Some step) None None =
      Some (Fin (notional * mean_over num (fun s => discount_after (fun j => sum_to (q_dim h) (X s j) + q_forward h (nth j grid 0)) (fun j => nth j grid 0) g *
        swaption_payoff payer (swap_value (length payments) (fun j => nth j coefs 0) (fun j => bond_at h G (X s g) (Y s g) expiry (nth j payments 0)))))).
Proof.
  intros h G uw tol draws T payments coefs notional payer num step MR N0 PN LC T0 S0 S2 TT. set (sim := sort (map (fun _ => T) payments)).
  assert (IN : forall x, In x sim <-> In x [T]).
  { intros x. unfold sim. rewrite sort_in, in_map_iff. split; [intros (q & <- & _); left; reflexivity|]. intros [<-|[]]. destruct payments as [|q l]; [contradiction|]. exists q. split; [reflexivity|left; reflexivity]. }
  assert (SNE : sim <> []) by (intros Q; assert (C := proj2 (IN T) (or_introl eq_refl)); rewrite Q in C; destruct C).
  assert (LA : last sim 0 = last [T] 0) by (pose proof (last_in sim SNE) as L; apply IN in L; destruct L as [L|[]]; symmetry; exact L).
  destruct (paths_repeated h uw sim [T] step tol draws SNE ltac:(discriminate) IN LA) as (grid & idx & o & X & Y & E & G0 & GA & GM & FO & OK); [intros i Hi; cbn in Hi; lia|exact T0|exact S2|exact S0|exact TT|].
  assert (IT : In T (map (fun _ => T) payments)) by (destruct payments; [contradiction|left; reflexivity]).
  destruct (sort_found _ _ IT) as (LK & EK). fold sim in LK, EK. unfold at_ in EK. set (i := searchsorted_left sim T) in *.
  destruct (OK i LK) as (Hg & CL & Q). cbv zeta in Q. rewrite EK in CL. exists grid, X, Y, (nth i idx 0%nat). split; [exact G0|]. split; [exact GA|]. split; [exact GM|]. split; [exact Hg|]. split; [exact CL|]. split; [exact FO|].
  pose proof (swaption_core h G uw tol draws T payments coefs notional payer num None (Some step) None o (fun n => nth n grid 0) X Y i (nth i idx 0%nat) MR N0 PN LC (or_introl (some_none step)) E eq_refl LK Q) as V. cbv zeta in V. refine (eq_trans V _). clear V. fold sim. rewrite EK. f_equal. f_equal. f_equal. unfold mean_over. f_equal. apply sums_ext. intros s _. f_equal. f_equal.
  unfold swap_value. replace (T + (nth (length payments - 1) payments 0 - T)) with (nth (length payments - 1) payments 0) by ring. f_equal. apply sums_ext. intros j _. replace (T + (nth j payments 0 - T)) with (nth j payments 0) by ring. reflexivity.
Qed.
Print Assumptions C80_swaption.
(** The same with the times of the simulation given, the expiry among them, and with
    a time step or a number of steps. *)
Theorem C80_swaption_times : forall h G unwritten tol draws expiry payments coefs notional payer num times step, mean_reverting h G -> (0 < num)%nat -> payments <> [] -> length coefs = length payments ->
  In expiry times -> gaps_above (2 * tol) times -> 0 <= nth 0 times 0 -> 0 < step -> 2 * tol < step -> 0 <= tol < 1 ->
  exists grid X Y g, nth 0 grid 0 = 0 /\ gaps_above tol grid /\ gaps_at_most (step + tol) grid /\ (g < length grid)%nat /\ 0 <= expiry - nth g grid 0 <= tol /\
    (forall s, follows h (fun n => nth n grid 0) (fun n => draws n s) (X s) (Y s)) /\
    hjm_swaption_price h unwritten tol draws expiry payments coefs (Some notional) (Some payer) num (Some times) (Some step) None None =
      Some (Fin (notional * mean_over num (fun s => discount_after (fun j => sum_to (q_dim h) (X s j) + q_forward h (nth j grid 0)) (fun j => nth j grid 0) g *
        swaption_payoff payer (swap_value (length payments) (fun j => nth j coefs 0) (fun j => bond_at h G (X s g) (Y s g) expiry (nth j payments 0)))))).
Proof.
  intros h G uw tol draws T payments coefs notional payer num sim step MR N0 PN LC IT TG T0 S0 S2 TT. assert (INC : increasing sim) by (apply (gaps_increasing (2 * tol)); [lra|exact TG]).
  assert (SNE : sim <> []) by (intros Q; rewrite Q in IT; destruct IT).
  destruct (C79_paths h uw sim step tol draws SNE TG T0 S2 S0 TT) as (grid & idx & o & X & Y & E & G0 & GA & GM & FO & OK).
  destruct (sort_found _ _ IT) as (LK & EK). rewrite (sort_increasing sim INC) in LK, EK. unfold at_ in EK. set (i := searchsorted_left sim T) in *.
  destruct (OK i LK) as (Hg & CL & Q). cbv zeta in Q. rewrite EK in CL. exists grid, X, Y, (nth i idx 0%nat). split; [exact G0|]. split; [exact GA|]. split; [exact GM|]. split; [exact Hg|]. split; [exact CL|]. split; [exact FO|].
  pose proof (swaption_core h G uw tol draws T payments coefs notional payer num (Some sim) (Some step) None o (fun n => nth n grid 0) X Y i (nth i idx 0%nat) MR N0 PN LC (or_introl (some_none step)) E eq_refl LK Q) as V. cbv zeta in V. refine (eq_trans V _). clear V. rewrite EK. f_equal. f_equal. f_equal. unfold mean_over. f_equal. apply sums_ext. intros s _. f_equal. f_equal.
  unfold swap_value. replace (T + (nth (length payments - 1) payments 0 - T)) with (nth (length payments - 1) payments 0) by ring. f_equal. apply sums_ext. intros j _. replace (T + (nth j payments 0 - T)) with (nth j payments 0) by ring. reflexivity.
Qed.
Print Assumptions C80_swaption_times.
Theorem C80_swaption_num_steps : forall h G unwritten tol draws expiry payments coefs notional payer num times n grid mask idx, mean_reverting h G -> (0 < num)%nat -> payments <> [] -> length coefs = length payments ->
  In expiry times -> increasing times -> 0 <= nth 0 times 0 -> prepare_grid times (last times 0 / INR n) tol (Some n) None = Some (grid, mask, idx) -> increasing grid ->
  exists X Y g, (g < length grid)%nat /\ nth g grid 0 = expiry /\
    (forall s, follows h (fun n => nth n grid 0) (fun n => draws (S n) s) (X s) (Y s)) /\
    hjm_swaption_price h unwritten tol draws expiry payments coefs (Some notional) (Some payer) num (Some times) None (Some n) None =
      Some (Fin (notional * mean_over num (fun s => discount_after (fun j => sum_to (q_dim h) (X s j) + q_forward h (nth j grid 0)) (fun j => nth j grid 0) g *
        swaption_payoff payer (swap_value (length payments) (fun j => nth j coefs 0) (fun j => bond_at h G (X s g) (Y s g) expiry (nth j payments 0)))))).
Proof.
  intros h G uw tol draws T payments coefs notional payer num sim n grid mask idx MR N0 PN LC IT INC T0 EG IG.
  assert (SNE : sim <> []) by (intros Q; rewrite Q in IT; destruct IT).
  destruct (C79_paths_num_steps h uw sim n tol draws grid mask idx SNE INC T0 EG IG) as (o & X & Y & E & FO & OK).
  destruct (sort_found _ _ IT) as (LK & EK). rewrite (sort_increasing sim INC) in LK, EK. unfold at_ in EK. set (i := searchsorted_left sim T) in *.
  destruct (OK i LK) as (Hg & CL & Q). cbv zeta in Q. rewrite EK in CL. exists X, Y, (nth i idx 0%nat). split; [exact Hg|]. split; [exact CL|]. split; [exact FO|].
  pose proof (swaption_core h G uw tol draws T payments coefs notional payer num (Some sim) None (Some n) o (fun n => nth n grid 0) X Y i (nth i idx 0%nat) MR N0 PN LC (or_intror (some_none n)) E eq_refl LK Q) as V. cbv zeta in V. refine (eq_trans V _). clear V. rewrite EK. f_equal. f_equal. f_equal. unfold mean_over. f_equal. apply sums_ext. intros s _. f_equal. f_equal.
  unfold swap_value. replace (T + (nth (length payments - 1) payments 0 - T)) with (nth (length payments - 1) payments 0) by ring. f_equal. apply sums_ext. intros j _. replace (T + (nth j payments 0 - T)) with (nth j payments 0) by ring. reflexivity.
Qed.
Print Assumptions C80_swaption_num_steps.
(** The notional has no usable default; without any of the three arguments for the
    time grid the call is refused. *)
Theorem C80_swaption_arguments_refuted : forall h unwritten tol draws expiry payments coefs payer num times time_step num_time_steps curve_times notional,
  hjm_swaption_price h unwritten tol draws expiry payments coefs None payer num times time_step num_time_steps curve_times = None /\
  hjm_swaption_price h unwritten tol draws expiry payments coefs notional payer num None None None curve_times = None.
Proof. intros. split; [reflexivity|]. unfold hjm_swaption_price. destruct notional; [destruct payments; reflexivity|reflexivity]. Qed.
Print Assumptions C80_swaption_arguments_refuted.
(** A simulation that does not stop at the expiry: the swap is valued at the first
    time after it, as if it started then. *)
Theorem C80_swaption_off_grid_refuted : forall k c a num draws unwritten, k <> 0 -> (0 < num)%nat ->
  hjm_swaption_price (still_model k c) unwritten 0 draws 1 [3] [a] (Some 1) None num (Some [2]) (Some 1) None None = Some (Fin (exp (- (c * 2)) * Rmax (1 - (1 + a) * exp (- (c * 2))) 0)).
Proof.
  intros k c a num draws uw K0 N0.
  assert (MR : mean_reverting (still_model k c) (fun _ => flat_G k)) by (split; intros i Hi; [exact K0|apply (flat_facts k 0 0 K0)]).
  destruct (C79_paths (still_model k c) uw [2] 1 0 draws) as (grid & idx & o & X & Y & E & G0 & GA & GM & FO & OK); [discriminate|intros i Hi; cbn in Hi; lia|cbn; lia || lra|lra|lra|lra|].
  assert (EI : searchsorted_left [2] 1 = 0%nat) by (unfold searchsorted_left; cbn; destruct (Rlt_dec 2 1); [lra|reflexivity] || (repeat match goal with |- context [if ?b then _ else _] => destruct b end; try lra; reflexivity)).
  destruct (OK 0%nat ltac:(cbn; lia)) as (Hg & CL & Q). cbv zeta in Q. cbn [nth] in CL.
  pose proof (swaption_core (still_model k c) (fun _ => flat_G k) uw 0 draws 1 [3] [a] 1 true num (Some [2]) (Some 1) None o (fun n => nth n grid 0) X Y 0 (nth 0 idx 0%nat) MR N0 ltac:(discriminate) eq_refl (or_introl (some_none 1)) E (eq_sym EI) ltac:(cbn; lia) Q) as V.
  unfold hjm_swaption_price in *. cbv zeta in V |- *. rewrite V. f_equal. f_equal. rewrite Rmult_1_l. cbn [nth].
  assert (SI : forall s n, X s n 0%nat = 0 /\ Y s n 0%nat 0%nat = 0) by (intros s n; destruct (still (still_model k c) _ _ _ _ (fun _ _ _ => eq_refl) (FO s) n) as (A & B); split; [apply A|apply B]; cbn; lia).
  transitivity (mean_over num (fun _ => exp (- (c * 2)) * Rmax (1 - (1 + a) * exp (- (c * 2))) 0)); [|apply mean_const, N0]. unfold mean_over. f_equal. apply sums_ext. intros s _. f_equal.
  - unfold discount_after. f_equal. f_equal. rewrite (sums_ext _ _ (fun j => c * (nth (S j) grid 0 - nth j grid 0))); [|intros j _; cbn [still_model q_dim q_forward sum_to]; rewrite (proj1 (SI s _)); ring]. rewrite (telescope c (fun j => nth j grid 0)), G0. f_equal. lra.
  - unfold swaption_payoff, swap_value. cbn [length Nat.sub nth sum_to]. rewrite !(still_bond k c) by apply SI. f_equal. replace (2 + (3 - 1) - 2) with 2 by ring. ring.
Qed.
Print Assumptions C80_swaption_off_grid_refuted.

(** ** Examples *)
Definition cheyette_G (i : nat) : R -> R -> R := flat_G (INR i + 1 / 2).
Example cheyette_reverting : mean_reverting cheyette cheyette_G.
Proof. split; intros i Hi; cbn [cheyette q_mr]; pose proof (pos_INR i); [lra|]. apply (flat_facts (INR i + 1 / 2) 0 0). lra. Qed.
Example cheyette_swaption : forall draws, exists v, hjm_swaption_price cheyette None (1 / 1000) draws 1 [2; 3] [1 / 20; 1 / 20] (Some 100) (Some false) 4 None (Some (1 / 4)) None None = Some (Fin v).
Proof.
  intros draws. destruct (C80_swaption cheyette cheyette_G None (1 / 1000) draws 1 [2; 3] [1 / 20; 1 / 20] 100 false 4 (1 / 4) cheyette_reverting) as (grid & X & Y & g & _ & _ & _ & _ & _ & _ & E); [lia|discriminate|reflexivity|lra|lra|lra|lra|]. eexists. exact E.
Qed.
Lemma two_expiries times : option_times [1; 2] (1 / 2) times -> gaps_above (2 * (1 / 1000)) times.
Proof.
  intros (INC & IN). assert (ML : forall t, In t times -> exists n : Z, t = IZR n * (1 / 2)).
  { intros t Ht. apply IN in Ht. destruct Ht as [[<-|[<-|[]]]|(i & -> & _)]; [exists 2%Z; lra|exists 4%Z; lra|]. exists (Z.of_nat (S i)). rewrite <- INR_IZR_INZ. reflexivity. }
  intros i Hi. pose proof (INC i Hi) as L. destruct (ML (nth i times 0) ltac:(apply nth_In; lia)) as (m & EM). destruct (ML (nth (S i) times 0) ltac:(apply nth_In; lia)) as (n & EN). rewrite EM, EN in *. assert (LT : (m < n)%Z) by (apply lt_IZR; lra). assert (LE : (m + 1 <= n)%Z) by lia. apply IZR_le in LE. rewrite plus_IZR in LE. lra.
Qed.
Example cheyette_cap : forall draws, exists v, hjm_cap_floor_price cheyette None (1 / 1000) draws [Caplet (1 / 20) 1 2 1; Caplet (1 / 20) 2 3 1] 100 true 4 (Some (1 / 2)) = Some (Fin v).
Proof.
  intros draws. destruct (C80_caps_partial cheyette cheyette_G None (1 / 1000) draws [Caplet (1 / 20) 1 2 1; Caplet (1 / 20) 2 3 1] 100 true 4 (1 / 2) cheyette_reverting) as (times & grid & idx & X & Y & _ & _ & _ & _ & _ & _ & at_time & _ & E); [discriminate|lia|lra|lra|lra| | |apply two_expiries|eexists; exact E].
  - intros c [<-|[<-|[]]]; cbn; lra.
  - eexists. split; [left; reflexivity|cbn; lra].
Qed.

(** ** Caplets of the past *)
Ltac num_dec := repeat (match goal with
  | |- context [Rle_dec ?a ?b] => destruct (Rle_dec a b); try (exfalso; lra)
  | |- context [Rlt_dec ?a ?b] => destruct (Rlt_dec a b); try (exfalso; lra) end; cbn [insert]).
Lemma range_one : range_from_0 1 1 = Some [0].
Proof.
  unfold range_from_0. destruct (Req_EM_T 1 0); [lra|]. destruct (rlt_spec 1 0); [lra|]. rewrite !andb_false_r. cbn [andb]. rewrite Rabs_right by lra. rewrite (ceil_eq (1 / 1) 1) by (simpl; lra). change (Z.to_nat 1) with 1%nat. cbn [seq map]. rewrite Rmult_0_l. reflexivity.
Qed.
Lemma past_sorted l : In l [[- (1); 1; 0]; [- (1); 0; 1; 0]] -> dedup 0 (sort l) = [- (1); 0; 1].
Proof.
  intros H. destruct H as [<-|[<-|[]]].
  - assert (E : sort [- (1); 1; 0] = [- (1); 0; 1]) by (cbn [sort insert]; num_dec; reflexivity). rewrite E. unfold dedup, diff. cbn. unfold rlt. num_dec. reflexivity.
  - assert (E : sort [- (1); 0; 1; 0] = [- (1); 0; 0; 1]) by (cbn [sort insert]; num_dec; reflexivity). rewrite E. unfold dedup, diff. cbn. unfold rlt. num_dec. reflexivity.
Qed.
Lemma past_index t : In t [- (1); 0; 1] -> step_index 0 [- (1); 0; 1] t = Some (if Rlt_dec t 0 then 0%nat else if Rlt_dec 0 t then 2%nat else 1%nat).
Proof. intros [<-|[<-|[<-|[]]]]; unfold step_index, searchsorted_left, gather; cbn; unfold rlt; num_dec; cbn; num_dec; reflexivity. Qed.
Lemma past_grid : (exists mask, prepare_grid [- (1); 1] 1 0 None None = Some ([- (1); 0; 1], mask, [0; 2]%nat)) /\ exists mask, prepare_grid [- (1); 0; 1] 1 0 None None = Some ([- (1); 0; 1], mask, [0; 1; 2]%nat) /\ marks mask 3 [0; 1; 2]%nat.
Proof.
  split.
  - unfold prepare_grid, grid_from_time_step. cbn [last]. rewrite range_one. cbn [app]. rewrite past_sorted by (left; reflexivity). cbn [map all_some]. rewrite !past_index by (cbn; auto). num_dec. cbn [all_some]. destruct (scatter_marks [0; 2]%nat (length [- (1); 0; 1])) as (m & -> & _); [intros i [<-|[<-|[]]]; cbn; lia|]. eexists. reflexivity.
  - unfold prepare_grid, grid_from_time_step. cbn [last]. rewrite range_one. cbn [app]. rewrite past_sorted by (right; left; reflexivity). cbn [map all_some]. rewrite !past_index by (cbn; auto). num_dec. cbn [all_some]. destruct (scatter_marks [0; 1; 2]%nat (length [- (1); 0; 1])) as (m & -> & MK); [intros i [<-|[<-|[<-|[]]]]; cbn; lia|]. exists m. split; [reflexivity|exact MK].
Qed.
(** A caplet whose expiry has passed counts 0, but the simulation then starts at
    that expiry and so do the discount factors: the price of the other caplet
    changes, here from its undiscounted value (see above) to that times exp(-2 c). *)
Theorem C80_past_caplet_refuted : forall k c K K' N cap num draws unwritten, k <> 0 -> (0 < num)%nat -> 0 < 1 + K ->
  let price := fun caplets => hjm_cap_floor_price (still_model k c) unwritten 0 draws caplets N cap num (Some 1) in
  price [Caplet K 1 2 1] = Some (Fin (N * caplet_value cap 1 K (exp (- c)))) /\
  price [Caplet K' (- (1)) 0 1; Caplet K 1 2 1] = Some (Fin (exp (- (2 * c)) * (N * caplet_value cap 1 K (exp (- c))))).
Proof.
  intros k c K K' N cap num draws uw K0 N0 G0 price. split.
  - unfold price, hjm_cap_floor_price. cbv zeta. cbn [map ca_daycount ca_strike ca_expiry ca_maturity]. rewrite C80_first_period_refuted by (try assumption; lra). cbn [combine map xsum fold_right ca_expiry ca_daycount ca_strike]. destruct (rlt_spec 1 0); [lra|]. cbn [xmul xadd]. f_equal. f_equal.
    rewrite <- caplet_identity by (try apply exp_pos; lra). rewrite Rminus_diag_eq by reflexivity. rewrite Rmult_0_r, Ropp_0, exp_0. replace (- (c * (2 - 1))) with (- c) by ring. ring.
  - destruct past_grid as ((m1 & E1) & m2 & E2 & MK).
    assert (EU : euler_sample (quasi_process (still_model k c)) [- (1); 0; 1] (Some 1) None None 0 false false draws (fun _ _ => 0) = Some (map (fun i => Some (end_path (quasi_process (still_model k c)) (fun n => nth n [- (1); 0; 1] 0) draws (fun _ _ => 0) i)) [0; 1; 2]%nat)).
    { apply (euler_on_grid _ _ _ _ _ _ _ _ _ _ 1 [- (1); 0; 1] m2 [0; 1; 2]%nat); [unfold euler_sample; cbn [andb]; rewrite E2; reflexivity|exact E2|discriminate|reflexivity|exact MK|]. intros j Hj. cbn in Hj. destruct j as [|[|j]]; cbn; lia. }
    set (Z := end_path (quasi_process (still_model k c)) (fun n => nth n [- (1); 0; 1] 0) draws (fun _ _ => 0)) in *.
    assert (FO : forall s, follows (still_model k c) (fun n => nth n [- (1); 0; 1] 0) (fun n => draws n s) (fun n => xs (Z n s)) (fun n => ys (still_model k c) (Z n s))) by (intros s; apply quasi_path).
    assert (SI : forall s n, xs (Z n s) 0%nat = 0 /\ ys (still_model k c) (Z n s) 0%nat 0%nat = 0) by (intros s n; destruct (still (still_model k c) _ _ _ _ (fun _ _ _ => eq_refl) (FO s) n) as (A & B); split; [apply A|apply B]; cbn; lia).
    set (paths := map Z (seq 0 3)).
    set (o := QOutputs (map (fun i s => nth i (q_rate_path (still_model k c) [- (1); 0; 1] paths s) 0) [0; 2]%nat) (map (fun i s => nth i (q_discount_path (still_model k c) [- (1); 0; 1] paths s) NaN) [0; 2]%nat)
       (map (fun i s => xs (nth i paths (fun _ _ => 0) s)) [0; 2]%nat) (map (fun i s => ys (still_model k c) (nth i paths (fun _ _ => 0) s)) [0; 2]%nat)).
    assert (EO : q_sample_paths (still_model k c) uw [- (1); 1] (Some 1) None 0 draws = Some o) by (unfold q_sample_paths; cbv zeta; rewrite E1, EU; change [0; 1; 2]%nat with (seq 0 3); rewrite written_all; reflexivity).
    assert (OK : forall j, (j < 2)%nat -> q_outputs_ok (still_model k c) (fun n => nth n [- (1); 0; 1] 0) (fun s n => xs (Z n s)) (fun s n => ys (still_model k c) (Z n s)) o j (nth j [0; 2]%nat 0%nat)).
    { intros j Hj. apply (q_outputs_read (still_model k c) [- (1); 0; 1] Z [0; 2]%nat j); [exact Hj|]. destruct j as [|[|j]]; cbn; lia. }
    assert (LGK : forall i, (i < q_dim (still_model k c))%nat -> loading (q_mr (still_model k c) i) (flat_G k)) by (intros i _; apply (flat_facts k 0 0 K0)).
    unfold price, hjm_cap_floor_price, hjm_bond_option_price. cbv zeta. cbn [map ca_daycount ca_strike ca_expiry ca_maturity bo_expiry bo_maturity bo_strike bo_call].
    assert (ND1 : nodup Req_EM_T [- (1); 1] = [- (1); 1]) by (apply nodup_fixed_point; constructor; [intros [Q|[]]; lra|constructor; [intros []|constructor]]). rewrite ND1.
    assert (MX : max_of [- (1); 1] = 1) by (unfold max_of; cbn; unfold Rmax; num_dec; reflexivity). rewrite MX.
    assert (SR : step_range 1 1 1 = Some []) by (destruct (range_steps 1 1 ltac:(lra)) as (m & E & A & B); destruct m as [|m]; [exact E|]; specialize (B 0%nat ltac:(lia)); cbn in B; lra). rewrite SR, app_nil_r, ND1.
    assert (ST : sort [- (1); 1] = [- (1); 1]) by (cbn [sort insert]; num_dec; reflexivity). rewrite ST.
    set (ct := sort (nodup Req_EM_T [0 - - (1); 2 - 1])).
    assert (CT : nth (searchsorted_left ct (2 - 1)) ct 0 = 2 - 1) by (apply (sort_found (nodup Req_EM_T [0 - - (1); 2 - 1])), nodup_In; right; left; reflexivity).
    destruct (C79_curve_paths (still_model k c) uw [- (1); 1] ct (Some 1) None 0 draws o (fun i _ => K0) EO) as (p & EC & PV). rewrite EC. cbn [combine xsum fold_right map ca_expiry ca_daycount ca_strike].
    assert (IX : searchsorted_left [- (1); 1] 1 = 1%nat) by (unfold searchsorted_left; cbn; unfold rlt; num_dec; reflexivity). rewrite IX.
    destruct (rlt_spec (- (1)) 0); [|lra]. destruct (rlt_spec 1 0); [lra|]. f_equal.
    set (v := exp (- (2 * c)) * option_payoff (negb cap) (1 / (1 + 1 * K)) (exp (- c))).
    rewrite (mean_fin _ num (fun _ => v) N0).
    + cbn [xmul xadd]. f_equal. rewrite mean_const by exact N0. rewrite <- caplet_identity by (try apply exp_pos; lra). unfold v. ring.
    + intros s _. rewrite util_discount_at by (cbn; lia). destruct (OK 1%nat ltac:(lia) s) as (QX & QY & QR & _). rewrite (PV (fun _ => flat_G k) 1%nat _ s LGK). cbv zeta. rewrite CT. cbn [xmul]. f_equal. unfold v, option_payoff. f_equal.
      * f_equal. f_equal. cbn [sum_to]. rewrite QR. cbn [nth still_model q_dim q_forward sum_to]. rewrite (proj1 (SI s 2%nat)). ring.
      * match goal with |- context [bond_formula ?a ?b ?g ?y ?x ?t ?u] => replace (bond_formula a b g y x t u) with (exp (- c)) end; [destruct cap; reflexivity|]. symmetry.
        pose proof (still_bond k c (fun _ => flat_G k) (nth 1 (qo_x o) (fun _ _ => 0) s) (nth 1 (qo_y o) (fun _ _ _ => 0) s) 1 (1 + (2 - 1))) as SB. unfold bond_at in SB. cbn [nth] in SB |- *. rewrite SB; [f_equal; ring| |].
        -- etransitivity; [apply QX; cbn; lia|apply SI].
        -- etransitivity; [apply QY; cbn; lia|apply SI].
Qed.
Print Assumptions C80_past_caplet_refuted.
