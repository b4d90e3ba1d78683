(** C68: bond options, caps and floors in the Hull-White model. *)
From Coquelicot Require Import Coquelicot.
From Coq Require Import ZArith Reals List Bool Arith Lia Lra.
From Verif Require Import TensorModel TensorProofs BrentModel BrentProofs ExtReal HaganWestModel BootstrapModel BlackScholesModel BlackScholesSpec NormalProofs BlackScholesProofs ImpliedVolProofs GaussConv MvNormalSpec MvNormalProofs GbmModel GbmProofs PiecewiseModel
  HullWhiteModel HullWhiteSpec HullWhiteProofs HullWhiteProofs2 HullWhiteBondSpec HullWhiteBondProofs PropsHullWhiteBond HullWhiteOptionModel.
Import ListNotations.
Open Scope R_scope.

Lemma rlt_spec a b : reflect (a < b) (rlt a b).
Proof. unfold rlt. destruct (Rlt_dec a b); constructor; assumption. Qed.
Definition fits {A : Type} (n : nat) (l : list A) : Prop := length l = n \/ length l = 1%nat.
Lemma common_fits n a b : (a = n \/ a = 1)%nat -> (b = n \/ b = 1)%nat -> exists r, common_length a b = Some r /\ (r = n \/ r = 1)%nat /\ (a = n \/ b = n -> r = n)%nat.
Proof.
  intros A B. unfold common_length. destruct (Nat.eqb_spec a b) as [->|N]; [exists b; split; [reflexivity|]; split; [exact B|lia]|].
  destruct (Nat.eqb_spec a 1); [exists b; split; [reflexivity|]; split; [exact B|lia]|]. destruct (Nat.eqb_spec b 1); [exists a; split; [reflexivity|]; split; [exact A|lia]|]. lia.
Qed.

Section Option.
  Variables (h : hw) (k : R) (y : R -> R) (G : R -> R -> R).
  Notation f := (hw_forward h 0).
  Notation sigma := (param_at (hw_vol h 0)).
  Hypothesis HC : hw_coordinate h 0 k.
  Hypothesis SV : state_variance sigma k y.
  Hypothesis HL : loading k G.
  Lemma variance_is T S : 0 <= T -> bond_option_variance h T S = y T * G T S ^ 2.
  Proof.
    intros T0. destruct (coordinate_moments h 0 k HC) as (NI & _ & _). pose proof HC as (MR & K0 & _ & _). unfold bond_option_variance. rewrite MR. cbv zeta. cbn [param_at]. rewrite (state_variance_is _ k _ y NI SV T T0), (loading_is k G T S K0 HL).
    replace (exp (- k * S)) with (exp (- k * T) * exp (- (k * (S - T)))) by (rewrite <- exp_plus; f_equal; ring). replace (exp (-2 * k * T)) with (exp (- k * T) * exp (- k * T)) by (rewrite <- exp_plus; f_equal; ring). field. exact K0.
  Qed.
  Lemma loading_pos T S : T < S -> 0 < G T S.
  Proof.
    intros TS. destruct HC as (_ & K0 & _ & _). rewrite (loading_is k G T S K0 HL). destruct (Rtotal_order k 0) as [N|[E|P]]; [|contradiction|].
    - assert (1 < exp (- (k * (S - T)))) by (pose proof (exp_ineq1 (- (k * (S - T))) ltac:(nra)); nra). unfold Rdiv. replace ((1 - exp (- (k * (S - T)))) * / k) with ((exp (- (k * (S - T))) - 1) * / (- k)) by (field; lra). apply Rmult_lt_0_compat; [lra|apply Rinv_0_lt_compat; lra].
    - assert (exp (- (k * (S - T))) < 1) by (apply Rlt_le_trans with (exp 0); [apply exp_increasing; nra|rewrite exp_0; lra]). apply Rdiv_lt_0_compat; lra.
  Qed.
  Notation DT T := (initial_bond h 0 T).
  Lemma bond_pos T : 0 < DT T. Proof. apply exp_pos. Qed.
  (** The value through the log-normal call and put. *)
  Lemma option_value K T S call : 0 < K -> 0 <= T -> T <= S -> 0 < bond_option_variance h T S ->
    bond_option h K T S call = Fin (DT T * log_value K call (ln (DT S / DT T) - bond_option_variance h T S / 2) (sqrt (bond_option_variance h T S))).
  Proof.
    intros KP T0 TS W. unfold bond_option. set (w := bond_option_variance h T S) in *. replace (exp (- hw_rate h 0 T * T)) with (DT T) by (unfold initial_bond; f_equal; ring). replace (exp (- hw_rate h 0 S * S)) with (DT S) by (unfold initial_bond; f_equal; ring).
    pose proof (bond_pos T) as PT. pose proof (bond_pos S) as PS. set (a := DT T) in *. set (b := DT S) in *. clearbody a b. cbv zeta. destruct (rlt_spec S T) as [Q|_]; [lra|].
    assert (SP : 0 < sqrt w) by (apply sqrt_lt_R0, W). set (s := sqrt w) in *. assert (SS : s * s = w) by (apply sqrt_sqrt; lra).
    rewrite (xsqrt_f w ltac:(lra)), (xdiv_f b a ltac:(lra)), (xdiv_f (b / a) K ltac:(lra)). fold s. cbn [xlt]. destruct (rlt_spec 0 s) as [_|Q]; [|lra].
    assert (FP : 0 < b / a / K) by (apply Rdiv_lt_0_compat; [apply Rdiv_lt_0_compat|]; assumption). rewrite (xln_f _ FP). cbn [xmul xadd]. unfold xdivide_no_nan. cbn [xzero]. unfold InterpModel.req. destruct (Req_EM_T s 0) as [Q|_]; [lra|]. rewrite (xdiv_f _ s ltac:(lra)).
    assert (LN : ln (b / a / K) = ln (b / a) - ln K) by (unfold Rdiv at 1; rewrite ln_mult, ln_Rinv by (try apply Rinv_0_lt_compat; try apply Rdiv_lt_0_compat; lra); ring).
    unfold log_value, log_call. destruct (Rlt_dec 0 s) as [_|Q]; [|lra]. replace (ln (b / a) - w / 2 + s ^ 2 / 2) with (ln (b / a)) by (rewrite <- SS; field). rewrite exp_ln by (apply Rdiv_lt_0_compat; lra).
    replace ((ln (b / a) - w / 2 - ln K) / s + s) with ((ln (b / a / K) + 1 / 2 * w) / s) by (rewrite LN; rewrite <- SS; field; lra).
    replace ((ln (b / a) - w / 2 - ln K) / s) with ((ln (b / a / K) + 1 / 2 * w) / s - s) by (rewrite LN; rewrite <- SS; field; lra).
    set (d1 := (ln (b / a / K) + 1 / 2 * w) / s). destruct call; cbn [xopp xsub xadd xncdf xmul]; f_equal; [|unfold xsub; cbn [xopp xadd]; change (- (d1 + - s)) with (- (d1 - s)); rewrite !ncdf_symm]; change (d1 + - s) with (d1 - s); field; lra.
  Qed.
  (** The joint law of r(T) and its integral under the forward measure. *)
  Lemma joint_facts T m mx alpha beta : 0 <= T -> is_RInt f 0 T (hw_rate h 0 T * T) -> rate_and_integral f sigma k y G T m mx alpha beta ->
    alpha * sqrt (y T) = mx /\ m = hw_rate h 0 T * T + (alpha ^ 2 + beta ^ 2) / 2.
  Proof.
    intros T0 HF (v & c & RI & SM & IC & EA & EV). destruct (coordinate_moments h 0 k HC) as (NI & DI & PJ). pose proof HC as (MR & K0 & VO & _). split.
    - rewrite EA. assert (IC' : is_RInt (fun u => sigma u ^ 2 * exp (- (k * (T - u))) * ((1 - exp (- (k * (T - u)))) / k)) 0 T c) by (revert IC; apply rint_ext; [exact T0|]; intros u _; rewrite (loading_is k G u T K0 HL); reflexivity).
      rewrite (covariance_is_mean (hw_vol h 0) k _ _ K0 VO PJ NI DI T c T0 IC'). symmetry. apply (rint_unique _ _ _ _ _ SM). apply (rint_val _ _ _ (exp (- k * T) * (mean_at h 0 T - mean_at h 0 0))).
      + apply (drift_part k (variance_at h 0)); [lra|exact DI|intros u U; apply (state_variance_is _ k _ y NI SV u U)].
      + rewrite (drift_zero _ _ _ DI). ring.
    - pose proof (rate_integral_value h 0 k y G f 0 T (f 0) m v HC SV HL ltac:(lra) RI _ HF) as E. rewrite (state_variance_is _ k _ y NI SV 0 (Rle_refl 0)), (noise_zero _ _ _ NI) in E. rewrite EV. lra.
  Qed.
  (** The discounted payoff as a function of the two normal variables. *)
  Definition discounted (payoff : R -> R) (T S m mx alpha beta : R) (z : list R) : R :=
    exp (- (m + alpha * nth 0 z 0 + beta * nth 1 z 0)) * payoff (discount_bond_price h 0 (f T + mx + sqrt (y T) * nth 0 z 0) T S).
  Lemma option_expectation K T S call m mx alpha beta : 0 < K -> 0 <= T -> T < S -> 0 < y T -> is_RInt f 0 T (hw_rate h 0 T * T) -> rate_and_integral f sigma k y G T m mx alpha beta ->
    iid_expectation 2 (discounted (vanilla call K) T S m mx alpha beta) (DT T * log_value K call (ln (DT S / DT T) - bond_option_variance h T S / 2) (sqrt (bond_option_variance h T S))).
  Proof.
    intros KP T0 TS YP HF RI. destruct (joint_facts T m mx alpha beta T0 HF RI) as (EA & EM). rewrite (variance_is T S T0). pose proof (loading_pos T S TS) as GP. set (g := G T S) in *. set (q := sqrt (y T)) in *.
    assert (QP : 0 < q) by (apply sqrt_lt_R0, YP). assert (QQ : q * q = y T) by (apply sqrt_sqrt; lra). replace (sqrt (y T * g ^ 2)) with (q * g) by (rewrite <- QQ; replace (q * q * g ^ 2) with ((q * g) ^ 2) by ring; rewrite sqrt_pow2; [reflexivity|apply Rmult_le_pos; lra]).
    pose (pay := fun z => vanilla call K (discount_bond_price h 0 (f T + mx + q * z) T S)). pose (W := fun z => exp (- m + beta ^ 2 / 2 - alpha * z) * pay z). exists W. split.
    - intros x. exists (fun z => discounted (vanilla call K) T S m mx alpha beta [x; z]). split; [reflexivity|]. unfold discounted. cbn [nth]. fold q. change (vanilla call K (discount_bond_price h 0 (f T + mx + q * x) T S)) with (pay x). unfold W.
      apply (expectation_ext (fun z => pay x * exp ((- m - alpha * x) + - beta * z))); [intros z; rewrite Rmult_comm; f_equal; f_equal; ring|].
      eapply expectation_scal; [apply expect_exp_affine|]. rewrite Rmult_comm. f_equal. f_equal. field.
    - set (x := ln (DT S / DT T) - y T * g ^ 2 / 2). assert (P : expectation (fun z => pay (z + - alpha)) (log_value K call x (q * g))).
      { apply (expectation_ext (fun z => vanilla call K (exp (x + q * g * (- z))))); [|apply (expect_opp (fun z => vanilla call K (exp (x + q * g * z)))); apply log_value_spec; [exact KP|apply Rmult_lt_0_compat; assumption]].
        intros z. unfold pay. f_equal. rewrite (C67_formula h 0 k y G _ T S HC SV HL T0). unfold x. fold g. pose proof (bond_pos T). pose proof (bond_pos S). rewrite <- (exp_ln (DT S / DT T)) at 2 by (apply Rdiv_lt_0_compat; assumption). rewrite <- exp_plus. f_equal. rewrite <- EA. ring. }
      apply (expect_shift pay (- alpha)) in P. eapply expectation_ext; [|eapply expectation_scal; [exact P|reflexivity]]. intros z. unfold W. cbv beta. unfold initial_bond. rewrite <- Rmult_assoc, <- exp_plus. f_equal. f_equal. rewrite EM. field.
  Qed.
  Lemma variance_pos T S : 0 <= T -> T < S -> 0 < y T -> 0 < bond_option_variance h T S.
  Proof. intros T0 TS YP. rewrite (variance_is T S T0). pose proof (loading_pos T S TS). apply Rmult_lt_0_compat; [exact YP|]. apply pow_lt. assumption. Qed.
  (** By the Cauchy-Schwarz inequality the two normal variables exist. *)
  Lemma law_exists T F : 0 <= T -> 0 < y T -> is_RInt f 0 T F -> exists m mx alpha beta, rate_and_integral f sigma k y G T m mx alpha beta.
  Proof.
    intros T0 YP HF. destruct (coordinate_moments h 0 k HC) as (NI & DI & PJ). pose proof HC as (MR & K0 & VO & _). destruct (rate_integral_exists h 0 k y G f 0 T (f 0) F HC SV HL ltac:(lra) HF) as (m & v & RI).
    assert (SM : state_mean k y T (exp (- k * T) * (mean_at h 0 T - mean_at h 0 0))) by (apply (drift_part k (variance_at h 0)); [lra|exact DI|intros u U; apply (state_variance_is _ k _ y NI SV u U)]).
    destruct (weighted_exists (hw_vol h 0) (fun u => (exp (- (k * (T - u))) - exp (- (2 * k * (T - u))) / 2) / k ^ 2) (fun u => exp (- (k * (T - u))) * ((1 - exp (- (k * (T - u)))) / k)) VO PJ) as (U & HU).
    { intros u. auto_derive; [exact Logic.I|]. unfold Rminus. replace (exp (- (2 * k * (T + - u)))) with (exp (- (k * (T + - u))) * exp (- (k * (T + - u)))) by (rewrite <- exp_plus; f_equal; ring). field. exact K0. }
    { intros u. apply (ex_derive_continuous (K := R_AbsRing) (V := R_NormedModule)). auto_derive. exact Logic.I. }
    assert (IC : integral_covariance sigma k G T (U T)) by (specialize (HU T T0); revert HU; apply rint_ext; [exact T0|]; intros u _; rewrite (loading_is k G u T K0 HL); ring).
    set (c := U T) in *. set (l := c / y T). assert (CS : 0 <= v - c * c / y T).
    { destruct RI as (F1 & D & A & _ & _ & _ & _ & HV). pose proof (SV T T0) as HY.
      pose proof (rint_lin _ _ 1 (- 2 * l) _ _ _ _ HV IC) as X1. pose proof (rint_lin _ _ 1 (l ^ 2) _ _ _ _ X1 HY) as X2. cbv beta in X2.
      replace (v - c * c / y T) with (1 * (1 * v + - 2 * l * c) + l ^ 2 * y T) by (unfold l; field; lra).
      assert (Z0 : is_RInt (fun _ => 0) 0 T 0) by (apply (rint_val _ _ _ ((T - 0) * 0)); [apply (is_RInt_const (V := R_NormedModule))|ring]).
      apply (is_RInt_le (fun _ => 0) _ 0 T 0 _ T0 Z0 X2).
      intros u _. replace (exp (- (2 * k * (T - u)))) with (exp (- (k * (T - u))) * exp (- (k * (T - u)))) by (rewrite <- exp_plus; f_equal; ring).
      replace (1 * (1 * (sigma u ^ 2 * G u T ^ 2) + -2 * l * (sigma u ^ 2 * exp (- (k * (T - u))) * G u T)) + l ^ 2 * (exp (- (k * (T - u))) * exp (- (k * (T - u))) * sigma u ^ 2)) with ((sigma u * (G u T - l * exp (- (k * (T - u))))) ^ 2) by ring. apply pow2_ge_0. }
    exists m, (exp (- k * T) * (mean_at h 0 T - mean_at h 0 0)), (c / sqrt (y T)), (sqrt (v - c * c / y T)), v, c. split; [exact RI|]. split; [exact SM|]. split; [exact IC|]. assert (QP : 0 < sqrt (y T)) by (apply sqrt_lt_R0, YP). split; [field; lra|].
    rewrite pow2_sqrt by exact CS. replace ((c / sqrt (y T)) ^ 2) with (c * c / (sqrt (y T) * sqrt (y T))) by (field; lra). rewrite sqrt_sqrt by lra. ring.
  Qed.
End Option.

(** ** Options on zero-coupon bonds *)
(** For every option of the batch, with broadcasting, the price is the
    expectation of exp(-integral of r up to T) (P(T, S) - K)^+ or
    exp(-integral of r up to T) (K - P(T, S))^+. *)
Lemma prices_ok h strikes expiries maturities calls n : sample_with_generic h = false -> fits n strikes -> fits n expiries -> fits n maturities -> fits n calls -> (length expiries = n \/ length maturities = n) ->
  bond_option_price h strikes expiries maturities calls = Some (map (fun i => bond_option h (pick 0 strikes i) (pick 0 expiries i) (pick 0 maturities i) (pick true calls i)) (seq 0 n)).
Proof.
  intros SG FS FE FM FC EM. unfold bond_option_price. destruct (common_fits n _ _ FS FE) as (se & -> & SE & SN). destruct (common_fits n _ _ FE FM) as (em & -> & _ & EN). rewrite (EN EM). clear em EN.
  destruct (common_fits n _ _ SE FM) as (i & -> & _ & IN). rewrite IN by (destruct EM as [E|E]; [left; apply SN; right; exact E|right; exact E]). rewrite SG, Nat.eqb_refl. cbn [negb].
  destruct (common_fits n (length calls) n FC (or_introl eq_refl)) as (r & -> & _ & RN). rewrite RN by (right; reflexivity). reflexivity.
Qed.
Lemma not_generic' h k : hw_coordinate h 0 k -> hw_dim h = 1%nat -> sample_with_generic h = false.
Proof. intros (MR & _) D. unfold sample_with_generic. rewrite D. cbn. rewrite MR. reflexivity. Qed.
Theorem C68_bond_options : forall h k y G strikes expiries maturities calls n,
  hw_coordinate h 0 k -> hw_dim h = 1%nat -> state_variance (param_at (hw_vol h 0)) k y -> loading k G ->
  fits n strikes -> fits n expiries -> fits n maturities -> fits n calls -> (length expiries = n \/ length maturities = n) ->
  exists prices, bond_option_price h strikes expiries maturities calls = Some prices /\ length prices = n /\
    forall i, (i < n)%nat -> let K := pick 0 strikes i in let T := pick 0 expiries i in let S := pick 0 maturities i in
      0 < K -> 0 <= T -> T < S -> 0 < y T -> is_RInt (hw_forward h 0) 0 T (hw_rate h 0 T * T) ->
      exists p, nth i prices NaN = Fin p /\ forall m mx alpha beta, rate_and_integral (hw_forward h 0) (param_at (hw_vol h 0)) k y G T m mx alpha beta ->
        iid_expectation 2 (discounted h y (vanilla (pick true calls i) K) T S m mx alpha beta) p.
Proof.
  intros h k y G strikes expiries maturities calls n HC D1 SV HL FS FE FM FC EM. eexists. split; [apply (prices_ok h _ _ _ _ n); try assumption; apply (not_generic' h k HC D1)|]. split; [rewrite map_length; apply seq_length|].
  intros i Hi. cbv zeta. intros KP T0 TS YP HF. eexists. split.
  - rewrite (nth_indep _ NaN (bond_option h (pick 0 strikes O) (pick 0 expiries O) (pick 0 maturities O) (pick true calls O))) by (rewrite map_length, seq_length; exact Hi). rewrite (map_nth (fun i => bond_option h (pick 0 strikes i) (pick 0 expiries i) (pick 0 maturities i) (pick true calls i))), seq_nth by exact Hi. cbn [Nat.add].
    apply (option_value h); [assumption|assumption|lra|]. apply (variance_pos h k y G); assumption.
  - intros m mx al be RI. apply (option_expectation h k y G); assumption.
Qed.
Print Assumptions C68_bond_options.
(** Put-call parity: C - P = P(0, S) - K P(0, T). *)
Theorem C68_parity : forall h k y G K T S, hw_coordinate h 0 k -> state_variance (param_at (hw_vol h 0)) k y -> loading k G -> 0 < K -> 0 <= T -> T < S -> 0 < y T ->
  exists c p, bond_option h K T S true = Fin c /\ bond_option h K T S false = Fin p /\ c - p = initial_bond h 0 S - K * initial_bond h 0 T.
Proof.
  intros h k y G K T S HC SV HL KP T0 TS YP. pose proof (variance_pos h k y G HC SV HL T S T0 TS YP) as W. do 2 eexists. split; [apply option_value; try assumption; lra|]. split; [apply option_value; try assumption; lra|].
  cbn [log_value]. rewrite <- (pow2_sqrt (bond_option_variance h T S)) at 1 3 5 by lra. set (s := sqrt (bond_option_variance h T S)). assert (0 < initial_bond h 0 T) by apply exp_pos. assert (0 < initial_bond h 0 S) by apply exp_pos.
  replace (ln (initial_bond h 0 S / initial_bond h 0 T) - s ^ 2 / 2 + s ^ 2 / 2) with (ln (initial_bond h 0 S / initial_bond h 0 T)) by ring. rewrite exp_ln by (apply Rdiv_lt_0_compat; assumption). field. lra.
Qed.
Print Assumptions C68_parity.

(** ** Caps and floors *)
(** The simple rate of the period of length tau whose bond price is P. *)
Definition simple_rate (tau P : R) : R := (1 / P - 1) / tau.
Lemma caplet_payoff cap tau X P : 0 < tau -> 0 < 1 + tau * X -> 0 < P -> (1 + tau * X) * vanilla (negb cap) (1 / (1 + tau * X)) P = P * (tau * vanilla cap X (simple_rate tau P)).
Proof.
  intros TP GP PP. assert (E1 : (1 + tau * X) * (P - 1 / (1 + tau * X)) = P * (tau * (X - simple_rate tau P))) by (unfold simple_rate; field; lra). assert (E2 : (1 + tau * X) * (1 / (1 + tau * X) - P) = P * (tau * (simple_rate tau P - X))) by (unfold simple_rate; field; lra).
  assert (MX : forall c d x z, 0 < c -> 0 < d -> c * x = d * z -> c * Rmax x 0 = d * Rmax z 0).
  { intros c d x z C D E. unfold Rmax. destruct (Rle_dec x 0) as [A|A], (Rle_dec z 0) as [B|B]; try lra; exfalso; nra. }
  rewrite <- Rmult_assoc. rewrite <- Rmult_assoc in E1, E2. unfold vanilla. destruct cap; cbn [negb]; (apply MX; [exact GP|apply Rmult_lt_0_compat; assumption|assumption]).
Qed.
Lemma fold_sum (F : nat -> xr) (c : nat -> R) : forall n s, (forall i, (s <= i < s + n)%nat -> F i = Fin (c i)) -> fold_right xadd (Fin 0) (map F (seq s n)) = Fin (sum_to n (fun i => c (s + i)%nat)).
Proof.
  induction n as [|n IH]; intros s H; [reflexivity|]. cbn [seq map fold_right]. rewrite (H s) by lia. rewrite IH by (intros i Hi; apply H; lia). cbn [xadd]. f_equal. rewrite sum_to_first. f_equal; [f_equal; lia|]. apply sum_to_ext. intros i _. f_equal. lia.
Qed.
Lemma sum_scaled c (g : nat -> R) n : sum_to n (fun i => c * g i) = c * sum_to n g.
Proof. induction n as [|n IH]; cbn [sum_to]; [ring|]. rewrite IH. ring. Qed.
Lemma discount_pos h a r t T : 0 < discount_bond_price h a r t T.
Proof. unfold discount_bond_price, bond_reconstitution. cbv zeta. apply Rmult_lt_0_compat; [apply Rdiv_lt_0_compat|]; apply exp_pos. Qed.
Lemma discounted_ext h y (p q : R -> R) T S m mx al be z : (forall P, 0 < P -> p P = q P) -> discounted h y p T S m mx al be z = discounted h y q T S m mx al be z.
Proof. intros E. unfold discounted. rewrite E by apply discount_pos. reflexivity. Qed.
Section Cap.
  Variables (h : hw) (k : R) (y : R -> R) (G : R -> R -> R) (strikes expiries maturities daycounts : list R) (n : nat).
  Hypothesis HC : hw_coordinate h 0 k. Hypothesis D1 : hw_dim h = 1%nat.
  Hypothesis SV : state_variance (param_at (hw_vol h 0)) k y. Hypothesis HL : loading k G.
  Hypothesis FS : fits n strikes. Hypothesis FE : fits n expiries. Hypothesis FM : fits n maturities. Hypothesis FD : fits n daycounts. Hypothesis EM : length expiries = n \/ length maturities = n.
  Notation X i := (pick 0 strikes i). Notation T i := (pick 0 expiries i). Notation S i := (pick 0 maturities i). Notation tau i := (pick 0 daycounts i).
  Hypothesis OK : forall i, (i < n)%nat -> 0 <= T i -> 0 < tau i /\ 0 < 1 + tau i * X i /\ T i < S i /\ 0 < y (T i).
  Definition caplet (cap : bool) (i : nat) : R := if Rlt_dec (T i) 0 then 0 else
    (1 + tau i * X i) * (initial_bond h 0 (T i) * log_value (1 / (1 + tau i * X i)) (negb cap) (ln (initial_bond h 0 (S i) / initial_bond h 0 (T i)) - bond_option_variance h (T i) (S i) / 2) (sqrt (bond_option_variance h (T i) (S i)))).
  Lemma cap_value cap notional : cap_floor_price h strikes expiries maturities daycounts notional cap = Some (Fin (notional * sum_to n (caplet cap))).
  Proof.
    unfold cap_floor_price. destruct (common_fits n _ _ FD FS) as (r & -> & RF & RN). set (bs := map (fun i => 1 / (1 + tau i * X i)) (seq 0 r)). assert (LB : length bs = r) by (unfold bs; rewrite map_length; apply seq_length).
    rewrite (prices_ok h bs expiries maturities [negb cap] n); [|apply (not_generic' h k HC D1)|unfold fits; rewrite LB; exact RF|exact FE|exact FM|right; reflexivity|exact EM].
    cbv zeta. rewrite !map_length, !seq_length. f_equal. rewrite (fold_sum _ (fun i => notional * caplet cap i)).
    - f_equal. apply sum_scaled.
    - intros i Hi. assert (I : (i < n)%nat) by lia. cbn [xmul xadd]. set (one := fun i => bond_option h (pick 0 bs i) (T i) (S i) (pick true [negb cap] i)). set (masked := fun i => if rlt (T i) 0 then Fin 0 else nth i (map one (seq 0 n)) NaN).
      assert (NM : forall F : nat -> xr, nth i (map F (seq 0 n)) NaN = F i) by (intros F; rewrite (nth_indep _ NaN (F O)) by (rewrite map_length, seq_length; exact I); rewrite map_nth, seq_nth by exact I; reflexivity).
      rewrite (NM masked). unfold masked. unfold caplet. destruct (rlt_spec (T i) 0) as [Q|Q], (Rlt_dec (T i) 0) as [P|P]; try lra; [cbn [xmul]; f_equal; ring|]. rewrite (NM one). unfold one.
      assert (BS : pick 0 bs i = 1 / (1 + tau i * X i)).
      { unfold pick at 1. rewrite LB. unfold bs. destruct (Nat.eqb_spec r 1) as [->|RN1].
        - cbn [seq map nth]. destruct (Nat.eq_dec n 1) as [N1|N1]; [replace i with O by lia; reflexivity|]. assert (LD : length daycounts = 1%nat) by (destruct FD as [E|E]; [exfalso; apply N1; symmetry; apply RN; left; exact E|exact E]). assert (LS : length strikes = 1%nat) by (destruct FS as [E|E]; [exfalso; apply N1; symmetry; apply RN; right; exact E|exact E]). unfold pick. rewrite LD, LS. reflexivity.
        - assert (r = n) as -> by (destruct RF; [assumption|contradiction]). rewrite (nth_indep _ 0 ((fun i => 1 / (1 + tau i * X i)) O)) by (rewrite map_length, seq_length; exact I). rewrite (map_nth (fun i => 1 / (1 + tau i * X i))), seq_nth by exact I. reflexivity. }
      rewrite BS. change (pick true [negb cap] i) with (negb cap). destruct (OK i I ltac:(lra)) as (TP & GP & TS & YP). rewrite option_value; [cbn [xmul]; f_equal; ring|apply Rdiv_lt_0_compat; lra|lra|lra|apply (variance_pos h k y G); try assumption; lra].
  Qed.
  Lemma caplet_expectation cap i m mx al be : (i < n)%nat -> 0 <= T i -> is_RInt (hw_forward h 0) 0 (T i) (hw_rate h 0 (T i) * T i) -> rate_and_integral (hw_forward h 0) (param_at (hw_vol h 0)) k y G (T i) m mx al be ->
    iid_expectation 2 (discounted h y (fun P => P * (tau i * vanilla cap (X i) (simple_rate (tau i) P))) (T i) (S i) m mx al be) (caplet cap i).
  Proof.
    intros I T0 HF RI. destruct (OK i I T0) as (TP & GP & TS & YP). unfold caplet. destruct (Rlt_dec (T i) 0) as [Q|_]; [lra|].
    apply (iid_ext 2 (fun z => (1 + tau i * X i) * discounted h y (vanilla (negb cap) (1 / (1 + tau i * X i))) (T i) (S i) m mx al be z)).
    - intros z. rewrite (discounted_ext h y (fun P => P * (tau i * vanilla cap (X i) (simple_rate (tau i) P))) (fun P => (1 + tau i * X i) * vanilla (negb cap) (1 / (1 + tau i * X i)) P)) by (intros P PP; symmetry; apply caplet_payoff; assumption). unfold discounted. ring.
    - apply iid_scal. apply (option_expectation h k y G); try assumption. apply Rdiv_lt_0_compat; lra.
  Qed.
End Cap.
(** The price of a cap (floor) is the notional times the sum of the expectations of
    exp(-integral of r up to T_i) P(T_i, S_i) tau_i (L_i - X_i)^+ (or the negative
    part), where L_i is the simple rate for the period from T_i to S_i; periods
    with T_i < 0 count 0. *)
Theorem C68_caps : forall h k y G strikes expiries maturities daycounts n notional cap,
  hw_coordinate h 0 k -> hw_dim h = 1%nat -> state_variance (param_at (hw_vol h 0)) k y -> loading k G ->
  fits n strikes -> fits n expiries -> fits n maturities -> fits n daycounts -> (length expiries = n \/ length maturities = n) ->
  let X := pick 0 strikes in let T := pick 0 expiries in let S := pick 0 maturities in let tau := pick 0 daycounts in
  (forall i, (i < n)%nat -> 0 <= T i -> 0 < tau i /\ 0 < 1 + tau i * X i /\ T i < S i /\ 0 < y (T i) /\ is_RInt (hw_forward h 0) 0 (T i) (hw_rate h 0 (T i) * T i)) ->
  exists c, cap_floor_price h strikes expiries maturities daycounts notional cap = Some (Fin (notional * sum_to n c)) /\
    forall i, (i < n)%nat -> (T i < 0 -> c i = 0) /\
      (0 <= T i -> forall m mx alpha beta, rate_and_integral (hw_forward h 0) (param_at (hw_vol h 0)) k y G (T i) m mx alpha beta ->
        iid_expectation 2 (discounted h y (fun P => P * (tau i * vanilla cap (X i) (simple_rate (tau i) P))) (T i) (S i) m mx alpha beta) (c i)).
Proof.
  intros h k y G strikes expiries maturities daycounts n notional cap HC D1 SV HL FS FE FM FD EM. cbv zeta. intros OK. exists (caplet h strikes expiries maturities daycounts cap). assert (OK' : forall i, (i < n)%nat -> 0 <= pick 0 expiries i -> 0 < pick 0 daycounts i /\ 0 < 1 + pick 0 daycounts i * pick 0 strikes i /\ pick 0 expiries i < pick 0 maturities i /\ 0 < y (pick 0 expiries i)) by (intros i I T0; destruct (OK i I T0) as (A & B & C & D & _); repeat split; assumption).
  split; [apply (cap_value h k y G); assumption|]. intros i I. split.
  - intros N. unfold caplet. destruct (Rlt_dec (pick 0 expiries i) 0); [reflexivity|contradiction].
  - intros T0 m mx al be RI. apply (caplet_expectation h k y G) with (n := n); try assumption. apply OK; assumption.
Qed.
Print Assumptions C68_caps.
(** Cap - floor is the notional times the sum of P(0, T_i) - (1 + tau_i X_i) P(0, S_i). *)
Theorem C68_cap_parity : forall h k y G strikes expiries maturities daycounts n notional,
  hw_coordinate h 0 k -> hw_dim h = 1%nat -> state_variance (param_at (hw_vol h 0)) k y -> loading k G ->
  fits n strikes -> fits n expiries -> fits n maturities -> fits n daycounts -> (length expiries = n \/ length maturities = n) ->
  let X := pick 0 strikes in let T := pick 0 expiries in let S := pick 0 maturities in let tau := pick 0 daycounts in
  (forall i, (i < n)%nat -> 0 <= T i /\ 0 < tau i /\ 0 < 1 + tau i * X i /\ T i < S i /\ 0 < y (T i)) ->
  exists c f, cap_floor_price h strikes expiries maturities daycounts notional true = Some (Fin c) /\ cap_floor_price h strikes expiries maturities daycounts notional false = Some (Fin f) /\
    c - f = notional * sum_to n (fun i => initial_bond h 0 (T i) - (1 + tau i * X i) * initial_bond h 0 (S i)).
Proof.
  intros h k y G strikes expiries maturities daycounts n notional HC D1 SV HL FS FE FM FD EM. cbv zeta. intros OK.
  assert (OK' : forall i, (i < n)%nat -> 0 <= pick 0 expiries i -> 0 < pick 0 daycounts i /\ 0 < 1 + pick 0 daycounts i * pick 0 strikes i /\ pick 0 expiries i < pick 0 maturities i /\ 0 < y (pick 0 expiries i)) by (intros i I T0; destruct (OK i I) as (_ & A & B & C & D); repeat split; assumption).
  do 2 eexists. split; [apply (cap_value h k y G) with (n := n); assumption|]. split; [apply (cap_value h k y G) with (n := n); assumption|]. rewrite <- Rmult_minus_distr_l. f_equal.
  clear FS FE FM FD EM OK'. induction n as [|n IH]; cbn [sum_to]; [ring|]. assert (OK' : forall i, (i < n)%nat -> _) by (intros i Hi; exact (OK i (Nat.lt_lt_succ_r _ _ Hi))). specialize (IH OK'). clear OK'.
  match goal with |- (?a + ?b) - (?c + ?d) = ?e + ?f => cut (b - d = f); [intros Q; change (a - c = e) in IH; lra|] end. clear IH. destruct (OK n (Nat.lt_succ_diag_r n)) as (T0 & TP & GP & TS & YP). unfold caplet. destruct (Rlt_dec (pick 0 expiries n) 0) as [Q|_]; [lra|]. cbn [negb].
  assert (KP : 0 < 1 / (1 + pick 0 daycounts n * pick 0 strikes n)) by (apply Rdiv_lt_0_compat; lra). pose proof (variance_pos h k y G HC SV HL _ _ T0 TS YP) as W. destruct (C68_parity h k y G (1 / (1 + pick 0 daycounts n * pick 0 strikes n)) _ _ HC SV HL KP T0 TS YP) as (c & p & EC & EP & PAR).
  rewrite option_value in EC, EP by (assumption || lra). assert (FI : forall u w : R, Fin u = Fin w -> u = w) by (intros u w E; injection E; auto). apply FI in EC, EP. rewrite EC, EP. rewrite <- Rmult_minus_distr_l. replace (p - c) with (- (c - p)) by ring. rewrite PAR. field. lra.
Qed.
Print Assumptions C68_cap_parity.

(** ** Where the property fails *)
(** With zero variance the value is the intrinsic value without discounting: a
    deterministic model, with the flat rate 1, the call of strike exp(-1)/2 that
    expires at 1 on the bond of maturity 2. *)
Definition quiet : hw := HW 1 (fun _ => Const 1) (fun _ => Const 0) None (fun _ _ => 1) (fun _ _ => 1).
Lemma zero_variance h K T S call : 0 < K -> T <= S -> bond_option_variance h T S = 0 -> bond_option h K T S call = Fin (vanilla call K (initial_bond h 0 S / initial_bond h 0 T)).
Proof.
  intros KP TS W. unfold bond_option. rewrite W. cbv zeta. destruct (rlt_spec S T) as [Q|_]; [lra|]. rewrite (xsqrt_f 0 ltac:(lra)), sqrt_0. cbn [xlt]. destruct (rlt_spec 0 0) as [Q|_]; [lra|].
  replace (exp (- hw_rate h 0 T * T)) with (initial_bond h 0 T) by (unfold initial_bond; f_equal; ring). replace (exp (- hw_rate h 0 S * S)) with (initial_bond h 0 S) by (unfold initial_bond; f_equal; ring).
  assert (0 < initial_bond h 0 T) by apply exp_pos. rewrite (xdiv_f _ (initial_bond h 0 T)) by lra. unfold xsub. cbn [xopp xadd]. rewrite !xmax_f. destruct call; reflexivity.
Qed.
Theorem C68_zero_variance_refuted : let K := exp (- (1)) / 2 in
  let y (_ : R) := 0 in let G t T := (1 - exp (- (1 * (T - t)))) / 1 in
  hw_coordinate quiet 0 1 /\ state_variance (param_at (hw_vol quiet 0)) 1 y /\ loading 1 G /\ is_RInt (hw_forward quiet 0) 0 1 (hw_rate quiet 0 1 * 1) /\
  rate_and_integral (hw_forward quiet 0) (param_at (hw_vol quiet 0)) 1 y G 1 1 0 0 0 /\
  exists p, bond_option_price quiet [K] [1] [2] [true] = Some [Fin p] /\ ~ iid_expectation 2 (discounted quiet y (vanilla true K) 1 2 1 0 0 0) p.
Proof.
  intros K y G. assert (Z : forall (g : R -> R) a b, a <= b -> (forall u, a < u < b -> g u = 0) -> is_RInt g a b 0).
  { intros g a b L E. apply (rint_ext (fun _ => 0)); [exact L|intros u U; symmetry; apply E, U|]. apply (rint_val _ _ _ ((b - a) * 0)); [apply (is_RInt_const (V := R_NormedModule))|ring]. }
  assert (HC : hw_coordinate quiet 0 1) by (split; [reflexivity|]; split; [lra|]; split; [exact Logic.I|]; intros x []).
  assert (SV : state_variance (param_at (hw_vol quiet 0)) 1 y) by (intros t T; apply Z; [exact T|]; intros u _; cbn; ring).
  assert (HL : loading 1 G).
  { intros t T. set (F := fun u => - exp (- (1 * (u - t)))). apply (rint_val _ _ _ (F T - F t)); [|unfold F, G; replace (1 * (t - t)) with 0 by ring; rewrite Ropp_0, exp_0; field].
    apply rint_derive; unfold F; [intros u; auto_derive; [exact Logic.I|]; unfold Rminus; ring|intros u; apply (ex_derive_continuous (K := R_AbsRing) (V := R_NormedModule)); auto_derive; exact Logic.I]. }
  assert (HF : is_RInt (hw_forward quiet 0) 0 1 (hw_rate quiet 0 1 * 1)) by (apply (rint_val _ _ _ ((1 - 0) * 1)); [apply (is_RInt_const (V := R_NormedModule))|cbn; ring]).
  split; [exact HC|]. split; [exact SV|]. split; [exact HL|]. split; [exact HF|]. split.
  - exists 0, 0. split; [|split; [|split; [|split; [ring|ring]]]].
    + exists (hw_rate quiet 0 1 * 1), (fun _ => 0), 0. split; [exact HF|]. split; [intros s HS; apply Z; [lra|]; intros u _; unfold y; ring|]. split; [apply Z; [lra|reflexivity]|]. split; [cbn; ring|]. apply Z; [lra|]. intros u _. cbn. ring.
    + apply Z; [lra|]. intros u _. unfold y. ring.
    + apply Z; [lra|]. intros u _. cbn. ring.
  - set (x := exp (- (1))) in *. assert (XP : 0 < x < 1) by (split; [apply exp_pos|unfold x; apply Rlt_le_trans with (exp 0); [apply exp_increasing; lra|rewrite exp_0; lra]]).
    assert (KP : 0 < K) by (unfold K; fold x; lra).
    assert (FW : initial_bond quiet 0 2 / initial_bond quiet 0 1 = x) by (unfold initial_bond, x, Rdiv; rewrite <- exp_Ropp, <- exp_plus; f_equal; cbn; ring).
    assert (PR : bond_option_price quiet [K] [1] [2] [true] = Some [Fin (vanilla true K x)]).
    { rewrite (prices_ok quiet [K] [1] [2] [true] 1); [|reflexivity|left; reflexivity|left; reflexivity|left; reflexivity|left; reflexivity|left; reflexivity]. cbn [seq map]. unfold pick. cbn [length Nat.eqb nth]. rewrite (zero_variance quiet K 1 2 true KP ltac:(lra)), FW; [reflexivity|]. rewrite (variance_is quiet 1 y G HC SV HL 1 2 ltac:(lra)). unfold y. ring. }
    exists (vanilla true K x). split; [exact PR|]. intros E.
    assert (E' : iid_expectation 2 (discounted quiet y (vanilla true K) 1 2 1 0 0 0) (x * vanilla true K x)).
    { assert (C : forall z, discounted quiet y (vanilla true K) 1 2 1 0 0 0 z = x * vanilla true K x).
      { intros z. unfold discounted. f_equal; [unfold x; f_equal; ring|]. f_equal. rewrite (C67_formula quiet 0 1 y G _ 1 2 HC SV HL ltac:(lra)), FW. unfold y. rewrite sqrt_0. cbn [hw_forward quiet]. replace (_ - 0 * _ / 2) with 0 by field. rewrite exp_0. ring. }
      exists (fun _ => x * vanilla true K x). split; [|apply expect_const]. intros u. exists (fun _ => x * vanilla true K x). split; [|apply expect_const]. intros w. cbn [iid_expectation]. symmetry. apply C. }
    pose proof (iid_unique 2 _ _ _ E E') as Q. unfold vanilla, K in Q. fold x in Q. rewrite Rmax_left in Q by lra. nra.
Qed.
Print Assumptions C68_zero_variance_refuted.
(** Two strikes for one expiry and one maturity fail in the reshape. *)
Theorem C68_shape_refuted : forall h k1 k2 T S call, bond_option_price h [k1; k2] [T] [S] [call] = None.
Proof. intros h k1 k2 T S call. unfold bond_option_price. cbn. destruct (sample_with_generic h); reflexivity. Qed.
Print Assumptions C68_shape_refuted.
(** A mean reversion with jumps is refused. *)
Theorem C68_errors : forall h strikes expiries maturities calls, hw_dim h = 1%nat -> param_jumps (hw_mr h 0) <> [] -> bond_option_price h strikes expiries maturities calls = None.
Proof.
  intros h strikes expiries maturities calls D J. assert (SG : sample_with_generic h = true) by (unfold sample_with_generic; rewrite D; cbn; unfold has_jumps; destruct (param_jumps (hw_mr h 0)); [contradiction|reflexivity]).
  unfold bond_option_price. destruct (common_length (length strikes) (length expiries)); [|reflexivity]. destruct (common_length (length expiries) (length maturities)); [|reflexivity]. destruct (common_length _ _); [|reflexivity]. rewrite SG. reflexivity.
Qed.
Print Assumptions C68_errors.

(** * Example *)
(** Mean reversion 1/10, volatility 1 up to time 1 and 2 after it, the curve flat
    at 1 percent: a cap of two periods, the first reset already past. *)
Example cap_ex : let h := HW 1 (fun _ => Const (1 / 10)) (fun _ => Piecewise (PW [1] [1; 2])) None (fun _ _ => 1 / 100) (fun _ _ => 1 / 100) in
  let y t := exp (- 2 * (1 / 10) * t) * variance_at h 0 t in let G t T := (1 - exp (- (1 / 10 * (T - t)))) / (1 / 10) in
  hw_coordinate h 0 (1 / 10) /\ state_variance (param_at (hw_vol h 0)) (1 / 10) y /\ loading (1 / 10) G /\
  fits 2 [2 / 100] /\ fits 2 [- (1 / 4); 2] /\ fits 2 [3 / 4; 3] /\ fits 2 [1] /\ 0 < y 2 /\ is_RInt (hw_forward h 0) 0 2 (hw_rate h 0 2 * 2) /\
  exists m mx alpha beta, rate_and_integral (hw_forward h 0) (param_at (hw_vol h 0)) (1 / 10) y G 2 m mx alpha beta.
Proof.
  intros h y G. destruct bond_ex as (HC & SV & HL & _). fold h in HC, SV. change (state_variance (param_at (hw_vol h 0)) (1 / 10) y) in SV. change (loading (1 / 10) G) in HL.
  assert (HF : is_RInt (hw_forward h 0) 0 2 (hw_rate h 0 2 * 2)) by (apply (rint_val _ _ _ ((2 - 0) * (1 / 100))); [apply (is_RInt_const (V := R_NormedModule))|cbn [hw_rate h]; field]).
  assert (YP : 0 < y 2).
  { unfold y. apply Rmult_lt_0_compat; [apply exp_pos|]. destruct (coordinate_moments h 0 _ HC) as (NI & _ & _). specialize (NI 2 ltac:(lra)).
    assert (C : is_RInt (fun _ => 1) 0 2 2) by (apply (rint_val _ _ _ ((2 - 0) * 1)); [apply (is_RInt_const (V := R_NormedModule))|ring]).
    pose proof (is_RInt_le _ _ 0 2 _ _ ltac:(lra) C NI) as L. enough (2 <= variance_at h 0 2) by lra. apply L. intros u U. cbn [hw_vol h param_at]. unfold pw_call, searchsorted_left. cbn [jumps pvalues filter length]. unfold at_. assert (1 < exp (2 * (1 / 10) * u)) by (pose proof (exp_ineq1 (2 * (1 / 10) * u) ltac:(lra)); lra).
    destruct (Rlt_dec 1 u); cbn [length nth]; lra. }
  split; [exact HC|]. split; [exact SV|]. split; [exact HL|]. split; [right; reflexivity|]. split; [left; reflexivity|]. split; [left; reflexivity|]. split; [right; reflexivity|]. split; [exact YP|]. split; [exact HF|].
  apply (law_exists h (1 / 10) y G HC SV HL 2 _ ltac:(lra) YP HF).
Qed.
