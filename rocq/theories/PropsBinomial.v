(** C42: binomial tree pricing. *)
From Coq Require Import Reals Lra Lia List Bool Arith.
From Verif Require Import InterpModel BrentModel BinomialModel BinomialSpec BinomialProofs.
Open Scope R_scope.

(** European price: the discounted expected payoff when the number of up moves
    is binomial with the weight that makes the asset earn its carry. *)
Theorem C42_european a : tree_ok a -> american a = false -> exists p, risk_neutral a p /\ (forall q, risk_neutral a q -> q = p)
  /\ (fine_enough a <-> 0 <= p <= 1)
  /\ option_price_binomial a = Some (discount a * binomial_expectation (t_steps a) p
       (fun k => exercise (a_call a) (t_strike a) (t_spot a * up a ^ k * dn a ^ (t_steps a - k)))).
Proof.
  intros V E. exists (weight a). split; [apply weight_neutral; exact V|]. split; [apply weight_unique; exact V|]. split; [apply fine_weight; exact V|].
  rewrite european_average by assumption. rewrite average_binomial. reflexivity.
Qed.

Lemma kind_ok a c e : tree_ok a -> tree_ok (with_kind a c e).
Proof. intros V. exact V. Qed.
Lemma growth a : tree_ok a -> (weight a * up a + (1 - weight a) * dn a) ^ t_steps a = exp ((interest a - payout a) * t_expiry a).
Proof.
  intros V. rewrite (weight_neutral a V).
  assert (Y : forall n x, exp x ^ n = exp (INR n * x)).
  { induction n as [|n IH]; intros x; [cbn [pow INR]; rewrite Rmult_0_l, exp_0; reflexivity|]. cbn [pow]. rewrite IH, <- exp_plus, S_INR. f_equal. ring. }
  rewrite Y. f_equal. unfold step. field. destruct V as (_ & _ & _ & D). apply not_0_INR. lia.
Qed.
Lemma spot_value a : discount a * (t_spot a * exp ((interest a - payout a) * t_expiry a)) = t_spot a * exp (- (payout a * t_expiry a)).
Proof. unfold discount. replace (exp (- (interest a * t_expiry a)) * (t_spot a * exp ((interest a - payout a) * t_expiry a))) with (t_spot a * (exp (- (interest a * t_expiry a)) * exp ((interest a - payout a) * t_expiry a))) by ring. rewrite <- exp_plus. do 2 f_equal. ring. Qed.

(** Put-call parity, for any number of steps. *)
Theorem C42_parity a : tree_ok a -> exists c p,
  option_price_binomial (with_kind a true false) = Some c /\ option_price_binomial (with_kind a false false) = Some p
  /\ c - p = t_spot a * exp (- (payout a * t_expiry a)) - discount a * t_strike a.
Proof.
  intros V. do 2 eexists. split; [apply european_average; [exact V|reflexivity]|]. split; [apply european_average; [exact V|reflexivity]|].
  change (discount (with_kind a ?c ?e)) with (discount a). change (up (with_kind a ?c ?e)) with (up a). change (dn (with_kind a ?c ?e)) with (dn a).
  change (weight (with_kind a ?c ?e)) with (weight a). change (t_steps (with_kind a ?c ?e)) with (t_steps a). change (t_spot (with_kind a ?c ?e)) with (t_spot a). change (t_strike (with_kind a ?c ?e)) with (t_strike a).
  change (a_call (with_kind a true false)) with true. change (a_call (with_kind a false false)) with false.
  rewrite <- Rmult_minus_distr_l.
  assert (E : average (exercise true (t_strike a)) (up a) (dn a) (weight a) (t_steps a) (t_spot a) - average (exercise false (t_strike a)) (up a) (dn a) (weight a) (t_steps a) (t_spot a)
    = t_spot a * exp ((interest a - payout a) * t_expiry a) - t_strike a).
  { transitivity (average (fun x => 1 * exercise true (t_strike a) x + -1 * exercise false (t_strike a) x) (up a) (dn a) (weight a) (t_steps a) (t_spot a)); [rewrite average_lin; ring|].
    rewrite (average_ext _ (fun x => 1 * x + -1 * t_strike a)).
    - rewrite (average_lin (fun x => x) (fun _ => t_strike a)), average_id, average_const, growth by exact V. ring.
    - intros x. unfold exercise, Rmax. destruct (Rle_dec _ 0), (Rle_dec _ 0); lra. }
  rewrite E, Rmult_minus_distr_l, spot_value. reflexivity.
Qed.

(** Bounds, when the steps are fine enough. *)
Theorem C42_bounds a : tree_ok a -> american a = false -> fine_enough a -> 0 <= t_strike a -> exists v,
  option_price_binomial a = Some v
  /\ exercise (a_call a) (discount a * t_strike a) (t_spot a * exp (- (payout a * t_expiry a))) <= v
  /\ v <= (if a_call a then t_spot a * exp (- (payout a * t_expiry a)) else discount a * t_strike a).
Proof.
  intros V E F K. eexists. split; [apply european_average; assumption|]. apply fine_weight in F; [|exact V].
  assert (D : 0 < discount a) by apply exp_pos. assert (V3 : 0 < t_spot a) by apply V.
  set (A := average (exercise (a_call a) (t_strike a)) (up a) (dn a) (weight a) (t_steps a) (t_spot a)).
  assert (L : forall al be, (forall x, 0 < x -> al * x + be * 1 <= exercise (a_call a) (t_strike a) x) -> al * (t_spot a * exp ((interest a - payout a) * t_expiry a)) + be <= A).
  { intros al be H. assert (X := average_le _ _ (up a) (dn a) (weight a) (t_steps a) F (up_pos a) (dn_pos a) H (t_spot a) V3).
    rewrite (average_lin (fun x => x) (fun _ => 1)), average_id, average_const, growth in X by exact V. fold A in X. lra. }
  assert (U : forall al be, (forall x, 0 < x -> exercise (a_call a) (t_strike a) x <= al * x + be * 1) -> A <= al * (t_spot a * exp ((interest a - payout a) * t_expiry a)) + be).
  { intros al be H. assert (X := average_le _ _ (up a) (dn a) (weight a) (t_steps a) F (up_pos a) (dn_pos a) H (t_spot a) V3).
    rewrite (average_lin (fun x => x) (fun _ => 1)), average_id, average_const, growth in X by exact V. fold A in X. lra. }
  assert (Z := L 0 0). rewrite <- (spot_value a). set (G := t_spot a * exp ((interest a - payout a) * t_expiry a)) in *.
  assert (Z' : 0 <= A). { apply Rle_trans with (0 * G + 0); [lra|apply Z]. intros x _. unfold exercise. destruct (a_call a); rewrite Rmult_0_l, Rmult_1_r, Rplus_0_l; apply Rmax_r. }
  unfold exercise in *. destruct (a_call a).
  - split.
    + apply Rmax_lub; [|apply Rmult_le_pos; lra]. assert (X : 1 * G + - t_strike a <= A) by (apply L; intros x _; assert (Y := Rmax_l (x - t_strike a) 0); lra). nra.
    + assert (X : A <= 1 * G + 0) by (apply U; intros x PX; apply Rmax_lub; lra). nra.
  - split.
    + apply Rmax_lub; [|apply Rmult_le_pos; lra]. assert (X : -1 * G + t_strike a <= A) by (apply L; intros x _; assert (Y := Rmax_l (t_strike a - x) 0); lra). nra.
    + assert (X : A <= 0 * G + t_strike a) by (apply U; intros x PX; apply Rmax_lub; lra). nra.
Qed.

(** Otherwise a put can have a negative price. *)
Theorem C42_coarse_refuted a : tree_ok a -> american a = false -> a_call a = false -> t_steps a = 1%nat -> 0 < t_volatility a ->
  t_volatility a < (interest a - payout a) * sqrt (step a) -> t_spot a * dn a < t_strike a <= t_spot a * up a ->
  exists v, option_price_binomial a = Some v /\ v < 0.
Proof.
  intros V E C N P G K. eexists. split; [apply european_average; assumption|]. rewrite N, C. cbn [average]. unfold exercise.
  rewrite (Rmax_right (t_strike a - t_spot a * up a)) by lra. rewrite (Rmax_left (t_strike a - t_spot a * dn a)) by lra.
  assert (W : 1 < weight a).
  { assert (X := weight_neutral a V). unfold risk_neutral in X. assert (SP := sqrt_lt_R0 _ (step_pos a V)).
    assert (U1 : dn a < up a). { unfold dn, up. rewrite <- exp_Ropp. apply exp_increasing. nra. }
    assert (U2 : up a < exp ((interest a - payout a) * step a)). { unfold up. apply exp_increasing. assert (SS := sqrt_sqrt (step a) ltac:(left; apply step_pos; exact V)). rewrite <- SS at 2. nra. }
    nra. }
  assert (D : 0 < discount a) by apply exp_pos. assert (X : 0 < discount a * (weight a - 1)) by (apply Rmult_lt_0_compat; lra).
  assert (Y : 0 < discount a * (weight a - 1) * (t_strike a - t_spot a * dn a)) by (apply Rmult_lt_0_compat; lra). lra.
Qed.

Lemma exercise_nonneg c K x : 0 <= exercise c K x.
Proof. unfold exercise. destruct c; apply Rmax_r. Qed.
Lemma american_bounds f u d p D n : 0 <= p <= 1 -> 0 < D <= 1 -> (forall x, 0 <= f x) -> forall x,
  D * american_value f u d p D n x <= back (value_modifier true f) f u d p D n x <= american_value f u d p D n x.
Proof.
  intros P HD F. induction n as [|n IH]; intros x; cbn [american_value back value_modifier].
  - assert (X := F x). nra.
  - destruct (IH (x * u)) as [U1 U2]. destruct (IH (x * d)) as [D1 D2].
    set (au := american_value f u d p D n (x * u)) in *. set (ad := american_value f u d p D n (x * d)) in *.
    set (bu := back (value_modifier true f) f u d p D n (x * u)) in *. set (bd := back (value_modifier true f) f u d p D n (x * d)) in *.
    assert (X := F x). assert (E1 : D * (p * au + (1 - p) * ad) <= bd * (1 - p) + bu * p) by nra.
    assert (E2 : bd * (1 - p) + bu * p <= p * au + (1 - p) * ad) by nra.
    clearbody au ad bu bd. split.
    + apply Rmult_le_compat_l; [lra|]. apply Rle_max_compat_l. exact E1.
    + rewrite <- RmaxRmult by lra. apply Rmax_lub; [apply Rle_trans with (f x); [nra|apply Rmax_l]|].
      apply Rle_trans with (D * (p * au + (1 - p) * ad)); [apply Rmult_le_compat_l; lra|apply Rmax_r].
Qed.

(** American options: within one step's discounting of the value of the right
    to exercise at every step ... *)
Theorem C42_american a : tree_ok a -> american a = true -> fine_enough a -> 0 <= interest a -> exists p v, risk_neutral a p /\ option_price_binomial a = Some v
  /\ let true_value := american_value (exercise (a_call a) (t_strike a)) (up a) (dn a) p (step_discount a) (t_steps a) (t_spot a) in
     step_discount a * true_value <= v <= true_value.
Proof.
  intros V E F R. exists (weight a). eexists. split; [apply weight_neutral; exact V|]. split; [apply price_back; exact V|]. cbv zeta. rewrite E.
  apply american_bounds; [apply fine_weight; assumption| |apply exercise_nonneg].
  split; [apply exp_pos|]. unfold step_discount. assert (S := step_pos a V). rewrite <- exp_0.
  destruct (Req_dec (interest a) 0) as [Q|Q]; [rewrite Q, Rmult_0_l, Ropp_0; lra|left; apply exp_increasing; assert (0 < interest a) by lra; nra].
Qed.
(** ... exact when the interest rate is zero ... *)
Theorem C42_american_zero_rate a : tree_ok a -> american a = true -> interest a = 0 -> exists p, risk_neutral a p
  /\ option_price_binomial a = Some (american_value (exercise (a_call a) (t_strike a)) (up a) (dn a) p 1 (t_steps a) (t_spot a)).
Proof.
  intros V E R. exists (weight a). split; [apply weight_neutral; exact V|]. rewrite price_back, E by exact V.
  assert (step_discount a = 1) as ->. { unfold step_discount. rewrite R, Rmult_0_l, Ropp_0. apply exp_0. }
  f_equal. set (f := exercise (a_call a) (t_strike a)). generalize (t_spot a) as x. induction (t_steps a) as [|n IH]; intros x; cbn [back american_value value_modifier]; [reflexivity|].
  rewrite !IH, !Rmult_1_l. f_equal. ring.
Qed.
(** ... and never below the European price. *)
Theorem C42_american_european a c : tree_ok a -> fine_enough a -> exists v e,
  option_price_binomial (with_kind a c true) = Some v /\ option_price_binomial (with_kind a c false) = Some e /\ e <= v.
Proof.
  intros V F. do 2 eexists. split; [apply price_back; exact V|]. split; [apply price_back; exact V|].
  change (discount (with_kind a ?c ?e)) with (discount a). change (up (with_kind a ?c ?e)) with (up a). change (dn (with_kind a ?c ?e)) with (dn a). change (step_discount (with_kind a ?c ?e)) with (step_discount a).
  change (weight (with_kind a ?c ?e)) with (weight a). change (t_steps (with_kind a ?c ?e)) with (t_steps a). change (t_spot (with_kind a ?c ?e)) with (t_spot a). change (t_strike (with_kind a ?c ?e)) with (t_strike a).
  change (a_call (with_kind a c ?e)) with c. change (american (with_kind a c ?e)) with e.
  apply fine_weight in F; [|exact V]. assert (D : 0 < step_discount a) by apply exp_pos.
  set (f := exercise c (t_strike a)). generalize (t_spot a) as x. induction (t_steps a) as [|n IH]; intros x; cbn [back value_modifier]; [lra|].
  apply Rmult_le_compat_l; [lra|]. apply Rle_trans with (back (value_modifier true f) f (up a) (dn a) (weight a) (step_discount a) n (x * dn a) * (1 - weight a) + back (value_modifier true f) f (up a) (dn a) (weight a) (step_discount a) n (x * up a) * weight a); [|apply Rmax_r].
  assert (A := IH (x * dn a)). assert (B := IH (x * up a)). nra.
Qed.
(** But an American put deep in the money is priced below its exercise value,
    for every number of steps: the exercise value is discounted by one step. *)
Theorem C42_american_refuted a : tree_ok a -> american a = true -> a_call a = false -> 0 < t_volatility a -> 0 < interest a -> payout a <= interest a ->
  t_spot a * up a ^ t_steps a <= t_strike a ->
  option_price_binomial a = Some (step_discount a * (t_strike a - t_spot a)) /\ step_discount a * (t_strike a - t_spot a) < t_strike a - t_spot a.
Proof.
  intros V E C VP IP Q K. rewrite price_back, E, C by exact V. assert (SP := step_pos a V). assert (SQ := sqrt_lt_R0 _ SP). assert (VV := V). destruct VV as (V1 & V2 & V3 & V4).
  assert (D0 : 0 < step_discount a) by apply exp_pos.
  assert (D1 : step_discount a < 1). { unfold step_discount. rewrite <- exp_0. apply exp_increasing. nra. }
  assert (U1 : 1 < up a). { unfold up. rewrite <- exp_0 at 1. apply exp_increasing. nra. }
  assert (DU : 0 < dn a <= up a). { split; [apply dn_pos|]. unfold dn. apply Rmult_le_reg_r with (up a); [lra|]. rewrite Rinv_l by lra. nra. }
  assert (G : 1 <= weight a * up a + (1 - weight a) * dn a). { rewrite (weight_neutral a V). rewrite <- exp_0 at 1. destruct (Req_dec (interest a - payout a) 0) as [Z|Z]; [rewrite Z, Rmult_0_l; lra|left; apply exp_increasing; nra]. }
  set (D := step_discount a) in *. set (u := up a) in *. set (d := dn a) in *. set (p := weight a) in *. set (k := t_strike a) in *.
  assert (X : forall n x, 0 < x -> x * u ^ S n <= k -> back (value_modifier true (exercise false k)) (exercise false k) u d p D (S n) x = D * (k - x)).
  { assert (PW : forall n, 1 <= u ^ n) by (intros n; apply pow_R1_Rle; lra).
    assert (EX : forall x, x <= k -> exercise false k x = k - x) by (intros x L; unfold exercise; apply Rmax_left; lra).
    induction n as [|n IH]; intros x PX L.
    - cbn [pow] in L. assert (L1 : x * u <= k) by lra. assert (L2 : x <= k) by nra. assert (L3 : x * d <= k) by nra.
      cbn [back value_modifier]. rewrite !EX by assumption. f_equal. rewrite Rmax_left; [reflexivity|]. nra.
    - assert (L' : x * u * u ^ S n <= k) by (cbn [pow] in *; lra). assert (P1 := PW (S n)). assert (P2 := PW (S (S n))).
      assert (L2 : x <= k). { apply Rle_trans with (2 := L). rewrite <- (Rmult_1_r x) at 1. apply Rmult_le_compat_l; lra. }
      assert (XU : 0 < x * u) by (apply Rmult_lt_0_compat; lra). assert (XD : 0 < x * d) by (apply Rmult_lt_0_compat; lra).
      assert (L3 : x * d * u ^ S n <= k). { apply Rle_trans with (x * u * u ^ S n); [|exact L']. apply Rmult_le_compat_r; [lra|]. apply Rmult_le_compat_l; lra. }
      change (back (value_modifier true (exercise false k)) (exercise false k) u d p D (S (S n)) x) with (D * Rmax (exercise false k x) (back (value_modifier true (exercise false k)) (exercise false k) u d p D (S n) (x * d) * (1 - p) + back (value_modifier true (exercise false k)) (exercise false k) u d p D (S n) (x * u) * p)).
      rewrite (IH (x * u)), (IH (x * d)) by assumption. rewrite EX by exact L2. f_equal. rewrite Rmax_left; [reflexivity|].
      set (g := p * u + (1 - p) * d) in *. replace (D * (k - x * d) * (1 - p) + D * (k - x * u) * p) with (D * (k - x * g)) by (unfold g; ring). clear - G PX L2 D0 D1.
      assert (A : 0 <= D * (x * (g - 1))) by (apply Rmult_le_pos; [lra|apply Rmult_le_pos; lra]). assert (B : 0 <= (1 - D) * (k - x)) by (apply Rmult_le_pos; lra). lra. }
  destruct (t_steps a) as [|n] eqn:N; [lia|]. rewrite X by assumption. split; [reflexivity|].
  assert (PW : 1 < u ^ S n) by (apply Rlt_pow_R1; [lra|lia]). assert (t_spot a < k) by nra. nra.
Qed.

(** Without time left the payoff is returned; without volatility, NaN. *)
Theorem C42_expired a : t_expiry a <= 0 -> option_price_binomial a = Some (exercise (a_call a) (t_strike a) (t_spot a)).
Proof.
  intros L. unfold option_price_binomial, rlt, a_call, or_true. destruct (Rlt_dec 0 (t_expiry a)); [lra|]. unfold exercise. destruct (t_call a) as [[|]|]; reflexivity.
Qed.
Theorem C42_no_volatility_refuted a : 0 < t_expiry a -> t_volatility a = 0 -> option_price_binomial a = None.
Proof.
  intros L E. unfold option_price_binomial, rlt. destruct (Rlt_dec 0 (t_expiry a)); [|lra]. cbv zeta. rewrite E, Rmult_0_l, Rmult_0_r, exp_0.
  assert (req (1 - 1) 0 = true) as ->; [unfold req; destruct (Req_EM_T (1 - 1) 0); [reflexivity|lra]|]. rewrite orb_true_r. reflexivity.
Qed.

Definition tree_example : tree_args := TreeArgs (1 / 5) 100 1 90 (Some (1 / 20)) None (Some false) None 4.
Example C42_ex : tree_ok tree_example /\ american tree_example = false /\ fine_enough tree_example /\ 0 <= t_strike tree_example.
Proof.
  split; [repeat split; cbn; try lra; lia|]. split; [reflexivity|]. split; [|cbn; lra].
  unfold fine_enough, step; cbn. replace (1 / (1 + 1 + 1 + 1)) with ((1 / 2) * (1 / 2)) by field. rewrite sqrt_square by lra.
  rewrite !Rabs_right by lra. lra.
Qed.
Example C42_ex_american : let a := TreeArgs (1 / 5) 100 1 50 (Some (1 / 20)) None (Some false) (Some true) 1 in
  tree_ok a /\ american a = true /\ a_call a = false /\ 0 < t_volatility a /\ 0 < interest a /\ payout a <= interest a /\ t_spot a * up a ^ t_steps a <= t_strike a.
Proof.
  cbv zeta. split; [repeat split; cbn; try lra; lia|]. do 5 (split; [cbn; try reflexivity; lra|]). unfold up, step. cbn [t_volatility t_expiry t_steps t_spot t_strike INR pow].
  replace (1 / 1) with 1 by field. rewrite sqrt_1.
  assert (X : exp (1 / 5 * 1) <= 2). { assert (Y := exp_ineq1 (- (1 / 5)) ltac:(lra)). assert (Z : exp (- (1 / 5)) * exp (1 / 5 * 1) = 1) by (rewrite <- exp_plus; replace (- (1 / 5) + 1 / 5 * 1) with 0 by ring; apply exp_0). assert (W := exp_pos (1 / 5 * 1)). nra. }
  lra.
Qed.
Example C42_ex_coarse : let a := TreeArgs (1 / 5) 100 1 100 (Some 1) None (Some false) None 1 in
  tree_ok a /\ american a = false /\ a_call a = false /\ 0 < t_volatility a /\ t_volatility a < (interest a - payout a) * sqrt (step a) /\ t_spot a * dn a < t_strike a <= t_spot a * up a.
Proof.
  cbv zeta. split; [repeat split; cbn; try lra; lia|]. do 3 (split; [cbn; try reflexivity; lra|]).
  unfold dn, up, step. cbn [t_volatility t_expiry t_steps t_spot t_strike INR interest payout t_rate t_dividend]. replace (1 / 1) with 1 by field. rewrite sqrt_1.
  assert (X := exp_ineq1 (1 / 5 * 1) ltac:(lra)). split; [lra|]. split; [|lra].
  assert (Y : / exp (1 / 5 * 1) < 1) by (apply (Rmult_lt_reg_r (exp (1 / 5 * 1))); [lra|]; rewrite Rinv_l by lra; lra). lra.
Qed.

Print Assumptions C42_european.
Print Assumptions C42_parity.
Print Assumptions C42_bounds.
Print Assumptions C42_coarse_refuted.
Print Assumptions C42_american.
Print Assumptions C42_american_zero_rate.
Print Assumptions C42_american_european.
Print Assumptions C42_american_refuted.
Print Assumptions C42_expired.
Print Assumptions C42_no_volatility_refuted.
