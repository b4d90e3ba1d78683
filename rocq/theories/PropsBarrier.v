(** C41: barrier options. *)
From Coquelicot Require Import Coquelicot.
From Coq Require Import Reals Lra List Bool.
From Verif Require Import BrentModel ExtReal BlackScholesModel BlackScholesSpec NormalProofs BlackScholesProofs BarrierModel BarrierSpec BarrierProofs.
Import ListNotations.
Open Scope R_scope.

Lemma with_out_self a o : out a = o -> barrier_price (with_out a o) = barrier_price a.
Proof.
  intros E. unfold barrier_price, with_out, masks, mask_index. cbn [b_volatility b_strike b_expiry b_spot b_barrier b_rebate b_rate b_dividend is_barrier_down is_knock_out is_call].
  rewrite (flag_true (is_knock_out a)). unfold out in E. rewrite E. destruct o; reflexivity.
Qed.

(** A knock-out without rebate is worth the discounted expectation of the
    vanilla payoff times the chance that the barrier was not touched. *)
Theorem C41_out a : valid_args a -> not_crossed a -> out a = true -> rebate a = 0 ->
  exists e, expectation (fun z => pays a z * survives a z) e /\ barrier_price a = discount_of a * e.
Proof.
  intros V _ O R. destruct (value_out a V O) as (e & E & P). exists e. split; [exact E|]. rewrite P, rebate_zero by exact R. ring.
Qed.

(** Without rebate, knock-in plus knock-out is the vanilla option. *)
Theorem C41_parity a : valid_args a -> rebate a = 0 ->
  option_price (vanilla_args a) = Some (Fin (barrier_price (with_out a false) + barrier_price (with_out a true))).
Proof.
  intros V R. destruct (value_vanilla a V) as (e & _ & E & ->). destruct (core_parity a V) as (x & -> & ->).
  rewrite E, (rebate_zero a R). do 2 f_equal. destruct (wrong_row a); [ring|].
  destruct (value_survives a V) as (f & _ & F). rewrite F, R. ring.
Qed.

(** A knock-in pays the vanilla payoff when the barrier was touched, and the
    rebate at expiry when it was not; except in one row of the table. *)
Theorem C41_in a : valid_args a -> not_crossed a -> out a = false ->
  rebate a = 0 \/ ~ (down a = true /\ a_call a = false /\ b_barrier a < b_strike a) ->
  exists e r, expectation (fun z => pays a z * (1 - survives a z)) e /\ expectation (survives a) r
    /\ barrier_price a = discount_of a * (e + rebate a * r).
Proof.
  intros V _ O W. destruct (value_vanilla a V) as (e & X & E & _). destruct (value_survives a V) as (r & Y & Q).
  destruct (value_out (with_out a true) V eq_refl) as (k & K & P). change (expectation (fun z => pays a z * survives a z) k) in K.
  destruct (core_parity a V) as (x & P1 & P2). rewrite P in P1. change (discount_of (with_out a true)) with (discount_of a) in P1. change (rebate_out (with_out a true)) with (rebate_out a) in P1.
  exists (e - k), r. split; [|split; [exact Y|]].
  - apply (expectation_ext (fun z => pays a z + -1 * (pays a z * survives a z))); [intros; ring|].
    eapply expectation_plus; [exact X|eapply expectation_scal; [exact K|reflexivity]|ring].
  - rewrite <- (with_out_self a false O), P2, E. replace x with (discount_of a * k) by lra.
    destruct (wrong_row a) eqn:WR; [|rewrite Q; ring].
    destruct W as [W|W]; [rewrite W, (rebate_zero a W); ring|].
    exfalso. apply W. unfold wrong_row in WR. apply andb_prop in WR. destruct WR as [WR W3]. apply andb_prop in WR. destruct WR as [W1 W2].
    split; [exact W1|]. split; [destruct (a_call a); [discriminate|reflexivity]|].
    destruct (rlt_spec (b_barrier a) (b_strike a)) as [[_ L]|[L _]]; [exact L|congruence].
Qed.

Lemma survives_range a z : valid_args a -> not_crossed a -> 0 <= survives a z <= 1.
Proof.
  intros V N. assert (VV := V). destruct VV as (V1 & V2 & V3 & V4 & V5). unfold survives.
  assert (EP := end_pos a V z). assert (SP : 0 < deviation_of a ^ 2) by (apply pow_lt; apply s_pos; exact V).
  assert (Z : forall x y, 0 <= x * y -> 0 <= 1 - exp (- (2 * x * y / deviation_of a ^ 2)) <= 1).
  { intros x y P. assert (Q := exp_pos (- (2 * x * y / deviation_of a ^ 2))).
    assert (L : exp (- (2 * x * y / deviation_of a ^ 2)) <= 1).
    { rewrite <- exp_0. assert (0 <= 2 * x * y / deviation_of a ^ 2).
      { apply Rmult_le_pos; [lra|]. left. apply Rinv_0_lt_compat. exact SP. }
      destruct (Rle_lt_or_eq_dec 0 (2 * x * y / deviation_of a ^ 2) H) as [L|L]; [left; apply exp_increasing; lra|rewrite <- L, Ropp_0; lra]. }
    lra. }
  unfold survival. unfold not_crossed in N. destruct (down a); destruct (Rlt_dec _ _) as [L|L]; try lra; apply Z; rewrite !ln_div by assumption.
  - apply Rmult_le_pos; [|apply ln_increasing in L; lra].
    destruct (Rle_lt_or_eq_dec _ _ N) as [M|M]; [apply ln_increasing in M; lra|rewrite M; lra].
  - apply ln_increasing in L; [|exact EP].
    assert (ln (b_spot a) - ln (b_barrier a) <= 0) by (destruct (Rle_lt_or_eq_dec _ _ N) as [M|M]; [apply ln_increasing in M; lra|rewrite M; lra]). nra.
Qed.
Lemma pays_nonneg a z : 0 <= pays a z.
Proof. unfold pays, vanilla. destruct (a_call a); apply Rmax_r. Qed.

(** Prices are not negative and not above the vanilla price. *)
Theorem C41_bounds a : valid_args a -> not_crossed a -> rebate a = 0 ->
  exists v, option_price (vanilla_args a) = Some (Fin v) /\ 0 <= barrier_price a <= v.
Proof.
  intros V N R. destruct (value_vanilla a V) as (e & X & _ & P). exists (discount_of a * e). split; [exact P|].
  assert (D : 0 < discount_of a) by apply exp_pos.
  assert (G : exists k, barrier_price a = discount_of a * k /\ 0 <= k <= e).
  { destruct (out a) eqn:O.
    - destruct (C41_out a V N O R) as (k & K & ->). exists k. split; [reflexivity|]. split.
      + eapply expectation_nonneg; [|exact K]. intros z. apply Rmult_le_pos; [apply pays_nonneg|apply survives_range; assumption].
      + eapply expectation_le; [|exact K|exact X]. intros z. cbv beta. assert (A := pays_nonneg a z). assert (B := survives_range a z V N). nra.
    - destruct (C41_in a V N O (or_introl R)) as (k & r & K & _ & ->). exists k. split; [rewrite R; ring|]. split.
      + eapply expectation_nonneg; [|exact K]. intros z. apply Rmult_le_pos; [apply pays_nonneg|]. assert (B := survives_range a z V N). lra.
      + eapply expectation_le; [|exact K|exact X]. intros z. cbv beta. assert (A := pays_nonneg a z). assert (B := survives_range a z V N). nra. }
  destruct G as (k & -> & G). split; [apply Rmult_le_pos; lra|apply Rmult_le_compat_l; lra].
Qed.

(** A barrier further from the spot makes a knock-out dearer and a knock-in
    cheaper. *)
Theorem C41_barrier a B : valid_args a -> not_crossed a -> rebate a = 0 -> 0 < B ->
  (if down a then B <= b_barrier a else b_barrier a <= B) ->
  if out a then barrier_price a <= barrier_price (with_barrier a B) else barrier_price (with_barrier a B) <= barrier_price a.
Proof.
  intros V N R PB FB. assert (VV := V). destruct VV as (V1 & V2 & V3 & V4 & V5).
  assert (V' : valid_args (with_barrier a B)) by (repeat split; assumption).
  assert (N' : not_crossed (with_barrier a B)).
  { revert N FB. unfold not_crossed. change (down (with_barrier a B)) with (down a). cbn. destruct (down a); lra. }
  assert (SM : forall z, survives a z <= survives (with_barrier a B) z).
  { intros z. assert (S0 := survives_range (with_barrier a B) z V' N'). revert S0 N FB. unfold not_crossed, survives.
    change (down (with_barrier a B)) with (down a). change (b_spot (with_barrier a B)) with (b_spot a). change (b_barrier (with_barrier a B)) with B.
    change (deviation_of (with_barrier a B)) with (deviation_of a). change (end_price (with_barrier a B) z) with (end_price a z).
    assert (EP := end_pos a V z). assert (SP : 0 < / deviation_of a ^ 2) by (apply Rinv_0_lt_compat, pow_lt; apply s_pos; exact V).
    assert (LE : forall x y, 0 < x -> x <= y -> ln x <= ln y) by (intros x y X [L| ->]; [left; apply ln_increasing; assumption|lra]).
    assert (EX : forall x y, x <= y -> exp x <= exp y) by (intros x y [L| ->]; [left; apply exp_increasing; exact L|lra]).
    unfold survival. destruct (down a).
    - intros S0 N FB. destruct (Rlt_dec (b_barrier a) (end_price a z)) as [L|L]; [|destruct (Rlt_dec B (end_price a z)); lra].
      destruct (Rlt_dec B (end_price a z)) as [M|M]; [|lra].
      apply Rplus_le_compat_l, Ropp_le_contravar, EX, Ropp_le_contravar. unfold Rdiv at 1 4.
      apply Rmult_le_compat_r; [lra|]. rewrite !ln_div by assumption. apply LE in N; [|assumption]. apply LE in FB; [|assumption].
      assert (L' : ln (b_barrier a) <= ln (end_price a z)) by (apply LE; lra).
      clear - N FB L'. nra.
    - intros S0 N FB. destruct (Rlt_dec (end_price a z) (b_barrier a)) as [L|L]; [|destruct (Rlt_dec (end_price a z) B); lra].
      destruct (Rlt_dec (end_price a z) B) as [M|M]; [|lra].
      apply Rplus_le_compat_l, Ropp_le_contravar, EX, Ropp_le_contravar. unfold Rdiv at 1 4.
      apply Rmult_le_compat_r; [lra|]. rewrite !ln_div by assumption. apply LE in N; [|assumption]. apply LE in FB; [|assumption].
      assert (L' : ln (end_price a z) <= ln (b_barrier a)) by (apply LE; lra).
      clear - N FB L'. nra. }
  assert (D : 0 < discount_of a) by apply exp_pos.
  destruct (out a) eqn:O.
  - destruct (C41_out a V N O R) as (k & K & ->). destruct (C41_out _ V' N' O R) as (l & L & ->).
    change (discount_of (with_barrier a B)) with (discount_of a). apply Rmult_le_compat_l; [lra|].
    eapply expectation_le; [|exact K|exact L]. intros z. cbv beta. change (pays (with_barrier a B) z) with (pays a z).
    apply Rmult_le_compat_l; [apply pays_nonneg|apply SM].
  - destruct (C41_in a V N O (or_introl R)) as (k & r & K & _ & ->). destruct (C41_in _ V' N' O (or_introl R)) as (l & r' & L & _ & ->).
    change (discount_of (with_barrier a B)) with (discount_of a). change (rebate (with_barrier a B)) with (rebate a). rewrite R. apply Rmult_le_compat_l; [lra|].
    assert (l <= k); [|lra]. eapply expectation_le; [|exact L|exact K]. intros z. cbv beta. change (pays (with_barrier a B) z) with (pays a z).
    apply Rmult_le_compat_l; [apply pays_nonneg|]. assert (Q := SM z). lra.
Qed.

(** On the barrier, a knock-out is worth its rebate. *)
Lemma survives_at a z : valid_args a -> b_spot a = b_barrier a -> survives a z = 0.
Proof.
  intros (V1 & V2 & V3 & V4 & V5) E. unfold survives, survival. rewrite E. replace (b_barrier a / b_barrier a) with 1 by (field; lra). rewrite ln_1.
  replace (- (2 * 0 * ln (end_price a z / b_barrier a) / deviation_of a ^ 2)) with 0 by (unfold Rdiv; ring). rewrite exp_0.
  destruct (down a); destruct (Rlt_dec _ _); ring.
Qed.
Lemma rebate_at a : valid_args a -> b_spot a = b_barrier a -> rebate_out a = rebate a.
Proof.
  intros (V1 & V2 & V3 & V4 & V5) E. unfold rebate_out. cbv zeta. rewrite E. replace (b_barrier a / b_barrier a) with 1 by (field; lra). unfold Rpower. rewrite ln_1, !Rmult_0_r, exp_0.
  set (t := rebate_b a * deviation_of a). replace (sgn (down a) * (0 / deviation_of a + t)) with (sgn (down a) * t) by (unfold Rdiv; ring).
  replace (sgn (down a) * (0 / deviation_of a + t - 2 * rebate_b a * deviation_of a)) with (- (sgn (down a) * t)) by (unfold t, Rdiv; ring).
  rewrite ncdf_symm. ring.
Qed.
Theorem C41_at_barrier a : valid_args a -> b_spot a = b_barrier a ->
  barrier_price (with_out a true) = rebate a
  /\ (rebate a = 0 -> option_price (vanilla_args a) = Some (Fin (barrier_price (with_out a false)))).
Proof.
  intros V E. assert (P : barrier_price (with_out a true) = rebate a).
  { destruct (value_out (with_out a true) V eq_refl) as (k & K & ->).
    assert (k = 0) as ->. { apply (expectation_unique (fun z => pays (with_out a true) z * survives (with_out a true) z)); [exact K|]. apply expectation_0. intros z. rewrite survives_at by assumption. ring. }
    rewrite (rebate_at (with_out a true) V E). change (rebate (with_out a true)) with (rebate a). ring. }
  split; [exact P|]. intros R. rewrite (C41_parity a V R), P, R. do 2 f_equal. ring.
Qed.

(** The down-and-in put struck above the barrier adds the rebate of a
    knock-out: on the barrier, where the option is a vanilla put and can no
    longer earn a rebate, the code adds the full rebate. *)
Theorem C41_rebate_in_refuted a : valid_args a -> b_spot a = b_barrier a -> out a = false -> down a = true -> a_call a = false -> b_barrier a < b_strike a ->
  (forall z, survives a z = 0)
  /\ option_price (vanilla_args a) = Some (Fin (barrier_price a - rebate a)).
Proof.
  intros V E O Dn C L. split; [intros z; apply survives_at; assumption|].
  destruct (value_vanilla a V) as (e & _ & Q & ->). destruct (core_parity a V) as (x & P1 & P2).
  rewrite (proj1 (C41_at_barrier a V E)), (rebate_at a V E) in P1.
  rewrite <- (with_out_self a false O), P2, Q. do 2 f_equal.
  assert (wrong_row a = true) as ->. { unfold wrong_row. rewrite Dn, C. destruct (rlt_spec (b_barrier a) (b_strike a)) as [[-> _]|[_ M]]; [reflexivity|lra]. }
  rewrite (rebate_at a V E). lra.
Qed.

(** The rebate of a knock-out is overpriced: a contract that can only ever pay
    a rebate of 1, at a zero rate, is priced above 1. *)
Definition rebate_example : barrier_args := BarrierArgs 1 1 16 (exp 4) 1 (Some 1) None None None None (Some false).
Theorem C41_rebate_out_refuted : valid_args rebate_example /\ not_crossed rebate_example /\ out rebate_example = true
  /\ rate rebate_example = 0 /\ rebate rebate_example = 1
  /\ (forall z, pays rebate_example z * survives rebate_example z = 0)
  /\ 1 < barrier_price rebate_example.
Proof.
  assert (V : valid_args rebate_example) by (repeat split; cbn; try lra; apply exp_pos).
  assert (Z : forall z, pays rebate_example z * survives rebate_example z = 0).
  { intros z. unfold pays, survives. change (down rebate_example) with true. change (a_call rebate_example) with false. change (b_strike rebate_example) with 1. change (b_barrier rebate_example) with 1.
    destruct (Rlt_le_dec 1 (end_price rebate_example z)) as [L|L]; [rewrite (proj1 (vanilla_put _ _)) by lra|rewrite survival_dead by (unfold alive; lra)]; ring. }
  split; [exact V|]. split. { unfold not_crossed; cbn. rewrite <- exp_0 at 1. left. apply exp_increasing. lra. }
  split; [reflexivity|]. split; [reflexivity|]. split; [reflexivity|]. split; [exact Z|].
  destruct (value_out rebate_example V eq_refl) as (k & K & ->).
  assert (k = 0) as ->. { apply (expectation_unique _ _ _ K). apply expectation_0. exact Z. }
  unfold rebate_out, rebate_b. cbv zeta. change (down rebate_example) with true. change (rate rebate_example) with 0. change (yield rebate_example) with 0. change (rebate rebate_example) with 1.
  unfold deviation_of. cbn [rebate_example b_volatility b_expiry b_barrier b_spot sgn].
  replace (sqrt 16) with 4 by (symmetry; replace 16 with (4 * 4) by ring; apply sqrt_square; lra).
  unfold Rpower. replace (ln (1 / exp 4)) with (-4). 2: { unfold Rdiv. rewrite Rmult_1_l, <- exp_Ropp, ln_exp. ring. }
  replace (1 * (-4 / (1 * 4) + ((0 - 0 - 1 ^ 2 / 2) ^ 2 + 2 * 1 ^ 2 * 0) / 1 ^ 2 * (1 * 4))) with 0 by field.
  replace (((0 - 0 - 1 ^ 2 / 2) / 1 ^ 2 + ((0 - 0 - 1 ^ 2 / 2) ^ 2 + 2 * 1 ^ 2 * 0) / 1 ^ 2) * -4) with 1 by field.
  rewrite ncdf_0. match goal with |- context [ncdf ?x] => assert (P := ncdf_pos x) end.
  match goal with |- context [1 * exp ?y * ncdf _] => assert (Q := exp_pos y) end.
  match goal with |- 1 < _ + (_ + 1 * ?e * ?n) => assert (PQ : 0 < e * n) by (apply Rmult_lt_0_compat; assumption) end.
  assert (E := exp_ineq1 1 ltac:(lra)). lra.
Qed.

Definition barrier_example : barrier_args := BarrierArgs (1 / 5) 100 1 110 90 None (Some (1 / 20)) (Some (1 / 50)) (Some true) (Some true) (Some true).
Example C41_ex : valid_args barrier_example /\ not_crossed barrier_example /\ out barrier_example = true /\ rebate barrier_example = 0 /\ out (with_out barrier_example false) = false.
Proof. repeat split; cbn; lra. Qed.
Example C41_ex_at : let a := BarrierArgs (1 / 5) 100 1 90 90 (Some 3) (Some (1 / 20)) None (Some true) (Some false) (Some false) in
  valid_args a /\ b_spot a = b_barrier a /\ out a = false /\ down a = true /\ a_call a = false /\ b_barrier a < b_strike a /\ rebate a = 3.
Proof. repeat split; cbn; lra. Qed.

Print Assumptions C41_out.
Print Assumptions C41_parity.
Print Assumptions C41_in.
Print Assumptions C41_bounds.
Print Assumptions C41_barrier.
Print Assumptions C41_at_barrier.
Print Assumptions C41_rebate_in_refuted.
Print Assumptions C41_rebate_out_refuted.
