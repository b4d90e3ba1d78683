(** C43: Brownian bridge barrier probabilities. *)
From Coq Require Import Reals Lra Lia List ZArith.
From Verif Require Import BridgeModel BridgeSpec.
Import ListNotations.
Open Scope R_scope.

Lemma exp_le x y : x <= y -> exp x <= exp y.
Proof. intros [L| ->]; [left; apply exp_increasing; exact L|lra]. Qed.
Lemma normal_pos v x : 0 < v -> 0 < normal v x.
Proof. intros V. unfold normal. apply Rdiv_lt_0_compat; [apply exp_pos|]. apply sqrt_lt_R0. assert (P := PI_RGT_0). nra. Qed.
Lemma normal_shift v x y e : 0 < v -> y ^ 2 = x ^ 2 + 4 * e -> normal v x * exp (-2 * e / v) = normal v y.
Proof.
  intros V E. unfold normal. replace (- (y ^ 2 / (2 * v))) with (- (x ^ 2 / (2 * v)) + -2 * e / v) by (rewrite E; field; lra). rewrite exp_plus.
  assert (P := PI_RGT_0). assert (0 < sqrt (2 * PI * v)) by (apply sqrt_lt_R0; nra). field. lra.
Qed.

(** One barrier: paths that do not touch have the density of the end point less
    that of its mirror image. *)
Theorem C43_single_images x y v b : 0 < v ->
  normal v (y - x) * brownian_bridge_single x y v b = normal v (y - x) - normal v (y - (2 * b - x)).
Proof.
  intros V. unfold brownian_bridge_single. cbv zeta. rewrite Rmult_minus_distr_l, Rmult_1_r. f_equal. apply normal_shift; [exact V|ring].
Qed.
(** It is a probability, zero exactly on the barrier. *)
Theorem C43_single_range x y v b : 0 < v -> same_side b x y ->
  0 <= brownian_bridge_single x y v b < 1 /\ (brownian_bridge_single x y v b = 0 <-> x = b \/ y = b).
Proof.
  intros V S. unfold brownian_bridge_single. cbv zeta. set (e := (x - b) * (y - b)).
  assert (E : 0 <= e) by (unfold e; destruct S as [[A B]|[A B]]; nra).
  assert (P := exp_pos (-2 * e / v)). assert (IV : 0 < / v) by (apply Rinv_0_lt_compat; exact V).
  assert (L : exp (-2 * e / v) <= 1) by (rewrite <- exp_0; apply exp_le; unfold Rdiv; nra).
  split; [lra|]. split.
  - intros Z. assert (X : exp (-2 * e / v) = exp 0) by (rewrite exp_0; lra). apply exp_inv in X. unfold Rdiv in X. assert (e = 0) by nra.
    unfold e in H. apply Rmult_integral in H. lra.
  - intros [->| ->]; unfold e; [replace ((b - b) * (y - b)) with 0 by ring|replace ((x - b) * (b - b)) with 0 by ring]; replace (-2 * 0 / v) with 0 by (unfold Rdiv; ring); rewrite exp_0; ring.
Qed.
(** More variance means more risk of touching; ends further from the barrier less. *)
Theorem C43_single_monotone x y v x' y' v' b : 0 < v <= v' -> same_side b x y ->
  (b <= x <= x' /\ b <= y <= y' \/ x' <= x <= b /\ y' <= y <= b) ->
  brownian_bridge_single x y v' b <= brownian_bridge_single x' y' v b.
Proof.
  intros V S F. unfold brownian_bridge_single. cbv zeta. set (e := (x - b) * (y - b)). set (e' := (x' - b) * (y' - b)).
  assert (E : 0 <= e <= e') by (unfold e, e'; destruct F as [F|F]; nra).
  apply Rplus_le_compat_l, Ropp_le_contravar, exp_le. unfold Rdiv.
  assert (I1 : 0 < / v') by (apply Rinv_0_lt_compat; lra). assert (I2 : / v' <= / v) by (apply Rinv_le_contravar; lra). nra.
Qed.
Theorem C43_single_strict x y v v' b : 0 < v < v' -> (x < b /\ y < b \/ b < x /\ b < y) -> brownian_bridge_single x y v' b < brownian_bridge_single x y v b.
Proof.
  intros V S. unfold brownian_bridge_single. cbv zeta. set (e := (x - b) * (y - b)). assert (E : 0 < e) by (unfold e; nra).
  apply Rplus_lt_compat_l, Ropp_lt_contravar, exp_increasing. unfold Rdiv. assert (I : / v' < / v) by (apply Rinv_lt_contravar; [nra|lra]). nra.
Qed.
(** Close to the barrier, or with a large variance, the chance vanishes. *)
Theorem C43_single_small x y v b : 0 < v -> same_side b x y -> brownian_bridge_single x y v b <= 2 * Rabs (x - b) * Rabs (y - b) / v.
Proof.
  intros V S. unfold brownian_bridge_single. cbv zeta. rewrite Rmult_assoc, <- Rabs_mult. set (e := (x - b) * (y - b)).
  assert (E : 0 <= e) by (unfold e; destruct S as [[A B]|[A B]]; nra). rewrite Rabs_right by lra.
  destruct (Req_dec e 0) as [->|N].
  - replace (-2 * 0 / v) with 0 by (unfold Rdiv; ring). rewrite exp_0. unfold Rdiv. lra.
  - assert (X := exp_ineq1 (-2 * e / v)). assert (-2 * e / v <> 0). { apply Rmult_integral_contrapositive_currified; [lra|]. assert (0 < / v) by (apply Rinv_0_lt_compat; exact V). lra. }
    specialize (X H). unfold Rdiv in *. lra.
Qed.

(** Two barriers. *)
Definition bridge_term (x y v u d : R) (k : Z) : R :=
  exp (-2 * (IZR k * d * (IZR k * d + (y - x))) / v) - exp (-2 * ((IZR k * d + x - u) * (IZR k * d + (y - u))) / v).
Lemma fold_app l m : fold_right Rplus 0 (l ++ m) = fold_right Rplus 0 l + fold_right Rplus 0 m.
Proof. induction l as [|a l IH]; cbn [app fold_right]; [ring|rewrite IH; ring]. Qed.
Lemma sym_list (f : Z -> R) n : fold_right Rplus 0 (map (fun i => f (Z.of_nat i - Z.of_nat n)%Z) (seq 0 (2 * n + 1))) = symmetric_sum f n.
Proof.
  induction n as [|n IH]; [cbn; ring|]. replace (2 * S n + 1)%nat with (S ((2 * n + 1) + 1)) by lia. cbn [seq map fold_right].
  rewrite seq_app, map_app, fold_app. cbn [seq map fold_right symmetric_sum]. rewrite <- IH.
  rewrite <- (seq_shift (2 * n + 1) 0), map_map.
  replace (map (fun i => f (Z.of_nat (S i) - Z.of_nat (S n))%Z) (seq 0 (2 * n + 1))) with (map (fun i => f (Z.of_nat i - Z.of_nat n)%Z) (seq 0 (2 * n + 1))) by (apply map_ext; intros i; f_equal; lia).
  replace (Z.of_nat 0 - Z.of_nat (S n))%Z with (- Z.of_nat (S n))%Z by lia. replace (Z.of_nat (1 + (2 * n + 1)) - Z.of_nat (S n))%Z with (Z.of_nat (S n)) by lia. ring.
Qed.
Lemma double_sum x y v u l n : brownian_bridge_double x y v u l n = symmetric_sum (bridge_term x y v u (u - l)) n.
Proof. unfold brownian_bridge_double. cbv zeta. rewrite map_map. rewrite <- sym_list. reflexivity. Qed.
Lemma sum_ext f g n : (forall k, f k = g k) -> symmetric_sum f n = symmetric_sum g n.
Proof. intros E. induction n as [|n IH]; cbn [symmetric_sum]; rewrite ?IH, !E; reflexivity. Qed.
Lemma sum_scal f c n : symmetric_sum (fun k => c * f k) n = c * symmetric_sum f n.
Proof. induction n as [|n IH]; cbn [symmetric_sum]; [ring|rewrite IH; ring]. Qed.
Lemma sum_minus f g n : symmetric_sum (fun k => f k - g k) n = symmetric_sum f n - symmetric_sum g n.
Proof. induction n as [|n IH]; cbn [symmetric_sum]; [ring|rewrite IH; ring]. Qed.
Lemma sum_opp f n : symmetric_sum (fun k => f (- k)%Z) n = symmetric_sum f n.
Proof. induction n as [|n IH]; cbn [symmetric_sum]; [reflexivity|]. rewrite IH, Z.opp_involutive. ring. Qed.
Lemma sum_shift f n : symmetric_sum (fun k => f (k - 1)%Z) n = symmetric_sum f n - f (Z.of_nat n) + f (- Z.of_nat n - 1)%Z.
Proof.
  induction n as [|n IH]; [cbn [symmetric_sum]; change (Z.of_nat 0) with 0%Z; replace (0 - 1)%Z with (- 0 - 1)%Z by lia; ring|].
  cbn [symmetric_sum]. rewrite IH. replace (Z.of_nat (S n) - 1)%Z with (Z.of_nat n) by lia. replace (- Z.of_nat n - 1)%Z with (- Z.of_nat (S n))%Z by lia. ring.
Qed.

(** Gaussians at the images of the start under the two reflections: at
    x - 2 k (u - l) with a plus, at 2 u - x - 2 k (u - l) with a minus. *)
Theorem C43_double_images x y v u l n : 0 < v ->
  normal v (y - x) * brownian_bridge_double x y v u l n
  = symmetric_sum (fun k => normal v (y - (x - 2 * IZR k * (u - l))) - normal v (y - (2 * u - x - 2 * IZR k * (u - l)))) n.
Proof.
  intros V. rewrite double_sum, <- sum_scal. apply sum_ext. intros k. unfold bridge_term. rewrite Rmult_minus_distr_l.
  f_equal; apply normal_shift; try exact V; ring.
Qed.
(** Exactly zero when an end is on the upper barrier, for every cutoff. *)
Theorem C43_double_upper x y v u l n : x = u \/ y = u -> brownian_bridge_double x y v u l n = 0.
Proof.
  intros E. rewrite double_sum. unfold bridge_term. rewrite sum_minus.
  destruct E as [->| ->].
  - rewrite (sum_ext (fun k => exp (-2 * ((IZR k * (u - l) + u - u) * (IZR k * (u - l) + (y - u))) / v)) (fun k => exp (-2 * (IZR k * (u - l) * (IZR k * (u - l) + (y - u))) / v))); [ring|].
    intros k. do 3 f_equal. ring.
  - rewrite (sum_ext (fun k => exp (-2 * ((IZR k * (u - l) + x - u) * (IZR k * (u - l) + (u - u))) / v)) (fun k => exp (-2 * (IZR (- k) * (u - l) * (IZR (- k) * (u - l) + (u - x))) / v))).
    + rewrite (sum_opp (fun k => exp (-2 * (IZR k * (u - l) * (IZR k * (u - l) + (u - x))) / v))). ring.
    + intros k. do 3 f_equal. rewrite opp_IZR. ring.
Qed.
(** Running the bridge backwards, moving everything by the same amount or
    changing the unit of length changes nothing. *)
Theorem C43_double_reverse x y v u l n : brownian_bridge_double y x v u l n = brownian_bridge_double x y v u l n.
Proof.
  rewrite !double_sum. unfold bridge_term. rewrite !sum_minus. f_equal.
  - rewrite <- sum_opp. apply sum_ext. intros k. do 3 f_equal. rewrite opp_IZR. ring.
  - apply sum_ext. intros k. do 3 f_equal. ring.
Qed.
Theorem C43_double_scale x y v u l n c t : 0 < v -> c <> 0 ->
  brownian_bridge_double (c * x + t) (c * y + t) (c ^ 2 * v) (c * u + t) (c * l + t) n = brownian_bridge_double x y v u l n.
Proof.
  intros V C. rewrite !double_sum. apply sum_ext. intros k. unfold bridge_term. f_equal; f_equal; field; lra.
Qed.

(** The cutoff: terms far out are small. *)
Definition far (v d : R) (n : nat) : R := exp (-2 * INR n ^ 2 * d ^ 2 / v).
Lemma far_le v d n e : 0 < v -> INR n ^ 2 * d ^ 2 <= e -> exp (-2 * e / v) <= far v d n.
Proof. intros V L. apply exp_le. unfold Rdiv. assert (0 < / v) by (apply Rinv_0_lt_compat; exact V). nra. Qed.
Lemma double_at_lower y v u l n : brownian_bridge_double l y v u l n
  = exp (-2 * (INR n * (u - l) * (INR n * (u - l) + (y - l))) / v) - exp (-2 * ((INR n + 1) * (u - l) * ((INR n + 1) * (u - l) - (y - l))) / v).
Proof.
  rewrite double_sum. unfold bridge_term. rewrite sum_minus.
  set (f := fun k => exp (-2 * (IZR k * (u - l) * (IZR k * (u - l) + (y - l))) / v)).
  rewrite (sum_ext (fun k => exp (-2 * ((IZR k * (u - l) + l - u) * (IZR k * (u - l) + (y - u))) / v)) (fun k => f (k - 1)%Z)).
  - rewrite sum_shift. replace (f (Z.of_nat n)) with (exp (-2 * (INR n * (u - l) * (INR n * (u - l) + (y - l))) / v)) by (unfold f; rewrite <- INR_IZR_INZ; reflexivity).
    replace (f (- Z.of_nat n - 1)%Z) with (exp (-2 * ((INR n + 1) * (u - l) * ((INR n + 1) * (u - l) - (y - l))) / v)).
    + fold f. ring.
    + unfold f. rewrite minus_IZR, opp_IZR, <- INR_IZR_INZ. do 3 f_equal. ring.
  - intros k. unfold f. do 3 f_equal. rewrite minus_IZR. ring.
Qed.
(** On the lower barrier the truncated sum is not zero, but small. *)
Theorem C43_double_lower x y v u l n : 0 < v -> l <= x <= u -> l <= y <= u -> x = l \/ y = l ->
  Rabs (brownian_bridge_double x y v u l n) <= exp (-2 * INR n ^ 2 * (u - l) ^ 2 / v).
Proof.
  intros V Hx Hy E.
  assert (X : forall y, l <= y <= u -> Rabs (brownian_bridge_double l y v u l n) <= exp (-2 * INR n ^ 2 * (u - l) ^ 2 / v)).
  { clear x y Hx Hy E. intros y Hy. rewrite double_at_lower. fold (far v (u - l) n). assert (N := pos_INR n).
    assert (A := far_le v (u - l) n (INR n * (u - l) * (INR n * (u - l) + (y - l))) V ltac:(assert (0 <= INR n * (u - l) * (y - l)) by (apply Rmult_le_pos; [apply Rmult_le_pos|]; lra); nra)).
    assert (B := far_le v (u - l) n ((INR n + 1) * (u - l) * ((INR n + 1) * (u - l) - (y - l))) V).
    assert (0 <= INR n * (u - l)) by (apply Rmult_le_pos; lra). specialize (B ltac:(nra)).
    assert (P := exp_pos (-2 * (INR n * (u - l) * (INR n * (u - l) + (y - l))) / v)). assert (Q := exp_pos (-2 * ((INR n + 1) * (u - l) * ((INR n + 1) * (u - l) - (y - l))) / v)).
    unfold Rabs. destruct (Rcase_abs _); lra. }
  destruct E as [->| ->]; [apply X; exact Hy|]. rewrite <- C43_double_reverse. apply X; exact Hx.
Qed.
(** Turning the picture upside down changes the truncated sum by as little. *)
Theorem C43_double_reflect x y v u l n : 0 < v -> l <= x <= u -> l <= y <= u ->
  Rabs (brownian_bridge_double (- x) (- y) v (- l) (- u) n - brownian_bridge_double x y v u l n) <= exp (-2 * INR n ^ 2 * (u - l) ^ 2 / v).
Proof.
  intros V Hx Hy. rewrite !double_sum. unfold bridge_term. rewrite !sum_minus.
  replace (- l - - u) with (u - l) by ring.
  rewrite (sum_ext (fun k => exp (-2 * (IZR k * (u - l) * (IZR k * (u - l) + (- y - - x))) / v)) (fun k => exp (-2 * (IZR (- k) * (u - l) * (IZR (- k) * (u - l) + (y - x))) / v))).
  2: { intros k. do 3 f_equal. rewrite opp_IZR. ring. }
  rewrite (sum_opp (fun k => exp (-2 * (IZR k * (u - l) * (IZR k * (u - l) + (y - x))) / v))).
  set (g := fun k => exp (-2 * ((IZR k * (u - l) + x - u) * (IZR k * (u - l) + (y - u))) / v)).
  rewrite (sum_ext (fun k => exp (-2 * ((IZR k * (u - l) + - x - - l) * (IZR k * (u - l) + (- y - - l))) / v)) (fun k => (fun j => g (- j)%Z) (k - 1)%Z)).
  2: { intros k. unfold g. do 3 f_equal. rewrite opp_IZR, minus_IZR. ring. }
  rewrite (sum_shift (fun j => g (- j)%Z)), sum_opp. fold g.
  match goal with |- Rabs ?e <= _ => replace e with (g (- Z.of_nat n)%Z - g (- (- Z.of_nat n - 1))%Z) by ring end.
  fold (far v (u - l) n). assert (N := pos_INR n). assert (0 <= INR n * (u - l)) by (apply Rmult_le_pos; lra).
  assert (A : g (- Z.of_nat n)%Z <= far v (u - l) n).
  { unfold g. rewrite opp_IZR, <- INR_IZR_INZ. apply far_le; [exact V|]. assert (0 <= INR n * (u - l) * (u - x)) by (apply Rmult_le_pos; lra). assert (0 <= INR n * (u - l) * (u - y)) by (apply Rmult_le_pos; lra). nra. }
  assert (B : g (- (- Z.of_nat n - 1))%Z <= far v (u - l) n).
  { unfold g. rewrite opp_IZR, minus_IZR, opp_IZR, <- INR_IZR_INZ. apply far_le; [exact V|].
    assert (0 <= INR n * (u - l) * (x - l)) by (apply Rmult_le_pos; lra). assert (0 <= INR n * (u - l) * (y - l)) by (apply Rmult_le_pos; lra). nra. }
  assert (P : forall k, 0 < g k) by (intros; apply exp_pos). assert (P1 := P (- Z.of_nat n)%Z). assert (P2 := P (- (- Z.of_nat n - 1))%Z).
  unfold Rabs. destruct (Rcase_abs _); lra.
Qed.

(** With the default cutoff of 3 and a large variance, the chance of touching
    neither of two barriers comes out above the chance of not touching one. *)
Lemma exp_upper x : 0 <= x -> exp (- x) <= 1 - x + x ^ 2.
Proof.
  intros P. rewrite exp_Ropp. destruct (Req_dec x 0) as [->|N]; [rewrite exp_0, Rinv_1; lra|].
  assert (E := exp_ineq1 x N). apply Rle_trans with (/ (1 + x)); [apply Rinv_le_contravar; lra|].
  apply (Rmult_le_reg_r (1 + x)); [lra|]. rewrite Rinv_l by lra. assert (0 <= x ^ 3) by (apply pow_le; exact P). nra.
Qed.
Lemma exp_lower x : 1 - x <= exp (- x).
Proof. destruct (Req_dec x 0) as [->|N]; [rewrite Ropp_0, exp_0; lra|]. assert (E := exp_ineq1 (- x) ltac:(lra)). lra. Qed.
Theorem C43_cutoff_refuted : brownian_bridge_single (1 / 2) (1 / 2) 1000 1 < brownian_bridge_double (1 / 2) (1 / 2) 1000 1 0 3.
Proof.
  rewrite double_sum. unfold brownian_bridge_single.
  assert (T : forall k, bridge_term (1 / 2) (1 / 2) 1000 1 (1 - 0) k = exp (- (IZR k ^ 2 / 500)) - exp (- ((IZR k - 1 / 2) ^ 2 / 500))).
  { intros k. unfold bridge_term. f_equal; f_equal; field. }
  rewrite (sum_ext _ _ _ T). cbn [symmetric_sum]. change (Z.of_nat 1) with 1%Z. change (Z.of_nat 2) with 2%Z. change (Z.of_nat 3) with 3%Z. cbn [Z.opp].
  assert (L : forall z, 1 - z ^ 2 / 500 <= exp (- (z ^ 2 / 500))) by (intros; apply exp_lower).
  assert (U : forall z, exp (- (z ^ 2 / 500)) <= 1 - z ^ 2 / 500 + (z ^ 2 / 500) ^ 2) by (intros z; apply exp_upper; assert (0 <= z ^ 2) by (apply pow2_ge_0); lra).
  replace (-2 * ((1 / 2 - 1) * (1 / 2 - 1)) / 1000) with (- ((1 / 2) ^ 2 / 500)) by field.
  assert (A0 := L 0). assert (A1 := L 1). assert (A2 := L 2). assert (A3 := L 3). assert (A4 := L (-1)). assert (A5 := L (-2)). assert (A6 := L (-3)). assert (A7 := L (1 / 2)).
  assert (B0 := U (0 - 1 / 2)). assert (B1 := U (1 - 1 / 2)). assert (B2 := U (2 - 1 / 2)). assert (B3 := U (3 - 1 / 2)). assert (B4 := U (-1 - 1 / 2)). assert (B5 := U (-2 - 1 / 2)). assert (B6 := U (-3 - 1 / 2)).
  clear T L U. lra.
Qed.

Example C43_ex : 0 < 1 / 10 /\ same_side (51 / 10) (45 / 10) 5 /\ 44 / 10 <= 45 / 10 <= 51 / 10 /\ 44 / 10 <= 5 <= 51 / 10.
Proof. split; [lra|]. split; [left; lra|]. lra. Qed.
Example C43_ex_value : brownian_bridge_single 1 2 4 0 = 1 - exp (-1).
Proof. unfold brownian_bridge_single. do 2 f_equal. field. Qed.

Print Assumptions C43_single_images.
Print Assumptions C43_single_range.
Print Assumptions C43_single_monotone.
Print Assumptions C43_single_strict.
Print Assumptions C43_single_small.
Print Assumptions C43_double_images.
Print Assumptions C43_double_upper.
Print Assumptions C43_double_reverse.
Print Assumptions C43_double_scale.
Print Assumptions C43_double_lower.
Print Assumptions C43_double_reflect.
Print Assumptions C43_cutoff_refuted.
