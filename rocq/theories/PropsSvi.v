(** C65: total variance and implied volatility of the raw SVI parameters. *)
From Coquelicot Require Import Coquelicot.
From Coq Require Import Reals Bool Lra Psatz.
From Verif Require Import ExtReal HaganWestModel BootstrapModel BlackScholesModel BlackScholesSpec PropsBlackScholes SabrProofs SviModel.
Open Scope R_scope.

(** w(k) = a + b (rho (k - m) + sqrt((k - m)^2 + sigma^2)) *)
Definition svi (p : svi_params) (k : R) : R := svi_a p + svi_b p * (svi_rho p * (k - svi_m p) + sqrt ((k - svi_m p) ^ 2 + svi_sigma p ^ 2)).

(** Exactly two ways of giving the moneyness are accepted and give the same
    variance; every other combination is refused. *)
Theorem C65_variance p k : total_variance_from_raw_svi_parameters p (Some k) None None = Some (Fin (svi p k)).
Proof.
  unfold total_variance_from_raw_svi_parameters. cbn [is_none eqb negb]. unfold xsub, xsquare. cbn [xopp xadd xmul]. rewrite xsqrt_ok by (pose proof (pow2_ge_0 (k - svi_m p)); pose proof (pow2_ge_0 (svi_sigma p)); lra). cbn [xopp xadd xmul]. do 2 f_equal. unfold svi. replace ((k - svi_m p) ^ 2 + svi_sigma p ^ 2) with ((k + - svi_m p) * (k + - svi_m p) + svi_sigma p * svi_sigma p) by ring. ring.
Qed.
Theorem C65_strikes p f s : 0 < f -> 0 < s -> total_variance_from_raw_svi_parameters p None (Some f) (Some s) = Some (Fin (svi p (ln (s / f)))).
Proof.
  intros F0 S0. unfold total_variance_from_raw_svi_parameters. cbn [is_none eqb negb]. rewrite xdiv_ok by lra. rewrite xln_ok by (apply Rdiv_lt_0_compat; assumption). rewrite <- C65_variance. reflexivity.
Qed.
Theorem C65_arguments p l f s : total_variance_from_raw_svi_parameters p l f s <> None <->
  (l <> None /\ f = None /\ s = None) \/ (l = None /\ f <> None /\ s <> None).
Proof. unfold total_variance_from_raw_svi_parameters. destruct l, f, s; cbn [is_none eqb negb]; split; intros H; try (exfalso; apply H; reflexivity); try discriminate; try (destruct H as [(A & B & C)|(A & B & C)]; congruence); [left|right]; repeat split; discriminate. Qed.

(** The volatility reproduces the variance over the expiry. *)
Theorem C65_volatility p k t : 0 < t -> 0 <= svi p k ->
  exists v, implied_volatility_from_raw_svi_parameters p (Some k) None None (Some t) = Some (Fin v) /\ 0 <= v /\ v ^ 2 * t = svi p k.
Proof.
  intros T W. unfold implied_volatility_from_raw_svi_parameters. rewrite C65_variance, xdiv_ok by lra. assert (Q : 0 <= svi p k / t) by (apply Rmult_le_pos; [exact W|left; apply Rinv_0_lt_compat, T]).
  rewrite xsqrt_ok by exact Q. exists (sqrt (svi p k / t)). split; [reflexivity|]. split; [apply sqrt_pos|]. rewrite pow2_sqrt by exact Q. field. lra.
Qed.
(** An option at that volatility has total deviation sqrt(w(k)). *)
Theorem C65_deviation p f s t : 0 < f -> 0 < s -> 0 < t -> 0 <= svi p (ln (s / f)) ->
  exists v, implied_volatility_from_raw_svi_parameters p None (Some f) (Some s) (Some t) = Some (Fin v)
  /\ deviation (OptionArgs v s t None (Some f) None None None None false) ^ 2 = svi p (ln (s / f)).
Proof.
  intros F0 S0 T W. destruct (C65_volatility p _ t T W) as (v & E & V & Q). exists v. split.
  - rewrite <- E. unfold implied_volatility_from_raw_svi_parameters. rewrite C65_strikes, C65_variance by assumption. reflexivity.
  - unfold deviation. cbn [volatility expiry]. rewrite <- Q, Rpow_mult_distr, pow2_sqrt by lra. reflexivity.
Qed.

(** The smallest variance is a + b |sigma| sqrt(1 - rho^2), so that there is a
    volatility at every strike exactly when this number is not negative. *)
Definition least (p : svi_params) : R := svi_a p + svi_b p * (Rabs (svi_sigma p) * sqrt (1 - svi_rho p ^ 2)).
Lemma root_line r d s : -1 < r < 1 -> Rabs s * sqrt (1 - r ^ 2) <= r * d + sqrt (d ^ 2 + s ^ 2).
Proof.
  intros H. assert (S0 := sqrt_pos (1 - r ^ 2)). assert (A0 := Rabs_pos s). assert (Q : sqrt (1 - r ^ 2) ^ 2 = 1 - r ^ 2) by (apply pow2_sqrt; nra). assert (AA : Rabs s ^ 2 = s ^ 2) by (rewrite <- RPow_abs || rewrite RPow_abs; apply Rabs_right, Rle_ge, pow2_ge_0).
  set (x := sqrt (1 - r ^ 2)) in *. set (y := Rabs s) in *. cut (y * x - r * d <= sqrt (d ^ 2 + s ^ 2)); [lra|]. destruct (Rle_dec 0 (y * x - r * d)) as [L|L]; [|pose proof (sqrt_pos (d ^ 2 + s ^ 2)); lra].
  rewrite <- (sqrt_pow2 (y * x - r * d)) by exact L. apply sqrt_le_1_alt. pose proof (pow2_ge_0 (y * r + d * x)) as Z. rewrite <- AA. nra.
Qed.
Theorem C65_minimum p : 0 <= svi_b p -> -1 < svi_rho p < 1 ->
  (forall k, least p <= svi p k) /\ svi p (svi_m p - svi_rho p * Rabs (svi_sigma p) / sqrt (1 - svi_rho p ^ 2)) = least p.
Proof.
  intros B H. split.
  - intros k. unfold least, svi. pose proof (root_line (svi_rho p) (k - svi_m p) (svi_sigma p) H). apply Rplus_le_compat_l, Rmult_le_compat_l; assumption.
  - unfold least, svi. f_equal. f_equal. set (r := svi_rho p) in *. set (s := svi_sigma p). assert (X0 : 0 < sqrt (1 - r ^ 2)) by (apply sqrt_lt_R0; nra). assert (Q : sqrt (1 - r ^ 2) ^ 2 = 1 - r ^ 2) by (apply pow2_sqrt; nra). assert (AA : Rabs s ^ 2 = s ^ 2) by (rewrite RPow_abs; apply Rabs_right, Rle_ge, pow2_ge_0).
    set (x := sqrt (1 - r ^ 2)) in *. assert (A0 := Rabs_pos s). set (y := Rabs s) in *. replace (svi_m p - r * y / x - svi_m p) with (- (r * y / x)) by ring.
    replace ((- (r * y / x)) ^ 2 + s ^ 2) with ((y / x) ^ 2).
    + rewrite sqrt_pow2 by (apply Rmult_le_pos; [exact A0|left; apply Rinv_0_lt_compat, X0]). apply (Rmult_eq_reg_r x); [|lra]. replace ((r * - (r * y / x) + y / x) * x) with (y * (1 - r ^ 2)) by (field; lra). rewrite <- Q. ring.
    + rewrite <- AA. apply (Rmult_eq_reg_r (x ^ 2)); [|apply pow_nonzero; lra]. transitivity (y ^ 2); [field; lra|]. transitivity (r ^ 2 * y ^ 2 + y ^ 2 * x ^ 2); [rewrite Q; ring|field; lra].
Qed.
Theorem C65_every_strike p t : 0 <= svi_b p -> -1 < svi_rho p < 1 -> 0 < t ->
  (forall k, exists v, implied_volatility_from_raw_svi_parameters p (Some k) None None (Some t) = Some (Fin v)) <-> 0 <= least p.
Proof.
  intros B H T. destruct (C65_minimum p B H) as (M & E). split.
  - intros A. destruct (Rle_dec 0 (least p)) as [L|L]; [exact L|exfalso]. rewrite <- E in L. specialize (A (svi_m p - svi_rho p * Rabs (svi_sigma p) / sqrt (1 - svi_rho p ^ 2))). destruct A as (v & V). unfold implied_volatility_from_raw_svi_parameters in V. rewrite C65_variance, xdiv_ok in V by lra.
    cbn [xsqrt] in V. unfold BrentModel.rlt in V. set (w := svi p _) in *. destruct (Rlt_dec (w / t) 0) as [_|G]; [discriminate V|]. apply G. apply Rmult_lt_reg_r with t; [exact T|]. replace (w / t * t) with w by (field; lra). lra.
  - intros L k. destruct (C65_volatility p k t T) as (v & V & _); [specialize (M k); lra|]. exists v. exact V.
Qed.

(** The variance is convex in the log-moneyness. *)
Lemma root_convex x y s l : 0 <= l <= 1 -> sqrt ((l * x + (1 - l) * y) ^ 2 + s ^ 2) <= l * sqrt (x ^ 2 + s ^ 2) + (1 - l) * sqrt (y ^ 2 + s ^ 2).
Proof.
  intros H. assert (X0 := sqrt_pos (x ^ 2 + s ^ 2)). assert (Y0 := sqrt_pos (y ^ 2 + s ^ 2)). assert (X : sqrt (x ^ 2 + s ^ 2) ^ 2 = x ^ 2 + s ^ 2) by (apply pow2_sqrt; nra). assert (Y : sqrt (y ^ 2 + s ^ 2) ^ 2 = y ^ 2 + s ^ 2) by (apply pow2_sqrt; nra).
  assert (C : x * y + s ^ 2 <= sqrt (x ^ 2 + s ^ 2) * sqrt (y ^ 2 + s ^ 2)).
  { rewrite <- sqrt_mult by nra. destruct (Rle_dec 0 (x * y + s ^ 2)) as [L|L]; [|pose proof (sqrt_pos ((x ^ 2 + s ^ 2) * (y ^ 2 + s ^ 2))); lra]. rewrite <- (sqrt_pow2 (x * y + s ^ 2)) by exact L. apply sqrt_le_1_alt. pose proof (pow2_ge_0 (s * (x - y))) as Z. nra. }
  set (u := sqrt (x ^ 2 + s ^ 2)) in *. set (v := sqrt (y ^ 2 + s ^ 2)) in *. clearbody u v. rewrite <- (sqrt_pow2 (l * u + (1 - l) * v)) by (apply Rplus_le_le_0_compat; apply Rmult_le_pos; lra). apply sqrt_le_1_alt.
  replace ((l * u + (1 - l) * v) ^ 2) with (l ^ 2 * u ^ 2 + 2 * (l * (1 - l)) * (u * v) + (1 - l) ^ 2 * v ^ 2) by ring. rewrite X, Y. assert (P : 0 <= l * (1 - l)) by nra. pose proof (Rmult_le_compat_l _ _ _ P C). nra.
Qed.
Theorem C65_convex p x y l : 0 <= svi_b p -> 0 <= l <= 1 -> svi p (l * x + (1 - l) * y) <= l * svi p x + (1 - l) * svi p y.
Proof.
  intros B H. unfold svi. pose proof (root_convex (x - svi_m p) (y - svi_m p) (svi_sigma p) l H) as C. replace (l * (x - svi_m p) + (1 - l) * (y - svi_m p)) with (l * x + (1 - l) * y - svi_m p) in C by ring. pose proof (Rmult_le_compat_l _ _ _ B C). lra.
Qed.

(** The wings are straight lines of slopes -b (1 - rho) and b (1 + rho), up to b |sigma|. *)
Theorem C65_wings p k : 0 <= svi_b p ->
  let line := if Rle_dec (svi_m p) k then svi_a p + svi_b p * (1 + svi_rho p) * (k - svi_m p) else svi_a p - svi_b p * (1 - svi_rho p) * (k - svi_m p) in
  line <= svi p k <= line + svi_b p * Rabs (svi_sigma p).
Proof.
  intros B. cbv zeta. assert (G : Rabs (k - svi_m p) <= sqrt ((k - svi_m p) ^ 2 + svi_sigma p ^ 2) <= Rabs (k - svi_m p) + Rabs (svi_sigma p)).
  { set (d := k - svi_m p). set (s := svi_sigma p). assert (D0 := Rabs_pos d). assert (S0 := Rabs_pos s). assert (DD : Rabs d ^ 2 = d ^ 2) by (rewrite RPow_abs; apply Rabs_right, Rle_ge, pow2_ge_0). assert (SS : Rabs s ^ 2 = s ^ 2) by (rewrite RPow_abs; apply Rabs_right, Rle_ge, pow2_ge_0).
    split; [rewrite <- (sqrt_pow2 (Rabs d)) by exact D0|rewrite <- (sqrt_pow2 (Rabs d + Rabs s)) by lra]; apply sqrt_le_1_alt; nra. }
  unfold svi. set (r := sqrt _) in *. clearbody r. destruct (Rle_dec (svi_m p) k) as [L|L]; [rewrite Rabs_right in G by lra|rewrite Rabs_left in G by lra].
  - pose proof (Rmult_le_compat_l _ _ _ B (proj1 G)). pose proof (Rmult_le_compat_l _ _ _ B (proj2 G)). lra.
  - pose proof (Rmult_le_compat_l _ _ _ B (proj1 G)). pose proof (Rmult_le_compat_l _ _ _ B (proj2 G)). lra.
Qed.

(** The parameters of the documentation meet the hypotheses. *)
Example C65_example : let p := SviParams (-1825 / 10000) (3306 / 10000) (-988 / 10000) (368 / 10000) (6011 / 10000) in 0 <= svi_b p /\ -1 < svi_rho p < 1 /\ 0 <= least p.
Proof.
  cbv zeta. cbn [svi_b svi_rho]. split; [lra|]. split; [lra|]. unfold least. cbn [svi_a svi_b svi_sigma svi_rho]. rewrite Rabs_right by lra.
  assert (L : 99 / 100 <= sqrt (1 - (-988 / 10000) ^ 2)) by (rewrite <- (sqrt_pow2 (99 / 100)) by lra; apply sqrt_le_1_alt; lra). lra.
Qed.

Print Assumptions C65_variance.
Print Assumptions C65_strikes.
Print Assumptions C65_arguments.
Print Assumptions C65_volatility.
Print Assumptions C65_deviation.
Print Assumptions C65_minimum.
Print Assumptions C65_every_strike.
Print Assumptions C65_convex.
Print Assumptions C65_wings.
