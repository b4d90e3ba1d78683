(** C105: the local stochastic volatility model and its calibration. *)
From Coq Require Import Reals List Bool Lra Lia.
From Verif Require Import LsvModel LsvSpec.
Import ListNotations.
Open Scope R_scope.

Lemma root00 rho : sqrt_rho rho 0 0 = 1. Proof. unfold sqrt_rho, corr_matrix. cbn. apply sqrt_1. Qed.
Lemma root01 rho : sqrt_rho rho 0 1 = 0. Proof. reflexivity. Qed.
Lemma root10 rho : sqrt_rho rho 1 0 = rho. Proof. unfold sqrt_rho, corr_matrix. cbn. rewrite sqrt_1. field. Qed.
Lemma root11 rho : sqrt_rho rho 1 1 = sqrt (1 - rho * rho).
Proof. unfold sqrt_rho, corr_matrix. cbn. rewrite sqrt_1. f_equal. field. Qed.

(** The drift is the documented one, with rates of zero when they are not given;
    the spot price has the documented volatility for any correlation, and without
    correlation so has the whole state. *)
Theorem C105_model : forall leverage vp rate dividend rho m t spot variance,
  new_lsv leverage vp rate dividend rho true = Some m ->
  m_drift m t (spot, variance) = ((zero_or rate - zero_or dividend) * spot, vp_drift vp t variance)
  /\ covariance (m_vol m t (spot, variance)) 0 0 = documented_covariance leverage vp (zero_or rho) t spot variance 0 0
  /\ (zero_or rho = 0 -> forall i j, (i < 2)%nat -> (j < 2)%nat ->
        covariance (m_vol m t (spot, variance)) i j = documented_covariance leverage vp 0 t spot variance i j).
Proof.
  intros leverage vp rate dividend rho m t spot variance E. unfold new_lsv in E. injection E as E. subst m. split; [reflexivity|]. split.
  - unfold covariance, documented_covariance. cbn [m_vol Nat.eqb]. rewrite root00, root01. ring.
  - intros Z i j I J. rewrite Z. unfold covariance, documented_covariance. cbn [m_vol Nat.eqb].
    destruct i as [|[|i]]; [| |lia]; (destruct j as [|[|j]]; [| |lia]); cbn [Nat.eqb]; rewrite ?root00, ?root01, ?root10, ?root11;
      try (replace (1 - 0 * 0) with 1 by ring; rewrite sqrt_1); ring.
Qed.
Print Assumptions C105_model.

(** With the default variance process, for k > 0 the variance is drawn to m, by k
    times the distance, and has instantaneous variance alpha^2 v. *)
Theorem C105_variance : forall k mean alpha t v, 0 < k -> 0 <= v ->
  Rabs (vp_drift (lsv_variance k mean alpha) t v) = k * Rabs (v - mean)
  /\ (v < mean <-> 0 < vp_drift (lsv_variance k mean alpha) t v)
  /\ vp_volatility (lsv_variance k mean alpha) t v ^ 2 = alpha ^ 2 * v.
Proof.
  intros k mean alpha t v K V. cbn [lsv_variance vp_drift vp_volatility]. split; [|split].
  - rewrite Rabs_mult, (Rabs_right k), (Rabs_minus_sym mean v) by lra. reflexivity.
  - split; intros H; nra.
  - rewrite Rpow_mult_distr. f_equal. cbn. rewrite Rmult_1_r. apply sqrt_sqrt. exact V.
Qed.
Print Assumptions C105_variance.

(** The factor is that of the correlation matrix, and the covariance that the
    model has for any correlation. *)
Theorem C105_covariance : forall leverage vp rate dividend rho m t spot variance, -1 <= rho <= 1 ->
  new_lsv leverage vp rate dividend (Some rho) true = Some m ->
  let d0 := sqrt variance * leverage t spot * spot in
  let d1 := vp_volatility vp t variance in
  (forall i j, (i < 2)%nat -> (j < 2)%nat -> covariance (sqrt_rho rho) i j = if Nat.eqb i j then 1 else rho)
  /\ covariance (m_vol m t (spot, variance)) 0 1 = rho * d0 ^ 2
  /\ covariance (m_vol m t (spot, variance)) 1 0 = rho * d0 ^ 2
  /\ covariance (m_vol m t (spot, variance)) 1 1 = rho ^ 2 * d0 ^ 2 + (1 - rho ^ 2) * d1 ^ 2.
Proof.
  intros leverage vp rate dividend rho m t spot variance B E d0 d1. unfold new_lsv in E. injection E as E. subst m.
  assert (Q : sqrt (1 - rho * rho) * sqrt (1 - rho * rho) = 1 - rho * rho) by (apply sqrt_sqrt; nra).
  split; [|unfold covariance, d0, d1; cbn [m_vol Nat.eqb zero_or]; rewrite root00, root01, root10, root11; split; [ring|split; [ring|]]].
  - intros i j I J. unfold covariance. destruct i as [|[|i]]; [| |lia]; (destruct j as [|[|j]]; [| |lia]); cbn [Nat.eqb]; rewrite ?root00, ?root01, ?root10, ?root11; try ring.
    rewrite Q. ring.
  - replace (1 - rho ^ 2) with (sqrt (1 - rho * rho) * sqrt (1 - rho * rho)) by (rewrite Q; ring). ring.
Qed.
Print Assumptions C105_covariance.

(** With correlation the factor is multiplied by the volatilities of the columns
    in place of the rows: the covariance is not the documented one. *)
Theorem C105_correlation_refuted :
  ~ (forall leverage vp rho m t spot variance i j, -1 < rho < 1 -> 0 < spot -> 0 < variance -> (i < 2)%nat -> (j < 2)%nat ->
       new_lsv leverage vp None None (Some rho) true = Some m ->
       covariance (m_vol m t (spot, variance)) i j = documented_covariance leverage vp rho t spot variance i j).
Proof.
  intros H. specialize (H (fun _ _ => 1) (lsv_variance 1 1 1) (1 / 2) _ 0 2 1 0%nat 1%nat ltac:(lra) ltac:(lra) ltac:(lra) ltac:(lia) ltac:(lia) eq_refl).
  unfold covariance, documented_covariance in H. cbn [m_vol Nat.eqb zero_or lsv_variance vp_volatility] in H.
  rewrite root00, root01, root10, sqrt_1 in H. lra.
Qed.
Print Assumptions C105_correlation_refuted.
(** The model is built exactly if a dtype is given: the default is refused. *)
Theorem C105_dtype_refuted :
  ~ (forall leverage vp rate dividend rho dtype, exists m, new_lsv leverage vp rate dividend rho dtype = Some m).
Proof. intros H. destruct (H (fun _ _ => 1) (lsv_variance 1 1 1) (Some 0) (Some 0) (Some 0) false) as [m E]. discriminate. Qed.
Print Assumptions C105_dtype_refuted.

(** Grids. *)
Lemma tr_nth lo hi star num alpha i : (i <= num)%nat ->
  nth i (tavella_randell lo hi star num alpha) 0
  = star + alpha * sinh (arcsinh ((hi - star) / alpha) * INR i / INR num + arcsinh ((lo - star) / alpha) * (1 - INR i / INR num)).
Proof.
  intros L. unfold tavella_randell. cbv zeta.
  set (f := fun i : nat => star + alpha * sinh (arcsinh ((hi - star) / alpha) * INR i / INR num + arcsinh ((lo - star) / alpha) * (1 - INR i / INR num))).
  rewrite (nth_indep _ 0 (f 0%nat)) by (rewrite map_length, seq_length; lia). rewrite (map_nth f), seq_nth by lia. reflexivity.
Qed.
Lemma tr_length lo hi star num alpha : length (tavella_randell lo hi star num alpha) = S num.
Proof. unfold tavella_randell. cbv zeta. rewrite map_length, seq_length. lia. Qed.
Lemma tr_spec lo hi star num alpha : lo < hi -> 0 < alpha -> (0 < num)%nat ->
  nth 0 (tavella_randell lo hi star num alpha) 0 = lo /\ nth num (tavella_randell lo hi star num alpha) 0 = hi
  /\ forall i j, (i < j <= num)%nat -> nth i (tavella_randell lo hi star num alpha) 0 < nth j (tavella_randell lo hi star num alpha) 0.
Proof.
  intros L A N. assert (P : 0 < INR num) by (apply lt_0_INR; lia). split; [|split].
  - rewrite tr_nth by lia. cbn [INR]. replace (_ * 0 / _ + _) with (arcsinh ((lo - star) / alpha)) by (field; lra). rewrite sinh_arcsinh. field. lra.
  - rewrite tr_nth by lia. match goal with |- _ + _ * sinh ?e = _ => replace e with (arcsinh ((hi - star) / alpha)) by (field; lra) end. rewrite sinh_arcsinh. field. lra.
  - intros i j [I J]. rewrite !tr_nth by lia. apply Rplus_lt_compat_l, Rmult_lt_compat_l; [exact A|]. apply sinh_lt.
    assert (D : arcsinh ((lo - star) / alpha) < arcsinh ((hi - star) / alpha)) by (apply arcsinh_lt, Rmult_lt_compat_r; [apply Rinv_0_lt_compat; exact A|lra]).
    assert (Q : INR i / INR num < INR j / INR num) by (apply Rmult_lt_compat_r; [apply Rinv_0_lt_compat; exact P|apply lt_INR; exact I]).
    unfold Rdiv in *. rewrite !Rmult_assoc. set (a := INR i * / INR num) in *. set (b := INR j * / INR num) in *. nra.
Qed.
(** For given bounds the log spots run from the logarithm of the one to that of
    the other, and the variances from the one to the other, increasing. *)
Theorem C105_grids : forall initial lo hi num, 0 < initial -> 0 < lo < hi -> (0 < num)%nat ->
  let s := log_spot_nodes initial (Some lo) (Some hi) num in
  let v := variance_nodes initial (Some lo) (Some hi) num in
  length s = S num /\ length v = S num
  /\ nth 0 s 0 = ln lo /\ nth num s 0 = ln hi /\ nth 0 v 0 = lo /\ nth num v 0 = hi
  /\ forall i j, (i < j <= num)%nat -> nth i s 0 < nth j s 0 /\ nth i v 0 < nth j v 0.
Proof.
  intros initial lo hi num P [L H] N s v.
  assert (LN : ln (lo / initial) < ln (hi / initial)) by (apply ln_increasing; [apply Rdiv_lt_0_compat; lra|apply Rmult_lt_compat_r; [apply Rinv_0_lt_compat; exact P|exact H]]).
  assert (LV : lo / initial < hi / initial) by (apply Rmult_lt_compat_r; [apply Rinv_0_lt_compat; exact P|exact H]).
  destruct (tr_spec _ _ 0 num (3 / 10) LN ltac:(lra) N) as (S1 & S2 & S3). destruct (tr_spec _ _ 1 num (3 / 10) LV ltac:(lra) N) as (V1 & V2 & V3).
  assert (NS : forall i, (i <= num)%nat -> nth i s 0 = nth i (tavella_randell (ln (lo / initial)) (ln (hi / initial)) 0 num (3 / 10)) 0 + ln initial).
  { intros i I. unfold s, log_spot_nodes. rewrite (nth_indep _ 0 ((fun x => x + ln initial) 0)) by (rewrite map_length, tr_length; lia).
    apply (map_nth (fun x => x + ln initial)). }
  assert (NV : forall i, (i <= num)%nat -> nth i v 0 = nth i (tavella_randell (lo / initial) (hi / initial) 1 num (3 / 10)) 0 * initial).
  { intros i I. unfold v, variance_nodes. rewrite (nth_indep _ 0 ((fun y => y * initial) 0)) by (rewrite map_length, tr_length; lia).
    apply (map_nth (fun y => y * initial)). }
  split; [unfold s, log_spot_nodes; rewrite map_length; apply tr_length|]. split; [unfold v, variance_nodes; rewrite map_length; apply tr_length|].
  rewrite !NS, !NV, S1, S2, V1, V2 by lia. unfold Rdiv. rewrite !ln_mult, ln_Rinv by (try apply Rinv_0_lt_compat; lra).
  split; [ring|]. split; [ring|]. split; [field; lra|]. split; [field; lra|].
  intros i j I. rewrite !NS, !NV by lia. split; [apply Rplus_lt_compat_r, S3; exact I|apply Rmult_lt_compat_r; [exact P|apply V3; exact I]].
Qed.
Print Assumptions C105_grids.

(** Without bounds the spot prices run from a hundredth to ten times the initial
    one, and the variances from a ten thousandth to five times theirs. *)
Theorem C105_default_grids : forall initial num, 0 < initial -> (0 < num)%nat ->
  log_spot_nodes initial None None num = log_spot_nodes initial (Some (initial / 100)) (Some (10 * initial)) num
  /\ variance_nodes initial None None num = variance_nodes initial (Some (initial / 10000)) (Some (5 * initial)) num.
Proof.
  intros initial num P N. unfold log_spot_nodes, variance_nodes. cbv zeta.
  replace (initial / 100 / initial) with (1 / 100) by (field; lra). replace (10 * initial / initial) with 10 by (field; lra).
  replace (initial / 10000 / initial) with (1 / 10000) by (field; lra). replace (5 * initial / initial) with 5 by (field; lra). split; reflexivity.
Qed.
Print Assumptions C105_default_grids.

Lemma total_ext f g n : (forall k, (k < n)%nat -> f k = g k) -> total f n = total g n.
Proof. induction n as [|n IH]; intros H; cbn; [reflexivity|]. rewrite IH by (intros; apply H; lia). rewrite H by lia. reflexivity. Qed.
Lemma total_scale f c n : total (fun k => f k * c) n = total f n * c.
Proof. induction n as [|n IH]; cbn; [ring|]. rewrite IH. ring. Qed.
Lemma total_le f g n : (forall k, (k < n)%nat -> f k <= g k) -> total f n <= total g n.
Proof. induction n as [|n IH]; intros H; cbn; [lra|]. apply Rplus_le_compat; [apply IH; intros; apply H; lia|apply H; lia]. Qed.

(** After every pass the density is not negative and has integral one, unless it
    was not positive anywhere. *)
Theorem C105_density : forall ns nv x y p, 0 < two_d_integration ns nv x y (fun j i => Rmax (p j i) 0) ->
  (forall j i, 0 <= after_solve ns nv x y p j i) /\ two_d_integration ns nv x y (after_solve ns nv x y p) = 1.
Proof.
  intros ns nv x y p A. set (a := two_d_integration ns nv x y (fun j i => Rmax (p j i) 0)) in *. split.
  - intros j i. unfold after_solve. cbv zeta. fold a. apply Rmult_le_pos; [apply Rmax_r|left; apply Rinv_0_lt_compat; exact A].
  - unfold two_d_integration at 1, after_solve. cbv zeta. fold a.
    rewrite (total_ext _ (fun i => (total (fun j => Rmax (p j i) 0 * (y (S j) - y j)) nv * (x (S i) - x i)) * / a)).
    + rewrite total_scale. change (a * / a = 1). field. lra.
    + intros i _. rewrite (total_ext _ (fun j => (Rmax (p j i) 0 * (y (S j) - y j)) * / a)) by (intros j _; unfold Rdiv; ring). rewrite total_scale. ring.
Qed.
Print Assumptions C105_density.

(** The conditional variance is between the smallest and the largest variance of
    the grid. *)
Theorem C105_conditional : forall nv y y_scale p i, 0 < y_scale -> (forall j k, (j < k <= nv)%nat -> y j < y k) ->
  (forall j, (j < nv)%nat -> 0 <= p j i) -> (exists j, (j < nv)%nat /\ 0 < p j i) ->
  y 0%nat * y_scale <= conditional_variance nv y y_scale p i <= y nv * y_scale.
Proof.
  intros nv y y_scale p i Y M P (j0 & J0 & P0). unfold conditional_variance. cbv zeta.
  set (d := fun j => p j i * (y (S j) * y_scale - y j * y_scale)).
  assert (D : forall j, (j < nv)%nat -> 0 <= d j).
  { intros j J. unfold d. apply Rmult_le_pos; [apply P; exact J|]. specialize (M j (S j) ltac:(lia)). nra. }
  assert (Q : 0 < total d nv).
  { assert (D0 : 0 < d j0) by (unfold d; apply Rmult_lt_0_compat; [exact P0|]; specialize (M j0 (S j0) ltac:(lia)); nra).
    clear -D D0 J0. induction nv as [|n IH]; [lia|]. cbn [total]. assert (T : 0 <= total d n).
    { clear -D. induction n as [|n IH]; cbn; [lra|]. apply Rplus_le_le_0_compat; [apply IH; intros; apply D; lia|apply D; lia]. }
    destruct (Nat.eq_dec j0 n) as [->|N]; [lra|]. specialize (D n ltac:(lia)) as Dn. assert (0 < total d n) by (apply IH; [lia|intros; apply D; lia]). lra. }
  unfold divide_no_nan. destruct (Req_EM_T _ 0) as [Z|_]; [lra|].
  assert (B : forall j, (j < nv)%nat -> y 0%nat <= y j <= y nv).
  { intros j J. split; [destruct j; [lra|left; apply M; lia]|left; apply M; lia]. }
  assert (E1 : total d nv * (y 0%nat * y_scale) <= total (fun j => y j * y_scale * p j i * (y (S j) * y_scale - y j * y_scale)) nv).
  { rewrite <- total_scale. apply total_le. intros k K. specialize (D k K). specialize (B k K). replace (y k * y_scale * p k i * (y (S k) * y_scale - y k * y_scale)) with (d k * (y k * y_scale)) by (unfold d; ring).
    apply Rmult_le_compat_l; [exact D|]. apply Rmult_le_compat_r; lra. }
  assert (E2 : total (fun j => y j * y_scale * p j i * (y (S j) * y_scale - y j * y_scale)) nv <= total d nv * (y nv * y_scale)).
  { rewrite <- total_scale. apply total_le. intros k K. specialize (D k K). specialize (B k K). replace (y k * y_scale * p k i * (y (S k) * y_scale - y k * y_scale)) with (d k * (y k * y_scale)) by (unfold d; ring).
    apply Rmult_le_compat_l; [exact D|]. apply Rmult_le_compat_r; lra. }
  set (i1 := total (fun j => y j * y_scale * p j i * (y (S j) * y_scale - y j * y_scale)) nv) in *. fold d. set (q := total d nv) in *.
  split; apply (Rmult_le_reg_l q); try exact Q; unfold Rdiv; replace (q * (i1 * / q)) with i1 by (field; lra); assumption.
Qed.
Print Assumptions C105_conditional.

(** The condition on the leverage: its square times the conditional variance is
    the square of the local volatility, unless that exceeds ten thousand. *)
Theorem C105_leverage : forall nv x y x_scale y_scale lv t p i,
  0 < conditional_variance nv y y_scale p i -> Rabs (lv t (exp (x i + x_scale))) <= 10000 ->
  let l := compute_leverage nv x y x_scale y_scale lv t p i in
  l ^ 2 * conditional_variance nv y y_scale p i = lv t (exp (x i + x_scale)) ^ 2 /\ (0 <= lv t (exp (x i + x_scale)) -> 0 <= l).
Proof.
  intros nv x y x_scale y_scale lv t p i V B l. unfold l, compute_leverage. cbv zeta. destruct (Rlt_dec 10000 _) as [C|_]; [lra|].
  unfold divide_no_nan. pose proof (sqrt_lt_R0 _ V) as R0. destruct (Req_EM_T _ 0) as [Z|_]; [lra|]. split.
  - rewrite <- (sqrt_sqrt (conditional_variance nv y y_scale p i)) at 2 by lra. field. lra.
  - intros P. apply Rmult_le_pos; [exact P|left; apply Rinv_0_lt_compat; exact R0].
Qed.
Print Assumptions C105_leverage.

(** Every pass solves the equation with a leverage of one: solvers that agree for
    that leverage give the same surface. *)
Theorem C105_unit_leverage : forall ns nv x y x_scale y_scale solve solve' lv dt p0 n,
  (forall t p, solve (fun _ => 1) t p = solve' (fun _ => 1) t p) ->
  leverage_loop ns nv x y x_scale y_scale solve lv dt p0 n = leverage_loop ns nv x y x_scale y_scale solve' lv dt p0 n.
Proof.
  intros ns nv x y x_scale y_scale solve solve' lv dt p0 n H. induction n as [|n IH]; cbn [leverage_loop]; [reflexivity|].
  rewrite IH. destruct (leverage_loop _ _ _ _ _ _ solve' _ _ _ n) as [p rows]. rewrite H. reflexivity.
Qed.
Print Assumptions C105_unit_leverage.

(** One log spot interval, two variance intervals; all mass at one variance. *)
Definition ex_x (i : nat) : R := INR i.
Definition ex_y (j : nat) : R := match j with 0%nat => 1 | 1%nat => 4 | _ => 5 end.
Definition mass (a b : R) : density := fun j _ => match j with 0%nat => a | 1%nat => b | _ => 0 end.
Definition ex_solve (leverage : nat -> R) (_ : R) (_ : density) : density := if Req_EM_T (leverage 0%nat) 1 then mass 1 0 else mass 0 1.
Lemma area_mass a b : 0 <= a -> 0 <= b -> two_d_integration 1 2 ex_x ex_y (fun j i => Rmax (mass a b j i) 0) = 3 * a + b.
Proof. intros A B. unfold two_d_integration, ex_x, ex_y, mass. cbn [total INR]. rewrite !Rmax_left by assumption. ring. Qed.
Lemma conditional_mass a b : 0 <= a -> 0 <= b -> 0 < 3 * a + b ->
  conditional_variance 2 ex_y 1 (after_solve 1 2 ex_x ex_y (mass a b)) 0 = (3 * a + 4 * b) / (3 * a + b).
Proof.
  intros A B P. unfold conditional_variance, after_solve. cbv zeta. rewrite area_mass by assumption. cbn [total]. unfold mass, ex_y. rewrite !Rmax_left by assumption.
  unfold divide_no_nan. assert (E : 0 + a / (3 * a + b) * (4 * 1 - 1 * 1) + b / (3 * a + b) * (5 * 1 - 4 * 1) = 1) by (field; lra).
  rewrite E. destruct (Req_EM_T 1 0); [lra|]. field. lra.
Qed.
Lemma leverage_mass a b t : 0 <= a -> 0 <= b -> 0 < 3 * a + b ->
  compute_leverage 2 ex_x ex_y 0 1 (fun _ _ => 2) t (after_solve 1 2 ex_x ex_y (mass a b)) 0 = divide_no_nan 2 (sqrt ((3 * a + 4 * b) / (3 * a + b))).
Proof.
  intros A B P. unfold compute_leverage. cbv zeta. rewrite conditional_mass by assumption.
  destruct (Rlt_dec 10000 (Rabs 2)) as [C|_]; [rewrite Rabs_right in C; lra|reflexivity].
Qed.
(** This is not the documented procedure, which gives another surface. *)
Theorem C105_calibration_refuted :
  ~ (forall ns nv x y x_scale y_scale solve lv dt p0 n,
       map (fun row => row 0%nat) (snd (leverage_loop ns nv x y x_scale y_scale solve lv dt p0 n))
       = map (fun row => row 0%nat) (snd (documented_loop ns nv x y x_scale y_scale solve lv dt p0 n))).
Proof.
  intros H. specialize (H 1%nat 2%nat ex_x ex_y 0 1 ex_solve (fun _ _ => 2) 1 (mass 1 0) 2%nat).
  cbn [leverage_loop documented_loop snd fst app map last] in H.
  assert (S1 : forall t p, ex_solve (fun _ => 1) t p = mass 1 0) by (intros t p; unfold ex_solve; destruct (Req_EM_T 1 1); [reflexivity|lra]).
  rewrite !S1 in H.
  assert (L1 : forall t, compute_leverage 2 ex_x ex_y 0 1 (fun _ _ => 2) t (after_solve 1 2 ex_x ex_y (mass 1 0)) 0 = 2).
  { intros t. rewrite leverage_mass by lra. replace ((3 * 1 + 4 * 0) / (3 * 1 + 0)) with 1 by field. rewrite sqrt_1. unfold divide_no_nan. destruct (Req_EM_T 1 0); lra. }
  assert (S2 : forall t u p, ex_solve (compute_leverage 2 ex_x ex_y 0 1 (fun _ _ => 2) t (after_solve 1 2 ex_x ex_y (mass 1 0))) u p = mass 0 1).
  { intros t u p. unfold ex_solve. rewrite L1. destruct (Req_EM_T 2 1); [lra|reflexivity]. }
  rewrite S2, !L1, leverage_mass in H by lra.
  replace ((3 * 0 + 4 * 1) / (3 * 0 + 1)) with (2 * 2) in H by field. rewrite sqrt_square in H by lra.
  unfold divide_no_nan in H. destruct (Req_EM_T 2 0); [lra|]. injection H as H. lra.
Qed.
Print Assumptions C105_calibration_refuted.

Example C105_ex :
  (exists m, new_lsv (fun _ _ => 1) (lsv_variance 1 (1 / 25) (1 / 10)) (Some (1 / 20)) None None true = Some m)
  /\ 0 < two_d_integration 1 2 ex_x ex_y (fun j i => Rmax (mass 1 1 j i) 0)
  /\ conditional_variance 2 ex_y 1 (after_solve 1 2 ex_x ex_y (mass 1 1)) 0 = 7 / 4.
Proof.
  split; [eexists; reflexivity|]. split; [rewrite area_mass; lra|]. rewrite conditional_mass by lra. field.
Qed.
