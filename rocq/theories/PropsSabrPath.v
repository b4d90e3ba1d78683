(** C85: simulated paths of the SABR model. *)
From Coquelicot Require Import Coquelicot.
From Coq Require Import Reals List Bool Arith ZArith Lia Lra Psatz.
From Verif Require Import TensorModel TensorProofs InterpModel BrentModel BrentProofs ExtReal HaganWestModel BootstrapModel BlackScholesModel ImpliedVolModel MvNormalModel MvNormalSpec EulerModel EulerSpec
  TimeGridModel TimeGridProofs PropsTimeGrid PropsEuler BlackScholesSpec BlackScholesProofs NormalProofs ImpliedVolProofs MvNormalProofs GbmProofs HestonProofs SabrPathModel SabrPathSpec SabrPathProofs.
Import ListNotations.
Open Scope R_scope.

(** * The volatility matrix and the Euler scheme *)
(** At a positive forward, the volatility matrix times its transpose is the
    covariance rate of the SABR model. *)
Theorem C85_covariance : forall m t f v i j, 0 < f -> -1 < value_at (s_rho m) t < 1 -> (i < 2)%nat -> (j < 2)%nat ->
  rsum (fun k => sabr_vol_fn m t f v i k * sabr_vol_fn m t f v j k) 2 =
  covariance_rate (value_at (s_beta m) t) (value_at (s_volvol m) t) (value_at (s_rho m) t) f v i j.
Proof.
  intros m t f v i j F Rh Hi Hj. unfold sabr_vol_fn, covariance_rate. cbv zeta. replace (rle f 0) with false by (symmetry; apply rle_false; exact F). rewrite andb_false_r.
  set (rho := value_at (s_rho m) t) in *. set (beta := value_at (s_beta m) t). set (nu := value_at (s_volvol m) t). clearbody rho beta nu.
  assert (P : power f beta = Rpower f beta).
  { unfold power. destruct (req beta 0) eqn:E; [|reflexivity]. apply req_true in E. subst. rewrite Rpower_O by exact F. reflexivity. }
  rewrite P. assert (S : sqrt (1 - rho ^ 2) * sqrt (1 - rho ^ 2) = 1 - rho ^ 2) by (apply sqrt_sqrt; pose proof (pow2_ge_0 rho); nra).
  set (w := sqrt (1 - rho ^ 2)) in *. clearbody w. set (p := Rpower f beta). clearbody p.
  destruct i as [|[|i]]; [| |lia]; (destruct j as [|[|j]]; [| |lia]); cbn [rsum]; try ring.
  replace (0 + v * p * w * (v * p * w) + v * p * rho * (v * p * rho)) with (v ^ 2 * p ^ 2 * (w * w + rho ^ 2)) by ring. rewrite S. ring.
Qed.
Definition model (beta nu rho : R) : sabr := Sabr (Number beta) (Number nu) (Number rho) 0 2 10 true.
Example covariance_applies : sabr_vol_fn (model 1 (1 / 2) 0) 0 3 2 0 0 = 6.
Proof.
  unfold sabr_vol_fn, power. cbn. unfold req, rle. destruct (Req_EM_T 1 0); [lra|]. destruct (Rle_dec 3 0); [lra|]. cbn. rewrite Rpower_1 by lra.
  replace (1 - 0 * (0 * 1)) with 1 by ring. rewrite sqrt_1. lra.
Qed.

(** With the Euler scheme, and beta never 0, a path whose forward is not positive
    does not move any more; this holds for the volatility too. *)
Theorem C85_euler_absorbing : forall m grid z x0 n s c, (forall t, value_at (s_beta m) t <> 0) -> (c < 2)%nat ->
  x0 s 0%nat <= 0 -> end_path (sabr_process m) grid z x0 n s c = x0 s c.
Proof.
  intros m grid z x0 n s c B C F.
  assert (Q : forall n c, end_path (sabr_process m) grid z x0 n s c = x0 s c); [|apply Q]. clear n c C.
  induction n as [|n IH]; intros c; [reflexivity|]. cbn [end_path]. unfold EulerSpec.increment. cbn [sabr_process drift_fn volatility_fn dim rsum].
  unfold sabr_vol_fn. cbv zeta. rewrite !IH. replace (req (value_at (s_beta m) (grid (S n))) 0) with false by (symmetry; apply req_false, B).
  replace (rle (x0 s 0%nat) 0) with true by (symmetry; apply rle_true; exact F). cbn [negb andb]. ring.
Qed.
(** The documentation speaks of an absorbing boundary at zero.  An Euler path can
    cross it, and then stays at the negative value: from forward 1 and volatility
    1, beta = 1, a draw of -3 for the first step gives -2 at every later time. *)
Theorem C85_euler_negative_refuted : forall n, exists z : nat -> samples,
  end_path (sabr_process (model 1 1 0)) INR z (fun _ _ => 1) (S n) 0%nat 0%nat = -2.
Proof.
  intros n. exists (fun _ _ c => if Nat.eqb c 0 then -3 else 0).
  assert (S1 : forall c, (c < 2)%nat -> end_path (sabr_process (model 1 1 0)) INR (fun _ _ c => if Nat.eqb c 0 then -3 else 0) (fun _ _ => 1) 1 0%nat c = if Nat.eqb c 0 then -2 else 1).
  { intros c C. cbn [end_path]. unfold EulerSpec.increment. cbn [sabr_process drift_fn volatility_fn dim rsum Nat.eqb]. unfold sabr_vol_fn, power. cbn [model value_at s_beta s_volvol s_rho].
    unfold req, rle. destruct (Req_EM_T 1 0); [lra|]. destruct (Rle_dec 1 0); [lra|]. cbn [negb andb]. rewrite Rpower_1 by lra. replace (1 - 0 ^ 2) with 1 by ring.
    replace (INR 1 - INR 0) with 1 by (cbn; ring). rewrite sqrt_1. destruct c as [|[|c]]; [| |lia]; cbn [Nat.eqb]; ring. }
  assert (Q : forall n c, (c < 2)%nat -> end_path (sabr_process (model 1 1 0)) INR (fun _ _ c => if Nat.eqb c 0 then -3 else 0) (fun _ _ => 1) (S n) 0%nat c = if Nat.eqb c 0 then -2 else 1).
  { clear n. induction n as [|n IH]; intros c C; [apply S1; exact C|]. cbn [end_path] in IH |- *.
    set (st := EulerSpec.increment _ _ _ _ _ _) in IH. fold st. unfold EulerSpec.increment. cbn [sabr_process drift_fn volatility_fn dim rsum]. unfold sabr_vol_fn. cbv zeta. cbn [model value_at s_beta s_volvol s_rho].
    rewrite !(IH 0%nat) by lia. rewrite (IH c C). cbn [Nat.eqb]. unfold req, rle. destruct (Req_EM_T 1 0); [lra|]. destruct (Rle_dec (-2) 0); [|lra]. cbn [negb andb]. ring. }
  rewrite Q by lia. reflexivity.
Qed.

(** * The unbiased scheme *)
(** The three numbers that path [j] uses in a step: the entries number j, N + j and
    2 N + j of the slice, read row by row. *)
Theorem C85_reshaped : forall N slice j, (j < N)%nat ->
  draws_of_path N slice j =
  (slice (j / 3) (j mod 3), slice ((N + j) / 3) ((N + j) mod 3), slice ((2 * N + j) / 3) ((2 * N + j) mod 3))%nat.
Proof.
  intros N slice j J. unfold draws_of_path, reshape. cbn [elt shape ravel size fold_right unravel nth].
  rewrite !Nat.mul_1_r. rewrite !Nat.mul_0_l, !Nat.add_0_l, !Nat.add_0_r. rewrite !Nat.div_1_r.
  rewrite Nat.mul_1_l. reflexivity.
Qed.
Example reshaped_applies : draws_of_path 4 (fun s c => INR (10 * s + c)) 1 = (INR 1, INR 12, INR 30).
Proof. rewrite C85_reshaped by lia. reflexivity. Qed.
(** A path should use the draws of its own sample: the volatility the first
    coordinate, so that low-discrepancy coordinates and antithetic pairs keep their
    meaning.  Already for two samples the second path uses the coordinates of the
    first sample, and draws that are antithetic give paths that are not. *)
Theorem C85_own_draws_refuted : forall slice,
  draws_of_path 2 slice 0 = (slice 0 0, slice 0 2, slice 1 1)%nat /\ draws_of_path 2 slice 1 = (slice 0 1, slice 1 0, slice 1 2)%nat.
Proof. intros slice. rewrite !C85_reshaped by lia. split; reflexivity. Qed.
Theorem C85_antithetic_refuted : exists slice : nat -> nat -> R,
  (forall c, slice 1%nat c = - slice 0%nat c) /\
  let '(w0, u0, z0) := draws_of_path 2 slice 0 in let '(w1, u1, z1) := draws_of_path 2 slice 1 in w1 <> - w0 /\ u1 <> - u0 /\ z1 <> - z0.
Proof.
  exists (fun s c => (if Nat.eqb s 0 then 1 else -1) * (1 + INR c)). split; [intros c; cbn; ring|].
  destruct (C85_own_draws_refuted (fun s c => (if Nat.eqb s 0 then 1 else -1) * (1 + INR c))) as [-> ->]. cbn. repeat split; lra.
Qed.

(** The second number of a step is turned into Phi(sqrt 2 z), which is not uniform:
    the probability of a value up to Phi(sqrt 2) is Phi(1). *)
Theorem C85_uniform_refuted : (forall z, uniforms_of z = ncdf (sqrt 2 * z)) /\ ~ uniform uniforms_of.
Proof.
  assert (S2 : 0 < sqrt 2) by (apply sqrt_lt_R0; lra).
  assert (E : forall z, uniforms_of z = ncdf (sqrt 2 * z)).
  { intros z. unfold uniforms_of, ncdf. replace (sqrt 2 * z / sqrt 2) with z by (field; lra). field. }
  split; [exact E|]. intros U.
  assert (Q : ncdf 1 = ncdf (sqrt 2)).
  { apply U; [split; [apply ncdf_pos|apply ncdf_lt_1]|]. intros z. rewrite E. split; intros H.
    - destruct (Rle_lt_dec z 1) as [L|L]; [exact L|]. pose proof (ncdf_incr (sqrt 2) (sqrt 2 * z)) as Q. assert (sqrt 2 < sqrt 2 * z) by nra. specialize (Q H0). lra.
    - destruct (Rle_lt_or_eq_dec _ _ H) as [L| ->]; [|rewrite Rmult_1_r; lra]. apply Rlt_le, ncdf_incr. nra. }
  assert (L : 1 < sqrt 2) by (rewrite <- sqrt_1 at 1; apply sqrt_lt_1; lra). pose proof (ncdf_incr 1 (sqrt 2) L). lra.
Qed.
(** Phi itself is uniform, so the definition is met by the intended formula. *)
Theorem C85_uniform_intended : uniform (fun z => 1 / 2 * (1 + erf (z / sqrt 2))).
Proof.
  intros y q Y H. assert (E : forall z, 1 / 2 * (1 + erf (z / sqrt 2)) = ncdf z) by (intros; unfold ncdf; field).
  assert (A : ncdf q <= y) by (rewrite <- E; apply H; lra). destruct (Rle_lt_or_eq_dec _ _ A) as [L|]; [|assumption]. exfalso.
  set (h := (y - ncdf q) / 2). pose proof (ncdf_pos q) as NP. assert (HB : 0 < h < 1) by (unfold h; lra).
  pose proof (GaussConv.ncdf_taylor q h) as T. apply Rabs_le_between in T. pose proof (GaussConv.density_le1 q) as D1.
  assert (Q : q + h <= q); [|lra]. apply H. rewrite E. assert (h * density q <= h * 1) by (apply Rmult_le_compat_l; lra). unfold h in *. nra.
Qed.

Lemma degrees_of beta rho : beta < 1 -> -1 < rho < 1 -> 2 - forward_b beta rho = degrees beta rho.
Proof. intros B Rh. assert (0 < 1 - rho ^ 2) by nra. unfold forward_b, degrees. field. split; lra. Qed.
(** The quadratic step.  When the branch is taken, the step gives a forward r >= 0
    for which (r^(1-beta) / (1-beta))^2 / iv is a function of the normal draw with
    the mean and the variance of the noncentral chi-squared distribution that the
    scheme approximates. *)
Theorem C85_moments : forall beta rho thr a iv, 0 <= beta < 1 -> -1 < rho < 1 -> 1 <= thr <= 2 -> 0 <= a -> 0 < iv ->
  (let '(m, psi, _) := quadratic_forward beta rho (Fin a) iv 0 in xle (Fin 0) m && xle psi (Fin thr) = true)%bool ->
  exists X r : R -> R, (forall z, 0 <= X z) /\
    expectation X (nc_mean (degrees beta rho) a) /\
    expectation (fun z => X z ^ 2) (nc_mean (degrees beta rho) a ^ 2 + nc_variance (degrees beta rho) a) /\
    forall z, snd (quadratic_forward beta rho (Fin a) iv z) = Fin (r z) /\ 0 <= r z /\
      (0 < X z -> 0 < r z /\ (Rpower (r z) (1 - beta) / (1 - beta)) ^ 2 / iv = X z) /\ (X z = 0 -> r z = 0).
Proof.
  intros beta rho thr a iv B Rh Th A I0 H. rewrite <- degrees_of by lra. destruct (quad_branch beta rho thr a iv A 0) as (psi & y & E & Q). rewrite E in H. destruct (Q H) as (M & P & _). clear Q H E psi y.
  assert (P2 : ps beta rho a <= 2) by lra. exists (xx beta rho a), (fun z => pw ((1 - beta) ^ 2 * iv * xx beta rho a z) (1 / 2 / (1 - beta))).
  split; [intros z; apply xx_nonneg; assumption|]. split; [apply (xx_mean beta rho a A M P2)|]. split; [apply (xx_second beta rho a A M P2)|].
  intros z. rewrite quad_value by assumption. cbn [snd]. split; [reflexivity|]. split; [apply pw_nonneg|]. pose proof (xx_nonneg beta rho a A M P2 z) as XN. set (x := xx beta rho a z) in *. clearbody x.
  assert (C : 0 < (1 - beta) ^ 2 * iv) by (apply Rmult_lt_0_compat; [apply pow_lt; lra|exact I0]).
  split.
  - intros XP. assert (Y : 0 < (1 - beta) ^ 2 * iv * x) by (apply Rmult_lt_0_compat; assumption). unfold pw. replace (rlt 0 ((1 - beta) ^ 2 * iv * x)) with true by (symmetry; unfold rlt; destruct (Rlt_dec 0 ((1 - beta) ^ 2 * iv * x)); [reflexivity|contradiction]).
    split; [unfold Rpower; apply exp_pos|]. rewrite Rpower_mult. replace (1 / 2 / (1 - beta) * (1 - beta)) with (/ 2) by (field; lra). rewrite Rpower_sqrt by exact Y.
    replace ((sqrt ((1 - beta) ^ 2 * iv * x) / (1 - beta)) ^ 2) with (sqrt ((1 - beta) ^ 2 * iv * x) ^ 2 / (1 - beta) ^ 2) by (field; lra).
    rewrite <- Rsqr_pow2, Rsqr_sqrt by lra. field. split; lra.
  - intros ->. unfold pw. rewrite Rmult_0_r. unfold rlt. destruct (Rlt_dec 0 0); [lra|reflexivity].
Qed.
(** a case in which the branch is taken: beta = 0 and rho = 0, so k = 1; with a = 1
    the ratio psi is 3/2 *)
Example moments_apply : (let '(m, psi, _) := quadratic_forward 0 0 (Fin 1) 1 0 in xle (Fin 0) m && xle psi (Fin 2) = true)%bool.
Proof.
  assert (B : forward_b 0 0 = 1) by (unfold forward_b; field). unfold quadratic_forward. cbv zeta. rewrite B. cbn [xadd xmul]. unfold xsquare at 1. cbn [xmul].
  rewrite xdiv_f by lra. rewrite !xle_f. apply andb_true_iff. split; apply rle_true; lra.
Qed.

(** * The paths *)
Lemma prefix_of {A} (l : list (list A)) k : exists r, concat l = concat (firstn k l) ++ r.
Proof. exists (concat (skipn k l)). rewrite <- concat_app, firstn_skipn. reflexivity. Qed.
Lemma prefix_nth {A} (l r : list A) i e : (i < length l)%nat -> nth i (l ++ r) e = nth i l e.
Proof. intros. apply app_nth1. assumption. Qed.
Lemma total_sum l : total l = sum_to (length l) (fun i => nth i l 0).
Proof. induction l as [|x l IH]; [reflexivity|]. cbn [total fold_right length]. fold (total l). rewrite sum_to_first. cbn [nth]. rewrite IH. reflexivity. Qed.
Lemma shocks_sum draws l : forall i, shocks draws l i = sum_to (length l) (fun k => sqrt (nth k l 0) * fst (fst (draws (i + k)%nat))).
Proof.
  induction l as [|x l IH]; intros i; [reflexivity|]. cbn [shocks length]. rewrite sum_to_first. cbn [nth]. rewrite Nat.add_0_r, IH. f_equal. apply sum_to_ext. intros k _. do 4 f_equal. lia.
Qed.
Lemma sum_scal c f n : sum_to n (fun i => c * f i) = c * sum_to n f.
Proof. induction n as [|n IH]; cbn; [ring|]. rewrite IH. ring. Qed.
Lemma last_at (l : list R) : l <> [] -> last l 0 = nth (length l - 1) l 0.
Proof.
  induction l as [|x l IH]; [congruence|]. intros _. destruct l as [|y l]; [reflexivity|]. change (last (x :: y :: l) 0) with (last (y :: l) 0). rewrite IH by discriminate.
  cbn [length]. replace (S (S (length l)) - 1)%nat with (S (S (length l) - 1)) by lia. reflexivity.
Qed.
Section Grid.
  Variables (h : R) (fuel : nat).
  Hypothesis H : 0 < h.
  Lemma segments_ok : forall times cur k, cur <= nth 0 times cur -> (forall i, (S i < length times)%nat -> nth i times 0 <= nth (S i) times 0) -> (k < length times)%nat ->
    (last times 0 - cur) / h <= INR fuel ->
    total (prefix_steps h fuel times cur k) = nth k times 0 - cur /\ (forall d, In d (prefix_steps h fuel times cur k) -> 0 < d <= h) /\
    INR (length (prefix_steps h fuel times cur k)) <= (nth k times 0 - cur) / h + INR (S k).
  Proof.
    induction times as [|t r IH]; intros cur k C ND K F; [cbn in K; lia|]. cbn [nth] in C.
    assert (LT : forall j, (j < length (t :: r))%nat -> t <= nth j (t :: r) 0).
    { induction j as [|j IJ]; intros J; [cbn; lra|]. specialize (ND j J). specialize (IJ ltac:(lia)). lra. }
    assert (LL : last (t :: r) 0 = nth (length (t :: r) - 1) (t :: r) 0) by (apply last_at; discriminate).
    assert (TL : t <= last (t :: r) 0) by (rewrite LL; apply LT; cbn; lia).
    assert (IV : 0 < / h) by (apply Rinv_0_lt_compat; exact H).
    destruct (lengths_ok t h H fuel cur C) as (T & D & N).
    { apply Rle_trans with ((last (t :: r) 0 - cur) / h); [|exact F]. unfold Rdiv. apply Rmult_le_compat_r; lra. }
    unfold prefix_steps. cbn [segments firstn concat]. destruct k as [|k].
    - cbn [firstn concat nth]. rewrite app_nil_r. split; [exact T|]. split; [exact D|]. replace (INR 1) with 1 by reflexivity. exact N.
    - change (firstn (S k) (segments h fuel r t)) with (firstn (S k) (segments h fuel r t)). cbn [length] in K.
      destruct r as [|t' r]; [cbn in K; lia|].
      destruct (IH t k) as (T2 & D2 & N2).
      + exact (ND 0%nat ltac:(cbn; lia)).
      + intros i Ii. exact (ND (S i) ltac:(cbn in *; lia)).
      + lia.
      + change (last (t :: t' :: r) 0) with (last (t' :: r) 0) in *. apply Rle_trans with ((last (t' :: r) 0 - cur) / h); [|exact F]. unfold Rdiv. apply Rmult_le_compat_r; lra.
      + unfold prefix_steps in T2, D2, N2. change (nth (S k) (t :: t' :: r) 0) with (nth k (t' :: r) 0). rewrite total_app, T, T2. split; [lra|]. split.
        * intros d. rewrite in_app_iff. intros [Q|Q]; [apply D|apply D2]; exact Q.
        * rewrite app_length, plus_INR. rewrite (S_INR (S k)). apply Rle_trans with ((t - cur) / h + 1 + ((nth k (t' :: r) 0 - t) / h + INR (S k))); [lra|]. right. field. lra.
  Qed.
End Grid.

Theorem C85_paths : forall G igamma igammac root_finder m beta nu rho times step,
  external G igamma igammac root_finder ->
  s_beta m = Number beta -> s_volvol m = Number nu -> s_rho m = Number rho -> s_unbiased m = true ->
  0 < beta < 1 -> 0 < nu -> -1 < rho < 1 -> 1 <= s_psi_threshold m <= 2 ->
  times <> [] -> TimeGridSpec.increasing times -> 0 <= nth 0 times 0 -> 0 < step ->
  exists (d : nat -> R) (N : nat -> nat),
    (forall k, (k < length times)%nat -> (N k <= num_time_steps_of times step)%nat /\ sum_to (N k) d = nth k times 0 /\ forall i, (i < N k)%nat -> 0 < d i <= step) /\
    forall samples validate draws euler f0 v0 j, (j < samples)%nat -> 0 <= f0 + s_shift m -> 0 < v0 ->
    exists path, sabr_paths igamma igammac root_finder m samples true validate draws euler f0 v0 times step j = Some path /\ length path = length times /\
      forall k, (k < length times)%nat ->
        (exists f, nth k path (NaN, 0) =
           (Fin f, v0 * exp (nu * sum_to (N k) (fun i => sqrt (d i) * draws (num_time_steps_of times step) i (j / 3)%nat (j mod 3)%nat) - nu ^ 2 * nth k times 0 / 2)) /\
           - s_shift m <= f) /\
        (fst (nth k path (NaN, 0)) = Fin (- s_shift m) -> forall l, (k <= l < length times)%nat -> fst (nth l path (NaN, 0)) = Fin (- s_shift m)) /\
        iid_expectation (N k) (fun w => v0 * exp (nu * sum_to (N k) (fun i => sqrt (d i) * coord w i) - nu ^ 2 * nth k times 0 / 2)) v0.
Proof.
  intros G igamma igammac root_finder m beta nu rho times step X EB EV ER EU B V Rh Th TN TI T0 S0.
  set (n := num_time_steps_of times step).
  assert (ND : forall i, (S i < length times)%nat -> nth i times 0 <= nth (S i) times 0) by (intros i Ii; specialize (TI i Ii); lra).
  assert (LN : (0 < length times)%nat) by (destruct times; [congruence|cbn; lia]).
  assert (L0 : 0 <= last times 0).
  { rewrite last_at by exact TN. assert (Q : forall j, (j < length times)%nat -> 0 <= nth j times 0) by (induction j as [|j IJ]; intros J; [exact T0|specialize (ND j J); specialize (IJ ltac:(lia)); lra]). apply Q. lia. }
  assert (NB : last times 0 / step + INR (length times) <= INR n).
  { unfold n, num_time_steps_of. pose proof (ceil_bounds (last times 0 / step)) as [C1 C2]. assert (0 <= last times 0 / step) by (apply Rdiv_le_0_compat; lra).
    assert (CZ : (0 <= ceil (last times 0 / step)%R)%Z) by (apply le_IZR; lra).
    rewrite (INR_IZR_INZ (Z.to_nat _)), Z2Nat.id by lia. rewrite plus_IZR, <- INR_IZR_INZ. lra. }
  assert (C0 : 0 <= nth 0 times 0) by exact T0.
  assert (C0' : 0 <= nth 0 times (0 : R)) by exact T0.
  assert (OK : forall k, (k < length times)%nat -> total (prefix_steps step n times 0 k) = nth k times 0 - 0 /\ (forall d, In d (prefix_steps step n times 0 k) -> 0 < d <= step) /\
     INR (length (prefix_steps step n times 0 k)) <= (nth k times 0 - 0) / step + INR (S k)).
  { intros k K. apply segments_ok; try assumption. rewrite Rminus_0_r. pose proof (pos_INR (length times)). lra. }
  set (all := concat (segments step n times 0)).
  assert (ALL : all = prefix_steps step n times 0 (length times - 1)).
  { unfold all, prefix_steps. f_equal. rewrite <- firstn_all at 1. f_equal. rewrite segments_length. lia. }
  assert (LE : (length all <= n)%nat).
  { apply INR_le. rewrite ALL. destruct (OK (length times - 1)%nat ltac:(lia)) as (_ & _ & Q). eapply Rle_trans; [exact Q|]. rewrite Rminus_0_r, <- last_at by exact TN.
    replace (S (length times - 1)) with (length times) by lia. exact NB. }
  exists (fun i => nth i all 0), (fun k => length (prefix_steps step n times 0 k)).
  assert (PRE : forall k, exists r, all = prefix_steps step n times 0 k ++ r) by (intros k; apply prefix_of).
  assert (SUMS : forall k, (k < length times)%nat -> sum_to (length (prefix_steps step n times 0 k)) (fun i => nth i all 0) = nth k times 0).
  { intros k K. destruct (OK k K) as (T & _ & _). rewrite total_sum in T. rewrite Rminus_0_r in T. rewrite <- T. apply sum_to_ext. intros i Ii. destruct (PRE k) as [r E]. rewrite E. apply prefix_nth. exact Ii. }
  split.
  - intros k K. split; [|split; [apply SUMS; exact K|]].
    + destruct (PRE k) as [r E]. rewrite E, app_length in LE. lia.
    + intros i Ii. destruct (PRE k) as [r E]. rewrite E, prefix_nth by exact Ii. destruct (OK k K) as (_ & D & _). apply D. apply nth_In. exact Ii.
  - intros samples validate draws euler f0 v0 j J F0 V0.
    unfold sabr_paths. assert (AV : arguments_valid m = true).
    { unfold arguments_valid. rewrite EB, EV, ER. rewrite !(proj2 (rle_true _ _)) by lra. unfold rlt. destruct (Rlt_dec (- (1)) rho); [|lra]. destruct (Rlt_dec rho 1); [reflexivity|lra]. }
    rewrite AV, (gaps_ok_true 0 times TI), orb_true_r. cbn [andb]. cbv zeta.
    assert (UU : uses_unbiased m = true).
    { unfold uses_unbiased. rewrite EB, EV, ER, EU. cbn. replace (req beta 1) with false by (symmetry; apply req_false; lra). reflexivity. }
    rewrite UU, EB, EV, ER. cbn [value_at]. unfold sabr_sample_paths. cbv zeta. fold n.
    set (D := fun i => draws_of_path samples (draws n i) j).
    rewrite (sample_run igamma igammac root_finder beta nu rho (s_psi_threshold m) (s_truncation m) D n step n times 0) by (fold all; lia).
    set (RUN := fun k => run igamma igammac root_finder beta nu rho (s_psi_threshold m) (s_truncation m) D (prefix_steps step n times 0 k) 0 (Fin (f0 + s_shift m), v0)).
    cbn [option_map]. eexists. split; [reflexivity|]. rewrite map_map. split; [rewrite map_length, seq_length; reflexivity|].
    assert (GOOD0 : good beta (Fin (f0 + s_shift m), v0)) by (exists (f0 + s_shift m); cbn; split; [reflexivity|split; [left; exact F0|exact V0]]).
    assert (NTH : forall k, (k < length times)%nat ->
      nth k (map (fun x => let '(f, v) := RUN x in (f -x Fin (s_shift m), v)) (seq 0 (length times))) (NaN, 0) = (fst (RUN k) -x Fin (s_shift m), snd (RUN k))).
    { intros k K. set (Q := fun x => let '(f, v) := RUN x in (f -x Fin (s_shift m), v)). rewrite (nth_indep _ (NaN, 0) (Q 0%nat)) by (rewrite map_length, seq_length; exact K).
      rewrite map_nth, seq_nth by exact K. unfold Q. rewrite Nat.add_0_l. destruct (RUN k). reflexivity. }
    assert (GOOD : forall k, (k < length times)%nat -> exists f, fst (RUN k) = Fin f /\ 0 <= f).
    { intros k K. destruct (OK k K) as (_ & DP & _). destruct (run_good igamma igammac root_finder beta nu rho (s_psi_threshold m) (s_truncation m) G ltac:(lra) V Rh Th X D (prefix_steps step n times 0 k) 0 (Fin (f0 + s_shift m), v0)) as [(f & E & Q & _) _].
      - intros d Id. apply DP. exact Id.
      - exact GOOD0.
      - exists f. split; [exact E|]. destruct Q as [Q|Q]; [exact Q|lra]. }
    intros k K. change (nth k (map (fun x : nat => let '(f, v) := RUN x in (f -x Fin (s_shift m), v)) (seq 0 (length times))) (NaN, 0)) with (nth k (map (fun x => let '(f, v) := RUN x in (f -x Fin (s_shift m), v)) (seq 0 (length times))) (NaN, 0)).
    split; [|split].
    + destruct (GOOD k K) as (f & E & Fn). exists (f - s_shift m). rewrite NTH by exact K. rewrite E. split; [|lra]. f_equal.
      unfold RUN. destruct (OK k K) as (T & DP & _). rewrite run_vol by (intros d Id; apply DP; exact Id). cbn [snd]. rewrite T, shocks_sum. rewrite Rminus_0_r. f_equal. f_equal. f_equal. f_equal.
      apply sum_to_ext. intros i Ii. destruct (PRE k) as [r E2]. rewrite E2, prefix_nth by exact Ii. f_equal. unfold D. rewrite C85_reshaped by exact J. reflexivity.
    + intros Z l L. rewrite NTH in Z |- * by lia. cbn [fst] in Z |- *. destruct (GOOD k K) as (f & E & Fn). rewrite E in Z. cbn in Z. assert (f = 0) by (injection Z; lra). subst f.
      assert (PL : exists r, prefix_steps step n times 0 l = prefix_steps step n times 0 k ++ r).
      { unfold prefix_steps. destruct (prefix_of (firstn (S l) (segments step n times 0)) (S k)) as [r E2]. rewrite firstn_firstn, Nat.min_l in E2 by lia. exists r. exact E2. }
      destruct PL as [r PL]. unfold RUN. rewrite PL, run_app.
      rewrite (run_absorbed igamma igammac root_finder beta nu rho (s_psi_threshold m) (s_truncation m) D r ltac:(lra)) by exact E. cbn. f_equal. ring.
    + set (K' := length (prefix_steps step n times 0 k)).
      apply (iid_ext K' (fun w => v0 * exp (- (nu ^ 2 * nth k times 0 / 2) + sum_to K' (fun i => (nu * sqrt (nth i all 0)) * coord w i)))).
      * intros w. f_equal. f_equal. rewrite <- sum_scal. rewrite (sum_to_ext _ (fun i => nu * sqrt (nth i all 0) * coord w i) (fun i => nu * (sqrt (nth i all 0) * coord w i))) by (intros; ring). ring.
      * pose proof (iid_scal K' _ _ v0 (iid_exp K' (- (nu ^ 2 * nth k times 0 / 2)) (fun i => nu * sqrt (nth i all 0)))) as Q.
        assert (E : v0 * exp (- (nu ^ 2 * nth k times 0 / 2) + sum_to K' (fun i => (nu * sqrt (nth i all 0)) ^ 2) / 2) = v0).
        { rewrite (sum_to_ext _ _ (fun i => nu ^ 2 * nth i all 0)).
          - rewrite sum_scal. unfold K'. rewrite SUMS by exact K. replace (- (nu ^ 2 * nth k times 0 / 2) + nu ^ 2 * nth k times 0 / 2) with 0 by ring. rewrite exp_0. ring.
          - intros i Ii. rewrite Rpow_mult_distr. f_equal. rewrite <- Rsqr_pow2. apply Rsqr_sqrt. destruct (PRE k) as [r E2]. rewrite E2, prefix_nth by exact Ii. destruct (OK k K) as (_ & DP & _). apply Rlt_le, DP, nth_In. exact Ii. }
        exact (eq_ind _ (iid_expectation K' _) Q _ E).
Qed.
(** The assumptions can be met: with s = 1 the incomplete gamma function is
    1 - exp (-y); a root finder may return its start. *)
Definition ratio (s y : R) : R := 1 - exp (- y).
Definition lower (s y : xr) : xr := match s, y with Fin s, Fin y => Fin (ratio s y) | _, _ => NaN end.
Definition upper (s y : xr) : xr := match s, y with Fin s, Fin y => Fin (1 - ratio s y) | _, _ => NaN end.
Definition stay (f : xr -> xr * xr) (c : xr) : xr := c.
Example external_met : external ratio lower upper stay.
Proof.
  split; try reflexivity.
  - intros s y _ Y. unfold ratio. pose proof (exp_pos (- y)). assert (exp (- y) <= 1); [|lra]. rewrite <- exp_0. destruct (Rle_lt_or_eq_dec _ _ Y) as [L| <-]; [apply Rlt_le, exp_increasing; lra|]. rewrite Ropp_0. lra.
  - intros [s| |]; reflexivity.
  - intros f c. exists c. reflexivity.
Qed.
Example paths_apply : exists d N, forall draws euler, exists path,
  sabr_paths lower upper stay (model (1 / 2) 1 0) 5 true true draws euler 1 (1 / 5) [1; 2] (1 / 2) 3 = Some path /\ length path = 2%nat /\ sum_to (N 1%nat) d = 2.
Proof.
  destruct (C85_paths ratio lower upper stay (model (1 / 2) 1 0) (1 / 2) 1 0 [1; 2] (1 / 2) external_met) as (d & N & A & B); try reflexivity; try (cbn; lra).
  - discriminate.
  - intros [|i] Ii; cbn in *; [lra|lia].
  - exists d, N. intros draws euler. destruct (B 5%nat true draws euler 1 (1 / 5) 3%nat) as (path & E & L & _); [lia|cbn; lra|lra|]. exists path. split; [exact E|]. split; [exact L|].
    destruct (A 1%nat ltac:(cbn; lia)) as (_ & Q & _). exact Q.
Qed.

(** A model whose constants are outside their ranges is refused. *)
Theorem C85_validated : forall igamma igammac root_finder m samples precomputed validate draws euler f0 v0 times step j path,
  sabr_paths igamma igammac root_finder m samples precomputed validate draws euler f0 v0 times step j = Some path ->
  (forall b, s_beta m = Number b -> 0 <= b <= 1) /\ (forall v, s_volvol m = Number v -> 0 <= v) /\ (forall r, s_rho m = Number r -> -1 < r < 1) /\ 1 <= s_psi_threshold m <= 2 /\
  (validate = true -> TimeGridSpec.increasing times).
Proof.
  intros igamma igammac root_finder m samples precomputed validate draws euler f0 v0 times step j path. unfold sabr_paths.
  destruct (arguments_valid m && (negb validate || gaps_ok 0 times))%bool eqn:E; [intros _|discriminate]. apply andb_true_iff in E. destruct E as [E E2]. unfold arguments_valid in E. rewrite !andb_true_iff in E. destruct E as ((((B & V) & Rh) & P1) & P2).
  apply rle_true in P1. apply rle_true in P2. split; [|split; [|split; [|split]]].
  - intros b Eb. rewrite Eb in B. apply andb_true_iff in B. destruct B as [B1 B2]. apply rle_true in B1. apply rle_true in B2. lra.
  - intros v Ev. rewrite Ev in V. apply rle_true in V. lra.
  - intros r Er. rewrite Er in Rh. apply andb_true_iff in Rh. destruct Rh as [R1 R2]. unfold rlt in R1, R2. destruct (Rlt_dec (- (1)) r); [|discriminate]. destruct (Rlt_dec r 1); [|discriminate]. lra.
  - lra.
  - intros ->. cbn [negb orb] in E2. intros i Ii. unfold gaps_ok in E2. rewrite forallb_forall in E2.
    assert (Q : In (nth (S i) times 0 - nth i times 0) (SegmentModel.diff 1 true times)) by (rewrite <- diff_nth' by lia; apply nth_In; rewrite diff_length'; lia).
    specialize (E2 _ Q). unfold rlt in E2. destruct (Rlt_dec 0 (nth (S i) times 0 - nth i times 0)); [lra|discriminate].
Qed.
Example validated_applies : sabr_paths lower upper stay (model 2 1 0) 1 true false (fun _ _ _ _ => 0) (fun _ _ _ => None) 1 1 [1] 1 0 = None.
Proof.
  destruct (sabr_paths lower upper stay (model 2 1 0) 1 true false (fun _ _ _ _ => 0) (fun _ _ _ => None) 1 1 [1] 1 0) eqn:E; [|reflexivity].
  destruct (C85_validated _ _ _ _ _ _ _ _ _ _ _ _ _ _ _ E) as (B & _). specialize (B 2 eq_refl). lra.
Qed.

(** With beta equal to 1, or with a parameter that depends on time, the path is that
    of the Euler scheme from the shifted forward, shifted back: the other scheme
    would divide by zero. *)
Theorem C85_euler_used : forall igamma igammac root_finder m samples precomputed draws euler f0 v0 times step j path,
  (s_beta m = Number 1 \/ (exists f, s_beta m = Callable f) \/ (exists f, s_volvol m = Callable f) \/ (exists f, s_rho m = Callable f)) ->
  sabr_paths igamma igammac root_finder m samples precomputed false draws euler f0 v0 times step j = Some path ->
  exists e, euler (sabr_process m) (f0 + s_shift m) v0 = Some e /\ length path = length e /\
    forall i f v, nth_error e i = Some (Fin f, v) -> nth_error path i = Some (Fin (f - s_shift m), v).
Proof.
  intros igamma igammac root_finder m samples precomputed draws euler f0 v0 times step j path K. unfold sabr_paths. destruct (arguments_valid m); [|discriminate]. cbn [negb orb andb].
  assert (U : uses_unbiased m = false).
  { unfold uses_unbiased. destruct K as [->|[[f ->]|[[f ->]|[f ->]]]]; cbn [is_callable orb negb]; rewrite ?orb_true_r; cbn [orb negb]; rewrite ?andb_false_r; try reflexivity.
    replace (req 1 1) with true by (symmetry; apply req_true; reflexivity). rewrite !orb_true_r. apply andb_false_r. }
  rewrite U. destruct (euler (sabr_process m) (f0 + s_shift m) v0) as [e|] eqn:E; cbn [option_map]; [|discriminate]. intros P. exists e. split; [reflexivity|].
  injection P as <-. split; [apply map_length|]. intros i f v N. rewrite nth_error_map, N. cbn [option_map]. unfold xsub. cbn. reflexivity.
Qed.
Example euler_used_applies : sabr_paths lower upper stay (model 1 1 0) 1 true false (fun _ _ _ _ => 0) (fun _ f v => Some [(Fin (f + 1), v)]) 1 1 [1] 1 0 <> None.
Proof.
  unfold sabr_paths. assert (V : arguments_valid (model 1 1 0) = true).
  { unfold arguments_valid. cbn. rewrite !andb_true_iff. repeat split; try (apply rle_true; lra); unfold rlt; destruct (Rlt_dec _ _); try reflexivity; lra. }
  rewrite V. cbn [andb orb negb]. assert (U : uses_unbiased (model 1 1 0) = false).
  { unfold uses_unbiased. cbn. replace (req 1 1) with true by (symmetry; apply req_true; reflexivity). reflexivity. }
  rewrite U. discriminate.
Qed.

(** Without precomputed draws, and with random numbers drawn at each step, a path
    of the unbiased scheme cannot be computed. *)
Theorem C85_drawn_later_refuted : forall igamma igammac root_finder samples draws euler f0 v0 times step j,
  sabr_paths igamma igammac root_finder (model (1 / 2) 1 0) samples false false draws euler f0 v0 times step j = None.
Proof.
  intros. unfold sabr_paths. cbn [negb orb andb]. rewrite andb_true_r. destruct (arguments_valid _); [|reflexivity]. unfold uses_unbiased. cbn.
  replace (req (1 / 2) 1) with false by (symmetry; apply req_false; lra). reflexivity.
Qed.

Lemma one_time igamma igammac root_finder beta nu rho thr trunc samples draws f0 v0 j : sabr_sample_paths igamma igammac root_finder beta nu rho thr trunc samples true draws f0 v0 [1] 1 j =
  Some [one igamma igammac root_finder beta nu rho thr trunc 1 (draws_of_path samples (draws 2%nat 0%nat) j) (Fin f0, v0)].
Proof.
  unfold sabr_sample_paths. cbv zeta. assert (N : num_time_steps_of [1] 1 = 2%nat).
  { unfold num_time_steps_of. cbn [last length]. pose proof (ceil_bounds (1 / 1)) as [C1 C2]. assert (ceil (1 / 1) = 1%Z); [|rewrite H; reflexivity]. apply Z.le_antisymm; apply Z.lt_succ_r, lt_IZR; [rewrite succ_IZR; lra|].
    rewrite succ_IZR. lra. }
  rewrite N. assert (S : lengths 1 1 2 0 = [1]).
  { cbn [lengths]. unfold rlt, rle. destruct (Rlt_dec 0 1); [|lra]. destruct (Rle_dec (1 - 0) 1); [|lra]. cbv zeta. destruct (Rlt_dec (0 + (1 - 0)) 1); [lra|]. f_equal. lra. }
  rewrite (sample_run igamma igammac root_finder beta nu rho thr trunc (fun i => draws_of_path samples (draws 2%nat i) j) 2 1 2 [1] 0).
  - cbn [length seq map]. unfold prefix_steps. cbn [segments firstn concat]. rewrite app_nil_r. rewrite S. reflexivity.
  - cbn [segments concat]. rewrite app_nil_r. rewrite S. cbn. lia.
Qed.
(** The parameter beta = 0 is the normal model: the forward is a martingale that
    takes negative values.  The scheme gives a value >= 0 whatever the draws, also
    from a start at -1. *)
Theorem C85_normal_refuted : forall G igamma igammac root_finder samples draws euler j, external G igamma igammac root_finder ->
  exists f v, sabr_paths igamma igammac root_finder (model 0 1 0) samples true true draws euler (-1) 1 [1] 1 j = Some [(Fin f, v)] /\ 0 <= f.
Proof.
  intros G igamma igammac root_finder samples draws euler j X. unfold sabr_paths. assert (A : arguments_valid (model 0 1 0) = true).
  { unfold arguments_valid. cbn. rewrite !(proj2 (rle_true _ _)) by lra. unfold rlt. destruct (Rlt_dec (- (1)) 0); [|lra]. destruct (Rlt_dec 0 1); [reflexivity|lra]. }
  rewrite A. cbn [gaps_ok SegmentModel.diff SegmentModel.diff_excl negb orb andb forallb map combine skipn firstn length Nat.sub]. unfold gaps_ok. cbn [SegmentModel.diff SegmentModel.diff_excl]. unfold SegmentModel.diff_excl. cbn [forallb map combine skipn firstn length Nat.sub].
  unfold uses_unbiased. cbn [model s_unbiased s_beta s_volvol s_rho is_callable negb orb andb]. replace (req 0 1) with false by (symmetry; apply req_false; lra). cbn [negb value_at]. rewrite one_time. cbn [option_map map model s_psi_threshold s_truncation s_shift].
  destruct (one_good igamma igammac root_finder 0 1 0 2 10 G ltac:(lra) ltac:(lra) ltac:(lra) ltac:(lra) X 1 (draws_of_path samples (draws 2%nat 0%nat) j) (Fin (-1 + 0), 1)) as [_ (f & E & F)]; [lra| |].
  - exists (-1 + 0). cbn. split; [reflexivity|]. split; [right; reflexivity|lra].
  - destruct (one igamma igammac root_finder 0 1 0 2 10 1 (draws_of_path samples (draws 2%nat 0%nat) j) (Fin (-1 + 0), 1)) as [f' v']. cbn in E. subst f'. exists (f - 0), v'. split; [reflexivity|lra].
Qed.
(** A volatility of volatility of zero is accepted, and is the CEV model.  The
    scheme divides by it: the forward is NaN. *)
Theorem C85_cev_refuted : forall G igamma igammac root_finder samples draws euler j, external G igamma igammac root_finder ->
  sabr_paths igamma igammac root_finder (model (1 / 2) 0 0) samples true true draws euler 1 1 [1] 1 j = Some [(NaN, 1)].
Proof.
  intros G igamma igammac root_finder samples draws euler j X. unfold sabr_paths. assert (A : arguments_valid (model (1 / 2) 0 0) = true).
  { unfold arguments_valid. cbn. rewrite !(proj2 (rle_true _ _)) by lra. unfold rlt. destruct (Rlt_dec (- (1)) 0); [|lra]. destruct (Rlt_dec 0 1); [reflexivity|lra]. }
  rewrite A. unfold gaps_ok, SegmentModel.diff, SegmentModel.diff_excl. cbn [negb orb andb forallb map combine skipn firstn length Nat.sub].
  unfold uses_unbiased. cbn [model s_unbiased s_beta s_volvol s_rho is_callable negb orb andb]. replace (req (1 / 2) 1) with false by (symmetry; apply req_false; lra). cbn [negb value_at]. rewrite one_time. cbn [option_map map model s_psi_threshold s_truncation s_shift].
  unfold one. destruct (draws_of_path samples (draws 2%nat 0%nat) j) as [[w u] z]. assert (NV : sample_next_volatilities 0 1 1 w = 1).
  { unfold sample_next_volatilities. replace (0 * w * sqrt 1 - 0 ^ 2 * 1 * (1 / 2)) with 0 by ring. rewrite exp_0. ring. }
  rewrite NV. assert (AN : forward_a (1 / 2) 0 0 (Fin (1 + 0)) 1 1 (sample_integrated_variance 0 1 1 1) = NaN).
  { assert (AN : forall a, a +x NaN = NaN) by (intros []; reflexivity). assert (MN : forall a, a *x NaN = NaN) by (intros []; reflexivity).
    unfold forward_a. replace (Fin 0 /x Fin 0) with NaN by (cbn [xdiv]; rewrite !req_refl_; reflexivity). cbn [xmul]. rewrite AN. apply MN. }
  unfold sample_forwards. cbv zeta. rewrite AN.
  assert (QF : forall iv, exists c, quadratic_forward (1 / 2) 0 NaN iv z = (NaN, NaN, c)).
  { intros iv. unfold quadratic_forward. cbv zeta. cbn [xadd xmul]. eexists. reflexivity. }
  destruct (QF (sample_integrated_variance 0 1 1 1)) as [c ->]. cbn [xdiv]. rewrite (lower_nan _ _ _ _ X). cbn [xsub xadd xopp xlt]. rewrite xle_f. replace (rle (1 + 0) 0) with false by (symmetry; apply rle_false; lra).
  cbn [orb]. rewrite andb_false_r. cbn [xle andb]. unfold root_chi2. cbv zeta. rewrite (root_nan _ _ _ _ X). cbn. unfold xrpow. replace (req (1 / (2 - 2 * (1 / 2))) 0) with false by (symmetry; apply req_false; lra). reflexivity.
Qed.

(** * The noncentral chi-squared distribution function *)
Section Cdf.
  Variables (G : R -> R -> R) (igamma igammac : xr -> xr -> xr) (root_finder : (xr -> xr * xr) -> xr -> xr).
  Hypothesis X : external G igamma igammac root_finder.
  Variables x k : R.
  Hypotheses (X0 : 0 <= x) (K0 : 0 < k).
  Definition hh (j : nat) : R := G (k / 2 + INR j) (x / 2) / INR (fact j).
  Lemma fact_pos j : 0 < INR (fact j). Proof. apply lt_0_INR, lt_O_fact. Qed.
  Lemma xnpow_f a j : xnpow (Fin a) j = Fin (a ^ j).
  Proof. induction j as [|j IH]; cbn; [reflexivity|]. rewrite IH. reflexivity. Qed.
  Lemma ncx2_fold l n : l <> 0 -> fold_left (ncx2_term igammac (Fin x) (Fin k) (Fin l)) (seq 0 (n + 1)) (Fin 0, Fin 0, 1) =
    (Fin (sum_f_R0 (fun j => hh j * (l / 2) ^ j) n), Fin (sum_f_R0 (fun j => hh j * (INR j / 2 * (l / 2) ^ pred j)) n), INR (fact n)).
  Proof.
    intros L.
    assert (ST : forall g dg fa j, 0 < fa * (if Nat.ltb 0 j then INR j else 1) -> fa * (if Nat.ltb 0 j then INR j else 1) = INR (fact j) ->
      ncx2_term igammac (Fin x) (Fin k) (Fin l) (Fin g, Fin dg, fa) j = (Fin (g + hh j * (l / 2) ^ j), Fin (dg + hh j * (INR j / 2 * (l / 2) ^ pred j)), INR (fact j))).
    { intros g dg fa j FP FE. unfold ncx2_term. cbv zeta. rewrite FE. cbn [xadd]. pose proof (fact_pos j) as FF. pose proof (pos_INR j) as JP. rewrite !xdiv_f by lra.
      replace ((k + 2 * INR j) / 2) with (k / 2 + INR j) by field. rewrite (upper_ok _ _ _ _ X) by lra. rewrite xsub_f. rewrite xdiv_f by lra. cbn [xmul]. rewrite xnpow_f.
      replace (l * (1 / 2)) with (l / 2) by field. destruct j as [|j].
      - cbn [xpred_pow]. rewrite xdiv_f by lra. cbn [xmul xadd]. unfold hh. do 2 f_equal; f_equal; cbn; field; lra.
      - cbn [xpred_pow pred]. rewrite xnpow_f. cbn [xmul xadd]. unfold hh. do 2 f_equal; f_equal; field; lra. }
    induction n as [|n IH].
    - cbn [Nat.add seq fold_left]. rewrite ST by (cbn; lra). cbn [sum_f_R0]. do 2 f_equal; f_equal; ring.
    - replace (S n + 1)%nat with (S (n + 1)) by lia. rewrite seq_S, fold_left_app, IH. cbn [fold_left]. replace (0 + (n + 1))%nat with (S n) by lia.
      assert (FE : INR (fact n) * (if Nat.ltb 0 (S n) then INR (S n) else 1) = INR (fact (S n))).
      { change (Nat.ltb 0 (S n)) with true. cbv iota. rewrite fact_simpl, mult_INR. ring. }
      rewrite ST; [reflexivity|rewrite FE; apply fact_pos|exact FE].
  Qed.
  Lemma nc_cdf_factor n l : nc_cdf G n x k l = exp (- l / 2) * sum_f_R0 (fun j => hh j * (l / 2) ^ j) n.
  Proof. unfold nc_cdf. rewrite scal_sum. apply sum_eq. intros j _. unfold hh. field. pose proof (fact_pos j). lra. Qed.
  Lemma sum_derive n l : is_derive (fun l => sum_f_R0 (fun j => hh j * (l / 2) ^ j) n) l (sum_f_R0 (fun j => hh j * (INR j / 2 * (l / 2) ^ pred j)) n).
  Proof.
    assert (T : forall j, is_derive (fun l => hh j * (l / 2) ^ j) l (hh j * (INR j / 2 * (l / 2) ^ pred j))) by (intros j; auto_derive; [exact Logic.I|]; unfold Rdiv; generalize ((l * / 2) ^ pred j); intros; field).
    induction n as [|n IH]; cbn [sum_f_R0]; [apply T|]. apply (is_derive_plus (K := R_AbsRing) (V := R_NormedModule)); [exact IH|apply T].
  Qed.
  Lemma cdf_value l n : l <> 0 -> exists dp, ncx2cdf_and_gradient igammac (Fin x) (Fin k) (Fin l) n = (Fin (nc_cdf G n x k l), Fin dp) /\ is_derive (nc_cdf G n x k) l dp.
  Proof.
    intros L. unfold ncx2cdf_and_gradient. rewrite ncx2_fold by exact L. cbn [xmul xexp xadd]. replace (- (1 / 2) * l) with (- l / 2) by field. eexists. split.
    - rewrite nc_cdf_factor. reflexivity.
    - apply (is_derive_ext (fun l => exp (- l / 2) * sum_f_R0 (fun j => hh j * (l / 2) ^ j) n)); [intros; symmetry; apply nc_cdf_factor|].
      assert (E : is_derive (fun l => exp (- l / 2)) l (- (1 / 2) * exp (- l / 2))) by (auto_derive; [exact Logic.I|]; unfold Rdiv; lra).
      pose proof (is_derive_mult _ _ l _ _ E (sum_derive n l) Rmult_comm) as Q.
      match type of Q with is_derive _ _ ?d => match goal with |- is_derive _ _ ?d' => replace d' with d; [exact Q|] end end.
      reflexivity.
  Qed.
  Lemma cdf_range l n : 0 <= l -> 0 <= nc_cdf G n x k l <= 1.
  Proof.
    intros L. assert (HB : forall j, 0 <= G (k / 2 + INR j) (x / 2) <= 1) by (intros j; apply (ratio_range _ _ _ _ X); [pose proof (pos_INR j); lra|lra]).
    assert (PP : forall j, 0 <= (l / 2) ^ j / INR (fact j)) by (intros j; apply Rdiv_le_0_compat; [apply pow_le; lra|apply fact_pos]).
    rewrite nc_cdf_factor. split.
    - apply Rmult_le_pos; [apply Rlt_le, exp_pos|]. apply cond_pos_sum. intros j. unfold hh. replace (G (k / 2 + INR j) (x / 2) / INR (fact j) * (l / 2) ^ j) with (G (k / 2 + INR j) (x / 2) * ((l / 2) ^ j / INR (fact j))) by (field; pose proof (fact_pos j); lra).
      apply Rmult_le_pos; [apply HB|apply PP].
    - apply Rle_trans with (exp (- l / 2) * exp (l / 2)); [|rewrite <- exp_plus; replace (- l / 2 + l / 2) with 0 by field; rewrite exp_0; lra].
      apply Rmult_le_compat_l; [apply Rlt_le, exp_pos|]. apply Rle_trans with (sum_f_R0 (fun j => (l / 2) ^ j / INR (fact j)) n); [|apply exp_ge_taylor; lra].
      apply sum_Rle. intros j _. unfold hh. replace (G (k / 2 + INR j) (x / 2) / INR (fact j) * (l / 2) ^ j) with (G (k / 2 + INR j) (x / 2) * ((l / 2) ^ j / INR (fact j))) by (field; pose proof (fact_pos j); lra).
      specialize (HB j). specialize (PP j). nra.
  Qed.
End Cdf.
(** For a positive noncentrality the value is the truncated distribution function,
    a number in [0, 1], and the second result is its derivative in the
    noncentrality. *)
Theorem C85_ncx2 : forall G igamma igammac root_finder x k l n, external G igamma igammac root_finder -> 0 <= x -> 0 < k -> 0 < l ->
  exists dp, ncx2cdf_and_gradient igammac (Fin x) (Fin k) (Fin l) n = (Fin (nc_cdf G n x k l), Fin dp) /\ is_derive (nc_cdf G n x k) l dp /\ 0 <= nc_cdf G n x k l <= 1.
Proof.
  intros G igamma igammac root_finder x k l n X X0 K0 L. destruct (cdf_value G igamma igammac root_finder X x k X0 K0 l n) as (dp & E & D); [lra|].
  exists dp. split; [exact E|]. split; [exact D|]. apply (cdf_range G igamma igammac root_finder X x k X0 K0). lra.
Qed.
Example ncx2_applies : exists dp, ncx2cdf_and_gradient upper (Fin 1) (Fin 3) (Fin 2) 10 = (Fin (nc_cdf ratio 10 1 3 2), Fin dp).
Proof. destruct (C85_ncx2 ratio lower upper stay 1 3 2 10 external_met) as (dp & E & _); try lra. exists dp. exact E. Qed.
(** At noncentrality 0, the central distribution, the derivative comes out as NaN:
    the first term multiplies 0 by 1 / 0. *)
Theorem C85_gradient_refuted : forall G igamma igammac root_finder x k n, external G igamma igammac root_finder -> 0 <= x -> 0 < k ->
  snd (ncx2cdf_and_gradient igammac (Fin x) (Fin k) (Fin 0) n) = NaN /\ exists dp, is_derive (nc_cdf G n x k) 0 dp.
Proof.
  intros G igamma igammac root_finder x k n X X0 K0. split.
  - unfold ncx2cdf_and_gradient.
    assert (ST : forall m acc, snd (fst acc) = NaN -> snd (fst (fold_left (ncx2_term igammac (Fin x) (Fin k) (Fin 0)) m acc)) = NaN).
    { induction m as [|j m IH]; intros [[g dg] fa] E; [exact E|]. cbn [fold_left]. apply IH. cbn in E. subst dg. reflexivity. }
    rewrite Nat.add_1_r. cbn [seq fold_left].
    destruct (fold_left _ _ _) as [[g dg] fa] eqn:E. pose proof (ST (seq 1 n) (ncx2_term igammac (Fin x) (Fin k) (Fin 0) (Fin 0, Fin 0, 1) 0%nat)) as Q. rewrite E in Q. cbn [fst snd] in Q.
    rewrite Q; [|]. { cbn [snd]. assert (MN : forall a, a *x NaN = NaN) by (intros []; reflexivity). assert (AN : forall a, a +x NaN = NaN) by (intros []; reflexivity). rewrite MN. apply AN. }
    unfold ncx2_term. cbn [fst snd]. cbv zeta. change (Nat.ltb 0 0) with false. cbv iota. replace (1 * 1) with 1 by ring. cbn [xadd INR]. rewrite !(xdiv_f _ 2) by lra.
    rewrite (upper_ok _ _ _ _ X) by lra. rewrite xsub_f. rewrite xdiv_f by lra. cbn [xmul xpred_pow]. rewrite Rmult_0_l. cbn [xdiv]. rewrite req_refl_. replace (req 1 0) with false by (symmetry; apply req_false; lra).
    replace (rlt 1 0) with false by (unfold rlt; destruct (Rlt_dec 1 0); [lra|reflexivity]). cbn [xmul xzero]. rewrite Rmult_0_r, req_refl_. reflexivity.
  - exists (- (1 / 2) * exp (- 0 / 2) * sum_f_R0 (fun j => hh G x k j * (0 / 2) ^ j) n + exp (- 0 / 2) * sum_f_R0 (fun j => hh G x k j * (INR j / 2 * (0 / 2) ^ pred j)) n).
    apply (is_derive_ext (fun l => exp (- l / 2) * sum_f_R0 (fun j => hh G x k j * (l / 2) ^ j) n)); [intros; symmetry; apply nc_cdf_factor|].
    assert (E : is_derive (fun l => exp (- l / 2)) 0 (- (1 / 2) * exp (- 0 / 2))) by (auto_derive; [exact Logic.I|]; unfold Rdiv; lra).
    exact (is_derive_mult _ _ 0 _ _ E (sum_derive G x k n 0) Rmult_comm).
Qed.

Print Assumptions C85_covariance. Print Assumptions C85_euler_absorbing. Print Assumptions C85_euler_negative_refuted. Print Assumptions C85_reshaped.
Print Assumptions C85_own_draws_refuted. Print Assumptions C85_antithetic_refuted. Print Assumptions C85_uniform_refuted. Print Assumptions C85_uniform_intended.
Print Assumptions C85_moments. Print Assumptions C85_paths. Print Assumptions C85_validated. Print Assumptions C85_euler_used.
Print Assumptions C85_drawn_later_refuted. Print Assumptions C85_normal_refuted.
Print Assumptions C85_cev_refuted. Print Assumptions C85_ncx2. Print Assumptions C85_gradient_refuted.
