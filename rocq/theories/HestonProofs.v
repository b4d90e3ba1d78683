(** Lemmas for the Heston model: moments of the normal distribution and of the
    two branches of the variance step. *)
From Coquelicot Require Import Coquelicot.
From Coq Require Import Reals List Bool Arith Lia Lra.
From Verif Require Import TensorModel BrentModel InterpModel BrentProofs ExtReal HaganWestModel BootstrapModel BlackScholesModel BlackScholesSpec NormalProofs GaussConv BlackScholesProofs ImpliedVolProofs
  MvNormalProofs HestonModel HestonSpec.
Import ListNotations.
Open Scope R_scope.

(** * Third and fourth moments of the normal distribution *)
Lemma density_le_exp x : density x <= exp (- (x ^ 2 / 2)).
Proof.
  unfold density. assert (H : 1 <= sqrt (2 * PI)) by (rewrite <- sqrt_1; apply sqrt_le_1; pose proof PI2_3_2; unfold PI2 in *; pose proof PI_RGT_0; lra).
  pose proof (exp_pos (- (x ^ 2 / 2))). apply (Rmult_le_reg_r (sqrt (2 * PI))); [lra|]. unfold Rdiv at 1. rewrite Rmult_assoc, Rinv_l by lra. nra.
Qed.
Lemma density_quartic x : x ^ 4 * density x <= 16.
Proof.
  pose proof (density_le_exp x) as L1. pose proof (exp_ineq1_le (x ^ 2 / 4)) as Q. pose proof (pow2_ge_0 x) as X2.
  assert (E : exp (- (x ^ 2 / 2)) * (exp (x ^ 2 / 4) * exp (x ^ 2 / 4)) = 1).
  { rewrite <- !exp_plus. replace (- (x ^ 2 / 2) + (x ^ 2 / 4 + x ^ 2 / 4)) with 0 by field. apply exp_0. }
  set (e := exp (- (x ^ 2 / 2))) in *. set (q := exp (x ^ 2 / 4)) in *. assert (P : 0 < e) by apply exp_pos. clearbody e q.
  assert (S : (x ^ 2 / 4) * (x ^ 2 / 4) <= q * q) by (apply Rmult_le_compat; lra).
  assert (x ^ 4 * e <= 16). { replace (x ^ 4) with (16 * ((x ^ 2 / 4) * (x ^ 2 / 4))) by field. assert (e * ((x ^ 2 / 4) * (x ^ 2 / 4)) <= e * (q * q)) by (apply Rmult_le_compat_l; lra). lra. }
  assert (0 <= x ^ 4) by (replace (x ^ 4) with ((x ^ 2) * (x ^ 2)) by ring; apply Rmult_le_pos; lra).
  assert (x ^ 4 * density x <= x ^ 4 * e) by (apply Rmult_le_compat_l; assumption). lra.
Qed.
Lemma cube_lim : is_lim (fun z => z ^ 3 * density z) p_infty 0.
Proof.
  apply (lim_of_inv_bound _ 0 16). intros x X. pose proof (density_pos x) as D. pose proof (density_quartic x) as Q.
  assert (0 < x ^ 3) by (apply pow_lt; lra). rewrite Rminus_0_r, Rabs_right by (apply Rle_ge, Rmult_le_pos; lra).
  apply (Rmult_le_reg_r x); [lra|]. replace (16 / x * x) with 16 by (field; lra). replace (x ^ 3 * density x * x) with (x ^ 4 * density x) by ring. exact Q.
Qed.
Lemma square_lim : is_lim (fun z => z ^ 2 * density z) p_infty 0.
Proof.
  apply (lim_of_inv_bound _ 0 16). intros x X. pose proof (density_pos x) as D. pose proof (density_quartic x) as Q.
  assert (0 < x ^ 2) by (apply pow_lt; lra). rewrite Rminus_0_r, Rabs_right by (apply Rle_ge, Rmult_le_pos; lra).
  apply (Rmult_le_reg_r x); [lra|]. replace (16 / x * x) with 16 by (field; lra).
  replace (x ^ 4 * density x) with (x ^ 2 * density x * x * x) in Q by ring. assert (0 <= x ^ 2 * density x * x) by (apply Rmult_le_pos; [apply Rmult_le_pos; lra|lra]). nra.
Qed.
Lemma opp_lim (f : R -> R) p : is_lim f p 0 -> is_lim (fun z => - f z) p 0.
Proof. intros L. replace (Finite 0) with (Rbar_opp (Finite 0)) by (cbn; f_equal; ring). apply is_lim_opp. exact L. Qed.
Lemma zero_sum_lim (f g : R -> R) p : is_lim f p 0 -> is_lim g p 0 -> is_lim (fun z => f z + g z) p 0.
Proof. intros F G. apply (is_lim_plus f g p (Finite 0) (Finite 0) (Finite 0)); [exact F|exact G|]. unfold is_Rbar_plus. cbn. do 2 f_equal. ring. Qed.
Lemma zero_scal_lim (f : R -> R) c p : is_lim f p 0 -> is_lim (fun z => c * f z) p 0.
Proof. intros F. replace (Finite 0) with (Rbar_mult (Finite c) (Finite 0)) by (cbn; f_equal; ring). apply is_lim_scal_l. exact F. Qed.
Lemma poly_cont n z : continuous (fun z => z ^ n * density z) z.
Proof. apply (continuous_mult (fun z => z ^ n) density); [|apply density_cont]. apply (ex_derive_continuous (V := R_NormedModule)). auto_derive. exact Logic.I. Qed.
Lemma times_density (f f' : R -> R) z : is_derive f z (f' z) -> is_derive (fun z => f z * density z) z ((f' z - z * f z) * density z).
Proof.
  intros D. assert (M := is_derive_mult f density z _ _ D (density_derive z) Rmult_comm).
  match type of M with is_derive _ _ ?x => replace ((f' z - z * f z) * density z) with x; [exact M|] end. unfold plus, mult. cbn. ring.
Qed.
Lemma expect_cube : expectation (fun z => z ^ 3) 0.
Proof.
  unfold expectation. replace 0 with (0 - 0) by ring. apply (whole (fun z => z ^ 3 * density z) (fun z => - (z ^ 2 + 2) * density z)).
  - intros z. assert (D := times_density (fun z => - (z ^ 2 + 2)) (fun z => - (2 * z)) z). replace (z ^ 3 * density z) with ((- (2 * z) - z * - (z ^ 2 + 2)) * density z) by ring.
    apply D. auto_derive; [exact Logic.I|ring].
  - apply poly_cont.
  - apply (is_lim_ext (fun z => - (z ^ 2 * density z) + -2 * density z)); [intros; ring|]. apply zero_sum_lim; [apply opp_lim, square_lim|apply zero_scal_lim, density_lim_p].
  - apply lim_mirror. apply (is_lim_ext (fun z => - (z ^ 2 * density z) + -2 * density z)); [intros; rewrite density_even; ring|].
    apply zero_sum_lim; [apply opp_lim, square_lim|apply zero_scal_lim, density_lim_p].
Qed.
Lemma expect_fourth : expectation (fun z => z ^ 4) 3.
Proof.
  unfold expectation. replace 3 with (3 - 0) by ring. apply (whole (fun z => z ^ 4 * density z) (fun z => 3 * ncdf z - (z ^ 3 + 3 * z) * density z)).
  - intros z. assert (D := times_density (fun z => z ^ 3 + 3 * z) (fun z => 3 * z ^ 2 + 3) z).
    assert (D1 : is_derive (fun z => 3 * ncdf z) z (3 * density z)) by (apply (is_derive_scal ncdf z 3), ncdf_derive).
    assert (D2 := is_derive_minus _ _ z _ _ D1 (D ltac:(auto_derive; [exact Logic.I|ring]))).
    match type of D2 with is_derive _ _ ?x => replace (z ^ 4 * density z) with x; [exact D2|] end. unfold minus, plus, opp. cbn. ring.
  - apply poly_cont.
  - apply (is_lim_minus (fun z => 3 * ncdf z) _ p_infty (Finite 3) (Finite 0) (Finite 3)).
    + replace (Finite 3) with (Rbar_mult (Finite 3) (Finite 1)) by (cbn; f_equal; ring). apply is_lim_scal_l. exact ncdf_lim_p.
    + apply (is_lim_ext (fun z => z ^ 3 * density z + 3 * (z * density z))); [intros; ring|]. apply zero_sum_lim; [apply cube_lim|apply zero_scal_lim, z_density_lim].
    + unfold is_Rbar_minus, is_Rbar_plus. cbn. do 2 f_equal. ring.
  - apply (is_lim_minus (fun z => 3 * ncdf z) _ m_infty (Finite 0) (Finite 0) (Finite 0)).
    + apply zero_scal_lim. exact ncdf_lim_m.
    + apply lim_mirror. apply (is_lim_ext (fun z => - (z ^ 3 * density z + 3 * (z * density z)))); [intros; rewrite density_even; ring|].
      apply opp_lim, zero_sum_lim; [apply cube_lim|apply zero_scal_lim, z_density_lim].
    + unfold is_Rbar_minus, is_Rbar_plus. cbn. do 2 f_equal. ring.
Qed.
Lemma expect_quartic p q r s t : expectation (fun z => p + q * z + r * z ^ 2 + s * z ^ 3 + t * z ^ 4) (p + r + 3 * t).
Proof.
  apply (expectation_plus (fun z => p + q * z + r * z ^ 2 + s * z ^ 3) (fun z => t * z ^ 4) (p + r) (3 * t)); [| |ring].
  - apply (expectation_plus (fun z => p + q * z + r * z ^ 2) (fun z => s * z ^ 3) (p + r) 0); [apply expect_quadratic| |ring].
    apply (expectation_scal (fun z => z ^ 3) s 0); [apply expect_cube|ring].
  - apply (expectation_scal (fun z => z ^ 4) t 3); [apply expect_fourth|ring].
Qed.

(** * The quadratic branch *)
Section Quadratic.
  Variables m psi : R.
  Hypotheses (Mp : 0 < m) (P0 : 0 < psi) (P1 : psi < 3 / 2).
  Definition q_inv : R := 2 / psi.
  Definition q_b2 : R := q_inv - 1 + sqrt (q_inv * (q_inv - 1)).
  Definition q_next (z : R) : R := m / (1 + q_b2) * (sqrt q_b2 + z) ^ 2.
  Lemma q_inv_gt : 1 < q_inv.
  Proof. unfold q_inv. apply (Rmult_lt_reg_r psi); [lra|]. unfold Rdiv. rewrite Rmult_assoc, Rinv_l by lra. lra. Qed.
  Lemma q_b2_pos : 0 < q_b2.
  Proof. unfold q_b2. pose proof q_inv_gt. pose proof (sqrt_pos (q_inv * (q_inv - 1))). lra. Qed.
  Lemma q_root : (1 + q_b2) ^ 2 - 2 * q_inv * (1 + q_b2) + q_inv = 0.
  Proof.
    unfold q_b2. pose proof q_inv_gt as Q. assert (S : sqrt (q_inv * (q_inv - 1)) * sqrt (q_inv * (q_inv - 1)) = q_inv * (q_inv - 1)) by (apply sqrt_sqrt; nra).
    set (w := sqrt (q_inv * (q_inv - 1))) in *. clearbody w. nra.
  Qed.
  Lemma q_nonneg z : 0 <= q_next z.
  Proof. unfold q_next. pose proof q_b2_pos. apply Rmult_le_pos; [apply Rlt_le, Rdiv_lt_0_compat; lra|apply pow2_ge_0]. Qed.
  Lemma q_sqrt : sqrt q_b2 ^ 2 = q_b2.
  Proof. rewrite <- Rsqr_pow2. apply Rsqr_sqrt. apply Rlt_le, q_b2_pos. Qed.
  Lemma q_mean : expectation q_next m.
  Proof.
    pose proof q_b2_pos as B. pose proof q_sqrt as S. set (b := sqrt q_b2) in *.
    apply (expectation_ext (fun z => m / (1 + q_b2) * b ^ 2 + (2 * (m / (1 + q_b2)) * b) * z + m / (1 + q_b2) * z ^ 2)).
    { intros z. unfold q_next. fold b. ring. }
    assert (Q := expect_quadratic (m / (1 + q_b2) * b ^ 2) (2 * (m / (1 + q_b2)) * b) (m / (1 + q_b2))).
    assert (E : m / (1 + q_b2) * b ^ 2 + m / (1 + q_b2) = m) by (rewrite S; field; lra). rewrite E in Q. exact Q.
  Qed.
  Lemma q_second : expectation (fun z => q_next z ^ 2) (m ^ 2 * (1 + psi)).
  Proof.
    pose proof q_b2_pos as B. pose proof q_sqrt as S. pose proof q_root as Rt. set (b := sqrt q_b2) in *. set (a := m / (1 + q_b2)).
    apply (expectation_ext (fun z => a ^ 2 * b ^ 4 + (4 * a ^ 2 * b ^ 3) * z + (6 * a ^ 2 * b ^ 2) * z ^ 2 + (4 * a ^ 2 * b) * z ^ 3 + a ^ 2 * z ^ 4)).
    { intros z. unfold q_next. fold b a. ring. }
    replace (m ^ 2 * (1 + psi)) with (a ^ 2 * b ^ 4 + 6 * a ^ 2 * b ^ 2 + 3 * a ^ 2); [apply expect_quartic|].
    replace (b ^ 4) with ((b ^ 2) ^ 2) by ring. rewrite S. unfold a. set (y := q_b2) in *. clearbody y b. clear a S.
    assert (E : psi * (1 + y) ^ 2 = 2 * (2 * (1 + y) - 1)).
    { replace psi with (2 / q_inv) by (unfold q_inv; field; lra). pose proof q_inv_gt. apply (Rmult_eq_reg_r q_inv); [|lra]. replace (2 / q_inv * (1 + y) ^ 2 * q_inv) with (2 * (1 + y) ^ 2) by (field; lra). nra. }
    apply (Rmult_eq_reg_r ((1 + y) ^ 2)); [|apply pow_nonzero; lra].
    replace (m ^ 2 * (1 + psi) * (1 + y) ^ 2) with (m ^ 2 * ((1 + y) ^ 2 + psi * (1 + y) ^ 2)) by ring. rewrite E. field. lra.
  Qed.
End Quadratic.

(** * The exponential branch *)
Section Exponential.
  Variables m psi : R.
  Hypotheses (Mp : 0 < m) (P1 : 3 / 2 <= psi).
  Definition e_p : R := (psi - 1) / (psi + 1).
  Definition e_beta : R := (1 - e_p) / m.
  Definition e_log (z : R) : R := ln (1 - e_p) - ln (1 - ncdf z).
  Definition e_next (z : R) : R := (if Rlt_dec e_p (ncdf z) then e_log z else 0) / e_beta.
  Lemma e_p_compl : 1 - e_p = 2 / (psi + 1). Proof. unfold e_p. field. lra. Qed.
  Lemma e_p_range : 0 < e_p < 1.
  Proof. split; [unfold e_p; apply Rdiv_lt_0_compat; lra|]. assert (0 < 1 - e_p) by (rewrite e_p_compl; apply Rdiv_lt_0_compat; lra). lra. Qed.
  Lemma e_beta_pos : 0 < e_beta. Proof. unfold e_beta. pose proof e_p_range. apply Rdiv_lt_0_compat; lra. Qed.
  Lemma tail_pos z : 0 < 1 - ncdf z < 1. Proof. pose proof (ncdf_lt_1 z). pose proof (ncdf_pos z). lra. Qed.
  Lemma e_log_nonneg z : e_p < ncdf z -> 0 <= e_log z.
  Proof. intros H. unfold e_log. pose proof (tail_pos z). assert (ln (1 - ncdf z) <= ln (1 - e_p)) by (apply Rlt_le, ln_increasing; lra). lra. Qed.
  Lemma e_nonneg z : 0 <= e_next z.
  Proof. unfold e_next. pose proof e_beta_pos. apply Rmult_le_pos; [|apply Rlt_le, Rinv_0_lt_compat; assumption]. destruct (Rlt_dec e_p (ncdf z)); [apply e_log_nonneg; assumption|lra]. Qed.
  Lemma tail_derive z : is_derive (fun z => 1 - ncdf z) z (- density z).
  Proof.
    assert (D := is_derive_minus (fun _ => 1) ncdf z _ _ (is_derive_const (K := R_AbsRing) (V := R_NormedModule) 1 z) (ncdf_derive z)).
    match type of D with is_derive _ _ ?x => replace (- density z) with x; [exact D|] end. unfold minus, plus, opp, zero. cbn. ring.
  Qed.
  Lemma e_log_derive z : is_derive e_log z (density z / (1 - ncdf z)).
  Proof.
    pose proof (tail_pos z) as T. assert (D := is_derive_comp ln (fun z => 1 - ncdf z) z (/ (1 - ncdf z)) (- density z) (is_derive_ln _ (proj1 T)) (tail_derive z)).
    assert (D2 := is_derive_minus (fun _ => ln (1 - e_p)) _ z _ _ (is_derive_const (K := R_AbsRing) (V := R_NormedModule) _ z) D).
    match type of D2 with is_derive _ _ ?x => replace (density z / (1 - ncdf z)) with x; [exact D2|] end. unfold minus, plus, opp, zero, scal. cbn. unfold mult. cbn. field. lra.
  Qed.
  Lemma e_log_cont z : continuous e_log z.
  Proof. apply (ex_derive_continuous (V := R_NormedModule)). eexists. apply e_log_derive. Qed.
  (** antiderivative of  q'(L) w - ...: for a polynomial with q = r - r', the
      derivative of - w r(L) is density * q(L) *)
  Lemma tail_prim (r r' : R -> R) z : (forall x, is_derive r x (r' x)) -> is_derive (fun z => - ((1 - ncdf z) * r (e_log z))) z ((r (e_log z) - r' (e_log z)) * density z).
  Proof.
    intros D. pose proof (tail_pos z) as T.
    assert (D1 := is_derive_comp r e_log z _ _ (D (e_log z)) (e_log_derive z)).
    assert (D2 := is_derive_mult _ _ z _ _ (tail_derive z) D1 Rmult_comm). assert (D3 := is_derive_opp _ z _ D2).
    match type of D3 with is_derive _ _ ?x => replace ((r (e_log z) - r' (e_log z)) * density z) with x; [exact D3|] end.
    unfold minus, plus, opp, zero, scal, mult. cbn. unfold mult. cbn. field. lra.
  Qed.
  Lemma tail_lim : is_lim (fun z => 1 - ncdf z) p_infty 0.
  Proof. apply (is_lim_minus (fun _ => 1) ncdf p_infty (Finite 1) (Finite 1) (Finite 0)); [apply is_lim_const|exact ncdf_lim_p|]. unfold is_Rbar_minus, is_Rbar_plus. cbn. do 2 f_equal. ring. Qed.
  Lemma root_lim : is_lim (fun z => sqrt (1 - ncdf z)) p_infty 0.
  Proof. rewrite <- sqrt_0. apply (is_lim_comp_continuous (fun z => 1 - ncdf z) sqrt p_infty 0); [apply tail_lim|apply continuous_sqrt]. Qed.
  (** w (1 + L + L^2) is at most a multiple of sqrt w *)
  Lemma log_bound w : 0 < w < 1 -> - ln w <= 4 / sqrt (sqrt w).
  Proof.
    intros W. assert (S1 : 0 < sqrt w) by (apply sqrt_lt_R0; lra). assert (S2 : 0 < sqrt (sqrt w)) by (apply sqrt_lt_R0; exact S1). set (q := sqrt (sqrt w)) in *.
    assert (E : w = q * q * (q * q)). { unfold q. rewrite sqrt_sqrt by lra. symmetry. apply sqrt_sqrt. lra. }
    assert (L : ln w = 4 * ln q). { rewrite E. rewrite (ln_mult (q * q) (q * q)) by nra. rewrite (ln_mult q q) by exact S2. ring. }
    rewrite L. assert (- ln q <= / q). { rewrite <- ln_Rinv by exact S2. pose proof (exp_ineq1_le (ln (/ q))) as X. rewrite exp_ln in X by (apply Rinv_0_lt_compat; exact S2). lra. }
    unfold Rdiv. lra.
  Qed.
  Lemma quad_bound w L : 0 < w < 1 -> 0 <= L <= - ln w -> 0 <= w * (L ^ 2 + 2 * L + 2) <= 26 * sqrt w.
  Proof.
    intros W [L0 L1]. pose proof (log_bound w W) as B. assert (S1 : 0 < sqrt w) by (apply sqrt_lt_R0; lra). assert (S2 : 0 < sqrt (sqrt w)) by (apply sqrt_lt_R0; exact S1).
    assert (S3 : sqrt w < 1) by (rewrite <- sqrt_1; apply sqrt_lt_1; lra). assert (S4 : sqrt (sqrt w) < 1) by (rewrite <- sqrt_1; apply sqrt_lt_1; lra).
    assert (E1 : sqrt (sqrt w) * sqrt (sqrt w) = sqrt w) by (apply sqrt_sqrt; lra). assert (E2 : sqrt w * sqrt w = w) by (apply sqrt_sqrt; lra).
    set (q := sqrt (sqrt w)) in *. set (s := sqrt w) in *. clearbody q s.
    assert (LQ : L * q <= 4). { apply Rle_trans with (4 / q * q); [apply Rmult_le_compat_r; lra|]. replace (4 / q * q) with 4 by (field; lra). lra. }
    split; [apply Rmult_le_pos; [lra|]; pose proof (pow2_ge_0 L); lra|].
    rewrite <- E2. replace (s * s * (L ^ 2 + 2 * L + 2)) with (s * (s * L ^ 2 + 2 * (s * L) + 2 * s)) by ring.
    assert (A1 : s * L ^ 2 <= 16). { rewrite <- E1. replace (q * q * L ^ 2) with ((L * q) * (L * q)) by ring. assert (0 <= L * q) by (apply Rmult_le_pos; lra). nra. }
    assert (A2 : s * L <= 4). { rewrite <- E1. replace (q * q * L) with (q * (L * q)) by ring. assert (0 <= L * q) by (apply Rmult_le_pos; lra). nra. }
    assert (s * (s * L ^ 2 + 2 * (s * L) + 2 * s) <= s * 26) by (apply Rmult_le_compat_l; lra). lra.
  Qed.
  Lemma quantile : exists c, ncdf c = e_p. Proof. apply ncdf_onto. apply e_p_range. Qed.
  Lemma e_log_le z : e_log z <= - ln (1 - ncdf z).
  Proof. unfold e_log. pose proof e_p_range. assert (ln (1 - e_p) <= 0) by (rewrite <- ln_1; apply Rlt_le, ln_increasing; lra). lra. Qed.
  Lemma prim_lim (r : R -> R) : (forall L, 0 <= L -> 0 <= r L <= L ^ 2 + 2 * L + 2) -> is_lim (fun z => - ((1 - ncdf z) * r (e_log z))) p_infty 0.
  Proof.
    intros B. apply opp_lim. destruct quantile as [c C].
    apply (is_lim_le_le_loc (fun _ => 0) (fun z => 26 * sqrt (1 - ncdf z))).
    - exists c. intros z Hz. apply ncdf_incr in Hz. rewrite C in Hz. pose proof (tail_pos z) as T. pose proof (e_log_nonneg z Hz) as L0. pose proof (e_log_le z) as L1.
      pose proof (quad_bound _ _ T (conj L0 L1)) as Q. destruct (B _ L0) as [B0 B1]. split; [apply Rmult_le_pos; lra|].
      apply Rle_trans with ((1 - ncdf z) * (e_log z ^ 2 + 2 * e_log z + 2)); [apply Rmult_le_compat_l; lra|apply Q].
    - apply is_lim_const.
    - apply zero_scal_lim. apply root_lim.
  Qed.
  Lemma e_at_quantile c : ncdf c = e_p -> e_log c = 0. Proof. intros E. unfold e_log. rewrite E. ring. Qed.
  Lemma e_moment (q r r' : R -> R) : (forall x, is_derive r x (r' x)) -> (forall x, q x = r x - r' x) -> (forall x, continuous q x) ->
    (forall L, 0 <= L -> 0 <= r L <= L ^ 2 + 2 * L + 2) -> expectation (fun z => if Rlt_dec e_p (ncdf z) then q (e_log z) else 0) ((1 - e_p) * r 0).
  Proof.
    intros D Q C B. destruct quantile as [c E]. unfold expectation.
    apply (half_up _ (fun z => q (e_log z) * density z) (fun z => - ((1 - ncdf z) * r (e_log z))) c 0).
    - intros z Hz. apply ncdf_incr in Hz. rewrite E in Hz. destruct (Rlt_dec e_p (ncdf z)); [lra|]. apply Rmult_0_l.
    - intros z Hz. apply ncdf_incr in Hz. rewrite E in Hz. destruct (Rlt_dec e_p (ncdf z)); [reflexivity|lra].
    - intros z. rewrite Q. apply tail_prim. exact D.
    - intros z. apply (continuous_mult (fun z => q (e_log z)) density); [|apply density_cont]. apply (continuous_comp e_log q); [apply e_log_cont|apply C].
    - apply prim_lim. exact B.
    - rewrite (e_at_quantile c E), E. ring.
  Qed.
  Lemma e_mean : expectation e_next m.
  Proof.
    pose proof e_beta_pos as Bp. pose proof e_p_range as Pr.
    apply (expectation_ext (fun z => / e_beta * (if Rlt_dec e_p (ncdf z) then e_log z else 0))); [intros; unfold e_next; field; lra|].
    eapply (expectation_scal _ (/ e_beta)).
    - apply (e_moment (fun x => x) (fun x => x + 1) (fun _ => 1)).
      + intros x. auto_derive; [exact Logic.I|ring].
      + intros x. ring.
      + intros x. apply continuous_id.
      + intros L HL. pose proof (pow2_ge_0 L). lra.
    - unfold e_beta. field. lra.
  Qed.
  Lemma e_second : expectation (fun z => e_next z ^ 2) (m ^ 2 * (1 + psi)).
  Proof.
    pose proof e_beta_pos as Bp. pose proof e_p_range as Pr.
    apply (expectation_ext (fun z => (/ e_beta) ^ 2 * (if Rlt_dec e_p (ncdf z) then e_log z ^ 2 else 0))).
    { intros z. unfold e_next. destruct (Rlt_dec e_p (ncdf z)); field; lra. }
    eapply (expectation_scal _ ((/ e_beta) ^ 2)).
    - apply (e_moment (fun x => x ^ 2) (fun x => x ^ 2 + 2 * x + 2) (fun x => 2 * x + 2)).
      + intros x. auto_derive; [exact Logic.I|ring].
      + intros x. ring.
      + intros x. apply (ex_derive_continuous (V := R_NormedModule)). auto_derive. exact Logic.I.
      + intros L HL. pose proof (pow2_ge_0 L). lra.
    - unfold e_beta. rewrite e_p_compl. field. lra.
  Qed.
End Exponential.
