(** Expectations of functions of a standard normal variable: existence, shifts,
    and the law of a sum of independent normal variables for call payoffs. *)
From Coquelicot Require Import Coquelicot.
From Coq Require Import Reals List Bool Arith Lia Lra.
From Verif Require Import BlackScholesModel BlackScholesSpec RIntAux GaussianAux NormalProofs BlackScholesProofs.
Open Scope R_scope.

Lemma density_le1 z : density z <= 1.
Proof.
  unfold density. assert (H : 1 <= sqrt (2 * PI)) by (rewrite <- sqrt_1; apply sqrt_le_1; pose proof PI2_3_2; unfold PI2 in *; pose proof PI_RGT_0; lra).
  assert (E : exp (- (z ^ 2 / 2)) <= 1). { rewrite <- exp_0. pose proof (pow2_ge_0 z). destruct (Rle_lt_or_eq_dec (- (z ^ 2 / 2)) 0 ltac:(lra)) as [L|L]; [left; apply exp_increasing; exact L|rewrite L; lra]. }
  apply (Rmult_le_reg_r (sqrt (2 * PI))); [lra|]. unfold Rdiv. rewrite Rmult_assoc, Rinv_l by lra. lra.
Qed.
Lemma density_cont z : continuous density z.
Proof. apply (ex_derive_continuous (V := R_NormedModule)). eexists. apply density_derive. Qed.
(** An antiderivative with limits at both ends. *)
Lemma whole (g A : R -> R) (lp lm : R) : (forall z, is_derive A z (g z)) -> (forall z, continuous g z) -> is_lim A p_infty lp -> is_lim A m_infty lm ->
  is_RInt_gen (V := R_NormedModule) g (Rbar_locally m_infty) (Rbar_locally p_infty) (lp - lm).
Proof.
  intros D C LP LM P [eps HP].
  assert (E2 : 0 < eps / 2) by (destruct eps; cbn; lra).
  destruct (lim_eventually A p_infty lp (mkposreal _ E2) LP) as [N HN]. destruct (lim_eventually A m_infty lm (mkposreal _ E2) LM) as [M HM].
  apply (Filter_prod _ _ _ (fun a => a < M) (fun b => N < b)).
  - exists M. auto.
  - exists N. auto.
  - intros a b Ha Hb. exists (A b - A a). split.
    + apply (is_RInt_derive (V := R_CompleteNormedModule)); intros; auto.
    + apply HP. change (Rabs (minus (A b - A a) (lp - lm)) < eps). unfold minus, plus, opp; cbn.
      specialize (HN b Hb). specialize (HM a Ha). cbn in HN, HM. replace (A b - A a + - (lp - lm)) with ((A b - lp) - (A a - lm)) by ring.
      unfold Rminus at 1. eapply Rle_lt_trans; [apply Rabs_triang|]. rewrite Rabs_Ropp. lra.
Qed.
(** Bounded continuous functions have an expectation. *)
Lemma expect_exists (f : R -> R) C : (forall z, continuous f z) -> (forall z, Rabs (f z) <= C) -> exists m, expectation f m.
Proof.
  intros CT B. assert (C0 : 0 <= C) by (eapply Rle_trans; [apply Rabs_pos|apply (B 0)]).
  set (g := (fun z => f z * density z) : R -> R). assert (CG : forall z, continuous g z) by (intros z; apply (continuous_mult f density); [apply CT|apply density_cont]).
  assert (EX : forall a b, ex_RInt g a b) by (intros a b; apply (ex_RInt_continuous (V := R_CompleteNormedModule)); intros; apply CG).
  set (A := (fun x => RInt g 0 x) : R -> R).
  assert (DA : forall z, is_derive A z (g z)).
  { intros z. unfold A. apply (is_derive_RInt g (fun x => RInt g 0 x) 0 z); [|apply CG]. exists (mkposreal 1 Rlt_0_1). intros y _. apply (RInt_correct (V := R_CompleteNormedModule) g 0 y). apply EX. }
  assert (BND : forall a b, a <= b -> Rabs (A b - A a) <= C * (ncdf b - ncdf a)).
  { intros a b L. assert (E : A b - A a = RInt g a b).
    { unfold A. assert (X : RInt g 0 a + RInt g a b = RInt g 0 b) by exact (RInt_Chasles g 0 a b (EX 0 a) (EX a b)). rewrite <- X. ring. }
    rewrite E. eapply Rle_trans.
    - apply (abs_RInt_le g a b L (EX a b)).
    - assert (X : RInt (fun z => C * density z) a b = C * (ncdf b - ncdf a)).
      { apply is_RInt_unique. eapply isi_scal; [|reflexivity]. apply (is_RInt_derive (V := R_CompleteNormedModule)); intros; [apply ncdf_derive|apply density_cont]. }
      rewrite <- X. apply RInt_le; [exact L| | |].
      + apply (ex_RInt_continuous (V := R_CompleteNormedModule)). intros z _. apply (continuous_comp g Rabs); [apply CG|apply continuous_Rabs].
      + apply (ex_RInt_continuous (V := R_CompleteNormedModule)). intros z _. apply (continuous_mult (fun _ => C) density); [apply continuous_const|apply density_cont].
      + intros z _. unfold g. rewrite Rabs_mult, (Rabs_pos_eq (density z)) by (left; apply density_pos). apply Rmult_le_compat_r; [left; apply density_pos|apply B]. }
  assert (CAUCHY : forall p l, p = p_infty \/ p = m_infty -> is_lim ncdf p l -> exists m : R, is_lim A p m).
  { intros p l P L. destruct l as [l| |].
    - assert (F : exists y, filterlim A (Rbar_locally' p) (locally y)).
      { apply (filterlim_locally_cauchy (F := Rbar_locally' p) (U := R_CompleteSpace) A). intros eps.
        assert (E2 : 0 < eps / (2 * (C + 1))) by (destruct eps; cbn; apply Rdiv_lt_0_compat; lra).
        exists (fun x => Rabs (ncdf x - l) < mkposreal _ E2). split; [apply (lim_eventually ncdf p l); exact L|]. intros u v U V. cbn in U, V.
        change (Rabs (A v - A u) < eps).
        assert (NB : Rabs (ncdf v - ncdf u) < eps / (C + 1)).
        { replace (ncdf v - ncdf u) with ((ncdf v - l) - (ncdf u - l)) by ring. unfold Rminus at 1. eapply Rle_lt_trans; [apply Rabs_triang|]. rewrite Rabs_Ropp.
          replace (eps / (C + 1)) with (eps / (2 * (C + 1)) + eps / (2 * (C + 1))) by (field; lra). lra. }
        assert (AB : Rabs (A v - A u) <= C * Rabs (ncdf v - ncdf u)).
        { destruct (Rle_lt_dec u v) as [UV|UV].
          - rewrite (Rabs_pos_eq (ncdf v - ncdf u)); [apply BND; exact UV|]. destruct (Rle_lt_or_eq_dec u v UV) as [Q|Q]; [pose proof (ncdf_incr u v Q); lra|rewrite Q; lra].
          - rewrite <- Rabs_Ropp. replace (- (A v - A u)) with (A u - A v) by ring. rewrite (Rabs_left (ncdf v - ncdf u)) by (pose proof (ncdf_incr v u UV); lra). replace (- (ncdf v - ncdf u)) with (ncdf u - ncdf v) by ring. apply BND. lra. }
        pose proof (Rabs_pos (ncdf v - ncdf u)). assert (X : (C + 1) * Rabs (ncdf v - ncdf u) < (C + 1) * (eps / (C + 1))) by (apply Rmult_lt_compat_l; lra).
        replace ((C + 1) * (eps / (C + 1))) with (eps : R) in X by (field; lra). lra. }
      destruct F as [y Y]. exists y. exact Y.
    - exfalso. apply is_lim_spec in L. specialize (L 1). destruct P as [-> | ->]; destruct L as [M HM]; [specialize (HM (M + 1) ltac:(lra))|specialize (HM (M - 1) ltac:(lra))]; cbn in HM.
      + pose proof (ncdf_lt_1 (M + 1)). lra.
      + pose proof (ncdf_lt_1 (M - 1)). lra.
    - exfalso. apply is_lim_spec in L. specialize (L 0). destruct P as [-> | ->]; destruct L as [M HM]; [specialize (HM (M + 1) ltac:(lra))|specialize (HM (M - 1) ltac:(lra))]; cbn in HM.
      + pose proof (ncdf_pos (M + 1)). lra.
      + pose proof (ncdf_pos (M - 1)). lra. }
  destruct (CAUCHY p_infty 1 (or_introl eq_refl) ncdf_lim_p) as [lp LP]. destruct (CAUCHY m_infty 0 (or_intror eq_refl) ncdf_lim_m) as [lm LM].
  exists (lp - lm). exact (whole g A lp lm DA CG LP LM).
Qed.
Lemma expect_const c : expectation (fun _ => c) c.
Proof.
  assert (W : expectation (fun _ => c) (c * 1 - c * 0)).
  { unfold expectation. apply (whole (fun z => c * density z) (fun z => c * ncdf z)).
    - intros z. apply is_derive_scal. apply ncdf_derive.
    - intros z. apply (continuous_mult (fun _ => c) density); [apply continuous_const|apply density_cont].
    - apply (is_lim_scal_l ncdf c p_infty 1 ncdf_lim_p).
    - apply (is_lim_scal_l ncdf c m_infty 0 ncdf_lim_m). }
  replace (c * 1 - c * 0) with c in W by ring. exact W.
Qed.
Lemma expect_bound f m C : (forall z, Rabs (f z) <= C) -> expectation f m -> Rabs m <= C.
Proof.
  intros B E. apply Rabs_le. split.
  - apply (expectation_le (fun _ => - C) f); [|apply expect_const|exact E]. intros z. pose proof (B z) as H. pose proof (Rle_abs (- f z)) as L. rewrite Rabs_Ropp in L. lra.
  - apply (expectation_le f (fun _ => C)); [|exact E|apply expect_const]. intros z. pose proof (B z). pose proof (Rle_abs (f z)). lra.
Qed.
(** Change of variables. *)
Lemma gen_shift (g : R -> R) s m : is_RInt_gen (V := R_NormedModule) g (Rbar_locally m_infty) (Rbar_locally p_infty) m ->
  is_RInt_gen (V := R_NormedModule) (fun z => g (z + s)) (Rbar_locally m_infty) (Rbar_locally p_infty) m.
Proof.
  intros H P HP. specialize (H P HP). destruct H as [Q S [M HQ] [N HS] HI]. apply (Filter_prod _ _ _ (fun a => a < M - s) (fun b => N - s < b)).
  - exists (M - s). auto.
  - exists (N - s). auto.
  - intros a b Ha Hb. destruct (HI (a + s) (b + s)) as (y & Y1 & Y2); [apply HQ; lra|apply HS; lra|]. exists y. split; [|exact Y2]. cbn [fst snd] in *.
    assert (X : is_RInt (fun z => scal 1 (g (1 * z + s))) a b y) by (apply (is_RInt_comp_lin g 1 s a b); rewrite !Rmult_1_l; exact Y1).
    apply (isi_ext _ _ _ _ _ (fun z _ => eq_trans (Rmult_1_l _) (f_equal g (f_equal (fun t => t + s) (Rmult_1_l z)))) X).
Qed.
Lemma neg_neg (y : R) : y = - (-1 * y).
Proof. ring. Qed.
Lemma gen_opp (g : R -> R) m : is_RInt_gen (V := R_NormedModule) g (Rbar_locally m_infty) (Rbar_locally p_infty) m ->
  is_RInt_gen (V := R_NormedModule) (fun z => g (- z)) (Rbar_locally m_infty) (Rbar_locally p_infty) m.
Proof.
  intros H P HP. specialize (H P HP). destruct H as [Q S [M HQ] [N HS] HI]. apply (Filter_prod _ _ _ (fun a => a < - N) (fun b => - M < b)).
  - exists (- N). auto.
  - exists (- M). auto.
  - intros a b Ha Hb. destruct (HI (- b) (- a)) as (y & Y1 & Y2); [apply HQ; lra|apply HS; lra|]. exists y. split; [|exact Y2]. cbn [fst snd] in *.
    assert (X : is_RInt (fun z => scal (-1) (g (-1 * z + 0))) b a y) by (apply (is_RInt_comp_lin g (-1) 0 b a); replace (-1 * b + 0) with (- b) by ring; replace (-1 * a + 0) with (- a) by ring; exact Y1).
    assert (X2 : is_RInt (fun z => -1 * g (- z)) b a y). { apply (isi_ext (fun z => scal (-1) (g (-1 * z + 0)))); [|exact X]. intros z _. replace (-1 * z + 0) with (- z) by ring. reflexivity. }
    assert (X3 := isi_scal _ _ _ (-1) _ _ X2 eq_refl). apply (isi_swap _ a b (-1 * y)); [|apply neg_neg]. assert (EQ : forall z : R, -1 * (-1 * g (- z)) = g (- z)) by (intros; ring). apply (isi_ext (fun z => -1 * (-1 * g (- z)))); [intros z _; apply EQ|exact X3].
Qed.
Lemma gen_ext (f g : R -> R) m : (forall z, f z = g z) -> is_RInt_gen (V := R_NormedModule) f (Rbar_locally m_infty) (Rbar_locally p_infty) m ->
  is_RInt_gen (V := R_NormedModule) g (Rbar_locally m_infty) (Rbar_locally p_infty) m.
Proof.
  intros E. apply is_RInt_gen_ext. apply (Filter_prod _ _ _ (fun _ => True) (fun _ => True)); [exists 0; auto|exists 0; auto|]. intros a b _ _ z _. apply E.
Qed.
Lemma expect_opp f m : expectation f m -> expectation (fun z => f (- z)) m.
Proof. intros E. unfold expectation in *. apply (gen_ext (fun z => f (- z) * density (- z))); [intros z; rewrite density_even; reflexivity|]. apply (gen_opp (fun z => f z * density z)). exact E. Qed.
(** Girsanov: an exponential weight shifts the variable. *)
Lemma expect_shift f s m : expectation (fun z => f (z + s)) m -> expectation (fun z => exp (s * z - s ^ 2 / 2) * f z) m.
Proof.
  intros E. unfold expectation in *. apply (gen_shift _ (- s)) in E. revert E. apply gen_ext. intros z. cbn beta. replace (z + - s + s) with z by ring.
  replace (z + - s) with (z - s) by ring. rewrite <- density_shift. ring.
Qed.

Section Conv.
  Variable beta : R.
  Let r := sqrt (1 + beta ^ 2).
  Lemma r_sq : r * r = 1 + beta ^ 2. Proof. apply sqrt_sqrt. pose proof (pow2_ge_0 beta). lra. Qed.
  Lemma r_pos : 0 < r. Proof. apply sqrt_lt_R0. pose proof (pow2_ge_0 beta). lra. Qed.
  Lemma density_prod alpha z : density (alpha + beta * z) * density z = density (alpha / r) * density (r * z + alpha * beta / r).
  Proof.
    unfold density. pose proof sqrt2pi_pos as P. pose proof r_pos as Q. pose proof r_sq as S.
    assert (E : exp (- ((alpha + beta * z) ^ 2 / 2)) * exp (- (z ^ 2 / 2)) = exp (- ((alpha / r) ^ 2 / 2)) * exp (- ((r * z + alpha * beta / r) ^ 2 / 2))).
    { rewrite <- !exp_plus. f_equal. apply (Rmult_eq_reg_r 2); [|lra].
      replace ((- ((alpha / r) ^ 2 / 2) + - ((r * z + alpha * beta / r) ^ 2 / 2)) * 2) with (- (r * r * z ^ 2 + 2 * z * alpha * beta + alpha ^ 2 * (1 + beta ^ 2) / (r * r))) by (field; lra).
      rewrite S. pose proof (pow2_ge_0 beta). field. lra. }
    transitivity (exp (- ((alpha + beta * z) ^ 2 / 2)) * exp (- (z ^ 2 / 2)) / (sqrt (2 * PI) * sqrt (2 * PI))); [field; lra|]. rewrite E. field. lra.
  Qed.
  Lemma expect_density alpha : expectation (fun z => density (alpha + beta * z)) (density (alpha / r) / r).
  Proof.
    pose proof r_pos as Q. unfold expectation.
    apply (gen_ext (fun z => density (alpha / r) * density (r * z + alpha * beta / r))); [intros z; symmetry; apply density_prod|].
    set (A := fun z => density (alpha / r) / r * ncdf (r * z + alpha * beta / r)).
    set (v := density (alpha / r) / r). replace v with (v * 1 - v * 0) by ring.
    assert (LIN : forall z, is_derive (fun z => r * z + alpha * beta / r) z r) by (intros z; auto_derive; [exact I|ring]).
    apply (whole _ A).
    - intros z. unfold A. assert (C1 := is_derive_comp (V := R_NormedModule) ncdf (fun z => r * z + alpha * beta / r) z _ _ (ncdf_derive _) (LIN z)).
      apply (is_derive_scal _ _ (density (alpha / r) / r)) in C1. match type of C1 with is_derive _ _ ?d => replace (density (alpha / r) * density (r * z + alpha * beta / r)) with d; [exact C1|] end.
      unfold scal. cbn. unfold mult. cbn. field. lra.
    - intros z. apply (continuous_mult (fun _ => density (alpha / r))); [apply continuous_const|]. apply (continuous_comp (fun z => r * z + alpha * beta / r) density); [|apply density_cont].
      apply (ex_derive_continuous (V := R_NormedModule)). eexists. apply LIN.
    - apply (is_lim_scal_l (fun z => ncdf (r * z + alpha * beta / r)) v p_infty 1).
      apply (is_lim_comp ncdf (fun z => r * z + alpha * beta / r) p_infty 1 p_infty ncdf_lim_p); [|exists 0; intros; discriminate].
      apply is_lim_spec. intros M. exists ((M - alpha * beta / r) / r). intros x X. cbn. apply (Rmult_lt_compat_l r) in X; [|exact Q]. replace (r * ((M - alpha * beta / r) / r)) with (M - alpha * beta / r) in X by (field; lra). lra.
    - apply (is_lim_scal_l (fun z => ncdf (r * z + alpha * beta / r)) v m_infty 0).
      apply (is_lim_comp ncdf (fun z => r * z + alpha * beta / r) m_infty 0 m_infty ncdf_lim_m); [|exists 0; intros; discriminate].
      apply is_lim_spec. intros M. exists ((M - alpha * beta / r) / r). intros x X. cbn. apply (Rmult_lt_compat_l r) in X; [|exact Q]. replace (r * ((M - alpha * beta / r) / r)) with (M - alpha * beta / r) in X by (field; lra). lra.
  Qed.
End Conv.

(** ** The normal distribution function of a normal variable *)
Lemma density_lipschitz x y : Rabs (density x - density y) <= Rabs (x - y).
Proof.
  assert (B : forall z, Rabs (- z * density z) <= 1).
  { intros z. rewrite Rabs_mult, Rabs_Ropp, (Rabs_pos_eq (density z)) by (left; apply density_pos). unfold density.
    assert (H : 1 <= sqrt (2 * PI)) by (rewrite <- sqrt_1; apply sqrt_le_1; pose proof PI2_3_2; unfold PI2 in *; pose proof PI_RGT_0; lra).
    assert (E : Rabs z <= exp (z ^ 2 / 2)).
    { assert (X : 1 + z ^ 2 / 2 <= exp (z ^ 2 / 2)). { destruct (Req_dec z 0) as [->|N]; [replace (0 ^ 2 / 2) with 0 by field; rewrite exp_0; lra|]. left. apply exp_ineq1. assert (0 < z ^ 2) by (apply pow2_gt_0; exact N). lra. }
      pose proof (pow2_ge_0 (Rabs z - 1)) as Q. replace ((Rabs z - 1) ^ 2) with (Rabs z ^ 2 - 2 * Rabs z + 1) in Q by ring. rewrite pow2_abs in Q. lra. }
    assert (P := exp_pos (z ^ 2 / 2)). rewrite exp_Ropp. apply (Rmult_le_reg_r (exp (z ^ 2 / 2) * sqrt (2 * PI))); [nra|].
    replace (Rabs z * (/ exp (z ^ 2 / 2) / sqrt (2 * PI)) * (exp (z ^ 2 / 2) * sqrt (2 * PI))) with (Rabs z) by (field; lra). nra. }
  destruct (MVT_gen density y x (fun z => - z * density z)) as (c & _ & E).
  - intros z _. apply density_derive.
  - intros z _. apply continuity_pt_filterlim. apply density_cont.
  - rewrite E, Rabs_mult. pose proof (B c). pose proof (Rabs_pos (x - y)). nra.
Qed.
Lemma ncdf_taylor x h : Rabs (ncdf (x + h) - ncdf x - h * density x) <= h ^ 2.
Proof.
  destruct (MVT_gen ncdf x (x + h) density) as (c & C & E).
  - intros z _. apply ncdf_derive.
  - intros z _. apply continuity_pt_filterlim. apply (ex_derive_continuous (V := R_NormedModule)). eexists. apply ncdf_derive.
  - rewrite E. replace (density c * (x + h - x) - h * density x) with (h * (density c - density x)) by ring. rewrite Rabs_mult. pose proof (density_lipschitz c x) as L.
    assert (A : Rabs (c - x) <= Rabs h).
    { unfold Rmin, Rmax in C. destruct (Rle_dec x (x + h)) as [Q|Q]; [rewrite (Rabs_pos_eq (c - x)), (Rabs_pos_eq h) by lra; lra|rewrite (Rabs_left1 (c - x)), (Rabs_left1 h) by lra; lra]. }
    rewrite <- (pow2_abs h). pose proof (Rabs_pos h). nra.
Qed.
Lemma derive_of_quadratic (f : R -> R) x l : (forall h, Rabs (f (x + h) - f x - h * l) <= h ^ 2) -> is_derive f x l.
Proof.
  intros H. apply is_derive_Reals. intros eps E. exists (mkposreal eps E). intros h N L. cbn in L.
  replace ((f (x + h) - f x) / h - l) with ((f (x + h) - f x - h * l) / h) by (field; exact N). unfold Rdiv. rewrite Rabs_mult, Rabs_inv.
  assert (P := Rabs_pos_lt h N). apply (Rmult_lt_reg_r (Rabs h)); [exact P|]. rewrite Rmult_assoc, Rinv_l by lra. specialize (H h). rewrite <- (pow2_abs h) in H. nra.
Qed.
Definition gen_mean (f : R -> R) : R := RInt_gen (V := R_CompleteNormedModule) (fun z => f z * density z) (Rbar_locally m_infty) (Rbar_locally p_infty).
Lemma gen_mean_ok f m : expectation f m -> expectation f (gen_mean f).
Proof. intros M. assert (Q : gen_mean f = m) by exact (is_RInt_gen_unique (V := R_CompleteNormedModule) (fun z => f z * density z) m M). rewrite Q. exact M. Qed.
Lemma expect_ncdf alpha beta : expectation (fun z => ncdf (alpha + beta * z)) (ncdf (alpha / sqrt (1 + beta ^ 2))).
Proof.
  assert (EX : forall a, exists m, expectation (fun z => ncdf (a + beta * z)) m).
  { intros a. apply (expect_exists _ 1).
    - intros z. apply (continuous_comp (fun z => a + beta * z) ncdf).
      + apply (ex_derive_continuous (V := R_NormedModule) (fun z : R => a + beta * z)). exists beta. auto_derive; [exact I|ring].
      + apply (ex_derive_continuous (V := R_NormedModule)). eexists. apply ncdf_derive.
    - intros z. rewrite Rabs_pos_eq; [left; apply ncdf_lt_1|left; apply ncdf_pos]. }
  set (G := fun a => gen_mean (fun z => ncdf (a + beta * z))).
  assert (GE : forall a, expectation (fun z => ncdf (a + beta * z)) (G a)) by (intros a; destruct (EX a) as [m M]; exact (gen_mean_ok _ m M)).
  clearbody G.
  set (r := sqrt (1 + beta ^ 2)) in *. assert (RP := r_pos beta). fold r in RP.
  assert (DG : forall a, is_derive G a (density (a / r) / r)).
  { intros a. apply derive_of_quadratic. intros h.
    apply (expect_bound (fun z => ncdf ((a + beta * z) + h) - ncdf (a + beta * z) - h * density (a + beta * z))); [intros z; apply ncdf_taylor|].
    apply (expectation_ext (fun z => (ncdf (a + h + beta * z) + -1 * ncdf (a + beta * z)) + - h * density (a + beta * z))); [intros z; replace (a + beta * z + h) with (a + h + beta * z) by ring; ring|].
    eapply (expectation_plus (fun z => ncdf (a + h + beta * z) + -1 * ncdf (a + beta * z))).
    - eapply expectation_plus; [apply GE|eapply expectation_scal; [apply GE|reflexivity]|reflexivity].
    - eapply expectation_scal; [apply expect_density|reflexivity].
    - fold r. ring. }
  assert (DN : forall a, is_derive (fun a => ncdf (a / r)) a (density (a / r) / r)).
  { intros a. assert (LIN : is_derive (fun a => a / r) a (/ r)) by (auto_derive; [lra|field; lra]).
    assert (C1 := is_derive_comp (V := R_NormedModule) ncdf (fun a => a / r) a _ _ (ncdf_derive _) LIN).
    match type of C1 with is_derive _ _ ?d => replace (density (a / r) / r) with d; [exact C1|] end. unfold scal. cbn. unfold mult. cbn. field. lra. }
  assert (K : G alpha - ncdf (alpha / r) = G 0 - ncdf (0 / r)).
  { apply (const_of_zero_derive (fun a => G a - ncdf (a / r))). intros a. assert (X := is_derive_minus _ _ _ _ _ (DG a) (DN a)). match type of X with is_derive _ _ ?d => replace 0 with d; [exact X|] end.
    unfold minus, plus, opp. cbn. ring. }
  assert (G0 : G 0 = 1 / 2).
  { assert (X : expectation (fun _ => 1) (G 0 + G 0)).
    { apply (expectation_ext (fun z => ncdf (0 + beta * z) + ncdf (0 + beta * - z))).
      - intros z. replace (0 + beta * - z) with (- (beta * z)) by ring. replace (0 + beta * z) with (beta * z) by ring. rewrite ncdf_symm. ring.
      - eapply expectation_plus; [apply GE|apply (expect_opp (fun z => ncdf (0 + beta * z))); apply GE|reflexivity]. }
    pose proof (expectation_unique _ _ _ X (expect_const 1)). lra. }
  replace (0 / r) with 0 in K by (field; lra). rewrite ncdf_0 in K. replace (ncdf (alpha / r)) with (G alpha) by lra. apply GE.
Qed.
Lemma expect_exp_ncdf a alpha beta : expectation (fun z => exp (a * z) * ncdf (alpha + beta * z)) (exp (a ^ 2 / 2) * ncdf ((alpha + beta * a) / sqrt (1 + beta ^ 2))).
Proof.
  assert (X : expectation (fun z => exp (a * z - a ^ 2 / 2) * ncdf (alpha + beta * z)) (ncdf ((alpha + beta * a) / sqrt (1 + beta ^ 2)))).
  { apply (expect_shift (fun z => ncdf (alpha + beta * z))). apply (expectation_ext (fun z => ncdf ((alpha + beta * a) + beta * z))); [intros z; f_equal; ring|apply expect_ncdf]. }
  apply (expectation_ext (fun z => exp (a ^ 2 / 2) * (exp (a * z - a ^ 2 / 2) * ncdf (alpha + beta * z)))).
  - intros z. rewrite <- Rmult_assoc, <- exp_plus. do 2 f_equal. ring.
  - eapply expectation_scal; [exact X|reflexivity].
Qed.
Lemma expect_exp a : expectation (fun z => exp (a * z)) (exp (a ^ 2 / 2)).
Proof.
  assert (X : expectation (fun z => exp (a * z - a ^ 2 / 2) * 1) 1) by (apply (expect_shift (fun _ => 1)); apply expect_const).
  apply (expectation_ext (fun z => exp (a ^ 2 / 2) * (exp (a * z - a ^ 2 / 2) * 1))).
  - intros z. rewrite Rmult_1_r, <- exp_plus. f_equal. ring.
  - eapply expectation_scal; [exact X|ring].
Qed.

(** ** Calls and puts on the exponential of a normal variable *)
Section Call.
  Variable K : R. Hypothesis KP : 0 < K.
  Definition log_call (x v : R) : R :=
    if Rlt_dec 0 v then exp (x + v ^ 2 / 2) * ncdf ((x - ln K) / v + v) - K * ncdf ((x - ln K) / v) else Rmax (exp x - K) 0.
  Lemma log_call_value x v : 0 < v -> expectation (fun z => Rmax (exp (x + v * z) - K) 0) (log_call x v).
  Proof.
    intros V. assert (AE : forall z, exp (x + v * z) = asset false (exp (x + v ^ 2 / 2)) v z) by (intros z; unfold asset; rewrite <- exp_plus; f_equal; ring).
    eapply (expect_up false (exp (x + v ^ 2 / 2)) v 1 (- K) ((ln K - x) / v)).
    - intros z L. apply Rmax_right. apply (Rmult_lt_compat_r v) in L; [|exact V]. replace ((ln K - x) / v * v) with (ln K - x) in L by (field; lra).
      assert (exp (x + v * z) < exp (ln K)) by (apply exp_increasing; lra). rewrite exp_ln in H by exact KP. lra.
    - intros z L. rewrite <- AE. rewrite Rmax_left; [ring|]. apply (Rmult_lt_compat_r v) in L; [|exact V]. replace ((ln K - x) / v * v) with (ln K - x) in L by (field; lra).
      assert (exp (ln K) < exp (x + v * z)) by (apply exp_increasing; lra). rewrite exp_ln in H by exact KP. lra.
    - unfold log_call. destruct (Rlt_dec 0 v) as [_|Q]; [|lra]. unfold prim.
      replace ((ln K - x) / v - v) with (- ((x - ln K) / v + v)) by (field; lra). replace ((ln K - x) / v) with (- ((x - ln K) / v)) by (field; lra). rewrite !ncdf_symm. ring.
  Qed.
  Lemma log_call_conv x a b : 0 <= a -> 0 <= b -> expectation (fun z => log_call (x + a * z) b) (log_call x (sqrt (a ^ 2 + b ^ 2))).
  Proof.
    intros [A| <-] [B| <-].
    - set (beta := a / b). set (q := sqrt (1 + beta ^ 2)). set (s := sqrt (a ^ 2 + b ^ 2)).
      assert (QP : 0 < q) by apply r_pos. assert (QQ : q * q = 1 + beta ^ 2) by apply r_sq.
      assert (SQ : s = b * q).
      { unfold s. replace (a ^ 2 + b ^ 2) with ((b * q) ^ 2); [rewrite sqrt_pow2; [reflexivity|nra]|]. replace ((b * q) ^ 2) with (b ^ 2 * (q * q)) by ring. rewrite QQ. unfold beta. field. lra. }
      assert (SP : 0 < s) by (rewrite SQ; apply Rmult_lt_0_compat; assumption). assert (SS : s ^ 2 = a ^ 2 + b ^ 2) by (unfold s; apply pow2_sqrt; nra).
      unfold log_call. destruct (Rlt_dec 0 b) as [_|N]; [|lra]. destruct (Rlt_dec 0 s) as [_|N]; [|lra].
      apply (expectation_ext (fun z => exp (x + b ^ 2 / 2) * (exp (a * z) * ncdf (((x - ln K) / b + b) + beta * z)) + - K * ncdf ((x - ln K) / b + beta * z))).
      + intros z. rewrite <- Rmult_assoc, <- exp_plus. replace (x + b ^ 2 / 2 + a * z) with (x + a * z + b ^ 2 / 2) by ring.
        replace ((x - ln K) / b + b + beta * z) with ((x + a * z - ln K) / b + b) by (unfold beta; field; lra). replace ((x - ln K) / b + beta * z) with ((x + a * z - ln K) / b) by (unfold beta; field; lra). ring.
      + eapply expectation_plus; [eapply expectation_scal; [apply expect_exp_ncdf|reflexivity]|eapply expectation_scal; [apply expect_ncdf|reflexivity]|].
        fold q. rewrite <- Rmult_assoc, <- exp_plus. rewrite SS. replace (x + b ^ 2 / 2 + a ^ 2 / 2) with (x + (a ^ 2 + b ^ 2) / 2) by field.
        replace (((x - ln K) / b + b + beta * a) / q) with ((x - ln K) / s + s).
        2:{ replace ((x - ln K) / s + s) with ((x - ln K + s ^ 2) / s) by (field; lra). rewrite SS, SQ. unfold beta. field. lra. }
        replace ((x - ln K) / b / q) with ((x - ln K) / s) by (rewrite SQ; field; lra). ring.
    - replace (a ^ 2 + 0 ^ 2) with (a ^ 2) by ring. rewrite sqrt_pow2 by lra. eapply expectation_ext; [|apply log_call_value; exact A].
      intros z. unfold log_call. destruct (Rlt_dec 0 0) as [N|_]; [lra|reflexivity].
    - replace (0 ^ 2 + b ^ 2) with (b ^ 2) by ring. rewrite sqrt_pow2 by lra. eapply expectation_ext; [|apply expect_const]. intros z. cbn beta. f_equal. ring.
    - replace (0 ^ 2 + 0 ^ 2) with 0 by ring. rewrite sqrt_0. eapply expectation_ext; [|apply expect_const]. intros z. cbn beta. f_equal. ring.
  Qed.
  Definition log_value (call : bool) (x v : R) : R := if call then log_call x v else log_call x v + (K - exp (x + v ^ 2 / 2)).
  Lemma log_value_at call x : log_value call x 0 = vanilla call K (exp x).
  Proof.
    unfold log_value, log_call, vanilla. destruct (Rlt_dec 0 0) as [N|_]; [lra|]. destruct call; [reflexivity|]. replace (x + 0 ^ 2 / 2) with x by field.
    unfold Rmax. destruct (Rle_dec (exp x - K) 0), (Rle_dec (K - exp x) 0); lra.
  Qed.
  Lemma put_from_call u : Rmax (K - u) 0 = Rmax (u - K) 0 + (K - u).
  Proof. unfold Rmax. destruct (Rle_dec (u - K) 0), (Rle_dec (K - u) 0); lra. Qed.
  Lemma expect_forward x a c : expectation (fun z => K - exp (x + a * z + c)) (K - exp (x + a ^ 2 / 2 + c)).
  Proof.
    apply (expectation_ext (fun z => K + - exp (x + c) * exp (a * z))).
    - intros z. replace (x + a * z + c) with ((x + c) + a * z) by ring. rewrite (exp_plus (x + c) (a * z)). ring.
    - eapply expectation_plus; [apply expect_const|eapply expectation_scal; [apply expect_exp|reflexivity]|]. replace (x + a ^ 2 / 2 + c) with ((x + c) + a ^ 2 / 2) by ring. rewrite (exp_plus (x + c) (a ^ 2 / 2)). ring.
  Qed.
  Lemma log_value_spec call x v : 0 < v -> expectation (fun z => vanilla call K (exp (x + v * z))) (log_value call x v).
  Proof.
    intros V. destruct call; cbn [log_value vanilla]; [apply log_call_value; exact V|].
    apply (expectation_ext (fun z => Rmax (exp (x + v * z) - K) 0 + (K - exp (x + v * z + 0)))); [intros z; rewrite Rplus_0_r; symmetry; apply put_from_call|].
    eapply expectation_plus; [apply log_call_value; exact V|apply expect_forward|]. rewrite Rplus_0_r. reflexivity.
  Qed.
  Lemma log_value_conv call x a b : 0 <= a -> 0 <= b -> expectation (fun z => log_value call (x + a * z) b) (log_value call x (sqrt (a ^ 2 + b ^ 2))).
  Proof.
    intros A B. destruct call; cbn [log_value]; [apply log_call_conv; assumption|].
    eapply expectation_plus; [apply log_call_conv; assumption|apply expect_forward|]. rewrite pow2_sqrt by nra. do 3 f_equal. field.
  Qed.
End Call.
