(** Lemmas about the normal distribution function and expectations. *)
From Coquelicot Require Import Coquelicot.
From Coq Require Import Reals Lra Lia Bool.
From Verif Require Import RIntAux GaussianAux BlackScholesModel BlackScholesSpec.
Open Scope R_scope.

Lemma sqrt2_pos : 0 < sqrt 2. Proof. apply sqrt_lt_R0; lra. Qed.
Lemma sqrt2_sq : sqrt 2 * sqrt 2 = 2. Proof. apply sqrt_sqrt; lra. Qed.
Lemma sqrt2pi : sqrt (2 * PI) = sqrt 2 * sqrt PI.
Proof. apply sqrt_mult; [lra|left; apply PI_RGT_0]. Qed.
Lemma sqrt2pi_pos : 0 < sqrt (2 * PI).
Proof. rewrite sqrt2pi. apply Rmult_lt_0_compat; [apply sqrt2_pos|apply sqrt_pi_pos]. Qed.
Lemma density_pos z : 0 < density z.
Proof. apply Rdiv_lt_0_compat; [apply exp_pos|apply sqrt2pi_pos]. Qed.
Lemma density_even z : density (- z) = density z.
Proof. unfold density. replace ((- z) ^ 2) with (z ^ 2) by ring. reflexivity. Qed.

Lemma ncdf_gint x : ncdf x = 1 / 2 + gint (x / sqrt 2) / sqrt PI.
Proof. unfold ncdf, erf, gint, gauss. assert (A := sqrt_pi_pos). field. lra. Qed.
Lemma ncdf_derive x : is_derive ncdf x (density x).
Proof.
  apply (is_derive_ext (fun x => 1 / 2 + gint (x / sqrt 2) / sqrt PI)). { intros; symmetry; apply ncdf_gint. }
  assert (A := sqrt_pi_pos). assert (B := sqrt2_pos). assert (C := sqrt2_sq).
  assert (D := G_derive (x / sqrt 2)).
  assert (E : is_derive (fun x => gint (x / sqrt 2)) x (/ sqrt 2 * gauss (x / sqrt 2))).
  { apply (is_derive_comp (V := R_NormedModule) gint (fun x => x / sqrt 2)); [exact D|]. auto_derive; [exact I|]. field. lra. }
  assert (F : is_derive (fun x => 1 / 2 + / sqrt PI * gint (x / sqrt 2)) x (0 + / sqrt PI * (/ sqrt 2 * gauss (x / sqrt 2)))).
  { apply (is_derive_plus (V := R_NormedModule) (fun _ => 1 / 2)); [apply (is_derive_const (V := R_NormedModule))|].
    apply (is_derive_scal (fun x => gint (x / sqrt 2))). exact E. }
  replace (density x) with (0 + / sqrt PI * (/ sqrt 2 * gauss (x / sqrt 2))).
  - apply (is_derive_ext (fun x => 1 / 2 + / sqrt PI * gint (x / sqrt 2))); [|exact F]. intros t. change (1 / 2 + / sqrt PI * gint (t / sqrt 2) = 1 / 2 + gint (t / sqrt 2) / sqrt PI). unfold Rdiv. ring.
  - unfold density, gauss. rewrite sqrt2pi. replace ((x / sqrt 2) ^ 2) with (x ^ 2 / 2).
    + field. lra.
    + rewrite <- C at 1. field. lra.
Qed.
Lemma ncdf_cont x : continuous ncdf x.
Proof. apply (ex_derive_continuous (V := R_NormedModule)). eexists. apply ncdf_derive. Qed.
Lemma density_derive z : is_derive density z (- z * density z).
Proof. unfold density. assert (A := sqrt2pi_pos). auto_derive; [lra|]. replace (- (z * (z * 1) * / 2)) with (- (z ^ 2 / 2)) by (unfold Rdiv; ring). field. lra. Qed.
Lemma ncdf_symm x : ncdf (- x) = 1 - ncdf x.
Proof. rewrite !ncdf_gint. replace (- x / sqrt 2) with (- (x / sqrt 2)) by (unfold Rdiv; ring). rewrite G_odd. unfold Rdiv. ring_simplify. lra. Qed.
Lemma ncdf_0 : ncdf 0 = 1 / 2.
Proof. assert (A := ncdf_symm 0). rewrite Ropp_0 in A. lra. Qed.
Lemma ncdf_lt_1 x : ncdf x < 1.
Proof.
  rewrite ncdf_gint. assert (A := G_bound (x / sqrt 2)). assert (B := sqrt_pi_pos).
  assert (gint (x / sqrt 2) / sqrt PI < 1 / 2); [|lra].
  apply (Rmult_lt_reg_r (sqrt PI)); [lra|]. replace (gint (x / sqrt 2) / sqrt PI * sqrt PI) with (gint (x / sqrt 2)) by (field; lra). lra.
Qed.
Lemma ncdf_pos x : 0 < ncdf x.
Proof. assert (A := ncdf_lt_1 (- x)). rewrite ncdf_symm in A. lra. Qed.
Lemma ncdf_incr x y : x < y -> ncdf x < ncdf y.
Proof.
  intros L. rewrite !ncdf_gint. assert (A := sqrt_pi_pos). assert (B := sqrt2_pos).
  apply Rplus_lt_compat_l. apply Rmult_lt_compat_r; [apply Rinv_0_lt_compat; lra|].
  apply G_incr. apply Rmult_lt_compat_r; [apply Rinv_0_lt_compat; lra|exact L].
Qed.
(* an elementary tail bound: exp (- y) <= 1 / (1 + y) *)
Lemma exp_neg_le y : 0 <= y -> exp (- y) <= / (1 + y).
Proof.
  intros P. rewrite exp_Ropp. apply Rinv_le_contravar; [lra|].
  destruct (Rle_lt_or_eq_dec 0 y P) as [L| <-]; [left; apply exp_ineq1; lra|rewrite exp_0; lra].
Qed.
Lemma exp_neg_lt_inv y : 0 < y -> exp (- y) < / y.
Proof.
  intros P. apply Rle_lt_trans with (/ (1 + y)); [apply exp_neg_le; lra|]. apply Rinv_lt_contravar; [nra|lra].
Qed.
Lemma density_tail z : 1 <= Rabs z -> density z <= 2 / Rabs z.
Proof.
  intros A. unfold density. assert (E := exp_neg_lt_inv (z ^ 2 / 2)).
  assert (Q : z ^ 2 = Rabs z ^ 2) by (rewrite RPow_abs, Rabs_right; [reflexivity|apply Rle_ge, pow2_ge_0]).
  rewrite Q in *. set (t := Rabs z) in *. clearbody t.
  assert (S : 1 <= sqrt (2 * PI)). { rewrite <- sqrt_1. apply sqrt_le_1; assert (P := PI2_1); lra. }
  assert (P : 0 < t ^ 2 / 2) by nra. specialize (E P).
  apply Rle_trans with (exp (- (t ^ 2 / 2)) / 1).
  - apply Rmult_le_compat_l; [left; apply exp_pos|]. apply Rinv_le_contravar; lra.
  - unfold Rdiv at 1. rewrite Rinv_1, Rmult_1_r. left. apply Rlt_le_trans with (1 := E).
    apply (Rmult_le_reg_r (t ^ 2)); [nra|]. replace (/ (t ^ 2 / 2) * t ^ 2) with 2 by (field; lra). replace (2 / t * t ^ 2) with (2 * t) by (field; lra). lra.
Qed.
Lemma ncdf_tail x : 1 <= x -> 1 - ncdf x <= 4 / x.
Proof.
  intros X. assert (A := sqrt_pi_pos). assert (B := sqrt2_pos). assert (C := sqrt2_sq). assert (D := sqrt_pi_sq).
  assert (T := G_tail (x / sqrt 2)). assert (Y : 0 <= x / sqrt 2) by (apply Rmult_le_pos; [lra|left; apply Rinv_0_lt_compat; lra]).
  specialize (T Y). rewrite ncdf_gint.
  replace ((x / sqrt 2) ^ 2) with (x ^ 2 / 2) in T by (rewrite <- C at 1; field; lra).
  assert (E := exp_neg_lt_inv (x ^ 2 / 2)). assert (P : 0 < x ^ 2 / 2) by nra. specialize (E P).
  assert (Q : 2 < PI) by (assert (W := PI2_1); lra).
  set (g := gint (x / sqrt 2)) in *. set (e := exp (- (x ^ 2 / 2))) in *. set (p := sqrt PI) in *. clearbody g e p.
  replace (1 - (1 / 2 + g / p)) with ((p / 2 - g) / p) by (field; lra).
  apply Rle_trans with (e * 2 / p / p); [apply Rmult_le_compat_r; [left; apply Rinv_0_lt_compat; lra|exact T]|].
  replace (e * 2 / p / p) with (e * 2 / PI) by (rewrite <- D; field; lra).
  apply (Rmult_le_reg_r PI); [lra|]. replace (e * 2 / PI * PI) with (e * 2) by (field; lra).
  assert (F : / (x ^ 2 / 2) <= 2 / x). { apply (Rmult_le_reg_r (x ^ 2)); [nra|]. replace (/ (x ^ 2 / 2) * x ^ 2) with 2 by (field; lra). replace (2 / x * x ^ 2) with (2 * x) by (field; lra). lra. }
  assert (0 < / x) by (apply Rinv_0_lt_compat; lra). unfold Rdiv in *. nra.
Qed.
Lemma lim_of_inv_bound (f : R -> R) l c : (forall x, 1 <= x -> Rabs (f x - l) <= c / x) -> is_lim f p_infty l.
Proof.
  intros B. apply is_lim_spec. intros eps. assert (C : 0 <= c). { assert (A := B 1 (Rle_refl 1)). assert (P := Rabs_pos (f 1 - l)). unfold Rdiv in A. rewrite Rinv_1 in A. lra. }
  assert (E := cond_pos eps). exists (Rmax 1 ((c + 1) / eps)). intros x X.
  assert (X1 : 1 < x) by (eapply Rle_lt_trans; [apply Rmax_l|exact X]).
  assert (X2 : (c + 1) / eps < x) by (eapply Rle_lt_trans; [apply Rmax_r|exact X]).
  eapply Rle_lt_trans; [apply B; lra|].
  apply (Rmult_lt_reg_r x); [lra|]. replace (c / x * x) with c by (field; lra).
  apply (Rmult_lt_compat_r eps) in X2; [|lra]. replace ((c + 1) / eps * eps) with (c + 1) in X2 by (field; lra). lra.
Qed.
Lemma ncdf_lim_p : is_lim ncdf p_infty 1.
Proof.
  apply (lim_of_inv_bound _ 1 4). intros x X. assert (A := ncdf_tail x X). assert (B := ncdf_lt_1 x). rewrite Rabs_left; lra.
Qed.
Lemma lim_mirror (f : R -> R) l : is_lim (fun x => f (- x)) p_infty l -> is_lim f m_infty l.
Proof.
  intros A. apply (is_lim_ext (fun x => (fun y => f (- y)) (- x))). { intros x; rewrite Ropp_involutive; reflexivity. }
  apply (is_lim_comp (fun y => f (- y)) (fun x => - x) m_infty l p_infty A).
  - apply (is_lim_opp (fun x => x) m_infty m_infty). apply is_lim_id.
  - exists 0. intros x _. discriminate.
Qed.
Lemma ncdf_lim_m : is_lim ncdf m_infty 0.
Proof.
  apply lim_mirror. apply (is_lim_ext (fun x => 1 - ncdf x)). { intros x; symmetry; apply ncdf_symm. }
  apply (lim_of_inv_bound _ 0 4). intros x X. assert (A := ncdf_tail x X). assert (B := ncdf_lt_1 x). rewrite Rabs_right; lra.
Qed.
Lemma density_lim_p : is_lim density p_infty 0.
Proof.
  apply (lim_of_inv_bound _ 0 2). intros x X. rewrite Rminus_0_r, Rabs_right; [|left; apply density_pos].
  assert (A := density_tail x). rewrite Rabs_right in A by lra. apply A. exact X.
Qed.
Lemma density_lim_m : is_lim density m_infty 0.
Proof. apply lim_mirror. apply (is_lim_ext density); [intros; symmetry; apply density_even|apply density_lim_p]. Qed.

(** Integrals over the line of functions vanishing on a half-line. *)
Lemma lim_eventually (A : R -> R) (p : Rbar) (l : R) (eps : posreal) : is_lim A p l -> Rbar_locally' p (fun x => Rabs (A x - l) < eps).
Proof. intros L. apply is_lim_spec in L. apply (L eps). Qed.
Lemma half_up (f g A : R -> R) (c l m : R) :
  (forall z, z < c -> f z = 0) -> (forall z, c < z -> f z = g z) -> (forall z, is_derive A z (g z)) -> (forall z, continuous g z) ->
  is_lim A p_infty l -> m = l - A c ->
  is_RInt_gen (V := R_NormedModule) f (Rbar_locally m_infty) (Rbar_locally p_infty) m.
Proof.
  intros Z E D C L M P [eps HP]. subst m.
  assert (Q := lim_eventually A p_infty l eps L). destruct Q as [N HN].
  apply (Filter_prod _ _ _ (fun a => a < c) (fun b => c < b /\ N < b)).
  - exists c. auto.
  - exists (Rmax c N). intros b B. split; [eapply Rle_lt_trans; [apply Rmax_l|exact B]|eapply Rle_lt_trans; [apply Rmax_r|exact B]].
  - intros a b Ha [Hb Hn]. exists (A b - A c). split.
    + apply (isi_chasles f a c b 0 (A b - A c)); [| |ring].
      * apply (isi_ext (fun _ => 0)); [|apply isi_const; ring].
        intros z [_ B]. rewrite Rmax_right in B by lra. symmetry; apply Z; exact B.
      * apply (isi_ext g). { intros z [B _]. rewrite Rmin_left in B by lra. symmetry; apply E; exact B. }
        apply (is_RInt_derive (V := R_CompleteNormedModule)); intros; auto.
    + apply HP. change (Rabs (minus (A b - A c) (l - A c)) < eps). unfold minus, plus, opp; cbn.
      replace (A b - A c + - (l - A c)) with (A b - l) by ring. apply HN. exact Hn.
Qed.
Lemma half_down (f g A : R -> R) (c l m : R) :
  (forall z, z < c -> f z = g z) -> (forall z, c < z -> f z = 0) -> (forall z, is_derive A z (g z)) -> (forall z, continuous g z) ->
  is_lim A m_infty l -> m = A c - l ->
  is_RInt_gen (V := R_NormedModule) f (Rbar_locally m_infty) (Rbar_locally p_infty) m.
Proof.
  intros E Z D C L M P [eps HP]. subst m.
  assert (Q := lim_eventually A m_infty l eps L). destruct Q as [N HN].
  apply (Filter_prod _ _ _ (fun a => a < c /\ a < N) (fun b => c < b)).
  - exists (Rmin c N). intros b B. split; [eapply Rlt_le_trans; [exact B|apply Rmin_l]|eapply Rlt_le_trans; [exact B|apply Rmin_r]].
  - exists c. auto.
  - intros a b [Ha Hn] Hb. exists (A c - A a). split.
    + apply (isi_chasles f a c b (A c - A a) 0); [| |ring].
      * apply (isi_ext g). { intros z [_ B]. rewrite Rmax_right in B by lra. symmetry; apply E; exact B. }
        apply (is_RInt_derive (V := R_CompleteNormedModule)); intros; auto.
      * apply (isi_ext (fun _ => 0)); [|apply isi_const; ring].
        intros z [B _]. rewrite Rmin_left in B by lra. symmetry; apply Z; exact B.
    + apply HP. change (Rabs (minus (A c - A a) (A c - l)) < eps). unfold minus, plus, opp; cbn.
      replace (A c - A a + - (A c - l)) with (- (A a - l)) by ring. rewrite Rabs_Ropp. apply HN. exact Hn.
Qed.
Lemma is_lim_shift (f : R -> R) s (p : Rbar) l : p = p_infty \/ p = m_infty -> is_lim f p l -> is_lim (fun z => f (z - s)) p l.
Proof.
  intros P L. apply (is_lim_comp f (fun z => z - s) p l p L).
  - destruct P as [-> | ->]; apply (is_lim_minus (fun z => z) (fun _ => s) _ _ s _ (is_lim_id _) (is_lim_const _ _)); reflexivity.
  - destruct P as [-> | ->]; exists 0; intros; discriminate.
Qed.
(** The antiderivative of (alpha * asset + beta) * density. *)
Definition prim (normal : bool) (F s alpha beta z : R) : R :=
  if normal then (alpha * F + beta) * ncdf z - alpha * s * density z
  else alpha * F * ncdf (z - s) + beta * ncdf z.
Lemma density_shift s z : exp (s * z - s ^ 2 / 2) * density z = density (z - s).
Proof. unfold density. replace (- ((z - s) ^ 2 / 2)) with ((s * z - s ^ 2 / 2) + - (z ^ 2 / 2)) by field. rewrite exp_plus. unfold Rdiv. ring. Qed.
Lemma prim_derive normal F s alpha beta z :
  is_derive (prim normal F s alpha beta) z ((alpha * asset normal F s z + beta) * density z).
Proof.
  destruct normal; unfold prim, asset.
  - replace ((alpha * (F + s * z) + beta) * density z) with ((alpha * F + beta) * density z - alpha * s * (- z * density z)) by ring.
    apply (is_derive_minus (V := R_NormedModule) (fun z => (alpha * F + beta) * ncdf z) (fun z => alpha * s * density z)).
    + apply (is_derive_scal ncdf). apply ncdf_derive.
    + apply (is_derive_scal density). apply density_derive.
  - replace ((alpha * (F * exp (s * z - s ^ 2 / 2)) + beta) * density z) with (alpha * F * density (z - s) + beta * density z) by (rewrite <- density_shift; ring).
    apply (is_derive_plus (V := R_NormedModule) (fun z => alpha * F * ncdf (z - s)) (fun z => beta * ncdf z)).
    + apply (is_derive_scal (fun z => ncdf (z - s))).
      replace (density (z - s)) with (1 * density (z - s)) by ring.
      apply (is_derive_comp (V := R_NormedModule) ncdf (fun z => z - s)); [apply ncdf_derive|]. auto_derive; [exact I|]. ring.
    + apply (is_derive_scal ncdf). apply ncdf_derive.
Qed.
Lemma prim_cont normal F s alpha beta z : continuous (fun z => (alpha * asset normal F s z + beta) * density z) z.
Proof.
  apply (ex_derive_continuous (V := R_NormedModule)). assert (A := sqrt2pi_pos). unfold asset, density. destruct normal; auto_derive; repeat split; lra.
Qed.
Lemma prim_lim_p normal F s alpha beta : is_lim (prim normal F s alpha beta) p_infty (alpha * F + beta).
Proof.
  destruct normal; unfold prim.
  - replace (Finite (alpha * F + beta)) with (Finite ((alpha * F + beta) * 1 - alpha * s * 0)) by (f_equal; ring).
    apply (is_lim_minus' (fun z => (alpha * F + beta) * ncdf z) (fun z => alpha * s * density z)).
    + apply (is_lim_scal_l ncdf (alpha * F + beta) p_infty 1 ncdf_lim_p).
    + apply (is_lim_scal_l density (alpha * s) p_infty 0 density_lim_p).
  - replace (Finite (alpha * F + beta)) with (Finite (alpha * F * 1 + beta * 1)) by (f_equal; ring).
    apply (is_lim_plus' (fun z => alpha * F * ncdf (z - s)) (fun z => beta * ncdf z)).
    + apply (is_lim_scal_l (fun z => ncdf (z - s)) (alpha * F) p_infty 1). apply is_lim_shift; [auto|apply ncdf_lim_p].
    + apply (is_lim_scal_l ncdf beta p_infty 1 ncdf_lim_p).
Qed.
Lemma prim_lim_m normal F s alpha beta : is_lim (prim normal F s alpha beta) m_infty 0.
Proof.
  destruct normal; unfold prim.
  - replace (Finite 0) with (Finite ((alpha * F + beta) * 0 - alpha * s * 0)) by (f_equal; ring).
    apply (is_lim_minus' (fun z => (alpha * F + beta) * ncdf z) (fun z => alpha * s * density z)).
    + apply (is_lim_scal_l ncdf (alpha * F + beta) m_infty 0 ncdf_lim_m).
    + apply (is_lim_scal_l density (alpha * s) m_infty 0 density_lim_m).
  - replace (Finite 0) with (Finite (alpha * F * 0 + beta * 0)) by (f_equal; ring).
    apply (is_lim_plus' (fun z => alpha * F * ncdf (z - s)) (fun z => beta * ncdf z)).
    + apply (is_lim_scal_l (fun z => ncdf (z - s)) (alpha * F) m_infty 0). apply is_lim_shift; [auto|apply ncdf_lim_m].
    + apply (is_lim_scal_l ncdf beta m_infty 0 ncdf_lim_m).
Qed.
Lemma expect_up normal F s alpha beta c (f : R -> R) m :
  (forall z, z < c -> f z = 0) -> (forall z, c < z -> f z = alpha * asset normal F s z + beta) ->
  m = alpha * F + beta - prim normal F s alpha beta c -> expectation f m.
Proof.
  intros Z E M. apply (half_up _ (fun z => (alpha * asset normal F s z + beta) * density z) (prim normal F s alpha beta) c (alpha * F + beta)).
  - intros z L. rewrite Z by exact L. ring.
  - intros z L. rewrite E by exact L. reflexivity.
  - intros z. apply prim_derive.
  - intros z. apply prim_cont.
  - apply prim_lim_p.
  - exact M.
Qed.
Lemma expect_down normal F s alpha beta c (f : R -> R) m :
  (forall z, z < c -> f z = alpha * asset normal F s z + beta) -> (forall z, c < z -> f z = 0) ->
  m = prim normal F s alpha beta c -> expectation f m.
Proof.
  intros E Z M. apply (half_down _ (fun z => (alpha * asset normal F s z + beta) * density z) (prim normal F s alpha beta) c 0).
  - intros z L. rewrite E by exact L. reflexivity.
  - intros z L. rewrite Z by exact L. ring.
  - intros z. apply prim_derive.
  - intros z. apply prim_cont.
  - apply prim_lim_m.
  - rewrite M. ring.
Qed.
