(** Lemmas for the Heston model: the steps over the reals, the moments of the
    variance process and the time grid. *)
From Coquelicot Require Import Coquelicot.
From Coq Require Import Reals List Bool Arith Lia Lra Permutation Sorting.Sorted.
From Verif Require Import TensorModel TensorProofs SegmentModel BrentModel InterpModel BrentProofs ExtReal HaganWestModel BootstrapModel BlackScholesModel BlackScholesSpec GaussianAux NormalProofs GaussConv
  BlackScholesProofs ImpliedVolProofs LoopModel LoopProofs PropsLoop TimeGridModel TimeGridSpec TimeGridProofs PropsTimeGrid MvNormalModel MvNormalProofs PiecewiseModel GbmModel PropsEuler HullWhiteModel HullWhiteProofs2
  HestonModel HestonSpec HestonProofs.
Import ListNotations.
Open Scope R_scope.

(** * Moments of the variance process *)
Lemma linear_unique (c : R) (f g : R -> R) : (forall t, is_derive f t (- c * f t + g t)) -> f 0 = 0 -> (forall t, g t = 0) -> forall t, f t = 0.
Proof.
  intros D F0 G t. assert (K : forall x, is_derive (fun t => f t * exp (c * t)) x 0).
  { intros x. assert (E : is_derive (fun t => exp (c * t)) x (c * exp (c * x))) by (auto_derive; [exact Logic.I|ring]).
    assert (M := is_derive_mult f _ x _ _ (D x) E Rmult_comm). match type of M with is_derive _ _ ?d => replace 0 with d; [exact M|] end.
    unfold plus, mult. cbn. rewrite G. ring. }
  pose proof (const_of_zero_derive _ K t) as C. cbv beta in C. rewrite F0 in C. pose proof (exp_pos (c * t)). apply (Rmult_eq_reg_r (exp (c * t))); lra.
Qed.
Section Moments.
  Variables k theta xi v : R.
  Hypothesis Kn : k <> 0.
  Definition cm (t : R) : R := theta + (v - theta) * exp (- k * t).
  Definition cs (t : R) : R := v * xi ^ 2 * exp (- k * t) / k * (1 - exp (- k * t)) + theta * xi ^ 2 / 2 / k * (1 - exp (- k * t)) ^ 2.
  Lemma cm_derive t : is_derive cm t (k * (theta - cm t)).
  Proof. unfold cm. auto_derive; [exact Logic.I|ring]. Qed.
  Lemma cs_derive t : is_derive cs t (xi ^ 2 * cm t - 2 * k * cs t).
  Proof. unfold cs, cm. auto_derive; [exact Logic.I|]. field. exact Kn. Qed.
  Lemma cm_0 : cm 0 = v. Proof. unfold cm. rewrite Rmult_0_r, exp_0. ring. Qed.
  Lemma cs_0 : cs 0 = 0. Proof. unfold cs. rewrite Rmult_0_r, exp_0. unfold Rdiv. ring. Qed.
  Lemma moments_exist : variance_moments k theta xi v cm (fun t => cm t ^ 2 + cs t).
  Proof.
    split; [apply cm_0|]. split; [rewrite cm_0, cs_0; ring|]. split; [apply cm_derive|]. intros t.
    assert (D2 : is_derive (fun t => cm t ^ 2) t (2 * cm t * (k * (theta - cm t)))).
    { assert (P := is_derive_pow cm 2 t _ (cm_derive t)). match type of P with is_derive _ _ ?d => replace (2 * cm t * (k * (theta - cm t))) with d; [exact P|] end. cbn. ring. }
    assert (D := is_derive_plus _ _ t _ _ D2 (cs_derive t)).
    match type of D with is_derive _ _ ?d => match goal with |- is_derive _ _ ?e => replace e with d; [exact D|] end end. unfold plus. cbn. ring.
  Qed.
  Lemma moments_unique m1 m2 t : variance_moments k theta xi v m1 m2 -> m1 t = cm t /\ m2 t = cm t ^ 2 + cs t.
  Proof.
    intros (A0 & B0 & A & B). destruct moments_exist as (A0' & B0' & A' & B').
    assert (E1 : forall t, m1 t = cm t).
    { intros u. cut (m1 u - cm u = 0); [lra|]. apply (linear_unique k (fun t => m1 t - cm t) (fun _ => 0)); [|lra|reflexivity]. intros s.
      assert (D := is_derive_minus _ _ s _ _ (A s) (A' s)). match type of D with is_derive _ _ ?d => match goal with |- is_derive _ _ ?e => replace e with d; [exact D|] end end.
      unfold minus, plus, opp. cbn. ring. }
    split; [apply E1|]. cut (m2 t - (cm t ^ 2 + cs t) = 0); [lra|]. apply (linear_unique (2 * k) (fun t => m2 t - (cm t ^ 2 + cs t)) (fun _ => 0)); [|lra|reflexivity]. intros s.
    assert (D := is_derive_minus _ _ s _ _ (B s) (B' s)). match type of D with is_derive _ _ ?d => match goal with |- is_derive _ _ ?e => replace e with d; [exact D|] end end.
    unfold minus, plus, opp. cbn. rewrite (E1 s). ring.
  Qed.
End Moments.

(** * The steps *)
Section Step.
  Variables k theta xi v D : R.
  Hypotheses (Kp : 0 < k) (Tp : 0 < theta) (Xn : xi <> 0) (Vn : 0 <= v) (Dp : 0 < D).
  Notation m := (cm k theta v D).
  Notation s2 := (cs k theta xi v D).
  Definition the_psi : R := s2 / (m * m).
  Lemma decay : 0 < exp (- k * D) < 1.
  Proof. split; [apply exp_pos|]. apply Rlt_le_trans with (exp 0); [apply exp_increasing; nra|rewrite exp_0; lra]. Qed.
  Lemma m_pos : 0 < m.
  Proof. unfold cm. pose proof decay as E. set (e := exp (- k * D)) in *. clearbody e. replace (theta + (v - theta) * e) with (theta * (1 - e) + v * e) by ring. apply Rplus_lt_le_0_compat; [apply Rmult_lt_0_compat; lra|apply Rmult_le_pos; lra]. Qed.
  Lemma s2_pos : 0 < s2.
  Proof.
    unfold cs. pose proof decay as E. set (e := exp (- k * D)) in *. clearbody e. assert (X2 : 0 < xi ^ 2) by (apply pow2_gt_0; exact Xn).
    apply Rplus_le_lt_0_compat.
    - apply Rmult_le_pos; [|lra]. unfold Rdiv. apply Rmult_le_pos; [|apply Rlt_le, Rinv_0_lt_compat; lra]. apply Rmult_le_pos; [apply Rmult_le_pos; lra|lra].
    - apply Rmult_lt_0_compat; [|apply pow_lt; lra]. unfold Rdiv. apply Rmult_lt_0_compat; [|apply Rinv_0_lt_compat; lra]. apply Rmult_lt_0_compat; [apply Rmult_lt_0_compat; lra|lra].
  Qed.
  Lemma psi_pos : 0 < the_psi. Proof. unfold the_psi. pose proof m_pos. apply Rdiv_lt_0_compat; [apply s2_pos|]. apply Rmult_lt_0_compat; assumption. Qed.
  Definition next_variance (z : R) : R := if Rlt_dec the_psi (3 / 2) then q_next m the_psi z else e_next m the_psi z.
  Lemma update_value z : update_variance k theta xi (Fin v) D z = Fin (next_variance z).
  Proof.
    unfold update_variance. pose proof m_pos as M. pose proof psi_pos as P. cbv zeta.
    assert (EM : Fin theta +x (Fin v -x Fin theta) *x Fin (exp (- k * D)) = Fin m) by reflexivity. rewrite EM.
    assert (ES : Fin v *x Fin (xi ^ 2) *x Fin (exp (- k * D)) /x Fin k *x Fin (1 - exp (- k * D)) +x Fin (theta * xi ^ 2 / 2) /x Fin k *x Fin ((1 - exp (- k * D)) ^ 2) = Fin s2).
    { change (Fin v *x Fin (xi ^ 2) *x Fin (exp (- k * D))) with (Fin (v * xi ^ 2 * exp (- k * D))). rewrite !xdiv_f by lra. reflexivity. }
    rewrite ES. change (xsquare (Fin m)) with (Fin (m * m)).
    assert (EP : Fin s2 /x Fin (m * m) = Fin the_psi) by (apply xdiv_f; nra). rewrite EP. cbn [xlt]. unfold next_variance.
    destruct (Rlt_dec the_psi (3 / 2)) as [L|L].
    - rewrite (proj2 (rlt_true _ _) L). pose proof (q_inv_gt the_psi P L) as QI. pose proof (q_b2_pos the_psi P L) as QB.
      rewrite (xdiv_f 2 the_psi) by lra. fold (q_inv the_psi). cbn [xsub xopp xadd xmul].
      change (q_inv the_psi + - (1)) with (q_inv the_psi - 1). rewrite (xsqrt_f (q_inv the_psi * (q_inv the_psi - 1))) by nra. cbn [xadd].
      fold (q_b2 the_psi). rewrite (xsqrt_f (q_b2 the_psi)) by lra. rewrite (xdiv_f m (1 + q_b2 the_psi)) by lra. unfold xsquare. cbn [xadd xmul]. unfold q_next. f_equal. ring.
    - replace (rlt the_psi (3 / 2)) with false by (symmetry; apply rlt_false; lra). assert (L' : 3 / 2 <= the_psi) by lra. pose proof (e_p_range the_psi L') as PR.
      cbn [xsub xopp xadd]. change (the_psi + - (1)) with (the_psi - 1). rewrite (xdiv_f (the_psi - 1) (the_psi + 1)) by lra. fold (e_p the_psi). cbn [xopp xadd xlt].
      change (1 + - e_p the_psi) with (1 - e_p the_psi). rewrite (xdiv_f (1 - e_p the_psi) m) by lra. fold (e_beta m the_psi). pose proof (e_beta_pos m the_psi M L') as BP.
      assert (U : 1 / 2 * (1 + erf (z / sqrt 2)) = ncdf z) by (unfold ncdf; field). rewrite U. pose proof (tail_pos z) as TP.
      rewrite (xln_f (1 - e_p the_psi)) by lra. rewrite (xln_f (1 - ncdf z)) by lra. unfold xsub; cbn [xopp xadd]. unfold e_next.
      destruct (Rlt_dec (e_p the_psi) (ncdf z)) as [G|G].
      + rewrite (proj2 (rlt_true _ _) G). rewrite xdiv_f by lra. reflexivity.
      + replace (rlt (e_p the_psi) (ncdf z)) with false by (symmetry; apply rlt_false; lra). rewrite xdiv_f by lra. reflexivity.
  Qed.
  Lemma next_nonneg z : 0 <= next_variance z.
  Proof.
    pose proof m_pos as M. pose proof psi_pos as P. unfold next_variance. destruct (Rlt_dec the_psi (3 / 2)) as [L|L]; [apply q_nonneg; assumption|apply e_nonneg; [assumption|lra]].
  Qed.
  Lemma next_moments : expectation next_variance m /\ expectation (fun z => next_variance z ^ 2) (m ^ 2 + s2).
  Proof.
    pose proof m_pos as M. pose proof psi_pos as P. assert (E : m ^ 2 + s2 = m ^ 2 * (1 + the_psi)) by (unfold the_psi; field; lra). rewrite E.
    destruct (Rlt_dec the_psi (3 / 2)) as [L|L].
    - split; [apply (expectation_ext (q_next m the_psi))|apply (expectation_ext (fun z => q_next m the_psi z ^ 2))]; try (intros z; unfold next_variance; destruct (Rlt_dec the_psi (3 / 2)); [reflexivity|contradiction]).
      + apply q_mean; assumption.
      + apply q_second; assumption.
    - split; [apply (expectation_ext (e_next m the_psi))|apply (expectation_ext (fun z => e_next m the_psi z ^ 2))]; try (intros z; unfold next_variance; destruct (Rlt_dec the_psi (3 / 2)); [contradiction|reflexivity]).
      + apply e_mean; [assumption|lra].
      + apply e_second; [assumption|lra].
  Qed.
End Step.
Lemma log_spot_value k theta xi rho v v' x D n : xi <> 0 -> -1 <= rho <= 1 -> 0 <= v -> 0 <= v' -> 0 < D ->
  update_log_spot k theta xi rho (Fin v) (Fin v') (Fin x) D n = Fin (x + log_spot_increment k theta xi rho v v' D n).
Proof.
  intros Xn Rr Vn Vn' Dp. unfold update_log_spot. cbv zeta. rewrite !xdiv_f by exact Xn. cbn [xmul xsub xopp xadd].
  assert (R2 : 0 <= 1 - rho ^ 2) by nra.
  assert (Q : 0 <= 1 / 2 * D * (1 - rho ^ 2) * v + 1 / 2 * D * (1 - rho ^ 2) * v').
  { assert (0 <= 1 / 2 * D * (1 - rho ^ 2)) by (apply Rmult_le_pos; lra). apply Rplus_le_le_0_compat; apply Rmult_le_pos; lra. }
  rewrite xsqrt_f by exact Q. cbn [xmul xadd]. f_equal. unfold log_spot_increment. cbv zeta.
  replace ((1 - rho ^ 2) * (D * (v + v') / 2)) with (1 / 2 * D * (1 - rho ^ 2) * v + 1 / 2 * D * (1 - rho ^ 2) * v') by field.
  set (w := sqrt _). field. exact Xn.
Qed.
