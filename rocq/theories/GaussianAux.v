(** The Gaussian integral. *)
From Coquelicot Require Import Coquelicot.
From Coq Require Import Reals Lra Lia.
From Verif Require Import RIntAux.
Open Scope R_scope.

Definition gauss (t : R) : R := exp (- t ^ 2).
Definition gint (x : R) : R := RInt gauss 0 x.

Lemma gauss_cont x : continuous gauss x.
Proof.
  apply (ex_derive_continuous (V := R_NormedModule)). unfold gauss. auto_derive. exact I.
Qed.
Lemma gauss_ex a b : ex_RInt gauss a b.
Proof. apply (ex_RInt_continuous (V := R_CompleteNormedModule)). intros z _. apply gauss_cont. Qed.
Lemma gauss_pos x : 0 < gauss x.
Proof. apply exp_pos. Qed.
Lemma G_derive x : is_derive gint x (gauss x).
Proof.
  apply (is_derive_RInt (V := R_NormedModule) gauss gint 0 x).
  - exists (mkposreal 1 Rlt_0_1). intros y _. apply (RInt_correct (V := R_CompleteNormedModule)). apply gauss_ex.
  - apply gauss_cont.
Qed.
Lemma G_0 : gint 0 = 0.
Proof. unfold gint. apply (RInt_point (V := R_CompleteNormedModule)). Qed.

Definition kern (x t : R) : R := exp (- x ^ 2 * (1 + t ^ 2)) / (1 + t ^ 2).
Lemma one_sq t : 0 < 1 + t ^ 2.
Proof. nra. Qed.
Lemma kern_d x t : is_derive (fun u => kern u t) x (-2 * x * exp (- x ^ 2 * (1 + t ^ 2))).
Proof.
  unfold kern. assert (A := one_sq t). auto_derive; [exact I|]. cbn. field. cbn in A. lra.
Qed.
Lemma kern_cont x t : continuous (fun t => kern x t) t.
Proof.
  apply (ex_derive_continuous (V := R_NormedModule)). unfold kern. assert (A := one_sq t). auto_derive. cbn in *. lra.
Qed.
Lemma kern_ex x a b : ex_RInt (fun t => kern x t) a b.
Proof. apply (ex_RInt_continuous (V := R_CompleteNormedModule)). intros z _. apply kern_cont. Qed.

Definition hint (x : R) : R := RInt (fun t => kern x t) 0 1.
Lemma dkern_cont x t : continuity_2d_pt (fun u v => Derive (fun z => kern z v) u) x t.
Proof.
  apply (continuity_2d_pt_ext (fun u v => (-2 * u) * exp (- (u ^ 2) * (1 + v ^ 2)))).
  { intros u v. symmetry. apply is_derive_unique. apply kern_d. }
  apply continuity_2d_pt_mult.
  - apply continuity_2d_pt_mult; [apply continuity_2d_pt_const|apply continuity_2d_pt_id1].
  - apply continuity_1d_2d_pt_comp; [apply derivable_continuous_pt; apply derivable_pt_exp|].
    apply continuity_2d_pt_mult.
    + apply continuity_2d_pt_opp. apply (continuity_2d_pt_ext (fun u v => u * u)); [intros; ring|].
      apply continuity_2d_pt_mult; apply continuity_2d_pt_id1.
    + apply continuity_2d_pt_plus; [apply continuity_2d_pt_const|].
      apply (continuity_2d_pt_ext (fun u v => v * v)); [intros; ring|].
      apply continuity_2d_pt_mult; apply continuity_2d_pt_id2.
Qed.
Lemma H_derive x : is_derive hint x (RInt (fun t => -2 * x * exp (- x ^ 2 * (1 + t ^ 2))) 0 1).
Proof.
  assert (D : is_derive hint x (RInt (fun t => Derive (fun u => kern u t) x) 0 1)).
  { apply is_derive_RInt_param.
    - exists (mkposreal 1 Rlt_0_1). intros y _ t _. eexists. apply kern_d.
    - intros t _. apply dkern_cont.
    - exists (mkposreal 1 Rlt_0_1). intros y _. apply kern_ex. }
  replace (RInt (fun t => -2 * x * exp (- x ^ 2 * (1 + t ^ 2))) 0 1) with (RInt (fun t => Derive (fun u => kern u t) x) 0 1); [exact D|].
  apply (RInt_ext (V := R_CompleteNormedModule)). intros t _. apply is_derive_unique. apply kern_d.
Qed.
(* substitution s = x t *)
Lemma G_scale x : gint x = RInt (fun t => x * gauss (x * t)) 0 1.
Proof.
  symmetry. apply (is_RInt_unique (V := R_CompleteNormedModule)).
  assert (A := is_RInt_comp_lin (V := R_NormedModule) gauss x 0 0 1 (gint x)).
  replace (x * 0 + 0) with 0 in A by ring. replace (x * 1 + 0) with x in A by ring.
  assert (B := A (RInt_correct (V := R_CompleteNormedModule) gauss 0 x (gauss_ex 0 x))).
  apply (isi_ext (fun y => scal x (gauss (x * y + 0)))); [|exact B].
  intros t _. change (x * gauss (x * t + 0) = x * gauss (x * t)). rewrite Rplus_0_r. reflexivity.
Qed.
Lemma H_derive' x : is_derive hint x (-2 * gauss x * gint x).
Proof.
  replace (-2 * gauss x * gint x) with (RInt (fun t => -2 * x * exp (- x ^ 2 * (1 + t ^ 2))) 0 1); [apply H_derive|].
  rewrite G_scale. apply (is_RInt_unique (V := R_CompleteNormedModule)).
  apply (isi_ext (fun t => (-2 * gauss x) * (x * gauss (x * t)))).
  { intros t _. unfold gauss. replace (- x ^ 2 * (1 + t ^ 2)) with (- x ^ 2 + - (x * t) ^ 2) by ring. rewrite exp_plus. ring. }
  eapply isi_scal; [|reflexivity]. apply (RInt_correct (V := R_CompleteNormedModule)).
  apply (ex_RInt_continuous (V := R_CompleteNormedModule)). intros z _.
  apply (ex_derive_continuous (V := R_NormedModule)). unfold gauss. auto_derive. exact I.
Qed.
Lemma H_0 : hint 0 = PI / 4.
Proof.
  unfold hint. apply (is_RInt_unique (V := R_CompleteNormedModule)).
  apply (isi_ext (fun t => / (1 + t ^ 2))).
  { intros t _. unfold kern. replace (- 0 ^ 2 * (1 + t ^ 2)) with 0 by ring. rewrite exp_0. unfold Rdiv. ring. }
  apply (isi_eq _ 0 1 (atan 1 - atan 0)); [|rewrite atan_1, atan_0; lra].
  apply (is_RInt_derive (V := R_CompleteNormedModule)).
  - intros t _. replace (1 + t ^ 2) with (1 + Rsqr t) by (unfold Rsqr; ring). apply is_derive_atan.
  - intros t _. apply (ex_derive_continuous (V := R_NormedModule)). assert (A := one_sq t). auto_derive. cbn in *. lra.
Qed.
Lemma const_of_zero_derive (f : R -> R) : (forall x, is_derive f x 0) -> forall x, f x = f 0.
Proof.
  intros D x. destruct (MVT_gen f 0 x (fun _ => 0)) as [c [_ E]].
  - intros; apply D.
  - intros y _. apply continuity_pt_filterlim. apply (ex_derive_continuous (V := R_NormedModule)). eexists; apply D.
  - lra.
Qed.
Lemma G_H x : gint x ^ 2 + hint x = PI / 4.
Proof.
  rewrite (const_of_zero_derive (fun x => gint x ^ 2 + hint x)).
  - rewrite G_0, H_0. ring.
  - intros y. assert (A := G_derive y). assert (B := H_derive' y).
    replace 0 with (2 * gauss y * gint y + (-2 * gauss y * gint y)) by ring.
    apply (is_derive_plus (V := R_NormedModule)); [|exact B].
    replace (2 * gauss y * gint y) with (INR 2 * gauss y * gint y ^ 1) by (cbn; ring).
    apply (is_derive_pow gint 2 y (gauss y) A).
Qed.
Lemma H_pos x : 0 < hint x.
Proof.
  unfold hint. apply RInt_gt_0; [lra| |].
  - intros t _. unfold kern. apply Rdiv_lt_0_compat; [apply exp_pos|apply one_sq].
  - intros t _. apply kern_cont.
Qed.
Lemma H_le x : hint x <= exp (- x ^ 2).
Proof.
  unfold hint. apply Rle_trans with (RInt (fun _ => exp (- x ^ 2)) 0 1).
  - apply RInt_le; [lra|apply kern_ex|apply (ex_RInt_const (V := R_NormedModule))|].
    intros t T. unfold kern. assert (A := one_sq t).
    assert (B : exp (- x ^ 2 * (1 + t ^ 2)) <= exp (- x ^ 2)).
    { destruct (Rle_lt_or_eq_dec (- x ^ 2 * (1 + t ^ 2)) (- x ^ 2)) as [L|L]; [assert (0 <= x ^ 2) by apply pow2_ge_0; assert (0 <= t ^ 2) by apply pow2_ge_0; nra|left; apply exp_increasing; exact L|rewrite L; lra]. }
    assert (E := exp_pos (- x ^ 2 * (1 + t ^ 2))).
    apply (Rmult_le_reg_r (1 + t ^ 2)); [lra|].
    replace (exp (- x ^ 2 * (1 + t ^ 2)) / (1 + t ^ 2) * (1 + t ^ 2)) with (exp (- x ^ 2 * (1 + t ^ 2))) by (field; lra).
    assert (0 < exp (- x ^ 2)) by apply exp_pos. assert (0 <= t ^ 2) by apply pow2_ge_0. nra.
  - rewrite (is_RInt_unique (V := R_CompleteNormedModule) _ 0 1 (exp (- x ^ 2))); [lra|]. apply isi_const. ring.
Qed.
Lemma G_odd x : gint (- x) = - gint x.
Proof.
  rewrite (G_scale (- x)), (G_scale x).
  apply (is_RInt_unique (V := R_CompleteNormedModule)).
  apply (isi_ext (fun t => (-1) * (x * gauss (x * t)))).
  { intros t _. unfold gauss. replace ((- x * t) ^ 2) with ((x * t) ^ 2) by ring. ring. }
  eapply isi_scal; [|instantiate (1 := RInt (fun t => x * gauss (x * t)) 0 1); lra].
  apply (RInt_correct (V := R_CompleteNormedModule)).
  apply (ex_RInt_continuous (V := R_CompleteNormedModule)). intros z _.
  apply (ex_derive_continuous (V := R_NormedModule)). unfold gauss. auto_derive. exact I.
Qed.
Lemma G_incr x y : x < y -> gint x < gint y.
Proof.
  intros L. destruct (MVT_gen gint x y gauss) as [c [_ E]].
  - intros; apply G_derive.
  - intros z _. apply continuity_pt_filterlim. apply (ex_derive_continuous (V := R_NormedModule)). eexists; apply G_derive.
  - assert (A := gauss_pos c). nra.
Qed.
Lemma sqrt_pi_pos : 0 < sqrt PI.
Proof. apply sqrt_lt_R0. apply PI_RGT_0. Qed.
Lemma sqrt_pi_sq : sqrt PI * sqrt PI = PI.
Proof. apply sqrt_sqrt. left. apply PI_RGT_0. Qed.
Lemma G_bound x : gint x < sqrt PI / 2.
Proof.
  assert (A := G_H x). assert (B := H_pos x). assert (C := sqrt_pi_pos). assert (D := sqrt_pi_sq).
  apply Rnot_le_lt. intros L. nra.
Qed.
Lemma G_tail x : 0 <= x -> sqrt PI / 2 - gint x <= exp (- x ^ 2) * 2 / sqrt PI.
Proof.
  intros X. assert (A := G_H x). assert (B := H_le x). assert (C := sqrt_pi_pos). assert (D := sqrt_pi_sq). assert (E := G_bound x).
  assert (P : 0 <= gint x). { destruct (Rle_lt_or_eq_dec 0 x X) as [L| <-]; [assert (T := G_incr 0 x L); rewrite G_0 in T; lra|rewrite G_0; lra]. }
  assert (F : (sqrt PI / 2 - gint x) * (sqrt PI / 2) <= exp (- x ^ 2)) by nra.
  apply (Rmult_le_reg_r (sqrt PI / 2)); [lra|].
  replace (exp (- x ^ 2) * 2 / sqrt PI * (sqrt PI / 2)) with (exp (- x ^ 2)) by (field; lra). exact F.
Qed.
