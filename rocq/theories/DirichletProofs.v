(** The sine integral and Attari's kernel: integrals over a finite range
    [0, U], computed up to a term of order 1/U. *)
From Coquelicot Require Import Coquelicot.
From Coq Require Import Reals List Lra Psatz.
From Verif Require Import RIntAux GaussianAux.
Open Scope R_scope.

(** sin(x y) / x, extended by its limit at 0. *)
Definition sinc (y x : R) : R := if Req_EM_T x 0 then y else sin (x * y) / x.
Lemma sinc_off y x : x <> 0 -> sinc y x = sin (x * y) / x.
Proof. unfold sinc. destruct (Req_EM_T x 0); [contradiction|reflexivity]. Qed.
Lemma sinc_cont y x : continuous (sinc y) x.
Proof.
  destruct (Req_EM_T x 0) as [->|N].
  - (* at zero: the derivative of sin (x y) at 0 *)
    assert (D : is_derive (fun x => sin (x * y)) 0 y).
    { auto_derive; [exact I|]. rewrite Rmult_0_l, cos_0. ring. }
    apply is_derive_Reals in D. apply continuity_pt_filterlim.
    intros e He. destruct (D e He) as [d Hd]. exists d. split; [apply cond_pos|].
    intros h [_ Hh]. cbn in *. unfold R_dist in *. rewrite Rminus_0_r in Hh.
    unfold sinc. destruct (Req_EM_T 0 0) as [_|A]; [|contradiction A; reflexivity].
    destruct (Req_EM_T h 0) as [->|A]; [rewrite Rminus_eq_0, Rabs_R0; exact He|].
    specialize (Hd h A Hh). rewrite Rplus_0_l, Rmult_0_l, sin_0, Rminus_0_r in Hd. exact Hd.
  - apply (continuous_ext_loc (T := R_UniformSpace) (U := R_UniformSpace) (sinc y) (fun x => sin (x * y) / x)).
    + assert (P : 0 < Rabs x) by (apply Rabs_pos_lt; exact N).
      exists (mkposreal _ P). intros z B. symmetry; apply sinc_off. intros ->.
      unfold ball in B. cbn in B. unfold AbsRing_ball, abs, minus, plus, opp in B. cbn in B.
      replace (0 + - x) with (- x) in B by ring. rewrite Rabs_Ropp in B. lra.
    + apply (ex_derive_continuous (V := R_NormedModule)). auto_derive. exact N.
Qed.
Lemma sin_abs_le x : Rabs (sin x) <= Rabs x.
Proof.
  destruct (MVT_gen sin 0 x cos) as [c [_ E]].
  - intros y _. apply is_derive_Reals. apply derivable_pt_lim_sin.
  - intros y _. apply derivable_continuous_pt, derivable_pt_sin.
  - rewrite sin_0, !Rminus_0_r in E. rewrite E, Rabs_mult.
    assert (Rabs (cos c) <= 1) by (apply Rabs_le; pose proof (COS_bound c); lra).
    pose proof (Rabs_pos x). nra.
Qed.
Lemma sinc_bound y x : Rabs (sinc y x) <= Rabs y.
Proof.
  unfold sinc. destruct (Req_EM_T x 0) as [->|N]; [lra|].
  unfold Rdiv. rewrite Rabs_mult, Rabs_inv.
  pose proof (sin_abs_le (x * y)) as B. rewrite Rabs_mult in B.
  assert (P : 0 < Rabs x) by (apply Rabs_pos_lt; exact N).
  apply (Rmult_le_reg_r (Rabs x)); [exact P|]. rewrite Rmult_assoc, Rinv_l by lra. lra.
Qed.

(** exp(-a x) sin(x)/x integrated over [0, U]. *)
Definition damped (U a : R) : R := RInt (fun x => exp (- a * x) * sinc 1 x) 0 U.
Lemma damped_ex U a : ex_RInt (fun x => exp (- a * x) * sinc 1 x) 0 U.
Proof.
  apply (ex_RInt_continuous (V := R_CompleteNormedModule)). intros z _.
  apply (continuous_mult (K := R_AbsRing) (fun x => exp (- a * x)) (sinc 1)); [|apply sinc_cont].
  apply (ex_derive_continuous (V := R_NormedModule)). auto_derive. exact I.
Qed.
Lemma sinc1 x : x * sinc 1 x = sin x.
Proof.
  unfold sinc. destruct (Req_EM_T x 0) as [->|N]; [rewrite sin_0; ring|].
  rewrite Rmult_1_r. field. exact N.
Qed.
(** Its derivative in [a], in closed form. *)
Lemma damped_derive U a : is_derive (damped U) a (- ((1 - exp (- a * U) * (a * sin U + cos U)) / (1 + a ^ 2))).
Proof.
  assert (D0 : forall a x, is_derive (fun a => exp (- a * x) * sinc 1 x) a (- (exp (- a * x) * sin x))).
  { intros b x. auto_derive; [exact I|]. rewrite <- (sinc1 x). ring. }
  assert (D : is_derive (damped U) a (RInt (fun x => Derive (fun a => exp (- a * x) * sinc 1 x) a) 0 U)).
  { apply is_derive_RInt_param.
    - exists (mkposreal 1 Rlt_0_1). intros y _ t _. eexists. apply D0.
    - intros t _. apply (continuity_2d_pt_ext (fun u v => - (exp (- u * v) * sin v))).
      { intros u v. symmetry. apply is_derive_unique. apply D0. }
      apply continuity_2d_pt_opp. apply continuity_2d_pt_mult.
      + apply continuity_1d_2d_pt_comp; [apply derivable_continuous_pt; apply derivable_pt_exp|].
        apply continuity_2d_pt_mult; [apply continuity_2d_pt_opp, continuity_2d_pt_id1|apply continuity_2d_pt_id2].
      + apply continuity_1d_2d_pt_comp; [apply derivable_continuous_pt; apply derivable_pt_sin|apply continuity_2d_pt_id2].
    - exists (mkposreal 1 Rlt_0_1). intros y _. apply damped_ex. }
  match type of D with is_derive _ _ ?d => match goal with |- is_derive _ _ ?d' => replace d' with d; [exact D|] end end.
  apply (is_RInt_unique (V := R_CompleteNormedModule)).
  apply (isi_ext (fun x => - (exp (- a * x) * sin x))).
  { intros x _. symmetry. apply is_derive_unique. apply D0. }
  assert (P : 0 < 1 + a ^ 2) by nra.
  apply (isi_eq _ 0 U ((exp (- a * U) * (a * sin U + cos U)) / (1 + a ^ 2) - (exp (- a * 0) * (a * sin 0 + cos 0)) / (1 + a ^ 2))).
  2: { rewrite Rmult_0_r, exp_0, sin_0, cos_0. field. lra. }
  apply (is_RInt_derive (V := R_CompleteNormedModule) (fun x => (exp (- a * x) * (a * sin x + cos x)) / (1 + a ^ 2))).
  - intros x _. auto_derive; [exact I|]. field. cbn in P. lra.
  - intros x _. apply (ex_derive_continuous (V := R_NormedModule)). auto_derive. exact I.
Qed.
Lemma damped_small U A : 0 <= U -> 0 < A -> Rabs (damped U A) <= / A.
Proof.
  intros HU HA. unfold damped.
  assert (E : is_RInt (fun x => exp (- A * x)) 0 U ((1 - exp (- A * U)) / A)).
  { apply (isi_eq _ 0 U (- exp (- A * U) / A - - exp (- A * 0) / A)).
    2: { rewrite Rmult_0_r, exp_0. field. lra. }
    apply (is_RInt_derive (V := R_CompleteNormedModule) (fun x => - exp (- A * x) / A)).
    - intros x _. auto_derive; [lra|]. field. lra.
    - intros x _. apply (ex_derive_continuous (V := R_NormedModule)). auto_derive. exact I. }
  apply Rle_trans with (RInt (fun x => Rabs (exp (- A * x) * sinc 1 x)) 0 U).
  { apply abs_RInt_le; [exact HU|apply damped_ex]. }
  apply Rle_trans with (RInt (fun x => exp (- A * x)) 0 U).
  { apply RInt_le; [exact HU| |eexists; exact E|].
    - apply ex_RInt_norm. apply damped_ex.
    - intros x _. rewrite Rabs_mult, (Rabs_pos_eq (exp _)) by (left; apply exp_pos).
      pose proof (sinc_bound 1 x) as B. rewrite Rabs_R1 in B. pose proof (exp_pos (- A * x)). nra. }
  rewrite (is_RInt_unique (V := R_CompleteNormedModule) _ _ _ _ E).
  pose proof (exp_pos (- A * U)). unfold Rdiv. assert (0 < / A) by (apply Rinv_0_lt_compat; exact HA). nra.
Qed.
Definition sine_integral (U : R) : R := RInt (sinc 1) 0 U.
Lemma sine_ex y U : ex_RInt (sinc y) 0 U.
Proof. apply (ex_RInt_continuous (V := R_CompleteNormedModule)). intros z _. apply sinc_cont. Qed.
Lemma damped_0 U : damped U 0 = sine_integral U.
Proof.
  unfold damped, sine_integral. apply (RInt_ext (V := R_CompleteNormedModule)). intros x _.
  replace (- 0 * x) with 0 by ring. rewrite exp_0. apply Rmult_1_l.
Qed.
Lemma sine_near U A : 0 < U -> 0 < A -> Rabs (sine_integral U - atan A) <= / A + 2 / U.
Proof.
  intros HU HA.
  (* the integral of the derivative of damped + atan *)
  set (r := fun a => exp (- a * U) * (a * sin U + cos U) / (1 + a ^ 2)).
  assert (D : forall a, is_derive (fun a => damped U a + atan a) a (r a)).
  { intros a. unfold r. assert (P : 0 < 1 + a ^ 2) by nra.
    replace (exp (- a * U) * (a * sin U + cos U) / (1 + a ^ 2)) with
      (- ((1 - exp (- a * U) * (a * sin U + cos U)) / (1 + a ^ 2)) + / (1 + a ^ 2)) by (field; lra).
    apply (is_derive_plus (K := R_AbsRing) (V := R_NormedModule)); [apply damped_derive|].
    replace (1 + a ^ 2) with (1 + Rsqr a) by (unfold Rsqr; ring). apply is_derive_atan. }
  assert (C : forall a, continuous r a).
  { intros a. unfold r. apply (ex_derive_continuous (V := R_NormedModule)). assert (P : 0 < 1 + a ^ 2) by nra. auto_derive. cbn in P |- *. lra. }
  assert (E : is_RInt r 0 A ((damped U A + atan A) - (damped U 0 + atan 0))).
  { apply (is_RInt_derive (V := R_CompleteNormedModule) (fun a => damped U a + atan a)); intros; [apply D|apply C]. }
  assert (B : Rabs (RInt r 0 A) <= 2 / U).
  { apply Rle_trans with (RInt (fun a => Rabs (r a)) 0 A).
    { apply abs_RInt_le; [lra|]. eexists; exact E. }
    assert (E2 : is_RInt (fun a => 2 * exp (- U * a)) 0 A (2 * ((1 - exp (- U * A)) / U))).
    { apply isi_scal with ((1 - exp (- U * A)) / U); [|reflexivity].
      apply (isi_eq _ 0 A (- exp (- U * A) / U - - exp (- U * 0) / U)).
      2: { rewrite Rmult_0_r, exp_0. field. lra. }
      apply (is_RInt_derive (V := R_CompleteNormedModule) (fun x => - exp (- U * x) / U)).
      - intros x _. auto_derive; [lra|]. field. lra.
      - intros x _. apply (ex_derive_continuous (V := R_NormedModule)). auto_derive. exact I. }
    apply Rle_trans with (RInt (fun a => 2 * exp (- U * a)) 0 A).
    { apply RInt_le; [lra| |eexists; exact E2|].
      - apply ex_RInt_norm. eexists; exact E.
      - intros a [Ha _]. unfold r, Rdiv. assert (P : 0 < 1 + a ^ 2) by nra.
        rewrite !Rabs_mult, Rabs_inv, (Rabs_pos_eq (exp _)) by (left; apply exp_pos). rewrite (Rabs_pos_eq (1 + a ^ 2)) by lra.
        replace (- a * U) with (- U * a) by ring.
        assert (Q : Rabs (a * sin U + cos U) <= 2 * (1 + a ^ 2)).
        { apply Rabs_le. pose proof (SIN_bound U). pose proof (COS_bound U). nra. }
        pose proof (exp_pos (- U * a)) as EP.
        rewrite Rmult_assoc. rewrite (Rmult_comm 2). apply Rmult_le_compat_l; [lra|].
        apply (Rmult_le_reg_r (1 + a ^ 2)); [exact P|]. rewrite Rmult_assoc, Rinv_l by lra. lra. }
    rewrite (is_RInt_unique (V := R_CompleteNormedModule) _ _ _ _ E2).
    pose proof (exp_pos (- U * A)). unfold Rdiv. assert (0 < / U) by (apply Rinv_0_lt_compat; exact HU). nra. }
  rewrite (is_RInt_unique (V := R_CompleteNormedModule) _ _ _ _ E) in B. rewrite damped_0, atan_0 in B.
  pose proof (damped_small U A (Rlt_le _ _ HU) HA) as S1.
  apply Rabs_le_between in B. apply Rabs_le_between in S1. apply Rabs_le. lra.
Qed.
Lemma atan_le x : 0 <= x -> atan x <= x.
Proof.
  intros H. destruct (MVT_gen atan 0 x (fun y => / (1 + Rsqr y))) as [c [_ E]].
  - intros y _. apply is_derive_atan.
  - intros y _. apply derivable_continuous_pt, derivable_pt_atan.
  - rewrite atan_0, !Rminus_0_r in E. rewrite E.
    assert (P : 1 <= 1 + Rsqr c) by (pose proof (Rle_0_sqr c); lra).
    assert (/ (1 + Rsqr c) <= 1) by (rewrite <- Rinv_1; apply Rinv_le_contravar; lra). nra.
Qed.
Lemma atan_near A : 0 < A -> PI / 2 - / A <= atan A < PI / 2.
Proof.
  intros H. pose proof (atan_inv A H) as E. pose proof (atan_bound A).
  pose proof (atan_le (/ A) (Rlt_le _ _ (Rinv_0_lt_compat _ H))). lra.
Qed.
(** Dirichlet's integral, with its rate. *)
Lemma sine_limit U : 0 < U -> Rabs (sine_integral U - PI / 2) <= 2 / U.
Proof.
  intros HU. apply le_epsilon. intros e He.
  assert (HA : 0 < 2 / e) by (apply Rdiv_lt_0_compat; lra).
  pose proof (sine_near U (2 / e) HU HA) as B. pose proof (atan_near (2 / e) HA) as T.
  replace (/ (2 / e)) with (e / 2) in * by (field; lra).
  apply Rabs_le_between in B. apply Rabs_le. lra.
Qed.
Lemma sine_small U : 0 <= U -> Rabs (sine_integral U) <= U.
Proof.
  intros HU. unfold sine_integral.
  apply Rle_trans with (RInt (fun x => Rabs (sinc 1 x)) 0 U).
  { apply abs_RInt_le; [exact HU|apply sine_ex]. }
  apply Rle_trans with (RInt (fun _ => 1) 0 U).
  { apply RInt_le; [exact HU|apply ex_RInt_norm; apply sine_ex|apply ex_RInt_const|].
    intros x _. pose proof (sinc_bound 1 x) as B. rewrite Rabs_R1 in B. exact B. }
  rewrite RInt_const. unfold scal. cbn. unfold mult. cbn. lra.
Qed.
Lemma sine_error U : 0 <= U -> Rabs (PI / 2 - sine_integral U) <= 3.
Proof.
  intros HU. destruct (Rle_lt_dec U 1) as [L|L].
  - pose proof (sine_small U HU) as B. apply Rabs_le_between in B. pose proof PI_4. pose proof PI_RGT_0. apply Rabs_le. lra.
  - assert (P : 0 < U) by lra. pose proof (sine_limit U P) as B. rewrite Rabs_minus_sym.
    assert (2 / U <= 2). { apply (Rmult_le_reg_r U); [lra|]. unfold Rdiv. rewrite Rmult_assoc, Rinv_l; lra. } lra.
Qed.
Lemma sine_scale y U : RInt (sinc y) 0 U = sine_integral (y * U).
Proof.
  apply (is_RInt_unique (V := R_CompleteNormedModule)).
  assert (A := is_RInt_comp_lin (V := R_NormedModule) (sinc 1) y 0 0 U (sine_integral (y * U))).
  replace (y * 0 + 0) with 0 in A by ring. replace (y * U + 0) with (y * U) in A by ring.
  assert (B := A (RInt_correct (V := R_CompleteNormedModule) (sinc 1) 0 (y * U) (sine_ex 1 (y * U)))).
  apply (isi_ext (fun x => scal y (sinc 1 (y * x + 0)))); [|exact B].
  intros x _. change (y * sinc 1 (y * x + 0) = sinc y x). rewrite Rplus_0_r. unfold sinc.
  destruct (Req_EM_T x 0) as [->|N].
  - destruct (Req_EM_T (y * 0) 0) as [_|K]; [ring|exfalso; apply K; ring].
  - destruct (Req_EM_T (y * x) 0) as [Z|K].
    + assert (y = 0) by nra. subst y. rewrite Rmult_0_r, sin_0. field. exact N.
    + assert (y <> 0) by (intros ->; apply K; ring). rewrite Rmult_1_r, (Rmult_comm x y). field. auto.
Qed.
Lemma sine_odd x : sine_integral (- x) = - sine_integral x.
Proof.
  rewrite <- (Rmult_1_l x) at 2. rewrite <- (sine_scale 1 x). replace (- x) with (-1 * x) by ring. rewrite <- (sine_scale (-1) x).
  symmetry. replace (- RInt (sinc 1) 0 x) with (opp (RInt (sinc 1) 0 x)) by reflexivity.
  rewrite <- (RInt_opp (V := R_CompleteNormedModule)) by apply sine_ex.
  apply (RInt_ext (V := R_CompleteNormedModule)). intros z _. change (- sinc 1 z = sinc (-1) z). unfold sinc.
  destruct (Req_EM_T z 0) as [->|N]; [ring|]. replace (z * -1) with (- (z * 1)) by ring. rewrite sin_neg. unfold Rdiv. ring.
Qed.

(** Attari's kernel. *)
Definition kernel (y u : R) : R := (cos (u * y) + sinc y u) / (1 + u * u).
Lemma den_pos u : 0 < 1 + u * u.
Proof. nra. Qed.
Lemma kernel_cont y u : continuous (kernel y) u.
Proof.
  unfold kernel. apply (continuous_mult (K := R_AbsRing) (fun u => cos (u * y) + sinc y u) (fun u => / (1 + u * u))).
  - apply (continuous_plus (K := R_AbsRing) (V := R_NormedModule) (fun u => cos (u * y)) (sinc y)); [|apply sinc_cont].
    apply (ex_derive_continuous (V := R_NormedModule)). auto_derive. exact I.
  - apply (ex_derive_continuous (V := R_NormedModule)). pose proof (den_pos u). auto_derive. lra.
Qed.
Lemma kernel_ex y a b : ex_RInt (kernel y) a b.
Proof. apply (ex_RInt_continuous (V := R_CompleteNormedModule)). intros z _. apply kernel_cont. Qed.
Definition kint (U y : R) : R := RInt (kernel y) 0 U.
Lemma sinc_mul y u : u * sinc y u = sin (u * y).
Proof.
  unfold sinc. destruct (Req_EM_T u 0) as [->|N]; [rewrite !Rmult_0_l, sin_0; reflexivity|]. field. exact N.
Qed.
Lemma sinc_derive y u : is_derive (fun y => sinc y u) y (cos (u * y)).
Proof.
  unfold sinc. destruct (Req_EM_T u 0) as [->|N].
  - auto_derive; [exact I|]. rewrite Rmult_0_l, cos_0. reflexivity.
  - auto_derive; [exact I|]. field. exact N.
Qed.
Lemma kernel_derive y u : is_derive (fun y => kernel y u) y (kernel y u - sinc y u).
Proof.
  unfold kernel. pose proof (den_pos u) as P.
  replace ((cos (u * y) + sinc y u) / (1 + u * u) - sinc y u) with ((- (u * sin (u * y)) + cos (u * y)) * / (1 + u * u)).
  2: { rewrite <- (sinc_mul y u). field. lra. }
  assert (D : is_derive (fun y => cos (u * y) + sinc y u) y (- (u * sin (u * y)) + cos (u * y))).
  { apply (is_derive_plus (K := R_AbsRing) (V := R_NormedModule) (fun y => cos (u * y)) (fun y => sinc y u)); [|apply sinc_derive].
    auto_derive; [exact I|ring]. }
  apply (is_derive_ext (fun y => scal (/ (1 + u * u)) (cos (u * y) + sinc y u))).
  { intros t. unfold scal. cbn. unfold mult. cbn. unfold Rdiv. ring. }
  replace ((- (u * sin (u * y)) + cos (u * y)) * / (1 + u * u)) with (scal (/ (1 + u * u)) (- (u * sin (u * y)) + cos (u * y)))
    by (unfold scal; cbn; unfold mult; cbn; ring).
  apply (is_derive_scal (fun y => cos (u * y) + sinc y u)). exact D.
Qed.
Lemma kint_derive U y : is_derive (kint U) y (kint U y - sine_integral (y * U)).
Proof.
  assert (D : is_derive (kint U) y (RInt (fun u => Derive (fun y => kernel y u) y) 0 U)).
  { apply is_derive_RInt_param.
    - exists (mkposreal 1 Rlt_0_1). intros z _ t _. eexists. apply kernel_derive.
    - intros t _. apply (continuity_2d_pt_ext (fun z v => (- (v * sin (v * z)) + cos (v * z)) * / (1 + v * v))).
      { intros z v. symmetry. apply is_derive_unique. pose proof (den_pos v) as P.
        replace ((- (v * sin (v * z)) + cos (v * z)) * / (1 + v * v)) with (kernel z v - sinc z v); [apply kernel_derive|].
        unfold kernel. rewrite <- (sinc_mul z v). field. lra. }
      assert (VZ : continuity_2d_pt (fun z v => v * z) y t)
        by (apply continuity_2d_pt_mult; [apply continuity_2d_pt_id2|apply continuity_2d_pt_id1]).
      apply continuity_2d_pt_mult; [apply continuity_2d_pt_plus|].
      + apply continuity_2d_pt_opp, continuity_2d_pt_mult; [apply continuity_2d_pt_id2|].
        apply continuity_1d_2d_pt_comp; [apply derivable_continuous_pt, derivable_pt_sin|exact VZ].
      + apply continuity_1d_2d_pt_comp; [apply derivable_continuous_pt, derivable_pt_cos|exact VZ].
      + apply continuity_2d_pt_inv; [|pose proof (den_pos t); lra].
        apply continuity_2d_pt_plus; [apply continuity_2d_pt_const|apply continuity_2d_pt_mult; apply continuity_2d_pt_id2].
    - exists (mkposreal 1 Rlt_0_1). intros z _. apply kernel_ex. }
  match type of D with is_derive _ _ ?d => match goal with |- is_derive _ _ ?d' => replace d' with d; [exact D|] end end.
  rewrite <- sine_scale. unfold kint. symmetry.
  apply (eq_trans (y := minus (RInt (kernel y) 0 U) (RInt (sinc y) 0 U))); [reflexivity|].
  rewrite <- (RInt_minus (V := R_CompleteNormedModule)); [|apply kernel_ex|apply sine_ex].
  apply (RInt_ext (V := R_CompleteNormedModule)). intros u _. symmetry. apply is_derive_unique. apply kernel_derive.
Qed.
Lemma kint_0 U : kint U 0 = atan U.
Proof.
  apply (is_RInt_unique (V := R_CompleteNormedModule)).
  apply (isi_ext (fun u => / (1 + u * u))).
  { intros u _. unfold kernel, sinc. rewrite Rmult_0_r, cos_0, sin_0. destruct (Req_EM_T u 0); unfold Rdiv; ring. }
  apply (isi_eq _ 0 U (atan U - atan 0)); [|rewrite atan_0; ring].
  apply (is_RInt_derive (V := R_CompleteNormedModule) atan).
  - intros x _. change (x * x) with (Rsqr x). apply is_derive_atan.
  - intros x _. apply (ex_derive_continuous (V := R_NormedModule)). pose proof (den_pos x). auto_derive. lra.
Qed.
Lemma mvt_bound (F : R -> R) (d : R -> R) B a b : a <= b ->
  (forall x, a <= x <= b -> is_derive F x (d x)) -> (forall x, a <= x <= b -> Rabs (d x) <= B) ->
  Rabs (F b - F a) <= B * (b - a).
Proof.
  intros L D HB. destruct (MVT_gen F a b d) as [c [Hc E]].
  - intros x Hx. rewrite Rmin_left, Rmax_right in Hx by lra. apply D. lra.
  - intros x Hx. rewrite Rmin_left, Rmax_right in Hx by lra. apply continuity_pt_filterlim.
    apply (ex_derive_continuous (V := R_NormedModule)). eexists. apply D. lra.
  - rewrite Rmin_left, Rmax_right in Hc by lra. rewrite E, Rabs_mult, (Rabs_pos_eq (b - a)) by lra.
    apply Rmult_le_compat_r; [lra|]. apply HB. lra.
Qed.
Lemma drift_bound (F w : R -> R) W U y : 0 < U -> 0 <= y ->
  (forall x, 0 <= x <= y -> is_derive F x (w x * (PI / 2 - sine_integral (x * U)))) ->
  (forall x, 0 <= x <= y -> Rabs (w x) <= W) ->
  Rabs (F y - F 0) <= W * (3 + 2 * y) / sqrt U.
Proof.
  intros HU Hy D HW. set (d := / sqrt U).
  assert (SU : 0 < sqrt U) by (apply sqrt_lt_R0; exact HU).
  assert (Hd : 0 < d) by (apply Rinv_0_lt_compat; exact SU).
  assert (DU : 2 / (d * U) = 2 * d).
  { unfold d. rewrite <- (sqrt_sqrt U) at 2 by lra. field. lra. }
  assert (W0 : 0 <= W) by (apply Rle_trans with (Rabs (w 0)); [apply Rabs_pos|apply HW; lra]).
  replace (W * (3 + 2 * y) / sqrt U) with (W * 3 * d + W * (2 * d) * y) by (unfold d; field; lra).
  assert (first : forall z, 0 <= z <= y -> Rabs (F z - F 0) <= W * 3 * (z - 0)).
  { intros z Hz. apply (mvt_bound F (fun x => w x * (PI / 2 - sine_integral (x * U)))); [lra|intros; apply D; lra|].
    intros x Hx. rewrite Rabs_mult. apply Rmult_le_compat; try apply Rabs_pos; [apply HW; lra|apply sine_error; nra]. }
  assert (0 <= W * (2 * d) * y) by (apply Rmult_le_pos; [apply Rmult_le_pos; lra|lra]).
  destruct (Rle_lt_dec y d) as [L|L].
  - pose proof (first y ltac:(lra)). assert (W * 3 * y <= W * 3 * d) by (apply Rmult_le_compat_l; lra). lra.
  - pose proof (first d ltac:(lra)) as B1.
    assert (B2 : Rabs (F y - F d) <= W * (2 * d) * (y - d)).
    { apply (mvt_bound F (fun x => w x * (PI / 2 - sine_integral (x * U)))); [lra|intros; apply D; lra|].
      intros x Hx. rewrite Rabs_mult. apply Rmult_le_compat; try apply Rabs_pos; [apply HW; lra|].
      assert (PX : 0 < x * U) by (apply Rmult_lt_0_compat; lra).
      rewrite Rabs_minus_sym. apply Rle_trans with (2 / (x * U)); [apply sine_limit; exact PX|]. rewrite <- DU.
      unfold Rdiv. apply Rmult_le_compat_l; [lra|]. apply Rinv_le_contravar; [apply Rmult_lt_0_compat; lra|].
      apply Rmult_le_compat_r; lra. }
    replace (F y - F 0) with ((F y - F d) + (F d - F 0)) by ring.
    pose proof (Rabs_triang (F y - F d) (F d - F 0)).
    assert (0 <= W * (2 * d) * d) by (apply Rmult_le_pos; [apply Rmult_le_pos; lra|lra]). lra.
Qed.
(** The value of the kernel's integral over the half line, with a rate. *)
Definition kernel_value (y : R) : R := PI * Rmin 1 (exp y) - PI / 2.
Lemma kint_rate U y : 0 < U -> Rabs (kint U y - kernel_value y) <= exp (Rabs y) * (/ U + exp (Rabs y) * (3 + 2 * Rabs y) / sqrt U).
Proof.
  intros HU. pose proof (atan_near U HU) as AT. unfold kernel_value. pose proof (exp_pos y) as EP.
  destruct (Rle_lt_dec 0 y) as [P|P].
  - rewrite (Rabs_pos_eq y) by lra. rewrite Rmin_left by (rewrite <- exp_0; destruct P as [P| <-]; [left; apply exp_increasing; exact P|lra]).
    set (F := fun x => exp (- x) * (kint U x - PI / 2)).
    assert (B : Rabs (F y - F 0) <= exp y * (3 + 2 * y) / sqrt U).
    { apply (drift_bound F (fun x => exp (- x))); [exact HU|exact P| |].
      - intros x _. unfold F. pose proof (kint_derive U x) as K.
        replace (exp (- x) * (PI / 2 - sine_integral (x * U))) with
          (plus (mult (- exp (- x)) (kint U x - PI / 2)) (mult (exp (- x)) (kint U x - sine_integral (x * U)))).
        2: { unfold plus, mult. cbn. ring. }
        apply (is_derive_mult (fun x => exp (- x)) (fun x => kint U x - PI / 2) x (- exp (- x)) (kint U x - sine_integral (x * U))); [| |exact Rmult_comm].
        + auto_derive; [exact I|ring].
        + replace (kint U x - sine_integral (x * U)) with (minus (kint U x - sine_integral (x * U)) 0) by (unfold minus, plus, opp; cbn; ring).
          apply (is_derive_minus (K := R_AbsRing) (V := R_NormedModule) (kint U) (fun _ => PI / 2)); [exact K|apply (is_derive_const (K := R_AbsRing) (V := R_NormedModule))].
      - intros x Hx. rewrite Rabs_pos_eq by (left; apply exp_pos). destruct (Req_dec (- x) y) as [->|N]; [lra|]. left. apply exp_increasing. lra. }
    assert (E : kint U y - (PI * 1 - PI / 2) = exp y * ((F y - F 0) + (atan U - PI / 2))).
    { unfold F. rewrite kint_0, Ropp_0, exp_0. replace (exp y * (exp (- y) * (kint U y - PI / 2) - 1 * (atan U - PI / 2) + (atan U - PI / 2))) with ((exp y * exp (- y)) * (kint U y - PI / 2)) by ring.
      rewrite <- exp_plus, Rplus_opp_r, exp_0. lra. }
    rewrite E, Rabs_mult, (Rabs_pos_eq (exp y)) by lra. apply Rmult_le_compat_l; [lra|].
    pose proof (Rabs_triang (F y - F 0) (atan U - PI / 2)) as T.
    assert (Rabs (atan U - PI / 2) <= / U) by (apply Rabs_le; lra). lra.
  - rewrite (Rabs_left y) by lra. rewrite Rmin_right by (rewrite <- exp_0; left; apply exp_increasing; exact P).
    set (F := fun x => exp x * (kint U (- x) + PI / 2)).
    assert (B : Rabs (F (- y) - F 0) <= exp (- y) * (3 + 2 * - y) / sqrt U).
    { apply (drift_bound F exp); [exact HU|lra| |].
      - intros x _. unfold F. pose proof (kint_derive U (- x)) as K.
        replace (exp x * (PI / 2 - sine_integral (x * U))) with
          (plus (mult (exp x) (kint U (- x) + PI / 2)) (mult (exp x) (- (kint U (- x) - sine_integral (- x * U))))).
        2: { replace (- x * U) with (- (x * U)) by ring. rewrite sine_odd. unfold plus, mult. cbn. ring. }
        apply (is_derive_mult exp (fun x => kint U (- x) + PI / 2) x (exp x) (- (kint U (- x) - sine_integral (- x * U)))); [| |exact Rmult_comm].
        + auto_derive; [exact I|ring].
        + replace (- (kint U (- x) - sine_integral (- x * U))) with (plus (scal (-1) (kint U (- x) - sine_integral (- x * U))) 0)
            by (unfold plus, scal; cbn; unfold mult; cbn; ring).
          apply (is_derive_plus (K := R_AbsRing) (V := R_NormedModule) (fun x => kint U (- x)) (fun _ => PI / 2)); [|apply (is_derive_const (K := R_AbsRing) (V := R_NormedModule))].
          apply (is_derive_comp (K := R_AbsRing) (V := R_NormedModule) (kint U) (fun x => - x)); [exact K|]. auto_derive; [exact I|ring].
      - intros x Hx. rewrite Rabs_pos_eq by (left; apply exp_pos). destruct (Req_dec x (- y)) as [->|N]; [lra|]. left. apply exp_increasing. lra. }
    assert (E : kint U y - (PI * exp y - PI / 2) = exp y * ((F (- y) - F 0) + (atan U - PI / 2))).
    { unfold F. rewrite Ropp_involutive, Ropp_0, kint_0, exp_0.
      replace (exp y * (exp (- y) * (kint U y + PI / 2) - 1 * (atan U + PI / 2) + (atan U - PI / 2))) with ((exp y * exp (- y)) * (kint U y + PI / 2) - exp y * PI) by field.
      rewrite <- exp_plus, Rplus_opp_r, exp_0. lra. }
    rewrite E, Rabs_mult, (Rabs_pos_eq (exp y)) by lra.
    assert (exp y <= exp (- y)) by (left; apply exp_increasing; lra).
    pose proof (Rabs_triang (F (- y) - F 0) (atan U - PI / 2)) as T.
    assert (Rabs (atan U - PI / 2) <= / U) by (apply Rabs_le; lra).
    apply Rmult_le_compat; [lra|apply Rabs_pos|lra|lra].
Qed.
