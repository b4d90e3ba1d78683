(** Complex exponential, logarithm and square root, and derivatives of complex
    functions of a real variable. *)
From Coq Require Import Reals Lra Psatz.
From Coquelicot Require Import Coquelicot.
From Verif Require Import IntegrateModel BoundedCalModel HestonFourierModel.
Open Scope R_scope.

Lemma c_eq (a b : C) : fst a = fst b -> snd a = snd b -> a = b.
Proof. destruct a, b. cbn. intros -> ->. reflexivity. Qed.
Lemma ceq_spec a b : ceq a b = true <-> a = b.
Proof.
  unfold ceq. destruct (Req_EM_T (fst a) (fst b)) as [A|A]; destruct (Req_EM_T (snd a) (snd b)) as [B|B]; cbn; split; intros H;
    try discriminate; try (apply c_eq; assumption); try reflexivity; subst; contradiction.
Qed.
Lemma ceq_false a b : a <> b -> ceq a b = false.
Proof. intros H. destruct (ceq a b) eqn:E; [apply ceq_spec in E; contradiction|reflexivity]. Qed.
Lemma cdiv_ok a b : b <> RtoC 0 -> cdiv a b = Some (Cdiv a b).
Proof. intros H. unfold cdiv. rewrite ceq_false by exact H. reflexivity. Qed.

Lemma cexp_plus a b : cexp (Cplus a b) = Cmult (cexp a) (cexp b).
Proof. unfold cexp, Cplus, Cmult. cbn. rewrite exp_plus, cos_plus, sin_plus. f_equal; ring. Qed.
Lemma cexp_0 : cexp 0 = 1.
Proof. unfold cexp. cbn. rewrite exp_0, cos_0, sin_0. apply c_eq; cbn; ring. Qed.
Lemma cmod_sq z : Cmod z * Cmod z = fst z * fst z + snd z * snd z.
Proof. unfold Cmod. rewrite sqrt_sqrt; nra. Qed.
Lemma cmod_pos z : z <> RtoC 0 -> 0 < Cmod z.
Proof. apply Cmod_gt_0. Qed.
Lemma cmod_cexp z : Cmod (cexp z) = exp (fst z).
Proof.
  unfold Cmod, cexp. cbn [fst snd]. pose proof (sin2_cos2 (snd z)) as E. unfold Rsqr in E.
  replace ((exp (fst z) * cos (snd z)) ^ 2 + (exp (fst z) * sin (snd z)) ^ 2) with (exp (fst z) * exp (fst z)) by nra.
  apply sqrt_square. left. apply exp_pos.
Qed.
Lemma cexp_neq z : cexp z <> RtoC 0.
Proof. intros E. pose proof (cmod_cexp z) as M. rewrite E, Cmod_0 in M. pose proof (exp_pos (fst z)). lra. Qed.
Lemma cmod_ge_re z : Rabs (fst z) <= Cmod z.
Proof.
  pose proof (cmod_sq z) as E. pose proof (Cmod_ge_0 z). apply Rabs_le.
  destruct (Rle_dec (fst z) (Cmod z)); destruct (Rle_dec (- Cmod z) (fst z)); split; nra.
Qed.
Lemma off_axis z : z <> RtoC 0 -> (0 < fst z \/ snd z <> 0) -> 0 < Cmod z + fst z.
Proof.
  intros N [P|P].
  - pose proof (Cmod_ge_0 z). lra.
  - pose proof (cmod_sq z) as E. pose proof (Cmod_ge_0 z).
    assert (0 < snd z * snd z) by nra. destruct (Rlt_dec 0 (Cmod z + fst z)) as [G|G]; [exact G|exfalso].
    assert (Cmod z <= - fst z) by lra. nra.
Qed.
(** exp and log are inverse. *)
Lemma atan_cos q : cos (2 * atan q) = (1 - q * q) / (1 + q * q) /\ sin (2 * atan q) = 2 * q / (1 + q * q).
Proof.
  assert (P : 0 < 1 + q * q) by nra.
  rewrite cos_2a, sin_2a, cos_atan, sin_atan. unfold Rsqr.
  set (r := sqrt (1 + q * q)). assert (R2 : r * r = 1 + q * q) by (apply sqrt_sqrt; lra).
  assert (r <> 0) by (intros E; rewrite E in R2; lra).
  split.
  - rewrite <- R2. field. auto.
  - rewrite <- R2. field. auto.
Qed.
Lemma clog_off_exp z : 0 < Cmod z + fst z -> cexp (clog z) = z.
Proof.
  intros H. assert (N : z <> RtoC 0). { intros ->. rewrite Cmod_0 in H. cbn in H. lra. }
  pose proof (cmod_pos z N) as M. pose proof (cmod_sq z) as E.
  unfold cexp, clog. cbn [fst snd]. rewrite exp_ln by exact M. unfold carg. destruct (Rlt_dec 0 (Cmod z + fst z)) as [_|K]; [|contradiction].
  destruct (atan_cos (snd z / (Cmod z + fst z))) as [A B]. rewrite A, B.
  set (r := Cmod z) in *. set (x := fst z) in *. set (y := snd z) in *.
  assert (Q : (r + x) * (r + x) + y * y = 2 * r * (r + x)) by nra.
  assert (Y : y * y = (r - x) * (r + x)) by nra.
  assert (Q' : 1 + y / (r + x) * (y / (r + x)) = 2 * r / (r + x)).
  { apply (Rmult_eq_reg_r ((r + x) * (r + x))); [|nra]. transitivity ((r + x) * (r + x) + y * y); [field; lra|]. rewrite Q. field. lra. }
  rewrite Q'. apply c_eq; cbn [fst snd]; fold x; fold y.
  - assert (Q2 : 1 - y / (r + x) * (y / (r + x)) = 2 * x / (r + x)).
    { apply (Rmult_eq_reg_r ((r + x) * (r + x))); [|nra]. transitivity ((r + x) * (r + x) - y * y); [field; lra|]. rewrite Y. field. lra. }
    rewrite Q2. field. split; lra.
  - field. split; lra.
Qed.
Lemma clog_exp z : z <> RtoC 0 -> cexp (clog z) = z.
Proof.
  intros N. destruct (Rlt_dec 0 (Cmod z + fst z)) as [H|H]; [apply clog_off_exp; exact H|].
  pose proof (cmod_pos z N) as M. pose proof (cmod_sq z) as E. pose proof (cmod_ge_re z) as R0. apply Rabs_le_between in R0.
  assert (X : fst z = - Cmod z) by lra. assert (Y : snd z = 0) by nra.
  unfold cexp, clog, carg. cbn [fst snd]. destruct (Rlt_dec 0 (Cmod z + fst z)); [contradiction|].
  rewrite exp_ln by exact M. rewrite cos_PI, sin_PI. apply c_eq; cbn [fst snd]; lra.
Qed.
Lemma carg_range z : - PI < carg z <= PI.
Proof.
  unfold carg. pose proof PI_RGT_0. destruct (Rlt_dec 0 (Cmod z + fst z)); [|lra].
  pose proof (atan_bound (snd z / (Cmod z + fst z))). lra.
Qed.
(** The principal square root. *)
Lemma csqrt_sqr z : Cmult (csqrt z) (csqrt z) = z.
Proof.
  pose proof (cmod_sq z) as E. pose proof (Cmod_ge_0 z). pose proof (cmod_ge_re z) as R0. apply Rabs_le_between in R0.
  unfold csqrt. set (p := sqrt ((Cmod z + fst z) / 2)). set (q := sqrt ((Cmod z - fst z) / 2)).
  assert (P2 : p * p = (Cmod z + fst z) / 2) by (apply sqrt_sqrt; lra).
  assert (Q2 : q * q = (Cmod z - fst z) / 2) by (apply sqrt_sqrt; lra).
  assert (PQ : p * q = Rabs (snd z) / 2).
  { unfold p, q. rewrite <- sqrt_mult by lra. replace ((Cmod z + fst z) / 2 * ((Cmod z - fst z) / 2)) with ((snd z / 2) * (snd z / 2)) by nra.
    replace (snd z / 2 * (snd z / 2)) with (Rsqr (snd z / 2)) by reflexivity. rewrite sqrt_Rsqr_abs. unfold Rdiv. rewrite Rabs_mult, (Rabs_pos_eq (/ 2)) by lra. reflexivity. }
  destruct (Rlt_dec (snd z) 0) as [L|L].
  - rewrite Rabs_left in PQ by exact L. apply c_eq; cbn [fst snd Cmult]; nra.
  - rewrite Rabs_pos_eq in PQ by lra. apply c_eq; cbn [fst snd Cmult]; nra.
Qed.
Lemma csqrt_re z : 0 < fst z -> 0 < fst (csqrt z).
Proof. intros H. pose proof (Cmod_ge_0 z). cbn. apply sqrt_lt_R0. lra. Qed.

(** ** Derivatives of complex functions of a real variable *)
Definition is_cderive (f : R -> C) (x : R) (l : C) : Prop :=
  is_derive (fun x => fst (f x)) x (fst l) /\ is_derive (fun x => snd (f x)) x (snd l).
Lemma d_ext (f : R -> R) x (l l' : R) : is_derive f x l -> l = l' -> is_derive f x l'.
Proof. intros D <-. exact D. Qed.
Lemma d_plus (f g : R -> R) (x l m : R) : is_derive f x l -> is_derive g x m -> is_derive (fun x => f x + g x) x (l + m).
Proof. intros A B. exact (is_derive_plus (K := R_AbsRing) (V := R_NormedModule) f g x l m A B). Qed.
Lemma d_minus (f g : R -> R) (x l m : R) : is_derive f x l -> is_derive g x m -> is_derive (fun x => f x - g x) x (l - m).
Proof. intros A B. exact (is_derive_minus (K := R_AbsRing) (V := R_NormedModule) f g x l m A B). Qed.
Lemma d_mult (f g : R -> R) (x l m : R) : is_derive f x l -> is_derive g x m -> is_derive (fun x => f x * g x) x (l * g x + f x * m).
Proof. intros A B. exact (is_derive_mult f g x l m A B Rmult_comm). Qed.
Lemma d_const (c : R) x : is_derive (fun _ : R => c) x 0.
Proof. exact (is_derive_const (K := R_AbsRing) (V := R_NormedModule) c x). Qed.
Lemma d_comp (f g : R -> R) (x l m : R) : is_derive f (g x) l -> is_derive g x m -> is_derive (fun x => f (g x)) x (m * l).
Proof. intros A B. exact (is_derive_comp (K := R_AbsRing) (V := R_NormedModule) f g x l m A B). Qed.
Lemma d_inv (f : R -> R) (x l : R) : is_derive f x l -> f x <> 0 -> is_derive (fun x => / f x) x (- l / (f x * f x)).
Proof. intros A B. apply (d_ext _ _ (- l / f x ^ 2)); [exact (is_derive_inv f x l A B)|]. cbn. rewrite Rmult_1_r. reflexivity. Qed.
Lemma d_div (f g : R -> R) (x l m : R) : is_derive f x l -> is_derive g x m -> g x <> 0 -> is_derive (fun x => f x / g x) x ((l * g x - f x * m) / (g x * g x)).
Proof.
  intros A B N. apply (d_ext _ _ (l * / g x + f x * (- m / (g x * g x)))).
  - exact (d_mult f (fun x => / g x) x _ _ A (d_inv g x m B N)).
  - revert N. generalize (f x) (g x). intros a b N. field. exact N.
Qed.
Lemma d_exp x : is_derive exp x (exp x).
Proof. apply is_derive_Reals. apply derivable_pt_lim_exp. Qed.
Lemma d_cos x : is_derive cos x (- sin x).
Proof. apply is_derive_Reals. apply derivable_pt_lim_cos. Qed.
Lemma d_sin x : is_derive sin x (cos x).
Proof. apply is_derive_Reals. apply derivable_pt_lim_sin. Qed.

Lemma cd_ext f x l l' : is_cderive f x l -> l = l' -> is_cderive f x l'.
Proof. intros D <-. exact D. Qed.
Lemma cd_fun f g x l : (forall x, f x = g x) -> is_cderive f x l -> is_cderive g x l.
Proof.
  intros E [A B]. split; [apply (is_derive_ext (fun x => fst (f x)))|apply (is_derive_ext (fun x => snd (f x)))]; try assumption; intros t; rewrite E; reflexivity.
Qed.
Lemma cd_const c x : is_cderive (fun _ => c) x 0.
Proof. split; apply d_const. Qed.
Lemma cd_real (f : R -> R) x l : is_derive f x l -> is_cderive (fun x => (f x, 0)) x (l, 0).
Proof. intros D. split; cbn; [exact D|apply d_const]. Qed.
Lemma cd_plus f g x l m : is_cderive f x l -> is_cderive g x m -> is_cderive (fun x => Cplus (f x) (g x)) x (Cplus l m).
Proof. intros [A B] [U V]. split; cbn; apply d_plus; assumption. Qed.
Lemma cd_opp f x l : is_cderive f x l -> is_cderive (fun x => Copp (f x)) x (Copp l).
Proof.
  intros [A B]. split; cbn.
  - apply (is_derive_opp (K := R_AbsRing) (V := R_NormedModule) (fun x => fst (f x))). exact A.
  - apply (is_derive_opp (K := R_AbsRing) (V := R_NormedModule) (fun x => snd (f x))). exact B.
Qed.
Lemma cd_minus f g x l m : is_cderive f x l -> is_cderive g x m -> is_cderive (fun x => Cminus (f x) (g x)) x (Cminus l m).
Proof. intros A B. apply cd_plus; [exact A|apply cd_opp; exact B]. Qed.
Lemma cd_mult f g x l m : is_cderive f x l -> is_cderive g x m ->
  is_cderive (fun x => Cmult (f x) (g x)) x (Cplus (Cmult l (g x)) (Cmult (f x) m)).
Proof.
  intros [A B] [U V]. split; cbn.
  - apply (d_ext _ _ ((fst l * fst (g x) + fst (f x) * fst m) - (snd l * snd (g x) + snd (f x) * snd m))); [|ring].
    apply (d_minus (fun x => fst (f x) * fst (g x)) (fun x => snd (f x) * snd (g x))); apply d_mult; assumption.
  - apply (d_ext _ _ ((fst l * snd (g x) + fst (f x) * snd m) + (snd l * fst (g x) + snd (f x) * fst m))); [|ring].
    apply (d_plus (fun x => fst (f x) * snd (g x)) (fun x => snd (f x) * fst (g x))); apply d_mult; assumption.
Qed.
Lemma cd_scal c f x l : is_cderive f x l -> is_cderive (fun x => Cmult c (f x)) x (Cmult c l).
Proof.
  intros A. apply (cd_ext _ _ (Cplus (Cmult 0 (f x)) (Cmult c l))); [|ring]. apply cd_mult; [apply cd_const|exact A].
Qed.
Lemma sq_neq (z : C) : z <> RtoC 0 -> fst z ^ 2 + snd z ^ 2 <> 0.
Proof. intros N E. apply N. apply c_eq; cbn; nra. Qed.
Lemma cd_inv f x l : is_cderive f x l -> f x <> RtoC 0 -> is_cderive (fun x => Cinv (f x)) x (Copp (Cdiv l (Cmult (f x) (f x)))).
Proof.
  intros [A B] N. pose proof (sq_neq _ N) as S0.
  assert (S1 : is_derive (fun x => fst (f x) ^ 2 + snd (f x) ^ 2) x (2 * fst (f x) * fst l + 2 * snd (f x) * snd l)).
  { apply (d_ext _ _ ((fst l * fst (f x) + fst (f x) * fst l) + (snd l * snd (f x) + snd (f x) * snd l))); [|ring].
    apply (is_derive_ext (fun x => fst (f x) * fst (f x) + snd (f x) * snd (f x))); [intros t; cbn; ring|].
    apply (d_plus (fun x => fst (f x) * fst (f x)) (fun x => snd (f x) * snd (f x))); apply d_mult; assumption. }
  set (p := f x) in *. assert (PP : forall a b c e : R, a ^ 2 + b ^ 2 <> 0 -> (a * a - b * b) ^ 2 + (a * b + b * a) ^ 2 <> 0).
  { intros a b _ _ K. replace ((a * a - b * b) ^ 2 + (a * b + b * a) ^ 2) with ((a ^ 2 + b ^ 2) * (a ^ 2 + b ^ 2)) by ring. nra. }
  pose proof (PP _ _ 0 0 S0) as S2.
  split; cbn [fst snd Cinv].
  - apply (d_ext _ _ ((fst l * (fst p ^ 2 + snd p ^ 2) - fst p * (2 * fst p * fst l + 2 * snd p * snd l)) / ((fst p ^ 2 + snd p ^ 2) * (fst p ^ 2 + snd p ^ 2)))).
    + apply (d_div (fun x => fst (f x)) (fun x => fst (f x) ^ 2 + snd (f x) ^ 2)); [exact A|exact S1|exact S0].
    + cbn. field. split; cbn in *; lra.
  - apply (d_ext _ _ ((- snd l * (fst p ^ 2 + snd p ^ 2) - - snd p * (2 * fst p * fst l + 2 * snd p * snd l)) / ((fst p ^ 2 + snd p ^ 2) * (fst p ^ 2 + snd p ^ 2)))).
    + apply (d_div (fun x => - snd (f x)) (fun x => fst (f x) ^ 2 + snd (f x) ^ 2)); [|exact S1|exact S0].
      apply (is_derive_opp (K := R_AbsRing) (V := R_NormedModule) (fun x => snd (f x))). exact B.
    + cbn. field. split; cbn in *; lra.
Qed.
Lemma cd_div f g x l m : is_cderive f x l -> is_cderive g x m -> g x <> RtoC 0 ->
  is_cderive (fun x => Cdiv (f x) (g x)) x (Cdiv (Cminus (Cmult l (g x)) (Cmult (f x) m)) (Cmult (g x) (g x))).
Proof.
  intros A B N. apply (cd_ext _ _ (Cplus (Cmult l (Cinv (g x))) (Cmult (f x) (Copp (Cdiv m (Cmult (g x) (g x))))))).
  - apply cd_mult; [exact A|apply cd_inv; assumption].
  - field. exact N.
Qed.
Lemma cd_exp f x l : is_cderive f x l -> is_cderive (fun x => cexp (f x)) x (Cmult l (cexp (f x))).
Proof.
  intros [A B].
  pose proof (d_comp exp (fun x => fst (f x)) x _ _ (d_exp _) A) as E.
  pose proof (d_comp cos (fun x => snd (f x)) x _ _ (d_cos _) B) as CC.
  pose proof (d_comp sin (fun x => snd (f x)) x _ _ (d_sin _) B) as SS.
  split; cbn [fst snd cexp].
  - eapply d_ext; [exact (d_mult _ _ x _ _ E CC)|]. cbn. ring.
  - eapply d_ext; [exact (d_mult _ _ x _ _ E SS)|]. cbn. ring.
Qed.
Lemma cd_log f x l : is_cderive f x l -> 0 < Cmod (f x) + fst (f x) -> is_cderive (fun x => clog (f x)) x (Cdiv l (f x)).
Proof.
  intros [A B] H. assert (N : f x <> RtoC 0). { intros E. rewrite E, Cmod_0 in H. cbn in H. lra. }
  pose proof (cmod_pos _ N) as M. pose proof (cmod_sq (f x)) as E.
  set (p := f x) in *.
  assert (S1 : is_derive (fun x => fst (f x) ^ 2 + snd (f x) ^ 2) x (2 * fst p * fst l + 2 * snd p * snd l)).
  { apply (d_ext _ _ ((fst l * fst p + fst p * fst l) + (snd l * snd p + snd p * snd l))); [|ring].
    apply (is_derive_ext (fun x => fst (f x) * fst (f x) + snd (f x) * snd (f x))); [intros t; cbn; ring|].
    apply (d_plus (fun x => fst (f x) * fst (f x)) (fun x => snd (f x) * snd (f x))); apply d_mult; assumption. }
  assert (RD : is_derive (fun x => Cmod (f x)) x ((fst p * fst l + snd p * snd l) / Cmod p)).
  { unfold Cmod at 1. eapply d_ext; [apply (d_comp sqrt (fun x => fst (f x) ^ 2 + snd (f x) ^ 2)); [|exact S1]|].
    - apply is_derive_Reals. apply derivable_pt_lim_sqrt. change (f x) with p. nra.
    - change (f x) with p. change (sqrt (fst p ^ 2 + snd p ^ 2)) with (Cmod p). field. lra. }
  assert (MX : is_derive (fun x => Cmod (f x) + fst (f x)) x ((fst p * fst l + snd p * snd l) / Cmod p + fst l)) by (apply d_plus; assumption).
  split.
  - cbn [fst clog]. eapply d_ext; [apply (d_comp ln (fun x => Cmod (f x))); [|exact RD]|].
    + apply is_derive_Reals. apply derivable_pt_lim_ln. exact M.
    + change (f x) with p. assert (S0 : fst p * fst p + snd p * snd p <> 0) by nra.
      cbn. replace (fst p * (fst p * 1) + snd p * (snd p * 1)) with (Cmod p * Cmod p) by (rewrite E; ring). field. lra.
  - cbn [snd clog].
    apply (is_derive_ext_loc (fun x => 2 * atan (snd (f x) / (Cmod (f x) + fst (f x))))).
    { assert (CT : continuous (fun x => Cmod (f x) + fst (f x)) x).
      { apply (ex_derive_continuous (V := R_NormedModule)). eexists. exact MX. }
      assert (O : locally x (fun t => 0 < Cmod (f t) + fst (f t))).
      { apply CT. apply (open_gt 0). exact H. }
      revert O. apply filter_imp. intros t O. unfold carg. destruct (Rlt_dec 0 (Cmod (f t) + fst (f t))); [reflexivity|contradiction]. }
    pose proof (d_div (fun x => snd (f x)) (fun x => Cmod (f x) + fst (f x)) x _ _ B MX ltac:(cbv beta; change (f x) with p; lra)) as DQ.
    pose proof (d_comp atan _ x _ _ (is_derive_atan _) DQ) as DA.
    pose proof (d_mult (fun _ => 2) _ x _ _ (d_const 2 x) DA) as D2.
    eapply d_ext; [exact D2|]. cbv beta. change (f x) with p. unfold Rsqr.
    set (r := Cmod p) in *. set (a := fst p) in *. set (b := snd p) in *. set (a' := fst l). set (b' := snd l).
    assert (Y : b * b = (r - a) * (r + a)) by nra.
    assert (Q' : 1 + b / (r + a) * (b / (r + a)) = 2 * r / (r + a)).
    { apply (Rmult_eq_reg_r ((r + a) * (r + a))); [|nra]. transitivity ((r + a) * (r + a) + b * b); [field; lra|]. rewrite Y. field. lra. }
    rewrite Q'.
    transitivity ((a * b' - b * a') / (r * r)).
    + apply (Rmult_eq_reg_r (r * r * (r + a))); [|assert (0 < r * r * (r + a)) by (repeat apply Rmult_lt_0_compat; lra); lra].
      transitivity ((b' * r * (r + a) - b * (a * a' + b * b' + a' * r))); [field; split; lra|].
      transitivity ((a * b' - b * a') * (r + a)); [|field; lra].
      transitivity (b' * r * r + b' * r * a - b * a * a' - b' * (b * b) - b * a' * r); [ring|]. rewrite Y. ring.
    + unfold a', b'. cbn. fold a b. replace (a * (a * 1) + b * (b * 1)) with (r * r) by (rewrite E; ring). field. lra.
Qed.
