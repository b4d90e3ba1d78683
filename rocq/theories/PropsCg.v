(** C83: minimization by conjugate gradients. *)
From Coq Require Import Reals List Bool Arith Lra Lia Psatz FunctionalExtensionality.
From Verif Require Import TensorProofs CgModel CgSpec CgProofs.
Import ListNotations.
Open Scope R_scope.

(** The run: the result is one of the iterates, the number of iterations is at most
    the given one, and the run ends because of that limit or because the stopping
    condition holds; it had not held before. *)
Lemma iter_S {A} (f : A -> A) k s : Nat.iter (S k) f s = f (Nat.iter k f s). Proof. reflexivity. Qed.
Theorem C83_run (size dim : nat) (obj : objective) (x0 : nat -> vec) (tol xtol ftol : R) (max_iterations fuel : nat) stopping params search :
  let p := match params with Some p => p | None => default_params end in
  let stop := match stopping with Some c => c | None => converged_all size end in
  let iterate := fun k => Nat.iter k (cg_body size dim obj p search tol xtol ftol) (cg_initial dim obj x0 tol) in
  ((max_iterations <= fuel)%nat -> minimize size dim obj x0 tol xtol ftol max_iterations stopping params search fuel <> None)
  /\ forall s, minimize size dim obj x0 tol xtol ftol max_iterations stopping params search fuel = Some s ->
     s = iterate (num_iterations s) /\ (num_iterations s <= max_iterations)%nat
     /\ (num_iterations s = max_iterations \/ stop (converged s) (failed s) = true)
     /\ forall j, (j < num_iterations s)%nat -> stop (converged (iterate j)) (failed (iterate j)) = false.
Proof.
  intros p stop iterate. unfold minimize. fold p. fold stop. set (body := cg_body size dim obj p search tol xtol ftol) in *. set (init := cg_initial dim obj x0 tol) in *.
  assert (NI : forall k, num_iterations (iterate k) = k).
  { induction k as [|k IH]; [reflexivity|]. unfold iterate. rewrite iter_S. destruct (body_fields size dim obj p search tol xtol ftol (Nat.iter k body init) 0) as (_ & _ & _ & _ & _ & _ & _ & N). fold body in N. rewrite N. fold (iterate k). rewrite IH. reflexivity. }
  assert (GO : forall f k, ((max_iterations <= f + k)%nat -> cg_loop (cg_cond max_iterations stop) body f (iterate k) <> None)
    /\ forall s, (k <= max_iterations)%nat -> cg_loop (cg_cond max_iterations stop) body f (iterate k) = Some s -> exists m, (k <= m <= max_iterations)%nat /\ s = iterate m /\ (m = max_iterations \/ stop (converged s) (failed s) = true)
         /\ forall j, (k <= j < m)%nat -> stop (converged (iterate j)) (failed (iterate j)) = false).
  { induction f as [|f IH]; intros k.
    - cbn [cg_loop]. unfold cg_cond. rewrite NI. split.
      + intros L. destruct (Nat.ltb_spec k max_iterations); [lia|]. discriminate.
      + intros s K. destruct (Nat.ltb_spec k max_iterations) as [L|L]; cbn [andb].
        * destruct (stop (converged (iterate k)) (failed (iterate k))) eqn:ST; cbn [negb]; [|discriminate]. intros E. injection E as <-. exists k. split; [lia|]. split; [reflexivity|]. split; [right; exact ST|]. intros j J. lia.
        * intros E. injection E as <-. exists k. split; [lia|]. split; [reflexivity|]. split; [left; lia|]. intros j J. lia.
    - cbn [cg_loop]. change (body (iterate k)) with (iterate (S k)). unfold cg_cond at 1 3. rewrite NI. destruct (IH (S k)) as [A B]. destruct (Nat.ltb_spec k max_iterations) as [L|L]; cbn [andb].
      + destruct (stop (converged (iterate k)) (failed (iterate k))) eqn:ST; cbn [negb].
        * split; [discriminate|]. intros s K E. injection E as <-. exists k. split; [lia|]. split; [reflexivity|]. split; [right; exact ST|]. intros j J. lia.
        * split; [intros M; apply A; lia|]. intros s K E. destruct (B s ltac:(lia) E) as (m & M1 & M2 & M3 & M4). exists m. split; [lia|]. split; [exact M2|]. split; [exact M3|].
          intros j J. destruct (Nat.eq_dec j k) as [->|N]; [exact ST|]. apply M4. lia.
      + split; [discriminate|]. intros s K E. injection E as <-. exists k. split; [lia|]. split; [reflexivity|]. split; [left; lia|]. intros j J. lia. }
  destruct (GO fuel 0%nat) as [A B]. split; [intros L; apply A; lia|]. intros s E. destruct (B s ltac:(lia) E) as (m & M1 & M2 & M3 & M4).
  assert (N : num_iterations s = m) by (rewrite M2; apply NI). rewrite N. split; [exact M2|]. split; [lia|]. split; [exact M3|]. intros j J. apply M4. lia.
Qed.
Print Assumptions C83_run.

(** The value and the gradient of the result are those at its position, for every
    member of the batch. *)
Theorem C83_consistent (size dim : nat) (obj : objective) (x0 : nat -> vec) (tol xtol ftol : R) (max_iterations fuel : nat) stopping params search s b :
  search_evaluates search ->
  minimize size dim obj x0 tol xtol ftol max_iterations stopping params search fuel = Some s -> obj b (position s b) = (value s b, gradient s b).
Proof.
  intros SE H. destruct (C83_run size dim obj x0 tol xtol ftol max_iterations fuel stopping params search) as [_ Q]. destruct (Q s H) as (E & _). clear Q. rewrite E. clear E H.
  induction (num_iterations s) as [|k IH]; [cbn; apply surjective_pairing|]. rewrite iter_S. apply (body_consistent size dim obj _ search tol xtol ftol _ b SE IH).
Qed.
Print Assumptions C83_consistent.

(** Every search direction descends: as long as a member has not been reported as
    converged, the slope along its direction is at most - 3/4 |gradient|^2, whatever
    the objective and the line search. *)
Theorem C83_descent (size dim : nat) (obj : objective) (x0 : nat -> vec) (tol xtol ftol : R) (p : cg_params) search (k b : nat) :
  let iterate := fun k => Nat.iter k (cg_body size dim obj p search tol xtol ftol) (cg_initial dim obj x0 tol) in
  0 <= eta p -> (forall j, (j < k)%nat -> converged (iterate j) b = false) ->
  inner dim (direction (iterate k) b) (gradient (iterate k) b) <= - (3 / 4) * inner dim (gradient (iterate k) b) (gradient (iterate k) b).
Proof.
  intros iterate He. induction k as [|k IH]; intros NC.
  - cbn [Nat.iter iterate cg_initial direction gradient]. set (g := snd (obj b (x0 b))). assert (0 <= inner dim g g) by (apply rsum_nonneg; intros; apply Rle_0_sqr).
    assert (E : inner dim (fun i => - g i) g = - (1) * inner dim g g) by (unfold inner; rewrite <- rsum_scal; apply rsum_ext; intros; ring). change (Nat.iter 0 _ (cg_initial dim obj x0 tol)) with (cg_initial dim obj x0 tol). unfold iterate. cbn. fold g. rewrite E. lra.
  - specialize (IH ltac:(intros; apply NC; lia)). set (s := iterate k) in *. change (iterate (S k)) with (cg_body size dim obj p search tol xtol ftol s).
    destruct (body_fields size dim obj p search tol xtol ftol s b) as (_ & _ & G & D & _). rewrite D, G. unfold s. rewrite (NC k) by lia. fold s.
    apply (direction_descends dim (eta p)); [exact He|]. unfold inner in IH. unfold dot. assert (0 <= rsum (fun i => gradient s b i * gradient s b i) dim) by (apply rsum_nonneg; intros; apply Rle_0_sqr). lra.
Qed.
Print Assumptions C83_descent.

(** A member that has neither converged nor failed does not get worse by more than
    eps |value| in an iteration; with eps = 0 its values never increase. *)
Lemma steps_forward (size dim : nat) (obj : objective) (x0 : nat -> vec) (tol xtol ftol : R) (p : cg_params) search (k b : nat) :
  let iterate := fun k => Nat.iter k (cg_body size dim obj p search tol xtol ftol) (cg_initial dim obj x0 tol) in
  search_bounded search -> 0 <= eps p -> 0 <= eta p -> 0 <= psi_1 p -> 0 <= psi_2 p -> (forall j, (j < k)%nat -> converged (iterate j) b = false) -> 0 <= prev_step (iterate k) b.
Proof.
  intros iterate SB E0 He P1 P2. induction k as [|k IH]; intros NC; [unfold iterate; cbn; lra|]. specialize (IH ltac:(intros; apply NC; lia)).
  pose proof (C83_descent size dim obj x0 tol xtol ftol p search k b He ltac:(intros; apply NC; lia)) as D. cbv beta zeta in D. change (Nat.iter k (cg_body size dim obj p search tol xtol ftol) (cg_initial dim obj x0 tol)) with (iterate k) in D. set (s := iterate k) in *. change (iterate (S k)) with (cg_body size dim obj p search tol xtol ftol s).
  destruct (body_fields size dim obj p search tol xtol ftol s b) as (_ & _ & _ & _ & PS & _). rewrite PS. unfold chosen.
  assert (DN : dot dim (gradient s b) (direction s b) <= 0).
  { rewrite dot_comm. unfold dot. unfold inner in D. assert (0 <= rsum (fun i => gradient s b i * gradient s b i) dim) by (apply rsum_nonneg; intros; apply Rle_0_sqr). lra. }
  destruct (skipped size dim obj p s b) eqn:SK.
  - apply guess_nonneg; [intros; reflexivity|exact P1|exact P2|exact IH|exact DN].
  - destruct (SB p size (line dim obj s) (start dim s) (skipped size dim obj p s) (g_step (guessed size dim obj p s)) b E0 SK) as [_ Q]. exact Q.
Qed.
Theorem C83_no_increase (size dim : nat) (obj : objective) (x0 : nat -> vec) (tol xtol ftol : R) (p : cg_params) search (k b : nat) :
  let iterate := fun k => Nat.iter k (cg_body size dim obj p search tol xtol ftol) (cg_initial dim obj x0 tol) in
  search_evaluates search -> search_bounded search -> 0 <= eps p -> 0 <= delta p -> 0 <= eta p -> 0 <= psi_1 p -> 0 <= psi_2 p ->
  (forall j, (j <= k)%nat -> converged (iterate j) b = false) -> failed (iterate k) b = false ->
  value (iterate (S k)) b <= value (iterate k) b + eps p * Rabs (value (iterate k) b).
Proof.
  intros iterate SE SB E0 D0 He P1 P2 NC NF.
  pose proof (C83_descent size dim obj x0 tol xtol ftol p search k b He ltac:(intros; apply NC; lia)) as D. cbv beta zeta in D. change (Nat.iter k (cg_body size dim obj p search tol xtol ftol) (cg_initial dim obj x0 tol)) with (iterate k) in D.
  pose proof (steps_forward size dim obj x0 tol xtol ftol p search k b SB E0 He P1 P2 ltac:(intros; apply NC; lia)) as PS. cbv beta zeta in PS. change (Nat.iter k (cg_body size dim obj p search tol xtol ftol) (cg_initial dim obj x0 tol)) with (iterate k) in PS.
  assert (CO : consistent obj (iterate k) b).
  { clear - SE. induction k as [|k IH]; [unfold iterate, consistent; cbn; apply surjective_pairing|]. unfold iterate. rewrite iter_S. apply (body_consistent size dim obj p search tol xtol ftol _ b SE IH). }
  pose proof (NC k ltac:(lia)) as NK. clear NC. change (iterate (S k)) with (cg_body size dim obj p search tol xtol ftol (iterate k)). set (s := iterate k) in *. clearbody s. clear iterate k.
  destruct (body_fields size dim obj p search tol xtol ftol s b) as (_ & V & _). rewrite V, NK. pose proof (chosen_evaluated size dim obj p search s b SE CO) as CE. unfold chosen in *.
  assert (DN : dot dim (gradient s b) (direction s b) <= 0).
  { rewrite dot_comm. unfold dot. unfold inner in D. assert (0 <= rsum (fun i => gradient s b i * gradient s b i) dim) by (apply rsum_nonneg; intros; apply Rle_0_sqr). lra. }
  assert (EV : 0 <= eps p * Rabs (value s b)) by (apply Rmult_le_pos; [exact E0|apply Rabs_pos]).
  destruct (skipped size dim obj p s b) eqn:SK.
  - assert (C0 : 0 <= pv_x (g_step (guessed size dim obj p s) b)) by (apply guess_nonneg; [intros; reflexivity|exact P1|exact P2|exact PS|exact DN]).
    unfold skipped in SK. rewrite NF, NK, !orb_false_r in SK. apply andb_prop in SK. destruct SK as [_ W]. unfold wolfe in W. apply orb_prop in W. set (st := g_step (guessed size dim obj p s) b) in *.
    destruct W as [W|W].
    + apply andb_prop in W. destruct W as [W _]. destruct (rleb_spec (no_nan (pv_f st - value s b) (pv_x st)) (delta p * dot dim (gradient s b) (direction s b))) as [L|]; [|discriminate].
      destruct (Req_EM_T (pv_x st) 0) as [Z|Z].
      * rewrite Z, along_0, CO in CE. injection CE as <- _. lra.
      * rewrite no_nan_div in L by exact Z. assert (DD : delta p * dot dim (gradient s b) (direction s b) <= 0) by (clear - D0 DN; nra). assert (L2 : (pv_f st - value s b) / pv_x st <= 0) by lra. assert (FE : pv_f st - value s b = (pv_f st - value s b) / pv_x st * pv_x st) by (field; exact Z).
        set (r := (pv_f st - value s b) / pv_x st) in *. assert (r * pv_x st <= 0) by (clear - L2 C0; nra). lra.
    + apply andb_prop in W. destruct W as [_ W]. destruct (rleb_spec (pv_f st) (value s b + eps p * Rabs (value s b))) as [L|]; [exact L|discriminate].
  - destruct (SB p size (line dim obj s) (start dim s) (skipped size dim obj p s) (g_step (guessed size dim obj p s)) b E0 SK) as [Q _]. exact Q.
Qed.
Print Assumptions C83_no_increase.

(** What "converged" means for one search: the gradient is within the tolerance, or
    the last iteration did not move by more than x_tolerance, or its relative change
    of the value was not above f_relative_tolerance. *)
Theorem C83_converged (dim : nat) (obj : objective) (x0 : nat -> vec) (tol xtol ftol : R) (max_iterations fuel : nat) params search s :
  let p := match params with Some p => p | None => default_params end in
  let previous := Nat.iter (num_iterations s - 1) (cg_body 1 dim obj p search tol xtol ftol) (cg_initial dim obj x0 tol) in
  0 <= tol -> 0 <= xtol ->
  minimize 1 dim obj x0 tol xtol ftol max_iterations None params search fuel = Some s -> converged s 0%nat = true ->
  sup_le dim (gradient s 0%nat) tol
  \/ (1 <= num_iterations s)%nat /\ (sup_le dim (fun i => position s 0%nat i - position previous 0%nat i) xtol
                             \/ Rabs (value s 0%nat - value previous 0%nat) <= ftol * Rabs (value previous 0%nat)).
Proof.
  intros p previous T0 X0 H C. destruct (C83_run 1 dim obj x0 tol xtol ftol max_iterations fuel None params search) as [_ Q]. destruct (Q s H) as (E & _ & _ & ST). fold p in E, ST. clear Q.
  destruct (num_iterations s) as [|k] eqn:NK.
  - left. rewrite E in C |- *. cbn in C |- *. intros i I. destruct (rltb_spec (norm dim (snd (obj 0%nat (x0 0%nat)))) tol) as [L|]; [|discriminate].
    apply Rle_trans with (norm dim (snd (obj 0%nat (x0 0%nat)))); [apply abs_le_norm; exact I|lra].
  - rewrite iter_S in E. assert (PR : Nat.iter k (cg_body 1 dim obj p search tol xtol ftol) (cg_initial dim obj x0 tol) = previous) by (unfold previous; replace (S k - 1)%nat with k by lia; reflexivity).
    rewrite PR in E.
    assert (NC : converged previous 0%nat = false).
    { specialize (ST k ltac:(lia)). cbv beta in ST. rewrite PR in ST. clearbody previous. unfold converged_all, all in ST. cbn [seq forallb] in ST. destruct (converged previous 0%nat); cbn in ST; [discriminate|reflexivity]. }
    destruct (body_fields 1 dim obj p search tol xtol ftol previous 0) as (F1 & F2 & F3 & _ & _ & F6 & _). rewrite <- E in F1, F2, F3, F6. rewrite NC in F1, F2, F3. rewrite C in F6. rewrite <- F3, <- F2, <- F1 in F6.
    symmetry in F6. apply andb_prop in F6. destruct F6 as [_ F6]. apply orb_prop in F6. destruct F6 as [F6|F6]; [apply orb_prop in F6; destruct F6 as [F6|F6]|].
    + left. destruct (rleb_spec (norm_inf dim (gradient s 0%nat)) tol) as [L|]; [|discriminate]. apply (norm_inf_le dim _ tol T0). exact L.
    + right. split; [lia|]. left. match type of F6 with rleb ?a ?c = true => destruct (rleb_spec a c) as [L|]; [|discriminate] end. apply (norm_inf_le dim _ xtol X0). exact L.
    + right. split; [lia|]. right. match type of F6 with rleb ?a ?c = true => destruct (rleb_spec a c) as [L|]; [exact L|discriminate] end.
Qed.
Print Assumptions C83_converged.

(** Where the objective is a convex parabola along the search direction and the
    short trial step does not increase it, the iteration goes exactly to the
    minimum along the direction, without the line search. *)
Theorem C83_quadratic_step (dim : nat) (obj : objective) (tol xtol ftol : R) (p : cg_params) search (s : cg_state) (kappa : R) :
  let x := position s 0%nat in let d := direction s 0%nat in let slope := inner dim (gradient s 0%nat) d in
  converged s 0%nat = false -> quad_step p = true -> 0 <= delta p <= 1 / 2 -> 0 <= sigma p -> 0 < psi_1 p * prev_step s 0%nat -> slope < 0 -> 0 < kappa ->
  (forall a, fst (obj 0%nat (along x d a)) = value s 0%nat + a * slope + a * a * kappa / 2) ->
  (forall a, inner dim (snd (obj 0%nat (along x d a))) d = slope + a * kappa) ->
  fst (obj 0%nat (along x d (psi_1 p * prev_step s 0%nat))) <= value s 0%nat ->
  let s' := cg_body 1 dim obj p search tol xtol ftol s in
  position s' 0%nat = along x d (- slope / kappa) /\ value s' 0%nat = value s 0%nat - slope * slope / (2 * kappa)
  /\ (forall a, value s' 0%nat <= fst (obj 0%nat (along x d a))) /\ prev_step s' 0%nat = - slope / kappa.
Proof.
  intros x d slope NC QS DL SG TR SL KP FA GA TI s'. set (h := psi_1 p * prev_step s 0%nat) in *.
  assert (LH : pv_f (line dim obj s 0%nat h) = fst (obj 0%nat (along x d h))) by reflexivity.
  assert (PB : parabola (start dim s) (prev_step s) (line dim obj s) (psi_1 p) 0 = true).
  { unfold parabola. fold h. rewrite LH. cbn [start pv_f pv_df pv_x line ls_func]. fold slope. change (dot dim (gradient s 0%nat) (direction s 0%nat)) with slope.
    destruct (rleb_spec (fst (obj 0%nat (along x d h))) (value s 0%nat)) as [_|N]; [|contradiction]. rewrite FA. cbn [andb].
    destruct (rltb_spec 0 (value s 0%nat + h * slope + h * h * kappa / 2 - value s 0%nat - h * slope)) as [_|N]; [reflexivity|]. exfalso. apply N. assert (0 < h * h * kappa) by (apply Rmult_lt_0_compat; [apply Rmult_lt_0_compat; assumption|assumption]). lra. }
  pose proof (guess_alone (start dim s) (prev_step s) (line dim obj s) (psi_1 p) (psi_2 p) PB) as [GS GV]. cbv zeta in GS, GV. fold h in GV. rewrite LH, FA in GV. cbn [start pv_f pv_df pv_x line ls_func] in GV.
  change (dot dim (gradient s 0%nat) (direction s 0%nat)) with slope in GV.
  assert (HN : h * h * kappa <> 0) by (apply Rgt_not_eq; apply Rmult_lt_0_compat; [apply Rmult_lt_0_compat; assumption|assumption]).
  assert (ST : - (1 / 2) * no_nan (slope * (h * h)) (value s 0%nat + h * slope + h * h * kappa / 2 - value s 0%nat - h * slope) = - slope / kappa).
  { replace (value s 0%nat + h * slope + h * h * kappa / 2 - value s 0%nat - h * slope) with (h * h * kappa / 2) by ring. rewrite no_nan_div by lra. field. split; [lra|]. intros E. rewrite E in HN. lra. }
  rewrite ST in GV. set (c := - slope / kappa) in *. change (ls_func dim obj (position s) (direction s)) with (line dim obj s) in GV. rewrite <- QS in GS, GV. change (init_step 1 (start dim s) (prev_step s) (line dim obj s) (psi_1 p) (psi_2 p) (quad_step p)) with (guessed 1 dim obj p s) in GS, GV.
  assert (FC : pv_f (line dim obj s 0%nat c) = value s 0%nat - slope * slope / (2 * kappa)).
  { change (fst (obj 0%nat (along x d c)) = value s 0%nat - slope * slope / (2 * kappa)). rewrite FA. unfold c. field. lra. }
  assert (DC : pv_df (line dim obj s 0%nat c) = 0).
  { change (inner dim (snd (obj 0%nat (along x d c))) d = 0). rewrite GA. unfold c. field. lra. }
  assert (SK : skipped 1 dim obj p s 0 = true).
  { unfold skipped. rewrite GS, GV. cbn [andb]. rewrite FC, DC. change (pv_x (line dim obj s 0%nat c)) with c. change (dot dim (gradient s 0%nat) (direction s 0%nat)) with slope.
    assert (CP : 0 < c) by (unfold c; apply Rdiv_lt_0_compat; lra).
    assert (W : wolfe p (value s 0%nat) slope c (value s 0%nat - slope * slope / (2 * kappa)) 0 = true).
    { unfold wolfe. rewrite no_nan_div by lra. replace ((value s 0%nat - slope * slope / (2 * kappa) - value s 0%nat) / c) with (slope / 2) by (unfold c; field; lra).
      destruct (rleb_spec (slope / 2) (delta p * slope)) as [_|N]; [|exfalso; apply N; nra]. destruct (rleb_spec (sigma p * slope) 0) as [_|N]; [reflexivity|exfalso; apply N; nra]. }
    rewrite W, QS. reflexivity. }
  destruct (body_fields 1 dim obj p search tol xtol ftol s 0) as (F1 & F2 & _ & _ & F5 & _). fold s' in F1, F2, F5. rewrite NC in F1, F2. unfold chosen in F1, F2, F5. rewrite SK, GV in F1, F2, F5. rewrite FC in F2.
  split; [exact F1|]. split; [exact F2|]. split; [|exact F5]. intros a. rewrite F2, FA.
  replace (value s 0%nat + a * slope + a * a * kappa / 2) with (value s 0%nat - slope * slope / (2 * kappa) + kappa / 2 * ((a + slope / kappa) * (a + slope / kappa))) by (field; lra).
  assert (0 <= (a + slope / kappa) * (a + slope / kappa)) by apply Rle_0_sqr. nra.
Qed.
Print Assumptions C83_quadratic_step.

(** ** What does not hold *)
(** a batch of parabolas a_b x^2 / 2 in one dimension *)
Definition bowls (a : nat -> R) : objective := fun b x => (a b / 2 * (x 0%nat * x 0%nat), fun i => if Nat.eqb i 0 then a b * x 0%nat else 0).
Definition scalars (x : nat -> R) : nat -> vec := fun b i => if Nat.eqb i 0 then x b else 0.
Lemma bowl_line a s b h : line 1 (bowls a) s b h = PV h (a b / 2 * ((position s b 0%nat + h * direction s b 0%nat) * (position s b 0%nat + h * direction s b 0%nat)))
  (a b * (position s b 0%nat + h * direction s b 0%nat) * direction s b 0%nat) (fun i => if Nat.eqb i 0 then a b * (position s b 0%nat + h * direction s b 0%nat) else 0).
Proof. unfold line, ls_func, bowls, dot. cbn. f_equal. ring. Qed.
Lemma norm_one x : norm 1 x = Rabs (x 0%nat).
Proof. unfold norm, norm_sq. cbn [rsum]. rewrite Rplus_0_l. apply sqrt_Rsqr_abs. Qed.
Lemma norm_inf_one x : norm_inf 1 x = Rabs (x 0%nat).
Proof. cbn [norm_inf]. apply Rmax_right. apply Rabs_pos. Qed.

(** the batch of three: x^2/8 from 1, x^2 from 1/20 and x^2/2 at its minimum; the
    tolerance is 1/5 *)
Definition three : nat -> R := fun b => match b with O => 1 / 4 | 1%nat => 2 | _ => 1 end.
Definition three_x : nat -> R := fun b => match b with O => 1 | 1%nat => 1 / 20 | _ => 0 end.
Definition three_start := cg_initial 1 (bowls three) (scalars three_x) (1 / 5).
Lemma three_guess b : (b < 2)%nat -> g_stop (guessed 3 1 (bowls three) default_params three_start) b = true
  /\ g_step (guessed 3 1 (bowls three) default_params three_start) b = line 1 (bowls three) three_start b 2.
Proof.
  intros B. pose proof (guess_overwritten 3 (start 1 three_start) (prev_step three_start) (line 1 (bowls three) three_start) (2 / 10) 2 b 2 ltac:(lia) ltac:(lia)) as G. cbv zeta in G.
  replace (2 * prev_step three_start b) with 2 in G by (cbn; ring). apply G; clear G.
  - unfold parabola. rewrite !bowl_line. cbn [pv_f pv_x]. assert (b = 0 \/ b = 1)%nat as [->| ->] by lia; cbn; unfold dot; cbn.
    + match goal with |- rleb ?x ?y && rltb ?u ?v = true => destruct (rleb_spec x y); [|lra]; destruct (rltb_spec u v); [reflexivity|lra] end.
    + match goal with |- rleb ?x ?y && rltb ?u ?v = true => destruct (rleb_spec x y); [|lra]; destruct (rltb_spec u v); [reflexivity|lra] end.
  - unfold parabola. rewrite !bowl_line. cbn. unfold dot. cbn.
    match goal with |- rleb ?x ?y && rltb ?u ?v = false => destruct (rltb_spec u v); [lra|apply andb_false_r] end.
  - rewrite !bowl_line. cbn. lra.
Qed.
Lemma cond_first size s n : (0 < size)%nat -> num_iterations s = 0%nat -> (0 < n)%nat -> converged s 0%nat = false -> failed s 0%nat = false -> cg_cond n (converged_all size) s = true.
Proof.
  intros S0 N N0 C F. unfold cg_cond. rewrite N. destruct (Nat.ltb_spec 0 n); [|lia]. cbn [andb]. unfold converged_all. rewrite (all_false size _ 0 S0); [reflexivity|]. rewrite C, F. reflexivity.
Qed.
Lemma cond_last stop s : num_iterations s = 1%nat -> cg_cond 1 stop s = false.
Proof. intros N. unfold cg_cond. rewrite N. reflexivity. Qed.
Lemma three_not_converged : converged three_start 0%nat = false /\ converged three_start 1%nat = true.
Proof.
  unfold three_start, cg_initial. cbn [converged]. rewrite !norm_one. cbn. split.
  - match goal with |- rltb ?a ?b = false => destruct (rltb_spec a b) as [L|]; [|reflexivity] end. rewrite Rabs_pos_eq in L by lra. lra.
  - match goal with |- rltb ?a ?b = true => destruct (rltb_spec a b) as [|L]; [reflexivity|] end. rewrite Rabs_pos_eq in L by lra. lra.
Qed.

(** The members of a batch influence each other, and convergence is forgotten:
    minimizing x^2/8 from 1 alone reaches the minimum in one iteration, but together
    with a search that starts at its minimum it only reaches 1/2; and a member that
    starts with a gradient of 1/10, below the tolerance 1/5, is not reported as
    converged after one iteration although its position and gradient are the same.
    This is so whatever the line search does. *)
Theorem C83_batch_refuted (search : line_search) :
  (exists s, minimize 1 1 (bowls three) (scalars three_x) (1 / 5) 0 0 1 None None search 1 = Some s /\ position s 0%nat 0%nat = 0)
  /\ exists s, minimize 3 1 (bowls three) (scalars three_x) (1 / 5) 0 0 1 None None search 1 = Some s /\ position s 0%nat 0%nat = 1 / 2
     /\ converged three_start 1%nat = true /\ converged s 1%nat = false /\ position s 1%nat = position three_start 1%nat /\ gradient s 1%nat 0%nat = 1 / 10.
Proof.
  destruct three_not_converged as [N0 N1]. split.
  - exists (cg_body 1 1 (bowls three) default_params search (1 / 5) 0 0 three_start). split.
    + unfold minimize. cbn [cg_loop]. fold three_start. rewrite (cond_first 1 three_start 1) by (try lia; try reflexivity; exact N0). rewrite cond_last by reflexivity. reflexivity.
    + destruct (C83_quadratic_step 1 (bowls three) (1 / 5) 0 0 default_params search three_start (1 / 64)) as (P & _); try (cbn; lra); try reflexivity.
      * exact N0.
      * intros a. unfold inner, along. cbn. field.
      * intros a. unfold inner, along. cbn. field.
      * unfold along. cbn. lra.
      * rewrite P. unfold along, inner. cbn. field.
  - exists (cg_body 3 1 (bowls three) default_params search (1 / 5) 0 0 three_start). split.
    + unfold minimize. cbn [cg_loop]. fold three_start. rewrite (cond_first 3 three_start 1) by (try lia; try reflexivity; exact N0). rewrite cond_last by reflexivity. reflexivity.
    + destruct (three_guess 0 ltac:(lia)) as [S0 V0]. destruct (three_guess 1 ltac:(lia)) as [S1 V1].
      destruct (body_fields 3 1 (bowls three) default_params search (1 / 5) 0 0 three_start 0) as (A1 & _). destruct (body_fields 3 1 (bowls three) default_params search (1 / 5) 0 0 three_start 1) as (B1 & _ & B3 & _ & _ & B6 & _).
      rewrite N0 in A1. rewrite N1 in B1, B3. rewrite A1, B1, B3, B6. split; [|split; [exact N1|split; [|split; [reflexivity|cbn; field]]]].
      * unfold chosen.
        assert (SK : skipped 3 1 (bowls three) default_params three_start 0 = true).
        { unfold skipped. rewrite S0, V0, bowl_line. cbn [pv_x pv_f pv_df andb]. unfold wolfe. cbn [delta sigma eps default_params]. rewrite no_nan_div by lra. unfold dot. cbn.
          match goal with |- (rleb ?x ?y && rleb ?u ?v || _) || _ || _ = true => destruct (rleb_spec x y); [|lra]; destruct (rleb_spec u v); [reflexivity|lra] end. }
        rewrite SK, V0, bowl_line. unfold along. cbn. field.
      * unfold chosen.
        assert (SK : skipped 3 1 (bowls three) default_params three_start 1 = true) by (unfold skipped; rewrite N1; apply orb_true_r).
        rewrite SK, V1, bowl_line. rewrite !norm_inf_one. cbn [pv_x pv_f pv_grad Nat.eqb]. unfold along. cbn.
        match goal with |- _ && (rleb ?a ?b || rleb ?c ?d || rleb ?e ?f) = false => destruct (rleb_spec a b) as [L|_]; [|destruct (rleb_spec c d) as [L|_]; [|destruct (rleb_spec e f) as [L|_]; [|apply andb_false_r]]] end; exfalso; revert L; unfold Rabs; repeat destruct Rcase_abs; lra.
Qed.
Print Assumptions C83_batch_refuted.

(** A failed member is not left alone: if the run continues for the sake of the
    other members, the next iteration clears its flag and moves it by the first
    guess, without any condition on the value there. *)
Theorem C83_failure_forgotten_refuted (size dim : nat) (obj : objective) (p : cg_params) search (tol xtol ftol : R) (s : cg_state) (b : nat) :
  search_evaluates search -> failed s b = true ->
  let s' := cg_body size dim obj p search tol xtol ftol s in
  failed s' b = false /\ (converged s b = false -> exists a, position s' b = along (position s b) (direction s b) a
    /\ pv_x (g_step (init_step size (start dim s) (prev_step s) (line dim obj s) (psi_1 p) (psi_2 p) (quad_step p)) b) = a).
Proof.
  intros SE F s'. destruct (body_fields size dim obj p search tol xtol ftol s b) as (B1 & _ & _ & _ & _ & _ & B7 & _). fold s' in B1, B7.
  assert (SK : skipped size dim obj p s b = true) by (unfold skipped; rewrite F, orb_true_r; reflexivity). split.
  - rewrite B7. unfold searched. destruct (SE p size (line dim obj s) (start dim s) (skipped size dim obj p s) (g_step (guessed size dim obj p s)) b) as [Q _]. apply Q. exact SK.
  - intros NC. rewrite NC in B1. unfold chosen in B1. rewrite SK in B1. eexists. split; [exact B1|reflexivity].
Qed.
Print Assumptions C83_failure_forgotten_refuted.

(** "Converged" with a gradient far above the tolerance: for
    - x + 3/32 x^2 + 37/16 x^3 - 45/32 x^4 from 0, with the default arguments, the
    first step goes to 1, where the value is again 0; the search stops there as
    converged, with a gradient of 1/2 and the tolerance 10^-8. *)
Definition quartic : objective := fun _ x => let y := x 0%nat in
  (- y + 3 / 32 * (y * y) + 37 / 16 * (y * y * y) - 45 / 32 * (y * y * y * y), fun i => if Nat.eqb i 0 then - (1) + 3 / 16 * y + 111 / 16 * (y * y) - 45 / 8 * (y * y * y) else 0).
Theorem C83_false_convergence_refuted (search : line_search) : search_evaluates search ->
  exists s, minimize 1 1 quartic (scalars (fun _ => 0)) (1 / 100000000) 0 0 50 None None search 50 = Some s
    /\ converged s 0%nat = true /\ position s 0%nat 0%nat = 1 /\ gradient s 0%nat 0%nat = 1 / 2.
Proof.
  intros SE. set (st := cg_initial 1 quartic (scalars (fun _ => 0)) (1 / 100000000)). set (s := cg_body 1 1 quartic default_params search (1 / 100000000) 0 0 st).
  assert (N0 : converged st 0%nat = false).
  { unfold st, cg_initial. cbn [converged]. rewrite norm_one. cbn. match goal with |- rltb ?a ?b = false => destruct (rltb_spec a b) as [L|]; [|reflexivity] end. exfalso. revert L. unfold Rabs. destruct Rcase_abs; lra. }
  assert (PB : parabola (start 1 st) (prev_step st) (line 1 quartic st) (2 / 10) 0 = true).
  { unfold parabola. cbn. unfold dot. cbn. match goal with |- rleb ?x ?y && rltb ?u ?v = true => destruct (rleb_spec x y); [|lra]; destruct (rltb_spec u v); [reflexivity|lra] end. }
  destruct (guess_alone (start 1 st) (prev_step st) (line 1 quartic st) (2 / 10) 2 PB) as [GS GV]. cbv zeta in GV.
  match type of GV with _ = line 1 quartic st 0%nat ?a => assert (EA : a = 1) by (cbn; unfold dot; cbn; rewrite no_nan_div by lra; field) end. rewrite EA in GV. clear EA.
  change (init_step 1 (start 1 st) (prev_step st) (line 1 quartic st) (2 / 10) 2 true) with (guessed 1 1 quartic default_params st) in GS, GV.
  assert (SK : skipped 1 1 quartic default_params st 0 = true).
  { unfold skipped. rewrite GS, GV. cbn [andb]. unfold wolfe. cbn. unfold dot. cbn. 
    match goal with |- (_ || (rleb ?x ?y && rleb ?u ?v && rleb ?a ?c)) || _ || _ = true => destruct (rleb_spec x y); [|lra]; destruct (rleb_spec u v); [|lra]; destruct (rleb_spec a c) as [|L]; [cbn [andb]; rewrite orb_true_r; reflexivity|] end.
    exfalso. apply L. match goal with |- _ <= _ + _ * Rabs ?z => pose proof (Rabs_pos z) end. lra. }
  destruct (body_fields 1 1 quartic default_params search (1 / 100000000) 0 0 st 0) as (A1 & A2 & A3 & _ & _ & A6 & _). fold s in A1, A2, A3, A6. rewrite N0 in A1, A2, A3. unfold chosen in A1, A2, A3, A6. rewrite SK, GV in A1, A2, A3, A6.
  assert (LC : ls_converged (searched 1 1 quartic default_params search st) 0%nat = true) by (apply (SE default_params 1%nat (line 1 quartic st) (start 1 st) (skipped 1 1 quartic default_params st) (g_step (guessed 1 1 quartic default_params st)) 0%nat); exact SK).
  assert (CS : converged s 0%nat = true).
  { rewrite A6, LC. cbn [andb]. match goal with |- _ || rleb ?a ?b = true => destruct (rleb_spec a b) as [|L]; [apply orb_true_r|] end. exfalso. apply L. cbn. match goal with |- Rabs ?z <= 0 * Rabs ?w => replace z with 0 by field end. rewrite Rabs_R0. lra. }
  exists s. split; [|split; [exact CS|split]].
  - unfold minimize. cbn [cg_loop]. fold st. rewrite (cond_first 1 st 50) by (try lia; try reflexivity; exact N0). fold s.
    assert (CF : cg_cond 50 (converged_all 1) s = false) by (unfold cg_cond, converged_all, all; cbn [seq forallb]; rewrite CS; apply andb_false_r).
    change (cg_body 1 1 quartic default_params search (1 / 100000000) 0 0 st) with s. rewrite CF. reflexivity.
  - rewrite A1. unfold along. cbn. ring.
  - rewrite A3. cbn. field.
Qed.
Print Assumptions C83_false_convergence_refuted.

(** a line search that meets the contracts: it takes the given step where that
    decreases the function, and stays otherwise *)
Definition simple_search : line_search := fun p size func val0 skip step =>
  let good := fun b => rleb (pv_f (func b 1)) (pv_f (val0 b)) && rleb (pv_x (val0 b)) (pv_x (func b 1)) in
  Searched (fun b => skip b || good b) (fun b => negb (skip b || good b)) (fun b => if good b then func b 1 else val0 b) 1.
Example simple_search_contract : search_evaluates simple_search /\ search_bounded simple_search.
Proof.
  split; intros p size func val0 skip step b; unfold simple_search; cbn [ls_converged ls_failed ls_left].
  - split; [intros ->; split; reflexivity|]. intros _. destruct (_ && _); [right; eauto|left; reflexivity].
  - intros E _. assert (0 <= eps p * Rabs (pv_f (val0 b))) by (apply Rmult_le_pos; [exact E|apply Rabs_pos]).
    destruct (rleb_spec (pv_f (func b 1)) (pv_f (val0 b))); destruct (rleb_spec (pv_x (val0 b)) (pv_x (func b 1))); cbn [andb]; lra.
Qed.
(** with it the search for the minimum of x^2/8 from 1 meets the hypotheses of
    C83_descent and C83_no_increase at the start *)
Example bowl_case : converged (Nat.iter 0 (cg_body 1 1 (bowls three) default_params simple_search (1 / 5) 0 0) three_start) 0%nat = false /\ 0 <= eps default_params /\ 0 <= delta default_params <= 1 / 2 /\ 0 <= eta default_params.
Proof. destruct three_not_converged as [N0 _]. split; [exact N0|]. cbn. lra. Qed.
