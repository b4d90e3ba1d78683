(** Lemmas about the conjugate gradient search. *)
From Coq Require Import Reals List Bool Arith Lra Lia Psatz FunctionalExtensionality.
From Verif Require Import TensorProofs CgModel CgSpec.
Import ListNotations.
Open Scope R_scope.

Lemma rleb_spec a b : reflect (a <= b) (rleb a b).
Proof. unfold rleb. destruct (Rle_dec a b); constructor; assumption. Qed.
Lemma rltb_spec a b : reflect (a < b) (rltb a b).
Proof. unfold rltb. destruct (Rlt_dec a b); constructor; assumption. Qed.
Lemma no_nan_0 a : no_nan a 0 = 0.
Proof. unfold no_nan. destruct (Req_EM_T 0 0); [reflexivity|lra]. Qed.
Lemma no_nan_div a b : b <> 0 -> no_nan a b = a / b.
Proof. intros H. unfold no_nan. destruct (Req_EM_T b 0); [contradiction|reflexivity]. Qed.

Lemma norm_inf_nonneg n x : 0 <= norm_inf n x.
Proof. induction n as [|n IH]; cbn [norm_inf]; [lra|]. apply Rle_trans with (norm_inf n x); [exact IH|apply Rmax_l]. Qed.
Lemma norm_inf_le n x c : 0 <= c -> (norm_inf n x <= c <-> sup_le n x c).
Proof.
  intros Hc. unfold sup_le. induction n as [|n IH]; cbn [norm_inf].
  - split; [intros _ i I; lia|intros _; exact Hc].
  - split.
    + intros H i I. destruct (Nat.eq_dec i n) as [->|N].
      * apply Rle_trans with (Rmax (norm_inf n x) (Rabs (x n))); [apply Rmax_r|exact H].
      * apply IH; [apply Rle_trans with (Rmax (norm_inf n x) (Rabs (x n))); [apply Rmax_l|exact H]|lia].
    + intros H. apply Rmax_lub; [apply IH; intros i I; apply H; lia|apply H; lia].
Qed.
Lemma sq_le_norm n x i : (i < n)%nat -> x i * x i <= norm_sq n x.
Proof.
  unfold norm_sq. induction n as [|n IH]; [lia|]. intros I. cbn [rsum]. destruct (Nat.eq_dec i n) as [->|N].
  - assert (0 <= rsum (fun i => x i * x i) n) by (apply rsum_nonneg; intros; apply Rle_0_sqr). lra.
  - specialize (IH ltac:(lia)). pose proof (Rle_0_sqr (x n)) as Q. unfold Rsqr in Q. lra.
Qed.
Lemma abs_le_norm n x i : (i < n)%nat -> Rabs (x i) <= norm n x.
Proof. intros I. unfold norm. rewrite <- sqrt_Rsqr_abs. apply sqrt_le_1_alt. apply sq_le_norm. exact I. Qed.

(** ** The direction *)
Lemma dot_comm n x y : dot n x y = dot n y x.
Proof. unfold dot. apply rsum_ext. intros; ring. Qed.
Lemma dot_combine n a b x y z : dot n (fun i => a * x i + b * y i) z = a * dot n x z + b * dot n y z.
Proof. unfold dot. rewrite <- !rsum_scal, <- rsum_plus. apply rsum_ext. intros; ring. Qed.
Lemma norm_sq_dot n x : norm_sq n x = dot n x x.
Proof. reflexivity. Qed.
Lemma norm_sq_nonneg n x : 0 <= norm_sq n x.
Proof. apply rsum_nonneg. intros i _. apply Rle_0_sqr. Qed.
Lemma cauchy_quarter n u y g : u * dot n y g - u * u * norm_sq n y <= norm_sq n g / 4.
Proof.
  assert (H : 0 <= norm_sq n (fun i => u * y i + - (1 / 2) * g i)) by apply norm_sq_nonneg.
  rewrite norm_sq_dot, dot_combine in H. rewrite (dot_comm n y), (dot_comm n g (fun i => _)) in H. rewrite !dot_combine in H. rewrite (dot_comm n g y) in H.
  rewrite !norm_sq_dot. lra.
Qed.
Lemma direction_descends n eta_ d g g' : 0 <= eta_ -> dot n d g <= 0 -> dot n (next_direction n eta_ d g g') g' <= - (3 / 4) * norm_sq n g'.
Proof.
  intros He Hd. unfold next_direction. set (y := fun i => g' i - g i). set (dy := dot n d y). set (bn := no_nan _ dy). set (ek := no_nan (eta_ * dot n d g) (norm_sq n d)).
  assert (EK : ek <= 0).
  { unfold ek. destruct (Req_EM_T (norm_sq n d) 0) as [E|E]; [rewrite E, no_nan_0; lra|]. rewrite no_nan_div by exact E. pose proof (norm_sq_nonneg n d).
    assert (0 < / norm_sq n d) by (apply Rinv_0_lt_compat; lra). unfold Rdiv. assert (eta_ * dot n d g <= 0) by nra. nra. }
  assert (BN : bn * dot n d g' <= norm_sq n g' / 4).
  { unfold bn. destruct (Req_EM_T dy 0) as [E|E].
    - rewrite E, no_nan_0. pose proof (norm_sq_nonneg n g'). lra.
    - rewrite !no_nan_div by exact E. pose proof (cauchy_quarter n (dot n d g' / dy) y g') as Q. rewrite (dot_comm n g' d).
      replace ((dot n y g' - norm_sq n y * dot n d g' / dy) / dy * dot n d g') with (dot n d g' / dy * dot n y g' - dot n d g' / dy * (dot n d g' / dy) * norm_sq n y) by (field; exact E). exact Q. }
  assert (EQ : dot n (fun i => - g' i + Rmax bn ek * d i) g' = - norm_sq n g' + Rmax bn ek * dot n d g').
  { pose proof (dot_combine n (- (1)) (Rmax bn ek) g' d g') as Q. rewrite norm_sq_dot. replace (- dot n g' g') with (- (1) * dot n g' g') by ring. rewrite <- Q. unfold dot. apply rsum_ext. intros; ring. }
  rewrite EQ. pose proof (norm_sq_nonneg n g') as NN.
  destruct (Rle_lt_dec ek bn) as [L|L]; [rewrite (Rmax_left bn ek L); lra|]. rewrite (Rmax_right bn ek) by lra.
  destruct (Rle_lt_dec 0 (dot n d g')) as [P|P]; nra.
Qed.

(** ** The first guess *)
Lemma guess_is_value size pos prev func psi1 psi2 quad b : (forall a, pv_x (func b a) = a) ->
  exists a, g_step (init_step size pos prev func psi1 psi2 quad) b = func b a.
Proof.
  intros HX. unfold init_step. cbv zeta. destruct quad; [destruct (any size _)|]; cbn [g_take g_step g_stop g_evals]; (destruct (all size _); cbn [g_step]; eauto).
Qed.
Lemma guess_x size pos prev func psi1 psi2 quad b : (forall a, pv_x (func b a) = a) -> let st := g_step (init_step size pos prev func psi1 psi2 quad) b in st = func b (pv_x st).
Proof. intros HX st. destruct (guess_is_value size pos prev func psi1 psi2 quad b HX) as [a A]. unfold st. rewrite A, HX. reflexivity. Qed.

(** the length of the guess is not negative *)
Lemma guess_nonneg size pos prev func psi1 psi2 quad b : (forall a, pv_x (func b a) = a) -> 0 <= psi1 -> 0 <= psi2 -> 0 <= prev b -> pv_df (pos b) <= 0 ->
  0 <= pv_x (g_step (init_step size pos prev func psi1 psi2 quad) b).
Proof.
  intros HX P1 P2 PP DN. assert (A : 0 <= psi1 * prev b) by (apply Rmult_le_pos; assumption). assert (B : 0 <= psi2 * prev b) by (apply Rmult_le_pos; assumption).
  unfold init_step. cbv zeta.
  assert (Q : forall s : bool, (s = true -> 0 < pv_f (func b (psi1 * prev b)) - pv_f (pos b) - pv_x (func b (psi1 * prev b)) * pv_df (pos b)) ->
    0 <= (if s then - (1 / 2) * no_nan (pv_df (pos b) * (pv_x (func b (psi1 * prev b)) * pv_x (func b (psi1 * prev b)))) (pv_f (func b (psi1 * prev b)) - pv_f (pos b) - pv_x (func b (psi1 * prev b)) * pv_df (pos b))
         else pv_x (func b (psi1 * prev b)))).
  { intros [|] H; [|rewrite HX; exact A]. specialize (H eq_refl). rewrite no_nan_div by lra. rewrite !HX in *. set (q := _ - _ - _) in *.
    assert (0 < / q) by (apply Rinv_0_lt_compat; exact H). unfold Rdiv. assert (pv_df (pos b) * (psi1 * prev b * (psi1 * prev b)) <= 0) by (assert (0 <= psi1 * prev b * (psi1 * prev b)) by nra; nra). nra. }
  assert (Q' : 0 <= pv_x (func b (if rleb (pv_f (func b (psi1 * prev b))) (pv_f (pos b)) && rltb 0 (pv_f (func b (psi1 * prev b)) - pv_f (pos b) - pv_x (func b (psi1 * prev b)) * pv_df (pos b))
    then - (1 / 2) * no_nan (pv_df (pos b) * (pv_x (func b (psi1 * prev b)) * pv_x (func b (psi1 * prev b)))) (pv_f (func b (psi1 * prev b)) - pv_f (pos b) - pv_x (func b (psi1 * prev b)) * pv_df (pos b)) else pv_x (func b (psi1 * prev b))))).
  { rewrite HX. apply Q. intros E. apply andb_prop in E. destruct E as [_ E]. destruct (rltb_spec 0 (pv_f (func b (psi1 * prev b)) - pv_f (pos b) - pv_x (func b (psi1 * prev b)) * pv_df (pos b))); [assumption|discriminate]. }
  assert (A' : 0 <= pv_x (func b (psi1 * prev b))) by (rewrite HX; exact A).
  destruct quad; [destruct (any size _)|]; cbn [g_take g_step g_stop g_evals]; (destruct (all size _); cbn [g_step]);
    [exact Q'|match goal with |- 0 <= pv_x (func b ?a) => rewrite (HX a) end; destruct (rltb (pv_f (pos b)) (pv_f (func b (psi1 * prev b)))); [exact Q'|exact B]
    |exact A'|match goal with |- 0 <= pv_x (func b ?a) => rewrite (HX a) end; destruct (rltb (pv_f (pos b)) (pv_f (func b (psi1 * prev b)))); [exact A'|exact B]
    |exact A'|match goal with |- 0 <= pv_x (func b ?a) => rewrite (HX a) end; destruct (rltb (pv_f (pos b)) (pv_f (func b (psi1 * prev b)))); [exact A'|exact B]].
Qed.
(** the parabola through the value, the slope and the trial value is convex and
    the trial does not increase *)
Definition parabola (pos : nat -> point_value) (prev : nat -> R) (func : nat -> R -> point_value) (psi1 : R) (b : nat) : bool :=
  rleb (pv_f (func b (psi1 * prev b))) (pv_f (pos b)) && rltb 0 (pv_f (func b (psi1 * prev b)) - pv_f (pos b) - pv_x (func b (psi1 * prev b)) * pv_df (pos b)).
Lemma any_true size f b : (b < size)%nat -> f b = true -> any size f = true.
Proof. intros B F. unfold any. apply existsb_exists. exists b. split; [apply in_seq; lia|exact F]. Qed.
Lemma all_false size f b : (b < size)%nat -> f b = false -> all size f = false.
Proof.
  intros B F. unfold all. destruct (forallb f (seq 0 size)) eqn:E; [|reflexivity]. rewrite forallb_forall in E. rewrite E in F; [discriminate|]. apply in_seq. lia.
Qed.
Lemma guess_alone pos prev func psi1 psi2 : parabola pos prev func psi1 0 = true ->
  let gs := init_step 1 pos prev func psi1 psi2 true in
  g_stop gs 0%nat = true
  /\ g_step gs 0%nat = func 0%nat (- (1 / 2) * no_nan (pv_df (pos 0%nat) * (pv_x (func 0%nat (psi1 * prev 0%nat)) * pv_x (func 0%nat (psi1 * prev 0%nat))))
       (pv_f (func 0%nat (psi1 * prev 0%nat)) - pv_f (pos 0%nat) - pv_x (func 0%nat (psi1 * prev 0%nat)) * pv_df (pos 0%nat))).
Proof.
  intros P. unfold parabola in P. unfold init_step. cbv zeta. unfold any, all. cbn [seq existsb forallb g_take g_step g_stop g_evals]. rewrite P. cbn [orb andb g_take g_step g_stop]. cbv beta. rewrite ?P, ?orb_true_r. cbn [andb g_step g_stop]. cbv beta.
  rewrite ?P. split; reflexivity.
Qed.
Lemma guess_overwritten size pos prev func psi1 psi2 b c : (b < size)%nat -> (c < size)%nat ->
  parabola pos prev func psi1 b = true -> parabola pos prev func psi1 c = false -> pv_f (func c (psi1 * prev c)) <= pv_f (pos c) ->
  let gs := init_step size pos prev func psi1 psi2 true in g_stop gs b = true /\ g_step gs b = func b (psi2 * prev b).
Proof.
  intros B C PB PC TC. unfold parabola in PB, PC. unfold init_step. cbv zeta. rewrite (any_true size _ b B) by exact PB.
  cbn [g_take g_step g_stop g_evals]. rewrite (all_false size _ c C).
  - cbn [g_step g_stop]. rewrite PB. split; [reflexivity|]. apply andb_prop in PB. destruct PB as [PB _]. destruct (rleb_spec (pv_f (func b (psi1 * prev b))) (pv_f (pos b))) as [L|]; [|discriminate].
    destruct (rltb_spec (pv_f (pos b)) (pv_f (func b (psi1 * prev b)))); [lra|reflexivity].
  - rewrite PC. destruct (rltb_spec (pv_f (pos c)) (pv_f (func c (psi1 * prev c)))); [lra|reflexivity].
Qed.
(** without a parabola anywhere every member whose trial does not increase gets the long step *)
Lemma guess_long size pos prev func psi1 psi2 b c : (c < size)%nat -> (forall a, pv_x (func b a) = a) ->
  parabola pos prev func psi1 c = false -> pv_f (func c (psi1 * prev c)) <= pv_f (pos c) -> pv_f (func b (psi1 * prev b)) <= pv_f (pos b) ->
  let gs := init_step size pos prev func psi1 psi2 true in g_step gs b = func b (psi2 * prev b).
Proof.
  intros C HX PC TC TB. unfold parabola in PC. unfold init_step. cbv zeta.
  assert (NB : rltb (pv_f (pos b)) (pv_f (func b (psi1 * prev b))) = false) by (destruct (rltb_spec (pv_f (pos b)) (pv_f (func b (psi1 * prev b)))); [lra|reflexivity]).
  assert (NC : rltb (pv_f (pos c)) (pv_f (func c (psi1 * prev c))) = false) by (destruct (rltb_spec (pv_f (pos c)) (pv_f (func c (psi1 * prev c)))); [lra|reflexivity]).
  destruct (any size _); cbn [g_take g_step g_stop g_evals]; rewrite (all_false size _ c C) by (rewrite ?PC, NC; reflexivity); cbn [g_step]; rewrite NB; reflexivity.
Qed.

(** ** One iteration *)
Section Body.
  Variables (size dim : nat) (obj : objective) (p : cg_params) (search : line_search) (tol xtol ftol : R).
  Let body := cg_body size dim obj p search tol xtol ftol.
  Lemma ls_func_x x d b a : pv_x (ls_func dim obj x d b a) = a. Proof. reflexivity. Qed.

  (** the parts of an iteration, and the point value that it moves to *)
  Definition line (s : cg_state) := ls_func dim obj (position s) (direction s).
  Definition start (s : cg_state) := fun b => PV 0 (value s b) (dot dim (gradient s b) (direction s b)) (gradient s b).
  Definition guessed (s : cg_state) := init_step size (start s) (prev_step s) (line s) (psi_1 p) (psi_2 p) (quad_step p).
  Definition skipped (s : cg_state) := fun b => g_stop (guessed s) b
    && wolfe p (value s b) (dot dim (gradient s b) (direction s b)) (pv_x (g_step (guessed s) b)) (pv_f (g_step (guessed s) b)) (pv_df (g_step (guessed s) b)) || failed s b || converged s b.
  Definition searched (s : cg_state) := search p size (line s) (start s) (skipped s) (g_step (guessed s)).
  Definition chosen (s : cg_state) (b : nat) : point_value := if skipped s b then g_step (guessed s) b else ls_left (searched s) b.
  Lemma body_fields s b :
    position (body s) b = (if converged s b then position s b else along (position s b) (direction s b) (pv_x (chosen s b)))
    /\ value (body s) b = (if converged s b then value s b else pv_f (chosen s b))
    /\ gradient (body s) b = (if converged s b then gradient s b else pv_grad (chosen s b))
    /\ direction (body s) b = next_direction dim (eta p) (direction s b) (gradient s b) (pv_grad (chosen s b))
    /\ prev_step (body s) b = pv_x (chosen s b)
    /\ converged (body s) b = ls_converged (searched s) b && (rleb (norm_inf dim (pv_grad (chosen s b))) tol
         || rleb (norm_inf dim (fun i => along (position s b) (direction s b) (pv_x (chosen s b)) i - position s b i)) xtol
         || rleb (Rabs (pv_f (chosen s b) - value s b)) (ftol * Rabs (value s b)))
    /\ failed (body s) b = ls_failed (searched s) b
    /\ num_iterations (body s) = S (num_iterations s).
  Proof. repeat split. unfold body, cg_body. cbn [num_iterations]. lia. Qed.

  Lemma along_0 (x d : vec) : along x d 0 = x.
  Proof. apply functional_extensionality. intros i. unfold along. ring. Qed.
  Lemma chosen_evaluated s b : search_evaluates search -> consistent obj s b ->
    obj b (along (position s b) (direction s b) (pv_x (chosen s b))) = (pv_f (chosen s b), pv_grad (chosen s b)).
  Proof.
    intros SE C. unfold chosen.
    assert (EV : forall a, obj b (along (position s b) (direction s b) (pv_x (line s b a))) = (pv_f (line s b a), pv_grad (line s b a))).
    { intros a. unfold line, ls_func. cbn [pv_x pv_f pv_grad]. apply surjective_pairing. }
    destruct (skipped s b) eqn:SK.
    - destruct (guess_is_value size (start s) (prev_step s) (line s) (psi_1 p) (psi_2 p) (quad_step p) b (ls_func_x _ _ b)) as [a A]. fold (guessed s) in A. rewrite A. apply EV.
    - destruct (SE p size (line s) (start s) (skipped s) (g_step (guessed s)) b) as [_ SE2]. fold (searched s) in SE2. destruct (SE2 SK) as [->|[a ->]]; [|apply EV].
      unfold start. cbn [pv_x pv_f pv_grad]. rewrite along_0. exact C.
  Qed.
  Lemma body_consistent s b : search_evaluates search -> consistent obj s b -> consistent obj (body s) b.
  Proof.
    intros SE C. unfold consistent. destruct (body_fields s b) as (-> & -> & -> & _). destruct (converged s b); [exact C|]. apply chosen_evaluated; assumption.
  Qed.
End Body.
