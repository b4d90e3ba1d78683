(** C24: the for-loop with its own gradient. *)
From Coq Require Import Reals Lra Lia.
From Coquelicot Require Import Coquelicot.
From Coq Require Import List Arith.
From Verif Require Import TensorProofs LoopModel LoopProofs.
Import ListNotations.
Open Scope R_scope.

(** The state after [k] iterations: the body applied with indices 0 .. k-1. *)
Fixpoint after {X} (body : nat -> X -> X) (k : nat) (x : X) : X :=
  match k with O => x | S m => body m (after body m x) end.
(** dot product over all tensors of the state *)
Definition dot (d : list nat) (u v : state) : R :=
  rsum (fun a => rsum (fun r => u a r * v a r) (nth a d 0%nat)) (length d).

(** A Jacobian with one block for every pair of state tensors and every pair of
    state tensor and parameter, of the right sizes. *)
Definition jac_shape := jac_ok.

(** [step_jac] is what tf.GradientTape delivers: the derivative of the body.  For
    all differentiable curves of states and parameters, the body's output along
    them has the derivative given by the step Jacobian. *)
Definition curve_derives (d : list nat) (s : R -> state) (t : R) (s' : state) : Prop :=
  forall a r, (a < length d)%nat -> (r < nth a d 0%nat)%nat -> is_derive (fun u => s u a r) t (s' a r).
Definition params_derive (p : nat) (q : R -> params) (t : R) (q' : params) : Prop :=
  forall j, (j < p)%nat -> is_derive (fun u => q u j) t (q' j).
Definition is_jacobian_of (d : list nat) (p : nat) (body : nat -> state -> params -> state) (step_jac : nat -> state -> params -> jac) : Prop :=
  forall i s q t s' q', curve_derives d s t s' -> params_derive p q t q' ->
    jac_shape d p (step_jac i (s t) (q t)) /\
    curve_derives d (fun u => body i (s u) (q u)) t
      (fun a r =>
         rsum (fun b => rsum (fun k => ent (getb (fst (step_jac i (s t) (q t))) a b) r k * s' b k) (nth b d 0%nat)) (length d) +
         rsum (fun j => ent (getb (snd (step_jac i (s t) (q t))) a j) r 0 * q' j) p).

(** The loop applies the body exactly [N] times. *)
Theorem C24_for_loop_state body step_jac d p s ps N :
  fst (for_loop body step_jac d p s ps N) = after (fun i x => body i x ps) N s.
Proof.
  unfold for_loop. induction N as [|N IH]; [reflexivity|]. rewrite while_loop_last. cbn [Nat.add after]. rewrite <- IH.
  destruct (while_loop _ 0 N _) as (x, j). reflexivity.
Qed.

Lemma wb_fst body step_jac ps i x : fst (while_body body step_jac ps i x) = body i (fst x) ps.
Proof. destruct x. reflexivity. Qed.
Lemma wb_snd body step_jac ps i x : snd (while_body body step_jac ps i x) = multiply_jacobians (step_jac i (fst x) ps) (snd x).
Proof. destruct x. reflexivity. Qed.
Lemma loop_derive body step_jac d p : (0 < length d)%nat -> is_jacobian_of d p body step_jac ->
  forall s q t s' q' N, curve_derives d s t s' -> params_derive p q t q' ->
    jac_ok d p (snd (for_loop body step_jac d p (s t) (q t) N)) /\
    curve_derives d (fun u => fst (for_loop body step_jac d p (s u) (q u) N)) t
      (jac_apply d p (snd (for_loop body step_jac d p (s t) (q t) N)) s' q').
Proof.
  intros NP J s q t s' q' N S Q. unfold for_loop. induction N as [|N (IH1 & IH2)].
  - cbn [while_loop fst snd]. split; [apply unit_ok|]. intros a r A Rr. rewrite unit_apply by assumption. apply S; assumption.
  - rewrite while_loop_last. cbn [Nat.add].
    assert (E : forall u, fst (while_body body step_jac (q u) N (while_loop (while_body body step_jac (q u)) 0 N (s u, make_unit_jacobian d p))) = body N (fst (while_loop (while_body body step_jac (q u)) 0 N (s u, make_unit_jacobian d p))) (q u)).
    { intros u. apply wb_fst. }
    assert (E2 : snd (while_body body step_jac (q t) N (while_loop (while_body body step_jac (q t)) 0 N (s t, make_unit_jacobian d p))) =
      multiply_jacobians (step_jac N (fst (while_loop (while_body body step_jac (q t)) 0 N (s t, make_unit_jacobian d p))) (q t)) (snd (while_loop (while_body body step_jac (q t)) 0 N (s t, make_unit_jacobian d p)))).
    { apply wb_snd. }
    rewrite E2. destruct (J N _ q t _ q' IH2 Q) as (J1 & J2). split; [apply mult_ok; assumption|].
    intros a r A Rr. specialize (J2 a r A Rr).
    apply (is_derive_ext (fun u => body N (fst (while_loop (while_body body step_jac (q u)) 0 N (s u, make_unit_jacobian d p))) (q u) a r)).
    { intros u. rewrite while_loop_last. cbn [Nat.add]. rewrite E. reflexivity. }
    rewrite mult_apply by assumption. exact J2.
Qed.

Lemma is_derive_rsum (f : nat -> R -> R) (f' : nat -> R) n t : (forall i, (i < n)%nat -> is_derive (f i) t (f' i)) -> is_derive (fun u => rsum (fun i => f i u) n) t (rsum f' n).
Proof.
  induction n; intros H; cbn; [apply @is_derive_const|]. apply (is_derive_plus (fun u => rsum (fun i => f i u) n) (f n)); [apply IHn; intros; apply H; lia|apply H; lia].
Qed.
Lemma is_derive_dot d w (f : R -> state) f' t : curve_derives d f t f' -> is_derive (fun u => dot d w (f u)) t (dot d w f').
Proof.
  intros H. unfold dot. apply (is_derive_rsum (fun a u => rsum (fun r => w a r * f u a r) (nth a d 0%nat)) (fun a => rsum (fun r => w a r * f' a r) (nth a d 0%nat))). intros a A.
  apply (is_derive_rsum (fun r u => w a r * f u a r) (fun r => w a r * f' a r)). intros r Rr. apply (is_derive_scal (fun u => f u a r)). apply H; assumption.
Qed.

(** The Jacobian carried along is the Jacobian of the whole loop (chain rule): the
    derivative of the final state along any curve of initial states and
    parameters. *)
Theorem C24_loop_jacobian body step_jac d p : (0 < length d)%nat -> is_jacobian_of d p body step_jac ->
  forall s q t s' q' N, curve_derives d s t s' -> params_derive p q t q' ->
    let J := snd (for_loop body step_jac d p (s t) (q t) N) in
    curve_derives d (fun u => after (fun i x => body i x (q u)) N (s u)) t
      (fun a r => rsum (fun b => rsum (fun k => ent (getb (fst J) a b) r k * s' b k) (nth b d 0%nat)) (length d) +
                  rsum (fun j => ent (getb (snd J) a j) r 0 * q' j) p).
Proof.
  intros NP H s q t s' q' N S Q J a r A Rr. destruct (loop_derive body step_jac d p NP H s q t s' q' N S Q) as (_ & D). specialize (D a r A Rr).
  eapply is_derive_ext; [intros u; rewrite <- (C24_for_loop_state body step_jac d p (s u) (q u) N); reflexivity|exact D].
Qed.

(** The gradient returned for output weights [ws] is the true gradient of the
    weighted final state, with respect to initial state and parameters. *)
Theorem C24_gradient body step_jac d p : (0 < length d)%nat -> is_jacobian_of d p body step_jac ->
  forall s q t s' q' N ws, curve_derives d s t s' -> params_derive p q t q' ->
    let '(gs, gp) := gradient d (snd (for_loop body step_jac d p (s t) (q t) N)) ws in
    is_derive (fun u => dot d ws (after (fun i x => body i x (q u)) N (s u))) t
      (dot d gs s' + rsum (fun j => gp j * q' j) p).
Proof.
  intros NP H s q t s' q' N ws S Q. destruct (loop_derive body step_jac d p NP H s q t s' q' N S Q) as (O & D).
  pose proof (gradient_dual d p NP _ ws s' q' O) as G. destruct (gradient d _ ws) as (gs, gp). cbn [fst snd] in G. unfold dot at 2. rewrite G.
  eapply is_derive_ext; [intros u; rewrite <- (C24_for_loop_state body step_jac d p (s u) (q u) N); reflexivity|]. apply is_derive_dot. exact D.
Qed.

(** With a batch of [nb] elements sharing the parameters, the parameter gradient
    is summed over the batch. *)
Theorem C24_gradient_batch body step_jac d p nb : (0 < length d)%nat -> (forall e, is_jacobian_of d p (body e) (step_jac e)) ->
  forall (s : nat -> R -> state) q t (s' : nat -> state) q' N (ws : nat -> state),
    (forall e, (e < nb)%nat -> curve_derives d (s e) t (s' e)) -> params_derive p q t q' ->
    let '(gs, gp) := gradient_batch d nb (fun e => snd (for_loop (body e) (step_jac e) d p (s e t) (q t) N)) ws in
    is_derive (fun u => rsum (fun e => dot d (ws e) (after (fun i x => body e i x (q u)) N (s e u))) nb) t
      (rsum (fun e => dot d (gs e) (s' e)) nb + rsum (fun j => gp j * q' j) p).
Proof.
  intros NP H s q t s' q' N ws S Q. cbn [gradient_batch].
  rewrite (rsum_ext (fun j => rsum _ nb * q' j) (fun j => rsum (fun e => snd (gradient d (snd (for_loop (body e) (step_jac e) d p (s e t) (q t) N)) (ws e)) j * q' j) nb)) by (intros; rewrite rsum_scal_r; reflexivity).
  rewrite (rsum_swap (fun j e => snd (gradient d (snd (for_loop (body e) (step_jac e) d p (s e t) (q t) N)) (ws e)) j * q' j) p nb).
  rewrite <- rsum_plus.
  apply (is_derive_rsum (fun e u => dot d (ws e) (after (fun i x => body e i x (q u)) N (s e u)))). intros e E.
  pose proof (C24_gradient (body e) (step_jac e) d p NP (H e) (s e) q t (s' e) q' N (ws e) (S e E) Q) as G. destruct (gradient d _ (ws e)) as (gs, gp). exact G.
Qed.

Lemma nth_error_ext' {X} (l l' : list X) : (forall k, nth_error l k = nth_error l' k) -> l = l'.
Proof.
  revert l'. induction l as [|a l IH]; intros [|b l'] H; [reflexivity|discriminate (H 0%nat)|discriminate (H 0%nat)|]. f_equal; [specialize (H 0%nat); cbn in H; congruence|apply IH; intros k; apply (H (S k))].
Qed.
(** A vector of strictly increasing iteration counts: slot [k] holds the state (and
    Jacobian) after counts[k] iterations. *)
Theorem C24_accumulating {X} (body : nat -> X -> X) x0 (counts : list nat) :
  counts <> [] -> incr_nat counts ->
  exists slots, accumulating_for_loop body x0 counts = Some slots /\ length slots = length counts /\
    forall k c, nth_error counts k = Some c -> nth_error slots k = Some (Some (after body c x0)).
Proof.
  intros NE INC. destruct (acc_loop_ok body x0 counts INC NE) as (acc & E & L & SL). exists acc. split; [assumption|]. split; [assumption|].
  intros k c K. assert (KL : (k < length counts)%nat) by (apply nth_error_Some; congruence). rewrite (SL k KL). rewrite (nth_error_nth _ _ _ K). do 2 f_equal.
  clear. induction c as [|c IH]; [reflexivity|]. rewrite while_loop_last. cbn [after Nat.add]. congruence.
Qed.
(** ... and its gradient is the gradient of the sum of the weighted slots. *)
Theorem C24_accumulating_gradient body step_jac d p : (0 < length d)%nat -> is_jacobian_of d p body step_jac ->
  forall s q t s' q' (counts : list nat) (ws : nat -> state), curve_derives d s t s' -> params_derive p q t q' ->
    counts <> [] -> incr_nat counts ->
    exists slots, accumulating_for_loop (while_body body step_jac (q t)) (s t, make_unit_jacobian d p) counts = Some (map Some slots) /\
    let '(gs, gp) := gradient_acc d (map snd slots) ws in
    is_derive (fun u => rsum (fun e => dot d (ws e) (after (fun i x => body i x (q u)) (nth e counts 0%nat) (s u))) (length counts)) t
      (dot d gs s' + rsum (fun j => gp j * q' j) p).
Proof.
  intros NP H s q t s' q' counts ws S Q NE INC.
  destruct (acc_loop_ok (while_body body step_jac (q t)) (s t, make_unit_jacobian d p) counts INC NE) as (acc & E & L & SL).
  exists (map (fun c => for_loop body step_jac d p (s t) (q t) c) counts). split.
  - rewrite E. f_equal. rewrite map_map. apply nth_error_ext'. intros k. destruct (Nat.lt_ge_cases k (length counts)) as [K|K].
    + rewrite (SL k K). rewrite nth_error_map, (nth_error_nth' counts 0%nat K). reflexivity.
    + rewrite (proj2 (nth_error_None acc k)) by lia. rewrite (proj2 (nth_error_None (map _ counts) k)); [reflexivity|rewrite map_length; lia].
  - cbn [gradient_acc]. rewrite !map_length. rewrite map_map.
    set (J := fun e => snd (for_loop body step_jac d p (s t) (q t) (nth e counts 0%nat))).
    assert (NJ : forall e, (e < length counts)%nat -> nth e (map (fun c => snd (for_loop body step_jac d p (s t) (q t) c)) counts) ([], []) = J e).
    { intros e K. rewrite (nth_indep _ _ (snd (for_loop body step_jac d p (s t) (q t) 0%nat))) by (rewrite map_length; assumption). rewrite (map_nth (fun c => snd (for_loop body step_jac d p (s t) (q t) c))). reflexivity. }
    assert (DG : dot d (fun b k => rsum (fun e => fst (gradient d (nth e (map (fun c => snd (for_loop body step_jac d p (s t) (q t) c)) counts) ([], [])) (ws e)) b k) (length counts)) s' =
                 rsum (fun e => dot d (fst (gradient d (J e) (ws e))) s') (length counts)).
    { unfold dot. rewrite rsum_swap. apply rsum_ext. intros a A. rewrite rsum_swap. apply rsum_ext. intros r Rr. rewrite <- rsum_scal_r. apply rsum_ext. intros e K. rewrite NJ by assumption. reflexivity. }
    assert (PG : rsum (fun j => rsum (fun e => snd (gradient d (nth e (map (fun c => snd (for_loop body step_jac d p (s t) (q t) c)) counts) ([], [])) (ws e)) j) (length counts) * q' j) p =
                 rsum (fun e => rsum (fun j => snd (gradient d (J e) (ws e)) j * q' j) p) (length counts)).
    { rewrite rsum_swap. apply rsum_ext. intros j Jp. rewrite <- rsum_scal_r. apply rsum_ext. intros e K. rewrite NJ by assumption. reflexivity. }
    rewrite DG, PG, <- rsum_plus.
    apply (is_derive_rsum (fun e u => dot d (ws e) (after (fun i x => body i x (q u)) (nth e counts 0%nat) (s u)))). intros e K.
    pose proof (C24_gradient body step_jac d p NP H s q t s' q' (nth e counts 0%nat) (ws e) S Q) as G. fold (J e) in G. destruct (gradient d (J e) (ws e)) as (gs, gp). exact G.
Qed.
(** Equal counts are not handled: the second slot is never written. *)
Theorem C24_equal_counts_refuted : exists slots,
  accumulating_for_loop (fun _ x => x + 1)%nat 0%nat [2; 2]%nat = Some slots /\ nth_error slots 1 = Some None.
Proof. eexists. split; reflexivity. Qed.

(** Example: one state tensor of dimension 1, x -> p * x: the hypotheses hold, and
    after 3 iterations d(p^3 x)/dx = p^3, d(p^3 x)/dp = 3 p^2 x. *)
Definition ex_body (i : nat) (x : state) (q : params) : state := fun _ _ => q 0%nat * x 0%nat 0%nat.
Definition ex_jac (i : nat) (x : state) (q : params) : jac := ([[Mat 1 1 (fun _ _ => q 0%nat)]], [[Mat 1 1 (fun _ _ => x 0%nat 0%nat)]]).
Example C24_ex_hyp : is_jacobian_of [1%nat] 1 ex_body ex_jac.
Proof.
  intros i s q t s' q' S Q. split.
  - split; (split; [reflexivity|]); (split; [intros l [<-|[]]; reflexivity|]); intros [|a] [|b] A B; cbn in *; try lia; auto.
  - intros a r A Rr. cbn in A. assert (a = 0%nat) as -> by lia. cbn in Rr. assert (r = 0%nat) as -> by lia. cbn.
    replace (0 + (0 + q t 0%nat * s' 0%nat 0%nat) + (0 + s t 0%nat 0%nat * q' 0%nat)) with (q' 0%nat * s t 0%nat 0%nat + q t 0%nat * s' 0%nat 0%nat) by ring.
    apply (is_derive_mult (fun u => q u 0%nat) (fun u => s u 0%nat 0%nat)); [apply Q; lia|apply S; cbn; lia|intros; apply Rmult_comm].
Qed.
Example C24_ex : let '(x, j) := for_loop ex_body ex_jac [1%nat] 1 (fun _ _ => 5) (fun _ => 2) 3 in
  x 0%nat 0%nat = 40 /\ fst (gradient [1%nat] j (fun _ _ => 1)) 0%nat 0%nat = 8 /\ snd (gradient [1%nat] j (fun _ _ => 1)) 0%nat = 60.
Proof. cbn. unfold reduce_sum, ex_body. cbn. repeat split; ring. Qed.
Example C24_ex_acc : accumulating_for_loop (fun i x => x + i)%nat 0%nat [0; 2; 5]%nat = Some [Some 0; Some 1; Some 10]%nat.
Proof. reflexivity. Qed.

Print Assumptions C24_for_loop_state.
Print Assumptions C24_loop_jacobian.
Print Assumptions C24_gradient.
Print Assumptions C24_gradient_batch.
Print Assumptions C24_accumulating.
Print Assumptions C24_accumulating_gradient.
Print Assumptions C24_equal_counts_refuted.
