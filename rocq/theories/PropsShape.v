(** C26: shape broadcasting. *)
From Coq Require Import List Arith Bool Lia Permutation.
From Verif Require Import ShapeModel ShapeProofs.
Import ListNotations.

(** [s] can be broadcast to [t]: aligned on the right, every dimension of [s]
    equals the one of [t] or is 1. *)
Definition broadcastable (s t : shape) : Prop :=
  length s <= length t /\
  forall i, i < length s -> nth i (rev s) 0 = nth i (rev t) 0 \/ nth i (rev s) 0 = 1.
Lemma broadcastable_bto s t : broadcastable s t <-> bto s t.
Proof. unfold broadcastable, bto. rewrite brev_nth, !rev_length. reflexivity. Qed.

(** The common shape is the least shape all arguments can be broadcast to. *)
Theorem C26_least_common_shape args r : common_shape args = Some r ->
  (forall s, In s args -> broadcastable s r) /\
  (forall t, (forall s, In s args -> broadcastable s t) -> broadcastable r t /\ length r <= length t).
Proof.
  intros E. apply common_spec in E as (A & B). split; [intros; apply broadcastable_bto; auto|].
  intros t H. assert (Q : broadcastable r t) by (apply broadcastable_bto, B; intros; apply broadcastable_bto; auto). split; [assumption|apply Q].
Qed.

(** It fails exactly when there is no such shape. *)
Theorem C26_fails_iff_incompatible args : args <> [] ->
  (common_shape args = None <-> ~ exists t, forall s, In s args -> broadcastable s t).
Proof.
  intros NE. split.
  - intros E (t & H). apply (common_fail args NE E). exists t. intros; apply broadcastable_bto; auto.
  - intros H. destruct (common_shape args) as [r|] eqn:E; [|reflexivity]. exfalso. apply H. exists r. intros. apply common_spec in E as (A & _). apply broadcastable_bto; auto.
Qed.

(** The order and grouping of the arguments do not matter. *)
Theorem C26_order_irrelevant args args' : (forall s, In s args <-> In s args') -> common_shape args = common_shape args'.
Proof.
  intros P. destruct args as [|a args]; [destruct args' as [|b args']; [reflexivity|exfalso; apply (P b); left; reflexivity]|].
  destruct args' as [|b args']; [exfalso; apply (P a); left; reflexivity|].
  destruct (common_shape (a :: args)) as [r|] eqn:E, (common_shape (b :: args')) as [r'|] eqn:E'; [| | |reflexivity].
  - apply common_spec in E as (A & B). apply common_spec in E' as (A' & B'). f_equal. rewrite <- (rev_involutive r), <- (rev_involutive r'). f_equal.
    apply brev_antisym; [apply B; intros; apply A', P; assumption|apply B'; intros; apply A, P; assumption].
  - exfalso. refine (common_fail (b :: args') _ E' _); [congruence|]. exists r. apply common_spec in E as (A & _). intros; apply A, P; assumption.
  - exfalso. refine (common_fail (a :: args) _ E _); [congruence|]. exists r'. apply common_spec in E' as (A & _). intros; apply A, P; assumption.
Qed.
Theorem C26_associative a b c ab bc : common_shape [a; b] = Some ab -> common_shape [b; c] = Some bc ->
  common_shape [ab; c] = common_shape [a; b; c] /\ common_shape [a; bc] = common_shape [a; b; c].
Proof.
  intros AB BC.
  assert (EXT : forall l l', l <> [] -> l' <> [] -> (forall t, (forall s, In s l -> bto s t) <-> (forall s, In s l' -> bto s t)) -> common_shape l = common_shape l').
  { intros l l' N N' H. destruct (common_shape l) as [r|] eqn:E, (common_shape l') as [r'|] eqn:E'; [| | |reflexivity].
    - apply common_spec in E as (A & B). apply common_spec in E' as (A' & B'). f_equal. rewrite <- (rev_involutive r), <- (rev_involutive r'). f_equal.
      apply brev_antisym; [apply B, H, A'|apply B', H, A].
    - exfalso. apply (common_fail _ N' E'). exists r. apply common_spec in E as (A & _). apply H, A.
    - exfalso. apply (common_fail _ N E). exists r'. apply common_spec in E' as (A & _). apply H, A. }
  apply common_spec in AB as (A1 & A2). apply common_spec in BC as (B1 & B2).
  split; apply EXT; try discriminate; intros t; split; intros H s S.
  - destruct S as [<-|[<-|[<-|[]]]].
    + eapply brev_trans; [apply A1; cbn; auto|apply H; cbn; auto].
    + eapply brev_trans; [apply A1; cbn; auto|apply H; cbn; auto].
    + apply H; cbn; auto.
  - destruct S as [<-|[<-|[]]]; [apply A2; intros s [<-|[<-|[]]]; apply H; cbn; auto|apply H; cbn; auto].
  - destruct S as [<-|[<-|[<-|[]]]].
    + apply H; cbn; auto.
    + eapply brev_trans; [apply B1; cbn; auto|apply H; cbn; auto].
    + eapply brev_trans; [apply B1; cbn; auto|apply H; cbn; auto].
  - destruct S as [<-|[<-|[]]]; [apply H; cbn; auto|apply B2; intros s [<-|[<-|[]]]; apply H; cbn; auto].
Qed.

(** Broadcasting all arguments succeeds whenever the common shape exists, gives
    every result that shape and repeats the argument's entries. *)
Definition repeats_entries {A} (x y : tensor A) : Prop :=
  forall idx, length idx = length (tshape y) ->
    exists idx', length idx' = length (tshape x) /\ entry y idx = entry x idx' /\
      forall i, i < length (tshape x) -> nth i (rev idx') 0 = if Nat.eqb (nth i (rev (tshape x)) 0) 1 then 0 else nth i (rev idx) 0.
Lemma project_ok s idx : length s <= length idx ->
  length (project s idx) = length s /\ forall i, i < length s -> nth i (rev (project s idx)) 0 = if Nat.eqb (nth i (rev s) 0) 1 then 0 else nth i (rev idx) 0.
Proof.
  intros L. unfold project.
  assert (LC : length (combine s (skipn (length idx - length s) idx)) = length s) by (rewrite combine_length, skipn_length; lia).
  split; [rewrite map_length; assumption|]. intros i I.
  rewrite !rev_nth by (rewrite ?map_length; lia). rewrite map_length, LC.
  assert (NM : forall (l : list (nat * nat)) k, k < length l -> nth k (map (fun '(d, i) => if Nat.eqb d 1 then 0 else i) l) 0 = (let '(d, i) := nth k l (0, 0) in if Nat.eqb d 1 then 0 else i)).
  { clear. induction l as [|(d, j) l IH]; intros [|k] K; cbn in *; try reflexivity; try (exfalso; lia). apply IH; lia. }
  rewrite NM by lia. rewrite combine_nth by (rewrite skipn_length; lia).
  assert (SK : forall (l : list nat) k j, nth j (skipn k l) 0 = nth (k + j) l 0).
  { clear. intros l k. revert l. induction k; intros l j; [reflexivity|]. destruct l; [destruct j; reflexivity|]. apply IHk. }
  rewrite SK. replace (length idx - length s + (length s - S i)) with (length idx - S i) by lia. reflexivity.
Qed.
Lemma broadcast_to_ok {A} (x : tensor A) t : broadcastable (tshape x) t -> exists y, broadcast_to x t = Some y /\ tshape y = t /\ repeats_entries x y.
Proof.
  intros B. unfold broadcast_to. rewrite (proj2 (broadcasts_rev_iff _ _) (proj1 (broadcastable_bto _ _) B)). eexists. split; [reflexivity|]. split; [reflexivity|].
  intros idx L. cbn in L. exists (project (tshape x) idx). destruct (project_ok (tshape x) idx) as (P1 & P2); [destruct B; lia|]. auto.
Qed.
Theorem C26_broadcast_tensors {A} (args : list (tensor A)) s : common_shape (map tshape args) = Some s ->
  exists rs, broadcast_tensors args = Some rs /\ Forall2 (fun x y => tshape y = s /\ repeats_entries x y) args rs.
Proof.
  intros E. unfold broadcast_tensors. rewrite E. apply common_spec in E as (B & _). setoid_rewrite sequence_some.
  assert (H : forall x, In x args -> broadcastable (tshape x) s) by (intros x X; apply broadcastable_bto, B, in_map, X). clear B.
  induction args as [|x args IH]; [exists []; split; [reflexivity|constructor]|].
  destruct IH as (rs & E & F); [intros; apply H; right; assumption|]. destruct (broadcast_to_ok x s (H x ltac:(left; reflexivity))) as (y & Y & S1 & S2).
  exists (y :: rs). split; [cbn; rewrite Y, E; reflexivity|constructor; auto].
Qed.

(** The batch dimensions alone are broadcast, the event dimensions kept, when
    all event ranks are at least 1 and at most the rank. *)
Theorem C26_common_batch_shape {A} (args : list (tensor A)) ranks common :
  length ranks = length args -> (forall x d, In (x, d) (combine args ranks) -> 1 <= d <= length (tshape x)) ->
  common_shape (map (fun '(x, d) => firstn (length (tshape x) - d) (tshape x)) (combine args ranks)) = Some common ->
  exists rs, broadcast_common_batch_shape args (Some ranks) = Some rs /\
    Forall2 (fun '(x, d) y => tshape y = common ++ skipn (length (tshape x) - d) (tshape x) /\ repeats_entries x y) (combine args ranks) rs.
Proof.
  intros L D E. unfold broadcast_common_batch_shape. rewrite L, Nat.eqb_refl. cbn [negb].
  assert (DM : map (fun '(arg, d) => slice_to_minus (tshape arg) d) (combine args ranks) = map (fun '(x, d) => firstn (length (tshape x) - d) (tshape x)) (combine args ranks)).
  { apply map_ext_in. intros (x, d) X. apply D in X. unfold slice_to_minus. destruct (Nat.eqb_spec d 0); [lia|reflexivity]. }
  rewrite DM, E. apply common_spec in E as (B & _). setoid_rewrite sequence_some.
  assert (H : forall x d, In (x, d) (combine args ranks) -> broadcastable (tshape x) (common ++ skipn (length (tshape x) - d) (tshape x))).
  { intros x d X. apply broadcastable_bto. rewrite <- (firstn_skipn (length (tshape x) - d) (tshape x)) at 1. apply bto_app, B. apply in_map_iff. exists (x, d). auto. }
  clear B DM L. induction (combine args ranks) as [|(x, d) l IH]; [exists []; split; [reflexivity|constructor]|].
  destruct IH as (rs & E & F); [intros; eapply D; right; eassumption|intros; apply H; right; assumption|].
  assert (SL : slice_from_minus (tshape x) d = skipn (length (tshape x) - d) (tshape x)).
  { specialize (D x d ltac:(left; reflexivity)). unfold slice_from_minus. destruct (Nat.eqb_spec d 0); [lia|reflexivity]. }
  destruct (broadcast_to_ok x _ (H x d ltac:(left; reflexivity))) as (y & Y & S1 & S2).
  exists (y :: rs). split; [cbn [map]; rewrite SL, Y, E; reflexivity|constructor; auto].
Qed.

(** Event ranks of the wrong number are refused. *)
Theorem C26_wrong_ranks_refused {A} (args : list (tensor A)) ranks : length ranks <> length args -> broadcast_common_batch_shape args (Some ranks) = None.
Proof. intros H. unfold broadcast_common_batch_shape. destruct (Nat.eqb_spec (length ranks) (length args)); [contradiction|reflexivity]. Qed.

(** A declared event rank of 0 (the whole shape is batch shape) is not
    honoured, because Python's [s[:-0]] is empty and [s[-0:]] is all of [s]:
    with batch shapes [2] and [1] the common batch shape is [2], but the second
    result has shape [2; 1], and batch shapes [2] and [3] are not refused. *)
Theorem C26_event_rank_zero_refuted :
  (exists rs y, broadcast_common_batch_shape [Tensor [2; 3] (fun _ => 0); Tensor [1] (fun _ => 0)] (Some [1; 0]) = Some rs /\
    common_shape [[2]; [1]] = Some [2] /\ nth_error rs 1 = Some y /\ tshape y = [2; 1]) /\
  (common_shape [[2]; [3]] = None /\ broadcast_common_batch_shape [Tensor [2; 3] (fun _ => 0); Tensor [3] (fun _ => 0)] (Some [1; 0]) <> None).
Proof. split; [eexists; eexists; repeat split; reflexivity|split; [reflexivity|discriminate]]. Qed.

Example C26_ex : common_shape [[1; 2]; [2; 1]; [2]] = Some [2; 2] /\ common_shape [[2]; [3]] = None /\
  (exists rs, broadcast_common_batch_shape [Tensor [2; 3] (fun _ => 0); Tensor [2] (fun _ => 1)] None = Some rs /\ map tshape rs = [[2; 3]; [2; 2]]).
Proof. split; [reflexivity|]. split; [reflexivity|]. eexists. split; reflexivity. Qed.

Print Assumptions C26_least_common_shape.
Print Assumptions C26_fails_iff_incompatible.
Print Assumptions C26_order_irrelevant.
Print Assumptions C26_associative.
Print Assumptions C26_broadcast_tensors.
Print Assumptions C26_common_batch_shape.
Print Assumptions C26_wrong_ranks_refused.
Print Assumptions C26_event_rank_zero_refuted.
