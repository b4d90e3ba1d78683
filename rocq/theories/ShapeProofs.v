From Coq Require Import List Arith Bool Lia.
From Verif Require Import ShapeModel.
Import ListNotations.

(** right-aligned broadcasting order on reversed shapes *)
Inductive brev : shape -> shape -> Prop :=
| brev_nil t : brev [] t
| brev_cons x y a t : (x = y \/ x = 1) -> brev a t -> brev (x :: a) (y :: t).

Lemma broadcasts_rev_iff a t : broadcasts_rev a t = true <-> brev a t.
Proof.
  revert t. induction a as [|x a IH]; intros [|y t]; cbn; split; intros H; try discriminate; try constructor; try (now inversion H).
  - apply andb_prop in H as (H & _). apply orb_prop in H as [H|H]; apply Nat.eqb_eq in H; auto.
  - apply andb_prop in H as (_ & H). apply IH. assumption.
  - inversion H; subst. apply andb_true_intro. split; [apply orb_true_iff; rewrite !Nat.eqb_eq; assumption|apply IH; assumption].
Qed.
Lemma brev_refl a : brev a a.
Proof. induction a; constructor; auto. Qed.
Lemma brev_trans a b c : brev a b -> brev b c -> brev a c.
Proof.
  intros H. revert c. induction H as [|x y a t D H IH]; intros c K; [constructor|]. inversion K; subst. constructor; [|apply IH; assumption].
  destruct D as [->| ->]; auto.
Qed.
Lemma brev_antisym a b : brev a b -> brev b a -> a = b.
Proof.
  intros H. induction H as [|x y a t D H IH]; intros K; [inversion K; reflexivity|]. inversion K; subst. f_equal; [|apply IH; assumption]. destruct D as [->| ->]; [reflexivity|]. destruct H3; auto.
Qed.

Lemma dim_spec a b d : broadcast_dim a b = Some d -> (a = d \/ a = 1) /\ (b = d \/ b = 1) /\ forall e, (a = e \/ a = 1) -> (b = e \/ b = 1) -> d = e \/ d = 1.
Proof.
  unfold broadcast_dim. destruct (Nat.eqb_spec a b); [intros E; injection E as <-; subst; auto|].
  destruct (Nat.eqb_spec a 1); [intros E; injection E as <-; subst; auto|].
  destruct (Nat.eqb_spec b 1); [intros E; injection E as <-; subst; auto|discriminate].
Qed.
Lemma dim_none a b : broadcast_dim a b = None -> ~ exists e, (a = e \/ a = 1) /\ (b = e \/ b = 1).
Proof.
  unfold broadcast_dim. destruct (Nat.eqb_spec a b); [discriminate|]. destruct (Nat.eqb_spec a 1); [discriminate|]. destruct (Nat.eqb_spec b 1); [discriminate|].
  intros _ (e & [->|H] & [->|K]); congruence.
Qed.
Lemma rev_spec : forall a b r, broadcast_rev a b = Some r -> brev a r /\ brev b r /\ forall t, brev a t -> brev b t -> brev r t.
Proof.
  induction a as [|x a IH]; intros [|y b] r E; cbn in E; try (injection E as <-; split; [apply brev_refl || constructor|split; [apply brev_refl || constructor|auto]]).
  destruct (broadcast_dim x y) as [d|] eqn:D; [|discriminate]. destruct (broadcast_rev a b) as [r'|] eqn:R; [|discriminate]. injection E as <-.
  apply dim_spec in D as (D1 & D2 & D3). apply IH in R as (R1 & R2 & R3). split; [constructor; auto|]. split; [constructor; auto|].
  intros t H K. inversion H; subst. inversion K; subst. constructor; auto.
Qed.
Lemma rev_none : forall a b, broadcast_rev a b = None -> ~ exists t, brev a t /\ brev b t.
Proof.
  induction a as [|x a IH]; intros [|y b] E; cbn in E; try discriminate.
  intros (t & H & K). inversion H; subst. inversion K; subst. destruct (broadcast_dim x y) as [d|] eqn:D.
  - destruct (broadcast_rev a b) eqn:R; [discriminate|]. apply (IH b R). eexists; eauto.
  - apply (dim_none _ _ D). eexists; eauto.
Qed.

(** the same on shapes *)
Definition bto (s t : shape) : Prop := brev (rev s) (rev t).
Lemma static_spec a b r : broadcast_static_shape a b = Some r -> bto a r /\ bto b r /\ forall t, bto a t -> bto b t -> bto r t.
Proof.
  unfold broadcast_static_shape, bto. destruct (broadcast_rev (rev a) (rev b)) as [q|] eqn:E; [|discriminate]. intros H. injection H as <-. rewrite rev_involutive.
  apply rev_spec in E as (A & B & C). auto.
Qed.
Lemma static_none a b : broadcast_static_shape a b = None -> ~ exists t, bto a t /\ bto b t.
Proof.
  unfold broadcast_static_shape, bto. destruct (broadcast_rev (rev a) (rev b)) as [q|] eqn:E; [discriminate|]. intros _ (t & H). apply (rev_none _ _ E). eexists; eauto.
Qed.
Lemma fold_none rest : fold_left (fun acc s => match acc with None => None | Some o => broadcast_static_shape o s end) rest None = None.
Proof. induction rest; [reflexivity|assumption]. Qed.
Lemma fold_spec : forall rest a r, fold_left (fun acc s => match acc with None => None | Some o => broadcast_static_shape o s end) rest (Some a) = Some r ->
  bto a r /\ (forall s, In s rest -> bto s r) /\ forall t, bto a t -> (forall s, In s rest -> bto s t) -> bto r t.
Proof.
  induction rest as [|s rest IH]; intros a r E; cbn [fold_left] in E.
  - injection E as <-. split; [apply brev_refl|]. split; [intros s []|auto].
  - destruct (broadcast_static_shape a s) as [q|] eqn:Q; [|rewrite fold_none in E; discriminate].
    apply IH in E as (E1 & E2 & E3). apply static_spec in Q as (Q1 & Q2 & Q3). split; [eapply brev_trans; eassumption|]. split.
    + intros u [<-|U]; [eapply brev_trans; eassumption|auto].
    + intros t A B. apply E3; [apply Q3; [assumption|apply B; left; reflexivity]|intros; apply B; right; assumption].
Qed.
Lemma fold_fail : forall rest a, fold_left (fun acc s => match acc with None => None | Some o => broadcast_static_shape o s end) rest (Some a) = None ->
  ~ exists t, bto a t /\ forall s, In s rest -> bto s t.
Proof.
  induction rest as [|s rest IH]; intros a E; cbn [fold_left] in E; [discriminate|]. intros (t & A & B).
  destruct (broadcast_static_shape a s) as [q|] eqn:Q.
  - apply (IH q E). exists t. apply static_spec in Q as (_ & _ & Q3). split; [apply Q3; [assumption|apply B; left; reflexivity]|intros; apply B; right; assumption].
  - apply (static_none _ _ Q). exists t. split; [assumption|apply B; left; reflexivity].
Qed.
Lemma common_spec args r : common_shape args = Some r -> (forall s, In s args -> bto s r) /\ forall t, (forall s, In s args -> bto s t) -> bto r t.
Proof.
  destruct args as [|a rest]; [discriminate|]. intros E. apply fold_spec in E as (A & B & C). split; [intros s [<-|S]; auto|].
  intros t H. apply C; [apply H; left; reflexivity|intros; apply H; right; assumption].
Qed.
Lemma common_fail args : args <> [] -> common_shape args = None -> ~ exists t, forall s, In s args -> bto s t.
Proof.
  destruct args as [|a rest]; [congruence|]. intros _ E (t & H). apply (fold_fail _ _ E). exists t. split; [apply H; left; reflexivity|intros; apply H; right; assumption].
Qed.

(** positional reading of the order *)
Lemma brev_nth s t : brev s t <-> length s <= length t /\ forall i, i < length s -> nth i s 0 = nth i t 0 \/ nth i s 0 = 1.
Proof.
  split.
  - intros H. induction H as [|x y a t D H (L & IH)]; [cbn; split; [lia|intros; lia]|]. cbn. split; [lia|]. intros [|i] I; [assumption|]. apply IH. lia.
  - revert t. induction s as [|x s IH]; intros [|y t] (L & H); cbn in L; try lia; constructor.
    + apply (H 0). cbn. lia.
    + apply IH. split; [lia|]. intros i I. apply (H (S i)). cbn. lia.
Qed.

Lemma sequence_some {A} (l : list (option A)) r : sequence l = Some r <-> l = map Some r.
Proof.
  revert r. induction l as [|[a|] l IH]; intros r; cbn.
  - split; [intros E; injection E as <-; reflexivity|]. destruct r; [reflexivity|discriminate].
  - destruct (sequence l) as [q|].
    + cbn. split; [intros E; injection E as <-; cbn; f_equal; apply IH; reflexivity|]. destruct r as [|x r]; [discriminate|]. intros E. injection E as -> E. apply IH in E. congruence.
    + cbn. split; [discriminate|]. destruct r as [|x r]; [discriminate|]. intros E. injection E as -> E. apply IH in E. discriminate.
  - split; [discriminate|]. destruct r; discriminate.
Qed.
Lemma bto_app s t e : bto s t -> bto (s ++ e) (t ++ e).
Proof. unfold bto. rewrite !rev_app_distr. intros H. induction (rev e); [assumption|]. cbn. constructor; auto. Qed.
