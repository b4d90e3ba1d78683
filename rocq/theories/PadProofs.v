From Coq Require Import List Arith ZArith Bool Lia.
From Verif Require Import DateModel PadModel.
Open Scope nat_scope.
Import ListNotations.

Section Pad.
  Context {A : Type} (gtb : A -> A -> bool).

  Lemma traverse_forall2 {B C} (f : B -> option C) l r : traverse f l = Some r <-> Forall2 (fun b c => f b = Some c) l r.
  Proof.
    revert r. induction l as [|b l IH]; intros r; cbn.
    - split; [intros E; injection E as <-; constructor|]. intros H. inversion H. reflexivity.
    - split.
      + destruct (f b) eqn:F; [|discriminate]. destruct (traverse f l) eqn:T; [|discriminate]. intros E. injection E as <-. constructor; [assumption|]. apply IH. reflexivity.
      + intros H. inversion H as [|? c ? r' F R]; subst. rewrite F, (proj2 (IH r') R). reflexivity.
  Qed.
  Lemma last_of_last (r : list A) x : last_of r = Some x <-> r <> [] /\ last r x = x.
  Proof.
    unfold last_of. destruct (rev r) as [|y l] eqn:E.
    - apply (f_equal (@rev A)) in E. rewrite rev_involutive in E. cbn in E. subst. split; [discriminate|]. intros (H & _). congruence.
    - apply (f_equal (@rev A)) in E. rewrite rev_involutive in E. cbn in E. subst. rewrite last_last. split; [intros H; injection H as ->; split; [destruct (rev l); discriminate|reflexivity]|].
      intros (_ & ->). reflexivity.
  Qed.

  (** one row *)
  Lemma pad_row_nth max c v r d : (forall x, In x r -> gtb x c = true) -> gtb c c = false -> length r <= max ->
    length (pad_row gtb max c v r) = max /\ firstn (length r) (pad_row gtb max c v r) = r /\
    forall i, length r <= i < max -> nth i (pad_row gtb max c v r) d = v.
  Proof.
    intros G C L. unfold pad_row. rewrite map_app.
    assert (M : map (fun x => if gtb x c then x else v) r = r).
    { rewrite <- (map_id r) at 2. apply map_ext_in. intros x X. rewrite (G x X). reflexivity. }
    rewrite M. split; [rewrite app_length, map_length, repeat_length; lia|]. split; [rewrite firstn_app, firstn_all, Nat.sub_diag, firstn_O, app_nil_r; reflexivity|].
    intros i I. rewrite app_nth2 by lia.
    assert (RP : forall n k, k < n -> nth k (map (fun x => if gtb x c then x else v) (repeat c n)) d = v).
    { clear -C. induction n; intros [|k] K; cbn; try lia; [rewrite C; reflexivity|apply IHn; lia]. }
    apply RP. lia.
  Qed.
  Lemma max_last_dim_ge (tensors : list (list (list A))) t : In t tensors -> last_dim t <= max_last_dim tensors.
  Proof.
    unfold max_last_dim. induction tensors as [|u l IH]; intros []; cbn; [subst; lia|]. specialize (IH H). lia.
  Qed.
  Lemma max_last_dim_in (tensors : list (list (list A))) : tensors <> [] -> exists t, In t tensors /\ last_dim t = max_last_dim tensors.
  Proof.
    unfold max_last_dim. induction tensors as [|u l IH]; intros N; [congruence|]. destruct l as [|w l].
    - exists u. cbn. split; [auto|lia].
    - destruct IH as (t & T1 & T2); [discriminate|]. cbn [map fold_right] in *. destruct (Nat.max_spec (last_dim u) (Nat.max (last_dim w) (fold_right Nat.max 0 (map last_dim l)))) as [(H & E)|(H & E)]; rewrite E.
      + exists t. split; [right; assumption|assumption].
      + exists u. split; [left; reflexivity|reflexivity].
  Qed.
  (** the minimum is an element below all others, for a total order *)
  Lemma reduce_min_spec (le : A -> A -> Prop) t m : (forall a, le a a) -> (forall a b c, le a b -> le b c -> le a c) ->
    (forall a b, gtb a b = true -> le b a) -> (forall a b, gtb a b = false -> le a b) ->
    reduce_min gtb t = Some m -> In m (concat t) /\ forall x, In x (concat t) -> le m x.
  Proof.
    intros RF TR G1 G2. unfold reduce_min. destruct (concat t) as [|x l]; [discriminate|]. intros E. injection E as <-.
    assert (H : forall l x, (fold_left (minb gtb) l x = x \/ In (fold_left (minb gtb) l x) l) /\ le (fold_left (minb gtb) l x) x /\ forall y, In y l -> le (fold_left (minb gtb) l x) y).
    { clear x l. induction l as [|y l IH]; intros x; cbn.
      - split; [auto|]. split; [apply RF|tauto].
      - destruct (IH (minb gtb x y)) as (I1 & I2 & I3). unfold minb in *. destruct (gtb x y) eqn:G.
        + split; [destruct I1 as [->|?]; auto|]. split; [apply (TR _ y); auto|]. intros z [<-|Z]; auto.
        + split; [destruct I1 as [->|?]; auto|]. split; [assumption|]. intros z [<-|Z]; [apply (TR _ x); auto|auto]. }
    destruct (H l x) as (H1 & H2 & H3). split; [destruct H1 as [->|?]; cbn; auto|]. intros y [<-|Y]; auto.
  Qed.
  Lemma reduce_min_some t : concat t <> [] -> exists m, reduce_min gtb t = Some m.
  Proof. unfold reduce_min. destruct (concat t); [congruence|eexists; reflexivity]. Qed.
End Pad.

(** [t'] is [t] padded to [n] columns with [vs] (one value per row) *)
Definition padded {A} (n : nat) (vs : list A) (t t' : list (list A)) : Prop :=
  length vs = length t /\ length t' = length t /\
  forall i r r' v, nth_error t i = Some r -> nth_error t' i = Some r' -> nth_error vs i = Some v ->
    length r' = n /\ firstn (length r) r' = r /\ forall j, length r <= j < n -> nth_error r' j = Some v.

Section Pad2.
  Context {A : Type} (gtb : A -> A -> bool) (sub1 : A -> A).
  Lemma pad_tensor_padded max vs t m :
    reduce_min gtb t = Some m -> (forall x, In x (concat t) -> gtb x (sub1 m) = true) -> gtb (sub1 m) (sub1 m) = false ->
    (forall r, In r t -> length r <= max) -> length vs = length t ->
    padded max vs t (map (fun '(v, r) => pad_row gtb max (sub1 m) v r) (combine vs t)).
  Proof.
    intros M G C L LV. split; [assumption|]. split; [rewrite map_length, combine_length; lia|].
    intros i r r' v R R' V.
    assert (CB : forall (vs : list A) (t : list (list A)) i r v, nth_error t i = Some r -> nth_error vs i = Some v -> nth_error (combine vs t) i = Some (v, r)).
    { clear. induction vs as [|a vs IH]; intros [|b t] [|i] r v H K; cbn in *; try discriminate; [congruence|auto]. }
    rewrite nth_error_map, (CB _ _ _ _ _ R V) in R'. cbn in R'. injection R' as <-.
    assert (IR : In r t) by (eapply nth_error_In; eassumption).
    destruct (pad_row_nth gtb max (sub1 m) v r v) as (P1 & P2 & P3).
    - intros x X. apply G. apply in_concat. exists r. auto.
    - assumption.
    - auto.
    - split; [assumption|]. split; [assumption|]. intros j J. rewrite (nth_error_nth' _ v) by lia. f_equal. apply P3. assumption.
  Qed.
End Pad2.
