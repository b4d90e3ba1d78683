(** C102: the iteration over nested dictionaries gives every leaf once. *)
From Coq Require Import String List Bool Arith Lia FinFun.
From Verif Require Import NestedModel NestedSpec.
Import ListNotations.

Section Ind.
Context {A : Type} (P : value A -> Prop).
Hypothesis HL : forall a, P (Leaf a).
Hypothesis HV : forall l, Forall P l -> P (VList l).
Hypothesis HD : forall l, Forall (fun p => P (snd p)) l -> P (Dict l).
Hypothesis HR : forall l, Forall (fun p => P (snd p)) l -> P (Data l).
Hypothesis HT : P DataType.
Fixpoint value_nested_ind (v : value A) : P v :=
  match v with
  | Leaf a => HL a
  | VList l => HV l ((fix go l := match l return Forall P l with [] => Forall_nil _ | x :: r => Forall_cons x (value_nested_ind x) (go r) end) l)
  | Dict l => HD l ((fix go l := match l return Forall (fun p => P (snd p)) l with [] => Forall_nil _ | x :: r => Forall_cons x (value_nested_ind (snd x)) (go r) end) l)
  | Data l => HR l ((fix go l := match l return Forall (fun p => P (snd p)) l with [] => Forall_nil _ | x :: r => Forall_cons x (value_nested_ind (snd x)) (go r) end) l)
  | DataType => HT
  end.
End Ind.

Lemma copy_same {A} (v : value A) : no_records v = true -> asdict_inner A v = v.
Proof.
  induction v as [a|l IH|l IH|l IH|] using value_nested_ind; cbn; intros H; try reflexivity; try discriminate; f_equal.
  - induction IH as [|x l Px F IHl]; [reflexivity|]. cbn in *. apply andb_true_iff in H as [H1 H2]. rewrite Px, IHl by assumption. reflexivity.
  - induction IH as [|[k u] l Px F IHl]; [reflexivity|]. cbn in *. apply andb_true_iff in H as [H1 H2]. rewrite Px, IHl by assumption. reflexivity.
Qed.
Lemma copy_facts {A} (v : value A) : plain true v = true ->
  height A (asdict_inner A v) = height A v /\ leaves (asdict_inner A v) = leaves v /\ plain true (asdict_inner A v) = true.
Proof.
  induction v as [a|l IH|l IH|l IH|] using value_nested_ind; intros H.
  - auto.
  - cbn in H. rewrite (copy_same (VList l)) by exact H. auto.
  - cbn in H |- *. cut (list_max (map (fun '(_, u) => height A u) (map (fun '(k, u) => (k, asdict_inner A u)) l)) = list_max (map (fun '(_, u) => height A u) l) /\
      flat_map (fun '(k, u) => map (fun '(p, w) => (k :: p, w)) (leaves u)) (map (fun '(k, u) => (k, asdict_inner A u)) l) = flat_map (fun '(k, u) => map (fun '(p, w) => (k :: p, w)) (leaves u)) l /\
      forallb (fun '(_, u) => plain true u) (map (fun '(k, u) => (k, asdict_inner A u)) l) = true); [intros (-> & -> & ->); auto|].
    induction IH as [|[k u] l Px F IHl]; [auto|]. cbn in H. apply andb_true_iff in H as [H1 H2]. destruct (Px H1) as (E1 & E2 & E3). destruct (IHl H2) as (F1 & F2 & F3).
    cbn in *. rewrite E1, E2, E3, F2, F3. unfold list_max in F1 |- *. cbn. rewrite F1. auto.
  - cbn in H |- *. cut (list_max (map (fun '(_, u) => height A u) (map (fun '(k, u) => (k, asdict_inner A u)) l)) = list_max (map (fun '(_, u) => height A u) l) /\
      flat_map (fun '(k, u) => map (fun '(p, w) => (k :: p, w)) (leaves u)) (map (fun '(k, u) => (k, asdict_inner A u)) l) = flat_map (fun '(k, u) => map (fun '(p, w) => (k :: p, w)) (leaves u)) l /\
      forallb (fun '(_, u) => plain true u) (map (fun '(k, u) => (k, asdict_inner A u)) l) = true); [intros (-> & -> & ->); auto|].
    induction IH as [|[k u] l Px F IHl]; [auto|]. cbn in H. apply andb_true_iff in H as [H1 H2]. destruct (Px H1) as (E1 & E2 & E3). destruct (IHl H2) as (F1 & F2 & F3).
    cbn in *. rewrite E1, E2, E3, F2, F3. unfold list_max in F1 |- *. cbn. rewrite F1. auto.
  - discriminate.
Qed.

Lemma map_flat {B C D} (f : C -> D) (g : B -> list C) l : map f (flat_map g l) = flat_map (fun x => map f (g x)) l.
Proof. induction l; cbn; [reflexivity|]. rewrite map_app, IHl. reflexivity. Qed.
Lemma iterate_leaves {A} : forall n (items : list (string * value A)) prev r,
  list_max (map (fun '(_, u) => height A u) items) < n -> forallb (fun '(_, u) => plain r u) items = true ->
  iterate A n items prev = (map (fun '(p, w) => (prev ++ p, w)) (leaves (Dict items)), false).
Proof.
  induction n as [|n IH]; intros items prev r; [lia|]. cbn [iterate]. induction items as [|[k v] rest IHr]; [reflexivity|]. intros Hh Hp.
  cbn [map] in Hh. unfold list_max in Hh. cbn [fold_right] in Hh. fold (list_max (map (fun '(_, u) => height A u) rest)) in Hh. cbn [forallb] in Hp. apply andb_true_iff in Hp as [P1 P2].
  rewrite (IHr ltac:(lia) P2).
  assert (E : (if negb (is_nested A v) then ([(prev ++ [k], v)], false) else match as_items A v with None => ([], true) | Some d => iterate A n d (prev ++ [k]) end)
    = (map (fun '(p, w) => (prev ++ p, w)) (map (fun '(p, w) => (k :: p, w)) (leaves v)), false)).
  { assert (M : forall l : list (list string * value A), map (fun '(p, w) => (prev ++ p, w)) (map (fun '(p, w) => (k :: p, w)) l) = map (fun '(p, w) => ((prev ++ [k]) ++ p, w)) l).
    { intros l. rewrite map_map. apply map_ext. intros [p w]. rewrite <- app_assoc. reflexivity. }
    rewrite M. destruct v as [a|l|l|l|].
    - cbn. rewrite app_nil_r. reflexivity.
    - cbn. rewrite app_nil_r. reflexivity.
    - cbn [is_nested negb as_items is_dataclass]. apply (IH l (prev ++ [k]) r); [cbn [height] in Hh; lia|exact P1].
    - destruct (copy_facts (Data l) P1) as (E1 & E2 & E3). cbn [is_nested is_dataclass negb as_items asdict]. cbn [asdict_inner] in *. rewrite <- E2.
      apply (IH _ (prev ++ [k]) true); [cbn [height] in E1, Hh; lia|exact E3].
    - discriminate. }
  rewrite E. cbn [leaves flat_map]. rewrite map_app. reflexivity.
Qed.

(** Every leaf with its key path after the given keys, in depth first order,
    without an exception. *)
Theorem C102_depth_first : forall A (nd : list (string * value A)) previous, plain false (Dict nd) = true ->
  iterate_nested A nd previous = (map (fun '(p, w) => (match previous with None => [] | Some q => q end ++ p, w)) (leaves (Dict nd)), false).
Proof. intros A nd previous H. unfold iterate_nested. apply (iterate_leaves _ nd _ false); [cbn; lia|exact H]. Qed.

Lemma leaves_at {A} (v : value A) r : plain r v = true -> forall p w, In (p, w) (leaves v) <-> leaf_at v p w.
Proof.
  revert r. induction v as [a|l IH|l IH|l IH|] using value_nested_ind; intros r H p w.
  - cbn. split; [intros [E|[]]; injection E as <- <-; constructor|intros E; inversion E; subst; auto].
  - cbn. split; [intros [E|[]]; injection E as <- <-; constructor|intros E; inversion E; subst; auto].
  - cbn [leaves]. rewrite in_flat_map. rewrite Forall_forall in IH. cbn in H. rewrite forallb_forall in H. split.
    + intros ([k u] & J & Q). apply in_map_iff in Q as ([p' w'] & E & Q). injection E as <- <-. apply (in_dict l k u p' w' J). apply (IH (k, u) J r (H _ J)). exact Q.
    + intros E. inversion E as [| |items k u p' w' J Q|]; subst. exists (k, u). split; [exact J|]. apply in_map_iff. exists (p', w). split; [reflexivity|]. apply (IH (k, u) J r (H _ J)). exact Q.
  - cbn [leaves]. rewrite in_flat_map. rewrite Forall_forall in IH. cbn in H. rewrite forallb_forall in H. split.
    + intros ([k u] & J & Q). apply in_map_iff in Q as ([p' w'] & E & Q). injection E as <- <-. apply (in_record l k u p' w' J). apply (IH (k, u) J true (H _ J)). exact Q.
    + intros E. inversion E as [| | |items k u p' w' J Q]; subst. exists (k, u). split; [exact J|]. apply in_map_iff. exists (p', w). split; [reflexivity|]. apply (IH (k, u) J true (H _ J)). exact Q.
  - discriminate.
Qed.
(** What is given is exactly what the key paths lead to. *)
Theorem C102_complete : forall A (nd : list (string * value A)), plain false (Dict nd) = true ->
  forall p w, In (p, w) (fst (iterate_nested A nd None)) <-> leaf_at (Dict nd) p w.
Proof.
  intros A nd H p w. rewrite (C102_depth_first A nd None H). cbn [fst app]. rewrite (map_ext _ (fun x => x)) by (intros [? ?]; reflexivity). rewrite map_id.
  apply (leaves_at (Dict nd) false H).
Qed.

Lemma nodup_app {B} (l m : list B) : NoDup l -> NoDup m -> (forall x, In x l -> ~ In x m) -> NoDup (l ++ m).
Proof. induction 1 as [|x l N D IH]; intros M S; [exact M|]. cbn. constructor; [rewrite in_app_iff; intros [J|J]; [exact (N J)|exact (S x (or_introl eq_refl) J)]|apply IH; [exact M|intros y J; apply S; right; exact J]]. Qed.
Lemma paths_once {A} (v : value A) : distinct_keys v -> NoDup (map fst (leaves v)).
Proof.
  assert (G : forall l : list (string * value A), Forall (fun p => distinct_keys (snd p) -> NoDup (map fst (leaves (snd p)))) l ->
    NoDup (map fst l) /\ fold_right (fun '(_, u) P => distinct_keys u /\ P) True l ->
    NoDup (map fst (flat_map (fun '(k, u) => map (fun '(p, w) => (k :: p, w)) (leaves u)) l))).
  { intros l F. induction F as [|[k u] l Px F IH]; [constructor|]. cbn. intros [N [D1 D2]]. inversion N as [|x y Nk Nl]; subst.
    rewrite map_app. apply nodup_app.
    - rewrite map_map. rewrite (map_ext _ (fun x => k :: fst x)) by (intros [? ?]; reflexivity). rewrite <- (map_map fst (cons k)).
      apply Injective_map_NoDup; [intros a b E; injection E as ->; reflexivity|exact (Px D1)].
    - apply IH. split; assumption.
    - intros x J1 J2. apply in_map_iff in J1 as ([p w] & <- & J1). apply in_map_iff in J1 as ([p' w'] & E & J1). injection E as <- <-. cbn in J2.
      apply in_map_iff in J2 as ([q z] & Eq & J2). cbn in Eq. apply in_flat_map in J2 as ([k2 u2] & J2 & J3). apply in_map_iff in J3 as ([q' z'] & E & J3). injection E as <- <-. injection Eq as -> _.
      apply Nk. apply in_map_iff. exists (k, u2). split; [reflexivity|exact J2]. }
  induction v as [a|l IH|l IH|l IH|] using value_nested_ind; cbn [leaves distinct_keys]; try (intros _; cbn; constructor; [intros []|constructor]).
  - exact (G l IH).
  - exact (G l IH).
Qed.
(** No key path is given twice. *)
Theorem C102_once : forall A (nd : list (string * value A)) previous, plain false (Dict nd) = true -> distinct_keys (Dict nd) ->
  NoDup (map fst (fst (iterate_nested A nd previous))).
Proof.
  intros A nd previous H D. rewrite (C102_depth_first A nd previous H). cbn [fst]. rewrite map_map. rewrite (map_ext _ (fun x => match previous with None => [] | Some q => q end ++ fst x)) by (intros [? ?]; reflexivity).
  rewrite <- (map_map fst (app _)). apply Injective_map_NoDup; [intros a b E; exact (app_inv_head _ _ _ E)|]. exact (paths_once (Dict nd) D).
Qed.

(** A list of records inside a record is a leaf that is changed to a list of
    dictionaries, although the same list in a dictionary is not; a class of
    records as a value, which is a leaf, raises after the leaves before it. *)
Theorem C102_refuted : forall A (a : A),
  let records := VList [Data [("x"%string, Leaf a)]] in
  iterate_nested A [("d"%string, Dict [("l"%string, records)])] None = ([(["d"; "l"]%string, records)], false) /\
  iterate_nested A [("r"%string, Data [("l"%string, records)])] None = ([(["r"; "l"]%string, VList [Dict [("x"%string, Leaf a)]])], false) /\
  iterate_nested A [("y"%string, Leaf a); ("t"%string, DataType); ("z"%string, Leaf a)] None = ([(["y"]%string, Leaf a)], true).
Proof. intros A a records. split; [reflexivity|split; reflexivity]. Qed.

Example C102_ex :
  let nd := [("a", Leaf 1); ("b", VList [Leaf 2]); ("c", Dict [("d", Leaf 8); ("e", Data [("f", Leaf 9)])])]%string in
  plain false (Dict nd) = true /\ distinct_keys (Dict nd) /\
  iterate_nested nat nd (Some ["top"%string]) =
    ([(["top"; "a"], Leaf 1); (["top"; "b"], VList [Leaf 2]); (["top"; "c"; "d"], Leaf 8); (["top"; "c"; "e"; "f"], Leaf 9)]%string, false).
Proof.
  cbv zeta. split; [reflexivity|]. split; [|reflexivity].
  cbn; repeat split; repeat constructor; cbn; intuition discriminate.
Qed.

Print Assumptions C102_depth_first.
Print Assumptions C102_complete.
Print Assumptions C102_once.
Print Assumptions C102_refuted.
