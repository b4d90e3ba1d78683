(** C100: files of dictionaries of arrays.  [tensors_return], [examples_return],
    [proper], [same_dict], [written] and [after_crash] are defined in
    ArrayIoSpec.v. *)
From Coq Require Import String List Bool Arith Lia Permutation.
From Verif Require Import ArrayIoModel ArrayIoSpec.
Import ListNotations.

Section Io.
  Variables (array value bytes : Type) (np_array : value -> array) (back : array -> array).
  Variables (tensor_to_bytes : array -> bytes) (tensor_of_bytes : bytes -> option array).
  Variables (example_to_bytes : list (string * list bytes) -> bytes) (example_of_bytes : bytes -> option (list (string * list bytes))).
  Local Notation make_example := (make_example array value bytes np_array tensor_to_bytes example_to_bytes).
  Local Notation run := (run array value bytes np_array tensor_to_bytes example_to_bytes).
  Local Notation next := (next array bytes tensor_of_bytes example_of_bytes).
  Local Notation read_all := (read_all array bytes tensor_of_bytes example_of_bytes).
  Local Notation dict := (dict array value).
  Local Notation same_dict := (same_dict array value np_array back).
  Local Notation written := (written array value).
  Local Notation proper := (proper array value).
  Local Notation enc d := (make_example d None).

  Lemma dict_set_new d k a : ~ In k (map fst d) -> dict_set array d k a = d ++ [(k, a)].
  Proof.
    induction d as [|[k' a'] d IH]; intros N; cbn; [reflexivity|]. destruct (String.eqb_spec k k') as [->|NE]; [exfalso; apply N; left; reflexivity|]. rewrite IH; [reflexivity|]. intros X. apply N. right. exact X.
  Qed.
  Lemma build_ok (m : list (string * array)) : tensors_return array bytes back tensor_to_bytes tensor_of_bytes -> forall out, NoDup (map fst out ++ map fst m) ->
    build_output array bytes tensor_of_bytes (map (fun '(k, a) => (k, [tensor_to_bytes a])) m) out = Some (out ++ map (fun '(k, a) => (k, back a)) m).
  Proof.
    intros TR. induction m as [|[k a] m IH]; intros out ND; cbn [map build_output]; [rewrite app_nil_r; reflexivity|]. unfold decode_array. rewrite (TR a). cbn [map fst] in ND. apply NoDup_remove in ND as ND'.
    rewrite dict_set_new by (intros X; apply (proj2 ND'), in_or_app; left; exact X). rewrite IH; [rewrite <- app_assoc; reflexivity|]. rewrite map_app, <- app_assoc. exact ND.
  Qed.
  Definition plain (d : dict) : list (string * array) := map (fun '(k, e) => (k, value_of array value np_array e)) d.
  Lemma plain_features d : map (fun '(key, v) => (key, make_feature array value bytes np_array tensor_to_bytes v None)) d = map (fun '(k, a) => (k, [tensor_to_bytes a])) (plain d).
  Proof. unfold plain. rewrite map_map. apply map_ext. intros [k [a|v]]; reflexivity. Qed.
  Lemma perm_map_inv {A B} (f : A -> B) l m : Permutation (map f l) m -> exists l', m = map f l' /\ Permutation l l'.
  Proof. intros P. destruct (Permutation_map_inv f l (Permutation_sym P)) as (l' & -> & Q). exists l'. split; [reflexivity|exact Q]. Qed.
  Lemma next_ok d rest tn : tensors_return array bytes back tensor_to_bytes tensor_of_bytes -> examples_return bytes example_to_bytes example_of_bytes -> proper d ->
    exists r, next (File bytes (enc d :: rest) tn) = (Item array r, File bytes rest tn) /\ same_dict d r.
  Proof.
    intros TR ER ND. unfold ArrayIoModel.next, ArrayIoModel.make_example. cbn [records torn]. rewrite plain_features.
    assert (KF : forall m, map fst (map (fun '(k, a) => (k, [tensor_to_bytes a])) m) = map (@fst string array) m) by (intros m; rewrite map_map; apply map_ext; intros [k a]; reflexivity).
    assert (KP : map fst (plain d) = map fst d) by (unfold plain; rewrite map_map; apply map_ext; intros [k a]; reflexivity).
    destruct (ER (map (fun '(k, a) => (k, [tensor_to_bytes a])) (plain d))) as (m' & -> & P); [rewrite KF, KP; exact ND|].
    apply perm_map_inv in P as (p' & -> & P). rewrite build_ok with (out := []); [|exact TR|]. 2:{ cbn [map app]. apply (Permutation_NoDup (Permutation_map fst P)). rewrite KP. exact ND. }
    eexists. split; [reflexivity|]. unfold ArrayIoSpec.same_dict. cbn [app]. rewrite <- (Permutation_map (fun '(k, a) => (k, back a)) P). unfold plain. rewrite map_map.
    replace (map (fun x : string * entry array value => let '(k, a) := let '(k, e) := x in (k, value_of array value np_array e) in (k, back a)) d) with (map (fun '(k, e) => (k, back (value_of array value np_array e))) d); [reflexivity|].
    apply map_ext. intros [k e]. reflexivity.
  Qed.
  Lemma read_ok l tn : tensors_return array bytes back tensor_to_bytes tensor_of_bytes -> examples_return bytes example_to_bytes example_of_bytes -> Forall proper l -> forall n, (List.length l < n)%nat ->
    exists rs, read_all n (File bytes (map (fun d => enc d) l) tn) = (rs, if tn then ReadError array else StopIteration array) /\ Forall2 same_dict l rs.
  Proof.
    intros TR ER. induction l as [|d l IH]; intros PR n N; (destruct n as [|n]; [lia|]); cbn [map ArrayIoModel.read_all].
    - exists []. unfold ArrayIoModel.next. cbn [records torn]. split; [destruct tn; reflexivity|constructor].
    - inversion PR as [|? ? PD PL]; subst. destruct (next_ok d (map (fun d => enc d) l) tn TR ER PD) as (r & -> & SD). destruct (IH PL n) as (rs & -> & F2); [cbn in N; lia|].
      exists (r :: rs). split; [reflexivity|]. constructor; assumption.
  Qed.
  (** What the writer holds after a program. *)
  Lemma run_holds l : forall w w', run w l = Some w' -> stored _ w' ++ buffered _ w' = (stored _ w ++ buffered _ w) ++ map (fun d => enc d) (written l) /\ (is_open _ w' = false -> is_open _ w = false -> written l = []).
  Proof.
    induction l as [|c l IH]; intros w w' E; cbn [ArrayIoModel.run] in E.
    - injection E as <-. cbn. rewrite app_nil_r. split; reflexivity.
    - destruct (run_command _ _ _ _ _ _ w c) as [w1|] eqn:C; [|discriminate]. destruct (IH w1 w' E) as (H1 & H2). rewrite H1. destruct c as [d| | |]; cbn [run_command ArrayIoSpec.written map] in *.
      + unfold write in C. destruct (is_open _ w) eqn:O; [|discriminate]. injection C as <-. cbn [stored buffered]. split; [rewrite <- !app_assoc; reflexivity|]. discriminate.
      + unfold flush in C. destruct (is_open _ w) eqn:O; [|discriminate]. injection C as <-. cbn [stored buffered]. split; [rewrite app_nil_r; reflexivity|discriminate].
      + injection C as <-. cbn [close stored buffered is_open] in *. split; [rewrite app_nil_r; reflexivity|]. intros A _. apply H2; [exact A|reflexivity].
      + injection C as <-. cbn [close stored buffered is_open] in *. split; [rewrite app_nil_r; reflexivity|]. intros A _. apply H2; [exact A|reflexivity].
  Qed.
  Lemma run_app l1 l2 : forall w w', run w (l1 ++ l2) = Some w' -> exists w1, run w l1 = Some w1 /\ run w1 l2 = Some w'.
  Proof.
    induction l1 as [|c l1 IH]; intros w w' E; [exists w; split; [reflexivity|exact E]|]. cbn [app ArrayIoModel.run] in *. destruct (run_command _ _ _ _ _ _ w c); [|discriminate]. apply IH, E.
  Qed.
  Lemma stored_grows l : forall w w', run w l = Some w' -> (List.length (stored _ w) <= List.length (stored _ w'))%nat.
  Proof.
    induction l as [|c l IH]; intros w w' E; cbn [ArrayIoModel.run] in E; [injection E as <-; lia|]. destruct (run_command _ _ _ _ _ _ w c) as [w1|] eqn:C; [|discriminate]. specialize (IH w1 w' E).
    destruct c; cbn [run_command] in C; unfold write, flush, close in C; try (destruct (is_open _ w); [|discriminate]); injection C as <-; cbn [stored] in IH; rewrite ?app_length in IH; lia.
  Qed.
  Lemma closed_empty l : forall w w', run w l = Some w' -> (is_open _ w = false -> buffered _ w = []) -> is_open _ w' = false -> buffered _ w' = [].
  Proof.
    induction l as [|c l IH]; intros w w' E H; cbn [ArrayIoModel.run] in E; [injection E as <-; exact H|]. destruct (run_command _ _ _ _ _ _ w c) as [w1|] eqn:C; [|discriminate]. apply (IH w1 w' E).
    destruct c; cbn [run_command] in C; unfold write, flush, close in C; try (destruct (is_open _ w); [|discriminate]); injection C as <-; cbn; try discriminate; reflexivity.
  Qed.

  (** After the file is closed, reading gives the dictionaries in the order in
      which they were written, then the end. *)
  Theorem C100_round_trip l w n : tensors_return array bytes back tensor_to_bytes tensor_of_bytes -> examples_return bytes example_to_bytes example_of_bytes ->
    run (new_writer bytes) l = Some w -> is_open _ w = false -> Forall proper (written l) -> (List.length (written l) < n)%nat ->
    exists rs, read_all n (File bytes (stored _ w) false) = (rs, StopIteration array) /\ Forall2 same_dict (written l) rs.
  Proof.
    intros TR ER E O PR N. destruct (run_holds l _ w E) as (H & _). rewrite (closed_empty l _ w E ltac:(discriminate) O), app_nil_r in H. cbn [new_writer stored buffered app] in H. rewrite H.
    exact (read_ok (written l) false TR ER PR n N).
  Qed.
  (** Whenever the program is interrupted, what can be read is a prefix of what
      was written, and holds everything written before any flush or close;
      reading then ends, with an error only if a record was cut. *)
  Theorem C100_crash l w f n : tensors_return array bytes back tensor_to_bytes tensor_of_bytes -> examples_return bytes example_to_bytes example_of_bytes ->
    run (new_writer bytes) l = Some w -> after_crash bytes w f -> Forall proper (written l) -> (List.length (written l) < n)%nat ->
    exists k rs, read_all n f = (rs, if torn _ f then ReadError array else StopIteration array) /\ Forall2 same_dict (firstn k (written l)) rs /\
      forall l1 c l2, l = l1 ++ c :: l2 -> is_sync array value c -> (List.length (written l1) <= k <= List.length (written l))%nat.
  Proof.
    intros TR ER E (j & J & RF & _) PR N. destruct (run_holds l _ w E) as (H & _). cbn [new_writer stored buffered app] in H.
    set (k := (List.length (stored _ w) + j)%nat).
    assert (LEN : (List.length (stored _ w) + List.length (buffered _ w) = List.length (written l))%nat) by (rewrite <- app_length, H, map_length; reflexivity).
    assert (RK : records _ f = map (fun d => enc d) (firstn k (written l))). { rewrite RF, <- firstn_map, <- H. unfold k. rewrite firstn_app_2. reflexivity. }
    destruct (read_ok (firstn k (written l)) (torn _ f) TR ER) with (n := n) as (rs & RS & F2); [|rewrite firstn_length; lia|].
    { apply Forall_forall. intros d D. rewrite Forall_forall in PR. apply PR. rewrite <- (firstn_skipn k). apply in_or_app. left. exact D. }
    exists k, rs. split; [|split; [exact F2|]]. { rewrite <- RK in RS. destruct f as [rec tn]. exact RS. }
    intros l1 c l2 -> SY. split; [|unfold k; lia]. apply run_app in E as (w1 & E1 & E2). cbn [ArrayIoModel.run] in E2. destruct (run_command _ _ _ _ _ _ w1 c) as [w2|] eqn:C; [|discriminate].
    apply stored_grows in E2. destruct (run_holds l1 _ w1 E1) as (H1 & _). cbn [new_writer stored buffered app] in H1. apply (f_equal (@List.length _)) in H1. rewrite map_length in H1.
    assert (S2 : stored _ w2 = stored _ w1 ++ buffered _ w1). { destruct c; cbn in SY; try contradiction; cbn [run_command] in C; unfold flush, close in C; try (destruct (is_open _ w1); [|discriminate]); injection C as <-; reflexivity. }
    rewrite S2, H1 in E2. unfold k. lia.
  Qed.
  (** A program fails exactly if it writes or flushes after closing. *)
  Theorem C100_closed l : run (new_writer bytes) l = None <-> exists l1 c l2 c' l3, l = l1 ++ c :: l2 ++ c' :: l3 /\ closes array value c /\ ~ closes array value c'.
  Proof.
    assert (G : forall l w, run w l = None <-> (is_open _ w = false /\ exists l2 c' l3, l = l2 ++ c' :: l3 /\ ~ closes array value c') \/ exists l1 c l2 c' l3, l = l1 ++ c :: l2 ++ c' :: l3 /\ closes array value c /\ ~ closes array value c').
    { clear. induction l as [|c l IH]; intros w; cbn [ArrayIoModel.run].
      - split; [discriminate|]. intros [(_ & [|] & ? & ? & X & _)|([|] & ? & ? & ? & ? & X & _)]; discriminate X.
      - destruct (is_open _ w) eqn:O.
        + assert (D : closes array value c \/ ~ closes array value c) by (destruct c; cbn; tauto).
          destruct (run_command _ _ _ _ _ _ w c) as [w1|] eqn:C. 2:{ exfalso. destruct c; cbn [run_command] in C; unfold write, flush in C; rewrite ?O in C; discriminate. }
          rewrite IH. assert (O1 : is_open _ w1 = false <-> closes array value c). { destruct c; cbn [run_command] in C; unfold write, flush in C; rewrite ?O in C; injection C as <-; cbn; split; try discriminate; try tauto; reflexivity. }
          rewrite O1. split.
          * intros [(CC & l2 & c' & l3 & -> & NC)|(l1 & c1 & l2 & c' & l3 & -> & CC & NC)]; right; [exists [], c, l2, c', l3; auto|exists (c :: l1), c1, l2, c', l3; auto].
          * intros [(X & _)|(l1 & c1 & l2 & c' & l3 & EQ & CC & NC)]; [discriminate|]. destruct l1 as [|c0 l1]; cbn [app] in EQ; injection EQ as -> ->; [left; split; [exact CC|]; exists l2, c', l3; auto|right; exists l1, c1, l2, c', l3; auto].
        + destruct (run_command _ _ _ _ _ _ w c) as [w1|] eqn:C.
          * assert (CC : closes array value c /\ is_open _ w1 = false). { destruct c; cbn [run_command] in C; unfold write, flush in C; rewrite ?O in C; try discriminate; injection C as <-; cbn; tauto. } destruct CC as (CC & O1).
            rewrite IH. split.
            -- intros [(_ & l2 & c' & l3 & -> & NC)|(l1 & c1 & l2 & c' & l3 & -> & C1 & NC)]; left; (split; [reflexivity|]); [exists (c :: l2), c', l3; auto|exists (c :: l1 ++ c1 :: l2), c', l3; cbn; rewrite <- app_assoc; auto].
            -- intros [(_ & l2 & c' & l3 & EQ & NC)|(l1 & c1 & l2 & c' & l3 & EQ & C1 & NC)]; left; (split; [exact O1|]).
               ++ destruct l2 as [|c0 l2]; cbn [app] in EQ; injection EQ as -> ->; [contradiction|]. exists l2, c', l3. auto.
               ++ destruct l1 as [|c0 l1]; cbn [app] in EQ; injection EQ as -> ->; [exists l2, c', l3; auto|]. exists (l1 ++ c1 :: l2), c', l3. rewrite <- app_assoc. auto.
          * split; [|reflexivity]. intros _. left. split; [reflexivity|]. exists [], c, l. split; [reflexivity|]. destruct c; cbn [run_command] in C; try discriminate; cbn; tauto. }
    rewrite G. cbn [new_writer is_open]. split; [intros [(X & _)|X]; [discriminate|exact X]|intros X; right; exact X].
  Qed.
End Io.

(** Dictionaries of numbers, serialised as trees, read back in reverse order. *)
Inductive blob := Leaf (n : nat) | Node (l : list (string * list blob)).
Definition leaf_of (b : blob) : option nat := match b with Leaf n => Some n | Node _ => None end.
Definition node_of (b : blob) : option (list (string * list blob)) := match b with Leaf _ => None | Node l => Some (rev l) end.
Example C100_ex : tensors_return nat blob (fun n => n) Leaf leaf_of /\ examples_return blob Node node_of /\
  let l := [CWrite nat bool [("a", IsArray _ _ 3); ("b", NotArray _ _ true)]; CFlush _ _; CWrite _ _ [("a", IsArray _ _ 4)]; CExit _ _]%string in
  exists w, run nat bool blob Nat.b2n Leaf Node (new_writer blob) l = Some w /\ is_open _ w = false /\ Forall (proper nat bool) (written nat bool l) /\
    read_all nat blob leaf_of node_of 3 (File blob (stored _ w) false) = ([[("b", 1); ("a", 3)]; [("a", 4)]]%string, StopIteration nat).
Proof.
  split; [intros a; reflexivity|]. split; [intros m _; exists (rev m); split; [reflexivity|apply Permutation_rev]|].
  eexists. split; [reflexivity|]. split; [reflexivity|]. split; [|reflexivity]. unfold proper.
  repeat constructor; cbn; intuition discriminate.
Qed.
(** The encoder given to the function that makes a record has no effect. *)
Theorem C100_encoder_refuted : exists (d : dict nat bool) (encoder : nat -> blob),
  make_example nat bool blob Nat.b2n Leaf Node d (Some encoder) <> Node (map (fun '(k, e) => (k, [encoder (value_of nat bool Nat.b2n e)])) d)
  /\ forall encoder', make_example nat bool blob Nat.b2n Leaf Node d encoder' = make_example nat bool blob Nat.b2n Leaf Node d None.
Proof.
  exists [("a", IsArray _ _ 3)]%string, (fun n => Leaf (S n)). split; [discriminate|]. intros e. reflexivity.
Qed.

Print Assumptions C100_round_trip.
Print Assumptions C100_crash.
Print Assumptions C100_closed.
Print Assumptions C100_encoder_refuted.
