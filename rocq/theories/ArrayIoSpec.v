(** Files of dictionaries, without reference to the code. *)
From Coq Require Import List String Permutation.
From Verif Require Import ArrayIoModel.
Import ListNotations.

Section Spec.
  Variables (array value bytes : Type).
  Variable np_array : value -> array.
  (** What remains of an array after a round trip: [back] is the identity on
      arrays of numbers, and turns strings into bytes. *)
  Variable back : array -> array.
  Variable tensor_to_bytes : array -> bytes.
  Variable tensor_of_bytes : bytes -> option array.
  Variable example_to_bytes : list (string * list bytes) -> bytes.
  Variable example_of_bytes : bytes -> option (list (string * list bytes)).

  (** TensorFlow's serialisation: tensors come back, and an example comes back
      with the same features, in any order. *)
  Definition tensors_return : Prop := forall a, tensor_of_bytes (tensor_to_bytes a) = Some (back a).
  Definition examples_return : Prop := forall m, NoDup (map fst m) ->
    exists m', example_of_bytes (example_to_bytes m) = Some m' /\ Permutation m m'.

  (** Python dictionaries have distinct keys. *)
  Definition proper (d : dict array value) : Prop := NoDup (map fst d).
  Definition value_of (e : entry array value) : array := match e with IsArray _ _ a => a | NotArray _ _ v => np_array v end.
  (** What reading [d] back should give: the same keys, in any order, with the
      arrays of its values. *)
  Definition same_dict (d : dict array value) (r : list (string * array)) : Prop :=
    Permutation (map (fun '(k, e) => (k, back (value_of e))) d) r.

  (** The dictionaries written by a program, and those written before its last
      flush or close. *)
  Fixpoint written (l : list (command array value)) : list (dict array value) :=
    match l with [] => [] | CWrite _ _ d :: l => d :: written l | _ :: l => written l end.
  Definition is_sync (c : command array value) : Prop := match c with CWrite _ _ _ => False | _ => True end.
  (** The program does not write or flush after closing. *)
  Definition closes (c : command array value) : Prop := match c with CClose _ _ | CExit _ _ => True | _ => False end.

  (** What a crash may leave of the file of a writer: the stored records, some
      of the buffered ones, and perhaps a part of the next. *)
  Definition after_crash (w : writer bytes) (f : file bytes) : Prop :=
    exists k, (k <= List.length (buffered _ w))%nat /\ records _ f = stored _ w ++ firstn k (buffered _ w) /\ (torn _ f = true -> (k < List.length (buffered _ w))%nat).
End Spec.
