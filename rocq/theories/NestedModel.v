(** Model of tf_quant_finance/utils/tf_functions.py.  Definitions only.  A
    generator is the list of what it yields and whether it then raises. *)
From Coq Require Import String List Bool Arith.
Import ListNotations.

Section Nested.
  Variable A : Type.
  (** Python values: opaque ones, lists (or tuples), dictionaries with string keys
      in insertion order, instances of a dataclass with their fields in order, and
      a dataclass itself. *)
  Inductive value :=
  | Leaf (a : A)
  | VList (l : list value)
  | Dict (items : list (string * value))
  | Data (fields : list (string * value))
  | DataType.

  (** dataclasses.asdict (standard library, [_asdict_inner]): instances become
      dictionaries at every depth, also in lists and dictionaries; a copy of an
      opaque value is that value. *)
  Fixpoint asdict_inner (v : value) : value :=
    match v with
    | Leaf a => Leaf a
    | VList l => VList (map asdict_inner l)
    | Dict items => Dict (map (fun '(k, u) => (k, asdict_inner u)) items)
    | Data fields => Dict (map (fun '(k, u) => (k, asdict_inner u)) fields)
    | DataType => DataType
    end.
  (** dataclasses.is_dataclass: true of instances and of the classes. *)
  Definition is_dataclass (v : value) : bool := match v with Data _ | DataType => true | _ => false end.
  (** dataclasses.asdict raises for anything but an instance. *)
  Definition asdict (v : value) : option value := match v with Data _ => Some (asdict_inner v) | _ => None end.
  (** tf_functions.py 75-77 *)
  Definition is_nested (x : value) : bool := match x with Dict _ => true | _ => is_dataclass x end.
  (** tf_functions.py 70: the items of [as_dict] *)
  Definition as_items (v : value) : option (list (string * value)) :=
    match (if is_dataclass v then asdict v else Some v) with Some (Dict items) => Some items | _ => None end.

  (** The depth of dictionaries and instances, a bound for the recursion. *)
  Fixpoint height (v : value) : nat :=
    match v with
    | Dict l | Data l => S (list_max (map (fun '(_, u) => height u) l))
    | _ => 0
    end.
  (** tf_functions.py 35-72; the recursion ends because [fuel] is the height. *)
  Fixpoint iterate (fuel : nat) (nd : list (string * value)) (previous_keys : list string) : list (list string * value) * bool :=
    match fuel with
    | O => ([], true)
    | S n =>
        (fix items (nd : list (string * value)) : list (list string * value) * bool :=
           match nd with
           | [] => ([], false)
           | (k, v) :: rest =>
               let keys := previous_keys ++ [k] in
               let '(out, raised) :=
                 if negb (is_nested v) then ([(keys, v)], false)
                 else match as_items v with None => ([], true) | Some d => iterate n d keys end in
               if raised then (out, true) else let '(out', raised) := items rest in (out ++ out', raised)
           end) nd
    end.
  Definition iterate_nested (nd : list (string * value)) (previous_keys : option (list string)) : list (list string * value) * bool :=
    iterate (height (Dict nd)) nd (match previous_keys with None => [] | Some p => p end).
End Nested.
