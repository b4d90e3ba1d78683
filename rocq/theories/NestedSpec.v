(** The leaves of nested dictionaries and records. *)
From Coq Require Import String List Bool.
From Verif Require Import NestedModel.
Import ListNotations.

Arguments Leaf {A}. Arguments VList {A}. Arguments Dict {A}. Arguments Data {A}. Arguments DataType {A}.

(** [leaf_at v p w]: following the keys [p] from [v] ends at the leaf [w]. *)
Inductive leaf_at {A} : value A -> list string -> value A -> Prop :=
| at_leaf a : leaf_at (Leaf a) [] (Leaf a)
| at_list l : leaf_at (VList l) [] (VList l)
| in_dict items k u p w : In (k, u) items -> leaf_at u p w -> leaf_at (Dict items) (k :: p) w
| in_record fields k u p w : In (k, u) fields -> leaf_at u p w -> leaf_at (Data fields) (k :: p) w.
(** All of them in depth first order. *)
Fixpoint leaves {A} (v : value A) : list (list string * value A) :=
  match v with
  | Dict l | Data l => flat_map (fun '(k, u) => map (fun '(p, w) => (k :: p, w)) (leaves u)) l
  | _ => [([], v)]
  end.
(** No record inside. *)
Fixpoint no_records {A} (v : value A) : bool :=
  match v with
  | Leaf _ | DataType => true
  | VList l => forallb no_records l
  | Dict l => forallb (fun '(_, u) => no_records u) l
  | Data _ => false
  end.
(** No class of records as a leaf, and no list of records in a record. *)
Fixpoint plain {A} (in_record : bool) (v : value A) : bool :=
  match v with
  | Leaf _ => true
  | VList l => negb in_record || forallb no_records l
  | Dict l => forallb (fun '(_, u) => plain in_record u) l
  | Data l => forallb (fun '(_, u) => plain true u) l
  | DataType => false
  end.
(** The keys of every dictionary and record are distinct. *)
Fixpoint distinct_keys {A} (v : value A) : Prop :=
  match v with
  | Dict l | Data l => NoDup (map fst l) /\ fold_right (fun '(_, u) P => distinct_keys u /\ P) True l
  | _ => True
  end.
