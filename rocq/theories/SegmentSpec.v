(** Specification for segmented differences and cumulative sums (C20). *)
From Coq Require Import ZArith Reals List.
Import ListNotations.
Open Scope R_scope.

(** A segmentation: runs with their ids; adjacent runs have different ids. *)
Definition segmentation := list (Z * list R).
Definition seg_values (s : segmentation) : list R := concat (map snd s).
Definition seg_ids (s : segmentation) : list Z := concat (map (fun '(g, v) => repeat g (length v)) s).
Fixpoint runs (s : segmentation) : Prop :=
  match s with
  | [] => True
  | (g, v) :: r => v <> [] /\ match r with [] => True | (g', _) :: _ => g <> g' end /\ runs r
  end.


(** Sum of a list. *)
Definition sum (l : list R) : R := fold_right Rplus 0 l.

(** [y] is the vector of differences of [x] at distance [order], the first
    [order] elements kept. *)
Definition is_diff (order : nat) (x y : list R) : Prop :=
  length y = length x /\
  forall i, (i < length x)%nat ->
    ((i < order)%nat -> nth i y 0 = nth i x 0) /\
    ((order <= i)%nat -> nth i y 0 = nth i x 0 - nth (i - order) x 0).

(** The same with the first [order] elements dropped. *)
Definition is_diff_excl (order : nat) (x y : list R) : Prop :=
  (length y = length x - order)%nat /\
  forall i, (i < length x - order)%nat -> nth i y 0 = nth (i + order) x 0 - nth i x 0.

(** Prefix sums, including or excluding the current element. *)
Definition is_cumsum (exclusive : bool) (x y : list R) : Prop :=
  length y = length x /\
  forall i, (i < length x)%nat -> nth i y 0 = sum (firstn (if exclusive then i else S i) x).

(** [y] is made of one piece per run, each related by [rel] to that run alone. *)
Definition segmentwise (rel : list R -> list R -> Prop) (s : segmentation) (y : list R) : Prop :=
  exists pieces, y = concat pieces /\ Forall2 (fun run piece => rel (snd run) piece) s pieces.
