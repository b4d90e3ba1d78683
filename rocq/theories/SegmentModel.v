(** Model of tf_quant_finance/math/diff_ops.py and segment_ops.py for rank-1
    tensors of reals.  Definitions only. *)
From Coq Require Import ZArith Reals List Bool.
Import ListNotations.
Open Scope R_scope.

(** diff_ops.py 22-88 for a vector and [order >= 1]; [x[:-order]] is
    [firstn (n - order)], [x[order:]] is [skipn order]. *)
Definition diff_excl (order : nat) (x : list R) : list R :=
  map (fun '(x1, x0) => x1 - x0) (combine (skipn order x) (firstn (length x - order) x)).
Definition diff (order : nat) (exclusive : bool) (x : list R) : list R :=
  if exclusive then diff_excl order x else firstn order x ++ diff_excl order x.

(** tf.where of a boolean vector *)
Fixpoint where_true (i : nat) (l : list bool) : list nat :=
  match l with
  | [] => []
  | b :: r => if b then i :: where_true (S i) r else where_true (S i) r
  end.

(** segment_ops.py 89-90 *)
Definition has_segment_changed (ids : list Z) : list bool :=
  [false] ++ map (fun '(a, b) => negb (Z.eqb (a - b) 0)) (combine (tl ids) (removelast ids)).

(** segment_ops.py 92-104: the indices to fix *)
Definition fix_indices (order : nat) (ids : list Z) : list nat :=
  let starts := where_true 0 (has_segment_changed ids) in
  let ends := tl starts ++ [length ids] in
  concat (map (fun '(p, e) => filter (fun i => Nat.ltb i e) (map (fun k => (p + k)%nat) (seq 0 order)))
              (combine starts ends)).

(** segment_ops.py 106-114: scatter_nd of ones, cast to bool *)
Definition needs_fix (order : nat) (ids : list Z) : list bool :=
  map (fun i => existsb (Nat.eqb i) (fix_indices order ids)) (seq 0 (length ids)).

(** tf.where(cond, a, b) and tf.boolean_mask on vectors *)
Definition select3 (c : list bool) (a b : list R) : list R :=
  map (fun '(c, (a, b)) => if (c : bool) then a else b) (combine c (combine a b)).
Definition boolean_mask (l : list R) (m : list bool) : list R :=
  map fst (filter snd (combine l m)).

(** segment_ops.py 22-122 *)
Definition segment_diff (x : list R) (segment_ids : option (list Z)) (order : nat) (exclusive : bool) : list R :=
  match segment_ids with
  | None => diff order exclusive x
  | Some ids =>
      if exclusive
      then boolean_mask (diff order true x) (map negb (skipn order (needs_fix order ids)))
      else select3 (needs_fix order ids) x (diff order false x)
  end.

(** tf.math.cumsum of a vector *)
Fixpoint cumsum_from (acc : R) (exclusive : bool) (x : list R) : list R :=
  match x with
  | [] => []
  | v :: r => (if exclusive then acc else acc + v) :: cumsum_from (acc + v) exclusive r
  end.
Definition cumsum (exclusive : bool) (x : list R) : list R := cumsum_from 0 exclusive x.

(** segment_ops.py 184-198: tf.scan of [scanner] *)
Fixpoint scan_cumsum (exclusive : bool) (st : R * Z * R) (x : list R) (ids : list Z) : list R :=
  match x, ids with
  | value :: x', segment :: ids' =>
      let '(cumsum, prev_segment, prev_value) := st in
      let '(initial_value, inc_value) :=
        if exclusive then (0, cumsum + prev_value) else (value, cumsum + value) in
      let next_cumsum := if Z.eqb prev_segment segment then inc_value else initial_value in
      next_cumsum :: scan_cumsum exclusive (next_cumsum, segment, value) x' ids'
  | _, _ => []
  end.

(** segment_ops.py 125-198; [ids[0]] of an empty vector is an error, here the
    result is empty *)
Definition segment_cumsum (x : list R) (segment_ids : option (list Z)) (exclusive : bool) : list R :=
  match segment_ids with
  | None => cumsum exclusive x
  | Some ids => scan_cumsum exclusive (0, (hd 0 ids - 1)%Z, 0) x ids
  end.
