(** Model of tf_quant_finance/math/piecewise.py for one batch element, scalar
    values (event_rank = 0) and one evaluation point.  Definitions only. *)
From Coq Require Import ZArith Reals List Bool.
From Verif Require Import TensorModel SegmentModel.
Import ListNotations.
Open Scope R_scope.

(** piecewise.py 22-126: the constructor accepts n jumps and n + 1 values. *)
Record pw := PW { jumps : list R; pvalues : list R }.
Definition pw_make (j v : list R) : option pw :=
  if Nat.eqb (length v) (S (length j)) then Some (PW j v) else None.

(** piecewise.py 284-311 *)
Definition pw_call (f : pw) (left_continuous : bool) (x : R) : R :=
  let index := if left_continuous then searchsorted_left (jumps f) x else searchsorted_right (jumps f) x in
  at_ (pvalues f) index.

(** piecewise.py 329-345: the integrals from the first jump, padded with zeros *)
Definition pw_integrals (f : pw) : list R :=
  let j := jumps f in
  let v := pvalues f in
  let diff := map (fun '(a, b) => a - b) (combine (tl j) (removelast j)) in
  let inner := firstn (length v - 1 - 1) (tl v) in
  [0] ++ cumsum false (map (fun '(a, b) => a * b) (combine inner diff)) ++ [0].

(** piecewise.py 372-412 *)
Definition pw_left (f : pw) (x : R) : R * R * nat :=
  let indices := searchsorted_left (jumps f) x in
  let num_data_points := (length (pvalues f) - 2)%nat in
  let indices_jump := Nat.min indices num_data_points in
  (at_ (pvalues f) indices, at_ (jumps f) indices_jump, indices_jump).
Definition pw_right (f : pw) (x : R) : R * R * nat :=
  let indices := searchsorted_right (jumps f) x in
  let indices_jump := Nat.max (indices - 1) 0 in
  (at_ (pvalues f) indices, at_ (jumps f) indices_jump, indices_jump).

(** piecewise.py 314-369 *)
Definition pw_integrate (f : pw) (x1 x2 : R) : R :=
  let '(value1, jump_location1, indices_1) := pw_left f x1 in
  let '(value2, jump_location2, indices_2) := pw_right f x2 in
  let integrals1 := at_ (pw_integrals f) indices_1 in
  let integrals2 := at_ (pw_integrals f) indices_2 in
  (jump_location1 - x1) * value1 + (x2 - jump_location2) * value2 + integrals2 - integrals1.

(** piecewise.py 211-281; an index of -1 means below the first interval *)
Definition find_interval_index (q : R) (lower : list R) (last_interval_is_closed : bool) : Z :=
  let indices := (Z.of_nat (searchsorted_right lower q) - 1)%Z in
  let last_index := (Z.of_nat (length lower) - 1)%Z in
  let last_x := at_ lower (Z.to_nat last_index) in
  let should_cap := Z.eqb indices last_index && (if Rle_dec q last_x then true else false) in
  let caps := (last_index - (if should_cap then 1 else 0))%Z in
  if last_interval_is_closed then Z.min indices caps else indices.
