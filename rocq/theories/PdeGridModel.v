(** Model of tf_quant_finance/math/pde/grids.py.  Definitions only.
    Locations are exact reals, a vector is a list, a matrix is a list of rows;
    an exception, a failed assertion and a logarithm of a number that is not
    positive (NaN) are [None]. *)
From Coq Require Import Reals List Bool Arith.
From Verif Require Import TensorModel BrentModel TimeGridModel.
Import ListNotations.
Open Scope R_scope.

(** grids.py 82, 174, 326, 437: maximums > minimums in every entry *)
Definition all_above (maximums minimums : list R) : bool :=
  forallb (fun p => rlt (snd p) (fst p)) (combine maximums minimums).
(** grids.py 83, 178, 327, 441: sizes >= 2 *)
Definition all_two (sizes : list nat) : bool := forallb (fun n => Nat.leb 2 n) sizes.
(** grids.py 176, 439: minimums > 0 *)
Definition all_positive (l : list R) : bool := forallb (fun x => rlt 0 x) l.
(** tf.math.log of a vector *)
Definition logs (l : list R) : option (list R) := if all_positive l then Some (map ln l) else None.

(** grids.py 72-77: the three vectors have one common length *)
Definition same_shape (minimums maximums : list R) (sizes : list nat) : bool :=
  Nat.eqb (length minimums) (length maximums) && Nat.eqb (length minimums) (length sizes).
(** grids.py 87-90 and 187-190: one tf.linspace per axis *)
Definition linspaces (minimums maximums : list R) (sizes : list nat) : list (list R) :=
  map (fun i => linspace (at_ minimums i) (at_ maximums i) (nth i sizes 0%nat)) (seq 0 (length sizes)).

(** grids.py 21-91 *)
Definition uniform_grid (validate_args : bool) (minimums maximums : list R) (sizes : list nat) : option (list (list R)) :=
  if negb (same_shape minimums maximums sizes) then None
  else if validate_args && negb (all_above maximums minimums && all_two sizes) then None
  else Some (linspaces minimums maximums sizes).

(** grids.py 94-191.  Lines 176-177 compare with tf.constant(0, dtype=dtype);
    without a dtype that constant is an int32, which TensorFlow refuses to
    compare with a real tensor, so validation then fails. *)
Definition log_uniform_grid (dtype_given validate_args : bool) (minimums maximums : list R) (sizes : list nat)
  : option (list (list R)) :=
  if negb (same_shape minimums maximums sizes) then None
  else if validate_args && negb (all_above maximums minimums && (dtype_given && all_positive minimums) && all_two sizes) then None
  else
    match logs maximums, logs minimums with
    | Some lmax, Some lmin => Some (map (map exp) (linspaces lmin lmax sizes))
    | _, _ => None
    end.

(** grids.py 194-235 *)
Definition rectangular_grid (axis_locations : list (list R)) : option (list (list R)) :=
  match axis_locations with [] => None | _ => Some axis_locations end.

(** column [i] of a matrix, [x[..., i]]; refused when out of range *)
Definition column (rows : list (list R)) (i : nat) : option (list R) := all_some (map (fun r => nth_error r i) rows).
(** grids.py 339 and 458: [batch] rows; then line 344 (463) concatenates with
    [batch] rows, so nothing but one row or [batch] rows is accepted *)
Definition broadcast_rows {A} (batch : nat) (l : list A) : option (list A) :=
  if Nat.eqb (length l) batch then Some l
  else match l with [x] => Some (repeat x batch) | _ => None end.
(** grids.py 333-336: the points of one axis in one batch row *)
Definition axis_points (lo hi : R) (n : nat) : list R := map (fun u => lo + (hi - lo) * u) (linspace 0 1 n).
(** grids.py 342-345: the points of one axis, over the batch *)
Definition axis_with_extra (minimums maximums extra : list (list R)) (n i : nat) : option (list (list R)) :=
  match column minimums i, column maximums i, column extra i with
  | Some lo, Some hi, Some x =>
      let location := map (fun p => axis_points (fst p) (snd p) n) (combine lo hi) in
      match broadcast_rows (length extra) location with
      | Some rows => Some (map (fun p => sort (fst p ++ [snd p])) (combine rows x))
      | None => None
      end
  | _, _, _ => None
  end.
(** grids.py 320, 432: equal shapes of minimums and maximums *)
Definition same_rows (minimums maximums : list (list R)) : bool :=
  Nat.eqb (length minimums) (length maximums)
  && forallb (fun p => Nat.eqb (length (fst p)) (length (snd p))) (combine minimums maximums).
(** grids.py 331-345 *)
Definition axes_with_extra (minimums maximums : list (list R)) (sizes : list nat) (extra : list (list R))
  : option (list (list (list R))) :=
  all_some (map (fun i => axis_with_extra minimums maximums extra (nth i sizes 0%nat) i) (seq 0 (length sizes))).

(** grids.py 238-346, result indexed by axis, batch row and point.  A rank 1
    [minimums] is a single row.  Line 339 builds tf.zeros with [dtype] itself,
    which TensorFlow refuses for None. *)
Definition uniform_grid_with_extra_point (dtype_given validate_args : bool)
  (minimums maximums : list (list R)) (sizes : list nat) (extra : list (list R)) : option (list (list (list R))) :=
  if negb (same_rows minimums maximums) then None
  else if validate_args && negb (all_above (concat maximums) (concat minimums) && all_two sizes) then None
  else if negb dtype_given then None
  else axes_with_extra minimums maximums sizes extra.

(** grids.py 349-467 *)
Definition log_uniform_grid_with_extra_point (dtype_given validate_args : bool)
  (minimums maximums : list (list R)) (sizes : list nat) (extra : list (list R)) : option (list (list (list R))) :=
  if negb (same_rows minimums maximums) then None
  else if validate_args && negb (all_above (concat maximums) (concat minimums)
                                 && (dtype_given && all_positive (concat minimums)) && all_two sizes) then None
  else if negb dtype_given then None
  else
    match all_some (map logs maximums), all_some (map logs minimums), all_some (map logs extra) with
    | Some lmax, Some lmin, Some lx =>
        match axes_with_extra lmin lmax sizes lx with
        | Some axes => Some (map (map (map exp)) axes)
        | None => None
        end
    | _, _, _ => None
    end.
