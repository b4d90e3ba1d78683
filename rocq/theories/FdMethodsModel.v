(** Model of tf_quant_finance/experimental/finite_difference/methods.py.
    Definitions only.  [None] is an exception.  Integers do not wrap around;
    arrays are of floating-point numbers. *)
From Coq Require Import Reals ZArith List Bool Arith.
From Verif Require Import ExtReal HaganWestModel BrentModel BoundedCalModel MvNormalModel.
Import ListNotations.
Open Scope R_scope.

(** Lines 23-28, one point *)
Definition rosenbrock (x : list R) : R :=
  fold_right Rplus 0 (map (fun '(x_curr, x_next) => 100 * (x_next - x_curr ^ 2) ^ 2 + (1 - x_curr) ^ 2) (combine (removelast x) (tl x))).

(** Lines 221-223 *)
Definition too_large (num_values : N) : bool := (10000000 <? num_values)%N.
(** Lines 31-39.  One point per axis divides by zero; the stack of no arrays
    fails.  The last axis of the points numbers the coordinates. *)
Definition grid (num ndim : nat) (large : bool) : option (tensor R * R) :=
  if negb large && too_large (N.of_nat num ^ N.of_nat ndim * N.of_nat ndim) then None else
  if Nat.eqb num 1 then None else
  if Nat.eqb ndim 0 then None else
  Some (Tensor (repeat num ndim ++ [ndim]) (fun idx => INR (nth (last idx O) idx O) * (1 / (INR num - 1))), 1 / (INR num - 1)).

(** Lines 210-211: start and length of the slice of an axis of length [n] *)
Definition to_slice (n : nat) (offset : Z) : nat * nat :=
  if (0 <=? offset)%Z then (Nat.min (Z.to_nat offset) n, (n - Nat.min (Z.to_nat offset) n)%nat) else (O, (n - Z.to_nat (- offset))%nat).
Definition in_slice (s : nat * nat) (k : nat) : bool := Nat.leb (fst s) k && Nat.ltb k (fst s + snd s).
(** Lines 197-218.  Axes without offset are taken whole; slices of different
    lengths cannot be assigned. *)
Definition shift (x : tensor xr) (offsets : list Z) : option (tensor xr) :=
  if Nat.ltb (length (shape x)) (length offsets) then None else
  let axes := combine (shape x) (offsets ++ repeat 0%Z (length (shape x) - length offsets)) in
  if forallb (fun '(n, o) => Nat.eqb (snd (to_slice n o)) (snd (to_slice n (- o)))) axes then
    Some (Tensor (shape x) (fun idx =>
      if forallb (fun '(k, (n, o)) => in_slice (to_slice n o) k) (combine idx axes)
      then elt x (map (fun '(k, (n, o)) => (fst (to_slice n (- o)) + (k - fst (to_slice n o)))%nat) (combine idx axes))
      else NaN))
  else None.

Definition eye_row (ndim d : nat) : list Z := map (fun a => if Nat.eqb a d then 1%Z else 0%Z) (seq 0 ndim).
Definition zneg (i : list Z) : list Z := map Z.opp i.
Definition zplus (i j : list Z) : list Z := map (fun '(a, b) => (a + b)%Z) (combine i j).
Definition zminus (i j : list Z) : list Z := map (fun '(a, b) => (a - b)%Z) (combine i j).
(** Lines 58-77 *)
Definition central (f0 : tensor xr) (ds : list nat) (w : R) : option (tensor xr) :=
  let f := shift f0 in
  let ndim := length (shape f0) in
  if negb (forallb (fun d => Nat.ltb d ndim) ds) then None else
  match ds with
  | [] => Some f0
  | [d] =>
      let i := zneg (eye_row ndim d) in
      match f i, f (zneg i) with
      | Some a, Some b => Some (Tensor (shape f0) (fun idx => (elt a idx -x elt b idx) /x Fin (2 * w)))
      | _, _ => None
      end
  | [d; e] =>
      let i := zneg (eye_row ndim d) in
      let j := zneg (eye_row ndim e) in
      let w2 := w ^ 2 in
      if Nat.eqb d e then
        match f i, f (zneg i) with
        | Some a, Some b => Some (Tensor (shape f0) (fun idx => (elt a idx -x Fin 2 *x elt f0 idx +x elt b idx) /x Fin w2))
        | _, _ => None
        end
      else
        match f (zplus i j), f (zminus i j), f (zminus j i), f (zminus (zneg i) j) with
        | Some a, Some b, Some c, Some g => Some (Tensor (shape f0) (fun idx => (elt a idx -x elt b idx -x elt c idx +x elt g idx) /x Fin (4 * w2)))
        | _, _, _, _ => None
        end
  | _ => None
  end.

(** Lines 80-82 *)
Definition triangular (n : nat) : nat := (n * (n + 1) / 2)%nat.
(** np.triu_indices(ndim, k=1) *)
Definition triu_indices (ndim : nat) : list (nat * nat) := flat_map (fun i => map (fun j => (i, j)) (seq (S i) (ndim - S i))) (seq 0 ndim).
(** Lines 85-95, without the names *)
Definition derivative_names (ndim : nat) : list (list nat) :=
  [[]] ++ map (fun i => [i]) (seq 0 ndim) ++ map (fun i => [i; i]) (seq 0 ndim) ++ map (fun '(i, j) => [i; j]) (triu_indices ndim).

(** Lines 120-133, one row *)
Definition coeffs_row (target point : list R) : list R :=
  let delta_x := map (fun '(s, t) => s - t) (combine point target) in
  [1] ++ delta_x ++ map (fun d => d * d / 2) delta_x ++ map (fun '(j, k) => nth j delta_x 0 * nth k delta_x 0) (triu_indices (length target)).
Definition dot (a b : list R) : R := fold_right Rplus 0 (map (fun '(x, y) => x * y) (combine a b)).
(** np.linalg.inv and np.argpartition are arguments *)
Section Approx.
  Variables (inv : list (list R) -> option (list (list R))) (argpartition : list R -> nat -> list nat).
  (** Lines 98-137, one target; axes of length one are not broadcast *)
  Definition taylor_approx (target : list R) (stencil : list (list R)) (values : list R) : option (list R) :=
    let ndim := length target in
    let k := triangular (ndim + 1) in
    if Nat.eqb (length stencil) k && forallb (fun p => Nat.eqb (length p) ndim) stencil && Nat.eqb (length values) k then
      match inv (map (coeffs_row target) stencil) with
      | None => None
      | Some b => Some (map (fun row => dot row values) b)
      end
    else None.
  Definition norm (a b : list R) : R := sqrt (fold_right Rplus 0 (map (fun '(x, y) => (x - y) ^ 2) (combine a b))).
  (** Lines 140-147.  The partition needs [k] to be the position of a point; it is
      an error if one matrix has no inverse. *)
  Definition non_uniform_approx_nearest (ndim : nat) (points : list (list R)) (values : list R) : option (list (list R)) :=
    let k := triangular (ndim + 1) in
    if Nat.ltb k (length points) then
      map_opt (fun p => let nearest := firstn k (argpartition (map (fun q => norm q p) points) k) in
        taylor_approx p (map (fun m => nth m points []) nearest) (map (fun m => nth m values 0) nearest)) points
    else None.
End Approx.
