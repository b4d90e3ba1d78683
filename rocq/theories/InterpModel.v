(** Model of tf_quant_finance/math/interpolation/{linear,cubic} for one batch
    element and one evaluation point.  Definitions only. *)
From Coq Require Import Reals List Bool.
From Verif Require Import TensorModel.
Import ListNotations.
Open Scope R_scope.

(** tf.math.divide_no_nan *)
Definition divide_no_nan (a b : R) : R := if Req_EM_T b 0 then 0 else a / b.

(** linear_interpolation.py 167-177 and cubic_interpolation.py 237-254:
    get_slice, either a gather or a sum against a one-hot vector *)
Definition get_slice (optimize_for_tpu : bool) (x : list R) (i : nat) : R :=
  if optimize_for_tpu
  then fold_right Rplus 0 (map (fun k => at_ x k * (if Nat.eqb k i then 1 else 0)) (seq 0 (length x)))
  else at_ x i.

(** linear_interpolation.py 98-196 *)
Definition linear_interpolate (tpu : bool) (x_data y_data : list R) (left_slope right_slope : option R) (x : R) : R :=
  let left_slope := match left_slope with None => 0 | Some s => s end in
  let right_slope := match right_slope with None => 0 | Some s => s end in
  let n := length x_data in
  let upper_indices := searchsorted_left x_data x in
  let at_min := Nat.eqb upper_indices 0 in
  let at_max := Nat.eqb upper_indices n in
  let values_min := at_ y_data 0 + left_slope * (x - at_ x_data 0) in
  let values_max := at_ y_data (length y_data - 1) + right_slope * (x - at_ x_data (n - 1)) in
  let lower_encoding := Nat.max (upper_indices - 1) 0 in
  let upper_encoding := Nat.min upper_indices (n - 1) in
  let x_data_lower := get_slice tpu x_data lower_encoding in
  let x_data_upper := get_slice tpu x_data upper_encoding in
  let y_data_lower := get_slice tpu y_data lower_encoding in
  let y_data_upper := get_slice tpu y_data upper_encoding in
  let x_data_diff := x_data_upper - x_data_lower in
  let floor_x_diff := if at_min || at_max then x_data_diff + 1 else x_data_diff in
  let interpolated := y_data_lower + (x - x_data_lower) * divide_no_nan (y_data_upper - y_data_lower) floor_x_diff in
  let interpolated := if at_min then values_min else interpolated in
  if at_max then values_max else interpolated.

(** cubic_interpolation.py 47-61 *)
Record spline := Spline { x_data : list R; y_data : list R; spline_coeffs : list R }.

(** cubic_interpolation.py 173-280; [indices] is searchsorted - 1, so its lower
    clip is [searchsorted - 1] in nat and [indices + 1] is [searchsorted].
    [reduce_max]/[reduce_min] of the sorted vector are its ends. *)
Definition reduce_max (l : list R) : R := fold_right Rmax (at_ l 0) l.
Definition reduce_min (l : list R) : R := fold_right Rmin (at_ l 0) l.
Definition cubic_interpolate (tpu : bool) (s : spline) (x : R) : R :=
  let n := length (x_data s) in
  let k := searchsorted_right (x_data s) x in
  let lower_encoding := (k - 1)%nat in
  let upper_encoding := Nat.min k (n - 1) in
  let x0 := get_slice tpu (x_data s) lower_encoding in
  let x1 := get_slice tpu (x_data s) upper_encoding in
  let dx := x1 - x0 in
  let y0 := get_slice tpu (y_data s) lower_encoding in
  let y1 := get_slice tpu (y_data s) upper_encoding in
  let dy := y1 - y0 in
  let c0 := get_slice tpu (spline_coeffs s) lower_encoding in
  let c1 := get_slice tpu (spline_coeffs s) upper_encoding in
  let t := if Rlt_dec 0 dx then (x - x0) / dx else 0 in
  let df := (t + 1) * c1 * 2 - (t - 2) * c0 * 2 in
  let df1 := df * t * (t - 1) / 6 in
  let result := y0 + t * dy + dx * dx * df1 in
  if Rle_dec x (reduce_max (x_data s)) then
    if Rle_dec (reduce_min (x_data s)) x then result else (if Rlt_dec (reduce_max (x_data s)) x then y0 else y1)
  else (if Rlt_dec (reduce_max (x_data s)) x then y0 else y1).

(** tf.linalg.tridiagonal_solve with partial_pivoting=False (an external TF
    kernel, modelled as the Thomas algorithm it runs): [None] for a zero pivot.
    One row is (superdiag, diag, subdiag, rhs); the state carries the previous
    row's eliminated superdiagonal and right-hand side. *)
Fixpoint thomas (prev : option (R * R)) (rows : list (R * R * R * R)) : option (list R) :=
  match rows with
  | [] => Some []
  | (sup, d, sub, r) :: rest =>
      let '(pu, px) := match prev with None => (0, 0) | Some p => p end in
      let denom := d - sub * pu in
      if Req_EM_T denom 0 then None
      else
        let u := sup / denom in
        let z := (r - sub * px) / denom in
        match thomas (Some (u, z)) rest with
        | None => None
        | Some sol => Some (match sol with [] => z | s :: _ => z - u * s end :: sol)
        end
  end.
Definition tridiagonal_solve (sup diag sub rhs : list R) : option (list R) :=
  thomas None (combine (combine (combine sup diag) sub) rhs).

(** Elementwise helpers over vectors *)
Definition vzip (f : R -> R -> R) (a b : list R) : list R := map (fun '(x, y) => f x y) (combine a b).
Definition vdiff (x : list R) : list R := vzip Rminus (tl x) (removelast x).
Definition req (a b : R) : bool := if Req_EM_T a b then true else false.

Inductive boundary := NATURAL | CLAMPED | FIXED (left right : R).

(** cubic_interpolation.py 283-305 *)
Definition coeffs_natural (superdiag subdiag diag rhs : list R) : option (list R) :=
  let corr := map (fun '(a, b) => req a 0 || req b 0) (combine superdiag subdiag) in
  let diag_corr := map (fun '(c, d) => if (c : bool) then 1 else d) (combine corr diag) in
  let super_corr := vzip (fun sub sup => if req sub 0 then 0 else sup) subdiag superdiag in
  let sub_corr := vzip (fun sup sub => if req sup 0 then 0 else sub) superdiag subdiag in
  let rhs' := map (fun '(c, d) => if (c : bool) then 0 else d) (combine corr rhs) in
  match tridiagonal_solve super_corr diag_corr sub_corr rhs' with
  | None => None
  | Some c => Some ([0] ++ c ++ [0])
  end.

(** cubic_interpolation.py 308-362 *)
Definition coeffs_clamped (dx dd superdiag subdiag diag rhs : list R) (left right : R) : option (list R) :=
  let first := at_ dx 0 in
  let lastdx := at_ dx (length dx - 1) in
  let diag1 := [2 * first] ++ diag ++ [0] in
  let super1 := [first] ++ superdiag ++ [0] in
  let sub1 := [0] ++ subdiag ++ [lastdx] in
  let dxp := [1] ++ dx ++ [0] in
  let dx_right := tl dxp in
  let dx_left := removelast dxp in
  let right_boundary := map (fun '(r, l) => req r 0 && negb (req l 0)) (combine dx_right dx_left) in
  let diag2 := map (fun '(b, (l, d)) => if (b : bool) then 2 * l else d) (combine right_boundary (combine dx_left diag1)) in
  let diag3 := vzip (fun l d => if req l 0 then 1 else d) dx_left diag2 in
  let top_rhs := 3 * (at_ dd 0 - left) in
  let rhs1 := [top_rhs] ++ rhs ++ [0] in
  let dd_left := [1] ++ dd in
  let bottom_rhs := map (fun d => -3 * (d - right)) dd_left in
  let rhs2 := map (fun '(b, (l, d)) => if (b : bool) then l else d) (combine right_boundary (combine bottom_rhs rhs1)) in
  let rhs3 := vzip (fun l d => if req l 0 then 0 else d) dd_left rhs2 in
  tridiagonal_solve super1 diag3 sub1 rhs3.

(** cubic_interpolation.py 365-529 *)
Definition calculate_spline_coeffs (x y : list R) (bc : boundary) : option (list R) :=
  let dx := vdiff x in
  let dd := vzip (fun dy dx => if req dx 0 then 0 else dy / dx) (vdiff y) dx in
  let rhs := vzip (fun a b => -3 * (a - b)) (removelast dd) (tl dd) in
  let diag := vzip (fun a b => 2 * (a - b)) (skipn 2 x) (firstn (length x - 2) x) in
  let superdiag := tl dx in
  let subdiag := removelast dx in
  match bc with
  | NATURAL => coeffs_natural superdiag subdiag diag rhs
  | CLAMPED => coeffs_clamped dx dd superdiag subdiag diag rhs 0 0
  | FIXED l r => coeffs_clamped dx dd superdiag subdiag diag rhs l r
  end.

(** cubic_interpolation.py 64-170 *)
Definition spline_build (x y : list R) (bc : boundary) : option spline :=
  match calculate_spline_coeffs x y bc with
  | None => None
  | Some c => Some (Spline x y c)
  end.
