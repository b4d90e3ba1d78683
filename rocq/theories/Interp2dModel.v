(** Model of tf_quant_finance/math/interpolation/interpolation_2d/interpolation_2d.py.
    Definitions only.  One entry of the batch and one requested point: the
    transpositions, the added axes and the final squeeze (138-158) only arrange
    the points and the batch dimensions.  [rows] pairs the y-coordinates and the
    values of each x-coordinate.  The default, non-TPU branch of the two
    one-dimensional interpolations is used (their TPU variants are proved equal
    in C22 and C23). *)
From Coq Require Import Reals List.
From Verif Require Import InterpModel TimeGridModel.
Import ListNotations.
Open Scope R_scope.

(** interpolation_2d.py 66-106: one cubic spline in the y-direction for every
    x-coordinate; cubic.build_spline has natural boundary conditions by default *)
Definition build_rows (rows : list (list R * list R)) : option (list spline) :=
  all_some (map (fun row => spline_build (fst row) (snd row) NATURAL) rows).

(** interpolation_2d.py 108-158 *)
Definition interpolate_2d (x_data : list R) (rows : list (list R * list R)) (x y : R) : option R :=
  match build_rows rows with
  | None => None
  | Some splines =>
      let xy := map (fun s => cubic_interpolate false s y) splines in
      Some (linear_interpolate false x_data xy None None x)
  end.
