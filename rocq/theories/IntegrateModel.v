(** Model of tf_quant_finance/math/integration/{simpson,gauss_legendre,integrate}.py
    for one element of the batch of limits.  Definitions only. *)
From Coq Require Import Reals List Bool ZArith.
From Verif Require Import TensorModel InterpModel.
Import ListNotations.
Open Scope R_scope.

(** tf.reduce_sum over the last axis. *)
Definition reduce_sum (l : list R) : R := fold_right Rplus 0 l.
(** tf.range(n) cast to float. *)
Definition range_float (n : nat) : list R := map INR (seq 0 n).

(** simpson.py 90-94: the weights. *)
Definition simpson_weights (num_points : Z) : list R :=
  let weights_first := [1] in
  let weights_mid := concat (repeat [4; 2] (Z.to_nat ((num_points - 3) / 2))) in
  let weights_last := [4; 1] in
  weights_first ++ weights_mid ++ weights_last.

(** simpson.py 23-96; [None] is a failed assertion (80-83). *)
Definition simpson (func : R -> R) (lower upper : R) (num_points : Z) : option R :=
  if negb ((3 <=? num_points)%Z && (num_points mod 2 =? 1)%Z) then None
  else
    let dx := (upper - lower) / (IZR num_points - 1) in
    let grid := map (fun i => lower + dx * i) (range_float (Z.to_nat num_points)) in
    let weights := simpson_weights num_points in
    Some (reduce_sum (vzip Rmult (map func grid) weights) * dx / 3).

(** gauss_legendre.py 9-74.  [roots] and [coefficients] are the two tables of
    gauss_constants.py; a missing number of points raises a ValueError. *)
Definition gauss_legendre (roots coefficients : nat -> option (list R)) (func : R -> R) (lower upper : R) (num_points : nat) : option R :=
  match roots num_points, coefficients num_points with
  | Some roots, Some weights =>
      let grid := map (fun root => ((upper - lower) * root + upper + lower) / 2) roots in
      Some (reduce_sum (vzip (fun fx w => fx * (upper - lower) * w / 2) (map func grid) weights))
  | _, _ => None
  end.

(** integrate.py 27-86. *)
Inductive integration_method := COMPOSITE_SIMPSONS_RULE | GAUSS_LEGENDRE.
Definition integrate (roots coefficients : nat -> option (list R)) (func : R -> R) (lower upper : R)
    (method : integration_method) (num_points : option Z) : option R :=
  match method with
  | COMPOSITE_SIMPSONS_RULE => simpson func lower upper (match num_points with Some n => n | None => 1001%Z end)
  | GAUSS_LEGENDRE => gauss_legendre roots coefficients func lower upper (match num_points with Some n => Z.to_nat n | None => 32%nat end)
  end.
