(** Model of tf_quant_finance/models/realized_volatility.py for one path.
    Definitions only.  [None]: the float result is infinite or NaN (a zero
    denominator, the logarithm of a non-positive number, the square root of a
    negative number) or the shapes do not match. *)
From Coq Require Import Reals List Bool Arith.
From Verif Require Import TensorModel SegmentModel BrentModel InterpModel.
Import ListNotations.
Open Scope R_scope.

Inductive path_scale := ScaleOriginal | ScaleLog.
Inductive returns_type := ReturnsAbs | ReturnsLog.

(** realized_volatility.py 166-179: tf.math.log needs positive arguments *)
Definition transformed_paths (r : returns_type) (s : path_scale) (path : list R) : option (list R) :=
  match r, s with
  | ReturnsLog, ScaleOriginal => if forallb (fun x => rlt 0 x) path then Some (map ln path) else None
  | ReturnsLog, ScaleLog => Some path
  | ReturnsAbs, ScaleOriginal => Some path
  | ReturnsAbs, ScaleLog => Some (map exp path)
  end.
Definition component_transform (r : returns_type) (x : R) : R := match r with ReturnsLog => x * x | ReturnsAbs => Rabs x end.
Definition result_transform (r : returns_type) (x : R) : option R :=
  match r with
  | ReturnsLog => if rlt x 0 then None else Some (sqrt x)
  | ReturnsAbs => Some x
  end.
(** realized_volatility.py 183-191 *)
Definition denominators (r : returns_type) (times : option (list R)) (transformed : list R) : list R :=
  let dts := match times with None => repeat 1 (length transformed - 1) | Some t => diff 1 true t end in
  match r with
  | ReturnsLog => dts
  | ReturnsAbs => map (fun '(a, b) => a * component_transform r b) (combine dts (firstn (length transformed - 1) transformed))
  end.
(** realized_volatility.py 162-198 *)
Definition realized_volatility (path : list R) (times : option (list R)) (scaling_factors : option R) (r : returns_type) (s : path_scale) : option R :=
  let shapes := match times with None => true | Some t => Nat.eqb (length t) (length path) end in
  match transformed_paths r s path with
  | None => None
  | Some p =>
      let diffs := map (component_transform r) (diff 1 true p) in
      let dens := denominators r times p in
      if (negb shapes || existsb (fun x => req x 0) dens)%bool then None
      else
        match result_transform r (fold_right Rplus 0 (map (fun '(a, b) => a / b) (combine diffs dens))) with
        | None => None
        | Some x => Some (match scaling_factors with None => x | Some c => c * x end)
        end
  end.
