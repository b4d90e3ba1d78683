(** Model of tf_quant_finance/math/root_search/newton.py.  Definitions only.
    Numbers are exact reals with infinities and NaN. *)
From Coq Require Import Reals List Bool Arith.
From Verif Require Import InterpModel BrentModel ExtReal.
Import ListNotations.
Open Scope R_scope.

(** newton.py 118-132, [_updater], one element: value and gradient at the
    position, then position, converged and failed flags. *)
Definition newton_update (relative_tolerance tolerance : R) (value_and_grad : xr -> xr * xr) (parameter : xr) : xr * bool * bool :=
  let '(value, gradient) := value_and_grad parameter in
  let delta := xdiv value gradient in
  let converged := xlt (xabs delta) (xadd (xmul (Fin relative_tolerance) (xabs value)) (Fin tolerance)) in
  let update_mask := Fin (if converged then 0 else 1) in
  let increment := xmul (xopp update_mask) delta in
  let updated := xadd parameter increment in
  (updated, converged, negb (is_finite updated)).

(** The value_and_grad_func of the call acts on the whole batch: here one
    function per element, the j-th applied to the j-th position. *)
Definition newton_body (rtol tol : R) (fs : list (xr -> xr * xr)) (st : list (xr * bool * bool)) : list (xr * bool * bool) :=
  map (fun '(f, (x, _, _)) => newton_update rtol tol f x) (combine fs st).

(** newton.py 113-116 and 134-139: the loop; [counter] counts up to max_iterations. *)
Definition newton_continue (max_iterations counter : nat) (st : list (xr * bool * bool)) : bool :=
  let early_stop := forallb (fun '(_, c, f) => c || f) st in
  negb (Nat.leb max_iterations counter || early_stop).
Fixpoint newton_loop (rtol tol : R) (fs : list (xr -> xr * xr)) (max_iterations counter fuel : nat) (st : list (xr * bool * bool)) : list (xr * bool * bool) :=
  match fuel with
  | O => st
  | S k => if newton_continue max_iterations counter st
           then newton_loop rtol tol fs max_iterations (S counter) k (newton_body rtol tol fs st)
           else st
  end.

(** newton.py 23-139, [root_finder]; relative_tolerance is passed explicitly.
    The fuel exceeds max_iterations, so the loop ends by its condition. *)
Definition root_finder (fs : list (xr -> xr * xr)) (initial_values : list xr) (max_iterations : nat) (tol rtol : R) : list (xr * bool * bool) :=
  newton_loop rtol tol fs max_iterations 0 (S max_iterations) (map (fun x => (x, false, is_nan x)) initial_values).
