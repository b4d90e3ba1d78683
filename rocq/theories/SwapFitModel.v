(** Model of tf_quant_finance/rates/swap_curve_fit.py.  Definitions only.  Exact
    reals, one curve (no batch).  The interpolator and the optimizer, parameters of
    the code, are arbitrary functions; automatic differentiation is the argument
    [differentiate].  The input of one swap is the record [swap] of the bootstrap
    model (the start times of the fixed leg and the daycount fractions of the
    floating leg are deleted unused by the code, line 450). *)
From Coq Require Import Reals List Bool Arith.
From Verif Require Import TensorProofs InterpModel BootstrapModel CgModel.
Import ListNotations.
Open Scope R_scope.

(** node times and rates of a discount curve given by the caller *)
Definition curve := (list R * list R)%type.
Definition real_interpolator := R -> list R -> list R -> R.
(** what the code reads from the result of the optimizer, lines 538-552 *)
Record optimum := Optimum { o_position : list R; o_converged : bool; o_failed : bool; o_iterations : nat; o_value : R }.
Definition optimizer := (list R -> R * list R) -> list R -> R -> nat -> option optimum.
(** swap_curve_common.py SwapCurveBuilderResult *)
Record fitted := Fitted { times : list R; rates : list R; discount_factors : list R; initial_rates : list R;
  converged : bool; failed : bool; iterations : nat; objective_value : R }.

(** How the legs are discounted, lines 364-382: the curve of each leg; [None] is
    the curve under construction. *)
Definition legs (float_leg fixed_leg : option curve) : option curve * option curve :=
  match float_leg, fixed_leg with
  | None, None => (None, None)
  | Some f, None => (Some f, Some f)
  | None, Some x => (None, Some x)
  | Some f, Some x => (Some f, Some x)
  end.

(** _initialize_instrument_weights, lines 568-578; an empty leg is an error of the
    code ([times[-1]]), see [swap_curve_fit] *)
Definition default_weight (s : swap) : R := Rmin 1 (Rmax (no_nan 1 (last (float_end s) 0)) (no_nan 1 (last (fixed_end s) 0))).

(** tf.linalg.matvec with tf.one_hot of the group numbers, lines 522-531 and
    627-640 *)
Definition group_sum (n : nat) (ids : list nat) (v : list R) : list R :=
  map (fun i => fold_right Rplus 0 (map (fun '(g, x) => (if Nat.eqb g i then 1 else 0) * x) (combine ids v))) (seq 0 n).
Definition zip3 (f : R -> R -> R -> R) (a b c : list R) : list R := map (fun '(x, (y, z)) => f x y z) (combine a (combine b c)).

(** swap_pv, lines 460-464 and 485-532; [settle] holds the settlement time of each
    swap *)
Definition model_values (interp : real_interpolator) (float_leg fixed_leg : option curve) (swaps : list swap) (settle : list R) (x : list R) : list R :=
  let expiry_times := map expiry swaps in
  let own := fun t => interp t expiry_times x in
  let rate := fun c => match c with None => own | Some (ts, rs) => fun t => interp t ts rs end in
  let float_rate := rate float_leg in
  let fixed_rate := rate fixed_leg in
  let starts := flat_map float_start swaps in
  let ends := flat_map float_end swaps in
  let fixed_times := flat_map fixed_end swaps in
  let cash := flat_map fixed_cashflows swaps in
  let daycount := flat_map fixed_daycount swaps in
  let groups_float := group_ids (fun s => length (float_start s)) swaps in
  let groups_fixed := group_ids (fun s => length (fixed_end s)) swaps in
  let settle_float := flat_map (fun '(s, t) => repeat t (length (float_start s))) (combine swaps settle) in
  let settle_fixed := flat_map (fun '(s, t) => repeat t (length (fixed_end s))) (combine swaps settle) in
  let float_cashflows := map (fun '(s, e) => exp (e * own e - s * own s) - 1) (combine starts ends) in
  let float_discounts := map (fun '(e, t) => exp (- float_rate e * e + float_rate t * t)) (combine ends settle_float) in
  let fixed_discounts := map (fun '(e, t) => exp (- fixed_rate e * e + fixed_rate t * t)) (combine fixed_times settle_fixed) in
  let float_pv := group_sum (length swaps) groups_float (map (fun '(c, d) => c * d) (combine float_cashflows float_discounts)) in
  let fixed_pv := group_sum (length swaps) groups_fixed (zip3 (fun a c d => a * c * d) daycount cash fixed_discounts) in
  map (fun '(a, b) => a + b) (combine float_pv fixed_pv).
(** loss_function, lines 533-534 *)
Definition loss (interp : real_interpolator) (float_leg fixed_leg : option curve) (swaps : list swap) (settle weights x : list R) : R :=
  let model := model_values interp float_leg fixed_leg swaps settle x in
  fold_right Rplus 0 (zip3 (fun w v p => w * ((v - p) * (v - p))) weights model (map present_value swaps)).

(** The tensors fit: lists of one entry per swap, and the entries of a leg
    together.  A mismatch is an error here; TensorFlow would broadcast a leg of
    total length one. *)
Definition shapes_fit (swaps : list swap) (settle weights : list R) : bool :=
  Nat.eqb (length settle) (length swaps) && Nat.eqb (length weights) (length swaps)
  && forallb (fun s => Nat.ltb 0 (length (float_end s)) && Nat.ltb 0 (length (fixed_end s))) swaps
  && Nat.ltb 0 (length swaps)
  && Nat.eqb (length (flat_map float_start swaps)) (length (flat_map float_end swaps))
  && Nat.eqb (length (flat_map fixed_cashflows swaps)) (length (flat_map fixed_end swaps))
  && Nat.eqb (length (flat_map fixed_daycount swaps)) (length (flat_map fixed_end swaps)).

(** optimizers.conjugate_gradient_minimize called on one function with the default
    arguments (lines 324, 538-540); [search] is its line search.  Points are
    functions of the coordinate there. *)
Definition as_list (n : nat) (x : vec) : list R := map x (seq 0 n).
Definition as_vec (l : list R) : vec := fun i => nth i l 0.
Definition conjugate_gradient (search : line_search) : optimizer := fun f x0 tolerance max_iterations =>
  let n := length x0 in
  let obj := fun (_ : nat) v => let '(value, grad) := f (as_list n v) in (value, as_vec grad) in
  match minimize 1 n obj (fun _ => as_vec x0) tolerance 0 0 max_iterations None None search max_iterations with
  | None => None
  | Some s => Some (Optimum (as_list n (position s 0%nat)) (CgModel.converged s 0%nat) (CgModel.failed s 0%nat) (num_iterations s) (value s 0%nat))
  end.

(** swap_curve_fit, lines 322-430, and _build_swap_curve, lines 433-553; [None] is
    an error *)
Definition swap_curve_fit (differentiate : (list R -> R) -> list R -> list R) (search : line_search) (swaps : list swap)
  (initial : option (list R)) (settlement : option (list R)) (float_leg fixed_leg : option curve)
  (opt : option optimizer) (interpolate : option real_interpolator) (weights : option (list R)) (tolerance : R) (max_iterations : nat) : option fitted :=
  let optimize := match opt with Some o => o | None => conjugate_gradient search end in
  let settle := match settlement with Some t => t | None => map (fun _ => 0) swaps end in
  let weights := match weights with Some w => w | None => map default_weight swaps end in
  let interp := match interpolate with Some f => f | None => fun t ts ys => linear_interpolate false ts ys None None t end in
  let '(float_curve, fixed_curve) := legs float_leg fixed_leg in
  match initial with
  | None => None
  | Some x0 =>
    if shapes_fit swaps settle weights then
      let objective := loss interp float_curve fixed_curve swaps settle weights in
      match optimize (fun x => (objective x, differentiate objective x)) x0 tolerance max_iterations with
      | None => None
      | Some o =>
        let ts := map expiry swaps in
        Some (Fitted ts (o_position o) (map (fun '(r, t) => exp (- r * t)) (combine (o_position o) ts)) x0
          (o_converged o) (o_failed o) (o_iterations o) (o_value o))
      end
    else None
  end.
