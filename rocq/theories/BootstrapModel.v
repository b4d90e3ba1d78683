(** Model of tf_quant_finance/rates/swap_curve_bootstrap.py and
    rates/hagan_west/bond_curve.py.  Definitions only.  Numbers are exact reals
    with infinities and NaN.  The interpolator, a parameter of the code, is an
    arbitrary function of the query time, the node times and the node values. *)
From Coq Require Import Reals List Bool Arith.
From Verif Require Import InterpModel BrentModel ExtReal HaganWestModel.
Import ListNotations.
Open Scope R_scope.

(** tf.math.exp, tf.math.log. *)
Definition xexp (a : xr) : xr := match a with Fin r => Fin (exp r) | Inf true => Fin 0 | Inf false => Inf false | NaN => NaN end.
Definition xln (a : xr) : xr :=
  match a with
  | Fin r => if rlt 0 r then Fin (ln r) else if req r 0 then Inf true else NaN
  | Inf false => Inf false
  | _ => NaN
  end.
Definition xsum (l : list xr) : xr := fold_right xadd (Fin 0) l.
Definition xzip (f : xr -> xr -> xr) (a b : list xr) : list xr := map (fun '(x, y) => f x y) (combine a b).
(** Elementwise operation with broadcasting of vectors; [None] is the shape error. *)
Definition bzip (f : xr -> xr -> xr) (a b : list xr) : option (list xr) :=
  if Nat.eqb (length a) (length b) then Some (xzip f a b)
  else match a, b with
       | [x], _ => Some (map (f x) b)
       | _, [y] => Some (map (fun x => f x y) a)
       | _, _ => None
       end.
Definition obind {A B} (x : option A) (k : A -> option B) : option B := match x with Some a => k a | None => None end.
Notation "'let?' x ':=' e 'in' k" := (obind e (fun x => k)) (at level 200, x name, k at level 200).
(** tf.math.segment_sum for sorted ids. *)
Definition xsegment_sum (data : list xr) (ids : list nat) : list xr :=
  map (fun g => xsum (map fst (filter (fun p => Nat.eqb (snd p) g) (combine data ids))))
      (seq 0 (match ids with [] => 0%nat | _ => S (last ids 0%nat) end)).
(** tf.fill(tf.shape(x), i) for every instrument, concatenated. *)
Definition group_ids {A} (size : A -> nat) (l : list A) : list nat :=
  concat (map (fun '(i, a) => repeat i (size a)) (combine (seq 0 (length l)) l)).
(** ~reduce_any(is_nan(diff)) & (reduce_max(diff) < tolerance). *)
Definition small (tolerance : R) (diff : list xr) : bool :=
  negb (existsb is_nan diff) && xlt (fold_right xmax (Inf true) diff) (Fin tolerance).
Definition interpolator := R -> list R -> list xr -> xr.

(** The input of one swap, swap_curve_bootstrap.py 51-73. *)
Record swap := mk_swap {
  float_start : list R; float_end : list R;
  fixed_end : list R; fixed_cashflows : list R; fixed_daycount : list R;
  present_value : R }.
(** How the legs are discounted, swap_curve_bootstrap.py 341-359. *)
Inductive discounting :=
| SelfBoth
| SelfFloat (fixed_times : list R) (fixed_rates : list xr)
| Separate (float_times : list R) (float_rates : list xr) (fixed_times : list R) (fixed_rates : list xr).
Definition discounting_of (float_leg fixed_leg : option (list R * list xr)) : discounting :=
  match float_leg, fixed_leg with
  | None, None => SelfBoth
  | Some (t, r), None => Separate t r t r
  | None, Some (t, r) => SelfFloat t r
  | Some (t, r), Some (t', r') => Separate t r t' r'
  end.
(** swap_curve_bootstrap.py 671-672. *)
Definition expiry (s : swap) : R := Rmax (last (float_end s) 0) (last (fixed_end s) 0).
Definition discount_rates (d : list xr) (times : list R) : list xr := xzip (fun d t => xopp (xln d) /x t) d (map Fin times).
(** Discount factor at [t] off a curve. *)
Definition curve_discount (interp : interpolator) (times : list R) (rates : list xr) (t : R) : xr := xexp (xopp (interp t times rates) *x Fin t).

(** swap_curve_bootstrap.py 472-537. *)
Definition swap_step (interp : interpolator) (mode : discounting) (swaps : list swap) (discount_factor : list xr) : option (list xr) :=
  let expiry_times := map expiry swaps in
  let x := discount_rates discount_factor expiry_times in
  let rate := fun t => interp t expiry_times x in
  let calc_start := flat_map (fun s => removelast (float_start s)) swaps in
  let calc_end := flat_map (fun s => removelast (float_end s)) swaps in
  let calc_fixed_times := flat_map (fun s => removelast (fixed_end s)) swaps in
  let calc_fixed_cashflows := flat_map (fun s => removelast (fixed_cashflows s)) swaps in
  let calc_fixed_daycount := flat_map (fun s => removelast (fixed_daycount s)) swaps in
  let groups_float := group_ids (fun s => length (removelast (float_start s))) swaps in
  let groups_fixed := group_ids (fun s => length (removelast (fixed_end s))) swaps in
  let last_start := map (fun s => last (float_start s) 0) swaps in
  let last_end := map (fun s => last (float_end s) 0) swaps in
  let last_fixed_end := map (fun s => last (fixed_end s) 0) swaps in
  let last_daycount := map (fun s => Fin (last (fixed_daycount s) 0)) swaps in
  let last_cashflow := map (fun s => Fin (last (fixed_cashflows s) 0)) swaps in
  let present_values := map (fun s => Fin (present_value s)) swaps in
  let float_cashflows := map (fun '(s, e) => xexp (Fin e *x rate e) /x xexp (Fin s *x rate s) -x Fin 1) (combine calc_start calc_end) in
  let float_discount := match mode with Separate t r _ _ => curve_discount interp t r | _ => curve_discount interp expiry_times x end in
  let fixed_discount := match mode with SelfBoth => curve_discount interp expiry_times x | SelfFloat t r | Separate _ _ t r => curve_discount interp t r end in
  let float_pv := xsegment_sum (xzip xmul float_cashflows (map float_discount calc_end)) groups_float in
  let fixed_pv := xsegment_sum (xzip xmul (xzip xmul (map Fin calc_fixed_daycount) (map Fin calc_fixed_cashflows)) (map fixed_discount calc_fixed_times)) groups_fixed in
  let p_n_minus_1 := map (curve_discount interp expiry_times x) last_start in
  let last_fixed_leg_cashflow_pv := xzip xmul (xzip xmul last_daycount last_cashflow) (map fixed_discount last_fixed_end) in
  match mode with
  | SelfBoth =>
      let scale := xzip (fun c a => c *x a -x Fin 1) last_cashflow last_daycount in
      let? a := bzip xsub present_values float_pv in
      let? b := bzip xsub a fixed_pv in
      let? c := bzip xsub b p_n_minus_1 in
      bzip xdiv c scale
  | SelfFloat _ _ =>
      let? f := bzip xadd fixed_pv last_fixed_leg_cashflow_pv in
      let? a := bzip xadd float_pv f in
      let? b := bzip xsub a present_values in
      bzip xadd b p_n_minus_1
  | Separate _ _ _ _ =>
      let last_float_discount_factor := map float_discount last_end in
      let? f := bzip xadd fixed_pv last_fixed_leg_cashflow_pv in
      let? a := bzip xsub present_values float_pv in
      let? b := bzip xsub a f in
      let? scale := bzip xadd b last_float_discount_factor in
      let? c := bzip xmul p_n_minus_1 last_float_discount_factor in
      bzip xdiv c scale
  end.
(** State of the loop: converged, failed, iterations, discount factors. *)
Definition boot_state : Type := (bool * bool * nat * list xr)%type.
(** swap_curve_bootstrap.py 539-543. *)
Definition swap_body (interp : interpolator) (mode : discounting) (swaps : list swap) (tolerance : R) (st : boot_state) : option boot_state :=
  let '(_, failed, iteration, discount_factor) := st in
  let? next_discount := swap_step interp mode swaps discount_factor in
  let? diff := bzip (fun a b => xabs (a -x b)) next_discount discount_factor in
  Some (small tolerance diff, failed, S iteration, next_discount).
(** tf.while_loop with the condition of swap_curve_bootstrap.py 545-550 (also
    bond_curve.py 461-466) and at most [fuel] iterations. *)
Fixpoint boot_loop (body : boot_state -> option boot_state) (fuel : nat) (st : boot_state) : option boot_state :=
  match fuel with
  | O => Some st
  | S fuel => let '(converged, failed, _, _) := st in if converged || failed then Some st else obind (body st) (boot_loop body fuel)
  end.
(** swap_curve_bootstrap.py 552-567: converged, failed, iterations, discount
    factors and rates.  The settlement times of the present values, the start
    times of the fixed leg and the daycount fractions of the floating leg are
    not used by the code. *)
Definition swap_curve_bootstrap (interp : interpolator) (mode : discounting) (swaps : list swap) (initial_rates : list R) (tolerance : R) (maximum_iterations : nat) : option (boot_state * list xr) :=
  let expiry_times := map expiry swaps in
  let start := map (fun '(r, t) => Fin (exp (- r * t))) (combine initial_rates expiry_times) in
  let? st := boot_loop (swap_body interp mode swaps tolerance) maximum_iterations (false, false, 0%nat, start) in
  Some (st, discount_rates (snd st) expiry_times).

(** The input of one bond, bond_curve.py 80-90. *)
Record bond := mk_bond { cashflows : list R; cashflow_times : list R; bond_pv : R; settle_time : R }.
(** bond_curve.py 445-459. *)
Definition bond_body (interp : interpolator) (bonds : list bond) (tolerance : R) (st : boot_state) : option boot_state :=
  let '(_, _, iteration, expiry_discounts) := st in
  let calc_cashflows := flat_map (fun b => - bond_pv b :: removelast (cashflows b)) bonds in
  let calc_times := flat_map (fun b => settle_time b :: removelast (cashflow_times b)) bonds in
  let groups := group_ids (fun b => length (cashflows b)) bonds in
  let expiry_times := map (fun b => last (cashflow_times b) 0) bonds in
  let expiry_cashflows := map (fun b => Fin (last (cashflows b) 0)) bonds in
  let expiry_rates := discount_rates expiry_discounts expiry_times in
  let failed := existsb is_nan expiry_rates || existsb is_nan expiry_discounts in
  let calc_discounts := map (curve_discount interp expiry_times expiry_rates) calc_times in
  let sums := xsegment_sum (xzip xmul (map Fin calc_cashflows) calc_discounts) groups in
  let? next := bzip xdiv (map xopp sums) expiry_cashflows in
  let? diff := bzip (fun a b => xabs (a -x b)) next expiry_discounts in
  Some (small tolerance diff, failed, S iteration, next).
(** bond_curve.py 468-482. *)
Definition bond_curve (interp : interpolator) (bonds : list bond) (initial_rates : list R) (tolerance : R) (maximum_iterations : nat) : option (boot_state * list xr) :=
  let expiry_times := map (fun b => last (cashflow_times b) 0) bonds in
  let start := map (fun '(r, t) => Fin (exp (- r * t))) (combine initial_rates expiry_times) in
  let? st := boot_loop (bond_body interp bonds tolerance) maximum_iterations (false, false, 0%nat, start) in
  Some (st, discount_rates (snd st) expiry_times).
