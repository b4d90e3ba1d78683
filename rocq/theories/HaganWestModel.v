(** Model of tf_quant_finance/rates/hagan_west/monotone_convex.py for vectors of
    reference times and one query time.  Definitions only.  Divisions are over
    reals extended with infinities and NaN. *)
From Coq Require Import Reals List Bool ZArith.
From Verif Require Import TensorModel InterpModel SegmentModel PiecewiseModel BrentModel ExtReal RatesModel.
Import ListNotations.
Open Scope R_scope.

Definition rleb (a b : R) : bool := if Rle_dec a b then true else false.
Definition xsub (a b : xr) : xr := xadd a (xopp b).
(** tf.math.maximum, tf.math.minimum: NaN if either argument is. *)
Definition xmax (a b : xr) : xr := if is_nan a || is_nan b then NaN else if xlt a b then b else a.
Definition xmin (a b : xr) : xr := if is_nan a || is_nan b then NaN else if xlt a b then a else b.
Definition xsquare (a : xr) : xr := xmul a a.
Definition xcube (a : xr) : xr := xmul a (xmul a a).
Notation "a +x b" := (xadd a b) (at level 50, left associativity).
Notation "a -x b" := (xsub a b) (at level 50, left associativity).
Notation "a *x b" := (xmul a b) (at level 40, left associativity).
Notation "a /x b" := (xdiv a b) (at level 40, left associativity).

(** monotone_convex.py 568-579. *)
Definition region_1 (g1plus2g0 g0plus2g1 g0 g1 x : R) : bool * xr * xr :=
  let is_region_1 := (rlt g1plus2g0 0 && rleb 0 g0plus2g1) || (rlt 0 g1plus2g0 && rleb g0plus2g1 0) in
  let '(a, b, c) := (3 * (g0 + g1), -2 * g1plus2g0, g0) in
  let region_1_value := (a * x + b) * x + c in
  let one_minus_x := 1 - x in
  let integrated_value := x * one_minus_x * (g0 * one_minus_x - g1 * x) in
  (is_region_1, Fin region_1_value, Fin integrated_value).
(** monotone_convex.py 582-595. *)
Definition region_2 (g1plus2g0 g0plus2g1 g0 g1 x : R) : bool * xr * xr :=
  let is_region_2 := (rlt g0 0 && rleb 0 g1plus2g0) || (rlt 0 g0 && rleb g1plus2g0 0) in
  let eta := Fin g1plus2g0 /x Fin (g1 - g0) in
  let x_floor := xmax (Fin x) eta in
  let ratio := (x_floor -x eta) /x (Fin 1 -x eta) in
  let region_2_value := Fin g0 +x Fin (g1 - g0) *x xsquare ratio in
  let coeff := Fin (g1 - g0) *x (Fin 1 -x eta) /x Fin 3 in
  let integrated_value := Fin (g0 * x) +x coeff *x xcube ratio in
  (is_region_2, region_2_value, integrated_value).
(** monotone_convex.py 598-610. *)
Definition region_3 (g1plus2g0 g0plus2g1 g0 g1 x : R) : bool * xr * xr :=
  let is_region_3 := (rleb g1 0 && rlt 0 g0plus2g1) || (rleb 0 g1 && rlt g0plus2g1 0) in
  let eta := Fin (3 * g1) /x Fin (g1 - g0) in
  let x_cap := xmin (Fin x) eta in
  let ratio := (eta -x x_cap) /x eta in
  let ratio := if is_nan ratio then Fin 0 else ratio in
  let region_3_value := Fin g1 +x Fin (g0 - g1) *x xsquare ratio in
  let integrated_value := Fin (g1 * x) +x eta *x Fin (g0 - g1) /x Fin 3 *x (Fin 1 -x xcube ratio) in
  (is_region_3, region_3_value, integrated_value).
(** monotone_convex.py 613-632. *)
Definition region_4 (g1plus2g0 g0plus2g1 g0 g1 x : R) : bool * xr * xr :=
  let is_region_4 := (rleb 0 g0 && rlt 0 g1) || (rleb g0 0 && rlt g1 0) in
  let eta := Fin g1 /x Fin (g0 + g1) in
  let x_cap := xmin (Fin x) eta in
  let x_floor := xmax (Fin x) eta in
  let shift := Fin (- (1 / 2)) *x (eta *x Fin g0 +x (Fin 1 -x eta) *x Fin g1) in
  let ratio_cap := (eta -x x_cap) /x eta in
  let ratio_floor := (x_floor -x eta) /x (Fin 1 -x eta) in
  let region_4_value := shift +x (Fin g0 -x shift) *x xsquare ratio_cap +x (Fin g1 -x shift) *x xsquare ratio_floor in
  let integrated_value :=
    shift *x Fin x +x (Fin g0 -x shift) *x eta *x (Fin 1 -x xcube ratio_cap) /x Fin 3
    +x (Fin g1 -x shift) *x (Fin 1 -x eta) *x xcube ratio_floor /x Fin 3 in
  (is_region_4, region_4_value, integrated_value).

(** tf.where on a pair of accumulators. *)
Definition where2 (r : bool * xr * xr) (acc : xr * xr) : xr * xr := let '(is_region, value, integrated) := r in if is_region then (value, integrated) else acc.

(** monotone_convex.py 221-269 for one interval and the position [x] in it;
    [nextafter] is the neighbouring floating-point number, here an arbitrary
    function. *)
Definition interval_curve (nextafter : R -> R -> R) (f_left f_right fd x interval_length : R) : xr * xr :=
  let g0 := f_left - fd in
  let g1 := f_right - fd in
  let g1plus2g0 := g1 + 2 * g0 in
  let g0plus2g1 := g0 + 2 * g1 in
  let acc := (Fin 0, Fin 0) in
  let acc := where2 (region_1 g1plus2g0 g0plus2g1 g0 g1 x) acc in
  let acc := where2 (region_2 g1plus2g0 g0plus2g1 g0 g1 x) acc in
  let acc := where2 (region_3 g1plus2g0 g0plus2g1 g0 g1 x) acc in
  let acc := where2 (region_4 g1plus2g0 g0plus2g1 g0 g1 x) acc in
  let g0_eps := Rabs (nextafter fd f_left - fd) * (11 / 10) in
  let g1_eps := Rabs (nextafter fd f_right - fd) * (11 / 10) in
  let is_origin := rleb (Rabs g0) g0_eps && rleb (Rabs g1) g1_eps in
  let '(result, integrated) := if is_origin then (Fin 0, Fin 0) else acc in
  (result +x Fin fd, (integrated +x Fin (fd * x)) *x Fin interval_length).

(** monotone_convex.py 526-565; with a single value the interior is empty and
    taking its first element is an error. *)
Definition interpolate_adjacent (times values : list R) : option (list R) :=
  let dt1 := diff 1 false times in
  let dt2 := tl (diff 2 false times) in
  let weight_right := vzip Rdiv (removelast dt1) dt2 in
  let weight_left := vzip Rdiv (tl dt1) dt2 in
  let interior_values := vzip Rplus (vzip Rmult weight_right (tl values)) (vzip Rmult weight_left (removelast values)) in
  match interior_values with
  | [] => None
  | first :: _ =>
      let value_0 := at_ values 0 - 1 / 2 * (first - at_ values 0) in
      let value_n := last values 0 - 1 / 2 * (last interior_values 0 - last values 0) in
      Some ([value_0] ++ interior_values ++ [value_n])
  end.

(** tf.gather of one element; an index out of range is an error. *)
Definition gather1 (l : list R) (i : Z) : option R := if (i <? 0)%Z then None else nth_error l (Z.to_nat i).

(** monotone_convex.py 62-269 at one time. *)
Definition hw_interpolate (nextafter : R -> R -> R) (time : R) (interval_values interval_times : list R) (validate_args : bool) : option (xr * xr) :=
  if validate_args && negb (rleb 0 time && forallb (fun t => rlt 0 t) interval_times) then None else
  match interpolate_adjacent interval_times interval_values with
  | None => None
  | Some endpoint_values =>
      let endpoint_times := 0 :: interval_times in
      let i := find_interval_index time endpoint_times true in
      match gather1 endpoint_values i, gather1 endpoint_values (i + 1), gather1 interval_values i, gather1 endpoint_times i, gather1 endpoint_times (i + 1) with
      | Some f_left, Some f_right, Some fd, Some t_left, Some t_right =>
          let interval_length := t_right - t_left in
          (* distinct neighbouring times: the division is by a nonzero length *)
          let x := (time - t_left) / interval_length in
          Some (interval_curve nextafter f_left f_right fd x interval_length)
      | _, _, _, _, _ => None
      end
  end.

(** monotone_convex.py 364-366, 372-379 and 489-508: the discrete forwards and
    the yields, from whichever is supplied. *)
Definition curve_inputs (reference_times : list R) (yields discrete_forwards : option (list R)) : option (list R * list R) :=
  match yields, discrete_forwards with
  | Some y, None => Some (forward_rates_from_yields y reference_times None, y)
  | None, Some f => Some (f, yields_from_forward_rates f reference_times None)
  | _, _ => None
  end.
(** monotone_convex.py 272-386. *)
Definition interpolate_forward_rate (nextafter : R -> R -> R) (time : R) (reference_times : list R) (yields discrete_forwards : option (list R)) (validate_args : bool) : option xr :=
  match curve_inputs reference_times yields discrete_forwards with
  | None => None
  | Some (discrete_forwards, _) => option_map fst (hw_interpolate nextafter time discrete_forwards reference_times validate_args)
  end.
(** monotone_convex.py 389-523. *)
Definition interpolate_yields (nextafter : R -> R -> R) (time : R) (reference_times : list R) (yields discrete_forwards : option (list R)) (validate_args : bool) : option xr :=
  match curve_inputs reference_times yields discrete_forwards with
  | None => None
  | Some (discrete_forwards, reference_yields) =>
      match hw_interpolate nextafter time discrete_forwards reference_times validate_args with
      | None => None
      | Some (_, integrated_adjustments) =>
          let extended_times := 0 :: reference_times in
          let extended_yields := 0 :: reference_yields in
          let i := find_interval_index time extended_times true in
          match gather1 (vzip Rmult extended_yields extended_times) i with
          | None => None
          | Some base_values =>
              (* divide_no_nan by the time *)
              Some (if Req_EM_T time 0 then Fin 0 else (Fin base_values +x integrated_adjustments) /x Fin time)
          end
      end
  end.
