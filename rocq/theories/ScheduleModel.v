(** Model of tf_quant_finance/datetime/schedules.py: a batch is a list of rows
    (after the broadcasting of lines 352-360 and 440-445).  Definitions only. *)
From Coq Require Import ZArith List Bool.
From Verif Require Import DateModel BoundedCalModel.
Import ListNotations.
Open Scope Z_scope.

(** schedules.py 22-27 [_MIN_DAYS_IN_PERIOD] *)
Definition min_days (t : period_type) : Z :=
  match t with DAY => 1 | WEEK => 7 | MONTH => 28 | YEAR => 365 end.

Record row := mk_row { rstart : date; rend : date; rqty : Z }.

(** tf.math.ceil(a / b) for positive b, exact *)
Definition ceil_div (a b : Z) : Z := - ((- a) / b).

(** tf.math.reduce_max / reduce_min; [None] stands for the lowest / highest
    int64, which TensorFlow returns for an empty tensor. *)
Definition reduce_max (l : list Z) : option Z :=
  match l with [] => None | x :: r => Some (fold_left Z.max r x) end.
Definition reduce_min (l : list Z) : option Z :=
  match l with [] => None | x :: r => Some (fold_left Z.min r x) end.

(** schedules.py 362-368; ceil and reduce_max commute *)
Definition len_upper_bound (rows : list row) (t : period_type) : Z :=
  match reduce_max (map (fun r =>
    ceil_div (ordinal (rend r) - ordinal (rstart r) + 1) (rqty r * min_days t)) rows) with
  | Some n => n | None => 0 end.

(** tf.where(cond)[..., -1]: positions along the last axis, over the batch *)
Definition where_last {A} (cond : A -> date -> bool) (ss : list (A * list date)) : list Z :=
  concat (map (fun '(r, s) => where_from 0 (map (fun d => b2z (cond r d)) s)) ss).

(** schedules.py 390-406 (forward) *)
Definition periodic_forward (rows : list row) (t : period_type) : option (list (list date)) :=
  let ub := Z.to_nat (len_upper_bound rows t) in
  bind (map_opt (fun r => option_map (fun s => (r, s ++ [rend r]))
          (map_opt (fun i => date_add (rstart r) (period_mul (mk_period (rqty r) t) i)) (zrange 0 ub))) rows) (fun ss =>
  let ss := map (fun '(r, s) =>
    (r, map (fun d => if ordinal d <=? ordinal (rend r) then d else rend r) s)) ss in
  Some (match reduce_max (where_last (fun r d => negb (ordinal d =? ordinal (rend r))) ss) with
        | Some k => map (fun '(r, s) => firstn (Z.to_nat (k + 2)) s) ss
        | None => map (fun _ => []) ss
        end)).

(** schedules.py 371-389 (backward); [rev (zrange ..)] is tf.range(ub - 1, -1, -1) *)
Definition periodic_backward (rows : list row) (t : period_type) : option (list (list date)) :=
  let ub := Z.to_nat (len_upper_bound rows t) in
  bind (map_opt (fun r => option_map (fun s => (r, [rstart r] ++ s))
          (map_opt (fun i => date_sub (rend r) (period_mul (mk_period (rqty r) t) i)) (rev (zrange 0 ub)))) rows) (fun ss =>
  let ss := map (fun '(r, s) =>
    (r, map (fun d => if ordinal (rstart r) <=? ordinal d then d else rstart r) s)) ss in
  Some (match reduce_min (where_last (fun r d => negb (ordinal d =? ordinal (rstart r))) ss) with
        | Some k => map (fun '(r, s) => skipn (Z.to_nat (k - 1)) s) ss
        | None => map (fun _ => []) ss
        end)).

(** schedules.py 408-413 *)
Definition shift_to_eom (anchor : date) (s : list date) : option (list date) :=
  bind (is_end_of_month anchor) (fun b => if b then map_opt to_end_of_month s else Some s).

(** schedules.py 151-156 (constructor check) and 331-420
    [_gen_periodic_schedule]; [roll] is roll_to_business_day of the calendar
    with the convention, [None] when there is no calendar. *)
Definition periodic_schedule (rows : list row) (t : period_type) (backward end_of_month : bool)
  (roll : option (date -> option date)) : option (list (list date)) :=
  if end_of_month && match t with MONTH | YEAR => false | _ => true end then None else
  if negb (forallb (fun r => ordinal (rstart r) <=? ordinal (rend r)) rows) then None else
  if negb (forallb (fun r => 0 <? rqty r) rows) then None else
  bind (if backward then periodic_backward rows t else periodic_forward rows t) (fun ss =>
  bind (if end_of_month
        then map_opt (fun '(r, s) => shift_to_eom (if backward then rend r else rstart r) s) (combine rows ss)
        else Some ss) (fun ss =>
  match roll with None => Some ss | Some f => map_opt (map_opt f) ss end)).

(** The calendar operations a business-day schedule uses. *)
Record cal_ops := mk_ops {
  op_roll : date -> convention -> option date;
  op_between : date -> date -> option Z;
  op_add : date -> Z -> convention -> option date }.

(** schedules.py 423-466 [_gen_business_days]; rows are (start, end) *)
Definition business_day_schedule (c : cal_ops) (rows : list (date * date)) (backward : bool)
  : option (list (list date)) :=
  bind (map_opt (fun '(s, e) => bind (op_roll c s FOLLOWING) (fun s' =>
                                option_map (fun e' => (s', e')) (op_roll c e PRECEDING))) rows) (fun rows =>
  if negb (forallb (fun '(s, e) => ordinal s <=? ordinal e) rows) then None else
  bind (map_opt (fun '(s, e) => op_between c s e) rows) (fun counts =>
  let max_len := match reduce_max counts with Some n => Z.abs n + 1 | None => 0 end in
  map_opt (fun '(s, e) =>
    if backward
    then option_map (map (fun d => if ordinal s <=? ordinal d then d else s))
           (map_opt (fun n => op_add c e n NONE) (zrange (- max_len + 1) (Z.to_nat max_len)))
    else option_map (map (fun d => if ordinal d <=? ordinal e then d else e))
           (map_opt (fun n => op_add c s n NONE) (zrange 0 (Z.to_nat max_len)))) rows)).
