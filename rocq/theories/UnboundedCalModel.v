(** Model of tf_quant_finance/datetime/holiday_utils.py and
    unbounded_holiday_calendar.py, one date at a time.  Definitions only. *)
From Coq Require Import ZArith List Bool.
From Verif Require Import DateModel BoundedCalModel.
Import ListNotations.
Open Scope Z_scope.

(** tf.searchsorted(seq, x, side='left') for a sorted sequence: the number of
    elements below x.  (On an unsorted sequence TensorFlow's answer is that of a
    binary search; the theorems assume sorted holidays.) *)
Fixpoint searchsorted_left (l : list Z) (x : Z) : Z :=
  match l with [] => 0 | h :: r => (if h <? x then 1 else 0) + searchsorted_left r x end.

(** Inclusive cumsum. *)
Fixpoint cumsum_incl_from (acc : Z) (l : list Z) : list Z :=
  match l with [] => [] | x :: r => (acc + x) :: cumsum_incl_from (acc + x) r end.

(** boolean mask indexing l[mask] *)
Fixpoint select {A} (l : list A) (mask : list bool) : list A :=
  match l, mask with
  | x :: r, m :: s => if m then x :: select r s else select r s
  | _, _ => []
  end.

(** tf.roll(l, -k, axis=0) for 0 <= k <= length *)
Definition roll_left {A} (k : nat) (l : list A) : list A := skipn k l ++ firstn k l.

(** holiday_utils.py 20 *)
Definition DAYOFWEEK_0 : nat := 6.

(** holiday_utils.py 103-110: the tables of [_week_day_mappers] *)
Definition weekday_mask (weekend_mask : list bool) : list bool :=
  map negb (roll_left DAYOFWEEK_0 weekend_mask).
Definition weekday_offsets (weekend_mask : list bool) : list Z :=
  map (fun x => x - 1) (cumsum_incl_from 0 (map b2z (weekday_mask weekend_mask))).
Definition num_workdays (weekend_mask : list bool) : Z :=
  last (cumsum_incl_from 0 (map b2z (weekday_mask weekend_mask))) 0.
Definition ordinal_offsets (weekend_mask : list bool) : list Z :=
  select [0; 1; 2; 3; 4; 5; 6] (weekday_mask weekend_mask).

(** holiday_utils.py 99-102 and 112-117 [forward] *)
Definition weekday_fwd (weekend_mask : option (list bool)) (o : Z) : option (Z * bool) :=
  match weekend_mask with
  | None => Some (o, false)
  | Some m =>
      bind (gather (weekday_offsets m) (o mod 7)) (fun off =>
      bind (gather (weekday_mask m) (o mod 7)) (fun isw =>
      Some (o / 7 * num_workdays m + off, isw)))
  end.

(** holiday_utils.py 119-122 [backward]; integer division by zero is an error. *)
Definition weekday_back (weekend_mask : option (list bool)) (w : Z) : option Z :=
  match weekend_mask with
  | None => Some w
  | Some m =>
      if num_workdays m =? 0 then None else
      option_map (fun off => w / num_workdays m * 7 + off)
        (gather (ordinal_offsets m) (w mod num_workdays m))
  end.

(** holiday_utils.py 33-44: weekday values of the holidays that are not on
    weekends, preceded by the fake holiday 0. *)
Definition adjusted_holidays (weekend_mask : option (list bool)) (holidays : list Z) : option (list Z) :=
  option_map (fun l => 0 :: map fst (filter snd l)) (map_opt (weekday_fwd weekend_mask) holidays).

(** holiday_utils.py 46-52 [bizday_fwd] *)
Definition bizday_fwd (hs : list Z) (x : Z) : Z * bool :=
  let num_holidays := Z.of_nat (length hs) - 1 in
  let left := searchsorted_left hs x in
  let right := num_holidays - searchsorted_left (rev (map Z.opp hs)) (- x) in
  (x - right, negb (left =? right)).

(** holiday_utils.py 54-60 [bizday_back] *)
Definition bizday_back (hs : list Z) (x : Z) : Z :=
  let bizday_at_holidays := map (fun '(h, i) => h - i) (combine hs (zrange 0 (length hs))) in
  x + searchsorted_left bizday_at_holidays x - 1.

(** An unbounded calendar: holiday ordinals as given. *)
Record ucal := mk_ucal { umask : option (list bool); uholidays : option (list Z) }.

(** holiday_utils.py 23-73 [business_day_mappers]: from_ordinal / to_ordinal *)
Definition to_biz_space (c : ucal) (o : Z) : option (Z * bool) :=
  match umask c, uholidays c with
  | None, None => Some (o, true)
  | m, None => weekday_fwd m o
  | m, Some h =>
      bind (adjusted_holidays m h) (fun hs =>
      bind (weekday_fwd m o) (fun '(w, isw) =>
      let '(bz, isb) := bizday_fwd hs w in Some (bz, isw && isb)))
  end.
Definition from_biz_space (c : ucal) (x : Z) : option Z :=
  match umask c, uholidays c with
  | None, None => Some x
  | m, None => weekday_back m x
  | m, Some h => bind (adjusted_holidays m h) (fun hs => weekday_back m (bizday_back hs x))
  end.

(** unbounded_holiday_calendar.py 56-59 *)
Definition u_is_business_day (c : ucal) (d : date) : option bool :=
  option_map snd (to_biz_space c (ordinal d)).

(** unbounded_holiday_calendar.py 266-267 *)
Definition get_month (o : Z) : Z := match ordinal_to_year_month_day o with (_, m, _) => m end.

(** unbounded_holiday_calendar.py 80-110 [_apply_roll_biz_space] *)
Definition apply_roll_biz_space (c : ucal) (d : date) (biz_days : Z) (is_bizday : bool)
  (conv : convention) : option Z :=
  let next := if is_bizday then biz_days else biz_days + 1 in
  match conv with
  | NONE => Some biz_days
  | FOLLOWING => Some next
  | PRECEDING => Some biz_days
  | MODIFIED_FOLLOWING =>
      bind (from_biz_space c next) (fun o =>
      Some (if negb (get_month o =? month d) then biz_days else next))
  | MODIFIED_PRECEDING =>
      bind (from_biz_space c biz_days) (fun o =>
      Some (if negb (get_month o =? month d) then next else biz_days))
  end.

(** unbounded_holiday_calendar.py 61-78 [roll_to_business_day] *)
Definition u_roll (c : ucal) (d : date) (conv : convention) : option date :=
  match conv with
  | NONE => Some d
  | _ =>
      bind (to_biz_space c (ordinal d)) (fun '(bz, isb) =>
      bind (apply_roll_biz_space c d bz isb conv) (fun r =>
      bind (from_biz_space c r) from_ordinal))
  end.

(** 112-130, 173-194 *)
Definition u_add_period_and_roll (c : ucal) (d : date) (p : period) (conv : convention) : option date :=
  bind (date_add d p) (fun d' => u_roll c d' conv).
Definition u_subtract_period_and_roll (c : ucal) (d : date) (p : period) (conv : convention) : option date :=
  u_add_period_and_roll c d (mk_period (- quantity p) (ptype p)) conv.

(** 132-171 [add_business_days], 196-222 *)
Definition u_add_business_days (c : ucal) (d : date) (n : Z) (conv : convention) : option date :=
  bind (to_biz_space c (ordinal d)) (fun '(bz, isb) =>
  if (match conv with NONE => negb isb | _ => false end) then None else
  bind (apply_roll_biz_space c d bz isb conv) (fun r =>
  bind (from_biz_space c (r + n)) from_ordinal)).
Definition u_subtract_business_days (c : ucal) (d : date) (n : Z) (conv : convention) : option date :=
  u_add_business_days c d (- n) conv.

(** 241-263 [business_days_between] *)
Definition u_business_days_between (c : ucal) (d1 d2 : date) : option Z :=
  bind (to_biz_space c (ordinal d1)) (fun '(b1, i1) =>
  bind (to_biz_space c (ordinal d2)) (fun '(b2, i2) =>
  let from_biz := if i1 then b1 else b1 + 1 in
  let to_biz := if i2 then b2 else b2 + 1 in
  Some (Z.max (to_biz - from_biz) 0))).

(** 224-239 *)
Definition u_business_days_in_period (c : ucal) (d : date) (p : period) : option Z :=
  bind (date_add d p) (fun d' => u_business_days_between c d d').
