(** Model of tf_quant_finance/datetime: date_utils.py, date_tensor.py,
    periods/period_tensors.py and constants.py, elementwise over [Z].
    int32 wrap-around is not modelled.  Definitions only. *)
From Coq Require Import ZArith List Bool.
Import ListNotations.
Open Scope Z_scope.

(** date_utils.py 18-23 *)
Definition DAYS_IN_ERA : Z := 146097.
Definition YEARS_IN_ERA : Z := 400.
Definition DAYS_IN_YEAR : Z := 365.
Definition DAYS_IN_4_YEARS : Z := 4 * DAYS_IN_YEAR + 1.
Definition DAYS_IN_100_YEARS : Z := 100 * DAYS_IN_YEAR + 24.
Definition ORDINAL_OF_1_3_0000 : Z := -305.

(** date_utils.py 26-32 [_day_of_year_to_month] *)
Definition day_of_year_to_month (day_of_year : Z) : Z := (5 * day_of_year + 2) / 153.

(** date_utils.py 35-38 [_days_in_year_before_month] *)
Definition days_in_year_before_month (month : Z) : Z := (153 * month + 2) / 5.

(** date_utils.py 41-75 [ordinal_to_year_month_day]; [//] and [%] on int32
    tensors are floor division and modulo, i.e. [Z.div] and [Z.modulo]. *)
Definition ordinal_to_year_month_day (ordinal : Z) : Z * Z * Z :=
  let o := ordinal - ORDINAL_OF_1_3_0000 in
  let era := o / DAYS_IN_ERA in
  let day_of_era := o mod DAYS_IN_ERA in
  let year_of_era :=
    (day_of_era - day_of_era / (DAYS_IN_4_YEARS - 1)
     + day_of_era / DAYS_IN_100_YEARS
     - day_of_era / (DAYS_IN_ERA - 1)) / DAYS_IN_YEAR in
  let year := year_of_era + era * YEARS_IN_ERA in
  let day_of_year :=
    day_of_era - (DAYS_IN_YEAR * year_of_era + year_of_era / 4 - year_of_era / 100) in
  let months := day_of_year_to_month day_of_year in
  let days := day_of_year - days_in_year_before_month months + 1 in
  let months := months + (if months <? 10 then 3 else -9) in
  let year := year + (if months <=? 2 then 1 else 0) in
  (year, months, days).

(** date_utils.py 78-111 [year_month_day_to_ordinal] *)
Definition year_month_day_to_ordinal (year month day : Z) : Z :=
  let year := year - (if month <=? 2 then 1 else 0) in
  let month := month + (if 2 <? month then -3 else 9) in
  let era := year / YEARS_IN_ERA in
  let year_of_era := year mod YEARS_IN_ERA in
  let day_of_year := days_in_year_before_month month + day - 1 in
  let day_of_era :=
    year_of_era * DAYS_IN_YEAR + year_of_era / 4 - year_of_era / 100 + day_of_year in
  era * DAYS_IN_ERA + day_of_era + ORDINAL_OF_1_3_0000.

(** date_utils.py 114-127 [is_leap_year] *)
Definition is_leap_year (year : Z) : bool :=
  let divides_by n := year mod n =? 0 in
  divides_by 4 && (negb (divides_by 100) || divides_by 400).

(** date_tensor.py 26-59 *)
Definition DAYS_IN_MONTHS_NON_LEAP : list Z :=
  [31; 28; 31; 30; 31; 30; 31; 31; 30; 31; 30; 31].
Definition DAYS_IN_MONTHS_LEAP : list Z :=
  [31; 29; 31; 30; 31; 30; 31; 31; 30; 31; 30; 31].
Definition DAYS_IN_MONTHS_COMBINED : list Z :=
  [0] ++ DAYS_IN_MONTHS_NON_LEAP ++ DAYS_IN_MONTHS_LEAP.

(** date_tensor.py 61 *)
Definition ORDINAL_OF_1_1_1970 : Z := 719163.

(** tf.gather on a rank-1 tensor: an index outside [0, length) is an error
    (CPU semantics), modelled by [None]. *)
Definition gather {A} (l : list A) (i : Z) : option A :=
  if (i <? 0) then None else nth_error l (Z.to_nat i).

(** tf.math.cumsum(.., exclusive=True) of a rank-1 integer tensor. *)
Fixpoint cumsum_excl_from (acc : Z) (l : list Z) : list Z :=
  match l with
  | [] => []
  | x :: r => acc :: cumsum_excl_from (acc + x) r
  end.
Definition cumsum_excl : list Z -> list Z := cumsum_excl_from 0.

(** A date element of a DateTensor: the four redundant int32 components of
    date_tensor.py 64-109. *)
Record date := mk_date { ordinal : Z; year : Z; month : Z; day : Z }.

(** date_tensor.py 413-418 [_num_days_in_month] *)
Definition num_days_in_month (month year : Z) : option Z :=
  gather DAYS_IN_MONTHS_COMBINED (month + 12 * (if is_leap_year year then 1 else 0)).

(** date_tensor.py 125-140 *)
Definition day_of_week (d : date) : Z := (ordinal d - 1) mod 7.

(** date_tensor.py 203-230 [day_of_year]; the lazy cache is not modelled. *)
Definition day_of_year (d : date) : option Z :=
  match gather (cumsum_excl DAYS_IN_MONTHS_NON_LEAP) (month d - 1),
        gather (cumsum_excl DAYS_IN_MONTHS_LEAP) (month d - 1) with
  | Some nl, Some l => Some ((if is_leap_year (year d) then l else nl) + day d)
  | _, _ => None
  end.

(** date_tensor.py 232-253 *)
Definition days_until (d target : date) : Z := ordinal target - ordinal d.

(** date_tensor.py 566-625 [from_year_month_day] with validate=False *)
Definition from_ymd_unchecked (y m d : Z) : date :=
  mk_date (year_month_day_to_ordinal y m d) y m d.

(** date_tensor.py 566-625 [from_year_month_day] with validate=True: the
    assertions in the order the code adds them; [None] is the raised error. *)
Definition from_ymd (y m d : Z) : option date :=
  if negb (0 <? y) then None else
  if negb (1 <=? m) then None else
  if negb (m <=? 12) then None else
  if negb (0 <? d) then None else
  match gather DAYS_IN_MONTHS_COMBINED (m + 12 * (if is_leap_year y then 1 else 0)) with
  | None => None
  | Some max_days => if negb (d <=? max_days) then None else Some (from_ymd_unchecked y m d)
  end.

(** date_tensor.py 628-662 [from_ordinals] with validate=False *)
Definition from_ordinal_unchecked (o : Z) : date :=
  match ordinal_to_year_month_day o with (y, m, d) => mk_date o y m d end.

(** date_tensor.py 628-662 [from_ordinals] with validate=True *)
Definition from_ordinal (o : Z) : option date :=
  if 0 <? o then Some (from_ordinal_unchecked o) else None.

(** date_tensor.py 507-534 [from_np_datetimes]: days since 1 Jan 1970 *)
Definition from_np_datetime (n : Z) : date := from_ordinal_unchecked (n + ORDINAL_OF_1_1_1970).

(** date_tensor.py 180-201 and 665-691 [to_tensor], [from_tensor] *)
Definition to_tensor (d : date) : list Z := [year d; month d; day d].
Definition from_tensor (t : list Z) : option date :=
  match t with [y; m; d] => from_ymd y m d | _ => None end.

(** date_tensor.py 276-284 *)
Definition is_end_of_month (d : date) : option bool :=
  match num_days_in_month (month d) (year d) with
  | Some n => Some (day d =? n) | None => None end.
Definition to_end_of_month (d : date) : option date :=
  match num_days_in_month (month d) (year d) with
  | Some n => Some (from_ymd_unchecked (year d) (month d) n) | None => None end.

(** constants.py: PeriodType *)
Inductive period_type := DAY | WEEK | MONTH | YEAR.
Definition period_type_eqb (a b : period_type) : bool :=
  match a, b with
  | DAY, DAY | WEEK, WEEK | MONTH, MONTH | YEAR, YEAR => true
  | _, _ => false
  end.

(** periods/period_tensors.py: PeriodTensor element *)
Record period := mk_period { quantity : Z; ptype : period_type }.

(** period_tensors.py [__mul__], [__add__], [__sub__]; mixed types raise
    ValueError, modelled by [None]. *)
Definition period_mul (p : period) (k : Z) : period := mk_period (quantity p * k) (ptype p).
Definition period_add (p q : period) : option period :=
  if period_type_eqb (ptype p) (ptype q)
  then Some (mk_period (quantity p + quantity q) (ptype p)) else None.
Definition period_sub (p q : period) : option period :=
  if period_type_eqb (ptype p) (ptype q)
  then Some (mk_period (quantity p - quantity q) (ptype p)) else None.

(** date_tensor.py 328-329 [adjust_day] *)
Definition adjust_day (y m d : Z) : option Z :=
  match num_days_in_month m y with Some n => Some (Z.min d n) | None => None end.

(** date_tensor.py 294-345 [__add__] *)
Definition date_add (dt : date) (p : period) : option date :=
  match ptype p with
  | DAY => from_ordinal (ordinal dt + quantity p)
  | WEEK => from_ordinal (ordinal dt + quantity p * 7)
  | MONTH =>
      let m := month dt - 1 + quantity p in
      let y := year dt + m / 12 in
      let m := m mod 12 + 1 in
      match adjust_day y m (day dt) with
      | Some d => Some (from_ymd_unchecked y m d) | None => None end
  | YEAR =>
      let y := year dt + quantity p in
      match adjust_day y (month dt) (day dt) with
      | Some d => Some (from_ymd_unchecked y (month dt) d) | None => None end
  end.

(** date_tensor.py 347-361 [__sub__] *)
Definition date_sub (dt : date) (p : period) : option date :=
  date_add dt (mk_period (- quantity p) (ptype p)).

(** date_tensor.py 255-274 [period_length_in_days] *)
Definition period_length_in_days (dt : date) (p : period) : option Z :=
  match date_add dt p with Some e => Some (ordinal e - ordinal dt) | None => None end.

(** date_tensor.py 363-387: comparison operators *)
Definition date_eqb (a b : date) : bool := ordinal a =? ordinal b.
Definition date_neb (a b : date) : bool := negb (ordinal a =? ordinal b).
Definition date_gtb (a b : date) : bool := ordinal b <? ordinal a.
Definition date_geb (a b : date) : bool := ordinal b <=? ordinal a.
Definition date_ltb (a b : date) : bool := ordinal a <? ordinal b.
Definition date_leb (a b : date) : bool := ordinal a <=? ordinal b.

(** date_tensor.py 694-759 [random_dates]: [u] stands for the uniform draw in
    [0, 1) times the range, truncated to an integer by the int32 cast; modelled
    as an integer argument [u] with 0 <= u < max 1 (end - start). *)
Definition random_date (start : date) (u : Z) : date :=
  from_ordinal_unchecked (ordinal start + u).

(** date_utils.py 148-155 [days_in_leap_years_since_1jan0001] *)
Definition days_in_leap_years_since_1jan0001 (d : date) : option Z :=
  let prev_year := year d - 1 in
  let leap_years_before := prev_year / 4 - prev_year / 100 + prev_year / 400 in
  match day_of_year d with
  | None => None
  | Some doy =>
      let days_in_cur_year := doy - 1 in
      Some (leap_years_before * 366 + (if is_leap_year (year d) then days_in_cur_year else 0))
  end.

(** date_utils.py 130-158 *)
Definition days_in_leap_years_between (s e : date) : option Z :=
  match days_in_leap_years_since_1jan0001 e, days_in_leap_years_since_1jan0001 s with
  | Some a, Some b => Some (a - b) | _, _ => None end.

(** date_utils.py 161-184 *)
Definition days_in_leap_and_nonleap_years_between (s e : date) : option (Z * Z) :=
  let days_between := ordinal e - ordinal s in
  match days_in_leap_years_between s e with
  | Some l => Some (l, days_between - l) | None => None end.

(** date_utils.py 206-212 and 187-212 *)
Definition leap_days_since_year_0 (d : date) : Z :=
  let y := year d in
  let leap_years_since_0 := y / 4 - y / 100 + y / 400 in
  leap_years_since_0 - (if is_leap_year y && (month d <=? 2) then 1 else 0).
Definition leap_days_between (s e : date) : Z :=
  leap_days_since_year_0 e - leap_days_since_year_0 s.
