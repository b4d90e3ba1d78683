(** C01-C09 and C19: dates, periods and day counts. *)
From Coq Require Import ZArith QArith List Bool Lia.
From Verif Require Import DateModel DateSpec DateRepr DateProofs DateProofs2 DayCountModel DayCountProofs PropsDateAux.
Import ListNotations.
Open Scope Z_scope.

(** C01: each calendar date that exists has exactly one ordinal >= 1 and
    vice versa; both constructors produce consistent components; the ordinal of
    the next calendar day is the next integer; ordinal 1 is 1 January 0001. *)
Theorem C01_date_ordinal_bijection :
  (forall y m d, valid (y, m, d) ->
     exists x, from_ymd y m d = Some x /\ repr x (y, m, d) /\
               from_ordinal (ordinal x) = Some x) /\
  (forall n, 1 <= n ->
     exists x, from_ordinal n = Some x /\ ordinal x = n /\ repr x (nth_day (Z.to_nat (n - 1))) /\
               from_ymd (year x) (month x) (day x) = Some x) /\
  (forall x c, repr x c ->
     exists x', from_ordinal (ordinal x + 1) = Some x' /\ repr x' (next_day c)) /\
  (exists x, from_ordinal 1 = Some x /\ repr x (1, 1, 1)).
Proof. exact C01_lemma. Qed.
Print Assumptions C01_date_ordinal_bijection.
Example C01_ex : valid (2000, 2, 29) /\
  option_map ordinal (from_ymd 2000 2 29) = Some 730179 /\ next_day (2000, 2, 29) = (2000, 3, 1).
Proof. vm_compute. intuition congruence. Qed.

(** C02 *)
Theorem C02_validation_exact :
  (forall y m d, (exists x, from_ymd y m d = Some x) <->
     (1 <= y /\ 1 <= m <= 12 /\ 1 <= d <= month_length y m)) /\
  (forall n, (exists x, from_ordinal n = Some x) <-> 1 <= n) /\
  (forall y, month_length y 2 = 29 <-> leap y).
Proof. exact C02_lemma. Qed.
Print Assumptions C02_validation_exact.
Example C02_ex : from_ymd 1900 2 29 = None /\ from_ymd 2000 2 29 <> None /\ from_ordinal 0 = None.
Proof. vm_compute. intuition congruence. Qed.

(** C03: the weekday advances cyclically from Monday = 0 on 1 January 0001, and
    day_of_year counts from 1 January of the same year. *)
Theorem C03_weekday_day_of_year :
  (forall x, repr x (1, 1, 1) -> day_of_week x = 0) /\
  (forall x c x', repr x c -> repr x' (next_day c) ->
     0 <= day_of_week x < 7 /\ day_of_week x' = (day_of_week x + 1) mod 7) /\
  (forall x y m d j, repr x (y, m, d) -> is_nth j (y, 1, 1) ->
     day_of_year x = Some (ordinal x - j + 1)).
Proof. exact C03_lemma. Qed.
Print Assumptions C03_weekday_day_of_year.
Example C03_ex : option_map day_of_week (from_ymd 2000 1 1) = Some 5 /\
  match from_ymd 2000 12 31 with Some x => day_of_year x | None => None end = Some 366.
Proof. vm_compute. auto. Qed.

(** C04 *)
Theorem C04_comparison_is_calendar_order : forall x1 x2 c1 c2,
  repr x1 c1 -> repr x2 c2 ->
  (date_ltb x1 x2 = true <-> ymd_lt c1 c2) /\
  (date_leb x1 x2 = true <-> ymd_le c1 c2) /\
  (date_gtb x1 x2 = true <-> ymd_lt c2 c1) /\
  (date_geb x1 x2 = true <-> ymd_le c2 c1) /\
  (date_eqb x1 x2 = true <-> c1 = c2) /\
  (date_neb x1 x2 = true <-> c1 <> c2).
Proof. exact comparisons_spec. Qed.
Print Assumptions C04_comparison_is_calendar_order.
Theorem C04_total_order :
  (forall a b : ymd, ymd_lt a b \/ a = b \/ ymd_lt b a) /\
  (forall a, ~ ymd_lt a a) /\
  (forall a b c, ymd_lt a b -> ymd_lt b c -> ymd_lt a c) /\
  (forall x1 x2 c1 c2 n x2', repr x1 c1 -> repr x2 c2 -> date_add x1 (mk_period n DAY) = Some x2' ->
     (date_ltb x1 x2' = true <-> 0 < n) /\
     (x2' = x2 <-> days_until x1 x2 = n)).
Proof. exact C04_order_lemma. Qed.
Print Assumptions C04_total_order.
Example C04_ex : match from_ymd 1999 12 31, from_ymd 2000 1 1 with
  | Some a, Some b => date_ltb a b && negb (date_geb a b) | _, _ => false end = true.
Proof. vm_compute. reflexivity. Qed.

(** C05 *)
Theorem C05_add_days_weeks : forall x c n, repr x c ->
  (1 <= ordinal x + n ->
     exists x', date_add x (mk_period n DAY) = Some x' /\ ordinal x' = ordinal x + n /\
                repr x' (nth_day (Z.to_nat (ordinal x + n - 1))) /\
                date_sub x' (mk_period n DAY) = Some x) /\
  (ordinal x + n < 1 -> date_add x (mk_period n DAY) = None) /\
  (1 <= ordinal x + 7 * n ->
     exists x', date_add x (mk_period n WEEK) = Some x' /\ ordinal x' = ordinal x + 7 * n /\
                repr x' (nth_day (Z.to_nat (ordinal x + 7 * n - 1))) /\
                date_sub x' (mk_period n WEEK) = Some x) /\
  (ordinal x + 7 * n < 1 -> date_add x (mk_period n WEEK) = None).
Proof. exact C05_lemma. Qed.
Print Assumptions C05_add_days_weeks.
Example C05_ex : match from_ymd 2000 2 28 with
  | Some x => option_map (fun z => (year z, month z, day z)) (date_add x (mk_period 2 DAY))
  | None => None end = Some (2000, 3, 1).
Proof. vm_compute. reflexivity. Qed.

(** C06 *)
Theorem C06_add_months_years : forall x c n, repr x c ->
  (1 <= fst (fst (shift_months c n)) ->
     exists x', date_add x (mk_period n MONTH) = Some x' /\ repr x' (shift_months c n)) /\
  (1 <= fst (fst (shift_years c n)) ->
     exists x', date_add x (mk_period n YEAR) = Some x' /\ repr x' (shift_years c n)).
Proof. intros x c n R. exact (conj (add_months_spec x c n R) (add_years_spec x c n R)). Qed.
Print Assumptions C06_add_months_years.
(** Monotone in the date. *)
Theorem C06_monotone : forall x1 x2 c1 c2 n y1 y2 t, t = MONTH \/ t = YEAR ->
  repr x1 c1 -> repr x2 c2 -> date_leb x1 x2 = true ->
  date_add x1 (mk_period n t) = Some y1 -> date_add x2 (mk_period n t) = Some y2 ->
  1 <= year y1 -> date_leb y1 y2 = true.
Proof. exact C06_mono_lemma. Qed.
Print Assumptions C06_monotone.
(** Month steps compose when the first step did not clip the day. *)
Theorem C06_compose : forall x c n1 n2 y, repr x c ->
  date_add x (mk_period n1 MONTH) = Some y -> 1 <= year y -> day y = day x ->
  date_add y (mk_period n2 MONTH) = date_add x (mk_period (n1 + n2) MONTH).
Proof. exact C06_compose_lemma. Qed.
Print Assumptions C06_compose.
Example C06_ex : match from_ymd 2000 1 31 with
  | Some x => option_map (fun z => (year z, month z, day z)) (date_add x (mk_period 13 MONTH))
  | None => None end = Some (2001, 2, 28).
Proof. vm_compute. reflexivity. Qed.
(** Unlike days and weeks, month and year steps that leave the common era are
    not refused: the result is a DateTensor holding a date that its own
    validation rejects. *)
Theorem C06_underflow_refused_refuted :
  exists x y, from_ymd 1 1 1 = Some x /\ date_add x (mk_period (-1) MONTH) = Some y /\
    from_ymd (year y) (month y) (day y) = None.
Proof. do 2 eexists. split; [reflexivity|]. split; reflexivity. Qed.
Print Assumptions C06_underflow_refused_refuted.

(** C07 *)
Theorem C07_end_of_month : forall x y m d, repr x (y, m, d) ->
  exists x', to_end_of_month x = Some x' /\ repr x' (y, m, month_length y m) /\
    to_end_of_month x' = Some x' /\
    exists b, is_end_of_month x = Some b /\ (b = true <-> to_end_of_month x = Some x).
Proof. exact C07_lemma. Qed.
Print Assumptions C07_end_of_month.
Example C07_ex : match from_ymd 2000 2 28 with
  | Some x => (is_end_of_month x, option_map day (to_end_of_month x)) | None => (None, None) end
  = (Some false, Some 29).
Proof. vm_compute. reflexivity. Qed.

(** C08: counts over the days of [start, end), walked one by one. *)
Theorem C08_leap_day_accounting : forall s e cs ce, repr s cs -> repr e ce ->
  ordinal s <= ordinal e ->
  let i := Z.to_nat (ordinal s - 1) in let n := Z.to_nat (ordinal e - ordinal s) in
  days_in_leap_and_nonleap_years_between s e =
    Some (count_days in_leap_year i n, count_days (fun c => negb (in_leap_year c)) i n) /\
  count_days in_leap_year i n + count_days (fun c => negb (in_leap_year c)) i n = days_until s e /\
  leap_days_between s e = count_days is_feb29 i n.
Proof. exact C08_lemma. Qed.
Print Assumptions C08_leap_day_accounting.
Example C08_ex : match from_ymd 1999 12 30, from_ymd 2000 3 1 with
  | Some a, Some b => (days_in_leap_and_nonleap_years_between a b, leap_days_between a b)
  | _, _ => (None, 0) end = (Some (60, 2), 1).
Proof. vm_compute. reflexivity. Qed.

(** C09 *)
Theorem C09_actual_360_365 : forall s e s' e' m,
  (actual_360 s e == inject_Z (ordinal e - ordinal s) / inject_Z 360)%Q /\
  (actual_365_fixed s e == inject_Z (ordinal e - ordinal s) / inject_Z 365)%Q /\
  (actual_360 s e == actual_360 s m + actual_360 m e)%Q /\
  (actual_365_fixed s e == actual_365_fixed s m + actual_365_fixed m e)%Q /\
  (ordinal e <= ordinal e' -> (actual_360 s e <= actual_360 s e')%Q /\
                              (actual_365_fixed s e <= actual_365_fixed s e')%Q) /\
  (ordinal s <= ordinal s' -> (actual_360 s' e <= actual_360 s e)%Q /\
                              (actual_365_fixed s' e <= actual_365_fixed s e)%Q).
Proof. exact C09_360_365_lemma. Qed.
Print Assumptions C09_actual_360_365.
Theorem C09_actual_actual_isda : forall s e cs ce, repr s cs -> repr e ce ->
  ordinal s <= ordinal e ->
  let i := Z.to_nat (ordinal s - 1) in let n := Z.to_nat (ordinal e - ordinal s) in
  actual_actual_isda s e =
    Some (inject_Z (count_days in_leap_year i n) / inject_Z 366
          + inject_Z (count_days (fun c => negb (in_leap_year c)) i n) / inject_Z 365)%Q.
Proof. exact actual_actual_spec. Qed.
Print Assumptions C09_actual_actual_isda.
Theorem C09_actual_actual_additive : forall a b c ca cb cc, repr a ca -> repr b cb -> repr c cc ->
  exists x y z, actual_actual_isda a b = Some x /\ actual_actual_isda b c = Some y /\
    actual_actual_isda a c = Some z /\ (z == x + y)%Q /\ (ordinal b <= ordinal c -> (x <= z)%Q).
Proof. exact C09_aa_lemma. Qed.
Print Assumptions C09_actual_actual_additive.
Theorem C09_actual_365_actual : forall s e cs ce, repr s cs -> repr e ce -> ordinal s <= ordinal e ->
  ((exists j y, ordinal s < j <= ordinal e /\ is_nth j (y, 2, 29)) ->
     actual_365_actual s e = Some (inject_Z (ordinal e - ordinal s) / inject_Z 366)%Q) /\
  (~ (exists j y, ordinal s < j <= ordinal e /\ is_nth j (y, 2, 29)) ->
     actual_365_actual s e = Some (inject_Z (ordinal e - ordinal s) / inject_Z 365)%Q).
Proof. exact actual_365_actual_spec. Qed.
Print Assumptions C09_actual_365_actual.
Theorem C09_thirty_360_isda :
  (forall s e cs ce, repr s cs -> repr e ce ->
     let '(Y1, M1, d1) := cs in let '(Y2, M2, d2) := ce in
     let D1 := if d1 =? 31 then 30 else d1 in
     let D2 := if (d2 =? 31) && ((d1 =? 30) || (d1 =? 31)) then 30 else d2 in
     thirty_360_isda s e =
       (inject_Z ((Y2 - Y1) * 360 + (M2 - M1) * 30 + (D2 - D1)) / inject_Z 360)%Q) /\
  (forall s e y m d k, repr s (y, m, d) -> repr e (y + k, m, d) ->
     (thirty_360_isda s e == inject_Z k)%Q).
Proof. exact C09_thirty_lemma. Qed.
Print Assumptions C09_thirty_360_isda.
Example C09_ex : match from_ymd 2019 12 31, from_ymd 2020 3 1 with
  | Some a, Some b => (actual_360 a b ==61 # 360)%Q /\
      actual_365_actual a b = Some (61 # 366)%Q /\ (thirty_360_isda a b == 61 # 360)%Q
  | _, _ => False end.
Proof. vm_compute. auto. Qed.

(** C19 *)
Theorem C19_period_arithmetic : forall p q r a b,
  (ptype p = ptype q -> ptype q = ptype r ->
     (exists s, period_add p q = Some s /\ ptype s = ptype p /\ quantity s = quantity p + quantity q /\
        period_add q p = Some s /\ period_sub s q = Some p /\
        period_add (period_mul p a) (period_mul q a) = Some (period_mul s a)) /\
     (exists s t, period_add p q = Some s /\ period_add q r = Some t /\ period_add s r = period_add p t) /\
     period_sub p q = period_add p (period_mul q (-1))) /\
  period_add (period_mul p a) (period_mul p b) = Some (period_mul p (a + b)) /\
  period_mul (period_mul p a) b = period_mul p (a * b) /\
  period_mul p 1 = p /\
  (ptype p <> ptype q -> period_add p q = None /\ period_sub p q = None).
Proof. exact C19_lemma. Qed.
Print Assumptions C19_period_arithmetic.
Example C19_ex : period_add (mk_period 2 MONTH) (mk_period 3 MONTH) = Some (mk_period 5 MONTH) /\
  period_add (mk_period 2 MONTH) (mk_period 3 DAY) = None.
Proof. vm_compute. auto. Qed.
