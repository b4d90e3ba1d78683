(** Independent specification of the proleptic Gregorian calendar: month
    lengths, leap years and the successor of a day.  Nothing here refers to the
    model. *)
From Coq Require Import ZArith List Bool.
Import ListNotations.
Open Scope Z_scope.

Definition ymd : Type := Z * Z * Z.

(** A year is leap if divisible by 4, except centuries not divisible by 400. *)
Definition leap (y : Z) : Prop := (4 | y) /\ (~ (100 | y) \/ (400 | y)).

Definition leapb (y : Z) : bool :=
  (y mod 4 =? 0) && (negb (y mod 100 =? 0) || (y mod 400 =? 0)).

Definition month_length (y m : Z) : Z :=
  if m =? 2 then (if leapb y then 29 else 28)
  else if (m =? 4) || (m =? 6) || (m =? 9) || (m =? 11) then 30 else 31.

(** The calendar dates of the common era. *)
Definition valid (c : ymd) : Prop :=
  let '(y, m, d) := c in 1 <= y /\ 1 <= m <= 12 /\ 1 <= d <= month_length y m.

(** The calendar day after a date. *)
Definition next_day (c : ymd) : ymd :=
  let '(y, m, d) := c in
  if d <? month_length y m then (y, m, d + 1)
  else if m <? 12 then (y, m + 1, 1)
  else (y + 1, 1, 1).

(** The [n]-th day after 1 January 0001. *)
Fixpoint nth_day (n : nat) : ymd :=
  match n with O => (1, 1, 1) | S k => next_day (nth_day k) end.

(** Calendar (lexicographic) order. *)
Definition ymd_lt (a b : ymd) : Prop :=
  let '(y1, m1, d1) := a in let '(y2, m2, d2) := b in
  y1 < y2 \/ (y1 = y2 /\ (m1 < m2 \/ (m1 = m2 /\ d1 < d2))).

(** [c] is the calendar date [n] days after 1 January 0001 ordinal 1, i.e. the
    day with ordinal [n]. *)
Definition is_nth (n : Z) (c : ymd) : Prop := 1 <= n /\ nth_day (Z.to_nat (n - 1)) = c.

(** The date [n] months later: same day of the month, or the last day of the
    month if it is shorter. *)
Definition shift_months (c : ymd) (n : Z) : ymd :=
  let '(y, m, d) := c in
  let k := 12 * y + (m - 1) + n in
  let y' := k / 12 in let m' := k mod 12 + 1 in
  (y', m', Z.min d (month_length y' m')).

Definition shift_years (c : ymd) (n : Z) : ymd :=
  let '(y, m, d) := c in (y + n, m, Z.min d (month_length (y + n) m)).

(** Number of days with property [P] among the [n] days from day index [i]. *)
Fixpoint count_days (P : ymd -> bool) (i n : nat) : Z :=
  match n with
  | O => 0
  | S k => (if P (nth_day i) then 1 else 0) + count_days P (S i) k
  end.

Definition in_leap_year (c : ymd) : bool := let '(y, _, _) := c in leapb y.
Definition is_feb29 (c : ymd) : bool := let '(_, m, d) := c in (m =? 2) && (d =? 29).

(** Non-strict calendar order. *)
Definition ymd_le (a b : ymd) : Prop := ymd_lt a b \/ a = b.
