(** Independent specification of business-day arithmetic on day ordinals, for
    an arbitrary business-day predicate [b]. *)
From Coq Require Import ZArith List Bool.
From Verif Require Import DateSpec.
Import ListNotations.
Open Scope Z_scope.

(** A weekend mask lists the seven weekdays from Monday; [true] = day off.
    Ordinal 1 (1 January 0001) is a Monday.  A day is a business day when it is
    neither a day off nor a holiday. *)
Definition day_off (mask : list bool) (o : Z) : bool :=
  nth (Z.to_nat ((o - 1) mod 7)) mask false.
Definition business (mask : list bool) (holidays : list Z) (o : Z) : bool :=
  negb (day_off mask o) && negb (existsb (Z.eqb o) holidays).

(** [r] is the earliest business day on or after [o]; latest on or before. *)
Definition following (b : Z -> bool) (o r : Z) : Prop :=
  o <= r /\ b r = true /\ forall k, o <= k < r -> b k = false.
Definition preceding (b : Z -> bool) (o r : Z) : Prop :=
  r <= o /\ b r = true /\ forall k, r < k <= o -> b k = false.

(** Number of business days in [a, c). *)
Fixpoint count_from (b : Z -> bool) (a : Z) (n : nat) : Z :=
  match n with
  | O => 0
  | S k => (if b a then 1 else 0) + count_from b (a + 1) k
  end.
Definition busdays (b : Z -> bool) (a c : Z) : Z := count_from b a (Z.to_nat (c - a)).

(** [r] is the business day [n] business days after [o] ([-n] before it if
    [n] is negative). *)
Definition nth_business_day (b : Z -> bool) (o n r : Z) : Prop :=
  b r = true /\
  ((0 <= n /\ o <= r /\ busdays b o r = n) \/ (n < 0 /\ r < o /\ busdays b r o = - n)).

(** Calendar month of the day with ordinal [o]: month number, and (year, month). *)
Definition month_of (o : Z) : Z := snd (fst (nth_day (Z.to_nat (o - 1)))).
Definition year_month_of (o : Z) : Z * Z := fst (nth_day (Z.to_nat (o - 1))).
Definition same_month (o1 o2 : Z) : Prop := year_month_of o1 = year_month_of o2.

(** MODIFIED_FOLLOWING: the following business day if it is in the month of
    [o], otherwise the preceding one.  MODIFIED_PRECEDING is the mirror image. *)
Definition modified_following (b : Z -> bool) (o r : Z) : Prop :=
  (following b o r /\ same_month r o) \/
  (preceding b o r /\ forall f, following b o f -> ~ same_month f o).
Definition modified_preceding (b : Z -> bool) (o r : Z) : Prop :=
  (preceding b o r /\ same_month r o) \/
  (following b o r /\ forall p, 1 <= p -> preceding b o p -> ~ same_month p o).

(** The calendar month of [o] contains a business day. *)
Definition month_has_business_day (b : Z -> bool) (o : Z) : Prop :=
  exists k, 1 <= k /\ same_month k o /\ b k = true.
