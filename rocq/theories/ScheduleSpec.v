(** Independent specification of date schedules (properties C17 and C18). *)
From Coq Require Import ZArith List Bool Sorted.
From Verif Require Import DateModel DateSpec CalSpec CalSetup BoundedCalModel.
Import ListNotations.
Open Scope Z_scope.

(** [start], [start + p], [start + 2p], ... as long as it is before [end_], then [end_]. *)
Definition forward_dates (start end_ : date) (p : period) (l : list date) : Prop :=
  exists (n : nat) (s : Z -> date),
    (forall k, 0 <= k < Z.of_nat n ->
       date_add start (period_mul p k) = Some (s k) /\ ordinal (s k) < ordinal end_) /\
    (forall k x, Z.of_nat n <= k -> date_add start (period_mul p k) = Some x -> ordinal end_ <= ordinal x) /\
    l = map s (zrange 0 n) ++ [end_].

(** [start], then every [end_ - k p] after [start], up to [end_]. *)
Definition backward_dates (start end_ : date) (p : period) (l : list date) : Prop :=
  exists (n : nat) (s : Z -> date),
    (forall k, 0 <= k < Z.of_nat n ->
       date_sub end_ (period_mul p k) = Some (s k) /\ ordinal start < ordinal (s k)) /\
    (forall k x, Z.of_nat n <= k -> date_sub end_ (period_mul p k) = Some x -> ordinal x <= ordinal start) /\
    l = start :: rev (map s (zrange 0 n)).

(** [l] lists, in order, exactly the business days in [s, e]. *)
Definition business_dates (b : Z -> bool) (s e : date) (l : list date) : Prop :=
  Forall is_date l /\
  map ordinal l = filter b (zrange (ordinal s) (Z.to_nat (ordinal e - ordinal s + 1))).

(** Padding a schedule to length [L] by repeating its last (first) date. *)
Definition padded_last (L : nat) (l out : list date) : Prop :=
  exists p x, l = p ++ [x] /\ out = l ++ repeat x (L - length l).
Definition padded_first (L : nat) (l out : list date) : Prop :=
  exists x q, l = x :: q /\ out = repeat x (L - length l) ++ l.

Definition longest (L : nat) (ls : list (list date)) : Prop :=
  (exists l, In l ls /\ length l = L) /\ forall l, In l ls -> (length l <= L)%nat.

(** [out] is the batch in which every row meets [spec], padded to the length
    of the longest row. *)
Definition batch {R} (spec : R -> list date -> Prop) (backward : bool) (rows : list R) (out : list (list date)) : Prop :=
  exists ls L, Forall2 spec rows ls /\ longest L ls /\
    Forall2 (if backward then padded_first L else padded_last L) ls out.

(** [d] is the last day of its month; [x'] is the last day of the month of [x]. *)
Definition last_of_month (d : date) : Prop := day d = month_length (year d) (month d).
Definition moved_to_eom (x x' : date) : Prop :=
  is_date x' /\ year x' = year x /\ month x' = month x /\ last_of_month x'.

Definition nondecreasing (l : list date) : Prop := StronglySorted (fun x y => ordinal x <= ordinal y) l.
Definition increasing (l : list date) : Prop := StronglySorted (fun x y => ordinal x < ordinal y) l.

(** The two adjustments applied to a date [x] of a schedule: to the end of the
    month if that was asked for and the anchor date is the end of a month, then
    rolling by the calendar. *)
Definition adjusted (end_of_month : bool) (anchor : date) (roll : option (date -> option date)) (x y : date) : Prop :=
  exists x', ((end_of_month = true /\ last_of_month anchor /\ moved_to_eom x x') \/
              ((end_of_month = false \/ ~ last_of_month anchor) /\ x' = x)) /\
    match roll with None => y = x' | Some f => f x' = Some y end.
