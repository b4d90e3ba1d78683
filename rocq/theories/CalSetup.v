(** How the two kinds of holiday calendars are built, for stating theorems
    about them: which masks, holidays and years a calendar object stands for. *)
From Coq Require Import ZArith List Bool Sorted.
From Verif Require Import DateModel DateSpec DateRepr CalSpec BoundedCalModel UnboundedCalModel.
Import ListNotations.
Open Scope Z_scope.

(** A date object whose components describe an existing calendar date. *)
Definition is_date (x : date) : Prop := exists c, repr x c.

(** The business-day predicate for a mask and a list of holidays. *)
Definition bday (mask : list bool) (l : list date) : Z -> bool := business mask (map ordinal l).

(** [c] is a bounded calendar over the years [ys..ye]: the years of the given
    holidays if there are any, otherwise those given explicitly. *)
Inductive bounded_calendar (mask : list bool) : list date -> Z -> Z -> bcal -> Prop :=
| bc_holidays l s e c ys ye :
    length mask = 7%nat -> Forall is_date l -> NoDup l ->
    (forall x, In x l -> ys <= year x <= ye) ->
    (exists x, In x l /\ year x = ys) -> (exists x, In x l /\ year x = ye) ->
    make_bcal (Some (map b2z mask)) (Some l) s e = Some c ->
    bounded_calendar mask l ys ye c
| bc_years ho ys ye c :
    length mask = 7%nat -> (ho = None \/ ho = Some []) -> ys <= ye ->
    make_bcal (Some (map b2z mask)) ho (Some ys) (Some ye) = Some c ->
    bounded_calendar mask [] ys ye c.

(** [c] is an unbounded calendar; holidays increasing and not in the first week
    of January of year 1. *)
Inductive unbounded_calendar : list bool -> list date -> ucal -> Prop :=
| uc_plain : unbounded_calendar (repeat false 7) [] (mk_ucal None None)
| uc_mask mask : length mask = 7%nat -> In false mask ->
    unbounded_calendar mask [] (mk_ucal (Some mask) None)
| uc_both mask l : length mask = 7%nat -> In false mask ->
    Forall is_date l -> StronglySorted (fun x y => ordinal x < ordinal y) l ->
    (forall x, In x l -> 8 <= ordinal x) ->
    unbounded_calendar mask l (mk_ucal (Some mask) (Some (map ordinal l))).
