(** When a model date stands for a calendar date (used in theorem statements). *)
From Coq Require Import ZArith.
From Verif Require Import DateModel DateSpec.
Open Scope Z_scope.

(** [x] is the DateTensor element for calendar date [c]: its year/month/day are
    [c], a date that exists, and its ordinal counts the days from 1 January 0001
    (which has ordinal 1). *)
Definition repr (x : date) (c : ymd) : Prop :=
  valid c /\ (year x, month x, day x) = c /\ is_nth (ordinal x) c.
