(** Specification for tensors of dates: what it means that a DateTensor holds
    given calendar dates, and which entries of a tensor matter. *)
From Coq Require Import ZArith List Bool Arith.
From Verif Require Import ShapeModel DateModel DateSpec CalSetup DateTensorModel.
Import ListNotations.
Open Scope nat_scope.

(** The indices of a tensor of a given shape. *)
Definition inside (sh : shape) (idx : list nat) : Prop := Forall2 lt idx sh.

(** Two tensors with the same shape and the same entries. *)
Definition same {A} (t u : tensor A) : Prop := tshape t = tshape u /\ forall idx, inside (tshape t) idx -> entry t idx = entry u idx.
Definition tmap {A B} (f : A -> B) (t : tensor A) : tensor B := Tensor (tshape t) (fun idx => f (entry t idx)).

(** [t] holds the calendar dates [T]: ordinals, years, months and days belong to
    these dates, and the days of the year too if they are already known. *)
Definition holds (t : date_tensor) (T : tensor date) : Prop :=
  (forall idx, inside (tshape T) idx -> is_date (entry T idx)) /\
  same (dt_ordinals t) (tmap ordinal T) /\ same (dt_years t) (tmap year T) /\
  same (dt_months t) (tmap month T) /\ same (dt_days t) (tmap day T) /\
  match dt_day_of_year t with None => True | Some c => same c (tmap day_of_year T) end.

(** Two optional results of which either both are missing or both are there and
    related. *)
Definition both {A B} (R : A -> B -> Prop) (x : option A) (y : option B) : Prop :=
  match x, y with Some a, Some b => R a b | None, None => True | _, _ => False end.

(** The entries of a tensor in row-major order. *)
Fixpoint indices (sh : shape) : list (list nat) :=
  match sh with [] => [[]] | n :: sh' => flat_map (fun i => map (cons i) (indices sh')) (seq 0 n) end.
Definition entries {A} (t : tensor A) : list A := map (entry t) (indices (tshape t)).
