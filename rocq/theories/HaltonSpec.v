(** Specification of the Halton sequence. *)
From Coq Require Import ZArith QArith List.
From Verif Require Import SobolSpec.
Import ListNotations.

(** [radical_inverse b n q]: q is n with its base-b digits mirrored at the
    radix point *)
Inductive radical_inverse (b : Z) : Z -> Q -> Prop :=
| ri_zero : radical_inverse b 0 0
| ri_digit : forall n q d, (0 <= d < b)%Z -> radical_inverse b n q ->
    radical_inverse b (b * n + d) ((inject_Z d + q) / inject_Z b)%Q.

(** a point lies in the box whose d-th side is the c_d-th interval of length 1/n_d *)
Definition in_box (ns : list positive) (cs : list Z) (p : list Q) : Prop :=
  forall d, (d < length ns)%nat -> in_cell (nth d ns 1%positive) (nth d cs 0%Z) (nth d p 0%Q).
