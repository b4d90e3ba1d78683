(** Specification vocabulary for low-discrepancy sequences: what it means for
    a list of points of [0,1) to be evenly spread. *)
From Coq Require Import NArith ZArith QArith List.
Import ListNotations.

(** q lies in the c-th of the n half-open intervals of length 1/n *)
Definition in_cell (n : positive) (c : Z) (q : Q) : Prop := ((c # n) <= q /\ q < (c + 1 # n))%Q.

(** [l] has n points, one in each of the n intervals of length 1/n *)
Definition one_per_cell (n : positive) (l : list Q) : Prop :=
  length l = Pos.to_nat n /\
  forall c, (0 <= c < Zpos n)%Z ->
    exists k, (k < length l)%nat /\ in_cell n c (nth k l 0) /\
      forall k', (k' < length l)%nat -> in_cell n c (nth k' l 0) -> k' = k.

(** coordinate [d] of a list of sample points *)
Definition coordinate (d : nat) (points : list (list Q)) : list Q := map (fun p => nth d p 0) points.

(** the condition Joe & Kuo put on a line (s, a, m_1 .. m_s) of their table,
    with the polynomial as 2^s + 2 a + 1: at least degree one, and m_i odd and
    below 2^i *)
Definition admissible (line : N * list N) : Prop :=
  let '(poly, init) := line in
  (2 <= poly)%N /\ (N.to_nat (N.log2 poly) <= length init)%nat /\
  forall i, (i < N.to_nat (N.log2 poly))%nat -> N.odd (nth i init 0%N) = true /\ (nth i init 0 < 2 ^ N.of_nat (S i))%N.
