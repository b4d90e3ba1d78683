(** Sobol points are strictly inside the unit cube. *)
From Coq Require Import ZArith NArith QArith List Bool Arith Lia.
From Verif Require Import SobolModel SobolSpec SobolProofs SobolData PropsSobol.
Import ListNotations.
Open Scope N_scope.

Lemma to_unit_pos D x : x <> 0 -> (0 < to_unit D x)%Q.
Proof. intros X. rewrite to_unit_frac. unfold Qlt. cbn [Qnum Qden]. lia. Qed.
Lemma sobol_pos dim n skip data k q : Forall admissible data -> (k < dim <= S (length data))%nat -> N.of_nat (skip + n + 1) <= 2 ^ 31 ->
  In q (coordinate k (sobol_sample dim n skip data)) -> (0 < q)%Q.
Proof.
  intros AD K B I. rewrite sample_coordinate in I by lia. apply in_map_iff in I as (r & <- & Rr). apply in_seq in Rr.
  destruct (rows_good dim data k AD K) as (G & L). destruct (num_digits_bound n skip ltac:(lia) B) as (D0 & D1).
  set (D := sobol_num_digits n skip) in *. set (row := nth k _ []) in *.
  apply to_unit_pos. rewrite sobol_int_net by assumption.
  assert (TR : triangular (fun j => N.shiftl (nth j row 0) (N.of_nat (D - 1 - j))) D D) by (apply good_triangular; [assumption|lia|lia]).
  destruct (triangular_regular _ _ _ TR) as (_ & _ & RG). pose proof (num_digits_enough n skip ltac:(lia)) as E. fold D in E.
  specialize (RG D (N.of_nat (skip + 1 + r)) (le_n _) ltac:(lia)). rewrite Nat.sub_diag in RG. exact RG.
Qed.
Lemma joe_kuo_length : length joe_kuo = 250%nat.
Proof. vm_compute. reflexivity. Qed.
(** every coordinate of every point *)
Lemma sobol_inside dim n skip k i : (i < dim <= 251)%nat -> N.of_nat (skip + n + 1) <= 2 ^ 31 -> (k < n)%nat ->
  (0 < nth i (nth k (sobol_sample dim n skip joe_kuo) []) 0 /\ nth i (nth k (sobol_sample dim n skip joe_kuo) []) 0 < 1)%Q.
Proof.
  intros Ii B K. set (q := nth i _ _).
  assert (IN : In q (coordinate i (sobol_sample dim n skip joe_kuo))).
  { unfold coordinate. apply in_map_iff. exists (nth k (sobol_sample dim n skip joe_kuo) []). split; [reflexivity|]. apply nth_In. unfold sobol_sample. cbv zeta. rewrite map_length, seq_length. exact K. }
  split.
  - apply (sobol_pos dim n skip joe_kuo i); [apply C27_table_admissible|rewrite joe_kuo_length; lia|exact B|exact IN].
  - apply (sobol_range dim n skip joe_kuo i); [apply C27_table_admissible|rewrite joe_kuo_length; lia|exact B|exact IN].
Qed.
