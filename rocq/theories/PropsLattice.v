(** C52: rank-1 lattice rules. *)
From Coq Require Import ZArith Znumtheory QArith Qround List Bool Lia.
From Verif Require Import SobolSpec SobolModel HaltonModel HaltonProofs HaltonProofs2.
Import ListNotations.
Open Scope Z_scope.

Lemma floor_unique (x : Q) (c : Z) : (inject_Z c <= x)%Q -> (x < inject_Z (c + 1))%Q -> Qfloor x = c.
Proof.
  intros A B. pose proof (Qfloor_le x) as F1. pose proof (Qlt_floor x) as F2.
  assert (c < Qfloor x + 1) by (rewrite Zlt_Qlt; eapply Qle_lt_trans; [exact A|exact F2]).
  assert (Qfloor x < c + 1) by (rewrite Zlt_Qlt; eapply Qle_lt_trans; [exact F1|exact B]). lia.
Qed.
Lemma cell_floor (n : positive) c y : in_cell n c y <-> Qfloor (y * inject_Z (Zpos n)) = c.
Proof.
  assert (N0 : (0 < inject_Z (Zpos n))%Q) by (change 0%Q with (inject_Z 0); rewrite <- Zlt_Qlt; lia).
  assert (F : forall a, ((a # n) * inject_Z (Zpos n) == inject_Z a)%Q) by (intros a; rewrite Qmake_Qdiv; field; intros E; rewrite E in N0; inversion N0).
  unfold in_cell. rewrite <- (Qmult_le_r (c # n) y _ N0), <- (Qmult_lt_r y (c + 1 # n) _ N0), !F. split.
  - intros (A & B). apply floor_unique; assumption.
  - intros <-. split; [apply Qfloor_le|apply Qlt_floor].
Qed.
Lemma floor_add (x : Q) (z : Z) : Qfloor (x + inject_Z z) = Qfloor x + z.
Proof.
  apply floor_unique.
  - rewrite inject_Z_plus. apply Qplus_le_compat; [apply Qfloor_le|apply Qle_refl].
  - replace (Qfloor x + z + 1) with (Qfloor x + 1 + z) by ring. rewrite inject_Z_plus. apply Qplus_lt_le_compat; [apply Qlt_floor|apply Qle_refl].
Qed.
Lemma floormod1_range x : (0 <= floormod1 x /\ floormod1 x < 1)%Q.
Proof.
  unfold floormod1. pose proof (Qfloor_le x) as A. pose proof (Qlt_floor x) as B. rewrite inject_Z_plus in B. split.
  - apply (Qplus_le_l _ _ (inject_Z (Qfloor x))). ring_simplify. assumption.
  - apply (Qplus_lt_l _ _ (inject_Z (Qfloor x))). setoid_replace (x - inject_Z (Qfloor x) + inject_Z (Qfloor x))%Q with x by ring. rewrite Qplus_comm. assumption.
Qed.
Lemma floormod1_cell (n : positive) x c : in_cell n c (floormod1 x) <-> Qfloor (x * inject_Z (Zpos n)) mod Zpos n = c.
Proof.
  rewrite cell_floor. unfold floormod1.
  assert (E : Qfloor ((x - inject_Z (Qfloor x)) * inject_Z (Zpos n)) = Qfloor (x * inject_Z (Zpos n)) + (- Qfloor x) * Zpos n).
  { rewrite <- floor_add. apply Qfloor_comp. rewrite inject_Z_mult, inject_Z_opp. ring. }
  rewrite E. assert (R : 0 <= Qfloor (x * inject_Z (Zpos n)) + (- Qfloor x) * Zpos n < Zpos n).
  { rewrite <- E. pose proof (floormod1_range x) as (A & B). unfold floormod1 in A, B. assert (N0 : (0 < inject_Z (Zpos n))%Q) by (change 0%Q with (inject_Z 0); rewrite <- Zlt_Qlt; lia). split.
    - change 0 with (Qfloor 0). apply Qfloor_resp_le. apply Qmult_le_0_compat; [assumption|apply Qlt_le_weak; assumption].
    - rewrite Zlt_Qlt. eapply Qle_lt_trans; [apply Qfloor_le|]. rewrite <- (Qmult_1_l (inject_Z (Zpos n))) at 2. apply Qmult_lt_r; assumption. }
  rewrite <- (Z.mod_small _ _ R) at 1. rewrite Z_mod_plus_full. reflexivity.
Qed.
Definition shift_of (o : option Q) : Q := match o with None => 0%Q | Some s => s end.
Lemma lattice_floor z (n : positive) o i : lattice_point z (Zpos n) o i = floormod1 (match o with None => inject_Z i * floormod1 (inject_Z z / inject_Z (Zpos n)) | Some s => inject_Z i * floormod1 (inject_Z z / inject_Z (Zpos n)) + s end)%Q /\
  Qfloor ((match o with None => inject_Z i * floormod1 (inject_Z z / inject_Z (Zpos n)) | Some s => inject_Z i * floormod1 (inject_Z z / inject_Z (Zpos n)) + s end) * inject_Z (Zpos n))%Q = Qfloor (shift_of o * inject_Z (Zpos n)) + i * (z mod Zpos n).
Proof.
  assert (N0 : ~ (inject_Z (Zpos n) == 0)%Q) by (unfold Qeq; cbn; lia).
  split; [destruct o; reflexivity|]. rewrite <- floor_add. apply Qfloor_comp.
  assert (E : (floormod1 (inject_Z z / inject_Z (Zpos n)) * inject_Z (Zpos n) == inject_Z (z mod Zpos n))%Q).
  { unfold floormod1. assert (Qfloor (inject_Z z / inject_Z (Zpos n)) = z / Zpos n) as ->.
    { pose proof (Z.div_mod z (Zpos n) ltac:(lia)). pose proof (Z.mod_pos_bound z (Zpos n) ltac:(lia)). apply floor_unique.
      - apply Qle_shift_div_l; [change 0%Q with (inject_Z 0); rewrite <- Zlt_Qlt; lia|]. rewrite <- inject_Z_mult, <- Zle_Qle. lia.
      - apply Qlt_shift_div_r; [change 0%Q with (inject_Z 0); rewrite <- Zlt_Qlt; lia|]. rewrite <- inject_Z_mult, <- Zlt_Qlt. lia. }
    rewrite Z.mod_eq by lia. unfold Zminus. rewrite inject_Z_plus, inject_Z_opp, inject_Z_mult. field. assumption. }
  rewrite inject_Z_mult, <- E. destruct o; cbn [shift_of]; ring.
Qed.

(** All points lie in [0,1), whatever the generating vector and the shift. *)
Theorem C52_unit_interval : forall gen dim num_results idx shift p q, In p (lattice_rule_sample gen dim num_results idx shift false) -> In q p -> (0 <= q /\ q < 1)%Q.
Proof.
  intros gen dim n idx shift p q P Q. unfold lattice_rule_sample in P. cbv zeta in P. apply in_map_iff in P as (i & <- & _). apply in_map_iff in Q as (d & <- & _). apply floormod1_range.
Qed.
Print Assumptions C52_unit_interval.
Theorem C52_tent_unit_interval : forall gen dim num_results idx shift p q, In p (lattice_rule_sample gen dim num_results idx shift true) -> In q p -> (0 <= q /\ q <= 1)%Q.
Proof.
  intros gen dim n idx shift p q P Q. unfold lattice_rule_sample in P. cbv zeta in P. apply in_map_iff in P as (i & <- & _). apply in_map_iff in Q as (d & <- & _).
  set (x := lattice_point _ _ _ _). assert (R : (0 <= x /\ x < 1)%Q) by apply floormod1_range. clearbody x. destruct R as (A & B).
  unfold tent_transform. destruct (Qlt_le_dec x (1 # 2)) as [H|H]; destruct x as (xn, xp); unfold Qle, Qlt, Qmult, Qminus, Qplus, Qopp in *; cbn [Qnum Qden] in *; lia.
Qed.
Print Assumptions C52_tent_unit_interval.

(** When the generating number of a coordinate is coprime to the number of
    points n, the n points put exactly one value of this coordinate into each
    interval of length 1/n, for any additive shift. *)
Theorem C52_one_per_cell : forall gen dim (n : positive) shift d, (d < dim)%nat -> rel_prime (nth d gen 0) (Zpos n) ->
  one_per_cell n (coordinate d (lattice_rule_sample gen dim (Zpos n) None shift false)).
Proof.
  intros gen dim n shift d D RP. set (z := nth d gen 0) in *. set (o := option_map (fun s => nth d s 0%Q) shift).
  assert (E : coordinate d (lattice_rule_sample gen dim (Zpos n) None shift false) = map (fun k => lattice_point z (Zpos n) o (Z.of_nat k)) (seq 0 (Pos.to_nat n))).
  { unfold coordinate, lattice_rule_sample. cbv zeta. rewrite !map_map. apply map_ext. intros k. rewrite (nth_map_lt _ (seq 0 dim) d 0%Q 0%nat) by (rewrite seq_length; assumption). rewrite seq_nth by assumption. reflexivity. }
  rewrite E. unfold one_per_cell. rewrite map_length, seq_length. split; [reflexivity|]. intros c C.
  set (t := Qfloor (shift_of o * inject_Z (Zpos n))).
  assert (NT : forall k, (k < Pos.to_nat n)%nat -> in_cell n c (nth k (map (fun k => lattice_point z (Zpos n) o (Z.of_nat k)) (seq 0 (Pos.to_nat n))) 0%Q) <-> (t + Z.of_nat k * (z mod Zpos n)) mod Zpos n = c).
  { intros k K. rewrite (nth_map_lt _ (seq 0 (Pos.to_nat n)) k 0%Q 0%nat) by (rewrite seq_length; assumption). rewrite seq_nth by assumption. cbn [Nat.add]. destruct (lattice_floor z n o (Z.of_nat k)) as (-> & FL). rewrite floormod1_cell, FL. reflexivity. }
  destruct (rel_prime_bezout _ _ RP) as [u v UV].
  assert (SOL : forall x, (t + x * (z mod Zpos n)) mod Zpos n = c <-> x mod Zpos n = ((c - t) * u) mod Zpos n).
  { intros x. rewrite <- (Z.mod_small c (Zpos n)) at 1 by assumption. rewrite <- Z.add_mod_idemp_r, Z.mul_mod_idemp_r, Z.add_mod_idemp_r by lia. rewrite !mod_eq_divide by lia. split; intros (k & H).
    - exists (u * k + x * v). replace (x * v) with (x * v) by ring. assert (x * (u * z + v * Zpos n) = x) by (rewrite UV; ring). nia.
    - exists (k * z - (c - t) * v). assert ((c - t) * (u * z + v * Zpos n) = c - t) by (rewrite UV; ring). nia. }
  destruct (residue_in_run (Zpos n) (((c - t) * u) mod Zpos n) 0) as (k & K & Ek & U); [apply Z.mod_pos_bound; lia|].
  exists (Z.to_nat k). split; [lia|]. split.
  - apply NT; [lia|]. apply SOL. rewrite Z2Nat.id by lia. rewrite <- Ek. reflexivity.
  - intros k' K' H. apply NT in H; [|assumption]. apply SOL in H. assert (Z.of_nat k' = k); [|lia]. apply U; [lia|]. exact H.
Qed.
Print Assumptions C52_one_per_cell.

(** Without a shift the values are the multiples of 1/n. *)
Theorem C52_grid : forall z (n : positive) i, (lattice_point z (Zpos n) None i == (i * z) mod Zpos n # n)%Q.
Proof.
  intros z n i. destruct (lattice_floor z n None i) as (-> & FL). set (x := (inject_Z i * floormod1 (inject_Z z / inject_Z (Zpos n)))%Q) in *.
  assert (N0 : ~ (inject_Z (Zpos n) == 0)%Q) by (unfold Qeq; cbn; lia).
  assert (XN : (x * inject_Z (Zpos n) == inject_Z (i * (z mod Zpos n)))%Q).
  { unfold x. assert (E : (floormod1 (inject_Z z / inject_Z (Zpos n)) * inject_Z (Zpos n) == inject_Z (z mod Zpos n))%Q).
    { unfold floormod1. assert (Qfloor (inject_Z z / inject_Z (Zpos n)) = z / Zpos n) as ->.
      { pose proof (Z.div_mod z (Zpos n) ltac:(lia)). pose proof (Z.mod_pos_bound z (Zpos n) ltac:(lia)). apply floor_unique.
        - apply Qle_shift_div_l; [change 0%Q with (inject_Z 0); rewrite <- Zlt_Qlt; lia|]. rewrite <- inject_Z_mult, <- Zle_Qle. lia.
        - apply Qlt_shift_div_r; [change 0%Q with (inject_Z 0); rewrite <- Zlt_Qlt; lia|]. rewrite <- inject_Z_mult, <- Zlt_Qlt. lia. }
      rewrite Z.mod_eq by lia. unfold Zminus. rewrite inject_Z_plus, inject_Z_opp, inject_Z_mult. field. assumption. }
    rewrite inject_Z_mult, <- E. ring. }
  assert (XE : (x == inject_Z (i * (z mod Zpos n)) / inject_Z (Zpos n))%Q) by (rewrite <- XN; field; assumption).
  unfold floormod1. assert (FX : Qfloor x = (i * (z mod Zpos n)) / Zpos n).
  { rewrite (Qfloor_comp _ _ XE). set (y := i * (z mod Zpos n)). pose proof (Z.div_mod y (Zpos n) ltac:(lia)). pose proof (Z.mod_pos_bound y (Zpos n) ltac:(lia)). apply floor_unique.
    - apply Qle_shift_div_l; [change 0%Q with (inject_Z 0); rewrite <- Zlt_Qlt; lia|]. rewrite <- inject_Z_mult, <- Zle_Qle. lia.
    - apply Qlt_shift_div_r; [change 0%Q with (inject_Z 0); rewrite <- Zlt_Qlt; lia|]. rewrite <- inject_Z_mult, <- Zlt_Qlt. lia. }
  rewrite FX, XE. rewrite <- (Z.mul_mod_idemp_r i z) by lia. set (y := i * (z mod Zpos n)). rewrite Z.mod_eq by lia. rewrite (Qmake_Qdiv (y - Zpos n * (y / Zpos n))). unfold Zminus. rewrite inject_Z_plus, inject_Z_opp, inject_Z_mult. field. assumption.
Qed.
Print Assumptions C52_grid.

(** Without coprimality intervals are missed. *)
Theorem C52_not_coprime_refuted : exists gen dim (n : positive) d, (d < dim)%nat /\ ~ one_per_cell n (coordinate d (lattice_rule_sample gen dim (Zpos n) None None false)).
Proof.
  exists [2], 1%nat, 4%positive, 0%nat. split; [lia|]. intros (_ & H). destruct (H 1 ltac:(lia)) as (k & K & (A & B) & _). vm_compute in K.
  destruct k as [|[|[|[|k]]]]; [..|lia]; vm_compute in A, B; first [apply A; reflexivity|discriminate].
Qed.
Print Assumptions C52_not_coprime_refuted.

Example C52_ex : rel_prime 3 8 /\ map Qred (coordinate 1 (lattice_rule_sample [1; 3] 2 8 None (Some [0; 1 # 16]%Q) false)) = [1 # 16; 7 # 16; 13 # 16; 3 # 16; 9 # 16; 15 # 16; 5 # 16; 11 # 16]%Q.
Proof. split; [apply bezout_rel_prime; exists 3 (-1); reflexivity|vm_compute; reflexivity]. Qed.
