(** C28: Halton sequences. *)
From Coq Require Import ZArith Znumtheory Zpow_facts QArith List Bool Lia Permutation Sorted.
From Verif Require Import SobolSpec HaltonSpec HaltonData SobolModel HaltonModel HaltonProofs HaltonProofs2.
Import ListNotations.
Open Scope Z_scope.

(** The table of bases holds the first 1000 primes, in order. *)
Theorem C28_prime_table : length primes = 1000%nat /\ StronglySorted Z.lt primes /\ forall p, In p primes <-> prime p /\ p <= 7919.
Proof. split; [reflexivity|]. split; [exact primes_sorted|exact primes_spec]. Qed.
Print Assumptions C28_prime_table.

(** Without randomization, the coordinate of event dimension d at sequence
    index i is the radical inverse of i+1 in the (d+1)-st prime. *)
Theorem C28_radical_inverse : forall dim idx k d, (dim <= 1000)%nat -> (d < dim)%nat -> (k < length idx)%nat ->
  0 <= nth k idx 0 -> nth k idx 0 + 1 <= 2 ^ 24 - 1 ->
  exists q, radical_inverse (nth d primes 0) (nth k idx 0 + 1) q /\ (nth d (nth k (halton_sample dim idx None) []) 0 == q)%Q.
Proof.
  intros dim idx k d D1 D K I0 I1. destruct (sample_coordinate_mirror dim None d D1 D I) as (s & z & _ & _ & _ & _ & _ & HN & HV). destruct (HN eq_refl) as (-> & ->).
  pose proof (base_ge2 d ltac:(lia)) as B2.
  destruct (mirror_id_radical (base d) B2 (size_of d) 0 (nth k idx 0 + 1)) as (q & RI & E).
  { split; [lia|]. apply size_enough; [lia|]. unfold max_index32. lia. }
  exists q. split; [exact RI|]. rewrite HV by assumption. rewrite E. rewrite msum_mirror by assumption. ring.
Qed.
Print Assumptions C28_radical_inverse.

(** All values lie in [0,1), randomized or not; unrandomized ones are positive
    and distinct indices give distinct values in every coordinate. *)
Theorem C28_unit_interval : forall dim idx r k d, (dim <= 1000)%nat -> (d < dim)%nat -> good_randomization dim r -> (k < length idx)%nat ->
  (0 <= nth d (nth k (halton_sample dim idx r) []) 0 /\ nth d (nth k (halton_sample dim idx r) []) 0 < 1)%Q.
Proof.
  intros dim idx r k d D1 D G K. destruct (sample_coordinate_mirror dim r d D1 D G) as (s & z & SB & _ & _ & Z0 & Z1 & _ & HV). rewrite HV by assumption.
  apply msum_range; try assumption. apply base_ge2. lia.
Qed.
Print Assumptions C28_unit_interval.

Theorem C28_distinct : forall dim idx r k k' d, (dim <= 1000)%nat -> (d < dim)%nat -> good_randomization dim r ->
  (k < length idx)%nat -> (k' < length idx)%nat ->
  0 <= nth k idx 0 < 2 ^ 24 - 1 -> 0 <= nth k' idx 0 < 2 ^ 24 - 1 ->
  (nth d (nth k (halton_sample dim idx r) []) 0 == nth d (nth k' (halton_sample dim idx r) []) 0)%Q -> nth k idx 0 = nth k' idx 0.
Proof.
  intros dim idx r k k' d D1 D G K K' I I' E. destruct (sample_coordinate_mirror dim r d D1 D G) as (s & z & SB & SI & _ & Z0 & Z1 & _ & HV). rewrite !HV in E by assumption.
  pose proof (base_ge2 d ltac:(lia)) as B2. set (n := nth k idx 0 + 1) in *. set (n' := nth k' idx 0 + 1) in *.
  assert (EM : mirror (base d) s (size_of d) 0 n = mirror (base d) s (size_of d) 0 n').
  { apply (mirror_cell (base d) B2 s SB (size_of d) n z (size_of d)); [lia|assumption|assumption|]. unfold in_cell. rewrite E. apply (mirror_cell (base d) B2 s SB (size_of d) n' z (size_of d)); [lia|assumption|assumption|reflexivity]. }
  apply mirror_inj in EM; try assumption. rewrite !Z.mod_small in EM; [unfold n, n' in EM; lia| |].
  - split; [unfold n'; lia|]. apply size_enough; [lia|]. unfold n', max_index32. lia.
  - split; [unfold n; lia|]. apply size_enough; [lia|]. unfold n, max_index32. lia.
Qed.
Print Assumptions C28_distinct.

Theorem C28_positive : forall dim idx k d, (dim <= 1000)%nat -> (d < dim)%nat -> (k < length idx)%nat ->
  0 <= nth k idx 0 < 2 ^ 24 - 1 -> (0 < nth d (nth k (halton_sample dim idx None) []) 0)%Q.
Proof.
  intros dim idx k d D1 D K I.
  destruct (sample_coordinate_mirror dim None d D1 D Logic.I) as (s & z & SB & SI & _ & Z0 & Z1 & HN & HV). rewrite HV by assumption. destruct (HN eq_refl) as (-> & ->).
  pose proof (base_ge2 d ltac:(lia)) as B2. set (n := nth k idx 0 + 1).
  rewrite msum_mirror by assumption. rewrite Qplus_0_r. set (m := mirror _ _ _ _ _). assert (M : 0 <= m) by (apply mirror_bound; assumption).
  assert (m <> 0).
  { intros E. assert (E' : mirror (base d) (fun _ c => c) (size_of d) 0 n = mirror (base d) (fun _ c => c) (size_of d) 0 0).
    { fold m. rewrite E. assert (G : forall j x, mirror (base d) (fun _ c => c) j x 0 = 0) by (induction j as [|j IH]; intros x; [reflexivity|]; cbn [mirror]; rewrite Zmod_0_l, Zdiv_0_l, IH; reflexivity). rewrite G. reflexivity. }
    apply mirror_inj in E'; try assumption. rewrite Zmod_0_l, Z.mod_small in E'; [unfold n in E'; lia|]. split; [unfold n; lia|]. apply size_enough; [lia|]. unfold n, max_index32. lia. }
  pose proof (bpow (base d) B2 (size_of d)). apply Qlt_shift_div_l; [change 0%Q with (inject_Z 0); rewrite <- Zlt_Qlt; assumption|]. rewrite Qmult_0_l. change 0%Q with (inject_Z 0). rewrite <- Zlt_Qlt. lia.
Qed.
Print Assumptions C28_positive.

(** Equidistribution in all dimensions at once: split side d of the unit cube
    into b_d^(k_d) equal parts.  Then of any run of prod_d b_d^(k_d)
    consecutive indices, exactly one point falls into each box. *)
Definition sides (dim : nat) (ks : list nat) : list Z := map (fun d => nth d primes 0 ^ Z.of_nat (nth d ks 0%nat)) (seq 0 dim).
Definition run (i0 n : Z) : list Z := map (fun k => i0 + Z.of_nat k) (seq 0 (Z.to_nat n)).

Lemma nth_sides dim ks d : (d < dim)%nat -> nth d (sides dim ks) 0 = base d ^ Z.of_nat (nth d ks 0%nat).
Proof. intros D. unfold sides. rewrite (nth_map_lt _ (seq 0 dim) d 0 0%nat) by (rewrite seq_length; assumption). rewrite seq_nth by assumption. reflexivity. Qed.
Lemma sides_length dim ks : length (sides dim ks) = dim.
Proof. unfold sides. rewrite map_length, seq_length. reflexivity. Qed.
Lemma FOP_nth (R : Z -> Z -> Prop) l : (forall i j, (i < j < length l)%nat -> R (nth i l 0) (nth j l 0)) -> ForallOrdPairs R l.
Proof.
  induction l as [|x l IH]; intros H; constructor.
  - apply Forall_forall. intros y Y. apply (In_nth _ _ 0) in Y as (k & K & <-). apply (H 0%nat (S k)). cbn. lia.
  - apply IH. intros i j IJ. apply (H (S i) (S j)). cbn. lia.
Qed.
Lemma F2_of_nth {B C} (R : B -> C -> Prop) l l' d d' : length l = length l' -> (forall k, (k < length l)%nat -> R (nth k l d) (nth k l' d')) -> Forall2 R l l'.
Proof.
  revert l'. induction l as [|x l IH]; intros [|y l'] L H; cbn in L; try discriminate; constructor; [apply (H 0%nat); cbn; lia|].
  apply IH; [lia|]. intros k K. apply (H (S k)). cbn. lia.
Qed.
Lemma base_distinct i j : (i < j < 1000)%nat -> base i <> base j.
Proof.
  intros H. assert (G : forall l, StronglySorted Z.lt l -> forall i j, (i < j < length l)%nat -> nth i l 0 < nth j l 0).
  { induction 1 as [|x l SS IH F]; intros a c AC; cbn in AC; [lia|]. destruct c; [lia|]. destruct a; cbn [nth]; [|apply IH; lia]. rewrite Forall_forall in F. apply F, nth_In. lia. }
  pose proof (G primes primes_sorted i j ltac:(rewrite primes_length; lia)). unfold base. lia.
Qed.

Theorem C28_boxes : forall dim ks r i0 cs,
  (dim <= 1000)%nat -> length ks = dim -> good_randomization dim r ->
  0 <= i0 -> i0 + zprod (sides dim ks) <= 2 ^ 24 - 1 ->
  Forall2 (fun side c => 0 <= c < side) (sides dim ks) cs ->
  let points := halton_sample dim (run i0 (zprod (sides dim ks))) r in
  exists k, (k < length points)%nat /\ in_box (map Z.to_pos (sides dim ks)) cs (nth k points []) /\
    forall k', (k' < length points)%nat -> in_box (map Z.to_pos (sides dim ks)) cs (nth k' points []) -> k' = k.
Proof.
  intros dim ks r i0 cs D1 LK G I0 I1 CS points.
  assert (POS : Forall (fun m => 0 < m) (sides dim ks)).
  { apply Forall_forall. intros m M. apply (In_nth _ _ 0) in M as (d & D & <-). rewrite sides_length in D. rewrite nth_sides by assumption. apply bpow. apply base_ge2. lia. }
  assert (COP : ForallOrdPairs rel_prime (sides dim ks)).
  { apply FOP_nth. intros i j IJ. rewrite sides_length in IJ. rewrite !nth_sides by lia. apply rel_prime_Zpower; [lia|lia|]. apply distinct_primes_coprime; [apply base_prime; lia|apply base_prime; lia|apply base_distinct; lia]. }
  pose proof (zprod_pos _ POS) as PP. set (P := zprod (sides dim ks)) in *.
  assert (DIV : forall d, (d < dim)%nat -> nth d (sides dim ks) 0 <= P).
  { intros d D. assert (GD : forall l, Forall (fun m => 0 < m) l -> forall i, (i < length l)%nat -> nth i l 0 <= zprod l).
    { induction 1 as [|x l X F IH]; intros i Hi; cbn in Hi; [lia|]. cbn [zprod]. pose proof (zprod_pos l F). destruct i; cbn [nth]; [nia|]. specialize (IH i ltac:(lia)). nia. }
    apply GD; [assumption|rewrite sides_length; assumption]. }
  (* per dimension: the cell is a residue class *)
  assert (CELL : forall d, (d < dim)%nat -> exists rd, 0 <= rd < nth d (sides dim ks) 0 /\ forall k, (k < Z.to_nat P)%nat ->
     in_cell (Z.to_pos (nth d (sides dim ks) 0)) (nth d cs 0) (nth d (nth k points []) 0%Q) <-> (i0 + Z.of_nat k + 1) mod nth d (sides dim ks) 0 = rd).
  { intros d D. destruct (sample_coordinate_mirror dim r d D1 D G) as (s & z & SB & SI & SS & Z0 & Z1 & _ & HV). pose proof (base_ge2 d ltac:(lia)) as B2.
    pose proof (F2_nth _ _ _ 0 0 d CS ltac:(rewrite sides_length; assumption)) as C. cbv beta in C. pose proof (DIV d D) as DV. rewrite nth_sides in * by assumption. set (kd := nth d ks 0%nat) in *.
    assert (KS : (kd <= size_of d)%nat).
    { destruct (Nat.le_gt_cases kd (size_of d)) as [|GT]; [assumption|]. exfalso. pose proof (size_enough d P ltac:(lia) ltac:(unfold max_index32; lia)). pose proof (Z.pow_le_mono_r (base d) (Z.of_nat (size_of d)) (Z.of_nat kd) ltac:(lia) ltac:(lia)). lia. }
    destruct (mirror_residue (base d) B2 s SB SI SS kd (nth d cs 0) C) as (rd & RB & RR). exists rd. split; [assumption|]. intros k K.
    assert (NK : nth k (run i0 P) 0 = i0 + Z.of_nat k). { unfold run. rewrite (nth_map_lt _ (seq 0 (Z.to_nat P)) k 0 0%nat) by (rewrite seq_length; assumption). rewrite seq_nth by assumption. reflexivity. }
    assert (LR : (k < length (run i0 P))%nat) by (unfold run; rewrite map_length, seq_length; assumption).
    unfold in_cell. unfold points. rewrite (HV (run i0 P) k LR), NK. rewrite <- RR.
    apply (mirror_cell (base d) B2 s SB (size_of d) (i0 + Z.of_nat k + 1) z kd (nth d cs 0) KS Z0 Z1). }
  assert (RS : exists rs, length rs = dim /\ (forall d, (d < dim)%nat -> 0 <= nth d rs 0 < nth d (sides dim ks) 0 /\ forall k, (k < Z.to_nat P)%nat ->
     in_cell (Z.to_pos (nth d (sides dim ks) 0)) (nth d cs 0) (nth d (nth k points []) 0%Q) <-> (i0 + Z.of_nat k + 1) mod nth d (sides dim ks) 0 = nth d rs 0)).
  { clear - CELL. assert (GE : forall m, (m <= dim)%nat -> exists rs, length rs = m /\ (forall d, (d < m)%nat -> 0 <= nth d rs 0 < nth d (sides dim ks) 0 /\ forall k, (k < Z.to_nat P)%nat ->
     in_cell (Z.to_pos (nth d (sides dim ks) 0)) (nth d cs 0) (nth d (nth k points []) 0%Q) <-> (i0 + Z.of_nat k + 1) mod nth d (sides dim ks) 0 = nth d rs 0)).
    { induction m as [|m IH]; intros M; [exists []; split; [reflexivity|intros; lia]|]. destruct (IH ltac:(lia)) as (rs & L & H). destruct (CELL m ltac:(lia)) as (rd & RB & RR).
      exists (rs ++ [rd]). split; [rewrite app_length, L; cbn; lia|]. intros d D. destruct (Nat.eq_dec d m) as [->|NE].
      - rewrite app_nth2, L, Nat.sub_diag by lia. cbn [nth]. split; assumption.
      - rewrite app_nth1 by lia. apply H. lia. }
    apply (GE dim). lia. }
  destruct RS as (rs & LR & RS).
  destruct (crt (sides dim ks) POS COP rs) as (R & RB & RC).
  { rewrite sides_length. assumption. }
  { apply (F2_of_nth _ _ _ 0 0); [rewrite sides_length; auto|]. intros k K. rewrite sides_length in K. apply RS. assumption. }
  fold P in RB, RC.
  assert (LP : length points = Z.to_nat P) by (unfold points, halton_sample; cbv zeta; rewrite map_length; unfold run; rewrite map_length, seq_length; reflexivity).
  assert (BOX : forall k, (k < Z.to_nat P)%nat -> in_box (map Z.to_pos (sides dim ks)) cs (nth k points []) <-> (i0 + 1 + Z.of_nat k) mod P = R).
  { intros k K. rewrite <- RC. unfold in_box. rewrite map_length, sides_length. split.
    - intros H. apply (F2_of_nth _ _ _ 0 0); [rewrite sides_length; auto|]. intros d D. rewrite sides_length in D. replace (i0 + 1 + Z.of_nat k) with (i0 + Z.of_nat k + 1) by ring. apply (RS d D); [assumption|].
      specialize (H d D). rewrite (nth_map_lt Z.to_pos _ d 1%positive 0) in H by (rewrite sides_length; assumption). exact H.
    - intros H d D. rewrite (nth_map_lt Z.to_pos _ d 1%positive 0) by (rewrite sides_length; assumption). apply (RS d D); [assumption|]. replace (i0 + Z.of_nat k + 1) with (i0 + 1 + Z.of_nat k) by ring.
      apply (F2_nth _ _ _ 0 0 d H). rewrite sides_length. assumption. }
  destruct (residue_in_run P R (i0 + 1) RB) as (k & K & E & U). exists (Z.to_nat k). rewrite LP. split; [lia|]. split.
  - apply BOX; [lia|]. rewrite Z2Nat.id by lia. assumption.
  - intros k' K' H. apply BOX in H; [|assumption]. assert (Z.of_nat k' = k); [|lia]. apply U; [lia|assumption].
Qed.
Print Assumptions C28_boxes.

(** Non-vacuity: the first points, and a concrete randomization. *)
Example C28_ex : map (map Qred) (halton_sample 2 [0; 1; 2; 3; 4] None) = [[1 # 2; 1 # 3]; [1 # 4; 2 # 3]; [3 # 4; 1 # 9]; [1 # 8; 4 # 9]; [5 # 8; 7 # 9]]%Q.
Proof. vm_compute. reflexivity. Qed.
Example C28_radical_ex : radical_inverse 3 5 ((inject_Z 2 + ((inject_Z 1 + 0) / inject_Z 3)) / inject_Z 3).
Proof. apply (ri_digit 3 1 _ 2); [lia|]. apply (ri_digit 3 0 _ 1); [lia|]. constructor. Qed.
Definition ex_table : list (list (list Z)) := repeat [[1; 0]; [2; 0; 1]] 24.
Example C28_randomization_ex : good_randomization 2 (Some (flatten_perms ex_table, [1 # 2 ^ 30; 1 # 3 ^ 20])) /\
  Forall2 (fun side c => 0 <= c < side) (sides 2 [2; 1]%nat) [3; 1] /\ zprod (sides 2 [2; 1]%nat) = 12 /\
  nth 0 (nth 4 (halton_sample 2 [0; 1; 2; 3; 4] (Some (flatten_perms ex_table, [1 # 2 ^ 30; 1 # 3 ^ 20])) ) []) 0%Q == (3 # 8) + (1 # 2 ^ 30) - (1 # 2 ^ 24).
Proof.
  split; [|split; [|split]].
  - split.
    + exists ex_table. split; [reflexivity|]. split; [reflexivity|]. apply Forall_forall. intros row Rw. apply repeat_spec in Rw as ->. repeat constructor.
      apply (perm_trans (l' := [0; 2; 1])); repeat constructor.
    + intros d D. destruct d as [|[|d]]; [| |lia]; vm_compute; split; congruence.
  - repeat constructor; vm_compute; congruence.
  - reflexivity.
  - vm_compute. reflexivity.
Qed.
