From Coq Require Import ZArith Znumtheory Zpow_facts QArith Qround List Bool Lia Permutation Sorted.
From Verif Require Import SobolSpec HaltonSpec HaltonData SobolModel HaltonModel HaltonProofs.
Import ListNotations.
Open Scope Z_scope.

Lemma nth_map_lt {A B} (f : A -> B) l k d e : (k < length l)%nat -> nth k (map f l) d = f (nth k l e).
Proof. intros K. rewrite (nth_indep _ d (f e)) by (rewrite map_length; assumption). apply map_nth. Qed.

(** digits *)
Lemma base_digits_spec base : 2 <= base -> forall f num, 1 <= num < 2 ^ Z.of_nat f ->
  (0 < base_digits f num base)%nat /\ base ^ (Z.of_nat (base_digits f num base) - 1) <= num < base ^ Z.of_nat (base_digits f num base).
Proof.
  intros B. induction f as [|f IH]; intros num H; [cbn in H; lia|]. cbn [base_digits]. destruct (Z.ltb_spec num base).
  - cbn [Z.of_nat Pos.of_succ_nat]. rewrite Z.pow_1_r. cbn [Z.sub Z.pos_sub Z.add Z.opp]. rewrite Z.pow_0_r. lia.
  - assert (H' : 1 <= num / base < 2 ^ Z.of_nat f).
    { split; [apply Z.div_le_lower_bound; lia|]. apply Z.div_lt_upper_bound; [lia|]. rewrite Nat2Z.inj_succ, Z.pow_succ_r in H by lia. nia. }
    destruct (IH _ H') as (P & L & U). set (k := base_digits f (num / base) base) in *. split; [lia|].
    assert (E : base ^ (Z.of_nat (S k) - 1) = base * base ^ (Z.of_nat k - 1)). { rewrite <- Z.pow_succ_r by lia. f_equal. lia. }
    assert (E2 : base ^ Z.of_nat (S k) = base * base ^ Z.of_nat k). { rewrite <- Z.pow_succ_r by lia. f_equal. lia. }
    rewrite E, E2. pose proof (Z.div_mod num base ltac:(lia)). pose proof (Z.mod_pos_bound num base ltac:(lia)). split; nia.
Qed.
Lemma expansion_size num base : 2 <= base -> 1 <= num -> let k := base_expansion_size num base in (0 < k)%nat /\ base ^ (Z.of_nat k - 1) <= num < base ^ Z.of_nat k.
Proof.
  intros B Nu. apply base_digits_spec; [assumption|]. split; [assumption|]. pose proof (Z.log2_nonneg num). rewrite Z2Nat.id by lia. pose proof (Z.log2_spec num ltac:(lia)). rewrite Z.add_1_r. lia.
Qed.

(** the sums of the code *)
Lemma coeff_low b size n k : (k < size)%nat -> coeff b size n k = n / b ^ Z.of_nat k mod b.
Proof. intros K. unfold coeff, weight. replace (Nat.leb size k) with false by (symmetry; apply Nat.leb_gt; assumption). cbv zeta iota. rewrite Z.mul_1_r. reflexivity. Qed.
Lemma weight_low b size k : (k < size)%nat -> weight b size k = b ^ Z.of_nat k.
Proof. intros K. unfold weight. replace (Nat.leb size k) with false by (symmetry; apply Nat.leb_gt; assumption). reflexivity. Qed.
Lemma Qsum_zero {A} (f : A -> Q) l : (forall x, In x l -> f x == 0)%Q -> (Qsum (map f l) == 0)%Q.
Proof. intros H. unfold Qsum. induction l as [|x l IH]; cbn [map fold_right]; [reflexivity|]. rewrite (H x) by (left; reflexivity). rewrite IH by (intros; apply H; right; assumption). reflexivity. Qed.
Lemma tail_drop (f : nat -> Q) size max_size : (size <= max_size)%nat -> (forall k, (size <= k)%nat -> f k == 0)%Q -> (Qsum (map f (seq 0 max_size)) == Qsum (map f (seq 0 size)))%Q.
Proof.
  intros L H. replace max_size with (size + (max_size - size))%nat by lia. rewrite seq_app, map_app, Qsum_app. rewrite (Qsum_zero f (seq (0 + size) _)); [ring|]. intros k K. apply in_seq in K. apply H. lia.
Qed.
Lemma halton_value_msum b size max_size n : 2 <= b -> (size <= max_size)%nat -> (halton_value b size max_size n == msum b (fun _ d => d) size n 0)%Q.
Proof.
  intros B L. unfold halton_value. rewrite (tail_drop _ size max_size L).
  - apply Qsum_ext. intros k K. apply in_seq in K. rewrite coeff_low, weight_low by lia. reflexivity.
  - intros k K. unfold coeff. replace (Nat.leb size k) with true by (symmetry; apply Nat.leb_le; assumption). cbv zeta iota. rewrite Z.mul_0_r, Z.mod_0_l by lia. reflexivity.
Qed.
Lemma halton_randomized_msum perms radixes d z b size max_size n s : 2 <= b -> (size <= max_size)%nat ->
  (forall k c, (k < size)%nat -> 0 <= c < b -> s k c = randomize perms radixes d k c) ->
  (halton_randomized perms radixes d z b size max_size n == msum b s size n 0 + z)%Q.
Proof.
  intros B L HS. unfold halton_randomized. cbv zeta. rewrite (tail_drop _ size max_size L).
  - apply Qplus_comp; [|reflexivity]. apply Qsum_ext. intros k K. apply in_seq in K. rewrite coeff_low, weight_low by lia. replace (Nat.leb size k) with false by (symmetry; apply Nat.leb_gt; lia). rewrite Z.mul_1_r. rewrite HS; [reflexivity|lia|apply Z.mod_pos_bound; lia].
  - intros k K. replace (Nat.leb size k) with true by (symmetry; apply Nat.leb_le; assumption). rewrite Z.mul_0_r. reflexivity.
Qed.

(** the flattened permutation table *)
Lemma nth_concat_row (lens : list Z) (row : list (list Z)) : Forall2 (fun b l => Z.of_nat (length l) = b) lens row ->
  forall d c, (d < length row)%nat -> (c < length (nth d row []))%nat -> nth (Z.to_nat (Z.of_nat c + fold_right Z.add 0 (firstn d lens))) (concat row) 0 = nth c (nth d row []) 0.
Proof.
  induction 1 as [|b l lens row E F IH]; intros d c D C; [cbn in D; lia|]. destruct d as [|d].
  - cbn [firstn fold_right nth concat] in *. rewrite Z.add_0_r, Nat2Z.id. apply app_nth1. assumption.
  - cbn [firstn fold_right nth concat length] in *. assert (P : 0 <= fold_right Z.add 0 (firstn d lens)).
    { clear - F. revert d. induction F; intros [|d]; cbn; try lia. specialize (IHF d). lia. }
    rewrite app_nth2 by lia. rewrite <- IH by (try assumption; lia). f_equal. lia.
Qed.
Lemma concat_row_length lens row : Forall2 (fun b (l : list Z) => Z.of_nat (length l) = b) lens row -> Z.of_nat (length (concat row)) = fold_right Z.add 0 lens.
Proof. induction 1; cbn; [reflexivity|]. rewrite app_length. lia. Qed.
Lemma nth_concat_rows (rows : list (list Z)) (len : nat) : Forall (fun r => length r = len) rows -> forall k i, (k < length rows)%nat -> (i < len)%nat -> nth (k * len + i) (concat rows) 0 = nth i (nth k rows []) 0.
Proof.
  induction 1 as [|r rows E F IH]; intros k i K I; [cbn in K; lia|]. destruct k as [|k]; cbn [concat nth length] in *.
  - rewrite Nat.mul_0_l, Nat.add_0_l. apply app_nth1. lia.
  - rewrite app_nth2 by nia. rewrite <- IH by lia. f_equal. nia.
Qed.
(** each entry of the table is a permutation of the digits of its base *)
Definition digit_permutation (b : Z) (l : list Z) : Prop := Permutation l (map Z.of_nat (seq 0 (Z.to_nat b))).
Definition permutation_table (radixes : list Z) (P : list (list (list Z))) : Prop :=
  Forall (fun row => Forall2 digit_permutation radixes row) P.
Lemma perm_length b l : 0 <= b -> digit_permutation b l -> Z.of_nat (length l) = b.
Proof. intros B H. apply Permutation_length in H. rewrite map_length, seq_length in H. lia. Qed.
Lemma F2_length {A B} (R : A -> B -> Prop) l l' : Forall2 R l l' -> length l = length l'.
Proof. induction 1; cbn; congruence. Qed.
Lemma F2_nth {A B} (R : A -> B -> Prop) l l' d d' k : Forall2 R l l' -> (k < length l)%nat -> R (nth k l d) (nth k l' d').
Proof. intros F. revert k. induction F; intros [|k] K; cbn in *; try lia; [assumption|]. apply IHF. lia. Qed.
Lemma gather radixes P d k c : Forall (fun b => 0 < b) radixes -> permutation_table radixes P -> (k < length P)%nat -> (d < length radixes)%nat -> 0 <= c < nth d radixes 0 ->
  randomize (flatten_perms P) radixes d k c = nth (Z.to_nat c) (nth d (nth k P []) []) 0.
Proof.
  intros RP PT K D C. unfold randomize, flatten_perms, offset.
  assert (ROW : forall row, In row P -> Forall2 (fun b (l : list Z) => Z.of_nat (length l) = b) radixes row).
  { intros row I. unfold permutation_table in PT. rewrite Forall_forall in PT. specialize (PT row I). clear - PT RP. induction PT; constructor; inversion RP; subst; [apply perm_length; [lia|assumption]|auto]. }
  set (total := fold_right Z.add 0 radixes). assert (T : 0 <= total) by (unfold total; clear - RP; induction RP; cbn; lia).
  assert (KR : Forall2 (fun b (l : list Z) => Z.of_nat (length l) = b) radixes (nth k P [])) by (apply ROW, nth_In; assumption).
  assert (LD : (d < length (nth k P []))%nat) by (rewrite <- (F2_length _ _ _ KR); assumption).
  assert (LC : Z.of_nat (length (nth d (nth k P []) [])) = nth d radixes 0) by (apply (F2_nth _ _ _ 0 [] d KR D)).
  set (off := fold_right Z.add 0 (firstn d radixes)).
  assert (O : 0 <= off /\ off + nth d radixes 0 <= total).
  { unfold off, total. clear - RP D. revert d D. induction RP as [|b l Pb F IH]; intros [|d] D; cbn [length firstn fold_right nth] in *; try lia.
    - assert (0 <= fold_right Z.add 0 l) by (clear - F; induction F; cbn; lia). lia.
    - specialize (IH d ltac:(lia)). lia. }
  replace (Z.to_nat (c + (off + Z.of_nat k * total))) with (k * Z.to_nat total + Z.to_nat (c + off))%nat by nia.
  rewrite (nth_concat_rows _ (Z.to_nat total)); [| |rewrite map_length; assumption|lia].
  - rewrite (nth_map_lt (@concat Z) P k [] []) by assumption. rewrite <- (nth_concat_row radixes (nth k P []) KR d (Z.to_nat c) LD) by lia. fold off. f_equal. lia.
  - apply Forall_map. apply Forall_forall. intros row I. pose proof (concat_row_length _ _ (ROW row I)). fold total in H. lia.
Qed.
Lemma perm_bound b l c : digit_permutation b l -> 0 <= c < b -> 0 <= nth (Z.to_nat c) l 0 < b.
Proof.
  intros H C. pose proof (perm_length b l ltac:(lia) H). assert (I : In (nth (Z.to_nat c) l 0) l) by (apply nth_In; lia). apply (Permutation_in _ H) in I. apply in_map_iff in I as (k & <- & K). apply in_seq in K. lia.
Qed.
Lemma perm_inj b l c c' : digit_permutation b l -> 0 <= c < b -> 0 <= c' < b -> nth (Z.to_nat c) l 0 = nth (Z.to_nat c') l 0 -> c = c'.
Proof.
  intros H C C' E. pose proof (perm_length b l ltac:(lia) H). assert (ND : NoDup l).
  { apply (Permutation_NoDup (Permutation_sym H)). apply FinFun.Injective_map_NoDup; [intros x y; lia|apply seq_NoDup]. }
  assert (Z.to_nat c = Z.to_nat c'); [|lia]. apply (proj1 (NoDup_nth l 0) ND); [lia|lia|assumption].
Qed.
Lemma perm_surj b l e : digit_permutation b l -> 0 <= e < b -> exists c, 0 <= c < b /\ nth (Z.to_nat c) l 0 = e.
Proof.
  intros H E. assert (I : In e l). { apply (Permutation_in _ (Permutation_sym H)). apply in_map_iff. exists (Z.to_nat e). split; [lia|apply in_seq; lia]. }
  pose proof (perm_length b l ltac:(lia) H). apply (In_nth _ _ 0) in I as (k & K & N0). exists (Z.of_nat k). rewrite Nat2Z.id. split; [lia|assumption].
Qed.

(** ** One dimension of the sample *)
Definition base (d : nat) : Z := nth d primes 0.
Definition size_of (d : nat) : nat := base_expansion_size max_index32 (base d).
Definition good_randomization (dim : nat) (r : option (list Z * list Q)) : Prop :=
  match r with
  | None => True
  | Some (perms, zero_correction) =>
      (exists P, perms = flatten_perms P /\ length P = num_coeffs32 /\ permutation_table (firstn dim primes) P) /\
      forall d, (d < dim)%nat -> (0 <= nth d zero_correction 0 /\ nth d zero_correction 0 * inject_Z (base d ^ Z.of_nat (size_of d)) < 1)%Q
  end.
Lemma base_prime d : (d < 1000)%nat -> prime (base d).
Proof. intros D. apply primes_spec. apply nth_In. rewrite primes_length. assumption. Qed.
Lemma base_ge2 d : (d < 1000)%nat -> 2 <= base d.
Proof. intros D. apply prime_ge_2, base_prime. assumption. Qed.
Lemma nth_firstn_lt' {A} (l : list A) : forall n k d, (k < n)%nat -> nth k (firstn n l) d = nth k l d.
Proof. induction l; intros [|n] [|k] d H; try reflexivity; try lia. cbn. apply IHl. lia. Qed.
Lemma sizes_le d : (d < 1000)%nat -> (size_of d <= 24)%nat.
Proof.
  intros D. pose proof (base_ge2 d D). destruct (expansion_size max_index32 (base d) H ltac:(reflexivity || (unfold max_index32; lia))) as (P & L & _). fold (size_of d) in P, L.
  destruct (Nat.le_gt_cases (size_of d) 24) as [|G]; [assumption|]. exfalso. assert (2 ^ 24 <= base d ^ (Z.of_nat (size_of d) - 1)).
  { transitivity (2 ^ (Z.of_nat (size_of d) - 1)); [apply Z.pow_le_mono_r; lia|apply Z.pow_le_mono_l; lia]. }
  unfold max_index32 in L. lia.
Qed.
Lemma size_enough d n : (d < 1000)%nat -> 0 <= n <= max_index32 -> n < base d ^ Z.of_nat (size_of d).
Proof. intros D Nn. pose proof (base_ge2 d D). destruct (expansion_size max_index32 (base d) H ltac:(unfold max_index32; lia)) as (P & _ & U). fold (size_of d) in U. lia. Qed.
Lemma fold_max_ge l x : In x l -> (x <= fold_right Nat.max 0%nat l)%nat.
Proof. induction l as [|y l IH]; intros I; [contradiction|]. cbn. destruct I as [->|I]; [lia|]. specialize (IH I). lia. Qed.

(** Every coordinate of the sample is a mirrored number. *)
Lemma sample_coordinate_mirror dim r d : (dim <= 1000)%nat -> (d < dim)%nat -> good_randomization dim r ->
  exists s z, (forall j c, 0 <= c < base d -> 0 <= s j c < base d) /\
    (forall j c c', 0 <= c < base d -> 0 <= c' < base d -> s j c = s j c' -> c = c') /\
    (forall j e, 0 <= e < base d -> exists c, 0 <= c < base d /\ s j c = e) /\
    (0 <= z)%Q /\ (z * inject_Z (base d ^ Z.of_nat (size_of d)) < 1)%Q /\
    (r = None -> s = (fun (_ : nat) c => c) /\ z = 0%Q) /\
    forall idx k, (k < length idx)%nat -> (nth d (nth k (halton_sample dim idx r) []) 0 == msum (base d) s (size_of d) (nth k idx 0%Z + 1)%Z 0 + z)%Q.
Proof.
  intros D1 DD GR. pose proof (base_ge2 d ltac:(lia)) as B2.
  assert (ENT : forall idx k, (k < length idx)%nat -> nth d (nth k (halton_sample dim idx r) []) 0%Q =
     let radixes := firstn dim primes in let sizes := map (base_expansion_size max_index32) radixes in let max_size := fold_right Nat.max 0%nat sizes in
     match r with None => halton_value (base d) (size_of d) max_size (nth k idx 0 + 1)
     | Some (perms, zc) => halton_randomized perms radixes d (nth d zc 0%Q) (base d) (size_of d) max_size (nth k idx 0 + 1) end).
  { intros idx k K. unfold halton_sample. cbv zeta. rewrite (nth_map_lt _ idx k [] 0) by assumption. rewrite (nth_map_lt _ (seq 0 dim) d 0%Q 0%nat) by (rewrite seq_length; assumption). rewrite seq_nth by assumption. cbn [Nat.add].
    rewrite (nth_map_lt _ (firstn dim primes) d 0%nat 0) by (rewrite firstn_length_le; [assumption|rewrite primes_length; assumption]). rewrite !nth_firstn_lt' by assumption. reflexivity. }
  assert (MX : (size_of d <= fold_right Nat.max 0%nat (map (base_expansion_size max_index32) (firstn dim primes)))%nat).
  { apply fold_max_ge. apply in_map_iff. exists (base d). split; [reflexivity|]. unfold base. rewrite <- (nth_firstn_lt' primes dim d 0 DD). apply nth_In. rewrite firstn_length_le; [assumption|rewrite primes_length; assumption]. }
  destruct r as [(perms, zc)|].
  - destruct GR as ((P & -> & LP & PT) & ZC). destruct (ZC d DD) as (Z0 & Z1).
    set (s := fun (k : nat) (c : Z) => if Nat.ltb k 24 then nth (Z.to_nat c) (nth d (nth k P []) []) 0 else c).
    assert (DP : forall k, (k < 24)%nat -> digit_permutation (base d) (nth d (nth k P []) [])).
    { intros k K. unfold permutation_table in PT. rewrite Forall_forall in PT. assert (I : In (nth k P []) P) by (apply nth_In; rewrite LP; assumption).
      specialize (PT _ I). unfold base. rewrite <- (nth_firstn_lt' primes dim d 0 DD). apply (F2_nth _ _ _ 0 [] d PT). rewrite firstn_length_le; [assumption|rewrite primes_length; assumption]. }
    exists s, (nth d zc 0%Q). split; [|split; [|split; [|split; [assumption|split; [assumption|split; [discriminate|]]]]]].
    + intros j c C. unfold s. destruct (Nat.ltb_spec j 24); [|assumption]. apply perm_bound; [apply DP; assumption|assumption].
    + intros j c c' C C'. unfold s. destruct (Nat.ltb_spec j 24); [|auto]. apply perm_inj with (b := base d); [apply DP; assumption|assumption|assumption].
    + intros j e E. unfold s. destruct (Nat.ltb_spec j 24); [|exists e; auto]. apply perm_surj; [apply DP; assumption|assumption].
    + intros idx k K. rewrite ENT by assumption. cbv zeta iota. apply halton_randomized_msum; [assumption|assumption|].
      intros j c J C. pose proof (sizes_le d ltac:(lia)). unfold s. destruct (Nat.ltb_spec j 24); [|lia]. symmetry. apply gather; [|assumption|rewrite LP; assumption|rewrite firstn_length_le; [assumption|rewrite primes_length; assumption]|rewrite nth_firstn_lt' by assumption; assumption].
      apply Forall_forall. intros x X. assert (In x primes) by (rewrite <- (firstn_skipn dim primes); apply in_or_app; left; assumption). apply primes_spec in H1 as (PR & _). apply prime_ge_2 in PR. lia.
  - exists (fun _ c => c), 0%Q. split; [auto|]. split; [auto|]. split; [intros _ e E; exists e; auto|]. split; [apply Qle_refl|]. split; [rewrite Qmult_0_l; reflexivity|]. split; [auto|].
    intros idx k K. rewrite ENT by assumption. cbv zeta iota. rewrite halton_value_msum by assumption. ring.
Qed.
