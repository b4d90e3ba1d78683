(** C27: Sobol sequences and digital nets. *)
From Coq Require Import NArith ZArith QArith List Bool Lia.
From Verif Require Import SobolModel SobolSpec SobolData SobolProofs SobolProofs2.
Import ListNotations.
Open Scope N_scope.

(** the 2^m cells of a dyadic partition *)
Notation cells m := (N.succ_pos (2 ^ N.of_nat m - 1)).
Example cells_ex : cells 3 = 8%positive. Proof. reflexivity. Qed.

(** Any aligned run of 2^m consecutive points of the sequence (index skip+1+k0
    a multiple of 2^m) puts exactly one value of each coordinate into each
    interval [c/2^m, (c+1)/2^m). *)
Theorem C27_sobol_net : forall data dim num_results skip d m k0,
  Forall admissible data -> (d < dim <= S (length data))%nat -> N.of_nat (skip + num_results + 1) <= 2 ^ 31 ->
  ((skip + 1 + k0) mod 2 ^ m = 0)%nat -> (k0 + 2 ^ m <= num_results)%nat ->
  one_per_cell (cells m) (firstn (2 ^ m) (skipn k0 (coordinate d (sobol_sample dim num_results skip data)))).
Proof. intros. apply sobol_net; assumption. Qed.
Print Assumptions C27_sobol_net.

Theorem C27_unit_interval : forall data dim num_results skip d q,
  Forall admissible data -> (d < dim <= S (length data))%nat -> N.of_nat (skip + num_results + 1) <= 2 ^ 31 ->
  In q (coordinate d (sobol_sample dim num_results skip data)) -> (0 <= q /\ q < 1)%Q.
Proof. intros *. apply sobol_range. Qed.
Print Assumptions C27_unit_interval.

(** Skipping n points returns the sequence from index n on, whatever the two
    sample sizes. *)
Theorem C27_skip : forall data dim num_results num_results' skip d r,
  (d < dim)%nat -> (r < num_results)%nat -> (skip + r < num_results')%nat ->
  (nth r (coordinate d (sobol_sample dim num_results skip data)) 0 == nth (skip + r) (coordinate d (sobol_sample dim num_results' 0 data)) 0)%Q.
Proof. intros. apply sobol_same_index; try assumption. reflexivity. Qed.
Print Assumptions C27_skip.

Lemma admissible_check data :
  forallb (fun '(p, init) => (2 <=? p) && Nat.leb (N.to_nat (N.log2 p)) (length init) &&
      forallb (fun i => N.odd (nth i init 0) && (nth i init 0 <? 2 ^ N.of_nat (S i))) (seq 0 (N.to_nat (N.log2 p)))) data = true -> Forall admissible data.
Proof.
  intros H. apply Forall_forall. intros (p, init) I. rewrite forallb_forall in H. specialize (H _ I). cbn beta iota in H. apply andb_prop in H as (H & G). apply andb_prop in H as (P & L).
  split; [apply N.leb_le; assumption|]. split; [apply Nat.leb_le; assumption|]. intros i Hi. rewrite forallb_forall in G. specialize (G i ltac:(apply in_seq; lia)). apply andb_prop in G as (O & B). split; [assumption|apply N.ltb_lt; assumption].
Qed.
(** The first 250 lines of the shipped table meet the condition. *)
Theorem C27_table_admissible : Forall admissible joe_kuo.
Proof. apply admissible_check. vm_compute. reflexivity. Qed.
Print Assumptions C27_table_admissible.

Example C27_ex : one_per_cell 8 (firstn 8 (skipn 1 (coordinate 4 (sobol_sample 5 10 6 joe_kuo)))) /\
  map Qred (firstn 8 (skipn 1 (coordinate 4 (sobol_sample 5 10 6 joe_kuo)))) = [11 # 16; 3 # 16; 15 # 16; 7 # 16; 9 # 16; 1 # 16; 13 # 16; 5 # 16]%Q.
Proof.
  split; [|vm_compute; reflexivity].
  apply (C27_sobol_net joe_kuo 5 10 6 4 3 1 C27_table_admissible); vm_compute; try (split; repeat constructor); try reflexivity; try discriminate. repeat constructor.
Qed.

(** "The first 2^m points returned" is not such a run: the origin (index 0) is
    left out, and two of the first two points of dimension 2 share a half. *)
Theorem C27_first_points_refuted :
  exists dim num_results d, (d < dim)%nat /\ Forall admissible joe_kuo /\ num_results = (2 ^ 1)%nat /\
    ~ one_per_cell 2 (coordinate d (sobol_sample dim num_results 0 joe_kuo)).
Proof.
  exists 2%nat, 2%nat, 1%nat. split; [lia|]. split; [exact C27_table_admissible|]. split; [reflexivity|]. intros (_ & H). destruct (H 0%Z ltac:(lia)) as (k & K & (C & C') & _).
  vm_compute in K. destruct k as [|[|k]]; [vm_compute in C'; discriminate|vm_compute in C'; discriminate|lia].
Qed.
Print Assumptions C27_first_points_refuted.

(** validate_args rejects the default skip = 0, which the documentation allows *)
Theorem C27_validate_skip_zero_refuted : forall dim num_results, sobol_validate dim num_results 0 = false.
Proof. intros. unfold sobol_validate. destruct (1 <=? dim)%Z, (0 <? num_results)%Z; reflexivity. Qed.
Print Assumptions C27_validate_skip_zero_refuted.

(** Digital nets.  A generating matrix is given by its columns; it is upper
    triangular with non-zero diagonal when column j has digit j+1 (bit
    D-1-j) equal to one and no digit after it.  A digital shift and a
    scrambling drawn in the ranges used by random_digital_shift and
    random_scrambling_matrices keep the net property. *)
Definition upper_triangular (M : list N) (D : nat) : Prop :=
  (length M <= D)%nat /\ forall j, (j < length M)%nat -> nth j M 0 < 2 ^ N.of_nat D /\ N.testbit (nth j M 0) (N.of_nat (D - 1 - j)) = true /\
    forall b, (b < D - 1 - j)%nat -> N.testbit (nth j M 0) (N.of_nat b) = false.
Definition scrambling_ok (bits D : nat) (s : list N) : Prop := length s = D /\ Forall (random_range bits D) s.

Lemma exp2_spec bits v : (v < bits - 1)%nat -> exp2 bits v = 2 ^ N.of_nat v.
Proof. intros H. unfold exp2. destruct (Nat.leb_spec (bits - 1) v); [lia|]. rewrite N.shiftl_1_l. reflexivity. Qed.
Lemma exp2_le bits v : (0 < bits)%nat -> exp2 bits v <= 2 ^ N.of_nat v.
Proof.
  intros P. unfold exp2. destruct (Nat.leb_spec (bits - 1) v); [|rewrite N.shiftl_1_l; lia]. pose proof (N.pow_le_mono_r 2 (N.of_nat (bits - 1)) (N.of_nat v)). lia.
Qed.
Lemma random_range_unit bits D x : (0 < D <= bits - 1)%nat -> random_range bits D x -> 2 ^ N.of_nat (D - 1) <= x < 2 ^ N.of_nat D.
Proof. intros H (A & B). rewrite (exp2_spec bits (D - 1)) in A by lia. pose proof (exp2_le bits D ltac:(lia)). lia. Qed.
Lemma scrambling_unit bits D s : (0 < D <= bits - 1)%nat -> scrambling_ok bits D s -> unit_scrambling s D.
Proof. intros H (L & F). split; [assumption|]. intros k K. apply (random_range_unit bits); [assumption|]. apply Forall_nth; [assumption|lia]. Qed.

Theorem C27_digital_net : forall bits M num_results D scrambling shift m k0,
  (0 < D <= bits - 1)%nat -> upper_triangular M D -> length M = log_num num_results ->
  (forall s, scrambling = Some s -> scrambling_ok bits D s) -> (forall s, shift = Some s -> s < 2 ^ N.of_nat D) ->
  (k0 mod 2 ^ m = 0)%nat -> (k0 + 2 ^ m <= num_results)%nat ->
  one_per_cell (cells m) (firstn (2 ^ m) (skipn k0 (digital_net_sample M num_results D None scrambling shift false))) /\
  forall q, In q (digital_net_sample M num_results D None scrambling shift false) -> (0 <= q /\ q < 1)%Q.
Proof.
  intros bits M n D so sh m k0 HD (LD & T) LM U SH AL KN.
  assert (RG : regular (fun j => nth j M 0) (log_num n) D) by (apply triangular_regular; rewrite <- LM; split; assumption).
  assert (U' : forall s, so = Some s -> unit_scrambling s D) by (intros s E; apply (scrambling_unit bits); auto).
  split; [apply digital_net_cells; assumption|]. intros q. apply digital_net_range; assumption.
Qed.
Print Assumptions C27_digital_net.

Example C27_digital_net_ex : upper_triangular [8; 12; 10; 15] 4 /\ scrambling_ok 32 4 [9; 14; 11; 13] /\ log_num 16 = 4%nat /\
  map Qred (firstn 4 (skipn 4 (digital_net_sample [8; 12; 10; 15] 16 4 None (Some [9; 14; 11; 13]) (Some 6) false))) = [13 # 16; 1 # 4; 3 # 16; 5 # 8]%Q.
Proof.
  split.
  - split; [cbn; lia|]. intros j J. cbn in J. destruct j as [|[|[|[|j]]]]; [..|lia]; (split; [reflexivity|split; [reflexivity|]]); intros b B; destruct b as [|[|[|b]]]; cbn in B; try lia; reflexivity.
  - split; [|split; [reflexivity|vm_compute; reflexivity]]. split; [reflexivity|]. repeat constructor; vm_compute; discriminate.
Qed.

(** qmc.sobol_sample *)
Definition opt_ok {A} (P : A -> Prop) (o : option A) : Prop := match o with None => True | Some x => P x end.
Lemma qmc_coordinate dim n data sh sc d : (d < dim)%nat ->
  coordinate d (qmc_sobol_sample dim n data None sh sc false) =
  digital_net_sample (scramble_of (nth d (sobol_generating_matrices dim (log_num n) (log_num n) data) []) (option_map (fun s => nth d s []) sc) (log_num n)) n (log_num n) None None (option_map (fun s => nth d s 0) sh) false.
Proof.
  intros K. unfold coordinate, qmc_sobol_sample. cbv zeta. set (mats := match sc with None => _ | Some s => _ end). set (cols := map _ (seq 0 dim)).
  assert (C : nth d cols [] = digital_net_sample (nth d mats []) n (log_num n) None None (option_map (fun s => nth d s 0) sh) false) by (unfold cols; rewrite nth_map_seq0 by assumption; reflexivity).
  assert (MT : nth d mats [] = scramble_of (nth d (sobol_generating_matrices dim (log_num n) (log_num n) data) []) (option_map (fun s => nth d s []) sc) (log_num n)).
  { unfold mats. destruct sc as [s|]; [|reflexivity]. rewrite nth_map_seq0 by assumption. reflexivity. }
  rewrite <- MT, <- C. rewrite map_map. assert (LC : length (nth d cols []) = n) by (rewrite C; unfold digital_net_sample; cbv zeta; rewrite map_length, map_length, seq_length; reflexivity).
  apply nth_ext with (d := 0%Q) (d' := 0%Q); [rewrite map_length, seq_length; symmetry; assumption|]. intros r Rr. rewrite map_length, seq_length in Rr. rewrite nth_map_seq0 by assumption.
  rewrite (nth_indep _ 0%Q (nth r [] 0%Q)) by (unfold cols; rewrite !map_length, seq_length; assumption). rewrite (map_nth (fun col => nth r col 0%Q)). reflexivity.
Qed.
Lemma matrices_length dim L D data d : Forall admissible data -> (d < dim <= S (length data))%nat -> (L <= D)%nat -> (L <= 32)%nat -> length (nth d (sobol_generating_matrices dim D L data) []) = L.
Proof.
  intros AD K LD L32. unfold sobol_generating_matrices. destruct d as [|d]; cbn [nth]; [unfold identity_matrix; rewrite map_length, seq_length; reflexivity|].
  rewrite nth_map_seq0 by lia. destruct (nth d data (0, [])) as (a, init) eqn:E. assert (A : admissible (a, init)) by (rewrite <- E; apply Forall_nth; [assumption|lia]).
  apply generating_matrix_length; assumption.
Qed.

Theorem C27_qmc_sobol_net : forall data dim num_results d shift scrambling m k0,
  Forall admissible data -> (d < dim <= S (length data))%nat -> (1 < num_results)%nat -> N.of_nat num_results <= 2 ^ 31 ->
  opt_ok (fun s => forall x, In x s -> x < 2 ^ N.of_nat (log_num num_results)) shift ->
  opt_ok (fun s => length s = dim /\ Forall (scrambling_ok 32 (log_num num_results)) s) scrambling ->
  (k0 mod 2 ^ m = 0)%nat -> (k0 + 2 ^ m <= num_results)%nat ->
  let points := coordinate d (qmc_sobol_sample dim num_results data None shift scrambling false) in
  one_per_cell (cells m) (firstn (2 ^ m) (skipn k0 points)) /\ forall q, In q points -> (0 <= q /\ q < 1)%Q.
Proof.
  intros data dim n d sh sc m k0 AD K N1 N31 SH SC AL KN points. unfold points. rewrite qmc_coordinate by lia. set (D := log_num n) in *.
  assert (D31 : (0 < D <= 31)%nat).
  { unfold D, log_num. pose proof (N.log2_up_pos (N.of_nat n) ltac:(lia)). pose proof (proj1 (N.log2_up_le_pow2 (N.of_nat n) 31 ltac:(lia)) N31). lia. }
  assert (RG : regular (fun j => nth j (nth d (sobol_generating_matrices dim D D data) []) 0) D D) by (apply sobol_matrix_regular; try assumption; lia).
  assert (LM : length (nth d (sobol_generating_matrices dim D D data) []) = D) by (apply matrices_length; try assumption; lia).
  set (so := option_map (fun s => nth d s []) sc).
  assert (U : forall s, so = Some s -> unit_scrambling s D).
  { intros s E. unfold so in E. destruct sc as [l|]; [|discriminate]. cbn in E. injection E as <-. destruct SC as (Ll & F). apply (scrambling_unit 32); [lia|]. apply Forall_nth; [assumption|lia]. }
  assert (RG' := scramble_regular _ n D so LM RG U).
  assert (LM' : length (scramble_of (nth d (sobol_generating_matrices dim D D data) []) so D) = log_num n).
  { destruct so; cbn [scramble_of]; [unfold scramble_generating_matrix; rewrite map_length|]; exact LM. }
  assert (SH' : forall s, option_map (fun s0 => nth d s0 0) sh = Some s -> s < 2 ^ N.of_nat D).
  { intros s E. destruct sh as [l|]; [|discriminate]. cbn in E. injection E as <-. destruct (nth_in_or_default d l 0) as [I| ->]; [apply SH; assumption|]. pose proof (N.pow_nonzero 2 (N.of_nat D)). lia. }
  split.
  - apply digital_net_cells; try assumption. intros s E. discriminate.
  - intros q. apply digital_net_range; try assumption. intros s E. discriminate.
Qed.
Print Assumptions C27_qmc_sobol_net.

(** The two Sobol implementations return the same points: point r of
    random.sobol.sample is point r+1 of qmc.sobol_sample. *)
Theorem C27_implementations_agree : forall data dim n n' d r,
  Forall admissible data -> (d < dim <= S (length data))%nat -> N.of_nat n' <= 2 ^ 31 -> (r < n)%nat -> (S r < n')%nat ->
  (nth r (coordinate d (sobol_sample dim n 0 data)) 0 == nth (S r) (coordinate d (qmc_sobol_sample dim n' data None None None false)) 0)%Q.
Proof.
  intros data dim n n' d r AD K N31 Rn Rn'. rewrite qmc_coordinate by lia. cbn [option_map scramble_of]. rewrite digital_points. cbn [shift_of scramble_of]. rewrite nth_map_seq0 by assumption. rewrite N.lxor_0_l.
  set (D' := log_num n'). assert (D31 : (0 < D' <= 31)%nat).
  { unfold D', log_num. pose proof (N.log2_up_pos (N.of_nat n') ltac:(lia)). pose proof (proj1 (N.log2_up_le_pow2 (N.of_nat n') 31 ltac:(lia)) N31). lia. }
  set (row := nth d (compute_direction_numbers dim data) []).
  replace (net (fun j => nth j (nth d (sobol_generating_matrices dim D' D' data) []) 0) D' (N.of_nat (S r))) with (sobol_int D' row (N.of_nat (S r))).
  - rewrite sample_coordinate by lia. rewrite nth_map_seq0 by assumption. fold row. cbn [Nat.add]. set (D := sobol_num_digits n 0).
    assert (I : N.of_nat (S r) < 2 ^ N.of_nat D) by (pose proof (num_digits_enough n 0 ltac:(lia)); fold D in H; lia).
    assert (I' : N.of_nat (S r) < 2 ^ N.of_nat D'). { unfold D', log_num. rewrite N2Nat.id. pose proof (N.log2_up_spec (N.of_nat n') ltac:(lia)). lia. }
    assert (PZ : forall e, N.of_nat (S r) < 2 ^ N.of_nat e -> (0 < e)%nat) by (intros e He; destruct e; [cbn in He; lia|lia]).
    destruct (Nat.le_ge_cases D D') as [L|L].
    + replace D' with (D' - D + D)%nat by lia. symmetry. apply sobol_value_digits; [apply PZ; assumption|assumption].
    + replace D with (D - D' + D')%nat by lia. apply sobol_value_digits; [apply PZ; assumption|assumption].
  - rewrite sobol_int_net by lia. apply xsum_ext. intros j J. rewrite matrices_columns by (try assumption; lia). reflexivity.
Qed.
Print Assumptions C27_implementations_agree.
Example C27_agree_ex : map Qred (coordinate 2 (sobol_sample 3 7 0 joe_kuo)) = map Qred (tl (coordinate 2 (qmc_sobol_sample 3 8 joe_kuo None None None false))) /\
  map Qred (coordinate 2 (sobol_sample 3 7 0 joe_kuo)) = [1 # 2; 3 # 4; 1 # 4; 3 # 8; 7 # 8; 5 # 8; 1 # 8]%Q.
Proof. split; vm_compute; reflexivity. Qed.

(** The tent transform keeps points in [0,1] ... *)
Theorem C27_tent : forall x, (0 <= x -> x < 1 -> 0 <= tent_transform x /\ tent_transform x <= 1)%Q.
Proof.
  intros x A B. unfold tent_transform. destruct (Qlt_le_dec x (1 # 2)) as [H|H]; destruct x as (n, p); unfold Qle, Qlt, Qmult, Qminus, Qplus, Qopp in *; cbn [Qnum Qden] in *; lia.
Qed.
Print Assumptions C27_tent.
(** ... but not in [0,1): the value one is attained. *)
Theorem C27_tent_half_open_refuted : exists data n, Forall admissible data /\
  In 1%Q (map Qred (coordinate 0 (qmc_sobol_sample 1 n data None None None true))).
Proof. exists [], 4%nat. split; [constructor|]. vm_compute. tauto. Qed.
Print Assumptions C27_tent_half_open_refuted.

(** random_digital_shift draws from [2^(D-1), 2^D) only, so a randomly shifted
    point is not uniform on [0,1): the first point is never below 1/2. *)
Theorem C27_random_shift_uniform_refuted : forall bits M num_results D s,
  (0 < D <= bits - 1)%nat -> (0 < num_results)%nat -> random_range bits D s ->
  (1 # 2 <= nth 0 (digital_net_sample M num_results D None None (Some s) false) 0)%Q.
Proof.
  intros bits M n D s HD P RR. rewrite digital_points. rewrite nth_map_seq0 by assumption. cbn [shift_of N.of_nat]. rewrite net_0, N.lxor_0_r.
  apply (random_range_unit bits) in RR; [|assumption]. rewrite to_unit_frac. unfold Qle. cbn [Qnum Qden]. rewrite pow2_Z.
  destruct RR as (A & _). apply N2Z.inj_le in A. rewrite N2Z.inj_pow in A. replace (Z.of_nat D) with (Z.of_nat (D - 1) + 1)%Z by lia. rewrite Z.pow_add_r by lia. change (Z.of_N 2) with 2%Z in A. rewrite nat_N_Z in A. lia.
Qed.
Print Assumptions C27_random_shift_uniform_refuted.
Example C27_random_range_ex : random_range 32 5 17 /\ ~ random_range 32 5 15. Proof. split; [split; vm_compute; congruence|]. intros (A & _). vm_compute in A. congruence. Qed.
