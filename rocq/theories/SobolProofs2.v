From Coq Require Import NArith ZArith QArith List Bool Lia.
From Verif Require Import SobolModel SobolSpec SobolProofs.
Import ListNotations.
Open Scope N_scope.

(** direction numbers satisfy their recurrence *)
Lemma step_prefix a deg m x : (0 < deg <= length m)%nat ->
  direction_step a deg m = N.lxor (nth (length m - deg) (m ++ x) 0)
    (xsum (fun i => if N.testbit a (N.of_nat i) then N.shiftl (nth (length m - deg + i) (m ++ x) 0) (N.of_nat (deg - i)) else 0) deg).
Proof.
  intros H. rewrite step_xsum. rewrite app_nth1 by lia. f_equal. apply xsum_ext. intros i I. rewrite app_nth1 by lia. reflexivity.
Qed.
Lemma extend_prefix a deg f : forall m, exists x, direction_extend a deg m f = m ++ x.
Proof.
  induction f as [|f IH]; intros m; [exists []; cbn; rewrite app_nil_r; reflexivity|]. cbn [direction_extend]. destruct (IH (m ++ [direction_step a deg m])) as (x & ->).
  exists ([direction_step a deg m] ++ x). rewrite app_assoc. reflexivity.
Qed.
Definition recur (a : N) (deg : nat) (m : list N) (j : nat) : N :=
  N.lxor (nth (j - deg) m 0) (xsum (fun i => if N.testbit a (N.of_nat i) then N.shiftl (nth (j - deg + i) m 0) (N.of_nat (deg - i)) else 0) deg).
Lemma extend_recur a deg f : forall m j, (0 < deg <= length m)%nat -> (length m <= j < length m + f)%nat ->
  nth j (direction_extend a deg m f) 0 = recur a deg (direction_extend a deg m f) j.
Proof.
  induction f as [|f IH]; intros m j DL J; [lia|]. cbn [direction_extend]. destruct (Nat.eq_dec j (length m)) as [->|NE].
  - destruct (extend_prefix a deg f (m ++ [direction_step a deg m])) as (x & E). rewrite E. rewrite app_nth1 by (rewrite app_length; cbn; lia). rewrite app_nth2, Nat.sub_diag by lia. cbn [nth].
    rewrite <- app_assoc. apply step_prefix. assumption.
  - apply IH; rewrite app_length; cbn; lia.
Qed.
Lemma row_recur a init j : admissible (a, init) -> (degree a <= j < 32)%nat -> nth j (direction_row a init) 0 = recur a (degree a) (direction_row a init) j.
Proof. intros A J. destruct (admissible_good a init A) as (_ & P & L). apply extend_recur; lia. Qed.
Lemma row_init a init j : admissible (a, init) -> (j < degree a)%nat -> nth j (direction_row a init) 0 = nth j init 0.
Proof.
  intros A J. destruct (admissible_good a init A) as (_ & P & L). unfold direction_row. destruct (extend_prefix a (degree a) (32 - degree a) (firstn (degree a) init)) as (x & ->).
  rewrite app_nth1 by lia. apply nth_firstn_lt. assumption.
Qed.

Section Matrix.
Variables (a : N) (init : list N) (L D : nat).
Hypothesis A : admissible (a, init).
Hypothesis LD : (L <= D)%nat.
Hypothesis L32 : (L <= 32)%nat.
Let deg := degree a.
Let row := direction_row a init.
Let v (j : nat) : N := N.shiftl (nth j row 0) (N.of_nat (D - 1 - j)).
Let initial (j : nat) : N := N.shiftl (nth j init 0) (N.of_nat (D - 1 - j)).

(** entry [idx] once columns below [c] have been processed *)
Definition part (c idx : nat) : N :=
  if (idx <? deg)%nat || (c + deg <=? idx)%nat then initial idx
  else N.lxor (N.shiftr (v (idx - deg)) (N.of_nat deg))
         (xsum (fun i => if N.testbit a (N.of_nat i) then v (idx - deg + i) else 0) (Nat.min deg (c + deg - idx))).

Lemma part_final c idx : (idx <= c)%nat -> (idx < L)%nat -> part c idx = v idx.
Proof.
  intros C I. destruct (admissible_good a init A) as (_ & P & _). fold deg in P. unfold part. destruct (Nat.ltb_spec idx deg).
  - cbn [orb]. unfold initial, v, row. rewrite row_init by (try assumption; lia). reflexivity.
  - destruct (Nat.leb_spec (c + deg) idx); [lia|]. cbn [orb]. unfold v at 3. unfold row. rewrite row_recur by (try assumption; fold deg; lia). fold row. fold deg. unfold recur. rewrite N.shiftl_lxor. f_equal.
    + unfold v. rewrite N.shiftr_shiftl_l by lia. f_equal. lia.
    + rewrite shiftl_xsum. rewrite Nat.min_l by lia. apply xsum_ext. intros i Hi. destruct (N.testbit a (N.of_nat i)); [|rewrite N.shiftl_0_l; reflexivity].
      unfold v. rewrite N.shiftl_shiftl. f_equal. lia.
Qed.
Lemma update_part c M : (S c < L)%nat -> length M = L -> (forall idx, (idx < L)%nat -> nth idx M 0 = part c idx) ->
  length (matrix_update a deg c M) = L /\ forall idx, (idx < L)%nat -> nth idx (matrix_update a deg c M) 0 = part (S c) idx.
Proof.
  intros C LM H. destruct (admissible_good a init A) as (_ & P & _). fold deg in P. unfold matrix_update. cbv zeta. split; [rewrite map_length, seq_length; assumption|].
  intros idx I. set (F := fun i => _). rewrite (nth_indep _ 0 (F 0%nat)) by (rewrite map_length, seq_length; lia). rewrite map_nth, seq_nth by lia. unfold F. cbn [Nat.add]. clear F.
  rewrite filter_spec. rewrite (H c ltac:(lia)), (part_final c c) by lia. rewrite (H idx I).
  destruct (Nat.leb_spec (Nat.max deg (c + 1)) idx) as [B1|B1]; [destruct (Nat.leb_spec idx (c + deg)) as [B2|B2]|]; cbn [andb].
  - unfold part. destruct (Nat.ltb_spec idx deg); [lia|]. destruct (Nat.leb_spec (S c + deg) idx); [lia|]. cbn [orb].
    replace (Nat.min deg (S c + deg - idx)) with (S (c + deg - idx)) by lia. cbn [xsum]. replace (idx - deg + (c + deg - idx))%nat with c by lia.
    destruct (Nat.eqb_spec idx (c + deg)) as [->|NE].
    + rewrite Nat.sub_diag. cbn [xsum]. rewrite N.lxor_0_l. replace (c + deg - deg)%nat with c by lia. reflexivity.
    + destruct (Nat.leb_spec (c + deg) idx); [lia|]. rewrite Nat.min_r by lia. apply N.lxor_assoc.
  - unfold part. destruct (Nat.ltb_spec idx deg); [reflexivity|]. destruct (Nat.leb_spec (c + deg) idx); [|lia]. destruct (Nat.leb_spec (S c + deg) idx); [|lia]. reflexivity.
  - unfold part. destruct (Nat.ltb_spec idx deg); [reflexivity|]. cbn [orb]. destruct (Nat.leb_spec (c + deg) idx); [lia|]. destruct (Nat.leb_spec (S c + deg) idx); [lia|]. rewrite !Nat.min_l by lia. reflexivity.
Qed.
Lemma loop_part f : forall c M, (c + f < L)%nat -> length M = L -> (forall idx, (idx < L)%nat -> nth idx M 0 = part c idx) ->
  length (matrix_loop a deg c f M) = L /\ forall idx, (idx < L)%nat -> nth idx (matrix_loop a deg c f M) 0 = part (c + f) idx.
Proof.
  induction f as [|f IH]; intros c M C LM H; [rewrite Nat.add_0_r; split; assumption|]. cbn [matrix_loop]. destruct (update_part c M ltac:(lia) LM H) as (LM' & H').
  destruct (IH (S c) _ ltac:(lia) LM' H') as (G1 & G2). split; [assumption|]. intros idx I. rewrite G2 by assumption. f_equal. lia.
Qed.
Lemma nth_map_seq0 {B} (f : nat -> B) n k d : (k < n)%nat -> nth k (map f (seq 0 n)) d = f k.
Proof. intros K. rewrite (nth_indep _ d (f 0%nat)) by (rewrite map_length, seq_length; assumption). rewrite map_nth, seq_nth by assumption. reflexivity. Qed.
Lemma generating_matrix_entry c : (c < L)%nat -> nth c (generating_matrix a init L D) 0 = v c.
Proof.
  intros C. unfold generating_matrix. cbv zeta. fold deg.
  destruct (loop_part (L - 1) 0 (map (fun i => N.shiftl (nth i (map (fun i0 => nth i0 init 0) (seq 0 L)) 0) (N.of_nat (D - 1 - i))) (seq 0 L))) as (_ & H).
  - lia.
  - rewrite map_length, seq_length. reflexivity.
  - intros idx I. rewrite !nth_map_seq0 by assumption. unfold part. destruct (Nat.ltb_spec idx deg); [reflexivity|]. cbn [Nat.add]. destruct (Nat.leb_spec deg idx); [reflexivity|lia].
  - rewrite H by assumption. apply part_final; lia.
Qed.
Lemma generating_matrix_length : length (generating_matrix a init L D) = L.
Proof.
  unfold generating_matrix. cbv zeta. destruct (Nat.eq_dec L 0) as [E|E]; [rewrite E; reflexivity|].
  destruct (loop_part (L - 1) 0 (map (fun i => N.shiftl (nth i (map (fun i0 => nth i0 init 0) (seq 0 L)) 0) (N.of_nat (D - 1 - i))) (seq 0 L))) as (G & _).
  - lia.
  - rewrite map_length, seq_length. reflexivity.
  - intros idx I. rewrite !nth_map_seq0 by assumption. unfold part. destruct (Nat.ltb_spec idx deg); [reflexivity|]. cbn [Nat.add]. destruct (Nat.leb_spec deg idx); [reflexivity|lia].
  - exact G.
Qed.
End Matrix.

(** the two Sobol implementations use the same columns *)
Lemma matrices_columns dim L D data k c : Forall admissible data -> (k < dim <= S (length data))%nat -> (L <= D)%nat -> (L <= 32)%nat -> (c < L)%nat ->
  nth c (nth k (sobol_generating_matrices dim D L data) []) 0 = N.shiftl (nth c (nth k (compute_direction_numbers dim data) []) 0) (N.of_nat (D - 1 - c)).
Proof.
  intros AD K LD L32 C. unfold sobol_generating_matrices, compute_direction_numbers. destruct k as [|k]; cbn [nth].
  - unfold identity_matrix. rewrite nth_map_seq0 by assumption. rewrite (nth_indep _ 0 1) by (rewrite repeat_length; lia). rewrite nth_repeat. reflexivity.
  - rewrite !nth_map_seq0 by lia. destruct (nth k data (0, [])) as (a, init) eqn:E. assert (A : admissible (a, init)) by (rewrite <- E; apply Forall_nth; [assumption|lia]).
    apply (generating_matrix_entry a init L D A LD L32 c C).
Qed.

(** digital nets *)
Lemma digital_net_int_net M L s i : digital_net_int M L s i = N.lxor s (net (fun j => nth j M 0) L i).
Proof.
  unfold digital_net_int, net. rewrite (xsum_fold (fun j => filter_tensor (nth j M 0) i j)). f_equal. rewrite fold_xsum. apply xsum_ext. intros j _. apply filter_spec.
Qed.

(** scrambling *)
Definition scr (s : list N) (D : nat) (g : N) : N := xsum (fun k => if N.testbit g (N.of_nat (D - 1 - k)) then N.shiftr (nth k s 0) (N.of_nat k) else 0) D.
Lemma scramble_scr s D g : scramble_column s D g = scr s D g.
Proof. unfold scramble_column, scr. rewrite fold_xsum. apply xsum_ext. intros j _. apply filter_spec. Qed.
Lemma scr_lxor s D g h : scr s D (N.lxor g h) = N.lxor (scr s D g) (scr s D h).
Proof.
  unfold scr. rewrite <- xsum_lxor. apply xsum_ext. intros k _. rewrite N.lxor_spec. destruct (N.testbit g _), (N.testbit h _); cbn; rewrite ?N.lxor_0_l, ?N.lxor_0_r, ?N.lxor_nilpotent; reflexivity.
Qed.
Lemma scr_0 s D : scr s D 0 = 0.
Proof. unfold scr. generalize D at 2. induction D0; cbn [xsum]; [reflexivity|]. rewrite IHD0, N.bits_0. reflexivity. Qed.
Lemma scr_net s D v L i : net (fun j => scr s D (v j)) L i = scr s D (net v L i).
Proof.
  unfold net. induction L; cbn [xsum]; [symmetry; apply scr_0|]. rewrite IHL, scr_lxor. f_equal. destruct (N.testbit i _); [reflexivity|symmetry; apply scr_0].
Qed.
(** matrices drawn by random_scrambling_matrices: every column in [2^(D-1), 2^D) *)
Definition unit_scrambling (s : list N) (D : nat) : Prop := length s = D /\ forall k, (k < D)%nat -> 2 ^ N.of_nat (D - 1) <= nth k s 0 < 2 ^ N.of_nat D.
Lemma shiftr_lt x D k : x < 2 ^ N.of_nat D -> (k <= D)%nat -> N.shiftr x (N.of_nat k) < 2 ^ N.of_nat (D - k).
Proof.
  intros X K. rewrite N.shiftr_div_pow2. apply N.div_lt_upper_bound; [apply N.pow_nonzero; lia|]. rewrite <- N.pow_add_r. replace (N.of_nat k + N.of_nat (D - k)) with (N.of_nat D) by lia. assumption.
Qed.
Lemma top_bit x D : (0 < D)%nat -> 2 ^ N.of_nat (D - 1) <= x < 2 ^ N.of_nat D -> N.testbit x (N.of_nat (D - 1)) = true.
Proof.
  intros P (A & B). pose proof (N.pow_nonzero 2 (N.of_nat (D - 1))). assert (N.log2 x = N.of_nat (D - 1)).
  { apply N.log2_unique; [lia|]. replace (N.succ (N.of_nat (D - 1))) with (N.of_nat D) by lia. split; assumption. }
  rewrite <- H0. apply N.bit_log2. lia.
Qed.
Lemma scr_high s D g : unit_scrambling s D -> 0 < g < 2 ^ N.of_nat D -> N.testbit (scr s D g) (N.log2 g) = true.
Proof.
  intros (LS & U) (G0 & G1). set (h := N.log2 g). assert (H : h < N.of_nat D) by (apply N.log2_lt_pow2; assumption). set (k := (D - 1 - N.to_nat h)%nat).
  unfold scr. apply (xsum_bit_single _ _ _ k); [lia| |].
  - replace (N.of_nat (D - 1 - k)) with h by lia. unfold h at 1. rewrite N.bit_log2 by lia. rewrite N.shiftr_spec by lia. replace (h + N.of_nat k) with (N.of_nat (D - 1)) by lia. apply top_bit; [lia|]. apply U. lia.
  - intros j J NE. destruct (N.testbit g (N.of_nat (D - 1 - j))) eqn:B; [|apply N.bits_0].
    assert (k < j)%nat. { destruct (Nat.lt_ge_cases k j); [assumption|]. rewrite N.bits_above_log2 in B by (fold h; lia). discriminate. }
    apply (proj1 (lt_pow2_bits _ (N.of_nat (D - j)))); [|lia]. apply shiftr_lt; [apply U; assumption|lia].
Qed.
Lemma scr_lt s D g : unit_scrambling s D -> scr s D g < 2 ^ N.of_nat D.
Proof.
  intros (_ & U). apply xsum_lt. intros k K. destruct (N.testbit g _); [|pose proof (N.pow_nonzero 2 (N.of_nat D)); lia].
  eapply N.lt_le_trans; [apply (shiftr_lt _ D); [apply U; assumption|lia]|]. apply N.pow_le_mono_r; lia.
Qed.
Lemma regular_ext v w L D : (forall j, (j < L)%nat -> v j = w j) -> regular v L D -> regular w L D.
Proof.
  intros E (LD & B & RG). split; [assumption|]. split; [intros; rewrite <- E by assumption; auto|]. intros m d M DD. replace (net w L d) with (net v L d); [auto|]. apply xsum_ext. intros j J. rewrite E by assumption. reflexivity.
Qed.
Lemma regular_scramble v L D s : regular v L D -> unit_scrambling s D -> regular (fun j => scr s D (v j)) L D.
Proof.
  intros (LD & B & RG) U. split; [assumption|]. split; [intros; apply scr_lt; assumption|]. intros m d M DD. rewrite scr_net. specialize (RG m d M DD). set (x := net v L d) in *.
  assert (X : x < 2 ^ N.of_nat D) by (apply net_lt; assumption).
  assert (HX : 2 ^ N.of_nat (D - m) <= x).
  { destruct (N.lt_ge_cases x (2 ^ N.of_nat (D - m))); [|assumption]. exfalso. apply RG. rewrite N.shiftr_div_pow2. apply N.div_small. assumption. }
  pose proof (N.pow_nonzero 2 (N.of_nat (D - m))) as PN. assert (LX : N.of_nat (D - m) <= N.log2 x) by (apply N.log2_le_pow2; lia).
  apply (shiftr_nonzero _ _ (N.log2 x - N.of_nat (D - m))). replace (N.log2 x - N.of_nat (D - m) + N.of_nat (D - m)) with (N.log2 x) by lia. apply scr_high; [assumption|lia].
Qed.

Lemma sobol_matrix_regular dim L D data k : Forall admissible data -> (k < dim <= S (length data))%nat -> (L <= D)%nat -> (L <= 32)%nat ->
  regular (fun j => nth j (nth k (sobol_generating_matrices dim D L data) []) 0) L D.
Proof.
  intros AD K LD L32. destruct (rows_good dim data k AD K) as (G & LR). apply (regular_ext (fun j => N.shiftl (nth j (nth k (compute_direction_numbers dim data) []) 0) (N.of_nat (D - 1 - j)))).
  - intros j J. rewrite matrices_columns by assumption. reflexivity.
  - apply triangular_regular, good_triangular; [assumption|assumption|lia].
Qed.

(** the points of a digital net whose matrix is regular *)
Definition shift_of (o : option N) : N := match o with None => 0 | Some s => s end.
Definition scramble_of (M : list N) (o : option (list N)) (D : nat) : list N := match o with None => M | Some s => scramble_generating_matrix M s D end.
Lemma digital_points M n D so sh : digital_net_sample M n D None so sh false = map (fun r => to_unit D (N.lxor (shift_of sh) (net (fun j => nth j (scramble_of M so D) 0) (log_num n) (N.of_nat r)))) (seq 0 n).
Proof.
  unfold digital_net_sample. cbv zeta. rewrite map_map. apply map_ext. intros r. fold (shift_of sh) (scramble_of M so D). rewrite digital_net_int_net. reflexivity.
Qed.
Lemma log_num_le n m : (2 ^ m <= n)%nat -> (m <= log_num n)%nat.
Proof.
  intros H. unfold log_num. assert (N.of_nat m <= N.log2_up (N.of_nat n)); [|lia]. rewrite <- (N.log2_up_pow2 (N.of_nat m)) by lia. apply N.log2_up_le_mono.
  change 2 with (N.of_nat 2). rewrite <- Nat2N.inj_pow. lia.
Qed.
Lemma scramble_regular M n D so : length M = log_num n -> regular (fun j => nth j M 0) (log_num n) D -> (forall s, so = Some s -> unit_scrambling s D) ->
  regular (fun j => nth j (scramble_of M so D) 0) (log_num n) D.
Proof.
  intros LM RG U. destruct so as [s|]; [|exact RG]. cbn [scramble_of]. apply (regular_ext (fun j => scr s D (nth j M 0))).
  - intros j J. unfold scramble_generating_matrix. rewrite (nth_indep (map (scramble_column s D) M) 0 (scramble_column s D 0)) by (rewrite map_length; lia). rewrite map_nth, scramble_scr. reflexivity.
  - apply regular_scramble; [assumption|auto].
Qed.
Lemma digital_net_cells M n D so sh m k0 : length M = log_num n -> regular (fun j => nth j M 0) (log_num n) D -> (forall s, so = Some s -> unit_scrambling s D) ->
  (forall s, sh = Some s -> s < 2 ^ N.of_nat D) -> (k0 mod 2 ^ m = 0)%nat -> (k0 + 2 ^ m <= n)%nat ->
  one_per_cell (pow2 m) (firstn (2 ^ m) (skipn k0 (digital_net_sample M n D None so sh false))).
Proof.
  intros LM RG U SH AL KN. assert (P2 : (2 ^ m <> 0)%nat) by (apply Nat.pow_nonzero; lia). rewrite digital_points. rewrite firstn_skipn_map by assumption. apply Nat.div_exact in AL; [|assumption].
  apply (regular_cells (fun j => nth j (scramble_of M so D) 0) (log_num n) D m (shift_of sh) (N.of_nat (k0 / 2 ^ m))).
  - apply scramble_regular; assumption.
  - apply log_num_le. lia.
  - destruct sh as [s|]; cbn; [apply SH; reflexivity|pose proof (N.pow_nonzero 2 (N.of_nat D)); lia].
  - intros r Rr. replace (N.of_nat (k0 + r)) with (N.of_nat (k0 / 2 ^ m) * 2 ^ N.of_nat m + N.of_nat r); [reflexivity|].
    change (2 ^ N.of_nat m) with (N.of_nat 2 ^ N.of_nat m). rewrite <- Nat2N.inj_pow, <- Nat2N.inj_mul. lia.
Qed.
Lemma digital_net_range M n D so sh q : length M = log_num n -> regular (fun j => nth j M 0) (log_num n) D -> (forall s, so = Some s -> unit_scrambling s D) ->
  (forall s, sh = Some s -> s < 2 ^ N.of_nat D) -> In q (digital_net_sample M n D None so sh false) -> (0 <= q /\ q < 1)%Q.
Proof.
  intros LM RG U SH I. rewrite digital_points in I. apply in_map_iff in I as (r & <- & Rr). apply to_unit_range. apply lxor_lt.
  - destruct sh as [s|]; cbn; [apply SH; reflexivity|pose proof (N.pow_nonzero 2 (N.of_nat D)); lia].
  - apply net_lt. apply (scramble_regular M n D so LM RG U).
Qed.
