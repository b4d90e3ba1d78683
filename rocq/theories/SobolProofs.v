From Coq Require Import NArith ZArith QArith List Bool Lia.
From Verif Require Import SobolModel SobolSpec.
Import ListNotations.
Open Scope N_scope.

(** xor of f 0 .. f (n-1) *)
Fixpoint xsum (f : nat -> N) (n : nat) : N :=
  match n with O => 0 | S m => N.lxor (xsum f m) (f m) end.
Lemma xsum_ext f g n : (forall j, (j < n)%nat -> f j = g j) -> xsum f n = xsum g n.
Proof. induction n; intros H; cbn; [reflexivity|]. rewrite IHn by (intros; apply H; lia). rewrite H by lia. reflexivity. Qed.
Lemma xsum_lxor f g n : xsum (fun j => N.lxor (f j) (g j)) n = N.lxor (xsum f n) (xsum g n).
Proof.
  induction n; cbn; [reflexivity|]. rewrite IHn. rewrite !N.lxor_assoc. f_equal. rewrite <- !N.lxor_assoc. f_equal. apply N.lxor_comm.
Qed.
Lemma xsum_bit f n b : N.testbit (xsum f n) b = fold_right xorb false (map (fun j => N.testbit (f j) b) (seq 0 n)).
Proof.
  induction n; [reflexivity|]. cbn [xsum]. rewrite N.lxor_spec, IHn. rewrite seq_S, map_app, fold_right_app. cbn.
  assert (H : forall l x, fold_right xorb (xorb x false) l = xorb (fold_right xorb false l) x).
  { induction l; intros x; cbn; [destruct x; reflexivity|]. rewrite IHl. destruct a, (fold_right xorb false l), x; reflexivity. }
  rewrite H. reflexivity.
Qed.
Lemma xsum_fold {T : Type} (f : T -> N) l acc : fold_left (fun a j => N.lxor a (f j)) l acc = N.lxor acc (fold_left (fun a j => N.lxor a (f j)) l 0).
Proof.
  revert acc. induction l as [|x l IH]; intros acc; cbn; [rewrite N.lxor_0_r; reflexivity|]. rewrite (IH (N.lxor acc (f x))), (IH (f x)). rewrite N.lxor_assoc. reflexivity.
Qed.
Lemma fold_xsum (f : nat -> N) n : fold_left (fun a j => N.lxor a (f j)) (seq 0 n) 0 = xsum f n.
Proof. induction n; [reflexivity|]. rewrite seq_S, fold_left_app, IHn. reflexivity. Qed.
Lemma xsum_bit_zero f n b : (forall j, (j < n)%nat -> N.testbit (f j) b = false) -> N.testbit (xsum f n) b = false.
Proof. induction n; intros H; cbn [xsum]; [apply N.bits_0|]. rewrite N.lxor_spec, IHn by (intros; apply H; lia). rewrite H by lia. reflexivity. Qed.
Lemma xsum_bit_single f n b k : (k < n)%nat -> N.testbit (f k) b = true -> (forall j, (j < n)%nat -> j <> k -> N.testbit (f j) b = false) -> N.testbit (xsum f n) b = true.
Proof.
  induction n; intros K T H; [lia|]. cbn [xsum]. rewrite N.lxor_spec. destruct (Nat.eq_dec k n) as [->|].
  - rewrite T. rewrite xsum_bit_zero; [reflexivity|]. intros; apply H; lia.
  - rewrite IHn; [|lia|assumption|intros; apply H; lia]. rewrite H by lia. reflexivity.
Qed.

Lemma lt_pow2_bits x D : x < 2 ^ D <-> forall b, D <= b -> N.testbit x b = false.
Proof.
  split.
  - intros H b B. destruct (N.eq_dec x 0) as [->|NZ]; [apply N.bits_0|]. apply N.bits_above_log2. apply N.log2_lt_pow2 in H; lia.
  - intros H. destruct (N.eq_dec x 0) as [->|NZ]; [pose proof (N.pow_nonzero 2 D); lia|]. apply N.log2_lt_pow2; [lia|]. destruct (N.lt_ge_cases (N.log2 x) D); [assumption|]. exfalso.
    pose proof (N.bit_log2 x NZ) as B. rewrite H in B by assumption. discriminate.
Qed.
Lemma lxor_lt x y D : x < 2 ^ D -> y < 2 ^ D -> N.lxor x y < 2 ^ D.
Proof. rewrite !lt_pow2_bits. intros A B b H. rewrite N.lxor_spec, A, B by assumption. reflexivity. Qed.
Lemma xsum_lt f n D : (forall j, (j < n)%nat -> f j < 2 ^ D) -> xsum f n < 2 ^ D.
Proof. intros H. apply lt_pow2_bits. intros b B. apply xsum_bit_zero. intros j J. apply (proj1 (lt_pow2_bits (f j) D) (H j J)). assumption. Qed.
Lemma shiftl_xsum f n s : N.shiftl (xsum f n) s = xsum (fun j => N.shiftl (f j) s) n.
Proof. induction n; cbn [xsum]; [apply N.shiftl_0_l|]. rewrite N.shiftl_lxor, IHn. reflexivity. Qed.

(** A digital net coordinate: columns v 0 .. v (L-1), D digits *)
Definition net (v : nat -> N) (L : nat) (i : N) : N := xsum (fun j => if N.testbit i (N.of_nat j) then v j else 0) L.
Lemma net_lxor v L i i' : net v L (N.lxor i i') = N.lxor (net v L i) (net v L i').
Proof.
  unfold net. rewrite <- xsum_lxor. apply xsum_ext. intros j _. rewrite N.lxor_spec. destruct (N.testbit i _), (N.testbit i' _); cbn; rewrite ?N.lxor_0_l, ?N.lxor_0_r, ?N.lxor_nilpotent; reflexivity.
Qed.
Lemma net_0 v L : net v L 0 = 0.
Proof. unfold net. induction L; cbn [xsum]; [reflexivity|]. rewrite IHL. reflexivity. Qed.
Lemma net_lt v L D i : (forall j, (j < L)%nat -> v j < 2 ^ D) -> net v L i < 2 ^ D.
Proof. intros H. apply xsum_lt. intros j J. destruct (N.testbit _ _); [auto|]. pose proof (N.pow_nonzero 2 D). lia. Qed.

(** upper triangular with unit diagonal: column j has bit D-1-j and nothing below *)
Definition triangular (v : nat -> N) (L D : nat) : Prop :=
  (L <= D)%nat /\ forall j, (j < L)%nat -> v j < 2 ^ N.of_nat D /\ N.testbit (v j) (N.of_nat (D - 1 - j)) = true /\
    forall b, (b < D - 1 - j)%nat -> N.testbit (v j) (N.of_nat b) = false.
(** the leading m x m blocks are nonsingular, m <= L *)
Definition regular (v : nat -> N) (L D : nat) : Prop :=
  (L <= D)%nat /\ (forall j, (j < L)%nat -> v j < 2 ^ N.of_nat D) /\
  forall m d, (m <= L)%nat -> 0 < d < 2 ^ N.of_nat m -> N.shiftr (net v L d) (N.of_nat (D - m)) <> 0.

Lemma shiftr_nonzero x s b : N.testbit x (b + s) = true -> N.shiftr x s <> 0.
Proof. intros H E. pose proof (N.shiftr_spec x s b ltac:(lia)) as S. rewrite E, N.bits_0, H in S. discriminate. Qed.
Lemma triangular_regular v L D : triangular v L D -> regular v L D.
Proof.
  intros (LD & T). split; [assumption|]. split; [intros; apply T; assumption|]. intros m d M (D0 & D1).
  set (h := N.log2 d). assert (HM : h < N.of_nat m) by (apply N.log2_lt_pow2; assumption).
  set (k := N.to_nat h). assert (KL : (k < L)%nat) by lia.
  apply (shiftr_nonzero _ _ (N.of_nat (m - 1 - k))).
  replace (N.of_nat (m - 1 - k) + N.of_nat (D - m)) with (N.of_nat (D - 1 - k)) by lia.
  unfold net. apply (xsum_bit_single _ _ _ k KL).
  - replace (N.of_nat k) with h by lia. unfold h at 1. rewrite (N.bit_log2 d) by lia. apply T. assumption.
  - intros j J N0. destruct (N.testbit d (N.of_nat j)) eqn:B; [|apply N.bits_0].
    assert (j < k)%nat. { destruct (Nat.lt_ge_cases j k); [assumption|]. rewrite (N.bits_above_log2 d) in B by (fold h; lia). discriminate. }
    apply T; [assumption|lia].
Qed.

(** equidistribution over aligned blocks of indices *)
Lemma regular_inj v L D m a s i i' : regular v L D -> (m <= L)%nat ->
  a * 2 ^ N.of_nat m <= i < (a + 1) * 2 ^ N.of_nat m -> a * 2 ^ N.of_nat m <= i' < (a + 1) * 2 ^ N.of_nat m ->
  N.shiftr (N.lxor s (net v L i)) (N.of_nat (D - m)) = N.shiftr (N.lxor s (net v L i')) (N.of_nat (D - m)) -> i = i'.
Proof.
  intros (LD & _ & RG) M I I' E. destruct (N.eq_dec i i') as [|NE]; [assumption|]. exfalso.
  assert (X0 : N.lxor i i' <> 0) by (intros X; apply NE, N.lxor_eq; assumption).
  assert (X1 : N.lxor i i' < 2 ^ N.of_nat m).
  { apply lt_pow2_bits. intros b B. rewrite N.lxor_spec.
    assert (Q : forall x, a * 2 ^ N.of_nat m <= x < (a + 1) * 2 ^ N.of_nat m -> N.testbit x b = N.testbit a (b - N.of_nat m)).
    { intros x X. assert (x / 2 ^ N.of_nat m = a). { symmetry. apply (N.div_unique x (2 ^ N.of_nat m) a (x - a * 2 ^ N.of_nat m)); lia. }
      rewrite <- H, <- N.shiftr_div_pow2, N.shiftr_spec by lia. f_equal. lia. }
    rewrite (Q i I), (Q i' I'). apply xorb_nilpotent. }
  apply (RG m (N.lxor i i') M); [lia|]. rewrite net_lxor.
  replace (N.lxor (net v L i) (net v L i')) with (N.lxor (N.lxor s (net v L i)) (N.lxor s (net v L i'))).
  - rewrite N.shiftr_lxor, E. apply N.lxor_nilpotent.
  - apply N.bits_inj. intros b. rewrite !N.lxor_spec. destruct (N.testbit s b), (N.testbit (net v L i) b), (N.testbit (net v L i') b); reflexivity.
Qed.
Lemma pigeon (F : nat -> nat) n : (forall k, (k < n)%nat -> (F k < n)%nat) -> (forall k k', (k < n)%nat -> (k' < n)%nat -> F k = F k' -> k = k') ->
  forall c, (c < n)%nat -> exists k, (k < n)%nat /\ F k = c.
Proof.
  intros B I c C.
  assert (ND : NoDup (map F (seq 0 n))).
  { assert (G : forall s, NoDup s -> (forall x, In x s -> (x < n)%nat) -> NoDup (map F s)).
    { induction s as [|x s IH]; intros N0 H; cbn; [constructor|]. inversion N0; subst. constructor; [|apply IH; [assumption|intros; apply H; right; assumption]].
      intros Q. apply in_map_iff in Q as (y & E & Y). assert (y = x) by (apply I; [apply H; right; assumption|apply H; left; reflexivity|assumption]). subst. contradiction. }
    apply G; [apply seq_NoDup|]. intros x X. apply in_seq in X. lia. }
  assert (IC : incl (seq 0 n) (map F (seq 0 n))).
  { apply NoDup_length_incl; [assumption|rewrite map_length; lia|]. intros x X. apply in_map_iff in X as (y & <- & Y). apply in_seq in Y. apply in_seq. specialize (B y ltac:(lia)). lia. }
  specialize (IC c ltac:(apply in_seq; lia)). apply in_map_iff in IC as (k & E & K). apply in_seq in K. exists k. split; [lia|assumption].
Qed.
Lemma regular_block v L D m a s c : regular v L D -> (m <= L)%nat -> s < 2 ^ N.of_nat D -> c < 2 ^ N.of_nat m ->
  exists i, a * 2 ^ N.of_nat m <= i < (a + 1) * 2 ^ N.of_nat m /\ N.shiftr (N.lxor s (net v L i)) (N.of_nat (D - m)) = c.
Proof.
  intros RG M S C. set (n := N.to_nat (2 ^ N.of_nat m)).
  assert (NP : 2 ^ N.of_nat m <> 0) by (apply N.pow_nonzero; lia).
  set (F := fun k => N.to_nat (N.shiftr (N.lxor s (net v L (a * 2 ^ N.of_nat m + N.of_nat k))) (N.of_nat (D - m)))).
  destruct (pigeon F n) with (c := N.to_nat c) as (k & K & E).
  - intros k K. unfold F, n. assert (N.lxor s (net v L (a * 2 ^ N.of_nat m + N.of_nat k)) < 2 ^ N.of_nat D).
    { apply lxor_lt; [assumption|]. apply net_lt. apply RG. }
    assert (N.shiftr (N.lxor s (net v L (a * 2 ^ N.of_nat m + N.of_nat k))) (N.of_nat (D - m)) < 2 ^ N.of_nat m); [|lia].
    rewrite N.shiftr_div_pow2. apply N.div_lt_upper_bound; [apply N.pow_nonzero; lia|]. rewrite <- N.pow_add_r. replace (N.of_nat (D - m) + N.of_nat m) with (N.of_nat D); [assumption|]. destruct RG as (LD & _). lia.
  - intros k k' K K' E. unfold F in E. apply N2Nat.inj in E. apply (regular_inj v L D m a s) in E; [lia|assumption|assumption|unfold n in *; lia|unfold n in *; lia].
  - unfold n. lia.
  - unfold F in E. apply N2Nat.inj in E. exists (a * 2 ^ N.of_nat m + N.of_nat k). split; [unfold n in *; lia|assumption].
Qed.

(** direction numbers: odd and below 2^(j+1) *)
Definition good_dirs (m : list N) : Prop := forall j, (j < length m)%nat -> N.odd (nth j m 0) = true /\ nth j m 0 < 2 ^ N.of_nat (S j).
Lemma land_bit x i : N.eqb (N.land (N.shiftr x (N.of_nat i)) 1) 1 = N.testbit x (N.of_nat i).
Proof.
  change 1 with (N.ones 1) at 1. rewrite N.land_ones. change (2 ^ 1) with 2. rewrite <- N.bit0_mod, N.shiftr_spec by lia. rewrite N.add_0_l. destruct (N.testbit _ _); reflexivity.
Qed.
Lemma filter_spec v x i : filter_tensor v x i = if N.testbit x (N.of_nat i) then v else 0.
Proof. unfold filter_tensor. rewrite N.eqb_sym, land_bit. reflexivity. Qed.
Lemma step_xsum a deg m : direction_step a deg m =
  N.lxor (nth (length m - deg) m 0) (xsum (fun i => if N.testbit a (N.of_nat i) then N.shiftl (nth (length m - deg + i) m 0) (N.of_nat (deg - i)) else 0) deg).
Proof.
  unfold direction_step. set (f := fun i => if N.testbit a (N.of_nat i) then _ else 0).
  rewrite <- fold_xsum. rewrite <- xsum_fold. generalize (nth (length m - deg) m 0). generalize (seq 0 deg). induction l as [|i l IH]; intros acc; [reflexivity|]. cbn [fold_left]. rewrite land_bit. rewrite <- IH. f_equal. unfold f.
  destruct (N.testbit a (N.of_nat i)); [reflexivity|]. rewrite N.lxor_0_r. reflexivity.
Qed.
Lemma step_good a deg m : good_dirs m -> (0 < deg <= length m)%nat ->
  N.odd (direction_step a deg m) = true /\ direction_step a deg m < 2 ^ N.of_nat (S (length m)).
Proof.
  intros G DL. rewrite step_xsum. split.
  - rewrite <- N.bit0_odd, N.lxor_spec. rewrite N.bit0_odd. rewrite (proj1 (G (length m - deg)%nat ltac:(lia))). rewrite xsum_bit_zero; [reflexivity|].
    intros j J. destruct (N.testbit a _); [|apply N.bits_0]. apply N.shiftl_spec_low. lia.
  - apply lxor_lt.
    + eapply N.lt_le_trans; [apply G; lia|]. apply N.pow_le_mono_r; lia.
    + apply xsum_lt. intros j J. destruct (N.testbit a _); [|pose proof (N.pow_nonzero 2 (N.of_nat (S (length m)))); lia].
      rewrite N.shiftl_mul_pow2. destruct (G (length m - deg + j)%nat ltac:(lia)) as (_ & H).
      replace (N.of_nat (S (length m))) with (N.of_nat (S (length m - deg + j)) + N.of_nat (deg - j)) by lia. rewrite N.pow_add_r. apply N.mul_lt_mono_pos_r; [|assumption].
      pose proof (N.pow_nonzero 2 (N.of_nat (deg - j))). lia.
Qed.
Lemma good_app m x : good_dirs m -> N.odd x = true -> x < 2 ^ N.of_nat (S (length m)) -> good_dirs (m ++ [x]).
Proof.
  intros G O B j J. rewrite app_length in J. cbn in J. destruct (Nat.lt_ge_cases j (length m)).
  - rewrite app_nth1 by assumption. apply G. assumption.
  - rewrite app_nth2 by assumption. replace (j - length m)%nat with 0%nat by lia. cbn [nth]. replace j with (length m) by lia. auto.
Qed.
Lemma extend_good a deg fuel : forall m, good_dirs m -> (0 < deg <= length m)%nat -> good_dirs (direction_extend a deg m fuel) /\ length (direction_extend a deg m fuel) = (length m + fuel)%nat.
Proof.
  induction fuel as [|f IH]; intros m G DL; [cbn; split; [assumption|lia]|]. cbn [direction_extend]. destruct (step_good a deg m G DL) as (O & B).
  destruct (IH (m ++ [direction_step a deg m]) (good_app _ _ G O B)) as (G' & L'); [rewrite app_length; lia|]. split; [assumption|]. rewrite L', app_length. cbn. lia.
Qed.

(** shifted direction numbers are triangular *)
Lemma good_triangular m L D : good_dirs m -> (L <= D)%nat -> (L <= length m)%nat -> triangular (fun j => N.shiftl (nth j m 0) (N.of_nat (D - 1 - j))) L D.
Proof.
  intros G LD LM. split; [assumption|]. intros j J. destruct (G j ltac:(lia)) as (O & B). split; [|split].
  - rewrite N.shiftl_mul_pow2. replace (N.of_nat D) with (N.of_nat (S j) + N.of_nat (D - 1 - j)) by lia. rewrite N.pow_add_r. apply N.mul_lt_mono_pos_r; [|assumption].
    pose proof (N.pow_nonzero 2 (N.of_nat (D - 1 - j))). lia.
  - rewrite N.shiftl_spec_high by lia. rewrite N.sub_diag, N.bit0_odd. assumption.
  - intros b Bb. apply N.shiftl_spec_low. lia.
Qed.
Lemma sobol_int_net D m i : (0 < D)%nat -> sobol_int D m i = net (fun j => N.shiftl (nth j m 0) (N.of_nat (D - 1 - j))) D i.
Proof.
  intros DP. unfold sobol_int. cbv zeta.
  set (p := fun j => N.shiftl (nth j m 0) (N.of_nat (D - 1 - j)) * N.land 1 (N.shiftr i (N.of_nat j))).
  change (fold_left (fun acc j => N.lxor acc (p j)) (seq 1 (D - 1)) (p 0%nat) = net (fun j => N.shiftl (nth j m 0) (N.of_nat (D - 1 - j))) D i).
  assert (E : fold_left (fun acc j => N.lxor acc (p j)) (seq 1 (D - 1)) (p 0%nat) = xsum p D).
  { rewrite <- fold_xsum. destruct D; [lia|]. replace (S D - 1)%nat with D by lia. cbn [seq fold_left]. rewrite N.lxor_0_l. reflexivity. }
  rewrite E. apply xsum_ext. intros j J. unfold p. rewrite N.land_comm. pose proof (land_bit i j) as LB.
  assert (B : N.land (N.shiftr i (N.of_nat j)) 1 = if N.testbit i (N.of_nat j) then 1 else 0).
  { change 1 with (N.ones 1) at 1. rewrite N.land_ones. change (2 ^ 1) with 2. rewrite <- N.bit0_mod, N.shiftr_spec by lia. rewrite N.add_0_l. destruct (N.testbit _ _); reflexivity. }
  rewrite B. destruct (N.testbit i _); lia.
Qed.
(** the value does not depend on the number of digits *)
Lemma net_more_digits m D i : i < 2 ^ N.of_nat D ->
  net (fun j => N.shiftl (nth j m 0) (N.of_nat (S D - 1 - j))) (S D) i = 2 * net (fun j => N.shiftl (nth j m 0) (N.of_nat (D - 1 - j))) D i.
Proof.
  intros I. unfold net. cbn [xsum]. rewrite (proj1 (lt_pow2_bits i (N.of_nat D)) I) by lia. rewrite N.lxor_0_r.
  replace (2 * xsum _ D) with (N.shiftl (xsum (fun j => if N.testbit i (N.of_nat j) then N.shiftl (nth j m 0) (N.of_nat (D - 1 - j)) else 0) D) 1) by (rewrite N.shiftl_mul_pow2; lia).
  rewrite shiftl_xsum. apply xsum_ext. intros j J. destruct (N.testbit i _); [|rewrite N.shiftl_0_l; reflexivity]. rewrite N.shiftl_shiftl. f_equal. lia.
Qed.


(** cells of dyadic rationals *)
Definition pow2 (k : nat) : positive := N.succ_pos (2 ^ N.of_nat k - 1).
Lemma pow2_N k : Npos (pow2 k) = 2 ^ N.of_nat k.
Proof. unfold pow2. rewrite N.succ_pos_spec. pose proof (N.pow_nonzero 2 (N.of_nat k)). lia. Qed.
Lemma pow2_Z k : Zpos (pow2 k) = (2 ^ Z.of_nat k)%Z.
Proof. change (Zpos (pow2 k)) with (Z.of_N (Npos (pow2 k))). rewrite pow2_N, N2Z.inj_pow. f_equal. lia. Qed.
Lemma to_unit_frac D x : (to_unit D x == Z.of_N x # pow2 D)%Q.
Proof. unfold to_unit. rewrite <- pow2_Z. rewrite <- (Qmake_Qdiv (Z.of_N x) (pow2 D)). reflexivity. Qed.
Lemma to_unit_cell D m x c : (m <= D)%nat -> in_cell (pow2 m) c (to_unit D x) <-> Z.of_N (N.shiftr x (N.of_nat (D - m))) = c.
Proof.
  intros M. unfold in_cell. rewrite to_unit_frac. unfold Qle, Qlt. cbn [Qnum Qden].
  rewrite !pow2_Z. replace (Z.of_nat D) with (Z.of_nat m + Z.of_nat (D - m))%Z by lia. rewrite Z.pow_add_r by lia.
  rewrite N.shiftr_div_pow2, N2Z.inj_div, N2Z.inj_pow. change (Z.of_N 2) with 2%Z. rewrite nat_N_Z.
  assert (P : (0 < 2 ^ Z.of_nat (D - m))%Z) by (apply Z.pow_pos_nonneg; lia). assert (P' : (0 < 2 ^ Z.of_nat m)%Z) by (apply Z.pow_pos_nonneg; lia).
  generalize dependent (2 ^ Z.of_nat (D - m))%Z. generalize dependent (2 ^ Z.of_nat m)%Z. intros p P' q P. generalize (Z.of_N x). intros z. split.
  - intros (A & B). symmetry. apply (Z.div_unique_pos z q c (z - q * c)); [|lia]. split; nia.
  - intros <-. pose proof (Z.div_mod z q ltac:(lia)). pose proof (Z.mod_pos_bound z q P). split; nia.
Qed.
Lemma to_unit_range D x : x < 2 ^ N.of_nat D -> (0 <= to_unit D x /\ to_unit D x < 1)%Q.
Proof.
  intros X. rewrite !to_unit_frac. unfold Qle, Qlt. cbn [Qnum Qden]. rewrite !pow2_Z. assert (Z.of_N x < 2 ^ Z.of_nat D)%Z; [|lia].
  apply N2Z.inj_lt in X. rewrite N2Z.inj_pow, nat_N_Z in X. exact X.
Qed.
Lemma in_cell_Qeq n c q q' : (q == q')%Q -> in_cell n c q <-> in_cell n c q'.
Proof. intros E. unfold in_cell. rewrite E. reflexivity. Qed.

(** a list of consecutive regular values, one per cell *)
Lemma pow2_nat m : Pos.to_nat (pow2 m) = (2 ^ m)%nat.
Proof. rewrite <- positive_N_nat, pow2_N, N2Nat.inj_pow, Nat2N.id. reflexivity. Qed.
Lemma regular_cells v L D m s a (f : nat -> Q) : regular v L D -> (m <= L)%nat -> s < 2 ^ N.of_nat D ->
  (forall k, (k < 2 ^ m)%nat -> (f k == to_unit D (N.lxor s (net v L (a * 2 ^ N.of_nat m + N.of_nat k))))%Q) ->
  one_per_cell (pow2 m) (map f (seq 0 (2 ^ m))).
Proof.
  intros RG M S F. assert (MD : (m <= D)%nat) by (destruct RG; lia). unfold one_per_cell. rewrite map_length, seq_length, pow2_nat. split; [reflexivity|].
  assert (P2 : N.of_nat (2 ^ m) = 2 ^ N.of_nat m) by (rewrite Nat2N.inj_pow; reflexivity).
  intros c C. rewrite pow2_Z in C.
  assert (NT : forall k, (k < 2 ^ m)%nat -> nth k (map f (seq 0 (2 ^ m))) 0%Q = f k).
  { intros k K. rewrite (nth_indep _ 0%Q (f 0%nat)) by (rewrite map_length, seq_length; assumption). rewrite map_nth, seq_nth by assumption. reflexivity. }
  assert (C' : Z.to_N c < 2 ^ N.of_nat m).
  { apply N2Z.inj_lt. rewrite Z2N.id, N2Z.inj_pow, nat_N_Z by lia. apply C. }
  destruct (regular_block v L D m a s (Z.to_N c) RG M S C') as (i & I & E).
  exists (N.to_nat (i - a * 2 ^ N.of_nat m)). set (k := N.to_nat (i - a * 2 ^ N.of_nat m)).
  assert (K : (k < 2 ^ m)%nat) by lia. split; [assumption|]. split.
  - rewrite NT by assumption. rewrite (in_cell_Qeq _ _ _ _ (F k K)). apply to_unit_cell; [assumption|].
    replace (a * 2 ^ N.of_nat m + N.of_nat k) with i by lia. rewrite E. lia.
  - intros k' K' H. rewrite NT in H by assumption. rewrite (in_cell_Qeq _ _ _ _ (F k' K')) in H. apply to_unit_cell in H; [|assumption].
    assert (a * 2 ^ N.of_nat m + N.of_nat k' = i); [|lia]. apply (regular_inj v L D m a s); [assumption|assumption|lia|assumption|]. rewrite E. apply N2Z.inj. rewrite H. lia.
Qed.

Lemma nth_firstn_lt {A} (l : list A) : forall n k d, (k < n)%nat -> nth k (firstn n l) d = nth k l d.
Proof. induction l; intros [|n] [|k] d H; try reflexivity; try lia. cbn. apply IHl. lia. Qed.
Lemma nth_skipn' {A} (l : list A) : forall n k d, nth k (skipn n l) d = nth (n + k) l d.
Proof. induction l; intros [|n] k d; try reflexivity; cbn; [destruct k; reflexivity|]. apply IHl. Qed.
(** direction numbers of admissible data *)
Lemma admissible_good a init : admissible (a, init) -> good_dirs (firstn (degree a) init) /\ (0 < degree a)%nat /\ length (firstn (degree a) init) = degree a.
Proof.
  intros (A & LE & G). assert (L : length (firstn (degree a) init) = degree a) by (apply firstn_length_le; exact LE). split; [|split; [|assumption]].
  - intros j J. rewrite L in J. rewrite nth_firstn_lt by assumption. apply G. exact J.
  - unfold degree. pose proof (N.log2_le_mono 2 a A). change (N.log2 2) with 1 in H. lia.
Qed.
Lemma direction_row_good a init : admissible (a, init) -> good_dirs (direction_row a init) /\ length (direction_row a init) = Nat.max (degree a) 32.
Proof.
  intros A. destruct (admissible_good a init A) as (G & P & L). unfold direction_row.
  destruct (extend_good a (degree a) (32 - degree a) (firstn (degree a) init) G ltac:(lia)) as (G' & L'). split; [assumption|]. rewrite L', L. lia.
Qed.
Lemma ones_good n : good_dirs (repeat 1 n).
Proof.
  intros j J. rewrite repeat_length in J. rewrite (nth_indep _ 0 1) by (rewrite repeat_length; assumption). rewrite nth_repeat. split; [reflexivity|].
  apply N.pow_gt_1; lia.
Qed.

Definition all_admissible (data : list (N * list N)) : Prop := Forall admissible data.
Lemma rows_good dim data k : Forall admissible data -> (k < dim <= S (length data))%nat ->
  good_dirs (nth k (compute_direction_numbers dim data) []) /\ (32 <= length (nth k (compute_direction_numbers dim data) []))%nat.
Proof.
  intros AD K. unfold compute_direction_numbers. destruct k as [|k].
  - cbn [nth]. split; [apply ones_good|rewrite repeat_length; lia].
  - cbn [nth]. set (F := fun k0 => _). rewrite (nth_indep _ [] (F 0%nat)) by (rewrite map_length, seq_length; lia). rewrite map_nth, seq_nth by lia. unfold F. cbn [Nat.add].
    destruct (nth k data (0, [])) as (a, init) eqn:E. assert (A : admissible (a, init)) by (rewrite <- E; apply Forall_nth; [assumption|lia]).
    destruct (direction_row_good a init A) as (G & L). split; [assumption|]. rewrite L. lia.
Qed.
Lemma rows_length dim data : (0 < dim)%nat -> length (compute_direction_numbers dim data) = dim.
Proof. intros D. unfold compute_direction_numbers. cbn [length]. rewrite map_length, seq_length. lia. Qed.

(** the digits suffice for every index of the sample *)
Lemma num_digits_enough n skip : (0 < n)%nat -> N.of_nat (skip + n) < 2 ^ N.of_nat (sobol_num_digits n skip).
Proof.
  intros P. unfold sobol_num_digits. rewrite N2Nat.id. set (x := N.of_nat (skip + n + 1)). assert (X : 1 < x) by lia. pose proof (N.log2_up_spec x X). lia.
Qed.
Lemma num_digits_bound n skip : (0 < n)%nat -> (N.of_nat (skip + n + 1) <= 2 ^ 31) -> (0 < sobol_num_digits n skip <= 31)%nat.
Proof.
  intros P B. unfold sobol_num_digits. assert (N.log2_up (N.of_nat (skip + n + 1)) <= 31). { apply N.log2_up_le_pow2; lia. }
  assert (0 < N.log2_up (N.of_nat (skip + n + 1))) by (apply N.log2_up_pos; lia). lia.
Qed.
Lemma sample_coordinate dim n skip data k : (k < dim)%nat ->
  coordinate k (sobol_sample dim n skip data) =
  map (fun r => to_unit (sobol_num_digits n skip) (sobol_int (sobol_num_digits n skip) (nth k (compute_direction_numbers dim data) []) (N.of_nat (skip + 1 + r)))) (seq 0 n).
Proof.
  intros K. unfold coordinate, sobol_sample. cbv zeta. rewrite map_map. apply map_ext. intros r. set (F := fun m => _).
  rewrite (nth_indep _ 0%Q (F [])) by (rewrite map_length, rows_length; lia). rewrite map_nth. reflexivity.
Qed.
Lemma firstn_skipn_map {A} (f : nat -> A) n a k : (a + k <= n)%nat -> firstn k (skipn a (map f (seq 0 n))) = map (fun r => f (a + r)%nat) (seq 0 k).
Proof.
  intros H. replace n with (a + (k + (n - a - k)))%nat by lia. rewrite !seq_app, !map_app. rewrite skipn_app, skipn_all2 by (rewrite map_length, seq_length; lia). cbn [app].
  rewrite map_length, seq_length, Nat.sub_diag. cbn [skipn]. rewrite firstn_app, firstn_all2 by (rewrite map_length, seq_length; lia).
  rewrite map_length, seq_length, Nat.sub_diag. cbn [firstn]. rewrite app_nil_r. rewrite <- (Nat.add_0_r (0 + a)). clear H. cbn [Nat.add]. 
  assert (G : forall c, map f (seq (a + c) k) = map (fun r => f (a + r)%nat) (seq c k)).
  { induction k as [|k IH]; intros c; [reflexivity|]. cbn [seq map]. f_equal. rewrite <- IH. f_equal. f_equal. lia. }
  apply G.
Qed.

Lemma sobol_net dim n skip data k m k0 : Forall admissible data -> (k < dim <= S (length data))%nat ->
  N.of_nat (skip + n + 1) <= 2 ^ 31 -> ((skip + 1 + k0) mod 2 ^ m = 0)%nat -> (k0 + 2 ^ m <= n)%nat ->
  one_per_cell (pow2 m) (firstn (2 ^ m) (skipn k0 (coordinate k (sobol_sample dim n skip data)))).
Proof.
  intros AD K B AL KN. assert (P2 : (2 ^ m <> 0)%nat) by (apply Nat.pow_nonzero; lia).
  rewrite sample_coordinate by lia. rewrite firstn_skipn_map by assumption.
  destruct (rows_good dim data k AD K) as (G & L). set (row := nth k _ []) in *. set (D := sobol_num_digits n skip).
  destruct (num_digits_bound n skip ltac:(lia) B) as (D0 & D1). fold D in D0, D1.
  assert (TR : triangular (fun j => N.shiftl (nth j row 0) (N.of_nat (D - 1 - j))) D D) by (apply good_triangular; [assumption|lia|lia]).
  apply Nat.div_exact in AL; [|assumption].
  apply (regular_cells (fun j => N.shiftl (nth j row 0) (N.of_nat (D - 1 - j))) D D m 0 (N.of_nat ((skip + 1 + k0) / 2 ^ m))); [apply triangular_regular; exact TR| |pose proof (N.pow_nonzero 2 (N.of_nat D)); lia|].
  - pose proof (num_digits_enough n skip ltac:(lia)) as E. fold D in E. assert (2 ^ N.of_nat m < 2 ^ N.of_nat D).
    { change 2 with (N.of_nat 2) at 1. rewrite <- Nat2N.inj_pow. lia. }
    apply N.pow_lt_mono_r_iff in H; lia.
  - intros r Rr. rewrite N.lxor_0_l. rewrite sobol_int_net by assumption. replace (N.of_nat (skip + 1 + (k0 + r))) with (N.of_nat ((skip + 1 + k0) / 2 ^ m) * 2 ^ N.of_nat m + N.of_nat r); [reflexivity|].
    change (2 ^ N.of_nat m) with (N.of_nat 2 ^ N.of_nat m). rewrite <- Nat2N.inj_pow, <- Nat2N.inj_mul. lia.
Qed.

Lemma sobol_range dim n skip data k q : Forall admissible data -> (k < dim <= S (length data))%nat -> N.of_nat (skip + n + 1) <= 2 ^ 31 ->
  In q (coordinate k (sobol_sample dim n skip data)) -> (0 <= q /\ q < 1)%Q.
Proof.
  intros AD K B I. rewrite sample_coordinate in I by lia. apply in_map_iff in I as (r & <- & Rr). apply in_seq in Rr.
  destruct (rows_good dim data k AD K) as (G & L). destruct (num_digits_bound n skip ltac:(lia) B) as (D0 & D1).
  apply to_unit_range. rewrite sobol_int_net by assumption. apply net_lt. intros j J.
  apply (good_triangular _ (sobol_num_digits n skip) (sobol_num_digits n skip) G); lia.
Qed.

(** more digits, same value *)
Lemma to_unit_double D x : (to_unit (S D) (2 * x) == to_unit D x)%Q.
Proof.
  rewrite !to_unit_frac. unfold Qeq. cbn [Qnum Qden]. rewrite !pow2_Z. rewrite N2Z.inj_mul. replace (Z.of_nat (S D)) with (Z.of_nat D + 1)%Z by lia. rewrite Z.pow_add_r by lia. change (Z.of_N 2) with 2%Z. ring.
Qed.
Lemma sobol_value_digits row D e i : (0 < D)%nat -> i < 2 ^ N.of_nat D -> (to_unit (e + D) (sobol_int (e + D) row i) == to_unit D (sobol_int D row i))%Q.
Proof.
  intros P I. rewrite !sobol_int_net by lia. induction e as [|e IH]; [reflexivity|]. rewrite <- IH. cbn [Nat.add].
  rewrite net_more_digits; [apply to_unit_double|]. eapply N.lt_le_trans; [exact I|]. apply N.pow_le_mono_r; lia.
Qed.
Lemma num_digits_mono n skip n' skip' : (skip + n <= skip' + n')%nat -> (sobol_num_digits n skip <= sobol_num_digits n' skip')%nat.
Proof. intros H. unfold sobol_num_digits. pose proof (N.log2_up_le_mono (N.of_nat (skip + n + 1)) (N.of_nat (skip' + n' + 1)) ltac:(lia)). lia. Qed.
Lemma sobol_same_index dim n skip data k r n' skip' r' : (k < dim)%nat -> (r < n)%nat -> (r' < n')%nat -> (skip + r = skip' + r')%nat ->
  (nth r (coordinate k (sobol_sample dim n skip data)) 0 == nth r' (coordinate k (sobol_sample dim n' skip' data)) 0)%Q.
Proof.
  intros K Rn Rn' E. rewrite !sample_coordinate by assumption. set (row := nth k _ []). 
  set (F := fun r0 => to_unit (sobol_num_digits n skip) _). set (F' := fun r0 => to_unit (sobol_num_digits n' skip') _).
  rewrite (nth_indep _ 0%Q (F 0%nat)) by (rewrite map_length, seq_length; assumption). rewrite (nth_indep _ 0%Q (F' 0%nat)) by (rewrite map_length, seq_length; assumption).
  rewrite !map_nth, !seq_nth by assumption. unfold F, F'. cbn [Nat.add]. rewrite <- !Nat.add_assoc. rewrite (Nat.add_comm 1 r), (Nat.add_comm 1 r'). rewrite !Nat.add_assoc, <- E.
  set (i := N.of_nat (skip + r + 1)). set (D := sobol_num_digits n skip). set (D' := sobol_num_digits n' skip').
  assert (I : i < 2 ^ N.of_nat D) by (pose proof (num_digits_enough n skip ltac:(lia)); fold D in H; lia).
  assert (I' : i < 2 ^ N.of_nat D') by (pose proof (num_digits_enough n' skip' ltac:(lia)); fold D' in H; lia).
  assert (PZ : forall e, i < 2 ^ N.of_nat e -> (0 < e)%nat) by (intros e He; destruct e; [cbn in He; lia|lia]).
  destruct (Nat.le_ge_cases D D') as [L|L].
  - replace D' with (D' - D + D)%nat by lia. symmetry. apply sobol_value_digits; [apply PZ; assumption|assumption].
  - replace D with (D - D' + D')%nat by lia. apply sobol_value_digits; [apply PZ; assumption|assumption].
Qed.
