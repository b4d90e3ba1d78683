(** C59: multivariate normal and uniform draws; C60: stateless shuffling. *)
From Coquelicot Require Import Coquelicot.
From Coq Require Import Reals QArith Qreals ZArith List Bool Arith Lia Lra Sorting.Permutation Sorting.Sorted.
From Verif Require Import ExtReal HaganWestModel BootstrapModel BlackScholesModel BlackScholesSpec SobolModel SobolData HaltonModel PropsHalton MvSobol.
From Verif Require Import HaltonProofs2 MvNormalModel MvNormalSpec MvNormalProofs.
Import ListNotations.
Open Scope nat_scope.

(** The scale matrix in force: the given one or the Cholesky factor of the
    covariance matrix. *)
Definition factor (cholesky : tensor R -> option (tensor R)) (cov scale sc : option (tensor R)) : Prop :=
  match cov, scale with
  | None, s => sc = s
  | Some c, None => exists l, cholesky c = Some l /\ sc = Some l
  | Some _, Some _ => False
  end.
(** Arguments for a batch of shape B of d-dimensional distributions. *)
Definition arguments (cholesky : tensor R -> option (tensor R)) (mean cov scale : option (tensor R)) (B : list nat) (d : nat) (sc : option (tensor R)) : Prop :=
  factor cholesky cov scale sc /\
  match mean with
  | Some m => shape m = B ++ [d]
  | None => exists s, sc = Some s /\ shape s = B ++ [d; d]
  end.
Lemma arguments_ok chol mean cov scale B d sc : arguments chol mean cov scale B d sc ->
  process_mean_scale chol mean scale cov = Some (mean, sc, B ++ [d], d) /\
  (match mean, cov, scale with None, None, None => False | _, Some _, Some _ => False | _, _, _ => True end).
Proof.
  intros (F & M). assert (PM : process_mean_scale chol mean scale cov = Some (mean, sc, B ++ [d], d)).
  { unfold process_mean_scale. assert (SC : match scale, cov with Some s, _ => Some (Some s) | None, Some c => option_map Some (chol c) | None, None => Some None end = Some sc).
    { destruct cov as [c|], scale as [s|]; cbn in F; try contradiction; [destruct F as (l & -> & ->); reflexivity|subst; reflexivity|subst; reflexivity]. }
    rewrite SC. destruct mean as [m|].
    - rewrite M, last_last. reflexivity.
    - destruct M as (s & -> & E). rewrite E. change [d; d] with ([d] ++ [d]). rewrite app_assoc, removelast_last, last_last. reflexivity. }
  split; [exact PM|]. destruct mean, cov, scale; try exact Logic.I; try contradiction. destruct M as (s & E & _). cbn in F. congruence.
Qed.
Ltac open_arguments A := let PM := fresh "PM" in let NN := fresh "NN" in pose proof (arguments_ok _ _ _ _ _ _ _ A) as (PM & NN).

(** ** Pseudo-random draws: mean plus matrix times independent draws. *)
Theorem C59_pseudo : forall random_normal stateless_normal cholesky S B d mean cov scale sc ty seed skip rp,
  arguments cholesky mean cov scale B d sc -> ty = None \/ ty = Some PSEUDO ->
  exists t, multivariate_normal random_normal stateless_normal cholesky S mean cov scale ty seed skip rp = Some t /\ shape t = S ++ B ++ [d] /\
    forall s b j L m, within S s -> within B b -> j < d -> scale_of sc B d b L -> mean_of mean B d b m ->
      elt t (s ++ b ++ [j]) = Fin (affine d (m j) L (fun l => random_normal seed (S ++ B ++ [d]) (s ++ b ++ [l])) j).
Proof.
  intros rn sn chol S B d mean cov scale sc ty seed skip rp A TY. open_arguments A.
  assert (E : multivariate_normal rn sn chol S mean cov scale ty seed skip rp = mvnormal_pseudo rn sn chol S mean cov scale false seed).
  { unfold multivariate_normal. destruct mean, cov, scale; try contradiction; destruct TY as [-> | ->]; reflexivity. }
  rewrite E. unfold mvnormal_pseudo. rewrite PM. eexists. split; [reflexivity|]. split; [reflexivity|].
  intros s b j L m Ws Wb J SC MN. apply (shift_scale_elt _ _ _ B); try assumption. intros l _. reflexivity.
Qed.
Print Assumptions C59_pseudo.

Theorem C59_stateless : forall random_normal stateless_normal cholesky S B d mean cov scale sc seed skip rp,
  arguments cholesky mean cov scale B d sc ->
  exists t, multivariate_normal random_normal stateless_normal cholesky S mean cov scale (Some STATELESS) (Some seed) skip rp = Some t /\ shape t = S ++ B ++ [d] /\
    forall s b j L m, within S s -> within B b -> j < d -> scale_of sc B d b L -> mean_of mean B d b m ->
      elt t (s ++ b ++ [j]) = Fin (affine d (m j) L (fun l => stateless_normal seed (S ++ B ++ [d]) (s ++ b ++ [l])) j).
Proof.
  intros rn sn chol S B d mean cov scale sc seed skip rp A. open_arguments A.
  assert (E : multivariate_normal rn sn chol S mean cov scale (Some STATELESS) (Some seed) skip rp = mvnormal_pseudo rn sn chol S mean cov scale true (Some seed)).
  { unfold multivariate_normal. destruct mean, cov, scale; try contradiction; reflexivity. }
  rewrite E. unfold mvnormal_pseudo. rewrite PM. eexists. split; [reflexivity|]. split; [reflexivity|].
  intros s b j L m Ws Wb J SC MN. apply (shift_scale_elt _ _ _ B); try assumption. intros l _. reflexivity.
Qed.
Print Assumptions C59_stateless.

(** ** Antithetic draws: the second half mirrors the first about the mean. *)
Lemma sum_to_opp n c : sum_to n (fun k => - c k)%R = (- sum_to n c)%R.
Proof. induction n as [|n IH]; cbn [sum_to]; [ring|]. rewrite IH. ring. Qed.
Lemma affine_opp d m L z j : affine d m L (fun l => - z l)%R j = (2 * m - affine d m L z j)%R.
Proof.
  unfold affine. rewrite (sum_to_ext d _ (fun l => - (L j l * z l))%R) by (intros; ring). rewrite sum_to_opp. ring.
Qed.
Theorem C59_antithetic : forall random_normal stateless_normal cholesky n S B d mean cov scale sc ty seed skip rp draws,
  arguments cholesky mean cov scale B d sc ->
  (ty = PSEUDO_ANTITHETIC /\ (forall idx, draws idx = random_normal seed (n :: S ++ B ++ [d]) idx)) \/
  (ty = STATELESS_ANTITHETIC /\ exists k, seed = Some k /\ forall idx, draws idx = stateless_normal k (n :: S ++ B ++ [d]) idx) ->
  exists t, multivariate_normal random_normal stateless_normal cholesky (2 * n :: S) mean cov scale (Some ty) seed skip rp = Some t /\
    shape t = 2 * n :: S ++ B ++ [d] /\
    forall i s b j L m, i < n -> within S s -> within B b -> j < d -> scale_of sc B d b L -> mean_of mean B d b m ->
      elt t (i :: s ++ b ++ [j]) = Fin (affine d (m j) L (fun l => draws (i :: s ++ b ++ [l])) j) /\
      elt t (n + i :: s ++ b ++ [j]) = Fin (affine d (m j) L (fun l => - draws (i :: s ++ b ++ [l]))%R j).
Proof.
  intros rn sn chol n S B d mean cov scale sc ty seed skip rp draws A TY. open_arguments A.
  assert (E : exists st : bool, (if st then exists k, seed = Some k /\ forall idx, draws idx = sn k (n :: S ++ B ++ [d]) idx else forall idx, draws idx = rn seed (n :: S ++ B ++ [d]) idx) /\
    multivariate_normal rn sn chol (2 * n :: S) mean cov scale (Some ty) seed skip rp = mvnormal_antithetic rn sn chol (2 * n :: S) mean cov scale st seed).
  { destruct TY as [(-> & D)|(-> & D)]; [exists false|exists true]; (split; [exact D|]); unfold multivariate_normal; destruct mean, cov, scale; try contradiction; reflexivity. }
  destruct E as (st & D & E). rewrite E. unfold mvnormal_antithetic.
  replace ((2 * n) mod 2) with 0 by (rewrite Nat.mul_comm, Nat.mod_mul; lia). replace (2 * n / 2) with n by (rewrite Nat.mul_comm, Nat.div_mul; lia). cbn [Nat.eqb negb].
  assert (P : exists t, mvnormal_pseudo rn sn chol (n :: S) mean cov scale st seed = Some t /\ shape t = n :: S ++ B ++ [d] /\
    forall s b j L m, within (n :: S) s -> within B b -> j < d -> scale_of sc B d b L -> mean_of mean B d b m ->
      elt t (s ++ b ++ [j]) = Fin (affine d (m j) L (fun l => draws (s ++ b ++ [l])) j)).
  { unfold mvnormal_pseudo. rewrite PM. destruct st.
    - destruct D as (k & -> & D). eexists. split; [reflexivity|]. split; [reflexivity|]. intros s b j L m Ws Wb J SC MN. apply (shift_scale_elt _ _ _ B); try assumption. intros l _. cbn [elt]. rewrite D. reflexivity.
    - eexists. split; [reflexivity|]. split; [reflexivity|]. intros s b j L m Ws Wb J SC MN. apply (shift_scale_elt _ _ _ B); try assumption. intros l _. cbn [elt]. rewrite D. reflexivity. }
  destruct P as (t & -> & SH & V). eexists. split; [reflexivity|]. split.
  - unfold concat0. cbn [shape]. rewrite SH. cbn [nth tl]. f_equal. lia.
  - intros i s b j L m Ii Ws Wb J SC MN. assert (W : within (n :: S) (i :: s)) by (constructor; assumption). pose proof (V (i :: s) b j L m W Wb J SC MN) as X. cbn [app] in X.
    unfold concat0. cbn [elt shape]. rewrite SH. cbn [nth]. split.
    + destruct (Nat.ltb_spec i n); [|lia]. rewrite X. reflexivity.
    + destruct (Nat.ltb_spec (n + i) n); [lia|]. replace (n + i - n) with i by lia. rewrite affine_opp. rewrite X. destruct mean as [mt|].
      * destruct MN as (SM & MV). assert (BG : bget mt (i :: s ++ b ++ [j]) = m j).
        { rewrite MV. change (i :: s ++ b ++ [j]) with ((i :: s) ++ (b ++ [j])). apply bget_full. rewrite SM. apply within_app; [exact Wb|repeat constructor; exact J]. }
        rewrite BG. cbn. f_equal. 
      * rewrite MN. cbn. f_equal. ring.
Qed.
Print Assumptions C59_antithetic.

(** so the average along the first axis is the mean exactly *)
Lemma sum_to_split n k c : sum_to (n + k) c = (sum_to n c + sum_to k (fun i => c (n + i)%nat))%R.
Proof. induction k as [|k IH]; [rewrite Nat.add_0_r; cbn; ring|]. rewrite Nat.add_succ_r. cbn [sum_to]. rewrite IH. ring. Qed.
Lemma sum_to_plus n f g : (sum_to n f + sum_to n g)%R = sum_to n (fun k => f k + g k)%R.
Proof. induction n as [|n IH]; cbn [sum_to]; [ring|]. rewrite <- IH. ring. Qed.
Lemma sum_to_const n c : sum_to n (fun _ => c) = (INR n * c)%R.
Proof. induction n as [|n IH]; [cbn; ring|]. cbn [sum_to]. rewrite IH, S_INR. ring. Qed.
Theorem C59_antithetic_mean : forall random_normal stateless_normal cholesky n S B d mean cov scale sc ty seed skip rp t,
  arguments cholesky mean cov scale B d sc -> ty = PSEUDO_ANTITHETIC \/ ty = STATELESS_ANTITHETIC ->
  multivariate_normal random_normal stateless_normal cholesky (2 * n :: S) mean cov scale (Some ty) seed skip rp = Some t ->
  forall s b j L m, within S s -> within B b -> j < d -> scale_of sc B d b L -> mean_of mean B d b m ->
    exists x, (forall i, i < 2 * n -> elt t (i :: s ++ b ++ [j]) = Fin (x i)) /\ sum_to (2 * n) x = (INR (2 * n) * m j)%R.
Proof.
  intros rn sn chol n S B d mean cov scale sc ty seed skip rp t A TY E s b j L m Ws Wb J SC MN.
  assert (D : exists draws, (ty = PSEUDO_ANTITHETIC /\ (forall idx, draws idx = rn seed (n :: S ++ B ++ [d]) idx)) \/
    (ty = STATELESS_ANTITHETIC /\ exists k, seed = Some k /\ forall idx, draws idx = sn k (n :: S ++ B ++ [d]) idx)).
  { destruct TY as [-> | ->].
    - exists (rn seed (n :: S ++ B ++ [d])). left. split; reflexivity.
    - destruct seed as [k|]; [exists (sn k (n :: S ++ B ++ [d])); right; split; [reflexivity|exists k; split; reflexivity]|].
      exfalso. open_arguments A. unfold multivariate_normal, mvnormal_antithetic, mvnormal_pseudo in E. rewrite PM in E.
      replace ((2 * n) mod 2) with 0 in E by (rewrite Nat.mul_comm, Nat.mod_mul; lia). destruct mean, cov, scale; try contradiction; discriminate E. }
  destruct D as (draws & D). destruct (C59_antithetic rn sn chol n S B d mean cov scale sc ty seed skip rp draws A D) as (t' & E' & _ & V). rewrite E in E'. injection E' as <-.
  set (z := fun i l => draws (i :: s ++ b ++ [l])).
  exists (fun i : nat => if Nat.ltb i n then affine d (m j) L (z i) j else affine d (m j) L (fun l => - z (i - n)%nat l)%R j). split.
  - intros i Ii. destruct (Nat.ltb_spec i n) as [C|C].
    + apply (V i s b j L m); assumption.
    + destruct (V (i - n) s b j L m ltac:(lia) Ws Wb J SC MN) as (_ & V2). replace (n + (i - n)) with i in V2 by lia. exact V2.
  - replace (2 * n) with (n + n) by lia. rewrite sum_to_split, sum_to_plus.
    rewrite (sum_to_ext n _ (fun _ => 2 * m j)%R).
    + rewrite sum_to_const, plus_INR. ring.
    + intros k K. destruct (Nat.ltb_spec k n); [|lia]. destruct (Nat.ltb_spec (n + k) n); [lia|]. replace (n + k - n) with k by lia. rewrite affine_opp. ring.
Qed.
Print Assumptions C59_antithetic_mean.

(** ** Quasi-random draws *)
(** the low-discrepancy points behind the draws *)
Definition sequence_points (ty : random_type) (d n skip : nat) (rp : option (list Z * list Q)) (P : list (list Q)) : Prop :=
  match ty with
  | SOBOL => P = sobol_sample d n skip joe_kuo
  | HALTON => P = halton_sample d (map Z.of_nat (seq skip n)) None
  | HALTON_RANDOMIZED => P = halton_sample d (map Z.of_nat (seq skip n)) rp
  | _ => False
  end.
Definition point_coordinate (P : list (list Q)) (k i : nat) : R := Q2R (nth i (nth k P []) 0%Q).
(** [sel] numbers the sample and batch indices from 0 to n - 1 *)
Definition numbering (S B : list nat) (n : nat) (sel : list nat -> list nat -> nat) : Prop :=
  (forall s b, within S s -> within B b -> sel s b < n) /\
  (forall s b s' b', within S s -> within B b -> within S s' -> within B b' -> sel s b = sel s' b' -> s = s' /\ b = b') /\
  (forall k, k < n -> exists s b, within S s /\ within B b /\ sel s b = k).
Lemma within_split sh sh' l : within (sh ++ sh') l -> exists a b, l = a ++ b /\ within sh a /\ within sh' b.
Proof.
  revert l. induction sh as [|n sh IH]; intros l W; [exists [], l; repeat split; [constructor|exact W]|].
  inversion W as [|i n' l' sh2 Li W' E1 E2]; subst. destruct (IH _ W') as (a & b & -> & Wa & Wb). exists (i :: a), b. repeat split; [constructor; assumption|exact Wb].
Qed.
Lemma numbering_ok S B : numbering S B (size S * size B) (fun s b => ravel (rev B ++ S) (rev b ++ s)).
Proof.
  assert (SZ : size (rev B ++ S) = size S * size B) by (rewrite size_app, size_rev; lia).
  split; [|split].
  - intros s b Ws Wb. rewrite <- SZ. apply ravel_lt, within_app; [apply within_rev; exact Wb|exact Ws].
  - intros s b s' b' Ws Wb Ws' Wb' E. apply ravel_inj in E; [|apply within_app; [apply within_rev; assumption|assumption]..].
    apply app_cancel in E; [|rewrite !rev_length, (within_length _ _ Wb), (within_length _ _ Wb'); reflexivity]. destruct E as (E1 & E2). split; [exact E2|].
    rewrite <- (rev_involutive b), E1, rev_involutive. reflexivity.
  - intros k K. rewrite <- SZ in K. destruct (ravel_onto _ _ K) as (W & E). destruct (within_split _ _ _ W) as (a & s & E2 & Wa & Ws). exists s, (rev a). split; [exact Ws|]. split.
    + rewrite <- (rev_involutive B). apply within_rev. exact Wa.
    + rewrite rev_involutive, <- E2. exact E.
Qed.
Theorem C59_quasi : forall random_normal stateless_normal cholesky S B d mean cov scale sc ty seed skip rp P,
  arguments cholesky mean cov scale B d sc -> 0 < d ->
  sequence_points ty d (size S * size B) skip rp P ->
  (forall k i, k < size S * size B -> i < d -> (0 < point_coordinate P k i < 1)%R) ->
  exists t sel, multivariate_normal random_normal stateless_normal cholesky S mean cov scale (Some ty) seed skip rp = Some t /\
    shape t = S ++ B ++ [d] /\ numbering S B (size S * size B) sel /\
    forall s b, within S s -> within B b -> exists z,
      (forall l, l < d -> ncdf (z l) = point_coordinate P (sel s b) l) /\
      forall j L m, j < d -> scale_of sc B d b L -> mean_of mean B d b m -> elt t (s ++ b ++ [j]) = Fin (affine d (m j) L z j).
Proof.
  intros rn sn chol S B d mean cov scale sc ty seed skip rp P A D0 SP IN. open_arguments A.
  assert (E : multivariate_normal rn sn chol S mean cov scale (Some ty) seed skip rp = mvnormal_quasi chol S mean cov scale ty skip rp /\ low_discrepancy ty d (size S * size B) skip rp = P).
  { unfold multivariate_normal. destruct ty; cbn in SP; try contradiction; subst P; split; try reflexivity; destruct mean, cov, scale; try contradiction; reflexivity. }
  destruct E as (E & EP). rewrite E. unfold mvnormal_quasi. rewrite PM. cbv zeta.
  pose proof (num_points S B d D0) as NP. set (pt := fun idx => Q2R (nth (nth 1 idx 0) (nth (nth 0 idx 0) (low_discrepancy ty d (size (rev (B ++ [d]) ++ S) / d) skip rp) []) 0%Q)).
  assert (PT : forall k i, pt [k; i] = point_coordinate P k i) by (intros k i; unfold pt, point_coordinate; cbn [nth]; rewrite NP, EP; reflexivity).
  pose proof (arrange_shape S B d D0 pt) as SH. pose proof (arrange_elt S B d D0 pt) as EL. cbv zeta in SH, EL. set (t := arrange S (B ++ [d]) _) in *.
  eexists. exists (fun s b => ravel (rev B ++ S) (rev b ++ s)). split; [reflexivity|]. split; [cbn [shape shift_scale]; exact SH|]. split; [apply numbering_ok|].
  intros s b Ws Wb. pose proof (proj1 (numbering_ok S B) s b Ws Wb) as K. cbv beta in K. set (k := ravel (rev B ++ S) (rev b ++ s)) in *.
  assert (Z : forall n, n <= d -> exists z, forall l, l < n -> ncdf (z l) = point_coordinate P k l /\ erfinv ((point_coordinate P k l - / 2) * 2) *x Fin (sqrt 2) = Fin (z l)).
  { induction n as [|n IH]; intros Hn; [exists (fun _ => 0%R); intros; lia|]. destruct IH as (z & Z); [lia|]. destruct (erfinv_ok _ (IN k n K ltac:(lia))) as (x & E1 & E2).
    exists (fun l => if Nat.eqb l n then x else z l). intros l Hl. destruct (Nat.eqb_spec l n) as [->|N0]; [split; assumption|]. apply Z. lia. }
  destruct (Z d (le_n d)) as (z & ZV). exists z. split; [intros l Hl; apply ZV; exact Hl|].
  intros j L m J SC MN. apply (shift_scale_elt _ _ _ B); try assumption. intros l Hl. cbn [elt]. rewrite EL by assumption. fold k. rewrite PT. apply ZV. exact Hl.
Qed.
Print Assumptions C59_quasi.

(** The Sobol and Halton points are strictly inside the unit cube, so that
    every quasi-random draw is finite. *)
Theorem C59_points_inside : forall ty d n skip rp P, sequence_points ty d n skip rp P ->
  (ty = SOBOL /\ d <= 251 /\ (N.of_nat (skip + n + 1) <= 2 ^ 31)%N) \/ (ty = HALTON /\ d <= 1000 /\ (Z.of_nat (skip + n) < 2 ^ 24)%Z) ->
  forall k i, k < n -> i < d -> (0 < point_coordinate P k i < 1)%R.
Proof.
  intros ty d n skip rp P SP C k i K Ii. unfold point_coordinate.
  assert (G : forall q, (0 < q /\ q < 1)%Q -> (0 < Q2R q < 1)%R).
  { intros q (A & B). apply Qlt_Rlt in A, B. replace (Q2R 0) with 0%R in A by (unfold Q2R; cbn; ring). replace (Q2R 1) with 1%R in B by (unfold Q2R; cbn; field). split; assumption. }
  apply G. destruct C as [(-> & D & B)|(-> & D & B)]; cbn in SP; subst P.
  - apply sobol_inside; [lia|exact B|exact K].
  - set (idx := map Z.of_nat (seq skip n)). assert (LI : length idx = n) by (unfold idx; rewrite map_length, seq_length; reflexivity).
    assert (V : nth k idx 0%Z = Z.of_nat (skip + k)). { unfold idx. rewrite (nth_indep _ 0%Z (Z.of_nat 0)) by (rewrite map_length, seq_length; exact K). rewrite map_nth, seq_nth by exact K. reflexivity. }
    split.
    + apply C28_positive; [exact D|exact Ii|lia|]. rewrite V. lia.
    + apply C28_unit_interval; [exact D|exact Ii|exact Logic.I|lia].
Qed.
Print Assumptions C59_points_inside.

(** ** Moments *)
(** With independent standard normal numbers in place of the draws, the
    coordinates have mean m and covariance L L^T. *)
Theorem C59_moments : forall d m L C,
  (forall i j, i < d -> j < d -> C i j = sum_to d (fun l => L i l * L j l)%R) ->
  forall i j, i < d -> j < d ->
    iid_expectation d (fun z => affine d (m i) L (fun l => nth l z 0%R) i) (m i) /\
    iid_expectation d (fun z => (affine d (m i) L (fun l => nth l z 0%R) i - m i) * (affine d (m j) L (fun l => nth l z 0%R) j - m j))%R (C i j).
Proof.
  intros d m L C HC i j Ii J. split.
  - apply (iid_affine d (m i) (fun l => L i l)).
  - rewrite (HC i j Ii J). replace (sum_to d _) with (0 * 0 + sum_to d (fun l => L i l * L j l))%R by ring.
    apply (iid_ext d (fun z => (0 + sum_to d (fun l => L i l * coord z l)) * (0 + sum_to d (fun l => L j l * coord z l)))%R); [|apply iid_product].
    intros z. unfold affine, coord. ring.
Qed.
Print Assumptions C59_moments.
Theorem C59_moments_unique : forall d f e e', iid_expectation d f e -> iid_expectation d f e' -> e = e'.
Proof. exact iid_unique. Qed.
Print Assumptions C59_moments_unique.

(** ** Refused arguments *)
Theorem C59_errors : forall random_normal stateless_normal cholesky S mean cov scale ty seed skip rp,
  (mean = None /\ cov = None /\ scale = None) \/ (cov <> None /\ scale <> None) \/
  ((ty = STATELESS \/ ty = STATELESS_ANTITHETIC) /\ seed = None) \/
  ((ty = PSEUDO_ANTITHETIC \/ ty = STATELESS_ANTITHETIC) /\ (S = [] \/ exists n r, S = 2 * n + 1 :: r)) \/
  ty = Other ->
  multivariate_normal random_normal stateless_normal cholesky S mean cov scale (Some ty) seed skip rp = None.
Proof.
  intros rn sn chol S mean cov scale ty seed skip rp H. unfold multivariate_normal.
  destruct H as [(-> & -> & ->)|[(A & B)|[(A & ->)|[(A & B)|A]]]].
  - reflexivity.
  - destruct cov; [|contradiction]. destruct scale; [|contradiction]. destruct mean; reflexivity.
  - assert (P : forall S, mvnormal_pseudo rn sn chol S mean cov scale true None = None).
    { intros S0. unfold mvnormal_pseudo. destruct (process_mean_scale chol mean scale cov) as [(((? & ?) & ?) & ?)|]; reflexivity. }
    assert (Q : mvnormal_antithetic rn sn chol S mean cov scale true None = None).
    { unfold mvnormal_antithetic. destruct S as [|n r]; [reflexivity|]. rewrite P. destruct (negb _); reflexivity. }
    destruct A as [-> | ->]; rewrite ?P, ?Q; destruct mean, cov, scale; reflexivity.
  - assert (Q : forall st, mvnormal_antithetic rn sn chol S mean cov scale st seed = None).
    { intros st. unfold mvnormal_antithetic. destruct B as [-> |(n & r & ->)]; [reflexivity|]. replace ((2 * n + 1) mod 2) with 1 by (rewrite Nat.add_comm, Nat.mul_comm, Nat.mod_add by lia; reflexivity). reflexivity. }
    destruct A as [-> | ->]; rewrite !Q; destruct mean, cov, scale; reflexivity.
  - subst ty. destruct mean, cov, scale; reflexivity.
Qed.
Print Assumptions C59_errors.

(** ** Uniform draws *)
Theorem C59_uniform : forall random_uniform stateless_uniform dim S ty seed skip rp P,
  0 < dim -> sequence_points ty dim (size S) skip rp P ->
  exists t sel, uniform random_uniform stateless_uniform dim S (Some ty) seed skip rp = Some t /\ shape t = S ++ [dim] /\
    numbering S [] (size S) (fun s _ => sel s) /\
    forall s i, within S s -> i < dim -> elt t (s ++ [i]) = point_coordinate P (sel s) i.
Proof.
  intros ru su dim S ty seed skip rp P D0 SP.
  assert (E : uniform ru su dim S (Some ty) seed skip rp = Some (quasi_uniform dim S ty skip rp) /\ low_discrepancy ty dim (size S) skip rp = P).
  { destruct ty; cbn in SP; try contradiction; subst P; split; reflexivity. }
  destruct E as (E & EP). exists (quasi_uniform dim S ty skip rp), (ravel S). split; [exact E|]. split; [reflexivity|]. split.
  - split; [|split].
    + intros s b Ws _. apply ravel_lt, Ws.
    + intros s b s' b' Ws Wb Ws' Wb' X. inversion Wb. inversion Wb'. split; [exact (ravel_inj _ _ _ Ws Ws' X)|reflexivity].
    + intros k K. destruct (ravel_onto _ _ K) as (W & X). exists (unravel S k), []. repeat split; [exact W|constructor|exact X].
  - intros s i Ws Ii. unfold quasi_uniform. cbv zeta. cbn [reshape elt shape].
    assert (RV : forall sh idx, within sh idx -> ravel (sh ++ [dim]) (idx ++ [i]) = ravel sh idx * dim + i).
    { intros sh idx W. induction W as [|a n idx sh La W IH]; [cbn; lia|]. cbn [app ravel]. rewrite IH, size_app. change (size [dim]) with (dim * 1). ring. }
    rewrite (RV _ _ Ws). cbn [unravel]. change (size [dim]) with (dim * 1). change (size []) with 1. rewrite Nat.mul_1_r, Nat.div_1_r.
    rewrite (Nat.add_comm (_ * dim)), Nat.div_add, Nat.div_small, Nat.mod_add, Nat.mod_small by lia. cbn [nth Nat.add]. rewrite EP. reflexivity.
Qed.
Print Assumptions C59_uniform.
Theorem C59_uniform_errors : forall random_uniform stateless_uniform dim S skip rp,
  uniform random_uniform stateless_uniform dim S (Some STATELESS) None skip rp = None /\
  forall seed, uniform random_uniform stateless_uniform dim S (Some PSEUDO_ANTITHETIC) seed skip rp = None.
Proof. intros. split; reflexivity. Qed.
Print Assumptions C59_uniform_errors.

(** Antithetic uniform draws are refused with PSEUDO_ANTITHETIC.  With
    STATELESS_ANTITHETIC they are not: the result is the Halton sequence,
    whatever the seed, and no draw has its mirror image among the draws. *)
Theorem C59_uniform_antithetic_refuted : forall random_uniform stateless_uniform seed,
  exists t, uniform random_uniform stateless_uniform 1 [2] (Some STATELESS_ANTITHETIC) seed 0 None = Some t /\ shape t = [2; 1] /\
    elt t [0; 0] = (1 / 2)%R /\ elt t [1; 0] = (1 / 4)%R.
Proof.
  intros ru su seed. eexists. split; [reflexivity|]. split; [reflexivity|].
  assert (A : Qred (nth 0 (nth 0 (halton_sample 1 (map Z.of_nat (seq 0 2)) None) []) 0%Q) = (1 # 2)%Q) by (vm_compute; reflexivity).
  assert (B : Qred (nth 0 (nth 1 (halton_sample 1 (map Z.of_nat (seq 0 2)) None) []) 0%Q) = (1 # 4)%Q) by (vm_compute; reflexivity).
  assert (G : forall q p, Qred q = p -> Q2R q = Q2R p). { intros q p <-. apply Qeq_eqR. symmetry. apply Qred_correct. }
  split.
  - transitivity (Q2R (nth 0 (nth 0 (halton_sample 1 (map Z.of_nat (seq 0 2)) None) []) 0%Q)); [reflexivity|]. rewrite (G _ _ A). unfold Q2R. cbn. field.
  - transitivity (Q2R (nth 0 (nth 1 (halton_sample 1 (map Z.of_nat (seq 0 2)) None) []) 0%Q)); [reflexivity|]. rewrite (G _ _ B). unfold Q2R. cbn. field.
Qed.
Print Assumptions C59_uniform_antithetic_refuted.

(** ** C60 *)
(** The order of the rows is a permutation that depends on the seed and the
    number of rows only. *)
Theorem C60_shuffle : forall stateless_uniform seed n, exists sigma,
  Permutation sigma (seq 0 n) /\
  StronglySorted (fun i j => (stateless_uniform seed [n] [i] < stateless_uniform seed [n] [j])%R \/ stateless_uniform seed [n] [i] = stateless_uniform seed [n] [j] /\ i < j) sigma /\
  forall (A : Type) (d : A) (input : list A), length input = n ->
    stateless_random_shuffle stateless_uniform d input seed = map (fun i => nth i input d) sigma.
Proof.
  intros su seed n. set (u := map (fun i => su seed [n] [i]) (seq 0 n)). exists (argsort u).
  assert (LU : length u = n) by (unfold u; rewrite map_length, seq_length; reflexivity).
  assert (PM : Permutation (argsort u) (seq 0 n)) by (pose proof (argsort_perm u) as X; rewrite LU in X; exact X).
  split; [exact PM|]. split.
  - pose proof (argsort_sorted u) as St. assert (IN : forall i, In i (argsort u) -> nth i u 0%R = su seed [n] [i]).
    { intros i Hi. apply (Permutation_in _ PM) in Hi. apply in_seq in Hi. unfold u. apply (nth_map_seq (fun i => su seed [n] [i])). lia. }
    revert St IN. generalize (argsort u). intros l St. induction St as [|x l St IH F]; intros IN; constructor.
    + apply IH. intros; apply IN; right; assumption.
    + rewrite Forall_forall in *. intros y Y. specialize (F y Y). unfold before in F. cbn [fst snd] in F. rewrite !IN in F by (first [left; reflexivity|right; exact Y]). exact F.
  - intros A d input E. unfold stateless_random_shuffle. cbv zeta. rewrite E. reflexivity.
Qed.
Print Assumptions C60_shuffle.
Theorem C60_permutation : forall stateless_uniform (A : Type) (d : A) (input : list A) seed,
  Permutation (stateless_random_shuffle stateless_uniform d input seed) input.
Proof.
  intros su A d input seed. destruct (C60_shuffle su seed (length input)) as (sigma & P & _ & H). rewrite H by reflexivity.
  transitivity (map (fun i => nth i input d) (seq 0 (length input))); [apply Permutation_map, P|]. clear. induction input as [|x l IH]; [reflexivity|].
  cbn [length seq map nth]. constructor. rewrite <- seq_shift, map_map. exact IH.
Qed.
Print Assumptions C60_permutation.
(** Every order of the rows can come out: it is the one for uniform numbers
    that have that order. *)
Theorem C60_every_order : forall n sigma, Permutation sigma (seq 0 n) -> exists stateless_uniform, forall seed (A : Type) (d : A) (input : list A),
  length input = n -> stateless_random_shuffle stateless_uniform d input seed = map (fun i => nth i input d) sigma.
Proof.
  intros n sigma P. set (su := fun (_ : Z) (_ : list nat) (idx : list nat) => INR (index_of (nth 0 idx 0) sigma)). exists su. intros seed A d input E.
  destruct (C60_shuffle su seed n) as (tau & PT & St & H). rewrite (H A d input E). f_equal.
  assert (ND : NoDup sigma) by (apply (Permutation_NoDup (Permutation_sym P)), seq_NoDup).
  assert (PTS : Permutation tau sigma) by (transitivity (seq 0 n); [exact PT|symmetry; exact P]).
  assert (IDX : forall l i j, index_of i l = index_of j l -> In i l -> In j l -> i = j).
  { induction l as [|x l IH]; intros i j Q Hi Hj; [contradiction|]. cbn [index_of] in Q. destruct (Nat.eqb_spec x i) as [E1|N1]; destruct (Nat.eqb_spec x j) as [E2|N2]; try discriminate Q; [congruence|].
    injection Q as Q. apply IH; [exact Q| |]; [destruct Hi as [Hi|Hi]; [contradiction|exact Hi]|destruct Hj as [Hj|Hj]; [contradiction|exact Hj]]. }
  assert (SS : StronglySorted (fun i j => index_of i sigma < index_of j sigma) sigma).
  { clear - ND. assert (G : forall p l, NoDup (p ++ l) -> StronglySorted (fun i j => index_of i (p ++ l) < index_of j (p ++ l)) l).
    { intros p l. revert p. induction l as [|x l IH]; intros p N0; constructor.
      - specialize (IH (p ++ [x])). rewrite <- app_assoc in IH. apply IH. exact N0.
      - apply Forall_forall. intros y Y. assert (NP : forall w, In w (x :: l) -> ~ In w p).
        { intros w Hw Hp. clear IH. induction p as [|q p IHp]; [contradiction|]. cbn in N0. inversion N0 as [|? ? Nq Np]; subst. destruct Hp as [->|Hp]; [apply Nq, in_or_app; right; exact Hw|apply IHp; assumption]. }
        rewrite !index_of_skip by (apply NP; first [left; reflexivity|right; exact Y]). cbn [index_of]. rewrite Nat.eqb_refl. destruct (Nat.eqb_spec x y) as [<-|Nx]; [|lia].
        apply NoDup_remove_2 in N0. exfalso. apply N0, in_or_app. right. exact Y. }
    exact (G [] sigma ND). }
  assert (ST : StronglySorted (fun i j => index_of i sigma < index_of j sigma) tau).
  { assert (IN : forall i, In i tau -> In i sigma) by (intros i; apply Permutation_in; exact PTS). assert (NT : NoDup tau) by (apply (Permutation_NoDup (Permutation_sym PTS)), ND).
    clear - St IN NT IDX. induction St as [|x l St IH F]; constructor.
    - apply IH; [intros; apply IN; right; assumption|inversion NT; assumption].
    - rewrite Forall_forall in *. intros y Y. destruct (F y Y) as [L|(Q & _)]; unfold su in *; cbn [nth] in *; [apply INR_lt; exact L|].
      apply INR_eq in Q. apply IDX in Q; [|apply IN; left; reflexivity|apply IN; right; exact Y]. subst y. inversion NT; contradiction. }
  assert (U : forall (f : nat -> nat) t s, StronglySorted (fun i j => f i < f j) t -> StronglySorted (fun i j => f i < f j) s -> Permutation t s -> t = s); [|exact (U (fun i => index_of i sigma) tau sigma ST SS PTS)].
  clear. intros f t. induction t as [|x l IH]; intros [|y r] ST SS PTS.
  - reflexivity.
  - apply Permutation_nil in PTS. discriminate PTS.
  - symmetry in PTS. apply Permutation_nil in PTS. discriminate PTS.
  - inversion ST as [|? ? ST' F]; inversion SS as [|? ? SS' G]; subst. rewrite Forall_forall in F, G.
    assert (x = y).
    { assert (X : In x (y :: r)) by (apply (Permutation_in _ PTS); left; reflexivity). assert (Y : In y (x :: l)) by (apply (Permutation_in _ (Permutation_sym PTS)); left; reflexivity).
      destruct X as [X|X], Y as [Y|Y]; try congruence. specialize (F y Y). specialize (G x X). lia. }
    subst y. f_equal. apply IH; [assumption|assumption|]. apply Permutation_cons_inv in PTS. exact PTS.
Qed.
Print Assumptions C60_every_order.

(** ** Examples *)
(** A batch of two means with one covariance matrix, as in the documentation. *)
Definition ex_mean : tensor R := Tensor [2; 2] (fun idx => nth (nth 1 idx 0) (nth (nth 0 idx 0) [[1; -1]; [0; 2]]%R []) 0%R).
Definition ex_scale : tensor R := Tensor [2; 2] (fun idx => nth (nth 1 idx 0) (nth (nth 0 idx 0) [[2; 0]; [1; 3]]%R []) 0%R).
Definition ex_L (j l : nat) : R := elt ex_scale [j; l].
Example ex_arguments : arguments (fun _ => None) (Some ex_mean) None (Some ex_scale) [2] 2 (Some ex_scale) /\
  scale_of (Some ex_scale) [2] 2 [1] ex_L /\ mean_of (Some ex_mean) [2] 2 [1] (fun j => elt ex_mean [1; j]) /\ within [3] [2] /\ within [2] [1].
Proof.
  split; [split; reflexivity|]. split; [left; split; [reflexivity|intros; reflexivity]|]. split; [split; [reflexivity|intros; reflexivity]|].
  split; repeat constructor.
Qed.
Example ex_covariance : sum_to 2 (fun l => ex_L 0 l * ex_L 1 l)%R = 2%R /\ sum_to 2 (fun l => ex_L 1 l * ex_L 1 l)%R = 10%R.
Proof. unfold ex_L. cbn. split; ring. Qed.
Example ex_points : sequence_points SOBOL 2 6 0 None (sobol_sample 2 6 0 joe_kuo) /\ 2 <= 251 /\ (N.of_nat (0 + 6 + 1) <= 2 ^ 31)%N.
Proof. split; [reflexivity|]. split; [lia|]. vm_compute. discriminate. Qed.
Example ex_order : exists stateless_uniform, forall seed, stateless_random_shuffle stateless_uniform 0 [5; 6; 7] seed = [7; 5; 6].
Proof.
  destruct (C60_every_order 3 [2; 0; 1]) as (su & H).
  - change (seq 0 3) with ([0; 1] ++ [2]). apply (Permutation_cons_append [0; 1] 2).
  - exists su. intros seed. exact (H seed nat 0 [5; 6; 7] eq_refl).
Qed.
