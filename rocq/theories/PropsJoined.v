(** C71: joining processes with a correlation structure. *)
From Coquelicot Require Import Coquelicot.
From Coq Require Import Reals List Bool Arith Lia Lra FunctionalExtensionality.
From Verif Require Import TensorModel TensorProofs TimeGridModel TimeGridSpec PropsTimeGrid EulerModel EulerSpec PropsEuler
  BlackScholesSpec MvNormalSpec MvNormalProofs JoinedModel.
Import ListNotations.
Open Scope R_scope.

(** ** Specification *)
(** The coefficients use only the coordinates of the process. *)
Definition self_contained (p : process) : Prop :=
  forall t x y s, (forall s' c, (c < dim p)%nat -> x s' c = y s' c) ->
    forall c, (c < dim p)%nat -> drift_fn p t x s c = drift_fn p t y s c /\ forall k, (k < dim p)%nat -> volatility_fn p t x s c k = volatility_fn p t y s c k.
(** The first coordinate of process number i. *)
Definition offset (ps : list process) (i : nat) : nat := total_dim (firstn i ps).
(** The part of a state that belongs to process number i. *)
Definition part (o : nat) (x : samples) : samples := fun s c => x s (o + c)%nat.
(** Entry (k, l) of the block-diagonal matrix Corr(t): the entry of the block
    that contains both, or 0. *)
Inductive corr_entry : list corr_block -> R -> nat -> nat -> R -> Prop :=
| inside d m r t k l : (k < d)%nat -> (l < d)%nat -> corr_entry ((d, m) :: r) t k l (m t k l)
| apart_left d m r t k l : (k < d)%nat -> (d <= l)%nat -> corr_entry ((d, m) :: r) t k l 0
| apart_right d m r t k l : (d <= k)%nat -> (l < d)%nat -> corr_entry ((d, m) :: r) t k l 0
| beyond d m r t k l e : corr_entry r t k l e -> corr_entry ((d, m) :: r) t (d + k) (d + l) e.
(** The Cholesky factor L of every block satisfies L L' = block. *)
Definition factorises (cholesky : nat -> (nat -> nat -> R) -> nat -> nat -> R) (corr : list corr_block) (t : R) : Prop :=
  forall d m, In (d, m) corr -> forall k l, (k < d)%nat -> (l < d)%nat ->
    sum_to d (fun j => cholesky d (m t) k j * cholesky d (m t) l j) = m t k l.

(** ** Lemmas *)
Lemma rsum_sum f n : rsum f n = sum_to n f.
Proof. induction n as [|n IH]; [reflexivity|]. cbn [sum_to rsum]. rewrite IH. reflexivity. Qed.
Lemma rsum_app f n m : rsum f (n + m) = rsum f n + rsum (fun k => f (n + k)%nat) m.
Proof. induction m as [|m IH]; [rewrite Nat.add_0_r; cbn; ring|]. rewrite Nat.add_succ_r. cbn [rsum]. rewrite IH. ring. Qed.
Lemma rsum_zero f n : (forall k, (k < n)%nat -> f k = 0) -> rsum f n = 0.
Proof. induction n as [|n IH]; intros H; [reflexivity|]. cbn [rsum]. rewrite IH by (intros; apply H; lia). rewrite H by lia. ring. Qed.
Lemma rsum_scal a f n : rsum (fun k => a * f k) n = a * rsum f n.
Proof. induction n as [|n IH]; [cbn; ring|]. cbn [rsum]. rewrite IH. ring. Qed.
Lemma rsum_plus' f g n : rsum (fun k => f k + g k) n = rsum f n + rsum g n.
Proof. induction n as [|n IH]; [cbn; ring|]. cbn [rsum]. rewrite IH. ring. Qed.
Lemma rsum_swap (f : nat -> nat -> R) n m : rsum (fun i => rsum (f i) m) n = rsum (fun j => rsum (fun i => f i j) n) m.
Proof.
  induction n as [|n IH]; cbn [rsum]; [symmetry; apply rsum_zero; reflexivity|]. rewrite IH, <- rsum_plus'. reflexivity.
Qed.

Lemma drift_at ps i t x s c i1 : (i < length ps)%nat -> (c < dim (nth i ps clock))%nat ->
  joined_drift ps i1 t x s (offset ps i + c) = drift_fn (nth i ps clock) t (position (i1 + offset ps i) (dim (nth i ps clock)) x) s c.
Proof.
  revert i i1. induction ps as [|p ps IH]; intros i i1 L C; [cbn in L; lia|]. unfold offset. destruct i as [|i].
  - cbn [firstn total_dim nth Nat.add] in *. cbn [joined_drift]. destruct (Nat.ltb_spec c (dim p)); [|lia]. rewrite Nat.add_0_r. reflexivity.
  - cbn [firstn total_dim nth] in *. cbn [joined_drift]. destruct (Nat.ltb_spec (dim p + total_dim (firstn i ps) + c) (dim p)); [lia|].
    replace (dim p + total_dim (firstn i ps) + c - dim p)%nat with (offset ps i + c)%nat by (unfold offset; lia).
    rewrite IH by (cbn in L; lia || assumption). unfold offset. rewrite Nat.add_assoc. reflexivity.
Qed.
Lemma vols_sum ps i t x s c i1 (f : nat -> R) : (i < length ps)%nat -> (c < dim (nth i ps clock))%nat ->
  rsum (fun k => block_diagonal (joined_vols ps i1 t x s) (offset ps i + c) k * f k) (total_dim ps) =
  rsum (fun k => volatility_fn (nth i ps clock) t (position (i1 + offset ps i) (dim (nth i ps clock)) x) s c k * f (offset ps i + k)%nat) (dim (nth i ps clock)).
Proof.
  revert i i1 f. induction ps as [|p ps IH]; intros i i1 f L C; [cbn in L; lia|]. unfold offset. cbn [total_dim]. rewrite rsum_app. destruct i as [|i].
  - cbn [firstn total_dim nth Nat.add] in *. cbn [joined_vols block_diagonal]. destruct (Nat.ltb_spec c (dim p)); [|lia]. rewrite Nat.add_0_r.
    rewrite (rsum_zero (fun k => _ * f (dim p + k)%nat)).
    + rewrite Rplus_0_r. apply rsum_ext. intros k K. destruct (Nat.ltb_spec k (dim p)); [reflexivity|lia].
    + intros k K. destruct (Nat.ltb_spec (dim p + k) (dim p)); [lia|ring].
  - cbn [firstn total_dim nth] in *. cbn [joined_vols block_diagonal]. destruct (Nat.ltb_spec (dim p + total_dim (firstn i ps) + c) (dim p)); [lia|].
    rewrite rsum_zero.
    + rewrite Rplus_0_l. replace (dim p + total_dim (firstn i ps) + c - dim p)%nat with (offset ps i + c)%nat by (unfold offset; lia).
      transitivity (rsum (fun k => block_diagonal (joined_vols ps (i1 + dim p) t x s) (offset ps i + c) k * f (dim p + k)%nat) (total_dim ps)).
      { apply rsum_ext. intros k K. destruct (Nat.ltb_spec (dim p + k) (dim p)); [lia|]. replace (dim p + k - dim p)%nat with k by lia. reflexivity. }
      rewrite IH by (cbn in L; lia || assumption). apply rsum_ext. intros k K. unfold offset. rewrite !Nat.add_assoc. reflexivity.
    + intros k K. destruct (Nat.ltb_spec k (dim p)); [ring|lia].
Qed.

Lemma offset_lt ps i c : (i < length ps)%nat -> (c < dim (nth i ps clock))%nat -> (offset ps i + c < total_dim ps)%nat.
Proof.
  revert i. induction ps as [|p ps IH]; intros i L C; [cbn in L; lia|]. unfold offset. destruct i as [|i]; cbn [firstn total_dim nth] in *; [lia|].
  specialize (IH i ltac:(cbn in L; lia) C). unfold offset in IH. lia.
Qed.

Section Paths.
Variables (cholesky : nat -> (nat -> nat -> R) -> nat -> nat -> R) (ps : list process) (corr : list corr_block).

(** The correlated draws: chol(t) times the draws of the step. *)
Definition correlated_draws (grid : nat -> R) (z : nat -> samples) : nat -> samples :=
  fun n s k => sum_to (total_dim ps) (fun l => cholesky_decomp cholesky corr (grid (S n)) k l * z n s l).
Let joined := Process (total_dim ps) (joined_drift ps 0) (joined_volatility cholesky ps corr).
Lemma joined_path grid z x0 i : (i < length ps)%nat -> self_contained (nth i ps clock) ->
  forall n s c, (c < dim (nth i ps clock))%nat ->
    end_path joined grid z x0 n s (offset ps i + c)%nat =
    end_path (nth i ps clock) grid (fun m => part (offset ps i) (correlated_draws grid z m)) (part (offset ps i) x0) n s c.
Proof.
  intros L SC. set (q := nth i ps clock) in *. set (o := offset ps i).
  induction n as [|n IH]; intros s c C; [reflexivity|]. cbn [end_path].
  set (X := end_path joined grid z x0 n) in *. set (Y := end_path q grid _ _ n) in *. unfold EulerSpec.increment.
  assert (AG : forall s' c', (c' < dim q)%nat -> position o (dim q) X s' c' = Y s' c').
  { intros s' c' C'. unfold position. destruct (Nat.ltb_spec c' (dim q)); [apply IH; exact C'|lia]. }
  destruct (SC (grid (S n)) (position o (dim q) X) Y s AG c C) as (SD & SV).
  rewrite (IH s c C). f_equal; [f_equal|].
  - cbn [joined drift_fn]. unfold o. rewrite drift_at by assumption. cbn [Nat.add]. fold q o. rewrite SD. reflexivity.
  - cbn [joined volatility_fn dim]. unfold joined_volatility.
    transitivity (rsum (fun l => rsum (fun k => block_diagonal (joined_vols ps 0 (grid (S n)) X s) (o + c) k *
        (cholesky_decomp cholesky corr (grid (S n)) k l * (sqrt (grid (S n) - grid n) * z n s l))) (total_dim ps)) (total_dim ps)).
    { apply rsum_ext. intros l _. rewrite Rmult_comm, <- rsum_scal. apply rsum_ext. intros k _. ring. }
    rewrite rsum_swap.
    transitivity (rsum (fun k => block_diagonal (joined_vols ps 0 (grid (S n)) X s) (o + c) k * (sqrt (grid (S n) - grid n) * correlated_draws grid z n s k)) (total_dim ps)).
    { apply rsum_ext. intros k _. rewrite rsum_scal. f_equal. unfold correlated_draws. rewrite <- rsum_sum, <- rsum_scal. apply rsum_ext. intros; ring. }
    unfold o at 1. rewrite vols_sum by assumption. cbn [Nat.add]. fold q o. apply rsum_ext. intros k K. rewrite (SV k K). reflexivity.
Qed.
End Paths.

(** The joined sample, restricted to the coordinates of one of the processes, is
    the Euler sample of that process alone driven by its part of the correlated
    draws. *)
Theorem C71_paths cholesky ps corr times step tol z x0 :
  corr_dim corr = total_dim ps -> (forall p, In p ps -> self_contained p) ->
  times <> [] -> gaps_above (2 * tol) times -> 0 <= nth 0 times 0 -> 2 * tol < step -> 0 < step -> 0 <= tol < 1 ->
  exists grid mask idx X, prepare_grid times step tol None None = Some (grid, mask, idx) /\ length idx = length times /\
    joined_sample_paths cholesky ps corr times (Some step) tol z x0 = Some (map (fun i => Some (X i)) idx) /\
    forall i, (i < length ps)%nat -> let p := nth i ps clock in let o := offset ps i in
      exists Y, euler_sample p times (Some step) None None tol false false
                  (fun n => part o (correlated_draws cholesky ps corr (fun n => nth n grid 0) z n)) (part o x0) = Some (map (fun i => Some (Y i)) idx) /\
        forall n s c, (c < dim p)%nat -> X n s (o + c)%nat = Y n s c.
Proof.
  intros CD SC Hn Hg H0 Hs1 Hs Ht.
  destruct (C46_time_step (Process (total_dim ps) (joined_drift ps 0) (joined_volatility cholesky ps corr)) times step tol false false z x0 Hn Hg H0 Hs1 Hs Ht)
    as (grid & mask & idx & E1 & E2 & E3).
  exists grid, mask, idx, (end_path (Process (total_dim ps) (joined_drift ps 0) (joined_volatility cholesky ps corr)) (fun n => nth n grid 0) z x0).
  split; [exact E1|]. split; [exact E2|]. split.
  { unfold joined_sample_paths, joined_process. rewrite CD, Nat.eqb_refl. exact E3. }
  intros i L. cbv zeta.
  destruct (C46_time_step (nth i ps clock) times step tol false false
    (fun n => part (offset ps i) (correlated_draws cholesky ps corr (fun n => nth n grid 0) z n)) (part (offset ps i) x0) Hn Hg H0 Hs1 Hs Ht) as (grid' & mask' & idx' & E1' & _ & E3').
  rewrite E1 in E1'. injection E1' as <- <- <-.
  exists (end_path (nth i ps clock) (fun n => nth n grid 0) (fun n => part (offset ps i) (correlated_draws cholesky ps corr (fun n => nth n grid 0) z n)) (part (offset ps i) x0)).
  split; [exact E3'|]. intros n s c C. apply joined_path; [exact L|apply SC, nth_In, L|exact C].
Qed.

(** ** The law of the correlated draws *)
Lemma chol_product cholesky corr t : factorises cholesky corr t -> forall k l e, corr_entry corr t k l e ->
  sum_to (corr_dim corr) (fun j => cholesky_decomp cholesky corr t k j * cholesky_decomp cholesky corr t l j) = e.
Proof.
  intros F k l e E. induction E as [d m r t k l K L|d m r t k l K L|d m r t k l K L|d m r t k l e E IH].
  - cbn [corr_dim]. rewrite <- rsum_sum, rsum_app. rewrite (rsum_zero (fun j => cholesky_decomp cholesky ((d, m) :: r) t k (d + j) * _)).
    + rewrite Rplus_0_r. rewrite <- (F d m (or_introl eq_refl) k l K L), <- rsum_sum. apply rsum_ext. intros j J. unfold cholesky_decomp. cbn [map block_diagonal].
      destruct (Nat.ltb_spec k d); [|lia]. destruct (Nat.ltb_spec l d); [|lia]. destruct (Nat.ltb_spec j d); [reflexivity|lia].
    + intros j J. unfold cholesky_decomp. cbn [map block_diagonal]. destruct (Nat.ltb_spec k d); [|lia]. destruct (Nat.ltb_spec (d + j) d); [lia|ring].
  - cbn [corr_dim]. rewrite <- rsum_sum. apply rsum_zero. intros j J. unfold cholesky_decomp. cbn [map block_diagonal].
    destruct (Nat.ltb_spec k d); [|lia]. destruct (Nat.ltb_spec l d); [lia|]. destruct (Nat.ltb_spec j d); ring.
  - cbn [corr_dim]. rewrite <- rsum_sum. apply rsum_zero. intros j J. unfold cholesky_decomp. cbn [map block_diagonal].
    destruct (Nat.ltb_spec k d); [lia|]. destruct (Nat.ltb_spec l d); [|lia]. destruct (Nat.ltb_spec j d); ring.
  - rewrite <- IH by (intros d' m' I'; apply (F d' m'); right; exact I'). cbn [corr_dim]. rewrite <- !rsum_sum, rsum_app. rewrite rsum_zero.
    + rewrite Rplus_0_l. apply rsum_ext. intros j J. unfold cholesky_decomp. cbn [map block_diagonal].
      destruct (Nat.ltb_spec (d + k) d); [lia|]. destruct (Nat.ltb_spec (d + l) d); [lia|]. destruct (Nat.ltb_spec (d + j) d); [lia|].
      replace (d + k - d)%nat with k by lia. replace (d + l - d)%nat with l by lia. replace (d + j - d)%nat with j by lia. reflexivity.
    + intros j J. unfold cholesky_decomp. cbn [map block_diagonal]. destruct (Nat.ltb_spec (d + k) d); [lia|]. destruct (Nat.ltb_spec j d); [ring|lia].
Qed.
(** When the draws of a step are independent standard normal variables, the
    correlated draws have mean 0 and covariance Corr(t). *)
Theorem C71_correlation cholesky ps corr grid n s k l e :
  corr_dim corr = total_dim ps -> factorises cholesky corr (grid (S n)) -> corr_entry corr (grid (S n)) k l e ->
  let w k z := correlated_draws cholesky ps corr grid (fun _ _ c => nth c z 0) n s k in
  iid_expectation (total_dim ps) (w k) 0 /\ iid_expectation (total_dim ps) (fun z => w k z * w l z) e.
Proof.
  intros CD F E w. unfold w, correlated_draws. split.
  - pose proof (iid_affine (total_dim ps) 0 (fun j => cholesky_decomp cholesky corr (grid (S n)) k j)) as A.
    refine (iid_ext _ _ _ _ _ A). intros z. rewrite Rplus_0_l. reflexivity.
  - pose proof (iid_product (total_dim ps) 0 (fun j => cholesky_decomp cholesky corr (grid (S n)) k j) 0 (fun j => cholesky_decomp cholesky corr (grid (S n)) l j)) as A.
    pose proof (chol_product cholesky corr (grid (S n)) F k l e E) as P. rewrite CD in P. cbv beta in A. rewrite P, Rmult_0_l, Rplus_0_l in A.
    refine (iid_ext _ _ _ _ _ A). intros z. rewrite !Rplus_0_l. reflexivity.
Qed.

(** Refused: no time step; a correlation structure of another size. *)
Theorem C71_errors cholesky ps corr times time_step tol z x0 :
  time_step = None \/ corr_dim corr <> total_dim ps -> joined_sample_paths cholesky ps corr times time_step tol z x0 = None.
Proof.
  intros H. unfold joined_sample_paths. destruct time_step as [d|]; [|reflexivity]. destruct H as [H|H]; [discriminate|].
  unfold joined_process. destruct (Nat.eqb_spec (corr_dim corr) (total_dim ps)); [contradiction|reflexivity].
Qed.

(** A non-trivial case: one asset and one process of dimension 2; the asset is
    correlated with the first coordinate of the other. *)
Example C71_ex : let p := Process 1 (fun _ _ _ _ => 0) (fun _ x s c _ => x s c / 5) in
  let q := Process 2 (fun _ x s c => - x s c) (fun t x s c k => if Nat.eqb c k then t + x s 0%nat else 0) in
  let corr := [(2%nat, fun _ k l => if Nat.eqb k l then 1 else 3 / 5); (1%nat, fun _ _ _ => 1)] in
  let chol := fun d (m : nat -> nat -> R) k l => match k, l with 0%nat, 0%nat => 1 | 1%nat, 0%nat => 3 / 5 | 1%nat, 1%nat => 4 / 5 | _, _ => 0 end in
  corr_dim corr = total_dim [p; q] /\ (forall r, In r [p; q] -> self_contained r) /\ (forall t, factorises chol corr t) /\
  corr_entry corr 0 0 1 (3 / 5) /\ corr_entry corr 0 2 2 1 /\ corr_entry corr 0 1 2 0 /\ offset [p; q] 1 = 1%nat.
Proof.
  intros p q corr chol. split; [reflexivity|]. split.
  { intros r [<-|[<-|[]]]; intros t x y s AG c C; cbn in *; (split; [rewrite ?(AG s c C); reflexivity|]); intros k K.
    - rewrite (AG s c C). reflexivity.
    - rewrite (AG s 0%nat) by lia. reflexivity. }
  split.
  { intros t d m [H|[H|[]]] k l K L; injection H as <- <-.
    - destruct k as [|[|k]]; [| |lia]; (destruct l as [|[|l]]; [| |lia]); cbn; field.
    - destruct k as [|k]; [|lia]. destruct l as [|l]; [|lia]. cbn. field. }
  split; [apply (inside 2 (fun _ k l => if Nat.eqb k l then 1 else 3 / 5)); lia|].
  split; [apply (beyond 2 _ _ 0 0 0), (inside 1 (fun _ _ _ => 1)); lia|].
  split; [apply apart_left; lia|reflexivity].
Qed.

Print Assumptions C71_paths.
Print Assumptions C71_correlation.
Print Assumptions C71_errors.
