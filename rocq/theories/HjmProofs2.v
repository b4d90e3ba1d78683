(** Proofs about the Gaussian HJM model: simulation on the prepared grid. *)
From Coquelicot Require Import Coquelicot.
From Coq Require Import ZArith Reals List Bool Arith Lia Lra FunctionalExtensionality Permutation.
From Verif Require Import TensorModel TensorProofs SegmentModel BrentModel ExtReal VarianceProofs LoopModel LoopProofs PropsLoop TimeGridModel TimeGridSpec TimeGridProofs PropsTimeGrid EulerModel EulerSpec PropsEuler
  MvNormalSpec GbmModel GbmProofs2 PropsMc HjmModel HjmSpec HjmProofs.
Import ListNotations.
Open Scope R_scope.

(** ** Preparing a prepared grid again *)
Lemma gaps_apart d l : 0 <= d -> gaps_above d l -> forall x y, In x l -> In y l -> x < y -> x + d < y.
Proof.
  intros D. induction l as [|a l IH]; intros G x y X Y L; [destruct X|]. destruct X as [X|X].
  - subst a. destruct Y as [Y|Y]; [lra|]. apply (gaps_later d x l D G y Y).
  - destruct Y as [Y|Y]; [subst a; pose proof (gaps_later d y l D G x X); lra|]. apply IH; [apply (gaps_tl d a l G)|assumption..].
Qed.
Lemma sort_cons l : l <> [] -> exists x r, sort l = x :: r /\ sorted_from x r.
Proof.
  intros N. destruct (sort l) as [|x r] eqn:E; [pose proof (sort_length l) as L; rewrite E in L; destruct l; [contradiction|discriminate]|].
  exists x, r. split; [reflexivity|]. pose proof (sort_nondecr l) as ND. rewrite E in ND. clear - ND.
  revert x ND. induction r as [|y r IH]; intros x ND; [exact Logic.I|]. split; [apply (ND 0%nat); cbn; lia|]. apply IH. intros i Hi. apply (ND (S i)). cbn in *. lia.
Qed.
Lemma dedup_in tol l : 0 <= tol < 1 -> l <> [] -> forall x, In x (dedup tol (sort l)) <-> In x l /\ forall z, In z l -> z < x -> z + tol < x.
Proof.
  intros T N. destruct (sort_cons l N) as (p & r & E & SR). intros x. rewrite E, dedup_eq by lra. assert (IN : forall z, In z l <-> In z (p :: r)) by (intros z; rewrite <- E; symmetry; apply sort_in). rewrite IN. split.
  - intros H. split; [destruct H as [->|H]; [left; reflexivity|right; apply (dd_in tol p), H]|]. intros z Hz L. rewrite IN in Hz. apply (dd_chain tol p r SR z Hz x H L).
  - intros (H & A). destruct (Req_dec x p) as [->|NE]; [left; reflexivity|]. right. destruct H as [->|H]; [contradiction|].
    (* the first occurrence *)
    assert (F : exists i, (i < length r)%nat /\ nth i r 0 = x /\ forall j, (j < i)%nat -> nth j r 0 <> x).
    { clear - H. induction r as [|y r IH]; [destruct H|]. destruct (Req_dec y x) as [->|NE]; [exists 0%nat; split; [cbn; lia|split; [reflexivity|intros j J; lia]]|].
      destruct H as [->|H]; [contradiction|]. destruct (IH H) as (i & L & E & M). exists (S i). split; [cbn; lia|]. split; [exact E|]. intros [|j] J; [exact NE|apply M; lia]. }
    destruct F as (i & L & Ex & M). rewrite <- Ex. apply dd_kept; [exact L|]. rewrite Ex.
    assert (PR : In (nth i (p :: r) 0) (p :: r)) by (apply nth_In; cbn; lia). rewrite <- IN in PR. specialize (A _ PR).
    assert (LE : nth i (p :: r) 0 <= x). { pose proof (sorted_from_nondecr p r SR i ltac:(cbn; lia)) as Q. unfold at_ in Q. cbn [nth] in Q. rewrite Ex in Q. exact Q. }
    assert (NQ : nth i (p :: r) 0 <> x) by (destruct i as [|i]; [cbn; intros Q; apply NE; symmetry; exact Q|cbn [nth]; apply M; lia]). lra.
Qed.
Lemma dedup_increasing tol l : 0 <= tol < 1 -> increasing (dedup tol (sort l)).
Proof.
  intros T. destruct l as [|a l']; [intros i Hi; cbn in Hi; lia|]. destruct (sort_cons (a :: l') ltac:(discriminate)) as (p & r & E & SR). rewrite E, dedup_eq by lra.
  apply (gaps_increasing tol); [lra|]. apply dd_gaps; [lra|exact SR].
Qed.
Lemma increasing_same a : forall b, increasing a -> increasing b -> (forall x, In x a <-> In x b) -> a = b.
Proof.
  induction a as [|x a IH]; intros b A B H.
  - destruct b as [|y b]; [reflexivity|]. destruct (proj2 (H y) (or_introl eq_refl)).
  - destruct b as [|y b]; [destruct (proj1 (H x) (or_introl eq_refl))|].
    assert (FA := fun z => gaps_later 0 x a (Rle_refl 0) A z). assert (FB := fun z => gaps_later 0 y b (Rle_refl 0) B z).
    assert (E : x = y).
    { destruct (proj1 (H x) (or_introl eq_refl)) as [Q|Q]; [symmetry; exact Q|]. destruct (proj2 (H y) (or_introl eq_refl)) as [Q'|Q']; [exact Q'|]. apply FB in Q. apply FA in Q'. lra. }
    subst y. f_equal. apply IH; [apply (gaps_tl 0 x a A)|apply (gaps_tl 0 x b B)|]. intros z. split; intros Z.
    + destruct (proj1 (H z) (or_intror Z)) as [<-|Q]; [apply FA in Z; lra|exact Q].
    + destruct (proj2 (H z) (or_intror Z)) as [<-|Q]; [apply FB in Z; lra|exact Q].
Qed.
Lemma prepare_step_inv times step tol grid mask idx : prepare_grid times step tol None None = Some (grid, mask, idx) ->
  exists r, range_from_0 (last times 0) step = Some r /\ grid = dedup tol (sort (times ++ r)).
Proof.
  unfold prepare_grid, grid_from_time_step. destruct times as [|t0 times]; [discriminate|]. destruct (range_from_0 _ step) as [r|]; [|discriminate]. intros H. exists r. split; [reflexivity|].
  set (D := dedup tol (sort ((t0 :: times) ++ r))) in *. destruct (all_some _); [|discriminate]. destruct (scatter_mask _ _); [|discriminate]. injection H as <- _ _. reflexivity.
Qed.
Lemma last_in (l : list R) : l <> [] -> In (last l 0) l.
Proof. intros N. destruct (exists_last N) as (l' & a & ->). rewrite last_last. apply in_or_app. right. left. reflexivity. Qed.
Lemma last_max l : increasing l -> forall x, In x l -> x <= last l 0.
Proof.
  induction l as [|a l IH]; intros G x X; [destruct X|]. destruct l as [|b l]; [destruct X as [->|[]]; cbn; lra|]. change (last (a :: b :: l) 0) with (last (b :: l) 0).
  assert (Q := IH (gaps_tl 0 a _ G)). destruct X as [->|X]; [pose proof (gaps_later 0 x (b :: l) (Rle_refl 0) G b (or_introl eq_refl)); specialize (Q b (or_introl eq_refl)); lra|apply Q, X].
Qed.
Lemma last_not_after_self l i k : increasing l -> (k < length l)%nat -> last_not_after l i (nth k l 0) -> i = k.
Proof.
  intros INC K (I1 & I2 & I3). destruct (Nat.lt_trichotomy i k) as [L|[L|L]]; [|exact L|].
  - specialize (I3 k ltac:(lia)). lra.
  - pose proof (incr_lt l (increasing_incr l INC) k i ltac:(lia) I1) as Q. unfold at_ in Q. lra.
Qed.
Lemma regrid times step tol grid mask idx :
  times <> [] -> gaps_above (2 * tol) times -> 0 <= nth 0 times 0 -> 2 * tol < step -> 0 < step -> 0 <= tol < 1 ->
  prepare_grid times step tol None None = Some (grid, mask, idx) ->
  exists mask', prepare_grid grid step tol None None = Some (grid, mask', seq 0 (length grid)) /\ marks mask' (length grid) (seq 0 (length grid)).
Proof.
  intros TN TG T0 S2 S0 TT E. assert (TI : increasing times) by (apply (gaps_increasing (2 * tol)); [lra|exact TG]).
  destruct (C45_time_step times step tol TN TI T0 S0 TT) as (grid1 & mask1 & idx1 & E1 & G0 & GA & GI & LI & _ & _). assert (grid1 = grid) by congruence. subst grid1. clear E1 mask1 idx1 LI.
  destruct (prepare_step_inv _ _ _ _ _ _ E) as (r & ER & EG). assert (GN : grid <> []) by (rewrite EG; destruct times as [|a l]; [contradiction|]; destruct (sort_cons ((a :: l) ++ r) ltac:(discriminate)) as (p & q & -> & _); rewrite dedup_eq by lra; discriminate).
  assert (INC : increasing grid) by (apply (gaps_increasing tol); [lra|exact GA]).
  destruct (C45_time_step grid step tol GN INC ltac:(rewrite G0; lra) S0 TT) as (grid2 & mask2 & idx2 & E2 & _ & GA2 & _ & LI2 & LN2 & MK2).
  destruct (prepare_step_inv _ _ _ _ _ _ E2) as (r2 & ER2 & EG2).
  assert (L0 : 0 <= last times 0) by (apply Rle_trans with (nth 0 times 0); [exact T0|apply (last_max times TI), nth_In; destruct times; [contradiction|cbn; lia]]).
  assert (GI0 : forall x, In x grid -> 0 <= x) by (intros x X; destruct (In_nth _ _ 0 X) as (i & Li & <-); destruct i as [|i]; [lra|]; pose proof (incr_lt grid (increasing_incr grid INC) 0 (S i) ltac:(lia) Li) as Q; unfold at_ in Q; lra).
  destruct (range_ok (last times 0) step S0 L0) as (m & Rm & _ & Rl). rewrite ER in Rm. injection Rm as ->.
  destruct (range_ok (last grid 0) step S0 (GI0 _ (last_in grid GN))) as (m2 & Rm2 & Ru2 & Rl2). rewrite ER2 in Rm2. injection Rm2 as ->.
  set (r := map (fun i => INR i * step) (seq 0 m)) in *. set (r2 := map (fun i => INR i * step) (seq 0 m2)) in *.
  assert (RG : gaps_above (2 * tol) r) by (apply grid_gaps; lra).
  assert (NA : times ++ r <> []) by (destruct times; [contradiction|discriminate]). assert (NB : grid ++ r2 <> []) by (destruct grid; [contradiction|discriminate]).
  assert (INg := dedup_in tol (times ++ r) TT NA). rewrite <- EG in INg. assert (INg2 := dedup_in tol (grid ++ r2) TT NB). rewrite <- EG2 in INg2.
  assert (UB : forall x, In x (times ++ r) -> x <= last times 0).
  { intros x X. apply in_app_or in X. destruct X as [X|X]; [apply (last_max times TI), X|]. unfold r in X. apply in_map_iff in X. destruct X as (k & <- & Kk). apply in_seq in Kk. left. apply Rl. lia. }
  assert (SUB2 : forall x, In x r2 -> In x r).
  { intros x X. unfold r2 in X. apply in_map_iff in X. destruct X as (k & <- & Kk). apply in_seq in Kk. apply in_map_iff. exists k. split; [reflexivity|]. apply in_seq. split; [lia|].
    destruct (lt_dec k (0 + m)) as [Q|Q]; [exact Q|exfalso]. specialize (Rl2 k ltac:(lia)). assert (last grid 0 <= last times 0) by (apply UB, (proj1 (INg _)), last_in, GN).
    destruct (range_ok (last times 0) step S0 L0) as (m' & Rm' & Ru' & _). rewrite ER in Rm'. assert (length r = length (map (fun i : nat => INR i * step) (seq 0 m'))) as LL by congruence. unfold r in LL. rewrite !map_length, !seq_length in LL. subst m'.
    assert (INR m <= INR k) by (apply le_INR; lia). nra. }
  assert (SUB : forall x, In x (grid ++ r2) -> In x (times ++ r)).
  { intros x X. apply in_app_or in X. destruct X as [X|X]; [apply (proj1 (INg x)), X|apply in_or_app; right; apply SUB2, X]. }
  assert (EQ : grid2 = grid).
  { apply increasing_same; [apply (gaps_increasing tol); [lra|exact GA2]|exact INC|]. intros x. split; intros X.
    - apply INg2 in X. destruct X as (X & A). destruct (in_dec Req_EM_T x grid) as [Q|Q]; [exact Q|exfalso]. apply in_app_or in X. destruct X as [X|X]; [contradiction|].
      assert (XR : In x r) by (apply SUB2, X). assert (NG : exists z, In z (times ++ r) /\ z < x /\ x <= z + tol).
      { destruct (Exists_dec (fun z => z < x /\ x <= z + tol) (times ++ r)) as [Y|Y].
        - intros z. destruct (Rlt_dec z x); [|right; lra]. destruct (Rle_dec x (z + tol)); [left; lra|right; lra].
        - apply Exists_exists in Y. destruct Y as (z & Z1 & Z2). exists z. tauto.
        - exfalso. apply Q. apply INg. split; [apply in_or_app; right; exact XR|]. intros z Z L. apply Rnot_le_lt. intros C. apply Y. apply Exists_exists. exists z. split; [exact Z|lra]. }
      destruct NG as (z & Z1 & Z2 & Z3). destruct (in_dec Req_EM_T z grid) as [ZG|ZG].
      + specialize (A z (in_or_app _ _ _ (or_introl ZG)) Z2). lra.
      + assert (ZT : In z times) by (apply in_app_or in Z1; destruct Z1 as [Z1|Z1]; [exact Z1|]; pose proof (gaps_apart (2 * tol) r ltac:(lra) RG z x Z1 XR Z2); lra).
        apply ZG. apply INg. split; [exact Z1|]. intros w W L. apply Rnot_le_lt. intros C. apply in_app_or in W. destruct W as [W|W].
        * pose proof (gaps_apart (2 * tol) times ltac:(lra) TG w z W ZT L). lra.
        * pose proof (gaps_apart (2 * tol) r ltac:(lra) RG w x W XR ltac:(lra)). lra.
    - apply INg2. split; [apply in_or_app; left; exact X|]. intros z Z L. apply (proj2 (proj1 (INg x) X) z); [apply SUB, Z|exact L]. }
  clear EG2 INg2. subst grid2. assert (EI : idx2 = seq 0 (length grid)).
  { apply (nth_ext _ _ 0%nat 0%nat); [rewrite seq_length; exact LI2|]. intros k Hk. rewrite seq_nth by lia. cbn [plus]. apply (last_not_after_self grid); [exact INC|lia|apply LN2; lia]. }
  subst idx2. exists mask2. split; [exact E2|exact MK2].
Qed.

(** ** The recorded states *)
Lemma increasing_seq a n : increasing_nat (seq a n).
Proof. intros k Hk. rewrite seq_length in Hk. rewrite !seq_nth by lia. lia. Qed.
Lemma euler_all p times step tol draws x0 grid mask idx :
  times <> [] -> gaps_above (2 * tol) times -> 0 <= nth 0 times 0 -> 2 * tol < step -> 0 < step -> 0 <= tol < 1 ->
  prepare_grid times step tol None None = Some (grid, mask, idx) ->
  euler_sample p grid (Some step) None None tol false false draws x0 = Some (map (fun i => Some (end_path p (fun n => nth n grid 0) draws x0 i)) (seq 0 (length grid))).
Proof.
  intros TN TG T0 S2 S0 TT E. destruct (regrid times step tol grid mask idx TN TG T0 S2 S0 TT E) as (mask' & E' & MK).
  apply (euler_on_grid p grid (Some step) None None tol false false draws x0 step grid mask' (seq 0 (length grid))).
  - unfold euler_sample. cbn [andb]. rewrite E'. reflexivity.
  - exact E'.
  - destruct grid; [|discriminate]. exfalso. unfold prepare_grid, grid_from_time_step in E'. discriminate E'.
  - apply seq_length.
  - exact MK.
  - apply increasing_seq.
Qed.
Lemma sort_increasing l : increasing l -> sort l = l.
Proof.
  intros G. apply increasing_same; [|exact G|intros x; apply sort_in]. assert (ND : NoDup l) by (apply (NoDup_nth l 0); intros i j Hi Hj Q; destruct (Nat.lt_trichotomy i j) as [L|[L|L]]; [|exact L|];
    [pose proof (incr_lt l (increasing_incr l G) i j L Hj) as C|pose proof (incr_lt l (increasing_incr l G) j i L Hi) as C]; unfold at_ in C; lra).
  intros i Hi. pose proof (sort_nondecr l i Hi) as L. assert (NS : NoDup (sort l)) by (apply (Permutation_NoDup (Permutation_sym (sort_perm l))), ND). destruct L as [L|L]; [unfold at_ in L; lra|].
  exfalso. pose proof (proj1 (NoDup_nth (sort l) 0) NS i (S i) ltac:(lia) Hi L). lia.
Qed.
Lemma prepare_num_inv times step tol n grid mask idx : prepare_grid times step tol (Some n) None = Some (grid, mask, idx) ->
  length grid = S (Nat.max n (length times)) /\ exists r, grid = 0 :: r.
Proof.
  intros E. split; [apply (C45_num_steps_size_refuted times step tol n grid mask idx E)|]. unfold prepare_grid, grid_from_num_times in E. destruct times; [discriminate|]. destruct (scatter_mask _ _); [|discriminate]. injection E as <- _ _. eexists. reflexivity.
Qed.
(** index of grid point k after another 0 has been put in front *)
Definition shifted (k : nat) : nat := match k with O => O | S _ => S k end.
Lemma first_step_idle p grid draws x0 : nth 0 grid 0 = 0 -> forall k, end_path p (fun n => nth n (0 :: grid) 0) draws x0 (S k) = end_path p (fun n => nth n grid 0) (fun i => draws (S i)) x0 k.
Proof.
  intros G0. induction k as [|k IH].
  - cbn [end_path]. unfold EulerSpec.increment. apply functional_extensionality. intros s. apply functional_extensionality. intros c. cbn [nth]. rewrite G0. replace (0 - 0) with 0 by ring. rewrite sqrt_0.
    rewrite (rsum_0 (fun k => _)); [ring|]. intros i _. ring.
  - change (end_path p (fun n => nth n (0 :: grid) 0) draws x0 (S (S k))) with (EulerSpec.increment p (nth (S k) grid 0) (nth k grid 0) (nth (S k) grid 0) (draws (S k)) (end_path p (fun n => nth n (0 :: grid) 0) draws x0 (S k))).
    rewrite IH. reflexivity.
Qed.
Lemma euler_all_num p times n step tol draws x0 grid mask idx :
  prepare_grid times step tol (Some n) None = Some (grid, mask, idx) -> increasing grid ->
  euler_sample p grid None (Some n) None tol false false draws x0 = Some (map (fun i => Some (end_path p (fun n => nth n grid 0) (fun i => draws (S i)) x0 i)) (seq 0 (length grid))).
Proof.
  intros E INC. destruct (prepare_num_inv _ _ _ _ _ _ _ E) as (LG & r & EG). assert (G0 : nth 0 grid 0 = 0) by (rewrite EG; reflexivity).
  set (st := last grid 0 / INR n). set (idx' := map shifted (seq 0 (length grid))).
  assert (AL : 0 :: sort (linspace st (last grid 0 - st) (n - length grid) ++ grid) = 0 :: grid).
  { f_equal. replace (n - length grid)%nat with 0%nat by lia. cbn [linspace seq map app]. apply sort_increasing, INC. }
  assert (ND : nondecr (0 :: grid)).
  { intros i Hi. destruct i as [|i]; [unfold at_; cbn [nth]; rewrite G0; lra|]. unfold at_. cbn [nth]. specialize (INC i ltac:(cbn in Hi; lia)). lra. }
  assert (IX : map (searchsorted_left (0 :: grid)) grid = idx').
  { apply (nth_ext _ _ 0%nat 0%nat); [unfold idx'; rewrite !map_length, seq_length; reflexivity|]. intros k Hk. rewrite map_length in Hk.
    rewrite (nth_indep _ 0%nat (searchsorted_left (0 :: grid) 0)) by (rewrite map_length; exact Hk). rewrite (map_nth (searchsorted_left (0 :: grid)) grid 0 k). unfold idx'.
    rewrite (nth_indep _ 0%nat (shifted 0)) by (rewrite map_length, seq_length; exact Hk). rewrite map_nth, seq_nth by exact Hk. cbn [plus].
    apply ssl_unique; [exact ND|destruct k; cbn; lia| |].
    - intros i Hi. destruct k as [|k]; [cbn in Hi; lia|]. cbn in Hi. destruct i as [|i]; unfold at_; cbn [nth]; [pose proof (incr_lt grid (increasing_incr grid INC) 0 (S k) ltac:(lia) Hk) as Q; unfold at_ in Q; lra|].
      pose proof (incr_lt grid (increasing_incr grid INC) i (S k) ltac:(lia) Hk) as Q. exact Q.
    - intros i Hi. destruct k as [|k].
      + rewrite G0. destruct i as [|i]; unfold at_; cbn [nth]; [lra|]. destruct i as [|i]; [rewrite G0; lra|]. pose proof (incr_lt grid (increasing_incr grid INC) 0 (S i) ltac:(lia) ltac:(cbn in Hi; lia)) as Q. unfold at_ in Q. lra.
      + cbn in Hi. destruct i as [|i]; [lia|]. unfold at_. cbn [nth]. apply (nondecr_le grid); [intros q Hq; specialize (INC q Hq); unfold at_; lra|lia|lia]. }
  assert (RG : forall i, In i idx' -> (i < S (length grid))%nat).
  { intros i H. unfold idx' in H. apply in_map_iff in H. destruct H as (k & <- & Kk). apply in_seq in Kk. destruct k; cbn; lia. }
  destruct (scatter_marks idx' (S (length grid)) RG) as (mask' & EM & MK).
  assert (E' : prepare_grid grid st tol (Some n) None = Some (0 :: grid, mask', idx')).
  { unfold prepare_grid, grid_from_num_times. destruct grid as [|g0 gr] eqn:EGR; [discriminate LG|]. rewrite <- EGR in *. rewrite AL, IX. change (length (0%R :: grid)) with (S (length grid)). rewrite EM. reflexivity. }
  rewrite (euler_on_grid p grid None (Some n) None tol false false draws x0 st (0 :: grid) mask' idx').
  - f_equal. unfold idx'. rewrite map_map. apply map_ext_in. intros k Hk. f_equal. destruct k as [|k]; [reflexivity|]. cbn [shifted]. apply first_step_idle, G0.
  - unfold euler_sample. cbn [andb]. fold st. rewrite E'. reflexivity.
  - exact E'.
  - unfold idx'. rewrite EG. discriminate.
  - unfold idx'. rewrite map_length, seq_length. reflexivity.
  - exact MK.
  - intros k Hk. unfold idx' in *. rewrite map_length, seq_length in Hk. rewrite (nth_indep (map shifted (seq 0 (length grid))) 0%nat (shifted 0) (n := k)) by (rewrite map_length, seq_length; lia). rewrite (nth_indep (map shifted (seq 0 (length grid))) 0%nat (shifted 0) (n := S k)) by (rewrite map_length, seq_length; lia). rewrite !map_nth. rewrite !seq_nth by lia. cbn [plus]. destruct k; cbn; lia.
Qed.

(** ** The outputs *)
Lemma all_some_some {A} (l : list A) : all_some (map Some l) = Some l.
Proof. induction l as [|a l IH]; [reflexivity|]. cbn [map all_some]. rewrite IH. reflexivity. Qed.
Section Outputs.
  Variables (h : hjm) (grid : list R) (X : nat -> samples) (s : nat).
  Let paths := map X (seq 0 (length grid)).
  Lemma rate_length : length (rate_path h grid paths s) = length grid.
  Proof. unfold rate_path, paths. rewrite map_length, combine_length, map_length, seq_length. lia. Qed.
  Lemma rate_at i : (i < length grid)%nat -> nth i (rate_path h grid paths s) 0 = short_rate h (nth i grid 0) (X i s).
  Proof.
    intros H. unfold rate_path. match goal with |- nth i (map ?f ?l) 0 = _ => pose (F := f); change (map f l) with (map F l) end.
    rewrite (nth_indep _ 0 (F (0, X 0%nat))) by (unfold paths; rewrite map_length, combine_length, map_length, seq_length; lia). rewrite map_nth. rewrite combine_nth by (unfold paths; rewrite map_length, seq_length; reflexivity).
    unfold F, paths. rewrite map_nth, seq_nth by exact H. reflexivity.
  Qed.
  Lemma prod_exp n (F : nat -> R) : prod_to n (fun j => exp (F j)) = exp (sum_to n F).
  Proof. induction n as [|n IH]; cbn [prod_to sum_to]; [rewrite exp_0; reflexivity|]. rewrite IH, exp_plus. reflexivity. Qed.
  Lemma discount_at i : (i < length grid)%nat ->
    nth i (discount_path h grid paths s) NaN = Fin (discount_to (fun j => short_rate h (nth j grid 0) (X j s)) (fun j => nth j grid 0) i).
  Proof.
    intros H. unfold discount_path. set (F := fun rd : R * R => exp (- fst rd * snd rd)). set (C := combine (removelast (rate_path h grid paths s)) (diff 1 true grid)).
    assert (LC : length C = pred (length grid)). { unfold C. rewrite combine_length, diff_length'. assert (Q : length (removelast (rate_path h grid paths s)) = pred (length grid)). { pose proof rate_length as L. destruct (rate_path h grid paths s) as [|a l]; [cbn in *; lia|]. rewrite removelast_len. cbn in L. lia. } lia. }
    match goal with |- context [Fin 1 :: ?l] => assert (E : Fin 1 :: l = map Fin (1 :: map F C)) end.
    { cbn [map]. f_equal. rewrite map_map. apply map_ext. intros (r, d). reflexivity. }
    rewrite E. rewrite C61_cumprod.
    - f_equal. unfold discount_to. set (Q := fun j => match j with O => 0 | S m => - (short_rate h (nth m grid 0) (X m s) * (nth (S m) grid 0 - nth m grid 0)) end).
      transitivity (prod_to (S i) (fun j => exp (Q j))).
      + assert (G : forall m, (m <= S i)%nat -> prod_to m (fun j => nth j (1 :: map F C) 0) = prod_to m (fun j => exp (Q j))); [|apply G; lia].
        induction m as [|m IH]; intros Hm; [reflexivity|]. cbn [prod_to]. rewrite IH by lia. f_equal. destruct m as [|m]; [cbn; symmetry; apply exp_0|]. cbn [nth].
        rewrite (nth_indep _ 0 (F (0, 0))) by (rewrite map_length, LC; lia). rewrite map_nth. unfold C.
        assert (LL : length (removelast (rate_path h grid paths s)) = length (diff 1 true grid)). { rewrite diff_length'. pose proof rate_length as L. destruct (rate_path h grid paths s) as [|a l]; [cbn in *; lia|]. rewrite removelast_len. cbn in L. lia. }
        rewrite combine_nth by exact LL. unfold F. cbn [fst snd]. rewrite diff_nth' by lia.
        assert (RM : nth m (removelast (rate_path h grid paths s)) 0 = nth m (rate_path h grid paths s) 0). { pose proof rate_length as L. destruct (rate_path h grid paths s) as [|a l]; [cbn in *; lia|]. apply removelast_nth. cbn in L. lia. }
        rewrite RM, rate_at by lia. unfold Q. f_equal. ring.
      + rewrite prod_exp. f_equal. clear. induction i as [|i IH]; [cbn; ring|].
        change (sum_to (S (S i)) Q) with (sum_to (S i) Q + Q (S i)). rewrite IH. cbn [sum_to Q]. ring.
    - constructor; [lra|]. apply Forall_forall. intros v V. apply in_map_iff in V. destruct V as (rd & <- & _). apply exp_pos.
    - cbn [length]. rewrite map_length, LC. lia.
  Qed.
End Outputs.
