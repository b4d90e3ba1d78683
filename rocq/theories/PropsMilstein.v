(** C70: sampling with the Milstein scheme. *)
From Coquelicot Require Import Coquelicot.
From Coq Require Import ZArith Reals List Bool Arith Lia Lra FunctionalExtensionality.
From Verif Require Import TensorModel TensorProofs SegmentModel BrentModel InterpModel CubicProofs LoopModel LoopProofs PropsLoop TimeGridModel TimeGridSpec TimeGridProofs PropsTimeGrid
  EulerModel EulerSpec PropsEuler HullWhiteModel HullWhiteProofs2 BlackScholesSpec BlackScholesProofs MvNormalSpec MvNormalProofs GbmProofs2 MilsteinModel MilsteinSpec.
Import ListNotations.
Open Scope R_scope.

(** ** The loops *)
Lemma grid_steps grid mask idx : marks mask (length grid) idx -> idx <> [] -> length grid = S (length (dt grid)).
Proof.
  intros Mk Ne. unfold dt. rewrite diff_length'. destruct grid; [|reflexivity]. destruct Mk as (_ & M & _). destruct idx; [contradiction|].
  specialize (M n (or_introl eq_refl)). cbn in M. lia.
Qed.
Section Run.
Variables (p : process) (g : option gradient_fn) (order : nat) (grid : list R) (z : nat -> samples) (X : nat -> samples).
Hypothesis ST : forall i, (i < length (dt grid))%nat -> milstein_step p g order grid z i (X i) = Some (X (S i)).
Variables (mask : list bool) (idx : list nat).
Hypotheses (Im : increasing_nat idx) (Mk : marks mask (length grid) idx) (Ne : idx <> []).

Lemma while_run : milstein_while p g order grid z mask (length idx) (X 0%nat) = Some (map X idx).
Proof.
  unfold milstein_while. rewrite (record_run_ok (milstein_step p g order grid z) (fun _ x => x) X (length (dt grid)) ST mask idx); auto.
  rewrite <- (grid_steps grid mask idx Mk Ne). exact Mk.
Qed.
Lemma for_run : (length idx = 1%nat -> nth 0 idx 0%nat = length (dt grid)) -> milstein_for p g order grid z idx (X 0%nat) = Some (map X idx).
Proof.
  intros L1. unfold milstein_for.
  set (step := fun i (x : option samples) => match x with Some y => milstein_step p g order grid z i y | None => None end).
  assert (W : forall m, (m <= length (dt grid))%nat -> after step m (Some (X 0%nat)) = Some (X m)).
  { induction m as [|m IH]; intros M; [reflexivity|]. cbn [after]. rewrite IH by lia. unfold step. apply ST. lia. }
  assert (W' : forall m, while_loop step 0 m (Some (X 0%nat)) = after step m (Some (X 0%nat))).
  { induction m as [|m IH]; [reflexivity|]. rewrite while_loop_last, IH. reflexivity. }
  destruct (Nat.eqb_spec (length idx) 1) as [E|E].
  - rewrite W', W by lia. cbn [option_map]. f_equal. rewrite <- (L1 E). destruct idx as [|k [|? ?]]; [discriminate|reflexivity|discriminate].
  - destruct (C24_accumulating step (Some (X 0%nat)) idx Ne (increasing_nat_incr idx Im)) as (l & E1 & E2 & E3). rewrite E1.
    assert (EL : l = map (fun i => Some (Some (X i))) idx).
    { apply nth_error_ext'. intros k. destruct (le_lt_dec (length idx) k) as [Q|Q].
      - rewrite !(proj2 (nth_error_None _ _)); [reflexivity|rewrite map_length; exact Q|lia].
      - rewrite (E3 k (nth k idx 0%nat)) by (apply nth_error_nth'; exact Q). rewrite nth_error_map, (nth_error_nth' idx 0%nat) by exact Q. cbn [option_map]. do 2 f_equal.
        rewrite W; [reflexivity|]. assert (B : (nth k idx 0 < length grid)%nat) by (apply Mk, nth_In, Q). rewrite (grid_steps grid mask idx Mk Ne) in B. lia. }
    rewrite EL. clear. induction idx as [|a r IH]; [reflexivity|]. cbn in *. rewrite IH. reflexivity.
Qed.
End Run.

(** A run on the grid of a given step, and of a number of steps. *)
Lemma run_time_step p g order times step tol watch z (X : list R -> nat -> samples) x0 :
  (0 < order)%nat -> times <> [] -> gaps_above (2 * tol) times -> 0 <= nth 0 times 0 -> 2 * tol < step -> 0 < step -> 0 <= tol < 1 ->
  (forall grid, gaps_above tol grid -> X grid 0%nat = x0 /\ forall i, (i < length (dt grid))%nat -> milstein_step p g order grid z i (X grid i) = Some (X grid (S i))) ->
  exists grid mask idx, prepare_grid times step tol None None = Some (grid, mask, idx) /\ length idx = length times /\
    milstein_sample p times (Some step) None g order tol watch z x0 = Some (map (X grid) idx).
Proof.
  intros O1 Hn Hg H0 Hs1 Hs Ht HX. assert (Hi : increasing times) by (apply (gaps_increasing (2 * tol)); [lra|assumption]).
  destruct (C45_time_step times step tol Hn Hi H0 Hs Ht) as (grid & mask & idx & E1 & E2 & E3 & E4 & E5 & E6 & E7).
  destruct (C45_time_step_close times step tol grid mask idx Hn Hg H0 Hs1 Hs Ht E1) as (_ & _ & _ & D & _).
  exists grid, mask, idx. split; [exact E1|]. split; [exact E5|]. unfold milstein_sample. destruct (Nat.eqb_spec order 0); [lia|]. rewrite E1.
  destruct (HX grid E3) as (X0 & ST). rewrite <- X0.
  assert (Ne : idx <> []) by (apply (idx_nonempty idx times); assumption).
  destruct watch.
  - apply (for_run p g order grid z (X grid) ST mask idx D E7 Ne).
    intros L1. assert (LT : length times = 1%nat) by lia. destruct (E6 0%nat ltac:(lia)) as (A1 & A2 & A3).
    pose proof (grid_steps grid mask idx E7 Ne) as GS.
    destruct (Nat.eq_dec (nth 0 idx 0%nat) (length (dt grid))) as [|NE]; [assumption|]. exfalso.
    specialize (A3 (length (dt grid)) ltac:(lia)).
    destruct times as [|t [|? ?]]; try discriminate. cbn [nth] in *.
    destruct (E4 (nth (length (dt grid)) grid 0)) as [[H|[]]|(k & _ & [H|H])]; [apply nth_In; lia|lra|change (last [t] 0) with t in H; lra|lra].
  - rewrite <- E5. apply (while_run p g order grid z (X grid) ST mask idx D E7 Ne).
Qed.
Lemma run_num_steps p g order times n tol watch z (X : list R -> nat -> samples) x0 :
  (0 < order)%nat -> times <> [] -> increasing times -> 0 < nth 0 times 0 -> (0 < n)%nat ->
  (forall grid mask idx, prepare_grid times (last times 0 / INR n) tol (Some n) None = Some (grid, mask, idx) ->
     X grid 0%nat = x0 /\ forall i, (i < length (dt grid))%nat -> milstein_step p g order grid z i (X grid i) = Some (X grid (S i))) ->
  exists grid mask idx, prepare_grid times (last times 0 / INR n) tol (Some n) None = Some (grid, mask, idx) /\
    length idx = length times /\ (forall k, (k < length times)%nat -> (nth k idx 0 < length grid)%nat /\ nth (nth k idx 0%nat) grid 0 = nth k times 0) /\
    milstein_sample p times None (Some n) g order tol watch z x0 = Some (map (X grid) idx).
Proof.
  intros O1 Hn Hi H0 Np HX.
  assert (L0 : 0 < last times 0).
  { pose proof (increasing_last times Hi (nth 0 times 0)) as Q. destruct times as [|t r]; [contradiction|]. specialize (Q (or_introl eq_refl)). lra. }
  assert (I1 : 1 <= INR n) by (replace 1 with (INR 1) by reflexivity; apply le_INR; lia).
  assert (S0 : 0 < last times 0 / INR n) by (apply Rdiv_lt_0_compat; lra).
  destruct (C45_num_steps times (last times 0 / INR n) tol n Hn Hi ltac:(lra) ltac:(lra)) as (grid & mask & idx & E1 & E2 & E3 & E4 & E5 & E6 & E7 & E8).
  { destruct (le_lt_dec n (length times)) as [Q|Q]; [right; exact Q|left].
    assert (2 <= INR n). { replace 2 with (INR 2) by (cbn; lra). apply le_INR. destruct times; [contradiction|cbn in Q; lia]. }
    apply (Rmult_le_reg_r (INR n)); [lra|]. replace (2 * (last times 0 / INR n) * INR n) with (2 * last times 0) by (field; lra).
    pose proof (Rmult_le_compat_l _ _ _ (Rlt_le _ _ L0) H). lra. }
  exists grid, mask, idx. split; [exact E1|]. split; [exact E5|]. split; [exact E6|].
  unfold milstein_sample. destruct (Nat.eqb_spec order 0); [lia|]. rewrite E1.
  destruct (HX grid mask idx E1) as (X0 & ST). rewrite <- X0.
  assert (Ne : idx <> []) by (apply (idx_nonempty idx times); assumption).
  assert (D : increasing_nat idx).
  { intros k K. rewrite E5 in K. destruct (E6 k ltac:(lia)) as [A1 A2]. destruct (E6 (S k) K) as [B1 B2]. specialize (Hi k K).
    destruct (le_lt_dec (nth (S k) idx 0%nat) (nth k idx 0%nat)) as [Q|Q]; [|exact Q].
    pose proof (nondecr_le grid E3 _ _ Q A1) as M. unfold at_ in M. lra. }
  destruct watch.
  - apply (for_run p g order grid z (X grid) ST mask idx D E7 Ne).
    intros L1. assert (LT : length times = 1%nat) by lia. destruct (E6 0%nat ltac:(lia)) as (A1 & A2).
    pose proof (grid_steps grid mask idx E7 Ne) as GS.
    assert (LG : length grid = S (Nat.max n (length times))) by (apply (C45_num_steps_size_refuted times (last times 0 / INR n) tol n grid mask idx E1)).
    unfold prepare_grid, grid_from_num_times in E1. destruct times as [|t [|? ?]]; try discriminate. cbn [last length nth] in *.
    destruct scatter_mask; [|discriminate]. injection E1 as EG _ EI.
    (* the requested time is the strict maximum of the grid *)
    destruct (Nat.eq_dec (nth 0 idx 0%nat) (length (dt grid))) as [|NE]; [assumption|]. exfalso.
    assert (IL : (nth 0 idx 0 < length (dt grid))%nat) by lia.
    assert (TOP : nth (length (dt grid)) grid 0 = t).
    { pose proof (nondecr_le grid E3 (nth 0 idx 0%nat) (length (dt grid)) ltac:(lia) ltac:(lia)) as M. unfold at_ in M.
      specialize (E4 (nth (length (dt grid)) grid 0) ltac:(apply nth_In; lia)). lra. }
    assert (PERM : forall l, In t l -> count_occ Req_EM_T (0 :: sort l) t = count_occ Req_EM_T l t).
    { intros l0 _. rewrite count_occ_cons_neq by lra. apply (Permutation.Permutation_count_occ Req_EM_T). apply sort_perm. }
    assert (C1 : count_occ Req_EM_T grid t = 1%nat).
    { rewrite <- EG, PERM by (apply in_or_app; right; left; reflexivity). rewrite count_occ_app. cbn [count_occ]. destruct (Req_EM_T t t); [|contradiction].
      rewrite (proj1 (count_occ_not_In Req_EM_T _ _)); [reflexivity|].
      intros IN. assert (B : forall x, In x (linspace (t / INR n) (t - t / INR n) (n - 1)) -> x < t); [|specialize (B t IN); lra].
      intros x Hx. assert (IS : In x (sort (linspace (t / INR n) (t - t / INR n) (n - 1) ++ [t]))) by (rewrite sort_in; apply in_or_app; left; exact Hx).
      destruct (linspace_between (t / INR n) (t - t / INR n) (n - 1) x) as (_ & U); [|exact Hx|lra].
      destruct n as [|[|n]]; [lia|cbn in Hx; contradiction|].
      assert (2 <= INR (S (S n))) by (rewrite !S_INR; pose proof (pos_INR n); lra).
      apply (Rmult_le_reg_r (INR (S (S n)))); [lra|]. replace ((t - t / INR (S (S n))) * INR (S (S n))) with (t * (INR (S (S n)) - 1)) by (field; lra).
      replace (t / INR (S (S n)) * INR (S (S n))) with (t * 1) by (field; lra). apply Rmult_le_compat_l; lra. }
    (* two occurrences *)
    assert (C2 : (2 <= count_occ Req_EM_T grid t)%nat).
    { clear - A2 TOP IL GS. remember (nth 0 idx 0%nat) as i eqn:EI. remember (length (dt grid)) as m eqn:EM. clear EI EM idx.
      destruct (nth_split grid 0 (n := i) ltac:(lia)) as (l1 & l2 & E & L1). rewrite A2 in E.
      rewrite E. rewrite count_occ_app. cbn [count_occ]. destruct (Req_EM_T t t); [|contradiction].
      assert (IN : In t l2).
      { rewrite E in TOP. rewrite app_nth2 in TOP by lia. replace (m - length l1)%nat with (S (m - length l1 - 1)) in TOP by lia. cbn [nth] in TOP. rewrite <- TOP.
        apply nth_In. rewrite E in GS. rewrite app_length in GS. cbn [length] in GS. lia. }
      apply (count_occ_In Req_EM_T) in IN. lia. }
    lia.
  - rewrite <- E5. apply (while_run p g order grid z (X grid) ST mask idx D E7 Ne).
Qed.

(** ** One dimension *)
Lemma step_sizes grid i : (i < length (dt grid))%nat ->
  at_ grid (i + 1) = nth (S i) grid 0 /\ at_ (dt grid) i = nth (S i) grid 0 - nth i grid 0 /\ at_ (sqrt_dt grid) i = sqrt (nth (S i) grid 0 - nth i grid 0).
Proof.
  intros L. pose proof L as L'. unfold dt in L'. rewrite diff_length' in L'. rewrite Nat.add_1_r. split; [reflexivity|].
  assert (D : at_ (dt grid) i = nth (S i) grid 0 - nth i grid 0) by (unfold at_, dt; apply diff_nth'; lia).
  split; [exact D|]. unfold at_, sqrt_dt. rewrite (nth_indep _ 0 (sqrt 0)) by (rewrite map_length; exact L). rewrite map_nth. unfold at_ in D. rewrite D. reflexivity.
Qed.
(** A supplied gradient is the derivative in the given direction. *)
Definition right_gradient (g : option gradient_fn) (b' : R -> R -> R) : Prop :=
  match g with None => True | Some f => forall t x v s, f t x v s 0%nat 0%nat = b' t (x s 0%nat) * v s 0%nat end.
Fixpoint states p g order grid z (x0 : samples) (n : nat) : samples :=
  match n with
  | O => x0
  | S m => match milstein_step p g order grid z m (states p g order grid z x0 m) with Some y => y | None => x0 end
  end.
Lemma gradient_value p g a b b' t x s : scalar_process p a b b' -> right_gradient g b' ->
  grad_volatility p g t x (fun _ _ => 1) s 0%nat 0%nat = b' t (x s 0%nat).
Proof.
  intros (_ & _ & V & D) G. unfold grad_volatility. destruct g as [f|]; [rewrite G; ring|].
  rewrite (Derive_ext _ (fun h => b t (x s 0%nat + h * 1))) by (intros h; apply V).
  apply is_derive_unique. assert (C : is_derive (fun h : R => b t (x s 0%nat + h * 1)) 0 (1 * b' t (x s 0%nat))).
  { apply (is_derive_comp (b t) (fun h => x s 0%nat + h * 1) 0 (b' t (x s 0%nat)) 1).
    - replace (x s 0%nat + 0 * 1) with (x s 0%nat) by ring. apply D.
    - auto_derive; [trivial|ring]. }
  rewrite Rmult_1_l in C. exact C.
Qed.
Lemma scalar_states p g order grid z x0 a b b' : scalar_process p a b b' -> right_gradient g b' ->
  (forall i, milstein_step p g order grid z i (states p g order grid z x0 i) = Some (states p g order grid z x0 (S i))) /\
  forall n s, (n <= length (dt grid))%nat ->
    states p g order grid z x0 n s 0%nat =
      milstein_path a b b' (fun m => nth (S m) grid 0) (fun m => nth m grid 0) (fun m => z m s 0%nat) (x0 s 0%nat) n.
Proof.
  intros SP G. pose proof SP as (D1 & DR & VO & _).
  assert (ST : forall i, milstein_step p g order grid z i (states p g order grid z x0 i) = Some (states p g order grid z x0 (S i))).
  { intros i. cbn [states]. unfold milstein_step. rewrite D1. reflexivity. }
  split; [exact ST|]. induction n as [|n IH]; intros s L; [reflexivity|].
  cbn [states]. unfold milstein_step at 1. rewrite D1. cbn [Nat.eqb].
  destruct (step_sizes grid n ltac:(lia)) as (-> & -> & ->).
  unfold milstein_1d. rewrite D1. cbn [rsum]. rewrite (gradient_value p g a b b') by assumption. rewrite DR, VO.
  cbn [milstein_path]. rewrite <- IH by lia. cbv zeta. unfold milstein_increment. field.
Qed.

(** The results are the states of the Milstein scheme on the grid of C45, for
    every sample, with and without gradient tracking; the coefficients of each
    step are taken at its end. *)
Theorem C70_time_step p g order times step tol watch z x0 a b b' : scalar_process p a b b' -> right_gradient g b' -> (0 < order)%nat ->
  times <> [] -> gaps_above (2 * tol) times -> 0 <= nth 0 times 0 -> 2 * tol < step -> 0 < step -> 0 <= tol < 1 ->
  exists grid mask idx st, prepare_grid times step tol None None = Some (grid, mask, idx) /\
    (forall k, (k < length times)%nat -> 0 <= nth k times 0 - nth (nth k idx 0%nat) grid 0 <= tol) /\
    milstein_sample p times (Some step) None g order tol watch z x0 = Some st /\ length st = length times /\
    forall k s, (k < length times)%nat -> nth k st x0 s 0%nat =
      milstein_path a b b' (fun m => nth (S m) grid 0) (fun m => nth m grid 0) (fun m => z m s 0%nat) (x0 s 0%nat) (nth k idx 0%nat).
Proof.
  intros SP G O1 Hn Hg H0 Hs1 Hs Ht.
  destruct (run_time_step p g order times step tol watch z (fun grid => states p g order grid z x0) x0 O1 Hn Hg H0 Hs1 Hs Ht) as (grid & mask & idx & E1 & E5 & E).
  { intros grid _. split; [reflexivity|]. intros i _. apply (scalar_states p g order grid z x0 a b b' SP G). }
  destruct (C45_time_step_close times step tol grid mask idx Hn Hg H0 Hs1 Hs Ht E1) as (CL & _).
  assert (Hi : increasing times) by (apply (gaps_increasing (2 * tol)); [lra|assumption]).
  destruct (C45_time_step times step tol Hn Hi H0 Hs Ht) as (grid' & mask' & idx' & E1' & _ & _ & _ & _ & _ & E7).
  rewrite E1 in E1'. injection E1' as <- <- <-.
  exists grid, mask, idx, (map (states p g order grid z x0) idx). split; [exact E1|]. split; [exact CL|]. split; [exact E|]. split; [rewrite map_length; exact E5|].
  intros k s K. rewrite (nth_indep _ x0 (states p g order grid z x0 0%nat)) by (rewrite map_length; lia). rewrite map_nth.
  apply (scalar_states p g order grid z x0 a b b' SP G). assert (B : (nth k idx 0 < length grid)%nat) by (apply E7, nth_In; lia).
  unfold dt. rewrite diff_length'. lia.
Qed.
Theorem C70_num_steps p g order times n tol watch z x0 a b b' : scalar_process p a b b' -> right_gradient g b' -> (0 < order)%nat ->
  times <> [] -> increasing times -> 0 < nth 0 times 0 -> (0 < n)%nat ->
  exists grid mask idx st, prepare_grid times (last times 0 / INR n) tol (Some n) None = Some (grid, mask, idx) /\
    (forall k, (k < length times)%nat -> (nth k idx 0 < length grid)%nat /\ nth (nth k idx 0%nat) grid 0 = nth k times 0) /\
    milstein_sample p times None (Some n) g order tol watch z x0 = Some st /\ length st = length times /\
    forall k s, (k < length times)%nat -> nth k st x0 s 0%nat =
      milstein_path a b b' (fun m => nth (S m) grid 0) (fun m => nth m grid 0) (fun m => z m s 0%nat) (x0 s 0%nat) (nth k idx 0%nat).
Proof.
  intros SP G O1 Hn Hi H0 Np.
  destruct (run_num_steps p g order times n tol watch z (fun grid => states p g order grid z x0) x0 O1 Hn Hi H0 Np) as (grid & mask & idx & E1 & LI & E6 & E).
  { intros grid _ _ _. split; [reflexivity|]. intros i _. apply (scalar_states p g order grid z x0 a b b' SP G). }
  exists grid, mask, idx, (map (states p g order grid z x0) idx). split; [exact E1|]. split; [exact E6|]. split; [exact E|].
  split; [rewrite map_length; exact LI|].
  intros k s K. rewrite (nth_indep _ x0 (states p g order grid z x0 0%nat)) by (rewrite map_length; lia). rewrite map_nth.
  apply (scalar_states p g order grid z x0 a b b' SP G). destruct (E6 k K) as (IN & _). unfold dt. rewrite diff_length'. lia.
Qed.

(** Coefficients that do not depend on time: the documented scheme. *)
Theorem C70_documented a b b' grid z y0 n : (forall t u y, a t y = a u y /\ b t y = b u y /\ b' t y = b' u y) ->
  milstein_path a b b' (fun m => grid (S m)) grid z y0 n = milstein_path a b b' grid grid z y0 n.
Proof.
  intros H. induction n as [|n IH]; [reflexivity|]. cbn [milstein_path]. rewrite IH. destruct (H (grid (S n)) (grid n) (milstein_path a b b' grid grid z y0 n)) as (-> & -> & ->). reflexivity.
Qed.
(** A step from y has mean y + a dt. *)
Theorem C70_mean a b b' Delta y : 0 <= Delta -> expectation (fun z => milstein_increment a b b' Delta (sqrt Delta * z) y) (y + a * Delta).
Proof.
  intros D. assert (Q := expect_quadratic (y + a * Delta - / 2 * b * b' * Delta) (b * sqrt Delta) (/ 2 * b * b' * Delta)).
  match type of Q with expectation _ ?m => replace m with (y + a * Delta) in Q by ring end.
  refine (expectation_ext _ _ _ _ Q). intros z. unfold milstein_increment. rewrite Rpow_mult_distr. rewrite <- (Rsqr_pow2 (sqrt Delta)), Rsqr_sqrt by exact D. ring.
Qed.

(** ** Several dimensions *)
(** The volatility does not depend on the state, and a supplied gradient says so. *)
Definition additive (p : process) (g : option gradient_fn) : Prop :=
  (forall t x y, volatility_fn p t x = volatility_fn p t y) /\
  match g with None => True | Some f => forall t x v s c k, f t x v s c k = 0 end.
Lemma additive_gradient p g t x v s c k : additive p g -> grad_volatility p g t x v s c k = 0.
Proof.
  intros (V & G). unfold grad_volatility. destruct g as [f|]; [apply G|].
  rewrite (Derive_ext _ (fun _ => volatility_fn p t x s c k)) by (intros h; rewrite (V t _ x); reflexivity). apply Derive_const.
Qed.
Lemma rsum_0 n (f : nat -> R) : (forall i, (i < n)%nat -> f i = 0) -> rsum f n = 0.
Proof. induction n as [|n IH]; intros H; [reflexivity|]. cbn [rsum]. rewrite IH by (intros; apply H; lia). rewrite H by lia. ring. Qed.
Lemma additive_step p g order grid z x i : additive p g -> (i < length (dt grid))%nat -> (dim p = 1%nat \/ nth i grid 0 < nth (S i) grid 0) ->
  milstein_step p g order grid z i x = Some (EulerSpec.increment p (nth (S i) grid 0) (nth i grid 0) (nth (S i) grid 0) (z i) x).
Proof.
  intros A L D. pose proof (fun t s c k v => additive_gradient p g t x v s c k A) as GR. unfold milstein_step.
  destruct (step_sizes grid i L) as (-> & -> & ->). destruct (Nat.eqb_spec (dim p) 1) as [E|E].
  - f_equal. extensionality s. extensionality c. unfold milstein_1d, EulerSpec.increment. rewrite GR.
    replace (rsum (fun k => volatility_fn p (nth (S i) grid 0) x s c k * (z i s k * sqrt (nth (S i) grid 0 - nth i grid 0))) (dim p))
      with (rsum (fun k => volatility_fn p (nth (S i) grid 0) x s c k * (sqrt (nth (S i) grid 0 - nth i grid 0) * z i s k)) (dim p)) by (apply rsum_ext; intros; ring).
    field.
  - destruct D as [D|D]; [contradiction|]. pose proof (sqrt_lt_R0 (nth (S i) grid 0 - nth i grid 0) ltac:(lra)) as SQ.
    replace (req (sqrt (nth (S i) grid 0 - nth i grid 0)) 0) with false by (unfold req; destruct (Req_EM_T _ 0); [lra|reflexivity]).
    f_equal. extensionality s. extensionality k. unfold milstein_nd, EulerSpec.increment.
    replace (stratonovich_drift_update _ _ _ k) with 0.
    2: { unfold stratonovich_drift_update. symmetry. apply rsum_0. intros q _. rewrite GR. ring. }
    replace (milstein_hot _ _ _ _ _ k) with 0.
    2: { unfold milstein_hot. symmetry. apply rsum_0. intros a _. apply rsum_0. intros c _. rewrite rsum_0 by (intros j _; rewrite GR; ring). ring. }
    replace (rsum (fun j => volatility_fn p (nth (S i) grid 0) x s k j * (z i s j * sqrt (nth (S i) grid 0 - nth i grid 0))) (dim p))
      with (rsum (fun k0 => volatility_fn p (nth (S i) grid 0) x s k k0 * (sqrt (nth (S i) grid 0 - nth i grid 0) * z i s k0)) (dim p)) by (apply rsum_ext; intros; ring).
    ring.
Qed.
(** When the volatility does not depend on the state, the results are those of
    the Euler scheme (C46), in every dimension. *)
Theorem C70_additive p g order times step tol watch z x0 : additive p g -> (0 < order)%nat ->
  times <> [] -> gaps_above (2 * tol) times -> 0 <= nth 0 times 0 -> 2 * tol < step -> 0 < step -> 0 <= tol < 1 ->
  exists st, milstein_sample p times (Some step) None g order tol watch z x0 = Some st /\
    euler_sample p times (Some step) None None tol false watch z x0 = Some (map Some st) /\ length st = length times.
Proof.
  intros A O1 Hn Hg H0 Hs1 Hs Ht.
  destruct (run_time_step p g order times step tol watch z (fun grid => end_path p (fun n => nth n grid 0) z x0) x0 O1 Hn Hg H0 Hs1 Hs Ht) as (grid & mask & idx & E1 & E5 & E).
  { intros grid G. split; [reflexivity|]. intros i L. apply additive_step; [exact A|exact L|right]. unfold dt in L. rewrite diff_length' in L. specialize (G i ltac:(lia)). lra. }
  destruct (C46_time_step p times step tol false watch z x0 Hn Hg H0 Hs1 Hs Ht) as (grid' & mask' & idx' & E1' & _ & E').
  rewrite E1 in E1'. injection E1' as <- <- <-.
  exists (map (end_path p (fun n => nth n grid 0) z x0) idx). split; [exact E|]. split; [rewrite map_map; exact E'|rewrite map_length; exact E5].
Qed.

(** One step from 0 to T. *)
Lemma one_step p g order T tol watch z x0 : 0 < T -> (0 < order)%nat ->
  milstein_sample p [T] None (Some 1%nat) g order tol watch z x0 = option_map (fun x => [x]) (milstein_step p g order [0; T] z 0 x0).
Proof.
  intros HT O1. unfold milstein_sample. destruct (Nat.eqb_spec order 0); [lia|]. unfold prepare_grid, grid_from_num_times.
  cbn [length Nat.sub linspace seq map app sort insert searchsorted_left fold_right].
  destruct (Rlt_dec 0 T); [|lra]. destruct (Rlt_dec T T); [lra|]. cbn.
  destruct watch.
  - unfold milstein_for. cbn. destruct (milstein_step p g order [0; T] z 0 x0); reflexivity.
  - unfold milstein_while, record_run. cbn. destruct (milstein_step p g order [0; T] z 0 x0); reflexivity.
Qed.
(** Two dimensions, no drift, the volatility [b]. *)
Definition driftless (b : (nat -> R) -> nat -> nat -> R) : process := Process 2 (fun _ _ _ _ => 0) (fun _ x s c k => b (x s) c k).
(** [db a k j] is the derivative of b k j in coordinate a. *)
Definition partials (b : (nat -> R) -> nat -> nat -> R) (y : nat -> R) (db : nat -> nat -> nat -> R) : Prop :=
  forall a k j, (a < 2)%nat -> (k < 2)%nat -> (j < 2)%nat -> is_derive (fun h => b (fun c => y c + h * (if Nat.eqb a c then 1 else 0)) k j) 0 (db a k j).
Lemma two_dims b db order T tol watch z x0 : 0 < T -> (0 < order)%nat -> partials b (x0 0%nat) db ->
  exists st, milstein_sample (driftless b) [T] None (Some 1%nat) None order tol watch z x0 = Some [st] /\
  let v := b (x0 0%nat) in let dW := fun c => z 0%nat 0%nat c * sqrt T in
  forall k, (k < 2)%nat -> st 0%nat k = x0 0%nat k - T * sum_to 2 (fun a => sum_to 2 (fun j => db a k j * v a j)) +
    sum_to 2 (fun j => v k j * dW j) +
    sum_to 2 (fun a => sum_to 2 (fun c => sum_to 2 (fun j => db a k j * v j c) *
      (if Nat.eqb a c then dW a ^ 2 / 2
       else stratonovich_integral order T (sqrt T) dW (fun c r => z 0%nat 0%nat (2 + (c * order + r))%nat)
              (fun c r => z 0%nat 0%nat (2 + 2 * order + (c * order + r))%nat) (fun c r => z 0%nat 0%nat (2 + 2 * (2 * order) + (c * order + r))%nat) a c))).
Proof.
  intros HT O1 PD. rewrite one_step by assumption. unfold milstein_step. cbn [dim driftless Nat.eqb].
  destruct (step_sizes [0; T] 0 ltac:(cbn; lia)) as (_ & -> & ->). cbn [nth]. rewrite Rminus_0_r.
  pose proof (sqrt_lt_R0 T HT) as SQ. replace (req (sqrt T) 0) with false by (unfold req; destruct (Req_EM_T (sqrt T) 0); [lra|reflexivity]).
  cbn [option_map]. eexists. split; [reflexivity|]. cbv zeta. intros k K.
  assert (GR : forall t a j, (a < 2)%nat -> (j < 2)%nat -> grad_volatility (driftless b) None t x0 (fun _ c => if Nat.eqb a c then 1 else 0) 0%nat k j = db a k j).
  { intros t a j A J. unfold grad_volatility. cbn [volatility_fn driftless]. apply is_derive_unique. apply PD; assumption. }
  unfold milstein_nd, stratonovich_drift_update, milstein_hot. cbn [dim driftless Nat.mul Nat.add rsum Nat.div Nat.modulo Nat.divmod fst snd Nat.sub].
  rewrite !GR by lia. cbn [driftless drift_fn volatility_fn sum_to Nat.eqb]. rewrite !Nat.add_0_r, ?Nat.add_assoc. field.
Qed.

(** Two independent assets dX = X dW.  The documented step of the first one is
    that of one dimension, with mean x; what is computed has mean x (1 - T / 2). *)
Definition two_assets (y : nat -> R) (k j : nat) : R := if Nat.eqb k j then y k else 0.
Definition two_assets' (a k j : nat) : R := if (Nat.eqb a k && Nat.eqb k j)%bool then 1 else 0.
Ltac two H := destruct H as [|[|H]]; [| |lia].
Theorem C70_bias_refuted order T tol watch x : 0 < T -> (0 < order)%nat ->
  partials two_assets (fun _ => x) two_assets' /\
  (forall dW J, double_integrals 2 T dW J ->
     documented_step 2 (fun _ => 0) (two_assets (fun _ => x)) two_assets' T dW J (fun _ => x) 0 = milstein_increment 0 x 1 T (dW 0%nat) x) /\
  expectation (fun z => milstein_increment 0 x 1 T (sqrt T * z) x) x /\
  exists f, expectation f (x * (1 - T / 2)) /\
    forall z, exists st, milstein_sample (driftless two_assets) [T] None (Some 1%nat) None order tol watch z (fun _ _ => x) = Some [st] /\
      st 0%nat 0%nat = f (z 0%nat 0%nat 0%nat).
Proof.
  intros HT O1.
  assert (PD : partials two_assets (fun _ => x) two_assets').
  { intros a k j A K J. unfold two_assets, two_assets'. two a; two k; two j; cbn [Nat.eqb andb]; (auto_derive; [trivial|ring]). }
  split; [exact PD|]. split.
  { intros dW J (D & _). unfold documented_step, two_assets, two_assets', milstein_increment. cbn [sum_to Nat.eqb andb]. rewrite (D 0%nat) by lia. field. }
  split.
  { assert (M := C70_mean 0 x 1 T x ltac:(lra)). replace (x + 0 * T) with x in M by ring. exact M. }
  exists (fun z => x * (1 - T) + x * sqrt T * z + x * T / 2 * z ^ 2). split.
  { assert (Q := expect_quadratic (x * (1 - T)) (x * sqrt T) (x * T / 2)). replace (x * (1 - T / 2)) with (x * (1 - T) + x * T / 2) by field. exact Q. }
  intros z. destruct (two_dims two_assets two_assets' order T tol watch z (fun _ _ => x) HT O1 PD) as (st & E & V). exists st. split; [exact E|].
  rewrite (V 0%nat) by lia. unfold two_assets, two_assets'. cbn [sum_to Nat.eqb andb]. rewrite !Rpow_mult_distr, <- !(Rsqr_pow2 (sqrt T)), !Rsqr_sqrt by lra. field.
Qed.

Lemma stratonovich_sym order T dw mu zeta eta a c :
  stratonovich_integral order T (sqrt T) dw mu zeta eta a c + stratonovich_integral order T (sqrt T) dw mu zeta eta c a = T * (dw a * dw c).
Proof.
  unfold stratonovich_integral.
  assert (A : forall (f h : nat -> R) n, rsum (fun r => (f r - h r) * (1 / INR (r + 1))) n = - rsum (fun r => (h r - f r) * (1 / INR (r + 1))) n).
  { intros f h n. induction n as [|n IH]; [cbn; ring|]. cbn [rsum]. rewrite IH. ring. }
  rewrite (A (fun r => zeta a r * (sqrt 2 * (dw c / sqrt T) + eta c r)) (fun r => (sqrt 2 * (dw a / sqrt T) + eta a r) * zeta c r)).
  replace (rsum (fun r => ((sqrt 2 * (dw a / sqrt T) + eta a r) * zeta c r - zeta a r * (sqrt 2 * (dw c / sqrt T) + eta c r)) * (1 / INR (r + 1))) order)
    with (rsum (fun r => (zeta c r * (sqrt 2 * (dw a / sqrt T) + eta a r) - (sqrt 2 * (dw c / sqrt T) + eta c r) * zeta a r) * (1 / INR (r + 1))) order)
    by (apply rsum_ext; intros; ring).
  unfold Rdiv. ring_simplify. field.
Qed.
(** Volatility ((x0, 1 + x1), (1, 0)) at the origin.  The mixed integrals of the
    documented step add up to dW0 dW1, those computed to T dW0 dW1. *)
Definition crossed (y : nat -> R) (k j : nat) : R :=
  match k, j with 0%nat, 0%nat => y 0%nat | 0%nat, 1%nat => 1 + y 1%nat | 1%nat, 0%nat => 1 | _, _ => 0 end.
Definition crossed' (a k j : nat) : R := match a, k, j with 0%nat, 0%nat, 0%nat => 1 | 1%nat, 0%nat, 1%nat => 1 | _, _, _ => 0 end.
Theorem C70_mixed_integrals_refuted order T tol watch z : 0 < T -> (0 < order)%nat ->
  let dW := fun c => z 0%nat 0%nat c * sqrt T in
  partials crossed (fun _ => 0) crossed' /\
  (forall J, double_integrals 2 T dW J ->
     documented_step 2 (fun _ => 0) (crossed (fun _ => 0)) crossed' T dW J (fun _ => 0) 0 = dW 1%nat + dW 0%nat * dW 1%nat) /\
  exists st, milstein_sample (driftless crossed) [T] None (Some 1%nat) None order tol watch z (fun _ _ => 0) = Some [st] /\
    st 0%nat 0%nat = dW 1%nat + T * (dW 0%nat * dW 1%nat).
Proof.
  intros HT O1 dW.
  assert (PD : partials crossed (fun _ => 0) crossed').
  { intros a k j A K J. unfold crossed, crossed'. two a; two k; two j; cbn [Nat.eqb]; (auto_derive; [trivial|ring]). }
  split; [exact PD|]. split.
  { intros J (_ & D). unfold documented_step, crossed, crossed'. cbn [sum_to]. rewrite <- (D 0%nat 1%nat) by lia. ring. }
  destruct (two_dims crossed crossed' order T tol watch z (fun _ _ => 0) HT O1 PD) as (st & E & V). exists st. split; [exact E|].
  rewrite (V 0%nat) by lia. clear V E. fold dW. unfold crossed, crossed'. cbn [sum_to Nat.eqb].
  change (z 0%nat 0%nat 0%nat * sqrt T) with (dW 0%nat). change (z 0%nat 0%nat 1%nat * sqrt T) with (dW 1%nat).
  match goal with |- context [stratonovich_integral order T (sqrt T) dW ?m ?y ?e 0 1] => rewrite <- (stratonovich_sym order T dW m y e 0 1) end. field.
Qed.

(** Volatility ((1 + x1, 0), (0, 0)) at the origin: the second coordinate does
    not move and the documented step of the first is its Wiener increment.  The
    computed one also contains the integral of W1 against W0: the derivatives are
    multiplied with the wrong index of the volatility matrix. *)
Definition idle (y : nat -> R) (k j : nat) : R := match k, j with 0%nat, 0%nat => 1 + y 1%nat | _, _ => 0 end.
Definition idle' (a k j : nat) : R := match a, k, j with 1%nat, 0%nat, 0%nat => 1 | _, _, _ => 0 end.
Theorem C70_wrong_index_refuted order tol watch : (0 < order)%nat -> exists z,
  partials idle (fun _ => 0) idle' /\
  (forall J, documented_step 2 (fun _ => 0) (idle (fun _ => 0)) idle' 1 (fun c => z 0%nat 0%nat c * sqrt 1) J (fun _ => 0) 0 = 1) /\
  exists st, milstein_sample (driftless idle) [1] None (Some 1%nat) None order tol watch z (fun _ _ => 0) = Some [st] /\ st 0%nat 0%nat = 3 / 2.
Proof.
  intros O1. set (z := fun (_ _ q : nat) => if Nat.ltb q 2 then 1 else 0). exists z.
  assert (PD : partials idle (fun _ => 0) idle').
  { intros a k j A K J. unfold idle, idle'. two a; two k; two j; cbn [Nat.eqb]; (auto_derive; [trivial|ring]). }
  split; [exact PD|]. split.
  { intros J. unfold documented_step, idle, idle', z. cbn [sum_to Nat.ltb Nat.leb]. rewrite sqrt_1. ring. }
  destruct (two_dims idle idle' order 1 tol watch z (fun _ _ => 0) ltac:(lra) O1 PD) as (st & E & V). exists st. split; [exact E|].
  rewrite (V 0%nat) by lia. clear V E. unfold idle, idle'. cbn [sum_to Nat.eqb].
  replace (stratonovich_integral order 1 (sqrt 1) (fun c => z 0%nat 0%nat c * sqrt 1) _ _ _ 1 0) with (1 / 2).
  - unfold z. cbn [Nat.ltb Nat.leb]. rewrite sqrt_1. field.
  - unfold stratonovich_integral. rewrite rsum_0.
    + unfold z. cbn [Nat.ltb Nat.leb Nat.add]. rewrite sqrt_1. field. apply PI_neq0.
    + intros r _. unfold z. cbn [Nat.ltb Nat.leb Nat.add]. ring.
Qed.

(** Requested times that coincide with points of the uniform grid give a step of
    length 0 and, in more than one dimension, NaN. *)
Theorem C70_repeated_point_refuted p g order tol watch z x0 : dim p <> 1%nat ->
  milstein_sample p [1 / 4; 1] None (Some 4%nat) g order tol watch z x0 = None.
Proof.
  intros D. unfold milstein_sample. destruct (Nat.eqb order 0); [reflexivity|].
  assert (P : exists grid mask idx, prepare_grid [1 / 4; 1] (last [1 / 4; 1] 0 / INR 4) tol (Some 4%nat) None = Some (grid, mask, idx) /\
    idx = [1; 4]%nat /\ mask = [false; true; false; false; true] /\ length grid = 5%nat /\ nth 1 grid 0 = nth 2 grid 0 /\ nth 0 grid 0 < nth 1 grid 0).
  { unfold prepare_grid, grid_from_num_times. cbn [last length Nat.sub]. unfold linspace. cbn [seq map Nat.sub Nat.max].
    replace (1 / INR 4 + INR 0 * ((1 - 1 / INR 4 - 1 / INR 4) / INR 1)) with (1 / 4) by (cbn; field).
    replace (1 / INR 4 + INR 1 * ((1 - 1 / INR 4 - 1 / INR 4) / INR 1)) with (3 / 4) by (cbn; field).
    assert (SO : sort ([1 / 4; 3 / 4] ++ [1 / 4; 1]) = [1 / 4; 1 / 4; 3 / 4; 1]).
    { cbn. repeat (match goal with |- context [Rle_dec ?a ?b] => destruct (Rle_dec a b); try lra end; cbn). reflexivity. }
    rewrite SO. cbn [searchsorted_left map]. repeat (match goal with |- context [Rlt_dec ?a ?b] => destruct (Rlt_dec a b); try lra end).
    cbn. do 3 eexists. split; [reflexivity|]. repeat split; cbn; lra. }
  destruct P as (grid & mask & idx & -> & -> & -> & LG & G1 & G2).
  assert (LD : length (dt grid) = 4%nat) by (unfold dt; rewrite diff_length', LG; reflexivity).
  assert (N1 : forall x, milstein_step p g order grid z 1 x = None).
  { intros x. unfold milstein_step. destruct (Nat.eqb_spec (dim p) 1); [contradiction|].
    destruct (step_sizes grid 1 ltac:(lia)) as (_ & _ & ->). rewrite G1. replace (nth 2 grid 0 - nth 2 grid 0) with 0 by ring. rewrite sqrt_0.
    unfold req. destruct (Req_EM_T 0 0); [reflexivity|contradiction]. }
  destruct watch.
  - unfold milstein_for. cbn [length Nat.eqb]. set (step := fun i (x : option samples) => match x with Some y => milstein_step p g order grid z i y | None => None end).
    assert (INC : incr_nat [1; 4]%nat) by (apply increasing_nat_incr; intros [|[|k]] K; cbn in *; lia).
    destruct (C24_accumulating step (Some x0) [1; 4]%nat ltac:(discriminate) INC) as (l & E1 & E2 & E3). rewrite E1.
    specialize (E3 1%nat 4%nat eq_refl). cbn [after] in E3.
    assert (A2 : step 1%nat (step 0%nat (Some x0)) = None) by (unfold step; destruct (milstein_step p g order grid z 0 x0); [apply N1|reflexivity]).
    rewrite A2 in E3. cbn in E3. destruct l as [|a [|b [|c l]]]; try discriminate. cbn in E3. injection E3 as ->. cbn. destruct a as [[a|]|]; reflexivity.
  - unfold milstein_while, record_run. rewrite LD. cbn [length Nat.eqb repeat write]. unfold acc_write. cbn [length Nat.ltb Nat.leb option_map firstn skipn app repeat].
    cbn [recording_loop Nat.ltb Nat.leb kept nth andb Nat.add]. destruct (milstein_step p g order grid z 0 x0) as [x1|]; [|reflexivity].
    cbn [write]. unfold acc_write. cbn [length Nat.ltb Nat.leb option_map firstn skipn app kept nth andb Nat.add recording_loop]. unfold kept. cbn [nth Nat.ltb Nat.leb andb]. rewrite N1. reflexivity.
Qed.

(** Refused arguments. *)
Theorem C70_errors p times time_step num_time_steps g order tol watch z x0 :
  order = 0%nat \/ (time_step = None /\ num_time_steps = None) \/ (time_step <> None /\ num_time_steps <> None) ->
  milstein_sample p times time_step num_time_steps g order tol watch z x0 = None.
Proof.
  intros H. unfold milstein_sample. destruct (Nat.eqb_spec order 0); [reflexivity|]. destruct time_step, num_time_steps; try reflexivity;
    destruct H as [H|[[H H']|[H H']]]; congruence.
Qed.

(** The documentation takes the coefficients at the start of the step; the code
    takes them at its end (as in C46): dX = t dt gives 1 instead of 0. *)
Theorem C70_left_point_refuted order tol watch z : (0 < order)%nat -> exists st,
  scalar_process clock (fun t _ => t) (fun _ _ => 0) (fun _ _ => 0) /\
  milstein_sample clock [1] None (Some 1%nat) None order tol watch z (fun _ _ => 0) = Some [st] /\ st 0%nat 0%nat = 1 /\
  milstein_path (fun t _ => t) (fun _ _ => 0) (fun _ _ => 0) (fun m => nth m [0; 1] 0) (fun m => nth m [0; 1] 0) (fun m => z m 0%nat 0%nat) 0 1 = 0.
Proof.
  intros O1. rewrite one_step by (lra || assumption). unfold milstein_step. cbn [clock dim Nat.eqb option_map].
  destruct (step_sizes [0; 1] 0 ltac:(cbn; lia)) as (-> & -> & ->). cbn [nth]. eexists. split.
  { split; [reflexivity|]. split; [reflexivity|]. split; [reflexivity|]. intros t y. apply (is_derive_const (K := R_AbsRing) (V := R_NormedModule)). }
  split; [reflexivity|]. split.
  - unfold milstein_1d. cbn. field.
  - cbn. unfold milstein_increment. ring.
Qed.

(** A non-trivial case: geometric Brownian motion dX = X / 2 dt + X / 5 dW
    with the default gradient. *)
Example C70_ex : let p := Process 1 (fun _ x s c => x s c / 2) (fun _ x s c _ => x s c / 5) in
  scalar_process p (fun _ y => y / 2) (fun _ y => y / 5) (fun _ _ => 1 / 5) /\ right_gradient None (fun _ _ => 1 / 5) /\
  forall z, exists st, milstein_sample p [1; 2; 4] None (Some 8%nat) None 5 (1 / 10 ^ 10) false z (fun _ _ => 100) = Some st /\ length st = 3%nat.
Proof.
  intros p. assert (SP : scalar_process p (fun _ y => y / 2) (fun _ y => y / 5) (fun _ _ => 1 / 5)).
  { split; [reflexivity|]. split; [reflexivity|]. split; [reflexivity|]. intros t y. auto_derive; [trivial|field]. }
  split; [exact SP|]. split; [exact Logic.I|]. intros z.
  destruct (C70_num_steps p None 5 [1; 2; 4] 8 (1 / 10 ^ 10) false z (fun _ _ => 100) _ _ _ SP Logic.I) as (g & m & i & st & _ & _ & E & L & _).
  - lia.
  - discriminate.
  - intros [|[|k]] K; cbn in *; try lia; lra.
  - cbn. lra.
  - lia.
  - exists st. split; [exact E|exact L].
Qed.

Print Assumptions C70_time_step.
Print Assumptions C70_num_steps.
Print Assumptions C70_documented.
Print Assumptions C70_mean.
Print Assumptions C70_additive.
Print Assumptions C70_bias_refuted.
Print Assumptions C70_mixed_integrals_refuted.
Print Assumptions C70_wrong_index_refuted.
Print Assumptions C70_repeated_point_refuted.
Print Assumptions C70_errors.
Print Assumptions C70_left_point_refuted.
