(** C66: exact sampling of the Hull-White model. *)
From Coquelicot Require Import Coquelicot.
From Coq Require Import ZArith Reals List Bool Arith Lia Lra FunctionalExtensionality Sorting.Permutation.
From Verif Require Import TensorModel TensorProofs SegmentModel BrentModel LoopModel LoopProofs TimeGridModel TimeGridSpec TimeGridProofs PropsTimeGrid
  PiecewiseModel PiecewiseProofs PropsPiecewise GbmModel MvNormalSpec MvNormalProofs GbmSpec GbmProofs2 PropsMvNormal PropsGbm PropsEuler HullWhiteModel HullWhiteSpec HullWhiteProofs HullWhiteProofs2.
Import ListNotations.
Open Scope R_scope.

(** The correlation of the Brownian motions at time t. *)
Definition hw_correlation (h : hw) (t : R) (a b : nat) : R := match hw_corr h with None => identity_matrix a b | Some c => pwm_call c t a b end.
(** [L j] is the Cholesky factor of the correlation in force throughout step j,
    from grid time j to the next.  If the correlation jumps, the grid must not
    repeat a time (see C66_correlation_refuted). *)
Definition step_factors (cholesky : matrix -> option matrix) (h : hw) (grid : list R) (L : nat -> matrix) : Prop :=
  match hw_corr h with
  | None => forall j, L j = identity_matrix
  | Some c => length (mvalues c) = S (length (mjumps c)) /\ (forall m, In m (mvalues c) -> cholesky m <> None) /\
      ((mjumps c = [] /\ forall j t, cholesky (pwm_call c t) = Some (L j)) \/
       (increasing grid /\ forall j t, (S j < length grid)%nat -> at_ grid j < t <= at_ grid (S j) -> cholesky (pwm_call c t) = Some (L j)))
  end.
(** The factors that the code uses. *)
Definition factors_used (cholesky : matrix -> option matrix) (h : hw) (grid : list R) (L : nat -> matrix) : Prop :=
  match hw_corr h with
  | None => forall j, L j = identity_matrix
  | Some c => length (mvalues c) = S (length (mjumps c)) /\ (forall m, In m (mvalues c) -> cholesky m <> None) /\
      forall j, (S j < length grid)%nat -> cholesky (pwm_call c (at_ grid j + reduce_min (diff 1 true grid) / 2)) = Some (L j)
  end.
(** Cholesky factors times their transposes are the correlations. *)
Definition factors_correlation (h : hw) (grid : list R) (L : nat -> matrix) : Prop :=
  forall j t a b, (S j < length grid)%nat -> at_ grid j < t <= at_ grid (S j) -> (a < hw_dim h)%nat -> (b < hw_dim h)%nat ->
    sum_to (hw_dim h) (fun l => L j a l * L j b l) = hw_correlation h t a b.
(** The draws that are used: the supplied ones, enough of them and exactly as
    many as there are steps if arguments are validated, or the generated ones. *)
Definition uses (h : hw) (steps : nat) (generated : nat -> rates) (supplied : option (nat * nat * (nat -> rates))) (validate : bool) (draws : nat -> rates) : Prop :=
  match supplied with
  | None => draws = generated
  | Some (num, dim, z) => dim = hw_dim h /\ draws = z /\ (steps <= num)%nat /\ (validate = true -> num = steps)
  end.

Lemma rsum_sum_to f n : rsum f n = sum_to n f.
Proof. induction n as [|n IH]; [reflexivity|]. cbn [sum_to rsum]. rewrite IH. reflexivity. Qed.
Lemma not_generic h k V M : hw_setting h k V M -> sample_with_generic h = false.
Proof.
  intros HS. unfold sample_with_generic. destruct (existsb _ _) eqn:E; [|reflexivity]. apply existsb_exists in E. destruct E as (a & H & E). apply in_seq in H. destruct (HS a ltac:(lia)) as (MR & _). rewrite MR in E. discriminate E.
Qed.
Lemma reduce_min_le l x : In x l -> reduce_min l <= x.
Proof.
  destruct l as [|y l]; [contradiction|]. cbn [reduce_min]. intros H.
  assert (G : forall z, z = y \/ In z l -> fold_right Rmin y l <= z).
  { clear H. induction l as [|w l IH]; intros z [->|H]; cbn [fold_right]; [lra|contradiction| |].
    - eapply Rle_trans; [apply Rmin_r|]. apply IH. left. reflexivity.
    - destruct H as [->|H]; [apply Rmin_l|]. eapply Rle_trans; [apply Rmin_r|]. apply IH. right. exact H. }
  apply G. destruct H as [->|H]; [left; reflexivity|right; exact H].
Qed.
Lemma reduce_min_in l : l <> [] -> In (reduce_min l) l.
Proof.
  destruct l as [|y l]; [contradiction|]. intros _. cbn [reduce_min]. induction l as [|w l IH]; [left; reflexivity|]. cbn [fold_right]. unfold Rmin at 1. destruct (Rle_dec w (fold_right Rmin y l)); [right; left; reflexivity|].
  destruct IH as [H|H]; [left; exact H|right; right; exact H].
Qed.
Lemma all_some_ok {X} (l : list (option X)) (x : X) : (forall o, In o l -> o <> None) -> exists r, all_some l = Some r /\ length r = length l /\ forall i, (i < length l)%nat -> nth i l None = Some (nth i r x).
Proof.
  induction l as [|o l IH]; intros H; [exists []; split; [reflexivity|split; [reflexivity|intros i I; cbn in I; lia]]|].
  destruct IH as (r & E & L & N); [intros o' H'; apply H; right; exact H'|]. destruct o as [y|]; [|destruct (H None (or_introl eq_refl) eq_refl)].
  exists (y :: r). cbn [all_some]. rewrite E. split; [reflexivity|]. split; [cbn; lia|]. intros [|i] I; [reflexivity|]. cbn [nth]. apply N. cbn in I. lia.
Qed.

Lemma step_factors_used cholesky h grid L : step_factors cholesky h grid L -> factors_used cholesky h grid L.
Proof.
  unfold step_factors, factors_used. destruct (hw_corr h) as [c|]; [|auto]. intros (LV & CH & FL). split; [exact LV|]. split; [exact CH|]. intros i H. destruct FL as [(_ & FL)|(IG & FL)]; [apply FL|].
  assert (DL : length (diff 1 true grid) = pred (length grid)) by apply diff_length'. assert (MP : 0 < reduce_min (diff 1 true grid)).
  { assert (IN : In (reduce_min (diff 1 true grid)) (diff 1 true grid)) by (apply reduce_min_in; intros Q; rewrite Q in DL; cbn in DL; lia).
    apply (In_nth _ _ 0) in IN. destruct IN as (m & ML & EQ). rewrite <- EQ. rewrite diff_nth' by lia. specialize (IG m ltac:(lia)). lra. }
  assert (ML : reduce_min (diff 1 true grid) <= at_ grid (S i) - at_ grid i) by (unfold at_; rewrite <- diff_nth' by exact H; apply reduce_min_le, nth_In; lia).
  apply FL; [exact H|lra].
Qed.
(** What is sampled on a grid that keeps the indices [idx] of the times. *)
Lemma sampled_on_grid cholesky generated h times times_grid supplied validate draws k V M L grid mask idx :
  hw_setting h k V M -> hw_prepare_grid h times times_grid = Some (grid, mask) -> nondecr grid -> at_ grid 0 = 0 -> grid <> [] ->
  length idx = length times -> idx <> [] -> increasing_nat idx -> marks mask (length grid) idx ->
  factors_used cholesky h grid L -> uses h (length grid - 1) generated supplied validate draws ->
  exists r, hw_sample_paths cholesky generated h times times_grid supplied validate = Some r /\ length r = length times /\
    forall i s a, (i < length times)%nat -> (a < hw_dim h)%nat ->
      nth i r (fun _ _ => 0) s a = hw_solution (hw_forward h a) (k a) (V a) (M a) (at_ grid) (fun j => sum_to (hw_dim h) (fun b => L j a b * draws j s b)) (nth i idx 0%nat).
Proof.
  intros HS PG SG G0 GN LI NI II MK SF US.
  assert (GL : (0 < length grid)%nat) by (destruct grid; [contradiction|cbn; lia]).
  assert (CORE : forall available, (length grid <= S available)%nat -> exists r, hw_sample cholesky h times times_grid available draws = Some r /\ length r = length times /\
    forall i s a, (i < length times)%nat -> (a < hw_dim h)%nat ->
      nth i r (fun _ _ => 0) s a = hw_solution (hw_forward h a) (k a) (V a) (M a) (at_ grid) (fun j => sum_to (hw_dim h) (fun b => L j a b * draws j s b)) (nth i idx 0%nat)).
  { intros available AV. unfold hw_sample. rewrite PG. cbv zeta.
    assert (RT : exists root, match hw_corr h with None => Some None | Some c => option_map Some (all_some (map (fun t => cholesky (pwm_call c (t + reduce_min (diff 1 true grid) / 2))) grid)) end = Some root /\
      forall i s a, (S i < length grid)%nat -> (a < hw_dim h)%nat ->
        match root with Some l => rsum (fun b => nth i l (fun _ _ => 0) a b * draws i s b) (hw_dim h) | None => draws i s a end = sum_to (hw_dim h) (fun b => L i a b * draws i s b)).
    { unfold factors_used in SF. destruct (hw_corr h) as [c|].
      - destruct SF as (LV & CH & FL). match goal with |- context [all_some ?l] => destruct (all_some_ok l (fun _ _ => 0)) as (r & E & LR & NR) end.
        + intros o H. apply in_map_iff in H. destruct H as (t & <- & _). apply CH. unfold pwm_call. apply nth_In. rewrite LV. pose proof (ssl_le (mjumps c) (t + reduce_min (diff 1 true grid) / 2)). lia.
        + rewrite E. cbn [option_map]. exists (Some r). split; [reflexivity|]. intros i s a H Ha. rewrite rsum_sum_to. apply sum_to_ext. intros b Hb. f_equal. f_equal.
          rewrite map_length in NR. specialize (NR i ltac:(lia)). pose (F := fun t => cholesky (pwm_call c (t + reduce_min (diff 1 true grid) / 2))). fold F in NR.
          rewrite (nth_indep _ None (F 0)) in NR by (rewrite map_length; lia). rewrite (map_nth F) in NR. unfold F in NR. fold (at_ grid i) in NR.
          rewrite (FL i H) in NR. congruence.
      - exists None. split; [reflexivity|]. intros i s a H Ha. rewrite SF. rewrite sum_to_identity by exact Ha. reflexivity. }
    destruct RT as (root & E & RT). rewrite E. set (dt := diff 1 true grid). pose (X := states h grid available root draws).
    pose proof (record_run_ok (the_step h grid available root draws) (fun i (x : rates) s a => x s a + hw_forward h a (at_ grid i)) X (length dt)) as RR.
    specialize (RR (states_step h grid available root draws AV) mask idx II). unfold dt in RR. rewrite diff_length' in RR. replace (S (pred (length grid))) with (length grid) in RR by lia. specialize (RR MK NI).
    rewrite LI in RR. change (X 0%nat) with (fun _ _ : nat => 0) in RR. unfold the_step in RR. unfold dt. rewrite diff_length'.
    eexists. split; [exact RR|]. unfold recorded. split; [rewrite map_length; exact LI|]. intros i s a Hi Ha.
    pose (F := fun j : nat => (fun s a => X j s a + hw_forward h a (at_ grid j)) : rates). change (map _ idx) with (map F idx). rewrite (nth_indep _ _ (F 0%nat)) by (rewrite map_length, LI; exact Hi). rewrite (map_nth F). unfold F.
    apply (states_value h k V M grid available root L draws HS SG G0 AV RT s a Ha). apply MK, nth_In. lia. }
  unfold hw_sample_paths. rewrite (not_generic h k V M HS), PG. cbv zeta. unfold uses in US. destruct supplied as [[[num dim] z]|].
  - destruct US as (-> & -> & NU & VA). rewrite Nat.eqb_refl. cbn [negb]. replace (validate && negb (Nat.eqb num (length grid - 1)))%bool with false; [apply CORE; lia|].
    destruct validate; [|reflexivity]. rewrite (VA eq_refl), Nat.eqb_refl. reflexivity.
  - subst generated. apply CORE. lia.
Qed.

Lemma sorted_unique l l' : nondecr l -> nondecr l' -> Permutation l l' -> l = l'.
Proof.
  revert l'. induction l as [|x l IH]; intros l' S1 S2 P; [apply Permutation_nil in P; congruence|].
  destruct l' as [|y l']; [apply Permutation_sym, Permutation_nil in P; discriminate P|].
  assert (E : x = y).
  { assert (A : forall z u v, nondecr (u :: v) -> In z (u :: v) -> u <= z).
    { intros z u v SO Z. apply (In_nth _ _ 0) in Z. destruct Z as (m & M & <-). apply (nondecr_le _ SO 0 m); [lia|exact M]. }
    apply Rle_antisym; [apply (A y x l S1), (Permutation_in y (Permutation_sym P))|apply (A x y l' S2), (Permutation_in x P)]; left; reflexivity. }
  subst y. f_equal. apply IH; [intros i H; apply (S1 (S i)); cbn; lia|intros i H; apply (S2 (S i)); cbn; lia|apply Permutation_cons_inv with x, P].
Qed.

(** The simulation grid consists of 0, the requested times and the times at
    which parameters jump, in order. *)
Definition simulation_grid (h : hw) (times grid : list R) : Prop := nondecr grid /\ Permutation grid (0 :: times ++ all_jumps h).
Lemma jumps_pos h k V M : hw_setting h k V M -> (0 < hw_dim h)%nat -> forall x, In x (all_jumps h) -> 0 <= x.
Proof.
  intros HS D0 x H. unfold all_jumps in H. apply in_app_or in H. destruct H as [H|H]; [|apply in_app_or in H; destruct H as [H|H]].
  - apply in_flat_map in H. destruct H as (a & A & H). apply in_seq in A. destruct (HS a ltac:(lia)) as (MR & _). rewrite MR in H. contradiction.
  - apply in_flat_map in H. destruct H as (a & A & H). apply in_seq in A. destruct (HS a ltac:(lia)) as (_ & _ & _ & P & _). apply P, in_or_app. left. exact H.
  - destruct (HS 0%nat D0) as (_ & _ & _ & P & _). apply P, in_or_app. right. exact H.
Qed.
Lemma increasing_pos times : increasing times -> 0 <= nth 0 times 0 -> forall t, In t times -> 0 <= t.
Proof.
  intros I0 P t H. apply (In_nth _ _ 0) in H. destruct H as (m & M & <-). induction m as [|m IH]; [exact P|]. specialize (IH ltac:(lia)). specialize (I0 m M). lra.
Qed.
Lemma simulation_grid_is h times grid k V M : hw_setting h k V M -> (0 < hw_dim h)%nat -> increasing times -> 0 <= nth 0 times 0 -> simulation_grid h times grid ->
  grid = the_grid h times /\ at_ grid 0 = 0 /\ (forall i, (i < length grid)%nat -> 0 <= at_ grid i) /\ grid <> [].
Proof.
  intros HS D0 IT P (SG & PG). assert (E : grid = the_grid h times) by (apply sorted_unique; [exact SG|apply sort_nondecr|rewrite PG; apply Permutation_sym, sort_perm]).
  split; [exact E|]. subst grid. destruct (the_grid_first h times) as (G1 & G2); [|split; [exact G1|split; [exact G2|apply sort_cons_ne]]].
  intros t H. apply in_app_or in H. destruct H as [H|H]; [apply (increasing_pos times IT P t H)|apply (jumps_pos h k V M HS D0 t H)].
Qed.

(** At every requested time, the sample is the exact solution of the equation for
    the standardised increments L_j z_j, where z_j are the draws of step j. *)
Theorem C66_path : forall cholesky generated h times supplied validate draws k V M L grid,
  hw_setting h k V M -> (0 < hw_dim h)%nat -> times <> [] -> increasing times -> 0 <= nth 0 times 0 ->
  simulation_grid h times grid -> step_factors cholesky h grid L -> uses h (length grid - 1) generated supplied validate draws ->
  exists r idx, hw_sample_paths cholesky generated h times None supplied validate = Some r /\ length r = length times /\
    forall i, (i < length times)%nat -> (idx i < length grid)%nat /\ at_ grid (idx i) = nth i times 0 /\
      forall s a, (a < hw_dim h)%nat ->
        nth i r (fun _ _ => 0) s a = hw_solution (hw_forward h a) (k a) (V a) (M a) (at_ grid) (fun j => sum_to (hw_dim h) (fun b => L j a b * draws j s b)) (idx i).
Proof.
  intros ch gen h times sup va draws k V M L grid HS D0 TN TI T0 SG SF US. destruct (simulation_grid_is h times grid k V M HS D0 TI T0 SG) as (-> & G0 & _ & GN).
  destruct (grid_ok h times) as (mask & PG & MK).
  destruct (sampled_on_grid ch gen h times None sup va draws k V M L (the_grid h times) mask (indices h times) HS PG) as (r & E & LR & VR);
    [apply SG|exact G0|exact GN|apply map_length|unfold indices; destruct times; [contradiction|discriminate]|apply indices_increasing, TI|exact MK|apply step_factors_used, SF|exact US|].
  exists r, (fun i => nth i (indices h times) 0%nat). split; [exact E|]. split; [exact LR|]. intros i Hi. destruct (indices_at h times i Hi) as (I1 & I2). split; [exact I1|]. split; [exact I2|]. intros s a Ha. apply VR; assumption.
Qed.
Print Assumptions C66_path.

(** With a grid of one's own, the samples are those of the nearest grid times;
    they must be different for different requested times. *)
Theorem C66_given_grid : forall cholesky generated h times supplied validate draws k V M L g,
  hw_setting h k V M -> times <> [] -> g <> [] -> increasing g -> nth 0 g 0 = 0 -> (forall t, In t times -> t <= last g 0) ->
  step_factors cholesky h g L -> uses h (length g - 1) generated supplied validate draws ->
  exists idx, length idx = length times /\ (forall i, (i < length times)%nat -> is_nearest g (nth i idx 0%nat) (nth i times 0)) /\
    (increasing_nat idx -> exists r, hw_sample_paths cholesky generated h times (Some g) supplied validate = Some r /\ length r = length times /\
      forall i s a, (i < length times)%nat -> (a < hw_dim h)%nat ->
        nth i r (fun _ _ => 0) s a = hw_solution (hw_forward h a) (k a) (V a) (M a) (at_ g) (fun j => sum_to (hw_dim h) (fun b => L j a b * draws j s b)) (nth i idx 0%nat)).
Proof.
  intros ch gen h times sup va draws k V M L g HS TN GN IG G0 TL SF US. destruct (C45_given_grid times 0 0 None g GN IG TL) as (mask & idx & PG & LI & NE & MK).
  exists idx. split; [exact LI|]. split; [exact NE|]. intros II. apply (sampled_on_grid ch gen h times (Some g) sup va draws k V M L g mask idx HS);
    [apply (given_grid_ok h times g mask idx PG)|intros i H; specialize (IG i H); unfold at_; lra|exact G0|exact GN|exact LI|intros ->; destruct times; [contradiction|discriminate LI]|exact II|exact MK|apply step_factors_used, SF|exact US].
Qed.
Print Assumptions C66_given_grid.

(** * The law *)
Lemma no_correlation_factors ch h grid L : hw_corr h = None -> step_factors ch h grid L -> factors_correlation h grid L.
Proof. unfold step_factors, factors_correlation, hw_correlation. intros ->. intros E j t a b _ _ Ha _. rewrite E. apply identity_factor, Ha. Qed.

(** One sample as a function of its draws: coordinate b of step j is number
    j * dim + b. *)
Definition one_sample (d : nat) (z : list R) : nat -> rates := fun j _ b => coord z (j * d + b).
Section Law.
  Variables (d N P : nat) (k : nat -> R) (V M f : nat -> R -> R) (t : nat -> R) (L : nat -> matrix) (n a : nat -> nat).
  Hypothesis D0 : (0 < d)%nat.
  Hypothesis NB : forall p, (p < P)%nat -> (n p <= N)%nat.
  Lemma hw_linear_law C :
    (forall p q, (p < P)%nat -> (q < P)%nat -> C p q = exp (- k (a p) * t (n p)) * exp (- k (a q) * t (n q)) *
      sum_to (Nat.min (n p) (n q)) (fun j => sqrt (V (a p) (t (S j)) - V (a p) (t j)) * sqrt (V (a q) (t (S j)) - V (a q) (t j)) * sum_to d (fun b => L j (a p) b * L j (a q) b))) ->
    jointly_normal (N * d) P (fun p z => hw_solution (f (a p)) (k (a p)) (V (a p)) (M (a p)) t (fun j => sum_to d (fun b => L j (a p) b * one_sample d z j 0%nat b)) (n p))
      (fun p => f (a p) (t (n p)) + exp (- k (a p) * t (n p)) * M (a p) (t (n p))) C.
  Proof.
    intros HC. pose (w := fun p j => sqrt (V (a p) (t (S j)) - V (a p) (t j))). pose (e := fun p => exp (- k (a p) * t (n p))).
    apply (linear_normal (N * d) P _ _ (fun p q => if Nat.ltb (q / d) (n p) then e p * (w p (q / d)%nat * L (q / d)%nat (a p) (q mod d)%nat) else 0)).
    - intros p z Hp. unfold hw_solution. fold (e p). rewrite Rmult_plus_distr_l, <- Rplus_assoc. f_equal.
      pose (F := fun j b : nat => (if Nat.ltb j (n p) then e p * (w p j * (L j (a p) b * coord z (j * d + b)%nat)) else 0)).
      transitivity (sum_to (N * d) (fun q => F (q / d)%nat (q mod d)%nat)).
      + rewrite (st_pairs N d F D0). unfold F. rewrite (sum_to_ext N _ (fun j => if Nat.ltb j (n p) then e p * (w p j * sum_to d (fun b => L j (a p) b * coord z (j * d + b)%nat)) else 0)).
        * rewrite st_cut by apply NB, Hp. rewrite st_scal. apply sum_to_ext. intros j _. reflexivity.
        * intros j J. destruct (Nat.ltb j (n p)); [|apply st_zero]. rewrite !st_scal. reflexivity.
      + apply sum_to_ext. intros q Hq. unfold F. replace (q / d * d + q mod d)%nat with q by (rewrite Nat.mul_comm; apply Nat.div_mod; lia). destruct (Nat.ltb (q / d) (n p)); ring.
    - intros p q Hp Hq. rewrite (HC p q Hp Hq). fold (e p) (e q).
      pose (F := fun j b : nat => (if Nat.ltb j (Nat.min (n p) (n q)) then e p * e q * (w p j * w q j * (L j (a p) b * L j (a q) b)) else 0)).
      transitivity (sum_to (N * d) (fun q => F (q / d)%nat (q mod d)%nat)).
      + rewrite (st_pairs N d F D0). unfold F. rewrite (sum_to_ext N _ (fun j => if Nat.ltb j (Nat.min (n p) (n q)) then e p * e q * (w p j * w q j * sum_to d (fun b => L j (a p) b * L j (a q) b)) else 0)).
        * rewrite st_cut by (pose proof (NB p Hp); lia). rewrite st_scal. apply sum_to_ext. intros j _. reflexivity.
        * intros j J. destruct (Nat.ltb j (Nat.min (n p) (n q))); [|apply st_zero]. rewrite !st_scal. reflexivity.
      + apply sum_to_ext. intros r Hr. unfold F. destruct (Nat.ltb_spec (r / d) (n p)), (Nat.ltb_spec (r / d) (n q)), (Nat.ltb_spec (r / d) (Nat.min (n p) (n q))); try lia; ring.
  Qed.
End Law.

(** For independent standard normal draws every coordinate has, jointly at the
    requested times, the law of the exact solution: normal with mean f(t) +
    exp(-k t) M(t) and covariance exp(-k (t + t')) V(min(t, t')). *)
Theorem C66_law : forall cholesky generated h times k V M L grid a,
  hw_setting h k V M -> (a < hw_dim h)%nat -> times <> [] -> increasing times -> 0 <= nth 0 times 0 ->
  simulation_grid h times grid -> step_factors cholesky h grid L -> factors_correlation h grid L -> (forall t, hw_correlation h t a a = 1) ->
  let T i := nth i times 0 in let steps := (length grid - 1)%nat in
  exists X : nat -> list R -> R,
    (forall z, exists r, hw_sample_paths cholesky generated h times None (Some (steps, hw_dim h, one_sample (hw_dim h) z)) true = Some r /\
      forall i, (i < length times)%nat -> nth i r (fun _ _ => 0) 0%nat a = X i z) /\
    jointly_normal (steps * hw_dim h) (length times) X
      (fun i => hw_forward h a (T i) + exp (- k a * T i) * M a (T i))
      (fun i j => exp (- k a * (T i + T j)) * V a (Rmin (T i) (T j))).
Proof.
  intros ch gen h times k V M L grid a HS Ha TN TI T0 SG SF FC RA T steps.
  destruct (simulation_grid_is h times grid k V M HS ltac:(lia) TI T0 SG) as (EG & G0 & GP & GN). subst grid. set (grid := the_grid h times) in *. set (idx := fun i => nth i (indices h times) 0%nat).
  set (d := hw_dim h) in *. assert (D0 : (0 < d)%nat) by (unfold d; lia).
  exists (fun i z => hw_solution (hw_forward h a) (k a) (V a) (M a) (at_ grid) (fun j => sum_to d (fun b => L j a b * one_sample d z j 0%nat b)) (idx i)). split.
  - intros z. destruct (grid_ok h times) as (mask & PG & MK).
    destruct (sampled_on_grid ch gen h times None (Some (steps, d, one_sample d z)) true (one_sample d z) k V M L grid mask (indices h times) HS PG) as (r & E & LR & VR);
      [apply SG|exact G0|exact GN|apply map_length|unfold indices; destruct times; [contradiction|discriminate]|apply indices_increasing, TI|exact MK|apply step_factors_used, SF|repeat split; lia|].
    exists r. split; [exact E|]. intros i Hi. rewrite (VR i 0%nat a Hi Ha). reflexivity.
  - assert (NB : forall i, (i < length times)%nat -> (idx i <= steps)%nat) by (intros i Hi; destruct (indices_at h times i Hi) as (B & _); unfold idx, steps; fold grid in B; lia).
    destruct (HS a Ha) as (_ & _ & _ & _ & NI & _).
    pose proof (hw_linear_law d steps (length times) k V M (hw_forward h) (at_ grid) L idx (fun _ => a) D0 NB (fun i j => exp (- k a * (T i + T j)) * V a (Rmin (T i) (T j)))) as HL.
    assert (AT : forall i, (i < length times)%nat -> at_ grid (idx i) = T i) by (intros i Hi; apply (indices_at h times i Hi)).
    intros u. apply (iid_ext (steps * d) (fun z => exp (sum_to (length times) (fun p => u p * hw_solution (hw_forward h a) (k a) (V a) (M a) (at_ grid) (fun j => sum_to d (fun b => L j a b * one_sample d z j 0%nat b)) (idx p))))); [reflexivity|].
    rewrite (sum_to_ext (length times) (fun p => u p * (hw_forward h a (T p) + exp (- k a * T p) * M a (T p))) (fun p => u p * (hw_forward h a (at_ grid (idx p)) + exp (- k a * at_ grid (idx p)) * M a (at_ grid (idx p))))) by (intros p Hp; rewrite AT by exact Hp; reflexivity).
    apply HL. intros p q Hp Hq. rewrite !AT by assumption. rewrite <- exp_plus. f_equal; [f_equal; ring|].
    assert (SGN : nondecr grid) by apply SG.
    rewrite (sum_to_ext _ _ (fun j => V a (at_ grid (S j)) - V a (at_ grid j))).
    + rewrite (st_telescope _ (fun j => V a (at_ grid j))). rewrite G0, (noise_zero _ _ _ NI), Rminus_0_r. f_equal. destruct (le_lt_dec (idx p) (idx q)) as [Q|Q].
      * rewrite Nat.min_l by exact Q. rewrite AT by exact Hp. apply Rmin_left. rewrite <- !AT by assumption. apply (nondecr_le grid SGN); [exact Q|apply (indices_at h times q Hq)].
      * rewrite Nat.min_r by lia. rewrite AT by exact Hq. apply Rmin_right. rewrite <- !AT by assumption. apply (nondecr_le grid SGN); [lia|apply (indices_at h times p Hp)].
    + intros j Hj. assert (B : (S j < length grid)%nat) by (pose proof (NB p Hp); unfold steps in *; lia). assert (O : 0 <= at_ grid j <= at_ grid (S j)) by (split; [apply GP; lia|apply SGN, B]).
      pose proof (noise_grows _ _ _ _ _ NI O) as G. destruct (Req_dec (at_ grid j) (at_ grid (S j))) as [Q|Q]; [rewrite Q, Rminus_eq_0, sqrt_0; ring|].
      pose proof (FC j (at_ grid (S j)) a a B ltac:(lra) Ha Ha) as FJ. fold d in FJ. rewrite FJ, RA, sqrt_sqrt by exact G. ring.
Qed.
Print Assumptions C66_law.

(** When all coordinates have the same mean reversion, all coordinates together
    have the law of the exact solution: the covariance of coordinates a and b at
    times t and t' is exp(-k (t + t')) times the integral of rho_ab sigma_a sigma_b
    exp(2 k u) up to the earlier time.  Number i * dim + a stands for coordinate a
    at time i. *)
Theorem C66_joint_law : forall cholesky generated h times k V M L grid (Q : nat -> nat -> R -> R),
  hw_setting h (fun _ => k) V M -> (0 < hw_dim h)%nat -> times <> [] -> increasing times -> 0 <= nth 0 times 0 ->
  simulation_grid h times grid -> step_factors cholesky h grid L -> factors_correlation h grid L ->
  (forall a t, (a < hw_dim h)%nat -> 0 <= param_at (hw_vol h a) t) ->
  (forall a b t, (a < hw_dim h)%nat -> (b < hw_dim h)%nat -> 0 <= t ->
     is_RInt (fun u => hw_correlation h u a b * param_at (hw_vol h a) u * param_at (hw_vol h b) u * exp (2 * k * u)) 0 t (Q a b t)) ->
  let T i := nth i times 0 in let steps := (length grid - 1)%nat in let d := hw_dim h in
  exists X : nat -> nat -> list R -> R,
    (forall z, exists r, hw_sample_paths cholesky generated h times None (Some (steps, d, one_sample d z)) true = Some r /\
      forall i a, (i < length times)%nat -> (a < d)%nat -> nth i r (fun _ _ => 0) 0%nat a = X i a z) /\
    jointly_normal (steps * d) (length times * d) (fun p z => X (p / d)%nat (p mod d)%nat z)
      (fun p => hw_forward h (p mod d)%nat (T (p / d)%nat) + exp (- k * T (p / d)%nat) * M (p mod d)%nat (T (p / d)%nat))
      (fun p q => exp (- k * (T (p / d)%nat + T (q / d)%nat)) * Q (p mod d)%nat (q mod d)%nat (Rmin (T (p / d)%nat) (T (q / d)%nat))).
Proof.
  intros ch gen h times k V M L grid Q HS D0 TN TI T0 SG SF FC VP HQ T steps d.
  destruct (simulation_grid_is h times grid (fun _ => k) V M HS D0 TI T0 SG) as (EG & G0 & GP & GN). subst grid. set (grid := the_grid h times) in *. set (idx := fun i => nth i (indices h times) 0%nat).
  assert (SGN : nondecr grid) by apply SG.
  exists (fun i a z => hw_solution (hw_forward h a) k (V a) (M a) (at_ grid) (fun j => sum_to d (fun b => L j a b * one_sample d z j 0%nat b)) (idx i)). split.
  - intros z. destruct (grid_ok h times) as (mask & PG & MK).
    destruct (sampled_on_grid ch gen h times None (Some (steps, d, one_sample d z)) true (one_sample d z) (fun _ => k) V M L grid mask (indices h times) HS PG) as (r & E & LR & VR);
      [exact SGN|exact G0|exact GN|apply map_length|unfold indices; destruct times; [contradiction|discriminate]|apply indices_increasing, TI|exact MK|apply step_factors_used, SF|repeat split; lia|].
    exists r. split; [exact E|]. intros i a Hi Ha. rewrite (VR i 0%nat a Hi Ha). reflexivity.
  - assert (NB : forall i, (i < length times)%nat -> (idx i <= steps)%nat) by (intros i Hi; destruct (indices_at h times i Hi) as (B & _); unfold idx, steps; fold grid in B; lia).
    assert (AT : forall i, (i < length times)%nat -> at_ grid (idx i) = T i) by (intros i Hi; apply (indices_at h times i Hi)).
    assert (DV : forall p, (p < length times * d)%nat -> (p / d < length times)%nat /\ (p mod d < d)%nat) by (intros p Hp; split; [apply Nat.div_lt_upper_bound; lia|apply Nat.mod_upper_bound; unfold d; lia]).
    set (C := fun p q : nat => exp (- k * (T (p / d)%nat + T (q / d)%nat)) * Q (p mod d)%nat (q mod d)%nat (Rmin (T (p / d)%nat) (T (q / d)%nat))).
    pose proof (hw_linear_law d steps (length times * d) (fun _ => k) V M (hw_forward h) (at_ grid) L (fun p => idx (p / d)%nat) (fun p => (p mod d)%nat) D0 (fun p Hp => NB _ (proj1 (DV p Hp))) C) as HL.
    intros u.
    rewrite (sum_to_ext (length times * d) (fun p => u p * (hw_forward h (p mod d)%nat (T (p / d)%nat) + exp (- k * T (p / d)%nat) * M (p mod d)%nat (T (p / d)%nat))) (fun p => u p * (hw_forward h (p mod d)%nat (at_ grid (idx (p / d)%nat)) + exp (- k * at_ grid (idx (p / d)%nat)) * M (p mod d)%nat (at_ grid (idx (p / d)%nat))))) by (intros p Hp; rewrite AT by apply DV, Hp; reflexivity).
    apply HL. clear HL u. intros p q Hp Hq. destruct (DV p Hp) as (Ip & Ap). destruct (DV q Hq) as (Iq & Aq). unfold C. clear C.
    revert Ip Ap Iq Aq. generalize (p / d)%nat (p mod d)%nat (q / d)%nat (q mod d)%nat. clear p q Hp Hq. intros i a j b Hi Ha Hj Hb. rewrite !AT by assumption. rewrite <- exp_plus. f_equal; [f_equal; ring|].
    destruct (HS a Ha) as (_ & K0 & OA & _ & NA & _). destruct (HS b Hb) as (_ & _ & OB & _ & NBb & _).
    rewrite (sum_to_ext _ _ (fun m => Q a b (at_ grid (S m)) - Q a b (at_ grid m))).
    + rewrite (st_telescope _ (fun m => Q a b (at_ grid m))). rewrite G0. replace (Q a b 0) with 0 by (specialize (HQ a b 0 Ha Hb ltac:(lra)); apply (is_RInt_unique (V := R_CompleteNormedModule)) in HQ; rewrite <- HQ; symmetry; apply (RInt_point (V := R_CompleteNormedModule))).
      rewrite Rminus_0_r. f_equal. destruct (le_lt_dec (idx i) (idx j)) as [W|W].
      * rewrite Nat.min_l by exact W. rewrite AT by exact Hi. apply Rmin_left. rewrite <- !AT by assumption. apply (nondecr_le grid SGN); [exact W|apply (indices_at h times j Hj)].
      * rewrite Nat.min_r by lia. rewrite AT by exact Hj. apply Rmin_right. rewrite <- !AT by assumption. apply (nondecr_le grid SGN); [lia|apply (indices_at h times i Hi)].
    + intros m Hm. assert (B : (S m < length grid)%nat) by (pose proof (NB i Hi); unfold steps in *; lia). set (t := at_ grid m). set (t' := at_ grid (S m)). assert (O : 0 <= t <= t') by (split; [apply GP; lia|apply SGN, B]).
      destruct (Req_dec t t') as [W|W]; [rewrite W, !Rminus_eq_0, sqrt_0; ring|].
      assert (SP : forall c, (c < d)%nat -> piecewise_ok (hw_vol h c) -> forall u, t < u <= t' -> param_at (hw_vol h c) u = param_at (hw_vol h c) t').
      { intros c Hc OC u HU. apply (same_piece (hw_vol h c) grid (S m) u t' OC SGN); [|lia|exact (proj1 HU)|exact (proj2 HU)|intros _; apply Rle_refl].
        intros x X. unfold grid, the_grid. rewrite sort_in. cbn [app In]. right. apply in_or_app. right. unfold all_jumps. apply in_or_app. right. apply in_or_app. left. apply in_flat_map. exists c. split; [apply in_seq; unfold d in Hc; lia|exact X]. }
      set (sa := param_at (hw_vol h a) t'). set (sb := param_at (hw_vol h b) t'). set (w := (exp (2 * k * t') - exp (2 * k * t)) / (2 * k)).
      assert (EI : is_RInt (fun u => exp (2 * k * u)) t t' w).
      { set (F := fun u => exp (2 * k * u) / (2 * k)). replace w with (F t' - F t) by (unfold F, w; field; exact K0). apply (is_RInt_derive (V := R_CompleteNormedModule) F).
        - intros u _. unfold F. auto_derive; [exact Logic.I|]. field. exact K0.
        - intros u _. apply (ex_derive_continuous (K := R_AbsRing) (V := R_NormedModule)). auto_derive. exact Logic.I. }
      assert (W0 : 0 <= w) by (apply (is_RInt_ge_0 _ t t' _ (proj2 O) EI); intros x _; apply Rlt_le, exp_pos).
      assert (CI : forall c (g : R -> R), (forall u, t < u < t' -> g u = c * exp (2 * k * u)) -> is_RInt g t t' (c * w)).
      { intros c g Hg. apply (is_RInt_ext (V := R_NormedModule) (fun u => scal c (exp (2 * k * u)))); [|apply (is_RInt_scal (V := R_NormedModule)), EI]. intros u HU. rewrite Rmin_left, Rmax_right in HU by apply O. rewrite Hg by exact HU. reflexivity. }
      assert (VA : V a t' - V a t = sa ^ 2 * w).
      { pose proof (noise_between _ _ _ t t' NA O) as I1. pose proof (CI (sa ^ 2) (fun u => param_at (hw_vol h a) u ^ 2 * exp (2 * k * u))) as I2. rewrite <- (is_RInt_unique (V := R_CompleteNormedModule) _ _ _ _ I1). apply (is_RInt_unique (V := R_CompleteNormedModule)), I2. intros u HU. rewrite (SP a Ha OA u) by lra. reflexivity. }
      assert (VB : V b t' - V b t = sb ^ 2 * w).
      { pose proof (noise_between _ _ _ t t' NBb O) as I1. pose proof (CI (sb ^ 2) (fun u => param_at (hw_vol h b) u ^ 2 * exp (2 * k * u))) as I2. rewrite <- (is_RInt_unique (V := R_CompleteNormedModule) _ _ _ _ I1). apply (is_RInt_unique (V := R_CompleteNormedModule)), I2. intros u HU. rewrite (SP b Hb OB u) by lra. reflexivity. }
      rewrite VA, VB, !sqrt_mult_alt by apply pow2_ge_0. rewrite !sqrt_pow2 by (apply VP; assumption).
      set (rho := sum_to d (fun l => L m a l * L m b l)).
      assert (QI : Q a b t' - Q a b t = rho * sa * sb * w).
      { pose proof (HQ a b t Ha Hb ltac:(lra)) as H1. pose proof (HQ a b t' Ha Hb ltac:(lra)) as H2. apply (is_RInt_swap (V := R_NormedModule)) in H1. pose proof (is_RInt_Chasles (V := R_NormedModule) _ t 0 t' _ _ H1 H2) as H3.
        apply (is_RInt_unique (V := R_CompleteNormedModule)) in H3. change (plus (opp (Q a b t)) (Q a b t')) with (- Q a b t + Q a b t')%R in H3. replace (Q a b t' - Q a b t) with (- Q a b t + Q a b t') by ring. rewrite <- H3. apply (is_RInt_unique (V := R_CompleteNormedModule)). apply CI. intros u HU.
        rewrite (SP a Ha OA u), (SP b Hb OB u) by lra. fold sa sb. rewrite <- (FC m u a b B ltac:(fold t t'; lra) Ha Hb). reflexivity. }
      rewrite QI. transitivity (sa * sb * (sqrt w * sqrt w) * rho); [ring|]. rewrite sqrt_sqrt by exact W0. ring.
Qed.
Print Assumptions C66_joint_law.

(** * What does not hold *)
Lemma hw_setting_exists h k : (forall a, (a < hw_dim h)%nat -> hw_mr h a = Const (k a) /\ k a <> 0 /\ piecewise_ok (hw_vol h a) /\ (forall x, In x (param_jumps (hw_vol h a) ++ corr_jumps h) -> 0 <= x)) ->
  hw_setting h k (variance_at h) (mean_at h).
Proof. intros H a Ha. destruct (H a Ha) as (MR & K0 & VO & PJ). repeat (split; [assumption|]). split; [apply variance_integral; assumption|apply mean_integral; assumption]. Qed.

Definition rho_matrix : matrix := fun a b => if Nat.eqb a b then 1 else 3 / 5.
Definition rho_factor : matrix := fun a b => match a, b with O, O => 1 | 1%nat, O => 3 / 5 | 1%nat, 1%nat => 4 / 5 | _, _ => 0 end.
(** "If mean-reversion, a_i, is constant and the volatility and correlation are
    piecewise constant functions, the process is sampled exactly": for different
    mean reversions the covariance of the coordinates is not that of the process,
    which is rho exp(-(k_0 + k_1) t) times the integral of exp((k_0 + k_1) u). *)
Definition two_speeds : hw := HW 2 (fun a => Const (INR a + 1)) (fun _ => Const 1) (Some (PWM [] [rho_matrix])) (fun _ _ => 0) (fun _ _ => 0).
Theorem C66_covariance_refuted : forall cholesky generated, cholesky rho_matrix = Some rho_factor ->
  exists (X : nat -> list R -> R) m C,
    (forall z, exists r, hw_sample_paths cholesky generated two_speeds [1] None (Some (1%nat, 2%nat, one_sample 2 z)) true = Some r /\
      forall a, (a < 2)%nat -> nth 0 r (fun _ _ => 0) 0%nat a = X a z) /\
    jointly_normal 2 2 X m C /\
    forall Q, is_RInt (fun u => 3 / 5 * exp ((1 + 2) * u)) 0 1 Q -> C 0%nat 1%nat <> exp (- (1 + 2) * 1) * Q.
Proof.
  intros ch gen CH. set (h := two_speeds). set (k := fun a => INR a + 1). set (L := fun _ : nat => rho_factor).
  assert (HS : hw_setting h k (variance_at h) (mean_at h)).
  { apply hw_setting_exists. intros a Ha. split; [reflexivity|]. split; [unfold k; pose proof (pos_INR a); lra|]. split; [exact Logic.I|]. intros x X. contradiction X. }
  assert (G : simulation_grid h [1] [0; 1]) by (split; [intros [|i] H; [cbn; lra|cbn in H; lia]|apply Permutation_refl]).
  assert (SF : step_factors ch h [0; 1] L).
  { cbn. split; [reflexivity|]. split; [intros m [<-|[]]; rewrite CH; discriminate|]. left. split; [reflexivity|]. intros j t. exact CH. }
  pose (C := fun p q => exp (- k p * 1) * exp (- k q * 1) * (sqrt (variance_at h p 1 - variance_at h p 0) * sqrt (variance_at h q 1 - variance_at h q 0) * sum_to 2 (fun b => rho_factor p b * rho_factor q b))).
  exists (fun a z => hw_solution (hw_forward h a) (k a) (variance_at h a) (mean_at h a) (at_ [0; 1]) (fun j => sum_to 2 (fun b => L j a b * one_sample 2 z j 0%nat b)) 1).
  eexists. exists C. split; [|split].
  - intros z. destruct (C66_path ch gen h [1] (Some (1%nat, 2%nat, one_sample 2 z)) true (one_sample 2 z) k (variance_at h) (mean_at h) L [0; 1] HS) as (r & idx & E & _ & P);
      [cbn; lia|discriminate|intros i H; cbn in H; lia|cbn; lra|exact G|exact SF|repeat split; cbn; lia|].
    exists r. split; [exact E|]. intros a Ha. destruct (P 0%nat ltac:(cbn; lia)) as (I1 & I2 & I3). rewrite (I3 0%nat a Ha). cbn [hw_dim h two_speeds]. f_equal. cbn in I1, I2. destruct (idx 0%nat) as [|[|?]]; [cbn in I2; lra|reflexivity|lia].
  - apply (hw_linear_law 2 1 2 k (variance_at h) (mean_at h) (hw_forward h) (at_ [0; 1]) L (fun _ => 1%nat) (fun p => p)); [lia|intros; lia|]. intros p q Hp Hq. cbn [sum_to Nat.min]. unfold C, at_. cbn [nth]. rewrite Rplus_0_l. reflexivity.
  - intros Q HQ EQ. assert (EX : Q = 3 / 5 * ((exp 1 ^ 3 - 1) / 3)).
    { apply (is_RInt_unique (V := R_CompleteNormedModule)) in HQ. rewrite <- HQ. apply (is_RInt_unique (V := R_CompleteNormedModule)). set (F := fun u => 3 / 5 * (exp ((1 + 2) * u) / 3)).
      replace (3 / 5 * ((exp 1 ^ 3 - 1) / 3)) with (F 1 - F 0).
      - apply (is_RInt_derive (V := R_CompleteNormedModule) F).
        + intros u _. unfold F. auto_derive; [exact Logic.I|]. field.
        + intros u _. apply (ex_derive_continuous (K := R_AbsRing) (V := R_NormedModule)). auto_derive. exact Logic.I.
      - unfold F. rewrite Rmult_0_r, exp_0. replace (exp ((1 + 2) * 1)) with (exp 1 ^ 3); [field|]. cbn [pow]. rewrite Rmult_1_r, <- !exp_plus. f_equal. ring. }
    assert (V0 : forall a, variance_at h a 1 - variance_at h a 0 = (exp (2 * k a) - 1) / (2 * k a)).
    { intros a. unfold variance_at, variance_int. cbn [jump_locations param_jumps hw_vol hw_mr h two_speeds corr_jumps hw_corr mjumps app sort]. cbn. fold (k a). assert (k a <> 0) by (unfold k; pose proof (pos_INR a); lra). rewrite !Rmult_1_r, !Rmult_0_r, exp_0. field. exact H. }
    unfold C in EQ. rewrite !V0 in EQ. clear - EQ EX. unfold k in EQ. cbn [INR] in EQ. cbn [sum_to rho_factor] in EQ. set (x := exp 1) in *.
    replace (0 + 1) with 1 in EQ by ring. replace (exp (2 * 1)) with (x ^ 2) in EQ by (unfold x; cbn [pow]; rewrite Rmult_1_r, <- exp_plus; f_equal; ring). replace (exp (2 * (1 + 1))) with (x ^ 4) in EQ by (unfold x; cbn [pow]; rewrite Rmult_1_r, <- !exp_plus; f_equal; ring).
    replace (exp (- (1) * 1) * exp (- (1 + 1) * 1)) with (exp (- (1 + 2) * 1)) in EQ by (rewrite <- exp_plus; f_equal; ring). apply Rmult_eq_reg_l in EQ; [|apply Rgt_not_eq, exp_pos]. rewrite EX in EQ. clear EX.
    assert (X1 : 1 < x) by (unfold x; pose proof (exp_ineq1 1 ltac:(lra)); lra). clearbody x.
    assert (P2 : 1 < x ^ 2) by nra. assert (P4 : 1 < x ^ 4) by nra.
    assert (EQ2 : sqrt ((x ^ 2 - 1) / (2 * 1)) * sqrt ((x ^ 4 - 1) / (2 * (1 + 1))) = (x ^ 3 - 1) / 3) by lra. clear EQ.
    assert (S1 : 0 <= (x ^ 2 - 1) / (2 * 1)) by (apply Rmult_le_pos; lra). assert (S2 : 0 <= (x ^ 4 - 1) / (2 * (1 + 1))) by (apply Rmult_le_pos; lra).
    assert (E3 : (x ^ 2 - 1) / (2 * 1) * ((x ^ 4 - 1) / (2 * (1 + 1))) = ((x ^ 3 - 1) / 3) ^ 2).
    { rewrite <- EQ2. rewrite Rpow_mult_distr, !pow2_sqrt by assumption. reflexivity. }
    assert (E4 : (x - 1) ^ 4 * (x ^ 2 + 4 * x + 1) = 0).
    { transitivity (72 * ((x ^ 2 - 1) / (2 * 1) * ((x ^ 4 - 1) / (2 * (1 + 1))) - ((x ^ 3 - 1) / 3) ^ 2)); [field|]. rewrite E3. ring. }
    apply Rmult_integral in E4. destruct E4 as [E4|E4]; [|nra]. assert (0 < (x - 1) ^ 4) by (apply pow_lt; lra). lra.
Qed.
Print Assumptions C66_covariance_refuted.

(** When a requested time is 0 or a time at which a parameter jumps, the grid
    repeats a time and every step uses the correlation at its left end, which is
    that of the time before.  Here the correlation is 0 up to time 1 and 3/5 after
    it, the times are 1 and 2, and the draws are 1: the sample at time 2 is not the
    solution for the increments L_j z_j. *)
Definition later_correlation : hw := HW 2 (fun _ => Const 1) (fun _ => Const 1) (Some (PWM [1] [identity_matrix; rho_matrix])) (fun _ _ => 0) (fun _ _ => 0).
Theorem C66_correlation_refuted : forall cholesky generated, cholesky identity_matrix = Some identity_matrix -> cholesky rho_matrix = Some rho_factor ->
  let h := later_correlation in let z : nat -> rates := fun _ _ _ => 1 in
  (forall t, 1 < t -> cholesky (fun a b => hw_correlation h t a b) = Some rho_factor) /\
  exists r, hw_sample_paths cholesky generated h [1; 2] None (Some (3%nat, 2%nat, z)) true = Some r /\
    (forall s a, (a < 2)%nat -> nth 1 r (fun _ _ => 0) s a = hw_solution (hw_forward h a) 1 (variance_at h a) (mean_at h a) (at_ [0; 1; 1; 2]) (fun _ => 1) 3) /\
    nth 1 r (fun _ _ => 0) 0%nat 1%nat <>
      hw_solution (hw_forward h 1%nat) 1 (variance_at h 1%nat) (mean_at h 1%nat) (at_ [0; 1; 1; 2]) (fun j => sum_to 2 (fun b => (if Nat.eqb j 2 then rho_factor else identity_matrix) 1%nat b * z j 0%nat b)) 3.
Proof.
  intros ch gen C1 C2 h z. assert (CALL : forall t, pwm_call (PWM [1] [identity_matrix; rho_matrix]) t = if Rlt_dec 1 t then rho_matrix else identity_matrix).
  { intros t. unfold pwm_call, searchsorted_left. cbn. destruct (Rlt_dec 1 t); reflexivity. }
  split; [intros t T; unfold hw_correlation; cbn [hw_corr h later_correlation]; rewrite CALL; destruct (Rlt_dec 1 t); [exact C2|contradiction]|].
  assert (HS : hw_setting h (fun _ => 1) (variance_at h) (mean_at h)).
  { apply hw_setting_exists. intros a Ha. split; [reflexivity|]. split; [lra|]. split; [exact Logic.I|]. intros x [<-|[]]. lra. }
  assert (TI : increasing [1; 2]) by (intros [|i] H; [cbn; lra|cbn in H; lia]).
  assert (G : simulation_grid h [1; 2] [0; 1; 1; 2]).
  { split; [intros [|[|[|i]]] H; cbn in *; unfold at_; cbn; try lra; lia|]. change (0 :: [1; 2] ++ all_jumps h) with [0; 1; 2; 1]. do 2 apply perm_skip. apply perm_swap. }
  destruct (simulation_grid_is h [1; 2] [0; 1; 1; 2] (fun _ => 1) _ _ HS ltac:(cbn; lia) TI ltac:(cbn; lra) G) as (EG & G0 & _ & GN).
  destruct (grid_ok h [1; 2]) as (mask & PG & MK). rewrite <- EG in PG, MK.
  destruct (sampled_on_grid ch gen h [1; 2] None (Some (3%nat, 2%nat, z)) true z (fun _ => 1) (variance_at h) (mean_at h) (fun _ => identity_matrix) [0; 1; 1; 2] mask (indices h [1; 2]) HS PG) as (r & E & _ & VR);
    [apply G|exact G0|exact GN|reflexivity|discriminate|apply indices_increasing, TI|exact MK| |repeat split; cbn; lia|].
  - split; [reflexivity|]. split; [intros m [<-|[<-|[]]]; [rewrite C1|rewrite C2]; discriminate|]. intros j Hj.
    assert (RM : reduce_min (diff 1 true [0; 1; 1; 2]) = 0). { unfold diff. cbn. unfold Rmin. repeat destruct Rle_dec; lra. }
    rewrite RM, CALL. destruct (Rlt_dec 1 (at_ [0; 1; 1; 2] j + 0 / 2)) as [Q|_]; [|exact C1]. exfalso. destruct j as [|[|[|j]]]; unfold at_ in Q; cbn in Q, Hj; try lra; lia.
  - assert (IX : nth 1 (indices h [1; 2]) 0%nat = 3%nat).
    { destruct (indices_at h [1; 2] 1 ltac:(cbn; lia)) as (B & A). rewrite <- EG in B, A. destruct (nth 1 (indices h [1; 2]) 0%nat) as [|[|[|[|m]]]]; unfold at_ in A; cbn in A, B; try lra; [reflexivity|lia]. }
    assert (VAL : forall s a, (a < 2)%nat -> nth 1 r (fun _ _ => 0) s a = hw_solution (hw_forward h a) 1 (variance_at h a) (mean_at h a) (at_ [0; 1; 1; 2]) (fun _ => 1) 3).
    { intros s a Ha. rewrite (VR 1%nat s a ltac:(cbn; lia) Ha), IX. f_equal. extensionality j. change (hw_dim h) with 2%nat. rewrite sum_to_identity by exact Ha. reflexivity. }
    exists r. split; [exact E|]. split; [exact VAL|]. rewrite VAL by lia. unfold hw_solution. intros Q. apply Rplus_eq_reg_l in Q. apply Rmult_eq_reg_l in Q; [|apply Rgt_not_eq, exp_pos]. apply Rplus_eq_reg_l in Q.
    assert (I10 : identity_matrix 1 0 = 0) by reflexivity. assert (I11 : identity_matrix 1 1 = 1) by reflexivity. cbn [sum_to Nat.eqb rho_factor] in Q. rewrite I10, I11 in Q. unfold z in Q. unfold at_ in Q. cbn [nth] in Q.
    set (s1 := sqrt (variance_at h 1%nat 1 - variance_at h 1%nat 0)) in *. set (s2 := sqrt (variance_at h 1%nat 1 - variance_at h 1%nat 1)) in *. set (s3 := sqrt (variance_at h 1%nat 2 - variance_at h 1%nat 1)) in *.
    assert (S3 : s3 = 0) by (clearbody s1 s2 s3; lra). assert (V3 : variance_at h 1%nat 2 - variance_at h 1%nat 1 <= 0) by (apply Rnot_lt_le; intros W; apply sqrt_lt_R0 in W; fold s3 in W; lra).
    destruct (HS 1%nat ltac:(cbn; lia)) as (_ & _ & _ & _ & NI & _). pose proof (noise_between _ _ _ 1 2 NI ltac:(lra)) as IV.
    assert (L3 : 2 - 1 <= variance_at h 1%nat 2 - variance_at h 1%nat 1).
    { apply (is_RInt_le (fun _ => 1) (fun u => param_at (hw_vol h 1) u ^ 2 * exp (2 * 1 * u)) 1 2 (2 - 1)); [lra| |exact IV|].
      - pose proof (is_RInt_const (V := R_NormedModule) 1 2 1) as IC. match type of IC with is_RInt _ _ _ ?v => replace (2 - 1) with v; [exact IC|] end. unfold scal. cbn. unfold mult. cbn. ring.
      - intros u HU. cbn [hw_vol h later_correlation param_at]. rewrite pow1, Rmult_1_l. pose proof (exp_ineq1 (2 * 1 * u) ltac:(lra)). lra. }
    lra.
Qed.
Print Assumptions C66_correlation_refuted.

(** ** The drift of the process *)
(** The short rate is f + x, so its drift is f' + y - k (r - f), where y(t) =
    exp(-2 k t) V(t); the drift function gives this for a constant volatility. *)
Theorem C66_drift : forall h a k s fwd_grad V t r, hw_mr h a = Const k -> k <> 0 -> hw_vol h a = Const s -> 0 <= t ->
  noise_integral (fun _ => s) k V ->
  hw_drift_fn h a fwd_grad t r = fwd_grad t + exp (- 2 * k * t) * V t - k * (r - hw_forward h a t).
Proof.
  intros h a k s g V t r MR K0 VO T NI. unfold hw_drift_fn. rewrite MR, VO. cbn [param_at].
  assert (VV : V t = s ^ 2 * (exp (2 * k * t) - 1) / (2 * k)).
  { specialize (NI t T). apply (is_RInt_unique (V := R_CompleteNormedModule)) in NI. rewrite <- NI. apply (is_RInt_unique (V := R_CompleteNormedModule)). set (F := fun u => s ^ 2 * exp (2 * k * u) / (2 * k)).
    replace (s ^ 2 * (exp (2 * k * t) - 1) / (2 * k)) with (F t - F 0) by (unfold F; rewrite Rmult_0_r, exp_0; field; exact K0). apply (is_RInt_derive (V := R_CompleteNormedModule) F).
    - intros u _. unfold F. auto_derive; [exact Logic.I|]. field. exact K0.
    - intros u _. apply (ex_derive_continuous (K := R_AbsRing) (V := R_NormedModule)). auto_derive. exact Logic.I. }
  rewrite VV. replace (exp (2 * k * t)) with (/ exp (- 2 * k * t)) by (rewrite <- exp_Ropp; f_equal; ring). pose proof (exp_pos (- 2 * k * t)). field. split; [lra|exact K0].
Qed.
Print Assumptions C66_drift.
(** "theta is computed to match the initial discount curve": not when the
    volatility depends on time. *)
Theorem C66_drift_refuted : let h := HW 1 (fun _ => Const 1) (fun _ => Piecewise (PW [1] [1; 2])) None (fun _ _ => 0) (fun _ _ => 0) in
  forall V, noise_integral (param_at (hw_vol h 0%nat)) 1 V ->
  hw_drift_fn h 0 (fun _ => 0) 2 0 <> 0 + exp (- 2 * 1 * 2) * V 2 - 1 * (0 - hw_forward h 0%nat 2).
Proof.
  intros h V NI E. unfold hw_drift_fn in E. cbn [hw_vol hw_mr hw_forward h param_at] in E.
  assert (CALL : forall t, pw_call (PW [1] [1; 2]) true t = if Rlt_dec 1 t then 2 else 1).
  { intros t. unfold pw_call, searchsorted_left. cbn. unfold at_. destruct (Rlt_dec 1 t); reflexivity. }
  rewrite CALL in E. destruct (Rlt_dec 1 2) as [_|Q]; [|lra].
  assert (VB : V 2 - V 1 <= 4 * ((exp (2 * 2) - exp (2 * 1)) / 2) /\ V 1 = (exp (2 * 1) - 1) / 2).
  { assert (FI : forall a b, is_RInt (fun u => exp (2 * 1 * u)) a b ((exp (2 * b) - exp (2 * a)) / 2)).
    { intros a b. set (F := fun u => exp (2 * u) / 2). replace ((exp (2 * b) - exp (2 * a)) / 2) with (F b - F a) by (unfold F; field). apply (is_RInt_derive (V := R_CompleteNormedModule) F).
      - intros u _. unfold F. auto_derive; [exact Logic.I|]. replace (2 * 1 * u) with (2 * u) by ring. field.
      - intros u _. apply (ex_derive_continuous (K := R_AbsRing) (V := R_NormedModule)). auto_derive. exact Logic.I. }
    split.
    - apply (is_RInt_le (fun u => param_at (hw_vol h 0) u ^ 2 * exp (2 * 1 * u)) (fun u => scal 4 (exp (2 * 1 * u))) 1 2); [lra|apply noise_between; [exact NI|lra]|apply (is_RInt_scal (V := R_NormedModule)), FI|].
      intros u HU. cbn [hw_vol h param_at]. rewrite CALL. destruct (Rlt_dec 1 u) as [_|Q]; [|lra]. unfold scal. cbn. unfold mult. cbn. lra.
    - replace (V 1) with (V 1 - V 0) by (rewrite (noise_zero _ _ _ NI); ring). pose proof (noise_between _ _ _ 0 1 NI ltac:(lra)) as I1. apply (is_RInt_unique (V := R_CompleteNormedModule)) in I1. rewrite <- I1.
      transitivity ((exp (2 * 1) - exp (2 * 0)) / 2); [|rewrite Rmult_0_r, exp_0; reflexivity]. apply (is_RInt_unique (V := R_CompleteNormedModule)). apply (is_RInt_ext (V := R_NormedModule) (fun u => exp (2 * 1 * u))); [|apply FI].
      intros u HU. rewrite Rmin_left, Rmax_right in HU by lra. cbn [hw_vol h param_at]. rewrite CALL. destruct (Rlt_dec 1 u) as [Q|_]; [lra|]. rewrite pow1, Rmult_1_l. reflexivity. }
  destruct VB as (VB & V1). pose proof (exp_pos (- 2 * 1 * 2)) as P. assert (B : exp (- 2 * 1 * 2) * V 2 = 2 * (1 - exp (- 2 * 1 * 2))) by lra.
  assert (EE : exp (- 2 * 1 * 2) * exp (2 * 2) = 1) by (rewrite <- exp_plus; replace (-2 * 1 * 2 + 2 * 2) with 0 by ring; apply exp_0).
  assert (V2 : V 2 <= 2 * exp (2 * 2) - 3 / 2 * exp (2 * 1) - 1 / 2) by lra. pose proof (exp_ineq1 (2 * 1) ltac:(lra)) as E2.
  assert (V3 : V 2 < 2 * exp (2 * 2) - 2) by lra. apply (Rmult_lt_compat_l (exp (- 2 * 1 * 2)) _ _ P) in V3. rewrite B in V3. lra.
Qed.
Print Assumptions C66_drift_refuted.

(** ** Refused arguments *)
Theorem C66_errors : forall cholesky generated h times times_grid num dim z,
  (dim <> hw_dim h -> forall validate, hw_sample_paths cholesky generated h times times_grid (Some (num, dim, z)) validate = None) /\
  (forall grid mask, hw_prepare_grid h times times_grid = Some (grid, mask) -> num <> (length grid - 1)%nat ->
     hw_sample_paths cholesky generated h times times_grid (Some (num, dim, z)) true = None).
Proof.
  intros ch gen h times tg num dim z. split.
  - intros ND va. unfold hw_sample_paths. destruct (sample_with_generic h); [reflexivity|]. destruct (hw_prepare_grid h times tg) as [[g m]|]; [|reflexivity]. cbv zeta. destruct (Nat.eqb_spec dim (hw_dim h)); [contradiction|reflexivity].
  - intros g m PG NN. unfold hw_sample_paths. destruct (sample_with_generic h); [reflexivity|]. rewrite PG. cbv zeta. destruct (negb (Nat.eqb dim (hw_dim h))); [reflexivity|]. destruct (Nat.eqb_spec num (length g - 1)); [contradiction|reflexivity].
Qed.
Print Assumptions C66_errors.

(** * Example *)
(** Two rates of equal mean reversion, volatility 1 up to time 1 and 2 after it,
    correlation 3/5, at the times 1/2 and 2. *)
Example hw_ex : let h := HW 2 (fun _ => Const (1 / 10)) (fun _ => Piecewise (PW [1] [1; 2])) (Some (PWM [] [rho_matrix])) (fun _ _ => 1 / 100) (fun _ _ => 1 / 100) in
  let ch (m : matrix) := Some rho_factor in let grid := [0; 1 / 2; 1; 1; 2] in
  hw_setting h (fun _ => 1 / 10) (variance_at h) (mean_at h) /\ increasing [1 / 2; 2] /\ simulation_grid h [1 / 2; 2] grid /\
  step_factors ch h grid (fun _ => rho_factor) /\ factors_correlation h grid (fun _ => rho_factor) /\ (forall a t, 0 <= param_at (hw_vol h a) t).
Proof.
  intros h ch grid. split; [|split; [|split; [|split; [|split]]]].
  - apply hw_setting_exists. intros a Ha. split; [reflexivity|]. split; [lra|]. split; [exists [1], [1; 2]; split; [reflexivity|intros i H; cbn in H; lia]|]. intros x [<-|[]]. lra.
  - intros [|i] H; [cbn; lra|cbn in H; lia].
  - split; [intros [|[|[|[|i]]]] H; unfold grid, at_ in *; cbn in *; try lra; lia|]. change (0 :: [1 / 2; 2] ++ all_jumps h) with [0; 1 / 2; 2; 1; 1]. do 2 apply perm_skip. apply Permutation_sym, (Permutation_cons_append [1; 1] 2).
  - cbn. split; [reflexivity|]. split; [discriminate|]. left. split; reflexivity.
  - intros j t a b _ _ Ha Hb. cbn in Ha, Hb. unfold hw_correlation. cbn [hw_corr h hw_dim]. unfold pwm_call. cbn [mjumps mvalues]. unfold searchsorted_left. cbn [filter length nth].
    destruct a as [|[|a]]; [| |lia]; (destruct b as [|[|b]]; [| |lia]); cbn [sum_to rho_factor]; unfold rho_matrix; cbn [Nat.eqb]; lra.
  - intros a t. cbn [hw_vol h param_at]. unfold pw_call, searchsorted_left. cbn. unfold at_. destruct (Rlt_dec 1 t); cbn; lra.
Qed.
