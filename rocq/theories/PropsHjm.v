(** C78: the Gaussian HJM model. *)
From Coquelicot Require Import Coquelicot.
From Coq Require Import ZArith Reals List Bool Arith Lia Lra FunctionalExtensionality.
From Verif Require Import TensorModel TensorProofs SegmentModel BrentModel ExtReal VarianceProofs LoopModel LoopProofs PropsLoop TimeGridModel TimeGridSpec TimeGridProofs PropsTimeGrid EulerModel EulerSpec PropsEuler
  PiecewiseModel PiecewiseProofs PropsPiecewise MvNormalSpec GbmModel GbmProofs2 PropsMc RIntAux HullWhiteModel HullWhiteSpec HullWhiteProofs HullWhiteBondSpec HullWhiteBondProofs PropsHullWhiteBond HjmModel HjmSpec HjmProofs HjmProofs2.
Import ListNotations.
Open Scope R_scope.

(** The parameters of the model: the factors share the jump locations of their
    volatilities, no sum of mean reversions is 0, and the correlation matrix is
    symmetric with the given factor. *)
Record hjm_ok (h : hjm) (K : list R) : Prop := {
  ok_knots : forall i, (i < g_dim h)%nat -> jumps (g_vol h i) = K /\ length (pvalues (g_vol h i)) = S (length K);
  ok_sorted : nondecr K;
  ok_after : forall x, In x K -> 0 <= x;
  ok_mr : forall i j, (i < g_dim h)%nat -> (j < g_dim h)%nat -> g_mr h i + g_mr h j <> 0;
  ok_sym : forall i j, (i < g_dim h)%nat -> (j < g_dim h)%nat -> g_rho h i j = g_rho h j i;
  ok_factor : forall i j, (i < g_dim h)%nat -> (j < g_dim h)%nat -> sum_to (g_dim h) (fun l => g_sqrt_rho h i l * g_sqrt_rho h j l) = g_rho h i j }.
(** The covariances y_ij of the states. *)
Definition covariances (h : hjm) (y : nat -> nat -> R -> R) : Prop :=
  forall i j, (i < g_dim h)%nat -> (j < g_dim h)%nat -> covariance_of (g_rho h i j) (volatility_at h i) (volatility_at h j) (g_mr h i) (g_mr h j) (y i j).
Definition curve (h : hjm) (T : R) : R := exp (- (g_rate h T * T)).

Lemma ok_pw h K i : hjm_ok h K -> (i < g_dim h)%nat -> pw_ok (jumps (g_vol h i)) (pvalues (g_vol h i)) (g_vol h i).
Proof.
  intros OK Hi. destruct (ok_knots h K OK i Hi) as (J & L). split; [|rewrite J; apply (ok_sorted h K OK)]. unfold pw_make. rewrite L, J, Nat.eqb_refl. destruct (g_vol h i). cbn in *. subst. reflexivity.
Qed.
Lemma ok_k h K i : hjm_ok h K -> (i < g_dim h)%nat -> g_mr h i <> 0.
Proof. intros OK Hi E. apply (ok_mr h K OK i i Hi Hi). rewrite E. ring. Qed.

(** ** The covariances *)
Theorem C78_covariance : forall h K, hjm_ok h K -> covariances h (state_y h).
Proof.
  intros h K OK i j Hi Hj. destruct (ok_knots h K OK i Hi) as (Ji & _). destruct (ok_knots h K OK j Hj) as (Jj & _). apply state_y_integral.
  - unfold knots. rewrite Ji, Jj. reflexivity.
  - apply (ok_pw h K i OK Hi).
  - apply (ok_pw h K j OK Hj).
  - unfold knots. rewrite Ji. apply (ok_after h K OK).
  - unfold mr2. apply (ok_mr h K OK); assumption.
Qed.
Print Assumptions C78_covariance.
(** dy_ij/dt = rho_ij sigma_i sigma_j - (k_i + k_j) y_ij away from the jumps. *)
Theorem C78_covariance_equation : forall h K t i j, hjm_ok h K -> 0 < t -> ~ In t K -> (i < g_dim h)%nat -> (j < g_dim h)%nat ->
  is_derive (state_y h i j) t (g_rho h i j * (volatility_at h i t * volatility_at h j t) - (g_mr h i + g_mr h j) * state_y h i j t) /\ state_y h i j 0 = 0.
Proof.
  intros h K t i j OK T NT Hi Hj. split.
  - apply covariance_derive; [apply (C78_covariance h K OK); assumption|exact T| |].
    + apply pw_continuous; rewrite (proj1 (ok_knots h K OK i Hi)); [apply (ok_sorted h K OK)|exact NT].
    + apply pw_continuous; rewrite (proj1 (ok_knots h K OK j Hj)); [apply (ok_sorted h K OK)|exact NT].
  - apply (rint_unique _ _ _ _ _ (C78_covariance h K OK i j Hi Hj 0 (Rle_refl 0))). apply (is_RInt_point (V := R_NormedModule)).
Qed.
Print Assumptions C78_covariance_equation.

(** ** Bond prices *)
Lemma covariances_unique h K y : hjm_ok h K -> covariances h y -> forall i j t, (i < g_dim h)%nat -> (j < g_dim h)%nat -> 0 <= t -> state_y h i j t = y i j t.
Proof. intros OK CY i j t Hi Hj T. apply (rint_unique _ _ _ _ _ (C78_covariance h K OK i j Hi Hj t T) (CY i j Hi Hj t T)). Qed.
Lemma covariances_sym h K i j t : hjm_ok h K -> (i < g_dim h)%nat -> (j < g_dim h)%nat -> 0 <= t -> state_y h i j t = state_y h j i t.
Proof.
  intros OK Hi Hj T. apply (rint_unique _ _ _ _ _ (C78_covariance h K OK i j Hi Hj t T)). apply (rint_ext (fun s => g_rho h j i * exp (- ((g_mr h j + g_mr h i) * (t - s))) * (volatility_at h j s * volatility_at h i s))); [exact T| |apply (C78_covariance h K OK j i Hj Hi t T)].
  intros s _. rewrite (ok_sym h K OK j i Hj Hi). replace (g_mr h j + g_mr h i) with (g_mr h i + g_mr h j) by ring. ring.
Qed.
Lemma reconstitution_is h x y t T : reconstitution h t T x y = curve h T / curve h t * exp (- sum_to (g_dim h) (fun i => x i * load (g_mr h) i t T) - sum_to (g_dim h) (fun i => sum_to (g_dim h) (fun j => load (g_mr h) i t T * y i j * load (g_mr h) j t T)) / 2).
Proof.
  unfold reconstitution, curve. cbv zeta. rewrite !rsum_is.
  assert (EL : forall i, (1 - exp (- g_mr h i * (T - t))) / g_mr h i = load (g_mr h) i t T) by (intros i; unfold load; replace (- g_mr h i * (T - t)) with (- (g_mr h i * (T - t))) by ring; reflexivity).
  rewrite (sums_ext _ (fun i => x i * _) (fun i => x i * load (g_mr h) i t T)) by (intros i _; rewrite EL; reflexivity).
  rewrite (sums_ext _ (fun i => _ * rsum _ _) (fun i => sum_to (g_dim h) (fun j => load (g_mr h) i t T * y i j * load (g_mr h) j t T))).
  - f_equal; [f_equal; f_equal; ring|f_equal; field].
  - intros i _. rewrite rsum_is, EL, <- sums_scal. apply sums_ext. intros j _. rewrite EL. ring.
Qed.
Theorem C78_bond : forall h K y G x t T, hjm_ok h K -> covariances h y -> (forall i, (i < g_dim h)%nat -> loading (g_mr h i) (G i)) -> 0 <= t ->
  discount_bond_price h x t T = bond_formula (g_dim h) (curve h) G y x t T.
Proof.
  intros h K y G x t T OK CY LG T0. unfold discount_bond_price, bond_formula. rewrite reconstitution_is.
  assert (EL : forall i, (i < g_dim h)%nat -> load (g_mr h) i t T = G i t T) by (intros i Hi; symmetry; apply (loading_is (g_mr h i) (G i) t T (ok_k h K i OK Hi) (LG i Hi))).
  f_equal. f_equal. f_equal; f_equal.
  - apply sums_ext. intros i Hi. rewrite EL by exact Hi. reflexivity.
  - apply sums_ext. intros i Hi. apply sums_ext. intros j Hj. rewrite !EL by assumption. rewrite (covariances_unique h K y OK CY j i t Hj Hi T0). rewrite <- (covariances_unique h K y OK CY j i t Hj Hi T0), (covariances_sym h K j i t OK Hj Hi T0), (covariances_unique h K y OK CY i j t Hi Hj T0). reflexivity.
Qed.
Print Assumptions C78_bond.
Theorem C78_endpoints : forall h K x t, hjm_ok h K -> 0 <= t ->
  discount_bond_price h x t t = 1 /\ forall T, discount_bond_price h (fun _ => 0) 0 T = curve h T.
Proof.
  intros h K x t OK T0. unfold discount_bond_price. split; [|intros T]; rewrite reconstitution_is.
  - rewrite (sums_zero _ (fun i => x i * _)), (sums_zero _ (fun i => sum_to _ _)).
    + replace (- 0 - 0 / 2) with 0 by field. rewrite exp_0. unfold curve. pose proof (exp_pos (- (g_rate h t * t))). field. lra.
    + intros i Hi. apply sums_zero. intros j Hj. unfold load at 1. replace (t - t) with 0 by ring. rewrite Rmult_0_r, Ropp_0, exp_0. unfold Rdiv. ring.
    + intros i Hi. unfold load. replace (t - t) with 0 by ring. rewrite Rmult_0_r, Ropp_0, exp_0. unfold Rdiv. ring.
  - rewrite (sums_zero _ (fun i => 0 * _)) by (intros i _; ring). rewrite (sums_zero _ (fun i => sum_to _ _)).
    + replace (- 0 - 0 / 2) with 0 by field. rewrite exp_0. unfold curve. rewrite Rmult_0_r, Ropp_0, exp_0. field.
    + intros i Hi. apply sums_zero. intros j Hj. assert (Z : state_y h j i 0 = 0) by (apply (rint_unique _ _ _ _ _ (C78_covariance h K OK j i Hj Hi 0 (Rle_refl 0))); apply (is_RInt_point (V := R_NormedModule))). rewrite Z. ring.
Qed.
Print Assumptions C78_endpoints.
(** No arbitrage: the bond price satisfies the pricing equation of the simulated
    process, whose drift and volatility are those of the simulation. *)
Theorem C78_pricing_equation : forall h K t T x, hjm_ok h K -> 0 < t -> ~ In t K -> is_derive (fun u => g_rate h u * u) t (g_forward h t) ->
  pricing_equation (g_dim h) (drift h t x) (vol_fn h t) (short_rate h t x) (fun u z => discount_bond_price h z u T) t x.
Proof.
  intros h K t T x OK T0 NT FW.
  assert (BB : forall i j, (i < g_dim h)%nat -> (j < g_dim h)%nat -> sum_to (g_dim h) (fun l => vol_fn h t i l * vol_fn h t j l) = g_rho h i j * (volatility_at h i t * volatility_at h j t)).
  { intros i j Hi Hj. rewrite <- (ok_factor h K OK i j Hi Hj), Rmult_comm, <- sums_scal. apply sums_ext. intros l _. unfold vol_fn. ring. }
  pose proof (pricing_holds (g_dim h) (g_rate h) (g_forward h t) (g_mr h) (fun i => volatility_at h i t) (g_rho h) (state_y h) (vol_fn h t) t T (fun i Hi => ok_k h K i OK Hi) FW
    (fun i j Hi Hj => proj1 (C78_covariance_equation h K t i j OK T0 NT Hi Hj)) (fun i j Hi Hj => covariances_sym h K i j t OK Hi Hj ltac:(lra)) BB x) as Q.
  assert (EP : forall u z, 0 <= u -> discount_bond_price h z u T = bond_formula (g_dim h) (curve h) (load (g_mr h)) (state_y h) z u T).
  { intros u z U. unfold discount_bond_price, bond_formula. rewrite reconstitution_is. f_equal. f_equal. f_equal. f_equal. apply sums_ext. intros i Hi. apply sums_ext. intros j Hj. rewrite (covariances_sym h K j i u OK Hj Hi U). reflexivity. }
  destruct Q as (Pt & P1 & P2 & D0 & D1 & D2 & EQ). exists Pt, P1, P2. split; [|split; [|split; [exact D2|]]].
  - revert D0. apply is_derive_ext_loc. exists (mkposreal t T0). intros u B. symmetry. apply EP. unfold ball in B. cbn in B. unfold AbsRing_ball, abs, minus, plus, opp in B. cbn in B. apply Rabs_def2 in B. lra.
  - intros i z Hi. apply (is_derive_ext (fun v => bond_formula (g_dim h) (curve h) (load (g_mr h)) (state_y h) (set_at z i v) t T)); [intros v; symmetry; apply EP; lra|apply D1, Hi].
  - rewrite EP by lra. unfold short_rate. rewrite rsum_is. cbv beta in EQ. unfold curve. rewrite <- EQ. f_equal. f_equal. apply sums_ext. intros i Hi. unfold drift. rewrite rsum_is. reflexivity.
Qed.
Print Assumptions C78_pricing_equation.
(** One factor: the Hull-White model with the short rate x + f(0, t). *)
Theorem C78_hull_white : forall h w K x t T, hjm_ok h K -> g_dim h = 1%nat -> g_rho h 0%nat 0%nat = 1 -> 0 <= t ->
  hw_mr w 0%nat = Const (g_mr h 0%nat) -> hw_vol w 0%nat = Piecewise (g_vol h 0%nat) -> hw_corr w = None -> hw_rate w 0%nat = g_rate h -> hw_forward w 0%nat = g_forward h ->
  discount_bond_price h x t T = HullWhiteModel.discount_bond_price w 0 (short_rate h t x) t T.
Proof.
  intros h w K x t T OK D1 R1 T0 WM WV WC WR WF. assert (H0 : (0 < g_dim h)%nat) by lia. destruct (ok_knots h K OK 0%nat H0) as (J & _).
  set (k := g_mr h 0%nat). assert (K0 : k <> 0) by (apply (ok_k h K); assumption). set (G := fun a b : R => (1 - exp (- (k * (b - a)))) / k).
  assert (LG : loading k G).
  { intros a b. set (F := fun u => - exp (- (k * (u - a))) / k). apply (rint_val _ _ _ (F b - F a)); [|unfold F, G; replace (a - a) with 0 by ring; rewrite Rmult_0_r, Ropp_0, exp_0; field; exact K0].
    apply (is_RInt_derive (V := R_CompleteNormedModule) F (fun u => exp (- (k * (u - a))))).
    - intros u _. unfold F. auto_derive; [exact Logic.I|]. unfold Rminus. field. exact K0.
    - intros u _. apply (ex_derive_continuous (K := R_AbsRing) (V := R_NormedModule)). auto_derive. exact Logic.I. }
  assert (SV : state_variance (param_at (hw_vol w 0%nat)) k (state_y h 0 0)).
  { intros u U. apply (rint_ext (fun s => g_rho h 0%nat 0%nat * exp (- ((g_mr h 0%nat + g_mr h 0%nat) * (u - s))) * (volatility_at h 0 s * volatility_at h 0 s))); [exact U| |apply (C78_covariance h K OK); assumption].
    intros s _. rewrite R1, WV. cbn [param_at]. unfold volatility_at. fold k. replace ((k + k) * (u - s)) with (2 * k * (u - s)) by ring. ring. }
  assert (CO : hw_coordinate w 0 k).
  { split; [exact WM|]. split; [exact K0|]. rewrite WV. unfold corr_jumps. rewrite WC. split; [do 2 eexists; apply (ok_pw h K 0%nat OK H0)|]. intros z Z. apply (ok_after h K OK). rewrite app_nil_r in Z. cbn [param_jumps] in Z. rewrite J in Z. exact Z. }
  rewrite (C67_formula w 0 k (state_y h 0 0) G _ t T CO SV LG T0).
  rewrite (C78_bond h K (state_y h) (fun i => if Nat.eqb i 0 then G else fun _ _ => 0) x t T OK (C78_covariance h K OK)); [|intros i Hi; replace i with 0%nat by lia; exact LG|exact T0].
  unfold bond_formula, short_rate, initial_bond, curve. rewrite D1, WR, WF. cbn [sum_to rsum Nat.eqb]. f_equal. f_equal. field.
Qed.
Print Assumptions C78_hull_white.

(** ** Simulation *)
Lemma end_path_states h grid draws s : euler_states (g_dim h) (g_mr h) (volatility_at h) (g_sqrt_rho h) (state_y h) grid (fun n => draws n s) (fun n => end_path (gaussian_process h) grid draws (fun _ _ => 0) n s).
Proof.
  split; [reflexivity|]. intros n i Hi. cbv zeta. cbn [end_path]. unfold EulerSpec.increment. cbn [gaussian_process drift_fn volatility_fn dim]. unfold drift. rewrite !rsum_is. f_equal.
  rewrite <- !sums_scal. apply sums_ext. intros l _. unfold vol_fn. ring.
Qed.
(** What the lists of results hold for requested time number k, whose grid point
    has the index i. *)
Definition outputs_ok (h : hjm) (grid : nat -> R) (X : nat -> nat -> nat -> R) (o : outputs) (k i : nat) : Prop :=
  (forall a b, nth k (o_y o) (fun _ _ => 0) a b = state_y h a b (grid i)) /\
  forall s, let r j := sum_to (g_dim h) (X s j) + g_forward h (grid j) in
    (forall a, nth k (o_x o) (fun _ _ => 0) s a = X s i a) /\ nth k (o_rate o) (fun _ => 0) s = r i /\ nth k (o_discount o) (fun _ => NaN) s = Fin (discount_to r grid i).
Lemma outputs_read h grid X idx k : (k < length idx)%nat -> (nth k idx 0 < length grid)%nat ->
  let paths := map X (seq 0 (length grid)) in
  outputs_ok h (fun n => nth n grid 0) (fun s n => X n s)
    (Outputs (map (fun i s => nth i (rate_path h grid paths s) 0) idx) (map (fun i s => nth i (discount_path h grid paths s) NaN) idx) (map (fun i => nth i paths (fun _ _ => 0)) idx) (map (fun i a b => state_y h a b (at_ grid i)) idx)) k (nth k idx 0%nat).
Proof.
  intros Hk Hi paths. split.
  - intros a b. cbn [o_y]. set (F := fun i a b => state_y h a b (at_ grid i)). rewrite (nth_indep (map F idx) _ (F 0%nat)) by (rewrite map_length; exact Hk). rewrite map_nth. reflexivity.
  - intros s r. split; [|split].
    + intros a. cbn [o_x]. set (F := fun i => nth i paths (fun _ _ => 0)). rewrite (nth_indep (map F idx) _ (F 0%nat)) by (rewrite map_length; exact Hk). rewrite map_nth. unfold F, paths. rewrite (nth_indep (map X _) _ (X 0%nat)) by (rewrite map_length, seq_length; exact Hi). rewrite map_nth, seq_nth by exact Hi. reflexivity.
    + cbn [o_rate]. set (F := fun i s => nth i (rate_path h grid paths s) 0). rewrite (nth_indep (map F idx) _ (F 0%nat)) by (rewrite map_length; exact Hk). rewrite map_nth. unfold F, paths. rewrite rate_at by exact Hi. unfold short_rate, r. rewrite rsum_is. reflexivity.
    + cbn [o_discount]. set (F := fun i s => nth i (discount_path h grid paths s) NaN). rewrite (nth_indep (map F idx) _ (F 0%nat)) by (rewrite map_length; exact Hk). rewrite map_nth. unfold F, paths. rewrite discount_at by exact Hi. f_equal. unfold discount_to, r, short_rate. f_equal. f_equal. apply sums_ext. intros j _. rewrite rsum_is. reflexivity.
Qed.
Lemma written_all unwritten (X : nat -> samples) n : all_some (map (fun slot => match slot with Some x => Some x | None => unwritten end) (map (fun i => Some (X i)) (seq 0 n))) = Some (map X (seq 0 n)).
Proof. rewrite map_map. rewrite <- (map_map X Some). apply all_some_some. Qed.
(** With a time step. *)
Theorem C78_paths : forall h unwritten times step tol draws, times <> [] -> gaps_above (2 * tol) times -> 0 <= nth 0 times 0 -> 2 * tol < step -> 0 < step -> 0 <= tol < 1 ->
  exists grid idx o (X : nat -> nat -> nat -> R), sample_paths h unwritten times (Some step) None tol draws = Some o /\
    nth 0 grid 0 = 0 /\ gaps_above tol grid /\ gaps_at_most (step + tol) grid /\
    (forall s, euler_states (g_dim h) (g_mr h) (volatility_at h) (g_sqrt_rho h) (state_y h) (fun n => nth n grid 0) (fun n => draws n s) (X s)) /\
    forall k, (k < length times)%nat -> let i := nth k idx 0%nat in (i < length grid)%nat /\ 0 <= nth k times 0 - nth i grid 0 <= tol /\ outputs_ok h (fun n => nth n grid 0) X o k i.
Proof.
  intros h uw times step tol draws TN TG T0 S2 S0 TT. assert (TI : increasing times) by (apply (gaps_increasing (2 * tol)); [lra|exact TG]).
  destruct (C45_time_step times step tol TN TI T0 S0 TT) as (grid & mask & idx & E & G0 & GA & GI & LI & LN & MK). destruct (C45_time_step_close times step tol grid mask idx TN TG T0 S2 S0 TT E) as (CL & _ & GM & _ & _).
  set (Y := end_path (gaussian_process h) (fun n => nth n grid 0) draws (fun _ _ => 0)).
  exists grid, idx. eexists. exists (fun s n => Y n s). split; [|split; [exact G0|split; [exact GA|split; [exact GM|split; [intros s; apply end_path_states|]]]]].
  - unfold sample_paths. destruct times as [|t0 tl]; [contradiction|]. cbv zeta. rewrite E. rewrite (euler_all (gaussian_process h) (t0 :: tl) step tol draws (fun _ _ => 0) grid mask idx TN TG T0 S2 S0 TT E). fold Y. rewrite written_all. reflexivity.
  - intros k Hk. cbv zeta. assert (Hi : (nth k idx 0 < length grid)%nat) by (apply (LN k Hk)). split; [exact Hi|]. split; [apply CL, Hk|]. apply outputs_read; [rewrite LI; exact Hk|exact Hi].
Qed.
Print Assumptions C78_paths.
Lemma num_grid_index times n tol grid mask idx : times <> [] -> prepare_grid times (last times 0 / INR n) tol (Some n) None = Some (grid, mask, idx) -> increasing grid ->
  length idx = length times /\ forall k, (k < length times)%nat -> (nth k idx 0 < length grid)%nat /\ nth (nth k idx 0%nat) grid 0 = nth k times 0.
Proof.
  intros TN E INC. assert (IX : forall k, (k < length times)%nat -> length idx = length times /\ (nth k idx 0 < length grid)%nat /\ nth (nth k idx 0%nat) grid 0 = nth k times 0).
  { intros k Hk. unfold prepare_grid, grid_from_num_times in E. destruct times as [|t0 tl]; [contradiction|]. set (TS := t0 :: tl) in *. set (l := linspace (last TS 0 / INR n) (last TS 0 - last TS 0 / INR n) (n - length TS) ++ TS) in *. destruct (scatter_mask _ _); [|discriminate]. assert (EG : 0 :: sort l = grid) by congruence. assert (EI : map (searchsorted_left (0 :: sort l)) TS = idx) by congruence.
      rewrite <- EI. rewrite map_length. split; [reflexivity|]. rewrite (nth_indep _ 0%nat (searchsorted_left (0 :: sort l) 0)) by (rewrite map_length; exact Hk). rewrite (map_nth (searchsorted_left (0 :: sort l)) TS 0 k). rewrite EG.
      assert (IT : In (nth k TS 0) grid) by (rewrite <- EG; right; apply sort_in, in_or_app; right; apply nth_In, Hk). destruct (In_nth _ _ 0 IT) as (m & Lm & Em).
      assert (SS : searchsorted_left grid (nth k TS 0) = m).
      { apply ssl_unique; [intros q Hq; specialize (INC q Hq); unfold at_; lra|lia| |]; intros q Hq; rewrite <- Em; [apply (incr_lt grid (increasing_incr grid INC)); lia|].
        apply (nondecr_le grid); [intros q' Hq'; specialize (INC q' Hq'); unfold at_; lra|lia|lia]. }
      rewrite SS. split; [exact Lm|exact Em]. }
  split; [destruct times as [|t0 tl]; [contradiction|apply (IX 0%nat); cbn; lia]|intros k Hk; apply (IX k Hk)].
Qed.
(** With a number of steps, provided that no point of the grid is repeated; the
    first draw is not used. *)
Theorem C78_paths_num_steps : forall h unwritten times n tol draws grid mask idx, times <> [] -> increasing times -> 0 <= nth 0 times 0 ->
  prepare_grid times (last times 0 / INR n) tol (Some n) None = Some (grid, mask, idx) -> increasing grid ->
  exists o (X : nat -> nat -> nat -> R), sample_paths h unwritten times None (Some n) tol draws = Some o /\
    (forall s, euler_states (g_dim h) (g_mr h) (volatility_at h) (g_sqrt_rho h) (state_y h) (fun n => nth n grid 0) (fun n => draws (S n) s) (X s)) /\
    forall k, (k < length times)%nat -> let i := nth k idx 0%nat in (i < length grid)%nat /\ nth i grid 0 = nth k times 0 /\ outputs_ok h (fun n => nth n grid 0) X o k i.
Proof.
  intros h uw times n tol draws grid mask idx TN TI T0 E INC.
  set (Y := end_path (gaussian_process h) (fun n => nth n grid 0) (fun i => draws (S i)) (fun _ _ => 0)).
  eexists. exists (fun s n => Y n s). split; [|split; [intros s; apply (end_path_states h _ (fun i => draws (S i)) s)|]].
  - unfold sample_paths. destruct times as [|t0 tl]; [contradiction|]. cbv zeta. rewrite E. rewrite (euler_all_num (gaussian_process h) (t0 :: tl) n _ tol draws (fun _ _ => 0) grid mask idx E INC). fold Y. rewrite written_all. reflexivity.
  - intros k Hk. cbv zeta. assert (IX : length idx = length times /\ (nth k idx 0 < length grid)%nat /\ nth (nth k idx 0%nat) grid 0 = nth k times 0).
    { destruct (num_grid_index times n tol grid mask idx TN E INC) as (LI & IX). split; [exact LI|apply IX, Hk]. }
    destruct IX as (LI & Hi & EV). split; [exact Hi|]. split; [exact EV|]. apply outputs_read; [rewrite LI; exact Hk|exact Hi].
Qed.
Print Assumptions C78_paths_num_steps.
(** Discount curves along the paths: the bond prices at the simulated states. *)
Theorem C78_curve_paths : forall h K unwritten times curve_times time_step num_time_steps tol draws o, hjm_ok h K ->
  sample_paths h unwritten times time_step num_time_steps tol draws = Some o ->
  exists p, sample_discount_curve_paths h unwritten times curve_times time_step num_time_steps tol draws = Some (p, o_rate o, o_discount o) /\
    forall y G i m s, (forall j, (j < g_dim h)%nat -> loading (g_mr h j) (G j)) -> let t := nth i times 0 in
      (forall a b, (a < g_dim h)%nat -> (b < g_dim h)%nat -> nth i (o_y o) (fun _ _ => 0) a b = y a b t) ->
      p s m i = bond_formula (g_dim h) (curve h) G y (nth i (o_x o) (fun _ _ => 0) s) t (t + nth m curve_times 0).
Proof.
  intros h K uw times ct ts ns tol draws o OK E. unfold sample_discount_curve_paths. rewrite E. eexists. split; [reflexivity|]. intros y G i m s LG. cbv beta zeta. intros Y. rewrite reconstitution_is. unfold bond_formula, at_.
  set (t := nth i times 0) in *. set (T := t + nth m ct 0).
  assert (EL : forall j, (j < g_dim h)%nat -> load (g_mr h) j t T = G j t T) by (intros j Hj; symmetry; apply (loading_is (g_mr h j) (G j) t T (ok_k h K j OK Hj) (LG j Hj))).
  f_equal. f_equal. f_equal; f_equal.
  - apply sums_ext. intros j Hj. rewrite EL by exact Hj. reflexivity.
  - apply sums_ext. intros a Ha. apply sums_ext. intros b Hb. rewrite !EL by assumption. rewrite Y by assumption. reflexivity.
Qed.
Print Assumptions C78_curve_paths.

(** ** Volatilities with different jump locations *)
(** Two factors with the mean reversions 1/2 and the correlation 1/2.  The
    volatility of the first is 1 up to time 1 and 2 after it; that of the second
    is 1, given with a jump (of size 0) at time 2. *)
Definition half_rho (i j : nat) : R := if Nat.eqb i j then 1 else 1 / 2.
Definition half_factor (i j : nat) : R := match i, j with O, O => 1 | 1%nat, O => 1 / 2 | 1%nat, 1%nat => sqrt 3 / 2 | _, _ => 0 end.
Definition two_knots : hjm := HJM 2 (fun _ => 1 / 2) (fun i => if Nat.eqb i 0 then PW [1] [1; 2] else PW [2] [1; 1]) half_rho half_factor (fun _ => 0) (fun _ => 0).
Lemma ssl_before a t : t <= a -> searchsorted_left [a] t = 0%nat.
Proof. intros H. apply ssl_unique; [intros i Hi; cbn in Hi; lia|cbn; lia|intros i Hi; lia|]. intros i Hi. cbn in Hi. replace i with 0%nat by lia. exact H. Qed.
Lemma ssl_after a t : a < t -> searchsorted_left [a] t = 1%nat.
Proof. intros H. apply ssl_unique; [intros i Hi; cbn in Hi; lia|cbn; lia| |intros i Hi; cbn in Hi; lia]. intros i Hi. replace i with 0%nat by lia. exact H. Qed.
Lemma two_knots_vol t : volatility_at two_knots 0 t = (if Rle_dec t 1 then 1 else 2) /\ volatility_at two_knots 1 t = 1.
Proof.
  unfold volatility_at, pw_call. cbn [two_knots g_vol Nat.eqb jumps pvalues]. split.
  - destruct (Rle_dec t 1); [rewrite ssl_before by lra; reflexivity|rewrite ssl_after by lra; reflexivity].
  - destruct (Rle_dec t 2); [rewrite ssl_before by lra; reflexivity|rewrite ssl_after by lra; reflexivity].
Qed.
Lemma two_knots_01 : state_y two_knots 0 1 (3 / 2) = exp (- (3 / 2)) * (1 / 2) * (2 * (exp (3 / 2) - 1) + (exp 2 - 1)).
Proof.
  unfold state_y, knots. cbv zeta. cbn [two_knots g_vol Nat.eqb jumps]. rewrite (ssl_before 2 (3 / 2)) by lra. rewrite (ssl_after 1 (3 / 2)) by lra.
  unfold at_knots, between_knots. cbn [knots two_knots g_vol Nat.eqb jumps length seq map]. unfold at_, cumsum. cbn [nth cumsum_from]. unfold integrate_vol, mr2, vn, padded, knots. cbn [two_knots g_vol Nat.eqb jumps nth removelast g_rho g_mr half_rho].
  destruct (two_knots_vol (3 / 2)) as (V0 & V1). fold two_knots. rewrite V0, V1. destruct (two_knots_vol 1) as (V2 & _). rewrite V2. destruct (two_knots_vol 2) as (_ & V3). rewrite V3. destruct (Rle_dec (3 / 2) 1); [lra|]. destruct (Rle_dec 1 1); [|lra].
  replace (1 / 2 + 1 / 2) with 1 by field. replace (- (1) * (3 / 2)) with (- (3 / 2)) by ring. rewrite !Rmult_1_l, exp_0. field.
Qed.
Lemma two_knots_10 : state_y two_knots 1 0 (3 / 2) = exp (- (3 / 2)) * (1 / 2) * (2 * (exp (3 / 2) - exp 1)).
Proof.
  unfold state_y, knots. cbv zeta. cbn [two_knots g_vol Nat.eqb jumps]. rewrite (ssl_before 2 (3 / 2)) by lra. rewrite (ssl_after 1 (3 / 2)) by lra.
  unfold at_knots. unfold at_. cbn [nth]. unfold integrate_vol, mr2, vn, knots. cbn [two_knots g_vol Nat.eqb jumps nth g_rho g_mr half_rho].
  destruct (two_knots_vol (3 / 2)) as (V0 & V1). fold two_knots. rewrite V0, V1. destruct (Rle_dec (3 / 2) 1); [lra|].
  replace (1 / 2 + 1 / 2) with 1 by field. replace (- (1) * (3 / 2)) with (- (3 / 2)) by ring. rewrite !Rmult_1_l. field.
Qed.
Lemma two_knots_true : is_RInt (fun s => 1 / 2 * exp (- ((1 / 2 + 1 / 2) * (3 / 2 - s))) * (volatility_at two_knots 0 s * volatility_at two_knots 1 s)) 0 (3 / 2)
  (exp (- (3 / 2)) * (1 / 2) * ((exp 1 - 1) + 2 * (exp (3 / 2) - exp 1))).
Proof.
  set (E := exp (- (3 / 2)) * (1 / 2)).
  assert (PC : forall c a b : R, is_RInt (fun s => E * c * exp s) a b (E * c * (exp b - exp a))).
  { intros c a b. set (F := fun s => E * c * exp s). apply (rint_val _ _ _ (F b - F a)); [|unfold F; ring]. apply (is_RInt_derive (V := R_CompleteNormedModule) F F).
    - intros u _. unfold F. auto_derive; [exact Logic.I|ring].
    - intros u _. apply (ex_derive_continuous (K := R_AbsRing) (V := R_NormedModule)). unfold F. auto_derive. exact Logic.I. }
  apply (rint_val _ _ _ (E * 1 * (exp 1 - exp 0) + E * 2 * (exp (3 / 2) - exp 1))); [|rewrite exp_0; ring].
  assert (EX : forall s, exp (- ((1 / 2 + 1 / 2) * (3 / 2 - s))) = exp (- (3 / 2)) * exp s) by (intros s; rewrite <- exp_plus; f_equal; field).
  apply (is_RInt_Chasles (V := R_NormedModule) _ 0 1 (3 / 2)).
  - apply (rint_ext (fun s => E * 1 * exp s)); [lra| |apply PC]. intros s S. rewrite EX. destruct (two_knots_vol s) as (-> & ->). destruct (Rle_dec s 1); [|lra]. unfold E. ring.
  - apply (rint_ext (fun s => E * 2 * exp s)); [lra| |apply PC]. intros s S. rewrite EX. destruct (two_knots_vol s) as (-> & ->). destruct (Rle_dec s 1); [lra|]. unfold E. ring.
Qed.
Theorem C78_knots_refuted : forall y, covariances two_knots y ->
  state_y two_knots 1 0 (3 / 2) < y 0%nat 1%nat (3 / 2) < state_y two_knots 0 1 (3 / 2).
Proof.
  intros y CY. pose proof (CY 0%nat 1%nat ltac:(cbn; lia) ltac:(cbn; lia) (3 / 2) ltac:(lra)) as Q. cbn [two_knots g_rho g_mr half_rho Nat.eqb] in Q. fold two_knots in Q. rewrite (rint_unique _ _ _ _ _ Q two_knots_true).
  rewrite two_knots_01, two_knots_10. pose proof (exp_pos (- (3 / 2))). pose proof (exp_ineq1 1 ltac:(lra)). pose proof (exp_ineq1 2 ltac:(lra)). set (e := exp (- (3 / 2))) in *. split; apply Rmult_lt_compat_l; lra.
Qed.
Print Assumptions C78_knots_refuted.

(** ** Other functions of time *)
(** The documentation allows any callable; the constructor needs its jumps. *)
Theorem C78_callable_refuted : forall cholesky dim k f rate forward corr, hjm_make cholesky dim k (VolCallable f) rate forward corr = None.
Proof. intros. unfold hjm_make. destruct (cholesky _); reflexivity. Qed.
Print Assumptions C78_callable_refuted.

(** ** Repeated grid points *)
Ltac sdec := repeat (match goal with
  | |- context [Rle_dec ?a ?b] => destruct (Rle_dec a b); try (exfalso; lra)
  | |- context [Rlt_dec ?a ?b] => destruct (Rlt_dec a b); try (exfalso; lra) end; cbn [insert]).
(** The times 1/4 and 1 with 4 steps: the even grid contains 1/4 as well. *)
Lemma outer_grid tol : exists mask, prepare_grid [1 / 4; 1] (last [1 / 4; 1] 0 / INR 4) tol (Some 4%nat) None = Some ([0; 1 / 4; 1 / 4; 3 / 4; 1], mask, [1; 4]%nat).
Proof.
  unfold prepare_grid, grid_from_num_times. cbn [last length Nat.sub].
  assert (L : linspace (1 / INR 4) (1 - 1 / INR 4) 2 = [1 / 4; 3 / 4]).
  { unfold linspace. cbn [seq map Nat.sub Nat.max]. replace (INR 4) with 4 by (cbn; lra). replace (INR 1) with 1 by reflexivity. replace (INR 0) with 0 by reflexivity. f_equal; [field|f_equal; field]. }
  rewrite L. cbn [app sort insert]. sdec. cbn [map searchsorted_left length]. sdec. eexists. reflexivity.
Qed.
Lemma inner_grid tol : prepare_grid [0; 1 / 4; 1 / 4; 3 / 4; 1] (last [0; 1 / 4; 1 / 4; 3 / 4; 1] 0 / INR 4) tol (Some 4%nat) None =
  Some ([0; 0; 1 / 4; 1 / 4; 3 / 4; 1], [true; false; true; false; true; true], [0; 2; 2; 4; 5]%nat).
Proof.
  unfold prepare_grid, grid_from_num_times. cbn [last length Nat.sub].
  assert (L : linspace (1 / INR 4) (1 - 1 / INR 4) 0 = []) by reflexivity.
  rewrite L. cbn [app sort insert]. sdec. cbn [map searchsorted_left length]. sdec. reflexivity.
Qed.
(** The first grid point 1/4 has its state; the states of the later points are
    recorded one place too early, and that of the last point in none. *)
Theorem C78_num_steps_refuted : forall p tol draws x0, let X := end_path p (fun n => nth n [0; 0; 1 / 4; 1 / 4; 3 / 4; 1] 0) draws x0 in
  euler_sample p [0; 1 / 4; 1 / 4; 3 / 4; 1] None (Some 4%nat) None tol false false draws x0 = Some [Some (X 0%nat); Some (X 2%nat); Some (X 4%nat); Some (X 5%nat); None] /\
  forall h unwritten o, sample_paths h unwritten [1 / 4; 1] None (Some 4%nat) tol draws = Some o -> exists u, unwritten = Some u /\ nth 1 (o_x o) (fun _ _ => 1) = u.
Proof.
  intros p tol draws x0 X. assert (EU : forall p x0, let X := end_path p (fun n => nth n [0; 0; 1 / 4; 1 / 4; 3 / 4; 1] 0) draws x0 in
    euler_sample p [0; 1 / 4; 1 / 4; 3 / 4; 1] None (Some 4%nat) None tol false false draws x0 = Some [Some (X 0%nat); Some (X 2%nat); Some (X 4%nat); Some (X 5%nat); None]).
  { clear. intros p x0 X. unfold euler_sample. cbn [andb]. rewrite inner_grid. set (grid := [0; 0; 1 / 4; 1 / 4; 3 / 4; 1]).
    assert (ST : forall i, (S i < 6)%nat -> euler_step p grid draws i (X i) = X (S i)) by (intros i Hi; apply (step_is p grid draws x0 i); exact Hi).
    unfold run_while. assert (SN : steps_num grid = 5%nat) by reflexivity. rewrite SN. assert (X0 : x0 = X 0%nat) by reflexivity. clearbody X.
    rewrite !X0. cbn [length Nat.eqb record_state repeat]. unfold acc_write at 1. cbn [length Nat.ltb Nat.leb firstn skipn app].
    cbn [while_euler]. rewrite !SN. do 5 (cbn [Nat.ltb Nat.leb andb flag nth Nat.add]; rewrite ST by lia; cbn [record_state]; unfold acc_write at 1; cbn [length Nat.ltb Nat.leb firstn skipn app]).
    reflexivity. }
  split; [apply EU|]. intros h uw o. unfold sample_paths. cbv zeta. destruct (outer_grid tol) as (mask & ->). rewrite EU. cbn [map all_some]. destruct uw as [u|]; [|discriminate].
  intros E. exists u. split; [reflexivity|]. injection E as <-. reflexivity.
Qed.
Print Assumptions C78_num_steps_refuted.

(** ** An example *)
(** Two correlated factors whose volatilities jump at time 1. *)
Definition shared : hjm := HJM 2 (fun i => INR i + 1 / 2) (fun i => if Nat.eqb i 0 then PW [1] [1; 2] else PW [1] [3; 1]) half_rho half_factor (fun _ => 1 / 20) (fun _ => 1 / 20).
Example shared_ok : hjm_ok shared [1].
Proof.
  assert (S3 : sqrt 3 * sqrt 3 = 3) by (apply sqrt_sqrt; lra).
  constructor; cbn [shared g_dim g_vol g_mr g_rho g_sqrt_rho].
  - intros i Hi. destruct i as [|[|i]]; [split; reflexivity..|lia].
  - intros i Hi. cbn in Hi. lia.
  - intros x [<-|[]]. lra.
  - intros i j _ _. pose proof (pos_INR i). pose proof (pos_INR j). lra.
  - intros i j _ _. unfold half_rho. rewrite Nat.eqb_sym. reflexivity.
  - intros i j Hi Hj. destruct i as [|[|i]]; [| |lia]; (destruct j as [|[|j]]; [| |lia]); cbn [sum_to half_factor half_rho Nat.eqb]; lra.
Qed.
Example shared_pricing : forall x, pricing_equation 2 (drift shared (3 / 2) x) (vol_fn shared (3 / 2)) (short_rate shared (3 / 2) x) (fun u z => discount_bond_price shared z u 5) (3 / 2) x.
Proof.
  intros x. apply (C78_pricing_equation shared [1]); [apply shared_ok|lra|intros [E|[]]; lra|]. cbn [shared g_rate g_forward]. auto_derive; [exact Logic.I|ring].
Qed.
Example shared_paths : forall draws, exists o, sample_paths shared None [1; 2] (Some (1 / 2)) None (1 / 1000) draws = Some o.
Proof.
  intros draws. destruct (C78_paths shared None [1; 2] (1 / 2) (1 / 1000) draws) as (grid & idx & o & X & E & _); [discriminate| |cbn; lra|lra|lra|lra|exists o; exact E].
  intros i Hi. cbn [length] in Hi. destruct i as [|i]; [cbn; lra|lia].
Qed.
