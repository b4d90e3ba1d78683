(** C74: sampling the Heston model. *)
From Coquelicot Require Import Coquelicot.
From Coq Require Import Reals List Bool Arith Lia Lra.
From Verif Require Import TensorModel TensorProofs SegmentModel BrentModel InterpModel BrentProofs ExtReal HaganWestModel BootstrapModel BlackScholesModel BlackScholesSpec NormalProofs GaussConv BlackScholesProofs ImpliedVolProofs
  LoopModel LoopProofs PropsLoop TimeGridModel TimeGridSpec TimeGridProofs PropsTimeGrid MvNormalModel MvNormalProofs PiecewiseModel GbmModel PropsEuler HullWhiteModel HullWhiteProofs2
  HestonModel HestonSpec HestonProofs HestonProofs2 HestonProofs3.
Import ListNotations.
Open Scope R_scope.

(** * The dynamics *)
(** The volatility matrix times its transpose is the covariance of
    (d ln S, d V) per unit of time, and the drift is that of the model. *)
Theorem C74_dynamics h t x v : 0 <= v -> -1 <= param_at (h_rho h) t <= 1 ->
  let rho := param_at (h_rho h) t in let xi := param_at (h_volvol h) t in
  exists a b c d, heston_vol_fn h t x v 0 0 = Fin a /\ heston_vol_fn h t x v 0 1 = Fin b /\ heston_vol_fn h t x v 1 0 = Fin c /\ heston_vol_fn h t x v 1 1 = Fin d /\
    a * a + b * b = v /\ a * c + b * d = rho * xi * v /\ c * c + d * d = xi ^ 2 * v /\
    heston_drift_fn h t x v 0 = - v / 2 /\ heston_drift_fn h t x v 1 = param_at (h_mr h) t * (param_at (h_theta h) t - v).
Proof.
  intros V Rr rho xi. fold rho in Rr. unfold heston_vol_fn. rewrite (Rabs_right v) by lra. rewrite (xsqrt_f v V). fold rho xi.
  rewrite (xsqrt_f (1 - rho ^ 2)) by nra. cbn [xmul]. do 4 eexists. do 4 (split; [reflexivity|]).
  assert (S1 : sqrt v * sqrt v = v) by (apply sqrt_sqrt; exact V). assert (S2 : sqrt (1 - rho ^ 2) * sqrt (1 - rho ^ 2) = 1 - rho ^ 2) by (apply sqrt_sqrt; nra).
  set (s := sqrt v) in *. set (w := sqrt (1 - rho ^ 2)) in *. split; [lra|]. split; [rewrite <- S1; ring|]. split; [|split; reflexivity].
  replace (xi * rho * s * (xi * rho * s) + xi * w * s * (xi * w * s)) with (xi ^ 2 * (s * s) * (rho ^ 2 + w * w)) by ring. rewrite S1, S2. ring.
Qed.

(** * The variance step *)
(** For positive parameters the new variance is a number, is not negative, and its
    mean and second moment are those of the process itself. *)
Theorem C74_variance_step k theta xi v D : 0 < k -> 0 < theta -> xi <> 0 -> 0 <= v -> 0 < D ->
  exists f, moment_matched k theta xi v D f /\ forall z, update_variance k theta xi (Fin v) D z = Fin (f z).
Proof.
  intros Kp Tp Xn Vn Dp. exists (next_variance k theta xi v D). split; [|intros; apply update_value; assumption].
  split; [intros; apply next_nonneg; assumption|]. intros m1 m2 M. destruct (moments_unique k theta xi v ltac:(lra) m1 m2 D M) as [-> ->]. apply next_moments; assumption.
Qed.
(** The moments are: the mean theta + (v - theta) e^(-k t), and so on. *)
Theorem C74_moments k theta xi v : k <> 0 -> exists m1 m2, variance_moments k theta xi v m1 m2 /\ forall t,
  m1 t = theta + (v - theta) * exp (- k * t) /\
  m2 t - m1 t ^ 2 = v * xi ^ 2 / k * (exp (- k * t) - exp (- 2 * k * t)) + theta * xi ^ 2 / (2 * k) * (1 - exp (- k * t)) ^ 2.
Proof.
  intros Kn. eexists. eexists. split; [apply moments_exist; exact Kn|]. intros t. split; [reflexivity|]. unfold cm, cs.
  replace (exp (- 2 * k * t)) with (exp (- k * t) * exp (- k * t)) by (rewrite <- exp_plus; f_equal; ring). field. exact Kn.
Qed.
(** Both branches are used: at v = theta = 1/25, k = 1, D = 1 the quadratic one for
    xi = 1/10 and the exponential one for xi = 1. *)
Example C74_ex_branches : let v := 1 / 25 in the_psi 1 v (1 / 10) v 1 < 3 / 2 <= the_psi 1 v 1 v 1.
Proof.
  cbv zeta. unfold the_psi, cs, cm. set (e := exp (- (1) * 1)). assert (E0 : 0 < e) by apply exp_pos.
  assert (E1 : e < / 2). { unfold e. rewrite <- Ropp_mult_distr_l, Rmult_1_l, exp_Ropp. apply Rinv_lt_contravar; [|exact (exp_ineq1 1 ltac:(lra))]. pose proof (exp_pos 1). nra. }
  clearbody e. replace (1 / 25 + (1 / 25 - 1 / 25) * e) with (1 / 25) by ring.
  split.
  - replace ((1 / 25 * (1 / 10) ^ 2 * e / 1 * (1 - e) + 1 / 25 * (1 / 10) ^ 2 / 2 / 1 * (1 - e) ^ 2) / (1 / 25 * (1 / 25))) with (/ 8 * (1 - e * e)) by field. nra.
  - replace ((1 / 25 * 1 ^ 2 * e / 1 * (1 - e) + 1 / 25 * 1 ^ 2 / 2 / 1 * (1 - e) ^ 2) / (1 / 25 * (1 / 25))) with (25 / 2 * (1 - e * e)) by field. nra.
Qed.
(** Without volatility of the variance the result is NaN although the variance
    then simply follows its mean. *)
Theorem C74_no_volvol_refuted k theta v D z : 0 < k -> 0 < theta -> 0 <= v -> 0 < D -> update_variance k theta 0 (Fin v) D z = NaN.
Proof.
  intros Kp Tp Vn Dp. unfold update_variance. pose proof (m_pos k theta v D Kp Tp Vn Dp) as M. cbv zeta.
  assert (EM : Fin theta +x (Fin v -x Fin theta) *x Fin (exp (- k * D)) = Fin (cm k theta v D)) by reflexivity. rewrite EM.
  change (Fin v *x Fin (0 ^ 2) *x Fin (exp (- k * D))) with (Fin (v * 0 ^ 2 * exp (- k * D))). rewrite !(xdiv_f _ k) by lra. cbn [xmul xadd].
  replace (v * 0 ^ 2 * exp (- k * D) / k * (1 - exp (- k * D)) + theta * 0 ^ 2 / 2 / k * (1 - exp (- k * D)) ^ 2) with 0 by (field; lra).
  change (xsquare (Fin (cm k theta v D))) with (Fin (cm k theta v D * cm k theta v D)). rewrite xdiv_f by nra.
  replace (0 / (cm k theta v D * cm k theta v D)) with 0 by (field; nra). cbn [xlt]. rewrite (proj2 (rlt_true 0 (3 / 2))) by lra.
  assert (Q : Fin 2 /x Fin 0 = Inf false). { cbn [xdiv]. unfold req, rlt. destruct (Req_EM_T 0 0); [|lra]. destruct (Req_EM_T 2 0); [lra|]. destruct (Rlt_dec 2 0); [lra|reflexivity]. }
  rewrite Q. unfold xsub. cbn. replace (req 0 0) with true by (unfold req; destruct (Req_EM_T 0 0); [reflexivity|lra]). reflexivity.
Qed.

(** * The step of the spot *)
Theorem C74_log_spot_step k theta xi rho v v' x D n : xi <> 0 -> -1 <= rho <= 1 -> 0 <= v -> 0 <= v' -> 0 < D ->
  update_log_spot k theta xi rho (Fin v) (Fin v') (Fin x) D n = Fin (x + log_spot_increment k theta xi rho v v' D n).
Proof. apply log_spot_value. Qed.
(** Given the variances, the new log of the spot is normal with variance
    (1 - rho^2) times the integrated variance; the mean of the new spot is: *)
Theorem C74_spot_mean k theta xi rho v v' x D : -1 <= rho <= 1 -> 0 <= v -> 0 <= v' -> 0 < D ->
  let I := D * (v + v') / 2 in
  expectation (fun n => exp (x + log_spot_increment k theta xi rho v v' D n)) (exp x * exp (rho / xi * (v' - v - k * theta * D + k * I) - rho ^ 2 * I / 2)).
Proof.
  intros Rr Vn Vn' Dp I. assert (I0 : 0 <= I) by (unfold I; apply Rmult_le_pos; [apply Rmult_le_pos; lra|lra]).
  assert (Q : 0 <= (1 - rho ^ 2) * I) by (apply Rmult_le_pos; [nra|exact I0]).
  set (s := sqrt ((1 - rho ^ 2) * I)). assert (S2 : s ^ 2 = (1 - rho ^ 2) * I) by (unfold s; rewrite <- Rsqr_pow2; apply Rsqr_sqrt; exact Q).
  set (c := x - I / 2 + rho / xi * (v' - v - k * theta * D + k * I)).
  apply (expectation_ext (fun n => exp c * exp (s * n))).
  { intros n. unfold log_spot_increment. cbv zeta. fold I. fold s. rewrite <- exp_plus. f_equal. unfold c. unfold Rdiv; ring. }
  apply (expectation_scal (fun n => exp (s * n)) (exp c) (exp (s ^ 2 / 2))); [apply expect_exp|].
  rewrite <- !exp_plus. f_equal. rewrite S2. unfold c. unfold Rdiv; ring.
Qed.
(** Uncorrelated: the spot is a martingale. *)
Theorem C74_martingale k theta xi v v' x D : 0 <= v -> 0 <= v' -> 0 < D -> expectation (fun n => exp (x + log_spot_increment k theta xi 0 v v' D n)) (exp x).
Proof.
  intros Vn Vn' Dp. assert (M := C74_spot_mean k theta xi 0 v v' x D ltac:(lra) Vn Vn' Dp). cbv zeta in M.
  match type of M with expectation _ (_ * exp ?e) => replace e with 0 in M by (unfold Rdiv; ring) end. rewrite exp_0, Rmult_1_r in M. exact M.
Qed.

(** * Expected total variance *)
Theorem C74_total_variance h k theta xi v0 T : h_mr h = Const k -> h_theta h = Const theta -> k <> 0 -> 0 <= T ->
  exists w, expected_total_variance h T v0 = Some (Fin w) /\ forall m1 m2, variance_moments k theta xi v0 m1 m2 -> is_RInt m1 0 T w.
Proof.
  intros EK ET Kn Tn. unfold expected_total_variance. rewrite EK, ET. cbv zeta. rewrite xdiv_f by exact Kn. cbn [xmul xadd]. eexists. split; [reflexivity|]. intros m1 m2 M.
  apply (is_RInt_ext (V := R_NormedModule) (cm k theta v0)). { intros t _. symmetry. apply (moments_unique k theta xi v0 Kn m1 m2 t M). }
  set (A := fun t => theta * t - (v0 - theta) * exp (- k * t) / k).
  assert (E : (v0 - theta) * ((1 - exp (- k * T)) / k) + theta * T = minus (A T) (A 0)).
  { unfold A, minus, plus, opp. cbn. rewrite !Rmult_0_r, exp_0. field. exact Kn. }
  rewrite E. apply (is_RInt_derive (V := R_CompleteNormedModule)).
  - intros t _. unfold A, cm. auto_derive; [exact Logic.I|]. field. exact Kn.
  - intros t _. apply (ex_derive_continuous (V := R_NormedModule)). unfold cm. auto_derive. exact Logic.I.
Qed.
(** Parameters that vary with time are refused. *)
Theorem C74_total_variance_constant h T v0 : (exists f, h_mr h = Piecewise f \/ h_theta h = Piecewise f) -> expected_total_variance h T v0 = None.
Proof. intros [f [E|E]]; unfold expected_total_variance; rewrite E; [reflexivity|]. destruct (h_mr h); reflexivity. Qed.

(** * Sampling *)
Definition parameters_ok (h : heston) : Prop :=
  forall t, 0 < param_at (h_mr h) t /\ 0 < param_at (h_theta h) t /\ param_at (h_volvol h) t <> 0 /\ -1 <= param_at (h_rho h) t <= 1.
Lemma reduce_min_spec l : l <> [] -> In (reduce_min l) l /\ forall x, In x l -> reduce_min l <= x.
Proof.
  destruct l as [|a l]; [contradiction|]. intros _. cbn [reduce_min]. induction l as [|b l [IH1 IH2]]; cbn [fold_right].
  - split; [left; reflexivity|]. intros x [<-|[]]. lra.
  - split.
    + apply Rmin_case; [right; left; reflexivity|]. destruct IH1 as [E|E]; [left; exact E|right; right; exact E].
    + intros x [E|[E|E]].
      * eapply Rle_trans; [apply Rmin_r|apply IH2; left; exact E].
      * rewrite <- E. apply Rmin_l.
      * eapply Rle_trans; [apply Rmin_r|apply IH2; right; exact E].
Qed.
Lemma half_gap_ok grid : (1 < length grid)%nat -> half_gap grid (reduce_min (steps_dt grid) / 2).
Proof.
  intros L. assert (LD : length (steps_dt grid) = pred (length grid)) by apply diff_length'.
  assert (NE : steps_dt grid <> []) by (intros E; rewrite E in LD; cbn in LD; lia).
  destruct (reduce_min_spec _ NE) as [M1 M2]. split.
  - destruct (In_nth _ _ 0 M1) as (i & Hi & E). exists i. split; [lia|]. unfold steps_dt in E at 1. rewrite diff_nth' in E by lia. unfold gap. rewrite E. field.
  - intros i Hi. assert (I : In (gap grid i) (steps_dt grid)). { unfold gap. rewrite <- diff_nth' by exact Hi. apply nth_In. fold (steps_dt grid). lia. }
    specialize (M2 _ I). lra.
Qed.
Section Path.
  Variables (h : heston) (tol : R) (grid : list R).
  Hypotheses (Ok : parameters_ok h) (Tl : 0 <= tol).
  Let P (p : param) (i : nat) : R := param_at p (nth i grid 0 + reduce_min (steps_dt grid) / 2).
  Definition new_variance (i : nat) (v : R) : R -> R := next_variance (P (h_mr h) i) (P (h_theta h) i) (P (h_volvol h) i) v (gap grid i).
  Lemma path_states z x0 v0 : 0 <= v0 -> exists x v, x 0%nat = x0 /\ v 0%nat = v0 /\
    (forall i, (i < length grid)%nat -> run_states h tol z grid (Fin x0, Fin v0) i = (Fin (x i), Fin (v i)) /\ 0 <= v i) /\
    heston_path (P (h_mr h)) (P (h_theta h)) (P (h_volvol h)) (P (h_rho h)) new_variance tol grid z x v.
  Proof.
    intros V0.
    set (st := fix st (n : nat) : R * R := match n with
      | O => (x0, v0)
      | S i => let '(x, v) := st i in
          if Rle_dec (gap grid i) tol then (x, v)
          else let v' := new_variance i v (fst (z i)) in
            (x + log_spot_increment (P (h_mr h) i) (P (h_theta h) i) (P (h_volvol h) i) (P (h_rho h) i) v v' (gap grid i) (snd (z i)), v') end).
    exists (fun n => fst (st n)), (fun n => snd (st n)). split; [reflexivity|]. split; [reflexivity|]. split.
    - induction i as [|i IH]; intros L; [split; [reflexivity|exact V0]|]. specialize (IH ltac:(lia)). destruct IH as [IH Vi]. cbn [run_states]. rewrite IH. unfold heston_step.
      assert (G : at_ (steps_dt grid) i = gap grid i) by (apply diff_nth'; exact L). rewrite G. cbn [st]. destruct (st i) as [x v]. cbn [fst snd] in *.
      destruct (Rle_dec (gap grid i) tol) as [D|D].
      + replace (rlt tol (gap grid i)) with false by (symmetry; apply rlt_false; exact D). split; [reflexivity|exact Vi].
      + replace (rlt tol (gap grid i)) with true by (symmetry; apply rlt_true; lra).
        assert (Q : forall p, parameter grid p i = P p i) by reflexivity. rewrite !Q.
        pose proof (Ok (nth i grid 0 + reduce_min (steps_dt grid) / 2)) as (O1 & O2 & O3 & O4). cbv zeta. cbn [fst snd].
        rewrite (update_value (P (h_mr h) i) (P (h_theta h) i) (P (h_volvol h) i) v (gap grid i)) by (assumption || lra). fold (new_variance i v (fst (z i))).
        assert (N : 0 <= new_variance i v (fst (z i))) by (apply next_nonneg; assumption || lra).
        rewrite log_spot_value by (assumption || lra). split; [reflexivity|exact N].
    - intros i L. cbn [st]. destruct (st i) as [x v]. cbn [fst snd]. destruct (Rle_dec (gap grid i) tol); split; reflexivity.
  Qed.
  Lemma new_variance_ok i v : tol < gap grid i -> 0 <= v -> moment_matched (P (h_mr h) i) (P (h_theta h) i) (P (h_volvol h) i) v (gap grid i) (new_variance i v).
  Proof.
    intros D V. pose proof (Ok (nth i grid 0 + reduce_min (steps_dt grid) / 2)) as (O1 & O2 & O3 & O4).
    split; [intros; apply next_nonneg; assumption || lra|]. intros m1 m2 M. fold (P (h_mr h) i) in O1.
    destruct (moments_unique (P (h_mr h) i) (P (h_theta h) i) (P (h_volvol h) i) v ltac:(lra) m1 m2 (gap grid i) M) as [-> ->]. apply next_moments; assumption || lra.
  Qed.
End Path.

(** What the caller receives: entry j is the state of the path at the j-th
    requested time (requested times may be repeated).  The parameters of the step
    that starts at t are those at t + e. *)
Definition sampled (h : heston) (times : list R) (tol step : R) (result : (nat -> R * R) -> R -> R -> option (list (option state))) : Prop :=
  exists grid idx e F, simulation_grid step times (additional_times h) grid idx /\ half_gap grid e /\
    let P := fun p i => param_at p (nth i grid 0 + e) in
    (forall i v, (S i < length grid)%nat -> tol < gap grid i -> 0 <= v -> moment_matched (P (h_mr h) i) (P (h_theta h) i) (P (h_volvol h) i) v (gap grid i) (F i v)) /\
    forall z x0 v0, 0 <= v0 -> exists x v, x 0%nat = x0 /\ v 0%nat = v0 /\
      heston_path (P (h_mr h)) (P (h_theta h)) (P (h_volvol h)) (P (h_rho h)) F tol grid z x v /\
      result z x0 v0 = Some (map (fun i => Some (Fin (x i), Fin (v i))) idx).
Section Sample.
  Variables (h : heston) (times : list R) (tol step : R).
  Hypotheses (Ok : parameters_ok h) (Tl : 0 <= tol) (Sp : 0 < step) (Ne : times <> []) (Lp : 0 < last times 0)
    (Ti : forall i j, (i <= j)%nat -> (j < length times)%nat -> nth i times 0 <= nth j times 0)
    (Pos : forall t, In t times \/ In t (additional_times h) -> 0 <= t).
  Lemma sample_ok : sampled h times tol step (fun z x0 v0 =>
    match heston_prepare_grid h times step None with
    | None => None
    | Some (all_times, mask) => heston_run h tol z all_times mask (length times) (Fin x0, Fin v0)
    end).
  Proof.
    destruct (range_ok (last times 0) step Sp ltac:(lra)) as (m & E & M1 & M2).
    set (B := map (fun i => INR i * step) (seq 0 m)) in *. set (A := additional_times h) in *.
    assert (Mp : (0 < m)%nat). { destruct m; [cbn in M1; lra|lia]. }
    assert (BN : B <> []) by (unfold B; destruct m; [lia|discriminate]).
    assert (BI : forall t, In t B <-> exists i : nat, t = INR i * step /\ t < last times 0).
    { intros t. unfold B. rewrite in_map_iff. split.
      - intros (i & <- & I). apply in_seq in I. exists i. split; [reflexivity|apply M2; lia].
      - intros (i & -> & L). exists i. split; [reflexivity|]. apply in_seq. split; [lia|]. cbn. apply INR_lt. apply (Rmult_lt_reg_r step); lra. }
    assert (B0 : nth 0 B 0 = 0). { unfold B. destruct m; [lia|]. cbn [seq map nth]. cbn. ring. }
    assert (PO : forall t, In t (B ++ times ++ A) -> 0 <= t).
    { intros t I. rewrite !in_app_iff in I. destruct I as [I|I]; [|apply Pos; exact I]. apply BI in I as (i & -> & _). apply Rmult_le_pos; [apply pos_INR|lra]. }
    assert (EG : heston_prepare_grid h times step None = Some (m_grid B times A, m_mask B times A)).
    { unfold heston_prepare_grid. destruct times as [|t l]; [contradiction|]. rewrite E. reflexivity. }
    set (grid := m_grid B times A) in *. set (idx := m_index B times A).
    assert (Mk := m_marks B times A). fold grid idx in Mk.
    assert (LI : length idx = length times) by (apply m_index_length; exact Ti).
    assert (IN : idx <> []) by (intros X; rewrite X in LI; destruct times; [contradiction|discriminate LI]).
    assert (LG : (1 < length grid)%nat). { unfold grid. rewrite m_length. destruct B; [contradiction|]. destruct times; [contradiction|]. cbn. lia. }
    exists grid, idx, (reduce_min (steps_dt grid) / 2), (new_variance h grid). split.
    { split; [apply m_grid_first; assumption|]. split; [intros i j; apply m_nondecr|]. split.
      - intros t. unfold grid. rewrite m_in, BI. reflexivity.
      - split; [exact LI|]. intros j J. apply m_index_at; assumption. }
    split; [apply half_gap_ok; exact LG|]. cbv zeta. split; [intros i v _ D V; apply (new_variance_ok h tol grid Ok Tl i v D V)|].
    intros z x0 v0 V0. destruct (path_states h tol grid Ok Tl z x0 v0 V0) as (x & v & X0 & VV0 & ST & HP). exists x, v. split; [exact X0|]. split; [exact VV0|]. split; [exact HP|].
    rewrite EG. rewrite <- LI.
    change (Fin x0, Fin v0) with (run_states h tol z grid (Fin x0, Fin v0) 0).
    rewrite (heston_run_ok h tol z grid (run_states h tol z grid (Fin x0, Fin v0))) with (idx := idx).
    - f_equal. apply map_ext_in. intros i I. destruct Mk as (_ & M & _). destruct (ST i (M i I)) as [-> _]. reflexivity.
    - intros i _. apply run_states_step.
    - apply positions_increasing.
    - exact Mk.
    - exact IN.
    - intros j J. rewrite LI in J. apply m_index_pos; assumption.
  Qed.
End Sample.
Theorem C74_time_step_partial h times tol step : parameters_ok h -> 0 <= tol -> 0 < step -> times <> [] -> 0 < last times 0 ->
  (forall i j, (i <= j)%nat -> (j < length times)%nat -> nth i times 0 <= nth j times 0) -> (forall t, In t times \/ In t (additional_times h) -> 0 <= t) ->
  sampled h times tol step (heston_sample_paths h times (Some step) None None tol).
Proof. intros Ok Tl Sp Ne Lp Ti Pos. exact (sample_ok h times tol step Ok Tl Sp Ne Lp Ti Pos). Qed.
Theorem C74_num_steps_partial h times tol n : parameters_ok h -> 0 <= tol -> (0 < n)%nat -> times <> [] -> 0 < last times 0 ->
  (forall i j, (i <= j)%nat -> (j < length times)%nat -> nth i times 0 <= nth j times 0) -> (forall t, In t times \/ In t (additional_times h) -> 0 <= t) ->
  sampled h times tol (last times 0 / INR n) (heston_sample_paths h times None (Some n) None tol).
Proof.
  intros Ok Tl Np Ne Lp Ti Pos. apply (sample_ok h times tol (last times 0 / INR n) Ok Tl); try assumption. apply Rdiv_lt_0_compat; [exact Lp|apply lt_0_INR; exact Np].
Qed.

(** The parameters of a step are those of the whole interval, provided that no two
    points of the grid coincide. *)
Lemma ssl_same l a b : nondecr l -> a <= b -> (forall j, In j l -> ~ (a <= j < b)) -> searchsorted_left l a = searchsorted_left l b.
Proof.
  intros N AB H. set (na := searchsorted_left l a). set (nb := searchsorted_left l b).
  destruct (Nat.lt_trichotomy na nb) as [L|[L|L]]; [|exact L|].
  - exfalso. pose proof (ssl_le l b) as LB. fold nb in LB. apply (H (at_ l na)); [apply nth_In; lia|]. split; [apply (ssl_above l a N); fold na; lia|apply ssl_below; exact L].
  - exfalso. pose proof (ssl_le l a) as LA. fold na in LA. pose proof (ssl_below l a nb L). pose proof (ssl_above l b N nb ltac:(fold nb; lia)). lra.
Qed.
Theorem C74_parameters p grid e i u : nondecr (param_jumps p) -> (forall j, In j (param_jumps p) -> In j grid) ->
  (forall i j, (i <= j)%nat -> (j < length grid)%nat -> nth i grid 0 <= nth j grid 0) -> half_gap grid e -> 0 < e -> (S i < length grid)%nat ->
  nth i grid 0 < u <= nth (S i) grid 0 -> param_at p (nth i grid 0 + e) = param_at p u.
Proof.
  intros N J G (_ & HG) E L U. destruct p as [c|f]; [reflexivity|]. cbn [param_jumps param_at] in *. unfold pw_call. f_equal.
  pose proof (HG i L) as Q. unfold gap in Q.
  assert (NB : forall j a b, nth i grid 0 < a -> b <= nth (S i) grid 0 -> In j (jumps f) -> ~ (a <= j < b)).
  { intros j a b A B I K. destruct (In_nth _ _ 0 (J j I)) as (n & Hn & E'). destruct (le_lt_dec n i) as [X|X].
    - pose proof (G n i X ltac:(lia)). lra.
    - pose proof (G (S i) n ltac:(lia) Hn). lra. }
  destruct (Rle_dec (nth i grid 0 + e) u) as [X|X].
  - apply ssl_same; [exact N|exact X|]. intros j I. apply NB; [lra|lra|exact I].
  - symmetry. apply ssl_same; [exact N|lra|]. intros j I. apply NB; [lra|lra|exact I].
Qed.
(** Otherwise e is 0 and the step that starts at a jump uses the value before the
    jump.  Long run variance 1 before time 1 and 2 after it, steps of length 1 and
    the state at time 2 requested: the last step moves towards 1. *)
Definition two_regimes : heston := Heston (Const 1) (Piecewise (PW [1] [1; 2])) (Const (1 / 10)) (Const 0).
Ltac rdec := repeat (match goal with
  | |- context [Rle_dec ?a ?b] => destruct (Rle_dec a b); try (exfalso; lra)
  | |- context [Rlt_dec ?a ?b] => destruct (Rlt_dec a b); try (exfalso; lra)
  | |- context [Req_EM_T ?a ?b] => destruct (Req_EM_T a b); try (exfalso; lra) end; cbn [insert_pair fst snd]).
Lemma two_regimes_grid : heston_prepare_grid two_regimes [2] 1 None = Some ([0; 1; 1; 2], [false; false; false; true]).
Proof.
  unfold heston_prepare_grid. cbn [last]. rewrite (range_two 2) by lra. unfold additional_times. cbn [two_regimes h_mr h_theta h_volvol h_rho param_jumps jumps app length repeat].
  assert (AS : argsort [0; 1; 2; 1] = [0; 1; 3; 2]%nat).
  { unfold argsort. cbn [length seq combine fold_right insert_pair fst snd]. rdec. reflexivity. }
  rewrite AS. reflexivity.
Qed.
Lemma two_regimes_ok : parameters_ok two_regimes.
Proof.
  intros t. cbn [two_regimes h_mr h_theta h_volvol h_rho param_at]. unfold pw_call. cbn [jumps pvalues searchsorted_left]. destruct (Rlt_dec 1 t); unfold at_; cbn [nth]; lra.
Qed.
Theorem C74_jump_refuted tol x0 v0 : 0 <= tol < 1 -> 0 <= v0 -> exists F1 F2 : R -> R -> R,
  (forall z, exists x, heston_sample_paths two_regimes [2] (Some 1) None None tol z x0 v0 = Some [Some (x, Fin (F2 (F1 v0 (fst (z 0%nat))) (fst (z 2%nat))))]) /\
  (forall v z, 0 <= v -> 0 <= F1 v z) /\
  (forall v, 0 <= v -> moment_matched 1 1 (1 / 10) v 1 (F1 v)) /\
  (forall v, 0 <= v -> moment_matched 1 1 (1 / 10) v 1 (F2 v)) /\
  (forall u, 1 < u -> param_at (h_theta two_regimes) u = 2).
Proof.
  intros TL V0. exists (fun v => next_variance 1 1 (1 / 10) v 1), (fun v => next_variance 1 1 (1 / 10) v 1).
  assert (MM : forall v, 0 <= v -> moment_matched 1 1 (1 / 10) v 1 (next_variance 1 1 (1 / 10) v 1)).
  { intros v V. split; [intros; apply next_nonneg; lra|]. intros m1 m2 M. destruct (moments_unique 1 1 (1 / 10) v ltac:(lra) m1 m2 1 M) as [-> ->]. apply next_moments; lra. }
  split; [|split; [intros; apply next_nonneg; lra|]; split; [exact MM|]; split; [exact MM|]].
  2: { intros u U. cbn [two_regimes h_theta param_at]. unfold pw_call. cbn [jumps pvalues searchsorted_left]. destruct (Rlt_dec 1 u); [reflexivity|lra]. }
  intros z. set (grid := [0; 1; 1; 2]).
  unfold heston_sample_paths. cbv zeta. rewrite two_regimes_grid. fold grid.
  assert (SD : steps_dt grid = [1 - 0; 1 - 1; 2 - 1]) by reflexivity.
  assert (RM : reduce_min (steps_dt grid) / 2 = 0). { rewrite SD. cbn [reduce_min fold_right]. unfold Rmin. repeat (match goal with |- context [Rle_dec ?a ?b] => destruct (Rle_dec a b) end); lra. }
  assert (PA : forall p i, parameter grid p i = param_at p (at_ grid i)) by (intros; unfold parameter; rewrite RM, Rplus_0_r; reflexivity).
  assert (TH : forall i, (i < 3)%nat -> parameter grid (h_theta two_regimes) i = 1).
  { intros i Hi. rewrite PA. cbn [two_regimes h_theta param_at]. unfold pw_call. cbn [jumps pvalues searchsorted_left]. destruct i as [|[|[|i]]]; [| | |lia]; unfold at_, grid; cbn [nth];
      match goal with |- context [Rlt_dec ?a ?b] => destruct (Rlt_dec a b); [lra|reflexivity] end. }
  assert (G : forall i, (i < 3)%nat -> gap grid i = if Nat.eqb i 1 then 0 else 1) by (intros [|[|[|i]]] Hi; [| | |lia]; unfold gap, grid; cbn; ring).
  destruct (path_states two_regimes tol grid two_regimes_ok ltac:(lra) z x0 v0 V0) as (x & v & X0 & VV & ST & HP).
  assert (NV : forall i w, (i < 3)%nat -> i <> 1%nat -> new_variance two_regimes grid i w = next_variance 1 1 (1 / 10) w 1).
  { intros i w Hi H1. unfold new_variance. fold (at_ grid i). rewrite (G i Hi). destruct (Nat.eqb_spec i 1); [contradiction|].
    change (param_at (h_theta two_regimes) (at_ grid i + reduce_min (steps_dt grid) / 2)) with (parameter grid (h_theta two_regimes) i). rewrite (TH i Hi). reflexivity. }
  assert (H0 := HP 0%nat ltac:(cbn; lia)). assert (H1 := HP 1%nat ltac:(cbn; lia)). assert (H2 := HP 2%nat ltac:(cbn; lia)).
  rewrite (G 0%nat) in H0 by lia. rewrite (G 1%nat) in H1 by lia. rewrite (G 2%nat) in H2 by lia. cbn [Nat.eqb] in H0, H1, H2.
  destruct (Rle_dec 1 tol); [lra|]. destruct (Rle_dec 0 tol); [|lra].
  rewrite (NV 0%nat) in H0 by lia. rewrite (NV 2%nat) in H2 by lia. destruct H0 as [H0 _]. destruct H1 as [_ H1]. destruct H2 as [H2 _].
  exists (Fin (x 3%nat)).
  change (Fin x0, Fin v0) with (run_states two_regimes tol z grid (Fin x0, Fin v0) 0). change (length [2]) with (length [3%nat]).
  rewrite (heston_run_ok two_regimes tol z grid (run_states two_regimes tol z grid (Fin x0, Fin v0))) with (idx := [3%nat]).
  - cbn [map]. destruct (ST 3%nat ltac:(cbn; lia)) as [-> _]. rewrite H2, H1, H0, VV. reflexivity.
  - intros i _. apply run_states_step.
  - intros k K. cbn in K. lia.
  - split; [reflexivity|]. split; [intros i [<-|[]]; cbn; lia|]. intros i Hi. cbn in Hi. destruct i as [|[|[|[|i]]]]; cbn; split; intros K; try discriminate K; try lia; auto.
  - discriminate.
  - intros j J. cbn in J. destruct j; [cbn; lia|lia].
Qed.

(** * Given grids *)
(** With a grid of the caller's, the states at the nearest points are returned,
    unless the first point itself is requested. *)
Theorem C74_given_grid_partial h times g tol mask idx : parameters_ok h -> 0 <= tol -> prepare_grid times 0 0 None (Some g) = Some (g, mask, idx) -> times <> [] ->
  increasing_nat idx -> (0 < nth 0 idx 0)%nat -> length idx = length times ->
  exists e F, half_gap g e /\
  let P := fun p i => param_at p (nth i g 0 + e) in
  (forall i v, (S i < length g)%nat -> tol < gap g i -> 0 <= v -> moment_matched (P (h_mr h) i) (P (h_theta h) i) (P (h_volvol h) i) v (gap g i) (F i v)) /\
  forall z x0 v0, 0 <= v0 -> exists x v, x 0%nat = x0 /\ v 0%nat = v0 /\
    heston_path (P (h_mr h)) (P (h_theta h)) (P (h_volvol h)) (P (h_rho h)) F tol g z x v /\
    heston_sample_paths h times None None (Some g) tol z x0 v0 = Some (map (fun i => Some (Fin (x i), Fin (v i))) idx).
Proof.
  intros Ok Tl PG Ne Im I0 LI.
  assert (Mk : marks mask (length g) idx).
  { unfold prepare_grid in PG. destruct (all_some (map (nearest_index g) times)) as [l|]; [|discriminate PG]. destruct (scatter_mask l (length g)) as [m|] eqn:E; [|discriminate PG].
    assert (Q : m = mask /\ l = idx) by (split; congruence). destruct Q as [-> ->].
    assert (B : forall i, In i idx -> (i < length g)%nat). { unfold scatter_mask in E. destruct (forallb (fun i => Nat.ltb i (length g)) idx) eqn:FB; [|discriminate E]. rewrite forallb_forall in FB. intros i I. apply FB in I. apply Nat.ltb_lt in I. exact I. }
    destruct (scatter_marks idx (length g) B) as (m' & E' & M'). rewrite E in E'. assert (m' = mask) by congruence. subst m'. exact M'. }
  assert (LG : (1 < length g)%nat).
  { destruct Mk as (_ & M & _). assert (In (nth 0 idx 0%nat) idx) by (apply nth_In; destruct idx; [cbn in I0; lia|cbn; lia]). specialize (M _ H). lia. }
  exists (reduce_min (steps_dt g) / 2), (new_variance h g). split; [apply half_gap_ok; exact LG|]. cbv zeta. split; [intros i v _ D V; apply (new_variance_ok h tol g Ok Tl i v D V)|].
  intros z x0 v0 V0. destruct (path_states h tol g Ok Tl z x0 v0 V0) as (x & v & X0 & VV & ST & HP). exists x, v. split; [exact X0|]. split; [exact VV|]. split; [exact HP|].
  unfold heston_sample_paths, heston_prepare_grid. cbv zeta. rewrite PG, <- LI.
  change (Fin x0, Fin v0) with (run_states h tol z g (Fin x0, Fin v0) 0).
  rewrite (heston_run_ok h tol z g (run_states h tol z g (Fin x0, Fin v0))) with (idx := idx).
  - f_equal. apply map_ext_in. intros i I. destruct Mk as (_ & M & _). destruct (ST i (M i I)) as [-> _]. reflexivity.
  - intros i _. apply run_states_step.
  - exact Im.
  - exact Mk.
  - intros X. rewrite X in LI. destruct times; [contradiction|discriminate LI].
  - intros j J. destruct j; [exact I0|]. pose proof (increasing_nat_lt idx Im 0 (S j) ltac:(lia) J). lia.
Qed.
(** If it is, every state moves one place to the front: asked for times 0, 1, 2 on
    the grid 0, 1, 2, the caller gets the states at 1 and 2 and an entry that was
    never written. *)
Theorem C74_start_refuted h tol z x0 v0 :
  let X := run_states h tol z [0; 1; 2] (Fin x0, Fin v0) in
  heston_sample_paths h [0; 1; 2] None None (Some [0; 1; 2]) tol z x0 v0 = Some [Some (X 1%nat); Some (X 2%nat); None].
Proof.
  intros X. unfold heston_sample_paths, heston_prepare_grid, prepare_grid. cbn [map].
  assert (NI : map (nearest_index [0; 1; 2]) [0; 1; 2] = [Some 0; Some 1; Some 2]%nat).
  { unfold nearest_index. cbn [map searchsorted_left]. unfold rlt. rdec. cbn [gather nth_error Nat.pred].
    assert (A0 : Rabs (0 - 0) = 0) by (rewrite Rabs_right; lra). assert (A1 : Rabs (1 - 1) = 0) by (rewrite Rabs_right; lra). assert (A2 : Rabs (2 - 2) = 0) by (rewrite Rabs_right; lra).
    assert (A3 : Rabs (0 - 1) = 1) by (rewrite Rabs_left; lra). assert (A4 : Rabs (1 - 2) = 1) by (rewrite Rabs_left; lra). rewrite A0, A1, A2, A3, A4. rdec. reflexivity. }
  cbn [map] in NI. rewrite NI. cbn [all_some]. unfold scatter_mask. cbn [forallb length Nat.ltb Nat.leb andb seq map count_occ Nat.eq_dec].
  unfold heston_run. assert (LS : length (steps_dt [0; 1; 2]) = 2%nat) by reflexivity. rewrite LS.
  pose proof (run_states_step h tol z [0; 1; 2] (Fin x0, Fin v0) 0) as S0. pose proof (run_states_step h tol z [0; 1; 2] (Fin x0, Fin v0) 1) as S1. fold X in S0, S1.
  change (Fin x0, Fin v0) with (X 0%nat) at 1 2 3. clearbody X. cbn [Nat.eqb length repeat write]. cbn -[heston_step]. rewrite S0. cbn -[heston_step]. rewrite S1. reflexivity.
Qed.

(** Exactly one of time_step and num_time_steps has to be given. *)
Theorem C74_refused h times tol z x0 v0 :
  heston_sample_paths h times None None None tol z x0 v0 = None /\
  forall s n, heston_sample_paths h times (Some s) (Some n) None tol z x0 v0 = None.
Proof. split; reflexivity. Qed.

(** The hypotheses are met: two requested times, steps of 1/2, piecewise constant
    long run variance. *)
Example C74_ex_sampled : sampled two_regimes [3 / 4; 2] (1 / 1000000) (1 / 2) (heston_sample_paths two_regimes [3 / 4; 2] (Some (1 / 2)) None None (1 / 1000000)).
Proof.
  apply C74_time_step_partial; [exact two_regimes_ok|lra|lra|discriminate|cbn; lra| |].
  - intros i j L J. cbn in J. destruct i as [|[|i]], j as [|[|j]]; cbn; try lia; lra.
  - unfold additional_times. cbn. intros t H. repeat (destruct H as [H|H]; try (rewrite <- H; lra); try contradiction). all: try (destruct H; lra).
Qed.

Print Assumptions C74_dynamics.
Print Assumptions C74_variance_step.
Print Assumptions C74_moments.
Print Assumptions C74_no_volvol_refuted.
Print Assumptions C74_log_spot_step.
Print Assumptions C74_spot_mean.
Print Assumptions C74_martingale.
Print Assumptions C74_total_variance.
Print Assumptions C74_total_variance_constant.
Print Assumptions C74_time_step_partial.
Print Assumptions C74_num_steps_partial.
Print Assumptions C74_parameters.
Print Assumptions C74_jump_refuted.
Print Assumptions C74_given_grid_partial.
Print Assumptions C74_start_refuted.
Print Assumptions C74_refused.
