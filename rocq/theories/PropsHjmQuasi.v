(** C79: the quasi-Gaussian HJM model. *)
From Coquelicot Require Import Coquelicot.
From Coq Require Import ZArith Reals List Bool Arith Lia Lra.
From Verif Require Import TensorModel TensorProofs SegmentModel BrentModel ExtReal BootstrapModel TimeGridModel TimeGridSpec TimeGridProofs PropsTimeGrid EulerModel EulerSpec PropsEuler MvNormalSpec PropsMvNormal GbmModel GbmProofs
  HullWhiteBondSpec HullWhiteBondProofs PropsHullWhiteBond HjmModel HjmSpec HjmProofs HjmProofs2 PropsHjm HjmQuasiModel HjmQuasiSpec HjmQuasiProofs.
Import ListNotations.
Open Scope R_scope.

(** The discount factors of the initial curve. *)
Definition q_curve (h : qg) (T : R) : R := exp (- (q_rate h T * T)).

(** ** Coefficients *)
(** The coefficients of the process are those of the model, in the order x_i, then
    y_ij row by row; only the x are random. *)
Theorem C79_coefficients : forall h t z, let d := q_dim h in let x i := z (x_coord d i) in let y i j := z (y_coord d i j) in
  let sigma := q_vol h t (sum_to d x + q_forward h t) in
  dim (quasi_process h) = (d + d * d)%nat /\
  (forall i, (i < d)%nat -> q_drift h t z (x_coord d i) = x_drift d (q_mr h) x y i) /\
  (forall i j, (i < d)%nat -> (j < d)%nat -> q_drift h t z (y_coord d i j) = y_drift (q_mr h) sigma (q_rho h) y i j) /\
  (forall i l, (i < d)%nat -> (l < d)%nat -> q_vol_fn h t z (x_coord d i) l = sigma i * q_sqrt_rho h i l) /\
  (forall a l, (d <= a)%nat \/ (d <= l)%nat -> q_vol_fn h t z a l = 0).
Proof.
  intros h t z d x y sigma. assert (SG : q_vol h t (q_short_rate h t z) = sigma) by (unfold sigma, q_short_rate; rewrite rsum_is, Rplus_comm; reflexivity).
  split; [reflexivity|]. split; [|split; [|split]].
  - intros i Hi. unfold q_drift, x_drift, x_coord. cbv zeta. rewrite x_coord_lt by exact Hi. rewrite rsum_is. reflexivity.
  - intros i j Hi Hj. unfold q_drift, y_drift. cbv zeta. fold d. rewrite y_coord_ge, row_of, col_of by exact Hj. rewrite SG. unfold y, ys, y_coord. fold d. ring.
  - intros i l Hi Hl. unfold q_vol_fn, x_coord. fold d. rewrite !x_coord_lt by assumption. cbn [andb]. rewrite SG. ring.
  - intros a l [L|L]; unfold q_vol_fn; fold d; apply Nat.ltb_ge in L; rewrite L; [reflexivity|rewrite andb_false_r; reflexivity].
Qed.
Print Assumptions C79_coefficients.

(** ** Bond prices *)
Lemma q_reconstitution_is h x y t T : q_reconstitution h t T x y =
  q_curve h T / q_curve h t * exp (- sum_to (q_dim h) (fun i => x i * load (q_mr h) i t T) - sum_to (q_dim h) (fun i => sum_to (q_dim h) (fun j => load (q_mr h) i t T * y i j * load (q_mr h) j t T)) / 2).
Proof.
  unfold q_reconstitution, q_curve. cbv zeta. replace (- q_rate h T * T) with (- (q_rate h T * T)) by ring. replace (- q_rate h t * t) with (- (q_rate h t * t)) by ring. f_equal. f_equal. rewrite !rsum_is. unfold Rminus. f_equal.
  - f_equal. apply sums_ext. intros i _. unfold load. replace (- q_mr h i * (T + - t)) with (- (q_mr h i * (T - t))) by ring. reflexivity.
  - unfold Rdiv at 1. match goal with |- - (1 * / 2 * ?a) = - (?b / 2) => assert (E : a = b); [|rewrite E; field] end. apply sums_ext. intros i _. rewrite rsum_is, <- sums_scal. apply sums_ext. intros j _. unfold load.
    replace (- q_mr h i * (T + - t)) with (- (q_mr h i * (T - t))) by ring. replace (- q_mr h j * (T + - t)) with (- (q_mr h j * (T - t))) by ring. unfold Rminus. ring.
Qed.
Theorem C79_bond : forall h G x y t T, (forall i, (i < q_dim h)%nat -> q_mr h i <> 0) -> (forall i, (i < q_dim h)%nat -> loading (q_mr h i) (G i)) ->
  q_reconstitution h t T x y = bond_formula (q_dim h) (q_curve h) G (fun i j _ => y i j) x t T /\
  q_reconstitution h T T x y = 1.
Proof.
  intros h G x y t T K0 LG. assert (EL : forall i, (i < q_dim h)%nat -> load (q_mr h) i t T = G i t T) by (intros i Hi; symmetry; apply (loading_is (q_mr h i) (G i) t T (K0 i Hi) (LG i Hi))). split.
  - rewrite q_reconstitution_is. unfold bond_formula. f_equal. f_equal. f_equal; f_equal.
    + apply sums_ext. intros i Hi. rewrite EL by exact Hi. reflexivity.
    + apply sums_ext. intros i Hi. apply sums_ext. intros j Hj. rewrite !EL by assumption. reflexivity.
  - rewrite q_reconstitution_is. assert (LZ : forall i, (i < q_dim h)%nat -> load (q_mr h) i T T = 0) by (intros i Hi; unfold load; replace (- (q_mr h i * (T - T))) with 0 by ring; rewrite exp_0; field; apply K0, Hi).
    rewrite !sums_zero.
    + unfold q_curve. replace (- 0 - 0 / 2) with 0 by field. rewrite exp_0. field. pose proof (exp_pos (- (q_rate h T * T))). lra.
    + intros i Hi. apply sums_zero. intros j Hj. rewrite (LZ i Hi). ring.
    + intros i Hi. rewrite (LZ i Hi). ring.
Qed.
Print Assumptions C79_bond.
(** For every volatility function of time and short rate, the bond prices solve
    the pricing equation of the process at every state with symmetric y. *)
Theorem C79_pricing_equation : forall h t T z, let d := q_dim h in let x i := z (x_coord d i) in let y i j := z (y_coord d i j) in
  (forall i, (i < d)%nat -> q_mr h i <> 0) -> factor_of d (q_sqrt_rho h) (q_rho h) -> is_derive (fun u => q_rate h u * u) t (q_forward h t) ->
  (forall i j, (i < d)%nat -> (j < d)%nat -> y i j = y j i) ->
  pricing_equation (d + d * d) (q_drift h t z) (q_vol_fn h t z) (sum_to d x + q_forward h t) (fun u w => q_reconstitution h u T (fun i => w (x_coord d i)) (fun i j => w (y_coord d i j))) t z.
Proof.
  intros h t T z d x y K0 FA FW SY. pose proof (q_pricing h t T K0 FW z SY FA) as Q. unfold q_short_rate in Q. rewrite rsum_is, Rplus_comm in Q. exact Q.
Qed.
Print Assumptions C79_pricing_equation.

(** ** Simulation *)
(** What the lists of results hold for requested time number k, whose grid point
    has the index i. *)
Definition q_outputs_ok (h : qg) (grid : nat -> R) (X : nat -> nat -> nat -> R) (Y : nat -> nat -> nat -> nat -> R) (o : q_outputs) (k i : nat) : Prop :=
  forall s, let r j := sum_to (q_dim h) (X s j) + q_forward h (grid j) in
    (forall a, (a < q_dim h)%nat -> nth k (qo_x o) (fun _ _ => 0) s a = X s i a) /\
    (forall a b, (a < q_dim h)%nat -> (b < q_dim h)%nat -> nth k (qo_y o) (fun _ _ _ => 0) s a b = Y s i a b) /\
    nth k (qo_rate o) (fun _ => 0) s = r i /\ nth k (qo_discount o) (fun _ => NaN) s = Fin (discount_after r grid i).
Lemma q_outputs_read h grid X idx k : (k < length idx)%nat -> (nth k idx 0 < length grid)%nat ->
  let paths := map X (seq 0 (length grid)) in
  q_outputs_ok h (fun n => nth n grid 0) (fun s n => xs (X n s)) (fun s n => ys h (X n s))
    (QOutputs (map (fun i s => nth i (q_rate_path h grid paths s) 0) idx) (map (fun i s => nth i (q_discount_path h grid paths s) NaN) idx)
       (map (fun i s => xs (nth i paths (fun _ _ => 0) s)) idx) (map (fun i s => ys h (nth i paths (fun _ _ => 0) s)) idx)) k (nth k idx 0%nat).
Proof.
  intros Hk Hi paths s r. assert (PX : nth (nth k idx 0%nat) paths (fun _ _ => 0) = X (nth k idx 0%nat)).
  { unfold paths. rewrite (nth_indep (map X _) _ (X 0%nat)) by (rewrite map_length, seq_length; exact Hi). rewrite map_nth, seq_nth by exact Hi. reflexivity. }
  split; [|split; [|split]].
  - intros a _. cbn [qo_x]. set (F := fun i s => xs (nth i paths (fun _ _ => 0) s)). rewrite (nth_indep (map F idx) _ (F 0%nat)) by (rewrite map_length; exact Hk). rewrite map_nth. unfold F. rewrite PX. reflexivity.
  - intros a b _ _. cbn [qo_y]. set (F := fun i s => ys h (nth i paths (fun _ _ => 0) s)). rewrite (nth_indep (map F idx) _ (F 0%nat)) by (rewrite map_length; exact Hk). rewrite map_nth. unfold F. rewrite PX. reflexivity.
  - cbn [qo_rate]. set (F := fun i s => nth i (q_rate_path h grid paths s) 0). rewrite (nth_indep (map F idx) _ (F 0%nat)) by (rewrite map_length; exact Hk). rewrite map_nth. unfold F, paths. rewrite q_rate_at by exact Hi. reflexivity.
  - cbn [qo_discount]. set (F := fun i s => nth i (q_discount_path h grid paths s) NaN). rewrite (nth_indep (map F idx) _ (F 0%nat)) by (rewrite map_length; exact Hk). rewrite map_nth. unfold F, paths. rewrite q_discount_at by exact Hi. reflexivity.
Qed.
(** The states of a sample follow the Euler scheme. *)
Definition follows (h : qg) (grid : nat -> R) (z : nat -> nat -> R) : (nat -> nat -> R) -> (nat -> nat -> nat -> R) -> Prop :=
  quasi_states (q_dim h) (q_mr h) (q_vol h) (q_rho h) (q_sqrt_rho h) (q_forward h) grid z.
(** With a time step. *)
Theorem C79_paths : forall h unwritten times step tol draws, times <> [] -> gaps_above (2 * tol) times -> 0 <= nth 0 times 0 -> 2 * tol < step -> 0 < step -> 0 <= tol < 1 ->
  exists grid idx o X Y, q_sample_paths h unwritten times (Some step) None tol draws = Some o /\
    nth 0 grid 0 = 0 /\ gaps_above tol grid /\ gaps_at_most (step + tol) grid /\
    (forall s, follows h (fun n => nth n grid 0) (fun n => draws n s) (X s) (Y s)) /\
    forall k, (k < length times)%nat -> let i := nth k idx 0%nat in (i < length grid)%nat /\ 0 <= nth k times 0 - nth i grid 0 <= tol /\ q_outputs_ok h (fun n => nth n grid 0) X Y o k i.
Proof.
  intros h uw times step tol draws TN TG T0 S2 S0 TT. assert (TI : increasing times) by (apply (gaps_increasing (2 * tol)); [lra|exact TG]).
  destruct (C45_time_step times step tol TN TI T0 S0 TT) as (grid & mask & idx & E & G0 & GA & GI & LI & LN & MK). destruct (C45_time_step_close times step tol grid mask idx TN TG T0 S2 S0 TT E) as (CL & _ & GM & _ & _).
  set (Z := end_path (quasi_process h) (fun n => nth n grid 0) draws (fun _ _ => 0)).
  exists grid, idx. eexists. exists (fun s n => xs (Z n s)), (fun s n => ys h (Z n s)). split; [|split; [exact G0|split; [exact GA|split; [exact GM|split; [intros s; apply quasi_path|]]]]].
  - unfold q_sample_paths. destruct times as [|t0 tl]; [contradiction|]. cbv zeta. rewrite E. rewrite (euler_all (quasi_process h) (t0 :: tl) step tol draws (fun _ _ => 0) grid mask idx TN TG T0 S2 S0 TT E). fold Z. rewrite written_all. reflexivity.
  - intros k Hk. cbv zeta. assert (Hi : (nth k idx 0 < length grid)%nat) by (apply (LN k Hk)). split; [exact Hi|]. split; [apply CL, Hk|]. apply q_outputs_read; [rewrite LI; exact Hk|exact Hi].
Qed.
Print Assumptions C79_paths.
(** With a number of steps, provided that no point of the grid is repeated; the
    first draw is not used. *)
Theorem C79_paths_num_steps : forall h unwritten times n tol draws grid mask idx, times <> [] -> increasing times -> 0 <= nth 0 times 0 ->
  prepare_grid times (last times 0 / INR n) tol (Some n) None = Some (grid, mask, idx) -> increasing grid ->
  exists o X Y, q_sample_paths h unwritten times None (Some n) tol draws = Some o /\
    (forall s, follows h (fun n => nth n grid 0) (fun n => draws (S n) s) (X s) (Y s)) /\
    forall k, (k < length times)%nat -> let i := nth k idx 0%nat in (i < length grid)%nat /\ nth i grid 0 = nth k times 0 /\ q_outputs_ok h (fun n => nth n grid 0) X Y o k i.
Proof.
  intros h uw times n tol draws grid mask idx TN TI T0 E INC.
  set (Z := end_path (quasi_process h) (fun n => nth n grid 0) (fun i => draws (S i)) (fun _ _ => 0)).
  eexists. exists (fun s n => xs (Z n s)), (fun s n => ys h (Z n s)). split; [|split; [intros s; apply (quasi_path h _ (fun i => draws (S i)) s)|]].
  - unfold q_sample_paths. destruct times as [|t0 tl]; [contradiction|]. cbv zeta. rewrite E. rewrite (euler_all_num (quasi_process h) (t0 :: tl) n _ tol draws (fun _ _ => 0) grid mask idx E INC). fold Z. rewrite written_all. reflexivity.
  - intros k Hk. cbv zeta. destruct (num_grid_index times n tol grid mask idx TN E INC) as (LI & IX). destruct (IX k Hk) as (Hi & EV). split; [exact Hi|]. split; [exact EV|]. apply q_outputs_read; [rewrite LI; exact Hk|exact Hi].
Qed.
Print Assumptions C79_paths_num_steps.
(** The step arguments exclude each other. *)
Theorem C79_one_step_argument : forall h unwritten times step n tol draws, q_sample_paths h unwritten times (Some step) (Some n) tol draws = None /\ q_sample_paths h unwritten times None None tol draws = None.
Proof. intros. unfold q_sample_paths. destruct times; [split; reflexivity|]. split; [|reflexivity]. cbv zeta. destruct (prepare_grid _ _ _ _ _) as [[[grid mask] idx]|]; reflexivity. Qed.
Print Assumptions C79_one_step_argument.
(** Along the paths y is symmetric, and its diagonal is not negative when the
    steps are at most 1 / (2 k_i); if the volatility does not depend on the rate, y
    does not depend on the draws. *)
Theorem C79_state : forall h grid z X Y, follows h grid z X Y -> let d := q_dim h in
  ((forall i j, (i < d)%nat -> (j < d)%nat -> q_rho h i j = q_rho h j i) -> forall n i j, (i < d)%nat -> (j < d)%nat -> Y n i j = Y n j i) /\
  (forall i, (i < d)%nat -> 0 <= q_rho h i i -> (forall n, 0 <= grid (S n) - grid n /\ 2 * q_mr h i * (grid (S n) - grid n) <= 1) -> forall n, 0 <= Y n i i) /\
  ((forall t r r' i, (i < d)%nat -> q_vol h t r i = q_vol h t r' i) -> forall z' X' Y', follows h grid z' X' Y' -> forall n i j, (i < d)%nat -> (j < d)%nat -> Y n i j = Y' n i j).
Proof.
  intros h grid z X Y (X0 & Y0 & ST) d. split; [|split].
  - intros SY. induction n as [|n IH]; intros i j Hi Hj; [rewrite !Y0 by assumption; reflexivity|]. destruct (ST n) as (_ & SN). rewrite !SN by assumption. unfold y_drift. rewrite (IH i j), (SY i j) by assumption. ring.
  - intros i Hi RP SM. induction n as [|n IH]; [rewrite Y0 by assumption; lra|]. destruct (ST n) as (_ & SN). rewrite SN by assumption. unfold y_drift. destruct (SM n) as (D0 & D1).
    match goal with |- context [q_vol h ?a ?b] => set (s := q_vol h a b i) end. set (dt := grid (S n) - grid n) in *.
    replace (Y n i i + _) with (Y n i i * (1 - 2 * q_mr h i * dt) + q_rho h i i * (s * s) * dt) by ring.
    apply Rplus_le_le_0_compat; [apply Rmult_le_pos; lra|]. apply Rmult_le_pos; [apply Rmult_le_pos; [exact RP|apply Rle_0_sqr]|exact D0].
  - intros NR z' X' Y' (X0' & Y0' & ST'). induction n as [|n IH]; intros i j Hi Hj; [rewrite Y0, Y0' by assumption; reflexivity|]. destruct (ST n) as (_ & SN). destruct (ST' n) as (_ & SN'). rewrite SN, SN' by assumption. unfold y_drift. rewrite IH by assumption.
    set (r := sum_to (q_dim h) (X n) + _). set (r' := sum_to (q_dim h) (X' n) + _). rewrite (NR _ r r' i Hi), (NR _ r r' j Hj). reflexivity.
Qed.
Print Assumptions C79_state.
(** Discount curves along the paths: the bond prices at the simulated states. *)
Theorem C79_curve_paths : forall h unwritten times curve_times time_step num_time_steps tol draws o, (forall i, (i < q_dim h)%nat -> q_mr h i <> 0) ->
  q_sample_paths h unwritten times time_step num_time_steps tol draws = Some o ->
  exists p, q_sample_discount_curve_paths h unwritten times curve_times time_step num_time_steps tol draws = Some (p, qo_rate o, qo_discount o) /\
    forall G i m s, (forall j, (j < q_dim h)%nat -> loading (q_mr h j) (G j)) -> let t := nth i times 0 in
      p s m i = bond_formula (q_dim h) (q_curve h) G (fun a b _ => nth i (qo_y o) (fun _ _ _ => 0) s a b) (nth i (qo_x o) (fun _ _ => 0) s) t (t + nth m curve_times 0).
Proof.
  intros h uw times ct ts ns tol draws o K0 E. unfold q_sample_discount_curve_paths. rewrite E. eexists. split; [reflexivity|]. intros G i m s LG. cbv beta zeta. apply (C79_bond h G _ _ _ _ K0 LG).
Qed.
Print Assumptions C79_curve_paths.

(** ** The correlation matrix *)
(** With eigenvalues of at least 1e-5 the Cholesky factor is used, otherwise the
    product of the factor is within 1e-5 of a positive semidefinite matrix. *)
Theorem C79_correlation : forall d cholesky e v rho L, eigen_decomposition d e v rho -> (forall l, cholesky rho = Some l -> factor_of d l rho) -> valid_sqrt_matrix d cholesky e v rho = Some L ->
  ((forall l, (l < d)%nat -> 1 / 100000 <= e l) -> factor_of d L rho) /\
  ((forall l, (l < d)%nat -> 0 <= e l) -> forall i j, (i < d)%nat -> (j < d)%nat -> Rabs (sum_to d (fun l => L i l * L j l) - rho i j) <= 1 / 100000).
Proof.
  intros d ch e v rho L ED CH E. unfold valid_sqrt_matrix in E. destruct (existsb _ _) eqn:EX.
  - change (Some (root d e v) = Some L) in E. assert (EL : root d e v = L) by (injection E; trivial). rewrite <- EL. split.
    + intros P. exfalso. apply existsb_exists in EX. destruct EX as (l & IL & BL). apply in_seq in IL. specialize (P l ltac:(lia)). destruct (Rlt_dec (e l) (1 / 100000)); [lra|discriminate].
    + intros P i j Hi Hj. apply (root_close d e v rho ED); assumption.
  - specialize (CH L E). split; [intros _; exact CH|]. intros _ i j Hi Hj. rewrite (CH i j Hi Hj). unfold Rminus. rewrite Rplus_opp_r, Rabs_R0. lra.
Qed.
Print Assumptions C79_correlation.
(** With an eigenvalue below 1e-5 (for instance with two perfectly correlated
    factors) the factors get variances that are too large: the trace of L L^T
    exceeds that of the matrix, so L is not a factor of it. *)
Theorem C79_correlation_refuted : forall d cholesky e v rho l, eigen_decomposition d e v rho -> (l < d)%nat -> e l < 1 / 100000 ->
  exists L, valid_sqrt_matrix d cholesky e v rho = Some L /\ sum_to d (fun i => rho i i) < sum_to d (fun i => sum_to d (fun m => L i m * L i m)) /\ ~ factor_of d L rho.
Proof.
  intros d ch e v rho l ED Hl L. unfold valid_sqrt_matrix. assert (EX : existsb (fun l => if Rlt_dec (e l) (1 / 100000) then true else false) (seq 0 d) = true).
  { apply existsb_exists. exists l. split; [apply in_seq; lia|]. destruct (Rlt_dec (e l) (1 / 100000)); [reflexivity|contradiction]. }
  rewrite EX. cbv zeta. eexists. split; [reflexivity|]. pose proof (root_trace d e v rho ED l Hl L) as TR. split; [exact TR|].
  intros F. apply (Rlt_irrefl (sum_to d (fun i => rho i i))). eapply Rlt_le_trans; [exact TR|]. apply Req_le. apply sums_ext. intros i Hi. apply (F i i Hi Hi).
Qed.
Print Assumptions C79_correlation_refuted.
Example perfect_correlation : eigen_decomposition 2 (fun l => if Nat.eqb l 0 then 0 else 2) (fun i l => match i, l with O, O => 1 / sqrt 2 | 1%nat, O => - (1 / sqrt 2) | _, _ => 1 / sqrt 2 end) (fun _ _ => 1).
Proof.
  assert (S0 : sqrt 2 <> 0) by (pose proof (sqrt_lt_R0 2 ltac:(lra)); lra). assert (S2 : 1 / sqrt 2 * (1 / sqrt 2) = 1 / 2) by (transitivity (1 / (sqrt 2 * sqrt 2)); [field; exact S0|rewrite sqrt_sqrt by lra; reflexivity]).
  set (q := 1 / sqrt 2) in *. split; [|split]; intros i j Hi Hj; (destruct i as [|[|i]]; [| |lia]); (destruct j as [|[|j]]; [| |lia]); cbn [sum_to Nat.eqb]; lra.
Qed.

(** ** An example *)
(** Two factors with the correlation 1/2 and volatilities that grow with the rate. *)
Definition cheyette : qg := QG 2 (fun i => INR i + 1 / 2) (fun _ r i => if Nat.eqb i 0 then 1 / 100 + r * r else 1 / 50) half_rho half_factor (fun _ => 1 / 20) (fun _ => 1 / 20).
Example cheyette_pricing : forall z, z 3%nat = z 4%nat -> pricing_equation 6 (q_drift cheyette 1 z) (q_vol_fn cheyette 1 z) (z 0%nat + z 1%nat + 1 / 20) (fun u w => q_reconstitution cheyette u 5 (fun i => w i) (fun i j => w (2 + (i * 2 + j))%nat)) 1 z.
Proof.
  intros z EZ. assert (S3 : sqrt 3 * sqrt 3 = 3) by (apply sqrt_sqrt; lra). pose proof (C79_pricing_equation cheyette 1 5 z) as Q. cbn [cheyette q_dim q_mr q_rho q_sqrt_rho q_rate q_forward] in Q. fold cheyette in Q. cbn [sum_to plus mult] in Q. unfold x_coord in Q.
  replace (0 + z 0%nat) with (z 0%nat) in Q by ring. apply Q.
  - intros i _. pose proof (pos_INR i). lra.
  - intros i j Hi Hj. destruct i as [|[|i]]; [| |lia]; (destruct j as [|[|j]]; [| |lia]); cbn [sum_to half_factor half_rho Nat.eqb]; lra.
  - auto_derive; [exact Logic.I|ring].
  - intros i j Hi Hj. unfold y_coord. destruct i as [|[|i]]; [| |lia]; (destruct j as [|[|j]]; [| |lia]); cbn [plus mult]; try reflexivity; [exact EZ|symmetry; exact EZ].
Qed.
Example cheyette_paths : forall draws, exists o, q_sample_paths cheyette None [1; 2] (Some (1 / 2)) None (1 / 1000) draws = Some o.
Proof.
  intros draws. destruct (C79_paths cheyette None [1; 2] (1 / 2) (1 / 1000) draws) as (grid & idx & o & X & Y & E & _); [discriminate| |cbn; lra|lra|lra|lra|exists o; exact E].
  intros i Hi. cbn [length] in Hi. destruct i as [|i]; [cbn; lra|lia].
Qed.
