(** Theorems for C92: short times, precomputed surfaces, quotes and the process. *)
From Coquelicot Require Import Coquelicot.
From Coq Require Import Reals List Bool Arith ZArith Lra Lia Psatz.
From Verif Require Import TensorModel TensorProofs SegmentModel InterpModel CubicSpec PropsCubic BrentModel ExtReal HaganWestModel BootstrapModel BlackScholesModel BlackScholesSpec
  NormalProofs BlackScholesProofs BarrierProofs ImpliedVolProofs SabrProofs PiecewiseModel TimeGridModel Interp2dModel PropsInterp2d SegmentProofs EulerModel EulerSpec PropsEuler
  LocalVolModel LocalVolSpec LocalVolProofs PropsLocalVol.
Import ListNotations.
Open Scope R_scope.

(** ** Short times *)
(** At time 0 the implied-volatility form returns the implied volatility. *)
Theorem C92_start S0 q D sigma k r : 0 < S0 -> 0 < k -> 0 < sigma 0 k -> curve_at D 0 r -> dupire_iv S0 q D sigma 0 k = Fin (sigma 0 k).
Proof.
  intros PS PK PV CU. unfold dupire_iv. rewrite (rate_value D 0 r CU). unfold fwd_gradient. cbn [is_finite].
  set (a := Derive _ 0). set (b := Derive _ k). set (c := Derive _ k).
  assert (ED : d1_of S0 q (Fin r) (Fin (sigma 0 k)) 0 k = Fin 0).
  { unfold d1_of. rewrite (xsqrt_ok 0) by lra. rewrite sqrt_0. unfold xdivide_no_nan. cbn [xzero].
    unfold req. destruct (Req_EM_T 0 0); [reflexivity|congruence]. }
  rewrite ED. unfold iv_numerator, iv_denominator, xsub, xsquare. cbn [xopp xadd xmul].
  match goal with |- context [xdivide_no_nan (Fin ?n) (Fin ?d)] => replace n with (sigma 0 k ^ 2) by ring; replace d with 1 by ring end.
  rewrite xdnn by lra. rewrite sqrt_relu. f_equal. unfold Rdiv. rewrite Rinv_1, Rmult_1_r, Rmax_left by nra. apply sqrt_pow2. lra.
Qed.

(** The limit of the price form for short times and a constant rate. *)
Lemma constant_rate r t : curve_at (fun u => exp (- (r * u))) t r.
Proof. split; [apply exp_pos|]. auto_derive; [exact I|ring]. Qed.
Definition short_u (S0 r q v k t : R) : R := (ln (S0 / k) + (r - q + v ^ 2 / 2) * t) / v.
Lemma short_butterfly S0 q r v v_k v_kk t k : 0 < S0 -> 0 < k -> 0 < v -> 0 < t ->
  butterfly (forward_of S0 q (fun u => exp (- (r * u))) t) v v_k v_kk t k
  = (1 + k * v_k * short_u S0 r q v k t) ^ 2 + k ^ 2 * t * v * (v_kk - short_u S0 r q v k t * v_k ^ 2).
Proof.
  intros PS PK PV PT. assert (SQ : 0 < sqrt t) by (apply sqrt_lt_R0; exact PT).
  assert (E : d1 (forward_of S0 q (fun u => exp (- (r * u))) t) v t k * sqrt t = short_u S0 r q v k t).
  { unfold d1, short_u, forward_of. replace (S0 * exp (- (q * t)) / exp (- (r * t)) / k) with (S0 / k * exp ((r - q) * t)).
    - rewrite ln_mult, ln_exp by (try apply exp_pos; apply Rdiv_lt_0_compat; assumption). field. lra.
    - replace ((r - q) * t) with (- (q * t) + - - (r * t)) by ring. rewrite exp_plus, (exp_Ropp (- (r * t))).
      assert (Z := exp_pos (- (r * t))). field. lra. }
  unfold butterfly. rewrite <- E. ring.
Qed.
Theorem C92_short_time S0 q r f k f' f'' : 0 < S0 -> 0 < k -> 0 < f k ->
  (exists slope, locally k (fun y => is_derive f y (slope y)) /\ slope k = f' /\ is_derive slope k f'') ->
  1 + k * f' * (ln (S0 / k) / f k) <> 0 ->
  filterlim (fun t => real_of (dupire_prices S0 q (fun u => exp (- (r * u))) (fun _ y => f y) t k)) (at_right 0)
    (locally (f k / Rabs (1 + k * f' * (ln (S0 / k) / f k)))).
Proof.
  intros PS PK PV SL NZ.
  set (a := fun t => f k ^ 2 + 2 * (r - q) * k * t * f k * f').
  set (b := fun t => (1 + k * f' * short_u S0 r q (f k) k t) ^ 2 + k ^ 2 * t * f k * (f'' - short_u S0 r q (f k) k t * f' ^ 2)).
  assert (Ca : continuous a 0) by (apply (ex_derive_continuous (V := R_NormedModule)); unfold a; auto_derive; exact I).
  assert (Cb : continuous b 0) by (apply (ex_derive_continuous (V := R_NormedModule)); unfold b, short_u; auto_derive; exact I).
  assert (b0 : b 0 = (1 + k * f' * (ln (S0 / k) / f k)) ^ 2).
  { unfold b, short_u. replace (ln (S0 / k) + (r - q + f k ^ 2 / 2) * 0) with (ln (S0 / k)) by ring. ring. }
  assert (Pb : 0 < b 0). { rewrite b0. apply pow2_gt_0. exact NZ. }
  assert (a0 : a 0 = f k ^ 2) by (unfold a; ring). assert (Pa : 0 < a 0) by (rewrite a0; apply pow_lt; exact PV).
  assert (La := locally_pos a 0 Ca Pa). assert (Lb := locally_pos b 0 Cb Pb).
  assert (CQ : continuous (fun t => sqrt (a t / b t)) 0).
  { apply (continuous_comp (U := R_UniformSpace) (V := R_UniformSpace) (W := R_UniformSpace) (fun t => a t / b t) sqrt).
    - apply (continuous_mult (K := R_AbsRing) a (fun t => / b t)); [exact Ca|].
      apply (continuous_comp (U := R_UniformSpace) (V := R_UniformSpace) (W := R_UniformSpace) b Rinv); [exact Cb|].
      apply continuous_Rinv. lra.
    - apply continuous_sqrt. }
  assert (VAL : sqrt (a 0 / b 0) = f k / Rabs (1 + k * f' * (ln (S0 / k) / f k))).
  { rewrite a0, b0. rewrite sqrt_div by (try apply pow2_gt_0; try exact NZ; apply Rlt_le, pow_lt; exact PV).
    rewrite sqrt_pow2 by lra. f_equal. rewrite <- Rsqr_pow2. apply sqrt_Rsqr_abs. }
  rewrite <- VAL.
  apply (filterlim_ext_loc (fun t => sqrt (a t / b t))).
  - unfold at_right, within. refine (filter_imp _ _ _ (filter_and _ _ La Lb)). cbv beta. intros t (P1 & P2) PT.
    assert (SU : surface_at (fun _ y => f y) t k 0 f' f'').
    { split; [exact PV|]. split; [apply (is_derive_const (V := R_NormedModule))|]. exact SL. }
    assert (EB := short_butterfly S0 q r (f k) f' f'' t k PS PK PV PT). fold (b t) in EB.
    assert (EA : calendar r q (f k) 0 f' t k = a t) by (unfold calendar, a; ring).
    rewrite (prices_value S0 q _ _ t k r 0 f' f'' PS PT PK (constant_rate r t) SU) by (cbv beta; rewrite EB; lra).
    cbn [real_of]. rewrite EB, EA. rewrite Rmax_left; [reflexivity|]. apply Rlt_le, Rdiv_lt_0_compat; assumption.
  - intros P HP. specialize (CQ P HP). unfold filtermap, at_right, within in *. refine (filter_imp _ _ _ CQ). intros y H _. exact H.
Qed.

(** At a strike of twice the spot the implied-volatility form starts from the
    implied volatility, the price form from less than half of it. *)
Theorem C92_start_refuted : dupire_iv 1 0 (fun _ => 1) skew 0 2 = Fin (1 / 10) /\
  exists l, filterlim (fun t => real_of (dupire_prices 1 0 (fun u => exp (- (0 * u))) skew t 2)) (at_right 0) (locally l) /\ l < 1 / 20.
Proof.
  assert (V : skew 0 2 = 1 / 10) by (unfold skew; field).
  assert (L2 : 1 / 2 < ln 2). { assert (Z := ln_lt_2). lra. }
  split; [rewrite (C92_start 1 0 _ skew 2 0); try lra; [rewrite V; reflexivity|apply no_rates]|].
  exists (1 / 10 / Rabs (1 + 2 * - (1 / 10) * (ln (1 / 2) / (1 / 10)))).
  assert (LH : ln (1 / 2) = - ln 2) by (replace (1 / 2) with (/ 2) by field; apply ln_Rinv; lra).
  assert (E : 1 + 2 * - (1 / 10) * (ln (1 / 2) / (1 / 10)) = 1 + 2 * ln 2) by (rewrite LH; field).
  split.
  - assert (T := C92_short_time 1 0 0 (fun y => skew 0 y) 2 (- (1 / 10)) 0). cbv beta in T. rewrite V in T. apply T; try lra.
    + destruct (skew_at 0 2) as (_ & _ & SL); [lra|]. exact SL.
  - rewrite E, Rabs_right by lra. apply (Rmult_lt_reg_r (1 + 2 * ln 2)); [lra|]. replace (1 / 10 / (1 + 2 * ln 2) * (1 + 2 * ln 2)) with (1 / 10) by (field; lra). lra.
Qed.

(** ** Precomputed surfaces *)
Lemma constant_spline xs c : (2 <= length xs)%nat -> incr xs -> exists s, spline_build xs (map (fun _ => c) xs) NATURAL = Some s /\ forall x, cubic_interpolate false s x = c.
Proof.
  intros L2 IN. assert (KN : knots xs (map (fun _ => c) xs)) by (split; [apply map_length|split; [exact L2|exact IN]]).
  assert (NC : forall k, (k < length xs)%nat -> nth k (map (fun _ => c) xs) 0 = c).
  { intros k LK. rewrite (nth_indep _ 0 ((fun _ : R => c) 0)) by (rewrite map_length; exact LK). exact (map_nth (fun _ : R => c) xs 0 k). }
  destruct (row_spline _ _ KN) as (s & B & _ & _ & LO & HI). exists s. split; [exact B|]. intros x.
  destruct (Rlt_dec x (nth 0 xs 0)) as [A|A]; [rewrite LO by exact A; apply NC; lia|].
  destruct (Rlt_dec (nth (length xs - 1) xs 0) x) as [A2|A2]; [rewrite HI by exact A2; apply NC; lia|].
  destruct (C23_linear_data false xs (map (fun _ => c) xs) c 0 NATURAL x KN) as (s' & B' & V).
  - intros k LK. rewrite NC by exact LK. ring.
  - left; reflexivity.
  - lra.
  - assert (s' = s) by congruence. subst s'. rewrite V. ring.
Qed.
Lemma constant_rows xs (h : R -> R) ts : (2 <= length xs)%nat -> incr xs ->
  exists ss, build_rows (map (fun row => (xs, row)) (map (fun t => map (fun _ => h t) xs) ts)) = Some ss /\
  forall i, (i < length ts)%nat -> exists s, nth_error ss i = Some s /\ forall x, cubic_interpolate false s x = h (nth i ts 0).
Proof.
  intros L2 IN. induction ts as [|t ts IH].
  - exists []. split; [reflexivity|]. cbn. intros i Li. lia.
  - destruct IH as (ss & B & V). destruct (constant_spline xs (h t) L2 IN) as (s & BS & VS). exists (s :: ss). split.
    + unfold build_rows in *. cbn [map fst snd all_some]. rewrite BS, B. reflexivity.
    + intros [|i] Li; [exists s; split; [reflexivity|exact VS]|]. cbn in Li. apply V. lia.
Qed.
Lemma grid_index_of ts t i : nondecr (tl ts) -> (i < length ts)%nat -> (i = 0%nat \/ nth i ts 0 < t) -> ((S i < length ts)%nat -> t <= nth (S i) ts 0) -> grid_index ts t = i.
Proof.
  intros ND LI LO HI. destruct ts as [|t0 ts]; [cbn in LI; lia|]. cbn [tl] in ND. unfold grid_index. cbn [tl]. cbn [length] in LI, HI. cbn [nth] in HI.
  destruct (Nat.lt_trichotomy (searchsorted_left ts t) i) as [A|[A|A]]; [|exact A|].
  - destruct LO as [->|LO]; [lia|]. destruct i as [|j]; [lia|]. cbn [nth] in LO.
    assert (B := ssl_above ts t ND j). assert (t <= at_ ts j) by (apply B; lia). unfold at_ in *. lra.
  - assert (LE := ssl_le ts t). assert (B := ssl_below ts t i A). assert (C : t <= nth i ts 0) by (apply HI; lia). unfold at_ in B. lra.
Qed.

(** For a surface without a smile: between two times of the grid the implied
    volatility and its slope are those of the earlier one. *)
Theorem C92_precomputed S0 q D g g' ts xs t k r i : 0 < S0 -> 0 < k -> 0 < t -> curve_at D t r -> (2 <= length xs)%nat -> incr xs -> nondecr ts ->
  (i < length ts)%nat -> (i = 0%nat \/ nth i ts 0 < t) -> ((S i < length ts)%nat -> t <= nth (S i) ts 0) ->
  (forall u, In u ts -> 0 < g u /\ is_derive g u (g' u)) ->
  let u := nth i ts 0 in
  dupire_iv_precomputed S0 q D (fun u _ => g u) ts xs t k = Some (Fin (sqrt (Rmax (g u ^ 2 + 2 * t * g u * g' u) 0))).
Proof.
  intros PS PK PT CU L2 IN ND LI LO HI SM u.
  assert (ND' : nondecr (tl ts)). { destruct ts as [|a l]; [exact ND|]. intros j Lj. apply (ND (S j)). cbn in *. lia. }
  assert (GI := grid_index_of ts t i ND' LI LO HI).
  assert (IU : In u ts) by (apply nth_In; exact LI). destruct (SM u IU) as (PG & _).
  destruct (constant_rows xs g ts L2 IN) as (ss & B & V). destruct (V i LI) as (s & NS & VS). fold u in VS.
  destruct (constant_rows xs g' ts L2 IN) as (ss' & B' & V'). destruct (V' i LI) as (s' & NS' & VS'). fold u in VS'.
  assert (E' : vol_grad_rows (fun u _ => g u) ts xs = map (fun t => map (fun _ => g' t) xs) ts).
  { unfold vol_grad_rows. apply map_ext_in. intros w IW. apply map_ext. intros y. destruct (SM w IW) as (_ & DG).
    unfold fwd_gradient. cbn [is_finite real_of]. apply is_derive_unique. exact DG. }
  unfold dupire_iv_precomputed. change (vol_rows (fun u _ => g u) ts xs) with (map (fun t => map (fun _ : R => g t) xs) ts).
  assert (B2 : build_rows (map (fun row => (xs, row)) (vol_grad_rows (fun u _ => g u) ts xs)) = Some ss') by (rewrite E'; exact B').
  rewrite B, B2, GI, NS, NS', (rate_value D t r CU).
  assert (D0 : forall y, fwd_gradient (fun z => Fin (cubic_interpolate false s z)) y = Fin 0).
  { intros y. apply gradient_value; [reflexivity|]. apply (is_derive_ext (fun _ => g u)); [intros z; cbn [real_of]; symmetry; apply VS|].
    apply (is_derive_const (V := R_NormedModule)). }
  assert (D00 : fwd_gradient (fun y => fwd_gradient (fun z => Fin (cubic_interpolate false s z)) y) k = Fin 0).
  { apply gradient_value; [rewrite D0; reflexivity|]. apply (is_derive_ext (fun _ => 0)); [intros z; rewrite D0; reflexivity|].
    apply (is_derive_const (V := R_NormedModule)). }
  rewrite D0, D00, VS, VS'. f_equal.
  assert (D1 : d1_of S0 q (Fin r) (Fin (g u)) t k = Fin (code_d1 S0 q (fun _ _ => g u) t k r)).
  { apply (d1_value S0 q (fun _ _ => g u) t k r 0 0 0 PS PT PK). apply (flat_surface (fun _ => g u)); [exact PG|]. apply (is_derive_const (V := R_NormedModule)). }
  rewrite D1. unfold iv_numerator, iv_denominator, xsub, xsquare. cbn [xopp xadd xmul].
  match goal with |- context [Fin ?n /x Fin ?d] => replace n with (g u ^ 2 + 2 * t * g u * g' u) by ring; replace d with 1 by ring end.
  rewrite xdiv_ok by lra. rewrite sqrt_relu. do 3 f_equal. field.
Qed.

(** At the second time of the grid the volatility quoted for the first one is
    used: a surface whose volatility doubles within the year. *)
Theorem C92_precomputed_refuted : exists g ts xs, (forall u, In u ts -> 0 < g u) /\ In 1 ts /\ In 1 xs /\
  exists p e, dupire_iv_precomputed 1 0 (fun _ => 1) (fun u _ => g u) ts xs 1 1 = Some (Fin (sqrt p)) /\
  dupire_iv 1 0 (fun _ => 1) (fun u _ => g u) 1 1 = Fin (sqrt e) /\ sqrt p < sqrt e.
Proof.
  exists (fun u => (1 + u) / 10), [0; 1; 2], [1 / 2; 1; 2].
  split; [cbn; intros u [<-|[<-|[<-|[]]]]; lra|]. split; [cbn; tauto|]. split; [cbn; tauto|].
  exists (3 / 100), (8 / 100).
  assert (IN : incr [1 / 2; 1; 2]). { intros [|[|j]] L; cbn in L; unfold at_; cbn; try lra; lia. }
  assert (ND : nondecr [0; 1; 2]). { intros [|[|j]] L; cbn in L; unfold at_; cbn; try lra; lia. }
  split.
  { rewrite (C92_precomputed 1 0 (fun _ => 1) (fun u => (1 + u) / 10) (fun _ => 1 / 10) [0; 1; 2] [1 / 2; 1; 2] 1 1 0 0); cbn [nth length]; try lra; try lia.
    - do 3 f_equal. rewrite Rmax_left by lra. field.
    - apply no_rates.
    - exact IN.
    - exact ND.
    - cbn. intros u [<-|[<-|[<-|[]]]]; (split; [lra|]); auto_derive; try exact I; field. }
  split.
  { destruct (C92_term_structure 1 0 (fun _ => 1) (fun u => (1 + u) / 10) 1 1 0 (1 / 10)) as (w & DW & _ & E); try lra.
    - apply no_rates.
    - auto_derive; [exact I|field].
    - assert (W : w = 8 / 100). { rewrite <- (is_derive_unique _ _ _ DW). apply is_derive_unique. auto_derive; [exact I|field]. }
      rewrite E, W. do 2 f_equal. apply Rmax_left. lra. }
  apply sqrt_lt_1; lra.
Qed.

(** ** Quotes *)
Lemma moneyness_incr spot q rate t ks vs : 0 < spot -> knots ks vs -> (forall k, In k ks -> 0 < k) -> knots (map (log_moneyness spot q rate t) ks) vs.
Proof.
  intros PS (L & L2 & IN) PK. split; [rewrite map_length; exact L|]. rewrite map_length. split; [exact L2|]. intros j LJ.
  rewrite !(nth_indep (map _ ks) 0 (log_moneyness spot q rate t 0)) by (rewrite map_length; lia). rewrite !map_nth.
  assert (P1 : 0 < nth j ks 0) by (apply PK, nth_In; lia). specialize (IN j LJ).
  unfold log_moneyness. apply Rplus_lt_compat_r. apply ln_increasing; [apply Rdiv_lt_0_compat; assumption|].
  apply Rmult_lt_compat_r; [apply Rinv_0_lt_compat; exact PS|exact IN].
Qed.
Lemma market_row spot q rate : forall ts quotes i, length quotes = length ts -> (i < length ts)%nat ->
  nth i (market_rows spot q rate ts quotes) ([], []) = (map (log_moneyness spot q rate (nth i ts 0)) (fst (nth i quotes ([], []))), snd (nth i quotes ([], []))).
Proof.
  induction ts as [|t ts IH]; intros quotes i L LI; [cbn in LI; lia|]. destruct quotes as [|(ks, vs) quotes]; [discriminate|].
  destruct i as [|i]; [reflexivity|]. cbn in L, LI. apply (IH quotes i); lia.
Qed.
(** The volatility surface of the model goes through all quotes, whatever the
    discount curve. *)
Theorem C92_quotes spot q rate days quotes i j : 0 < spot -> length quotes = length days ->
  (forall n, (S n < length days)%nat -> (nth n days 0 < nth (S n) days 0)%Z) ->
  (forall ks vs, In (ks, vs) quotes -> knots ks vs /\ forall k, In k ks -> 0 < k) ->
  (i < length days)%nat ->
  let (ks, vs) := nth i quotes ([], []) in (j < length ks)%nat ->
  market_surface spot q rate (expiry_times_of days) quotes (IZR (nth i days 0%Z) / 365) (nth j ks 0) = Some (nth j vs 0).
Proof.
  intros PS LQ IN QU LI. assert (LT : length (expiry_times_of days) = length days) by apply map_length.
  set (ts := expiry_times_of days) in *.
  assert (NT : forall n, (n < length days)%nat -> nth n ts 0 = IZR (nth n days 0%Z) / 365).
  { intros n Ln. unfold ts, expiry_times_of. rewrite (nth_indep _ 0 ((fun d => IZR d / 365) 0%Z)) by (rewrite map_length; exact Ln). apply (map_nth (fun d => IZR d / 365)). }
  assert (LR : length (market_rows spot q rate ts quotes) = length ts).
  { unfold market_rows. rewrite map_length, combine_length. lia. }
  assert (SF : surface ts (market_rows spot q rate ts quotes)).
  { split; [exact LR|]. split; [lia|]. split.
    - intros n Ln. rewrite LT in Ln. rewrite !NT by lia. assert (Z := IN n Ln). apply IZR_lt in Z. lra.
    - intros ys zs IR. destruct (In_nth _ _ ([], []) IR) as (n & Ln & E). rewrite LR in Ln.
      rewrite market_row in E by lia. injection E as <- <-. 
      assert (IQ : In (nth n quotes ([], [])) quotes) by (apply nth_In; lia). destruct (nth n quotes ([], [])) as (ks, vs). cbn [fst snd].
      destruct (QU ks vs IQ) as (KN & PK). apply moneyness_incr; assumption. }
  assert (K := C69_knots ts (market_rows spot q rate ts quotes) i j SF). rewrite LT in K. specialize (K LI).
  rewrite market_row in K by lia. destruct (nth i quotes ([], [])) as (ks, vs). cbn [fst snd] in K. rewrite map_length in K. intros LJ. specialize (K LJ).
  rewrite (nth_indep (map _ ks) 0 (log_moneyness spot q rate (nth i ts 0) 0)) in K by (rewrite ?map_length; exact LJ). rewrite map_nth in K.
  unfold market_surface. rewrite <- NT by exact LI. exact K.
Qed.

(** ** The process *)
(** The logarithms move so that the spots grow at the rate less the dividend
    yield: the drift plus half the variance of every component; and the
    covariances are the local volatilities times the correlations. *)
Theorem C92_process dim dom for_ lv L rho t x s c c' :
  (forall i j, (i < dim)%nat -> (j < dim)%nat -> rsum (fun k => L i k * L j k) dim = rho i j) -> (forall i, (i < dim)%nat -> rho i i = 1) ->
  (c < dim)%nat -> (c' < dim)%nat ->
  let p := local_vol_process dim dom for_ lv L in
  let v := lv t (fun s c => exp (x s c)) in
  drift_fn p t x s c + rsum (fun k => volatility_fn p t x s c k ^ 2) dim / 2 = dom t - for_ t /\
  rsum (fun k => volatility_fn p t x s c k * volatility_fn p t x s c' k) dim = v s c * v s c' * rho c c'.
Proof.
  intros CH UN LC LC' p v. unfold p, local_vol_process. cbn [drift_fn volatility_fn]. cbv zeta. fold v. split.
  - rewrite (rsum_ext _ (fun k => v s c * v s c * (L c k * L c k)) dim) by (intros; ring).
    rewrite rsum_scal. rewrite CH, UN by assumption. field.
  - rewrite (rsum_ext _ (fun k => v s c * v s c' * (L c k * L c' k)) dim) by (intros; ring).
    rewrite rsum_scal. rewrite CH by assumption. reflexivity.
Qed.
(** One underlying: the mean of the simulated spot after a step is the spot
    grown at the rate of the end of the step. *)
Theorem C92_martingale dom for_ lv times i x s : (S i < length times)%nat -> nth i times 0 <= nth (S i) times 0 ->
  let h := nth (S i) times 0 - nth i times 0 in
  let p := local_vol_process 1 dom for_ lv (fun _ _ => 1) in
  expectation (fun z => exp (euler_step p times (fun _ _ _ => z) i x s 0%nat)) (exp (x s 0%nat) * exp ((dom (nth (S i) times 0) - for_ (nth (S i) times 0)) * h)).
Proof.
  intros LI LE h p. set (t := nth (S i) times 0) in *. set (v := lv t (fun s c => exp (x s c)) s 0%nat).
  set (F := exp (x s 0%nat) * exp ((dom t - for_ t) * h)).
  assert (E := prim_at false F (v * sqrt h) 1 0). rewrite Rmult_1_l, Rplus_0_r in E.
  refine (expectation_ext _ _ _ _ E). intros z. unfold asset. rewrite Rmult_1_l, Rplus_0_r.
  assert (ED : at_ (dt times) i = h).
  { unfold dt, at_. rewrite diff_nth' by lia. unfold h, t. reflexivity. }
  assert (ES : at_ (sqrt_dt times) i = sqrt h).
  { unfold sqrt_dt, at_. rewrite (nth_indep _ 0 (sqrt 0)); [rewrite map_nth; f_equal; exact ED|]. rewrite map_length. unfold dt. rewrite diff_length'. lia. }
  unfold euler_step. rewrite ED, ES. replace (at_ times (i + 1)) with t by (unfold t, at_; f_equal; lia).
  unfold p, local_vol_process. cbn [drift_fn volatility_fn EulerModel.dim rsum]. cbv zeta. fold v.
  unfold F. rewrite <- !exp_plus. f_equal. assert (Q : sqrt h * sqrt h = h) by (apply sqrt_sqrt; clearbody t; unfold h; lra).
  replace ((v * sqrt h) ^ 2) with (v * v * (sqrt h * sqrt h)) by ring. rewrite Q. field.
Qed.

(** ** Arguments *)
(** A correlation matrix given as a tensor is refused for more than one
    underlying; as a Python list it is taken. *)
Theorem C92_correlation_refuted : exists rho, (forall dim, corr_matrix_of dim (TfTensor rho) = None) /\ corr_matrix_of 2 (PyList rho) = Some rho /\ rho = [[1; 1 / 2]; [1 / 2; 1]].
Proof. exists [[1; 1 / 2]; [1 / 2; 1]]. repeat split. Qed.
Theorem C92_correlation_partial dim rho : rho <> [] -> corr_matrix_of dim (PyList rho) = Some rho /\ corr_matrix_of dim NoMatrix = Some (eye dim).
Proof. intros NE. destruct rho as [|row rho]; [congruence|]. split; reflexivity. Qed.
Theorem C92_arguments ts xs grid a b c :
  (constructor_ok true ts xs = true <-> ts <> None /\ xs <> None) /\ constructor_ok false ts xs = true /\
  (forall g, sampling_grid true ts a b c grid = Some g -> a = false /\ b = false /\ c = false /\ g = ts) /\
  (sampling_grid true ts a b c grid = None <-> a = true \/ b = true \/ c = true) /\ sampling_grid false ts a b c grid = Some grid.
Proof.
  split. { unfold constructor_ok. destruct ts, xs; cbn; split; try tauto; try congruence; intros _; split; congruence. }
  split; [unfold constructor_ok; reflexivity|].
  split. { unfold sampling_grid. destruct a, b, c; cbn; intros g E; try discriminate. injection E as <-. repeat split. }
  split; [|reflexivity]. unfold sampling_grid. destruct a, b, c; cbn; split; try tauto; try discriminate; try (intros [H|[H|H]]; discriminate).
Qed.

(** ** Examples *)
Example C92_skew_ex : 0 < 1 /\ 0 < 4 /\ curve_at rising 4 (4 / 25) /\ surface_at skew 4 (6 / 5) 0 (- (1 / 10)) 0 /\
  butterfly (forward_of 1 0 (fun _ => 1) 4) (skew 4 1) (- (1 / 10)) 0 4 1 = 574 / 625.
Proof.
  split; [lra|]. split; [lra|]. split; [apply rising_at|]. split; [apply skew_at; lra|].
  assert (S4 : sqrt 4 = 2) by (replace 4 with (2 ^ 2) by ring; apply sqrt_pow2; lra).
  assert (V : skew 4 1 = 1 / 5) by (unfold skew; field).
  unfold butterfly, d1, forward_of. rewrite V, S4. replace (- (0 * 4)) with 0 by ring. rewrite exp_0. replace (1 * 1 / 1 / 1) with 1 by field. rewrite ln_1. field.
Qed.
(** A term structure without calendar arbitrage. *)
Example C92_term_ex : forall t, 1 <= t <= 2 -> curve_at rising t (t / 25) /\ 0 < (1 + t) / 10 /\ is_derive (fun t => (1 + t) / 10) t (1 / 10) /\
  continuous (fun _ : R => 1 / 10) t /\ 0 <= ((1 + t) / 10) ^ 2 + 2 * t * ((1 + t) / 10) * (1 / 10).
Proof.
  intros t IT. split; [apply rising_at|]. split; [lra|]. split; [auto_derive; [exact I|field]|]. split; [apply continuous_const|]. nra.
Qed.
Example C92_quotes_ex : market_surface 100 0 (fun _ => 1 / 20) (expiry_times_of [365; 730]%Z) [([90; 100; 110], [1 / 4; 1 / 5; 1 / 6]); ([80; 100; 120], [1 / 4; 1 / 5; 1 / 6])] (IZR 730 / 365) 120 = Some (1 / 6).
Proof.
  apply (C92_quotes 100 0 (fun _ => 1 / 20) [365; 730]%Z [([90; 100; 110], [1 / 4; 1 / 5; 1 / 6]); ([80; 100; 120], [1 / 4; 1 / 5; 1 / 6])] 1 2); try (cbn; lra); try (cbn; lia).
  - intros [|n] L; cbn in L |- *; lia.
  - intros ks vs [E|[E|[]]]; injection E as <- <-; (split; [split; [reflexivity|split; [cbn; lia|]]; intros [|[|n]] L; cbn in L |- *; try lra; lia|]);
      cbn; intros k [<-|[<-|[<-|[]]]]; lra.
Qed.
Example C92_process_ex : rsum (fun k => (if Nat.eqb k 0 then 3 / 5 else 4 / 5) * (if Nat.eqb k 0 then 3 / 5 else 4 / 5)) 2 = 1.
Proof. cbn. field. Qed.

Print Assumptions C92_prices.
Print Assumptions C92_forward_equation.
Print Assumptions C92_term_structure.
Print Assumptions C92_flat.
Print Assumptions C92_total_variance.
Print Assumptions C92_methods_partial.
Print Assumptions C92_smile_refuted.
Print Assumptions C92_curve_refuted.
Print Assumptions C92_start.
Print Assumptions C92_short_time.
Print Assumptions C92_start_refuted.
Print Assumptions C92_precomputed.
Print Assumptions C92_precomputed_refuted.
Print Assumptions C92_quotes.
Print Assumptions C92_process.
Print Assumptions C92_martingale.
Print Assumptions C92_correlation_refuted.
Print Assumptions C92_correlation_partial.
Print Assumptions C92_arguments.
