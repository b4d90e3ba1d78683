(** C90, continued: the calibrations of the Heston model and of raw SVI curves. *)
From Coquelicot Require Import Coquelicot.
From Coq Require Import Reals ZArith List Bool Lra Lia Psatz.
From Verif Require Import InterpModel BrentModel ExtReal HaganWestModel BootstrapModel BlackScholesModel ImpliedVolModel SabrModel BoundedCalModel SabrProofs SviModel PropsSvi
  CalibrationModel CalibrationSpec CalibrationProofs PropsCalibration.
Import ListNotations.
Open Scope R_scope.

(** ** Heston *)
(** A parameter with numbers for its starting value and its bounds. *)
Definition setting (b : bounded) (s l u : R) : Prop := b = Bounded (Fin s) (Fin l) (Fin u) /\ l < u.
Definition keeps (b : bounded) (x : xr) : Prop := forall s l u, setting b s l u -> within_or_nan l u x.
Lemma decode_keeps b x : keeps b (decode b x).
Proof. intros s l u [-> L]. unfold decode. cbn [low high]. rewrite constrained_squash. apply squash_within, L. Qed.

Section Heston.
Variables (S : Type) (roots coefficients : nat -> option (list R)) (validate_args : bool).
Local Notation run := (heston_calibration (S := S) roots coefficients validate_args).

Lemma heston_starts (rows : list (list heston_quote * heston_start)) starts :
  map_opt (fun '(_, s) => heston_prepare validate_args s) rows = Some starts -> starts = map snd rows.
Proof.
  intros M. apply map_opt_forall2' in M. induction M as [|[qs s] t l m E M IH]; [reflexivity|]. cbn [map snd]. apply heston_prepare_some in E. congruence.
Qed.
(** Whatever the optimizer does, every parameter is reported within its bounds or as NaN. *)
Theorem C90_heston_bounds rows opt ps st : run rows opt = Some (ps, st) ->
  Forall2 (fun '(_, s) p => keeps (b_variance s) (p_variance p) /\ keeps (b_theta s) (p_theta p) /\ keeps (b_volvol s) (p_vol p)
    /\ keeps (b_mean_reversion s) (p_mean_reversion p) /\ keeps (b_rho s) (p_corr p)) rows ps.
Proof.
  intros E. unfold heston_calibration, bind in E. destruct (map_opt _ rows) as [quotes|] eqn:Q; [|discriminate]. destruct (map_opt (fun '(_, s) => heston_prepare _ s) rows) as [starts|] eqn:M; [|discriminate].
  apply heston_starts in M. apply optimize_some in E. destruct E as (r & _ & E & _). subst starts.
  assert (F : Forall2 (fun s p => exists x, heston_read s x = Some p) (map snd rows) ps) by (refine (read_rows_forall heston_read _ _ _ _ _ E); intros b x p _ B; exists x; exact B).
  clear - F. remember (map snd rows) as ss eqn:SS. revert rows SS. induction F as [|s p ss ps (x & H) F IH]; intros [|[qs s'] rows] SS; try discriminate SS; constructor.
  - cbn [map snd] in SS. injection SS as <- _. apply heston_read_some in H. destruct H as (x0 & x1 & x2 & x3 & x4 & -> & -> & -> & -> & ->). repeat split; apply decode_keeps.
  - apply IH. cbn [map snd] in SS. congruence.
Qed.

(** Starting values within their bounds, ends included. *)
Definition starts_at (s : heston_start) (p : heston_params) : Prop :=
  let at_ b x := exists v l u, setting b v l u /\ l <= v <= u /\ x = Fin v in
  at_ (b_variance s) (p_variance p) /\ at_ (b_theta s) (p_theta p) /\ at_ (b_volvol s) (p_vol p)
  /\ at_ (b_mean_reversion s) (p_mean_reversion p) /\ at_ (b_rho s) (p_corr p).
Lemma heston_prepare_ok s p : starts_at s p -> heston_prepare validate_args s = Some s /\ heston_read s (heston_initial s) = Some p.
Proof.
  intros ((v0 & l0 & u0 & (E0 & L0) & B0 & P0) & (v1 & l1 & u1 & (E1 & L1) & B1 & P1) & (v2 & l2 & u2 & (E2 & L2) & B2 & P2) & (v3 & l3 & u3 & (E3 & L3) & B3 & P3) & (v4 & l4 & u4 & (E4 & L4) & B4 & P4)).
  destruct s as [s0 s1 s2 s3 s4], p as [p0 p1 p2 p3 p4]. cbn [b_variance b_theta b_volvol b_mean_reversion b_rho p_variance p_theta p_vol p_mean_reversion p_corr] in *. subst. split.
  - unfold heston_prepare. cbn [b_variance b_theta b_volvol b_mean_reversion b_rho]. rewrite !valid_within by assumption. reflexivity.
  - rewrite heston_read_start. cbn [b_variance b_theta b_volvol b_mean_reversion b_rho]. rewrite !decode_encode by assumption. reflexivity.
Qed.
Lemma heston_rows_ok (rows : list (list heston_quote * heston_start)) ps : Forall2 (fun '(_, s) p => starts_at s p) rows ps ->
  map_opt (fun '(_, s) => heston_prepare validate_args s) rows = Some (map snd rows)
  /\ read_rows heston_read (map snd rows) (map heston_initial (map snd rows)) = Some ps.
Proof.
  intros F. unfold read_rows. rewrite !map_length, Nat.eqb_refl. induction F as [|[qs s] p rows ps H F IH]; [split; reflexivity|].
  destruct (heston_prepare_ok _ _ H) as [A B]. destruct IH as [IA IB]. cbn [map snd map_opt combine]. rewrite A, IA, B, IB. split; reflexivity.
Qed.
(** An optimizer that returns its starting position reports the starting values. *)
Theorem C90_heston_start (rows : list (list heston_quote * heston_start)) ps opt (st : S) quotes : Forall2 (fun '(_, s) p => starts_at s p) rows ps ->
  map_opt (fun '(qs, _) => map_opt (fun q => option_map (pair q) (heston_market q)) qs) rows = Some quotes ->
  (forall f x, opt f x = Some (Optimum x st)) -> run rows opt = Some (ps, st).
Proof.
  intros F Q O. unfold heston_calibration, bind. rewrite Q. destruct (heston_rows_ok _ _ F) as [-> R]. apply optimize_some. eexists. split; [apply O|]. split; [exact R|reflexivity].
Qed.
(** An optimizer that never increases the objective never makes a fit worse. *)
Theorem C90_heston_no_worse (rows : list (list heston_quote * heston_start)) starts opt ps st quotes : Forall2 (fun '(_, s) p => starts_at s p) rows starts ->
  map_opt (fun '(qs, _) => map_opt (fun q => option_map (pair q) (heston_market q)) qs) rows = Some quotes ->
  never_worse S opt -> run rows opt = Some (ps, st) ->
  Forall2 (fun '(qs, s) p => at_most (heston_loss roots coefficients qs p) (heston_loss roots coefficients qs s)) (combine quotes starts) ps.
Proof.
  intros F Q W E. unfold heston_calibration, bind in E. rewrite Q in E. destruct (heston_rows_ok _ _ F) as [M R]. rewrite M in E. apply optimize_some in E. destruct E as (r & E & D & _).
  destruct (W _ _ _ (value_rows (heston_loss roots coefficients) quotes starts) E) as (ws & G & C); [rewrite R; reflexivity|]. rewrite D in G. cbn [option_map] in G. injection G as <-.
  assert (L1 : length quotes = length rows) by (apply map_opt_forall2' in Q; apply forall2_length in Q; congruence).
  assert (L2 : length ps = length rows).
  { apply read_rows_some in D. destruct D as [L D]. apply forall2_length in D. rewrite combine_length, <- L, Nat.min_id, map_length in D. congruence. }
  assert (L3 : length starts = length rows) by (apply forall2_length in F; congruence).
  clear - C L1 L2 L3. unfold value_rows in C. rewrite <- L1 in *. clear L1. revert starts ps L2 L3 C. induction quotes as [|q quotes IH]; intros [|s starts] [|p ps] L2 L3 C; try discriminate; [constructor|].
  cbn [combine map] in *. inversion C; subst. constructor; [assumption|]. apply IH; auto.
Qed.
End Heston.
(** The objective is zero exactly when the model reproduces every price. *)
Theorem C90_heston_error roots coefficients qs p : qs <> [] -> Forall (fun '(q, _) => -1 < hq_price q) qs ->
  heston_loss roots coefficients qs p = Fin 0 <-> Forall (fun '(q, m) => heston_value roots coefficients p m q = Fin (hq_price q)) qs.
Proof.
  intros N P. unfold heston_loss. assert (T : map (fun '(q, _) => xlog1p (Fin (hq_price q))) qs = map Fin (map (fun '(q, _) => ln (1 + hq_price q)) qs)).
  { rewrite map_map. apply map_ext_in. intros [q m] I. rewrite Forall_forall in P. apply log1p_fin, (P _ I). }
  rewrite T, squares_sym. rewrite loss_zero; [|rewrite !map_length; reflexivity|destruct qs; [congruence|discriminate]]. rewrite <- T. clear N T.
  induction qs as [|[q m] qs IH]; cbn [map]; [split; [constructor|reflexivity]|]. inversion P as [|? ? P1 P2]; subst. specialize (IH P2). split.
  - intros E. assert (E1 : xlog1p (heston_value roots coefficients p m q) = xlog1p (Fin (hq_price q))) by congruence. constructor; [apply log1p_inj in E1; assumption|]. apply IH. congruence.
  - intros F. inversion F as [|? ? F1 F2]; subst. f_equal; [rewrite F1; reflexivity|]. apply IH, F2.
Qed.
(** The market: a spot with rates is the forward S exp((r - q) T), a discount factor
    the rate that reproduces it; other combinations are refused. *)
Theorem C90_heston_market price k t call :
  (forall s r d, heston_market (HestonQuote price k t call (Some s) None (Some r) (Some d) None) = Some (Fin r, Fin (s * exp ((r - d) * t))))
  /\ (forall f r d, heston_market (HestonQuote price k t call None (Some f) (Some r) d None) = Some (Fin r, Fin f))
  /\ (forall s, heston_market (HestonQuote price k t call (Some s) None None None None) = Some (Fin 0, Fin s))
  /\ (forall f r d, t <> 0 -> heston_market (HestonQuote price k t call None (Some f) None d (Some (exp (- r * t)))) = Some (Fin r, Fin f))
  /\ (forall s r d, t <> 0 -> heston_market (HestonQuote price k t call (Some s) None None (Some d) (Some (exp (- r * t)))) = Some (Fin r, Fin (s * exp ((r - d) * t))))
  /\ (forall s f r d df, (s = None /\ f = None) \/ (s <> None /\ f <> None) \/ (r <> None /\ df <> None) ->
      heston_market (HestonQuote price k t call s f r d df) = None).
Proof.
  unfold heston_market. cbn [hq_spot hq_forward hq_rate hq_factor hq_dividend hq_expiry is_none eqb negb andb].
  assert (D : forall r, t <> 0 -> xopp (xln (Fin (exp (- r * t)))) /x Fin t = Fin r).
  { intros r T. cbn [xln]. rewrite rlt_t by apply exp_pos. rewrite ln_exp. cbn [xopp xdiv]. rewrite req_f by exact T. f_equal. field. exact T. }
  split; [|split; [|split; [|split; [|split]]]].
  - intros. unfold xsub. cbn [xopp xadd xmul xexp]. do 4 f_equal.
  - reflexivity.
  - intros s. unfold xsub. cbn [xopp xadd xmul xexp]. replace ((0 + - 0) * t) with 0 by ring. rewrite exp_0, Rmult_1_r. reflexivity.
  - intros f r d T. rewrite D by exact T. reflexivity.
  - intros s r d T. rewrite D by exact T. unfold xsub. cbn [xopp xadd xmul xexp]. reflexivity.
  - intros s f r d df [[-> ->]|[[A B]|[A B]]]; [reflexivity|destruct s, f; try congruence; reflexivity|]. destruct r, df; try congruence. destruct s, f; reflexivity.
Qed.
(** Non-trivial starting values. *)
Example heston_example : starts_at
  (HestonStart (Bounded (Fin (1 / 2)) (Fin 0) (Fin 1)) (Bounded (Fin (1 / 4)) (Fin 0) (Fin 1)) (Bounded (Fin 0) (Fin 0) (Fin 1)) (Bounded (Fin (1 / 10)) (Fin (1 / 1000)) (Fin (1 / 2))) (Bounded (Fin (- (1 / 3))) (Fin (-1)) (Fin 1)))
  (HestonParams (Fin (1 / 10)) (Fin (1 / 4)) (Fin 0) (Fin (- (1 / 3))) (Fin (1 / 2))).
Proof. unfold starts_at, setting. cbn. repeat split; do 3 eexists; (split; [split; [reflexivity|lra]|split; [lra|reflexivity]]). Qed.

(** ** Raw SVI *)
(** Parameters for which the smallest variance of the curve is positive. *)
Definition proper (a b rho sigma : R) : Prop := 0 < b /\ -1 < rho < 1 /\ 0 < sigma /\ 0 < a + b * sigma * sqrt (1 - rho ^ 2).
Definition raw (a b rho m sigma : R) : raw_svi := RawSvi (Fin a) (Fin b) (Fin rho) (Fin m) (Fin sigma).
Lemma sigmoid_range v : -1 < 2 * (1 / (1 + exp (- v))) - 1 < 1.
Proof.
  pose proof (exp_pos (- v)) as E. assert (0 < / (1 + exp (- v)) < 1).
  { split; [apply Rinv_0_lt_compat; lra|]. rewrite <- Rinv_1 at 2. apply Rinv_lt_contravar; lra. }
  unfold Rdiv. lra.
Qed.
Lemma svi_read_fin x0 x1 x2 x3 x4 : exists a b rho sigma,
  unconstrained_to_raw_svi [Fin x0; Fin x1; Fin x2; Fin x3; Fin x4] = Some (raw a b rho x3 sigma) /\ proper a b rho sigma
  /\ a + b * sigma * sqrt (1 - rho ^ 2) = exp x0 /\ b = exp x1 /\ sigma = exp x4 /\ rho = 2 * (1 / (1 + exp (- x2))) - 1.
Proof.
  set (rho := 2 * (1 / (1 + exp (- x2))) - 1). assert (Q : -1 < rho < 1) by apply sigmoid_range.
  exists (exp x0 - exp x1 * exp x4 * sqrt (1 - rho ^ 2)), (exp x1), rho, (exp x4). split.
  - unfold unconstrained_to_raw_svi, bind. cbn [slot nth_error xexp xopp xadd xdiv]. rewrite req_f by (pose proof (exp_pos (- x2)); lra). unfold xsub, xsquare. cbn [xmul xopp xadd].
    change (2 * (1 / (1 + exp (- x2))) + - (1)) with rho. unfold xsqrt. rewrite rlt_f by (change (2 * (1 / (1 + exp (- x2))) + -1) with rho; nra). cbn [xmul xopp xadd].
    unfold raw. do 3 f_equal. replace (1 + - (rho * rho)) with (1 - rho ^ 2) by ring. reflexivity.
  - pose proof (exp_pos x0). pose proof (exp_pos x1). pose proof (exp_pos x4). unfold proper. repeat split; auto; try apply Q; lra.
Qed.
(** Every finite position of the optimizer is read as a curve with positive total
    variance, hence with a volatility, at every strike. *)
Definition finite_positions {S} (opt : optimizer (list (list xr)) (list xr) S) : Prop :=
  forall f x r, opt f x = Some r -> Forall (fun row => exists v, length v = 5%nat /\ row = map Fin v) (position r).
Theorem C90_svi_proper {S} rows (opt : optimizer (list (list xr)) (list xr) S) ps st : finite_positions opt -> svi_calibration rows opt = Some (ps, st) ->
  Forall (fun p => exists a b rho m sigma, p = raw a b rho m sigma /\ proper a b rho sigma
    /\ forall k, 0 < svi (SviParams a b rho m sigma) k
    /\ forall t, 0 < t -> exists v, 0 < v /\ implied_volatility_from_raw_svi_parameters (SviParams a b rho m sigma) (Some k) None None (Some t) = Some (Fin v)) ps.
Proof.
  intros F E. apply optimize_some in E. destruct E as (r & O & D & _). apply F in O. apply read_rows_some in D. destruct D as [L D].
  revert D L O. generalize (position r). intros xs D L O. clear F r. revert xs ps L D O. induction rows as [|b rows IH]; intros [|x xs] ps L D O; try discriminate L; cbn [combine] in D; inversion D as [|? p ? ps' A B]; subst; constructor.
  2: { inversion O; subst. apply IH with (xs := xs); auto. }
  inversion O as [|? ? (v & V & ->) _]; subst. destruct v as [|x0 [|x1 [|x2 [|x3 [|x4 [|]]]]]]; try discriminate V. cbn [map] in A.
  destruct (svi_read_fin x0 x1 x2 x3 x4) as (a & b' & rho & sigma & Q & P & M & _). rewrite Q in A. injection A as <-. exists a, b', rho, x3, sigma. split; [reflexivity|]. split; [exact P|].
  destruct P as (P1 & P2 & P3 & P4). intros k.
  assert (K : 0 < svi (SviParams a b' rho x3 sigma) k).
  { destruct (C65_minimum (SviParams a b' rho x3 sigma)) as [T _]; [cbn; lra|exact P2|]. specialize (T k). unfold least in T. cbn [svi_a svi_b svi_rho svi_sigma] in T. rewrite Rabs_pos_eq in T by lra. nra. }
  split; [exact K|]. intros t T. destruct (C65_volatility (SviParams a b' rho x3 sigma) k t T) as (w & W & W0 & W2); [lra|]. exists w. split; [|exact W].
  destruct (Req_dec w 0) as [->|]; [|lra]. exfalso. rewrite <- W2 in K. replace (0 ^ 2 * t) with 0 in K by ring. lra.
Qed.
(** Proper starting parameters are reported when the optimizer returns its start. *)
Theorem C90_svi_start {S} rows starts (opt : optimizer (list (list xr)) (list xr) S) st :
  Forall2 (fun r p => svi_start r = Some p /\ exists a b rho m sigma, p = raw a b rho m sigma /\ proper a b rho sigma) rows starts ->
  (forall f x, opt f x = Some (Optimum x st)) -> svi_calibration rows opt = Some (starts, st).
Proof.
  intros F O. apply optimize_some. exists (Optimum (map svi_initial rows) st). split; [apply O|]. split; [|reflexivity]. cbn [position].
  unfold read_rows. rewrite map_length, Nat.eqb_refl. induction F as [|r p rows starts (G & a & b & rho & m & sigma & -> & P1 & P2 & P3 & P4) F IH]; [reflexivity|].
  cbn [map combine map_opt]. rewrite IH.
  assert (E : svi_initial r = [Fin (ln (a + b * sigma * sqrt (1 - rho ^ 2))); Fin (ln b); Fin (ln (1 + rho) - ln (1 - rho)); Fin m; Fin (ln sigma)]).
  { unfold svi_initial. rewrite G. unfold raw_svi_to_unconstrained, raw. cbn [s_a s_b s_r s_m s_s]. unfold xlog1p, xsub, xsquare. cbn [xopp xmul xadd]. unfold xsqrt. rewrite rlt_f by nra. cbn [xmul xadd xln].
    replace (1 + - (rho * rho)) with (1 - rho ^ 2) by ring. rewrite !rlt_t by lra. cbn [xopp xadd map is_nan]. reflexivity. }
  rewrite E. destruct (svi_read_fin (ln (a + b * sigma * sqrt (1 - rho ^ 2))) (ln b) (ln (1 + rho) - ln (1 - rho)) m (ln sigma)) as (a' & b' & rho' & sigma' & -> & _ & M & B & Sg & Q).
  rewrite exp_ln in M, B, Sg by assumption.
  assert (RHO : rho' = rho).
  { rewrite Q. replace (- (ln (1 + rho) - ln (1 - rho))) with (ln (1 - rho) - ln (1 + rho)) by ring. unfold Rminus at 2. rewrite exp_plus, exp_Ropp, !exp_ln by lra. field. lra. }
  subst b' sigma'. rewrite RHO in *. replace a' with a by lra. reflexivity.
Qed.
(** No starting position contains NaN, whatever was given or estimated. *)
Theorem C90_svi_repaired r : Forall (fun x => x <> NaN) (svi_initial r) /\ length (svi_initial r) = 5%nat.
Proof.
  unfold svi_initial. split; [|reflexivity]. apply Forall_forall. intros x I. apply in_map_iff in I. destruct I as (y & <- & _). destruct y as [|[]|]; discriminate.
Qed.

(** The objective is the weighted sum of squared differences between the volatilities
    of the curve and the quoted ones. *)
Lemma svi_variance_fin a b rho m sigma k : svi_variance (raw a b rho m sigma) (Fin k) = Fin (svi (SviParams a b rho m sigma) k).
Proof.
  unfold svi_variance, raw, svi, xsub, xsquare. cbn [s_a s_b s_r s_m s_s svi_a svi_b svi_rho svi_m svi_sigma xopp xadd xmul]. rewrite xsqrt_ok by (pose proof (pow2_ge_0 (k - m)); pose proof (pow2_ge_0 sigma); lra). cbn [xadd xmul]. f_equal.
  replace ((k + - m) * (k + - m) + sigma * sigma) with ((k - m) ^ 2 + sigma ^ 2) by ring. ring.
Qed.
Theorem C90_svi_loss r a b rho m sigma (w := match svi_weights r with Some w => w | None => map (fun _ => 1) (svi_strikes r) end) :
  0 < svi_forward r -> 0 < svi_expiry r -> Forall (fun k => 0 < k) (svi_strikes r) ->
  Forall (fun k => 0 <= svi (SviParams a b rho m sigma) (ln (k / svi_forward r))) (svi_strikes r) ->
  svi_loss r (raw a b rho m sigma) =
  Fin (weighted_squares w (map (fun k => sqrt (svi (SviParams a b rho m sigma) (ln (k / svi_forward r)) / svi_expiry r)) (svi_strikes r)) (svi_vols r)).
Proof.
  intros F T K V. unfold svi_loss. fold w. unfold log_moneyness. generalize w. clear w. generalize (svi_vols r). revert K V. generalize (svi_strikes r). intros ks K V vs w. rewrite map_map.
  revert vs w. induction ks as [|k ks IH]; intros vs w; [destruct w, vs; reflexivity|]. inversion K as [|? ? K1 K2]; subst. inversion V as [|? ? V1 V2]; subst. specialize (IH K2 V2).
  destruct w as [|c w]; [reflexivity|]. destruct vs as [|v vs]; [cbn [map]; unfold squares, xzip; cbn [combine map xsum fold_right]; reflexivity|].
  cbn [map weighted_squares]. unfold squares, xzip, xsum in *. cbn [combine map fold_right]. rewrite IH.
  cbn [xdiv]. rewrite req_f by lra. cbn [xln]. rewrite rlt_t by (apply Rdiv_lt_0_compat; assumption). rewrite svi_variance_fin. cbn [xdiv]. rewrite req_f by lra.
  assert (Q : 0 <= svi (SviParams a b rho m sigma) (ln (k / svi_forward r)) / svi_expiry r) by (apply Rmult_le_pos; [exact V1|left; apply Rinv_0_lt_compat, T]).
  unfold xsqrt. rewrite rlt_f by exact Q. unfold xsub, xsquare. cbn [xopp xadd xmul]. f_equal. ring.
Qed.

(** ** The estimated starting position *)
Lemma argmin_least l i : (i < length l)%nat -> (argmin l < length l)%nat /\ nth (argmin l) l 0 <= nth i l 0.
Proof.
  revert i. induction l as [|x l IH]; intros i L; [cbn in L; lia|]. destruct l as [|y l]; [cbn in L; assert (i = 0%nat) by lia; subst; cbn; split; [lia|lra]|].
  set (t := y :: l) in *. assert (E : argmin (x :: t) = if rlt (nth (argmin t) t 0) x then Datatypes.S (argmin t) else 0%nat) by reflexivity. rewrite E.
  assert (A : (argmin t < length t)%nat) by (apply (IH 0%nat); unfold t; cbn; lia). clearbody t.
  unfold rlt. destruct (Rlt_dec (nth (argmin t) t 0) x) as [G|G]; cbn [nth length].
  - split; [lia|]. destruct i as [|i]; cbn [nth]; [lra|]. apply IH. cbn in L. lia.
  - split; [lia|]. destruct i as [|i]; cbn [nth]; [lra|]. cbn [length] in L. destruct (IH i) as [_ Q]; [lia|]. lra.
Qed.
Lemma xmean_fin l : l <> [] -> xmean (map Fin l) = Fin (average l).
Proof.
  intros N. unfold xmean, average. rewrite xsum_fin, map_length. cbn [xdiv]. rewrite req_f; [reflexivity|]. destruct l; [congruence|]. cbn [length]. rewrite S_INR. pose proof (pos_INR (length l)). lra.
Qed.
Definition total (l : list R) : R := fold_right Rplus 0 l.
Lemma total_line (l : list R) (f : R -> R) c d e (g : R -> R) : (forall x, f x = c + d * x + e * g x) -> total (map f l) = INR (length l) * c + d * total l + e * total (map g l).
Proof.
  intros H. unfold total. induction l as [|x l IH]; [cbn; ring|]. cbn [map fold_right length]. rewrite IH, S_INR, H. ring.
Qed.
Lemma spread_pos l e : (exists x y, In x l /\ In y l /\ x <> y) -> 0 < total (map (fun x => (x - e) ^ 2) l).
Proof.
  intros (x & y & X & Y & N). assert (G : forall l z, In z l -> z <> e -> 0 < total (map (fun x => (x - e) ^ 2) l)).
  { clear. unfold total. induction l as [|u l IH]; intros z I N; [destruct I|]. cbn [map fold_right].
    assert (P : 0 <= fold_right Rplus 0 (map (fun x => (x - e) ^ 2) l)) by (clear; induction l as [|u l IH]; cbn [map fold_right]; [lra|pose proof (pow2_ge_0 (u - e)); lra]).
    destruct I as [->|I]; [assert (z - e <> 0) by lra; assert (0 < (z - e) ^ 2) by nra; lra|]. specialize (IH z I N). pose proof (pow2_ge_0 (u - e)). lra. }
  destruct (Req_dec x e) as [->|]; [apply (G l y Y); congruence|apply (G l x X); assumption].
Qed.
(** Simple regression on points of a line gives the line. *)
Lemma regression xs a b : (exists x y, In x xs /\ In y xs /\ x <> y) ->
  let ys := map (fun x => a + b * x) xs in
  let e_x := xmean (map Fin xs) in let e_y := xmean (map Fin ys) in
  let bb := (xmean (xzip xmul (map Fin xs) (map Fin ys)) -x e_x *x e_y) /x xvariance (map Fin xs) in
  bb = Fin b /\ e_y -x bb *x e_x = Fin a.
Proof.
  intros D. cbv zeta. assert (N : xs <> []) by (destruct D as (x & _ & I & _); destruct xs; [destruct I|discriminate]).
  assert (P : 0 < INR (length xs)) by (destruct xs; [congruence|]; cbn [length]; rewrite S_INR; pose proof (pos_INR (length xs)); lra).
  set (n := INR (length xs)) in *. set (s1 := total xs). set (s2 := total (map (fun x => x ^ 2) xs)).
  assert (E1 : xmean (map Fin xs) = Fin (s1 / n)) by (rewrite xmean_fin by exact N; reflexivity).
  assert (E2 : xmean (map Fin (map (fun x => a + b * x) xs)) = Fin ((n * a + b * s1) / n)).
  { rewrite xmean_fin by (destruct xs; [congruence|discriminate]). unfold average. rewrite map_length. fold n. f_equal. f_equal.
    change (total (map (fun x => a + b * x) xs) = n * a + b * s1). rewrite (total_line xs _ a b 0 (fun _ => 0)) by (intros; ring). fold n s1. ring. }
  assert (E3 : xmean (xzip xmul (map Fin xs) (map Fin (map (fun x => a + b * x) xs))) = Fin ((a * s1 + b * s2) / n)).
  { replace (xzip xmul (map Fin xs) (map Fin (map (fun x => a + b * x) xs))) with (map Fin (map (fun x => a * x + b * x ^ 2) xs)).
    2: { unfold xzip. clear. induction xs as [|x xs IH]; [reflexivity|]. cbn [map combine]. rewrite IH. cbn [xmul]. do 2 f_equal. ring. }
    rewrite xmean_fin by (destruct xs; [congruence|discriminate]). unfold average. rewrite map_length. fold n. f_equal. f_equal.
    change (total (map (fun x => a * x + b * x ^ 2) xs) = a * s1 + b * s2). rewrite (total_line xs _ 0 a b (fun x => x ^ 2)) by (intros; ring). fold n s1 s2. ring. }
  assert (V : 0 < total (map (fun x => (x - s1 / n) ^ 2) xs)) by (apply spread_pos, D).
  assert (V' : total (map (fun x => (x - s1 / n) ^ 2) xs) = s2 - s1 ^ 2 / n).
  { rewrite (total_line xs _ ((s1 / n) ^ 2) (- 2 * (s1 / n)) 1 (fun x => x ^ 2)) by (intros; ring). fold n s1 s2. field. lra. }
  assert (E4 : xvariance (map Fin xs) = Fin ((s2 - s1 ^ 2 / n) / n)).
  { unfold xvariance. rewrite E1, map_map. replace (map (fun x => xsquare (Fin x -x Fin (s1 / n))) xs) with (map Fin (map (fun x => (x - s1 / n) ^ 2) xs)).
    2: { rewrite map_map. apply map_ext. intros x. unfold xsub, xsquare. cbn [xopp xadd xmul]. f_equal. ring. }
    rewrite xmean_fin by (destruct xs; [congruence|discriminate]). unfold average. rewrite map_length. fold n. f_equal. f_equal. exact V'. }
  rewrite E1, E2, E3, E4. unfold xsub. cbn [xopp xmul xadd xdiv]. clearbody n s1 s2. rewrite V' in V.
  assert (W : 0 < (s2 - s1 ^ 2 / n) / n) by (apply Rdiv_lt_0_compat; assumption). rewrite req_f by lra.
  assert (U : s2 * n - s1 ^ 2 <> 0) by (replace (s2 * n - s1 ^ 2) with ((s2 - s1 ^ 2 / n) * n) by (field; lra); nra).
  assert (B : ((a * s1 + b * s2) / n + - (s1 / n * ((n * a + b * s1) / n))) / ((s2 - s1 ^ 2 / n) / n) = b) by (field; split; first [exact U|lra]).
  split; [f_equal; exact B|]. cbn [xmul xopp xadd]. rewrite B. f_equal. field. lra.
Qed.
(** On quotes of a symmetric curve a + b sqrt((k - m)^2 + 1/4) whose smallest variance
    is at m, the estimate is that curve. *)
Theorem C90_svi_estimate r a b i (n := length (svi_strikes r)) (k := fun j => ln (nth j (svi_strikes r) 0 / svi_forward r))
    (x := fun j => sqrt ((k j - k i) ^ 2 + 1 / 4)) :
  0 < svi_forward r -> Forall (fun s => 0 < s) (svi_strikes r) -> length (svi_vols r) = n -> argmin (total_variance r) = i ->
  (forall j, (j < n)%nat -> nth j (svi_vols r) 0 ^ 2 * svi_expiry r = a + b * x j) ->
  (exists j l, (j < n)%nat /\ (l < n)%nat /\ x j <> x l) ->
  estimate_initial_position r = raw a b 0 (k i) (1 / 2) /\ forall j, (j < n)%nat -> nth i (total_variance r) 0 <= nth j (total_variance r) 0.
Proof.
  intros F P L A Q (j & l & J & J' & D).
  assert (LT : length (total_variance r) = n) by (unfold total_variance; rewrite map_length; exact L).
  assert (I : (i < n)%nat) by (rewrite <- A, <- LT; apply (argmin_least (total_variance r) j); rewrite LT; exact J).
  split; [|intros j' J2; rewrite <- A; apply argmin_least; rewrite LT; exact J2].
  assert (K : log_moneyness r = map Fin (map k (seq 0 n))).
  { unfold log_moneyness. apply (nth_ext _ _ NaN NaN); [rewrite !map_length, seq_length; reflexivity|]. intros q Hq. rewrite map_length in Hq. fold n in Hq.
    pose (H := fun s => xln (Fin s /x Fin (svi_forward r))). change (map (fun s => xln (Fin s /x Fin (svi_forward r))) (svi_strikes r)) with (map H (svi_strikes r)).
    rewrite (nth_indep (map H (svi_strikes r)) NaN (H 0)) by (rewrite map_length; exact Hq). rewrite map_nth.
    rewrite map_map. pose (G := fun j => Fin (k j)). change (map (fun x0 : nat => Fin (k x0)) (seq 0 n)) with (map G (seq 0 n)). rewrite (nth_indep _ NaN (G 0%nat)) by (rewrite map_length, seq_length; exact Hq). rewrite map_nth, seq_nth by exact Hq.
    unfold G, H, k. cbn [Nat.add xdiv]. rewrite req_f by lra. assert (0 < nth q (svi_strikes r) 0) by (rewrite Forall_forall in P; apply P, nth_In, Hq). cbn [xln]. rewrite rlt_t by (apply Rdiv_lt_0_compat; assumption). reflexivity. }
  assert (T : total_variance r = map (fun z => a + b * z) (map x (seq 0 n))).
  { apply (nth_ext _ _ 0 0); [rewrite !map_length, seq_length; exact LT|]. intros q Hq. rewrite LT in Hq. rewrite map_map. pose (G := fun j => a + b * x j). change (map (fun x0 : nat => a + b * x x0) (seq 0 n)) with (map G (seq 0 n)).
    rewrite (nth_indep (map G _) 0 (G 0%nat)) by (rewrite map_length, seq_length; exact Hq). rewrite map_nth, seq_nth by exact Hq. unfold G. cbn [Nat.add]. rewrite <- Q by exact Hq.
    unfold total_variance. pose (V := fun v => v * v * svi_expiry r). change (map (fun v => v * v * svi_expiry r) (svi_vols r)) with (map V (svi_vols r)). rewrite (nth_indep _ 0 (V 0)) by (rewrite map_length, L; exact Hq). rewrite map_nth. unfold V. ring. }
  assert (M : nth (argmin (total_variance r)) (log_moneyness r) NaN = Fin (k i)).
  { rewrite A, K, map_map. pose (G := fun j => Fin (k j)). change (map (fun x0 : nat => Fin (k x0)) (seq 0 n)) with (map G (seq 0 n)). rewrite (nth_indep _ NaN (G 0%nat)) by (rewrite map_length, seq_length; exact I). rewrite map_nth, seq_nth by exact I. reflexivity. }
  assert (X : map (fun c => xsqrt (xsquare (c -x Fin (k i)) +x xsquare (Fin (1 / 2)))) (log_moneyness r) = map Fin (map x (seq 0 n))).
  { rewrite K, !map_map. apply map_ext. intros q. unfold xsub, xsquare. cbn [xopp xadd xmul]. rewrite xsqrt_ok by (pose proof (pow2_ge_0 (k q - k i)); lra). f_equal. unfold x. f_equal. field. }
  unfold estimate_initial_position. rewrite M, X, T.
  assert (DD : exists u v, In u (map x (seq 0 n)) /\ In v (map x (seq 0 n)) /\ u <> v).
  { exists (x j), (x l). repeat split; [apply in_map, in_seq; lia|apply in_map, in_seq; lia|exact D]. }
  destruct (regression (map x (seq 0 n)) a b DD) as [R1 R2]. cbv zeta in R1, R2. unfold raw. rewrite R2. rewrite R1. reflexivity.
Qed.

(** Two strikes on the curve 2 sqrt(k^2 + 1/4). *)
Definition two_quotes : svi_row := SviRow 1 1 [1; exp 1] [1; sqrt (2 * sqrt (5 / 4))] None None.
Example two_quotes_estimate : estimate_initial_position two_quotes = raw 0 2 0 0 (1 / 2).
Proof.
  assert (Q0 : 1 < sqrt (5 / 4)) by (rewrite <- sqrt_1 at 1; apply sqrt_lt_1; lra).
  assert (Q1 : sqrt (2 * sqrt (5 / 4)) * sqrt (2 * sqrt (5 / 4)) = 2 * sqrt (5 / 4)) by (apply sqrt_sqrt; lra).
  assert (H4 : sqrt (1 / 4) = 1 / 2) by (replace (1 / 4) with ((1 / 2) * (1 / 2)) by field; apply sqrt_square; lra).
  assert (L0 : ln (1 / 1) = 0) by (replace (1 / 1) with 1 by field; apply ln_1).
  assert (L1 : ln (exp 1 / 1) = 1) by (replace (exp 1 / 1) with (exp 1) by field; apply ln_exp).
  pose proof (C90_svi_estimate two_quotes 0 2 0) as T. cbv zeta in T. cbn [two_quotes svi_strikes svi_forward svi_vols svi_expiry length nth] in T. rewrite L0 in T. apply T; clear T.
  - lra.
  - repeat constructor; [lra|apply exp_pos].
  - reflexivity.
  - unfold total_variance. cbn [two_quotes svi_vols svi_expiry map argmin nth]. rewrite rlt_f by lra. reflexivity.
  - intros [|[|j]] J; [| |lia]; cbn [nth]; rewrite ?L0, ?L1.
    + replace ((0 - 0) ^ 2 + 1 / 4) with (1 / 4) by ring. rewrite H4. field.
    + replace ((1 - 0) ^ 2 + 1 / 4) with (5 / 4) by field. first [lra | nra].
  - exists 0%nat, 1%nat. cbn [nth]. rewrite L0, L1. split; [lia|]. split; [lia|]. replace ((0 - 0) ^ 2 + 1 / 4) with (1 / 4) by ring. replace ((1 - 0) ^ 2 + 1 / 4) with (5 / 4) by field. rewrite H4. lra.
Qed.

Print Assumptions C90_heston_bounds.
Print Assumptions C90_heston_start.
Print Assumptions C90_heston_no_worse.
Print Assumptions C90_heston_error.
Print Assumptions C90_heston_market.
Print Assumptions C90_svi_proper.
Print Assumptions C90_svi_start.
Print Assumptions C90_svi_repaired.
Print Assumptions C90_svi_loss.
Print Assumptions C90_svi_estimate.
