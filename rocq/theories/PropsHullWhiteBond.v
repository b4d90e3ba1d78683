(** C67: bond prices in the Hull-White model. *)
From Coquelicot Require Import Coquelicot.
From Coq Require Import ZArith Reals List Bool Arith Lia Lra.
From Verif Require Import TensorModel TensorProofs BrentModel TimeGridModel TimeGridSpec TimeGridProofs PiecewiseModel PiecewiseProofs PropsPiecewise BlackScholesSpec BlackScholesProofs GaussConv MvNormalSpec GbmModel GbmProofs
  HullWhiteModel HullWhiteSpec HullWhiteProofs HullWhiteProofs2 PropsHullWhite HullWhiteBondSpec HullWhiteBondProofs.
Import ListNotations.
Open Scope R_scope.

(** Coordinate [a] has the constant mean reversion k and a constant or piecewise
    constant volatility whose jumps are not before time 0. *)
Definition hw_coordinate (h : hw) (a : nat) (k : R) : Prop :=
  hw_mr h a = Const k /\ k <> 0 /\ piecewise_ok (hw_vol h a) /\ (forall x, In x (param_jumps (hw_vol h a) ++ corr_jumps h) -> 0 <= x).
(** P(0, T) = exp(-R(T) T) *)
Definition initial_bond (h : hw) (a : nat) (T : R) : R := exp (- (hw_rate h a T * T)).
Lemma coordinate_moments h a k : hw_coordinate h a k -> noise_integral (param_at (hw_vol h a)) k (variance_at h a) /\ drift_integral k (variance_at h a) (mean_at h a) /\ (forall x, In x (param_jumps (hw_vol h a)) -> 0 <= x).
Proof. intros (MR & K0 & VO & PJ). split; [|split]; [apply variance_integral; assumption|apply mean_integral; assumption|intros x X; apply PJ, in_or_app; left; exact X]. Qed.

(** ** The bond price as a function of the short rate *)
Theorem C67_formula : forall h a k y G r t T, hw_coordinate h a k -> state_variance (param_at (hw_vol h a)) k y -> loading k G -> 0 <= t ->
  discount_bond_price h a r t T = initial_bond h a T / initial_bond h a t * exp (- ((r - hw_forward h a t) * G t T) - y t * G t T ^ 2 / 2).
Proof.
  intros h a k y G r t T HC SV HL T0. destruct (coordinate_moments h a k HC) as (NI & _ & _). destruct HC as (MR & K0 & _ & _).
  unfold discount_bond_price, bond_reconstitution, compute_yt, initial_bond. cbv zeta. rewrite MR. cbn [param_at].
  rewrite (loading_is k G t T K0 HL), (state_variance_is _ k _ y NI SV t T0). replace (- k * (T - t)) with (- (k * (T - t))) by ring. f_equal; [f_equal; f_equal; ring|f_equal; field; exact K0].
Qed.
Print Assumptions C67_formula.
Theorem C67_endpoints : forall h a k r t, hw_coordinate h a k -> 0 <= t ->
  discount_bond_price h a r t t = 1 /\ forall T, discount_bond_price h a (hw_forward h a 0) 0 T = initial_bond h a T.
Proof.
  intros h a k r t HC T0. destruct (coordinate_moments h a k HC) as (NI & _ & _). pose proof (noise_zero _ _ _ NI) as V0. destruct HC as (MR & K0 & _ & _). unfold discount_bond_price, bond_reconstitution, compute_yt, initial_bond. cbv zeta. rewrite MR. cbn [param_at]. split; [|intros T].
  - replace (- k * (t - t)) with 0 by ring. rewrite exp_0. replace (_ - _ * (_ * ((1 - 1) / k) ^ 2)) with 0 by (field; exact K0). rewrite exp_0. pose proof (exp_pos (- hw_rate h a t * t)). field. lra.
  - rewrite V0. replace (- ((hw_forward h a 0 - hw_forward h a 0) * _) - _) with 0 by (field; exact K0). replace (- hw_rate h a 0 * 0) with 0 by ring. rewrite exp_0. replace (- hw_rate h a T * T) with (- (hw_rate h a T * T)) by ring. field.
Qed.
Print Assumptions C67_endpoints.

(** ** The price is the conditional expectation of the discount factor *)
Lemma drift_part (k : R) (V M y : R -> R) t s : 0 <= t <= s -> drift_integral k V M -> (forall u, 0 <= u -> y u = exp (- 2 * k * u) * V u) -> is_RInt (fun u => exp (- (k * (s - u))) * y u) t s (exp (- k * s) * (M s - M t)).
Proof.
  intros TS DI Y. apply (rint_ext (fun u => exp (- k * s) * (exp (- k * u) * V u))); [lra| |].
  - intros u HU. rewrite Y by lra. replace (exp (- (k * (s - u)))) with (exp (- k * s) * exp (k * u)) by (rewrite <- exp_plus; f_equal; ring). replace (exp (- k * u)) with (exp (k * u) * exp (-2 * k * u)) by (rewrite <- exp_plus; f_equal; ring). ring.
  - apply (is_RInt_scal (V := R_NormedModule)). apply rint_between; apply DI; lra.
Qed.
Lemma rate_integral_exists h a k y G f t T r F : hw_coordinate h a k -> state_variance (param_at (hw_vol h a)) k y -> loading k G -> 0 <= t <= T -> is_RInt f t T F ->
  exists m v, rate_integral f (param_at (hw_vol h a)) k y G t T r m v.
Proof.
  intros HC SV HL TT HF. destruct (coordinate_moments h a k HC) as (NI & DI & PJ). pose proof HC as (MR & K0 & VO & _).
  destruct (noise_variance_exists (hw_vol h a) k K0 VO PJ t T TT) as (v & HV). destruct (drift_area_exists (hw_vol h a) k _ _ K0 VO PJ NI DI t T TT) as (A & HA).
  exists (F + (r - f t) * G t T + A), v, F, (fun s => exp (- k * s) * (mean_at h a s - mean_at h a t)), A. split; [exact HF|]. split; [|split; [exact HA|split; [reflexivity|]]].
  - intros s HS. apply (drift_part k (variance_at h a)); [lra|exact DI|]. intros u U. apply (state_variance_is _ k _ y NI SV u U).
  - revert HV. apply rint_ext; [lra|]. intros u _. rewrite (loading_is k G u T K0 HL). reflexivity.
Qed.
Lemma rate_integral_value h a k y G f t T r m v : hw_coordinate h a k -> state_variance (param_at (hw_vol h a)) k y -> loading k G -> 0 <= t <= T ->
  rate_integral f (param_at (hw_vol h a)) k y G t T r m v -> forall F, is_RInt f t T F -> m - v / 2 = F + (r - f t) * G t T + y t * G t T ^ 2 / 2.
Proof.
  intros HC SV HL TT (F0 & D & A & HF0 & HD & HA & EM & HV) F HF. destruct (coordinate_moments h a k HC) as (NI & DI & PJ). pose proof HC as (MR & K0 & VO & _).
  rewrite (rint_unique _ _ _ _ _ HF0 HF) in EM. clear HF0 F0. rewrite (state_variance_is _ k _ y NI SV t ltac:(lra)), (loading_is k G t T K0 HL) in *.
  assert (HA' : is_RInt (fun s => exp (- k * s) * (mean_at h a s - mean_at h a t)) t T A).
  { revert HA. apply rint_ext; [lra|]. intros s HS. apply (rint_unique _ _ _ _ _ (HD s ltac:(lra))). apply (drift_part k (variance_at h a)); [lra|exact DI|]. intros u U. apply (state_variance_is _ k _ y NI SV u U). }
  assert (HV' : is_RInt (fun u => param_at (hw_vol h a) u ^ 2 * ((1 - exp (- (k * (T - u)))) / k) ^ 2) t T v) by (revert HV; apply rint_ext; [lra|]; intros u _; rewrite (loading_is k G u T K0 HL); reflexivity).
  pose proof (bond_exponent (hw_vol h a) k _ _ K0 VO PJ NI DI t T A v TT HA' HV') as E. lra.
Qed.
Lemma variance_nonneg f sigma k y G t T r m v : t <= T -> rate_integral f sigma k y G t T r m v -> 0 <= v.
Proof.
  intros TT (F & D & A & _ & _ & _ & _ & HV). apply (is_RInt_le (fun _ => 0) (fun u => sigma u ^ 2 * G u T ^ 2) t T 0 v TT).
  - apply (rint_val _ _ _ ((T - t) * 0)); [apply (is_RInt_const (V := R_NormedModule))|ring].
  - exact HV.
  - intros u _. apply Rmult_le_pos; apply pow2_ge_0.
Qed.
(** The expectation of exp(-(integral of r from t to T)) given r(t) = r. *)
Theorem C67_expectation : forall h a k y G t T r m v, hw_coordinate h a k -> state_variance (param_at (hw_vol h a)) k y -> loading k G -> 0 <= t <= T ->
  is_RInt (hw_forward h a) t T (hw_rate h a T * T - hw_rate h a t * t) ->
  rate_integral (hw_forward h a) (param_at (hw_vol h a)) k y G t T r m v ->
  expectation (fun z => exp (- (m + sqrt v * z))) (discount_bond_price h a r t T).
Proof.
  intros h a k y G t T r m v HC SV HL TT HF RI. pose proof (rate_integral_value h a k y G _ t T r m v HC SV HL TT RI _ HF) as E. pose proof (variance_nonneg _ _ _ _ _ _ _ _ _ _ (proj2 TT) RI) as V0.
  rewrite (C67_formula h a k y G r t T HC SV HL ltac:(lra)). unfold initial_bond, Rdiv at 1. rewrite <- exp_Ropp, <- !exp_plus.
  replace (_ + _) with (- m + (- sqrt v) ^ 2 / 2) by (replace ((- sqrt v) ^ 2) with (sqrt v * sqrt v) by ring; rewrite sqrt_sqrt by exact V0; lra).
  apply (expectation_ext (fun z => exp (- m + - sqrt v * z))); [intros z; f_equal; ring|]. apply expect_exp_affine.
Qed.
Print Assumptions C67_expectation.

(** ** Discount curves along simulated paths *)
(** Entry (sample s, curve time m, time i, coordinate a) is the price, at the
    simulated rate of that time, of the bond with the maturity t_i + tau_m. *)
Theorem C67_curve_paths : forall cholesky generated h times curve_times supplied validate draws k V M L grid y G,
  hw_setting h k V M -> (0 < hw_dim h)%nat -> times <> [] -> increasing times -> 0 <= nth 0 times 0 ->
  simulation_grid h times grid -> step_factors cholesky h grid L -> uses h (length grid - 1) generated supplied validate draws ->
  (forall a, (a < hw_dim h)%nat -> state_variance (param_at (hw_vol h a)) (k a) (y a) /\ loading (k a) (G a)) ->
  exists curve rate idx, sample_discount_curve_paths cholesky generated h times curve_times None supplied validate = Some (curve, rate) /\ length rate = length times /\
    forall i, (i < length times)%nat -> (idx i < length grid)%nat /\ at_ grid (idx i) = nth i times 0 /\
      forall s a, (a < hw_dim h)%nat -> let t := nth i times 0 in let r := nth i rate (fun _ _ => 0) s a in
        r = hw_solution (hw_forward h a) (k a) (V a) (M a) (at_ grid) (fun j => sum_to (hw_dim h) (fun b => L j a b * draws j s b)) (idx i) /\
        forall m, (m < length curve_times)%nat -> let T := t + nth m curve_times 0 in
          curve s m i a = initial_bond h a T / initial_bond h a t * exp (- ((r - hw_forward h a t) * G a t T) - y a t * G a t T ^ 2 / 2).
Proof.
  intros ch gen h times ct sup va draws k V M L grid y G HS D0 TN TI T0 SG SF US YG. destruct (C66_path ch gen h times sup va draws k V M L grid HS D0 TN TI T0 SG SF US) as (r & idx & E & LR & P).
  unfold sample_discount_curve_paths. rewrite E. do 3 eexists. split; [reflexivity|]. split; [exact LR|]. intros i Hi. destruct (P i Hi) as (I1 & I2 & I3). split; [exact I1|]. split; [exact I2|].
  intros s a Ha. cbv zeta. split; [apply I3, Ha|]. intros m Hm. destruct (YG a Ha) as (SV & HL). destruct (HS a Ha) as (MR & K0 & VO & PJ & _ & _).
  rewrite <- (C67_formula h a (k a) (y a) (G a)); [reflexivity|repeat split; assumption|exact SV|exact HL|]. apply Rle_trans with (nth 0 times 0); [exact T0|].
  clear - TI Hi. induction i as [|i IH]; [lra|]. apply Rle_trans with (nth i times 0); [apply IH; lia|]. pose proof (TI i Hi). lra.
Qed.
Print Assumptions C67_curve_paths.

(** ** A mean reversion that changes with time *)
(** discount_bond_price evaluates the mean reversion at t only.  Without noise and
    with a flat curve at 0, r(0) = 1 gives r(s) = exp(-K(s)), where K is the
    integral of the mean reversion: 1 up to time 1 and 2 after it. *)
Definition changing : hw := HW 1 (fun _ => Piecewise (PW [1] [1; 2])) (fun _ => Const 0) None (fun _ _ => 0) (fun _ _ => 0).
Theorem C67_mean_reversion_refuted :
  exists K area, (forall s, 0 <= s <= 2 -> is_RInt (param_at (hw_mr changing 0)) 0 s (K s)) /\ is_RInt (fun s => exp (- K s)) 0 2 area /\
    discount_bond_price changing 0 1 0 2 <> exp (- area).
Proof.
  set (p := Piecewise (PW [1] [1; 2])). assert (AT : forall u, param_at p u = if Rlt_dec 1 u then 2 else 1).
  { intros u. unfold p. cbn [param_at]. unfold pw_call, searchsorted_left. cbn. unfold at_. destruct (Rlt_dec 1 u); reflexivity. }
  assert (I1 : forall s, s <= 1 -> 0 <= s -> is_RInt (param_at p) 0 s s).
  { intros s S1 S0. apply (rint_ext (fun _ => 1)); [exact S0|intros u U; rewrite AT; destruct (Rlt_dec 1 u); [lra|reflexivity]|]. apply (rint_val _ _ _ ((s - 0) * 1)); [apply (is_RInt_const (V := R_NormedModule))|ring]. }
  set (K := fun s => if Rle_dec s 1 then s else 2 * s - 1). set (x := exp (- (1))). exists K, (1 - x + x * (1 - x ^ 2) / 2). split; [|split].
  - change (hw_mr changing 0) with p. intros s HS. unfold K. destruct (Rle_dec s 1) as [L|L]; [apply I1; lra|]. apply (rint_val _ _ _ (1 + (s - 1) * 2)); [|ring].
    apply (is_RInt_Chasles (V := R_NormedModule) _ 0 1 s); [apply I1; lra|]. apply (rint_ext (fun _ => 2)); [lra|intros u U; rewrite AT; destruct (Rlt_dec 1 u); [reflexivity|lra]|]. apply (is_RInt_const (V := R_NormedModule)).
  - apply (is_RInt_Chasles (V := R_NormedModule) _ 0 1 2).
    + apply (rint_ext (fun s => exp (- s))); [lra|intros u U; unfold K; destruct (Rle_dec u 1); [reflexivity|lra]|]. set (F := fun s => - exp (- s)). apply (rint_val _ _ _ (F 1 - F 0)); [|unfold F, x; rewrite Ropp_0, exp_0; ring].
      apply rint_derive; unfold F; [intros u; auto_derive; [exact Logic.I|ring]|intros u; apply (ex_derive_continuous (K := R_AbsRing) (V := R_NormedModule)); auto_derive; exact Logic.I].
    + apply (rint_ext (fun s => exp (- (2 * s - 1)))); [lra|intros u U; unfold K; destruct (Rle_dec u 1); [lra|reflexivity]|]. set (F := fun s => - exp (- (2 * s - 1)) / 2). apply (rint_val _ _ _ (F 2 - F 1)).
      * apply rint_derive; unfold F; [intros u; auto_derive; [exact Logic.I|unfold Rminus; field]|intros u; apply (ex_derive_continuous (K := R_AbsRing) (V := R_NormedModule)); auto_derive; exact Logic.I].
      * unfold F. replace (exp (- (2 * 2 - 1))) with (x * x * x) by (unfold x; rewrite <- !exp_plus; f_equal; ring). replace (exp (- (2 * 1 - 1))) with x by (unfold x; f_equal; ring). field.
  - unfold discount_bond_price, bond_reconstitution, compute_yt, variance_at, jump_locations, variance_int. cbn [changing hw_vol hw_mr hw_corr hw_rate hw_forward param_jumps app corr_jumps jumps]. change (Piecewise _) with p. rewrite !AT. destruct (Rlt_dec 1 0); [lra|].
    cbv zeta. unfold sort. cbn [fold_right insert]. cbn [param_at]. unfold vn, var_at_vol_knots, var_between_vol_knots, jump_locations. cbn [changing hw_vol hw_mr hw_corr param_jumps app corr_jumps jumps].
    unfold searchsorted_left, at_. cbn [filter length]. unfold sort. cbn [fold_right insert filter]. destruct (Rlt_dec 1 0); [lra|]. cbn [length nth]. intros E.
    assert (X : 0 < x < 1) by (split; [apply exp_pos|unfold x; apply Rlt_le_trans with (exp 0); [apply exp_increasing; lra|rewrite exp_0; lra]]).
    replace (exp (-1 * (2 - 0))) with (x * x) in E by (unfold x; rewrite <- exp_plus; f_equal; ring).
    apply (f_equal ln) in E. rewrite ln_exp in E. rewrite !Rmult_0_l, ?Ropp_0 in E.
    match type of E with ln ?e = _ => replace e with (exp (- (1 - x * x))) in E end.
    + rewrite ln_exp in E. assert (Q : x * (1 - x) ^ 2 = 0) by lra. apply Rmult_integral in Q as [Q|Q]; [lra|]. cbn in Q. rewrite Rmult_1_r in Q. apply Rmult_integral in Q as [Q|Q]; lra.
    + replace (exp (- (1) * (2 - 0))) with (x * x) by (unfold x; rewrite <- exp_plus; f_equal; ring). rewrite !Rmult_0_l, exp_0. replace (1 / 1) with 1 by field. rewrite Rmult_1_l. f_equal. field.
Qed.
Print Assumptions C67_mean_reversion_refuted.

(** * Example *)
(** Mean reversion 1/10, volatility 1 up to time 1 and 2 after it, the curve flat
    at 1 percent, from time 1/2 to time 3 with the short rate at 2 percent. *)
Example bond_ex : let h := HW 1 (fun _ => Const (1 / 10)) (fun _ => Piecewise (PW [1] [1; 2])) None (fun _ _ => 1 / 100) (fun _ _ => 1 / 100) in
  let y t := exp (- 2 * (1 / 10) * t) * variance_at h 0 t in let G t T := (1 - exp (- (1 / 10 * (T - t)))) / (1 / 10) in
  hw_coordinate h 0 (1 / 10) /\ state_variance (param_at (hw_vol h 0)) (1 / 10) y /\ loading (1 / 10) G /\
  is_RInt (hw_forward h 0) (1 / 2) 3 (hw_rate h 0 3 * 3 - hw_rate h 0 (1 / 2) * (1 / 2)) /\
  exists m v, rate_integral (hw_forward h 0) (param_at (hw_vol h 0)) (1 / 10) y G (1 / 2) 3 (2 / 100) m v.
Proof.
  intros h y G. assert (HC : hw_coordinate h 0 (1 / 10)).
  { split; [reflexivity|]. split; [lra|]. split; [exists [1], [1; 2]; split; [reflexivity|intros i H; cbn in H; lia]|]. intros x [<-|[]]. lra. }
  assert (SV : state_variance (param_at (hw_vol h 0)) (1 / 10) y).
  { destruct (coordinate_moments h 0 _ HC) as (NI & _ & _). intros t T. unfold y. apply (rint_ext (fun u => exp (-2 * (1 / 10) * t) * (param_at (hw_vol h 0) u ^ 2 * exp (2 * (1 / 10) * u)))); [exact T| |apply (is_RInt_scal (V := R_NormedModule)), NI, T].
    intros u _. replace (exp (- (2 * (1 / 10) * (t - u)))) with (exp (-2 * (1 / 10) * t) * exp (2 * (1 / 10) * u)) by (rewrite <- exp_plus; f_equal; ring). ring. }
  assert (HL : loading (1 / 10) G).
  { intros t T. set (F := fun u => - exp (- (1 / 10 * (u - t))) / (1 / 10)). apply (rint_val _ _ _ (F T - F t)); [|unfold F, G; replace (1 / 10 * (t - t)) with 0 by ring; rewrite Ropp_0, exp_0; field].
    apply rint_derive; unfold F; [intros u; auto_derive; [exact Logic.I|]; unfold Rminus; field|intros u; apply (ex_derive_continuous (K := R_AbsRing) (V := R_NormedModule)); auto_derive; exact Logic.I]. }
  assert (HF : is_RInt (hw_forward h 0) (1 / 2) 3 (hw_rate h 0 3 * 3 - hw_rate h 0 (1 / 2) * (1 / 2))) by (apply (rint_val _ _ _ ((3 - 1 / 2) * (1 / 100))); [apply (is_RInt_const (V := R_NormedModule))|cbn [hw_rate h]; field]).
  split; [exact HC|]. split; [exact SV|]. split; [exact HL|]. split; [exact HF|]. apply (rate_integral_exists h 0 (1 / 10) y G _ (1 / 2) 3 (2 / 100) _ HC SV HL ltac:(lra) HF).
Qed.
