(** C99: American options by the Andersen-Lake formula.  [on_spot], [image],
    [floored_spline] and [agree] are defined in AndersenLakeSpec.v, [quoted]
    and [expectation] in BlackScholesSpec.v. *)
From Coquelicot Require Import Coquelicot.
From Coq Require Import Reals List Bool Arith Lia Lra Psatz FunctionalExtensionality.
From Verif Require Import InterpModel BrentModel BrentProofs ExtReal HaganWestModel BootstrapModel BootstrapProofs BlackScholesModel BlackScholesSpec BlackScholesProofs NormalProofs IntegrateModel
  GaussData PropsGauss KronrodModel PropsKronrod PropsBlackScholes AmericanProofs3 CubicSpec PropsCubic FdMethodsProofs AndersenLakeModel AndersenLakeSpec AndersenLakeProofs AndersenLakeProofs2.
Import ListNotations.
Open Scope R_scope.

(** The distribution function, in each of its three ranges, is the probability
    that a standard normal variable is below the argument. *)
Theorem C99_distribution a : standard_normal_cdf Float64 a = Some (normal_cdf a) /\ expectation (fun z => if Rlt_dec z a then 1 else 0) (normal_cdf a).
Proof.
  split; [reflexivity|]. rewrite normal_cdf_eq. assert (E := expect_exp_below 0 a).
  replace (exp (0 * 0 / 2) * ncdf (a - 0)) with (ncdf a) in E by (rewrite Rminus_0_r; replace (0 * 0 / 2) with 0 by field; rewrite exp_0; ring).
  replace (fun z => if Rlt_dec z a then 1 else 0) with (fun z => if Rlt_dec z a then exp (0 * z) else 0); [exact E|].
  apply functional_extensionality. intros z. rewrite Rmult_0_l, exp_0. reflexivity.
Qed.

(** Settings for which the quadratures have tables. *)
Definition settings_ok (c : settings) : Prop :=
  (2 <= grid_num_points c)%nat /\ supported (num_points_legendre c) /\ kronrod_supported (num_points_kronrod c) /\ 0 <= tolerance_kronrod c.

(** The exercise boundary: each approximation is the image of the spline
    through the one before under the integral equation; the loop stops at the
    first approximation which agrees with the one before, or at the limit. *)
Theorem C99_boundary eps grid k r q sigma m tol points f : 0 < eps -> supported points ->
  (2 <= length grid)%nat -> (forall i, (S i < length grid)%nat -> nth i grid 0 < nth (S i) grid 0) ->
  exercise_boundary eps grid k r q sigma m tol points = Some f ->
  exists n (P : nat -> list R) (B : nat -> R -> R), (n <= m)%nat
    /\ (forall i, (i < length grid)%nat -> nth i (P 0%nat) 0 = k * (if Rlt_dec (Rabs q) eps then 1 else Rmin 1 (r / q)))
    /\ (forall i, (i <= n)%nat -> length (P i) = length grid /\ floored_spline eps grid (P i) (B i))
    /\ (forall i j, (i < n)%nat -> (j < length grid)%nat ->
          nth j (P (S i)) 0 = image ncdf (legendre_quad points) eps k r q sigma (B i) (nth j grid 0))
    /\ (forall i, (S i < n)%nat -> ~ agree eps tol (length grid) (P (S i)) (P i))
    /\ (n = m \/ exists i, n = S i /\ agree eps tol (length grid) (P n) (P i))
    /\ (forall t, f t = B n t) /\ forall t, eps <= f t.
Proof.
  intros E0 SP G2 GI E. unfold exercise_boundary in E. set (start := map _ grid) in E. assert (LS : length start = length grid) by apply map_length.
  destruct (boundary_loop _ _ _ _ _ _ _ _ _ _ _) as [out|] eqn:EL; [|discriminate].
  destruct (loop_history eps grid k r q sigma tol points SP G2 GI m false start out LS EL) as (n & P & B & NM & P0 & PN & LO & PS & ST & _ & FIN).
  destruct (spline_ok eps grid G2 GI out LO) as (s & ES & FS). rewrite ES in E. injection E as <-.
  exists n, P, (fun i => if (i <? n)%nat then B i else boundary_function eps s). split; [exact NM|]. split.
  { intros i I0. rewrite P0. unfold start. rewrite (nth_map_in _ grid 0 0) by exact I0. unfold start_boundary, rlt. destruct (Rlt_dec (Rabs q) eps); reflexivity. }
  split. { intros i I0. destruct (Nat.ltb_spec i n) as [X|X].
    - destruct (PS i X) as (_ & FI & _). split; [|exact FI]. destruct i as [|i]; [rewrite P0; exact LS|]. apply (PS i). lia.
    - assert (i = n) by lia. subst i. rewrite PN. split; [exact LO|exact FS]. }
  split. { intros i j I0 J. destruct (Nat.ltb_spec i n) as [X|X]; [|lia]. apply (PS i X), J. }
  split. { intros i I0 A. apply ST in A; lia. }
  split. { destruct FIN as [F|[(F & _)|F]]; [left; exact F|discriminate|right; exact F]. }
  rewrite Nat.ltb_irrefl. split; [reflexivity|]. intros t. apply Rmax_r.
Qed.

(** The rate of discount and the spot price that the arguments describe. *)
Definition rate_in (a : option_args) (D : R) : R := - ln D / expiry a.
Definition spot_in (a : option_args) (D F : R) : R := F * D * exp (dividend a * expiry a).
Lemma rate_ok a D F : quoted a D F -> 0 < expiry a -> rate_of a = Some (rate_in a D) /\ exp (- (rate_in a D * expiry a)) = D.
Proof.
  intros (D0 & DT & _) T0. split.
  - unfold rate_of, rate_in, discounts_to in *. destruct (discount_rate a) as [r|], (discount_factor a) as [d|]; try contradiction; subst D.
    + rewrite ln_exp. f_equal. field. lra.
    + destruct (rle d 0) eqn:X; [apply rle_true in X; lra|]. unfold divide_no_nan. destruct (Req_EM_T (expiry a) 0); [lra|reflexivity].
    + rewrite ln_1. f_equal. field. lra.
  - unfold rate_in. replace (- (- ln D / expiry a * expiry a)) with (ln D) by (field; lra). apply exp_ln, D0.
Qed.
Lemma al_core eps c a D F : quoted a D F -> 0 < expiry a -> andersen_lake eps Float64 c a =
  andersen_lake_core (eps Float64) c (volatility a) (strike a) (expiry a) (spot_in a D F) (rate_in a D) (dividend a) (calls a).
Proof.
  intros Q T0. destruct (rate_ok a D F Q T0) as (RO & RD). pose proof Q as (D0 & DT & FI & _). unfold andersen_lake. rewrite RO. cbn [standard_normal_cdf].
  assert (S0 : match forward a, spot a with Some f, _ => f * exp (- (rate_in a D - dividend a) * expiry a) | None, Some s => s | None, None => 0 end = spot_in a D F).
  { unfold spot_in. unfold forward_is in FI. destruct (spot a) as [x|], (forward a) as [f|]; try contradiction; subst F.
    - rewrite exp_Ropp. assert (exp (dividend a * expiry a) <> 0) by apply Rgt_not_eq, exp_pos. field. split; [exact H|lra].
    - rewrite <- RD at 2. rewrite Rmult_assoc, <- exp_plus. f_equal. f_equal. ring. }
  unfold dividend in *. rewrite S0. unfold forward_is in FI. unfold discounts_to in DT. unfold calls.
  destruct (spot a), (forward a); try contradiction; cbn [is_none eqb]; destruct (discount_rate a), (discount_factor a); try contradiction; cbn [is_none negb andb]; destruct (is_call_option a) as [[|]|]; reflexivity.
Qed.
Lemma spot_quoted a D F : quoted a D F -> 0 < expiry a -> is_normal_volatility a = false ->
  quoted (on_spot (spot_in a D F) (strike a) (rate_in a D) (dividend a) (volatility a) (expiry a) (calls a)) D F.
Proof.
  intros Q T0 NV. destruct (rate_ok a D F Q T0) as (_ & RD). pose proof Q as (D0 & DT & FI & _ & _ & PO). split; [exact D0|]. unfold on_spot. split; [cbn; symmetry; exact RD|]. split.
  { change (F = F * D * exp (dividend a * expiry a) * exp (- (dividend a * expiry a)) / D). rewrite exp_Ropp. assert (exp (dividend a * expiry a) <> 0) by apply Rgt_not_eq, exp_pos. field. split; [exact H|lra]. }
  split; [cbn; lra|]. split; [intros (_ & X & _); apply X; reflexivity|]. cbn. intros _. apply PO, NV.
Qed.
Lemma spot_price a D F : quoted a D F -> 0 < expiry a -> is_normal_volatility a = false ->
  option_price (on_spot (spot_in a D F) (strike a) (rate_in a D) (dividend a) (volatility a) (expiry a) (calls a)) = option_price a.
Proof.
  intros Q T0 NV. apply (C39_same_market _ _ D F); [apply spot_quoted; assumption|exact Q|reflexivity|reflexivity|reflexivity| |symmetry; exact NV]. unfold calls at 1. cbn. destruct (calls a); reflexivity.
Qed.
Lemma grid_ok T n : 0 < T -> (2 <= n)%nat -> (2 <= length (linspace_to T n))%nat /\
  (forall i, (S i < length (linspace_to T n))%nat -> nth i (linspace_to T n) 0 < nth (S i) (linspace_to T n) 0) /\ forall t, In t (linspace_to T n) -> 0 <= t.
Proof.
  intros T0 N2. assert (N0 : 0 < INR n) by (apply lt_0_INR; lia). unfold linspace_to. rewrite map_length, seq_length. split; [exact N2|]. split.
  - intros i I0. set (g := fun j : nat => T * INR (S j) / INR n). assert (G : forall j, (j < n)%nat -> nth j (map g (seq 0 n)) 0 = g j). { intros j J. rewrite (nth_map_in g (seq 0 n) 0%nat 0 j) by (rewrite seq_length; exact J). rewrite seq_nth by exact J. reflexivity. } rewrite !G by lia. unfold g. unfold Rdiv. apply Rmult_lt_compat_r; [apply Rinv_0_lt_compat, N0|]. apply Rmult_lt_compat_l; [exact T0|]. apply lt_INR. lia.
  - intros t I0. apply in_map_iff in I0 as (i & <- & _). apply Rmult_le_pos; [apply Rmult_le_pos; [lra|apply pos_INR]|apply Rlt_le, Rinv_0_lt_compat, N0].
Qed.

(** Prices exist. *)
Lemma rate_pos eps r o : 0 < eps -> 0 <= r -> 0 <= boundary_rate eps r o.
Proof. intros. unfold boundary_rate. destruct (rlt _ _); [destruct (rlt _ _); lra|lra]. Qed.
Lemma core_parts eps c sigma K T s r q call x : kronrod_supported (num_points_kronrod c) -> andersen_lake_core eps c sigma K T s r q call = Some x ->
  exists e b t1 t2, option_price (on_spot s K r q sigma T call) = Some e /\ x = (e +x Fin t1 -x Fin t2)
    /\ gauss_kronrod (func_1 eps b T (if call then K else s) (if call then s else K) (if call then q else r) (if call then r else q) sigma) [(0, T)] (tolerance_kronrod c) (num_points_kronrod c) (max_depth_kronrod c) = Some [t1]
    /\ gauss_kronrod (func_2 eps b T (if call then K else s) (if call then s else K) (if call then q else r) (if call then r else q) sigma) [(0, T)] (tolerance_kronrod c) (num_points_kronrod c) (max_depth_kronrod c) = Some [t2].
Proof.
  intros SP E. unfold andersen_lake_core in E. fold (on_spot s K r q sigma T call) in E. destruct (option_price _) as [e|]; [|discriminate]. cbv zeta in E.
  destruct (exercise_boundary _ _ _ _ _ _ _ _ _) as [b|]; [|discriminate].
  match type of E with match ?A with _ => _ end = _ => destruct A as [[|t1 [|]]|] eqn:E1; try discriminate E end.
  match type of E with match ?A with _ => _ end = _ => destruct A as [[|t2 [|]]|] eqn:E2; try discriminate E end.
  injection E as <-. exists e, b, t1, t2. split; [reflexivity|]. split; [reflexivity|]. split; assumption.
Qed.
Theorem C99_priced eps c a D F : 0 < eps Float64 -> settings_ok c -> quoted a D F -> is_normal_volatility a = false -> 0 < expiry a -> D <= 1 -> 0 <= dividend a ->
  exists p, andersen_lake eps Float64 c a = Some (Fin p).
Proof.
  intros E0 (G2 & SL & SK & _) Q NV T0 D1 Q0. rewrite (al_core eps c a D F Q T0). unfold andersen_lake_core. fold (on_spot (spot_in a D F) (strike a) (rate_in a D) (dividend a) (volatility a) (expiry a) (calls a)).
  rewrite (spot_price a D F Q T0 NV). destruct (C39_value a D F Q) as (m & -> & _). cbv zeta.
  assert (R0 : 0 <= rate_in a D). { unfold rate_in. apply Rmult_le_pos; [|apply Rlt_le, Rinv_0_lt_compat, T0]. destruct (Req_dec D 1) as [->|N]; [rewrite ln_1; lra|]. assert (X := ln_increasing D 1 (proj1 Q)). rewrite ln_1 in X. lra. }
  destruct (grid_ok (expiry a) (grid_num_points c) T0 G2) as (H2 & HI & HP).
  assert (EB : forall k r q, 0 <= q -> exists b, exercise_boundary (eps Float64) (linspace_to (expiry a) (grid_num_points c)) k r q (volatility a) (max_iterations_boundary c) (tolerance_boundary c) (num_points_legendre c) = Some b).
  { intros k r q QQ. unfold exercise_boundary. edestruct (loop_total (eps Float64) (linspace_to (expiry a) (grid_num_points c)) k r q (volatility a) (tolerance_boundary c) (num_points_legendre c) SL H2 HI (max_iterations_boundary c) false) as (out & -> & LO); [exact QQ|exact HP|apply map_length|].
    destruct (spline_ok (eps Float64) _ H2 HI out LO) as (s & -> & _). eexists. reflexivity. }
  match goal with |- context [exercise_boundary _ _ ?k ?r ?q _ _ _ _] => destruct (EB k r q) as (b & ->) end; [apply rate_pos; [exact E0|destruct (calls a); assumption]|].
  match goal with |- context [match gauss_kronrod ?f ?l ?t ?n ?d with _ => _ end] => destruct (kronrod_some f 0 (expiry a) t n d SK) as (t1 & ->) end.
  match goal with |- context [match gauss_kronrod ?f ?l ?t ?n ?d with _ => _ end] => destruct (kronrod_some f 0 (expiry a) t n d SK) as (t2 & ->) end.
  eexists. reflexivity.
Qed.

(** What early exercise can add: with rates which are not negative the price of
    a put is at least the European price less the dividends, and at most the
    European price plus the interest on the strike; a call the other way
    round.  Without dividends, so, the put costs at least and the call at most
    the European price. *)
Lemma func_1_range eps b T s k r q sigma u : 0 <= r -> 0 <= k -> u <= T -> 0 <= func_1 eps b T s k r q sigma u <= r * k.
Proof.
  intros R0 K0 U. unfold func_1. cbv zeta. rewrite normal_cdf_eq. set (z := - d_minus _ _ _ _ _ _). assert (N1 := ncdf_pos z). assert (N2 := ncdf_lt_1 z).
  assert (X : 0 < exp (- r * (T - u)) <= 1). { split; [apply exp_pos|]. rewrite <- exp_0. assert (0 <= r * (T - u)) by (apply Rmult_le_pos; lra). destruct (Req_dec (- r * (T - u)) 0) as [->|NN]; [lra|]. apply Rlt_le, exp_increasing. lra. }
  assert (RK : 0 <= r * k) by (apply Rmult_le_pos; assumption). assert (Y : 0 <= exp (- r * (T - u)) * ncdf z <= 1) by nra. rewrite Rmult_assoc. nra.
Qed.
Lemma func_2_range eps b T s k r q sigma u : 0 <= q -> 0 <= s -> u <= T -> 0 <= func_2 eps b T s k r q sigma u <= q * s.
Proof.
  intros R0 K0 U. unfold func_2. cbv zeta. rewrite normal_cdf_eq. set (z := - d_plus _ _ _ _ _ _). assert (N1 := ncdf_pos z). assert (N2 := ncdf_lt_1 z).
  assert (X : 0 < exp (- q * (T - u)) <= 1). { split; [apply exp_pos|]. rewrite <- exp_0. assert (0 <= q * (T - u)) by (apply Rmult_le_pos; lra). destruct (Req_dec (- q * (T - u)) 0) as [->|NN]; [lra|]. apply Rlt_le, exp_increasing. lra. }
  assert (RK : 0 <= q * s) by (apply Rmult_le_pos; assumption). assert (Y : 0 <= exp (- q * (T - u)) * ncdf z <= 1) by nra. rewrite Rmult_assoc. nra.
Qed.
Theorem C99_bounds eps c a D F : 0 < eps Float64 -> settings_ok c -> quoted a D F -> is_normal_volatility a = false -> 0 < expiry a -> D <= 1 -> 0 <= dividend a ->
  exists e p, option_price a = Some (Fin e) /\ andersen_lake eps Float64 c a = Some (Fin p) /\
    let interest := strike a * - ln D * (1 + 1 / 10 ^ 20) in
    let dividends := F * D * exp (dividend a * expiry a) * (dividend a * expiry a) * (1 + 1 / 10 ^ 20) in
    if calls a then e - interest <= p <= e + dividends else e - dividends <= p <= e + interest.
Proof.
  intros E0 OK Q NV T0 D1 Q0. destruct (C99_priced eps c a D F E0 OK Q NV T0 D1 Q0) as (p & EP). pose proof OK as (_ & _ & SK & TK).
  destruct (C39_value a D F Q) as (m & EM & _). exists (D * m), p. split; [exact EM|]. split; [exact EP|]. cbv zeta.
  rewrite (al_core eps c a D F Q T0) in EP. destruct (core_parts _ _ _ _ _ _ _ _ _ _ SK EP) as (e & b & t1 & t2 & EE & EX & K1 & K2).
  rewrite (spot_price a D F Q T0 NV), EM in EE. injection EE as <-. cbn in EX. injection EX as ->.
  assert (R0 : 0 <= rate_in a D). { unfold rate_in. apply Rmult_le_pos; [|apply Rlt_le, Rinv_0_lt_compat, T0]. destruct (Req_dec D 1) as [->|N]; [rewrite ln_1; lra|]. assert (X := ln_increasing D 1 (proj1 Q)). rewrite ln_1 in X. lra. }
  destruct (quoted_pos a D F Q NV) as (F0 & P0). assert (S0 : 0 < spot_in a D F). { unfold spot_in. apply Rmult_lt_0_compat; [apply Rmult_lt_0_compat; [exact F0|apply Q]|apply exp_pos]. }
  assert (RT : rate_in a D * strike a * expiry a = strike a * - ln D) by (unfold rate_in; field; lra).
  assert (QS : dividend a * spot_in a D F * expiry a = F * D * exp (dividend a * expiry a) * (dividend a * expiry a)) by (unfold spot_in; ring).
  destruct (calls a).
  - apply (kronrod_bounds _ _ _ _ _ _ (dividend a * spot_in a D F) SK TK) in K1; [|lra|intros x X; apply func_1_range; lra].
    apply (kronrod_bounds _ _ _ _ _ _ (rate_in a D * strike a) SK TK) in K2; [|lra|intros x X; apply func_2_range; lra]. rewrite QS in K1. rewrite RT in K2. unfold slack in *. lra.
  - apply (kronrod_bounds _ _ _ _ _ _ (rate_in a D * strike a) SK TK) in K1; [|lra|intros x X; apply func_1_range; lra].
    apply (kronrod_bounds _ _ _ _ _ _ (dividend a * spot_in a D F) SK TK) in K2; [|lra|intros x X; apply func_2_range; lra]. rewrite QS in K2. rewrite RT in K1. unfold slack in *. lra.
Qed.
(** Without interest and dividends the price is the European price. *)
Theorem C99_european eps c a F : 0 < eps Float64 -> settings_ok c -> quoted a 1 F -> is_normal_volatility a = false -> 0 < expiry a -> dividend a = 0 ->
  andersen_lake eps Float64 c a = option_price a.
Proof.
  intros E0 OK Q NV T0 Q0. destruct (C99_bounds eps c a 1 F E0 OK Q NV T0 ltac:(lra) ltac:(lra)) as (e & p & -> & -> & B). cbv zeta in B. rewrite ln_1, Q0 in B. do 2 f_equal.
  destruct (calls a); lra.
Qed.

(** The price does not depend on how the market is described. *)
Theorem C99_same_market eps c a b D F : quoted a D F -> quoted b D F -> 0 < expiry a ->
  volatility a = volatility b -> strike a = strike b -> expiry a = expiry b -> dividend a = dividend b -> calls a = calls b ->
  andersen_lake eps Float64 c a = andersen_lake eps Float64 c b.
Proof.
  intros QA QB T0 V K T Q C. rewrite (al_core eps c a D F QA T0), (al_core eps c b D F QB) by lra. unfold spot_in, rate_in. rewrite V, K, T, Q, C. reflexivity.
Qed.

(** A call on an asset at S struck at K costs as much as a put on an asset at K
    struck at S with the two rates exchanged. *)
Lemma euro_value S K r q sigma T call : 0 < S -> 0 < K -> 0 <= T -> let D := exp (- (r * T)) in let F := S * exp (- (q * T)) / D in let s := sigma * sqrt T in
  option_price (on_spot S K r q sigma T call) = Some (Fin (D * ((if Rlt_dec 0 s then F * ncdf (ln (F / K) / s + s / 2) - K * ncdf (ln (F / K) / s + s / 2 - s) else Rmax (F - K) 0) - (if call then 0 else F - K)))).
Proof.
  intros S0 K0 T0 D F s. assert (Q : quoted (on_spot S K r q sigma T call) D F).
  { split; [apply exp_pos|]. split; [reflexivity|]. split; [reflexivity|]. split; [exact T0|]. split; [intros (_ & X & _); apply X; reflexivity|]. intros _. split; [|exact K0]. apply Rdiv_lt_0_compat; [apply Rmult_lt_0_compat; [exact S0|apply exp_pos]|apply exp_pos]. }
  unfold option_price. rewrite (quoted_ok _ D F Q). cbn [negb]. cbv zeta. rewrite (quoted_discount _ D F Q), (quoted_forward _ D F Q).
  destruct (Rlt_dec 0 s) as [L|L].
  - rewrite (call_pos _ D F Q L). change (is_normal_volatility _) with false. change (deviation _) with s. change (strike _) with K. rewrite above_log by lra. cbn. destruct call; cbn; do 3 f_equal; ring.
  - rewrite (call_zero _ D F Q L). change (strike _) with K. cbn. destruct call; cbn; do 3 f_equal; ring.
Qed.
Theorem C99_parity eps c S K r q sigma T : 0 < S -> 0 < K -> 0 < T ->
  andersen_lake eps Float64 c (on_spot S K r q sigma T true) = andersen_lake eps Float64 c (on_spot K S q r sigma T false).
Proof.
  intros S0 K0 T0. change (andersen_lake_core (eps Float64) c sigma K T S r q true = andersen_lake_core (eps Float64) c sigma S T K q r false).
  unfold andersen_lake_core. fold (on_spot S K r q sigma T true). fold (on_spot K S q r sigma T false).
  replace (option_price (on_spot K S q r sigma T false)) with (option_price (on_spot S K r q sigma T true)); [reflexivity|].
  rewrite !euro_value by lra. do 2 f_equal. set (s := sigma * sqrt T). set (Dr := exp (- (r * T))). set (Dq := exp (- (q * T))). assert (0 < Dr) by apply exp_pos. assert (0 < Dq) by apply exp_pos.
  set (x := S * Dq / Dr). set (y := K * Dr / Dq). assert (X0 : 0 < x) by (apply Rdiv_lt_0_compat; [apply Rmult_lt_0_compat; assumption|assumption]).
  assert (XY : y / S = / (x / K)) by (unfold x, y; field; lra). destruct (Rlt_dec 0 s) as [L|L].
  - rewrite XY, ln_Rinv by (apply Rdiv_lt_0_compat; assumption). set (l := ln (x / K)).
    replace (- l / s + s / 2) with (- (l / s + s / 2 - s)) by (field; lra). replace (- (l / s + s / 2 - s) - s) with (- (l / s + s / 2)) by ring. rewrite !ncdf_symm. unfold x, y. field. lra.
  - unfold Rmax. assert (EX : Dr * x = S * Dq) by (unfold x; field; lra). assert (EY : Dq * y = K * Dr) by (unfold y; field; lra).
    destruct (Rle_dec (x - K) 0), (Rle_dec (y - S) 0); nra.
Qed.

(** Refused arguments, and every argument in single precision. *)
Theorem C99_refused eps ty c a : (spot a = None /\ forward a = None) \/ (spot a <> None /\ forward a <> None) \/ (discount_rate a <> None /\ discount_factor a <> None) ->
  andersen_lake eps ty c a = None.
Proof.
  unfold andersen_lake. intros [(-> & ->)|[(S0 & F0)|(R0 & D0)]].
  - reflexivity.
  - destruct (spot a), (forward a); try congruence. reflexivity.
  - destruct (discount_rate a), (discount_factor a); try congruence. cbn [is_none negb andb]. destruct (eqb _ _); reflexivity.
Qed.
Theorem C99_single_refuted eps c a : andersen_lake eps Float32 c a = None.
Proof. unfold andersen_lake. destruct (eqb _ _); [reflexivity|]. destruct (_ && _); [reflexivity|]. destruct (rate_of a); reflexivity. Qed.

(** The hypotheses hold of the default settings and of an ordinary put. *)
Definition default_settings : settings := Settings 10 31 32 30 30 (1 / 10 ^ 8) (1 / 10 ^ 8).
Example C99_ex : settings_ok default_settings /\
  quoted put_example (exp (- (1 / 20 * 2))) (110 * exp (- (1 / 50 * 2)) / exp (- (1 / 20 * 2))) /\ exp (- (1 / 20 * 2)) <= 1 /\
  exists p, andersen_lake (fun _ => / 2 ^ 52) Float64 default_settings put_example = Some (Fin p).
Proof.
  assert (OK : settings_ok default_settings). { split; [cbn; lia|]. split; [right; right; reflexivity|]. split; [right; right; reflexivity|]. cbn. lra. }
  split; [exact OK|]. destruct C39_ex as (Q & _). split; [exact Q|].
  assert (L : exp (- (1 / 20 * 2)) <= 1). { assert (X := exp_increasing (- (1 / 20 * 2)) 0 ltac:(lra)). rewrite exp_0 in X. lra. } split; [exact L|].
  apply (C99_priced (fun _ => / 2 ^ 52) default_settings put_example _ _ (Rinv_0_lt_compat _ (pow_lt 2 52 ltac:(lra))) OK Q eq_refl); [cbn; lra|exact L|unfold dividend; cbn; lra].
Qed.

Print Assumptions C99_distribution.
Print Assumptions C99_boundary.
Print Assumptions C99_priced.
Print Assumptions C99_bounds.
Print Assumptions C99_european.
Print Assumptions C99_same_market.
Print Assumptions C99_parity.
Print Assumptions C99_refused.
Print Assumptions C99_single_refuted.
