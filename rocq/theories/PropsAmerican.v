(** C73: American option approximations. *)
From Coquelicot Require Import Coquelicot.
From Coq Require Import Reals List Bool Arith ZArith Lia Lra Psatz.
From Verif Require Import TensorModel InterpModel BrentModel BrentProofs ExtReal HaganWestModel HaganWestProofs BootstrapModel IntegrateModel BlackScholesModel BlackScholesSpec GaussianAux NormalProofs BlackScholesProofs ImpliedVolProofs ImpliedVolProofs2 BarrierSpec BarrierProofs NewtonModel NewtonProofs PropsNewton AmericanModel AmericanSpec AmericanProofs AmericanProofs2 AmericanProofs3 AmericanProofs4.
Import ListNotations.
Open Scope R_scope.

(** * Barone-Adesi and Whaley *)
Lemma single_root f x n tol rtol : exists y c g, root_finder [f] [x] n tol rtol = [(y, c, g)].
Proof.
  unfold root_finder. destruct (newton_loop_niters rtol tol [f] n n 0 [start x] eq_refl eq_refl) as (j & _ & J & _).
  change (map (fun x0 => (x0, false, is_nan x0)) [x]) with [start x]. rewrite J. unfold niters. cbn [combine map].
  match goal with |- exists y c g, [?p] = _ => destruct p as [[y c] g] end. exists y, c, g. reflexivity.
Qed.

(** A converged price is, up to the accuracy of the search, at least the European
    price and the value of immediate exercise, and at most the spot or the strike. *)
Theorem C73_adesi_whaley (gradient : (xr -> xr) -> xr -> xr) (n : nat) (tol rtol sigma x t s r d : R) (call : bool) (p : xr) (failed : bool) :
  0 < sigma -> 0 < x -> 0 < t -> 0 < s -> (if call then 0 < d else 0 <= d /\ r <> 0) -> tf_gradient gradient ->
  adesi_whaley gradient n tol rtol (plain sigma x t s r d call) = Some (p, true, failed) ->
  exists q, exponent sigma t r d call q /\
  forall K, steepness sigma t q <= K -> rtol * K < 1 ->
  exists v e, p = Fin v /\ option_price (plain sigma x t s r d call) = Some (Fin e) /\
    let eps := tol * K / (1 - rtol * K) in
    e - eps <= v /\ vanilla call x s - eps <= v /\ v <= (if call then s else x + eps).
Proof.
  intros S0 X0 T0 P0 DC [TG TG0] H.
  assert (DQ : if call then 0 < d else r <> 0) by (destruct call; tauto). assert (D0 : 0 <= d) by (destruct call; lra).
  destruct (q_fin sigma t r d call S0 T0 DQ) as (q & EQ & XQ). exists q. split; [exact XQ|]. intros K KB RK.
  assert (Q0 := proj2 XQ). assert (QN : q <> 0) by (destruct call; lra).
  unfold adesi_whaley in H. change (args_ok (plain sigma x t s r d call)) with true in H. cbn [negb rate_of plain discount_rate] in H.
  change (if call_of (plain sigma x t s r d call) then 1 else -1) with (sgn_of call) in H. change (call_of (plain sigma x t s r d call)) with call in H.
  cbn [volatility strike expiry dividend_of spot_of plain dividend_rate forward spot] in H. rewrite EQ in H. cbv zeta in H.
  set (f := aw_value sigma x t r d (sgn_of call) call (Fin q)) in *.
  destruct (single_root (fun p => (f p, gradient f p)) (aw_seed sigma x t r d (sgn_of call) call) n tol rtol) as (y & cv & fl & ER). rewrite ER in H.
  assert (B : call && rle d 0 = false). { destruct call; [|reflexivity]. cbn [andb]. unfold rle. destruct (Rle_dec d 0); [lra|reflexivity]. }
  rewrite B in H. injection H as EP -> ->.
  assert (CF := C30_converged_flag [fun p => (f p, gradient f p)] [aw_seed sigma x t r d (sgn_of call) call] n tol rtol 0 (fun p => (f p, gradient f p)) _ y failed eq_refl eq_refl eq_refl (f_equal (fun l => nth_error l 0) ER)).
  cbv beta in CF.
  (* the critical price is a positive number *)
  destruct y as [c|ng|]; [|exfalso; unfold f in CF; rewrite value_nonfinite in CF by reflexivity; cbn in CF; discriminate CF|exfalso; unfold f in CF; rewrite value_nonfinite in CF by reflexivity; cbn in CF; discriminate CF].
  destruct (Rtotal_order c 0) as [C|[C|C]]; [exfalso; unfold f in CF; rewrite value_negative in CF by assumption; cbn in CF; discriminate CF| |].
  { exfalso. rewrite C, TG0 in CF. destruct (f (Fin 0)); cbn in CF; discriminate CF. }
  assert (FV : forall u, 0 < u -> f (Fin u) = Fin (gap sigma x t r d call q u)) by (intros u U; apply value_fin; assumption).
  destruct (gap_derive sigma x t r d call S0 X0 T0 q QN c C) as (g & GD & GB & _). specialize (GB D0).
  rewrite (FV c C), (TG f _ c g C FV GD) in CF.
  set (v := gap sigma x t r d call q c) in *.
  assert (EPS : Rabs v <= tol * K / (1 - rtol * K)).
  { cbn [xdiv] in CF. unfold req in CF. destruct (Req_EM_T g 0) as [GZ|GN]; [exfalso; destruct (Req_EM_T v 0); cbn in CF; discriminate CF|].
    cbn [xabs xmul xadd xlt] in CF. apply rlt_true in CF. unfold Rdiv in CF. rewrite Rabs_mult, Rabs_inv in CF.
    assert (GP : 0 < Rabs g) by (apply Rabs_pos_lt; exact GN). assert (VP := Rabs_pos v). assert (IP : 0 < / Rabs g) by (apply Rinv_0_lt_compat; exact GP).
    assert (L : Rabs v < Rabs g * (rtol * Rabs v + tol)).
    { apply (Rmult_lt_compat_l (Rabs g)) in CF; [|exact GP]. replace (Rabs g * (Rabs v * / Rabs g)) with (Rabs v) in CF by (field; lra). exact CF. }
    assert (BP : 0 < rtol * Rabs v + tol). { apply Rmult_lt_reg_l with (Rabs g); [exact GP|]. lra. }
    assert (L2 : Rabs v <= K * (rtol * Rabs v + tol)). { apply Rle_trans with (Rabs g * (rtol * Rabs v + tol)); [lra|]. apply Rmult_le_compat_r; lra. }
    apply Rmult_le_reg_r with (1 - rtol * K); [lra|]. unfold Rdiv. rewrite Rmult_assoc, Rinv_l by lra. lra. }
  rewrite (price_fin sigma x t r d call S0 X0 T0 q QN c s C P0) in EP.
  eexists _, _. split; [symmetry; exact EP|]. split; [apply european_fin; assumption|]. cbv zeta.
  set (eps := tol * K / (1 - rtol * K)) in *. assert (VA := Rle_abs v). assert (VB := Rle_abs (- v)). rewrite Rabs_Ropp in VB.
  assert (NN := ev_nonneg sigma x t r d call S0 X0 T0 s P0).
  assert (VN : vanilla call x s = Rmax (sgn_of call * (s - x)) 0). { unfold vanilla. destruct call; cbn [sgn_of]; f_equal; ring. }
  destruct (Rlt_dec (sgn_of call * s) (sgn_of call * c)) as [L|L].
  - assert (A1 := hold_european sigma x t r d call T0 q c C D0 Q0 s).
    assert (A2 := hold_intrinsic sigma x t r d call S0 X0 T0 q c C D0 Q0 s P0 (Rlt_le _ _ L)). fold v in A2.
    assert (A3 := hold_upper sigma x t r d call S0 X0 T0 q c C D0 Q0 s P0 (Rlt_le _ _ L)). fold v in A3.
    split; [lra|]. split; [|destruct call; lra]. rewrite VN. unfold Rmax. destruct (Rle_dec (sgn_of call * (s - x)) 0); lra.
  - assert (A1 := exercise_european sigma x t r d call S0 X0 T0 q c C D0 Q0 s P0 ltac:(lra)). fold v in A1.
    split; [lra|]. split; [|destruct call; cbn [sgn_of]; lra]. rewrite VN. unfold Rmax. destruct (Rle_dec (sgn_of call * (s - x)) 0); lra.
Qed.

(** Calls on assets that pay no dividend are never exercised early: the price is the
    European one, whatever the other arguments. *)
Theorem C73_no_dividend (gradient : (xr -> xr) -> xr -> xr) (n : nat) (tol rtol sigma x t s r d : R) :
  d <= 0 -> exists p, adesi_whaley gradient n tol rtol (plain sigma x t s r d true) = Some (p, true, false)
    /\ option_price (plain sigma x t s r d true) = Some p.
Proof.
  intros D. assert (OP : exists p, option_price (plain sigma x t s r d true) = Some p). { unfold option_price. change (args_ok (plain sigma x t s r d true)) with true. cbn [negb]. eexists. reflexivity. }
  destruct OP as [p OP]. exists p. split; [|exact OP].
  unfold adesi_whaley. change (args_ok (plain sigma x t s r d true)) with true. cbn [negb rate_of plain discount_rate].
  cbn [volatility strike expiry dividend_of spot_of plain dividend_rate forward spot call_of is_call_option]. cbv zeta.
  match goal with |- context [root_finder [?f] [?y] _ _ _] => destruct (single_root f y n tol rtol) as (c & cv & fl & ER); rewrite ER end.
  cbn [andb]. unfold rle. destruct (Rle_dec d 0); [|contradiction]. unfold european. unfold plain in OP. rewrite OP. reflexivity.
Qed.
(** At expiry the price is the payoff. *)
Theorem C73_expiry (gradient : (xr -> xr) -> xr -> xr) (n : nat) (tol rtol sigma x s r d : R) (call : bool) :
  (call = true -> 0 < d) -> exists converged failed, adesi_whaley gradient n tol rtol (plain sigma x 0 s r d call) = Some (Fin (vanilla call x s), converged, failed).
Proof.
  intros D. unfold adesi_whaley. change (args_ok (plain sigma x 0 s r d call)) with true. cbn [negb rate_of plain discount_rate].
  cbn [volatility strike expiry dividend_of spot_of plain dividend_rate forward spot call_of is_call_option]. cbv zeta.
  match goal with |- context [root_finder [?f] [?y] _ _ _] => destruct (single_root f y n tol rtol) as (c & cv & fl & ER); rewrite ER end.
  exists cv, fl. assert (B : call && rle d 0 = false). { destruct call; [|reflexivity]. cbn [andb]. unfold rle. destruct (Rle_dec d 0); [|reflexivity]. specialize (D eq_refl). lra. }
  rewrite B. unfold aw_price. cbv zeta. rewrite (proj2 (BrentProofs.rlt_false 0 0)) by lra. unfold vanilla. destruct call; reflexivity.
Qed.
Theorem C73_expiry_stensland roots coefficients modified sigma x s r d call :
  (call = true -> 0 < d) -> bjerksund_stensland roots coefficients modified (plain sigma x 0 s r d call) = Some (Fin (vanilla call x s)).
Proof.
  intros D. unfold bjerksund_stensland. change (args_ok (plain sigma x 0 s r d call)) with true. cbn [negb rate_of plain discount_rate].
  cbn [volatility strike expiry dividend_of spot_of plain dividend_rate forward spot call_of is_call_option]. cbv zeta. rewrite (proj2 (BrentProofs.rlt_false 0 0)) by lra.
  destruct call; cbn [andb]; unfold rle; destruct (Rle_dec r (r - d)) as [L|L]; cbn [andb]; try reflexivity. specialize (D eq_refl). lra.
Qed.

(** The two ways of quoting the asset and the three ways of quoting the rate agree. *)
Lemma quoted_market a D F : quoted a D F -> 0 < expiry a -> rate_of a = Fin (- ln D / expiry a)
  /\ dividend_of a = dividend a /\ spot_of a (- ln D / expiry a) = F * exp (- (- ln D / expiry a - dividend a) * expiry a).
Proof.
  intros (D0 & DT & FI & _) T. assert (RT : rate_of a = Fin (- ln D / expiry a)).
  { unfold rate_of. unfold discounts_to in DT. destruct (discount_rate a) as [r|], (discount_factor a) as [q|]; try contradiction.
    - rewrite DT, ln_exp. f_equal. field. lra.
    - rewrite <- DT. rewrite xln_pos by exact D0. cbn [xopp]. apply fdiv. lra.
    - rewrite DT, ln_1. f_equal. field. lra. }
  split; [exact RT|]. split; [reflexivity|]. unfold spot_of, forward_is in *. change (dividend_of a) with (dividend a).
  destruct (spot a) as [s|], (forward a) as [f|]; try contradiction; [|rewrite FI; reflexivity].
  rewrite FI. replace (- (- ln D / expiry a - dividend a) * expiry a) with (ln D + dividend a * expiry a) by (field; lra).
  rewrite exp_plus, exp_ln by exact D0. replace (s * exp (- (dividend a * expiry a)) / D * (D * exp (dividend a * expiry a))) with (s * (exp (- (dividend a * expiry a)) * exp (dividend a * expiry a))) by (field; lra).
  rewrite <- exp_plus. replace (- (dividend a * expiry a) + dividend a * expiry a) with 0 by ring. rewrite exp_0. ring.
Qed.
Definition canonical (a : option_args) (D F : R) : option_args :=
  let r := - ln D / expiry a in
  plain (volatility a) (strike a) (expiry a) (F * exp (- (r - dividend a) * expiry a)) r (dividend a) (calls a).
Theorem C73_market gradient n tol rtol roots coefficients modified a D F : quoted a D F -> 0 < expiry a ->
  adesi_whaley gradient n tol rtol a = adesi_whaley gradient n tol rtol (canonical a D F)
  /\ bjerksund_stensland roots coefficients modified a = bjerksund_stensland roots coefficients modified (canonical a D F).
Proof.
  intros Q T. destruct (quoted_market a D F Q T) as (E1 & E2 & E3). assert (OK := quoted_ok a D F Q).
  assert (CC : call_of a = calls a) by (unfold call_of, calls; destruct (is_call_option a) as [[|]|]; reflexivity).
  unfold adesi_whaley, bjerksund_stensland. rewrite OK, E1. change (args_ok (canonical a D F)) with true. cbn [negb].
  change (rate_of (canonical a D F)) with (Fin (- ln D / expiry a)). rewrite E2, E3, CC. split; reflexivity.
Qed.

(** * Bjerksund and Stensland *)
Theorem C73_no_dividend_stensland roots coefficients modified sigma x t s r d :
  d <= 0 -> bjerksund_stensland roots coefficients modified (plain sigma x t s r d true) = option_price (plain sigma x t s r d true).
Proof.
  intros D. assert (OP : exists p, option_price (plain sigma x t s r d true) = Some p). { unfold option_price. change (args_ok (plain sigma x t s r d true)) with true. cbn [negb]. eexists. reflexivity. }
  destruct OP as [p OP]. rewrite OP. unfold bjerksund_stensland. change (args_ok (plain sigma x t s r d true)) with true. cbn [negb rate_of plain discount_rate].
  cbn [volatility strike expiry dividend_of spot_of plain dividend_rate forward spot call_of is_call_option]. cbv zeta.
  unfold rle. destruct (Rle_dec r (r - d)); [|lra]. cbn [andb]. unfold european. unfold plain in OP. rewrite OP. reflexivity.
Qed.
(** A put is a call with spot and strike exchanged and the two rates exchanged. *)
Theorem C73_put_symmetry roots coefficients modified sigma k t s r d : 0 < r ->
  bjerksund_stensland roots coefficients modified (plain sigma k t s r d false) = bjerksund_stensland roots coefficients modified (plain sigma s t k d r true).
Proof.
  intros R0. unfold bjerksund_stensland. change (args_ok (plain sigma k t s r d false)) with true. change (args_ok (plain sigma s t k d r true)) with true. cbn [negb rate_of plain discount_rate].
  cbn [volatility strike expiry dividend_of spot_of plain dividend_rate forward spot call_of is_call_option]. cbv zeta.
  rewrite andb_false_r. cbn iota. unfold rle. destruct (Rle_dec d (d - r)); [lra|]. cbn [andb].
  replace (r - (r - d)) with d by ring. replace (- (r - d)) with (d - r) by ring. reflexivity.
Qed.

Section Call.
Variables (sigma k t r d : R).
Hypothesis S0 : 0 < sigma. Hypothesis K0 : 0 < k. Hypothesis T0 : 0 < t. Hypothesis D0 : 0 < d.
Hypothesis CARRY : 0 <= (r - d) * t + 2 * sigma * sqrt t.
Lemma carry_sub tau : 0 <= tau <= t -> 0 <= (r - d) * tau + 2 * sigma * sqrt tau.
Proof.
  intros [A B]. destruct (Rle_lt_dec 0 (r - d)) as [N|N]; [assert (Q := sqrt_pos tau); nra|].
  assert (P := sqrt_lt_R0 t T0). assert (SQ := sqrt_sqrt t (Rlt_le _ _ T0)). assert (SQ2 := sqrt_sqrt tau A). assert (P2 := sqrt_pos tau). assert (LE := sqrt_le_1' tau t A B).
  assert (C : 0 <= (r - d) * sqrt t + 2 * sigma). { apply Rmult_le_reg_r with (sqrt t); [exact P|]. rewrite Rmult_0_l. replace (((r - d) * sqrt t + 2 * sigma) * sqrt t) with ((r - d) * (sqrt t * sqrt t) + 2 * sigma * sqrt t) by ring. rewrite SQ. exact CARRY. }
  replace ((r - d) * tau + 2 * sigma * sqrt tau) with (((r - d) * sqrt tau + 2 * sigma) * sqrt tau) by (rewrite <- SQ2 at 3; ring).
  apply Rmult_le_pos; [|exact P2]. generalize dependent (sqrt tau). generalize dependent (sqrt t). intros. nra.
Qed.
Lemma golden : 0 < 1 / 2 * (sqrt 5 - 1) * t < t.
Proof.
  assert (A := sqrt_sqrt 5 ltac:(lra)). assert (B := sqrt_pos 5). assert (C : 2 < sqrt 5 < 3) by nra. nra.
Qed.
Lemma call_eq roots coefficients modified s :
  bjerksund_stensland roots coefficients modified (plain sigma k t s r d true)
  = Some ((if modified then call_2002 roots coefficients else call_1993) s k t r (r - d) sigma).
Proof.
  unfold bjerksund_stensland. change (args_ok (plain sigma k t s r d true)) with true. cbn [negb rate_of plain discount_rate].
  cbn [volatility strike expiry dividend_of spot_of plain dividend_rate forward spot call_of is_call_option]. cbv zeta.
  unfold rle. destruct (Rle_dec r (r - d)); [lra|]. cbn [andb]. rewrite (proj2 (HaganWestProofs.rlt_true 0 t) T0). reflexivity.
Qed.
Lemma branch (s X : R) (A : xr) : (if xlt (Fin s) (Fin X) || is_nan (Fin X) then A else Fin (s - k)) = if Rlt_dec s X then A else Fin (s - k).
Proof. cbn [xlt is_nan]. rewrite orb_false_r. unfold rlt. destruct (Rlt_dec s X); reflexivity. Qed.
Lemma call93_fin : exists beta, perpetual r (r - d) sigma beta /\ k <= bnd k r (r - d) sigma beta t /\
  forall s, 0 < s -> call_1993 s k t r (r - d) sigma
   = Fin (if Rlt_dec s (bnd k r (r - d) sigma beta t) then hold93_r s k t r (r - d) sigma beta (bnd k r (r - d) sigma beta t) else s - k).
Proof.
  destruct (beta_fin r (r - d) sigma S0 ltac:(lra)) as (beta & EB & PB). exists beta. split; [exact PB|].
  assert (XB := bnd_strike k r (r - d) sigma S0 K0 ltac:(lra) beta PB t CARRY). split; [exact XB|]. intros s P.
  unfold call_1993. rewrite EB. cbv zeta. rewrite (bnd_fin k r (r - d) sigma S0 K0 ltac:(lra) beta PB t ltac:(lra)), branch.
  destruct (Rlt_dec s _); [|reflexivity]. apply hold93_fin; try assumption. lra.
Qed.
Lemma call02_fin roots coefficients xs ws : roots 20%nat = Some xs -> coefficients 20%nat = Some ws ->
  exists beta x1, perpetual r (r - d) sigma beta /\ k <= bnd k r (r - d) sigma beta t /\ x1 = bnd k r (r - d) sigma beta (t - 1 / 2 * (sqrt 5 - 1) * t) /\ 0 < x1 /\
  forall s, 0 < s -> call_2002 roots coefficients s k t r (r - d) sigma
   = Fin (if Rlt_dec s (bnd k r (r - d) sigma beta t) then hold02_r xs ws t (1 / 2 * (sqrt 5 - 1) * t) r (r - d) sigma s k beta x1 (bnd k r (r - d) sigma beta t) else s - k).
Proof.
  intros RT CT. destruct (beta_fin r (r - d) sigma S0 ltac:(lra)) as (beta & EB & PB). assert (G := golden).
  exists beta, (bnd k r (r - d) sigma beta (t - 1 / 2 * (sqrt 5 - 1) * t)). split; [exact PB|].
  assert (XB := bnd_strike k r (r - d) sigma S0 K0 ltac:(lra) beta PB t CARRY). split; [exact XB|]. split; [reflexivity|].
  assert (XB1 := bnd_strike k r (r - d) sigma S0 K0 ltac:(lra) beta PB (t - 1 / 2 * (sqrt 5 - 1) * t) (carry_sub (t - 1 / 2 * (sqrt 5 - 1) * t) ltac:(lra))). split; [lra|]. intros s P.
  unfold call_2002. rewrite EB. cbv zeta. rewrite (bnd_fin k r (r - d) sigma S0 K0 ltac:(lra) beta PB t ltac:(lra)), (bnd_fin k r (r - d) sigma S0 K0 ltac:(lra) beta PB (t - 1 / 2 * (sqrt 5 - 1) * t) ltac:(lra)), branch.
  destruct (Rlt_dec s _); [|reflexivity]. apply hold02_fin; try assumption; lra.
Qed.
End Call.

(** With the flat boundary, the value below it is the expected discounted payoff of
    the strategy: exercise when the price first reaches the boundary X, else at expiry
    if in the money.  The chance of not having reached X is that of a Brownian bridge;
    the discounted power [beta] of the price does not drift, so that (price/X)^beta at
    expiry carries the value of one unit received on reaching X. *)
Theorem C73_flat_boundary roots coefficients sigma k t s r d :
  0 < sigma -> 0 < k -> 0 < t -> 0 < s -> 0 < d -> 0 <= (r - d) * t + 2 * sigma * sqrt t ->
  exists X beta v, k <= X /\ perpetual r (r - d) sigma beta /\
    bjerksund_stensland roots coefficients false (plain sigma k t s r d true) = Some (Fin v) /\ 0 <= v /\
    (X <= s -> v = s - k) /\
    (s < X -> let P := price_at s (r - d) sigma t in let alive z := survival false X ((sigma * sqrt t) ^ 2) s (P z) in
      exists paid hit, expectation (fun z => vanilla true k (P z) * alive z) paid /\ expectation (fun z => Rpower (P z / X) beta * (1 - alive z)) hit /\
      v = exp (- r * t) * (paid + (X - k) * hit)).
Proof.
  intros S0 K0 T0 P0 D0 CARRY. destruct (call93_fin sigma k t r d S0 K0 T0 D0 CARRY) as (beta & PB & KX & E).
  set (X := bnd k r (r - d) sigma beta t) in *. assert (X0 : 0 < X) by lra.
  set (v := if Rlt_dec s X then hold93_r s k t r (r - d) sigma beta X else s - k).
  exists X, beta, v. split; [exact KX|]. split; [exact PB|]. split; [rewrite call_eq by assumption; rewrite E by exact P0; reflexivity|].
  assert (BELOW : s < X -> let P := price_at s (r - d) sigma t in let alive z := survival false X ((sigma * sqrt t) ^ 2) s (P z) in
      exists paid hit, expectation (fun z => vanilla true k (P z) * alive z) paid /\ expectation (fun z => Rpower (P z / X) beta * (1 - alive z)) hit /\
      v = exp (- r * t) * (paid + (X - k) * hit)).
  { intros L. cbv zeta. set (b := r - d) in *. set (w := sigma * sqrt t) in *. set (P := price_at s b sigma t) in *.
    assert (PP : forall z, 0 < P z) by (intros z; apply price_pos; assumption).
    assert (PH := fun g h H => phi_expect s t r b sigma P0 T0 S0 g h X H X0).
    set (D := exp (- r * t)) in *. assert (DP : 0 < D) by apply exp_pos.
    assert (TR : forall g h (H : 0 < h), expectation (truncated s t b sigma g h X) (/ D * phi_r s t g h X r b sigma)).
    { intros g h H. apply expectation_ext with (f := fun z => / D * (D * truncated s t b sigma g h X z)); [intros z; field; lra|]. eapply expectation_scal; [apply PH; exact H|reflexivity]. }
    assert (AL : forall z, survival false X (w ^ 2) s (P z) = if Rlt_dec (P z) X then 1 - exp (- (2 * ln (s / X) * ln (P z / X) / w ^ 2)) else 0) by reflexivity.
    exists (/ D * phi_r s t 1 X X r b sigma + (- k) * (/ D * phi_r s t 0 X X r b sigma) + (-1) * (/ D * phi_r s t 1 k X r b sigma) + k * (/ D * phi_r s t 0 k X r b sigma)).
    exists (Rpower X (- beta) * (/ D * Rpower s beta) + (- Rpower X (- beta)) * (/ D * phi_r s t beta X X r b sigma)).
    split; [|split].
    - eapply expectation_ext with (f := fun z => truncated s t b sigma 1 X X z + (- k) * truncated s t b sigma 0 X X z + (-1) * truncated s t b sigma 1 k X z + k * truncated s t b sigma 0 k X z).
      { intros z. rewrite AL. unfold truncated. fold w. fold P. rewrite Rpower_1, Rpower_O by apply PP. unfold vanilla, Rmax.
        destruct (Rlt_dec (P z) X), (Rlt_dec (P z) k), (Rle_dec (P z - k) 0); try lra; try ring. replace (P z) with k by lra. ring. }
      eapply expectation_plus; [eapply expectation_plus; [eapply expectation_plus; [apply TR; exact X0|eapply expectation_scal; [apply TR; exact X0|reflexivity]|reflexivity]|eapply expectation_scal; [apply TR; exact K0|reflexivity]|reflexivity]|eapply expectation_scal; [apply TR; exact K0|reflexivity]|reflexivity].
    - eapply expectation_ext with (f := fun z => Rpower X (- beta) * Rpower (P z) beta + (- Rpower X (- beta)) * truncated s t b sigma beta X X z).
      { intros z. rewrite AL. unfold truncated. fold w. fold P. assert (Q : Rpower (P z / X) beta = Rpower X (- beta) * Rpower (P z) beta).
        { unfold Rpower. rewrite ln_div by (try apply PP; assumption). rewrite <- exp_plus. f_equal. ring. }
        rewrite Q. destruct (Rlt_dec (P z) X); ring. }
      eapply expectation_plus; [|eapply expectation_scal; [apply TR; exact X0|reflexivity]|reflexivity].
      eapply expectation_scal; [|reflexivity].
      eapply expectation_ext with (f := fun z => Rpower s beta * exp (beta * ((b - sigma ^ 2 / 2) * t)) * exp (beta * w * z)).
      { intros z. unfold P. unfold Rpower. rewrite (ln_price s t b sigma P0). rewrite <- !exp_plus. f_equal. unfold w. ring. }
      eapply expectation_scal; [apply expect_exp|]. unfold Rpower, D. rewrite <- exp_Ropp, <- !exp_plus. f_equal.
      replace (beta * w * (beta * w)) with (beta * beta * (w * w)) by ring. unfold w. rewrite (w_sq t sigma T0). destruct PB as [_ PB]. fold b in PB.
      assert (R1 : r = sigma ^ 2 / 2 * beta * (beta - 1) + b * beta) by lra. rewrite R1 at 1. field.
    - unfold v. destruct (Rlt_dec s X); [|contradiction]. unfold hold93_r. fold b. field. lra. }
  split; [|split; [|exact BELOW]].
  - destruct (Rlt_dec s X) as [L|L]; [|unfold v; destruct (Rlt_dec s X); lra].
    destruct (BELOW L) as (e1 & e2 & E1 & E2 & EV). rewrite EV. set (P := price_at s (r - d) sigma t) in *.
    assert (AL : forall z, 0 <= survival false X ((sigma * sqrt t) ^ 2) s (P z) <= 1).
    { intros z. unfold survival. assert (PP : 0 < P z) by (apply price_pos; exact P0). destruct (Rlt_dec (P z) X) as [M|M]; [|lra].
      assert (W : 0 < (sigma * sqrt t) ^ 2) by (apply pow_lt, Rmult_lt_0_compat; [exact S0|apply sqrt_lt_R0; exact T0]).
      assert (L1 : ln (s / X) < 0). { rewrite <- ln_1. apply ln_increasing; [apply dpos; assumption|]. apply Rmult_lt_reg_r with X; [exact X0|]. unfold Rdiv. rewrite Rmult_assoc, Rinv_l; lra. }
      assert (L2 : ln (P z / X) < 0). { rewrite <- ln_1. apply ln_increasing; [apply dpos; assumption|]. apply Rmult_lt_reg_r with X; [exact X0|]. unfold Rdiv. rewrite Rmult_assoc, Rinv_l; lra. }
      assert (Z : - (2 * ln (s / X) * ln (P z / X) / (sigma * sqrt t) ^ 2) < 0). { apply Ropp_lt_gt_0_contravar. apply dpos; [nra|exact W]. }
      assert (E3 : exp (- (2 * ln (s / X) * ln (P z / X) / (sigma * sqrt t) ^ 2)) < 1) by (apply Rlt_le_trans with (exp 0); [apply exp_increasing; exact Z|rewrite exp_0; lra]).
      assert (E4 := exp_pos (- (2 * ln (s / X) * ln (P z / X) / (sigma * sqrt t) ^ 2))). lra. }
    apply expectation_nonneg in E1; [|intros z; apply Rmult_le_pos; [apply Rmax_r|apply AL]].
    apply expectation_nonneg in E2; [|intros z; apply Rmult_le_pos; [left; apply exp_pos|specialize (AL z); lra]].
    apply Rmult_le_pos; [left; apply exp_pos|]. nra.
  - intros L. unfold v. destruct (Rlt_dec s X); [lra|reflexivity].
Qed.

(** Both versions: a finite price for every spot, exercised from some price on, and
    without a jump there or elsewhere. *)
Theorem C73_continuous roots coefficients xs ws modified sigma k t r d : roots 20%nat = Some xs -> coefficients 20%nat = Some ws ->
  0 < sigma -> 0 < k -> 0 < t -> 0 < d -> 0 <= (r - d) * t + 2 * sigma * sqrt t ->
  exists (X : R) (v : R -> R), k <= X /\ (forall s, X <= s -> v s = s - k) /\
    (forall s, 0 < s -> bjerksund_stensland roots coefficients modified (plain sigma k t s r d true) = Some (Fin (v s)) /\ continuous v s).
Proof.
  intros RT CT S0 K0 T0 D0 CARRY. destruct modified.
  - destruct (call02_fin sigma k t r d S0 K0 T0 D0 CARRY roots coefficients xs ws RT CT) as (beta & x1 & PB & KX & _ & X1 & E). set (X := bnd k r (r - d) sigma beta t) in *.
    exists X. eexists. split; [exact KX|]. split; [|intros s P; split; [rewrite call_eq by assumption; rewrite E by exact P; reflexivity|]].
    + intros s L. cbv beta. destruct (Rlt_dec s X); [lra|reflexivity].
    + apply glue; [lra|exact P| |].
      * intros u U. apply chold02; try assumption. lra.
      * apply hold02_match; try assumption. lra.
  - destruct (call93_fin sigma k t r d S0 K0 T0 D0 CARRY) as (beta & PB & KX & E). set (X := bnd k r (r - d) sigma beta t) in *.
    exists X. eexists. split; [exact KX|]. split; [|intros s P; split; [rewrite call_eq by assumption; rewrite E by exact P; reflexivity|]].
    + intros s L. cbv beta. destruct (Rlt_dec s X); [lra|reflexivity].
    + apply glue; [lra|exact P| |].
      * intros u U. apply chold93; try assumption. lra.
      * apply hold93_match; try assumption. lra.
Qed.
(** Both versions scale with the unit of money. *)
Theorem C73_homogeneous roots coefficients xs ws modified l sigma k t s r d : roots 20%nat = Some xs -> coefficients 20%nat = Some ws ->
  0 < l -> 0 < sigma -> 0 < k -> 0 < t -> 0 < s -> 0 < d -> 0 <= (r - d) * t + 2 * sigma * sqrt t ->
  exists v, bjerksund_stensland roots coefficients modified (plain sigma k t s r d true) = Some (Fin v) /\
    bjerksund_stensland roots coefficients modified (plain sigma (l * k) t (l * s) r d true) = Some (Fin (l * v)).
Proof.
  intros RT CT L0 S0 K0 T0 P0 D0 CARRY. assert (LK : 0 < l * k) by nra. assert (LS : 0 < l * s) by nra.
  assert (UB : forall beta beta', perpetual r (r - d) sigma beta -> perpetual r (r - d) sigma beta' -> beta = beta').
  { intros x y [A B] [A' B']. assert (V : 0 < sigma ^ 2) by nra. assert (Z : (x - y) * (sigma ^ 2 / 2 * (x + y - 1) + (r - d)) = 0) by nra.
    apply Rmult_integral in Z as [Z|Z]; [lra|]. exfalso.
    (* the sum of the roots is 1 - 2b/sigma^2 and their product -2r/sigma^2 *)
    assert (PR : sigma ^ 2 / 2 * (x * y) = - r) by nra.
    assert (0 < sigma ^ 2 / 2 * ((x - 1) * (y - 1))) by (apply Rmult_lt_0_compat; nra). nra. }
  assert (SC : forall beta tau, perpetual r (r - d) sigma beta -> bnd (l * k) r (r - d) sigma beta tau = l * bnd k r (r - d) sigma beta tau).
  { intros beta tau PB. apply bnd_scale; try assumption; [apply (binf_gt k r (r - d) sigma); try assumption; lra|apply b0_pos; assumption]. }
  assert (CMP : forall X, (if Rlt_dec (l * s) (l * X) then true else false) = if Rlt_dec s X then true else false).
  { intros X. destruct (Rlt_dec (l * s) (l * X)), (Rlt_dec s X); try reflexivity; nra. }
  destruct modified.
  - destruct (call02_fin sigma k t r d S0 K0 T0 D0 CARRY roots coefficients xs ws RT CT) as (beta & x1 & PB & KX & EX1 & X1 & E).
    destruct (call02_fin sigma (l * k) t r d S0 LK T0 D0 CARRY roots coefficients xs ws RT CT) as (beta' & x1' & PB' & KX' & EX1' & X1' & E').
    rewrite <- (UB _ _ PB PB') in *. rewrite SC in KX', EX1' by exact PB. rewrite <- EX1 in EX1'. subst x1'.
    rewrite !call_eq by assumption. rewrite E by exact P0. rewrite E' by exact LS. rewrite SC by exact PB. set (X := bnd k r (r - d) sigma beta t) in *.
    eexists. split; [reflexivity|]. do 2 f_equal. specialize (CMP X). destruct (Rlt_dec (l * s) (l * X)), (Rlt_dec s X); try discriminate CMP; [|ring].
    apply hold02_scale; try assumption. lra.
  - destruct (call93_fin sigma k t r d S0 K0 T0 D0 CARRY) as (beta & PB & KX & E).
    destruct (call93_fin sigma (l * k) t r d S0 LK T0 D0 CARRY) as (beta' & PB' & KX' & E').
    rewrite <- (UB _ _ PB PB') in *. rewrite SC in KX' by exact PB.
    rewrite !call_eq by assumption. rewrite E by exact P0. rewrite E' by exact LS. rewrite SC by exact PB. set (X := bnd k r (r - d) sigma beta t) in *.
    eexists. split; [reflexivity|]. do 2 f_equal. specialize (CMP X). destruct (Rlt_dec (l * s) (l * X)), (Rlt_dec s X); try discriminate CMP; [|ring].
    apply hold93_scale; try assumption. lra.
Qed.

(** * What goes wrong *)
(** Without a discount rate, the default, every put is priced as not-a-number. *)
Theorem C73_zero_rate_refuted roots coefficients modified sigma k t s d : 0 < sigma -> 0 < k -> 0 < t -> 0 < s -> 0 <= d ->
  bjerksund_stensland roots coefficients modified (OptionArgs sigma k t (Some s) None None (Some d) None (Some false) false) = Some NaN.
Proof.
  intros S0 K0 T0 P0 D0. unfold bjerksund_stensland. cbn [args_ok negb is_none spot forward discount_rate discount_factor andb eqb rate_of].
  cbn [volatility strike expiry dividend_of spot_of dividend_rate forward spot call_of is_call_option]. cbv zeta. rewrite andb_false_r. cbn iota.
  rewrite (proj2 (HaganWestProofs.rlt_true 0 t) T0). replace (0 - (0 - d)) with d by ring. replace (- (0 - d)) with d by ring.
  assert (V : 0 < sigma ^ 2) by nra.
  assert (EB : bs_beta d d sigma = Fin 1).
  { unfold bs_beta. rewrite !ndiv by exact V. rewrite !fsub, fsquare, fadd. set (y := d / sigma ^ 2). assert (Y : 0 <= y) by (unfold y, Rdiv; apply Rmult_le_pos; [exact D0|left; apply Rinv_0_lt_compat; exact V]).
    replace (2 * d / sigma ^ 2) with (2 * y) by (unfold y; field; lra). replace ((y - 1 / 2) * (y - 1 / 2) + 2 * y) with ((y + 1 / 2) * (y + 1 / 2)) by field.
    rewrite (xsqrt_f ((y + 1 / 2) * (y + 1 / 2))) by nra. rewrite sqrt_square by lra. rewrite fadd. f_equal. field. }
  assert (NB : forall tau, bs_boundary s tau d d sigma (Fin 1) = NaN).
  { intros tau. unfold bs_boundary. cbv zeta. replace (d - d) with 0 by ring.
    assert (BI : Fin 1 /x (Fin 1 -x Fin 1) *x Fin s = Inf false).
    { rewrite fsub. replace (1 - 1) with 0 by ring. cbn [xdiv]. unfold req. destruct (Req_EM_T 0 0); [|contradiction]. destruct (Req_EM_T 1 0); [lra|].
      cbn [xmul]. unfold xzero, req. destruct (Req_EM_T s 0); [lra|]. cbn [xneg orb]. rewrite (proj2 (BrentProofs.rlt_false 1 0)), (proj2 (BrentProofs.rlt_false s 0)) by lra. reflexivity. }
    rewrite BI. cbn [xdiv]. unfold req at 1 3. destruct (Req_EM_T 0 0); [|contradiction]. unfold req. destruct (Req_EM_T d 0) as [Z|Z].
    - cbn. reflexivity.
    - rewrite (proj2 (BrentProofs.rlt_false d 0)) by lra. cbn [xmul]. unfold xzero, req. destruct (Req_EM_T s 0); [lra|]. cbn [xneg orb]. rewrite (proj2 (BrentProofs.rlt_false s 0)) by lra. reflexivity. }
  f_equal. destruct modified.
  - unfold call_2002. cbv zeta. rewrite EB, !NB. cbn [xlt is_nan orb]. reflexivity.
  - unfold call_1993. cbv zeta. rewrite EB, !NB. cbn [xlt is_nan orb]. reflexivity.
Qed.
(** When the carry outweighs the volatility the boundary is negative and an option out
    of the money is "exercised": a put struck at 100 on an asset worth 120, with 10%
    rate and volatility and 16 years to go, is priced at -20. *)
Theorem C73_negative_refuted roots coefficients modified :
  bjerksund_stensland roots coefficients modified (plain (1 / 10) 100 16 120 (1 / 10) 0 false) = Some (Fin (-20)).
Proof.
  rewrite C73_put_symmetry by lra. rewrite call_eq by lra.
  assert (EB : bs_beta 0 (0 - 1 / 10) (1 / 10) = Fin 21).
  { unfold bs_beta. rewrite !ndiv by lra. rewrite !fsub, fsquare, fadd.
    replace ((0 - 1 / 10) / (1 / 10) ^ 2) with (-10) by field. replace (2 * 0 / (1 / 10) ^ 2) with 0 by field.
    rewrite (xsqrt_f ((-10 - 1 / 2) * (-10 - 1 / 2) + 0)) by lra. replace ((-10 - 1 / 2) * (-10 - 1 / 2) + 0) with ((21 / 2) * (21 / 2)) by field. rewrite sqrt_square by lra. rewrite fadd. f_equal. field. }
  assert (XB : exists X, bs_boundary 120 16 0 (0 - 1 / 10) (1 / 10) (Fin 21) = Fin X /\ X <= 100).
  { unfold bs_boundary. cbv zeta. rewrite fsub, !ndiv by lra. rewrite !fmul, fmax. rewrite (xsqrt_f 16) by lra. replace (sqrt 16) with 4 by (replace 16 with (4 * 4) by ring; rewrite sqrt_square by lra; reflexivity).
    rewrite (Rmax_left 120) by lra. replace (21 / (21 - 1) * 120) with 126 by field. rewrite !fsub, !fmul, fadd, ndiv by lra. cbn [xopp]. rewrite fmul. cbn [xexp]. rewrite !fsub, fmul, fadd.
    eexists. split; [reflexivity|]. replace (- ((0 - 1 / 10) * 16 + 2 * (1 / 10) * 4) * (120 ^ 2 / ((126 - 120) * 120))) with 16 by field.
    assert (E := exp_ineq1 16 ltac:(lra)). lra. }
  destruct XB as (X & EX & LX). f_equal.
  destruct modified; [unfold call_2002|unfold call_1993]; cbv zeta; rewrite EB, EX, branch; (destruct (Rlt_dec 100 X); [lra|f_equal; lra]).
Qed.

(** * Examples *)
(** A gradient as assumed, and a converged search. *)
Definition ex_gradient (f : xr -> xr) (p : xr) : xr :=
  match p with Fin c => if rlt 0 c then Fin (Derive (fun u => match f (Fin u) with Fin v => v | _ => 0 end) c) else NaN | _ => NaN end.
Example C73_ex_gradient : tf_gradient ex_gradient.
Proof.
  split.
  - intros f F c g C E D. unfold ex_gradient. rewrite (proj2 (HaganWestProofs.rlt_true 0 c) C). f_equal. apply is_derive_unique.
    apply is_derive_ext_loc with F; [|exact D]. exists (mkposreal c C). intros u B. assert (U : 0 < u). { unfold ball in B. cbn in B. unfold AbsRing_ball, abs, minus, plus, opp in B. cbn in B. unfold Rabs in B. destruct (Rcase_abs (u + - c)); lra. }
    rewrite E by exact U. reflexivity.
  - intros f. unfold ex_gradient. rewrite (proj2 (BrentProofs.rlt_false 0 0)) by lra. reflexivity.
Qed.
(** A dividend of 5%: its exponent, and the condition on the carry. *)
Example C73_ex_exponent : exists q, exponent (1 / 5) 1 0 (1 / 50) true q /\ steepness (1 / 5) 1 q <= 6.
Proof.
  exists 2. split.
  - unfold exponent. destruct (Req_EM_T 0 0); [|contradiction]. split; [field|lra].
  - unfold steepness. rewrite sqrt_1. rewrite (Rabs_pos_eq 2), Rabs_pos_eq by lra. lra.
Qed.
(** With a wide enough tolerance the search converges at its first step, so that the
    flag is not always off. *)
Example C73_ex_converged : exists tol p failed, adesi_whaley ex_gradient 1 tol 0 (plain (1 / 5) 100 1 90 0 (1 / 50) true) = Some (p, true, failed).
Proof.
  unfold adesi_whaley. change (args_ok (plain (1 / 5) 100 1 90 0 (1 / 50) true)) with true. cbn [negb rate_of plain discount_rate].
  cbn [volatility strike expiry dividend_of spot_of plain dividend_rate forward spot call_of is_call_option]. cbv zeta. change 1 with (sgn_of true) at 4 6 7.
  destruct (q_fin (1 / 5) 1 0 (1 / 50) true ltac:(lra) ltac:(lra) ltac:(lra)) as (q & EQ & XQ). cbn [sgn_of] in *. rewrite EQ.
  assert (Q1 := proj2 XQ). cbn in Q1. assert (QN : q <> 0) by lra.
  set (f := aw_value (1 / 5) 100 1 0 (1 / 50) 1 true (Fin q)) in *.
  assert (FV : forall u, 0 < u -> f (Fin u) = Fin (gap (1 / 5) 100 1 0 (1 / 50) true q u)) by (intros u U; apply (value_fin (1 / 5) 100 1 0 (1 / 50) true); lra).
  assert (SD : exists c, aw_seed (1 / 5) 100 1 0 (1 / 50) 1 true = Fin c /\ 0 < c).
  { unfold aw_seed, calc_q, aw_n, aw_m. cbv zeta. rewrite !fdiv by lra. rewrite !fsub, fsquare, fmul, (xdnn _ 1) by lra. rewrite fadd.
    replace ((2 * (0 - 1 / 50) / (1 / 5) ^ 2 - 1) * (2 * (0 - 1 / 50) / (1 / 5) ^ 2 - 1) + 4 * (2 * 0 / (1 / 5) ^ 2) / 1) with (2 * 2) by field. rewrite (xsqrt_f (2 * 2)) by lra. rewrite sqrt_square by lra.
    rewrite fmul, fadd, fdiv by lra. replace ((1 - 2 * (0 - 1 / 50) / (1 / 5) ^ 2 + 1 * 2) / 2) with 2 by field. rewrite xdnn by lra. rewrite fsub, xdnn by lra. replace (100 / (1 - 1 / 2)) with 200 by field.
    rewrite fsub, xdnn by lra. rewrite (xsqrt_f 1) by lra. rewrite sqrt_1, fmul, fadd. cbn [xopp]. rewrite !fmul. cbn [xexp]. rewrite fsub, fmul, fadd. eexists. split; [reflexivity|].
    match goal with |- context [exp ?y] => replace y with (- (19 / 50)) by field end. assert (E := exp_increasing (- (19 / 50)) 0 ltac:(lra)). rewrite exp_0 in E. lra. }
  destruct SD as (c & ES & C0). rewrite ES.
  destruct (gap_derive (1 / 5) 100 1 0 (1 / 50) true ltac:(lra) ltac:(lra) ltac:(lra) q QN c C0) as (g & GD & _ & GN). specialize (GN ltac:(lra) Q1).
  assert (EG : ex_gradient f (Fin c) = Fin g) by (apply (proj1 C73_ex_gradient f _ c g C0 FV GD)).
  set (v := gap (1 / 5) 100 1 0 (1 / 50) true q c) in *.
  exists (Rabs (v / g) + 1). cbn [andb]. unfold rle. destruct (Rle_dec (1 / 50) 0); [lra|].
  unfold root_finder. cbn [map newton_loop]. unfold newton_continue at 1. cbn [forallb is_nan orb andb negb Nat.leb].
  unfold newton_continue at 1. cbn [Nat.leb orb negb]. unfold newton_body. cbn [combine map]. unfold newton_update. rewrite (FV c C0), EG. fold v. rewrite fdiv by exact GN.
  cbn [xabs xmul xadd xlt]. rewrite (proj2 (HaganWestProofs.rlt_true _ _)) by lra. eexists _, _. reflexivity.
Qed.
Example C73_ex_carry : 0 <= (1 / 10 - 1 / 20) * 1 + 2 * (1 / 5) * sqrt 1.
Proof. rewrite sqrt_1. lra. Qed.

Print Assumptions C73_adesi_whaley.
Print Assumptions C73_no_dividend.
Print Assumptions C73_expiry.
Print Assumptions C73_expiry_stensland.
Print Assumptions C73_market.
Print Assumptions C73_no_dividend_stensland.
Print Assumptions C73_put_symmetry.
Print Assumptions C73_flat_boundary.
Print Assumptions C73_continuous.
Print Assumptions C73_homogeneous.
Print Assumptions C73_zero_rate_refuted.
Print Assumptions C73_negative_refuted.
