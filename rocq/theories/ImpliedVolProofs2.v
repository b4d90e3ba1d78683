(** Existence of implied volatilities and the objective of the search. *)
From Coquelicot Require Import Coquelicot.
From Coq Require Import Reals List Bool Arith Lia Lra.
From Verif Require Import InterpModel BrentModel ExtReal HaganWestModel BootstrapModel BlackScholesModel BlackScholesSpec NormalProofs BlackScholesProofs ImpliedVolModel ImpliedVolSpec ImpliedVolProofs.
Open Scope R_scope.

Lemma sqrt2pi_ge_1 : 1 <= sqrt (2 * PI).
Proof. rewrite <- sqrt_1. apply sqrt_le_1; pose proof PI2_3_2; unfold PI2 in *; pose proof PI_RGT_0; lra. Qed.
Lemma density_le_1 z : density z <= 1.
Proof.
  unfold density. pose proof sqrt2pi_ge_1. assert (exp (- (z ^ 2 / 2)) <= 1) by (apply exp_le_1; pose proof (pow2_ge_0 z); lra).
  apply (Rmult_le_reg_r (sqrt (2 * PI))); [lra|]. unfold Rdiv. rewrite Rmult_assoc, Rinv_l by lra. lra.
Qed.
Lemma ncdf_lipschitz x y : x <= y -> 0 <= ncdf y - ncdf x <= y - x.
Proof.
  intros H. destruct (MVT_gen ncdf x y density) as [c [B E]].
  - intros z _. apply ncdf_derive.
  - intros z _. apply continuity_pt_filterlim. apply ncdf_cont.
  - pose proof (density_pos c). pose proof (density_le_1 c). rewrite E. split; [apply Rmult_le_pos; lra|]. assert (density c * (y - x) <= 1 * (y - x)) by (apply Rmult_le_compat_r; lra). lra.
Qed.

(** Small deviations: the call is close to its intrinsic value. *)
Lemma above_small normal F K s : (normal = false -> 0 < F /\ 0 < K) -> 0 < s ->
  above normal F K s 1 (- K) <= Rmax (F - K) 0 + (if normal then 1 else F + K) * s.
Proof.
  intros V S. destruct normal.
  - rewrite above_normal by lra. replace (1 * F + - K) with (F - K) by ring. set (L := F - K). pose proof (ncdf_pos (L / s)). pose proof (ncdf_lt_1 (L / s)).
    assert (s * density (L / s) <= s * 1) by (apply Rmult_le_compat_l; [lra|apply density_le_1]).
    assert (L * ncdf (L / s) <= Rmax L 0).
    { unfold Rmax. destruct (Rle_dec L 0).
      - replace 0 with (0 * ncdf (L / s)) by ring. apply Rmult_le_compat_r; lra.
      - replace L with (L * 1) at 3 by ring. apply Rmult_le_compat_l; lra. }
    lra.
  - destruct (V eq_refl) as [PF PK]. rewrite above_log by lra. set (d1 := ln (F / K) / s + s / 2).
    destruct (ncdf_lipschitz (d1 - s) d1 ltac:(lra)) as [L1 L2]. pose proof (ncdf_pos (d1 - s)). pose proof (ncdf_lt_1 d1).
    assert (FS : 0 < F * s) by (apply Rmult_lt_0_compat; assumption). assert (KS : 0 < K * s) by (apply Rmult_lt_0_compat; assumption).
    unfold Rmax. destruct (Rle_dec (F - K) 0) as [C|C].
    + assert (F * ncdf (d1 - s) <= K * ncdf (d1 - s)) by (apply Rmult_le_compat_r; lra). assert (F * (ncdf d1 - ncdf (d1 - s)) <= F * s) by (apply Rmult_le_compat_l; lra). lra.
    + assert (K * (1 - ncdf d1) <= F * (1 - ncdf d1)) by (apply Rmult_le_compat_r; lra). assert (K * (ncdf d1 - ncdf (d1 - s)) <= K * s) by (apply Rmult_le_compat_l; lra). lra.
Qed.
(** Large deviations. *)
Lemma above_large normal F K t : (normal = false -> 0 < F /\ 0 < K) -> (normal = false -> t < F) ->
  exists s0, 0 < s0 /\ forall s, s0 <= s -> t < above normal F K s 1 (- K).
Proof.
  intros V T. destruct normal.
  - clear V T. set (L := F - K). pose proof (density_pos 1) as P1. pose proof (Rabs_pos L) as PL. pose proof (Rabs_pos t) as PT.
    exists (1 + Rabs L + (Rabs t + Rabs L) / density 1). assert (G : 0 <= (Rabs t + Rabs L) / density 1) by (apply Rmult_le_pos; [lra|left; apply Rinv_0_lt_compat; exact P1]).
    split; [lra|]. intros s S. rewrite above_normal by lra. replace (1 * F + - K) with L by (unfold L; ring). fold L.
    pose proof (ncdf_pos (L / s)). pose proof (ncdf_lt_1 (L / s)).
    assert (A : - Rabs L <= L * ncdf (L / s)).
    { assert (H1 : Rabs (L * ncdf (L / s)) <= Rabs L * 1) by (rewrite Rabs_mult; apply Rmult_le_compat_l; [lra|]; rewrite Rabs_pos_eq; lra).
      pose proof (Rle_abs (- (L * ncdf (L / s)))) as H2. rewrite Rabs_Ropp in H2. lra. }
    assert (B : density 1 <= density (L / s)).
    { unfold density. pose proof sqrt2pi_pos. apply Rmult_le_compat_r; [left; apply Rinv_0_lt_compat; lra|].
      assert (Q : (L / s) ^ 2 <= 1). { replace ((L / s) ^ 2) with (Rsqr (L / s)) by (unfold Rsqr; ring). rewrite Rsqr_abs. replace 1 with (Rsqr 1) by (unfold Rsqr; ring). apply Rsqr_incr_1; [|apply Rabs_pos|lra].
        unfold Rdiv. rewrite Rabs_mult, Rabs_inv. rewrite (Rabs_pos_eq s) by lra. apply (Rmult_le_reg_r s); [lra|]. rewrite Rmult_assoc, Rinv_l by lra. lra. }
      assert (E : - (1 ^ 2 / 2) <= - ((L / s) ^ 2 / 2)) by lra. destruct (Rle_lt_or_eq_dec _ _ E) as [E'|E']; [left; apply exp_increasing; exact E'|rewrite E'; lra]. }
    assert (C : s * density 1 <= s * density (L / s)) by (apply Rmult_le_compat_l; lra).
    assert (D : (1 + Rabs L + (Rabs t + Rabs L) / density 1) * density 1 <= s * density 1) by (apply Rmult_le_compat_r; lra).
    assert (E : (1 + Rabs L + (Rabs t + Rabs L) / density 1) * density 1 = (1 + Rabs L) * density 1 + Rabs t + Rabs L) by (field; lra).
    assert (0 < (1 + Rabs L) * density 1) by (apply Rmult_lt_0_compat; lra). pose proof (Rle_abs t). rewrite Rmult_1_l. lra.
  - destruct (V eq_refl) as [PF PK]. specialize (T eq_refl). set (L := ln (F / K)). pose proof (Rabs_pos L) as PL.
    assert (G : 0 < 16 * (F + K) / (F - t)) by (apply Rdiv_lt_0_compat; lra).
    exists (4 + 4 * Rabs L + 16 * (F + K) / (F - t)). split; [lra|]. intros s S. rewrite above_log by lra. fold L.
    assert (Q : Rabs L / s <= s / 4).
    { apply (Rmult_le_reg_r s); [lra|]. unfold Rdiv. rewrite Rmult_assoc, Rinv_l by lra. assert ((4 + 4 * Rabs L) * 4 <= s * s) by (apply Rmult_le_compat; lra). lra. }
    assert (I : 0 < / s) by (apply Rinv_0_lt_compat; lra).
    assert (QL : - (s / 4) <= L / s <= s / 4).
    { pose proof (Rle_abs L) as X1. pose proof (Rle_abs (- L)) as X2. rewrite Rabs_Ropp in X2. apply (Rmult_le_compat_r (/ s)) in X1; [|lra]. apply (Rmult_le_compat_r (/ s)) in X2; [|lra]. unfold Rdiv in *. lra. }
    set (d1 := L / s + s / 2). assert (D1 : s / 4 <= d1) by (unfold d1; lra). assert (D2 : s / 4 <= - (d1 - s)) by (unfold d1; lra).
    assert (T1 := ncdf_tail d1 ltac:(lra)). assert (T2 := ncdf_tail (- (d1 - s)) ltac:(lra)). rewrite ncdf_symm in T2.
    assert (B : forall d, s / 4 <= d -> 4 / d <= 16 / s).
    { intros d D. replace (16 / s) with (4 / (s / 4)) by (field; lra). unfold Rdiv at 1 3. apply Rmult_le_compat_l; [lra|]. apply Rinv_le_contravar; lra. }
    pose proof (B d1 D1) as B1. pose proof (B _ D2) as B2.
    assert (H1 : F * (1 - ncdf d1) <= F * (16 / s)) by (apply Rmult_le_compat_l; lra). assert (H2 : K * ncdf (d1 - s) <= K * (16 / s)) by (apply Rmult_le_compat_l; lra).
    assert (H3 : (F + K) * (16 / s) < F - t).
    { apply (Rmult_lt_reg_r s); [lra|]. replace ((F + K) * (16 / s) * s) with (16 * (F + K)) by (field; lra).
      assert (X : 16 * (F + K) / (F - t) < s) by lra. apply (Rmult_lt_compat_l (F - t)) in X; [|lra]. replace ((F - t) * (16 * (F + K) / (F - t))) with (16 * (F + K)) in X by (field; lra). exact X. }
    lra.
Qed.
Lemma above_cont normal F K s : (normal = false -> 0 < F /\ 0 < K) -> 0 < s -> continuous (fun s => above normal F K s 1 (- K)) s.
Proof.
  intros V S. apply (ex_derive_continuous (V := R_NormedModule)). destruct normal.
  - eexists. apply normal_vega. exact S.
  - destruct (V eq_refl). eexists. apply log_vega; assumption.
Qed.
(** Every call value between the bounds has a deviation. *)
Lemma above_onto normal F K t : (normal = false -> 0 < F /\ 0 < K) -> Rmax (F - K) 0 < t -> (normal = false -> t < F) ->
  exists s, 0 < s /\ above normal F K s 1 (- K) = t.
Proof.
  intros V L U. destruct (above_large normal F K t V U) as (s0 & P0 & H0).
  set (m := if normal then 1 else F + K). assert (PM : 0 < m) by (unfold m; destruct normal; [lra|destruct (V eq_refl); lra]).
  set (a := (t - Rmax (F - K) 0) / (2 * m)). assert (PA : 0 < a) by (apply Rdiv_lt_0_compat; lra).
  assert (LA : above normal F K a 1 (- K) < t).
  { pose proof (above_small normal F K a V PA) as X. fold m in X. replace (m * a) with ((t - Rmax (F - K) 0) / 2) in X by (unfold a; field; lra). lra. }
  set (b := Rmax s0 a + 1). assert (AB : a < b) by (unfold b; pose proof (Rmax_r s0 a); lra).
  assert (HB : t < above normal F K b 1 (- K)) by (apply H0; unfold b; pose proof (Rmax_l s0 a); lra).
  destruct (IVT_gen (fun s => above normal F K (Rmax a s) 1 (- K)) a b t) as (x & X & E).
  - intros x. apply continuity_pt_filterlim. apply (continuous_comp (fun s => Rmax a s) (fun s => above normal F K s 1 (- K))).
    + apply continuity_pt_filterlim. apply (continuity_pt_ext (fun s => (a + s + Rabs (a - s)) / 2)).
      * intros s. unfold Rmax, Rabs. destruct (Rle_dec a s), (Rcase_abs (a - s)); lra.
      * apply continuity_pt_mult; [|apply continuity_pt_const; intros ? ?; reflexivity]. apply continuity_pt_plus; [apply continuity_pt_plus; [apply continuity_pt_const; intros ? ?; reflexivity|apply derivable_continuous_pt, derivable_pt_id]|].
        apply (continuity_pt_comp (fun s => a - s) Rabs); [|apply Rcontinuity_abs]. apply continuity_pt_minus; [apply continuity_pt_const; intros ? ?; reflexivity|apply derivable_continuous_pt, derivable_pt_id].
    + apply above_cont; [exact V|]. pose proof (Rmax_l a x). lra.
  - rewrite (Rmax_left a a), (Rmax_right a b) by lra. rewrite Rmin_left, Rmax_right by lra. lra.
  - exists (Rmax a x). split; [pose proof (Rmax_l a x); lra|exact E].
Qed.

(** ** The objective *)
Lemma scale_pos F K : 0 < scale F K.
Proof. unfold scale. destruct (Req_EM_T _ 0) as [E|E]; [lra|]. pose proof (Rabs_pos F). pose proof (Rmax_l (Rabs F) (Rabs K)). lra. Qed.
Lemma normalization_fin F K : normalization (Fin F) (Fin K) = Fin (scale F K).
Proof.
  unfold normalization, scale, xle. cbn [xabs xlt]. unfold rlt, Rmax. destruct (Rlt_dec (Rabs K) (Rabs F)) as [L|L]; destruct (Rle_dec (Rabs F) (Rabs K)) as [M|M]; try lra; cbn [negb xzero]; unfold req; destruct (Req_EM_T _ 0); reflexivity.
Qed.
Lemma market_df normal q D F : market normal q D F -> q_df q = Fin D.
Proof. intros (_ & H & _). unfold q_df. destruct (q_discount q); rewrite H; reflexivity. Qed.
Lemma market_fwd normal q D F : market normal q D F -> q_fwd q = Fin F.
Proof.
  intros M. pose proof (market_df _ _ _ _ M) as E. destruct M as (P & _ & H & _). unfold q_fwd. destruct (q_spot q), (q_forward q); try contradiction; [|rewrite H; reflexivity].
  rewrite E, xdiv_f by lra. rewrite H. reflexivity.
Qed.
Lemma market_ok normal q D F : market normal q D F -> q_args_ok q = true.
Proof. intros (_ & _ & H & _). unfold q_args_ok. destruct (q_spot q), (q_forward q); try contradiction; reflexivity. Qed.

(** Undiscounted price and its derivative in the deviation. *)
Definition parity_gap (call : bool) (F K : R) : R := if call then 0 else F - K.
Definition slope (normal : bool) (F K s : R) : R := if normal then density ((F - K) / s) else F * density (ln (F / K) / s + s / 2).
Lemma slope_pos normal F K s : (normal = false -> 0 < F /\ 0 < K) -> 0 < slope normal F K s.
Proof. intros V. unfold slope. destruct normal; [apply density_pos|]. destruct (V eq_refl). apply Rmult_lt_0_compat; [assumption|apply density_pos]. Qed.
Lemma slope_derive normal F K s : (normal = false -> 0 < F /\ 0 < K) -> 0 < s -> is_derive (fun s => above normal F K s 1 (- K)) s (slope normal F K s).
Proof. intros V S. unfold slope. destruct normal; [apply normal_vega; exact S|]. destruct (V eq_refl). apply log_vega; assumption. Qed.

Lemma objective_value normal q D F v : market normal q D F -> 0 < v ->
  let K := q_strike q in let s := v * sqrt (q_expiry q) in let n := scale F K in
  objective normal q (Fin v) = (Fin ((above normal F K s 1 (- K) - parity_gap (q_call q) F K) / n - q_price q / (D * n)), Fin (slope normal F K s * sqrt (q_expiry q) / (D * n))).
Proof.
  intros M V. cbv zeta. pose proof (market_df _ _ _ _ M) as ED. pose proof (market_fwd _ _ _ _ M) as EF. destruct M as (PD & _ & _ & PT & VV).
  pose proof (scale_pos F (q_strike q)) as PN. assert (ST : 0 < sqrt (q_expiry q)) by (apply sqrt_lt_R0; exact PT). assert (S : 0 < v * sqrt (q_expiry q)) by (apply Rmult_lt_0_compat; assumption).
  unfold objective. destruct normal.
  - unfold normal_objective. rewrite ED, EF, normalization_fin. set (n := scale F (q_strike q)) in *. set (K := q_strike q) in *. set (T := sqrt (q_expiry q)) in *.
    rewrite !(xdiv_f _ n) by lra. rewrite (xdiv_f _ D) by lra. rewrite xsqrt_f by lra. fold T. cbn [xmul]. rewrite (xdiv_f _ n) by lra.
    unfold xsub. cbn [xopp xadd]. rewrite xdiv_f by (apply Rgt_not_eq, Rdiv_lt_0_compat; assumption). rewrite xdensity_fin. cbn [xncdf xmul xadd].
    rewrite !(xdiv_f _ D) by lra. rewrite !(xdiv_f _ n) by lra. rewrite above_normal by lra.
    replace ((F / n + - (K / n)) / (v * T / n)) with ((F - K) / (v * T)) by (field; lra). unfold slope, q_call, parity_gap.
    destruct (q_is_call q) as [[|]|]; cbn [xadd xopp]; f_equal; f_equal; field; lra.
  - destruct (VV eq_refl) as [PF PK]. unfold lognormal_objective. rewrite ED, EF, normalization_fin. set (n := scale F (q_strike q)) in *. set (K := q_strike q) in *. set (T := sqrt (q_expiry q)) in *.
    rewrite !(xdiv_f _ n) by lra. rewrite (xdiv_f _ D) by lra. rewrite xsqrt_f by lra. fold T. rewrite !xln_f by assumption.
    unfold xsub. cbn [xmul xopp xadd]. rewrite (xdiv_f _ (v * T)) by lra. rewrite (xdiv_f _ 2) by lra. cbn [xadd]. rewrite xdensity_fin. cbn [xncdf xmul xadd xopp].
    rewrite !(xdiv_f _ D) by lra. rewrite above_log by lra.
    replace (ln F + - ln K) with (ln (F / K)) by (unfold Rdiv; rewrite ln_mult, ln_Rinv by (try apply Rinv_0_lt_compat; assumption); ring).
    replace (ln (F / K) / (v * T) + v * T / 2 + - (v * T)) with (ln (F / K) / (v * T) + v * T / 2 - v * T) by ring.
    unfold slope, q_call, parity_gap. destruct (q_is_call q) as [[|]|]; cbn [xadd xopp]; f_equal; f_equal; field; lra.
Qed.
Lemma reprice_value normal q D F v : market normal q D F -> 0 < v ->
  reprice normal q D F v = Some (Fin (D * (above normal F (q_strike q) (v * sqrt (q_expiry q)) 1 (- q_strike q) - parity_gap (q_call q) F (q_strike q)))).
Proof.
  intros (PD & _ & _ & PT & VV) V. unfold reprice. set (a := OptionArgs _ _ _ _ _ _ _ _ _ _).
  assert (Q : quoted a D F). { split; [exact PD|]. split; [reflexivity|]. split; [reflexivity|]. split; [cbn; lra|]. split; [intros (_ & _ & H); apply H; reflexivity|exact VV]. }
  assert (S : 0 < deviation a) by (unfold deviation; cbn; apply Rmult_lt_0_compat; [exact V|apply sqrt_lt_R0; exact PT]).
  unfold option_price. rewrite (quoted_ok a D F Q). cbn [negb]. cbv zeta. rewrite (quoted_discount a D F Q), (quoted_forward a D F Q), (call_pos a D F Q S).
  change (is_call_option a) with (q_is_call q). change (strike a) with (q_strike q). change (is_normal_volatility a) with normal. change (deviation a) with (v * sqrt (q_expiry q)).
  unfold q_call, parity_gap. destruct (q_is_call q) as [[|]|]; unfold xsub; cbn [xmul xadd xopp]; do 2 f_equal; ring.
Qed.
