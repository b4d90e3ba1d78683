(** Lemmas about the Bjerksund and Stensland approximations. *)
From Coquelicot Require Import Coquelicot.
From Coq Require Import Reals List Bool Arith ZArith Lia Lra Psatz.
From Verif Require Import InterpModel BrentModel ExtReal HaganWestModel HaganWestProofs BootstrapModel IntegrateModel BlackScholesModel BlackScholesSpec GaussianAux NormalProofs BlackScholesProofs ImpliedVolProofs ImpliedVolProofs2 BarrierSpec BarrierProofs AmericanModel AmericanSpec AmericanProofs.
Import ListNotations.
Open Scope R_scope.

Lemma xpower_fin a e : 0 < a -> xpower (Fin a) (Fin e) = Fin (Rpower a e).
Proof.
  intros P. unfold xpower, xzero, req. destruct (Req_EM_T e 0) as [->|N]; [rewrite Rpower_O by exact P; reflexivity|]. rewrite (proj2 (rlt_true 0 a) P). reflexivity.
Qed.
Lemma ndiv a b : 0 < b -> Fin a /x Fin b = Fin (a / b). Proof. intros P. apply fdiv. lra. Qed.
Lemma dpos a b : 0 < a -> 0 < b -> 0 < a / b. Proof. intros. apply Rdiv_lt_0_compat; assumption. Qed.

Ltac posi := first [assumption|apply dpos; posi|apply Rmult_lt_0_compat; posi].
Ltac xn := repeat first [rewrite fmul|rewrite fadd|rewrite fsub|progress cbn [xopp xncdf xexp]|rewrite ndiv by posi|rewrite xln_f by posi|rewrite xpower_fin by posi].

(** * Exponent and boundary *)
Section Boundary.
Variables (k r b sigma : R).
Hypothesis S0 : 0 < sigma. Hypothesis K0 : 0 < k. Hypothesis RB : b < r.
Lemma beta_fin : exists beta, bs_beta r b sigma = Fin beta /\ perpetual r b sigma beta.
Proof.
  assert (V : 0 < sigma ^ 2) by nra. set (y := b / sigma ^ 2). set (z := 2 * r / sigma ^ 2).
  assert (DY : 2 * y < z). { unfold y, z. replace (2 * r / sigma ^ 2) with (2 * (r / sigma ^ 2)) by (field; lra). apply Rmult_lt_compat_l; [lra|]. apply Rmult_lt_compat_r; [apply Rinv_0_lt_compat; lra|exact RB]. }
  assert (D0 : 0 < (y - 1 / 2) * (y - 1 / 2) + z). { clearbody y z. assert (Q := Rle_0_sqr (y + 1 / 2)). unfold Rsqr in Q. nra. }
  unfold bs_beta. rewrite !ndiv by exact V. fold y. fold z. rewrite !fsub, fsquare, fadd. rewrite (xsqrt_f ((y - 1 / 2) * (y - 1 / 2) + z)) by lra. rewrite fadd.
  assert (SQ := sqrt_sqrt _ (Rlt_le _ _ D0)). assert (SP := sqrt_lt_R0 _ D0). set (w := sqrt ((y - 1 / 2) * (y - 1 / 2) + z)) in *.
  eexists. split; [reflexivity|]. split.
  - clearbody w y z. assert (y + 1 / 2 < w); [|lra]. destruct (Rle_lt_dec (y + 1 / 2) 0); nra.
  - assert (EB : b = y * sigma ^ 2) by (unfold y; field; lra). assert (ER : r = z / 2 * sigma ^ 2) by (unfold z; field; lra).
    rewrite EB, ER. replace (sigma ^ 2 / 2 * (1 / 2 - y + w) * (1 / 2 - y + w - 1) + y * sigma ^ 2 * (1 / 2 - y + w) - z / 2 * sigma ^ 2) with (sigma ^ 2 / 2 * (w * w - ((y - 1 / 2) * (y - 1 / 2) + z))) by field.
    rewrite SQ. ring.
Qed.
Variable (beta : R).
Hypothesis PB : perpetual r b sigma beta.
Definition b0 : R := Rmax k (r / (r - b) * k).
Definition binf : R := beta / (beta - 1) * k.
Definition bnd (tau : R) : R := b0 + (binf - b0) * (1 - exp (- (b * tau + 2 * sigma * sqrt tau) * (k ^ 2 / ((binf - b0) * b0)))).
Lemma b0_pos : 0 < b0. Proof. unfold b0. apply Rlt_le_trans with k; [exact K0|apply Rmax_l]. Qed.
Lemma binf_gt : b0 < binf.
Proof.
  destruct PB as [B1 Q]. unfold b0, binf. apply Rmax_lub_lt.
  - rewrite <- (Rmult_1_l k) at 1. apply Rmult_lt_compat_r; [exact K0|]. apply Rmult_lt_reg_r with (beta - 1); [lra|]. unfold Rdiv. rewrite Rmult_assoc, Rinv_l; lra.
  - apply Rmult_lt_compat_r; [exact K0|]. apply Rmult_lt_reg_r with ((beta - 1) * (r - b)); [nra|].
    replace (r / (r - b) * ((beta - 1) * (r - b))) with (r * (beta - 1)) by (field; lra).
    replace (beta / (beta - 1) * ((beta - 1) * (r - b))) with (beta * (r - b)) by (field; lra).
    assert (0 < sigma ^ 2 / 2 * beta * (beta - 1)) by (apply Rmult_lt_0_compat; [apply Rmult_lt_0_compat; nra|lra]). nra.
Qed.
Lemma bnd_fin tau : 0 <= tau -> bs_boundary k tau r b sigma (Fin beta) = Fin (bnd tau).
Proof.
  intros T. assert (P := b0_pos). assert (G := binf_gt). destruct PB as [B1 _]. unfold bs_boundary. rewrite fsub, !ndiv by lra. rewrite fmul, fmax, fmul. fold b0. fold binf.
  rewrite (xsqrt_f tau) by exact T. rewrite !fsub, !fmul, fadd. rewrite ndiv by nra. cbn [xopp]. rewrite fmul. cbn [xexp]. rewrite fsub, fmul, fadd. reflexivity.
Qed.
Lemma bnd_range tau : 0 <= b * tau + 2 * sigma * sqrt tau -> b0 <= bnd tau < binf.
Proof.
  intros H. assert (P := b0_pos). assert (G := binf_gt). unfold bnd. set (h := - (b * tau + 2 * sigma * sqrt tau) * (k ^ 2 / ((binf - b0) * b0))).
  assert (HN : h <= 0). { unfold h. assert (0 < k ^ 2 / ((binf - b0) * b0)) by (apply dpos; nra). nra. }
  assert (E0 := exp_pos h). assert (E1 : exp h <= 1). { destruct (Rle_lt_or_eq_dec _ _ HN) as [L|L]; [left; apply Rlt_le_trans with (exp 0); [apply exp_increasing; exact L|rewrite exp_0; lra]|rewrite L, exp_0; lra]. }
  clearbody h. nra.
Qed.
Lemma bnd_strike tau : 0 <= b * tau + 2 * sigma * sqrt tau -> k <= bnd tau.
Proof. intros H. apply Rle_trans with b0; [apply Rmax_l|apply (bnd_range tau H)]. Qed.
End Boundary.

(** * The function phi *)
Definition phi_r (s t gamma h X r b sigma : R) : R :=
  exp ((- r + gamma * b + 1 / 2 * gamma * (gamma - 1) * sigma ^ 2) * t) * Rpower s gamma
  * (ncdf (- (ln (s / h) + (b + (gamma - 1 / 2) * sigma ^ 2) * t) / (sigma * sqrt t))
     - Rpower (X / s) (2 * b / sigma ^ 2 + (2 * gamma - 1)) * ncdf (- (ln (X * X / (s * h)) + (b + (gamma - 1 / 2) * sigma ^ 2) * t) / (sigma * sqrt t))).
Section Phi.
Variables (s t r b sigma : R).
Hypothesis P0 : 0 < s. Hypothesis T0 : 0 < t. Hypothesis S0 : 0 < sigma.
Lemma phi_fin gamma h X : 0 < h -> 0 < X -> bs_phi s t (Fin gamma) (Fin h) (Fin X) r b sigma = Fin (phi_r s t gamma h X r b sigma).
Proof.
  intros H0 X0. assert (V : 0 < sigma ^ 2) by nra. assert (W := wd_pos sigma t S0 T0). unfold wd in W. unfold bs_phi.
  rewrite (xsqrt_f t) by lra. rewrite fsquare. xn. reflexivity.
Qed.
Let m := (b - sigma ^ 2 / 2) * t.
Let w := sigma * sqrt t.
Lemma w_pos : 0 < w. Proof. exact (wd_pos sigma t S0 T0). Qed.
Lemma w_sq : w * w = sigma ^ 2 * t. Proof. exact (wd_sq sigma t T0). Qed.
Lemma expect_exp_below u c : expectation (fun z => if Rlt_dec z c then exp (u * z) else 0) (exp (u * u / 2) * ncdf (c - u)).
Proof.
  apply (expect_down false 1 u (exp (u * u / 2)) 0 c).
  - intros z L. destruct (Rlt_dec z c); [|lra]. unfold asset. rewrite Rmult_1_l, Rplus_0_r, <- exp_plus. f_equal. field.
  - intros z L. destruct (Rlt_dec z c); lra.
  - unfold prim. ring.
Qed.
Lemma expect_exp u : expectation (fun z => exp (u * z)) (exp (u * u / 2)).
Proof.
  eapply expectation_ext; [|replace (exp (u * u / 2)) with (exp (u * u / 2) * 1 + 0) by ring; apply (prim_at false 1 u)].
  intros z. unfold asset. rewrite Rmult_1_l, Rplus_0_r, <- exp_plus. f_equal. field.
Qed.
Definition cut (h : R) : R := (ln (h / s) - m) / w.
Lemma price_pos z : 0 < price_at s b sigma t z.
Proof. unfold price_at. apply Rmult_lt_0_compat; [exact P0|apply exp_pos]. Qed.
Lemma ln_price z : ln (price_at s b sigma t z) = ln s + m + w * z.
Proof. unfold price_at. rewrite ln_mult by (try exact P0; apply exp_pos). rewrite ln_exp. unfold m, w. ring. Qed.
Lemma price_cut z h : 0 < h -> (price_at s b sigma t z < h <-> z < cut h).
Proof.
  intros H0. assert (W := w_pos). assert (A : forall x y, 0 < x -> 0 < y -> (x < y <-> ln x < ln y)).
  { intros x y X Y. split; [apply ln_increasing; exact X|apply ln_lt_inv; assumption]. }
  rewrite (A _ _ (price_pos z) H0), ln_price. unfold cut. rewrite ln_div by assumption.
  split; intros L.
  - apply Rmult_lt_reg_r with w; [exact W|]. unfold Rdiv. rewrite Rmult_assoc, Rinv_l; lra.
  - apply (Rmult_lt_compat_r w _ _ W) in L. unfold Rdiv in L. rewrite Rmult_assoc, Rinv_l in L; lra.
Qed.
Definition truncated (gamma h X : R) (z : R) : R :=
  if Rlt_dec (price_at s b sigma t z) h then Rpower (price_at s b sigma t z) gamma * (1 - exp (- (2 * ln (s / X) * ln (price_at s b sigma t z / X) / w ^ 2))) else 0.
Lemma phi_expect gamma h X : 0 < h -> 0 < X -> expectation (fun z => exp (- r * t) * truncated gamma h X z) (phi_r s t gamma h X r b sigma).
Proof.
  intros H0 X0. assert (W := w_pos). assert (W2 := w_sq). assert (V : 0 < sigma ^ 2) by nra.
  set (L := ln X - ln s). set (u1 := gamma * w). set (u2 := gamma * w + 2 * L / w).
  set (A1 := exp (- r * t + gamma * ln s + gamma * m)). set (A2 := exp (- r * t + gamma * ln s + gamma * m + 2 * L * (m - L) / (w * w))).
  apply expectation_ext with (f := fun z => A1 * (if Rlt_dec z (cut h) then exp (u1 * z) else 0) + - A2 * (if Rlt_dec z (cut h) then exp (u2 * z) else 0)).
  { intros z. unfold truncated. destruct (price_cut z h H0) as [C1 C2].
    destruct (Rlt_dec z (cut h)) as [Z|Z]; destruct (Rlt_dec (price_at s b sigma t z) h) as [Y|Y]; try tauto; [|ring].
    unfold Rpower. rewrite !ln_div by (try apply price_pos; assumption). rewrite ln_price.
    replace (- (2 * (ln s - ln X) * (ln s + m + w * z - ln X) / w ^ 2)) with (2 * L * (m - L) / (w * w) + 2 * L / w * z) by (unfold L; field; lra).
    assert (G1 : A1 * exp (u1 * z) = exp (- r * t) * exp (gamma * (ln s + m + w * z))) by (unfold A1, u1; rewrite <- !exp_plus; f_equal; ring).
    assert (G2 : A2 * exp (u2 * z) = exp (- r * t) * exp (gamma * (ln s + m + w * z)) * exp (2 * L * (m - L) / (w * w) + 2 * L / w * z)) by (unfold A2, u2; rewrite <- !exp_plus; f_equal; field; lra).
    replace (- A2 * exp (u2 * z)) with (- (A2 * exp (u2 * z))) by ring. rewrite G1, G2. ring. }
  eapply expectation_plus; [eapply expectation_scal; [apply expect_exp_below|reflexivity]|eapply expectation_scal; [apply expect_exp_below|reflexivity]|].
  unfold phi_r, Rpower. fold w.
  assert (E1 : cut h - u1 = - (ln (s / h) + (b + (gamma - 1 / 2) * sigma ^ 2) * t) / w).
  { unfold cut, u1, m. rewrite !ln_div by assumption. apply Rmult_eq_reg_r with w; [|lra]. field_simplify; [|lra|lra]. replace (w ^ 2) with (w * w) by ring. rewrite W2. field. }
  assert (E2 : cut h - u2 = - (ln (X * X / (s * h)) + (b + (gamma - 1 / 2) * sigma ^ 2) * t) / w).
  { unfold cut, u2, m, L. rewrite !ln_div by (try assumption; apply Rmult_lt_0_compat; assumption). rewrite !ln_mult by assumption.
    apply Rmult_eq_reg_r with w; [|lra]. field_simplify; [|lra|lra]. replace (w ^ 2) with (w * w) by ring. rewrite W2. field. }
  rewrite E1, E2, (ln_div X s) by assumption. set (N1 := ncdf _). set (N2 := ncdf _).
  assert (F1 : A1 * exp (u1 * u1 / 2) = exp ((- r + gamma * b + 1 / 2 * gamma * (gamma - 1) * sigma ^ 2) * t) * exp (gamma * ln s)).
  { unfold A1, u1. rewrite <- !exp_plus. f_equal. unfold m. replace (gamma * w * (gamma * w)) with (gamma * gamma * (w * w)) by ring. rewrite W2. field. }
  assert (F2 : A2 * exp (u2 * u2 / 2) = exp ((- r + gamma * b + 1 / 2 * gamma * (gamma - 1) * sigma ^ 2) * t) * exp (gamma * ln s) * exp ((2 * b / sigma ^ 2 + (2 * gamma - 1)) * (ln X - ln s))).
  { unfold A2, u2. rewrite <- !exp_plus. f_equal. fold L.
    replace ((gamma * w + 2 * L / w) * (gamma * w + 2 * L / w)) with (gamma * gamma * (w * w) + 4 * gamma * L + 4 * L * L / (w * w)) by (field; lra).
    rewrite W2. unfold m. field. repeat split; lra. }
  transitivity (A1 * exp (u1 * u1 / 2) * N1 - A2 * exp (u2 * u2 / 2) * N2); [rewrite F1, F2; ring|ring].
Qed.
(** at the barrier nothing survives *)
Lemma phi_barrier gamma h : 0 < h -> phi_r s t gamma h s r b sigma = 0.
Proof.
  intros H0. unfold phi_r. replace (s * s / (s * h)) with (s / h) by (field; lra). replace (s / s) with 1 by (field; lra).
  unfold Rpower at 2. rewrite ln_1, Rmult_0_r, exp_0. ring.
Qed.
End Phi.
