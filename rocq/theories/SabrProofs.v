(** Lemmas for the SABR approximation. *)
From Coquelicot Require Import Coquelicot.
From Coq Require Import Reals Bool Lra Psatz.
From Verif Require Import ExtReal HaganWestModel BootstrapModel BlackScholesModel ImpliedVolModel SabrModel SabrSpec.
Open Scope R_scope.

(** * The function z / x(z) *)
Section Ratio.
  Variable rho : R.
  Hypothesis RHO : -1 < rho < 1.
  Definition q (z : R) : R := 1 - 2 * rho * z + z ^ 2.
  Lemma q_low z : 1 - rho ^ 2 <= q z.
  Proof. unfold q. pose proof (pow2_ge_0 (z - rho)). nra. Qed.
  Lemma q_pos z : 0 < q z.
  Proof. pose proof (q_low z). nra. Qed.
  Lemma root_above z : Rabs (z - rho) < sqrt (q z).
  Proof. rewrite <- sqrt_Rsqr_abs. apply sqrt_lt_1; [apply Rle_0_sqr|left; apply q_pos|]. unfold Rsqr, q. nra. Qed.
  Lemma arg_pos z : 0 < sqrt (q z) - rho + z.
  Proof. pose proof (root_above z) as H. unfold Rabs in H. destruct (Rcase_abs (z - rho)); lra. Qed.
  Lemma x_derive z : is_derive (x_of rho) z (/ sqrt (q z)).
  Proof.
    unfold x_of. change (1 - 2 * rho * z + z ^ 2) with (q z). pose proof (q_pos z) as Q. pose proof (arg_pos z) as A. assert (S0 : 0 < sqrt (q z)) by (apply sqrt_lt_R0; exact Q).
    unfold q in *. auto_derive.
    - replace (1 + - (2 * rho * z) + z * (z * 1)) with (1 - 2 * rho * z + z ^ 2) by ring. split; [exact Q|]. split; [|exact Logic.I]. apply Rmult_lt_0_compat; [lra|apply Rinv_0_lt_compat; lra].
    - replace (1 + - (2 * rho * z) + z * (z * 1)) with (1 - 2 * rho * z + z ^ 2) by ring. set (s := sqrt (1 - 2 * rho * z + z ^ 2)) in *. field. split; lra.
  Qed.
  Lemma x_zero : x_of rho 0 = 0.
  Proof. unfold x_of. replace (1 - 2 * rho * 0 + 0 ^ 2) with 1 by ring. rewrite sqrt_1. replace ((1 - rho + 0) / (1 - rho)) with 1 by (field; lra). apply ln_1. Qed.
  Lemma x_mean z : exists c, Rmin 0 z <= c <= Rmax 0 z /\ x_of rho z = z / sqrt (q c).
  Proof.
    destruct (MVT_gen (x_of rho) 0 z (fun c => / sqrt (q c))) as (c & C & E).
    - intros x _. apply x_derive.
    - intros x _. apply derivable_continuous_pt. exists (/ sqrt (q x)). apply is_derive_Reals, x_derive.
    - exists c. split; [exact C|]. rewrite x_zero in E. unfold Rdiv. lra.
  Qed.
  (** The ratio is the root of q at some point between 0 and z. *)
  Lemma ratio_root z : exists c, Rmin 0 z <= c <= Rmax 0 z /\ z_over_x rho z = sqrt (q c) /\ (z <> 0 -> x_of rho z <> 0).
  Proof.
    unfold z_over_x. destruct (Req_EM_T z 0) as [->|NZ].
    - exists 0. split; [rewrite Rmin_left, Rmax_left by lra; lra|]. split; [unfold q; replace (1 - 2 * rho * 0 + 0 ^ 2) with 1 by ring; rewrite sqrt_1; reflexivity|intros H; lra].
    - destruct (x_mean z) as (c & C & E). exists c. split; [exact C|]. assert (S0 : 0 < sqrt (q c)) by (apply sqrt_lt_R0, q_pos). rewrite E. split; [field; split; lra|]. intros _. unfold Rdiv. apply Rmult_integral_contrapositive. split; [exact NZ|]. apply Rinv_neq_0_compat. lra.
  Qed.
  Lemma between z c : Rmin 0 z <= c <= Rmax 0 z -> Rabs c <= Rabs z.
  Proof. unfold Rmin, Rmax. destruct (Rle_dec 0 z); intros H; unfold Rabs; destruct (Rcase_abs c), (Rcase_abs z); lra. Qed.
  Lemma ratio_bounds z : sqrt (1 - rho ^ 2) <= z_over_x rho z <= 1 + Rabs z /\ 1 - Rabs z <= z_over_x rho z.
  Proof.
    destruct (ratio_root z) as (c & C & E & _). rewrite E. apply between in C. pose proof (Rabs_pos c) as P. pose proof (Rle_abs c) as A1. assert (A2 : - Rabs c <= c) by (pose proof (Rle_abs (- c)) as H; rewrite Rabs_Ropp in H; lra).
    assert (Q1 : q c <= (1 + Rabs c) ^ 2). { unfold q. assert (c ^ 2 = Rabs c ^ 2) by (rewrite RPow_abs, Rabs_right; [reflexivity|apply Rle_ge, pow2_ge_0]). nra. }
    assert (Q2 : (1 - Rabs c) ^ 2 <= q c). { unfold q. assert (c ^ 2 = Rabs c ^ 2) by (rewrite RPow_abs, Rabs_right; [reflexivity|apply Rle_ge, pow2_ge_0]). nra. }
    split; [split|].
    - apply sqrt_le_1_alt, q_low.
    - apply Rle_trans with (1 + Rabs c); [|lra]. rewrite <- (sqrt_pow2 (1 + Rabs c)) by lra. apply sqrt_le_1_alt. exact Q1.
    - destruct (Rle_dec 0 (1 - Rabs c)) as [L|L]; [|pose proof (sqrt_pos (q c)); lra]. apply Rle_trans with (1 - Rabs c); [lra|]. rewrite <- (sqrt_pow2 (1 - Rabs c)) by lra. apply sqrt_le_1_alt. exact Q2.
  Qed.
  Lemma ratio_pos z : 0 < z_over_x rho z.
  Proof. pose proof (ratio_bounds z) as ((H & _) & _). eapply Rlt_le_trans; [|exact H]. apply sqrt_lt_R0. nra. Qed.
End Ratio.

(** * The code in exact numbers *)
Lemma xdiv_ok a b : b <> 0 -> Fin a /x Fin b = Fin (a / b).
Proof. intros H. cbn. unfold InterpModel.req. destruct (Req_EM_T b 0); [contradiction|reflexivity]. Qed.
Lemma xln_ok a : 0 < a -> xln (Fin a) = Fin (ln a).
Proof. intros H. cbn. unfold BrentModel.rlt. destruct (Rlt_dec 0 a); [reflexivity|contradiction]. Qed.
Lemma xpow_ok a e : 0 < a -> xpow (Fin a) e = Fin (Rpower a e).
Proof. intros H. cbn. unfold BrentModel.rlt. destruct (Rlt_dec 0 a); [reflexivity|contradiction]. Qed.
Lemma xsqrt_ok a : 0 <= a -> xsqrt (Fin a) = Fin (sqrt a).
Proof. intros H. cbn. unfold BrentModel.rlt. destruct (Rlt_dec a 0); [lra|reflexivity]. Qed.
Lemma denom_ok beta l : sabr_denom beta (Fin l) = Fin (series ((1 - beta) * l)).
Proof. unfold sabr_denom. cbn [xmul]. rewrite !xdiv_ok by lra. cbn [xadd]. f_equal. unfold series. field. Qed.
Lemma series_pos l : 0 < series l.
Proof. unfold series. pose proof (pow2_ge_0 l). replace (l ^ 4) with ((l ^ 2) ^ 2) by ring. pose proof (pow2_ge_0 (l ^ 2)). lra. Qed.
Lemma ratio_ok eps rho z : -1 < rho < 1 -> 0 <= eps ->
  zeta_by_xhat eps (Fin z) rho = Fin (if Rlt_dec eps (Rabs z) then z_over_x rho z else 1).
Proof.
  intros RHO E0. unfold zeta_by_xhat. cbn [xmul xadd xopp xabs]. unfold xsub. cbn [xadd xopp xlt]. unfold BrentModel.rlt. destruct (Rlt_dec eps (Rabs z)) as [L|L]; [|reflexivity].
  assert (NZ : z <> 0) by (intros ->; rewrite Rabs_R0 in L; lra). cbn [xmul xadd]. replace (1 + - (2 * rho * z) + z * z) with (q rho z) by (unfold q; ring).
  rewrite xsqrt_ok by (left; apply q_pos, RHO). cbn [xadd]. replace (sqrt (q rho z) + - rho + z) with (sqrt (q rho z) - rho + z) by ring. rewrite xdiv_ok by lra.
  rewrite xln_ok by (apply Rdiv_lt_0_compat; [apply arg_pos, RHO|lra]). change (ln ((sqrt (q rho z) - rho + z) / (1 - rho))) with (x_of rho z).
  destruct (ratio_root rho RHO z) as (c & _ & _ & NX). specialize (NX NZ). unfold xdivide_no_nan. cbn [xzero]. unfold InterpModel.req at 1. destruct (Req_EM_T (x_of rho z) 0); [contradiction|].
  rewrite xdiv_ok by exact NX. f_equal. unfold z_over_x. destruct (Req_EM_T z 0); [contradiction|reflexivity].
Qed.
Lemma power_quotient F K b : 0 < F -> 0 < K -> Rpower (F / K) b = Rpower F b * Rpower K (- b).
Proof. intros HF HK. unfold Rdiv. rewrite <- Rpower_mult_distr by (try apply Rinv_0_lt_compat; assumption). f_equal. unfold Rpower. rewrite ln_Rinv by exact HK. f_equal. ring. Qed.
Lemma power_product F K b : 0 < F -> 0 < K -> Rpower (F * K) b = Rpower F b * Rpower K b.
Proof. intros HF HK. symmetry. apply Rpower_mult_distr; assumption. Qed.
Lemma sqrt_power x b : 0 < x -> sqrt (Rpower x b) = Rpower x (b / 2).
Proof. intros H. rewrite <- Rpower_sqrt by apply exp_pos. rewrite Rpower_mult. f_equal. Qed.

Section Formula.
  Variables (eps : R) (a : sabr_args).
  Notation F := (s_forward a + s_shift a). Notation K := (s_strike a + s_shift a).
  Notation al := (s_alpha a). Notation be := (s_beta a). Notation nu := (s_volvol a). Notation rho := (s_rho a). Notation T := (s_expiry a).
  Hypothesis E0 : 0 <= eps.
  Hypothesis F0 : 0 < F. Hypothesis K0 : 0 < K. Hypothesis A0 : 0 < al. Hypothesis RHO : -1 < rho < 1.
  Definition code_ratio : R := let z := zeta F K al be nu in if Rlt_dec eps (Rabs z) then z_over_x rho z else 1.
  Lemma code_ratio_near : Rabs (code_ratio - z_over_x rho (zeta F K al be nu)) <= eps /\ 0 < code_ratio.
  Proof.
    unfold code_ratio. cbv zeta. set (z := zeta F K al be nu). destruct (Rlt_dec eps (Rabs z)) as [L|L].
    - split; [replace (z_over_x rho z - z_over_x rho z) with 0 by ring; rewrite Rabs_R0; exact E0|apply ratio_pos, RHO].
    - destruct (ratio_bounds rho RHO z) as ((_ & U) & D). split; [|lra]. apply Rabs_le. lra.
  Qed.
  Lemma code_formula vt : sabr_implied_volatility eps vt a = Fin (match vt with NORMAL => hagan_normal | LOGNORMAL => hagan_lognormal end F K T al be nu rho code_ratio).
  Proof.
    assert (M0 : 0 < F / K) by (apply Rdiv_lt_0_compat; assumption).
    unfold sabr_implied_volatility. cbv zeta. rewrite (xdiv_ok F K) by lra. rewrite (xln_ok _ M0), !(xpow_ok _ _ M0), (xpow_ok _ _ K0). rewrite xsqrt_ok by (left; apply exp_pos). rewrite sqrt_power by exact M0.
    set (p := Rpower (F / K) ((1 - be) / 2)). set (k := Rpower K (be - 1)). set (l := ln (F / K)). cbn [xmul].
    assert (P0 : 0 < p) by apply exp_pos. assert (KK : 0 < k) by apply exp_pos. assert (AK : 0 < al * k) by (apply Rmult_lt_0_compat; assumption).
    assert (MM : Rpower (F / K) (1 - be) = p * p) by (unfold p; rewrite <- Rpower_plus; f_equal; field).
    assert (G : Rpower (F * K) ((1 - be) / 2) = p / k).
    { unfold p, k. rewrite power_quotient, power_product by assumption. apply (Rmult_eq_reg_r (Rpower K (be - 1))); [|apply Rgt_not_eq, exp_pos].
      replace (Rpower F ((1 - be) / 2) * Rpower K (- ((1 - be) / 2)) / Rpower K (be - 1) * Rpower K (be - 1)) with (Rpower F ((1 - be) / 2) * Rpower K (- ((1 - be) / 2))) by (field; apply Rgt_not_eq, exp_pos).
      rewrite Rmult_assoc, <- Rpower_plus. do 2 f_equal. field. }
    assert (G2 : Rpower (F * K) (1 - be) = (p / k) * (p / k)) by (rewrite <- G, <- Rpower_plus; f_equal; field).
    rewrite (xdiv_ok nu (al * k)) by lra. cbn [xmul]. rewrite MM.
    assert (Z : nu / (al * k) * p * l = zeta F K al be nu) by (unfold zeta; rewrite G; unfold l; field; lra).
    rewrite Z. rewrite (ratio_ok eps rho _ RHO E0). change (if Rlt_dec eps (Rabs (zeta F K al be nu)) then z_over_x rho (zeta F K al be nu) else 1) with code_ratio.
    rewrite !denom_ok. rewrite !(xdiv_ok 1 p), !(xdiv_ok 1 (p * p)) by nra.
    pose proof (series_pos ((1 - be) * l)) as S1.
    destruct vt.
    - rewrite xdiv_ok by lra. cbn [xmul xadd]. f_equal. unfold hagan_normal. fold l. rewrite G, G2. replace ((1 - 0) * l) with l by ring.
      assert (PB : al * k * K * Rpower (F / K) (be / 2) = al * Rpower (F * K) (be / 2)).
      { unfold k. rewrite power_quotient, power_product by assumption. assert (KP : Rpower K (be - 1) * K = Rpower K be) by (rewrite <- (Rpower_1 K) at 2 by exact K0; rewrite <- Rpower_plus; f_equal; ring).
        replace (al * Rpower K (be - 1) * K * (Rpower F (be / 2) * Rpower K (- (be / 2)))) with (al * (Rpower F (be / 2) * ((Rpower K (be - 1) * K) * Rpower K (- (be / 2))))) by ring. rewrite KP, <- Rpower_plus. do 3 f_equal. field. }
      rewrite PB. field. repeat split; lra.
    - rewrite xdiv_ok by lra. cbn [xmul xadd]. f_equal. unfold hagan_lognormal. fold l. rewrite G, G2. field. repeat split; lra.
  Qed.
End Formula.
