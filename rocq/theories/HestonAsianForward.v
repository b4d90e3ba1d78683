(** The transform of the Heston Asian prices at one: forward prices. *)
From Coq Require Import Reals List Bool ZArith Lra Lia.
From Coquelicot Require Import Complex.
From Verif Require Import TensorModel InterpModel IntegrateModel HestonFourierModel ComplexProofs HestonAsianModel HestonAsianProofs.
Import ListNotations.
Open Scope R_scope.

Section Forward.
Variable h : handler.
Hypothesis V0 : h_volvol h <> 0.
Let k := h_mean_reversion h.
Let sg := h_volvol h.

Lemma root_real z b : k ^ 2 - 2 * z * sg ^ 2 = b ^ 2 -> x_root h (RtoC z) = RtoC (Rabs b).
Proof.
  intros E. unfold x_root. replace (Cminus (RtoC (h_mean_reversion h ^ 2)) (Cmult (Cmult 2 (RtoC z)) (RtoC (h_volvol h ^ 2)))) with (RtoC (b ^ 2))
    by (rewrite <- E; unfold k, sg; rewrite RtoC_minus, !RtoC_mult; reflexivity).
  unfold csqrt. rewrite Cmod_R. cbn [fst snd RtoC]. rewrite Rabs_right by (apply Rle_ge; apply pow2_ge_0).
  replace ((b ^ 2 + b ^ 2) / 2) with (b ^ 2) by field. replace ((b ^ 2 - b ^ 2) / 2) with 0 by field. rewrite sqrt_0.
  replace (b ^ 2) with (Rsqr b) by (unfold Rsqr; ring). rewrite sqrt_Rsqr_abs. destruct (Rlt_dec 0 0); [lra|reflexivity].
Qed.
Lemma f_real z w2 b tau : k ^ 2 - 2 * z * sg ^ 2 = b ^ 2 -> k - w2 * sg ^ 2 = b -> b <> 0 -> f_fn h (RtoC z) (RtoC w2) tau = RtoC (exp (b * tau / 2)).
Proof.
  intros E W B. unfold f_fn. cbv zeta. rewrite (root_real z b E). pose proof (Rabs_no_R0 b B) as AB.
  rewrite <- !RtoC_mult, cosh_real, sinh_real, <- RtoC_minus, <- RtoC_mult, <- RtoC_div, <- RtoC_plus by exact AB.
  f_equal. fold k sg. rewrite W. replace (/ 2 * tau * Rabs b) with (Rabs b * tau / 2) by field.
  unfold Rabs in *. destruct (Rcase_abs b).
  - replace (- (- b * tau / 2)) with (b * tau / 2) by field. field. exact B.
  - field. exact B.
Qed.
Lemma f_tilde_real z w2 b tau : k ^ 2 - 2 * z * sg ^ 2 = b ^ 2 -> k - w2 * sg ^ 2 = b -> f_tilde h (RtoC z) (RtoC w2) tau = RtoC (b / 2 * exp (b * tau / 2)).
Proof.
  intros E W. unfold f_tilde. cbv zeta. rewrite (root_real z b E).
  rewrite <- !RtoC_mult, cosh_real, sinh_real, <- RtoC_minus, <- !RtoC_mult, <- RtoC_plus.
  f_equal. fold k sg. rewrite W. replace (/ 2 * tau * Rabs b) with (Rabs b * tau / 2) by field.
  unfold Rabs. destruct (Rcase_abs b).
  - replace (- (- b * tau / 2)) with (b * tau / 2) by field. field.
  - field.
Qed.
(** One step of the backward recursion. *)
Lemma step_real z w2 b tau o : k ^ 2 - 2 * z * sg ^ 2 = b ^ 2 -> k - w2 * sg ^ 2 = b -> b <> 0 ->
  Cminus (Cplus (RtoC o) (RtoC (h_mean_reversion h / h_volvol h ^ 2)))
    (Cdiv (Cmult 2 (f_tilde h (RtoC z) (RtoC w2) tau)) (Cmult (f_fn h (RtoC z) (RtoC w2) tau) (RtoC (h_volvol h ^ 2)))) = RtoC (o + w2).
Proof.
  intros E W B. rewrite (f_real z w2 b tau E W B), (f_tilde_real z w2 b tau E W). pose proof (exp_pos (b * tau / 2)) as P.
  assert (Z : exp (b * tau / 2) * h_volvol h ^ 2 <> 0) by (apply Rmult_integral_contrapositive_currified; [lra|apply pow_nonzero; exact V0]).
  rewrite <- !RtoC_mult, <- RtoC_plus, <- RtoC_div, <- RtoC_minus by exact Z. f_equal. fold k sg. set (ee := exp (b * tau / 2)) in *. clearbody ee. rewrite <- W. field. split; [exact V0|lra].
Qed.

Let z1 := / 2 * ((2 * h_rho h * k - sg) / sg + (1 - h_rho h ^ 2)).
Let b1 := k - h_rho h * sg.
Lemma z1_root : k ^ 2 - 2 * z1 * sg ^ 2 = b1 ^ 2.
Proof. unfold z1, b1. field. exact V0. Qed.
Lemma b1_omega : k - h_rho h / sg * sg ^ 2 = b1.
Proof. unfold b1. field. exact V0. Qed.

(** Spot price at the expiry: s = 0, w = 1. *)
Hypothesis B1 : k <> h_rho h * sg.
Hypothesis N0 : (0 < h_n h)%nat.
Lemma n_pos : INR (h_n h) <> 0. Proof. apply not_0_INR. lia. Qed.
Lemma z_spot q : z_fn h 0 1 q = RtoC z1.
Proof.
  pose proof n_pos as N. unfold z_fn. cbv zeta.
  replace (Cplus (Cmult (RtoC (INR (h_n h) - INR (h_k_star h + 1 + q) + 1)) 0) (Cmult (RtoC (INR (h_n h))) 1)) with (RtoC (INR (h_n h))) by ring.
  rewrite <- !RtoC_mult, <- !RtoC_div, <- RtoC_plus, <- RtoC_mult; [|apply pow_nonzero; exact N|apply Rmult_integral_contrapositive_currified; assumption].
  f_equal. unfold z1, k, sg. field. split; assumption.
Qed.
Lemma omega_spot i : (i <= h_n h - h_k_star h + 1)%nat -> omega_tilde h 0 1 i = RtoC (h_rho h / sg).
Proof.
  induction i as [|i IH]; intros L; cbn [omega_tilde].
  - unfold omega_k. replace (Nat.eqb (h_n h - h_k_star h + 1) 0) with false by (symmetry; apply Nat.eqb_neq; lia).
    replace (Nat.leb (h_n h - h_k_star h + 1) (h_n h - h_k_star h)) with false by (symmetry; apply Nat.leb_gt; lia). unfold sg. ring.
  - rewrite IH, z_spot by lia.
    replace (omega_k h 0 1 (h_n h - h_k_star h + 1 - S i)) with (RtoC 0).
    2: { unfold omega_k. destruct (Nat.eqb _ 0); [ring|]. replace (Nat.leb (h_n h - h_k_star h + 1 - S i) (h_n h - h_k_star h)) with true by (symmetry; apply Nat.leb_le; lia). ring. }
    rewrite (step_real z1 (h_rho h / sg) b1 _ 0 z1_root b1_omega) by (unfold b1; lra). f_equal. ring.
Qed.
Lemma phi_spot : 0 < h_spot h -> h_start h = 0 -> first_sum (h_d_tau h) (h_n h - h_k_star h + 1) = h_expiry h ->
  phi h 0 1 = RtoC (h_spot h * exp ((h_rate h - h_dividend h) * h_expiry h)).
Proof.
  intros S0 T0 E. unfold phi. cbv zeta. set (x0 := (h_n h - h_k_star h + 1)%nat) in *.
  assert (S1 : forall y, csum (fun q => clog (f_fn h (z_fn h 0 1 q) (omega_tilde h 0 1 (x0 - (q + 1))) (nth q (h_d_tau h) 0))) y = RtoC (b1 / 2 * first_sum (h_d_tau h) y)).
  { intros y. induction y as [|y IH].
    - cbn [first_sum]. rewrite Rmult_0_r. reflexivity.
    - cbn [csum first_sum]. change ((fix go (n : nat) : C := match n with O => RtoC 0 | S m => Cplus (go m) (clog (f_fn h (z_fn h 0 1 m) (omega_tilde h 0 1 (x0 - (m + 1))) (nth m (h_d_tau h) 0))) end) y)
        with (csum (fun q => clog (f_fn h (z_fn h 0 1 q) (omega_tilde h 0 1 (x0 - (q + 1))) (nth q (h_d_tau h) 0))) y).
      rewrite IH, z_spot, omega_spot by (unfold x0; lia). rewrite (f_real z1 (h_rho h / sg) b1 _ z1_root b1_omega) by (unfold b1; lra).
      rewrite clog_real, ln_exp by apply exp_pos. rewrite <- RtoC_plus. f_equal. field. }
  rewrite S1, E, omega_spot by (unfold x0; lia). unfold a_fn. cbv zeta. rewrite clog_real, T0 by exact S0.
  set (m := h_rate h - h_dividend h - h_rho h * h_mean_reversion h * h_theta h / h_volvol h).
  replace (Cplus (Cmult 0 (RtoC ((INR (h_n h) - INR (h_k_star h)) / INR (h_n h)))) 1) with (RtoC 1) by ring.
  replace (Cplus (Cmult 0 (RtoC (fold_right Rplus 0 (skipn (h_k_star h) (h_sampling_times h)) / INR (h_n h)))) (Cmult 1 (RtoC (h_expiry h)))) with (RtoC (h_expiry h)) by ring.
  rewrite <- !RtoC_minus, <- !RtoC_mult, <- !RtoC_plus, <- RtoC_minus, cexp_real. f_equal.
  rewrite <- (exp_ln (h_spot h) S0) at 2. rewrite <- exp_plus. f_equal. unfold m, b1, k, sg. field. exact V0.
Qed.

(** One sampling time, the expiry: s = 1, w = 0. *)
Hypothesis K0 : k <> 0.
Hypothesis N1 : h_n h = 1%nat.
Hypothesis KS : h_k_star h = 0%nat.
Lemma z_one : z_fn h 1 0 0 = RtoC z1.
Proof.
  unfold z_fn. cbv zeta. rewrite N1, KS. cbn [Nat.add INR].
  replace (Cplus (Cmult (RtoC (1 - 1 + 1)) 1) (Cmult (RtoC 1) 0)) with (RtoC 1) by (apply c_eq; cbn; ring).
  rewrite <- !RtoC_mult, <- !RtoC_div, <- RtoC_plus, <- RtoC_mult; [|apply pow_nonzero; lra|rewrite Rmult_1_r; exact V0].
  f_equal. unfold z1, k, sg. field. exact V0.
Qed.
Lemma z_two : z_fn h 1 0 1 = RtoC 0.
Proof.
  unfold z_fn. cbv zeta. rewrite N1, KS. cbn [Nat.add INR].
  replace (Cplus (Cmult (RtoC (1 - (1 + 1) + 1)) 1) (Cmult (RtoC 1) 0)) with (RtoC 0) by (apply c_eq; cbn; ring).
  unfold Cdiv. ring.
Qed.
Lemma phi_one : 0 < h_spot h -> h_start h = 0 -> h_d_tau h = [h_expiry h; 0] -> h_sampling_times h = [h_expiry h] ->
  phi h 1 0 = RtoC (h_spot h * exp ((h_rate h - h_dividend h) * h_expiry h)).
Proof.
  intros S0 T0 D S2. unfold phi. cbv zeta.
  assert (O0 : omega_tilde h 1 0 0 = RtoC 0).
  { cbn [omega_tilde]. unfold omega_k. rewrite N1, KS. cbn [Nat.sub Nat.add Nat.eqb Nat.leb]. ring. }
  assert (ZK : k ^ 2 - 2 * 0 * sg ^ 2 = k ^ 2) by ring. assert (WK : k - 0 * sg ^ 2 = k) by ring.
  assert (O1 : omega_tilde h 1 0 1 = RtoC (h_rho h / sg)).
  { change (omega_tilde h 1 0 1) with (Cminus (Cplus (omega_k h 1 0 (h_n h - h_k_star h + 1 - 1)) (RtoC (h_mean_reversion h / h_volvol h ^ 2)))
      (Cdiv (Cmult 2 (f_tilde h (z_fn h 1 0 (h_n h - h_k_star h + 1 - 1)) (omega_tilde h 1 0 0) (nth (h_n h - h_k_star h + 1 - 1) (h_d_tau h) 0)))
        (Cmult (f_fn h (z_fn h 1 0 (h_n h - h_k_star h + 1 - 1)) (omega_tilde h 1 0 0) (nth (h_n h - h_k_star h + 1 - 1) (h_d_tau h) 0)) (RtoC (h_volvol h ^ 2))))).
    rewrite O0. replace (h_n h - h_k_star h + 1 - 1)%nat with 1%nat by lia. rewrite z_two.
    replace (omega_k h 1 0 1) with (RtoC (h_rho h / sg)).
    2: { unfold omega_k. rewrite N1, KS. cbn [Nat.sub Nat.eqb Nat.leb INR]. rewrite Rmult_1_r. unfold sg. ring. }
    rewrite (step_real 0 0 k _ (h_rho h / sg) ZK WK K0). f_equal. ring. }
  assert (O2 : omega_tilde h 1 0 2 = RtoC (h_rho h / sg)).
  { change (omega_tilde h 1 0 2) with (Cminus (Cplus (omega_k h 1 0 (h_n h - h_k_star h + 1 - 2)) (RtoC (h_mean_reversion h / h_volvol h ^ 2)))
      (Cdiv (Cmult 2 (f_tilde h (z_fn h 1 0 (h_n h - h_k_star h + 1 - 2)) (omega_tilde h 1 0 1) (nth (h_n h - h_k_star h + 1 - 2) (h_d_tau h) 0)))
        (Cmult (f_fn h (z_fn h 1 0 (h_n h - h_k_star h + 1 - 2)) (omega_tilde h 1 0 1) (nth (h_n h - h_k_star h + 1 - 2) (h_d_tau h) 0)) (RtoC (h_volvol h ^ 2))))).
    rewrite O1. replace (h_n h - h_k_star h + 1 - 2)%nat with 0%nat by lia. rewrite z_one.
    replace (omega_k h 1 0 0) with (RtoC 0) by (unfold omega_k; cbn [Nat.eqb]; rewrite T0; ring).
    rewrite (step_real z1 (h_rho h / sg) b1 _ 0 z1_root b1_omega) by (unfold b1; lra). f_equal. ring. }
  replace (h_n h - h_k_star h + 1)%nat with 2%nat by lia. cbn [csum Nat.add Nat.sub]. rewrite O0, O1, O2, z_one, z_two, D. cbn [nth].
  rewrite (f_real z1 (h_rho h / sg) b1 _ z1_root b1_omega) by (unfold b1; lra). rewrite (f_real 0 0 k _ ZK WK K0).
  rewrite !clog_real, !ln_exp by apply exp_pos. unfold a_fn. cbv zeta. rewrite N1, KS, S2, T0, clog_real by exact S0. cbn [skipn fold_right INR].
  set (m := h_rate h - h_dividend h - h_rho h * h_mean_reversion h * h_theta h / h_volvol h).
  replace (Cplus (Cmult 1 (RtoC ((1 - 0) / 1))) 0) with (RtoC 1) by (apply c_eq; cbn; field).
  replace (Cplus (Cmult 1 (RtoC ((h_expiry h + 0) / 1))) (Cmult 0 (RtoC (h_expiry h)))) with (RtoC (h_expiry h)) by (apply c_eq; cbn; field).
  rewrite <- !RtoC_minus, <- !RtoC_mult, <- !RtoC_plus, <- RtoC_mult, <- RtoC_minus, cexp_real. f_equal.
  rewrite <- (exp_ln (h_spot h) S0) at 2. rewrite <- exp_plus. f_equal. unfold m, b1, k, sg. field. exact V0.
Qed.
End Forward.
