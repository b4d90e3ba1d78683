(** The closed-form implied volatility inverts Black's formula with Polya's
    approximation of the normal distribution function. *)
From Coq Require Import Reals Lra Bool.
From Verif Require Import InterpModel BrentModel ExtReal HaganWestModel BootstrapModel BlackScholesModel ImpliedVolModel ImpliedVolSpec.
Open Scope R_scope.

Lemma sqrt_le_1' a b : 0 <= a -> a <= b -> sqrt a <= sqrt b.
Proof. intros. apply sqrt_le_1; lra. Qed.
Section Tails.
  (** u and q in (0, 1]; A and B are the tails belonging to u and u q *)
  Variables (u q : R).
  Hypotheses (U : 0 < u <= 1) (Q : 0 < q <= 1).
  Let A := sqrt (1 - u).
  Let B := sqrt (1 - u * q).
  Lemma uq_le : 0 < u * q <= u /\ u * q <= q.
  Proof.
    assert (0 < u * q) by (apply Rmult_lt_0_compat; lra). assert (u * q <= u * 1) by (apply Rmult_le_compat_l; lra). assert (u * q <= 1 * q) by (apply Rmult_le_compat_r; lra). lra.
  Qed.
  Lemma tails_sq : A * A = 1 - u /\ B * B = 1 - u * q /\ 0 <= A /\ 0 <= B /\ A < 1 /\ B < 1 /\ A <= B.
  Proof.
    pose proof uq_le as H. unfold A, B. rewrite !sqrt_sqrt by lra. split; [reflexivity|]. split; [reflexivity|].
    split; [apply sqrt_pos|]. split; [apply sqrt_pos|].
    assert (S1 : sqrt 1 = 1) by apply sqrt_1.
    split; [rewrite <- S1; apply sqrt_lt_1; lra|]. split; [rewrite <- S1; apply sqrt_lt_1; lra|]. apply sqrt_le_1; lra.
  Qed.
  (** 1 - B < u q, when u q < 1 *)
  Lemma tail_small : u * q < 1 -> 1 - B < u * q.
  Proof.
    intros L. destruct tails_sq as (_ & SB & _ & PB & _ & LB & _). assert (0 < B) by (apply sqrt_lt_R0; lra).
    assert (E : u * q = (1 - B) * (1 + B)) by lra. rewrite E. assert (0 < (1 - B) * B) by (apply Rmult_lt_0_compat; lra). lra.
  Qed.
  (** 1 - B < q (1 - A), when q < 1 *)
  Lemma tail_ratio : q < 1 -> 1 - B < q * (1 - A).
  Proof.
    intros L. destruct tails_sq as (SA & SB & PA & PB & LA & LB & AB). pose proof uq_le as H.
    assert (AB' : A < B). { apply sqrt_lt_1; try lra. assert (u * q < u * 1) by (apply Rmult_lt_compat_l; lra). lra. }
    apply (Rmult_lt_reg_r (1 + B)); [lra|]. replace ((1 - B) * (1 + B)) with (q * (1 - A) * (1 + A)) by (replace (q * (1 - A) * (1 + A)) with (q * (1 - A * A)) by ring; rewrite SA; lra).
    apply Rmult_lt_compat_l; [|lra]. apply Rmult_lt_0_compat; lra.
  Qed.
  (** B - sqrt (1 - q) <= q A *)
  Lemma tail_threshold : B - sqrt (1 - q) <= q * A.
  Proof.
    destruct tails_sq as (SA & SB & PA & PB & LA & LB & AB). pose proof uq_le as H. set (T := sqrt (1 - q)).
    assert (PT : 0 <= T) by apply sqrt_pos. assert (ST : T * T = 1 - q) by (unfold T; apply sqrt_sqrt; lra).
    destruct (Rle_lt_or_eq_dec 0 A PA) as [GA|ZA].
    - apply (Rmult_le_reg_r (B + T)); [lra|]. replace ((B - T) * (B + T)) with (q * A * A) by (replace ((B - T) * (B + T)) with (B * B - T * T) by ring; rewrite SB, ST; replace (q * A * A) with (q * (A * A)) by ring; rewrite SA; ring).
      apply Rmult_le_compat_l; [apply Rmult_le_pos; lra|lra].
    - rewrite <- ZA in *. assert (u = 1) by lra. assert (B = T) by (unfold B, T; f_equal; subst u; ring). rewrite H1. lra.
  Qed.
  Lemma tail_ge_threshold : sqrt (1 - q) <= B.
  Proof. pose proof uq_le. apply sqrt_le_1; lra. Qed.
End Tails.

Section Main.
  Variables (k y s : R).
  Hypotheses (K : / 2 <= k) (S : 0 < s).
  Let f := exp y.
  Let gamma := y ^ 2 / s ^ 2 + s ^ 2 / 4.
  Let beta := exp (- k * gamma).
  Let d1 := y / s + s / 2.
  Let d2 := y / s - s / 2.
  Let tail (d : R) := sqrt (1 - exp (- k * d ^ 2)).
  Let t1 := 2 * polya_cdf k d1 - 1.
  Let t2 := 2 * polya_cdf k d2 - 1.
  (** the value the code calls r *)
  Let r := f * t1 - t2.
  Let q := exp (-2 * k * Rabs y).

  Lemma d1_sq : d1 ^ 2 = gamma + y. Proof. unfold d1, gamma. field. lra. Qed.
  Lemma d2_sq : d2 ^ 2 = gamma - y. Proof. unfold d2, gamma. field. lra. Qed.
  Lemma d_diff : d1 - d2 = s. Proof. unfold d1, d2. field. lra. Qed.
  Lemma exp_le_1 x : x <= 0 -> exp x <= 1.
  Proof. intros H. rewrite <- exp_0. destruct (Rle_lt_or_eq_dec x 0 H) as [L| ->]; [left; apply exp_increasing; exact L|right; reflexivity]. Qed.
  Lemma exp_lt_1 x : x < 0 -> exp x < 1.
  Proof. intros H. rewrite <- exp_0. apply exp_increasing. exact H. Qed.
  Lemma u_range d : 0 < exp (- k * d ^ 2) <= 1.
  Proof.
    split; [apply exp_pos|]. apply exp_le_1. assert (0 <= k * d ^ 2) by (apply Rmult_le_pos; [lra|apply pow2_ge_0]). lra.
  Qed.
  Lemma polya_pos d : 0 <= d -> 2 * polya_cdf k d - 1 = tail d.
  Proof. intros H. unfold polya_cdf, tail. destruct (Rle_dec 0 d); [field|lra]. Qed.
  Lemma polya_neg d : d < 0 -> 2 * polya_cdf k d - 1 = - tail d.
  Proof. intros H. unfold polya_cdf, tail. destruct (Rle_dec 0 d); [lra|field]. Qed.
  Lemma polya_sq d : (2 * polya_cdf k d - 1) * (2 * polya_cdf k d - 1) = 1 - exp (- k * d ^ 2).
  Proof.
    pose proof (u_range d) as U. destruct (Rle_lt_dec 0 d) as [P|N]; [rewrite (polya_pos d P)|rewrite (polya_neg d N)]; unfold tail; [|replace (- sqrt (1 - exp (- k * d ^ 2)) * - sqrt (1 - exp (- k * d ^ 2))) with (sqrt (1 - exp (- k * d ^ 2)) * sqrt (1 - exp (- k * d ^ 2))) by ring]; apply sqrt_sqrt; lra.
  Qed.
  Lemma polya_opp d : polya_cdf k (- d) = 1 - polya_cdf k d.
  Proof.
    destruct (Rtotal_order d 0) as [H|[-> |H]].
    - pose proof (polya_pos (- d) ltac:(lra)) as A. pose proof (polya_neg d H) as B. unfold tail in *. replace ((- d) ^ 2) with (d ^ 2) in A by ring. lra.
    - replace (- 0) with 0 by ring. pose proof (polya_pos 0 ltac:(lra)) as A. unfold tail in A. replace (- k * 0 ^ 2) with 0 in A by ring. rewrite exp_0 in A. replace (1 - 1) with 0 in A by ring. rewrite sqrt_0 in A. lra.
    - pose proof (polya_neg (- d) ltac:(lra)) as A. pose proof (polya_pos d ltac:(lra)) as B. unfold tail in *. replace ((- d) ^ 2) with (d ^ 2) in A by ring. lra.
  Qed.
  Lemma q_range : 0 < q <= 1.
  Proof.
    unfold q. split; [apply exp_pos|]. apply exp_le_1. pose proof (Rabs_pos y). assert (0 <= k * Rabs y) by (apply Rmult_le_pos; lra). lra.
  Qed.
  (** the case y >= 0 *)
  Lemma pos_facts : 0 <= y -> let u := exp (- k * d2 ^ 2) in
    exp (- k * d1 ^ 2) = u * q /\ 0 < d1 /\ f * q <= 1 /\ 1 <= f /\ u * q < 1 /\ (0 <= d2 -> q < 1).
  Proof.
    intros Y u. assert (E : exp (- k * d1 ^ 2) = u * q).
    { unfold u, q. rewrite <- exp_plus. f_equal. rewrite (Rabs_pos_eq y Y), d1_sq, d2_sq. ring. }
    assert (D1 : 0 < d1). { unfold d1. assert (0 <= y / s) by (apply Rmult_le_pos; [lra|left; apply Rinv_0_lt_compat; lra]). lra. }
    split; [exact E|]. split; [exact D1|]. split; [|split; [|split]].
    - unfold f, q. rewrite <- exp_plus. apply exp_le_1. rewrite (Rabs_pos_eq y Y). assert (0 <= (2 * k - 1) * y) by (apply Rmult_le_pos; lra). lra.
    - unfold f. rewrite <- exp_0. destruct (Rle_lt_or_eq_dec 0 y Y) as [L| <-]; [left; apply exp_increasing; exact L|right; reflexivity].
    - rewrite <- E. apply exp_lt_1. assert (0 < d1 ^ 2) by (apply pow_lt; exact D1). assert (0 < k * d1 ^ 2) by (apply Rmult_lt_0_compat; lra). lra.
    - intros D2. unfold q. apply exp_lt_1. assert (0 < y). { destruct (Rle_lt_or_eq_dec 0 y Y) as [L|Z]; [exact L|]. exfalso. unfold d2 in D2. rewrite <- Z in D2. unfold Rdiv in D2. rewrite Rmult_0_l in D2. lra. }
      rewrite (Rabs_pos_eq y Y). assert (0 < k * y) by (apply Rmult_lt_0_compat; lra). lra.
  Qed.
  (** the case y < 0 *)
  Lemma neg_facts : y < 0 -> let u := exp (- k * d1 ^ 2) in
    exp (- k * d2 ^ 2) = u * q /\ d2 < 0 /\ q <= f /\ f < 1 /\ u * q < 1 /\ q < 1.
  Proof.
    intros Y u. assert (E : exp (- k * d2 ^ 2) = u * q).
    { unfold u, q. rewrite <- exp_plus. f_equal. rewrite (Rabs_left y Y), d1_sq, d2_sq. ring. }
    assert (D2 : d2 < 0). { unfold d2. assert (y / s < 0) by (apply (Rmult_lt_reg_r s); [exact S|]; unfold Rdiv; rewrite Rmult_assoc, Rinv_l, Rmult_0_l by lra; lra). lra. }
    split; [exact E|]. split; [exact D2|]. split; [|split; [|split]].
    - unfold f, q. rewrite (Rabs_left y Y). assert (H : -2 * k * - y <= y) by (assert ((2 * k - 1) * y <= 0) by (apply (Rmult_le_reg_r (/ - y)); [apply Rinv_0_lt_compat; lra|]; rewrite Rmult_assoc; replace (y * / - y) with (-1) by (field; lra); lra); lra).
      destruct (Rle_lt_or_eq_dec _ _ H) as [L|L]; [left; apply exp_increasing; exact L|right; rewrite L; reflexivity].
    - unfold f. apply exp_lt_1. exact Y.
    - rewrite <- E. apply exp_lt_1. assert (0 < d2 ^ 2) by (replace (d2 ^ 2) with ((- d2) ^ 2) by ring; apply pow_lt; lra). assert (0 < k * d2 ^ 2) by (apply Rmult_lt_0_compat; lra). lra.
    - unfold q. apply exp_lt_1. rewrite (Rabs_left y Y). assert (0 < k * - y) by (apply Rmult_lt_0_compat; lra). lra.
  Qed.
  Lemma f_pos : 0 < f. Proof. apply exp_pos. Qed.

  (** the price lies strictly between the no-arbitrage bounds *)
  Lemma r_bounds : Rabs (f - 1) < r < f + 1.
  Proof.
    pose proof f_pos as PF. pose proof q_range as QR. unfold r, t1, t2.
    destruct (Rle_lt_dec 0 y) as [Y|Y].
    - destruct (pos_facts Y) as (E & D1 & FQ & F1 & UQ & QL). pose proof (u_range d2) as U.
      destruct (tails_sq _ _ U QR) as (SA & SB & PA & PB & LA & LB & AB). pose proof (tail_small _ _ U QR UQ) as TS.
      rewrite (polya_pos d1) by lra. unfold tail. rewrite E. set (u := exp (- k * d2 ^ 2)) in *. set (A := sqrt (1 - u)) in *. set (B := sqrt (1 - u * q)) in *.
      assert (FB : f * B < f * 1) by (apply Rmult_lt_compat_l; lra). rewrite Rabs_pos_eq by lra.
      destruct (Rle_lt_dec 0 d2) as [P|N].
      + rewrite (polya_pos d2 P). unfold tail. fold u A. split; [|lra].
        pose proof (tail_ratio _ _ U QR (QL P)) as TR. fold A B in TR.
        assert (f * (1 - B) < f * (q * (1 - A))) by (apply Rmult_lt_compat_l; lra). assert (f * q * (1 - A) <= 1 * (1 - A)) by (apply Rmult_le_compat_r; lra). lra.
      + rewrite (polya_neg d2 N). unfold tail. fold u A. split; [|lra].
        assert (f * (1 - B) < f * (u * q)) by (apply Rmult_lt_compat_l; lra). assert (f * q * u <= 1 * 1) by (apply Rmult_le_compat; try lra; apply Rmult_le_pos; lra). lra.
    - destruct (neg_facts Y) as (E & D2 & FQ & F1 & UQ & QL). pose proof (u_range d1) as U.
      destruct (tails_sq _ _ U QR) as (SA & SB & PA & PB & LA & LB & AB). pose proof (tail_small _ _ U QR UQ) as TS.
      rewrite (polya_neg d2 D2). unfold tail. rewrite E. set (u := exp (- k * d1 ^ 2)) in *. set (A := sqrt (1 - u)) in *. set (B := sqrt (1 - u * q)) in *.
      assert (FA : f * A < f * 1) by (apply Rmult_lt_compat_l; lra). assert (0 <= f * A) by (apply Rmult_le_pos; lra). rewrite Rabs_left by lra.
      destruct (Rle_lt_dec 0 d1) as [P|N].
      + rewrite (polya_pos d1 P). unfold tail. fold u A. split; [|lra]. pose proof (uq_le u q U QR). lra.
      + rewrite (polya_neg d1 N). unfold tail. fold u A. split; [|lra].
        pose proof (tail_ratio _ _ U QR QL) as TR. fold A B in TR. assert (q * (1 - A) <= f * (1 - A)) by (apply Rmult_le_compat_r; lra). lra.
  Qed.
  (** the threshold separates the two branches, each of which gives s *)
  Lemma threshold_branch :
    let sgn := if Rlt_dec y 0 then -1 else if Rlt_dec 0 y then 1 else 0 in
    (r <= Rmax f 1 * sqrt (1 - q) -> sgn * (sqrt (gamma + y) - sqrt (gamma - y)) = s)
    /\ (Rmax f 1 * sqrt (1 - q) < r -> sqrt (gamma + y) + sqrt (gamma - y) = s).
  Proof.
    intros sgn. pose proof f_pos as PF. pose proof q_range as QR. pose proof d_diff as DD.
    rewrite <- d1_sq, <- d2_sq. replace (d1 ^ 2) with (Rsqr d1) by (unfold Rsqr; ring). replace (d2 ^ 2) with (Rsqr d2) by (unfold Rsqr; ring). rewrite !sqrt_Rsqr_abs.
    unfold r, t1, t2. destruct (Rle_lt_dec 0 y) as [Y|Y].
    - destruct (pos_facts Y) as (E & D1 & FQ & F1 & UQ & QL). pose proof (u_range d2) as U.
      destruct (tails_sq _ _ U QR) as (SA & SB & PA & PB & LA & LB & AB).
      rewrite (polya_pos d1) by lra. unfold tail. rewrite E. set (u := exp (- k * d2 ^ 2)) in *. set (A := sqrt (1 - u)) in *. set (B := sqrt (1 - u * q)) in *. set (T := sqrt (1 - q)).
      rewrite (Rmax_left f 1), (Rabs_pos_eq d1) by lra.
      destruct (Rle_lt_dec 0 d2) as [P|N].
      + rewrite (polya_pos d2 P), (Rabs_pos_eq d2 P). unfold tail. fold u A. pose proof (tail_threshold _ _ U QR) as TT. fold A B T in TT.
        assert (f * (B - T) <= f * (q * A)) by (apply Rmult_le_compat_l; lra). assert (f * q * A <= 1 * A) by (apply Rmult_le_compat_r; lra).
        split; [|lra]. intros _. specialize (QL P). assert (PY : 0 < y). { destruct (Rle_lt_or_eq_dec 0 y Y) as [L|Z]; [exact L|]. exfalso. unfold q in QL. rewrite <- Z, Rabs_R0, Rmult_0_r, exp_0 in QL. lra. }
        unfold sgn. destruct (Rlt_dec y 0); [lra|]. destruct (Rlt_dec 0 y); [|lra]. lra.
      + rewrite (polya_neg d2 N), (Rabs_left d2 N). unfold tail. fold u A.
        assert (PA' : 0 < A). { apply sqrt_lt_R0. assert (u < 1); [|lra]. apply exp_lt_1. assert (0 < d2 ^ 2) by (replace (d2 ^ 2) with ((- d2) ^ 2) by ring; apply pow_lt; lra). assert (0 < k * d2 ^ 2) by (apply Rmult_lt_0_compat; lra). lra. }
        pose proof (tail_ge_threshold _ _ U QR) as TG. fold B T in TG. assert (f * T <= f * B) by (apply Rmult_le_compat_l; lra). split; [lra|]. intros _. lra.
    - destruct (neg_facts Y) as (E & D2 & FQ & F1 & UQ & QL). pose proof (u_range d1) as U.
      destruct (tails_sq _ _ U QR) as (SA & SB & PA & PB & LA & LB & AB).
      rewrite (polya_neg d2 D2). unfold tail. rewrite E. set (u := exp (- k * d1 ^ 2)) in *. set (A := sqrt (1 - u)) in *. set (B := sqrt (1 - u * q)) in *. set (T := sqrt (1 - q)).
      rewrite (Rmax_right f 1), (Rabs_left d2 D2) by lra.
      destruct (Rle_lt_dec d1 0) as [P|N].
      + assert (X : 2 * polya_cdf k d1 - 1 = - A).
        { destruct (Rle_lt_or_eq_dec d1 0 P) as [L|Z]; [apply (polya_neg d1 L)|]. rewrite polya_pos by lra. unfold tail. fold u A. assert (A = 0); [|lra]. unfold A, u. rewrite Z. replace (- k * 0 ^ 2) with 0 by ring. rewrite exp_0. replace (1 - 1) with 0 by ring. apply sqrt_0. }
        rewrite X, (Rabs_left1 d1 P). pose proof (tail_threshold _ _ U QR) as TT. fold A B T in TT. assert (q * A <= f * A) by (apply Rmult_le_compat_r; lra).
        split; [|lra]. intros _. unfold sgn. destruct (Rlt_dec y 0); [|lra]. lra.
      + rewrite (polya_pos d1), (Rabs_pos_eq d1) by lra. unfold tail. fold u A.
        assert (PA' : 0 < A). { apply sqrt_lt_R0. assert (u < 1); [|lra]. apply exp_lt_1. assert (0 < d1 ^ 2) by (apply pow_lt; lra). assert (0 < k * d1 ^ 2) by (apply Rmult_lt_0_compat; lra). lra. }
        assert (0 < f * A) by (apply Rmult_lt_0_compat; lra).
        pose proof (tail_ge_threshold _ _ U QR) as TG. fold B T in TG. split; [lra|]. intros _. lra.
  Qed.
  (** the quadratic equation for beta = exp(- k gamma) *)
  Let f1 := exp (- k * y).
  Let g1 := f1 * f.
  Let a := (g1 - 1 / g1) * (g1 - 1 / g1).
  Let b := 4 * (f1 + 1 / f1) - 2 * (g1 + 1 / g1) * (1 + f * f - r * r) / f.
  Let c := (r * r - (f - 1) * (f - 1)) * ((f + 1 - r) * (f + 1 + r)) / (f * f).
  Lemma beta_root : a * (beta * beta) + b * beta = c.
  Proof.
    pose proof f_pos as PF. assert (P1 : 0 < f1) by apply exp_pos.
    assert (S1 : t1 * t1 = 1 - beta * f1). { unfold t1. rewrite polya_sq. unfold beta, f1. rewrite <- exp_plus, d1_sq. do 2 f_equal. ring. }
    assert (S2 : t2 * t2 = 1 - beta / f1). { unfold t2. rewrite polya_sq. unfold Rdiv, beta, f1. rewrite <- exp_Ropp, <- exp_plus, d2_sq. do 2 f_equal. ring. }
    assert (H : (f * f * (1 - beta * f1) + (1 - beta / f1) - r * r) * (f * f * (1 - beta * f1) + (1 - beta / f1) - r * r) = 4 * (f * f) * (1 - beta * f1) * (1 - beta / f1)).
    { rewrite <- S1, <- S2. unfold r. ring. }
    apply (Rmult_eq_reg_r (f * f)); [|apply Rgt_not_eq, Rmult_lt_0_compat; lra].
    assert (E : (a * (beta * beta) + b * beta) * (f * f) - c * (f * f)
      = (f * f * (1 - beta * f1) + (1 - beta / f1) - r * r) * (f * f * (1 - beta * f1) + (1 - beta / f1) - r * r) - 4 * (f * f) * (1 - beta * f1) * (1 - beta / f1)).
    { unfold a, b, c, g1. field. lra. }
    lra.
  Qed.
  Lemma c_pos : 0 < c.
  Proof.
    destruct r_bounds as [A B]. pose proof f_pos as PF. pose proof (Rabs_pos (f - 1)). unfold c. apply Rdiv_lt_0_compat; [|apply Rmult_lt_0_compat; lra].
    apply Rmult_lt_0_compat; [|apply Rmult_lt_0_compat; lra].
    assert (E : (f - 1) * (f - 1) = Rabs (f - 1) * Rabs (f - 1)) by (rewrite <- Rabs_mult, Rabs_pos_eq; [reflexivity|apply Rle_0_sqr]).
    rewrite E. assert (Rabs (f - 1) * Rabs (f - 1) < r * r) by (apply Rmult_le_0_lt_compat; lra). lra.
  Qed.
  Lemma beta_solves : 0 < b + sqrt (b * b + 4 * a * c) /\ 2 * c / (b + sqrt (b * b + 4 * a * c)) = beta /\ 0 <= b * b + 4 * a * c.
  Proof.
    pose proof beta_root as E. pose proof c_pos as PC. assert (PB : 0 < beta) by apply exp_pos. assert (PA : 0 <= a) by apply Rle_0_sqr.
    assert (AB : 0 < a * beta + b). { apply (Rmult_lt_reg_r beta); [exact PB|]. rewrite Rmult_0_l. replace ((a * beta + b) * beta) with c by (rewrite <- E; ring). exact PC. }
    assert (A2 : 0 <= a * beta) by (apply Rmult_le_pos; lra).
    assert (SQ : b * b + 4 * a * c = (2 * (a * beta) + b) * (2 * (a * beta) + b)) by (rewrite <- E; ring).
    rewrite SQ, sqrt_square by lra. split; [lra|]. split; [|apply Rle_0_sqr]. rewrite <- E. field. lra.
  Qed.
  Lemma lnbeta_value : ln 2 + ln c - ln (b + sqrt (b * b + 4 * a * c)) = - k * gamma.
  Proof.
    destruct beta_solves as (P & E & _). pose proof c_pos as PC.
    replace (- k * gamma) with (ln beta) by (unfold beta; apply ln_exp). rewrite <- E. unfold Rdiv.
    rewrite ln_mult by (try (apply Rinv_0_lt_compat); lra). rewrite ln_mult by lra. rewrite ln_Rinv by lra. ring.
  Qed.
End Main.

(** ** From extended reals to reals *)
Lemma xdiv_f a b : b <> 0 -> Fin a /x Fin b = Fin (a / b).
Proof. intros H. cbn [xdiv]. unfold req. destruct (Req_EM_T b 0); [contradiction|reflexivity]. Qed.
Lemma xsqrt_f a : 0 <= a -> xsqrt (Fin a) = Fin (sqrt a).
Proof. intros H. cbn [xsqrt]. unfold rlt. destruct (Rlt_dec a 0); [lra|reflexivity]. Qed.
Lemma xln_f a : 0 < a -> xln (Fin a) = Fin (ln a).
Proof. intros H. cbn [xln]. unfold rlt, req. destruct (Rlt_dec 0 a); [|lra]. destruct (Rlt_dec a 0); [lra|]. destruct (Req_EM_T a 0); [lra|]. reflexivity. Qed.
Lemma xpow_f a e : 0 < a -> xpow (Fin a) e = Fin (exp (e * ln a)).
Proof. intros H. cbn [xpow]. unfold rlt. destruct (Rlt_dec 0 a); [reflexivity|lra]. Qed.
Lemma xmax_f a b : xmax (Fin a) (Fin b) = Fin (Rmax a b).
Proof. unfold xmax. cbn [is_nan orb xlt]. unfold rlt, Rmax. destruct (Rlt_dec a b), (Rle_dec a b); try reflexivity; try lra. f_equal. lra. Qed.
Lemma xmin_f a b : xmin (Fin a) (Fin b) = Fin (Rmin a b).
Proof. unfold xmin. cbn [is_nan orb xlt]. unfold rlt, Rmin. destruct (Rlt_dec a b), (Rle_dec a b); try reflexivity; try lra. f_equal. lra. Qed.

Lemma approx_polya_value k y s T p is_call : / 2 <= k -> 0 < s -> 0 < T ->
  let f := exp y in
  let r := f * (2 * polya_cdf k (y / s + s / 2) - 1) - (2 * polya_cdf k (y / s - s / 2) - 1) in
  let option_sign := match is_call with Some false => -1 | _ => 1 end in
  2 * p = r + option_sign * (f - 1) ->
  approx_polya (Fin p) (Fin f) (Fin T) is_call k = Fin (s / sqrt T).
Proof.
  intros K S PT f r e P.
  destruct (r_bounds k y s K S) as [B1 B2]. destruct (beta_solves k y s K S) as (PB & _ & PD).
  pose proof (lnbeta_value k y s K S) as LB. pose proof (c_pos k y s K S) as PC. pose proof (threshold_branch k y s K S) as TB. pose proof (q_range k y K) as QR.
  pose proof (d1_sq y s S) as G1. pose proof (d2_sq y s S) as G2.
  cbv zeta in *. fold f in B1, B2, PB, PD, LB, PC, TB. fold r in B1, B2, PB, PD, LB, PC, TB.
  set (f1 := exp (- k * y)) in *. set (g1 := f1 * f) in *.
  set (a := (g1 - 1 / g1) * (g1 - 1 / g1)) in *. set (b := 4 * (f1 + 1 / f1) - 2 * (g1 + 1 / g1) * (1 + f * f - r * r) / f) in *.
  set (c := (r * r - (f - 1) * (f - 1)) * ((f + 1 - r) * (f + 1 + r)) / (f * f)) in *.
  set (gamma := y ^ 2 / s ^ 2 + s ^ 2 / 4) in *. set (q := exp (-2 * k * Rabs y)) in *.
  assert (PF : 0 < f) by apply exp_pos. assert (PF1 : 0 < f1) by apply exp_pos. assert (PG : 0 < g1) by (apply Rmult_lt_0_compat; assumption).
  assert (E2 : e = 1 \/ e = -1) by (unfold e; destruct is_call as [[|]|]; [left|right|left]; reflexivity).
  assert (AB : - r < f - 1 < r) by (unfold Rabs in B1; destruct (Rcase_abs (f - 1)); lra).
  assert (Pp : 0 < p) by (destruct E2 as [Q|Q]; rewrite Q in P; lra).
  assert (Pm : 0 < p - e * (f - 1)) by (destruct E2 as [Q|Q]; rewrite Q in *; lra).
  assert (LNC : ln (4 * p) + ln (p - e * (f - 1)) + (ln (f + 1 - r) + ln (f + 1 + r)) - 2 * y = ln c).
  { replace (2 * y) with (ln (f * f)) by (rewrite ln_mult by assumption; unfold f; rewrite !ln_exp; ring).
    rewrite <- !ln_mult by (try apply Rmult_lt_0_compat; lra). unfold c, Rdiv.
    assert (EQ : 4 * p * (p - e * (f - 1)) = r * r - (f - 1) * (f - 1)) by (replace r with (2 * p - e * (f - 1)) by lra; destruct E2 as [Q|Q]; rewrite Q; ring).
    rewrite <- EQ. rewrite (ln_mult _ (/ (f * f))); [rewrite ln_Rinv by (apply Rmult_lt_0_compat; assumption); ring| |apply Rinv_0_lt_compat, Rmult_lt_0_compat; assumption].
    apply Rmult_lt_0_compat; [rewrite EQ|apply Rmult_lt_0_compat; lra].
    rewrite <- EQ. apply Rmult_lt_0_compat; lra. }
  unfold approx_polya, quadratic_coeffs, xexpm1, xsub, xsquare. fold e. cbn [xopp].
  rewrite (xln_f f PF), (xpow_f f (- k) PF). replace (ln f) with y by (unfold f; rewrite ln_exp; reflexivity). fold f1.
  rewrite (xdiv_f 1 f1) by lra. cbn [xmul]. fold g1. rewrite (xdiv_f 1 g1) by lra.
  rewrite xmax_f, xmin_f. rewrite (xdiv_f (Rmin f 1) 2) by lra.
  cbn [xsign xadd xopp xmul xabs xexp].
  replace (2 * p + - (e * (f + - (1)))) with r by lra.
  rewrite (xdiv_f _ f) by lra. cbn [xadd xopp xmul].
  rewrite (xln_f (4 * p)) by lra. rewrite (xln_f (p + - (e * (f + - (1))))) by (replace (p + - (e * (f + - (1)))) with (p - e * (f - 1)) by ring; exact Pm).
  rewrite (xln_f (f + 1 + - r)), (xln_f (f + 1 + r)) by lra. cbn [xadd xopp xmul xexp].
  replace (ln (4 * p) + ln (p + - (e * (f + - (1)))) + (ln (f + 1 + - r) + ln (f + 1 + r)) + - (2 * y)) with (ln c)
    by (rewrite <- LNC; replace (p + - (e * (f + - (1)))) with (p - e * (f - 1)) by ring; replace (f + 1 + - r) with (f + 1 - r) by ring; ring).
  rewrite exp_ln by exact PC.
  replace (4 * (f1 + 1 / f1) + - (2 * (g1 + 1 / g1) * (1 + f * f + - (r * r)) / f)) with b by (unfold b; field; lra).
  replace ((g1 + - (1 / g1)) * (g1 + - (1 / g1))) with a by (unfold a; ring).
  rewrite (xsqrt_f (b * b + 4 * a * c)) by exact PD. cbn [xadd]. rewrite (xln_f (b + sqrt (b * b + 4 * a * c))) by exact PB. cbn [xadd xopp].
  replace (ln 2 + ln c + - ln (b + sqrt (b * b + 4 * a * c))) with (- k * gamma) by (rewrite <- LB; ring).
  rewrite (xdiv_f _ k) by lra. replace (- (- k * gamma) / k) with gamma by (field; lra). cbn [xadd].
  change (gamma + - y) with (gamma - y).
  assert (D1 : 0 <= gamma + y) by (rewrite <- G1; apply pow2_ge_0). assert (D2 : 0 <= gamma - y) by (rewrite <- G2; apply pow2_ge_0).
  rewrite (xsqrt_f (gamma + y) D1), (xsqrt_f (gamma - y) D2).
  fold q. rewrite (xsqrt_f (- (q + - (1)))) by lra. replace (- (q + - (1))) with (1 - q) by ring.
  cbn [xmul xadd xopp]. rewrite (xsqrt_f T) by lra.
  unfold xle. cbn [xlt]. destruct TB as [TB1 TB2]. set (X := sqrt (1 - q)) in *.
  set (sg := if rlt y 0 then -1 else if rlt 0 y then 1 else 0).
  assert (SG : sg = if Rlt_dec y 0 then -1 else if Rlt_dec 0 y then 1 else 0) by (unfold sg, rlt; destruct (Rlt_dec y 0), (Rlt_dec 0 y); reflexivity).
  assert (PX : 0 <= X) by apply sqrt_pos.
  assert (THR : 2 * (e * sg * (Rmax f 1 * (1 / 2 + 1 / 2 * (e * sg) * X) + - (Rmin f 1 / 2))) - e * (f - 1) = Rmax f 1 * X).
  { assert (FF : (y < 0 -> f < 1) /\ (0 < y -> 1 < f) /\ (y = 0 -> f = 1)).
    { unfold f. split; [|split]; intros Z; [rewrite <- exp_0; apply exp_increasing; exact Z|rewrite <- exp_0 at 1; apply exp_increasing; exact Z|rewrite Z; apply exp_0]. }
    destruct FF as (F1 & F2 & F3). rewrite SG. destruct (Rlt_dec y 0) as [N|N]; [|destruct (Rlt_dec 0 y) as [M|M]].
    - specialize (F1 N). rewrite Rmax_right, Rmin_left by lra. destruct E2 as [-> | ->]; field.
    - specialize (F2 M). rewrite Rmax_left, Rmin_right by lra. destruct E2 as [-> | ->]; field.
    - specialize (F3 ltac:(lra)). assert (Z : X = 0). { unfold X, q. replace y with 0 by lra. rewrite Rabs_R0, Rmult_0_r, exp_0. replace (1 - 1) with 0 by ring. apply sqrt_0. } rewrite Z, F3. ring. }
  unfold rlt. destruct (Rlt_dec _ p) as [L|L]; cbn [negb].
  - cbn [xmul xadd]. rewrite xdiv_f by (apply Rgt_not_eq, sqrt_lt_R0; exact PT). do 2 f_equal. apply TB2. lra.
  - cbn [xmul xadd]. rewrite xdiv_f by (apply Rgt_not_eq, sqrt_lt_R0; exact PT). do 2 f_equal. rewrite SG. apply TB1. lra.
Qed.
