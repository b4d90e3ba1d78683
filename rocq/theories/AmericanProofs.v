(** Lemmas about the Barone-Adesi and Whaley approximation. *)
From Coquelicot Require Import Coquelicot.
From Coq Require Import Reals List Bool Arith ZArith Lia Lra Psatz.
From Verif Require Import InterpModel BrentModel ExtReal HaganWestModel HaganWestProofs BootstrapModel BlackScholesModel BlackScholesSpec GaussianAux NormalProofs BlackScholesProofs ImpliedVolProofs ImpliedVolProofs2 BarrierProofs NewtonModel NewtonProofs PropsNewton AmericanModel AmericanSpec.
Import ListNotations.
Open Scope R_scope.

Definition sgn_of (call : bool) : R := if call then 1 else -1.
Lemma sgn_sq call : sgn_of call * sgn_of call = 1. Proof. destruct call; cbn; lra. Qed.

Lemma mvt_sign (f f' : R -> R) a b : (forall u, Rmin a b <= u <= Rmax a b -> is_derive f u (f' u)) -> exists u, Rmin a b <= u <= Rmax a b /\ f b - f a = f' u * (b - a).
Proof.
  intros DF. destruct (MVT_gen f a b f') as (u & U & V).
  - intros u U. apply DF. lra.
  - intros u U. apply continuity_pt_filterlim. apply (ex_derive_continuous (K := R_AbsRing) (V := R_NormedModule)). eexists. apply DF. exact U.
  - exists u. split; assumption.
Qed.

(** * The European price as a function of the spot *)
Section European.
Variables (sigma x t r d : R) (call : bool).
Hypothesis S0 : 0 < sigma. Hypothesis X0 : 0 < x. Hypothesis T0 : 0 < t.
Definition wd : R := sigma * sqrt t.
Definition dp (s : R) : R := (ln (s / x) + (r - d + sigma ^ 2 / 2) * t) / wd.
Definition ev (s : R) : R := sgn_of call * (s * exp (- d * t) * ncdf (sgn_of call * dp s) - x * exp (- r * t) * ncdf (sgn_of call * (dp s - wd))).
Definition del (s : R) : R := exp (- d * t) * ncdf (sgn_of call * dp s).
Lemma wd_pos : 0 < wd. Proof. apply Rmult_lt_0_compat; [exact S0|apply sqrt_lt_R0; exact T0]. Qed.
Lemma wd_sq : wd * wd = sigma ^ 2 * t.
Proof. unfold wd. replace (sigma * sqrt t * (sigma * sqrt t)) with (sigma ^ 2 * (sqrt t * sqrt t)) by ring. rewrite sqrt_sqrt by lra. reflexivity. Qed.
Lemma plain_quoted s : 0 < s -> quoted (plain sigma x t s r d call) (exp (- (r * t))) (s * exp (- (d * t)) / exp (- (r * t))).
Proof.
  intros P. unfold quoted, plain, discounts_to, forward_is, degenerate, dividend. cbn.
  assert (A := exp_pos (- (r * t))). assert (B := exp_pos (- (d * t))).
  repeat split; try lra; try reflexivity; try (intros (C & _); lra); try (apply Rdiv_lt_0_compat; nra).
Qed.
Lemma european_fin s : 0 < s -> option_price (plain sigma x t s r d call) = Some (Fin (ev s)).
Proof.
  intros P. assert (Q := plain_quoted s P). assert (W := wd_pos).
  set (a := plain sigma x t s r d call) in *. set (F := s * exp (- (d * t)) / exp (- (r * t))) in *.
  assert (DV : deviation a = wd) by reflexivity.
  unfold option_price. rewrite (quoted_ok a _ _ Q). cbn [negb]. cbv zeta. rewrite (quoted_discount a _ _ Q), (quoted_forward a _ _ Q).
  rewrite (call_pos a _ _ Q) by (rewrite DV; exact W). change (is_call_option a) with (Some call). change (is_normal_volatility a) with false.
  change (strike a) with x. rewrite above_log by (rewrite DV; lra). rewrite DV.
  assert (E : ln (F / x) / wd + wd / 2 = dp s).
  { unfold dp. replace (F / x) with (s / x * exp ((r - d) * t)).
    2:{ unfold F. replace ((r - d) * t) with (- (d * t) + - - (r * t)) by ring. rewrite exp_plus, (exp_Ropp (- (r * t))). field. repeat split; try (apply Rgt_not_eq, exp_pos); lra. }
    rewrite ln_mult by (try apply exp_pos; apply Rdiv_lt_0_compat; lra). rewrite ln_exp. assert (W2 := wd_sq).
    apply Rmult_eq_reg_r with wd; [|lra]. field_simplify; [|lra|lra]. nra. }
  rewrite E. xfin. f_equal. unfold ev.
  replace (- d * t) with (- (d * t)) by ring. replace (- r * t) with (- (r * t)) by ring.
  assert (D0 := exp_pos (- (r * t))).
  destruct call; cbn [sgn_of]; xfin; f_equal.
  - rewrite !Rmult_1_l. unfold F. field. lra.
  - replace (-1 * dp s) with (- dp s) by ring. replace (-1 * (dp s - wd)) with (- (dp s - wd)) by ring. rewrite !ncdf_symm. unfold F. field. lra.
Qed.
Lemma european_eq s : 0 < s -> european sigma x t r d call (Fin s) = Fin (ev s).
Proof. intros P. unfold european. assert (E := european_fin s P). unfold plain in E. rewrite E. reflexivity. Qed.
Lemma ev_nonneg s : 0 < s -> 0 <= ev s.
Proof.
  intros P. destruct (price_value _ _ _ (plain_quoted s P)) as (m & E & M). rewrite european_fin in E by exact P. injection E as ->.
  apply Rmult_le_pos; [left; apply exp_pos|]. unfold fair in M. destruct (Rlt_dec 0 (deviation (plain sigma x t s r d call))).
  - eapply expectation_nonneg; [|exact M]. intros z. unfold vanilla. destruct (calls _); apply Rmax_r.
  - rewrite M. unfold vanilla. destruct (calls _); apply Rmax_r.
Qed.
Lemma dp_derive s : 0 < s -> is_derive dp s (/ (s * wd)).
Proof.
  intros P. assert (W := wd_pos). assert (S1 : 0 < s / x) by (apply Rdiv_lt_0_compat; lra). unfold dp. auto_derive; [repeat split; lra|]. field. lra.
Qed.
Lemma dp_balance s : 0 < s -> s * exp (- d * t) * density (dp s) = x * exp (- r * t) * density (dp s - wd).
Proof.
  intros P. assert (W := wd_pos). assert (W2 := wd_sq).
  rewrite <- (density_shift wd (dp s)). rewrite <- Rmult_assoc. f_equal.
  replace (wd * dp s - wd ^ 2 / 2) with (ln (s / x) + (r - d) * t).
  2:{ unfold dp. replace (wd ^ 2) with (wd * wd) by ring. rewrite W2. field. lra. }
  rewrite exp_plus, exp_ln by (apply Rdiv_lt_0_compat; lra). rewrite Rmult_assoc, (Rmult_comm (exp (- r * t))), Rmult_assoc, <- exp_plus.
  replace ((r - d) * t + - r * t) with (- d * t) by ring. field. lra.
Qed.
Lemma sgn_density y : density (sgn_of call * y) = density y.
Proof. destruct call; cbn [sgn_of]; [rewrite Rmult_1_l; reflexivity|]. replace (-1 * y) with (- y) by ring. apply density_even. Qed.
Lemma ncdf_sgn_derive s : 0 < s -> is_derive (fun s => ncdf (sgn_of call * dp s)) s (sgn_of call * / (s * wd) * density (dp s)).
Proof.
  intros P. assert (D1 : is_derive (fun s => sgn_of call * dp s) s (sgn_of call * / (s * wd))) by (apply (is_derive_scal dp), dp_derive; exact P).
  assert (C1 := is_derive_comp (V := R_NormedModule) ncdf (fun s => sgn_of call * dp s) s _ _ (ncdf_derive _) D1).
  rewrite sgn_density in C1. exact C1.
Qed.
Lemma ncdf_sgn_derive2 s : 0 < s -> is_derive (fun s => ncdf (sgn_of call * (dp s - wd))) s (sgn_of call * / (s * wd) * density (dp s - wd)).
Proof.
  intros P. assert (D1 : is_derive (fun s => sgn_of call * (dp s - wd)) s (sgn_of call * / (s * wd))).
  { apply (is_derive_scal (fun s => dp s - wd)). replace (/ (s * wd)) with (/ (s * wd) - 0) by ring.
    apply (is_derive_minus (V := R_NormedModule) dp (fun _ => wd)); [apply dp_derive; exact P|]. exact (is_derive_const (K := R_AbsRing) (V := R_NormedModule) wd s). }
  assert (C1 := is_derive_comp (V := R_NormedModule) ncdf (fun s => sgn_of call * (dp s - wd)) s _ _ (ncdf_derive _) D1).
  rewrite sgn_density in C1. exact C1.
Qed.
Lemma del_derive s : 0 < s -> is_derive del s (sgn_of call * exp (- d * t) * density (dp s) / (s * wd)).
Proof.
  intros P. assert (C := is_derive_scal _ _ (exp (- d * t)) _ (ncdf_sgn_derive s P)). assert (W := wd_pos).
  match type of C with is_derive _ _ ?e => assert (E : e = sgn_of call * exp (- d * t) * density (dp s) / (s * wd)) by (field; lra); rewrite <- E end. exact C.
Qed.
Lemma ev_derive s : 0 < s -> is_derive ev s (sgn_of call * del s).
Proof.
  intros P. assert (W := wd_pos).
  assert (C1 := is_derive_mult (fun s => s) del s _ _ (is_derive_id s) (del_derive s P) Rmult_comm).
  assert (C2 := is_derive_scal _ _ (x * exp (- r * t)) _ (ncdf_sgn_derive2 s P)).
  assert (C := is_derive_minus (V := R_NormedModule) _ _ _ _ _ C1 C2). apply (is_derive_scal _ _ (sgn_of call)) in C.
  apply (is_derive_ext (fun s => sgn_of call * (s * del s - x * exp (- r * t) * ncdf (sgn_of call * (dp s - wd))))).
  { intros u. unfold ev, del. assert (Q : forall p q v w z : R, p * (u * (q * v) - w * z) = p * (u * q * v - w * z)) by (intros; ring). apply Q. }
  match type of C with is_derive _ _ ?e => replace (sgn_of call * del s) with e; [exact C|] end.
  unfold minus, plus, opp, zero, scal, one. cbn. unfold mult. cbn.
  clear C C1 C2. assert (B := dp_balance s P). generalize dependent (density (dp s - wd)). intros n2 B.
  replace (x * exp (- r * t) * (sgn_of call * / (s * wd) * n2)) with ((x * exp (- r * t) * n2) * (sgn_of call * / (s * wd))) by ring.
  rewrite <- B. field. lra.
Qed.
Lemma sgn_dp u c : 0 < u -> 0 < c -> sgn_of call * u <= sgn_of call * c -> sgn_of call * dp u <= sgn_of call * dp c.
Proof.
  intros U C L. assert (W := wd_pos).
  assert (M : forall p q, 0 < p -> p <= q -> dp p <= dp q).
  { intros p q P Q. unfold dp. apply Rmult_le_compat_r; [left; apply Rinv_0_lt_compat; exact W|]. apply Rplus_le_compat_r.
    destruct (Rle_lt_or_eq_dec p q Q) as [Q'| ->]; [|lra]. left. apply ln_increasing; [apply Rdiv_lt_0_compat; lra|]. apply Rmult_lt_compat_r; [apply Rinv_0_lt_compat; lra|exact Q']. }
  destruct call; cbn [sgn_of] in *; [assert (Q := M u c U); lra|assert (Q := M c u C); lra].
Qed.
Lemma del_mono u c : 0 < u -> 0 < c -> sgn_of call * u <= sgn_of call * c -> del u <= del c.
Proof.
  intros U C L. unfold del. apply Rmult_le_compat_l; [left; apply exp_pos|].
  assert (Q := sgn_dp u c U C L). destruct (Rle_lt_or_eq_dec _ _ Q) as [Q'|Q']; [left; apply ncdf_incr; exact Q'|rewrite Q'; lra].
Qed.
Lemma del_pos u : 0 < del u. Proof. apply Rmult_lt_0_compat; [apply exp_pos|apply ncdf_pos]. Qed.
Lemma del_lt_1 u : 0 <= d -> del u < 1.
Proof.
  intros D0. unfold del. assert (A : exp (- d * t) <= 1). { rewrite <- exp_0. destruct (Req_dec d 0) as [->|N]; [right; f_equal; ring|]. left. apply exp_increasing. nra. }
  assert (B := ncdf_lt_1 (sgn_of call * dp u)). assert (C := ncdf_pos (sgn_of call * dp u)). nra.
Qed.

(** * The early exercise premium *)
Variables (q c : R).
Hypothesis C0 : 0 < c. Hypothesis D0 : 0 <= d. Hypothesis Q0 : if call then 1 < q else q < 0.
Definition premium : R := sgn_of call * (c / q) * (1 - del c).
Definition gap : R := ev c + sgn_of call * (1 - del c) * (c / q) - sgn_of call * (c - x).
Definition hold (s : R) : R := ev s + premium * Rpower (s / c) q.
Lemma q_nz : q <> 0. Proof. destruct call; lra. Qed.
Lemma premium_pos : 0 < premium.
Proof.
  unfold premium. assert (B := del_lt_1 c D0). apply Rmult_lt_0_compat; [|lra].
  destruct call; cbn [sgn_of].
  - rewrite Rmult_1_l. apply Rdiv_lt_0_compat; lra.
  - replace (-1 * (c / q)) with (c / - q) by (field; lra). apply Rdiv_lt_0_compat; lra.
Qed.
Lemma power_derive u : 0 < u -> is_derive (fun s => Rpower (s / c) q) u (q / c * Rpower (u / c) (q - 1)).
Proof.
  intros U. assert (P : 0 < u / c) by (apply Rdiv_lt_0_compat; lra). unfold Rpower. auto_derive; [repeat split; try exact P; try lra|].
  change (u * / c) with (u / c). replace ((q - 1) * ln (u / c)) with (q * ln (u / c) + - ln (u / c)) by ring. rewrite exp_plus, (exp_Ropp (ln (u / c))), exp_ln by exact P. field. repeat split; lra.
Qed.
Lemma power_le u : 0 < u -> sgn_of call * u <= sgn_of call * c -> Rpower (u / c) (q - 1) <= 1.
Proof.
  intros U L. unfold Rpower. assert (E : (q - 1) * ln (u / c) <= 0).
  { assert (P : 0 < u / c) by (apply Rdiv_lt_0_compat; lra). destruct call; cbn [sgn_of] in L.
    - assert (A : ln (u / c) <= 0). { rewrite <- ln_1. assert (M : u / c <= 1) by (apply Rmult_le_reg_r with c; [lra|]; unfold Rdiv; rewrite Rmult_assoc, Rinv_l; lra).
        destruct (Rle_lt_or_eq_dec _ _ M) as [M'|M']; [left; apply ln_increasing; lra|rewrite M'; lra]. } nra.
    - assert (A : 0 <= ln (u / c)). { rewrite <- ln_1. assert (M : 1 <= u / c) by (apply Rmult_le_reg_r with c; [lra|]; unfold Rdiv; rewrite Rmult_assoc, Rinv_l; lra).
        destruct (Rle_lt_or_eq_dec _ _ M) as [M'|M']; [left; apply ln_increasing; lra|rewrite <- M'; lra]. } nra. }
  destruct (Rle_lt_or_eq_dec _ _ E) as [E'|E']; [left; apply Rlt_le_trans with (exp 0); [apply exp_increasing; exact E'|rewrite exp_0; lra]|rewrite E', exp_0; lra].
Qed.
Lemma hold_derive u : 0 < u -> is_derive hold u (sgn_of call * (del u + (1 - del c) * Rpower (u / c) (q - 1))).
Proof.
  intros U. assert (QN := q_nz).
  assert (C2 := is_derive_scal _ _ premium _ (power_derive u U)).
  assert (C := is_derive_plus (V := R_NormedModule) _ _ _ _ _ (ev_derive u U) C2).
  match type of C with is_derive _ _ ?e => replace (sgn_of call * (del u + (1 - del c) * Rpower (u / c) (q - 1))) with e; [exact C|] end.
  unfold plus. cbn. unfold premium. field. lra.
Qed.
Lemma power_one : Rpower (c / c) q = 1.
Proof. unfold Rpower. replace (c / c) with 1 by (field; lra). rewrite ln_1, Rmult_0_r. apply exp_0. Qed.
Lemma hold_at : hold c = gap + sgn_of call * (c - x).
Proof. unfold hold, gap, premium. rewrite power_one. ring. Qed.
Lemma between u s : 0 < s -> sgn_of call * s <= sgn_of call * c -> Rmin c s <= u <= Rmax c s -> 0 < u /\ sgn_of call * u <= sgn_of call * c.
Proof.
  intros P L [A B]. unfold Rmin in A. unfold Rmax in B. destruct call; cbn [sgn_of] in *; destruct (Rle_dec c s); lra.
Qed.
(** waiting is worth at least exercising *)
Lemma hold_intrinsic s : 0 < s -> sgn_of call * s <= sgn_of call * c -> gap + sgn_of call * (s - x) <= hold s.
Proof.
  intros P L. destruct (mvt_sign (fun u => hold u - sgn_of call * (u - x)) (fun u => sgn_of call * (del u + (1 - del c) * Rpower (u / c) (q - 1) - 1)) c s) as (u & U & V).
  { intros u U. destruct (between u s P L U) as [U0 _].
    assert (C2 : is_derive (fun u => sgn_of call * (u - x)) u (sgn_of call)) by (auto_derive; [exact Logic.I|ring]).
    assert (C := is_derive_minus (V := R_NormedModule) _ _ _ _ _ (hold_derive u U0) C2).
    match type of C with is_derive _ _ ?e => replace (sgn_of call * (del u + (1 - del c) * Rpower (u / c) (q - 1) - 1)) with e; [exact C|] end.
    unfold minus, plus, opp. cbn. ring. }
  destruct (between u s P L U) as [U0 UL]. assert (A := power_le u U0 UL). assert (B := del_mono u c U0 C0 UL). assert (C := del_lt_1 c D0).
  rewrite hold_at in V. assert (BR : del u + (1 - del c) * Rpower (u / c) (q - 1) - 1 <= 0) by nra.
  assert (K : 0 <= (del u + (1 - del c) * Rpower (u / c) (q - 1) - 1) * (sgn_of call * s - sgn_of call * c)).
  { generalize dependent (del u + (1 - del c) * Rpower (u / c) (q - 1) - 1). intros w. intros. clear - BR L. nra. }
  nra.
Qed.
(** beyond the critical price exercising is worth at least the European option *)
Lemma exercise_european s : 0 < s -> sgn_of call * c <= sgn_of call * s -> ev s <= gap + sgn_of call * (s - x).
Proof.
  intros P L. destruct (mvt_sign (fun u => ev u - sgn_of call * (u - x)) (fun u => sgn_of call * (del u - 1)) c s) as (u & U & V).
  { intros u U. assert (U0 : 0 < u) by (unfold Rmin in U; destruct (Rle_dec c s); lra).
    assert (C2 : is_derive (fun u => sgn_of call * (u - x)) u (sgn_of call)) by (auto_derive; [exact Logic.I|ring]).
    assert (C := is_derive_minus (V := R_NormedModule) _ _ _ _ _ (ev_derive u U0) C2).
    match type of C with is_derive _ _ ?e => replace (sgn_of call * (del u - 1)) with e; [exact C|] end. unfold minus, plus, opp. cbn. ring. }
  assert (B := del_lt_1 u D0). assert (A := premium_pos). assert (G : ev c = gap - premium + sgn_of call * (c - x)) by (unfold gap, premium; ring).
  assert (K : (del u - 1) * (sgn_of call * s - sgn_of call * c) <= 0). { generalize dependent (del u). intros w. intros. clear - B L. nra. }
  nra.
Qed.
Lemma hold_european s : ev s < hold s.
Proof. unfold hold. assert (A := premium_pos). assert (B : 0 < Rpower (s / c) q) by apply exp_pos. nra. Qed.
(** upper bounds *)
Lemma hold_upper s : 0 < s -> sgn_of call * s <= sgn_of call * c -> hold s <= (if call then s else x + Rabs gap).
Proof.
  intros P L. assert (A := power_le s P L). assert (B := del_mono s c P C0 L). assert (C := del_lt_1 c D0). assert (QN := q_nz).
  assert (CC : call = true \/ call = false) by (destruct call; auto). destruct CC as [K|K]; rewrite K.
  - assert (Q1 : 1 < q) by (assert (Q2 := Q0); rewrite K in Q2; exact Q2). assert (PW : Rpower (s / c) q = s / c * Rpower (s / c) (q - 1)).
    { unfold Rminus. rewrite Rpower_plus, Rpower_Ropp, Rpower_1 by (apply Rdiv_lt_0_compat; lra). field. lra. }
    assert (H1 : ev s <= s * del s).
    { unfold ev, del. rewrite K. cbn [sgn_of]. assert (N := ncdf_pos (1 * (dp s - wd))). assert (E := exp_pos (- r * t)). assert (0 < x * exp (- r * t) * ncdf (1 * (dp s - wd))) by (apply Rmult_lt_0_compat; [apply Rmult_lt_0_compat; lra|lra]). nra. }
    assert (H2 : premium * Rpower (s / c) q <= s * (1 - del c)).
    { unfold premium. rewrite K. cbn [sgn_of]. rewrite PW. replace (1 * (c / q) * (1 - del c) * (s / c * Rpower (s / c) (q - 1))) with (s * (1 - del c) * (Rpower (s / c) (q - 1) * / q)) by (field; lra).
      rewrite <- (Rmult_1_r (s * (1 - del c))) at 2. apply Rmult_le_compat_l; [nra|]. assert (I1 : / q < 1) by (rewrite <- Rinv_1; apply Rinv_lt_contravar; lra).
      assert (I0 : 0 < / q) by (apply Rinv_0_lt_compat; lra). assert (0 < Rpower (s / c) (q - 1)) by apply exp_pos. nra. }
    unfold hold. nra.
  - destruct (mvt_sign hold (fun u => sgn_of call * (del u + (1 - del c) * Rpower (u / c) (q - 1))) c s) as (u & U & V).
    { intros u U. apply hold_derive. exact (proj1 (between u s P L U)). }
    rewrite hold_at in V. rewrite K in V, L. cbn [sgn_of] in V, L. assert (U1 := del_pos u). assert (U2 : 0 < Rpower (u / c) (q - 1)) by apply exp_pos.
    assert (Z : 0 < del u + (1 - del c) * Rpower (u / c) (q - 1)) by nra.
    generalize dependent (del u + (1 - del c) * Rpower (u / c) (q - 1)). intros w V Z. assert (G := Rle_abs gap). clear - V Z G L C0 P. nra.
Qed.
End European.
