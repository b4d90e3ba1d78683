(** The code's Barone-Adesi and Whaley price in terms of the lemmas of AmericanProofs. *)
From Coquelicot Require Import Coquelicot.
From Coq Require Import Reals List Bool Arith ZArith Lia Lra Psatz.
From Verif Require Import InterpModel BrentModel ExtReal HaganWestModel HaganWestProofs BootstrapModel BlackScholesModel BlackScholesSpec GaussianAux NormalProofs BlackScholesProofs ImpliedVolProofs ImpliedVolProofs2 BarrierProofs NewtonModel NewtonProofs PropsNewton AmericanModel AmericanSpec AmericanProofs.
Import ListNotations.
Open Scope R_scope.

Section Code.
Variables (sigma x t r d : R) (call : bool).
Hypothesis S0 : 0 < sigma. Hypothesis X0 : 0 < x. Hypothesis T0 : 0 < t.
Notation sg := (sgn_of call).
Lemma d1_fin s : 0 < s -> calc_d1 (Fin s) x sigma (r - d) t = Fin (dp sigma x t r d s).
Proof.
  intros P. assert (W := wd_pos sigma t S0 T0). unfold wd in W. unfold calc_d1. rewrite fdiv by lra. rewrite xln_pos by (apply Rdiv_lt_0_compat; lra).
  rewrite (xsqrt_f t) by lra. rewrite fmul, fadd. rewrite xdnn by lra. reflexivity.
Qed.
Lemma rate_sign : r <> 0 -> 1 - exp (- r * t) <> 0 /\ 0 < r / (1 - exp (- r * t)).
Proof.
  intros N. destruct (Rlt_le_dec 0 r) as [P|P].
  - assert (A : exp (- r * t) < 1) by (apply Rlt_le_trans with (exp 0); [apply exp_increasing; nra|rewrite exp_0; lra]).
    split; [lra|]. apply Rdiv_lt_0_compat; lra.
  - assert (A : 1 < exp (- r * t)) by (apply Rle_lt_trans with (exp 0); [rewrite exp_0; lra|apply exp_increasing; nra]).
    split; [lra|]. replace (r / (1 - exp (- r * t))) with (- r / (exp (- r * t) - 1)) by (field; lra). apply Rdiv_lt_0_compat; lra.
Qed.
Lemma rate_big : r <> 0 -> 0 < d -> r - d < r / (1 - exp (- r * t)).
Proof.
  intros N D. destruct (rate_sign N) as [A B]. destruct (Rlt_le_dec 0 r) as [P|P]; [|lra].
  assert (E := exp_pos (- r * t)). assert (A1 : exp (- r * t) < 1) by (apply Rlt_le_trans with (exp 0); [apply exp_increasing; nra|rewrite exp_0; lra]).
  apply Rlt_le_trans with r; [lra|]. apply Rmult_le_reg_r with (1 - exp (- r * t)); [lra|]. unfold Rdiv. rewrite Rmult_assoc, Rinv_l by lra. nra.
Qed.
Lemma q_fin : (if call then 0 < d else r <> 0) -> exists q, aw_q sigma t r d sg = Fin q /\ exponent sigma t r d call q.
Proof.
  intros C. set (n := 2 * (r - d) / sigma ^ 2). set (rho := if Req_EM_T r 0 then 0 else 2 * r / sigma ^ 2 / (1 - exp (- r * t))).
  assert (V : 0 < sigma ^ 2) by nra.
  assert (R0 : 0 <= rho). { unfold rho. destruct (Req_EM_T r 0) as [Z|N]; [lra|]. destruct (rate_sign N) as [A B]. replace (2 * r / sigma ^ 2 / (1 - exp (- r * t))) with (2 / sigma ^ 2 * (r / (1 - exp (- r * t)))) by (field; lra). left. apply Rmult_lt_0_compat; [apply Rdiv_lt_0_compat; lra|exact B]. }
  assert (NN : 0 <= (n - 1) * (n - 1) + 4 * rho) by (assert (Z := Rle_0_sqr (n - 1)); unfold Rsqr in Z; lra).
  assert (E : aw_q sigma t r d sg = Fin ((1 - n + sg * sqrt ((n - 1) * (n - 1) + 4 * rho)) / 2)).
  { unfold aw_q, calc_q, aw_n, aw_m. rewrite !fdiv by lra. fold n. rewrite !fsub, fsquare, fmul.
    assert (X : xdivide_no_nan (Fin (4 * (2 * r / sigma ^ 2))) (Fin (1 - exp (- r * t))) = Fin (4 * rho)).
    { unfold rho. destruct (Req_EM_T r 0) as [Z|N].
      - rewrite Z. replace (1 - exp (- 0 * t)) with 0 by (replace (- 0 * t) with 0 by ring; rewrite exp_0; ring). unfold xdivide_no_nan, xzero, req. destruct (Req_EM_T 0 0); [f_equal; ring|contradiction].
      - destruct (rate_sign N) as [A _]. rewrite xdnn by exact A. f_equal. field. lra. }
    rewrite X, fadd. rewrite (xsqrt_f ((n - 1) * (n - 1) + 4 * rho)) by exact NN. rewrite fmul, fadd, fdiv by lra. reflexivity. }
  exists ((1 - n + sg * sqrt ((n - 1) * (n - 1) + 4 * rho)) / 2). split; [exact E|].
  assert (SQ := sqrt_sqrt ((n - 1) * (n - 1) + 4 * rho) NN). assert (SP := sqrt_pos ((n - 1) * (n - 1) + 4 * rho)).
  set (w := sqrt ((n - 1) * (n - 1) + 4 * rho)) in *.
  unfold exponent. fold n. fold rho. split.
  - assert (GG := sgn_sq call). replace (((1 - n + sg * w) / 2) ^ 2 + (n - 1) * ((1 - n + sg * w) / 2) - rho) with (((sg * sg) * (w * w) - (n - 1) * (n - 1)) / 4 - rho) by field. rewrite GG, SQ. field.
  - assert (CASE : if call then n < rho else 0 < rho).
    { destruct call; unfold rho; destruct (Req_EM_T r 0) as [Z|N]; try contradiction.
      - unfold n. rewrite Z. assert (0 < 2 * d / sigma ^ 2) by (apply Rdiv_lt_0_compat; lra). replace (2 * (0 - d) / sigma ^ 2) with (- (2 * d / sigma ^ 2)) by (field; lra). lra.
      - assert (B := rate_big N C). destruct (rate_sign N) as [A _]. replace (2 * r / sigma ^ 2 / (1 - exp (- r * t))) with (2 / sigma ^ 2 * (r / (1 - exp (- r * t)))) by (field; lra).
        unfold n. replace (2 * (r - d) / sigma ^ 2) with (2 / sigma ^ 2 * (r - d)) by (field; lra). apply Rmult_lt_compat_l; [apply Rdiv_lt_0_compat; lra|exact B].
      - destruct (rate_sign N) as [A B]. replace (2 * r / sigma ^ 2 / (1 - exp (- r * t))) with (2 / sigma ^ 2 * (r / (1 - exp (- r * t)))) by (field; lra). apply Rmult_lt_0_compat; [apply Rdiv_lt_0_compat; lra|exact B]. }
    clearbody n rho w. clear E. destruct call; cbn [sgn_of].
    + assert (1 + n < w); [|lra]. destruct (Rle_lt_dec (1 + n) 0) as [L|L]; nra.
    + assert (1 - n < w); [|lra]. destruct (Rle_lt_dec (1 - n) 0) as [L|L]; nra.
Qed.
Variable (q : R).
Hypothesis QN : q <> 0.
Lemma value_fin c : 0 < c -> aw_value sigma x t r d sg call (Fin q) (Fin c) = Fin (gap sigma x t r d call q c).
Proof.
  intros P. unfold aw_value. rewrite d1_fin by exact P. rewrite (european_eq sigma x t r d call S0 X0 T0 c P). rewrite xdnn by exact QN.
  rewrite fmul. cbn [xncdf]. xfin. reflexivity.
Qed.
Lemma a_fin c : 0 < c -> aw_a sigma x t r d sg (Fin q) (Fin c) = Fin (premium sigma x t r d call q c).
Proof.
  intros P. unfold aw_a. rewrite d1_fin by exact P. rewrite xdnn by exact QN. rewrite (fmul sg). cbn [xncdf]. xfin. reflexivity.
Qed.
Lemma price_fin c s : 0 < c -> 0 < s ->
  aw_price sigma x t r d s call (Fin q) (aw_a sigma x t r d sg (Fin q) (Fin c)) (Fin c)
  = Fin (if Rlt_dec (sg * s) (sg * c) then hold sigma x t r d call q c s else sg * (s - x)).
Proof.
  intros P Q. unfold aw_price. cbv zeta. rewrite (proj2 (rlt_true 0 t) T0).
  assert (CE : (if call then xlt (Fin s) (Fin c) else xlt (Fin c) (Fin s)) = if Rlt_dec (sg * s) (sg * c) then true else false).
  { destruct call; cbn [xlt sgn_of]; unfold rlt.
    - destruct (Rlt_dec s c), (Rlt_dec (1 * s) (1 * c)); try reflexivity; lra.
    - destruct (Rlt_dec c s), (Rlt_dec (-1 * s) (-1 * c)); try reflexivity; lra. }
  rewrite CE. destruct (Rlt_dec (sg * s) (sg * c)).
  - rewrite a_fin by exact P. rewrite (european_eq sigma x t r d call S0 X0 T0 s Q). rewrite fdiv by lra.
    unfold xpower, xzero, req. destruct (Req_EM_T q 0); [contradiction|]. rewrite (proj2 (rlt_true 0 (s / c))) by (apply Rdiv_lt_0_compat; lra). reflexivity.
  - f_equal. unfold sgn_of. destruct call; ring.
Qed.
(** the slope of the condition *)
Lemma gap_derive c : 0 < c -> exists g, is_derive (gap sigma x t r d call q) c g
  /\ (0 <= d -> Rabs g <= steepness sigma t q) /\ (0 <= d -> (if call then 1 < q else q < 0) -> g <> 0).
Proof.
  intros P. assert (W := wd_pos sigma t S0 T0).
  assert (D1 := ev_derive sigma x t r d call S0 X0 T0 c P). assert (D2 := del_derive sigma x t r d call S0 X0 T0 c P).
  set (dl := del sigma x t r d call) in *. set (w := wd sigma t) in *. set (dn := density (dp sigma x t r d c)) in *.
  set (D' := sg * exp (- d * t) * dn / (c * w)) in *.
  assert (DD : is_derive (fun c => ev sigma x t r d call c + sg * (1 - dl c) * (c / q) - sg * (c - x)) c
                 (sg * dl c + (sg * (1 - dl c) / q - sg * D' * (c / q)) - sg)).
  { assert (ED : ex_derive dl c) by (eexists; exact D2). assert (EE : ex_derive (ev sigma x t r d call) c) by (eexists; exact D1).
    assert (V1 := is_derive_unique _ _ _ D1). assert (V2 := is_derive_unique _ _ _ D2).
    set (E := ev sigma x t r d call) in *. auto_derive; [repeat split; assumption|].
    match goal with |- context [Derive (fun x : R => dl x) ?u] => change (Derive (fun x : R => dl x) u) with (Derive dl u) end.
    match goal with |- context [Derive (fun x : R => E x) ?u] => change (Derive (fun x : R => E x) u) with (Derive E u) end.
    rewrite V1, V2. field. exact QN. }
  exists (sg * dl c + (sg * (1 - dl c) / q - sg * D' * (c / q)) - sg). split; [exact DD|]. clear DD D1 D2.
  cut (0 <= d -> Rabs (sg * dl c + (sg * (1 - dl c) / q - sg * D' * (c / q)) - sg) <= steepness sigma t q /\ ((if call then 1 < q else q < 0) -> sg * dl c + (sg * (1 - dl c) / q - sg * D' * (c / q)) - sg <> 0)); [tauto|]. intros D0.
  assert (B1 : 0 < dl c < 1) by (split; [apply del_pos; assumption|apply del_lt_1; assumption]).
  assert (B2 : 0 < dn <= 1) by (split; [apply density_pos|apply density_le_1]).
  assert (B3 : 0 < exp (- d * t) <= 1). { split; [apply exp_pos|]. rewrite <- exp_0. destruct (Req_dec d 0) as [->|N]; [right; f_equal; ring|]. left. apply exp_increasing. nra. }
  assert (EQ : sg * dl c + (sg * (1 - dl c) / q - sg * D' * (c / q)) - sg = - (sg * (1 - dl c) * (1 - / q)) - (sg * sg) * (exp (- d * t) * dn) * / (w * q)) by (unfold D'; field; repeat split; first [exact QN|lra]).
  rewrite EQ, sgn_sq. unfold steepness. change (sigma * sqrt t) with w. clearbody dl dn w. generalize dependent (exp (- d * t)). intros e. intros. split.
  2:{ intros QS Z. assert (SG : sg * sg = 1) by apply sgn_sq. assert (QI : 0 < 1 - / q /\ 0 < sg * / (w * q)).
      { destruct call; cbn [sgn_of] in *.
        - assert (I1 : / q < 1) by (rewrite <- Rinv_1; apply Rinv_lt_contravar; lra). assert (0 < / (w * q)) by (apply Rinv_0_lt_compat; nra). lra.
        - assert (I1 : / q < 0) by (apply Rinv_lt_0_compat; exact QS). assert (/ (w * q) < 0) by (apply Rinv_lt_0_compat; nra). lra. }
      destruct QI as [Q1 Q2]. assert (Z2 : (1 - dl c) * (1 - / q) + e * dn * (sg * / (w * q)) = 0). { apply (f_equal (fun v => - sg * v)) in Z. replace (- sg * (- (sg * (1 - dl c) * (1 - / q)) - 1 * (e * dn) * / (w * q))) with (sg * sg * ((1 - dl c) * (1 - / q)) + e * dn * (sg * / (w * q))) in Z by ring. rewrite SG in Z. lra. }
      assert (0 < (1 - dl c) * (1 - / q)) by (apply Rmult_lt_0_compat; lra). assert (0 < e * dn * (sg * / (w * q))) by (apply Rmult_lt_0_compat; [nra|exact Q2]). lra. }
  eapply Rle_trans; [apply Rabs_triang|]. rewrite !Rabs_Ropp. apply Rplus_le_compat.
  - rewrite !Rabs_mult. rewrite (Rabs_pos_eq (1 - dl c)) by lra. replace (Rabs sg) with 1 by (destruct call; cbn; unfold Rabs; destruct (Rcase_abs _); lra).
    assert (Z := Rabs_pos (1 - / q)). nra.
  - rewrite Rabs_mult, Rabs_inv, (Rabs_mult w q), (Rabs_pos_eq w) by lra. rewrite Rabs_pos_eq by nra.
    assert (AQ : 0 < Rabs q) by (apply Rabs_pos_lt; exact QN). assert (Z : 0 < / (w * Rabs q)) by (apply Rinv_0_lt_compat; nra). assert (ED : 0 <= e * dn <= 1) by nra. rewrite <- (Rmult_1_l (/ (w * Rabs q))) at 2. apply Rmult_le_compat_r; lra.
Qed.
End Code.

(** The condition is not a number away from positive finite prices. *)
Lemma value_nonfinite sigma x t r d sign call q c : is_finite c = false -> aw_value sigma x t r d sign call q c = NaN.
Proof. intros H. unfold aw_value, european. destruct c; [discriminate H| |]; reflexivity. Qed.
Lemma value_negative sigma x t r d sign call q c : 0 < sigma -> 0 < x -> 0 < t -> c < 0 -> aw_value sigma x t r d sign call q (Fin c) = NaN.
Proof.
  intros S0 X0 T0 C. assert (W := wd_pos sigma t S0 T0). unfold wd in W.
  assert (D : calc_d1 (Fin c) x sigma (r - d) t = NaN).
  { unfold calc_d1. rewrite fdiv by lra. assert (N : c / x < 0) by (unfold Rdiv; assert (0 < / x) by (apply Rinv_0_lt_compat; lra); nra).
    assert (XL : xln (Fin (c / x)) = NaN). { unfold xln. rewrite (proj2 (BrentProofs.rlt_false 0 (c / x))) by lra. unfold req. destruct (Req_EM_T (c / x) 0); [lra|reflexivity]. }
    rewrite XL. rewrite (xsqrt_f t) by lra. rewrite fmul. cbn [xadd]. unfold xdivide_no_nan, xzero, req. destruct (Req_EM_T (sigma * sqrt t) 0); [lra|reflexivity]. }
  unfold aw_value. rewrite D. cbn [xmul xncdf xadd xopp xsub]. destruct (european sigma x t r d call (Fin c)); reflexivity.
Qed.
