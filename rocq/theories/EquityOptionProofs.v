(** Lemmas for C96. *)
From Coq Require Import Reals Lra Psatz.
From Coquelicot Require Import Coquelicot.
From Coq Require Import String ZArith Lia List Bool Permutation Sorted.
From Verif Require Import TensorModel TensorProofs DateModel BoundedCalModel ScheduleModel RatesModel InstrumentModel PlatformModel BrentModel ExtReal InterpModel BootstrapModel LsmModel LsmSpec BatchModel BatchSpec BatchProofs PropsLsm PropsPlatform2 PropsBatch EquityOptionModel EquityOptionSpec.
Import ListNotations.
Open Scope R_scope.

(** ** Samples *)
Lemma rescaled_stock gbm net w r T sigma e s : 0 < T -> driftless gbm (times net) w ->
  rescaled gbm net r T sigma e s = stock 1 r sigma (times net e * T) (sqrt T * w e s).
Proof.
  intros TP (_ & G). unfold rescaled, stock. cbv zeta. rewrite G. unfold Rpower.
  replace (exp (1 / 2 * times net e) * exp (- times net e / 2 + w e s)) with (exp (w e s)) by (rewrite <- exp_plus; f_equal; lra).
  rewrite ln_exp, !Rmult_1_l, <- !exp_plus. f_equal. unfold Rdiv. ring.
Qed.
Lemma rescaled_start gbm net w r T sigma s : 0 < T -> driftless gbm (times net) w -> rescaled gbm net r T sigma 0 s = 1.
Proof.
  intros TP G. rewrite (rescaled_stock gbm net w r T sigma 0 s TP G). unfold stock, times. rewrite (proj1 G). cbn [INR]. unfold Rdiv. rewrite !Rmult_0_l, !Rmult_0_r, Rplus_0_r, exp_0. ring.
Qed.
Lemma scaled_payoff S samples strike call e s : 0 < S -> S * option_payoff_fn samples (strike / S) call e s = exercise_value call strike (S * samples e s).
Proof.
  intros SP. unfold option_payoff_fn, exercise_value. cbv zeta. set (x := samples e s). clearbody x.
  assert (M : forall y, S * Rmax y 0 = Rmax (S * y) 0) by (intros y; rewrite <- (Rmult_0_r S) at 2; symmetry; apply RmaxRmult; lra).
  assert (E : S * (strike / S) = strike) by (field; lra).
  destruct call; rewrite M; f_equal; rewrite ?Ropp_minus_distr, Rmult_minus_distr_l, E; reflexivity.
Qed.
Lemma rate_value df T : 0 < df -> 0 < T -> risk_free_rate df T = Fin (- ln df / T).
Proof.
  intros D TP. unfold risk_free_rate, xln. unfold rlt. destruct (Rlt_dec 0 df); [|contradiction]. cbn [xopp xdiv]. unfold req. destruct (Req_EM_T T 0); [lra|reflexivity].
Qed.

(** ** Exercise today *)
Section First.
  Variables (n npt : nat) (ets : list nat) (payoff : nat -> nat -> R) (bs : nat) (basis : nat -> nat -> nat -> R)
    (pinv : (nat -> nat -> R) -> nat -> nat -> R) (d : option (nat -> nat -> R)) (m : option nat).
  Lemma loop_last : forall e fuel c v, (1 <= e)%nat -> (e <= fuel)%nat ->
    exists c' v', lsm_loop n ets payoff bs basis pinv d m fuel e c v = lsm_loop_body n ets payoff bs basis pinv d m 1 c' v'.
  Proof.
    induction e as [|e IH]; intros fuel c v E F; [lia|]. destruct fuel as [|fuel]; [lia|]. cbn [lsm_loop]. replace (Nat.ltb 0 (S e)) with true by (symmetry; apply Nat.ltb_lt; lia).
    destruct (lsm_loop_body n ets payoff bs basis pinv d m (S e) c v) as [c1 v1] eqn:Q. replace (S e - 1)%nat with e by lia. destruct e as [|e].
    - exists c, v. rewrite Q. destruct fuel; reflexivity.
    - apply IH; lia.
  Qed.
End First.
Lemma rsum_first f n : (0 < n)%nat -> (forall i, (0 < i < n)%nat -> f i = 0) -> rsum f n = f 0%nat.
Proof.
  intros N Z. rewrite (rsum_ext _ (fun i => (if Nat.eqb 0 i then 1 else 0) * f i)); [apply (rsum_delta f 0 n N)|].
  intros i L. destruct i as [|i]; cbn [Nat.eqb]; [ring|]. rewrite (Z (S i)) by lia. ring.
Qed.
Lemma rsum_const c n : rsum (fun _ => c) n = INR n * c.
Proof. induction n as [|n IH]; [cbn; ring|]. cbn [rsum]. rewrite IH, S_INR. ring. Qed.
(** when every sample is the same today, the price is at least the value of
    exercising today *)
Lemma at_least_today n npt k payoff bs basis pinv d v0 v :
  (0 < n)%nat -> (0 < bs)%nat -> (k <= npt)%nat -> inverts_diagonal pinv bs -> (forall e s, 0 < factors d e s) -> (forall s, factors d 0 s = 1) ->
  (forall s, payoff 0%nat s = v0) -> (forall t s, 0 <= payoff t s) -> (forall b s, (b < bs)%nat -> basis 0%nat b s = if Nat.eqb b 0 then 1 else 0) ->
  least_square_mc n npt (seq 0 (S k)) payoff bs basis pinv d None = Some v -> v0 <= v.
Proof.
  intros NP BP KN GI DF D0 P0 PP BA H.
  assert (V0 : 0 <= v0) by (rewrite <- (P0 0%nat); apply PP).
  assert (VN : 0 <= v).
  { apply (C47_bounds n npt (seq 0 (S k)) payoff bs basis pinv d None v); [intros e s _; apply DF|rewrite seq_length; lia|exact PP|exact H]. }
  destruct (Rle_lt_or_eq_dec 0 v0 V0) as [VP|VE]; [|lra].
  assert (NR : 0 < INR n) by (apply lt_0_INR; exact NP).
  unfold least_square_mc in H. cbv zeta in H. cbn [seq] in H. change (0%nat :: seq 1 k) with (seq 0 (S k)) in H. replace (Nat.leb n 0) with false in H by (symmetry; apply Nat.leb_gt; lia).
  injection H as <-. replace (n - 0)%nat with n by lia.
  assert (F0 : forall s x, padded d 1 s / padded d 0 s * x = x).
  { intros s x. change 1%nat with (0 + 1)%nat. rewrite padded_factors, D0. cbn [padded]. field. }
  destruct k as [|k].
  - rewrite (rsum_ext _ (fun _ => v0)).
    + rewrite rsum_const. right. field. lra.
    + intros i L. unfold lsm_present_values. cbn [seq length Nat.sub nth]. destruct npt; cbn [lsm_loop Nat.ltb Nat.leb]; unfold apply_discount; cbn [Nat.add]; rewrite F0, P0; ring.
  - destruct (loop_last n (seq 0 (S (S k))) payoff bs basis pinv d None (S k) npt (payoff (nth (S k) (seq 0 (S (S k))) 0%nat)) (fun _ => 0)) as (c & u & LL); [lia|exact KN|].
    assert (PV : forall s, lsm_present_values n npt (seq 0 (S (S k))) payoff bs basis pinv d None s =
      let '(x, y) := lsm_loop_body n (seq 0 (S (S k))) payoff bs basis pinv d None 1 c u in x s + y s).
    { intros s. unfold lsm_present_values. rewrite seq_length. replace (S (S k) - 1)%nat with (S k) by lia. cbv zeta. rewrite LL. destruct (lsm_loop_body _ _ _ _ _ _ _ _ _ _ _) as [x y]. unfold apply_discount. apply F0. }
    rewrite (rsum_ext _ (fun s => let '(x, y) := lsm_loop_body n (seq 0 (S (S k))) payoff bs basis pinv d None 1 c u in x s + y s) n) by (intros i _; exact (PV i)). clear PV LL. unfold lsm_loop_body. cbv zeta. cbn [Nat.sub seq nth updated_cashflows_and_values]. unfold updated_cashflows_and_values.
    set (C := apply_discount d (fun s => u s + c s) 1).
    assert (EX : forall s, expected_exercise_fn n bs pinv None (basis 0%nat) C (payoff 0%nat) s = Rmax (rsum C n / INR n) 0).
    { intros s. unfold expected_exercise_fn, calibration_rows. cbv zeta.
      set (masked := fun s b => if rlt 0 (payoff 0%nat s) then basis 0%nat b s else 0).
      assert (MK : forall s b, (b < bs)%nat -> masked s b = if Nat.eqb b 0 then 1 else 0).
      { intros t b L. unfold masked. rewrite P0. unfold rlt. destruct (Rlt_dec 0 v0); [|contradiction]. apply BA, L. }
      set (lhs := fun a b => rsum (fun s => masked s a * masked s b) n).
      assert (LH : forall a b, (a < bs)%nat -> (b < bs)%nat -> lhs a b = if (Nat.eqb a 0 && Nat.eqb b 0)%bool then INR n else 0).
      { intros a b A B. unfold lhs. rewrite (rsum_ext _ (fun _ => if (Nat.eqb a 0 && Nat.eqb b 0)%bool then 1 else 0)).
        - rewrite rsum_const. destruct (Nat.eqb a 0 && Nat.eqb b 0)%bool; ring.
        - intros i _. rewrite !MK by assumption. destruct (Nat.eqb a 0), (Nat.eqb b 0); cbn; ring. }
      assert (PI : pinv lhs 0%nat 0%nat = / INR n).
      { assert (DG : forall a b, (a < bs)%nat -> (b < bs)%nat -> a <> b -> lhs a b = 0) by (intros a b A B AB; rewrite LH by assumption; destruct a, b; cbn; try reflexivity; congruence).
        pose proof (GI lhs DG 0%nat 0%nat BP BP) as G. rewrite (rsum_first _ bs BP) in G.
        - rewrite (rsum_first _ bs BP) in G; [|intros i L; rewrite (LH i 0%nat) by lia; destruct i; [lia|]; cbn; ring].
          rewrite !(LH 0%nat 0%nat BP BP) in G. cbn [Nat.eqb andb] in G. apply (Rmult_eq_reg_l (INR n)); [|lra]. apply (Rmult_eq_reg_l (INR n)); [|lra]. rewrite Rinv_r by lra. lra.
        - intros i L. rewrite (rsum_ext _ (fun _ => 0)); [rewrite rsum_const; ring|]. intros j _. rewrite (LH 0%nat i) by lia. destruct i; [lia|]. cbn. ring. }
      change (Rmax (rsum (fun a => basis 0%nat a s * rsum (fun b => pinv lhs a b * rsum (fun t => masked t b * C t) n) bs) bs) 0 = Rmax (rsum C n / INR n) 0).
      clearbody lhs. clear LH GI. f_equal. rewrite (rsum_first _ bs BP); [|intros i L; rewrite BA by lia; destruct i; [lia|]; cbn [Nat.eqb]; ring].
      rewrite (BA 0%nat s BP). cbn [Nat.eqb]. rewrite Rmult_1_l. rewrite (rsum_first _ bs BP).
      - rewrite PI. rewrite (rsum_ext _ C n); [unfold Rdiv; ring|]. intros i _. rewrite (MK i 0%nat BP). cbn. ring.
      - intros i L. rewrite (rsum_ext _ (fun _ => 0)); [rewrite rsum_const; ring|]. intros j _. rewrite MK by lia. destruct i; [lia|]. cbn. ring. }
    unfold rlt. destruct (Rlt_dec (Rmax (rsum C n / INR n) 0) v0) as [LT|GE].
    + rewrite (rsum_ext _ (fun _ => v0)); [rewrite rsum_const; right; field; lra|]. intros i _. rewrite EX, P0. unfold apply_discount. rewrite EX, P0. destruct (Rlt_dec _ _); [ring|contradiction].
    + rewrite (rsum_ext _ C n).
      * apply Rnot_lt_le in GE. revert GE. unfold Rmax. destruct (Rle_dec _ _); lra.
      * intros i _. rewrite EX, P0. unfold apply_discount at 1. rewrite EX, P0. destruct (Rlt_dec _ _); [contradiction|]. unfold C, apply_discount. ring.
Qed.
