(** Proofs about the earlier least-squares Monte Carlo versions: both matrices of
    cash flows carry the values of LsmModel.v. *)
From Coq Require Import Reals List Bool Arith Lia Lra.
From Verif Require Import TensorProofs BrentModel LsmModel LsmSpec PropsLsm LegacyLsmModel.
Import ListNotations.
Open Scope R_scope.

Lemma expected_ext n bs pinv m design c1 c2 ev s :
  (forall k, c1 k = c2 k) -> expected_exercise_fn n bs pinv m design c1 ev s = expected_exercise_fn n bs pinv m design c2 ev s.
Proof.
  intros E. unfold expected_exercise_fn. f_equal. apply rsum_ext. intros a _. f_equal. apply rsum_ext. intros b _. f_equal.
  apply rsum_ext. intros k _. rewrite E. reflexivity.
Qed.

Section Worth.
Variables (n : nat) (ets : list nat) (payoff : nat -> nat -> R) (bs : nat) (basis : nat -> nat -> nat -> R)
  (pinv : (nat -> nat -> R) -> nat -> nat -> R) (d : option (nat -> nat -> R)).
Hypothesis Nz : forall e s, (e < length ets)%nat -> factors d e s <> 0.
Let T := length ets.

(** The cash flows from exercise time [e] on, discounted to time zero. *)
Definition worth (cash : nat -> nat -> R) (e s : nat) : R :=
  rsum (fun i => cash (e + i)%nat s * padded d (e + i + 1) s) (T - e).

Lemma padded_nz e s : (e <= T)%nat -> padded d e s <> 0.
Proof.
  intros L. destruct e as [|e]; [cbn; lra|]. replace (S e) with (e + 1)%nat by lia. rewrite padded_factors. apply Nz. unfold T in L. lia.
Qed.
Lemma continuation_v1_worth cash e s : continuation_value_v1 ets d cash e s = worth cash e s / padded d e s.
Proof.
  unfold continuation_value_v1, worth, Rdiv. rewrite (Rmult_comm (rsum _ _)), <- rsum_scal. apply rsum_ext. intros i _.
  replace (e + 1 + i)%nat with (e + i + 1)%nat by lia. ring.
Qed.
Lemma continuation_v2_worth cash e s : (e <= T)%nat -> continuation_value_v2 ets d cash e s = worth cash e s / padded d e s.
Proof.
  intros L. unfold continuation_value_v2, worth. fold T. replace T with (e + (T - e))%nat at 1 by lia. rewrite rsum_add.
  rewrite rsum_0.
  - rewrite Rplus_0_l. unfold Rdiv at 2. rewrite (Rmult_comm (rsum _ _)), <- rsum_scal. apply rsum_ext. intros i _.
    destruct (Nat.leb_spec e (e + i)); [|lia]. destruct (Nat.leb_spec (e + 1) (e + i + 1)); [|lia]. unfold Rdiv. ring.
  - intros i Q. destruct (Nat.leb_spec e i); [lia|]. ring.
Qed.
Lemma worth_split cash e s : (S e <= T)%nat -> worth cash e s = cash e s * padded d (e + 1) s + worth cash (S e) s.
Proof.
  intros L. unfold worth. replace (T - e)%nat with (S (T - S e)) by lia. rewrite rsum_S_l. rewrite Nat.add_0_r. f_equal.
  apply rsum_ext. intros i _. replace (e + S i)%nat with (S e + i)%nat by lia. reflexivity.
Qed.
Lemma worth_ext c1 c2 e s : (forall j, (e <= j)%nat -> c1 j s = c2 j s) -> worth c1 e s = worth c2 e s.
Proof. intros H. apply rsum_ext. intros i _. rewrite H by lia. reflexivity. Qed.
Lemma worth_scal k cash e s : worth (fun j s => k * cash j s) e s = k * worth cash e s.
Proof. unfold worth. rewrite <- rsum_scal. apply rsum_ext. intros i _. ring. Qed.
Lemma worth_first s : (0 < T)%nat -> worth (first_cashflow ets payoff) (T - 1) s = padded d (T - 1 + 1) s * (payoff (nth (T - 1) ets 0%nat) s + 0).
Proof.
  intros L. unfold worth. replace (T - (T - 1))%nat with 1%nat by lia. cbn [rsum]. rewrite Nat.add_0_r. unfold first_cashflow. fold T.
  rewrite Nat.eqb_refl. ring.
Qed.

(** [carries cash e c v]: the cash flows from [e] on are worth the state of the
    current version. *)
Definition carries cash e (c v : nat -> R) : Prop := forall s, worth cash e s = padded d (e + 1) s * (c s + v s).

(** One step for any update with the two cases of both versions. *)
Lemma step m e cash cash' c v : (S e < T)%nat -> carries cash (S e) c v ->
  (forall s, let ex := expected_exercise_fn n bs pinv m (basis (nth e ets 0%nat)) (fun s => worth cash (S e) s / padded d (S e) s) (payoff (nth e ets 0%nat)) s in
     let p := payoff (nth e ets 0%nat) s in
     cash' e s = (if rlt ex p then p else 0) /\
     forall j, (S e <= j)%nat -> cash' j s = (if rlt ex p then 0 else 1) * cash j s) ->
  carries cash' e (fst (lsm_loop_body n ets payoff bs basis pinv d m (S e) c v)) (snd (lsm_loop_body n ets payoff bs basis pinv d m (S e) c v)).
Proof.
  intros L C U s. unfold lsm_loop_body, updated_cashflows_and_values. cbn [fst snd]. rewrite Nat.sub_succ, Nat.sub_0_r.
  destruct (U s) as [U1 U2]. cbv zeta in U1, U2.
  assert (CV : forall k, worth cash (S e) k / padded d (S e) k = apply_discount d (fun s0 => v s0 + c s0) (S e) k).
  { intros k. rewrite (C k). unfold apply_discount, Rdiv. ring. }
  rewrite (expected_ext n bs pinv m _ _ _ _ s CV) in U1, U2.
  set (exf := expected_exercise_fn n bs pinv m (basis (nth e ets 0%nat)) (apply_discount d (fun s0 => v s0 + c s0) (S e)) (payoff (nth e ets 0%nat))) in *.
  set (ex := exf s) in *.
  match goal with |- _ = _ * (_ + ?q) => change q with (padded d (S e + 1) s / padded d (S e) s * (if rlt ex (payoff (nth e ets 0%nat) s) then 0 else c s + v s)) end.
  match goal with |- _ = _ * (?q + _) => change q with (if rlt ex (payoff (nth e ets 0%nat) s) then payoff (nth e ets 0%nat) s else 0) end.
  change (expected_exercise_fn n bs pinv m (basis (nth e ets 0%nat)) (apply_discount d (fun s0 => v s0 + c s0) (S e)) (payoff (nth e ets 0%nat)) s) with ex in U1, U2.
  clearbody ex.
  rewrite (worth_split cash' e s) by lia. rewrite U1.
  rewrite (worth_ext cash' (fun j s => (if rlt ex (payoff (nth e ets 0%nat) s) then 0 else 1) * cash j s) (S e) s U2).
  rewrite (worth_ext _ (fun j s0 => (if rlt ex (payoff (nth e ets 0%nat) s) then 0 else 1) * cash j s0) (S e) s) by reflexivity.
  rewrite worth_scal, (C s).
  pose proof (padded_nz (S e) s ltac:(lia)) as Z. replace (e + 1)%nat with (S e) by lia.
  destruct (rlt ex (payoff (nth e ets 0%nat) s)); field; exact Z.
Qed.

Lemma body_v2_carries m e cash c v : (S e < T)%nat -> carries cash (S e) c v ->
  carries (body_v2 n ets payoff bs basis pinv d m (S e) cash) e
    (fst (lsm_loop_body n ets payoff bs basis pinv d m (S e) c v)) (snd (lsm_loop_body n ets payoff bs basis pinv d m (S e) c v)).
Proof.
  intros L C. apply (step m e cash); [exact L|exact C|]. intros s ex p. unfold body_v2, updated_cashflow_v2. rewrite Nat.sub_succ, Nat.sub_0_r.
  assert (CV : forall k, continuation_value_v2 ets d cash (S e) k = worth cash (S e) k / padded d (S e) k) by (intros k; apply continuation_v2_worth; lia).
  rewrite (expected_ext n bs pinv m _ _ _ _ s CV). fold p. fold ex. split.
  - destruct (Nat.leb_spec (S e) e); [lia|reflexivity].
  - intros j J. destruct (Nat.leb_spec (S e) j); [|lia]. destruct (rlt ex p); ring.
Qed.
Lemma body_v1_carries V e cash c v : (S e < T)%nat -> carries cash (S e) c v -> continuation_dim d V (T - S e) = Some V ->
  exists cash', body_v1 n ets payoff bs basis pinv d V (S e) cash = Some cash' /\
  carries cash' e (fst (lsm_loop_body n ets payoff bs basis pinv d None (S e) c v)) (snd (lsm_loop_body n ets payoff bs basis pinv d None (S e) c v)).
Proof.
  intros L C D. unfold body_v1. fold T. rewrite D, Nat.eqb_refl. cbn [negb]. eexists. split; [reflexivity|].
  apply (step None e cash); [exact L|exact C|]. intros s ex p. unfold updated_cashflow_v1. rewrite Nat.sub_succ, Nat.sub_0_r.
  assert (CV : forall k, continuation_value_v1 ets d cash (S e) k = worth cash (S e) k / padded d (S e) k) by (intros k; apply continuation_v1_worth).
  rewrite (expected_ext n bs pinv None _ _ _ _ s CV). fold p. fold ex. split.
  - rewrite Nat.eqb_refl. destruct (Nat.ltb_spec e (S e)); [|lia]. ring.
  - intros j J. destruct (Nat.eqb_spec j e); [lia|]. destruct (Nat.ltb_spec j (S e)); [lia|]. destruct (rlt ex p); ring.
Qed.

Lemma loop_v2_carries m : forall e fuel fuel' cash c v, (e <= fuel)%nat -> (e <= fuel')%nat -> (e < T)%nat -> carries cash e c v ->
  let r := lsm_loop n ets payoff bs basis pinv d m fuel' e c v in
  carries (loop_v2 n ets payoff bs basis pinv d m fuel e cash) 0 (fst r) (snd r).
Proof.
  induction e as [|e IH]; intros fuel fuel' cash c v F F' L C r; unfold r.
  - destruct fuel, fuel'; exact C.
  - destruct fuel as [|fuel]; [lia|]. destruct fuel' as [|fuel']; [lia|]. cbn [lsm_loop loop_v2]. cbn [Nat.ltb Nat.leb].
    pose proof (body_v2_carries m e cash c v L C) as B. destruct (lsm_loop_body n ets payoff bs basis pinv d m (S e) c v) as [c' v'].
    rewrite Nat.sub_succ, Nat.sub_0_r. apply IH; [lia|lia|lia|exact B].
Qed.
Lemma loop_v1_carries V : (forall k, (0 < k < T)%nat -> continuation_dim d V k = Some V) ->
  forall e fuel fuel' cash c v, (e <= fuel)%nat -> (e <= fuel')%nat -> (e < T)%nat -> carries cash e c v ->
  let r := lsm_loop n ets payoff bs basis pinv d None fuel' e c v in
  exists cash', loop_v1 n ets payoff bs basis pinv d V fuel e cash = Some cash' /\ carries cash' 0 (fst r) (snd r).
Proof.
  intros D. induction e as [|e IH]; intros fuel fuel' cash c v F F' L C r; unfold r.
  - destruct fuel, fuel'; exists cash; split; try reflexivity; exact C.
  - destruct fuel as [|fuel]; [lia|]. destruct fuel' as [|fuel']; [lia|]. cbn [lsm_loop loop_v1]. cbn [Nat.ltb Nat.leb].
    destruct (body_v1_carries V e cash c v L C (D (T - S e)%nat ltac:(lia))) as (cash' & E & B). rewrite E.
    destruct (lsm_loop_body n ets payoff bs basis pinv d None (S e) c v) as [c' v'].
    rewrite Nat.sub_succ, Nat.sub_0_r. apply IH; [lia|lia|lia|exact B].
Qed.

Lemma present_v2 npt m s : ets <> [] -> (T <= S npt)%nat ->
  continuation_value_v2 ets d (loop_v2 n ets payoff bs basis pinv d m T (T - 1) (first_cashflow ets payoff)) 0 s =
  lsm_present_values n npt ets payoff bs basis pinv d m s.
Proof.
  intros Ne F. assert (L : (0 < T)%nat) by (unfold T; destruct ets; [contradiction|cbn; lia]).
  rewrite continuation_v2_worth by lia. unfold lsm_present_values. fold T.
  pose proof (loop_v2_carries m (T - 1) T npt (first_cashflow ets payoff) (payoff (nth (T - 1) ets 0%nat)) (fun _ => 0) ltac:(lia) ltac:(lia) ltac:(lia) (fun s => worth_first s L)) as P.
  cbv zeta in P. destruct (lsm_loop n ets payoff bs basis pinv d m npt (T - 1) (payoff (nth (T - 1) ets 0%nat)) (fun _ => 0)) as [c v].
  rewrite (P s). cbn [fst snd]. unfold apply_discount, Rdiv. ring.
Qed.
Lemma present_v1 V npt : ets <> [] -> (T <= S npt)%nat -> (forall k, (0 < k < T)%nat -> continuation_dim d V k = Some V) ->
  exists cash, loop_v1 n ets payoff bs basis pinv d V T (T - 1) (first_cashflow ets payoff) = Some cash /\
  forall s, continuation_value_v1 ets d cash 0 s = lsm_present_values n npt ets payoff bs basis pinv d None s.
Proof.
  intros Ne F D. assert (L : (0 < T)%nat) by (unfold T; destruct ets; [contradiction|cbn; lia]).
  destruct (loop_v1_carries V D (T - 1) T npt (first_cashflow ets payoff) (payoff (nth (T - 1) ets 0%nat)) (fun _ => 0) ltac:(lia) ltac:(lia) ltac:(lia) (fun s => worth_first s L)) as (cash & E & P).
  exists cash. split; [exact E|]. intros s. rewrite continuation_v1_worth. unfold lsm_present_values. fold T.
  destruct (lsm_loop n ets payoff bs basis pinv d None npt (T - 1) (payoff (nth (T - 1) ets 0%nat)) (fun _ => 0)) as [c v].
  rewrite (P s). cbn [fst snd]. unfold apply_discount, Rdiv. ring.
Qed.
End Worth.
