(** C101: the earlier least-squares Monte Carlo functions agree with the current
    one when discount factors are supplied. *)
From Coq Require Import Reals List Bool Arith Lia Lra.
From Verif Require Import TensorProofs BrentModel LsmModel LsmSpec PropsLsm LegacyLsmModel LegacyLsmProofs.
Import ListNotations.
Open Scope R_scope.

(** The second version returns what the current version returns, for every
    payoff, basis, pseudo-inverse, discount factors (or none) and number of
    calibration samples. *)
Theorem C101_version_two : forall n npt ets payoff bs basis pinv d m,
  (forall e s, (e < length ets)%nat -> factors d e s <> 0) -> (length ets <= S npt)%nat ->
  least_square_mc_v2 n ets payoff bs basis pinv d m = least_square_mc n npt ets payoff bs basis pinv d m.
Proof.
  intros n npt ets payoff bs basis pinv d m Nz L. unfold least_square_mc_v2, least_square_mc. cbv zeta.
  destruct ets as [|e0 er] eqn:EE; [reflexivity|]. rewrite <- EE in *. assert (Ne : ets <> []) by (rewrite EE; discriminate). clear EE.
  destruct (Nat.leb _ _); [reflexivity|]. f_equal. f_equal. apply rsum_ext. intros k _. apply present_v2; assumption.
Qed.

(** The first version with supplied discount factors returns one value per
    payoff, the one of the current version without calibration samples. *)
Theorem C101_version_one : forall n npt ets payoff bs basis pinv df payoff_dim,
  (forall e s, (e < length ets)%nat -> df e s <> 0) -> (length ets <= S npt)%nat ->
  least_square_mc_v1 n ets payoff bs basis pinv (Some df) payoff_dim =
    match least_square_mc n npt ets payoff bs basis pinv (Some df) None with Some v => Some (payoff_dim, v) | None => None end.
Proof.
  intros n npt ets payoff bs basis pinv df V Nz L. unfold least_square_mc_v1, least_square_mc. cbv zeta.
  destruct ets as [|e0 er] eqn:EE; [reflexivity|]. rewrite <- EE in *. assert (Ne : ets <> []) by (rewrite EE; discriminate). clear EE.
  destruct (present_v1 n ets payoff bs basis pinv (Some df) Nz V npt Ne L ltac:(reflexivity)) as (cash & E & P). rewrite E. cbn [continuation_dim].
  destruct n as [|n]; [reflexivity|]. cbn [Nat.eqb Nat.leb]. rewrite Nat.sub_0_r. f_equal. f_equal. f_equal. apply rsum_ext. intros s _. rewrite P. reflexivity.
Qed.

(** Hence both value a stopping rule: the mean over the samples of the discounted
    payoff at one exercise time per sample, before the last one only where the
    payoff is positive. *)
Theorem C101_stopping_rule : forall n ets payoff bs basis pinv df payoff_dim,
  (forall e s, (e < length ets)%nat -> df e s <> 0) -> ets <> [] -> (0 < n)%nat ->
  exists tau,
    (forall s, (s < n)%nat -> (tau s < length ets)%nat /\ (tau s <> (length ets - 1)%nat -> 0 < payoff (nth (tau s) ets 0%nat) s)) /\
    let v := mean_from 0 n (fun s => df (tau s) s * payoff (nth (tau s) ets 0%nat) s) in
    least_square_mc_v1 n ets payoff bs basis pinv (Some df) payoff_dim = Some (payoff_dim, v) /\
    least_square_mc_v2 n ets payoff bs basis pinv (Some df) None = Some v.
Proof.
  intros n ets payoff bs basis pinv df V Nz Ne N0.
  destruct (C47_stopping_rule n (length ets) ets payoff bs basis pinv (Some df) None Nz Ne ltac:(lia) N0) as (tau & T1 & T2).
  exists tau. split; [exact T1|]. cbv zeta in T2 |- *. rewrite Nat.sub_0_r in T2.
  rewrite (C101_version_one n (length ets)), (C101_version_two n (length ets)) by (assumption || lia). rewrite T2. split; reflexivity.
Qed.

(** The put on the mean of the assets: with prices that are not negative and
    factors of at most one, its value lies between zero and the strike. *)
Theorem C101_put : forall n ets paths dim strike bs basis pinv d m v,
  (0 < dim)%nat -> (forall s t i, 0 <= paths s t i) -> 0 <= strike ->
  (forall e s, (e < length ets)%nat -> 0 < factors d e s <= 1) ->
  least_square_mc_v2 n ets (put_valuer paths dim strike) bs basis pinv d m = Some v -> 0 <= v <= strike.
Proof.
  intros n ets paths dim strike bs basis pinv d m v D P K F E.
  rewrite (C101_version_two n (length ets)) in E; [|intros e s Q; specialize (F e s Q); lra|lia].
  assert (B : forall t s, 0 <= put_valuer paths dim strike t s <= strike).
  { intros t s. unfold put_valuer. split; [apply Rmax_r|]. apply Rmax_lub; [|exact K].
    assert (0 <= rsum (fun i => paths s t i) dim / INR dim); [|lra].
    apply Rmult_le_pos; [apply rsum_nonneg; intros; apply P|]. left. apply Rinv_0_lt_compat. apply lt_0_INR. exact D. }
  assert (Ne : ets <> []) by (intros ->; discriminate).
  pose proof (C47_bounds n (length ets) ets (put_valuer paths dim strike) bs basis pinv d m v ltac:(intros e s Q; apply (F e s Q)) ltac:(lia) ltac:(intros; apply B) E) as [L U].
  cbv zeta in U. split; [exact L|]. set (first := match m with None => 0%nat | Some k => k end) in *.
  assert (M : (first < n)%nat). { unfold least_square_mc in E. destruct ets; [contradiction|]. fold first in E. destruct (Nat.leb_spec n first); [discriminate|assumption]. }
  apply (Rle_trans _ _ _ U). apply (Rle_trans _ (mean_from first (n - first) (fun _ => strike))).
  - apply mean_le. intros s _. assert (G : forall k, (k < length ets)%nat -> best (fun e => discounted (factors d) (put_valuer paths dim strike) ets e s) k <= strike).
    { assert (G1 : forall e, (e < length ets)%nat -> discounted (factors d) (put_valuer paths dim strike) ets e s <= strike).
      { intros e Q. unfold discounted. destruct (F e s Q) as [F1 F2]. destruct (B (nth e ets 0%nat) s) as [B1 B2].
        apply (Rle_trans _ (1 * put_valuer paths dim strike (nth e ets 0%nat) s)); [apply Rmult_le_compat_r; assumption|lra]. }
      induction k as [|k IH]; intros Q; cbn [best]; [apply G1; exact Q|]. apply Rmax_lub; [apply IH; lia|apply G1; exact Q]. }
    apply G. destruct ets; [contradiction|cbn; lia].
  - unfold mean_from. assert (I0 : 0 < INR (n - first)) by (apply lt_0_INR; lia).
    assert (C : forall k, rsum (fun _ => strike) k = INR k * strike) by (induction k as [|k IHk]; [cbn; ring|rewrite S_INR; cbn [rsum]; rewrite IHk; ring]).
    rewrite C. right. field. lra.
Qed.

(** Without discount factors the first version fails for three or more exercise
    times, and returns two values for one payoff and two exercise times. *)
Theorem C101_default_refuted :
  (forall n ets payoff bs basis pinv payoff_dim, (3 <= length ets)%nat ->
     least_square_mc_v1 n ets payoff bs basis pinv None payoff_dim = None) /\
  (forall n t u payoff bs basis pinv, (0 < n)%nat ->
     exists v, least_square_mc_v1 n [t; u] payoff bs basis pinv None 1 = Some (2%nat, v)) /\
  (forall n ets payoff bs basis pinv, (0 < n)%nat -> ets <> [] -> exists v, least_square_mc_v2 n ets payoff bs basis pinv None None = Some v).
Proof.
  split; [|split].
  - intros n ets payoff bs basis pinv V L. unfold least_square_mc_v1. destruct ets as [|e0 er] eqn:EE; [reflexivity|]. rewrite <- EE in *. clear EE.
    set (T := length ets) in *.
    assert (B : forall k cash, (0 < k < T)%nat -> (T - k <> 1)%nat -> (T - k)%nat <> V -> body_v1 n ets payoff bs basis pinv None V k cash = None).
    { intros k cash Q1 Q2 Q3. unfold body_v1. fold T. cbn [continuation_dim]. unfold broadcast_dim. destruct (Nat.eqb_spec V (T - k)); [lia|].
      destruct (Nat.eqb_spec V 1) as [->|]; [destruct (Nat.eqb_spec (T - k) 1); [lia|reflexivity]|]. destruct (Nat.eqb_spec (T - k) 1); [lia|reflexivity]. }
    assert (D : loop_v1 n ets payoff bs basis pinv None V T (T - 1) (first_cashflow ets payoff) = None \/ continuation_dim None V T = None).
    { destruct (Nat.eq_dec V 2) as [->|V2].
      - right. cbn [continuation_dim]. unfold broadcast_dim. destruct (Nat.eqb_spec 2 T); [lia|]. cbn [Nat.eqb]. destruct (Nat.eqb_spec T 1); [lia|reflexivity].
      - left. destruct T as [|[|T']] eqn:ET; [lia|lia|]. cbn [loop_v1]. destruct (Nat.ltb_spec 0 (S (S T') - 1)); [|lia].
        destruct (body_v1 _ _ _ _ _ _ _ _ _ _) as [c|]; [|reflexivity]. destruct (Nat.ltb_spec 0 (S (S T') - 1 - 1)); [|lia].
        rewrite B by lia. reflexivity. }
    destruct D as [->|D]; [reflexivity|]. rewrite D. destruct (loop_v1 _ _ _ _ _ _ _ _ _ _ _); reflexivity.
  - intros n t u payoff bs basis pinv N0. destruct n as [|n]; [lia|]. eexists. reflexivity.
  - intros n ets payoff bs basis pinv N0 Ne. unfold least_square_mc_v2. destruct ets; [contradiction|]. destruct n as [|n]; [lia|]. eexists. reflexivity.
Qed.

(** Two exercise times: the payoff of 5 is taken at the first, worth 5/2 today. *)
Example C101_ex :
  let payoff := fun t (_ : nat) => match t with 1%nat => 5 | _ => 1 end in
  let df := fun e (_ : nat) => match e with O => 1 / 2 | _ => 1 / 4 end in
  (forall e s, (e < 2)%nat -> df e s <> 0) /\
  least_square_mc_v1 1 [1%nat; 2%nat] payoff 1 (fun _ _ _ => 1) (fun x a b => / x a b) (Some df) 1 = Some (1%nat, 5 / 2) /\
  least_square_mc_v2 1 [1%nat; 2%nat] payoff 1 (fun _ _ _ => 1) (fun x a b => / x a b) (Some df) None = Some (5 / 2).
Proof.
  intros payoff df.
  assert (Nz : forall e s, (e < 2)%nat -> df e s <> 0) by (intros [|e] s _; unfold df; lra).
  assert (E : least_square_mc_v2 1 [1%nat; 2%nat] payoff 1 (fun _ _ _ => 1) (fun x a b => / x a b) (Some df) None = Some (5 / 2)).
  { unfold least_square_mc_v2. cbn [length Nat.sub Nat.leb loop_v2 Nat.ltb]. f_equal. cbn [rsum plus INR].
    unfold continuation_value_v2, body_v2, updated_cashflow_v2. cbn [length rsum plus Nat.leb Nat.sub nth padded].
    set (x := expected_exercise_fn _ _ _ _ _ _ _). assert (X : x 0%nat = 1 / 2).
    { unfold x, expected_exercise_fn, continuation_value_v2, first_cashflow, calibration_rows.
      cbn [length rsum plus Nat.leb Nat.sub nth padded Nat.eqb]. unfold payoff, df. unfold rlt. destruct (Rlt_dec 0 5); [|lra]. rewrite Rmax_left; field_simplify; lra. }
    rewrite X. unfold payoff at 1 2 3 4, rlt. destruct (Rlt_dec (1 / 2) 5); [|lra]. unfold df. field. }
  split; [exact Nz|]. split; [|exact E].
  rewrite (C101_version_one 1 2) by (assumption || (cbn; lia)). rewrite <- (C101_version_two 1 2) by (assumption || (cbn; lia)). rewrite E. reflexivity.
Qed.

Print Assumptions C101_version_two.
Print Assumptions C101_version_one.
Print Assumptions C101_stopping_rule.
Print Assumptions C101_put.
Print Assumptions C101_default_refuted.
