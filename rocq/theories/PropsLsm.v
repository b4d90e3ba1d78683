(** C47: the Longstaff-Schwartz value is the value of a stopping rule. *)
From Coq Require Import Reals List Bool Arith Lia Lra FunctionalExtensionality.
From Verif Require Import TensorProofs LoopProofs BrentModel LsmModel LsmSpec.
Import ListNotations.
Open Scope R_scope.

Definition factors (d : option (nat -> nat -> R)) : nat -> nat -> R := match d with None => fun _ _ => 1 | Some d => d end.
Lemma padded_factors d e s : padded d (e + 1) s = factors d e s.
Proof. rewrite Nat.add_1_r. destruct d; reflexivity. Qed.

Section Rule.
Variables (n npt : nat) (ets : list nat) (payoff : nat -> nat -> R) (bs : nat) (basis : nat -> nat -> nat -> R)
  (pinv : (nat -> nat -> R) -> nat -> nat -> R) (d : option (nat -> nat -> R)) (m : option nat).
Hypothesis Nz : forall e s, (e < length ets)%nat -> factors d e s <> 0.
Let df := factors d.
Let body := lsm_loop_body n ets payoff bs basis pinv d m.
Let loop := lsm_loop n ets payoff bs basis pinv d m.

(** [at_stop e s x]: holding at exercise time [e], sample [s] is worth [x], the
    payoff at some exercise time [j >= e] discounted back to time [e] *)
Definition at_stop (e s : nat) (x : R) : Prop :=
  exists j, (e <= j < length ets)%nat /\ x * df e s = df j s * payoff (nth j ets 0%nat) s /\
    (j <> (length ets - 1)%nat -> 0 < payoff (nth j ets 0%nat) s).

Lemma body_stop e c v : (S e < length ets)%nat -> (forall s, at_stop (S e) s (c s + v s)) ->
  forall s, at_stop e s (fst (body (S e) c v) s + snd (body (S e) c v) s).
Proof.
  intros L H s. unfold body, lsm_loop_body, updated_cashflows_and_values. cbn [fst snd]. rewrite Nat.sub_succ, Nat.sub_0_r.
  set (ex := expected_exercise_fn _ _ _ _ _ _ _).
  assert (E0 : 0 <= ex s) by (unfold ex, expected_exercise_fn; apply Rmax_r). clearbody ex.
  unfold apply_discount at 1. unfold rlt. destruct (Rlt_dec (ex s) (payoff (nth e ets 0%nat) s)) as [Q|Q].
  - exists e. split; [lia|]. split; [unfold df; lra|]. intros _. lra.
  - destruct (H s) as (j & J1 & J2 & J3). exists j. split; [lia|]. split; [|exact J3].
    rewrite <- J2. replace (S e + 1)%nat with (S (e + 1)) by lia. change (padded d (S (e + 1)) s) with (padded d (S (e + 1)) s).
    assert (P1 : padded d (S (e + 1)) s = df (S e) s) by (replace (S (e + 1)) with (S e + 1)%nat by lia; apply padded_factors).
    assert (P2 : padded d (S e) s = df e s) by (replace (S e) with (e + 1)%nat by lia; apply padded_factors). rewrite P1, P2. field. apply Nz. lia.
Qed.
Lemma loop_stop : forall e fuel c v, (e <= fuel)%nat -> (e < length ets)%nat -> (forall s, at_stop e s (c s + v s)) ->
  forall s, at_stop 0 s (fst (loop fuel e c v) s + snd (loop fuel e c v) s).
Proof.
  induction e as [|e IH]; intros fuel c v F L H s.
  - destruct fuel; exact (H s).
  - destruct fuel as [|fuel]; [lia|]. unfold loop. cbn [lsm_loop]. cbn [Nat.ltb Nat.leb]. pose proof (body_stop e c v L H) as B.
    unfold body in B. destruct (lsm_loop_body n ets payoff bs basis pinv d m (S e) c v) as [c' v']. rewrite Nat.sub_succ, Nat.sub_0_r.
    apply (IH fuel c' v'); [lia|lia|exact B].
Qed.
Lemma present_stop s : ets <> [] -> (length ets <= S npt)%nat ->
  exists j, (j < length ets)%nat /\ lsm_present_values n npt ets payoff bs basis pinv d m s = discounted df payoff ets j s /\
    (j <> (length ets - 1)%nat -> 0 < payoff (nth j ets 0%nat) s).
Proof.
  intros Ne F. assert (L : (0 < length ets)%nat) by (destruct ets; [contradiction|cbn; lia]).
  unfold lsm_present_values.
  pose proof (loop_stop (length ets - 1) npt (payoff (nth (length ets - 1) ets 0%nat)) (fun _ => 0) ltac:(lia) ltac:(lia)) as P.
  unfold loop in P. destruct (lsm_loop n ets payoff bs basis pinv d m npt (length ets - 1) (payoff (nth (length ets - 1) ets 0%nat)) (fun _ => 0)) as [c v].
  cbn [fst snd] in P. destruct (P) with (s := s) as (j & J1 & J2 & J3).
  { intros s'. exists (length ets - 1)%nat. split; [lia|]. split; [lra|]. intros Q. contradiction. }
  exists j. split; [lia|]. split; [|exact J3]. unfold discounted. rewrite <- J2. unfold apply_discount. cbn [plus]. change (padded d 0 s) with 1.
  rewrite (padded_factors d 0 s : padded d 1 s = df 0%nat s). lra.
Qed.
End Rule.

Lemma finite_choice n (P : nat -> nat -> Prop) : (forall s, exists j, P s j) -> exists f, forall s, (s < n)%nat -> P s (f s).
Proof.
  intros H. induction n as [|n (f & F)]; [exists (fun _ => 0%nat); intros; lia|]. destruct (H n) as (j & J).
  exists (fun s => if Nat.eqb s n then j else f s). intros s L. destruct (Nat.eqb_spec s n) as [->|D]; [exact J|apply F; lia].
Qed.

(** Whatever the regression, the basis and the payoff are: the result is the mean,
    over the samples not used for calibration, of the discounted payoff at one
    exercise time per sample; a sample is exercised before the last exercise time
    only when its payoff is positive. *)
Theorem C47_stopping_rule : forall n npt ets payoff bs basis pinv d m,
  (forall e s, (e < length ets)%nat -> factors d e s <> 0) -> ets <> [] -> (length ets <= S npt)%nat ->
  (match m with None => 0 | Some k => k end < n)%nat ->
  exists tau, (forall s, (s < n)%nat -> (tau s < length ets)%nat /\ (tau s <> (length ets - 1)%nat -> 0 < payoff (nth (tau s) ets 0%nat) s)) /\
    least_square_mc n npt ets payoff bs basis pinv d m =
      Some (let first := match m with None => 0%nat | Some k => k end in
            mean_from first (n - first) (fun s => discounted (factors d) payoff ets (tau s) s)).
Proof.
  intros n npt ets payoff bs basis pinv d m Nz Ne L M.
  destruct (finite_choice n (fun s j => (j < length ets)%nat /\ lsm_present_values n npt ets payoff bs basis pinv d m s = discounted (factors d) payoff ets j s /\
    (j <> (length ets - 1)%nat -> 0 < payoff (nth j ets 0%nat) s))) as (tau & T).
  { intros s. apply present_stop; assumption. }
  exists tau. split; [intros s Q; destruct (T s Q) as (A & B & C); split; assumption|].
  unfold least_square_mc. destruct ets as [|e0 er] eqn:EE; [contradiction|]. rewrite <- EE in *. clear EE.
  set (first := match m with None => 0%nat | Some k => k end) in *. destruct (Nat.leb_spec n first); [lia|]. f_equal. cbv zeta. unfold mean_from. f_equal.
  apply rsum_ext. intros k K. destruct (T (first + k)%nat ltac:(lia)) as (_ & B & _). exact B.
Qed.

Lemma best_ge f n j : (j <= n)%nat -> f j <= best f n.
Proof.
  induction n as [|n IH]; intros L; cbn; [replace j with 0%nat by lia; lra|]. destruct (Nat.eq_dec j (S n)) as [->|D]; [apply Rmax_r|].
  specialize (IH ltac:(lia)). pose proof (Rmax_l (best f n) (f (S n))). lra.
Qed.
Lemma mean_le first count f g : (forall s, (first <= s < first + count)%nat -> f s <= g s) -> mean_from first count f <= mean_from first count g.
Proof.
  intros H. unfold mean_from. destruct count as [|c]; [cbn; lra|]. pose proof (pos_INR c). assert (0 < INR (S c)) by (rewrite S_INR; lra).
  apply Rmult_le_compat_r; [left; apply Rinv_0_lt_compat; assumption|]. apply rsum_le. intros i I. apply H. lia.
Qed.
Lemma mean_0 first count : mean_from first count (fun _ => 0) = 0.
Proof. unfold mean_from. rewrite rsum_0 by reflexivity. unfold Rdiv. ring. Qed.

(** Hence the value lies between 0 and the perfect-foresight value. *)
Theorem C47_bounds : forall n npt ets payoff bs basis pinv d m v,
  (forall e s, (e < length ets)%nat -> 0 < factors d e s) -> (length ets <= S npt)%nat -> (forall t s, 0 <= payoff t s) ->
  least_square_mc n npt ets payoff bs basis pinv d m = Some v ->
  let first := match m with None => 0%nat | Some k => k end in
  0 <= v <= mean_from first (n - first) (fun s => best (fun e => discounted (factors d) payoff ets e s) (length ets - 1)).
Proof.
  intros n npt ets payoff bs basis pinv d m v P L P0 E first.
  assert (Ne : ets <> []) by (intros ->; discriminate).
  assert (M : (first < n)%nat). { unfold least_square_mc in E. destruct ets; [contradiction|]. fold first in E. destruct (Nat.leb_spec n first); [discriminate|assumption]. }
  destruct (C47_stopping_rule n npt ets payoff bs basis pinv d m) as (tau & T1 & T2); try assumption.
  { intros e s Q. specialize (P e s Q). lra. }
  rewrite E in T2. injection T2 as ->. fold first. split.
  - rewrite <- (mean_0 first (n - first)). apply mean_le. intros s Q. destruct (T1 s ltac:(lia)) as [A _]. unfold discounted.
    apply Rmult_le_pos; [left; apply P; exact A|apply P0].
  - apply mean_le. intros s Q. destruct (T1 s ltac:(lia)) as [A _]. apply (best_ge (fun e => discounted (factors d) payoff ets e s)). lia.
Qed.

(** One exercise time: the mean of the discounted payoff. *)
Theorem C47_european : forall n npt t payoff bs basis pinv d m,
  (match m with None => 0 | Some k => k end < n)%nat ->
  least_square_mc n npt [t] payoff bs basis pinv d m =
    Some (let first := match m with None => 0%nat | Some k => k end in mean_from first (n - first) (fun s => factors d 0%nat s * payoff t s)).
Proof.
  intros n npt t payoff bs basis pinv d m M. unfold least_square_mc. set (first := match m with None => 0%nat | Some k => k end) in *.
  destruct (Nat.leb_spec n first); [lia|]. f_equal. cbv zeta. unfold mean_from. f_equal. apply rsum_ext. intros k _.
  unfold lsm_present_values. cbn [length Nat.sub nth]. assert (E : lsm_loop n [t] payoff bs basis pinv d m npt 0 (payoff t) (fun _ => 0) = (payoff t, fun _ => 0)) by (destruct npt; reflexivity).
  rewrite E. unfold apply_discount. cbn [plus]. change (padded d 0 (first + k)%nat) with 1. rewrite (padded_factors d 0 (first + k)%nat : padded d 1 _ = _). lra.
Qed.

(** If no payoff is positive before the last exercise time, every sample is held
    to the last exercise time. *)
Theorem C47_out_of_the_money : forall n npt ets payoff bs basis pinv d m,
  (forall e s, (e < length ets)%nat -> factors d e s <> 0) -> ets <> [] -> (length ets <= S npt)%nat ->
  (match m with None => 0 | Some k => k end < n)%nat ->
  (forall e s, (e < length ets - 1)%nat -> payoff (nth e ets 0%nat) s <= 0) ->
  least_square_mc n npt ets payoff bs basis pinv d m =
    Some (let first := match m with None => 0%nat | Some k => k end in
          mean_from first (n - first) (fun s => discounted (factors d) payoff ets (length ets - 1) s)).
Proof.
  intros n npt ets payoff bs basis pinv d m Nz Ne L M O.
  destruct (C47_stopping_rule n npt ets payoff bs basis pinv d m Nz Ne L M) as (tau & T1 & T2). rewrite T2. f_equal. cbv zeta.
  unfold mean_from. f_equal. apply rsum_ext. intros k K. set (first := match m with None => 0%nat | Some k => k end) in *.
  destruct (T1 (first + k)%nat ltac:(lia)) as [A B]. destruct (Nat.eq_dec (tau (first + k)%nat) (length ets - 1)) as [->|D]; [reflexivity|].
  specialize (B D). specialize (O (tau (first + k)%nat) (first + k)%nat ltac:(lia)). lra.
Qed.

(** With calibration samples, the present value of a sample depends only on its
    own payoffs, basis values and discount factors and on those of the calibration
    samples. *)
Theorem C47_out_of_sample : forall n n' npt ets payoff payoff' bs basis basis' pinv d d' k s,
  (forall t u, (u < k)%nat \/ u = s -> payoff t u = payoff' t u) ->
  (forall t b u, (u < k)%nat \/ u = s -> basis t b u = basis' t b u) ->
  (forall e u, (u < k)%nat \/ u = s -> factors d e u = factors d' e u) ->
  lsm_present_values n npt ets payoff bs basis pinv d (Some k) s = lsm_present_values n' npt ets payoff' bs basis' pinv d' (Some k) s.
Proof.
  intros n n' npt ets payoff payoff' bs basis basis' pinv d d' k s HP HB HD.
  assert (HA : forall e x y u, (u < k)%nat \/ u = s -> x u = y u -> apply_discount d x e u = apply_discount d' y e u).
  { intros e x y u U X. unfold apply_discount. rewrite X. f_equal. rewrite !padded_factors, (HD e u U).
    destruct e as [|e]; [reflexivity|]. replace (S e) with (e + 1)%nat by lia. rewrite !padded_factors, (HD e u U). reflexivity. }
  assert (HE : forall (ds ds' : nat -> nat -> R) cv cv' ev ev', (forall b u, (u < k)%nat \/ u = s -> ds b u = ds' b u) ->
    (forall u, (u < k)%nat \/ u = s -> cv u = cv' u) -> (forall u, (u < k)%nat \/ u = s -> ev u = ev' u) ->
    forall u, (u < k)%nat \/ u = s -> expected_exercise_fn n bs pinv (Some k) ds cv ev u = expected_exercise_fn n' bs pinv (Some k) ds' cv' ev' u).
  { intros ds ds' cv cv' ev ev' E1 E2 E3 u U. unfold expected_exercise_fn, calibration_rows. cbv zeta. f_equal. apply rsum_ext. intros a _. rewrite (E1 a u U). f_equal.
    apply rsum_ext. intros b _.
    assert (EL : (fun a b => rsum (fun s => (if rlt 0 (ev s) then ds a s else 0) * (if rlt 0 (ev s) then ds b s else 0)) k) =
                 (fun a b => rsum (fun s => (if rlt 0 (ev' s) then ds' a s else 0) * (if rlt 0 (ev' s) then ds' b s else 0)) k)).
    { extensionality a'. extensionality b'. apply rsum_ext. intros q Q. rewrite (E3 q (or_introl Q)), !(fun b => E1 b q (or_introl Q)). reflexivity. }
    rewrite EL. f_equal. apply rsum_ext. intros q Q. rewrite (E3 q (or_introl Q)), (E1 b q (or_introl Q)), (E2 q (or_introl Q)). reflexivity. }
  assert (HL : forall fuel e c v c' v', (forall u, (u < k)%nat \/ u = s -> c u = c' u) -> (forall u, (u < k)%nat \/ u = s -> v u = v' u) ->
    forall u, (u < k)%nat \/ u = s ->
    fst (lsm_loop n ets payoff bs basis pinv d (Some k) fuel e c v) u = fst (lsm_loop n' ets payoff' bs basis' pinv d' (Some k) fuel e c' v') u /\
    snd (lsm_loop n ets payoff bs basis pinv d (Some k) fuel e c v) u = snd (lsm_loop n' ets payoff' bs basis' pinv d' (Some k) fuel e c' v') u).
  { induction fuel as [|fuel IH]; intros e c v c' v' C V u U; cbn [lsm_loop fst snd]; [auto|].
    destruct (Nat.ltb 0 e); [|cbn [fst snd]; auto].
    unfold lsm_loop_body, updated_cashflows_and_values. apply IH; [| |exact U].
    - intros w W. rewrite (HP _ w W). erewrite HE; [reflexivity| | | |exact W]; intros; [apply HB; assumption| |apply HP; assumption].
      apply HA; [assumption|]. rewrite V, C by assumption. reflexivity.
    - intros w W. apply HA; [exact W|]. rewrite (HP _ w W), (C w W), (V w W). erewrite HE; [reflexivity| | | |exact W]; intros; [apply HB; assumption| |apply HP; assumption].
      apply HA; [assumption|]. rewrite V, C by assumption. reflexivity. }
  unfold lsm_present_values.
  pose proof (HL npt (length ets - 1)%nat (payoff (nth (length ets - 1) ets 0%nat)) (fun _ => 0) (payoff' (nth (length ets - 1) ets 0%nat)) (fun _ => 0)
    ltac:(intros; apply HP; assumption) ltac:(reflexivity) s (or_intror eq_refl)) as [E1 E2].
  destruct (lsm_loop n ets payoff bs basis pinv d (Some k) npt _ _ _) as [c v]. destruct (lsm_loop n' ets payoff' bs basis' pinv d' (Some k) npt _ _ _) as [c' v'].
  cbn [fst snd] in E1, E2. apply HA; [right; reflexivity|]. rewrite E1, E2. reflexivity.
Qed.

Lemma rsum_delta (f : nat -> R) k n : (k < n)%nat -> rsum (fun i => (if Nat.eqb k i then 1 else 0) * f i) n = f k.
Proof.
  intros L. induction n as [|n IH]; [lia|]. cbn [rsum]. destruct (Nat.eqb_spec k n) as [->|D].
  - rewrite rsum_0; [lra|]. intros i I. destruct (Nat.eqb_spec n i); [lia|lra].
  - rewrite IH by lia. lra.
Qed.
(** When the pseudo-inverse inverts the regression matrix, the expected
    continuation of every sample is the positive part of the least-squares fit of
    the discounted continuation values on the basis, over the calibration samples
    with a positive payoff. *)
Theorem C47_least_squares : forall n bs pinv m design cont exercise,
  let rows := match m with None => n | Some k => k end in
  let gram := fun a b => rsum (fun s => if rlt 0 (exercise s) then design a s * design b s else 0) rows in
  (forall mat, (forall a b, mat a b = gram a b) ->
    forall a c, (a < bs)%nat -> (c < bs)%nat -> rsum (fun b => mat a b * pinv mat b c) bs = if Nat.eqb a c then 1 else 0) ->
  let sse := fun beta => rsum (fun s => if rlt 0 (exercise s) then Rsqr (cont s - rsum (fun a => design a s * beta a) bs) else 0) rows in
  exists beta, (forall s, expected_exercise_fn n bs pinv m design cont exercise s = Rmax (rsum (fun a => design a s * beta a) bs) 0) /\
    forall gamma, sse beta <= sse gamma.
Proof.
  intros n bs pinv m design cont exercise rows gram Hp sse.
  unfold expected_exercise_fn. cbv zeta. unfold calibration_rows. fold rows.
  set (x := fun s a => if rlt 0 (exercise s) then design a s else 0).
  set (lhs := fun a b => rsum (fun s => x s a * x s b) rows).
  set (rhs := fun a => rsum (fun s => x s a * cont s) rows).
  exists (fun a => rsum (fun b => pinv lhs a b * rhs b) bs). split; [reflexivity|].
  set (beta := fun a => rsum (fun b => pinv lhs a b * rhs b) bs).
  assert (HL : forall a b, lhs a b = gram a b).
  { intros a b. unfold lhs, gram, x. apply rsum_ext. intros s _. destruct (rlt 0 (exercise s)); ring. }
  assert (Hn : forall a, (a < bs)%nat -> rsum (fun b => lhs a b * beta b) bs = rhs a).
  { intros a A. unfold beta. rewrite (rsum_ext _ (fun b => rsum (fun c => lhs a b * pinv lhs b c * rhs c) bs)).
    2:{ intros b B. rewrite <- rsum_scal. apply rsum_ext. intros; ring. }
    rewrite rsum_swap. rewrite (rsum_ext _ (fun c => (if Nat.eqb a c then 1 else 0) * rhs c)).
    2:{ intros c C. rewrite <- (Hp lhs HL a c A C). rewrite Rmult_comm, <- rsum_scal. apply rsum_ext. intros; ring. }
    apply rsum_delta. exact A. }
  set (w := fun s => if rlt 0 (exercise s) then 1 else 0).
  assert (S : forall g, sse g = rsum (fun s => Rsqr (w s * cont s - rsum (fun a => x s a * g a) bs)) rows).
  { intros g. unfold sse, w, x. apply rsum_ext. intros s _. destruct (rlt 0 (exercise s)); [rewrite Rmult_1_l; reflexivity|].
    rewrite rsum_0 by (intros; ring). unfold Rsqr. ring. }
  assert (O : forall a, (a < bs)%nat -> rsum (fun s => x s a * (w s * cont s - rsum (fun b => x s b * beta b) bs)) rows = 0).
  { intros a A. rewrite (rsum_ext _ (fun s => x s a * cont s - rsum (fun b => x s a * x s b * beta b) bs)).
    2:{ intros s _. replace (rsum (fun b => x s a * x s b * beta b) bs) with (x s a * rsum (fun b => x s b * beta b) bs) by (rewrite <- rsum_scal; apply rsum_ext; intros; ring).
        unfold x, w. destruct (rlt 0 (exercise s)); ring. }
    rewrite rsum_minus, rsum_swap. fold (rhs a). rewrite <- (Hn a A). rewrite (rsum_ext (fun j => rsum (fun i => x i a * x i j * beta j) rows) (fun b => lhs a b * beta b)); [lra|].
    intros b _. unfold lhs. rewrite Rmult_comm, <- rsum_scal. apply rsum_ext. intros; ring. }
  intros g. rewrite !S.
  set (fit := fun s => rsum (fun a => x s a * (g a - beta a)) bs).
  assert (E : rsum (fun s => Rsqr (w s * cont s - rsum (fun a => x s a * g a) bs)) rows =
              rsum (fun s => Rsqr (w s * cont s - rsum (fun a => x s a * beta a) bs)) rows + rsum (fun s => Rsqr (fit s)) rows
              - 2 * rsum (fun s => fit s * (w s * cont s - rsum (fun b => x s b * beta b) bs)) rows).
  { rewrite <- rsum_scal, <- rsum_plus, <- rsum_minus. apply rsum_ext. intros s _.
    assert (F : rsum (fun a => x s a * g a) bs = rsum (fun a => x s a * beta a) bs + fit s).
    { unfold fit. rewrite <- rsum_plus. apply rsum_ext. intros; ring. }
    rewrite F. unfold Rsqr. ring. }
  rewrite E. assert (Z : rsum (fun s => fit s * (w s * cont s - rsum (fun b => x s b * beta b) bs)) rows = 0).
  { unfold fit. rewrite (rsum_ext _ (fun s => rsum (fun a => (g a - beta a) * (x s a * (w s * cont s - rsum (fun b => x s b * beta b) bs))) bs)).
    2:{ intros s _. rewrite Rmult_comm, <- rsum_scal. apply rsum_ext. intros; ring. }
    rewrite rsum_swap. apply rsum_0. intros a A. rewrite rsum_scal, (O a A). ring. }
  rewrite Z. assert (0 <= rsum (fun s => Rsqr (fit s)) rows) by (apply rsum_nonneg; intros; apply Rle_0_sqr). lra.
Qed.
Example C47_least_squares_case : let design := fun (a s : nat) => 1 in let exercise := fun s : nat => INR s in
  let gram := fun a b => rsum (fun s => if rlt 0 (exercise s) then design a s * design b s else 0) 3 in
  forall mat, (forall a b, mat a b = gram a b) -> forall a c, (a < 1)%nat -> (c < 1)%nat -> rsum (fun b => mat a b * (fun (q : nat -> nat -> R) i j => / q i j) mat b c) 1 = if Nat.eqb a c then 1 else 0.
Proof.
  cbv zeta. intros mat H [|a] [|c] A C; try lia. cbn [rsum Nat.eqb]. rewrite H. cbn [rsum INR]. unfold rlt.
  destruct (Rlt_dec 0 0); [lra|]. destruct (Rlt_dec 0 1); [|lra]. destruct (Rlt_dec 0 (1 + 1)); [|lra]. field.
Qed.

(** A put on two paths with two exercise times and a constant basis: the first path
    is exercised at once, the second at the end. *)
Definition ex_payoff (t s : nat) : R := match t, s with O, O => 3 | O, _ => 1 | S O, O => 0 | _, _ => 2 end.
Example C47_case : (forall e s, (e < length [0; 1]%nat)%nat -> 0 < factors (Some (fun e _ => match e with O => 9 / 10 | _ => 8 / 10 end)) e s) /\
  (length [0; 1]%nat <= 3)%nat /\ (forall t s, 0 <= ex_payoff t s).
Proof.
  split; [intros [|e] s H; cbn; lra|]. split; [cbn; lia|]. intros [|[|t]] [|s]; cbn; lra.
Qed.
Example C47_case_value : least_square_mc 2 2 [0; 1]%nat ex_payoff 1 (fun _ _ _ => 1) (fun a i j => / a i j) None None = Some ((3 + 2) / 2).
Proof.
  unfold least_square_mc, lsm_present_values. cbn [length Nat.sub Nat.leb nth lsm_loop Nat.ltb]. unfold lsm_loop_body, updated_cashflows_and_values, expected_exercise_fn, apply_discount, padded, calibration_rows.
  cbn [length Nat.sub nth lsm_loop Nat.ltb Nat.leb rsum plus ex_payoff]. unfold rlt.
  destruct (Rlt_dec 0 3); [|lra]. destruct (Rlt_dec 0 1); [|lra].
  replace (0 + 1 * (0 + / (0 + 1 * 1 + 1 * 1) * (0 + 1 * (1 / 1 * (0 + 0)) + 1 * (1 / 1 * (0 + 2))))) with 1 by field.
  rewrite Rmax_left by lra. destruct (Rlt_dec 1 3); [|lra]. destruct (Rlt_dec 1 1); [lra|]. f_equal. cbn. field.
Qed.

Print Assumptions C47_stopping_rule.
Print Assumptions C47_bounds.
Print Assumptions C47_european.
Print Assumptions C47_out_of_the_money.
Print Assumptions C47_out_of_sample.
Print Assumptions C47_least_squares.
