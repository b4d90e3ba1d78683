(** The batched Brent search: initial states, the while loop, results. *)
From Coq Require Import Reals List Bool Arith Lia Lra Psatz.
From Verif Require Import InterpModel BrentModel BrentProofs.
Import ListNotations.
Open Scope R_scope.

(** What a caller can see of a state, plus the flag. *)
Definition same_obs (a b : bstate) : Prop :=
  best_estimate a = best_estimate b /\ value_at_best_estimate a = value_at_best_estimate b /\
  num_iterations a = num_iterations b /\ finished a = finished b.

Lemma run_frozen p s k : finished s = true -> same_obs (run p k s) s.
Proof.
  intros F. induction k as [|k (A & B & C & D)]; [repeat split|].
  change (run p (S k) s) with (brent_loop_body p (run p k s)). rewrite F in D.
  destruct (body_finished p (run p k s) D) as (B1 & B2 & _ & _ & B5 & B6). repeat split; congruence.
Qed.
Lemma run_add p s a b : run p (a + b) s = run p a (run p b s).
Proof. unfold run. induction a as [|a IH]; [reflexivity|]. cbn [Nat.add Nat.iter nat_rect]. unfold Nat.iter in *. cbn. rewrite IH. reflexivity. Qed.
Lemma run_S p s k : run p (S k) s = run p k (brent_loop_body p s).
Proof. replace (S k) with (k + 1)%nat by lia. apply (run_add p s k 1). Qed.

Definition runs (ps : list bparams) (k : nat) (ss : list bstate) : list bstate := map (fun '(p, s) => run p k s) (combine ps ss).

Lemma runs_S ps k ss : runs ps (S k) ss = runs ps k (runs ps 1 ss).
Proof.
  unfold runs. revert ss. induction ps as [|p ps IH]; intros [|s ss]; try reflexivity. cbn [combine map]. rewrite IH. f_equal. apply run_S.
Qed.
Lemma runs_0 ps ss : length ps = length ss -> runs ps 0 ss = ss.
Proof. unfold runs. revert ss. induction ps as [|p ps IH]; intros [|s ss] H; try discriminate; try reflexivity. cbn [combine map]. rewrite IH by (cbn in H; lia). reflexivity. Qed.
Lemma runs_length ps k ss : length ps = length ss -> length (runs ps k ss) = length ss.
Proof. intros H. unfold runs. rewrite map_length, combine_length. lia. Qed.

Lemma brent_while_runs ps policy fuel : forall ss, length ps = length ss ->
  exists k, (k <= fuel)%nat /\ brent_while ps policy fuel ss = runs ps k ss /\
    (k = fuel \/ policy (map finished (runs ps k ss)) = true).
Proof.
  induction fuel as [|fuel IH]; intros ss H.
  - exists 0%nat. cbn. rewrite runs_0 by assumption. repeat split; auto.
  - cbn [brent_while]. destruct (policy (map finished ss)) eqn:E.
    + exists 0%nat. rewrite runs_0 by assumption. repeat split; auto. lia.
    + destruct (IH (runs ps 1 ss)) as (k & K1 & K2 & K3); [rewrite runs_length; assumption|].
      exists (S k). split; [lia|]. rewrite runs_S. split; [exact K2|]. destruct K3 as [K3|K3]; [left; lia|right; exact K3].
Qed.

Lemma nth_runs ps k ss i p s : nth_error ps i = Some p -> nth_error ss i = Some s -> nth_error (runs ps k ss) i = Some (run p k s).
Proof.
  unfold runs. revert ss i. induction ps as [|q ps IH]; intros [|t ss] [|i] A B; try discriminate; cbn in *; [congruence|]. apply IH; assumption.
Qed.
Lemma nth_zip {A B C} (g : A * B -> C) l m i a b : nth_error l i = Some a -> nth_error m i = Some b ->
  nth_error (map g (combine l m)) i = Some (g (a, b)).
Proof. revert m i. induction l as [|x l IH]; intros [|y m] [|i] H K; try discriminate; cbn in *; [congruence|]. apply IH; assumption. Qed.

(** ** The initial state *)
Definition sign_change (p : bparams) (b : binput) : Prop :=
  objective_fn p (left_bracket b) * objective_fn p (right_bracket b) <= 0.
Definition true_values (p : bparams) (b : binput) : Prop :=
  (left_value b = None \/ left_value b = Some (objective_fn p (left_bracket b))) /\
  (right_value b = None \/ right_value b = Some (objective_fn p (right_bracket b))).

Lemma prepare_eq p b : true_values p b ->
  let f := objective_fn p in let s := prepare p b in
  value_at_best_estimate s = f (best_estimate s) /\ value_at_last_estimate s = f (last_estimate s) /\ num_iterations s = 0%nat /\
  finished s = (Nat.leb (max_iterations p) 0 || rle (Rabs (f (best_estimate s))) (function_tolerance p)) /\
  ((best_estimate s = left_bracket b /\ last_estimate s = right_bracket b) \/ (best_estimate s = right_bracket b /\ last_estimate s = left_bracket b)) /\
  Rabs (f (best_estimate s)) <= Rabs (f (last_estimate s)).
Proof.
  intros [TL TR] f s. unfold s, prepare, prepare_brent_args.
  assert (EL : match left_value b with Some v => v | None => objective_fn p (left_bracket b) end = f (left_bracket b)) by (destruct TL as [-> | ->]; reflexivity).
  assert (ER : match right_value b with Some v => v | None => objective_fn p (right_bracket b) end = f (right_bracket b)) by (destruct TR as [-> | ->]; reflexivity).
  rewrite EL, ER. unfold swap_where. destruct (rlt (Rabs (f (left_bracket b))) (Rabs (f (right_bracket b)))) eqn:E.
  - apply rlt_true in E. unfold f in *. cbn. repeat split; auto. apply Rlt_le. exact E.
  - apply rlt_false in E. unfold f in *. cbn. repeat split; auto.
Qed.

Definition lo_of (b : binput) := Rmin (left_bracket b) (right_bracket b).
Definition hi_of (b : binput) := Rmax (left_bracket b) (right_bracket b).

Lemma prepare_inv p b : true_values p b -> sign_change p b -> 0 <= function_tolerance p ->
  inv p (lo_of b) (hi_of b) (prepare p b) /\ (finished (prepare p b) = true -> reason p (lo_of b) (hi_of b) (prepare p b)) /\
  (finished (prepare p b) = false -> width (prepare p b) <= hi_of b - lo_of b).
Proof.
  intros T SC FT. destruct (prepare_eq p b T) as (V1 & V2 & N & F & E & AB). set (s := prepare p b) in *.
  assert (RNG : inside (lo_of b) (hi_of b) (left_bracket b) /\ inside (lo_of b) (hi_of b) (right_bracket b)).
  { unfold inside, lo_of, hi_of. pose proof (Rmin_l (left_bracket b) (right_bracket b)). pose proof (Rmin_r (left_bracket b) (right_bracket b)).
    pose proof (Rmax_l (left_bracket b) (right_bracket b)). pose proof (Rmax_r (left_bracket b) (right_bracket b)). lra. }
  destruct RNG as [RL RR].
  assert (PROD : objective_fn p (last_estimate s) * objective_fn p (best_estimate s) <= 0).
  { unfold sign_change in SC. destruct E as [[-> ->]|[-> ->]]; lra. }
  assert (IB : inside (lo_of b) (hi_of b) (best_estimate s)) by (destruct E as [[-> _]|[-> _]]; assumption).
  assert (IL : inside (lo_of b) (hi_of b) (last_estimate s)) by (destruct E as [[_ ->]|[_ ->]]; assumption).
  assert (W : Rabs (last_estimate s - best_estimate s) <= hi_of b - lo_of b).
  { unfold inside in *. apply Rabs_le. lra. }
  assert (C0 : contrapoint s = 0) by (unfold s, prepare, prepare_brent_args, swap_where; reflexivity).
  assert (NEG : finished s = false -> objective_fn p (last_estimate s) * objective_fn p (best_estimate s) < 0).
  { intros FF. rewrite F in FF. apply orb_false_iff in FF as [_ FF]. apply rle_false in FF.
    assert (NB : objective_fn p (best_estimate s) <> 0). { intros Z. rewrite Z, Rabs_R0 in FF. lra. }
    assert (NL : objective_fn p (last_estimate s) <> 0). { intros Z. rewrite Z, Rabs_R0 in AB. pose proof (Rabs_pos_lt _ NB). lra. }
    destruct PROD as [P|P]; [exact P|]. apply Rmult_integral in P as [P|P]; contradiction. }
  split; [|split].
  - split; [assumption|]. split; [assumption|]. split; [assumption|]. split; [assumption|]. intros FF. left. exact (NEG FF).
  - intros FF. rewrite F in FF. apply orb_true_iff in FF as [FF|FF].
    + left. apply Nat.leb_le in FF. lia.
    + right. left. apply rle_true. exact FF.
  - intros FF. unfold width. rewrite V1, V2, (proj2 (rlt_true _ _) (NEG FF)). exact W.
Qed.

(** A root between two points of opposite sign. *)
Lemma root_between (f : R -> R) lo hi a c : (forall x, lo <= x <= hi -> continuity_pt f x) -> lo <= a <= hi -> lo <= c <= hi ->
  f a * f c < 0 -> exists r, lo <= r <= hi /\ f r = 0 /\ Rabs (r - a) <= Rabs (c - a).
Proof.
  intros CT A C H. apply mul_neg_cases in H.
  assert (G : forall g x y, (forall z, lo <= z <= hi -> continuity_pt g z) -> lo <= x -> y <= hi -> x < y -> g x * g y < 0 -> exists r, x <= r <= y /\ g r = 0).
  { intros g x y CG X Y XY P. apply mul_neg_cases in P as [[P Q]|[P Q]].
    - destruct (Ranalysis5.IVT_interv g x y) as [r [R1 R2]]; try assumption; [intros z Z; apply CG; lra|]. exists r. split; assumption.
    - destruct (Ranalysis5.IVT_interv (fun t => - g t) x y) as [r [R1 R2]]; try lra; [intros z Z; apply continuity_pt_opp; apply CG; lra|].
      exists r. split; [assumption|lra]. }
  destruct (Rtotal_order a c) as [L|[L|L]].
  - destruct (G f a c CT) as (r & R1 & R2); try lra; [destruct H; nra|]. exists r. split; [lra|]. split; [assumption|]. rewrite !Rabs_right by lra. lra.
  - subst. lra.
  - destruct (G f c a CT) as (r & R1 & R2); try lra; [destruct H; nra|]. exists r. split; [lra|]. split; [assumption|]. rewrite !Rabs_left1 by lra. lra.
Qed.

(** Two objectives that agree on the bracket give the same run. *)
Definition with_fn (p : bparams) (g : R -> R) : bparams :=
  BParams g (max_iterations p) (absolute_root_tolerance p) (relative_root_tolerance p) (function_tolerance p).
Lemma body_local p g s : objective_fn p (best_estimate (brent_loop_body p s)) = g (best_estimate (brent_loop_body p s)) ->
  brent_loop_body (with_fn p g) s = brent_loop_body p s.
Proof.
  intros H. change (stops p (reorder s)) with (stops (with_fn p g) (reorder s)) in *.
  unfold brent_loop_body in *. cbv zeta in *. cbn [best_estimate] in H. cbn [with_fn objective_fn max_iterations absolute_root_tolerance relative_root_tolerance function_tolerance].
  rewrite H. reflexivity.
Qed.
Lemma run_local p g lo hi s k : 0 <= absolute_root_tolerance p -> 0 <= relative_root_tolerance p -> 0 <= function_tolerance p ->
  inv p lo hi s -> (finished s = true -> reason p lo hi s) -> (forall x, lo <= x <= hi -> objective_fn p x = g x) ->
  run (with_fn p g) k s = run p k s.
Proof.
  intros A1 A2 A3 I K E. induction k as [|k IH]; [reflexivity|].
  change (run (with_fn p g) (S k) s) with (brent_loop_body (with_fn p g) (run (with_fn p g) k s)). rewrite IH.
  change (run p (S k) s) with (brent_loop_body p (run p k s)). apply body_local. apply E.
  destruct (run_inv p lo hi A1 A2 A3 s (S k) I K) as ((_ & _ & X & _) & _). exact X.
Qed.
