(** C29: Brent root search.  [brentq fs inputs maxit atol rtol ftol policy validate]
    returns one result per batch element, or [None] when validation fails. *)
From Coq Require Import Reals List Bool Arith Lia Lra Psatz.
From Verif Require Import InterpModel BrentModel BrentProofs BrentProofs2.
Import ListNotations.
Open Scope R_scope.

Section C29.
Variables (fs : list (R -> R)) (inputs : list binput) (maxit : nat) (atol rtol ftol : R).
Variables (policy : list bool -> bool) (validate : bool) (results : list bresult).
Hypothesis CALL : brentq fs inputs maxit atol rtol ftol policy validate = Some results.
Hypothesis SIZE : length fs = length inputs.

(** Element [i] of the batch searches a root of [f] in the bracket [b]. *)
Variables (i : nat) (f : R -> R) (b : binput) (r : bresult).
Hypothesis FI : nth_error fs i = Some f.
Hypothesis BI : nth_error inputs i = Some b.
Hypothesis RI : nth_error results i = Some r.
Notation lo := (Rmin (left_bracket b) (right_bracket b)).
Notation hi := (Rmax (left_bracket b) (right_bracket b)).

(** Values at the bracket ends, when the caller passes them, are the objective's. *)
Definition values_ok : Prop :=
  (left_value b = None \/ left_value b = Some (f (left_bracket b))) /\
  (right_value b = None \/ right_value b = Some (f (right_bracket b))).

Let p := BParams f maxit atol rtol ftol.
Let ps := map (fun f => BParams f maxit atol rtol ftol) fs.
Let states := map (fun '(p, b) => prepare p b) (combine ps inputs).

Lemma len : length ps = length states.
Proof. unfold states, ps. rewrite !map_length, combine_length, map_length. lia. Qed.
Lemma state_i : nth_error ps i = Some p /\ nth_error states i = Some (prepare p b).
Proof.
  assert (P : nth_error ps i = Some p) by (unfold ps; rewrite (map_nth_error _ _ _ FI); reflexivity).
  split; [exact P|]. unfold states. exact (nth_zip _ _ _ _ _ _ P BI).
Qed.
Lemma result_i : exists k, (k <= maxit)%nat /\ r = brent_result p (run p k (prepare p b)) /\
   (k = maxit \/ policy (map finished (runs ps k states)) = true).
Proof.
  destruct state_i as [P ST]. unfold brentq in CALL. fold ps states in CALL. destruct (validate && _); [discriminate|]. injection CALL as E.
  destruct (brent_while_runs ps policy maxit states len) as (k & K1 & K2 & K3). exists k. split; [exact K1|]. split; [|exact K3].
  rewrite K2 in E. rewrite <- E in RI. rewrite (nth_zip _ _ _ _ _ _ P (nth_runs ps k states i p _ P ST)) in RI. congruence.
Qed.

(** The estimate lies in the bracket, the reported value is the objective
    there, the flag says exactly whether it is within tolerance, and the
    iteration limit is respected. *)
Theorem C29_result : values_ok -> f (left_bracket b) * f (right_bracket b) <= 0 -> 0 <= atol -> 0 <= rtol -> 0 <= ftol ->
  lo <= estimated_root r <= hi /\ objective_at_estimated_root r = f (estimated_root r) /\
  (converged r = true <-> Rabs (f (estimated_root r)) <= ftol) /\ (result_iterations r <= maxit)%nat.
Proof.
  intros V SC A1 A2 A3. destruct result_i as (k & K1 & -> & _).
  destruct (prepare_inv p b V SC A3) as (I & K & _).
  destruct (run_inv p (lo_of b) (hi_of b) A1 A2 A3 _ k I K) as ((V1 & V2 & IB & IL & _) & _ & _ & N).
  cbn [brent_result estimated_root objective_at_estimated_root converged result_iterations].
  split; [exact IB|]. split; [exact V1|]. split.
  - rewrite V1. apply rle_true.
  - destruct (prepare_eq p b V) as (_ & _ & E & _). rewrite E in N. change (max_iterations p) with maxit in N. rewrite Nat.max_0_l in N. exact N.
Qed.

(** The sign change is kept: at any stop before the iteration limit a
    continuous objective is within tolerance at the estimate or has a root
    closer to it than atol + rtol*|estimate|. *)
Theorem C29_root_near : values_ok -> f (left_bracket b) * f (right_bracket b) <= 0 -> 0 <= atol -> 0 <= rtol -> 0 <= ftol ->
  (forall x, lo <= x <= hi -> continuity_pt f x) -> policy = reduce_all -> (result_iterations r < maxit)%nat ->
  converged r = true \/
  exists root, lo <= root <= hi /\ f root = 0 /\ Rabs (root - estimated_root r) < atol + rtol * Rabs (estimated_root r).
Proof.
  intros V SC A1 A2 A3 CT POL LT. destruct result_i as (k & K1 & -> & K3). destruct state_i as [P ST].
  destruct (prepare_inv p b V SC A3) as (I & K & _). destruct (prepare_eq p b V) as (_ & _ & N0 & _).
  destruct (run_inv p (lo_of b) (hi_of b) A1 A2 A3 _ k I K) as ((V1 & V2 & IB & IL & _) & RS & NF & N).
  cbn [brent_result estimated_root objective_at_estimated_root converged result_iterations] in *.
  assert (F : finished (run p k (prepare p b)) = true).
  { destruct (finished (run p k (prepare p b))) eqn:F; [reflexivity|]. destruct (NF eq_refl) as (E & _). rewrite N0 in E. destruct K3 as [K3|K3]; [lia|].
    rewrite POL in K3. unfold reduce_all in K3. rewrite forallb_forall in K3. rewrite <- F. apply K3.
    apply (nth_error_In _ i). rewrite (map_nth_error finished i _ (nth_runs ps k states i p _ P ST)). reflexivity. }
  destruct (RS F) as [X|[X|(c & C1 & C2 & C3)]].
  - cbn in X. exfalso. exact (Nat.lt_irrefl _ (Nat.le_lt_trans _ _ _ X LT)).
  - left. rewrite V1. apply rle_true. exact X.
  - right. destruct (root_between f (lo_of b) (hi_of b) _ c CT IB C1 C2) as (root & R1 & R2 & R3). exists root. split; [exact R1|]. split; [exact R2|].
    eapply Rle_lt_trans; [exact R3|exact C3].
Qed.

(** The search always gets there: a limit above 1 + 4*(width of the bracket)/atol is enough. *)
Theorem C29_terminates : values_ok -> f (left_bracket b) * f (right_bracket b) <= 0 -> 0 < atol -> 0 <= rtol -> 0 <= ftol ->
  (forall x, lo <= x <= hi -> continuity_pt f x) -> policy = reduce_all ->
  1 + 4 * (hi - lo) / atol < INR maxit ->
  converged r = true \/
  exists root, lo <= root <= hi /\ f root = 0 /\ Rabs (root - estimated_root r) < atol + rtol * Rabs (estimated_root r).
Proof.
  intros V SC A1 A2 A3 CT POL BIG. apply C29_root_near; try assumption; [lra|].
  assert (A1' : 0 <= atol) by lra.
  destruct result_i as (k & K1 & -> & K3). destruct state_i as [P ST].
  destruct (prepare_inv p b V SC A3) as (I & K & W). destruct (prepare_eq p b V) as (_ & _ & N0 & _).
  assert (HL : 0 <= hi - lo) by (unfold Rmax, Rmin; destruct (Rle_dec _ _); lra).
  assert (Q : 0 <= 4 * (hi - lo) / atol) by (apply Rmult_le_pos; [lra|left; apply Rinv_0_lt_compat; assumption]).
  assert (M : (1 <= maxit)%nat) by (destruct maxit; [cbn in BIG; lra|lia]).
  assert (BIG' : 4 * (hi - lo) < INR (maxit - 1) * atol).
  { rewrite minus_INR by exact M. change (INR 1) with 1. replace (4 * (hi - lo)) with ((4 * (hi - lo) / atol) * atol) by (field; lra).
    apply Rmult_lt_compat_r; lra. }
  cbn [brent_result result_iterations].
  (* the run is finished after maxit - 1 bodies *)
  assert (DONE : finished (run p (maxit - 1) (prepare p b)) = true).
  { destruct (finished (run p (maxit - 1) (prepare p b))) eqn:F; [reflexivity|]. exfalso.
    destruct (run_inv p (lo_of b) (hi_of b) A1' A2 A3 _ (maxit - 1) I K) as (_ & _ & NF & _). destruct (NF F) as (_ & _ & X).
    assert (F0 : finished (prepare p b) = false). { destruct (finished (prepare p b)) eqn:F0; [|reflexivity]. destruct (run_frozen p (prepare p b) (maxit - 1) F0) as (_ & _ & _ & E). congruence. }
    specialize (W F0). unfold lo_of, hi_of in *. pose proof (width_nonneg (run p (maxit - 1) (prepare p b))). change (absolute_root_tolerance p) with atol in X. lra. }
  assert (LE : forall j, (num_iterations (run p j (prepare p b)) <= j)%nat).
  { intros j. induction j as [|j IH]; [change (num_iterations (prepare p b) <= 0)%nat; rewrite N0; lia|]. change (run p (S j) (prepare p b)) with (brent_loop_body p (run p j (prepare p b))).
    destruct (finished (run p j (prepare p b))) eqn:F.
    - destruct (body_finished p _ F) as (_ & _ & _ & _ & E & _). lia.
    - destruct (run_inv p (lo_of b) (hi_of b) A1' A2 A3 _ j I K) as (J1 & J2 & _).
      destruct (body_inv p (lo_of b) (hi_of b) A1' A2 A3 _ J1 J2) as (_ & _ & B3 & B4).
      destruct (finished (brent_loop_body p (run p j (prepare p b)))) eqn:F'.
      + rewrite (B4 F eq_refl). lia.
      + destruct (B3 eq_refl) as (_ & E & _). lia. }
  destruct (Nat.le_gt_cases k (maxit - 1)) as [L|L]; [specialize (LE k); lia|].
  assert (k = (1 + (maxit - 1))%nat) by lia. subst k. rewrite run_add.
  destruct (run_frozen p _ 1 DONE) as (_ & _ & E & _). rewrite E. specialize (LE (maxit - 1)%nat). lia.
Qed.

End C29.

(** Only points of the bracket are ever evaluated: an objective that agrees
    with [f] there gives the same answer. *)
Theorem C29_stays_inside f g b maxit atol rtol ftol policy validate :
  values_ok f b -> f (left_bracket b) * f (right_bracket b) <= 0 -> 0 <= atol -> 0 <= rtol -> 0 <= ftol ->
  (forall x, Rmin (left_bracket b) (right_bracket b) <= x <= Rmax (left_bracket b) (right_bracket b) -> g x = f x) ->
  brentq [g] [b] maxit atol rtol ftol policy validate = brentq [f] [b] maxit atol rtol ftol policy validate.
Proof.
  intros V SC A1 A2 A3 E. set (p := BParams f maxit atol rtol ftol).
  assert (RNG : Rmin (left_bracket b) (right_bracket b) <= left_bracket b <= Rmax (left_bracket b) (right_bracket b) /\
                Rmin (left_bracket b) (right_bracket b) <= right_bracket b <= Rmax (left_bracket b) (right_bracket b)) by (unfold Rmax, Rmin; destruct (Rle_dec _ _); lra).
  assert (E0 : prepare (BParams g maxit atol rtol ftol) b = prepare p b).
  { unfold prepare, prepare_brent_args, p. cbn [objective_fn max_iterations function_tolerance]. rewrite !E by apply RNG. reflexivity. }
  destruct (prepare_inv p b V SC A3) as (I & K & _).
  assert (LOC : forall j, run (with_fn p g) j (prepare p b) = run p j (prepare p b)).
  { intros j. apply (run_local p g (lo_of b) (hi_of b)); try assumption. intros x X. symmetry. apply E. exact X. }
  assert (W : forall fuel j, brent_while [with_fn p g] policy fuel [run p j (prepare p b)] = brent_while [p] policy fuel [run p j (prepare p b)]).
  { induction fuel as [|fuel IH]; intros j; [reflexivity|]. cbn [brent_while map combine]. destruct (policy _); [reflexivity|].
    change (brent_loop_body p (run p j (prepare p b))) with (run p (S j) (prepare p b)).
    rewrite <- LOC at 1. change (brent_loop_body (with_fn p g) (run (with_fn p g) j (prepare p b))) with (run (with_fn p g) (S j) (prepare p b)).
    rewrite LOC. apply IH. }
  unfold brentq. cbn [map combine forallb]. fold p. change (BParams g maxit atol rtol ftol) with (with_fn p g) in *. rewrite E0.
  change (brent_valid (with_fn p g) (prepare p b)) with (brent_valid p (prepare p b)).
  destruct (validate && _); [reflexivity|]. specialize (W maxit 0%nat). cbn [run] in W. change (run p 0 (prepare p b)) with (prepare p b) in W. rewrite W.
  destruct (brent_while [p] policy maxit [prepare p b]); reflexivity.
Qed.

(** With the default policy the other elements of the batch do not matter. *)
Theorem C29_batch_independent fs inputs maxit atol rtol ftol results i f b r :
  brentq fs inputs maxit atol rtol ftol reduce_all false = Some results -> length fs = length inputs ->
  nth_error fs i = Some f -> nth_error inputs i = Some b -> nth_error results i = Some r ->
  brentq [f] [b] maxit atol rtol ftol reduce_all false = Some [r].
Proof.
  intros CALL SIZE FI BI RI.
  destruct (result_i fs inputs maxit atol rtol ftol reduce_all false results CALL SIZE i f b r FI BI RI) as (k & K1 & K2 & K3).
  destruct (state_i fs inputs maxit atol rtol ftol i f b FI BI) as [P S].
  set (p := BParams f maxit atol rtol ftol) in *. unfold brentq. cbn [map combine andb]. fold p.
  destruct (brent_while_runs [p] reduce_all maxit [prepare p b] eq_refl) as (j & J1 & J2 & J3). rewrite J2.
  unfold runs in J3 |- *. cbn [combine map] in *. f_equal. f_equal. rewrite K2.
  assert (FK : k = maxit \/ finished (run p k (prepare p b)) = true).
  { destruct K3 as [K3|K3]; [left; exact K3|right]. unfold reduce_all in K3. rewrite forallb_forall in K3. apply K3.
    apply (nth_error_In _ i). rewrite (map_nth_error finished i _ (nth_runs _ k _ i p _ P S)). reflexivity. }
  assert (FJ : j = maxit \/ finished (run p j (prepare p b)) = true).
  { destruct J3 as [J3|J3]; [left; exact J3|right]. unfold reduce_all in J3. cbn in J3. rewrite andb_true_r in J3. exact J3. }
  assert (OBS : forall a c, (a <= c)%nat -> finished (run p a (prepare p b)) = true -> brent_result p (run p c (prepare p b)) = brent_result p (run p a (prepare p b))).
  { intros a c AC F. replace c with ((c - a) + a)%nat by lia. rewrite run_add. destruct (run_frozen p _ (c - a) F) as (E1 & E2 & E3 & E4).
    unfold brent_result. rewrite E1, E2, E3. reflexivity. }
  destruct (Nat.le_gt_cases j k) as [L|L].
  - destruct FJ as [FJ|FJ]; [assert (j = k) by lia; subst; reflexivity|]. symmetry. apply OBS; assumption.
  - destruct FK as [FK|FK]; [lia|]. apply OBS; [lia|assumption].
Qed.

(** With validate_args a call that returns had a sign change and valid
    tolerances at every element, so the theorems above apply to it. *)
Theorem C29_validated fs inputs maxit atol rtol ftol policy results i f b :
  brentq fs inputs maxit atol rtol ftol policy true = Some results ->
  nth_error fs i = Some f -> nth_error inputs i = Some b -> values_ok f b ->
  f (left_bracket b) * f (right_bracket b) <= 0 /\ 0 < atol /\ 0 < rtol /\ 0 <= ftol.
Proof.
  intros CALL FI BI V. destruct (state_i fs inputs maxit atol rtol ftol i f b FI BI) as [P S].
  unfold brentq in CALL. cbn [andb] in CALL. destruct (forallb _ _) eqn:A in CALL; [|discriminate].
  rewrite forallb_forall in A.
  match type of A with forall x, In x (combine ?l ?m) -> _ => assert (IN : In (BParams f maxit atol rtol ftol, prepare (BParams f maxit atol rtol ftol) b) (combine l m)) end.
  { apply (nth_error_In _ i). rewrite <- (map_id (combine _ _)). exact (nth_zip (fun x => x) _ _ _ _ _ P S). }
  specialize (A _ IN). cbv beta iota in A. unfold brent_valid in A. apply andb_true_iff in A as [A A4]. apply andb_true_iff in A as [A A3]. apply andb_true_iff in A as [A1 A2].
  apply rle_true in A1. apply rlt_true in A2. apply rlt_true in A3. apply rle_true in A4. cbn in A2, A3, A4.
  split; [|repeat split; assumption].
  destruct (prepare_eq (BParams f maxit atol rtol ftol) b V) as (V1 & V2 & _ & _ & E & _). rewrite V1, V2 in A1. cbn [objective_fn] in A1.
  destruct E as [[E1 E2]|[E1 E2]]; rewrite E1, E2 in A1; lra.
Qed.

(** The square root of two as the root of x^2 - 2 in [0, 2]: a call meeting
    every hypothesis, with a limit large enough for [C29_terminates]. *)
Definition sqrt2_objective (x : R) : R := x * x - 2.
Example C29_ex : let b := BInput 0 2 None (Some 2) in
  values_ok sqrt2_objective b /\ sqrt2_objective (left_bracket b) * sqrt2_objective (right_bracket b) < 0 /\
  (forall x, 0 <= x <= 2 -> continuity_pt sqrt2_objective x) /\
  1 + 4 * (Rmax 0 2 - Rmin 0 2) / (1 / 10) < INR 100 /\
  exists results, brentq [sqrt2_objective] [b] 100 (1 / 10) (1 / 100) (1 / 1000) reduce_all true = Some results.
Proof.
  intros b. unfold sqrt2_objective. split; [|split; [|split; [|split]]].
  - split; [left; reflexivity|right]. cbn. f_equal. ring.
  - cbn. lra.
  - intros x _. reg.
  - rewrite Rmax_right, Rmin_left by lra. replace (INR 100) with 100 by (rewrite INR_IZR_INZ; reflexivity). lra.
  - unfold brentq. cbn [map combine forallb]. unfold brent_valid, prepare, prepare_brent_args, swap_where, b. cbn [left_value right_value left_bracket right_bracket objective_fn].
    replace (rlt (Rabs (0 * 0 - 2)) (Rabs 2)) with false by (symmetry; apply rlt_false; rewrite (Rabs_left (0 * 0 - 2)), (Rabs_right 2) by lra; lra).
    cbn [value_at_last_estimate value_at_best_estimate absolute_root_tolerance relative_root_tolerance function_tolerance].
    rewrite (proj2 (rle_true ((0 * 0 - 2) * 2) 0)), (proj2 (rlt_true 0 (1 / 10))), (proj2 (rlt_true 0 (1 / 100))), (proj2 (rle_true 0 (1 / 1000))) by lra.
    cbn [andb negb]. eexists. reflexivity.
Qed.

Print Assumptions C29_result.
Print Assumptions C29_root_near.
Print Assumptions C29_terminates.
Print Assumptions C29_stays_inside.
Print Assumptions C29_batch_independent.
Print Assumptions C29_validated.
