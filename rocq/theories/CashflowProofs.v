(** Lemmas about grouped present values and the yield search. *)
From Coq Require Import Reals List Bool ZArith Lia Lra Psatz.
From Verif Require Import TensorModel InterpModel IntegrateModel SegmentModel RatesModel CashflowSpec.
Import ListNotations.
Open Scope R_scope.

Lemma gather_opt_length l idx : forall r, gather_opt l idx = Some r -> length r = length idx.
Proof. induction idx as [|i idx IH]; intros r H; cbn in H; [injection H as <-; reflexivity|]. destruct (nth_error l i); [|discriminate]. destruct (gather_opt l idx) as [q|]; [|discriminate]. injection H as <-. cbn. rewrite (IH q eq_refl). reflexivity. Qed.
Lemma gather_opt_some l idx : Forall (fun i => (i < length l)%nat) idx -> gather_opt l idx = Some (map (fun i => nth i l 0) idx).
Proof. induction 1 as [|i idx H F IH]; [reflexivity|]. cbn [gather_opt map]. rewrite (nth_error_nth' l 0 H), IH. reflexivity. Qed.

Lemma group_pv yields cs : forall ts gs j, length cs = length ts -> length cs = length gs ->
  reduce_sum (map fst (filter (fun p => Nat.eqb (snd p) j) (combine (discounted cs ts (map (fun i => nth i yields 0) gs)) gs))) = pv (members cs ts gs j) (nth j yields 0).
Proof.
  unfold reduce_sum, discounted, vzip, members, pv, cf_sum. induction cs as [|c cs IH]; intros [|t ts] [|g gs] j L1 L2; try discriminate; [reflexivity|].
  cbn [map combine filter snd]. cbn [length] in L1, L2. specialize (IH ts gs j ltac:(lia) ltac:(lia)). destruct (Nat.eqb_spec g j) as [->|N].
  - cbn [map fold_right fst]. rewrite <- IH. reflexivity.
  - exact IH.
Qed.
Lemma group_duration yields cs : forall ts gs j, length cs = length ts -> length cs = length gs ->
  reduce_sum (map fst (filter (fun p => Nat.eqb (snd p) j) (combine (vzip Rmult (discounted cs ts (map (fun i => nth i yields 0) gs)) ts) gs))) = duration (members cs ts gs j) (nth j yields 0).
Proof.
  unfold reduce_sum, discounted, vzip, members, duration, cf_sum. induction cs as [|c cs IH]; intros [|t ts] [|g gs] j L1 L2; try discriminate; [reflexivity|].
  cbn [map combine filter snd]. cbn [length] in L1, L2. specialize (IH ts gs j ltac:(lia) ltac:(lia)). destruct (Nat.eqb_spec g j) as [->|N].
  - cbn [map fold_right fst]. rewrite <- IH. ring.
  - exact IH.
Qed.

(** Number of groups of a sorted id vector. *)
Definition num_groups (gs : list nat) : nat := match gs with [] => 0%nat | _ => S (last gs 0%nat) end.
Lemma pv_from_yields_eq cs ts yields gs : length cs = length ts -> length cs = length gs -> sorted_ids gs = true -> Forall (fun g => (g < length yields)%nat) gs ->
  pv_from_yields cs ts yields (Some gs) = Some (map (fun j => pv (members cs ts gs j) (nth j yields 0)) (seq 0 (num_groups gs))).
Proof.
  intros L1 L2 S F. unfold pv_from_yields. rewrite (gather_opt_some yields gs F). unfold segment_sum. rewrite S. f_equal. apply map_ext. intros j. apply group_pv; assumption.
Qed.
Lemma sorted_last gs : sorted_ids gs = true -> forall g, In g gs -> (g <= last gs 0)%nat.
Proof.
  induction gs as [|a [|b gs] IH]; intros S g I; [destruct I|destruct I as [->|[]]; cbn; lia|].
  change (last (a :: b :: gs) 0%nat) with (last (b :: gs) 0%nat). cbn [sorted_ids] in S. apply andb_true_iff in S as [S1 S2]. apply Nat.leb_le in S1.
  destruct I as [->|I]; [|apply IH; assumption]. specialize (IH S2 b (or_introl eq_refl)). lia.
Qed.

(** ** The yield search *)
Section Yields.
Context (cs ts P : list R) (gs : list nat) (tol : R).
Context (L1 : length cs = length ts) (L2 : length cs = length gs) (SO : sorted_ids gs = true) (NG : num_groups gs = length P).
Notation mem := (members cs ts gs).
Lemma ids_lt (yields : list R) : length yields = length P -> Forall (fun g => (g < length yields)%nat) gs.
Proof.
  intros L. apply Forall_forall. intros g I. pose proof (sorted_last gs SO g I) as H. unfold num_groups in NG. destruct gs; [destruct I|]. rewrite L, <- NG. lia.
Qed.
Lemma list_of_nth (l : list R) n : length l = n -> l = map (fun j => nth j l 0) (seq 0 n).
Proof.
  intros <-. induction l as [|a l IH] using rev_ind; [reflexivity|]. rewrite app_length. cbn [length]. rewrite Nat.add_1_r, seq_S, map_app. cbn [map Nat.add]. f_equal.
  - rewrite IH at 1. apply map_ext_in. intros i I. apply in_seq in I. symmetry. apply app_nth1. lia.
  - rewrite app_nth2, Nat.sub_diag by lia. reflexivity.
Qed.
Lemma vzip_map (h : R -> R -> R) (a b : nat -> R) l : vzip h (map a l) (map b l) = map (fun j => h (a j) (b j)) l.
Proof. unfold vzip. induction l as [|i l IH]; [reflexivity|]. cbn. rewrite IH. reflexivity. Qed.

Definition delta (yields : list R) (j : nat) : R := (pv (mem j) (nth j yields 0) - nth j P 0) / duration (mem j) (nth j yields 0).
Lemma body_eq (yields : list R) : length yields = length P -> yields_body cs ts P gs tol yields =
  Some (if Rle_dec (reduce_max (map Rabs (map (delta yields) (seq 0 (length P))))) tol then true else false,
        map (fun j => newton_step (mem j) (nth j P 0) (nth j yields 0)) (seq 0 (length P))).
Proof.
  intros L. unfold yields_body, pv_and_duration. rewrite (gather_opt_some yields gs (ids_lt yields L)). unfold segment_sum. rewrite SO.
  fold (num_groups gs). rewrite NG. set (k := length P) in *.
  assert (E : vzip Rdiv (vzip Rminus (map (fun g => reduce_sum (map fst (filter (fun p => Nat.eqb (snd p) g) (combine (discounted cs ts (map (fun i => nth i yields 0) gs)) gs)))) (seq 0 k)) P)
     (map (fun g => reduce_sum (map fst (filter (fun p => Nat.eqb (snd p) g) (combine (vzip Rmult (discounted cs ts (map (fun i => nth i yields 0) gs)) ts) gs)))) (seq 0 k)) = map (delta yields) (seq 0 k)).
  { rewrite (list_of_nth P k eq_refl) at 1. rewrite !vzip_map. apply map_ext. intros j. unfold delta. rewrite group_pv, group_duration by assumption. reflexivity. }
  rewrite E. do 2 f_equal. rewrite (list_of_nth yields k L) at 1. rewrite vzip_map. reflexivity.
Qed.

Fixpoint iter_yields (m : nat) : list R := match m with O => map (fun _ => 0) P | S m => map (fun j => newton_step (mem j) (nth j P 0) (nth j (iter_yields m) 0)) (seq 0 (length P)) end.
Lemma iter_length m : length (iter_yields m) = length P.
Proof. destruct m; cbn [iter_yields]; rewrite map_length; [reflexivity|apply seq_length]. Qed.
Lemma iter_nth m j : (j < length P)%nat -> nth j (iter_yields m) 0 = Nat.iter m (newton_step (mem j) (nth j P 0)) 0.
Proof.
  intros J. induction m as [|m IH]; cbn [iter_yields Nat.iter].
  - generalize P j. clear. intros l. induction l as [|a l IH]; intros [|j]; cbn; try reflexivity. apply IH.
  - rewrite (nth_indep _ 0 (newton_step (mem 0) (nth 0 P 0) (nth 0 (iter_yields m) 0))) by (rewrite map_length, seq_length; exact J).
    rewrite (map_nth (fun j => newton_step (mem j) (nth j P 0) (nth j (iter_yields m) 0))), seq_nth by exact J. cbn [Nat.add]. rewrite IH. reflexivity.
Qed.
Lemma reduce_max_ge l x : In x l -> x <= reduce_max l.
Proof.
  unfold reduce_max. generalize (at_ l 0). induction l as [|a l IH]; intros d []; cbn [fold_right].
  - subst. apply Rmax_l.
  - eapply Rle_trans; [apply IH; exact H|apply Rmax_r].
Qed.
(** The loop runs Newton steps until the last one is small. *)
Lemma loop_spec n : forall m stop, exists k, yields_loop n cs ts P gs tol stop (iter_yields m) = Some (iter_yields (m + k)) /\ (k <= n)%nat /\
  ((k < n)%nat -> k = 0%nat /\ stop = true \/ exists k', k = S k' /\ forall j, (j < length P)%nat -> Rabs (nth j (iter_yields (m + k)) 0 - nth j (iter_yields (m + k')) 0) <= tol).
Proof.
  induction n as [|n IH]; intros m stop; cbn [yields_loop].
  - exists 0%nat. rewrite Nat.add_0_r. split; [reflexivity|]. split; lia.
  - destruct stop; cbn [negb].
    + exists 0%nat. rewrite Nat.add_0_r. split; [reflexivity|]. split; [lia|]. left. split; reflexivity.
    + rewrite (body_eq (iter_yields m) (iter_length m)). change (map (fun j => newton_step (mem j) (nth j P 0) (nth j (iter_yields m) 0)) (seq 0 (length P))) with (iter_yields (S m)).
      destruct (Rle_dec _ tol) as [SM|_].
      * exists 1%nat. rewrite Nat.add_1_r. assert (R1 : yields_loop n cs ts P gs tol true (iter_yields (S m)) = Some (iter_yields (S m))) by (destruct n; reflexivity).
        split; [exact R1|]. split; [lia|]. intros _. right. exists 0%nat. split; [reflexivity|]. intros j J. rewrite Nat.add_0_r.
        eapply Rle_trans; [|exact SM]. apply reduce_max_ge. rewrite map_map. apply in_map_iff. exists j. split; [|apply in_seq; lia].
        f_equal. rewrite (iter_nth (S m) j J). set (F := newton_step (mem j) (nth j P 0)). change (Nat.iter (S m) F 0) with (F (Nat.iter m F 0)). unfold F at 2. rewrite <- (iter_nth m j J). unfold F, newton_step, delta. ring.
      * destruct (IH (S m) false) as (k & E & K & X). exists (S k). rewrite E. replace (m + S k)%nat with (S m + k)%nat by lia. split; [reflexivity|]. split; [lia|].
        intros H. specialize (X ltac:(lia)). right. destruct X as [[-> D]|(k' & -> & D)]; [discriminate|]. exists (S k'). split; [reflexivity|]. intros j J. replace (m + S k')%nat with (S m + k')%nat by lia. apply D. exact J.
Qed.
End Yields.

(** ** Convexity *)
Lemma exp_tangent x : 1 + x <= exp x.
Proof. apply exp_ineq1_le. Qed.
Definition positive (l : list (R * R)) : Prop := Forall (fun p => 0 < fst p /\ 0 < snd p) l.
Lemma exp_shift t a b : exp (- t * b) = exp (- t * a) * exp (- t * (b - a)).
Proof. rewrite <- exp_plus. f_equal. ring. Qed.
Lemma pv_tangent l a b : positive l -> pv l a - duration l a * (b - a) <= pv l b.
Proof.
  unfold pv, duration, cf_sum. induction 1 as [|[c t] l [C T] F IH]; cbn [fold_right fst snd] in *; [lra|].
  pose proof (exp_tangent (- t * (b - a))) as E. rewrite (exp_shift t a b). pose proof (exp_pos (- t * a)) as X. set (X0 := exp (- t * a)) in *. set (Y := exp (- t * (b - a))) in *.
  assert (0 <= c * X0 * (Y - (1 + - t * (b - a)))) by (apply Rmult_le_pos; [apply Rmult_le_pos; lra|lra]). nra.
Qed.
Lemma duration_pos l y : positive l -> l <> [] -> 0 < duration l y.
Proof.
  intros F N. assert (G : forall l, positive l -> 0 <= duration l y).
  { clear. unfold duration, cf_sum. induction 1 as [|[c t] l [C T] F IH]; cbn [fold_right fst snd] in *; [lra|]. pose proof (exp_pos (- t * y)). assert (0 <= c * t * exp (- t * y)) by (apply Rmult_le_pos; [nra|lra]). lra. }
  destruct F as [|[c t] l [C T] F]; [contradiction|]. unfold duration, cf_sum. cbn [fold_right]. specialize (G l F). unfold duration, cf_sum in G. cbn [fst snd] in *. pose proof (exp_pos (- t * y)).
  assert (0 < c * t * exp (- t * y)) by (apply Rmult_lt_0_compat; nra). lra.
Qed.
(** Second-order bound for the gap after a step. *)
Lemma duration_diff l a b u : positive l -> u <= a -> u <= b -> (b - a) * (duration l a - duration l b) <= (b - a) ^ 2 * convexity l u.
Proof.
  intros F UA UB. unfold duration, convexity, cf_sum. induction F as [|[c t] l [C T] F IH]; cbn [fold_right fst snd] in *; [lra|].
  assert (K : (b - a) * (c * t * exp (- t * a) - c * t * exp (- t * b)) <= (b - a) ^ 2 * (c * t ^ 2 * exp (- t * u))).
  { assert (M : forall x, u <= x -> exp (- t * x) <= exp (- t * u)).
    { intros x X. destruct (Rle_lt_or_eq_dec _ _ X) as [X'| ->]; [|lra]. left. apply exp_increasing. nra. }
    assert (CT : 0 < c * t) by nra. destruct (Rle_lt_dec a b) as [AB|AB].
    - pose proof (exp_tangent (- t * (b - a))) as E. rewrite (exp_shift t a b). set (Y := exp (- t * (b - a))) in *. specialize (M a UA). pose proof (exp_pos (- t * a)). set (X0 := exp (- t * a)) in *.
      replace ((b - a) * (c * t * X0 - c * t * (X0 * Y))) with ((b - a) * (c * t) * (X0 * (1 - Y))) by ring.
      replace ((b - a) ^ 2 * (c * t ^ 2 * exp (- t * u))) with ((b - a) * (c * t) * (exp (- t * u) * (t * (b - a)))) by ring.
      apply Rmult_le_compat_l; [apply Rmult_le_pos; lra|]. apply Rle_trans with (X0 * (t * (b - a))); [apply Rmult_le_compat_l; lra|]. apply Rmult_le_compat_r; [apply Rmult_le_pos; lra|exact M].
    - pose proof (exp_tangent (- t * (a - b))) as E. rewrite (exp_shift t b a). set (Y := exp (- t * (a - b))) in *. specialize (M b UB). pose proof (exp_pos (- t * b)). set (X0 := exp (- t * b)) in *.
      replace ((b - a) * (c * t * (X0 * Y) - c * t * X0)) with ((a - b) * (c * t) * (X0 * (1 - Y))) by ring.
      replace ((b - a) ^ 2 * (c * t ^ 2 * exp (- t * u))) with ((a - b) * (c * t) * (exp (- t * u) * (t * (a - b)))) by ring.
      apply Rmult_le_compat_l; [apply Rmult_le_pos; lra|]. apply Rle_trans with (X0 * (t * (a - b))); [apply Rmult_le_compat_l; lra|]. apply Rmult_le_compat_r; [apply Rmult_le_pos; lra|exact M]. }
  lra.
Qed.
Lemma convexity_mono l a b : positive l -> a <= b -> 0 <= convexity l b <= convexity l a.
Proof.
  intros F AB. unfold convexity, cf_sum. induction F as [|[c t] l [C T] F IH]; cbn [fold_right fst snd] in *; [lra|].
  assert (exp (- t * b) <= exp (- t * a)) by (destruct (Rle_lt_or_eq_dec _ _ AB) as [X| ->]; [left; apply exp_increasing; nra|lra]). pose proof (exp_pos (- t * b)).
  assert (0 < c * t ^ 2) by (apply Rmult_lt_0_compat; [lra|apply pow_lt; lra]). set (q := c * t ^ 2) in *. assert (q * exp (- t * b) <= q * exp (- t * a)) by (apply Rmult_le_compat_l; lra). assert (0 <= q * exp (- t * b)) by (apply Rmult_le_pos; lra). lra.
Qed.
Lemma newton_above l P y : positive l -> l <> [] -> P <= pv l (newton_step l P y).
Proof.
  intros F N. pose proof (duration_pos l y F N) as D. pose proof (pv_tangent l y (newton_step l P y) F) as T. unfold newton_step in T at 1.
  replace (pv l y - duration l y * (y + (pv l y - P) / duration l y - y)) with P in T by (field; lra). exact T.
Qed.
Lemma newton_below l P y u : positive l -> l <> [] -> u <= y -> u <= newton_step l P y ->
  pv l (newton_step l P y) - P <= (newton_step l P y - y) ^ 2 * convexity l u.
Proof.
  intros F N U1 U2. pose proof (duration_pos l y F N) as D. set (z := newton_step l P y) in *.
  assert (EZ : pv l y - P = (z - y) * duration l y) by (unfold z, newton_step; field; lra).
  pose proof (pv_tangent l z y F) as T. pose proof (duration_diff l y z u F U1 U2) as Q. nra.
Qed.
