(** C33: present values of grouped cashflows and the yields implied by them.
    [pv], [duration], [convexity], [members] and [newton_step] are defined in
    CashflowSpec.v. *)
From Coq Require Import Reals List Bool ZArith Lia Lra Psatz.
From Verif Require Import TensorModel InterpModel IntegrateModel RatesModel CashflowSpec CashflowProofs.
Import ListNotations.
Open Scope R_scope.

(** Ids in increasing order, as tf.math.segment_sum requires. *)
Definition sorted (gs : list nat) : Prop := forall i j, (i <= j < length gs)%nat -> (nth i gs 0 <= nth j gs 0)%nat.
Lemma sorted_ids_iff gs : sorted_ids gs = true <-> sorted gs.
Proof.
  induction gs as [|a gs IH]; [split; [intros _ i j H; cbn in H; lia|reflexivity]|]. destruct gs as [|b gs].
  - split; [intros _ i j H; cbn [length] in H; assert (i = 0 /\ j = 0)%nat as [-> ->] by lia; lia|reflexivity].
  - cbn [sorted_ids]. rewrite andb_true_iff, Nat.leb_le, IH. split.
    + intros [AB SS] [|i] [|j] H; cbn [length] in H; try lia.
      * change (nth 0 (a :: b :: gs) 0%nat) with a. change (nth (S j) (a :: b :: gs) 0%nat) with (nth j (b :: gs) 0%nat). specialize (SS 0%nat j ltac:(cbn [length]; lia)). change (nth 0 (b :: gs) 0%nat) with b in SS. lia.
      * apply (SS i j). cbn [length]. lia.
    + intros SS. split; [apply (SS 0%nat 1%nat); cbn [length]; lia|]. intros i j H. apply (SS (S i) (S j)). cbn [length] in *. lia.
Qed.

(** Discounting at one yield: present_value with the discount factors of the
    yield and pv_from_yields without groups are the same sum. *)
Theorem C33_single cs ts y : length cs = length ts ->
  present_value cs (map (fun t => exp (- t * y)) ts) = pv (combine cs ts) y /\ pv_from_yields cs ts [y] None = Some [pv (combine cs ts) y].
Proof.
  intros L. unfold pv_from_yields, present_value, reduce_sum, discounted, vzip, pv, cf_sum.
  assert (E : fold_right Rplus 0 (map (fun '(x, y0) => x * y0) (combine cs (map (fun t => exp (- t * y)) ts))) = fold_right (fun p s => (let '(c, t) := p in c * exp (- t * y)) + s) 0 (combine cs ts)).
  { revert ts L. induction cs as [|c cs IH]; intros [|t ts] L; try discriminate; [reflexivity|]. cbn [map combine fold_right]. rewrite <- IH by (cbn in L; lia). reflexivity. }
  split; [exact E|]. do 2 f_equal. rewrite <- E. do 3 f_equal. clear. induction ts as [|t ts IH]; [reflexivity|]. cbn [map combine]. rewrite IH. reflexivity.
Qed.

(** Each group is valued on its own cashflows and its own yield only. *)
Theorem C33_groups cs ts yields gs j v : length cs = length ts -> length cs = length gs ->
  pv_from_yields cs ts yields (Some gs) = Some v -> (exists i, nth_error gs i = Some j) -> nth_error v j = Some (pv (members cs ts gs j) (nth j yields 0)).
Proof.
  intros L1 L2 H [i I]. assert (SO : sorted_ids gs = true). { unfold pv_from_yields, segment_sum in H. destruct (gather_opt yields gs); [|discriminate]. destruct (sorted_ids gs); [reflexivity|discriminate]. }
  assert (F : Forall (fun g => (g < length yields)%nat) gs).
  { unfold pv_from_yields in H. destruct (gather_opt yields gs) as [r|] eqn:G; [|discriminate]. clear - G. revert r G. induction gs as [|g gs IH]; intros r G; [constructor|]. cbn in G.
    destruct (nth_error yields g) eqn:N; [|discriminate]. destruct (gather_opt yields gs) as [q|]; [|discriminate]. constructor; [apply nth_error_Some; congruence|apply (IH q); reflexivity]. }
  rewrite (pv_from_yields_eq cs ts yields gs L1 L2 SO F) in H. injection H as <-. apply nth_error_In in I. pose proof (sorted_last gs SO j I) as J.
  rewrite nth_error_map. assert (N : (j < num_groups gs)%nat) by (unfold num_groups; destruct gs; [destruct I|lia]).
  rewrite (nth_error_nth' (seq 0 (num_groups gs)) 0%nat) by (rewrite seq_length; exact N). rewrite seq_nth by exact N. reflexivity.
Qed.
(** The valuation succeeds exactly for sorted group ids that all have a yield. *)
Theorem C33_accepted cs ts yields gs : pv_from_yields cs ts yields (Some gs) <> None <-> sorted gs /\ (forall g, In g gs -> (g < length yields)%nat).
Proof.
  rewrite <- sorted_ids_iff. unfold pv_from_yields. split.
  - intros H. destruct (gather_opt yields gs) as [r|] eqn:G; [|congruence]. unfold segment_sum in H. destruct (sorted_ids gs); [|congruence]. split; [reflexivity|].
    clear H. revert r G. induction gs as [|g gs IH]; intros r G x I; [destruct I|]. cbn in G. destruct (nth_error yields g) eqn:N; [|discriminate]. destruct (gather_opt yields gs) as [q|]; [|discriminate].
    destruct I as [->|I]; [apply nth_error_Some; congruence|apply (IH q eq_refl x I)].
  - intros [S F]. rewrite (gather_opt_some yields gs) by (apply Forall_forall; exact F). unfold segment_sum. rewrite S. discriminate.
Qed.

(** A yield the search does not move reprices the cashflows exactly. *)
Theorem C33_fixed_point l P y : duration l y <> 0 -> newton_step l P y = y <-> pv l y = P.
Proof.
  intros D. unfold newton_step. split.
  - intros H. assert (Z : (pv l y - P) / duration l y = 0) by lra. apply (Rmult_eq_compat_r (duration l y)) in Z. unfold Rdiv in Z. rewrite Rmult_assoc, Rinv_l, Rmult_0_l in Z by exact D. lra.
  - intros ->. unfold Rminus. rewrite Rplus_opp_r. unfold Rdiv. ring.
Qed.

Lemma last_in l : l <> [] -> In (last l 0%nat) l.
Proof. induction l as [|a [|b l] IH]; intros N; [contradiction|left; reflexivity|right; apply IH; discriminate]. Qed.
Lemma cover_groups gs k : sorted_ids gs = true -> (forall j, In j gs <-> (j < k)%nat) -> num_groups gs = k.
Proof.
  intros S C. unfold num_groups. destruct gs as [|g gs].
  - destruct k; [reflexivity|]. exfalso. apply (proj2 (C 0%nat)). lia.
  - pose proof (last_in (g :: gs) ltac:(discriminate)) as I. apply C in I. pose proof (proj2 (C (k - 1)%nat) ltac:(lia)) as J. apply (sorted_last _ S) in J. lia.
Qed.

(** yields_from_pv on positive cashflows and times, every group nonempty: each
    group runs its own Newton search from 0; the returned yield never exceeds
    the true one; and if the search stopped before the iteration limit the
    repricing error is at most quadratic in the tolerance. *)
Theorem C33_yields cs ts P gs tol n : length cs = length ts -> length cs = length gs -> sorted gs ->
  (forall j, In j gs <-> (j < length P)%nat) -> (forall c, In c cs -> 0 < c) -> (forall t, In t ts -> 0 < t) -> (0 < n)%nat -> 0 <= tol ->
  exists ys m, yields_from_pv cs ts P (Some gs) tol n = Some ys /\ length ys = length P /\ (1 <= m <= n)%nat /\
  forall j, (j < length P)%nat -> let l := members cs ts gs j in let y := nth j ys 0 in
    y = Nat.iter m (newton_step l (nth j P 0)) 0 /\ nth j P 0 <= pv l y /\
    ((m < n)%nat -> pv l y - nth j P 0 <= tol ^ 2 * convexity l (y - tol)).
Proof.
  intros L1 L2 SO COV CP TP N T. apply sorted_ids_iff in SO. pose proof (cover_groups gs (length P) SO COV) as NG.
  unfold yields_from_pv. change (map (fun _ : R => 0) P) with (iter_yields cs ts P gs 0).
  destruct (loop_spec cs ts P gs tol L1 L2 SO NG n 0 false) as (m & E & M & X). cbn [Nat.add] in E, X.
  assert (M1 : (1 <= m)%nat). { destruct m; [|lia]. specialize (X N). destruct X as [[_ D]|(k & K & _)]; [discriminate|discriminate]. }
  exists (iter_yields cs ts P gs m), m. split; [exact E|]. split; [apply iter_length|]. split; [lia|]. intros j J. set (l := members cs ts gs j). set (y := nth j (iter_yields cs ts P gs m) 0).
  assert (PL : positive l). { unfold positive, l, members. apply Forall_forall. intros p I. apply in_map_iff in I as (q & <- & I). apply filter_In in I as [I _]. destruct q as [[c t] g]. apply in_combine_l in I. cbn [fst snd]. split; [apply CP; exact (in_combine_l _ _ _ _ I)|apply TP; exact (in_combine_r _ _ _ _ I)]. }
  assert (NL : l <> []).
  { unfold l, members. apply COV in J. intros Z. apply In_nth_error in J as [i I]. assert (LI : (i < length gs)%nat) by (apply nth_error_Some; congruence).
    assert (IN : In (nth i (combine cs ts) (0, 0), j) (combine (combine cs ts) gs)).
    { rewrite <- (nth_error_nth gs i 0%nat I). rewrite <- combine_nth by (rewrite combine_length; lia). apply nth_In. rewrite !combine_length. lia. }
    assert (IF : In (nth i (combine cs ts) (0, 0)) (map fst (filter (fun p => Nat.eqb (snd p) j) (combine (combine cs ts) gs)))).
    { change (nth i (combine cs ts) (0, 0)) with (fst (nth i (combine cs ts) (0, 0), j)). apply in_map. apply filter_In. split; [exact IN|apply Nat.eqb_refl]. }
    rewrite Z in IF. exact IF. }
  destruct m as [|m]; [lia|]. unfold y. rewrite (iter_nth cs ts P gs (S m) j J). fold l. set (F := newton_step l (nth j P 0)). change (Nat.iter (S m) F 0) with (F (Nat.iter m F 0)). set (z := Nat.iter m F 0).
  split; [reflexivity|]. split; [apply newton_above; assumption|]. intros LT. specialize (X LT). destruct X as [[D _]|(k & K & D)]; [discriminate|]. injection K as <-. specialize (D j J).
  rewrite (iter_nth cs ts P gs (S m) j J), (iter_nth cs ts P gs m j J) in D. fold l F in D. change (Nat.iter (S m) F 0) with (F (Nat.iter m F 0)) in D. fold z in D.
  assert (Z1 : F z - tol <= z) by (revert D; unfold Rabs; destruct (Rcase_abs _); lra). assert (Z2 : F z - tol <= F z) by lra.
  eapply Rle_trans; [apply (newton_below l (nth j P 0) z (F z - tol) PL NL Z1 Z2)|]. fold F. apply Rmult_le_compat_r; [apply (convexity_mono l (F z - tol) (F z - tol) PL); lra|].
  rewrite <- (pow2_abs (F z - z)). apply pow_incr. split; [apply Rabs_pos|exact D].
Qed.

(** Two groups, the first with two cashflows. *)
Example C33_ex : let cs := [1; 2; 3] in let ts := [1; 2; 1] in let gs := [0; 0; 1]%nat in
  pv_from_yields cs ts [0; 1] (Some gs) = Some [3; 3 * exp (-1)] /\
  exists ys, yields_from_pv cs ts [3; 3] (Some gs) (1 / 100) 10 = Some ys /\ nth 1 ys 7 = 0.
Proof.
  split.
  - unfold pv_from_yields, segment_sum, discounted, vzip, reduce_sum. cbn -[exp]. do 2 f_equal; [|f_equal].
    + replace (- (1) * 0) with 0 by ring. replace (- (2) * 0) with 0 by ring. rewrite exp_0. ring.
    + replace (- (1) * 1) with (-1) by ring. ring.
  - destruct (C33_yields [1; 2; 3] [1; 2; 1] [3; 3] [0; 0; 1]%nat (1 / 100) 10) as (ys & m & E & L & _ & H); try reflexivity.
    + apply sorted_ids_iff. reflexivity.
    + intros j. cbn. lia.
    + cbn. intros c [<-|[<-|[<-|[]]]]; lra.
    + cbn. intros c [<-|[<-|[<-|[]]]]; lra.
    + lia.
    + lra.
    + exists ys. split; [exact E|]. destruct (H 1%nat ltac:(cbn; lia)) as (Y & _). rewrite (nth_indep ys 7 0) by (rewrite L; cbn; lia). rewrite Y.
      assert (FX : newton_step (members [1; 2; 3] [1; 2; 1] [0; 0; 1]%nat 1) (nth 1 [3; 3] 0) 0 = 0).
      { apply C33_fixed_point; unfold members; cbn -[exp]; unfold duration, pv, cf_sum; cbn -[exp]; replace (- (1) * 0) with 0 by ring; rewrite exp_0; lra. }
      clear - FX. induction m as [|m IH]; [reflexivity|]. set (F := newton_step _ _) in *. change (Nat.iter (S m) F 0) with (F (Nat.iter m F 0)). rewrite IH. exact FX.
Qed.

Print Assumptions C33_single.
Print Assumptions C33_groups.
Print Assumptions C33_accepted.
Print Assumptions C33_fixed_point.
Print Assumptions C33_yields.
