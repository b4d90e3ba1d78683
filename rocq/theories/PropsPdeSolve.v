(** C49: the time loop of the PDE solvers. *)
From Coq Require Import Reals ZArith List Bool Arith Lra Lia.
From Flocq Require Import IEEE754.BinarySingleNaN IEEE754.Binary IEEE754.Bits.
From Verif Require Import TimeGridModel TimeGridProofs PropsTimeGrid PdeSolveModel PdeSolveView.
Import ListNotations.
Open Scope R_scope.

(** ** The loop follows a sequence of times *)
Section Loop.
  Context {T A : Type} (fn : T -> bool * T) (one_step : T -> T -> nat -> A -> A) (transform : T -> A -> A).
  Let body := loop_body fn one_step transform.
  Lemma bounded_path (times : nat -> T) j : forall i m a c, (1 <= j <= m)%nat ->
    (forall l, (i <= l < i + j)%nat -> fn (times l) = (Nat.eqb (S l) (i + j), times (S l))) ->
    bounded_loop m body (false, times i, a, c) = (true, times (i + j)%nat, march one_step transform (map times (seq i (S j))) c a, (c + j)%nat).
  Proof.
    induction j as [|j IH]; intros i m a c [J M] H; [lia|]. destruct m as [|m]; [lia|].
    cbn [bounded_loop]. unfold body at 2, loop_body. rewrite (H i) by lia.
    destruct (Nat.eqb_spec (S i) (i + S j)) as [E|E].
    - assert (j = 0%nat) by lia. subst j. replace (i + 1)%nat with (S i) by lia. destruct m; cbn; repeat f_equal; lia.
    - rewrite IH; [|lia|].
      + replace (S i + j)%nat with (i + S j)%nat by lia. replace (S c + j)%nat with (c + S j)%nat by lia. reflexivity.
      + intros l L. rewrite H by lia. replace (S i + j)%nat with (i + S j)%nat by lia. reflexivity.
  Qed.
  Lemma bounded_cut (times : nat -> T) m : forall i a c,
    (forall l, (i <= l < i + m)%nat -> fn (times l) = (false, times (S l))) ->
    bounded_loop m body (false, times i, a, c) = (false, times (i + m)%nat, march one_step transform (map times (seq i (S m))) c a, (c + m)%nat).
  Proof.
    induction m as [|m IH]; intros i a c H.
    - cbn. repeat f_equal; lia.
    - cbn [bounded_loop]. unfold body at 2, loop_body. rewrite (H i) by lia. rewrite IH by (intros l L; apply H; lia).
      replace (S i + m)%nat with (i + S m)%nat by lia. replace (S c + m)%nat with (c + S m)%nat by lia. reflexivity.
  Qed.
  Lemma unbounded_path (times : nat -> T) j : forall i m a c, (1 <= j <= m)%nat ->
    (forall l, (i <= l < i + j)%nat -> fn (times l) = (Nat.eqb (S l) (i + j), times (S l))) ->
    unbounded_loop m body (false, times i, a, c) = Some (true, times (i + j)%nat, march one_step transform (map times (seq i (S j))) c a, (c + j)%nat).
  Proof.
    induction j as [|j IH]; intros i m a c [J M] H; [lia|]. destruct m as [|m]; [lia|].
    cbn [unbounded_loop]. unfold body at 2, loop_body. rewrite (H i) by lia.
    destruct (Nat.eqb_spec (S i) (i + S j)) as [E|E].
    - assert (j = 0%nat) by lia. subst j. replace (i + 1)%nat with (S i) by lia. destruct m; cbn; repeat f_equal; lia.
    - rewrite IH; [|lia|].
      + replace (S i + j)%nat with (i + S j)%nat by lia. replace (S c + j)%nat with (c + S j)%nat by lia. reflexivity.
      + intros l L. rewrite H by lia. replace (S i + j)%nat with (i + S j)%nat by lia. reflexivity.
  Qed.
End Loop.

Lemma backward_real t dt e : backward_fn real t dt e = (if Rle_dec (Rmax e (t - dt)) e then true else false, Rmax e (t - dt)).
Proof. reflexivity. Qed.
Lemma forward_real t dt e : forward_fn real t dt e = (if Rle_dec e (Rmin e (t + dt)) then true else false, Rmin e (t + dt)).
Proof. reflexivity. Qed.
Lemma rmin_neg a b : Rmin a b = - Rmax (- a) (- b).
Proof. unfold Rmin, Rmax. destruct (Rle_dec a b), (Rle_dec (- a) (- b)); lra. Qed.
Lemma fixed_times (e s dt : R) (k : nat) (T : nat -> R) : (forall i, T i = Rmax e (s - INR i * dt)) -> 0 < dt -> (1 <= k)%nat -> s - INR k * dt <= e -> e < s - (INR k - 1) * dt ->
  T 0%nat = s /\ T k = e /\ (forall i, (i < k)%nat -> T i = s - INR i * dt /\ e < T i)
  /\ forall i, (i < k)%nat -> Rmax e (T i - dt) = T (S i) /\ ((if Rle_dec (T (S i)) e then true else false) = Nat.eqb (S i) k).
Proof.
  intros HT P K U V.
  assert (B : forall i, (i < k)%nat -> T i = s - INR i * dt /\ e < T i).
  { intros i I. assert (INR i <= INR k - 1) by (pose proof (le_INR (S i) k ltac:(lia)) as LE; rewrite S_INR in LE; lra).
    assert (0 <= (INR k - 1 - INR i) * dt) by (apply Rmult_le_pos; lra).
    rewrite HT, Rmax_right by lra. split; [reflexivity|lra]. }
  assert (E : T k = e) by (rewrite HT; apply Rmax_left; exact U).
  split; [|split; [exact E|split; [exact B|]]].
  - destruct (B 0%nat ltac:(lia)) as [B0 _]. rewrite B0. cbn [INR]. ring.
  - intros i I. destruct (B i I) as [B1 B2]. assert (N : Rmax e (T i - dt) = T (S i)) by (rewrite B1, HT; f_equal; rewrite S_INR; ring).
    split; [exact N|]. destruct (Nat.eqb_spec (S i) k) as [Q|Q].
    + rewrite Q, E. destruct (Rle_dec e e); [reflexivity|lra].
    + destruct (B (S i) ltac:(lia)) as [_ B3]. destruct (Rle_dec (T (S i)) e); [lra|reflexivity].
Qed.

Section Theorems.
  Context {A : Type} (one_step : R -> R -> nat -> A -> A) (transform : R -> A -> A) (maximum_steps : option nat) (fuel count : nat) (a : A).
  (** Backward with a number of steps: exactly that many equal steps, the last of
      them ending exactly at end_time. *)
  Theorem C49_backward_num_steps (start end_ : R) (k : nat) : 0 <= end_ < start -> (1 <= k)%nat ->
    let times := map (fun i => start - INR i * ((start - end_) / INR k)) (seq 0 (S k)) in
    solve_backward real start end_ a (Some k) count None one_step transform maximum_steps fuel
      = Some (march one_step transform times count a, end_, (count + k)%nat)
    /\ last times 0 = end_.
  Proof.
    intros H K times. set (dt := (start - end_) / INR k). assert (PK : 0 < INR k) by (apply lt_0_INR; lia).
    assert (P : 0 < dt) by (apply Rdiv_lt_0_compat; lra). assert (Q : INR k * dt = start - end_) by (unfold dt; field; lra).
    set (T := fun i => Rmax end_ (start - INR i * dt)).
    destruct (fixed_times end_ start dt k T (fun _ => eq_refl) P K ltac:(lra) ltac:(lra)) as (T0 & Tk & TB & TS).
    assert (ET : times = map T (seq 0 (S k))).
    { unfold times. apply map_ext_in. intros i I. apply in_seq in I. fold dt. destruct (Nat.eq_dec i k) as [->|NE]; [rewrite Tk; lra|]. symmetry. apply TB. lia. }
    split.
    - unfold solve_backward. cbn [minimum maximum zero_ real]. rewrite (Rmin_left end_ start), (Rmax_left end_ 0) by lra.
      unfold solve, time_steps_info. cbn [equal_ abs_ minus_ over_ of_nat real]. destruct (Req_EM_T start end_); [lra|].
      rewrite (Rabs_left1 (end_ - start)) by lra. replace (- (end_ - start) / INR k) with dt by (unfold dt; f_equal; ring). rewrite <- T0 at 1.
      rewrite (bounded_path _ one_step transform T k 0 k a count) by (try lia; intros l L; rewrite backward_real; destruct (TS l ltac:(lia)) as [N S0]; rewrite N, S0; reflexivity).
      cbn [Nat.add]. rewrite Tk, <- ET. reflexivity.
    - rewrite ET, seq_S, map_app. cbn [map Nat.add]. rewrite last_last. exact Tk.
  Qed.
  (** Backward with a fixed time step: steps of that length, except that the last
      one is cut off to end exactly at end_time; the number of steps is the
      smallest that suffices. *)
  Theorem C49_backward_time_step (start end_ dt : R) : 0 <= end_ < start -> 0 < dt ->
    exists k, (1 <= k)%nat /\ (INR k - 1) * dt < start - end_ <= INR k * dt
    /\ solve_backward real start end_ a None count (Some (FixedStep dt)) one_step transform maximum_steps fuel
      = Some (march one_step transform (map (fun i => start - INR i * dt) (seq 0 k) ++ [end_]) count a, end_, (count + k)%nat).
  Proof.
    intros H P. pose proof (ceil_bounds ((start - end_) / dt)) as [C1 C2].
    assert (PQ : 0 < (start - end_) / dt) by (apply Rdiv_lt_0_compat; lra).
    assert (CP : (0 < ceil ((start - end_) / dt))%Z) by (apply lt_IZR; lra).
    set (k := Z.to_nat (ceil ((start - end_) / dt))). assert (K : (1 <= k)%nat) by (unfold k; lia).
    assert (IK : INR k = IZR (ceil ((start - end_) / dt))) by (unfold k; rewrite INR_IZR_INZ, Z2Nat.id by lia; reflexivity).
    assert (QQ : (start - end_) / dt * dt = start - end_) by (field; lra).
    assert (U : start - end_ <= INR k * dt) by (rewrite <- QQ, IK; apply Rmult_le_compat_r; lra).
    assert (V : (INR k - 1) * dt < start - end_) by (rewrite <- QQ, IK; apply Rmult_lt_compat_r; lra).
    exists k. split; [exact K|]. split; [lra|].
    set (T := fun i => Rmax end_ (start - INR i * dt)).
    destruct (fixed_times end_ start dt k T (fun _ => eq_refl) P K ltac:(lra) ltac:(lra)) as (T0 & Tk & TB & TS).
    unfold solve_backward. cbn [minimum maximum zero_ real]. rewrite (Rmin_left end_ start), (Rmax_left end_ 0) by lra.
    unfold solve, time_steps_info. cbn [equal_ abs_ minus_ over_ of_nat ceil_nat real]. destruct (Req_EM_T start end_); [lra|].
    rewrite (Rabs_left1 (end_ - start)) by lra. replace (- (end_ - start)) with (start - end_) by ring. fold k. rewrite <- T0 at 1.
    rewrite (bounded_path _ one_step transform T k 0 k a count) by (try lia; intros l L; rewrite backward_real; destruct (TS l ltac:(lia)) as [N S0]; rewrite N, S0; reflexivity).
    cbn [Nat.add]. rewrite Tk. rewrite seq_S, map_app. cbn [map Nat.add]. rewrite Tk.
    replace (map T (seq 0 k)) with (map (fun i => start - INR i * dt) (seq 0 k)); [reflexivity|]. apply map_ext_in. intros i I. apply in_seq in I. symmetry. apply TB. lia.
  Qed.
  (** the same forward in time *)
  Theorem C49_forward_num_steps (start end_ : R) (k : nat) : start < end_ -> (1 <= k)%nat ->
    let times := map (fun i => start + INR i * ((end_ - start) / INR k)) (seq 0 (S k)) in
    solve_forward real start end_ a (Some k) count None one_step transform maximum_steps fuel
      = Some (march one_step transform times count a, end_, (count + k)%nat)
    /\ last times 0 = end_.
  Proof.
    intros H K times. set (dt := (end_ - start) / INR k). assert (PK : 0 < INR k) by (apply lt_0_INR; lia).
    assert (P : 0 < dt) by (apply Rdiv_lt_0_compat; lra). assert (Q : INR k * dt = end_ - start) by (unfold dt; field; lra).
    set (T' := fun i => Rmax (- end_) (- start - INR i * dt)). set (T := fun i => - T' i).
    destruct (fixed_times (- end_) (- start) dt k T' (fun _ => eq_refl) P K ltac:(lra) ltac:(lra)) as (T0 & Tk & TB & TS).
    assert (ET : times = map T (seq 0 (S k))).
    { unfold times. apply map_ext_in. intros i I. apply in_seq in I. fold dt. unfold T. destruct (Nat.eq_dec i k) as [->|NE]; [rewrite Tk; lra|]. destruct (TB i ltac:(lia)) as [B _]. rewrite B. ring. }
    assert (EK : T k = end_) by (unfold T; rewrite Tk; ring). assert (E0 : T 0%nat = start) by (unfold T; rewrite T0; ring).
    split.
    - unfold solve_forward. cbn [minimum maximum zero_ real]. rewrite (Rmax_left end_ start) by lra.
      unfold solve, time_steps_info. cbn [equal_ abs_ minus_ over_ of_nat real]. destruct (Req_EM_T start end_); [lra|].
      rewrite (Rabs_pos_eq (end_ - start)) by lra. fold dt. rewrite <- E0 at 1.
      rewrite (bounded_path _ one_step transform T k 0 k a count); [cbn [Nat.add]; rewrite EK, <- ET; reflexivity|lia|].
      intros l L. rewrite forward_real, rmin_neg. destruct (TS l ltac:(lia)) as [N S0]. cbn [Nat.add]. rewrite <- S0.
      replace (- (T l + dt)) with (T' l - dt) by (unfold T; ring). rewrite N. fold (T (S l)). unfold T.
      destruct (Rle_dec end_ (- T' (S l))), (Rle_dec (T' (S l)) (- end_)); try lra; reflexivity.
    - rewrite ET, seq_S, map_app. cbn [map Nat.add]. rewrite last_last. exact EK.
  Qed.
  Theorem C49_forward_time_step (start end_ dt : R) : start < end_ -> 0 < dt ->
    exists k, (1 <= k)%nat /\ (INR k - 1) * dt < end_ - start <= INR k * dt
    /\ solve_forward real start end_ a None count (Some (FixedStep dt)) one_step transform maximum_steps fuel
      = Some (march one_step transform (map (fun i => start + INR i * dt) (seq 0 k) ++ [end_]) count a, end_, (count + k)%nat).
  Proof.
    intros H P. pose proof (ceil_bounds ((end_ - start) / dt)) as [C1 C2].
    assert (PQ : 0 < (end_ - start) / dt) by (apply Rdiv_lt_0_compat; lra).
    assert (CP : (0 < ceil ((end_ - start) / dt))%Z) by (apply lt_IZR; lra).
    set (k := Z.to_nat (ceil ((end_ - start) / dt))). assert (K : (1 <= k)%nat) by (unfold k; lia).
    assert (IK : INR k = IZR (ceil ((end_ - start) / dt))) by (unfold k; rewrite INR_IZR_INZ, Z2Nat.id by lia; reflexivity).
    assert (QQ : (end_ - start) / dt * dt = end_ - start) by (field; lra).
    assert (U : end_ - start <= INR k * dt) by (rewrite <- QQ, IK; apply Rmult_le_compat_r; lra).
    assert (V : (INR k - 1) * dt < end_ - start) by (rewrite <- QQ, IK; apply Rmult_lt_compat_r; lra).
    exists k. split; [exact K|]. split; [lra|].
    set (T' := fun i => Rmax (- end_) (- start - INR i * dt)). set (T := fun i => - T' i).
    destruct (fixed_times (- end_) (- start) dt k T' (fun _ => eq_refl) P K ltac:(lra) ltac:(lra)) as (T0 & Tk & TB & TS).
    assert (EK : T k = end_) by (unfold T; rewrite Tk; ring). assert (E0 : T 0%nat = start) by (unfold T; rewrite T0; ring).
    unfold solve_forward. cbn [minimum maximum zero_ real]. rewrite (Rmax_left end_ start) by lra.
    unfold solve, time_steps_info. cbn [equal_ abs_ minus_ over_ of_nat ceil_nat real]. destruct (Req_EM_T start end_); [lra|].
    rewrite (Rabs_pos_eq (end_ - start)) by lra. fold k. rewrite <- E0 at 1.
    rewrite (bounded_path _ one_step transform T k 0 k a count); [|lia|].
    - cbn [Nat.add]. rewrite EK. rewrite seq_S, map_app. cbn [map Nat.add]. rewrite EK.
      replace (map T (seq 0 k)) with (map (fun i => start + INR i * dt) (seq 0 k)); [reflexivity|]. apply map_ext_in. intros i I. apply in_seq in I. unfold T. destruct (TB i ltac:(lia)) as [B _]. rewrite B. ring.
    - intros l L. rewrite forward_real, rmin_neg. destruct (TS l ltac:(lia)) as [N S0]. cbn [Nat.add]. rewrite <- S0.
      replace (- (T l + dt)) with (T' l - dt) by (unfold T; ring). rewrite N. unfold T.
      destruct (Rle_dec end_ (- T' (S l))), (Rle_dec (T' (S l)) (- end_)); try lra; reflexivity.
  Qed.
  (** No steps are taken when end_time is on the wrong side of start_time or
      equal to it; giving both or neither of num_steps and time_step is an error. *)
  Definition exactly_one {B C} (x : option B) (y : option C) : Prop := match x, y with Some _, None | None, Some _ => True | _, _ => False end.
  Theorem C49_no_steps (start end_ : R) k ts :
    (0 <= start <= end_ -> exactly_one k ts ->
       solve_backward real start end_ a k count ts one_step transform maximum_steps fuel = Some (a, start, count))
    /\ (end_ <= start -> exactly_one k ts ->
       solve_forward real start end_ a k count ts one_step transform maximum_steps fuel = Some (a, start, count))
    /\ (~ exactly_one k ts ->
       solve_backward real start end_ a k count ts one_step transform maximum_steps fuel = None
       /\ solve_forward real start end_ a k count ts one_step transform maximum_steps fuel = None).
  Proof.
    assert (G : forall dir e, e = start -> exactly_one k ts -> solve real dir start e a k count ts one_step transform maximum_steps fuel = Some (a, start, count)).
    { intros dir e -> X. unfold solve. cbn [equal_ real]. destruct (Req_EM_T start start); [|lra].
      destruct k as [k0|], ts as [[dt|f]|]; cbn [time_steps_info exactly_one] in *; try contradiction; try (destruct maximum_steps).
      all: try (match goal with |- context[bounded_loop ?m _ _] => destruct m; reflexivity end). all: destruct fuel; reflexivity. }
    split; [|split].
    - intros H. apply G. cbn [minimum maximum zero_ real]. rewrite (Rmin_right end_ start), (Rmax_left start 0) by lra. reflexivity.
    - intros H. apply G. cbn [minimum maximum zero_ real]. rewrite (Rmax_right end_ start) by lra. reflexivity.
    - intros X. unfold solve_backward, solve_forward, solve. destruct k as [k0|], ts as [[dt|f]|]; cbn [time_steps_info exactly_one] in *; try (exfalso; apply X; exact Logic.I); split; reflexivity.
  Qed.

  (** Backward with a callable time step bounded below by a positive number: the
      times follow max(end_time, t - dt(t)), strictly decrease and reach end_time
      exactly, after which the loop stops.  With maximum_steps = m and fewer than
      all the steps allowed, exactly the first m steps are taken. *)
  Fixpoint follow (f : R -> R) (start end_ : R) (i : nat) : R :=
    match i with O => start | S j => Rmax end_ (follow f start end_ j - f (follow f start end_ j)) end.
  Lemma follow_reaches (f : R -> R) (start end_ delta : R) : 0 < delta -> end_ < start -> (forall t, end_ <= t <= start -> delta <= f t) ->
    exists k, (1 <= k)%nat /\ follow f start end_ k = end_ /\ forall i, (i < k)%nat -> end_ < follow f start end_ i <= start /\ follow f start end_ (S i) < follow f start end_ i.
  Proof.
    intros P H F. set (T := follow f start end_).
    assert (B : forall i, end_ <= T i <= start /\ (T i <= Rmax end_ (start - INR i * delta))).
    { induction i as [|i [IH1 IH2]]; [cbn; split; [lra|]; replace (start - 0 * delta) with start by ring; apply Rmax_r|].
      change (T (S i)) with (Rmax end_ (T i - f (T i))). specialize (F (T i) IH1). rewrite S_INR. split.
      - split; [apply Rmax_l|apply Rmax_lub; lra].
      - apply Rmax_lub; [apply Rmax_l|]. destruct (Rle_lt_dec (start - INR i * delta) end_) as [L|L].
        + rewrite Rmax_left in IH2 by exact L. apply (Rle_trans _ end_); [lra|apply Rmax_l].
        + rewrite Rmax_right in IH2 by lra. apply (Rle_trans _ (start - (INR i + 1) * delta)); [lra|apply Rmax_r]. }
    assert (E : exists k, T k <= end_).
    { assert (Hk : exists k, (start - end_) / delta <= INR k).
      { exists (Z.to_nat (ceil ((start - end_) / delta))). pose proof (ceil_bounds ((start - end_) / delta)) as C. assert (0 < (start - end_) / delta) by (apply Rdiv_lt_0_compat; lra).
        assert (0 < ceil ((start - end_) / delta))%Z by (apply lt_IZR; lra). rewrite INR_IZR_INZ, Z2Nat.id by lia. lra. }
      destruct Hk as [k Hk]. exists k. destruct (B k) as [_ B2]. rewrite Rmax_left in B2; [exact B2|].
      assert ((start - end_) / delta * delta <= INR k * delta) by (apply Rmult_le_compat_r; lra). replace ((start - end_) / delta * delta) with (start - end_) in * by (field; lra). lra. }
    destruct E as [k0 E0].
    assert (L : forall m, (exists k, (k <= m)%nat /\ T k <= end_ /\ forall i, (i < k)%nat -> end_ < T i) \/ forall i, (i <= m)%nat -> end_ < T i).
    { induction m as [|m IH].
      - right. intros i I. replace i with 0%nat by lia. exact H.
      - destruct IH as [(k & K1 & K2 & K3)|IH]; [left; exists k; split; [lia|auto]|]. destruct (Rle_lt_dec (T (S m)) end_) as [Q|Q].
        + left. exists (S m). split; [lia|]. split; [exact Q|]. intros i I. apply IH. lia.
        + right. intros i I. destruct (Nat.eq_dec i (S m)) as [->|]; [exact Q|apply IH; lia]. }
    destruct (L k0) as [(k & _ & K2 & K3)|Z]; [|specialize (Z k0 ltac:(lia)); lra].
    exists k. split; [destruct k; [change (T 0%nat) with start in K2; lra|lia]|]. split; [destruct (B k); unfold T in *; lra|].
    intros i I. specialize (K3 i I). destruct (B i) as [B1 _]. split; [unfold T in *; lra|]. change (Rmax end_ (T i - f (T i)) < T i). specialize (F (T i) B1). apply Rmax_lub_lt; lra.
  Qed.
  Theorem C49_backward_callable (f : R -> R) (start end_ delta : R) : 0 <= end_ < start -> 0 < delta -> (forall t, end_ <= t <= start -> delta <= f t) ->
    let T := follow f start end_ in
    exists k, (1 <= k)%nat /\ T k = end_ /\ (forall i, (i < k)%nat -> end_ < T i <= start /\ T (S i) < T i)
      /\ (forall n, (k <= n)%nat -> solve_backward real start end_ a None count (Some (StepFn f)) one_step transform None n
            = Some (march one_step transform (map T (seq 0 (S k))) count a, end_, (count + k)%nat))
      /\ forall m, let n := Nat.min m k in solve_backward real start end_ a None count (Some (StepFn f)) one_step transform (Some m) fuel
            = Some (march one_step transform (map T (seq 0 (S n))) count a, T n, (count + n)%nat).
  Proof.
    intros H P F T. destruct (follow_reaches f start end_ delta P ltac:(lra) F) as (k & K & TK & TB). fold T in TK, TB.
    exists k. split; [exact K|]. split; [exact TK|]. split; [exact TB|].
    assert (FN : forall l, (l < k)%nat -> backward_fn real (T l) (f (T l)) end_ = (Nat.eqb (S l) k, T (S l))).
    { intros l L. rewrite backward_real. change (Rmax end_ (T l - f (T l))) with (T (S l)). destruct (Nat.eqb_spec (S l) k) as [Q|Q].
      - rewrite Q, TK. destruct (Rle_dec end_ end_); [reflexivity|lra].
      - destruct (TB (S l) ltac:(lia)) as [[B _] _]. destruct (Rle_dec (T (S l)) end_); [lra|reflexivity]. }
    split.
    - intros n N. unfold solve_backward. cbn [minimum maximum zero_ real]. rewrite (Rmin_left end_ start), (Rmax_left end_ 0) by lra.
      unfold solve, time_steps_info. cbn [equal_ real]. destruct (Req_EM_T start end_); [lra|]. change start with (T 0%nat) at 1.
      rewrite (unbounded_path _ one_step transform T k 0 n a count); [|lia|intros l L; apply FN; lia]. cbn [Nat.add]. rewrite TK. reflexivity.
    - intros m n. unfold solve_backward. cbn [minimum maximum zero_ real]. rewrite (Rmin_left end_ start), (Rmax_left end_ 0) by lra.
      unfold solve, time_steps_info. cbn [equal_ real]. destruct (Req_EM_T start end_); [lra|]. change start with (T 0%nat) at 1. unfold n.
      destruct (le_lt_dec k m) as [L|L].
      + rewrite Nat.min_r by exact L. rewrite (bounded_path _ one_step transform T k 0 m a count); [|lia|intros l Q; apply FN; lia]. reflexivity.
      + rewrite Nat.min_l by lia. rewrite (bounded_cut _ one_step transform T m 0 a count); [reflexivity|].
        intros l Q. rewrite FN by lia. destruct (Nat.eqb_spec (S l) k); [lia|reflexivity].
  Qed.
  (** the same forward in time *)
  Theorem C49_forward_callable (f : R -> R) (start end_ delta : R) : start < end_ -> 0 < delta -> (forall t, start <= t <= end_ -> delta <= f t) ->
    let T := fun i => - follow (fun t => f (- t)) (- start) (- end_) i in
    T 0%nat = start /\ (forall i, T (S i) = Rmin end_ (T i + f (T i)))
    /\ exists k, (1 <= k)%nat /\ T k = end_ /\ (forall i, (i < k)%nat -> start <= T i < end_ /\ T i < T (S i))
      /\ (forall n, (k <= n)%nat -> solve_forward real start end_ a None count (Some (StepFn f)) one_step transform None n
            = Some (march one_step transform (map T (seq 0 (S k))) count a, end_, (count + k)%nat))
      /\ forall m, let n := Nat.min m k in solve_forward real start end_ a None count (Some (StepFn f)) one_step transform (Some m) fuel
            = Some (march one_step transform (map T (seq 0 (S n))) count a, T n, (count + n)%nat).
  Proof.
    intros H P F T. assert (T0 : T 0%nat = start) by (unfold T; cbn [follow]; ring).
    assert (TN : forall i, T (S i) = Rmin end_ (T i + f (T i))).
    { intros i. rewrite rmin_neg. unfold T. cbn [follow]. f_equal. f_equal. ring. }
    split; [exact T0|]. split; [exact TN|].
    destruct (follow_reaches (fun t => f (- t)) (- start) (- end_) delta P ltac:(lra)) as (k & K & TK & TB); [intros t Q; apply F; lra|].
    assert (EK : T k = end_) by (unfold T; rewrite TK; ring).
    assert (TB' : forall i, (i < k)%nat -> start <= T i < end_ /\ T i < T (S i)) by (intros i I; destruct (TB i I); unfold T; lra).
    exists k. split; [exact K|]. split; [exact EK|]. split; [exact TB'|].
    assert (FN : forall l, (l < k)%nat -> forward_fn real (T l) (f (T l)) end_ = (Nat.eqb (S l) k, T (S l))).
    { intros l L. rewrite forward_real, <- TN. destruct (Nat.eqb_spec (S l) k) as [Q|Q].
      - rewrite Q, EK. destruct (Rle_dec end_ end_); [reflexivity|lra].
      - destruct (TB' (S l) ltac:(lia)) as [[_ B] _]. destruct (Rle_dec end_ (T (S l))); [lra|reflexivity]. }
    split.
    - intros n N. unfold solve_forward. cbn [minimum maximum zero_ real]. rewrite (Rmax_left end_ start) by lra.
      unfold solve, time_steps_info. cbn [equal_ real]. destruct (Req_EM_T start end_); [lra|]. rewrite <- T0 at 1.
      rewrite (unbounded_path _ one_step transform T k 0 n a count); [|lia|intros l L; apply FN; lia]. cbn [Nat.add]. rewrite EK. reflexivity.
    - intros m n. unfold solve_forward. cbn [minimum maximum zero_ real]. rewrite (Rmax_left end_ start) by lra.
      unfold solve, time_steps_info. cbn [equal_ real]. destruct (Req_EM_T start end_); [lra|]. rewrite <- T0 at 1. unfold n.
      destruct (le_lt_dec k m) as [L|L].
      + rewrite Nat.min_r by exact L. rewrite (bounded_path _ one_step transform T k 0 m a count); [|lia|intros l Q; apply FN; lia]. reflexivity.
      + rewrite Nat.min_l by lia. rewrite (bounded_cut _ one_step transform T m 0 a count); [reflexivity|].
        intros l Q. rewrite FN by lia. destruct (Nat.eqb_spec (S l) k); [lia|reflexivity].
  Qed.
End Theorems.
Print Assumptions C49_backward_num_steps.
Print Assumptions C49_backward_time_step.
Print Assumptions C49_forward_num_steps.
Print Assumptions C49_forward_time_step.
Print Assumptions C49_no_steps.
Print Assumptions C49_backward_callable.
Print Assumptions C49_forward_callable.

(** From 1 to 0 in steps of 0.4: at 0.6, 0.2 and 0, the last step cut to 0.2;
    the loop state here records the times of the steps. *)
Example three_steps (n : nat) :
  exists k, solve_backward real 1 0 [] None 0 (Some (FixedStep (2 / 5))) (fun t t' _ l => l ++ [t']) (fun _ l => l) None n
    = Some ([1 - INR 1 * (2 / 5); 1 - INR 2 * (2 / 5); 0], 0, k).
Proof.
  destruct (C49_backward_time_step (fun t t' _ l => l ++ [t']) (fun _ l => l) None n 0 [] 1 0 (2 / 5) ltac:(lra) ltac:(lra)) as (k & K & [U V] & E).
  assert (k = 3)%nat.
  { assert (INR k < 4) by lra. assert (2 < INR k) by lra. replace 4 with (INR 4) in H by (cbn; ring). replace 2 with (INR 2) in H0 by (cbn; ring). apply INR_lt in H, H0. lia. }
  subst k. exists 3%nat. rewrite E. reflexivity.
Qed.

(** In binary64 the times are accumulated with rounding and the loop is stopped
    by its maximum number of iterations: solve_backward from 1 to 0 in 10 steps
    performs 10 steps and returns the values at time 2^-53 + 2^-55, not at 0. *)
Theorem C49_float_end_refuted :
  exists t, solve_backward float (float_of_Z 1) (float_of_Z 0) tt (Some 10%nat) 0 None (fun _ _ _ a => a) (fun _ a => a) None 0 = Some (tt, t, 10%nat)
    /\ B2R 53 1024 t = 5 / 2 ^ 55 /\ B2R 53 1024 (float_of_Z 0) = 0 /\ B2R 53 1024 (float_of_Z 1) = 1.
Proof.
  assert (E : match solve_backward float (float_of_Z 1) (float_of_Z 0) tt (Some 10%nat) 0 None (fun _ _ _ a => a) (fun _ a => a) None 0 with
    | Some (_, t, k) => Some (B2FF 53 1024 t, k) | None => None end = Some (F754_finite false 5629499534213120 (-105), 10%nat)) by (vm_compute; reflexivity).
  destruct (solve_backward _ _ _ _ _ _ _ _ _ _ _) as [[[[] t] k]|]; [|discriminate]. injection E as E ->.
  exists t. split; [reflexivity|]. rewrite <- !FF2R_B2FF, E.
  assert (E1 : B2FF 53 1024 (float_of_Z 1) = F754_finite false 4503599627370496 (-52)) by (vm_compute; reflexivity). rewrite E1.
  assert (E0 : B2FF 53 1024 (float_of_Z 0) = F754_zero false) by (vm_compute; reflexivity). rewrite E0.
  split; [|split; [reflexivity|]]; vm_compute; field.
Qed.
Print Assumptions C49_float_end_refuted.
