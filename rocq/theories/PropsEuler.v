(** C46: Euler sampling records the states of the Euler scheme at the requested
    times. *)
From Coq Require Import ZArith Reals List Bool Arith Lia Lra FunctionalExtensionality.
From Verif Require Import TensorModel TensorProofs SegmentModel BrentModel VarianceProofs LoopModel LoopProofs PropsLoop TimeGridModel TimeGridSpec TimeGridProofs PropsTimeGrid EulerModel EulerSpec.
Import ListNotations.
Open Scope R_scope.

Definition increasing_nat (l : list nat) : Prop := forall k, (S k < length l)%nat -> (nth k l 0 < nth (S k) l 0)%nat.
Lemma increasing_nat_lt l : increasing_nat l -> forall i j, (i < j)%nat -> (j < length l)%nat -> (nth i l 0 < nth j l 0)%nat.
Proof. intros H i j L K. induction L as [|j L IH]; [apply H; exact K|]. specialize (IH ltac:(lia)). specialize (H j K). lia. Qed.
Lemma increasing_nat_incr l : increasing_nat l -> incr_nat l.
Proof.
  induction l as [|a [|b l] IH]; intros H; cbn; [exact I|exact I|]. split; [apply (H 0%nat); cbn; lia|]. apply IH. intros k K. apply (H (S k)). cbn in *. lia.
Qed.

Lemma flag_le mask i : (flag mask i <= 1)%nat.
Proof. unfold flag. destruct (nth i mask false); lia. Qed.

Section Run.
Variables (p : process) (grid : list R) (z : nat -> samples) (x0 : samples).
Let X := end_path p (fun n => nth n grid 0) z x0.

Lemma diff_nth' l i : (S i < length l)%nat -> nth i (diff 1 true l) 0 = nth (S i) l 0 - nth i l 0.
Proof.
  revert i. induction l as [|x [|y l] IH]; intros i H; [cbn in H; lia|cbn in H; lia|]. rewrite diff_cons. destruct i; [reflexivity|].
  change (nth (S i) ((y - x) :: diff 1 true (y :: l)) 0) with (nth i (diff 1 true (y :: l)) 0). rewrite IH by (cbn in *; lia). reflexivity.
Qed.
Lemma diff_length' l : length (diff 1 true l) = pred (length l).
Proof.
  induction l as [|x [|y l] IH]; [reflexivity|reflexivity|]. rewrite diff_cons. cbn [length]. rewrite IH. reflexivity.
Qed.
Lemma step_is i : (S i < length grid)%nat -> euler_step p grid z i (X i) = X (S i).
Proof.
  intros H. change (X (S i)) with (increment p (nth (S i) grid 0) (nth i grid 0) (nth (S i) grid 0) (z i) (X i)).
  unfold euler_step, increment, dt, sqrt_dt, at_. rewrite Nat.add_1_r. rewrite diff_nth' by exact H.
  rewrite (nth_indep (map sqrt _) 0 (sqrt 0)) by (rewrite map_length; unfold dt; rewrite diff_length'; lia).
  rewrite map_nth. unfold dt. rewrite diff_nth' by exact H.
  extensionality s. extensionality c. cbv zeta. f_equal; [lra|]. apply rsum_ext. intros k _. ring.
Qed.

Variables (mask : list bool) (idx : list nat).
Hypotheses (Im : increasing_nat idx) (Mk : marks mask (length grid) idx) (Ne : idx <> []).
Let n := length idx.

Definition recorded_ok (w i : nat) (r : recorded) : Prop :=
  match r with
  | One x => n = 1%nat /\ x = X i
  | Slots l => n <> 1%nat /\ length l = n /\ forall k, (k < w)%nat -> nth_error l k = Some (Some (X (nth k idx 0%nat)))
  end.
Definition upto (w i : nat) : Prop := (w <= n)%nat /\ (forall k, (k < w)%nat -> (nth k idx 0 <= i)%nat) /\ (forall k, (w <= k < n)%nat -> (i < nth k idx 0)%nat).

Lemma flag_step w i : upto w i -> (S i < length grid)%nat ->
  upto (w + flag mask (i + 1)) (S i) /\ (flag mask (i + 1) = 1%nat -> (w < n)%nat /\ nth w idx 0%nat = S i).
Proof.
  intros (U1 & U2 & U3) L. destruct Mk as (M1 & M2 & M3). unfold flag. rewrite Nat.add_1_r. destruct (nth (S i) mask false) eqn:E.
  - apply M3 in E; [|exact L]. apply In_nth with (d := 0%nat) in E. destruct E as (k & K & E). fold n in K.
    assert (W : (w <= k)%nat). { destruct (le_lt_dec w k); [assumption|]. specialize (U2 k ltac:(lia)). lia. }
    assert (k = w). { destruct (Nat.eq_dec k w); [assumption|]. pose proof (increasing_nat_lt idx Im w k ltac:(lia) K). specialize (U3 w ltac:(lia)). lia. }
    subst k. split; [|intros _; split; assumption]. split; [lia|]. split.
    + intros k Q. destruct (Nat.eq_dec k w) as [->|]; [lia|]. specialize (U2 k ltac:(lia)). lia.
    + intros k Q. pose proof (increasing_nat_lt idx Im w k ltac:(lia) ltac:(unfold n in Q; lia)). lia.
  - split; [|discriminate]. rewrite Nat.add_0_r. split; [exact U1|]. split; [intros k Q; specialize (U2 k Q); lia|].
    intros k Q. specialize (U3 k Q). destruct (Nat.eq_dec (nth k idx 0%nat) (S i)) as [Q'|]; [|lia].
    assert (In (S i) idx) by (rewrite <- Q'; apply nth_In; unfold n in Q; lia). apply M3 in H; [congruence|exact L].
Qed.

Definition final (r : recorded) : option (list (option samples)) := match r with One x => Some [Some x] | Slots l => Some l end.
Definition wanted : list (option samples) := map (fun i => Some (X i)) idx.
Lemma wanted_one i : n = 1%nat -> nth 0 idx 0%nat = i -> wanted = [Some (X i)].
Proof. unfold n, wanted. destruct idx as [|a [|b l]]; try discriminate. cbn. intros _ ->. reflexivity. Qed.
Lemma wanted_slots l : length l = n -> (forall k, (k < n)%nat -> nth_error l k = Some (Some (X (nth k idx 0%nat)))) -> l = wanted.
Proof.
  intros L H. apply nth_error_ext'. intros k. unfold wanted. destruct (le_lt_dec n k) as [Q|Q].
  - rewrite !(proj2 (nth_error_None _ _)); [reflexivity|rewrite map_length; exact Q|lia].
  - rewrite (H k Q). rewrite nth_error_map, (nth_error_nth' idx 0%nat) by exact Q. reflexivity.
Qed.

Lemma while_ok : forall fuel i w r, (i + fuel = steps_num grid)%nat -> (S (i + fuel) = length grid)%nat -> upto w i -> recorded_ok w i r ->
  (n = 1%nat -> w = 1%nat -> nth 0 idx 0%nat = i) ->
  exists r', while_euler p grid z mask n fuel i w (X i) r = Some r' /\ final r' = Some wanted.
Proof.
  induction fuel as [|fuel IH]; intros i w r F G U R1 R2.
  - exists r. split; [reflexivity|].
    (* all marks have been passed *)
    assert (w = n). { destruct U as (U1 & U2 & U3). destruct (Nat.eq_dec w n); [assumption|]. specialize (U3 w ltac:(lia)).
      destruct Mk as (M1 & M2 & M3). specialize (M2 (nth w idx 0%nat) ltac:(apply nth_In; fold n; lia)). lia. }
    subst w. destruct r as [x|l]; cbn [final recorded_ok] in *.
    + destruct R1 as [R1 ->]. f_equal. symmetry. apply wanted_one; [exact R1|]. apply R2; exact R1.
    + destruct R1 as (R1 & R3 & R4). f_equal. apply wanted_slots; assumption.
  - cbn [while_euler]. replace (Nat.ltb i (steps_num grid)) with true by (symmetry; apply Nat.ltb_lt; lia). cbn [andb].
    destruct (Nat.ltb_spec w n) as [W|W].
    + rewrite step_is by lia. pose proof (flag_le mask (i + 1)) as FL. destruct (flag_step w i U ltac:(lia)) as [U' FW].
      assert (RS : exists r', record_state r w (X (S i)) = Some r' /\ recorded_ok (w + flag mask (i + 1)) (S i) r').
      { destruct r as [x|l]; cbn [record_state recorded_ok] in *.
        - exists (One (X (S i))). split; [reflexivity|]. destruct R1. split; [assumption|reflexivity].
        - destruct R1 as (R1 & R3 & R4). destruct (acc_write_ok l w (X (S i)) ltac:(lia)) as (l' & W1 & W2 & W3 & W4). rewrite W1. exists (Slots l').
          split; [reflexivity|]. split; [exact R1|]. split; [lia|]. intros k K. destruct (Nat.eq_dec k w) as [->|D].
          + rewrite W3. destruct (FW ltac:(lia)) as [_ ->]. reflexivity.
          + rewrite W4 by exact D. apply R4. lia. }
      destruct RS as (r' & RS1 & RS2). rewrite RS1. clear RS1. rewrite (Nat.add_1_r i) in *. apply IH; [lia|lia|exact U'|exact RS2|].
      intros N1 W1. assert (w = 0%nat) by lia. subst w. destruct (FW ltac:(lia)) as [_ F2]. exact F2.
    + exists r. split; [reflexivity|]. assert (w = n) by (destruct U; lia). subst w. destruct r as [x|l]; cbn [final recorded_ok] in *.
      * destruct R1 as [R1 ->]. f_equal. symmetry. apply wanted_one; [exact R1|]. apply R2; exact R1.
      * destruct R1 as (R1 & R3 & R4). f_equal. apply wanted_slots; assumption.
Qed.

Lemma run_while_ok : run_while p grid z mask n x0 = Some wanted.
Proof.
  assert (Np : (0 < n)%nat) by (unfold n; destruct idx; [contradiction|cbn; lia]).
  assert (Gp : (0 < length grid)%nat). { destruct Mk as (_ & M2 & _). specialize (M2 (nth 0 idx 0%nat) ltac:(apply nth_In; exact Np)). lia. }
  assert (U : upto (0 + flag mask 0) 0 /\ (flag mask 0 = 1%nat -> nth 0 idx 0%nat = 0%nat)).
  { destruct Mk as (M1 & M2 & M3). unfold flag. destruct (nth 0 mask false) eqn:E; cbn [plus].
    - apply M3 in E; [|exact Gp]. apply In_nth with (d := 0%nat) in E. destruct E as (k & K & E). fold n in K.
      assert (k = 0%nat). { destruct k; [reflexivity|]. pose proof (increasing_nat_lt idx Im 0 (S k) ltac:(lia) K). lia. }
      subst k. split; [|intros _; exact E]. split; [lia|]. split; [intros k Q; replace k with 0%nat by lia; lia|].
      intros k Q. pose proof (increasing_nat_lt idx Im 0 k ltac:(lia) ltac:(unfold n in Q; lia)). lia.
    - split; [|discriminate]. split; [lia|]. split; [intros k Q; lia|]. intros k Q. destruct (Nat.eq_dec (nth k idx 0%nat) 0) as [Q'|]; [|lia].
      assert (In 0%nat idx) by (rewrite <- Q'; apply nth_In; unfold n in Q; lia). apply M3 in H; [congruence|exact Gp]. }
  destruct U as [U1 U2]. unfold run_while.
  assert (S : exists r, (if Nat.eqb n 1 then Some (One x0) else record_state (Slots (repeat None n)) 0 x0) = Some r /\ recorded_ok (0 + flag mask 0) 0 r).
  { destruct (Nat.eqb_spec n 1) as [E|E].
    - exists (One x0). split; [reflexivity|]. split; [exact E|reflexivity].
    - cbn [record_state]. destruct (acc_write_ok (repeat None n) 0 x0) as (l & W1 & W2 & W3 & W4); [rewrite repeat_length; exact Np|]. rewrite W1.
      exists (Slots l). split; [reflexivity|]. split; [exact E|]. split; [rewrite W2, repeat_length; reflexivity|]. intros k K.
      assert (k = 0%nat /\ flag mask 0 = 1%nat) as [-> K1]. { unfold flag in *. destruct (nth 0 mask false); cbn in *; lia. }
      rewrite W3, (U2 K1). reflexivity. }
  destruct S as (r & S1 & S2). rewrite S1.
  destruct (while_ok (steps_num grid) 0 (0 + flag mask 0) r) as (r' & W1 & W2).
  - lia.
  - unfold steps_num, dt. rewrite diff_length'. cbn. lia.
  - exact U1.
  - exact S2.
  - intros _ Q. apply U2. exact Q.
  - change (X 0) with x0 in W1. rewrite W1. exact W2.
Qed.

Lemma run_for_ok : run_for p grid z idx x0 = Some wanted.
Proof.
  unfold run_for. destruct (C24_accumulating (euler_step p grid z) x0 idx Ne (increasing_nat_incr idx Im)) as (l & E1 & E2 & E3). rewrite E1. f_equal.
  apply wanted_slots; [exact E2|]. intros k K. rewrite (E3 k (nth k idx 0%nat)) by (apply nth_error_nth'; exact K). do 2 f_equal.
  assert (B : (nth k idx 0 < length grid)%nat) by (apply Mk, nth_In, K).
  revert B. generalize (nth k idx 0%nat). intros m. induction m as [|m IHm]; intros B; [reflexivity|]. cbn [after]. rewrite IHm by lia. apply step_is. exact B.
Qed.
End Run.

(** Whatever grid is used: if the indices of the requested times are increasing,
    both loops return, at each requested time, the state reached by the scheme at
    the grid point of that time. *)
Lemma euler_on_grid : forall p times time_step num_time_steps times_grid tol validate watch z x0 step grid mask idx,
  euler_sample p times time_step num_time_steps times_grid tol validate watch z x0 =
    (if watch then run_for p grid z idx x0 else run_while p grid z mask (length times) x0) ->
  prepare_grid times step tol num_time_steps times_grid = Some (grid, mask, idx) ->
  idx <> [] -> length idx = length times -> marks mask (length grid) idx -> increasing_nat idx ->
  euler_sample p times time_step num_time_steps times_grid tol validate watch z x0 =
    Some (map (fun i => Some (end_path p (fun n => nth n grid 0) z x0 i)) idx).
Proof.
  intros * E P Ne L M I. rewrite E. destruct watch.
  - apply (run_for_ok p grid z x0 mask idx); assumption.
  - rewrite <- L. apply (run_while_ok p grid z x0 mask idx); assumption.
Qed.
Lemma gaps_ok_true tol l : gaps_above tol l -> gaps_ok tol l = true.
Proof.
  intros H. unfold gaps_ok. apply forallb_forall. intros d D. apply In_nth with (d := 0) in D. destruct D as (i & L & <-).
  rewrite diff_length' in L. rewrite diff_nth' by lia. specialize (H i ltac:(lia)). unfold rlt. destruct (Rlt_dec tol (nth (S i) l 0 - nth i l 0)); [reflexivity|lra].
Qed.
Lemma idx_nonempty (idx : list nat) (times : list R) : length idx = length times -> times <> [] -> idx <> [].
Proof. intros L N ->. destruct times; [contradiction|discriminate]. Qed.

(** With a time step: the grid is the one of C45, and the results, with and
    without gradient tracking, are the states of the scheme at the requested
    times. *)
Theorem C46_time_step : forall p times step tol validate watch z x0,
  times <> [] -> gaps_above (2 * tol) times -> 0 <= nth 0 times 0 -> 2 * tol < step -> 0 < step -> 0 <= tol < 1 ->
  exists grid mask idx, prepare_grid times step tol None None = Some (grid, mask, idx) /\ length idx = length times /\
    euler_sample p times (Some step) None None tol validate watch z x0 =
      Some (map (fun i => Some (end_path p (fun n => nth n grid 0) z x0 i)) idx).
Proof.
  intros p times step tol validate watch z x0 Hn Hg H0 Hs1 Hs Ht.
  assert (Hi : increasing times) by (apply (gaps_increasing (2 * tol)); [lra|assumption]).
  destruct (C45_time_step times step tol Hn Hi H0 Hs Ht) as (grid & mask & idx & E1 & E2 & E3 & E4 & E5 & E6 & E7).
  destruct (C45_time_step_close times step tol grid mask idx Hn Hg H0 Hs1 Hs Ht E1) as (_ & _ & _ & D & _).
  exists grid, mask, idx. split; [exact E1|]. split; [exact E5|].
  apply (euler_on_grid p times (Some step) None None tol validate watch z x0 step grid mask idx); try assumption.
  - unfold euler_sample. rewrite gaps_ok_true by (intros i L; specialize (Hg i L); lra). cbn [andb negb]. rewrite andb_false_r. rewrite E1. reflexivity.
  - apply (idx_nonempty idx times); assumption.
Qed.

(** With a number of steps: the requested times are on the grid exactly. *)
Theorem C46_num_steps : forall p times n tol validate watch z x0,
  times <> [] -> increasing times -> 0 <= nth 0 times 0 -> (0 < n)%nat -> (validate = true -> gaps_above tol times) ->
  exists grid mask idx, prepare_grid times (last times 0 / INR n) tol (Some n) None = Some (grid, mask, idx) /\
    (forall k, (k < length times)%nat -> nth (nth k idx 0%nat) grid 0 = nth k times 0) /\
    euler_sample p times None (Some n) None tol validate watch z x0 =
      Some (map (fun i => Some (end_path p (fun n => nth n grid 0) z x0 i)) idx).
Proof.
  intros p times n tol validate watch z x0 Hn Hi H0 Np Hv.
  assert (L0 : 0 <= last times 0) by (apply last_nonneg; assumption).
  assert (I1 : 1 <= INR n) by (replace 1 with (INR 1) by reflexivity; apply le_INR; lia).
  assert (S0 : 0 <= last times 0 / INR n). { apply (Rmult_le_reg_r (INR n)); [lra|]. replace (last times 0 / INR n * INR n) with (last times 0) by (field; lra). lra. }
  destruct (C45_num_steps times (last times 0 / INR n) tol n Hn Hi H0 S0) as (grid & mask & idx & E1 & E2 & E3 & E4 & E5 & E6 & E7 & E8).
  { destruct (le_lt_dec n (length times)) as [Q|Q]; [right; exact Q|left].
    assert (2 <= INR n). { replace 2 with (INR 2) by (cbn; lra). apply le_INR. destruct times; [contradiction|cbn in Q; lia]. }
    apply (Rmult_le_reg_r (INR n)); [lra|]. replace (2 * (last times 0 / INR n) * INR n) with (2 * last times 0) by (field; lra).
    pose proof (Rmult_le_compat_l _ _ _ L0 H). lra. }
  exists grid, mask, idx. split; [exact E1|]. split; [intros k K; apply E6; exact K|].
  apply (euler_on_grid p times None (Some n) None tol validate watch z x0 (last times 0 / INR n) grid mask idx); try assumption.
  - unfold euler_sample. assert (V : (validate && negb (gaps_ok tol times && true))%bool = false).
    { destruct validate; [|reflexivity]. rewrite gaps_ok_true by (apply Hv; reflexivity). reflexivity. }
    rewrite V, E1. reflexivity.
  - apply (idx_nonempty idx times); assumption.
  - intros k K. rewrite E5 in K. destruct (E6 k ltac:(lia)) as [A1 A2]. destruct (E6 (S k) K) as [B1 B2]. specialize (Hi k K).
    destruct (le_lt_dec (nth (S k) idx 0%nat) (nth k idx 0%nat)) as [Q|Q]; [|exact Q].
    pose proof (nondecr_le grid E3 _ _ Q A1) as M. unfold at_ in M. lra.
Qed.

(** On a given grid, when the nearest grid points of the requested times are
    different. *)
Theorem C46_given_grid : forall p times time_step num_time_steps g tol validate watch z x0,
  (time_step = None \/ num_time_steps = None) ->
  times <> [] -> g <> [] -> increasing g -> (forall t, In t times -> t <= last g 0) ->
  (validate = true -> gaps_above tol times /\ gaps_above tol g) ->
  exists mask idx, (forall k, (k < length times)%nat -> is_nearest g (nth k idx 0%nat) (nth k times 0)) /\
    (forall step, prepare_grid times step tol num_time_steps (Some g) = Some (g, mask, idx)) /\
    (increasing_nat idx ->
     euler_sample p times time_step num_time_steps (Some g) tol validate watch z x0 =
       Some (map (fun i => Some (end_path p (fun n => nth n g 0) z x0 i)) idx)).
Proof.
  intros p times time_step num_time_steps g tol validate watch z x0 Hb Hn Hg Hi Hl Hv.
  destruct (C45_given_grid times 0 tol num_time_steps g Hg Hi Hl) as (mask & idx & E1 & E2 & E3 & E4).
  exists mask, idx. split; [exact E3|]. assert (EP : forall step, prepare_grid times step tol num_time_steps (Some g) = Some (g, mask, idx)) by (intros step; exact E1).
  split; [exact EP|]. intros I.
  apply (euler_on_grid p times time_step num_time_steps (Some g) tol validate watch z x0 0 g mask idx); try assumption.
  - unfold euler_sample. assert (B : match num_time_steps, time_step with Some _, Some _ => true | _, _ => false end = false) by (destruct Hb as [-> | ->]; [destruct num_time_steps|]; reflexivity).
    rewrite B. assert (V : (validate && negb (gaps_ok tol times && gaps_ok tol g))%bool = false).
    { destruct validate; [|reflexivity]. destruct (Hv eq_refl). rewrite !gaps_ok_true by assumption. reflexivity. }
    rewrite V, EP. reflexivity.
  - apply (idx_nonempty idx times); assumption.
Qed.

(** When the coefficients do not depend on time, the scheme is the documented
    one. *)
Theorem C46_documented : forall p grid z x0 n, time_homogeneous p -> end_path p grid z x0 n = documented_path p grid z x0 n.
Proof.
  intros p grid z x0 n H. induction n as [|n IH]; [reflexivity|]. cbn [end_path documented_path]. rewrite IH. unfold increment.
  destruct (H (grid (S n)) (grid n) (documented_path p grid z x0 n)) as [-> ->]. reflexivity.
Qed.

(** Documented: X_(n+1) = X_n + a(t_n, X_n) dt + ...  The code evaluates the
    coefficients at t_(n+1): dX = t dt in one step from 0 to 1 gives 1 instead of
    0. *)
Definition clock : process := Process 1 (fun t _ _ _ => t) (fun _ _ _ _ _ => 0).
Theorem C46_left_point_refuted : forall watch z, exists x,
  euler_sample clock [1] None (Some 1%nat) None (1 / 10) true watch z (fun _ _ => 0) = Some [Some x] /\
  x 0%nat 0%nat = 1 /\ documented_path clock (fun n => nth n [0; 1] 0) z (fun _ _ => 0) 1 0%nat 0%nat = 0.
Proof.
  intros watch z. destruct (C46_num_steps clock [1] 1 (1 / 10) true watch z (fun _ _ => 0)) as (grid & mask & idx & E1 & E2 & E3).
  - discriminate.
  - intros i H. cbn in H. lia.
  - cbn. lra.
  - lia.
  - intros _ i H. cbn in H. lia.
  - unfold prepare_grid, grid_from_num_times in E1. cbn [length Nat.sub linspace seq map app last sort insert] in E1.
    cbn [map searchsorted_left] in E1. destruct (Rlt_dec 0 1) as [?|Q]; [|exfalso; lra]. destruct (Rlt_dec 1 1) as [Q|?]; [exfalso; lra|]. cbn in E1. injection E1 as <- <- <-.
    rewrite E3. eexists. split; [reflexivity|]. cbn. unfold increment. cbn. split; lra.
Qed.

(** Two requested times with the same nearest grid point: the second result is
    never written. *)
Theorem C46_shared_point_refuted : forall p z x0, exists x,
  euler_sample p [9 / 10; 1] None None (Some [0; 1]) (1 / 100) true false z x0 = Some [Some x; None].
Proof.
  intros p z x0. unfold euler_sample. rewrite !gaps_ok_true by (intros [|i] H; cbn in *; [lra|lia]). cbn [andb negb].
  assert (N1 : nearest_index [0; 1] (9 / 10) = Some 1%nat).
  { unfold nearest_index, gather. cbn [searchsorted_left]. destruct (Rlt_dec 0 (9 / 10)); [|lra]. destruct (Rlt_dec 1 (9 / 10)); [lra|]. cbn [nth_error pred].
    unfold rlt. rewrite (Rabs_right (1 - 9 / 10)) by lra. rewrite (Rabs_left (0 - 9 / 10)) by lra. destruct (Rlt_dec (1 - 9 / 10) (- (0 - 9 / 10))); [reflexivity|lra]. }
  assert (N2 : nearest_index [0; 1] 1 = Some 1%nat).
  { unfold nearest_index, gather. cbn [searchsorted_left]. destruct (Rlt_dec 0 1); [|lra]. destruct (Rlt_dec 1 1); [lra|]. cbn [nth_error pred].
    unfold rlt. rewrite (Rabs_right (1 - 1)) by lra. rewrite (Rabs_left (0 - 1)) by lra. destruct (Rlt_dec (1 - 1) (- (0 - 1))); [reflexivity|lra]. }
  unfold prepare_grid. cbn [map]. rewrite N1, N2. cbn. eexists. reflexivity.
Qed.

Example C46_time_step_case : [1 / 2; 2] <> [] /\ gaps_above (2 * (1 / 10)) [1 / 2; 2] /\ 0 <= nth 0 [1 / 2; 2] 0 /\ 2 * (1 / 10) < 1.
Proof. split; [discriminate|]. split; [intros [|i] H; cbn in *; [lra|lia]|]. cbn. lra. Qed.
Example C46_documented_case : time_homogeneous (Process 2 (fun _ x => x) (fun _ x s c k => x s c * x s k)).
Proof. intros t u x. split; reflexivity. Qed.

Print Assumptions C46_time_step.
Print Assumptions C46_num_steps.
Print Assumptions C46_given_grid.
Print Assumptions C46_documented.
Print Assumptions C46_left_point_refuted.
Print Assumptions C46_shared_point_refuted.
