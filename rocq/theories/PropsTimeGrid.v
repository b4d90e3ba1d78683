(** C45: prepare_grid, the time grid of path simulations. *)
From Coq Require Import ZArith Reals List Bool Arith Lia Lra Permutation.
From Verif Require Import TensorModel TensorProofs SegmentModel BrentModel VarianceProofs TimeGridModel TimeGridSpec TimeGridProofs.
Import ListNotations.
Open Scope R_scope.

Lemma increasing_last l : increasing l -> forall x, In x l -> x <= last l 0.
Proof.
  induction l as [|y l IH]; intros H x; [contradiction|]. destruct l as [|z l].
  - cbn. intros [->|[]]. lra.
  - assert (X : last (y :: z :: l) 0 = last (z :: l) 0) by reflexivity. rewrite X. intros [->|Y]; [|apply IH; [exact (gaps_tl 0 y _ H)|exact Y]].
    pose proof (gaps_later 0 x (z :: l) ltac:(lra) H z ltac:(left; reflexivity)).
    pose proof (IH (gaps_tl 0 x _ H) z ltac:(left; reflexivity)). lra.
Qed.
Lemma last_in (l : list R) : l <> [] -> In (last l 0) l.
Proof. intros H. induction l as [|y [|z l] IH]; [contradiction|left; reflexivity|]. right. apply IH. discriminate. Qed.
Lemma increasing_first l : increasing l -> forall x, In x l -> nth 0 l 0 <= x.
Proof.
  intros H x X. destruct l as [|y l]; [contradiction|]. cbn [nth]. destruct X as [->|X]; [lra|].
  pose proof (gaps_later 0 y l ltac:(lra) H x X). lra.
Qed.

(** the sorted points, with their first point split off *)
Lemma sorted_points times grid : (forall x, In x (times ++ grid) -> 0 <= x) -> In 0 (times ++ grid) ->
  exists l, sort (times ++ grid) = 0 :: l /\ sorted_from 0 l.
Proof.
  intros P Z. pose proof (sort_sorted (times ++ grid) 0 P) as S. destruct (sort (times ++ grid)) as [|x l] eqn:E.
  - pose proof (proj2 (sort_in _ 0) Z) as B. rewrite E in B. contradiction.
  - exists l. destruct S as [S1 S2]. pose proof (proj2 (sort_in _ 0) Z) as B. rewrite E in B.
    assert (x = 0). { destruct B as [->|B]; [reflexivity|]. pose proof (sorted_from_ge x l S2 0 B). lra. }
    subst x. auto.
Qed.

Section Core.
Variables (times : list R) (step tol : R).
Hypotheses (Hn : times <> []) (Hi : increasing times) (H0 : 0 <= nth 0 times 0) (Hs : 0 < step) (Ht : 0 <= tol < 1).

Lemma last_nonneg : 0 <= last times 0.
Proof. pose proof (increasing_first times Hi _ (last_in times Hn)). lra. Qed.

Lemma core : exists m l,
  let grid := map (fun i => INR i * step) (seq 0 m) in
  range_from_0 (last times 0) step = Some grid /\
  last times 0 <= INR m * step /\ (forall k, (k < m)%nat -> INR k * step < last times 0) /\
  sort (times ++ grid) = 0 :: l /\ sorted_from 0 l /\ (forall x, In x (0 :: l) <-> In x times \/ In x grid).
Proof.
  destruct (range_ok (last times 0) step Hs last_nonneg) as (m & R1 & R2 & R3).
  set (grid := map (fun i => INR i * step) (seq 0 m)) in *.
  assert (P : forall x, In x (times ++ grid) -> 0 <= x).
  { intros x X. apply in_app_or in X. destruct X as [X|X]; [pose proof (increasing_first times Hi x X); lra|].
    unfold grid in X. apply in_map_iff in X. destruct X as (k & <- & _). apply Rmult_le_pos; [apply pos_INR|lra]. }
  assert (Z : In 0 (times ++ grid)).
  { destruct (Nat.eq_dec m 0) as [->|D].
    - cbn in R2. assert (E : last times 0 = 0) by (pose proof last_nonneg; lra). apply in_or_app. left. rewrite <- E. apply last_in, Hn.
    - apply in_or_app. right. unfold grid. apply in_map_iff. exists 0%nat. split; [cbn; lra|]. apply in_seq. lia. }
  destruct (sorted_points times grid P Z) as (l & L1 & L2). exists m, l. cbv zeta.
  do 3 (split; [assumption|]). split; [exact L1|]. split; [exact L2|]. intros x. rewrite <- L1, sort_in, in_app_iff. reflexivity.
Qed.

Lemma core_run m l : let grid := map (fun i => INR i * step) (seq 0 m) in
  range_from_0 (last times 0) step = Some grid -> sort (times ++ grid) = 0 :: l -> sorted_from 0 l ->
  (forall x, In x times -> In x (0 :: l)) ->
  exists mask idx, prepare_grid times step tol None None = Some (0 :: dd tol 0 l, mask, idx) /\
    length idx = length times /\
    (forall k, (k < length times)%nat -> last_not_after (0 :: dd tol 0 l) (nth k idx 0%nat) (nth k times 0)) /\
    marks mask (length (0 :: dd tol 0 l)) idx.
Proof.
  intros grid RG SG F X. subst grid.
  assert (G : increasing (0 :: dd tol 0 l)) by (apply (gaps_increasing tol); [lra|]; apply dd_gaps; [lra|assumption]).
  destruct (all_some_map (step_index tol (0 :: dd tol 0 l)) (fun i t => last_not_after (0 :: dd tol 0 l) i t) times) as (idx & E1 & E2 & E3).
  { intros t T. apply step_index_spec; [lra|exact G|cbn; lia| |].
    - cbn [nth]. pose proof (increasing_first times Hi t T). lra.
    - intros q Q L. apply (dd_chain tol 0 l F t (X t T) q Q L). }
  destruct (scatter_marks idx (length (0 :: dd tol 0 l))) as (mask & M1 & M2).
  { intros i I. apply In_nth with (d := 0%nat) in I. destruct I as (k & K & <-).
    apply (forall2_nth _ idx times 0 E3 k). lia. }
  exists mask, idx. split.
  - unfold prepare_grid, grid_from_time_step. destruct times as [|t0 tr] eqn:ET; [contradiction|]. rewrite RG, SG, dedup_eq by lra.
    rewrite E1, M1. reflexivity.
  - split; [exact E2|]. split; [|exact M2]. intros k K. apply (forall2_nth _ idx times 0 E3 k K).
Qed.
End Core.

(** With a time step: the grid starts at 0, increases by more than the tolerance
    at each point, and consists of requested times and multiples of the step; the
    index of a requested time is that of the last grid point not after it, and
    the mask is true exactly at those indices. *)
Theorem C45_time_step : forall times step tol,
  times <> [] -> increasing times -> 0 <= nth 0 times 0 -> 0 < step -> 0 <= tol < 1 ->
  exists grid mask idx, prepare_grid times step tol None None = Some (grid, mask, idx) /\
    nth 0 grid 0 = 0 /\ gaps_above tol grid /\
    (forall x, In x grid -> In x times \/ exists k, x = INR k * step /\ (x < last times 0 \/ x = 0)) /\
    length idx = length times /\
    (forall k, (k < length times)%nat -> last_not_after grid (nth k idx 0%nat) (nth k times 0)) /\
    marks mask (length grid) idx.
Proof.
  intros times step tol Hn Hi H0 Hs Ht. destruct (core times step Hn Hi H0 Hs) as (m & l & R1 & R2 & R3 & R4 & R5 & R6).
  destruct (core_run times step tol Hn Hi H0 Ht m l R1 R4 R5) as (mask & idx & E1 & E2 & E3 & E4).
  { intros x X. apply R6. left. exact X. }
  exists (0 :: dd tol 0 l), mask, idx. split; [exact E1|]. split; [reflexivity|].
  split; [apply dd_gaps; [lra|assumption]|]. split.
  - intros x X. assert (Y : In x (0 :: l)) by (destruct X as [->|X]; [left; reflexivity|right; apply dd_in in X; exact X]).
    apply R6 in Y. destruct Y as [Y|Y]; [left; exact Y|right]. apply in_map_iff in Y. destruct Y as (k & <- & K). exists k. split; [reflexivity|].
    left. apply R3. apply in_seq in K. lia.
  - split; [exact E2|]. split; [exact E3|exact E4].
Qed.

(** When the step and the gaps between requested times exceed twice the
    tolerance, every requested time and every multiple of the step before the
    last requested time is within the tolerance of the grid point before it, no
    gap exceeds the step by more than the tolerance, and the requested times have
    different indices, the first one positive if the first time exceeds the
    tolerance. *)
Theorem C45_time_step_close : forall times step tol grid mask idx,
  times <> [] -> gaps_above (2 * tol) times -> 0 <= nth 0 times 0 -> 2 * tol < step -> 0 < step -> 0 <= tol < 1 ->
  prepare_grid times step tol None None = Some (grid, mask, idx) ->
  (forall k, (k < length times)%nat -> 0 <= nth k times 0 - nth (nth k idx 0%nat) grid 0 <= tol) /\
  (forall k, INR k * step < last times 0 -> exists i, (i < length grid)%nat /\ 0 <= INR k * step - nth i grid 0 <= tol) /\
  gaps_at_most (step + tol) grid /\
  (forall k, (S k < length idx)%nat -> (nth k idx 0 < nth (S k) idx 0)%nat) /\
  (tol < nth 0 times 0 -> nth 0 mask true = false).
Proof.
  intros times step tol grid mask idx Hn Hg H0 Hs1 Hs Ht E.
  assert (Hi : increasing times) by (apply (gaps_increasing (2 * tol)); [lra|assumption]).
  destruct (core times step Hn Hi H0 Hs) as (m & l & R1 & R2 & R3 & R4 & R5 & R6).
  destruct (core_run times step tol Hn Hi H0 Ht m l R1 R4 R5) as (mask' & idx' & E1 & E2 & E3 & E4).
  { intros x X. apply R6. left. exact X. }
  rewrite E1 in E. injection E as G1 G2 G3. subst mask' idx'. set (D := dd tol 0 l) in *.
  assert (N : nondecr (0 :: l)) by (apply sorted_from_nondecr; exact R5).
  assert (T3 : forall i, (S (S i) < length (0%R :: l))%nat -> nth i (0 :: l) 0 + 2 * tol < nth (S (S i)) (0 :: l) 0).
  { apply (no_three (2 * tol) times (map (fun i => INR i * step) (seq 0 m)) (0 :: l)); [lra|exact Hg|apply grid_gaps; lra| |exact N].
    rewrite <- R4. apply sort_perm. }
  (* every point has a kept point within the tolerance before it *)
  assert (K : forall i, (i < length (0%R :: l))%nat -> exists p, In p (0 :: D) /\ 0 <= nth i (0 :: l) 0 - p <= tol).
  { assert (K1 : forall i, (S i < length (0%R :: l))%nat -> tol < nth (S i) (0 :: l) 0 - nth i (0 :: l) 0 -> In (nth (S i) (0 :: l) 0) (0 :: D)).
    { intros i L Q. right. change (In (nth i l 0) (dd tol 0 l)). apply dd_kept; [cbn in L; lia|exact Q]. }
    intros [|i] L; [exists 0; split; [left; reflexivity|cbn; lra]|].
    destruct (Rlt_le_dec tol (nth (S i) (0 :: l) 0 - nth i (0 :: l) 0)) as [Q|Q].
    - exists (nth (S i) (0 :: l) 0). split; [apply K1; assumption|lra].
    - pose proof (N i L) as N1. unfold at_ in N1. exists (nth i (0 :: l) 0). split; [|lra].
      destruct i as [|i]; [left; reflexivity|]. apply K1; [lia|]. pose proof (T3 i L). lra. }
  assert (K' : forall t, In t (0 :: l) -> exists j, (j < length (0%R :: D))%nat /\ 0 <= t - nth j (0 :: D) 0 <= tol).
  { intros t T. apply In_nth with (d := 0) in T. destruct T as (i & L & <-). destruct (K i L) as (p & P1 & P2).
    apply In_nth with (d := 0) in P1. destruct P1 as (j & J & <-). exists j. auto. }
  assert (I : incr (0 :: D)) by (apply increasing_incr, (gaps_increasing tol); [lra|]; apply dd_gaps; [lra|assumption]).
  assert (C1 : forall k, (k < length times)%nat -> 0 <= nth k times 0 - nth (nth k idx 0%nat) (0 :: D) 0 <= tol).
  { intros k L. destruct (E3 k L) as (F1 & F2 & F3). destruct (K' (nth k times 0)) as (j & J1 & J2).
    { apply R6. left. apply nth_In. exact L. }
    assert (j <= nth k idx 0)%nat. { destruct (le_lt_dec j (nth k idx 0%nat)); [assumption|]. specialize (F3 j ltac:(lia)). lra. }
    pose proof (nondecr_le _ (incr_nondecr _ I) j (nth k idx 0%nat) H F1) as M. unfold at_ in M. lra. }
  rewrite <- G1. split; [exact C1|]. split.
  { intros k Hk. apply K'. apply R6. right. apply in_map_iff. exists k. split; [reflexivity|]. apply in_seq. split; [lia|].
    destruct (le_lt_dec m k) as [L|L]; [|lia]. exfalso. apply le_INR in L. apply (Rmult_le_compat_r step) in L; lra. }
  split.
  { intros j J.
    assert (Q : In (nth (S j) (0 :: D) 0) D) by (cbn [nth]; apply nth_In; cbn in J; lia).
    destruct (dd_kept_inv tol 0 l _ Q) as (i & I1 & I2 & I3).
    set (q := nth (S j) (0 :: D) 0) in *. set (y := nth i (0 :: l) 0) in *.
    (* the point before q in the sorted list is within the tolerance after the kept point before q *)
    assert (Y : y - nth j (0 :: D) 0 <= tol).
    { destruct (K' y) as (j' & J1 & J2); [apply nth_In; cbn; lia|]. assert (j' <= j)%nat.
      { destruct (le_lt_dec j' j); [assumption|]. pose proof (nondecr_le _ (incr_nondecr _ I) (S j) j' ltac:(lia) J1) as M. unfold at_ in M. fold q in M. lra. }
      pose proof (nondecr_le _ (incr_nondecr _ I) j' j H ltac:(lia)) as M. unfold at_ in M. lra. }
    assert (Y0 : 0 <= y). { apply (nondecr_le _ N 0 i); [lia|cbn; lia]. }
    assert (QL : q <= last times 0).
    { assert (In q (0 :: l)) as X by (right; rewrite <- I2; apply nth_In; exact I1). apply R6 in X. destruct X as [X|X].
      - apply increasing_last; assumption.
      - apply in_map_iff in X. destruct X as (k & <- & X). apply in_seq in X. left. apply R3. lia. }
    assert (B : q - y <= step).
    { pose proof (up_bounds (y / step)) as [U1 U2]. set (k := Z.to_nat (up (y / step))).
      assert (V : 0 <= y / step). { apply (Rmult_le_reg_r step); [lra|]. replace (y / step * step) with y by (field; lra). lra. }
      assert (KE : INR k = IZR (up (y / step))). { unfold k. rewrite INR_IZR_INZ, Z2Nat.id; [reflexivity|]. apply le_IZR. lra. }
      assert (W1 : y < INR k * step). { rewrite KE. apply (Rmult_lt_compat_r step) in U2; [|lra]. replace (y / step * step) with y in U2 by (field; lra). lra. }
      assert (W2 : INR k * step <= y + step). { rewrite KE. apply (Rmult_le_compat_r step) in U1; [|lra]. replace (y / step * step) with y in U1 by (field; lra). lra. }
      destruct (le_lt_dec m k) as [L|L].
      - apply le_INR in L. apply (Rmult_le_compat_r step) in L; lra.
      - assert (X : In (INR k * step) (0 :: l)). { apply R6. right. apply in_map_iff. exists k. split; [reflexivity|]. apply in_seq. lia. }
        apply In_nth with (d := 0) in X. destruct X as (n & L1 & X). assert (S i <= n)%nat.
        { destruct (le_lt_dec (S i) n); [assumption|]. pose proof (nondecr_le _ N n i ltac:(lia) ltac:(cbn; lia)) as M. unfold at_ in M. fold y in M. lra. }
        pose proof (nondecr_le _ N (S i) n H L1) as M. unfold at_ in M. change (nth (S i) (0 :: l) 0) with (nth i l 0) in M. lra. }
    lra. }
  split.
  { intros k L. rewrite E2 in L. destruct (E3 k ltac:(lia)) as (F1 & F2 & F3). destruct (E3 (S k) L) as (F4 & F5 & F6).
    pose proof (C1 (S k) L) as C2. pose proof (Hg k L) as HG.
    destruct (le_lt_dec (nth (S k) idx 0%nat) (nth k idx 0%nat)) as [Q|Q]; [|exact Q].
    pose proof (nondecr_le _ (incr_nondecr _ I) _ _ Q F1) as M. unfold at_ in M. lra. }
  intros F. destruct E4 as (M1 & M2 & M3). destruct (nth 0 mask true) eqn:EM; [exfalso|reflexivity].
  assert (In 0%nat idx).
  { apply (M3 0%nat); [cbn; lia|]. rewrite (nth_indep mask false true); [exact EM|]. rewrite M1. cbn. lia. }
  apply In_nth with (d := 0%nat) in H. destruct H as (k & L & X). rewrite E2 in L. pose proof (C1 k L) as C2. rewrite X in C2. cbn [nth] in C2.
  pose proof (increasing_first times Hi _ (nth_In times 0 L)). lra.
Qed.

(** ** a given number of steps *)
Lemma sort_linear_count times a n : length (sort (linspace a (last times 0 - a) (n - length times) ++ times)) = Nat.max n (length times).
Proof. rewrite sort_length, app_length. unfold linspace. rewrite map_length, seq_length. lia. Qed.
Lemma linspace_between a b n x : a <= b -> In x (linspace a b n) -> a <= x <= b.
Proof.
  intros L X. unfold linspace in X. apply in_map_iff in X. destruct X as (i & <- & X). apply in_seq in X.
  set (d := Nat.max (n - 1) 1). assert (D : 1 <= INR d) by (replace 1 with (INR 1) by reflexivity; apply le_INR; unfold d; lia).
  assert (I : 0 <= INR i <= INR d) by (split; [apply pos_INR|apply le_INR; unfold d; lia]).
  assert (Q : 0 <= (b - a) / INR d). { apply (Rmult_le_reg_r (INR d)); [lra|]. replace ((b - a) / INR d * INR d) with (b - a) by (field; lra). lra. }
  pose proof (Rmult_le_pos _ _ (proj1 I) Q). pose proof (Rmult_le_compat_r _ _ _ Q (proj2 I)) as U.
  replace (INR d * ((b - a) / INR d)) with (b - a) in U by (field; lra). lra.
Qed.

(** With [num_time_steps] the grid is nondecreasing, starts at 0, and holds each
    requested time exactly at its index. *)
Theorem C45_num_steps : forall times step tol n,
  times <> [] -> increasing times -> 0 <= nth 0 times 0 -> 0 <= step -> (2 * step <= last times 0 \/ (n <= length times)%nat) ->
  exists grid mask idx, prepare_grid times step tol (Some n) None = Some (grid, mask, idx) /\
    nth 0 grid 0 = 0 /\ (forall i, (S i < length grid)%nat -> nth i grid 0 <= nth (S i) grid 0) /\
    (forall x, In x grid -> 0 <= x <= last times 0) /\
    length idx = length times /\
    (forall k, (k < length times)%nat -> (nth k idx 0 < length grid)%nat /\ nth (nth k idx 0%nat) grid 0 = nth k times 0) /\
    marks mask (length grid) idx /\ (0 < nth 0 times 0 -> nth 0 mask true = false).
Proof.
  intros times step tol n Hn Hi H0 Hs Hl. unfold prepare_grid, grid_from_num_times.
  destruct times as [|t0 tr] eqn:ET; [contradiction|]. rewrite <- ET in *. clear ET.
  set (u := linspace step (last times 0 - step) (n - length times)).
  assert (P : forall x, In x (u ++ times) -> 0 <= x <= last times 0).
  { intros x X. apply in_app_or in X. destruct X as [X|X].
    - destruct Hl as [Hl|Hl]; [apply linspace_between in X; lra|]. unfold u in X. replace (n - length times)%nat with 0%nat in X by lia. contradiction.
    - pose proof (increasing_first times Hi x X). pose proof (increasing_last times Hi x X). lra. }
  set (g := 0 :: sort (u ++ times)). assert (N : nondecr g) by (apply sorted_from_nondecr, sort_sorted; intros x X; apply P, X).
  assert (F : forall t, In t times -> (searchsorted_left g t < length g)%nat /\ nth (searchsorted_left g t) g 0 = t).
  { intros t T. assert (Y : In t g) by (right; apply sort_in, in_or_app; right; exact T).
    apply In_nth with (d := 0) in Y. destruct Y as (j & J & Y).
    pose proof (ssl_below g t) as B. pose proof (ssl_above g t N) as A. pose proof (ssl_le g t) as L.
    set (k := searchsorted_left g t) in *.
    assert (KJ : (k <= j)%nat). { destruct (le_lt_dec k j); [assumption|]. specialize (B j ltac:(lia)). unfold at_ in B. lra. }
    split; [lia|]. pose proof (nondecr_le g N k j KJ J) as M. specialize (A k ltac:(lia)). unfold at_ in *. lra. }
  destruct (scatter_marks (map (searchsorted_left g) times) (length g)) as (mask & M1 & M2).
  { intros i X. apply in_map_iff in X. destruct X as (t & <- & T). apply F, T. }
  rewrite M1. exists g, mask, (map (searchsorted_left g) times). split; [reflexivity|]. split; [reflexivity|].
  split; [exact N|]. split. { intros x [<-|X]; [pose proof (P _ (in_or_app _ _ _ (or_intror (last_in times Hn)))); lra|]. apply P. apply sort_in, X. }
  split; [apply map_length|]. split; [|split; [exact M2|]].
  - intros k L. rewrite (nth_indep _ 0%nat (searchsorted_left g 0)) by (rewrite map_length; exact L). rewrite map_nth.
    apply F, nth_In, L.
  - intros Q. destruct M2 as (L1 & L2 & L3). destruct (nth 0 mask true) eqn:EM; [exfalso|reflexivity].
    rewrite (nth_indep mask true false) in EM by (rewrite L1; cbn; lia). apply L3 in EM; [|cbn; lia].
    apply in_map_iff in EM. destruct EM as (t & X & T). destruct (F t T) as [_ F2]. rewrite X in F2. cbn in F2.
    pose proof (increasing_first times Hi t T). lra.
Qed.

(** The documented size is max(len(times), num_time_steps): the grid always has
    one more point. *)
Theorem C45_num_steps_size_refuted : forall times step tol n grid mask idx,
  prepare_grid times step tol (Some n) None = Some (grid, mask, idx) ->
  length grid = S (Nat.max n (length times)).
Proof.
  intros times step tol n grid mask idx. unfold prepare_grid, grid_from_num_times. destruct times as [|t0 tr] eqn:ET; [discriminate|]. rewrite <- ET in *. clear ET.
  destruct scatter_mask; [|discriminate]. intros E. injection E as <- _ _. cbn [length]. f_equal. apply sort_linear_count.
Qed.

(** ** a given grid *)
Lemma last_nth' (l : list R) : last l 0 = nth (pred (length l)) l 0.
Proof. induction l as [|x [|y l] IH]; [reflexivity|reflexivity|]. exact IH. Qed.
(** With [times_grid] the grid is used as it is and the index of each requested
    time up to the last grid point is that of a nearest grid point. *)
Theorem C45_given_grid : forall times step tol n g,
  g <> [] -> increasing g -> (forall t, In t times -> t <= last g 0) ->
  exists mask idx, prepare_grid times step tol n (Some g) = Some (g, mask, idx) /\
    length idx = length times /\ (forall k, (k < length times)%nat -> is_nearest g (nth k idx 0%nat) (nth k times 0)) /\
    marks mask (length g) idx.
Proof.
  intros times step tol n g Hn Hi Ht. unfold prepare_grid. pose proof (increasing_incr g Hi) as I. pose proof (incr_nondecr g I) as N.
  assert (Lg : (0 < length g)%nat) by (destruct g; [contradiction|cbn; lia]).
  destruct (all_some_map (nearest_index g) (is_nearest g) times) as (idx & E1 & E2 & E3).
  { intros t T. specialize (Ht t T). rewrite last_nth' in Ht. unfold nearest_index, gather.
    pose proof (ssl_below g t) as B. pose proof (ssl_above g t N) as A. pose proof (ssl_le g t) as L.
    set (k := searchsorted_left g t) in *. assert (K : (k < length g)%nat).
    { destruct (Nat.eq_dec k (length g)) as [E|E]; [|lia]. specialize (B (pred (length g)) ltac:(lia)). unfold at_ in B. lra. }
    rewrite !(nth_error_nth' g 0) by lia. pose proof (A k ltac:(lia)) as Ak. unfold at_ in Ak.
    assert (Up : forall j, (j < length g)%nat -> (k <= j)%nat -> Rabs (nth k g 0 - t) <= Rabs (nth j g 0 - t)).
    { intros j J1 J2. pose proof (nondecr_le g N k j J2 J1) as M. unfold at_ in M. rewrite !Rabs_right by lra. lra. }
    assert (Dn : forall j, (j < k)%nat -> Rabs (nth (pred k) g 0 - t) <= Rabs (nth j g 0 - t)).
    { intros j J. pose proof (nondecr_le g N j (pred k) ltac:(lia) ltac:(lia)) as M. pose proof (B (pred k) ltac:(lia)). unfold at_ in *. rewrite !Rabs_left1 by lra. lra. }
    unfold rlt. destruct (Rlt_dec (Rabs (nth k g 0 - t)) (Rabs (nth (pred k) g 0 - t))) as [Q|Q].
    - exists k. split; [reflexivity|]. split; [exact K|]. intros j J. destruct (le_lt_dec k j); [apply Up; lia|]. specialize (Dn j ltac:(lia)). lra.
    - exists (pred k). split; [reflexivity|]. split; [lia|]. intros j J. destruct (le_lt_dec k j) as [G|G]; [specialize (Up j J G); lra|apply Dn, G]. }
  rewrite E1. destruct (scatter_marks idx (length g)) as (mask & M1 & M2).
  { intros i X. apply In_nth with (d := 0%nat) in X. destruct X as (k & K & <-). apply (forall2_nth _ idx times 0 E3 k). lia. }
  rewrite M1. exists mask, idx. split; [reflexivity|]. split; [exact E2|]. split; [|exact M2]. intros k K. apply (forall2_nth _ idx times 0 E3 k K).
Qed.

(** Documented: "if times are not on the grid, then the nearest points from the
    grid are used".  A time after the last grid point makes the call fail. *)
Theorem C45_beyond_grid_refuted : forall times step tol n g t,
  In t times -> (forall x, In x g -> x < t) -> prepare_grid times step tol n (Some g) = None.
Proof.
  intros times step tol n g t T H. unfold prepare_grid.
  assert (E : nearest_index g t = None).
  { unfold nearest_index, gather. assert (K : searchsorted_left g t = length g).
    { clear -H. induction g as [|x g IH]; [reflexivity|]. cbn. destruct (Rlt_dec x t) as [L|L]; [f_equal; apply IH; intros y Y; apply H; right; exact Y|].
      exfalso. apply L, H. left. reflexivity. }
    rewrite K. rewrite (proj2 (nth_error_None g (length g))) by lia. reflexivity. }
  assert (F : all_some (map (nearest_index g) times) = None).
  { clear -T E. induction times as [|s times IH]; [contradiction|]. cbn. destruct T as [->|T]; [rewrite E; reflexivity|].
    rewrite (IH T). destruct (nearest_index g s); reflexivity. }
  rewrite F. reflexivity.
Qed.

(** ** cases *)
Lemma ceil_eq x z : IZR z - 1 < x <= IZR z -> ceil x = z.
Proof.
  intros H. pose proof (ceil_bounds x) as B. assert (ceil x < z + 1)%Z by (apply lt_IZR; rewrite plus_IZR; lra).
  assert (z < ceil x + 1)%Z by (apply lt_IZR; rewrite plus_IZR; lra). lia.
Qed.
Lemma range_two limit : 1 < limit <= 2 -> range_from_0 limit 1 = Some [0; 1].
Proof.
  intros H. unfold range_from_0. destruct (Req_EM_T 1 0); [lra|]. unfold rlt. destruct (Rlt_dec 0 1); [|lra]. destruct (Rlt_dec limit 0); [lra|]. destruct (Rlt_dec 1 0); [lra|].
  cbn [andb]. rewrite Rabs_right by lra. rewrite (ceil_eq (limit / 1) 2) by (simpl; lra). change (Z.to_nat 2) with 2%nat. cbn [seq map]. f_equal. f_equal; [cbn; lra|]. f_equal. cbn. lra.
Qed.
Ltac rl := repeat first [progress cbn [sort insert app map all_some dd searchsorted_left]
  | match goal with |- context [Rle_dec ?a ?b] => destruct (Rle_dec a b); [|exfalso; lra] end
  | match goal with |- context [Rle_dec ?a ?b] => destruct (Rle_dec a b); [exfalso; lra|] end
  | match goal with |- context [Rlt_dec ?a ?b] => destruct (Rlt_dec a b); [|exfalso; lra] end
  | match goal with |- context [Rlt_dec ?a ?b] => destruct (Rlt_dec a b); [exfalso; lra|] end].

(** Requested times further apart than the tolerance can share one grid point: a
    multiple of the step between them links them. *)
Theorem C45_merged_times_refuted : exists times tol,
  gaps_above tol times /\ prepare_grid times 1 tol None None = Some ([0; 95 / 100], [false; true], [1; 1]%nat).
Proof.
  exists [95 / 100; 106 / 100], (1 / 10). split.
  { intros [|i] H; cbn in *; [lra|lia]. }
  unfold prepare_grid, grid_from_time_step. rewrite range_two by (cbn; lra).
  assert (S : sort ([95 / 100; 106 / 100] ++ [0; 1]) = [0; 95 / 100; 1; 106 / 100]) by (rl; reflexivity).
  rewrite S, dedup_eq by lra. assert (D : dd (1 / 10) 0 [95 / 100; 1; 106 / 100] = [95 / 100]) by (rl; reflexivity). rewrite D.
  assert (X1 : step_index (1 / 10) [0; 95 / 100] (95 / 100) = Some 1%nat).
  { unfold step_index, rlt. rl. cbn [length Nat.min gather nth_error]. rl. reflexivity. }
  assert (X2 : step_index (1 / 10) [0; 95 / 100] (106 / 100) = Some 1%nat).
  { unfold step_index, rlt. rl. cbn [length Nat.min gather nth_error]. rl. reflexivity. }
  cbn [map]. rewrite X1, X2. reflexivity.
Qed.

(** Documented: [time_step] is the maximal distance between grid points.  A
    requested time just before a multiple of the step replaces it, so the next gap
    is larger than the step. *)
Theorem C45_step_exceeded_refuted : exists grid mask idx,
  prepare_grid [9 / 10; 2] 1 (2 / 10) None None = Some (grid, mask, idx) /\ ~ gaps_at_most 1 grid.
Proof.
  unfold prepare_grid, grid_from_time_step. rewrite range_two by (cbn; lra).
  assert (S : sort ([9 / 10; 2] ++ [0; 1]) = [0; 9 / 10; 1; 2]) by (rl; reflexivity).
  rewrite S, dedup_eq by lra. assert (D : dd (2 / 10) 0 [9 / 10; 1; 2] = [9 / 10; 2]) by (rl; reflexivity). rewrite D.
  assert (X1 : step_index (2 / 10) [0; 9 / 10; 2] (9 / 10) = Some 1%nat).
  { unfold step_index, rlt. rl. cbn [length Nat.min gather nth_error]. rl. reflexivity. }
  assert (X2 : step_index (2 / 10) [0; 9 / 10; 2] 2 = Some 2%nat).
  { unfold step_index, rlt. rl. cbn [length Nat.min gather nth_error]. rl. reflexivity. }
  cbn [map]. rewrite X1, X2. do 3 eexists. split; [reflexivity|].
  intros G. specialize (G 1%nat ltac:(cbn; lia)). cbn in G. lra.
Qed.

Example C45_time_step_case : [1 / 2; 2] <> [] /\ gaps_above (2 * (1 / 10)) [1 / 2; 2] /\ 0 <= nth 0 [1 / 2; 2] 0 /\ 2 * (1 / 10) < 1 /\ 1 / 10 < nth 0 [1 / 2; 2] 0.
Proof. split; [discriminate|]. split; [intros [|i] H; cbn in *; [lra|lia]|]. cbn. lra. Qed.
Example C45_num_steps_case : increasing [1 / 2; 2] /\ 0 <= nth 0 [1 / 2; 2] 0 /\ 2 * (1 / 2) <= last [1 / 2; 2] 0.
Proof. split; [intros [|i] H; cbn in *; [lra|lia]|]. cbn. lra. Qed.
Example C45_given_grid_case : increasing [0; 1; 2] /\ forall t, In t [1 / 3; 2] -> t <= last [0; 1; 2] 0.
Proof. split; [intros [|[|i]] H; cbn in *; [lra|lra|lia]|]. cbn. intros t [<-|[<-|[]]]; lra. Qed.

Print Assumptions C45_time_step.
Print Assumptions C45_time_step_close.
Print Assumptions C45_num_steps.
Print Assumptions C45_num_steps_size_refuted.
Print Assumptions C45_given_grid.
Print Assumptions C45_beyond_grid_refuted.
Print Assumptions C45_merged_times_refuted.
Print Assumptions C45_step_exceeded_refuted.
