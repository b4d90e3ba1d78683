(** Lemmas for the Hull-White model. *)
From Coquelicot Require Import Coquelicot.
From Coq Require Import ZArith Reals List Bool Arith Lia Lra FunctionalExtensionality.
From Verif Require Import TensorModel TensorProofs SegmentModel BrentModel LoopModel LoopProofs TimeGridModel TimeGridSpec TimeGridProofs PropsTimeGrid
  PiecewiseModel PiecewiseProofs PropsPiecewise GbmModel MvNormalSpec GbmProofs2 PropsEuler HullWhiteModel HullWhiteSpec.
Import ListNotations.
Open Scope R_scope.

(** * Integrals over knots *)
Section Knots.
  Variables (K : list R) (g : R -> R) (cell : nat -> R -> R) (acc : nat -> R).
  Hypothesis SK : nondecr K.
  Hypothesis PK : forall x, In x K -> 0 <= x.
  Let v := 0 :: K.
  Hypothesis C : forall n t, (n <= length K)%nat -> at_ v n <= t -> ((n < length K)%nat -> t <= at_ K n) -> is_RInt g (at_ v n) t (cell n t).
  Hypothesis A0 : acc 0%nat = 0.
  Hypothesis AS : forall n, (n < length K)%nat -> acc (S n) = acc n + cell n (at_ K n).
  Lemma knot_step n : (n < length K)%nat -> at_ v n <= at_ K n.
  Proof. intros H. destruct n; unfold v; [apply PK, nth_In, H|]. change (at_ (0 :: K) (S n)) with (at_ K n). apply SK, H. Qed.
  Lemma knot_acc n : (n <= length K)%nat -> is_RInt g 0 (at_ v n) (acc n).
  Proof.
    induction n as [|n IH]; intros H.
    - rewrite A0. change (at_ v 0) with 0. apply (is_RInt_point (V := R_NormedModule)).
    - rewrite AS by lia. change (at_ v (S n)) with (at_ K n). apply (is_RInt_Chasles (V := R_NormedModule) g 0 (at_ v n) (at_ K n)); [apply IH; lia|]. apply C; [lia|apply knot_step; lia|intros _; lra].
  Qed.
  Lemma knot_index t : 0 <= t -> let n := searchsorted_left K t in (n <= length K)%nat /\ at_ v n <= t /\ ((n < length K)%nat -> t <= at_ K n).
  Proof.
    intros T n. split; [apply ssl_le|]. split.
    - destruct n as [|m] eqn:E; [exact T|]. change (at_ v (S m)) with (at_ K m). left. apply (ssl_below K t). fold n. lia.
    - intros H. apply (ssl_above K t SK). fold n. lia.
  Qed.
  Lemma knot_integral t : 0 <= t -> is_RInt g 0 t (acc (searchsorted_left K t) + cell (searchsorted_left K t) t).
  Proof.
    intros T. destruct (knot_index t T) as (N1 & N2 & N3). apply (is_RInt_Chasles (V := R_NormedModule) g 0 (at_ v (searchsorted_left K t)) t); [apply knot_acc, N1|apply C; assumption].
  Qed.
End Knots.
Lemma knot_cell_index K n s : nondecr K -> (n <= length K)%nat -> at_ (0 :: K) n < s -> ((n < length K)%nat -> s <= at_ K n) -> searchsorted_left K s = n.
Proof.
  intros SK N L U. apply ssl_unique; [exact SK|exact N| |].
  - intros i I. destruct n as [|m]; [lia|]. change (at_ (0 :: K) (S m)) with (at_ K m) in L. pose proof (nondecr_le K SK i m ltac:(lia) ltac:(lia)). lra.
  - intros i I. pose proof (nondecr_le K SK n i ltac:(lia) ltac:(lia)). specialize (U ltac:(lia)). lra.
Qed.
Lemma cumsum_from_nth l : forall acc n, (n < length l)%nat -> at_ (acc :: cumsum_from acc false l) (S n) = at_ (acc :: cumsum_from acc false l) n + at_ l n.
Proof.
  induction l as [|x l IH]; intros acc n H; [cbn in H; lia|]. cbn [cumsum_from]. destruct n as [|n]; [reflexivity|].
  change (at_ (acc :: (acc + x) :: cumsum_from (acc + x) false l) (S (S n))) with (at_ ((acc + x) :: cumsum_from (acc + x) false l) (S n)).
  change (at_ (acc :: (acc + x) :: cumsum_from (acc + x) false l) (S n)) with (at_ ((acc + x) :: cumsum_from (acc + x) false l) n).
  change (at_ (x :: l) (S n)) with (at_ l n). apply IH. cbn in H. lia.
Qed.
Lemma cumsum_from_length l : forall acc, length (cumsum_from acc false l) = length l.
Proof. induction l as [|x l IH]; intros acc; [reflexivity|]. cbn. rewrite IH. reflexivity. Qed.

(** * Constant mean reversion *)
Definition piecewise_ok (p : param) : Prop := match p with Const _ => True | Piecewise f => exists j v, pw_ok j v f end.
Lemma same_piece p K n u t : piecewise_ok p -> nondecr K -> (forall x, In x (param_jumps p) -> In x K) -> (n <= length K)%nat -> at_ (0 :: K) n < u -> u <= t -> ((n < length K)%nat -> t <= at_ K n) ->
  param_at p u = param_at p t.
Proof.
  destruct p as [c|f]; [reflexivity|]. cbn [piecewise_ok param_jumps param_at]. intros (j & v & OK) SK SUB N L UT U. apply pw_ok_inv in OK as (-> & _ & NJ). cbn [jumps] in SUB. unfold pw_call. cbn [jumps pvalues]. f_equal.
  apply ssl_unique; [exact NJ|apply ssl_le| |].
  - intros i I. assert (IL : (i < length j)%nat) by (pose proof (ssl_le j t); lia). pose proof (ssl_below j t i I) as B. assert (X : In (at_ j i) K) by (apply SUB, nth_In, IL). apply (In_nth K (at_ j i) 0) in X. destruct X as (m & M & E). fold (at_ K m) in E.
    destruct (le_lt_dec n m) as [G|G].
    + pose proof (nondecr_le K SK n m G M). specialize (U ltac:(lia)). lra.
    + destruct n as [|n]; [lia|]. change (at_ (0 :: K) (S n)) with (at_ K n) in L. pose proof (nondecr_le K SK m n ltac:(lia) ltac:(lia)). lra.
  - intros i I. pose proof (ssl_above j t NJ i I). lra.
Qed.

Section Constant.
  Variables (h : hw) (a : nat) (k : R).
  Hypothesis MR : hw_mr h a = Const k.
  Hypothesis K0 : k <> 0.
  Hypothesis VO : piecewise_ok (hw_vol h a).
  Hypothesis PJ : forall x, In x (param_jumps (hw_vol h a) ++ corr_jumps h) -> 0 <= x.
  Notation J := (jump_locations h a).
  Notation sigma := (param_at (hw_vol h a)).
  Lemma J_sorted : nondecr J. Proof. apply sort_nondecr. Qed.
  Lemma J_in x : In x J <-> In x (param_jumps (hw_vol h a) ++ corr_jumps h).
  Proof. unfold jump_locations. rewrite sort_in, MR. cbn [param_jumps app]. reflexivity. Qed.
  Lemma J_pos x : In x J -> 0 <= x. Proof. rewrite J_in. apply PJ. Qed.
  Lemma mr_at t : param_at (hw_mr h a) t = k. Proof. rewrite MR. reflexivity. Qed.
  Lemma padded_at n : (n < length J)%nat -> at_ (padded_knots h a) n = at_ (0 :: J) n.
  Proof.
    intros H. unfold padded_knots, at_. destruct n as [|n]; [reflexivity|]. cbn [nth]. destruct J as [|x l] eqn:E; [cbn in H; lia|]. apply (removelast_nth x l n). cbn in H. lia.
  Qed.
  Lemma padded_length : J <> [] -> length (padded_knots h a) = length J.
  Proof. unfold padded_knots. destruct J as [|x l]; [contradiction|]. intros _. cbn [length]. rewrite removelast_len. reflexivity. Qed.
  Lemma between_length : length (var_between_vol_knots h a) = length J.
  Proof.
    unfold var_between_vol_knots. rewrite map_length, !combine_length. unfold jump_values_vol, jump_values_mr. rewrite !map_length. destruct J as [|x l] eqn:E; [cbn; lia|]. rewrite <- E. rewrite padded_length by (rewrite E; discriminate). lia.
  Qed.
  Lemma between_at n : (n < length J)%nat -> at_ (var_between_vol_knots h a) n = variance_int (at_ (0 :: J) n) (at_ J n) (sigma (at_ J n)) k.
  Proof.
    intros H. assert (NE : J <> []) by (intros E; rewrite E in H; cbn in H; lia). pose proof between_length as BL. unfold var_between_vol_knots in *. rewrite map_length in BL.
    unfold at_ at 1. match goal with |- nth n (map ?f ?l) 0 = _ => pose (F := f); change (map f l) with (map F l) end. rewrite (nth_indep _ 0 (F ((0, 0), (0, 0)))) by (rewrite map_length, BL; exact H). rewrite map_nth. unfold F.
    rewrite nth_combine by (rewrite !combine_length; unfold jump_values_vol, jump_values_mr; rewrite !map_length, (padded_length NE); lia).
    rewrite !nth_combine by (unfold jump_values_vol, jump_values_mr; rewrite ?map_length, ?(padded_length NE); reflexivity).
    fold (at_ (padded_knots h a) n) (at_ J n) (at_ (jump_values_vol h a) n) (at_ (jump_values_mr h a) n). rewrite padded_at by exact H. unfold jump_values_vol, jump_values_mr. rewrite !at_map by exact H. rewrite mr_at. reflexivity.
  Qed.
  Notation A := (at_ (var_at_vol_knots h a)).
  Lemma A_step n : (n < length J)%nat -> A (S n) = A n + variance_int (at_ (0 :: J) n) (at_ J n) (sigma (at_ J n)) k.
  Proof. intros H. unfold var_at_vol_knots, cumsum. rewrite cumsum_from_nth by (rewrite between_length; exact H). rewrite between_at by exact H. reflexivity. Qed.
  Lemma variance_cell n t : (n <= length J)%nat -> at_ (0 :: J) n <= t -> ((n < length J)%nat -> t <= at_ J n) ->
    is_RInt (fun u => sigma u ^ 2 * exp (2 * k * u)) (at_ (0 :: J) n) t (variance_int (at_ (0 :: J) n) t (sigma t) k).
  Proof.
    intros N L U. set (t0 := at_ (0 :: J) n) in *. set (s := sigma t). apply (is_RInt_ext (V := R_NormedModule) (fun u => s ^ 2 * exp (2 * k * u))).
    - intros u H. rewrite Rmin_left, Rmax_right in H by exact L. unfold s. rewrite <- (same_piece (hw_vol h a) J n u t VO J_sorted); [reflexivity| |exact N|apply H|lra|exact U].
      intros x X. apply J_in, in_or_app. left. exact X.
    - set (F := fun u => s ^ 2 / (2 * k) * exp (2 * k * u)). replace (variance_int t0 t s k) with (F t - F t0) by (unfold F, variance_int; field; exact K0).
      apply (is_RInt_derive (V := R_CompleteNormedModule) F (fun u => s ^ 2 * exp (2 * k * u))).
      + intros u _. unfold F. auto_derive; [exact Logic.I|]. field. exact K0.
      + intros u _. apply (ex_derive_continuous (K := R_AbsRing) (V := R_NormedModule)). auto_derive. exact Logic.I.
  Qed.
  Lemma variance_integral : noise_integral sigma k (variance_at h a).
  Proof.
    intros t T. unfold variance_at. cbv zeta. rewrite mr_at. rewrite Rplus_comm.
    apply (knot_integral J _ (fun n t => variance_int (at_ (vn h a) n) t (sigma t) k) (fun n => A n) J_sorted J_pos); [exact variance_cell|reflexivity|exact A_step|exact T].
  Qed.
  Lemma ex_length : length (ex_between_vol_knots h a) = length J.
  Proof.
    unfold ex_between_vol_knots. rewrite map_length, !combine_length. unfold jump_values_vol, jump_values_mr. rewrite !map_length. destruct J as [|x l] eqn:E; [cbn; lia|]. rewrite <- E. rewrite padded_length by (rewrite E; discriminate).
    unfold var_at_vol_knots. rewrite removelast_len. unfold cumsum. rewrite cumsum_from_length, between_length. lia.
  Qed.
  Lemma ex_at n : (n < length J)%nat -> at_ (ex_between_vol_knots h a) n = ex_integral (at_ (0 :: J) n) (at_ J n) (sigma (at_ J n)) k (A n).
  Proof.
    intros H. assert (NE : J <> []) by (intros E; rewrite E in H; cbn in H; lia). pose proof ex_length as BL. unfold ex_between_vol_knots in *. rewrite map_length in BL.
    assert (RL : length (removelast (var_at_vol_knots h a)) = length J) by (unfold var_at_vol_knots; rewrite removelast_len; unfold cumsum; rewrite cumsum_from_length, between_length; reflexivity).
    unfold at_ at 1. match goal with |- nth n (map ?f ?l) 0 = _ => pose (F := f); change (map f l) with (map F l) end. rewrite (nth_indep _ 0 (F ((0, 0), ((0, 0), 0)))) by (rewrite map_length, BL; exact H). rewrite map_nth. unfold F.
    rewrite nth_combine by (rewrite !combine_length, RL; unfold jump_values_vol, jump_values_mr; rewrite !map_length, (padded_length NE); lia).
    rewrite (nth_combine (combine (jump_values_vol h a) (jump_values_mr h a))) by (rewrite combine_length, RL; unfold jump_values_vol, jump_values_mr; rewrite !map_length; lia).
    rewrite !nth_combine by (unfold jump_values_vol, jump_values_mr; rewrite ?map_length, ?(padded_length NE); reflexivity).
    fold (at_ (padded_knots h a) n) (at_ J n) (at_ (jump_values_vol h a) n) (at_ (jump_values_mr h a) n). rewrite padded_at by exact H. unfold jump_values_vol, jump_values_mr. rewrite !at_map by exact H. rewrite mr_at. f_equal.
    unfold var_at_vol_knots, at_. apply removelast_nth. unfold cumsum. rewrite cumsum_from_length, between_length. exact H.
  Qed.
  Lemma ex_step n : (n < length J)%nat -> at_ (ex_at_vol_knots h a) (S n) = at_ (ex_at_vol_knots h a) n + ex_integral (at_ (0 :: J) n) (at_ J n) (sigma (at_ J n)) k (A n).
  Proof. intros H. unfold ex_at_vol_knots, cumsum. rewrite cumsum_from_nth by (rewrite ex_length; exact H). rewrite ex_at by exact H. reflexivity. Qed.
  Lemma ex_cell n t : (n <= length J)%nat -> at_ (0 :: J) n <= t -> ((n < length J)%nat -> t <= at_ J n) ->
    is_RInt (fun u => exp (- k * u) * variance_at h a u) (at_ (0 :: J) n) t (ex_integral (at_ (0 :: J) n) t (sigma t) k (A n)).
  Proof.
    intros N L U. set (t0 := at_ (0 :: J) n) in *. set (s := sigma t). set (y := A n). apply (is_RInt_ext (V := R_NormedModule) (fun u => exp (- k * u) * (variance_int t0 u s k + y))).
    - intros u H. rewrite Rmin_left, Rmax_right in H by exact L. unfold variance_at. cbv zeta. rewrite (knot_cell_index J n u J_sorted N); [|apply H|intros Q; specialize (U Q); lra]. rewrite mr_at. unfold vn. fold t0. fold y. unfold s. rewrite <- (same_piece (hw_vol h a) J n u t VO J_sorted); [reflexivity| |exact N|apply H|lra|exact U].
      intros x X. apply J_in, in_or_app. left. exact X.
    - set (F := fun u => ex_integral t0 u s k y). replace (ex_integral t0 t s k y) with (F t - F t0) by (unfold F, ex_integral; field; exact K0).
      apply (is_RInt_derive (V := R_CompleteNormedModule) F).
      + intros u _. unfold F, ex_integral, variance_int. auto_derive; [exact Logic.I|]. replace (exp (2 * k * u)) with (exp (k * u) * exp (k * u)) by (rewrite <- exp_plus; f_equal; ring). replace (exp (- k * u)) with (/ exp (k * u)) by (rewrite <- exp_Ropp; f_equal; ring). pose proof (exp_pos (k * u)). field. split; lra.
      + intros u _. apply (ex_derive_continuous (K := R_AbsRing) (V := R_NormedModule)). unfold variance_int. auto_derive. exact Logic.I.
  Qed.
  Lemma mean_integral : drift_integral k (variance_at h a) (mean_at h a).
  Proof.
    intros t T. unfold mean_at. cbv zeta. rewrite mr_at. rewrite Rplus_comm.
    apply (knot_integral J _ (fun n t => ex_integral (at_ (vn h a) n) t (sigma t) k (A n)) (fun n => at_ (ex_at_vol_knots h a) n) J_sorted J_pos); [exact ex_cell|reflexivity|exact ex_step|exact T].
  Qed.
End Constant.
