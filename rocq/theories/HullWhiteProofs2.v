(** Lemmas for sampling the Hull-White model: the recording loop, the time grid
    and the states. *)
From Coquelicot Require Import Coquelicot.
From Coq Require Import ZArith Reals List Bool Arith Lia Lra FunctionalExtensionality.
From Verif Require Import TensorModel TensorProofs SegmentModel BrentModel LoopModel LoopProofs TimeGridModel TimeGridSpec TimeGridProofs PropsTimeGrid
  PropsLoop PiecewiseModel PiecewiseProofs PropsPiecewise GbmModel MvNormalSpec MvNormalProofs GbmSpec GbmProofs2 PropsEuler HullWhiteModel HullWhiteSpec HullWhiteProofs.
Import ListNotations.
Open Scope R_scope.

(** * The loop *)
Section Record.
Context {A B : Type}.
Variables (step : nat -> A -> option A) (out : nat -> A -> B) (X : nat -> A) (steps : nat).
Hypothesis ST : forall i, (i < steps)%nat -> step i (X i) = Some (X (S i)).
Variables (mask : list bool) (idx : list nat).
Hypotheses (Im : increasing_nat idx) (Mk : marks mask (S steps) idx) (Ne : idx <> []).
Let n := length idx.
Let O i := out i (X i).

Definition tape_ok (w i : nat) (r : @tape B) : Prop :=
  match r with
  | Single y => n = 1%nat /\ y = O i
  | Slots l => n <> 1%nat /\ length l = n /\ forall k, (k < w)%nat -> nth_error l k = Some (Some (O (nth k idx 0%nat)))
  end.
Definition passed (w i : nat) : Prop := (w <= n)%nat /\ (forall k, (k < w)%nat -> (nth k idx 0 <= i)%nat) /\ (forall k, (w <= k < n)%nat -> (i < nth k idx 0)%nat).
Lemma kept_le i : (kept mask i <= 1)%nat.
Proof. unfold kept. destruct (nth i mask false); lia. Qed.
Lemma kept_step w i : passed w i -> (i < steps)%nat ->
  passed (w + kept mask (i + 1)) (S i) /\ (kept mask (i + 1) = 1%nat -> (w < n)%nat /\ nth w idx 0%nat = S i).
Proof.
  intros (U1 & U2 & U3) L. destruct Mk as (M1 & M2 & M3). unfold kept. rewrite Nat.add_1_r. destruct (nth (S i) mask false) eqn:E.
  - apply M3 in E; [|lia]. apply In_nth with (d := 0%nat) in E. destruct E as (k & K & E). fold n in K.
    assert (W : (w <= k)%nat). { destruct (le_lt_dec w k); [assumption|]. specialize (U2 k ltac:(lia)). lia. }
    assert (k = w). { destruct (Nat.eq_dec k w); [assumption|]. pose proof (increasing_nat_lt idx Im w k ltac:(lia) K). specialize (U3 w ltac:(lia)). lia. }
    subst k. split; [|intros _; split; assumption]. split; [lia|]. split.
    + intros k Q. destruct (Nat.eq_dec k w) as [->|]; [lia|]. specialize (U2 k ltac:(lia)). lia.
    + intros k Q. pose proof (increasing_nat_lt idx Im w k ltac:(lia) ltac:(unfold n in Q; lia)). lia.
  - split; [|discriminate]. rewrite Nat.add_0_r. split; [exact U1|]. split; [intros k Q; specialize (U2 k Q); lia|].
    intros k Q. specialize (U3 k Q). destruct (Nat.eq_dec (nth k idx 0%nat) (S i)) as [Q'|]; [|lia].
    assert (In (S i) idx) by (rewrite <- Q'; apply nth_In; unfold n in Q; lia). apply M3 in H; [congruence|lia].
Qed.
Definition finish (r : @tape B) : option (list B) := match r with Single y => Some [y] | Slots l => all_some l end.
Definition recorded : list B := map O idx.
Lemma finish_one i : n = 1%nat -> nth 0 idx 0%nat = i -> recorded = [O i].
Proof. unfold n, recorded. destruct idx as [|a [|b l]]; try discriminate. cbn. intros _ ->. reflexivity. Qed.
Lemma finish_slots l : length l = n -> (forall k, (k < n)%nat -> nth_error l k = Some (Some (O (nth k idx 0%nat)))) -> all_some l = Some recorded.
Proof.
  intros L H. assert (E : l = map Some recorded).
  { apply nth_error_ext'. intros k. unfold recorded. rewrite map_map. destruct (le_lt_dec n k) as [Q|Q].
    - rewrite !(proj2 (nth_error_None _ _)); [reflexivity|rewrite map_length; exact Q|lia].
    - rewrite (H k Q). rewrite nth_error_map, (nth_error_nth' idx 0%nat) by exact Q. reflexivity. }
  rewrite E. clear. induction recorded as [|x r IH]; [reflexivity|]. cbn. rewrite IH. reflexivity.
Qed.
Lemma finish_ok w i r : w = n -> tape_ok w i r -> (n = 1%nat -> w = 1%nat -> nth 0 idx 0%nat = i) -> finish r = Some recorded.
Proof.
  intros -> R1 R2. destruct r as [x|l]; cbn [finish tape_ok] in *.
  - destruct R1 as [R1 ->]. f_equal. symmetry. apply finish_one; [exact R1|]. apply R2; exact R1.
  - destruct R1 as (R1 & R3 & R4). apply finish_slots; assumption.
Qed.
Lemma loop_ok : forall m i w r, (i + m = steps)%nat -> passed w i -> tape_ok w i r ->
  (n = 1%nat -> w = 1%nat -> nth 0 idx 0%nat = i) ->
  exists r', recording_loop step out mask steps n (S m) i w (X i) r = Some r' /\ finish r' = Some recorded.
Proof.
  induction m as [|m IH]; intros i w r F U R1 R2.
  - exists r. cbn [recording_loop]. replace (Nat.ltb i steps) with false by (symmetry; apply Nat.ltb_ge; lia). cbn [andb]. split; [reflexivity|].
    apply (finish_ok w i r); [|exact R1|exact R2]. destruct U as (U1 & U2 & U3). destruct (Nat.eq_dec w n); [assumption|]. specialize (U3 w ltac:(lia)).
    destruct Mk as (M1 & M2 & M3). specialize (M2 (nth w idx 0%nat) ltac:(apply nth_In; fold n; lia)). lia.
  - remember (S m) as m1 eqn:EM. cbn [recording_loop]. replace (Nat.ltb i steps) with true by (symmetry; apply Nat.ltb_lt; lia). cbn [andb].
    destruct (Nat.ltb_spec w n) as [W|W].
    + rewrite ST by lia. pose proof (kept_le (i + 1)) as FL. destruct (kept_step w i U ltac:(lia)) as [U' FW].
      assert (RS : exists r', write r w (out (i + 1) (X (S i))) = Some r' /\ tape_ok (w + kept mask (i + 1)) (S i) r').
      { rewrite Nat.add_1_r. fold (O (S i)). destruct r as [x|l]; cbn [write tape_ok] in *.
        - exists (Single (O (S i))). split; [reflexivity|]. destruct R1. split; [assumption|reflexivity].
        - destruct R1 as (R1 & R3 & R4). destruct (acc_write_ok l w (O (S i)) ltac:(lia)) as (l' & W1 & W2 & W3 & W4). rewrite W1. exists (Slots l').
          split; [reflexivity|]. rewrite (Nat.add_1_r i) in *. split; [exact R1|]. split; [lia|]. intros k K. destruct (Nat.eq_dec k w) as [->|D].
          + rewrite W3. destruct (FW ltac:(lia)) as [_ ->]. reflexivity.
          + rewrite W4 by exact D. apply R4. lia. }
      destruct RS as (r' & RS1 & RS2). rewrite RS1. clear RS1. rewrite (Nat.add_1_r i) in *. subst m1. apply IH; [lia|exact U'|exact RS2|].
      intros N1 W1. assert (w = 0%nat) by lia. subst w. destruct (FW ltac:(lia)) as [_ F2]. exact F2.
    + exists r. split; [reflexivity|]. apply (finish_ok w i r); [destruct U; lia|exact R1|exact R2].
Qed.
Lemma record_run_ok : record_run step out mask steps n (X 0%nat) = Some recorded.
Proof.
  assert (Np : (0 < n)%nat) by (unfold n; destruct idx; [contradiction|cbn; lia]).
  assert (U : passed (0 + kept mask 0) 0 /\ (kept mask 0 = 1%nat -> nth 0 idx 0%nat = 0%nat)).
  { destruct Mk as (M1 & M2 & M3). unfold kept. destruct (nth 0 mask false) eqn:E; cbn [plus].
    - apply M3 in E; [|lia]. apply In_nth with (d := 0%nat) in E. destruct E as (k & K & E). fold n in K.
      assert (k = 0%nat). { destruct k; [reflexivity|]. pose proof (increasing_nat_lt idx Im 0 (S k) ltac:(lia) K). lia. }
      subst k. split; [|intros _; exact E]. split; [lia|]. split; [intros k Q; replace k with 0%nat by lia; lia|].
      intros k Q. pose proof (increasing_nat_lt idx Im 0 k ltac:(lia) ltac:(unfold n in Q; lia)). lia.
    - split; [|discriminate]. split; [lia|]. split; [intros k Q; lia|]. intros k Q. destruct (Nat.eq_dec (nth k idx 0%nat) 0) as [Q'|]; [|lia].
      assert (In 0%nat idx) by (rewrite <- Q'; apply nth_In; unfold n in Q; lia). apply M3 in H; [congruence|lia]. }
  destruct U as [U1 U2]. unfold record_run. fold (O 0).
  assert (SS : exists r, (if Nat.eqb n 1 then Some (Single (O 0)) else write (Slots (repeat None n)) 0 (O 0)) = Some r /\ tape_ok (0 + kept mask 0) 0 r).
  { destruct (Nat.eqb_spec n 1) as [E|E].
    - exists (Single (O 0)). split; [reflexivity|]. split; [exact E|reflexivity].
    - cbn [write]. destruct (acc_write_ok (repeat None n) 0 (O 0)) as (l & W1 & W2 & W3 & W4); [rewrite repeat_length; exact Np|]. rewrite W1.
      exists (Slots l). split; [reflexivity|]. split; [exact E|]. split; [rewrite W2, repeat_length; reflexivity|]. intros k K.
      assert (k = 0%nat /\ kept mask 0 = 1%nat) as [-> K1]. { unfold kept in *. destruct (nth 0 mask false); cbn in *; lia. }
      rewrite W3, (U2 K1). reflexivity. }
  destruct SS as (r & S1 & S2). rewrite S1.
  destruct (loop_ok steps 0 (0 + kept mask 0) r) as (r' & W1 & W2); [lia|exact U1|exact S2|intros _ Q; apply U2; exact Q|].
  rewrite W1. destruct r'; exact W2.
Qed.
End Record.

(** * The grid *)
Definition all_jumps (h : hw) : list R :=
  flat_map (fun a => param_jumps (hw_mr h a)) (seq 0 (hw_dim h)) ++ flat_map (fun a => param_jumps (hw_vol h a)) (seq 0 (hw_dim h)) ++ corr_jumps h.
Lemma sort_cons_ne x l : sort (x :: l) <> [].
Proof. intros E. assert (H : In x (sort (x :: l))) by (rewrite sort_in; left; reflexivity). rewrite E in H. exact H. Qed.
Definition the_grid (h : hw) (times : list R) : list R := sort ([0] ++ times ++ all_jumps h).
Lemma the_grid_first h times : (forall t, In t (times ++ all_jumps h) -> 0 <= t) -> at_ (the_grid h times) 0 = 0 /\ forall i, (i < length (the_grid h times))%nat -> 0 <= at_ (the_grid h times) i.
Proof.
  intros P. assert (Q : forall t, In t (the_grid h times) -> 0 <= t).
  { intros t H. unfold the_grid in H. rewrite sort_in in H. cbn [app In] in H. destruct H as [<-|H]; [lra|apply P, H]. }
  assert (G : forall i, (i < length (the_grid h times))%nat -> 0 <= at_ (the_grid h times) i) by (intros i H; apply Q, nth_In, H).
  split; [|exact G]. assert (Z : In 0 (the_grid h times)) by (unfold the_grid; rewrite sort_in; left; reflexivity). apply (In_nth _ 0 0) in Z. destruct Z as (m & M & E). fold (at_ (the_grid h times) m) in E.
  pose proof (nondecr_le _ (sort_nondecr ([0] ++ times ++ all_jumps h)) 0 m ltac:(lia) M). fold (the_grid h times) in H. specialize (G 0%nat ltac:(lia)). lra.
Qed.
Lemma the_grid_index h times t : In t times -> let i := searchsorted_left (the_grid h times) t in (i < length (the_grid h times))%nat /\ at_ (the_grid h times) i = t.
Proof.
  intros H i. set (g := the_grid h times) in *. assert (SG : nondecr g) by apply sort_nondecr. assert (Z : In t g) by (unfold g, the_grid; rewrite sort_in; cbn [app In]; right; apply in_or_app; left; exact H). apply (In_nth _ _ 0) in Z. destruct Z as (m & M & E). fold (at_ g m) in E.
  assert (IM : (i <= m)%nat). { destruct (le_lt_dec i m); [assumption|]. pose proof (ssl_below g t m ltac:(fold i; lia)). lra. }
  split; [lia|]. pose proof (ssl_above g t SG i ltac:(fold i; lia)). pose proof (nondecr_le g SG i m IM M). lra.
Qed.
Definition indices (h : hw) (times : list R) : list nat := map (searchsorted_left (the_grid h times)) times.
Lemma indices_nth h times i : (i < length times)%nat -> nth i (indices h times) 0%nat = searchsorted_left (the_grid h times) (nth i times 0).
Proof. intros H. unfold indices. rewrite (nth_indep _ 0%nat (searchsorted_left (the_grid h times) 0)) by (rewrite map_length; exact H). apply map_nth. Qed.
Lemma indices_at h times i : (i < length times)%nat -> (nth i (indices h times) 0 < length (the_grid h times))%nat /\ at_ (the_grid h times) (nth i (indices h times) 0%nat) = nth i times 0.
Proof. intros H. rewrite indices_nth by exact H. apply the_grid_index, nth_In, H. Qed.
Lemma indices_increasing h times : increasing times -> increasing_nat (indices h times).
Proof.
  intros I0 i H. unfold indices in H. rewrite map_length in H. destruct (indices_at h times i ltac:(lia)) as (L1 & E1). destruct (indices_at h times (S i) H) as (L2 & E2).
  specialize (I0 i H). destruct (le_lt_dec (nth (S i) (indices h times) 0%nat) (nth i (indices h times) 0%nat)) as [Q|Q]; [|exact Q]. exfalso.
  pose proof (nondecr_le _ (sort_nondecr ([0] ++ times ++ all_jumps h)) _ _ Q L1) as W. fold (the_grid h times) in W. rewrite E1, E2 in W. lra.
Qed.
Lemma grid_ok h times : exists mask, hw_prepare_grid h times None = Some (the_grid h times, mask) /\ marks mask (length (the_grid h times)) (indices h times).
Proof.
  destruct (scatter_marks (indices h times) (length (the_grid h times))) as (mask & E & MK).
  - intros i H. unfold indices in H. apply in_map_iff in H. destruct H as (t & <- & H). apply the_grid_index, H.
  - exists mask. split; [|exact MK]. unfold hw_prepare_grid. cbv zeta. fold (all_jumps h). fold (the_grid h times). fold (indices h times). rewrite E. reflexivity.
Qed.
Lemma given_grid_ok h times g mask idx : prepare_grid times 0 0 None (Some g) = Some (g, mask, idx) -> hw_prepare_grid h times (Some g) = Some (g, mask).
Proof.
  unfold prepare_grid, hw_prepare_grid. destruct (all_some (map (nearest_index g) times)) as [l|]; [|discriminate]. cbn [option_map]. destruct (scatter_mask l (length g)) as [m|]; [|discriminate]. intros E. injection E as <- <-. reflexivity.
Qed.

(** * The states *)
Definition hw_setting (h : hw) (k : nat -> R) (V M : nat -> R -> R) : Prop := forall a, (a < hw_dim h)%nat ->
  hw_mr h a = Const (k a) /\ k a <> 0 /\ piecewise_ok (hw_vol h a) /\ (forall x, In x (param_jumps (hw_vol h a) ++ corr_jumps h) -> 0 <= x) /\
  noise_integral (param_at (hw_vol h a)) (k a) (V a) /\ drift_integral (k a) (V a) (M a).
Lemma noise_unique s k V W : noise_integral s k V -> noise_integral s k W -> forall t, 0 <= t -> V t = W t.
Proof. intros HV HW t T. specialize (HV t T). specialize (HW t T). apply (is_RInt_unique (V := R_CompleteNormedModule)) in HV, HW. congruence. Qed.
Lemma drift_unique k V W M N : (forall t, 0 <= t -> V t = W t) -> drift_integral k V M -> drift_integral k W N -> forall t, 0 <= t -> M t = N t.
Proof.
  intros E HV HW t T. specialize (HV t T). specialize (HW t T). apply (is_RInt_ext (V := R_NormedModule) _ (fun u => exp (- k * u) * W u)) in HV.
  - apply (is_RInt_unique (V := R_CompleteNormedModule)) in HV, HW. congruence.
  - intros u H. rewrite Rmin_left, Rmax_right in H by exact T. rewrite E by lra. reflexivity.
Qed.
Lemma noise_between s k V t t' : noise_integral s k V -> 0 <= t <= t' -> is_RInt (fun u => s u ^ 2 * exp (2 * k * u)) t t' (V t' - V t).
Proof.
  intros HV T. pose proof (HV t ltac:(lra)) as H. pose proof (HV t' ltac:(lra)) as H'. apply (is_RInt_swap (V := R_NormedModule)) in H.
  pose proof (is_RInt_Chasles (V := R_NormedModule) _ t 0 t' _ _ H H') as C. match type of C with is_RInt _ _ _ ?d => replace (V t' - V t) with d; [exact C|] end. unfold plus, opp. cbn. ring.
Qed.
Lemma noise_grows s k V t t' : noise_integral s k V -> 0 <= t <= t' -> 0 <= V t' - V t.
Proof.
  intros HV T. apply (is_RInt_ge_0 _ t t' _ (proj2 T) (noise_between s k V t t' HV T)). intros x _. apply Rmult_le_pos; [apply pow2_ge_0|apply Rlt_le, exp_pos].
Qed.
Lemma noise_zero s k V : noise_integral s k V -> V 0 = 0.
Proof. intros HV. specialize (HV 0 ltac:(lra)). apply (is_RInt_unique (V := R_CompleteNormedModule)) in HV. rewrite <- HV. apply (RInt_point (V := R_CompleteNormedModule)). Qed.
Lemma drift_zero k V M : drift_integral k V M -> M 0 = 0.
Proof. intros HV. specialize (HV 0 ltac:(lra)). apply (is_RInt_unique (V := R_CompleteNormedModule)) in HV. rewrite <- HV. apply (RInt_point (V := R_CompleteNormedModule)). Qed.

Section States.
  Variables (h : hw) (k : nat -> R) (V M : nat -> R -> R) (grid : list R) (available : nat) (root : option (list matrix)) (L : nat -> matrix) (draws : nat -> rates).
  Hypothesis HS : hw_setting h k V M.
  Hypothesis SG : nondecr grid.
  Hypothesis G0 : at_ grid 0 = 0.
  Hypothesis AV : (length grid <= S available)%nat.
  Hypothesis RT : forall i s a, (S i < length grid)%nat -> (a < hw_dim h)%nat ->
    match root with Some l => rsum (fun b => nth i l (fun _ _ => 0) a b * draws i s b) (hw_dim h) | None => draws i s a end = sum_to (hw_dim h) (fun b => L i a b * draws i s b).
  (** the step inside [hw_sample] *)
  Definition the_step (i : nat) (x : rates) : option rates :=
    if Nat.ltb i available then
      let normals s a := match root with
                         | Some l => rsum (fun b => nth i l (fun _ _ => 0) a b * draws i s b) (hw_dim h)
                         | None => draws i s a
                         end in
      let vol_x a := let v := sqrt (Rmax (conditional_variance_x h a grid i) 0) in if rlt 0 v then v else 0 in
      Some (fun s a => exp (- param_at (hw_mr h a) (at_ grid (i + 1)) * at_ (diff 1 true grid) i) * x s a + conditional_mean_x h a grid i + vol_x a * normals s a)
    else None.
  Fixpoint states (n : nat) : rates := match n with O => fun _ _ => 0 | S i => match the_step i (states i) with Some x => x | None => states i end end.
  Lemma states_step i : (i < length (diff 1 true grid))%nat -> the_step i (states i) = Some (states (S i)).
  Proof. intros H. rewrite diff_length' in H. cbn [states]. unfold the_step. replace (Nat.ltb i available) with true by (symmetry; apply Nat.ltb_lt; lia). reflexivity. Qed.
  Lemma grid_pos i : (i < length grid)%nat -> 0 <= at_ grid i.
  Proof. intros H. rewrite <- G0. apply (nondecr_le grid SG); [lia|exact H]. Qed.
  Lemma states_value s a : (a < hw_dim h)%nat -> forall n, (n < length grid)%nat ->
    states n s a + hw_forward h a (at_ grid n) = hw_solution (hw_forward h a) (k a) (V a) (M a) (at_ grid) (fun j => sum_to (hw_dim h) (fun b => L j a b * draws j s b)) n.
  Proof.
    intros Ha. destruct (HS a Ha) as (MR & K0 & VO & PJ & NI & DI). pose proof (noise_unique _ _ _ _ (variance_integral h a (k a) MR K0 VO PJ) NI) as VU.
    pose proof (drift_unique _ _ _ _ _ VU (mean_integral h a (k a) MR K0 VO PJ) DI) as MU. unfold hw_solution.
    induction n as [|n IH]; intros H.
    - cbn [states sum_to]. rewrite G0, (drift_zero _ _ _ DI). ring.
    - specialize (IH ltac:(lia)). assert (T : 0 <= at_ grid n <= at_ grid (S n)) by (split; [apply grid_pos; lia|apply SG, H]).
      cbn [sum_to]. set (Sn := sum_to n _) in *. set (w := sum_to (hw_dim h) (fun b => L n a b * draws n s b)). set (t := at_ grid n) in *. set (t' := at_ grid (S n)) in *.
      assert (E : states (S n) s a = exp (- k a * (t' - t)) * states n s a + (M a t' - M a t) * exp (- k a * t') + sqrt (V a t' - V a t) * exp (- k a * t') * w).
      { cbn [states]. unfold the_step. replace (Nat.ltb n available) with true by (symmetry; apply Nat.ltb_lt; lia). cbv zeta. rewrite Nat.add_1_r. fold t'. rewrite MR. cbn [param_at]. unfold at_ at 1. rewrite diff_nth' by exact H. fold (at_ grid n) (at_ grid (S n)). fold t t'.
        rewrite (RT n s a H Ha). fold w. f_equal; [f_equal|f_equal].
        - unfold conditional_mean_x. rewrite Nat.add_1_r. fold t t'. rewrite MR. cbn [param_at]. rewrite !MU by lra. reflexivity.
        - assert (C : conditional_variance_x h a grid n = (V a t' - V a t) * exp (- k a * t') ^ 2).
          { unfold conditional_variance_x. rewrite Nat.add_1_r. fold t t'. rewrite MR. cbn [param_at]. rewrite !VU by lra. f_equal. cbn [pow]. rewrite Rmult_1_r, <- exp_plus. f_equal. ring. }
          rewrite C. pose proof (noise_grows _ _ _ t t' NI T) as G. pose proof (exp_pos (- k a * t')) as EP.
          rewrite Rmax_left by (apply Rmult_le_pos; [exact G|apply pow2_ge_0]). rewrite sqrt_mult_alt by exact G. rewrite sqrt_pow2 by lra.
          pose proof (sqrt_pos (V a t' - V a t)) as SP. unfold rlt. destruct (Rlt_dec 0 (sqrt (V a t' - V a t) * exp (- k a * t'))) as [_|N]; [reflexivity|]. assert (0 <= sqrt (V a t' - V a t) * exp (- k a * t')) by (apply Rmult_le_pos; lra). lra. }
      rewrite E. assert (X : states n s a = exp (- k a * t) * (M a t + Sn)) by lra. rewrite X. replace (exp (- k a * (t' - t)) * (exp (- k a * t) * (M a t + Sn))) with (exp (- k a * t') * (M a t + Sn)); [ring|].
      rewrite <- Rmult_assoc, <- exp_plus. do 2 f_equal. ring.
  Qed.
End States.
