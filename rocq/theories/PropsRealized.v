(** C51: realized volatility. *)
From Coq Require Import Reals List Bool Arith Lia Lra.
From Verif Require Import TensorModel TensorProofs SegmentModel BrentModel InterpModel VarianceProofs RealizedModel RealizedSpec.
Import ListNotations.
Open Scope R_scope.

Lemma dnth l i : (S i < length l)%nat -> nth i (diff 1 true l) 0 = nth (S i) l 0 - nth i l 0.
Proof.
  revert i. induction l as [|x [|y l] IH]; intros i H; [cbn in H; lia|cbn in H; lia|]. rewrite diff_cons. destruct i; [reflexivity|].
  change (nth (S i) ((y - x) :: diff 1 true (y :: l)) 0) with (nth i (diff 1 true (y :: l)) 0). rewrite IH by (cbn in *; lia). reflexivity.
Qed.
Lemma dlength l : length (diff 1 true l) = (length l - 1)%nat.
Proof. induction l as [|x [|y l] IH]; [reflexivity|reflexivity|]. rewrite diff_cons. cbn [length]. rewrite IH. cbn. lia. Qed.
Lemma sum_rsum l : fold_right Rplus 0 l = rsum (fun k => nth k l 0) (length l).
Proof. induction l as [|x l IH]; [reflexivity|]. cbn [length]. rewrite rsum_S_l. cbn [fold_right nth]. rewrite IH. reflexivity. Qed.
Lemma quot_nth a b k : (k < length a)%nat -> length a = length b -> nth k (map (fun '(x, y) => x / y) (combine a b)) 0 = nth k a 0 / nth k b 0.
Proof.
  revert b k. induction a as [|x a IH]; intros [|y b] k K L; cbn in *; try lia. destruct k; [reflexivity|]. apply IH; lia.
Qed.
Lemma prod_nth f a b k : (k < length a)%nat -> length a = length b -> nth k (map (fun '(x, y) => x * f y) (combine a b)) 0 = nth k a 0 * f (nth k b 0).
Proof.
  revert b k. induction a as [|x a IH]; intros [|y b] k K L; cbn in *; try lia. destruct k; [reflexivity|]. apply IH; lia.
Qed.
Lemma map_nth0 (f : R -> R) l k : (k < length l)%nat -> nth k (map f l) 0 = f (nth k l 0).
Proof. intros K. rewrite (nth_indep _ 0 (f 0)) by (rewrite map_length; exact K). apply map_nth. Qed.

(** the divisors of the time axis *)
Definition dts (times : option (list R)) (n : nat) : list R := match times with None => repeat 1 (n - 1) | Some t => diff 1 true t end.
Lemma dts_length path times : times_ok path times -> length (dts times (length path)) = (length path - 1)%nat.
Proof. destruct times as [t|]; cbn [times_ok dts]; [intros [H _]; rewrite dlength, H; reflexivity|intros _; apply repeat_length]. Qed.
Lemma dts_nth path times k : times_ok path times -> (S k < length path)%nat -> nth k (dts times (length path)) 0 = step_before times k /\ 0 < step_before times k.
Proof.
  destruct times as [t|]; cbn [times_ok dts step_before].
  - intros [H1 H2] K. rewrite dnth by lia. unfold pt in *. specialize (H2 k ltac:(lia)). split; [reflexivity|lra].
  - intros _ K. split; [|lra]. assert (G : forall n j, (j < n)%nat -> nth j (repeat 1 n) 0 = 1).
    { induction n as [|n IH]; intros [|j] J; cbn; [lia|lia|reflexivity|apply IH; lia]. }
    apply G. lia.
Qed.
Lemma no_zero l : (forall k, (k < length l)%nat -> 0 < nth k l 0) -> existsb (fun x => req x 0) l = false.
Proof.
  intros H. apply not_true_is_false. intros E. apply existsb_exists in E. destruct E as (x & X & E). apply In_nth with (d := 0) in X.
  destruct X as (k & K & <-). specialize (H k K). unfold req in E. destruct (Req_EM_T (nth k l 0) 0); [lra|discriminate].
Qed.
Lemma firstn_nth' (l : list R) n k : (k < n)%nat -> nth k (firstn n l) 0 = nth k l 0.
Proof. revert n k. induction l as [|x l IH]; intros [|n] [|k] H; cbn; try reflexivity; try lia. apply IH. lia. Qed.

Lemma shapes_ok path times : times_ok path times -> match times with None => true | Some t => Nat.eqb (length t) (length path) end = true.
Proof. destruct times as [t|]; [intros [-> _]; apply Nat.eqb_refl|reflexivity]. Qed.

(** the statistic of the transformed path *)
Lemma log_value p times c : times_ok p times ->
  realized_volatility p times c ReturnsLog ScaleLog = Some (factor c * sqrt (rsum (fun k => Rsqr (pt p (S k) - pt p k) / step_before times k) (length p - 1))).
Proof.
  intros T. unfold realized_volatility, transformed_paths, denominators. rewrite shapes_ok by exact T. fold (dts times (length p)).
  rewrite no_zero.
  2:{ intros k K. rewrite dts_length in K by exact T. destruct (dts_nth p times k T ltac:(lia)) as [-> Q]. exact Q. }
  cbn [negb orb]. rewrite sum_rsum, map_length, combine_length, map_length, dlength, dts_length by exact T. rewrite Nat.min_id.
  rewrite (rsum_ext _ (fun k => Rsqr (pt p (S k) - pt p k) / step_before times k)).
  2:{ intros k K. rewrite quot_nth; [|rewrite map_length, dlength; exact K|rewrite map_length, dlength, dts_length by exact T; reflexivity].
      rewrite map_nth0 by (rewrite dlength; exact K). rewrite dnth by lia. destruct (dts_nth p times k T ltac:(lia)) as [-> _]. reflexivity. }
  set (v := rsum _ _). assert (V : 0 <= v).
  { apply rsum_nonneg. intros k K. destruct (dts_nth p times k T ltac:(lia)) as [_ Q]. apply Rmult_le_pos; [apply Rle_0_sqr|left; apply Rinv_0_lt_compat; exact Q]. }
  cbn [result_transform]. unfold rlt. destruct (Rlt_dec v 0); [lra|]. destruct c; cbn [factor]; f_equal; ring.
Qed.
Lemma log_original path times c : positive_path path ->
  realized_volatility path times c ReturnsLog ScaleOriginal = realized_volatility (map ln path) times c ReturnsLog ScaleLog.
Proof.
  intros P. unfold realized_volatility at 1. cbn [transformed_paths]. assert (F : forallb (fun x => rlt 0 x) path = true).
  { apply forallb_forall. intros x X. specialize (P x X). unfold rlt. destruct (Rlt_dec 0 x); [reflexivity|lra]. }
  rewrite F. unfold realized_volatility. cbn [transformed_paths]. rewrite map_length. reflexivity.
Qed.
Lemma times_map f path times : times_ok path times -> times_ok (map f path) times.
Proof. destruct times; cbn; [rewrite map_length; auto|auto]. Qed.

(** Log returns: the documented value, on both path scales. *)
Theorem C51_log_returns : forall path times c, positive_path path -> times_ok path times ->
  realized_volatility path times c ReturnsLog ScaleOriginal = Some (factor c * sqrt (log_variance path times)) /\
  realized_volatility (map ln path) times c ReturnsLog ScaleLog = Some (factor c * sqrt (log_variance path times)).
Proof.
  intros path times c P T. rewrite log_original by exact P. rewrite log_value by (apply times_map, T).
  assert (E : rsum (fun k => Rsqr (pt (map ln path) (S k) - pt (map ln path) k) / step_before times k) (length (map ln path) - 1) = log_variance path times).
  { rewrite map_length. apply rsum_ext. intros k K. unfold pt. rewrite !map_nth0 by lia. do 2 f_equal. unfold Rdiv. rewrite ln_mult, ln_Rinv; [ring|apply P, nth_In; lia|apply P, nth_In; lia|].
    apply Rinv_0_lt_compat, P, nth_In. lia. }
  rewrite E. split; reflexivity.
Qed.

(** Absolute returns: the documented value, on both path scales. *)
Theorem C51_abs_returns : forall path times c, positive_path path -> times_ok path times ->
  realized_volatility path times c ReturnsAbs ScaleOriginal = Some (factor c * abs_variation path times) /\
  realized_volatility (map ln path) times c ReturnsAbs ScaleLog = Some (factor c * abs_variation path times).
Proof.
  intros path times c P T.
  assert (E : realized_volatility path times c ReturnsAbs ScaleOriginal = Some (factor c * abs_variation path times)).
  { unfold realized_volatility, transformed_paths, denominators. rewrite shapes_ok by exact T. fold (dts times (length path)).
    set (dens := map _ _). assert (LD : length dens = (length path - 1)%nat).
    { unfold dens. rewrite map_length, combine_length, dts_length, firstn_length by exact T. lia. }
    assert (ND : forall k, (k < length path - 1)%nat -> nth k dens 0 = step_before times k * Rabs (pt path k)).
    { intros k K. unfold dens. rewrite (prod_nth (component_transform ReturnsAbs)); [|rewrite dts_length by exact T; exact K|rewrite dts_length, firstn_length by exact T; lia].
      destruct (dts_nth path times k T ltac:(lia)) as [-> _]. rewrite firstn_nth' by exact K. reflexivity. }
    assert (PP : forall k, (k < length path)%nat -> 0 < pt path k) by (intros k K; apply P, nth_In, K).
    rewrite no_zero.
    2:{ intros k K. rewrite LD in K. rewrite ND by exact K. destruct (dts_nth path times k T ltac:(lia)) as [_ Q]. specialize (PP k ltac:(lia)).
        apply Rmult_lt_0_compat; [exact Q|]. rewrite Rabs_right; lra. }
    cbn [negb orb]. rewrite sum_rsum, map_length, combine_length, map_length, dlength, LD, Nat.min_id.
    rewrite (rsum_ext _ (fun k => (Rabs (pt path (S k) - pt path k) / Rabs (pt path k)) / step_before times k)).
    2:{ intros k K. rewrite quot_nth; [|rewrite map_length, dlength; exact K|rewrite map_length, dlength, LD; reflexivity].
        rewrite map_nth0 by (rewrite dlength; exact K). rewrite dnth by lia. rewrite ND by exact K. cbn [component_transform]. fold (pt path (S k)). fold (pt path k).
        destruct (dts_nth path times k T ltac:(lia)) as [_ Q]. specialize (PP k ltac:(lia)). rewrite (Rabs_right (pt path k)) by lra. field. lra. }
    cbn [result_transform]. fold (abs_variation path times). destruct c; cbn [factor]; f_equal; ring. }
  split; [exact E|]. rewrite <- E. unfold realized_volatility. cbn [transformed_paths]. rewrite map_map.
  assert (M : map (fun x => exp (ln x)) path = path).
  { clear - P. induction path as [|x path IH]; [reflexivity|]. cbn [map]. rewrite exp_ln by (apply P; left; reflexivity). f_equal. apply IH. intros y Y. apply P. right. exact Y. }
  rewrite M, map_length. reflexivity.
Qed.

(** Rescaling the path changes neither statistic. *)
Lemma positive_scale a path : 0 < a -> positive_path path -> positive_path (map (Rmult a) path).
Proof. intros A P x X. apply in_map_iff in X. destruct X as (y & <- & Y). apply Rmult_lt_0_compat; [exact A|apply P, Y]. Qed.
Theorem C51_scale_invariant : forall path times c r a, 0 < a -> positive_path path -> times_ok path times ->
  realized_volatility (map (Rmult a) path) times c r ScaleOriginal = realized_volatility path times c r ScaleOriginal.
Proof.
  intros path times c r a A P T. pose proof (positive_scale a path A P) as P'. pose proof (times_map (Rmult a) path times T) as T'. destruct r.
  - rewrite (proj1 (C51_abs_returns _ _ c P' T')), (proj1 (C51_abs_returns _ _ c P T)). do 2 f_equal. unfold abs_variation. rewrite map_length. apply rsum_ext. intros k K.
    unfold pt. rewrite !map_nth0 by lia. f_equal. rewrite <- Rmult_minus_distr_l, !Rabs_mult, (Rabs_right a) by lra.
    assert (0 < nth k path 0) by (apply P, nth_In; lia). field. split; [rewrite Rabs_right; lra|lra].
  - rewrite (proj1 (C51_log_returns _ _ c P' T')), (proj1 (C51_log_returns _ _ c P T)). do 3 f_equal. unfold log_variance. rewrite map_length. apply rsum_ext. intros k K.
    unfold pt. rewrite !map_nth0 by lia. do 3 f_equal. assert (0 < nth k path 0) by (apply P, nth_In; lia). field. lra.
Qed.

Lemma rsum_zero f n : (forall i, (i < n)%nat -> 0 <= f i) -> rsum f n = 0 -> forall i, (i < n)%nat -> f i = 0.
Proof.
  induction n as [|n IH]; intros H E i I; [lia|]. cbn [rsum] in E. assert (0 <= rsum f n) by (apply rsum_nonneg; intros; apply H; lia). specialize (H n ltac:(lia)) as Hn.
  destruct (Nat.eq_dec i n) as [->|D]; [lra|]. apply IH; [intros; apply H; lia|lra|lia].
Qed.
Lemma constant_steps path : (forall k, (S k < length path)%nat -> pt path (S k) = pt path k) <-> constant_path path.
Proof.
  split.
  - intros H. assert (G : forall k, (k < length path)%nat -> pt path k = pt path 0). { induction k as [|k IH]; intros K; [reflexivity|]. rewrite H by exact K. apply IH. lia. }
    intros x y X Y. apply In_nth with (d := 0) in X, Y. destruct X as (i & I & <-), Y as (j & J & <-). unfold pt in G. rewrite (G i I), (G j J). reflexivity.
  - intros H k K. apply H; apply nth_In; lia.
Qed.
(** Both statistics are zero exactly on constant paths. *)
Theorem C51_zero : forall path times c r, positive_path path -> times_ok path times -> factor c <> 0 ->
  (realized_volatility path times c r ScaleOriginal = Some 0 <-> constant_path path).
Proof.
  intros path times c r P T C. rewrite <- constant_steps. assert (PP : forall k, (k < length path)%nat -> 0 < pt path k) by (intros k K; apply P, nth_In, K).
  assert (Z : forall x, factor c * x = 0 <-> x = 0). { intros x. split; [intros E; apply Rmult_integral in E; destruct E; [contradiction|assumption]|intros ->; ring]. }
  destruct r.
  - rewrite (proj1 (C51_abs_returns path times c P T)). split.
    + intros E. injection E as E. apply (proj1 (Z _)) in E. unfold abs_variation in E. intros k K.
      assert (N : forall i, (i < length path - 1)%nat -> 0 <= Rabs (pt path (S i) - pt path i) / Rabs (pt path i) / step_before times i).
      { intros i I. destruct (dts_nth path times i T ltac:(lia)) as [_ Q]. specialize (PP i ltac:(lia)). rewrite (Rabs_right (pt path i)) by lra.
        repeat (apply Rmult_le_pos; [|left; apply Rinv_0_lt_compat; assumption]). apply Rabs_pos. }
      pose proof (rsum_zero _ _ N E k ltac:(lia)) as Ek. cbv beta in Ek. destruct (dts_nth path times k T ltac:(lia)) as [_ Q]. specialize (PP k ltac:(lia)) as Pk. rewrite (Rabs_right (pt path k)) in Ek by lra.
      apply Rmult_integral in Ek. destruct Ek as [Ek|Ek]; [|exfalso; apply Rinv_neq_0_compat in Ek; [exact Ek|lra]].
      apply Rmult_integral in Ek. destruct Ek as [Ek|Ek]; [|exfalso; apply Rinv_neq_0_compat in Ek; [exact Ek|lra]].
      destruct (Req_dec (pt path (S k) - pt path k) 0) as [D|D]; [lra|]. apply Rabs_no_R0 in D. contradiction.
    + intros H. f_equal. apply (proj2 (Z _)). unfold abs_variation. apply rsum_0. intros k K. rewrite (H k ltac:(lia)). replace (pt path k - pt path k) with 0 by ring. rewrite Rabs_R0. unfold Rdiv. ring.
  - rewrite (proj1 (C51_log_returns path times c P T)).
    assert (N : forall i, (i < length path - 1)%nat -> 0 <= Rsqr (ln (pt path (S i) / pt path i)) / step_before times i).
    { intros i I. destruct (dts_nth path times i T ltac:(lia)) as [_ Q]. apply Rmult_le_pos; [apply Rle_0_sqr|left; apply Rinv_0_lt_compat; exact Q]. }
    split.
    + intros E. injection E as E. apply (proj1 (Z _)) in E. apply sqrt_eq_0 in E; [|apply rsum_nonneg; exact N]. intros k K.
      pose proof (rsum_zero _ _ N E k ltac:(lia)) as Ek. cbv beta in Ek. destruct (dts_nth path times k T ltac:(lia)) as [_ Q].
      apply Rmult_integral in Ek. destruct Ek as [Ek|Ek]; [|exfalso; apply Rinv_neq_0_compat in Ek; [exact Ek|lra]].
      apply Rsqr_0_uniq in Ek. pose proof (PP k ltac:(lia)) as Pk. pose proof (PP (S k) K) as Pk'.
      assert (Y : 0 < pt path (S k) / pt path k) by (apply Rdiv_lt_0_compat; assumption). rewrite <- ln_1 in Ek. apply ln_inv in Ek; [|exact Y|lra].
      apply (Rmult_eq_compat_r (pt path k)) in Ek. replace (pt path (S k) / pt path k * pt path k) with (pt path (S k)) in Ek by (field; lra). lra.
    + intros H. f_equal. apply (proj2 (Z _)). unfold log_variance. rewrite rsum_0; [apply sqrt_0|]. intros k K. specialize (PP k ltac:(lia)). rewrite (H k ltac:(lia)). replace (pt path k / pt path k) with 1 by (field; lra). rewrite ln_1. unfold Rsqr, Rdiv. ring.
Qed.

(** Measuring time in another unit: with [a] times as many units per interval the
    log statistic is divided by sqrt a and the absolute one by a. *)
Theorem C51_time_unit : forall path t c a, 0 < a -> positive_path path -> times_ok path (Some t) ->
  realized_volatility path (Some (map (Rmult a) t)) c ReturnsLog ScaleOriginal = option_map (fun v => v / sqrt a) (realized_volatility path (Some t) c ReturnsLog ScaleOriginal) /\
  realized_volatility path (Some (map (Rmult a) t)) c ReturnsAbs ScaleOriginal = option_map (fun v => v / a) (realized_volatility path (Some t) c ReturnsAbs ScaleOriginal).
Proof.
  intros path t c a A P T. assert (T' : times_ok path (Some (map (Rmult a) t))).
  { destruct T as [T1 T2]. split; [rewrite map_length; exact T1|]. rewrite map_length. intros k K. unfold pt. rewrite !map_nth0 by lia. apply Rmult_lt_compat_l; [exact A|apply T2, K]. }
  assert (SB : forall k, (S k < length path)%nat -> step_before (Some (map (Rmult a) t)) k = a * step_before (Some t) k).
  { intros k K. destruct T as [T1 _]. cbn. unfold pt. rewrite !map_nth0 by lia. ring. }
  split.
  - rewrite (proj1 (C51_log_returns path _ c P T')), (proj1 (C51_log_returns path _ c P T)). cbn [option_map]. f_equal.
    assert (E : log_variance path (Some (map (Rmult a) t)) = log_variance path (Some t) / a).
    { transitivity (/ a * log_variance path (Some t)); [|unfold Rdiv; ring]. unfold log_variance. rewrite <- rsum_scal. apply rsum_ext. intros k K. rewrite SB by lia. destruct (dts_nth path (Some t) k T ltac:(lia)) as [_ Q]. field. lra. }
    rewrite E. rewrite sqrt_div_alt by exact A. field. intros Q. apply sqrt_eq_0 in Q; lra.
  - rewrite (proj1 (C51_abs_returns path _ c P T')), (proj1 (C51_abs_returns path _ c P T)). cbn [option_map]. f_equal.
    assert (E : abs_variation path (Some (map (Rmult a) t)) = abs_variation path (Some t) / a).
    { transitivity (/ a * abs_variation path (Some t)); [|unfold Rdiv; ring]. unfold abs_variation. rewrite <- rsum_scal. apply rsum_ext. intros k K. rewrite SB by lia. destruct (dts_nth path (Some t) k T ltac:(lia)) as [_ Q].
      assert (0 < pt path k) by (apply P, nth_In; lia). field. split; [rewrite Rabs_right; lra|lra]. }
    rewrite E. field. lra.
Qed.

Example C51_case : positive_path [1; 2; 4] /\ times_ok [1; 2; 4] (Some [0; 1; 3]) /\ factor (Some 10) <> 0 /\ ~ constant_path [1; 2; 4].
Proof.
  split; [intros x [<-|[<-|[<-|[]]]]; lra|]. split; [split; [reflexivity|intros [|[|k]] K; cbn in *; [lra|lra|lia]]|]. split; [cbn; lra|].
  intros H. specialize (H 1 2 ltac:(left; reflexivity) ltac:(right; left; reflexivity)). lra.
Qed.
Example C51_case_value : realized_volatility [1; 2; 4] (Some [0; 1; 3]) (Some 10) ReturnsAbs ScaleOriginal = Some 15.
Proof.
  destruct C51_case as (P & T & _). rewrite (proj1 (C51_abs_returns _ _ _ P T)). f_equal. unfold abs_variation. cbn. rewrite !Rabs_right by lra. field.
Qed.

Print Assumptions C51_log_returns.
Print Assumptions C51_abs_returns.
Print Assumptions C51_scale_invariant.
Print Assumptions C51_zero.
Print Assumptions C51_time_unit.
