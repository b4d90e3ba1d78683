(** C90, continued: the calibrations of the Hull-White and HJM models. *)
From Coq Require Import Reals ZArith List Bool Lra Lia Psatz.
From Verif Require Import InterpModel BrentModel ExtReal HaganWestModel BootstrapModel BlackScholesModel ImpliedVolModel ImpliedVolProofs SabrModel BoundedCalModel
  CalibrationModel CalibrationSpec CalibrationProofs PropsCalibration.
Import ListNotations.
Open Scope R_scope.

(** ** Hull-White *)
Lemma make_step_some j v f : make_step j v = Some f -> length v = S (length j) /\ f = StepFunction j v.
Proof. unfold make_step. destruct (Nat.eqb_spec (length v) (S (length j))) as [E|]; [|discriminate]. intros Q. injection Q as <-. auto. Qed.
Lemma hw_read_some mr vol n j x m v : hw_read mr vol n j x = Some (m, v) ->
  m = StepFunction [] (map (hw_decode mr) (firstn n x)) /\ v = StepFunction j (map (hw_decode vol) (skipn n x)) /\ length (firstn n x) = 1%nat /\ length (skipn n x) = S (length j).
Proof.
  unfold hw_read, bind. destruct (make_step [] _) as [m'|] eqn:M; [|discriminate]. destruct (make_step j _) as [v'|] eqn:V; [|discriminate]. cbn [option_map]. intros E. injection E as <- <-.
  apply make_step_some in M, V. rewrite !map_length in *. cbn [length] in M. intuition.
Qed.
Lemma hw_decode_within b x : fst b < snd b -> within_or_nan (fst b) (snd b) (hw_decode b x).
Proof. intros L. unfold hw_decode. rewrite constrained_squash. apply squash_within, L. Qed.
(** The reported functions are a constant mean reversion and a volatility with the
    jumps of the starting one; every value is within its bounds or NaN. *)
Definition hw_sound (mr vol : hw_bounds) (jumps : list R) (m v : step_function) : Prop :=
  step_jumps m = [] /\ length (step_values m) = 1%nat /\ step_jumps v = jumps /\ length (step_values v) = S (length jumps)
  /\ Forall (within_or_nan (fst mr) (snd mr)) (step_values m) /\ Forall (within_or_nan (fst vol) (snd vol)) (step_values v).
Lemma hw_read_sound mr vol n j x m v : fst mr < snd mr -> fst vol < snd vol -> hw_read mr vol n j x = Some (m, v) -> hw_sound mr vol j m v.
Proof.
  intros A B E. apply hw_read_some in E. destruct E as (-> & -> & L1 & L2). unfold hw_sound. cbn [step_jumps step_values]. rewrite !map_length.
  repeat split; auto; apply Forall_forall; intros y I; apply in_map_iff in I; destruct I as (z & <- & _); apply hw_decode_within; assumption.
Qed.
Theorem C90_hw_bounds {T} mr vol mean_reversion volatility jumps values : as_piecewise volatility = Some (jumps, values) -> fst mr < snd mr -> fst vol < snd vol ->
  (forall vol_based price to_vol prices notional opt m v (st : T), hw_swaptions vol_based price to_vol prices notional mean_reversion volatility mr vol opt = Some (m, v, st) -> hw_sound mr vol jumps m v)
  /\ (forall price prices notional opt m v (st : T), hw_cap_floors price prices notional mean_reversion volatility mr vol opt = Some (m, v, st) -> hw_sound mr vol jumps m v).
Proof.
  intros J A B. split.
  - intros vol_based price to_vol prices [n|] opt m v st E; [|discriminate]. unfold hw_swaptions in E. cbn [bind] in E. destruct (as_piecewise mean_reversion) as [[j0 m0]|]; [|discriminate]. cbn [bind] in E. rewrite J in E. cbn [bind] in E.
    apply optimize_some in E. destruct E as (r & _ & E & _). eapply hw_read_sound; eauto.
  - intros price prices [n|] opt m v st E; [|discriminate]. unfold hw_cap_floors in E. cbn [bind] in E. destruct (as_piecewise mean_reversion) as [[j0 m0]|]; [|discriminate]. cbn [bind] in E. rewrite J in E. cbn [bind] in E.
    apply optimize_some in E. destruct E as (r & _ & E & _). eapply hw_read_sound; eauto.
Qed.
(** An optimizer that returns its starting position reports the starting functions. *)
Lemma hw_round b v : fst b < snd b -> fst b <= v <= snd b -> hw_decode b (hw_encode b v) = Fin v.
Proof. intros L B. unfold hw_decode, hw_encode. rewrite constrained_squash. apply squash_unconstrained; assumption. Qed.
Lemma hw_round_all b l : fst b < snd b -> Forall (fun v => fst b <= v <= snd b) l -> map (hw_decode b) (map (hw_encode b) l) = map Fin l.
Proof. intros L F. rewrite map_map. apply map_ext_in. intros v I. rewrite Forall_forall in F. apply hw_round; auto. Qed.
Lemma hw_read_start mr vol k j vs : fst mr < snd mr -> fst vol < snd vol -> fst mr <= k <= snd mr -> Forall (fun v => fst vol <= v <= snd vol) vs -> length vs = S (length j) ->
  hw_read mr vol 1 j (map (hw_encode mr) [k] ++ map (hw_encode vol) vs) = Some (StepFunction [] [Fin k], StepFunction j (map Fin vs)).
Proof.
  intros A B K V L. unfold hw_read. cbn [map app firstn skipn]. rewrite hw_round by assumption. rewrite hw_round_all by assumption. unfold make_step. cbn [length Nat.eqb bind]. rewrite map_length, L, Nat.eqb_refl. reflexivity.
Qed.
Theorem C90_hw_start {T} mr vol k jumps vs (st : T) n : fst mr < snd mr -> fst vol < snd vol -> fst mr <= k <= snd mr -> Forall (fun v => fst vol <= v <= snd vol) vs -> length vs = S (length jumps) ->
  (forall vol_based price to_vol prices opt, (forall f x, opt f x = Some (Optimum x st)) ->
    hw_swaptions vol_based price to_vol prices (Some n) (Vector [k]) (Piecewise jumps vs) mr vol opt = Some (StepFunction [] [Fin k], StepFunction jumps (map Fin vs), st))
  /\ (forall price prices opt, (forall f x, opt f x = Some (Optimum x st)) ->
    hw_cap_floors price prices (Some n) (Vector [k]) (Piecewise jumps vs) mr vol opt = Some (StepFunction [] [Fin k], StepFunction jumps (map Fin vs), st)).
Proof.
  intros A B K V L. split.
  - intros vol_based price to_vol prices opt O. unfold hw_swaptions. cbn [bind as_piecewise length Nat.eqb]. apply optimize_some. eexists. split; [apply O|]. split; [cbn [position]; apply hw_read_start; assumption|reflexivity].
  - intros price prices opt O. unfold hw_cap_floors. cbn [bind as_piecewise length Nat.eqb]. apply optimize_some. eexists. split; [apply O|]. split; [cbn [position]; apply hw_read_start; assumption|reflexivity].
Qed.
(** An optimizer that never returns a worse value than its start reports functions
    with an error no larger than that of the starting ones. *)
Definition improves {T} (opt : optimizer (list xr) xr T) : Prop :=
  forall f x r v, opt f x = Some r -> f x = Some v -> exists w, f (position r) = Some w /\ at_most w v.
Lemma optimize_improves {P T} (read : list xr -> option P) value start (opt : optimizer (list xr) xr T) p0 p st : improves opt -> read start = Some p0 -> optimize read value start opt = Some (p, st) -> at_most (value p) (value p0).
Proof.
  intros I R0 E. apply optimize_some in E. destruct E as (r & O & R1 & _). destruct (I _ _ _ (value p0) O) as (w & W & A); [rewrite R0; reflexivity|]. rewrite R1 in W. cbn [option_map] in W. injection W as ->. exact A.
Qed.
Theorem C90_hw_no_worse {T} mr vol k jumps vs n (start := (StepFunction [] [Fin k], StepFunction jumps (map Fin vs))) :
  fst mr < snd mr -> fst vol < snd vol -> fst mr <= k <= snd mr -> Forall (fun v => fst vol <= v <= snd vol) vs -> length vs = S (length jumps) ->
  (forall price to_vol prices opt m v (st : T), improves opt -> hw_swaptions false price to_vol prices (Some n) (Vector [k]) (Piecewise jumps vs) mr vol opt = Some (m, v, st) ->
     at_most (hw_loss false (map Fin prices) (price (m, v))) (hw_loss false (map Fin prices) (price start)))
  /\ (forall price to_vol prices opt m v (st : T), improves opt -> hw_swaptions true price to_vol prices (Some n) (Vector [k]) (Piecewise jumps vs) mr vol opt = Some (m, v, st) ->
     let vols p := map (fun x => if is_nan x then Fin 0 else x) (to_vol (price p)) in
     at_most (hw_loss false (to_vol (map Fin prices)) (vols (m, v))) (hw_loss false (to_vol (map Fin prices)) (vols start)))
  /\ (forall price prices opt m v (st : T), improves opt -> hw_cap_floors price prices (Some n) (Vector [k]) (Piecewise jumps vs) mr vol opt = Some (m, v, st) ->
     at_most (hw_loss true (map Fin prices) (price (m, v))) (hw_loss true (map Fin prices) (price start))).
Proof.
  intros A B K V L. pose proof (hw_read_start mr vol k jumps vs A B K V L) as R0. split; [|split].
  - intros price to_vol prices opt m v st I E. exact (optimize_improves _ (fun p => hw_loss false (map Fin prices) (price p)) _ opt _ _ _ I R0 E).
  - intros price to_vol prices opt m v st I E vols. exact (optimize_improves _ (fun p => hw_loss false (to_vol (map Fin prices)) (vols p)) _ opt _ _ _ I R0 E).
  - intros price prices opt m v st I E. exact (optimize_improves _ (fun p => hw_loss true (map Fin prices) (price p)) _ opt _ _ _ I R0 E).
Qed.
(** The objective: the sum (for caps the mean) of the squared differences in units of
    the largest target. *)
Definition largest (l : list R) : R := match l with [] => 0 | x :: r => fold_right Rmax x r end.
Lemma largest_spec x l : In (largest (x :: l)) (x :: l) /\ forall y, In y (x :: l) -> y <= largest (x :: l).
Proof.
  cbn [largest]. induction l as [|z l [I M]]; [split; [left; reflexivity|intros y [->|[]]; cbn; lra]|]. cbn [fold_right]. split.
  - unfold Rmax at 1. destruct (Rle_dec z (fold_right Rmax x l)); [destruct I as [I|I]; [left; exact I|right; right; exact I]|right; left; reflexivity].
  - pose proof (Rmax_l z (fold_right Rmax x l)). pose proof (Rmax_r z (fold_right Rmax x l)). intros y [->|[->|J]]; [specialize (M y (or_introl eq_refl)); lra|lra|specialize (M y (or_intror J)); lra].
Qed.
Lemma xlargest_fin l : l <> [] -> xlargest (map Fin l) = Fin (largest l).
Proof.
  destruct l as [|x l]; [congruence|]. intros _. revert x. induction l as [|y l IH]; intros x.
  - cbn [map xlargest fold_right largest]. unfold xlargest, xmax. cbn. reflexivity.
  - assert (C : forall a b, xmax (Fin a) (Fin b) = Fin (Rmax a b)).
    { exact xmax_f. }
    assert (SW : forall a z, fold_right Rmax a (z :: l) = Rmax a (fold_right Rmax z l)).
    { clear. intros a z. cbn [fold_right]. induction l as [|w l IH]; cbn [fold_right]; [apply Rmax_comm|]. rewrite Rmax_assoc, (Rmax_comm z w), <- Rmax_assoc, IH, Rmax_assoc, (Rmax_comm w a), <- Rmax_assoc. reflexivity. }
    change (xlargest (map Fin (x :: y :: l))) with (xmax (Fin x) (xlargest (map Fin (y :: l)))). rewrite IH, C. cbn [largest]. rewrite SW. reflexivity.
Qed.
Lemma fin_inj a b : Fin a = Fin b -> a = b.
Proof. intros E. injection E as E. exact E. Qed.
Lemma sum_squares_scale c a b : c <> 0 -> sum_squares (map (fun v => v / c) a) (map (fun v => v / c) b) = sum_squares a b / c ^ 2.
Proof. intros C. revert b. induction a as [|x a IH]; intros [|y b]; cbn [map sum_squares]; try (unfold Rdiv; ring). rewrite IH. field. exact C. Qed.
Theorem C90_hw_error ts vs : ts <> [] -> length vs = length ts -> largest ts <> 0 ->
  hw_loss false (map Fin ts) (map Fin vs) = Fin (sum_squares vs ts / largest ts ^ 2)
  /\ hw_loss true (map Fin ts) (map Fin vs) = Fin (mean_square vs ts / largest ts ^ 2)
  /\ (hw_loss false (map Fin ts) (map Fin vs) = Fin 0 <-> vs = ts) /\ (hw_loss true (map Fin ts) (map Fin vs) = Fin 0 <-> vs = ts).
Proof.
  intros N L M. assert (SC : forall l, scaled (map Fin ts) (map Fin l) = map Fin (map (fun v => v / largest ts) l)).
  { intros l. unfold scaled, scale. rewrite xlargest_fin by exact N. rewrite !map_map. apply map_ext. intros v. unfold xsub. cbn [xopp xadd xdiv]. rewrite req_f by lra. f_equal. unfold Rdiv. rewrite !Ropp_0, !Rplus_0_r. reflexivity. }
  assert (SQ : sum_squares (map (fun v => v / largest ts) vs) (map (fun v => v / largest ts) ts) = sum_squares vs ts / largest ts ^ 2).
  { apply sum_squares_scale, M. }
  assert (NV : vs <> []) by (destruct vs, ts; cbn in L; congruence).
  assert (C2 : largest ts ^ 2 <> 0) by (apply pow_nonzero, M).
  assert (P : 0 < INR (length vs)) by (destruct vs; [congruence|]; cbn [length]; rewrite S_INR; pose proof (pos_INR (length vs)); lra).
  assert (A : hw_loss false (map Fin ts) (map Fin vs) = Fin (sum_squares vs ts / largest ts ^ 2)).
  { unfold hw_loss. rewrite !SC, squares_fin, xsum_fin, sum_squares_fold, SQ. reflexivity. }
  assert (B : hw_loss true (map Fin ts) (map Fin vs) = Fin (mean_square vs ts / largest ts ^ 2)).
  { unfold hw_loss. rewrite !SC, xmean_squares; [|rewrite !map_length; exact L|destruct vs; [congruence|discriminate]]. unfold mean_square. rewrite SQ, map_length. f_equal. field. split; lra. }
  split; [exact A|]. split; [exact B|]. rewrite A, B. split; split; intros E.
  - apply fin_inj in E. apply sum_squares_zero; [exact L|]. replace (sum_squares vs ts) with (sum_squares vs ts / largest ts ^ 2 * largest ts ^ 2) by (field; exact M). rewrite E. ring.
  - f_equal. apply (sum_squares_zero _ _ L) in E. rewrite E. unfold Rdiv. ring.
  - apply fin_inj in E. apply (mean_square_zero _ _ L NV). replace (mean_square vs ts) with (mean_square vs ts / largest ts ^ 2 * largest ts ^ 2) by (field; exact M). rewrite E. ring.
  - f_equal. apply (mean_square_zero _ _ L NV) in E. rewrite E. unfold Rdiv. ring.
Qed.

(** notional = None is documented as one, but is converted without a test. *)
Theorem C90_notional_refuted {T} mr vol mean_reversion volatility :
  (forall vol_based price to_vol prices opt, hw_swaptions (S := T) vol_based price to_vol prices None mean_reversion volatility mr vol opt = None)
  /\ (forall vol_based calibrate price to_vol prices n m v opt, hjm_swaptions (S := T) vol_based calibrate price to_vol prices None n m v mr vol opt = None).
Proof. split; reflexivity. Qed.
(** A number, a callable and a piecewise constant mean reversion with jumps are
    documented starting values, but no calibration with one of them returns. *)
Lemma hw_read_several mr vol n j x : (2 <= n)%nat -> hw_read mr vol n j x = None.
Proof.
  intros N. destruct (hw_read mr vol n j x) as [[m v]|] eqn:E; [|reflexivity]. apply hw_read_some in E. destruct E as (_ & _ & A & B).
  rewrite firstn_length in A. rewrite skipn_length in B. lia.
Qed.
Theorem C90_mean_reversion_refuted {T} mr vol volatility notional mean_reversion :
  (exists k, mean_reversion = Scalar k) \/ mean_reversion = Callable \/ (exists t a b vs, mean_reversion = Piecewise t (a :: b :: vs)) ->
  (forall vol_based price to_vol prices opt, hw_swaptions (S := T) vol_based price to_vol prices notional mean_reversion volatility mr vol opt = None)
  /\ (forall price prices opt, hw_cap_floors (S := T) price prices notional mean_reversion volatility mr vol opt = None).
Proof.
  intros H. destruct notional as [no|]; [|split; reflexivity]. unfold hw_swaptions, hw_cap_floors. cbn [bind].
  destruct H as [(k & ->)|[-> |(t & a & b & vs & ->)]]; [split; reflexivity|split; reflexivity|]. cbn [as_piecewise bind]. destruct (as_piecewise volatility) as [[j v]|]; [|split; reflexivity]. cbn [bind].
  split; intros; match goal with |- ?e = None => destruct e as [[[m w] st]|] eqn:E end; try reflexivity; apply optimize_some in E; destruct E as (r & _ & E & _); rewrite hw_read_several in E by (cbn [length]; lia); discriminate E.
Qed.
(** A number for the volatility fails too. *)
Theorem C90_volatility_refuted {T} mr vol mean_reversion notional volatility : (exists k, volatility = Scalar k) \/ volatility = Callable ->
  (forall vol_based price to_vol prices opt, hw_swaptions (S := T) vol_based price to_vol prices notional mean_reversion volatility mr vol opt = None)
  /\ (forall price prices opt, hw_cap_floors (S := T) price prices notional mean_reversion volatility mr vol opt = None).
Proof.
  intros H. destruct notional as [no|]; [|split; reflexivity]. unfold hw_swaptions, hw_cap_floors. cbn [bind]. destruct (as_piecewise mean_reversion) as [[j0 m0]|]; [|split; reflexivity]. cbn [bind].
  destruct H as [(k & ->)| ->]; split; reflexivity.
Qed.
Example hw_documented {T} price prices (st : T) : hw_cap_floors price prices (Some 1) (Vector [1 / 100]) (Piecewise [1] [1 / 100; 2 / 100]) (1 / 1000, 1 / 2) (1 / 1000, 1 / 2) (fun _ x => Some (Optimum x st))
  = Some (StepFunction [] [Fin (1 / 100)], StepFunction [1] [Fin (1 / 100); Fin (2 / 100)], st).
Proof. apply (C90_hw_start (1 / 1000, 1 / 2) (1 / 1000, 1 / 2)); cbn [fst snd]; try lra; try reflexivity. repeat constructor; lra. Qed.

(** ** HJM: the matrix of correlations *)
(** A point of the sphere of radius [acc]. *)
Fixpoint sphere (acc : R) (t : list R) : list R := match t with [] => [acc] | th :: r => cos th * acc :: sphere (acc * sin th) r end.
Lemma sphere_length acc t : length (sphere acc t) = S (length t).
Proof. revert acc. induction t as [|th t IH]; intros acc; cbn [sphere length]; [reflexivity|]. rewrite IH. reflexivity. Qed.
Lemma sphere_norm acc t : dot (sphere acc t) (sphere acc t) = acc * acc.
Proof.
  revert acc. induction t as [|th t IH]; intros acc; unfold dot; cbn [sphere combine map fold_right]; [ring|]. fold (dot (sphere (acc * sin th) t) (sphere (acc * sin th) t)). rewrite IH.
  pose proof (sin2_cos2 th) as Q. unfold Rsqr in Q. replace (cos th * acc * (cos th * acc) + acc * sin th * (acc * sin th)) with (acc * acc * (sin th * sin th + cos th * cos th)) by ring. rewrite Q. ring.
Qed.
Lemma row_sphere_aux k acc t : map (fun '(j, (c, s)) => if Nat.ltb j (k + length t) then c *x s else s)
    (combine (seq k (S (length t))) (combine (map xcos (map Fin t) ++ [Fin 1]) (Fin acc :: xcumprod (Fin acc) (map xsin (map Fin t))))) = map Fin (sphere acc t).
Proof.
  revert k acc. induction t as [|th t IH]; intros k acc.
  - cbn [length seq map app combine xcumprod sphere]. rewrite Nat.add_0_r, Nat.ltb_irrefl. reflexivity.
  - cbn [length map app xcos xsin xcumprod sphere]. change (seq k (S (S (length t)))) with (k :: seq (S k) (S (length t))).
    cbn [combine map]. replace (k <? k + S (length t))%nat with true by (symmetry; apply Nat.ltb_lt; lia). f_equal.
    specialize (IH (S k) (acc * sin th)). replace (k + S (length t))%nat with (S k + length t)%nat by lia. exact IH.
Qed.
Lemma row_sphere t : hypersphere_row (S (length t)) (map Fin t) = map Fin (sphere 1 t).
Proof. unfold hypersphere_row. apply (row_sphere_aux 1 1 t). Qed.
Lemma xdot_fin a b : xdot (map Fin a) (map Fin b) = Fin (dot a b).
Proof.
  unfold xdot, dot. replace (xzip xmul (map Fin a) (map Fin b)) with (map Fin (map (fun '(x, y) => x * y) (combine a b))); [apply xsum_fin|].
  revert b. induction a as [|x a IH]; intros [|y b]; try reflexivity. unfold xzip in *. cbn [map combine]. f_equal. apply IH.
Qed.
Lemma dot_comm a b : dot a b = dot b a.
Proof. revert b. induction a as [|x a IH]; intros [|y b]; try reflexivity. unfold dot in *. cbn [combine map fold_right]. rewrite IH. ring. Qed.
Lemma dot_cons x a y b : dot (x :: a) (y :: b) = x * y + dot a b.
Proof. reflexivity. Qed.
Lemma dot_self a : 0 <= dot a a.
Proof. induction a as [|x a IH]; [cbn; lra|]. rewrite dot_cons. nra. Qed.
Lemma dot_square c a b : length a = length b -> 0 <= dot a a + 2 * c * dot a b + c * c * dot b b.
Proof.
  revert b. induction a as [|x a IH]; intros [|y b] L; try discriminate L; [cbn; lra|]. rewrite !dot_cons. injection L as L. specialize (IH b L). pose proof (Rle_0_sqr (x + c * y)) as Q. unfold Rsqr in Q. nra.
Qed.
(** The combination of rows with the weights w. *)
Fixpoint comb (n : nat) (w : list R) (rows : list (list R)) : list R :=
  match w, rows with x :: w, r :: rows => map (fun '(a, b) => a + b) (combine (map (Rmult x) r) (comb n w rows)) | _, _ => repeat 0 n end.
Lemma comb_length n w rows : Forall (fun r => length r = n) rows -> length (comb n w rows) = n.
Proof. intros F. revert w. induction F as [|r rows L F IH]; intros [|x w]; cbn [comb]; rewrite ?repeat_length; auto. rewrite map_length, combine_length, map_length, IH. lia. Qed.
Lemma dot_add a x r c : length r = length c -> dot a (map (fun '(a, b) => a + b) (combine (map (Rmult x) r) c)) = x * dot a r + dot a c.
Proof.
  revert r c. induction a as [|y a IH]; intros [|z r] [|u c] L; try discriminate L; try (cbn; lra). cbn [map combine]. rewrite !dot_cons. rewrite IH by (cbn in L; lia). ring.
Qed.
Lemma dot_zeros a n : dot a (repeat 0 n) = 0.
Proof. revert n. induction a as [|y a IH]; intros [|n]; try reflexivity. cbn [repeat]. rewrite dot_cons, IH. ring. Qed.
Lemma dot_comb n a w rows : Forall (fun r => length r = n) rows -> dot a (comb n w rows) = dot w (map (dot a) rows).
Proof.
  intros F. revert w. induction F as [|r rows L F IH]; intros [|x w]; cbn [comb map]; try (rewrite dot_zeros; reflexivity). rewrite dot_cons, dot_add, IH by (rewrite comb_length by exact F; exact L). reflexivity.
Qed.
(** The Gram matrix of unit vectors is a correlation matrix. *)
Lemma gram_correlation d rows : Forall (fun r => length r = d) rows -> Forall (fun r => dot r r = 1) rows -> is_correlation (length rows) (map (fun a => map (dot a) rows) rows).
Proof.
  intros L U. rewrite Forall_forall in U. pose proof L as L'. rewrite Forall_forall in L'.
  assert (E : forall i j, (i < length rows)%nat -> (j < length rows)%nat -> nth j (nth i (map (fun a => map (dot a) rows) rows) []) 0 = dot (nth i rows []) (nth j rows [])).
  { intros i j I J. pose (G := fun a => map (dot a) rows). change (map (fun a => map (dot a) rows) rows) with (map G rows).
    rewrite (nth_indep (map G rows) [] (G [])) by (rewrite map_length; exact I). rewrite map_nth. unfold G.
    rewrite (nth_indep _ 0 (dot (nth i rows []) [])) by (rewrite map_length; exact J). apply map_nth. }
  assert (D : forall i, (i < length rows)%nat -> dot (nth i rows []) (nth i rows []) = 1) by (intros i I; apply U, nth_In, I).
  unfold is_correlation. split; [apply map_length|]. split; [apply Forall_forall; intros r I; apply in_map_iff in I; destruct I as (a & <- & _); apply map_length|].
  split; [intros i j I J; rewrite !E by assumption; apply dot_comm|]. split; [intros i I; rewrite E by assumption; apply D, I|]. split.
  - intros i j I J. rewrite E by assumption. assert (LL : length (nth i rows []) = length (nth j rows [])) by (rewrite !L' by (apply nth_In; assumption); reflexivity).
    pose proof (dot_square 1 _ _ LL) as P. pose proof (dot_square (- (1)) _ _ LL) as M. rewrite !D in P, M by assumption. lra.
  - intros w W.
    assert (G : dot w (map (dot w) (map (fun a => map (dot a) rows) rows)) = dot (comb d w rows) (comb d w rows)).
    { rewrite dot_comb by exact L. f_equal. rewrite map_map. apply map_ext. intros a. rewrite (dot_comm (comb d w rows) a), dot_comb by exact L. reflexivity. }
    rewrite G. apply dot_self.
Qed.
Lemma chunks_map {A B} (f : A -> B) n m l : chunks n m (map f l) = map (map f) (chunks n m l).
Proof. revert l. induction n as [|n IH]; intros l; [reflexivity|]. cbn [chunks map]. rewrite firstn_map, skipn_map, IH. reflexivity. Qed.
Lemma chunks_length {A} n m (l : list A) : length (chunks n m l) = n.
Proof. revert l. induction n as [|n IH]; intros l; cbn [chunks length]; [reflexivity|]. rewrite IH. reflexivity. Qed.
Lemma chunks_rows {A} n m (l : list A) : length l = (n * m)%nat -> Forall (fun r => length r = m) (chunks n m l).
Proof. revert l. induction n as [|n IH]; intros l L; cbn [chunks]; constructor; [rewrite firstn_length; nia|]. apply IH. rewrite skipn_length. nia. Qed.
Lemma map_map_fin (l : list (list R)) : map (fun a => map (xdot a) (map (map Fin) l)) (map (map Fin) l) = map (map Fin) (map (fun a => map (dot a) l) l).
Proof. rewrite !map_map. apply map_ext. intros a. rewrite !map_map. apply map_ext. intros b. apply xdot_fin. Qed.
Theorem C90_hjm_correlation n t : (1 <= n)%nat -> length t = (n * (n - 1))%nat -> exists m, hypersphere n (map Fin t) = Some (map (map Fin) m) /\ is_correlation n m.
Proof.
  intros N L. set (rows := map (sphere 1) (chunks n (n - 1) t)). exists (map (fun a => map (dot a) rows) rows). split.
  - unfold hypersphere. rewrite map_length, L, Nat.eqb_refl. f_equal. rewrite <- map_map_fin.
    assert (Q : map (hypersphere_row n) (chunks n (n - 1) (map Fin t)) = map (map Fin) rows).
    { unfold rows. rewrite chunks_map, !map_map. apply map_ext_in. intros r I. pose proof (chunks_rows n (n - 1) t L) as F. rewrite Forall_forall in F. specialize (F r I).
      replace n with (S (length r)) by lia. apply row_sphere. }
    rewrite Q. reflexivity.
  - assert (LR : length rows = n) by (unfold rows; rewrite map_length; apply chunks_length). rewrite <- LR at 1. apply gram_correlation with n.
    + apply Forall_forall. intros r I. unfold rows in I. apply in_map_iff in I. destruct I as (a & <- & I). pose proof (chunks_rows n (n - 1) t L) as F. rewrite Forall_forall in F. rewrite sphere_length, (F a I). lia.
    + apply Forall_forall. intros r I. unfold rows in I. apply in_map_iff in I. destruct I as (a & <- & I). rewrite sphere_norm. ring.
Qed.
(** A right angle and no angle: uncorrelated factors; the matrix is not constant. *)
Example right_angles : hypersphere 2 [Fin (PI / 2); Fin 0] = Some [[Fin 1; Fin 0]; [Fin 0; Fin 1]].
Proof.
  destruct (C90_hjm_correlation 2 [PI / 2; 0]) as (m & E & _); [lia|reflexivity|].
  unfold hypersphere. cbn [length Nat.eqb Nat.mul Nat.sub Nat.add]. f_equal. change [Fin (PI / 2); Fin 0] with (map Fin [PI / 2; 0]). rewrite chunks_map. cbn [chunks firstn skipn map]. 
  change 2%nat with (S (length [PI / 2])) at 1. assert (A : hypersphere_row 2 [Fin (PI / 2)] = map Fin (sphere 1 [PI / 2])) by apply (row_sphere [PI / 2]). assert (B : hypersphere_row 2 [Fin 0] = map Fin (sphere 1 [0])) by apply (row_sphere [0]).
  cbn [length]. rewrite A, B, !xdot_fin. cbn [sphere]. rewrite cos_PI2, sin_PI2, cos_0, sin_0. unfold dot. cbn [combine map fold_right]. repeat f_equal; ring.
Qed.

(** ** HJM: bounds and the starting point *)
Lemma hjm_decode_within b x : fst b < snd b -> within_or_nan (fst b) (snd b) (hjm_decode b x).
Proof. intros L. unfold hjm_decode. rewrite hjm_squash. unfold squash_hjm. destruct x as [v|[|]|]; try apply squash_within, L. left; reflexivity. Qed.
Lemma hjm_round b v : fst b < v < snd b -> hjm_decode b (hjm_encode b v) = Fin v.
Proof.
  intros L. unfold hjm_decode, hjm_encode. rewrite hjm_squash. pose proof (squash_unconstrained v (fst b) (snd b) ltac:(lra) ltac:(lra)) as Q.
  rewrite unconstrained_inside in * by exact L. exact Q.
Qed.
Lemma hjm_round_all b l : Forall (fun v => fst b < v < snd b) l -> map (hjm_decode b) (map (hjm_encode b) l) = map Fin l.
Proof. intros F. rewrite map_map. apply map_ext_in. intros v I. rewrite Forall_forall in F. apply hjm_round, F, I. Qed.
(** Values within their bounds or NaN, and a matrix that is a correlation matrix
    unless an angle is NaN. *)
Definition hjm_sound (calibrate : bool) (n : nat) (mr vol : hw_bounds) (p : hjm_params) : Prop :=
  Forall (within_or_nan (fst mr) (snd mr)) (j_mean_reversion p) /\ Forall (within_or_nan (fst vol) (snd vol)) (j_volatility p)
  /\ match j_corr p with
     | None => calibrate = false
     | Some c => calibrate = true /\ length c = n
         /\ ((exists m, c = map (map Fin) m /\ is_correlation n m) \/ exists r x, In r c /\ In x r /\ is_nan x = true)
     end.
Lemma hypersphere_nan_row n t : (1 <= n)%nat -> length t = (n - 1)%nat -> (exists x, In x t /\ x = NaN) -> exists x, In x (hypersphere_row n t) /\ x = NaN.
Proof.
  intros N L (x & I & ->). destruct n as [|k]; [lia|]. replace (S k - 1)%nat with k in L by lia. subst k.
  exists NaN. split; [|reflexivity]. unfold hypersphere_row.
  assert (G : forall t k acc, In NaN t -> In NaN (map (fun '(j, (c, s)) => if Nat.ltb j (k + length t) then c *x s else s)
    (combine (seq k (S (length t))) (combine (map xcos t ++ [Fin 1]) (acc :: xcumprod acc (map xsin t)))))).
  { clear. induction t as [|a t IH]; intros k acc I; [destruct I|]. cbn [length map app xcumprod]. change (seq k (S (S (length t)))) with (k :: seq (S k) (S (length t))). cbn [combine map].
    replace (k <? k + S (length t))%nat with true by (symmetry; apply Nat.ltb_lt; lia). destruct I as [->|I]; [left; reflexivity|]. right. replace (k + S (length t))%nat with (S k + length t)%nat by lia. apply IH, I. }
  exact (G t 1%nat (Fin 1) I).
Qed.
Lemma chunks_in {A} n m (l : list A) x : length l = (n * m)%nat -> In x l -> exists r, In r (chunks n m l) /\ In x r.
Proof.
  revert l. induction n as [|n IH]; intros l L I; [destruct l; [destruct I|discriminate L]|]. cbn [chunks]. rewrite <- (firstn_skipn m l) in I. apply in_app_or in I. destruct I as [I|I].
  - exists (firstn m l). split; [left; reflexivity|exact I].
  - destruct (IH (skipn m l)) as (r & A1 & A2); [rewrite skipn_length; nia|exact I|]. exists r. split; [right; exact A1|exact A2].
Qed.
Lemma xsum_nan l : In NaN l -> xsum l = NaN.
Proof. induction l as [|x l IH]; intros I; [destruct I|]. unfold xsum in *. cbn [fold_right]. destruct I as [->|I]; [destruct (fold_right _ _ _) as [|[]|]; reflexivity|]. rewrite IH by exact I. destruct x as [|[]|]; reflexivity. Qed.
Lemma xdot_nan a : In NaN a -> xdot a a = NaN.
Proof.
  intros I. apply xsum_nan. induction a as [|x a IH]; [destruct I|]. unfold xzip in *. cbn [combine map]. destruct I as [->|I]; [left; reflexivity|right; apply IH, I].
Qed.
Lemma all_fin_or_nan l lb ub : Forall (within_or_nan lb ub) l -> (exists t, l = map Fin t) \/ In NaN l.
Proof.
  induction 1 as [|x l [->|(r & -> & _)] F [(t & ->)|I]]; [left; exists []; reflexivity|right; left; reflexivity|right; left; reflexivity|left; exists (r :: t); reflexivity|right; right; exact I].
Qed.
Lemma hypersphere_sound n t c lb ub : (1 <= n)%nat -> Forall (within_or_nan lb ub) t -> hypersphere n t = Some c ->
  length c = n /\ ((exists m, c = map (map Fin) m /\ is_correlation n m) \/ exists r x, In r c /\ In x r /\ is_nan x = true).
Proof.
  intros N F E. assert (L : length t = (n * (n - 1))%nat) by (unfold hypersphere in E; destruct (Nat.eqb_spec (length t) (n * (n - 1))); [assumption|discriminate E]). split.
  { unfold hypersphere in E. rewrite L, Nat.eqb_refl in E. injection E as <-. rewrite !map_length. apply chunks_length. }
  destruct (all_fin_or_nan t lb ub F) as [(u & ->)|I].
  - rewrite map_length in L. destruct (C90_hjm_correlation n u N L) as (m & E' & C). left. exists m. split; [congruence|exact C].
  - right. unfold hypersphere in E. rewrite L, Nat.eqb_refl in E. injection E as <-.
    destruct (chunks_in n (n - 1) t NaN L I) as (r & R1 & R2). pose proof (chunks_rows n (n - 1) t L) as CR. rewrite Forall_forall in CR. specialize (CR r R1).
    destruct (hypersphere_nan_row n r N CR) as (x & X & ->); [exists NaN; auto|].
    set (rows := map (hypersphere_row n) (chunks n (n - 1) t)). assert (IR : In (hypersphere_row n r) rows) by (apply in_map; exact R1).
    exists (map (xdot (hypersphere_row n r)) rows), NaN. split; [apply (in_map (fun a => map (xdot a) rows)); exact IR|]. split; [|reflexivity].
    rewrite <- (xdot_nan (hypersphere_row n r) X). apply in_map. exact IR.
Qed.
Lemma theta_lt : fst theta_bounds < snd theta_bounds.
Proof. unfold theta_bounds. cbn [fst snd]. pose proof PI_RGT_0. lra. Qed.
Lemma hjm_read_sound b calibrate n mr vol x p : (1 <= n)%nat -> fst mr < snd mr -> fst vol < snd vol -> hjm_read b calibrate n mr vol x = Some p -> hjm_sound calibrate n mr vol p.
Proof.
  intros N A B E. assert (W : forall bb l, fst bb < snd bb -> Forall (within_or_nan (fst bb) (snd bb)) (map (hjm_decode bb) l)).
  { intros bb l L. apply Forall_forall. intros y I. apply in_map_iff in I. destruct I as (z & <- & _). apply hjm_decode_within, L. }
  unfold hjm_read in E. destruct calibrate.
  - set (th := if b then _ else _) in E. clearbody th. destruct (hypersphere n _) as [c|] eqn:H; [|discriminate E]. cbn [option_map] in E. injection E as <-. unfold hjm_sound. cbn [j_mean_reversion j_volatility j_corr].
    split; [apply W, A|]. split; [apply W, B|]. split; [reflexivity|]. eapply hypersphere_sound; [exact N|apply (W theta_bounds), theta_lt|exact H].
  - injection E as <-. unfold hjm_sound. cbn [j_mean_reversion j_volatility j_corr]. split; [apply W, A|]. split; [apply W, B|]. reflexivity.
Qed.
Theorem C90_hjm_bounds {T} vol_based calibrate price to_vol prices notional n m v mr vol opt p (st : T) : (1 <= n)%nat -> fst mr < snd mr -> fst vol < snd vol ->
  hjm_swaptions vol_based calibrate price to_vol prices notional n m v mr vol opt = Some (p, st) -> hjm_sound calibrate n mr vol p.
Proof.
  intros N A B E. destruct notional as [no|]; [|discriminate E]. unfold hjm_swaptions in E. cbn [bind] in E. destruct (forallb _ _) in E; [|discriminate E].
  destruct (opt _ _) as [r|] in E; [|discriminate E]. cbn [bind] in E. destruct (hjm_read false calibrate n mr vol (position r)) as [q|] eqn:Q; [|discriminate E]. cbn [option_map] in E. injection E as <- _.
  exact (hjm_read_sound _ _ _ _ _ _ _ N A B Q).
Qed.
(** The starting angles lie inside their bounds. *)
Lemma initial_angles_inside n : Forall (fun v => fst theta_bounds < v < snd theta_bounds) (initial_angles n).
Proof.
  apply Forall_forall. intros a I. unfold initial_angles in I. apply in_map_iff in I. destruct I as (i & <- & I). apply in_seq in I. destruct I as [_ I]. cbn [Nat.add] in I.
  assert (L : INR i + 1 <= INR (n * (n - 1))) by (rewrite <- S_INR; apply le_INR; exact I). pose proof (pos_INR i) as P. pose proof PI2_1 as Q. unfold theta_bounds. cbn [fst snd]. split.
  - apply Rdiv_lt_0_compat; lra.
  - apply Rlt_trans with 1; [|lra]. apply (Rmult_lt_reg_r (INR (n * (n - 1)))); [lra|]. unfold Rdiv. rewrite Rmult_assoc, Rinv_l by lra. lra.
Qed.
Lemma initial_angles_length n : length (initial_angles n) = (n * (n - 1))%nat.
Proof. unfold initial_angles. rewrite map_length, seq_length. reflexivity. Qed.
Theorem C90_hjm_start {T} (vol_based calibrate : bool) price to_vol prices notional n m v mr vol (opt : optimizer (list xr) xr T) (st : T) : (1 <= n)%nat -> length m = n -> length v = n ->
  Forall (fun x => fst mr < x < snd mr) m -> Forall (fun x => fst vol < x < snd vol) v ->
  forallb is_finite (if vol_based then to_vol (map Fin prices) else map Fin prices) = true -> (forall f x, opt f x = Some (Optimum x st)) ->
  exists c, hjm_swaptions vol_based calibrate price to_vol prices (Some notional) n m v mr vol opt = Some (HjmParams (map Fin m) (map Fin v) (if calibrate then Some (map (map Fin) c) else None), st)
    /\ is_correlation n c.
Proof.
  intros N M V FM FV FT O. destruct (C90_hjm_correlation n (initial_angles n) N (initial_angles_length n)) as (c & E & C). exists c. split; [|exact C].
  unfold hjm_swaptions. cbn [bind]. rewrite FT, O. cbn [bind position status].
  assert (R1 : forall w, firstn n (map (hjm_encode mr) m ++ w) = map (hjm_encode mr) m) by (intros w; rewrite firstn_app, map_length, M, Nat.sub_diag, firstn_O, app_nil_r; apply firstn_all2; rewrite map_length; lia).
  assert (R2 : forall w, skipn n (map (hjm_encode mr) m ++ w) = w) by (intros w; rewrite skipn_app, map_length, M, Nat.sub_diag, skipn_all2 by (rewrite map_length; lia); reflexivity).
  assert (R3 : forall w, firstn n (map (hjm_encode vol) v ++ w) = map (hjm_encode vol) v) by (intros w; rewrite firstn_app, map_length, V, Nat.sub_diag, firstn_O, app_nil_r; apply firstn_all2; rewrite map_length; lia).
  assert (R4 : forall w, skipn (2 * n) (map (hjm_encode mr) m ++ map (hjm_encode vol) v ++ w) = w) by (intros w; rewrite app_assoc, skipn_app, app_length, !map_length, M, V; replace (2 * n - (n + n))%nat with 0%nat by lia; rewrite skipn_all2 by (rewrite app_length, !map_length; lia); reflexivity).
  unfold hjm_read. rewrite R1, R2, R3, R4, !hjm_round_all by assumption. destruct calibrate; [|reflexivity].
  rewrite hjm_round_all by apply initial_angles_inside. rewrite E. reflexivity.
Qed.
(** The objective is evaluated at the reported parameters as long as the angle
    coordinates stay within 25 of zero. *)
Theorem C90_hjm_objective calibrate n mr vol x : Forall (fun t => within (-25) 25 t) (skipn (2 * n) x) -> hjm_read true calibrate n mr vol x = hjm_read false calibrate n mr vol x.
Proof.
  intros F. unfold hjm_read. destruct calibrate; [|reflexivity]. replace (map (fun t => clip_preserve t (Fin (-25)) (Fin 25)) (skipn (2 * n) x)) with (skipn (2 * n) x); [reflexivity|].
  symmetry. rewrite <- (map_id (skipn (2 * n) x)) at 2. apply map_ext_in. intros t I. rewrite Forall_forall in F. destruct (F t I) as (r & -> & B).
  unfold clip_preserve, xclip. rewrite xmax_f, xmin_f. rewrite Rmax_left, Rmin_left by lra. unfold xsub. cbn [xopp xadd]. f_equal. lra.
Qed.
Theorem C90_hjm_error ts vs : ts <> [] -> length vs = length ts -> largest ts <> 0 ->
  hjm_loss (map Fin ts) (map Fin vs) = Fin (sum_squares vs ts / largest ts ^ 2) /\ (hjm_loss (map Fin ts) (map Fin vs) = Fin 0 <-> vs = ts).
Proof. intros N L M. destruct (C90_hw_error ts vs N L M) as (A & _ & B & _). split; [exact A|exact B]. Qed.

(** A start at its upper bound is reported as NaN, while the other calibrations
    report it unchanged. *)
Theorem C90_hjm_upper_bound_refuted b : fst b < snd b -> hjm_decode b (hjm_encode b (snd b)) = NaN /\ hw_decode b (hw_encode b (snd b)) = Fin (snd b) /\ hjm_decode b (hjm_encode b (fst b)) = Fin (fst b).
Proof.
  intros L. split; [unfold hjm_decode, hjm_encode; rewrite unconstrained_high by exact L; rewrite hjm_squash; reflexivity|]. split; [apply hw_round; lra|].
  unfold hjm_decode, hjm_encode. rewrite unconstrained_low by exact L. rewrite hjm_squash. reflexivity.
Qed.
(** The documented shape batch_shape + [num_hjm_factors] works only for a batch of
    two and without the correlation. *)
Theorem C90_hjm_batch_refuted calibrate n B : hjm_guess_shape calibrate n [B; n] <> None <-> calibrate = false /\ B = 2%nat.
Proof.
  unfold hjm_guess_shape. change (concat_last [B; n] [B; n]) with (if same_shape [B] [B] then Some [B; (n + n)%nat] else None). unfold same_shape at 1. destruct (list_eq_dec Nat.eq_dec [B] [B]) as [_|X]; [|exfalso; apply X; reflexivity]. cbn [bind].
  destruct calibrate; cbn [angles_shape length Nat.ltb Nat.leb]; unfold concat_last; cbn [length Nat.eqb negb andb removelast last app]; [split; [intros X; exfalso; apply X; reflexivity|intros [X _]; discriminate X]|].
  unfold same_shape. destruct (list_eq_dec Nat.eq_dec [B] [2%nat]) as [E|E].
  - split; [intros _; injection E as ->; auto|intros _; discriminate].
  - split; [intros X; exfalso; apply X; reflexivity|intros [_ ->]; exfalso; apply E; reflexivity].
Qed.
(** Two factors with starting values inside the default bounds. *)
Example hjm_example {T} (st : T) price to_vol : exists c, hjm_swaptions false true price to_vol [1; 2] (Some 100) 2 [1 / 100; 2 / 100] [1 / 200; 1 / 100] (1 / 1000, 1 / 2) (1 / 100000, 1 / 10) (fun _ x => Some (Optimum x st))
  = Some (HjmParams [Fin (1 / 100); Fin (2 / 100)] [Fin (1 / 200); Fin (1 / 100)] (Some (map (map Fin) c)), st) /\ is_correlation 2 c.
Proof.
  apply (C90_hjm_start false true price to_vol [1; 2] 100 2 [1 / 100; 2 / 100] [1 / 200; 1 / 100] (1 / 1000, 1 / 2) (1 / 100000, 1 / 10)); cbn [fst snd]; try lia; try reflexivity; repeat constructor; lra.
Qed.
Example hw_error_example : hw_loss false (map Fin [2; 4]) (map Fin [1; 4]) = Fin (1 / 16).
Proof.
  destruct (C90_hw_error [2; 4] [1; 4]) as (-> & _); [discriminate|reflexivity| |].
  - cbn. unfold Rmax. destruct (Rle_dec 4 2); lra.
  - f_equal. cbn [largest fold_right sum_squares]. rewrite Rmax_left by lra. field.
Qed.

Print Assumptions C90_hw_bounds.
Print Assumptions C90_hw_start.
Print Assumptions C90_hw_no_worse.
Print Assumptions C90_hw_error.
Print Assumptions C90_notional_refuted.
Print Assumptions C90_mean_reversion_refuted.
Print Assumptions C90_volatility_refuted.
Print Assumptions C90_hjm_correlation.
Print Assumptions C90_hjm_bounds.
Print Assumptions C90_hjm_start.
Print Assumptions C90_hjm_objective.
Print Assumptions C90_hjm_error.
Print Assumptions C90_hjm_upper_bound_refuted.
Print Assumptions C90_hjm_batch_refuted.
