(** C93: the cashflow streams and swaps of the pricing platform. *)
From Coq Require Import String Reals QArith Qreals ZArith List Bool Lia Lra ZifyBool Sorted.
From Verif Require Import DateModel DateSpec DateRepr DateProofs DateProofs2 PropsDateAux PropsDate CalSpec BoundedCalModel UnboundedCalModel CalSetup CalProofs CalModified BoundedCalProofs UnboundedCalProofs PropsCalAux PropsCal DayCountModel.
From Verif Require Import TensorModel InterpModel IntegrateModel SegmentModel ScheduleModel ScheduleSpec ScheduleProofs ScheduleProofs2 RatesModel InstrumentModel InstrumentSpec InstrumentProofs PropsInstrument PropsInstrument2 CmsProofs PlatformModel PlatformSpec PlatformProofs.
Import ListNotations.
Open Scope R_scope.

(** ** The coupon dates of a batch *)
Definition backward_of (penultimate : option (list date)) : bool := match penultimate with None => false | Some _ => true end.
(** The dates of every contract are laid out between the settled dates, in order;
    the first and the last date are repeated, which adds coupons of no length. *)
Theorem C93_schedule t rule conv xs penultimate : get_business_day_convention rule = (conv, false) -> good_batch conv xs ->
  penultimate = None \/ t = MONTH \/ t = YEAR \/ (exists x, xs = [x]) ->
  exists rows, coupon_dates None None (Some (map x_start xs)) (Some (map x_end xs)) (map x_freq xs) t rule (map x_days xs) None penultimate = Some rows /\
    (forall l l', In l rows -> In l' rows -> length l = length l') /\
    Forall2 (fun x l => hd_error l = Some (x_from x) /\ last l (x_from x) = x_to x /\ Forall is_date l /\ nondecreasing l /\
      exists r, coupon_schedule t (backward_of penultimate) x r /\ forall f, (forall d, is_date d -> f d d = 0) -> over_periods f l = over_periods f r) xs rows.
Proof.
  intros ER GB BK. destruct (dates_rows t rule conv (backward_of penultimate) xs penultimate ER GB eq_refl) as (rows & W & E & W4 & F).
  { destruct BK as [->|BK]; [left; reflexivity|right; exact BK]. }
  exists rows. split; [exact E|]. split.
  - assert (LW : forall l, In l rows -> length l = W).
    { clear - F. induction F as [|x l xs rows H F IH]; [contradiction|]. intros l' [<-|J]; [exact (proj1 H)|exact (IH l' J)]. }
    intros l l' J J'. rewrite (LW l J), (LW l' J'). reflexivity.
  - destruct GB as (GT & _). clear E BK. induction F as [|x l xs rows (_ & RF) F IH]; constructor; [|apply IH; intros y J; apply GT; right; exact J].
    destruct (row_facts t _ x l conv (GT x (or_introl eq_refl)) RF) as (r & RS & DR & NR & DL & NL & L4 & N0 & N1 & OV).
    destruct RF as (_ & p & _ & _ & _ & El & _). split; [rewrite El; reflexivity|]. split; [rewrite El, app_comm_cons; apply last_last|]. split; [exact DL|]. split; [exact NL|].
    exists r. split; [unfold coupon_schedule; destruct (backward_of penultimate); exact RS|exact OV].
Qed.

(** ** Day counts *)
Theorem C93_day_counts c : match c with DC_CALLABLE _ => False | _ => True end -> fair_fraction (get_daycount_fn c).
Proof. exact (day_counts c). Qed.
(** The rule of a contract names the convention by which its dates roll, and
    whether they move to the end of the month. *)
Theorem C93_conventions : forall rule conv eom, get_business_day_convention rule = (conv, eom) <->
  In (rule, conv, eom) [(BR_NO_ADJUSTMENT, NONE, false); (BR_FOLLOWING, FOLLOWING, false); (BR_MODIFIED_FOLLOWING, MODIFIED_FOLLOWING, false);
    (BR_PREVIOUS, PRECEDING, false); (BR_MODIFIED_PREVIOUS, MODIFIED_PRECEDING, false);
    (BR_EOM_FOLLOWING, FOLLOWING, true); (BR_EOM_PREVIOUS, PRECEDING, true); (BR_EOM_NO_ADJUSTMENT, NONE, true)].
Proof.
  intros rule conv eom. split; intros H.
  - destruct rule; cbn in H; injection H as <- <-; cbn; intuition.
  - cbn in H. repeat (destruct H as [H|H]; [injection H as <- <- <-; reflexivity|]). contradiction.
Qed.
(** The day count of a contract counts its days over 360 or 365. *)
Theorem C93_named_day_counts : forall s e,
  get_daycount_fn DC_ACTUAL_360 s e = IZR (ordinal e - ordinal s) / 360 /\ get_daycount_fn DC_ACTUAL_365 s e = IZR (ordinal e - ordinal s) / 365 /\
  get_daycount_fn DC_30_360 s e = Q2R (thirty_360_isda s e) /\ (forall f, get_daycount_fn (DC_CALLABLE f) s e = f s e) /\
  forall q, actual_actual_isda s e = Some q -> get_daycount_fn DC_ACTUAL_ACTUAL_ISDA s e = Q2R q.
Proof.
  intros s e. split; [|split; [|split; [|split]]]; try reflexivity; try (intros q H; cbn; rewrite H; reflexivity);
    cbn [get_daycount_fn]; unfold actual_360, actual_365_fixed, days_until; rewrite Q2R_div by discriminate; unfold Q2R; cbn [Qnum Qden inject_Z]; field.
Qed.
Lemma actual_strict c : c = DC_ACTUAL_360 \/ c = DC_ACTUAL_365 -> strict_fraction (get_daycount_fn c).
Proof.
  intros H s e _ _ L. destruct H as [->| ->]; [exact (act_positive ACTUAL_360 s e ltac:(discriminate) L)|exact (act_positive ACTUAL_365 s e ltac:(discriminate) L)].
Qed.

(** ** Streams of a batch *)
Lemma forall2_with {A B} (P Q : A -> B -> Prop) (K : A -> Prop) xs ys : Forall2 P xs ys -> (forall x, In x xs -> K x) -> (forall x y, K x -> P x y -> Q x y) -> Forall2 Q xs ys.
Proof. intros F HK H. induction F as [|x y xs ys PX F IH]; constructor; [apply H; [apply HK; left; reflexivity|exact PX]|apply IH; intros z J; apply HK; right; exact J]. Qed.
(** The price of a fixed stream is the value of the coupons not yet paid. *)
Theorem C93_fixed t rule conv xs penultimate c : get_business_day_convention rule = (conv, false) -> good_batch conv xs ->
  penultimate = None \/ t = MONTH \/ t = YEAR \/ (exists x, xs = [x]) -> fair_fraction (get_daycount_fn c) ->
  exists rows, coupon_dates None None (Some (map x_start xs)) (Some (map x_end xs)) (map x_freq xs) t rule (map x_days xs) None penultimate = Some rows /\
    Forall2 (fun x l => exists r, coupon_schedule t (backward_of penultimate) x r /\ forall valuation discount,
      fixed_stream_price c valuation discount (x_notional x) (x_rate x) l = fixed_leg_value valuation discount (get_daycount_fn c) (x_notional x) (x_rate x) r) xs rows.
Proof.
  intros ER GB BK (F0 & _). destruct (C93_schedule t rule conv xs penultimate ER GB BK) as (rows & E & _ & F). exists rows. split; [exact E|].
  apply (forall2_with _ _ (fun _ => True) xs rows F); [auto|]. intros x l _ (_ & _ & DL & _ & r & CS & OV). exists r. split; [exact CS|]. intros valuation discount.
  rewrite fixed_price. unfold fixed_leg_value. apply OV. intros d Dd. unfold value_of. rewrite (F0 d Dd). destruct (ordinal valuation <=? ordinal d)%Z; ring.
Qed.
(** The price of a floating stream: every coupon pays the rate between its start
    and its start plus the term of the index, or the past fixing, and the spread;
    the spreads of the coupons that have been paid are counted as well
    (C93_spread_refuted). *)
Theorem C93_floating_partial t rule conv xs penultimate c q' t' : get_business_day_convention rule = (conv, false) -> good_batch conv xs ->
  penultimate = None \/ t = MONTH \/ t = YEAR \/ (exists x, xs = [x]) -> fair_fraction (get_daycount_fn c) -> (0 < q')%Z ->
  exists rows, coupon_dates None None (Some (map x_start xs)) (Some (map x_end xs)) (map x_freq xs) t rule (map x_days xs) None penultimate = Some rows /\
    Forall2 (fun x l => forall valuation discount reference past, (forall d, reference d <> 0) ->
      exists r, coupon_schedule t (backward_of penultimate) x r /\ Forall is_date r /\ nondecreasing r /\
      float_stream_price c (mk_period q' t') valuation discount reference past (x_notional x) (x_spread x) l =
      Some (over_periods (fun s e => coupon_value valuation discount reference past (get_daycount_fn c) (x_notional x) (x_spread x) s e (InstrumentSpec.plus s (mk_period q' t'))) r +
            over_periods (passed_spread valuation discount (get_daycount_fn c) (x_notional x) (x_spread x)) r)) xs rows.
Proof.
  intros ER GB BK FF Q. destruct (dates_rows t rule conv (backward_of penultimate) xs penultimate ER GB eq_refl) as (rows & W & E & W4 & F).
  { destruct BK as [->|BK]; [left; reflexivity|right; exact BK]. }
  exists rows. split; [exact E|]. apply (forall2_with _ _ (good_terms conv) xs rows F); [exact (proj1 GB)|]. intros x l GT (_ & RF) valuation discount reference past RP.
  exact (row_float t _ x l conv c q' t' valuation discount reference past _ _ GT RF FF Q RP).
Qed.
(** Without a spread, or before the first coupon, only the coupons to come count. *)
Theorem C93_floating t rule conv xs penultimate c q' t' valuation : get_business_day_convention rule = (conv, false) -> good_batch conv xs ->
  penultimate = None \/ t = MONTH \/ t = YEAR \/ (exists x, xs = [x]) -> fair_fraction (get_daycount_fn c) -> (0 < q')%Z ->
  (forall x, In x xs -> x_spread x = 0 \/ (ordinal valuation <= ordinal (x_from x))%Z) ->
  exists rows, coupon_dates None None (Some (map x_start xs)) (Some (map x_end xs)) (map x_freq xs) t rule (map x_days xs) None penultimate = Some rows /\
    Forall2 (fun x l => forall discount reference past, (forall d, reference d <> 0) ->
      exists r, coupon_schedule t (backward_of penultimate) x r /\
      float_stream_price c (mk_period q' t') valuation discount reference past (x_notional x) (x_spread x) l =
      Some (over_periods (fun s e => coupon_value valuation discount reference past (get_daycount_fn c) (x_notional x) (x_spread x) s e (InstrumentSpec.plus s (mk_period q' t'))) r)) xs rows.
Proof.
  intros ER GB BK FF Q SP. destruct (C93_floating_partial t rule conv xs penultimate c q' t' ER GB BK FF Q) as (rows & E & F). exists rows. split; [exact E|].
  apply (forall2_with _ _ (fun x => good_terms conv x /\ (x_spread x = 0 \/ (ordinal valuation <= ordinal (x_from x))%Z)) xs rows F).
  { intros x J. split; [apply (proj1 GB); exact J|apply SP; exact J]. }
  intros x l ((_ & _ & _ & _ & (r1 & _ & _ & D1 & _) & (r2 & _ & _ & D2 & _) & _ & O) & SX) H discount reference past RP. destruct (H valuation discount reference past RP) as (r & CS & DR & NR & EQ). exists r. split; [exact CS|]. rewrite EQ. f_equal.
  replace (over_periods (passed_spread valuation discount (get_daycount_fn c) (x_notional x) (x_spread x)) r) with 0; [ring|]. symmetry.
  destruct SX as [SX|VL].
  - rewrite SX. clear. induction r as [|u [|v r] IH]; [reflexivity|reflexivity|]. cbn [over_periods] in *. rewrite IH. unfold passed_spread. destruct (_ <? _)%Z; ring.
  - assert (RS : row_spec t (backward_of penultimate) (mk_row (x_from x) (x_to x) (x_freq x)) r) by (unfold coupon_schedule in CS; destruct (backward_of penultimate); exact CS).
    destruct (row_spec_ends _ _ _ _ _ _ D1 D2 O RS) as ((ra & Ea) & _).
    assert (AL : forall d, In d r -> (ordinal valuation <= ordinal d)%Z).
    { intros d J. rewrite Ea in J, NR. inversion NR as [|? ? _ FA]; subst. destruct J as [<-|J]; [exact VL|]. rewrite Forall_forall in FA. specialize (FA d J). lia. }
    clear - AL. induction r as [|u [|v r] IH]; [reflexivity|reflexivity|]. cbn [over_periods] in *. rewrite IH by (intros d J; apply AL; right; exact J).
    unfold passed_spread. pose proof (AL v (or_intror (or_introl eq_refl))). replace (ordinal v <? ordinal valuation)%Z with false by lia. ring.
Qed.

(** ** The value of a floating stream at par *)
(** Coupons that start today or later, pay the rate over their own period and are
    discounted on the same curve are worth the notional now less the notional at
    the end, and the spread on the annuity. *)
Theorem C93_par t rule conv xs c valuation discount : get_business_day_convention rule = (conv, false) -> good_batch conv xs ->
  fair_fraction (get_daycount_fn c) -> strict_fraction (get_daycount_fn c) -> (forall d, 0 < discount d) ->
  (forall x, In x xs -> x_freq x = x_freq (hd x xs) /\ steady t (x_from x) /\ (ordinal valuation <= ordinal (x_from x))%Z /\
     exists m, (0 < m)%Z /\ date_add (x_from x) (mk_period (x_freq x * m) t) = Some (x_to x)) ->
  exists rows q, coupon_dates None None (Some (map x_start xs)) (Some (map x_end xs)) (map x_freq xs) t rule (map x_days xs) None None = Some rows /\
    Forall (fun x => x_freq x = q) xs /\
    Forall2 (fun x l => forall past, exists r, coupon_schedule t false x r /\
      float_stream_price c (mk_period q t) valuation discount discount past (x_notional x) (x_spread x) l =
      Some (x_notional x * (discount (x_from x) - discount (x_to x)) + x_notional x * x_spread x * leg_annuity discount (get_daycount_fn c) r)) xs rows.
Proof.
  intros ER GB FF SF DP HX. destruct GB as (GT & x0 & J0 & O0).
  set (q := x_freq (hd x0 xs)). assert (HQ : Forall (fun x => x_freq x = q) xs).
  { apply Forall_forall. intros x J. destruct (HX x J) as (E & _). rewrite E. unfold q. destruct xs; [destruct J0|reflexivity]. }
  assert (Q : (0 < q)%Z). { rewrite Forall_forall in HQ. rewrite <- (HQ x0 J0). destruct (GT x0 J0) as (_ & _ & _ & _ & _ & _ & P & _). exact P. }
  destruct (C93_floating t rule conv xs None c q t valuation ER (conj GT (ex_intro _ x0 (conj J0 O0))) (or_introl eq_refl) FF Q) as (rows & E & F).
  { intros x J. right. apply (HX x J). }
  exists rows, q. split; [exact E|]. split; [exact HQ|]. apply (forall2_with _ _ (fun x => In x xs) xs rows F); [auto|].
  intros x l J H past. rewrite Forall_forall in HQ. destruct (HX x J) as (_ & ST & VL & m & M & EM). destruct (GT x J) as (_ & _ & _ & _ & (r1 & _ & _ & D1 & _) & _).
  destruct (H discount discount past) as (r & CS & EQ). { intros d. specialize (DP d). lra. } exists r. split; [exact CS|]. rewrite EQ. f_equal.
  unfold coupon_schedule, backward_of in CS. rewrite (HQ x J) in CS, EM.
  destruct (whole_dates t _ _ _ m r D1 ST Q M EM CS) as ((ra & Ra) & (rb & Rb) & DA & ST' & INC).
  rewrite (periods_nth _ (fun s e => (x_notional x * discount s - x_notional x * discount e) + x_notional x * x_spread x * (get_daycount_fn c s e * discount e)) r (x_from x)).
  - unfold leg_annuity. transitivity (over_periods (fun s e => x_notional x * discount s - x_notional x * discount e) r + over_periods (fun s e => x_notional x * x_spread x * (get_daycount_fn c s e * discount e)) r).
    { clear. induction r as [|u [|v r] IH]; [cbn; ring|cbn; ring|]. cbn [over_periods] in *. rewrite IH. ring. }
    rewrite periods_scal. f_equal. rewrite Ra, (telescope (fun d => x_notional x * discount d)). replace (last ra (x_from x)) with (x_to x); [ring|].
    assert (HL : last r (x_from x) = x_to x) by (rewrite Rb; apply last_last). rewrite Ra in HL. rewrite <- HL. destruct ra; reflexivity.
  - intros i L. pose proof (increasing_nth r (x_from x) i INC L) as L1. unfold InstrumentSpec.plus. rewrite (ST' i L).
    assert (L0 : (ordinal (x_from x) <= ordinal (nth i r (x_from x)))%Z).
    { assert (IN : In (nth i r (x_from x)) r) by (apply nth_In; lia). revert IN. generalize (nth i r (x_from x)) as z. intros z IN. rewrite Ra in IN, INC.
      destruct IN as [<-|IN]; [lia|]. apply StronglySorted_inv in INC as (_ & H'). rewrite Forall_forall in H'. specialize (H' _ IN). lia. }
    assert (DD : forall j, (j < length r)%nat -> is_date (nth j r (x_from x))) by (intros j Lj; rewrite Forall_forall in DA; apply DA, nth_In; exact Lj).
    pose proof (SF _ _ (DD i ltac:(lia)) (DD (S i) L) L1) as TP.
    set (s := nth i r (x_from x)) in *. set (e := nth (S i) r (x_from x)) in *. unfold coupon_value, floating_rate, value_of.
    replace (ordinal valuation <=? ordinal e)%Z with true by lia. replace (ordinal s <? ordinal valuation)%Z with false by lia.
    pose proof (DP e). field. lra.
Qed.

(** ** Dates supplied by the caller *)
(** On supplied dates the first and the last coupon pay the rate over their own
    period, the others the rate over the term of the index. *)
Theorem C93_supplied c q' t' valuation discount reference past notional spread a m z b y m1 m2 : m = b :: m1 -> m = m2 ++ [y] ->
  Forall is_date (a :: m ++ [z]) -> nondecreasing (a :: m ++ [z]) -> fair_fraction (get_daycount_fn c) -> (0 < q')%Z -> (forall d, reference d <> 0) ->
  let coupon := coupon_value valuation discount reference past (get_daycount_fn c) notional spread in
  coupon_dates (Some [a :: m ++ [z]]) None None None [] t' BR_NO_ADJUSTMENT [] None None = Some [a :: m ++ [z]] /\
  float_stream_price c (mk_period q' t') valuation discount reference past notional spread (a :: m ++ [z]) =
  Some (coupon a b b + over_periods (fun s e => coupon s e (InstrumentSpec.plus s (mk_period q' t'))) m + coupon y z z +
        over_periods (passed_spread valuation discount (get_daycount_fn c) notional spread) (a :: m ++ [z])).
Proof.
  intros E1 E2 DL NL FF Q RP coupon. split; [reflexivity|].
  assert (DI : forall d, In d (a :: m ++ [z]) -> is_date d) by (rewrite Forall_forall in DL; exact DL).
  rewrite (float_price c (mk_period q' t') valuation discount reference past notional spread a m z b y m1 m2 E1 E2).
  2: { intros d J. apply (plus_later d q' t'); [|exact Q]. apply DI. destruct J as [<-|J]; [left; reflexivity|right; apply in_or_app; left; exact J]. }
  f_equal. set (f := code_coupon c valuation discount reference past notional spread).
  assert (CC : forall s e w, is_date s -> is_date e -> (ordinal s <= ordinal e)%Z -> f s e w = coupon s e w + passed_spread valuation discount (get_daycount_fn c) notional spread s e) by (intros; apply coupon_code; assumption).
  assert (Ib : In b m) by (rewrite E1; left; reflexivity). assert (Iy : In y m) by (rewrite E2; apply in_or_app; right; left; reflexivity).
  assert (Im : forall d, In d m -> is_date d) by (intros d J; apply DI; right; apply in_or_app; left; exact J).
  assert (ND := NL). apply StronglySorted_inv in NL as (NM & FA). rewrite Forall_forall in FA.
  assert (NM' : nondecreasing m /\ (forall d, In d m -> (ordinal d <= ordinal z)%Z)).
  { clear - NM. induction m as [|u m IH]; [split; [constructor|contradiction]|]. cbn in NM. inversion NM as [|? ? NX FX]; subst. destruct (IH NX) as (H1 & H2). rewrite Forall_forall in FX. split.
    - constructor; [exact H1|]. apply Forall_forall. intros d J. apply FX. apply in_or_app. left. exact J.
    - intros d [<-|J]; [apply FX; apply in_or_app; right; left; reflexivity|exact (H2 d J)]. }
  destruct NM' as (NM' & LZ).
  rewrite (CC a b b), (CC y z z); try (apply DI; right; apply in_or_app; right; left; reflexivity); auto; try (apply DI; left; reflexivity).
  2: { apply FA. apply in_or_app. left. exact Ib. }
  replace (over_periods (fun s e => f s e (InstrumentSpec.plus s (mk_period q' t'))) m) with
    (over_periods (fun s e => coupon s e (InstrumentSpec.plus s (mk_period q' t'))) m + over_periods (passed_spread valuation discount (get_daycount_fn c) notional spread) m).
  - replace (over_periods (passed_spread valuation discount (get_daycount_fn c) notional spread) (a :: m ++ [z])) with
      (passed_spread valuation discount (get_daycount_fn c) notional spread a b + over_periods (passed_spread valuation discount (get_daycount_fn c) notional spread) m + passed_spread valuation discount (get_daycount_fn c) notional spread y z); [ring|].
    set (g := passed_spread _ _ _ _ _). transitivity (g a b + over_periods g (m ++ [z])).
    + rewrite E2, <- app_assoc. cbn [app]. rewrite (periods_app g m2 y [z]). cbn [over_periods]. ring.
    + rewrite E1. cbn [app]. reflexivity.
  - clear - CC Im NM'. induction m as [|u [|v m] IH]; [cbn; ring|cbn; ring|]. inversion NM' as [|? ? NX FX]; subst.
    assert (X := IH (fun d J => Im d (or_intror J)) NX). cbn [over_periods] in *. rewrite <- X. inversion FX; subst.
    rewrite (CC u v) by (try assumption; apply Im; cbn; auto). ring.
Qed.

(** ** Swaps *)
(** A swap is worth the received leg less the paid one. *)
Theorem C93_swap pay receive valuation discount reference data v : swap_value pay receive valuation discount reference data = Some v ->
  exists p r, leg_price valuation discount reference data pay = Some p /\ leg_price valuation discount reference data receive = Some r /\ v = r - p /\
    swap_value receive pay valuation discount reference data = Some (- v).
Proof.
  unfold swap_value. destruct (leg_price valuation discount reference data pay) as [p|]; [|discriminate]. destruct (leg_price valuation discount reference data receive) as [r|]; [|discriminate].
  cbn. intros H. injection H as <-. exists p, r. repeat split; try reflexivity. f_equal. ring.
Qed.
(** A swap of the floating rate against the rate that makes the legs equal is
    worth nothing. *)
Theorem C93_par_swap t rule conv x c valuation discount data : get_business_day_convention rule = (conv, false) -> good_batch conv [x] ->
  fair_fraction (get_daycount_fn c) -> strict_fraction (get_daycount_fn c) -> (forall d, 0 < discount d) ->
  steady t (x_from x) -> (ordinal valuation <= ordinal (x_from x))%Z -> x_spread x = 0 ->
  (exists m, (0 < m)%Z /\ date_add (x_from x) (mk_period (x_freq x * m) t) = Some (x_to x)) ->
  exists l r, coupon_dates None None (Some [x_start x]) (Some [x_end x]) [x_freq x] t rule [x_days x] None None = Some [l] /\ coupon_schedule t false x r /\
    0 < leg_annuity discount (get_daycount_fn c) r /\
    forall past, x_rate x = (discount (x_from x) - discount (x_to x)) / leg_annuity discount (get_daycount_fn c) r ->
      swap_value (FixedLeg c (x_notional x) (x_rate x) l) (FloatLeg c (mk_period (x_freq x) t) (x_notional x) (x_spread x) (Some past) l) valuation discount discount data = Some 0.
Proof.
  intros ER GB FF SF DP ST VL SP WH.
  destruct (C93_par t rule conv [x] c valuation discount ER GB FF SF DP) as (rows & q & E & HQ & F).
  { intros y [<-|[]]. cbn. repeat split; assumption. }
  destruct (C93_schedule t rule conv [x] None ER GB (or_introl eq_refl)) as (rows' & E' & _ & F'). assert (rows' = rows) by congruence. subst rows'.
  inversion F as [|? l ? rest H F1]; subst. inversion F1; subst. inversion F' as [|? ? ? ? H' F1']; subst. clear F F' F1 F1'.
  inversion HQ as [|? ? HQ1 _]; subst. clear HQ. destruct H' as (_ & _ & DL & NL & r & CS & OV). exists l, r. split; [exact E|]. split; [exact CS|].
  destruct WH as (m & M & EM). destruct (proj1 GB x (or_introl eq_refl)) as (_ & _ & _ & _ & (r1 & _ & _ & D1 & _) & _ & Q & _).
  destruct (whole_dates t _ _ _ m r D1 ST Q M EM CS) as ((ra & Ra) & (rb & Rb) & DA & ST' & INC).
  assert (AP : 0 < leg_annuity discount (get_daycount_fn c) r).
  { assert (L2 : exists b ra', ra = b :: ra').
    { destruct ra as [|b ra']; [|exists b, ra'; reflexivity]. exfalso. rewrite Ra in Rb. destruct rb as [|? [|? ?]]; cbn in Rb; try discriminate. injection Rb as Rb.
      destruct (proj2 GB) as (x' & [<-|[]] & O). rewrite Rb in O. lia. }
    destruct L2 as (b & ra' & Er). unfold leg_annuity. clear - INC DA SF DP Ra Er. rewrite Er in Ra. clear Er. revert Ra. generalize (x_from x) as a. clear x. subst. revert b DA INC.
    assert (NN : forall r, increasing r -> Forall is_date r -> 0 <= over_periods (fun s e => get_daycount_fn c s e * discount e) r).
    { clear - SF DP. induction r as [|u [|v r] IH]; intros NX DX; [cbn; lra|cbn; lra|]. inversion NX as [|? ? N1 F1]; subst. inversion DX as [|? ? D1 D2]; subst. inversion F1; subst. inversion D2; subst.
      specialize (IH N1 D2). cbn [over_periods] in *. pose proof (SF u v D1 H3 H1). pose proof (DP v). nra. }
    intros b DA INC a ->. inversion INC as [|? ? N1 F1]; subst. inversion DA as [|? ? D1 D2]; subst. inversion F1; subst. inversion D2; subst.
    specialize (NN (b :: ra') N1 D2). cbn [over_periods] in *. pose proof (SF a b D1 H3 H1). pose proof (DP b). nra. }
  split; [exact AP|]. intros past RT. unfold swap_value, leg_price, past_of. cbn [bind].
  destruct (H past) as (r0 & CS0 & EQ). rewrite EQ. cbn [option_map]. f_equal. rewrite SP, fixed_price. unfold fixed_leg_value.
  replace (over_periods (fun s e => value_of valuation discount (x_notional x * x_rate x * get_daycount_fn c s e) e) l) with (x_notional x * x_rate x * leg_annuity discount (get_daycount_fn c) r).
  - rewrite RT. field. lra.
  - rewrite OV. 2: { intros d Dd. destruct FF as (F0 & _). unfold value_of. rewrite (F0 d Dd). destruct (_ <=? _)%Z; ring. }
    unfold leg_annuity. rewrite <- periods_scal. assert (AL : forall d, In d r -> (ordinal valuation <= ordinal d)%Z).
    { intros d J. rewrite Ra in J, INC. inversion INC as [|? ? _ FA]; subst. destruct J as [<-|J]; [exact VL|]. rewrite Forall_forall in FA. specialize (FA d J). lia. }
    apply periods_ext. intros u v _ J. unfold value_of. specialize (AL v J). replace (ordinal valuation <=? ordinal v)%Z with true by lia. ring.
Qed.

(** ** A batch of two swaps: settlement two business days after the agreed dates *)
Lemma settled_following d n s : is_date d -> is_date s -> (8 <= ordinal s)%Z -> working_day (ordinal d) = true -> working_day (ordinal s) = true -> (0 <= n)%Z -> (ordinal d <= ordinal s)%Z ->
  busdays working_day (ordinal d) (ordinal s) = n -> settled FOLLOWING d n s.
Proof.
  intros D S8 L W W' N0 O B. exists d. split; [exact D|]. split; [split; [lia|split; [exact W|intros k K; lia]]|]. split; [exact S8|]. split; [exact L|]. split; [exact W'|]. left. auto.
Qed.
Definition t93a : terms := Terms (ymd_date 2021 1 15) (ymd_date 2022 1 17) 2 (ymd_date 2021 1 19) (ymd_date 2022 1 19) 6 100 (1 / 20) 0.
Definition t93b : terms := Terms (ymd_date 2021 3 1) (ymd_date 2023 3 1) 2 (ymd_date 2021 3 3) (ymd_date 2023 3 3) 6 200 (1 / 50) (1 / 100).
Lemma t93_good : good_batch FOLLOWING [t93a; t93b].
Proof.
  split.
  - intros x [<-|[<-|[]]]; (split; [dates|]; split; [dates|]; split; [vm_compute; discriminate|]; split; [vm_compute; discriminate|]; split; [|split; [|split; vm_compute; [reflexivity|discriminate]]]);
      (apply settled_following; [dates|dates|vm_compute; discriminate|reflexivity|reflexivity|vm_compute; discriminate|vm_compute; discriminate|reflexivity]).
  - exists t93a. split; [left; reflexivity|reflexivity].
Qed.
Example C93_schedule_ex : coupon_dates None None (Some [ymd_date 2021 1 15; ymd_date 2021 3 1]) (Some [ymd_date 2022 1 17; ymd_date 2023 3 1]) [6%Z; 6%Z] MONTH BR_FOLLOWING [2%Z; 2%Z] None None =
  Some [[ymd_date 2021 1 19; ymd_date 2021 1 19; ymd_date 2021 7 19; ymd_date 2022 1 19; ymd_date 2022 1 19; ymd_date 2022 1 19; ymd_date 2022 1 19];
        [ymd_date 2021 3 3; ymd_date 2021 3 3; ymd_date 2021 9 3; ymd_date 2022 3 3; ymd_date 2022 9 3; ymd_date 2023 3 3; ymd_date 2023 3 3]].
Proof. vm_compute. reflexivity. Qed.
Example C93_hypotheses_ex : get_business_day_convention BR_FOLLOWING = (FOLLOWING, false) /\ good_batch FOLLOWING [t93a; t93b] /\ fair_fraction (get_daycount_fn DC_ACTUAL_365) /\ strict_fraction (get_daycount_fn DC_ACTUAL_365).
Proof. split; [reflexivity|]. split; [exact t93_good|]. split; [apply C93_day_counts; exact Logic.I|apply actual_strict; right; reflexivity]. Qed.
Example C93_par_ex : forall x, In x [t93a; t93b] -> x_freq x = x_freq (hd x [t93a; t93b]) /\ steady MONTH (x_from x) /\ (ordinal (ymd_date 2021 1 4) <= ordinal (x_from x))%Z /\
     exists m, (0 < m)%Z /\ date_add (x_from x) (mk_period (x_freq x * m) MONTH) = Some (x_to x).
Proof.
  intros x [<-|[<-|[]]]; (split; [reflexivity|]; split; [right; right; vm_compute; discriminate|]; split; [vm_compute; discriminate|]);
    [exists 2%Z|exists 4%Z]; (split; [lia|vm_compute; reflexivity]).
Qed.
Example C93_supplied_ex : let l := [ymd_date 2021 1 19; ymd_date 2021 4 19; ymd_date 2021 10 19; ymd_date 2022 1 19] in Forall is_date l /\ nondecreasing l.
Proof. cbv zeta. split; [repeat constructor; dates|]. repeat constructor; vm_compute; discriminate. Qed.

Print Assumptions C93_schedule.
Print Assumptions C93_day_counts.
Print Assumptions C93_conventions.
Print Assumptions C93_named_day_counts.
Print Assumptions C93_fixed.
Print Assumptions C93_floating_partial.
Print Assumptions C93_floating.
Print Assumptions C93_par.
Print Assumptions C93_supplied.
Print Assumptions C93_swap.
Print Assumptions C93_par_swap.
