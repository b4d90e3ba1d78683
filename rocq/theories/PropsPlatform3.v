(** C93: where the streams depart from the property; C94: forward rate agreements
    of the pricing platform. *)
From Coq Require Import String Reals QArith Qreals ZArith List Bool Lia Lra Psatz ZifyBool Sorted.
From Verif Require Import DateModel DateSpec DateRepr DateProofs DateProofs2 PropsDateAux PropsDate CalSpec BoundedCalModel UnboundedCalModel CalSetup CalProofs CalModified BoundedCalProofs UnboundedCalProofs PropsCalAux PropsCal DayCountModel.
From Verif Require Import TensorModel InterpModel IntegrateModel SegmentModel ScheduleModel ScheduleSpec ScheduleProofs ScheduleProofs2 RatesModel InstrumentModel InstrumentSpec InstrumentProofs PropsInstrument PropsInstrument2 CmsProofs PlatformModel PlatformSpec PlatformProofs PropsPlatform PropsPlatform2.
Import ListNotations.
Open Scope R_scope.

(** ** Schedules *)
(** The penultimate coupon date is not used: any other one gives the same
    schedule, which need not contain it. *)
Theorem C93_penultimate_refuted :
  (forall starts ends freq t rule days p p', generate_dates starts ends freq t rule days None (Some p) = generate_dates starts ends freq t rule days None (Some p')) /\
  exists l, coupon_dates None None (Some [ymd_date 2021 1 15]) (Some [ymd_date 2022 3 15]) [6%Z] MONTH BR_FOLLOWING [0%Z] None (Some [ymd_date 2022 1 14]) = Some [l] /\
    ~ In (ymd_date 2022 1 14) l.
Proof.
  split; [reflexivity|]. eexists. split; [vm_compute; reflexivity|]. intros H. repeat (destruct H as [H|H]; [vm_compute in H; discriminate|]). exact H.
Qed.
(** With a first coupon date the start date is not used: the coupon up to the
    first date is not paid. *)
Theorem C93_first_refuted :
  (forall starts starts' ends freq t rule days f, generate_dates starts ends freq t rule days (Some f) None = generate_dates starts' ends freq t rule days (Some f) None) /\
  exists l, coupon_dates None None (Some [ymd_date 2021 1 15]) (Some [ymd_date 2022 3 15]) [6%Z] MONTH BR_FOLLOWING [0%Z] (Some [ymd_date 2021 3 15]) None = Some [l] /\
    hd_error l = Some (ymd_date 2021 3 15) /\ ~ In (ymd_date 2021 1 15) l.
Proof.
  split; [reflexivity|]. eexists. split; [vm_compute; reflexivity|]. split; [reflexivity|]. intros H. repeat (destruct H as [H|H]; [vm_compute in H; discriminate|]). exact H.
Qed.
(** A schedule function without a penultimate date always fails. *)
Theorem C93_schedule_fn_refuted f starts ends freq t rule days first : coupon_dates None (Some f) (Some starts) (Some ends) freq t rule days first None = None.
Proof. reflexivity. Qed.
(** With an end-of-month rule the dates of a contract can go backwards in time. *)
Theorem C93_eom_refuted : exists l, coupon_dates None None (Some [ymd_date 2020 1 31]) (Some [ymd_date 2020 7 15]) [3%Z] MONTH BR_EOM_FOLLOWING [0%Z] None None = Some [l] /\
  exists i, (S i < length l)%nat /\ (ordinal (nth (S i) l (ymd_date 1 1 1)) < ordinal (nth i l (ymd_date 1 1 1)))%Z.
Proof.
  eexists. split; [vm_compute; reflexivity|]. match goal with |- exists i, (S i < length ?l)%nat /\ _ => exists (length l - 2)%nat end. split; [cbn; lia|]. vm_compute. reflexivity.
Qed.
(** Coupon dates other than the first and the last are not business days in
    general: no calendar is used for them. *)
Theorem C93_roll_refuted : exists l, coupon_dates None None (Some [ymd_date 2021 1 15]) (Some [ymd_date 2022 1 14]) [4%Z] MONTH BR_MODIFIED_FOLLOWING [0%Z] None None = Some [l] /\
  exists d, In d l /\ working_day (ordinal d) = false.
Proof. eexists. split; [vm_compute; reflexivity|]. exists (ymd_date 2021 5 15). split; [|vm_compute; reflexivity]. vm_compute. auto. Qed.

(** ** Coupons *)
Definition no_rate (d : date) : R := 1.
Lemma tau365 s e n : days_until s e = n -> get_daycount_fn DC_ACTUAL_365 s e = IZR n / 365.
Proof. intros E. cbn [get_daycount_fn]. unfold actual_365_fixed. rewrite E. rewrite Q2R_div by (unfold Qeq; cbn; lia). unfold Q2R. cbn. field. Qed.
Lemma supplied_three c q' t' valuation discount reference past notional spread a b z : Forall is_date [a; b; z] -> nondecreasing [a; b; z] -> fair_fraction (get_daycount_fn c) -> (0 < q')%Z -> (forall d, reference d <> 0) ->
  let coupon := coupon_value valuation discount reference past (get_daycount_fn c) notional spread in
  float_stream_price c (mk_period q' t') valuation discount reference past notional spread [a; b; z] =
  Some (coupon a b b + coupon b z z + over_periods (passed_spread valuation discount (get_daycount_fn c) notional spread) [a; b; z]).
Proof.
  intros D N F Q RP coupon. destruct (C93_supplied c q' t' valuation discount reference past notional spread a [b] z b b [] [] eq_refl eq_refl D N F Q RP) as (_ & E).
  cbn [app] in E. rewrite E. f_equal. fold coupon. change (over_periods _ [b]) with 0. ring.
Qed.
Definition three93 : list date := [ymd_date 2021 1 4; ymd_date 2021 7 5; ymd_date 2022 1 4].
Lemma three93_ok : Forall is_date three93 /\ nondecreasing three93.
Proof. split; [repeat constructor; dates|]. repeat constructor; vm_compute; discriminate. Qed.
(** The spread of a coupon that was paid before the valuation date is counted. *)
Theorem C93_spread_refuted : let valuation := ymd_date 2021 8 2 in let coupon := coupon_value valuation no_rate no_rate 0 (get_daycount_fn DC_ACTUAL_365) 100 (1 / 100) in
  exists v, float_stream_price DC_ACTUAL_365 (mk_period 6 MONTH) valuation no_rate no_rate 0 100 (1 / 100) three93 = Some v /\
    coupon (ymd_date 2021 1 4) (ymd_date 2021 7 5) (ymd_date 2021 7 5) = 0 /\
    v = coupon (ymd_date 2021 7 5) (ymd_date 2022 1 4) (ymd_date 2022 1 4) + 182 / 365.
Proof.
  intros valuation coupon. destruct three93_ok as (D & N). eexists. split.
  - unfold three93. apply (supplied_three DC_ACTUAL_365 6 MONTH valuation no_rate no_rate 0 100 (1 / 100)); [exact D|exact N|apply C93_day_counts; exact Logic.I|lia|intros d; unfold no_rate; lra].
  - fold coupon. assert (C0 : coupon (ymd_date 2021 1 4) (ymd_date 2021 7 5) (ymd_date 2021 7 5) = 0) by (unfold coupon, coupon_value, value_of; replace (Z.leb _ _) with false by (vm_compute; reflexivity); reflexivity).
    split; [exact C0|]. rewrite C0. cbn [over_periods]. unfold passed_spread. replace (Z.ltb (ordinal (ymd_date 2021 7 5)) _) with true by (vm_compute; reflexivity).
    replace (Z.ltb (ordinal (ymd_date 2022 1 4)) _) with false by (vm_compute; reflexivity). rewrite (tau365 (ymd_date 2021 1 4) (ymd_date 2021 7 5) 182) by (vm_compute; reflexivity). unfold no_rate. field.
Qed.
(** The coupon that is running pays the past fixing times the year fraction twice. *)
Theorem C93_fixing_refuted : let valuation := ymd_date 2021 3 1 in let data := Some (Fixings [ymd_date 2021 1 4] [1 / 20] (Some DC_ACTUAL_365)) in
  leg_price valuation no_rate no_rate data (FloatLeg DC_ACTUAL_365 (mk_period 6 MONTH) 100 0 None three93) = Some (100 * (1 / 20 * (182 / 365)) * (182 / 365)) /\
  fixing_on [ymd_date 2021 1 4] [1 / 20] (ymd_date 2021 1 4) (1 / 20) /\
  coupon_value valuation no_rate no_rate (1 / 20) (get_daycount_fn DC_ACTUAL_365) 100 0 (ymd_date 2021 1 4) (ymd_date 2021 7 5) (ymd_date 2021 7 5) = 100 * (1 / 20) * (182 / 365).
Proof.
  cbv zeta. assert (T1 := tau365 (ymd_date 2021 1 4) (ymd_date 2021 7 5) 182 ltac:(vm_compute; reflexivity)). split; [|split].
  - unfold leg_price, past_of. replace (fixing_period (ymd_date 2021 3 1) three93) with (ymd_date 2021 1 4, ymd_date 2021 7 5) by (vm_compute; reflexivity).
    unfold fixing_of_period, fixings. cbn [f_daycount option_map]. rewrite T1. replace (fixing_at _ _) with (1 / 20).
    2: { unfold fixing_at. cbn [f_dates f_rates]. vm_compute (Z.to_nat _). reflexivity. }
    cbn [option_map bind]. destruct three93_ok as (D & N).
    unfold three93. rewrite (supplied_three DC_ACTUAL_365 6 MONTH); [|exact D|exact N|apply C93_day_counts; exact Logic.I|lia|intros d; unfold no_rate; lra]. f_equal. cbn [over_periods]. unfold coupon_value, passed_spread, value_of, floating_rate.
    replace (Z.leb (ordinal (ymd_date 2021 3 1)) (ordinal (ymd_date 2021 7 5))) with true by (vm_compute; reflexivity).
    replace (Z.leb (ordinal (ymd_date 2021 3 1)) (ordinal (ymd_date 2022 1 4))) with true by (vm_compute; reflexivity).
    replace (Z.ltb (ordinal (ymd_date 2021 1 4)) (ordinal (ymd_date 2021 3 1))) with true by (vm_compute; reflexivity).
    replace (Z.ltb (ordinal (ymd_date 2021 7 5)) (ordinal (ymd_date 2021 3 1))) with false by (vm_compute; reflexivity).
    replace (Z.ltb (ordinal (ymd_date 2022 1 4)) (ordinal (ymd_date 2021 3 1))) with false by (vm_compute; reflexivity).
    rewrite T1. rewrite (tau365 (ymd_date 2021 7 5) (ymd_date 2022 1 4) 183) by (vm_compute; reflexivity). unfold no_rate. field.
  - exists 0%nat. cbn. split; [lia|]. split; [reflexivity|]. split; [intros; lia|right; reflexivity].
  - unfold coupon_value, value_of, floating_rate. replace (Z.leb _ _) with true by (vm_compute; reflexivity). replace (Z.ltb _ _) with true by (vm_compute; reflexivity). rewrite T1. unfold no_rate. field.
Qed.
(** The last coupon of a generated schedule pays the rate of the full term of the
    index although it is shorter: here it pays the whole notional
    although the rate over its own period is 0. *)
Definition late_rate (d : date) : R := if Z.leb (ordinal d) (ordinal (ymd_date 2021 10 4)) then 1 else 1 / 2.
Theorem C93_stub_refuted : exists l, coupon_dates None None (Some [ymd_date 2021 1 4]) (Some [ymd_date 2021 10 4]) [6%Z] MONTH BR_FOLLOWING [0%Z] None None = Some [l] /\
  float_stream_price DC_ACTUAL_365 (mk_period 6 MONTH) (ymd_date 2021 1 4) no_rate late_rate 0 100 0 l = Some 100 /\
  (forall s e, In s l -> In e l -> coupon_value (ymd_date 2021 1 4) no_rate late_rate 0 (get_daycount_fn DC_ACTUAL_365) 100 0 s e e = 0).
Proof.
  assert (P1 : forall d, (ordinal d <= ordinal (ymd_date 2021 10 4))%Z -> late_rate d = 1) by (intros d H; unfold late_rate; apply Z.leb_le in H; rewrite H; reflexivity).
  exists [ymd_date 2021 1 4; ymd_date 2021 1 4; ymd_date 2021 7 4; ymd_date 2021 10 4; ymd_date 2021 10 4]. split; [vm_compute; reflexivity|]. split.
  - assert (LP : late_rate (ymd_date 2022 1 4) = 1 / 2) by (unfold late_rate; replace (Z.leb _ _) with false by (vm_compute; reflexivity); reflexivity).
    change [ymd_date 2021 1 4; ymd_date 2021 1 4; ymd_date 2021 7 4; ymd_date 2021 10 4; ymd_date 2021 10 4] with (ymd_date 2021 1 4 :: [ymd_date 2021 1 4; ymd_date 2021 7 4; ymd_date 2021 10 4] ++ [ymd_date 2021 10 4]).
    rewrite (float_price DC_ACTUAL_365 (mk_period 6 MONTH) (ymd_date 2021 1 4) no_rate late_rate 0 100 0 (ymd_date 2021 1 4) [ymd_date 2021 1 4; ymd_date 2021 7 4; ymd_date 2021 10 4] (ymd_date 2021 10 4)
      (ymd_date 2021 1 4) (ymd_date 2021 10 4) [ymd_date 2021 7 4; ymd_date 2021 10 4] [ymd_date 2021 1 4; ymd_date 2021 7 4] eq_refl eq_refl).
    2: { intros d J. apply (plus_later d 6 MONTH); [|lia]. repeat (destruct J as [<-|J]; [dates|]). destruct J. }
    f_equal. cbn [over_periods]. unfold code_coupon.
    replace (date_ltb (ymd_date 2021 1 4) (ymd_date 2021 1 4)) with false by (vm_compute; reflexivity). replace (date_ltb (ymd_date 2021 7 4) (ymd_date 2021 1 4)) with false by (vm_compute; reflexivity).
    replace (date_ltb (ymd_date 2021 10 4) (ymd_date 2021 1 4)) with false by (vm_compute; reflexivity).
    replace (date_geb (ymd_date 2021 1 4) (ymd_date 2021 1 4)) with true by (vm_compute; reflexivity). replace (date_geb (ymd_date 2021 7 4) (ymd_date 2021 1 4)) with true by (vm_compute; reflexivity).
    replace (date_geb (ymd_date 2021 10 4) (ymd_date 2021 1 4)) with true by (vm_compute; reflexivity).
    replace (InstrumentSpec.plus (ymd_date 2021 1 4) (mk_period 6 MONTH)) with (ymd_date 2021 7 4) by (vm_compute; reflexivity).
    replace (InstrumentSpec.plus (ymd_date 2021 7 4) (mk_period 6 MONTH)) with (ymd_date 2022 1 4) by (vm_compute; reflexivity).
    rewrite (tau365 (ymd_date 2021 1 4) (ymd_date 2021 1 4) 0), (tau365 (ymd_date 2021 10 4) (ymd_date 2021 10 4) 0), (tau365 (ymd_date 2021 1 4) (ymd_date 2021 7 4) 181), (tau365 (ymd_date 2021 7 4) (ymd_date 2021 10 4) 92) by (vm_compute; reflexivity).
    rewrite LP, !P1 by (vm_compute; discriminate). unfold no_rate, forward_rate, divide_no_nan.
    repeat match goal with |- context [Rlt_dec 0 ?x] => destruct (Rlt_dec 0 x); try lra end. repeat match goal with |- context [Req_EM_T ?x 0] => destruct (Req_EM_T x 0); try lra end.
  - intros s e Js Je. assert (Hs : late_rate s = 1) by (apply P1; cbn in Js; repeat (destruct Js as [<-|Js]; [vm_compute; discriminate|]); destruct Js).
    assert (He : late_rate e = 1) by (apply P1; cbn in Je; repeat (destruct Je as [<-|Je]; [vm_compute; discriminate|]); destruct Je).
    unfold coupon_value, value_of, floating_rate. rewrite Hs, He. destruct (Z.leb _ _); [|reflexivity]. destruct (Z.ltb _ _); [ring|]. replace (1 / 1 - 1) with 0 by field. unfold Rdiv. ring.
Qed.
(** On a supplied schedule of two dates the only coupon is counted twice. *)
Theorem C93_single_coupon_refuted c q' t' valuation discount reference past notional spread a z : is_date a -> is_date z -> (ordinal a <= ordinal z)%Z -> (ordinal valuation <= ordinal z)%Z ->
  fair_fraction (get_daycount_fn c) -> (0 < q')%Z -> (forall d, reference d <> 0) ->
  float_stream_price c (mk_period q' t') valuation discount reference past notional spread [a; z] =
  Some (2 * coupon_value valuation discount reference past (get_daycount_fn c) notional spread a z z).
Proof.
  intros DA DZ O V F Q RP. destruct (plus_later a q' t' DA Q) as (E & _).
  unfold float_stream_price, float_cashflows, float_rates, accrual_ends, fractions_of. cbn [removelast map_opt tl]. rewrite E. cbn [option_map firstn length Nat.sub skipn removelast tl app bind].
  unfold broadcast2. cbn [length Nat.eqb map bind option_map map2 combine]. cbv beta iota. cbn [length Nat.eqb map bind option_map]. unfold map2. cbn [combine map length Nat.eqb bind option_map].
  unfold reduce_sum. cbn [fold_right]. f_equal.
  pose proof (coupon_code c valuation discount reference past notional spread a z z F DA DZ O RP) as CC. unfold code_coupon in CC. rewrite CC.
  unfold passed_spread. replace (Z.ltb (ordinal z) (ordinal valuation)) with false by lia. ring.
Qed.

(** ** Annuities and curves *)
(** The annuity and the par rate are not available: the discount curves of a swap
    are a list, which the market does not accept. *)
Theorem C93_annuity_refuted pay receive config currencies find_curve valuation discount reference data :
  swap_annuity pay receive (swap_discount_curves config currencies) find_curve = None /\
  swap_par_rate pay receive (swap_discount_curves config currencies) find_curve valuation discount reference data = None.
Proof. unfold swap_par_rate, swap_annuity. destruct pay, receive; split; reflexivity. Qed.
(** Given one curve type the annuity is that of the fixed leg. *)
Theorem C93_annuity c n r l c' p n' s past l' k discount find_curve : find_curve k = Some discount ->
  swap_annuity (FixedLeg c n r l) (FloatLeg c' p n' s past l') (OneCurve k) find_curve = Some (leg_annuity discount (get_daycount_fn c) l) /\
  swap_annuity (FloatLeg c' p n' s past l') (FixedLeg c n r l) (OneCurve k) find_curve = Some (leg_annuity discount (get_daycount_fn c) l).
Proof.
  intros E. unfold swap_annuity, market_curve. rewrite E. cbn [option_map]. assert (H : reduce_sum (map2 Rmult (map discount (tl l)) (fractions_of c l)) = leg_annuity discount (get_daycount_fn c) l).
  { unfold leg_annuity, fractions_of. rewrite <- over_pairs. destruct (pairs_of l) as (E1 & E2). set (T := combine (removelast l) (tl l)) in *. clearbody T. rewrite E1, E2. rewrite map2_same, map_map, map2_same. f_equal. apply map_ext. intros (u, v). cbn. ring. }
  rewrite H. split; reflexivity.
Qed.
(** Curves with different numbers of dates cannot be used together. *)
Theorem C93_curves_refuted : let c1 := Curve [ymd_date 2022 1 4] [9 / 10] LINEAR true DC_ACTUAL_365 in let c2 := Curve [ymd_date 2022 1 4; ymd_date 2023 1 4] [9 / 10; 8 / 10] LINEAR true DC_ACTUAL_365 in
  get_discount_curve [("USD", "risk_free_curve", c1); ("AUD", "risk_free_curve", c2)]%string [RiskFreeCurve "AUD"; RiskFreeCurve "USD"] [0; 1]%nat = None.
Proof. reflexivity. Qed.
(** The day count of a curve is replaced by the default one. *)
Theorem C93_curve_daycount_refuted : let c := Curve [ymd_date 2022 1 4; ymd_date 2023 1 4] [9 / 10; 8 / 10] LINEAR true DC_ACTUAL_360 in
  exists c', get_discount_curve [("USD", "risk_free_curve", c)]%string [RiskFreeCurve "USD"] [0]%nat = Some [c'] /\ curve_daycount c' = DC_ACTUAL_365.
Proof. cbv zeta. eexists. split; reflexivity. Qed.

(** ** C94: forward rate agreements *)
(** The accrual runs from the settled fixing date to the rolled end of the term. *)
Theorem C94_dates fixing n rule conv q t s e : get_business_day_convention rule = (conv, false) -> is_date fixing -> (15 <= ordinal fixing)%Z -> settled conv fixing n s -> (15 <= ordinal s)%Z -> (0 < q)%Z ->
  is_date e -> rolled conv (InstrumentSpec.plus s (mk_period q t)) e -> fra_dates fixing n rule (mk_period q t) = Some (s, e).
Proof.
  intros ER D H ST S15 Q DE RO. unfold fra_dates. rewrite ER, (settled_code conv fixing n s D H ST). cbn [bind]. destruct ST as (r & _ & _ & DS & _).
  destruct (plus_later s q t DS Q) as (EP & DP & LP). unfold u_add_period_and_roll. rewrite EP. cbn [bind option_map].
  rewrite (proj1 (rolled_code conv _ e DP ltac:(lia) DE RO)). reflexivity.
Qed.
(** The value of the agreement is the discounted difference of the forward rate
    and the agreed rate. *)
Theorem C94_value (short : bool) c discount reference notional k s e : 0 < get_daycount_fn c s e -> 0 < reference s -> 0 < reference e ->
  let tau := get_daycount_fn c s e in let fwd := (reference s / reference e - 1) / tau in
  fra_value short c discount reference notional k s e = (if short then 1 else - (1)) * (notional * discount s * (tau * (fwd - k) / (1 + tau * fwd))).
Proof.
  intros T P1 P2 tau fwd. unfold fra_value. fold tau. assert (E : forward_rate (reference s) (reference e) tau = fwd).
  { unfold forward_rate, divide_no_nan. destruct (Req_EM_T (reference e) 0); [lra|]. destruct (Req_EM_T tau 0); [unfold tau in *; lra|]. reflexivity. }
  rewrite E. destruct (Rlt_dec 0 tau); [|unfold tau in *; lra]. unfold Rdiv. ring.
Qed.
(** On one curve it is worth a payment of the notional at the start against the
    notional and the interest at the end. *)
Theorem C94_replication (short : bool) c discount notional k s e : 0 < get_daycount_fn c s e -> 0 < discount s -> 0 < discount e ->
  fra_value short c discount discount notional k s e = (if short then 1 else - (1)) * (notional * (discount s - (1 + k * get_daycount_fn c s e) * discount e)).
Proof.
  intros T P1 P2. rewrite (C94_value short c discount discount notional k s e T P1 P2). set (tau := get_daycount_fn c s e) in *.
  replace (1 + tau * ((discount s / discount e - 1) / tau)) with (discount s / discount e) by (field; lra). f_equal. field. lra.
Qed.
Theorem C94_par (short : bool) c discount reference notional s e : 0 < get_daycount_fn c s e -> 0 < reference s -> 0 < reference e ->
  fra_value short c discount reference notional ((reference s / reference e - 1) / get_daycount_fn c s e) s e = 0.
Proof. intros T P1 P2. rewrite (C94_value short c discount reference notional _ s e T P1 P2). cbv zeta. unfold Rdiv. ring. Qed.
Theorem C94_sides c discount reference notional k s e : fra_value true c discount reference notional k s e + fra_value false c discount reference notional k s e = 0.
Proof. unfold fra_value. unfold Rdiv. ring. Qed.
(** A contract without accrual is worth nothing. *)
Theorem C94_empty (short : bool) c discount reference notional k s e : get_daycount_fn c s e = 0 -> fra_value short c discount reference notional k s e = 0.
Proof. intros E. unfold fra_value. rewrite E. destruct (Rlt_dec 0 0); [lra|]. unfold Rdiv. ring. Qed.
(** A short position is documented as lending at the agreed rate, which is worth
    less when rates rise; the code gives it the value of borrowing. *)
Theorem C94_position_refuted c discount reference notional k s e : 0 < get_daycount_fn c s e -> 0 < reference s -> 0 < reference e -> 0 < notional -> 0 < discount s ->
  k < (reference s / reference e - 1) / get_daycount_fn c s e -> 0 < fra_value true c discount reference notional k s e.
Proof.
  intros T P1 P2 N D K. rewrite (C94_value true c discount reference notional k s e T P1 P2). cbv zeta. set (tau := get_daycount_fn c s e) in *. set (f := (reference s / reference e - 1) / tau) in *.
  assert (Q : 1 + tau * f = reference s / reference e) by (unfold f; field; lra). rewrite Q, Rmult_1_l. apply Rmult_lt_0_compat; [nra|]. apply Rdiv_lt_0_compat; [apply Rmult_lt_0_compat; lra|apply Rdiv_lt_0_compat; assumption].
Qed.
(** With an end-of-month rule the accrual can end on a weekend. *)
Theorem C94_eom_refuted : exists s e, fra_dates (ymd_date 2021 4 26) 2 BR_EOM_FOLLOWING (mk_period 3 MONTH) = Some (s, e) /\ working_day (ordinal e) = false.
Proof. eexists _, _. split; vm_compute; reflexivity. Qed.

Example C94_dates_ex : fra_dates (ymd_date 2021 5 21) 2 BR_FOLLOWING (mk_period 3 MONTH) = Some (ymd_date 2021 5 25, ymd_date 2021 8 25).
Proof. vm_compute. reflexivity. Qed.
Example C94_settled_ex : settled FOLLOWING (ymd_date 2021 5 21) 2 (ymd_date 2021 5 25) /\ rolled FOLLOWING (InstrumentSpec.plus (ymd_date 2021 5 25) (mk_period 3 MONTH)) (ymd_date 2021 8 25).
Proof.
  split; [apply settled_following; [dates|dates|vm_compute; discriminate|reflexivity|reflexivity|lia|vm_compute; discriminate|reflexivity]|].
  replace (InstrumentSpec.plus _ _) with (ymd_date 2021 8 25) by (vm_compute; reflexivity). split; [lia|split; [reflexivity|intros k K; lia]].
Qed.
Example C94_value_ex : 0 < get_daycount_fn DC_ACTUAL_365 (ymd_date 2021 5 25) (ymd_date 2021 8 25).
Proof. rewrite (tau365 _ _ 92) by (vm_compute; reflexivity). lra. Qed.

Print Assumptions C93_penultimate_refuted.
Print Assumptions C93_first_refuted.
Print Assumptions C93_schedule_fn_refuted.
Print Assumptions C93_eom_refuted.
Print Assumptions C93_roll_refuted.
Print Assumptions C93_spread_refuted.
Print Assumptions C93_fixing_refuted.
Print Assumptions C93_stub_refuted.
Print Assumptions C93_single_coupon_refuted.
Print Assumptions C93_annuity_refuted.
Print Assumptions C93_annuity.
Print Assumptions C93_curves_refuted.
Print Assumptions C93_curve_daycount_refuted.
Print Assumptions C94_dates.
Print Assumptions C94_value.
Print Assumptions C94_replication.
Print Assumptions C94_par.
Print Assumptions C94_sides.
Print Assumptions C94_empty.
Print Assumptions C94_position_refuted.
Print Assumptions C94_eom_refuted.
