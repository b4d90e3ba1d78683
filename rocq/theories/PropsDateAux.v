From Coq Require Import ZArith QArith List Bool Lia ZifyBool Lqa.
From Verif Require Import DateModel DateSpec DateRepr DateProofs DateProofs2 DayCountModel DayCountProofs.
Import ListNotations.
Open Scope Z_scope.

Lemma from_ymd_repr x c : repr x c -> from_ymd (year x) (month x) (day x) = Some x.
Proof.
  intros R. pose proof R as (V & E & _). destruct c as [[y m] d]. injection E as -> -> ->.
  destruct (proj1 (from_ymd_spec y m d) V) as (x' & E' & R'). rewrite E'. f_equal.
  eapply repr_inj; eassumption.
Qed.
Lemma from_ordinal_repr x c : repr x c -> from_ordinal (ordinal x) = Some x.
Proof.
  intros R. pose proof R as (V & E & H & N).
  destruct (proj1 (from_ordinal_spec (ordinal x)) H) as (x' & E' & _ & R'). rewrite E'. f_equal.
  rewrite N in R'. eapply repr_inj; eassumption.
Qed.

Lemma C01_lemma :
  (forall y m d, valid (y, m, d) ->
     exists x, from_ymd y m d = Some x /\ repr x (y, m, d) /\
               from_ordinal (ordinal x) = Some x) /\
  (forall n, 1 <= n ->
     exists x, from_ordinal n = Some x /\ ordinal x = n /\ repr x (nth_day (Z.to_nat (n - 1))) /\
               from_ymd (year x) (month x) (day x) = Some x) /\
  (forall x c, repr x c ->
     exists x', from_ordinal (ordinal x + 1) = Some x' /\ repr x' (next_day c)) /\
  (exists x, from_ordinal 1 = Some x /\ repr x (1, 1, 1)).
Proof.
  repeat apply conj.
  - intros y m d V. destruct (proj1 (from_ymd_spec y m d) V) as (x & E & R).
    exists x. split; [assumption|]. split; [assumption|]. eapply from_ordinal_repr; eassumption.
  - intros n H. destruct (proj1 (from_ordinal_spec n) H) as (x & E & O & R).
    exists x. repeat (split; [assumption|]). eapply from_ymd_repr; eassumption.
  - intros x c R. destruct (repr_nth _ _ R) as (H & ->).
    destruct (proj1 (from_ordinal_spec (ordinal x + 1)) ltac:(lia)) as (x' & E & O & R').
    exists x'. split; [assumption|].
    replace (Z.to_nat (ordinal x + 1 - 1)) with (S (Z.to_nat (ordinal x - 1))) in R' by lia. exact R'.
  - destruct (proj1 (from_ordinal_spec 1) ltac:(lia)) as (x & E & O & R). exists x. split; assumption.
Qed.

Lemma valid_dec c : {valid c} + {~ valid c}.
Proof.
  destruct c as [[y m] d]. unfold valid.
  destruct (Z_le_gt_dec 1 y), (Z_le_gt_dec 1 m), (Z_le_gt_dec m 12), (Z_le_gt_dec 1 d),
    (Z_le_gt_dec d (month_length y m)); try (right; lia). left; lia.
Qed.

Lemma C02_lemma :
  (forall y m d, (exists x, from_ymd y m d = Some x) <->
     (1 <= y /\ 1 <= m <= 12 /\ 1 <= d <= month_length y m)) /\
  (forall n, (exists x, from_ordinal n = Some x) <-> 1 <= n) /\
  (forall y, month_length y 2 = 29 <-> leap y).
Proof.
  repeat apply conj.
  - intros y m d. destruct (from_ymd_spec y m d) as [A B]. change (1 <= y /\ 1 <= m <= 12 /\ 1 <= d <= month_length y m) with (valid (y, m, d)).
    split.
    + intros (x & E). destruct (valid_dec (y, m, d)) as [V|V]; [assumption|]. rewrite (B V) in E. discriminate.
    + intros V. destruct (A V) as (x & E & _). exists x; assumption.
  - intros n. destruct (from_ordinal_spec n) as [A B]. split.
    + intros (x & E). destruct (Z_le_gt_dec 1 n); [assumption|]. rewrite B in E by lia. discriminate.
    + intros H. destruct (A H) as (x & E & _). exists x; assumption.
  - intros y. rewrite <- leapb_spec. unfold month_length. change (2 =? 2) with true. cbv iota.
    destruct (leapb y); split; intros; congruence.
Qed.

Lemma C03_lemma :
  (forall x, repr x (1, 1, 1) -> day_of_week x = 0) /\
  (forall x c x', repr x c -> repr x' (next_day c) ->
     0 <= day_of_week x < 7 /\ day_of_week x' = (day_of_week x + 1) mod 7) /\
  (forall x y m d j, repr x (y, m, d) -> is_nth j (y, 1, 1) ->
     day_of_year x = Some (ordinal x - j + 1)).
Proof.
  repeat apply conj.
  - intros x R. apply repr_iff in R as (_ & _ & O). unfold day_of_week. rewrite O. reflexivity.
  - intros x c x' R R'. apply repr_iff in R as (V & _ & O). apply repr_iff in R' as (_ & _ & O').
    rewrite ord_next_day in O' by assumption. unfold day_of_week. rewrite O, O'.
    split; [apply Z.mod_pos_bound; lia|]. rewrite Z.add_mod_idemp_l by lia. f_equal; lia.
  - intros. eapply day_of_year_spec; eassumption.
Qed.

Lemma C04_order_lemma :
  (forall a b : ymd, ymd_lt a b \/ a = b \/ ymd_lt b a) /\
  (forall a, ~ ymd_lt a a) /\
  (forall a b c, ymd_lt a b -> ymd_lt b c -> ymd_lt a c) /\
  (forall x1 x2 c1 c2 n x2', repr x1 c1 -> repr x2 c2 -> date_add x1 (mk_period n DAY) = Some x2' ->
     (date_ltb x1 x2' = true <-> 0 < n) /\
     (x2' = x2 <-> days_until x1 x2 = n)).
Proof.
  repeat apply conj.
  - apply ymd_trichotomy.
  - apply ymd_lt_irrefl.
  - intros [[y1 m1] d1] [[y2 m2] d2] [[y3 m3] d3]. unfold ymd_lt. lia.
  - intros x1 x2 c1 c2 n x2' R1 R2 H.
    destruct (add_days_spec x1 c1 n R1) as [A B].
    destruct (Z_le_gt_dec 1 (ordinal x1 + n)) as [L|L]; [|rewrite B in H by lia; discriminate].
    destruct (A L) as (z & E & O & R'). rewrite H in E. injection E as <-.
    unfold date_ltb, days_until. split; [lia|]. split; [intros <-; lia|].
    intros D. pose proof R2 as (_ & _ & _ & N). rewrite <- N in R2.
    eapply repr_inj; [exact R'|]. replace (ordinal x1 + n - 1) with (ordinal x2 - 1) by lia. exact R2.
Qed.

Lemma C05_lemma : forall x c n, repr x c ->
  (1 <= ordinal x + n ->
     exists x', date_add x (mk_period n DAY) = Some x' /\ ordinal x' = ordinal x + n /\
                repr x' (nth_day (Z.to_nat (ordinal x + n - 1))) /\
                date_sub x' (mk_period n DAY) = Some x) /\
  (ordinal x + n < 1 -> date_add x (mk_period n DAY) = None) /\
  (1 <= ordinal x + 7 * n ->
     exists x', date_add x (mk_period n WEEK) = Some x' /\ ordinal x' = ordinal x + 7 * n /\
                repr x' (nth_day (Z.to_nat (ordinal x + 7 * n - 1))) /\
                date_sub x' (mk_period n WEEK) = Some x) /\
  (ordinal x + 7 * n < 1 -> date_add x (mk_period n WEEK) = None).
Proof.
  intros x c n R.
  assert (D : forall k, (1 <= ordinal x + k ->
     exists x', date_add x (mk_period k DAY) = Some x' /\ ordinal x' = ordinal x + k /\
                repr x' (nth_day (Z.to_nat (ordinal x + k - 1))) /\
                date_sub x' (mk_period k DAY) = Some x) /\
      (ordinal x + k < 1 -> date_add x (mk_period k DAY) = None)).
  { intros k. destruct (add_days_spec x c k R) as [A B]. split; [|assumption].
    intros L. destruct (A L) as (x' & E & O & R'). exists x'. repeat (split; [assumption|]).
    eapply add_sub_days; eassumption. }
  destruct (D n) as [D1 D2]. destruct (D (7 * n)) as [D3 D4].
  repeat apply conj; try assumption.
  - intros L. destruct (D3 L) as (x' & E & O & R' & S). exists x'.
    rewrite add_weeks_spec. replace (n * 7) with (7 * n) by lia. repeat (split; [assumption|]).
    unfold date_sub in *. cbn [ptype quantity] in *. rewrite add_weeks_spec.
    replace (- n * 7) with (- (7 * n)) by lia. assumption.
  - intros L. rewrite add_weeks_spec. replace (n * 7) with (7 * n) by lia. auto.
Qed.

Lemma C06_mono_lemma : forall x1 x2 c1 c2 n y1 y2 t, t = MONTH \/ t = YEAR ->
  repr x1 c1 -> repr x2 c2 -> date_leb x1 x2 = true ->
  date_add x1 (mk_period n t) = Some y1 -> date_add x2 (mk_period n t) = Some y2 ->
  1 <= year y1 -> date_leb y1 y2 = true.
Proof.
  assert (YM : forall x c n, repr x c -> date_add x (mk_period n YEAR) = date_add x (mk_period (12 * n) MONTH)).
  { intros x c n R. rewrite (add_months_model x c (12 * n) R).
    pose proof R as (V & E & _). destruct c as [[y m] d]. pose proof V as (V1 & V2 & V3).
    destruct (shift_months_years (y, m, d) n) as [<-|H]; [|cbn [fst snd] in H; lia].
    injection E as Ey Em Ed. unfold date_add, shift_years. cbn [ptype quantity]. rewrite Ey, Em, Ed.
    unfold adjust_day. rewrite num_days_in_month_spec by lia. reflexivity. }
  assert (M : forall x1 x2 c1 c2 n y1 y2, repr x1 c1 -> repr x2 c2 -> date_leb x1 x2 = true ->
    date_add x1 (mk_period n MONTH) = Some y1 -> date_add x2 (mk_period n MONTH) = Some y2 ->
    1 <= year y1 -> date_leb y1 y2 = true).
  { intros x1 x2 c1 c2 n y1 y2 R1 R2 L E1 E2 Y.
    destruct (comparisons_spec x1 x2 c1 c2 R1 R2) as (_ & C & _). apply C in L.
    pose proof (shift_months_mono c1 c2 n (proj1 R1) (proj1 R2) L) as SM.
    rewrite (add_months_model _ _ _ R1) in E1. rewrite (add_months_model _ _ _ R2) in E2.
    assert (F1 : 1 <= fst (fst (shift_months c1 n))).
    { destruct (shift_months c1 n) as [[a b] d]. injection E1 as <-. exact Y. }
    assert (F2 : 1 <= fst (fst (shift_months c2 n))).
    { destruct (shift_months c1 n) as [[a b] d], (shift_months c2 n) as [[a' b'] d'].
      cbn [fst] in *. destruct SM as [SM|SM]; [unfold ymd_lt in SM; lia|injection SM; intros; lia]. }
    pose proof (shift_months_valid c1 n (proj1 R1) F1) as V1.
    pose proof (shift_months_valid c2 n (proj1 R2) F2) as V2.
    destruct (shift_months c1 n) as [[a b] d], (shift_months c2 n) as [[a' b'] d'].
    injection E1 as <-. injection E2 as <-.
    apply (comparisons_spec _ _ _ _ (repr_unchecked _ _ _ V1) (repr_unchecked _ _ _ V2)). assumption. }
  intros x1 x2 c1 c2 n y1 y2 t [->| ->] R1 R2 L E1 E2 Y; [exact (M x1 x2 c1 c2 n y1 y2 R1 R2 L E1 E2 Y)|].
  rewrite (YM x1 c1 n R1) in E1. rewrite (YM x2 c2 n R2) in E2.
  exact (M x1 x2 c1 c2 (12 * n) y1 y2 R1 R2 L E1 E2 Y).
Qed.

Lemma C06_compose_lemma : forall x c n1 n2 y, repr x c ->
  date_add x (mk_period n1 MONTH) = Some y -> 1 <= year y -> day y = day x ->
  date_add y (mk_period n2 MONTH) = date_add x (mk_period (n1 + n2) MONTH).
Proof.
  intros x c n1 n2 y R E Y D. pose proof E as E'. rewrite (add_months_model _ _ _ R) in E'.
  assert (F1 : 1 <= fst (fst (shift_months c n1))).
  { destruct (shift_months c n1) as [[a b] d]. injection E' as <-. exact Y. }
  destruct (add_months_spec x c n1 R F1) as (y' & E2 & R2). rewrite E in E2. injection E2 as <-.
  rewrite (add_months_model _ _ _ R), (add_months_model _ _ _ R2).
  rewrite shift_months_compose; [reflexivity|apply R|].
  destruct R as (_ & <- & _). destruct R2 as (_ & <- & _). exact D.
Qed.

Lemma C07_lemma : forall x y m d, repr x (y, m, d) ->
  exists x', to_end_of_month x = Some x' /\ repr x' (y, m, month_length y m) /\
    to_end_of_month x' = Some x' /\
    exists b, is_end_of_month x = Some b /\ (b = true <-> to_end_of_month x = Some x).
Proof.
  intros x y m d R. destruct (eom_spec x (y, m, d) R) as ((x' & E & R' & I) & (b & EB & B)).
  exists x'. repeat (split; [assumption|]). exists b. split; [assumption|]. rewrite B, E. split.
  - intros ->. f_equal. eapply repr_inj; eassumption.
  - intros H. injection H as ->. pose proof (repr_fun _ _ _ R R') as H. injection H. auto.
Qed.

Lemma C08_lemma : forall s e cs ce, repr s cs -> repr e ce ->
  ordinal s <= ordinal e ->
  let i := Z.to_nat (ordinal s - 1) in let n := Z.to_nat (ordinal e - ordinal s) in
  days_in_leap_and_nonleap_years_between s e =
    Some (count_days in_leap_year i n, count_days (fun c => negb (in_leap_year c)) i n) /\
  count_days in_leap_year i n + count_days (fun c => negb (in_leap_year c)) i n = days_until s e /\
  leap_days_between s e = count_days is_feb29 i n.
Proof.
  intros s e cs ce RS RE L i n. destruct (leap_and_nonleap_spec s e cs ce RS RE L) as [A B].
  split; [assumption|]. split; [|assumption].
  unfold days_until. replace (ordinal e - ordinal s) with (Z.of_nat n) by (unfold n; lia).
  clear A B. clearbody i n. clear. revert i. induction n; intros i; simpl count_days; [reflexivity|].
  specialize (IHn (S i)). destruct (in_leap_year (nth_day i)); cbn [negb]; lia.
Qed.

Lemma C09_360_365_lemma : forall s e s' e' m,
  (actual_360 s e == inject_Z (ordinal e - ordinal s) / inject_Z 360)%Q /\
  (actual_365_fixed s e == inject_Z (ordinal e - ordinal s) / inject_Z 365)%Q /\
  (actual_360 s e == actual_360 s m + actual_360 m e)%Q /\
  (actual_365_fixed s e == actual_365_fixed s m + actual_365_fixed m e)%Q /\
  (ordinal e <= ordinal e' -> (actual_360 s e <= actual_360 s e')%Q /\
                              (actual_365_fixed s e <= actual_365_fixed s e')%Q) /\
  (ordinal s <= ordinal s' -> (actual_360 s' e <= actual_360 s e)%Q /\
                              (actual_365_fixed s' e <= actual_365_fixed s e)%Q).
Proof.
  intros. split; [reflexivity|]. split; [reflexivity|].
  split; [apply actual_360_additive|]. split; [apply actual_365_additive|].
  split; intros; split; apply injZ_div_mono; unfold days_until; lia.
Qed.

Lemma C09_aa_lemma : forall a b c ca cb cc, repr a ca -> repr b cb -> repr c cc ->
  exists x y z, actual_actual_isda a b = Some x /\ actual_actual_isda b c = Some y /\
    actual_actual_isda a c = Some z /\ (z == x + y)%Q /\ (ordinal b <= ordinal c -> (x <= z)%Q).
Proof.
  intros a b c ca cb cc RA RB RC.
  destruct (actual_actual_additive a b c ca cb cc RA RB RC) as (x & y & z & Hx & Hy & Hz & E).
  exists x, y, z. repeat (split; [assumption|]). intros L.
  destruct (actual_actual_mono a b c ca cb cc RA RB RC L) as (x' & z' & Hx' & Hz' & LE).
  rewrite Hx in Hx'. rewrite Hz in Hz'. injection Hx' as ->. injection Hz' as ->. assumption.
Qed.

Lemma C09_thirty_lemma :
  (forall s e cs ce, repr s cs -> repr e ce ->
     let '(Y1, M1, d1) := cs in let '(Y2, M2, d2) := ce in
     let D1 := if d1 =? 31 then 30 else d1 in
     let D2 := if (d2 =? 31) && ((d1 =? 30) || (d1 =? 31)) then 30 else d2 in
     thirty_360_isda s e =
       (inject_Z ((Y2 - Y1) * 360 + (M2 - M1) * 30 + (D2 - D1)) / inject_Z 360)%Q) /\
  (forall s e y m d k, repr s (y, m, d) -> repr e (y + k, m, d) ->
     (thirty_360_isda s e == inject_Z k)%Q).
Proof.
  split; [|apply thirty_360_anniversary].
  intros s e [[y1 m1] d1] [[y2 m2] d2] (V & E1 & _) (_ & E2 & _).
  injection E1 as <- <- <-. injection E2 as <- <- <-. apply thirty_360_rule.
  pose proof (month_length_bounds (year s) (month s)). destruct V as (_ & _ & V). lia.
Qed.

Lemma period_type_eqb_eq a b : period_type_eqb a b = true <-> a = b.
Proof. destruct a, b; simpl; split; congruence. Qed.

Lemma C19_lemma : forall p q r a b,
  (ptype p = ptype q -> ptype q = ptype r ->
     (exists s, period_add p q = Some s /\ ptype s = ptype p /\ quantity s = quantity p + quantity q /\
        period_add q p = Some s /\ period_sub s q = Some p /\
        period_add (period_mul p a) (period_mul q a) = Some (period_mul s a)) /\
     (exists s t, period_add p q = Some s /\ period_add q r = Some t /\ period_add s r = period_add p t) /\
     period_sub p q = period_add p (period_mul q (-1))) /\
  period_add (period_mul p a) (period_mul p b) = Some (period_mul p (a + b)) /\
  period_mul (period_mul p a) b = period_mul p (a * b) /\
  period_mul p 1 = p /\
  (ptype p <> ptype q -> period_add p q = None /\ period_sub p q = None).
Proof.
  intros [np tp] [nq tq] [nr tr] a b. unfold period_add, period_sub, period_mul. cbn [ptype quantity].
  assert (R : forall t, period_type_eqb t t = true) by (intros; apply period_type_eqb_eq; reflexivity).
  split.
  { intros <- <-. rewrite R. split; [|split].
    - eexists. split; [reflexivity|]. split; [reflexivity|]. split; [reflexivity|].
      cbn [ptype quantity]. rewrite R. split; [do 2 f_equal; lia|]. split; [do 2 f_equal; lia|do 2 f_equal; lia].
    - do 2 eexists. split; [reflexivity|]. split; [reflexivity|]. cbn [ptype quantity]. rewrite R. do 2 f_equal; lia.
    - do 2 f_equal; lia. }
  rewrite R. split; [do 2 f_equal; lia|]. split; [f_equal; lia|]. split; [f_equal; lia|].
  intros H. destruct (period_type_eqb tp tq) eqn:E; [apply period_type_eqb_eq in E; contradiction|]. auto.
Qed.
