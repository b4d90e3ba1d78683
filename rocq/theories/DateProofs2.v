From Coq Require Import ZArith QArith List Bool Lia ZifyBool.
From Verif Require Import DateModel DateSpec DateRepr DateProofs DayCountModel.
Import ListNotations.
Open Scope Z_scope.
Ltac Zify.zify_post_hook ::= Z.div_mod_to_equations.
Arguments Z.mul : simpl never.
Arguments Z.add : simpl never.
Arguments Z.sub : simpl never.
Arguments Z.div : simpl never.
Arguments Z.modulo : simpl never.

Lemma is_nth_ord c : valid c -> is_nth (ord c) c.
Proof.
  intros V. assert (ordinal_to_year_month_day (ord c) = c) by (apply ordinal_to_ymd_ord; assumption).
  assert (1 <= ord c).
  { destruct c as [[y m] d]. destruct V as (Hy & Hm & Hd). rewrite ord_closed by lia.
    unfold ybase, mbase. difl. }
  split; [assumption|]. rewrite <- ordinal_to_ymd_nth_day; assumption.
Qed.

Lemma is_nth_valid n c : is_nth n c -> valid c.
Proof. intros [? <-]. apply valid_nth_day. Qed.

Lemma is_nth_iff n c : is_nth n c <-> valid c /\ n = ord c.
Proof.
  split.
  - intros [H <-]. split; [apply valid_nth_day|]. rewrite ord_nth_day. lia.
  - intros [V ->]. apply is_nth_ord; assumption.
Qed.

Lemma repr_iff x c : repr x c <-> valid c /\ (year x, month x, day x) = c /\ ordinal x = ord c.
Proof. unfold repr. rewrite is_nth_iff. tauto. Qed.

Lemma repr_unchecked y m d : valid (y, m, d) -> repr (from_ymd_unchecked y m d) (y, m, d).
Proof. intros. apply repr_iff. split; [assumption|split; reflexivity]. Qed.

Lemma repr_fun x c1 c2 : repr x c1 -> repr x c2 -> c1 = c2.
Proof. intros (_ & <- & _) (_ & <- & _). reflexivity. Qed.

Lemma repr_inj x1 x2 c : repr x1 c -> repr x2 c -> x1 = x2.
Proof.
  intros H1%repr_iff H2%repr_iff. destruct x1, x2; simpl in *.
  destruct H1 as (_ & <- & ->), H2 as (_ & E & ->). inversion E; subst. reflexivity.
Qed.

Lemma from_ymd_spec y m d :
  (valid (y, m, d) -> exists x, from_ymd y m d = Some x /\ repr x (y, m, d)) /\
  (~ valid (y, m, d) -> from_ymd y m d = None).
Proof.
  unfold from_ymd. fold (num_days_in_month m y).
  destruct (0 <? y) eqn:E1; simpl negb; cbv iota.
  2:{ split; [unfold valid; lia|reflexivity]. }
  destruct (1 <=? m) eqn:E2; simpl negb; cbv iota.
  2:{ split; [unfold valid; lia|reflexivity]. }
  destruct (m <=? 12) eqn:E3; simpl negb; cbv iota.
  2:{ split; [unfold valid; lia|reflexivity]. }
  destruct (0 <? d) eqn:E4; simpl negb; cbv iota.
  2:{ split; [unfold valid; lia|reflexivity]. }
  rewrite num_days_in_month_spec by lia.
  destruct (d <=? month_length y m) eqn:E5; simpl negb; cbv iota.
  - split; intros V; [|exfalso; apply V; unfold valid; lia].
    eexists; split; [reflexivity|]. apply repr_unchecked; assumption.
  - split; [unfold valid; lia|reflexivity].
Qed.

Lemma from_ordinal_unchecked_repr n : 1 <= n ->
  ordinal (from_ordinal_unchecked n) = n /\
  repr (from_ordinal_unchecked n) (nth_day (Z.to_nat (n - 1))).
Proof.
  intros Hn. unfold from_ordinal_unchecked.
  pose proof (ordinal_to_ymd_nth_day n Hn) as H.
  destruct (ordinal_to_year_month_day n) as [[y m] d].
  split; [reflexivity|]. rewrite <- H. split; [rewrite H; apply valid_nth_day|].
  split; [reflexivity|]. split; [assumption|]. symmetry; exact H.
Qed.

Lemma from_ordinal_spec n :
  (1 <= n -> exists x, from_ordinal n = Some x /\ ordinal x = n /\
                       repr x (nth_day (Z.to_nat (n - 1)))) /\
  (n < 1 -> from_ordinal n = None).
Proof.
  unfold from_ordinal. split; intros H.
  - replace (0 <? n) with true by lia. eexists; split; [reflexivity|].
    apply from_ordinal_unchecked_repr; assumption.
  - replace (0 <? n) with false by lia. reflexivity.
Qed.

(** Order *)
Lemma mbase_mono y m1 m2 : 1 <= m1 -> m1 < m2 -> m2 <= 12 ->
  mbase y m1 + month_length y m1 <= mbase y m2.
Proof.
  intros H1 H12 H2. rewrite <- mbase_succ by lia. unfold mbase. difl.
Qed.
Lemma mbase_bounds y m : 1 <= m <= 12 ->
  0 <= mbase y m /\ mbase y m + month_length y m <= ybase (y + 1) - ybase y.
Proof.
  intros H. rewrite ybase_succ. split; [unfold mbase; difl|].
  destruct (Z.eq_dec m 12) as [->|].
  - pose proof (mbase_12 y). change (month_length y 12) with 31. lia.
  - rewrite <- mbase_succ by lia. pose proof (mbase_12 y).
    assert (mbase y (m + 1) <= mbase y 12); [|lia].
    unfold mbase. replace (12 <=? 2) with false by reflexivity. difl.
Qed.
Lemma ybase_mono y1 y2 : y1 <= y2 -> ybase y1 <= ybase y2.
Proof. unfold ybase. lia. Qed.

Lemma ord_mono a b : valid a -> valid b -> ymd_lt a b -> ord a < ord b.
Proof.
  destruct a as [[y1 m1] d1], b as [[y2 m2] d2]. intros (A1 & A2 & A3) (B1 & B2 & B3) L.
  rewrite !ord_closed by lia. unfold ymd_lt in L.
  pose proof (mbase_bounds y1 m1 ltac:(lia)). pose proof (mbase_bounds y2 m2 ltac:(lia)).
  destruct L as [L|[-> [L|[-> L]]]].
  - pose proof (ybase_mono (y1 + 1) y2 ltac:(lia)). lia.
  - pose proof (mbase_mono y2 m1 m2). lia.
  - lia.
Qed.

Lemma ymd_trichotomy a b : ymd_lt a b \/ a = b \/ ymd_lt b a.
Proof.
  destruct a as [[y1 m1] d1], b as [[y2 m2] d2]. unfold ymd_lt.
  destruct (Z.eq_dec y1 y2); [|lia]. destruct (Z.eq_dec m1 m2); [|lia].
  destruct (Z.eq_dec d1 d2); [|lia]. right; left. subst; reflexivity.
Qed.

Lemma ymd_lt_irrefl a : ~ ymd_lt a a.
Proof. destruct a as [[y m] d]. unfold ymd_lt. lia. Qed.

Lemma ord_lt_iff a b : valid a -> valid b -> (ymd_lt a b <-> ord a < ord b).
Proof.
  intros VA VB. split; [apply ord_mono; assumption|]. intros H.
  destruct (ymd_trichotomy a b) as [L|[->|L]]; [assumption|lia|].
  apply ord_mono in L; try assumption. lia.
Qed.

Lemma ord_inj a b : valid a -> valid b -> ord a = ord b -> a = b.
Proof.
  intros VA VB H. destruct (ymd_trichotomy a b) as [L|[->|L]]; [|reflexivity|];
  apply ord_mono in L; try assumption; lia.
Qed.

Lemma comparisons_spec x1 x2 c1 c2 : repr x1 c1 -> repr x2 c2 ->
  (date_ltb x1 x2 = true <-> ymd_lt c1 c2) /\
  (date_leb x1 x2 = true <-> ymd_le c1 c2) /\
  (date_gtb x1 x2 = true <-> ymd_lt c2 c1) /\
  (date_geb x1 x2 = true <-> ymd_le c2 c1) /\
  (date_eqb x1 x2 = true <-> c1 = c2) /\
  (date_neb x1 x2 = true <-> c1 <> c2).
Proof.
  intros (V1 & _ & O1)%repr_iff (V2 & _ & O2)%repr_iff.
  pose proof (ord_lt_iff c1 c2 V1 V2) as A. pose proof (ord_lt_iff c2 c1 V2 V1) as B.
  assert (C : c1 = c2 <-> ord c1 = ord c2) by (split; [intros ->; reflexivity|apply ord_inj; assumption]).
  unfold date_ltb, date_leb, date_gtb, date_geb, date_eqb, date_neb, ymd_le.
  rewrite A, B, negb_true_iff, Z.eqb_neq, Z.eqb_eq, !Z.ltb_lt, !Z.leb_le.
  assert (C' : c2 = c1 <-> ord c1 = ord c2) by (rewrite <- C; split; congruence).
  rewrite C', C, O1, O2. lia.
Qed.

(** Days and weeks *)
Lemma add_days_spec x c n : repr x c ->
  (1 <= ordinal x + n ->
     exists x', date_add x (mk_period n DAY) = Some x' /\ ordinal x' = ordinal x + n /\
                repr x' (nth_day (Z.to_nat (ordinal x + n - 1)))) /\
  (ordinal x + n < 1 -> date_add x (mk_period n DAY) = None).
Proof. intros _. apply (from_ordinal_spec (ordinal x + n)). Qed.

Lemma add_weeks_spec x n : date_add x (mk_period n WEEK) = date_add x (mk_period (n * 7) DAY).
Proof. reflexivity. Qed.

Lemma add_sub_days x c n x' : repr x c ->
  date_add x (mk_period n DAY) = Some x' -> date_sub x' (mk_period n DAY) = Some x.
Proof.
  intros R H. destruct (add_days_spec x c n R) as [A B].
  destruct (Z_le_gt_dec 1 (ordinal x + n)) as [L|L]; [|rewrite B in H by lia; discriminate].
  destruct (A L) as (y & E & O & _). rewrite H in E. injection E as <-.
  unfold date_sub, date_add. simpl. rewrite O.
  replace (ordinal x + n + - n) with (ordinal x) by lia.
  pose proof R as R'. apply repr_iff in R' as (V & _ & OX).
  assert (Hx : 1 <= ordinal x) by (rewrite OX; apply is_nth_ord in V; apply V).
  destruct (proj1 (from_ordinal_spec (ordinal x)) Hx) as (z & E & OZ & RZ).
  rewrite E. f_equal. apply (repr_inj z x c); [|assumption].
  destruct R as (_ & _ & _ & Hc). rewrite Hc in RZ. assumption.
Qed.

(** Months and years *)
Lemma shift_months_valid c n : valid c -> 1 <= fst (fst (shift_months c n)) -> valid (shift_months c n).
Proof.
  destruct c as [[y m] d]. unfold valid, shift_months. cbn [fst snd]. intros (H1 & H2 & H3) H.
  split; [assumption|]. split; [lia|].
  pose proof (month_length_bounds ((12 * y + (m - 1) + n) / 12) ((12 * y + (m - 1) + n) mod 12 + 1)).
  set (L := month_length _ _) in *. clearbody L. lia.
Qed.

Lemma add_months_model x c n : repr x c ->
  date_add x (mk_period n MONTH) =
  let '(y, m, d) := shift_months c n in Some (from_ymd_unchecked y m d).
Proof.
  intros (V & E & _). destruct c as [[y m] d]. injection E as Ey Em Ed.
  unfold date_add, shift_months. cbn [ptype quantity].
  rewrite Ey, Em, Ed.
  replace (y + (m - 1 + n) / 12) with ((12 * y + (m - 1) + n) / 12) by lia.
  replace ((m - 1 + n) mod 12) with ((12 * y + (m - 1) + n) mod 12) by lia.
  unfold adjust_day. rewrite num_days_in_month_spec by lia. reflexivity.
Qed.

Lemma add_months_spec x c n : repr x c -> 1 <= fst (fst (shift_months c n)) ->
  exists x', date_add x (mk_period n MONTH) = Some x' /\ repr x' (shift_months c n).
Proof.
  intros R H. rewrite (add_months_model x c n R).
  pose proof (shift_months_valid c n (proj1 R) H) as V.
  destruct (shift_months c n) as [[y m] d].
  eexists; split; [reflexivity|]. apply repr_unchecked; assumption.
Qed.

Lemma shift_years_valid c n : valid c -> 1 <= fst (fst (shift_years c n)) -> valid (shift_years c n).
Proof.
  destruct c as [[y m] d]. unfold valid, shift_years. cbn [fst snd]. intros (H1 & H2 & H3) H.
  split; [assumption|]. split; [lia|].
  pose proof (month_length_bounds (y + n) m). lia.
Qed.

Lemma add_years_spec x c n : repr x c -> 1 <= fst (fst (shift_years c n)) ->
  exists x', date_add x (mk_period n YEAR) = Some x' /\ repr x' (shift_years c n).
Proof.
  intros R H.
  pose proof (shift_years_valid c n (proj1 R) H) as V.
  destruct R as (V0 & E & _). destruct c as [[y m] d]. injection E as Ey Em Ed.
  unfold date_add. cbn [ptype quantity]. rewrite Ey, Em, Ed.
  unfold adjust_day. rewrite num_days_in_month_spec by (unfold valid in V0; lia).
  eexists; split; [reflexivity|]. apply repr_unchecked; assumption.
Qed.

Lemma ymd_le_iff a b : valid a -> valid b -> (ymd_le a b <-> ord a <= ord b).
Proof.
  intros VA VB. unfold ymd_le. rewrite (ord_lt_iff a b VA VB). split.
  - intros [H| ->]; lia.
  - intros H. destruct (Z.eq_dec (ord a) (ord b)); [right; apply ord_inj; assumption|left; lia].
Qed.

Lemma shift_months_mono a b n : valid a -> valid b -> ymd_le a b -> ymd_le (shift_months a n) (shift_months b n).
Proof.
  intros VA VB [L| ->]; [|right; reflexivity].
  destruct a as [[y1 m1] d1], b as [[y2 m2] d2]. unfold valid, ymd_lt, shift_months in *.
  destruct VA as (A1 & A2 & A3), VB as (B1 & B2 & B3).
  set (k1 := 12 * y1 + (m1 - 1) + n). set (k2 := 12 * y2 + (m2 - 1) + n).
  destruct (Z.eq_dec k1 k2) as [E|E].
  - rewrite E. assert (d1 < d2) by (unfold k1, k2 in E; lia).
    unfold ymd_le, ymd_lt.
    destruct (Z.eq_dec (Z.min d1 (month_length (k2 / 12) (k2 mod 12 + 1)))
                       (Z.min d2 (month_length (k2 / 12) (k2 mod 12 + 1)))) as [->|]; [right; reflexivity|].
    left. lia.
  - left. assert (k1 < k2) by (unfold k1, k2 in *; lia).
    unfold ymd_lt. clearbody k1 k2. 
    destruct (Z.eq_dec (k1 / 12) (k2 / 12)); [right|left; lia]. split; [assumption|]. left. lia.
Qed.

Lemma shift_months_years c n : shift_years c n = shift_months c (12 * n) \/ ~ (1 <= snd (fst c) <= 12).
Proof.
  destruct c as [[y m] d]. cbn [fst snd]. destruct (Z_le_gt_dec 1 m); [|right; lia].
  destruct (Z_le_gt_dec m 12); [|right; lia]. left. unfold shift_years, shift_months.
  replace (12 * y + (m - 1) + 12 * n) with ((y + n) * 12 + (m - 1)) by lia.
  replace (((y + n) * 12 + (m - 1)) / 12) with (y + n) by lia.
  replace (((y + n) * 12 + (m - 1)) mod 12 + 1) with m by lia. reflexivity.
Qed.

Lemma shift_months_compose c n1 n2 : valid c ->
  snd (shift_months c n1) = snd c ->
  shift_months (shift_months c n1) n2 = shift_months c (n1 + n2).
Proof.
  destruct c as [[y m] d]. unfold valid, shift_months. cbn [fst snd]. intros V E. rewrite E.
  set (k := 12 * y + (m - 1) + n1).
  replace (12 * (k / 12) + (k mod 12 + 1 - 1) + n2) with (k + n2) by lia.
  replace (12 * y + (m - 1) + (n1 + n2)) with (k + n2) by (unfold k; lia). reflexivity.
Qed.

(** End of month *)
Lemma eom_spec x c : repr x c ->
  let '(y, m, d) := c in
  (exists x', to_end_of_month x = Some x' /\ repr x' (y, m, month_length y m) /\
              to_end_of_month x' = Some x') /\
  (exists b, is_end_of_month x = Some b /\ (b = true <-> d = month_length y m)).
Proof.
  destruct c as [[y m] d]. intros (V & E & _). pose proof V as (V1 & V2 & V3). injection E as Ey Em Ed.
  unfold to_end_of_month, is_end_of_month. rewrite Ey, Em, Ed.
  rewrite num_days_in_month_spec by lia. split.
  - eexists; split; [reflexivity|]. split.
    + apply repr_unchecked. pose proof (month_length_bounds y m). unfold valid. lia.
    + simpl year. simpl month. rewrite num_days_in_month_spec by lia. reflexivity.
  - eexists; split; [reflexivity|]. lia.
Qed.

(** Weekday, day of year *)
Lemma day_of_week_spec x c : repr x c ->
  day_of_week x = Z.of_nat (Z.to_nat (ordinal x - 1)) mod 7.
Proof.
  intros (_ & _ & H & _). unfold day_of_week. rewrite Z2Nat.id by lia. reflexivity.
Qed.

Lemma day_of_year_closed x y m d : repr x (y, m, d) ->
  day_of_year x = Some (mbase y m + d).
Proof.
  intros (V & E & _). pose proof V as (V1 & V2 & V3). injection E as Ey Em Ed.
  unfold day_of_year. rewrite Ey, Em, Ed. rewrite is_leap_year_leapb.
  assert (C : m = 1 \/ m = 2 \/ m = 3 \/ m = 4 \/ m = 5 \/ m = 6 \/ m = 7 \/ m = 8 \/
              m = 9 \/ m = 10 \/ m = 11 \/ m = 12) by lia.
  unfold mbase. clear - C.
  destruct (leapb y);
  repeat (destruct C as [-> | C]; [reflexivity |]); subst; reflexivity.
Qed.

Lemma day_of_year_spec x y m d j : repr x (y, m, d) -> is_nth j (y, 1, 1) ->
  day_of_year x = Some (ordinal x - j + 1).
Proof.
  intros R J. rewrite (day_of_year_closed x y m d R). f_equal.
  apply repr_iff in R as (V & _ & O). apply is_nth_iff in J as (_ & ->).
  rewrite O. pose proof V as (V1 & V2 & V3). rewrite !ord_closed by lia.
  change (mbase y 1) with 0. lia.
Qed.

(** Leap day accounting *)
Lemma count_telescope (P : ymd -> bool) (F : ymd -> Z) :
  (forall c, valid c -> F (next_day c) = F c + (if P c then 1 else 0)) ->
  forall n i, count_days P i n = F (nth_day (i + n)) - F (nth_day i).
Proof.
  intros H. induction n; intros i; simpl count_days.
  - rewrite Nat.add_0_r. lia.
  - rewrite IHn. replace (i + S n)%nat with (S i + n)%nat by lia.
    change (nth_day (S i)) with (next_day (nth_day i)).
    rewrite H by apply valid_nth_day. lia.
Qed.

Definition Fleap (c : ymd) : Z :=
  let '(y, m, d) := c in
  ((y - 1) / 4 - (y - 1) / 100 + (y - 1) / 400) * 366 + (if leapb y then mbase y m + d - 1 else 0).

Lemma leap_step y : y / 4 - y / 100 + y / 400 =
  (y - 1) / 4 - (y - 1) / 100 + (y - 1) / 400 + (if leapb y then 1 else 0).
Proof. pose proof (ybase_succ y) as H. unfold ybase in H. replace (y + 1 - 1) with y in H by lia.
  destruct (leapb y); lia. Qed.

Lemma Fleap_step c : valid c -> Fleap (next_day c) = Fleap c + (if in_leap_year c then 1 else 0).
Proof.
  destruct c as [[y m] d]. intros (Hy & Hm & Hd). unfold next_day, in_leap_year.
  destruct (d <? month_length y m) eqn:E; [unfold Fleap; destruct (leapb y); lia|].
  assert (d = month_length y m) by lia. subst d.
  destruct (m <? 12) eqn:E2.
  - unfold Fleap. rewrite mbase_succ by lia. destruct (leapb y); lia.
  - assert (m = 12) by lia. subst m. change (month_length y 12) with 31.
    pose proof (mbase_12 y). unfold Fleap. replace (y + 1 - 1) with y by lia.
    rewrite (leap_step y). change (mbase (y + 1) 1) with 0. destruct (leapb y), (leapb (y + 1)); lia.
Qed.

Definition Ffeb (c : ymd) : Z :=
  let '(y, m, d) := c in
  y / 4 - y / 100 + y / 400 - (if leapb y && (m <=? 2) then 1 else 0).

Lemma Ffeb_step c : valid c -> Ffeb (next_day c) = Ffeb c + (if is_feb29 c then 1 else 0).
Proof.
  destruct c as [[y m] d]. intros (Hy & Hm & Hd). unfold next_day, is_feb29.
  destruct (d <? month_length y m) eqn:E.
  { unfold Ffeb. destruct ((m =? 2) && (d =? 29)) eqn:E3; [|lia].
    unfold month_length in *. dif; lia. }
  assert (d = month_length y m) by lia. subst d.
  destruct (m <? 12) eqn:E2.
  - unfold Ffeb, month_length. destruct (m =? 2) eqn:M2.
    + destruct (leapb y); cbn [andb]; difl.
    + cbn [andb]. destruct (leapb y); cbn [andb]; difl.
  - assert (m = 12) by lia. subst m. change (month_length y 12) with 31.
    unfold Ffeb. cbn [andb Z.eqb Pos.eqb]. pose proof (leap_step (y + 1)) as L.
    replace (y + 1 - 1) with y in L by lia. rewrite L.
    replace (12 <=? 2) with false by reflexivity. replace (1 <=? 2) with true by reflexivity.
    rewrite andb_false_r, andb_true_r. lia.
Qed.

Lemma days_in_leap_years_since_closed x c : repr x c -> days_in_leap_years_since_1jan0001 x = Some (Fleap c).
Proof.
  intros R. destruct c as [[y m] d]. unfold days_in_leap_years_since_1jan0001.
  rewrite (day_of_year_closed x y m d R). destruct R as (_ & E & _). injection E as Ey _ _.
  rewrite Ey, is_leap_year_leapb. unfold Fleap. destruct (leapb y); reflexivity.
Qed.

Lemma leap_days_since_closed x c : repr x c -> leap_days_since_year_0 x = Ffeb c.
Proof.
  intros R. destruct c as [[y m] d]. destruct R as (_ & E & _). injection E as Ey Em _.
  unfold leap_days_since_year_0. rewrite Ey, Em. reflexivity.
Qed.

Lemma repr_nth x c : repr x c -> 1 <= ordinal x /\ c = nth_day (Z.to_nat (ordinal x - 1)).
Proof. intros (_ & _ & H & <-). split; [assumption|reflexivity]. Qed.

Lemma count_between (P : ymd -> bool) (F : ymd -> Z) s e cs ce :
  (forall c, valid c -> F (next_day c) = F c + (if P c then 1 else 0)) ->
  repr s cs -> repr e ce -> ordinal s <= ordinal e ->
  F ce - F cs = count_days P (Z.to_nat (ordinal s - 1)) (Z.to_nat (ordinal e - ordinal s)).
Proof.
  intros HF RS RE L. rewrite (count_telescope P F HF).
  apply repr_nth in RS as (S1 & ->), RE as (E1 & ->).
  do 2 f_equal. f_equal. lia.
Qed.

Lemma leap_and_nonleap_spec s e cs ce : repr s cs -> repr e ce -> ordinal s <= ordinal e ->
  let i := Z.to_nat (ordinal s - 1) in let n := Z.to_nat (ordinal e - ordinal s) in
  days_in_leap_and_nonleap_years_between s e =
    Some (count_days in_leap_year i n, count_days (fun c => negb (in_leap_year c)) i n) /\
  leap_days_between s e = count_days is_feb29 i n.
Proof.
  intros RS RE L i n.
  assert (A : days_in_leap_years_between s e = Some (count_days in_leap_year i n)).
  { unfold days_in_leap_years_between.
    rewrite (days_in_leap_years_since_closed s cs RS), (days_in_leap_years_since_closed e ce RE).
    f_equal. apply count_between; try assumption. apply Fleap_step. }
  assert (B : count_days (fun c => negb (in_leap_year c)) i n = Z.of_nat n - count_days in_leap_year i n).
  { clear A. clearbody i n. revert i. clear. induction n as [|n IHn]; intros i; simpl count_days; [reflexivity|].
    rewrite IHn. destruct (in_leap_year (nth_day i)); simpl; lia. }
  split.
  - unfold days_in_leap_and_nonleap_years_between. rewrite A, B. do 2 f_equal. unfold n. lia.
  - unfold leap_days_between. rewrite (leap_days_since_closed s cs RS), (leap_days_since_closed e ce RE).
    apply count_between; try assumption. apply Ffeb_step.
Qed.

(** Day counts *)
Lemma count_days_nonneg P n : forall i, 0 <= count_days P i n.
Proof. induction n; intros i; simpl count_days; [lia|]. specialize (IHn (S i)). difl. Qed.

Lemma count_days_pos P n : forall i, 0 < count_days P i n <-> exists j, (i <= j < i + n)%nat /\ P (nth_day j) = true.
Proof.
  induction n; intros i; simpl count_days.
  - split; [lia|]. intros (j & H & _). lia.
  - pose proof (count_days_nonneg P n (S i)). split.
    + intros H1. destruct (P (nth_day i)) eqn:E.
      * exists i. split; [lia|assumption].
      * destruct (proj1 (IHn (S i)) ltac:(lia)) as (j & Hj & Pj). exists j. split; [lia|assumption].
    + intros (j & Hj & Pj). destruct (Nat.eq_dec j i) as [->|Hne]; [rewrite Pj; lia|].
      assert (0 < count_days P (S i) n) by (apply IHn; exists j; split; [lia|assumption]). difl.
Qed.

Lemma count_days_app P n : forall i k, count_days P i (n + k) = count_days P i n + count_days P (i + n) k.
Proof.
  induction n; intros i k; simpl count_days; simpl Nat.add; [rewrite Nat.add_0_r; lia|].
  simpl count_days. rewrite IHn. replace (S i + n)%nat with (i + S n)%nat by lia. lia.
Qed.
