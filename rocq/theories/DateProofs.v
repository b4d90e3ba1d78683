From Coq Require Import ZArith List Bool Lia ZifyBool.
From Verif Require Import DateModel DateSpec.
Import ListNotations.
Open Scope Z_scope.
Ltac Zify.zify_post_hook ::= Z.div_mod_to_equations.

(** Case split on every boolean condition in sight, then linear arithmetic. *)
Ltac dif := repeat match goal with
  | |- context [if ?b then _ else _] => destruct b eqn:?
  | H : context [if ?b then _ else _] |- _ => destruct b eqn:?
  end.
Ltac difl := dif; lia.

Lemma leapb_spec y : leapb y = true <-> leap y.
Proof.
  unfold leapb, leap.
  rewrite andb_true_iff, orb_true_iff, negb_true_iff, Z.eqb_neq, !Z.eqb_eq.
  rewrite !Z.mod_divide by lia. tauto.
Qed.

Lemma is_leap_year_leapb y : is_leap_year y = leapb y.
Proof. reflexivity. Qed.

Lemma num_days_in_month_spec y m :
  1 <= m <= 12 -> num_days_in_month m y = Some (month_length y m).
Proof.
  intros H. unfold num_days_in_month, month_length, gather.
  rewrite is_leap_year_leapb.
  assert (C : m = 1 \/ m = 2 \/ m = 3 \/ m = 4 \/ m = 5 \/ m = 6 \/ m = 7 \/ m = 8 \/
              m = 9 \/ m = 10 \/ m = 11 \/ m = 12) by lia.
  destruct (leapb y);
  repeat (destruct C as [-> | C]; [reflexivity |]); subst; reflexivity.
Qed.

(** Days before 1 January of year y, and before month m of year y. *)
Definition ybase (y : Z) : Z := 365 * (y - 1) + (y - 1) / 4 - (y - 1) / 100 + (y - 1) / 400.
Definition mbase (y m : Z) : Z :=
  if m <=? 2 then 31 * (m - 1)
  else (153 * (m - 3) + 2) / 5 + 59 + (if leapb y then 1 else 0).

Lemma leapb_div y : leapb y = ((y mod 4 =? 0) && (negb (y mod 100 =? 0) || (y mod 400 =? 0))).
Proof. reflexivity. Qed.

Lemma div_step y n : 0 < n -> y / n = (y - 1) / n + (if y mod n =? 0 then 1 else 0).
Proof.
  intros Hn. pose proof (Z.div_mod y n ltac:(lia)) as H. pose proof (Z.mod_pos_bound y n Hn) as HB.
  set (q := y / n) in *. set (r := y mod n) in *. clearbody q r. subst y.
  destruct (r =? 0) eqn:E.
  - apply Z.eqb_eq in E. subst r.
    rewrite <- (Z.div_unique_pos (n * q + 0 - 1) n (q - 1) (n - 1)); [|lia|]; ring.
  - apply Z.eqb_neq in E.
    rewrite <- (Z.div_unique_pos (n * q + r - 1) n q (r - 1)); [|lia|]; ring.
Qed.

Lemma ybase_succ y : ybase (y + 1) = ybase y + 365 + (if leapb y then 1 else 0).
Proof.
  unfold ybase. replace (y + 1 - 1) with y by lia.
  rewrite (div_step y 4), (div_step y 100), (div_step y 400) by lia.
  rewrite leapb_div.
  destruct (y mod 4 =? 0) eqn:E4, (y mod 100 =? 0) eqn:E100, (y mod 400 =? 0) eqn:E400; cbn [negb andb orb]; lia.
Qed.

Lemma ymd_to_ordinal_closed y m d :
  1 <= m <= 12 -> year_month_day_to_ordinal y m d = ybase y + mbase y m + d.
Proof.
  intros Hm. unfold year_month_day_to_ordinal, mbase, days_in_year_before_month,
    DAYS_IN_ERA, YEARS_IN_ERA, DAYS_IN_YEAR, ORDINAL_OF_1_3_0000.
  assert (forall x, x / 400 * 146097 + (x mod 400 * 365 + (x mod 400) / 4 - (x mod 400) / 100)
          = 365 * x + x / 4 - x / 100 + x / 400) as HE by (intros; lia).
  destruct (m <=? 2) eqn:Hm2.
  - replace (2 <? m) with false by lia.
    specialize (HE (y - 1)). unfold ybase.
    assert (m = 1 \/ m = 2) as [-> | ->] by lia; simpl (153 * _); 
    [change ((153 * (1 + 9) + 2) / 5) with 306 | change ((153 * (2 + 9) + 2) / 5) with 337]; lia.
  - replace (2 <? m) with true by lia.
    rewrite Z.sub_0_r. specialize (HE y).
    replace (m + -3) with (m - 3) by lia.
    pose proof (ybase_succ y) as HY. unfold ybase in *. replace (y + 1 - 1) with y in HY by lia. lia.
Qed.

Lemma mbase_succ y m : 1 <= m <= 11 -> mbase y (m + 1) = mbase y m + month_length y m.
Proof.
  intros. unfold mbase, month_length.
  assert (C : m = 1 \/ m = 2 \/ m = 3 \/ m = 4 \/ m = 5 \/ m = 6 \/ m = 7 \/ m = 8 \/
              m = 9 \/ m = 10 \/ m = 11) by lia.
  destruct (leapb y);
  repeat (destruct C as [-> | C]; [reflexivity |]); subst; reflexivity.
Qed.

Lemma mbase_12 y : mbase y 12 + 31 = 365 + (if leapb y then 1 else 0).
Proof. unfold mbase. destruct (leapb y); reflexivity. Qed.

Lemma month_length_bounds y m : 28 <= month_length y m <= 31.
Proof. unfold month_length. destruct (m =? 2), (leapb y); simpl; try lia; destruct (_ || _); lia. Qed.

Definition ord (c : ymd) : Z := let '(y, m, d) := c in year_month_day_to_ordinal y m d.

Lemma ord_closed y m d : 1 <= m <= 12 -> ord (y, m, d) = ybase y + mbase y m + d.
Proof. apply ymd_to_ordinal_closed. Qed.

Lemma valid_next_day c : valid c -> valid (next_day c).
Proof.
  destruct c as [[y m] d]. unfold valid, next_day. intros (Hy & Hm & Hd).
  destruct (d <? month_length y m) eqn:E; [lia|].
  destruct (m <? 12) eqn:E2.
  - pose proof (month_length_bounds y (m + 1)). lia.
  - pose proof (month_length_bounds (y + 1) 1). lia.
Qed.

Lemma ord_next_day c : valid c -> ord (next_day c) = ord c + 1.
Proof.
  destruct c as [[y m] d]. unfold valid. intros (Hy & Hm & Hd). unfold next_day.
  destruct (d <? month_length y m) eqn:E; [rewrite !ord_closed by lia; lia|].
  assert (d = month_length y m) by lia. subst d.
  destruct (m <? 12) eqn:E2; rewrite !ord_closed by lia.
  - rewrite mbase_succ by lia. lia.
  - assert (m = 12) by lia. subst m. change (month_length y 12) with 31.
    pose proof (mbase_12 y). rewrite ybase_succ. change (mbase (y + 1) 1) with 0. lia.
Qed.

Lemma valid_nth_day n : valid (nth_day n).
Proof.
  induction n; simpl; [|apply valid_next_day; assumption].
  unfold valid, month_length; simpl. lia.
Qed.

Lemma ord_nth_day n : ord (nth_day n) = Z.of_nat n + 1.
Proof.
  induction n; simpl nth_day; [reflexivity|].
  rewrite ord_next_day by apply valid_nth_day. lia.
Qed.

(** March-based year: the Hinnant inverse. *)
Definition yoe_num (doe : Z) : Z := doe - doe / 1460 + doe / 36524 - doe / 146096.

Lemma yoe_spec yoe doy :
  0 <= yoe < 400 -> 0 <= doy ->
  doy <= 364 + (if leapb (yoe + 1) then 1 else 0) ->
  let doe := yoe * 365 + yoe / 4 - yoe / 100 + doy in
  0 <= doe < 146097 /\ yoe_num doe / 365 = yoe.
Proof.
  intros Hy H0 H1 doe.
  assert (Hl : (if leapb (yoe + 1) then 1 else 0)
               = (yoe + 1) / 4 - yoe / 4 - ((yoe + 1) / 100 - yoe / 100) + ((yoe + 1) / 400 - yoe / 400)).
  { rewrite (div_step (yoe + 1) 4), (div_step (yoe + 1) 100), (div_step (yoe + 1) 400) by lia.
    replace (yoe + 1 - 1) with yoe by lia. rewrite leapb_div.
    destruct ((yoe + 1) mod 4 =? 0) eqn:E4, ((yoe + 1) mod 100 =? 0) eqn:E100,
      ((yoe + 1) mod 400 =? 0) eqn:E400; cbn [negb andb orb]; lia. }
  rewrite Hl in H1. clear Hl. unfold yoe_num. subst doe.
  split; [lia|].
  symmetry. 
  pose (c := yoe / 100). pose (r := yoe mod 100).
  assert (yoe = 100 * c + r) by (unfold c, r; lia).
  assert (0 <= r < 100) by (unfold r; lia). assert (0 <= c <= 3) by (unfold c; lia).
  clearbody c r. subst yoe.
  pose (q := r / 4). pose (s := r mod 4).
  assert (r = 4 * q + s) by (unfold q, s; lia).
  assert (0 <= s < 4) by (unfold s; lia). assert (0 <= q < 25) by (unfold q; lia).
  clearbody q s. subst r.
  replace ((100 * c + (4 * q + s)) / 4) with (25 * c + q) in * by lia.
  replace ((100 * c + (4 * q + s)) / 100) with c in * by lia.
  replace ((100 * c + (4 * q + s)) / 400) with 0 in * by lia.
  set (doe := (100 * c + (4 * q + s)) * 365 + (25 * c + q) - c + doy) in *.
  assert (doe = 36524 * c + 1461 * q + 365 * s + doy) by (unfold doe; lia).
  clearbody doe.
  apply Z.div_unique_pos with (r := yoe_num doe - 365 * (100 * c + (4 * q + s))); unfold yoe_num; [|lia].
  assert (c = 0 \/ c = 1 \/ c = 2 \/ c = 3) as HC by lia.
  destruct HC as [-> | [-> | [-> | ->]]]; lia.
Qed.

Lemma ordinal_to_ymd_ord c : valid c -> ordinal_to_year_month_day (ord c) = c.
Proof.
  destruct c as [[y m] d]. unfold valid. intros (Hy & Hm & Hd).
  set (y0 := y - (if m <=? 2 then 1 else 0)).
  set (m0 := m + (if 2 <? m then -3 else 9)).
  set (era := y0 / 400). set (yoe := y0 mod 400).
  set (doy := (153 * m0 + 2) / 5 + d - 1).
  assert (Hyoe : 0 <= yoe < 400) by (unfold yoe; lia).
  assert (Hm0 : 0 <= m0 <= 11) by (unfold m0; difl).
  assert (Hlen : m = 2 -> month_length y m = 28 + (if leapb (yoe + 1) then 1 else 0)).
  { intros ->. unfold month_length. change (2 =? 2) with true. cbv iota.
    assert (leapb (yoe + 1) = leapb y) as ->.
    { unfold yoe, y0. change (2 <=? 2) with true. cbv iota. unfold leapb. 
      replace (((y - 1) mod 400 + 1) mod 4) with (y mod 4) by lia.
      replace (((y - 1) mod 400 + 1) mod 100) with (y mod 100) by lia.
      replace (((y - 1) mod 400 + 1) mod 400) with (y mod 400) by lia. reflexivity. }
    destruct (leapb y); reflexivity. }
  assert (HML : m <> 2 -> month_length y m = (153 * (m0 + 1) + 2) / 5 - (153 * m0 + 2) / 5).
  { intros Hne. unfold m0, month_length.
    assert (C : m = 1 \/ m = 3 \/ m = 4 \/ m = 5 \/ m = 6 \/ m = 7 \/ m = 8 \/
              m = 9 \/ m = 10 \/ m = 11 \/ m = 12) by lia.
    repeat (destruct C as [-> | C]; [reflexivity |]); subst; reflexivity. }
  assert (HL : d <= (153 * (m0 + 1) + 2) / 5 - (153 * m0 + 2) / 5 /\
               doy <= 364 + (if leapb (yoe + 1) then 1 else 0) /\ 0 <= doy).
  { unfold doy. destruct (Z.eq_dec m 2) as [->|Hne].
    - specialize (Hlen eq_refl). change m0 with 11.
      change ((153 * (11 + 1) + 2) / 5) with 367. change ((153 * 11 + 2) / 5) with 337.
      destruct (leapb (yoe + 1)); lia.
    - specialize (HML Hne). destruct (leapb (yoe + 1)); unfold m0 in *; difl. }
  destruct HL as (HL1 & HL2 & HL3).
  pose proof (yoe_spec yoe doy Hyoe HL3 HL2) as HS. cbv zeta in HS.
  set (doe := yoe * 365 + yoe / 4 - yoe / 100 + doy) in *.
  destruct HS as (Hdoe & Hyq).
  assert (HO : ord (y, m, d) = era * 146097 + doe - 305).
  { unfold ord, year_month_day_to_ordinal, days_in_year_before_month, YEARS_IN_ERA,
      DAYS_IN_ERA, DAYS_IN_YEAR, ORDINAL_OF_1_3_0000. cbv zeta.
    fold y0 m0. fold era yoe. unfold doe, doy. lia. }
  unfold ordinal_to_year_month_day. rewrite HO. 
  unfold ORDINAL_OF_1_3_0000, DAYS_IN_ERA, DAYS_IN_4_YEARS, DAYS_IN_100_YEARS, DAYS_IN_YEAR, YEARS_IN_ERA.
  replace (era * 146097 + doe - 305 - -305) with (doe + era * 146097) by lia.
  rewrite Z.div_add, Z.mod_add by lia. rewrite (Z.div_small doe 146097), (Z.mod_small doe 146097) by assumption.
  change (4 * 365 + 1 - 1) with 1460. change (100 * 365 + 24) with 36524. change (146097 - 1) with 146096.
  fold (yoe_num doe). rewrite Hyq.
  replace (doe - (365 * yoe + yoe / 4 - yoe / 100)) with doy by (unfold doe; ring).
  assert (HM : day_of_year_to_month doy = m0).
  { unfold day_of_year_to_month. symmetry.
    apply Z.div_unique_pos with (r := 5 * doy + 2 - 153 * m0); unfold doy; lia. }
  rewrite HM. unfold days_in_year_before_month.
  replace (doy - (153 * m0 + 2) / 5 + 1) with d by (unfold doy; lia).
  assert (Hmm : m0 + (if m0 <? 10 then 3 else -9) = m) by (unfold m0; difl).
  rewrite Hmm.
  replace (yoe + (0 + era) * 400) with y0 by (unfold yoe, era; lia).
  replace (y0 + (if m <=? 2 then 1 else 0)) with y by (unfold y0; difl).
  reflexivity.
Qed.

Lemma ordinal_to_ymd_nth_day n : 1 <= n -> ordinal_to_year_month_day n = nth_day (Z.to_nat (n - 1)).
Proof.
  intros Hn. rewrite <- (ordinal_to_ymd_ord (nth_day (Z.to_nat (n - 1)))) by apply valid_nth_day.
  rewrite ord_nth_day. f_equal. lia.
Qed.

Lemma ordinal_to_ymd_valid n : 1 <= n -> valid (ordinal_to_year_month_day n).
Proof. intros. rewrite ordinal_to_ymd_nth_day by lia. apply valid_nth_day. Qed.

Lemma ord_ordinal_to_ymd n : 1 <= n -> ord (ordinal_to_year_month_day n) = n.
Proof. intros. rewrite ordinal_to_ymd_nth_day by lia. rewrite ord_nth_day. lia. Qed.
