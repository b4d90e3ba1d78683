From Coq Require Import ZArith QArith List Bool Lia ZifyBool Lqa.
From Verif Require Import DateModel DateSpec DateRepr DateProofs DayCountModel DateProofs2.
Import ListNotations.
Open Scope Z_scope.

Lemma injZ_div_add a b k : (0 < k)%Z ->
  (inject_Z (a + b) / inject_Z k == inject_Z a / inject_Z k + inject_Z b / inject_Z k)%Q.
Proof.
  intros Hk. rewrite inject_Z_plus. field. intros H. unfold Qeq in H; simpl in H. lia.
Qed.

Lemma injZ_div_mono a b k : 0 < k -> a <= b -> (inject_Z a / inject_Z k <= inject_Z b / inject_Z k)%Q.
Proof.
  intros Hk H. unfold Qdiv. apply Qmult_le_compat_r.
  - rewrite <- Zle_Qle. assumption.
  - apply Qinv_le_0_compat. change 0%Q with (inject_Z 0). rewrite <- Zle_Qle. lia.
Qed.

Lemma actual_360_additive a b c : (actual_360 a c == actual_360 a b + actual_360 b c)%Q.
Proof.
  unfold actual_360, days_until. rewrite <- injZ_div_add by lia.
  replace (ordinal b - ordinal a + (ordinal c - ordinal b)) with (ordinal c - ordinal a) by lia. reflexivity.
Qed.
Lemma actual_365_additive a b c : (actual_365_fixed a c == actual_365_fixed a b + actual_365_fixed b c)%Q.
Proof.
  unfold actual_365_fixed, days_until. rewrite <- injZ_div_add by lia.
  replace (ordinal b - ordinal a + (ordinal c - ordinal b)) with (ordinal c - ordinal a) by lia. reflexivity.
Qed.
Lemma actual_360_mono s e1 e2 : ordinal e1 <= ordinal e2 -> (actual_360 s e1 <= actual_360 s e2)%Q.
Proof. intros. apply injZ_div_mono; unfold days_until; lia. Qed.
Lemma actual_365_mono s e1 e2 : ordinal e1 <= ordinal e2 -> (actual_365_fixed s e1 <= actual_365_fixed s e2)%Q.
Proof. intros. apply injZ_div_mono; unfold days_until; lia. Qed.

Lemma actual_actual_spec s e cs ce : repr s cs -> repr e ce -> ordinal s <= ordinal e ->
  let i := Z.to_nat (ordinal s - 1) in let n := Z.to_nat (ordinal e - ordinal s) in
  actual_actual_isda s e =
    Some (inject_Z (count_days in_leap_year i n) / inject_Z 366
          + inject_Z (count_days (fun c => negb (in_leap_year c)) i n) / inject_Z 365)%Q.
Proof.
  intros RS RE L i n. unfold actual_actual_isda.
  destruct (leap_and_nonleap_spec s e cs ce RS RE L) as [-> _]. reflexivity.
Qed.

Lemma actual_actual_additive a b c ca cb cc : repr a ca -> repr b cb -> repr c cc ->
  exists x y z, actual_actual_isda a b = Some x /\ actual_actual_isda b c = Some y /\
    actual_actual_isda a c = Some z /\ (z == x + y)%Q.
Proof.
  intros RA RB RC. unfold actual_actual_isda, days_in_leap_and_nonleap_years_between,
    days_in_leap_years_between.
  rewrite (days_in_leap_years_since_closed _ _ RA), (days_in_leap_years_since_closed _ _ RB),
    (days_in_leap_years_since_closed _ _ RC).
  do 3 eexists. split; [reflexivity|]. split; [reflexivity|]. split; [reflexivity|].
  replace (ordinal c - ordinal a - (Fleap cc - Fleap ca)) with
    ((ordinal b - ordinal a - (Fleap cb - Fleap ca)) + (ordinal c - ordinal b - (Fleap cc - Fleap cb))) by lia.
  replace (Fleap cc - Fleap ca) with ((Fleap cb - Fleap ca) + (Fleap cc - Fleap cb)) by lia.
  rewrite (injZ_div_add _ _ 366), (injZ_div_add _ _ 365) by lia. ring.
Qed.

Lemma actual_actual_mono s e1 e2 cs c1 c2 : repr s cs -> repr e1 c1 -> repr e2 c2 ->
  ordinal e1 <= ordinal e2 ->
  exists x y, actual_actual_isda s e1 = Some x /\ actual_actual_isda s e2 = Some y /\ (x <= y)%Q.
Proof.
  intros RS R1 R2 L.
  destruct (actual_actual_additive s e1 e2 cs c1 c2 RS R1 R2) as (x & y & z & Hx & Hy & Hz & E).
  exists x, z. split; [assumption|]. split; [assumption|]. rewrite E.
  assert (0 <= y)%Q; [|lra].
  pose proof (actual_actual_spec e1 e2 c1 c2 R1 R2 L) as S. cbv zeta in S. rewrite S in Hy.
  injection Hy as <-.
  assert (H : forall k m, 0 < m -> 0 <= k -> (0 <= inject_Z k / inject_Z m)%Q).
  { intros k m Hm Hk. pose proof (injZ_div_mono 0 k m Hm Hk) as Q.
    setoid_replace (inject_Z 0 / inject_Z m)%Q with 0%Q in Q; [assumption|]. unfold Qdiv. rewrite Qmult_0_l. reflexivity. }
  pose proof (H (count_days in_leap_year (Z.to_nat (ordinal e1 - 1)) (Z.to_nat (ordinal e2 - ordinal e1))) 366
     ltac:(lia) (count_days_nonneg _ _ _)).
  pose proof (H (count_days (fun c => negb (in_leap_year c)) (Z.to_nat (ordinal e1 - 1)) (Z.to_nat (ordinal e2 - ordinal e1))) 365
     ltac:(lia) (count_days_nonneg _ _ _)).
  lra.
Qed.

Lemma actual_365_actual_spec s e cs ce : repr s cs -> repr e ce -> ordinal s <= ordinal e ->
  ((exists j y, ordinal s < j <= ordinal e /\ is_nth j (y, 2, 29)) ->
     actual_365_actual s e = Some (inject_Z (ordinal e - ordinal s) / inject_Z 366)%Q) /\
  (~ (exists j y, ordinal s < j <= ordinal e /\ is_nth j (y, 2, 29)) ->
     actual_365_actual s e = Some (inject_Z (ordinal e - ordinal s) / inject_Z 365)%Q).
Proof.
  intros RS RE L. unfold actual_365_actual.
  destruct (repr_nth _ _ RS) as (HS & _). destruct (repr_nth _ _ RE) as (HE & _).
  destruct (proj1 (add_days_spec s cs 1 RS) ltac:(lia)) as (s' & -> & OS & RS').
  destruct (proj1 (add_days_spec e ce 1 RE) ltac:(lia)) as (e' & -> & OE & RE').
  destruct (leap_and_nonleap_spec s' e' _ _ RS' RE' ltac:(lia)) as [_ ->].
  assert (H : 0 < count_days is_feb29 (Z.to_nat (ordinal s' - 1)) (Z.to_nat (ordinal e' - ordinal s'))
          <-> exists j y, ordinal s < j <= ordinal e /\ is_nth j (y, 2, 29)).
  { rewrite count_days_pos. split.
    - intros (j & Hj & P). destruct (nth_day j) as [[y m] d] eqn:N. unfold is_feb29 in P.
      exists (Z.of_nat j + 1), y. split; [lia|]. split; [lia|].
      replace (Z.to_nat (Z.of_nat j + 1 - 1)) with j by lia. rewrite N.
      assert (m = 2 /\ d = 29) as [-> ->] by lia. reflexivity.
    - intros (j & y & Hj & [J N]). exists (Z.to_nat (j - 1)). split; [lia|]. rewrite N. reflexivity. }
  unfold days_until. split; intros P.
  - apply H in P. apply Z.ltb_lt in P. rewrite P. reflexivity.
  - rewrite <- H in P. apply Z.ltb_nlt in P. rewrite P. reflexivity.
Qed.

(** ISDA 30/360: the number of days a calendar of 30-day months sees. *)
Lemma thirty_360_anniversary s e y m d k :
  repr s (y, m, d) -> repr e (y + k, m, d) -> (thirty_360_isda s e == inject_Z k)%Q.
Proof.
  intros (V & E1 & _) (_ & E2 & _). injection E1 as A1 A2 A3. injection E2 as B1 B2 B3.
  unfold thirty_360_isda. rewrite A1, A2, A3, B1, B2, B3.
  assert (H : forall z, z = k * 360 -> (inject_Z z / inject_Z 360 == inject_Z k)%Q).
  { intros z ->. rewrite inject_Z_mult. field. }
  pose proof (month_length_bounds y m). destruct V as (_ & _ & V).
  apply H. destruct ((Z.min d 30 =? 30) && (d =? 31)) eqn:E; lia.
Qed.

Lemma thirty_360_rule s e : 
  let D1 := if day s =? 31 then 30 else day s in
  let D2 := if (day e =? 31) && ((day s =? 30) || (day s =? 31)) then 30 else day e in
  day s <= 31 ->
  thirty_360_isda s e =
   (inject_Z ((year e - year s) * 360 + (month e - month s) * 30 + (D2 - D1)) / inject_Z 360)%Q.
Proof.
  intros D1 D2 H. unfold thirty_360_isda. do 2 f_equal. subst D1 D2. difl.
Qed.
