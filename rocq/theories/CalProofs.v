(** Generic theory of counting business days. *)
From Coq Require Import ZArith List Bool Lia ZifyBool.
From Verif Require Import DateModel DateSpec DateRepr DateProofs DateProofs2 CalSpec BoundedCalModel.
Import ListNotations.
Open Scope Z_scope.

Section Count.
Variable b : Z -> bool.

Definition bz (o : Z) : Z := if b o then 1 else 0.

Lemma busdays_empty a c : c <= a -> busdays b a c = 0.
Proof. intros. unfold busdays. replace (Z.to_nat (c - a)) with O by lia. reflexivity. Qed.

Lemma busdays_first a c : a < c -> busdays b a c = bz a + busdays b (a + 1) c.
Proof.
  intros. unfold busdays. replace (Z.to_nat (c - a)) with (S (Z.to_nat (c - (a + 1)))) by lia. reflexivity.
Qed.

Lemma count_from_app n : forall a k, count_from b a (n + k) = count_from b a n + count_from b (a + Z.of_nat n) k.
Proof.
  induction n; intros a k; cbn [count_from Nat.add].
  - replace (a + Z.of_nat 0) with a by lia. lia.
  - rewrite IHn. replace (a + 1 + Z.of_nat n) with (a + Z.of_nat (S n)) by lia. lia.
Qed.

Lemma busdays_split a m c : a <= m -> m <= c -> busdays b a c = busdays b a m + busdays b m c.
Proof.
  intros. unfold busdays.
  replace (Z.to_nat (c - a)) with (Z.to_nat (m - a) + Z.to_nat (c - m))%nat by lia.
  rewrite count_from_app. do 2 f_equal. lia.
Qed.

Lemma busdays_one a : busdays b a (a + 1) = bz a.
Proof. rewrite busdays_first by lia. rewrite busdays_empty by lia. lia. Qed.

Lemma busdays_last a c : a <= c -> busdays b a (c + 1) = busdays b a c + bz c.
Proof. intros. rewrite (busdays_split a c (c + 1)) by lia. rewrite busdays_one. reflexivity. Qed.

Lemma count_from_nonneg n : forall a, 0 <= count_from b a n.
Proof. induction n; intros a; cbn [count_from]; [lia|]. specialize (IHn (a + 1)). destruct (b a); lia. Qed.

Lemma busdays_nonneg a c : 0 <= busdays b a c.
Proof. apply count_from_nonneg. Qed.

Lemma bz_range o : 0 <= bz o <= 1.
Proof. unfold bz. destruct (b o); lia. Qed.

Lemma busdays_pos a c k : a <= k < c -> b k = true -> 1 <= busdays b a c.
Proof.
  intros H B. rewrite (busdays_split a k c) by lia. rewrite (busdays_first k c) by lia.
  pose proof (busdays_nonneg a k). pose proof (busdays_nonneg (k + 1) c).
  unfold bz. rewrite B. lia.
Qed.

Lemma busdays_zero a c k : busdays b a c = 0 -> a <= k < c -> b k = false.
Proof.
  intros H K. destruct (b k) eqn:E; [|reflexivity].
  pose proof (busdays_pos a c k K E). lia.
Qed.

Lemma busdays_none a c : (forall k, a <= k < c -> b k = false) -> busdays b a c = 0.
Proof.
  intros H. unfold busdays.
  assert (G : forall n a, (forall k, a <= k < a + Z.of_nat n -> b k = false) -> count_from b a n = 0).
  { clear. induction n; intros a H; cbn [count_from]; [reflexivity|].
    rewrite (H a) by lia. rewrite IHn; [reflexivity|]. intros; apply H; lia. }
  apply G. intros k K. apply H. lia.
Qed.

Lemma busdays_mono a c c' : a <= c -> c <= c' -> busdays b a c <= busdays b a c'.
Proof. intros. rewrite (busdays_split a c c') by lia. pose proof (busdays_nonneg c c'). lia. Qed.

(** Rank relative to a start [lo]. *)
Variable lo : Z.
Notation R o := (busdays b lo o).

Lemma rank_following o r : lo <= o -> lo <= r -> b r = true -> R r = R o -> following b o r.
Proof.
  intros Ho Hr B E. destruct (Z_lt_le_dec r o) as [L|L].
  - pose proof (busdays_split lo r o ltac:(lia) ltac:(lia)).
    pose proof (busdays_pos r o r ltac:(lia) B). lia.
  - split; [assumption|]. split; [assumption|]. intros k K. apply (busdays_zero o r); [|lia].
    pose proof (busdays_split lo o r ltac:(lia) ltac:(lia)). lia.
Qed.

Lemma following_rank o r : lo <= o -> following b o r -> R r = R o.
Proof.
  intros Ho (L & B & N). rewrite (busdays_split lo o r) by lia. rewrite (busdays_none o r N). lia.
Qed.

Lemma rank_preceding o r : lo <= o -> lo <= r -> b r = true -> R r = R o - (1 - bz o) -> preceding b o r.
Proof.
  intros Ho Hr B E. unfold bz in E. destruct (b o) eqn:BO.
  - assert (r = o).
    { destruct (Z.lt_trichotomy r o) as [L|[L|L]]; [|assumption|].
      + pose proof (busdays_split lo r o ltac:(lia) ltac:(lia)). pose proof (busdays_pos r o r ltac:(lia) B). lia.
      + pose proof (busdays_split lo o r ltac:(lia) ltac:(lia)). pose proof (busdays_pos o r o ltac:(lia) BO). lia. }
    subst. split; [lia|]. split; [assumption|]. intros; lia.
  - destruct (Z_lt_le_dec r o) as [L|L].
    + pose proof (busdays_split lo r o ltac:(lia) ltac:(lia)) as S.
      rewrite (busdays_first r o) in S by lia. unfold bz in S. rewrite B in S.
      split; [lia|]. split; [assumption|]. intros k K.
      destruct (Z.eq_dec k o) as [->|]; [assumption|].
      apply (busdays_zero (r + 1) o); lia.
    + pose proof (busdays_mono lo o r ltac:(lia) ltac:(lia)). lia.
Qed.

Lemma preceding_rank o r : lo <= r -> preceding b o r -> R r = R o - (1 - bz o).
Proof.
  intros Hr (L & B & N). unfold bz. destruct (Z.eq_dec r o) as [->|].
  - rewrite B. lia.
  - rewrite (N o) by lia. rewrite (busdays_split lo r o) by lia. rewrite (busdays_first r o) by lia.
    unfold bz. rewrite B. rewrite (busdays_none (r + 1) o); [lia|]. intros; apply N; lia.
Qed.

Lemma rank_nth o n r : lo <= o -> lo <= r -> b r = true -> R r = R o + n -> nth_business_day b o n r.
Proof.
  intros Ho Hr B E. split; [assumption|].
  destruct (Z_lt_le_dec r o) as [L|L].
  - pose proof (busdays_split lo r o ltac:(lia) ltac:(lia)). pose proof (busdays_pos r o r ltac:(lia) B).
    right. lia.
  - pose proof (busdays_split lo o r ltac:(lia) ltac:(lia)). pose proof (busdays_nonneg o r). left. lia.
Qed.

Lemma nth_rank o n r : lo <= o -> lo <= r -> nth_business_day b o n r -> R r = R o + n.
Proof.
  intros Ho Hr (B & [(N & L & E)|(N & L & E)]).
  - rewrite (busdays_split lo o r) by lia. lia.
  - rewrite (busdays_split lo r o) by lia. lia.
Qed.

Lemma rank_inj r1 r2 : lo <= r1 -> lo <= r2 -> b r1 = true -> b r2 = true -> R r1 = R r2 -> r1 = r2.
Proof.
  intros H1 H2 B1 B2 E. destruct (Z.lt_trichotomy r1 r2) as [L|[L|L]]; [|assumption|].
  - pose proof (busdays_split lo r1 r2 ltac:(lia) ltac:(lia)). pose proof (busdays_pos r1 r2 r1 ltac:(lia) B1). lia.
  - pose proof (busdays_split lo r2 r1 ltac:(lia) ltac:(lia)). pose proof (busdays_pos r2 r1 r2 ltac:(lia) B2). lia.
Qed.
End Count.

Lemma following_unique b o r1 r2 : following b o r1 -> following b o r2 -> r1 = r2.
Proof.
  intros (L1 & B1 & N1) (L2 & B2 & N2). destruct (Z.lt_trichotomy r1 r2) as [L|[L|L]]; [|assumption|].
  - rewrite (N2 r1) in B1 by lia. discriminate.
  - rewrite (N1 r2) in B2 by lia. discriminate.
Qed.
Lemma preceding_unique b o r1 r2 : preceding b o r1 -> preceding b o r2 -> r1 = r2.
Proof.
  intros (L1 & B1 & N1) (L2 & B2 & N2). destruct (Z.lt_trichotomy r1 r2) as [L|[L|L]]; [|assumption|].
  - rewrite (N1 r2) in B2 by lia. discriminate.
  - rewrite (N2 r1) in B1 by lia. discriminate.
Qed.
Lemma nth_business_day_unique b o n r1 r2 : nth_business_day b o n r1 -> nth_business_day b o n r2 -> r1 = r2.
Proof.
  intros H1 H2. pose proof (proj1 H1) as B1. pose proof (proj1 H2) as B2.
  set (lo := Z.min o (Z.min r1 r2)).
  apply (rank_inj b lo); try assumption; try (unfold lo; lia).
  rewrite (nth_rank b lo o n r1), (nth_rank b lo o n r2); try assumption; try reflexivity; unfold lo; lia.
Qed.

Lemma nth_business_day_compose b o m n r s :
  nth_business_day b o m r -> (nth_business_day b r n s <-> nth_business_day b o (m + n) s).
Proof.
  intros H1. set (lo := Z.min o (Z.min r s)).
  pose proof (nth_rank b lo o m r ltac:(unfold lo; lia) ltac:(unfold lo; lia) H1) as E1.
  split; intros H2.
  - pose proof (nth_rank b lo r n s ltac:(unfold lo; lia) ltac:(unfold lo; lia) H2).
    apply (rank_nth b lo); [unfold lo; lia|unfold lo; lia|apply H2|lia].
  - pose proof (nth_rank b lo o (m + n) s ltac:(unfold lo; lia) ltac:(unfold lo; lia) H2).
    apply (rank_nth b lo); [unfold lo; lia|unfold lo; lia|apply H2|lia].
Qed.

Lemma nth_business_day_0 b o : b o = true -> nth_business_day b o 0 o.
Proof. intros. split; [assumption|]. left. split; [lia|]. split; [lia|]. apply busdays_empty; lia. Qed.

Lemma nth_business_day_opp b o n r : b o = true -> nth_business_day b o n r -> nth_business_day b r (- n) o.
Proof.
  intros B H. apply (nth_business_day_compose b o n (- n) r o H).
  replace (n + - n) with 0 by lia. apply nth_business_day_0; assumption.
Qed.

Lemma following_exists b o r : o <= r -> b r = true -> exists f, following b o f /\ f <= r.
Proof.
  intros L B.
  assert (G : forall n o, r = o + Z.of_nat n -> exists f, following b o f /\ f <= r).
  { clear o L. induction n; intros o E.
    - exists o. split; [|lia]. split; [lia|]. replace o with r by lia. split; [assumption|]. intros; lia.
    - destruct (b o) eqn:BO.
      + exists o. split; [|lia]. split; [lia|]. split; [assumption|]. intros; lia.
      + destruct (IHn (o + 1) ltac:(lia)) as (f & (L1 & B1 & N1) & LE). exists f. split; [|assumption].
        split; [lia|]. split; [assumption|]. intros k K. destruct (Z.eq_dec k o) as [->|]; [assumption|].
        apply N1; lia. }
  apply (G (Z.to_nat (r - o))). lia.
Qed.
Lemma preceding_exists b o r : r <= o -> b r = true -> exists f, preceding b o f /\ r <= f.
Proof.
  intros L B.
  assert (G : forall n o, o = r + Z.of_nat n -> exists f, preceding b o f /\ r <= f).
  { clear o L. induction n; intros o E.
    - exists o. split; [|lia]. split; [lia|]. replace o with r by lia. split; [assumption|]. intros; lia.
    - destruct (b o) eqn:BO.
      + exists o. split; [|lia]. split; [lia|]. split; [assumption|]. intros; lia.
      + destruct (IHn (o - 1) ltac:(lia)) as (f & (L1 & B1 & N1) & LE). exists f. split; [|assumption].
        split; [lia|]. split; [assumption|]. intros k K. destruct (Z.eq_dec k o) as [->|]; [assumption|].
        apply N1; lia. }
  apply (G (Z.to_nat (o - r))). lia.
Qed.

(** Lists *)
Lemma zrange_S lo n : zrange lo (S n) = lo :: zrange (lo + 1) n.
Proof.
  unfold zrange. cbn [seq map]. f_equal; [lia|]. rewrite <- seq_shift, map_map. apply map_ext. intros; lia.
Qed.
Lemma zrange_length lo n : length (zrange lo n) = n.
Proof. unfold zrange. rewrite map_length, seq_length. reflexivity. Qed.
Lemma zrange_app lo n k : zrange lo (n + k) = zrange lo n ++ zrange (lo + Z.of_nat n) k.
Proof.
  unfold zrange. rewrite seq_app, map_app. f_equal. cbn [Nat.add].
  replace (seq n k) with (map (fun i => i + n)%nat (seq 0 k)).
  - rewrite map_map. apply map_ext. intros; lia.
  - clear. revert n. induction k; intros n; [reflexivity|]. cbn [seq map]. f_equal.
    rewrite <- seq_shift, map_map, <- (IHk (S n)). apply map_ext. intros; lia.
Qed.
Lemma in_zrange x lo n : In x (zrange lo n) <-> lo <= x < lo + Z.of_nat n.
Proof.
  unfold zrange. rewrite in_map_iff. split.
  - intros (i & <- & H). apply in_seq in H. lia.
  - intros H. exists (Z.to_nat (x - lo)). split; [lia|]. apply in_seq. lia.
Qed.
Lemma nth_error_zrange lo n i : (i < n)%nat -> nth_error (zrange lo n) i = Some (lo + Z.of_nat i).
Proof.
  revert lo i. induction n; intros lo i H; [lia|]. rewrite zrange_S. destruct i; cbn [nth_error]; [f_equal; lia|].
  rewrite IHn by lia. f_equal. lia.
Qed.

Lemma gather_map_zrange {A} (f : Z -> A) lo n i :
  0 <= i < Z.of_nat n -> gather (map f (zrange lo n)) i = Some (f (lo + i)).
Proof.
  intros H. unfold gather. replace (i <? 0) with false by lia.
  rewrite (map_nth_error f (Z.to_nat i) (zrange lo n) (d := lo + i)); [reflexivity|].
  rewrite nth_error_zrange by lia. f_equal. lia.
Qed.
Lemma gather_out {A} (l : list A) i : Z.of_nat (length l) <= i \/ i < 0 -> gather l i = None.
Proof.
  intros H. unfold gather. destruct (i <? 0) eqn:E; [reflexivity|]. apply nth_error_None. lia.
Qed.
Lemma gather_some {A} (l : list A) i x : gather l i = Some x -> 0 <= i < Z.of_nat (length l) /\ nth_error l (Z.to_nat i) = Some x.
Proof.
  unfold gather. destruct (i <? 0) eqn:E; [discriminate|]. intros H.
  assert (Z.to_nat i < length l)%nat by (apply nth_error_Some; congruence). split; [lia|assumption].
Qed.

Lemma map_opt_some {A B} (f : A -> option B) (g : A -> B) l :
  (forall x, In x l -> f x = Some (g x)) -> map_opt f l = Some (map g l).
Proof.
  induction l; intros H; [reflexivity|]. cbn [map_opt map]. rewrite H by (left; reflexivity).
  rewrite IHl; [reflexivity|]. intros; apply H; right; assumption.
Qed.
Lemma map_opt_inv {A B} (f : A -> option B) l : forall l', map_opt f l = Some l' ->
  length l' = length l /\ forall i x, nth_error l i = Some x -> exists y, nth_error l' i = Some y /\ f x = Some y.
Proof.
  induction l; intros l' H; cbn [map_opt] in H.
  - injection H as <-. split; [reflexivity|]. intros [|i] x E; discriminate E.
  - destruct (f a) eqn:FA; [|discriminate]. destruct (map_opt f l) eqn:M; [|discriminate].
    injection H as <-. destruct (IHl _ eq_refl) as [L N]. split; [cbn; lia|].
    intros [|i] x E; cbn in *; [injection E as ->; eexists; split; [reflexivity|assumption]|]. apply N; assumption.
Qed.

Lemma cumsum_zrange b n : forall acc lo,
  cumsum_excl_from acc (map (bz b) (zrange lo n)) = map (fun o => acc + busdays b lo o) (zrange lo n).
Proof.
  induction n; intros acc lo; [reflexivity|]. rewrite zrange_S. cbn [map cumsum_excl_from].
  rewrite busdays_empty by lia. f_equal; [lia|]. rewrite IHn. apply map_ext_in. intros o H.
  apply in_zrange in H. rewrite (busdays_first b lo o) by lia. lia.
Qed.

Lemma where_zrange b n : forall i lo,
  map (fun j => j + (lo - i)) (where_from i (map (bz b) (zrange lo n))) = filter b (zrange lo n).
Proof.
  induction n; intros i lo; [reflexivity|]. rewrite zrange_S. cbn [map where_from filter].
  unfold bz at 1. destruct (b lo).
  - cbn [map Z.eqb]. f_equal; [lia|]. rewrite <- (IHn (i + 1) (lo + 1)). apply map_ext. intros; lia.
  - cbn [map Z.eqb]. rewrite <- (IHn (i + 1) (lo + 1)). apply map_ext. intros; lia.
Qed.

Lemma gather_filter_zrange b n : forall lo k r,
  gather (filter b (zrange lo n)) k = Some r <->
  lo <= r < lo + Z.of_nat n /\ b r = true /\ busdays b lo r = k.
Proof.
  induction n; intros lo k r.
  - cbn. split; [|lia]. unfold gather. destruct (k <? 0); [discriminate|]. destruct (Z.to_nat k); discriminate.
  - rewrite zrange_S. cbn [filter]. destruct (b lo) eqn:B.
    + split.
      * intros H. destruct (Z.eq_dec k 0) as [->|K].
        -- injection H as <-. split; [lia|]. split; [assumption|]. apply busdays_empty; lia.
        -- assert (G : gather (filter b (zrange (lo + 1) n)) (k - 1) = Some r).
           { apply gather_some in H as [K2 H]. unfold gather. replace (k - 1 <? 0) with false by lia.
             replace (Z.to_nat k) with (S (Z.to_nat (k - 1))) in H by lia. exact H. }
           apply IHn in G as (G1 & G2 & G3). split; [lia|]. split; [assumption|].
           rewrite busdays_first by lia. unfold bz. rewrite B. lia.
      * intros (H1 & H2 & H3). destruct (Z.eq_dec r lo) as [->|Hr].
        -- rewrite busdays_empty in H3 by lia. subst k. reflexivity.
        -- rewrite busdays_first in H3 by lia. unfold bz in H3. rewrite B in H3.
           pose proof (busdays_nonneg b (lo + 1) r).
           assert (G : gather (filter b (zrange (lo + 1) n)) (k - 1) = Some r) by (apply IHn; repeat split; try assumption; lia).
           apply gather_some in G as [G1 G2]. unfold gather. replace (k <? 0) with false by lia.
           replace (Z.to_nat k) with (S (Z.to_nat (k - 1))) by lia. exact G2.
    + rewrite IHn. split.
      * intros (H1 & H2 & H3). split; [lia|]. split; [assumption|]. rewrite busdays_first by lia. unfold bz. rewrite B. lia.
      * intros (H1 & H2 & H3). assert (r <> lo) by congruence. split; [lia|]. split; [assumption|].
        rewrite busdays_first in H3 by lia. unfold bz in H3. rewrite B in H3. lia.
Qed.

(** Calendar months of ordinals *)
Definition mi (o : Z) : Z := let '(y, m, _) := nth_day (Z.to_nat (o - 1)) in 12 * y + (m - 1).

Lemma mi_step o : 1 <= o -> mi o <= mi (o + 1) <= mi o + 1.
Proof.
  intros H. unfold mi. replace (Z.to_nat (o + 1 - 1)) with (S (Z.to_nat (o - 1))) by lia.
  cbn [nth_day]. pose proof (valid_nth_day (Z.to_nat (o - 1))) as V.
  destruct (nth_day (Z.to_nat (o - 1))) as [[y m] d]. destruct V as (V1 & V2 & V3). unfold next_day. 
  destruct (d <? month_length y m); [lia|]. destruct (m <? 12) eqn:E; lia.
Qed.
Lemma mi_mono o1 o2 : 1 <= o1 -> o1 <= o2 -> mi o1 <= mi o2.
Proof.
  intros H L. replace o2 with (o1 + Z.of_nat (Z.to_nat (o2 - o1))) by lia.
  generalize (Z.to_nat (o2 - o1)). induction n; [replace (o1 + Z.of_nat 0) with o1 by lia; lia|].
  pose proof (mi_step (o1 + Z.of_nat n) ltac:(lia)).
  replace (o1 + Z.of_nat (S n)) with (o1 + Z.of_nat n + 1) by lia. lia.
Qed.
Lemma mi_ivt o f k : 1 <= o -> o <= f -> mi o <= k <= mi f -> exists x, o <= x <= f /\ mi x = k.
Proof.
  intros H L K. revert K. replace f with (o + Z.of_nat (Z.to_nat (f - o))) by lia.
  generalize (Z.to_nat (f - o)). induction n; intros K.
  - exists o. split; [lia|]. replace (o + Z.of_nat 0) with o in K by lia. lia.
  - pose proof (mi_step (o + Z.of_nat n) ltac:(lia)).
    replace (o + Z.of_nat (S n)) with (o + Z.of_nat n + 1) in * by lia.
    destruct (Z_le_gt_dec k (mi (o + Z.of_nat n))) as [|G].
    + destruct IHn as (x & Hx & E); [lia|]. exists x. split; [lia|assumption].
    + exists (o + Z.of_nat n + 1). split; lia.
Qed.
Lemma mi_month o : month_of o = mi o mod 12 + 1.
Proof.
  unfold month_of, mi. pose proof (valid_nth_day (Z.to_nat (o - 1))) as V.
  destruct (nth_day (Z.to_nat (o - 1))) as [[y m] d]. destruct V as (_ & V & _). cbn [fst snd].
  replace (12 * y + (m - 1)) with (m - 1 + y * 12) by lia. rewrite Z.mod_add by lia. rewrite Z.mod_small by lia. lia.
Qed.
Lemma mi_year_month o1 o2 : year_month_of o1 = year_month_of o2 <-> mi o1 = mi o2.
Proof.
  unfold year_month_of, mi.
  pose proof (valid_nth_day (Z.to_nat (o1 - 1))) as V1. pose proof (valid_nth_day (Z.to_nat (o2 - 1))) as V2.
  destruct (nth_day (Z.to_nat (o1 - 1))) as [[y1 m1] d1], (nth_day (Z.to_nat (o2 - 1))) as [[y2 m2] d2].
  destruct V1 as (_ & V1 & _), V2 as (_ & V2 & _). cbn [fst]. split.
  - intros E. injection E as -> ->. reflexivity.
  - intros E. assert (y1 = y2) by lia. subst. f_equal. lia.
Qed.

(** If the next business day is past the end of a month and the month after [o]
    has a business day, its month number differs. *)
Lemma next_month_number b o f : 1 <= o -> following b o f ->
  (forall x, o <= x <= f -> mi x = mi o + 1 -> exists k, b k = true /\ 1 <= k /\ mi k = mi o + 1) ->
  (month_of f = month_of o <-> mi f = mi o).
Proof.
  intros H (L & B & N) D. rewrite !mi_month. split; [|intros ->; reflexivity].
  intros E. pose proof (mi_mono o f H L) as M.
  destruct (Z_le_gt_dec (mi f) (mi o + 1)) as [G|G].
  - pose proof (Z.div_mod (mi f) 12 ltac:(lia)). pose proof (Z.div_mod (mi o) 12 ltac:(lia)). lia.
  - destruct (mi_ivt o f (mi o + 1) H L ltac:(lia)) as (x & Hx & Ex).
    destruct (D x Hx Ex) as (k & Bk & K1 & Ek).
    assert (o <= k < f).
    { split.
      - destruct (Z_le_gt_dec o k); [assumption|]. pose proof (mi_mono k o K1 ltac:(lia)). lia.
      - destruct (Z_lt_le_dec k f); [assumption|]. pose proof (mi_mono f k ltac:(lia) ltac:(lia)). lia. }
    rewrite (N k) in Bk by lia. discriminate.
Qed.
Lemma prev_month_number b o p : 1 <= p -> preceding b o p ->
  (forall x, p <= x <= o -> mi x = mi o - 1 -> exists k, b k = true /\ 1 <= k /\ mi k = mi o - 1) ->
  (month_of p = month_of o <-> mi p = mi o).
Proof.
  intros H (L & B & N) D. rewrite !mi_month. split; [|intros ->; reflexivity].
  intros E. pose proof (mi_mono p o H L) as M.
  destruct (Z_le_gt_dec (mi o - 1) (mi p)) as [G|G].
  - pose proof (Z.div_mod (mi p) 12 ltac:(lia)). pose proof (Z.div_mod (mi o) 12 ltac:(lia)). lia.
  - destruct (mi_ivt p o (mi o - 1) H L ltac:(lia)) as (x & Hx & Ex).
    destruct (D x Hx Ex) as (k & Bk & K1 & Ek).
    assert (p < k <= o).
    { split.
      - destruct (Z_lt_le_dec p k); [assumption|]. pose proof (mi_mono k p K1 ltac:(lia)). lia.
      - destruct (Z_le_gt_dec k o); [assumption|]. pose proof (mi_mono o k ltac:(lia) ltac:(lia)). lia. }
    rewrite (N k) in Bk by lia. discriminate.
Qed.
