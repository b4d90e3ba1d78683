(** Lemmas for C72. *)
From Coq Require Import Reals QArith Qreals ZArith List Bool Lia Lra ZifyBool Sorted.
From Verif Require Import TensorModel InterpModel IntegrateModel SegmentModel DateModel DateSpec DateRepr DateProofs DateProofs2 DayCountModel CalSpec CalSetup BoundedCalModel
  ScheduleModel ScheduleSpec ScheduleProofs ScheduleProofs2 ScheduleProofs3 PropsSchedule RatesModel InstrumentModel InstrumentSpec.
Import ListNotations.
Open Scope R_scope.

(** ** Lists *)
Lemma map2_length {A B C} (f : A -> B -> C) a b : length a = length b -> length (map2 f a b) = length a.
Proof. intros H. unfold map2. rewrite map_length, combine_length. lia. Qed.
Lemma map2_app {A B C} (f : A -> B -> C) a b a' b' : length a = length b -> map2 f (a ++ a') (b ++ b') = map2 f a b ++ map2 f a' b'.
Proof.
  unfold map2. revert b. induction a as [|x a IH]; intros [|y b] H; cbn in H; try discriminate; [reflexivity|].
  cbn. rewrite IH by lia. reflexivity.
Qed.
Lemma map2_same {A B C D} (f : B -> C -> D) (g : A -> B) (h : A -> C) ds : map2 f (map g ds) (map h ds) = map (fun x => f (g x) (h x)) ds.
Proof. induction ds as [|x ds IH]; [reflexivity|]. unfold map2 in *. cbn. rewrite IH. reflexivity. Qed.
Lemma flat2 {A B C D} (f : B -> C -> D) (g : A -> list B) (h : A -> list C) ds : (forall x, In x ds -> length (g x) = length (h x)) ->
  map2 f (flat_map g ds) (flat_map h ds) = flat_map (fun x => map2 f (g x) (h x)) ds.
Proof.
  induction ds as [|x ds IH]; intros H; [reflexivity|]. cbn [flat_map]. rewrite map2_app by (apply H; left; reflexivity).
  rewrite IH by (intros; apply H; right; assumption). reflexivity.
Qed.
Lemma flat_combine {A B C} (g : A -> list B) (h : A -> list C) ds : (forall x, In x ds -> length (g x) = length (h x)) ->
  combine (flat_map g ds) (flat_map h ds) = flat_map (fun x => combine (g x) (h x)) ds.
Proof.
  intros H. pose proof (flat2 pair g h ds H) as F. unfold map2 in F.
  assert (I : forall X Y (l : list (X * Y)), map (fun '(x, y) => (x, y)) l = l). { intros X Y l. induction l as [|[? ?] l IH]; [reflexivity|]. cbn. rewrite IH. reflexivity. }
  rewrite I in F. rewrite F. apply flat_map_ext. intros x. apply I.
Qed.
Lemma flat_of_map {A B C} (f : B -> C) (g : A -> list B) ds : map f (flat_map g ds) = flat_map (fun x => map f (g x)) ds.
Proof. induction ds as [|x ds IH]; [reflexivity|]. cbn. rewrite map_app, IH. reflexivity. Qed.
Lemma concat_of_map {A B} (g : A -> list B) ds : concat (map g ds) = flat_map g ds.
Proof. symmetry. apply flat_map_concat_map. Qed.
Lemma repeat_of_map {A B} (g : A -> B) ds n : tf_repeat (map g ds) n = flat_map (fun x => repeat (g x) n) ds.
Proof. unfold tf_repeat. induction ds as [|x ds IH]; [reflexivity|]. cbn. rewrite IH. reflexivity. Qed.
Lemma rows_flat {A B} (g : A -> list B) n ds : (forall x, In x ds -> length (g x) = n) -> rows_of (length ds) n (flat_map g ds) = map g ds.
Proof.
  induction ds as [|x ds IH]; intros H; [reflexivity|]. cbn [length rows_of flat_map map].
  pose proof (H x (or_introl eq_refl)) as L. rewrite firstn_app, skipn_app, L, Nat.sub_diag, firstn_all2, skipn_all2 by lia. cbn [firstn skipn app]. rewrite app_nil_r.
  rewrite IH by (intros; apply H; right; assumption). reflexivity.
Qed.
Lemma tl_length {A} (l : list A) : length (tl l) = (length l - 1)%nat.
Proof. destruct l; cbn; lia. Qed.
Lemma removelast_length {A} (l : list A) : length (removelast l) = (length l - 1)%nat.
Proof. induction l as [|a [|b l] IH]; [reflexivity|reflexivity|]. change (removelast (a :: b :: l)) with (a :: removelast (b :: l)). cbn [length] in *. rewrite IH. lia. Qed.
Lemma combine_map_fst {A B} (a : list A) (b : list B) : length a = length b -> map fst (combine a b) = a.
Proof. revert b. induction a as [|x a IH]; intros [|y b] H; cbn in H; try discriminate; [reflexivity|]. cbn. rewrite IH by lia. reflexivity. Qed.
Lemma combine_map_snd {A B} (a : list A) (b : list B) : length a = length b -> map snd (combine a b) = b.
Proof. revert b. induction a as [|x a IH]; intros [|y b] H; cbn in H; try discriminate; [reflexivity|]. cbn. rewrite IH by lia. reflexivity. Qed.
Lemma forall2_combine {A B} (P : A -> B -> Prop) a b : Forall2 P a b -> forall x, In x (combine a b) -> P (fst x) (snd x).
Proof. induction 1 as [|x y a b H F IH]; intros z I; [destruct I|]. cbn in I. destruct I as [<-|I]; [exact H|apply IH; exact I]. Qed.
Lemma forall2_len' {A B} (P : A -> B -> Prop) a b : Forall2 P a b -> length a = length b.
Proof. induction 1; cbn; lia. Qed.
Lemma reduce_app a b : reduce_sum (a ++ b) = reduce_sum a + reduce_sum b.
Proof. induction a as [|x a IH]; unfold reduce_sum in *; cbn; [ring|]. rewrite IH. ring. Qed.

(** ** Segment sums *)
Lemma sorted_repeat i n r : sorted_ids r = true -> (forall j, In j r -> (i <= j)%nat) -> sorted_ids (repeat i n ++ r) = true.
Proof.
  intros S H. induction n as [|n IH]; [exact S|]. cbn [repeat app sorted_ids].
  destruct (repeat i n ++ r) as [|b t] eqn:E; [reflexivity|]. rewrite IH, andb_true_r. apply Nat.leb_le.
  assert (I : In b (repeat i n ++ r)) by (rewrite E; left; reflexivity). apply in_app_or in I as [I|I]; [apply repeat_spec in I; lia|apply H; exact I].
Qed.
Lemma ids_ge a b n j : In j (tf_repeat (seq a b) n) -> (a <= j < a + b)%nat.
Proof. unfold tf_repeat. intros I. apply in_flat_map in I as (i & I & J). apply repeat_spec in J. apply in_seq in I. lia. Qed.
Lemma ids_sorted a b n : sorted_ids (tf_repeat (seq a b) n) = true.
Proof.
  revert a. induction b as [|b IH]; intros a; [reflexivity|]. unfold tf_repeat. cbn [seq flat_map]. apply sorted_repeat; [apply IH|].
  intros j J. apply (ids_ge (S a) b n) in J. lia.
Qed.
Lemma ids_last a b n : (0 < n)%nat -> (0 < b)%nat -> last (tf_repeat (seq a b) n) 0%nat = (a + b - 1)%nat.
Proof.
  intros N. revert a. induction b as [|b IH]; intros a B; [lia|]. unfold tf_repeat in *. cbn [seq flat_map]. destruct b as [|b].
  - cbn [seq flat_map]. rewrite app_nil_r. destruct n as [|n]; [lia|]. clear. replace (a + 1 - 1)%nat with a by lia.
    induction n as [|n IH]; [reflexivity|]. exact IH.
  - assert (NE : flat_map (fun x => repeat x n) (seq (S a) (S b)) <> []). { cbn [seq flat_map]. destruct n; [lia|]. discriminate. }
    destruct (flat_map (fun x => repeat x n) (seq (S a) (S b))) as [|x r] eqn:E; [contradiction|].
    assert (LA : forall (l : list nat) y r', last (l ++ y :: r') 0%nat = last (y :: r') 0%nat).
    { intros l y r'. induction l as [|z l IHl]; [reflexivity|]. cbn [app]. destruct (l ++ y :: r') eqn:Z; [destruct l; discriminate|]. cbn [last]. exact IHl. }
    rewrite LA, <- E, IH by lia. lia.
Qed.
Lemma filter_none {A} (f : A -> bool) l : (forall x, In x l -> f x = false) -> filter f l = [].
Proof. induction l as [|x l IH]; intros H; [reflexivity|]. cbn. rewrite H by (left; reflexivity). apply IH. intros; apply H; right; assumption. Qed.
Lemma filter_all {A} (f : A -> bool) l : (forall x, In x l -> f x = true) -> filter f l = l.
Proof. induction l as [|x l IH]; intros H; [reflexivity|]. cbn. rewrite H by (left; reflexivity). f_equal. apply IH. intros; apply H; right; assumption. Qed.
Lemma segment_rows {A} (g : A -> list R) n ds : (0 < n)%nat -> (forall x, In x ds -> length (g x) = n) ->
  segment_sum (flat_map g ds) (tf_repeat (seq 0 (length ds)) n) = Some (map (fun x => reduce_sum (g x)) ds).
Proof.
  intros N H. unfold segment_sum. rewrite ids_sorted. f_equal. destruct ds as [|x0 ds0] eqn:ED; [reflexivity|]. rewrite <- ED in *.
  assert (B : (0 < length ds)%nat) by (rewrite ED; cbn; lia).
  replace (match tf_repeat (seq 0 (length ds)) n with [] => 0%nat | _ :: _ => S (last (tf_repeat (seq 0 (length ds)) n) 0%nat) end) with (length ds).
  2:{ rewrite ids_last by assumption. destruct (tf_repeat (seq 0 (length ds)) n) eqn:E; [|lia].
      exfalso. pose proof (ids_last 0 (length ds) n N B) as L. rewrite ED in E. unfold tf_repeat in E. cbn [length seq flat_map] in E. destruct n; [lia|]. discriminate. }
  clear B ED x0 ds0. generalize 0%nat as a. induction ds as [|x ds IH]; intros a; [reflexivity|].
  cbn [length seq map]. unfold tf_repeat. cbn [flat_map]. fold (tf_repeat (seq (S a) (length ds)) n).
  assert (CA : combine (g x ++ flat_map g ds) (repeat a n ++ tf_repeat (seq (S a) (length ds)) n) = combine (g x) (repeat a n) ++ combine (flat_map g ds) (tf_repeat (seq (S a) (length ds)) n)).
  { pose proof (H x (or_introl eq_refl)) as L. clear - L. generalize (tf_repeat (seq (S a) (length ds)) n) as t, (flat_map g ds) as u. intros t u. revert L. generalize (g x) as l, n as m. induction l as [|y l IHl]; intros [|m] L; cbn in L; try discriminate; [reflexivity|]. cbn. f_equal. apply IHl. lia. }
  rewrite CA. f_equal.
  - rewrite filter_app, filter_all, filter_none.
    + rewrite app_nil_r, combine_map_fst by (rewrite repeat_length; apply H; left; reflexivity). reflexivity.
    + intros [v i] I. apply in_combine_r in I. apply ids_ge in I. cbn. apply Nat.eqb_neq. lia.
    + intros [v i] I. apply in_combine_r, repeat_spec in I. cbn. apply Nat.eqb_eq. exact I.
  - specialize (IH (fun y Y => H y (or_intror Y)) (S a)). rewrite <- IH. apply map_ext_in. intros i I. apply in_seq in I. f_equal. f_equal.
    rewrite filter_app, filter_none; [reflexivity|]. intros [v j] J. apply in_combine_r, repeat_spec in J. subst j. cbn. apply Nat.eqb_neq. lia.
Qed.

(** ** Periods *)
Lemma periods_ext f g l : (forall a b, In a l -> In b l -> f a b = g a b) -> over_periods f l = over_periods g l.
Proof.
  induction l as [|a [|b l] IH]; intros H; try reflexivity. change (f a b + over_periods f (b :: l) = g a b + over_periods g (b :: l)).
  rewrite H by (cbn; tauto). rewrite IH; [reflexivity|]. intros; apply H; right; assumption.
Qed.
Lemma periods_scal a f l : over_periods (fun s e => a * f s e) l = a * over_periods f l.
Proof.
  induction l as [|x [|y l] IH]; try (cbn; ring). change (a * f x y + over_periods (fun s e => a * f s e) (y :: l) = a * (f x y + over_periods f (y :: l))). rewrite IH. ring.
Qed.
Lemma periods_sorted (R0 : date -> date -> Prop) f g l : StronglySorted R0 l -> (forall a b, In a l -> In b l -> R0 a b -> f a b = g a b) -> over_periods f l = over_periods g l.
Proof.
  induction 1 as [|a l S IH F]; intros H; [reflexivity|]. destruct l as [|b l]; [reflexivity|].
  change (f a b + over_periods f (b :: l) = g a b + over_periods g (b :: l)). rewrite Forall_forall in F.
  rewrite (H a b) by (first [apply F; left; reflexivity|left; reflexivity|right; left; reflexivity]). rewrite IH; [reflexivity|]. intros; apply H; try (right; assumption); assumption.
Qed.
Lemma periods_cons f a l : over_periods f (a :: l) = match l with [] => 0 | b :: _ => f a b end + over_periods f l.
Proof. destruct l; [cbn; ring|reflexivity]. Qed.
Lemma periods_app f l a r : over_periods f (l ++ a :: r) = over_periods f (l ++ [a]) + over_periods f (a :: r).
Proof.
  induction l as [|x l IH]; [replace (over_periods f ([] ++ [a])) with 0 by reflexivity; cbn [app]; ring|]. cbn [app].
  rewrite (periods_cons f x (l ++ a :: r)), (periods_cons f x (l ++ [a])), IH. destruct l as [|y l]; cbn [app]; ring.
Qed.
Lemma periods_repeat f x n : f x x = 0 -> over_periods f (repeat x n) = 0.
Proof. intros H. induction n as [|[|n] IH]; [reflexivity|reflexivity|]. cbn [repeat] in *. rewrite periods_cons, IH, H. ring. Qed.
Lemma periods_padded_last f L l out : (forall x, In x l -> f x x = 0) -> padded_last L l out -> over_periods f out = over_periods f l /\ hd_error out = hd_error l.
Proof.
  intros Z (p & x & -> & ->). split.
  - rewrite <- app_assoc. cbn [app]. rewrite periods_app. change (x :: repeat x (L - length (p ++ [x]))) with (repeat x (S (L - length (p ++ [x])))).
    rewrite periods_repeat by (apply Z, in_or_app; right; left; reflexivity). ring.
  - destruct p; reflexivity.
Qed.
Lemma periods_padded_first f L l out : (forall x, In x l -> f x x = 0) -> padded_first L l out -> over_periods f out = over_periods f l /\ (forall d, last out d = last l d).
Proof.
  intros Z (x & q & -> & ->). split.
  - rewrite periods_app. replace (repeat x (L - length (x :: q)) ++ [x]) with (repeat x (S (L - length (x :: q)))).
    + rewrite periods_repeat by (apply Z; left; reflexivity). ring.
    + replace (S (L - length (x :: q))) with (L - length (x :: q) + 1)%nat by lia. rewrite repeat_app. reflexivity.
  - intros d. generalize (L - length (x :: q))%nat as n. intros n. induction n as [|n IH]; [reflexivity|]. cbn [repeat app]. rewrite <- IH.
    destruct (repeat x n ++ x :: q) eqn:E; [destruct n; discriminate|]. reflexivity.
Qed.
Lemma padded_length_last L l out : padded_last L l out -> (length l <= L)%nat -> length out = L.
Proof. intros (p & x & -> & ->) H. rewrite (app_length (p ++ [x])), repeat_length. lia. Qed.
Lemma padded_length_first L l out : padded_first L l out -> (length l <= L)%nat -> length out = L.
Proof. intros (x & q & -> & ->) H. rewrite app_length, repeat_length. lia. Qed.

(** ** Day count fractions *)
Lemma fraction_same c d : is_date d -> daycount_fraction c d d = 0.
Proof.
  intros D. assert (Z0 : Q2R (inject_Z 0 / inject_Z 360) = 0) by (unfold Q2R; apply Rmult_0_l). assert (Z1 : Q2R (inject_Z 0 / inject_Z 365) = 0) by (unfold Q2R; apply Rmult_0_l).
  unfold daycount_fraction. destruct c.
  - unfold actual_360, days_until. rewrite Z.sub_diag. exact Z0.
  - unfold actual_365_fixed, days_until. rewrite Z.sub_diag. exact Z1.
  - unfold thirty_360_isda. destruct D as ([[y m] dd] & (V & E & _)). injection E as -> -> ->. unfold valid in V.
    pose proof (month_length_bounds y m).
    replace ((if (Z.min dd 30 =? 30)%Z && (dd =? 31)%Z then 30%Z else dd) - Z.min dd 30 + (m - m) * 30 + (y - y) * 360)%Z with 0%Z; [exact Z0|].
    destruct ((Z.min dd 30 =? 30)%Z && (dd =? 31)%Z) eqn:C; lia.
Qed.

Lemma q2r_nonneg a b : (0 <= a)%Z -> 0 <= Q2R (inject_Z a / inject_Z (Z.pos b)).
Proof.
  intros H. rewrite <- (Rmult_0_l 0). replace (0 * 0) with (Q2R 0) by (unfold Q2R; cbn; ring). apply Qle_Rle.
  apply Qle_shift_div_l; [reflexivity|]. rewrite Qmult_0_l. change 0%Q with (inject_Z 0). rewrite <- Zle_Qle. exact H.
Qed.
Lemma fraction_nonneg c s e : is_date s -> is_date e -> (ordinal s <= ordinal e)%Z -> 0 <= daycount_fraction c s e.
Proof.
  intros DS DE H. unfold daycount_fraction. destruct c; [apply q2r_nonneg; unfold days_until; lia|apply q2r_nonneg; unfold days_until; lia|].
  apply q2r_nonneg. destruct DS as ([[y m] d] & RS), DE as ([[y' m'] d'] & RE). apply repr_iff in RS as (V & E & O), RE as (V' & E' & O').
  assert (L : ymd_lt (y', m', d') (y, m, d) -> False).
  { intros L. apply (ord_mono (y', m', d') (y, m, d)) in L; [|exact V'|exact V]. rewrite <- O, <- O' in L. lia. }
  injection E as -> -> ->. injection E' as -> -> ->. pose proof (month_length_bounds y m). pose proof (month_length_bounds y' m'). cbn in V, V'.
  unfold ymd_lt in L.
  assert (C : (y < y' \/ y = y' /\ m < m' \/ y = y' /\ m = m' /\ d <= d')%Z) by lia.
  destruct ((Z.min d 30 =? 30)%Z && (d' =? 31)%Z) eqn:B; lia.
Qed.
