From Coq Require Import ZArith List Bool Lia ZifyBool Sorted.
From Verif Require Import DateModel DateSpec DateRepr DateProofs DateProofs2 PropsDateAux CalSpec BoundedCalModel UnboundedCalModel CalSetup CalProofs CalModified BoundedCalProofs BoundedCalProofs2 UnboundedCalProofs UnboundedCalProofs2.
Import ListNotations.
Open Scope Z_scope.

Lemma is_date_iff x : is_date x <-> 1 <= ordinal x /\ x = from_ordinal_unchecked (ordinal x).
Proof.
  split.
  - intros (c & R). destruct (repr_nth _ _ R) as (H & E). split; [assumption|].
    destruct (from_ordinal_unchecked_repr (ordinal x) H) as (_ & R'). rewrite <- E in R'. eapply repr_inj; eassumption.
  - intros (H & E). destruct (from_ordinal_unchecked_repr (ordinal x) H) as (_ & R'). rewrite <- E in R'. eexists; eassumption.
Qed.
Lemma is_date_inj x y : is_date x -> is_date y -> ordinal x = ordinal y -> x = y.
Proof. intros (_ & A)%is_date_iff (_ & B)%is_date_iff E. rewrite A, B, E. reflexivity. Qed.
Lemma is_date_from o : 1 <= o -> is_date (from_ordinal_unchecked o) /\ ordinal (from_ordinal_unchecked o) = o.
Proof. intros H. destruct (from_ordinal_unchecked_repr o H) as (O & R). split; [eexists; eassumption|assumption]. Qed.
Lemma is_date_month x : is_date x -> month x = month_of (ordinal x).
Proof. intros (H & E)%is_date_iff. rewrite E at 1. apply month_of_ordinal. assumption. Qed.

Lemma years_unique c ys ye ys' ye' : cal_years c ys ye -> cal_years c ys' ye' -> ys = ys' /\ ye = ye'.
Proof.
  intros ((_ & A) & (_ & B)) ((_ & A') & (_ & B')). rewrite A in A'. rewrite B in B'. injection A'. injection B'. lia.
Qed.

Lemma fold_min_in l : forall a, fold_left Z.min l a = a \/ In (fold_left Z.min l a) l.
Proof.
  induction l; intros a0; cbn [fold_left]; [left; reflexivity|].
  destruct (IHl (Z.min a0 a)) as [E|E]; [|right; right; assumption].
  rewrite E. destruct (Z.min_spec a0 a) as [[_ ->]|[_ ->]]; [left|right; left]; reflexivity.
Qed.
Lemma fold_max_in l : forall a, fold_left Z.max l a = a \/ In (fold_left Z.max l a) l.
Proof.
  induction l; intros a0; cbn [fold_left]; [left; reflexivity|].
  destruct (IHl (Z.max a0 a)) as [E|E]; [|right; right; assumption].
  rewrite E. destruct (Z.max_spec a0 a) as [[_ ->]|[_ ->]]; [right; left|left]; reflexivity.
Qed.

Lemma nodup_ordinals l : Forall is_date l -> NoDup l -> NoDup (map ordinal l).
Proof.
  induction 2 as [|x l N ND IH]; cbn [map]; constructor.
  - inversion H; subst. intros I. apply in_map_iff in I as (y & E & I). apply N.
    rewrite Forall_forall in H3. rewrite <- (is_date_inj y x); auto.
  - inversion H; auto.
Qed.

Lemma bounded_ok mask l ys ye c : bounded_calendar mask l ys ye c ->
  bcal_ok mask (map ordinal l) c /\ cal_years c ys ye.
Proof.
  intros [l0 s e c0 ys0 ye0 L FD ND YB (x1 & I1 & E1) (x2 & I2 & E2) M|ho ys0 ye0 c0 L HO YY M].
  - pose proof (nodup_ordinals l0 FD ND) as ND'.
    destruct l0 as [|h r]; [destruct I1|].
    destruct (make_bcal_ok mask (Some (h :: r)) s e c0 L FD ND' I M) as (OK & _). split; [assumption|].
    unfold make_bcal, resolve_boundaries in M. cbn [bind] in M.
    set (mn := fold_left Z.min (map year r) (year h)) in M. set (mx := fold_left Z.max (map year r) (year h)) in M.
    destruct (from_ymd mn 1 1) as [ds|] eqn:D1; [|discriminate]. destruct (from_ymd (mx + 1) 1 1) as [de|] eqn:D2; [|discriminate].
    cbn [bind] in M. injection M as <-. unfold cal_years. cbn [boffset bsize].
    replace (ordinal ds + (ordinal de - ordinal ds)) with (ordinal de) by lia.
    assert (Q1 : mn = ys0).
    { destruct (fold_min_le (map year r) (year h)) as [A B]. fold mn in A, B.
      assert (ys0 <= mn). { destruct (fold_min_in (map year r) (year h)) as [E|E]; fold mn in E.
        - rewrite E. apply YB. left; reflexivity.
        - apply in_map_iff in E as (y & <- & Iy). apply YB. right; assumption. }
      assert (mn <= ys0). { rewrite <- E1. destruct I1 as [->|I1]; [assumption|]. apply B, in_map; assumption. } lia. }
    assert (Q2 : mx = ye0).
    { destruct (fold_max_ge (map year r) (year h)) as [A B]. fold mx in A, B.
      assert (mx <= ye0). { destruct (fold_max_in (map year r) (year h)) as [E|E]; fold mx in E.
        - rewrite E. apply YB. left; reflexivity.
        - apply in_map_iff in E as (y & <- & Iy). apply YB. right; assumption. }
      assert (ye0 <= mx). { rewrite <- E2. destruct I2 as [->|I2]; [assumption|]. apply B, in_map; assumption. } lia. }
    rewrite <- Q1, <- Q2. split; apply from_ymd_is_nth; assumption.
  - assert (X : bcal_ok mask (map ordinal []) c0 /\ exists ys ye, cal_years c0 ys ye /\ Some ys0 = Some ys /\ Some ye0 = Some ye).
    { destruct HO as [-> | ->].
      - apply (make_bcal_ok mask None (Some ys0) (Some ye0) c0); try assumption; [constructor|constructor|cbn; lia].
      - apply (make_bcal_ok mask (Some []) (Some ys0) (Some ye0) c0); try assumption; [constructor|constructor|cbn; lia]. }
    destruct X as (OK & y1 & y2 & CY & Y1 & Y2). injection Y1 as <-. injection Y2 as <-. split; assumption.
Qed.

Lemma unbounded_ok mask l c : unbounded_calendar mask l c -> ucal_ok c mask (map ordinal l).
Proof.
  intros [|m L I|m l0 L I FD S H8].
  - apply ok_plain; reflexivity.
  - apply ok_mask_only; try assumption; reflexivity.
  - apply ok_both; try assumption; try reflexivity.
    + clear - S. induction S; cbn [map]; constructor; [assumption|]. rewrite Forall_forall in *. intros y Iy.
      apply in_map_iff in Iy as (x & <- & Ix). apply H; assumption.
    + intros x Ix. apply in_map_iff in Ix as (y & <- & Iy). apply H8; assumption.
Qed.

Section B.
Variables (mask : list bool) (l : list date) (ys ye : Z) (c : bcal).
Hypothesis BC : bounded_calendar mask l ys ye c.
Notation b := (bday mask l).
Let OK : bcal_ok mask (map ordinal l) c := proj1 (bounded_ok _ _ _ _ _ BC).
Let CY : cal_years c ys ye := proj2 (bounded_ok _ _ _ _ _ BC).
Notation off := (boffset c).
Notation sz := (bsize c).

Lemma in_years d : is_date d -> (ys <= year d <= ye <-> off <= ordinal d < off + sz).
Proof.
  intros ([[y m] dd] & R). pose proof R as (_ & E & _). injection E as E _ _. rewrite E.
  destruct CY as (A & B). apply (year_bounds d y m dd _ _ _ _ R A B).
Qed.
Lemma in_bounds_years d : is_date d -> ys <= year d <= ye -> in_bounds c (ordinal d) = true.
Proof. intros D Y. apply in_bounds_iff. apply (in_years d D). assumption. Qed.

Lemma off_ys : 2 <= ys -> 367 <= off + 1.
Proof.
  destruct CY as ((H & A) & _). intros Y.
  assert (V : is_nth off (ys, 1, 1)) by (split; assumption).
  destruct (from_ordinal_unchecked_repr off H) as (O & R). rewrite A in R.
  destruct (from_ordinal_unchecked_repr 366 ltac:(lia)) as (O2 & R2).
  change (nth_day (Z.to_nat (366 - 1))) with (2, 1, 1) in R2.
  apply repr_iff in R as (V1 & _ & R). apply repr_iff in R2 as (V2 & _ & R2). rewrite O in R. rewrite O2 in R2.
  assert (366 <= off); [|lia]. rewrite R, R2. apply ymd_le_iff; [assumption|assumption|]. unfold ymd_le, ymd_lt.
  destruct (Z.eq_dec ys 2); [right; congruence|left; lia].
Qed.

Lemma date_in_range o : off <= o < off + sz -> 1 <= o.
Proof. destruct OK. lia. Qed.

Lemma modified_off1 d conv : off = 1 -> conv = MODIFIED_FOLLOWING \/ conv = MODIFIED_PRECEDING -> b_roll c d conv = None.
Proof.
  intros O [-> | ->]; unfold b_roll, rolled_dates_table; rewrite O;
  destruct (following_table c); cbn [bind]; [|reflexivity| |reflexivity];
  destruct (preceding_table c); cbn [bind]; [|reflexivity| |reflexivity];
  destruct (map_opt from_ordinal l0); cbn [bind]; [|reflexivity| |reflexivity];
  destruct (map_opt from_ordinal l1); cbn [bind]; [|reflexivity| |reflexivity];
  destruct OK; replace (Z.to_nat (sz + 2)) with (S (Z.to_nat (sz + 1))) by lia; rewrite zrange_S; reflexivity.
Qed.

(** A successful roll is a business day inside the bounds, from a day inside the bounds. *)
Lemma roll_sound d conv x : conv <> NONE -> b_roll c d conv = Some x ->
  off <= ordinal d < off + sz /\ off <= ordinal x < off + sz /\ b (ordinal x) = true /\ x = from_ordinal_unchecked (ordinal x).
Proof.
  intros NN H. destruct (Z.eq_dec off 1) as [O1|O1].
  - destruct conv; [congruence| | | |].
    + apply (roll_following_spec _ _ _ OK) in H as (A & B & (_ & C & _) & D). auto.
    + rewrite (modified_off1 d MODIFIED_FOLLOWING O1) in H by auto. discriminate.
    + apply (roll_preceding_spec _ _ _ OK) in H as (A & B & (_ & C & _) & D). auto.
    + rewrite (modified_off1 d MODIFIED_PRECEDING O1) in H by auto. discriminate.
  - assert (O2 : 2 <= off) by (destruct OK; lia). destruct conv; [congruence| | | |].
    + apply (roll_following_spec _ _ _ OK) in H as (A & B & (_ & C & _) & D). auto.
    + apply (roll_modfol_spec _ _ _ OK O2) in H as (A & B & C & f & p & F & P & E).
      split; [assumption|]. split; [assumption|]. split; [|assumption].
      unfold bday. rewrite <- (bx_in mask (map ordinal l) c) by assumption. rewrite E. destruct (month_of f =? _); [apply F|apply P].
    + apply (roll_preceding_spec _ _ _ OK) in H as (A & B & (_ & C & _) & D). auto.
    + apply (roll_modpre_spec _ _ _ OK O2) in H as (A & B & C & f & p & F & P & E).
      split; [assumption|]. split; [assumption|]. split; [|assumption].
      unfold bday. rewrite <- (bx_in mask (map ordinal l) c) by assumption. rewrite E. destruct (month_of p =? _); [apply P|apply F].
Qed.

Lemma add_conv d n conv : conv <> NONE ->
  b_add_business_days c d n conv = bind (b_roll c d conv) (fun d' => b_add_business_days c d' n NONE).
Proof.
  intros NN. destruct (add_conv_spec _ _ _ OK d n conv NN) as [E|(x & E & N)]; [assumption|].
  exfalso. apply N. destruct (roll_sound d conv x NN E) as (_ & A & B & _). split; assumption.
Qed.

(** density of business days inside the bounds *)
Definition dense : Prop := forall d, is_date d -> ys <= year d <= ye -> month_has_business_day b (ordinal d).
Lemma dense_ord : dense -> forall o, off <= o < off + sz -> exists k, off <= k < off + sz /\ b k = true /\ 1 <= k /\ mi k = mi o.
Proof.
  intros H o Ho. destruct (is_date_from o (date_in_range o Ho)) as (D & O).
  destruct (H (from_ordinal_unchecked o) D) as (k & K1 & K2 & K3).
  { apply in_years; [assumption|]. rewrite O. assumption. }
  rewrite O in K2. apply same_month_mi in K2. exists k. split; [|auto].
  apply (cal_month_closed c ys ye o k); assumption.
Qed.

Lemma fol_month d f : dense -> off <= ordinal d < off + sz -> following (bx mask (map ordinal l) c) (ordinal d) f -> f <= off + sz ->
  (month_of f = month_of (ordinal d) <-> mi f = mi (ordinal d)).
Proof.
  intros DN H F FE. apply (next_month_number (bx mask (map ordinal l) c)); [apply date_in_range; assumption|assumption|].
  intros x Hx Mx. destruct (Z.eq_dec x (off + sz)) as [E|E].
  - exists x. split; [rewrite E; apply bx_ends|]. destruct OK; split; [lia|assumption].
  - destruct (dense_ord DN x ltac:(lia)) as (k & K0 & K1 & K2 & K3). exists k. split; [|split; [assumption|lia]].
    rewrite bx_in by assumption. exact K1.
Qed.
Lemma pre_month d p : dense -> 2 <= off -> off <= ordinal d < off + sz -> preceding (bx mask (map ordinal l) c) (ordinal d) p -> off - 1 <= p ->
  (month_of p = month_of (ordinal d) <-> mi p = mi (ordinal d)).
Proof.
  intros DN O2 H F FE. apply (prev_month_number (bx mask (map ordinal l) c)); [lia|assumption|].
  intros x Hx Mx. destruct (Z.eq_dec x (off - 1)) as [E|E].
  - exists x. split; [rewrite E; apply bx_ends|]. split; [lia|assumption].
  - destruct (dense_ord DN x ltac:(lia)) as (k & K0 & K1 & K2 & K3). exists k. split; [|split; [assumption|lia]].
    rewrite bx_in by assumption. exact K1.
Qed.

Lemma roll_modfol d : dense -> 2 <= ys -> is_date d -> ys <= year d <= ye ->
  exists x, b_roll c d MODIFIED_FOLLOWING = Some x /\ is_date x /\ ys <= year x <= ye /\
            modified_following b (ordinal d) (ordinal x).
Proof.
  intros DN Y2 D Y. pose proof (off_ys Y2) as O2. apply (in_years d D) in Y.
  set (o := ordinal d) in *.
  assert (EX : ext c o) by (unfold ext; lia).
  destruct (fol_exists mask (map ordinal l) c o EX) as (f & Ef & F).
  destruct (pre_exists mask (map ordinal l) c o EX) as (p & Ep & P).
  unfold ext in Ef, Ep.
  pose proof (fol_month d f DN Y F ltac:(lia)) as FM.
  destruct (dense_ord DN o Y) as (k & K0 & Kb & K1 & Km).
  set (r := if month_of f =? month_of o then f else p).
  assert (RS : off <= r < off + sz /\ modified_following b o r).
  { unfold r. destruct (month_of f =? month_of o) eqn:E.
    - assert (Mf : mi f = mi o) by (apply FM; fold o; lia).
      assert (1 <= f) by (destruct F; lia).
      assert (off <= f < off + sz) by (apply (cal_month_closed c ys ye o f); assumption).
      split; [assumption|]. left. split; [|apply same_month_mi; assumption].
      apply (fol_bx_b mask (map ordinal l) c o f); [lia|assumption|assumption].
    - assert (Mf : mi f <> mi o) by (intros Q; apply FM in Q; fold o in Q; lia).
      assert (Ko : k < o).
      { destruct (Z_lt_le_dec k o); [assumption|]. exfalso. apply Mf.
        assert (f <= k). { destruct (Z_le_gt_dec f k); [assumption|]. destruct F as (F1 & F2 & F3).
          specialize (F3 k ltac:(lia)). rewrite bx_in in F3 by assumption. unfold bday in Kb. congruence. }
        destruct F as (F1 & _). apply (mi_between o f k); [lia|lia|assumption|assumption]. }
      assert (Kp : k <= p).
      { destruct (Z_le_gt_dec k p); [assumption|]. destruct P as (F1 & F2 & F3).
        specialize (F3 k ltac:(lia)). rewrite bx_in in F3 by assumption. unfold bday in Kb. congruence. }
      assert (p <= o) by apply P. split; [lia|]. right. split.
      + apply (pre_bx_b mask (map ordinal l) c o p); [lia|lia|assumption].
      + intros f' F' S. apply same_month_mi in S. apply Mf.
        assert (f <= f'). { destruct (Z_le_gt_dec f f'); [assumption|]. destruct F as (F1 & F2 & F3). destruct F' as (G1 & G2 & G3).
          specialize (F3 f' ltac:(lia)). rewrite bx_in in F3 by lia. unfold bday in G2. congruence. }
        destruct F as (F1 & _). apply (mi_between o f f'); [lia|lia|assumption|assumption]. }
  destruct RS as [R1 R2]. exists (from_ordinal_unchecked r).
  destruct (is_date_from r ltac:(lia)) as (DR & OR).
  split.
  - apply (roll_modfol_spec _ _ _ OK ltac:(lia)). rewrite OR. split; [assumption|]. split; [assumption|]. split; [reflexivity|].
    exists f, p. split; [assumption|]. split; [assumption|]. reflexivity.
  - split; [assumption|]. split; [apply in_years; [assumption|rewrite OR; assumption]|]. rewrite OR. assumption.
Qed.

Lemma roll_modpre d : dense -> 2 <= ys -> is_date d -> ys <= year d <= ye ->
  exists x, b_roll c d MODIFIED_PRECEDING = Some x /\ is_date x /\ ys <= year x <= ye /\
            modified_preceding b (ordinal d) (ordinal x).
Proof.
  intros DN Y2 D Y. pose proof (off_ys Y2) as O2. apply (in_years d D) in Y.
  set (o := ordinal d) in *.
  assert (EX : ext c o) by (unfold ext; lia).
  destruct (fol_exists mask (map ordinal l) c o EX) as (f & Ef & F).
  destruct (pre_exists mask (map ordinal l) c o EX) as (p & Ep & P).
  unfold ext in Ef, Ep.
  pose proof (pre_month d p DN ltac:(lia) Y P ltac:(lia)) as FM.
  destruct (dense_ord DN o Y) as (k & K0 & Kb & K1 & Km).
  set (r := if month_of p =? month_of o then p else f).
  assert (RS : off <= r < off + sz /\ modified_preceding b o r).
  { unfold r. destruct (month_of p =? month_of o) eqn:E.
    - assert (Mf : mi p = mi o) by (apply FM; fold o; lia).
      assert (off <= p < off + sz) by (apply (cal_month_closed c ys ye o p); [assumption|assumption|lia|assumption]).
      split; [assumption|]. left. split; [|apply same_month_mi; assumption].
      apply (pre_bx_b mask (map ordinal l) c o p); [lia|assumption|assumption].
    - assert (Mf : mi p <> mi o) by (intros Q; apply FM in Q; fold o in Q; lia).
      assert (Ko : o < k).
      { destruct (Z_lt_le_dec o k); [assumption|]. exfalso. apply Mf.
        assert (k <= p). { destruct (Z_le_gt_dec k p); [assumption|]. destruct P as (F1 & F2 & F3).
          specialize (F3 k ltac:(lia)). rewrite bx_in in F3 by assumption. unfold bday in Kb. congruence. }
        destruct P as (F1 & _). pose proof (mi_mono k p ltac:(lia) ltac:(lia)). pose proof (mi_mono p o ltac:(lia) ltac:(lia)). lia. }
      assert (Kp : f <= k).
      { destruct (Z_le_gt_dec f k); [assumption|]. destruct F as (F1 & F2 & F3).
        specialize (F3 k ltac:(lia)). rewrite bx_in in F3 by assumption. unfold bday in Kb. congruence. }
      assert (o <= f) by apply F. split; [lia|]. right. split.
      + apply (fol_bx_b mask (map ordinal l) c o f); [lia|lia|assumption].
      + intros p' P1 P' S. apply same_month_mi in S. apply Mf.
        assert (p' <= p). { destruct (Z_le_gt_dec p' p); [assumption|]. destruct P as (F1 & F2 & F3). destruct P' as (G1 & G2 & G3).
          specialize (F3 p' ltac:(lia)). rewrite bx_in in F3 by lia. unfold bday in G2. congruence. }
        destruct P as (F1 & _). pose proof (mi_mono p' p ltac:(lia) ltac:(lia)). pose proof (mi_mono p o ltac:(lia) ltac:(lia)). lia. }
  destruct RS as [R1 R2]. exists (from_ordinal_unchecked r).
  destruct (is_date_from r ltac:(lia)) as (DR & OR).
  split.
  - apply (roll_modpre_spec _ _ _ OK ltac:(lia)). rewrite OR. split; [assumption|]. split; [assumption|]. split; [reflexivity|].
    exists f, p. split; [assumption|]. split; [assumption|]. reflexivity.
  - split; [assumption|]. split; [apply in_years; [assumption|rewrite OR; assumption]|]. rewrite OR. assumption.
Qed.
End B.

Section U.
Variables (mask : list bool) (l : list date) (c : ucal).
Hypothesis UC : unbounded_calendar mask l c.
Notation b := (bday mask l).
Let OK : ucal_ok c mask (map ordinal l) := unbounded_ok _ _ _ UC.

Lemma u_modfol d : (forall o, 1 <= o -> month_has_business_day b o) -> is_date d -> 8 <= ordinal d ->
  (exists k, 8 <= k <= ordinal d /\ b k = true) ->
  exists x, u_roll c d MODIFIED_FOLLOWING = Some x /\ is_date x /\ 8 <= ordinal x /\ modified_following b (ordinal d) (ordinal x).
Proof.
  intros DN D H EX. destruct (u_roll_modfol c mask (map ordinal l) OK d H (is_date_month d D) EX) as (f & p & F & P & P8 & E).
  set (o := ordinal d) in *. fold (bday mask l) in F, P.
  assert (FM : month_of f = month_of o <-> mi f = mi o).
  { apply (next_month_number b); [lia|assumption|]. intros x Hx Mx.
    destruct (DN x ltac:(lia)) as (k & K1 & K2 & K3). apply same_month_mi in K2. exists k. split; [assumption|]. split; lia. }
  set (r := if month_of f =? month_of o then f else p) in *.
  assert (R : 8 <= r /\ modified_following b o r).
  { unfold r. destruct (month_of f =? month_of o) eqn:Q.
    - split; [destruct F; lia|]. left. split; [assumption|]. apply same_month_mi, FM. lia.
    - split; [assumption|]. right. split; [assumption|]. intros f' F' S. rewrite (following_unique b o f' f F' F) in S.
      apply same_month_mi, FM in S. lia. }
  destruct R as [R1 R2]. destruct (is_date_from r ltac:(lia)) as (DR & OR).
  exists (from_ordinal_unchecked r). rewrite OR. auto.
Qed.
Lemma u_modpre d : (forall o, 1 <= o -> month_has_business_day b o) -> is_date d -> 8 <= ordinal d ->
  (exists k, 8 <= k <= ordinal d /\ b k = true) ->
  exists x, u_roll c d MODIFIED_PRECEDING = Some x /\ is_date x /\ 8 <= ordinal x /\ modified_preceding b (ordinal d) (ordinal x).
Proof.
  intros DN D H EX. destruct (u_roll_modpre c mask (map ordinal l) OK d H (is_date_month d D) EX) as (f & p & F & P & P8 & E).
  set (o := ordinal d) in *. fold (bday mask l) in F, P.
  assert (FM : month_of p = month_of o <-> mi p = mi o).
  { apply (prev_month_number b); [lia|assumption|]. intros x Hx Mx.
    destruct (DN x ltac:(lia)) as (k & K1 & K2 & K3). apply same_month_mi in K2. exists k. split; [assumption|]. split; lia. }
  set (r := if month_of p =? month_of o then p else f) in *.
  assert (R : 8 <= r /\ modified_preceding b o r).
  { unfold r. destruct (month_of p =? month_of o) eqn:Q.
    - split; [assumption|]. left. split; [assumption|]. apply same_month_mi, FM. lia.
    - split; [destruct F; lia|]. right. split; [assumption|]. intros f' F1 F' S. rewrite (preceding_unique b o f' p F' P) in S.
      apply same_month_mi, FM in S. lia. }
  destruct R as [R1 R2]. destruct (is_date_from r ltac:(lia)) as (DR & OR).
  exists (from_ordinal_unchecked r). rewrite OR. auto.
Qed.
End U.

Lemma modified_following_unique b o r1 r2 : modified_following b o r1 -> modified_following b o r2 -> r1 = r2.
Proof.
  intros [[A S]|[A N]] [[B S']|[B N']].
  - eapply following_unique; eassumption.
  - exfalso. eapply N'; eassumption.
  - exfalso. eapply N; eassumption.
  - eapply preceding_unique; eassumption.
Qed.
Lemma modified_preceding_unique b o r1 r2 : 1 <= r1 -> 1 <= r2 -> modified_preceding b o r1 -> modified_preceding b o r2 -> r1 = r2.
Proof.
  intros H1 H2 [[A S]|[A N]] [[B S']|[B N']].
  - eapply preceding_unique; eassumption.
  - exfalso. eapply N'; [|eassumption|eassumption]; assumption.
  - exfalso. eapply N; [|eassumption|eassumption]; assumption.
  - eapply following_unique; eassumption.
Qed.
