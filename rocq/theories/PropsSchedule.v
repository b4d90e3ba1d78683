(** Properties C17 and C18: date schedules. *)
From Coq Require Import ZArith List Bool Lia ZifyBool Sorted.
From Verif Require Import DateModel DateSpec DateRepr DateProofs DateProofs2 PropsDateAux CalSpec BoundedCalModel UnboundedCalModel CalSetup CalProofs CalModified BoundedCalProofs BoundedCalProofs2 UnboundedCalProofs UnboundedCalProofs2 PropsCalAux PropsCal
  ScheduleModel ScheduleSpec ScheduleProofs ScheduleProofs2 ScheduleProofs3 ScheduleProofs4.
Import ListNotations.
Open Scope Z_scope.

(** The schedule of one row before adjustments. *)
Definition unadjusted (t : period_type) (backward : bool) (r : row) (l : list date) : Prop :=
  if backward then backward_dates (rstart r) (rend r) (mk_period (rqty r) t) l
  else forward_dates (rstart r) (rend r) (mk_period (rqty r) t) l.
Definition row_dates (r : row) : Prop := is_date (rstart r) /\ is_date (rend r).
Definition valid_rows (rows : list row) : Prop :=
  forall r, In r rows -> 0 < rqty r /\ ordinal (rstart r) <= ordinal (rend r).
Definition anchor (backward : bool) (r : row) : date := if backward then rend r else rstart r.

Lemma sched_checks rows t bw eom roll out : periodic_schedule rows t bw eom roll = Some out ->
  valid_rows rows /\ (eom = true -> t = MONTH \/ t = YEAR) /\
  exists base mid, (if bw then periodic_backward rows t else periodic_forward rows t) = Some base /\
    (if eom then map_opt (fun '(r, s) => shift_to_eom (anchor bw r) s) (combine rows base) else Some base) = Some mid /\
    match roll with None => Some mid | Some f => map_opt (map_opt f) mid end = Some out.
Proof.
  unfold periodic_schedule. intros E.
  destruct (eom && match t with MONTH | YEAR => false | _ => true end) eqn:C1; [discriminate|].
  destruct (forallb (fun r => ordinal (rstart r) <=? ordinal (rend r)) rows) eqn:C2; [|discriminate].
  destruct (forallb (fun r => 0 <? rqty r) rows) eqn:C3; [|discriminate]. cbn [negb] in E.
  rewrite forallb_forall in C2, C3. split; [|split].
  - intros r I. specialize (C2 r I). specialize (C3 r I). lia.
  - intros ->. destruct t; cbn in C1; try discriminate; auto.
  - destruct (if bw then periodic_backward rows t else periodic_forward rows t) as [base|]; [|discriminate]. cbn [bind] in E.
    exists base. unfold anchor. destruct (if eom then _ else Some base) as [mid|] eqn:M in E; [|discriminate].
    exists mid. split; [reflexivity|]. split; [exact M|]. cbn [bind] in E. exact E.
Qed.

Lemma ok_rows rows : Forall row_dates rows -> valid_rows rows -> rows_ok rows.
Proof. intros F V r I. rewrite Forall_forall in F. destruct (F r I). destruct (V r I). auto. Qed.

Lemma base_batch rows t (bw : bool) base : Forall row_dates rows -> valid_rows rows ->
  (exists r, In r rows /\ ordinal (rstart r) < ordinal (rend r)) ->
  (if bw then periodic_backward rows t else periodic_forward rows t) = Some base -> batch (unadjusted t bw) bw rows base.
Proof.
  intros F V EX E. pose proof (ok_rows rows F V) as OK. destruct bw.
  - apply (backward_batch rows t OK EX); assumption.
  - destruct (forward_batch rows t OK EX) as (o & E' & B). rewrite E in E'. injection E' as <-. exact B.
Qed.
Lemma batch_dates rows t bw base : Forall row_dates rows -> valid_rows rows -> batch (unadjusted t bw) bw rows base ->
  Forall2 (fun r s => Forall is_date s /\ nondecreasing s) rows base.
Proof.
  intros F V (ls & L & H1 & _ & H3). assert (X := forall2_compose _ _ _ _ _ H1 H3).
  eapply forall2_impl; [|exact X]. intros r s I _ (l & S & P). rewrite Forall_forall in F. destruct (F r I) as (D & De). destruct (V r I) as (Q & LE).
  split; [eapply padded_dates; [|exact P]; eapply row_spec_dates; eassumption|].
  eapply padded_nondecreasing; [|exact P]. eapply row_spec_increasing; eassumption.
Qed.

Lemma combine_forall2 {A B C} (f : A * B -> option C) l l' l'' : length l = length l' -> map_opt f (combine l l') = Some l'' ->
  length l'' = length l /\ forall i x y z, nth_error l i = Some x -> nth_error l' i = Some y -> nth_error l'' i = Some z -> f (x, y) = Some z.
Proof.
  intros LL E. apply map_opt_forall2 in E. split.
  - apply forall2_len in E. rewrite combine_length in E. lia.
  - intros i x y z X Y Z. pose proof (nth_error_combine _ _ _ _ _ X Y) as XY. destruct (Forall2_nth_r _ _ _ E _ _ XY) as (z' & Z' & H). congruence.
Qed.

(** C17: whatever is returned is the specified schedule of every row, padded
    to the longest one, with each date adjusted; invalid arguments are refused. *)
Theorem C17_periodic_schedule : forall rows t backward end_of_month roll out,
  Forall row_dates rows -> (exists r, In r rows /\ ordinal (rstart r) < ordinal (rend r)) ->
  periodic_schedule rows t backward end_of_month roll = Some out ->
  valid_rows rows /\ (end_of_month = true -> t = MONTH \/ t = YEAR) /\
  exists base, batch (unadjusted t backward) backward rows base /\ length out = length rows /\
    forall i r l l', nth_error rows i = Some r -> nth_error base i = Some l -> nth_error out i = Some l' ->
      Forall2 (adjusted end_of_month (anchor backward r) roll) l l'.
Proof.
  intros rows t bw eom roll out F EX E. destruct (sched_checks _ _ _ _ _ _ E) as (V & T & base & mid & E1 & E2 & E3).
  split; [assumption|]. split; [assumption|]. exists base. pose proof (base_batch rows t bw base F V EX E1) as B. split; [assumption|].
  pose proof (batch_dates rows t bw base F V B) as BD. pose proof (forall2_len BD) as LB.
  assert (MID : length mid = length rows /\ forall i r l m, nth_error rows i = Some r -> nth_error base i = Some l -> nth_error mid i = Some m ->
     Forall2 (adjusted eom (anchor bw r) None) l m).
  { destruct eom.
    - apply combine_forall2 in E2; [|assumption]. destruct E2 as (L2 & H2). split; [assumption|].
      intros i r l m R Lx M. specialize (H2 i r l m R Lx M). cbv beta iota in H2.
      destruct (Forall2_nth_r _ _ _ BD i r R) as (l2 & L2' & (DD & _)). rewrite Lx in L2'. injection L2' as <-.
      apply shift_to_eom_spec in H2; [|rewrite Forall_forall in F; apply nth_error_In in R; destruct (F r R); destruct bw; assumption|assumption].
      eapply forall2_impl; [|exact H2]. cbv beta. intros x y _ _ [(A1 & A2)|(A1 & ->)].
      + exists y. split; [left; auto|reflexivity].
      + exists x. split; [right; auto|reflexivity].
    - injection E2 as <-. split; [symmetry; assumption|]. intros i r l m R Lx M. rewrite Lx in M. injection M as <-.
      apply Forall2_same. intros x _. exists x. split; [right; auto|reflexivity]. }
  destruct MID as (LM & MID). destruct roll as [f|].
  - apply map_opt_forall2 in E3. split; [rewrite <- LM; symmetry; apply (forall2_len E3)|].
    intros i r l l' R Lx O. destruct (Forall2_nth_l _ _ _ E3 i l' O) as (m & M & H). apply map_opt_forall2 in H.
    specialize (MID i r l m R Lx M). assert (X := forall2_compose _ _ _ _ _ MID H). eapply forall2_impl; [|exact X].
    intros x z _ _ (y & (x' & A & ->) & Y). exists x'. split; assumption.
  - injection E3 as <-. split; assumption.
Qed.
Print Assumptions C17_periodic_schedule.

(** A schedule exists for every valid forward request without a calendar, and
    for backward ones by months or years or of a single row. *)
Theorem C17_schedule_exists : forall rows t backward end_of_month,
  Forall row_dates rows -> valid_rows rows -> (end_of_month = true -> t = MONTH \/ t = YEAR) ->
  (exists r, In r rows /\ ordinal (rstart r) < ordinal (rend r)) ->
  backward = false \/ t = MONTH \/ t = YEAR \/ (exists r, rows = [r]) ->
  exists out, periodic_schedule rows t backward end_of_month None = Some out.
Proof.
  intros rows t bw eom F V T EX C. unfold periodic_schedule.
  replace (eom && match t with MONTH | YEAR => false | _ => true end) with false by (destruct eom; [destruct (T eq_refl) as [->| ->]; reflexivity|reflexivity]).
  replace (forallb (fun r => ordinal (rstart r) <=? ordinal (rend r)) rows) with true by (symmetry; apply forallb_forall; intros r I; destruct (V r I); lia).
  replace (forallb (fun r => 0 <? rqty r) rows) with true by (symmetry; apply forallb_forall; intros r I; destruct (V r I); lia).
  cbn [negb]. pose proof (ok_rows rows F V) as OK.
  assert (B : exists base, (if bw then periodic_backward rows t else periodic_forward rows t) = Some base).
  { destruct bw; [|destruct (forward_batch rows t OK EX) as (o & E' & _); eauto].
    destruct C as [C|C]; [discriminate|]. apply (backward_batch rows t OK EX). assumption. }
  destruct B as (base & B). rewrite B. cbn [bind]. destruct eom; [|eexists; reflexivity].
  pose proof (batch_dates rows t bw base F V (base_batch rows t bw base F V EX B)) as BD.
  assert (G : exists mid, map_opt (fun '(r, s) => shift_to_eom (if bw then rend r else rstart r) s) (combine rows base) = Some mid).
  { clear - F BD. induction BD as [|r s rows base (Ds & _) BD IH]; [exists []; reflexivity|]. inversion F as [|? ? (D1 & D2) F']; subst.
    destruct (IH F') as (mid & M). cbn [combine map_opt]. destruct (shift_to_eom_some (if bw then rend r else rstart r) s) as (s' & ->); [destruct bw; assumption|assumption|].
    rewrite M. eauto. }
  destruct G as (mid & ->). cbn [bind]. eauto.
Qed.
Print Assumptions C17_schedule_exists.

(** The unadjusted schedule of a row is determined by the row, strictly
    increasing, starts at the start date and ends at the end date. *)
Theorem C17_schedule_shape : forall t backward r l, row_dates r -> 0 < rqty r -> ordinal (rstart r) < ordinal (rend r) ->
  unadjusted t backward r l ->
  increasing l /\ Forall is_date l /\ (exists q, l = rstart r :: q) /\ (exists p, l = p ++ [rend r]) /\
  (forall l', unadjusted t backward r l' -> l' = l).
Proof.
  intros t bw r l (D & De) Q LT S. destruct (row_spec_increasing t bw r l D De Q ltac:(lia) S) as (A & B & C). destruct (A LT) as (A1 & A2).
  split; [assumption|]. split; [eapply row_spec_dates; eassumption|]. split; [assumption|]. split.
  - destruct bw; [apply (backward_last t r l); assumption|]. destruct C as [C|C]; [discriminate|assumption].
  - intros l' S'. destruct bw; destruct S as (n & s & S1 & S2 & ->); destruct S' as (n' & s' & S1' & S2' & ->).
    + assert (n = n').
      { destruct (Nat.lt_trichotomy n n') as [H|[H|H]]; [|assumption|]; exfalso.
        - destruct (S1' (Z.of_nat n) ltac:(lia)) as (E & O). specialize (S2 _ _ (Z.le_refl _) E). lia.
        - destruct (S1 (Z.of_nat n') ltac:(lia)) as (E & O). specialize (S2' _ _ (Z.le_refl _) E). lia. }
      subst n'. f_equal. f_equal. apply map_ext_in. intros k K. apply in_zrange in K.
      destruct (S1 k ltac:(lia)) as (E & _). destruct (S1' k ltac:(lia)) as (E' & _). congruence.
    + assert (n = n').
      { destruct (Nat.lt_trichotomy n n') as [H|[H|H]]; [|assumption|]; exfalso.
        - destruct (S1' (Z.of_nat n) ltac:(lia)) as (E & O). specialize (S2 _ _ (Z.le_refl _) E). lia.
        - destruct (S1 (Z.of_nat n') ltac:(lia)) as (E & O). specialize (S2' _ _ (Z.le_refl _) E). lia. }
      subst n'. f_equal. apply map_ext_in. intros k K. apply in_zrange in K.
      destruct (S1 k ltac:(lia)) as (E & _). destruct (S1' k ltac:(lia)) as (E' & _). congruence.
Qed.
Print Assumptions C17_schedule_shape.

Definition monotone_roll (roll : option (date -> option date)) : Prop :=
  match roll with None => True | Some f => forall d1 d2 x1 x2, is_date d1 -> is_date d2 -> ordinal d1 <= ordinal d2 ->
    f d1 = Some x1 -> f d2 = Some x2 -> ordinal x1 <= ordinal x2 end.

(** Returned schedules are non-decreasing whenever the roll is. *)
Theorem C17_schedule_sorted : forall rows t backward end_of_month roll out,
  Forall row_dates rows -> (exists r, In r rows /\ ordinal (rstart r) < ordinal (rend r)) ->
  monotone_roll roll -> periodic_schedule rows t backward end_of_month roll = Some out ->
  Forall nondecreasing out.
Proof.
  intros rows t bw eom roll out F EX MR E. destruct (C17_periodic_schedule _ _ _ _ _ _ F EX E) as (V & _ & base & B & LO & H).
  pose proof (batch_dates rows t bw base F V B) as BD. apply Forall_forall. intros l' I. apply In_nth_error in I as (i & I).
  assert (R : exists r, nth_error rows i = Some r).
  { destruct (nth_error rows i) eqn:N; [eauto|]. apply nth_error_None in N. assert (i < length out)%nat by (apply nth_error_Some; congruence); lia. }
  destruct R as (r & R). destruct (Forall2_nth_r _ _ _ BD i r R) as (l & L & (DL & ND)). specialize (H i r l l' R L I).
  eapply (ss_forall2 (fun x y => ordinal x <= ordinal y)); [exact ND|exact H|]. rewrite Forall_forall in DL.
  intros x y x' y' Ix Iy LE (x1 & A1 & X) (y1 & A2 & Y). cbv beta.
  assert (MID : is_date x1 /\ is_date y1 /\ ordinal x1 <= ordinal y1).
  { destruct A1 as [(ET1 & A & M1)|(A & ->)]; destruct A2 as [(ET2 & A' & M2)|(A' & ->)].
    - split; [apply M1|]. split; [apply M2|]. apply (eom_mono x y); auto.
    - destruct A' as [A'|A']; [congruence|contradiction].
    - destruct A as [A|A]; [congruence|contradiction].
    - auto. }
  destruct MID as (D1 & D2 & L1). destruct roll as [f|]; [apply (MR x1 y1); auto|subst; assumption].
Qed.
Print Assumptions C17_schedule_sorted.

(** In particular with FOLLOWING, PRECEDING or no adjustment on a bounded calendar. *)
Theorem C17_calendar_schedule_sorted : forall mask l ys ye c conv rows t backward end_of_month out,
  bounded_calendar mask l ys ye c -> conv = FOLLOWING \/ conv = PRECEDING \/ conv = NONE ->
  Forall row_dates rows -> (exists r, In r rows /\ ordinal (rstart r) < ordinal (rend r)) ->
  periodic_schedule rows t backward end_of_month (Some (fun d => b_roll c d conv)) = Some out ->
  Forall nondecreasing out /\
  (conv <> NONE -> forall s x, In s out -> In x s -> is_date x /\ ys <= year x <= ye /\ bday mask l (ordinal x) = true).
Proof.
  intros mask l ys ye c conv rows t bw eom out BC CV F EX E.
  assert (Y : forall d x, is_date d -> conv <> NONE -> b_roll c d conv = Some x -> ys <= year d <= ye).
  { intros d x D CN R. destruct (Z_le_gt_dec ys (year d)); [destruct (Z_le_gt_dec (year d) ye); [lia|]|];
      (destruct (C16_out_of_bounds_refused _ _ _ _ _ BC) as (X & _); destruct (X d D ltac:(lia)) as (_ & Q & _); rewrite Q in R by assumption; discriminate). }
  split.
  - eapply C17_schedule_sorted; [exact F|exact EX| |exact E]. intros d1 d2 x1 x2 D1 D2 LE R1 R2. cbv beta in R1, R2.
    assert (DEC : conv = NONE \/ conv <> NONE) by (destruct conv; first [left; reflexivity|right; discriminate]).
    destruct DEC as [->|N].
    + unfold b_roll in R1, R2. injection R1 as <-. injection R2 as <-. assumption.
    + pose proof (Y _ _ D1 N R1) as Y1. pose proof (Y _ _ D2 N R2) as Y2.
      destruct (C11_roll_bounded _ _ _ _ _ d1 BC D1 Y1) as (A1 & B1 & _). destruct (C11_roll_bounded _ _ _ _ _ d2 BC D2 Y2) as (A2 & B2 & _).
      destruct CV as [->|[->|CV]]; [| |contradiction].
      * apply A1 in R1 as (_ & _ & (P1 & P2 & P3)). apply A2 in R2 as (_ & _ & (Q1 & Q2 & Q3)).
        destruct (Z_le_gt_dec (ordinal x1) (ordinal x2)); [assumption|]. rewrite P3 in Q2 by lia. discriminate.
      * apply B1 in R1 as (_ & _ & (P1 & P2 & P3)). apply B2 in R2 as (_ & _ & (Q1 & Q2 & Q3)).
        destruct (Z_le_gt_dec (ordinal x1) (ordinal x2)); [assumption|]. rewrite Q3 in P2 by lia. discriminate.
  - intros N s x Is Ix. destruct (C17_periodic_schedule _ _ _ _ _ _ F EX E) as (V & _ & base & B & LO & H).
    pose proof (batch_dates rows t bw base F V B) as BD. apply In_nth_error in Is as (i & Is).
    assert (R : exists r, nth_error rows i = Some r).
    { destruct (nth_error rows i) eqn:Q; [eauto|]. apply nth_error_None in Q. assert (i < length out)%nat by (apply nth_error_Some; congruence). lia. }
    destruct R as (r & R). destruct (Forall2_nth_r _ _ _ BD i r R) as (l0 & L & _). specialize (H i r l0 s R L Is).
    apply In_nth_error in Ix as (j & Ix). destruct (Forall2_nth_l _ _ _ H j x Ix) as (x0 & _ & (x1 & _ & RX)).
    destruct (C16_out_of_bounds_refused _ _ _ _ _ BC) as (_ & X & _). apply (X x1 conv x N RX).
Qed.
Print Assumptions C17_calendar_schedule_sorted.

(** Invalid arguments are refused. *)
Theorem C17_invalid_refused : forall rows t backward end_of_month roll,
  (exists r, In r rows /\ (rqty r <= 0 \/ ordinal (rend r) < ordinal (rstart r))) \/
  (end_of_month = true /\ (t = DAY \/ t = WEEK)) ->
  periodic_schedule rows t backward end_of_month roll = None.
Proof.
  intros rows t bw eom roll H. destruct (periodic_schedule rows t bw eom roll) as [out|] eqn:E; [|reflexivity]. exfalso.
  destruct (sched_checks _ _ _ _ _ _ E) as (V & T & _). destruct H as [(r & I & H)|(-> & H)].
  - destruct (V r I). lia.
  - destruct (T eq_refl) as [->| ->]; destruct H; discriminate.
Qed.
Print Assumptions C17_invalid_refused.

(** The documentation promises the start and end dates in every schedule; when
    start and end coincide in every row the result is empty instead. *)
Theorem C17_empty_refuted : forall rows t, Forall row_dates rows ->
  (forall r, In r rows -> 0 < rqty r /\ ordinal (rstart r) = ordinal (rend r)) ->
  periodic_schedule rows t false false None = Some (map (fun _ => []) rows).
Proof.
  intros rows t F H. unfold periodic_schedule. cbn [andb].
  replace (forallb (fun r => ordinal (rstart r) <=? ordinal (rend r)) rows) with true by (symmetry; apply forallb_forall; intros r I; destruct (H r I); lia).
  replace (forallb (fun r => 0 <? rqty r) rows) with true by (symmetry; apply forallb_forall; intros r I; destruct (H r I); lia).
  cbn [negb]. rewrite forward_degenerate; [reflexivity|apply ok_rows; [assumption|intros r I; destruct (H r I); lia]|intros r I; apply H; assumption].
Qed.
Print Assumptions C17_empty_refuted.
Example C17_empty_ex : periodic_schedule [mk_row (ymd_date 2020 1 1) (ymd_date 2020 1 1) 3] MONTH false false None = Some [[]].
Proof. vm_compute. reflexivity. Qed.

(** A row that is fine alone is refused in a batch with a longer row: the
    common number of steps takes it back before 1 January 0001. *)
Theorem C17_batch_refused_refuted :
  let r1 := mk_row (ymd_date 1 1 1) (ymd_date 1 1 3) 1 in
  let r2 := mk_row (ymd_date 2020 1 1) (ymd_date 2020 1 9) 1 in
  (exists s1, periodic_schedule [r1] DAY true false None = Some s1) /\
  (exists s2, periodic_schedule [r2] DAY true false None = Some s2) /\
  periodic_schedule [r1; r2] DAY true false None = None.
Proof. cbv zeta. split; [|split]; [eexists; vm_compute; reflexivity|eexists; vm_compute; reflexivity|vm_compute; reflexivity]. Qed.
Print Assumptions C17_batch_refused_refuted.

(** Quarterly dates from 29 February 2020, and a shorter row padded with its end date. *)
Definition c17_rows := [mk_row (ymd_date 2020 2 29) (ymd_date 2020 9 15) 3; mk_row (ymd_date 2020 2 10) (ymd_date 2020 3 1) 3].
Example C17_ex_hyps : Forall row_dates c17_rows /\ valid_rows c17_rows /\ exists r, In r c17_rows /\ ordinal (rstart r) < ordinal (rend r).
Proof.
  split; [|split].
  - repeat constructor; apply ymd_is_date, valid_intro; reflexivity.
  - intros r [<-|[<-|[]]]; vm_compute; split; congruence.
  - eexists. split; [left; reflexivity|]. vm_compute. reflexivity.
Qed.
Example C17_ex : periodic_schedule c17_rows MONTH false true None =
  Some [[ymd_date 2020 2 29; ymd_date 2020 5 31; ymd_date 2020 8 31; ymd_date 2020 9 30];
        [ymd_date 2020 2 10; ymd_date 2020 3 1; ymd_date 2020 3 1; ymd_date 2020 3 1]] /\
  periodic_schedule c17_rows MONTH true false None =
  Some [[ymd_date 2020 2 29; ymd_date 2020 3 15; ymd_date 2020 6 15; ymd_date 2020 9 15];
        [ymd_date 2020 2 10; ymd_date 2020 2 10; ymd_date 2020 2 10; ymd_date 2020 3 1]].
Proof. vm_compute. auto. Qed.
Example C17_cal_ex : periodic_schedule [mk_row (ymd_date 2000 1 1) (ymd_date 2000 1 20) 1] WEEK false false (Some (fun d => b_roll ex_bcal d FOLLOWING)) =
  Some [[ymd_date 2000 1 5; ymd_date 2000 1 10; ymd_date 2000 1 17; ymd_date 2000 1 20]].
Proof. vm_compute. reflexivity. Qed.

(** C18 *)
Definition bounded_ops (c : bcal) : cal_ops := mk_ops (b_roll c) (b_business_days_between c) (b_add_business_days c).
Definition unbounded_ops (c : ucal) : cal_ops := mk_ops (u_roll c) (u_business_days_between c) (u_add_business_days c).

Definition in_cal (ys ye : Z) (o : Z) : Prop := 1 <= o /\ ys <= year (from_ordinal_unchecked o) <= ye.
Lemma in_cal_iff ys ye d : is_date d -> (in_cal ys ye (ordinal d) <-> ys <= year d <= ye).
Proof. intros D. apply is_date_iff in D as (O & E). unfold in_cal. rewrite <- E. tauto. Qed.
Lemma in_cal_convex mask l ys ye c : bounded_calendar mask l ys ye c ->
  forall a k z, in_cal ys ye a -> in_cal ys ye z -> a <= k <= z -> in_cal ys ye k.
Proof.
  intros BC a k z (A1 & A2) (Z1 & Z2) K. split; [lia|].
  destruct (is_date_from a A1) as (Da & Oa). destruct (is_date_from z Z1) as (Dz & Oz). destruct (is_date_from k ltac:(lia)) as (Dk & Ok).
  apply (in_years _ _ _ _ _ BC _ Da) in A2. apply (in_years _ _ _ _ _ BC _ Dz) in Z2. apply (in_years _ _ _ _ _ BC _ Dk). lia.
Qed.

Section BI.
Variables (mask : list bool) (l : list date) (ys ye : Z) (c : bcal).
Hypothesis BC : bounded_calendar mask l ys ye c.
Notation b := (bday mask l).
Notation dom := (in_cal ys ye).
Lemma bi_fol d x : is_date d -> dom (ordinal d) -> op_roll (bounded_ops c) d FOLLOWING = Some x -> is_date x /\ following b (ordinal d) (ordinal x).
Proof. intros D O E. apply in_cal_iff in O; [|assumption]. destruct (C11_roll_bounded _ _ _ _ _ d BC D O) as (A1 & A2 & _). first [apply A1 in E | apply A2 in E]; tauto. Qed.
Lemma bi_pre d x : is_date d -> dom (ordinal d) -> op_roll (bounded_ops c) d PRECEDING = Some x -> is_date x /\ preceding b (ordinal d) (ordinal x).
Proof. intros D O E. apply in_cal_iff in O; [|assumption]. destruct (C11_roll_bounded _ _ _ _ _ d BC D O) as (A1 & A2 & _). first [apply A1 in E | apply A2 in E]; tauto. Qed.
Lemma bi_fols d k : is_date d -> dom (ordinal d) -> ordinal d <= k -> dom k -> b k = true -> exists x, op_roll (bounded_ops c) d FOLLOWING = Some x.
Proof.
  intros D O L K B. destruct (following_exists b (ordinal d) k L B) as (f & F & Lf). pose proof F as (F1 & _).
  assert (Kf : dom f) by (apply (in_cal_convex _ _ _ _ _ BC (ordinal d) f k); auto).
  destruct (is_date_from f ltac:(destruct Kf; lia)) as (Df & Of). exists (from_ordinal_unchecked f).
  apply (C11_roll_bounded _ _ _ _ _ d BC D); [apply in_cal_iff; assumption|]. split; [assumption|]. rewrite Of. split; [apply Kf|assumption].
Qed.
Lemma bi_pres d k : is_date d -> dom (ordinal d) -> k <= ordinal d -> dom k -> b k = true -> exists x, op_roll (bounded_ops c) d PRECEDING = Some x.
Proof.
  intros D O L K B. destruct (preceding_exists b (ordinal d) k L B) as (f & F & Lf). pose proof F as (F1 & _).
  assert (Kf : dom f) by (apply (in_cal_convex _ _ _ _ _ BC k f (ordinal d)); auto).
  destruct (is_date_from f ltac:(destruct Kf; lia)) as (Df & Of). exists (from_ordinal_unchecked f).
  apply (C11_roll_bounded _ _ _ _ _ d BC D); [apply in_cal_iff; assumption|]. split; [assumption|]. rewrite Of. split; [apply Kf|assumption].
Qed.
Lemma bi_btw d1 d2 : is_date d1 -> is_date d2 -> dom (ordinal d1) -> dom (ordinal d2) -> op_between (bounded_ops c) d1 d2 = Some (busdays b (ordinal d1) (ordinal d2)).
Proof. intros D1 D2 O1 O2. apply in_cal_iff in O1, O2; try assumption. apply (proj1 C14_business_days_between _ _ _ _ _ d1 d2 BC D1 O1 D2 O2). Qed.
Lemma bi_adds d n x : is_date d -> dom (ordinal d) -> op_add (bounded_ops c) d n NONE = Some x -> is_date x /\ nth_business_day b (ordinal d) n (ordinal x).
Proof. intros D O E. apply in_cal_iff in O; [|assumption]. destruct (C13_add_business_days_bounded _ _ _ _ _ d n BC D O) as (A & _). apply A in E. tauto. Qed.
Lemma bi_addc d n x : is_date d -> dom (ordinal d) -> b (ordinal d) = true -> is_date x -> dom (ordinal x) ->
  nth_business_day b (ordinal d) n (ordinal x) -> op_add (bounded_ops c) d n NONE = Some x.
Proof.
  intros D O B Dx Ox N. apply in_cal_iff in O; [|assumption]. apply in_cal_iff in Ox; [|assumption].
  destruct (C13_add_business_days_bounded _ _ _ _ _ d n BC D O) as (A & _). apply A. auto.
Qed.
End BI.

Theorem C18_business_schedule_bounded : forall mask l ys ye c rows backward,
  bounded_calendar mask l ys ye c -> rows <> [] ->
  Forall (fun r => is_date (fst r) /\ is_date (snd r) /\ ys <= year (fst r) <= ye /\ ys <= year (snd r) <= ye) rows ->
  (forall out, business_day_schedule (bounded_ops c) rows backward = Some out ->
     batch (fun r => business_dates (bday mask l) (fst r) (snd r)) backward rows out) /\
  (forall s e, rows = [(s, e)] ->
     ((exists out, business_day_schedule (bounded_ops c) rows backward = Some out) <->
      exists k, ordinal s <= k <= ordinal e /\ bday mask l k = true)).
Proof.
  intros mask l ys ye c rows bw BC NE OK.
  assert (S : forall out, business_day_schedule (bounded_ops c) rows bw = Some out ->
     batch (fun r => business_dates (bday mask l) (fst r) (snd r)) bw rows out).
  { intros out E. refine (business_schedule_sound (bday mask l) (bounded_ops c) (in_cal ys ye) (in_cal_convex _ _ _ _ _ BC)
      (bi_fol _ _ _ _ _ BC) (bi_fols _ _ _ _ _ BC) (bi_pre _ _ _ _ _ BC) (bi_pres _ _ _ _ _ BC) (bi_btw _ _ _ _ _ BC) (bi_adds _ _ _ _ _ BC) (bi_addc _ _ _ _ _ BC) rows bw out NE _ E).
    eapply Forall_impl; [|exact OK]. cbv beta. intros [s e] (A & B & C & D). rewrite !in_cal_iff by assumption. auto. }
  split; [assumption|]. intros s e ->. split.
  - intros (out & E). destruct (S out E) as (ls & L & H1 & _ & H3). inversion H1 as [|? l0 ? ? (_ & B) F]; subst. cbn [fst snd] in *.
    inversion F; subst. inversion H3 as [|? o ? ? P _]; subst.
    assert (exists x, In x l0) as (x & I) by (destruct bw; destruct P as (p & q & -> & _); [exists p; left; reflexivity|exists q; apply in_or_app; right; left; reflexivity]).
    apply (in_map ordinal) in I. rewrite B in I. apply filter_In in I as (I & Bx). apply in_zrange in I. exists (ordinal x). split; [lia|assumption].
  - intros (k & K & B). refine (business_schedule_defined (bday mask l) (bounded_ops c) (in_cal ys ye) (in_cal_convex _ _ _ _ _ BC)
      (bi_fol _ _ _ _ _ BC) (bi_fols _ _ _ _ _ BC) (bi_pre _ _ _ _ _ BC) (bi_pres _ _ _ _ _ BC) (bi_btw _ _ _ _ _ BC) (bi_adds _ _ _ _ _ BC) (bi_addc _ _ _ _ _ BC) [(s, e)] bw _ (or_introl (ex_intro _ _ eq_refl))).
    inversion OK as [|? ? (A1 & A2 & A3 & A4) _]; subst. cbn [fst snd] in *. constructor; [|constructor]. cbn [fst snd]. rewrite !in_cal_iff by assumption. eauto 10.
Qed.
Print Assumptions C18_business_schedule_bounded.

Section UI.
Variables (mask : list bool) (l : list date) (c : ucal).
Hypothesis UC : unbounded_calendar mask l c.
Notation b := (bday mask l).
Notation dom := (fun o => 8 <= o).
Lemma ui_addx d n : is_date d -> 8 <= ordinal d -> b (ordinal d) = true -> 0 <= n -> exists x, op_add (unbounded_ops c) d n NONE = Some x.
Proof.
  intros D O B N. assert (EX : exists r, nth_business_day b (ordinal d) n r /\ ordinal d <= r).
  { replace n with (Z.of_nat (Z.to_nat n)) by lia. generalize (Z.to_nat n). intros k. induction k as [|k (r & NB & L)].
    - exists (ordinal d). split; [apply nth_business_day_0; assumption|lia].
    - destruct (is_date_from (r + 1) ltac:(lia)) as (Dr & Or).
      destruct (C11_roll_unbounded _ _ _ (from_ordinal_unchecked (r + 1)) UC Dr ltac:(lia)) as ((f & _ & Df & F) & _). rewrite Or in F.
      exists (ordinal f). pose proof F as (F1 & F2 & F3). split; [|lia]. split; [assumption|]. left. split; [lia|]. split; [lia|].
      destruct NB as (Br & [(N1 & N2 & N3)|(N1 & _)]); [|lia].
      rewrite (busdays_split b (ordinal d) (r + 1) (ordinal f)) by lia. rewrite busdays_last by lia. unfold bz. rewrite Br.
      rewrite (busdays_none b (r + 1) (ordinal f)) by assumption. lia. }
  destruct EX as (r & NB & L). destruct (is_date_from r ltac:(lia)) as (Dr & Or). exists (from_ordinal_unchecked r).
  apply (C13_add_business_days_unbounded _ _ _ d n UC D O); [assumption|assumption|lia|rewrite Or; assumption].
Qed.
End UI.

Theorem C18_business_schedule_unbounded : forall mask l c rows backward,
  unbounded_calendar mask l c -> rows <> [] ->
  Forall (fun r => is_date (fst r) /\ is_date (snd r) /\ 8 <= ordinal (fst r) /\ 8 <= ordinal (snd r)) rows ->
  (forall out, business_day_schedule (unbounded_ops c) rows backward = Some out ->
     batch (fun r => business_dates (bday mask l) (fst r) (snd r)) backward rows out) /\
  (Forall (fun r => exists k, ordinal (fst r) <= k <= ordinal (snd r) /\ bday mask l k = true) rows ->
   backward = false \/ (exists r, rows = [r]) ->
   exists out, business_day_schedule (unbounded_ops c) rows backward = Some out).
Proof.
  intros mask l c rows bw UC NE OK.
  assert (CX : forall a k z, (fun o => 8 <= o) a -> (fun o => 8 <= o) z -> a <= k <= z -> (fun o => 8 <= o) k) by (cbv beta; intros; lia).
  assert (FOL : forall d x, is_date d -> 8 <= ordinal d -> op_roll (unbounded_ops c) d FOLLOWING = Some x -> is_date x /\ following (bday mask l) (ordinal d) (ordinal x)).
  { intros d x D O E. destruct (C11_roll_unbounded _ _ _ d UC D O) as ((y & Ey & H) & _). cbn [op_roll unbounded_ops] in E. rewrite E in Ey. injection Ey as <-. assumption. }
  assert (PRE : forall d x, is_date d -> 8 <= ordinal d -> op_roll (unbounded_ops c) d PRECEDING = Some x -> is_date x /\ preceding (bday mask l) (ordinal d) (ordinal x)).
  { intros d x D O E. apply (C11_roll_unbounded _ _ _ d UC D O); assumption. }
  assert (BTW : forall d1 d2, is_date d1 -> is_date d2 -> 8 <= ordinal d1 -> 8 <= ordinal d2 -> op_between (unbounded_ops c) d1 d2 = Some (busdays (bday mask l) (ordinal d1) (ordinal d2))).
  { intros d1 d2 _ _ O1 O2. apply (proj1 (proj2 C14_business_days_between) _ _ _ d1 d2 UC O1 O2). }
  assert (FOLS : forall d k, is_date d -> 8 <= ordinal d -> ordinal d <= k -> 8 <= k -> bday mask l k = true -> exists x, op_roll (unbounded_ops c) d FOLLOWING = Some x).
  { intros d k D O _ _ _. destruct (C11_roll_unbounded _ _ _ d UC D O) as ((y & Ey & H) & _). eauto. }
  assert (PRES : forall d k, is_date d -> 8 <= ordinal d -> k <= ordinal d -> 8 <= k -> bday mask l k = true -> exists x, op_roll (unbounded_ops c) d PRECEDING = Some x).
  { intros d k D O L K B. destruct (C11_roll_unbounded _ _ _ d UC D O) as (_ & _ & A & _). apply A. exists k. split; [lia|assumption]. }
  assert (ADDS : forall d n x, is_date d -> 8 <= ordinal d -> op_add (unbounded_ops c) d n NONE = Some x -> is_date x /\ nth_business_day (bday mask l) (ordinal d) n (ordinal x)).
  { intros d n x D O EA. destruct (C13_add_business_days_unbounded _ _ _ d n UC D O) as (A & _). apply A in EA. tauto. }
  assert (ADDC : forall d n x, is_date d -> 8 <= ordinal d -> bday mask l (ordinal d) = true -> is_date x -> 8 <= ordinal x ->
     nth_business_day (bday mask l) (ordinal d) n (ordinal x) -> op_add (unbounded_ops c) d n NONE = Some x).
  { intros d n x D O B Dx Ox NB. destruct (C13_add_business_days_unbounded _ _ _ d n UC D O) as (_ & A & _). apply A; assumption. }
  split.
  - intros out E. exact (business_schedule_sound (bday mask l) (unbounded_ops c) (fun o => 8 <= o) CX FOL FOLS PRE PRES BTW ADDS ADDC rows bw out NE OK E).
  - intros EX C. refine (business_schedule_defined (bday mask l) (unbounded_ops c) (fun o => 8 <= o) CX FOL FOLS PRE PRES BTW ADDS ADDC rows bw _ _).
    + rewrite Forall_forall in *. intros r I. specialize (OK r I). specialize (EX r I). tauto.
    + destruct C as [->|C]; [right|left; assumption]. split; [reflexivity|]. intros d n D O B N. apply (ui_addx mask l c UC d n); assumption.
Qed.
Print Assumptions C18_business_schedule_unbounded.

Example C18_ex : business_day_schedule (bounded_ops ex_bcal) [(ymd_date 2000 1 1, ymd_date 2000 1 10); (ymd_date 2000 2 5, ymd_date 2000 2 8)] false =
  Some [[ymd_date 2000 1 5; ymd_date 2000 1 6; ymd_date 2000 1 7; ymd_date 2000 1 10];
        [ymd_date 2000 2 7; ymd_date 2000 2 8; ymd_date 2000 2 8; ymd_date 2000 2 8]] /\
  business_day_schedule (unbounded_ops ex_ucal) [(ymd_date 2000 1 1, ymd_date 2000 1 10); (ymd_date 2000 2 5, ymd_date 2000 2 8)] true =
  Some [[ymd_date 2000 1 5; ymd_date 2000 1 6; ymd_date 2000 1 7; ymd_date 2000 1 10];
        [ymd_date 2000 2 7; ymd_date 2000 2 7; ymd_date 2000 2 7; ymd_date 2000 2 8]].
Proof. vm_compute. auto. Qed.

(** On a bounded calendar a batch can be refused although each row alone is
    accepted: the longer row makes the shorter one run past the calendar. *)
Theorem C18_batch_refused_refuted :
  let r1 := (ymd_date 2000 12 28, ymd_date 2000 12 29) in
  let r2 := (ymd_date 2000 6 1, ymd_date 2000 6 30) in
  (exists s1, business_day_schedule (bounded_ops ex_bcal) [r1] false = Some s1) /\
  (exists s2, business_day_schedule (bounded_ops ex_bcal) [r2] false = Some s2) /\
  business_day_schedule (bounded_ops ex_bcal) [r1; r2] false = None.
Proof. cbv zeta. split; [|split]; [eexists; vm_compute; reflexivity|eexists; vm_compute; reflexivity|vm_compute; reflexivity]. Qed.
Print Assumptions C18_batch_refused_refuted.
