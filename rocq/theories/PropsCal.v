(** C10-C16: holiday calendars.  [bounded_calendar], [unbounded_calendar],
    [is_date] and [bday] are in CalSetup.v; [business], [following],
    [preceding], [busdays], [nth_business_day], ... in CalSpec.v. *)
From Coq Require Import ZArith List Bool Lia ZifyBool Sorted.
From Verif Require Import DateModel DateSpec DateRepr DateProofs DateProofs2 PropsDateAux CalSpec BoundedCalModel UnboundedCalModel CalSetup CalProofs CalModified BoundedCalProofs BoundedCalProofs2 UnboundedCalProofs UnboundedCalProofs2 PropsCalAux.
Import ListNotations.
Open Scope Z_scope.

(** C10: is_business_day is true exactly on the days that are neither off in
    the weekend mask nor listed as holidays. *)
Theorem C10_is_business_day :
  (forall mask l ys ye c d, bounded_calendar mask l ys ye c -> is_date d -> ys <= year d <= ye ->
     b_is_business_day c d = Some (bday mask l (ordinal d))) /\
  (forall mask l c d, unbounded_calendar mask l c -> is_date d -> 8 <= ordinal d ->
     u_is_business_day c d = Some (bday mask l (ordinal d))) /\
  (forall mask l d, is_date d -> Forall is_date l ->
     (bday mask l (ordinal d) = true <->
      nth (Z.to_nat ((ordinal d - 1) mod 7)) mask false = false /\ ~ In d l)).
Proof.
  split; [|split].
  - intros mask l ys ye c d BC D Y. destruct (bounded_ok _ _ _ _ _ BC) as (OK & _).
    rewrite (is_business_day_spec _ _ _ OK). rewrite (in_bounds_years _ _ _ _ _ BC d D Y). reflexivity.
  - intros mask l c d UC D H. apply u_is_business_day_spec; [apply unbounded_ok; assumption|assumption].
  - intros mask l d D FD. unfold bday, business, day_off. rewrite andb_true_iff, !negb_true_iff.
    assert (E : existsb (Z.eqb (ordinal d)) (map ordinal l) = false <-> ~ In d l); [|tauto].
    rewrite Forall_forall in FD. split.
    + intros E I. assert (X : existsb (Z.eqb (ordinal d)) (map ordinal l) = true); [|congruence].
      apply existsb_exists. exists (ordinal d). split; [apply in_map; assumption|apply Z.eqb_refl].
    + intros N. destruct (existsb (Z.eqb (ordinal d)) (map ordinal l)) eqn:E; [|reflexivity]. exfalso. apply N.
      apply existsb_exists in E as (o & I & E). apply Z.eqb_eq in E. apply in_map_iff in I as (y & E2 & I).
      rewrite (is_date_inj d y); [assumption|assumption|apply FD; assumption|congruence].
Qed.
Print Assumptions C10_is_business_day.

(** A calendar for the examples: Saturday/Sunday weekend, 3 and 4 January 2000
    are holidays (a Monday and a Tuesday). *)
Definition sat_sun : list bool := [false; false; false; false; false; true; true].
Definition ymd_date (y m d : Z) : date := from_ymd_unchecked y m d.
Definition ex_hol : list date := [ymd_date 2000 1 3; ymd_date 2000 1 4].
Lemma ymd_is_date y m d : valid (y, m, d) -> is_date (ymd_date y m d).
Proof. intros V. eexists. apply repr_unchecked. exact V. Qed.
Lemma valid_intro y m d : (1 <=? y) && (1 <=? m) && (m <=? 12) && (1 <=? d) && (d <=? month_length y m) = true -> valid (y, m, d).
Proof. intros H. unfold valid. lia. Qed.
Ltac dates := repeat constructor; apply ymd_is_date, valid_intro; reflexivity.
Definition ex_bcal : bcal := mk_bcal (map b2z sat_sun) (Some (map ordinal ex_hol)) 730120 366.
Definition ex_ucal : ucal := mk_ucal (Some sat_sun) (Some (map ordinal ex_hol)).
Example ex_bounded : bounded_calendar sat_sun ex_hol 2000 2000 ex_bcal.
Proof.
  apply (bc_holidays _ ex_hol None None); [reflexivity|dates| | | | |reflexivity].
  - constructor; [cbn; intros [H|[]]; discriminate H|]. constructor; [intros []|constructor].
  - intros x [<-|[<-|[]]]; cbn; lia.
  - exists (ymd_date 2000 1 3). split; [left|]; reflexivity.
  - exists (ymd_date 2000 1 3). split; [left|]; reflexivity.
Qed.
Example ex_unbounded : unbounded_calendar sat_sun ex_hol ex_ucal.
Proof.
  apply uc_both; [reflexivity|left; reflexivity|dates| |].
  - constructor; [constructor; [constructor|constructor]|]. constructor; [reflexivity|constructor].
  - intros x [<-|[<-|[]]]; vm_compute; discriminate.
Qed.
(** Friday 7 January 2000 is a business day, Monday 3 and Saturday 8 are not. *)
Example C10_ex : map (fun d => b_is_business_day ex_bcal (ymd_date 2000 1 d)) [3; 7; 8] = [Some false; Some true; Some false] /\
  map (fun d => u_is_business_day ex_ucal (ymd_date 2000 1 d)) [3; 7; 8] = [Some false; Some true; Some false].
Proof. vm_compute. auto. Qed.

(** The duplicate-free and increasing requirements are needed: a holiday listed
    twice is reported as a business day by both calendars. *)
Theorem C10_duplicate_holiday_refuted :
  (exists c, make_bcal (Some (map b2z sat_sun)) (Some [ymd_date 2000 1 3; ymd_date 2000 1 3]) None None = Some c /\
     b_is_business_day c (ymd_date 2000 1 3) = Some true) /\
  u_is_business_day (mk_ucal (Some sat_sun) (Some [730122; 730122])) (ymd_date 2000 1 3) = Some true /\
  ordinal (ymd_date 2000 1 3) = 730122.
Proof. split; [|split; reflexivity]. eexists. split; reflexivity. Qed.
Print Assumptions C10_duplicate_holiday_refuted.

(** An unbounded calendar with holidays but no weekend mask ("no weekends are
    applied") reports every date as a non-business day. *)
Theorem C10_no_weekend_mask_refuted : forall holidays d,
  u_is_business_day (mk_ucal None (Some holidays)) d = Some false.
Proof.
  intros h d. unfold u_is_business_day, to_biz_space, adjusted_holidays. cbn [umask uholidays].
  rewrite (map_opt_some _ (fun o => (o, false))) by reflexivity. cbn [option_map bind weekday_fwd].
  destruct (bizday_fwd _ _) as [v x]. reflexivity.
Qed.
Print Assumptions C10_no_weekend_mask_refuted.

(** C11: FOLLOWING and PRECEDING give the nearest business day; business days
    are fixed points; NONE is the identity. *)
Theorem C11_roll_bounded : forall mask l ys ye c d, bounded_calendar mask l ys ye c -> is_date d -> ys <= year d <= ye ->
  (forall x, b_roll c d FOLLOWING = Some x <->
     is_date x /\ ys <= year x <= ye /\ following (bday mask l) (ordinal d) (ordinal x)) /\
  (forall x, b_roll c d PRECEDING = Some x <->
     is_date x /\ ys <= year x <= ye /\ preceding (bday mask l) (ordinal d) (ordinal x)) /\
  b_roll c d NONE = Some d /\
  (bday mask l (ordinal d) = true -> b_roll c d FOLLOWING = Some d /\ b_roll c d PRECEDING = Some d).
Proof.
  intros mask l ys ye c d BC D Y. destruct (bounded_ok _ _ _ _ _ BC) as (OK & _).
  pose proof (proj1 (in_years _ _ _ _ _ BC d D) Y) as I.
  assert (A : forall x, b_roll c d FOLLOWING = Some x <->
     is_date x /\ ys <= year x <= ye /\ following (bday mask l) (ordinal d) (ordinal x)).
  { intros x. rewrite (roll_following_spec _ _ _ OK). split.
    - intros (_ & B & F & E). assert (Dx : is_date x) by (apply is_date_iff; split; [destruct OK; lia|assumption]).
      split; [assumption|]. split; [apply (in_years _ _ _ _ _ BC x Dx); assumption|assumption].
    - intros (Dx & Yx & F). split; [assumption|]. split; [apply (in_years _ _ _ _ _ BC x Dx); assumption|].
      split; [assumption|]. apply is_date_iff in Dx. apply Dx. }
  assert (B : forall x, b_roll c d PRECEDING = Some x <->
     is_date x /\ ys <= year x <= ye /\ preceding (bday mask l) (ordinal d) (ordinal x)).
  { intros x. rewrite (roll_preceding_spec _ _ _ OK). split.
    - intros (_ & B & F & E). assert (Dx : is_date x) by (apply is_date_iff; split; [destruct OK; lia|assumption]).
      split; [assumption|]. split; [apply (in_years _ _ _ _ _ BC x Dx); assumption|assumption].
    - intros (Dx & Yx & F). split; [assumption|]. split; [apply (in_years _ _ _ _ _ BC x Dx); assumption|].
      split; [assumption|]. apply is_date_iff in Dx. apply Dx. }
  split; [assumption|]. split; [assumption|]. split; [reflexivity|]. intros Hb. rewrite A, B. repeat split; try assumption; try lia; try (intros; lia).
Qed.
Print Assumptions C11_roll_bounded.

Theorem C11_roll_unbounded : forall mask l c d, unbounded_calendar mask l c -> is_date d -> 8 <= ordinal d ->
  (exists x, u_roll c d FOLLOWING = Some x /\ is_date x /\ following (bday mask l) (ordinal d) (ordinal x)) /\
  (forall x, u_roll c d PRECEDING = Some x -> is_date x /\ preceding (bday mask l) (ordinal d) (ordinal x)) /\
  ((exists k, 8 <= k <= ordinal d /\ bday mask l k = true) -> exists x, u_roll c d PRECEDING = Some x) /\
  u_roll c d NONE = Some d /\
  (bday mask l (ordinal d) = true -> u_roll c d FOLLOWING = Some d /\ u_roll c d PRECEDING = Some d).
Proof.
  intros mask l c d UC D H. pose proof (unbounded_ok _ _ _ UC) as OK.
  destruct (u_roll_following _ _ _ OK d H) as (f & Ef & F).
  destruct (is_date_from f ltac:(destruct F; lia)) as (Df & Of).
  split; [|split; [|split; [|split]]].
  - exists (from_ordinal_unchecked f). rewrite Of. auto.
  - intros x E. destruct (u_roll_preceding_sound _ _ _ OK d x H E) as (r & -> & R1 & P).
    destruct (is_date_from r R1) as (Dr & Or). rewrite Or. auto.
  - intros EX. destruct (u_roll_preceding _ _ _ OK d H EX) as (r & E & _). eexists; eassumption.
  - reflexivity.
  - intros Hb. pose proof (proj2 (proj1 (is_date_iff d) D)) as Ed. split.
    + rewrite Ef. f_equal. rewrite Ed. f_equal. apply (following_unique (bday mask l) (ordinal d)); [assumption|].
      split; [lia|]. split; [assumption|]. intros; lia.
    + destruct (u_roll_preceding _ _ _ OK d H) as (r & E & _ & P); [exists (ordinal d); split; [lia|assumption]|].
      rewrite E. f_equal. rewrite Ed. f_equal. apply (preceding_unique (bday mask l) (ordinal d)); [assumption|].
      split; [lia|]. split; [assumption|]. intros; lia.
Qed.
Print Assumptions C11_roll_unbounded.
(** Sunday 2 January 2000 rolls over the two holidays to Wednesday 5; it has no
    preceding business day inside the calendar, but 31 December 1999 in the
    unbounded one. *)
Example C11_ex : b_roll ex_bcal (ymd_date 2000 1 2) FOLLOWING = Some (ymd_date 2000 1 5) /\
  b_roll ex_bcal (ymd_date 2000 1 2) PRECEDING = None /\
  b_roll ex_bcal (ymd_date 2000 1 9) PRECEDING = Some (ymd_date 2000 1 7) /\
  u_roll ex_ucal (ymd_date 2000 1 2) FOLLOWING = Some (ymd_date 2000 1 5) /\
  u_roll ex_ucal (ymd_date 2000 1 2) PRECEDING = Some (ymd_date 1999 12 31).
Proof. vm_compute. auto. Qed.

(** C12: the MODIFIED conventions, for calendars in which every month contains
    a business day. *)
Theorem C12_modified_bounded : forall mask l ys ye c, bounded_calendar mask l ys ye c -> 2 <= ys ->
  (forall d, is_date d -> ys <= year d <= ye -> month_has_business_day (bday mask l) (ordinal d)) ->
  forall d, is_date d -> ys <= year d <= ye ->
  (exists x, b_roll c d MODIFIED_FOLLOWING = Some x /\ is_date x /\
     modified_following (bday mask l) (ordinal d) (ordinal x) /\ same_month (ordinal x) (ordinal d)) /\
  (exists x, b_roll c d MODIFIED_PRECEDING = Some x /\ is_date x /\
     modified_preceding (bday mask l) (ordinal d) (ordinal x) /\ same_month (ordinal x) (ordinal d)).
Proof.
  intros mask l ys ye c BC Y2 DN d D Y. pose proof (proj1 (proj1 (is_date_iff d) D)) as O1. split.
  - destruct (roll_modfol _ _ _ _ _ BC d DN Y2 D Y) as (x & E & Dx & Yx & M). exists x.
    split; [assumption|]. split; [assumption|]. split; [assumption|].
    apply (modified_following_month (bday mask l)); [assumption|apply DN; assumption|assumption].
  - destruct (roll_modpre _ _ _ _ _ BC d DN Y2 D Y) as (x & E & Dx & Yx & M). exists x.
    split; [assumption|]. split; [assumption|]. split; [assumption|].
    apply (modified_preceding_month (bday mask l)); [assumption|apply DN; assumption|assumption].
Qed.
Print Assumptions C12_modified_bounded.

Theorem C12_modified_unbounded : forall mask l c, unbounded_calendar mask l c ->
  (forall o, 1 <= o -> month_has_business_day (bday mask l) o) ->
  forall d, is_date d -> 8 <= ordinal d -> (exists k, 8 <= k <= ordinal d /\ bday mask l k = true) ->
  (exists x, u_roll c d MODIFIED_FOLLOWING = Some x /\ is_date x /\
     modified_following (bday mask l) (ordinal d) (ordinal x) /\ same_month (ordinal x) (ordinal d)) /\
  (exists x, u_roll c d MODIFIED_PRECEDING = Some x /\ is_date x /\
     modified_preceding (bday mask l) (ordinal d) (ordinal x) /\ same_month (ordinal x) (ordinal d)).
Proof.
  intros mask l c UC DN d D H EX. split.
  - destruct (u_modfol _ _ _ UC d DN D H EX) as (x & E & Dx & X8 & M). exists x.
    split; [assumption|]. split; [assumption|]. split; [assumption|].
    apply (modified_following_month (bday mask l)); [lia|apply DN; lia|assumption].
  - destruct (u_modpre _ _ _ UC d DN D H EX) as (x & E & Dx & X8 & M). exists x.
    split; [assumption|]. split; [assumption|]. split; [assumption|].
    apply (modified_preceding_month (bday mask l)); [lia|apply DN; lia|assumption].
Qed.
Print Assumptions C12_modified_unbounded.

Theorem C12_modified_monotone : forall mask l ys ye c, bounded_calendar mask l ys ye c -> 2 <= ys ->
  (forall d, is_date d -> ys <= year d <= ye -> month_has_business_day (bday mask l) (ordinal d)) ->
  forall conv d1 d2 x1 x2, conv = MODIFIED_FOLLOWING \/ conv = MODIFIED_PRECEDING ->
  is_date d1 -> ys <= year d1 <= ye -> is_date d2 -> ys <= year d2 <= ye -> ordinal d1 <= ordinal d2 ->
  b_roll c d1 conv = Some x1 -> b_roll c d2 conv = Some x2 -> ordinal x1 <= ordinal x2.
Proof.
  intros mask l ys ye c BC Y2 DN conv d1 d2 x1 x2 CV D1 Yd1 D2 Yd2 L E1 E2.
  pose proof (proj1 (proj1 (is_date_iff d1) D1)) as O1. pose proof (proj1 (proj1 (is_date_iff d2) D2)) as O2.
  destruct CV as [-> | ->].
  - destruct (roll_modfol _ _ _ _ _ BC d1 DN Y2 D1 Yd1) as (y1 & F1 & Dy1 & _ & M1). rewrite E1 in F1. injection F1 as <-.
    destruct (roll_modfol _ _ _ _ _ BC d2 DN Y2 D2 Yd2) as (y2 & F2 & Dy2 & _ & M2). rewrite E2 in F2. injection F2 as <-.
    apply is_date_iff in Dy1, Dy2.
    apply (modified_following_mono (bday mask l) (ordinal d1) (ordinal d2)); auto; tauto.
  - destruct (roll_modpre _ _ _ _ _ BC d1 DN Y2 D1 Yd1) as (y1 & F1 & Dy1 & _ & M1). rewrite E1 in F1. injection F1 as <-.
    destruct (roll_modpre _ _ _ _ _ BC d2 DN Y2 D2 Yd2) as (y2 & F2 & Dy2 & _ & M2). rewrite E2 in F2. injection F2 as <-.
    apply is_date_iff in Dy1, Dy2.
    apply (modified_preceding_mono (bday mask l) (ordinal d1) (ordinal d2)); auto; tauto.
Qed.
Print Assumptions C12_modified_monotone.
(** Saturday 29 January 2000: Monday 31 is still January.  Sunday 30 April
    2000: the next business day is in May. *)
Example C12_ex : b_roll ex_bcal (ymd_date 2000 1 29) MODIFIED_FOLLOWING = Some (ymd_date 2000 1 31) /\
  b_roll ex_bcal (ymd_date 2000 4 30) MODIFIED_FOLLOWING = Some (ymd_date 2000 4 28) /\
  b_roll ex_bcal (ymd_date 2000 1 1) MODIFIED_PRECEDING = Some (ymd_date 2000 1 5) /\
  u_roll ex_ucal (ymd_date 2000 4 30) MODIFIED_FOLLOWING = Some (ymd_date 2000 4 28).
Proof. vm_compute. auto. Qed.

(** Months are compared by number only.  With working Mondays of which those
    from 10 January to 25 December 2000 are holidays, 15 January 2000 rolls to
    1 January 2001 although 3 January 2000 is a business day of its month. *)
Definition monday_only : list bool := [false; true; true; true; true; true; true].
Definition mondays_2000 : list Z := map (fun i => 730129 + 7 * i) (zrange 0 51).
Theorem C12_year_skip_refuted :
  let c := mk_ucal (Some monday_only) (Some mondays_2000) in
  business monday_only mondays_2000 730122 = true /\ year_month_of 730122 = (2000, 1) /\
  u_roll c (ymd_date 2000 1 15) MODIFIED_FOLLOWING = Some (ymd_date 2001 1 1).
Proof. split; [reflexivity|]. split; [|reflexivity]. 
  unfold year_month_of. destruct (from_ordinal_unchecked_repr 730122 ltac:(lia)) as (_ & (_ & E & _)).
  rewrite <- E. reflexivity.
Qed.
Print Assumptions C12_year_skip_refuted.

(** A bounded calendar that starts in year 1 refuses both MODIFIED conventions
    for every date: the padding day before its first day is not a valid date. *)
Theorem C12_year_one_refuted : forall mask l ye c d, bounded_calendar mask l 1 ye c ->
  b_roll c d MODIFIED_FOLLOWING = None /\ b_roll c d MODIFIED_PRECEDING = None.
Proof.
  intros mask l ye c d BC. destruct (bounded_ok _ _ _ _ _ BC) as (OK & (N & _)).
  apply is_nth_iff in N as (_ & N). change (ord (1, 1, 1)) with 1 in N.
  split; apply (modified_off1 _ _ _ _ _ BC); auto.
Qed.
Print Assumptions C12_year_one_refuted.
Example C12_year_one_ex : exists c, bounded_calendar sat_sun [] 1 1 c.
Proof. eexists. apply (bc_years _ None); [reflexivity|left; reflexivity|lia|reflexivity]. Qed.

(** C13 *)
Theorem C13_add_business_days_bounded : forall mask l ys ye c d n, bounded_calendar mask l ys ye c ->
  is_date d -> ys <= year d <= ye ->
  (* the n-th business day from a business day; refused from another day *)
  (forall x, b_add_business_days c d n NONE = Some x <->
     bday mask l (ordinal d) = true /\ is_date x /\ ys <= year x <= ye /\
     nth_business_day (bday mask l) (ordinal d) n (ordinal x)) /\
  (* with a convention: from the rolled date *)
  (forall conv, conv <> NONE ->
     b_add_business_days c d n conv = bind (b_roll c d conv) (fun d' => b_add_business_days c d' n NONE)) /\
  (* subtraction undoes addition *)
  (forall x, b_add_business_days c d n NONE = Some x -> b_subtract_business_days c x n NONE = Some d) /\
  (* m then n is m + n *)
  (forall m x, b_add_business_days c d m NONE = Some x ->
     b_add_business_days c x n NONE = b_add_business_days c d (m + n) NONE).
Proof.
  intros mask l ys ye c d n BC D Y. destruct (bounded_ok _ _ _ _ _ BC) as (OK & _).
  assert (A : forall d n, is_date d -> ys <= year d <= ye -> forall x, b_add_business_days c d n NONE = Some x <->
     bday mask l (ordinal d) = true /\ is_date x /\ ys <= year x <= ye /\
     nth_business_day (bday mask l) (ordinal d) n (ordinal x)).
  { clear d n D Y. intros d n D Y x. rewrite (add_none_spec _ _ _ OK). pose proof (proj1 (in_years _ _ _ _ _ BC d D) Y). split.
    - intros (_ & B & X & N & E). assert (Dx : is_date x) by (apply is_date_iff; split; [destruct OK; lia|assumption]).
      split; [assumption|]. split; [assumption|]. split; [apply (in_years _ _ _ _ _ BC x Dx); assumption|assumption].
    - intros (B & Dx & Yx & N). split; [assumption|]. split; [assumption|]. split; [apply (in_years _ _ _ _ _ BC x Dx); assumption|].
      split; [assumption|]. apply is_date_iff in Dx. apply Dx. }
  split; [apply A; assumption|]. split; [intros conv NN; apply (add_conv _ _ _ _ _ BC); assumption|]. split.
  - intros x E. apply (A d n D Y) in E as (B & Dx & Yx & N). unfold b_subtract_business_days. apply (A x (- n) Dx Yx).
    split; [apply N|]. split; [assumption|]. split; [assumption|]. apply nth_business_day_opp; assumption.
  - intros m x E. apply (A d m D Y) in E as (B & Dx & Yx & N).
    assert (Q : forall y, b_add_business_days c x n NONE = Some y <-> b_add_business_days c d (m + n) NONE = Some y).
    { intros y. rewrite (A x n Dx Yx), (A d (m + n) D Y). rewrite (nth_business_day_compose _ _ _ n _ (ordinal y) N).
      destruct N as (Nb & _). tauto. }
    destruct (b_add_business_days c x n NONE) as [y|] eqn:E1.
    + symmetry. apply Q. reflexivity.
    + destruct (b_add_business_days c d (m + n) NONE) as [y|] eqn:E2; [|reflexivity].
      specialize (Q y). destruct Q as [_ Q]. discriminate (Q eq_refl).
Qed.
Print Assumptions C13_add_business_days_bounded.

Theorem C13_add_business_days_unbounded : forall mask l c d n, unbounded_calendar mask l c -> is_date d -> 8 <= ordinal d ->
  (forall x, u_add_business_days c d n NONE = Some x ->
     bday mask l (ordinal d) = true /\ is_date x /\ nth_business_day (bday mask l) (ordinal d) n (ordinal x)) /\
  (forall x, bday mask l (ordinal d) = true -> is_date x -> 8 <= ordinal x ->
     nth_business_day (bday mask l) (ordinal d) n (ordinal x) -> u_add_business_days c d n NONE = Some x) /\
  (bday mask l (ordinal d) = false -> u_add_business_days c d n NONE = None) /\
  (forall conv, conv <> NONE -> (exists k, 8 <= k <= ordinal d /\ bday mask l k = true) ->
     u_add_business_days c d n conv = bind (u_roll c d conv) (fun d' => u_add_business_days c d' n NONE)) /\
  (forall x, 8 <= ordinal x -> u_add_business_days c d n NONE = Some x -> u_subtract_business_days c x n NONE = Some d) /\
  (forall m x y, 8 <= ordinal x -> 8 <= ordinal y -> u_add_business_days c d m NONE = Some x ->
     (u_add_business_days c x n NONE = Some y <-> u_add_business_days c d (m + n) NONE = Some y)).
Proof.
  intros mask l c d n UC D H. pose proof (unbounded_ok _ _ _ UC) as OK.
  assert (A : forall d n, 8 <= ordinal d -> forall x, u_add_business_days c d n NONE = Some x ->
     bday mask l (ordinal d) = true /\ is_date x /\ nth_business_day (bday mask l) (ordinal d) n (ordinal x)).
  { clear d n D H. intros d n H x E. destruct (u_add_none_sound _ _ _ OK d n x H E) as (B & r & -> & R1 & N).
    destruct (is_date_from r R1) as (Dr & Or). rewrite Or. auto. }
  assert (B : forall d n, 8 <= ordinal d -> forall x, bday mask l (ordinal d) = true -> is_date x -> 8 <= ordinal x ->
     nth_business_day (bday mask l) (ordinal d) n (ordinal x) -> u_add_business_days c d n NONE = Some x).
  { clear d n D H. intros d n H x Bd Dx X8 N. rewrite (u_add_none_complete _ _ _ OK d n (ordinal x) H Bd X8 N).
    f_equal. symmetry. apply is_date_iff. assumption. }
  split; [apply A; assumption|]. split; [apply B; assumption|].
  split; [intros Hb; apply (u_add_none_refuses _ _ _ OK); assumption|].
  split; [intros conv NN EX; apply (u_add_conv _ _ _ OK); try assumption; apply is_date_month; assumption|].
  split.
  - intros x X8 E. apply (A d n H) in E as (Bd & Dx & N). unfold u_subtract_business_days.
    apply (B x (- n)); try assumption; [apply N|]. apply nth_business_day_opp; assumption.
  - intros m x y X8 Y8 E. apply (A d m H) in E as (Bd & Dx & N). split; intros E2.
    + apply (A x n X8) in E2 as (Bx & Dy & N2). apply (B d (m + n)); try assumption.
      apply (nth_business_day_compose _ _ _ n _ (ordinal y) N). assumption.
    + apply (A d (m + n) H) in E2 as (_ & Dy & N2). apply (B x n); try assumption; [apply N|].
      apply (nth_business_day_compose _ _ _ n _ (ordinal y) N). assumption.
Qed.
Print Assumptions C13_add_business_days_unbounded.
Example C13_ex : b_add_business_days ex_bcal (ymd_date 2000 1 7) 5 NONE = Some (ymd_date 2000 1 14) /\
  b_add_business_days ex_bcal (ymd_date 2000 1 14) (-7) NONE = Some (ymd_date 2000 1 5) /\
  b_add_business_days ex_bcal (ymd_date 2000 1 3) 1 FOLLOWING = Some (ymd_date 2000 1 6) /\
  b_add_business_days ex_bcal (ymd_date 2000 1 3) 1 NONE = None /\
  u_add_business_days ex_ucal (ymd_date 2000 1 5) (-1) NONE = Some (ymd_date 1999 12 31).
Proof. vm_compute. auto. Qed.

(** C14 *)
Theorem C14_business_days_between :
  (forall mask l ys ye c d1 d2, bounded_calendar mask l ys ye c ->
     is_date d1 -> ys <= year d1 <= ye -> is_date d2 -> ys <= year d2 <= ye ->
     b_business_days_between c d1 d2 = Some (busdays (bday mask l) (ordinal d1) (ordinal d2))) /\
  (forall mask l c d1 d2, unbounded_calendar mask l c -> 8 <= ordinal d1 -> 8 <= ordinal d2 ->
     u_business_days_between c d1 d2 = Some (busdays (bday mask l) (ordinal d1) (ordinal d2))) /\
  (forall b o1 o2 o3, o1 <= o2 -> o2 <= o3 -> busdays b o1 o3 = busdays b o1 o2 + busdays b o2 o3) /\
  (forall b o1 o2, o2 <= o1 -> busdays b o1 o2 = 0) /\
  (forall b o1 o2, busdays b o1 o2 = Z.of_nat (length (filter b (zrange o1 (Z.to_nat (o2 - o1)))))) /\
  (forall c d p, b_business_days_in_period c d p = bind (date_add d p) (b_business_days_between c d)) /\
  (forall c d p, u_business_days_in_period c d p = bind (date_add d p) (u_business_days_between c d)).
Proof.
  split; [|split; [|split; [|split; [|split; [|split]]]]]; try reflexivity.
  - intros mask l ys ye c d1 d2 BC D1 Y1 D2 Y2. destruct (bounded_ok _ _ _ _ _ BC) as (OK & _).
    rewrite (between_spec _ _ _ OK). rewrite (in_bounds_years _ _ _ _ _ BC d1 D1 Y1), (in_bounds_years _ _ _ _ _ BC d2 D2 Y2). reflexivity.
  - intros mask l c d1 d2 UC H1 H2. apply u_between_spec; [apply unbounded_ok; assumption|assumption|assumption].
  - intros. apply busdays_split; assumption.
  - intros. apply busdays_empty; assumption.
  - intros b o1 o2. unfold busdays. generalize (Z.to_nat (o2 - o1)). intros n. revert o1. induction n; intros o1; [reflexivity|].
    rewrite zrange_S. cbn [count_from filter]. rewrite IHn. destruct (b o1); cbn [length]; lia.
Qed.
Print Assumptions C14_business_days_between.
Example C14_ex : b_business_days_between ex_bcal (ymd_date 2000 1 1) (ymd_date 2000 2 1) = Some 19 /\
  u_business_days_between ex_ucal (ymd_date 2000 1 1) (ymd_date 2000 2 1) = Some 19 /\
  b_business_days_between ex_bcal (ymd_date 2000 2 1) (ymd_date 2000 1 1) = Some 0.
Proof. vm_compute. auto. Qed.

(** C15: whatever the bounded calendar answers, the unbounded one answers too. *)
Theorem C15_calendars_agree : forall mask l ys ye bc uc,
  bounded_calendar mask l ys ye bc -> unbounded_calendar mask l uc -> 2 <= ys ->
  (forall d b, is_date d -> b_is_business_day bc d = Some b -> u_is_business_day uc d = Some b) /\
  (forall d x conv, is_date d -> conv = FOLLOWING \/ conv = PRECEDING -> b_roll bc d conv = Some x -> u_roll uc d conv = Some x) /\
  (forall d1 d2 n, is_date d1 -> is_date d2 -> b_business_days_between bc d1 d2 = Some n -> u_business_days_between uc d1 d2 = Some n) /\
  ((forall o, 1 <= o -> month_has_business_day (bday mask l) o) ->
   forall d x conv, is_date d -> b_roll bc d conv = Some x -> u_roll uc d conv = Some x) /\
  (forall d x n conv, is_date d ->
     (forall o, 1 <= o -> month_has_business_day (bday mask l) o) \/ conv = NONE \/ conv = FOLLOWING ->
     b_add_business_days bc d n conv = Some x -> u_add_business_days uc d n conv = Some x).
Proof.
  intros mask l ys ye bc uc BC UC Y2. destruct (bounded_ok _ _ _ _ _ BC) as (OK & _).
  pose proof (unbounded_ok _ _ _ UC) as UOK. pose proof (off_ys _ _ _ _ _ BC Y2) as O8.
  assert (FP : forall d x conv, is_date d -> conv = FOLLOWING \/ conv = PRECEDING -> b_roll bc d conv = Some x -> u_roll uc d conv = Some x).
  { intros d x conv D [-> | ->] E.
    - apply (roll_following_spec _ _ _ OK) in E as (I & Ix & F & Ex).
      destruct (u_roll_following _ _ _ UOK d ltac:(lia)) as (r & E & Fr). rewrite E. f_equal.
      rewrite (following_unique _ _ _ _ Fr F). symmetry. assumption.
    - apply (roll_preceding_spec _ _ _ OK) in E as (I & Ix & F & Ex).
      destruct (u_roll_preceding _ _ _ UOK d ltac:(lia)) as (r & E & _ & Fr).
      { exists (ordinal x). split; [destruct F; lia|apply F]. }
      rewrite E. f_equal. rewrite (preceding_unique _ _ _ _ Fr F). symmetry. assumption. }
  assert (RL : (forall o, 1 <= o -> month_has_business_day (bday mask l) o) ->
   forall d x conv, is_date d -> b_roll bc d conv = Some x -> u_roll uc d conv = Some x).
  { intros DN d x conv D E. destruct conv.
    - injection E as <-. reflexivity.
    - apply FP; auto.
    - assert (NN : MODIFIED_FOLLOWING <> NONE) by discriminate.
      destruct (roll_sound _ _ _ _ _ BC d MODIFIED_FOLLOWING x NN E) as (I & Ix & _).
      pose proof (proj2 (in_years _ _ _ _ _ BC d D) I) as Y.
      destruct (roll_modfol _ _ _ _ _ BC d) as (y & E' & Dy & Yy & M); try assumption.
      { intros d' D' Y'. apply DN. apply is_date_iff in D'. apply D'. }
      rewrite E in E'. injection E' as <-.
      destruct (u_modfol _ _ _ UC d DN D ltac:(lia)) as (y & E' & Dy' & _ & M').
      { destruct (DN 32 ltac:(lia)) as (k & K1 & K2 & K3). exists k. split; [|assumption].
        apply same_month_mi in K2. split.
        - destruct (Z_le_gt_dec 8 k); [assumption|]. pose proof (mi_mono k 31 ltac:(lia) ltac:(lia)).
          change (mi 32) with (12 * 1 + 1) in K2. change (mi 31) with (12 * 1 + 0) in H. lia.
        - destruct (Z_le_gt_dec k (ordinal d)); [assumption|]. pose proof (mi_mono 60 k ltac:(lia) ltac:(lia)).
          change (mi 32) with (12 * 1 + 1) in K2. change (mi 60) with (12 * 1 + 2) in H. lia. }
      rewrite E'. f_equal. apply is_date_inj; [assumption|assumption|]. eapply modified_following_unique; eassumption.
    - apply FP; auto.
    - assert (NN : MODIFIED_PRECEDING <> NONE) by discriminate.
      destruct (roll_sound _ _ _ _ _ BC d MODIFIED_PRECEDING x NN E) as (I & Ix & _).
      pose proof (proj2 (in_years _ _ _ _ _ BC d D) I) as Y.
      destruct (roll_modpre _ _ _ _ _ BC d) as (y & E' & Dy & Yy & M); try assumption.
      { intros d' D' Y'. apply DN. apply is_date_iff in D'. apply D'. }
      rewrite E in E'. injection E' as <-.
      destruct (u_modpre _ _ _ UC d DN D ltac:(lia)) as (y & E' & Dy' & Y8 & M').
      { destruct (DN 32 ltac:(lia)) as (k & K1 & K2 & K3). exists k. split; [|assumption].
        apply same_month_mi in K2. split.
        - destruct (Z_le_gt_dec 8 k); [assumption|]. pose proof (mi_mono k 31 ltac:(lia) ltac:(lia)).
          change (mi 32) with (12 * 1 + 1) in K2. change (mi 31) with (12 * 1 + 0) in H. lia.
        - destruct (Z_le_gt_dec k (ordinal d)); [assumption|]. pose proof (mi_mono 60 k ltac:(lia) ltac:(lia)).
          change (mi 32) with (12 * 1 + 1) in K2. change (mi 60) with (12 * 1 + 2) in H. lia. }
      rewrite E'. f_equal. apply is_date_inj; [assumption|assumption|].
      eapply (modified_preceding_unique (bday mask l) (ordinal d)); [lia|lia|eassumption|eassumption]. }
  assert (AN : forall d x n, is_date d -> b_add_business_days bc d n NONE = Some x -> u_add_business_days uc d n NONE = Some x).
  { intros d x n D E. apply (add_none_spec _ _ _ OK) in E as (I & Bd & Ix & N & Ex).
    rewrite (u_add_none_complete _ _ _ UOK d n (ordinal x) ltac:(lia) Bd ltac:(lia) N). f_equal. symmetry. assumption. }
  split; [|split; [|split; [|split]]]; try assumption.
  - intros d b D E. rewrite (is_business_day_spec _ _ _ OK) in E.
    destruct (in_bounds bc (ordinal d)) eqn:I; [|discriminate]. apply in_bounds_iff in I.
    rewrite (u_is_business_day_spec _ _ _ UOK) by lia. assumption.
  - intros d1 d2 n D1 D2 E. rewrite (between_spec _ _ _ OK) in E.
    destruct (in_bounds bc (ordinal d1)) eqn:I1; [|discriminate]. destruct (in_bounds bc (ordinal d2)) eqn:I2; [|discriminate].
    apply in_bounds_iff in I1, I2. rewrite (u_between_spec _ _ _ UOK) by lia. assumption.
  - intros d x n conv D CV E.
    assert (conv = NONE \/ conv <> NONE) as [-> |NN] by (destruct conv; (left; reflexivity) || (right; discriminate)).
    + apply AN; assumption.
    + rewrite (add_conv _ _ _ _ _ BC) in E by assumption.
      destruct (b_roll bc d conv) as [y|] eqn:R; [|discriminate]. cbn [bind] in E.
      destruct (roll_sound _ _ _ _ _ BC d conv y NN R) as (I & Iy & By & Ey).
      assert (Dy : is_date y) by (apply is_date_iff; split; [lia|assumption]).
      assert (UR : u_roll uc d conv = Some y).
      { destruct CV as [DN|[-> | ->]]; [apply RL; assumption|congruence|apply FP; auto]. }
      destruct CV as [DN|[-> | ->]]; [|congruence|].
      * rewrite (u_add_conv _ _ _ UOK); [|lia|apply is_date_month; assumption|assumption|].
        -- rewrite UR. cbn [bind]. apply AN; assumption.
        -- destruct (DN 32 ltac:(lia)) as (k & K1 & K2 & K3). exists k. split; [|assumption].
           apply same_month_mi in K2. split.
           ++ destruct (Z_le_gt_dec 8 k); [assumption|]. pose proof (mi_mono k 31 ltac:(lia) ltac:(lia)).
              change (mi 32) with (12 * 1 + 1) in K2. change (mi 31) with (12 * 1 + 0) in H. lia.
           ++ destruct (Z_le_gt_dec k (ordinal d)); [assumption|]. pose proof (mi_mono 60 k ltac:(lia) ltac:(lia)).
              change (mi 32) with (12 * 1 + 1) in K2. change (mi 60) with (12 * 1 + 2) in H. lia.
      * apply (AN y x n Dy) in E.
        unfold u_add_business_days, u_roll, apply_roll_biz_space in *.
        rewrite (to_biz _ _ _ UOK) in UR |- * by lia. rewrite (to_biz _ _ _ UOK) in E by lia. cbn [bind] in *.
        unfold bday in *. rewrite By in E. cbn [negb] in E.
        apply (roll_following_spec _ _ _ OK) in R as (_ & _ & F & _).
        assert (Q : (if business mask (map ordinal l) (ordinal d)
                     then busdays (business mask (map ordinal l)) 0 (ordinal d) + bz (business mask (map ordinal l)) (ordinal d) - 1
                     else busdays (business mask (map ordinal l)) 0 (ordinal d) + bz (business mask (map ordinal l)) (ordinal d) - 1 + 1)
                  = busdays (business mask (map ordinal l)) 0 (ordinal y) + bz (business mask (map ordinal l)) (ordinal y) - 1).
        { rewrite (following_rank _ 0 (ordinal d) (ordinal y)); [|lia|assumption].
          unfold bz. rewrite By. destruct (business mask (map ordinal l) (ordinal d)); lia. }
        rewrite Q. exact E.
Qed.
Print Assumptions C15_calendars_agree.
Example C15_ex : bounded_calendar sat_sun ex_hol 2000 2000 ex_bcal /\ unbounded_calendar sat_sun ex_hol ex_ucal.
Proof. split; [exact ex_bounded|exact ex_unbounded]. Qed.

(** C16: dates outside the years of a bounded calendar are refused; every
    answer is a real business day inside them. *)
Theorem C16_out_of_bounds_refused : forall mask l ys ye c, bounded_calendar mask l ys ye c ->
  (forall d, is_date d -> ~ ys <= year d <= ye ->
     b_is_business_day c d = None /\
     (forall conv, conv <> NONE -> b_roll c d conv = None) /\
     (forall n conv, b_add_business_days c d n conv = None) /\
     (forall d', b_business_days_between c d d' = None /\ b_business_days_between c d' d = None)) /\
  (forall d conv x, conv <> NONE -> b_roll c d conv = Some x ->
     is_date x /\ ys <= year x <= ye /\ bday mask l (ordinal x) = true) /\
  (forall d n conv x, b_add_business_days c d n conv = Some x ->
     is_date x /\ ys <= year x <= ye /\ bday mask l (ordinal x) = true).
Proof.
  intros mask l ys ye c BC. destruct (bounded_ok _ _ _ _ _ BC) as (OK & _).
  assert (RS : forall d conv x, conv <> NONE -> b_roll c d conv = Some x ->
     is_date x /\ ys <= year x <= ye /\ bday mask l (ordinal x) = true).
  { intros d conv x NN E. destruct (roll_sound _ _ _ _ _ BC d conv x NN E) as (_ & B & Bx & Ex).
    assert (Dx : is_date x) by (apply is_date_iff; split; [destruct OK; lia|assumption]).
    split; [assumption|]. split; [apply (in_years _ _ _ _ _ BC x Dx); assumption|assumption]. }
  assert (AN : forall d n x, b_add_business_days c d n NONE = Some x ->
     boffset c <= ordinal d < boffset c + bsize c /\ is_date x /\ ys <= year x <= ye /\ bday mask l (ordinal x) = true).
  { intros d n x E. apply (add_none_spec _ _ _ OK) in E as (I & Bd & Ix & N & Ex).
    assert (Dx : is_date x) by (apply is_date_iff; split; [destruct OK; lia|assumption]).
    split; [assumption|]. split; [assumption|]. split; [apply (in_years _ _ _ _ _ BC x Dx); assumption|apply N]. }
  split; [|split; [assumption|]].
  - intros d D NY. assert (NI : ~ (boffset c <= ordinal d < boffset c + bsize c)) by (intros I; apply NY, (in_years _ _ _ _ _ BC d D), I).
    assert (IB : in_bounds c (ordinal d) = false) by (apply not_true_iff_false; intros Q; apply NI, in_bounds_iff, Q).
    assert (RN : forall conv, conv <> NONE -> b_roll c d conv = None).
    { intros conv NN. destruct (b_roll c d conv) eqn:E; [|reflexivity]. exfalso. apply NI. apply (roll_sound _ _ _ _ _ BC d conv d0 NN E). }
    split; [|split; [assumption|split]].
    + rewrite (is_business_day_spec _ _ _ OK), IB. reflexivity.
    + intros n conv. assert (conv = NONE \/ conv <> NONE) as [-> |NN] by (destruct conv; (left; reflexivity) || (right; discriminate)).
      * destruct (b_add_business_days c d n NONE) eqn:E; [|reflexivity]. exfalso. apply NI. apply (AN d n d0 E).
      * rewrite (add_conv _ _ _ _ _ BC) by assumption. rewrite RN by assumption. reflexivity.
    + intros d'. rewrite !(between_spec _ _ _ OK), IB. rewrite andb_false_r. auto.
  - intros d n conv x E. assert (conv = NONE \/ conv <> NONE) as [-> |NN] by (destruct conv; (left; reflexivity) || (right; discriminate)).
    + apply (AN d n x E).
    + rewrite (add_conv _ _ _ _ _ BC) in E by assumption. destruct (b_roll c d conv) as [y|] eqn:R; [|discriminate].
      apply (AN y n x E).
Qed.
Print Assumptions C16_out_of_bounds_refused.
(** 29 December 2000 is the last business day of the calendar. *)
Example C16_ex : b_roll ex_bcal (ymd_date 2000 12 30) FOLLOWING = None /\
  b_add_business_days ex_bcal (ymd_date 2000 12 29) 1 NONE = None /\
  b_is_business_day ex_bcal (ymd_date 2001 1 1) = None.
Proof. vm_compute. auto. Qed.
