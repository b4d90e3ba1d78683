(** C88: Eurodollar and overnight index futures. *)
From Coq Require Import Reals QArith Qreals ZArith List Bool Lia Lra ZifyBool Sorted.
From Verif Require Import InterpModel BrentModel BrentProofs ExtReal BootstrapModel BootstrapProofs HaganWestModel TensorModel IntegrateModel SegmentModel DateModel DateSpec DateRepr DateProofs DateProofs2 DayCountModel
  CalSpec CalSetup CalProofs PropsCalAux PropsCal BoundedCalModel UnboundedCalModel ScheduleModel ScheduleSpec ScheduleProofs ScheduleProofs2 ScheduleProofs3 ScheduleProofs4 PropsSchedule RatesModel InstrumentModel InstrumentSpec
  InstrumentProofs PropsInstrument PropsInstrument2 ImpliedVolProofs CapFloorProofs FuturesModel FuturesSpec FuturesProofs.
Import ListNotations.
Open Scope R_scope.

Definition or_default {A} (d : A) (o : option A) : A := match o with Some a => a | None => d end.

(** ** Eurodollar futures *)
Lemma forward_fin curve c s e : curve e <> 0 -> daycount_fraction c s e <> 0 -> forward_rate curve s e (daycount_fraction c s e) = Fin (implied_rate curve c s e).
Proof. intros A B. unfold forward_rate. rewrite xdiv_f by exact A. unfold xsub. cbn [xopp xadd]. rewrite xdiv_f by exact B. reflexivity. Qed.
(** The price is 100 N (1 - L) for the rate L that the curve implies from the
    expiry to the end of the term or the maturity, and nothing else is accepted
    than exactly one of these two. *)
Theorem C88_eurodollar : forall expiry c rate_term maturity,
  ((exists f, eurodollar expiry c rate_term maturity = Some f) <->
     (exists p e, rate_term = Some p /\ maturity = None /\ date_add expiry p = Some e) \/ (exists e, rate_term = None /\ maturity = Some e)) /\
  forall e, (exists p, rate_term = Some p /\ maturity = None /\ date_add expiry p = Some e) \/ (rate_term = None /\ maturity = Some e) ->
    exists f, eurodollar expiry c rate_term maturity = Some f /\
    forall notional valuation curve, 0 < curve expiry -> 0 < curve e -> daycount_fraction (or_default ACTUAL_360 c) expiry e <> 0 ->
      exists L, eurodollar_price f notional valuation curve = Fin (100 * notional * (1 - L)) /\
        curve expiry = (1 + L * daycount_fraction (or_default ACTUAL_360 c) expiry e) * curve e.
Proof.
  intros expiry c rt m. split.
  - unfold eurodollar. split.
    + destruct rt as [p|], m as [e|]; intros [f E]; try discriminate E.
      * left. destruct (date_add expiry p) as [e|] eqn:D; [|discriminate E]. exists p, e. auto.
      * right. exists e. auto.
    + intros [(p & e & -> & -> & D)|(e & -> & ->)]; [rewrite D|]; cbn [bind]; eexists; reflexivity.
  - intros e H.
    assert (E : eurodollar expiry c rt m = Some (expiry, e, daycount_fraction (or_default ACTUAL_360 c) expiry e)).
    { unfold eurodollar. destruct H as [(p & -> & -> & D)|[-> ->]]; [rewrite D|]; reflexivity. }
    eexists. split; [exact E|]. intros N v curve P1 P2 F. exists (implied_rate curve (or_default ACTUAL_360 c) expiry e). split.
    + unfold eurodollar_price. rewrite forward_fin by (assumption || lra). reflexivity.
    + unfold implied_rate. field. split; [lra|exact F].
Qed.
Print Assumptions C88_eurodollar.

(** ** Overnight index futures *)
Lemma forall2_of_map {A B} (P : A -> B -> Prop) (f : A -> B) l : (forall x, In x l -> P x (f x)) -> Forall2 P l (map f l).
Proof. induction l as [|x l IH]; intros H; cbn; constructor; [apply H; left; reflexivity|apply IH; intros; apply H; right; assumption]. Qed.
Lemma fraction_zero c x : is_date x -> daycount_fraction c x x = 0.
Proof. intros D. exact (fraction_same c x D). Qed.
Definition row_ok (b : Z -> bool) (k : date * date) (l : list date) : Prop :=
  exists l0 r, l = fst k :: l0 ++ [next_day (snd k)] /\ Forall is_date l0 /\ business_dates b (next_day (fst k)) (snd k) r /\
    forall f, (forall x, is_date x -> f x x = 0) -> over_periods f l = over_periods f (fst k :: r ++ [next_day (snd k)]) /\ compounded f l = compounded f (fst k :: r ++ [next_day (snd k)]).
Definition good (b : Z -> bool) (calendar : option (date -> option date)) (k : date * date) : Prop :=
  is_date (fst k) /\ is_date (snd k) /\ (ordinal (fst k) + 1 < ordinal (snd k))%Z /\ b (ordinal (snd k)) = true /\ rolls b (following_roll calendar) (fst k) (snd k).
Lemma resets_ok b calendar cs : Forall (good b calendar) cs -> exists ds, map_opt (fun '(s, e) => contract_resets (following_roll calendar) s e) cs = Some ds /\ Forall2 (row_ok b) cs ds.
Proof.
  induction 1 as [|[s e] cs (D1 & D2 & O & B & RL) F (ds & E & G)]; [exists []; split; [reflexivity|constructor]|]. cbn [fst snd] in *.
  destruct (contract_dates_of b (following_roll calendar) s e D1 D2 O B RL) as (l & r & E1 & E2 & E3 & E4).
  exists ((s :: l ++ [next_day e]) :: ds). cbn [map_opt]. rewrite E1. cbn in E |- *. rewrite E. split; [reflexivity|]. constructor; [|exact G].
  exists l, r. cbn [fst snd]. auto.
Qed.
Lemma pairs_back {A B} (cs : list (A * B)) : combine (map fst cs) (map snd cs) = cs.
Proof. induction cs as [|[a b] cs IH]; [reflexivity|]. cbn. rewrite IH. reflexivity. Qed.
Lemma removelast_snoc {A} (l : list A) x : removelast (l ++ [x]) = l.
Proof. rewrite removelast_app by discriminate. apply app_nil_r. Qed.
Lemma map_next ds : Forall is_date ds -> map_opt (fun d => date_add d one_day) ds = Some (map next_day ds).
Proof. induction 1 as [|d ds D F IH]; [reflexivity|]. cbn [map_opt map]. rewrite (proj1 (next_day_spec d D)), IH. reflexivity. Qed.
Lemma map2_map_r {A B C} (f : A -> B -> C) g l : map2 f l (map g l) = map (fun x => f x (g x)) l.
Proof. unfold map2. induction l as [|x l IH]; [reflexivity|]. cbn. rewrite IH. reflexivity. Qed.
Lemma group_ids_map {A B} (g : A -> B) (size : B -> nat) l : group_ids size (map g l) = group_ids (fun x => size (g x)) l.
Proof. unfold group_ids. rewrite map_length. generalize 0%nat. induction l as [|x l IH]; intros k; [reflexivity|]. cbn [length seq map combine concat]. rewrite IH. reflexivity. Qed.
Lemma flat_map_in {A B} (f g : A -> list B) l : (forall x, In x l -> f x = g x) -> flat_map f l = flat_map g l.
Proof. induction l as [|x l IH]; intros H; [reflexivity|]. cbn. rewrite (H x (or_introl eq_refl)), IH by (intros; apply H; right; assumption). reflexivity. Qed.
(** The price of a batch from the dates of its contracts. *)
Lemma price_rows starts ends c a unit calendar ds d0 dl : (length starts <= length ends)%nat -> ds = dl ++ [d0] ->
  map_opt (fun '(s, e) => contract_resets (following_roll calendar) s e) (combine starts ends) = Some ds ->
  (forall l, In l ds -> (2 <= length l)%nat /\ Forall is_date (removelast l)) -> or_default ACTUAL_360 c <> THIRTY_360_ISDA ->
  exists f, overnight_setup starts ends c a unit calendar = Some f /\ forall valuation curve, (forall d, 0 < curve d) ->
    (forall l, In l ds -> over_periods (daycount_fraction (or_default ACTUAL_360 c)) l <> 0) ->
    overnight_price f valuation curve = map (fun l => Fin (100 * (1 -
      (let accrued := fun s e => overnight_rate curve (or_default ACTUAL_360 c) s * daycount_fraction (or_default ACTUAL_360 c) s e in
       match or_default COMPOUNDING a with COMPOUNDING => compounded accrued l - 1 | ARITHMETIC_AVERAGE => over_periods accrued l end / over_periods (daycount_fraction (or_default ACTUAL_360 c)) l)))) ds.
Proof.
  intros LN EDS EM OK NT. unfold overnight_setup.
  replace (Nat.ltb (length ends) (length starts)) with false by (symmetry; apply Nat.ltb_ge; exact LN).
  assert (EM' : map_opt (fun '(s, e) => contract_resets (following_roll calendar) s e) (combine starts ends) = Some ds) by exact EM.
  fold (or_default ACTUAL_360 c). fold (or_default COMPOUNDING a). set (c' := or_default ACTUAL_360 c) in *. set (a' := or_default COMPOUNDING a).
  rewrite EM'. cbn [bind]. rewrite concat_of_map.
  assert (DT : Forall is_date (flat_map (@removelast date) ds)). { apply Forall_forall. intros d I. apply in_flat_map in I. destruct I as (l & I & J). exact (proj1 (Forall_forall _ _) (proj2 (OK l I)) d J). }
  rewrite (map_next _ DT). cbn [bind].
  assert (MP : forall A (x y : A), match ds with [] => x | _ :: _ => y end = y). { intros. rewrite EDS. destruct dl; reflexivity. }
  rewrite MP. eexists. split; [reflexivity|]. intros v curve PC NZ. unfold overnight_price. cbn [of_start of_end of_accrual of_fractions of_contract of_average].
  rewrite map2_map_r, concat_of_map.

  replace (map (fun '(s, e, fr) => forward_rate curve s e fr) (combine (combine (flat_map (@removelast date) ds) (map next_day (flat_map (@removelast date) ds))) (map (fun x => daycount_fraction c' x (next_day x)) (flat_map (@removelast date) ds))))
    with (map (fun d => Fin (overnight_rate curve c' d)) (flat_map (@removelast date) ds)).
  2:{ clear - DT PC NT. induction DT as [|d l D F IH]; [reflexivity|]. cbn [map combine]. rewrite <- IH. f_equal. symmetry. apply forward_fin.
      - apply Rgt_not_eq. apply PC.
      - apply Rgt_not_eq. apply act_positive; [exact NT|]. rewrite (proj2 (proj2 (next_day_spec d D))). lia. }
  rewrite group_ids_map, !flat_of_map.
  set (size := fun x : list date => length (map2 (daycount_fraction c') (removelast x) (tl x))).
  set (acc := fun s e => overnight_rate curve c' s * daycount_fraction c' s e).
  assert (SZ : forall l, (2 <= length l)%nat -> size l = (length l - 1)%nat). { intros l L. unfold size. rewrite map2_length; rewrite ?tl_length, !removelast_length; reflexivity. }
  assert (TOT : xsegment_sum (flat_map (fun x => map Fin (map2 (daycount_fraction c') (removelast x) (tl x))) ds) (group_ids size ds) = map (fun l => Fin (over_periods (daycount_fraction c') l)) ds).
  { rewrite EDS. rewrite (BootstrapProofs.segment_rows (fun x => map Fin (map2 (daycount_fraction c') (removelast x) (tl x))) size dl d0).
    - apply map_ext. intros l. apply sum_periods.
    - apply Forall_forall. intros x _. rewrite map_length. reflexivity.
    - rewrite SZ by (apply OK; rewrite EDS; apply in_or_app; right; left; reflexivity). pose proof (proj1 (OK d0 ltac:(rewrite EDS; apply in_or_app; right; left; reflexivity))). lia. }
  assert (ACC : xzip xmul (flat_map (fun x => map (fun d => Fin (overnight_rate curve c' d)) (removelast x)) ds) (flat_map (fun x => map Fin (map2 (daycount_fraction c') (removelast x) (tl x))) ds) =
     flat_map (fun x => map Fin (map2 acc (removelast x) (tl x))) ds).
  { unfold xzip. change (map (fun '(x, y) => xmul x y) (combine ?p ?q)) with (map2 xmul p q). rewrite (flat2 xmul).
    - apply flat_map_in. intros l _. rewrite <- (map_map (overnight_rate curve c') Fin). change (map2 xmul ?p ?q) with (xzip xmul p q). rewrite zip_fins. unfold acc. rewrite <- mult_rows. reflexivity.
    - intros l I. rewrite !map_length. rewrite map2_length; rewrite ?tl_length, ?removelast_length; reflexivity. }
  rewrite ACC, TOT.
  assert (D0 : size d0 <> 0%nat). { rewrite SZ by (apply OK; rewrite EDS; apply in_or_app; right; left; reflexivity). pose proof (proj1 (OK d0 ltac:(rewrite EDS; apply in_or_app; right; left; reflexivity))). lia. }
  assert (FIN : forall (g : list date -> R), map (fun r => xmul (Fin 100) (xsub (Fin 1) r)) (xzip xdiv (map (fun l => Fin (g l)) ds) (map (fun l => Fin (over_periods (daycount_fraction c') l)) ds)) =
     map (fun l => Fin (100 * (1 - g l / over_periods (daycount_fraction c') l))) ds).
  { intros g. clear - NZ. unfold xzip. induction ds as [|l ds IH]; [reflexivity|]. cbn [map combine]. rewrite IH by (intros; apply NZ; right; assumption). f_equal.
    rewrite xdiv_f by (apply NZ; left; reflexivity). reflexivity. }
  destruct a'.
  - assert (PR : xsegment_prod (map (xadd (Fin 1)) (flat_map (fun x => map Fin (map2 acc (removelast x) (tl x))) ds)) (group_ids size ds) = map (fun l => Fin (compounded acc l)) ds).
    { rewrite flat_of_map, EDS. rewrite (segment_products (fun x => map (xadd (Fin 1)) (map Fin (map2 acc (removelast x) (tl x)))) size dl d0).
      - apply map_ext. intros l. apply product_periods.
      - apply Forall_forall. intros x _. rewrite !map_length. unfold size, map2. rewrite !map_length. reflexivity.
      - exact D0. }
    rewrite PR, map_map. exact (FIN (fun l => compounded acc l - 1)).
  - assert (PR : xsegment_sum (flat_map (fun x => map Fin (map2 acc (removelast x) (tl x))) ds) (group_ids size ds) = map (fun l => Fin (over_periods acc l)) ds).
    { rewrite EDS. rewrite (BootstrapProofs.segment_rows (fun x => map Fin (map2 acc (removelast x) (tl x))) size dl d0).
      - apply map_ext. intros l. apply sum_periods.
      - apply Forall_forall. intros x _. rewrite !map_length. unfold size, map2. rewrite !map_length. reflexivity.
      - exact D0. }
    rewrite PR. exact (FIN (over_periods acc)).
Qed.

(** Every contract of a batch settles at 100 (1 - R), where R averages or
    compounds the overnight rates of its first day and of the business days up
    to its last one.  Missing: 30/360 day counts, contracts that end on a
    holiday and contracts of two days, for which it fails (below). *)
Theorem C88_overnight_partial : forall b cs c a unit calendar, cs <> [] -> or_default ACTUAL_360 c <> THIRTY_360_ISDA ->
  (forall s e, In (s, e) cs -> is_date s /\ is_date e /\ (ordinal s + 1 < ordinal e)%Z /\ b (ordinal e) = true /\ rolls b (following_roll calendar) s e) ->
  exists f, overnight_setup (map fst cs) (map snd cs) c a unit calendar = Some f /\
  forall valuation curve, (forall d, 0 < curve d) -> exists ps, overnight_price f valuation curve = map Fin ps /\
    Forall2 (fun k p => exists l, rate_days b (fst k) (snd k) l /\
      p = 100 * (1 - settlement_rate (or_default COMPOUNDING a) curve (or_default ACTUAL_360 c) (snd k) l)) cs ps.
Proof.
  intros b cs c a unit calendar NE NT OK.
  assert (G : Forall (good b calendar) cs). { apply Forall_forall. intros [s e] I. exact (OK s e I). }
  destruct (resets_ok b calendar cs G) as (ds & EM & F).
  destruct (exists_last (l := ds)) as (dl & d0 & EDS). { intros ->. inversion F; subst. contradiction. }
  assert (RO : forall l, In l ds -> (2 <= length l)%nat /\ Forall is_date (removelast l) /\ over_periods (daycount_fraction (or_default ACTUAL_360 c)) l <> 0).
  { clear - F G NT. induction F as [|[s e] l cs ds (l0 & r & -> & D & B & H) F IH]; [intros l []|]. inversion G as [|? ? (D1 & D2 & O & _) G']; subst. cbn [fst snd] in *.
    intros l [<-|I]; [|exact (IH G' l I)]. split; [cbn; rewrite app_length; cbn; lia|]. split.
    - change (s :: l0 ++ [next_day e]) with ((s :: l0) ++ [next_day e]). rewrite removelast_snoc. constructor; assumption.
    - rewrite (actual_total _ _ _ NT), last_last. apply Rgt_not_eq. apply act_positive; [exact NT|]. rewrite (proj2 (proj2 (next_day_spec e D2))). lia. }
  destruct (price_rows (map fst cs) (map snd cs) c a unit calendar ds d0 dl) as (f & EF & P).
  - rewrite !map_length. lia.
  - exact EDS.
  - rewrite pairs_back. exact EM.
  - intros l I. destruct (RO l I) as (A & B & _). split; assumption.
  - exact NT.
  - exists f. split; [exact EF|]. intros v curve PC. rewrite (P v curve PC) by (intros l I; apply RO; exact I).
    eexists. split; [symmetry; apply map_map|].
    clear - F. induction F as [|[s e] l cs ds (l0 & r & -> & D & B & H) F IH]; [constructor|]. cbn [map]. constructor; [|exact IH]. cbn [fst snd] in *.
    exists (s :: r). split; [exists r; split; [reflexivity|exact B]|]. unfold settlement_rate. cbn [app].
    destruct (H (daycount_fraction (or_default ACTUAL_360 c)) (fraction_zero _)) as [T _].
    destruct (H (fun s e => overnight_rate curve (or_default ACTUAL_360 c) s * daycount_fraction (or_default ACTUAL_360 c) s e)) as [A C].
    { intros x X. rewrite fraction_zero by exact X. ring. }
    destruct (or_default COMPOUNDING a); rewrite T; [rewrite C|rewrite A]; reflexivity.
Qed.
Print Assumptions C88_overnight_partial.

(** The days of a contract are determined, increasing, and their accrual is the
    whole length of the contract. *)
Lemma sorted_filter b lo n : StronglySorted Z.lt (filter b (zrange lo n)) /\ Forall (fun o => (lo <= o < lo + Z.of_nat n)%Z) (filter b (zrange lo n)).
Proof.
  revert lo. induction n as [|n IH]; intros lo; [split; constructor|]. rewrite zrange_cons. cbn [filter]. destruct (IH (lo + 1)%Z) as [S1 F1].
  assert (F2 : Forall (fun o => (lo <= o < lo + Z.of_nat (S n))%Z) (filter b (zrange (lo + 1) n))) by (eapply Forall_impl; [|exact F1]; cbn; intros; lia).
  destruct (b lo); [|split; assumption]. split; [constructor; [exact S1|]|constructor; [lia|exact F2]]. eapply Forall_impl; [|exact F1]. cbn. intros. lia.
Qed.
Lemma sorted_ordinals l : StronglySorted Z.lt (map ordinal l) -> ScheduleSpec.increasing l.
Proof.
  induction l as [|x l IH]; intros H; [constructor|]. cbn in H. inversion H as [|? ? H1 H2]; subst. constructor; [apply IH; exact H1|].
  apply Forall_forall. intros y I. rewrite Forall_forall in H2. apply H2. apply in_map. exact I.
Qed.
Theorem C88_days : forall b s e c l, is_date s -> is_date e -> (ordinal s < ordinal e)%Z -> rate_days b s e l ->
  ScheduleSpec.increasing (l ++ [next_day e]) /\ Forall is_date l /\ (forall l', rate_days b s e l' -> l' = l) /\
  (c <> THIRTY_360_ISDA -> over_periods (daycount_fraction c) (l ++ [next_day e]) = daycount_fraction c s (next_day e) /\
     (forall x y, daycount_fraction c x y = IZR (ordinal y - ordinal x) / (match c with ACTUAL_360 => 360 | _ => 365 end))).
Proof.
  intros b s e c l DS DE O (r & -> & D & E). destruct (next_day_spec s DS) as (_ & DN & ON). destruct (next_day_spec e DE) as (_ & DM & OM).
  destruct (sorted_filter b (ordinal (next_day s)) (Z.to_nat (ordinal e - ordinal (next_day s) + 1))) as [SF FF]. rewrite <- E in SF, FF.
  split; [|split; [constructor; assumption|split]].
  - apply sorted_ordinals. cbn [app map]. rewrite map_app. cbn [map]. constructor.
    + revert SF FF. generalize (map ordinal r) as o. intros o SF FF. induction SF as [|x o SF IH F]; [repeat constructor|]. inversion FF; subst. cbn [app]. constructor; [apply IH; assumption|].
      apply Forall_app. split; [exact F|]. repeat constructor. lia.
    + apply Forall_app. split; [|repeat constructor; lia]. eapply Forall_impl; [|exact FF]. cbn. intros. lia.
  - intros l' (r' & -> & D' & E'). f_equal. rewrite <- E in E'. clear - D D' E'. revert r' D' E'. induction D as [|x r X F IH]; intros [|y r'] D' E'; cbn in E'; try discriminate E'; [reflexivity|].
    inversion D'; subst. injection E' as E1 E2. f_equal; [apply is_date_inj; assumption|apply IH; assumption].
  - intros NT. split; [cbn [app]; rewrite (actual_total _ _ _ NT), last_last; reflexivity|]. intros x y.
    destruct c; [..|congruence]; unfold daycount_fraction, actual_360, actual_365_fixed, days_until, Q2R; cbn; rewrite ?Pos.mul_1_r, ?Z.mul_1_r; reflexivity.
Qed.
Print Assumptions C88_days.

(** If every day is a business day, compounding gives the simple rate of the
    whole contract. *)
Lemma compound_all curve c (PC : forall d, 0 < curve d) (NT : c <> THIRTY_360_ISDA) r : forall a, is_date a -> Forall is_date r -> map ordinal r = zrange (ordinal a + 1) (length r) ->
  compounded (fun s e => overnight_rate curve c s * daycount_fraction c s e) (a :: r ++ [next_day (last r a)]) = curve a / curve (next_day (last r a)).
Proof.
  assert (ST : forall d, is_date d -> 1 + overnight_rate curve c d * daycount_fraction c d (next_day d) = curve d / curve (next_day d)).
  { intros d D. unfold overnight_rate, implied_rate. pose proof (PC (next_day d)). assert (daycount_fraction c d (next_day d) <> 0). { apply Rgt_not_eq. apply act_positive; [exact NT|]. rewrite (proj2 (proj2 (next_day_spec d D))). lia. } field. split; [assumption|lra] || (split; [lra|assumption]). }
  induction r as [|b r IH]; intros a DA DR E.
  - cbn [app last compounded]. rewrite ST by exact DA. ring.
  - inversion DR; subst. cbn [length] in E. rewrite zrange_cons in E. cbn [map] in E. injection E as E1 E2.
    assert (EB : b = next_day a). { apply is_date_inj; [assumption|apply next_day_spec; exact DA|]. rewrite E1. symmetry. apply next_day_spec. exact DA. }
    rewrite last_default. change ((b :: r) ++ [next_day (last r b)]) with (b :: r ++ [next_day (last r b)]).
    change (compounded ?f (a :: b :: ?q)) with ((1 + f a b) * compounded f (b :: q)). cbv beta.
    rewrite IH by (assumption || (rewrite E1; exact E2)). rewrite EB at 1. rewrite ST by exact DA. rewrite <- EB. pose proof (PC b). pose proof (PC (next_day (last r b))). field. split; lra.
Qed.
Theorem C88_every_day : forall b s e c curve l, is_date s -> is_date e -> (ordinal s < ordinal e)%Z -> (forall o, (ordinal s < o <= ordinal e)%Z -> b o = true) ->
  (forall d, 0 < curve d) -> c <> THIRTY_360_ISDA -> rate_days b s e l ->
  settlement_rate COMPOUNDING curve c e l = implied_rate curve c s (next_day e).
Proof.
  intros b s e c curve l DS DE O AB PC NT RD. pose proof (C88_days b s e c l DS DE O RD) as (_ & _ & _ & T). specialize (T NT). destruct T as [T _].
  destruct RD as (r & -> & D & E). destruct (next_day_spec s DS) as (_ & DN & ON).
  assert (FA : filter b (zrange (ordinal (next_day s)) (Z.to_nat (ordinal e - ordinal (next_day s) + 1))) = zrange (ordinal (next_day s)) (Z.to_nat (ordinal e - ordinal (next_day s) + 1))).
  { assert (Q : forall o, In o (zrange (ordinal (next_day s)) (Z.to_nat (ordinal e - ordinal (next_day s) + 1))) -> b o = true).
    { intros o I. unfold zrange in I. apply in_map_iff in I. destruct I as (j & <- & J). apply in_seq in J. apply AB. lia. }
    revert Q. generalize (zrange (ordinal (next_day s)) (Z.to_nat (ordinal e - ordinal (next_day s) + 1))) as z. induction z as [|o z IH]; intros Q; [reflexivity|]. cbn. rewrite (Q o (or_introl eq_refl)), IH by (intros; apply Q; right; assumption). reflexivity. }
  rewrite FA in E. assert (LR : length r = Z.to_nat (ordinal e - ordinal (next_day s) + 1)). { rewrite <- (map_length ordinal), E. unfold zrange. rewrite map_length, seq_length. reflexivity. }
  assert (LE : last r s = e).
  { destruct (exists_last (l := r)) as (r0 & x & ->). { intros ->. cbn in LR. lia. } rewrite last_last. apply is_date_inj; [apply Forall_app in D; destruct D as [_ D]; inversion D; assumption|exact DE|].
    rewrite map_app in E. cbn [map] in E. rewrite app_length in LR. cbn in LR. rewrite <- LR in E. unfold zrange in E. rewrite seq_app, map_app in E. cbn [seq map] in E. apply app_inj_tail in E. lia. }
  unfold settlement_rate. cbn [app] in T |- *. rewrite T. rewrite <- LE at 1. rewrite compound_all; [rewrite LE; reflexivity|exact PC|exact NT|exact DS|exact D|]. rewrite E, LR, ON. reflexivity.
Qed.
Print Assumptions C88_every_day.

(** The averaged rate lies between the lowest and the highest overnight rate, and
    compounding never gives less than averaging if these are not negative. *)
Lemma over_bounds (w : date -> R) (f : date -> date -> R) lo hi l : (forall x, In x (removelast l) -> lo <= w x <= hi) -> (forall x y, In x l -> In y l -> (ordinal x < ordinal y)%Z -> 0 <= f x y) -> ScheduleSpec.increasing l ->
  lo * over_periods f l <= over_periods (fun s e => w s * f s e) l <= hi * over_periods f l.
Proof.
  induction l as [|a [|b l] IH]; intros W F I; [cbn; lra|cbn; lra|]. inversion I as [|? ? I1 I2]; subst. inversion I2; subst.
  change (over_periods ?g (a :: b :: l)) with (g a b + over_periods g (b :: l)). cbv beta.
  assert (P : 0 <= f a b) by (apply F; [left; reflexivity|right; left; reflexivity|assumption]).
  destruct (W a) as [A B]; [left; reflexivity|].
  assert (Q : lo * over_periods f (b :: l) <= over_periods (fun s e => w s * f s e) (b :: l) <= hi * over_periods f (b :: l)).
  { apply IH; [intros x X; apply W; right; exact X|intros x y X Y; apply F; right; assumption|exact I1]. }
  pose proof (Rmult_le_compat_r (f a b) lo (w a) P A). pose proof (Rmult_le_compat_r (f a b) (w a) hi P B). lra.
Qed.
Lemma compound_more (g : date -> date -> R) l : (forall x y, In x l -> In y l -> (ordinal x < ordinal y)%Z -> 0 <= g x y) -> ScheduleSpec.increasing l -> 0 <= over_periods g l /\ 1 + over_periods g l <= compounded g l.
Proof.
  induction l as [|a [|b l] IH]; intros F I; [cbn; lra|cbn; lra|]. inversion I as [|? ? I1 I2]; subst. inversion I2; subst.
  change (over_periods g (a :: b :: l)) with (g a b + over_periods g (b :: l)). change (compounded g (a :: b :: l)) with ((1 + g a b) * compounded g (b :: l)).
  assert (P : 0 <= g a b) by (apply F; [left; reflexivity|right; left; reflexivity|assumption]).
  destruct IH as [A B]; [intros x y X Y; apply F; right; assumption|exact I1|]. split; [lra|].
  pose proof (Rmult_le_compat_l (1 + g a b) _ _ ltac:(lra) B). pose proof (Rmult_le_pos _ _ P A). lra.
Qed.
Lemma rate_days_in b s e l x : rate_days b s e l -> In x (removelast (l ++ [next_day e])) -> In x l.
Proof. intros _. rewrite removelast_snoc. auto. Qed.
Theorem C88_average : forall b s e c curve l lo hi, is_date s -> is_date e -> (ordinal s < ordinal e)%Z -> c <> THIRTY_360_ISDA -> rate_days b s e l ->
  (forall d, In d l -> lo <= overnight_rate curve c d <= hi) ->
  lo <= settlement_rate ARITHMETIC_AVERAGE curve c e l <= hi /\
  (0 <= lo -> settlement_rate ARITHMETIC_AVERAGE curve c e l <= settlement_rate COMPOUNDING curve c e l).
Proof.
  intros b s e c curve l lo hi DS DE O NT RD W. pose proof (C88_days b s e c l DS DE O RD) as (I & D & _ & T). specialize (T NT). destruct T as [T _].
  assert (P : 0 < over_periods (daycount_fraction c) (l ++ [next_day e])). { rewrite T. apply act_positive; [exact NT|]. rewrite (proj2 (proj2 (next_day_spec e DE))). lia. }
  unfold settlement_rate. set (tot := over_periods (daycount_fraction c) (l ++ [next_day e])) in *.
  assert (FP : forall x y, (ordinal x < ordinal y)%Z -> 0 <= daycount_fraction c x y) by (intros x y XY; apply Rlt_le; apply act_positive; assumption).
  destruct (over_bounds (overnight_rate curve c) (daycount_fraction c) lo hi (l ++ [next_day e])) as [A B].
  - intros x X. apply W. rewrite removelast_snoc in X. exact X.
  - intros x y _ _ XY. apply FP. exact XY.
  - exact I.
  - fold tot in A, B. cbv zeta. split.
    + split; apply (Rmult_le_reg_r tot); try exact P; unfold Rdiv; rewrite Rmult_assoc, Rinv_l, Rmult_1_r by lra; assumption.
    + intros L. unfold Rdiv. apply Rmult_le_compat_r; [left; apply Rinv_0_lt_compat; exact P|].
      destruct (RD) as (r & EL & _).
      assert (CM : 0 <= over_periods (fun s0 e0 => overnight_rate curve c s0 * daycount_fraction c s0 e0) (l ++ [next_day e]) /\ 1 + over_periods (fun s0 e0 => overnight_rate curve c s0 * daycount_fraction c s0 e0) (l ++ [next_day e]) <= compounded (fun s0 e0 => overnight_rate curve c s0 * daycount_fraction c s0 e0) (l ++ [next_day e])).
      { apply compound_more; [|exact I]. intros x y X Y XY. apply Rmult_le_pos; [|apply FP; exact XY]. apply in_app_or in X. destruct X as [X|[<-|[]]]; [pose proof (W x X); lra|].
        exfalso. assert (ordinal y <= ordinal (next_day e))%Z; [|lia]. clear - I Y. induction l as [|z l IH]; cbn in Y; [destruct Y as [<-|[]]; lia|].
        cbn [app] in I. inversion I as [|? ? I1 I2]; subst. destruct Y as [<-|Y]; [|apply IH; assumption]. rewrite Forall_forall in I2. specialize (I2 (next_day e) ltac:(apply in_or_app; right; left; reflexivity)). cbn in I2. lia. }
      lra.
Qed.
Print Assumptions C88_average.

(** The calendars of the library roll as needed. *)
Theorem C88_calendars : forall s e, is_date s -> is_date e ->
  ((8 <= ordinal s)%Z -> rolls (bday SATURDAY_SUNDAY []) (following_roll None) s e) /\
  (forall mask l c, unbounded_calendar mask l c -> (8 <= ordinal s)%Z -> rolls (bday mask l) (following_roll (Some (fun d => u_roll c d FOLLOWING))) s e) /\
  (forall mask l ys ye c, bounded_calendar mask l ys ye c -> (ys <= year s <= ye)%Z -> (ys <= year e <= ye)%Z -> bday mask l (ordinal e) = true ->
     rolls (bday mask l) (following_roll (Some (fun d => b_roll c d FOLLOWING))) s e).
Proof.
  intros s e DS DE.
  assert (U : forall mask l c, unbounded_calendar mask l c -> (8 <= ordinal s)%Z -> rolls (bday mask l) (fun d => u_roll c d FOLLOWING) s e).
  { intros mask l c U L d D [O1 O2]. destruct (C11_roll_unbounded mask l c d U D ltac:(lia)) as [(x & E & DX & F) _]. exists x. auto. }
  split; [|split].
  - intros L. exact (U SATURDAY_SUNDAY [] (mk_ucal (Some SATURDAY_SUNDAY) None) (uc_mask SATURDAY_SUNDAY eq_refl (or_introl eq_refl)) L).
  - exact U.
  - intros mask l ys ye c B Y1 Y2 BE d D [O1 O2]. cbn [following_roll].
    apply (in_years mask l ys ye c B s DS) in Y1. apply (in_years mask l ys ye c B e DE) in Y2.
    assert (YD : (ys <= year d <= ye)%Z) by (apply (in_years mask l ys ye c B d D); lia).
    destruct (C11_roll_bounded mask l ys ye c d B D YD) as (F & _).
    destruct (following_exists (bday mask l) (ordinal d) (ordinal e) O2 BE) as (o & FO & LO).
    assert (P : (1 <= o)%Z). { pose proof (is_date_pos d D). destruct FO as [FO _]. lia. }
    destruct (proj1 (from_ordinal_spec o) P) as (x & _ & OX & RX). assert (DX : is_date x) by (eexists; exact RX).
    exists x. rewrite <- OX in FO. split; [apply F; split; [exact DX|split; [|exact FO]]|split; [exact DX|exact FO]].
    apply (in_years mask l ys ye c B x DX). rewrite OX in *. destruct FO as [FO _]. lia.
Qed.
Print Assumptions C88_calendars.

(** A batch of two contracts that the theorem covers. *)
Lemma may_dates : Forall is_date [ymd_date 2021 5 3; ymd_date 2021 5 4; ymd_date 2021 5 5; ymd_date 2021 5 6; ymd_date 2021 5 7; ymd_date 2021 5 8; ymd_date 2021 5 9; ymd_date 2021 5 10; ymd_date 2021 5 11].
Proof. repeat constructor; apply ymd_is_date; apply valid_intro; reflexivity. Qed.
Lemma may_date n : (3 <= n <= 11)%Z -> is_date (ymd_date 2021 5 n).
Proof. intros H. assert (n = 3 \/ n = 4 \/ n = 5 \/ n = 6 \/ n = 7 \/ n = 8 \/ n = 9 \/ n = 10 \/ n = 11)%Z as C by lia. destruct C as [->|[->|[->|[->|[->|[->|[->|[->| ->]]]]]]]]; apply ymd_is_date; apply valid_intro; reflexivity. Qed.
Example C88_ex : forall s e, In (s, e) [(ymd_date 2021 5 3, ymd_date 2021 5 11); (ymd_date 2021 5 5, ymd_date 2021 5 7)] ->
  is_date s /\ is_date e /\ (ordinal s + 1 < ordinal e)%Z /\ bday SATURDAY_SUNDAY [] (ordinal e) = true /\ rolls (bday SATURDAY_SUNDAY []) (following_roll None) s e.
Proof.
  intros s e [E|[E|[]]]; injection E as <- <-; (split; [apply may_date; lia|split; [apply may_date; lia|split; [vm_compute; reflexivity|split; [vm_compute; reflexivity|]]]]);
    refine (proj1 (C88_calendars _ _ _ _) _); try (apply may_date; lia); vm_compute; discriminate.
Qed.

(** A contract that ends on a Saturday, as the one of the documentation: its price
    depends on the curve after the contract. *)
Definition step_curve (o : Z) (d : date) : R := if Z.eqb (ordinal d) o then 1 / 2 else 1.
Lemma step_pos o d : 0 < step_curve o d.
Proof. unfold step_curve. destruct (Z.eqb _ _); lra. Qed.
Lemma next_ymd y m d x : date_add (ymd_date y m d) one_day = Some x -> next_day (ymd_date y m d) = x.
Proof. intros E. unfold next_day, InstrumentSpec.plus. unfold one_day in E. rewrite E. reflexivity. Qed.
Lemma one_price s e l a unit curve : contract_resets (following_roll None) s e = Some l -> (2 <= length l)%nat -> Forall is_date (removelast l) -> over_periods (daycount_fraction ACTUAL_360) l <> 0 -> (forall d, 0 < curve d) ->
  exists f, overnight_setup [s] [e] None a unit None = Some f /\ forall valuation, overnight_price f valuation curve =
    [Fin (100 * (1 - (let accrued := fun s e => overnight_rate curve ACTUAL_360 s * daycount_fraction ACTUAL_360 s e in
       match or_default COMPOUNDING a with COMPOUNDING => compounded accrued l - 1 | ARITHMETIC_AVERAGE => over_periods accrued l end / over_periods (daycount_fraction ACTUAL_360) l)))].
Proof.
  intros E L D T PC. destruct (price_rows [s] [e] None a unit None [l] l []) as (f & EF & P); [reflexivity|reflexivity|cbn [combine map_opt]; rewrite E; reflexivity| |discriminate|].
  - intros x [<-|[]]. split; assumption.
  - exists f. split; [exact EF|]. intros v. rewrite (P v curve PC) by (intros x [<-|[]]; exact T). reflexivity.
Qed.
Definition sat_days : list date := [ymd_date 2021 5 5; ymd_date 2021 5 6; ymd_date 2021 5 7; ymd_date 2021 5 10; ymd_date 2021 5 9].
Lemma sat_resets : contract_resets (following_roll None) (ymd_date 2021 5 5) (ymd_date 2021 5 8) = Some sat_days.
Proof. vm_compute. reflexivity. Qed.
Lemma rate_of o d n : next_day d = n -> overnight_rate (step_curve o) ACTUAL_360 d = (step_curve o d / step_curve o n - 1) / (IZR (ordinal n - ordinal d) / 360).
Proof. intros E. unfold overnight_rate, implied_rate. rewrite E, act360. reflexivity. Qed.
Theorem C88_holiday_end_refuted :
  let s := ymd_date 2021 5 5 in let e := ymd_date 2021 5 8 in
  bday SATURDAY_SUNDAY [] (ordinal e) = false /\
  exists f curve1 curve2, overnight_setup [s] [e] None None [1] None = Some f /\ (forall d, 0 < curve1 d /\ 0 < curve2 d) /\
    (forall d, (ordinal d <= ordinal (next_day e) + 1)%Z -> curve1 d = curve2 d) /\
    forall valuation, overnight_price f valuation curve1 = [Fin 100] /\ overnight_price f valuation curve2 = [Fin 9100].
Proof.
  cbv zeta. split; [vm_compute; reflexivity|].
  assert (D : Forall is_date (removelast sat_days)) by (cbn [removelast sat_days]; repeat constructor; apply may_date; lia).
  assert (T : over_periods (daycount_fraction ACTUAL_360) sat_days = 4 / 360).
  { unfold sat_days. rewrite actual_total by discriminate. cbn [last]. rewrite act360. replace (ordinal (ymd_date 2021 5 9) - ordinal (ymd_date 2021 5 5))%Z with 4%Z by (vm_compute; reflexivity). reflexivity. }
  assert (N5 : next_day (ymd_date 2021 5 5) = ymd_date 2021 5 6) by (apply next_ymd; vm_compute; reflexivity).
  assert (N6 : next_day (ymd_date 2021 5 6) = ymd_date 2021 5 7) by (apply next_ymd; vm_compute; reflexivity).
  assert (N7 : next_day (ymd_date 2021 5 7) = ymd_date 2021 5 8) by (apply next_ymd; vm_compute; reflexivity).
  assert (N10 : next_day (ymd_date 2021 5 10) = ymd_date 2021 5 11) by (apply next_ymd; vm_compute; reflexivity).
  assert (O : forall n, (3 <= n <= 11)%Z -> ordinal (ymd_date 2021 5 n) = (ordinal (ymd_date 2021 5 3) + (n - 3))%Z).
  { intros n H. assert (n = 3 \/ n = 4 \/ n = 5 \/ n = 6 \/ n = 7 \/ n = 8 \/ n = 9 \/ n = 10 \/ n = 11)%Z as C by lia. destruct C as [->|[->|[->|[->|[->|[->|[->|[->| ->]]]]]]]]; vm_compute; reflexivity. }
  set (o3 := ordinal (ymd_date 2021 5 3)) in *.
  assert (L2 : (2 <= length sat_days)%nat) by (cbn; lia).
  assert (TN : over_periods (daycount_fraction ACTUAL_360) sat_days <> 0) by (rewrite T; lra).
  assert (P0 : forall d : date, 0 < (fun _ => 1) d) by (intros; lra).
  destruct (one_price _ _ _ None [1] (fun _ => 1) sat_resets L2 D TN P0) as (f & EF & P1).
  destruct (one_price _ _ _ None [1] (step_curve (ordinal (ymd_date 2021 5 11))) sat_resets L2 D TN (step_pos _)) as (f' & EF' & P2).
  assert (f' = f) by congruence. subst f'. exists f, (fun _ => 1), (step_curve (ordinal (ymd_date 2021 5 11))). split; [exact EF|].
  split; [intros d; split; [lra|apply step_pos]|]. split.
  - intros d L. rewrite (proj2 (proj2 (next_day_spec (ymd_date 2021 5 8) (may_date 8 ltac:(lia))))) in L. rewrite (O 8%Z) in L by lia. unfold step_curve. rewrite (O 11%Z) by lia.
    destruct (Z.eqb_spec (ordinal d) (o3 + (11 - 3))) as [E|E]; [exfalso; lia|reflexivity].
  - intros v. rewrite P1, P2. cbn [or_default]. cbv zeta. rewrite T. unfold sat_days. cbn [compounded].
    rewrite !(rate_of _ _ _ N5), !(rate_of _ _ _ N6), !(rate_of _ _ _ N7), !(rate_of _ _ _ N10). unfold overnight_rate, implied_rate, step_curve. rewrite !act360, (O 11%Z), (O 10%Z), (O 9%Z), (O 8%Z), (O 7%Z), (O 6%Z), (O 5%Z) by lia.
    repeat match goal with |- context [Z.eqb (o3 + ?p) (o3 + ?q)] => first [replace (Z.eqb (o3 + p) (o3 + q)) with false by lia | replace (Z.eqb (o3 + p) (o3 + q)) with true by lia] end. cbv iota.
    repeat match goal with |- context [(o3 + ?p - (o3 + ?q))%Z] => ring_simplify (o3 + p - (o3 + q))%Z end.
    replace (1 / 1 - 1) with 0 by lra. replace (1 / (1 / 2) - 1) with 1 by lra. change (IZR (Z.opp 1)) with (-1). unfold Rdiv. rewrite !Rmult_0_l.
    split; apply (f_equal (fun x => [Fin x])); lra.
Qed.
Print Assumptions C88_holiday_end_refuted.

(** A contract of two days ignores the rate of the second one, and a contract of
    a single day is refused. *)
Lemma two_resets : contract_resets (following_roll None) (ymd_date 2021 5 3) (ymd_date 2021 5 4) = Some [ymd_date 2021 5 3; ymd_date 2021 5 5].
Proof. vm_compute. reflexivity. Qed.
Theorem C88_two_days_refuted :
  let s := ymd_date 2021 5 3 in let e := ymd_date 2021 5 4 in
  exists f curve l, overnight_setup [s] [e] None None [1] None = Some f /\ (forall d, 0 < curve d) /\ rate_days (bday SATURDAY_SUNDAY []) s e l /\
    (forall valuation, overnight_price f valuation curve = [Fin 100]) /\
    100 * (1 - settlement_rate COMPOUNDING curve ACTUAL_360 e l) = - 17900.
Proof.
  cbv zeta. set (o5 := ordinal (ymd_date 2021 5 5)).
  assert (O3 : ordinal (ymd_date 2021 5 3) = (o5 - 2)%Z) by (vm_compute; reflexivity).
  assert (O4 : ordinal (ymd_date 2021 5 4) = (o5 - 1)%Z) by (vm_compute; reflexivity).
  assert (N3 : next_day (ymd_date 2021 5 3) = ymd_date 2021 5 4) by (apply next_ymd; vm_compute; reflexivity).
  assert (N4 : next_day (ymd_date 2021 5 4) = ymd_date 2021 5 5) by (apply next_ymd; vm_compute; reflexivity).
  assert (D : Forall is_date (removelast [ymd_date 2021 5 3; ymd_date 2021 5 5])) by (cbn [removelast]; repeat constructor; apply may_date; lia).
  assert (L2 : (2 <= length [ymd_date 2021 5 3; ymd_date 2021 5 5])%nat) by (cbn; lia).
  assert (T : over_periods (daycount_fraction ACTUAL_360) [ymd_date 2021 5 3; ymd_date 2021 5 5] = 2 / 360).
  { rewrite actual_total by discriminate. cbn [last]. rewrite act360. fold o5. rewrite O3. replace (o5 - (o5 - 2))%Z with 2%Z by lia. reflexivity. }
  assert (TN : over_periods (daycount_fraction ACTUAL_360) [ymd_date 2021 5 3; ymd_date 2021 5 5] <> 0) by (rewrite T; lra).
  destruct (one_price _ _ _ None [1] (step_curve o5) two_resets L2 D TN (step_pos _)) as (f & EF & P).
  exists f, (step_curve o5), [ymd_date 2021 5 3; ymd_date 2021 5 4]. split; [exact EF|]. split; [apply step_pos|]. split; [|split].
  - exists [ymd_date 2021 5 4]. split; [reflexivity|]. rewrite N3. split; [repeat constructor; apply may_date; lia|]. vm_compute. reflexivity.
  - intros v. rewrite P. cbn [or_default]. cbv zeta. rewrite T. cbn [compounded]. rewrite (rate_of _ _ _ N3). unfold step_curve. rewrite O3, O4.
    replace (Z.eqb (o5 - 2) o5) with false by lia. replace (Z.eqb (o5 - 1) o5) with false by lia. cbv iota. apply (f_equal (fun x => [Fin x])).
    replace (1 / 1 - 1) with 0 by lra. unfold Rdiv. rewrite !Rmult_0_l. lra.
  - unfold settlement_rate. rewrite N4. cbn [app compounded over_periods]. rewrite (rate_of _ _ _ N3), (rate_of _ _ _ N4), !act360. unfold step_curve. rewrite O3, O4. fold o5.
    replace (Z.eqb (o5 - 2) o5) with false by lia. replace (Z.eqb (o5 - 1) o5) with false by lia. rewrite Z.eqb_refl. cbv iota.
    replace (o5 - 1 - (o5 - 2))%Z with 1%Z by lia. replace (o5 - (o5 - 1))%Z with 1%Z by lia.
    replace (1 / 1 - 1) with 0 by lra. replace (1 / (1 / 2) - 1) with 1 by lra. unfold Rdiv. rewrite !Rmult_0_l. lra.
Qed.
Print Assumptions C88_two_days_refuted.
Theorem C88_one_day_refuted : forall s c a unit calendar, is_date s -> overnight_setup [s] [s] c a unit calendar = None.
Proof.
  intros s c a unit calendar D. destruct (next_day_spec s D) as (E & DN & O). unfold overnight_setup. cbn [length Nat.ltb Nat.leb combine map_opt].
  unfold contract_resets. rewrite E. cbn [bind]. unfold periodic_schedule. cbn [andb forallb rstart rend]. replace (Z.leb (ordinal (next_day s)) (ordinal s)) with false by (rewrite O; lia). reflexivity.
Qed.
Print Assumptions C88_one_day_refuted.
Example C88_one_day_ex : is_date (ymd_date 2021 5 3).
Proof. apply may_date. lia. Qed.

(** The 30/360 day count has no time between the 30th and the 31st, so the price
    of a contract over these days is not a number for any curve. *)
Lemma x_nan_l a : xadd NaN a = NaN. Proof. destruct a; reflexivity. Qed.
Lemma x_nan_r a : xadd a NaN = NaN. Proof. destruct a; reflexivity. Qed.
Lemma m_nan_l a : xmul NaN a = NaN. Proof. destruct a; reflexivity. Qed.
Lemma m_nan_r a : xmul a NaN = NaN. Proof. destruct a; reflexivity. Qed.
Lemma d_nan_l a : xdiv NaN a = NaN. Proof. destruct a; reflexivity. Qed.
Lemma zero_over x : xmul (xdiv x (Fin 0)) (Fin 0) = NaN.
Proof.
  assert (Z : req 0 0 = true) by (apply req_true; reflexivity).
  destruct x as [r|n|]; cbn [xdiv]; rewrite ?Z; [destruct (req r 0)|..]; cbn [xmul xzero xneg]; rewrite ?Z, ?orb_true_r; reflexivity.
Qed.
Lemma thirty_resets : contract_resets (following_roll None) (ymd_date 2021 3 29) (ymd_date 2021 3 31) = Some [ymd_date 2021 3 29; ymd_date 2021 3 30; ymd_date 2021 3 31; ymd_date 2021 4 1].
Proof. vm_compute. reflexivity. Qed.
Theorem C88_thirty_refuted : forall a, exists f, overnight_setup [ymd_date 2021 3 29] [ymd_date 2021 3 31] (Some THIRTY_360_ISDA) a [1] None = Some f /\
  forall valuation curve, overnight_price f valuation curve = [NaN].
Proof.
  intros a. unfold overnight_setup. cbn [length Nat.ltb Nat.leb combine map_opt]. rewrite thirty_resets. cbn [bind map concat removelast app tl].
  assert (E1 : date_add (ymd_date 2021 3 29) one_day = Some (ymd_date 2021 3 30)) by (vm_compute; reflexivity).
  assert (E2 : date_add (ymd_date 2021 3 30) one_day = Some (ymd_date 2021 3 31)) by (vm_compute; reflexivity).
  assert (E3 : date_add (ymd_date 2021 3 31) one_day = Some (ymd_date 2021 4 1)) by (vm_compute; reflexivity).
  cbn [map_opt]. rewrite E1, E2, E3. cbn [bind]. eexists. split; [reflexivity|]. intros v curve. unfold overnight_price. cbn [of_start of_end of_accrual of_fractions of_contract of_average].
  unfold map2, group_ids. cbn [combine map concat app length seq repeat].
  assert (Z : daycount_fraction THIRTY_360_ISDA (ymd_date 2021 3 30) (ymd_date 2021 3 31) = 0). { unfold daycount_fraction. replace (thirty_360_isda (ymd_date 2021 3 30) (ymd_date 2021 3 31)) with (0 / inject_Z 360)%Q by (vm_compute; reflexivity). unfold Q2R. replace (Qnum (0 / inject_Z 360)) with 0%Z by reflexivity. apply Rmult_0_l. }
  rewrite Z. unfold xsegment_sum, xsegment_prod, xzip. cbn [last seq map combine filter fst snd Nat.eqb]. unfold forward_rate. rewrite zero_over.
  unfold xsum, xprod, xsub. cbn [fold_right map].
  destruct a as [[|]|]; cbn [fold_right map combine]; rewrite ?x_nan_l, ?x_nan_r, ?m_nan_l, ?m_nan_r, ?x_nan_l, ?x_nan_r, ?d_nan_l; reflexivity.
Qed.
Print Assumptions C88_thirty_refuted.

(** The notional of a contract has no effect on its price. *)
Theorem C88_unit_refuted : forall starts ends c a calendar unit unit' f, overnight_setup starts ends c a unit calendar = Some f ->
  exists f', overnight_setup starts ends c a unit' calendar = Some f' /\ forall valuation curve, overnight_price f' valuation curve = overnight_price f valuation curve.
Proof.
  intros starts ends c a calendar u u' f. unfold overnight_setup. destruct (Nat.ltb _ _); [discriminate|].
  destruct (map_opt _ (combine starts ends)) as [resets|]; [|discriminate]. cbn [bind]. destruct (map_opt _ (concat _)) as [ae|]; [|discriminate]. cbn [bind].
  destruct resets; [discriminate|]. intros E. injection E as <-. eexists. split; [reflexivity|]. intros v curve. reflexivity.
Qed.
Print Assumptions C88_unit_refuted.
Example C88_unit_ex : exists f, overnight_setup [ymd_date 2021 5 3] [ymd_date 2021 5 4] None None [1000000] None = Some f.
Proof. destruct C88_two_days_refuted as (f & _ & _ & E & _). destruct (C88_unit_refuted _ _ _ _ _ _ [1000000] f E) as (f' & E' & _). exists f'. exact E'. Qed.
Example C88_eurodollar_ex : exists f, eurodollar (ymd_date 2021 5 3) None (Some (mk_period 3 MONTH)) None = Some f /\ daycount_fraction ACTUAL_360 (ymd_date 2021 5 3) (ymd_date 2021 8 3) <> 0.
Proof.
  eexists. split.
  - assert (E : date_add (ymd_date 2021 5 3) (mk_period 3 MONTH) = Some (ymd_date 2021 8 3)) by (vm_compute; reflexivity). unfold eurodollar. rewrite E. reflexivity.
  - apply Rgt_not_eq. apply act_positive; [discriminate|vm_compute; reflexivity].
Qed.
