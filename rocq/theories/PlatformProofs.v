(** Proofs about the streams of the pricing platform (C93, C94). *)
From Coq Require Import String Reals QArith Qreals ZArith List Bool Lia Lra ZifyBool Sorted.
From Verif Require Import DateModel DateSpec DateRepr DateProofs DateProofs2 PropsDateAux PropsDate CalSpec BoundedCalModel UnboundedCalModel CalSetup CalProofs CalModified BoundedCalProofs UnboundedCalProofs PropsCalAux PropsCal DayCountModel.
From Verif Require Import TensorModel InterpModel IntegrateModel SegmentModel ScheduleModel ScheduleSpec ScheduleProofs ScheduleProofs2 RatesModel InstrumentModel InstrumentSpec InstrumentProofs PropsInstrument CmsProofs PlatformModel PlatformSpec.
Import ListNotations.
Open Scope Z_scope.

Lemma weekend_ok : unbounded_calendar [false; false; false; false; false; true; true] [] weekend_calendar.
Proof. apply uc_mask; [reflexivity|left; reflexivity]. Qed.
Lemma working_is : bday [false; false; false; false; false; true; true] [] = working_day.
Proof. reflexivity. Qed.
Lemma working_at o : working_day o = ((o - 1) mod 7 <? 5).
Proof.
  unfold working_day, business, day_off. cbn [existsb]. rewrite andb_true_r.
  assert (H : 0 <= (o - 1) mod 7 < 7) by (apply Z.mod_pos_bound; lia). revert H. generalize ((o - 1) mod 7). intros r H.
  assert (C : r = 0 \/ r = 1 \/ r = 2 \/ r = 3 \/ r = 4 \/ r = 5 \/ r = 6) by lia.
  destruct C as [->|[->|[->|[->|[->|[->| ->]]]]]]; reflexivity.
Qed.
Lemma some_working o : exists k, o - 2 <= k <= o /\ working_day k = true.
Proof.
  assert (H : 0 <= (o - 1) mod 7 < 7) by (apply Z.mod_pos_bound; lia).
  destruct (Z_lt_le_dec ((o - 1) mod 7) 5) as [L|L].
  - exists o. split; [lia|]. rewrite working_at. lia.
  - destruct (Z.eq_dec ((o - 1) mod 7) 5) as [E|E]; [exists (o - 1)|exists (o - 2)]; (split; [lia|]); rewrite working_at.
    + assert (Q : (o - 1 - 1) mod 7 = 4) by (Z.to_euclidean_division_equations; lia). rewrite Q. reflexivity.
    + assert (Q : (o - 2 - 1) mod 7 = 4) by (Z.to_euclidean_division_equations; lia). rewrite Q. reflexivity.
Qed.
Lemma working_month o : 1 <= o -> month_has_business_day working_day o.
Proof.
  intros H. destruct (is_date_from o H) as (D & O). destruct D as (c & V & Y & N). destruct c as [[y m] d].
  destruct V as (V1 & V2 & V3). 
  pose proof (month_length_bounds y m) as ML.
  assert (DD : forall k, 1 <= k <= 28 -> repr (ymd_date y m k) (y, m, k)).
  { intros k K. apply repr_unchecked. unfold valid. repeat split; lia. }
  assert (OO : forall k, ordinal (ymd_date y m k) = ordinal (ymd_date y m 15) + (k - 15)).
  { intros k. unfold ymd_date, from_ymd_unchecked, year_month_day_to_ordinal. cbn [ordinal]. lia. }
  destruct (some_working (ordinal (ymd_date y m 15))) as (k & K & W). exists k.
  assert (E : k = ordinal (ymd_date y m (15 + (k - ordinal (ymd_date y m 15))))) by (rewrite OO; lia).
  destruct (DD (15 + (k - ordinal (ymd_date y m 15))) ltac:(lia)) as (_ & _ & N'). rewrite <- E in N'. destruct N' as [N1 N2].
  split; [exact N1|]. split; [|exact W]. unfold same_month, year_month_of. rewrite N2.
  rewrite O in N. destruct N as [_ N]. rewrite N. reflexivity.
Qed.

(** The code finds the settled date. *)
Lemma rolled_code conv d r : is_date d -> 15 <= ordinal d -> is_date r -> rolled conv d r -> u_roll weekend_calendar d conv = Some r /\ 8 <= ordinal r.
Proof.
  intros D H R0 Q. pose proof weekend_ok as U. destruct (some_working (ordinal d)) as (k & K & W).
  assert (EX : exists k, 8 <= k <= ordinal d /\ bday [false; false; false; false; false; true; true] [] k = true) by (exists k; split; [lia|exact W]).
  destruct (C11_roll_unbounded _ _ _ d U D ltac:(lia)) as (F & P & PE & N & _). rewrite working_is in *.
  assert (UN : forall x, is_date x -> ordinal x = ordinal r -> x = r) by (intros x X E; exact (is_date_inj x r X R0 E)).
  destruct conv; cbn [rolled] in Q.
  - destruct Q as [-> _]. split; [exact N|lia].
  - destruct F as (x & E & X & F). rewrite E. split; [f_equal; apply UN; [exact X|exact (following_unique _ _ _ _ F Q)]|destruct Q; lia].
  - destruct (u_modfol _ _ _ U d (fun o => working_month o) D ltac:(lia) EX) as (x & E & X & X8 & M). rewrite E.
    assert (x = r) as <- by (apply UN; [exact X|exact (modified_following_unique _ _ _ _ M Q)]). split; [reflexivity|exact X8].
  - destruct (PE EX) as (x & E). destruct (P x E) as (X & F1). rewrite E.
    split; [f_equal; apply UN; [exact X|exact (preceding_unique _ _ _ _ F1 Q)]|].
    destruct Q as (_ & _ & Q). destruct (Z_lt_le_dec (ordinal r) 8) as [L|L]; [|exact L]. specialize (Q k ltac:(lia)). congruence.
  - destruct (u_modpre _ _ _ U d (fun o => working_month o) D ltac:(lia) EX) as (x & E & X & X8 & M). rewrite E.
    assert (x = r) as <-.
    { apply UN; [exact X|]. apply (modified_preceding_unique working_day (ordinal d)); [lia| |exact M|exact Q]. destruct R0 as (c & _ & _ & N1 & _). exact N1. }
    split; [reflexivity|exact X8].
Qed.
Lemma settled_code conv d n s : is_date d -> 15 <= ordinal d -> settled conv d n s -> u_add_business_days weekend_calendar d n conv = Some s.
Proof.
  intros D H (r & R0 & Q & S0 & S8 & NB). pose proof weekend_ok as U.
  destruct (rolled_code conv d r D H R0 Q) as (E & R8).
  destruct (C13_add_business_days_unbounded _ _ _ r n U R0 R8) as (_ & A & _). rewrite working_is in A.
  assert (WR : working_day (ordinal r) = true).
  { destruct conv; cbn [rolled] in Q; [destruct Q as [-> Q]; exact Q|apply Q|destruct Q as [[Q _]|[Q _]]; apply Q|apply Q|destruct Q as [[Q _]|[Q _]]; apply Q]. }
  specialize (A s WR S0 S8 NB).
  destruct conv; [destruct Q as [-> _]; exact A|..];
    (destruct (some_working (ordinal d)) as (k & K & W);
     destruct (C13_add_business_days_unbounded _ _ _ d n U D ltac:(lia)) as (_ & _ & _ & B & _);
     rewrite B; [rewrite E; exact A|discriminate|exists k; split; [lia|exact W]]).
Qed.

(** ** Day counts *)
Open Scope R_scope.
Lemma day_counts c : match c with DC_CALLABLE _ => False | _ => True end -> fair_fraction (get_daycount_fn c).
Proof.
  destruct c; intros H; try contradiction.
  - assert (Z0 : forall d, is_date d -> get_daycount_fn DC_ACTUAL_ACTUAL_ISDA d d = 0).
    { intros d (c & D). unfold get_daycount_fn. destruct (C09_actual_actual_additive d d d c c c D D D) as (x & y & z & E1 & E2 & E3 & A & _).
      rewrite E1. assert (x = y) as <- by congruence. assert (x = z) as <- by congruence. apply Qeq_eqR in A. rewrite Q2R_plus in A. lra. }
    split; [exact Z0|]. intros s e (cs & S0) (ce & E0) L. specialize (Z0 s (ex_intro _ cs S0)). unfold get_daycount_fn in *.
    destruct (C09_actual_actual_additive s s e cs cs ce S0 S0 E0) as (x & y & z & E1 & E2 & E3 & A & B). specialize (B L). apply Qle_Rle in B.
    rewrite E1 in Z0. rewrite E3. lra.
  - split; [exact (fun d D => fraction_same ACTUAL_360 d D)|exact (fraction_nonneg ACTUAL_360)].
  - split; [exact (fun d D => fraction_same ACTUAL_365 d D)|exact (fraction_nonneg ACTUAL_365)].
  - split; [exact (fun d D => fraction_same THIRTY_360_ISDA d D)|exact (fraction_nonneg THIRTY_360_ISDA)].
Qed.

(** ** Schedules *)
Definition as_contract (x : terms) : contract := Contract (x_from x) (x_to x) (x_freq x) (x_from x) (x_to x) (x_notional x) (x_rate x) (x_spread x) 1 1.
Lemma settle_all {A} conv (f g : A -> date) (n : A -> Z) xs : (forall x, In x xs -> u_add_business_days weekend_calendar (f x) (n x) conv = Some (g x)) ->
  settle conv (map f xs) (map n xs) = Some (map g xs).
Proof.
  intros H. unfold settle. induction xs as [|x xs IH]; [reflexivity|]. cbn [map combine map_opt]. rewrite (H x (or_introl eq_refl)).
  cbn [map combine map_opt bind] in *. rewrite IH by (intros; apply H; right; assumption). reflexivity.
Qed.
(** Every row of the batch: the dates of the contract with the first and the last
    one repeated. *)
Definition row_for (t : period_type) (backward : bool) (x : terms) (l : list date) : Prop :=
  exists r p, row_spec t backward (mk_row (x_from x) (x_to x) (x_freq x)) r /\ Forall is_date r /\ nondecreasing r /\
    l = x_from x :: p ++ [x_to x] /\ (exists L, (2 <= L)%nat /\ length p = L /\ (if backward then padded_first L else padded_last L) r p) /\ Forall is_date l.
Lemma dates_rows t rule conv (backward : bool) xs penultimate : get_business_day_convention rule = (conv, false) -> good_batch conv xs ->
  backward = (match penultimate with None => false | Some _ => true end) -> backward = false \/ t = MONTH \/ t = YEAR \/ (exists x, xs = [x]) ->
  exists rows W, generate_dates (map x_start xs) (map x_end xs) (map x_freq xs) t rule (map x_days xs) None penultimate = Some rows /\ (4 <= W)%nat /\
    Forall2 (fun x l => length l = W /\ row_for t backward x l) xs rows.
Proof.
  intros ER (GT & NE) EB BK.
  destruct (plain_schedule (map as_contract xs) t backward k_start k_end) as (out & L & E & L2 & F).
  - intros k I. apply in_map_iff in I as (x & <- & I). destruct (GT x I) as (_ & _ & _ & _ & (r1 & _ & _ & D1 & _) & (r2 & _ & _ & D2 & _) & Q & O).
    cbn [k_start k_end k_freq as_contract]. auto.
  - destruct NE as (x & I & O). exists (as_contract x). split; [apply in_map; exact I|exact O].
  - destruct BK as [B|[B|[B|(x & ->)]]]; auto. do 3 right. exists (as_contract x). reflexivity.
  - rewrite !map_map in E. cbn [k_start k_end k_freq as_contract] in E.
    exists (map2 (fun '(s, e) l => s :: l ++ [e]) (combine (map x_from xs) (map x_to xs)) out), (L + 2)%nat.
    unfold generate_dates. rewrite ER. split.
    + assert (S1 : settle conv (map x_start xs) (map x_days xs) = Some (map x_from xs)).
      { apply settle_all. intros x I. destruct (GT x I) as (D1 & D2 & O1 & O2 & S1 & S2 & _). apply settled_code; assumption. }
      assert (S2 : settle conv (map x_end xs) (map x_days xs) = Some (map x_to xs)).
      { apply settle_all. intros x I. destruct (GT x I) as (D1 & D2 & O1 & O2 & S2 & S2' & _). apply settled_code; assumption. }
      rewrite S1, S2. cbn [bind]. rewrite <- EB. change (map (fun x => x_from x) xs) with (map x_from xs) in E. change (map (fun x => x_to x) xs) with (map x_to xs) in E.
      change (map (fun x => x_freq x) xs) with (map x_freq xs) in E. rewrite E. reflexivity.
    + split; [lia|]. rewrite combine_maps. unfold map2.
      assert (LN : length (map (fun x => (x_from x, x_to x)) xs) = length out) by (apply forall2_len' in F; rewrite map_length in *; exact F).
      clear E NE BK. revert out F LN. induction xs as [|x xs IH]; intros out F LN; inversion F; subst; [constructor|].
      cbn [map combine]. constructor.
      * destruct H1 as (HL & HD & r & RS & DR & ND & PD). cbn [k_start k_end k_freq as_contract] in RS.
        destruct (GT x (or_introl eq_refl)) as (_ & _ & _ & _ & (r1 & _ & _ & D1 & _) & (r2 & _ & _ & D2 & _) & _).
        split; [cbn [length]; rewrite app_length; cbn [length]; lia|].
        exists r, y. split; [exact RS|]. split; [exact DR|]. split; [exact ND|]. split; [reflexivity|]. split; [exists L; auto|].
        constructor; [exact D1|]. apply Forall_app. split; [exact HD|constructor; [exact D2|constructor]].
      * apply IH; [intros z Z0; apply GT; right; exact Z0|assumption|cbn in LN; injection LN as LN; exact LN].
Qed.

(** The first and the last date of a schedule. *)
Lemma forward_ends t s e q r : is_date s -> is_date e -> (ordinal s <= ordinal e)%Z -> forward_dates s e (mk_period q t) r -> (exists r', r = s :: r') /\ exists r', r = r' ++ [e].
Proof.
  intros S0 E0 O (n & g & A & B & ->). split; [|eexists; reflexivity].
  assert (Z0 : exists x, date_add s (period_mul (mk_period q t) 0) = Some x /\ x = s).
  { change (period_mul (mk_period q t) 0) with (mk_period (q * 0) t). rewrite Z.mul_0_r.
    assert (OS : (1 <= ordinal s)%Z) by (destruct S0 as (c & _ & _ & N1 & _); exact N1).
    destruct (add_some s t 0 S0) as (x & E); [intros _; rewrite sord_0 by exact S0; exact OS|]. exists x. split; [exact E|].
    destruct (add_sord s t 0 x S0 E) as (OX & DX). rewrite sord_0 in OX by exact S0. apply is_date_inj; [apply DX; lia|exact S0|exact OX]. }
  destruct Z0 as (x & E & ->). destruct n as [|n].
  - cbn [Z.of_nat] in B. specialize (B 0%Z s ltac:(lia) E). exists []. cbn. f_equal. apply is_date_inj; [exact E0|exact S0|lia].
  - destruct (A 0%Z ltac:(lia)) as (E' & _). assert (G : g 0%Z = s) by congruence. exists (map g (zrange 1 n) ++ [e]). rewrite zrange_S, <- G. reflexivity.
Qed.
Lemma backward_ends t s e q r : is_date s -> is_date e -> (ordinal s <= ordinal e)%Z -> backward_dates s e (mk_period q t) r -> (exists r', r = s :: r') /\ exists r', r = r' ++ [e].
Proof.
  intros S0 E0 O (n & g & A & B & ->). split; [eexists; reflexivity|].
  assert (Z0 : exists x, date_sub e (period_mul (mk_period q t) 0) = Some x /\ x = e).
  { unfold date_sub, period_mul. cbn [quantity ptype]. rewrite Z.mul_0_r. change (- 0)%Z with 0%Z.
    assert (OS : (1 <= ordinal e)%Z) by (destruct E0 as (c & _ & _ & N1 & _); exact N1).
    destruct (add_some e t 0 E0) as (x & E); [intros _; rewrite sord_0 by exact E0; exact OS|]. exists x. split; [exact E|].
    destruct (add_sord e t 0 x E0 E) as (OX & DX). rewrite sord_0 in OX by exact E0. apply is_date_inj; [apply DX; lia|exact E0|exact OX]. }
  destruct Z0 as (x & E & ->). destruct n as [|n].
  - cbn [Z.of_nat] in B. specialize (B 0%Z e ltac:(lia) E). exists []. cbn. f_equal. apply is_date_inj; [exact S0|exact E0|lia].
  - destruct (A 0%Z ltac:(lia)) as (E' & _). assert (G : g 0%Z = e) by congruence. exists (s :: rev (map g (zrange 1 n))). rewrite zrange_S, <- G. reflexivity.
Qed.
Lemma row_spec_ends t (bw : bool) s e q r : is_date s -> is_date e -> (ordinal s <= ordinal e)%Z -> row_spec t bw (mk_row s e q) r -> (exists r', r = s :: r') /\ exists r', r = r' ++ [e].
Proof. destruct bw; [apply backward_ends|apply forward_ends]. Qed.

Lemma sorted_snoc' l x : nondecreasing (l ++ [x]) -> nondecreasing (l ++ [x; x]).
Proof.
  intros H. replace (l ++ [x; x]) with ((l ++ [x]) ++ [x]) by (rewrite <- app_assoc; reflexivity). apply nondecr_snoc; [exact H|].
  intros y I. apply in_app_or in I as [I|[<-|[]]]; [|lia]. unfold nondecreasing in H.
  clear - H I. induction l as [|a l IH]; [destruct I|]. cbn in H. inversion H; subst. destruct I as [<-|I]; [|exact (IH H2 I)].
  rewrite Forall_forall in H3. apply H3. apply in_or_app. right. left. reflexivity.
Qed.
Lemma sorted_repeat' l x n : nondecreasing (l ++ [x]) -> nondecreasing (l ++ x :: repeat x n).
Proof.
  intros H. induction n as [|n IH]; [exact H|].
  assert (E1 : l ++ x :: repeat x n = (l ++ repeat x n) ++ [x]) by (rewrite <- app_assoc, <- repeat_cons; reflexivity).
  assert (E2 : l ++ x :: repeat x (S n) = (l ++ repeat x n) ++ [x; x]) by (cbn [repeat]; rewrite <- app_assoc; f_equal; change [x; x] with ([x] ++ [x]); rewrite app_assoc, <- repeat_cons; cbn [app]; rewrite repeat_cons; reflexivity).
  rewrite E2. apply sorted_snoc'. rewrite <- E1. exact IH.
Qed.
Lemma sorted_repeat_first l x n : nondecreasing (x :: l) -> nondecreasing (repeat x n ++ x :: l).
Proof.
  intros H. induction n as [|n IH]; [exact H|]. cbn. constructor; [exact IH|]. rewrite Forall_forall. intros y I.
  inversion H; subst. rewrite Forall_forall in H3. apply in_app_or in I as [I|[<-|I]]; [apply repeat_spec in I; subst; lia|lia|exact (H3 y I)].
Qed.

(** What a row is, for a contract that is not empty. *)
Lemma row_facts t bw x l conv : good_terms conv x -> row_for t bw x l ->
  exists r, row_spec t bw (mk_row (x_from x) (x_to x) (x_freq x)) r /\ Forall is_date r /\ nondecreasing r /\ Forall is_date l /\ nondecreasing l /\ (4 <= length l)%nat /\
    (forall d, nth 0 l d = nth 1 l d) /\ (forall d, nth (length l - 2) l d = nth (length l - 1) l d) /\
    forall f, (forall d, is_date d -> f d d = 0) -> over_periods f l = over_periods f r.
Proof.
  intros (_ & _ & _ & _ & (r1 & _ & _ & D1 & _) & (r2 & _ & _ & D2 & _) & Q & O) (r & p & RS & DR & ND & El & (L & L2 & LP & PD) & DL).
  exists r. split; [exact RS|]. split; [exact DR|]. split; [exact ND|]. split; [exact DL|].
  destruct (row_spec_ends t bw _ _ _ _ D1 D2 O RS) as ((ra & Ea) & (rb & Eb)).
  (* the padded list starts and ends with the same dates *)
  assert (PE : (exists pa, p = x_from x :: pa) /\ (exists pb, p = pb ++ [x_to x]) /\ nondecreasing p /\ forall f, (forall d, is_date d -> f d d = 0) -> over_periods f p = over_periods f r).
  { assert (FP : forall (f : date -> date -> R), (forall d, is_date d -> f d d = 0) -> forall y, In y r -> f y y = 0) by (intros f F y I; apply F; rewrite Forall_forall in DR; exact (DR y I)).
    destruct bw.
    - assert (FF : forall f, (forall d, is_date d -> f d d = 0) -> over_periods f p = over_periods f r) by (intros f F; exact (proj1 (periods_padded_first f L r p (FP f F) PD))).
      destruct PD as (z & q & E1 & E2). assert (z = x_from x) by congruence. subst z. split; [|split; [|split; [|exact FF]]].
      + rewrite E2, Ea. destruct (L - length (x_from x :: ra))%nat; [eexists; reflexivity|]. cbn. eexists. reflexivity.
      + rewrite E2, Eb. eexists. rewrite app_assoc. reflexivity.
      + rewrite E2. rewrite E1. apply sorted_repeat_first. rewrite <- E1. exact ND.
    - assert (FF : forall f, (forall d, is_date d -> f d d = 0) -> over_periods f p = over_periods f r) by (intros f F; exact (proj1 (periods_padded_last f L r p (FP f F) PD))).
      destruct PD as (q & z & E1 & E2). assert (z = x_to x) by (rewrite E1 in Eb; apply app_inj_tail in Eb; apply Eb). subst z. split; [|split; [|split; [|exact FF]]].
      + rewrite E2, Ea. eexists. reflexivity.
      + rewrite E2, E1. rewrite <- app_assoc. cbn [app]. change (x_to x :: repeat (x_to x) (L - length (q ++ [x_to x]))) with (repeat (x_to x) (S (L - length (q ++ [x_to x])))).
        cbn [repeat]. rewrite repeat_cons. eexists. rewrite app_assoc. reflexivity.
      + rewrite E2, E1. rewrite <- app_assoc. cbn [app]. apply sorted_repeat'. rewrite <- E1. exact ND. }
  destruct PE as ((pa & Pa) & (pb & Pb) & NP & FF).
  assert (LL : length l = (L + 2)%nat) by (rewrite El; cbn [length]; rewrite app_length; cbn [length]; lia).
  split. { rewrite El. replace (x_from x :: p ++ [x_to x]) with ((x_from x :: p) ++ [x_to x]) by reflexivity.
    replace ((x_from x :: p) ++ [x_to x]) with ((x_from x :: pb) ++ [x_to x; x_to x]) by (rewrite Pb; cbn [app]; rewrite <- app_assoc; reflexivity).
    apply sorted_snoc'. replace ((x_from x :: pb) ++ [x_to x]) with (x_from x :: p) by (rewrite Pb; reflexivity).
    rewrite Pa. change (x_from x :: x_from x :: pa) with (repeat (x_from x) 1 ++ x_from x :: pa). apply sorted_repeat_first. rewrite <- Pa. exact NP. }
  split; [lia|]. split; [|split].
  - intros d. rewrite El, Pa. reflexivity.
  - intros d. rewrite LL. assert (E2 : l = (x_from x :: pb) ++ [x_to x; x_to x]) by (rewrite El, Pb; cbn [app]; rewrite <- app_assoc; reflexivity).
    assert (LB : length (x_from x :: pb) = L) by (rewrite E2, app_length in LL; cbn [length] in *; lia). rewrite E2, !app_nth2 by (rewrite LB; lia). rewrite LB.
    replace (L + 2 - 2 - L)%nat with 0%nat by lia. replace (L + 2 - 1 - L)%nat with 1%nat by lia. reflexivity.
  - intros f F. rewrite <- (FF f F). rewrite El. rewrite Pa at 1. cbn [app]. change (x_from x :: x_from x :: pa ++ [x_to x]) with ([x_from x] ++ x_from x :: pa ++ [x_to x]).
    rewrite periods_app. change (x_from x :: pa ++ [x_to x]) with ((x_from x :: pa) ++ [x_to x]). rewrite <- Pa.
    change ([x_from x] ++ [x_from x]) with [x_from x; x_from x]. replace (over_periods f [x_from x; x_from x]) with 0 by (cbn [over_periods]; rewrite (F _ D1); lra). rewrite Rplus_0_l.
    rewrite Pb at 1. rewrite <- app_assoc. cbn [app]. rewrite periods_app. rewrite <- Pb.
    replace (over_periods f [x_to x; x_to x]) with 0 by (cbn [over_periods]; rewrite (F _ D2); lra). lra.
Qed.

(** *** One contract *)
Lemma over_pairs f l : reduce_sum (map (fun '(s, e) => f s e) (combine (removelast l) (tl l))) = over_periods f l.
Proof.
  induction l as [|a [|b l] IH]; [reflexivity|reflexivity|]. change (removelast (a :: b :: l)) with (a :: removelast (b :: l)). cbn [tl combine map].
  change (f a b + reduce_sum (map (fun '(s, e) => f s e) (combine (removelast (b :: l)) (tl (b :: l)))) = f a b + over_periods f (b :: l)). rewrite IH. reflexivity.
Qed.
Lemma broadcast_same {A B C D} (f : B -> C -> D) (g : A -> B) (h : A -> C) ds : broadcast2 f (map g ds) (map h ds) = Some (map (fun x => f (g x) (h x)) ds).
Proof. unfold broadcast2. rewrite !map_length, Nat.eqb_refl, map2_same. reflexivity. Qed.
Lemma geb_ltb a b : date_geb a b = negb (date_ltb a b).
Proof. unfold date_geb, date_ltb. lia. Qed.

Lemma pairs_of (l : list date) : removelast l = map fst (combine (removelast l) (tl l)) /\ tl l = map snd (combine (removelast l) (tl l)).
Proof.
  assert (L : length (removelast l) = length (tl l)) by (rewrite removelast_length, tl_length; reflexivity).
  split; symmetry; [apply combine_map_fst; exact L|]. revert L. generalize (removelast l) (tl l). clear. intros u. induction u as [|x u IH]; intros [|y v] L; cbn in *; [reflexivity|discriminate|discriminate|]. f_equal. apply IH. lia.
Qed.
Lemma fixed_price c valuation discount notional rate l :
  fixed_stream_price c valuation discount notional rate l = fixed_leg_value valuation discount (get_daycount_fn c) notional rate l.
Proof.
  unfold fixed_stream_price, fixed_cashflows, fractions_of, fixed_leg_value. destruct (pairs_of l) as (E1 & E2). rewrite <- over_pairs.
  set (T := combine (removelast l) (tl l)) in *. clearbody T. rewrite E1, E2. clear E1 E2. rewrite !map2_same, map_map, map2_same. f_equal. apply map_ext. intros (s, e). cbn [fst snd].
  unfold value_of, date_geb. destruct (ordinal valuation <=? ordinal e)%Z; ring.
Qed.

(** What the floating coupon from [s] to [e] is worth for the code. *)
Definition code_coupon (c : day_count) (valuation : date) (discount reference : date -> R) (past notional spread : R) (s e accrual : date) : R :=
  notional * (get_daycount_fn c s e * ((if date_ltb e valuation then 0 else if date_geb s valuation then
    (if Rlt_dec 0 (get_daycount_fn c s e) then forward_rate (reference s) (reference accrual) (get_daycount_fn c s e) else 0) else past) + spread)) * discount e.
Lemma float_price c reset valuation discount reference past notional spread a m z b y m1 m2 : m = b :: m1 -> m = m2 ++ [y] ->
  (forall d, In d (a :: m) -> date_add d reset = Some (InstrumentSpec.plus d reset)) ->
  let coupon := code_coupon c valuation discount reference past notional spread in
  float_stream_price c reset valuation discount reference past notional spread (a :: m ++ [z]) =
  Some (coupon a b b + over_periods (fun s e => coupon s e (InstrumentSpec.plus s reset)) m + coupon y z z).
Proof.
  intros E1 E2 AD coupon.
  set (T := (a, b, b) :: map (fun '(s, e) => (s, e, InstrumentSpec.plus s reset)) (combine (removelast m) (tl m)) ++ [(y, z, z)]).
  assert (T1 : removelast (a :: m ++ [z]) = map (fun x => fst (fst x)) T).
  { change (a :: m ++ [z]) with ((a :: m) ++ [z]). rewrite removelast_last. unfold T. cbn [map fst]. f_equal. rewrite map_app, map_map. cbn [map fst].
    rewrite E2 at 1. f_equal. destruct (pairs_of m) as (P1 & _). transitivity (removelast m); [rewrite E2, removelast_last; reflexivity|]. rewrite P1 at 1. apply map_ext. intros (s, e). reflexivity. }
  assert (T2 : tl (a :: m ++ [z]) = map (fun x => snd (fst x)) T).
  { cbn [tl]. unfold T. cbn [map fst snd]. rewrite map_app, map_map. cbn [map fst snd]. rewrite app_comm_cons. f_equal. destruct (pairs_of m) as (_ & P2).
    transitivity (b :: tl m); [rewrite E1; reflexivity|]. f_equal. rewrite P2 at 1. apply map_ext. intros (s, e). reflexivity. }
  assert (T3 : accrual_ends reset (a :: m ++ [z]) = Some (map snd T)).
  { unfold accrual_ends. change (a :: m ++ [z]) with ((a :: m) ++ [z]). rewrite removelast_last.
    assert (M : forall l, (forall d, In d l -> date_add d reset = Some (InstrumentSpec.plus d reset)) -> map_opt (fun d => date_add d reset) l = Some (map (fun d => InstrumentSpec.plus d reset) l)).
    { induction l as [|d l IH]; intros H; [reflexivity|]. cbn [map_opt map]. rewrite (H d (or_introl eq_refl)). rewrite IH by (intros x I; apply H; right; exact I). reflexivity. }
    rewrite (M _ AD). cbn [option_map map tl app]. f_equal. unfold T. cbn [map snd]. rewrite map_app, map_map. cbn [map snd].
    replace (firstn 1 (m ++ [z])) with [b] by (rewrite E1; reflexivity). rewrite app_length. cbn [length]. replace (length m + 1 - 1)%nat with (length m) by lia.
    rewrite skipn_app, skipn_all, Nat.sub_diag. cbn [app skipn]. f_equal. f_equal. destruct (pairs_of m) as (P1 & _).
    transitivity (map (fun d => InstrumentSpec.plus d reset) (removelast m)); [rewrite E2, map_app, removelast_last; cbn [map]; rewrite removelast_last; reflexivity|].
    rewrite P1 at 1. rewrite map_map. apply map_ext. intros (s, e). reflexivity. }
  unfold float_stream_price, float_cashflows, float_rates, fractions_of. rewrite T3. unfold bind. rewrite T1, T2, !map2_same. rewrite broadcast_same. cbv iota beta.
  rewrite broadcast_same. cbv iota beta. replace (combine (map (fun x => fst (fst x)) T) (map (fun x => snd (fst x)) T)) with (map fst T).
  2: { clear. induction T as [|((s, e), w) T IH]; [reflexivity|]. cbn [map combine fst snd]. rewrite <- IH. reflexivity. }
  rewrite broadcast_same. cbv iota beta. rewrite broadcast_same. cbv iota beta. rewrite map_map, broadcast_same. cbn [option_map]. f_equal.
  transitivity (reduce_sum (map (fun x => coupon (fst (fst x)) (snd (fst x)) (snd x)) T)).
  { f_equal. apply map_ext. intros ((s, e), w). cbn [fst snd]. reflexivity. }
  unfold T. cbn [map]. rewrite map_app, map_map. cbn [map fst snd].
  rewrite <- over_pairs. change (reduce_sum (?u :: ?v)) with (u + reduce_sum v). rewrite reduce_app.
  change (reduce_sum [coupon y z z]) with (coupon y z z + 0). rewrite Rplus_0_r, <- Rplus_assoc. f_equal. f_equal. f_equal. apply map_ext. intros (s, e). reflexivity.
Qed.

Lemma coupon_code c valuation discount reference past notional spread s e acc : fair_fraction (get_daycount_fn c) -> is_date s -> is_date e -> (ordinal s <= ordinal e)%Z ->
  (forall d, reference d <> 0) ->
  code_coupon c valuation discount reference past notional spread s e acc =
  coupon_value valuation discount reference past (get_daycount_fn c) notional spread s e acc + passed_spread valuation discount (get_daycount_fn c) notional spread s e.
Proof.
  intros (F0 & F1) DS DE O RP. specialize (F1 s e DS DE O). unfold code_coupon, coupon_value, passed_spread, value_of, floating_rate, date_geb, date_ltb.
  set (tau := get_daycount_fn c s e) in *. clearbody tau.
  destruct (ordinal e <? ordinal valuation)%Z eqn:Q1.
  - replace (ordinal valuation <=? ordinal e)%Z with false by lia. ring.
  - replace (ordinal valuation <=? ordinal e)%Z with true by lia. destruct (ordinal valuation <=? ordinal s)%Z eqn:Q2.
    + replace (ordinal s <? ordinal valuation)%Z with false by lia. destruct (Rlt_dec 0 tau) as [P|P].
      * unfold forward_rate, divide_no_nan. destruct (Req_EM_T (reference acc) 0) as [Z|_]; [destruct (RP acc Z)|]. destruct (Req_EM_T tau 0) as [Z|_]; [lra|]. ring.
      * replace tau with 0 by lra. ring.
    + replace (ordinal s <? ordinal valuation)%Z with true by lia. ring.
Qed.

(** The floating coupons of a row of a batch. *)
Lemma row_float t bw x l conv c q' t' valuation discount reference past notional spread : good_terms conv x -> row_for t bw x l -> fair_fraction (get_daycount_fn c) ->
  (0 < q')%Z -> (forall d, reference d <> 0) ->
  exists r, coupon_schedule t bw x r /\ Forall is_date r /\ nondecreasing r /\
    float_stream_price c (mk_period q' t') valuation discount reference past notional spread l =
    Some (over_periods (fun s e => coupon_value valuation discount reference past (get_daycount_fn c) notional spread s e (InstrumentSpec.plus s (mk_period q' t'))) r +
          over_periods (passed_spread valuation discount (get_daycount_fn c) notional spread) r).
Proof.
  intros GT RF (F0 & F1) Q RP. destruct (row_facts t bw x l conv GT RF) as (r & RS & DR & NR & DL & NL & L4 & N0 & N1 & OV).
  assert (CS : coupon_schedule t bw x r) by (unfold coupon_schedule; destruct bw; exact RS).
  exists r. split; [exact CS|]. split; [exact DR|]. split; [exact NR|].
  destruct RF as (r' & p & _ & _ & _ & El & (L & L2 & LP & _) & _). clear r'.
  destruct p as [|b p1] eqn:Ep; [cbn in LP; lia|]. rewrite <- Ep in *.
  assert (Hb : b = x_from x) by (specialize (N0 (x_from x)); rewrite El, Ep in N0; cbn in N0; symmetry; exact N0).
  destruct (exists_last (l := p) ltac:(rewrite Ep; discriminate)) as (p2 & y & Ey).
  assert (Hy : y = x_to x).
  { specialize (N1 (x_from x)). assert (LL : length l = (length p2 + 3)%nat) by (rewrite El, Ey; cbn [length]; rewrite !app_length; cbn; lia).
    rewrite LL in N1. replace l with ((x_from x :: p2) ++ [y; x_to x]) in N1 by (rewrite El, Ey; cbn [app]; rewrite <- app_assoc; reflexivity).
    rewrite !app_nth2 in N1 by (cbn [length]; lia). cbn [length] in N1. replace (length p2 + 3 - 2 - S (length p2))%nat with 0%nat in N1 by lia. replace (length p2 + 3 - 1 - S (length p2))%nat with 1%nat in N1 by lia. exact N1. }
  assert (DP : forall d, In d (x_from x :: p) -> is_date d) by (intros d I; rewrite Forall_forall in DL; apply DL; rewrite El; destruct I as [<-|I]; [left; reflexivity|right; apply in_or_app; left; exact I]).
  assert (DZ : is_date (x_to x)) by (apply DP; right; rewrite Ey, Hy; apply in_or_app; right; left; reflexivity).
  rewrite El. rewrite (float_price c (mk_period q' t') valuation discount reference past notional spread (x_from x) p (x_to x) b y p1 p2 Ep Ey).
  2: { intros d I. apply (plus_later d q' t' (DP d I) Q). }
  f_equal. set (f := code_coupon c valuation discount reference past notional spread).
  assert (FZ : forall d a, is_date d -> f d d a = 0) by (intros d a Dd; unfold f, code_coupon; rewrite (F0 d Dd); ring).
  rewrite Hb, Hy. rewrite !FZ by (try exact DZ; apply DP; left; reflexivity). rewrite Rplus_0_l, Rplus_0_r.
  transitivity (over_periods (fun s e => f s e (InstrumentSpec.plus s (mk_period q' t'))) l).
  - rewrite El. rewrite Ep at 2. cbn [app]. rewrite Hb. change (x_from x :: x_from x :: p1 ++ [x_to x]) with ([x_from x] ++ x_from x :: p1 ++ [x_to x]).
    rewrite periods_app. change (x_from x :: p1 ++ [x_to x]) with ((x_from x :: p1) ++ [x_to x]). rewrite <- Hb at 3. rewrite <- Ep.
    rewrite Ey at 2. rewrite <- app_assoc. cbn [app]. rewrite periods_app, <- Ey. rewrite Hy. cbn [over_periods]. rewrite !FZ by (try exact DZ; apply DP; left; reflexivity). ring.
  - rewrite OV by (intros d Dd; apply FZ; exact Dd).
    transitivity (over_periods (fun s e => coupon_value valuation discount reference past (get_daycount_fn c) notional spread s e (InstrumentSpec.plus s (mk_period q' t')) + passed_spread valuation discount (get_daycount_fn c) notional spread s e) r).
    + clear - DR NR F0 F1 RP. induction r as [|u [|v r] IH]; [reflexivity|reflexivity|].
      inversion DR; subst. inversion H2; subst. inversion NR; subst. inversion H6; subst.
      change (f u v (InstrumentSpec.plus u (mk_period q' t')) + over_periods (fun s e => f s e (InstrumentSpec.plus s (mk_period q' t'))) (v :: r) =
        (coupon_value valuation discount reference past (get_daycount_fn c) notional spread u v (InstrumentSpec.plus u (mk_period q' t')) + passed_spread valuation discount (get_daycount_fn c) notional spread u v) +
        over_periods (fun s e => coupon_value valuation discount reference past (get_daycount_fn c) notional spread s e (InstrumentSpec.plus s (mk_period q' t')) + passed_spread valuation discount (get_daycount_fn c) notional spread s e) (v :: r)).
      rewrite (IH H2 H5). unfold f. rewrite (coupon_code c valuation discount reference past notional spread u v _ (conj F0 F1) H1 H3 H7 RP). reflexivity.
    + clear. induction r as [|u [|v r] IH]; [cbn; ring|cbn; ring|]. cbn [over_periods] in *. rewrite IH. ring.
Qed.
