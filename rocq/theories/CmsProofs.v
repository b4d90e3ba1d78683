(** Proofs about CMS coupons. *)
From Coq Require Import Reals QArith Qreals ZArith List Bool Lia Lra ZifyBool Sorted.
From Verif Require Import InterpModel BrentModel BrentProofs ExtReal BootstrapModel BootstrapProofs HaganWestModel TensorModel IntegrateModel SegmentModel DateModel DateSpec DateRepr DateProofs DateProofs2 DayCountModel
  CalSpec CalSetup CalProofs PropsCalAux PropsCal BoundedCalModel UnboundedCalModel ScheduleModel ScheduleSpec ScheduleProofs ScheduleProofs2 ScheduleProofs3 ScheduleProofs4 PropsSchedule RatesModel InstrumentModel InstrumentSpec
  InstrumentProofs PropsInstrument PropsInstrument2 CapFloorModel CapFloorSpec ImpliedVolProofs CapFloorProofs FuturesProofs CmsModel CmsSpec.
Import ListNotations.
Open Scope R_scope.

(** The arguments of the code for a batch. *)
Definition specs_of (y : conventions) (xs : list cms_contract) : cms_specs :=
  let co {A} (g : contract -> A) := map (fun x => g (c_coupons x)) xs in
  let fi {A} (g : contract -> A) := map (fun x => g (c_fixed x)) xs in
  let fl {A} (g : contract -> A) := map (fun x => g (c_float x)) xs in
  CmsSpecs (co k_freq) (coupon_type y) (co k_term) (tenor_type y) (co k_notional) (co k_basis) (co k_multiplier) (coupon_count y)
    (fi k_freq) (fixed_type y) (fi k_notional) (fi k_rate) (fixed_count y)
    (fl k_freq) (float_type y) (fl k_term) (term_type y) (fl k_notional) (fl k_basis) (fl k_multiplier) (float_count y).

Lemma plus_later d q t : is_date d -> (0 < q)%Z -> date_add d (mk_period q t) = Some (plus d (mk_period q t)) /\ is_date (plus d (mk_period q t)) /\ (ordinal d < ordinal (plus d (mk_period q t)))%Z.
Proof.
  intros D Q. pose proof (sord_many t d 0 q D ltac:(lia)) as H. rewrite (sord_0 t d D) in H. pose proof (min_days_pos t) as M. pose proof (is_date_pos d D) as P. replace (0 + q)%Z with q in H by lia.
  assert (L : (ordinal d < sord t d q)%Z) by nia. destruct (add_some d t q D ltac:(intros; lia)) as (x & E). destruct (add_sord d t q x D E) as (O & DX).
  unfold plus. rewrite E. split; [reflexivity|]. split; [apply DX; rewrite O; lia|rewrite O; exact L].
Qed.
Lemma in_removelast {A} (l : list A) d : In d (removelast l) -> In d l.
Proof. destruct l as [|y r]; [intros []|]. intros I. rewrite (app_removelast_last y (l := y :: r)) by discriminate. apply in_or_app. left. exact I. Qed.
Lemma forall2_flat {A B C} (P : B -> C -> Prop) (g : A -> list B) ds l : Forall2 P (flat_map g ds) l -> exists ll, l = concat ll /\ Forall2 (fun x m => Forall2 P (g x) m) ds ll.
Proof.
  revert l. induction ds as [|x ds IH]; intros l F; cbn [flat_map] in F.
  - inversion F; subst. exists []. split; [reflexivity|constructor].
  - apply Forall2_app_inv_l in F. destruct F as (m & r & F1 & F2 & ->). destruct (IH r F2) as (ll & -> & G). exists (m :: ll). split; [reflexivity|constructor; assumption].
Qed.
Lemma map_opt_map2 {A B C D} (f : A -> option B) (g : C -> list A) (h : C -> D) (k : C -> list B) (ff : list A * D -> option (list B)) ds :
  (forall x, In x ds -> ff (g x, h x) = Some (k x)) -> map_opt ff (combine (map g ds) (map h ds)) = Some (map k ds).
Proof. induction ds as [|x ds IH]; intros H; [reflexivity|]. cbn [map combine map_opt]. rewrite H by (left; reflexivity). rewrite IH by (intros; apply H; right; assumption). reflexivity. Qed.

Section Batch.
Variables (y : conventions) (xs : list cms_contract).
Hypothesis OK : ok_cms y xs.
(** The swaps of all coupons. *)
Definition swaps_of (leg : cms_contract -> contract) (ds : list (cms_contract * list date)) : list contract :=
  flat_map (fun x => map (fun s => from_to (leg (fst x)) s (swap_end y (fst x) s)) (removelast (snd x))) ds.
Lemma swaps_batch leg t ds : (forall x, In x ds -> In (fst x) xs /\ Forall is_date (snd x) /\ (2 <= length (snd x))%nat) -> ds <> [] -> (forall x, In x xs -> (0 < k_freq (leg x))%Z) ->
  ok_batch NoStub t (swaps_of leg ds).
Proof using OK.
  intros D NE Q. assert (G : forall k, In k (swaps_of leg ds) -> is_date (k_start k) /\ is_date (k_end k) /\ (0 < k_freq k)%Z /\ (ordinal (k_start k) < ordinal (k_end k))%Z).
  { intros k I. apply in_flat_map in I. destruct I as (x & I & J). apply in_map_iff in J. destruct J as (s & <- & J). destruct (D x I) as (Ix & DX & _). rewrite Forall_forall in DX.
    specialize (DX s (in_removelast _ _ J)). destruct (proj2 OK (fst x) Ix) as (T & _). destruct (plus_later s (k_term (c_coupons (fst x))) (tenor_type y) DX T) as (_ & E1 & E2).
    cbn [from_to k_start k_end k_freq]. unfold swap_end. auto. }
  split; [|split; [|discriminate]].
  - intros k I. destruct (G k I) as (A & B & C & E). cbn [regular_range fst snd]. split; [exact A|]. split; [exact B|]. split; [exact A|]. split; [exact B|]. split; [exact C|]. lia.
  - destruct ds as [|x ds]; [congruence|]. destruct (D x (or_introl eq_refl)) as (Ix & DX & L). destruct (snd x) as [|s [|e r]] eqn:SX; cbn [length] in L; try lia.
    exists (from_to (leg (fst x)) s (swap_end y (fst x) s)). assert (I : In (from_to (leg (fst x)) s (swap_end y (fst x) s)) (swaps_of leg (x :: ds))).
    { unfold swaps_of. cbn [flat_map]. apply in_or_app. left. rewrite SX. cbn [removelast map]. left. reflexivity. }
    split; [exact I|]. exact (proj2 (proj2 (proj2 (G _ I)))).
Qed.
Lemma swaps_repeat {A} leg (g : contract -> A) n ds : (forall k s e, g (from_to k s e) = g k) -> (forall x, In x ds -> length (removelast (snd x)) = n) ->
  map g (swaps_of leg ds) = tf_repeat (map (fun x => g (leg (fst x))) ds) n.
Proof using.
  intros E L. unfold swaps_of. rewrite flat_of_map, repeat_of_map. induction ds as [|x ds IH]; [reflexivity|]. cbn [flat_map]. rewrite IH by (intros; apply L; right; assumption). f_equal.
  rewrite <- (L x (or_introl eq_refl)), map_map. induction (removelast (snd x)) as [|s r IHr]; [reflexivity|]. cbn [map length repeat]. rewrite E, IHr. reflexivity.
Qed.
Lemma swaps_start leg ds : map k_start (swaps_of leg ds) = flat_map (fun x => removelast (snd x)) ds.
Proof using. unfold swaps_of. rewrite flat_of_map. induction ds as [|x ds IH]; [reflexivity|]. cbn [flat_map]. rewrite IH, map_map. f_equal. apply map_id. Qed.
Lemma swaps_end leg ds : map k_end (swaps_of leg ds) = flat_map (fun x => map (swap_end y (fst x)) (removelast (snd x))) ds.
Proof using. unfold swaps_of. rewrite flat_of_map. induction ds as [|x ds IH]; [reflexivity|]. cbn [flat_map]. rewrite IH, map_map. reflexivity. Qed.

(** What the setup produces. *)
Definition value_code (valuation : date) (discount reference : date -> R) (k : contract) (v : R) : Prop :=
  exists l, contract_dates NoStub (float_type y) k l /\ Forall is_date l /\ nondecreasing l /\ v = over_periods (float_code valuation discount reference 0 (float_count y) (term_type y) k true) l.
Definition level_code (discount : date -> R) (unit : bool) (k : contract) (a : R) : Prop :=
  exists l, contract_dates NoStub (fixed_type y) k l /\ a = over_periods (fun s e => (if unit then 1 else k_notional k) * discount e * daycount_fraction (fixed_count y) s e) l.
Definition cms_row (W : nat) (x : cms_contract) (l : list date) : Prop :=
  length l = W /\ Forall is_date l /\ nondecreasing l /\ exists r, contract_dates NoStub (coupon_type y) (c_coupons x) r /\ Forall is_date r /\ nondecreasing r /\ padded_last W r l.
Lemma setup_ok : exists rows W f, (2 <= W)%nat /\ cms_setup (map (fun x => k_start (c_coupons x)) xs) (map (fun x => k_end (c_coupons x)) xs) (specs_of y xs) = Some f /\
  Forall2 (cms_row W) xs rows /\
  let ds := combine xs rows in
  cm_batch f = length xs /\ cm_num f = (W - 1)%nat /\ cm_start f = flat_map (fun x => removelast (snd x)) ds /\ cm_end f = flat_map (fun x => tl (snd x)) ds /\
  cm_fractions f = flat_map (fun x => map2 (daycount_fraction (coupon_count y)) (removelast (snd x)) (tl (snd x))) ds /\
  cm_notional f = flat_map (fun x => repeat (k_notional (c_coupons (fst x))) (W - 1)) ds /\ cm_basis f = flat_map (fun x => repeat (k_basis (c_coupons (fst x))) (W - 1)) ds /\
  cm_multiplier f = flat_map (fun x => repeat (k_multiplier (c_coupons (fst x))) (W - 1)) ds /\ cm_contract f = tf_repeat (seq 0 (length ds)) (W - 1) /\
  cm_delta f = map (fun x => term_to_years (coupon_type y) (k_freq (c_coupons x))) xs /\ cm_tau f = map (fun x => term_to_years (fixed_type y) (k_freq (c_fixed x))) xs /\
  cm_periods f = map (fun x => term_to_years (tenor_type y) (k_term (c_coupons x)) / term_to_years (fixed_type y) (k_freq (c_fixed x))) xs /\
  (forall discount u, exists la, annuity (cm_fixed f) discount u = Some la /\ Forall2 (level_code discount u) (swaps_of c_fixed ds) la) /\
  (forall valuation discount reference, exists lv, float_price (cm_float f) valuation discount reference None = Some lv /\ Forall2 (value_code valuation discount reference) (swaps_of c_float ds) lv).
Proof using OK.
  destruct (plain_schedule (map c_coupons xs) (coupon_type y) false k_start k_end) as (rows & W & E & W2 & F); [intros k I; destruct (proj1 (proj1 OK) k I); cbn [regular_range fst snd] in *; tauto|exact (proj1 (proj2 (proj1 OK)))|tauto|].
  rewrite !map_map in E.
  assert (F' : Forall2 (cms_row W) xs rows).
  { clear - F. remember (map c_coupons xs) as cs eqn:EC. revert xs EC. induction F as [|k l cs rows H F IH]; intros [|x xs] EC; try discriminate EC; [constructor|]. injection EC as -> ->. constructor; [|apply IH; reflexivity].
    destruct H as (A & B & r & C & D & N & P). split; [exact A|]. split; [exact B|]. split; [exact (padded_nondecreasing false W r l N P)|]. exists r. auto. }
  set (ds := combine xs rows). assert (LEN : length xs = length rows) by (exact (forall2_len' _ _ _ F')).
  assert (FST : forall A (g : cms_contract -> A), map g xs = map (fun x => g (fst x)) ds) by (intros A g; rewrite <- (map_map fst g); unfold ds; rewrite combine_map_fst by exact LEN; reflexivity).
  assert (SND : forall A (g : list date -> A), map g rows = map (fun x => g (snd x)) ds) by (intros A g; rewrite <- (map_map snd g); unfold ds; rewrite combine_map_snd by exact LEN; reflexivity).
  assert (DL : length xs = length ds) by (unfold ds; rewrite combine_length; lia).
  assert (DO : forall x, In x ds -> cms_row W (fst x) (snd x)) by (intros x I; exact (forall2_combine _ _ _ F' x I)).
  assert (DI : forall x, In x ds -> In (fst x) xs) by (intros x I; unfold ds in I; destruct x as [a b]; exact (in_combine_l _ _ _ _ I)).
  assert (DD : forall x, In x ds -> Forall is_date (snd x)) by (intros x I; destruct (DO x I) as (_ & H & _); exact H).
  assert (NE : ds <> []).
  { pose proof (some_contract _ _ _ (proj1 OK)) as N. intros H. rewrite H in DL. destruct xs; [apply N; reflexivity|discriminate DL]. }
  assert (RL : forall x, In x ds -> length (removelast (snd x)) = (W - 1)%nat) by (intros x I; rewrite removelast_length, (proj1 (DO x I)); reflexivity).
  assert (PRE : forall x, In x ds -> In (fst x) xs /\ Forall is_date (snd x) /\ (2 <= length (snd x))%nat) by (intros x I; split; [apply DI, I|]; split; [apply DD, I|]; rewrite (proj1 (DO x I)); exact W2).
  pose proof (swaps_batch c_fixed (fixed_type y) ds PRE NE (fun x I => proj1 (proj2 (proj2 OK x I)))) as BF.
  pose proof (swaps_batch c_float (float_type y) ds PRE NE (fun x I => proj1 (proj2 (proj2 (proj2 OK x I))))) as BL.
  destruct (fixed_rows NoStub (fixed_type y) _ (fixed_count y) BF) as (rf & f & RF & _ & SF & _ & AF).
  assert (TL : forall k, In k (swaps_of c_float ds) -> (0 < k_term k)%Z).
  { intros k I. apply in_flat_map in I. destruct I as (x & I & J). apply in_map_iff in J. destruct J as (s & <- & J). cbn [from_to k_term]. apply (proj2 OK (fst x) (DI x I)). }
  destruct (float_rows NoStub (float_type y) _ (float_count y) (term_type y) BL TL) as (rl & g & RG & _ & SG & AG).
  cbn [first_dates penultimate_dates] in SF, SG.
  assert (ENDS : map_opt (fun '(l, q) => map_opt (fun d => date_add d (mk_period q (tenor_type y))) l) (combine (map (@removelast date) rows) (map (fun x => k_term (c_coupons x)) xs)) =
    Some (map (fun x => map (swap_end y (fst x)) (removelast (snd x))) ds)).
  { rewrite SND, FST. apply (map_opt_map2 (fun d : date => Some d)). intros x I. pose proof (DD x I) as H. rewrite Forall_forall in H. pose proof (proj1 (proj2 OK (fst x) (DI x I))) as T.
    assert (H' : forall d, In d (removelast (snd x)) -> is_date d) by (intros d J; apply H, in_removelast, J). clear - H' T. induction (removelast (snd x)) as [|d r IH]; [reflexivity|].
    cbn [map map_opt]. rewrite (proj1 (plus_later d _ (tenor_type y) (H' d (or_introl eq_refl)) T)). rewrite IH by (intros; apply H'; right; assumption). reflexivity. }
  assert (WI : width (map (@tl date) rows) = (W - 1)%nat).
  { destruct rows as [|r0 rows']; [destruct xs; [exfalso; apply NE; reflexivity|discriminate LEN]|]. cbn [map width]. rewrite tl_length. inversion F' as [|? ? ? ? (H & _)]; subst. reflexivity. }
  exists rows, W. eexists. split; [exact W2|]. split.
  { unfold cms_setup. cbn [specs_of m_freq m_type m_tenor m_tenor_type m_count m_fixed_freq m_fixed_type m_fixed_notional m_fixed_rate m_fixed_count m_float_freq m_float_type m_float_term m_float_term_type m_float_notional m_float_basis m_float_multiplier m_float_count m_notional m_basis m_multiplier].
    unfold generate_schedule. rewrite E. cbn [option_map bind]. rewrite ENDS. cbn [bind]. rewrite WI.
    rewrite !concat_of_map. rewrite swaps_start, swaps_end in SF, SG.
    rewrite !(swaps_repeat _ _ (W - 1) ds) in SF by (first [exact RL | reflexivity]). rewrite !(swaps_repeat _ _ (W - 1) ds) in SG by (first [exact RL | reflexivity]).
    assert (CS : flat_map (@removelast date) rows = flat_map (fun x => removelast (snd x)) ds) by (rewrite <- !concat_of_map; rewrite SND; reflexivity).
    rewrite CS. rewrite !FST.
    match goal with |- bind ?e _ = _ => replace e with (Some f) by (symmetry; exact SF) end. cbn [bind].
    match goal with |- bind ?e _ = _ => replace e with (Some g) by (symmetry; exact SG) end. cbn [bind]. reflexivity. }
  split; [exact F'|]. cbv zeta. cbn [cm_batch cm_num cm_start cm_end cm_fractions cm_notional cm_basis cm_multiplier cm_contract cm_delta cm_tau cm_periods cm_fixed cm_float].
  fold ds. rewrite !map_length. split; [auto|]. split; [reflexivity|]. split; [reflexivity|].
  split; [rewrite <- !concat_of_map; rewrite SND; reflexivity|].
  split; [rewrite !SND, map2_same, concat_of_map; reflexivity|].
  split; [rewrite repeat_of_map; reflexivity|]. split; [rewrite repeat_of_map; reflexivity|]. split; [rewrite repeat_of_map; reflexivity|]. split; [reflexivity|].
  split; [rewrite map_map; symmetry; exact (FST _ (fun x => term_to_years (coupon_type y) (k_freq (c_coupons x))))|].
  split; [rewrite map_map; symmetry; exact (FST _ (fun x => term_to_years (fixed_type y) (k_freq (c_fixed x))))|].
  split; [rewrite !map_map, map2_same; symmetry; exact (FST _ (fun x => term_to_years (tenor_type y) (k_term (c_coupons x)) / term_to_years (fixed_type y) (k_freq (c_fixed x))))|]. split.
  - intros discount u. eexists. split; [apply AF|]. apply (forall2_of_combine (row_of NoStub (fixed_type y)) (level_code discount u)); [exact RF|]. intros k l _ (l0 & C & _ & _ & _ & H). exists l0. split; [exact C|].
    cbn [fst snd]. pose proof (H (fun s e => (if u then 1 else k_notional k) * discount e * daycount_fraction (fixed_count y) s e) (fun s e => (if u then 1 else k_notional k) * discount e * daycount_fraction (fixed_count y) s e)) as H'.
    rewrite !coupons_same in H'. apply H'. intros d D. rewrite fraction_same by exact D. ring.
  - intros valuation discount reference. eexists. split; [apply (AG valuation discount reference None); left; reflexivity|]. apply (forall2_of_combine (row_of NoStub (float_type y)) (value_code valuation discount reference)); [exact RG|]. intros k l _ (l0 & C & _ & D0 & N0 & H). exists l0. split; [exact C|]. split; [exact D0|]. split; [exact N0|].
    cbn [fst snd fixing_of over_coupons]. apply (H _ (float_code valuation discount reference 0 (float_count y) (term_type y) k false)). intros d D. unfold float_code. rewrite fraction_same by exact D. ring.
Qed.
End Batch.
