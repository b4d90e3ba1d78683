(** C91: CMS coupons pay the rates of the swaps that start with them. *)
From Coquelicot Require Import Coquelicot.
From Coq Require Import Reals QArith Qreals ZArith List Bool Lia Lra ZifyBool Sorted.
From Verif Require Import InterpModel BrentModel BrentProofs ExtReal BootstrapModel BootstrapProofs HaganWestModel TensorModel IntegrateModel SegmentModel DateModel DateSpec DateRepr DateProofs DateProofs2 DayCountModel
  CalSpec CalSetup CalProofs PropsCalAux PropsCal BoundedCalModel UnboundedCalModel ScheduleModel ScheduleSpec ScheduleProofs ScheduleProofs2 ScheduleProofs3 ScheduleProofs4 PropsSchedule RatesModel InstrumentModel InstrumentSpec
  InstrumentProofs PropsInstrument PropsInstrument2 CapFloorModel CapFloorSpec ImpliedVolProofs CapFloorProofs FuturesProofs CmsModel CmsSpec CmsProofs.
Import ListNotations.
Open Scope R_scope.

(** ** Lemmas *)
Lemma zip_fin2 f g a b : (forall x y, f (Fin x) (Fin y) = Fin (g x y)) -> xzip f (map Fin a) (map Fin b) = map Fin (map2 g a b).
Proof. intros E. unfold xzip, map2. revert b. induction a as [|x a IH]; intros [|y b]; [reflexivity..|]. cbn. rewrite IH, E. reflexivity. Qed.
(** The dates of a contract lie after its start. *)
Lemma dates_from t k l d : is_date (k_start k) -> (0 < k_freq k)%Z -> (ordinal (k_start k) <= ordinal (k_end k))%Z -> contract_dates NoStub t k l -> In d l -> (ordinal (k_start k) <= ordinal d)%Z.
Proof.
  intros D Q O (n & s & A & _ & ->) I. apply in_app_or in I. destruct I as [I|[<-|[]]]; [|exact O]. apply in_map_iff in I. destruct I as (i & <- & I).
  assert (R : (0 <= i < Z.of_nat n)%Z) by (apply in_map_iff in I; destruct I as (j & <- & I); apply in_seq in I; lia). destruct (A i R) as (E & _).
  change (period_mul (mk_period (k_freq k) t) i) with (mk_period (k_freq k * i) t) in E. destruct (add_sord _ _ _ _ D E) as (-> & _).
  pose proof (sord_many t (k_start k) 0 (k_freq k * i) D ltac:(nia)) as H. rewrite (sord_0 t _ D) in H. replace (0 + k_freq k * i)%Z with (k_freq k * i)%Z in H by lia. pose proof (min_days_pos t). nia.
Qed.
Lemma in_tl {A} (l : list A) d : In d (tl l) -> In d l.
Proof. destruct l; [intros []|]. intros I. right. exact I. Qed.
(** Consecutive dates of a padded schedule. *)
Lemma padded_pairs L r l s e : padded_last L r l -> In (s, e) (combine (removelast l) (tl l)) -> s = e \/ In e (tl r).
Proof.
  intros (p & z & -> & ->) I. pose proof (in_combine_r _ _ _ _ I) as Ie. pose proof (in_combine_l _ _ _ _ I) as Is. destruct p as [|a p].
  - left. assert (G : forall d, In d ((([] ++ [z]) ++ repeat z (L - length ([] ++ [z])))) -> d = z).
    { intros d J. apply in_app_or in J. destruct J as [[<-|[]]|J]; [reflexivity|]. apply repeat_spec in J. exact J. }
    rewrite (G s (in_removelast _ _ Is)), (G e (in_tl _ _ Ie)). reflexivity.
  - right. change ((a :: p) ++ [z]) with (a :: (p ++ [z])) in *. cbn [app tl] in Ie |- *. apply in_app_or in Ie. destruct Ie as [Ie|Ie]; [exact Ie|]. apply repeat_spec in Ie. subst e. apply in_or_app. right. left. reflexivity.
Qed.
Lemma forall2_zip {A B C D} (P : A -> B -> Prop) (Q : A -> C -> Prop) (H : A -> D -> Prop) (g : B -> C -> D) l a b : Forall2 P l a -> Forall2 Q l b -> (forall x u v, P x u -> Q x v -> H x (g u v)) -> Forall2 H l (map2 g a b).
Proof. intros F1 F2 E. revert b F2. induction F1 as [|x u l a PX F1 IH]; intros b F2; inversion F2 as [|? v ? b' QX F2']; subst; [constructor|]. unfold map2. cbn [combine map]. constructor; [apply E; assumption|apply (IH _ F2')]. Qed.

Section Batch.
Variables (y : conventions) (xs : list cms_contract) (valuation : date) (discount reference : date -> R).
Hypothesis OK : ok_cms y xs.
Hypothesis LEVEL : forall x s a, In x xs -> is_date s -> (ordinal valuation <= ordinal s)%Z -> swap_level y discount x s a -> k_notional (c_fixed x) * a <> 0.
Lemma periods_scale c (f : date -> date -> R) l : over_periods (fun s e => c * f s e) l = c * over_periods f l.
Proof using. induction l as [|u [|v l] IH]; [cbn; ring|cbn; ring|]. change (c * f u v + over_periods (fun s e => c * f s e) (v :: l) = c * (f u v + over_periods f (v :: l))). rewrite IH. ring. Qed.
Lemma periods_in f g l : (forall s e, In s l -> In e (tl l) -> f s e = g s e) -> over_periods f l = over_periods g l.
Proof using.
  induction l as [|u [|v l] IH]; intros H; [reflexivity|reflexivity|]. change (f u v + over_periods f (v :: l) = g u v + over_periods g (v :: l)). rewrite H by (cbn; auto). f_equal. apply IH. intros s e A B. apply H; [right; exact A|right; exact B].
Qed.
(** The quotient of the values of the two legs is the par rate. *)
Lemma par_swap x s v a : In x xs -> is_date s -> (ordinal valuation <= ordinal s)%Z ->
  value_code y valuation discount reference (from_to (c_float x) s (swap_end y x s)) v -> level_code y discount false (from_to (c_fixed x) s (swap_end y x s)) a ->
  swap_rate y valuation discount reference x s (v / a).
Proof using OK LEVEL.
  intros I D V (l' & C' & D' & N' & ->) (l & C & ->). destruct (proj2 OK x I) as (T & Q1 & Q2 & T2). destruct (plus_later s _ (tenor_type y) D T) as (_ & De & Le). fold (swap_end y x s) in De, Le.
  set (e := swap_end y x s) in *. exists l, l'. fold e. split; [exact C|]. split; [exact C'|].
  assert (A1 : forall d, In d (tl l) -> (ordinal valuation <= ordinal d)%Z).
  { intros d J. apply Z.le_trans with (ordinal s); [exact V|]. apply (dates_from _ (from_to (c_fixed x) s e) l d D Q1 ltac:(cbn [from_to k_start k_end]; lia) C). apply in_tl, J. }
  assert (A2 : forall d, In d (tl l') -> (ordinal valuation <= ordinal d)%Z).
  { intros d J. apply Z.le_trans with (ordinal s); [exact V|]. apply (dates_from _ (from_to (c_float x) s e) l' d D Q2 ltac:(cbn [from_to k_start k_end]; lia) C'). apply in_tl, J. }
  pose proof (coupons_at_rate valuation discount (fixed_count y) (from_to (c_fixed x) s e)) as B. change with_rate with at_rate in B. rewrite B by exact A1. clear B.
  unfold annuity_value. cbn [from_to k_notional].
  assert (NZ : over_periods (fun s e => k_notional (c_fixed x) * discount e * daycount_fraction (fixed_count y) s e) l <> 0).
  { rewrite (periods_in _ (fun s e => k_notional (c_fixed x) * (discount e * daycount_fraction (fixed_count y) s e))) by (intros; ring). rewrite periods_scale. apply (LEVEL x s); auto. exists l. split; [exact C|reflexivity]. }
  unfold Rdiv. rewrite Rmult_assoc, Rinv_l, Rmult_1_r by exact NZ. symmetry. unfold floating_value.
  change (over_periods (float_code valuation discount reference 0 (float_count y) (term_type y) (from_to (c_float x) s e) true) l') with
    (over_coupons NoStub (float_code valuation discount reference 0 (float_count y) (term_type y) (from_to (c_float x) s e) true) (float_code valuation discount reference 0 (float_count y) (term_type y) (from_to (c_float x) s e) false) l').
  symmetry. apply coupons_ext; [exact N'|]. intros u w Iu Iw O. rewrite Forall_forall in D'. pose proof (D' u Iu) as Du. pose proof (D' w (in_tl _ _ Iw)) as Dw.
  split; [exact (float_code_value _ _ _ _ _ _ _ true u w Du Dw O (or_introl (A2 w Iw)))|exact (float_code_value _ _ _ _ _ _ _ false u w Du Dw O (or_introl (A2 w Iw)))].
Qed.

(** One coupon as the code computes it from the par rate r. *)
Definition known_rate (fixing : R) (s e : date) (fr r : R) : R :=
  if date_ltb e valuation then 0 else if date_ltb s valuation then fixing else if Rlt_dec 0 fr then r else 0.
Lemma coupon_code fixing x s e r : is_date s -> is_date e -> (ordinal s <= ordinal e)%Z -> s = e \/ (ordinal valuation <= ordinal e)%Z \/ k_basis (c_coupons x) = 0 ->
  let fr := daycount_fraction (coupon_count y) s e in
  k_notional (c_coupons x) * (fr * (k_multiplier (c_coupons x) * (known_rate fixing s e fr r + k_basis (c_coupons x))) * discount e) =
  cms_amount valuation discount y x (if Z.ltb (ordinal s) (ordinal valuation) then fixing else r) s e.
Proof using.
  clear LEVEL OK reference.
  intros Ds De O H fr. unfold known_rate, cms_amount, value_of, date_ltb. fold fr. pose proof (fraction_nonneg (coupon_count y) s e Ds De O) as N. fold fr in N.
  assert (H' : fr = 0 \/ (ordinal valuation <= ordinal e)%Z \/ k_basis (c_coupons x) = 0) by (destruct H as [<-|H]; [left; apply fraction_same, Ds|right; exact H]).
  destruct (Z.ltb_spec (ordinal e) (ordinal valuation)), (Z.leb_spec (ordinal valuation) (ordinal e)); try lia.
  - destruct H' as [-> |[L|B]]; [ring|lia|rewrite B; ring].
  - destruct (ordinal s <? ordinal valuation)%Z; [ring|]. destruct (Rlt_dec 0 fr) as [P|P]; [ring|]. replace fr with 0 by lra. ring.
Qed.
(** One contract. *)
Definition row_code (fixing : R) (x : cms_contract) (l : list date) (w : list R) (n : nat) : list R :=
  let fr := map2 (daycount_fraction (coupon_count y)) (removelast l) (tl l) in
  map2 Rmult (repeat (k_notional (c_coupons x)) n) (map2 Rmult (map2 Rmult fr (map2 Rmult (repeat (k_multiplier (c_coupons x)) n)
    (map2 Rplus (map2 (fun '(s, e) '(p, r) => if date_ltb e valuation then 0 else if date_ltb s valuation then p else r) (combine (removelast l) (tl l))
       (combine (repeat fixing n) (map2 (fun fr r => if Rlt_dec 0 fr then r else 0) fr w))) (repeat (k_basis (c_coupons x)) n)))) (map discount (tl l))).
Lemma row_code_length fixing x l w n : length l = S n -> length w = n -> length (row_code fixing x l w n) = n.
Proof using.
  clear LEVEL OK reference.
  intros L W. assert (A : length (removelast l) = n) by (rewrite removelast_length; lia). assert (B : length (tl l) = n) by (rewrite tl_length; lia).
  unfold row_code. repeat (rewrite ?map2_length, ?combine_length, ?repeat_length, ?map_length; try lia).
Qed.
Lemma row_value fixing x : forall w l, length l = S (length w) -> Forall is_date l -> nondecreasing l ->
  Forall2 (fun s r => (ordinal valuation <= ordinal s)%Z -> swap_rate y valuation discount reference x s r) (removelast l) w ->
  (forall s e, In (s, e) (combine (removelast l) (tl l)) -> s = e \/ (ordinal valuation <= ordinal e)%Z \/ k_basis (c_coupons x) = 0) ->
  sum_over (cms_coupon y valuation discount reference fixing x) w l (fold_right Rplus 0 (row_code fixing x l w (length w))).
Proof using.
  clear LEVEL OK.
  induction w as [|r w IH]; intros l L D N F H.
  - destruct l as [|s [|e l]]; try discriminate L. reflexivity.
  - destruct l as [|s [|e l]]; try discriminate L. cbn [length] in L. change (removelast (s :: e :: l)) with (s :: removelast (e :: l)) in *.
    inversion D as [|? ? Ds D']; subst. inversion D' as [|? ? De _]; subst. inversion N as [|? ? N' NS]; subst. rewrite Forall_forall in NS. inversion F as [|? ? ? ? F1 F2]; subst.
    cbn [sum_over]. exists (cms_amount valuation discount y x (if Z.ltb (ordinal s) (ordinal valuation) then fixing else r) s e), (fold_right Rplus 0 (row_code fixing x (e :: l) w (length w))).
    split; [split; [exact F1|reflexivity]|]. split.
    + refine (IH (e :: l) _ D' N' F2 _); [cbn [length]; lia|]. intros u v J. apply H. cbn [tl] in J |- *. cbn [combine]. right. destruct l as [|z l]; [destruct J|exact J].
    + rewrite <- (coupon_code fixing x s e r Ds De (NS e (or_introl eq_refl)) (H s e (or_introl eq_refl))). reflexivity.
Qed.
End Batch.

(** A coupon row: the contract, its padded dates, the par rates of the code and the
    values of the fixed legs with unit notional. *)
Notation crow := (cms_contract * list date * (list R * list R))%type.
Definition r_dates (z : crow) : list date := snd (fst z).
Definition r_contract (z : crow) : cms_contract := fst (fst z).
Definition r_rates (z : crow) : list R := fst (snd z).
Definition r_levels (z : crow) : list R := snd (snd z).
Definition r_fractions (y : conventions) (z : crow) : list R := map2 (daycount_fraction (coupon_count y)) (removelast (r_dates z)) (tl (r_dates z)).
Definition par_of (y : conventions) (valuation : date) (discount reference : date -> R) (x : cms_contract) (s : date) (r : R) : Prop :=
  exists v a, value_code y valuation discount reference (from_to (c_float x) s (swap_end y x s)) v /\ level_code y discount false (from_to (c_fixed x) s (swap_end y x s)) a /\ r = v / a.
Record parts (y : conventions) (xs : list cms_contract) (valuation : date) (discount reference : date -> R) (f : cms_stream) (W : nat) (D : list crow) : Prop := Parts {
  pt_width : (2 <= W)%nat;
  pt_contracts : map r_contract D = xs;
  pt_rows : forall z, In z D -> In (r_contract z) xs /\ cms_row y W (r_contract z) (r_dates z) /\ length (r_rates z) = (W - 1)%nat /\ length (r_levels z) = (W - 1)%nat /\
    Forall2 (par_of y valuation discount reference (r_contract z)) (removelast (r_dates z)) (r_rates z) /\
    Forall2 (fun s a => level_code y discount true (from_to (c_fixed (r_contract z)) s (swap_end y (r_contract z) s)) a) (removelast (r_dates z)) (r_levels z);
  pt_num : cm_num f = (W - 1)%nat; pt_batch : cm_batch f = length D;
  pt_start : cm_start f = flat_map (fun z => removelast (r_dates z)) D; pt_end : cm_end f = flat_map (fun z => tl (r_dates z)) D;
  pt_fractions : cm_fractions f = flat_map (r_fractions y) D;
  pt_notional : cm_notional f = flat_map (fun z => repeat (k_notional (c_coupons (r_contract z))) (W - 1)) D;
  pt_basis : cm_basis f = flat_map (fun z => repeat (k_basis (c_coupons (r_contract z))) (W - 1)) D;
  pt_multiplier : cm_multiplier f = flat_map (fun z => repeat (k_multiplier (c_coupons (r_contract z))) (W - 1)) D;
  pt_contract : cm_contract f = tf_repeat (seq 0 (length D)) (W - 1);
  pt_delta : cm_delta f = map (fun x => term_to_years (coupon_type y) (k_freq (c_coupons x))) xs;
  pt_tau : cm_tau f = map (fun x => term_to_years (fixed_type y) (k_freq (c_fixed x))) xs;
  pt_periods : cm_periods f = map (fun x => term_to_years (tenor_type y) (k_term (c_coupons x)) / term_to_years (fixed_type y) (k_freq (c_fixed x))) xs;
  pt_par : par_rate (Fixed (cm_fixed f)) (Floating (cm_float f)) valuation discount reference None = Some (flat_map r_rates D);
  pt_level : annuity (cm_fixed f) discount true = Some (flat_map r_levels D) }.
Lemma forall2_swaps {A} (y : conventions) (P : contract -> A -> Prop) leg ds l : Forall2 P (swaps_of y leg ds) l ->
  exists ls, l = concat ls /\ Forall2 (fun x m => Forall2 (fun s a => P (from_to (leg (fst x)) s (swap_end y (fst x) s)) a) (removelast (snd x)) m) ds ls.
Proof.
  intros F. apply forall2_flat in F. destruct F as (ll & -> & F). exists ll. split; [reflexivity|]. eapply forall2_impl; [|exact F]. cbv beta. intros x m _ _ G. clear - G. revert m G.
  induction (removelast (snd x)) as [|s r IH]; intros m G; inversion G as [|? a ? m' G1 G2]; subst; constructor; auto.
Qed.
Lemma batch_parts y xs valuation discount reference f : ok_cms y xs -> cms_setup (map (fun x => k_start (c_coupons x)) xs) (map (fun x => k_end (c_coupons x)) xs) (specs_of y xs) = Some f ->
  exists W D, parts y xs valuation discount reference f W D.
Proof.
  intros OK ES. destruct (setup_ok y xs OK) as (rows & W & f' & W2 & E & F & SET). rewrite ES in E. injection E as <-. cbv zeta in SET.
  set (ds := combine xs rows) in *. destruct SET as (S1 & S2 & S3 & S4 & S5 & S6 & S7 & S8 & S9 & S10 & S11 & S12 & AN & FL).
  destruct (AN discount false) as (la & EA & FA). destruct (AN discount true) as (lu & EU & FU). destruct (FL valuation discount reference) as (lv & EV & FV). clear AN FL.
  assert (LEN : length xs = length rows) by (exact (forall2_len' _ _ _ F)). assert (DL : length xs = length ds) by (unfold ds; rewrite combine_length; lia).
  assert (DO : forall x, In x ds -> cms_row y W (fst x) (snd x)) by (intros x I; exact (forall2_combine _ _ _ F x I)).
  assert (DI : forall x, In x ds -> In (fst x) xs) by (intros x I; unfold ds in I; destruct x as [a b]; exact (in_combine_l _ _ _ _ I)).
  assert (FSTS : map fst ds = xs) by (unfold ds; apply combine_map_fst, LEN).
  set (n := (W - 1)%nat) in *.
  assert (FR : exists ws, map2 Rdiv lv la = concat ws /\ Forall2 (fun x w => Forall2 (par_of y valuation discount reference (fst x)) (removelast (snd x)) w) ds ws).
  { apply forall2_swaps in FA. apply forall2_swaps in FV. destruct FA as (lla & -> & FA), FV as (llv & -> & FV). exists (map2 (map2 Rdiv) llv lla). clearbody ds. clear - FA FV. revert llv lla FA FV. induction ds as [|x ds IH]; intros llv lla FA FV; inversion FA as [|? ma ? lla' A1 A2]; inversion FV as [|? mv ? llv' V1 V2]; subst.
    - split; [reflexivity|constructor].
    - destruct (IH _ _ A2 V2) as (E & G). cbn [concat]. rewrite map2_app by (rewrite <- (forall2_len' _ _ _ A1), <- (forall2_len' _ _ _ V1); reflexivity). rewrite E. split; [reflexivity|]. unfold map2 at 1. cbn [combine map]. constructor; [|exact G].
      apply (forall2_zip _ _ _ _ _ _ _ V1 A1). intros s v a Hv Ha. exists v, a. auto. }
  destruct FR as (ws & EW & FW). apply forall2_swaps in FU. destruct FU as (us & -> & FU).
  assert (LW : length ds = length ws) by (exact (forall2_len' _ _ _ FW)). assert (LU : length ds = length us) by (exact (forall2_len' _ _ _ FU)).
  set (D := combine ds (combine ws us) : list crow).
  assert (L1 : length ds = length (combine ws us)) by (rewrite combine_length; lia). assert (LD : length ds = length D) by (unfold D; refine (eq_sym (eq_trans (combine_length ds (combine ws us)) _)); lia).
  assert (D1 : map fst D = ds) by (unfold D; apply combine_map_fst, L1). assert (D2 : map snd D = combine ws us) by (unfold D; apply combine_map_snd, L1).
  assert (DD : forall A (g : cms_contract * list date -> list A), flat_map g ds = flat_map (fun z : crow => g (fst z)) D) by (intros A g; rewrite <- !concat_of_map, <- (map_map fst g), D1; reflexivity).
  assert (DW : concat ws = flat_map r_rates D) by (rewrite <- concat_of_map; change (map r_rates D) with (map (fun z : crow => fst (snd z)) D); rewrite <- (map_map snd fst), D2, combine_map_fst by lia; reflexivity).
  assert (DU : concat us = flat_map r_levels D) by (rewrite <- concat_of_map; change (map r_levels D) with (map (fun z : crow => snd (snd z)) D); rewrite <- (map_map snd snd), D2, combine_map_snd by lia; reflexivity).
  exists W, D. constructor.
  - exact W2.
  - change (map r_contract D) with (map (fun z : crow => fst (fst z)) D). rewrite <- (map_map fst fst), D1. exact FSTS.
  - intros z I. assert (Iz : In (fst z) ds) by (rewrite <- D1; apply in_map, I). split; [apply (DI _ Iz)|]. split; [apply (DO _ Iz)|].
    assert (RZ : Forall2 (par_of y valuation discount reference (r_contract z)) (removelast (r_dates z)) (r_rates z) /\ Forall2 (fun s a => level_code y discount true (from_to (c_fixed (r_contract z)) s (swap_end y (r_contract z) s)) a) (removelast (r_dates z)) (r_levels z)).
    { unfold D in I. clearbody ds. clear - FW FU I. revert ws us FW FU I. induction ds as [|x ds IH]; intros ws us FW FU I; inversion FW as [|? w ? ws' W1 W2]; inversion FU as [|? u ? us' U1 U2]; subst; [destruct I|].
      cbn [combine] in I. destruct I as [<-|I]; [split; assumption|exact (IH _ _ W2 U2 I)]. }
    destruct RZ as (R1 & R2). pose proof (proj1 (DO _ Iz)) as LL. fold (r_dates z) in LL. split; [rewrite <- (forall2_len' _ _ _ R1), removelast_length, LL; reflexivity|]. split; [rewrite <- (forall2_len' _ _ _ R2), removelast_length, LL; reflexivity|]. split; assumption.
  - exact S2.
  - rewrite S1. lia.
  - rewrite S3, DD. reflexivity.
  - rewrite S4, DD. reflexivity.
  - rewrite S5, DD. reflexivity.
  - rewrite S6, DD. reflexivity.
  - rewrite S7, DD. reflexivity.
  - rewrite S8, DD. reflexivity.
  - rewrite S9, LD. reflexivity.
  - exact S10.
  - exact S11.
  - exact S12.
  - unfold par_rate. cbn [fixed_leg floating_leg]. rewrite EA. cbn [bind]. rewrite EV. cbn [option_map]. rewrite EW, DW. reflexivity.
  - rewrite EU, DU. reflexivity.
Qed.

(** The price as a sum over the coupons of each contract. *)
Definition known (y : conventions) (valuation : date) (fixing : R) (z : crow) : list R :=
  map2 (fun '(s, e) '(p, r) => if date_ltb e valuation then 0 else if date_ltb s valuation then p else r) (combine (removelast (r_dates z)) (tl (r_dates z)))
    (combine (repeat fixing (length (r_rates z))) (map2 (fun fr r => if Rlt_dec 0 fr then r else 0) (r_fractions y z) (r_rates z))).
Definition row_price (y : conventions) (discount : date -> R) (z : crow) (rates : list xr) : list xr :=
  let n := length (r_rates z) in
  xzip xmul (map Fin (repeat (k_notional (c_coupons (r_contract z))) n)) (xzip xmul (xzip xmul (map Fin (r_fractions y z))
    (xzip xmul (map Fin (repeat (k_multiplier (c_coupons (r_contract z))) n)) (xzip xadd rates (map Fin (repeat (k_basis (c_coupons (r_contract z))) n))))) (map Fin (map discount (tl (r_dates z))))).
Lemma xzip_length f a b : length a = length b -> length (xzip f a b) = length a.
Proof. intros L. unfold xzip. rewrite map_length, combine_length. lia. Qed.
Lemma flat_xzip {A} f (g h : A -> list xr) ds : (forall x, In x ds -> length (g x) = length (h x)) -> xzip f (flat_map g ds) (flat_map h ds) = flat_map (fun x => xzip f (g x) (h x)) ds.
Proof.
  intros L. unfold xzip. rewrite flat_combine by exact L. rewrite flat_of_map. reflexivity.
Qed.
Lemma flat_in {A B} (g h : A -> list B) ds : (forall x, In x ds -> g x = h x) -> flat_map g ds = flat_map h ds.
Proof. intros E. rewrite !flat_map_concat_map. f_equal. apply map_ext_in. exact E. Qed.
Section Pricing.
Variables (y : conventions) (xs : list cms_contract) (valuation : date) (discount reference : date -> R) (f : cms_stream) (W : nat) (D : list crow).
Hypothesis PT : parts y xs valuation discount reference f W D.
Lemma row_lengths z : In z D -> length (removelast (r_dates z)) = (W - 1)%nat /\ length (tl (r_dates z)) = (W - 1)%nat /\ length (r_fractions y z) = (W - 1)%nat /\ length (r_rates z) = (W - 1)%nat /\ length (r_levels z) = (W - 1)%nat.
Proof using PT.
  intros I. destruct (pt_rows _ _ _ _ _ _ _ _ PT z I) as (_ & (L & _) & A & B & _). assert (X : length (removelast (r_dates z)) = (W - 1)%nat) by (rewrite removelast_length, L; reflexivity).
  assert (Y : length (tl (r_dates z)) = (W - 1)%nat) by (rewrite tl_length, L; reflexivity). split; [exact X|]. split; [exact Y|]. split; [unfold r_fractions; rewrite map2_length; congruence|]. split; assumption.
Qed.
Lemma known_length fixing z : In z D -> length (known y valuation fixing z) = (W - 1)%nat.
Proof using PT.
  intros I. destruct (row_lengths z I) as (A & B & C & E & _). unfold known.
  assert (M : length (map2 (fun fr r => if Rlt_dec 0 fr then r else 0) (r_fractions y z) (r_rates z)) = (W - 1)%nat) by (rewrite map2_length; congruence).
  assert (M1 : length (combine (removelast (r_dates z)) (tl (r_dates z))) = (W - 1)%nat) by (rewrite combine_length; lia).
  assert (M2 : length (combine (repeat fixing (length (r_rates z))) (map2 (fun fr r => if Rlt_dec 0 fr then r else 0) (r_fractions y z) (r_rates z))) = (W - 1)%nat) by (rewrite combine_length, repeat_length; lia).
  rewrite map2_length; congruence.
Qed.
Lemma row_price_length z rates : In z D -> length rates = (W - 1)%nat -> length (row_price y discount z rates) = (W - 1)%nat.
Proof using PT.
  intros I L. destruct (row_lengths z I) as (A & B & C & E & _). unfold row_price. rewrite E.
  assert (A1 : length (xzip xadd rates (map Fin (repeat (k_basis (c_coupons (r_contract z))) (W - 1)))) = (W - 1)%nat) by (rewrite xzip_length; rewrite ?map_length, ?repeat_length; lia).
  assert (A2 : forall u, length (xzip xmul (map Fin (repeat u (W - 1))) (xzip xadd rates (map Fin (repeat (k_basis (c_coupons (r_contract z))) (W - 1))))) = (W - 1)%nat) by (intros u; rewrite xzip_length; rewrite ?map_length, ?repeat_length; lia).
  assert (A3 : forall u, length (xzip xmul (map Fin (r_fractions y z)) (xzip xmul (map Fin (repeat u (W - 1))) (xzip xadd rates (map Fin (repeat (k_basis (c_coupons (r_contract z))) (W - 1)))))) = (W - 1)%nat) by (intros u; rewrite xzip_length; rewrite ?map_length, ?A2; lia).
  assert (A4 : forall u, length (xzip xmul (xzip xmul (map Fin (r_fractions y z)) (xzip xmul (map Fin (repeat u (W - 1))) (xzip xadd rates (map Fin (repeat (k_basis (c_coupons (r_contract z))) (W - 1)))))) (map Fin (map discount (tl (r_dates z))))) = (W - 1)%nat) by (intros u; rewrite xzip_length; rewrite ?A3, ?map_length; lia).
  rewrite xzip_length; rewrite ?map_length, ?repeat_length, ?A4; reflexivity.
Qed.
Definition admits (fixing : option R) : Prop := fixing = None \/ fixing = Some 0 \/ exists x, xs = [x].
Lemma fixing_rates fixing : admits fixing -> broadcast (length (cm_start f)) (libor_rates fixing (cm_batch f) (cm_num f)) = Some (flat_map (fun z => repeat (fixing_of fixing) (length (r_rates z))) D).
Proof using PT.
  intros FX. rewrite (pt_num _ _ _ _ _ _ _ _ PT), (pt_batch _ _ _ _ _ _ _ _ PT), (pt_start _ _ _ _ _ _ _ _ PT). set (n := (W - 1)%nat).
  replace (length (flat_map (fun z => removelast (r_dates z)) D)) with (length D * n)%nat by (symmetry; apply flat_length; intros z I; apply (row_lengths z I)).
  rewrite (flat_in (fun z => repeat (fixing_of fixing) (length (r_rates z))) (fun _ => repeat (fixing_of fixing) n)) by (intros z I; destruct (row_lengths z I) as (_ & _ & _ & -> & _); reflexivity).
  assert (LB : libor_rates fixing (length D) n = flat_map (fun _ => repeat (fixing_of fixing) n) D).
  { assert (Z0 : tf_repeat (repeat 0 (length D)) n = flat_map (fun _ => repeat 0 n) D) by (unfold tf_repeat; generalize D as l; induction l as [|x l IH]; [reflexivity|]; cbn; rewrite IH; reflexivity).
    destruct fixing as [r|]; cbn [libor_rates fixing_of]; [|exact Z0]. destruct (Req_EM_T r 0) as [->|NZ]; [exact Z0|].
    destruct FX as [FX|[FX|(k & EK)]]; [discriminate|congruence|]. pose proof (f_equal (@length _) (pt_contracts _ _ _ _ _ _ _ _ PT)) as LX. rewrite map_length, EK in LX. cbn in LX. destruct D as [|x [|y0 r0]]; cbn in LX; try lia. cbn [flat_map]. rewrite app_nil_r. reflexivity. }
  rewrite LB. unfold broadcast. rewrite (flat_length _ n) by (intros; apply repeat_length). rewrite Nat.eqb_refl. reflexivity.
Qed.
Lemma price_rows fixing model adj : admits fixing -> (forall z, In z D -> length (adj z) = (W - 1)%nat) ->
  adjust_convexity f valuation discount model (flat_map (known y valuation (fixing_of fixing)) D) = Some (flat_map adj D) ->
  cms_price f valuation discount reference None fixing model = Some (map (fun z => xsum (row_price y discount z (adj z))) D).
Proof using PT.
  intros FX LA AD. unfold cms_price. rewrite (fixing_rates fixing FX). cbn [bind]. rewrite (pt_par _ _ _ _ _ _ _ _ PT). cbn [bind].
  rewrite (pt_start _ _ _ _ _ _ _ _ PT), (pt_end _ _ _ _ _ _ _ _ PT), (pt_fractions _ _ _ _ _ _ _ _ PT), (pt_notional _ _ _ _ _ _ _ _ PT), (pt_basis _ _ _ _ _ _ _ _ PT), (pt_multiplier _ _ _ _ _ _ _ _ PT), (pt_contract _ _ _ _ _ _ _ _ PT).
  assert (L := row_lengths).
  rewrite (flat2 (fun fr r => if Rlt_dec 0 fr then r else 0) (r_fractions y) r_rates) by (intros z I; destruct (L z I) as (_ & _ & A & B & _); congruence).
  rewrite (flat_combine (fun z => removelast (r_dates z)) (fun z => tl (r_dates z))) by (intros z I; destruct (L z I) as (A & B & _); congruence).
  rewrite (flat_combine (fun z => repeat (fixing_of fixing) (length (r_rates z)))) by (intros z I; destruct (L z I) as (_ & _ & A & B & _); rewrite repeat_length, map2_length; congruence).
  rewrite flat2.
  2:{ intros z I. destruct (L z I) as (A & B & C & E & _). rewrite !combine_length, repeat_length, map2_length by congruence. lia. }
  match goal with |- bind (adjust_convexity _ _ _ _ (flat_map ?h D)) _ = _ => change (flat_map h D) with (flat_map (known y valuation (fixing_of fixing)) D) end.
  rewrite AD. cbn [bind]. rewrite !flat_of_map.
  set (n := (W - 1)%nat) in *.
  rewrite (flat_xzip xadd adj) by (intros z I; rewrite map_length, repeat_length; apply LA, I).
  assert (A1 : forall z, In z D -> length (xzip xadd (adj z) (map Fin (repeat (k_basis (c_coupons (r_contract z))) n))) = n) by (intros z I; rewrite xzip_length; rewrite ?map_length, ?repeat_length, ?LA by exact I; reflexivity).
  rewrite flat_xzip by (intros z I; rewrite A1, map_length, repeat_length by exact I; reflexivity).
  assert (A2 : forall z, In z D -> length (xzip xmul (map Fin (repeat (k_multiplier (c_coupons (r_contract z))) n)) (xzip xadd (adj z) (map Fin (repeat (k_basis (c_coupons (r_contract z))) n)))) = n) by (intros z I; rewrite xzip_length; rewrite ?map_length, ?repeat_length, ?A1 by exact I; reflexivity).
  rewrite flat_xzip by (intros z I; rewrite A2, map_length by exact I; apply (L z I)).
  assert (A3 : forall z, In z D -> length (xzip xmul (map Fin (r_fractions y z)) (xzip xmul (map Fin (repeat (k_multiplier (c_coupons (r_contract z))) n)) (xzip xadd (adj z) (map Fin (repeat (k_basis (c_coupons (r_contract z))) n))))) = n).
  { intros z I. rewrite xzip_length; rewrite ?map_length, ?A2 by exact I; apply (L z I). }
  rewrite flat_xzip by (intros z I; rewrite A3, !map_length by exact I; symmetry; apply (L z I)).
  rewrite flat_xzip.
  2:{ intros z I. rewrite xzip_length; rewrite ?A3, ?map_length, ?repeat_length by exact I; [reflexivity|symmetry; apply (L z I)]. }
  rewrite (flat_in _ (fun z => row_price y discount z (adj z))) by (intros z I; unfold row_price; destruct (L z I) as (_ & _ & _ & -> & _); reflexivity).
  rewrite (xsegment_rows (fun z => row_price y discount z (adj z)) n); [reflexivity|unfold n; pose proof (pt_width _ _ _ _ _ _ _ _ PT); lia|].
  intros z I. apply row_price_length; [exact I|apply LA, I].
Qed.
Lemma flat_pure fixing : admits fixing -> cms_price f valuation discount reference None fixing None =
  Some (map Fin (map (fun z => fold_right Rplus 0 (row_code y valuation discount (fixing_of fixing) (r_contract z) (r_dates z) (r_rates z) (length (r_rates z)))) D)).
Proof using PT.
  intros FX. rewrite (price_rows fixing None (fun z => map Fin (known y valuation (fixing_of fixing) z)) FX).
  - f_equal. rewrite map_map. apply map_ext. intros z. rewrite <- xsum_fins. f_equal. unfold row_price, row_code, known. rewrite (zip_fin2 xadd Rplus) by reflexivity. rewrite !(zip_fin2 xmul Rmult) by reflexivity. reflexivity.
  - intros z I. rewrite map_length. apply known_length, I.
  - cbn [adjust_convexity]. f_equal. apply flat_of_map.
Qed.
End Pricing.

(** ** Theorems *)
(** Every leg is worth the sum of its coupons.  Partial: no convexity adjustment;
    a fixing of the swap rate for one contract only and no fixing of the floating
    rate; no paid coupon with a basis (see the refutations below). *)
Theorem C91_value_partial y xs : ok_cms y xs ->
  exists f, cms_setup (map (fun x => k_start (c_coupons x)) xs) (map (fun x => k_end (c_coupons x)) xs) (specs_of y xs) = Some f /\
    forall valuation discount reference fixing, fixing = None \/ fixing = Some 0 \/ (exists x, xs = [x]) ->
      (forall x s a, In x xs -> is_date s -> (ordinal valuation <= ordinal s)%Z -> swap_level y discount x s a -> k_notional (c_fixed x) * a <> 0) ->
      (forall x l d, In x xs -> k_basis (c_coupons x) <> 0 -> contract_dates NoStub (coupon_type y) (c_coupons x) l -> In d (tl l) -> (ordinal valuation <= ordinal d)%Z) ->
      exists vs, cms_price f valuation discount reference None fixing None = Some (map Fin vs) /\
        Forall2 (fun x v => exists l, contract_dates NoStub (coupon_type y) (c_coupons x) l /\ cms_value y valuation discount reference (fixing_of fixing) x l v) xs vs.
Proof.
  intros OK. destruct (setup_ok y xs OK) as (rows0 & W0 & f & _ & ES & _). exists f. split; [exact ES|]. intros valuation discount reference fixing FX LEVEL BA.
  destruct (batch_parts y xs valuation discount reference f OK ES) as (W & D & PT). eexists. split; [apply (flat_pure _ _ _ _ _ _ _ _ PT fixing FX)|].
  rewrite <- (pt_contracts _ _ _ _ _ _ _ _ PT) at 1. pose proof (pt_rows _ _ _ _ _ _ _ _ PT) as PR.
  assert (H : forall L, (forall z, In z L -> In z D) -> Forall2 (fun x v => exists l, contract_dates NoStub (coupon_type y) (c_coupons x) l /\ cms_value y valuation discount reference (fixing_of fixing) x l v) (map r_contract L)
    (map (fun z => fold_right Rplus 0 (row_code y valuation discount (fixing_of fixing) (r_contract z) (r_dates z) (r_rates z) (length (r_rates z)))) L)); [|apply H; auto].
  induction L as [|z L IH]; intros SUB; [constructor|]. cbn [map]. constructor; [|apply IH; intros; apply SUB; right; assumption].
  destruct (PR z (SUB z (or_introl eq_refl))) as (IX & (L1 & L2 & L3 & r & R1 & R2 & R3 & R4) & LR & _ & PAR & _).
  exists r. split; [exact R1|]. exists (r_rates z). assert (V : sum_over (cms_coupon y valuation discount reference (fixing_of fixing) (r_contract z)) (r_rates z) (r_dates z) (fold_right Rplus 0 (row_code y valuation discount (fixing_of fixing) (r_contract z) (r_dates z) (r_rates z) (length (r_rates z))))).
  { pose proof (pt_width _ _ _ _ _ _ _ _ PT) as W2. apply row_value; auto; [lia| |].
    - assert (B' : forall s, In s (removelast (r_dates z)) -> is_date s) by (intros s J; rewrite Forall_forall in L2; apply L2, in_removelast, J). clear - PAR B' IX OK LEVEL. revert PAR B'. generalize (r_rates z) as w.
      induction (removelast (r_dates z)) as [|s q IHq]; intros w PAR B'; inversion PAR as [|? u ? w' (v & a & HV & HA & ->) P2]; subst; [constructor|]. constructor; [|apply IHq; [exact P2|intros; apply B'; right; assumption]].
      intros VS. apply (par_swap y xs); auto. apply B'. left. reflexivity.
    - intros s e J. destruct (padded_pairs W r _ s e R4 J) as [K|K]; [left; exact K|right]. destruct (Req_EM_T (k_basis (c_coupons (r_contract z))) 0) as [Z|NZ]; [right; exact Z|left; exact (BA _ r e IX NZ R1 K)]. }
  destruct R4 as (p & q & -> & EQ). assert (LP : (length (p ++ [q]) <= W)%nat) by (rewrite EQ, app_length, repeat_length in L1; lia). split; [lia|].
  revert V. match goal with |- sum_over _ _ _ ?t -> _ => generalize t end. intros val V. rewrite EQ in V. apply (sum_over_padded _ p q (W - length (p ++ [q]))); [|rewrite app_length in LP; cbn in LP; lia|exact V].
  intros u v (_ & ->). unfold cms_amount, value_of. rewrite fraction_same by (rewrite Forall_forall in R2; apply R2, in_or_app; right; left; reflexivity). destruct (_ <=? _)%Z; ring.
Qed.
