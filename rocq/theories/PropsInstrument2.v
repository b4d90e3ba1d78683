(** C72, continued: notes, swaps, par rates, forward rate agreements, curves, and
    where the code departs from the property. *)
From Coq Require Import Reals QArith Qreals ZArith List Bool Lia Lra ZifyBool Sorted.
From Verif Require Import TensorModel InterpModel IntegrateModel SegmentModel DateModel DateSpec DateRepr DateProofs DateProofs2 DayCountModel PropsDate CalSpec CalSetup CalProofs BoundedCalModel
  ScheduleModel ScheduleSpec ScheduleProofs ScheduleProofs2 ScheduleProofs3 ScheduleProofs4 PropsCalAux PropsCal PropsSchedule PropsLinear RatesModel InstrumentModel InstrumentSpec InstrumentProofs PropsInstrument.
Import ListNotations.
Open Scope R_scope.

(** ** Floating rate notes *)
Theorem C72_note_partial b t cs c term_t valuation discount reference libor : ok_batch b t cs -> (forall k, In k cs -> (0 < k_term k)%Z) ->
  libor = None \/ (exists k, cs = [k]) ->
  (forall k l d, In k cs -> k_basis k <> 0 -> contract_dates b t k l -> In d (tl l) -> (ordinal valuation <= ordinal d)%Z) ->
  exists prices, note_price (map k_start cs) (map k_end cs) None (map k_freq cs) t (map k_term cs) term_t (map k_notional cs) (map k_basis cs) (map k_multiplier cs) c
      (first_dates b cs) (penultimate_dates b cs) valuation discount reference libor = Some prices /\
    Forall2 (fun k v => exists l, contract_dates b t k l /\
      v = floating_value b valuation discount reference (fixing_of libor) c term_t k l + k_notional k * discount (k_end k)) cs prices.
Proof.
  intros OK TP LI PA. destruct (C72_floating_coupons_partial b t cs c term_t OK TP) as (f & E & P). destruct (P valuation discount reference libor LI PA) as (vs & E1 & F).
  unfold note_price. rewrite E. cbn [bind]. rewrite E1. eexists. split; [reflexivity|]. unfold add_principal. rewrite map_map, map2_same. clear - F.
  revert vs F. induction cs as [|k cs IH]; intros vs F.
  - inversion F; subst. constructor.
  - inversion F as [|? v ? vs' (l & D & ->) F']; subst. unfold map2 in *. cbn. constructor; [exists l; split; [exact D|reflexivity]|apply IH; exact F'].
Qed.

(** Adding periods one after the other is adding them at once, unless the day of
    the month had to be cut. *)
Definition steady (t : period_type) (d : date) : Prop := t = DAY \/ t = WEEK \/ (day d <= 28)%Z.
Lemma add_add t x n1 n2 y : is_date x -> steady t x -> (0 <= n1)%Z -> date_add x (mk_period n1 t) = Some y ->
  is_date y /\ steady t y /\ date_add y (mk_period n2 t) = date_add x (mk_period (n1 + n2) t).
Proof.
  intros D ST N1 E. destruct (add_sord x t n1 y D E) as (O & DY).
  assert (O1 : (ordinal x <= ordinal y)%Z). { rewrite O, <- (sord_0 t x D). pose proof (sord_many t x 0 n1 D N1) as H. rewrite Z.add_0_l in H. pose proof (min_days_pos t). nia. }
  assert (P : (1 <= ordinal x)%Z) by (destruct D as (cx & (_ & _ & (H & _))); exact H).
  specialize (DY ltac:(lia)). split; [exact DY|]. destruct t.
  - split; [left; reflexivity|]. cbn in O |- *. rewrite O. replace (ordinal x + n1 + n2)%Z with (ordinal x + (n1 + n2))%Z by ring. reflexivity.
  - split; [right; left; reflexivity|]. cbn in O |- *. rewrite O. replace (ordinal x + n1 * 7 + n2 * 7)%Z with (ordinal x + (n1 + n2) * 7)%Z by ring. reflexivity.
  - destruct ST as [ST|[ST|ST]]; [discriminate|discriminate|]. destruct D as (cx & RX). pose proof RX as RX'. destruct cx as [[yy mm] dd]. destruct RX as (V & EX & _). injection EX as EY EM ED.
    assert (DD : day y = day x).
    { cbn in E. unfold adjust_day in E. rewrite num_days_in_month_spec in E by lia. injection E as E. subst y. cbn [day from_ymd_unchecked].
      apply Z.min_l. pose proof (month_length_bounds (year x + (month x - 1 + n1) / 12) ((month x - 1 + n1) mod 12 + 1)). lia. }
    split; [right; right; lia|]. apply (C06_compose x (yy, mm, dd) n1 n2 y RX' E); [|exact DD]. destruct DY as ([[y1 m1] d1] & ((H & _) & EQ & _)). injection EQ as -> _ _. exact H.
  - destruct ST as [ST|[ST|ST]]; [discriminate|discriminate|]. destruct D as ([[yy mm] dd] & (V & EX & _)). injection EX as EY EM ED. cbn in V.
    assert (DD : forall n, date_add x (mk_period n YEAR) = Some (from_ymd_unchecked (year x + n) (month x) (day x))).
    { intros n. cbn. unfold adjust_day. rewrite num_days_in_month_spec by lia. rewrite Z.min_l; [reflexivity|]. pose proof (month_length_bounds (year x + n) (month x)). lia. }
    rewrite DD in E. injection E as <-. split; [right; right; exact ST|]. rewrite DD. cbn. unfold adjust_day. rewrite num_days_in_month_spec by lia.
    rewrite Z.min_l; [rewrite Z.add_assoc; reflexivity|]. pose proof (month_length_bounds (year x + n1 + n2) (month x)). lia.
Qed.

(** The dates of a contract whose end is a whole number of periods after its start:
    every date is one period after the date before. *)
Lemma whole_dates t start end_ q m l : is_date start -> steady t start -> (0 < q)%Z -> (0 < m)%Z -> date_add start (mk_period (q * m) t) = Some end_ ->
  forward_dates start end_ (mk_period q t) l ->
  (exists r, l = start :: r) /\ (exists r, l = r ++ [end_]) /\ Forall is_date l /\ (forall i, (S i < length l)%nat -> date_add (nth i l start) (mk_period q t) = Some (nth (S i) l start)) /\
  increasing l.
Proof.
  intros D ST Q M E (n & s & S1 & S2 & EL). unfold period_mul in S1, S2. cbn [quantity ptype] in S1, S2.
  assert (P : (1 <= ordinal start)%Z) by (destruct D as (cx & (_ & _ & (H & _))); exact H).
  assert (MONO : forall j k, (0 <= j < k)%Z -> (sord t start (q * j) < sord t start (q * k))%Z).
  { intros j k H. replace (q * k)%Z with (q * j + q * (k - j))%Z by ring. pose proof (sord_many t start (q * j) (q * (k - j)) D ltac:(nia)) as H1. pose proof (min_days_pos t) as H2. assert (H3 : (1 <= q * (k - j))%Z) by nia. revert H1 H2 H3. generalize (q * (k - j))%Z as a. clear. intros a. nia. }
  assert (POS : forall k, (0 <= k)%Z -> (1 <= sord t start (q * k))%Z).
  { intros k K. pose proof (sord_0 t start D). destruct (Z.eq_dec k 0) as [->|NK]; [rewrite Z.mul_0_r; lia|]. pose proof (MONO 0%Z k ltac:(lia)) as H1. rewrite Z.mul_0_r in H1. lia. }
  assert (EXI : forall k, (0 <= k)%Z -> exists x, date_add start (mk_period (q * k) t) = Some x /\ ordinal x = sord t start (q * k) /\ is_date x).
  { intros k K. destruct (add_some start t (q * k) D (fun _ => POS k K)) as (x & EX). destruct (add_sord start t _ x D EX) as (O & DX). exists x. split; [exact EX|]. split; [exact O|]. apply DX. rewrite O. apply POS. exact K. }
  destruct (EXI m ltac:(lia)) as (e' & EE & OE & DE). rewrite E in EE. injection EE as <-.
  assert (NM : Z.of_nat n = m).
  { destruct (Z.lt_trichotomy (Z.of_nat n) m) as [H|[H|H]]; [|exact H|]; exfalso.
    - destruct (EXI (Z.of_nat n) ltac:(lia)) as (x & EX & OX & _). specialize (S2 _ x (Z.le_refl _) EX). pose proof (MONO (Z.of_nat n) m ltac:(lia)). lia.
    - destruct (S1 m ltac:(lia)) as (EX & OX). assert (H1 : s m = end_) by congruence. rewrite H1 in OX. lia. }
  set (u k := if (k <? m)%Z then s k else end_).
  assert (U : forall k, (0 <= k <= m)%Z -> date_add start (mk_period (q * k) t) = Some (u k)).
  { intros k K. unfold u. destruct (Z.ltb_spec k m); [apply S1; lia|]. replace k with m by lia. exact E. }
  assert (EL' : l = map u (zrange 0 (S n))).
  { rewrite EL. unfold zrange. rewrite seq_S, !map_app. cbn [map plus]. f_equal.
    - rewrite !map_map. apply map_ext_in. intros i I. apply in_seq in I. unfold u. replace (0 + Z.of_nat i <? m)%Z with true by lia. reflexivity.
    - unfold u. replace (0 + Z.of_nat (0 + n) <? m)%Z with false by lia. reflexivity. }
  assert (LL : length l = S n) by (rewrite EL', map_length; unfold zrange; rewrite map_length, seq_length; reflexivity).
  assert (NT : forall i, (i <= n)%nat -> nth i l start = u (Z.of_nat i)).
  { intros i I. rewrite EL'. rewrite (nth_indep _ start (u 0%Z)) by (rewrite map_length; unfold zrange; rewrite map_length, seq_length; lia). rewrite map_nth. unfold zrange.
    f_equal. change 0%Z with ((fun i => 0 + Z.of_nat i)%Z 0%nat) at 2. rewrite map_nth, seq_nth by lia. lia. }
  assert (U0 : u 0%Z = start).
  { specialize (U 0%Z ltac:(lia)). rewrite Z.mul_0_r in U. destruct (EXI 0%Z ltac:(lia)) as (x & EX & OX & DX). rewrite Z.mul_0_r in EX, OX. rewrite U in EX. injection EX as <-.
    rewrite (sord_0 t start D) in OX. apply is_date_inj; assumption. }
  split; [rewrite EL'; exists (map u (map (fun i => 0 + Z.of_nat i)%Z (seq 1 n))); unfold zrange; cbn [seq map]; change (0 + Z.of_nat 0)%Z with 0%Z; rewrite U0; reflexivity|].
  split; [exists (map s (zrange 0 n)); exact EL|].
  assert (DA : forall k, (0 <= k <= m)%Z -> is_date (u k)).
  { intros k K. destruct (EXI k ltac:(lia)) as (x & EX & _ & DX). rewrite (U k K) in EX. injection EX as ->. exact DX. }
  split; [rewrite EL'; apply Forall_forall; intros x I; apply in_map_iff in I as (k & <- & I); apply in_zrange in I; apply DA; lia|]. split.
  - intros i I. rewrite LL in I. rewrite !NT by lia. destruct (add_add t start (q * Z.of_nat i) q (u (Z.of_nat i)) D ST ltac:(nia) (U (Z.of_nat i) ltac:(lia))) as (_ & _ & ->).
    rewrite <- U by lia. f_equal. f_equal. lia.
  - rewrite EL'. unfold increasing, zrange. clear - U EXI MONO NM. rewrite map_map. cut (forall j a, (a + j <= S n)%nat -> StronglySorted (fun x y => (ordinal x < ordinal y)%Z) (map (fun x => u (0 + Z.of_nat x)%Z) (seq a j))); [intros X; apply X; lia|].
    induction j as [|j IH]; intros a B; cbn [seq map]; constructor; [apply IH; lia|]. apply Forall_forall. intros x I. apply in_map_iff in I as (i & <- & I). apply in_seq in I.
    assert (OU : forall k, (0 <= k <= m)%Z -> ordinal (u k) = sord t start (q * k)).
    { intros k K. destruct (EXI k ltac:(lia)) as (x & EX & OX & _). rewrite (U k K) in EX. injection EX as ->. exact OX. }
    rewrite !OU by lia. apply MONO. lia.
Qed.

Lemma telescope (P : date -> R) a l : over_periods (fun s e => P s - P e) (a :: l) = P a - P (last l a).
Proof.
  revert a. induction l as [|x l IH]; intros a; [cbn; ring|]. rewrite periods_cons, IH.
  replace (last (x :: l) a) with (last l x); [ring|]. clear. revert x a. induction l as [|y l IH]; intros x a; [reflexivity|]. rewrite <- (IH y x). exact (IH y a).
Qed.
Lemma periods_nth f g l d : (forall i, (S i < length l)%nat -> f (nth i l d) (nth (S i) l d) = g (nth i l d) (nth (S i) l d)) -> over_periods f l = over_periods g l.
Proof.
  induction l as [|x l IH]; intros X; [reflexivity|]. rewrite !periods_cons. rewrite IH.
  - f_equal. destruct l as [|y l]; [reflexivity|]. exact (X 0%nat ltac:(cbn; lia)).
  - intros i I. apply (X (S i)). cbn. lia.
Qed.
Lemma act_positive c s e : c <> THIRTY_360_ISDA -> (ordinal s < ordinal e)%Z -> 0 < daycount_fraction c s e.
Proof.
  intros C H. unfold daycount_fraction. assert (X : forall a b, (0 < a)%Z -> (0 < b)%Z -> 0 < Q2R (inject_Z a / inject_Z b)).
  { intros a b A B. rewrite Q2R_div. 2: { unfold Qeq; cbn; lia. } apply Rdiv_lt_0_compat; unfold Q2R; cbn; rewrite Rinv_1, Rmult_1_r; apply IZR_lt; assumption. }
  destruct c; [apply X; unfold days_until; lia|apply X; unfold days_until; lia|contradiction].
Qed.
Lemma increasing_nth l d i : increasing l -> (S i < length l)%nat -> (ordinal (nth i l d) < ordinal (nth (S i) l d))%Z.
Proof.
  intros H. revert i. induction H as [|x l S IH F]; intros i L; [cbn in L; lia|]. destruct i as [|i]; [|apply IH; cbn in L; lia].
  destruct l as [|y l]; [cbn in L; lia|]. rewrite Forall_forall in F. apply F. left. reflexivity.
Qed.
Lemma nth_tail_in {A} (l : list A) d i : (S i < length l)%nat -> In (nth (S i) l d) (tl l).
Proof. destruct l as [|x l]; cbn; [lia|]. intros H. apply nth_In. lia. Qed.

(** A note that pays exactly the reference rate of its curve, without a spread
    and from a date not yet passed, is worth its notional paid on the start. *)
Theorem C72_par_note t k m c valuation discount : is_date (k_start k) -> steady t (k_start k) -> (0 < k_freq k)%Z -> k_term k = k_freq k -> (0 < m)%Z ->
  date_add (k_start k) (mk_period (k_freq k * m) t) = Some (k_end k) ->
  k_basis k = 0 -> k_multiplier k = 1 -> c <> THIRTY_360_ISDA -> (forall d, 0 < discount d) -> (ordinal valuation <= ordinal (k_start k))%Z ->
  note_price [k_start k] [k_end k] None [k_freq k] t [k_term k] t [k_notional k] [k_basis k] [k_multiplier k] c None None valuation discount discount None =
    Some [k_notional k * discount (k_start k)].
Proof.
  intros D ST Q TQ M E B MU C DP VL.
  assert (P : (1 <= ordinal (k_start k))%Z) by (destruct D as (cx & (_ & _ & (H & _))); exact H).
  assert (LT : (ordinal (k_start k) < ordinal (k_end k))%Z /\ is_date (k_end k)).
  { destruct (add_sord _ _ _ _ D E) as (O & DE). pose proof (sord_many t (k_start k) 0 (k_freq k * m) D ltac:(nia)) as H. rewrite (sord_0 t _ D), Z.add_0_l in H. pose proof (min_days_pos t). split; [nia|apply DE; nia]. }
  destruct LT as (LT & DE).
  assert (OK : ok_batch NoStub t [k]).
  { split; [|split].
    - intros k' [<-|[]]. cbn. repeat split; try assumption; lia.
    - exists k. split; [left; reflexivity|exact LT].
    - discriminate. }
  destruct (C72_note_partial NoStub t [k] c t valuation discount discount None OK) as (prices & EP & F).
  - intros k' [<-|[]]. lia.
  - left; reflexivity.
  - intros k' l d [<-|[]] H. contradiction.
  - cbn in EP. rewrite EP. f_equal. inversion F as [|? v ? vs (l & DL & EV) F']; subst. inversion F'; subst. f_equal. cbn in DL.
    destruct (whole_dates t _ _ _ m l D ST Q M E DL) as ((r & R1) & (r' & R2) & DA & ST' & INC).
    unfold floating_value. cbn [over_coupons].
    rewrite (periods_nth _ (fun s e => k_notional k * discount s - k_notional k * discount e) l (k_start k)).
    + rewrite R1, (telescope (fun d => k_notional k * discount d)). replace (last r (k_start k)) with (k_end k); [ring|].
      assert (H : last l (k_start k) = k_end k) by (rewrite R2; apply last_last). rewrite R1 in H. rewrite <- H. destruct r; reflexivity.
    + intros i I. pose proof (increasing_nth l (k_start k) i INC I) as L1. rewrite TQ. unfold InstrumentSpec.plus. rewrite (ST' i I).
      assert (L0 : (ordinal (k_start k) <= ordinal (nth i l (k_start k)))%Z).
      { clear - R1 INC I. assert (IN : In (nth i l (k_start k)) l) by (apply nth_In; lia). revert IN. generalize (nth i l (k_start k)) as z. intros z IN. rewrite R1 in IN, INC.
        destruct IN as [<-|IN]; [lia|]. apply StronglySorted_inv in INC as (_ & H). rewrite Forall_forall in H. specialize (H _ IN). lia. }
      set (s := nth i l (k_start k)) in *. set (e := nth (S i) l (k_start k)) in *. unfold floating_coupon, floating_rate, value_of. rewrite MU, B.
      replace (ordinal valuation <=? ordinal e)%Z with true by lia. replace (ordinal s <? ordinal valuation)%Z with false by lia.
      pose proof (act_positive c s e C L1). pose proof (DP e). field. lra.
Qed.

(** ** Swaps *)
Lemma forall2_both {A A' B B' C} (P : A -> B -> Prop) (Q : A' -> B' -> Prop) (H : A * A' -> C -> Prop) (g : B' -> B -> C) cs ks a b :
  Forall2 P cs a -> Forall2 Q ks b -> length cs = length ks -> (forall x y u v, P x u -> Q y v -> H (x, y) (g v u)) -> Forall2 H (combine cs ks) (map2 g b a).
Proof.
  intros F. revert ks b. induction F as [|x u cs a PX F IH]; intros ks b G L X.
  - destruct ks; [|discriminate]. inversion G; subst. constructor.
  - destruct ks as [|y ks]; [discriminate|]. inversion G as [|? v ? b' QY G']; subst. unfold map2. cbn. constructor; [apply X; assumption|]. apply IH; [exact G'|cbn in L; lia|exact X].
Qed.
(** A swap is worth the received coupons less the paid ones, contract by contract. *)
Theorem C72_swap_partial b t cs c b' t' ks c' term_t : ok_batch b t cs -> ok_batch b' t' ks -> length cs = length ks -> (forall k, In k ks -> (0 < k_term k)%Z) ->
  exists f g, fixed_setup (map k_start cs) (map k_end cs) (map k_freq cs) t (map k_notional cs) (map k_rate cs) c (first_dates b cs) (penultimate_dates b cs) = Some f /\
    float_setup (map k_start ks) (map k_end ks) (map k_freq ks) t' (map k_term ks) term_t (map k_notional ks) (map k_basis ks) (map k_multiplier ks) c' (first_dates b' ks) (penultimate_dates b' ks) = Some g /\
    forall valuation discount reference libor, libor = None \/ (exists k, ks = [k]) ->
      (forall k l d, In k ks -> k_basis k <> 0 -> contract_dates b' t' k l -> In d (tl l) -> (ordinal valuation <= ordinal d)%Z) ->
      exists vs, swap_price (Fixed f) (Floating g) valuation discount reference libor = Some vs /\
        swap_price (Floating g) (Fixed f) valuation discount reference libor = Some (map Ropp vs) /\
        Forall2 (fun kj v => exists l l', contract_dates b t (fst kj) l /\ contract_dates b' t' (snd kj) l' /\
          v = floating_value b' valuation discount reference (fixing_of libor) c' term_t (snd kj) l' - fixed_value valuation discount c (fst kj) l) (combine cs ks) vs.
Proof.
  intros OK OK' L TP. destruct (C72_fixed_coupons b t cs c OK) as (f & E & P). destruct (C72_floating_coupons_partial b' t' ks c' term_t OK' TP) as (g & E' & P').
  exists f, g. split; [exact E|]. split; [exact E'|]. intros valuation discount reference libor LI PA. destruct (P' valuation discount reference libor LI PA) as (vs & EV & F).
  unfold swap_price, leg_price. rewrite EV. cbn [bind option_map]. eexists. split; [reflexivity|]. split.
  - f_equal. unfold map2. rewrite map_map. generalize (fixed_price f valuation discount) as a. clear. induction vs as [|v vs IH]; intros [|u a]; [reflexivity|reflexivity|reflexivity|]. cbn. rewrite IH. f_equal. ring.
  - eapply forall2_both; [exact (P valuation discount)|exact F|exact L|]. intros x y u v (l & D & ->) (l' & D' & ->). exists l, l'. split; [exact D|]. split; [exact D'|]. reflexivity.
Qed.

(** The annuity of the fixed leg: the value of one unit of rate. *)
Definition annuity_value (discount : date -> R) (c : daycount) (k : contract) (l : list date) : R :=
  over_periods (fun s e => k_notional k * discount e * daycount_fraction c s e) l.
Definition with_rate (k : contract) (r : R) : contract :=
  Contract (k_start k) (k_end k) (k_freq k) (k_first k) (k_penultimate k) (k_notional k) r (k_basis k) (k_multiplier k) (k_term k).
Theorem C72_annuity b t cs c : ok_batch b t cs ->
  exists f, fixed_setup (map k_start cs) (map k_end cs) (map k_freq cs) t (map k_notional cs) (map k_rate cs) c (first_dates b cs) (penultimate_dates b cs) = Some f /\
    forall discount, exists vs, annuity f discount false = Some vs /\ Forall2 (fun k v => exists l, contract_dates b t k l /\ Forall is_date l /\ v = annuity_value discount c k l) cs vs.
Proof.
  intros OK. destruct (fixed_rows b t cs c OK) as (rows & f & F & _ & E & _ & A). exists f. split; [exact E|]. intros discount. eexists. split; [apply (A discount false)|].
  apply (forall2_of_combine (row_of b t)); [exact F|]. cbn [fst snd]. intros k l _ (l0 & D & _ & DL & _ & X). exists l0. split; [exact D|]. split; [exact DL|].
  unfold annuity_value. rewrite <- (coupons_same b). rewrite X; [apply coupons_same|]. intros x Dx. rewrite (fraction_same c x Dx). ring.
Qed.
Lemma coupons_at_rate valuation discount c k r l : (forall d, In d (tl l) -> (ordinal valuation <= ordinal d)%Z) ->
  fixed_value valuation discount c (with_rate k r) l = r * annuity_value discount c k l.
Proof.
  intros V. unfold fixed_value, annuity_value. rewrite <- (periods_scal r). apply (periods_nth _ _ l valuation). intros i I. unfold value_of. cbn [with_rate k_notional k_rate].
  pose proof (V _ (nth_tail_in l valuation i I)) as H. replace (_ <=? _)%Z with true by lia. ring.
Qed.
(** At the par rate the two legs of a swap have the same value, before the first
    fixed payment. *)
Theorem C72_par_rate_partial b t cs c b' t' ks c' term_t : ok_batch b t cs -> ok_batch b' t' ks -> length cs = length ks -> (forall k, In k ks -> (0 < k_term k)%Z) ->
  exists f g, fixed_setup (map k_start cs) (map k_end cs) (map k_freq cs) t (map k_notional cs) (map k_rate cs) c (first_dates b cs) (penultimate_dates b cs) = Some f /\
    float_setup (map k_start ks) (map k_end ks) (map k_freq ks) t' (map k_term ks) term_t (map k_notional ks) (map k_basis ks) (map k_multiplier ks) c' (first_dates b' ks) (penultimate_dates b' ks) = Some g /\
    forall valuation discount reference libor, libor = None \/ (exists k, ks = [k]) ->
      (forall k l d, In k ks -> k_basis k <> 0 -> contract_dates b' t' k l -> In d (tl l) -> (ordinal valuation <= ordinal d)%Z) ->
      (forall k l, In k cs -> contract_dates b t k l -> annuity_value discount c k l <> 0 /\ forall d, In d (tl l) -> (ordinal valuation <= ordinal d)%Z) ->
      exists rs, par_rate (Fixed f) (Floating g) valuation discount reference libor = Some rs /\
        par_rate (Floating g) (Fixed f) valuation discount reference libor = Some rs /\
        Forall2 (fun kj r => exists l l', contract_dates b t (fst kj) l /\ contract_dates b' t' (snd kj) l' /\
          fixed_value valuation discount c (with_rate (fst kj) r) l = floating_value b' valuation discount reference (fixing_of libor) c' term_t (snd kj) l') (combine cs ks) rs.
Proof.
  intros OK OK' L TP. destruct (C72_annuity b t cs c OK) as (f & E & P). destruct (C72_floating_coupons_partial b' t' ks c' term_t OK' TP) as (g & E' & P').
  exists f, g. split; [exact E|]. split; [exact E'|]. intros valuation discount reference libor LI PA AN. destruct (P' valuation discount reference libor LI PA) as (vs & EV & F).
  destruct (P discount) as (an & EA & FA). unfold par_rate. cbn [fixed_leg floating_leg]. rewrite EV, EA. cbn [bind option_map]. eexists. split; [reflexivity|]. split; [reflexivity|].
  eapply (forall2_both (fun k v => exists l, contract_dates b t k l /\ v = annuity_value discount c k l /\ annuity_value discount c k l <> 0 /\ forall d, In d (tl l) -> (ordinal valuation <= ordinal d)%Z)); [|exact F|exact L|].
  - eapply forall2_impl; [|exact FA]. intros k v IK _ (l & D & _ & ->). exists l. split; [exact D|]. split; [reflexivity|]. apply AN; assumption.
  - intros x y u v (l & D & -> & NZ & V) (l' & D' & ->). exists l, l'. cbn [fst snd]. split; [exact D|]. split; [exact D'|]. rewrite (coupons_at_rate valuation discount c x _ l V). field. exact NZ.
Qed.

(** ** Forward rate agreements *)
(** On one curve the agreement is worth the forward rate less the agreed rate, for
    the period, paid at its end. *)
Theorem C72_fra settlement e K N c p curve : date_add settlement p = Some e -> daycount_fraction c settlement e <> 0 -> (forall d, 0 < curve d) ->
  let fr := daycount_fraction c settlement e in
  fra_price settlement K N (Some c) (Some p) None curve curve = Some (N * fr * (get_forward_rate curve settlement e fr - K) * curve e) /\
  fra_price settlement K N (Some c) None (Some e) curve curve = Some (N * (curve settlement - curve e - K * fr * curve e)).
Proof.
  intros E NZ CP. cbv zeta. unfold fra_price, fra_accrual_end. rewrite E. cbn [option_map]. unfold get_forward_rate.
  pose proof (CP settlement). pose proof (CP e). set (fr := daycount_fraction c settlement e) in *. split; f_equal; field; repeat split; try exact NZ; try lra.
Qed.

(** ** Curves *)
(** The rates of a curve without compounding are the continuous rates at the
    maturities given. *)
Theorem C72_curve maturities rates valuation curve i : make_curve maturities rates valuation None = Some curve -> length rates = length maturities ->
  increasing maturities -> (i < length maturities)%nat ->
  get_discount_factor curve (nth i maturities valuation) =
    exp (- nth i rates 0 * (IZR (ordinal (nth i maturities valuation) - ordinal valuation) / 365)).
Proof.
  unfold make_curve. intros E L INC I.
  assert (ER : map_opt (fun '(t, r) => continuous_rate 0 t r) (combine (map (curve_time valuation) maturities) rates) = Some rates).
  { clear - L. revert rates L. induction maturities as [|m ms IH]; intros [|r rates] L; try discriminate; [reflexivity|]. cbn [map combine map_opt].
    rewrite IH by (cbn in L; lia). reflexivity. }
  rewrite ER in E. injection E as <-. unfold get_discount_factor, get_rates. cbn [times_ rates_ curve_valuation].
  assert (CT : forall d, curve_time valuation d = IZR (ordinal d - ordinal valuation) / 365).
  { intros d. unfold curve_time, actual_365_fixed, days_until. rewrite Q2R_div by (unfold Qeq; cbn; lia). unfold Q2R. cbn. rewrite Rinv_1, !Rmult_1_r. reflexivity. }
  assert (NT : forall j, (j < length maturities)%nat -> nth j (map (curve_time valuation) maturities) 0 = curve_time valuation (nth j maturities valuation)).
  { intros j J. rewrite (nth_indep _ 0 (curve_time valuation valuation)) by (rewrite map_length; exact J). apply map_nth. }
  rewrite <- (NT i I). pose proof (C22_knots false (map (curve_time valuation) maturities) rates None None i) as KN. rewrite map_length in KN.
  rewrite KN; [rewrite (NT i I), CT; reflexivity|exact L| |exact I].
  intros j J. rewrite !NT by lia. rewrite !CT. pose proof (increasing_nth maturities valuation j INC J) as H. apply Rmult_lt_compat_r; [lra|]. apply IZR_lt. lia.
Qed.
(** Forward rates and discount factors agree. *)
Theorem C72_forward curve s e fraction : curve e <> 0 -> fraction <> 0 -> (1 + get_forward_rate curve s e fraction * fraction) * curve e = curve s.
Proof. intros. unfold get_forward_rate. field. split; assumption. Qed.

(** ** A batch of two contracts with different numbers of coupons *)
Ltac dates := apply is_date_iff; split; vm_compute; [discriminate|reflexivity].
Definition k72a : contract := Contract (ymd_date 2021 1 15) (ymd_date 2022 1 15) 6 (ymd_date 2021 1 15) (ymd_date 2022 1 15) 100 (1 / 20) 0 1 6.
Definition k72b : contract := Contract (ymd_date 2021 1 31) (ymd_date 2023 1 31) 6 (ymd_date 2021 1 31) (ymd_date 2023 1 31) 200 (1 / 10) 0 1 6.
Lemma k72_ok : ok_batch NoStub MONTH [k72a; k72b].
Proof.
  split; [|split; [|discriminate]].
  - intros k [<-|[<-|[]]]; cbn; (split; [dates|split; [dates|split; [dates|split; [dates|split; [reflexivity|vm_compute; split; [split|]; discriminate]]]]]).
  - exists k72a. split; [left; reflexivity|vm_compute; reflexivity].
Qed.
Example C72_rows_ex : generate_schedule [k_start k72a; k_start k72b] [k_end k72a; k_end k72b] [6%Z; 6%Z] MONTH None None =
  Some ([[ymd_date 2021 1 15; ymd_date 2021 7 15; ymd_date 2022 1 15; ymd_date 2022 1 15; ymd_date 2022 1 15];
         [ymd_date 2021 1 31; ymd_date 2021 7 31; ymd_date 2022 1 31; ymd_date 2022 7 31; ymd_date 2023 1 31]],
        [[true; true; true; true]; [true; true; true; true]]).
Proof. vm_compute. reflexivity. Qed.

Lemma act360 s e : daycount_fraction ACTUAL_360 s e = IZR (ordinal e - ordinal s) / 360.
Proof. unfold daycount_fraction, actual_360, days_until. rewrite Q2R_div by (unfold Qeq; cbn; lia). unfold Q2R. cbn. rewrite Rinv_1, !Rmult_1_r. reflexivity. Qed.
Example C72_fixed_ex : exists f, fixed_setup [k_start k72a; k_start k72b] [k_end k72a; k_end k72b] [6%Z; 6%Z] MONTH [100; 200] [1 / 20; 1 / 10] ACTUAL_360 None None = Some f /\
  fixed_price f (ymd_date 2021 1 15) (fun _ => 1) = [100 * (1 / 20) * (365 / 360); 200 * (1 / 10) * (730 / 360)].
Proof.
  destruct (fixed_rows NoStub MONTH [k72a; k72b] ACTUAL_360 k72_ok) as (rows & f & _ & G & E & P & _). exists f. split; [exact E|]. rewrite P.
  pose proof C72_rows_ex as G'. cbn [map first_dates penultimate_dates] in G. change [k_freq k72a; k_freq k72b] with [6%Z; 6%Z] in G. rewrite G' in G. injection G as <- _.
  cbn [combine map fst snd]. unfold fixed_value. cbn [over_periods]. unfold value_of. rewrite !act360.
  change (k_notional k72a) with 100. change (k_notional k72b) with 200. change (k_rate k72a) with (1 / 20). change (k_rate k72b) with (1 / 10).
  repeat match goal with |- context [Z.leb ?a ?b] => let v := eval vm_compute in (Z.leb a b) in change (Z.leb a b) with v; cbv iota end.
  repeat match goal with |- context [IZR (?a - ?b)] => let v := eval vm_compute in (a - b)%Z in change (a - b)%Z with v end.
  f_equal; [field|f_equal; field].
Qed.
Example C72_par_note_ex : is_date (k_start k72a) /\ steady MONTH (k_start k72a) /\ date_add (k_start k72a) (mk_period (k_freq k72a * 2) MONTH) = Some (k_end k72a) /\ (ordinal (ymd_date 2021 1 4) <= ordinal (k_start k72a))%Z.
Proof. split; [dates|]. split; [right; right; vm_compute; discriminate|]. split; [vm_compute; reflexivity|vm_compute; discriminate]. Qed.

(** ** Where the code departs from the property *)
(** Evaluation of one contract from its row in the schedule. *)
Lemma one_contract t k c l fl : ok_batch NoStub t [k] -> (0 < k_term k)%Z -> generate_schedule [k_start k] [k_end k] [k_freq k] t None None = Some ([l], fl) ->
  exists l0, contract_dates NoStub t k l0 /\
    (forall f, (forall x, is_date x -> f x x = 0) -> over_periods f l0 = over_periods f l) /\
    (exists f, fixed_setup [k_start k] [k_end k] [k_freq k] t [k_notional k] [k_rate k] c None None = Some f /\ forall discount, annuity f discount false = Some [annuity_value discount c k l]) /\
    exists g, float_setup [k_start k] [k_end k] [k_freq k] t [k_term k] t [k_notional k] [k_basis k] [k_multiplier k] c None None = Some g /\
      forall valuation discount reference libor, float_price g valuation discount reference libor =
        Some [over_periods (float_code valuation discount reference (fixing_of libor) c t k true) l].
Proof.
  intros OK TP G. destruct (float_rows NoStub t [k] c t OK) as (rows & g & F & G' & E & P); [intros k' [<-|[]]; exact TP|].
  destruct (fixed_rows NoStub t [k] c OK) as (rows' & f & _ & G'' & E' & _ & A).
  cbn [map first_dates penultimate_dates] in *. rewrite G in G', G''. injection G' as <- _. injection G'' as <- _.
  inversion F as [|? ? ? ? (l0 & D & _ & _ & _ & X) _]; subst. exists l0. split; [exact D|]. split; [intros h H; symmetry; exact (X h h H)|]. split.
  - exists f. split; [exact E'|]. intros discount. exact (A discount false).
  - exists g. split; [exact E|]. intros valuation discount reference libor. exact (P valuation discount reference libor (or_intror (ex_intro _ k eq_refl))).
Qed.
Ltac flags_of t := repeat match t with _ => match goal with
  | |- context [Z.leb ?a ?b] => let v := eval vm_compute in (Z.leb a b) in change (Z.leb a b) with v; cbv iota
  | |- context [Z.ltb ?a ?b] => let v := eval vm_compute in (Z.ltb a b) in change (Z.ltb a b) with v; cbv iota end end.
Ltac days_of := repeat match goal with |- context [IZR (?a - ?b)] => let v := eval vm_compute in (a - b)%Z in change (a - b)%Z with v end.

(** A paid coupon still contributes its spread. *)
Definition k72c : contract := Contract (ymd_date 2021 1 15) (ymd_date 2022 1 15) 6 (ymd_date 2021 1 15) (ymd_date 2022 1 15) 1 0 1 1 6.
Lemma k72c_ok : ok_batch NoStub MONTH [k72c].
Proof.
  split; [|split; [|discriminate]].
  - intros k [<-|[]]; cbn; (split; [dates|split; [dates|split; [dates|split; [dates|split; [reflexivity|vm_compute; split; [split|]; discriminate]]]]]).
  - exists k72c. split; [left; reflexivity|vm_compute; reflexivity].
Qed.
Lemma k72c_rows : generate_schedule [k_start k72c] [k_end k72c] [k_freq k72c] MONTH None None = Some ([[ymd_date 2021 1 15; ymd_date 2021 7 15; ymd_date 2022 1 15]], [[true; true]]).
Proof. vm_compute. reflexivity. Qed.
Lemma floating_zero valuation discount reference fixing c k s a : is_date s -> floating_coupon valuation discount reference fixing c k s s a = 0.
Proof. intros D. unfold floating_coupon, value_of. rewrite (fraction_same c s D). destruct (_ <=? _)%Z; ring. Qed.
Theorem C72_past_basis_refuted : exists l g, contract_dates NoStub MONTH k72c l /\
  float_setup [k_start k72c] [k_end k72c] [6%Z] MONTH [6%Z] MONTH [1] [1] [1] ACTUAL_360 None None = Some g /\
  floating_value NoStub (ymd_date 2021 10 15) (fun _ => 1) (fun _ => 1) 0 ACTUAL_360 MONTH k72c l = 184 / 360 /\
  float_price g (ymd_date 2021 10 15) (fun _ => 1) (fun _ => 1) None = Some [365 / 360].
Proof.
  destruct (one_contract MONTH k72c ACTUAL_360 _ _ k72c_ok eq_refl k72c_rows) as (l & D & X & _ & g & E & P). exists l, g. split; [exact D|]. split; [exact E|]. split.
  - unfold floating_value. cbn [over_coupons]. rewrite X by (intros x Dx; apply floating_zero; exact Dx). cbn [over_periods]. unfold floating_coupon, floating_rate, value_of. rewrite !act360.
    flags_of tt. days_of. cbn [k72c k_notional k_multiplier k_basis]. field.
  - rewrite P. f_equal. f_equal. cbn [over_periods]. unfold float_code, date_ltb. rewrite !act360. flags_of tt. days_of. cbn [k72c k_notional k_multiplier k_basis fixing_of]. field.
Qed.
(** A paid coupon is counted in the annuity: with the par rate of a swap that is
    already running the legs differ.  Here the floating leg fixed at 1. *)
Definition k72d : contract := Contract (ymd_date 2021 1 15) (ymd_date 2022 1 15) 6 (ymd_date 2021 1 15) (ymd_date 2022 1 15) 1 0 0 1 6.
Lemma k72d_ok : ok_batch NoStub MONTH [k72d].
Proof.
  split; [|split; [|discriminate]].
  - intros k [<-|[]]; cbn; (split; [dates|split; [dates|split; [dates|split; [dates|split; [reflexivity|vm_compute; split; [split|]; discriminate]]]]]).
  - exists k72d. split; [left; reflexivity|vm_compute; reflexivity].
Qed.
Lemma k72d_rows : generate_schedule [k_start k72d] [k_end k72d] [k_freq k72d] MONTH None None = Some ([[ymd_date 2021 1 15; ymd_date 2021 7 15; ymd_date 2022 1 15]], [[true; true]]).
Proof. vm_compute. reflexivity. Qed.
Theorem C72_seasoned_par_rate_refuted : exists l f g r, contract_dates NoStub MONTH k72d l /\
  fixed_setup [k_start k72d] [k_end k72d] [6%Z] MONTH [1] [0] ACTUAL_360 None None = Some f /\
  float_setup [k_start k72d] [k_end k72d] [6%Z] MONTH [6%Z] MONTH [1] [0] [1] ACTUAL_360 None None = Some g /\
  par_rate (Fixed f) (Floating g) (ymd_date 2021 10 15) (fun _ => 1) (fun _ => 1) (Some 1) = Some [r] /\
  floating_value NoStub (ymd_date 2021 10 15) (fun _ => 1) (fun _ => 1) 1 ACTUAL_360 MONTH k72d l = 184 / 360 /\
  fixed_value (ymd_date 2021 10 15) (fun _ => 1) ACTUAL_360 (with_rate k72d r) l = 184 / 365 * (184 / 360).
Proof.
  destruct (one_contract MONTH k72d ACTUAL_360 _ _ k72d_ok eq_refl k72d_rows) as (l & D & X & (f & EF & A) & g & E & P). exists l, f, g, (184 / 365).
  split; [exact D|]. split; [exact EF|]. split; [exact E|]. split; [|split].
  - unfold par_rate. cbn [fixed_leg floating_leg]. rewrite A, P. cbn [bind option_map]. unfold map2. cbn [combine map]. f_equal. f_equal.
    unfold annuity_value. cbn [over_periods]. unfold float_code, date_ltb. rewrite !act360. flags_of tt. days_of. cbn [k72d k_notional k_multiplier k_basis fixing_of]. field.
  - unfold floating_value. cbn [over_coupons]. rewrite X by (intros x Dx; apply floating_zero; exact Dx). cbn [over_periods]. unfold floating_coupon, floating_rate, value_of. rewrite !act360.
    flags_of tt. days_of. cbn [k72d k_notional k_multiplier k_basis]. field.
  - unfold fixed_value. rewrite X.
    + cbn [over_periods]. unfold value_of. rewrite !act360. flags_of tt. days_of. cbn [k72d with_rate k_notional k_rate]. field.
    + intros x Dx. unfold value_of. rewrite (fraction_same ACTUAL_360 x Dx). destruct (_ <=? _)%Z; ring.
Qed.
(** The documented scalar fixing of the current coupon is refused for a batch of
    two contracts with two coupons each. *)
Theorem C72_fixing_batch_refuted : exists g,
  float_setup [k_start k72d; k_start k72d] [k_end k72d; k_end k72d] [6%Z; 6%Z] MONTH [6%Z; 6%Z] MONTH [1; 1] [0; 0] [1; 1] ACTUAL_360 None None = Some g /\
  (forall valuation discount reference r, r <> 0 -> float_price g valuation discount reference (Some r) = None) /\
  forall valuation discount reference, float_price g valuation discount reference None <> None.
Proof.
  assert (G : generate_schedule [k_start k72d; k_start k72d] [k_end k72d; k_end k72d] [6%Z; 6%Z] MONTH None None =
    Some ([[ymd_date 2021 1 15; ymd_date 2021 7 15; ymd_date 2022 1 15]; [ymd_date 2021 1 15; ymd_date 2021 7 15; ymd_date 2022 1 15]], [[true; true]; [true; true]])) by (vm_compute; reflexivity).
  eexists. split; [unfold float_setup; rewrite G; cbn [bind map combine removelast tl map_opt]; 
    repeat match goal with |- context [date_add ?a ?b] => let v := eval vm_compute in (date_add a b) in change (date_add a b) with v; cbn [map_opt bind option_map] end; reflexivity|].
  split.
  - intros valuation discount reference r NZ. unfold float_price, libor_rates. cbn [fl_start fl_batch fl_count]. destruct (Req_EM_T r 0); [contradiction|]. reflexivity.
  - intros valuation discount reference. unfold float_price, libor_rates, broadcast. cbn [fl_start fl_batch fl_count]. discriminate.
Qed.
(** The stated compounding is not converted to the continuous rate: one year
    compounding of 100% over two years should give a quarter. *)
Theorem C72_compounding_refuted : exists curve, make_curve [ymd_date 2023 1 15] [1] (ymd_date 2021 1 15) (Some 1%Z) = Some curve /\
  curve_time (ymd_date 2021 1 15) (ymd_date 2023 1 15) = 2 /\ get_discount_factor curve (ymd_date 2023 1 15) = 1 / 2 /\ / (1 + 1 / IZR 1) ^ 2 = 1 / 4.
Proof.
  assert (CT : curve_time (ymd_date 2021 1 15) (ymd_date 2023 1 15) = 2).
  { unfold curve_time, actual_365_fixed. rewrite Q2R_div by (unfold Qeq; cbn; lia). change (days_until (ymd_date 2021 1 15) (ymd_date 2023 1 15)) with 730%Z. unfold Q2R. cbn. field. }
  unfold make_curve. cbn [map combine map_opt]. rewrite CT. unfold continuous_rate. change (0 <? 1)%Z with true. cbv iota. destruct (Rlt_dec 0 2) as [_|N]; [|lra]. destruct (Rlt_dec 0 (1 + 1 / 1)) as [_|N]; [|lra].
  eexists. split; [reflexivity|]. split; [reflexivity|]. split; [|field].
  unfold get_discount_factor, get_rates. cbn [curve_valuation times_ rates_]. rewrite CT.
  pose proof (C22_knots false [2] [ln (Rpower (1 + 1 / 1) (1 * 1)) / 2] None None 0%nat eq_refl) as KN. cbn [nth length] in KN. rewrite KN by (intros; lia || lia).
  replace (- (ln (Rpower (1 + 1 / 1) (1 * 1)) / 2) * 2) with (- ln (Rpower (1 + 1 / 1) (1 * 1))) by field. rewrite exp_Ropp, exp_ln by apply exp_pos.
  rewrite Rmult_1_r, Rpower_1 by lra. field.
Qed.
(** A contract from the end of a month: the reference period of a coupon ends on the 28th, the
    coupon on the 31st, so the par note below, whose notional is 1, is worth 1/2. *)
Definition k72e : contract := Contract (ymd_date 2021 1 31) (ymd_date 2021 3 31) 1 (ymd_date 2021 1 31) (ymd_date 2021 3 31) 1 0 0 1 1.
Definition cut (d0 d : date) : R := if (ordinal d <=? ordinal d0)%Z then 1 else 1 / 2.
Lemma cut_pos d0 d : 0 < cut d0 d.
Proof. unfold cut. destruct (_ <=? _)%Z; lra. Qed.
Lemma par_note_value t k c l fl valuation discount v : ok_batch NoStub t [k] -> (0 < k_term k)%Z -> generate_schedule [k_start k] [k_end k] [k_freq k] t None None = Some ([l], fl) ->
  over_periods (float_code valuation discount discount 0 c t k true) l + k_notional k * discount (k_end k) = v ->
  note_price [k_start k] [k_end k] None [k_freq k] t [k_term k] t [k_notional k] [k_basis k] [k_multiplier k] c None None valuation discount discount None = Some [v].
Proof.
  intros OK TP G <-. destruct (one_contract t k c l fl OK TP G) as (_ & _ & _ & _ & g & E & P). unfold note_price. rewrite E. cbn [bind]. rewrite P. reflexivity.
Qed.
Ltac cuts := repeat match goal with |- context [cut ?a ?b] => let v := eval vm_compute in (ordinal b <=? ordinal a)%Z in
    (change (cut a b) with (if v then 1 else 1 / 2); cbv iota) end.
Theorem C72_month_end_refuted : date_add (k_start k72e) (mk_period (1 * 2) MONTH) = Some (k_end k72e) /\
  note_price [k_start k72e] [k_end k72e] None [1%Z] MONTH [1%Z] MONTH [1] [0] [1] ACTUAL_360 None None (k_start k72e) (cut (ymd_date 2021 3 28)) (cut (ymd_date 2021 3 28)) None = Some [1 / 2] /\
  k_notional k72e * cut (ymd_date 2021 3 28) (k_start k72e) = 1.
Proof.
  split; [vm_compute; reflexivity|]. split; [|cuts; cbn [k72e k_notional]; ring].
  assert (OK : ok_batch NoStub MONTH [k72e]).
  { split; [|split; [|discriminate]].
    - intros k [<-|[]]; cbn; (split; [dates|split; [dates|split; [dates|split; [dates|split; [reflexivity|vm_compute; split; [split|]; discriminate]]]]]).
    - exists k72e. split; [left; reflexivity|vm_compute; reflexivity]. }
  apply (par_note_value MONTH k72e ACTUAL_360 [ymd_date 2021 1 31; ymd_date 2021 2 28; ymd_date 2021 3 31] [[true; true]] _ _ _ OK eq_refl); [vm_compute; reflexivity|].
  cbn [over_periods]. unfold float_code, date_ltb, get_forward_rate, InstrumentSpec.plus. rewrite !act360. flags_of tt. days_of.
  repeat match goal with |- context [date_add ?a ?b] => let v := eval vm_compute in (date_add a b) in change (date_add a b) with v; cbv iota end.
  cuts. repeat (destruct (Rlt_dec _ _) as [?|?]; try lra). all: cbn [k72e k_notional k_multiplier k_basis]; field.
Qed.
(** An irregular last period without a penultimate date: the reference rate is
    that of a whole period, and a par note with notional 1 is worth 2. *)
Definition k72f : contract := Contract (ymd_date 2021 1 15) (ymd_date 2021 10 15) 6 (ymd_date 2021 1 15) (ymd_date 2021 10 15) 1 0 0 1 6.
Theorem C72_stub_refuted : 
  note_price [k_start k72f] [k_end k72f] None [6%Z] MONTH [6%Z] MONTH [1] [0] [1] ACTUAL_360 None None (k_start k72f) (cut (k_end k72f)) (cut (k_end k72f)) None = Some [2] /\
  k_notional k72f * cut (k_end k72f) (k_start k72f) = 1.
Proof.
  split; [|cuts; cbn [k72f k_notional]; ring].
  assert (OK : ok_batch NoStub MONTH [k72f]).
  { split; [|split; [|discriminate]].
    - intros k [<-|[]]; cbn; (split; [dates|split; [dates|split; [dates|split; [dates|split; [reflexivity|vm_compute; split; [split|]; discriminate]]]]]).
    - exists k72f. split; [left; reflexivity|vm_compute; reflexivity]. }
  apply (par_note_value MONTH k72f ACTUAL_360 [ymd_date 2021 1 15; ymd_date 2021 7 15; ymd_date 2021 10 15] [[true; true]] _ _ _ OK eq_refl); [vm_compute; reflexivity|].
  cbn [over_periods]. unfold float_code, date_ltb, get_forward_rate, InstrumentSpec.plus. rewrite !act360. flags_of tt. days_of.
  repeat match goal with |- context [date_add ?a ?b] => let v := eval vm_compute in (date_add a b) in change (date_add a b) with v; cbv iota end.
  cuts. repeat (destruct (Rlt_dec _ _) as [?|?]; try lra). all: cbn [k72f k_notional k_multiplier k_basis]; field.
Qed.

Print Assumptions C72_fixed_coupons.
Print Assumptions C72_bond.
Print Assumptions C72_floating_coupons_partial.
Print Assumptions C72_note_partial.
Print Assumptions C72_par_note.
Print Assumptions C72_swap_partial.
Print Assumptions C72_annuity.
Print Assumptions C72_par_rate_partial.
Print Assumptions C72_fra.
Print Assumptions C72_curve.
Print Assumptions C72_forward.
Print Assumptions C72_past_basis_refuted.
Print Assumptions C72_seasoned_par_rate_refuted.
Print Assumptions C72_fixing_batch_refuted.
Print Assumptions C72_compounding_refuted.
Print Assumptions C72_month_end_refuted.
Print Assumptions C72_stub_refuted.
