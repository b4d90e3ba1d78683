(** C72: rate instruments. *)
From Coq Require Import Reals QArith Qreals ZArith List Bool Lia Lra ZifyBool Sorted.
From Verif Require Import TensorModel InterpModel IntegrateModel SegmentModel DateModel DateSpec DateRepr DateProofs DateProofs2 DayCountModel CalSpec CalSetup CalProofs BoundedCalModel
  ScheduleModel ScheduleSpec ScheduleProofs ScheduleProofs2 ScheduleProofs3 ScheduleProofs4 PropsCalAux PropsSchedule RatesModel InstrumentModel InstrumentSpec InstrumentProofs.
Import ListNotations.
Open Scope R_scope.

(** ** Schedules *)
Definition flags (b : stub) (l : list date) : list bool :=
  match b with
  | NoStub => map (fun _ => true) (removelast l)
  | FirstStub => false :: map (fun _ => true) (removelast (removelast l))
  | LastStub => map (fun _ => true) (removelast (removelast l)) ++ [false]
  end.
(** The row of a contract in the batch: its dates, padded. *)
Definition row_of (b : stub) (t : period_type) (k : contract) (l : list date) : Prop :=
  exists l0, contract_dates b t k l0 /\ Forall is_date l /\ Forall is_date l0 /\ nondecreasing l0 /\
    forall f g, (forall x, is_date x -> f x x = 0) -> over_coupons b f g l = over_coupons b f g l0.

Lemma combine_maps {A B C} (f : A -> B) (g : A -> C) l : combine (map f l) (map g l) = map (fun x => (f x, g x)) l.
Proof. induction l as [|x l IH]; [reflexivity|]. cbn. rewrite IH. reflexivity. Qed.

Lemma plain_schedule (cs : list contract) (t : period_type) (bw : bool) (f g : contract -> date) :
  (forall k, In k cs -> is_date (f k) /\ is_date (g k) /\ (0 < k_freq k)%Z /\ (ordinal (f k) <= ordinal (g k))%Z) ->
  (exists k, In k cs /\ (ordinal (f k) < ordinal (g k))%Z) ->
  bw = false \/ t = MONTH \/ t = YEAR \/ (exists k, cs = [k]) ->
  exists out L, periodic_schedule (map2 (fun '(s, e) q => mk_row s e q) (combine (map f cs) (map g cs)) (map k_freq cs)) t bw false None = Some out /\ (2 <= L)%nat /\
    Forall2 (fun k l => length l = L /\ Forall is_date l /\ exists r, row_spec t bw (mk_row (f k) (g k) (k_freq k)) r /\ Forall is_date r /\
      nondecreasing r /\ (if bw then padded_first L else padded_last L) r l) cs out.
Proof.
  intros D EX C. rewrite combine_maps, map2_same. set (rows := map _ cs).
  assert (FR : Forall row_dates rows). { apply Forall_forall. intros r I. apply in_map_iff in I as (k & <- & I). destruct (D k I) as (A & B & _). split; assumption. }
  assert (V : valid_rows rows). { intros r I. apply in_map_iff in I as (k & <- & I). destruct (D k I) as (_ & _ & A & B). split; assumption. }
  assert (ER : exists r, In r rows /\ (ordinal (rstart r) < ordinal (rend r))%Z).
  { destruct EX as (k & I & L). exists (mk_row (f k) (g k) (k_freq k)). split; [apply in_map_iff; exists k; split; [reflexivity|exact I]|exact L]. }
  destruct (C17_schedule_exists rows t bw false FR V ltac:(discriminate) ER) as (out & E).
  { destruct C as [C|[C|[C|(k & ->)]]]; [tauto|tauto|tauto|right; right; right; eexists; reflexivity]. }
  destruct (sched_checks _ _ _ _ _ _ E) as (_ & _ & base & mid & E1 & E2 & E3). cbn in E2, E3. injection E2 as ->. injection E3 as ->.
  destruct (base_batch rows t bw out FR V ER E1) as (ls & L & H1 & H2 & H3).
  exists out, L. split; [exact E|]. split.
  { destruct ER as (r & I & LT). destruct (In_nth_error _ _ I) as (i & N). destruct (Forall2_nth_r _ _ _ H1 i r N) as (l & N' & S).
    assert (LL : (length l <= L)%nat) by (apply (proj2 H2); eapply nth_error_In; exact N'). rewrite Forall_forall in FR.
    destruct (C17_schedule_shape t bw r l (FR r I) (proj1 (V r I)) LT S) as (_ & _ & (q & Q1) & (p & Q2) & _).
    destruct l as [|x [|y l]]; [discriminate| |cbn in LL; lia]. exfalso. injection Q1 as -> _. destruct p as [|z p]; [|destruct p; discriminate]. injection Q2 as Q2. rewrite Q2 in LT. lia. }
  clear E E1 ER EX C. destruct H2 as (_ & H2). unfold rows in *. clear rows. revert ls out H1 H2 H3 FR V D. induction cs as [|k cs IH]; intros ls out H1 H2 H3 FR V D.
  { inversion H1; subst. inversion H3; subst. constructor. }
  cbn [map] in *. inversion H1 as [|? l0 ? ls' S H1']; subst. inversion H3 as [|? l ? out' P H3']; subst. inversion FR as [|? ? RD FR']; subst.
  destruct (D k (or_introl eq_refl)) as (A1 & A2 & A3 & A4).
  constructor; [|apply (IH ls' out' H1'); [intros; apply H2; right; assumption|exact H3'|exact FR'|intros r I; apply V; right; exact I|intros; apply D; right; assumption]].
  assert (DR : Forall is_date l0) by (apply (row_spec_dates t bw (mk_row (f k) (g k) (k_freq k))); cbn; assumption).
  assert (LL : (length l0 <= L)%nat) by (apply H2; left; reflexivity).
  split; [destruct bw; [eapply padded_length_first|eapply padded_length_last]; eassumption|]. split; [eapply padded_dates; eassumption|].
  exists l0. split; [exact S|]. split; [exact DR|]. split; [|exact P].
  destruct (row_spec_increasing t bw (mk_row (f k) (g k) (k_freq k)) l0 A1 A2 A3 A4 S) as (_ & B & _). exact B.
Qed.

Lemma forward_bounds t s e q r : is_date s -> is_date e -> (0 < q)%Z -> (ordinal s <= ordinal e)%Z -> forward_dates s e (mk_period q t) r ->
  forall x, In x r -> (ordinal s <= ordinal x)%Z.
Proof.
  intros D De Q LE (n & f & A & _ & ->) x I. apply in_app_or in I as [I|[<-|[]]]; [|exact LE]. apply in_map_iff in I as (k & <- & K). apply in_zrange in K.
  destruct (A k ltac:(lia)) as (E & _). unfold period_mul in E. cbn [quantity ptype] in E. destruct (add_sord _ _ _ _ D E) as (O & _). rewrite O.
  pose proof (sord_many t s 0 (q * k) D ltac:(nia)) as M. rewrite sord_0 in M by assumption. replace (0 + q * k)%Z with (q * k)%Z in M by lia.
  pose proof (min_days_pos t). nia.
Qed.
Lemma backward_bounds t s e q r : is_date s -> is_date e -> (0 < q)%Z -> (ordinal s <= ordinal e)%Z -> backward_dates s e (mk_period q t) r ->
  forall x, In x r -> (ordinal x <= ordinal e)%Z.
Proof.
  intros D De Q LE (n & f & A & _ & ->) x [<-|I]; [exact LE|]. apply in_rev in I. apply in_map_iff in I as (k & <- & K). apply in_zrange in K.
  destruct (A k ltac:(lia)) as (E & _). unfold date_sub, period_mul in E. cbn [quantity ptype] in E. destruct (add_sord _ _ _ _ De E) as (O & _). rewrite O.
  pose proof (sord_many t e (- (q * k)) (q * k) De ltac:(nia)) as M. replace (- (q * k) + q * k)%Z with 0%Z in M by lia. rewrite sord_0 in M by assumption.
  pose proof (min_days_pos t). nia.
Qed.
Lemma nondecr_snoc l e : nondecreasing l -> (forall x, In x l -> (ordinal x <= ordinal e)%Z) -> nondecreasing (l ++ [e]).
Proof.
  unfold nondecreasing. induction 1 as [|a l S IH F]; intros H; [repeat constructor|]. cbn [app]. constructor.
  - apply IH. intros; apply H; right; assumption.
  - apply Forall_app. split; [exact F|]. constructor; [apply H; left; reflexivity|constructor].
Qed.
Lemma removelast_snoc {A} (l : list A) x : removelast (l ++ [x]) = l.
Proof. rewrite removelast_app by discriminate. cbn. apply app_nil_r. Qed.

Lemma schedule_rows b t cs : ok_batch b t cs ->
  exists rows W, generate_schedule (map k_start cs) (map k_end cs) (map k_freq cs) t (first_dates b cs) (penultimate_dates b cs) = Some (rows, map (flags b) rows) /\
    (2 <= W)%nat /\ Forall2 (fun k l => length l = W /\ row_of b t k l) cs rows.
Proof.
  intros (D & EX & LS). destruct b; cbn [regular_range fst snd] in *; unfold generate_schedule, first_dates, penultimate_dates.
  - destruct (plain_schedule cs t false k_start k_end) as (out & L & E & L1 & F); [intros k I; destruct (D k I); tauto|exact EX|tauto|].
    rewrite E. exists out, L. split; [reflexivity|]. split; [exact L1|]. eapply forall2_impl; [|exact F]. cbv beta. intros k l _ _ (A & B & r & S & DR & N & P).
    split; [exact A|]. exists r. split; [exact S|]. split; [exact B|]. split; [exact DR|]. split; [exact N|]. intros f g Z. cbn [over_coupons].
    apply (periods_padded_last f L r l); [|exact P]. intros x I. apply Z. rewrite Forall_forall in DR. apply DR; exact I.
  - destruct (plain_schedule cs t false k_first k_end) as (out & L & E & L1 & F); [intros k I; destruct (D k I); tauto|exact EX|tauto|].
    rewrite E. cbn [option_map]. exists (map2 cons (map k_start cs) out), (S L). split; [reflexivity|]. split; [lia|]. clear E EX LS. revert out F. induction cs as [|k cs IH]; intros out F.
    { inversion F; constructor. }
    inversion F as [|? l ? out' (A & B & r & S & DR & N & P) F']; subst. unfold map2 in *. cbn [map combine]. constructor; [|apply IH; [intros; apply D; right; assumption|exact F']].
    destruct (D k (or_introl eq_refl)) as (D1 & D2 & D3 & D4 & D5 & D6 & D7).
    split; [cbn; lia|]. exists (k_start k :: r). split; [exists r; split; [exact S|reflexivity]|]. split; [constructor; assumption|]. split; [constructor; assumption|]. split.
    { constructor; [exact N|]. apply Forall_forall. intros x I. pose proof (forward_bounds t (k_first k) (k_end k) (k_freq k) r D3 D4 D5 ltac:(lia) S x I). lia. }
    intros f g Z. destruct (periods_padded_last f (length l) r l) as (P1 & P2); [|exact P|].
    { intros x I. apply Z. rewrite Forall_forall in DR. apply DR; exact I. }
    cbn [over_coupons]. destruct l as [|y l]; destruct r as [|z r]; cbn in P2; try discriminate; [reflexivity|]. injection P2 as ->. rewrite P1. reflexivity.
  - destruct (plain_schedule cs t true k_start k_penultimate) as (out & L & E & L1 & F); [intros k I; destruct (D k I); tauto|exact EX|right; apply LS; reflexivity|].
    rewrite E. cbn [option_map]. exists (map2 (fun l e => l ++ [e]) out (map k_end cs)), (S L). split; [reflexivity|]. split; [lia|]. clear E EX LS. revert out F. induction cs as [|k cs IH]; intros out F.
    { inversion F; constructor. }
    inversion F as [|? l ? out' (A & B & r & S & DR & N & P) F']; subst. unfold map2 in *. cbn [map combine]. constructor; [|apply IH; [intros; apply D; right; assumption|exact F']].
    destruct (D k (or_introl eq_refl)) as (D1 & D2 & D3 & D4 & D5 & D6 & D7).
    split; [rewrite app_length; cbn; lia|]. exists (r ++ [k_end k]). split; [exists r; split; [exact S|reflexivity]|].
    split; [apply Forall_app; split; [exact B|repeat constructor; assumption]|]. split; [apply Forall_app; split; [exact DR|repeat constructor; assumption]|]. split.
    { apply nondecr_snoc; [exact N|]. intros x I. pose proof (backward_bounds t (k_start k) (k_penultimate k) (k_freq k) r D3 D4 D5 ltac:(lia) S x I). lia. }
    intros f g Z. destruct (periods_padded_first f (length l) r l) as (P1 & P2); [|exact P|].
    { intros x I. apply Z. rewrite Forall_forall in DR. apply DR; exact I. }
    cbn [over_coupons]. rewrite !removelast_snoc, P1. f_equal. rewrite !rev_app_distr. cbn [rev app].
    destruct P as (x & q & -> & ->). rewrite rev_app_distr. destruct (rev (x :: q)) as [|y m] eqn:RV; [|reflexivity].
    apply (f_equal (@length date)) in RV. rewrite rev_length in RV. discriminate.
Qed.

(** ** Fixed coupons *)
Definition fixed_row (valuation : date) (discount : date -> R) (c : daycount) (N r : R) (n : nat) (l : list date) : list R :=
  map2 Rmult (repeat N n) (map2 Rmult (map2 Rmult (map2 Rmult (map (fun d => if date_geb d valuation then 1 else 0) (tl l)) (map2 (daycount_fraction c) (removelast l) (tl l))) (repeat r n)) (map discount (tl l))).
Lemma fixed_row_sum valuation discount c N r l :
  reduce_sum (fixed_row valuation discount c N r (length l - 1) l) = over_periods (fun s e => value_of valuation discount (N * r * daycount_fraction c s e) e) l.
Proof.
  induction l as [|a [|b l] IH]; [reflexivity|reflexivity|].
  change (fixed_row valuation discount c N r (length (a :: b :: l) - 1) (a :: b :: l)) with
    (N * ((if date_geb b valuation then 1 else 0) * daycount_fraction c a b * r * discount b) :: fixed_row valuation discount c N r (length l) (b :: l)).
  replace (length (b :: l) - 1)%nat with (length l) in IH by (cbn; lia). rewrite periods_cons, <- IH. unfold reduce_sum. cbn [fold_right]. f_equal.
  unfold value_of, date_geb. destruct (ordinal valuation <=? ordinal b)%Z; ring.
Qed.

Section Batch.
Variables (b : stub) (t : period_type) (cs : list contract) (rows : list (list date)) (W : nat).
Hypothesis E : generate_schedule (map k_start cs) (map k_end cs) (map k_freq cs) t (first_dates b cs) (penultimate_dates b cs) = Some (rows, map (flags b) rows).
Hypothesis F : Forall2 (fun k l => length l = W /\ row_of b t k l) cs rows.
Hypothesis NE : cs <> [].
Let ds := combine cs rows.
Let n := (W - 1)%nat.
Lemma ds_fst {X} (g : contract -> X) : map g cs = map (fun x => g (fst x)) ds.
Proof. rewrite <- (combine_map_fst cs rows) at 1 by (eapply forall2_len'; exact F). rewrite map_map. reflexivity. Qed.
Lemma ds_snd {X} (g : list date -> X) : map g rows = map (fun x => g (snd x)) ds.
Proof. rewrite <- (combine_map_snd cs rows) at 1 by (eapply forall2_len'; exact F). rewrite map_map. reflexivity. Qed.
Lemma ds_len : length cs = length ds.
Proof. unfold ds. rewrite combine_length, <- (forall2_len' _ _ _ F). lia. Qed.
Lemma ds_ok x : In x ds -> length (snd x) = W /\ row_of b t (fst x) (snd x).
Proof. intros I. exact (forall2_combine _ _ _ F x I). Qed.
Lemma ds_width {X} (g : list date -> list X) : (forall l, length (g l) = (length l - 1)%nat) -> width (map g rows) = n.
Proof.
  intros H. destruct F as [|k l cs' rows' (L & _) F']; [contradiction|]. cbn [map width]. rewrite H, L. reflexivity.
Qed.

Ltac lens := let x := fresh "x" in let I := fresh "I" in let LW := fresh "LW" in
  intros x I; pose proof (proj1 (ds_ok x I)) as LW; unfold map2;
  repeat (rewrite map_length || rewrite combine_length || rewrite repeat_length || rewrite tl_length || rewrite removelast_length); rewrite ?LW; unfold n; lia.
Lemma fixed_setup_ok c : exists f, fixed_setup (map k_start cs) (map k_end cs) (map k_freq cs) t (map k_notional cs) (map k_rate cs) c (first_dates b cs) (penultimate_dates b cs) = Some f /\
  (forall valuation discount, fixed_price f valuation discount = map (fun x => reduce_sum (fixed_row valuation discount c (k_notional (fst x)) (k_rate (fst x)) n (snd x))) ds) /\
  (forall discount unit_notional, (0 < n)%nat -> annuity f discount unit_notional = Some (map (fun x => reduce_sum (map2 Rmult (map2 Rmult (repeat (if unit_notional then 1 else k_notional (fst x)) n) (map discount (tl (snd x))))
     (map2 (daycount_fraction c) (removelast (snd x)) (tl (snd x))))) ds)).
Proof.
  unfold fixed_setup. rewrite E. cbn [bind]. eexists. split; [reflexivity|].
  rewrite (ds_width (@tl date)) by apply tl_length. rewrite (ds_fst k_notional), (ds_fst k_rate), (ds_snd (@removelast date)), (ds_snd (@tl date)), !repeat_of_map, map2_same, !concat_of_map, map_length, ds_len.
  split.
  - intros valuation discount. unfold fixed_price. cbn [fx_payment_dates fx_notional fx_fractions fx_coupon_rate fx_batch fx_count]. rewrite !flat_of_map.
    rewrite !flat2 by lens. rewrite rows_flat by lens. rewrite map_map. reflexivity.
  - intros discount u N0. unfold annuity. cbn [fx_payment_dates fx_notional fx_fractions fx_contract]. rewrite !flat_of_map.
    replace (if u then flat_map (fun x => map (fun _ => 1) (map2 (daycount_fraction c) (removelast (snd x)) (tl (snd x)))) ds else flat_map (fun x => repeat (k_notional (fst x)) n) ds)
      with (flat_map (fun x => repeat (if u then 1 else k_notional (fst x)) n) ds).
    2:{ destruct u; [|reflexivity]. rewrite !flat_map_concat_map. f_equal. apply map_ext_in. intros x I.
        assert (LF : length (map2 (daycount_fraction c) (removelast (snd x)) (tl (snd x))) = n) by (revert x I; lens). rewrite <- LF. clear. generalize (map2 (daycount_fraction c) (removelast (snd x)) (tl (snd x))) as l.
        intros l. induction l as [|y l IH]; [reflexivity|]. cbn. rewrite <- IH. reflexivity. }
    rewrite !flat2 by lens. apply segment_rows; [exact N0|]. lens.
Qed.

(** ** Floating coupons *)
Definition float_code (valuation : date) (discount reference : date -> R) (fixing : R) (c : daycount) (term_t : period_type) (k : contract) (regular : bool) (s e : date) : R :=
  k_notional k * (daycount_fraction c s e * (k_multiplier k * ((if date_ltb e valuation then 0 else if date_ltb s valuation then fixing else
    if Rlt_dec 0 (daycount_fraction c s e) then get_forward_rate reference s (if regular then plus s (mk_period (k_term k) term_t) else e) (daycount_fraction c s e) else 0) + k_basis k)) * discount e).
Definition accruals (term_t : period_type) (k : contract) (fs : list bool) (l : list date) : list date :=
  map2 (fun (b : bool) '(x, y) => if b then x else y) fs (combine (map (fun d => plus d (mk_period (k_term k) term_t)) (removelast l)) (tl l)).
Definition float_row (valuation : date) (discount reference : date -> R) (fixing : R) (c : daycount) (term_t : period_type) (k : contract) (fs : list bool) (m : nat) (l : list date) : list R :=
  map2 Rmult (repeat (k_notional k) m) (map2 Rmult (map2 Rmult (map2 (daycount_fraction c) (removelast l) (tl l))
    (map2 Rmult (repeat (k_multiplier k) m) (map2 Rplus
      (map2 (fun '(s, e) '(li, fw) => if date_ltb e valuation then 0 else if date_ltb s valuation then li else fw) (combine (removelast l) (tl l))
        (combine (repeat fixing m) (map2 (fun '(s, e) fr => if Rlt_dec 0 fr then get_forward_rate reference s e fr else 0) (combine (removelast l) (accruals term_t k fs l)) (map2 (daycount_fraction c) (removelast l) (tl l)))))
      (repeat (k_basis k) m)))) (map discount (tl l))).
Fixpoint over_flags (f : bool -> date -> date -> R) (fs : list bool) (l : list date) : R :=
  match fs, l with b :: fs, s :: ((e :: _) as r) => f b s e + over_flags f fs r | _, _ => 0 end.
Lemma float_row_sum valuation discount reference fixing c term_t k fs l : length fs = (length l - 1)%nat ->
  reduce_sum (float_row valuation discount reference fixing c term_t k fs (length l - 1) l) = over_flags (float_code valuation discount reference fixing c term_t k) fs l.
Proof.
  revert fs. induction l as [|x [|y l] IH]; intros fs LF; [destruct fs; reflexivity|destruct fs; reflexivity|].
  destruct fs as [|r fs]; [cbn in LF; discriminate|].
  replace (float_row valuation discount reference fixing c term_t k (r :: fs) (length (x :: y :: l) - 1) (x :: y :: l)) with
    (float_code valuation discount reference fixing c term_t k r x y :: float_row valuation discount reference fixing c term_t k fs (length (y :: l) - 1) (y :: l)).
  - unfold reduce_sum in *. cbn [fold_right]. rewrite IH by (cbn in LF |- *; lia). reflexivity.
  - replace (length (x :: y :: l) - 1)%nat with (S (length (y :: l) - 1)) by (cbn; lia). reflexivity.
Qed.
Lemma flags_true f l : over_flags f (map (fun _ => true) (removelast l)) l = over_periods (f true) l.
Proof.
  induction l as [|x [|y l] IH]; [reflexivity|reflexivity|]. change (removelast (x :: y :: l)) with (x :: removelast (y :: l)).
  change (f true x y + over_flags f (map (fun _ => true) (removelast (y :: l))) (y :: l) = f true x y + over_periods (f true) (y :: l)). rewrite IH. reflexivity.
Qed.
Lemma flags_last f l e : over_flags f (map (fun _ => true) (removelast l) ++ [false]) (l ++ [e]) = over_periods (f true) l + match rev l with s :: _ => f false s e | _ => 0 end.
Proof.
  induction l as [|x [|y l] IH]; [cbn; ring|cbn; ring|]. change (removelast (x :: y :: l)) with (x :: removelast (y :: l)).
  change (f true x y + over_flags f (map (fun _ => true) (removelast (y :: l)) ++ [false]) ((y :: l) ++ [e]) =
          f true x y + over_periods (f true) (y :: l) + match rev (x :: y :: l) with s :: _ => f false s e | _ => 0 end).
  rewrite IH. change (rev (x :: y :: l)) with (rev (y :: l) ++ [x]). destruct (rev (y :: l)) eqn:RV; [|cbn [app]; ring].
  apply (f_equal (@length date)) in RV. rewrite rev_length in RV. discriminate.
Qed.
Lemma flags_coupons st f l : (st <> NoStub -> (2 <= length l)%nat) -> over_flags f (flags st l) l = over_coupons st (f true) (f false) l.
Proof.
  intros L2. destruct st; cbn [flags over_coupons].
  - apply flags_true.
  - specialize (L2 ltac:(discriminate)). destruct l as [|x [|y l]]; [cbn in L2; lia|cbn in L2; lia|].
    change (removelast (x :: y :: l)) with (x :: removelast (y :: l)). 
    change (f false x y + over_flags f (map (fun _ => true) (removelast (x :: removelast (y :: l)))) (y :: l) = f false x y + over_periods (f true) (y :: l)).
    f_equal. rewrite <- flags_true. destruct (exists_last (l := y :: l) ltac:(discriminate)) as (p & z & EQ). rewrite EQ.
    rewrite removelast_snoc. replace (map (fun _ => true) (removelast (x :: p))) with (map (fun _ : date => true) p); [reflexivity|].
    clear. revert x. induction p as [|a p IH]; intros x; [reflexivity|]. change (removelast (x :: a :: p)) with (x :: removelast (a :: p)). cbn [map]. rewrite <- IH. reflexivity.
  - specialize (L2 ltac:(discriminate)). destruct (exists_last (l := l)) as (p & z & ->); [destruct l; [cbn in L2; lia|discriminate]|].
    rewrite removelast_snoc, flags_last. f_equal. rewrite rev_app_distr. reflexivity.
Qed.
Lemma flags_length st l : (st <> NoStub -> (2 <= length l)%nat) -> length (flags st l) = (length l - 1)%nat.
Proof.
  intros L2. destruct st; cbn [flags]; [rewrite map_length, removelast_length; reflexivity| |].
  - specialize (L2 ltac:(discriminate)). cbn [length]. rewrite map_length, !removelast_length. lia.
  - specialize (L2 ltac:(discriminate)). rewrite app_length, map_length, !removelast_length. cbn [length]. lia.
Qed.

Hypothesis W2 : b <> NoStub -> (2 <= W)%nat.
Lemma accrual_ends term_t : (forall k, In k cs -> (0 < k_term k)%Z) ->
  map_opt (fun '(l, q) => map_opt (fun d => date_add d (mk_period q term_t)) l) (combine (map (@removelast date) rows) (map k_term cs)) =
  Some (map (fun x => map (fun d => plus d (mk_period (k_term (fst x)) term_t)) (removelast (snd x))) ds).
Proof.
  intros TP. rewrite (ds_snd (@removelast date)), (ds_fst k_term), combine_maps.
  assert (G : forall l, (forall x, In x l -> In x ds) -> map_opt (fun '(l, q) => map_opt (fun d => date_add d (mk_period q term_t)) l) (map (fun x => (removelast (snd x), k_term (fst x))) l) =
     Some (map (fun x => map (fun d => plus d (mk_period (k_term (fst x)) term_t)) (removelast (snd x))) l)).
  { induction l as [|x l IH]; intros S; [reflexivity|]. cbn [map map_opt]. rewrite IH by (intros; apply S; right; assumption).
    assert (M : map_opt (fun d => date_add d (mk_period (k_term (fst x)) term_t)) (removelast (snd x)) = Some (map (fun d => plus d (mk_period (k_term (fst x)) term_t)) (removelast (snd x)))); [|rewrite M; reflexivity].
    assert (DD : forall d, In d (removelast (snd x)) -> is_date d).
    { intros d Id. destruct (ds_ok x (S x (or_introl eq_refl))) as (_ & l0 & _ & DL & _). rewrite Forall_forall in DL. apply DL.
      clear - Id. destruct (snd x) as [|y r] eqn:EQ; [destruct Id|]. rewrite (app_removelast_last y (l := y :: r)) by discriminate. apply in_or_app. left. exact Id. }
    assert (TK : (0 < k_term (fst x))%Z) by (apply TP; apply (in_combine_l cs rows (fst x) (snd x)); rewrite <- surjective_pairing; apply S; left; reflexivity).
    clear - DD TK. induction (removelast (snd x)) as [|d r IHr]; [reflexivity|]. cbn [map map_opt]. rewrite IHr by (intros; apply DD; right; assumption).
    destruct (add_some d term_t (k_term (fst x))) as (y & EY); [apply DD; left; reflexivity| |unfold plus; rewrite EY; reflexivity].
    intros _. pose proof (DD d (or_introl eq_refl)) as Dd. pose proof (sord_many term_t d 0 (k_term (fst x)) Dd ltac:(lia)) as M. rewrite sord_0 in M by exact Dd.
    replace (0 + k_term (fst x))%Z with (k_term (fst x)) in M by lia. pose proof (min_days_pos term_t). assert (1 <= ordinal d)%Z by (apply is_date_iff; exact Dd). nia. }
  apply G. intros x I. exact I.
Qed.
Ltac lens2 := let x := fresh "x" in let I := fresh "I" in let LW := fresh "LW" in
  intros x I; pose proof (proj1 (ds_ok x I)) as LW; unfold accruals, map2;
  repeat (rewrite map_length || rewrite combine_length || rewrite repeat_length || rewrite tl_length || rewrite removelast_length || (rewrite flags_length by (rewrite LW; exact W2))); rewrite ?LW; unfold n; lia.
Lemma float_setup_ok c term_t : (forall k, In k cs -> (0 < k_term k)%Z) ->
  exists f, float_setup (map k_start cs) (map k_end cs) (map k_freq cs) t (map k_term cs) term_t (map k_notional cs) (map k_basis cs) (map k_multiplier cs) c (first_dates b cs) (penultimate_dates b cs) = Some f /\
  forall valuation discount reference libor, libor = None \/ (exists k, cs = [k]) ->
    float_price f valuation discount reference libor =
      Some (map (fun x => reduce_sum (float_row valuation discount reference (fixing_of libor) c term_t (fst x) (flags b (snd x)) n (snd x))) ds).
Proof.
  intros TP. unfold float_setup. rewrite E. cbn [bind]. rewrite (accrual_ends term_t TP). cbn [bind]. eexists. split; [reflexivity|].
  rewrite (ds_width (@tl date)) by apply tl_length. rewrite (ds_fst k_notional), (ds_fst k_basis), (ds_fst k_multiplier), (ds_snd (@removelast date)), (ds_snd (@tl date)), (ds_snd (flags b)), !repeat_of_map, combine_maps, !map2_same, !concat_of_map, map_length, ds_len.
  intros valuation discount reference libor LI. unfold float_price. cbn [fl_start fl_end fl_accrual_end fl_notional fl_fractions fl_basis fl_multiplier fl_batch fl_count].
  assert (LB : broadcast (length (flat_map (fun x => removelast (snd x)) ds)) (libor_rates libor (length ds) n) = Some (flat_map (fun x => repeat (fixing_of libor) n) ds)).
  { assert (LR : forall l : list (contract * list date), (forall x, In x l -> In x ds) -> length (flat_map (fun x => removelast (snd x)) l) = (length l * n)%nat).
    { induction l as [|x l IH]; intros S; [reflexivity|]. cbn [flat_map length]. rewrite app_length, IH by (intros; apply S; right; assumption).
      rewrite removelast_length, (proj1 (ds_ok x (S x (or_introl eq_refl)))). unfold n. lia. }
    rewrite LR by auto. assert (ZR : libor_rates libor (length ds) n = flat_map (fun x => repeat (fixing_of libor) n) ds).
    { assert (Z0 : tf_repeat (repeat 0 (length ds)) n = flat_map (fun _ => repeat 0 n) ds).
      { unfold tf_repeat. generalize ds as l. induction l as [|x l IH]; [reflexivity|]. cbn. rewrite IH. reflexivity. }
      destruct libor as [r|]; cbn [libor_rates fixing_of]; [|exact Z0]. destruct (Req_EM_T r 0) as [->|NZ]; [exact Z0|].
      destruct LI as [LI|(k & EK)]; [discriminate|]. pose proof ds_len as DL. rewrite EK in DL. cbn in DL. destruct ds as [|x [|y r0]]; cbn in DL; try lia. cbn [flat_map]. rewrite app_nil_r. reflexivity. }
    rewrite ZR. unfold broadcast. replace (length (flat_map (fun _ => repeat (fixing_of libor) n) ds)) with (length ds * n)%nat; [rewrite Nat.eqb_refl; reflexivity|].
    clear. induction ds as [|x l IH]; [reflexivity|]. cbn [length flat_map]. rewrite app_length, repeat_length, <- IH. lia. }
  rewrite LB. cbn [bind]. f_equal. rewrite !flat_of_map. rewrite !flat_combine by lens2. rewrite flat2 by lens2. rewrite flat_combine by lens2. rewrite !flat2 by lens2. rewrite rows_flat by lens2. rewrite map_map. reflexivity.
Qed.
End Batch.

(** ** Sums over coupons *)
Lemma coupons_same st f l : over_coupons st f f l = over_periods f l.
Proof.
  destruct st; cbn [over_coupons]; [reflexivity|destruct l as [|x [|y l]]; reflexivity|].
  destruct l as [|x0 l0]; [cbn; ring|]. destruct (exists_last (l := x0 :: l0) ltac:(discriminate)) as (p & z & ->).
  rewrite removelast_snoc, rev_app_distr. cbn [rev app]. destruct p as [|y p'] eqn:EP; [cbn; ring|]. rewrite <- EP. clear x0 l0.
  destruct (exists_last (l := p) ltac:(congruence)) as (q & w & ->). rewrite rev_app_distr. cbn [rev app]. rewrite <- app_assoc. cbn [app].
  rewrite (periods_app f q w [z]). cbn. ring.
Qed.
Lemma periods_tail f g l : nondecreasing l -> (forall a c, In a l -> In c (tl l) -> (ordinal a <= ordinal c)%Z -> f a c = g a c) -> over_periods f l = over_periods g l.
Proof.
  unfold nondecreasing. induction 1 as [|a l S IH H]; intros X; [reflexivity|]. rewrite !periods_cons. rewrite IH.
  - f_equal. destruct l as [|y l]; [reflexivity|]. rewrite Forall_forall in H. apply X; [left; reflexivity|left; reflexivity|apply H; left; reflexivity].
  - intros x y Ix Iy. apply X; [right; exact Ix|]. cbn [tl]. destruct l as [|z l]; [destruct Iy|]. right. exact Iy.
Qed.
Lemma nondecr_app l x y : nondecreasing (l ++ [x; y]) -> nondecreasing (l ++ [x]) /\ (ordinal x <= ordinal y)%Z.
Proof.
  unfold nondecreasing. induction l as [|a l IH]; cbn [app].
  - intros S. inversion S as [|? ? S' H]; subst. rewrite Forall_forall in H. split; [repeat constructor|apply H; left; reflexivity].
  - intros S. inversion S as [|? ? S' H]; subst. destruct (IH S') as (A & B). split; [|exact B]. constructor; [exact A|].
    rewrite Forall_forall in H |- *. intros z I. apply H. apply in_app_or in I as [I|[<-|[]]]; apply in_or_app; [left; exact I|right; left; reflexivity].
Qed.
Lemma coupons_ext st f f' g g' l : nondecreasing l ->
  (forall a c, In a l -> In c (tl l) -> (ordinal a <= ordinal c)%Z -> f a c = f' a c /\ g a c = g' a c) -> over_coupons st f g l = over_coupons st f' g' l.
Proof.
  intros S X. destruct st; cbn [over_coupons].
  - apply periods_tail; [exact S|]. intros; apply X; assumption.
  - destruct l as [|x [|y l]]; [reflexivity|reflexivity|]. inversion S as [|? ? S' H]; subst. rewrite Forall_forall in H.
    rewrite (proj2 (X x y (or_introl eq_refl) (or_introl eq_refl) (H y (or_introl eq_refl)))). f_equal.
    apply periods_tail; [exact S'|]. intros a c Ia Ic O. apply X; [right; exact Ia| |exact O]. right. exact Ic.
  - destruct l as [|x0 l0]; [reflexivity|]. destruct (exists_last (l := x0 :: l0) ltac:(discriminate)) as (p & z & EQ). rewrite EQ in *. clear x0 l0 EQ.
    rewrite removelast_snoc, rev_app_distr. cbn [rev app]. destruct p as [|y p'] eqn:EP; [reflexivity|]. rewrite <- EP in *.
    destruct (exists_last (l := p) ltac:(congruence)) as (q & w & EQ). rewrite EQ in *. rewrite rev_app_distr. cbn [rev app]. rewrite <- app_assoc in S, X. cbn [app] in S, X.
    destruct (nondecr_app q w z S) as (S1 & O). f_equal.
    + apply periods_tail; [exact S1|]. intros a c Ia Ic Oac. apply X; [apply in_app_or in Ia as [Ia|[<-|[]]]; apply in_or_app; [left; exact Ia|right; left; reflexivity]| |exact Oac].
      destruct q as [|u q]; [destruct Ic|]. cbn [app tl] in *. apply in_app_or in Ic as [Ic|[<-|[]]]; apply in_or_app; [left; exact Ic|right; left; reflexivity].
    + apply X; [apply in_or_app; right; left; reflexivity| |exact O]. destruct q as [|u q]; cbn [app tl]; [left; reflexivity|apply in_or_app; right; right; left; reflexivity].
Qed.

Lemma some_contract b t cs : ok_batch b t cs -> cs <> [].
Proof. intros (_ & (k & I & _) & _) ->. destruct I. Qed.

(** Prices from the rows of the schedule. *)
Lemma fixed_rows b t cs c : ok_batch b t cs -> exists rows f, Forall2 (row_of b t) cs rows /\
  generate_schedule (map k_start cs) (map k_end cs) (map k_freq cs) t (first_dates b cs) (penultimate_dates b cs) = Some (rows, map (flags b) rows) /\
  fixed_setup (map k_start cs) (map k_end cs) (map k_freq cs) t (map k_notional cs) (map k_rate cs) c (first_dates b cs) (penultimate_dates b cs) = Some f /\
  (forall valuation discount, fixed_price f valuation discount = map (fun x => fixed_value valuation discount c (fst x) (snd x)) (combine cs rows)) /\
  (forall discount u, annuity f discount u =
     Some (map (fun x => over_periods (fun s e => (if u then 1 else k_notional (fst x)) * discount e * daycount_fraction c s e) (snd x)) (combine cs rows))).
Proof.
  intros OK. destruct (schedule_rows b t cs OK) as (rows & W & E & W2 & F). destruct (fixed_setup_ok b t cs rows W E F (some_contract b t cs OK) c) as (f & E1 & E2 & E3).
  exists rows, f. split; [eapply forall2_impl; [|exact F]; intros k l _ _ (_ & H); exact H|]. split; [exact E|]. split; [exact E1|].
  assert (LW : forall x, In x (combine cs rows) -> length (snd x) = W) by (intros x I; exact (proj1 (forall2_combine _ _ _ F x I))). split.
  - intros valuation discount. rewrite E2. apply map_ext_in. intros x I. rewrite <- (LW x I). apply fixed_row_sum.
  - intros discount u. rewrite E3 by lia. f_equal. apply map_ext_in. intros x I. rewrite <- (LW x I). generalize (snd x) as l.
    induction l as [|y [|z l] IH]; [reflexivity|reflexivity|]. rewrite periods_cons, <- IH.
    replace (length (y :: z :: l) - 1)%nat with (S (length (z :: l) - 1)) by (cbn; lia). reflexivity.
Qed.
Lemma float_rows b t cs c term_t : ok_batch b t cs -> (forall k, In k cs -> (0 < k_term k)%Z) -> exists rows f, Forall2 (row_of b t) cs rows /\
  generate_schedule (map k_start cs) (map k_end cs) (map k_freq cs) t (first_dates b cs) (penultimate_dates b cs) = Some (rows, map (flags b) rows) /\
  float_setup (map k_start cs) (map k_end cs) (map k_freq cs) t (map k_term cs) term_t (map k_notional cs) (map k_basis cs) (map k_multiplier cs) c (first_dates b cs) (penultimate_dates b cs) = Some f /\
  forall valuation discount reference libor, libor = None \/ (exists k, cs = [k]) ->
    float_price f valuation discount reference libor =
      Some (map (fun x => over_coupons b (float_code valuation discount reference (fixing_of libor) c term_t (fst x) true) (float_code valuation discount reference (fixing_of libor) c term_t (fst x) false) (snd x)) (combine cs rows)).
Proof.
  intros OK TP. destruct (schedule_rows b t cs OK) as (rows & W & E & W2 & F). destruct (float_setup_ok b t cs rows W E F (some_contract b t cs OK) (fun _ => W2) c term_t TP) as (f & E1 & E2).
  exists rows, f. split; [eapply forall2_impl; [|exact F]; intros k l _ _ (_ & H); exact H|]. split; [exact E|]. split; [exact E1|].
  assert (LW : forall x, In x (combine cs rows) -> length (snd x) = W) by (intros x I; exact (proj1 (forall2_combine _ _ _ F x I))).
  intros valuation discount reference libor LI. rewrite (E2 valuation discount reference libor LI). f_equal. apply map_ext_in. intros x I. rewrite <- (LW x I) in W2 |- *.
  rewrite (float_row_sum 0) by (apply (flags_length 0); intros _; exact W2). apply (flags_coupons 0). intros _; exact W2.
Qed.
Lemma forall2_of_combine {A B C} (P : A -> B -> Prop) (Q : A -> C -> Prop) (g : A * B -> C) a l :
  Forall2 P a l -> (forall x y, In x a -> P x y -> Q x (g (x, y))) -> Forall2 Q a (map g (combine a l)).
Proof. induction 1 as [|x y a l H F IH]; intros X; [constructor|]. cbn. constructor; [apply X; [left; reflexivity|exact H]|apply IH; intros; apply X; [right; assumption|assumption]]. Qed.

(** ** Theorems *)
(** Fixed coupons: the price of every contract is the value of its own coupons
    that have not been paid, whatever the other contracts of the batch. *)
Theorem C72_fixed_coupons b t cs c : ok_batch b t cs ->
  exists f, fixed_setup (map k_start cs) (map k_end cs) (map k_freq cs) t (map k_notional cs) (map k_rate cs) c (first_dates b cs) (penultimate_dates b cs) = Some f /\
    forall valuation discount, Forall2 (fun k v => exists l, contract_dates b t k l /\ v = fixed_value valuation discount c k l) cs (fixed_price f valuation discount).
Proof.
  intros OK. destruct (fixed_rows b t cs c OK) as (rows & f & F & _ & E & P & _). exists f. split; [exact E|]. intros valuation discount. rewrite P.
  apply (forall2_of_combine (row_of b t)); [exact F|]. cbn [fst snd]. intros k l _ (l0 & D & _ & _ & _ & X). exists l0. split; [exact D|].
  unfold fixed_value. rewrite <- (coupons_same b). rewrite X; [apply coupons_same|]. intros x Dx. rewrite (fraction_same c x Dx). unfold value_of. destruct (_ <=? _)%Z; ring.
Qed.
(** Bonds: coupons and the principal at maturity. *)
Theorem C72_bond b t cs c valuation discount : ok_batch b t cs ->
  exists prices, bond_price (map k_start cs) (map k_end cs) None (map k_freq cs) t (map k_notional cs) (map k_rate cs) c (first_dates b cs) (penultimate_dates b cs) valuation discount = Some prices /\
    Forall2 (fun k v => exists l, contract_dates b t k l /\ v = fixed_value valuation discount c k l + k_notional k * discount (k_end k)) cs prices.
Proof.
  intros OK. destruct (C72_fixed_coupons b t cs c OK) as (f & E & P). unfold bond_price. rewrite E. eexists. split; [reflexivity|].
  unfold add_principal. rewrite map_map, map2_same. specialize (P valuation discount). clear OK E. revert P. generalize (fixed_price f valuation discount) as vs. clear f. induction cs as [|k cs IH]; intros vs P.
  - inversion P; subst. constructor.
  - inversion P as [|? v ? vs' (l & D & ->) P']; subst. unfold map2 in *. cbn. constructor; [exists l; split; [exact D|reflexivity]|apply IH; exact P'].
Qed.

Lemma float_code_value valuation discount reference fixing c term_t k r s e : is_date s -> is_date e -> (ordinal s <= ordinal e)%Z ->
  (ordinal valuation <= ordinal e)%Z \/ k_basis k = 0 ->
  float_code valuation discount reference fixing c term_t k r s e = floating_coupon valuation discount reference fixing c k s e (if r then plus s (mk_period (k_term k) term_t) else e).
Proof.
  intros Ds De O H. unfold float_code, floating_coupon, floating_rate, value_of, date_ltb, get_forward_rate. pose proof (fraction_nonneg c s e Ds De O) as N.
  destruct (Z.ltb_spec (ordinal e) (ordinal valuation)), (Z.leb_spec (ordinal valuation) (ordinal e)); try lia.
  - destruct H as [H|H]; [lia|]. rewrite H. ring.
  - destruct (ordinal s <? ordinal valuation)%Z; [ring|]. destruct (Rlt_dec 0 (daycount_fraction c s e)); [ring|].
    replace (daycount_fraction c s e) with 0 by lra. ring.
Qed.
(** Floating coupons, as long as no coupon with a basis has been paid. *)
Theorem C72_floating_coupons_partial b t cs c term_t : ok_batch b t cs -> (forall k, In k cs -> (0 < k_term k)%Z) ->
  exists f, float_setup (map k_start cs) (map k_end cs) (map k_freq cs) t (map k_term cs) term_t (map k_notional cs) (map k_basis cs) (map k_multiplier cs) c (first_dates b cs) (penultimate_dates b cs) = Some f /\
    forall valuation discount reference libor, libor = None \/ (exists k, cs = [k]) ->
      (forall k l d, In k cs -> k_basis k <> 0 -> contract_dates b t k l -> In d (tl l) -> (ordinal valuation <= ordinal d)%Z) ->
      exists prices, float_price f valuation discount reference libor = Some prices /\
        Forall2 (fun k v => exists l, contract_dates b t k l /\ v = floating_value b valuation discount reference (fixing_of libor) c term_t k l) cs prices.
Proof.
  intros OK TP. destruct (float_rows b t cs c term_t OK TP) as (rows & f & F & _ & E & P). exists f. split; [exact E|]. intros valuation discount reference libor LI PA.
  eexists. split; [apply (P valuation discount reference libor LI)|].
  apply (forall2_of_combine (row_of b t)); [exact F|]. cbn [fst snd]. intros k l Ik (l0 & D & _ & DL & S & X). exists l0. split; [exact D|].
  rewrite X; [|intros x Dx; unfold float_code; rewrite (fraction_same c x Dx); ring]. unfold floating_value. apply coupons_ext; [exact S|].
  intros s e Is Ie O. rewrite Forall_forall in DL. assert (Ie' : In e l0) by (destruct l0; [destruct Ie|right; exact Ie]).
  assert (H : (ordinal valuation <= ordinal e)%Z \/ k_basis k = 0) by (destruct (Req_EM_T (k_basis k) 0) as [Z|NZ]; [right; exact Z|left; exact (PA k l0 e Ik NZ D Ie)]).
  split; [exact (float_code_value _ _ _ _ _ _ _ true s e (DL s Is) (DL e Ie') O H)|exact (float_code_value _ _ _ _ _ _ _ false s e (DL s Is) (DL e Ie') O H)].
Qed.
