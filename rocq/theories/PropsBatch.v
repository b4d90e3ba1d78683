(** C95: reading a portfolio of contract messages puts every contract into exactly
    one batch, with its own terms. *)
From Coq Require Import String Reals Lra ZArith Lia List Bool Permutation.
From Verif Require Import TensorModel IntegrateModel SegmentModel DateModel BoundedCalModel ScheduleModel RatesModel InstrumentModel PlatformModel BatchModel BatchSpec BatchProofs PropsPlatform2.
Import ListNotations.
Open Scope nat_scope.

(** ** The groups *)
Theorem C95_groups {M} hasher (k : M -> key) l : separates hasher k l -> exists d, group_protos hasher k l = Some d /\
  partition (fun p q => k p = k q) l (map snd d) /\ NoDup (map fst d) /\ forall h g p, In (h, g) d -> In p g -> hasher (k p) = h.
Proof.
  intros SP. destruct (loop_spec (fun m => hasher (k m)) (fun m => [m]) (fun g m => Some (g ++ [m])) (fun g v => v = g) (fun _ => True)) with (l := l) as (hs & d & D1 & D2 & D3).
  - reflexivity.
  - intros g v m _ _ _ ->. exists (g ++ [m]). split; reflexivity.
  - trivial.
  - exists d. split; [exact D1|].
    assert (E : map snd d = map (fun h => of_hash (fun m => hasher (k m)) h l) hs /\ map fst d = hs).
    { clear - D3. induction D3 as [|h kv hs d [E1 E2] F [IH1 IH2]]; [split; reflexivity|]. cbn. rewrite E1, E2, IH1, IH2. split; reflexivity. }
    destruct E as (E1 & E2). rewrite E1, E2. split; [|split; [apply D2|]].
    + apply classes_partition; [exact D2|]. intros p q P Q. split; [apply SP; assumption|congruence].
    + intros h g p IN P. clear - D3 IN P. induction D3 as [|h' kv hs d [E1 E2] F IH]; [destruct IN|].
      destruct IN as [IN|IN]; [|apply IH; exact IN]. rewrite IN in E1, E2. cbn in E1, E2. subst g h'. apply of_hash_in in P. tauto.
Qed.

(** ** Swaps *)
Lemma amount_double d : decimal_to_double d = amount d.
Proof. unfold decimal_to_double, amount. f_equal. unfold Rdiv. f_equal. rewrite Rmult_1_l. f_equal. cbn. lra. Qed.

Lemma conventions_key p q : plain_swap p -> plain_swap q -> (swap_key_v2 p = swap_key_v2 q <-> same_conventions p q).
Proof.
  intros P Q. unfold same_conventions.
  assert (PL : forall m l, plain_swap m -> l = fst (legs_in_order m) \/ l = snd (legs_in_order m) -> forall x, In x (leg_periods l) -> p_type x <> 5%Z).
  { intros m l PM IL. apply (PM l). unfold legs_in_order in IL. destruct (pays_floating_for_fixed m); cbn in IL; tauto. }
  assert (LK : forall a b, (forall x, In x (leg_periods a) -> p_type x <> 5%Z) -> (forall x, In x (leg_periods b) -> p_type x <> 5%Z) -> (leg_key a = leg_key b <-> kind_of a = kind_of b)).
  { intros a b A B. split.
    - intros E. apply leg_key_inj in E. destruct a as [a|a], b as [b|b]; try contradiction; cbn in *.
      + rewrite !ym_plain in E by auto. destruct E as (-> & -> & ->). reflexivity.
      + rewrite !ym_plain in E by auto 6. destruct E as (-> & -> & -> & ->). reflexivity.
    - destruct a as [a|a], b as [b|b]; cbn; try discriminate; intros E; injection E; clear E; intros; unfold leg_key; cbn -[Z.eqb];
        repeat match goal with H : _ = _ |- _ => rewrite H; clear H end; reflexivity. }
  split.
  - intros E. apply same_key in E. destruct E as (E1 & E2 & E3). split; [|split; [|exact E3]]; apply LK; eauto.
  - intros (E1 & E2 & E3). rewrite !key_legs. apply LK in E1; [|eauto|eauto]. apply LK in E2; [|eauto|eauto]. rewrite E1, E2, E3. reflexivity.
Qed.

Lemma nth_f2 {A B} (P : A -> B -> Prop) a b i x : Forall2 P a b -> nth_error a i = Some x -> exists y, nth_error b i = Some y /\ P x y.
Proof.
  intros F. revert i. induction F as [|u v a b E F IH]; intros [|i] N; cbn in N; try discriminate; [injection N as <-; exists v; split; [reflexivity|exact E]|].
  exact (IH i N).
Qed.
Lemma nth_combine {A B} (a : list A) (b : list B) i x y : nth_error a i = Some x -> nth_error b i = Some y -> nth_error (combine a b) i = Some (x, y).
Proof. revert b i. induction a as [|u a IH]; intros [|v b] [|i]; cbn; try discriminate; [intros E F; injection E as ->; injection F as ->; reflexivity|apply IH]. Qed.

Definition signed (m : swap_message) (t : leg_terms) : leg_terms := if pays_floating_for_fixed m then opposite t else t.
Lemma rep_leg_entry sel g l : (forall p q, In p g -> In q g -> leg_key (sel p) = leg_key (sel q) /\ leg_calendar (sel p) = leg_calendar (sel q)) ->
  (forall p, In p g -> forall x, In x (leg_periods (sel p)) -> p_type x <> 5%Z) -> rep_leg sel g l ->
  leg_size l (length g) /\ forall i p, nth_error g i = Some p -> leg_entry l i (signed p (agreed_leg (sel p))).
Proof.
  intros SK PL RL. destruct g as [|first g']; [destruct RL|]. unfold rep_leg in RL. remember (first :: g') as g eqn:EG.
  assert (IF : In first g) by (rewrite EG; left; reflexivity).
  destruct (sel first) as [a|a] eqn:EF, l as [s|s]; try contradiction.
  - destruct RL as (ms & F & A1 & A2 & A3 & A4 & A5 & A6 & A7 & A8). pose proof (f2_len _ _ _ F) as FL. split.
    + cbn. rewrite A1, A2, A3, A4, A5. cbn [snd]. rewrite !map_length, combine_length, <- FL, Nat.min_id. tauto.
    + intros i p N. destruct (nth_f2 _ _ _ _ _ F N) as (b & N2 & EP).
      destruct (SK first p IF (nth_error_In _ _ N)) as (K1 & K2). rewrite EF, EP in K1, K2. apply leg_key_inj in K1. cbn in K1, K2. destruct K1 as (K3 & K4 & K5).
      assert (Y : p_type (xm_frequency b) <> 5%Z) by (apply (PL p (nth_error_In _ _ N)); rewrite EP; left; reflexivity). rewrite (ym_plain _ Y) in K3.
      pose proof (nth_combine _ _ _ _ _ N N2) as N3.
      rewrite EP. unfold signed, sign in *. cbn [agreed_leg].
      assert (G : forall n, n = (if pays_floating_for_fixed p then - amount (xm_notional b) else amount (xm_notional b))%R ->
        leg_entry (FixedLegS s) i (FixedTerms (xm_currency b) (agreed_period (xm_frequency b)) n (amount (xm_rate b)) (xm_settlement b) (xm_rule b) (xm_daycount b) (xm_holidays b))).
      { intros n ->. cbn [leg_entry]. rewrite A1, A2, A3, A4, A5, A6, A7, A8. cbn [fst snd]. rewrite !nth_error_map, N2, N3. cbn. rewrite amount_double, K3, K4, K5, K2.
        repeat split; auto; try (rewrite amount_double; reflexivity). f_equal. destruct (pays_floating_for_fixed p); lra. }
      destruct (pays_floating_for_fixed p); apply G; reflexivity.
  - destruct RL as (ms & F & A1 & A2 & A3 & A4 & A5 & A6 & A7 & A8 & A9 & A10). pose proof (f2_len _ _ _ F) as FL. split.
    + cbn. rewrite A1, A2, A3, A4, A5, A6, A9. cbn [snd]. rewrite !map_length, combine_length, <- FL, Nat.min_id. tauto.
    + intros i p N. destruct (nth_f2 _ _ _ _ _ F N) as (b & N2 & EP).
      destruct (SK first p IF (nth_error_In _ _ N)) as (K1 & K2). rewrite EF, EP in K1, K2. apply leg_key_inj in K1. cbn in K1, K2. destruct K1 as (K3 & K6 & K4 & K5).
      assert (Y : p_type (fm_frequency b) <> 5%Z) by (apply (PL p (nth_error_In _ _ N)); rewrite EP; left; reflexivity). rewrite (ym_plain _ Y) in K3.
      assert (Y' : p_type (fm_reset b) <> 5%Z) by (apply (PL p (nth_error_In _ _ N)); rewrite EP; right; left; reflexivity). rewrite (ym_plain _ Y') in K6.
      pose proof (nth_combine _ _ _ _ _ N N2) as N3.
      rewrite EP. unfold signed, sign in *. cbn [agreed_leg].
      assert (G : forall n, n = (if pays_floating_for_fixed p then - amount (fm_notional b) else amount (fm_notional b))%R ->
        leg_entry (FloatLegS s) i (FloatTerms (fm_currency b) (agreed_period (fm_frequency b)) (agreed_period (fm_reset b)) n (amount (fm_spread b)) (fm_index b) (fm_settlement b) (fm_rule b) (fm_daycount b) (fm_holidays b))).
      { intros n ->. cbn [leg_entry]. rewrite A1, A2, A3, A4, A5, A6, A7, A8, A9, A10. cbn [fst snd]. rewrite !nth_error_map, N2, N3. cbn. rewrite !amount_double, K3, K6, K4, K5, K2.
        repeat split; auto. f_equal. destruct (pays_floating_for_fixed p); lra. }
      destruct (pays_floating_for_fixed p); apply G; reflexivity.
Qed.

(** the terms a contract has in its batch: its own, or the same contract seen from
    the other side *)
Definition batched (p : swap_message) : swap_terms := if pays_floating_for_fixed p then mirrored (agreed p) else agreed p.

Lemma sides m : (pay_side m = w_pay m /\ receive_side m = w_receive m) \/ (pay_side m = w_receive m /\ receive_side m = w_pay m).
Proof. unfold pay_side, receive_side, legs_in_order. destruct (pays_floating_for_fixed m); tauto. Qed.

Lemma rep_swap_entry g b : (forall p q, In p g -> In q g -> swap_key_v2 p = swap_key_v2 q) -> (forall p, In p g -> plain_swap p) -> rep_swap g b ->
  swap_size b (length g) /\ forall i p, nth_error g i = Some p -> swap_entry b i (batched p).
Proof.
  intros SK PL (B1 & B2 & B3 & B4 & B5).
  assert (H : forall sel, sel = pay_side \/ sel = receive_side -> forall p q, In p g -> In q g -> leg_key (sel p) = leg_key (sel q) /\ leg_calendar (sel p) = leg_calendar (sel q)).
  { intros sel S0 p q P Q. pose proof (same_key p q (SK p q P Q)) as (K1 & K2 & K3).
    assert (C : forall m, In m g -> leg_calendar (sel m) = w_holidays m).
    { intros m IM. destruct S0; subst sel; destruct (sides m) as [(Z1 & Z2)|(Z1 & Z2)]; rewrite ?Z1, ?Z2; apply (PL m IM); tauto. }
    split; [destruct S0; subst sel; assumption|]. rewrite !C by assumption. exact K3. }
  assert (H5 : forall sel, sel = pay_side \/ sel = receive_side -> forall p, In p g -> forall x, In x (leg_periods (sel p)) -> p_type x <> 5%Z).
  { intros sel S0 p P. destruct S0; subst sel; destruct (sides p) as [(Z1 & Z2)|(Z1 & Z2)]; rewrite ?Z1, ?Z2; apply (PL p P); tauto. }
  destruct (rep_leg_entry pay_side g (b_pay b) (H _ (or_introl eq_refl)) (H5 _ (or_introl eq_refl)) B4) as (P1 & P2).
  destruct (rep_leg_entry receive_side g (b_receive b) (H _ (or_intror eq_refl)) (H5 _ (or_intror eq_refl)) B5) as (R1 & R2).
  split.
  - unfold swap_size. rewrite B1, B2, B3, !map_length. tauto.
  - intros i p N. specialize (P2 i p N). specialize (R2 i p N). unfold swap_entry, batched. rewrite B1, B2, B3, !nth_error_map, N. cbn [option_map].
    unfold signed, pay_side, receive_side, legs_in_order in P2, R2. destruct (pays_floating_for_fixed p); cbn in *; tauto.
Qed.

Lemma swaps_rep hasher ps : separates hasher swap_key_v2 ps ->
  exists hs d, swaps_from_protos_v2 hasher ps = Some d /\ keys_ok (fun m => hasher (swap_key_v2 m)) hs ps /\
    Forall2 (fun h kv => fst kv = h /\ rep_swap (of_hash (fun m => hasher (swap_key_v2 m)) h ps) (snd kv)) hs d.
Proof.
  intros SP. unfold swaps_from_protos_v2.
  apply (loop_spec (fun m => hasher (swap_key_v2 m)) _ _ rep_swap (fun m => In m ps)); [| |auto].
  - intros m _. rewrite legs_of_spec. unfold rep_swap. cbn [b_start b_maturity b_names b_pay b_receive]. repeat split; apply rep_one.
  - intros g v m NE G IM (B1 & B2 & B3 & B4 & B5). rewrite legs_of_spec.
    assert (SK : forall p, In p g -> swap_key_v2 p = swap_key_v2 m).
    { intros p P. destruct (G p P) as (G1 & G2). apply SP; assumption. }
    destruct (rep_more pay_side g m (b_pay v) NE) as (l1 & U1 & U2); [intros p P; apply (same_key p m (SK p P))|exact B4|].
    destruct (rep_more receive_side g m (b_receive v) NE) as (l2 & U3 & U4); [intros p P; apply (same_key p m (SK p P))|exact B5|].
    rewrite U1. cbn [bind]. rewrite U3. cbn [option_map]. eexists; split; [reflexivity|].
    unfold rep_swap. cbn [b_start b_maturity b_names b_pay b_receive]. rewrite B1, B2, B3, !map_app. repeat split; assumption.
Qed.

Theorem C95_swaps hasher ps : separates hasher swap_key_v2 ps -> (forall p, In p ps -> plain_swap p) ->
  exists gs d, swaps_from_protos_v2 hasher ps = Some d /\ partition same_conventions ps gs /\
    Forall2 (fun g kv => swap_size (snd kv) (length g) /\ forall i p, nth_error g i = Some p -> swap_entry (snd kv) i (batched p)) gs d /\
    group_protos hasher swap_key_v2 ps = Some (combine (map fst d) gs).
Proof.
  intros SP PL. destruct (swaps_rep hasher ps SP) as (hs & d & D1 & D2 & D3).
  exists (map (fun h => of_hash (fun m => hasher (swap_key_v2 m)) h ps) hs), d. split; [exact D1|]. split; [|split].
  - apply classes_partition; [exact D2|]. intros p q P Q. rewrite <- (conventions_key p q (PL p P) (PL q Q)). split; [apply SP; assumption|congruence].
  - clear D1 D2. induction D3 as [|h kv hs d [E1 E2] F IH]; constructor; [|exact IH].
    apply rep_swap_entry; [| |exact E2].
    + intros p q P Q. apply of_hash_in in P, Q. apply SP; [tauto|tauto|]. destruct P as (_ & ->), Q as (_ & ->). reflexivity.
    + intros p P. apply of_hash_in in P. apply PL. tauto.
  - unfold group_protos.
    assert (U : forall g v m, g <> [] -> (forall p, In p g -> True /\ hasher (swap_key_v2 p) = hasher (swap_key_v2 m)) -> True -> v = g -> exists v', Some (v ++ [m]) = Some v' /\ v' = g ++ [m]).
    { intros g v m _ _ _ ->. exists (g ++ [m]). split; reflexivity. }
    unfold swaps_from_protos_v2 in D1.
    destruct (loop_rep (fun m => hasher (swap_key_v2 m)) (fun m : swap_message => [m]) (fun g m => Some (g ++ [m])) (fun g v => v = g) (fun _ => True) (fun m _ => eq_refl) U ps [] [] []) as (d2 & L1 & _ & L3).
    { split; [constructor|]. intros h. split; [intros []|intros (m & [] & _)]. }
    { trivial. } { constructor. }
    cbn [app] in L3.
    assert (HK : keys_of (fun m => hasher (swap_key_v2 m)) [] ps = hs).
    { clear - D1 D3 SP PL.
      assert (KD : forall (V1 V2 : Type) (f1 : swap_message -> V1) (u1 : V1 -> swap_message -> option V1) l (d1 : list (string * V1)) d1',
        batch_loop (fun m => hasher (swap_key_v2 m)) f1 u1 l d1 = Some d1' -> map fst d1' = keys_of (fun m => hasher (swap_key_v2 m)) (map fst d1) l).
      { intros V1 _ f1 u1 l. induction l as [|m l IH]; intros d1 d1' E; cbn in *; [congruence|].
        destruct (add_to (hasher (swap_key_v2 m)) (f1 m) (fun v => u1 v m) d1) as [d0|] eqn:A; [|discriminate]. rewrite (IH _ _ E). f_equal.
        clear - A. revert d0 A. induction d1 as [|[k v] d1 IH]; intros d0 A; cbn in *; [injection A as <-; reflexivity|].
        destruct (String.eqb (hasher (swap_key_v2 m)) k) eqn:Q.
        - destruct (u1 v m); [|discriminate]. injection A as <-. reflexivity.
        - destruct (add_to (hasher (swap_key_v2 m)) (f1 m) (fun v0 => u1 v0 m) d1) as [d2|]; [|discriminate]. injection A as <-. cbn. rewrite (IH _ eq_refl).
          destruct (existsb (String.eqb (hasher (swap_key_v2 m))) (map fst d1)); reflexivity. }
      pose proof (KD _ unit _ _ _ [] _ D1) as KE. cbn [map] in KE. rewrite <- KE. clear - D3. induction D3 as [|h kv hs d [E1 _] F IH]; [reflexivity|]. cbn. congruence. }
    rewrite HK in L3. rewrite L1. f_equal. clear - D3 L3. revert d D3. induction L3 as [|h [k v] hs d2 [E1 E2] F IH]; intros d D3; inversion D3 as [|? kv ? d' [E3 _] F']; subst; [reflexivity|].
    cbn in *. rewrite (IH d' F'). congruence.
Qed.

(** both directions of the batch hold the same value: C93's value of a contract with
    legs on given dates *)
Definition leg_on (tau : Z -> day_count) (unit_of : Z -> period_type) (past : option R) (dates : list date) (t : leg_terms) : leg :=
  match t with
  | FixedTerms _ _ n r _ _ y _ => FixedLeg (tau y) n r dates
  | FloatTerms _ _ f n p _ _ _ y _ => FloatLeg (tau y) (mk_period (snd f) (unit_of (fst f))) n p past dates
  end.
Definition value_on (tau : Z -> day_count) (unit_of : Z -> period_type) (past : option R) (dates : leg_terms -> list date)
    (valuation : date) (discount reference : date -> R) (data : option fixing_data) (t : swap_terms) : option R :=
  swap_value (leg_on tau unit_of past (dates (st_pay t)) (st_pay t)) (leg_on tau unit_of past (dates (st_receive t)) (st_receive t)) valuation discount reference data.

Lemma map2_neg {A B} (f g : A -> B -> R) a b : (forall x y, g x y = - f x y)%R -> map2 g a b = map Ropp (map2 f a b).
Proof. intros E. unfold map2. rewrite map_map. apply map_ext. intros [x y]. apply E. Qed.
Lemma sum_neg l : reduce_sum (map Ropp l) = (- reduce_sum l)%R.
Proof. unfold reduce_sum. induction l as [|x l IH]; cbn; [lra|]. rewrite IH. lra. Qed.
Lemma mul_neg_l a b : map2 Rmult (map Ropp a) b = map Ropp (map2 Rmult a b).
Proof. unfold map2. revert b. induction a as [|x a IH]; intros [|y b]; cbn; try reflexivity. rewrite IH. f_equal. lra. Qed.
Lemma broadcast_neg {A B} (f g : A -> B -> R) a b : (forall x y, g x y = - f x y)%R -> broadcast2 g a b = option_map (map Ropp) (broadcast2 f a b).
Proof.
  intros E. unfold broadcast2. destruct (Nat.eqb (length a) (length b)); cbn; [f_equal; apply map2_neg; exact E|].
  assert (M1 : forall x, map (g x) b = map Ropp (map (f x) b)) by (intros x; rewrite map_map; apply map_ext; intros y; apply E).
  assert (M2 : forall y, map (fun x => g x y) a = map Ropp (map (fun x => f x y) a)) by (intros y; rewrite map_map; apply map_ext; intros x; apply E).
  destruct a as [|x [|x' a]]; destruct b as [|y [|y' b]]; cbn in *; try reflexivity; rewrite ?M1, ?M2; try reflexivity.
Qed.
Lemma broadcast_map_l {A B C D} (f : B -> C -> D) (h : A -> B) a b : broadcast2 f (map h a) b = broadcast2 (fun x y => f (h x) y) a b.
Proof.
  unfold broadcast2. rewrite map_length. destruct (Nat.eqb (length a) (length b)).
  - f_equal. unfold map2. revert b. induction a as [|x a IH]; intros [|y b]; cbn; try reflexivity. rewrite IH. reflexivity.
  - destruct a as [|x [|x' a]]; [reflexivity|reflexivity|]. destruct b as [|y [|y' b]]; [reflexivity| |reflexivity].
    cbn [map]. rewrite map_map. reflexivity.
Qed.
Lemma broadcast_neg_l a b : broadcast2 Rmult (map Ropp a) b = option_map (map Ropp) (broadcast2 Rmult a b).
Proof. rewrite broadcast_map_l. apply broadcast_neg. intros. lra. Qed.
Lemma opposite_price tau u past dates v disc ref data t :
  leg_price v disc ref data (leg_on tau u past dates (opposite t)) = option_map Ropp (leg_price v disc ref data (leg_on tau u past dates t)).
Proof.
  destruct t as [c e n r d w y k|c e f n p x d w y k]; cbn [opposite leg_on leg_price option_map].
  - f_equal. unfold fixed_stream_price, fixed_cashflows. rewrite (map2_neg (fun d0 fr => n * ((if date_geb d0 v then 1 else 0) * fr * r))%R (fun d0 fr => - n * ((if date_geb d0 v then 1 else 0) * fr * r))%R) by (intros; ring).
    rewrite mul_neg_l, sum_neg. reflexivity.
  - destruct (past_of past data v dates) as [q|]; cbn [bind option_map]; [|reflexivity]. unfold float_stream_price, float_cashflows.
    destruct (float_rates (tau y) (mk_period (snd f) (u (fst f))) v ref q dates) as [rates|]; cbn [bind option_map]; [|reflexivity].
    rewrite (broadcast_neg (fun fr r => n * (fr * (r + p)))%R (fun fr r => - n * (fr * (r + p)))%R) by (intros; ring).
    destruct (broadcast2 (fun fr r => n * (fr * (r + p)))%R (fractions_of (tau y) dates) rates) as [cf|]; cbn [bind option_map]; [|reflexivity].
    rewrite broadcast_neg_l. destruct (broadcast2 Rmult cf (map disc (tl dates))) as [z|]; cbn [option_map]; [|reflexivity]. rewrite sum_neg. reflexivity.
Qed.
Theorem C95_mirrored tau unit_of past dates valuation discount reference data t : (forall l, dates (opposite l) = dates l) ->
  value_on tau unit_of past dates valuation discount reference data (mirrored t) = value_on tau unit_of past dates valuation discount reference data t.
Proof.
  intros D. unfold value_on, mirrored, swap_value. cbn [st_pay st_receive]. rewrite !D, !opposite_price.
  destruct (leg_price valuation discount reference data (leg_on tau unit_of past (dates (st_receive t)) (st_receive t))) as [a|],
    (leg_price valuation discount reference data (leg_on tau unit_of past (dates (st_pay t)) (st_pay t))) as [b|]; cbn; try reflexivity. f_equal. lra.
Qed.
Theorem C95_value tau unit_of past dates valuation discount reference data p : (forall l, dates (opposite l) = dates l) ->
  value_on tau unit_of past dates valuation discount reference data (batched p) = value_on tau unit_of past dates valuation discount reference data (agreed p).
Proof. intros D. unfold batched. destruct (pays_floating_for_fixed p); [apply C95_mirrored; exact D|reflexivity]. Qed.

(** ** The instruments *)
Lemma known_from t amounts : (t = 1 \/ t = 2 \/ t = 3)%Z -> exists u, period_from_list (t, amounts) = Some (u, amounts).
Proof. intros [->|[->| ->]]; eexists; reflexivity. Qed.
Lemma same_strings_refl l : same_strings l l = true.
Proof. induction l as [|x l IH]; cbn; [reflexivity|]. rewrite String.eqb_refl. exact IH. Qed.
Lemma nth_all {A} (a b : list A) : length a = length b -> (forall i x y, nth_error a i = Some x -> nth_error b i = Some y -> x = y) -> a = b.
Proof.
  revert b. induction a as [|x a IH]; intros [|y b] L E; cbn in *; try discriminate; [reflexivity|]. f_equal; [exact (E 0 x y eq_refl eq_refl)|].
  apply IH; [congruence|]. intros i. exact (E (S i)).
Qed.
Lemma map_opt_all {A B} (f : A -> option B) (g : A -> B) l : (forall x, In x l -> f x = Some (g x)) -> map_opt f l = Some (map g l).
Proof. induction l as [|x l IH]; intros E; cbn; [reflexivity|]. rewrite E by (left; reflexivity). rewrite IH by (intros y Y; apply E; right; exact Y). reflexivity. Qed.

Theorem C95_instruments hasher ps : separates hasher swap_key_v2 ps -> (forall p, In p ps -> usable_swap p) ->
  exists gs bs, swap_instruments hasher ps = Some bs /\ partition same_conventions ps gs /\
    Forall2 (fun g b => swap_size b (length g) /\ forall i p, nth_error g i = Some p -> swap_entry b i (batched p)) gs bs.
Proof.
  intros SP US. destruct (C95_swaps hasher ps SP) as (gs & d & D1 & D2 & D3 & _); [intros p P; apply (US p P)|].
  assert (D3' : Forall2 (fun g b => swap_size b (length g) /\ forall i p, nth_error g i = Some p -> swap_entry b i (batched p)) gs (map snd d)).
  { clear - D3. induction D3; cbn; constructor; assumption. }
  exists gs, (map snd d). split; [|split; [exact D2|exact D3']].
  unfold swap_instruments. rewrite D1. cbn [bind]. apply map_opt_all. intros [h b] IB.
  assert (G : exists g, g <> [] /\ (forall p, In p g -> In p ps) /\ swap_size b (length g) /\ forall i p, nth_error g i = Some p -> swap_entry b i (batched p)).
  { destruct D2 as (_ & DG). clear D1 SP US D3'. induction D3 as [|g kv gs d E F IH]; [destruct IB|]. destruct IB as [IB|IB].
    - exists g. subst kv. destruct (DG g (or_introl eq_refl)) as (N & (keep & K) & _). split; [exact N|]. split; [|exact E].
      intros p P. rewrite K in P. apply filter_In in P. tauto.
    - apply IH; [intros q Q; apply DG; right; exact Q|exact IB]. }
  destruct G as (g & NE & IG & SZ & EN). cbn [snd].
  destruct g as [|p g']; [congruence|].
  pose proof (EN 0 p eq_refl) as (_ & _ & _ & EP & ER).
  assert (UP : usable_swap p) by (apply US, IG; left; reflexivity). destruct UP as (_ & _ & KP).
  assert (FQ : forall l t, leg_entry l 0 t -> (forall x, (match t with FixedTerms _ e _ _ _ _ _ _ => x = e | FloatTerms _ e f _ _ _ _ _ _ _ => x = e \/ x = f end) -> (fst x = 1 \/ fst x = 2 \/ fst x = 3)%Z) ->
    exists u, frequency_of_spec l = Some u).
  { intros [s|s] [c e n r dd w y k|c e f n q x dd w y k] LE KX; cbn in LE; try contradiction.
    - destruct LE as (_ & E1 & _). destruct (known_from (fst e) (snd (xs_frequency s)) (KX e eq_refl)) as (u & U). exists [(u, snd (xs_frequency s))].
      unfold frequency_of_spec. cbn [map_opt]. rewrite (surjective_pairing (xs_frequency s)), E1, U. reflexivity.
    - destruct LE as (_ & E1 & _ & E2 & _). destruct (known_from (fst e) (snd (fs_frequency s)) (KX e (or_introl eq_refl))) as (u & U).
      destruct (known_from (fst f) (snd (fs_reset s)) (KX f (or_intror eq_refl))) as (u' & U'). exists [(u, snd (fs_frequency s)); (u', snd (fs_reset s))].
      unfold frequency_of_spec. cbn [map_opt]. rewrite (surjective_pairing (fs_frequency s)), E1, U, (surjective_pairing (fs_reset s)), E2, U'. reflexivity. }
  assert (TP : forall t, t = st_pay (batched p) \/ t = st_receive (batched p) ->
     forall x, (match t with FixedTerms _ e _ _ _ _ _ _ => x = e | FloatTerms _ e f _ _ _ _ _ _ _ => x = e \/ x = f end) -> (fst x = 1 \/ fst x = 2 \/ fst x = 3)%Z).
  { intros t T x X.
    assert (Q : exists l, (l = w_pay p \/ l = w_receive p) /\ (t = agreed_leg l \/ t = opposite (agreed_leg l))).
    { unfold batched in T. destruct (pays_floating_for_fixed p); cbn in T; destruct T; subst t; eauto 6. }
    destruct Q as (l & L1 & L2). specialize (KP l L1). destruct l as [m|m], L2; subst t; cbn in X, KP.
    - subst x. apply KP. left; reflexivity.
    - subst x. apply KP. left; reflexivity.
    - destruct X; subst x; apply KP; tauto.
    - destruct X; subst x; apply KP; tauto. }
  destruct (FQ _ _ EP (TP _ (or_introl eq_refl))) as (u1 & ->). destruct (FQ _ _ ER (TP _ (or_intror eq_refl))) as (u2 & ->). cbn [bind].
  assert (CU : currencies_of (b_pay b) = currencies_of (b_receive b)).
  { destruct SZ as (_ & _ & _ & S1 & S2). remember (p :: g') as g eqn:EG.
    assert (L1 : length (currencies_of (b_pay b)) = length g) by (destruct (b_pay b); apply S1).
    assert (L2 : length (currencies_of (b_receive b)) = length g) by (destruct (b_receive b); apply S2).
    apply nth_all; [congruence|]. intros i x y X Y.
    assert (LT : i < length g) by (rewrite <- L1; apply nth_error_Some; congruence).
    destruct (nth_error g i) as [q|] eqn:N; [|apply nth_error_None in N; lia].
    destruct (EN i q N) as (_ & _ & _ & E1 & E2).
    destruct (US q (IG q (nth_error_In _ _ N))) as (_ & CQ & _).
    assert (CE : forall l t z, leg_entry l i t -> nth_error (currencies_of l) i = Some z -> z = match t with FixedTerms c _ _ _ _ _ _ _ => c | FloatTerms c _ _ _ _ _ _ _ _ _ => c end).
    { intros [s|s] [c e n r dd w yy k|c e f n qq xx dd w yy k] z LE Z; cbn in LE, Z; try contradiction; destruct LE as (LE & _); congruence. }
    rewrite (CE _ _ _ E1 X), (CE _ _ _ E2 Y). unfold batched. destruct (pays_floating_for_fixed q); cbn; destruct (w_pay q), (w_receive q); cbn in CQ |- *; congruence. }
  rewrite CU, same_strings_refl. reflexivity.
Qed.

(** ** The curves of a leg: every contract finds the discounting curve of its
    currency and the curve of its index *)
Theorem C95_curves config l n i t : leg_size l n -> leg_entry l i t ->
  exists types mask refs, leg_curves config l = Some (types, mask, refs) /\ length mask = n /\
    (exists j c, nth_error mask i = Some j /\ nth_error types j = Some c /\
       signature c = signature (let currency := match t with FixedTerms c _ _ _ _ _ _ _ => c | FloatTerms c _ _ _ _ _ _ _ _ _ => c end in
         match config currency with Some curve => curve | None => RiskFreeCurve currency end)) /\
    match t with
    | FixedTerms _ _ _ _ _ _ _ _ => refs = None
    | FloatTerms cur _ _ _ _ x _ _ _ _ => exists rtypes rmask j c, refs = Some (rtypes, rmask) /\ length rmask = n /\
        nth_error rmask i = Some j /\ nth_error rtypes j = Some c /\ signature c = signature (RateIndexCurve cur (i_type x) [i_source x] [i_name x])
    end.
Proof.
  intros SZ EN. unfold leg_curves. destruct (C93_mask (map (discount_type config) (currencies_of l))) as (cs & mask & E & L & _ & _ & K). rewrite E. cbn [bind].
  rewrite map_length in L.
  destruct l as [s|s], t as [c e m r d w y k|c e f m p x d w y k]; cbn in EN; try contradiction.
  - exists cs, mask, None. split; [reflexivity|]. split; [rewrite L; apply SZ|]. split; [|reflexivity].
    destruct (K i (discount_type config c)) as (j & c' & K1 & K2 & K3); [rewrite nth_error_map; cbn; destruct EN as (-> & _); reflexivity|]. exists j, c'. tauto.
  - destruct (C93_mask (map2 reference_type (fs_currency s) (fs_index s))) as (rs & rmask & E' & L' & _ & _ & K'). rewrite E'. cbn [option_map].
    assert (LM : forall (a : list string) (b : list rate_index), length a = length b -> length (map2 reference_type a b) = length a).
    { intros a b Q. unfold map2. rewrite map_length, combine_length. lia. }
    assert (NM : forall (a : list string) (b : list rate_index) i u v, nth_error a i = Some u -> nth_error b i = Some v -> nth_error (map2 reference_type a b) i = Some (reference_type u v)).
    { intros a b i' u v A B. unfold map2. rewrite nth_error_map, (nth_combine _ _ _ _ _ A B). reflexivity. }
    cbn in SZ. destruct SZ as (Z1 & Z2 & Z3 & Z4 & Z5 & Z6 & Z7). destruct EN as (N1 & _ & _ & _ & _ & _ & _ & N2 & _).
    exists cs, mask, (Some (rs, rmask)). split; [reflexivity|]. split; [rewrite L; exact Z1|]. split.
    + destruct (K i (discount_type config c)) as (j & c' & K1 & K2 & K3); [rewrite nth_error_map; cbn; rewrite N1; reflexivity|]. exists j, c'. tauto.
    + destruct (K' i (reference_type c x) (NM _ _ _ _ _ N1 N2)) as (j & c' & K1 & K2 & K3). exists rs, rmask, j, c'. rewrite L', LM by congruence. tauto.
Qed.
