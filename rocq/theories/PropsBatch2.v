(** C95, continued: forward rate agreements and swaptions, what goes wrong, and
    examples. *)
From Coq Require Import String Reals Lra ZArith Lia List Bool Permutation.
From Verif Require Import TensorModel IntegrateModel SegmentModel DateModel BoundedCalModel ScheduleModel RatesModel InstrumentModel PlatformModel BatchModel BatchSpec BatchProofs PropsPlatform2 PropsBatch.
Import ListNotations.
Open Scope nat_scope.

(** ** Forward rate agreements *)
Definition rep_fra (g : list fra_message) (b : fra_batch) : Prop :=
  match g with
  | [] => False
  | a :: _ => rb_short b = map r_short g /\ rb_currency b = map r_currency g /\ rb_fixing b = map r_fixing g /\ rb_rate b = map (fun m => decimal_to_double (r_rate m)) g /\
      rb_notional b = map (fun m => decimal_to_double (r_notional m)) g /\ rb_daycount b = r_daycount a /\ rb_rule b = r_rule a /\ rb_calendar b = r_holidays a /\
      rb_term b = (year_month (p_type (r_term a)), map (fun m => p_amount (r_term m)) g) /\ rb_index b = map r_index g /\ rb_settlement b = map r_settlement g /\ rb_names b = map r_name g
  end.
Lemma fras_rep hasher ps : separates hasher fra_key_v2 ps ->
  exists hs d, fras_from_protos_v2 hasher ps = Some d /\ keys_ok (fun m => hasher (fra_key_v2 m)) hs ps /\
    Forall2 (fun h kv => fst kv = h /\ rep_fra (of_hash (fun m => hasher (fra_key_v2 m)) h ps) (snd kv)) hs d.
Proof.
  intros SP. unfold fras_from_protos_v2. cbv zeta.
  apply (loop_spec (fun m => hasher (fra_key_v2 m)) _ _ rep_fra (fun m => In m ps)); [| |auto].
  - intros m _. unfold rep_fra. rewrite fm_spec. cbn -[year_month decimal_to_double Z.mul]. rewrite Z.mul_1_l. repeat split; reflexivity.
  - intros g v m NE G IM RG. eexists; split; [reflexivity|]. destruct g as [|a g']; [congruence|]. unfold rep_fra in *. cbn [app]. change (a :: g' ++ [m]) with ((a :: g') ++ [m]).
    remember (a :: g') as g eqn:EG. destruct RG as (A1 & A2 & A3 & A4 & A5 & A6 & A7 & A8 & A9 & A10 & A11 & A12). rewrite fm_spec.
    cbn -[year_month decimal_to_double Z.mul]. rewrite A1, A2, A3, A4, A5, A6, A7, A8, A9, A10, A11, A12, !map_app, Z.mul_1_l. cbn -[year_month decimal_to_double]. repeat split; reflexivity.
Qed.
Lemma fra_key_same p q : fra_key_v2 p = fra_key_v2 q -> r_holidays p = r_holidays q /\ r_daycount p = r_daycount q /\ r_rule p = r_rule q /\ year_month (p_type (r_term p)) = year_month (p_type (r_term q)).
Proof. unfold fra_key_v2. rewrite !fm_spec. cbn -[year_month]. intros E. injection E; intros; repeat split; assumption. Qed.

Theorem C95_fras hasher ps : separates hasher fra_key_v2 ps -> (forall p, In p ps -> monthly_or_shorter (r_term p)) ->
  exists gs d, fras_from_protos_v2 hasher ps = Some d /\ partition same_fra_conventions ps gs /\
    Forall2 (fun g kv => fra_size (snd kv) (length g) /\ forall i p, nth_error g i = Some p -> fra_entry (snd kv) i (agreed_fra p)) gs d.
Proof.
  intros SP PL. destruct (fras_rep hasher ps SP) as (hs & d & D1 & D2 & D3).
  exists (map (fun h => of_hash (fun m => hasher (fra_key_v2 m)) h ps) hs), d. split; [exact D1|]. split.
  - apply classes_partition; [exact D2|]. intros p q P Q. unfold same_fra_conventions. split.
    + intros E. apply SP in E; [|exact P|exact Q]. apply fra_key_same in E. rewrite !ym_plain in E by (apply PL; assumption). tauto.
    + intros (E1 & E2 & E3 & E4). unfold fra_key_v2. rewrite E1, E2, E3, E4. reflexivity.
  - clear D1 D2. induction D3 as [|h kv hs d [E1 E2] F IH]; constructor; [|exact IH].
    remember (of_hash (fun m => hasher (fra_key_v2 m)) h ps) as g eqn:EG.
    assert (SG : forall p q, In p g -> In q g -> fra_key_v2 p = fra_key_v2 q /\ p_type (r_term p) <> 5%Z).
    { intros p q P Q. rewrite EG in P, Q. apply of_hash_in in P, Q. split; [|apply PL; tauto]. apply SP; [tauto|tauto|]. destruct P as (_ & ->), Q as (_ & ->). reflexivity. }
    clear IH F EG. unfold rep_fra in E2. destruct g as [|a g']; [destruct E2|]. remember (a :: g') as g eqn:EG.
    destruct E2 as (A1 & A2 & A3 & A4 & A5 & A6 & A7 & A8 & A9 & A10 & A11 & A12). split.
    + unfold fra_size. rewrite A1, A2, A3, A4, A5, A9, A10, A11, A12. cbn [snd]. rewrite !map_length. repeat split; reflexivity.
    + intros i p N. destruct (SG p a (nth_error_In _ _ N)) as (K & Y); [rewrite EG; left; reflexivity|]. apply fra_key_same in K. destruct K as (K1 & K2 & K3 & K4).
      rewrite (ym_plain _ Y) in K4. unfold fra_entry, agreed_fra. rewrite A1, A2, A3, A4, A5, A6, A7, A8, A9, A10, A11, A12. cbn -[year_month decimal_to_double amount].
      rewrite !nth_error_map, N. cbn -[year_month decimal_to_double amount]. rewrite !amount_double, K1, K2, K3, K4. repeat split; reflexivity.
Qed.
Theorem C95_fra_instruments hasher ps : separates hasher fra_key_v2 ps -> (forall p, In p ps -> known_period (r_term p)) ->
  exists gs out, fra_instruments hasher ps = Some out /\ partition same_fra_conventions ps gs /\
    Forall2 (fun g '(b, (u, amounts)) => fra_size b (length g) /\ amounts = snd (rb_term b) /\
      forall i p, nth_error g i = Some p -> fra_entry b i (agreed_fra p) /\ u = match p_type (r_term p) with 1%Z => DAY | 2%Z => WEEK | _ => MONTH end) gs out.
Proof.
  intros SP KN. destruct (C95_fras hasher ps SP) as (gs & d & D1 & D2 & D3); [intros p P; specialize (KN p P); unfold monthly_or_shorter, known_period in *; lia|].
  unfold fra_instruments. rewrite D1. cbn [bind].
  assert (DG : forall g, In g gs -> g <> [] /\ forall p, In p g -> In p ps).
  { intros g IG. destruct (proj2 D2 g IG) as (N & (keep & K) & _). split; [exact N|]. intros p P. rewrite K in P. apply filter_In in P. tauto. }
  assert (X : exists out, map_opt (fun '(_, b) => option_map (fun t => (b, t)) (period_from_list (rb_term b))) d = Some out /\
    Forall2 (fun g '(b, (u, amounts)) => fra_size b (length g) /\ amounts = snd (rb_term b) /\
      forall i p, nth_error g i = Some p -> fra_entry b i (agreed_fra p) /\ u = match p_type (r_term p) with 1%Z => DAY | 2%Z => WEEK | _ => MONTH end) gs out).
  { clear D1 D2. induction D3 as [|g [h b] gs d [E1 E2] F IH]; [exists []; split; [reflexivity|constructor]|].
    destruct IH as (out & O1 & O2); [intros q Q; apply DG; right; exact Q|]. destruct (DG g (or_introl eq_refl)) as (NE & IG). cbn [snd] in E1, E2.
    assert (T : forall i p, nth_error g i = Some p -> fst (rb_term b) = p_type (r_term p)).
    { intros i p N. destruct (E2 i p N) as (_ & _ & _ & _ & _ & _ & _ & _ & T & _). exact T. }
    destruct g as [|a g']; [congruence|].
    assert (KA : known_period (r_term a)) by (apply KN, IG; left; reflexivity).
    assert (P0 : period_from_list (rb_term b) = Some (match p_type (r_term a) with 1%Z => DAY | 2%Z => WEEK | _ => MONTH end, snd (rb_term b))).
    { unfold period_from_list. rewrite (T 0 a eq_refl). destruct KA as [->|[->| ->]]; reflexivity. }
    exists ((b, (match p_type (r_term a) with 1%Z => DAY | 2%Z => WEEK | _ => MONTH end, snd (rb_term b))) :: out). cbn [map_opt]. rewrite P0. cbn [option_map]. rewrite O1. split; [reflexivity|].
    constructor; [|exact O2]. split; [exact E1|]. split; [reflexivity|]. intros i p N. split; [exact (E2 i p N)|]. rewrite <- (T i p N), (T 0 a eq_refl). reflexivity. }
  destruct X as (out & O1 & O2). exists gs, out. tauto.
Qed.

(** ** Swaptions *)
Definition leg_key1 (l : leg_message) : key := fst (get_keys l) ++ snd (get_keys l).
Lemma key1_legs m : swap_key m = leg_key1 (fst (legs_in_order m)) ++ leg_key1 (snd (legs_in_order m)) ++ [KStr (w_currency m); KInt (w_holidays m)].
Proof. unfold swap_key, legs_hash_key, legs_in_order, pays_floating_for_fixed. destruct (w_pay m) as [a|a], (w_receive m) as [b|b]; reflexivity. Qed.
Lemma leg_key1_length l : length (leg_key1 l) = 11.
Proof. destruct l; reflexivity. Qed.
Lemma leg_key1_v2 a b : leg_key1 a = leg_key1 b -> leg_key a = leg_key b.
Proof.
  unfold leg_key1, leg_key. destruct a as [a|a], b as [b|b]; cbn -[Z.eqb]; intros E; inversion E as [[H1]]; try congruence;
    repeat match goal with H : _ = _ :> Z |- _ => rewrite H; clear H end; reflexivity.
Qed.
Lemma key1_v2 p q : swap_key p = swap_key q -> swap_key_v2 p = swap_key_v2 q.
Proof.
  rewrite !key1_legs, !key_legs. intros E. apply app_eq in E; [|rewrite !leg_key1_length; reflexivity]. destruct E as (E1 & E).
  apply app_eq in E; [|rewrite !leg_key1_length; reflexivity]. destruct E as (E2 & E3). injection E3 as _ E3.
  rewrite (leg_key1_v2 _ _ E1), (leg_key1_v2 _ _ E2), E3. reflexivity.
Qed.
Lemma one_class {M} (together : M -> M -> Prop) l gs : l <> [] -> partition together l gs -> (forall p q, In p l -> In q l -> together p q) -> gs = [l].
Proof.
  intros NE (PE & PG) T.
  assert (A : forall g, In g gs -> g = l).
  { intros g IG. destruct (PG g IG) as (N & (keep & K) & TG). destruct g as [|p g']; [congruence|].
    assert (P : In p l) by (assert (Q : In p (p :: g')) by (left; reflexivity); rewrite K in Q; apply filter_In in Q; tauto).
    assert (KT : forall q, In q l -> keep q = true).
    { intros q Q. assert (X : In q (p :: g')) by (apply (TG p q); [left; reflexivity|exact Q|apply T; assumption]). rewrite K in X. apply filter_In in X. tauto. }
    rewrite K. clear - KT. induction l as [|x l IH]; [reflexivity|]. cbn. rewrite KT by (left; reflexivity). f_equal. apply IH. intros q Q. apply KT. right; exact Q. }
  destruct gs as [|g [|g2 gs]].
  - cbn in PE. apply Permutation_nil in PE. congruence.
  - f_equal. apply A. left; reflexivity.
  - exfalso. apply Permutation_length in PE. cbn [concat] in PE. rewrite !app_length, (A g), (A g2) in PE by (cbn; tauto). destruct l; [congruence|]. cbn in PE. lia.
Qed.

Theorem C95_swaptions hasher ps : separates hasher (fun p => swap_key (o_swap p)) ps -> separates hasher swap_key_v2 (map o_swap ps) -> (forall p, In p ps -> usable_swap (o_swap p)) ->
  exists gs out, swaption_instruments hasher ps = Some out /\ partition (fun p q => swap_key (o_swap p) = swap_key (o_swap q)) ps gs /\
    Forall2 (fun g '(expiries, b) => expiries = map o_expiry g /\ swap_size b (length g) /\ forall i p, nth_error g i = Some p -> swap_entry b i (batched (o_swap p))) gs out.
Proof.
  intros SP SP2 US. unfold swaption_instruments, swaptions_from_protos.
  destruct (loop_spec (fun m => hasher (swap_key (o_swap m))) (fun m => SwaptionBatch [o_expiry m] [o_swap m] [o_name m])
     (fun b m => Some (SwaptionBatch (ob_expiry b ++ [o_expiry m]) (ob_swaps b ++ [o_swap m]) (ob_names b ++ [o_name m])))
     (fun g b => ob_expiry b = map o_expiry g /\ ob_swaps b = map o_swap g) (fun _ => True)) with (l := ps) as (hs & d & D1 & D2 & D3).
  { intros m _. split; reflexivity. }
  { intros g v m _ _ _ (V1 & V2). eexists; split; [reflexivity|]. cbn. rewrite V1, V2, !map_app. split; reflexivity. }
  { trivial. }
  rewrite D1. cbn [bind].
  exists (map (fun h => of_hash (fun m => hasher (swap_key (o_swap m))) h ps) hs).
  assert (X : exists out, map_opt (fun '(_, b) => bind (swap_instruments hasher (ob_swaps b)) (fun s => match s with x :: _ => Some (ob_expiry b, x) | [] => None end)) d = Some out /\
    Forall2 (fun g '(expiries, b) => expiries = map o_expiry g /\ swap_size b (length g) /\ forall i p, nth_error g i = Some p -> swap_entry b i (batched (o_swap p)))
      (map (fun h => of_hash (fun m => hasher (swap_key (o_swap m))) h ps) hs) out).
  { clear D1. assert (NE : forall h, In h hs -> of_hash (fun m => hasher (swap_key (o_swap m))) h ps <> []) by (apply keys_nonempty; exact D2). clear D2.
    induction D3 as [|h [k b] hs d [E1 (E2 & E3)] F IH]; [exists []; split; [reflexivity|constructor]|].
    destruct IH as (out & O1 & O2); [intros q Q; apply NE; right; exact Q|]. cbn [fst snd] in E1, E2, E3.
    specialize (NE h (or_introl eq_refl)). remember (of_hash (fun m => hasher (swap_key (o_swap m))) h ps) as g eqn:EG.
    assert (IG : forall p, In p g -> In p ps /\ hasher (swap_key (o_swap p)) = h) by (intros p P; rewrite EG in P; apply of_hash_in in P; exact P).
    assert (U2 : forall p, In p (map o_swap g) -> usable_swap p) by (intros p P; apply in_map_iff in P; destruct P as (q & <- & Q); apply US, IG, Q).
    destruct (C95_instruments hasher (map o_swap g)) as (gs & bs & B1 & B2 & B3); [| |].
    { intros p q P Q. apply in_map_iff in P, Q. destruct P as (p' & <- & P), Q as (q' & <- & Q). apply SP2; apply in_map, IG; assumption. }
    { exact U2. }
    assert (G1 : gs = [map o_swap g]).
    { apply (one_class same_conventions); [intros Q; apply NE; destruct g; [reflexivity|discriminate]|exact B2|]. intros p q P Q.
      pose proof (proj1 (U2 p P)) as PP. pose proof (proj1 (U2 q Q)) as PQ. apply (conventions_key p q PP PQ). apply key1_v2.
      apply in_map_iff in P, Q. destruct P as (p' & <- & P), Q as (q' & <- & Q). destruct (IG p' P) as (P1 & P2), (IG q' Q) as (Q1 & Q2). apply (SP p' q' P1 Q1). congruence. }
    subst gs. inversion B3 as [|? x ? bs' [S1 S2] BN]; subst. inversion BN; subst.
    exists ((ob_expiry b, x) :: out). cbn [map_opt]. rewrite E3, B1. cbn [bind]. rewrite O1. split; [reflexivity|]. cbn [map].
    constructor; [|exact O2]. split; [exact E2|]. rewrite map_length in S1. split; [exact S1|]. intros i p N. apply S2. rewrite nth_error_map, N. reflexivity. }
  destruct X as (out & O1 & O2). exists out. split; [exact O1|]. split; [|exact O2].
  apply classes_partition; [exact D2|]. intros p q P Q. split; [apply SP; assumption|congruence].
Qed.

(** the notional of the fixed leg *)
Definition fixed_notional (m : swap_message) : R :=
  match w_pay m, w_receive m with
  | FixedLegM a, FloatLegM _ => amount (xm_notional a)
  | FloatLegM _, FixedLegM a => amount (xm_notional a)
  | _, _ => 0%R
  end.
Lemma price_entry unit_price b n i p : swap_size b n -> swap_entry b i (batched p) ->
  match w_pay p, w_receive p with FixedLegM _, FloatLegM _ | FloatLegM _, FixedLegM _ => True | _, _ => False end ->
  exists prices, swaption_prices unit_price b = Some prices /\ length prices = n /\
    nth_error prices i = Some ((if pays_floating_for_fixed p then - fixed_notional p else fixed_notional p) * unit_price true i)%R.
Proof.
  intros (_ & _ & _ & SZ & _) (_ & _ & _ & EP & ER) MX.
  assert (FX : exists s t, b_pay b = FixedLegS s /\ b_receive b = FloatLegS t /\ nth_error (xs_notional s) i = Some (if pays_floating_for_fixed p then - fixed_notional p else fixed_notional p)%R).
  { unfold batched, pays_floating_for_fixed, fixed_notional in *. destruct (w_pay p) as [a|a] eqn:E1, (w_receive p) as [c|c] eqn:E2; try contradiction;
      unfold mirrored, agreed in EP, ER; cbn -[amount] in EP, ER; rewrite ?E1, ?E2 in EP; rewrite ?E1, ?E2 in ER; cbn -[amount] in EP, ER;
      destruct (b_pay b) as [s|s]; try contradiction; destruct (b_receive b) as [t|t]; try contradiction; exists s, t; repeat split; apply EP. }
  destruct FX as (s & t & P1 & P2 & P3). unfold swaption_prices. rewrite P1, P2. rewrite P1 in SZ. cbn in SZ. destruct SZ as (_ & _ & SZ & _).
  eexists; split; [reflexivity|]. unfold map2. split; [rewrite map_length, combine_length, seq_length; lia|].
  assert (LT : i < length (xs_notional s)) by (apply nth_error_Some; congruence).
  rewrite nth_error_map. rewrite (nth_combine _ _ i _ i P3); [reflexivity|].
  rewrite (nth_error_nth' _ 0) by (rewrite seq_length; exact LT). rewrite seq_nth by exact LT. reflexivity.
Qed.
(** a swaption to pay the fixed rate gets the value of a payer swaption on its
    notional *)
Theorem C95_payer_swaption unit_price b n i p : swap_size b n -> swap_entry b i (batched p) ->
  match w_pay p, w_receive p with FixedLegM _, FloatLegM _ => True | _, _ => False end ->
  exists prices, swaption_prices unit_price b = Some prices /\ nth_error prices i = Some (fixed_notional p * unit_price true i)%R.
Proof.
  intros SZ EN MX. destruct (price_entry unit_price b n i p SZ EN) as (prices & P1 & _ & P2); [destruct (w_pay p), (w_receive p); tauto|].
  exists prices. split; [exact P1|]. unfold pays_floating_for_fixed in P2. destruct (w_pay p), (w_receive p); try contradiction; exact P2.
Qed.

(** ** Examples *)
Definition monthly (n : Z) : period_message := PeriodMessage 3 n.
Definition whole (n : Z) : decimal := Decimal n 0.
Definition libor : rate_index := RateIndex "LIBOR_3M" "" "".
Definition fixed_part (freq : period_message) (n cal : Z) : leg_message := FixedLegM (FixedMessage "USD" freq (whole n) 3 2 2 cal (Decimal 0 50000000)).
Definition float_part (n cal : Z) : leg_message := FloatLegM (FloatMessage "USD" (monthly 3) (whole n) 2 2 2 cal (monthly 3) libor (whole 0)).
Definition payer (name : string) (freq : period_message) (n cal : Z) : swap_message :=
  SwapMessage (2021, 1, 15)%Z (2026, 1, 15)%Z "USD" (float_part n cal) (fixed_part freq n cal) 1 (name, "swap"%string).
Definition receiver (name : string) (freq : period_message) (n cal : Z) : swap_message :=
  SwapMessage (2021, 1, 15)%Z (2026, 1, 15)%Z "USD" (fixed_part freq n cal) (float_part n cal) 1 (name, "swap"%string).
(** a hash function that writes the key out *)
Fixpoint digits (fuel : nat) (z : Z) : string :=
  match fuel with
  | 0 => ""
  | S f => (if Z.even z then "0" else "1") ++ digits f (z / 2)
  end%string.
Definition atom_text (a : atom) : string :=
  match a with KNone => "null" | KInt z => digits 8 z | KStr s => """" ++ s ++ """" end%string.
Definition write_out (k : key) : string := String.concat "," (map atom_text k).

Definition book : list swap_message := [payer "a" (monthly 6) 100 1; receiver "b" (monthly 6) 200 1; payer "c" (monthly 12) 300 1].
Lemma book_usable : forall p, In p book -> usable_swap p.
Proof.
  intros p P. repeat (destruct P as [<-|P]); try destruct P;
    (split; [intros l L; split; [destruct L; subst l; reflexivity|]|split; [reflexivity|]]);
    try intros l L; destruct L; subst l; cbn; intros q Q; repeat (destruct Q as [<-|Q]); try destruct Q;
    unfold monthly_or_shorter, known_period; cbn; lia.
Qed.
Lemma book_separates : separates write_out swap_key_v2 book.
Proof.
  assert (E : forall p, In p book -> swap_key_v2 p = swap_key_v2 (payer "a" (monthly 6) 100 1)).
  { intros p P. repeat (destruct P as [<-|P]); try destruct P; reflexivity. }
  intros p q P Q _. rewrite (E p P), (E q Q). reflexivity.
Qed.
Example C95_swaps_example : exists b, swap_instruments write_out book = Some [b] /\ swap_size b 3 /\
  (forall i p, nth_error book i = Some p -> swap_entry b i (batched p)) /\ map fst (b_names b) = ["a"; "b"; "c"]%string.
Proof.
  destruct (C95_instruments write_out book book_separates book_usable) as (gs & bs & B1 & B2 & B3).
  assert (G1 : gs = [book]).
  { apply (one_class same_conventions); [discriminate|exact B2|]. intros p q P Q. apply (conventions_key p q (proj1 (book_usable p P)) (proj1 (book_usable q Q))).
    repeat (destruct P as [<-|P]); try destruct P; repeat (destruct Q as [<-|Q]); try destruct Q; reflexivity. }
  subst gs. inversion B3 as [|? b ? bs' [S1 S2] BN]; subst. inversion BN; subst. exists b. split; [exact B1|]. split; [exact S1|]. split; [exact S2|].
  destruct S1 as (_ & _ & LN & _). pose proof (S2 0 _ eq_refl) as (_ & _ & N0 & _). pose proof (S2 1 _ eq_refl) as (_ & _ & N1 & _). pose proof (S2 2 _ eq_refl) as (_ & _ & N2 & _).
  destruct (b_names b) as [|x [|y [|z [|w r]]]]; cbn in LN; try discriminate. cbn in N0, N1, N2. injection N0 as ->. injection N1 as ->. injection N2 as ->. reflexivity.
Qed.
Example C95_value_example : batched (receiver "b" (monthly 6) 200 1) <> agreed (receiver "b" (monthly 6) 200 1) /\
  st_pay (batched (receiver "b" (monthly 6) 200 1)) = FixedTerms "USD" (3, 6)%Z (- 200) (1 / 20) 2 2 3 1.
Proof.
  assert (E : st_pay (batched (receiver "b" (monthly 6) 200 1)) = FixedTerms "USD" (3, 6)%Z (- 200) (1 / 20) 2 2 3 1).
  { cbn -[amount]. unfold agreed_period. cbn -[amount]. f_equal; unfold amount; cbn; lra. }
  split; [|exact E]. intros Q. rewrite Q in E. discriminate E.
Qed.
Definition fra_book : list fra_message :=
  [FraMessage true (2021, 5, 21)%Z "USD" libor (monthly 3) (whole 100) (Decimal 0 10000000) 3 2 1 2 ("x", "fra")%string;
   FraMessage false (2021, 6, 21)%Z "EUR" libor (monthly 6) (whole 50) (Decimal 0 20000000) 3 2 1 0 ("y", "fra")%string;
   FraMessage false (2021, 6, 21)%Z "EUR" libor (monthly 6) (whole 50) (Decimal 0 20000000) 4 2 1 0 ("z", "fra")%string].
Example C95_fras_example : separates write_out fra_key_v2 fra_book /\ (forall p, In p fra_book -> known_period (r_term p)) /\
  option_map (map (fun kv => map fst (rb_names (snd kv)))) (fras_from_protos_v2 write_out fra_book) = Some [["x"; "y"]; ["z"]]%string.
Proof.
  split; [|split; [|vm_compute; reflexivity]].
  - intros p q P Q. repeat (destruct P as [<-|P]); try destruct P; repeat (destruct Q as [<-|Q]); try destruct Q; vm_compute; intros E; try reflexivity; discriminate E.
  - intros p P. repeat (destruct P as [<-|P]); try destruct P; unfold known_period; cbn; lia.
Qed.
Definition option_book : list swaption_message :=
  [SwaptionMessage (2020, 12, 15)%Z (payer "a" (monthly 6) 100 1) ("p", "swaption")%string; SwaptionMessage (2020, 12, 1)%Z (receiver "b" (monthly 6) 200 1) ("r", "swaption")%string].
Lemma option_book_ok : separates write_out (fun p => swap_key (o_swap p)) option_book /\ separates write_out swap_key_v2 (map o_swap option_book) /\ (forall p, In p option_book -> usable_swap (o_swap p)).
Proof.
  split; [|split].
  - intros p q P Q. repeat (destruct P as [<-|P]); try destruct P; repeat (destruct Q as [<-|Q]); try destruct Q; reflexivity.
  - intros p q P Q. repeat (destruct P as [<-|P]); try destruct P; repeat (destruct Q as [<-|Q]); try destruct Q; reflexivity.
  - intros p P. apply book_usable. repeat (destruct P as [<-|P]); try destruct P; cbn; tauto.
Qed.
Lemma option_batch : exists b, swaption_instruments write_out option_book = Some [([(2020, 12, 15)%Z; (2020, 12, 1)%Z], b)] /\ swap_size b 2 /\
  swap_entry b 0 (batched (payer "a" (monthly 6) 100 1)) /\ swap_entry b 1 (batched (receiver "b" (monthly 6) 200 1)).
Proof.
  destruct option_book_ok as (K1 & K2 & K3). destruct (C95_swaptions write_out option_book K1 K2 K3) as (gs & out & O1 & O2 & O3).
  assert (G1 : gs = [option_book]).
  { apply (one_class (fun p q => swap_key (o_swap p) = swap_key (o_swap q))); [discriminate|exact O2|].
    intros p q P Q. repeat (destruct P as [<-|P]); try destruct P; repeat (destruct Q as [<-|Q]); try destruct Q; reflexivity. }
  subst gs. inversion O3 as [|? [ex b] ? out' (S1 & S2 & S3) BN]; subst. inversion BN; subst. exists b. split; [exact O1|]. split; [exact S2|]. split; [exact (S3 0 _ eq_refl)|exact (S3 1 _ eq_refl)].
Qed.
Example C95_swaptions_example : exists b prices, swaption_instruments write_out option_book = Some [([(2020, 12, 15)%Z; (2020, 12, 1)%Z], b)] /\
  swaption_prices (fun _ _ => 1 / 25)%R b = Some prices /\ nth_error prices 0 = Some 4%R.
Proof.
  destruct option_batch as (b & B1 & B2 & B3 & _). destruct (C95_payer_swaption (fun _ _ => 1 / 25)%R b 2 0 _ B2 B3 Logic.I) as (prices & P1 & P2).
  exists b, prices. split; [exact B1|]. split; [exact P1|]. rewrite P2. f_equal. cbn. unfold amount. cbn. lra.
Qed.

(** ** What goes wrong *)
(** a coupon every year is read as a coupon every month: the two contracts cannot be
    told apart *)
Theorem C95_yearly_refuted hasher name n cal : swaps_from_protos_v2 hasher [payer name (PeriodMessage 5 1) n cal] = swaps_from_protos_v2 hasher [payer name (monthly 1) n cal] /\
  agreed (payer name (PeriodMessage 5 1) n cal) <> agreed (payer name (monthly 1) n cal) /\
  exists h b, swaps_from_protos_v2 hasher [payer name (PeriodMessage 5 1) n cal] = Some [(h, b)] /\ ~ swap_entry b 0 (agreed (payer name (PeriodMessage 5 1) n cal)).
Proof.
  split; [reflexivity|]. split; [intros E; apply (f_equal st_pay) in E; cbn in E; discriminate E|].
  eexists; eexists; split; [reflexivity|]. intros (_ & _ & _ & (_ & E & _) & _). cbn in E. discriminate E.
Qed.
Theorem C95_yearly_fra_refuted hasher m : p_type (r_term m) = 5%Z -> exists h b, fras_from_protos_v2 hasher [m] = Some [(h, b)] /\ rb_term b = (3, [p_amount (r_term m)])%Z.
Proof. intros E. eexists; eexists; split; [reflexivity|]. cbn -[Z.mul frequency_and_multiplier]. rewrite E. cbn -[Z.mul]. rewrite Z.mul_1_l. reflexivity. Qed.
(** contracts in quarters are read but cannot be made into instruments, nor can any
    other contract of the portfolio *)
Theorem C95_quarter_refuted hasher : let book := [payer "a" (monthly 3) 100 1; payer "b" (PeriodMessage 4 1) 100 1] in
  separates hasher swap_key_v2 book -> swap_instruments hasher [payer "a" (monthly 3) 100 1] <> None /\ swap_instruments hasher book = None.
Proof.
  intros bk SP. split; [unfold swap_instruments; cbn -[String.eqb decimal_to_double]; cbn; discriminate|].
  unfold bk, swap_instruments, swaps_from_protos_v2. cbn [batch_loop add_to]. destruct (String.eqb _ _) eqn:Q; cbn; [|reflexivity].
  exfalso. apply String.eqb_eq in Q. first [apply SP in Q | symmetry in Q; apply SP in Q]; [|cbn; tauto ..]. vm_compute in Q. discriminate Q.
Qed.
(** the holidays of a leg are not part of the key: the second contract gets those
    of the first *)
Theorem C95_holidays_refuted hasher : exists h b, swaps_from_protos_v2 hasher [payer "a" (monthly 6) 100 1; payer "b" (monthly 6) 100 2] = Some [(h, b)] /\
  (forall t, swap_entry b 1 t -> st_pay t <> agreed_leg (fixed_part (monthly 6) 100 2)).
Proof.
  unfold swaps_from_protos_v2. cbn [batch_loop add_to].
  change (hasher (swap_key_v2 (payer "b" (monthly 6) 100 2))) with (hasher (swap_key_v2 (payer "a" (monthly 6) 100 1))). rewrite String.eqb_refl. cbn -[decimal_to_double].
  eexists; eexists; split; [reflexivity|]. intros t (_ & _ & _ & E & _) Q. rewrite Q in E. cbn in E. decompose [and] E. discriminate.
Qed.
(** a swaption to receive the fixed rate gets minus the value of the swaption to
    pay it *)
Theorem C95_receiver_refuted unit_price b n i p : swap_size b n -> swap_entry b i (batched p) -> pays_floating_for_fixed p = true ->
  exists prices, swaption_prices unit_price b = Some prices /\ nth_error prices i = Some (- (fixed_notional p * unit_price true i))%R.
Proof.
  intros SZ EN MX. destruct (price_entry unit_price b n i p SZ EN) as (prices & P1 & _ & P2); [unfold pays_floating_for_fixed in MX; destruct (w_pay p), (w_receive p); auto; discriminate|].
  exists prices. split; [exact P1|]. rewrite P2, MX. f_equal. ring.
Qed.
Theorem C95_negative_option_refuted : exists b prices, swaption_instruments write_out option_book = Some [([(2020, 12, 15)%Z; (2020, 12, 1)%Z], b)] /\
  swaption_prices (fun _ _ => 1 / 25)%R b = Some prices /\ nth_error prices 1 = Some (-8)%R.
Proof.
  destruct option_batch as (b & B1 & B2 & _ & B3). destruct (C95_receiver_refuted (fun _ _ => 1 / 25)%R b 2 1 _ B2 B3 eq_refl) as (prices & P1 & P2).
  exists b, prices. split; [exact B1|]. split; [exact P1|]. rewrite P2. f_equal. cbn. unfold amount. cbn. lra.
Qed.

Print Assumptions C95_groups.
Print Assumptions C95_swaps.
Print Assumptions C95_mirrored.
Print Assumptions C95_value.
Print Assumptions C95_instruments.
Print Assumptions C95_curves.
Print Assumptions C95_fras.
Print Assumptions C95_fra_instruments.
Print Assumptions C95_swaptions.
Print Assumptions C95_payer_swaption.
Print Assumptions C95_yearly_refuted.
Print Assumptions C95_yearly_fra_refuted.
Print Assumptions C95_quarter_refuted.
Print Assumptions C95_holidays_refuted.
Print Assumptions C95_receiver_refuted.
Print Assumptions C95_negative_option_refuted.
