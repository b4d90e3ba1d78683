(** C86: caps and floors are sums of options on the rates of their periods. *)
From Coquelicot Require Import Coquelicot.
From Coq Require Import Reals QArith Qreals ZArith List Bool Lra Lia Sorting.Sorted.
From Verif Require Import InterpModel BrentModel BrentProofs ExtReal HaganWestModel BootstrapModel BlackScholesModel BlackScholesSpec BlackScholesProofs PropsBlackScholes
  DateModel DayCountModel DateSpec CalSetup CalProofs PropsCalAux PropsCal BoundedCalModel ScheduleModel ScheduleSpec ScheduleProofs ScheduleProofs2 ScheduleProofs3 ScheduleProofs4 PropsSchedule InstrumentModel InstrumentSpec InstrumentProofs PropsInstrument PropsInstrument2
  CapFloorModel CapFloorSpec CapFloorProofs.
Import ListNotations.
Open Scope R_scope.

(** The argument [is_cap] says of every contract of the batch whether it is a
    cap: a flag for each, one flag for all, or nothing for caps. *)
Definition sides (a : option (list bool)) (bs : list (contract * bool)) : Prop :=
  a = Some (map snd bs) \/ (exists b, a = Some [b] /\ forall x, In x bs -> snd x = b) \/ (a = None /\ forall x, In x bs -> snd x = true).
(** The argument [notional] is one number (not zero) for all contracts. *)
Definition one_notional (a : option notional_arg) (bs : list (contract * bool)) : Prop :=
  exists N, (a = Some (Numbers [N]) \/ a = Some (Number N) /\ N <> 0 \/ a = None /\ N = 1) /\ forall x, In x bs -> k_notional (fst x) = N.

Lemma sides_broadcast a bs : sides a bs -> broadcast_to (length bs) (match a with None => [true] | Some l => l end) = Some (map snd bs).
Proof.
  assert (G : forall b, (forall x, In x bs -> snd x = b) -> repeat b (length bs) = map (@snd contract bool) bs).
  { intros b. induction bs as [|x bs IH]; intros H; [reflexivity|]. cbn. rewrite (H x (or_introl eq_refl)), IH; [reflexivity|]. intros; apply H; right; assumption. }
  intros [->|[(b & -> & H)|(-> & H)]].
  - apply broadcast_self. apply map_length.
  - rewrite broadcast_one, (G b H). reflexivity.
  - rewrite broadcast_one, (G true H). reflexivity.
Qed.
Lemma one_notional_list a bs : one_notional a bs -> exists N, notional_or_one a = [N] /\ forall x, In x bs -> k_notional (fst x) = N.
Proof.
  intros (N & H & A). exists N. split; [|exact A]. destruct H as [->|[(-> & NZ)|(-> & ->)]]; [reflexivity| |reflexivity].
  cbn. destruct (Req_EM_T N 0); [contradiction|reflexivity].
Qed.

(** The price of every contract, from the rows of the schedule. *)
Lemma cap_batch t cs : ok_batch NoStub t cs -> exists n, (1 <= n)%nat /\ forall bs c a isc, map fst bs = cs -> (forall x, In x bs -> 0 < k_rate (fst x)) -> one_notional a bs -> sides isc bs ->
  exists f,
    cap_setup (map (fun x => k_start (fst x)) bs) (map (fun x => k_end (fst x)) bs) (map (fun x => k_freq (fst x)) bs) t (map (fun x => k_rate (fst x)) bs) c a isc = Some f /\
    forall valuation discount reference libor varg vols, libor = None \/ libor = Some 0 \/ (exists x, bs = [x]) -> positive_rates valuation reference ->
      length vols = length bs -> (forall w, In w vols -> length w = n) -> broadcast_to (length bs * n) varg = Some (concat vols) ->
      exists prices, cap_price f valuation discount reference libor None (Some varg) = Some (map Fin prices) /\
        Forall2 (fun x v => exists l, contract_dates NoStub t (fst (fst x)) l /\ (length l <= S n)%nat /\ Forall is_date l /\ nondecreasing l /\
           cap_value valuation discount reference (fixing_of libor) (convention c) (fst (fst x)) (snd (fst x)) (snd x) l v) (combine bs vols) prices.
Proof.
  intros (D & EX & _). cbn [regular_range fst snd] in *.
  destruct (plain_schedule cs t false k_start k_end) as (out & L & E & L1 & F); [intros k I; destruct (D k I); tauto|exact EX|tauto|].
  exists (L - 1)%nat. split; [lia|]. intros bs c a isc <- HK HA HS.
  assert (NE : bs <> []) by (destruct EX as (k & I & _); intros ->; destruct I). clear D EX.
  destruct (one_notional_list a bs HA) as (N & EN & HN).
  eexists. unfold cap_setup. rewrite !map_length, (sides_broadcast isc bs HS). cbn [bind].
  rewrite !map_map in E. rewrite E. cbn [bind]. split; [reflexivity|].
  intros valuation discount reference libor varg vols LI HR LV WV BV. set (n := (L - 1)%nat) in *.
  assert (LO : length out = length bs) by (rewrite <- (forall2_len' _ _ _ F); apply map_length).
  set (ds := combine (combine bs vols) out).
  assert (LD : length ds = length bs) by (unfold ds; rewrite !combine_length; lia).
  assert (D1 : forall (X : Type) (g : contract * bool -> X), map g bs = map (fun x => g (fst (fst x))) ds).
  { intros X g. unfold ds. rewrite <- (map_map fst (fun y => g (fst y))), combine_map_fst by (rewrite combine_length; lia). rewrite <- (map_map fst g), combine_map_fst by lia. reflexivity. }
  assert (D2 : forall (X : Type) (g : list date -> X), map g out = map (fun x => g (snd x)) ds).
  { intros X g. unfold ds. rewrite <- (map_map snd g), combine_map_snd by (rewrite combine_length; lia). reflexivity. }
  assert (D3 : vols = map (fun x => snd (fst x)) ds).
  { unfold ds. rewrite <- (map_map fst snd), combine_map_fst by (rewrite combine_length; lia). rewrite combine_map_snd by lia. reflexivity. }
  assert (OK : forall x, In x ds -> In (fst (fst x)) bs /\ length (snd (fst x)) = n /\ length (snd x) = L /\ Forall is_date (snd x) /\ nondecreasing (snd x) /\
     exists r, contract_dates NoStub t (fst (fst (fst x))) r /\ Forall is_date r /\ nondecreasing r /\ padded_last L r (snd x)).
  { intros x I. assert (IW : In (snd (fst x)) vols) by (rewrite D3; apply in_map_iff; exists x; split; [reflexivity|exact I]). destruct x as ((y, w), l). cbn [fst snd] in *. 
    assert (I2 : In (y, l) (combine bs out)).
    { unfold ds in I. clear - I. revert vols out I. induction bs as [|b bs IH]; intros [|v vols] [|o out] I; try destruct I; [injection H as -> -> ->; left; reflexivity|]. right. apply (IH vols out H). }
    split; [apply in_combine_l in I2; exact I2|]. split; [apply WV; exact IW|].
    assert (F2 : In (fst y, l) (combine (map fst bs) out)).
    { clear - I2. revert out I2. induction bs as [|b bs IH]; intros [|o out] I2; try destruct I2; [injection H as -> ->; left; reflexivity|right; apply IH; exact H]. }
    destruct (forall2_combine _ _ _ F _ F2) as (A1 & A2 & r & A3 & A4 & A5 & A6). cbn [fst snd] in *. split; [exact A1|]. split; [exact A2|].
    split; [apply (padded_nondecreasing false L r l A5 A6)|]. exists r. repeat split; assumption. }
  assert (WD : width (map (@tl date) out) = n).
  { destruct out as [|l out']; [destruct bs; [contradiction|discriminate]|]. cbn [map width]. rewrite tl_length. inversion F as [|k l0 ks ls (LL & _) _]. unfold n. lia. }
  rewrite WD. clear WD E.
  unfold cap_price. cbn [cf_batch cf_count cf_reset cf_payment cf_fractions cf_notional cf_strike cf_is_cap cf_contract].
  rewrite EN, (D1 R (fun x => k_rate (fst x))), (D1 bool snd), (D2 _ (@removelast date)), (D2 _ (@tl date)), map2_same, !concat_of_map, !repeat_of_map, <- LD.
  fold (convention c). set (cc := convention c) in *.
  assert (TL : length (flat_map (fun x => removelast (snd x)) ds) = (length ds * n)%nat).
  { apply flat_length. intros x I. rewrite removelast_length. destruct (OK x I) as (_ & _ & LL & _). unfold n. lia. }
  rewrite TL.
  assert (LB : libor_rates libor (length ds) n = flat_map (fun _ => repeat (fixing_of libor) n) ds).
  { assert (Z0 : tf_repeat (repeat 0 (length ds)) n = flat_map (fun _ => repeat 0 n) ds).
    { unfold tf_repeat. generalize ds as l. induction l as [|x l IH]; [reflexivity|]. cbn. rewrite IH. reflexivity. }
    destruct libor as [r|]; cbn [libor_rates fixing_of]; [|exact Z0]. destruct (Req_EM_T r 0) as [->|NZ]; [exact Z0|].
    destruct LI as [LI|[LI|(k & EK)]]; [discriminate|congruence|]. rewrite EK in LD. cbn in LD. destruct ds as [|x [|y r0]]; cbn in LD; try lia. cbn [flat_map]. rewrite app_nil_r. reflexivity. }
  rewrite LB, broadcast_self by (apply flat_length; intros; apply repeat_length). cbn [bind].
  rewrite LD, BV. cbn [bind]. rewrite D3, concat_of_map.
  rewrite broadcast_self by (rewrite <- LD; apply flat_length; intros; apply repeat_length). cbn [bind].
  rewrite broadcast_self by (rewrite <- LD; apply flat_length; intros; apply repeat_length). cbn [bind].
  rewrite broadcast_one. cbn [bind].
  replace (repeat N (length bs * n)) with (flat_map (fun x => repeat (k_notional (fst (fst (fst x)))) n) ds).
  2:{ rewrite <- LD, <- flat_repeat. rewrite !flat_map_concat_map. f_equal. apply map_ext_in. intros x I. rewrite (HN _ (proj1 (OK x I))). reflexivity. }
  assert (LN : forall x, In x ds -> length (removelast (snd x)) = n /\ length (tl (snd x)) = n /\ length (snd (fst x)) = n).
  { intros x I. destruct (OK x I) as (_ & A & B & _). rewrite removelast_length, tl_length. unfold n in *. lia. }
  assert (M2 : forall x, In x ds -> length (map2 (daycount_fraction cc) (removelast (snd x)) (tl (snd x))) = n).
  { intros x I. destruct (LN x I) as (A & B & _). rewrite map2_length by congruence. exact A. }
  assert (C1 : forall x, In x ds -> length (combine (removelast (snd x)) (tl (snd x))) = n) by (intros x I; destruct (LN x I) as (A & B & _); rewrite combine_length; lia).
  rewrite (flat_combine (fun x => removelast (snd x)) (fun x => tl (snd x))) by (intros x I; destruct (LN x I) as (A & B & _); congruence).
  rewrite (flat_combine (fun x => combine (removelast (snd x)) (tl (snd x)))) by (intros x I; rewrite C1, M2 by exact I; reflexivity).
  rewrite (flat_combine _ (fun _ => repeat (fixing_of libor) n)) by (intros x I; rewrite combine_length, C1, M2, repeat_length by exact I; lia).
  rewrite (flat_combine _ (fun x => snd (fst x))) by (intros x I; destruct (LN x I) as (_ & _ & A); rewrite !combine_length, repeat_length, M2, A by exact I; rewrite <- combine_length, C1 by exact I; lia).
  rewrite (flat_combine (fun x => repeat (k_rate (fst (fst (fst x)))) n)) by (intros; rewrite !repeat_length; reflexivity).
  rewrite (flat_combine _ (fun x => combine (repeat (k_rate (fst (fst (fst x)))) n) (repeat (snd (fst (fst x))) n)))
    by (intros x I; destruct (LN x I) as (_ & _ & A); rewrite !combine_length, !repeat_length, M2, A by exact I; rewrite <- combine_length, C1 by exact I; lia).
  rewrite (flat_combine _ (fun x => repeat (k_notional (fst (fst (fst x)))) n))
    by (intros x I; destruct (LN x I) as (_ & _ & A); rewrite !combine_length, !repeat_length, M2, A by exact I; rewrite <- combine_length, C1 by exact I; lia).
  destruct (map_opt_rows (caplet_of valuation discount reference) (fun x => caplet_row cc (fst (fst (fst x))) (snd (fst (fst x))) (fixing_of libor) (snd (fst x)) (snd x) n)
    (fun x xs => length xs = n /\ sum_over (caplet_value valuation discount reference (fixing_of libor) cc (fst (fst (fst x))) (snd (fst (fst x)))) (snd (fst x)) (snd x) (fold_right Rplus 0 xs)) ds) as (ys & FY & MY).
  { intros x I. destruct (OK x I) as (IB & LW & LL & DL & NL & _).
    destruct (caplet_row_ok valuation discount reference (fixing_of libor) cc (fst (fst (fst x))) (snd (fst (fst x))) (snd x) (HK _ IB) HR DL NL (snd (fst x))) as (xs & A & B & S); [lia|].
    rewrite LW in A, B. exists xs. repeat split; assumption. }
  change (fun '(s, e, fr, l, v, (k, b), n0) => caplet_price valuation discount reference l v n0 fr k b s e) with (caplet_of valuation discount reference).
  unfold caplet_row in MY. rewrite MY. cbn [bind].
  assert (LY : length bs = length ys) by (rewrite <- LD; apply (forall2_len' _ _ _ FY)). rewrite LY.
  rewrite xsegment_rows; [|unfold n; lia|].
  2:{ intros y I. rewrite map_length. clear - FY I. induction FY as [|x y' ds ys (A & _) FY IH]; [destruct I|]. destruct I as [<-|I]; [exact A|apply IH; exact I]. }
  exists (map (fold_right Rplus 0) ys). split; [f_equal; rewrite map_map; apply map_ext; intros; apply xsum_fins|].
  assert (G : forall l zs, (forall x, In x l -> In x ds) -> Forall2 (fun x xs => length xs = n /\ sum_over (caplet_value valuation discount reference (fixing_of libor) cc (fst (fst (fst x))) (snd (fst (fst x)))) (snd (fst x)) (snd x) (fold_right Rplus 0 xs)) l zs ->
    Forall2 (fun x v => exists l, contract_dates NoStub t (fst (fst x)) l /\ (length l <= S n)%nat /\ Forall is_date l /\ nondecreasing l /\ cap_value valuation discount reference (fixing_of libor) cc (fst (fst x)) (snd (fst x)) (snd x) l v) (map fst l) (map (fold_right Rplus 0) zs)).
  { intros l zs SUB FZ. induction FZ as [|x z l zs (A & B) FZ IH]; [constructor|]. cbn [map]. constructor; [|apply IH; intros; apply SUB; right; assumption].
    destruct (OK x (SUB x (or_introl eq_refl))) as (IB & LW & LL & _ & _ & r & CD & DR & NR & PR). exists r. split; [exact CD|].
    destruct PR as (p & y & -> & EQ). assert (LP : (length (p ++ [y]) <= S n)%nat) by (rewrite EQ, app_length, repeat_length in LL; unfold n; lia).
    split; [exact LP|]. split; [exact DR|]. split; [exact NR|]. unfold cap_value. rewrite EQ in B. apply (sum_over_padded _ p y (L - length (p ++ [y]))); [|rewrite app_length in LP; cbn in LP; lia|exact B].
    intros u v. apply caplet_same. rewrite Forall_forall in DR. apply DR. apply in_or_app. right. left. reflexivity. }
  pose proof (G ds ys (fun x I => I) FY) as H. unfold ds in H at 1. rewrite combine_map_fst in H by (rewrite combine_length; lia). rewrite <- D3. exact H.
Qed.

(** ** Theorems *)
(** Every price is the value of the contract's own caplets or floorlets,
    whatever the other contracts of the batch.  One volatility for every caplet:
    [n] is the number of periods of the longest contract.  Partial: one notional
    for the whole batch, and a past fixing for one contract only. *)
Theorem C86_value_partial t cs : ok_batch NoStub t cs -> exists n, (1 <= n)%nat /\ forall bs c a isc, map fst bs = cs -> (forall x, In x bs -> 0 < k_rate (fst x)) -> one_notional a bs -> sides isc bs ->
  exists f, cap_setup (map k_start cs) (map k_end cs) (map k_freq cs) t (map k_rate cs) c a isc = Some f /\
    forall valuation discount reference libor vols, libor = None \/ libor = Some 0 \/ (exists k, cs = [k]) -> positive_rates valuation reference ->
      length vols = length cs -> (forall w, In w vols -> length w = n) ->
      exists prices, cap_price f valuation discount reference libor None (Some (concat vols)) = Some (map Fin prices) /\
        Forall2 (fun x v => exists l, contract_dates NoStub t (fst (fst x)) l /\ (length l <= S n)%nat /\
           cap_value valuation discount reference (fixing_of libor) (convention c) (fst (fst x)) (snd (fst x)) (snd x) l v) (combine bs vols) prices.
Proof.
  intros OK. destruct (cap_batch t cs OK) as (n & N1 & H). exists n. split; [exact N1|]. intros bs c a isc MB HK HA HS. destruct (H bs c a isc MB HK HA HS) as (f & E & P). clear H.
  exists f. rewrite <- MB, !map_map. split; [exact E|]. intros valuation discount reference libor vols LI HR LV WV. rewrite map_length in LV.
  destruct (P valuation discount reference libor (concat vols) vols) as (prices & E' & F).
  - destruct LI as [LI|[LI|(k & EK)]]; [tauto|tauto|]. right. right. destruct bs as [|x [|y r]]; try discriminate. exists x. reflexivity.
  - exact HR.
  - exact LV.
  - exact WV.
  - apply broadcast_self. rewrite <- LV. rewrite <- (map_id vols) at 1. rewrite concat_of_map. apply flat_length. exact WV.
  - exists prices. split; [exact E'|]. eapply forall2_impl; [|exact F]. cbv beta. intros x v _ _ (l & A & B & _ & _ & C). exists l. repeat split; assumption.
Qed.
(** One volatility for all. *)
Lemma concat_repeat {A} (v : A) n m : concat (repeat (repeat v n) m) = repeat v (m * n).
Proof. induction m as [|m IH]; [reflexivity|]. cbn [repeat concat Nat.mul]. rewrite IH, repeat_app. reflexivity. Qed.
Lemma flat_batch t cs : ok_batch NoStub t cs -> exists n, (1 <= n)%nat /\ forall bs c a isc, map fst bs = cs -> (forall x, In x bs -> 0 < k_rate (fst x)) -> one_notional a bs -> sides isc bs ->
  exists f, cap_setup (map k_start cs) (map k_end cs) (map k_freq cs) t (map k_rate cs) c a isc = Some f /\
    forall valuation discount reference libor vol, libor = None \/ libor = Some 0 \/ (exists k, cs = [k]) -> positive_rates valuation reference ->
      exists prices, cap_price f valuation discount reference libor None (Some [vol]) = Some (map Fin prices) /\
        Forall2 (fun x v => exists l, contract_dates NoStub t (fst x) l /\ (length l <= S n)%nat /\ Forall is_date l /\ nondecreasing l /\
           cap_value valuation discount reference (fixing_of libor) (convention c) (fst x) (snd x) (repeat vol n) l v) bs prices.
Proof.
  intros OK. destruct (cap_batch t cs OK) as (n & N1 & H). exists n. split; [exact N1|]. intros bs c a isc MB HK HA HS. destruct (H bs c a isc MB HK HA HS) as (f & E & P). clear H.
  exists f. rewrite <- MB, !map_map. split; [exact E|]. intros valuation discount reference libor vol LI HR.
  destruct (P valuation discount reference libor [vol] (repeat (repeat vol n) (length bs))) as (prices & E' & F).
  - destruct LI as [LI|[LI|(k & EK)]]; [tauto|tauto|]. right. right. destruct bs as [|x [|y r]]; try discriminate. exists x. reflexivity.
  - exact HR.
  - apply repeat_length.
  - intros w I. apply repeat_spec in I as ->. apply repeat_length.
  - rewrite broadcast_one, concat_repeat. reflexivity.
  - exists prices. split; [exact E'|]. clear - F. revert prices F. induction bs as [|b bs IH]; intros prices F; [inversion F; constructor|].
    cbn [length repeat combine] in F. inversion F as [|? v ? vs A B]; subst. constructor; [exact A|apply IH; exact B].
Qed.
Theorem C86_flat_volatility_partial t cs : ok_batch NoStub t cs -> exists n, (1 <= n)%nat /\ forall bs c a isc, map fst bs = cs -> (forall x, In x bs -> 0 < k_rate (fst x)) -> one_notional a bs -> sides isc bs ->
  exists f, cap_setup (map k_start cs) (map k_end cs) (map k_freq cs) t (map k_rate cs) c a isc = Some f /\
    forall valuation discount reference libor vol, libor = None \/ libor = Some 0 \/ (exists k, cs = [k]) -> positive_rates valuation reference ->
      exists prices, cap_price f valuation discount reference libor None (Some [vol]) = Some (map Fin prices) /\
        Forall2 (fun x v => exists l, contract_dates NoStub t (fst x) l /\ (length l <= S n)%nat /\
           cap_value valuation discount reference (fixing_of libor) (convention c) (fst x) (snd x) (repeat vol n) l v) bs prices.
Proof.
  intros OK. destruct (flat_batch t cs OK) as (n & N1 & H). exists n. split; [exact N1|]. intros bs c a isc MB HK HA HS. destruct (H bs c a isc MB HK HA HS) as (f & E & P).
  exists f. split; [exact E|]. intros valuation discount reference libor vol LI HR. destruct (P valuation discount reference libor vol LI HR) as (prices & E' & F). exists prices. split; [exact E'|].
  eapply forall2_impl; [|exact F]. cbv beta. intros x v _ _ (l & A & B & _ & _ & C). exists l. repeat split; assumption.
Qed.

(** ** Parity *)
Lemma lognormal_parity K F s x y : 0 < K -> 0 < F -> lognormal_value true K F s x -> lognormal_value false K F s y -> x - y = F - K.
Proof.
  intros HK HF A B. assert (Q : forall b, quoted (black_args s K 1 F b) 1 F).
  { intros b. unfold quoted, discounts_to, forward_is, degenerate, black_args. cbn. repeat split; try lra; try reflexivity; try (intros (_ & X & _); apply X; reflexivity). }
  destruct (C39_parity _ 1 F (Q true)) as (p & q & P1 & P2 & _ & P3). change (with_type (black_args s K 1 F true) (Some true)) with (black_args s K 1 F true) in P1.
  change (with_type (black_args s K 1 F true) (Some false)) with (black_args s K 1 F false) in P2. change (strike (black_args s K 1 F true)) with K in P3.
  destruct (C39_value _ 1 F (Q true)) as (m & E1 & V1). destruct (C39_value _ 1 F (Q false)) as (m' & E2 & V2).
  assert (S1 : s * sqrt 1 = s) by (rewrite sqrt_1; ring).
  assert (X : x = m). { apply (fair_unique (black_args s K 1 F true) F (vanilla true K)); [|exact V1]. unfold fair. change (deviation (black_args s K 1 F true)) with (s * sqrt 1). rewrite S1. exact A. }
  assert (Y : y = m'). { apply (fair_unique (black_args s K 1 F false) F (vanilla false K)); [|exact V2]. unfold fair. change (deviation (black_args s K 1 F false)) with (s * sqrt 1). rewrite S1. exact B. }
  rewrite E1 in P1. rewrite E2 in P2. injection P1 as <-. injection P2 as <-. rewrite X, Y. lra.
Qed.
Lemma forward_positive valuation reference c s e : positive_rates valuation reference -> is_date s -> is_date e -> (ordinal s <= ordinal e)%Z -> (ordinal valuation <= ordinal s)%Z ->
  daycount_fraction c s e <> 0 -> 0 < daycount_fraction c s e /\ 0 < (reference s / reference e - 1) / daycount_fraction c s e.
Proof.
  intros HR Ds De O Q NF. pose proof (fraction_nonneg c s e Ds De O) as FN.
  assert (LT : (ordinal s < ordinal e)%Z).
  { destruct (Z.eq_dec (ordinal s) (ordinal e)) as [E|]; [|lia]. exfalso. apply NF. rewrite (is_date_inj s e Ds De E). apply fraction_same. exact De. }
  destruct (HR s e Q LT) as (R1 & R2). split; [lra|]. apply Rdiv_lt_0_compat; [|lra]. assert (1 < reference s / reference e); [|lra]. apply Rlt_div_r; lra.
Qed.
Lemma caplet_parity valuation discount reference fixing c k vol s e x y : 0 < k_rate k -> k_multiplier k = 1 -> k_basis k = 0 -> positive_rates valuation reference ->
  is_date s -> is_date e -> (ordinal s <= ordinal e)%Z -> ordinal e <> ordinal valuation ->
  caplet_value valuation discount reference fixing c k true vol s e x -> caplet_value valuation discount reference fixing c k false vol s e y ->
  x - y = floating_coupon valuation discount reference fixing c k s e e - value_of valuation discount (k_notional k * k_rate k * daycount_fraction c s e) e.
Proof.
  intros HK HM HB HR Ds De O NV. unfold caplet_value, floating_coupon, floating_rate, value_of. rewrite HM, HB. set (fr := daycount_fraction c s e).
  destruct (Z.leb_spec (ordinal e) (ordinal valuation)) as [P|P], (Z.leb_spec (ordinal valuation) (ordinal e)) as [P'|P']; try lia; [intros -> ->; ring|].
  destruct (Req_EM_T fr 0) as [Z0|NZ]; [intros -> ->; rewrite Z0; ring|]. intros (m & -> & A) (m' & -> & B).
  destruct (Z.ltb_spec (ordinal s) (ordinal valuation)) as [Q|Q].
  - rewrite A, B. unfold vanilla. replace (Rmax (k_rate k - fixing) 0) with (Rmax (fixing - k_rate k) 0 - (fixing - k_rate k)); [ring|].
    unfold Rmax. destruct (Rle_dec (fixing - k_rate k) 0), (Rle_dec (k_rate k - fixing) 0); lra.
  - destruct (forward_positive valuation reference c s e HR Ds De O Q NZ) as (_ & FP). fold fr in FP.
    pose proof (lognormal_parity _ _ _ _ _ HK FP A B) as D. replace m with (m' + ((reference s / reference e - 1) / fr - k_rate k)) by lra. ring.
Qed.
Lemma sum_over_both (P Q : R -> date -> date -> R -> Prop) (f : date -> date -> R) l : nondecreasing l -> Forall is_date l ->
  (forall w s e x y, In s l -> In e (tl l) -> (ordinal s <= ordinal e)%Z -> P w s e x -> Q w s e y -> x - y = f s e) ->
  forall w x y, (length l <= S (length w))%nat -> sum_over P w l x -> sum_over Q w l y -> x - y = over_periods f l.
Proof.
  intros N D. induction l as [|s [|e l] IH]; intros H w x y L; [cbn; intros -> ->; ring|cbn; intros -> ->; ring|].
  destruct w as [|u w]; [cbn in L; lia|]. cbn [sum_over]. intros (x1 & x2 & A1 & A2 & ->) (y1 & y2 & B1 & B2 & ->).
  inversion N as [|? ? N' NF]; subst. inversion NF as [|? ? LE _]; subst. inversion D as [|? ? _ D']; subst.
  rewrite periods_cons, <- (IH N' D' (fun w s e x y I J => H w s e x y (or_intror I) (or_intror J)) w x2 y2 ltac:(cbn in L |- *; lia) A2 B2).
  rewrite <- (H u s e x1 y1); [ring|left; reflexivity|left; reflexivity|exact LE|exact A1|exact B1].
Qed.

Lemma dates_unique t k l l' : is_date (k_start k) -> is_date (k_end k) -> (0 < k_freq k)%Z -> (ordinal (k_start k) <= ordinal (k_end k))%Z ->
  contract_dates NoStub t k l -> contract_dates NoStub t k l' -> l = l'.
Proof.
  intros Ds De Q O A B. destruct (Z.eq_dec (ordinal (k_start k)) (ordinal (k_end k))) as [E|NE].
  - assert (G : forall r, contract_dates NoStub t k r -> r = [k_end k]); [|rewrite (G l A), (G l' B); reflexivity].
    intros r (n & f & F & _ & ->). destruct n as [|n]; [reflexivity|]. exfalso. destruct (F 0%Z ltac:(lia)) as (F1 & F2). unfold period_mul in F1. cbn [quantity ptype] in F1.
    rewrite Z.mul_0_r in F1. destruct (add_sord _ _ _ _ Ds F1) as (O' & _). rewrite sord_0 in O' by exact Ds. lia.
  - destruct (C17_schedule_shape t false (mk_row (k_start k) (k_end k) (k_freq k)) l (conj Ds De) Q ltac:(cbn; lia) A) as (_ & _ & _ & _ & U). symmetry. apply U. exact B.
Qed.
(** The cap less the floor is the swap that pays the strike: on every date that
    is not a payment date, for every volatility. *)
Theorem C86_parity_partial t cs c a : ok_batch NoStub t cs -> (forall k, In k cs -> 0 < k_rate k /\ k_multiplier k = 1 /\ k_basis k = 0) ->
  one_notional a (map (fun k => (k, true)) cs) ->
  exists f g, cap_setup (map k_start cs) (map k_end cs) (map k_freq cs) t (map k_rate cs) c a (Some [true]) = Some f /\
    cap_setup (map k_start cs) (map k_end cs) (map k_freq cs) t (map k_rate cs) c a (Some [false]) = Some g /\
    forall valuation discount reference libor vol, libor = None \/ libor = Some 0 \/ (exists k, cs = [k]) -> positive_rates valuation reference ->
      (forall k l d, In k cs -> contract_dates NoStub t k l -> In d (tl l) -> ordinal d <> ordinal valuation) ->
      exists caps floors, cap_price f valuation discount reference libor None (Some [vol]) = Some (map Fin caps) /\
        cap_price g valuation discount reference libor None (Some [vol]) = Some (map Fin floors) /\
        Forall2 (fun k v => exists l, contract_dates NoStub t k l /\
          v = over_periods (fun s e => floating_coupon valuation discount reference (fixing_of libor) (convention c) k s e e) l - fixed_value valuation discount (convention c) k l)
          cs (map2 Rminus caps floors).
Proof.
  intros OK HK (N & HN1 & HN2). destruct (flat_batch t cs OK) as (n & N1 & H).
  assert (SB : forall b : bool, exists f, cap_setup (map k_start cs) (map k_end cs) (map k_freq cs) t (map k_rate cs) c a (Some [b]) = Some f /\
    forall valuation discount reference libor vol, libor = None \/ libor = Some 0 \/ (exists k, cs = [k]) -> positive_rates valuation reference ->
      exists prices, cap_price f valuation discount reference libor None (Some [vol]) = Some (map Fin prices) /\
        Forall2 (fun k v => exists l, contract_dates NoStub t k l /\ (length l <= S n)%nat /\ Forall is_date l /\ nondecreasing l /\
           cap_value valuation discount reference (fixing_of libor) (convention c) k b (repeat vol n) l v) cs prices).
  { intros b. destruct (H (map (fun k => (k, b)) cs) c a (Some [b])) as (f & E & P).
    - rewrite map_map. apply map_id.
    - intros x I. apply in_map_iff in I as (k & <- & I). apply HK. exact I.
    - exists N. split; [exact HN1|]. intros x I. apply in_map_iff in I as (k & <- & I). apply (HN2 (k, true)). apply in_map_iff. exists k. split; [reflexivity|exact I].
    - right. left. exists b. split; [reflexivity|]. intros x I. apply in_map_iff in I as (k & <- & _). reflexivity.
    - exists f. split; [exact E|]. intros valuation discount reference libor vol LI HR. destruct (P valuation discount reference libor vol LI HR) as (prices & E' & F).
      exists prices. split; [exact E'|]. clear - F. revert prices F. induction cs as [|k cs IH]; intros prices F; [inversion F; constructor|].
      cbn [map] in F. inversion F as [|? v ? vs A B]; subst. constructor; [exact A|apply IH; exact B]. }
  destruct (SB true) as (f & Ef & Pf). destruct (SB false) as (g & Eg & Pg). exists f, g. split; [exact Ef|]. split; [exact Eg|].
  intros valuation discount reference libor vol LI HR HV. destruct (Pf valuation discount reference libor vol LI HR) as (caps & E1 & F1). destruct (Pg valuation discount reference libor vol LI HR) as (floors & E2 & F2).
  exists caps, floors. split; [exact E1|]. split; [exact E2|]. destruct OK as (D & _). clear H SB Pf Pg Ef Eg E1 E2 HN1 HN2 LI.
  revert caps floors F1 F2. induction cs as [|k cs IH]; intros caps floors F1 F2; [inversion F1; subst; constructor|].
  inversion F1 as [|? x ? xs (l & A1 & A2 & A3 & A4 & A5) F1']; subst. inversion F2 as [|? y ? ys (l' & B1 & _ & _ & _ & B5) F2']; subst. unfold map2. cbn [combine map]. constructor.
  - exists l. split; [exact A1|]. destruct (D k (or_introl eq_refl)) as (D1 & D2 & _ & _ & D5 & D6 & _). cbn [regular_range fst snd] in D6.
    assert (l' = l) as -> by (apply (dates_unique t k); auto; lia). destruct (HK k (or_introl eq_refl)) as (K1 & K2 & K3).
    assert (OP : forall (f g : date -> date -> R) r, over_periods f r - over_periods g r = over_periods (fun s e => f s e - g s e) r).
    { intros f1 g1 r. induction r as [|u r IHr]; [cbn; ring|]. rewrite !periods_cons, <- IHr. destruct r; ring. }
    unfold fixed_value. rewrite OP. rewrite Forall_forall in A3.
    refine (sum_over_both _ _ _ l A4 _ _ _ x y _ A5 B5); [apply Forall_forall; exact A3| |rewrite repeat_length; exact A2].
    intros w s e p q Is Ie O P1 P2. assert (Ie' : In e l) by (destruct l; [destruct Ie|right; exact Ie]).
    apply (caplet_parity valuation discount reference (fixing_of libor) (convention c) k w s e p q); auto. apply (HV k l e); [left; reflexivity|exact A1|exact Ie].
  - apply IH; auto; first [intros; apply D; right; assumption | intros; apply HK; right; assumption | intros; eapply HV; [right; eassumption|eassumption|assumption]].
Qed.
(** The price is at least the discounted payoff at today's forward rates, so
    never negative. *)
Definition payoff_today (valuation : date) (discount reference : date -> R) (fixing : R) (c : daycount) (k : contract) (call : bool) (s e : date) : R :=
  if Z.leb (ordinal e) (ordinal valuation) then 0 else
  k_notional k * daycount_fraction c s e * discount e * vanilla call (k_rate k) (floating_rate valuation reference fixing (daycount_fraction c s e) s e).
Lemma lognormal_bound call K F s x : 0 < K -> 0 < F -> lognormal_value call K F s x -> vanilla call K F <= x.
Proof.
  intros HK HF A. assert (Q : quoted (black_args s K 1 F call) 1 F).
  { unfold quoted, discounts_to, forward_is, degenerate, black_args. cbn. repeat split; try lra; try reflexivity; try (intros (_ & X & _); apply X; reflexivity). }
  destruct (C39_bounds _ 1 F Q) as (v & E & B & _). destruct (C39_value _ 1 F Q) as (m & E1 & V1). rewrite E1 in E. injection E as <-.
  assert (S1 : s * sqrt 1 = s) by (rewrite sqrt_1; ring).
  assert (X : x = m). { apply (fair_unique (black_args s K 1 F call) F (vanilla call K)); [|destruct call; exact V1]. unfold fair. change (deviation (black_args s K 1 F call)) with (s * sqrt 1). rewrite S1. exact A. }
  rewrite X. change (strike (black_args s K 1 F call)) with K in B. replace (calls (black_args s K 1 F call)) with call in B by (destruct call; reflexivity). lra.
Qed.
Lemma caplet_bound valuation discount reference fixing c k call vol s e x : 0 < k_rate k -> 0 <= k_notional k -> 0 <= discount e -> positive_rates valuation reference ->
  is_date s -> is_date e -> (ordinal s <= ordinal e)%Z -> caplet_value valuation discount reference fixing c k call vol s e x ->
  payoff_today valuation discount reference fixing c k call s e <= x.
Proof.
  intros HK HN HD HR Ds De O. unfold caplet_value, payoff_today, floating_rate. set (fr := daycount_fraction c s e). pose proof (fraction_nonneg c s e Ds De O) as FN. fold fr in FN.
  destruct (Z.leb_spec (ordinal e) (ordinal valuation)) as [P|P]; [lra|]. destruct (Req_EM_T fr 0) as [Z0|NZ]; [intros ->; rewrite Z0; lra|].
  intros (m & -> & A). apply Rmult_le_compat_l; [apply Rmult_le_pos; [apply Rmult_le_pos|]; assumption|].
  destruct (Z.ltb_spec (ordinal s) (ordinal valuation)) as [Q|Q]; [rewrite A; lra|].
  destruct (forward_positive valuation reference c s e HR Ds De O Q NZ) as (_ & FP). fold fr in FP. apply (lognormal_bound call _ _ _ _ HK FP A).
Qed.
Theorem C86_bound_partial t cs : ok_batch NoStub t cs -> forall bs c a isc, map fst bs = cs -> (forall x, In x bs -> 0 < k_rate (fst x) /\ 0 <= k_notional (fst x)) -> one_notional a bs -> sides isc bs ->
  exists f, cap_setup (map k_start cs) (map k_end cs) (map k_freq cs) t (map k_rate cs) c a isc = Some f /\
    forall valuation discount reference libor vol, libor = None \/ libor = Some 0 \/ (exists k, cs = [k]) -> positive_rates valuation reference -> (forall d, 0 <= discount d) ->
      exists prices, cap_price f valuation discount reference libor None (Some [vol]) = Some (map Fin prices) /\
        Forall2 (fun x v => exists l, contract_dates NoStub t (fst x) l /\ 0 <= over_periods (payoff_today valuation discount reference (fixing_of libor) (convention c) (fst x) (snd x)) l <= v) bs prices.
Proof.
  intros OK bs c a isc MB HK HA HS. destruct (flat_batch t cs OK) as (n & N1 & H). destruct (H bs c a isc MB (fun x I => proj1 (HK x I)) HA HS) as (f & E & P).
  exists f. split; [exact E|]. intros valuation discount reference libor vol LI HR HD. destruct (P valuation discount reference libor vol LI HR) as (prices & E' & F). exists prices. split; [exact E'|].
  eapply forall2_impl; [|exact F]. cbv beta. intros (k, b) v I _ (l & A & B & D & SL & C). exists l. split; [exact A|]. cbn [fst snd] in *. destruct (HK (k, b) I) as (K1 & K2). cbn [fst] in K1, K2.
  assert (B' : (length l <= S (length (repeat vol n)))%nat) by (rewrite repeat_length; exact B). clear B A I. unfold cap_value in C.
  revert v C B'. generalize (repeat vol n) as w. induction l as [|s [|e l] IH]; intros w v C B'; [cbn in *; lra|cbn in *; lra|].
  destruct w as [|u w]; [cbn in B'; lia|]. cbn [sum_over] in C. destruct C as (x & y & C1 & C2 & ->). inversion SL as [|? ? S' SF]; subst. inversion SF as [|? ? LE _]; subst.
  inversion D as [|? ? Ds D']; subst. inversion D' as [|? ? De _]; subst. destruct (IH D' S' w y C2 ltac:(cbn in B' |- *; lia)) as (I1 & I2). rewrite periods_cons.
  pose proof (caplet_bound valuation discount reference (fixing_of libor) (convention c) k b u s e x K1 K2 (HD e) HR Ds De LE C1) as CB.
  assert (0 <= payoff_today valuation discount reference (fixing_of libor) (convention c) k b s e); [|lra].
  unfold payoff_today. destruct (Z.leb _ _); [lra|]. pose proof (fraction_nonneg (convention c) s e Ds De LE) as FN. pose proof (HD e) as HE.
  assert (0 <= vanilla b (k_rate k) (floating_rate valuation reference (fixing_of libor) (daycount_fraction (convention c) s e) s e)).
  { unfold vanilla. destruct b; apply Rmax_r. }
  apply Rmult_le_pos; [|assumption]. apply Rmult_le_pos; [|assumption]. apply Rmult_le_pos; assumption.
Qed.

(** Models other than the lognormal one are refused. *)
Theorem C86_models f valuation discount reference libor m context : m <> LOGNORMAL_RATE -> cap_price f valuation discount reference libor (Some m) context = None.
Proof. destruct m; [contradiction| | |]; intros _; destruct context; reflexivity. Qed.

(** ** A batch of a cap with two and a floor with four caplets *)
Definition k86a : contract := Contract (ymd_date 2021 1 15) (ymd_date 2022 1 15) 6 (ymd_date 2021 1 15) (ymd_date 2022 1 15) 100 (1 / 20) 0 1 6.
Definition k86b : contract := Contract (ymd_date 2021 1 31) (ymd_date 2023 1 31) 6 (ymd_date 2021 1 31) (ymd_date 2023 1 31) 100 (1 / 10) 0 1 6.
Lemma k86_ok : ok_batch NoStub MONTH [k86a; k86b].
Proof.
  split; [|split; [|discriminate]].
  - intros k [<-|[<-|[]]]; cbn; (split; [dates|split; [dates|split; [dates|split; [dates|split; [reflexivity|vm_compute; split; [split|]; discriminate]]]]]).
  - exists k86a. split; [left; reflexivity|vm_compute; reflexivity].
Qed.
Example C86_hypotheses_ex : ok_batch NoStub MONTH [k86a; k86b] /\ map fst [(k86a, true); (k86b, false)] = [k86a; k86b] /\
  (forall x, In x [(k86a, true); (k86b, false)] -> 0 < k_rate (fst x)) /\ one_notional (Some (Number 100)) [(k86a, true); (k86b, false)] /\
  sides (Some [true; false]) [(k86a, true); (k86b, false)] /\ positive_rates (ymd_date 2021 1 4) (fun d => exp (- (IZR (ordinal d) / 10000))) /\
  (forall k, In k [k86a; k86b] -> k_multiplier k = 1 /\ k_basis k = 0).
Proof.
  split; [exact k86_ok|]. split; [reflexivity|]. split; [intros x [<-|[<-|[]]]; cbn; lra|]. split.
  { exists 100. split; [right; left; split; [reflexivity|lra]|]. intros x [<-|[<-|[]]]; reflexivity. }
  split; [left; reflexivity|]. split; [|intros k [<-|[<-|[]]]; split; reflexivity].
  intros s e _ L. split; [apply exp_pos|]. apply exp_increasing. apply IZR_lt in L. lra.
Qed.

(** ** Where the code departs from the property *)
(** Without volatilities in the pricing context nothing is priced, although the
    market's volatility surface is documented to be used. *)
Theorem C86_surface_refuted starts ends freq t strike c a isc f valuation discount reference libor model :
  cap_setup starts ends freq t strike c a isc = Some f -> cap_price f valuation discount reference libor model None = None.
Proof. intros _. destruct model as [[]|]; reflexivity. Qed.

Lemma k86_rows : periodic_schedule (map2 (fun '(s, e) q => mk_row s e q) (combine [k_start k86a; k_start k86b] [k_end k86a; k_end k86b]) [6%Z; 6%Z]) MONTH false false None =
  Some [[ymd_date 2021 1 15; ymd_date 2021 7 15; ymd_date 2022 1 15; ymd_date 2022 1 15; ymd_date 2022 1 15];
        [ymd_date 2021 1 31; ymd_date 2021 7 31; ymd_date 2022 1 31; ymd_date 2022 7 31; ymd_date 2023 1 31]].
Proof. vm_compute. reflexivity. Qed.
Lemma bind_none {A B} (o : option A) (f : A -> option B) : (forall x, o = Some x -> f x = None) -> bind o f = None.
Proof. destruct o; cbn; [auto|reflexivity]. Qed.
(** Two contracts with their own notionals cannot be priced. *)
Theorem C86_notionals_refuted valuation discount reference libor context : exists f,
  cap_setup [k_start k86a; k_start k86b] [k_end k86a; k_end k86b] [6%Z; 6%Z] MONTH [1 / 20; 1 / 10] None (Some (Numbers [100; 200])) None = Some f /\
  cap_price f valuation discount reference libor None context = None.
Proof.
  eexists. split; [unfold cap_setup; rewrite k86_rows; reflexivity|]. destruct context as [vols|]; [|reflexivity].
  unfold cap_price. cbn [cf_batch cf_count cf_reset cf_payment cf_fractions cf_notional cf_strike cf_is_cap cf_contract].
  do 4 (apply bind_none; intros ? _). reflexivity.
Qed.
(** Two contracts with one strike cannot be priced. *)
Theorem C86_strike_refuted valuation discount reference libor context : exists f,
  cap_setup [k_start k86a; k_start k86b] [k_end k86a; k_end k86b] [6%Z; 6%Z] MONTH [1 / 20] None None None = Some f /\
  cap_price f valuation discount reference libor None context = None.
Proof.
  eexists. split; [unfold cap_setup; rewrite k86_rows; reflexivity|]. destruct context as [vols|]; [|reflexivity].
  unfold cap_price. cbn [cf_batch cf_count cf_reset cf_payment cf_fractions cf_notional cf_strike cf_is_cap cf_contract].
  do 2 (apply bind_none; intros ? _). reflexivity.
Qed.
(** Two contracts cannot be priced after a rate has been set. *)
Theorem C86_fixing_refuted valuation discount reference fixing context : fixing <> 0 -> exists f,
  cap_setup [k_start k86a; k_start k86b] [k_end k86a; k_end k86b] [6%Z; 6%Z] MONTH [1 / 20; 1 / 10] None None None = Some f /\
  cap_price f valuation discount reference (Some fixing) None context = None.
Proof.
  intros NZ. eexists. split; [unfold cap_setup; rewrite k86_rows; reflexivity|]. destruct context as [vols|]; [|reflexivity].
  unfold cap_price. cbn [cf_batch cf_count cf_reset cf_payment cf_fractions cf_notional cf_strike cf_is_cap cf_contract].
  unfold libor_rates. destruct (Req_EM_T fixing 0); [contradiction|]. reflexivity.
Qed.

(** One period of 181 days. *)
Definition k86c : contract := Contract (ymd_date 2021 1 15) (ymd_date 2021 7 15) 6 (ymd_date 2021 1 15) (ymd_date 2021 7 15) 1 (1 / 20) 0 1 6.
Lemma k86c_rows : periodic_schedule (map2 (fun '(s, e) q => mk_row s e q) (combine [k_start k86c] [k_end k86c]) [6%Z]) MONTH false false None = Some [[ymd_date 2021 1 15; ymd_date 2021 7 15]].
Proof. vm_compute. reflexivity. Qed.
Lemma k86c_price valuation discount reference fixing vol a b N : notional_or_one a = [N] -> fixing <> 0 -> exists f,
  cap_setup [k_start k86c] [k_end k86c] [6%Z] MONTH [1 / 20] None a (Some [b]) = Some f /\
  cap_price f valuation discount reference (Some fixing) None (Some [vol]) =
    option_map (fun p => [p +x Fin 0]) (caplet_price valuation discount reference fixing vol N (daycount_fraction ACTUAL_360 (ymd_date 2021 1 15) (ymd_date 2021 7 15)) (1 / 20) b (ymd_date 2021 1 15) (ymd_date 2021 7 15)).
Proof.
  intros EN NZ. eexists. split; [unfold cap_setup; rewrite k86c_rows, EN; reflexivity|].
  unfold cap_price. cbn [cf_batch cf_count cf_reset cf_payment cf_fractions cf_notional cf_strike cf_is_cap cf_contract].
  unfold libor_rates. destruct (Req_EM_T fixing 0); [contradiction|]. cbn [width map tl length repeat removelast concat app tf_repeat flat_map seq map2 combine].
  change (map2 (daycount_fraction ACTUAL_360) [ymd_date 2021 1 15] [ymd_date 2021 7 15]) with [daycount_fraction ACTUAL_360 (ymd_date 2021 1 15) (ymd_date 2021 7 15)].
  cbn [app]. rewrite !broadcast_one. cbn [bind repeat combine map_opt].
  destruct (caplet_price valuation discount reference fixing vol N (daycount_fraction ACTUAL_360 (ymd_date 2021 1 15) (ymd_date 2021 7 15)) (1 / 20) b (ymd_date 2021 1 15) (ymd_date 2021 7 15)); reflexivity.
Qed.
Lemma k86c_caplet valuation discount reference fixing vol N b : (ordinal (ymd_date 2021 1 15) < ordinal valuation <= ordinal (ymd_date 2021 7 15))%Z ->
  caplet_price valuation discount reference fixing vol N (daycount_fraction ACTUAL_360 (ymd_date 2021 1 15) (ymd_date 2021 7 15)) (1 / 20) b (ymd_date 2021 1 15) (ymd_date 2021 7 15) =
  Some (Fin ((if Z.ltb (ordinal valuation) (ordinal (ymd_date 2021 7 15)) then discount (ymd_date 2021 7 15) else 0) * (N * (181 / 360) * vanilla b (1 / 20) fixing))).
Proof.
  intros (A & B). unfold caplet_price, cap_forward, date_ltb, date_gtb. destruct (Z.ltb_spec (ordinal (ymd_date 2021 7 15)) (ordinal valuation)); [lia|].
  destruct (Z.ltb_spec (ordinal (ymd_date 2021 1 15)) (ordinal valuation)); [|lia].
  destruct (black_some vol (1 / 20) (curve_time valuation (ymd_date 2021 1 15)) fixing b) as (p & E). unfold black_args in E. rewrite E. cbn [bind xmul]. rewrite act360.
  change (ordinal (ymd_date 2021 7 15) - ordinal (ymd_date 2021 1 15))%Z with 181%Z. reflexivity.
Qed.
(** Between the dates of the period the payoff is known. *)
Example C86_ex reference vol : exists f, cap_setup [k_start k86c] [k_end k86c] [6%Z] MONTH [1 / 20] None (Some (Number 100)) (Some [true]) = Some f /\
  cap_price f (ymd_date 2021 3 15) (fun _ => 9 / 10) reference (Some (1 / 10)) None (Some [vol]) = Some [Fin (100 * (181 / 360) * (9 / 10) * (1 / 10 - 1 / 20))].
Proof.
  destruct (k86c_price (ymd_date 2021 3 15) (fun _ => 9 / 10) reference (1 / 10) vol (Some (Number 100)) true 100) as (f & E & P); [cbn; destruct (Req_EM_T 100 0); [lra|reflexivity]|lra|].
  exists f. split; [exact E|]. rewrite P, k86c_caplet by (vm_compute; split; [reflexivity|discriminate]). cbn [option_map xadd]. do 3 f_equal.
  change (Z.ltb (ordinal (ymd_date 2021 3 15)) (ordinal (ymd_date 2021 7 15))) with true. unfold vanilla. rewrite Rmax_left by lra. field.
Qed.
(** A notional of zero is priced as a notional of one. *)
Theorem C86_zero_notional_refuted reference vol : exists f, cap_setup [k_start k86c] [k_end k86c] [6%Z] MONTH [1 / 20] None (Some (Number 0)) (Some [true]) = Some f /\
  cap_price f (ymd_date 2021 3 15) (fun _ => 1) reference (Some (1 / 10)) None (Some [vol]) = Some [Fin (181 / 360 * (1 / 20))].
Proof.
  destruct (k86c_price (ymd_date 2021 3 15) (fun _ => 1) reference (1 / 10) vol (Some (Number 0)) true 1) as (f & E & P); [cbn; destruct (Req_EM_T 0 0); [reflexivity|lra]|lra|].
  exists f. split; [exact E|]. rewrite P, k86c_caplet by (vm_compute; split; [reflexivity|discriminate]). cbn [option_map xadd]. do 3 f_equal.
  change (Z.ltb (ordinal (ymd_date 2021 3 15)) (ordinal (ymd_date 2021 7 15))) with true. unfold vanilla. rewrite Rmax_left by lra. field.
Qed.
(** On a payment date the payment of the swap counts and that of the cap does
    not, so parity fails. *)
Theorem C86_payment_date_refuted reference vol : exists f g,
  cap_setup [k_start k86c] [k_end k86c] [6%Z] MONTH [1 / 20] None None (Some [true]) = Some f /\
  cap_setup [k_start k86c] [k_end k86c] [6%Z] MONTH [1 / 20] None None (Some [false]) = Some g /\
  cap_price f (k_end k86c) (fun _ => 1) reference (Some (1 / 10)) None (Some [vol]) = Some [Fin 0] /\
  cap_price g (k_end k86c) (fun _ => 1) reference (Some (1 / 10)) None (Some [vol]) = Some [Fin 0] /\
  floating_coupon (k_end k86c) (fun _ => 1) reference (1 / 10) ACTUAL_360 k86c (k_start k86c) (k_end k86c) (k_end k86c)
    - value_of (k_end k86c) (fun _ => 1) (k_notional k86c * k_rate k86c * daycount_fraction ACTUAL_360 (k_start k86c) (k_end k86c)) (k_end k86c) = 181 / 360 * (1 / 20).
Proof.
  change (k_end k86c) with (ymd_date 2021 7 15) at 3 4.
  destruct (k86c_price (ymd_date 2021 7 15) (fun _ => 1) reference (1 / 10) vol None true 1 eq_refl) as (f & E & P); [lra|].
  destruct (k86c_price (ymd_date 2021 7 15) (fun _ => 1) reference (1 / 10) vol None false 1 eq_refl) as (g & E' & P'); [lra|].
  exists f, g. split; [exact E|]. split; [exact E'|]. change (k_end k86c) with (ymd_date 2021 7 15) in *. rewrite P, P', !k86c_caplet by (vm_compute; split; [reflexivity|discriminate]).
  rewrite Z.ltb_irrefl. cbn [option_map xadd]. split; [do 3 f_equal; ring|]. split; [do 3 f_equal; ring|].
  unfold floating_coupon, floating_rate, value_of. change (k_start k86c) with (ymd_date 2021 1 15). rewrite act360. flags_of tt. days_of. cbn [k86c k_notional k_multiplier k_basis k_rate]. field.
Qed.

Print Assumptions C86_value_partial.
Print Assumptions C86_flat_volatility_partial.
Print Assumptions C86_parity_partial.
Print Assumptions C86_bound_partial.
Print Assumptions C86_models.
Print Assumptions C86_surface_refuted.
Print Assumptions C86_notionals_refuted.
Print Assumptions C86_strike_refuted.
Print Assumptions C86_fixing_refuted.
Print Assumptions C86_zero_notional_refuted.
Print Assumptions C86_payment_date_refuted.
