(** C96: the American equity options of the pricing platform. *)
From Coq Require Import Reals Lra Psatz.
From Coquelicot Require Import Coquelicot.
From Coq Require Import String ZArith Lia List Bool Permutation Sorted.
From Verif Require Import TensorModel TensorProofs DateModel BoundedCalModel ScheduleModel RatesModel InstrumentModel PlatformModel BrentModel ExtReal InterpModel BootstrapModel BlackScholesModel BlackScholesSpec BlackScholesProofs AmericanProofs3 LsmModel LsmSpec BatchModel BatchSpec BatchProofs PropsLsm PropsPlatform2 PropsBatch EquityOptionModel EquityOptionSpec EquityOptionProofs.
Import ListNotations.
Open Scope R_scope.

(** ** Batches *)
Definition rep_option (g : list option_message) (b : option_batch) : Prop :=
  match g with
  | [] => False
  | a :: _ => eb_holder b = map e_holder g /\ eb_currency b = map e_currency g /\ eb_expiry b = map e_expiry g /\ eb_equity b = map e_equity g /\
      eb_amount b = map (fun m => decimal_to_double (e_amount m)) g /\ eb_rule b = e_rule a /\ eb_calendar b = e_holidays a /\
      eb_strike b = map (fun m => decimal_to_double (e_strike m)) g /\ eb_call b = map e_call g /\ eb_settlement b = map e_settlement g /\ eb_names b = map e_name g
  end.
(** Every contract of a portfolio is in exactly one batch, in the order given, with
    the contracts of the same conventions, and the batch holds its own terms. *)
Theorem C96_options hasher ps : separates hasher option_key ps ->
  exists gs d, options_from_protos hasher ps = Some d /\ partition same_option_conventions ps gs /\
    Forall2 (fun g kv => option_size (snd kv) (length g) /\ forall i p, nth_error g i = Some p -> option_entry (snd kv) i (agreed_option p)) gs d.
Proof.
  intros SP. assert (X : exists hs d, options_from_protos hasher ps = Some d /\ keys_ok (fun m => hasher (option_key m)) hs ps /\
    Forall2 (fun h kv => fst kv = h /\ rep_option (of_hash (fun m => hasher (option_key m)) h ps) (snd kv)) hs d).
  { unfold options_from_protos. apply (loop_spec (fun m => hasher (option_key m)) _ _ rep_option (fun m => In m ps)); [| |auto].
    - intros m _. unfold rep_option. cbn -[decimal_to_double]. repeat split; reflexivity.
    - intros g v m NE G IM RG. eexists; split; [reflexivity|]. destruct g as [|a g']; [congruence|]. unfold rep_option in *. cbn [app]. change (a :: g' ++ [m]) with ((a :: g') ++ [m]).
      remember (a :: g') as g eqn:EG. destruct RG as (A1 & A2 & A3 & A4 & A5 & A6 & A7 & A8 & A9 & A10 & A11).
      cbn -[decimal_to_double]. rewrite A1, A2, A3, A4, A5, A6, A7, A8, A9, A10, A11, !map_app. cbn -[decimal_to_double]. repeat split; reflexivity. }
  destruct X as (hs & d & D1 & D2 & D3). exists (map (fun h => of_hash (fun m => hasher (option_key m)) h ps) hs), d. split; [exact D1|]. split.
  - apply classes_partition; [exact D2|]. intros p q P Q. unfold same_option_conventions. split.
    + intros E. apply SP in E; [|exact P|exact Q]. unfold option_key in E. injection E; intros; split; assumption.
    + intros (E1 & E2). unfold option_key. rewrite E1, E2. reflexivity.
  - clear D1 D2. induction D3 as [|h kv hs d [E1 E2] F IH]; constructor; [|exact IH].
    remember (of_hash (fun m => hasher (option_key m)) h ps) as g eqn:EG.
    assert (SG : forall p q, In p g -> In q g -> option_key p = option_key q).
    { intros p q P Q. rewrite EG in P, Q. apply of_hash_in in P, Q. apply SP; [tauto|tauto|]. destruct P as (_ & ->), Q as (_ & ->). reflexivity. }
    clear IH F EG. unfold rep_option in E2. destruct g as [|a g']; [destruct E2|]. remember (a :: g') as g eqn:EG.
    destruct E2 as (A1 & A2 & A3 & A4 & A5 & A6 & A7 & A8 & A9 & A10 & A11). split.
    + unfold option_size. rewrite A1, A2, A3, A4, A5, A8, A9, A10, A11. rewrite !map_length. repeat split; reflexivity.
    + intros i p N. pose proof (SG p a (nth_error_In _ _ N)) as K. rewrite EG in K at 1. specialize (K (or_introl eq_refl)). unfold option_key in K. injection K as K1 K2.
      unfold option_entry, agreed_option. rewrite A1, A2, A3, A4, A5, A6, A7, A8, A9, A10, A11. cbn -[decimal_to_double amount].
      rewrite !nth_error_map, N. cbn -[decimal_to_double amount]. rewrite !amount_double, K1, K2. repeat split; reflexivity.
Qed.

(** ** The price of an option *)
Section Price.
  Variables (gbm : nat -> nat -> R) (w : nat -> nat -> R) (pinv : (nat -> nat -> R) -> nat -> nat -> R) (samples net : nat) (m : option nat).
  Hypothesis G : driftless gbm (times net) w.
  Variables (spot T strike sigma df : R) (call : bool).
  Hypotheses (SP : 0 < spot) (TP : 0 < T) (DP : 0 < df).
  Local Notation price := (bs_lsm_price gbm pinv samples net m spot T strike sigma df call).
  Local Notation rate := (- ln df / T).
  (** the stock at the [e]th exercise time *)
  Local Notation path := (fun e s => stock spot rate sigma (times net e * T) (sqrt T * w e s)).

  Lemma price_value : price = option_map (fun v => v * spot)
    (least_square_mc samples net (seq 0 net) (option_payoff_fn (rescaled gbm net rate T sigma) (strike / spot) call) 3
      (polynomial_basis samples (fun e s => ln (rescaled gbm net rate T sigma e s))) pinv (Some (fun e _ => exp (- rate * times net e * T))) m).
  Proof using TP DP.
    unfold bs_lsm_price. rewrite (rate_value df T DP TP). unfold rlt. destruct (Rlt_dec T 0); [lra|reflexivity].
  Qed.
  Lemma payoff_path e s : spot * option_payoff_fn (rescaled gbm net rate T sigma) (strike / spot) call e s = exercise_value call strike (path e s).
  Proof using SP TP G.
    rewrite scaled_payoff by exact SP. f_equal. rewrite (rescaled_stock gbm net w _ T sigma e s TP G). unfold stock. ring.
  Qed.
  Lemma discount_power e : exp (- rate * times net e * T) = Rpower df (times net e).
  Proof using TP. clear SP. unfold Rpower. f_equal. field. lra. Qed.
  Lemma factors_pos e s : 0 < factors (Some (fun e (_ : nat) => exp (- rate * times net e * T))) e s.
  Proof using. cbn. apply exp_pos. Qed.

  (** The price is the mean, over the samples that were not used to calibrate, of
      the discounted value of exercising the option on the stock at one of the
      exercise times. *)
  Theorem C96_stopping : (0 < net)%nat -> (match m with None => 0 | Some k => k end < samples)%nat ->
    exists tau, (forall s, (s < samples)%nat -> (tau s < net)%nat /\ (tau s <> (net - 1)%nat -> 0 < exercise_value call strike (path (tau s) s))) /\
      price = Some (let first := match m with None => 0%nat | Some k => k end in
        mean_from first (samples - first) (fun s => Rpower df (times net (tau s)) * exercise_value call strike (path (tau s) s))).
  Proof using SP TP DP G.
    intros NP MS. rewrite price_value.
    destruct (C47_stopping_rule samples net (seq 0 net) (option_payoff_fn (rescaled gbm net rate T sigma) (strike / spot) call) 3
      (polynomial_basis samples (fun e s => ln (rescaled gbm net rate T sigma e s))) pinv (Some (fun e _ => exp (- rate * times net e * T))) m) as (tau & A & B).
    - intros e s _. pose proof (factors_pos e s). lra.
    - destruct net; [lia|discriminate].
    - rewrite seq_length. lia.
    - exact MS.
    - rewrite seq_length in A. exists tau. split.
      + intros s L. destruct (A s L) as (A1 & A2). split; [exact A1|]. intros NE. specialize (A2 NE). rewrite seq_nth in A2 by exact A1. cbn [Nat.add] in A2.
        rewrite <- payoff_path. apply Rmult_lt_0_compat; assumption.
      + rewrite B. cbn [option_map]. f_equal. cbv zeta. unfold mean_from. set (first := match m with None => 0%nat | Some k => k end) in *. clearbody first.
        assert (MS2 : forall f g k, (forall i, (i < k)%nat -> spot * f i = g i) -> rsum f k / INR k * spot = rsum g k / INR k).
        { intros f g k FG. rewrite (rsum_ext g (fun i => spot * f i)) by (intros i L; symmetry; apply FG, L). rewrite rsum_scal. unfold Rdiv. ring. }
        apply MS2. intros i L.
        unfold discounted. destruct (A (first + i)%nat ltac:(lia)) as (A1 & _). rewrite seq_nth by exact A1. cbn [Nat.add factors]. rewrite <- payoff_path, <- discount_power. ring.
  Qed.

  (** Without a separate set of samples for the calibration the price is at least
      the value of exercising today. *)
  Theorem C96_intrinsic v : m = None -> (0 < net)%nat -> (0 < samples)%nat -> inverts_diagonal pinv 3 -> price = Some v ->
    exercise_value call strike spot <= v.
  Proof using SP TP DP G.
    intros MN NP SN GI. rewrite price_value, MN. set (payoff := option_payoff_fn (rescaled gbm net rate T sigma) (strike / spot) call).
    assert (N1 : exists k, net = S k) by (exists (net - 1)%nat; lia). destruct N1 as (k & N1).
    assert (R0 : forall s, rescaled gbm net rate T sigma 0 s = 1) by (intros s; exact (rescaled_start gbm net w _ T sigma s TP G)).
    destruct (least_square_mc _ _ _ _ _ _ _ _ _) as [u|] eqn:E; [|discriminate]. cbn [option_map]. intros V. injection V as <-. rewrite N1 in E at 2.
    pose proof (at_least_today samples net k payoff 3 (polynomial_basis samples (fun e s => ln (rescaled gbm net rate T sigma e s))) pinv
      (Some (fun e _ => exp (- rate * times net e * T))) (payoff 0%nat 0%nat) u SN ltac:(lia) ltac:(lia) GI factors_pos) as AT.
    assert (LE : payoff 0%nat 0%nat <= u).
    { apply AT; [| | | |exact E].
      - intros s. cbn [factors]. unfold times. cbn [INR]. unfold Rdiv. rewrite Rmult_0_l, Rmult_0_r, Rmult_0_l. apply exp_0.
      - intros s. unfold payoff, option_payoff_fn. rewrite !R0. reflexivity.
      - intros t s. unfold payoff, option_payoff_fn. cbv zeta. destruct call; apply Rmax_r.
      - intros b s L. unfold polynomial_basis. rewrite R0, ln_1. rewrite (rsum_0 _ samples) by (intros; rewrite R0; apply ln_1).
        replace (0 - 0 / INR samples) with 0 by (unfold Rdiv; ring). destruct b as [|b]; [reflexivity|]. cbn [Nat.eqb]. rewrite pow_i by lia. reflexivity. }
    assert (PE : spot * payoff 0%nat 0%nat = exercise_value call strike spot).
    { unfold payoff. rewrite scaled_payoff by exact SP. rewrite R0, Rmult_1_r. reflexivity. }
    rewrite <- PE, Rmult_comm. apply Rmult_le_compat_r; lra.
  Qed.
  (** A put is worth no more than the strike when discount factors are at most 1. *)
  Theorem C96_put_bound v : call = false -> 0 <= strike -> df <= 1 -> (0 < net)%nat -> (match m with None => 0 | Some k => k end < samples)%nat -> price = Some v -> 0 <= v <= strike.
  Proof using SP TP DP G.
    intros CF K0 D1 NP MS PV. destruct (C96_stopping NP MS) as (tau & A & B). rewrite B in PV. injection PV as <-. set (first := match m with None => 0%nat | Some k => k end) in *.
    assert (Q : forall s, (first <= s < first + (samples - first))%nat -> 0 <= Rpower df (times net (tau s)) * exercise_value call strike (path (tau s) s) <= strike).
    { intros s L. unfold exercise_value. rewrite CF. assert (X : 0 < path (tau s) s) by (unfold stock; apply Rmult_lt_0_compat; [exact SP|apply exp_pos]).
      assert (P1 : 0 < Rpower df (times net (tau s)) <= 1).
      { split; [unfold Rpower; apply exp_pos|]. unfold Rpower. rewrite <- exp_0. assert (LN : ln df <= 0) by (rewrite <- ln_1; destruct D1 as [D1|D1]; [left; apply ln_increasing; assumption|rewrite D1; lra]).
        assert (TN : 0 <= times net (tau s)). { unfold times. destruct (Nat.eq_dec (net - 1) 0) as [Z|Z]; [rewrite Z; cbn [INR]; unfold Rdiv; rewrite Rinv_0; lra|]. apply Rle_mult_inv_pos; [apply pos_INR|apply lt_0_INR; lia]. }
        assert (Y : times net (tau s) * ln df <= 0) by nra. destruct Y as [Y|Y]; [left; apply exp_increasing; exact Y|rewrite Y; lra]. }
      set (p := Rpower df (times net (tau s))) in *. set (x := path (tau s) s) in *. clearbody p x. assert (MB : 0 <= Rmax (strike - x) 0 <= strike) by (unfold Rmax; destruct (Rle_dec _ _); lra).
      set (y := Rmax (strike - x) 0) in *. clearbody y. nra. }
    split.
    - rewrite <- (mean_0 first (samples - first)). apply mean_le. intros s L. apply Q, L.
    - apply Rle_trans with (mean_from first (samples - first) (fun _ => strike)); [apply mean_le; intros s L; apply Q, L|].
      unfold mean_from. rewrite rsum_const. right. field. apply not_0_INR. lia.
  Qed.
End Price.
(** The stock at an exercise time: with a Brownian motion that is normal with the
    variance of its time, the discounted stock is worth its spot price on average;
    the last exercise time is the expiry and is discounted with the discount factor
    to expiry. *)
Theorem C96_martingale spot T sigma df net e : 0 < T -> 0 < df ->
  expectation (fun z => Rpower df (times net e) * stock spot (- ln df / T) sigma (times net e * T) (sqrt T * (sqrt (times net e) * z))) spot.
Proof.
  intros TP DP. assert (TN : 0 <= times net e).
  { unfold times. destruct (Nat.eq_dec (net - 1) 0) as [Z|Z]; [rewrite Z; cbn [INR]; unfold Rdiv; rewrite Rinv_0; lra|]. apply Rle_mult_inv_pos; [apply pos_INR|apply lt_0_INR; lia]. }
  set (t := times net e) in *. clearbody t.
  eapply expectation_ext; [|eapply (expectation_scal _ (spot * exp (- (sigma ^ 2 / 2 * t * T))) _ spot (expect_exp (sigma * (sqrt T * sqrt t))))].
  - intros z. cbv beta. unfold stock, Rpower. 
    rewrite (Rmult_assoc spot (exp (- (sigma ^ 2 / 2 * t * T)))), <- exp_plus. rewrite <- (Rmult_assoc (exp (t * ln df)) spot), (Rmult_comm (exp (t * ln df)) spot), (Rmult_assoc spot (exp (t * ln df))), <- exp_plus.
    f_equal. f_equal. field. lra.
  - rewrite (Rmult_assoc spot), <- exp_plus. pose proof (sqrt_sqrt T ltac:(lra)) as S1. pose proof (sqrt_sqrt t TN) as S2.
    replace (- (sigma ^ 2 / 2 * t * T) + sigma * (sqrt T * sqrt t) * (sigma * (sqrt T * sqrt t)) / 2) with 0; [rewrite exp_0; ring|].
    replace (sigma * (sqrt T * sqrt t) * (sigma * (sqrt T * sqrt t))) with (sigma ^ 2 * (sqrt T * sqrt T) * (sqrt t * sqrt t)) by ring. rewrite S1, S2. field.
Qed.
Theorem C96_expiry df net : (1 < net)%nat -> 0 < df -> times net (net - 1) = 1 /\ Rpower df (times net (net - 1)) = df /\ times net 0 = 0 /\
  (forall e, (e < net - 1)%nat -> times net e < times net (S e)).
Proof.
  intros NP DP. assert (NR : 0 < INR (net - 1)) by (apply lt_0_INR; lia). assert (E : times net (net - 1) = 1) by (unfold times; field; lra). split; [exact E|]. split; [rewrite E; apply Rpower_1; exact DP|].
  split; [unfold times; cbn [INR]; unfold Rdiv; ring|]. intros e L. unfold times. rewrite S_INR. apply Rmult_lt_compat_r; [apply Rinv_0_lt_compat; exact NR|lra].
Qed.

(** ** The quotes of a batch *)
Lemma risk_free_types l : process_curve_types (map RiskFreeCurve l) None = Some (map RiskFreeCurve (np_unique l), map (fun h => index_of h (np_unique l)) l).
Proof.
  unfold process_curve_types. cbv zeta. replace (map signature (map RiskFreeCurve l)) with l by (rewrite map_map; symmetry; apply map_id). rewrite (map_opt_all _ RiskFreeCurve); [reflexivity|].
  intros x X. apply (np_unique_in x l) in X. unfold lookup. destruct (find _ _) as [c|] eqn:Q.
  - apply find_some in Q as (Q1 & Q2). apply in_rev, in_map_iff in Q1 as (y & <- & _). cbn in Q2. apply String.eqb_eq in Q2. rewrite Q2. reflexivity.
  - exfalso. pose proof (find_none _ _ Q (RiskFreeCurve x)) as H. cbv beta in H. cbn [signature] in H. rewrite String.eqb_refl in H. discriminate H. apply in_rev. rewrite rev_involutive. apply in_map. exact X.
Qed.
Lemma sorted_same l : forall l', StronglySorted (fun x y => String.compare x y = Lt) l -> StronglySorted (fun x y => String.compare x y = Lt) l' -> (forall x, In x l <-> In x l') -> l = l'.
Proof.
  assert (IR : forall x, String.compare x x <> Lt) by (intros x H; pose proof (String.compare_antisym x x) as A; rewrite H in A; discriminate).
  induction l as [|x l IH]; intros [|y l'] S1 S2 M; [reflexivity|destruct (proj2 (M y) (or_introl eq_refl))|destruct (proj1 (M x) (or_introl eq_refl))|].
  inversion S1 as [|? ? S1' F1]; inversion S2 as [|? ? S2' F2]; subst. rewrite Forall_forall in F1, F2.
  assert (XY : x = y).
  { destruct (proj1 (M x) (or_introl eq_refl)) as [E|X]; [symmetry; exact E|]. destruct (proj2 (M y) (or_introl eq_refl)) as [E|Y]; [exact E|].
    pose proof (F2 x X) as A. pose proof (F1 y Y) as B. rewrite String.compare_antisym, A in B. discriminate. }
  subst y. f_equal. apply IH; [exact S1'|exact S2'|]. intros z. split; intros Z.
  - destruct (proj1 (M z) (or_intror Z)) as [E|W]; [|exact W]. subst z. destruct (IR x (F1 x Z)).
  - destruct (proj2 (M z) (or_intror Z)) as [E|W]; [|exact W]. subst z. destruct (IR x (F2 x Z)).
Qed.
Lemma ordered_homes home equities : listed_in_order home equities -> map home (np_unique equities) = np_unique (map home equities).
Proof.
  intros LO. apply sorted_same; [|apply np_unique_sorted|].
  - pose proof (np_unique_sorted equities) as S. assert (SUB : forall x, In x (np_unique equities) -> In x equities) by (intros x; apply np_unique_in).
    induction S as [|x l S IH F]; cbn [map]; constructor; [apply IH; intros y Y; apply SUB; right; exact Y|]. rewrite Forall_forall in F |- *.
    intros z Z. apply in_map_iff in Z as (y & <- & Y). apply LO; [apply SUB; left; reflexivity|apply SUB; right; exact Y|exact (F y Y)].
  - intros z. rewrite np_unique_in, !in_map_iff. split; intros (x & E & X); exists x; (split; [exact E|]); apply np_unique_in; exact X.
Qed.
Lemma map_opt_some {A B} (f : A -> option B) l : (forall x, In x l -> exists y, f x = Some y) -> exists ys, map_opt f l = Some ys /\ Forall2 (fun x y => f x = Some y) l ys.
Proof.
  induction l as [|x l IH]; intros H; [exists []; split; [reflexivity|constructor]|]. destruct (H x (or_introl eq_refl)) as (y & Y). destruct IH as (ys & E & F); [intros z Z; apply H; right; exact Z|].
  exists (y :: ys). cbn [map_opt]. rewrite Y, E. split; [reflexivity|constructor; assumption].
Qed.
Lemma quotes_ordered {A} (entry : string -> string -> option A) (value : string -> A) home equities : listed_in_order home equities ->
  (forall s, In s equities -> entry (home s) s = Some (value s)) -> quotes entry (np_unique (map home equities)) (np_unique equities) = Some (map value (np_unique equities)).
Proof.
  intros LO Q. rewrite <- (ordered_homes home equities LO). unfold quotes. assert (SUB : forall x, In x (np_unique equities) -> In x equities) by (intros x; apply np_unique_in).
  induction (np_unique equities) as [|x l IH]; [reflexivity|]. cbn [map combine map_opt]. rewrite (Q x (SUB x (or_introl eq_refl))), IH by (intros y Y; apply SUB; right; exact Y). reflexivity.
Qed.

Section Market.
  Variables (gbm : nat -> nat -> R) (pinv : (nat -> nat -> R) -> nat -> nat -> R) (samples net : nat) (m : option nat).
  (** Every contract of a batch gets the spot price and the volatility of its own
      equity and the discount factor of its own currency, if the equities are listed
      in the order of their currencies; its price is the value to the holder, or
      minus this, times the amount. *)
  Theorem C96_market_partial mkt b n home spot vol discount : option_size b n -> eb_currency b = map home (eb_equity b) -> listed_in_order home (eb_equity b) ->
    (forall s, In s (eb_equity b) -> m_spot mkt (home s) s = Some (spot s)) -> (forall s, In s (eb_equity b) -> m_vol mkt (home s) s = Some (vol s)) ->
    (forall c d, m_discount mkt (RiskFreeCurve c) d = Some (discount c d)) ->
    exists prices, option_prices gbm pinv samples net m (fun _ => None) mkt b = Some prices /\ length prices = n /\
      forall i t, option_entry b i t -> nth_error prices i =
        Some (option_map (fun p => (if ot_holder t then 1 else -1) * ot_amount t * p)
          (bs_lsm_price gbm pinv samples net m (spot (ot_equity t)) (m_years mkt (ot_expiry t)) (ot_strike t) (vol (ot_equity t) (ot_expiry t) (ot_strike t))
             (discount (ot_currency t) (ot_expiry t)) (ot_call t))).
  Proof.
    intros (Z1 & Z2 & Z3 & Z4 & Z5 & Z6 & Z7 & ZR) HM LO QS QV QD. unfold option_prices, process_equities.
    replace (map (discount_type (fun _ => None)) (eb_currency b)) with (map RiskFreeCurve (eb_currency b)) by reflexivity. rewrite risk_free_types. cbn [bind].
    rewrite map_map. cbn [curve_currency]. rewrite map_id. pose proof (quotes_ordered _ vol home _ LO QV) as QV'. pose proof (quotes_ordered _ spot home _ LO QS) as QS'. rewrite <- HM in QV', QS'. rewrite QV'. cbn [bind]. rewrite QS'. cbn [bind].
    match goal with |- exists _, map_opt ?f _ = _ /\ _ => set (F := f) end.
    assert (ONE : forall i t, option_entry b i t -> F i = Some (option_map (fun p => (if ot_holder t then 1 else -1) * ot_amount t * p)
          (bs_lsm_price gbm pinv samples net m (spot (ot_equity t)) (m_years mkt (ot_expiry t)) (ot_strike t) (vol (ot_equity t) (ot_expiry t) (ot_strike t))
             (discount (ot_currency t) (ot_expiry t)) (ot_call t)))).
    { intros i t (E1 & E2 & E3 & E4 & E5 & _ & _ & E6 & E7 & _). unfold F. rewrite (map_nth_error (fun s => index_of s (np_unique (eb_equity b))) i _ E4). cbn [bind].
      assert (IU : nth_error (np_unique (eb_equity b)) (index_of (ot_equity t) (np_unique (eb_equity b))) = Some (ot_equity t)) by (apply index_of_nth, np_unique_in; exact (nth_error_In _ _ E4)).
      rewrite (map_nth_error spot _ _ IU), (map_nth_error vol _ _ IU). cbn [bind].
      rewrite (map_nth_error (fun h => index_of h (np_unique (eb_currency b))) i _ E2). cbn [bind].
      assert (IC : nth_error (np_unique (eb_currency b)) (index_of (ot_currency t) (np_unique (eb_currency b))) = Some (ot_currency t)) by (apply index_of_nth, np_unique_in; exact (nth_error_In _ _ E2)).
      rewrite (map_nth_error RiskFreeCurve _ _ IC). cbn [bind]. rewrite E3, E6, E7, E1, E5. cbn [bind]. rewrite QD. reflexivity. }
    assert (SOME : forall i, (i < n)%nat -> exists t, option_entry b i t).
    { intros i L. assert (NE : forall A (l : list A), length l = n -> exists x, nth_error l i = Some x).
      { intros A l E. destruct (nth_error l i) as [x|] eqn:Q; [exists x; reflexivity|]. apply nth_error_None in Q. lia. }
      destruct (NE _ _ Z1) as (x1 & X1), (NE _ _ Z2) as (x2 & X2), (NE _ _ Z3) as (x3 & X3), (NE _ _ Z4) as (x4 & X4), (NE _ _ Z5) as (x5 & X5), (NE _ _ Z6) as (x6 & X6),
        (NE _ _ Z7) as (x7 & X7), (NE _ _ (proj1 ZR)) as (x8 & X8), (NE _ _ (proj2 ZR)) as (x9 & X9).
      exists (OptionTerms x1 x2 x3 x4 x5 (eb_rule b) (eb_calendar b) x6 x7 x8 x9). unfold option_entry. cbn. repeat split; assumption. }
    destruct (map_opt_some F (seq 0 (length (eb_strike b)))) as (prices & P1 & P2).
    { intros i L. apply in_seq in L. destruct (SOME i ltac:(lia)) as (t & EN). eexists. exact (ONE i t EN). }
    exists prices. split; [exact P1|]. pose proof (f2_len _ _ _ P2) as LP. rewrite seq_length, Z6 in LP. split; [symmetry; exact LP|].
    intros i t EN. rewrite <- (ONE i t EN). assert (IL : (i < n)%nat) by (rewrite <- Z6; apply nth_error_Some; destruct EN as (_ & _ & _ & _ & _ & _ & _ & E6 & _); rewrite E6; discriminate).
    assert (NS : nth_error (seq 0 (length (eb_strike b))) i = Some i) by (rewrite (nth_error_nth' _ 0%nat) by (rewrite seq_length, Z6; exact IL); rewrite seq_nth by (rewrite Z6; exact IL); reflexivity).
    destruct (nth_f2 _ _ _ _ _ P2 NS) as (y & Y1 & Y2). rewrite Y1, Y2. reflexivity.
  Qed.
End Market.
