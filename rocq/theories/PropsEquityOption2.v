(** C96, continued: examples and what goes wrong. *)
From Coq Require Import Reals Lra Psatz.
From Coquelicot Require Import Coquelicot.
From Coq Require Import String ZArith Lia List Bool Permutation Sorted.
From Verif Require Import TensorModel TensorProofs DateModel BoundedCalModel ScheduleModel RatesModel InstrumentModel PlatformModel BrentModel ExtReal InterpModel BootstrapModel LsmModel LsmSpec BatchModel BatchSpec BatchProofs PropsLsm PropsPlatform2 PropsBatch PropsBatch2 EquityOptionModel EquityOptionSpec EquityOptionProofs PropsEquityOption.
Import ListNotations.
Open Scope R_scope.

(** ** Examples *)
(** two samples, one up and one down *)
Definition up_down (net e s : nat) : R := (if Nat.even s then 1 else -1) * times net e.
Definition sampled (net e s : nat) : R := exp (- times net e / 2 + up_down net e s).
Lemma sampled_driftless net : driftless (sampled net) (times net) (up_down net).
Proof. split; [intros s; unfold up_down, times; cbn [INR]; unfold Rdiv; ring|reflexivity]. Qed.
(** a pseudo-inverse for diagonal matrices *)
Definition reciprocal (mat : nat -> nat -> R) (a b : nat) : R := if Nat.eqb a b then / mat a a else 0.
Lemma reciprocal_inverts n : inverts_diagonal reciprocal n.
Proof.
  intros mat D a d A B. rewrite (rsum_ext _ (fun b => (if Nat.eqb a b then 1 else 0) * rsum (fun c => mat a b * reciprocal mat b c * mat c d) n)).
  - rewrite (rsum_delta (fun b => rsum (fun c => mat a b * reciprocal mat b c * mat c d) n) a n A).
    rewrite (rsum_ext _ (fun c => (if Nat.eqb a c then 1 else 0) * (mat a a * / mat a a * mat a d))).
    + rewrite (rsum_delta (fun _ => mat a a * / mat a a * mat a d) a n A). destruct (Nat.eq_dec a d) as [<-|NE]; [|rewrite (D a d A B NE); ring].
      destruct (Req_dec (mat a a) 0) as [Z|NZ]; [rewrite Z; ring|]. field. exact NZ.
    + intros c _. unfold reciprocal. destruct (Nat.eqb a c) eqn:Q; [apply Nat.eqb_eq in Q; subst c; ring|ring].
  - intros b L. destruct (Nat.eqb a b) eqn:Q; [ring|]. apply Nat.eqb_neq in Q. rewrite Rmult_0_l. apply rsum_0. intros c _. rewrite (D a b A L Q). ring.
Qed.
(** a put in the money with two exercise times and two samples *)
Example C96_put_example : exists v, bs_lsm_price (sampled 2) reciprocal 2 2 None 100 1 120 (1 / 5) (9 / 10) false = Some v /\ 20 <= v <= 120.
Proof.
  destruct (C96_stopping (sampled 2) (up_down 2) reciprocal 2 2 None (sampled_driftless 2) 100 1 120 (1 / 5) (9 / 10) false) as (tau & _ & P); [lra|lra|lra|lia|lia|].
  eexists; split; [exact P|]. split.
  - replace 20 with (exercise_value false 120 100) by (unfold exercise_value, Rmax; destruct (Rle_dec _ _); lra).
    apply (C96_intrinsic (sampled 2) (up_down 2) reciprocal 2 2 None (sampled_driftless 2) 100 1 120 (1 / 5) (9 / 10) false); [lra|lra|lra|reflexivity|lia|lia|apply reciprocal_inverts|exact P].
  - apply (C96_put_bound (sampled 2) (up_down 2) reciprocal 2 2 None (sampled_driftless 2) 100 1 120 (1 / 5) (9 / 10) false); [lra|lra|lra|reflexivity|lra|lra|lia|lia|exact P].
Qed.
Definition contract (name equity currency : string) (rule : Z) : option_message :=
  OptionMessage true (2022, 5, 21)%Z currency equity (whole 10) (whole 120) rule 1 2 (name, "option"%string) false.
Definition option_portfolio : list option_message := [contract "a" "X" "EUR" 2; contract "b" "Y" "USD" 3; contract "c" "Y" "USD" 2].
Example C96_options_example : separates write_out option_key option_portfolio /\
  option_map (map (fun kv => (map fst (eb_names (snd kv)), eb_equity (snd kv)))) (options_from_protos write_out option_portfolio) =
    Some [(["a"; "c"], ["X"; "Y"]); (["b"], ["Y"])]%string.
Proof.
  split; [|vm_compute; reflexivity].
  intros p q P Q. repeat (destruct P as [<-|P]); try destruct P; repeat (destruct Q as [<-|Q]); try destruct Q; vm_compute; intros E; try reflexivity; discriminate E.
Qed.
(** quotes in every currency: the stock is worth 100 in its own, more elsewhere *)
Definition exchange (quoted : string -> string -> bool) : market :=
  Market (fun c s => if quoted c s then Some 100 else Some 500) (fun _ _ => Some (fun _ _ => 1 / 5)) (fun _ _ => Some (9 / 10)) (fun _ => 1).
Definition batch_of (currencies equities : list string) : option_batch :=
  OptionBatch (map (fun _ => true) equities) currencies (map (fun _ => (2022, 5, 21)%Z) equities) equities (map (fun _ => 10) equities) 2 1
    (map (fun _ => 120) equities) (map (fun _ => false) equities) (map (fun _ => 2%Z) equities) (map (fun _ => ("n", "t")%string) equities).
Definition home_xy (s : string) : string := if String.eqb s "X" then "EUR"%string else "USD"%string.
Example C96_market_example : exists prices, option_prices (sampled 2) reciprocal 2 2 None (fun _ => None) (exchange (fun c s => String.eqb c (home_xy s))) (batch_of ["EUR"; "USD"; "EUR"]%string ["X"; "Y"; "X"]%string) = Some prices /\ length prices = 3%nat.
Proof.
  destruct (C96_market_partial (sampled 2) reciprocal 2 2 None (exchange (fun c s => String.eqb c (home_xy s))) (batch_of ["EUR"; "USD"; "EUR"]%string ["X"; "Y"; "X"]%string) 3 home_xy
    (fun _ => 100) (fun _ _ _ => 1 / 5) (fun _ _ => 9 / 10)) as (prices & P1 & P2 & _).
  - repeat split; reflexivity.
  - reflexivity.
  - intros x y X Y. repeat (destruct X as [<-|X]); try destruct X; repeat (destruct Y as [<-|Y]); try destruct Y; cbn; intros E; try discriminate E; reflexivity.
  - intros s _. cbn. rewrite String.eqb_refl. reflexivity.
  - reflexivity.
  - reflexivity.
  - exists prices. split; assumption.
Qed.

(** ** What goes wrong *)
(** Options on two stocks in one currency: the quotes are looked up for as many
    stocks as there are currencies, and the batch cannot be priced in any market. *)
Theorem C96_two_stocks_refuted gbm pinv samples net m mkt : option_prices gbm pinv samples net m (fun _ => None) mkt (batch_of ["USD"; "USD"]%string ["X"; "Y"]%string) = None.
Proof.
  unfold option_prices. change (map (discount_type (fun _ => None)) (eb_currency (batch_of ["USD"; "USD"]%string ["X"; "Y"]%string))) with (map RiskFreeCurve ["USD"; "USD"]%string). rewrite risk_free_types. cbn [bind].
  change (process_equities (eb_equity (batch_of ["USD"; "USD"]%string ["X"; "Y"]%string))) with (["X"; "Y"]%string, [0; 1]%nat). cbv iota beta.
  change (map curve_currency (map RiskFreeCurve (np_unique ["USD"; "USD"]%string))) with ["USD"]%string. unfold quotes. cbn [combine map_opt].
  destruct (m_vol mkt "USD"%string "X"%string) as [v|]; [|reflexivity]. cbn [option_map bind]. destruct (m_spot mkt "USD"%string "X"%string) as [s|]; [|reflexivity]. cbn -[bs_lsm_price].
  destruct (m_discount mkt (RiskFreeCurve "USD"%string) _); reflexivity.
Qed.
(** Options on two stocks whose names are in the opposite order of their currencies:
    the first contract is priced with the quote of its stock in the other currency;
    without such a quote nothing is priced although both stocks are quoted in their
    own currencies. *)
Theorem C96_crossed_refuted gbm pinv samples net m mkt own other : m_spot mkt "EUR"%string "Y"%string = Some own -> m_spot mkt "USD"%string "X"%string = Some own ->
  (m_spot mkt "USD"%string "Y"%string = None -> option_prices gbm pinv samples net m (fun _ => None) mkt (batch_of ["EUR"; "USD"]%string ["Y"; "X"]%string) = None) /\
  (forall vol df, m_spot mkt "USD"%string "Y"%string = Some other -> m_spot mkt "EUR"%string "X"%string = Some other -> (forall c s, m_vol mkt c s = Some vol) -> (forall c d, m_discount mkt c d = Some df) ->
     option_map (fun l => nth_error l 0) (option_prices gbm pinv samples net m (fun _ => None) mkt (batch_of ["EUR"; "USD"]%string ["Y"; "X"]%string)) =
       Some (Some (option_map (fun p => 1 * 10 * p) (bs_lsm_price gbm pinv samples net m other (m_years mkt (2022, 5, 21)%Z) 120 (vol (2022, 5, 21)%Z 120) df false)))).
Proof.
  intros O1 O2.
  assert (E : option_prices gbm pinv samples net m (fun _ => None) mkt (batch_of ["EUR"; "USD"]%string ["Y"; "X"]%string) =
    bind (quotes (m_vol mkt) ["EUR"; "USD"]%string ["X"; "Y"]%string) (fun vols => bind (quotes (m_spot mkt) ["EUR"; "USD"]%string ["X"; "Y"]%string) (fun spots =>
      map_opt (fun i => bind (nth_error [1; 0]%nat i) (fun k => bind (nth_error spots k) (fun spot => bind (nth_error vols k) (fun vol =>
        bind (nth_error [0; 1]%nat i) (fun j => bind (nth_error (map RiskFreeCurve ["EUR"; "USD"]%string) j) (fun curve =>
        bind (nth_error [(2022, 5, 21)%Z; (2022, 5, 21)%Z] i) (fun expiry => bind (nth_error [120; 120] i) (fun strike =>
        bind (nth_error [false; false] i) (fun call => bind (nth_error [true; true] i) (fun holder => bind (nth_error [10; 10] i) (fun amount =>
        option_map (fun df => option_map (fun price => (if holder then 1 else -1) * amount * price)
          (bs_lsm_price gbm pinv samples net m spot (m_years mkt expiry) strike (vol expiry strike) df call)) (m_discount mkt curve expiry)))))))))))) (seq 0 2)))).
  { unfold option_prices. change (map (discount_type (fun _ => None)) (eb_currency (batch_of ["EUR"; "USD"]%string ["Y"; "X"]%string))) with (map RiskFreeCurve ["EUR"; "USD"]%string). rewrite risk_free_types. reflexivity. }
  rewrite E. clear E. unfold quotes. cbn [combine map_opt]. split.
  - intros N. rewrite N. destruct (m_vol mkt "EUR"%string "X"%string); cbn; [|reflexivity]. destruct (m_vol mkt "USD"%string "Y"%string); cbn; [|reflexivity]. destruct (m_spot mkt "EUR"%string "X"%string); reflexivity.
  - intros vol df N1 N2 V D. rewrite N1, N2, !V. cbn -[bs_lsm_price]. rewrite !D. cbn -[bs_lsm_price]. reflexivity.
Qed.
(** an option that expires today is worth the value of exercising it, but its price
    is not a number *)
Theorem C96_today_refuted gbm pinv samples net m spot strike sigma call : bs_lsm_price gbm pinv samples net m spot 0 strike sigma 1 call = None.
Proof.
  unfold bs_lsm_price, risk_free_rate, xln, rlt. destruct (Rlt_dec 0 1); [|lra]. rewrite ln_1. cbn [xopp xdiv]. unfold req. destruct (Req_EM_T 0 0); [|lra]. destruct (Req_EM_T (- 0) 0); [reflexivity|lra].
Qed.

Print Assumptions C96_options.
Print Assumptions C96_stopping.
Print Assumptions C96_intrinsic.
Print Assumptions C96_put_bound.
Print Assumptions C96_martingale.
Print Assumptions C96_expiry.
Print Assumptions C96_market_partial.
Print Assumptions C96_two_stocks_refuted.
Print Assumptions C96_crossed_refuted.
Print Assumptions C96_today_refuted.
