(** C104: prices of geometric Asian options in the Heston model. *)
From Coq Require Import Reals List Bool ZArith Lra Lia.
From Coquelicot Require Import Complex.
From Verif Require Import TensorModel InterpModel IntegrateModel BoundedCalModel HestonFourierModel ComplexProofs HestonAsianModel HestonAsianProofs HestonAsianForward.
Import ListNotations.
Open Scope R_scope.

Definition with_call (g : asian_args) (b : option bool) : asian_args :=
  mk_asian (g_variance g) (g_mean_reversion g) (g_theta g) (g_volvol g) (g_rho g) (g_strike g) (g_expiry g) (g_spot g) (g_forward g)
    (g_sampling_times g) (g_past_fixings g) (g_discount_rate g) (g_dividend_rate g) (g_discount_factor g) b (g_type g) (g_frequency g).
(** The same option in a currency of which one unit is worth 1/l. *)
Definition in_currency (g : asian_args) (l : R) : asian_args :=
  mk_asian (g_variance g) (g_mean_reversion g) (g_theta g) (g_volvol g) (g_rho g) (l * g_strike g) (g_expiry g)
    (option_map (Rmult l) (g_spot g)) (option_map (Rmult l) (g_forward g))
    (g_sampling_times g) (option_map (map (Rmult l)) (g_past_fixings g)) (g_discount_rate g) (g_dividend_rate g) (g_discount_factor g)
    (g_is_call g) (g_type g) (g_frequency g).
Definition with_market (g : asian_args) (spot forward rate factor : option R) : asian_args :=
  mk_asian (g_variance g) (g_mean_reversion g) (g_theta g) (g_volvol g) (g_rho g) (g_strike g) (g_expiry g) spot forward
    (g_sampling_times g) (g_past_fixings g) rate (g_dividend_rate g) factor (g_is_call g) (g_type g) (g_frequency g).

Lemma some_inj (a b : R) : Some a = Some b -> a = b.
Proof. intros E. injection E. trivial. Qed.

(** Call less put is the discounted difference of one number, which does not
    depend on the strike, and the strike. *)
Theorem C104_parity : forall roots coefficients method num_points lower upper g call put,
  asian_option_price roots coefficients method num_points lower upper (with_call g (Some true)) = Some call ->
  asian_option_price roots coefficients method num_points lower upper (with_call g (Some false)) = Some put ->
  exists times, g_sampling_times g = Some times /\
    call - put = exp (- discount_rate_of g * g_expiry g) * (prefactor_of g times * fst (phi (handler_of g times) 1 0) - g_strike g).
Proof.
  intros roots coefficients method num_points lower upper g call put C P. unfold asian_option_price in C, P.
  change (accepted (with_call g (Some true))) with (accepted g) in C. change (accepted (with_call g (Some false))) with (accepted g) in P.
  destruct (accepted g) as [times|] eqn:A; [|discriminate]. exists times. split.
  - unfold accepted in A. destruct (g_spot g), (g_forward g), (g_discount_rate g), (g_discount_factor g), (g_type g), (g_frequency g), (g_sampling_times g) as [[|t ts]|];
      try discriminate; destruct (Req_EM_T _ _) in A; try discriminate; injection A as A; rewrite A; reflexivity.
  - change (handler_of (with_call g (Some true)) times) with (handler_of g times) in C. change (handler_of (with_call g (Some false)) times) with (handler_of g times) in P.
    destruct (integrate _ _ _ _ _ _ _) as [v|]; [|discriminate]. cbn [with_call g_is_call] in C, P. apply some_inj in C. apply some_inj in P. subst call put.
    change (prefactor_of (with_call g (Some true)) times) with (prefactor_of g times). change (prefactor_of (with_call g (Some false)) times) with (prefactor_of g times).
    change (discount_rate_of (with_call g (Some true))) with (discount_rate_of g). change (discount_rate_of (with_call g (Some false))) with (discount_rate_of g).
    cbn [with_call g_expiry]. replace (h_strike (handler_of g times)) with (g_strike g / prefactor_of g times) by reflexivity.
    assert (Q : 0 < prefactor_of g times) by apply exp_pos. field. split; [apply PI_neq0|lra].
Qed.
Print Assumptions C104_parity.

Lemma accepted_times g times : accepted g = Some times -> times <> [].
Proof.
  unfold accepted. intros A. destruct (g_spot g), (g_forward g), (g_discount_rate g), (g_discount_factor g), (g_type g), (g_frequency g), (g_sampling_times g) as [[|t ts]|];
      try discriminate; destruct (Req_EM_T _ _) in A; try discriminate; injection A as A; subst; discriminate.
Qed.
Lemma accepted_currency g l : accepted (in_currency g l) = accepted g.
Proof. unfold accepted. cbn. destruct (g_spot g), (g_forward g); reflexivity. Qed.
Lemma rate_currency g l : discount_rate_of (in_currency g l) = discount_rate_of g.
Proof. reflexivity. Qed.
Lemma fixings_currency g l : fixings_of (in_currency g l) = map (Rmult l) (fixings_of g).
Proof. unfold fixings_of. cbn. destruct (g_past_fixings g); reflexivity. Qed.
Lemma prefactor_currency g l times : 0 < l -> times <> [] -> (forall x, In x (fixings_of g) -> 0 < x) ->
  prefactor_of (in_currency g l) times = exp (INR (length (fixings_of g)) / INR (length times + length (fixings_of g)) * ln l) * prefactor_of g times.
Proof.
  intros L T F. unfold prefactor_of. rewrite fixings_currency, map_length, prod_scale. unfold Rpower.
  rewrite <- exp_plus, ln_mult by (try apply pow_lt; try apply prod_pos; assumption). rewrite ln_pow by exact L. f_equal. field.
  apply not_0_INR. destruct times; [contradiction|cbn; lia].
Qed.
Lemma spot_currency g l : g_spot g <> None \/ g_forward g <> None -> spot_of (in_currency g l) = l * spot_of g.
Proof. intros H. unfold spot_of. cbn [in_currency g_forward g_spot]. destruct (g_forward g); cbn; [|destruct (g_spot g); cbn; [reflexivity|ring]].
  change (discount_rate_of (in_currency g l)) with (discount_rate_of g). change (dividend_rate_of (in_currency g l)) with (dividend_rate_of g). ring. Qed.
Lemma handler_currency g l times : 0 < l -> times <> [] -> (g_spot g <> None \/ g_forward g <> None) -> (forall x, In x (fixings_of g) -> 0 < x) ->
  handler_of (in_currency g l) times = scaled (handler_of g times) l.
Proof.
  intros L T H F. unfold handler_of at 1. rewrite spot_currency, prefactor_currency, fixings_currency, map_length by assumption.
  unfold scaled, handler_of, weight. cbn [h_spot h_rate h_dividend h_variance h_mean_reversion h_theta h_volvol h_rho h_strike h_start h_expiry h_sampling_times h_d_tau h_k_star h_n].
  cbn [in_currency g_variance g_mean_reversion g_theta g_volvol g_rho g_strike g_expiry g_sampling_times].
  f_equal. assert (Q : 0 < prefactor_of g times) by apply exp_pos. set (a := INR (length (fixings_of g))). set (n := INR (length times + length (fixings_of g))).
  assert (N : n <> 0) by (apply not_0_INR; destruct times; [contradiction|cbn; lia]).
  replace ((n - a) / n * ln l) with (ln l + - (a / n * ln l)) by (field; exact N). rewrite exp_plus, exp_Ropp, exp_ln by exact L. pose proof (exp_pos (a / n * ln l)). field. lra.
Qed.

(** The price does not depend on the unit of account: spot (or forward), strike
    and past fixings in another currency give the price in that currency. *)
Theorem C104_currency : forall roots coefficients method num_points lower upper g l price,
  0 < l -> 0 < spot_of g -> 0 < g_strike g -> (forall x, In x (fixings_of g) -> 0 < x) ->
  asian_option_price roots coefficients method num_points lower upper g = Some price ->
  asian_option_price roots coefficients method num_points lower upper (in_currency g l) = Some (l * price).
Proof.
  intros roots coefficients method num_points lower upper g l price L S0 K F E. unfold asian_option_price in *. rewrite accepted_currency.
  destruct (accepted g) as [times|] eqn:A; [|discriminate]. pose proof (accepted_times g times A) as T.
  assert (H : g_spot g <> None \/ g_forward g <> None).
  { unfold accepted in A. destruct (g_spot g), (g_forward g); try discriminate; [left|right]; discriminate. }
  rewrite handler_currency by assumption. set (h := handler_of g times) in *. cbv zeta in *.
  assert (Q : 0 < prefactor_of g times) by apply exp_pos.
  assert (HS : 0 < h_spot h) by exact S0. assert (HK : 0 < h_strike h) by (apply Rdiv_lt_0_compat; assumption).
  rewrite (integrate_scale _ _ (integrand h) _ (exp (weight h * ln l))) by (intros x; apply integrand_scaled; assumption).
  destruct (integrate _ _ _ _ _ _ _) as [v|]; [|discriminate]. apply some_inj in E. f_equal. rewrite <- E. clear E.
  rewrite phi_scaled by assumption. rewrite prefactor_currency by assumption.
  replace (Cmult (Cplus (Cmult 1 (RtoC (weight h))) 0) (RtoC (ln l))) with (RtoC (weight h * ln l)) by (rewrite RtoC_mult; ring). rewrite cexp_real.
  replace (fst (Cmult (RtoC (exp (weight h * ln l))) (phi h 1 0))) with (exp (weight h * ln l) * fst (phi h 1 0)) by (cbn; ring).
  cbn [scaled h_strike]. change (discount_rate_of (in_currency g l)) with (discount_rate_of g). change (g_expiry (in_currency g l)) with (g_expiry g). change (g_is_call (in_currency g l)) with (g_is_call g).
  assert (M : exp (INR (length (fixings_of g)) / INR (length times + length (fixings_of g)) * ln l) * exp (weight h * ln l) = l).
  { rewrite <- exp_plus. rewrite <- (exp_ln l L) at 3. f_equal. unfold weight, h, handler_of. cbn [h_n h_k_star]. field. apply not_0_INR. destruct times; [contradiction|cbn; lia]. }
  set (u := exp (INR (length (fixings_of g)) / INR (length times + length (fixings_of g)) * ln l)) in *. set (m := exp (weight h * ln l)) in *.
  rewrite <- M. destruct (g_is_call g) as [[|]|]; field; apply PI_neq0.
Qed.
Print Assumptions C104_currency.

Lemma price_ext roots coefficients method num_points lower upper g g' :
  accepted g = accepted g' -> (forall times, handler_of g times = handler_of g' times) -> (forall times, prefactor_of g times = prefactor_of g' times) ->
  discount_rate_of g = discount_rate_of g' -> g_expiry g = g_expiry g' -> g_is_call g = g_is_call g' ->
  asian_option_price roots coefficients method num_points lower upper g = asian_option_price roots coefficients method num_points lower upper g'.
Proof.
  intros A H P D X C. unfold asian_option_price. rewrite A. destruct (accepted g') as [times|]; [|reflexivity].
  rewrite H, P, D, X, C. reflexivity.
Qed.

(** A forward in place of the spot price, and a discount factor in place of a
    discount rate, give the same price. *)
Theorem C104_market : forall roots coefficients method num_points lower upper g spot rate,
  g_expiry g <> 0 ->
  let price := asian_option_price roots coefficients method num_points lower upper in
  let forward := spot * exp ((rate - dividend_rate_of g) * g_expiry g) in
  let factor := exp (- rate * g_expiry g) in
  price (with_market g None (Some forward) (Some rate) None) = price (with_market g (Some spot) None (Some rate) None)
  /\ price (with_market g (Some spot) None None (Some factor)) = price (with_market g (Some spot) None (Some rate) None)
  /\ price (with_market g None (Some forward) None (Some factor)) = price (with_market g (Some spot) None (Some rate) None).
Proof.
  intros roots coefficients method num_points lower upper g spot rate N price forward factor.
  assert (R1 : - ln (exp (- rate * g_expiry g)) / g_expiry g = rate) by (rewrite ln_exp; field; exact N).
  assert (S1 : spot * exp ((rate - dividend_rate_of g) * g_expiry g) * exp (- (rate - dividend_rate_of g) * g_expiry g) = spot).
  { rewrite Rmult_assoc, <- exp_plus. replace (_ + _) with 0 by ring. rewrite exp_0. ring. }
  assert (H : forall s f r d times, discount_rate_of (with_market g s f r d) = rate -> spot_of (with_market g s f r d) = spot ->
    handler_of (with_market g s f r d) times = handler_of (with_market g (Some spot) None (Some rate) None) times).
  { intros s f r d times E1 E2. unfold handler_of. rewrite E1, E2. reflexivity. }
  assert (P : forall s f r d, discount_rate_of (with_market g s f r d) = rate -> spot_of (with_market g s f r d) = spot ->
    accepted (with_market g s f r d) = accepted (with_market g (Some spot) None (Some rate) None) ->
    price (with_market g s f r d) = price (with_market g (Some spot) None (Some rate) None)).
  { intros s f r d E1 E2 E3. apply price_ext; [exact E3|intros times; apply H; assumption|reflexivity|exact E1|reflexivity|reflexivity]. }
  unfold forward, factor. split; [|split]; apply P; unfold spot_of, discount_rate_of, accepted; cbn [with_market g_spot g_forward g_discount_rate g_discount_factor g_expiry];
    first [reflexivity|exact R1|exact S1|rewrite R1; exact S1].
Qed.
Print Assumptions C104_market.

(** Exactly the arguments that are accepted. *)
Theorem C104_accepted : forall g,
  (exists times, accepted g = Some times) <->
  ((g_spot g = None <-> g_forward g <> None) /\ (g_discount_rate g = None \/ g_discount_factor g = None)
   /\ g_type g = GEOMETRIC /\ g_frequency g = DISCRETE
   /\ exists times, g_sampling_times g = Some times /\ times <> [] /\ last times 0 <= g_expiry g).
Proof.
  intros g. split.
  - intros [times A]. unfold accepted in A.
    destruct (g_spot g), (g_forward g), (g_discount_rate g), (g_discount_factor g), (g_type g), (g_frequency g), (g_sampling_times g) as [[|t ts]|];
      try discriminate; destruct (Req_EM_T (Rmax (last (t :: ts) 0) (g_expiry g)) (g_expiry g)) as [M|M]; try discriminate;
      (repeat split; try discriminate; try (intros Z; exfalso; apply Z; reflexivity); try (left; reflexivity); try (right; reflexivity);
       exists (t :: ts); split; [reflexivity|split; [discriminate|rewrite <- M; apply Rmax_l]]).
  - intros (S0 & D & T & F & times & E & N & L). exists times. unfold accepted. rewrite T, F, E.
    destruct times as [|t ts]; [contradiction|].
    destruct (Req_EM_T (Rmax (last (t :: ts) 0) (g_expiry g)) (g_expiry g)) as [M|M]; [|exfalso; apply M; apply Rmax_right; exact L].
    destruct (g_spot g), (g_forward g), (g_discount_rate g), (g_discount_factor g); try reflexivity; exfalso;
      destruct S0 as [S1 S2]; destruct D; try discriminate;
      try (assert (X : Some r = None) by (apply S2; discriminate); discriminate); try (apply S1; reflexivity).
Qed.
Print Assumptions C104_accepted.

(** The characteristic function is one at zero, for any number of fixings. *)
Lemma first_sum_ext l m n : (forall i, (i < n)%nat -> nth i l 0 = nth i m 0) -> first_sum l n = first_sum m n.
Proof. induction n as [|n IH]; intros H; cbn; [reflexivity|]. rewrite IH by (intros; apply H; lia). rewrite H by lia. reflexivity. Qed.
Lemma first_sum_differences l n : (n < length l)%nat -> first_sum (differences l) n = nth n l 0 - nth 0 l 0.
Proof.
  induction n as [|n IH]; intros H; cbn [first_sum]; [ring|]. rewrite IH by lia.
  assert (D : nth n (differences l) 0 = nth (S n) l 0 - nth n l 0).
  { unfold differences. set (f := fun k : nat => nth (S k) l 0 - nth k l 0). rewrite (nth_indep (map f (seq 0 (length l - 1))) 0 (f 0%nat)) by (rewrite map_length, seq_length; lia).
    rewrite (map_nth f), seq_nth by lia. reflexivity. }
  rewrite D. ring.
Qed.
Theorem C104_normalised : forall g times, 0 < g_mean_reversion g -> g_volvol g <> 0 -> times <> [] ->
  phi (handler_of g times) 0 0 = RtoC 1.
Proof.
  intros g times K V T. apply phi_zero; [exact K|exact V|].
  unfold handler_of. cbn [h_d_tau h_n h_k_star h_expiry h_start].
  replace (length times + length (fixings_of g) - length (fixings_of g) + 1)%nat with (S (length times)) by lia.
  rewrite first_sum_differences by (cbn; rewrite app_length; cbn; lia). cbn [app nth]. rewrite app_nth2, Nat.sub_diag by lia. reflexivity.
Qed.
Print Assumptions C104_normalised.

(** The transform of the price at the expiry, taken at one, is the forward
    price: for any sampling times and past fixings. *)
Theorem C104_forward : forall g times, g_volvol g <> 0 -> g_mean_reversion g <> g_rho g * g_volvol g -> times <> [] -> 0 < spot_of g ->
  phi (handler_of g times) 0 1 = RtoC (spot_of g * exp ((discount_rate_of g - dividend_rate_of g) * g_expiry g)).
Proof.
  intros g times V B T S0. apply (phi_spot (handler_of g times)); [exact V|exact B| |exact S0|reflexivity|].
  - cbn [handler_of h_n]. destruct times; [contradiction|cbn; lia].
  - unfold handler_of. cbn [h_d_tau h_n h_k_star h_expiry].
    replace (length times + length (fixings_of g) - length (fixings_of g) + 1)%nat with (S (length times)) by lia.
    rewrite first_sum_differences by (cbn; rewrite app_length; cbn; lia). cbn [app nth]. rewrite app_nth2, Nat.sub_diag by lia. cbn [nth]. ring.
Qed.
Print Assumptions C104_forward.

(** Sampled once, at the expiry, the option is a European one: call less put is
    the discounted difference of the forward price and the strike. *)
Theorem C104_european : forall roots coefficients method num_points lower upper g call put,
  g_volvol g <> 0 -> g_mean_reversion g <> 0 -> g_mean_reversion g <> g_rho g * g_volvol g -> 0 < spot_of g ->
  g_sampling_times g = Some [g_expiry g] -> fixings_of g = [] ->
  asian_option_price roots coefficients method num_points lower upper (with_call g (Some true)) = Some call ->
  asian_option_price roots coefficients method num_points lower upper (with_call g (Some false)) = Some put ->
  call - put = spot_of g * exp (- dividend_rate_of g * g_expiry g) - g_strike g * exp (- discount_rate_of g * g_expiry g).
Proof.
  intros roots coefficients method num_points lower upper g call put V K B S0 T F C P.
  destruct (C104_parity roots coefficients method num_points lower upper g call put C P) as (times & E & D). rewrite T in E. injection E as E. rewrite <- E in D. clear E.
  assert (Q : prefactor_of g [g_expiry g] = 1) by (unfold prefactor_of, Rpower; rewrite F; cbn; rewrite ln_1, Rmult_0_r; apply exp_0).
  rewrite D, Q. rewrite (phi_one (handler_of g [g_expiry g])); [|exact V|exact B|cbn; lia|exact K| | |exact S0|reflexivity| |].
  - unfold handler_of. cbn [h_spot h_rate h_dividend h_expiry fst RtoC].
    replace (- dividend_rate_of g * g_expiry g) with (- discount_rate_of g * g_expiry g + (discount_rate_of g - dividend_rate_of g) * g_expiry g) by ring. rewrite exp_plus. ring.
  - unfold handler_of. rewrite F. reflexivity.
  - unfold handler_of. rewrite F. reflexivity.
  - unfold handler_of. cbn. f_equal; [ring|]. f_equal. ring.
  - unfold handler_of. rewrite F. reflexivity.
Qed.
Print Assumptions C104_european.

Definition sample (times : list R) (fixings : option (list R)) : asian_args :=
  mk_asian (9 / 100) (115 / 100) (348 / 10000) (39 / 100) (- 64 / 100) 90 1 (Some 100) None (Some times) fixings (Some (5 / 100)) None None None GEOMETRIC DISCRETE.
(** Only the last sampling time is compared with the expiry: an option of one
    year with a sampling time of two years is priced. *)
Theorem C104_sampling_refuted :
  ~ (forall g times, accepted g = Some times -> forall t, In t times -> t <= g_expiry g).
Proof.
  intros H. assert (A : accepted (sample [2; 1 / 2] None) = Some [2; 1 / 2]).
  { unfold accepted. cbn. destruct (Req_EM_T _ _) as [M|M]; [reflexivity|exfalso; apply M; apply Rmax_right; lra]. }
  specialize (H _ _ A 2 (or_introl eq_refl)). cbn in H. lra.
Qed.
Print Assumptions C104_sampling_refuted.

Example C104_ex :
  accepted (sample [1 / 2; 1] (Some [101])) = Some [1 / 2; 1]
  /\ 0 < spot_of (sample [1 / 2; 1] (Some [101])) /\ (forall x, In x (fixings_of (sample [1 / 2; 1] (Some [101]))) -> 0 < x)
  /\ phi (handler_of (sample [1 / 2; 1] (Some [101])) [1 / 2; 1]) 0 0 = RtoC 1
  /\ phi (handler_of (sample [1 / 2; 1] (Some [101])) [1 / 2; 1]) 0 1 = RtoC (100 * exp (5 / 100))
  /\ exists price, asian_option_price (fun _ => None) (fun _ => None) (Some COMPOSITE_SIMPSONS_RULE) None None None (sample [1 / 2; 1] (Some [101])) = Some price.
Proof.
  assert (A : accepted (sample [1 / 2; 1] (Some [101])) = Some [1 / 2; 1]).
  { unfold accepted. cbn. destruct (Req_EM_T _ _) as [M|M]; [reflexivity|exfalso; apply M; apply Rmax_right; lra]. }
  split; [exact A|]. split; [unfold spot_of; cbn; lra|]. split; [intros x [<-|[]]; lra|]. split.
  - apply C104_normalised; cbn; try lra. discriminate.
  - split. { rewrite C104_forward; try (cbn; lra); [|discriminate]. unfold spot_of, discount_rate_of, dividend_rate_of. cbn [sample g_forward g_spot g_discount_rate g_dividend_rate g_expiry]. do 3 f_equal. ring. }
    unfold asian_option_price. rewrite A. cbv zeta. unfold integrate, simpson. replace (negb ((3 <=? 1001)%Z && (1001 mod 2 =? 1)%Z)) with false by reflexivity. eexists. reflexivity.
Qed.
