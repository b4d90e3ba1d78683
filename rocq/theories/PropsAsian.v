(** C58: analytic prices of geometric Asian options. *)
From Coquelicot Require Import Coquelicot.
From Coq Require Import Reals List Bool Arith Lia Lra Permutation.
From Verif Require Import InterpModel BrentModel ExtReal HaganWestModel BootstrapModel BlackScholesModel ImpliedVolModel BlackScholesSpec NormalProofs BlackScholesProofs ImpliedVolProofs GaussConv AsianModel AsianSpec AsianProofs.
Import ListNotations.
Open Scope R_scope.

Lemma args_pass a times D mu S0 : market_rate a D mu -> market_spot a mu S0 -> is_normal_volatility a = false -> times <> [] -> last times 0 <= expiry a ->
  asian_args_ok a (Some times) GEOMETRIC DISCRETE = true.
Proof.
  intros [H _] S N NE L. unfold asian_args_ok, discounts_to, market_spot in *. rewrite N. destruct times as [|t l]; [contradiction|].
  rewrite Rmax_right by exact L. unfold req. destruct (Req_EM_T (expiry a) (expiry a)) as [_|Q]; [|contradiction].
  destruct (spot a), (forward a), (discount_rate a), (discount_factor a); try contradiction; reflexivity.
Qed.

(** The price is the discounted expectation, over Brownian paths, of the payoff
    on the geometric mean of the past fixings and the asset at the sampling
    times. *)
Theorem C58_price a times past D mu S0 :
  is_normal_volatility a = false -> 0 < D -> 0 < expiry a -> market_rate a D mu -> market_spot a mu S0 -> 0 < S0 -> 0 < strike a -> 0 <= volatility a ->
  times <> [] -> in_order 0 times -> last times 0 <= expiry a -> Forall (fun x => 0 < x) (fixings past) ->
  exists m, asian_option_price a (Some times) past GEOMETRIC DISCRETE = Some (Fin (D * m))
    /\ path_expectation times 0 0 (fun ws => vanilla (calls a) (strike a) (geometric_mean (fixings past ++ asset_path S0 mu (volatility a) times ws))) m.
Proof.
  intros N DP T M S SP KP VP NE O L PP.
  exists (log_value (strike a) (calls a) (mean_log a times past mu S0) (dev_sum a times past)). split; [|apply asian_value; assumption].
  unfold asian_option_price. rewrite (args_pass a times D mu S0 M S N NE L). cbn [negb].
  destruct (market_args a D mu DP T M) as (r & E & _). rewrite E. cbn [snd].
  rewrite (asian_forward_ok a times past D mu S0 DP T M S SP NE O PP). destruct (effective_ok a times past T NE O) as (v & V & W). rewrite V.
  set (x := mean_log a times past mu S0) in *. set (s := dev_sum a times past) in *. set (F := exp (x + s ^ 2 / 2)).
  set (b := OptionArgs v (strike a) (expiry a) None (Some F) None None (Some D) (is_call_option a) false).
  assert (FP : 0 < F) by apply exp_pos.
  assert (Q : quoted b D F). { unfold quoted, discounts_to, forward_is, degenerate. cbn. repeat split; try lra; try assumption; try reflexivity. }
  destruct (price_value b D F Q) as (m & P & FA). rewrite P. do 3 f_equal.
  unfold fair, deviation in FA. cbn [volatility expiry is_normal_volatility strike b] in FA. rewrite W in FA. change (calls b) with (calls a) in FA.
  destruct (Rlt_dec 0 s) as [SS|SS].
  - apply (expectation_unique (fun z => vanilla (calls a) (strike a) (exp (x + s * z)))); [|apply log_value_spec; assumption].
    revert FA. apply expectation_ext. intros z. f_equal. unfold asset, F. rewrite <- exp_plus. f_equal. ring.
  - assert (SG : 0 <= s).
    { unfold s, dev_sum. apply Rmult_le_pos; [|apply sqrt_pos]. apply Rmult_le_pos; [exact VP|]. left. apply Rinv_0_lt_compat. exact (n_pos times past NE O). }
    assert (Z : s = 0) by (clear - SG SS; lra).
    rewrite FA, Z, log_value_at. f_equal. unfold F. rewrite Z. f_equal. field.
Qed.

(** The specification determines the value. *)
Theorem C58_expectation_unique times prev w f m n : path_expectation times prev w f m -> path_expectation times prev w f n -> m = n.
Proof. apply path_unique. Qed.

(** One sampling time, at expiry, and no past fixings: the European option. *)
Theorem C58_european a D mu S0 :
  is_normal_volatility a = false -> 0 < D -> 0 < expiry a -> market_rate a D mu -> market_spot a mu S0 -> 0 < S0 -> 0 < strike a -> 0 <= volatility a ->
  asian_option_price a (Some [expiry a]) None GEOMETRIC DISCRETE = option_price a.
Proof.
  intros N DP T M S SP KP VP.
  destruct (C58_price a [expiry a] None D mu S0 N DP T M S SP KP VP ltac:(discriminate) ltac:(cbn; split; [lra|exact Logic.I]) ltac:(cbn; lra) ltac:(constructor)) as (m & E & PE). rewrite E.
  set (F := S0 * exp (mu * expiry a)).
  assert (Q : quoted a D F).
  { destruct M as [M1 M2]. unfold quoted. split; [exact DP|]. split; [exact M1|]. split; [|split; [lra|split; [intros [X _]; lra|intros _; split; [apply Rmult_lt_0_compat; [exact SP|apply exp_pos]|exact KP]]]].
    unfold forward_is, market_spot in *. destruct (spot a), (forward a); try contradiction; subst; [|reflexivity].
    unfold F. replace ((- ln D / expiry a - dividend a) * expiry a) with (- ln D + - (dividend a * expiry a)) by (field; lra). rewrite exp_plus, exp_Ropp, exp_ln by exact DP. field. lra. }
  destruct (price_value a D F Q) as (k & P & FA). rewrite P. do 3 f_equal.
  destruct PE as (g & G & X). cbn [path_expectation] in G.
  assert (GM : forall z, g z = vanilla (calls a) (strike a) (F * exp (deviation a * z - deviation a ^ 2 / 2))).
  { intros z. rewrite (G z). f_equal. cbn [fixings app asset_path combine map]. unfold geometric_mean. cbn [length product fold_right]. change (INR 1) with 1. rewrite Rinv_1, Rpower_1.
    - rewrite Rmult_1_r. unfold asset_at, F, deviation. rewrite Rmult_assoc, <- exp_plus. f_equal. f_equal. rewrite Rminus_0_r.
      replace ((volatility a * sqrt (expiry a)) ^ 2) with (volatility a ^ 2 * (sqrt (expiry a)) ^ 2) by ring. rewrite pow2_sqrt by lra. field.
    - rewrite Rmult_1_r. apply asset_at_pos. exact SP. }
  unfold fair in FA. destruct (Rlt_dec 0 (deviation a)) as [V|V].
  - apply (expectation_unique g); [exact X|]. revert FA. apply expectation_ext. intros z. rewrite N. symmetry. apply GM.
  - assert (Z : deviation a = 0). { assert (0 <= deviation a) by (apply Rmult_le_pos; [exact VP|apply sqrt_pos]). lra. }
    rewrite FA. apply (expectation_unique g); [exact X|]. eapply expectation_ext; [|apply expect_const]. intros z. cbn beta. rewrite GM, Z. f_equal. replace (0 * z - 0 ^ 2 / 2) with 0 by field. rewrite exp_0. ring.
Qed.

(** The order in which sampling times and fixings are listed does not matter,
    as long as the check on the last sampling time passes. *)
Lemma total_perm l l' : Permutation l l' -> total l = total l'.
Proof. unfold total. induction 1; cbn [fold_right]; lra. Qed.
Lemma xmul_perm (l l' : list xr) : Permutation l l' -> (forall x, In x l -> is_finite x = true) -> xprod l = xprod l'.
Proof.
  intros P. induction P as [|x l l' P IH|x y l|l l' l'' P IH P' IH']; intros F.
  - reflexivity.
  - cbn [xprod fold_right]. change (fold_right xmul (Fin 1)) with xprod. rewrite IH; [reflexivity|]. intros z Z. apply F. right. exact Z.
  - cbn [xprod fold_right]. assert (FX := F x (or_intror (or_introl eq_refl))). assert (FY := F y (or_introl eq_refl)).
    assert (FL : exists p, fold_right xmul (Fin 1) l = Fin p).
    { assert (FF : forall z, In z l -> is_finite z = true) by (intros z Z; apply F; right; right; exact Z). clear - FF. induction l as [|z l IH]; [exists 1; reflexivity|].
      destruct IH as [p E]; [intros; apply FF; right; assumption|]. specialize (FF z (or_introl eq_refl)). destruct z; try discriminate. exists (r * p). cbn [fold_right]. rewrite E. reflexivity. }
    destruct FL as [p ->]. destruct x, y; try discriminate. cbn [xmul]. f_equal. ring.
  - rewrite IH by exact F. apply IH'. intros z Z. apply F. apply (Permutation_in z (Permutation_sym P) Z).
Qed.
Theorem C58_order a times times' past past' D mu S0 :
  0 < D -> 0 < expiry a -> market_rate a D mu -> market_spot a mu S0 ->
  Permutation times times' -> Permutation past past' -> last times 0 <= expiry a -> last times' 0 <= expiry a ->
  asian_option_price a (Some times) (Some past) GEOMETRIC DISCRETE = asian_option_price a (Some times') (Some past') GEOMETRIC DISCRETE.
Proof.
  intros DP T M S P Q L L'.
  assert (OK : asian_args_ok a (Some times) GEOMETRIC DISCRETE = asian_args_ok a (Some times') GEOMETRIC DISCRETE).
  { unfold asian_args_ok. destruct times as [|u l], times' as [|u' l'].
    - reflexivity.
    - apply Permutation_nil in P. discriminate.
    - apply Permutation_sym, Permutation_nil in P. discriminate.
    - rewrite !Rmax_right by assumption. reflexivity. }
  assert (SC : sample_count times (Some past) = sample_count times' (Some past')) by (unfold sample_count; cbn [fixing_count]; rewrite (Permutation_length P), (Permutation_length Q); reflexivity).
  assert (T1 : forall n, t1 times n = t1 times' n) by (intros n; unfold t1; rewrite (total_perm _ _ P); reflexivity).
  assert (T2 : forall n, t2 times n = t2 times' n).
  { intros n. unfold t2. f_equal. rewrite (total_perm _ _ (Permutation_map (fun x => total (map (Rmin x) times)) P)). apply total_ext. intros x _. apply total_perm. apply Permutation_map. exact P. }
  assert (FW : asian_forward a times (Some past) = asian_forward a times' (Some past')).
  { unfold asian_forward. cbn [running_accumulator]. rewrite SC, T1, T2. f_equal. f_equal. f_equal.
    - apply xmul_perm; [apply Permutation_map; exact Q|]. intros x X. apply in_map_iff in X. destruct X as (y & <- & _). reflexivity.
    - apply xmul_perm; [apply Permutation_map; exact P|]. rewrite (forwards_ok a D mu S0 times DP T M S). intros x X. apply in_map_iff in X. destruct X as (y & <- & _). reflexivity. }
  assert (EV : effective_volatility a times (Some past) = effective_volatility a times' (Some past')) by (unfold effective_volatility; rewrite SC, T2; reflexivity).
  unfold asian_option_price. rewrite OK, FW, EV. reflexivity.
Qed.

Ltac pick := first [reflexivity|left; pick|right; pick].
(** Exactly the documented argument combinations are refused; only the last
    sampling time is compared with the expiry. *)
Theorem C58_errors a times past ty fr : asian_option_price a times past ty fr = None <->
  (spot a = None <-> forward a = None) \/ (discount_rate a <> None /\ discount_factor a <> None)
  \/ ty = ARITHMETIC \/ fr = CONTINUOUS \/ is_normal_volatility a = true
  \/ times = None \/ times = Some [] \/ (exists l, times = Some l /\ expiry a < last l 0).
Proof.
  unfold asian_option_price.
  assert (KEY : asian_args_ok a times ty fr = false <-> (spot a = None <-> forward a = None) \/ (discount_rate a <> None /\ discount_factor a <> None)
    \/ ty = ARITHMETIC \/ fr = CONTINUOUS \/ is_normal_volatility a = true \/ times = None \/ times = Some [] \/ (exists l, times = Some l /\ expiry a < last l 0)).
  { assert (LST : forall l, times = Some l -> l <> [] -> (negb (req (Rmax (last l 0) (expiry a)) (expiry a)) = true <-> expiry a < last l 0)).
    { intros l _ _. unfold req, Rmax. destruct (Rle_dec (last l 0) (expiry a)); match goal with |- context [Req_EM_T ?u ?v] => destruct (Req_EM_T u v) end; cbn; split; intros; try discriminate; try reflexivity; try lra. }
    unfold asian_args_ok.
    destruct (spot a) as [x|], (forward a) as [y|]; cbn [is_none eqb];
      try (split; [intros _; left; split; congruence|reflexivity]);
      (destruct (discount_rate a) as [r|], (discount_factor a) as [d|]; cbn [is_none negb andb];
      try (split; [intros _; right; left; split; discriminate|reflexivity]);
      (destruct (is_normal_volatility a), ty; cbn [andb negb];
      try (split; [intros _; pick|reflexivity]);
      (destruct fr; [|split; [intros _; pick|reflexivity]];
       destruct times as [[|t l]|]; try (split; [intros _; pick|reflexivity]);
       specialize (LST (t :: l) eq_refl ltac:(discriminate));
       destruct (negb (req (Rmax (last (t :: l) 0) (expiry a)) (expiry a)));
       [split; [intros _; do 7 right; exists (t :: l); split; [reflexivity|apply LST; reflexivity]|reflexivity]
       |first [split; [intros _; pick|reflexivity]|split; [discriminate|intros H; exfalso; destruct H as [[H1 H2]|[[H1 H2]|[H|[H|[H|[H|[H|(k & H & K)]]]]]]];
          [try (discriminate (H1 eq_refl)); try (discriminate (H2 eq_refl))|try (apply H1; reflexivity); try (apply H2; reflexivity)|discriminate H|discriminate H|discriminate H|discriminate H|discriminate H
          |injection H as <-; apply LST in K; discriminate K]]]]))). }
  rewrite <- KEY. destruct (asian_args_ok a times ty fr) eqn:OK; cbn [negb]; [|tauto]. split; [|discriminate]. intros X. exfalso.
  assert (OK' := OK). unfold asian_args_ok in OK'.
  destruct times as [l|].
  - destruct (snd (discounting_args a)) as [d| |] eqn:DS.
    + destruct (asian_forward a l past) as [f| |]; discriminate X.
    + unfold discounting_args in DS. destruct (discount_rate a), (discount_factor a); discriminate.
    + unfold discounting_args in DS. destruct (discount_rate a), (discount_factor a); discriminate.
  - destruct (eqb _ _), (negb (is_none (discount_rate a)) && negb (is_none (discount_factor a))), (is_normal_volatility a), ty, fr; discriminate.
Qed.

(** Two sampling times, one past fixing, a put. *)
Definition sample_args := OptionArgs (1 / 5) 100 1 (Some 90) None (Some (1 / 20)) None None (Some false) false.
Example sample_price : exists m, asian_option_price sample_args (Some [1 / 2; 1]) (Some [95]) GEOMETRIC DISCRETE = Some (Fin (exp (- (1 / 20 * 1)) * m))
  /\ path_expectation [1 / 2; 1] 0 0 (fun ws => Rmax (100 - geometric_mean (95 :: asset_path 90 (1 / 20) (1 / 5) [1 / 2; 1] ws)) 0) m.
Proof.
  destruct (C58_price sample_args [1 / 2; 1] (Some [95]) (exp (- (1 / 20 * 1))) (1 / 20) 90) as (m & E & P); cbn [sample_args is_normal_volatility expiry strike volatility]; try lra; try reflexivity.
  - apply exp_pos.
  - split; [reflexivity|]. rewrite ln_exp. cbn. field.
  - discriminate.
  - cbn. repeat split; lra.
  - cbn. lra.
  - repeat constructor; lra.
  - exists m. split; [exact E|]. exact P.
Qed.
(** Unsorted sampling times pass the check although the first is after expiry. *)
Example sample_unsorted : asian_option_price sample_args (Some [2; 1]) None GEOMETRIC DISCRETE <> None.
Proof. intros H. apply C58_errors in H. cbn in H. destruct H as [[H1 H2]|[[H1 H2]|[H|[H|[H|[H|[H|(k & H & K)]]]]]]]; try discriminate; [discriminate (H2 eq_refl)|apply H2; reflexivity|injection H as <-; cbn in K; lra]. Qed.

Print Assumptions C58_price.
Print Assumptions C58_expectation_unique.
Print Assumptions C58_european.
Print Assumptions C58_order.
Print Assumptions C58_errors.
