(** C39, C40 and C55: vanilla, digital and swaption prices. *)
From Coquelicot Require Import Coquelicot.
From Coq Require Import Reals Lra Lia List Bool.
From Verif Require Import InterpModel BrentModel ExtReal HaganWestModel HaganWestProofs BootstrapModel BlackScholesModel BlackScholesSpec NormalProofs BlackScholesProofs.
Import ListNotations.
Open Scope R_scope.

(** * Vanilla options *)

(** The price is the discounted expected payoff. *)
Theorem C39_value a D F : quoted a D F ->
  exists m, option_price a = Some (Fin (D * m)) /\ fair a F (vanilla (calls a) (strike a)) m.
Proof. apply price_value. Qed.

(** Without volatility or time the price is the discounted intrinsic value. *)
Theorem C39_intrinsic a D F : quoted a D F -> volatility a = 0 \/ expiry a = 0 ->
  option_price a = Some (Fin (D * vanilla (calls a) (strike a) F)).
Proof.
  intros Q Z. destruct (price_value a D F Q) as (m & E & V). rewrite E. do 3 f_equal.
  unfold fair, deviation in V. destruct (Rlt_dec 0 (volatility a * sqrt (expiry a))) as [P|_]; [|exact V].
  exfalso. destruct Z as [Z|Z]; rewrite Z in P; [lra|rewrite sqrt_0 in P; lra].
Qed.

(** The value depends on the market only: different ways of describing the
    same discount factor and forward give the same price. *)
Theorem C39_same_market a b D F : quoted a D F -> quoted b D F ->
  volatility a = volatility b -> strike a = strike b -> expiry a = expiry b -> calls a = calls b -> is_normal_volatility a = is_normal_volatility b ->
  option_price a = option_price b.
Proof.
  intros Qa Qb E1 E2 E3 E4 E5. destruct (price_value a D F Qa) as (m & Ea & Va). destruct (price_value b D F Qb) as (n & Eb & Vb).
  rewrite Ea, Eb. do 3 f_equal. eapply fair_unique; [exact Va|]. unfold fair, deviation in *. rewrite E1, E2, E3, E4, E5. exact Vb.
Qed.

Theorem C39_parity a D F : quoted a D F -> exists c p,
  option_price (with_type a (Some true)) = Some (Fin c) /\ option_price (with_type a (Some false)) = Some (Fin p)
  /\ option_price (with_type a None) = Some (Fin c) /\ c - p = D * (F - strike a).
Proof.
  intros Q.
  destruct (price_value (with_type a (Some true)) D F Q) as (m & E & V).
  destruct (price_value (with_type a (Some false)) D F Q) as (n & G & W).
  destruct (price_value (with_type a None) D F Q) as (l & J & U).
  exists (D * m), (D * n). split; [exact E|]. split; [exact G|]. split.
  - rewrite J. do 3 f_equal. eapply fair_unique; [exact U|exact V].
  - rewrite <- Rmult_minus_distr_l. f_equal.
    assert (X : fair a F (fun x => 1 * x + - strike a) (1 * F + - strike a)) by apply fair_affine.
    assert (Y : fair a F (fun x => 1 * vanilla true (strike a) x + -1 * vanilla false (strike a) x) (1 * m + -1 * n)) by (eapply fair_lin; [exact V|exact W|reflexivity]).
    assert (Z : fair a F (fun x => 1 * x + - strike a) (1 * m + -1 * n)).
    { eapply fair_ext; [apply (quoted_range a D F Q)| |exact Y]. intros x _. unfold vanilla, Rmax. destruct (Rle_dec (x - strike a) 0), (Rle_dec (strike a - x) 0); lra. }
    assert (T := fair_unique a F _ _ _ X Z). lra.
Qed.

(** Increasing in the volatility. *)
Theorem C39_volatility a D F v w : quoted a D F -> 0 < expiry a -> 0 <= v < w -> exists p q,
  option_price (with_volatility a v) = Some (Fin p) /\ option_price (with_volatility a w) = Some (Fin q) /\ p < q.
Proof.
  intros Q T [V W].
  destruct (price_value (with_volatility a v) D F Q) as (m & E & M).
  destruct (price_value (with_volatility a w) D F Q) as (n & G & N).
  exists (D * m), (D * n). split; [exact E|]. split; [exact G|].
  apply Rmult_lt_compat_l; [apply Q|].
  assert (ST : 0 < sqrt (expiry a)) by (apply sqrt_lt_R0; exact T).
  assert (VV := quoted_pos a D F Q). assert (RR := quoted_range a D F Q).
  (* the value at a positive volatility *)
  assert (K : forall u k, 0 < u -> fair (with_volatility a u) F (vanilla (calls a) (strike a)) k ->
     k = above (is_normal_volatility a) F (strike a) (u * sqrt (expiry a)) 1 (- strike a) - (if calls a then 0 else F - strike a)).
  { intros u k U Y. eapply fair_unique; [exact Y|].
    assert (DU : 0 < deviation (with_volatility a u)) by (unfold deviation; cbn; apply Rmult_lt_0_compat; assumption).
    destruct (calls a).
    - rewrite Rminus_0_r. apply (fair_above (with_volatility a u)); [exact DU|exact VV| |]; intros x X; unfold vanilla, Rmax; cbn [strike with_volatility] in *; destruct (Rle_dec (x - strike a) 0); lra.
    - replace (above (is_normal_volatility a) F (strike a) (u * sqrt (expiry a)) 1 (- strike a) - (F - strike a)) with (below (is_normal_volatility a) F (strike a) (deviation (with_volatility a u)) (-1) (strike a)).
      + apply (fair_below (with_volatility a u)); [exact DU|exact VV| |]; intros x X; unfold vanilla, Rmax; cbn [strike with_volatility] in *; destruct (Rle_dec (strike a - x) 0); lra.
      + rewrite below_above. assert (O := prim_opp (is_normal_volatility a) F (deviation (with_volatility a u)) 1 (- strike a) (threshold (is_normal_volatility a) F (strike a) (deviation (with_volatility a u)))).
        replace (- (1)) with (-1) in O by ring. rewrite Ropp_involutive in O. unfold above in *. rewrite O.
        change (deviation (with_volatility a u)) with (u * sqrt (expiry a)). ring. }
  assert (INC : forall u k u' k', 0 < u -> u < u' -> fair (with_volatility a u) F (vanilla (calls a) (strike a)) k -> fair (with_volatility a u') F (vanilla (calls a) (strike a)) k' -> k < k').
  { intros u k u' k' P L A B. rewrite (K u k P A), (K u' k'); [|lra|exact B].
    assert (I := above_incr (is_normal_volatility a) F (strike a) (u * sqrt (expiry a)) (u' * sqrt (expiry a)) VV).
    assert (u * sqrt (expiry a) < u' * sqrt (expiry a)) by (apply Rmult_lt_compat_r; assumption).
    assert (0 < u * sqrt (expiry a)) by (apply Rmult_lt_0_compat; assumption). specialize (I ltac:(assumption) ltac:(assumption)). lra. }
  destruct (Rle_lt_or_eq_dec 0 v V) as [P|P]; [eapply INC; eassumption|].
  destruct (price_value (with_volatility a (w / 2)) D F Q) as (h & _ & H).
  assert (L : h < n) by (eapply (INC (w / 2) h w n); [lra|lra|exact H|exact N]).
  assert (M' : m = vanilla (calls a) (strike a) F).
  { unfold fair, deviation in M. cbn [volatility expiry with_volatility] in M. rewrite <- P, Rmult_0_l in M. destruct (Rlt_dec 0 0); [lra|]. exact M. }
  (* intrinsic value at the forward is below the expectation *)
  assert (B1 : 0 <= h). { eapply (fair_le (with_volatility a (w / 2)) F (fun x => 0 * x + 0)); [exact RR| | |exact H]; [|replace 0 with (0 * F + 0) at 1 by ring; apply fair_affine]. intros x _. unfold vanilla, calls, Rmax. cbn. destruct (is_call_option a) as [[|]|]; destruct (Rle_dec _ _); lra. }
  assert (B2 : (if calls a then F - strike a else strike a - F) <= h).
  { change (calls a) with (calls (with_volatility a (w / 2))) in *. destruct (calls (with_volatility a (w / 2))).
    - replace (F - strike a) with (1 * F + - strike a) by ring. eapply (fair_le (with_volatility a (w / 2)) F (fun x => 1 * x + - strike a)); [exact RR| |apply fair_affine|exact H]. intros x _. unfold vanilla, Rmax. cbn. destruct (Rle_dec (x - strike a) 0); lra.
    - replace (strike a - F) with (-1 * F + strike a) by ring. eapply (fair_le (with_volatility a (w / 2)) F (fun x => -1 * x + strike a)); [exact RR| |apply fair_affine|exact H]. intros x _. unfold vanilla, Rmax. cbn. destruct (Rle_dec (strike a - x) 0); lra. }
  rewrite M'. unfold vanilla, Rmax. destruct (calls a); destruct (Rle_dec _ 0); lra.
Qed.

(** No-arbitrage bounds, strict when there is volatility and time. *)
Theorem C39_bounds a D F : quoted a D F -> exists v, option_price a = Some (Fin v)
  /\ D * vanilla (calls a) (strike a) F <= v
  /\ (is_normal_volatility a = false -> v <= D * (if calls a then F else strike a))
  /\ (0 < volatility a -> 0 < expiry a ->
        D * vanilla (calls a) (strike a) F < v /\ (is_normal_volatility a = false -> v < D * (if calls a then F else strike a))).
Proof.
  intros Q. destruct (price_value a D F Q) as (m & E & V). assert (PD : 0 < D) by apply Q. exists (D * m). split; [exact E|].
  assert (RR := quoted_range a D F Q). assert (VV := quoted_pos a D F Q).
  assert (STR : 0 < volatility a -> 0 < expiry a -> D * vanilla (calls a) (strike a) F < D * m).
  { intros PV PT. destruct (C39_volatility a D F 0 (volatility a) Q PT) as (p & q & A & B & L); [lra|].
    destruct (price_value (with_volatility a 0) D F Q) as (m0 & E0 & V0).
    assert (M0 : m0 = vanilla (calls a) (strike a) F).
    { unfold fair, deviation in V0. cbn [volatility expiry with_volatility] in V0. rewrite Rmult_0_l in V0. destruct (Rlt_dec 0 0); [lra|]. exact V0. }
    rewrite E0 in A. assert (ID : option_price (with_volatility a (volatility a)) = option_price a) by (destruct a; reflexivity). rewrite ID, E in B.
    injection A as A. injection B as B. rewrite <- M0. lra. }
  assert (UP : is_normal_volatility a = false -> m <= (if calls a then F else strike a)).
  { intros NN. destruct (VV NN) as [PF PK]. destruct (calls a).
    - replace F with (1 * F + 0) by ring. eapply (fair_le a F); [exact RR| |exact V|apply fair_affine]. intros x [X|X]; [congruence|]. unfold vanilla, Rmax. destruct (Rle_dec (x - strike a) 0); lra.
    - assert (T := fair_affine a F 0 (strike a)). replace (0 * F + strike a) with (strike a) in T by ring. eapply (fair_le a F); [exact RR| |exact V|exact T]. intros x [X|X]; [congruence|]. unfold vanilla, Rmax. destruct (Rle_dec (strike a - x) 0); lra. }
  assert (LOW : vanilla (calls a) (strike a) F <= m).
  { destruct (Rlt_dec 0 (deviation a)) as [PS|PS].
    - assert (P0 : 0 <= m). { eapply (fair_le a F (fun x => 0 * x + 0)); [exact RR| | |exact V]; [|replace 0 with (0 * F + 0) at 1 by ring; apply fair_affine]. intros x _. unfold vanilla, Rmax. destruct (calls a); destruct (Rle_dec _ _); lra. }
      destruct (calls a).
      + assert (F - strike a <= m). { replace (F - strike a) with (1 * F + - strike a) by ring. eapply (fair_le a F (fun x => 1 * x + - strike a)); [exact RR| |apply fair_affine|exact V]. intros x _. unfold vanilla, Rmax. destruct (Rle_dec (x - strike a) 0); lra. }
        unfold vanilla, Rmax. destruct (Rle_dec (F - strike a) 0); lra.
      + assert (strike a - F <= m). { replace (strike a - F) with (-1 * F + strike a) by ring. eapply (fair_le a F (fun x => -1 * x + strike a)); [exact RR| |apply fair_affine|exact V]. intros x _. unfold vanilla, Rmax. destruct (Rle_dec (strike a - x) 0); lra. }
        unfold vanilla, Rmax. destruct (Rle_dec (strike a - F) 0); lra.
    - unfold fair in V. destruct (Rlt_dec 0 (deviation a)); [contradiction|]. rewrite V. lra. }
  split; [apply Rmult_le_compat_l; lra|]. split; [intros NN; apply Rmult_le_compat_l; [lra|exact (UP NN)]|].
  intros PV PT. split; [apply STR; assumption|]. intros NN.
  (* a larger volatility gives a larger value, still within the bound *)
  destruct (C39_volatility a D F (volatility a) (volatility a + 1) Q PT) as (p & q & A & B & L); [lra|].
  assert (ID : option_price (with_volatility a (volatility a)) = option_price a) by (destruct a; reflexivity). rewrite ID, E in A. injection A as A.
  destruct (price_value (with_volatility a (volatility a + 1)) D F Q) as (k & EK & VK). rewrite EK in B. injection B as B.
  assert (UK : k <= (if calls a then F else strike a)).
  { destruct (VV NN) as [PF PK]. change (calls a) with (calls (with_volatility a (volatility a + 1))). destruct (calls (with_volatility a (volatility a + 1))).
    - replace F with (1 * F + 0) by ring. eapply (fair_le (with_volatility a (volatility a + 1)) F); [exact RR| |exact VK|apply fair_affine]. intros x [X|X]; [cbn in X; congruence|]. unfold vanilla, Rmax. cbn. destruct (Rle_dec (x - strike a) 0); lra.
    - assert (T := fair_affine (with_volatility a (volatility a + 1)) F 0 (strike a)). replace (0 * F + strike a) with (strike a) in T by ring. eapply (fair_le (with_volatility a (volatility a + 1)) F); [exact RR| |exact VK|exact T]. intros x [X|X]; [cbn in X; congruence|]. unfold vanilla, Rmax. cbn. destruct (Rle_dec (strike a - x) 0); lra. }
  rewrite A. apply Rlt_le_trans with (1 := L). rewrite <- B. apply Rmult_le_compat_l; lra.
Qed.

(** In the strike: calls fall and puts rise, at most with slope D, and both
    are convex. *)
Theorem C39_strike a D F k l : quoted (with_strike a k) D F -> quoted (with_strike a l) D F -> k <= l -> exists p q,
  option_price (with_strike a k) = Some (Fin p) /\ option_price (with_strike a l) = Some (Fin q)
  /\ (if calls a then 0 <= p - q <= D * (l - k) else 0 <= q - p <= D * (l - k))
  /\ forall w, 0 <= w <= 1 -> exists r, option_price (with_strike a ((1 - w) * k + w * l)) = Some (Fin r) /\ r <= (1 - w) * p + w * q.
Proof.
  intros Qk Ql L. assert (PD : 0 < D) by apply Qk.
  destruct (price_value _ D F Qk) as (m & E & M). destruct (price_value _ D F Ql) as (n & G & N).
  assert (RR := quoted_range _ D F Qk).
  exists (D * m), (D * n). split; [exact E|]. split; [exact G|].
  change (calls (with_strike a k)) with (calls a) in M. change (calls (with_strike a l)) with (calls a) in N. cbn [strike with_strike] in M, N.
  change (fair (with_strike a l)) with (fair (with_strike a k)) in N. split.
  - assert (X : fair (with_strike a k) F (fun x => 0 * x + (l - k)) (0 * F + (l - k))) by apply fair_affine.
    destruct (calls a).
    + assert (Y : fair (with_strike a k) F (fun x => 1 * vanilla true k x + -1 * vanilla true l x) (1 * m + -1 * n)) by (eapply fair_lin; [exact M|exact N|reflexivity]).
      assert (B := fair_le _ F (vanilla true l) (vanilla true k) n m RR).
      assert (n <= m). { apply B; [|exact N|exact M]. intros x _. unfold vanilla, Rmax. destruct (Rle_dec (x - l) 0), (Rle_dec (x - k) 0); lra. }
      assert (1 * m + -1 * n <= 0 * F + (l - k)). { eapply fair_le; [exact RR| |exact Y|exact X]. intros x _. unfold vanilla, Rmax. destruct (Rle_dec (x - l) 0), (Rle_dec (x - k) 0); lra. }
      split; nra.
    + assert (Y : fair (with_strike a k) F (fun x => 1 * vanilla false l x + -1 * vanilla false k x) (1 * n + -1 * m)) by (eapply fair_lin; [exact N|exact M|reflexivity]).
      assert (B := fair_le _ F (vanilla false k) (vanilla false l) m n RR).
      assert (m <= n). { apply B; [|exact M|exact N]. intros x _. unfold vanilla, Rmax. destruct (Rle_dec (l - x) 0), (Rle_dec (k - x) 0); lra. }
      assert (1 * n + -1 * m <= 0 * F + (l - k)). { eapply fair_le; [exact RR| |exact Y|exact X]. intros x _. unfold vanilla, Rmax. destruct (Rle_dec (l - x) 0), (Rle_dec (k - x) 0); lra. }
      split; nra.
  - intros w W. set (s := (1 - w) * k + w * l).
    assert (Qs : quoted (with_strike a s) D F).
    { destruct Qk as (A1 & A2 & A3 & A4 & A5 & A6). destruct Ql as (_ & _ & _ & _ & _ & B6). do 5 (split; [assumption|]).
      intros NN. destruct (A6 NN) as [U1 U2]. destruct (B6 NN) as [_ U3]. split; [exact U1|]. cbn [strike with_strike] in *. unfold s. nra. }
    destruct (price_value _ D F Qs) as (r & R1 & R2). exists (D * r). split; [exact R1|].
    change (calls (with_strike a s)) with (calls a) in R2. cbn [strike with_strike] in R2. change (fair (with_strike a s)) with (fair (with_strike a k)) in R2.
    assert (Y : fair (with_strike a k) F (fun x => (1 - w) * vanilla (calls a) k x + w * vanilla (calls a) l x) ((1 - w) * m + w * n)) by (eapply fair_lin; [exact M|exact N|reflexivity]).
    assert (r <= (1 - w) * m + w * n); [|nra].
    eapply fair_le; [exact RR| |exact R2|exact Y]. intros x _. unfold vanilla, s, Rmax. clear - W L.
    destruct (calls a).
    + destruct (Rle_dec (x - ((1 - w) * k + w * l)) 0), (Rle_dec (x - l) 0), (Rle_dec (x - k) 0); nra.
    + destruct (Rle_dec ((1 - w) * k + w * l - x) 0), (Rle_dec (l - x) 0), (Rle_dec (k - x) 0); nra.
Qed.

(** Errors: exactly one of spot and forward, at most one discounting input. *)
Theorem C39_errors a : option_price a = None <->
  (spot a = None /\ forward a = None) \/ (spot a <> None /\ forward a <> None) \/ (discount_rate a <> None /\ discount_factor a <> None).
Proof.
  unfold option_price, args_ok.
  destruct (spot a), (forward a), (discount_rate a), (discount_factor a); cbn;
    (split; [intros; try discriminate; intuition discriminate|intros; try reflexivity; exfalso; intuition congruence]).
Qed.

(** With a spot and a discount factor at expiry time zero the price is NaN,
    not the discounted intrinsic value. *)
Theorem C39_expiry_refuted a s d : spot a = Some s -> forward a = None -> discount_rate a = None -> discount_factor a = Some d -> 0 < d -> expiry a = 0 ->
  option_price a = Some NaN.
Proof.
  intros H1 H2 H3 H4 P T. unfold option_price, args_ok, undiscounted_call, forward_args, sqrt_var, discounting_args.
  rewrite H1, H2, H3, H4, T. cbn [is_none eqb negb andb fst snd]. rewrite xln_pos by exact P. cbn [xopp].
  assert (Z : (Fin (- ln d) /x Fin 0 -x dividend_args a) *x Fin 0 = NaN).
  { unfold dividend_args, xdiv, req. destruct (Req_EM_T 0 0) as [_|Z]; [|contradiction]. destruct (Req_EM_T (- ln d) 0); destruct (dividend_rate a); cbn; try reflexivity; unfold req; destruct (Req_EM_T 0 0); try reflexivity; contradiction. }
  rewrite Z. cbn [xexp xmul]. unfold xsqrt, rlt. destruct (Rlt_dec 0 0) as [Q|_]; [lra|]. rewrite sqrt_0.
  cbn [xmul]. rewrite Rmult_0_r. rewrite rlt_npos by lra.
  destruct (is_normal_volatility a); destruct (is_call_option a) as [[|]|]; reflexivity.
Qed.

(** * Digital options *)

Theorem C40_binary a D F : quoted a D F -> (forward a = None -> dividend a * expiry a = 0) ->
  exists m, binary_price a = Some (Fin (D * m)) /\ fair a F (digital (calls a) (strike a)) m.
Proof.
  intros Q Z. assert (PD : 0 < D) by apply Q.
  assert (BF : binary_forward a = Fin F).
  { unfold binary_forward. rewrite (quoted_discount a D F Q). destruct Q as (_ & _ & W & _). unfold forward_is in W.
    destruct (spot a) as [x|], (forward a) as [f|]; try contradiction; [|subst; reflexivity].
    rewrite fdiv by lra. f_equal. rewrite W, (Z eq_refl), Ropp_0, exp_0. field. lra. }
  unfold binary_price. rewrite (quoted_ok a D F Q). cbn [negb]. cbv zeta. rewrite (quoted_discount a D F Q), BF, (quoted_var a D F Q).
  assert (V := quoted_pos a D F Q).
  destruct (Rlt_dec 0 (deviation a)) as [S|S].
  - rewrite rlt_pos by exact S. assert (N : deviation a <> 0) by lra.
    set (A := above (is_normal_volatility a) F (strike a) (deviation a) 0 1).
    assert (C : xncdf (if is_normal_volatility a then (Fin F -x Fin (strike a)) /x Fin (deviation a)
                       else xln (Fin F /x Fin (strike a)) /x Fin (deviation a) -x Fin (deviation a) /x Fin 2) = Fin A).
    { unfold A. destruct (is_normal_volatility a).
      - rewrite above_normal by exact N. rewrite fsub, fdiv by exact N. cbn [xncdf]. f_equal. ring.
      - destruct (V eq_refl) as [VF VK]. rewrite above_log by exact N. rewrite (fdiv F) by lra. rewrite xln_pos by (apply Rdiv_lt_0_compat; lra).
        rewrite !fdiv by (exact N || lra). rewrite fsub. cbn [xncdf]. f_equal. replace (ln (F / strike a) / deviation a + deviation a / 2 - deviation a) with (ln (F / strike a) / deviation a - deviation a / 2) by (field; exact N). ring. }
    rewrite C.
    assert (FA : fair a F (digital true (strike a)) A). { apply fair_above; [exact S|exact V| |]; intros x X; unfold digital; destruct (Rlt_dec (strike a) x); lra. }
    assert (FB : fair a F (digital false (strike a)) (1 - A)).
    { replace (1 - A) with (below (is_normal_volatility a) F (strike a) (deviation a) 0 1) by (rewrite below_above; unfold A; ring).
      apply fair_below; [exact S|exact V| |]; intros x X; unfold digital; destruct (Rlt_dec (strike a) x); lra. }
    unfold calls. destruct (is_call_option a) as [[|]|]; xfin; eexists; (split; [reflexivity|assumption]).
  - rewrite rlt_npos by exact S. unfold calls, fair. destruct (Rlt_dec 0 (deviation a)) as [W|_]; [contradiction|].
    unfold digital, xlt, rlt. destruct (Rlt_dec (strike a) F); destruct (is_call_option a) as [[|]|]; xfin; eexists; (split; [reflexivity|]); ring.
Qed.

Theorem C40_asset a D F : quoted a D F ->
  exists m, asset_or_nothing_price a = Some (Fin (D * m)) /\ fair a F (asset_payoff (calls a) (strike a)) m.
Proof.
  intros Q. unfold asset_or_nothing_price. rewrite (quoted_ok a D F Q). cbn [negb]. cbv zeta. rewrite (quoted_discount a D F Q), (quoted_forward a D F Q), (quoted_var a D F Q).
  assert (V := quoted_pos a D F Q).
  destruct (Rlt_dec 0 (deviation a)) as [S|S].
  - rewrite rlt_pos by exact S. assert (N : deviation a <> 0) by lra.
    set (A := above (is_normal_volatility a) F (strike a) (deviation a) 1 0).
    match goal with |- context [match is_call_option a with Some predicate => Fin D *x (if predicate then ?c else _) | None => _ end] => set (C := c) end.
    assert (EC : C = Fin A).
    { unfold C, A. destruct (is_normal_volatility a); cbn [negb].
      - rewrite above_normal by exact N. rewrite fsub, xdnn by exact N. cbn [xncdf]. rewrite xdensity_fin. xfin. f_equal. ring.
      - destruct (V eq_refl) as [VF VK]. rewrite above_log by exact N. rewrite fdiv by lra. rewrite xln_pos by (apply Rdiv_lt_0_compat; lra).
        rewrite xdnn by exact N. rewrite fdiv by lra. rewrite fadd. cbn [xncdf]. rewrite fmul. f_equal. ring. }
    rewrite EC.
    assert (FA : fair a F (asset_payoff true (strike a)) A). { apply fair_above; [exact S|exact V| |]; intros x X; unfold asset_payoff, digital; destruct (Rlt_dec (strike a) x); lra. }
    assert (FB : fair a F (asset_payoff false (strike a)) (F - A)).
    { replace (F - A) with (below (is_normal_volatility a) F (strike a) (deviation a) 1 0) by (rewrite below_above; unfold A; ring).
      apply fair_below; [exact S|exact V| |]; intros x X; unfold asset_payoff, digital; destruct (Rlt_dec (strike a) x); lra. }
    unfold calls. destruct (is_call_option a) as [[|]|]; xfin; eexists; (split; [reflexivity|assumption]).
  - rewrite rlt_npos by exact S. unfold calls, fair. destruct (Rlt_dec 0 (deviation a)) as [W|_]; [contradiction|].
    unfold asset_payoff, digital, xlt, rlt. destruct (Rlt_dec (strike a) F); destruct (is_normal_volatility a); cbn [negb]; destruct (is_call_option a) as [[|]|]; xfin; eexists; (split; [reflexivity|]); ring.
Qed.

(** Vanilla = asset-or-nothing minus strike times binary, and the other way
    round for puts. *)
Theorem C40_decomposition a D F : quoted a D F -> (forward a = None -> dividend a * expiry a = 0) -> exists v s b,
  option_price a = Some (Fin v) /\ asset_or_nothing_price a = Some (Fin s) /\ binary_price a = Some (Fin b)
  /\ v = (if calls a then s - strike a * b else strike a * b - s).
Proof.
  intros Q Z. destruct (price_value a D F Q) as (m & E & M). destruct (C40_asset a D F Q) as (n & G & N). destruct (C40_binary a D F Q Z) as (k & I & K).
  exists (D * m), (D * n), (D * k). split; [exact E|]. split; [exact G|]. split; [exact I|].
  assert (RR := quoted_range a D F Q).
  assert (m = if calls a then n - strike a * k else strike a * k - n).
  { eapply fair_unique; [exact M|]. destruct (calls a).
    - eapply fair_ext; [exact RR| |eapply fair_lin with (c := 1) (d := - strike a); [exact N|exact K|ring]].
      intros x _. unfold vanilla, asset_payoff, digital, Rmax. destruct (Rlt_dec (strike a) x), (Rle_dec (x - strike a) 0); lra.
    - eapply fair_ext; [exact RR| |eapply fair_lin with (c := -1) (d := strike a); [exact N|exact K|ring]].
      intros x _. unfold vanilla, asset_payoff, digital, Rmax. destruct (Rlt_dec (strike a) x), (Rle_dec (strike a - x) 0); lra. }
  rewrite H. destruct (calls a); ring.
Qed.

(** A call and a put together pay for certain. *)
Theorem C40_certain a D F : quoted a D F -> exists s s',
  asset_or_nothing_price (with_type a (Some true)) = Some (Fin s) /\ asset_or_nothing_price (with_type a (Some false)) = Some (Fin s')
  /\ s + s' = D * F
  /\ ((forward a = None -> dividend a * expiry a = 0) -> exists b b',
        binary_price (with_type a (Some true)) = Some (Fin b) /\ binary_price (with_type a (Some false)) = Some (Fin b') /\ b + b' = D
        /\ 0 <= b /\ 0 <= b').
Proof.
  intros Q. assert (RR := quoted_range a D F Q). assert (PD : 0 < D) by apply Q.
  destruct (C40_asset (with_type a (Some true)) D F Q) as (m & E & M). destruct (C40_asset (with_type a (Some false)) D F Q) as (n & G & N).
  exists (D * m), (D * n). split; [exact E|]. split; [exact G|]. split.
  - assert (m + n = F); [|nra]. replace F with (1 * F + 0) by ring.
    eapply (fair_unique a F); [|apply fair_affine]. eapply fair_ext; [exact RR| |eapply fair_lin with (c := 1) (d := 1); [exact M|exact N|ring]].
    intros x _. unfold asset_payoff, digital. cbn. destruct (Rlt_dec (strike a) x); ring.
  - intros Z. destruct (C40_binary (with_type a (Some true)) D F Q Z) as (k & I & K). destruct (C40_binary (with_type a (Some false)) D F Q Z) as (l & J & L).
    exists (D * k), (D * l). split; [exact I|]. split; [exact J|].
    assert (k + l = 1).
    { replace 1 with (0 * F + 1) by ring. eapply (fair_unique a F); [|apply fair_affine]. eapply fair_ext; [exact RR| |eapply fair_lin with (c := 1) (d := 1); [exact K|exact L|ring]].
      intros x _. unfold digital. cbn. destruct (Rlt_dec (strike a) x); ring. }
    assert (0 <= k). { eapply (fair_le a F (fun x => 0 * x + 0)); [exact RR| | |exact K]; [|replace 0 with (0 * F + 0) at 1 by ring; apply fair_affine]. intros x _. unfold digital. cbn. destruct (Rlt_dec (strike a) x); lra. }
    assert (0 <= l). { eapply (fair_le a F (fun x => 0 * x + 0)); [exact RR| | |exact L]; [|replace 0 with (0 * F + 0) at 1 by ring; apply fair_affine]. intros x _. unfold digital. cbn. destruct (Rlt_dec (strike a) x); lra. }
    split; [nra|]. split; apply Rmult_le_pos; lra.
Qed.

(** With a spot and dividends the binary price uses another forward, so the
    decomposition always fails. *)
Theorem C40_dividend_refuted a D F v s b : quoted a D F -> forward a = None -> dividend a * expiry a <> 0 -> is_normal_volatility a = false -> 0 < deviation a ->
  option_price a = Some (Fin v) -> asset_or_nothing_price a = Some (Fin s) -> binary_price a = Some (Fin b) ->
  v <> (if calls a then s - strike a * b else strike a * b - s).
Proof.
  intros Q FN Z NN S E1 E2 E3 C. assert (PD : 0 < D) by apply Q. assert (V := quoted_pos a D F Q NN). destruct V as [PF PK].
  (* the same arguments with the forward given *)
  set (a' := OptionArgs (volatility a) (strike a) (expiry a) None (Some F) (discount_rate a) (dividend_rate a) (discount_factor a) (is_call_option a) (is_normal_volatility a)).
  assert (Q' : quoted a' D F).
  { destruct Q as (A1 & A2 & A3 & A4 & A5 & A6). split; [exact A1|]. split; [exact A2|]. split; [reflexivity|]. split; [exact A4|]. split; [|exact A6].
    intros (_ & _ & X). apply X. reflexivity. }
  assert (Z' : forward a' = None -> dividend a' * expiry a' = 0) by discriminate.
  destruct (C40_decomposition a' D F Q' Z') as (v' & s' & b' & E1' & E2' & E3' & C').
  assert (V1 : option_price a' = option_price a) by (apply (C39_same_market a' a D F Q' Q); reflexivity).
  assert (V2 : asset_or_nothing_price a' = asset_or_nothing_price a).
  { destruct (C40_asset a D F Q) as (m & G & M). destruct (C40_asset a' D F Q') as (m' & G' & M'). rewrite G, G'. do 3 f_equal. eapply fair_unique; [exact M'|exact M]. }
  rewrite V1, E1 in E1'. injection E1' as <-. rewrite V2, E2 in E2'. injection E2' as <-.
  assert (BB : b = b') by (change (calls a') with (calls a) in C'; change (strike a') with (strike a) in C'; destruct (calls a); nra).
  subst b'.
  (* both binary prices explicitly *)
  unfold binary_price in E3, E3'. rewrite (quoted_ok a D F Q) in E3. rewrite (quoted_ok a' D F Q') in E3'. cbn [negb] in E3, E3'. cbv zeta in E3, E3'.
  rewrite (quoted_discount a D F Q), (quoted_var a D F Q), NN in E3. rewrite (quoted_discount a' D F Q'), (quoted_var a' D F Q') in E3'.
  change (is_normal_volatility a') with (is_normal_volatility a) in E3'. rewrite NN in E3'.
  change (deviation a') with (deviation a) in E3'. change (strike a') with (strike a) in E3'. change (is_call_option a') with (is_call_option a) in E3'.
  rewrite rlt_pos in E3, E3' by exact S. assert (N : deviation a <> 0) by lra.
  assert (exists F', 0 < F' /\ F' <> F /\ binary_forward a = Fin F') as (F' & PF' & NF & BF).
  { unfold binary_forward. rewrite FN, (quoted_discount a D F Q). destruct Q as (_ & _ & W & _). unfold forward_is in W. rewrite FN in W.
    destruct (spot a) as [x|]; [|contradiction]. exists (x / D). rewrite fdiv by lra.
    assert (EX := exp_pos (- (dividend a * expiry a))). set (e := exp (- (dividend a * expiry a))) in *.
    assert (PX : 0 < x). { assert (XE : x = F * D / e) by (rewrite W; field; lra). rewrite XE. apply Rdiv_lt_0_compat; [nra|lra]. }
    split; [apply Rdiv_lt_0_compat; lra|]. split; [|reflexivity].
    rewrite W. intros EQ. assert (e = 1). { apply (Rmult_eq_compat_r D) in EQ. replace (x / D * D) with x in EQ by (field; lra). replace (x * e / D * D) with (x * e) in EQ by (field; lra). nra. }
    apply Z. unfold e in H. rewrite <- exp_0 in H. apply exp_inv in H. lra. }
  rewrite BF in E3. assert (BF' : binary_forward a' = Fin F) by reflexivity. rewrite BF' in E3'.
  assert (K1 : forall f, 0 < f -> xncdf (xln (Fin f /x Fin (strike a)) /x Fin (deviation a) -x Fin (deviation a) /x Fin 2) = Fin (ncdf (ln (f / strike a) / deviation a - deviation a / 2))).
  { intros f P. rewrite (fdiv f) by lra. rewrite xln_pos by (apply Rdiv_lt_0_compat; lra). rewrite !fdiv by (exact N || lra). rewrite fsub. reflexivity. }
  rewrite K1 in E3, E3' by assumption.
  set (n1 := ncdf (ln (F' / strike a) / deviation a - deviation a / 2)) in *. set (n2 := ncdf (ln (F / strike a) / deviation a - deviation a / 2)) in *.
  assert (EN : n1 = n2).
  { destruct (is_call_option a) as [[|]|]; rewrite ?fsub, ?fmul in E3, E3'; injection E3 as E3; injection E3' as E3'; nra. }
  assert (LT : forall f g, 0 < f -> f < g -> ncdf (ln (f / strike a) / deviation a - deviation a / 2) < ncdf (ln (g / strike a) / deviation a - deviation a / 2)).
  { intros f g P L. apply ncdf_incr. apply Rplus_lt_compat_r. apply Rmult_lt_compat_r; [apply Rinv_0_lt_compat; exact S|].
    apply ln_increasing; [apply Rdiv_lt_0_compat; lra|]. apply Rmult_lt_compat_r; [apply Rinv_0_lt_compat; lra|exact L]. }
  destruct (Rtotal_order F' F) as [L|[L|L]]; [|contradiction|].
  - assert (X := LT F' F PF' L). fold n1 n2 in X. lra.
  - assert (X := LT F F' PF L). fold n1 n2 in X. lra.
Qed.

(** * Swaptions *)

Definition annuity_of (daycounts dfs : list R) : R := fold_right Rplus 0 (map (fun '(a, d) => a * d) (combine daycounts dfs)).
Definition float_leg_of (starts ends : list R) : R := fold_right Rplus 0 (map (fun '(s, e) => s - e) (combine starts ends)).

(** A payer minus a receiver swaption is the forward swap: notional times
    (floating leg minus coupon times annuity); both are non-negative. *)
Theorem C55_parity v T K daycounts starts ends dfs N normal :
  0 <= T -> 0 < annuity_of daycounts dfs -> 0 <= N -> (normal = false -> 0 < float_leg_of starts ends /\ 0 < K) ->
  exists p r, swaption_price v T K daycounts starts ends dfs (Some N) (Some true) normal = Some (Fin p)
    /\ swaption_price v T K daycounts starts ends dfs (Some N) (Some false) normal = Some (Fin r)
    /\ swaption_price v T K daycounts starts ends dfs (Some N) None normal = Some (Fin p)
    /\ p - r = N * (float_leg_of starts ends - K * annuity_of daycounts dfs) /\ 0 <= p /\ 0 <= r.
Proof.
  intros HT HA HN V. unfold swaption_price. fold (annuity_of daycounts dfs). fold (float_leg_of starts ends).
  set (A := annuity_of daycounts dfs) in *. set (L := float_leg_of starts ends) in *. rewrite fdiv by lra.
  set (a := OptionArgs v K T None (Some (L / A)) None None None (Some true) normal).
  assert (Q : quoted a 1 (L / A)).
  { split; [lra|]. split; [reflexivity|]. split; [reflexivity|]. split; [exact HT|]. split; [intros (_ & X & _); apply X; reflexivity|].
    intros NN. destruct (V NN). split; [apply Rdiv_lt_0_compat; assumption|assumption]. }
  destruct (C39_parity a 1 (L / A) Q) as (c & p & E1 & E2 & _ & E3).
  assert (P0 : forall t x, option_price (with_type a t) = Some (Fin x) -> 0 <= x).
  { intros t x E. destruct (C39_bounds (with_type a t) 1 (L / A) Q) as (y & Y & B & _). rewrite E in Y. injection Y as <-.
    apply Rle_trans with (2 := B). rewrite Rmult_1_l. unfold vanilla. destruct (calls (with_type a t)); apply Rmax_r. }
  assert (C0 := P0 _ _ E1). assert (R0 := P0 _ _ E2).
  change (with_type a (Some true)) with a in E1. unfold with_type in E2. cbn [volatility strike expiry spot forward discount_rate dividend_rate discount_factor is_normal_volatility a] in E2.
  exists (N * A * c), (N * A * p). rewrite E1, E2. cbn [option_map]. xfin. do 3 (split; [reflexivity|]).
  split; [|split; repeat apply Rmult_le_pos; lra].
  replace (N * A * c - N * A * p) with (N * A * (c - p)) by ring. rewrite E3. cbn [strike a]. field. lra.
Qed.

(** The documented default notional of 1 is refused. *)
Theorem C55_default_notional_refuted v T K daycounts starts ends dfs payer normal :
  swaption_price v T K daycounts starts ends dfs None payer normal = None.
Proof. reflexivity. Qed.

(** * Examples *)

(** A put quoted by spot, rate and dividends satisfies the hypotheses. *)
Definition put_example : option_args := OptionArgs (1 / 5) 100 2 (Some 110) None (Some (1 / 20)) (Some (1 / 50)) None (Some false) false.
Example C39_ex : quoted put_example (exp (- (1 / 20 * 2))) (110 * exp (- (1 / 50 * 2)) / exp (- (1 / 20 * 2))) /\ 0 < deviation put_example.
Proof.
  assert (P1 := exp_pos (- (1 / 20 * 2))). assert (P2 := exp_pos (- (1 / 50 * 2))).
  split.
  - split; [exact P1|]. split; [reflexivity|]. split; [reflexivity|]. split; [cbn; lra|]. split; [intros (A & _); cbn in A; lra|].
    intros _. cbn. split; [apply Rdiv_lt_0_compat; lra|lra].
  - unfold deviation. cbn. apply Rmult_lt_0_compat; [lra|apply sqrt_lt_R0; lra].
Qed.
(** A normal-model call with negative forward, quoted by a discount factor. *)
Definition normal_example : option_args := OptionArgs (1 / 100) (- (1 / 50)) 1 None (Some (- (1 / 100))) None None (Some (9 / 10)) None true.
Example C39_ex_normal : quoted normal_example (9 / 10) (- (1 / 100)).
Proof.
  split; [lra|]. split; [reflexivity|]. split; [reflexivity|]. split; [cbn; lra|]. split; [intros (A & _); cbn in A; lra|]. discriminate.
Qed.
(** An at-the-money call is worth F (2 N(s/2) - 1). *)
Example C39_ex_atm : option_price (OptionArgs 1 1 1 None (Some 1) None None None None false) = Some (Fin (2 * ncdf (1 / 2) - 1)).
Proof.
  set (a := OptionArgs 1 1 1 None (Some 1) None None None None false).
  assert (Q : quoted a 1 1). { split; [lra|]. split; [reflexivity|]. split; [reflexivity|]. split; [cbn; lra|]. split; [intros (A & _); cbn in A; lra|]. intros _; cbn; lra. }
  unfold option_price. rewrite (quoted_ok a 1 1 Q). cbn [negb]. cbv zeta. rewrite (quoted_discount a 1 1 Q).
  rewrite (call_pos a 1 1 Q); [|unfold deviation; cbn; rewrite sqrt_1; lra].
  cbn [is_call_option a]. rewrite fmul. do 2 f_equal. unfold deviation. cbn [volatility expiry strike is_normal_volatility a]. rewrite sqrt_1. replace (1 * 1) with 1 by ring. rewrite Rmult_1_l, above_log by lra.
  replace (1 / 1) with 1 by field. rewrite ln_1. replace (0 / 1 + 1 / 2 - 1) with (- (1 / 2)) by field. replace (0 / 1 + 1 / 2) with (1 / 2) by field. rewrite ncdf_symm. ring.
Qed.
Example C40_ex : exists v s b, option_price normal_example = Some (Fin v) /\ asset_or_nothing_price normal_example = Some (Fin s) /\ binary_price normal_example = Some (Fin b) /\ v = s - - (1 / 50) * b.
Proof. apply (C40_decomposition normal_example _ _ C39_ex_normal). discriminate. Qed.
Example C55_ex : exists p r, swaption_price (1 / 100) 1 (1 / 50) [1 / 2; 1 / 2] [99 / 100; 98 / 100] [98 / 100; 97 / 100] [98 / 100; 97 / 100] (Some 100) (Some true) true = Some (Fin p)
  /\ swaption_price (1 / 100) 1 (1 / 50) [1 / 2; 1 / 2] [99 / 100; 98 / 100] [98 / 100; 97 / 100] [98 / 100; 97 / 100] (Some 100) (Some false) true = Some (Fin r) /\ p - r = 1 / 20.
Proof.
  destruct (C55_parity (1 / 100) 1 (1 / 50) [1 / 2; 1 / 2] [99 / 100; 98 / 100] [98 / 100; 97 / 100] [98 / 100; 97 / 100] 100 true) as (p & r & A & B & _ & C & _); [lra|unfold annuity_of; cbn; lra|lra|discriminate|].
  exists p, r. split; [exact A|]. split; [exact B|]. rewrite C. unfold annuity_of, float_leg_of. cbn. lra.
Qed.

Print Assumptions C39_value.
Print Assumptions C39_intrinsic.
Print Assumptions C39_same_market.
Print Assumptions C39_parity.
Print Assumptions C39_volatility.
Print Assumptions C39_bounds.
Print Assumptions C39_strike.
Print Assumptions C39_errors.
Print Assumptions C39_expiry_refuted.
Print Assumptions C40_binary.
Print Assumptions C40_asset.
Print Assumptions C40_decomposition.
Print Assumptions C40_certain.
Print Assumptions C40_dividend_refuted.
Print Assumptions C55_parity.
Print Assumptions C55_default_notional_refuted.
