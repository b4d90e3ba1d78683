(** C64: the SABR approximation of implied volatilities and option prices.
    Theorem statements use [SabrSpec] and [BlackScholesSpec]. *)
From Coquelicot Require Import Coquelicot.
From Coq Require Import Reals Bool Lra Psatz.
From Verif Require Import ExtReal HaganWestModel BootstrapModel BlackScholesModel BlackScholesSpec BlackScholesProofs PropsBlackScholes
  ImpliedVolModel SabrModel SabrSpec SabrProofs.
Open Scope R_scope.

(** The documented ranges, after the shift. *)
Definition sabr_range (a : sabr_args) : Prop :=
  0 < s_strike a + s_shift a /\ 0 < s_forward a + s_shift a /\ 0 < s_expiry a /\ 0 < s_alpha a /\ 0 <= s_beta a <= 1 /\ 0 <= s_volvol a /\ -1 < s_rho a < 1.
(** The published formula at the shifted forward and strike, with [r] for z / x(z). *)
Definition published (vt : sabr_volatility_type) (a : sabr_args) (r : R) : R :=
  match vt with NORMAL => hagan_normal | LOGNORMAL => hagan_lognormal end
    (s_forward a + s_shift a) (s_strike a + s_shift a) (s_expiry a) (s_alpha a) (s_beta a) (s_volvol a) (s_rho a) r.
Definition z_of (a : sabr_args) : R := zeta (s_forward a + s_shift a) (s_strike a + s_shift a) (s_alpha a) (s_beta a) (s_volvol a).

(** For all arguments in range the volatility is a number given by the published
    formula.  The ratio z / x(z) is exact when z is 0 or larger than the tolerance
    [eps] of the code; otherwise the code takes 1, which is wrong by at most eps. *)
Theorem C64_formula eps vt a : 0 <= eps -> sabr_range a -> exists r,
  sabr_implied_volatility eps vt a = Fin (published vt a r)
  /\ (z_of a = 0 \/ eps < Rabs (z_of a) -> r = z_over_x (s_rho a) (z_of a))
  /\ Rabs (r - z_over_x (s_rho a) (z_of a)) <= eps /\ 0 < r.
Proof.
  intros E0 (K0 & F0 & T0 & A0 & B & V & RHO). exists (code_ratio eps a). split; [apply code_formula; assumption|]. split.
  - unfold code_ratio, z_of. cbv zeta. intros [Z|L]; [rewrite Z, Rabs_R0; destruct (Rlt_dec eps 0); [lra|]; unfold z_over_x; destruct (Req_EM_T 0 0); [reflexivity|contradiction]|].
    destruct (Rlt_dec eps (Rabs (zeta (s_forward a + s_shift a) (s_strike a + s_shift a) (s_alpha a) (s_beta a) (s_volvol a)))); [reflexivity|contradiction].
  - apply code_ratio_near; assumption.
Qed.

(** Hence the switch moves the volatility by at most eps times the rest of the
    formula, and with tolerance 0 the result is the published formula itself. *)
Theorem C64_tolerance eps vt a : 0 <= eps -> sabr_range a -> exists v,
  sabr_implied_volatility eps vt a = Fin v /\ Rabs (v - published vt a (z_over_x (s_rho a) (z_of a))) <= Rabs (published vt a 1) * eps.
Proof.
  intros E0 G. destruct (C64_formula eps vt a E0 G) as (r & E & _ & N & _). exists (published vt a r). split; [exact E|].
  assert (L : forall x, published vt a x = published vt a 1 * x). { intros x. unfold published, hagan_normal, hagan_lognormal. destruct vt; ring. }
  rewrite (L r), (L (z_over_x (s_rho a) (z_of a))). replace (published vt a 1 * r - published vt a 1 * z_over_x (s_rho a) (z_of a)) with (published vt a 1 * (r - z_over_x (s_rho a) (z_of a))) by ring.
  rewrite Rabs_mult. apply Rmult_le_compat_l; [apply Rabs_pos|exact N].
Qed.

(** The ratio z / x(z) of the formula is well defined for every z, at least
    sqrt(1 - rho^2), and within |z| of 1, so the smile has no gap at the money. *)
Theorem C64_ratio rho z : -1 < rho < 1 ->
  (z <> 0 -> x_of rho z <> 0) /\ sqrt (1 - rho ^ 2) <= z_over_x rho z /\ Rabs (z_over_x rho z - 1) <= Rabs z.
Proof. intros H. destruct (ratio_root rho H z) as (c & _ & _ & NZ). destruct (ratio_bounds rho H z) as ((L & U) & D). split; [exact NZ|]. split; [exact L|]. apply Rabs_le. lra. Qed.

(** At the money. *)
Theorem C64_at_the_money eps a : 0 <= eps -> sabr_range a -> s_forward a = s_strike a ->
  let f := s_forward a + s_shift a in
  sabr_implied_volatility eps LOGNORMAL a = Fin (s_alpha a / Rpower f (1 - s_beta a) *
    (1 + ((1 - s_beta a) ^ 2 / 24 * (s_alpha a ^ 2 / Rpower f (2 - 2 * s_beta a)) + s_rho a * s_beta a * s_volvol a * s_alpha a / (4 * Rpower f (1 - s_beta a)) + (2 - 3 * s_rho a ^ 2) / 24 * s_volvol a ^ 2) * s_expiry a)).
Proof.
  intros E0 G FK. cbv zeta. destruct (C64_formula eps LOGNORMAL a E0 G) as (r & E & X & _). destruct G as (K0 & F0 & _). rewrite E.
  assert (L0 : ln ((s_forward a + s_shift a) / (s_strike a + s_shift a)) = 0) by (rewrite FK; unfold Rdiv; rewrite Rinv_r by lra; apply ln_1).
  assert (Z : z_of a = 0) by (unfold z_of, zeta; rewrite L0; ring). rewrite X by (left; exact Z). rewrite Z. unfold z_over_x. destruct (Req_EM_T 0 0); [|contradiction].
  unfold published, hagan_lognormal. rewrite L0. rewrite <- FK. set (f := s_forward a + s_shift a) in *.
  assert (P : forall b, Rpower (f * f) b = Rpower f (2 * b)) by (intros b; rewrite power_product, <- Rpower_plus by assumption; f_equal; ring). rewrite !P.
  replace (2 * ((1 - s_beta a) / 2)) with (1 - s_beta a) by field. replace (2 * (1 - s_beta a)) with (2 - 2 * s_beta a) by ring. unfold series. replace (1 + ((1 - s_beta a) * 0) ^ 2 / 24 + ((1 - s_beta a) * 0) ^ 4 / 1920) with 1 by field.
  f_equal. rewrite !Rmult_1_r. reflexivity.
Qed.

(** The lognormal volatility is positive when the correlation is not negative and
    its square at most 2/3, whatever the expiry. *)
Theorem C64_positive eps a : 0 <= eps -> sabr_range a -> 0 <= s_rho a -> 3 * s_rho a ^ 2 <= 2 ->
  exists v, sabr_implied_volatility eps LOGNORMAL a = Fin v /\ 0 < v.
Proof.
  intros E0 G R0 R2. destruct (C64_formula eps LOGNORMAL a E0 G) as (r & E & _ & _ & P). destruct G as (K0 & F0 & T0 & A0 & B & V & RHO). exists (published LOGNORMAL a r). split; [exact E|].
  unfold published, hagan_lognormal. set (F := s_forward a + s_shift a) in *. set (K := s_strike a + s_shift a) in *.
  pose proof (exp_pos ((1 - s_beta a) / 2 * ln (F * K))) as P1. fold (Rpower (F * K) ((1 - s_beta a) / 2)) in P1. pose proof (exp_pos ((1 - s_beta a) * ln (F * K))) as P2. fold (Rpower (F * K) (1 - s_beta a)) in P2.
  set (p1 := Rpower (F * K) ((1 - s_beta a) / 2)) in *. set (p2 := Rpower (F * K) (1 - s_beta a)) in *. pose proof (series_pos ((1 - s_beta a) * ln (F / K))) as S1. set (s1 := series ((1 - s_beta a) * ln (F / K))) in *.
  apply Rmult_lt_0_compat; [apply Rmult_lt_0_compat; [apply Rdiv_lt_0_compat; [exact A0|apply Rmult_lt_0_compat; assumption]|exact P]|].
  assert (Q1 : 0 <= (1 - s_beta a) ^ 2 / 24 * (s_alpha a ^ 2 / p2)). { apply Rmult_le_pos; [pose proof (pow2_ge_0 (1 - s_beta a)); lra|]. apply Rmult_le_pos; [apply pow2_ge_0|left; apply Rinv_0_lt_compat; exact P2]. }
  assert (Q2 : 0 <= s_rho a * s_beta a * s_volvol a * s_alpha a / (4 * p1)). { apply Rmult_le_pos; [|left; apply Rinv_0_lt_compat; lra]. repeat apply Rmult_le_pos; lra. }
  assert (Q3 : 0 <= (2 - 3 * s_rho a ^ 2) / 24 * s_volvol a ^ 2). { apply Rmult_le_pos; [lra|apply pow2_ge_0]. }
  assert (Q : 0 <= ((1 - s_beta a) ^ 2 / 24 * (s_alpha a ^ 2 / p2) + s_rho a * s_beta a * s_volvol a * s_alpha a / (4 * p1) + (2 - 3 * s_rho a ^ 2) / 24 * s_volvol a ^ 2) * s_expiry a) by (apply Rmult_le_pos; lra). lra.
Qed.

(** In general it is not: in the documented ranges a long expiry with a strongly
    negative correlation gives a negative volatility, and the option is then
    priced at its intrinsic value. *)
Theorem C64_positive_refuted : exists a, sabr_range a /\ forall eps, 0 <= eps ->
  exists v, sabr_implied_volatility eps LOGNORMAL a = Fin v /\ v < 0 /\ sabr_option_price eps LOGNORMAL true a = Some (Fin 0).
Proof.
  exists (SabrArgs 1 100 1 (1 / 100) 1 1 (- (9 / 10)) 0). set (a := SabrArgs 1 100 1 (1 / 100) 1 1 (- (9 / 10)) 0). assert (G : sabr_range a) by (unfold sabr_range; cbn; lra). split; [exact G|].
  intros eps E0. pose proof (C64_at_the_money eps a E0 G eq_refl) as E. cbv zeta in E. cbn [a s_forward s_shift s_alpha s_beta s_rho s_volvol s_expiry] in E.
  replace (1 + 0) with 1 in E by ring. replace (1 - 1) with 0 in E by ring. replace (2 - 2 * 1) with 0 in E by ring. rewrite !Rpower_O in E by lra.
  match type of E with _ = Fin ?x => exists x; assert (N : x < 0) by lra; split; [exact E|]; split; [exact N|]; set (v := x) in * end.
  clearbody v. unfold sabr_option_price. cbv zeta. change (SabrArgs 1 100 1 (1 / 100) 1 1 (- (9 / 10)) 0) with a. rewrite E. cbn [a s_strike s_forward s_shift s_expiry].
  set (o := OptionArgs v (1 + 0) 100 None (Some (1 + 0)) None None None (Some true) false).
  assert (Q : quoted o 1 (1 + 0)). { unfold quoted, discounts_to, forward_is, degenerate, o. cbn. repeat split; try lra; auto. }
  destruct (C39_value o 1 (1 + 0) Q) as (m & P & H). rewrite P. do 3 f_equal. unfold fair in H. destruct (Rlt_dec 0 (deviation o)) as [D|_].
  - exfalso. unfold deviation, o in D. cbn in D. pose proof (sqrt_lt_R0 100 ltac:(lra)). nra.
  - rewrite H. unfold vanilla, calls, o. cbn. replace (1 + 0 - (1 + 0)) with 0 by ring. rewrite Rmax_left by lra. ring.
Qed.

(** The price of a call or put: the expected payoff of the shifted asset in the
    lognormal or normal model with the volatility of the approximation. *)
Definition sabr_quote (vt : sabr_volatility_type) (c : bool) (a : sabr_args) (v : R) : option_args :=
  OptionArgs v (s_strike a + s_shift a) (s_expiry a) None (Some (s_forward a + s_shift a)) None None None (Some c) (match vt with NORMAL => true | LOGNORMAL => false end).
Lemma sabr_quoted vt c a v : sabr_range a -> quoted (sabr_quote vt c a v) 1 (s_forward a + s_shift a).
Proof. intros (K0 & F0 & T0 & _). unfold quoted, discounts_to, forward_is, degenerate, sabr_quote. cbn. destruct vt; repeat split; try lra; auto; intros; discriminate. Qed.
Theorem C64_price eps vt a : 0 <= eps -> sabr_range a -> exists v c p,
  sabr_implied_volatility eps vt a = Fin v
  /\ sabr_option_price eps vt true a = Some (Fin c) /\ sabr_option_price eps vt false a = Some (Fin p)
  /\ (0 < v -> forall is_call, expectation (fun z => vanilla is_call (s_strike a + s_shift a)
        (asset (match vt with NORMAL => true | LOGNORMAL => false end) (s_forward a + s_shift a) (v * sqrt (s_expiry a)) z)) (if is_call then c else p))
  /\ (v <= 0 -> c = Rmax (s_forward a - s_strike a) 0 /\ p = Rmax (s_strike a - s_forward a) 0)
  /\ c - p = s_forward a - s_strike a
  /\ Rmax (s_forward a - s_strike a) 0 <= c /\ Rmax (s_strike a - s_forward a) 0 <= p
  /\ (vt = LOGNORMAL -> c <= s_forward a + s_shift a /\ p <= s_strike a + s_shift a).
Proof.
  intros E0 G. destruct (C64_formula eps vt a E0 G) as (r & E & _). set (v := published vt a r) in *. clearbody v.
  assert (P : forall c, sabr_option_price eps vt c a = option_price (sabr_quote vt c a v)) by (intros c; unfold sabr_option_price; rewrite E; reflexivity).
  destruct (C39_value _ _ _ (sabr_quoted vt true a v G)) as (m & M & FM). destruct (C39_value _ _ _ (sabr_quoted vt false a v G)) as (n & N & FN).
  rewrite Rmult_1_l in M, N. exists v, m, n. rewrite !P, M, N. split; [exact E|]. do 2 (split; [reflexivity|]).
  assert (T0 : 0 < sqrt (s_expiry a)) by (apply sqrt_lt_R0, G).
  assert (I : forall c, vanilla c (s_strike a + s_shift a) (s_forward a + s_shift a) = if c then Rmax (s_forward a - s_strike a) 0 else Rmax (s_strike a - s_forward a) 0).
  { intros c. unfold vanilla. destruct c; f_equal; ring. }
  split; [|split; [|split; [|split; [|split]]]].
  - intros V c. unfold fair, deviation, sabr_quote in FM, FN. cbn [volatility expiry is_normal_volatility strike] in FM, FN. destruct (Rlt_dec 0 (v * sqrt (s_expiry a))) as [_|W]; [|exfalso; apply W, Rmult_lt_0_compat; assumption]. destruct c; [exact FM|exact FN].
  - intros V. unfold fair, deviation, sabr_quote in FM, FN. cbn [volatility expiry is_normal_volatility strike] in FM, FN. destruct (Rlt_dec 0 (v * sqrt (s_expiry a))) as [W|_]; [exfalso; nra|].
    unfold calls in FM, FN. cbn [is_call_option] in FM, FN. rewrite I in FM, FN. split; assumption.
  - destruct (C39_parity _ _ _ (sabr_quoted vt true a v G)) as (c & p & E1 & E2 & _ & E3). change (with_type (sabr_quote vt true a v) (Some true)) with (sabr_quote vt true a v) in E1. change (with_type (sabr_quote vt true a v) (Some false)) with (sabr_quote vt false a v) in E2.
    rewrite M in E1. rewrite N in E2. injection E1 as <-. injection E2 as <-. rewrite E3. unfold sabr_quote. cbn. ring.
  - destruct (C39_bounds _ _ _ (sabr_quoted vt true a v G)) as (x & X & B & _). rewrite M in X. injection X as <-. rewrite Rmult_1_l in B. unfold calls, sabr_quote in B. cbn [is_call_option strike] in B. rewrite I in B. exact B.
  - destruct (C39_bounds _ _ _ (sabr_quoted vt false a v G)) as (x & X & B & _). rewrite N in X. injection X as <-. rewrite Rmult_1_l in B. unfold calls, sabr_quote in B. cbn [is_call_option strike] in B. rewrite I in B. exact B.
  - intros ->. destruct (C39_bounds _ _ _ (sabr_quoted LOGNORMAL true a v G)) as (x & X & _ & B & _). rewrite M in X. injection X as <-. destruct (C39_bounds _ _ _ (sabr_quoted LOGNORMAL false a v G)) as (y & Y & _ & D & _). rewrite N in Y. injection Y as <-.
    specialize (B eq_refl). specialize (D eq_refl). rewrite Rmult_1_l in B, D. split; [exact B|exact D].
Qed.

(** A forward that is negative and a shift that makes it positive: in range. *)
Example C64_range_example : sabr_range (SabrArgs (1 / 100) 1 (- (1 / 1000)) (3 / 100) (1 / 2) (4 / 10) (- (3 / 10)) (3 / 100)).
Proof. unfold sabr_range. cbn. lra. Qed.
Example C64_positive_example : sabr_range (SabrArgs 106 (17 / 365) 120 (163 / 100) (6 / 10) (33 / 10) (2 / 100000) 0) /\ 3 * (2 / 100000) ^ 2 <= 2.
Proof. unfold sabr_range. cbn. lra. Qed.

Print Assumptions C64_formula.
Print Assumptions C64_tolerance.
Print Assumptions C64_ratio.
Print Assumptions C64_at_the_money.
Print Assumptions C64_positive.
Print Assumptions C64_positive_refuted.
Print Assumptions C64_price.
