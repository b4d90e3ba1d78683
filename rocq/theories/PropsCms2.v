(** C91: the convexity adjustment of CMS rates, swaps and the departures of the code
    from the property. *)
From Coquelicot Require Import Coquelicot.
From Coq Require Import Reals QArith Qreals ZArith List Bool Lia Lra Psatz ZifyBool Sorted.
From Verif Require Import InterpModel BrentModel BrentProofs ExtReal BootstrapModel BootstrapProofs HaganWestModel TensorModel IntegrateModel SegmentModel DateModel DateSpec DateRepr DateProofs DateProofs2 DayCountModel
  CalSpec CalSetup CalProofs PropsCalAux PropsCal BoundedCalModel UnboundedCalModel ScheduleModel ScheduleSpec ScheduleProofs ScheduleProofs2 ScheduleProofs3 ScheduleProofs4 PropsSchedule RatesModel InstrumentModel InstrumentSpec
  InstrumentProofs PropsInstrument PropsInstrument2 CapFloorModel CapFloorSpec ImpliedVolProofs CapFloorProofs PropsCapFloor FuturesProofs CmsModel CmsSpec CmsProofs PropsCms.
Import ListNotations.
Open Scope R_scope.

(** ** The weight and its derivative *)
Lemma rpower_opp u n : Rpower u (- n) = / Rpower u n.
Proof. apply Rpower_Ropp. Qed.
Lemma rpower_less u n : 0 < u -> Rpower u (- n - 1) = / Rpower u n / u.
Proof. intros U. replace (- n - 1) with (- n + - (1)) by ring. rewrite Rpower_plus, !Rpower_Ropp, Rpower_1 by exact U. reflexivity. Qed.
Lemma rpower_minus u n : 0 < u -> Rpower u (n - 1) = Rpower u n / u.
Proof. intros U. replace (n - 1) with (n + - (1)) by ring. rewrite Rpower_plus, Rpower_Ropp, Rpower_1 by exact U. reflexivity. Qed.
Lemma rpower_pos u n : 0 < Rpower u n.
Proof. apply exp_pos. Qed.
(** Whenever the code's gradient is a number it is the derivative of the weight. *)
Theorem C91_derivative tau delta n s d : fs_gradient tau delta n s = Fin d -> is_derive (weight tau delta n) s d /\ fs tau delta n s = weight tau delta n s.
Proof.
  unfold fs_gradient. destruct (req tau 0) eqn:T; [discriminate|]. apply req_false in T. destruct (req s 0) eqn:S0; [discriminate|]. apply req_false in S0. destruct (rlt 0 (1 + tau * s)) eqn:U; [|discriminate].
  assert (U' : 0 < 1 + tau * s) by (unfold rlt in U; destruct (Rlt_dec 0 (1 + tau * s)); [assumption|discriminate]). clear U.
  set (u := 1 + tau * s) in *. rewrite (rpower_less u n U'), (rpower_minus u (delta / tau) U').
  pose proof (rpower_pos u n) as E0. pose proof (rpower_pos u (delta / tau)) as P0. 
  set (E := Rpower u n) in *. set (P := Rpower u (delta / tau)) in *. set (h := 1 / s * (1 - 1 / E) * P).
  unfold xdiv. destruct (Req_EM_T (h * h) 0) as [H0|H0].
  { unfold xdiv in *. cbn. destruct (req (h * h) 0) eqn:Q; [|apply req_false in Q; congruence]. match goal with |- context [req ?a 0] => destruct (req a 0) end; try discriminate. }
  cbn. destruct (req (h * h) 0) eqn:Q; [apply req_true in Q; congruence|]. intros X. assert (X' : d = _) by (injection X as X; symmetry; exact X). clear X.
  assert (HN : h <> 0) by (intros Z; apply H0; rewrite Z; ring). assert (EN : 1 - / E <> 0) by (intros Z; apply HN; unfold h; unfold Rdiv at 2; rewrite Rmult_1_l, Z; ring).
  assert (EN' : E - 1 <> 0) by (intros Z; apply EN; replace E with 1 by lra; field).
  split.
  - unfold weight. rewrite X'. 
    apply (is_derive_ext_loc (fun t => t / (1 - exp (- n * ln (1 + tau * t))) / exp (delta / tau * ln (1 + tau * t)))); [apply filter_forall; intros t; reflexivity|].
    auto_derive.
    + fold u. change (exp (- n * ln u)) with (Rpower u (- n)). rewrite rpower_opp. fold E. repeat split; auto; apply Rgt_not_eq, exp_pos.
    + fold u. change (exp (- n * ln u)) with (Rpower u (- n)). change (exp (delta / tau * ln u)) with (Rpower u (delta / tau)). rewrite !rpower_opp. fold E. fold P. clearbody E P u. unfold h. 
      field. repeat split; auto; lra.
  - unfold fs, weight. fold u. rewrite rpower_opp. fold E. fold P. clearbody E P u. field. repeat split; auto; lra.
Qed.

(** ** One adjusted rate *)
Lemma fin_eq a b : Fin a = Fin b -> a = b.
Proof. intros E. injection E as E. exact E. Qed.
Definition model_of (lognormal : bool) : rate_model := if lognormal then LOGNORMAL_RATE else NORMAL_RATE.
Lemma xadd_inv a b c : a +x b = Fin c -> exists x y, a = Fin x /\ b = Fin y /\ c = x + y.
Proof. destruct a as [x| |], b as [z| |]; cbn; try discriminate; try (destruct (Bool.eqb _ _); discriminate). intros E. exists x, z. injection E as <-. auto. Qed.
Lemma xmul_inv a b c : a *x b = Fin c -> exists x y, a = Fin x /\ b = Fin y /\ c = x * y.
Proof. destruct a as [x|m|], b as [z|m'|]; cbn; try discriminate; try (destruct (req _ 0); discriminate). intros E. exists x, z. injection E as <-. auto. Qed.
Lemma xdiv_inv a v c : a /x Fin v = Fin c -> exists x, a = Fin x /\ v <> 0 /\ c = x / v.
Proof.
  destruct a as [x|m|]; cbn; try discriminate. destruct (req v 0) eqn:E; [destruct (req x 0); discriminate|]. apply req_false in E. intros H. exists x. injection H as <-. auto.
Qed.
(** The adjusted rate is the rate plus the correction for its variance. *)
Theorem C91_adjustment lognormal tau delta n vol level T df rate a : convexity (model_of lognormal) tau delta n vol level T df rate = Fin a ->
  df <> 0 /\ exists c, correction tau delta n level df (rate_variance lognormal vol T rate) rate c /\ a = rate + c.
Proof.
  unfold convexity. cbv zeta. intros E. apply xadd_inv in E. destruct E as (x & c & X & C & ->). injection X as <-. unfold model_of in C.
  assert (G : exists d, fs_gradient tau delta n rate = Fin d /\ df <> 0 /\ c = d * level * rate_variance lognormal vol T rate / df).
  { unfold rate_variance. destruct lognormal; apply xdiv_inv in C; destruct C as (q & Q & D & ->); apply xmul_inv in Q; destruct Q as (q1 & q2 & Q1 & Q2 & ->).
    - apply xmul_inv in Q1. destruct Q1 as (q3 & q4 & Q3 & Q4 & ->). apply xmul_inv in Q3. destruct Q3 as (d & q5 & Q5 & Q6 & ->). exists d. split; [exact Q5|]. split; [exact D|].
      assert (q4 = rate ^ 2) by congruence. assert (q2 = exp (vol ^ 2 * T) - 1) by congruence. assert (q5 = level) by congruence. subst. unfold Rdiv. ring.
    - apply xmul_inv in Q1. destruct Q1 as (d & q4 & Q3 & Q4 & ->). exists d. split; [exact Q3|]. split; [exact D|]. assert (q4 = level) by congruence. assert (q2 = vol ^ 2 * T) by congruence. subst. unfold Rdiv. ring. }
  destruct G as (d & G & D & ->). split; [exact D|]. exists (d * level * rate_variance lognormal vol T rate / df). split; [|reflexivity]. exists d. split; [apply (C91_derivative _ _ _ _ _ G)|reflexivity].
Qed.
(** It exists for every rate but zero. *)
Lemma power_not_one u n : 0 < u -> u <> 1 -> n <> 0 -> Rpower u n <> 1.
Proof.
  intros U V N E. unfold Rpower in E. rewrite <- exp_0 in E. apply exp_inv in E. apply Rmult_integral in E. destruct E as [E|E]; [congruence|]. apply V. rewrite <- ln_1 in E. apply ln_inv in E; lra.
Qed.
Lemma gradient_some tau delta n s : tau <> 0 -> s <> 0 -> 0 < 1 + tau * s -> n <> 0 -> exists d, fs_gradient tau delta n s = Fin d.
Proof.
  intros T S0 U N. unfold fs_gradient. rewrite (req_no tau 0 T), (req_no s 0 S0), (rlt_yes 0 _ U). cbv zeta. set (u := 1 + tau * s) in *.
  assert (E : Rpower u n <> 1) by (apply power_not_one; auto; unfold u; intros E; assert (Z : tau * s = 0) by lra; apply Rmult_integral in Z; tauto).
  pose proof (rpower_pos u n) as E0. pose proof (rpower_pos u (delta / tau)) as P0.
  match goal with |- exists d, Fin ?a /x Fin (?h * ?h) = _ => assert (H : h * h <> 0) end.
  { assert (Q : 1 - 1 / Rpower u n <> 0).
    { intros Z. apply E. assert (Z' : 1 / Rpower u n = 1) by lra. apply (f_equal (fun t => t * Rpower u n)) in Z'. unfold Rdiv in Z'. rewrite Rmult_assoc, Rinv_l in Z' by lra. lra. }
    assert (H1 : 1 / s <> 0) by (unfold Rdiv; rewrite Rmult_1_l; apply Rinv_neq_0_compat, S0).
    repeat apply Rmult_integral_contrapositive_currified; auto; lra. }
  cbn [xdiv]. rewrite (req_no _ _ H). eexists. reflexivity.
Qed.
Theorem C91_adjustment_exists lognormal tau delta n vol level T df rate : tau <> 0 -> rate <> 0 -> 0 < 1 + tau * rate -> n <> 0 -> df <> 0 ->
  exists a, convexity (model_of lognormal) tau delta n vol level T df rate = Fin a.
Proof.
  intros T0 R0 U N D. destruct (gradient_some tau delta n rate T0 R0 U N) as (d & G). unfold convexity, model_of. cbv zeta. rewrite G. destruct lognormal; cbn [xmul xdiv]; rewrite (req_no df 0 D); eexists; reflexivity.
Qed.
(** No variance, no correction. *)
Theorem C91_no_volatility lognormal tau delta n level T df rate a : convexity (model_of lognormal) tau delta n 0 level T df rate = Fin a -> a = rate.
Proof.
  intros E. destruct (C91_adjustment _ _ _ _ _ _ _ _ _ _ E) as (_ & c & (d & _ & ->) & ->). unfold rate_variance. replace (0 ^ 2 * T) with 0 by ring. rewrite exp_0. destruct lognormal; unfold Rdiv; ring.
Qed.
(** Bernoulli's inequality for real powers. *)
Lemma bernoulli x n : 0 < 1 + x -> 1 <= n -> 1 + n * x <= Rpower (1 + x) n.
Proof.
  intros X N. unfold Rpower. set (L := ln (1 + x)). assert (EL : exp L = 1 + x) by (apply exp_ln, X). replace (n * L) with (L + (n - 1) * L) by ring. rewrite exp_plus, EL.
  pose proof (exp_ineq1_le ((n - 1) * L)) as A. pose proof (exp_ineq1_le (- L)) as B. assert (C : (1 + x) * exp (- L) = 1) by (rewrite <- EL, <- exp_plus; replace (L + - L) with 0 by ring; apply exp_0).
  assert (D : x <= (1 + x) * L) by nra. apply Rle_trans with ((1 + x) * (1 + (n - 1) * L)); [|apply Rmult_le_compat_l; lra].
  replace ((1 + x) * (1 + (n - 1) * L)) with (1 + x + (n - 1) * ((1 + x) * L)) by ring. nra.
Qed.
(** The weight increases with the rate. *)
Lemma gradient_nonneg tau delta n s d : 0 < s -> 0 < tau -> delta <= tau -> 1 <= n -> fs_gradient tau delta n s = Fin d -> 0 <= d /\ (delta < tau -> 0 < d).
Proof.
  intros S0 T D N G. unfold fs_gradient in G. rewrite (req_no tau 0), (req_no s 0) in G by lra. assert (U : 0 < 1 + tau * s) by nra. rewrite (rlt_yes 0 _ U) in G. cbv zeta in G.
  pose proof (bernoulli (tau * s) n U N) as B. set (u := 1 + tau * s) in *. rewrite (rpower_less u n U), (rpower_minus u (delta / tau) U) in G. pose proof (rpower_pos u n) as E0. pose proof (rpower_pos u (delta / tau)) as P0.
  set (E := Rpower u n) in *. set (P := Rpower u (delta / tau)) in *. apply xdiv_inv in G. destruct G as (q & Q & H & ->). assert (q = _) by (injection Q as Q; symmetry; exact Q). clear Q. subst q.
  match goal with |- 0 <= ?a / (?h * ?h) /\ _ => assert (HH : 0 < h * h) by (destruct (Rle_0_sqr h) as [X|X]; [exact X|exfalso; apply H; symmetry; exact X]); assert (HI : 0 < / (h * h)) by (apply Rinv_0_lt_compat, HH) end.
  match goal with |- 0 <= - ?b / _ /\ _ => replace (- b) with (P / (s * s * u * E) * ((E - 1) * (u - s * delta) - n * tau * s)); [|clearbody E P u; field; repeat split; lra] end.
  assert (PP : 0 < P / (s * s * u * E)) by (apply Rmult_lt_0_compat; [exact P0|]; apply Rinv_0_lt_compat; repeat apply Rmult_lt_0_compat; auto).
  assert (E1 : n * (tau * s) <= E - 1) by lra. assert (N0 : 0 < n * (tau * s)) by (apply Rmult_lt_0_compat; [lra|apply Rmult_lt_0_compat; lra]).
  split.
  - assert (F : n * tau * s <= (E - 1) * (u - s * delta)).
    { assert (V : 1 <= u - s * delta) by (assert (0 <= s * (tau - delta)) by (apply Rmult_le_pos; lra); unfold u; lra).
      apply Rle_trans with (E - 1); [lra|]. rewrite <- (Rmult_1_r (E - 1)) at 1. apply Rmult_le_compat_l; lra. }
    apply Rmult_le_pos; [|lra]. apply Rmult_le_pos; lra.
  - intros DT. assert (F : n * tau * s < (E - 1) * (u - s * delta)).
    { assert (V : 1 < u - s * delta) by (assert (0 < s * (tau - delta)) by (apply Rmult_lt_0_compat; lra); unfold u; lra).
      apply Rle_lt_trans with (E - 1); [lra|]. rewrite <- (Rmult_1_r (E - 1)) at 1. apply Rmult_lt_compat_l; lra. }
    apply Rmult_lt_0_compat; [|exact HI]. apply Rmult_lt_0_compat; lra.
Qed.
(** The correction is never negative and grows with the volatility: for coupons
    paid within a period of the fixed leg and swaps of at least one period. *)
Theorem C91_adjustment_increases lognormal tau delta n vol vol' level T df rate a b : 0 < rate -> 0 < tau -> delta <= tau -> 1 <= n -> 0 <= T -> 0 <= level -> 0 < df -> Rabs vol <= Rabs vol' ->
  convexity (model_of lognormal) tau delta n vol level T df rate = Fin a -> convexity (model_of lognormal) tau delta n vol' level T df rate = Fin b -> rate <= a <= b.
Proof.
  intros R0 T0 D N TT LV DF V A B. destruct (gradient_some tau delta n rate) as (d & G); [lra|lra|nra|lra|]. pose proof (proj1 (gradient_nonneg _ _ _ _ _ R0 T0 D N G)) as Dn.
  assert (X : forall v q, convexity (model_of lognormal) tau delta n v level T df rate = Fin q -> q = rate + d * level / df * rate_variance lognormal v T rate).
  { intros v q E. unfold convexity, model_of in E. cbv zeta in E. rewrite G in E. unfold rate_variance. destruct lognormal; cbn [xmul xdiv] in E; rewrite (req_no df 0) in E by lra; cbn [xadd] in E; apply fin_eq in E; subst q; [generalize (exp (v ^ 2 * T)); intros w|]; field; lra. }
  rewrite (X _ _ A), (X _ _ B). assert (C0 : 0 <= d * level / df) by (apply Rmult_le_pos; [nra|left; apply Rinv_0_lt_compat, DF]).
  assert (S2 : vol ^ 2 * T <= vol' ^ 2 * T).
  { apply Rmult_le_compat_r; [exact TT|]. rewrite <- (pow2_abs vol), <- (pow2_abs vol'). apply pow_incr. split; [apply Rabs_pos|exact V]. }
  assert (P2 : 0 <= vol ^ 2 * T) by (apply Rmult_le_pos; [apply pow2_ge_0|exact TT]).
  assert (RV : 0 <= rate_variance lognormal vol T rate <= rate_variance lognormal vol' T rate).
  { unfold rate_variance. destruct lognormal; [|split; assumption]. pose proof (pow2_ge_0 rate). assert (E1 : 1 <= exp (vol ^ 2 * T)) by (pose proof (exp_ineq1_le (vol ^ 2 * T)); lra).
    assert (E2 : exp (vol ^ 2 * T) <= exp (vol' ^ 2 * T)) by (destruct S2 as [S2|S2]; [left; apply exp_increasing, S2|right; rewrite S2; reflexivity]). split; [apply Rmult_le_pos; lra|apply Rmult_le_compat_l; lra]. }
  assert (0 <= d * level / df * rate_variance lognormal vol T rate) by (apply Rmult_le_pos; tauto).
  assert (d * level / df * rate_variance lognormal vol T rate <= d * level / df * rate_variance lognormal vol' T rate) by (apply Rmult_le_compat_l; tauto). lra.
Qed.
Example C91_adjustment_ex : exists a, convexity LOGNORMAL_RATE (1 / 2) (1 / 4) 10 (1 / 5) 5 1 (9 / 10) (1 / 20) = Fin a /\ 1 / 20 <= a.
Proof.
  destruct (C91_adjustment_exists true (1 / 2) (1 / 4) 10 (1 / 5) 5 1 (9 / 10) (1 / 20)) as (a & A); try lra. exists a. split; [exact A|].
  apply (C91_adjustment_increases true (1 / 2) (1 / 4) 10 (1 / 5) (1 / 5) 5 1 (9 / 10) (1 / 20) a a); auto; lra.
Qed.

(** ** A leg with adjusted rates *)
Lemma years_of t q : term_to_years t q = in_years t q.
Proof. unfold term_to_years, in_years. destruct t; lra. Qed.
Lemma no_gradient tau delta n : fs_gradient tau delta n 0 = NaN.
Proof. unfold fs_gradient. destruct (req tau 0); [reflexivity|]. rewrite (req_yes 0 0 eq_refl). reflexivity. Qed.
Lemma nan_l a : NaN *x a = NaN. Proof. destruct a; reflexivity. Qed.
Lemma nan_r a : a *x NaN = NaN. Proof. destruct a; reflexivity. Qed.
Lemma nan_d a : NaN /x a = NaN. Proof. destruct a; reflexivity. Qed.
Lemma nan_pr a : a +x NaN = NaN. Proof. destruct a; reflexivity. Qed.
Lemma nan_pl a : NaN +x a = NaN. Proof. destruct a; reflexivity. Qed.
Lemma no_convexity m tau delta n vol level T df : convexity m tau delta n vol level T df 0 = NaN.
Proof. unfold convexity. cbv zeta. rewrite no_gradient. destruct m; rewrite !nan_l, nan_d, nan_pr; reflexivity. Qed.
Definition row_adjusted (y : conventions) (valuation : date) (discount : date -> R) (m : rate_model) (vol fixing : R) (z : crow) : list xr :=
  let n := length (r_rates z) in
  let tau := term_to_years (fixed_type y) (k_freq (c_fixed (r_contract z))) in
  map2 (fun '(t, d, p) '(v, l, s, e, r) => convexity m t d p v l (curve_time valuation s) (discount e) r)
    (combine (combine (repeat tau n) (repeat (term_to_years (coupon_type y) (k_freq (c_coupons (r_contract z)))) n)) (repeat (term_to_years (tenor_type y) (k_term (c_coupons (r_contract z))) / tau) n))
    (combine (combine (combine (combine (repeat vol n) (r_levels z)) (removelast (r_dates z))) (tl (r_dates z))) (known y valuation fixing z)).
Lemma one_contract_price y x valuation discount reference f W D fixing m vol : parts y [x] valuation discount reference f W D ->
  exists z, D = [z] /\ r_contract z = x /\ cms_price f valuation discount reference None fixing (Some (m, [vol])) = Some [xsum (row_price y discount z (row_adjusted y valuation discount m vol (fixing_of fixing) z))].
Proof.
  intros PT. pose proof (pt_contracts _ _ _ _ _ _ _ _ PT) as PC. destruct D as [|z [|z' D]]; try discriminate PC. injection PC as PC. exists z. split; [reflexivity|]. split; [exact PC|].
  assert (Iz : In z [z]) by (left; reflexivity). destruct (row_lengths _ _ _ _ _ _ _ _ PT z Iz) as (A & B & C & E & G). pose proof (known_length _ _ _ _ _ _ _ _ PT (fixing_of fixing) z Iz) as K.
  rewrite (price_rows _ _ _ _ _ _ _ _ PT fixing (Some (m, [vol])) (row_adjusted y valuation discount m vol (fixing_of fixing))); [reflexivity|right; right; exists x; reflexivity| |].
  - intros q [<-|[]]. unfold row_adjusted. cbv zeta. rewrite map2_length; rewrite ?combine_length, ?repeat_length; lia.
  - cbn [flat_map]. rewrite !app_nil_r. unfold adjust_convexity. rewrite (pt_level _ _ _ _ _ _ _ _ PT), (pt_tau _ _ _ _ _ _ _ _ PT), (pt_delta _ _ _ _ _ _ _ _ PT), (pt_periods _ _ _ _ _ _ _ _ PT), (pt_start _ _ _ _ _ _ _ _ PT), (pt_end _ _ _ _ _ _ _ _ PT).
    cbn [bind map flat_map]. rewrite !app_nil_r, !broadcast_one. cbn [bind]. unfold row_adjusted. rewrite K, E, PC. reflexivity.
Qed.
Lemma level_of y discount x s a : level_code y discount true (from_to (c_fixed x) s (swap_end y x s)) a -> swap_level y discount x s a.
Proof. intros (l & C & ->). exists l. split; [exact C|]. apply periods_in. intros; ring. Qed.
Lemma row_adjusted_value y valuation discount reference lognormal vol x : forall w u l v, length l = S (length w) -> length u = length w -> Forall is_date l -> nondecreasing l ->
  (forall d, In d l -> (ordinal valuation <= ordinal d)%Z) ->
  Forall2 (fun s r => swap_rate y valuation discount reference x s r) (removelast l) w -> Forall2 (fun s a => level_code y discount true (from_to (c_fixed x) s (swap_end y x s)) a) (removelast l) u ->
  xsum (row_price y discount (x, l, (w, u)) (row_adjusted y valuation discount (model_of lognormal) vol 0 (x, l, (w, u)))) = Fin v ->
  sum_over (adjusted_coupon y valuation discount reference lognormal vol x) w l v.
Proof.
  induction w as [|r w IH]; intros u l v L LU DL N V F G X.
  - destruct l as [|s [|e l]]; try discriminate L. destruct u; [|discriminate LU]. cbn in X. apply fin_eq in X. cbn. auto.
  - destruct l as [|s [|e l]]; try discriminate L. destruct u as [|a u]; [discriminate LU|]. cbn [length] in L, LU. change (removelast (s :: e :: l)) with (s :: removelast (e :: l)) in F, G.
    inversion DL as [|? ? Ds D']; subst. inversion D' as [|? ? De _]; subst. inversion N as [|? ? N' NS]; subst. rewrite Forall_forall in NS. inversion F as [|? ? ? ? F1 F2]; subst. inversion G as [|? ? ? ? G1 G2]; subst.
    set (fr := daycount_fraction (coupon_count y) s e).
    set (tau := term_to_years (fixed_type y) (k_freq (c_fixed x))).
    set (kr := if date_ltb e valuation then 0 else if date_ltb s valuation then 0 else if Rlt_dec 0 fr then r else 0).
    set (cv := convexity (model_of lognormal) tau (term_to_years (coupon_type y) (k_freq (c_coupons x))) (term_to_years (tenor_type y) (k_term (c_coupons x)) / tau) vol a (curve_time valuation s) (discount e) kr).
    assert (X' : (Fin (k_notional (c_coupons x)) *x (Fin fr *x (Fin (k_multiplier (c_coupons x)) *x (cv +x Fin (k_basis (c_coupons x)))) *x Fin (discount e))) +x
       xsum (row_price y discount (x, e :: l, (w, u)) (row_adjusted y valuation discount (model_of lognormal) vol 0 (x, e :: l, (w, u)))) = Fin v) by (exact X). clear X.
    apply xadd_inv in X'. destruct X' as (v1 & v2 & X1 & X2 & ->). cbn [sum_over]. exists v1, v2. split; [|split; [|reflexivity]].
    + apply xmul_inv in X1. destruct X1 as (p1 & p2 & P1 & P2 & ->). apply fin_eq in P1. subst p1. apply xmul_inv in P2. destruct P2 as (p3 & p4 & P3 & P4 & ->). apply fin_eq in P4. subst p4. apply xmul_inv in P3. destruct P3 as (p5 & p6 & P5 & P6 & ->). apply fin_eq in P5. subst p5.
      apply xmul_inv in P6. destruct P6 as (p7 & p8 & P7 & P8 & ->). apply fin_eq in P7. subst p7. apply xadd_inv in P8. destruct P8 as (q & b & Q & Qb & ->). apply fin_eq in Qb. subst b.
      assert (KR : kr = r).
      { unfold kr, date_ltb in *. pose proof (V s (or_introl eq_refl)). pose proof (V e (or_intror (or_introl eq_refl))). destruct (Z.ltb_spec (ordinal e) (ordinal valuation)); [lia|]. destruct (Z.ltb_spec (ordinal s) (ordinal valuation)); [lia|].
        destruct (Rlt_dec 0 fr); [reflexivity|]. unfold cv in Q. rewrite no_convexity in Q. discriminate Q. }
      unfold cv in Q. rewrite KR in Q. destruct (C91_adjustment _ _ _ _ _ _ _ _ _ _ Q) as (_ & c & CC & ->).
      unfold adjusted_coupon. cbv zeta. rewrite <- !years_of. fold tau. split; [exact F1|]. exists a, c. split; [apply level_of, G1|]. rewrite <- curve_years. split; [exact CC|].
      unfold cms_amount, value_of. pose proof (V e (or_intror (or_introl eq_refl))). destruct (Z.leb_spec (ordinal valuation) (ordinal e)); [|lia]. fold fr. ring.
    + refine (IH u (e :: l) v2 _ _ D' N' _ F2 G2 X2); [cbn [length]; lia|lia|]. intros d I. apply V. right. exact I.
Qed.
(** With a model of the swap rate and no coupon fixed yet, a price that is a number
    is the sum of the coupons with corrected rates.  Partial: one contract, one
    volatility. *)
Theorem C91_adjusted_partial y x f valuation discount reference lognormal vol v : ok_cms y [x] ->
  cms_setup [k_start (c_coupons x)] [k_end (c_coupons x)] (specs_of y [x]) = Some f -> (ordinal valuation <= ordinal (k_start (c_coupons x)))%Z ->
  (forall s a, is_date s -> (ordinal valuation <= ordinal s)%Z -> swap_level y discount x s a -> k_notional (c_fixed x) * a <> 0) ->
  cms_price f valuation discount reference None None (Some (model_of lognormal, [vol])) = Some [Fin v] ->
  exists l, contract_dates NoStub (coupon_type y) (c_coupons x) l /\ adjusted_value y valuation discount reference lognormal vol x l v.
Proof.
  intros OK ES VS LEVEL PR. destruct (batch_parts y [x] valuation discount reference f OK ES) as (W & D & PT). destruct (one_contract_price y x valuation discount reference f W D None (model_of lognormal) vol PT) as (z & -> & EZ & E).
  rewrite PR in E. cbn [fixing_of] in E. assert (E' : Fin v = xsum (row_price y discount z (row_adjusted y valuation discount (model_of lognormal) vol 0 z))) by congruence. clear E PR.
  destruct (pt_rows _ _ _ _ _ _ _ _ PT z (or_introl eq_refl)) as (_ & (L1 & L2 & L3 & r & R1 & R2 & R3 & R4) & LR & LL & PAR & LEV). destruct z as ((x', l), (w, u)). cbn [r_contract r_dates r_rates r_levels fst snd] in *. subst x'.
  pose proof (pt_width _ _ _ _ _ _ _ _ PT) as W2. exists r. split; [exact R1|]. exists w.
  destruct (proj1 (proj1 OK) (c_coupons x) (or_introl eq_refl)) as (Ds & De & _ & _ & Q & O & _). cbn [regular_range fst snd] in O.
  assert (IN : forall d, In d l -> In d r).
  { destruct R4 as (p & q & -> & ->). intros d I. apply in_app_or in I. destruct I as [I|I]; [exact I|]. apply repeat_spec in I. subst d. apply in_or_app. right. left. reflexivity. }
  assert (V : forall d, In d l -> (ordinal valuation <= ordinal d)%Z) by (intros d I; apply Z.le_trans with (ordinal (k_start (c_coupons x))); [exact VS|]; apply (dates_from (coupon_type y) (c_coupons x) r d Ds Q ltac:(lia) R1), IN, I).
  assert (SW : Forall2 (fun s r => swap_rate y valuation discount reference x s r) (removelast l) w).
  { assert (B : forall s, In s (removelast l) -> is_date s /\ (ordinal valuation <= ordinal s)%Z) by (intros s J; rewrite Forall_forall in L2; split; [apply L2, in_removelast, J|apply V, in_removelast, J]). clear - PAR B OK LEVEL. revert w PAR B.
    induction (removelast l) as [|s q IHq]; intros w PAR B; inversion PAR as [|? t ? w' (v & a & HV & HA & ->) P2]; subst; [constructor|]. constructor; [|apply IHq; [exact P2|intros; apply B; right; assumption]].
    destruct (B s (or_introl eq_refl)) as (B1 & B2). apply (par_swap y [x]); auto; [|left; reflexivity]. intros x' s' a' [<-|[]]. apply LEVEL. }
  assert (SUM : sum_over (adjusted_coupon y valuation discount reference lognormal vol x) w l v) by (apply (row_adjusted_value y valuation discount reference lognormal vol x w u l v); auto; lia).
  destruct R4 as (p & q & -> & EQ). assert (LP : (length (p ++ [q]) <= W)%nat) by (rewrite EQ, app_length, repeat_length in L1; lia). split; [lia|].
  rewrite EQ in SUM. apply (sum_over_padded _ p q (W - length (p ++ [q]))); [|rewrite app_length in LP; cbn in LP; lia|exact SUM].
  intros t b (_ & ? & ? & _ & _ & ->). unfold cms_amount, value_of. rewrite fraction_same by (rewrite Forall_forall in R2; apply R2, in_or_app; right; left; reflexivity). destruct (_ <=? _)%Z; ring.
Qed.

(** ** CMS swaps *)
(** A swap of CMS coupons against fixed coupons is worth the difference. *)
Lemma zip_minus a b : xzip xsub (map Fin a) (map Fin b) = map Fin (map2 Rminus a b).
Proof. unfold xzip, map2. revert b. induction a as [|x a IH]; intros [|y b]; [reflexivity..|]. cbn. rewrite IH. unfold xsub. reflexivity. Qed.
Theorem C91_swap_partial y xs b t cs c : ok_cms y xs -> ok_batch b t cs -> length xs = length cs ->
  exists f g, cms_setup (map (fun x => k_start (c_coupons x)) xs) (map (fun x => k_end (c_coupons x)) xs) (specs_of y xs) = Some f /\
    fixed_setup (map k_start cs) (map k_end cs) (map k_freq cs) t (map k_notional cs) (map k_rate cs) c (first_dates b cs) (penultimate_dates b cs) = Some g /\
    forall valuation discount reference fixing, fixing = None \/ fixing = Some 0 \/ (exists x, xs = [x]) ->
      (forall x s a, In x xs -> is_date s -> (ordinal valuation <= ordinal s)%Z -> swap_level y discount x s a -> k_notional (c_fixed x) * a <> 0) ->
      (forall x l d, In x xs -> k_basis (c_coupons x) <> 0 -> contract_dates NoStub (coupon_type y) (c_coupons x) l -> In d (tl l) -> (ordinal valuation <= ordinal d)%Z) ->
      exists vs, cms_swap_price (PlainLeg (Fixed g)) (CmsLeg f) valuation discount reference None fixing None = Some (map Fin vs) /\
        cms_swap_price (CmsLeg f) (PlainLeg (Fixed g)) valuation discount reference None fixing None = Some (map Fin (map Ropp vs)) /\
        Forall2 (fun p v => exists l l' u, contract_dates NoStub (coupon_type y) (c_coupons (fst p)) l /\ cms_value y valuation discount reference (fixing_of fixing) (fst p) l u /\
          contract_dates b t (snd p) l' /\ v = u - fixed_value valuation discount c (snd p) l') (combine xs cs) vs.
Proof.
  intros OK OB LX. destruct (C91_value_partial y xs OK) as (f & EF & VF). destruct (C72_fixed_coupons b t cs c OB) as (g & EG & VG). exists f, g. split; [exact EF|]. split; [exact EG|].
  intros valuation discount reference fixing FX LV BA. destruct (VF valuation discount reference fixing FX LV BA) as (us & EU & FU). specialize (VG valuation discount). set (ws := fixed_price g valuation discount) in *.
  exists (map2 Rminus us ws). unfold cms_swap_price, cms_leg_price, leg_price. cbn [option_map bind]. fold ws. rewrite EU. cbn [bind]. rewrite !zip_minus. split; [reflexivity|].
  pose proof (forall2_len' _ _ _ FU) as L1. pose proof (forall2_len' _ _ _ VG) as L2. clearbody ws. split.
  - f_equal. f_equal. assert (LL : length us = length ws) by lia. clear - LL. revert ws LL. induction us as [|u us IH]; intros [|w ws] LL; try discriminate LL; [reflexivity|]. unfold map2 in *. cbn [combine map]. rewrite IH by (injection LL as LL; exact LL). f_equal. ring.
  - clear - FU VG LX. revert cs ws VG LX. induction FU as [|x u xs us (l & A & B) FU IH]; intros [|k cs] ws VG LX; inversion VG as [|? w ? ws' (l' & A' & B') VG']; subst; try discriminate LX; [constructor|].
    unfold map2. cbn [combine map]. constructor; [|apply IH; [exact VG'|injection LX as LX; exact LX]]. exists l, l', u. cbn [fst snd]. auto.
Qed.

(** ** Where the hypotheses hold *)
(** Discount factors are positive and days are counted: the fixed leg has a value. *)
Lemma periods_positive (h : date -> date -> R) : forall l, StronglySorted (fun a b => (ordinal a < ordinal b)%Z) l -> (2 <= length l)%nat -> (forall s e, (ordinal s < ordinal e)%Z -> 0 < h s e) -> 0 < over_periods h l.
Proof.
  intros l SL L H. destruct l as [|a [|b l]]; cbn [length] in L; try lia. revert a b SL L. induction l as [|d l IH]; intros a b SL L.
  - cbn. inversion SL as [|? ? _ F]; subst. inversion F; subst. rewrite Rplus_0_r. apply H. assumption.
  - change (0 < h a b + over_periods h (b :: d :: l)). inversion SL as [|? ? S2 F]; subst. inversion F; subst. pose proof (H a b ltac:(assumption)). assert (0 < over_periods h (b :: d :: l)) by (apply IH; [exact S2|cbn; lia]). lra.
Qed.
Lemma level_positive t k c discount l : is_date (k_start k) -> is_date (k_end k) -> (0 < k_freq k)%Z -> (ordinal (k_start k) < ordinal (k_end k))%Z -> c <> THIRTY_360_ISDA -> (forall d, 0 < discount d) ->
  contract_dates NoStub t k l -> 0 < over_periods (fun s e => discount e * daycount_fraction c s e) l /\ (2 <= length l)%nat.
Proof.
  intros Ds De Q O C P L. destruct (C17_schedule_shape t false (mk_row (k_start k) (k_end k) (k_freq k)) l (conj Ds De) Q O L) as (I & _ & (q & E) & (p & E') & _). cbn [rstart rend] in E, E'.
  assert (L2 : (2 <= length l)%nat).
  { rewrite E in *. destruct q as [|b q]; [|cbn; lia]. exfalso. destruct p as [|z p]; [injection E' as E'; rewrite E' in O; lia|destruct p; discriminate E']. }
  split; [|exact L2]. apply periods_positive; [exact I|exact L2|]. intros s e H. apply Rmult_lt_0_compat; [apply P|apply act_positive; assumption].
Qed.
Theorem C91_level y discount x s a : is_date s -> (0 < k_term (c_coupons x))%Z -> (0 < k_freq (c_fixed x))%Z -> fixed_count y <> THIRTY_360_ISDA -> (forall d, 0 < discount d) -> swap_level y discount x s a -> 0 < a.
Proof.
  intros D T Q C P (l & CD & ->). destruct (plus_later s _ (tenor_type y) D T) as (_ & De & Le).
  apply (level_positive (fixed_type y) (from_to (c_fixed x) s (swap_end y x s)) (fixed_count y) discount l); auto.
Qed.

Definition leg91 (q term : Z) (basis : R) : contract := Contract (ymd_date 2021 1 15) (ymd_date 2022 1 15) q (ymd_date 2021 1 15) (ymd_date 2022 1 15) 100 (1 / 20) basis 1 term.
Definition cms91 (basis : R) : cms_contract := CmsContract (leg91 6 5 basis) (leg91 6 3 0) (leg91 3 3 0).
Definition y91 : conventions := Conventions MONTH YEAR MONTH MONTH MONTH ACTUAL_360 ACTUAL_360 ACTUAL_360.
Lemma ok91 xs : xs <> [] -> (forall x, In x xs -> exists b, x = cms91 b) -> ok_cms y91 xs.
Proof.
  intros NE H. split; [split; [|split; [|discriminate]]|].
  - intros k I. apply in_map_iff in I. destruct I as (x & <- & I). destruct (H x I) as (b & ->). cbn. (split; [dates|split; [dates|split; [dates|split; [dates|split; [reflexivity|vm_compute; split; [split|]; discriminate]]]]]).
  - destruct xs as [|x xs]; [congruence|]. exists (c_coupons x). split; [left; reflexivity|]. destruct (H x (or_introl eq_refl)) as (b & ->). vm_compute. reflexivity.
  - intros x I. destruct (H x I) as (b & ->). cbn. repeat split; reflexivity.
Qed.
Example C91_ex : exists f, cms_setup [k_start (leg91 6 5 0); k_start (leg91 6 5 0)] [k_end (leg91 6 5 0); k_end (leg91 6 5 0)] (specs_of y91 [cms91 0; cms91 0]) = Some f /\
  exists vs, cms_price f (ymd_date 2021 1 15) (fun _ => 9 / 10) (fun _ => 1) None None None = Some (map Fin vs).
Proof.
  assert (OK : ok_cms y91 [cms91 0; cms91 0]) by (apply ok91; [discriminate|intros x [<-|[<-|[]]]; eexists; reflexivity]).
  destruct (C91_value_partial _ _ OK) as (f & E & V). exists f. split; [exact E|]. destruct (V (ymd_date 2021 1 15) (fun _ => 9 / 10) (fun _ => 1) None (or_introl eq_refl)) as (vs & P & _).
  - intros x s a I D _ L. assert (A : 0 < a) by (apply (C91_level y91 (fun _ => 9 / 10) x s a D); [destruct I as [<-|[<-|[]]]; reflexivity|destruct I as [<-|[<-|[]]]; reflexivity|discriminate|intros; lra|exact L]).
    assert (k_notional (c_fixed x) = 100) by (destruct I as [<-|[<-|[]]]; reflexivity). nra.
  - intros x l d I B. exfalso. apply B. destruct I as [<-|[<-|[]]]; reflexivity.
  - exists vs. exact P.
Qed.

(** The coupons of the example: two periods, so the hypotheses of the refutations hold. *)
Example C91_dates_ex b : contract_dates NoStub MONTH (leg91 6 5 b) [ymd_date 2021 1 15; ymd_date 2021 7 15; ymd_date 2022 1 15].
Proof.
  assert (Ds : is_date (ymd_date 2021 1 15)) by dates. exists 2%nat, (fun k => if Z.eqb k 0 then ymd_date 2021 1 15 else ymd_date 2021 7 15). split; [|split].
  - intros k K. assert (k = 0 \/ k = 1)%Z as [-> | ->] by lia; vm_compute; split; reflexivity.
  - intros k x K E. change (period_mul (mk_period (k_freq (leg91 6 5 b)) MONTH) k) with (mk_period (6 * k) MONTH) in E. cbn [leg91 k_start k_end] in *. destruct (add_sord _ _ _ _ Ds E) as (-> & _).
    pose proof (sord_many MONTH (ymd_date 2021 1 15) 12 (6 * k - 12) Ds ltac:(lia)) as H. replace (12 + (6 * k - 12))%Z with (6 * k)%Z in H by lia. pose proof (min_days_pos MONTH) as M.
    assert (E12 : sord MONTH (ymd_date 2021 1 15) 12 = ordinal (ymd_date 2022 1 15)) by (vm_compute; reflexivity). rewrite E12 in H. nia.
  - reflexivity.
Qed.

(** ** Where the code departs from the property *)
(** The number of coupons of the longest contract. *)
Lemma several_coupons y xs valuation discount reference f W D x l : ok_cms y xs -> parts y xs valuation discount reference f W D -> In x xs -> contract_dates NoStub (coupon_type y) (c_coupons x) l -> (length l <= W)%nat.
Proof.
  intros OK PT I CD. rewrite <- (pt_contracts _ _ _ _ _ _ _ _ PT) in I. apply in_map_iff in I. destruct I as (z & <- & I). destruct (pt_rows _ _ _ _ _ _ _ _ PT z I) as (IX & (L1 & _ & _ & r & R1 & _ & _ & R4) & _).
  destruct (proj1 (proj1 OK) (c_coupons (r_contract z)) (in_map _ _ _ IX)) as (Ds & De & _ & _ & Q & O & _). cbn [regular_range fst snd] in O.
  assert (l = r) as -> by (apply (dates_unique (coupon_type y) (c_coupons (r_contract z))); auto; lia). destruct R4 as (p & q & -> & EQ). rewrite EQ, app_length, repeat_length in L1. lia.
Qed.
(** A fixing of the swap rate makes a batch of contracts fail. *)
Theorem C91_fixing_refuted y xs f x l : ok_cms y xs -> cms_setup (map (fun x => k_start (c_coupons x)) xs) (map (fun x => k_end (c_coupons x)) xs) (specs_of y xs) = Some f ->
  (2 <= length xs)%nat -> In x xs -> contract_dates NoStub (coupon_type y) (c_coupons x) l -> (3 <= length l)%nat ->
  forall valuation discount reference libor r model, r <> 0 -> cms_price f valuation discount reference libor (Some r) model = None.
Proof.
  intros OK ES LX I CD L3 valuation discount reference libor r model NZ. destruct (batch_parts y xs valuation discount reference f OK ES) as (W & D & PT).
  pose proof (several_coupons y xs valuation discount reference f W D x l OK PT I CD) as LW. pose proof (f_equal (@length _) (pt_contracts _ _ _ _ _ _ _ _ PT)) as LD. rewrite map_length in LD.
  unfold cms_price. rewrite (pt_num _ _ _ _ _ _ _ _ PT), (pt_batch _ _ _ _ _ _ _ _ PT), (pt_start _ _ _ _ _ _ _ _ PT). cbn [libor_rates]. destruct (Req_EM_T r 0); [contradiction|].
  rewrite (flat_length _ (W - 1)) by (intros z J; apply (row_lengths _ _ _ _ _ _ _ _ PT z J)). unfold broadcast. rewrite repeat_length. replace (Nat.eqb (W - 1) (length D * (W - 1))) with false by (symmetry; apply Nat.eqb_neq; nia).
  destruct (W - 1)%nat as [|[|m]] eqn:EW; [lia|lia|]. reflexivity.
Qed.
(** So does every model of the swap rate. *)
Theorem C91_batch_refuted y xs f x l : ok_cms y xs -> cms_setup (map (fun x => k_start (c_coupons x)) xs) (map (fun x => k_end (c_coupons x)) xs) (specs_of y xs) = Some f ->
  (2 <= length xs)%nat -> In x xs -> contract_dates NoStub (coupon_type y) (c_coupons x) l -> (3 <= length l)%nat ->
  forall valuation discount reference m vols, cms_price f valuation discount reference None None (Some (m, vols)) = None.
Proof.
  intros OK ES LX I CD L3 valuation discount reference m vols. destruct (batch_parts y xs valuation discount reference f OK ES) as (W & D & PT).
  pose proof (several_coupons y xs valuation discount reference f W D x l OK PT I CD) as LW. pose proof (f_equal (@length _) (pt_contracts _ _ _ _ _ _ _ _ PT)) as LD. rewrite map_length in LD.
  unfold cms_price. rewrite (fixing_rates _ _ _ _ _ _ _ _ PT None (or_introl eq_refl)). cbn [bind]. rewrite (pt_par _ _ _ _ _ _ _ _ PT). cbn [bind].
  match goal with |- bind (adjust_convexity _ _ _ _ ?r) _ = _ => assert (LR : length r = (length D * (W - 1))%nat) end.
  { pose proof (row_lengths _ _ _ _ _ _ _ _ PT) as RL. rewrite (pt_start _ _ _ _ _ _ _ _ PT), (pt_end _ _ _ _ _ _ _ _ PT), (pt_fractions _ _ _ _ _ _ _ _ PT).
    assert (A1 : length (flat_map (fun z => removelast (r_dates z)) D) = (length D * (W - 1))%nat) by (apply flat_length; intros z J; apply (RL z J)).
    assert (A2 : length (flat_map (fun z => tl (r_dates z)) D) = (length D * (W - 1))%nat) by (apply flat_length; intros z J; apply (RL z J)).
    assert (A3 : length (flat_map (r_fractions y) D) = (length D * (W - 1))%nat) by (apply flat_length; intros z J; apply (RL z J)).
    assert (A4 : length (flat_map r_rates D) = (length D * (W - 1))%nat) by (apply flat_length; intros z J; apply (RL z J)).
    assert (A5 : length (flat_map (fun z => repeat (fixing_of None) (length (r_rates z))) D) = (length D * (W - 1))%nat) by (apply flat_length; intros z J; rewrite repeat_length; apply (RL z J)).
    rewrite map2_length; rewrite ?combine_length, ?map2_length; lia. }
  unfold adjust_convexity. rewrite (pt_level _ _ _ _ _ _ _ _ PT). cbn [bind]. rewrite LR. rewrite (pt_tau _ _ _ _ _ _ _ _ PT). unfold broadcast_to at 1. rewrite map_length. replace (Nat.eqb (length xs) (length D * (W - 1))) with false by (symmetry; apply Nat.eqb_neq; nia).
  destruct xs as [|x1 [|x2 xs]]; cbn [length] in LX; try lia. reflexivity.
Qed.
Lemma xsum_nan_in l : In NaN l -> xsum l = NaN.
Proof. induction l as [|a l IH]; [intros []|]. intros [->|I]; cbn [xsum fold_right]; [apply nan_pl|]. change (fold_right xadd (Fin 0) l) with (xsum l). rewrite (IH I). apply nan_pr. Qed.
Lemma row_nan y valuation discount m vol fixing x : forall w u l s e, length l = S (length w) -> length u = length w -> In (s, e) (combine (removelast l) (tl l)) -> (ordinal e < ordinal valuation)%Z ->
  In NaN (row_price y discount (x, l, (w, u)) (row_adjusted y valuation discount m vol fixing (x, l, (w, u)))).
Proof.
  induction w as [|r w IH]; intros u l s e L LU I O.
  - destruct l as [|a [|b l]]; try discriminate L. destruct I.
  - destruct l as [|a [|b l]]; try discriminate L. destruct u as [|g u]; [discriminate LU|]. change (removelast (a :: b :: l)) with (a :: removelast (b :: l)) in I. cbn [tl combine] in I. destruct I as [I|I].
    + injection I as -> ->. left.
      match goal with |- ?t = _ => match t with context [convexity ?m0 ?t0 ?d0 ?p0 ?v0 ?l0 ?c0 ?e0 ?k0] => replace (convexity m0 t0 d0 p0 v0 l0 c0 e0 k0) with NaN end end.
      * repeat first [rewrite nan_pl | rewrite nan_r | rewrite nan_l]. cbn. reflexivity.
      * symmetry. unfold date_ltb. destruct (Z.ltb_spec (ordinal e) (ordinal valuation)); [|lia]. apply no_convexity.
    + right. cbn [length] in L, LU. apply (IH u (b :: l) s e); [cbn [length]; lia|lia| |exact O]. destruct l as [|d l]; [destruct I|exact I].
Qed.
(** Once a coupon has been paid the price with a model of the swap rate is NaN. *)
Theorem C91_paid_refuted y x f l d valuation discount reference m vol fixing : ok_cms y [x] -> cms_setup [k_start (c_coupons x)] [k_end (c_coupons x)] (specs_of y [x]) = Some f ->
  contract_dates NoStub (coupon_type y) (c_coupons x) l -> In d (tl l) -> (ordinal d < ordinal valuation)%Z -> cms_price f valuation discount reference None fixing (Some (m, [vol])) = Some [NaN].
Proof.
  intros OK ES CD I O. destruct (batch_parts y [x] valuation discount reference f OK ES) as (W & D & PT). destruct (one_contract_price y x valuation discount reference f W D fixing m vol PT) as (z & -> & EZ & E). rewrite E. f_equal. f_equal. clear E.
  destruct (pt_rows _ _ _ _ _ _ _ _ PT z (or_introl eq_refl)) as (IX & (L1 & _ & _ & r & R1 & _ & _ & R4) & LR & LL & _). destruct z as ((x', ds), (w, u)). cbn [r_contract r_dates r_rates r_levels fst snd] in *. subst x'.
  destruct (proj1 (proj1 OK) (c_coupons x) (or_introl eq_refl)) as (Ds & De & _ & _ & Q & O' & _). cbn [regular_range fst snd] in O'. assert (l = r) as -> by (apply (dates_unique (coupon_type y) (c_coupons x)); auto; lia).
  pose proof (pt_width _ _ _ _ _ _ _ _ PT) as W2.
  assert (J : In d (tl ds)). { destruct R4 as (p & q & -> & ->). destruct p as [|a p]; [destruct I|]. cbn [app tl] in I |- *. apply in_or_app. left. exact I. }
  assert (P : exists s, In (s, d) (combine (removelast ds) (tl ds))).
  { clear - J. destruct ds as [|a ds]; [destruct J|]. revert a J. induction ds as [|b ds IH]; intros a J; [destruct J|]. change (removelast (a :: b :: ds)) with (a :: removelast (b :: ds)). cbn [tl combine] in *. destruct J as [->|J]; [exists a; left; reflexivity|].
    destruct (IH b J) as (s & H). exists s. right. destruct ds; [destruct J|exact H]. }
  destruct P as (s & P). apply xsum_nan_in. apply (row_nan y valuation discount m vol (fixing_of fixing) x w u ds s d); auto; lia.
Qed.
(** A coupon that has been paid still counts with its basis. *)
Theorem C91_paid_basis_refuted : exists f v, cms_setup [k_start (leg91 6 5 1)] [k_end (leg91 6 5 1)] (specs_of y91 [cms91 1]) = Some f /\
  cms_price f (ymd_date 2023 1 15) (fun _ => 1) (fun _ => 1) None None None = Some [Fin v] /\ 0 < v /\
  forall l rates u, contract_dates NoStub MONTH (leg91 6 5 1) l -> sum_over (cms_coupon y91 (ymd_date 2023 1 15) (fun _ => 1) (fun _ => 1) 0 (cms91 1)) rates l u -> u = 0.
Proof.
  assert (OK : ok_cms y91 [cms91 1]) by (apply ok91; [discriminate|intros x [<-|[]]; eexists; reflexivity]).
  destruct (setup_ok y91 _ OK) as (r0 & W0 & f & _ & ES & _). destruct (batch_parts y91 [cms91 1] (ymd_date 2023 1 15) (fun _ => 1) (fun _ => 1) f OK ES) as (W & D & PT).
  pose proof (flat_pure _ _ _ _ _ _ _ _ PT None (or_introl eq_refl)) as E. pose proof (pt_contracts _ _ _ _ _ _ _ _ PT) as PC. destruct D as [|z [|z' D]]; try discriminate PC. injection PC as PC.
  destruct (pt_rows _ _ _ _ _ _ _ _ PT z (or_introl eq_refl)) as (IX & (L1 & L2 & L3 & r & R1 & R2 & R3 & R4) & LR & _). rewrite PC in R1.
  assert (Ds : is_date (k_start (leg91 6 5 1))) by (cbn; dates). assert (De : is_date (k_end (leg91 6 5 1))) by (cbn; dates). assert (O : (ordinal (k_start (leg91 6 5 1)) < ordinal (k_end (leg91 6 5 1)))%Z) by (vm_compute; reflexivity).
  assert (LATE : forall l d, contract_dates NoStub MONTH (leg91 6 5 1) l -> In d l -> (ordinal d < ordinal (ymd_date 2023 1 15))%Z).
  { intros l d CD I. assert (H : (ordinal d <= ordinal (k_end (leg91 6 5 1)))%Z).
    { destruct CD as (n & s & A & _ & ->). apply in_app_or in I. destruct I as [I|[<-|[]]]; [|lia]. apply in_map_iff in I. destruct I as (i & <- & I). apply in_map_iff in I. destruct I as (j & <- & I). apply in_seq in I. destruct (A (0 + Z.of_nat j)%Z ltac:(lia)) as (_ & A'). lia. }
    eapply Z.le_lt_trans; [exact H|]. vm_compute. reflexivity. }
  cbn [map] in E. rewrite PC in E. eexists f, _. split; [exact ES|]. split; [exact E|]. split.
  - assert (POS := level_positive MONTH (leg91 6 5 1) ACTUAL_360 (fun _ => 1) r Ds De eq_refl O ltac:(discriminate) ltac:(intros; lra) R1).
    assert (V : fold_right Rplus 0 (row_code y91 (ymd_date 2023 1 15) (fun _ => 1) (fixing_of None) (cms91 1) (r_dates z) (r_rates z) (length (r_rates z))) = 100 * over_periods (fun s e => 1 * daycount_fraction ACTUAL_360 s e) (r_dates z)).
    { assert (LT : forall d, In d (r_dates z) -> (ordinal d < ordinal (ymd_date 2023 1 15))%Z).
      { intros d I. apply (LATE r d R1). destruct R4 as (p & q & -> & EQ). rewrite EQ in I. apply in_app_or in I. destruct I as [I|I]; [exact I|]. apply repeat_spec in I. subst d. apply in_or_app. right. left. reflexivity. }
      pose proof (pt_width _ _ _ _ _ _ _ _ PT) as W2. assert (LL : length (r_dates z) = S (length (r_rates z))) by lia. clear - LT LL. revert LT LL. generalize (r_dates z) as l. generalize (r_rates z) as w.
      set (val := ymd_date 2023 1 15). clearbody val. induction w as [|a w IH]; intros l LT LL.
      - destruct l as [|s [|e l]]; try discriminate LL. cbn. ring.
      - destruct l as [|s [|e l]]; try discriminate LL.
        change (fold_right Rplus 0 (row_code y91 val (fun _ => 1) (fixing_of None) (cms91 1) (s :: e :: l) (a :: w) (length (a :: w)))) with
          (100 * (daycount_fraction ACTUAL_360 s e * (1 * ((if date_ltb e val then 0 else if date_ltb s val then 0 else if Rlt_dec 0 (daycount_fraction ACTUAL_360 s e) then a else 0) + 1)) * 1)
           + fold_right Rplus 0 (row_code y91 val (fun _ => 1) (fixing_of None) (cms91 1) (e :: l) w (length w))).
        rewrite IH; [|intros d I; apply LT; right; exact I|cbn [length] in LL |- *; lia]. unfold date_ltb. pose proof (LT e (or_intror (or_introl eq_refl))). destruct (Z.ltb_spec (ordinal e) (ordinal val)); [|lia].
        change (over_periods (fun s e => 1 * daycount_fraction ACTUAL_360 s e) (s :: e :: l)) with (1 * daycount_fraction ACTUAL_360 s e + over_periods (fun s e => 1 * daycount_fraction ACTUAL_360 s e) (e :: l)). ring. }
    rewrite V. replace (over_periods (fun s e => 1 * daycount_fraction ACTUAL_360 s e) (r_dates z)) with (over_periods (fun s e => 1 * daycount_fraction ACTUAL_360 s e) r); [destruct POS as (POS & _); lra|].
    symmetry. apply (periods_padded_last (fun s e => 1 * daycount_fraction ACTUAL_360 s e) W r (r_dates z)); [|exact R4]. intros d I. rewrite fraction_same by (rewrite Forall_forall in R2; apply R2, I). ring.
  - intros l rates u CD SU. assert (LT : forall d, In d l -> (ordinal d < ordinal (ymd_date 2023 1 15))%Z) by (intros d; apply LATE, CD). clear - LT SU. revert LT SU. set (val := ymd_date 2023 1 15). clearbody val. revert rates u.
    induction l as [|s l IH]; intros rates u LT SU; [exact SU|]. destruct l as [|e l]; [exact SU|]. destruct rates as [|a rates]; [exact SU|]. destruct SU as (p & q & (_ & P) & SU & ->). rewrite (IH rates q (fun d I => LT d (or_intror I)) SU), P.
    unfold cms_amount, value_of. pose proof (LT e (or_intror (or_introl eq_refl))). destruct (Z.leb_spec (ordinal val) (ordinal e)); [lia|ring].
Qed.
(** A rate that has been fixed is still corrected, with a variance of the wrong sign. *)
Theorem C91_fixed_rate_refuted lognormal tau delta n vol level df rate valuation s a : (ordinal s < ordinal valuation)%Z -> 0 < rate -> 0 < tau -> delta < tau -> 1 <= n -> 0 < level -> 0 < df -> vol <> 0 ->
  convexity (model_of lognormal) tau delta n vol level (curve_time valuation s) df rate = Fin a -> a < rate.
Proof.
  intros O R0 T0 D N LV DF V A. destruct (gradient_some tau delta n rate) as (d & G); [lra|lra|nra|lra|]. pose proof (proj2 (gradient_nonneg _ _ _ _ _ R0 T0 (Rlt_le _ _ D) N G) D) as Dn.
  rewrite curve_years in A. assert (T : years valuation s < 0).
  { unfold years, Rdiv. apply Rmult_lt_reg_r with 365; [lra|]. rewrite Rmult_assoc, Rinv_l, Rmult_0_l, Rmult_1_r by lra. apply IZR_lt. lia. }
  set (T' := years valuation s) in *. clearbody T'. assert (V2 : 0 < vol ^ 2) by (apply pow2_gt_0, V). assert (V3 : vol ^ 2 * T' < 0) by nra.
  assert (E : a = rate + d * level / df * rate_variance lognormal vol T' rate).
  { unfold convexity, model_of in A. cbv zeta in A. rewrite G in A. unfold rate_variance. destruct lognormal; cbn [xmul xdiv] in A; rewrite (req_no df 0) in A by lra; cbn [xadd] in A; apply fin_eq in A; subst a; [generalize (exp (vol ^ 2 * T')); intros w|]; field; lra. }
  assert (C0 : 0 < d * level / df) by (apply Rmult_lt_0_compat; [apply Rmult_lt_0_compat; assumption|apply Rinv_0_lt_compat, DF]).
  assert (RV : rate_variance lognormal vol T' rate < 0).
  { unfold rate_variance. destruct lognormal; [|exact V3]. assert (exp (vol ^ 2 * T') < 1) by (rewrite <- exp_0; apply exp_increasing, V3). assert (0 < rate ^ 2) by (apply pow_lt, R0). nra. }
  nra.
Qed.

Print Assumptions C91_value_partial.
Print Assumptions C91_derivative.
Print Assumptions C91_adjustment.
Print Assumptions C91_adjustment_exists.
Print Assumptions C91_no_volatility.
Print Assumptions C91_adjustment_increases.
Print Assumptions C91_adjusted_partial.
Print Assumptions C91_swap_partial.
Print Assumptions C91_level.
Print Assumptions C91_fixing_refuted.
Print Assumptions C91_batch_refuted.
Print Assumptions C91_paid_refuted.
Print Assumptions C91_paid_basis_refuted.
Print Assumptions C91_fixed_rate_refuted.
