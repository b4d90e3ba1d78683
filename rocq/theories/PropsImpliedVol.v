(** C56 and C57: implied volatilities.
    [approx_implied_vol q validate_args polya_factor] is the closed form,
    [newton_implied_vol quotes normal validate_args initial tol rtol iterations]
    the root search.  [market normal q D F] says that quote q has discount
    factor D, forward F and time left. *)
From Coquelicot Require Import Coquelicot.
From Coq Require Import Reals List Bool Arith Lia Lra.
From Verif Require Import InterpModel BrentModel ExtReal HaganWestModel BootstrapModel BlackScholesModel BlackScholesSpec NormalProofs BlackScholesProofs NewtonModel NewtonProofs PropsNewton ImpliedVolModel ImpliedVolSpec ImpliedVolProofs ImpliedVolProofs2.
Import ListNotations.
Open Scope R_scope.

(** * C56: the closed form *)

(** It recovers the volatility exactly from a price computed by Black's formula
    with Polya's distribution function in place of the normal one. *)
Theorem C56_inverts q D F k sigma : market false q D F -> / 2 <= k -> 0 < sigma ->
  q_price q = D * black (polya_cdf k) (q_call q) F (q_strike q) (sigma * sqrt (q_expiry q)) ->
  approx_implied_vol q false k = Some (Fin sigma).
Proof.
  intros M K S P. pose proof (market_df _ _ _ _ M) as ED. pose proof (market_fwd _ _ _ _ M) as EF. pose proof (market_ok _ _ _ _ M) as OK.
  destruct M as (PD & _ & _ & PT & VV). destruct (VV eq_refl) as [PF PK]. unfold approx_implied_vol. rewrite OK, ED, EF. cbn [negb andb xmul].
  assert (PKD : 0 < q_strike q * D) by (apply Rmult_lt_0_compat; assumption). rewrite !xdiv_f by lra. f_equal.
  assert (ST : 0 < sqrt (q_expiry q)) by (apply sqrt_lt_R0; exact PT). set (s := sigma * sqrt (q_expiry q)) in *. assert (PS : 0 < s) by (apply Rmult_lt_0_compat; assumption).
  set (y := ln (F / q_strike q)). assert (FK : F / q_strike q = exp y) by (unfold y; rewrite exp_ln; [reflexivity|apply Rdiv_lt_0_compat; assumption]). rewrite FK.
  replace (Fin sigma) with (Fin (s / sqrt (q_expiry q))) by (f_equal; unfold s; field; lra).
  apply approx_polya_value; [exact K|exact PS|exact PT|]. cbv zeta. rewrite P, <- FK. unfold black. fold y. rewrite !polya_opp by exact K.
  unfold q_call. destruct (q_is_call q) as [[|]|]; field; lra.
Qed.
(** The default factor 2 / pi qualifies. *)
Theorem C56_default_factor : / 2 <= 2 / PI.
Proof. pose proof PI_RGT_0. pose proof PI_4. apply (Rmult_le_reg_r PI); [lra|]. replace (2 / PI * PI) with 2 by (field; lra). lra. Qed.

(** validate_args raises unless the undiscounted price keeps more than 1e-8 away
    from its no-arbitrage bounds, inside them; otherwise it changes nothing. *)
Theorem C56_validate q D F k : market false q D F ->
  let u := q_price q / D in let K := q_strike q in
  (intrinsic (q_call q) F K + 1 / 100000000 < u < largest (q_call q) F K - 1 / 100000000 -> approx_implied_vol q true k = approx_implied_vol q false k)
  /\ (~ intrinsic (q_call q) F K + 1 / 100000000 < u < largest (q_call q) F K - 1 / 100000000 -> approx_implied_vol q true k = None).
Proof.
  intros M. cbv zeta. pose proof (market_df _ _ _ _ M) as ED. pose proof (market_fwd _ _ _ _ M) as EF. pose proof (market_ok _ _ _ _ M) as OK.
  destruct M as (PD & _ & _ & PT & VV). destruct (VV eq_refl) as [PF PK]. unfold approx_implied_vol. rewrite OK. cbn [negb andb].
  assert (V : approx_valid q = true <-> intrinsic (q_call q) F (q_strike q) + 1 / 100000000 < q_price q / D < largest (q_call q) F (q_strike q) - 1 / 100000000).
  { unfold approx_valid. rewrite ED, EF, xdiv_f by lra. unfold xsub. cbn [xadd xopp]. rewrite !xmax_f. set (u := q_price q / D).
    assert (G : forall lo up, (0 <= lo)%R -> (xlt (Fin 0) (Fin F) && xlt (Fin 0) (Fin (q_strike q)) && xle (Fin 0) (Fin (q_expiry q))
       && xle (Fin lo) (Fin u) && xle (Fin u) (Fin up) && xlt (Fin (1 / 100000000)) (xabs (Fin u +x xopp (Fin lo))) && xlt (Fin (1 / 100000000)) (xabs (Fin u +x xopp (Fin up))) = true)
       <-> lo + 1 / 100000000 < u < up - 1 / 100000000).
    { intros lo up _. rewrite !rlt_pos by assumption. unfold xle. cbn [xadd xopp xabs xlt]. unfold rlt.
      destruct (Rlt_dec (q_expiry q) 0); [lra|]. cbn [negb andb].
      destruct (Rlt_dec u lo); cbn [negb andb]; [split; [discriminate|lra]|].
      destruct (Rlt_dec up u); cbn [negb andb]; [split; [discriminate|lra]|].
      rewrite (Rabs_pos_eq (u + - lo)) by lra. rewrite (Rabs_left1 (u + - up)) by lra.
      destruct (Rlt_dec _ (u + - lo)); cbn [andb]; [|split; [discriminate|lra]]. destruct (Rlt_dec _ (- (u + - up))); [split; [lra|reflexivity]|split; [discriminate|lra]]. }
    unfold q_call, intrinsic, largest. destruct (q_is_call q) as [[|]|]; apply G; apply Rmax_r. }
  split; intros H.
  - apply V in H. rewrite H. reflexivity.
  - destruct (approx_valid q) eqn:E; [|reflexivity]. exfalso. apply H, V. reflexivity.
Qed.
(** Exactly one of spot and forward must be given, to either function. *)
Theorem C56_errors q k : approx_implied_vol q false k = None <-> (q_spot q = None <-> q_forward q = None).
Proof.
  unfold approx_implied_vol, q_args_ok. destruct (q_spot q), (q_forward q); cbn; (split; [intros H; try discriminate; split; intros; try discriminate; reflexivity|]);
    intros [H1 H2]; try reflexivity; exfalso; try (discriminate (H1 eq_refl)); discriminate (H2 eq_refl).
Qed.

(** * C57: the root search *)

(** The objective is the difference between the price option_price gives for the
    volatility and the quoted one, up to a positive factor. *)
Theorem C57_objective normal q D F v : market normal q D F -> 0 < v ->
  exists p, reprice normal q D F v = Some (Fin p) /\ fst (objective normal q (Fin v)) = Fin ((p - q_price q) / (D * scale F (q_strike q))) /\ 0 < scale F (q_strike q).
Proof.
  intros M V. eexists. split; [apply reprice_value; assumption|]. split; [|apply scale_pos]. rewrite (objective_value normal q D F v M V). cbn [fst]. f_equal.
  pose proof (scale_pos F (q_strike q)). destruct M as (PD & _). field. lra.
Qed.
(** Every price strictly between the no-arbitrage bounds has exactly one
    implied volatility, and it is the only positive zero of the objective. *)
Theorem C57_exists_unique normal q D F : market normal q D F ->
  intrinsic (q_call q) F (q_strike q) < q_price q / D -> (normal = false -> q_price q / D < largest (q_call q) F (q_strike q)) ->
  exists v, 0 < v /\ reprice normal q D F v = Some (Fin (q_price q)) /\ fst (objective normal q (Fin v)) = Fin 0
    /\ forall w, 0 < w -> reprice normal q D F w = Some (Fin (q_price q)) \/ fst (objective normal q (Fin w)) = Fin 0 -> w = v.
Proof.
  intros M L U. pose proof M as (PD & _ & _ & PT & VV). set (K := q_strike q) in *. set (T := sqrt (q_expiry q)). assert (PS : 0 < T) by (apply sqrt_lt_R0; exact PT).
  set (t := q_price q / D + parity_gap (q_call q) F K).
  assert (PR : q_price q = D * (t - parity_gap (q_call q) F K)) by (unfold t; field; lra).
  destruct (above_onto normal F K t VV) as (s & S & E).
  - unfold t, intrinsic, parity_gap, Rmax in *. destruct (q_call q); destruct (Rle_dec (F - K) 0); try lra; destruct (Rle_dec (K - F) 0); lra.
  - intros N. specialize (U N). destruct (VV N) as [PF PK]. fold K in PK. unfold t, largest, parity_gap in *. destruct (q_call q); lra.
  - assert (V : 0 < s / T) by (apply Rdiv_lt_0_compat; assumption). assert (ST : s / T * T = s) by (field; lra).
    assert (Z : forall w, 0 < w -> reprice normal q D F w = Some (Fin (q_price q)) \/ fst (objective normal q (Fin w)) = Fin 0 -> above normal F K (w * T) 1 (- K) = t).
    { intros w W [H|H].
      - rewrite (reprice_value normal q D F w M W) in H. fold K T in H. injection H as H. rewrite PR in H. apply Rmult_eq_reg_l in H; lra.
      - rewrite (objective_value normal q D F w M W) in H. fold K T in H. cbn [fst] in H. injection H as H. pose proof (scale_pos F K) as PN. set (n := scale F K) in *. rewrite PR in H.
        assert (X : (above normal F K (w * T) 1 (- K) - t) / n = 0) by (rewrite <- H; field; lra). apply Rmult_integral in X as [X|X]; [lra|]. exfalso. apply (Rinv_neq_0_compat n); lra. }
    exists (s / T). split; [exact V|]. split; [|split].
    + rewrite (reprice_value normal q D F _ M V). fold K T. rewrite ST, E, <- PR. reflexivity.
    + rewrite (objective_value normal q D F _ M V). fold K T. rewrite ST, E. cbn [fst]. f_equal. rewrite PR. pose proof (scale_pos F K). field. lra.
    + intros w W H. specialize (Z w W H). assert (WS : w * T = s).
      { assert (PW : 0 < w * T) by (apply Rmult_lt_0_compat; assumption). destruct (Rtotal_order (w * T) s) as [C|[C|C]]; [|exact C|].
        - pose proof (above_incr normal F K (w * T) s VV PW C). lra.
        - pose proof (above_incr normal F K s (w * T) VV S C). lra. }
      rewrite <- WS. field. lra.
Qed.
Lemma market_nth normal qs i q D F : nth_error qs i = Some q -> market normal q D F -> nth_error (map (objective normal) qs) i = Some (objective normal q).
Proof. intros H _. apply map_nth_error. exact H. Qed.
Lemma newton_unfold qs normal validate given tol rtol m rs : newton_implied_vol qs normal validate given tol rtol m = Some rs ->
  exists starts, match given with Some g => starts = map Fin g | None => all_ok (initial_volatility normal validate) qs = Some starts end
    /\ rs = root_finder (map (objective normal) qs) starts m tol rtol.
Proof.
  unfold newton_implied_vol. destruct (forallb q_args_ok qs); [|discriminate]. destruct given as [g|].
  - intros H. injection H as <-. exists (map Fin g). split; [reflexivity|]. unfold objective. destruct normal; reflexivity.
  - destruct (all_ok _ qs) as [st|]; [|discriminate]. intros H. injection H as <-. exists st. split; [reflexivity|]. unfold objective. destruct normal; reflexivity.
Qed.
Lemma all_ok_length {A B} (f : A -> option B) l r : all_ok f l = Some r -> length r = length l.
Proof.
  revert r. induction l as [|x l IH]; cbn; intros r H; [injection H as <-; reflexivity|]. destruct (f x); [|discriminate]. destruct (all_ok f l); [|discriminate]. injection H as <-. cbn. f_equal. apply IH. reflexivity.
Qed.
Lemma lengths qs normal validate given tol rtol m rs : newton_implied_vol qs normal validate given tol rtol m = Some rs -> (forall g, given = Some g -> length g = length qs) ->
  exists starts, length starts = length qs /\ rs = root_finder (map (objective normal) qs) starts m tol rtol /\ (forall g, given = Some g -> starts = map Fin g).
Proof.
  intros H G. destruct (newton_unfold _ _ _ _ _ _ _ _ H) as (st & S & E). exists st. split; [|split; [exact E|]].
  - destruct given as [g|]; [rewrite S, map_length; apply G; reflexivity|apply (all_ok_length _ _ _ S)].
  - intros g Q. rewrite Q in S. exact S.
Qed.
(** The converged flag bounds the pricing error at the returned volatility:
    with G the derivative of the price in the volatility there,
    |error| (1 - rtol G / (D^2 n)) < tol G / D. *)
Theorem C57_converged qs normal validate given tol rtol m rs i q D F v failed :
  newton_implied_vol qs normal validate given tol rtol m = Some rs -> (forall g, given = Some g -> length g = length qs) ->
  nth_error qs i = Some q -> market normal q D F -> nth_error rs i = Some (Fin v, true, failed) -> 0 < v ->
  exists (P : R -> R) (G : R), (forall w, 0 < w -> reprice normal q D F w = Some (Fin (P w))) /\ is_derive P v G /\ 0 < G
    /\ Rabs (P v - q_price q) * (1 - rtol * (G / (D * D * scale F (q_strike q)))) < tol * G / D.
Proof.
  intros H LG QI M RI V. destruct (lengths _ _ _ _ _ _ _ _ H LG) as (st & LS & -> & _).
  assert (XI : exists x, nth_error st i = Some x).
  { destruct (nth_error st i) as [x|] eqn:E; [exists x; reflexivity|]. exfalso. apply nth_error_None in E. assert (i < length qs)%nat by (apply nth_error_Some; congruence). lia. }
  destruct XI as [x XI]. assert (C := C30_converged_flag (map (objective normal) qs) st m tol rtol i (objective normal q) x (Fin v) failed ltac:(rewrite map_length; lia) (market_nth _ _ _ _ _ _ QI M) XI RI).
  rewrite (objective_value normal q D F v M V) in C. pose proof M as (PD & _ & _ & PT & VV). pose proof (scale_pos F (q_strike q)) as PN.
  set (K := q_strike q) in *. set (T := sqrt (q_expiry q)) in *. set (n := scale F K) in *. assert (PS : 0 < T) by (apply sqrt_lt_R0; exact PT).
  set (P := fun w => D * (above normal F K (w * T) 1 (- K) - parity_gap (q_call q) F K)). set (sl := slope normal F K (v * T)) in *.
  assert (PSL : 0 < sl) by (apply slope_pos; exact VV).
  exists P, (D * (sl * T)). split; [intros w W; apply reprice_value; assumption|]. split; [|split; [apply Rmult_lt_0_compat; [assumption|apply Rmult_lt_0_compat; assumption]|]].
  - unfold P. assert (D1 : is_derive (fun w => w * T) v T) by (auto_derive; [exact Logic.I|ring]).
    assert (C1 := is_derive_comp (V := R_NormedModule) (fun s => above normal F K s 1 (- K)) (fun w => w * T) v _ _ (slope_derive normal F K (v * T) VV ltac:(apply Rmult_lt_0_compat; assumption)) D1).
    assert (C2 := is_derive_minus (V := R_NormedModule) _ (fun _ => parity_gap (q_call q) F K) v _ _ C1 (is_derive_const _ v)). apply (is_derive_scal _ _ D) in C2.
    match type of C2 with is_derive _ _ ?d => replace (D * (sl * T)) with d; [exact C2|] end. unfold minus, plus, opp, zero, scal. cbn. unfold mult. cbn. fold sl. ring.
  - assert (PV : 0 < sl * T / (D * n)) by (apply Rdiv_lt_0_compat; apply Rmult_lt_0_compat; assumption).
    set (g := sl * T / (D * n)) in *. rewrite xdiv_f in C by lra. cbn [xabs xmul xadd xlt] in C. unfold rlt in C. destruct (Rlt_dec _ _) as [C'|] in C; [|discriminate]. clear C.
    assert (E : (above normal F K (v * T) 1 (- K) - parity_gap (q_call q) F K) / n - q_price q / (D * n) = (P v - q_price q) / (D * n)) by (unfold P; field; lra).
    rewrite E in C'. set (e := P v - q_price q) in *. assert (PDN : 0 < D * n) by (apply Rmult_lt_0_compat; assumption).
    assert (A1 : Rabs (e / (D * n)) = Rabs e / (D * n)) by (unfold Rdiv; rewrite Rabs_mult, Rabs_inv, (Rabs_pos_eq (D * n)) by lra; reflexivity).
    assert (A2 : Rabs (e / (D * n) / g) = Rabs e / (D * n) / g) by (unfold Rdiv at 1; rewrite Rabs_mult, A1, Rabs_inv, (Rabs_pos_eq g) by lra; reflexivity).
    rewrite A1, A2 in C'. apply (Rmult_lt_compat_r (g * (D * n))) in C'; [|apply Rmult_lt_0_compat; assumption].
    replace (Rabs e / (D * n) / g * (g * (D * n))) with (Rabs e) in C' by (field; lra).
    replace ((rtol * (Rabs e / (D * n)) + tol) * (g * (D * n))) with (Rabs e * (rtol * g) + tol * (g * (D * n))) in C' by (field; lra).
    replace (D * (sl * T) / (D * D * n)) with g by (unfold g; field; lra). replace (tol * (D * (sl * T)) / D) with (tol * (g * (D * n))) by (unfold g; field; lra). lra.
Qed.
(** Started at the exact volatility, the search returns it, converged. *)
Theorem C57_fixed_point qs normal validate g tol rtol m rs i q D F v r :
  newton_implied_vol qs normal validate (Some g) tol rtol m = Some rs -> length g = length qs ->
  nth_error qs i = Some q -> market normal q D F -> nth_error g i = Some v -> 0 < v -> reprice normal q D F v = Some (Fin (q_price q)) ->
  0 < tol -> (0 < m)%nat -> nth_error rs i = Some r -> r = (Fin v, true, false).
Proof.
  intros H LG QI M GI V RP PT PM RI. destruct (lengths _ _ _ _ _ _ _ _ H ltac:(intros ? Q; injection Q as <-; exact LG)) as (st & LS & -> & S). specialize (S g eq_refl). subst st.
  destruct (C57_objective normal q D F v M V) as (p & RP' & O & _). rewrite RP in RP'. injection RP' as <-.
  assert (U : newton_update rtol tol (objective normal q) (Fin v) = (Fin v, true, false)).
  { unfold newton_update. rewrite (objective_value normal q D F v M V) in *. cbn [fst] in O. injection O as O. rewrite O. pose proof M as (PD & _ & _ & PT' & VV). pose proof (scale_pos F (q_strike q)) as PN.
    set (gr := slope _ _ _ _ * _ / _). assert (PG : 0 < gr). { apply Rdiv_lt_0_compat; apply Rmult_lt_0_compat; try assumption; [apply slope_pos; exact VV|apply sqrt_lt_R0; exact PT']. }
    replace ((q_price q - q_price q) / (D * scale F (q_strike q))) with 0 by (field; lra).
    rewrite xdiv_f by lra. replace (0 / gr) with 0 by (field; lra). cbn [xabs xmul xadd xlt]. rewrite Rabs_R0, Rmult_0_r, Rplus_0_l. unfold rlt. destruct (Rlt_dec 0 tol); [|lra].
    cbn [xopp xmul xadd is_finite negb]. rewrite Rmult_0_r, Rplus_0_r. reflexivity. }
  destruct (root_finder_element (map (objective normal) qs) (map Fin g) m tol rtol i (objective normal q) (Fin v) r) as (k & K1 & K2 & K3).
  - rewrite !map_length. lia.
  - apply (market_nth _ _ _ _ _ _ QI M).
  - apply map_nth_error. exact GI.
  - exact RI.
  - destruct k as [|k].
    + rewrite K2 in K3. cbn in K3. destruct K3 as [K3|K3]; [lia|discriminate].
    + assert (N : forall j, niter rtol tol (objective normal q) (S j) (start (Fin v)) = (Fin v, true, false)).
      { induction j as [|j IH]; rewrite niter_S; [exact U|]. rewrite IH. exact U. }
      rewrite K2. apply N.
Qed.
(** The second component handed to the search is not the derivative of the first:
    it is that derivative divided by the discount factor. *)
Theorem C57_vega normal q D F v : market normal q D F -> 0 < v ->
  exists (O : R -> R) (O' : R), (forall w, 0 < w -> fst (objective normal q (Fin w)) = Fin (O w)) /\ is_derive O v O' /\ 0 < O' /\ snd (objective normal q (Fin v)) = Fin (O' / D).
Proof.
  intros M V. pose proof M as (PD & _ & _ & PT & VV). pose proof (scale_pos F (q_strike q)) as PN. assert (PS : 0 < sqrt (q_expiry q)) by (apply sqrt_lt_R0; exact PT).
  set (K := q_strike q) in *. set (T := sqrt (q_expiry q)) in *. set (n := scale F K) in *.
  exists (fun w => (above normal F K (w * T) 1 (- K) - parity_gap (q_call q) F K) / n - q_price q / (D * n)), (slope normal F K (v * T) * T / n).
  split; [intros w W; rewrite (objective_value normal q D F w M W); reflexivity|]. split; [|split].
  - assert (D1 : is_derive (fun w => w * T) v T) by (auto_derive; [exact Logic.I|ring]).
    assert (C1 := is_derive_comp (V := R_NormedModule) (fun s => above normal F K s 1 (- K)) (fun w => w * T) v _ _ (slope_derive normal F K (v * T) VV ltac:(apply Rmult_lt_0_compat; assumption)) D1).
    apply (is_derive_scal _ _ (/ n)) in C1.
    assert (C2 := is_derive_minus (V := R_NormedModule) _ (fun _ => parity_gap (q_call q) F K / n + q_price q / (D * n)) v _ _ C1 (is_derive_const _ v)).
    apply (is_derive_ext (fun w => minus (/ n * above normal F K (w * T) 1 (- K)) (parity_gap (q_call q) F K / n + q_price q / (D * n)))).
    + intros w. unfold minus, plus, opp. cbn. field. lra.
    + match type of C2 with is_derive _ _ ?d => replace (slope normal F K (v * T) * T / n) with d; [exact C2|] end. unfold minus, plus, opp, zero, scal. cbn. unfold mult. cbn. field. lra.
  - apply Rdiv_lt_0_compat; [|exact PN]. apply Rmult_lt_0_compat; [apply slope_pos; exact VV|exact PS].
  - rewrite (objective_value normal q D F v M V). cbn [snd]. fold K T n. f_equal. field. lra.
Qed.
(** So with a discount factor other than 1 the search does not run Newton's method. *)
Theorem C57_vega_refuted normal q D F v : market normal q D F -> 0 < v -> D <> 1 ->
  ~ exists (O : R -> R) (g : R), (forall w, 0 < w -> fst (objective normal q (Fin w)) = Fin (O w)) /\ is_derive O v g /\ snd (objective normal q (Fin v)) = Fin g.
Proof.
  intros M V ND (O & g & E & DO & G). destruct (C57_vega normal q D F v M V) as (O1 & g1 & E1 & DO1 & PG & G1). pose proof M as (PD & _).
  assert (g = g1).
  { rewrite <- (is_derive_unique _ _ _ DO). rewrite <- (is_derive_unique _ _ _ DO1). apply Derive_ext_loc. exists (mkposreal v V). intros w B.
    assert (W : 0 < w). { unfold ball in B. cbn in B. unfold AbsRing_ball, abs, minus, plus, opp in B. cbn in B. apply Rabs_def2 in B. lra. }
    specialize (E w W). rewrite (E1 w W) in E. injection E as E. symmetry. exact E. }
  subst g1. rewrite G in G1. injection G1 as G1. apply ND. apply (Rmult_eq_reg_l g); [|lra]. rewrite Rmult_1_r. rewrite G1 at 1. field. lra.
Qed.
(** Near the implied volatility one iteration multiplies the error by about
    1 - D, not by a vanishing factor as Newton's method would. *)
Theorem C57_rate normal q D F v tol rtol : market normal q D F -> 0 < v -> reprice normal q D F v = Some (Fin (q_price q)) ->
  exists N : R -> R, N v = v /\ is_derive N v (1 - D)
    /\ forall w, 0 < w -> newton_update rtol tol (objective normal q) (Fin w) = (Fin w, true, false) \/ newton_update rtol tol (objective normal q) (Fin w) = (Fin (N w), false, false).
Proof.
  intros M V RP. pose proof M as (PD & _ & _ & PT & VV). pose proof (scale_pos F (q_strike q)) as PN. assert (PS : 0 < sqrt (q_expiry q)) by (apply sqrt_lt_R0; exact PT).
  destruct (C57_objective normal q D F v M V) as (p & RP' & Z & _). rewrite RP in RP'. injection RP' as <-. rewrite (objective_value normal q D F v M V) in Z. cbn [fst] in Z. injection Z as Z.
  set (K := q_strike q) in *. set (T := sqrt (q_expiry q)) in *. set (n := scale F K) in *.
  set (O := fun w => (above normal F K (w * T) 1 (- K) - parity_gap (q_call q) F K) / n - q_price q / (D * n)).
  set (W := fun w => slope normal F K (w * T) * T / (D * n)).
  assert (OV : O v = 0) by (unfold O; rewrite Z; field; lra).
  assert (PW : forall w, 0 < W w). { intros w. apply Rdiv_lt_0_compat; apply Rmult_lt_0_compat; try assumption. apply slope_pos; exact VV. }
  destruct (C57_vega normal q D F v M V) as (O1 & g1 & E1 & DO1 & PG & G1).
  assert (DO : is_derive O v g1).
  { apply (is_derive_ext_loc O1); [|exact DO1]. exists (mkposreal v V). intros w B.
    assert (PW' : 0 < w). { unfold ball in B. cbn in B. unfold AbsRing_ball, abs, minus, plus, opp in B. cbn in B. apply Rabs_def2 in B. lra. }
    specialize (E1 w PW'). rewrite (objective_value normal q D F w M PW') in E1. cbn [fst] in E1. injection E1 as E1. symmetry. exact E1. }
  assert (GW : W v = g1 / D). { rewrite (objective_value normal q D F v M V) in G1. cbn [snd] in G1. injection G1 as G1. exact G1. }
  assert (DW : ex_derive W v).
  { assert (X : exists l, is_derive (fun w => slope normal F K (w * T)) v l).
    { unfold slope. assert (VT : v * T <> 0) by (apply Rgt_not_eq, Rmult_lt_0_compat; assumption). destruct normal.
      - assert (D1 : ex_derive (fun w => (F - K) / (w * T)) v) by (auto_derive; exact VT). destruct D1 as [d1 D1]. eexists.
        exact (is_derive_comp (V := R_NormedModule) density (fun w => (F - K) / (w * T)) v _ _ (density_derive _) D1).
      - assert (D1 : ex_derive (fun w => ln (F / K) / (w * T) + w * T / 2) v) by (auto_derive; exact VT). destruct D1 as [d1 D1]. eexists.
        apply (is_derive_scal _ _ F). exact (is_derive_comp (V := R_NormedModule) density (fun w => ln (F / K) / (w * T) + w * T / 2) v _ _ (density_derive _) D1). }
    destruct X as [l X]. exists (T / (D * n) * l). assert (EQ : forall w, T / (D * n) * slope normal F K (w * T) = W w) by (intros w; unfold W; field; lra).
    apply (is_derive_ext _ _ _ _ EQ). apply is_derive_scal. exact X. }
  destruct DW as [l DW]. exists (fun w => w - O w * / W w). split; [rewrite OV; ring|]. split.
  - assert (DI := is_derive_inv W v l DW ltac:(pose proof (PW v); lra)).
    assert (DM := is_derive_mult O (fun w => / W w) v _ _ DO DI Rmult_comm).
    assert (DN := is_derive_minus (V := R_NormedModule) (fun w => w) _ v _ _ (is_derive_id v) DM).
    match type of DN with is_derive _ _ ?d => replace (1 - D) with d; [exact DN|] end.
    unfold minus, plus, opp, one. cbn. unfold mult. cbn. rewrite OV, GW. field. lra.
  - intros w PW'. unfold newton_update. rewrite (objective_value normal q D F w M PW'). fold K T n. change (slope normal F K (w * T) * T / (D * n)) with (W w).
    change ((above normal F K (w * T) 1 (- K) - parity_gap (q_call q) F K) / n - q_price q / (D * n)) with (O w).
    rewrite xdiv_f by (pose proof (PW w); lra). destruct (xlt _ _); cbn [xopp xmul xadd is_finite negb]; [left|right]; f_equal; f_equal; f_equal; [ring|]. unfold Rdiv. ring.
Qed.
(** validate_args has no effect when initial volatilities are given or the
    model is the normal one: a price above the forward is accepted. *)
Theorem C57_validate_refuted qs normal given tol rtol m : (normal = true \/ exists g, given = Some g) ->
  newton_implied_vol qs normal true given tol rtol m = newton_implied_vol qs normal false given tol rtol m.
Proof.
  intros H. unfold newton_implied_vol. destruct (forallb q_args_ok qs); [|reflexivity]. destruct given as [g|]; [reflexivity|].
  destruct H as [-> |[g H]]; [|discriminate]. reflexivity.
Qed.
(** With the default start and the lognormal model the checks of C56 apply. *)
Theorem C57_validate qs tol rtol m : (exists q, In q qs /\ approx_implied_vol q true (2 / PI) = None) -> newton_implied_vol qs false true None tol rtol m = None.
Proof.
  intros (q & I & H). unfold newton_implied_vol. destruct (forallb q_args_ok qs); [|reflexivity].
  assert (A : all_ok (initial_volatility false true) qs = None).
  { induction qs as [|a l IH]; [contradiction|]. cbn [all_ok]. destruct I as [-> |I].
    - unfold initial_volatility at 1. rewrite H. reflexivity.
    - rewrite (IH I). destruct (initial_volatility false true a); reflexivity. }
  rewrite A. reflexivity.
Qed.
(** The closed form is not available for the normal model. *)
Theorem C57_fast_normal qs validate given tol rtol m : implied_vol qs FastApprox true validate given tol rtol m = None.
Proof. reflexivity. Qed.

(** A put, quoted by its spot, under both theorems. *)
Example put_quote : quote := Quote (1 / 2 * black (polya_cdf (2 / PI)) false 4 5 (1 * sqrt 1)) 5 1 (Some 2) None (Some (1 / 2)) (Some false).
Example put_market normal : market normal put_quote (1 / 2) 4.
Proof. unfold market. cbn. repeat split; try lra; intros; split; lra. Qed.
Example put_inverts : approx_implied_vol put_quote false (2 / PI) = Some (Fin 1).
Proof. apply (C56_inverts put_quote (1 / 2) 4); [apply put_market|apply C56_default_factor|lra|reflexivity]. Qed.
(** A normal-model call struck at the forward. *)
Example atm_quote : quote := Quote (1 / sqrt (2 * PI)) 3 1 None (Some 3) None None.
Example atm_normal : market true atm_quote 1 3 /\ reprice true atm_quote 1 3 1 = Some (Fin (q_price atm_quote))
  /\ exists v, 0 < v /\ reprice true atm_quote 1 3 v = Some (Fin (q_price atm_quote)) /\ v = 1.
Proof.
  assert (M : market true atm_quote 1 3) by (unfold market; cbn; repeat split; try lra; discriminate).
  assert (RP : reprice true atm_quote 1 3 1 = Some (Fin (q_price atm_quote))).
  { rewrite (reprice_value true atm_quote 1 3 1 M) by lra. cbn [atm_quote q_strike q_expiry q_is_call q_call q_price]. rewrite sqrt_1, above_normal by lra.
    unfold parity_gap, density. cbn [q_call q_is_call atm_quote]. do 2 f_equal. replace ((3 - 3) / (1 * 1)) with 0 by field. replace (- (0 ^ 2 / 2)) with 0 by field. rewrite exp_0. pose proof sqrt2pi_pos. field. lra. }
  split; [exact M|]. split; [exact RP|].
  destruct (C57_exists_unique true atm_quote 1 3 M) as (v & V & R1 & _ & U).
  - unfold intrinsic. cbn. replace (3 - 3) with 0 by ring. rewrite Rmax_left by lra. pose proof sqrt2pi_pos. apply Rdiv_lt_0_compat; [|lra]. apply Rdiv_lt_0_compat; lra.
  - discriminate.
  - exists v. split; [exact V|]. split; [exact R1|]. symmetry. apply U; [lra|]. left. exact RP.
Qed.

Print Assumptions C56_inverts.
Print Assumptions C56_default_factor.
Print Assumptions C56_validate.
Print Assumptions C56_errors.
Print Assumptions C57_objective.
Print Assumptions C57_exists_unique.
Print Assumptions C57_converged.
Print Assumptions C57_fixed_point.
Print Assumptions C57_vega.
Print Assumptions C57_vega_refuted.
Print Assumptions C57_rate.
Print Assumptions C57_validate_refuted.
Print Assumptions C57_validate.
Print Assumptions C57_fast_normal.
