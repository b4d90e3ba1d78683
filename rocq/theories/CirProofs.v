(** Gamma and Poisson means. *)
From Coquelicot Require Import Coquelicot.
From Coq Require Import Reals List Lia Lra Psatz.
From Verif Require Import RandomProg.
Open Scope R_scope.

(** ** Limits of monotone functions *)
Lemma mono_lim (A : R -> R) (M : R) : (forall x y, 1 <= x -> x <= y -> A x <= A y) -> (forall x, 1 <= x -> A x <= M) ->
  exists l : R, is_lim A p_infty l /\ forall x, 1 <= x -> A x <= l.
Proof.
  intros I B. destruct (completeness (fun y => exists x, 1 <= x /\ y = A x)) as [l [U L]].
  - exists M. intros y [x [X ->]]. auto.
  - exists (A 1), 1. split; [lra|reflexivity].
  - exists l. assert (U' : forall x, 1 <= x -> A x <= l) by (intros x X; apply U; exists x; auto). split; [|exact U'].
    apply is_lim_spec. intros eps. assert (E := cond_pos eps).
    assert (W : exists x, 1 <= x /\ l - eps < A x).
    { apply Classical_Prop.NNPP. intros N. assert (Q : l <= l - eps); [|lra]. apply L. intros y [x [X ->]].
      apply Rnot_lt_le. intros C. apply N. exists x. split; [exact X|lra]. }
    destruct W as [x0 [X0 Y0]]. exists x0. intros x X. assert (A x0 <= A x) by (apply I; lra). assert (A x <= l) by (apply U'; lra). rewrite Rabs_left1; lra.
Qed.
Lemma mono_lim0 (A : R -> R) (M : R) : (forall x y, 0 < x -> x <= y -> y <= 1 -> A x <= A y) -> (forall x, 0 < x -> x <= 1 -> M <= A x) ->
  exists l : R, filterlim A (at_right 0) (locally l) /\ forall x, 0 < x -> x <= 1 -> l <= A x.
Proof.
  intros I B. destruct (completeness (fun y => exists x, 0 < x <= 1 /\ y = - A x)) as [l [U L]].
  - exists (- M). intros y [x [X ->]]. assert (M <= A x) by (apply B; lra). lra.
  - exists (- A 1), 1. split; [lra|reflexivity].
  - exists (- l). assert (U' : forall x, 0 < x <= 1 -> - l <= A x). { intros x X. assert (- A x <= l) by (apply U; exists x; auto). lra. }
    split; [|intros x X Y; apply U'; lra].
    intros P [eps HP]. assert (E := cond_pos eps).
    assert (W : exists x, 0 < x <= 1 /\ A x < - l + eps).
    { apply Classical_Prop.NNPP. intros N. assert (Q : l <= l - eps); [|lra]. apply L. intros y [x [X ->]].
      apply Rnot_lt_le. intros C. apply N. exists x. split; [exact X|lra]. }
    destruct W as [x0 [X0 Y0]]. assert (X1 : 0 < x0) by lra. exists (mkposreal _ X1). intros x HX XP. apply HP.
    assert (HX' : x < x0). { unfold ball in HX. cbn in HX. unfold AbsRing_ball, abs, minus, plus, opp in HX. cbn in HX. apply Rabs_def2 in HX. lra. }
    unfold ball. cbn. unfold AbsRing_ball, abs, minus, plus, opp. cbn.
    assert (A x <= A x0) by (apply I; lra). assert (- l <= A x) by (apply U'; lra). rewrite Rabs_right; lra.
Qed.

(** ** Integrals over the positive numbers *)
Lemma lim_ev (A : R -> R) F (l : R) (eps : posreal) : Filter F -> filterlim A F (locally l) -> F (fun x => Rabs (A x - l) < eps).
Proof. intros FF L. apply (L (fun y => Rabs (y - l) < eps)). exists eps. intros y Y. exact Y. Qed.
Lemma gen_pos (g A : R -> R) (l0 lp : R) : (forall x, 0 < x -> is_derive A x (g x)) -> (forall x, 0 < x -> continuous g x) ->
  filterlim A (at_right 0) (locally l0) -> is_lim A p_infty lp ->
  is_RInt_gen (V := R_NormedModule) g (at_right 0) (Rbar_locally p_infty) (lp - l0).
Proof.
  intros D C L0 LP P [eps HP].
  assert (E2 : 0 < eps / 2) by (destruct eps; cbn; lra).
  assert (H0 := lim_ev A (at_right 0) l0 (mkposreal _ E2) _ L0).
  assert (HI := lim_ev A (Rbar_locally p_infty) lp (mkposreal _ E2) _ LP).
  apply (Filter_prod _ _ _ (fun a => 0 < a /\ Rabs (A a - l0) < mkposreal _ E2) (fun b => 0 < b /\ Rabs (A b - lp) < mkposreal _ E2)).
  - apply (filter_and (F := at_right 0)); [|exact H0]. exists (mkposreal 1 Rlt_0_1). intros y _ Y. exact Y.
  - apply (filter_and (F := Rbar_locally p_infty)); [|exact HI]. exists 0. auto.
  - intros a b [PA HA] [PB HB]. exists (A b - A a). split.
    + assert (MI : forall x, Rmin a b <= x -> 0 < x) by (intros x X; eapply Rlt_le_trans; [|exact X]; apply Rmin_glb_lt; assumption).
      apply (is_RInt_derive (V := R_CompleteNormedModule)); intros x X; [apply D|apply C]; apply MI; lra.
    + apply HP. change (Rabs (minus (A b - A a) (lp - l0)) < eps). unfold minus, plus, opp; cbn.
      cbn in HA, HB. replace (A b - A a + - (lp - l0)) with ((A b - lp) - (A a - l0)) by ring.
      eapply Rle_lt_trans; [apply Rabs_triang|]. rewrite Rabs_Ropp. lra.
Qed.
Lemma gen_pos_ext (f g : R -> R) (m : R) : (forall x, 0 < x -> f x = g x) ->
  is_RInt_gen (V := R_NormedModule) f (at_right 0) (Rbar_locally p_infty) m -> is_RInt_gen (V := R_NormedModule) g (at_right 0) (Rbar_locally p_infty) m.
Proof.
  intros E H. apply (is_RInt_gen_ext (V := R_NormedModule) f g); [|exact H].
  apply (Filter_prod _ _ _ (fun a => 0 < a) (fun b => 0 < b)).
  - exists (mkposreal 1 Rlt_0_1). intros y _ Y. exact Y.
  - exists 0. auto.
  - intros a b PA PB x [X _]. apply E. cbn in X. eapply Rlt_trans; [|exact X]. apply Rmin_glb_lt; assumption.
Qed.

(** ** Powers *)
Lemma rpower_derive p x : 0 < x -> is_derive (fun y => Rpower y p) x (p * Rpower x (p - 1)).
Proof.
  intros X. unfold Rpower. auto_derive; [exact X|].
  replace ((p - 1) * ln x) with (p * ln x + - ln x) by ring. rewrite exp_plus, exp_Ropp, exp_ln by exact X. field. lra.
Qed.
Lemma rpower_succ p x : 0 < x -> Rpower x (p + 1) = x * Rpower x p.
Proof. intros X. rewrite Rpower_plus, Rpower_1 by exact X. ring. Qed.
Lemma weight_derive p b x : 0 < x -> is_derive (fun y => Rpower y p * exp (- (b * y))) x (p * Rpower x (p - 1) * exp (- (b * x)) - b * (Rpower x p * exp (- (b * x)))).
Proof.
  intros X. assert (D := rpower_derive p x X).
  assert (E : is_derive (fun y => exp (- (b * y))) x (- b * exp (- (b * x)))) by (auto_derive; [exact Logic.I|ring]).
  assert (Q := is_derive_mult (fun y => Rpower y p) (fun y => exp (- (b * y))) x _ _ D E Rmult_comm).
  match type of Q with is_derive _ _ ?d => replace (p * Rpower x (p - 1) * exp (- (b * x)) - b * (Rpower x p * exp (- (b * x)))) with d; [exact Q|] end.
  unfold plus, mult. cbn. ring.
Qed.
Lemma weight_cont p b x : 0 < x -> continuous (fun y => Rpower y p * exp (- (b * y))) x.
Proof. intros X. apply (ex_derive_continuous (fun y => Rpower y p * exp (- (b * y)))). eexists. apply weight_derive; exact X. Qed.
Lemma gamma_weight_cont a b x : 0 < x -> continuous (gamma_weight a b) x.
Proof. apply weight_cont. Qed.
Lemma gamma_weight_pos a b x : 0 < gamma_weight a b x.
Proof. apply Rmult_lt_0_compat; apply exp_pos. Qed.
(** x^p <= C e^(x/2) *)
Lemma rpower_le_exp p : exists K, forall x, 1 <= x -> Rpower x p <= exp (x / 2 + K).
Proof.
  set (q := Rabs p + 1). assert (Q : 0 < q) by (unfold q; pose proof (Rabs_pos p); lra). assert (PQ : p <= q) by (unfold q; pose proof (Rle_abs p); lra).
  exists (q * ln (2 * q)). intros x X. unfold Rpower.
  assert (LX : 0 <= ln x) by (rewrite <- ln_1; destruct (Rle_lt_or_eq_dec 1 x X) as [L| <-]; [apply Rlt_le, ln_increasing; lra|lra]).
  assert (T : ln x <= x / (2 * q) + ln (2 * q)).
  { replace x with (x / (2 * q) * (2 * q)) at 1 by (field; lra). rewrite ln_mult; [|apply Rdiv_lt_0_compat; lra|lra].
    assert (P : 0 < x / (2 * q)) by (apply Rdiv_lt_0_compat; lra). assert (L := exp_ineq1_le (ln (x / (2 * q)))). rewrite exp_ln in L by exact P. lra. }
  assert (G : p * ln x <= x / 2 + q * ln (2 * q)).
  { apply Rle_trans with (q * ln x); [apply Rmult_le_compat_r; assumption|]. apply Rle_trans with (q * (x / (2 * q) + ln (2 * q))); [apply Rmult_le_compat_l; lra|].
    apply Req_le. field. lra. }
  destruct (Rle_lt_or_eq_dec _ _ G) as [L| ->]; [apply Rlt_le, exp_increasing, L|lra].
Qed.
Lemma exp_lim_m (c K : R) : 0 < c -> is_lim (fun x => exp (- (c * x) + K)) p_infty 0.
Proof.
  intros C. apply is_lim_spec. intros eps. assert (E := cond_pos eps). exists ((K - ln eps) / c). intros x X.
  rewrite Rminus_0_r, Rabs_right by (apply Rle_ge, Rlt_le, exp_pos).
  rewrite <- (exp_ln eps) at 1 by exact E. apply exp_increasing.
  apply (Rmult_lt_compat_l c) in X; [|exact C]. replace (c * ((K - ln eps) / c)) with (K - ln eps) in X by (field; lra). lra.
Qed.
Lemma squeeze_p (f g : R -> R) : (forall x, 1 <= x -> 0 <= f x <= g x) -> is_lim g p_infty 0 -> is_lim f p_infty 0.
Proof.
  intros B G. apply (is_lim_le_le_loc (fun _ => 0) g); [|apply is_lim_const|exact G]. exists 1. intros x X. apply B. lra.
Qed.
Lemma weight_lim_p p b : 0 < b -> is_lim (fun x => Rpower x p * exp (- (b * x))) p_infty 0.
Proof.
  intros B. destruct (rpower_le_exp p) as [K HK].
  set (b' := Rmin 1 b).
  assert (S : is_lim (fun y => Rpower y p * exp (- y)) p_infty 0).
  { apply (squeeze_p _ (fun x => exp (- (1 / 2 * x) + K))); [|apply exp_lim_m; lra].
    intros x X. split; [apply Rlt_le, Rmult_lt_0_compat; apply exp_pos|].
    replace (exp (- (1 / 2 * x) + K)) with (exp (x / 2 + K) * exp (- x)) by (rewrite <- exp_plus; f_equal; lra).
    apply Rmult_le_compat_r; [apply Rlt_le, exp_pos|apply HK; exact X]. }
  (* scale *)
  assert (T : is_lim (fun x => Rpower (b * x) p * exp (- (b * x))) p_infty 0).
  { apply (is_lim_comp (fun y => Rpower y p * exp (- y)) (fun x => b * x) p_infty (Finite 0) p_infty); [exact S| |].
    - apply is_lim_spec. intros M. exists (M / b). intros x X. apply (Rmult_lt_compat_l b) in X; [|exact B]. replace (b * (M / b)) with M in X by (field; lra). exact X.
    - exists 0. intros x _ H. discriminate H. }
  apply (is_lim_ext_loc (fun x => Rpower b (- p) * (Rpower (b * x) p * exp (- (b * x))))).
  - exists 0. intros x X. rewrite <- (Rpower_mult_distr b x) by assumption. rewrite Rpower_Ropp. field. apply Rgt_not_eq, exp_pos.
  - replace 0 with (Rpower b (- p) * 0) by ring. apply (is_lim_scal_l _ (Rpower b (- p)) p_infty 0). exact T.
Qed.
Lemma weight_lim_0 p b : 0 < p -> 0 < b -> filterlim (fun x => Rpower x p * exp (- (b * x))) (at_right 0) (locally 0).
Proof.
  intros P B Q [eps HP]. assert (E := cond_pos eps).
  assert (D : 0 < Rpower eps (/ p)) by apply exp_pos. exists (mkposreal _ D). intros x HX XP. apply HP.
  assert (HX' : x < Rpower eps (/ p)). { unfold ball in HX. cbn in HX. unfold AbsRing_ball, abs, minus, plus, opp in HX. cbn in HX. apply Rabs_def2 in HX. lra. }
  unfold ball. cbn. unfold AbsRing_ball, abs, minus, plus, opp. cbn. rewrite Ropp_0, Rplus_0_r.
  rewrite Rabs_right by (apply Rle_ge, Rlt_le, Rmult_lt_0_compat; apply exp_pos).
  apply Rle_lt_trans with (Rpower x p).
  - rewrite <- (Rmult_1_r (Rpower x p)) at 2. apply Rmult_le_compat_l; [apply Rlt_le, exp_pos|]. rewrite <- exp_0. apply Rlt_le, exp_increasing.
    assert (0 < b * x) by (apply Rmult_lt_0_compat; assumption). lra.
  - replace (pos eps) with (Rpower (Rpower eps (/ p)) p). { apply Rlt_Rpower_l; [exact P|split; assumption]. }
    rewrite Rpower_mult, Rinv_l, Rpower_1; lra.
Qed.

(** ** An antiderivative of the weight *)
Lemma decr_pos (H h : R -> R) : (forall x, 0 < x -> is_derive H x (h x)) -> forall x y, 0 < x -> x <= y -> (forall z, x <= z <= y -> h z <= 0) -> H y <= H x.
Proof.
  intros D x y X Y N. destruct (Rle_lt_or_eq_dec x y Y) as [L| <-]; [|lra].
  destruct (MVT_gen H x y h) as [c [Hc E]].
  - intros z Z. rewrite Rmin_left, Rmax_right in Z by lra. apply D. lra.
  - intros z Z. rewrite Rmin_left, Rmax_right in Z by lra. apply derivable_continuous_pt. exists (h z). apply is_derive_Reals, D. lra.
  - rewrite Rmin_left, Rmax_right in Hc by lra. assert (h c <= 0) by (apply N; lra). nra.
Qed.
Lemma gamma_primitive a : 0 < a -> exists (A : R -> R) (l0 lp : R), l0 < lp /\
  (forall x, 0 < x -> is_derive A x (gamma_weight a 1 x)) /\ filterlim A (at_right 0) (locally l0) /\ is_lim A p_infty lp.
Proof.
  intros A0. set (f := gamma_weight a 1).
  assert (CF : forall x, 0 < x -> continuous f x) by (intros x X; apply gamma_weight_cont; exact X).
  set (A := fun x => RInt (V := R_CompleteNormedModule) f 1 x).
  assert (EX : forall x, 0 < x -> ex_RInt (V := R_CompleteNormedModule) f 1 x).
  { intros x X. apply (ex_RInt_continuous (V := R_CompleteNormedModule)). intros z Z. apply CF. eapply Rlt_le_trans; [|apply Z]. apply Rmin_glb_lt; lra. }
  assert (DA : forall x, 0 < x -> is_derive A x (f x)).
  { intros x X. apply (is_derive_RInt (V := R_CompleteNormedModule) f A 1 x); [|apply CF; exact X].
    exists (mkposreal _ X). intros y Y. apply (RInt_correct (V := R_CompleteNormedModule)), EX.
    unfold ball in Y. cbn in Y. unfold AbsRing_ball, abs, minus, plus, opp in Y. cbn in Y. apply Rabs_def2 in Y. lra. }
  assert (INC : forall x y, 0 < x -> x <= y -> A x <= A y).
  { intros x y X Y. assert (Q := decr_pos (fun z => - A z) (fun z => - f z)).
    assert (- A y <= - A x); [|lra]. apply Q; [|exact X|exact Y|].
    - intros z Z. apply (is_derive_opp A z (f z)), DA, Z.
    - intros z Z. assert (P := gamma_weight_pos a 1 z). fold f in P. lra. }
  destruct (rpower_le_exp (a - 1)) as [K HK].
  destruct (mono_lim A (A 1 + 2 * exp (- (1 / 2 * 1) + K))) as [lp [LP BP]].
  - intros x y X Y. apply INC; lra.
  - intros x X.
    assert (Q := decr_pos (fun z => A z + 2 * exp (- (1 / 2 * z) + K)) (fun z => f z - exp (- (1 / 2 * z) + K))).
    assert (T : A x + 2 * exp (- (1 / 2 * x) + K) <= A 1 + 2 * exp (- (1 / 2 * 1) + K)).
    { apply Q; [|lra|exact X|].
      - intros z Z. assert (E : is_derive (fun z => 2 * exp (- (1 / 2 * z) + K)) z (- exp (- (1 / 2 * z) + K))) by (auto_derive; [exact Logic.I|lra]).
        assert (S := is_derive_plus A (fun z => 2 * exp (- (1 / 2 * z) + K)) z _ _ (DA z Z) E). exact S.
      - intros z [Z _]. unfold f, gamma_weight. rewrite Rmult_1_l.
        replace (exp (- (1 / 2 * z) + K)) with (exp (z / 2 + K) * exp (- z)) by (rewrite <- exp_plus; f_equal; lra).
        assert (Rpower z (a - 1) * exp (- z) <= exp (z / 2 + K) * exp (- z)); [|lra]. apply Rmult_le_compat_r; [apply Rlt_le, exp_pos|apply HK; exact Z]. }
    assert (P := exp_pos (- (1 / 2 * x) + K)). lra.
  - destruct (mono_lim0 A (A 1 - Rpower 1 a / a)) as [l0 [L0 B0]].
    + intros x y X Y _. apply INC; assumption.
    + intros x X Y. assert (Q := decr_pos (fun z => A z - Rpower z a / a) (fun z => f z - Rpower z (a - 1))).
      assert (T : A 1 - Rpower 1 a / a <= A x - Rpower x a / a).
      { apply Q; [|exact X|exact Y|].
        - intros z Z. assert (E : is_derive (fun z => Rpower z a / a) z (Rpower z (a - 1))).
          { assert (E := is_derive_scal_l (fun z => Rpower z a) z _ (/ a) (rpower_derive a z Z)).
            match type of E with is_derive _ _ ?d => replace (Rpower z (a - 1)) with d; [exact E|] end. unfold scal. cbn. unfold mult. cbn. field. lra. }
          assert (S := is_derive_minus A (fun z => Rpower z a / a) z _ _ (DA z Z) E). exact S.
        - intros z Z. unfold f, gamma_weight. rewrite Rmult_1_l.
          assert (exp (- z) <= 1) by (rewrite <- exp_0; apply Rlt_le, exp_increasing; lra).
          assert (PP : 0 < Rpower z (a - 1)) by apply exp_pos. nra. }
      assert (0 < Rpower x a / a) by (apply Rdiv_lt_0_compat; [apply exp_pos|exact A0]). lra.
    + exists A, l0, lp. split; [|split; [exact DA|split; [exact L0|exact LP]]].
      assert (l0 <= A 1) by (apply B0; lra). assert (A 2 <= lp) by (apply BP; lra). assert (A 1 < A 2); [|lra].
      destruct (MVT_gen A 1 2 f) as [c [Hc E]].
      * intros z Z. rewrite Rmin_left, Rmax_right in Z by lra. apply DA. lra.
      * intros z Z. rewrite Rmin_left, Rmax_right in Z by lra. apply derivable_continuous_pt. exists (f z). apply is_derive_Reals, DA. lra.
      * assert (P := gamma_weight_pos a 1 c). fold f in P. lra.
Qed.
(** the weight with another rate *)
Lemma gamma_primitives a : 0 < a -> exists G, 0 < G /\ forall b, 0 < b -> exists (A : R -> R) (l0 lp : R), lp - l0 = Rpower b (- a) * G /\
  (forall x, 0 < x -> is_derive A x (gamma_weight a b x)) /\ filterlim A (at_right 0) (locally l0) /\ is_lim A p_infty lp.
Proof.
  intros A0. destruct (gamma_primitive a A0) as [A [l0 [lp [LL [D [L0 LP]]]]]]. exists (lp - l0). split; [lra|]. intros b B0.
  set (q := Rpower b (- a)). assert (Q : 0 < q) by apply exp_pos.
  exists (fun x => q * A (b * x)), (q * l0), (q * lp). split; [ring|]. split; [|split].
  - intros x X. assert (BX : 0 < b * x) by (apply Rmult_lt_0_compat; assumption).
    assert (E : is_derive (fun x => b * x) x b) by (auto_derive; [exact Logic.I|ring]).
    assert (S := is_derive_comp A (fun x => b * x) x _ _ (D (b * x) BX) E).
    assert (T := is_derive_scal (fun x => A (b * x)) x q _ S).
    match type of T with is_derive _ _ ?d => replace (gamma_weight a b x) with d; [exact T|] end.
    unfold scal. cbn. unfold mult. cbn. unfold gamma_weight, q. rewrite Rmult_1_l. rewrite <- (Rpower_mult_distr b x) by assumption.
    replace (- a) with (- (a - 1) + - (1)) by ring. rewrite Rpower_plus, !Rpower_Ropp, Rpower_1 by exact B0. field. split; [|apply Rgt_not_eq, exp_pos]. lra.
  - apply (filterlim_comp _ _ _ (fun x => A (b * x)) (fun y => q * y) (at_right 0) (locally l0) (locally (q * l0))).
    + apply (filterlim_comp _ _ _ (fun x => b * x) A (at_right 0) (at_right 0) (locally l0)); [|exact L0].
      intros P [eps HP]. assert (EP : 0 < eps / b) by (apply Rdiv_lt_0_compat; [apply cond_pos|exact B0]). exists (mkposreal _ EP). intros y Y YP.
      apply HP; [|apply Rmult_lt_0_compat; assumption].
      unfold ball in *. cbn in *. unfold AbsRing_ball, abs, minus, plus, opp in *. cbn in *. rewrite Ropp_0, Rplus_0_r in *.
      rewrite Rabs_mult, (Rabs_right b) by lra. apply (Rmult_lt_compat_l b) in Y; [|exact B0]. replace (b * (eps / b)) with (pos eps) in Y by (field; lra). exact Y.
    + apply (filterlim_scal_r (K := R_AbsRing) (V := R_NormedModule) q l0).
  - apply (is_lim_scal_l (fun x => A (b * x)) q p_infty lp).
    apply (is_lim_comp A (fun x => b * x) p_infty (Finite lp) p_infty); [exact LP| |].
    + apply is_lim_spec. intros M. exists (M / b). intros x X. apply (Rmult_lt_compat_l b) in X; [|exact B0]. replace (b * (M / b)) with M in X by (field; lra). exact X.
    + exists 0. intros x _ H. discriminate H.
Qed.
Lemma gamma_mass a : 0 < a -> exists G, 0 < G /\ forall b, 0 < b -> gamma_integral a b (fun _ => 1) (Rpower b (- a) * G).
Proof.
  intros A0. destruct (gamma_primitives a A0) as [G [G0 H]]. exists G. split; [exact G0|]. intros b B0. destruct (H b B0) as [A [l0 [lp [E [D [L0 LP]]]]]].
  unfold gamma_integral. apply (gen_pos_ext (gamma_weight a b)); [intros x _; ring|]. rewrite <- E.
  apply (gen_pos (gamma_weight a b) A l0 lp); [exact D| |exact L0|exact LP]. intros x X. apply gamma_weight_cont; exact X.
Qed.
Lemma gamma_scal a b f m c : gamma_integral a b f m -> gamma_integral a b (fun x => c * f x) (c * m).
Proof.
  intros H. unfold gamma_integral. apply (gen_pos_ext (fun x => scal c (f x * gamma_weight a b x))).
  - intros x _. unfold scal. cbn. unfold mult. cbn. ring.
  - apply (is_RInt_gen_scal (V := R_NormedModule)). exact H.
Qed.
Lemma gamma_mean_const a b c : 0 < a -> 0 < b -> gamma_mean a b (fun _ => c) c.
Proof.
  intros A0 B0. destruct (gamma_mass a A0) as [G [G0 H]]. exists (Rpower b (- a) * G). split; [apply Rmult_lt_0_compat; [apply exp_pos|exact G0]|].
  split; [apply H, B0|]. assert (Q := gamma_scal a b _ _ c (H b B0)). unfold gamma_integral in *. eapply gen_pos_ext; [|exact Q]. intros x _. cbv beta. ring.
Qed.
(** Laplace transform of the gamma distribution *)
Lemma gamma_mean_exp a b c u : 0 < a -> 0 < b -> 0 <= u -> gamma_mean a b (fun x => c * exp (- (u * x))) (c * Rpower (1 + u / b) (- a)).
Proof.
  intros A0 B0 U. destruct (gamma_mass a A0) as [G [G0 H]]. exists (Rpower b (- a) * G). split; [apply Rmult_lt_0_compat; [apply exp_pos|exact G0]|].
  split; [apply H, B0|].
  assert (UB : 0 < 1 + u / b). { assert (0 <= u / b); [|lra]. apply Rmult_le_pos; [exact U|apply Rlt_le, Rinv_0_lt_compat, B0]. }
  assert (Q := gamma_scal a (b + u) _ _ c (H (b + u) ltac:(lra))).
  replace (c * Rpower (1 + u / b) (- a) * (Rpower b (- a) * G)) with (c * (Rpower (b + u) (- a) * G)).
  - unfold gamma_integral in *. eapply gen_pos_ext; [|exact Q]. intros x _. cbv beta. unfold gamma_weight.
    replace (- ((b + u) * x)) with (- (u * x) + - (b * x)) by ring. rewrite exp_plus. ring.
  - replace (b + u) with ((1 + u / b) * b) by (field; lra). rewrite <- Rpower_mult_distr by assumption. ring.
Qed.
(** the next power of x: integration by parts *)
Definition tail_weight (p b x : R) : R := Rpower x p * exp (- (b * x)).
Lemma primitive_next (p b : R) (A : R -> R) (l0 lp : R) : 0 < p -> 0 < b ->
  (forall x, 0 < x -> is_derive A x (tail_weight (p - 1) b x)) -> filterlim A (at_right 0) (locally l0) -> is_lim A p_infty lp ->
  let A' := fun x => (p * A x - tail_weight p b x) / b in
  (forall x, 0 < x -> is_derive A' x (tail_weight p b x)) /\ filterlim A' (at_right 0) (locally (p * l0 / b)) /\ is_lim A' p_infty (p * lp / b).
Proof.
  intros P B D L0 LP A'. split; [|split].
  - intros x X. assert (W := weight_derive p b x X).
    assert (S1 := is_derive_scal A x p _ (D x X)). assert (S2 := is_derive_minus _ _ x _ _ S1 W). assert (S3 := is_derive_scal _ x (/ b) _ S2).
    match type of S3 with is_derive _ _ ?d => replace (tail_weight p b x) with d end.
    + eapply is_derive_ext; [|exact S3]. intros t. unfold A', tail_weight, minus, plus, opp. cbn. unfold Rdiv. ring.
    + unfold minus, plus, opp. cbn. unfold scal. cbn. unfold mult. cbn. unfold tail_weight. field. lra.
  - assert (Z := weight_lim_0 p b P B).
    assert (M : filterlim (fun x => (fun xy : R * R => (p * fst xy - snd xy) / b) (A x, tail_weight p b x)) (at_right 0) (locally ((fun xy : R * R => (p * fst xy - snd xy) / b) (l0, 0)))).
    { apply (filterlim_comp _ _ _ (fun x => (A x, tail_weight p b x)) (fun xy : R * R => (p * fst xy - snd xy) / b) (at_right 0) (filter_prod (locally l0) (locally 0)) _).
      - apply filterlim_pair; [exact L0|exact Z].
      - assert (C : continuous (fun xy : R * R => (p * fst xy - snd xy) / b) (l0, 0)).
        { apply (continuous_mult (fun xy : R * R => p * fst xy - snd xy) (fun _ => / b)); [|apply continuous_const].
          apply (continuous_minus (fun xy : R * R => p * fst xy) (fun xy : R * R => snd xy)); [|apply continuous_snd].
          apply (continuous_mult (fun _ => p) (fun xy : R * R => fst xy)); [apply continuous_const|apply continuous_fst]. }
        intros Q HQ. specialize (C Q HQ). destruct C as [eps HE].
        apply (Filter_prod _ _ _ (fun x => ball l0 eps x) (fun y => ball 0 eps y)); [exists eps; auto|exists eps; auto|].
        intros x y HX HY. apply (HE (x, y)). split; assumption. }
    cbn [fst snd] in M. rewrite Rminus_0_r in M. exact M.
  - assert (Z := weight_lim_p p b B). replace (p * lp / b) with (/ b * (p * lp - 0)) by (field; lra).
    apply (is_lim_ext (fun x => / b * (p * A x - tail_weight p b x))); [intros x; unfold A', Rdiv; ring|].
    apply (is_lim_scal_l (fun x => p * A x - tail_weight p b x) (/ b) p_infty (p * lp - 0)).
    apply (is_lim_minus' (fun x => p * A x) (tail_weight p b) p_infty (p * lp) 0); [|exact Z].
    apply (is_lim_scal_l A p p_infty lp). exact LP.
Qed.
Lemma gamma_moments a b : 0 < a -> 0 < b -> gamma_mean a b (fun x => x) (a / b) /\ gamma_mean a b (fun x => x ^ 2) (a * (a + 1) / b ^ 2).
Proof.
  intros A0 B0. destruct (gamma_primitives a A0) as [G [G0 H]]. destruct (H b B0) as [A [l0 [lp [E [D [L0 LP]]]]]].
  assert (M1 : gamma_integral a b (fun _ => 1) (Rpower b (- a) * G)).
  { unfold gamma_integral. apply (gen_pos_ext (gamma_weight a b)); [intros x _; ring|]. rewrite <- E.
    apply (gen_pos (gamma_weight a b) A l0 lp); [exact D| |exact L0|exact LP]. intros x X. apply gamma_weight_cont; exact X. }
  assert (MP : 0 < Rpower b (- a) * G) by (apply Rmult_lt_0_compat; [apply exp_pos|exact G0]).
  destruct (primitive_next a b A l0 lp A0 B0 D L0 LP) as [D1 [L1 LP1]]. cbv zeta in D1, L1, LP1.
  set (A1 := fun x => (a * A x - tail_weight a b x) / b) in *.
  assert (T1 : 0 < a + 1) by lra. assert (D1' : forall x, 0 < x -> is_derive A1 x (tail_weight (a + 1 - 1) b x)) by (intros x X; replace (a + 1 - 1) with a by ring; apply D1, X).
  destruct (primitive_next (a + 1) b A1 _ _ T1 B0 D1' L1 LP1) as [D2 [L2 LP2]]. cbv zeta in D2, L2, LP2.
  split; exists (Rpower b (- a) * G); (split; [exact MP|split; [exact M1|]]); unfold gamma_integral.
  - apply (gen_pos_ext (tail_weight a b)).
    + intros x X. unfold tail_weight, gamma_weight. replace (Rpower x a) with (Rpower x (a - 1 + 1)) by (f_equal; ring). rewrite rpower_succ by exact X. ring.
    + rewrite <- E. replace (a / b * (lp - l0)) with (a * lp / b - a * l0 / b) by (field; lra).
      apply (gen_pos (tail_weight a b) A1); [exact D1| |exact L1|exact LP1]. intros x X. apply weight_cont; exact X.
  - apply (gen_pos_ext (tail_weight (a + 1) b)).
    + intros x X. unfold tail_weight, gamma_weight. rewrite rpower_succ by exact X. replace (Rpower x a) with (Rpower x (a - 1 + 1)) by (f_equal; ring). rewrite rpower_succ by exact X. ring.
    + rewrite <- E. replace (a * (a + 1) / b ^ 2 * (lp - l0)) with ((a + 1) * (a * lp / b) / b - (a + 1) * (a * l0 / b) / b) by (field; lra).
      eapply (gen_pos (tail_weight (a + 1) b)); [exact D2| |exact L2|exact LP2]. intros x X. apply weight_cont; exact X.
Qed.
(** the mean is unique *)
Lemma gamma_integral_unique a b f m m' : gamma_integral a b f m -> gamma_integral a b f m' -> m = m'.
Proof.
  intros H H'. assert (Q := is_RInt_gen_unique (V := R_CompleteNormedModule) _ _ H). assert (Q' := is_RInt_gen_unique (V := R_CompleteNormedModule) _ _ H'). congruence.
Qed.
Lemma gamma_mean_unique a b f m m' : gamma_mean a b f m -> gamma_mean a b f m' -> m = m'.
Proof.
  intros [M [P [H1 H2]]] [M' [P' [H1' H2']]]. assert (E := gamma_integral_unique _ _ _ _ _ H1 H1'). subst M'.
  assert (E := gamma_integral_unique _ _ _ _ _ H2 H2'). apply (Rmult_eq_reg_r M); [exact E|lra].
Qed.
Lemma gamma_mean_ext a b f g m : (forall x, 0 < x -> f x = g x) -> gamma_mean a b f m -> gamma_mean a b g m.
Proof.
  intros E [M [P [H1 H2]]]. exists M. split; [exact P|split; [exact H1|]]. unfold gamma_integral. eapply gen_pos_ext; [|exact H2]. intros x X. cbv beta. rewrite E by exact X. reflexivity.
Qed.

(** ** The Poisson distribution *)
Lemma ser_ext (f g : nat -> R) (l : R) : (forall n, f n = g n) -> is_series f l -> is_series g l.
Proof. intros E H. apply (is_series_ext f g l E H). Qed.
Lemma poisson_exp lam q c : poisson_mean lam (fun n => c * q ^ n) (c * exp (- (lam * (1 - q)))).
Proof.
  unfold poisson_mean. assert (S := is_exp_Reals (lam * q)). unfold is_pseries in S.
  assert (T := is_series_scal (c * exp (- lam)) _ _ S).
  match type of T with is_series _ ?l => replace (c * exp (- (lam * (1 - q)))) with l end.
  - eapply ser_ext; [|exact T]. intros n. unfold scal. cbn. unfold mult. cbn. unfold poisson_mass. rewrite pow_n_pow, Rpow_mult_distr. unfold Rdiv. ring.
  - unfold scal. cbn. unfold mult. cbn. rewrite Rmult_assoc, <- exp_plus. f_equal. f_equal. ring.
Qed.
Lemma poisson_one lam : is_series (poisson_mass lam) 1.
Proof.
  assert (H := poisson_exp lam 1 1). unfold poisson_mean in H. rewrite Rminus_diag_eq, Rmult_0_r, Ropp_0, exp_0, Rmult_1_l in H by reflexivity.
  eapply ser_ext; [|exact H]. intros n. cbv beta. rewrite pow1. ring.
Qed.
(** sum of n p_n: shift by one *)
Lemma poisson_shift lam (F : nat -> R) (m : R) : is_series (fun n => poisson_mass lam n * F n) m ->
  is_series (fun n => poisson_mass lam n * (INR n * F (pred n))) (lam * m).
Proof.
  intros H. apply (is_series_decr_1 (K := R_AbsRing) (V := R_NormedModule)).
  assert (T := is_series_scal lam _ _ H).
  match type of T with is_series _ ?l => match goal with |- is_series _ ?l' => replace l' with l end end.
  - eapply ser_ext; [|exact T]. intros n. unfold scal. cbn -[INR fact]. unfold mult. cbn -[INR fact]. unfold poisson_mass. cbn [pred pow].
    rewrite fact_simpl, mult_INR. assert (P1 : INR (S n) <> 0) by (apply not_0_INR; lia). assert (P2 : INR (fact n) <> 0) by apply INR_fact_neq_0. field. split; assumption.
  - unfold scal, plus, opp. cbn. unfold mult. cbn. unfold mult. cbn. ring.
Qed.
Lemma poisson_moments lam nu : poisson_mean lam (fun n => INR n + nu) (lam + nu) /\
  poisson_mean lam (fun n => (INR n + nu) * (INR n + nu + 1)) (lam ^ 2 + 2 * (1 + nu) * lam + nu * (nu + 1)).
Proof.
  assert (H0 := poisson_one lam).
  assert (H0' : is_series (fun n => poisson_mass lam n * (fun _ => 1) n) 1) by (eapply ser_ext; [|exact H0]; intros n; cbv beta; ring).
  assert (H1 := poisson_shift lam _ _ H0'). cbv beta in H1.
  assert (H1' : is_series (fun n => poisson_mass lam n * (fun k => INR k) n) (lam * 1)) by (eapply ser_ext; [|exact H1]; intros n; cbv beta; ring).
  assert (H2 := poisson_shift lam _ _ H1'). cbv beta in H2.
  assert (SC : forall c, is_series (fun n => c * poisson_mass lam n) (c * 1)) by (intros c; apply (is_series_scal c _ _ H0)).
  split; unfold poisson_mean.
  - assert (Q := is_series_plus _ _ _ _ H1 (SC nu)).
    match type of Q with is_series _ ?l => replace (lam + nu) with l; [|unfold plus; cbn; ring] end.
    eapply ser_ext; [|exact Q]. intros n. unfold plus. cbn. ring.
  - assert (Q1 := is_series_scal (2 + 2 * nu) _ _ H1). assert (Q := is_series_plus _ _ _ _ (is_series_plus _ _ _ _ H2 Q1) (SC (nu * (nu + 1)))).
    match type of Q with is_series _ ?l => replace (lam ^ 2 + 2 * (1 + nu) * lam + nu * (nu + 1)) with l; [|unfold plus, scal; cbn; unfold mult; cbn; ring] end.
    eapply ser_ext; [|exact Q]. intros n. unfold plus, scal. cbn -[INR]. unfold mult. cbn -[INR].
    destruct n as [|n]; [cbn; ring|]. cbn [pred]. rewrite S_INR. ring.
Qed.
Lemma poisson_scal lam F m c : poisson_mean lam F m -> poisson_mean lam (fun n => c * F n) (c * m).
Proof.
  unfold poisson_mean. intros H. assert (T := is_series_scal c _ _ H). eapply ser_ext; [|exact T]. intros n. unfold scal. cbn. unfold mult. cbn. ring.
Qed.
Lemma poisson_ext lam F G m : (forall n, F n = G n) -> poisson_mean lam F m -> poisson_mean lam G m.
Proof. unfold poisson_mean. intros E H. eapply ser_ext; [|exact H]. intros n. cbv beta. rewrite E. reflexivity. Qed.
Lemma poisson_unique lam F m m' : poisson_mean lam F m -> poisson_mean lam F m' -> m = m'.
Proof. unfold poisson_mean. intros H H'. apply is_series_unique in H. apply is_series_unique in H'. congruence. Qed.
