(** C87: European options under the Heston model
    (models/heston/approximations/european_option.py). *)
From Coq Require Import Reals Lra Psatz ZArith.
From Coquelicot Require Import Coquelicot.
From Coq Require Import List.
From Verif Require Import TensorModel InterpModel IntegrateModel BoundedCalModel HestonFourierModel HestonFourierSpec RIntAux DirichletProofs ComplexProofs HestonFourierProofs.
Import ListNotations.
Open Scope R_scope.

(** ** The characteristic function solves the backward equation *)
Section Equation.
Variables kappa theta sigma rho u : R.
Hypothesis Hk : 0 < kappa.
Hypothesis Hs : 0 < sigma.
Hypothesis Hr : -1 <= rho <= 1.
Hypothesis Hks : rho * sigma <= 2 * kappa.
Let D := bigd kappa sigma rho u.
Let phi := transform kappa theta sigma rho u.
(** exp(i u x) phi. *)
Definition wave (f : R -> R -> C) (t x v : R) : C := Cmult (cexp (0, u * x)) (f t v).
Let G := wave phi.
Let iu : C := (0, u).
Let dt (t v : R) : C := Cplus (Cmult (aa kappa theta) (D t)) (Cmult (riccati kappa sigma rho u (D t)) (v, 0)).

Lemma wave_x (f : R -> R -> C) (k : C) t x v : is_cderive (fun x => Cmult k (wave f t x v)) x (Cmult k (Cmult iu (wave f t x v))).
Proof using.
  clear. apply (cd_scal k (fun x => wave f t x v)). unfold wave.
  apply (cd_ext _ _ (Cplus (Cmult (Cmult iu (cexp (0, u * x))) (f t v)) (Cmult (cexp (0, u * x)) 0))); [|ring].
  apply (cd_mult (fun x => cexp (0, u * x)) (fun _ => f t v)); [|apply cd_const]. apply (cd_exp (fun x => (0, u * x))). split; cbn; [apply d_const|].
  apply (d_ext _ _ (0 * x + u * 1)); [|ring]. apply (d_mult (fun _ => u) (fun t => t)); [apply d_const|apply (is_derive_id (K := R_AbsRing))].
Qed.
Lemma wave_v (k : C) t x v : is_cderive (fun v => Cmult k (G t x v)) v (Cmult k (Cmult (D t) (G t x v))).
Proof using.
  clear. apply (cd_scal k (fun v => G t x v)). unfold G, wave.
  apply (cd_ext _ _ (Cmult (cexp (0, u * x)) (Cmult (D t) (phi t v)))); [|ring]. apply (cd_scal _ (fun v => phi t v)).
  unfold phi, transform. apply (cd_exp (fun v => Cplus (Cmult (aa kappa theta) (ll kappa sigma rho u t)) (Cmult (bigd kappa sigma rho u t) (v, 0)))). apply (cd_ext _ _ (Cplus 0 (Cmult (D t) (1, 0)))).
  - apply (cd_plus (fun _ => Cmult (aa kappa theta) (ll kappa sigma rho u t)) (fun v => Cmult (bigd kappa sigma rho u t) (v, 0))); [apply cd_const|]. apply (cd_scal _ (fun v => (v, 0))). apply cd_real. apply (is_derive_id (K := R_AbsRing)).
  - change (1, 0) with (RtoC 1). ring.
Qed.
Lemma wave_t t x v : 0 <= t -> is_cderive (fun t => G t x v) t (Cmult (dt t v) (G t x v)).
Proof using Hk Hs Hr Hks.
  intros Ht. unfold G, wave.
  apply (cd_ext _ _ (Cmult (cexp (0, u * x)) (Cmult (dt t v) (phi t v)))); [|ring]. apply (cd_scal _ (fun t => phi t v)).
  unfold phi, transform. apply (cd_exp (fun t => Cplus (Cmult (aa kappa theta) (ll kappa sigma rho u t)) (Cmult (bigd kappa sigma rho u t) (v, 0)))).
  unfold dt. apply (cd_plus (fun t => Cmult (aa kappa theta) (ll kappa sigma rho u t)) (fun t => Cmult (bigd kappa sigma rho u t) (v, 0))).
  - apply (cd_scal _ (ll kappa sigma rho u)). apply ll_derive; assumption.
  - apply (cd_ext _ _ (Cplus (Cmult (riccati kappa sigma rho u (D t)) (v, 0)) (Cmult (D t) 0))); [|ring].
    apply (cd_mult (bigd kappa sigma rho u) (fun _ => (v, 0))); [apply bigd_derive; assumption|apply cd_const].
Qed.
Lemma equation t v : dt t v =
  Cplus (Cplus (Cplus (Cplus (Cmult (RtoC (- (v / 2))) iu) (Cmult (RtoC (kappa * (theta - v))) (D t)))
     (Cmult (RtoC (v / 2)) (Cmult iu iu))) (Cmult (RtoC (rho * sigma * v)) (Cmult iu (D t)))) (Cmult (RtoC (sigma ^ 2 * v / 2)) (Cmult (D t) (D t))).
Proof using.
  clear. unfold dt, riccati, iu, aa, beta, gamma, sig2. generalize (D t). intros [a b]. apply c_eq; cbn; field.
Qed.
End Equation.

Lemma backward_parts kappa theta sigma rho u :
  0 < kappa -> 0 < sigma -> -1 <= rho <= 1 -> rho * sigma <= 2 * kappa ->
  heston_backward kappa theta sigma rho (fun t x v => fst (wave u (transform kappa theta sigma rho u) t x v)) /\
  heston_backward kappa theta sigma rho (fun t x v => snd (wave u (transform kappa theta sigma rho u) t x v)).
Proof.
  intros Hk Hs Hr Hks. set (phi := transform kappa theta sigma rho u). set (G := wave u phi). set (D := bigd kappa sigma rho u).
  set (dt := fun t v => Cplus (Cmult (aa kappa theta) (D t)) (Cmult (riccati kappa sigma rho u (D t)) (v, 0)) : C).
  set (iu := (0, u) : C).
  pose proof (wave_x u phi) as WX. pose proof (wave_v kappa theta sigma rho u) as WV. pose proof (wave_t kappa theta sigma rho u Hk Hs Hr Hks) as WT.
  pose proof (equation kappa theta sigma rho u) as EQ.
  assert (one : forall z : C, Cmult 1 z = z) by (intros; ring).
  assert (K : forall pr : C -> R, (pr = fst \/ pr = snd) ->
    (forall f x l, is_cderive f x l -> is_derive (fun x => pr (f x)) x (pr l)) ->
    (forall (k : R) (z : C), pr (Cmult (RtoC k) z) = k * pr z) -> (forall a b : C, pr (Cplus a b) = pr a + pr b) ->
    heston_backward kappa theta sigma rho (fun t x v => pr (G t x v))).
  { intros pr _ P1 P2 P3.
    exists (fun t x v => pr (Cmult (dt t v) (G t x v))), (fun t x v => pr (Cmult iu (G t x v))), (fun t x v => pr (Cmult (D t) (G t x v))),
      (fun t x v => pr (Cmult iu (Cmult iu (G t x v)))), (fun t x v => pr (Cmult iu (Cmult (D t) (G t x v)))), (fun t x v => pr (Cmult (D t) (Cmult (D t) (G t x v)))).
    split; intros t x v Ht.
    - split; [|split; [|split; [|split; [|split]]]].
      + apply P1. apply WT. exact Ht.
      + apply P1. apply (cd_fun (fun x => Cmult 1 (G t x v))); [intros; apply one|]. rewrite <- (one (Cmult iu (G t x v))). apply WX.
      + apply P1. apply (cd_fun (fun v => Cmult 1 (G t x v))); [intros; apply one|]. rewrite <- (one (Cmult (D t) (G t x v))). apply WV.
      + apply (P1 (fun x => Cmult iu (G t x v))). apply WX.
      + apply (P1 (fun v => Cmult iu (G t x v))). apply WV.
      + apply (P1 (fun v => Cmult (D t) (G t x v))). apply WV.
    - assert (E : dt t v = Cplus (Cplus (Cplus (Cplus (Cmult (RtoC (- (v / 2))) iu) (Cmult (RtoC (kappa * (theta - v))) (D t)))
     (Cmult (RtoC (v / 2)) (Cmult iu iu))) (Cmult (RtoC (rho * sigma * v)) (Cmult iu (D t)))) (Cmult (RtoC (sigma ^ 2 * v / 2)) (Cmult (D t) (D t)))) by apply EQ.
      rewrite E. rewrite <- !P2, <- !P3. f_equal. ring. }
  split; apply K.
  - left; reflexivity.
  - intros f x l [A _]. exact A.
  - intros k z. cbn. ring.
  - reflexivity.
  - right; reflexivity.
  - intros f x l [_ A]. exact A.
  - intros k z. cbn. ring.
  - reflexivity.
Qed.

(** For a positive mean reversion and volatility of variance with
    rho * volvol <= 2 * mean_reversion, at every real frequency the characteristic
    function is defined at every expiry and equals 1 at expiry zero; multiplied by
    exp(i u x) both its real and its imaginary part solve the Heston model's
    backward equation, that is they satisfy the equation of E(cos(u X)) and
    E(sin(u X)).  Missing for the full property: that this equation has only one
    bounded solution (so that it is the expectation), and the remaining range
    rho * volvol > 2 * mean_reversion. *)
Theorem C87_transform_partial (kappa theta sigma rho u : R) :
  0 < kappa -> 0 < sigma -> -1 <= rho <= 1 -> rho * sigma <= 2 * kappa ->
  exists phi : R -> R -> C,
    (forall t v, 0 <= t -> char_fun kappa theta sigma rho v t u = Some (phi t v)) /\
    (forall v, phi 0 v = RtoC 1) /\
    heston_backward kappa theta sigma rho (fun t x v => cos (u * x) * fst (phi t v) - sin (u * x) * snd (phi t v)) /\
    heston_backward kappa theta sigma rho (fun t x v => cos (u * x) * snd (phi t v) + sin (u * x) * fst (phi t v)).
Proof.
  intros Hk Hs Hr Hks. exists (transform kappa theta sigma rho u).
  split; [intros t v Ht; apply char_fun_transform; assumption|].
  split; [intros v; apply transform_0; assumption|].
  destruct (backward_parts kappa theta sigma rho u Hk Hs Hr Hks) as [A B].
  assert (W1 : forall t x v, fst (wave u (transform kappa theta sigma rho u) t x v) =
    cos (u * x) * fst (transform kappa theta sigma rho u t v) - sin (u * x) * snd (transform kappa theta sigma rho u t v)).
  { intros t x v. unfold wave. generalize (transform kappa theta sigma rho u t v). intros [a b]. cbn. rewrite exp_0. ring. }
  assert (W2 : forall t x v, snd (wave u (transform kappa theta sigma rho u) t x v) =
    cos (u * x) * snd (transform kappa theta sigma rho u t v) + sin (u * x) * fst (transform kappa theta sigma rho u t v)).
  { intros t x v. unfold wave. generalize (transform kappa theta sigma rho u t v). intros [a b]. cbn. rewrite exp_0. ring. }
  assert (X : forall g h : R -> R -> R -> R, (forall t x v, g t x v = h t x v) -> heston_backward kappa theta sigma rho g -> heston_backward kappa theta sigma rho h).
  { intros g h E (gt & gx & gv & gxx & gxv & gvv & Q1 & Q2). exists gt, gx, gv, gxx, gxv, gvv. split; [|exact Q2].
    intros t x v Ht. destruct (Q1 t x v Ht) as (E1 & E2 & E3 & E4 & E5 & E6).
    split; [|split; [|split; [|split; [|split]]]]; try assumption.
    - apply (is_derive_ext (fun t => g t x v)); [intros; apply E|exact E1].
    - apply (is_derive_ext (fun x => g t x v)); [intros; apply E|exact E2].
    - apply (is_derive_ext (fun v => g t x v)); [intros; apply E|exact E3]. }
  split; [exact (X _ _ W1 A)|exact (X _ _ W2 B)].
Qed.
Print Assumptions C87_transform_partial.
(** The parameters of the docstring's example. *)
Example C87_transform_case : 0 < 2 /\ 0 < 15 / 100 /\ -1 <= 3 / 10 <= 1 /\ 3 / 10 * (15 / 100) <= 2 * 2.
Proof. lra. Qed.

(** Like every characteristic function it has modulus at most one, for
    nonnegative variance, mean reversion level and expiry. *)
Theorem C87_modulus (kappa theta sigma rho u t v : R) :
  0 < kappa -> 0 < sigma -> -1 <= rho <= 1 -> rho * sigma <= 2 * kappa -> 0 <= theta -> 0 <= t -> 0 <= v ->
  exists z, char_fun kappa theta sigma rho v t u = Some z /\ fst z ^ 2 + snd z ^ 2 <= 1.
Proof.
  intros Hk Hs Hr Hks Hth Ht Hv. exists (transform kappa theta sigma rho u t v).
  split; [apply char_fun_transform; assumption|].
  pose proof (transform_mod kappa theta sigma rho u Hk Hs Hr Hks t v Ht Hv Hth) as M.
  pose proof (cmod_sq (transform kappa theta sigma rho u t v)) as S1. pose proof (Cmod_ge_0 (transform kappa theta sigma rho u t v)).
  set (m := Cmod _) in *. set (z := transform kappa theta sigma rho u t v) in *. clearbody m z. nra.
Qed.
Print Assumptions C87_modulus.

(** The integrand decreases at least like the inverse square: truncating the
    integration at [U] drops at most 1 / U. *)
Lemma integrand_le (z : C) u k : 0 < u -> fst z ^ 2 + snd z ^ 2 <= 1 ->
  Rabs (((fst z + snd z / u) * cos (u * k) + (snd z - fst z / u) * sin (u * k)) / (1 + u * u)) <= 1 / u ^ 2.
Proof.
  intros Hu M. pose proof (sin2_cos2 (u * k)) as SC. unfold Rsqr in SC.
  set (c := cos (u * k)) in *. set (s := sin (u * k)) in *. set (a := fst z) in *. set (b := snd z) in *. clearbody a b c s.
  set (w := (a + b / u) * c + (b - a / u) * s).
  assert (Q : w * w <= (1 + u * u) / (u * u)).
  { apply Rle_trans with ((a + b / u) ^ 2 + (b - a / u) ^ 2).
    - unfold w. set (p := a + b / u). set (q := b - a / u).
      assert (0 <= (p * s - q * c) * (p * s - q * c)) by exact (Rle_0_sqr _).
      replace (p ^ 2 + q ^ 2) with ((p ^ 2 + q ^ 2) * (s * s + c * c)) by (rewrite SC; ring). nra.
    - replace ((a + b / u) ^ 2 + (b - a / u) ^ 2) with ((a ^ 2 + b ^ 2) * ((1 + u * u) / (u * u))) by (field; lra).
      assert (0 < (1 + u * u) / (u * u)) by (apply Rdiv_lt_0_compat; nra). nra. }
  unfold Rdiv. rewrite Rabs_mult, Rabs_inv, (Rabs_pos_eq (1 + u * u)) by nra. rewrite Rmult_1_l.
  apply Rsqr_incr_0_var; [|left; apply Rinv_0_lt_compat; nra]. unfold Rsqr.
  replace (Rabs w * / (1 + u * u) * (Rabs w * / (1 + u * u))) with ((Rabs w * Rabs w) * / ((1 + u * u) * (1 + u * u))) by (field; nra).
  replace (Rabs w * Rabs w) with (w * w) by (rewrite <- Rabs_mult; symmetry; apply Rabs_pos_eq; exact (Rle_0_sqr w)).
  apply Rle_trans with ((1 + u * u) / (u * u) * / ((1 + u * u) * (1 + u * u))).
  - apply Rmult_le_compat_r; [left; apply Rinv_0_lt_compat; nra|exact Q].
  - replace ((1 + u * u) / (u * u) * / ((1 + u * u) * (1 + u * u))) with (/ ((u * u) * (1 + u * u))) by (field; split; nra).
    replace (/ u ^ 2 * / u ^ 2) with (/ (u * u * (u * u))) by (field; nra).
    apply Rinv_le_contravar; [apply Rmult_lt_0_compat; nra|]. nra.
Qed.
Theorem C87_tail (kappa theta sigma rho t v k u : R) :
  0 < kappa -> 0 < sigma -> -1 <= rho <= 1 -> rho * sigma <= 2 * kappa -> 0 <= theta -> 0 <= t -> 0 <= v -> 0 < u ->
  exists w, integrand_function (char_fun kappa theta sigma rho v t) u k = Some w /\ Rabs w <= 1 / u ^ 2.
Proof.
  intros Hk Hs Hr Hks Hth Ht Hv Hu. destruct (C87_modulus kappa theta sigma rho u t v Hk Hs Hr Hks Hth Ht Hv) as (z & E & M).
  eexists. split.
  - unfold integrand_function. destruct (Req_EM_T u 0); [exfalso; lra|]. rewrite E. reflexivity.
  - apply integrand_le; assumption.
Qed.
Print Assumptions C87_tail.

(** ** The inversion formula *)
Lemma expect_add law f g : expect law (fun x => f x + g x) = expect law f + expect law g.
Proof. induction law as [|[p x] law IH]; cbn; [ring|]. unfold expect in IH. rewrite IH. ring. Qed.
Lemma expect_scal law c f : expect law (fun x => c * f x) = c * expect law f.
Proof. induction law as [|[p x] law IH]; cbn; [ring|]. unfold expect in IH. rewrite IH. ring. Qed.
Lemma expect_ext law f g : (forall x, f x = g x) -> expect law f = expect law g.
Proof. intros E. induction law as [|[p x] law IH]; cbn; [reflexivity|]. unfold expect in IH. rewrite IH, E. reflexivity. Qed.
Lemma expect_integrand law u k : u <> 0 ->
  ((fst (characteristic law u) + snd (characteristic law u) / u) * cos (u * k) + (snd (characteristic law u) - fst (characteristic law u) / u) * sin (u * k)) / (1 + u * u)
  = expect law (fun x => kernel (x - k) u).
Proof.
  intros N. cbn [fst snd characteristic].
  assert (P : 0 < 1 + u * u) by nra.
  rewrite (expect_ext law (fun x => kernel (x - k) u) (fun x => (cos (u * k) / (1 + u * u) - sin (u * k) / u / (1 + u * u)) * cos (u * x)
      + (sin (u * k) / (1 + u * u) + cos (u * k) / u / (1 + u * u)) * sin (u * x))).
  - rewrite expect_add, !expect_scal. field. split; first [exact N | lra].
  - intros x. unfold kernel. rewrite sinc_off by exact N. replace (u * (x - k)) with (u * x - u * k) by ring. rewrite cos_minus, sin_minus. field. split; [exact N|lra].
Qed.
Lemma expect_rint law k a b : is_RInt (fun u => expect law (fun x => kernel (x - k) u)) a b (expect law (fun x => RInt (kernel (x - k)) a b)).
Proof.
  induction law as [|[p x] law IH]; cbn.
  - apply (isi_const a b 0). ring.
  - apply (isi_plus (fun u => p * kernel (x - k) u) (fun u => fold_right (fun '(p, x) acc => p * kernel (x - k) u + acc) 0 law) a b
      (p * RInt (kernel (x - k)) a b) (expect law (fun x => RInt (kernel (x - k)) a b))); [|exact IH|reflexivity].
    apply (isi_scal (kernel (x - k)) a b p (RInt (kernel (x - k)) a b)); [|reflexivity].
    apply (RInt_correct (V := R_CompleteNormedModule)). apply kernel_ex.
Qed.
(** Truncation at [U]. *)
Lemma kernel_tail y u : 0 < u -> Rabs (kernel y u) <= 1 / u ^ 2.
Proof.
  intros Hu. pose proof (integrand_le (cos (u * y), sin (u * y)) u 0 Hu) as B. cbn [fst snd] in B.
  rewrite Rmult_0_r, cos_0, sin_0 in B. unfold kernel. rewrite sinc_off by lra.
  replace ((cos (u * y) + sin (u * y) / u) / (1 + u * u)) with (((cos (u * y) + sin (u * y) / u) * 1 + (sin (u * y) - cos (u * y) / u) * 0) / (1 + u * u)).
  - apply B. pose proof (sin2_cos2 (u * y)) as SC. unfold Rsqr in SC. nra.
  - f_equal. ring.
Qed.
Lemma kint_tail U V y : 0 < U -> U <= V -> Rabs (kint V y - kint U y) <= 1 / U.
Proof.
  intros HU HV. unfold kint.
  assert (E : RInt (kernel y) 0 V - RInt (kernel y) 0 U = RInt (kernel y) U V).
  { pose proof (RInt_Chasles (V := R_CompleteNormedModule) (kernel y) 0 U V (kernel_ex y 0 U) (kernel_ex y U V)) as CH.
    rewrite <- CH. unfold plus. cbn. ring. }
  rewrite E. apply Rle_trans with (RInt (fun u => Rabs (kernel y u)) U V).
  { apply abs_RInt_le; [exact HV|apply kernel_ex]. }
  assert (I2 : is_RInt (fun u => 1 / u ^ 2) U V (1 / U - 1 / V)).
  { apply (isi_eq _ U V (- (1 / V) - - (1 / U))); [|ring].
    apply (is_RInt_derive (V := R_CompleteNormedModule) (fun u => - (1 / u))).
    - intros x Hx. rewrite Rmin_left, Rmax_right in Hx by lra. auto_derive; [lra|]. field. lra.
    - intros x Hx. rewrite Rmin_left, Rmax_right in Hx by lra. apply (ex_derive_continuous (V := R_NormedModule)). auto_derive. nra. }
  apply Rle_trans with (RInt (fun u => 1 / u ^ 2) U V).
  { apply RInt_le; [exact HV|apply ex_RInt_norm, kernel_ex|eexists; exact I2|]. intros x Hx. apply kernel_tail. lra. }
  rewrite (is_RInt_unique (V := R_CompleteNormedModule) _ _ _ _ I2).
  assert (0 < 1 / V) by (apply Rdiv_lt_0_compat; lra). lra.
Qed.
Lemma kint_near U y : 0 < U -> Rabs (kint U y - kernel_value y) <= 1 / U.
Proof.
  intros HU. apply le_epsilon. intros e He.
  set (W := exp (Rabs y)). assert (HW : 0 < W) by apply exp_pos. pose proof (Rabs_pos y) as RP.
  set (M := W * (1 + W * (3 + 2 * Rabs y))).
  assert (HM : 0 < M) by (unfold M; apply Rmult_lt_0_compat; [exact HW|]; assert (0 < W * (3 + 2 * Rabs y)) by (apply Rmult_lt_0_compat; lra); lra).
  set (V := Rmax (Rmax U 1) ((M / e) * (M / e))).
  assert (V1 : 1 <= V) by (unfold V; eapply Rle_trans; [|apply Rmax_l]; apply Rmax_r).
  assert (VU : U <= V) by (unfold V; eapply Rle_trans; [|apply Rmax_l]; apply Rmax_l).
  assert (VM : (M / e) * (M / e) <= V) by apply Rmax_r.
  assert (HV : 0 < V) by lra.
  pose proof (kint_rate V y HV) as B1. pose proof (kint_tail U V y HU VU) as B2. fold W in B1.
  assert (SV : M / e <= sqrt V). { rewrite <- (sqrt_square (M / e)) by (left; apply Rdiv_lt_0_compat; lra). apply sqrt_le_1_alt. exact VM. }
  assert (S1 : 1 <= sqrt V) by (rewrite <- sqrt_1; apply sqrt_le_1_alt; exact V1).
  assert (SS : sqrt V * sqrt V = V) by (apply sqrt_sqrt; lra).
  assert (IV : / V <= / sqrt V) by (apply Rinv_le_contravar; [lra|nra]).
  assert (B3 : W * (/ V + W * (3 + 2 * Rabs y) / sqrt V) <= e).
  { apply Rle_trans with (M * / sqrt V).
    - unfold M, Rdiv. replace (W * (1 + W * (3 + 2 * Rabs y)) * / sqrt V) with (W * (/ sqrt V + W * (3 + 2 * Rabs y) * / sqrt V)) by ring.
      apply Rmult_le_compat_l; lra.
    - apply (Rmult_le_reg_r (sqrt V)); [lra|]. rewrite Rmult_assoc, Rinv_l, Rmult_1_r by lra.
      apply Rle_trans with (e * (M / e)); [right; field; lra|apply Rmult_le_compat_l; lra]. }
  replace (kint U y - kernel_value y) with (- (kint V y - kint U y) + (kint V y - kernel_value y)) by ring.
  eapply Rle_trans; [apply Rabs_triang|]. rewrite Rabs_Ropp. lra.
Qed.
Lemma expect_near law (f g : R -> R) e : Forall (fun '(p, _) => 0 <= p) law -> (forall x, Rabs (f x - g x) <= e) ->
  Rabs (expect law f - expect law g) <= e * expect law (fun _ => 1).
Proof.
  intros P B. induction P as [|[p x] law Hp P IH]; cbn; [rewrite Rminus_0_r, Rabs_R0, Rmult_0_r; lra|].
  unfold expect in IH. specialize (B x).
  replace (p * f x + fold_right (fun '(p, x) acc => p * f x + acc) 0 law - (p * g x + fold_right (fun '(p, x) acc => p * g x + acc) 0 law))
    with (p * (f x - g x) + (fold_right (fun '(p, x) acc => p * f x + acc) 0 law - fold_right (fun '(p, x) acc => p * g x + acc) 0 law)) by ring.
  eapply Rle_trans; [apply Rabs_triang|]. rewrite Rabs_mult, (Rabs_pos_eq p) by exact Hp.
  assert (p * Rabs (f x - g x) <= p * e) by (apply Rmult_le_compat_l; assumption). lra.
Qed.

(** For the characteristic function of any law with finitely many values whose
    expected underlying is the forward, the formula of the code with the exact
    integral from 0 to [U] is within strike / (pi U) of the discounted expected
    payoff.  Missing for the full property: the law of the Heston model, which is
    not finite, and the error of the integration rule. *)
Theorem C87_inversion_partial (law : list (R * R)) (strike forward df U : R) (call : bool) :
  is_law law -> martingale law -> 0 < strike -> 0 < forward -> 0 <= df -> 0 < U ->
  exists price,
    price_from (fun u => Some (characteristic law u)) (fun f => Some (RInt (fun u => value_or_zero (f u)) 0 U)) strike forward df (Some call) = Some price /\
    Rabs (price - df * expect law (fun x => Rmax (if call then forward * exp x - strike else strike - forward * exp x) 0)) <= df * strike / (PI * U).
Proof.
  intros [LP L1] MG HK HF HD HU. unfold price_from.
  destruct (Req_EM_T forward 0) as [E|_]; [lra|].
  assert (KF : 0 < strike / forward) by (apply Rdiv_lt_0_compat; assumption).
  destruct (Rle_dec (strike / forward) 0) as [E|_]; [lra|]. cbn [bind].
  set (k := ln (strike / forward)).
  assert (EI : RInt (fun u => value_or_zero (integrand_function (fun u => Some (characteristic law u)) u k)) 0 U = expect law (fun x => kint U (x - k))).
  { apply (is_RInt_unique (V := R_CompleteNormedModule)).
    apply (isi_ext (fun u => expect law (fun x => kernel (x - k) u))); [|apply expect_rint].
    intros u Hu. rewrite Rmin_left, Rmax_right in Hu by lra. unfold integrand_function. destruct (Req_EM_T u 0); [lra|]. cbn [bind value_or_zero].
    symmetry. apply expect_integrand. lra. }
  rewrite EI. clear EI. eexists. split; [reflexivity|].
  pose proof PI_RGT_0 as PP.
  assert (EK : strike = forward * exp k). { unfold k. rewrite exp_ln by exact KF. field. lra. }
  assert (N : Rabs (expect law (fun x => kint U (x - k)) - expect law (fun x => kernel_value (x - k))) <= 1 / U).
  { eapply Rle_trans; [apply expect_near with (e := 1 / U); [exact LP|intros; apply kint_near; exact HU]|]. rewrite L1. lra. }
  set (I0 := expect law (fun x => kint U (x - k))) in *.
  (* the exact value *)
  assert (EV : forward - strike * (1 / 2 + expect law (fun x => kernel_value (x - k)) / PI) = expect law (fun x => Rmax (forward * exp x - strike) 0)).
  { unfold martingale in MG.
    rewrite (expect_ext law (fun x => Rmax (forward * exp x - strike) 0) (fun x => forward * exp x + (- (strike) / PI) * (kernel_value (x - k) + (PI / 2) * 1))).
    - rewrite expect_add, expect_scal, expect_scal, expect_add, expect_scal, MG, L1. field. lra.
    - intros x. unfold kernel_value.
      assert (EX : exp (x - k) * strike = forward * exp x). { rewrite EK at 1. replace (exp (x - k) * (forward * exp k)) with (forward * (exp (x - k) * exp k)) by ring. rewrite <- exp_plus. do 2 f_equal. ring. }
      transitivity (forward * exp x - strike * Rmin 1 (exp (x - k))); [|field; lra].
      unfold Rmin, Rmax. destruct (Rle_dec 1 (exp (x - k))) as [A|A]; destruct (Rle_dec (forward * exp x - strike) 0) as [B|B]; nra. }
  assert (PUT : expect law (fun x => Rmax (strike - forward * exp x) 0) = expect law (fun x => Rmax (forward * exp x - strike) 0) - forward + strike).
  { unfold martingale in MG. rewrite (expect_ext law (fun x => Rmax (strike - forward * exp x) 0) (fun x => Rmax (forward * exp x - strike) 0 + ((- forward) * exp x + strike * 1))).
    - rewrite expect_add, expect_add, expect_scal, expect_scal, MG, L1. ring.
    - intros x. unfold Rmax. destruct (Rle_dec (strike - forward * exp x) 0); destruct (Rle_dec (forward * exp x - strike) 0); lra. }
  set (V0 := expect law (fun x => kernel_value (x - k))) in *.
  assert (B : Rabs (df * (strike / PI * (I0 - V0))) <= df * strike / (PI * U)).
  { rewrite !Rabs_mult, (Rabs_pos_eq df) by exact HD. rewrite (Rabs_pos_eq (strike / PI)) by (left; apply Rdiv_lt_0_compat; lra).
    replace (df * strike / (PI * U)) with (df * (strike / PI * (1 / U))) by (field; lra).
    apply Rmult_le_compat_l; [exact HD|]. apply Rmult_le_compat_l; [left; apply Rdiv_lt_0_compat; lra|exact N]. }
  destruct call.
  - rewrite <- EV. replace ((forward - strike * (1 / 2 + I0 / PI)) * df - df * (forward - strike * (1 / 2 + V0 / PI))) with (- (df * (strike / PI * (I0 - V0)))) by (field; lra).
    rewrite Rabs_Ropp. exact B.
  - rewrite PUT, <- EV. replace ((forward - strike * (1 / 2 + I0 / PI) - forward + strike) * df - df * (forward - strike * (1 / 2 + V0 / PI) - forward + strike)) with (- (df * (strike / PI * (I0 - V0)))) by (field; lra).
    rewrite Rabs_Ropp. exact B.
Qed.
Print Assumptions C87_inversion_partial.
(** A two-point law: the underlying is doubled with probability 1/3, halved with
    probability 2/3. *)
Example C87_law : is_law [(1 / 3, ln 2); (2 / 3, ln (1 / 2))] /\ martingale [(1 / 3, ln 2); (2 / 3, ln (1 / 2))].
Proof.
  split; [split|].
  - repeat constructor; lra.
  - cbn. lra.
  - unfold martingale. cbn. rewrite !exp_ln by lra. lra.
Qed.
