(** Integration by parts for piecewise constant volatilities, and the moments of
    the integrated short rate. *)
From Coquelicot Require Import Coquelicot.
From Coq Require Import ZArith Reals List Bool Arith Lia Lra.
From Verif Require Import TensorModel TensorProofs BrentModel TimeGridModel TimeGridProofs GbmModel HullWhiteModel HullWhiteSpec HullWhiteProofs HullWhiteProofs2 HullWhiteBondSpec.
Import ListNotations.
Open Scope R_scope.

Lemma rint_unique (f : R -> R) (a b x y : R) : is_RInt f a b x -> is_RInt f a b y -> x = y.
Proof. intros A B. apply (is_RInt_unique (V := R_CompleteNormedModule)) in A, B. congruence. Qed.
Lemma rint_ext (f g : R -> R) (a b x : R) : a <= b -> (forall u, a < u < b -> f u = g u) -> is_RInt f a b x -> is_RInt g a b x.
Proof. intros L E. apply (is_RInt_ext (V := R_NormedModule)). intros u H. rewrite Rmin_left, Rmax_right in H by exact L. apply E, H. Qed.
Lemma rint_lin (f g : R -> R) (p q a b x y : R) : is_RInt f a b x -> is_RInt g a b y -> is_RInt (fun u => p * f u + q * g u) a b (p * x + q * y).
Proof. intros F G. apply (is_RInt_plus (V := R_NormedModule)); apply (is_RInt_scal (V := R_NormedModule)); assumption. Qed.
Lemma rint_val (f : R -> R) (a b x y : R) : is_RInt f a b x -> x = y -> is_RInt f a b y.
Proof. intros H ->. exact H. Qed.
Lemma rint_between (f : R -> R) (a b x y : R) : is_RInt f 0 a x -> is_RInt f 0 b y -> is_RInt f a b (y - x).
Proof.
  intros A B. apply (is_RInt_swap (V := R_NormedModule)) in A. pose proof (is_RInt_Chasles (V := R_NormedModule) _ a 0 b _ _ A B) as C.
  apply (rint_val _ _ _ _ _ C). unfold plus, opp. cbn. ring.
Qed.
Lemma rint_derive (F f : R -> R) a b : (forall u, is_derive F u (f u)) -> (forall u, continuous f u) -> is_RInt f a b (F b - F a).
Proof. intros D C. apply (is_RInt_derive (V := R_CompleteNormedModule) F f); intros; [apply D|apply C]. Qed.

(** The integral of phi' U + phi sigma^2 e, where U is the integral of sigma^2 e. *)
Lemma parts p (E e phi dphi U : R -> R) :
  piecewise_ok p -> (forall x, In x (param_jumps p) -> 0 <= x) ->
  (forall u, is_derive E u (e u)) -> (forall u, continuous e u) -> (forall u, is_derive phi u (dphi u)) -> (forall u, continuous dphi u) ->
  (forall t, 0 <= t -> is_RInt (fun u => param_at p u ^ 2 * e u) 0 t (U t)) ->
  forall t, 0 <= t -> is_RInt (fun u => dphi u * U u + phi u * (param_at p u ^ 2 * e u)) 0 t (phi t * U t).
Proof.
  intros OK PJ DE CE DP CP HU t T. set (K := sort (param_jumps p)). assert (SK : nondecr K) by apply sort_nondecr. assert (PK : forall x, In x K -> 0 <= x) by (intros x X; unfold K in X; rewrite sort_in in X; apply PJ, X).
  assert (U0 : U 0 = 0) by (apply (rint_unique (fun u => param_at p u ^ 2 * e u) 0 0); [apply HU; lra|apply (is_RInt_point (V := R_NormedModule))]).
  pose proof (knot_integral K (fun u => dphi u * U u + phi u * (param_at p u ^ 2 * e u)) (fun n t => phi t * U t - phi (at_ (0 :: K) n) * U (at_ (0 :: K) n)) (fun n => phi (at_ (0 :: K) n) * U (at_ (0 :: K) n)) SK PK) as KI.
  assert (C : forall n t, (n <= length K)%nat -> at_ (0 :: K) n <= t -> ((n < length K)%nat -> t <= at_ K n) ->
    is_RInt (fun u => dphi u * U u + phi u * (param_at p u ^ 2 * e u)) (at_ (0 :: K) n) t (phi t * U t - phi (at_ (0 :: K) n) * U (at_ (0 :: K) n))).
  { clear t T KI. intros n t N L B. set (t0 := at_ (0 :: K) n) in *. set (s := param_at p t).
    assert (P0 : 0 <= t0) by (unfold t0; destruct n; [unfold at_; cbn; lra|change (0 <= nth n K 0); apply PK, nth_In; lia]).
    assert (SP : forall u, t0 < u <= t -> param_at p u = s). { intros u HU'. apply (same_piece p K n u t OK SK); [intros x X; unfold K; rewrite sort_in; exact X|exact N|apply HU'|apply HU'|exact B]. }
    assert (UV : forall u, t0 <= u <= t -> U u = U t0 + s ^ 2 * (E u - E t0)).
    { intros u HU'. pose proof (rint_between _ _ _ _ _ (HU t0 P0) (HU u ltac:(lra))) as I1.
      assert (I2 : is_RInt (fun w => param_at p w ^ 2 * e w) t0 u (s ^ 2 * (E u - E t0))).
      { apply (rint_ext (fun w => s ^ 2 * e w)); [lra|intros w W; rewrite SP by lra; reflexivity|]. apply (is_RInt_scal (V := R_NormedModule)), rint_derive; assumption. }
      pose proof (rint_unique _ _ _ _ _ I1 I2). lra. }
    rewrite (UV t ltac:(lra)). set (F := fun u => phi u * (U t0 + s ^ 2 * (E u - E t0))). apply (rint_val _ _ _ (F t - F t0)); [|unfold F; ring].
    apply (rint_ext (fun u => dphi u * (U t0 + s ^ 2 * (E u - E t0)) + phi u * (s ^ 2 * e u))); [lra|intros u HU'; rewrite (UV u), (SP u) by lra; reflexivity|].
    apply rint_derive.
    - intros u. unfold F. assert (D2 : is_derive (fun u => U t0 + s ^ 2 * (E u - E t0)) u (s ^ 2 * e u)).
      { apply (is_derive_ext (fun u => plus (U t0 - s ^ 2 * E t0) (scal (s ^ 2) (E u)))); [intros w; unfold plus, scal; cbn; unfold mult; cbn; ring|]. pose proof (is_derive_plus (fun _ => U t0 - s ^ 2 * E t0) (fun u => scal (s ^ 2) (E u)) u _ _ (is_derive_const _ _) (is_derive_scal E u (s ^ 2) (e u) (DE u))) as D. match type of D with is_derive _ _ ?d => replace (s ^ 2 * e u) with d; [exact D|] end. unfold plus, zero. cbn. ring. }
      apply (is_derive_mult phi _ u _ _ (DP u) D2). intros; apply Rmult_comm.
    - intros u. apply (continuous_plus (V := R_NormedModule)).
      + apply (continuous_mult (K := R_AbsRing)); [apply CP|]. apply (continuous_plus (V := R_NormedModule)); [apply continuous_const|]. apply (continuous_mult (K := R_AbsRing)); [apply continuous_const|].
        apply (continuous_minus (V := R_NormedModule)); [|apply continuous_const]. apply (ex_derive_continuous (K := R_AbsRing) (V := R_NormedModule)). exists (e u). apply DE.
      + apply (continuous_mult (K := R_AbsRing)); [apply (ex_derive_continuous (K := R_AbsRing) (V := R_NormedModule)); exists (dphi u); apply DP|]. apply (continuous_mult (K := R_AbsRing)); [apply continuous_const|apply CE]. }
  specialize (KI C). assert (A0 : phi (at_ (0 :: K) 0) * U (at_ (0 :: K) 0) = 0) by (unfold at_; cbn [nth]; rewrite U0; ring). assert (AS : forall n, (n < length K)%nat -> phi (at_ (0 :: K) (S n)) * U (at_ (0 :: K) (S n)) = phi (at_ (0 :: K) n) * U (at_ (0 :: K) n) + (phi (at_ K n) * U (at_ K n) - phi (at_ (0 :: K) n) * U (at_ (0 :: K) n))) by (intros n H; change (at_ (0 :: K) (S n)) with (at_ K n); ring). apply (rint_val _ _ _ _ _ (KI A0 AS t T)). ring.
Qed.

(** Every such weighted integral of sigma^2 exists. *)
Fixpoint knot_sum (cell : nat -> R -> R) (K : list R) (n : nat) : R := match n with O => 0 | S m => knot_sum cell K m + cell m (at_ K m) end.
Lemma weighted_exists p (E e : R -> R) : piecewise_ok p -> (forall x, In x (param_jumps p) -> 0 <= x) ->
  (forall u, is_derive E u (e u)) -> (forall u, continuous e u) -> exists U : R -> R, forall t, 0 <= t -> is_RInt (fun u => param_at p u ^ 2 * e u) 0 t (U t).
Proof.
  intros OK PJ DE CE. set (K := sort (param_jumps p)). assert (SK : nondecr K) by apply sort_nondecr. assert (PK : forall x, In x K -> 0 <= x) by (intros x X; unfold K in X; rewrite sort_in in X; apply PJ, X).
  set (cell := fun n t => param_at p t ^ 2 * (E t - E (at_ (0 :: K) n))). exists (fun t => knot_sum cell K (searchsorted_left K t) + cell (searchsorted_left K t) t). intros t T.
  apply (knot_integral K (fun u => param_at p u ^ 2 * e u) cell (knot_sum cell K) SK PK); [|reflexivity|reflexivity|exact T].
  clear t T. intros n t N L B. apply (rint_ext (fun u => param_at p t ^ 2 * e u)); [exact L| |].
  - intros u HU. rewrite (same_piece p K n u t OK SK); [reflexivity|intros x X; unfold K; rewrite sort_in; exact X|exact N|apply HU|lra|exact B].
  - unfold cell. apply (is_RInt_scal (V := R_NormedModule)), rint_derive; assumption.
Qed.

Section Moments.
  Variables (p : param) (k : R) (V M : R -> R).
  Hypothesis K0 : k <> 0.
  Hypothesis OK : piecewise_ok p.
  Hypothesis PJ : forall x, In x (param_jumps p) -> 0 <= x.
  Hypothesis NI : noise_integral (param_at p) k V.
  Hypothesis DI : drift_integral k V M.
  Let S1 t := k * M t + exp (- k * t) * V t.
  Ltac smooth := first [intros u; auto_derive; [exact Logic.I|] | intros u; apply (ex_derive_continuous (K := R_AbsRing) (V := R_NormedModule)); auto_derive; exact Logic.I].
  Lemma exp_split u : exp (- k * u) * exp (2 * k * u) = exp (k * u).
  Proof. rewrite <- exp_plus. f_equal. ring. Qed.
  Lemma S1_integral t : 0 <= t -> is_RInt (fun u => param_at p u ^ 2 * exp (k * u)) 0 t (S1 t).
  Proof.
    intros T. pose proof (parts p (fun u => exp (2 * k * u) / (2 * k)) (fun u => exp (2 * k * u)) (fun u => - exp (- k * u) / k) (fun u => exp (- k * u)) V OK PJ) as P.
    specialize (P ltac:(smooth; field; exact K0) ltac:(smooth) ltac:(smooth; field; exact K0) ltac:(smooth) NI t T).
    pose proof (rint_lin _ _ k (- k) _ _ _ _ (DI t T) P) as Q. eapply rint_val; [refine (rint_ext _ _ _ _ _ T _ Q)|].
    - intros u _. cbv beta. rewrite <- exp_split. field. exact K0.
    - unfold S1. field. exact K0.
  Qed.
  (** the integral of exp(-k s) (M(s) - M(t)) from t to T, against half the
      variance of the integrated noise *)
  Lemma bond_exponent_integral (t T : R) : 0 <= t <= T ->
    is_RInt (fun u => 1 * (exp (- k * u) * (M u - M t)) + - (1 / 2) * (param_at p u ^ 2 * ((1 - exp (- (k * (T - u)))) / k) ^ 2)) t T
      (exp (- 2 * k * t) * V t * ((1 - exp (- (k * (T - t)))) / k) ^ 2 / 2).
  Proof.
    intros TT. assert (T0 : 0 <= t) by lra. assert (T1 : 0 <= T) by lra.
    assert (EK : forall u, exp (k * u) = / exp (- k * u)) by (intros u; rewrite <- exp_Ropp; f_equal; ring).
    assert (E2 : forall u, exp (2 * k * u) = / exp (- k * u) ^ 2) by (intros u; cbn [pow]; rewrite Rmult_1_r, <- exp_plus, <- exp_Ropp; f_equal; ring).
    assert (E3 : forall u, exp (- (2 * k) * u) = exp (- k * u) ^ 2) by (intros u; cbn [pow]; rewrite Rmult_1_r, <- exp_plus; f_equal; ring).
    assert (EN : forall u, exp (- k * u) <> 0) by (intros u; apply Rgt_not_eq, exp_pos).
    pose proof (parts p (fun u => exp (k * u) / k) (fun u => exp (k * u)) (fun u => - exp (- k * u) / k) (fun u => exp (- k * u)) S1 OK PJ) as P1.
    specialize (P1 ltac:(smooth; field; exact K0) ltac:(smooth) ltac:(smooth; field; exact K0) ltac:(smooth) S1_integral).
    pose proof (parts p (fun u => exp (2 * k * u) / (2 * k)) (fun u => exp (2 * k * u)) (fun u => - exp (- (2 * k) * u) / (2 * k)) (fun u => exp (- (2 * k) * u)) V OK PJ) as P2.
    specialize (P2 ltac:(smooth; field; exact K0) ltac:(smooth) ltac:(smooth; field; exact K0) ltac:(smooth) NI).
    pose proof (rint_between _ _ _ _ _ (P1 t T0) (P1 T T1)) as Q1. pose proof (rint_between _ _ _ _ _ (P2 t T0) (P2 T T1)) as Q2. clear P1 P2.
    pose proof (rint_between _ _ _ _ _ (S1_integral t T0) (S1_integral T T1)) as R1. pose proof (rint_between _ _ _ _ _ (NI t T0) (NI T T1)) as R2.
    assert (C0 : is_RInt (fun s => exp (- k * s)) t T ((exp (- k * t) - exp (- k * T)) / k)).
    { set (F := fun s => - exp (- k * s) / k). apply (rint_val _ _ _ (F T - F t)); [|unfold F; field; exact K0]. apply rint_derive; unfold F; [smooth; field; exact K0|smooth]. }
    pose proof (rint_lin _ _ (1 / k) (- (1 / k)) _ _ _ _ Q1 Q2) as X1. pose proof (rint_lin _ _ (exp (- k * T) / k ^ 2) (- (exp (- k * T) ^ 2 / (2 * k ^ 2))) _ _ _ _ R1 R2) as X2.
    pose proof (rint_lin _ _ 1 1 _ _ _ _ X1 X2) as X3. pose proof (rint_lin _ _ 1 (- M t) _ _ _ _ X3 C0) as X4.
    assert (EQ : forall u, t < u < T -> 1 * (1 * (1 / k * (exp (- k * u) * S1 u + - exp (- k * u) / k * (param_at p u ^ 2 * exp (k * u))) + - (1 / k) * (exp (- (2 * k) * u) * V u + - exp (- (2 * k) * u) / (2 * k) * (param_at p u ^ 2 * exp (2 * k * u)))) +
       1 * (exp (- k * T) / k ^ 2 * (param_at p u ^ 2 * exp (k * u)) + - (exp (- k * T) ^ 2 / (2 * k ^ 2)) * (param_at p u ^ 2 * exp (2 * k * u)))) + - M t * exp (- k * u) =
       1 * (exp (- k * u) * (M u - M t)) + - (1 / 2) * (param_at p u ^ 2 * ((1 - exp (- (k * (T - u)))) / k) ^ 2)).
    { intros u _. unfold S1. rewrite E2, E3, EK. replace (exp (- (k * (T - u)))) with (exp (- k * T) / exp (- k * u)) by (unfold Rdiv; rewrite <- exp_Ropp, <- exp_plus; f_equal; ring). field. split; [apply EN|exact K0]. }
    apply (rint_ext _ _ _ _ _ (proj2 TT) EQ) in X4. apply (rint_val _ _ _ _ _ X4). clear - EN E3 K0. unfold S1. rewrite !E3. replace (exp (-2 * k * t)) with (exp (- k * t) ^ 2) by (rewrite <- E3; f_equal; ring).
    replace (exp (- (k * (T - t)))) with (exp (- k * T) / exp (- k * t)) by (unfold Rdiv; rewrite <- exp_Ropp, <- exp_plus; f_equal; ring). field. split; [apply EN|exact K0].
  Qed.
  Lemma bond_exponent (t T A v : R) : 0 <= t <= T ->
    is_RInt (fun s => exp (- k * s) * (M s - M t)) t T A ->
    is_RInt (fun u => param_at p u ^ 2 * ((1 - exp (- (k * (T - u)))) / k) ^ 2) t T v ->
    A - v / 2 = exp (- 2 * k * t) * V t * ((1 - exp (- (k * (T - t)))) / k) ^ 2 / 2.
  Proof. intros TT HA HV. pose proof (rint_unique _ _ _ _ _ (rint_lin _ _ 1 (- (1 / 2)) _ _ _ _ HA HV) (bond_exponent_integral t T TT)) as E. lra. Qed.
  Lemma noise_variance_exists t T : 0 <= t <= T -> exists v, is_RInt (fun u => param_at p u ^ 2 * ((1 - exp (- (k * (T - u)))) / k) ^ 2) t T v.
  Proof.
    intros TT. destruct (weighted_exists p (fun u => (u - 2 / k * exp (- (k * (T - u))) + exp (- (2 * k * (T - u))) / (2 * k)) / k ^ 2) (fun u => ((1 - exp (- (k * (T - u)))) / k) ^ 2) OK PJ) as (U & HU).
    - intros u. auto_derive; [exact Logic.I|]. unfold Rminus. replace (exp (- (2 * k * (T + - u)))) with (exp (- (k * (T + - u))) * exp (- (k * (T + - u)))) by (rewrite <- exp_plus; f_equal; ring). field. exact K0.
    - smooth.
    - exists (U T - U t). apply rint_between; apply HU; lra.
  Qed.
  Lemma drift_area_exists t T : 0 <= t <= T -> exists A, is_RInt (fun s => exp (- k * s) * (M s - M t)) t T A.
  Proof.
    intros TT. destruct (noise_variance_exists t T TT) as (v & HV). pose proof (rint_lin _ _ 1 (1 / 2) _ _ _ _ (bond_exponent_integral t T TT) HV) as X.
    eexists. refine (rint_ext _ _ _ _ _ (proj2 TT) _ X). intros u _. cbv beta. field. exact K0.
  Qed.
  (** the covariance of x(T) with the integral of x is the mean of x(T) *)
  Lemma covariance_is_mean (T c : R) : 0 <= T -> is_RInt (fun u => param_at p u ^ 2 * exp (- (k * (T - u))) * ((1 - exp (- (k * (T - u)))) / k)) 0 T c -> c = exp (- k * T) * M T.
  Proof.
    intros T0 H. pose proof (rint_lin _ _ (exp (- k * T) / k) (- (exp (- k * T) ^ 2 / k)) _ _ _ _ (S1_integral T T0) (NI T T0)) as X.
    assert (EK : forall u, exp (k * u) = / exp (- k * u)) by (intros u; rewrite <- exp_Ropp; f_equal; ring).
    assert (E2 : forall u, exp (2 * k * u) = / exp (- k * u) ^ 2) by (intros u; cbn [pow]; rewrite Rmult_1_r, <- exp_plus, <- exp_Ropp; f_equal; ring).
    assert (EN : forall u, exp (- k * u) <> 0) by (intros u; apply Rgt_not_eq, exp_pos).
    assert (EQ : forall u, 0 < u < T -> exp (- k * T) / k * (param_at p u ^ 2 * exp (k * u)) + - (exp (- k * T) ^ 2 / k) * (param_at p u ^ 2 * exp (2 * k * u)) = param_at p u ^ 2 * exp (- (k * (T - u))) * ((1 - exp (- (k * (T - u)))) / k)).
    { intros u _. rewrite E2, EK. replace (exp (- (k * (T - u)))) with (exp (- k * T) / exp (- k * u)) by (unfold Rdiv; rewrite <- exp_Ropp, <- exp_plus; f_equal; ring). field. split; [apply EN|exact K0]. }
    apply (rint_ext _ _ _ _ _ T0 EQ) in X. rewrite (rint_unique _ _ _ _ _ H X). unfold S1. field. exact K0.
  Qed.
End Moments.

(** The spec's y and G. *)
Lemma state_variance_is sigma k V y : noise_integral sigma k V -> state_variance sigma k y -> forall t, 0 <= t -> y t = exp (- 2 * k * t) * V t.
Proof.
  intros NI SV t T. apply (rint_unique (fun u => exp (- (2 * k * (t - u))) * sigma u ^ 2) 0 t); [apply SV, T|]. apply (rint_ext (fun u => exp (- 2 * k * t) * (sigma u ^ 2 * exp (2 * k * u)))); [exact T| |apply (is_RInt_scal (V := R_NormedModule)), NI, T].
  intros u _. replace (exp (- (2 * k * (t - u)))) with (exp (-2 * k * t) * exp (2 * k * u)) by (rewrite <- exp_plus; f_equal; ring). ring.
Qed.
Lemma loading_is k G t T : k <> 0 -> loading k G -> G t T = (1 - exp (- (k * (T - t)))) / k.
Proof.
  intros K0 L. specialize (L t T). apply (rint_unique _ _ _ _ _ L). set (F := fun u => - exp (- (k * (u - t))) / k). apply (rint_val _ _ _ (F T - F t)).
  - apply rint_derive; unfold F; [intros u; auto_derive; [exact Logic.I|]; unfold Rminus; field; exact K0|intros u; apply (ex_derive_continuous (K := R_AbsRing) (V := R_NormedModule)); auto_derive; exact Logic.I].
  - unfold F. replace (- (k * (t - t))) with 0 by ring. rewrite exp_0. field. exact K0.
Qed.
