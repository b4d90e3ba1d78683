(** Heston's characteristic function in the form of Albrecher et al.: its two
    exponents solve the Riccati equations of the model, it never meets the cut
    of the logarithm, and its modulus is at most one. *)
From Coq Require Import Reals Lra Psatz.
From Coquelicot Require Import Coquelicot.
From Verif Require Import IntegrateModel BoundedCalModel HestonFourierModel ComplexProofs.
Open Scope R_scope.

Section Transform.
Variables kappa theta sigma rho u : R.
Hypothesis Hk : 0 < kappa.
Hypothesis Hs : 0 < sigma.
Hypothesis Hr : -1 <= rho <= 1.
Hypothesis Hks : rho * sigma <= 2 * kappa.

Definition beta : C := (kappa, - (rho * sigma * u)).
Definition disc : C := (kappa * kappa + (1 - rho * rho) * (sigma * sigma) * (u * u), sigma * sigma * u - 2 * kappa * rho * sigma * u).
Definition dd : C := csqrt disc.
Definition gg : C := Cdiv (Cminus beta dd) (Cplus beta dd).
Definition ee (t : R) : C := cexp (Cmult (Copp dd) (t, 0)).
Definition hh (t : R) : C := Cmult gg (ee t).
Definition ratio (t : R) : C := Cdiv (Cminus 1 (hh t)) (Cminus 1 gg).
Definition sig2 : C := Cmult (sigma, 0) (sigma, 0).
Definition ll (t : R) : C := Cdiv (Cminus (Cmult (Cminus beta dd) (t, 0)) (Cmult 2 (clog (ratio t)))) sig2.
Definition bigd (t : R) : C := Cmult (Cdiv (Cminus beta dd) sig2) (Cdiv (Cminus 1 (ee t)) (Cminus 1 (hh t))).
Definition aa : C := Cmult (kappa, 0) (theta, 0).
Definition transform (t v : R) : C := cexp (Cplus (Cmult aa (ll t)) (Cmult (bigd t) (v, 0))).

Lemma disc_re : 0 < fst disc.
Proof using Hk Hr. clear Hs Hks. cbn. assert (0 <= 1 - rho * rho) by nra. assert (0 <= (1 - rho * rho) * (sigma * sigma) * (u * u)).
  { apply Rmult_le_pos; [apply Rmult_le_pos|]; nra. } nra. Qed.
Lemma dd_re : 0 < fst dd.
Proof using Hk Hr. apply csqrt_re. apply disc_re. Qed.
Lemma dd_sqr : Cmult dd dd = disc.
Proof. apply csqrt_sqr. Qed.
Lemma dd_neq : dd <> RtoC 0.
Proof using Hk Hr. intros E. pose proof dd_re as P. rewrite E in P. cbn in P. lra. Qed.
Lemma bd_neq : Cplus beta dd <> RtoC 0.
Proof using Hk Hr. intros E. pose proof dd_re as P. apply (f_equal fst) in E. unfold beta in E. cbn [fst Cplus RtoC] in E. lra. Qed.
Lemma sig_neq : sig2 <> RtoC 0.
Proof using Hs. intros E. apply (f_equal fst) in E. cbn in E. nra. Qed.
Lemma gg_mod : Cmod gg < 1.
Proof using Hk Hs Hr Hks.
  unfold gg. rewrite Cmod_div by apply bd_neq.
  pose proof (cmod_pos _ bd_neq) as P. apply (Rmult_lt_reg_r (Cmod (Cplus beta dd))); [exact P|].
  unfold Rdiv. rewrite Rmult_assoc, Rinv_l, Rmult_1_l, Rmult_1_r by lra.
  pose proof dd_re as PD. pose proof dd_sqr as SQ.
  pose proof (cmod_sq (Cplus beta dd)) as S1. pose proof (cmod_sq (Cminus beta dd)) as S2.
  pose proof (Cmod_ge_0 (Cminus beta dd)) as P2.
  assert (X : fst dd * fst dd - snd dd * snd dd = kappa * kappa + (1 - rho * rho) * (sigma * sigma) * (u * u)) by exact (f_equal fst SQ).
  assert (Y : fst dd * snd dd + snd dd * fst dd = sigma * sigma * u - 2 * kappa * rho * sigma * u) by exact (f_equal snd SQ).
  unfold beta in S1, S2. cbn [fst snd Cplus Cminus Copp] in S1, S2. fold beta in S1, S2.
  set (p := fst dd) in *. set (q := snd dd) in *.
  (* the real part of beta times the conjugate of d *)
  assert (K : 0 < 2 * p * (kappa * p - rho * sigma * u * q)).
  { replace (2 * p * (kappa * p - rho * sigma * u * q)) with (2 * kappa * (p * p) - rho * sigma * u * (p * q + q * p)) by ring.
    rewrite Y.
    assert (PP : kappa * kappa + (1 - rho * rho) * (sigma * sigma) * (u * u) <= p * p) by nra.
    assert (2 * kappa * (kappa * kappa + (1 - rho * rho) * (sigma * sigma) * (u * u)) <= 2 * kappa * (p * p)) by (apply Rmult_le_compat_l; lra).
    assert (0 <= (sigma * sigma) * (u * u) * (2 * kappa - rho * sigma)).
    { apply Rmult_le_pos; [apply Rmult_le_pos; nra|lra]. }
    assert (0 < kappa * kappa * kappa) by (repeat apply Rmult_lt_0_compat; exact Hk). nra. }
  assert (K2 : 0 < kappa * p - rho * sigma * u * q) by nra.
  nra.
Qed.
Lemma ee_mod t : 0 <= t -> Cmod (ee t) <= 1.
Proof using Hk Hr.
  intros Ht. unfold ee. rewrite cmod_cexp. pose proof dd_re as P. cbn [fst Cmult Copp]. rewrite <- exp_0.
  replace (snd (Copp dd) * snd (t, 0)) with 0 by (cbn [snd]; ring). cbn [fst snd].
  destruct (Req_dec t 0) as [->|N]; [right; f_equal; ring|]. left. apply exp_increasing. nra.
Qed.
Lemma hh_mod t : 0 <= t -> Cmod (hh t) < 1.
Proof using Hk Hs Hr Hks. intros Ht. unfold hh. rewrite Cmod_mult. pose proof (ee_mod t Ht). pose proof gg_mod. pose proof (Cmod_ge_0 gg). pose proof (Cmod_ge_0 (ee t)). nra. Qed.
Lemma one_re (z : C) : Cmod z < 1 -> 0 < fst (Cminus 1 z).
Proof. intros H. pose proof (cmod_ge_re z) as B. apply Rabs_le_between in B. cbn. lra. Qed.
Lemma re_neq (z : C) : 0 < fst z -> z <> RtoC 0.
Proof. intros H E. rewrite E in H. cbn in H. lra. Qed.
Lemma og_neq : Cminus 1 gg <> RtoC 0.
Proof using Hk Hs Hr Hks. apply re_neq, one_re, gg_mod. Qed.
Lemma oh_neq t : 0 <= t -> Cminus 1 (hh t) <> RtoC 0.
Proof using Hk Hs Hr Hks. intros Ht. apply re_neq, one_re, hh_mod, Ht. Qed.
Lemma ratio_off t : 0 <= t -> 0 < Cmod (ratio t) + fst (ratio t).
Proof using Hk Hs Hr Hks.
  intros Ht. destruct (Rlt_dec 0 (Cmod (ratio t) + fst (ratio t))) as [H|H]; [exact H|exfalso].
  pose proof (cmod_ge_re (ratio t)) as B. apply Rabs_le_between in B. pose proof (cmod_sq (ratio t)) as S.
  pose proof (Cmod_ge_0 (ratio t)) as M.
  assert (X : fst (ratio t) = - Cmod (ratio t)) by lra. assert (Y : snd (ratio t) = 0) by nra.
  assert (E : Cminus 1 (hh t) = Cmult (ratio t) (Cminus 1 gg)). { unfold ratio. field. apply og_neq. }
  apply (f_equal fst) in E. pose proof (one_re _ (hh_mod t Ht)) as P1. pose proof (one_re _ gg_mod) as P2.
  cbn [fst Cmult] in E. rewrite Y in E. nra.
Qed.
Lemma ratio_neq t : 0 <= t -> ratio t <> RtoC 0.
Proof using Hk Hs Hr Hks. intros Ht E. pose proof (ratio_off t Ht) as P. rewrite E, Cmod_0 in P. cbn in P. lra. Qed.

(** The model of the code computes the transform. *)
Lemma char_fun_transform t v : 0 <= t -> char_fun kappa theta sigma rho v t u = Some (transform t v).
Proof using Hk Hs Hr Hks.
  intros Ht. unfold char_fun. cbv zeta.
  assert (E1 : Cminus (kappa, 0) (Cmult (Cmult (rho, 0) (sigma, 0)) (0, u)) = beta) by (apply c_eq; cbn; ring).
  assert (E2 : Cminus (Cminus (Cmult (Cminus (Cmult (Cmult (rho, 0) (sigma, 0)) (0, u)) (kappa, 0)) (Cmult (Cmult (rho, 0) (sigma, 0)) (0, u)))
                              (Cmult (Cminus (Cmult (Cmult (rho, 0) (sigma, 0)) (0, u)) (kappa, 0)) (kappa, 0)))
                      (Cmult (Cmult (sigma, 0) (sigma, 0)) (Cminus (Copp (0, u)) (Cmult (u, 0) (u, 0)))) = disc) by (apply c_eq; cbn; ring).
  rewrite E1, E2. fold dd.
  rewrite (cdiv_ok (Cminus beta dd)) by apply bd_neq. cbn [bind]. fold gg. fold (ee t). fold (hh t).
  rewrite (cdiv_ok (Cminus 1 (hh t)) (Cminus 1 gg)) by apply og_neq. cbn [bind]. fold (ratio t).
  rewrite ceq_false by (apply ratio_neq; exact Ht).
  fold sig2. rewrite (cdiv_ok _ sig2) by apply sig_neq. cbn [bind].
  rewrite (cdiv_ok _ sig2) by apply sig_neq. cbn [bind].
  rewrite cdiv_ok by (apply oh_neq; exact Ht). cbn [bind]. f_equal. unfold transform. f_equal. f_equal.
  unfold ll. fold aa. field. apply sig_neq.
Qed.

(** Derivatives in time. *)
Lemma ee_derive t : is_cderive ee t (Copp (Cmult dd (ee t))).
Proof.
  apply (cd_ext _ _ (Cmult (Cmult (Copp dd) (1, 0)) (cexp (Cmult (Copp dd) (t, 0))))).
  - apply cd_exp. apply cd_scal. apply cd_real. apply d_ext with 1; [|reflexivity]. apply (is_derive_id (K := R_AbsRing)).
  - unfold ee. change (1, 0) with (RtoC 1). ring.
Qed.
Lemma hh_derive t : is_cderive hh t (Copp (Cmult gg (Cmult dd (ee t)))).
Proof. apply (cd_ext _ _ (Cmult gg (Copp (Cmult dd (ee t))))); [apply cd_scal, ee_derive|ring]. Qed.
Lemma omh_derive t : is_cderive (fun t => Cminus 1 (hh t)) t (Cmult gg (Cmult dd (ee t))).
Proof. apply (cd_ext _ _ (Cminus 0 (Copp (Cmult gg (Cmult dd (ee t)))))); [apply cd_minus; [apply cd_const|apply hh_derive]|ring]. Qed.
Lemma ome_derive t : is_cderive (fun t => Cminus 1 (ee t)) t (Cmult dd (ee t)).
Proof. apply (cd_ext _ _ (Cminus 0 (Copp (Cmult dd (ee t))))); [apply cd_minus; [apply cd_const|apply ee_derive]|ring]. Qed.
Lemma g_rel : Cmult gg (Cplus beta dd) = Cminus beta dd.
Proof using Hk Hr. unfold gg. field. apply bd_neq. Qed.
Lemma ll_derive t : 0 <= t -> is_cderive ll t (bigd t).
Proof using Hk Hs Hr Hks.
  intros Ht. pose proof og_neq as NG. pose proof (oh_neq t Ht) as NH. pose proof sig_neq as NS.
  assert (DR : is_cderive ratio t (Cdiv (Cmult gg (Cmult dd (ee t))) (Cminus 1 gg))).
  { apply (cd_ext _ _ (Cdiv (Cminus (Cmult (Cmult gg (Cmult dd (ee t))) (Cminus 1 gg)) (Cmult (Cminus 1 (hh t)) 0)) (Cmult (Cminus 1 gg) (Cminus 1 gg)))).
    - apply (cd_div (fun t => Cminus 1 (hh t)) (fun _ => Cminus 1 gg)); [apply omh_derive|apply cd_const|exact NG].
    - field. exact NG. }
  pose proof (cd_log ratio t _ DR (ratio_off t Ht)) as DL.
  assert (DT : is_cderive (fun t => Cmult (Cminus beta dd) (t, 0)) t (Cminus beta dd)).
  { apply (cd_ext _ _ (Cmult (Cminus beta dd) (1, 0))); [|change (1, 0) with (RtoC 1); ring].
    apply cd_scal, cd_real. apply (is_derive_id (K := R_AbsRing)). }
  pose proof (cd_minus _ _ t _ _ DT (cd_scal 2 _ t _ DL)) as DN.
  apply (cd_ext _ _ (Cmult (Cinv sig2) (Cminus (Cminus beta dd) (Cmult 2 (Cdiv (Cdiv (Cmult gg (Cmult dd (ee t))) (Cminus 1 gg)) (ratio t)))))).
  - apply (cd_fun (fun t => Cmult (Cinv sig2) (Cminus (Cmult (Cminus beta dd) (t, 0)) (Cmult 2 (clog (ratio t)))))).
    + intros z. unfold ll. field. exact NS.
    + apply cd_scal. exact DN.
  - unfold ratio, bigd. replace (RtoC 2) with (Cplus 1 1) by (apply c_eq; cbn; ring).
    assert (G := g_rel). unfold hh in *.
    transitivity (Cdiv (Cminus (Cmult (Cminus beta dd) (Cminus 1 (Cmult gg (ee t)))) (Cmult (Cplus 1 1) (Cmult gg (Cmult dd (ee t))))) (Cmult sig2 (Cminus 1 (Cmult gg (ee t))))).
    { field. auto. }
    replace (Cminus (Cmult (Cminus beta dd) (Cminus 1 (Cmult gg (ee t)))) (Cmult (Cplus 1 1) (Cmult gg (Cmult dd (ee t)))))
      with (Cmult (Cminus beta dd) (Cminus 1 (ee t))).
    { field. auto. }
    transitivity (Cminus (Cminus beta dd) (Cmult (Cmult gg (Cplus beta dd)) (ee t))); [rewrite G; ring|ring].
Qed.
(** The right-hand side of the Riccati equation. *)
Definition gamma : C := (u * u, u).
Definition riccati (w : C) : C :=
  Cmult (RtoC (1 / 2)) (Cplus (Cminus (Copp gamma) (Cmult 2 (Cmult beta w))) (Cmult sig2 (Cmult w w))).
Lemma half_of (a b : C) : Cplus a a = b -> a = Cmult (RtoC (1 / 2)) b.
Proof. intros <-. apply c_eq; cbn; field. Qed.
Lemma gamma_rel : Cmult sig2 gamma = Cminus (Cmult dd dd) (Cmult beta beta).
Proof. rewrite dd_sqr. apply c_eq; cbn; ring. Qed.
Lemma bigd_derive t : 0 <= t -> is_cderive bigd t (riccati (bigd t)).
Proof using Hk Hs Hr Hks.
  intros Ht. pose proof og_neq as NG. pose proof (oh_neq t Ht) as NH. pose proof sig_neq as NS. pose proof bd_neq as NB.
  eapply cd_ext.
  - apply cd_scal. apply (cd_div (fun t => Cminus 1 (ee t)) (fun t => Cminus 1 (hh t))); [apply ome_derive|apply omh_derive|exact NH].
  - apply half_of. unfold riccati.
    assert (GM : gamma = Cdiv (Cminus (Cmult dd dd) (Cmult beta beta)) sig2).
    { rewrite <- gamma_rel. field. exact NS. }
    rewrite GM. unfold bigd, hh in *. replace (RtoC 2) with (Cplus 1 1) by (apply c_eq; cbn; ring).
    set (e := ee t) in *. unfold gg in *. clear GM. clearbody e. generalize dependent sig2. generalize dependent dd. generalize dependent beta.
    intros b d NG0 NH0 NB0 sg NS0.
    assert (NX : Cminus (Cplus b d) (Cmult (Cminus b d) e) <> RtoC 0).
    { intros Z. apply NH0. transitivity (Cdiv (Cminus (Cplus b d) (Cmult (Cminus b d) e)) (Cplus b d)); [field; exact NB0|]. rewrite Z. field. exact NB0. }
    field. repeat split; try assumption.
Qed.
Lemma ee_0 : ee 0 = 1.
Proof. unfold ee. change (0, 0) with (RtoC 0). rewrite Cmult_0_r. apply cexp_0. Qed.
Lemma bigd_0 : bigd 0 = 0.
Proof. unfold bigd, Cdiv. rewrite ee_0. ring. Qed.
Lemma clog_1 : clog 1 = 0.
Proof.
  unfold clog, carg. rewrite Cmod_1. cbn. destruct (Rlt_dec 0 (1 + 1)); [|lra].
  rewrite ln_1. replace (0 / (1 + 1)) with 0 by field. rewrite atan_0. apply c_eq; cbn; ring.
Qed.
Lemma ll_0 : ll 0 = 0.
Proof using Hk Hs Hr Hks.
  unfold ll. assert (E : ratio 0 = 1). { unfold ratio, hh. rewrite ee_0. field. apply og_neq. }
  rewrite E, clog_1. change (0, 0) with (RtoC 0). field. apply sig_neq.
Qed.
Lemma transform_0 v : transform 0 v = 1.
Proof using Hk Hs Hr Hks. unfold transform. rewrite ll_0, bigd_0, Cmult_0_r, Cmult_0_l, Cplus_0_r. apply cexp_0. Qed.

(** The real part of the coefficient of the variance is never positive. *)
Lemma mvt_decrease (F d : R -> R) t : 0 <= t -> (forall x, 0 <= x <= t -> is_derive F x (d x)) -> (forall x, 0 <= x <= t -> d x <= 0) -> F t <= F 0.
Proof.
  intros Ht D N. destruct (MVT_gen F 0 t d) as [c [Hc E]].
  - intros x Hx. rewrite Rmin_left, Rmax_right in Hx by lra. apply D. lra.
  - intros x Hx. rewrite Rmin_left, Rmax_right in Hx by lra. apply continuity_pt_filterlim.
    apply (ex_derive_continuous (V := R_NormedModule)). eexists. apply D. lra.
  - rewrite Rmin_left, Rmax_right in Hc by lra. specialize (N c Hc). nra.
Qed.
Lemma bigd_re t : 0 <= t -> fst (bigd t) <= 0.
Proof using Hk Hs Hr Hks.
  intros Ht. set (w := fun t => kappa * t - sigma * sigma / 2 * fst (ll t)).
  set (F := fun t => fst (bigd t) * exp (w t)).
  assert (DW : forall x, 0 <= x -> is_derive w x (kappa - sigma * sigma / 2 * fst (bigd x))).
  { intros x Hx. destruct (ll_derive x Hx) as [A _]. unfold w.
    apply (d_minus (fun t => kappa * t) (fun t => sigma * sigma / 2 * fst (ll t))).
    - apply (d_ext _ _ (0 * x + kappa * 1)); [|ring]. apply (d_mult (fun _ => kappa) (fun t => t)); [apply d_const|apply (is_derive_id (K := R_AbsRing))].
    - apply (d_ext _ _ (0 * fst (ll x) + sigma * sigma / 2 * fst (bigd x))); [|ring].
      apply (d_mult (fun _ => sigma * sigma / 2) (fun t => fst (ll t))); [apply d_const|exact A]. }
  assert (L : F t <= F 0).
  { apply (mvt_decrease F (fun x => fst (riccati (bigd x)) * exp (w x) + fst (bigd x) * ((kappa - sigma * sigma / 2 * fst (bigd x)) * exp (w x)))); [exact Ht| |].
    - intros x [Hx _]. destruct (bigd_derive x Hx) as [A _]. unfold F.
      apply (d_mult (fun t => fst (bigd t)) (fun t => exp (w t))); [exact A|].
      apply (d_comp exp w); [apply d_exp|apply DW, Hx].
    - intros x [Hx _]. pose proof (exp_pos (w x)) as EP. unfold riccati. set (D := bigd x). clearbody D. cbn. set (a := fst D). set (b := snd D).
      match goal with |- ?l <= 0 => replace l with (- (1 / 2) * ((u + rho * (sigma * b)) * (u + rho * (sigma * b)) + (1 - rho * rho) * ((sigma * b) * (sigma * b))) * exp (w x)) by field end.
      assert (S1 : 0 <= (u + rho * (sigma * b)) * (u + rho * (sigma * b))) by exact (Rle_0_sqr _).
      assert (S2 : 0 <= (1 - rho * rho) * ((sigma * b) * (sigma * b))) by (apply Rmult_le_pos; [nra|exact (Rle_0_sqr (sigma * b))]).
      revert S1 S2 EP. generalize ((u + rho * (sigma * b)) * (u + rho * (sigma * b))) ((1 - rho * rho) * ((sigma * b) * (sigma * b))) (exp (w x)).
      clear. intros p q e P Q E. assert (0 <= (p + q) * e) by (apply Rmult_le_pos; lra). lra. }
  unfold F in L. rewrite bigd_0 in L. cbn [fst RtoC] in L. rewrite Rmult_0_l in L. pose proof (exp_pos (w t)). nra.
Qed.
Lemma ll_re t : 0 <= t -> fst (ll t) <= 0.
Proof using Hk Hs Hr Hks.
  intros Ht. apply Rle_trans with (fst (ll 0)).
  - apply (mvt_decrease (fun t => fst (ll t)) (fun t => fst (bigd t))); [exact Ht|intros x Hx; apply ll_derive; lra|intros x Hx; apply bigd_re; lra].
  - rewrite ll_0. cbn. lra.
Qed.
Lemma transform_mod t v : 0 <= t -> 0 <= v -> 0 <= theta -> Cmod (transform t v) <= 1.
Proof using Hk Hs Hr Hks.
  intros Ht Hv Hth. pose proof (ll_re t Ht) as L1. pose proof (bigd_re t Ht) as L2. unfold transform. rewrite cmod_cexp. set (D := bigd t) in *. set (L := ll t) in *. clearbody D L. unfold aa. cbn.
  assert (0 <= kappa * theta) by nra. rewrite <- exp_0.
  match goal with |- exp ?z <= _ => replace z with (kappa * theta * fst L + v * fst D) by ring end.
  match goal with |- exp ?z <= _ => assert (Z : z <= 0) by (assert (0 <= kappa * theta * - fst L) by (apply Rmult_le_pos; lra); assert (0 <= v * - fst D) by (apply Rmult_le_pos; lra); lra); destruct Z as [Z| ->]; [left; apply exp_increasing; exact Z|lra] end.
Qed.
End Transform.
