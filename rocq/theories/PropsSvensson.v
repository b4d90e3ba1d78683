(** C54: the Nelson-Siegel-Svensson curve. *)
From Coq Require Import Reals Bool Lia Lra Psatz.
From Coquelicot Require Import Coquelicot.
From Verif Require Import InterpModel ExtReal RatesModel RIntAux.
Open Scope R_scope.

(** The instantaneous forward rate of the model. *)
Definition svensson_forward (p : svensson) (s : R) : R :=
  beta_0 p + beta_1 p * exp (- s / tau_1 p) + beta_2 p * (s / tau_1 p) * exp (- s / tau_1 p) + beta_3 p * (s / tau_2 p) * exp (- s / tau_2 p).

Lemma xdiv_fin' a b : b <> 0 -> xdiv (Fin a) (Fin b) = Fin (a / b).
Proof. intros B. cbn. unfold InterpModel.req. destruct (Req_EM_T b 0); [contradiction|reflexivity]. Qed.
Lemma xdiv_zero : xdiv (Fin 0) (Fin 0) = NaN.
Proof. cbn. unfold InterpModel.req. destruct (Req_EM_T 0 0); [reflexivity|contradiction]. Qed.
Lemma exp_term_pos t y : 0 < y -> exp_term t y = exp (- (t / y)).
Proof. intros Y. unfold exp_term, divide_no_nan. destruct (Req_EM_T y 0); [lra|reflexivity]. Qed.
Lemma int_term t y : 0 < t -> 0 < y -> integrated_exp_term t y = Fin ((1 - exp (- (t / y))) / (t / y)).
Proof.
  intros T Y. unfold integrated_exp_term. rewrite exp_term_pos by exact Y. unfold divide_no_nan. destruct (Req_EM_T y 0); [lra|]. apply xdiv_fin'. apply Rgt_not_eq. apply Rdiv_lt_0_compat; assumption.
Qed.
Definition curve_value (p : svensson) (t : R) : R :=
  let u1 := t / tau_1 p in let u2 := t / tau_2 p in
  beta_0 p + beta_1 p * ((1 - exp (- u1)) / u1) + beta_2 p * ((1 - exp (- u1)) / u1 - exp (- u1)) + beta_3 p * ((1 - exp (- u2)) / u2 - exp (- u2)).
Lemma value_eq p t : 0 < t -> 0 < tau_1 p -> 0 < tau_2 p -> svensson_interpolate t p = Fin (curve_value p t).
Proof. intros T A B. unfold svensson_interpolate. rewrite !int_term, !exp_term_pos by assumption. cbn. reflexivity. Qed.

(** The yield to [t] is the average of the forward rate up to [t]. *)
Theorem C54_average p t : 0 < t -> 0 < tau_1 p -> 0 < tau_2 p -> exists y, svensson_interpolate t p = Fin y /\ is_RInt (svensson_forward p) 0 t (t * y).
Proof.
  intros T A B. exists (curve_value p t). split; [apply value_eq; assumption|].
  set (G := fun s => beta_0 p * s + beta_1 p * (tau_1 p * (1 - exp (- s / tau_1 p))) + beta_2 p * (tau_1 p * (1 - exp (- s / tau_1 p)) - s * exp (- s / tau_1 p)) + beta_3 p * (tau_2 p * (1 - exp (- s / tau_2 p)) - s * exp (- s / tau_2 p))).
  apply (isi_eq _ _ _ (G t - G 0)).
  - apply (is_RInt_derive (V := R_CompleteNormedModule) G (svensson_forward p)).
    + intros x _. unfold G, svensson_forward. auto_derive; [exact I|]. unfold Rdiv. field. split; lra.
    + intros x _. apply (ex_derive_continuous (svensson_forward p)). unfold svensson_forward. auto_derive. exact I.
  - unfold G, curve_value. replace (- 0 / tau_1 p) with 0 by (field; lra). replace (- 0 / tau_2 p) with 0 by (field; lra). rewrite exp_0.
    replace (- t / tau_1 p) with (- (t / tau_1 p)) by (field; lra). replace (- t / tau_2 p) with (- (t / tau_2 p)) by (field; lra). field. split; [lra|]. split; lra.
Qed.

Lemma term_bounds u : 0 < u -> let e := exp (- u) in let g := (1 - e) / u in 0 < e < 1 /\ e <= g <= 1 /\ 1 - e <= u /\ g <= / u.
Proof.
  intros U e g. assert (E0 : 0 < e) by apply exp_pos. assert (E1 : e < 1) by (unfold e; rewrite <- exp_0; apply exp_increasing; lra).
  assert (A : 1 - e <= u) by (pose proof (exp_ineq1_le (- u)); unfold e; lra).
  assert (B : u * e <= 1 - e).
  { pose proof (exp_ineq1_le u) as H. assert (EE : exp u * e = 1) by (unfold e; rewrite <- exp_plus, Rplus_opp_r; apply exp_0). apply (Rmult_le_compat_r e) in H; [|lra]. lra. }
  assert (GU : g * u = 1 - e) by (unfold g; field; lra).
  repeat split; try assumption.
  - apply (Rmult_le_reg_r u); lra.
  - apply (Rmult_le_reg_r u); lra.
  - apply (Rmult_le_reg_r u); [lra|]. rewrite Rinv_l by lra. lra.
Qed.

(** Short end: the curve starts at beta_0 + beta_1. *)
Theorem C54_short p t : 0 < t -> 0 < tau_1 p -> 0 < tau_2 p -> exists y, svensson_interpolate t p = Fin y /\
  Rabs (y - (beta_0 p + beta_1 p)) <= ((Rabs (beta_1 p) + Rabs (beta_2 p)) / tau_1 p + Rabs (beta_3 p) / tau_2 p) * t.
Proof.
  intros T A B. exists (curve_value p t). split; [apply value_eq; assumption|]. unfold curve_value.
  pose proof (term_bounds (t / tau_1 p) (Rdiv_lt_0_compat _ _ T A)) as H1. pose proof (term_bounds (t / tau_2 p) (Rdiv_lt_0_compat _ _ T B)) as H2.
  cbv zeta in H1, H2. set (u1 := t / tau_1 p) in *. set (u2 := t / tau_2 p) in *. set (e1 := exp (- u1)) in *. set (e2 := exp (- u2)) in *. set (g1 := (1 - e1) / u1) in *. set (g2 := (1 - e2) / u2) in *.
  replace (((Rabs (beta_1 p) + Rabs (beta_2 p)) / tau_1 p + Rabs (beta_3 p) / tau_2 p) * t) with (Rabs (beta_1 p) * u1 + Rabs (beta_2 p) * u1 + Rabs (beta_3 p) * u2) by (unfold u1, u2; field; split; lra).
  replace (beta_0 p + beta_1 p * g1 + beta_2 p * (g1 - e1) + beta_3 p * (g2 - e2) - (beta_0 p + beta_1 p)) with (beta_1 p * (g1 - 1) + beta_2 p * (g1 - e1) + beta_3 p * (g2 - e2)) by ring.
  eapply Rle_trans; [apply Rabs_triang|]. apply Rplus_le_compat; [eapply Rle_trans; [apply Rabs_triang|]; apply Rplus_le_compat|]; rewrite Rabs_mult; apply Rmult_le_compat_l; try apply Rabs_pos; apply Rabs_le; lra.
Qed.
(** Long end: it tends to beta_0. *)
Theorem C54_long p t : 0 < t -> 0 < tau_1 p -> 0 < tau_2 p -> exists y, svensson_interpolate t p = Fin y /\
  Rabs (y - beta_0 p) <= ((Rabs (beta_1 p) + Rabs (beta_2 p)) * tau_1 p + Rabs (beta_3 p) * tau_2 p) / t.
Proof.
  intros T A B. exists (curve_value p t). split; [apply value_eq; assumption|]. unfold curve_value.
  pose proof (term_bounds (t / tau_1 p) (Rdiv_lt_0_compat _ _ T A)) as H1. pose proof (term_bounds (t / tau_2 p) (Rdiv_lt_0_compat _ _ T B)) as H2.
  cbv zeta in H1, H2. set (u1 := t / tau_1 p) in *. set (u2 := t / tau_2 p) in *. set (e1 := exp (- u1)) in *. set (e2 := exp (- u2)) in *. set (g1 := (1 - e1) / u1) in *. set (g2 := (1 - e2) / u2) in *.
  replace (((Rabs (beta_1 p) + Rabs (beta_2 p)) * tau_1 p + Rabs (beta_3 p) * tau_2 p) / t) with (Rabs (beta_1 p) * / u1 + Rabs (beta_2 p) * / u1 + Rabs (beta_3 p) * / u2) by (unfold u1, u2; field; repeat split; lra).
  replace (beta_0 p + beta_1 p * g1 + beta_2 p * (g1 - e1) + beta_3 p * (g2 - e2) - beta_0 p) with (beta_1 p * g1 + beta_2 p * (g1 - e1) + beta_3 p * (g2 - e2)) by ring.
  eapply Rle_trans; [apply Rabs_triang|]. apply Rplus_le_compat; [eapply Rle_trans; [apply Rabs_triang|]; apply Rplus_le_compat|]; rewrite Rabs_mult; apply Rmult_le_compat_l; try apply Rabs_pos; apply Rabs_le; lra.
Qed.
(** At time 0, and for a zero decay time, the result is not a number although
    the curve has a limit there and divide_no_nan is used. *)
Theorem C54_zero_refuted p t : t = 0 \/ tau_1 p = 0 \/ tau_2 p = 0 -> svensson_interpolate t p = NaN.
Proof.
  intros H. assert (Z : forall x y, divide_no_nan x y = 0 -> integrated_exp_term x y = NaN).
  { intros x y E. unfold integrated_exp_term, exp_term. rewrite E, Ropp_0, exp_0. replace (1 - 1) with 0 by ring. apply xdiv_zero. }
  assert (D : (divide_no_nan t (tau_1 p) = 0) \/ divide_no_nan t (tau_2 p) = 0).
  { unfold divide_no_nan. destruct H as [->|[H|H]]; [left|left|right]; destruct (Req_EM_T _ _); try reflexivity; try contradiction. unfold Rdiv. ring. }
  assert (A : forall x, xadd x NaN = NaN) by (intros []; reflexivity). assert (B : forall x, xmul x NaN = NaN) by (intros []; reflexivity). assert (C : forall x, xadd NaN x = NaN) by (intros []; reflexivity).
  unfold svensson_interpolate. destruct D as [D|D]; rewrite (Z _ _ D); cbv zeta; rewrite ?C, ?B, ?A, ?C; [|reflexivity]. rewrite ?C. reflexivity.
Qed.

Example C54_ex : let p := {| beta_0 := 1; beta_1 := 2; beta_2 := 0; beta_3 := 0; tau_1 := 2; tau_2 := 1 |} in svensson_interpolate 2 p = Fin (3 - 2 * exp (-1)).
Proof.
  intros p. rewrite value_eq by (cbn; lra). unfold curve_value, p. cbn [beta_0 beta_1 beta_2 beta_3 tau_1 tau_2]. f_equal. replace (- (2 / 2)) with (-1) by field. field.
Qed.

Print Assumptions C54_average.
Print Assumptions C54_short.
Print Assumptions C54_long.
Print Assumptions C54_zero_refuted.
