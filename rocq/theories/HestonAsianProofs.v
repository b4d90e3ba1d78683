(** Proofs about geometric Asian options in the Heston model. *)
From Coq Require Import Reals List Bool ZArith Lra Lia.
From Coquelicot Require Import Complex.
From Verif Require Import TensorModel InterpModel IntegrateModel BoundedCalModel HestonFourierModel ComplexProofs HestonAsianModel.
Import ListNotations.
Open Scope R_scope.

Lemma clog_real x : 0 < x -> clog (RtoC x) = RtoC (ln x).
Proof.
  intros P. unfold clog, carg. rewrite Cmod_R, Rabs_right by lra. cbn [fst snd RtoC]. destruct (Rlt_dec 0 (x + x)); [|lra].
  unfold RtoC. f_equal. unfold Rdiv. rewrite Rmult_0_l, atan_0. ring.
Qed.
Lemma cexp_real x : cexp (RtoC x) = RtoC (exp x).
Proof. unfold cexp, RtoC. cbn. rewrite cos_0, sin_0. f_equal; ring. Qed.

(** ** Scaling of the price *)
Definition weight (h : handler) : R := (INR (h_n h) - INR (h_k_star h)) / INR (h_n h).
Definition scaled (h : handler) (l : R) : handler :=
  mk_handler (l * h_spot h) (h_rate h) (h_dividend h) (h_variance h) (h_mean_reversion h) (h_theta h) (h_volvol h) (h_rho h)
    (exp (weight h * ln l) * h_strike h) (h_start h) (h_expiry h) (h_sampling_times h) (h_d_tau h) (h_k_star h) (h_n h).

Lemma a_scaled h l s w : 0 < l -> 0 < h_spot h -> a_fn (scaled h l) s w = Cplus (Cmult (Cplus (Cmult s (RtoC (weight h))) w) (RtoC (ln l))) (a_fn h s w).
Proof.
  intros L S0. unfold a_fn. cbn [scaled h_spot h_rate h_dividend h_variance h_mean_reversion h_theta h_volvol h_rho h_start h_expiry h_sampling_times h_k_star h_n].
  rewrite !clog_real by (try apply Rmult_lt_0_compat; assumption). rewrite ln_mult by assumption. rewrite RtoC_plus. unfold weight. ring.
Qed.
Lemma phi_scaled h l s w : 0 < l -> 0 < h_spot h ->
  phi (scaled h l) s w = Cmult (cexp (Cmult (Cplus (Cmult s (RtoC (weight h))) w) (RtoC (ln l)))) (phi h s w).
Proof.
  intros L S0. unfold phi at 2. cbv zeta. rewrite <- cexp_plus. unfold phi. cbv zeta. f_equal. rewrite a_scaled by assumption.
  change (omega_tilde (scaled h l)) with (omega_tilde h). change (z_fn (scaled h l)) with (z_fn h). change (f_fn (scaled h l)) with (f_fn h).
  cbn [scaled h_spot h_rate h_dividend h_variance h_mean_reversion h_theta h_volvol h_rho h_start h_expiry h_sampling_times h_k_star h_n h_d_tau]. ring.
Qed.
Lemma integrand_scaled h l x : 0 < l -> 0 < h_spot h -> 0 < h_strike h -> integrand (scaled h l) x = exp (weight h * ln l) * integrand h x.
Proof.
  intros L S0 K. unfold integrand. cbv zeta. rewrite !phi_scaled by assumption.
  set (e := weight h * ln l). cbn [scaled h_strike]. fold e. rewrite !clog_real by (try apply Rmult_lt_0_compat; try apply exp_pos; assumption).
  rewrite ln_mult, ln_exp by (try apply exp_pos; assumption).
  replace (Cmult (Cplus (Cmult (1, x) (RtoC (weight h))) 0) (RtoC (ln l))) with (Cplus (RtoC e) (0, x * e)) by (apply c_eq; cbn; unfold e; ring).
  replace (Cmult (Cplus (Cmult (0, x) (RtoC (weight h))) 0) (RtoC (ln l))) with ((0, x * e) : C) by (apply c_eq; cbn; unfold e; ring).
  replace (Cmult (Cmult (Copp Ci) (RtoC x)) (RtoC (e + ln (h_strike h)))) with (Cplus (Copp (0, x * e)) (Cmult (Cmult (Copp Ci) (RtoC x)) (RtoC (ln (h_strike h))))) by (apply c_eq; cbn; ring).
  rewrite !cexp_plus, cexp_real.
  set (E := cexp (0, x * e)). assert (EE : Cmult E (cexp (Copp (0, x * e))) = RtoC 1).
  { unfold E. rewrite <- cexp_plus. replace (Cplus (0, x * e) (Copp (0, x * e))) with (RtoC 0) by (apply c_eq; cbn; ring). apply cexp_0. }
  set (E' := cexp (Copp (0, x * e))) in *. set (T := cexp (Cmult (Cmult (Copp Ci) (RtoC x)) (RtoC (ln (h_strike h))))).
  set (p1 := phi h (1, x) 0). set (p0 := phi h (0, x) 0). rewrite RtoC_mult. unfold Cdiv. set (I' := Cinv _).
  transitivity (fst (Cmult (RtoC (exp e)) (Cmult (Cminus p1 (Cmult (RtoC (h_strike h)) p0)) (Cmult T I')))).
  - f_equal. transitivity (Cmult (Cmult E E') (Cmult (RtoC (exp e)) (Cmult (Cminus p1 (Cmult (RtoC (h_strike h)) p0)) (Cmult T I')))); [ring|]. rewrite EE. ring.
  - cbn. ring.
Qed.

Lemma reduce_scale k (l : list R) : reduce_sum (map (Rmult k) l) = k * reduce_sum l.
Proof. unfold reduce_sum. induction l as [|x l IH]; cbn; [ring|]. rewrite IH. ring. Qed.
Lemma vzip_scale (op : R -> R -> R) k : (forall a b, op (k * a) b = k * op a b) -> forall l m, vzip op (map (Rmult k) l) m = map (Rmult k) (vzip op l m).
Proof. intros H. unfold vzip. induction l as [|x l IH]; intros [|y m]; cbn; try reflexivity. rewrite H, IH. reflexivity. Qed.
Lemma integrate_scale roots coefficients f g k a b m np : (forall x, g x = k * f x) ->
  integrate roots coefficients g a b m np = match integrate roots coefficients f a b m np with Some v => Some (k * v) | None => None end.
Proof.
  intros E. assert (M : forall l, map g l = map (Rmult k) (map f l)) by (intros l; rewrite map_map; apply map_ext; exact E).
  destruct m; cbn [integrate].
  - unfold simpson. destruct (negb _); [reflexivity|]. cbv zeta. f_equal. rewrite M, vzip_scale by (intros; ring). rewrite reduce_scale. unfold Rdiv. ring.
  - unfold gauss_legendre. destruct (roots _); [|reflexivity]. destruct (coefficients _); [|reflexivity]. cbv zeta. f_equal.
    rewrite M, vzip_scale by (intros; unfold Rdiv; ring). apply reduce_scale.
Qed.

Lemma prod_scale k (l : list R) : fold_right Rmult 1 (map (Rmult k) l) = k ^ length l * fold_right Rmult 1 l.
Proof. induction l as [|x l IH]; cbn; [ring|]. rewrite IH. ring. Qed.
Lemma prod_pos (l : list R) : (forall x, In x l -> 0 < x) -> 0 < fold_right Rmult 1 l.
Proof. induction l as [|x l IH]; intros H; cbn; [lra|]. apply Rmult_lt_0_compat; [apply H; left; reflexivity|apply IH; intros; apply H; right; assumption]. Qed.

(** ** The value at zero *)
Section Zero.
Variable h : handler.
Hypothesis K0 : 0 < h_mean_reversion h.
Hypothesis V0 : h_volvol h <> 0.
Let k := h_mean_reversion h.
Lemma z_zero q : z_fn h 0 0 q = RtoC 0.
Proof.
  unfold z_fn. cbv zeta. replace (Cplus (Cmult (RtoC (INR (h_n h) - INR (h_k_star h + 1 + q) + 1)) 0) (Cmult (RtoC (INR (h_n h))) 0)) with (RtoC 0) by (apply c_eq; cbn; ring).
  unfold Cdiv. ring.
Qed.
Lemma root_zero : x_root h 0 = RtoC k.
Proof.
  unfold x_root. replace (Cminus (RtoC (h_mean_reversion h ^ 2)) (Cmult (Cmult 2 0) (RtoC (h_volvol h ^ 2)))) with (RtoC (k ^ 2)) by (unfold k; ring).
  unfold csqrt. rewrite Cmod_R. cbn [fst snd RtoC]. rewrite Rabs_right by (apply Rle_ge; apply pow2_ge_0).
  replace ((k ^ 2 + k ^ 2) / 2) with (k ^ 2) by field. replace ((k ^ 2 - k ^ 2) / 2) with 0 by field. rewrite sqrt_0, sqrt_pow2 by (unfold k; lra).
  destruct (Rlt_dec 0 0); [lra|reflexivity].
Qed.
Lemma cosh_real x : ccosh (RtoC x) = RtoC ((exp x + exp (- x)) / 2).
Proof. unfold ccosh. rewrite <- RtoC_opp, !cexp_real, <- RtoC_plus, <- RtoC_div by lra. reflexivity. Qed.
Lemma sinh_real x : csinh (RtoC x) = RtoC ((exp x - exp (- x)) / 2).
Proof. unfold csinh. rewrite <- RtoC_opp, !cexp_real, <- RtoC_minus, <- RtoC_div by lra. reflexivity. Qed.
Lemma f_zero tau : f_fn h 0 0 tau = RtoC (exp (k * tau / 2)).
Proof.
  unfold f_fn. cbv zeta. rewrite root_zero, <- !RtoC_mult, cosh_real, sinh_real, <- RtoC_minus, <- RtoC_mult, <- RtoC_div, <- RtoC_plus by (unfold k; lra).
  f_equal. fold k. replace (/ 2 * tau * k) with (k * tau / 2) by field. field. unfold k. lra.
Qed.
Lemma f_tilde_zero tau : f_tilde h 0 0 tau = RtoC (k / 2 * exp (k * tau / 2)).
Proof.
  unfold f_tilde. cbv zeta. rewrite root_zero, <- !RtoC_mult, cosh_real, sinh_real, <- RtoC_minus, <- !RtoC_mult, <- RtoC_plus.
  f_equal. fold k. replace (/ 2 * tau * k) with (k * tau / 2) by field. field.
Qed.
Lemma omega_zero q : omega_k h 0 0 q = RtoC 0.
Proof. unfold omega_k. destruct (Nat.eqb q 0); [ring|]. destruct (Nat.leb q _); ring. Qed.
Lemma omega_tilde_zero i : omega_tilde h 0 0 i = RtoC 0.
Proof.
  induction i as [|i IH]; cbn [omega_tilde]; [apply omega_zero|]. rewrite IH, omega_zero, z_zero, f_zero, f_tilde_zero.
  pose proof (exp_pos (k * nth (h_n h - h_k_star h + 1 - S i) (h_d_tau h) 0 / 2)) as P.
  assert (Z : exp (k * nth (h_n h - h_k_star h + 1 - S i) (h_d_tau h) 0 / 2) * h_volvol h ^ 2 <> 0) by (apply Rmult_integral_contrapositive_currified; [lra|apply pow_nonzero; exact V0]).
  rewrite <- !RtoC_mult, <- RtoC_plus, <- RtoC_div, <- RtoC_minus by exact Z. f_equal. fold k. field. split; [exact V0|lra].
Qed.
Fixpoint first_sum (l : list R) (n : nat) : R := match n with O => 0 | S m => first_sum l m + nth m l 0 end.
Lemma phi_zero : first_sum (h_d_tau h) (h_n h - h_k_star h + 1) = h_expiry h - h_start h -> phi h 0 0 = RtoC 1.
Proof.
  intros E. unfold phi. cbv zeta. set (x0 := (h_n h - h_k_star h + 1)%nat) in *.
  assert (S1 : forall y, csum (fun q => clog (f_fn h (z_fn h 0 0 q) (omega_tilde h 0 0 (x0 - (q + 1))) (nth q (h_d_tau h) 0))) y = RtoC (k / 2 * first_sum (h_d_tau h) y)).
  { intros y. induction y as [|y IH].
    - cbn [first_sum]. rewrite Rmult_0_r. reflexivity.
    - cbn [csum first_sum]. change ((fix go (n : nat) : C := match n with O => RtoC 0 | S m => Cplus (go m) (clog (f_fn h (z_fn h 0 0 m) (omega_tilde h 0 0 (x0 - (m + 1))) (nth m (h_d_tau h) 0))) end) y)
        with (csum (fun q => clog (f_fn h (z_fn h 0 0 q) (omega_tilde h 0 0 (x0 - (q + 1))) (nth q (h_d_tau h) 0))) y).
      rewrite IH, z_zero, omega_tilde_zero, f_zero, clog_real, ln_exp by apply exp_pos. rewrite <- RtoC_plus. f_equal. field. }
  rewrite S1, E, omega_tilde_zero. assert (A : a_fn h 0 0 = RtoC 0) by (unfold a_fn; ring). rewrite A.
  rewrite <- !RtoC_mult, <- !RtoC_plus, <- RtoC_minus, cexp_real. f_equal.
  match goal with |- exp ?t = 1 => replace t with 0; [apply exp_0|] end. fold k. field. exact V0.
Qed.
End Zero.
