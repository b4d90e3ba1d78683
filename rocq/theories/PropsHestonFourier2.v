(** C87, continued: parity, the arguments, and what fails. *)
From Coq Require Import Reals Lra Psatz ZArith Lia.
From Coquelicot Require Import Coquelicot.
From Coq Require Import List.
From Verif Require Import TensorModel InterpModel IntegrateModel BoundedCalModel HestonFourierModel HestonFourierSpec ComplexProofs HestonFourierProofs PropsHestonFourier.
Import ListNotations.
Open Scope R_scope.

Definition with_call (o : heston_option) (c : option bool) : heston_option :=
  {| strike := strike o; expiry := expiry o; spot := spot o; forward := forward o; is_call := c;
     discount_rate := discount_rate o; dividend_rate := dividend_rate o; discount_factor := discount_factor o;
     variance := variance o; mean_reversion := mean_reversion o; theta := theta o; volvol := volvol o; rho := rho o |}.

Lemma price_parity phi integral K F df c : price_from phi integral K F df (Some true) = Some c ->
  price_from phi integral K F df None = Some c /\
  exists p, price_from phi integral K F df (Some false) = Some p /\ c - p = df * (F - K).
Proof.
  unfold price_from. destruct (Req_EM_T F 0); [discriminate|]. destruct (Rle_dec (K / F) 0); [discriminate|].
  destruct (integral _) as [i|]; cbn [bind]; [|discriminate]. intros E. assert (E' : (F - K * (1 / 2 + i / PI)) * df = c) by congruence.
  split; [rewrite E'; reflexivity|]. eexists. split; [reflexivity|]. rewrite <- E'. ring.
Qed.

(** Whatever the integration rule, its limits and its error: a call and a put of
    the same strike and expiry differ by the discounted forward minus strike, and
    an option without a stated type is a call.  With a spot and rates the
    difference is the spot less dividends minus the discounted strike. *)
Theorem C87_parity (roots coefficients : nat -> option (list R)) (args : integration_args) (o : heston_option) (c : R) :
  european_option_price roots coefficients args (with_call o (Some true)) = Some c ->
  european_option_price roots coefficients args (with_call o None) = Some c /\
  exists p, european_option_price roots coefficients args (with_call o (Some false)) = Some p /\
    (forall F df, forward o = Some F -> discount_factor o = Some df -> c - p = df * (F - strike o)) /\
    (forall F r, forward o = Some F -> discount_rate o = Some r -> c - p = exp (- r * expiry o) * (F - strike o)) /\
    (forall S r q, spot o = Some S -> discount_rate o = Some r -> dividend_rate o = Some q ->
       c - p = S * exp (- q * expiry o) - exp (- r * expiry o) * strike o) /\
    (forall S df q, spot o = Some S -> discount_factor o = Some df -> dividend_rate o = Some q ->
       c - p = S * exp (- q * expiry o) - df * strike o).
Proof.
  unfold european_option_price. change (market (with_call o (Some true))) with (market o). change (market (with_call o None)) with (market o).
  change (market (with_call o (Some false))) with (market o).
  destruct (market o) as [[df0 F0]|] eqn:MK; cbn [bind]; [|discriminate].
  cbn [rho strike expiry variance mean_reversion theta volvol is_call with_call].
  destruct (rho o) as [rh|]; cbn [bind]; [|discriminate].
  intros E. destruct (price_parity _ _ _ _ _ _ E) as [E0 (p & EP & D)]. split; [exact E0|]. exists p. split; [exact EP|].
  assert (K : forall df F, (df0, F0) = (df, F) -> c - p = df * (F - strike o)) by (intros df F X; injection X as <- <-; exact D).
  unfold market in MK. split; [|split; [|split]].
  - intros F df HF HD. apply K. rewrite HF, HD in MK. destruct (spot o); [discriminate|]. destruct (discount_rate o); [discriminate|].
    cbn [defined Bool.eqb andb bind] in MK. congruence.
  - intros F r HF HR. apply K. rewrite HF, HR in MK. destruct (spot o); [discriminate|]. destruct (discount_factor o); [discriminate|].
    cbn [defined Bool.eqb andb bind] in MK. congruence.
  - intros S r q HS HR HQ. rewrite HS, HR, HQ in MK. destruct (forward o); [discriminate|]. destruct (discount_factor o); [discriminate|].
    cbn [defined Bool.eqb andb bind or_else] in MK.
    rewrite (K (exp (- r * expiry o)) (S * exp ((r - q) * expiry o))) by congruence.
    rewrite Rmult_minus_distr_l. f_equal. rewrite (Rmult_comm S), <- Rmult_assoc, <- exp_plus, (Rmult_comm S). do 2 f_equal. ring.
  - intros S df q HS HD HQ. rewrite HS, HD, HQ in MK. destruct (forward o); [discriminate|]. destruct (discount_rate o); [discriminate|].
    cbn [defined Bool.eqb andb bind or_else] in MK. destruct (Rle_dec df 0) as [|L]; [discriminate|]. destruct (Req_EM_T (expiry o) 0) as [|N]; [discriminate|].
    cbn [bind] in MK. rewrite (K df (S * exp ((- ln df / expiry o - q) * expiry o))) by congruence.
    replace ((- ln df / expiry o - q) * expiry o) with (- q * expiry o + - ln df) by (field; exact N).
    rewrite exp_plus, exp_Ropp, exp_ln by lra. field. lra.
Qed.
Print Assumptions C87_parity.

(** ** Numerical facts *)
Lemma pi_lower : 3141 / 1000 < PI.
Proof.
  destruct (PI_2_3_7_ineq 1) as [L _]. unfold tg_alt, PI_2_3_7_tg, Ratan_seq in L. cbn [sum_f_R0 Nat.mul Nat.add pow] in L.
  cbn [INR] in L. lra.
Qed.
(** An upper bound of 10^10 / (1 + (99999/10^7) i^2), in integers. *)
Definition zbound (i : nat) : Z := (10 ^ 17 / (10 ^ 7 + 99999 * (Z.of_nat i * Z.of_nat i)) + 1)%Z.
Definition zweights (n : nat) : list Z := (1 :: concat (repeat [4; 2] n) ++ [4; 1])%Z.
Definition zdot (a b : list Z) : Z := fold_right Z.add 0%Z (map (fun '(x, y) => (x * y)%Z) (combine a b)).
Definition ztotal : Z := zdot (map zbound (seq 0 1001)) (zweights 499).
Lemma ztotal_value : (ztotal <=? 468300000000)%Z = true.
Proof. vm_compute. reflexivity. Qed.
Lemma map_repeat_of {A B} (f : A -> B) a n : map f (repeat a n) = repeat (f a) n.
Proof. induction n as [|n IH]; cbn; [reflexivity|]. rewrite IH. reflexivity. Qed.
Lemma weights_z : simpson_weights 1001 = map IZR (zweights 499).
Proof.
  unfold simpson_weights, zweights. replace (Z.to_nat ((1001 - 3) / 2)) with 499%nat by reflexivity.
  change (map IZR (1 :: concat (repeat [4; 2] 499) ++ [4; 1])%Z) with (1 :: map IZR (concat (repeat [4; 2] 499) ++ [4; 1])%Z).
  rewrite map_app, concat_map. rewrite map_repeat_of. reflexivity.
Qed.
Lemma dot_le (f : nat -> R) (idx : list nat) (w : list Z) :
  Forall (fun z => (0 <= z)%Z) w -> (forall i, In i idx -> f i <= IZR (zbound i) / 10 ^ 10) ->
  reduce_sum (vzip Rmult (map f idx) (map IZR w)) <= IZR (zdot (map zbound idx) w) / 10 ^ 10.
Proof.
  revert w. induction idx as [|i idx IH]; intros w W B.
  - cbn. lra.
  - destruct W as [|z w Hz W]; [cbn; lra|].
    assert (ZD : zdot (map zbound (i :: idx)) (z :: w) = (zbound i * z + zdot (map zbound idx) w)%Z) by reflexivity. rewrite ZD.
    change (vzip Rmult (map f (i :: idx)) (map IZR (z :: w))) with (f i * IZR z :: vzip Rmult (map f idx) (map IZR w)).
    change (reduce_sum (f i * IZR z :: vzip Rmult (map f idx) (map IZR w))) with (f i * IZR z + reduce_sum (vzip Rmult (map f idx) (map IZR w))).
    rewrite plus_IZR, mult_IZR. specialize (IH w W (fun j Hj => B j (or_intror Hj))). specialize (B i (or_introl eq_refl)).
    apply IZR_le in Hz. assert (f i * IZR z <= IZR (zbound i) / 10 ^ 10 * IZR z) by (apply Rmult_le_compat_r; assumption). lra.
Qed.
Lemma weights_pos n : Forall (fun z => (0 <= z)%Z) (zweights n).
Proof.
  unfold zweights. constructor; [lia|]. apply Forall_app. split; [|repeat constructor; lia].
  induction n as [|n IH]; cbn; [constructor|]. constructor; [lia|]. constructor; [lia|]. exact IH.
Qed.
Lemma node_le i : 1 / (1 + (1 / 10 ^ 9 + (100 - 1 / 10 ^ 9) / (1001 - 1) * INR i) * (1 / 10 ^ 9 + (100 - 1 / 10 ^ 9) / (1001 - 1) * INR i)) <= IZR (zbound i) / 10 ^ 10.
Proof.
  pose proof (pos_INR i) as P. set (x := 1 / 10 ^ 9 + (100 - 1 / 10 ^ 9) / (1001 - 1) * INR i).
  assert (X : 99999 / 10 ^ 7 * (INR i * INR i) <= x * x).
  { assert (X1 : 999999 / 10 ^ 7 * INR i <= x) by (unfold x; lra).
    assert (0 <= 999999 / 10 ^ 7 * INR i) by lra.
    assert ((999999 / 10 ^ 7 * INR i) * (999999 / 10 ^ 7 * INR i) <= x * x) by nra.
    assert (0 <= INR i * INR i) by nra. nra. }
  set (n := (10 ^ 7 + 99999 * (Z.of_nat i * Z.of_nat i))%Z).
  assert (NZ : (0 < n)%Z) by (unfold n; nia).
  assert (EN : IZR n = 10 ^ 7 * (1 + 99999 / 10 ^ 7 * (INR i * INR i))).
  { unfold n. rewrite plus_IZR, !mult_IZR, <- INR_IZR_INZ. change (IZR (10 ^ 7)) with 10000000. lra. }
  assert (DZ : (10 ^ 17 <= n * zbound i)%Z).
  { unfold zbound. fold n. pose proof (Z.div_mod (10 ^ 17) n ltac:(lia)). pose proof (Z.mod_pos_bound (10 ^ 17) n NZ). nia. }
  apply IZR_le in DZ. rewrite mult_IZR, EN in DZ. change (IZR (10 ^ 17)) with 100000000000000000 in DZ.
  assert (Q : 1 + 99999 / 10 ^ 7 * (INR i * INR i) <= 1 + x * x) by lra.
  assert (Q0 : 0 < 1 + 99999 / 10 ^ 7 * (INR i * INR i)) by nra.
  set (q := 1 + 99999 / 10 ^ 7 * (INR i * INR i)) in *. clearbody q.
  apply Rle_trans with (1 / q).
  { unfold Rdiv. apply Rmult_le_compat_l; [lra|]. apply Rinv_le_contravar; lra. }
  apply (Rmult_le_reg_r q); [lra|]. unfold Rdiv. rewrite Rmult_assoc, Rinv_l by lra. lra.
Qed.
Lemma total_le (f : nat -> R) : (forall i, f i <= IZR (zbound i) / 10 ^ 10) ->
  reduce_sum (vzip Rmult (map f (seq 0 1001)) (map IZR (zweights 499))) <= IZR ztotal / 10 ^ 10.
Proof. intros B. unfold ztotal. apply dot_le; [apply weights_pos|intros i _; apply B]. Qed.
(** Simpson's rule for 1 / (1 + u^2) with the default points and limits. *)
Lemma simpson_value : exists i, simpson (fun u => 1 / (1 + u * u)) (1 / 10 ^ 9) 100 1001 = Some i /\ i <= 1561 / 1000.
Proof.
  unfold simpson. replace (negb ((3 <=? 1001)%Z && (1001 mod 2 =? 1)%Z)) with false by reflexivity. cbv zeta.
  eexists. split; [reflexivity|]. rewrite weights_z.
  set (dx := (100 - 1 / 10 ^ 9) / (1001 - 1)). unfold range_float. rewrite !map_map.
  replace (Z.to_nat 1001) with 1001%nat by reflexivity.
  pose proof (total_le (fun i => 1 / (1 + (1 / 10 ^ 9 + dx * INR i) * (1 / 10 ^ 9 + dx * INR i))) node_le) as B. pose proof ztotal_value as Z0. apply Z.leb_le in Z0. apply IZR_le in Z0.
  set (T := IZR ztotal) in *. clearbody T.
  match goal with |- ?s * dx / 3 <= _ => set (s0 := s) in * end.
  change (reduce_sum _) with s0 in B. clearbody s0.
  assert (DX : 0 < dx <= 1 / 10) by (unfold dx; lra).
  assert (s0 <= 4683 / 100) by lra. destruct (Rle_dec s0 0); nra.
Qed.

(** The default integration drops the part of the integral beyond 100: an option
    at the money at its expiry, whose payoff is 0, is priced above 0.3 percent of
    the strike, for all admissible parameters of the model. *)
Theorem C87_expiry_refuted (kappa theta sigma rho v K : R) (roots coefficients : nat -> option (list R)) :
  0 < kappa -> 0 < sigma -> -1 <= rho <= 1 -> rho * sigma <= 2 * kappa -> 0 < K ->
  exists c, european_option_price roots coefficients {| method := None; lower := None; upper := None; points := None |}
      {| strike := K; expiry := 0; spot := None; forward := Some K; is_call := Some true; discount_rate := None; dividend_rate := None;
         discount_factor := None; variance := v; mean_reversion := kappa; HestonFourierModel.theta := theta; volvol := sigma; HestonFourierModel.rho := Some rho |} = Some c /\
    3 / 1000 * K < c.
Proof.
  intros Hk Hs Hr Hks HK. destruct simpson_value as (i & EI & LI).
  assert (CF : forall u, char_fun kappa theta sigma rho v 0 u = Some (RtoC 1)).
  { intros u. rewrite char_fun_transform by (assumption || lra). f_equal. apply transform_0; assumption. }
  assert (IF : forall u, u <> 0 -> integrand_function (char_fun kappa theta sigma rho v 0) u 0 = Some (1 / (1 + u * u))).
  { intros u N. unfold integrand_function. destruct (Req_EM_T u 0); [contradiction|]. rewrite CF. cbn [bind]. f_equal.
    rewrite Rmult_0_r, cos_0, sin_0. cbn [fst snd RtoC]. f_equal. field. exact N. }
  assert (GP : Forall (fun u => u <> 0) (nodes roots COMPOSITE_SIMPSONS_RULE (1 / 10 ^ 9) 100 1001)).
  { apply Forall_forall. intros u Hu. unfold nodes, range_float in Hu. apply in_map_iff in Hu. destruct Hu as (x & <- & Hx).
    apply in_map_iff in Hx. destruct Hx as (n & <- & _). pose proof (pos_INR n). change (IZR 1001) with 1001.
    assert (0 <= (100 - 1 / 10 ^ 9) / (1001 - 1) * INR n) by (apply Rmult_le_pos; lra). lra. }
  assert (RI : run_integration roots coefficients {| method := None; lower := None; upper := None; points := None |}
     (fun u => integrand_function (char_fun kappa theta sigma rho v 0) u 0) = Some i).
  { unfold run_integration. cbn [or_else method lower upper points]. unfold integrate_defined.
    assert (FB : forallb (fun u => defined (integrand_function (char_fun kappa theta sigma rho v 0) u 0)) (nodes roots COMPOSITE_SIMPSONS_RULE (1 / 10 ^ 9) 100 1001) = true).
    { apply forallb_forall. intros u Hu. rewrite IF; [reflexivity|]. rewrite Forall_forall in GP. apply GP. exact Hu. }
    rewrite FB. cbn [integrate]. rewrite <- EI. unfold simpson.
    replace (negb ((3 <=? 1001)%Z && (1001 mod 2 =? 1)%Z)) with false by reflexivity. cbv zeta.
    match goal with |- Some (reduce_sum (vzip _ (map ?f ?l) _) * _ / 3) = Some (reduce_sum (vzip _ (map ?g ?l) _) * _ / 3) => assert (EM : map f l = map g l) end.
    { apply map_ext_in. intros u Hu. rewrite IF; [reflexivity|]. rewrite Forall_forall in GP. apply GP. exact Hu. }
    rewrite EM. reflexivity. }
  unfold european_option_price, market. cbn [spot forward discount_rate discount_factor dividend_rate defined Bool.eqb andb bind or_else expiry strike variance mean_reversion HestonFourierModel.theta HestonFourierModel.rho volvol is_call].
  unfold price_from. destruct (Req_EM_T K 0); [exfalso; lra|]. replace (K / K) with 1 by (field; lra). destruct (Rle_dec 1 0); [exfalso; lra|].
  rewrite ln_1, RI. cbn [bind]. eexists. split; [reflexivity|].
  replace (- 0 * 0) with 0 by ring. rewrite exp_0, Rmult_1_r. pose proof pi_lower as PL.
  assert (Q : i / PI < 497 / 1000). { apply (Rmult_lt_reg_r PI); [lra|]. unfold Rdiv. rewrite Rmult_assoc, Rinv_l by lra. lra. }
  nra.
Qed.
Print Assumptions C87_expiry_refuted.

(** Without randomness of the variance (volvol = 0, the Black-Scholes model with a
    deterministic variance) the characteristic function is a division by zero. *)
Theorem C87_volvol_refuted (kappa theta rho v t u : R) : 0 < kappa -> char_fun kappa theta 0 rho v t u = None.
Proof.
  intros Hk. unfold char_fun. cbv zeta.
  match goal with |- context [cdiv (Cminus ?b (csqrt ?x)) _] => set (bb := b); set (d := csqrt x) end.
  assert (D : d = (kappa, 0)).
  { unfold d.
    match goal with |- csqrt ?x = _ => replace x with ((kappa * kappa, 0) : C) by (apply c_eq; cbn; ring) end.
    assert (M : Cmod (kappa * kappa, 0) = kappa * kappa).
    { unfold Cmod. cbn [fst snd]. replace ((kappa * kappa) ^ 2 + 0 ^ 2) with ((kappa * kappa) * (kappa * kappa)) by ring. apply sqrt_square. nra. }
    unfold csqrt. rewrite M. cbn [fst snd]. apply c_eq; cbn [fst snd].
    - replace ((kappa * kappa + kappa * kappa) / 2) with (kappa * kappa) by field. apply sqrt_square. lra.
    - destruct (Rlt_dec 0 0); [exfalso; lra|]. replace ((kappa * kappa - kappa * kappa) / 2) with 0 by field. apply sqrt_0. }
  rewrite D. destruct (cdiv _ _) as [g|]; [|reflexivity]. cbn [bind]. destruct (cdiv _ _) as [r|]; [|reflexivity]. cbn [bind].
  destruct (ceq r 0); [reflexivity|].
  assert (Z : Cmult (0, 0) (0, 0) = RtoC 0) by (apply c_eq; cbn; ring).
  rewrite Z. unfold cdiv at 1. replace (ceq 0 0) with true by (symmetry; apply ceq_spec; reflexivity). reflexivity.
Qed.
Print Assumptions C87_volvol_refuted.

(** The correlation is declared optional, but leaving it out always raises. *)
Theorem C87_rho_refuted (roots coefficients : nat -> option (list R)) (args : integration_args) (o : heston_option) :
  rho o = None -> european_option_price roots coefficients args o = None.
Proof. intros H. unfold european_option_price. rewrite H. destruct (market o) as [[a b]|]; reflexivity. Qed.
Print Assumptions C87_rho_refuted.

(** With a spot and a discount factor the forward is undefined at expiry zero
    (the rate is a logarithm divided by the expiry), even for the factor 1. *)
Theorem C87_factor_refuted (roots coefficients : nat -> option (list R)) (args : integration_args) (o : heston_option) (S df : R) :
  spot o = Some S -> forward o = None -> discount_rate o = None -> discount_factor o = Some df -> expiry o = 0 ->
  european_option_price roots coefficients args o = None.
Proof.
  intros HS HF HR HD HE. unfold european_option_price, market. rewrite HS, HF, HR, HD, HE. cbn [defined Bool.eqb andb].
  destruct (Rle_dec df 0); [reflexivity|]. destruct (Req_EM_T 0 0) as [_|N]; [reflexivity|contradiction N; reflexivity].
Qed.
Print Assumptions C87_factor_refuted.

(** Exactly one of spot and forward, and at most one of rate and discount
    factor, may be given. *)
Theorem C87_arguments (roots coefficients : nat -> option (list R)) (args : integration_args) (o : heston_option) :
  (spot o = None /\ forward o = None) \/ (spot o <> None /\ forward o <> None) \/ (discount_rate o <> None /\ discount_factor o <> None) ->
  european_option_price roots coefficients args o = None.
Proof.
  intros H. unfold european_option_price, market.
  destruct (spot o), (forward o), (discount_rate o), (discount_factor o); cbn [defined Bool.eqb andb bind]; try reflexivity;
    destruct H as [[? ?]|[[? ?]|[? ?]]]; congruence.
Qed.
Print Assumptions C87_arguments.
