(** Theorems for C92: Dupire's formula. *)
From Coquelicot Require Import Coquelicot.
From Coq Require Import Reals List Bool Arith ZArith Lra Lia Psatz.
From Verif Require Import TensorModel SegmentModel InterpModel BrentModel ExtReal HaganWestModel BootstrapModel BlackScholesModel BlackScholesSpec
  NormalProofs BlackScholesProofs BarrierProofs ImpliedVolProofs SabrProofs PiecewiseModel TimeGridModel Interp2dModel EulerModel LocalVolModel LocalVolSpec LocalVolProofs.
Import ListNotations.
Open Scope R_scope.

(** ** Dupire's formula in terms of prices *)
Theorem C92_prices S0 q D sigma t k r v_t v_k v_kk : 0 < S0 -> 0 < t -> 0 < k -> curve_at D t r -> surface_at sigma t k v_t v_k v_kk ->
  let v := sigma t k in
  let a := calendar r q v v_t v_k t k in
  let b := butterfly (forward_of S0 q D t) v v_k v_kk t k in
  (b <> 0 -> dupire_prices S0 q D sigma t k = Fin (sqrt (Rmax (a / b) 0))) /\ (b = 0 -> dupire_prices S0 q D sigma t k = Fin 0).
Proof.
  intros PS PT PK CU SU v a b. split.
  - exact (prices_value S0 q D sigma t k r v_t v_k v_kk PS PT PK CU SU).
  - exact (prices_zero S0 q D sigma t k r v_t v_k v_kk PS PT PK CU SU).
Qed.

(** The local volatility of the prices solves Dupire's forward equation. *)
Theorem C92_forward_equation S0 q D sigma t k r v_t v_k v_kk : 0 < S0 -> 0 < t -> 0 < k -> curve_at D t r -> surface_at sigma t k v_t v_k v_kk ->
  let price u y := real_of (call_price S0 q D sigma u y) in
  exists c_t c_k c_kk slope, call_price S0 q D sigma t k = Fin (price t k) /\
    is_derive (fun u => price u k) t c_t /\
    locally k (fun y => is_derive (fun z => price t z) y (slope y)) /\ slope k = c_k /\ is_derive slope k c_kk /\
    (0 < c_kk -> 0 <= c_t + (r - q) * k * c_k + q * price t k ->
     exists s, dupire_prices S0 q D sigma t k = Fin s /\ 0 <= s /\ forward_equation r q k s (price t k) c_t c_k c_kk).
Proof.
  intros PS PT PK CU SU price.
  assert (PV := price_value' S0 q D sigma PS t k r v_t v_k v_kk PT PK CU SU).
  assert (GT := price_t S0 q D sigma PS t k r v_t v_k v_kk PT PK CU SU).
  assert (GK := price_k S0 q D sigma PS t k r v_t v_k v_kk PT PK CU SU).
  destruct (price_kk S0 q D sigma PS t k r v_t v_k v_kk PT PK CU SU) as (FI & c1 & D1 & D2).
  exists (ct S0 q D sigma t k r v_t), (ck S0 q D sigma t k v_k), (ckk S0 q D sigma t k v_k v_kk), c1.
  split; [unfold price; rewrite PV; reflexivity|]. split; [exact GT|]. split; [exact D1|]. split.
  { assert (L0 := locally_singleton _ _ D1). cbv beta in L0. rewrite <- (is_derive_unique _ _ _ GK). symmetry. exact (is_derive_unique _ _ _ L0). }
  split; [exact D2|]. intros KK NN.
  assert (EP : price t k = c0 S0 q D sigma t k) by (unfold price; rewrite PV; reflexivity). rewrite EP in *.
  assert (NE := numerator_eq S0 q D sigma t k r v_t v_k v_kk PT SU).
  assert (FP := factor_pos S0 q D sigma t k v_t v_k v_kk PS PT SU).
  set (w := sigma t k * sqrt t) in *. set (f := S0 * exp (- (q * t)) * density (dplus (S0 * exp (- (q * t))) (D t) k w)) in *.
  set (a := calendar r q (sigma t k) v_t v_k t k) in *.
  assert (PW : 0 < w) by exact (pos_s sigma t k v_t v_k v_kk PT SU).
  assert (PF : 0 < f). { replace f with (f / w * w) by (field; lra). apply Rmult_lt_0_compat; assumption. }
  assert (CK : ckk S0 q D sigma t k v_k v_kk = f * butterfly (forward_of S0 q D t) (sigma t k) v_k v_kk t k / (k ^ 2 * w)) by reflexivity.
  set (b := butterfly (forward_of S0 q D t) (sigma t k) v_k v_kk t k) in *.
  assert (PB : 0 < b).
  { rewrite CK in KK. assert (K2 : 0 < k ^ 2) by (apply pow_lt; exact PK). assert (KW : 0 < k ^ 2 * w) by (apply Rmult_lt_0_compat; assumption).
    replace b with (f * b / (k ^ 2 * w) * (k ^ 2 * w) / f) by (field; repeat split; lra).
    apply Rdiv_lt_0_compat; [apply Rmult_lt_0_compat; assumption|exact PF]. }
  assert (PAN : 0 <= a).
  { rewrite NE in NN. replace a with (f * a / (2 * w) * (2 * w / f)) by (field; split; lra).
    apply Rmult_le_pos; [exact NN|]. apply Rlt_le, Rdiv_lt_0_compat; lra. }
  exists (sqrt (Rmax (a / b) 0)). split; [apply (prices_value S0 q D sigma t k r v_t v_k v_kk PS PT PK CU SU); fold b; lra|].
  split; [apply sqrt_pos|]. unfold forward_equation.
  rewrite Rmax_left by (apply Rmult_le_pos; [exact PAN|apply Rlt_le, Rinv_0_lt_compat; exact PB]).
  rewrite pow2_sqrt by (apply Rmult_le_pos; [exact PAN|apply Rlt_le, Rinv_0_lt_compat; exact PB]).
  rewrite CK. replace (a / b / 2 * k ^ 2 * (f * b / (k ^ 2 * w))) with (f * a / (2 * w)) by (field; repeat split; lra).
  rewrite <- NE. ring.
Qed.

(** ** Surfaces without a smile *)
Lemma flat_surface g t k g' : 0 < g t -> is_derive g t g' -> surface_at (fun u _ => g u) t k g' 0 0.
Proof.
  intros PG DG. split; [exact PG|]. split; [exact DG|]. exists (fun _ => 0).
  split; [apply filter_forall; intros y; apply (is_derive_const (V := R_NormedModule))|]. split; [reflexivity|apply (is_derive_const (V := R_NormedModule))].
Qed.

(** The local variance is the derivative of the total implied variance, or zero
    where that is negative, with both methods and for every discount curve. *)
Theorem C92_term_structure S0 q D g t k r g' : 0 < S0 -> 0 < t -> 0 < k -> curve_at D t r -> 0 < g t -> is_derive g t g' ->
  exists w, is_derive (fun u => g u ^ 2 * u) t w /\
    dupire_prices S0 q D (fun u _ => g u) t k = Fin (sqrt (Rmax w 0)) /\ dupire_iv S0 q D (fun u _ => g u) t k = Fin (sqrt (Rmax w 0)).
Proof.
  intros PS PT PK CU PG DG. assert (SU := flat_surface g t k g' PG DG).
  exists (g t ^ 2 + 2 * t * g t * g'). split.
  { assert (EG : Derive g t = g') by (apply is_derive_unique; exact DG). auto_derive; [repeat split; eexists; exact DG|].
    change (fun x => g x) with g. rewrite EG. ring. }
  assert (EC : calendar r q (g t) g' 0 t k = g t ^ 2 + 2 * t * g t * g') by (unfold calendar; ring).
  assert (EB : butterfly (forward_of S0 q D t) (g t) 0 0 t k = 1) by (unfold butterfly; ring).
  assert (EI : code_butterfly S0 q (fun u _ => g u) t k r 0 0 = 1) by (unfold code_butterfly; ring).
  split.
  - rewrite (prices_value S0 q D _ t k r _ _ _ PS PT PK CU SU) by lra. rewrite EB, EC. do 3 f_equal. field.
  - rewrite (iv_value S0 q D _ t k r _ _ _ PS PT PK CU SU) by lra. rewrite EI, EC. do 3 f_equal. field.
Qed.
Theorem C92_flat S0 q D v t k r : 0 < S0 -> 0 < t -> 0 < k -> 0 < v -> curve_at D t r ->
  dupire_prices S0 q D (fun _ _ => v) t k = Fin v /\ dupire_iv S0 q D (fun _ _ => v) t k = Fin v.
Proof.
  intros PS PT PK PV CU.
  destruct (C92_term_structure S0 q D (fun _ => v) t k r 0 PS PT PK CU PV) as (w & DW & E1 & E2); [apply (is_derive_const (V := R_NormedModule))|].
  assert (EW : w = v ^ 2). { rewrite <- (is_derive_unique _ _ _ DW). apply is_derive_unique. auto_derive; [exact I|ring]. }
  assert (EV : sqrt (Rmax w 0) = v). { rewrite EW, Rmax_left by nra. apply sqrt_pow2. lra. }
  rewrite E1, E2, EV. split; reflexivity.
Qed.

(** Without calendar arbitrage the local variances add up to the quoted total
    variance, so the model gives back the implied volatilities. *)
Theorem C92_total_variance S0 q D rate g g' k a b : 0 < S0 -> 0 < a <= b -> 0 < k ->
  (forall t, a <= t <= b -> curve_at D t (rate t) /\ 0 < g t /\ is_derive g t (g' t) /\ continuous g' t /\ 0 <= g t ^ 2 + 2 * t * g t * g' t) ->
  is_RInt (fun t => real_of (dupire_prices S0 q D (fun u _ => g u) t k) ^ 2) a b (g b ^ 2 * b - g a ^ 2 * a) /\
  is_RInt (fun t => real_of (dupire_iv S0 q D (fun u _ => g u) t k) ^ 2) a b (g b ^ 2 * b - g a ^ 2 * a).
Proof.
  intros PS (PA & AB) PK H.
  assert (DW : forall t, a <= t <= b -> is_derive (fun u => g u ^ 2 * u) t (g t ^ 2 + 2 * t * g t * g' t)).
  { intros t IT. destruct (H t IT) as (_ & _ & DG & _). assert (EG : Derive g t = g' t) by (apply is_derive_unique; exact DG).
    auto_derive; [repeat split; eexists; exact DG|]. change (fun x => g x) with g. rewrite EG. ring. }
  assert (V : forall t, a <= t <= b -> real_of (dupire_prices S0 q D (fun u _ => g u) t k) ^ 2 = g t ^ 2 + 2 * t * g t * g' t /\
                                       real_of (dupire_iv S0 q D (fun u _ => g u) t k) ^ 2 = g t ^ 2 + 2 * t * g t * g' t).
  { intros t IT. destruct (H t IT) as (CU & PG & DG & _ & NN). assert (PT : 0 < t) by lra.
    destruct (C92_term_structure S0 q D g t k (rate t) (g' t) PS PT PK CU PG DG) as (w & W & E1 & E2).
    assert (EW : w = g t ^ 2 + 2 * t * g t * g' t). { rewrite <- (is_derive_unique _ _ _ W). apply is_derive_unique. exact (DW t IT). }
    rewrite E1, E2. cbn [real_of]. rewrite EW, Rmax_left by lra. rewrite pow2_sqrt by exact NN. split; reflexivity. }
  assert (IN : is_RInt (fun t => g t ^ 2 + 2 * t * g t * g' t) a b (g b ^ 2 * b - g a ^ 2 * a)).
  { apply (is_RInt_derive (V := R_CompleteNormedModule) (fun u => g u ^ 2 * u)).
    - intros t IT. rewrite Rmin_left, Rmax_right in IT by exact AB. exact (DW t IT).
    - intros t IT. rewrite Rmin_left, Rmax_right in IT by exact AB. destruct (H t IT) as (_ & _ & DG & CG & _).
      assert (CO : continuous g t) by (apply (ex_derive_continuous (V := R_NormedModule)); eexists; exact DG).
      apply (continuous_plus (V := R_NormedModule) (fun t => g t ^ 2) (fun t => 2 * t * g t * g' t)).
      + apply (ex_derive_continuous (V := R_NormedModule)). auto_derive. eexists; exact DG.
      + apply (continuous_mult (K := R_AbsRing) (fun t => 2 * t * g t) g'); [|exact CG].
        apply (continuous_mult (K := R_AbsRing) (fun t => 2 * t) g); [|exact CO].
        apply (continuous_mult (K := R_AbsRing) (fun _ => 2) (fun t => t)); [apply continuous_const|apply continuous_id]. }
  split; (eapply is_RInt_ext; [|exact IN]); intros t IT; rewrite Rmin_left, Rmax_right in IT by exact AB; symmetry; apply V; lra.
Qed.

(** ** The two methods *)
Theorem C92_methods_partial S0 q D sigma t k r v_t v_k v_kk : 0 < S0 -> 0 < t -> 0 < k -> curve_at D t r -> surface_at sigma t k v_t v_k v_kk ->
  v_k = 0 \/ (t = 1 /\ ln (D 1) = - r) ->
  dupire_iv S0 q D sigma t k = dupire_prices S0 q D sigma t k.
Proof.
  intros PS PT PK CU SU HY.
  assert (E : code_butterfly S0 q sigma t k r v_k v_kk = butterfly (forward_of S0 q D t) (sigma t k) v_k v_kk t k).
  { destruct HY as [->|(-> & LD)]; [unfold code_butterfly, butterfly; ring|].
    assert (ED : code_d1 S0 q sigma 1 k r = d1 (forward_of S0 q D 1) (sigma 1 k) 1 k).
    { unfold code_d1, d1, forward_of. destruct CU as (PD & _). f_equal. rewrite !Rmult_1_r.
      assert (PE : 0 < S0 * exp (- q)) by (apply Rmult_lt_0_compat; [exact PS|apply exp_pos]).
      rewrite (ln_div S0 k PS PK), (ln_div (S0 * exp (- q) / D 1) k (Rdiv_lt_0_compat _ _ PE PD) PK), (ln_div _ _ PE PD).
      rewrite ln_mult, ln_exp by (try apply exp_pos; assumption). rewrite LD. ring. }
    unfold code_butterfly, butterfly. rewrite ED, sqrt_1. ring. }
  rewrite (iv_raw S0 q D sigma t k r v_t v_k v_kk PS PT PK CU SU), E.
  set (b := butterfly _ _ _ _ _ _). destruct (Req_EM_T b 0) as [Z|NZ].
  - rewrite (prices_zero S0 q D sigma t k r v_t v_k v_kk PS PT PK CU SU Z). rewrite Z, dnn_zero, sqrt_relu, Rmax_left by lra. rewrite sqrt_0. reflexivity.
  - rewrite (prices_value S0 q D sigma t k r v_t v_k v_kk PS PT PK CU SU NZ). rewrite xdnn by exact NZ. apply sqrt_relu.
Qed.

(** A skew of one point of volatility per ten per cent of the strike. *)
Definition skew (_ k : R) : R := 1 / 5 + (1 - k) / 10.
Lemma skew_at t k : k < 3 -> surface_at skew t k 0 (- (1 / 10)) 0.
Proof.
  intros PK. unfold skew. split; [lra|]. split; [apply (is_derive_const (V := R_NormedModule))|]. exists (fun _ => - (1 / 10)).
  split; [apply filter_forall; intros y; auto_derive; [exact I|field]|]. split; [reflexivity|apply (is_derive_const (V := R_NormedModule))].
Qed.
Lemma no_rates t : curve_at (fun _ => 1) t 0.
Proof. split; [lra|]. replace (- 0 * 1) with 0 by ring. apply (is_derive_const (V := R_NormedModule)). Qed.

(** Four years, the strike at the money, no rates and no dividends: the
    variances are 250/5740 and 250/5250. *)
Theorem C92_smile_refuted : exists p i,
  dupire_prices 1 0 (fun _ => 1) skew 4 1 = Fin (sqrt p) /\ dupire_iv 1 0 (fun _ => 1) skew 4 1 = Fin (sqrt i) /\
  p = 25 / 574 /\ i = 1 / 21 /\ sqrt p < sqrt i.
Proof.
  assert (PS : 0 < 1) by lra. assert (PT : 0 < 4) by lra. assert (K3 : 1 < 3) by lra.
  assert (SU := skew_at 4 1 K3). assert (CU := no_rates 4).
  assert (S4 : sqrt 4 = 2) by (replace 4 with (2 ^ 2) by ring; apply sqrt_pow2; lra).
  assert (V : skew 4 1 = 1 / 5) by (unfold skew; field).
  assert (EC : calendar 0 0 (skew 4 1) 0 (- (1 / 10)) 4 1 = 1 / 25) by (unfold calendar; rewrite V; field).
  assert (EB : butterfly (forward_of 1 0 (fun _ => 1) 4) (skew 4 1) (- (1 / 10)) 0 4 1 = 574 / 625).
  { unfold butterfly, d1, forward_of. rewrite V, S4. replace (- (0 * 4)) with 0 by ring. rewrite exp_0. replace (1 * 1 / 1 / 1) with 1 by field. rewrite ln_1. field. }
  assert (EI : code_butterfly 1 0 skew 4 1 0 (- (1 / 10)) 0 = 21 / 25).
  { unfold code_butterfly, code_d1. rewrite V, S4. replace (1 / 1) with 1 by field. rewrite ln_1. field. }
  exists (25 / 574), (1 / 21). split.
  { rewrite (prices_value 1 0 _ skew 4 1 0 _ _ _ PS PT PS CU SU) by lra. rewrite EB, EC. rewrite Rmax_left by lra. do 2 f_equal. field. }
  split.
  { rewrite (iv_value 1 0 _ skew 4 1 0 _ _ _ PS PT PS CU SU) by lra. rewrite EI, EC. rewrite Rmax_left by lra. do 2 f_equal. field. }
  repeat split; try reflexivity. apply sqrt_lt_1; lra.
Qed.

(** One year, where the factors of time agree, and a discount curve whose
    rate rises with the time: the discount factor is exp (-t^2/50). *)
Definition rising (t : R) : R := exp (- (t ^ 2 / 50)).
Lemma rising_at t : curve_at rising t (t / 25).
Proof. split; [apply exp_pos|]. unfold rising. auto_derive; [exact I|]. replace (t * (t * 1) * / 50) with (t ^ 2 / 50) by field. generalize (exp (- (t ^ 2 / 50))). intros x. field. Qed.
Theorem C92_curve_refuted : exists p i,
  dupire_prices 1 0 rising skew 1 1 = Fin (sqrt p) /\ dupire_iv 1 0 rising skew 1 1 = Fin (sqrt i) /\ sqrt p < sqrt i.
Proof.
  assert (PS : 0 < 1) by lra. assert (K3 : 1 < 3) by lra.
  assert (SU := skew_at 1 1 K3). assert (CU := rising_at 1).
  assert (V : skew 1 1 = 1 / 5) by (unfold skew; field).
  assert (EC : calendar (1 / 25) 0 (skew 1 1) 0 (- (1 / 10)) 1 1 = 1 / 25 - 1 / 625) by (unfold calendar; rewrite V; field).
  assert (EB : exists b, butterfly (forward_of 1 0 rising 1) (skew 1 1) (- (1 / 10)) 0 1 1 = b /\ b = 24 / 25).
  { eexists. split; [reflexivity|]. unfold butterfly, d1, forward_of. rewrite V, sqrt_1. replace (- (0 * 1)) with 0 by ring. rewrite exp_0.
    replace (1 * 1 / rising 1 / 1) with (/ rising 1) by (field; assert (Z := exp_pos (- (1 ^ 2 / 50))); unfold rising; lra).
    rewrite ln_Rinv by apply exp_pos. unfold rising. rewrite ln_exp. field. }
  destruct EB as (b & EB & Eb).
  assert (EI : exists c, code_butterfly 1 0 skew 1 1 (1 / 25) (- (1 / 10)) 0 = c /\ c = 9403 / 10000).
  { eexists. split; [reflexivity|]. unfold code_butterfly, code_d1. rewrite V, sqrt_1. replace (1 / 1) with 1 by field. rewrite ln_1. field. }
  destruct EI as (c & EI & Ec).
  exists ((1 / 25 - 1 / 625) / b), ((1 / 25 - 1 / 625) / c). split.
  { rewrite (prices_value 1 0 _ skew 1 1 (1 / 25) _ _ _ PS PS PS CU SU) by lra. rewrite EB, EC. rewrite Rmax_left; [reflexivity|].
    rewrite Eb. lra. }
  split.
  { rewrite (iv_value 1 0 _ skew 1 1 (1 / 25) _ _ _ PS PS PS CU SU) by lra. rewrite EI, EC. rewrite Rmax_left; [reflexivity|]. rewrite Ec. lra. }
  rewrite Eb, Ec. apply sqrt_lt_1; lra.
Qed.
