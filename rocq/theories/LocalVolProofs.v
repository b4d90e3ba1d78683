(** Lemmas for C92. *)
From Coquelicot Require Import Coquelicot.
From Coq Require Import Reals List Bool Arith ZArith Lra Lia Psatz.
From Verif Require Import TensorModel SegmentModel InterpModel BrentModel ExtReal HaganWestModel BootstrapModel BlackScholesModel BlackScholesSpec
  NormalProofs BlackScholesProofs BarrierProofs ImpliedVolProofs SabrProofs PiecewiseModel TimeGridModel Interp2dModel EulerModel LocalVolModel LocalVolSpec.
Import ListNotations.
Open Scope R_scope.

(** * The Black-Scholes formula *)
Definition dplus (A D y s : R) : R := ln (A / D / y) / s + s / 2.
Definition bs (A D y s : R) : R := A * ncdf (dplus A D y s) - y * D * ncdf (dplus A D y s - s).

Lemma density_shift A D y s : 0 < A -> 0 < D -> 0 < y -> 0 < s -> A * density (dplus A D y s) = y * D * density (dplus A D y s - s).
Proof.
  intros PA PD PY PS. unfold density. set (d := dplus A D y s).
  assert (X : exp (- ((d - s) ^ 2 / 2)) = exp (- (d ^ 2 / 2)) * (A / D / y)).
  { rewrite <- (exp_ln (A / D / y)) at 1 by (repeat apply Rdiv_lt_0_compat; assumption). rewrite <- exp_plus. f_equal.
    unfold d, dplus. field. lra. }
  rewrite X. assert (Q := sqrt2pi_pos). field. repeat split; lra.
Qed.

Lemma dplus_derive (A D y s : R -> R) u A' D' y' s' : 0 < A u -> 0 < D u -> 0 < y u -> 0 < s u ->
  is_derive A u A' -> is_derive D u D' -> is_derive y u y' -> is_derive s u s' ->
  is_derive (fun x => dplus (A x) (D x) (y x) (s x)) u
    ((A' / A u - D' / D u - y' / y u) / s u - ln (A u / D u / y u) * s' / (s u) ^ 2 + s' / 2).
Proof.
  intros PA PD PY PS DA DD DY DS. unfold dplus.
  assert (EA : Derive A u = A') by (apply is_derive_unique; exact DA).
  assert (ED : Derive D u = D') by (apply is_derive_unique; exact DD).
  assert (EY : Derive y u = y') by (apply is_derive_unique; exact DY).
  assert (ES : Derive s u = s') by (apply is_derive_unique; exact DS).
  auto_derive.
  - repeat split; try (eexists; eassumption); try lra.
    apply Rmult_lt_0_compat; [apply Rmult_lt_0_compat; [exact PA|]|]; apply Rinv_0_lt_compat; assumption.
  - rewrite ?EA, ?ED, ?EY, ?ES. change (fun x => A x) with A. change (fun x => D x) with D. change (fun x => y x) with y. change (fun x => s x) with s.
    rewrite ?EA, ?ED, ?EY, ?ES. unfold Rdiv. generalize (ln (A u * / D u * / y u)). intros l. field. repeat split; lra.
Qed.

Lemma bs_derive (A D y s : R -> R) u A' D' y' s' : 0 < A u -> 0 < D u -> 0 < y u -> 0 < s u ->
  is_derive A u A' -> is_derive D u D' -> is_derive y u y' -> is_derive s u s' ->
  is_derive (fun x => bs (A x) (D x) (y x) (s x)) u
    (A' * ncdf (dplus (A u) (D u) (y u) (s u)) - (y' * D u + y u * D') * ncdf (dplus (A u) (D u) (y u) (s u) - s u)
     + A u * density (dplus (A u) (D u) (y u) (s u)) * s').
Proof.
  intros PA PD PY PS DA DD DY DS. unfold bs.
  assert (DP := dplus_derive A D y s u A' D' y' s' PA PD PY PS DA DD DY DS).
  match type of DP with is_derive _ _ ?d => set (dp := d) in DP end. clearbody dp.
  set (p := fun x => dplus (A x) (D x) (y x) (s x)) in *.
  assert (N1 : is_derive (fun x => ncdf (p x)) u (dp * density (p u))).
  { apply (is_derive_comp (V := R_NormedModule) ncdf p); [apply ncdf_derive|exact DP]. }
  assert (N2 : is_derive (fun x => ncdf (p x - s x)) u ((dp - s') * density (p u - s u))).
  { apply (is_derive_comp (V := R_NormedModule) ncdf (fun x => p x - s x)); [apply ncdf_derive|].
    apply (is_derive_minus (V := R_NormedModule) p s u dp s'); assumption. }
  assert (T1 := is_derive_mult A (fun x => ncdf (p x)) u A' _ DA N1 Rmult_comm).
  assert (T2 := is_derive_mult y D u y' D' DY DD Rmult_comm).
  assert (T3 := is_derive_mult (fun x => y x * D x) (fun x => ncdf (p x - s x)) u _ _ T2 N2 Rmult_comm).
  assert (T := is_derive_minus (V := R_NormedModule) _ _ u _ _ T1 T3).
  assert (SH := density_shift (A u) (D u) (y u) (s u) PA PD PY PS). fold (p u) in SH.
  unfold minus, plus, opp, mult in T; cbn in T.
  match type of T with is_derive _ _ ?a => match goal with |- is_derive _ _ ?b => replace b with a; [exact T|] end end.
  fold (p u). replace (A u * density (p u) * s') with (y u * D u * density (p u - s u) * s') by (rewrite SH; ring).
  replace (A u * (dp * density (p u))) with (dp * (A u * density (p u))) by ring. rewrite SH. ring.
Qed.

(** * The price surface *)
Lemma locally_pos (f : R -> R) x : continuous f x -> 0 < f x -> locally x (fun y => 0 < f y).
Proof. intros C P. apply C. apply (open_gt 0). exact P. Qed.
Lemma derive_pos (f : R -> R) x l : is_derive f x l -> 0 < f x -> locally x (fun y => 0 < f y).
Proof. intros Df P. apply locally_pos; [|exact P]. apply (ex_derive_continuous (V := R_NormedModule)). eexists. exact Df. Qed.

Section Point.
  Variables (S0 q : R) (D : R -> R) (sigma : R -> R -> R).
  Hypothesis PS : 0 < S0.
  Local Notation price := (call_price S0 q D sigma).

  Lemma price_bs t k : 0 < t -> 0 < k -> 0 < D t -> 0 < sigma t k ->
    price t k = Fin (bs (S0 * exp (- (q * t))) (D t) k (sigma t k * sqrt t)).
  Proof.
    intros PT PK PD PV. unfold call_price.
    set (a := price_args S0 q D sigma t k). set (F := S0 * exp (- (q * t)) / D t).
    assert (PF : 0 < F). { apply Rdiv_lt_0_compat; [|exact PD]. apply Rmult_lt_0_compat; [exact PS|apply exp_pos]. }
    assert (QU : quoted a (D t) F).
    { unfold quoted. repeat split; try (cbn; lra); try exact PD; try (intros _; split; [exact PF|exact PK]); try exact PF; try exact PK.
      unfold degenerate. cbn. intros (Z & _). lra. }
    assert (DV : 0 < deviation a) by (unfold deviation; cbn; apply Rmult_lt_0_compat; [exact PV|apply sqrt_lt_R0; exact PT]).
    assert (CP := call_pos a (D t) F QU DV).
    unfold option_price. rewrite (quoted_ok a (D t) F QU). cbn [negb]. rewrite (quoted_discount a (D t) F QU), CP.
    change (is_call_option a) with (@None bool). cbv iota. change (is_normal_volatility a) with false.
    rewrite above_log by lra. cbn [xmul]. f_equal. change (strike a) with k. change (deviation a) with (sigma t k * sqrt t).
    unfold bs, dplus. fold F. change (ln (S0 * exp (- (q * t)) / D t / k)) with (ln (F / k)).
    assert (AF : S0 * exp (- (q * t)) = D t * F) by (unfold F; field; lra). rewrite AF. ring.
  Qed.

  Variables (t k r v_t v_k v_kk : R).
  Hypothesis PT : 0 < t. Hypothesis PK : 0 < k.
  Hypothesis CU : curve_at D t r. Hypothesis SU : surface_at sigma t k v_t v_k v_kk.

  Local Notation v := (sigma t k).
  Local Notation A := (S0 * exp (- (q * t))).
  Local Notation s := (sigma t k * sqrt t).
  Local Notation F := (forward_of S0 q D t).
  Local Notation dp := (dplus A (D t) k s).
  Local Notation n1 := (density dp).

  Lemma PA : 0 < A. Proof using PS. apply Rmult_lt_0_compat; [exact PS|apply exp_pos]. Qed.
  Lemma pos_s : 0 < s. Proof using PT SU. apply Rmult_lt_0_compat; [exact (proj1 SU)|apply sqrt_lt_R0; exact PT]. Qed.

  Definition c0 : R := bs A (D t) k s.
  Definition ct : R := - q * A * ncdf dp + r * k * D t * ncdf (dp - s) + A * n1 * (v_t * sqrt t + v / (2 * sqrt t)).
  Definition ck : R := - D t * ncdf (dp - s) + A * n1 * (v_k * sqrt t).
  Definition ckk : R := A * n1 * butterfly F v v_k v_kk t k / (k ^ 2 * s).

  Lemma price_value' : price t k = Fin c0.
  Proof using PS PT PK CU SU. apply price_bs; try assumption; [exact (proj1 CU)|exact (proj1 SU)]. Qed.

  Lemma price_t : is_derive (fun u => real_of (price u k)) t ct.
  Proof using PS PT PK CU SU.
    destruct CU as (PD & DD). destruct SU as (PV & DT & _).
    apply (is_derive_ext_loc (fun u => bs (S0 * exp (- (q * u))) (D u) k (sigma u k * sqrt u))).
    - assert (L1 := derive_pos D t _ DD PD). assert (L2 := derive_pos (fun u => sigma u k) t _ DT PV).
      assert (L3 : locally t (fun u => 0 < u)) by (apply (open_gt 0); exact PT).
      refine (filter_imp _ _ _ (filter_and _ _ L1 (filter_and _ _ L2 L3))). cbv beta.
      intros u (P1 & P2 & P3). rewrite price_bs by assumption. reflexivity.
    - assert (SQ : 0 < sqrt t) by (apply sqrt_lt_R0; exact PT).
      assert (DS : is_derive (fun u => sigma u k * sqrt u) t (v_t * sqrt t + v / (2 * sqrt t))).
      { assert (E1 : is_derive sqrt t (/ (2 * sqrt t))). { auto_derive; [exact PT|field; lra]. }
        assert (E := is_derive_mult (fun u => sigma u k) sqrt t v_t _ DT E1 Rmult_comm). exact E. }
      assert (DA : is_derive (fun u => S0 * exp (- (q * u))) t (- q * A)). { auto_derive; [exact I|ring]. }
      assert (DK : is_derive (fun _ : R => k) t 0) by apply (is_derive_const (V := R_NormedModule)).
      assert (B := bs_derive (fun u => S0 * exp (- (q * u))) D (fun _ => k) (fun u => sigma u k * sqrt u) t _ _ _ _ PA PD PK pos_s DA DD DK DS).
      cbv beta in B. unfold ct. match type of B with is_derive _ _ ?a => match goal with |- is_derive _ _ ?b => replace b with a; [exact B|ring] end end.
  Qed.

  Lemma price_k_at y slope : 0 < y -> 0 < sigma t y -> is_derive (fun z => sigma t z) y slope ->
    is_derive (fun z => real_of (price t z)) y
      (- D t * ncdf (dplus A (D t) y (sigma t y * sqrt t) - sigma t y * sqrt t) + A * density (dplus A (D t) y (sigma t y * sqrt t)) * (slope * sqrt t)).
  Proof using PS PT CU.
    intros PY PV DV. destruct CU as (PD & _).
    apply (is_derive_ext_loc (fun z => bs A (D t) z (sigma t z * sqrt t))).
    - assert (L2 := derive_pos (fun z => sigma t z) y _ DV PV).
      assert (L3 : locally y (fun u => 0 < u)) by (apply (open_gt 0); exact PY).
      refine (filter_imp _ _ _ (filter_and _ _ L2 L3)). cbv beta.
      intros z (P2 & P3). rewrite price_bs by assumption. reflexivity.
    - assert (SQ : 0 < sqrt t) by (apply sqrt_lt_R0; exact PT).
      assert (DS : is_derive (fun z => sigma t z * sqrt t) y (slope * sqrt t)).
      { apply (is_derive_scal_l (V := R_NormedModule) (fun z => sigma t z) y slope (sqrt t)). exact DV. }
      assert (C1 : is_derive (fun _ : R => A) y 0) by apply (is_derive_const (V := R_NormedModule)).
      assert (C2 : is_derive (fun _ : R => D t) y 0) by apply (is_derive_const (V := R_NormedModule)).
      assert (C3 : is_derive (fun z : R => z) y 1) by apply (is_derive_id (K := R_AbsRing)).
      assert (PSy : 0 < sigma t y * sqrt t) by (apply Rmult_lt_0_compat; assumption).
      assert (B := bs_derive (fun _ => A) (fun _ => D t) (fun z => z) (fun z => sigma t z * sqrt t) y _ _ _ _ PA PD PY PSy C1 C2 C3 DS).
      cbv beta in B. match type of B with is_derive _ _ ?a => match goal with |- is_derive _ _ ?b => replace b with a; [exact B|ring] end end.
  Qed.

  Lemma price_k : is_derive (fun z => real_of (price t z)) k ck.
  Proof using PS PT PK CU SU.
    destruct SU as (PV & _ & slope & L & E & _). assert (L0 := locally_singleton _ _ L). cbv beta in L0.
    assert (B := price_k_at k (slope k) PK PV L0). rewrite E in B. exact B.
  Qed.

  Lemma dp_d1 : dp = d1 F v t k.
  Proof using PT SU.
    clear CU. destruct SU as (PV & _). unfold dplus, d1, forward_of. assert (SQ : 0 < sqrt t) by (apply sqrt_lt_R0; exact PT).
    assert (QQ : sqrt t * sqrt t = t) by (apply sqrt_sqrt; lra).
    replace (v ^ 2 / 2 * t) with (v ^ 2 / 2 * (sqrt t * sqrt t)) by (rewrite QQ; reflexivity). field. lra.
  Qed.

  Lemma price_kk : locally k (fun y => is_finite (price t y) = true) /\ exists c1, locally k (fun y => is_derive (fun z => real_of (price t z)) y (c1 y)) /\ is_derive c1 k ckk.
  Proof using PS PT PK CU SU.
    destruct CU as (PD & DD). destruct SU as (PV & _ & slope & L & E & D2).
    assert (L0 := locally_singleton _ _ L). cbv beta in L0.
    assert (L2 := derive_pos (fun z => sigma t z) k _ L0 PV).
    assert (L3 : locally k (fun u => 0 < u)) by (apply (open_gt 0); exact PK).
    split. { refine (filter_imp _ _ _ (filter_and _ _ L2 L3)). cbv beta. intros y (P2 & P3). rewrite price_bs by assumption. reflexivity. }
    exists (fun y => - D t * ncdf (dplus A (D t) y (sigma t y * sqrt t) - sigma t y * sqrt t) + A * density (dplus A (D t) y (sigma t y * sqrt t)) * (slope y * sqrt t)).
    split.
    { refine (filter_imp _ _ _ (filter_and _ _ L (filter_and _ _ L2 L3))). cbv beta. intros y (P1 & P2 & P3). apply price_k_at; assumption. }
    assert (SQ : 0 < sqrt t) by (apply sqrt_lt_R0; exact PT).
    assert (QQ : sqrt t * sqrt t = t) by (apply sqrt_sqrt; lra).
    assert (DS : is_derive (fun z => sigma t z * sqrt t) k (slope k * sqrt t)).
    { apply (is_derive_scal_l (V := R_NormedModule) (fun z => sigma t z) k (slope k) (sqrt t)). exact L0. }
    assert (C1 : is_derive (fun _ : R => A) k 0) by apply (is_derive_const (V := R_NormedModule)).
    assert (C2 : is_derive (fun _ : R => D t) k 0) by apply (is_derive_const (V := R_NormedModule)).
    assert (C3 : is_derive (fun z : R => z) k 1) by apply (is_derive_id (K := R_AbsRing)).
    assert (DP := dplus_derive (fun _ => A) (fun _ => D t) (fun z => z) (fun z => sigma t z * sqrt t) k _ _ _ _ PA PD PK pos_s C1 C2 C3 DS).
    cbv beta in DP. set (dp' := (0 / A - 0 / D t - 1 / k) / s - ln (A / D t / k) * (slope k * sqrt t) / s ^ 2 + slope k * sqrt t / 2) in DP.
    assert (ED : dp' = - (1 / (k * s)) - v_k * sqrt t * (dp - s) / s).
    { unfold dp', dplus. rewrite E. assert (EX := exp_pos (- (q * t))). field. repeat split; lra. }
    set (p := fun y => dplus A (D t) y (sigma t y * sqrt t)) in *.
    assert (N2 : is_derive (fun y => ncdf (p y - sigma t y * sqrt t)) k ((dp' - slope k * sqrt t) * density (p k - s))).
    { apply (is_derive_comp (V := R_NormedModule) ncdf (fun y => p y - sigma t y * sqrt t)); [apply ncdf_derive|].
      apply (is_derive_minus (V := R_NormedModule) p (fun z => sigma t z * sqrt t)); assumption. }
    assert (N1 : is_derive (fun y => density (p y)) k (dp' * (- p k * density (p k)))).
    { apply (is_derive_comp (V := R_NormedModule) density p); [apply density_derive|exact DP]. }
    assert (T1 := is_derive_scal (fun y => ncdf (p y - sigma t y * sqrt t)) k (- D t) _ N2).
    assert (T2 := is_derive_scal (fun y => density (p y)) k A _ N1).
    assert (T3 := is_derive_scal_l (V := R_NormedModule) slope k v_kk (sqrt t) D2).
    assert (T4 := is_derive_mult (fun y => A * density (p y)) (fun y => slope y * sqrt t) k _ _ T2 T3 Rmult_comm).
    assert (T := is_derive_plus (V := R_NormedModule) _ _ k _ _ T1 T4).
    unfold plus, mult, scal in T; cbn in T. unfold mult in T; cbn in T.
    match type of T with is_derive _ _ ?a => match goal with |- is_derive _ _ ?b => replace b with a; [exact T|] end end.
    assert (SH := density_shift A (D t) k s PA PD PK pos_s). change (p k) with dp.
    unfold ckk, butterfly. rewrite <- dp_d1. rewrite E, ED.
    replace (- D t * ((- (1 / (k * s)) - v_k * sqrt t * (dp - s) / s - v_k * sqrt t) * density (dp - s)))
      with (- / k * ((- (1 / (k * s)) - v_k * sqrt t * (dp - s) / s - v_k * sqrt t) * (A * n1))) by (rewrite SH; match goal with |- context [- D t * (?x * _)] => generalize x end; intros x; field; lra).
    clear - PV PK SQ QQ. generalize n1. intros n. generalize dp. intros d.
    replace (k ^ 2 * t * v) with (k ^ 2 * (sqrt t * sqrt t) * v) by (rewrite QQ; reflexivity).
    field. repeat split; lra.
  Qed.
End Point.

(** * The two formulas *)
Lemma gradient_value f x l : is_finite (f x) = true -> is_derive (fun y => real_of (f y)) x l -> fwd_gradient f x = Fin l.
Proof. intros H Df. unfold fwd_gradient. rewrite H. f_equal. apply is_derive_unique. exact Df. Qed.
Lemma gradient_loc f x c : locally x (fun y => is_finite (f y) = true) -> locally x (fun y => is_derive (fun z => real_of (f z)) y (c y)) ->
  locally x (fun y => fwd_gradient f y = Fin (c y)).
Proof.
  intros H Df. refine (filter_imp _ _ _ (filter_and _ _ H Df)). cbv beta. intros y (P1 & P2). apply gradient_value; assumption.
Qed.
Lemma gradient_twice f x c l : locally x (fun y => is_finite (f y) = true) -> locally x (fun y => is_derive (fun z => real_of (f z)) y (c y)) ->
  is_derive c x l -> fwd_gradient (fun y => fwd_gradient f y) x = Fin l.
Proof.
  intros H Df D2. assert (L := gradient_loc f x c H Df). apply gradient_value.
  - assert (L0 := locally_singleton _ _ L). cbv beta in L0. rewrite L0. reflexivity.
  - apply (is_derive_ext_loc c); [|exact D2]. refine (filter_imp _ _ _ L). cbv beta. intros y E. rewrite E. reflexivity.
Qed.
Lemma rate_value D t r : curve_at D t r -> risk_free_rate_fn D t = Fin r.
Proof.
  intros (PD & DD). unfold risk_free_rate_fn. apply gradient_value.
  - rewrite xln_pos by exact PD. reflexivity.
  - apply (is_derive_ext_loc (fun u => - ln (D u))).
    + refine (filter_imp _ _ _ (derive_pos D t _ DD PD)). cbv beta. intros u P. rewrite xln_pos by exact P. reflexivity.
    + assert (ED : Derive D t = - r * D t) by (apply is_derive_unique; exact DD).
      auto_derive; [split; [eexists; exact DD|split; [exact PD|exact I]]|]. change (fun x => D x) with D. rewrite ED. field. lra.
Qed.
Lemma relu_fin a : relu (Fin a) = Fin (Rmax a 0).
Proof. apply xmax_f. Qed.
Lemma sqrt_relu a : xsqrt (relu (Fin a)) = Fin (sqrt (Rmax a 0)).
Proof. rewrite relu_fin. apply xsqrt_ok. apply Rmax_r. Qed.
Lemma dnn_zero a : xdivide_no_nan (Fin a) (Fin 0) = Fin 0.
Proof. unfold xdivide_no_nan. cbn. unfold req. destruct (Req_EM_T 0 0); [reflexivity|congruence]. Qed.

Section Values.
  Variables (S0 q : R) (D : R -> R) (sigma : R -> R -> R) (t k r v_t v_k v_kk : R).
  Hypothesis PS : 0 < S0. Hypothesis PT : 0 < t. Hypothesis PK : 0 < k.
  Hypothesis CU : curve_at D t r. Hypothesis SU : surface_at sigma t k v_t v_k v_kk.
  Local Notation v := (sigma t k).
  Local Notation F := (forward_of S0 q D t).
  Local Notation A := (S0 * exp (- (q * t))).
  Local Notation s := (sigma t k * sqrt t).
  Local Notation dp := (dplus A (D t) k s).

  Lemma numerator_eq : ct S0 q D sigma t k r v_t + (r - q) * k * ck S0 q D sigma t k v_k + q * c0 S0 q D sigma t k
    = A * density dp * calendar r q v v_t v_k t k / (2 * s).
  Proof using PT SU.
    clear CU. destruct SU as (PV & _). assert (SQ : 0 < sqrt t) by (apply sqrt_lt_R0; exact PT).
    assert (QQ : sqrt t * sqrt t = t) by (apply sqrt_sqrt; lra).
    unfold ct, ck, c0, bs, calendar. generalize (density dp). generalize (ncdf dp). generalize (ncdf (dp - s)). intros n2 n1 n.
    replace (v ^ 2 + 2 * t * v * v_t + 2 * (r - q) * k * t * v * v_k)
      with (v ^ 2 + 2 * (sqrt t * sqrt t) * v * v_t + 2 * (r - q) * k * (sqrt t * sqrt t) * v * v_k) by (rewrite QQ; reflexivity).
    field. lra.
  Qed.

  Lemma prices_raw : dupire_prices S0 q D sigma t k =
    xsqrt (relu (Fin 2 *x xdivide_no_nan (Fin (A * density dp * calendar r q v v_t v_k t k / (2 * s))) (Fin (A * density dp * butterfly F v v_k v_kk t k / s)))).
  Proof using PS PT PK CU SU.
    unfold dupire_prices. rewrite (rate_value D t r CU).
    assert (PV := price_value' S0 q D sigma PS t k r v_t v_k v_kk PT PK CU SU).
    assert (GT : fwd_gradient (fun x => call_price S0 q D sigma x k) t = Fin (ct S0 q D sigma t k r v_t)).
    { apply gradient_value; [rewrite PV; reflexivity|]. exact (price_t S0 q D sigma PS t k r v_t v_k v_kk PT PK CU SU). }
    assert (GK : fwd_gradient (fun x => call_price S0 q D sigma t x) k = Fin (ck S0 q D sigma t k v_k)).
    { apply gradient_value; [rewrite PV; reflexivity|]. exact (price_k S0 q D sigma PS t k r v_t v_k v_kk PT PK CU SU). }
    destruct (price_kk S0 q D sigma PS t k r v_t v_k v_kk PT PK CU SU) as (FI & c1 & D1 & D2).
    assert (GKK : fwd_gradient (fun x => fwd_gradient (fun x => call_price S0 q D sigma t x) x) k = Fin (ckk S0 q D sigma t k v_k v_kk)).
    { exact (gradient_twice _ k c1 _ FI D1 D2). }
    rewrite GT, GK, GKK, PV. cbn [xsub xopp xadd xmul xsquare]. unfold xsub. cbn [xopp xadd xmul].
    assert (NE := numerator_eq). unfold Rminus in NE. unfold xsquare; cbn [xmul].
    match goal with |- context [xdivide_no_nan (Fin ?a) (Fin ?b)] =>
      replace a with (A * density dp * calendar r q v v_t v_k t k / (2 * s)) by (rewrite <- NE; ring);
      replace b with (A * density dp * butterfly F v v_k v_kk t k / s) end.
    - reflexivity.
    - unfold ckk. assert (PSS := pos_s sigma t k v_t v_k v_kk PT SU). generalize (butterfly F v v_k v_kk t k) (density dp). intros b n. clear - PSS PK. generalize dependent s. intros x PX. field. lra.
  Qed.

  Lemma factor_pos : 0 < A * density dp / s.
  Proof using PS PT SU.
    apply Rdiv_lt_0_compat; [|exact (pos_s sigma t k v_t v_k v_kk PT SU)]. apply Rmult_lt_0_compat; [exact (PA S0 q PS t)|].
    unfold density. apply Rdiv_lt_0_compat; [apply exp_pos|apply sqrt2pi_pos].
  Qed.

  Lemma prices_value : butterfly F v v_k v_kk t k <> 0 ->
    dupire_prices S0 q D sigma t k = Fin (sqrt (Rmax (calendar r q v v_t v_k t k / butterfly F v v_k v_kk t k) 0)).
  Proof using PS PT PK CU SU.
    intros NZ. rewrite prices_raw. assert (FP := factor_pos). assert (PSS := pos_s sigma t k v_t v_k v_kk PT SU).
    set (f := A * density dp) in *. assert (NF : f <> 0). { intros Z. rewrite Z in FP. unfold Rdiv in FP. rewrite Rmult_0_l in FP. lra. }
    clearbody f. rewrite xdnn.
    - cbn [xmul]. rewrite sqrt_relu. do 3 f_equal. generalize dependent (butterfly F v v_k v_kk t k). intros b NZ. generalize dependent s. intros x FP PX. field. repeat split; lra.
    - intros Z. apply NZ. apply (Rmult_eq_reg_l (f / s)); [|lra]. rewrite Rmult_0_r. rewrite <- Z. clear - PSS. generalize dependent s. intros x PX. field. lra.
  Qed.
  Lemma prices_zero : butterfly F v v_k v_kk t k = 0 -> dupire_prices S0 q D sigma t k = Fin 0.
  Proof using PS PT PK CU SU.
    intros Z. rewrite prices_raw, Z. replace (A * density dp * 0 / s) with 0 by (unfold Rdiv; ring).
    rewrite dnn_zero. cbn [xmul]. rewrite Rmult_0_r, sqrt_relu. rewrite Rmax_left by lra. rewrite sqrt_0. reflexivity.
  Qed.

  (** What the implied-volatility form computes. *)
  Definition code_d1 : R := (ln (S0 / k) + (r - q + v ^ 2 / 2) * t) / (v * sqrt t).
  Definition code_butterfly : R := (1 + k * code_d1 * t * v_k) ^ 2 + k ^ 2 * t * v * (v_kk - code_d1 * t * v_k ^ 2).
  Lemma d1_value : d1_of S0 q (Fin r) (Fin v) t k = Fin code_d1.
  Proof using PS PT PK SU.
    clear CU. destruct SU as (PV & _). assert (SQ : 0 < sqrt t) by (apply sqrt_lt_R0; exact PT).
    unfold d1_of. rewrite xdiv_ok by lra. rewrite xln_pos by (apply Rdiv_lt_0_compat; assumption).
    unfold xsub, xsquare. cbn [xopp xadd xmul]. rewrite xdiv_ok by lra. rewrite xsqrt_ok by lra. rewrite xdnn by lra.
    f_equal. unfold code_d1. field. lra.
  Qed.
  Lemma iv_raw : dupire_iv S0 q D sigma t k = xsqrt (relu (xdivide_no_nan (Fin (calendar r q v v_t v_k t k)) (Fin code_butterfly))).
  Proof using PS PT PK CU SU.
    unfold dupire_iv. rewrite (rate_value D t r CU). rewrite d1_value.
    destruct SU as (PV & DT & slope & L & E & D2).
    assert (GT : fwd_gradient (fun x => Fin (sigma x k)) t = Fin v_t) by (apply gradient_value; [reflexivity|exact DT]).
    assert (FI : locally k (fun y => is_finite (Fin (sigma t y)) = true)) by (apply filter_forall; reflexivity).
    assert (GK : fwd_gradient (fun x => Fin (sigma t x)) k = Fin v_k).
    { apply gradient_value; [reflexivity|]. rewrite <- E. exact (locally_singleton _ _ L). }
    assert (GKK : fwd_gradient (fun x => fwd_gradient (fun x => Fin (sigma t x)) x) k = Fin v_kk).
    { exact (gradient_twice (fun x => Fin (sigma t x)) k slope _ FI L D2). }
    rewrite GT, GK, GKK. unfold iv_numerator, iv_denominator, xsub, xsquare. cbn [xopp xadd xmul].
    match goal with |- context [xdivide_no_nan (Fin ?a) (Fin ?b)] =>
      replace a with (calendar r q v v_t v_k t k) by (unfold calendar; ring);
      replace b with code_butterfly by (unfold code_butterfly; ring) end. reflexivity.
  Qed.
  Lemma iv_value : code_butterfly <> 0 -> dupire_iv S0 q D sigma t k = Fin (sqrt (Rmax (calendar r q v v_t v_k t k / code_butterfly) 0)).
  Proof using PS PT PK CU SU. intros NZ. rewrite iv_raw, xdnn by exact NZ. apply sqrt_relu. Qed.
End Values.
