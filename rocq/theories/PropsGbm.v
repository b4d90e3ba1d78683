(** C62, C63: exact sampling of geometric Brownian motions. *)
From Coquelicot Require Import Coquelicot.
From Coq Require Import Reals QArith ZArith List Bool Arith Lia Lra.
From Verif Require Import ExtReal HaganWestModel BootstrapModel BlackScholesModel BlackScholesSpec BlackScholesProofs GaussConv TensorModel TensorProofs PiecewiseModel PiecewiseProofs PropsPiecewise.
From Verif Require Import AsianSpec MvNormalModel MvNormalSpec MvNormalProofs PropsMvNormal GbmModel GbmSpec GbmProofs GbmProofs2 PropsMc.
Import ListNotations.
Open Scope nat_scope.

(** * C62: one dimension *)
(** The coefficients are proportional to the state. *)
Theorem C62_coefficients : forall p t x, gbm_drift_fn p t x = (x * gbm_drift_fn p t 1)%R /\ gbm_volatility_fn p t x = (x * gbm_volatility_fn p t 1)%R.
Proof. intros p t x. unfold gbm_drift_fn, gbm_volatility_fn. split; ring. Qed.
Print Assumptions C62_coefficients.

(** What the constructor is given, the times, and the integrals of drift and
    squared volatility of the process up to each time. *)
Definition setting (p : gbm) (times : list R) (A B : nat -> R) : Prop :=
  param_ok (gbm_mean p) /\ param_ok (gbm_volatility p) /\ in_order 0 times /\
  integrals (fun t => gbm_drift_fn p t 1) times A /\ integrals (fun t => gbm_volatility_fn p t 1 ^ 2)%R times B.
Definition start_value (initial_state : option (nat -> R)) (s : nat) : R := match initial_state with Some f => f s | None => 1%R end.

Lemma setting_integrals p times A B : setting p times A B -> integrals (param_at (gbm_mean p)) times A /\ integrals (fun t => param_at (gbm_volatility p) t ^ 2)%R times B.
Proof.
  intros (_ & _ & _ & IA & IB). split; intros i L.
  - apply (is_RInt_ext (V := R_NormedModule) (fun t => gbm_drift_fn p t 1)); [intros t _; unfold gbm_drift_fn; apply Rmult_1_r|apply IA, L].
  - apply (is_RInt_ext (V := R_NormedModule) (fun t => gbm_volatility_fn p t 1 ^ 2)%R); [intros t _; unfold gbm_volatility_fn; rewrite Rmult_1_r; reflexivity|apply IB, L].
Qed.
Lemma path_formula p times A B x0 zs (z : nat -> R) i : setting p times A B -> i < length times ->
  (forall j, j < length times -> zs j = Fin (z j)) -> nth i (gbm_path p times x0 (map zs (seq 0 (length times)))) NaN = Fin (gbm_value x0 A B z i).
Proof.
  intros S0 L Z. destruct (setting_integrals _ _ _ _ S0) as (IA & IB). destruct S0 as (OM & OV & O & _).
  apply gbm_path_value; try assumption; [|rewrite map_length, seq_length; reflexivity]. intros j J. rewrite nth_map_seq by exact J. apply Z, J.
Qed.

(** With given draws, row s of the result is the exact solution driven by row s
    of the draws; every other sampling argument is ignored. *)
Theorem C62_given_draws : forall rn sn p times A B init N ty seed skip rp n d,
  setting p times A B -> shape d = [n; length times; 1] ->
  exists t, gbm_sample_paths rn sn p times init N ty seed skip rp (Some d) = Some t /\ shape t = [n; length times; 1] /\
    forall s i, s < n -> i < length times -> elt t [s; i; 0] = Fin (gbm_value (start_value init s) A B (fun j => elt d [s; j; 0]) i).
Proof.
  intros rn sn p times A B init N ty seed skip rp n d S0 SH. unfold gbm_sample_paths. cbv zeta. rewrite SH, Nat.eqb_refl. eexists. split; [reflexivity|]. split; [reflexivity|].
  intros s i Hs Hi. cbn [elt nth]. apply (path_formula p times A B); [exact S0|exact Hi|reflexivity].
Qed.
Print Assumptions C62_given_draws.

Lemma generated rn sn p times A B init N ty seed skip rp d (z : nat -> nat -> R) : setting p times A B ->
  generate_mc_normal_draws rn sn (fun _ => None) 1 (length times) N ty [] skip seed rp = Some d ->
  exists t, gbm_sample_paths rn sn p times init N ty seed skip rp None = Some t /\ shape t = [N; length times; 1] /\
    forall s i, s < N -> i < length times -> (forall j, j < length times -> elt d [j; s; 0] = Fin (z s j)) ->
      elt t [s; i; 0] = Fin (gbm_value (start_value init s) A B (z s) i).
Proof.
  intros S0 G. unfold gbm_sample_paths. cbv zeta. rewrite G. eexists. split; [reflexivity|]. split; [reflexivity|].
  intros s i Hs Hi Z. cbn [elt nth]. apply (path_formula p times A B); assumption.
Qed.
(** Pseudo-random paths: each generator output drives one step of one path. *)
Theorem C62_pseudo : forall rn sn p times A B init N ty seed skip rp draws,
  setting p times A B -> ((ty = None \/ ty = Some PSEUDO) /\ draws = rn seed) \/ (ty = Some STATELESS /\ exists k, seed = Some k /\ draws = sn k) ->
  exists t, gbm_sample_paths rn sn p times init N ty seed skip rp None = Some t /\ shape t = [N; length times; 1] /\
    forall s i, s < N -> i < length times -> elt t [s; i; 0] = Fin (gbm_value (start_value init s) A B (fun j => draws [N; length times] [s; j]) i).
Proof.
  intros rn sn p times A B init N ty seed skip rp draws S0 H.
  destruct (C61_pseudo rn sn (fun _ => None) 1 (length times) N ty [] skip seed rp draws H) as (d & G & _ & V).
  destruct (generated rn sn p times A B init N ty seed skip rp d (fun s j => draws [N; length times] [s; j]) S0 G) as (t & E & SH & F).
  exists t. split; [exact E|]. split; [exact SH|]. intros s i Hs Hi. apply F; try assumption. intros j J.
  pose proof (V j [] s 0 J (Forall2_nil _) Hs Nat.lt_0_1) as X. cbn [app] in X. rewrite Nat.mul_1_r, Nat.add_0_r, Nat.mul_1_r in X. exact X.
Qed.
Print Assumptions C62_pseudo.
(** Antithetic paths: path n + s is driven by the negated draws of path s. *)
Theorem C62_antithetic : forall rn sn p times A B init n ty seed skip rp draws,
  setting p times A B -> (ty = PSEUDO_ANTITHETIC /\ draws = rn seed) \/ (ty = STATELESS_ANTITHETIC /\ exists k, seed = Some k /\ draws = sn k) ->
  exists t, gbm_sample_paths rn sn p times init (2 * n) (Some ty) seed skip rp None = Some t /\ shape t = [2 * n; length times; 1] /\
    forall s i, s < n -> i < length times -> let z j := draws [n; length times] [s; j] in
      elt t [s; i; 0] = Fin (gbm_value (start_value init s) A B z i) /\
      elt t [n + s; i; 0] = Fin (gbm_value (start_value init (n + s)) A B (fun j => - z j)%R i).
Proof.
  intros rn sn p times A B init n ty seed skip rp draws S0 H.
  destruct (C61_antithetic rn sn (fun _ => None) 1 (length times) n ty [] skip seed rp draws H) as (d & G & _ & V).
  destruct (generated rn sn p times A B init (2 * n) (Some ty) seed skip rp d (fun s j => if Nat.ltb s n then draws [n; length times] [s; j] else Ropp (draws [n; length times] [s - n; j])) S0 G) as (t & E & SH & F).
  exists t. split; [exact E|]. split; [exact SH|]. intros s i Hs Hi z.
  assert (VV : forall j, j < length times -> elt d [j; s; 0] = Fin (z j) /\ elt d [j; n + s; 0] = Fin (- z j)).
  { intros j J. pose proof (V j [] s 0 J (Forall2_nil _) Hs Nat.lt_0_1) as X. cbn [app] in X. cbv zeta in X. rewrite Nat.mul_1_r, Nat.add_0_r, Nat.mul_1_r in X. exact X. }
  pose proof (F s i ltac:(lia) Hi) as F1. pose proof (F (n + s) i ltac:(lia) Hi) as F2. cbv beta in F1, F2.
  destruct (Nat.ltb_spec s n) as [_|Q]; [|lia]. destruct (Nat.ltb_spec (n + s) n) as [Q|_]; [lia|]. replace (n + s - n) with s in F2 by lia.
  split; [apply F1|apply F2]; intros j J; apply VV, J.
Qed.
Print Assumptions C62_antithetic.
(** Quasi-random paths: path s has a point of the sequence to itself, and step j
    is driven by coordinate j of that point. *)
Theorem C62_quasi : forall rn sn p times A B init N ty seed skip rp P,
  setting p times A B -> times <> [] -> sequence_points ty (length times) N skip rp P ->
  (forall k i, k < N -> i < length times -> (0 < point_coordinate P k i < 1)%R) ->
  exists t z sel, gbm_sample_paths rn sn p times init N (Some ty) seed skip rp None = Some t /\ shape t = [N; length times; 1] /\
    (forall s, s < N -> sel s < N) /\ (forall s s', s < N -> s' < N -> sel s = sel s' -> s = s') /\
    forall s i, s < N -> i < length times ->
      elt t [s; i; 0] = Fin (gbm_value (start_value init s) A B (z s) i) /\ ncdf (z s i) = point_coordinate P (sel s) i.
Proof.
  intros rn sn p times A B init N ty seed skip rp P S0 NE SP IN.
  assert (LT : 0 < length times) by (destruct times; [congruence|cbn; lia]).
  destruct (C61_quasi rn sn (fun _ => None) 1 (length times) N ty [] skip seed rp P) as (d & sel & G & _ & (N1 & N2 & _) & V).
  - rewrite Nat.mul_1_r. exact LT.
  - rewrite Nat.mul_1_r. replace (size [] * N) with N by (cbn; lia). exact SP.
  - rewrite Nat.mul_1_r. replace (size [] * N) with N by (cbn; lia). exact IN.
  - assert (W : forall s, s < N -> within [N] [s]) by (intros s Hs; repeat constructor; exact Hs).
    set (z := fun s j : nat => match elt d [j; s; 0] with Fin r => r | _ => 0%R end).
    assert (Z : forall s j, s < N -> j < length times -> elt d [j; s; 0] = Fin (z s j) /\ ncdf (z s j) = point_coordinate P (sel [] [s]) j).
    { intros s j Hs J. destruct (V j [] s 0 J (Forall2_nil _) Hs Nat.lt_0_1) as (y & Y & NY). cbn [app] in Y. rewrite Nat.mul_1_r, Nat.add_0_r in NY. unfold z. rewrite Y. split; [reflexivity|exact NY]. }
    destruct (generated rn sn p times A B init N (Some ty) seed skip rp d z S0 G) as (t & E & SH & F).
    exists t, z, (fun s => sel [] [s]). split; [exact E|]. split; [exact SH|]. split; [|split].
    + intros s Hs. pose proof (N1 [] [s] (Forall2_nil _) (W s Hs)) as X. cbn [size fold_right] in X. lia.
    + intros s s' Hs Hs' X. apply N2 in X; [|constructor|apply W, Hs|constructor|apply W, Hs']. destruct X as (_ & X). injection X as X. exact X.
    + intros s i Hs Hi. split; [|apply Z; assumption]. apply F; try assumption. intros j J. apply Z; assumption.
Qed.
Print Assumptions C62_quasi.

(** The law of a path: when the draws are independent standard normal, the
    logarithms of the values relative to the start are jointly normal, with mean
    the integral of mu - sigma^2 / 2 up to each time and covariance of two of them
    the integral of sigma^2 up to the earlier time, and the mean of the value is
    the start times the exponential of the integral of mu. *)
Definition one_path (k : nat) (z : list R) : tensor R := Tensor [1; k; 1] (fun idx => nth (nth 1 idx 0) z 0%R).
Theorem C62_law : forall rn sn p times A B x0 N ty seed skip rp, setting p times A B -> (x0 <> 0)%R ->
  let k := length times in
  exists X : nat -> list R -> R,
    (forall z, exists t, gbm_sample_paths rn sn p times (Some (fun _ => x0)) N ty seed skip rp (Some (one_path k z)) = Some t /\
      forall i, i < k -> elt t [0; i; 0] = Fin (X i z) /\ (0 < X i z / x0)%R) /\
    jointly_normal k k (fun i z => ln (X i z / x0)) (fun i => A (S i) - B (S i) / 2)%R (fun i j => B (S (Nat.min i j))) /\
    forall i, i < k -> iid_expectation k (X i) (x0 * exp (A (S i)))%R.
Proof.
  intros rn sn p times A B x0 N ty seed skip rp S0 X0 k. exists (fun i z => gbm_value x0 A B (coord z) i). split.
  - intros z. destruct (C62_given_draws rn sn p times A B (Some (fun _ => x0)) N ty seed skip rp 1 (one_path k z) S0 eq_refl) as (t & E & _ & V).
    exists t. split; [exact E|]. intros i Hi. split; [exact (V 0 i Nat.lt_0_1 Hi)|]. unfold gbm_value.
    match goal with |- (0 < x0 * ?e / x0)%R => replace (x0 * e / x0)%R with e by (field; exact X0) end. apply exp_pos.
  - destruct (setting_integrals _ _ _ _ S0) as (IA & IB). destruct S0 as (OM & OV & O & _).
    destruct (square_ok _ OV) as (OV2 & SQ).
    assert (B0 : B 0 = 0%R). { apply (start (volatility_squared (gbm_volatility p)) times B). intros j J. apply (is_RInt_ext (V := R_NormedModule) (fun t => param_at (gbm_volatility p) t ^ 2)%R); [intros t _; symmetry; apply SQ|apply IB, J]. }
    assert (L : jointly_normal k k (fun i z => ln (gbm_value x0 A B (coord z) i / x0)) (fun i => A (S i) - B (S i) / 2)%R (fun i j => B (S (Nat.min i j)))).
    { apply gbm_law; [exact X0|exact B0|]. apply (variance_grows (gbm_volatility p) times B OV O IB). }
    split; [exact L|]. intros i Hi. specialize (L (identity_matrix i)). apply (iid_scal k _ _ x0) in L.
    rewrite sum_to_identity in L by exact Hi. rewrite (sum_to_ext k _ (fun q => identity_matrix i q * sum_to k (fun r => identity_matrix i r * B (S (Nat.min q r))))%R) in L by (intros q _; rewrite st_scal; apply sum_to_ext; intros; ring).
    rewrite sum_to_identity in L by exact Hi. rewrite (sum_to_identity k (fun r => B (S (Nat.min i r)))) in L by exact Hi. rewrite Nat.min_id in L.
    replace (A (S i) - B (S i) / 2 + B (S i) / 2)%R with (A (S i)) in L by ring. revert L. apply iid_ext. intros z. rewrite sum_to_identity by exact Hi.
    assert (P : (0 < gbm_value x0 A B (coord z) i / x0)%R). { unfold gbm_value. match goal with |- (0 < x0 * ?e / x0)%R => replace (x0 * e / x0)%R with e by (field; exact X0) end. apply exp_pos. }
    rewrite exp_ln by exact P. field. exact X0.
Qed.
Print Assumptions C62_law.
(** Draws of another dimension are refused. *)
Theorem C62_wrong_draws : forall rn sn p times init N ty seed skip rp n k e d, shape d = [n; k; e] -> e <> 1 ->
  gbm_sample_paths rn sn p times init N ty seed skip rp (Some d) = None.
Proof. intros rn sn p times init N ty seed skip rp n k e d SH NE. unfold gbm_sample_paths. cbv zeta. rewrite SH. destruct e as [|[|e]]; [reflexivity|congruence|reflexivity]. Qed.
Print Assumptions C62_wrong_draws.
(** The finite-difference solvers of the process never get to solve anything. *)
Theorem C62_fd_solver_refuted : forall A (solve : unit -> unit -> option A), fd_solver gbm_attributes solve = None.
Proof. reflexivity. Qed.
Print Assumptions C62_fd_solver_refuted.
(** Times that decrease give NaN. *)
Theorem C62_decreasing_times : let p := GBM (Const 0) (Const 1) in
  nth 1 (gbm_path p [2; 1]%R 1 [Fin 0; Fin 0]) (Fin 0) = NaN.
Proof.
  cbv zeta. unfold gbm_path. cbn [removelast combine map gbm_mean gbm_volatility volatility_squared integrate_parameter].
  assert (X : xsqrt (Fin (1 ^ 2 * (1 - 2))) = NaN) by (cbn [xsqrt]; unfold BrentModel.rlt; destruct (Rlt_dec (1 ^ 2 * (1 - 2)) 0); [reflexivity|lra]). rewrite X.
  assert (Y : xsqrt (Fin (1 ^ 2 * (2 - 0))) = Fin (sqrt (1 ^ 2 * (2 - 0)))) by (apply xsqrt_fin; lra). rewrite Y.
  unfold cumsum_using_matvec. cbn [length seq map nth]. unfold xsub. cbn [xmul xdiv xopp]. unfold InterpModel.req. destruct (Req_EM_T 2 0); [lra|]. unfold xsum. cbn [fold_right xadd xmul xopp xexp]. reflexivity.
Qed.
Print Assumptions C62_decreasing_times.

(** * C63: several dimensions *)
(** [L] is the factor that correlates the draws. *)
Definition correlating (cholesky : tensor R -> option (tensor R)) (p : mgbm) (L : nat -> nat -> R) : Prop :=
  match m_corr p with None => L = identity_matrix | Some c => exists l, cholesky c = Some l /\ forall a b, L a b = elt l [a; b] end.
(** The correlation of the Brownian motions a and b. *)
Definition correlation (p : mgbm) (a b : nat) : R := match m_corr p with None => identity_matrix a b | Some c => elt c [a; b] end.
(** The Cholesky factor times its transpose is the correlation matrix. *)
Definition factorises (p : mgbm) (L : nat -> nat -> R) : Prop :=
  forall a b, a < m_dim p -> b < m_dim p -> sum_to (m_dim p) (fun l => L a l * L b l)%R = correlation p a b.
Definition start_rows (init : option (nat * (nat -> nat -> R))) (N : nat) : Prop := match init with None => True | Some (r, _) => r = 1 \/ r = N end.
Definition start_at (init : option (nat * (nat -> nat -> R))) (s a : nat) : R := match init with None => 1%R | Some (r, f) => f (if Nat.eqb r 1 then 0 else s) a end.

Lemma identity_factor d a b : a < d -> sum_to d (fun l => identity_matrix a l * identity_matrix b l)%R = identity_matrix a b.
Proof. intros H. rewrite sum_to_identity by exact H. unfold identity_matrix. rewrite Nat.eqb_sym. reflexivity. Qed.
Lemma no_correlation_factorises cholesky p L : m_corr p = None -> correlating cholesky p L -> factorises p L.
Proof. intros E H a b Ha Hb. unfold correlating, correlation in *. rewrite E in *. rewrite H. apply identity_factor, Ha. Qed.

(** The squared volatility matrix is the instantaneous covariance. *)
Theorem C63_coefficients : forall cholesky p L x, correlating cholesky p L -> factorises p L ->
  exists V, mgbm_volatility_fn cholesky p x = Some V /\ forall a b, a < m_dim p -> b < m_dim p ->
    sum_to (m_dim p) (fun l => V a l * V b l)%R = ((m_vols p a * x a) * (m_vols p b * x b) * correlation p a b)%R.
Proof.
  intros ch p L x CO FA. unfold mgbm_volatility_fn, correlating, factorises, correlation in *. destruct (m_corr p) as [c|].
  - destruct CO as (l & E & HL). rewrite E. eexists. split; [reflexivity|]. intros a b Ha Hb. cbv beta. rewrite <- FA by assumption. rewrite st_scal. apply sum_to_ext. intros k _. rewrite !HL. ring.
  - eexists. split; [reflexivity|]. intros a b Ha Hb. cbv beta.
    rewrite (sum_to_ext _ _ (fun k => identity_matrix a k * (m_vols p a * x a * (identity_matrix b k * (m_vols p b * x b))))%R).
    + rewrite sum_to_identity by exact Ha. unfold identity_matrix. rewrite (Nat.eqb_sym b a). ring.
    + intros k _. unfold identity_matrix. destruct (Nat.eqb a k), (Nat.eqb b k); ring.
Qed.
Print Assumptions C63_coefficients.

Section Value.
  Variables (ch : tensor R -> option (tensor R)) (p : mgbm) (times : list R) (L : nat -> nat -> R).
  Hypothesis O : in_order 0 times.
  Let k := length times.
  Let dt j := (nth j times 0 - nth j (0%R :: times) 0)%R.
  Lemma dt_pos j : j < k -> (0 <= dt j)%R.
  Proof. intros J. pose proof (in_order_nth times 0%R O j J) as H. unfold dt. change (nth (S j) (0%R :: times) 0%R) with (nth j times 0%R) in H. lra. Qed.
  Lemma value_formula x0 a (inc : nat -> xr) (z : nat -> nat -> R) i : i < k ->
    (forall j, j < k -> inc j = Fin (sum_to (m_dim p) (fun b => L a b * z j b)%R)) ->
    Fin x0 *x xexp (nth i (cumsum_using_matvec (map (fun j => Fin ((m_means p a - m_vols p a ^ 2 / 2) * dt j)%R +x xsqrt (Fin (dt j)) *x Fin (m_vols p a) *x inc j) (seq 0 k))) NaN)
    = Fin (mgbm_value (m_dim p) x0 (m_means p a) (m_vols p a) (L a) (time_number times) z i).
  Proof.
    intros Hi Z. rewrite (cumsum_fin _ (fun j => (m_means p a - m_vols p a ^ 2 / 2) * dt j + m_vols p a * (sqrt (dt j) * sum_to (m_dim p) (fun b => L a b * z j b)))%R).
    - cbn [xexp xmul]. unfold mgbm_value. f_equal. f_equal. f_equal. rewrite st_plus. f_equal.
      + rewrite <- st_scal. f_equal. transitivity (sum_to (S i) (fun j => time_number times (S j) - time_number times j)%R); [reflexivity|]. rewrite st_telescope. unfold time_number. cbn [nth]. ring.
      + rewrite <- st_scal. reflexivity.
    - rewrite map_length, seq_length. exact Hi.
    - rewrite map_length, seq_length. intros j J. rewrite nth_map_seq by exact J. rewrite Z by exact J. rewrite xsqrt_fin by (apply dt_pos, J). cbn [xmul xadd]. f_equal. ring.
  Qed.
End Value.
Lemma increments ch p L (z : nat -> nat -> R) (zz : nat -> nat -> nat -> xr) s j : correlating ch p L -> (forall b, b < m_dim p -> zz j s b = Fin (z j b)) ->
  exists l, match m_corr p with None => Some None | Some c => option_map Some (ch c) end = Some l /\
    forall a, a < m_dim p -> match l with None => zz j s a | Some l => xsum (map (fun b => Fin (elt l [a; b]) *x zz j s b) (seq 0 (m_dim p))) end = Fin (sum_to (m_dim p) (fun b => L a b * z j b)%R).
Proof.
  unfold correlating. destruct (m_corr p) as [c|].
  - intros (l & E & HL) Z. rewrite E. exists (Some l). split; [reflexivity|]. intros a Ha. apply xsum_to. intros b Hb. rewrite Z by exact Hb. rewrite HL. reflexivity.
  - intros -> Z. exists None. split; [reflexivity|]. intros a Ha. rewrite sum_to_identity by exact Ha. apply Z, Ha.
Qed.
Lemma correlating_some ch p L : correlating ch p L -> exists l, match m_corr p with None => Some None | Some c => option_map Some (ch c) end = Some l.
Proof. unfold correlating. destruct (m_corr p) as [c|]; [intros (l & E & _); rewrite E; eexists; reflexivity|intros _; eexists; reflexivity]. Qed.
Lemma bdim_same n : bdim n n = Some n.
Proof. unfold bdim. rewrite Nat.eqb_refl. reflexivity. Qed.
Lemma start_rows_ok init N : start_rows init N -> match init with Some (r, _) => bdim r N | None => Some N end = Some N.
Proof. destruct init as [(r & f)|]; [|reflexivity]. intros [-> | ->]; [unfold bdim; destruct (Nat.eqb_spec 1 N) as [<-|]; reflexivity|apply bdim_same]. Qed.

(** The rows of the result are the exact solutions driven by the rows of the
    draws, correlated. *)
Theorem C63_given_draws : forall rn sn cholesky p times L init n ty seed skip rp d,
  in_order 0 times -> correlating cholesky p L -> start_rows init n -> shape d = [n; length times; m_dim p] ->
  exists t, mgbm_sample_paths rn sn cholesky p times init n ty seed skip rp (Some d) = Some t /\ shape t = [n; length times; m_dim p] /\
    forall s i a, s < n -> i < length times -> a < m_dim p ->
      elt t [s; i; a] = Fin (mgbm_value (m_dim p) (start_at init s a) (m_means p a) (m_vols p a) (L a) (time_number times) (fun j b => elt d [s; j; b]) i).
Proof.
  intros rn sn ch p times L init n ty seed skip rp d O CO SR SH. unfold mgbm_sample_paths. cbv zeta. rewrite SH, !Nat.eqb_refl. cbn [andb].
  rewrite start_rows_ok by exact SR. destruct (correlating_some _ _ _ CO) as (l & E). rewrite E, bdim_same. cbn [option_map]. eexists. split; [reflexivity|]. split; [reflexivity|].
  intros s i a Hs Hi Ha. cbn [elt nth]. replace (bidx n s) with s by (unfold bidx; destruct (Nat.eqb_spec n 1); lia).
  rewrite (value_formula p times L O _ a _ (fun j b => elt d [s; j; b]) i Hi).
  - unfold start_at, bidx. reflexivity.
  - intros j J. destruct (increments ch p L (fun j b => elt d [s; j; b]) (fun j s b => Fin (elt d [s; j; b])) s j CO (fun b _ => eq_refl)) as (l' & E' & V). rewrite E in E'. injection E' as <-. apply V, Ha.
Qed.
Print Assumptions C63_given_draws.

Lemma m_generated rn sn ch p times L init N ty seed skip rp d (z : nat -> nat -> nat -> R) : in_order 0 times -> correlating ch p L -> start_rows init N ->
  generate_mc_normal_draws rn sn (fun _ => None) (m_dim p) (length times) N ty [] skip seed rp = Some d ->
  exists t, mgbm_sample_paths rn sn ch p times init N ty seed skip rp None = Some t /\ shape t = [N; length times; m_dim p] /\
    forall s i a, s < N -> i < length times -> a < m_dim p -> (forall j b, j < length times -> b < m_dim p -> elt d [j; s; b] = Fin (z s j b)) ->
      elt t [s; i; a] = Fin (mgbm_value (m_dim p) (start_at init s a) (m_means p a) (m_vols p a) (L a) (time_number times) (z s) i).
Proof.
  intros O CO SR G. unfold mgbm_sample_paths. cbv zeta. rewrite G. cbn [option_map].
  rewrite start_rows_ok by exact SR. destruct (correlating_some _ _ _ CO) as (l & E). rewrite E, bdim_same. cbn [option_map]. eexists. split; [reflexivity|]. split; [reflexivity|].
  intros s i a Hs Hi Ha Z. cbn [elt nth]. replace (bidx N s) with s by (unfold bidx; destruct (Nat.eqb_spec N 1); lia).
  rewrite (value_formula p times L O _ a _ (z s) i Hi).
  - unfold start_at, bidx. reflexivity.
  - intros j J. destruct (increments ch p L (z s) (fun j s b => elt d [j; s; b]) s j CO (fun b Hb => Z j b J Hb)) as (l' & E' & V). rewrite E in E'. injection E' as <-. apply V, Ha.
Qed.
Theorem C63_pseudo : forall rn sn cholesky p times L init N ty seed skip rp draws,
  in_order 0 times -> correlating cholesky p L -> start_rows init N ->
  ((ty = None \/ ty = Some PSEUDO) /\ draws = rn seed) \/ (ty = Some STATELESS /\ exists k, seed = Some k /\ draws = sn k) ->
  exists t, mgbm_sample_paths rn sn cholesky p times init N ty seed skip rp None = Some t /\ shape t = [N; length times; m_dim p] /\
    forall s i a, s < N -> i < length times -> a < m_dim p ->
      elt t [s; i; a] = Fin (mgbm_value (m_dim p) (start_at init s a) (m_means p a) (m_vols p a) (L a) (time_number times)
        (fun j b => draws [N; length times * m_dim p] [s; j * m_dim p + b]) i).
Proof.
  intros rn sn ch p times L init N ty seed skip rp draws O CO SR H.
  destruct (C61_pseudo rn sn (fun _ => None) (m_dim p) (length times) N ty [] skip seed rp draws H) as (d & G & _ & V).
  destruct (m_generated rn sn ch p times L init N ty seed skip rp d (fun s j b => draws [N; length times * m_dim p] [s; j * m_dim p + b]) O CO SR G) as (t & E & SH & F).
  exists t. split; [exact E|]. split; [exact SH|]. intros s i a Hs Hi Ha. apply F; try assumption. intros j b J B. exact (V j [] s b J (Forall2_nil _) Hs B).
Qed.
Print Assumptions C63_pseudo.
Theorem C63_antithetic : forall rn sn cholesky p times L init n ty seed skip rp draws,
  in_order 0 times -> correlating cholesky p L -> start_rows init (2 * n) ->
  (ty = PSEUDO_ANTITHETIC /\ draws = rn seed) \/ (ty = STATELESS_ANTITHETIC /\ exists k, seed = Some k /\ draws = sn k) ->
  exists t, mgbm_sample_paths rn sn cholesky p times init (2 * n) (Some ty) seed skip rp None = Some t /\ shape t = [2 * n; length times; m_dim p] /\
    forall s i a, s < n -> i < length times -> a < m_dim p -> let z j b := draws [n; length times * m_dim p] [s; j * m_dim p + b] in
      elt t [s; i; a] = Fin (mgbm_value (m_dim p) (start_at init s a) (m_means p a) (m_vols p a) (L a) (time_number times) z i) /\
      elt t [n + s; i; a] = Fin (mgbm_value (m_dim p) (start_at init (n + s) a) (m_means p a) (m_vols p a) (L a) (time_number times) (fun j b => - z j b)%R i).
Proof.
  intros rn sn ch p times L init n ty seed skip rp draws O CO SR H.
  destruct (C61_antithetic rn sn (fun _ => None) (m_dim p) (length times) n ty [] skip seed rp draws H) as (d & G & _ & V).
  destruct (m_generated rn sn ch p times L init (2 * n) (Some ty) seed skip rp d
    (fun s j b => if Nat.ltb s n then draws [n; length times * m_dim p] [s; j * m_dim p + b] else Ropp (draws [n; length times * m_dim p] [s - n; j * m_dim p + b])) O CO SR G) as (t & E & SH & F).
  exists t. split; [exact E|]. split; [exact SH|]. intros s i a Hs Hi Ha z.
  assert (VV : forall j b, j < length times -> b < m_dim p -> elt d [j; s; b] = Fin (z j b) /\ elt d [j; n + s; b] = Fin (- z j b)) by (intros j b J B; exact (V j [] s b J (Forall2_nil _) Hs B)).
  pose proof (F s i a ltac:(lia) Hi Ha) as F1. pose proof (F (n + s) i a ltac:(lia) Hi Ha) as F2. cbv beta in F1, F2.
  destruct (Nat.ltb_spec s n) as [_|Q]; [|lia]. destruct (Nat.ltb_spec (n + s) n) as [Q|_]; [lia|]. replace (n + s - n) with s in F2 by lia.
  split; [apply F1|apply F2]; intros j b J B; apply VV; assumption.
Qed.
Print Assumptions C63_antithetic.
Theorem C63_quasi : forall rn sn cholesky p times L init N ty seed skip rp P,
  in_order 0 times -> correlating cholesky p L -> start_rows init N -> 0 < length times * m_dim p ->
  sequence_points ty (length times * m_dim p) N skip rp P -> (forall k i, k < N -> i < length times * m_dim p -> (0 < point_coordinate P k i < 1)%R) ->
  exists t z sel, mgbm_sample_paths rn sn cholesky p times init N (Some ty) seed skip rp None = Some t /\ shape t = [N; length times; m_dim p] /\
    (forall s, s < N -> sel s < N) /\ (forall s s', s < N -> s' < N -> sel s = sel s' -> s = s') /\
    forall s i a, s < N -> i < length times -> a < m_dim p ->
      elt t [s; i; a] = Fin (mgbm_value (m_dim p) (start_at init s a) (m_means p a) (m_vols p a) (L a) (time_number times) (z s) i) /\
      ncdf (z s i a) = point_coordinate P (sel s) (i * m_dim p + a).
Proof.
  intros rn sn ch p times L init N ty seed skip rp P O CO SR D0 SP IN.
  destruct (C61_quasi rn sn (fun _ => None) (m_dim p) (length times) N ty [] skip seed rp P) as (d & sel & G & _ & (N1 & N2 & _) & V).
  - exact D0.
  - replace (size [] * N) with N by (cbn; lia). exact SP.
  - replace (size [] * N) with N by (cbn; lia). exact IN.
  - assert (W : forall s, s < N -> within [N] [s]) by (intros s Hs; repeat constructor; exact Hs).
    set (z := fun s j b : nat => match elt d [j; s; b] with Fin r => r | _ => 0%R end).
    assert (Z : forall s j b, s < N -> j < length times -> b < m_dim p -> elt d [j; s; b] = Fin (z s j b) /\ ncdf (z s j b) = point_coordinate P (sel [] [s]) (j * m_dim p + b)).
    { intros s j b Hs J B. destruct (V j [] s b J (Forall2_nil _) Hs B) as (y & Y & NY). cbn [app] in Y. unfold z. rewrite Y. split; [reflexivity|exact NY]. }
    destruct (m_generated rn sn ch p times L init N (Some ty) seed skip rp d z O CO SR G) as (t & E & SH & F).
    exists t, z, (fun s => sel [] [s]). split; [exact E|]. split; [exact SH|]. split; [|split].
    + intros s Hs. pose proof (N1 [] [s] (Forall2_nil _) (W s Hs)) as X. cbn [size fold_right] in X. lia.
    + intros s s' Hs Hs' X. apply N2 in X; [|constructor|apply W, Hs|constructor|apply W, Hs']. destruct X as (_ & X). injection X as X. exact X.
    + intros s i a Hs Hi Ha. split; [|apply Z; assumption]. apply F; try assumption. intros j b J B. apply Z; assumption.
Qed.
Print Assumptions C63_quasi.

(** The law of the paths: the logarithms of all coordinates at all times are
    jointly normal with mean (m_a - v_a^2 / 2) t_i and covariance
    v_a v_b rho_ab min (t_i, t_j).  Number i * dim + a stands for coordinate a at
    time i. *)
Definition one_path_of (k d : nat) (z : list R) : tensor R := Tensor [1; k; d] (fun idx => nth (nth 1 idx 0 * d + nth 2 idx 0) z 0%R).
Theorem C63_law : forall rn sn cholesky p times L x0 ty seed skip rp,
  in_order 0 times -> correlating cholesky p L -> factorises p L -> (forall a, x0 a <> 0)%R -> 0 < m_dim p ->
  let k := length times in let d := m_dim p in let t i := time_number times (S i) in
  exists X : nat -> nat -> list R -> R,
    (forall z, exists paths, mgbm_sample_paths rn sn cholesky p times (Some (1, fun _ => x0)) 1 ty seed skip rp (Some (one_path_of k d z)) = Some paths /\
      forall i a, i < k -> a < d -> elt paths [0; i; a] = Fin (X i a z) /\ (0 < X i a z / x0 a)%R) /\
    jointly_normal (k * d) (k * d) (fun n z => ln (X (n / d) (n mod d) z / x0 (n mod d)))
      (fun n => let a := n mod d in (m_means p a - m_vols p a ^ 2 / 2) * t (n / d)%nat)%R
      (fun n n' => let a := n mod d in let b := n' mod d in m_vols p a * m_vols p b * correlation p a b * t (Nat.min (n / d) (n' / d)))%R.
Proof.
  intros rn sn ch p times L x0 ty seed skip rp O CO FA X0 D0 k d t.
  exists (fun i a z => mgbm_value d (x0 a) (m_means p a) (m_vols p a) (L a) (time_number times) (fun j b => coord z (j * d + b)) i). split.
  - intros z. destruct (C63_given_draws rn sn ch p times L (Some (1, fun _ => x0)) 1 ty seed skip rp (one_path_of k d z) O CO (or_introl eq_refl) eq_refl) as (paths & E & _ & V).
    exists paths. split; [exact E|]. intros i a Hi Ha. split; [exact (V 0 i a Nat.lt_0_1 Hi Ha)|]. unfold mgbm_value.
    match goal with |- (0 < x0 a * ?e / x0 a)%R => replace (x0 a * e / x0 a)%R with e by (field; apply X0) end. apply exp_pos.
  - set (dt := fun j => (time_number times (S j) - time_number times j)%R).
    assert (DT : forall j, j < k -> (0 <= dt j)%R) by (intros j J; exact (dt_pos times O j J)).
    apply (linear_normal (k * d) (k * d) _ _ (fun n q => if Nat.ltb (q / d) (S (n / d)) then sqrt (dt (q / d)%nat) * (m_vols p (n mod d) * L (n mod d) (q mod d)%nat) else 0)%R).
    + intros n z Hn. set (i := n / d). set (a := n mod d). assert (Hi : i < k) by (apply Nat.div_lt_upper_bound; lia). unfold mgbm_value.
      match goal with |- (ln (x0 a * exp ?e / x0 a) = _)%R => replace (x0 a * exp e / x0 a)%R with (exp e) by (field; apply X0) end. rewrite ln_exp. cbv zeta. fold a. f_equal.
      pose (F := fun j b : nat => (if Nat.ltb j (S i) then sqrt (dt j) * (m_vols p a * L a b) * coord z (j * d + b)%nat else 0)%R).
      transitivity (sum_to (k * d) (fun q => F (q / d) (q mod d))).
      * rewrite (st_pairs k d F D0). unfold F. rewrite (sum_to_ext k _ (fun j => if Nat.ltb j (S i) then m_vols p a * (sqrt (dt j) * sum_to d (fun b => L a b * coord z (j * d + b)%nat)) else 0)%R).
        -- rewrite st_cut by lia. rewrite <- st_scal. reflexivity.
        -- intros j J. destruct (Nat.ltb j (S i)); [|apply st_zero]. rewrite !st_scal. apply sum_to_ext. intros; ring.
      * apply sum_to_ext. intros q Hq. unfold F. replace (q / d * d + q mod d) with q by (rewrite Nat.mul_comm; apply Nat.div_mod; lia). destruct (Nat.ltb (q / d) (S i)); ring.
    + intros n n' Hn Hn'. cbv zeta. set (i := n / d). set (a := n mod d). set (i' := n' / d). set (a' := n' mod d).
      assert (Hi : i < k) by (apply Nat.div_lt_upper_bound; lia). assert (Hi' : i' < k) by (apply Nat.div_lt_upper_bound; lia).
      assert (Ha : a < d) by (apply Nat.mod_upper_bound; lia). assert (Ha' : a' < d) by (apply Nat.mod_upper_bound; lia).
      pose (F := fun j b : nat => (if Nat.ltb j (S (Nat.min i i')) then dt j * (m_vols p a * m_vols p a' * (L a b * L a' b)) else 0)%R).
      transitivity (sum_to (k * d) (fun q => F (q / d) (q mod d))).
      * rewrite (st_pairs k d F D0). unfold F. rewrite (sum_to_ext k _ (fun j => if Nat.ltb j (S (Nat.min i i')) then (m_vols p a * m_vols p a' * correlation p a a') * dt j else 0)%R).
        -- rewrite st_cut by lia. rewrite <- st_scal. unfold dt. rewrite st_telescope. unfold t. replace (time_number times 0) with 0%R by reflexivity. ring.
        -- intros j J. destruct (Nat.ltb j (S (Nat.min i i'))); [|apply st_zero]. rewrite <- (FA a a' Ha Ha'). fold d. rewrite (Rmult_comm _ (dt j)), !st_scal. apply sum_to_ext. intros; ring.
      * apply sum_to_ext. intros q Hq. unfold F. assert (Hj : q / d < k) by (apply Nat.div_lt_upper_bound; lia).
        destruct (Nat.ltb_spec (q / d) (S i)), (Nat.ltb_spec (q / d) (S i')), (Nat.ltb_spec (q / d) (S (Nat.min i i'))); try lia; try ring.
        rewrite <- (sqrt_sqrt (dt (q / d)) (DT _ Hj)) at 1. ring.
Qed.
Print Assumptions C63_law.
(** Refused arguments. *)
Theorem C63_errors : forall rn sn cholesky p times init N ty seed skip rp,
  (forall dim means vols c, shape c <> [dim; dim] -> mgbm_make dim means vols (Some c) = None) /\
  (forall n k e d, shape d = [n; k; e] -> e <> m_dim p -> mgbm_sample_paths rn sn cholesky p times init N ty seed skip rp (Some d) = None) /\
  (forall c, m_corr p = Some c -> cholesky c = None -> forall draws, mgbm_sample_paths rn sn cholesky p times init N ty seed skip rp draws = None).
Proof.
  intros rn sn ch p times init N ty seed skip rp. split; [|split].
  - intros dim means vols c NE. unfold mgbm_make. destruct (list_eq_dec Nat.eq_dec (shape c) [dim; dim]); [congruence|reflexivity].
  - intros n k e d SH NE. unfold mgbm_sample_paths. cbv zeta. rewrite SH. destruct (Nat.eqb_spec e (m_dim p)); [congruence|]. cbn [andb]. destruct (match init with Some (r, _) => bdim r N | None => Some N end); reflexivity.
  - intros c E F draws. unfold mgbm_sample_paths. cbv zeta. rewrite E, F. cbn [option_map]. repeat match goal with |- match ?x with _ => _ end = None => destruct x as [[? ?]|] || destruct x; try reflexivity end.
Qed.
Print Assumptions C63_errors.
(** "When supplied, num_samples argument is ignored and the first dimensions of
    normal_draws is used instead" does not hold: three draws with two samples fail,
    and one draw with two samples gives two paths. *)
Theorem C63_num_samples_refuted : forall rn sn cholesky ty seed skip rp,
  let p := MGBM 1 (fun _ => 0%R) (fun _ => 1%R) None in
  let draws n := Tensor [n; 1; 1] (fun _ => 0%R) in
  mgbm_sample_paths rn sn cholesky p [1%R] None 2 ty seed skip rp (Some (draws 3)) = None /\
  option_map shape (mgbm_sample_paths rn sn cholesky p [1%R] None 2 ty seed skip rp (Some (draws 1))) = Some [2; 1; 1].
Proof. intros. split; reflexivity. Qed.
Print Assumptions C63_num_samples_refuted.
Theorem C63_fd_solver_refuted : forall A (solve : unit -> unit -> option A), fd_solver mgbm_attributes solve = None.
Proof. reflexivity. Qed.
Print Assumptions C63_fd_solver_refuted.

(** * Examples *)
(** volatility 1 up to time 1 and 2 after it *)
Example gbm_ex : let p := GBM (Const (1 / 10)) (Piecewise (PW [1]%R [1; 2]%R)) in
  setting p [1; 2]%R (fun i => (1 / 10 * INR i)%R) (fun i => match i with 0 => 0 | 1 => 1 | _ => 5 end)%R.
Proof.
  cbv zeta. assert (OV : param_ok (Piecewise (PW [1]%R [1; 2]%R))).
  { exists [1]%R, [1; 2]%R. split; [|discriminate]. split; [reflexivity|]. intros i H. cbn in H. lia. }
  split; [exact Logic.I|]. split; [exact OV|]. split; [cbn; lra|]. split.
  - intros i Hi. apply (is_RInt_ext (V := R_NormedModule) (fun _ => 1 / 10)%R); [intros; unfold gbm_drift_fn; cbn; ring|].
    assert (E : (1 / 10 * INR i = scal (nth i [0; 1; 2] 0 - 0) (1 / 10))%R) by (destruct i as [|[|[|i]]]; [| | |cbn in Hi; lia]; unfold scal; cbn; unfold mult; cbn; ring). rewrite E. apply (is_RInt_const (V := R_NormedModule)).
  - destruct (square_ok _ OV) as (O2 & SQ). intros i Hi. apply (is_RInt_ext (V := R_NormedModule) (param_at (volatility_squared (Piecewise (PW [1]%R [1; 2]%R))))).
    + intros t _. rewrite SQ. unfold gbm_volatility_fn. cbn [gbm_volatility]. rewrite Rmult_1_r. reflexivity.
    + replace (match i with 0 => 0 | 1 => 1 | _ => 5 end)%R with (integrate_parameter (volatility_squared (Piecewise (PW [1]%R [1; 2]%R))) 0 (nth i [0; 1; 2] 0)%R); [apply param_integral, O2|].
      cbn [volatility_squared integrate_parameter jumps pvalues map]. unfold pw_integrate, pw_left, pw_right, pw_integrals, searchsorted_left, searchsorted_right, at_. cbn [jumps pvalues length]. 
      destruct i as [|[|[|i]]]; [| | |cbn in Hi; lia]; cbn [nth filter map length combine tl removelast firstn Nat.sub Nat.min Nat.max app]; repeat (destruct Rlt_dec || destruct Rle_dec); try lra; cbn; lra.
Qed.
Example mgbm_ex : let c := Tensor [2; 2] (fun idx => if Nat.eqb (nth 0 idx 0) (nth 1 idx 0) then 1%R else (3 / 5)%R) in
  let p := MGBM 2 (fun _ => 0%R) (fun _ => 1%R) (Some c) in
  let L a b := (match a, b with 0%nat, 0%nat => 1 | 1%nat, 0%nat => 3 / 5 | 1%nat, 1%nat => 4 / 5 | _, _ => 0 end)%R in
  in_order 0 [1; 2]%R /\ correlating (fun _ => Some (Tensor [2; 2] (fun idx => L (nth 0 idx 0) (nth 1 idx 0)))) p L /\ factorises p L.
Proof.
  cbv zeta. split; [cbn; lra|]. split; [eexists; split; reflexivity|]. intros a b Ha Hb. cbn [m_dim] in *. unfold correlation. cbn.
  destruct a as [|[|a]], b as [|[|b]]; try lia; cbn; field.
Qed.
