(** C97, continued: the law of Euler samples, examples and what goes wrong. *)
From Coquelicot Require Import Coquelicot.
From Coq Require Import Reals Lra Lia Psatz ZArith List Bool Arith.
From Verif Require Import ExtReal HaganWestModel HaganWestProofs BootstrapModel BrentModel TensorModel TensorProofs BoundedCalModel TimeGridModel TimeGridProofs BlackScholesSpec BlackScholesProofs AsianSpec MvNormalModel MvNormalSpec MvNormalProofs PropsMvNormal GbmSpec GbmProofs GbmProofs2 LegacyBmModel LegacyBmSpec LegacyBmProofs PropsLegacyBm.
Import ListNotations.
Open Scope R_scope.

Lemma fine_part h n m g : (m <= n)%nat -> fine_grid h n g -> fine_grid h m g.
Proof. intros L (G0 & GS). split; [exact G0|]. intros i I1. apply GS. lia. Qed.
(** With independent standard normal draws the Euler samples are jointly normal;
    their means and covariances are the sums over the grid of the drift and of the
    rate of covariance. *)
Theorem C97_euler_law sn cholesky p times h x0 : p_total_drift p = None \/ p_total_covariance p = None -> times <> [] -> in_order 0 times -> Forall (fun t => 0 < t) times -> 0 < h -> (0 < p_dim p)%nat ->
  let d := p_dim p in
  exists n g m (X : nat -> nat -> list R -> R), on_grid times h n g m /\
    (forall z ty seed, ty = None \/ ty = Some PSEUDO ->
       exists paths, sample_paths (fun i _ _ idx => coord z (i * d + nth 1 idx 0%nat)) sn cholesky p times 1 (Some x0) Float32 (Some h) ty seed = Some paths /\
       forall k c, (k < length times)%nat -> (c < d)%nat -> elt paths [0%nat; k; c] = Fin (X k c z)) /\
    jointly_normal (n * d) (length times * d) (fun q z => X (q / d)%nat (q mod d)%nat z)
      (fun q => x0 (q mod d)%nat + sum_to (m (q / d)%nat) (fun i => (g (i + 1)%nat - g i) * p_drift p (g (i + 1)%nat) (q mod d)%nat))
      (fun q q' => sum_to (Nat.min (m (q / d)%nat) (m (q' / d)%nat)) (fun i => (g (i + 1)%nat - g i) * covariance_rate d (p_vol p) (q mod d)%nat (q' mod d)%nat (g (i + 1)%nat))).
Proof.
  intros NT NE O PO H D0 d. destruct (C97_euler sn cholesky p NT times h NE O PO H) as (n & g & m & OG & V).
  exists n, g, m, (fun k c z => euler_value d (p_drift p) (p_vol p) g (fun i b => coord z (i * d + b)) x0 (m k) c). split; [exact OG|]. split.
  - intros z ty seed TY. destruct (V (fun i _ _ idx => coord z (i * d + nth 1 idx 0%nat)) 1%nat (Some x0) ty seed TY) as (paths & E & _ & W). exists paths. split; [exact E|].
    intros k c Hk Hc. exact (W 0%nat k c Nat.lt_0_1 Hk Hc).
  - destruct OG as (FG & OM). apply (linear_normal (n * d) (length times * d) _ _ (fun q r => if Nat.ltb (r / d) (m (q / d)%nat) then sqrt (g (r / d + 1)%nat - g (r / d)%nat) * p_vol p (g (r / d + 1)%nat) (q mod d)%nat (r mod d)%nat else 0)).
    + intros q z Hq. assert (Hk : (q / d < length times)%nat) by (apply Nat.div_lt_upper_bound; lia). destruct (OM _ Hk) as (MB & _). set (k := (q / d)%nat) in *. set (c := (q mod d)%nat). unfold euler_value. f_equal.
      pose (F := fun j b : nat => if Nat.ltb j (m k) then sqrt (g (j + 1)%nat - g j) * (p_vol p (g (j + 1)%nat) c b * coord z (j * d + b)) else 0).
      transitivity (sum_to (n * d) (fun r => F (r / d)%nat (r mod d)%nat)).
      * rewrite (st_pairs n d F D0). unfold F. rewrite (sum_to_ext n _ (fun j => if Nat.ltb j (m k) then sqrt (g (j + 1)%nat - g j) * sum_to d (fun b => p_vol p (g (j + 1)%nat) c b * coord z (j * d + b)) else 0)).
        -- rewrite st_cut by exact MB. reflexivity.
        -- intros j J. destruct (Nat.ltb j (m k)); [symmetry; apply st_scal|apply st_zero].
      * apply sum_to_ext. intros r Hr. unfold F. replace (r / d * d + r mod d)%nat with r by (rewrite Nat.mul_comm; apply Nat.div_mod; lia). destruct (Nat.ltb (r / d) (m k)); ring.
    + intros q q' Hq Hq'. assert (Hk : (q / d < length times)%nat) by (apply Nat.div_lt_upper_bound; lia). assert (Hk' : (q' / d < length times)%nat) by (apply Nat.div_lt_upper_bound; lia).
      destruct (OM _ Hk) as (MB & _). destruct (OM _ Hk') as (MB' & _). set (k := (q / d)%nat) in *. set (c := (q mod d)%nat). set (k' := (q' / d)%nat) in *. set (c' := (q' mod d)%nat).
      pose (F := fun j b : nat => if Nat.ltb j (Nat.min (m k) (m k')) then (g (j + 1)%nat - g j) * (p_vol p (g (j + 1)%nat) c b * p_vol p (g (j + 1)%nat) c' b) else 0).
      transitivity (sum_to (n * d) (fun r => F (r / d)%nat (r mod d)%nat)).
      * rewrite (st_pairs n d F D0). unfold F. rewrite (sum_to_ext n _ (fun j => if Nat.ltb j (Nat.min (m k) (m k')) then (g (j + 1)%nat - g j) * covariance_rate d (p_vol p) c c' (g (j + 1)%nat) else 0)).
        -- rewrite st_cut by lia. reflexivity.
        -- intros j J. destruct (Nat.ltb j _); [symmetry; unfold covariance_rate; apply st_scal|apply st_zero].
      * apply sum_to_ext. intros r Hr. unfold F. assert (RN : (r / d < n)%nat) by (apply Nat.div_lt_upper_bound; lia). destruct FG as (_ & GS). pose proof (GS _ RN) as (S1 & _).
        destruct (Nat.ltb_spec (r / d) (m k)), (Nat.ltb_spec (r / d) (m k')), (Nat.ltb_spec (r / d) (Nat.min (m k) (m k'))); try lia; try ring.
        rewrite <- (sqrt_sqrt _ S1) at 1. ring.
Qed.
(** These sums differ from the integrals by at most the grid step times the elapsed
    time times the Lipschitz constant. *)
Theorem C97_euler_error times h n g m f K k v : on_grid times h n g m -> lipschitz K f -> 0 <= K -> (k < length times)%nat -> is_RInt f 0 (nth k times 0) v ->
  Rabs (sum_to (m k) (fun i => (g (i + 1)%nat - g i) * f (g (i + 1)%nat)) - v) <= K * h * nth k times 0.
Proof.
  intros (FG & OM) LI K0 L IV. destruct (OM k L) as (MB & GE). rewrite <- GE in IV |- *. apply riemann_error; [exact LI|exact K0|exact (fine_part h n (m k) g MB FG)|exact IV].
Qed.

(** ** Examples *)
(** the factorization of two by two matrices *)
Definition cholesky2 (c : tensor R) : option (tensor R) :=
  Some (Tensor (shape c) (fun idx => let i := nth 0 idx 0%nat in
    let l00 := sqrt (elt c [i; 0; 0]%nat) in let l10 := elt c [i; 1; 0]%nat / l00 in
    match nth 1 idx 0%nat, nth 2 idx 0%nat with
    | O, O => l00
    | S _, O => l10
    | S _, S _ => sqrt (elt c [i; 1; 1]%nat - l10 ^ 2)
    | _, _ => 0
    end)).
Lemma cholesky2_ok k : cholesky_contract cholesky2 k 2.
Proof.
  intros c SH PD. eexists. split; [reflexivity|]. split; [exact SH|]. intros i L. destruct (PD i L) as (SY & PO). cbn [elt nth]. set (A := elt c [i; 0; 0]%nat). set (B := elt c [i; 1; 0]%nat). set (C := elt c [i; 1; 1]%nat).
  assert (B' : elt c [i; 0; 1]%nat = B) by (apply (SY 0%nat 1%nat); lia).
  pose proof (PO (fun q => match q with O => 1 | _ => 0 end) (ex_intro _ 0%nat (conj Nat.lt_0_2 R1_neq_R0))) as P1. cbn [sum_to] in P1. fold A B C in P1. rewrite B' in P1.
  assert (AP : 0 < A) by lra. assert (PV : exists i0, (i0 < 2)%nat /\ (fun q => match q with O => - B | _ => A end) i0 <> 0) by (exists 1%nat; split; [lia|lra]).
  pose proof (PO (fun q => match q with O => - B | _ => A end) PV) as P2. cbn [sum_to] in P2. fold A B C in P2. rewrite B' in P2.
  assert (DP : 0 < A * C - B ^ 2) by nra. pose proof (sqrt_sqrt A ltac:(lra)) as SA. pose proof (sqrt_lt_R0 A AP) as SP.
  assert (LE : (B / sqrt A) ^ 2 = B ^ 2 / A) by (unfold Rdiv; rewrite Rpow_mult_distr, pow_inv; f_equal; f_equal; cbn; lra).
  assert (RP : 0 <= C - (B / sqrt A) ^ 2). { rewrite LE. apply (Rmult_le_reg_r A); [exact AP|]. replace ((C - B ^ 2 / A) * A) with (A * C - B ^ 2) by (field; lra). lra. }
  intros e f E F. destruct e as [|[|e]], f as [|[|f]]; try lia; cbn [sum_to]; fold A B C; rewrite ?B'.
  - lra.
  - field. lra.
  - field. lra.
  - rewrite (sqrt_sqrt _ RP). ring.
Qed.
Definition correlated : vol_arg := VMatrix (fun i j => match i, j with 0%nat, 0%nat => 1 | 1%nat, 0%nat => 1 / 2 | 1%nat, 1%nat => 1 | _, _ => 0 end).
Example C97_law_example : exists p td tc, brownian_motion 2 (Some (DScalar 3)) (Some correlated) None None = Some p /\
  p_total_drift p = Some td /\ p_total_covariance p = Some tc /\ integrated_drift 2 (fun _ _ => 3) td /\ integrated_covariance 2 (promised_volatility (Some correlated)) tc /\
  cholesky_contract cholesky2 2 2 /\ forall i, (i < 2)%nat -> positive_definite 2 (tc (time_number [1; 3] i) (time_number [1; 3] (S i))).
Proof.
  pose proof (C97_totals 2 (Some (DScalar 3)) (Some correlated) None None _ eq_refl) as ((_ & H1) & (_ & H2)).
  destruct (H1 (fun F => F)) as (td & E1 & I1). destruct (H2 (fun F => F)) as (tc & E2 & I2). eexists _, td, tc. split; [reflexivity|]. split; [exact E1|]. split; [exact E2|]. split; [exact I1|]. split; [exact I2|].
  split; [apply cholesky2_ok|]. injection E2 as E2. subst tc. clear.
  intros i L. assert (TT : exists D, 0 < D /\ time_number [1; 3] (S i) - time_number [1; 3] i = D) by (destruct i as [|[|i]]; try lia; [exists 1|exists 2]; unfold time_number; cbn; lra).
  destruct TT as (D & DP & TE). rewrite TE. split.
  - intros e f E F. destruct e as [|[|e]], f as [|[|f]]; try lia; cbn; ring.
  - intros v (q & Q & V). cbn. set (v0 := v 0%nat). set (v1 := v 1%nat).
    replace (0 + (0 + v0 * (D * (0 + 1 * 1 + 0 * 0)) * v0 + v0 * (D * (0 + 1 * (1 / 2) + 0 * 1)) * v1) + (0 + v1 * (D * (0 + 1 / 2 * 1 + 1 * 0)) * v0 + v1 * (D * (0 + 1 / 2 * (1 / 2) + 1 * 1)) * v1)) with (D * ((v0 + v1 / 2) ^ 2 + v1 ^ 2)) by field.
    apply Rmult_lt_0_compat; [exact DP|]. destruct (Req_dec v1 0) as [Z|Z].
    + assert (v0 <> 0) by (destruct q as [|[|q]]; [exact V|exfalso; apply V; exact Z|lia]). rewrite Z. pose proof (pow2_gt_0 v0 H). replace (v0 + 0 / 2) with v0 by field. nra.
    + pose proof (pow2_gt_0 v1 Z). pose proof (pow2_ge_0 (v0 + v1 / 2)). lra.
Qed.
Example C97_euler_example : exists p, brownian_motion 1 None (Some (VCallable (fun t _ _ => 1 + t))) None None = Some p /\ p_total_covariance p = None /\
  exists n g m, on_grid [1 / 2; 1] (1 / 4) n g m.
Proof.
  eexists. split; [reflexivity|]. split; [reflexivity|].
  destruct (C97_euler (fun _ _ _ => 0) (fun _ => None) (Process 1 (fun _ _ => 0) None (fun _ _ _ => 1) None) (or_introl eq_refl) [1 / 2; 1] (1 / 4)) as (n & g & m & OG & _); [discriminate|cbn; lra|repeat constructor; lra|lra|].
  exists n, g, m. exact OG.
Qed.

(** ** What goes wrong *)
(** The default volatility is a matrix of ones instead of the identity: the
    coordinates are promised to be independent, and the covariance that is used
    for sampling is not that of the volatility. *)
Theorem C97_default_volatility_refuted dim dr td : (1 < dim)%nat -> (dr <> None \/ td = None) -> exists p tc, brownian_motion dim dr None td None = Some p /\ p_total_covariance p = Some tc /\
  p_vol p 1 0%nat 1%nat = 1 /\ promised_volatility None 1 0%nat 1%nat = 0 /\ tc 0 1 0%nat 1%nat = 0 /\ ~ integrated_covariance dim (p_vol p) tc.
Proof.
  intros D N. unfold brownian_motion. destruct (Nat.ltb_spec dim 1); [lia|].
  assert (E : exists p, (match dr, td with None, Some _ => None | _, _ => let '(drift_fn, total_drift_fn) := construct_drift_data dr td in let '(vol_fn, total_covar_fn) := construct_vol_data dim None None in Some (Process dim drift_fn total_drift_fn vol_fn total_covar_fn) end) = Some p
    /\ p_vol p = (fun _ _ _ => 1) /\ p_total_covariance p = Some (fun t1 t2 i j => (t2 - t1) * eye i j)).
  { destruct dr as [[]|], td as [td|]; try (eexists; split; [reflexivity|split; reflexivity]). destruct N; congruence. }
  destruct E as (p & E & EV & EC). exists p. eexists. split; [exact E|]. split; [exact EC|]. rewrite EV. split; [reflexivity|]. split; [reflexivity|]. split; [cbn; ring|].
  intros IC. specialize (IC 0 1 0%nat 1%nat ltac:(lra) ltac:(lia) ltac:(lia)).
  pose proof (is_RInt_unique (V := R_CompleteNormedModule) _ _ _ _ IC) as U1.
  assert (K : is_RInt (covariance_rate dim (fun _ _ _ => 1) 0 1) 0 1 (INR dim)).
  { apply (is_RInt_ext (V := R_NormedModule) (fun _ => INR dim)).
    - intros u _. unfold covariance_rate. rewrite (sum_to_ext dim _ (fun _ => 1)) by (intros; ring). rewrite sum_to_const. symmetry. apply Rmult_1_r.
    - pose proof (is_RInt_const (V := R_NormedModule) 0 1 (INR dim)) as K. unfold scal in K; cbn in K; unfold mult in K; cbn in K. replace ((1 - 0) * INR dim) with (INR dim) in K by ring. exact K. }
  pose proof (is_RInt_unique (V := R_CompleteNormedModule) _ _ _ _ K) as U2. rewrite U1 in U2. cbn in U2. pose proof (lt_0_INR dim ltac:(lia)). lra.
Qed.
(** Random numbers that are determined by the arguments (stateless and
    low-discrepancy numbers) are the same in every Euler step: the value of a
    standard Brownian motion is the first draw times a number that grows without
    bound as the steps get smaller. *)
Definition repeatable (ty : random_type) : Prop := match ty with PSEUDO | PSEUDO_ANTITHETIC => False | _ => True end.
Theorem C97_same_draws_refuted rn sn cholesky N ty seed x0 p h draws : repeatable ty -> 0 < h ->
  brownian_motion 1 None (Some (VCallable (fun _ _ _ => 1))) None None = Some p ->
  multivariate_normal (rn 0%nat) sn cholesky [N] (Some (Tensor [1; 1]%nat (fun _ => 0))) None None (Some ty) seed 0 None = Some draws ->
  exists paths factor, sample_paths rn sn cholesky p [1] N (Some x0) Float32 (Some h) (Some ty) seed = Some paths /\ / sqrt h <= factor /\
    forall s z, (s < N)%nat -> elt draws [s; 0; 0]%nat = Fin z -> elt paths [s; 0; 0]%nat = Fin (x0 0%nat + factor * z).
Proof.
  intros RP H EP ED. injection EP as <-. assert (NE : [1] <> []) by discriminate. assert (O : in_order 0 [1]) by (cbn; lra). assert (PO : Forall (fun t => 0 < t) [1]) by (repeat constructor; lra).
  destruct (euler_grid_ok [1] h NE O PO H) as (G & EG & LG & FG & KE). set (kept := filter (fun i => nth i (map snd G) false) (seq 1 (length G - 1))) in *.
  assert (SAME : forall n o, map_opt (fun i => multivariate_normal (rn i) sn cholesky [N] (Some (Tensor [1; 1]%nat (fun _ => 0))) None None (Some ty) seed 0 None) (seq o n) = Some (repeat draws n)).
  { induction n as [|n IH]; intros o; [reflexivity|]. cbn [seq map_opt]. rewrite (IH (S o)).
    replace (multivariate_normal (rn o) sn cholesky [N] (Some (Tensor [1; 1]%nat (fun _ => 0))) None None (Some ty) seed 0 None) with (Some draws); [reflexivity|]. rewrite <- ED. destruct ty; try destruct RP; reflexivity. }
  destruct kept as [|m [|m' r]] eqn:KQ; try discriminate KE. cbn [map] in KE. injection KE as GE.
  assert (MB : (m <= length G - 1)%nat). { assert (I1 : In m kept) by (rewrite KQ; left; reflexivity). apply filter_In in I1. destruct I1 as (I1 & _). apply in_seq in I1. lia. }
  set (g := at_ (map fst G)) in *. exists (Tensor [N; 1; 1]%nat (fun idx => match nth_error kept (nth 1 idx 0%nat) with Some i => euler_state (Process 1 (fun _ _ => 0) (Some (fun _ _ _ => 0)) (fun _ _ _ => 1) None) (map fst G) x0 (fun i => nth i (repeat draws (length G - 1)) (Tensor [] (fun _ => NaN))) i (nth 0 idx 0%nat) (nth 2 idx 0%nat) | None => Fin 0 end)), (sum_to m (fun i => sqrt (g (i + 1)%nat - g i))).
  split; [|split].
  - unfold sample_paths. cbn [p_total_drift p_total_covariance construct_vol_data covar_from_vol option_map construct_drift_data ensure_matrix]. unfold euler_sampling. rewrite EG. cbv zeta. cbn [p_dim]. rewrite (SAME (length G - 1)%nat 0%nat). fold kept. reflexivity.
  - pose proof (fine_part h _ m g MB FG) as (G0 & GS). pose proof (sqrt_lt_R0 h H) as SH. apply (Rmult_le_reg_r (sqrt h)); [exact SH|]. rewrite Rinv_l by lra.
    assert (B : forall n, (n <= m)%nat -> g n <= sum_to n (fun i => sqrt (g (i + 1)%nat - g i)) * sqrt h).
    { induction n as [|n IH]; intros L; [rewrite G0; cbn; lra|]. cbn [sum_to]. specialize (IH ltac:(lia)). pose proof (GS n ltac:(lia)) as (S1 & S2). rewrite Nat.add_1_r in *.
      pose proof (sqrt_sqrt _ S1) as Q. pose proof (sqrt_le_1_alt _ _ S2) as L1. pose proof (sqrt_pos (g (S n) - g n)). nra. }
    specialize (B m ltac:(lia)). rewrite GE in B. exact B.
  - intros s z Hs EZ. cbn [elt nth]. rewrite KQ. cbn [nth_error].
    rewrite (euler_formula _ _ x0 _ (fun _ _ => z) s m).
    + unfold euler_value. cbn [p_dim p_drift p_vol]. fold g. f_equal. rewrite (sum_to_ext m (fun i => (g (i + 1)%nat - g i) * 0) (fun _ => 0)) by (intros; ring). rewrite st_zero.
      rewrite (sum_to_ext m _ (fun i => z * sqrt (g (i + 1)%nat - g i))) by (intros; cbn [sum_to]; ring). rewrite <- st_scal. ring.
    + intros i b Hi Hb. cbn [p_dim] in Hb. replace b with 0%nat by lia. rewrite (nth_indep _ _ draws) by (rewrite repeat_length; lia). rewrite nth_repeat. exact EZ.
Qed.
(** Double precision cannot be sampled by the Euler scheme. *)
Theorem C97_double_refuted rn sn cholesky p times N init h ty seed : p_total_drift p = None \/ p_total_covariance p = None -> sample_paths rn sn cholesky p times N init Float64 h ty seed = None.
Proof.
  intros NT. unfold sample_paths. assert (E : forall x, euler_sampling rn sn cholesky p times N x Float64 match h with Some y => y | None => 0 end ty seed = None) by (intros x; unfold euler_sampling; destruct (euler_grid _ _); reflexivity).
  destruct NT as [Q|Q]; rewrite Q; [|destruct (p_total_drift p)]; destruct h as [h|]; try reflexivity; apply E.
Qed.

Print Assumptions C97_refused.
Print Assumptions C97_coefficients_partial.
Print Assumptions C97_totals.
Print Assumptions C97_exact.
Print Assumptions C97_law.
Print Assumptions C97_order.
Print Assumptions C97_euler.
Print Assumptions C97_euler_law.
Print Assumptions C97_euler_error.
Print Assumptions C97_default_volatility_refuted.
Print Assumptions C97_same_draws_refuted.
Print Assumptions C97_double_refuted.
