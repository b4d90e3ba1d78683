(** Proofs about the quasi-Gaussian HJM model. *)
From Coquelicot Require Import Coquelicot.
From Coq Require Import ZArith Reals List Bool Arith Lia Lra.
From Verif Require Import TensorModel TensorProofs SegmentModel BrentModel ExtReal BootstrapModel TimeGridModel TimeGridSpec TimeGridProofs PropsTimeGrid EulerModel EulerSpec PropsEuler MvNormalSpec PropsMvNormal GbmModel GbmProofs
  HjmSpec HjmProofs HjmProofs2 HjmQuasiModel HjmQuasiSpec.
Import ListNotations.
Open Scope R_scope.

(** ** Sums over the state *)
Lemma sums_block n d (F : nat -> R) : sum_to (n * d) F = sum_to n (fun i => sum_to d (fun j => F (i * d + j)%nat)).
Proof.
  induction n as [|n IH]; [reflexivity|]. cbn [sum_to]. rewrite <- IH. replace (S n * d)%nat with (n * d + d)%nat by lia. apply sum_to_split.
Qed.
Lemma sums_state d (F : nat -> R) : sum_to (d + d * d) F = sum_to d F + sum_to d (fun i => sum_to d (fun j => F (y_coord d i j))).
Proof. rewrite sum_to_split. f_equal. rewrite sums_block. reflexivity. Qed.
Lemma row_of d i j : (j < d)%nat -> ((y_coord d i j - d) / d)%nat = i.
Proof. intros H. unfold y_coord. replace (d + (i * d + j) - d)%nat with (j + i * d)%nat by lia. rewrite Nat.div_add by lia. rewrite Nat.div_small by exact H. lia. Qed.
Lemma col_of d i j : (j < d)%nat -> ((y_coord d i j - d) mod d)%nat = j.
Proof. intros H. unfold y_coord. replace (d + (i * d + j) - d)%nat with (j + i * d)%nat by lia. rewrite Nat.mod_add by lia. apply Nat.mod_small, H. Qed.
Lemma y_coord_ge d i j : Nat.ltb (y_coord d i j) d = false.
Proof. apply Nat.ltb_ge. unfold y_coord. lia. Qed.
Lemma x_coord_lt d i : (i < d)%nat -> Nat.ltb i d = true.
Proof. apply Nat.ltb_lt. Qed.

(** ** Exponential-affine prices *)
Section Affine.
  Variables (N : nat) (C : R) (c : R -> R) (w : nat -> R -> R) (t : R) (f : R) (dw : nat -> R).
  Hypothesis DC : is_derive c t f.
  Hypothesis DW : forall a, (a < N)%nat -> is_derive (w a) t (dw a).
  Definition aff (u : R) (z : nat -> R) : R := C * exp (c u - sum_to N (fun a => z a * w a u)).
  Lemma aff_time z : is_derive (fun u => aff u z) t (aff t z * (f - sum_to N (fun a => z a * dw a))).
  Proof.
    assert (DS : is_derive (fun u => sum_to N (fun a => z a * w a u)) t (sum_to N (fun a => z a * dw a))).
    { apply (derive_sum N (fun a u => z a * w a u)). intros a Ha. apply (is_derive_scal (w a) t (z a)), DW, Ha. }
    pose proof (is_derive_minus (K := R_AbsRing) (V := R_NormedModule) c _ t _ _ DC DS) as Q1.
    pose proof (is_derive_comp (K := R_AbsRing) (V := R_NormedModule) exp _ t _ _ (is_derive_exp _) Q1) as Q2.
    pose proof (is_derive_scal _ t C _ Q2) as Q3. unfold aff.
    match type of Q3 with is_derive _ _ ?d1 => match goal with |- is_derive _ _ ?d2 => replace d2 with d1; [exact Q3|] end end.
    unfold scal, minus, plus, opp, mult. cbn -[pow]. unfold mult. cbn -[pow]. unfold Rminus. ring.
  Qed.
  Lemma aff_state z a v : (a < N)%nat -> aff t (set_at z a v) = aff t z * exp (- ((v - z a) * w a t)).
  Proof. intros H. unfold aff. rewrite (sum_set z a v (fun a => w a t) N H). rewrite Rmult_assoc, <- exp_plus. f_equal. f_equal. ring. Qed.
  Lemma aff_first a z : (a < N)%nat -> is_derive (fun v => aff t (set_at z a v)) (z a) (- w a t * aff t z).
  Proof.
    intros H. apply (is_derive_ext (fun v => aff t z * exp (- ((v - z a) * w a t)))); [intros v; symmetry; apply aff_state, H|].
    set (p := aff t z). set (q := w a t). clearbody p q. auto_derive; [exact Logic.I|]. replace (z a + - z a) with 0 by ring. rewrite Rmult_0_l, Ropp_0, exp_0. ring.
  Qed.
  Lemma aff_pricing (mu : nat -> R) (b : nat -> nat -> R) (r : R) z :
    f - sum_to N (fun a => z a * dw a) - sum_to N (fun a => mu a * w a t) + 1 / 2 * sum_to N (fun a => sum_to N (fun a' => sum_to N (fun l => b a l * b a' l) * (w a t * w a' t))) = r ->
    pricing_equation N mu b r aff t z.
  Proof.
    intros E. exists (aff t z * (f - sum_to N (fun a => z a * dw a))), (fun a z => - w a t * aff t z), (fun a a' => w a t * w a' t * aff t z).
    split; [apply aff_time|]. split; [intros a z' Ha; apply aff_first, Ha|]. split.
    - intros a a' Ha Ha'. pose proof (is_derive_scal _ (z a') (- w a t) _ (aff_first a' z Ha')) as Q.
      match type of Q with is_derive _ _ ?d1 => match goal with |- is_derive _ _ ?d2 => replace d2 with d1; [exact Q|] end end. ring.
    - set (p := aff t z).
      assert (E1 : sum_to N (fun a => mu a * (- w a t * p)) = - p * sum_to N (fun a => mu a * w a t)) by (rewrite <- sums_scal; apply sums_ext; intros; ring).
      assert (E2 : sum_to N (fun a => sum_to N (fun a' => sum_to N (fun l => b a l * b a' l) * (w a t * w a' t * p))) = p * sum_to N (fun a => sum_to N (fun a' => sum_to N (fun l => b a l * b a' l) * (w a t * w a' t)))).
      { rewrite <- sums_scal. apply sums_ext. intros a _. rewrite <- sums_scal. apply sums_ext. intros a' _. ring. }
      rewrite E1, E2, <- E. ring.
  Qed.
End Affine.

(** ** The bond prices of the model *)
Section Bond.
  Variables (h : qg) (t T : R).
  Notation d := (q_dim h).
  Notation N := (q_size h).
  Hypothesis K0 : forall i, (i < d)%nat -> q_mr h i <> 0.
  Hypothesis FW : is_derive (fun u => q_rate h u * u) t (q_forward h t).
  Notation G := (fun i u => load (q_mr h) i u T).
  Definition weight (a : nat) (u : R) : R :=
    if Nat.ltb a d then G a u else 1 / 2 * (G ((a - d) / d)%nat u * G ((a - d) mod d)%nat u).
  Definition weight' (a : nat) : R :=
    let g i := G i t in let g' i := q_mr h i * G i t - 1 in
    if Nat.ltb a d then g' a else let i := ((a - d) / d)%nat in let j := ((a - d) mod d)%nat in 1 / 2 * (g' i * g j + g i * g' j).
  Lemma weight_derive a : (a < N)%nat -> is_derive (weight a) t (weight' a).
  Proof.
    intros H. unfold q_size in H. unfold weight, weight'. destruct (Nat.ltb_spec a d) as [L|L].
    - apply (load_derive d (q_mr h) t T K0 a L).
    - set (i := ((a - d) / d)%nat). set (j := ((a - d) mod d)%nat). assert (d <> 0)%nat by (intros E; rewrite E in *; lia).
      assert (Hi : (i < d)%nat) by (apply Nat.div_lt_upper_bound; lia). assert (Hj : (j < d)%nat) by (apply Nat.mod_upper_bound; assumption).
      pose proof (is_derive_mult (K := R_AbsRing) (G i) (G j) t _ _ (load_derive d (q_mr h) t T K0 i Hi) (load_derive d (q_mr h) t T K0 j Hj) Rmult_comm) as Q1.
      apply (is_derive_scal _ t (1 / 2) _ Q1).
  Qed.
  Definition q_bond (u : R) (z : nat -> R) : R := q_reconstitution h u T (xs z) (ys h z).
  Lemma bond_aff u z : q_bond u z = aff N (exp (- (q_rate h T * T))) (fun u => q_rate h u * u) weight u z.
  Proof.
    unfold q_bond, q_reconstitution, aff. cbv zeta. rewrite !rsum_is. unfold Rdiv at 1. rewrite <- exp_Ropp. rewrite Rmult_assoc, <- exp_plus. f_equal; [f_equal; ring|]. f_equal. unfold q_size. rewrite sums_state.
    assert (E1 : sum_to d (fun a => z a * weight a u) = sum_to d (fun i => xs z i * ((1 - exp (- q_mr h i * (T - u))) / q_mr h i))).
    { apply sums_ext. intros i Hi. unfold weight, xs. rewrite x_coord_lt by exact Hi. unfold load. f_equal. f_equal. f_equal. f_equal. ring. }
    assert (E2 : sum_to d (fun i => sum_to d (fun j => z (y_coord d i j) * weight (y_coord d i j) u)) =
      1 / 2 * sum_to d (fun i => (1 - exp (- q_mr h i * (T - u))) / q_mr h i * rsum (fun j => ys h z i j * ((1 - exp (- q_mr h j * (T - u))) / q_mr h j)) d)).
    { rewrite <- sums_scal. apply sums_ext. intros i Hi. rewrite rsum_is, <- !sums_scal. apply sums_ext. intros j Hj. unfold weight. rewrite y_coord_ge, row_of, col_of by exact Hj. unfold load, ys, y_coord.
      replace (- (q_mr h i * (T - u))) with (- q_mr h i * (T - u)) by ring. replace (- (q_mr h j * (T - u))) with (- q_mr h j * (T - u)) by ring. ring. }
    rewrite E1, E2. ring.
  Qed.
  Variable z : nat -> R.
  Hypothesis SY : forall i j, (i < d)%nat -> (j < d)%nat -> ys h z i j = ys h z j i.
  Hypothesis FA : factor_of d (q_sqrt_rho h) (q_rho h).
  Lemma vol_product a a' : sum_to N (fun l => q_vol_fn h t z a l * q_vol_fn h t z a' l) =
    if (Nat.ltb a d && Nat.ltb a' d)%bool then let s := q_vol h t (q_short_rate h t z) in q_rho h a a' * (s a * s a') else 0.
  Proof.
    set (s := q_vol h t (q_short_rate h t z)). unfold q_size. rewrite sums_state.
    assert (Z : sum_to d (fun i => sum_to d (fun j => q_vol_fn h t z a (y_coord d i j) * q_vol_fn h t z a' (y_coord d i j))) = 0).
    { apply sums_zero. intros i _. apply sums_zero. intros j _. unfold q_vol_fn. rewrite y_coord_ge, andb_false_r. ring. }
    rewrite Z, Rplus_0_r. destruct (Nat.ltb_spec a d) as [L|L]; cbn [andb]; [destruct (Nat.ltb_spec a' d) as [L'|L']|].
    - cbv zeta. rewrite <- (FA a a' L L'). rewrite Rmult_comm, <- sums_scal. apply sums_ext. intros l Hl. unfold q_vol_fn. rewrite !x_coord_lt by assumption. cbn [andb]. fold s. ring.
    - apply sums_zero. intros l _. unfold q_vol_fn. replace (Nat.ltb a' d) with false by (symmetry; apply Nat.ltb_ge, L'). cbn [andb]. ring.
    - apply sums_zero. intros l _. unfold q_vol_fn. replace (Nat.ltb a d) with false by (symmetry; apply Nat.ltb_ge, L). cbn [andb]. ring.
  Qed.
  Lemma q_pricing : pricing_equation N (q_drift h t z) (q_vol_fn h t z) (q_short_rate h t z) q_bond t z.
  Proof.
    assert (PQ : pricing_equation N (q_drift h t z) (q_vol_fn h t z) (q_short_rate h t z) (aff N (exp (- (q_rate h T * T))) (fun u => q_rate h u * u) weight) t z).
    2: { destruct PQ as (Pt & P1 & P2 & A & B & D & E). exists Pt, P1, P2. split; [apply (is_derive_ext _ _ _ _ (fun u => eq_sym (bond_aff u z)) A)|]. split; [intros i z' Hi; apply (is_derive_ext _ _ _ _ (fun v => eq_sym (bond_aff t (set_at z' i v))) (B i z' Hi))|]. split; [exact D|]. rewrite bond_aff. exact E. }
    apply (aff_pricing N _ _ weight t (q_forward h t) weight' FW weight_derive).
    set (s := q_vol h t (q_short_rate h t z)). set (g := fun i => G i t). set (k := q_mr h). set (x := xs z). set (y := ys h z).
    assert (W1 : sum_to N (fun a => z a * weight' a) = sum_to d (fun i => x i * (k i * g i - 1)) + sum_to d (fun i => sum_to d (fun j => 1 / 2 * y i j * ((k i * g i - 1) * g j + g i * (k j * g j - 1))))).
    { unfold q_size. rewrite sums_state. f_equal.
      - apply sums_ext. intros i Hi. unfold weight'. cbv zeta. rewrite x_coord_lt by exact Hi. reflexivity.
      - apply sums_ext. intros i Hi. apply sums_ext. intros j Hj. unfold weight'. cbv zeta. rewrite y_coord_ge, row_of, col_of by exact Hj. unfold y, ys, y_coord, g, k. ring. }
    assert (W2 : sum_to N (fun a => q_drift h t z a * weight a t) = sum_to d (fun i => (sum_to d (y i) - k i * x i) * g i) + sum_to d (fun i => sum_to d (fun j => 1 / 2 * (q_rho h i j * (s i * s j) - (k i + k j) * y i j) * (g i * g j)))).
    { unfold q_size. rewrite sums_state. f_equal.
      - apply sums_ext. intros i Hi. unfold weight, q_drift. cbv zeta. rewrite x_coord_lt by exact Hi. rewrite rsum_is. reflexivity.
      - apply sums_ext. intros i Hi. apply sums_ext. intros j Hj. unfold weight, q_drift. cbv zeta. rewrite y_coord_ge, row_of, col_of by exact Hj. fold s. unfold g, k, y. ring. }
    assert (W3 : sum_to N (fun a => sum_to N (fun a' => sum_to N (fun l => q_vol_fn h t z a l * q_vol_fn h t z a' l) * (weight a t * weight a' t))) = sum_to d (fun i => sum_to d (fun j => q_rho h i j * (s i * s j) * (g i * g j)))).
    { unfold q_size at 1. rewrite sums_state. rewrite (sums_zero d (fun i => sum_to d _)).
      - rewrite Rplus_0_r. apply sums_ext. intros i Hi. unfold q_size at 1. rewrite sums_state. rewrite (sums_zero d (fun i0 => sum_to d _)).
        + rewrite Rplus_0_r. apply sums_ext. intros j Hj. rewrite vol_product, !x_coord_lt by assumption. cbn [andb]. cbv zeta. fold s. unfold weight. rewrite !x_coord_lt by assumption. reflexivity.
        + intros i' _. apply sums_zero. intros j' _. rewrite vol_product, y_coord_ge, andb_false_r. ring.
      - intros i _. apply sums_zero. intros j _. apply sums_zero. intros a' _. rewrite vol_product, y_coord_ge. cbn [andb]. ring. }
    rewrite W1, W2, W3. unfold q_short_rate. rewrite rsum_is. fold x.
    assert (A : sum_to d (fun i => sum_to d (fun j => 1 / 2 * (y i j * (g j - g i)))) = 0).
    { apply sums_antisym. intros i j Hi Hj. unfold y. rewrite (SY j i) by assumption. ring. }
    assert (B : sum_to d (fun i => x i * (k i * g i - 1)) = sum_to d (fun i => k i * x i * g i) - sum_to d x).
    { unfold Rminus. rewrite <- sums_opp, <- sums_add. apply sums_ext. intros i _. ring. }
    assert (E : sum_to d (fun i => (sum_to d (y i) - k i * x i) * g i) = sum_to d (fun i => sum_to d (fun j => y i j * g i)) - sum_to d (fun i => k i * x i * g i)).
    { unfold Rminus. rewrite <- sums_opp, <- sums_add. apply sums_ext. intros i _. rewrite Rmult_plus_distr_r. f_equal; [|ring]. rewrite Rmult_comm, <- sums_scal. apply sums_ext. intros j _. ring. }
    assert (D : sum_to d (fun i => sum_to d (fun j => 1 / 2 * (y i j * (g j - g i)))) =
      - sum_to d (fun i => sum_to d (fun j => 1 / 2 * y i j * ((k i * g i - 1) * g j + g i * (k j * g j - 1))))
      - sum_to d (fun i => sum_to d (fun j => 1 / 2 * (q_rho h i j * (s i * s j) - (k i + k j) * y i j) * (g i * g j)))
      - sum_to d (fun i => sum_to d (fun j => y i j * g i)) + 1 / 2 * sum_to d (fun i => sum_to d (fun j => q_rho h i j * (s i * s j) * (g i * g j)))).
    { match goal with |- _ = - ?a - ?b - ?c + 1 / 2 * ?e => transitivity (- (1) * a + (- (1) * b + (- (1) * c + 1 / 2 * e))); [|lra] end.
      rewrite <- !sums_scal, <- !sums_add. apply sums_ext. intros i _. rewrite <- !sums_scal, <- !sums_add. apply sums_ext. intros j _. field. }
    lra.
  Qed.
End Bond.

(** ** The factor of the correlation matrix *)
Section Factor.
  Variables (d : nat) (e : nat -> R) (v rho : nat -> nat -> R).
  Hypothesis ED : eigen_decomposition d e v rho.
  Notation eps := (1 / 100000).
  Definition root (i m : nat) : R := rsum (fun l => v i l * sqrt (if Nat.eqb l m then Rmax (e l) eps else 0)) d.
  Lemma root_is i m : (m < d)%nat -> root i m = v i m * sqrt (Rmax (e m) eps).
  Proof.
    intros H. unfold root. rewrite rsum_is. revert H. generalize d. intros n. induction n as [|n IH]; intros H; [lia|]. cbn [sum_to]. destruct (Nat.eqb_spec n m) as [E|E].
    - subst n. rewrite sums_zero; [ring|]. intros l Hl. destruct (Nat.eqb_spec l m); [lia|]. rewrite sqrt_0. ring.
    - rewrite IH by lia. rewrite sqrt_0. ring.
  Qed.
  Lemma root_product i j : sum_to d (fun l => root i l * root j l) = sum_to d (fun l => v i l * Rmax (e l) eps * v j l).
  Proof.
    apply sums_ext. intros l Hl. rewrite !root_is by exact Hl. assert (Q : sqrt (Rmax (e l) eps) * sqrt (Rmax (e l) eps) = Rmax (e l) eps) by (apply sqrt_sqrt; pose proof (Rmax_r (e l) eps); lra).
    transitivity (v i l * v j l * (sqrt (Rmax (e l) eps) * sqrt (Rmax (e l) eps))); [ring|]. rewrite Q. ring.
  Qed.
  Lemma sum_abs n (F : nat -> R) : Rabs (sum_to n F) <= sum_to n (fun l => Rabs (F l)).
  Proof. induction n as [|n IH]; cbn [sum_to]; [rewrite Rabs_R0; lra|]. eapply Rle_trans; [apply Rabs_triang|]. lra. Qed.
  Lemma sum_mono n (F G : nat -> R) : (forall l, (l < n)%nat -> F l <= G l) -> sum_to n F <= sum_to n G.
  Proof. induction n as [|n IH]; intros H; cbn [sum_to]; [lra|]. specialize (IH (fun l L => H l (Nat.lt_lt_succ_r _ _ L))). specialize (H n ltac:(lia)). lra. Qed.
  Lemma sum_strict n (F G : nat -> R) m : (forall l, (l < n)%nat -> F l <= G l) -> (m < n)%nat -> F m < G m -> sum_to n F < sum_to n G.
  Proof.
    induction n as [|n IH]; intros H M L; [lia|]. cbn [sum_to]. destruct (Nat.eq_dec m n) as [->|NE].
    - pose proof (sum_mono n F G (fun l Q => H l (Nat.lt_lt_succ_r _ _ Q))). lra.
    - specialize (IH (fun l Q => H l (Nat.lt_lt_succ_r _ _ Q)) ltac:(lia) L). specialize (H n ltac:(lia)). lra.
  Qed.
  Lemma root_close i j : (forall l, (l < d)%nat -> 0 <= e l) -> (i < d)%nat -> (j < d)%nat -> Rabs (sum_to d (fun l => root i l * root j l) - rho i j) <= eps.
  Proof.
    intros P Hi Hj. destruct ED as (_ & RO & RH). rewrite root_product, RH by assumption.
    replace (sum_to d (fun l => v i l * Rmax (e l) eps * v j l) - sum_to d (fun l => v i l * e l * v j l)) with (sum_to d (fun l => (Rmax (e l) eps - e l) * (v i l * v j l)))
      by (unfold Rminus; rewrite <- sums_opp, <- sums_add; apply sums_ext; intros; ring).
    eapply Rle_trans; [apply sum_abs|]. apply Rle_trans with (sum_to d (fun l => eps * ((v i l * v i l + v j l * v j l) / 2))).
    - apply sum_mono. intros l Hl. specialize (P l Hl). assert (0 <= Rmax (e l) eps - e l <= eps) by (unfold Rmax; destruct (Rle_dec (e l) eps); lra).
      rewrite Rabs_mult, (Rabs_right (_ - _)) by lra. assert (Rabs (v i l * v j l) <= (v i l * v i l + v j l * v j l) / 2) by (apply Rabs_le; pose proof (Rle_0_sqr (v i l - v j l)); pose proof (Rle_0_sqr (v i l + v j l)); unfold Rsqr in *; lra).
      apply Rmult_le_compat; try lra; apply Rabs_pos.
    - apply Req_le. rewrite sums_scal. replace (sum_to d (fun l => (v i l * v i l + v j l * v j l) / 2)) with (1 / 2 * (sum_to d (fun l => v i l * v i l) + sum_to d (fun l => v j l * v j l)))
        by (rewrite <- sums_add, <- sums_scal; apply sums_ext; intros; field).
      rewrite !RO by assumption. rewrite !Nat.eqb_refl. field.
  Qed.
  Lemma trace_of (w : nat -> R) : sum_to d (fun i => sum_to d (fun l => v i l * w l * v i l)) = sum_to d w.
  Proof.
    destruct ED as (CO & _ & _). rewrite (sums_swap d d). apply sums_ext. intros l Hl. transitivity (w l * sum_to d (fun i => v i l * v i l)); [rewrite <- sums_scal; apply sums_ext; intros; ring|].
    rewrite CO by assumption. rewrite Nat.eqb_refl. ring.
  Qed.
  Lemma root_trace m : (m < d)%nat -> e m < eps -> sum_to d (fun i => rho i i) < sum_to d (fun i => sum_to d (fun l => root i l * root i l)).
  Proof.
    intros Hm L. assert (E1 : sum_to d (fun i => rho i i) = sum_to d e) by (rewrite <- (trace_of e); apply sums_ext; intros i Hi; apply ED; assumption).
    assert (E2 : sum_to d (fun i => sum_to d (fun l => root i l * root i l)) = sum_to d (fun l => Rmax (e l) eps)) by (rewrite <- (trace_of (fun l => Rmax (e l) eps)); apply sums_ext; intros i Hi; apply root_product).
    rewrite E1, E2. apply (sum_strict d _ _ m); [intros l _; apply Rmax_l|exact Hm|]. unfold Rmax. destruct (Rle_dec (e m) eps); lra.
  Qed.
End Factor.

(** ** The recorded paths *)
Lemma quasi_path h grid draws s : let Z n := end_path (quasi_process h) grid draws (fun _ _ => 0) n s in
  quasi_states (q_dim h) (q_mr h) (q_vol h) (q_rho h) (q_sqrt_rho h) (q_forward h) grid (fun n => draws n s) (fun n => xs (Z n)) (fun n => ys h (Z n)).
Proof.
  intros Z. split; [reflexivity|]. split; [reflexivity|]. intros n. cbv zeta. set (sg := q_vol h (grid (S n)) (sum_to (q_dim h) (xs (Z n)) + q_forward h (grid (S n)))).
  assert (SG : q_vol h (grid (S n)) (q_short_rate h (grid (S n)) (Z n)) = sg) by (unfold sg, q_short_rate; rewrite rsum_is, Rplus_comm; reflexivity).
  assert (ST : forall a, Z (S n) a = Z n a + q_drift h (grid (S n)) (Z n) a * (grid (S n) - grid n) + sum_to (q_size h) (fun l => q_vol_fn h (grid (S n)) (Z n) a l * (sqrt (grid (S n) - grid n) * draws n s l))).
  { intros a. unfold Z at 1. cbn [end_path]. unfold EulerSpec.increment. cbn [quasi_process drift_fn volatility_fn dim]. rewrite rsum_is. reflexivity. }
  split.
  - intros i Hi. unfold xs. rewrite ST. f_equal; [f_equal|].
    + unfold q_drift, x_drift. cbv zeta. rewrite x_coord_lt by exact Hi. rewrite rsum_is. reflexivity.
    + unfold q_size. rewrite sums_state. rewrite (sums_zero _ (fun i0 => sum_to _ (fun j => _))).
      * rewrite Rplus_0_r. rewrite <- !sums_scal. apply sums_ext. intros l Hl. unfold q_vol_fn. rewrite !x_coord_lt by assumption. cbn [andb]. rewrite SG. ring.
      * intros i' _. apply sums_zero. intros j' _. unfold q_vol_fn. rewrite y_coord_ge, andb_false_r. ring.
  - intros i j Hi Hj. unfold ys at 1. rewrite ST. fold (y_coord (q_dim h) i j). rewrite (sums_zero (q_size h)).
    + rewrite Rplus_0_r. unfold q_drift, y_drift. cbv zeta. rewrite y_coord_ge, row_of, col_of by exact Hj. rewrite SG. unfold ys, y_coord. ring.
    + intros l _. unfold q_vol_fn. rewrite y_coord_ge. cbn [andb]. ring.
Qed.
Section Outputs.
  Variables (h : qg) (grid : list R) (X : nat -> samples) (s : nat).
  Let paths := map X (seq 0 (length grid)).
  Let r (i : nat) : R := sum_to (q_dim h) (xs (X i s)) + q_forward h (nth i grid 0).
  Lemma q_rate_length : length (q_rate_path h grid paths s) = length grid.
  Proof. unfold q_rate_path, paths. rewrite map_length, combine_length, map_length, seq_length. lia. Qed.
  Lemma q_rate_at i : (i < length grid)%nat -> nth i (q_rate_path h grid paths s) 0 = r i.
  Proof.
    intros H. unfold q_rate_path. match goal with |- nth i (map ?f ?l) 0 = _ => pose (F := f); change (map f l) with (map F l) end.
    rewrite (nth_indep _ 0 (F (0, X 0%nat))) by (unfold paths; rewrite map_length, combine_length, map_length, seq_length; lia). rewrite map_nth. rewrite combine_nth by (unfold paths; rewrite map_length, seq_length; reflexivity).
    unfold F, paths, r. rewrite map_nth, seq_nth by exact H. rewrite rsum_is. reflexivity.
  Qed.
  Lemma q_discount_at i : (i < length grid)%nat -> nth i (q_discount_path h grid paths s) NaN = Fin (discount_after r (fun j => nth j grid 0) i).
  Proof.
    intros H. unfold q_discount_path. set (C := combine (q_rate_path h grid paths s) (0 :: diff 1 true grid)). set (F := fun rd : R * R => Fin (fst rd * snd rd)).
    assert (LC : length C = length grid) by (unfold C; rewrite combine_length, q_rate_length; cbn [length]; rewrite diff_length'; lia).
    replace (map (fun '(r, dt) => Fin (r * dt)) C) with (map F C) by (apply map_ext; intros (a, b); reflexivity).
    set (step := fun j => match j with O => 0 | S m => r (S m) * (nth (S m) grid 0 - nth m grid 0) end).
    set (L := cumsum_using_matvec (map F C)).
    rewrite (nth_indep _ NaN (xexp (xopp NaN))) by (unfold L; rewrite map_length, cumsum_length, map_length, LC; exact H). rewrite (map_nth (fun c => xexp (xopp c)) L NaN i).
    unfold L. rewrite (cumsum_fin (map F C) step i NaN).
    - cbn [xopp xexp]. f_equal. unfold discount_after. f_equal. f_equal. clear. induction i as [|i IH]; [cbn; ring|]. change (sum_to (S (S i)) step) with (sum_to (S i) step + step (S i)). rewrite IH. reflexivity.
    - rewrite map_length, LC. exact H.
    - rewrite map_length, LC. intros j Hj. rewrite (nth_indep _ NaN (F (0, 0))) by (rewrite map_length, LC; exact Hj). rewrite map_nth. unfold C. rewrite combine_nth by (rewrite q_rate_length; cbn [length]; rewrite diff_length'; lia).
      unfold F. cbn [fst snd]. rewrite q_rate_at by exact Hj. f_equal. destruct j as [|j]; cbn [nth step]; [ring|]. rewrite diff_nth' by lia. reflexivity.
  Qed.
End Outputs.
