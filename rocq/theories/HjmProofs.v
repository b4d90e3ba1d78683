(** Proofs about the Gaussian HJM model: the covariances, and the pricing
    equation of the bond formula. *)
From Coquelicot Require Import Coquelicot.
From Coq Require Import ZArith Reals List Bool Arith Lia Lra.
From Verif Require Import TensorModel TensorProofs SegmentModel BrentModel TimeGridModel EulerModel PiecewiseModel PiecewiseProofs PropsPiecewise MvNormalSpec GbmModel GbmProofs2 HullWhiteProofs HjmModel HjmSpec.
Import ListNotations.
Open Scope R_scope.

(** ** Sums *)
Lemma sums_ext n f g : (forall i, (i < n)%nat -> f i = g i) -> sum_to n f = sum_to n g.
Proof. induction n as [|n IH]; intros H; [reflexivity|]. cbn [sum_to]. rewrite IH by (intros; apply H; lia). rewrite H by lia. reflexivity. Qed.
Lemma sums_add n f g : sum_to n (fun i => f i + g i) = sum_to n f + sum_to n g.
Proof. induction n as [|n IH]; cbn [sum_to]; [ring|]. rewrite IH. ring. Qed.
Lemma sums_scal n c f : sum_to n (fun i => c * f i) = c * sum_to n f.
Proof. induction n as [|n IH]; cbn [sum_to]; [ring|]. rewrite IH. ring. Qed.
Lemma sums_opp n f : sum_to n (fun i => - f i) = - sum_to n f.
Proof. induction n as [|n IH]; cbn [sum_to]; [ring|]. rewrite IH. ring. Qed.
Lemma sums_zero n f : (forall i, (i < n)%nat -> f i = 0) -> sum_to n f = 0.
Proof. induction n as [|n IH]; intros H; [reflexivity|]. cbn [sum_to]. rewrite IH by (intros; apply H; lia). rewrite H by lia. ring. Qed.
Lemma sums_swap n m (F : nat -> nat -> R) : sum_to n (fun i => sum_to m (F i)) = sum_to m (fun j => sum_to n (fun i => F i j)).
Proof.
  induction n as [|n IH]; cbn [sum_to]; [symmetry; apply sums_zero; reflexivity|]. rewrite IH. rewrite sums_add. reflexivity.
Qed.
Lemma sums_antisym n (F : nat -> nat -> R) : (forall i j, (i < n)%nat -> (j < n)%nat -> F i j = - F j i) -> sum_to n (fun i => sum_to n (F i)) = 0.
Proof.
  intros H. assert (E : sum_to n (fun i => sum_to n (F i)) = - sum_to n (fun i => sum_to n (F i))); [|lra].
  rewrite (sums_swap n n F) at 2. rewrite <- sums_opp. apply sums_ext. intros i Hi. rewrite <- sums_opp. apply sums_ext. intros j Hj. apply H; assumption.
Qed.
Lemma rsum_is f n : rsum f n = sum_to n f.
Proof. induction n as [|n IH]; [reflexivity|]. cbn [sum_to rsum]. rewrite IH. reflexivity. Qed.
Lemma derive_sum n (F : nat -> R -> R) (D : nat -> R) t : (forall i, (i < n)%nat -> is_derive (F i) t (D i)) -> is_derive (fun u => sum_to n (fun i => F i u)) t (sum_to n D).
Proof.
  induction n as [|n IH]; intros H; cbn [sum_to].
  - apply (is_derive_const (K := R_AbsRing) (V := R_NormedModule)).
  - apply (is_derive_plus (K := R_AbsRing) (V := R_NormedModule) (fun u => sum_to n (fun i => F i u)) (F n)); [apply IH; intros; apply H; lia|apply H; lia].
Qed.

(** ** The covariances *)
Lemma rint_ext' (f g : R -> R) (a b l : R) : a <= b -> (forall x, a < x < b -> f x = g x) -> is_RInt f a b l -> is_RInt g a b l.
Proof. intros L E. apply (is_RInt_ext (V := R_NormedModule)). intros x. rewrite Rmin_left, Rmax_right by exact L. apply E. Qed.
Section Covariance.
  Variables (h : hjm) (i j : nat).
  Notation K := (knots h i).
  Hypothesis SAME : knots h j = knots h i.
  Hypothesis OKi : pw_ok (jumps (g_vol h i)) (pvalues (g_vol h i)) (g_vol h i).
  Hypothesis OKj : pw_ok (jumps (g_vol h j)) (pvalues (g_vol h j)) (g_vol h j).
  Hypothesis PK : forall x, In x K -> 0 <= x.
  Hypothesis M0 : mr2 h i j <> 0.
  Notation kk := (mr2 h i j).
  Notation g := (fun s => g_rho h i j * (volatility_at h i s * volatility_at h j s) * exp (kk * s)).
  Lemma K_sorted : nondecr K.
  Proof. apply (pw_ok_inv _ _ _ OKi). Qed.
  Lemma piece_i n u t : (n <= length K)%nat -> at_ (0 :: K) n < u -> u <= t -> ((n < length K)%nat -> t <= at_ K n) -> volatility_at h i u = volatility_at h i t.
  Proof. intros. apply (same_piece (Piecewise (g_vol h i)) K n u t); try assumption; [do 2 eexists; exact OKi|apply K_sorted|intros x X; exact X]. Qed.
  Lemma piece_j n u t : (n <= length K)%nat -> at_ (0 :: K) n < u -> u <= t -> ((n < length K)%nat -> t <= at_ K n) -> volatility_at h j u = volatility_at h j t.
  Proof. intros. apply (same_piece (Piecewise (g_vol h j)) K n u t); try assumption; [do 2 eexists; exact OKj|apply K_sorted|intros x X; rewrite <- SAME; exact X]. Qed.
  Definition cov_cell (n : nat) (t : R) : R := integrate_vol h i j (volatility_at h i t) (volatility_at h j t) (at_ (0 :: K) n) t.
  Lemma cov_cell_ok n t : (n <= length K)%nat -> at_ (0 :: K) n <= t -> ((n < length K)%nat -> t <= at_ K n) -> is_RInt g (at_ (0 :: K) n) t (cov_cell n t).
  Proof.
    intros N L U. unfold cov_cell. set (t0 := at_ (0 :: K) n) in *. set (si := volatility_at h i t). set (sj := volatility_at h j t).
    apply (rint_ext' (fun s => g_rho h i j * (si * sj) * exp (kk * s))); [exact L| |].
    - intros u H. unfold si, sj. rewrite <- (piece_i n u t), <- (piece_j n u t); try assumption; try apply H; try lra; reflexivity.
    - set (F := fun s => g_rho h i j * (si * sj) / kk * exp (kk * s)). replace (integrate_vol h i j si sj t0 t) with (F t - F t0) by (unfold F, integrate_vol; field; exact M0).
      apply (is_RInt_derive (V := R_CompleteNormedModule) F (fun s => g_rho h i j * (si * sj) * exp (kk * s))).
      + intros u _. unfold F. auto_derive; [exact Logic.I|]. field. exact M0.
      + intros u _. apply (ex_derive_continuous (K := R_AbsRing) (V := R_NormedModule)). auto_derive. exact Logic.I.
  Qed.
  Lemma padded_is n : (n < length (knots h j))%nat -> at_ (padded h j) n = at_ (0 :: knots h j) n.
  Proof.
    intros H. unfold padded, at_. destruct n as [|n]; [reflexivity|]. cbn [nth]. destruct (knots h j) as [|x l] eqn:E; [cbn in H; lia|]. apply (removelast_nth x l n). cbn in H. lia.
  Qed.
  Lemma knots_step n : (n < length K)%nat -> at_ (at_knots h i j) (S n) = at_ (at_knots h i j) n + cov_cell n (at_ K n).
  Proof.
    intros H. unfold at_knots, cumsum. assert (L : length (between_knots h i j) = length K) by (unfold between_knots; rewrite map_length, seq_length, SAME; reflexivity).
    rewrite cumsum_from_nth by (rewrite L; exact H). f_equal. unfold between_knots at 1. unfold at_ at 1.
    set (F := fun m => integrate_vol h i j (volatility_at h i (at_ K m)) (volatility_at h j (at_ (knots h j) m)) (at_ (padded h j) m) (at_ (knots h j) m)).
    rewrite (nth_indep (map F _) 0 (F 0%nat)) by (rewrite map_length, seq_length, SAME; exact H). rewrite map_nth, seq_nth by (rewrite SAME; exact H). unfold F, cov_cell. cbn [plus].
    rewrite padded_is by (rewrite SAME; exact H). rewrite SAME. reflexivity.
  Qed.
  Lemma state_y_integral : covariance_of (g_rho h i j) (volatility_at h i) (volatility_at h j) (g_mr h i) (g_mr h j) (state_y h i j).
  Proof.
    intros t T. pose proof (knot_integral K g cov_cell (at_ (at_knots h i j)) K_sorted PK cov_cell_ok eq_refl knots_step t T) as Q.
    unfold state_y. cbv zeta. unfold vn. rewrite SAME. fold (cov_cell (searchsorted_left K t) t). rewrite Rplus_comm in Q.
    apply (rint_ext' (fun s => exp (- kk * t) * g s)); [exact T| |apply (is_RInt_scal (V := R_NormedModule) g 0 t), Q].
    intros s _. replace (exp (- ((g_mr h i + g_mr h j) * (t - s)))) with (exp (- kk * t) * exp (kk * s)) by (rewrite <- exp_plus; f_equal; unfold mr2; ring). cbv beta. ring.
  Qed.
End Covariance.

(** Between the jumps the covariances satisfy their equation. *)
Lemma covariance_derive rho (si sj y : R -> R) ki kj t : covariance_of rho si sj ki kj y -> 0 < t -> continuous si t -> continuous sj t ->
  is_derive y t (rho * (si t * sj t) - (ki + kj) * y t).
Proof.
  intros CV T Ci Cj. set (k := ki + kj). set (f := fun s => rho * exp (k * s) * (si s * sj s)). set (V := fun u => exp (k * u) * y u).
  assert (VI : forall u, 0 <= u -> is_RInt f 0 u (V u)).
  { intros u U. apply (rint_ext' (fun s => exp (k * u) * (rho * exp (- (k * (u - s))) * (si s * sj s)))); [exact U| |].
    - intros s _. unfold f. replace (exp (k * s)) with (exp (k * u) * exp (- (k * (u - s)))) by (rewrite <- exp_plus; f_equal; ring). ring.
    - apply (is_RInt_scal (V := R_NormedModule) (fun s => rho * exp (- (k * (u - s))) * (si s * sj s)) 0 u). apply CV, U. }
  assert (DV : is_derive V t (f t)).
  { apply (is_derive_RInt (V := R_NormedModule) f V 0 t).
    - exists (mkposreal t T). intros u B. apply VI. unfold ball in B. cbn in B. unfold AbsRing_ball, abs, minus, plus, opp in B. cbn in B. apply Rabs_def2 in B. lra.
    - unfold f. apply (continuous_mult (K := R_AbsRing) (fun s => rho * exp (k * s)) (fun s => si s * sj s)).
      + apply (ex_derive_continuous (K := R_AbsRing) (V := R_NormedModule)). auto_derive. exact Logic.I.
      + apply (continuous_mult (K := R_AbsRing)); assumption. }
  assert (DE : is_derive (fun u => exp (- (k * u))) t (- k * exp (- (k * t)))) by (auto_derive; [exact Logic.I|ring]).
  pose proof (is_derive_mult (K := R_AbsRing) (fun u => exp (- (k * u))) V t _ _ DE DV Rmult_comm) as Q.
  apply (is_derive_ext (fun u => exp (- (k * u)) * V u)).
  - intros u. unfold V. rewrite <- Rmult_assoc, <- exp_plus. replace (- (k * u) + k * u) with 0 by ring. rewrite exp_0. apply Rmult_1_l.
  - match type of Q with is_derive _ _ ?d => match goal with |- is_derive _ _ ?d' => replace d' with d; [exact Q|] end end.
    unfold plus, mult. cbn -[pow]. unfold f, V. set (e1 := exp (- (k * t))). assert (E : e1 * exp (k * t) = 1) by (unfold e1; rewrite <- exp_plus; replace (- (k * t) + k * t) with 0 by ring; apply exp_0).
    transitivity (rho * (si t * sj t) * (e1 * exp (k * t)) - k * y t * (e1 * exp (k * t))); [ring|rewrite E; ring].
Qed.

(** A piecewise constant function is continuous away from its jumps. *)
Lemma isolated (l : list R) t : ~ In t l -> exists d, 0 < d /\ forall x, In x l -> d <= Rabs (x - t).
Proof.
  induction l as [|a l IH]; intros H; [exists 1; split; [lra|intros x []]|]. destruct IH as (d & D & E); [intros C; apply H; right; exact C|].
  assert (A : 0 < Rabs (a - t)) by (apply Rabs_pos_lt; intros C; apply H; left; lra).
  exists (Rmin d (Rabs (a - t))). split; [apply Rmin_glb_lt; assumption|]. intros x [<-|X]; [apply Rmin_r|]. apply Rle_trans with d; [apply Rmin_l|apply E, X].
Qed.
Lemma pw_continuous (f : pw) t : nondecr (jumps f) -> ~ In t (jumps f) -> continuous (pw_call f true) t.
Proof.
  intros ND NI. destruct (isolated _ _ NI) as (d & D & E).
  apply (continuous_ext_loc (pw_call f true) (fun _ : R => pw_call f true t) t).
  - exists (mkposreal d D). intros u B. unfold ball in B. cbn in B. unfold AbsRing_ball, abs, minus, plus, opp in B. cbn in B. apply Rabs_def2 in B.
    unfold pw_call. f_equal. symmetry. apply ssl_unique; [exact ND|apply ssl_le| |].
    + intros i I. pose proof (ssl_below (jumps f) t i I) as L. assert (X : In (at_ (jumps f) i) (jumps f)) by (apply nth_In; pose proof (ssl_le (jumps f) t); lia). pose proof (E _ X) as Q. rewrite Rabs_left in Q by lra. lra.
    + intros i I. pose proof (ssl_above (jumps f) t ND i I) as L. assert (X : In (at_ (jumps f) i) (jumps f)) by (apply nth_In; lia). pose proof (E _ X) as Q. rewrite Rabs_right in Q by lra. lra.
  - apply continuous_const.
Qed.

(** ** The pricing equation *)
Section Pricing.
  Variables (d : nat) (rate : R -> R) (f : R) (k : nat -> R) (sigma : nat -> R) (rho : nat -> nat -> R) (y : nat -> nat -> R -> R) (b : nat -> nat -> R) (t T : R).
  Hypothesis K0 : forall i, (i < d)%nat -> k i <> 0.
  Hypothesis FW : is_derive (fun u => rate u * u) t f.
  Hypothesis DY : forall i j, (i < d)%nat -> (j < d)%nat -> is_derive (y i j) t (rho i j * (sigma i * sigma j) - (k i + k j) * y i j t).
  Hypothesis SY : forall i j, (i < d)%nat -> (j < d)%nat -> y i j t = y j i t.
  Hypothesis BB : forall i j, (i < d)%nat -> (j < d)%nat -> sum_to d (fun l => b i l * b j l) = rho i j * (sigma i * sigma j).
  Definition load (i : nat) (u v : R) : R := (1 - exp (- (k i * (v - u)))) / k i.
  Notation P0 := (fun u => exp (- (rate u * u))).
  Notation P := (fun u x => bond_formula d P0 load y x u T).
  Lemma load_derive i : (i < d)%nat -> is_derive (fun u => load i u T) t (k i * load i t T - 1).
  Proof. intros H. unfold load. auto_derive; [exact Logic.I|]. unfold Rminus. field. apply K0, H. Qed.
  Definition exponent (x : nat -> R) (u : R) : R := - sum_to d (fun i => x i * load i u T) - sum_to d (fun i => sum_to d (fun j => load i u T * y i j u * load j u T)) / 2.
  Definition dexp (x : nat -> R) : R :=
    - sum_to d (fun i => x i * (k i * load i t T - 1)) -
    sum_to d (fun i => sum_to d (fun j => (k i * load i t T - 1) * y i j t * load j t T + load i t T * (rho i j * (sigma i * sigma j) - (k i + k j) * y i j t) * load j t T + load i t T * y i j t * (k j * load j t T - 1))) / 2.
  Lemma exponent_derive x : is_derive (exponent x) t (dexp x).
  Proof.
    unfold exponent, dexp.
    set (A := fun u => sum_to d (fun i => x i * load i u T)). set (B := fun u => sum_to d (fun i => sum_to d (fun j => load i u T * y i j u * load j u T))).
    assert (DA : is_derive A t (sum_to d (fun i => x i * (k i * load i t T - 1)))).
    { unfold A. apply derive_sum. intros i Hi. apply (is_derive_scal (fun u => load i u T) t (x i)). apply load_derive, Hi. }
    set (DBv := sum_to d (fun i => sum_to d (fun j => (k i * load i t T - 1) * y i j t * load j t T + load i t T * (rho i j * (sigma i * sigma j) - (k i + k j) * y i j t) * load j t T + load i t T * y i j t * (k j * load j t T - 1)))).
    assert (DB : is_derive B t DBv).
    { unfold B, DBv. apply derive_sum. intros i Hi. apply derive_sum. intros j Hj.
      pose proof (is_derive_mult (K := R_AbsRing) (fun u => load i u T) (y i j) t _ _ (load_derive i Hi) (DY i j Hi Hj) Rmult_comm) as Q1.
      pose proof (is_derive_mult (K := R_AbsRing) (fun u => load i u T * y i j u) (fun u => load j u T) t _ _ Q1 (load_derive j Hj) Rmult_comm) as Q2.
      match type of Q2 with is_derive _ _ ?d1 => match goal with |- is_derive _ _ ?d2 => replace d2 with d1; [exact Q2|] end end. unfold plus, mult. cbn -[pow]. ring. }
    pose proof (is_derive_plus (K := R_AbsRing) (V := R_NormedModule) (fun u => - A u) (fun u => - (1 / 2) * B u) t _ _ (is_derive_opp (K := R_AbsRing) (V := R_NormedModule) A t _ DA) (is_derive_scal B t (- (1 / 2)) _ DB)) as Q.
    apply (is_derive_ext (fun u => plus (- A u) (- (1 / 2) * B u))); [intros u; unfold plus; cbn -[pow]; unfold A, B; lra|].
    match type of Q with is_derive _ _ ?d1 => match goal with |- is_derive _ _ ?d2 => replace d2 with d1; [exact Q|] end end. unfold plus, opp, scal, mult. cbn -[pow]. unfold mult. cbn -[pow]. lra.
  Qed.
  Lemma P_is x u : P u x = exp (- (rate T * T)) * (exp (rate u * u) * exp (exponent x u)).
  Proof. cbv beta. unfold bond_formula. fold (exponent x u). unfold Rdiv at 1. rewrite <- exp_Ropp, Ropp_involutive. ring. Qed.
  Lemma P_time x : is_derive (fun u => P u x) t (P t x * (f + dexp x)).
  Proof.
    apply (is_derive_ext (fun u => exp (- (rate T * T)) * exp (rate u * u + exponent x u))); [intros u; rewrite P_is, (exp_plus (rate u * u)); reflexivity|].
    pose proof (is_derive_plus (K := R_AbsRing) (V := R_NormedModule) (fun u => rate u * u) (exponent x) t _ _ FW (exponent_derive x)) as Q1.
    pose proof (is_derive_comp (K := R_AbsRing) (V := R_NormedModule) exp (fun u => rate u * u + exponent x u) t _ _ (is_derive_exp _) Q1) as Q2.
    pose proof (is_derive_scal _ t (exp (- (rate T * T))) _ Q2) as Q3.
    match type of Q3 with is_derive _ _ ?d1 => match goal with |- is_derive _ _ ?d2 => replace d2 with d1; [exact Q3|] end end.
    cbv beta. rewrite P_is, <- (exp_plus (rate t * t)). unfold scal, plus, mult. cbn -[pow]. unfold mult. cbn -[pow]. ring.
  Qed.
  Lemma sum_set z i v (w : nat -> R) n : (i < n)%nat -> sum_to n (fun j => set_at z i v j * w j) = sum_to n (fun j => z j * w j) + (v - z i) * w i.
  Proof.
    induction n as [|n IH]; intros H; [lia|]. cbn [sum_to]. destruct (Nat.eq_dec i n) as [E|E].
    - subst n. assert (Q : sum_to i (fun j => set_at z i v j * w j) = sum_to i (fun j => z j * w j)) by (apply sums_ext; intros j Hj; unfold set_at; destruct (Nat.eqb_spec j i); [lia|reflexivity]).
      rewrite Q. unfold set_at. rewrite Nat.eqb_refl. ring.
    - rewrite IH by lia. unfold set_at at 1. destruct (Nat.eqb_spec n i); [lia|]. ring.
  Qed.
  Lemma P_state z i v : (i < d)%nat -> P t (set_at z i v) = P t z * exp (- ((v - z i) * load i t T)).
  Proof.
    intros H. cbv beta. rewrite !P_is. unfold exponent. rewrite sum_set by exact H.
    transitivity (exp (- (rate T * T)) * (exp (rate t * t) * (exp (- sum_to d (fun i0 => z i0 * load i0 t T) - sum_to d (fun i0 => sum_to d (fun j => load i0 t T * y i0 j t * load j t T)) / 2) * exp (- ((v - z i) * load i t T))))); [|ring].
    rewrite <- (exp_plus (_ - _) (- _)). f_equal. f_equal. f_equal. ring.
  Qed.
  Definition P1 (i : nat) (z : nat -> R) : R := - load i t T * P t z.
  Lemma P_first i z : (i < d)%nat -> is_derive (fun v => P t (set_at z i v)) (z i) (P1 i z).
  Proof.
    intros H. apply (is_derive_ext (fun v => P t z * exp (- ((v - z i) * load i t T)))); [intros v; symmetry; apply P_state, H|].
    unfold P1. set (p := P t z). set (w := load i t T). clearbody p w. auto_derive; [exact Logic.I|]. replace (z i + - z i) with 0 by ring. rewrite Rmult_0_l, Ropp_0, exp_0. ring.
  Qed.
  Lemma P_second i j x : (i < d)%nat -> (j < d)%nat -> is_derive (fun v => P1 i (set_at x j v)) (x j) (load i t T * load j t T * P t x).
  Proof.
    intros Hi Hj. pose proof (is_derive_scal _ (x j) (- load i t T) _ (P_first j x Hj)) as Q. unfold P1 at 1.
    match type of Q with is_derive _ _ ?d1 => match goal with |- is_derive _ _ ?d2 => replace d2 with d1; [exact Q|] end end. unfold P1. ring.
  Qed.
  Lemma pricing_holds x : pricing_equation d (fun i => sum_to d (fun j => y i j t) - k i * x i) b (sum_to d x + f) P t x.
  Proof.
    exists (P t x * (f + dexp x)), P1, (fun i j => load i t T * load j t T * P t x). split; [apply P_time|]. split; [intros i z Hi; apply P_first, Hi|]. split; [intros i j Hi Hj; apply P_second; assumption|].
    set (p := P t x). set (G := fun i => load i t T).
    assert (E1 : sum_to d (fun i => (sum_to d (fun j => y i j t) - k i * x i) * P1 i x) = - p * sum_to d (fun i => (sum_to d (fun j => y i j t) - k i * x i) * G i)).
    { rewrite <- sums_scal. apply sums_ext. intros i _. unfold P1, p, G. ring. }
    assert (E2 : sum_to d (fun i => sum_to d (fun j => sum_to d (fun l => b i l * b j l) * (load i t T * load j t T * p))) = p * sum_to d (fun i => sum_to d (fun j => rho i j * (sigma i * sigma j) * (G i * G j)))).
    { rewrite <- sums_scal. apply sums_ext. intros i Hi. rewrite <- sums_scal. apply sums_ext. intros j Hj. rewrite BB by assumption. unfold G. ring. }
    rewrite E1, E2. cut (dexp x - sum_to d (fun i => (sum_to d (fun j => y i j t) - k i * x i) * G i) + 1 / 2 * sum_to d (fun i => sum_to d (fun j => rho i j * (sigma i * sigma j) * (G i * G j))) = sum_to d x); [intros C; rewrite <- C; ring|].
    unfold dexp. fold G.
    change (fun i : nat => x i * (k i * load i t T - 1)) with (fun i : nat => x i * (k i * G i - 1)).
    change (fun i => sum_to d (fun j => (k i * load i t T - 1) * y i j t * load j t T + load i t T * (rho i j * (sigma i * sigma j) - (k i + k j) * y i j t) * load j t T + load i t T * y i j t * (k j * load j t T - 1)))
      with (fun i => sum_to d (fun j => (k i * G i - 1) * y i j t * G j + G i * (rho i j * (sigma i * sigma j) - (k i + k j) * y i j t) * G j + G i * y i j t * (k j * G j - 1))).
    assert (A : sum_to d (fun i => sum_to d (fun j => 1 / 2 * (y i j t * (G j - G i)))) = 0).
    { apply sums_antisym. intros i j Hi Hj. rewrite (SY j i) by assumption. ring. }
    assert (B : sum_to d (fun i => x i * (k i * G i - 1)) = sum_to d (fun i => k i * x i * G i) - sum_to d x).
    { unfold Rminus. rewrite <- sums_opp, <- sums_add. apply sums_ext. intros i _. ring. }
    assert (C : sum_to d (fun i => (sum_to d (fun j => y i j t) - k i * x i) * G i) = sum_to d (fun i => sum_to d (fun j => y i j t * G i)) - sum_to d (fun i => k i * x i * G i)).
    { unfold Rminus. rewrite <- sums_opp, <- sums_add. apply sums_ext. intros i _. rewrite Rmult_plus_distr_r. f_equal; [|ring]. rewrite Rmult_comm, <- sums_scal. apply sums_ext. intros j _. ring. }
    assert (D : sum_to d (fun i => sum_to d (fun j => 1 / 2 * (y i j t * (G j - G i)))) =
      - sum_to d (fun i => sum_to d (fun j => (k i * G i - 1) * y i j t * G j + G i * (rho i j * (sigma i * sigma j) - (k i + k j) * y i j t) * G j + G i * y i j t * (k j * G j - 1))) / 2
      - sum_to d (fun i => sum_to d (fun j => y i j t * G i)) + 1 / 2 * sum_to d (fun i => sum_to d (fun j => rho i j * (sigma i * sigma j) * (G i * G j)))).
    { match goal with |- _ = - ?a / 2 - ?b + 1 / 2 * ?c => transitivity (- (1 / 2) * a + (- (1) * b + 1 / 2 * c)); [|lra] end.
      rewrite <- !sums_scal, <- !sums_add. apply sums_ext. intros i _. rewrite <- !sums_scal, <- !sums_add. apply sums_ext. intros j _. field. }
    lra.
  Qed.
End Pricing.
