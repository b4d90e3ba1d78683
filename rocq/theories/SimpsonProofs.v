(** Composite Simpson rule: panels, exactness on cubics, error bound. *)
From Coquelicot Require Import Coquelicot.
From Coq Require Import Reals List Bool ZArith Lia Lra Psatz.
From Verif Require Import TensorModel TensorProofs InterpModel IntegrateModel PolySpec RIntAux.
Import ListNotations.
Open Scope R_scope.

(** The sum is a sum over panels. *)
Lemma dot_panels (g : nat -> R) k : forall s,
  g s + reduce_sum (vzip Rmult (map g (seq (S s) (2 * k + 2))) (concat (repeat [4; 2] k) ++ [4; 1])) =
  rsum (fun i => g (s + 2 * i)%nat + 4 * g (s + 2 * i + 1)%nat + g (s + 2 * i + 2)%nat) (S k).
Proof.
  induction k as [|k IH]; intros s.
  - cbn. replace (s + 0)%nat with s by lia. replace (s + 1)%nat with (S s) by lia. replace (s + 2)%nat with (S (S s)) by lia. ring.
  - replace (2 * S k + 2)%nat with (S (S (2 * k + 2))) by lia. specialize (IH (S (S s))).
    cbn [seq map repeat concat app]. unfold vzip in *. cbn [combine map]. unfold reduce_sum in *. cbn [fold_right].
    rewrite (rsum_S_l _ (S k)). replace (s + 2 * 0)%nat with s by lia. replace (s + 1)%nat with (S s) by lia. replace (s + 2)%nat with (S (S s)) by lia.
    rewrite (rsum_ext _ (fun i => g (S (S s) + 2 * i)%nat + 4 * g (S (S s) + 2 * i + 1)%nat + g (S (S s) + 2 * i + 2)%nat)).
    2:{ intros i _. replace (s + 2 * S i)%nat with (S (S s) + 2 * i)%nat by lia. reflexivity. }
    rewrite <- IH. ring.
Qed.

Lemma simpson_panels f a b n : (3 <= n)%Z -> (n mod 2 = 1)%Z ->
  exists k, n = (2 * Z.of_nat k + 1)%Z /\ (1 <= k)%nat /\
  simpson f a b n = Some (rsum (fun i => (b - a) / (2 * INR k) / 3 * (f (a + (b - a) * (INR i / INR k)) + 4 * f (a + (b - a) * ((INR i + / 2) / INR k)) + f (a + (b - a) * (INR (S i) / INR k)))) k).
Proof.
  intros N1 N2. exists (Z.to_nat ((n - 1) / 2)). assert (E : (n = 2 * ((n - 1) / 2) + 1)%Z).
  { pose proof (Z.div_mod n 2 ltac:(lia)). replace (n - 1)%Z with ((n / 2) * 2)%Z by lia. rewrite Z.div_mul by lia. lia. }
  assert (K : (1 <= (n - 1) / 2)%Z) by (apply Z.div_le_lower_bound; lia).
  rewrite Z2Nat.id by lia. split; [exact E|]. split; [lia|]. set (q := ((n - 1) / 2)%Z) in *. clearbody q. subst n.
  unfold simpson. replace (negb _) with false.
  2:{ symmetry. apply negb_false_iff. apply andb_true_iff. split; [apply Z.leb_le; lia|apply Z.eqb_eq; exact N2]. }
  f_equal. set (k := Z.to_nat q). assert (KQ : q = Z.of_nat k) by (unfold k; lia). assert (K1 : (1 <= k)%nat) by lia. rewrite KQ in *. clearbody k. clear KQ q N2.
  assert (IK : 0 < INR k) by (apply lt_0_INR; lia).
  replace (IZR (2 * Z.of_nat k + 1) - 1) with (2 * INR k) by (rewrite plus_IZR, mult_IZR, <- INR_IZR_INZ; ring).
  set (dx := (b - a) / (2 * INR k)).
  unfold range_float. rewrite !map_map.
  replace (Z.to_nat (2 * Z.of_nat k + 1)) with (S (2 * (k - 1) + 2)) by lia.
  unfold simpson_weights. replace (Z.to_nat ((2 * Z.of_nat k + 1 - 3) / 2)) with (k - 1)%nat.
  2:{ replace (2 * Z.of_nat k + 1 - 3)%Z with (Z.of_nat (k - 1) * 2)%Z by lia. rewrite Z.div_mul by lia. lia. }
  set (g := fun x : nat => f (a + dx * INR x)). cbn [seq map]. unfold vzip. cbn [app combine map]. unfold reduce_sum. cbn [fold_right].
  pose proof (dot_panels g (k - 1) 0) as D. unfold vzip, reduce_sum in D. change (f (a + dx * INR 0)) with (g 0%nat). rewrite Rmult_1_r. cbn [app] in *. rewrite D.
  replace (S (k - 1)) with k by lia.
  unfold Rdiv at 1. rewrite Rmult_assoc, (Rmult_comm _ (dx * / 3)), <- rsum_scal. apply rsum_ext. intros i _. unfold g.
  change (0 + 2 * i)%nat with (2 * i)%nat.
  assert (EA : a + dx * INR (2 * i) = a + (b - a) * (INR i / INR k)) by (rewrite mult_INR; cbn [INR]; unfold dx; field; lra).
  assert (EB : a + dx * INR (2 * i + 1) = a + (b - a) * ((INR i + / 2) / INR k)) by (rewrite plus_INR, mult_INR; cbn [INR]; unfold dx; field; lra).
  assert (EC : a + dx * INR (2 * i + 2) = a + (b - a) * (INR (S i) / INR k)) by (rewrite plus_INR, mult_INR, (S_INR i); change (INR 2) with (1 + 1); unfold dx; field; lra).
  rewrite EA, EB, EC. reflexivity.
Qed.

(** ** Integrals of polynomials *)
Fixpoint panti (k : nat) (c : list R) (x : R) : R :=
  match c with [] => 0 | a :: r => a * x ^ (S k) / INR (S k) + panti (S k) r x end.
Lemma panti_derive c : forall k x, is_derive (panti k c) x (x ^ k * peval c x).
Proof.
  induction c as [|a c IH]; intros k x.
  - cbn [panti peval]. rewrite Rmult_0_r. apply (is_derive_const (K := R_AbsRing) (V := R_NormedModule)).
  - cbn [panti peval]. replace (x ^ k * (a + x * peval c x)) with (a * x ^ k + x ^ S k * peval c x) by (cbn [pow]; ring).
    apply (is_derive_plus (K := R_AbsRing) (V := R_NormedModule) (fun x => a * x ^ S k / INR (S k)) (panti (S k) c)); [|apply IH].
    assert (N : INR (S k) <> 0) by (apply not_0_INR; lia).
    auto_derive; [exact I|]. cbn [Nat.pred]. change (match k with O => 1 | S _ => INR k + 1 end) with (INR (S k)). field. exact N.
Qed.
Lemma derive_int (F f : R -> R) a b : (forall x, Rmin a b <= x <= Rmax a b -> is_derive F x (f x)) -> (forall x, Rmin a b <= x <= Rmax a b -> continuous f x) ->
  is_RInt f a b (F b - F a).
Proof. intros D C. exact (is_RInt_derive F f a b D C). Qed.
Lemma peval_continuous c x : continuous (peval c) x.
Proof.
  induction c as [|a c IH]; [apply (continuous_const (U := R_UniformSpace) (V := R_UniformSpace))|].
  apply (continuous_plus (U := R_UniformSpace) (V := R_NormedModule) (fun _ => a) (fun x => x * peval c x)); [apply continuous_const|].
  apply (continuous_mult (K := R_AbsRing) (fun x => x) (peval c)); [apply continuous_id|exact IH].
Qed.
Lemma peval_int c a b : is_RInt (peval c) a b (panti 0 c b - panti 0 c a).
Proof.
  apply derive_int; intros x _; [|apply peval_continuous]. pose proof (panti_derive c 0 x) as H. cbn [pow] in H. rewrite Rmult_1_l in H. exact H.
Qed.

(** ** Exactness on cubics *)
Lemma cubic_panel c0 c1 c2 c3 x0 x2 : let P := peval [c0; c1; c2; c3] in let F := panti 0 [c0; c1; c2; c3] in
  (x2 - x0) / 2 / 3 * (P x0 + 4 * P ((x0 + x2) / 2) + P x2) = F x2 - F x0.
Proof. cbn. field. Qed.

Lemma simpson_cubic c0 c1 c2 c3 a b n : (3 <= n)%Z -> (n mod 2 = 1)%Z ->
  simpson (peval [c0; c1; c2; c3]) a b n = Some (panti 0 [c0; c1; c2; c3] b - panti 0 [c0; c1; c2; c3] a).
Proof.
  intros N1 N2. destruct (simpson_panels (peval [c0; c1; c2; c3]) a b n N1 N2) as (k & _ & K & ->). f_equal.
  set (F := panti 0 [c0; c1; c2; c3]). assert (IK : 0 < INR k) by (apply lt_0_INR; lia).
  rewrite (rsum_ext _ (fun i => F (a + (b - a) * (INR (S i) / INR k)) - F (a + (b - a) * (INR i / INR k)))).
  - rewrite (rsum_tel (fun i => F (a + (b - a) * (INR i / INR k)))). f_equal; f_equal; [|change (INR 0) with 0]; field; lra.
  - intros i _. unfold F. rewrite <- cubic_panel.
    replace ((a + (b - a) * (INR i / INR k) + (a + (b - a) * (INR (S i) / INR k))) / 2) with (a + (b - a) * ((INR i + / 2) / INR k)) by (rewrite S_INR; field; lra).
    replace ((a + (b - a) * (INR (S i) / INR k) - (a + (b - a) * (INR i / INR k))) / 2 / 3) with ((b - a) / (2 * INR k) / 3) by (rewrite S_INR; field; lra).
    reflexivity.
Qed.

(** ** Error bound *)
Lemma mvt_le (g k : R -> R) (g' k' : R -> R) h : (forall t, 0 <= t <= h -> is_derive g t (g' t)) -> (forall t, 0 <= t <= h -> is_derive k t (k' t)) ->
  g 0 = 0 -> k 0 = 0 -> (forall t, 0 <= t <= h -> Rabs (g' t) <= k' t) -> forall t, 0 <= t <= h -> Rabs (g t) <= k t.
Proof.
  intros Dg Dk G0 K0 B t T. destruct (Req_dec t 0) as [->|T0]; [rewrite G0, K0, Rabs_R0; lra|].
  assert (M : forall s, (s = 1 \/ s = - 1) -> 0 <= k t - s * g t).
  { intros s S. destruct (MVT_cor2 (fun x => k x - s * g x) (fun x => k' x - s * g' x) 0 t ltac:(lra)) as (z & Z1 & Z2).
    - intros c C. apply is_derive_Reals. apply (is_derive_minus (K := R_AbsRing) (V := R_NormedModule) k (fun x => s * g x)); [apply Dk; lra|].
      apply (is_derive_scal g c s (g' c)). apply Dg; lra.
    - rewrite G0, K0 in Z1. specialize (B z ltac:(lra)). apply Rabs_def2_le in B || (pose proof (Rle_abs (g' z)); pose proof (Rle_abs (- g' z)) as Q; rewrite Rabs_Ropp in Q).
      assert (0 <= k' z - s * g' z) by (destruct S; subst s; lra). assert (0 <= (k' z - s * g' z) * (t - 0)) by (apply Rmult_le_pos; lra). lra. }
  apply Rabs_le. pose proof (M 1 (or_introl eq_refl)). pose proof (M (- 1) (or_intror eq_refl)). lra.
Qed.

Section Panel.
Variables (F f f1 f2 f3 f4 : R -> R) (c h M : R).
Hypothesis H0 : 0 <= h.
Hypothesis DF : forall x, c - h <= x <= c + h -> is_derive F x (f x).
Hypothesis D1 : forall x, c - h <= x <= c + h -> is_derive f x (f1 x).
Hypothesis D2 : forall x, c - h <= x <= c + h -> is_derive f1 x (f2 x).
Hypothesis D3 : forall x, c - h <= x <= c + h -> is_derive f2 x (f3 x).
Hypothesis D4 : forall x, c - h <= x <= c + h -> is_derive f3 x (f4 x).
Hypothesis B4 : forall x, c - h <= x <= c + h -> Rabs (f4 x) <= M.

Lemma shift_plus (g g' : R -> R) t : (forall x, c - h <= x <= c + h -> is_derive g x (g' x)) -> 0 <= t <= h -> is_derive (fun t => g (c + t)) t (g' (c + t)).
Proof. intros D T. evar_last. apply (is_derive_comp g (fun t => c + t) t (g' (c + t)) 1). apply D; lra. auto_derive; [exact I|ring]. cbn. unfold scal; cbn. unfold mult; cbn. ring. Qed.
Lemma shift_minus (g g' : R -> R) t : (forall x, c - h <= x <= c + h -> is_derive g x (g' x)) -> 0 <= t <= h -> is_derive (fun t => g (c - t)) t (- g' (c - t)).
Proof. intros D T. evar_last. apply (is_derive_comp g (fun t => c - t) t (g' (c - t)) (-1)). apply D; lra. auto_derive; [exact I|ring]. cbn. unfold scal; cbn. unfold mult; cbn. ring. Qed.
Lemma d_plus (a b : R -> R) (t a' b' : R) : is_derive a t a' -> is_derive b t b' -> is_derive (fun t => a t + b t) t (a' + b').
Proof. intros A B. exact (is_derive_plus (K := R_AbsRing) (V := R_NormedModule) a b t a' b' A B). Qed.
Lemma d_minus (a b : R -> R) (t a' b' : R) : is_derive a t a' -> is_derive b t b' -> is_derive (fun t => a t - b t) t (a' - b').
Proof. intros A B. exact (is_derive_minus (K := R_AbsRing) (V := R_NormedModule) a b t a' b' A B). Qed.
Lemma d_scal (a : R -> R) (t k a' : R) : is_derive a t a' -> is_derive (fun t => k * a t) t (k * a').
Proof. intros A. exact (is_derive_scal a t k a' A). Qed.
Lemma d_tmul (a : R -> R) (t a' : R) : is_derive a t a' -> is_derive (fun t => t * a t) t (a t + t * a').
Proof. intros A. evar_last. apply (is_derive_mult (fun t => t) a t 1 a'). apply (is_derive_id (K := R_AbsRing)). exact A. intros n m. apply Rmult_comm. cbn. unfold plus, mult; cbn. ring. Qed.
Lemma d_eq (a : R -> R) (t a' b' : R) : is_derive a t a' -> a' = b' -> is_derive a t b'.
Proof. intros A <-. exact A. Qed.
Lemma d_const (k t : R) : is_derive (fun _ : R => k) t 0.
Proof. apply (is_derive_const (K := R_AbsRing) (V := R_NormedModule)). Qed.

Let E t := (F (c + t) - F (c - t)) - / 3 * (t * (f (c - t) + 4 * f c + f (c + t))).
Let E1 t := / 3 * (2 * (f (c + t) + f (c - t)) - 4 * f c) - / 3 * (t * (f1 (c + t) - f1 (c - t))).
Let E2 t := / 3 * (f1 (c + t) - f1 (c - t)) - / 3 * (t * (f2 (c + t) + f2 (c - t))).
Let E3 t := - / 3 * (t * (f3 (c + t) - f3 (c - t))).

Lemma dE t : 0 <= t <= h -> is_derive E t (E1 t).
Proof.
  intros T. unfold E. eapply d_eq.
  - apply d_minus; [apply d_minus; [apply shift_plus; [exact DF|exact T]|apply shift_minus; [exact DF|exact T]]|].
    apply d_scal. apply d_tmul. apply d_plus; [apply d_plus; [apply shift_minus; [exact D1|exact T]|apply d_const]|apply shift_plus; [exact D1|exact T]].
  - unfold E1. field.
Qed.
Lemma dE1 t : 0 <= t <= h -> is_derive E1 t (E2 t).
Proof.
  intros T. unfold E1. eapply d_eq.
  - apply d_minus; [apply d_scal; apply d_minus; [apply d_scal; apply d_plus; [apply shift_plus; [exact D1|exact T]|apply shift_minus; [exact D1|exact T]]|apply d_const]|].
    apply d_scal. apply d_tmul. apply d_minus; [apply shift_plus; [exact D2|exact T]|apply shift_minus; [exact D2|exact T]].
  - unfold E2. field.
Qed.
Lemma dE2 t : 0 <= t <= h -> is_derive E2 t (E3 t).
Proof.
  intros T. unfold E2. eapply d_eq.
  - apply d_minus; [apply d_scal; apply d_minus; [apply shift_plus; [exact D2|exact T]|apply shift_minus; [exact D2|exact T]]|].
    apply d_scal. apply d_tmul. apply d_plus; [apply shift_plus; [exact D3|exact T]|apply shift_minus; [exact D3|exact T]].
  - unfold E3. field.
Qed.
Lemma f3_diff t : 0 <= t <= h -> Rabs (f3 (c + t) - f3 (c - t)) <= 2 * t * M.
Proof.
  intros T. destruct (Req_dec t 0) as [->|T0]; [rewrite Rplus_0_r, Rminus_0_r, Rminus_eq_0, Rabs_R0; lra|].
  destruct (MVT_cor2 f3 f4 (c - t) (c + t) ltac:(lra)) as (z & Z1 & Z2); [intros x X; apply is_derive_Reals; apply D4; lra|].
  rewrite Z1, Rabs_mult. rewrite (Rabs_right (c + t - (c - t))) by lra. specialize (B4 z ltac:(lra)). nra.
Qed.

Lemma panel_error : Rabs ((F (c + h) - F (c - h)) - / 3 * (h * (f (c - h) + 4 * f c + f (c + h)))) <= h ^ 5 * M / 90.
Proof.
  assert (M0 : 0 <= M). { specialize (B4 c ltac:(lra)). pose proof (Rabs_pos (f4 c)). lra. }
  assert (P : forall n (k : R) t, is_derive (fun t => k * t ^ S n) t (k * INR (S n) * t ^ n)).
  { intros n k t. auto_derive; [exact I|]. cbn [Nat.pred]. change (match n with O => 1 | S _ => INR n + 1 end) with (INR (S n)). ring. }
  assert (Q2 : forall t, 0 <= t <= h -> Rabs (E2 t) <= 2 / 9 * M * t ^ 3).
  { apply (mvt_le E2 (fun t => 2 / 9 * M * t ^ 3) E3 (fun t => 2 / 9 * M * INR 3 * t ^ 2)); [exact dE2|intros; apply P|unfold E2; rewrite Rplus_0_r, Rminus_0_r; ring|ring|].
    intros t T. unfold E3. rewrite Rabs_mult, Rabs_mult, Rabs_Ropp. rewrite (Rabs_right (/ 3)), (Rabs_right t) by lra. pose proof (f3_diff t T) as D. cbn [INR pow].
    assert (t * Rabs (f3 (c + t) - f3 (c - t)) <= t * (2 * t * M)) by (apply Rmult_le_compat_l; lra). nra. }
  assert (Q1 : forall t, 0 <= t <= h -> Rabs (E1 t) <= 1 / 18 * M * t ^ 4).
  { apply (mvt_le E1 (fun t => 1 / 18 * M * t ^ 4) E2 (fun t => 1 / 18 * M * INR 4 * t ^ 3)); [exact dE1|intros; apply P|unfold E1; rewrite Rplus_0_r, Rminus_0_r; field|ring|].
    intros t T. specialize (Q2 t T). cbn [INR]. lra. }
  assert (Q0 : forall t, 0 <= t <= h -> Rabs (E t) <= 1 / 90 * M * t ^ 5).
  { apply (mvt_le E (fun t => 1 / 90 * M * t ^ 5) E1 (fun t => 1 / 90 * M * INR 5 * t ^ 4)); [exact dE|intros; apply P|unfold E; rewrite Rplus_0_r, Rminus_0_r; ring|ring|].
    intros t T. specialize (Q1 t T). cbn [INR]. lra. }
  specialize (Q0 h ltac:(lra)). unfold E in Q0. lra.
Qed.
End Panel.

Lemma simpson_error (F f f1 f2 f3 f4 : R -> R) a b M n v : a <= b ->
  (forall x, a <= x <= b -> is_derive F x (f x) /\ is_derive f x (f1 x) /\ is_derive f1 x (f2 x) /\ is_derive f2 x (f3 x) /\ is_derive f3 x (f4 x) /\ Rabs (f4 x) <= M) ->
  (3 <= n)%Z -> (n mod 2 = 1)%Z -> simpson f a b n = Some v ->
  Rabs ((F b - F a) - v) <= (b - a) ^ 5 * M / (180 * (IZR n - 1) ^ 4).
Proof.
  intros AB H N1 N2 V. destruct (simpson_panels f a b n N1 N2) as (k & EN & K & E). rewrite E in V. injection V as <-.
  assert (IK : 0 < INR k) by (apply lt_0_INR; lia).
  set (x := fun i => a + (b - a) * (INR i / INR k)).
  assert (EQ : F b - F a = rsum (fun i => F (x (S i)) - F (x i)) k).
  { rewrite (rsum_tel (fun i => F (x i))). unfold x. f_equal; f_equal; [|change (INR 0) with 0]; field; lra. }
  rewrite EQ, <- rsum_minus.
  set (h := (b - a) / (2 * INR k)).
  assert (HP : 0 <= h) by (unfold h; apply Rmult_le_pos; [lra|left; apply Rinv_0_lt_compat; lra]).
  assert (B : forall i, (i < k)%nat -> Rabs (F (x (S i)) - F (x i) - h / 3 * (f (x i) + 4 * f (a + (b - a) * ((INR i + / 2) / INR k)) + f (x (S i)))) <= h ^ 5 * M / 90).
  { intros i I. set (c := a + (b - a) * ((INR i + / 2) / INR k)).
    assert (X0 : x i = c - h) by (unfold x, c, h; field; lra). assert (X2 : x (S i) = c + h) by (unfold x, c, h; rewrite S_INR; field; lra).
    assert (R1 : 0 <= INR i) by apply pos_INR. assert (R2 : INR i + 1 <= INR k) by (rewrite <- S_INR; apply le_INR; lia).
    assert (LOW : a <= c - h). { rewrite <- X0. unfold x. assert (0 <= INR i / INR k) by (apply Rmult_le_pos; [lra|left; apply Rinv_0_lt_compat; lra]). nra. }
    assert (HIGH : c + h <= b). { rewrite <- X2. unfold x. rewrite S_INR. assert ((INR i + 1) / INR k <= 1) by (apply Rle_div_l; lra). nra. }
    rewrite X0, X2. pose proof (panel_error F f f1 f2 f3 f4 c h M HP) as P. unfold Rdiv at 1. rewrite (Rmult_comm h (/ 3)), Rmult_assoc.
    apply P; intros z Z; destruct (H z ltac:(lra)) as (P0 & P1 & P2 & P3 & P4 & P5); assumption. }
  assert (TRI : forall g m, Rabs (rsum g m) <= rsum (fun i => Rabs (g i)) m).
  { intros g m. induction m as [|m IH]; cbn [rsum]; [rewrite Rabs_R0; lra|]. pose proof (Rabs_triang (rsum g m) (g m)). lra. }
  eapply Rle_trans; [apply TRI|]. eapply Rle_trans; [apply rsum_le; exact B|].
  assert (CST : forall q m, rsum (fun _ => q) m = INR m * q). { intros q m. induction m as [|m IH]; cbn [rsum]; [cbn; ring|]. rewrite IH, S_INR. ring. }
  rewrite CST. apply Req_le. unfold h. rewrite EN, plus_IZR, mult_IZR, <- INR_IZR_INZ. field. split; [lra|].
  replace (2 * INR k + 1 - 1) with (2 * INR k) by ring. lra.
Qed.
