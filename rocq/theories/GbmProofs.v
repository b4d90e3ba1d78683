(** Lemmas for Monte Carlo draws and geometric Brownian motion. *)
From Coquelicot Require Import Coquelicot.
From Coq Require Import Reals QArith ZArith List Bool Arith Lia Lra.
From Verif Require Import ExtReal HaganWestModel BootstrapModel BlackScholesModel BlackScholesSpec BlackScholesProofs GaussConv TensorModel PiecewiseModel.
From Verif Require Import MvNormalModel MvNormalSpec MvNormalProofs GbmModel.
Import ListNotations.
Open Scope nat_scope.

(** * Reshape and transpose of the draws *)
Lemma ravel_app a b i j : length i = length a -> ravel (a ++ b) (i ++ j) = ravel a i * size b + ravel b j.
Proof.
  revert i. induction a as [|n a IH]; intros [|x i] L; try discriminate L; [reflexivity|]. cbn [app ravel]. rewrite IH by (injection L as L; exact L). rewrite size_app. ring.
Qed.
Lemma split_last S T D x tau i : within S x -> tau < T -> i < D ->
  unravel (S ++ [T * D]) (ravel (S ++ [T; D]) (x ++ [tau; i])) = x ++ [tau * D + i].
Proof.
  intros W HT HD. assert (E : ravel (S ++ [T; D]) (x ++ [tau; i]) = ravel (S ++ [T * D]) (x ++ [tau * D + i])).
  { rewrite !ravel_app by (apply within_length; exact W). cbn [ravel size fold_right]. ring. }
  rewrite E. apply unravel_ravel. apply within_app; [exact W|]. repeat constructor. nia.
Qed.
Lemma map_seq_app {A} (f : nat -> A) a b : map f (seq 0 (a + b)) = map f (seq 0 a) ++ map (fun p => f (a + p)) (seq 0 b).
Proof.
  rewrite seq_app, map_app. f_equal. cbn [Nat.add].
  assert (G : forall n c, map f (seq (a + c) n) = map (fun p => f (a + p)) (seq c n)).
  { induction n as [|n IH]; intros c; [reflexivity|]. cbn [seq map]. f_equal. rewrite <- IH. f_equal. f_equal. lia. }
  rewrite <- G, Nat.add_0_r. reflexivity.
Qed.
Lemma perm_plain rest tau i : let r := length rest + 2 in let perm := [r - 2] ++ seq 0 (r - 2) ++ [r - 1] in
  map (fun p => nth (index_of p perm) (tau :: rest ++ [i]) 0) (seq 0 r) = rest ++ [tau; i].
Proof.
  cbv zeta. set (n := length rest). replace (n + 2 - 2) with n by lia. replace (n + 2 - 1) with (S n) by lia. set (perm := [n] ++ seq 0 n ++ [S n]).
  assert (I1 : forall p, p < n -> index_of p perm = S p).
  { intros p P. unfold perm. cbn [app index_of]. destruct (Nat.eqb_spec n p); [lia|]. rewrite index_of_seq by lia. lia. }
  assert (I2 : index_of n perm = 0) by (unfold perm; cbn [app index_of]; rewrite Nat.eqb_refl; reflexivity).
  assert (I3 : index_of (S n) perm = S n).
  { unfold perm. cbn [app index_of]. destruct (Nat.eqb_spec n (S n)); [lia|]. rewrite index_of_skip by (intros H; apply in_seq in H; lia). rewrite seq_length. cbn [index_of]. rewrite Nat.eqb_refl. lia. }
  rewrite map_seq_app. f_equal.
  - transitivity (map (fun p => nth p rest 0) (seq 0 n)); [|symmetry; apply list_as_map]. apply map_ext_in. intros p P. apply in_seq in P. rewrite I1 by lia. cbn [nth]. rewrite app_nth1 by (fold n; lia). reflexivity.
  - cbn [seq map]. rewrite Nat.add_0_r, Nat.add_1_r, I2, I3. cbn [nth]. rewrite app_nth2 by (fold n; lia). fold n. rewrite Nat.sub_diag. reflexivity.
Qed.
Lemma perm_antithetic b tau s i : let r := length b + 3 in let perm := [r - 2] ++ seq 1 (r - 3) ++ [0; r - 1] in
  map (fun p => nth (index_of p perm) (tau :: b ++ [s; i]) 0) (seq 0 r) = s :: b ++ [tau; i].
Proof.
  cbv zeta. set (n := length b). replace (n + 3 - 2) with (S n) by lia. replace (n + 3 - 3) with n by lia. replace (n + 3 - 1) with (S (S n)) by lia. set (perm := [S n] ++ seq 1 n ++ [0; S (S n)]).
  assert (I0 : index_of 0 perm = S n).
  { unfold perm. cbn [app index_of]. cbn [Nat.eqb]. rewrite index_of_skip by (intros H; apply in_seq in H; lia). rewrite seq_length. cbn [index_of Nat.eqb]. lia. }
  assert (I1 : forall p, p < n -> index_of (S p) perm = S p).
  { intros p P. unfold perm. cbn [app index_of]. destruct (Nat.eqb_spec (S n) (S p)); [lia|]. rewrite index_of_seq by lia. lia. }
  assert (I2 : index_of (S n) perm = 0) by (unfold perm; cbn [app index_of]; rewrite Nat.eqb_refl; reflexivity).
  assert (I3 : index_of (S (S n)) perm = S (S n)).
  { unfold perm. cbn [app index_of]. destruct (Nat.eqb_spec (S n) (S (S n))); [lia|]. rewrite index_of_skip by (intros H; apply in_seq in H; lia). rewrite seq_length. cbn [index_of]. cbn [Nat.eqb]. rewrite Nat.eqb_refl. lia. }
  replace (n + 3) with (1 + (n + 2)) by lia. rewrite map_seq_app, map_seq_app. cbn [seq map app Nat.add]. rewrite I0. cbn [nth]. rewrite app_nth2 by (fold n; lia). fold n. rewrite Nat.sub_diag. cbn [nth]. f_equal. f_equal.
  - transitivity (map (fun p => nth p b 0) (seq 0 n)); [|symmetry; apply list_as_map]. apply map_ext_in. intros p P. apply in_seq in P. rewrite I1 by lia. cbn [nth]. rewrite app_nth1 by (fold n; lia). reflexivity.
  - rewrite Nat.add_0_r, Nat.add_1_r, I2, I3. cbn [nth]. rewrite app_nth2 by (fold n; lia). fold n. replace (S n - n) with 1 by lia. reflexivity.
Qed.
Lemma perm_shape {A} (t : tensor A) perm l : (forall p, nth p (shape t) 0 = nth p l 0) -> map (fun p => nth p (shape t) 0) perm = map (fun p => nth p l 0) perm.
Proof. intros H. apply map_ext. exact H. Qed.

(** * Cumulative sums *)
Definition bool_sum (i n : nat) (g : nat -> R) : R := sum_to n (fun j => lower_triangular i j * g j)%R.
Lemma bool_sum_ok i n g : i < n -> bool_sum i n g = sum_to (S i) g.
Proof.
  unfold bool_sum. induction n as [|n IH]; intros H; [lia|]. destruct (Nat.eq_dec i n) as [->|N0].
  - cbn [sum_to]. f_equal; [|unfold lower_triangular; rewrite Nat.leb_refl; ring]. apply sum_to_ext. intros k K. unfold lower_triangular. destruct (Nat.leb_spec k n); [ring|lia].
  - cbn [sum_to]. cbn [sum_to] in IH. rewrite IH by lia. unfold lower_triangular. destruct (Nat.leb_spec n i); [lia|]. ring.
Qed.
Lemma cumsum_length x : length (cumsum_using_matvec x) = length x.
Proof. unfold cumsum_using_matvec. cbv zeta. rewrite map_length, seq_length. reflexivity. Qed.
Lemma cumsum_fin x (g : nat -> R) i e : i < length x -> (forall j, j < length x -> nth j x NaN = Fin (g j)) ->
  nth i (cumsum_using_matvec x) e = Fin (sum_to (S i) g).
Proof.
  intros Ii H. unfold cumsum_using_matvec. cbv zeta. rewrite nth_map_seq by exact Ii.
  rewrite (xsum_to _ (fun j => lower_triangular i j * g j)%R) by (intros k K; rewrite H by exact K; reflexivity).
  fold (bool_sum i (length x) g). rewrite bool_sum_ok by exact Ii. reflexivity.
Qed.

(** * Exponentials of independent normal variables *)
Lemma expect_exp_affine a c : expectation (fun z => exp (a + c * z)) (exp (a + c ^ 2 / 2)).
Proof.
  apply (expectation_ext (fun z => exp a * exp (c * z))%R); [intros; rewrite <- exp_plus; reflexivity|].
  apply (expectation_scal _ (exp a) (exp (c ^ 2 / 2))); [apply expect_exp|apply exp_plus].
Qed.
Lemma iid_exp d : forall a c, iid_expectation d (fun l => exp (a + sum_to d (fun k => c k * coord l k)))%R (exp (a + sum_to d (fun k => c k ^ 2) / 2))%R.
Proof.
  induction d as [|d IH]; intros a c; [cbn; f_equal; lra|]. cbn [iid_expectation].
  exists (fun x => exp ((a + sum_to d (fun k => c (S k) ^ 2) / 2) + c O * x))%R. split.
  - intros x. replace (a + sum_to d (fun k => c (S k) ^ 2) / 2 + c O * x)%R with ((a + c O * x) + sum_to d (fun k => c (S k) ^ 2) / 2)%R by ring.
    apply (iid_ext d (fun l => exp ((a + c O * x) + sum_to d (fun k => c (S k) * coord l k)))%R); [|apply IH]. intros l. rewrite sum_coord. f_equal. ring.
  - rewrite sum_to_first. replace (a + (c O ^ 2 + sum_to d (fun k => c (S k) ^ 2)) / 2)%R with ((a + sum_to d (fun k => c (S k) ^ 2) / 2) + c O ^ 2 / 2)%R by field. apply expect_exp_affine.
Qed.
Lemma iid_scal d : forall f e k, iid_expectation d f e -> iid_expectation d (fun l => k * f l)%R (k * e)%R.
Proof.
  induction d as [|d IH]; intros f e k H; cbn in *; [rewrite H; reflexivity|]. destruct H as (g & H & X). exists (fun x => k * g x)%R. split; [intros x; apply IH, H|].
  apply (expectation_scal g k e); [exact X|reflexivity].
Qed.
