(** Lemmas for multivariate normal draws: indices, the inverse of the normal
    distribution function, moments. *)
From Coquelicot Require Import Coquelicot.
From Coq Require Import Reals QArith Qreals ZArith List Bool Arith Lia Lra Sorting.Permutation Sorting.Sorted.
From Verif Require Import ExtReal HaganWestModel BootstrapModel BlackScholesModel BlackScholesSpec BlackScholesProofs NormalProofs GaussConv GaussianAux.
From Verif Require Import MvNormalModel MvNormalSpec.
Import ListNotations.
Open Scope nat_scope.

(** * Indices *)
Lemma within_length sh idx : within sh idx -> length idx = length sh.
Proof. intros W. induction W; cbn; congruence. Qed.
Lemma within_size sh idx : within sh idx -> 0 < size sh.
Proof. intros W. induction W as [|i n idx sh L W IH]; [cbn; lia|]. change (size (n :: sh)) with (n * size sh). nia. Qed.
Lemma ravel_lt sh idx : within sh idx -> ravel sh idx < size sh.
Proof.
  intros W. induction W as [|i n idx sh L W IH]; [cbn; lia|]. change (size (n :: sh)) with (n * size sh). cbn [ravel]. nia.
Qed.
Lemma ravel_inj sh a b : within sh a -> within sh b -> ravel sh a = ravel sh b -> a = b.
Proof.
  intros W. revert b. induction W as [|i n a sh L W IH]; intros b WB E.
  - inversion WB; reflexivity.
  - inversion WB as [|i' n' b' sh' L' WB' E1 E2]; subst. cbn [ravel] in E.
    pose proof (ravel_lt sh a W). pose proof (ravel_lt sh b' WB').
    assert (i = i') by nia. subst i'. f_equal. apply IH; [assumption|lia].
Qed.
Lemma ravel_onto sh k : k < size sh -> within sh (unravel sh k) /\ ravel sh (unravel sh k) = k.
Proof.
  revert k. induction sh as [|n sh IH]; intros k K.
  - cbn in *. split; [constructor|lia].
  - change (size (n :: sh)) with (n * size sh) in K. assert (P : size sh <> 0) by nia. destruct (IH (k mod size sh) (Nat.mod_upper_bound _ _ P)) as (W & E).
    cbn [unravel ravel]. rewrite E. split.
    + constructor; [apply Nat.div_lt_upper_bound; lia|exact W].
    + pose proof (Nat.div_mod k (size sh) P). lia.
Qed.
Lemma unravel_ravel sh idx : within sh idx -> unravel sh (ravel sh idx) = idx.
Proof.
  intros W. pose proof (ravel_onto sh _ (ravel_lt sh idx W)) as (A & B). exact (ravel_inj _ _ _ A W B).
Qed.
Lemma size_app a b : size (a ++ b) = size a * size b.
Proof. induction a as [|n a IH]; cbn [app]; [cbn; lia|]. change (size (n :: a ++ b)) with (n * size (a ++ b)). change (size (n :: a)) with (n * size a). rewrite IH. lia. Qed.
Lemma size_rev a : size (rev a) = size a.
Proof. induction a as [|n a IH]; [reflexivity|]. cbn [rev]. rewrite size_app, IH. change (size [n]) with (n * 1). change (size (n :: a)) with (n * size a). lia. Qed.
Lemma within_app a b i j : within a i -> within b j -> within (a ++ b) (i ++ j).
Proof. apply Forall2_app. Qed.
Lemma within_rev a i : within a i -> within (rev a) (rev i).
Proof. intros W. induction W; [constructor|]. cbn [rev]. apply Forall2_app; [assumption|]. repeat constructor. assumption. Qed.
Lemma app_cancel {A} (a a' b b' : list A) : length a = length a' -> a ++ b = a' ++ b' -> a = a' /\ b = b'.
Proof.
  revert a'. induction a as [|x a IH]; intros [|y a'] L E; try discriminate L; [auto|]. cbn in *. injection E as -> E. destruct (IH a') as (-> & ->); auto.
Qed.

Lemma index_of_seq p s n r : s <= p < s + n -> index_of p (seq s n ++ r) = p - s.
Proof.
  revert s. induction n as [|n IH]; intros s H; [lia|]. cbn [seq app index_of]. destruct (Nat.eqb_spec s p); [lia|]. rewrite IH by lia. lia.
Qed.
Lemma index_of_skip p a r : ~ In p a -> index_of p (a ++ r) = length a + index_of p r.
Proof.
  induction a as [|x a IH]; intros H; [reflexivity|]. cbn [app index_of length]. destruct (Nat.eqb_spec x p) as [->|N0]; [exfalso; apply H; left; reflexivity|].
  rewrite IH; [lia|]. intros I0. apply H. right. exact I0.
Qed.
Lemma index_of_down p n : p < n -> index_of p (rev (seq 0 n)) = n - 1 - p.
Proof.
  induction n as [|n IH]; intros H; [lia|]. rewrite seq_S, rev_app_distr. cbn [rev app index_of Nat.add]. destruct (Nat.eqb_spec n p); [lia|]. rewrite IH by lia. lia.
Qed.
Lemma rev_as_map (l : list nat) : rev l = map (fun p => nth (length l - 1 - p) l 0) (seq 0 (length l)).
Proof.
  induction l as [|x l IH] using rev_ind; [reflexivity|]. rewrite rev_app_distr, app_length. cbn [rev app length]. rewrite Nat.add_1_r. cbn [seq map]. f_equal.
  - rewrite app_nth2 by lia. replace (S (length l) - 1 - 0 - length l) with 0 by lia. reflexivity.
  - rewrite IH at 1. rewrite <- seq_shift, map_map. apply map_ext_in. intros p P. apply in_seq in P. rewrite app_nth1 by lia. f_equal. lia.
Qed.
Lemma list_as_map (l : list nat) : l = map (fun p => nth p l 0) (seq 0 (length l)).
Proof.
  induction l as [|x l IH]; [reflexivity|]. cbn [length seq map nth]. f_equal. rewrite <- seq_shift, map_map. exact IH.
Qed.

Lemma nth_map_seq {A} (f : nat -> A) n k e : k < n -> nth k (map f (seq 0 n)) e = f k.
Proof. intros K. rewrite (nth_indep _ e (f 0)) by (rewrite map_length, seq_length; lia). rewrite map_nth, seq_nth by lia. reflexivity. Qed.

Section Arrange.
  Variables (S B : list nat) (d : nat).
  Hypothesis D0 : 0 < d.
  Let N := size (rev (B ++ [d]) ++ S) / d.
  Lemma num_points : N = size S * size B.
  Proof.
    unfold N. rewrite size_app, size_rev, size_app. change (size [d]) with (d * 1). replace (size B * (d * 1) * size S) with (size S * size B * d) by ring. apply Nat.div_mul. lia.
  Qed.
  Variable points : list nat -> R.
  Let t := arrange S (B ++ [d]) (Tensor [N; d] points).
  Let ls := length S. Let lb := length (B ++ [d]).
  Lemma arrange_shape : shape t = S ++ B ++ [d].
  Proof.
    unfold t, arrange. cbv zeta. cbn [shape reshape transpose]. rewrite map_app. f_equal.
    - transitivity (map (fun p => nth p S 0) (seq 0 ls)); [|symmetry; apply list_as_map]. unfold ls. fold lb.
      assert (G : forall c n, map (fun p => nth p (rev (B ++ [d]) ++ S) 0) (seq (lb + c) n) = map (fun p => nth p S 0) (seq c n)).
      { intros c n. revert c. induction n as [|n IH]; intros c; [reflexivity|]. cbn [seq map]. f_equal.
        - rewrite app_nth2; rewrite rev_length; fold lb; [|lia]. f_equal. lia.
        - replace (Datatypes.S (lb + c)) with (lb + Datatypes.S c) by lia. apply IH. }
      specialize (G 0 (length S)). rewrite Nat.add_0_r in *. exact G.
    - fold lb. transitivity (rev (rev (B ++ [d]))); [|apply rev_involutive]. rewrite (rev_as_map (rev (B ++ [d]))), rev_length. fold lb.
      rewrite map_rev. rewrite (rev_as_map (map _ (seq 0 lb))), map_length, seq_length. apply map_ext_in. intros p P. apply in_seq in P.
      rewrite nth_map_seq by lia. rewrite app_nth1 by (rewrite rev_length; fold lb; lia). reflexivity.
  Qed.
  Lemma arrange_elt s b j : within S s -> within B b -> j < d ->
    elt t (s ++ b ++ [j]) = points [ravel (rev B ++ S) (rev b ++ s); j].
  Proof.
    intros Ws Wb J. unfold t, arrange. cbv zeta. cbn [shape elt reshape transpose map nth length seq index_of Nat.eqb].
    rewrite (app_length (rev (B ++ [d])) S), rev_length. fold lb ls.
    assert (E : map (fun p => nth (index_of p (seq lb ls ++ rev (seq 0 lb))) (s ++ b ++ [j]) 0) (seq 0 (lb + ls)) = j :: rev b ++ s).
    { rewrite seq_app, map_app. replace (j :: rev b ++ s) with (rev (b ++ [j]) ++ s) by (rewrite rev_app_distr; reflexivity).
      assert (Lb : length (b ++ [j]) = lb) by (unfold lb; rewrite !app_length, (within_length B b Wb); reflexivity).
      assert (Ls : length s = ls) by (apply within_length; exact Ws). f_equal.
      - rewrite (rev_as_map (b ++ [j])), Lb. apply map_ext_in. intros p P. apply in_seq in P.
        rewrite index_of_skip by (intros I0; apply in_seq in I0; lia). rewrite seq_length, index_of_down by lia. rewrite app_nth2 by lia. f_equal. lia.
      - transitivity (map (fun p => nth p s 0) (seq 0 ls)); [|rewrite <- Ls; symmetry; apply list_as_map].
        assert (G : forall c n, c + n <= ls -> map (fun p => nth (index_of p (seq lb ls ++ rev (seq 0 lb))) (s ++ b ++ [j]) 0) (seq (lb + c) n) = map (fun p => nth p s 0) (seq c n)).
        { intros c n. revert c. induction n as [|n IH]; intros c H; [reflexivity|]. cbn [seq map]. f_equal.
          - rewrite index_of_seq by lia. rewrite app_nth1 by lia. f_equal. lia.
          - replace (Datatypes.S (lb + c)) with (lb + Datatypes.S c) by lia. apply IH. lia. }
        specialize (G 0 ls (le_n _)). rewrite Nat.add_0_r in G. exact G. }
    rewrite E. rewrite rev_app_distr. cbn [rev app]. cbn [ravel unravel].
    assert (SZ : size [N] = size (rev B ++ S)) by (rewrite size_app, size_rev; change (size [N]) with (N * 1); rewrite num_points; ring).
    pose proof (ravel_lt _ _ (within_app _ _ _ _ (within_rev _ _ Wb) Ws)) as RL. set (r := ravel (rev B ++ S) (rev b ++ s)) in *. rewrite <- SZ in RL. rewrite <- SZ.
    change (size []) with 1. rewrite Nat.div_1_r. rewrite (Nat.add_comm (j * _)), Nat.div_add, Nat.div_small, Nat.mod_add, Nat.mod_small by lia. cbn [nth Nat.add]. reflexivity.
  Qed.
End Arrange.

(** * Mean and scale *)
Lemma bget_full {A} (t : tensor A) (s i : list nat) : within (shape t) i -> bget t (s ++ i) = elt t i.
Proof.
  intros W. unfold bget. f_equal. rewrite app_length, (within_length _ _ W), Nat.add_sub, skipn_app, skipn_all, Nat.sub_diag. cbn [skipn app].
  induction W as [|a n i sh L W IH]; [reflexivity|]. cbn [combine map]. rewrite IH. f_equal. destruct (Nat.eqb_spec n 1); [lia|reflexivity].
Qed.
Lemma sum_to_ext n f g : (forall k, k < n -> f k = g k) -> sum_to n f = sum_to n g.
Proof. induction n as [|n IH]; intros H; [reflexivity|]. cbn [sum_to]. rewrite IH, H by (intros; try apply H; lia). reflexivity. Qed.
Lemma xsum_app_fin l x : xsum (map Fin l ++ [Fin x]) = xsum (map Fin l) +x Fin x.
Proof. assert (G : forall l, exists r, xsum (map Fin l) = Fin r). { induction l0 as [|a l0 [r E]]; [exists 0%R; reflexivity|]. exists (a + r)%R. unfold xsum in *. cbn [map fold_right]. rewrite E. reflexivity. }
  induction l as [|a l IH]; unfold xsum in *.
  - cbn. f_equal. ring.
  - cbn [map app fold_right]. rewrite IH. destruct (G l) as (r & E). unfold xsum in E. rewrite E. cbn. f_equal. ring.
Qed.
Lemma xsum_to (f : nat -> xr) (g : nat -> R) n : (forall k, k < n -> f k = Fin (g k)) -> xsum (map f (seq 0 n)) = Fin (sum_to n g).
Proof.
  intros H. rewrite (map_ext_in f (fun k => Fin (g k))) by (intros k K; apply in_seq in K; apply H; lia). clear H. rewrite <- map_map.
  induction n as [|n IH]; [reflexivity|]. rewrite seq_S, map_app, map_app. cbn [map Nat.add]. rewrite xsum_app_fin, IH. reflexivity.
Qed.
Lemma sum_to_identity d z j : j < d -> sum_to d (fun l => identity_matrix j l * z l)%R = z j.
Proof.
  assert (Z : forall n, n <= j -> sum_to n (fun l => identity_matrix j l * z l)%R = 0%R).
  { induction n as [|n IH]; intros H; [reflexivity|]. cbn [sum_to]. rewrite IH by lia. unfold identity_matrix. destruct (Nat.eqb_spec j n); [lia|]. ring. }
  induction d as [|d IH]; intros J; [lia|]. cbn [sum_to]. unfold identity_matrix at 2. destruct (Nat.eqb_spec j d) as [->|N0].
  - rewrite Z by lia. ring.
  - rewrite IH by lia. ring.
Qed.
Lemma shift_scale_elt mean scale samples B d s b L m z j : within B b -> j < d ->
  scale_of scale B d b L -> mean_of mean B d b m -> (forall l, l < d -> elt samples (s ++ b ++ [l]) = Fin (z l)) ->
  elt (shift_scale mean scale samples) (s ++ b ++ [j]) = Fin (affine d (m j) L z j).
Proof.
  intros Wb J SC MN SM. unfold shift_scale. cbn [elt].
  assert (M : match mean with None => Fin 0 | Some t => Fin (bget t (s ++ b ++ [j])) end = Fin (m j)).
  { destruct mean as [t|]; [|rewrite MN; reflexivity]. destruct MN as (SH & E). rewrite E. f_equal. apply bget_full. rewrite SH. apply within_app; [exact Wb|repeat constructor; exact J]. }
  rewrite M. unfold affine. destruct scale as [sc|]; cbn [scale_of] in SC.
  - assert (LS : last (shape sc) 0 = d).
    { destruct SC as [(E & _)|(E & _)]; rewrite E; [reflexivity|]. change [d; d] with ([d] ++ [d]). rewrite app_assoc. apply last_last. }
    rewrite LS. rewrite (xsum_to _ (fun l => L j l * z l)%R).
    + reflexivity.
    + intros l Ll. replace (removelast (s ++ b ++ [j])) with (s ++ b) by (rewrite app_assoc, removelast_last; reflexivity). rewrite <- (app_assoc s b [l]), SM by exact Ll.
      assert (X : bget sc ((s ++ b ++ [j]) ++ [l]) = L j l); [|rewrite X; reflexivity].
      destruct SC as [(E & V)|(E & V)]; rewrite V.
      * replace ((s ++ b ++ [j]) ++ [l]) with ((s ++ b) ++ [j; l]) by (rewrite <- !app_assoc; reflexivity). apply bget_full. rewrite E. repeat constructor; assumption.
      * replace ((s ++ b ++ [j]) ++ [l]) with (s ++ (b ++ [j; l])) by (rewrite <- !app_assoc; reflexivity). apply bget_full. rewrite E. apply within_app; [exact Wb|repeat constructor; assumption].
  - subst L. rewrite sum_to_identity by exact J. rewrite SM by exact J. reflexivity.
Qed.

(** * The inverse of the normal distribution function *)
Lemma ncdf_onto u : (0 < u < 1)%R -> exists x, ncdf x = u.
Proof.
  intros U. destruct (IVT_Rbar_incr ncdf m_infty p_infty (Finite 0) (Finite 1) u) as (x & _ & _ & E).
  - exact ncdf_lim_m.
  - exact ncdf_lim_p.
  - intros x _ _. apply continuity_pt_filterlim. apply ncdf_cont.
  - exact Logic.I.
  - cbn. lra.
  - exists x. exact E.
Qed.
Lemma ncdf_lt_iff x y : (ncdf x < ncdf y <-> x < y)%R.
Proof.
  split; [|apply ncdf_incr]. intros H. destruct (Rlt_le_dec x y) as [L|L]; [exact L|]. destruct L as [L|L]; [apply ncdf_incr in L; lra|subst; lra].
Qed.
Lemma erfinv_ok u : (0 < u < 1)%R -> exists x, erfinv ((u - / 2) * 2) *x Fin (sqrt 2) = Fin x /\ ncdf x = u.
Proof.
  intros U. destruct (ncdf_onto u U) as (x & E). exists x. split; [|exact E].
  assert (S2 : (0 < sqrt 2)%R) by (apply sqrt_lt_R0; lra).
  unfold erfinv. destruct (Rlt_dec 1 (Rabs ((u - / 2) * 2))) as [B|_].
  { exfalso. assert (Rabs ((u - / 2) * 2) <= 1)%R by (apply Rabs_le; lra). lra. }
  assert (LB : Lub_Rbar (fun y => (erf y < (u - / 2) * 2)%R) = Finite (x / sqrt 2)).
  { apply is_lub_Rbar_unique.
    assert (K : forall y, (erf y < (u - / 2) * 2 <-> y < x / sqrt 2)%R).
    { intros y. assert (Q : ncdf (y * sqrt 2) = ((erf y + 1) / 2)%R). { unfold ncdf. do 3 f_equal. field. lra. }
      pose proof (ncdf_lt_iff (y * sqrt 2) x) as Z. rewrite Q, E in Z. split.
      - intros H. assert (H1 : (y * sqrt 2 < x)%R) by (apply Z; lra). apply (Rmult_lt_reg_r (sqrt 2)); [exact S2|]. replace (x / sqrt 2 * sqrt 2)%R with x by (field; lra). exact H1.
      - intros H. apply (Rmult_lt_compat_r (sqrt 2)) in H; [|exact S2]. replace (x / sqrt 2 * sqrt 2)%R with x in H by (field; lra). apply Z in H. lra. }
    split.
    - intros y Y. apply K in Y. cbn. lra.
    - intros l UB. destruct l as [l| |]; cbn.
      + destruct (Rle_lt_dec (x / sqrt 2) l) as [|C]; [assumption|]. exfalso. specialize (UB ((l + x / sqrt 2) / 2)%R). cbn in UB. assert ((l + x / sqrt 2) / 2 <= l)%R by (apply UB, K; lra). lra.
      + exact Logic.I.
      + apply (UB (x / sqrt 2 - 1)%R). apply K. lra. }
  rewrite LB. cbn [xmul]. f_equal. field. lra.
Qed.

(** * Moments of independent normal variables *)
Lemma expect_id : expectation (fun z => z) 0%R.
Proof.
  unfold expectation. replace 0%R with (0 - 0)%R by ring. apply (whole (fun z => z * density z)%R (fun z => - density z)%R).
  - intros z. assert (D := is_derive_opp density z _ (density_derive z)).
    match type of D with is_derive _ _ ?x => replace (z * density z)%R with x; [exact D|] end. unfold opp. cbn. ring.
  - intros z. apply (continuous_mult (fun z => z) density); [apply continuous_id|apply density_cont].
  - replace (Finite 0) with (Rbar_opp (Finite 0)) by (cbn; f_equal; ring). apply is_lim_opp. exact density_lim_p.
  - replace (Finite 0) with (Rbar_opp (Finite 0)) by (cbn; f_equal; ring). apply is_lim_opp. exact density_lim_m.
Qed.
Lemma z_density_lim : is_lim (fun z => z * density z)%R p_infty 0%R.
Proof.
  apply (lim_of_inv_bound _ 0 2). intros x X. rewrite Rminus_0_r, Rabs_right by (pose proof (density_pos x); nra).
  assert (L1 : (density x <= exp (- (x ^ 2 / 2)))%R).
  { unfold density. assert (H : (1 <= sqrt (2 * PI))%R) by (rewrite <- sqrt_1; apply sqrt_le_1; pose proof PI2_3_2; unfold PI2 in *; pose proof PI_RGT_0; lra).
    pose proof (exp_pos (- (x ^ 2 / 2))). apply (Rmult_le_reg_r (sqrt (2 * PI))); [lra|]. unfold Rdiv at 1. rewrite Rmult_assoc, Rinv_l by lra. nra. }
  assert (L2 : (exp (- (x ^ 2 / 2)) * (x ^ 2 / 2) <= 1)%R).
  { pose proof (exp_pos (- (x ^ 2 / 2))) as P. pose proof (exp_ineq1_le (x ^ 2 / 2)) as Q. assert (E : (exp (- (x ^ 2 / 2)) * exp (x ^ 2 / 2) = 1)%R) by (rewrite <- exp_plus; replace (- (x ^ 2 / 2) + x ^ 2 / 2)%R with 0%R by ring; apply exp_0). nra. }
  apply (Rmult_le_reg_r x); [lra|]. replace (2 / x * x)%R with 2%R by (field; lra).
  assert (density x * x ^ 2 <= exp (- (x ^ 2 / 2)) * x ^ 2)%R by (apply Rmult_le_compat_r; [apply pow2_ge_0|exact L1]). lra.
Qed.
Lemma expect_square : expectation (fun z => z ^ 2)%R 1%R.
Proof.
  unfold expectation. replace 1%R with (1 - 0)%R by ring. apply (whole (fun z => z ^ 2 * density z)%R (fun z => ncdf z - z * density z)%R).
  - intros z. assert (D1 : is_derive (fun z => z * density z)%R z (density z + z * (- z * density z))%R).
    { assert (D := is_derive_mult (fun z : R => z) density z 1%R _ (is_derive_id z) (density_derive z) Rmult_comm).
      match type of D with is_derive _ _ ?x => replace (density z + z * (- z * density z))%R with x; [exact D|] end. unfold plus, mult. cbn. ring. }
    assert (D := is_derive_minus _ _ z _ _ (ncdf_derive z) D1).
    match type of D with is_derive _ _ ?x => replace (z ^ 2 * density z)%R with x; [exact D|] end. unfold minus, plus, opp. cbn. ring.
  - intros z. apply (continuous_mult (fun z => z ^ 2)%R density); [|apply density_cont]. apply (ex_derive_continuous (V := R_NormedModule)). auto_derive. exact Logic.I.
  - apply (is_lim_minus ncdf _ p_infty (Finite 1) (Finite 0) (Finite 1)); [exact ncdf_lim_p|exact z_density_lim|]. unfold is_Rbar_minus, is_Rbar_plus. cbn. do 2 f_equal. ring.
  - apply (is_lim_minus ncdf _ m_infty (Finite 0) (Finite 0) (Finite 0)); [exact ncdf_lim_m| |unfold is_Rbar_minus, is_Rbar_plus; cbn; do 2 f_equal; ring].
    apply lim_mirror. apply (is_lim_ext (fun z => - (z * density z))%R). { intros z. rewrite density_even. ring. }
    replace (Finite 0) with (Rbar_opp (Finite 0)) by (cbn; f_equal; ring). apply is_lim_opp. exact z_density_lim.
Qed.
Lemma expect_quadratic p q r : expectation (fun z => p + q * z + r * z ^ 2)%R (p + r)%R.
Proof.
  apply (expectation_plus (fun z => p + q * z)%R (fun z => r * z ^ 2)%R p r).
  - apply (expectation_plus (fun _ => p) (fun z => q * z)%R p 0); [apply expect_const| |ring]. apply (expectation_scal (fun z => z) q 0); [apply expect_id|ring].
  - apply (expectation_scal (fun z => z ^ 2)%R r 1); [apply expect_square|ring].
  - reflexivity.
Qed.
Lemma iid_ext d f g e : (forall l, f l = g l) -> iid_expectation d f e -> iid_expectation d g e.
Proof.
  revert f g e. induction d as [|d IH]; intros f g e E H; cbn in *; [rewrite H; apply E|]. destruct H as (h & H & X). exists h. split; [|exact X].
  intros x. apply (IH (fun l => f (x :: l))); [intros; apply E|apply H].
Qed.
Lemma iid_unique d f e e' : iid_expectation d f e -> iid_expectation d f e' -> e = e'.
Proof.
  revert f e e'. induction d as [|d IH]; intros f e e' A B; cbn in *; [congruence|]. destruct A as (g & A & X), B as (h & B & Y).
  apply (expectation_unique g); [exact X|]. apply (expectation_ext h); [|exact Y]. intros z. exact (IH _ _ _ (B z) (A z)).
Qed.
Lemma sum_to_first n c : sum_to (S n) c = (c O + sum_to n (fun k => c (S k)))%R.
Proof. induction n as [|n IH]; [cbn; ring|]. cbn [sum_to] in *. rewrite IH. ring. Qed.
Definition coord (l : list R) (k : nat) : R := nth k l 0%R.
Lemma sum_coord n (c : nat -> R) x l : sum_to (S n) (fun k => c k * coord (x :: l) k)%R = (c O * x + sum_to n (fun k => c (S k) * coord l k))%R.
Proof. rewrite sum_to_first. reflexivity. Qed.
Lemma iid_affine d : forall a c, iid_expectation d (fun l => a + sum_to d (fun k => c k * coord l k))%R a.
Proof.
  induction d as [|d IH]; intros a c; [cbn; ring|]. cbn [iid_expectation]. exists (fun x => a + c O * x)%R. split.
  - intros x. apply (iid_ext d (fun l => (a + c O * x) + sum_to d (fun k => c (S k) * coord l k))%R); [|apply IH]. intros l. rewrite sum_coord. ring.
  - apply (expectation_ext (fun z => a + c O * z + 0 * z ^ 2)%R); [intros; ring|]. assert (Q := expect_quadratic a (c O) 0). rewrite Rplus_0_r in Q. exact Q.
Qed.
Lemma iid_product d : forall a c a' c',
  iid_expectation d (fun l => (a + sum_to d (fun k => c k * coord l k)) * (a' + sum_to d (fun k => c' k * coord l k)))%R (a * a' + sum_to d (fun k => c k * c' k))%R.
Proof.
  induction d as [|d IH]; intros a c a' c'; [cbn; ring|]. cbn [iid_expectation].
  exists (fun x => (a + c O * x) * (a' + c' O * x) + sum_to d (fun k => c (S k) * c' (S k)))%R. split.
  - intros x. apply (iid_ext d (fun l => ((a + c O * x) + sum_to d (fun k => c (S k) * coord l k)) * ((a' + c' O * x) + sum_to d (fun k => c' (S k) * coord l k)))%R); [|apply IH].
    intros l. rewrite !sum_coord. ring.
  - rewrite sum_to_first. set (T := sum_to d _).
    apply (expectation_ext (fun z => (a * a' + T) + (a * c' O + c O * a') * z + (c O * c' O) * z ^ 2)%R); [intros; ring|].
    replace (a * a' + (c O * c' O + T))%R with ((a * a' + T) + c O * c' O)%R by ring. apply expect_quadratic.
Qed.

(** * Sorting *)
Lemma insert_pair_perm x l : Permutation (insert_pair x l) (x :: l).
Proof.
  induction l as [|y l IH]; [reflexivity|]. cbn [insert_pair]. destruct (Rle_dec (fst x) (fst y)); [reflexivity|]. rewrite IH. apply perm_swap.
Qed.
Lemma fold_perm l : Permutation (fold_right insert_pair [] l) l.
Proof. induction l as [|x l IH]; [reflexivity|]. cbn [fold_right]. rewrite insert_pair_perm, IH. reflexivity. Qed.
Lemma combine_snd {A B} (a : list A) (b : list B) : length a = length b -> map snd (combine a b) = b.
Proof. revert b. induction a as [|x a IH]; intros [|y b] E; try discriminate E; [reflexivity|]. cbn. f_equal. apply IH. injection E as E. exact E. Qed.
Lemma argsort_perm v : Permutation (argsort v) (seq 0 (length v)).
Proof.
  unfold argsort. rewrite <- (combine_snd v (seq 0 (length v))) at 2 by (rewrite seq_length; reflexivity). apply Permutation_map, fold_perm.
Qed.
(** in order of value, equal values in order of position *)
Definition before (x y : R * nat) : Prop := (fst x < fst y)%R \/ fst x = fst y /\ snd x < snd y.
Lemma insert_sorted x l : (forall y, In y l -> snd x < snd y) -> StronglySorted before l -> StronglySorted before (insert_pair x l).
Proof.
  intros H St. induction St as [|y l St IH F]; [repeat constructor|]. cbn [insert_pair]. destruct (Rle_dec (fst x) (fst y)) as [L|L].
  - constructor; [constructor; assumption|]. assert (XY : before x y). { destruct L as [L|L]; [left; exact L|right; split; [exact L|apply H; left; reflexivity]]. }
    constructor; [exact XY|]. apply Forall_forall. intros z Z. rewrite Forall_forall in F. specialize (F z Z). specialize (H z (or_intror Z)).
    destruct L as [L|L], F as [F|(F & F2)]; unfold before; try (left; lra). right. split; [congruence|lia].
  - constructor; [apply IH; intros; apply H; right; assumption|]. apply Forall_forall. intros z Z.
    apply (Permutation_in _ (insert_pair_perm x l)) in Z. destruct Z as [<-|Z]; [left; lra|]. rewrite Forall_forall in F. apply F, Z.
Qed.
Lemma fold_sorted l : StronglySorted lt (map snd l) -> StronglySorted before (fold_right insert_pair [] l).
Proof.
  induction l as [|x l IH]; intros H; [constructor|]. cbn [map fold_right] in *. inversion H as [|? ? St F]; subst. apply insert_sorted; [|apply IH; exact St].
  intros y Y. apply (Permutation_in _ (fold_perm l)) in Y. rewrite Forall_forall in F. apply F, in_map, Y.
Qed.
Lemma seq_sorted s n : StronglySorted lt (seq s n).
Proof. revert s. induction n as [|n IH]; intros s; cbn [seq]; constructor; [apply IH|]. apply Forall_forall. intros x X. apply in_seq in X. lia. Qed.
Lemma argsort_sorted v : StronglySorted (fun i j => before (nth i v 0%R, i) (nth j v 0%R, j)) (argsort v).
Proof.
  unfold argsort. set (c := combine v (seq 0 (length v))). assert (SD : StronglySorted before (fold_right insert_pair [] c)).
  { apply fold_sorted. unfold c. rewrite combine_snd by (rewrite seq_length; reflexivity). apply seq_sorted. }
  assert (IN : forall p, In p (fold_right insert_pair [] c) -> fst p = nth (snd p) v 0%R).
  { intros p P. apply (Permutation_in _ (fold_perm c)) in P. unfold c in P. destruct (In_nth _ _ (0%R, O) P) as (k & K & E).
    rewrite combine_length, seq_length, Nat.min_id in K. rewrite combine_nth in E by (rewrite seq_length; reflexivity). rewrite seq_nth in E by exact K. subst p. reflexivity. }
  induction SD as [|x l SD IH F]; [constructor|]. cbn [map]. constructor; [apply IH; intros; apply IN; right; assumption|].
  apply Forall_forall. intros j J. apply in_map_iff in J as (y & <- & Y). rewrite Forall_forall in F. specialize (F y Y).
  rewrite <- (IN x (or_introl eq_refl)), <- (IN y (or_intror Y)). destruct x, y. exact F.
Qed.
