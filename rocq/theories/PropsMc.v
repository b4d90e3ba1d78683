(** C61: draws for Monte Carlo paths and the other helpers of models/utils.py. *)
From Coq Require Import Reals QArith Qreals ZArith List Bool Arith Lia Lra.
From Verif Require Import ExtReal HaganWestModel BootstrapModel BlackScholesModel BlackScholesSpec SobolModel SobolData HaltonModel.
From Verif Require Import MvNormalModel MvNormalSpec MvNormalProofs PropsMvNormal GbmModel GbmProofs.
Import ListNotations.
Open Scope nat_scope.

Lemma affine_identity d m z j : j < d -> affine d m identity_matrix z j = (m + z j)%R.
Proof. intros J. unfold affine. rewrite sum_to_identity by exact J. reflexivity. Qed.
Lemma last_two A (x y : nat) : nth (length A) (A ++ [x; y]) 0 = x /\ nth (length A + 1) (A ++ [x; y]) 0 = y.
Proof. split; rewrite app_nth2 by lia; [rewrite Nat.sub_diag|replace (length A + 1 - length A) with 1 by lia]; reflexivity. Qed.
Section Aux.
  Variables (rn : option Z -> list nat -> list nat -> R) (sn : Z -> list nat -> list nat -> R) (chol : tensor R -> option (tensor R)).
  Variables (D T N : nat) (ty : option random_type) (batch : list nat) (skip : nat) (seed : option Z) (rp : option (list Z * list Q)).
  Let S := if antithetic ty then N :: batch else batch ++ [N].
  Let total := Tensor [T * D] (fun _ => 0%R).
  Lemma total_arguments : arguments chol (Some total) None None [] (T * D) None.
  Proof. split; reflexivity. Qed.
  Lemma total_mean : mean_of (Some total) [] (T * D) [] (fun _ => 0%R).
  Proof. split; reflexivity. Qed.
  (** the place of a draw *)
  Lemma draws_at t : multivariate_normal rn sn chol S (Some total) None None ty seed skip rp = Some t -> shape t = S ++ [T * D] ->
    exists d, generate_mc_normal_draws rn sn chol D T N ty batch skip seed rp = Some d /\ shape d = T :: batch ++ [N; D] /\
      forall tau b s i, tau < T -> within batch b -> s < N -> i < D ->
        elt d (tau :: b ++ [s; i]) = elt t ((if antithetic ty then s :: b else b ++ [s]) ++ [tau * D + i]).
  Proof.
    intros E SH. unfold generate_mc_normal_draws. cbv zeta. fold S total. rewrite E. eexists. split; [reflexivity|].
    cbn [reshape shape]. assert (LS : length S = length batch + 1) by (unfold S; destruct (antithetic ty); [cbn; lia|rewrite app_length; reflexivity]).
    rewrite app_length, LS. cbn [length]. replace (length batch + 1 + 2) with (length batch + 3) by lia.
    assert (PL : forall rest tau i, length rest = length batch + 1 ->
      map (fun p => nth (index_of p ([length batch + 3 - 2] ++ seq 0 (length batch + 3 - 2) ++ [length batch + 3 - 1])) (tau :: rest ++ [i]) 0) (seq 0 (length batch + 3)) = rest ++ [tau; i]).
    { intros rest tau i L. pose proof (perm_plain rest tau i) as P. cbv zeta in P. replace (length rest + 2) with (length batch + 3) in P by lia. exact P. }
    assert (PLS : forall A r (x y : nat), length A = length batch + 1 -> r = A ++ [x; y] ->
      map (fun p => nth p r 0) ([length batch + 3 - 2] ++ seq 0 (length batch + 3 - 2) ++ [length batch + 3 - 1]) = x :: A ++ [y]).
    { intros A r x y L ->. rewrite !map_app. cbn [map app]. replace (length batch + 3 - 2) with (length A) by lia. replace (length batch + 3 - 1) with (length A + 1) by lia.
      destruct (last_two A x y) as (-> & ->). f_equal. f_equal.
      transitivity (map (fun p => nth p A 0) (seq 0 (length A))); [|symmetry; apply list_as_map]. apply map_ext_in. intros p P. apply in_seq in P. apply app_nth1. lia. }
    destruct (antithetic ty) eqn:AN; cbn [andb].
    - destruct (Nat.ltb_spec 3 (length batch + 3)) as [L|L].
      + split.
        * cbn [shape transpose]. unfold S. cbn [reshape shape]. rewrite !map_app. cbn [map app]. replace (length batch + 3 - 2) with (1 + length batch) by lia. replace (length batch + 3 - 1) with (1 + (length batch + 1)) by lia. replace (length batch + 3 - 3) with (length batch) by lia. cbn [Nat.add nth].
          destruct (last_two batch T D) as (-> & ->). f_equal. f_equal.
          transitivity (map (fun p => nth p batch 0) (seq 0 (length batch))); [|symmetry; apply list_as_map]. rewrite <- seq_shift, map_map. apply map_ext_in. intros p P. apply in_seq in P. cbn [nth]. apply app_nth1. lia.
        * intros tau b s i HT Wb HS HI. cbn [elt transpose reshape shape]. rewrite app_length, LS. cbn [length]. replace (length batch + 1 + 2) with (length batch + 3) by lia.
          pose proof (perm_antithetic b tau s i) as P. cbv zeta in P. rewrite (within_length _ _ Wb) in P. rewrite P. rewrite SH. change (s :: b ++ [tau; i]) with ((s :: b) ++ [tau; i]). rewrite split_last; [reflexivity| |exact HT|exact HI].
          unfold S. constructor; assumption.
      + assert (B0 : batch = []) by (destruct batch; [reflexivity|cbn in L; lia]). split.
        * cbn [shape transpose reshape]. rewrite (PLS S (S ++ [T; D]) T D LS eq_refl). unfold S. rewrite B0. reflexivity.
        * intros tau b s i HT Wb HS HI. rewrite B0 in Wb. inversion Wb; subst b. cbn [elt transpose reshape shape]. rewrite app_length, LS. cbn [length]. replace (length batch + 1 + 2) with (length batch + 3) by lia.
          change (tau :: [] ++ [s; i]) with (tau :: [s] ++ [i]). rewrite PL by (rewrite B0; reflexivity). rewrite SH. rewrite split_last; [reflexivity| |exact HT|exact HI].
          unfold S. rewrite B0. repeat constructor. exact HS.
    - split.
      + cbn [shape transpose reshape]. rewrite (PLS S (S ++ [T; D]) T D LS eq_refl). unfold S. rewrite <- app_assoc. reflexivity.
      + intros tau b s i HT Wb HS HI. cbn [elt transpose reshape shape]. rewrite app_length, LS. cbn [length]. replace (length batch + 1 + 2) with (length batch + 3) by lia.
        replace (tau :: b ++ [s; i]) with (tau :: (b ++ [s]) ++ [i]) by (rewrite <- app_assoc; reflexivity).
        rewrite PL by (rewrite app_length, (within_length _ _ Wb); reflexivity). rewrite SH. rewrite split_last; [reflexivity| |exact HT|exact HI].
        unfold S. apply within_app; [exact Wb|repeat constructor; exact HS].
  Qed.
End Aux.

(** ** Draws *)
(** Pseudo-random draws: each number of the generator is used once. *)
Theorem C61_pseudo : forall random_normal stateless_normal cholesky D T N ty batch skip seed rp draws,
  ((ty = None \/ ty = Some PSEUDO) /\ draws = random_normal seed) \/ (ty = Some STATELESS /\ exists k, seed = Some k /\ draws = stateless_normal k) ->
  exists d, generate_mc_normal_draws random_normal stateless_normal cholesky D T N ty batch skip seed rp = Some d /\ shape d = T :: batch ++ [N; D] /\
    forall tau b s i, tau < T -> within batch b -> s < N -> i < D ->
      elt d (tau :: b ++ [s; i]) = Fin (draws (batch ++ [N] ++ [T * D]) (b ++ [s] ++ [tau * D + i])).
Proof.
  intros rn sn chol D T N ty batch skip seed rp draws H.
  assert (AN : antithetic ty = false) by (destruct H as [([-> | ->] & _)|(-> & _)]; reflexivity).
  assert (M : exists t, multivariate_normal rn sn chol (batch ++ [N]) (Some (Tensor [T * D] (fun _ => 0%R))) None None ty seed skip rp = Some t /\ shape t = (batch ++ [N]) ++ [] ++ [T * D] /\
    forall s b j L m, within (batch ++ [N]) s -> within [] b -> j < T * D -> scale_of None [] (T * D) b L -> mean_of (Some (Tensor [T * D] (fun _ => 0%R))) [] (T * D) b m ->
      elt t (s ++ b ++ [j]) = Fin (affine (T * D) (m j) L (fun l => draws ((batch ++ [N]) ++ [] ++ [T * D]) (s ++ b ++ [l])) j)).
  { destruct H as [(TY & ->)|(-> & k & -> & ->)]; [apply C59_pseudo with (sc := None)|apply C59_stateless with (sc := None)]; try assumption; apply total_arguments. }
  destruct M as (t & E & SH & V). destruct (draws_at rn sn chol D T N ty batch skip seed rp t) as (d & G & SD & VD); [rewrite AN; exact E|rewrite AN; exact SH|].
  exists d. split; [exact G|]. split; [exact SD|]. intros tau b s i HT Wb HS HI. rewrite VD by assumption. rewrite AN.
  assert (J : tau * D + i < T * D) by nia.
  assert (W : within (batch ++ [N]) (b ++ [s])) by (apply within_app; [exact Wb|repeat constructor; exact HS]).
  pose proof (V (b ++ [s]) [] (tau * D + i) identity_matrix (fun _ => 0%R) W (Forall2_nil _) J eq_refl (conj eq_refl (fun _ => eq_refl))) as X. cbn [app] in X. rewrite X. rewrite affine_identity by exact J.
  rewrite Rplus_0_l, <- !app_assoc. reflexivity.
Qed.
Print Assumptions C61_pseudo.

(** Antithetic draws: path n + s is the mirror image of path s at every step. *)
Theorem C61_antithetic : forall random_normal stateless_normal cholesky D T n ty batch skip seed rp draws,
  (ty = PSEUDO_ANTITHETIC /\ draws = random_normal seed) \/ (ty = STATELESS_ANTITHETIC /\ exists k, seed = Some k /\ draws = stateless_normal k) ->
  exists d, generate_mc_normal_draws random_normal stateless_normal cholesky D T (2 * n) (Some ty) batch skip seed rp = Some d /\ shape d = T :: batch ++ [2 * n; D] /\
    forall tau b s i, tau < T -> within batch b -> s < n -> i < D ->
      let z := draws (n :: batch ++ [T * D]) (s :: b ++ [tau * D + i]) in
      elt d (tau :: b ++ [s; i]) = Fin z /\ elt d (tau :: b ++ [n + s; i]) = Fin (- z).
Proof.
  intros rn sn chol D T n ty batch skip seed rp draws H.
  assert (AN : antithetic (Some ty) = true) by (destruct H as [(-> & _)|(-> & _)]; reflexivity).
  destruct (C59_antithetic rn sn chol n batch [] (T * D) (Some (Tensor [T * D] (fun _ => 0%R))) None None None ty seed skip rp (draws (n :: batch ++ [] ++ [T * D]))) as (t & E & SH & V).
  - apply total_arguments.
  - destruct H as [(-> & ->)|(-> & k & -> & ->)]; [left; split; reflexivity|right; split; [reflexivity|exists k; split; reflexivity]].
  - destruct (draws_at rn sn chol D T (2 * n) (Some ty) batch skip seed rp t) as (d & G & SD & VD); [rewrite AN; exact E|rewrite AN; exact SH|].
    exists d. split; [exact G|]. split; [exact SD|]. intros tau b s i HT Wb HS HI z. assert (J : tau * D + i < T * D) by nia.
    destruct (V s b [] (tau * D + i) identity_matrix (fun _ => 0%R) HS Wb (Forall2_nil _) J eq_refl (conj eq_refl (fun _ => eq_refl))) as (X & Y). cbn [app] in X, Y.
    rewrite !VD by (try assumption; lia). rewrite AN. cbn [app]. rewrite X, Y, !affine_identity by exact J. rewrite !Rplus_0_l. split; reflexivity.
Qed.
Print Assumptions C61_antithetic.

(** Quasi-random draws: every batch element and path has a point of its own in
    the sequence of dimension (time steps times draws per step), and the draw for
    a step is the inverse normal distribution function of a coordinate of that
    point, a different one for each step and draw. *)
Theorem C61_quasi : forall random_normal stateless_normal cholesky D T N ty batch skip seed rp P,
  0 < T * D -> sequence_points ty (T * D) (size batch * N) skip rp P ->
  (forall k i, k < size batch * N -> i < T * D -> (0 < point_coordinate P k i < 1)%R) ->
  exists d sel, generate_mc_normal_draws random_normal stateless_normal cholesky D T N (Some ty) batch skip seed rp = Some d /\ shape d = T :: batch ++ [N; D] /\
    numbering batch [N] (size batch * N) sel /\
    forall tau b s i, tau < T -> within batch b -> s < N -> i < D ->
      exists z, elt d (tau :: b ++ [s; i]) = Fin z /\ ncdf z = point_coordinate P (sel b [s]) (tau * D + i).
Proof.
  intros rn sn chol D T N ty batch skip seed rp P D0 SP IN.
  assert (AN : antithetic (Some ty) = false) by (destruct ty; cbn in SP; try contradiction; reflexivity).
  assert (SZ : size (batch ++ [N]) * size [] = size batch * N) by (rewrite size_app; cbn; lia).
  destruct (C59_quasi rn sn chol (batch ++ [N]) [] (T * D) (Some (Tensor [T * D] (fun _ => 0%R))) None None None ty seed skip rp P) as (t & sel & E & SH & (N1 & N2 & N3) & V).
  - apply total_arguments.
  - exact D0.
  - rewrite SZ. exact SP.
  - rewrite SZ. exact IN.
  - destruct (draws_at rn sn chol D T N (Some ty) batch skip seed rp t) as (d & G & SD & VD); [rewrite AN; exact E|rewrite AN; exact SH|].
    rewrite SZ in *. exists d, (fun b s => sel (b ++ s) []). split; [exact G|]. split; [exact SD|]. split.
    + split; [|split].
      * intros b s Wb Ws. apply N1; [apply within_app; assumption|constructor].
      * intros b s b' s' Wb Ws Wb' Ws' X. apply N2 in X; [|apply within_app; assumption|constructor|apply within_app; assumption|constructor]. destruct X as (X & _).
        apply app_cancel in X; [exact X|]. rewrite (within_length _ _ Wb), (within_length _ _ Wb'). reflexivity.
      * intros k K. destruct (N3 k K) as (x & y & Wx & Wy & X). inversion Wy; subst y. destruct (within_split _ _ _ Wx) as (b & s & -> & Wb & Ws). exists b, s. split; [exact Wb|]. split; [exact Ws|exact X].
    + intros tau b s i HT Wb HS HI. assert (J : tau * D + i < T * D) by nia.
      assert (W : within (batch ++ [N]) (b ++ [s])) by (apply within_app; [exact Wb|repeat constructor; exact HS]).
      destruct (V (b ++ [s]) [] W (Forall2_nil _)) as (z & Z & X). exists (z (tau * D + i)). split; [|apply Z; exact J].
      rewrite VD by assumption. rewrite AN. specialize (X (tau * D + i) identity_matrix (fun _ => 0%R) J eq_refl (conj eq_refl (fun _ => eq_refl))). cbn [app] in X. rewrite X, affine_identity by exact J. rewrite Rplus_0_l. reflexivity.
Qed.
Print Assumptions C61_quasi.

(** ** Updates along an axis *)
Theorem C61_update : forall A (t new_t : tensor A) axis ind do_update idx, shape new_t = shape t -> 1 < nth axis (shape t) 0 -> within (shape t) idx ->
  let u := maybe_update_along_axis t new_t axis ind do_update in
  shape u = shape t /\
  ((do_update = true /\ Z.of_nat (nth axis idx 0) = ind) -> elt u idx = elt new_t idx) /\
  (~ (do_update = true /\ Z.of_nat (nth axis idx 0) = ind) -> elt u idx = elt t idx).
Proof.
  intros A t new_t axis ind up idx SH SZ W. unfold maybe_update_along_axis. cbv zeta. apply Nat.ltb_lt in SZ. rewrite SZ. destruct up; cbn [shape elt].
  - split; [reflexivity|]. destruct (Z.eqb_spec (Z.of_nat (nth axis idx 0)) ind) as [E|E]; split; intros H; try reflexivity; try (exfalso; tauto).
    change idx with ([] ++ idx). apply bget_full. rewrite SH. exact W.
  - split; [reflexivity|]. split; [intros (H & _); discriminate H|reflexivity].
Qed.
Print Assumptions C61_update.
Theorem C61_update_single : forall A (t new_t : tensor A) axis ind do_update, nth axis (shape t) 0 = 1 -> maybe_update_along_axis t new_t axis ind do_update = new_t.
Proof. intros A t new_t axis ind up E. unfold maybe_update_along_axis. cbv zeta. rewrite E. reflexivity. Qed.
Print Assumptions C61_update_single.

(** ** Cumulative sums and products *)
Theorem C61_cumsum : forall (x : list R) i, i < length x ->
  length (cumsum_using_matvec (map Fin x)) = length x /\
  nth i (cumsum_using_matvec (map Fin x)) NaN = Fin (sum_to (S i) (fun j => nth j x 0%R)).
Proof.
  intros x i Ii. rewrite cumsum_length, map_length. split; [reflexivity|]. apply cumsum_fin; rewrite map_length; [exact Ii|].
  intros j J. rewrite (nth_indep _ NaN (Fin 0)) by (rewrite map_length; exact J). apply map_nth.
Qed.
Print Assumptions C61_cumsum.
(** product of x 0, ..., x (n - 1) *)
Fixpoint prod_to (n : nat) (c : nat -> R) : R := match n with O => 1%R | S k => (prod_to k c * c k)%R end.
Theorem C61_cumprod : forall (x : list R) i, Forall (fun v => 0 < v)%R x -> i < length x ->
  nth i (cumprod_using_matvec (map Fin x)) NaN = Fin (prod_to (S i) (fun j => nth j x 0%R)).
Proof.
  intros x i PX Ii. unfold cumprod_using_matvec. rewrite (nth_indep _ NaN (xexp NaN)) by (rewrite map_length, cumsum_length, !map_length; exact Ii). rewrite map_nth.
  assert (PJ : forall j, j < length x -> (0 < nth j x 0)%R). { intros j J. rewrite Forall_forall in PX. apply PX. apply nth_In. exact J. }
  rewrite (cumsum_fin _ (fun j => ln (nth j x 0%R))).
  - cbn [xexp]. f_equal. assert (G : forall n, n <= length x -> exp (sum_to n (fun j => ln (nth j x 0%R))) = prod_to n (fun j => nth j x 0%R)).
    { induction n as [|n IH]; intros H; [cbn; apply exp_0|]. cbn [sum_to prod_to]. rewrite exp_plus, IH, exp_ln by (try apply PJ; lia). reflexivity. }
    apply G. lia.
  - rewrite !map_length. exact Ii.
  - rewrite !map_length. intros j J. rewrite map_map. rewrite (nth_indep _ NaN (xln (Fin 0))) by (rewrite map_length; exact J). rewrite (map_nth (fun v => xln (Fin v))). cbn [xln].
    unfold BrentModel.rlt. destruct (Rlt_dec 0 (nth j x 0%R)) as [_|N0]; [reflexivity|]. exfalso. apply N0, PJ, J.
Qed.
Print Assumptions C61_cumprod.
(** A zero anywhere turns the products before it into NaN. *)
Theorem C61_cumprod_zero_refuted : exists x, x = [2; 0]%R /\ prod_to 1 (fun j => nth j x 0%R) = 2%R /\ nth 0 (cumprod_using_matvec (map Fin x)) (Fin 0) = NaN.
Proof.
  eexists. split; [reflexivity|]. split; [cbn; ring|]. unfold cumprod_using_matvec, cumsum_using_matvec. cbn [map length seq nth lower_triangular Nat.leb xln].
  unfold BrentModel.rlt, InterpModel.req. destruct (Rlt_dec 0 2); [|lra]. destruct (Rlt_dec 0 0); [lra|]. destruct (Req_EM_T 0 0); [|lra]. unfold xsum. cbn [fold_right].
  cbn [xmul]. unfold xzero, InterpModel.req. destruct (Req_EM_T 0 0); [|lra]. cbn. reflexivity.
Qed.
Print Assumptions C61_cumprod_zero_refuted.

(** ** Examples *)
Example draws_ex : sequence_points SOBOL (2 * 3) (size [2] * 4) 1 None (sobol_sample 6 8 1 joe_kuo) /\ within [2] [1] /\
  forall k i, k < 8 -> i < 6 -> (0 < point_coordinate (sobol_sample 6 8 1 joe_kuo) k i < 1)%R.
Proof.
  split; [reflexivity|]. split; [repeat constructor|]. intros k i K Ii. apply (C59_points_inside SOBOL 6 8 1 None); [reflexivity| |exact K|exact Ii].
  left. split; [reflexivity|]. split; [lia|]. vm_compute. discriminate.
Qed.
Example update_ex : let t := Tensor [2; 3] (fun _ => 1%Z) in let u := maybe_update_along_axis t (Tensor [2; 3] (fun _ => 0%Z)) 1 2 true in
  (elt u [0; 1], elt u [0; 2], elt u [1; 2]) = (1, 0, 0)%Z.
Proof. reflexivity. Qed.
Example cumprod_ex : nth 2 (cumprod_using_matvec (map Fin [2; 3; 5]%R)) NaN = Fin 30.
Proof. rewrite C61_cumprod; [cbn; f_equal; ring|repeat constructor; lra|cbn; lia]. Qed.
