(** C98: derivatives from points that are not on a grid. *)
From Coquelicot Require Import Coquelicot.
From Coq Require Import Reals Lra Lia Psatz ZArith List Bool Arith Permutation.
From Verif Require Import ExtReal HaganWestModel BrentModel BoundedCalModel MvNormalModel MvNormalSpec MvNormalProofs GbmProofs2 ImpliedVolProofs FdMethodsModel FdMethodsSpec FdMethodsProofs FdMethodsProofs2 PropsFdMethods.
Import ListNotations.
Open Scope R_scope.

(** Every derivative of order up to two is named once; their number is the one
    that the comment in the code gives. *)
Theorem C98_names n : length (derivative_names n) = triangular (n + 1) /\ (2 * triangular (n + 1) = (n + 1) * (n + 2))%nat /\ NoDup (derivative_names n) /\
  forall ds, In ds (derivative_names n) <-> ds = [] \/ (exists i, (i < n)%nat /\ ds = [i]) \/ exists i j, (i <= j < n)%nat /\ ds = [i; j].
Proof.
  split; [apply names_length|]. split; [|split; [apply names_nodup|intros ds; apply names_in]].
  unfold triangular. replace (n + 1 + 1)%nat with (n + 2)%nat by lia. assert (E : Nat.Even ((n + 1) * (n + 2))).
  { destruct (Nat.Even_or_Odd n) as [(k & ->)|(k & ->)]; [exists ((2 * k + 1) * (k + 1))%nat; lia|exists ((k + 1) * (2 * k + 1 + 2))%nat; lia]. }
  destruct E as (k & ->). rewrite (Nat.mul_comm 2 k), Nat.div_mul by lia. lia.
Qed.

Lemma choose_list {A} (P : nat -> A -> Prop) k : (forall m, (m < k)%nat -> exists a, P m a) -> exists l, length l = k /\ forall m d, (m < k)%nat -> P m (nth m l d).
Proof.
  induction k as [|k IH]; intros H; [exists []; split; [reflexivity|intros; lia]|]. destruct IH as (l & L & Q); [intros m M; apply H; lia|]. destruct (H k ltac:(lia)) as (a & PA).
  exists (l ++ [a]). split; [rewrite app_length; cbn; lia|]. intros m d M. destruct (Nat.eq_dec m k) as [->|N].
  - rewrite app_nth2, L, Nat.sub_diag by lia. exact PA.
  - rewrite app_nth1 by lia. apply Q. lia.
Qed.
Lemma entry_table k (F : nat -> nat -> R) i j : (i < k)%nat -> (j < k)%nat -> entry (map (fun i => map (fun j => F i j) (seq 0 k)) (seq 0 k)) i j = F i j.
Proof. intros I1 J1. unfold entry. rewrite (nth_map_seq (fun i => map (fun j => F i j) (seq 0 k)) [] k i I1). apply (nth_map_seq (F i)). exact J1. Qed.
Lemma square_table k (F : nat -> nat -> R) : square k (map (fun i => map (fun j => F i j) (seq 0 k)) (seq 0 k)).
Proof. split; [rewrite map_length, seq_length; reflexivity|]. apply List.Forall_forall. intros r X. apply in_map_iff in X. destruct X as (i & <- & _). rewrite map_length, seq_length. reflexivity. Qed.

(** Value, gradient and Hessian of a quadratic function are found exactly, in the
    order of the names, from its values at well placed points. *)
Theorem C98_taylor inv n target stencil v g H : inverts inv -> length target = n -> length stencil = triangular (n + 1) -> Forall (fun p => length p = n) stencil -> symmetric n H ->
  well_placed n target stencil ->
  taylor_approx inv target stencil (map (expanded n target v g H) stencil) = Some (map (named v g H) (derivative_names n)).
Proof.
  intros IV LT LS FS SH WP. set (k := triangular (n + 1)) in *. set (c := map (coeffs_row target) stencil).
  assert (LP : forall m, (m < k)%nat -> length (nth m stencil []) = n) by (intros m M; rewrite List.Forall_forall in FS; apply FS; apply nth_In; lia).
  assert (LR : forall m, (m < k)%nat -> length (coeffs_row target (nth m stencil [])) = k) by (intros m M; rewrite row_length by (rewrite LP by exact M; lia); unfold k; rewrite LT; reflexivity).
  assert (NR : forall m, (m < k)%nat -> nth m c [] = coeffs_row target (nth m stencil [])) by (intros m M; unfold c; apply nth_map_in; lia).
  assert (SC : square k c).
  { split; [unfold c; rewrite map_length; exact LS|]. apply List.Forall_forall. intros r X. apply (In_nth _ _ []) in X. destruct X as (m & M & <-). unfold c in M. rewrite map_length, LS in M. rewrite NR by exact M. apply LR. exact M. }
  assert (LN : forall v' g' H', length (map (named v' g' H') (derivative_names n)) = k) by (intros; rewrite map_length; apply names_length).
  assert (RV : forall v' g' H' m, symmetric n H' -> (m < k)%nat -> sum_to k (fun j => entry c m j * nth j (map (named v' g' H') (derivative_names n)) 0) = expanded n target v' g' H' (nth m stencil [])).
  { intros v' g' H' m SH' M. rewrite <- (row_value n target (nth m stencil []) v' g' H' (LP m M) LT SH'). rewrite (dot_sum k) by (try apply LR; try apply LN; exact M). unfold entry. rewrite NR by exact M. reflexivity. }
  destruct (choose_list (fun m col => forall i, (i < k)%nat -> length col = k /\ sum_to k (fun j => entry c i j * nth j col 0) = if Nat.eqb i m then 1 else 0) k) as (cols & LC & CV).
  { intros m M. destruct (WP m ltac:(lia)) as (v' & g' & H' & SH' & V). exists (map (named v' g' H') (derivative_names n)). intros i I1. split; [apply LN|]. rewrite RV by assumption. apply V. lia. }
  destruct (IV k c SC) as (b & EB & SB & LB).
  { exists (map (fun i => map (fun j => nth i (nth j cols []) 0) (seq 0 k)) (seq 0 k)). split; [apply square_table|]. intros i j I1 J1. destruct (CV j [] J1 i I1) as (_ & E). rewrite <- E. apply sum_to_ext. intros m M. rewrite (entry_table k (fun i j => nth i (nth j cols []) 0)) by assumption. reflexivity. }
  unfold taylor_approx. rewrite LT. fold k. rewrite LS, map_length, LS, Nat.eqb_refl. cbn [andb].
  replace (forallb (fun p => Nat.eqb (length p) n) stencil) with true by (symmetry; apply forallb_forall; intros p P; apply Nat.eqb_eq; rewrite List.Forall_forall in FS; apply FS; exact P). cbn [andb]. fold c. rewrite EB. f_equal.
  destruct SB as (LB1 & FB). apply (nth_ext _ _ 0 0); [rewrite map_length, LN; exact LB1|]. intros i I1. rewrite map_length, LB1 in I1. rewrite (nth_map_in _ b [] 0) by lia.
  rewrite (dot_sum k); [|rewrite List.Forall_forall in FB; apply FB; apply nth_In; lia|rewrite map_length; exact LS].
  rewrite (sum_to_ext k _ (fun m => sum_to k (fun j => entry b i m * entry c m j * nth j (map (named v g H) (derivative_names n)) 0))).
  2:{ intros m M. rewrite (nth_map_in _ stencil [] 0) by lia. rewrite <- (RV v g H m SH M), st_scal. apply sum_to_ext. intros j J1. unfold entry at 2. ring. }
  rewrite st_swap. rewrite (sum_to_ext k _ (fun j => identity_matrix i j * nth j (map (named v g H) (derivative_names n)) 0)).
  - apply sum_to_identity. exact I1.
  - intros j J1. rewrite (sum_to_ext k _ (fun m => nth j (map (named v g H) (derivative_names n)) 0 * (entry b i m * entry c m j))) by (intros; ring). rewrite <- st_scal, (LB i j I1 J1). unfold identity_matrix. ring.
Qed.
(** On a line any three different points are well placed. *)
Theorem C98_line t a b c : a <> b -> a <> c -> b <> c -> well_placed 1 [t] [[a]; [b]; [c]].
Proof.
  intros AB AC BC. assert (K : forall x y z, x <> y -> x <> z -> exists v g H, symmetric 1 H /\ expanded 1 [t] v g H [x] = 1 /\ expanded 1 [t] v g H [y] = 0 /\ expanded 1 [t] v g H [z] = 0).
  { intros x y z XY XZ. exists ((y - t) * (z - t) / ((x - y) * (x - z))), (fun _ => - ((y - t) + (z - t)) / ((x - y) * (x - z))), (fun _ _ => 2 / ((x - y) * (x - z))).
    split; [intros i j _ _; reflexivity|]. unfold expanded, quadratic. cbn [sum_to nth]. repeat split; field; split; lra. }
  intros m M. cbn in M. destruct m as [|[|[|m]]]; [| | |lia].
  - destruct (K a b c AB AC) as (v & g & H & S & A & B & C). exists v, g, H. split; [exact S|]. intros [|[|[|i]]] I1; cbn in I1; [exact A|exact B|exact C|lia].
  - destruct (K b a c ltac:(congruence) BC) as (v & g & H & S & A & B & C). exists v, g, H. split; [exact S|]. intros [|[|[|i]]] I1; cbn in I1; [exact B|exact A|exact C|lia].
  - destruct (K c a b ltac:(congruence) ltac:(congruence)) as (v & g & H & S & A & B & C). exists v, g, H. split; [exact S|]. intros [|[|[|i]]] I1; cbn in I1; [exact B|exact C|exact A|lia].
Qed.

Lemma norm_le n p q r : length p = n -> length q = n -> length r = n -> norm q p <= norm r p -> distance2 n q p <= distance2 n r p.
Proof.
  assert (E : forall q p, length q = n -> length p = n -> norm q p = sqrt (distance2 n q p)).
  { intros x y LX LY. unfold norm, distance2. f_equal. rewrite <- lsum_seq. clear - LX LY. assert (G : forall (x y : list R) m, length x = m -> length y = m -> map (fun '(a, b) => (a - b) ^ 2) (combine x y) = map (fun i => (nth i x 0 - nth i y 0) ^ 2) (seq 0 m)).
    { intros u. induction u as [|a u IH]; intros [|b w] m LU LW; cbn in LU, LW; subst m; try discriminate; [reflexivity|]. cbn [combine map seq length nth]. f_equal. rewrite (IH w (length u)) by lia. rewrite <- seq_shift, map_map. reflexivity. }
    unfold lsum. f_equal. apply G; assumption. }
  assert (P : forall x y, 0 <= distance2 n x y).
  { intros x y. unfold distance2. clear. induction n as [|m IH]; cbn [sum_to]; [lra|]. pose proof (pow2_ge_0 (nth m x 0 - nth m y 0)). lra. }
  intros LP LQ LR L. rewrite !E in L by assumption. apply sqrt_le_0 in L; [exact L|apply P|apply P].
Qed.
(** The derivatives of a quadratic function at all the points, each from the points
    nearest to it. *)
Theorem C98_nearest inv argpartition n points v g H : inverts inv -> partitions argpartition -> Forall (fun p => length p = n) points -> symmetric n H -> (triangular (n + 1) < length points)%nat ->
  (forall p near, In p points -> nearest n (triangular (n + 1)) points p near -> well_placed n p near) ->
  non_uniform_approx_nearest inv argpartition n points (map (value_at n v g H) points) =
    Some (map (fun p => map (named (value_at n v g H p) (gradient_at n g H p) H) (derivative_names n)) points).
Proof.
  intros IV PA FP SH K WP. set (k := triangular (n + 1)) in *. unfold non_uniform_approx_nearest. fold k. rewrite (proj2 (Nat.ltb_lt k (length points)) K).
  assert (LP : forall p, In p points -> length p = n) by (rewrite List.Forall_forall in FP; exact FP).
  assert (MO : forall (F : list R -> option (list R)) Gf l, (forall p, In p l -> F p = Some (Gf p)) -> map_opt F l = Some (map Gf l)).
  { intros F Gf l. induction l as [|x l IH]; intros E; [reflexivity|]. cbn [map_opt map]. rewrite (E x (or_introl eq_refl)), IH by (intros p P; apply E; right; exact P). reflexivity. }
  apply MO. clear MO. intros p IP. cbv zeta.
  set (l := map (fun q => norm q p) points). assert (LL : length l = length points) by (unfold l; apply map_length).
  destruct (PA l k ltac:(lia)) as (PE & OR). set (perm := argpartition l k) in *. assert (LPerm : length perm = length points) by (rewrite (Permutation_length PE), seq_length; exact LL).
  set (chosen := firstn k perm). assert (LC : length chosen = k) by (unfold chosen; rewrite firstn_length; lia).
  assert (IC : forall m, In m chosen -> (m < length points)%nat).
  { intros m M. assert (X : In m (seq 0 (length l))) by (apply (Permutation_in _ PE); unfold chosen in M; rewrite <- (firstn_skipn k perm); apply in_app_iff; left; exact M). apply in_seq in X. lia. }
  set (near := map (fun m => nth m points []) chosen).
  assert (NE : nearest n k points p near).
  { exists chosen. assert (ND : NoDup perm) by (apply (Permutation_NoDup (l := seq 0 (length l))); [symmetry; exact PE|apply seq_NoDup]).
    split; [|split; [exact LC|split; [apply List.Forall_forall; exact IC|split; [reflexivity|]]]].
    - unfold chosen. rewrite <- (firstn_skipn k perm) in ND. clear - ND. revert ND. generalize (skipn k perm) as b. generalize (firstn k perm) as a. intros a b. induction a as [|x a IH]; intros ND; [constructor|]. inversion ND as [|? ? NI ND']; subst. constructor; [intros X; apply NI; apply in_app_iff; left; exact X|apply IH; exact ND'].
    - intros a b A B NB. assert (BP : In b perm) by (apply (Permutation_in b (Permutation_sym PE)); apply in_seq; lia). apply (In_nth _ _ 0%nat) in BP. destruct BP as (j & J1 & EJ).
      apply (In_nth _ _ 0%nat) in A. destruct A as (i & I1 & EI). rewrite LC in I1. 
      assert (NF : forall x, (x < k)%nat -> nth x chosen 0%nat = nth x perm 0%nat) by (intros x X; unfold chosen; rewrite <- (firstn_skipn k perm) at 2; rewrite app_nth1 by (fold chosen; lia); reflexivity).
      assert (KJ : (k <= j)%nat) by (destruct (Nat.lt_ge_cases j k) as [X|X]; [exfalso; apply NB; rewrite <- EJ, <- (NF j X); apply nth_In; lia|exact X]).
      pose proof (OR i j ltac:(lia) ltac:(lia)) as Q. rewrite <- (NF i I1), EI, EJ in Q. assert (AL : (a < length points)%nat) by (apply IC; rewrite <- EI; apply nth_In; lia).
      unfold l in Q. rewrite !(nth_map_in _ points [] 0) in Q by assumption. apply norm_le; [apply LP; exact IP|apply LP; apply nth_In; exact AL|apply LP; apply nth_In; exact B|exact Q]. }
  replace (map (fun m => nth m (map (value_at n v g H) points) 0) chosen) with (map (expanded n p (value_at n v g H p) (gradient_at n g H p) H) near).
  2:{ unfold near. rewrite map_map. apply map_ext_in. intros m M. rewrite (nth_map_in _ points [] 0) by (apply IC; exact M). symmetry. apply recentre. exact SH. }
  apply C98_taylor; [exact IV|apply LP; exact IP|unfold near; rewrite map_length; exact LC| |exact SH|exact (WP p near IP NE)].
  unfold near. apply List.Forall_forall. intros q X. apply in_map_iff in X. destruct X as (m & <- & M). apply LP. apply nth_In. apply IC. exact M.
Qed.
(** On a line different points suffice. *)
Theorem C98_nearest_line inv argpartition xs v g H : inverts inv -> partitions argpartition -> NoDup xs -> (3 < length xs)%nat -> 
  non_uniform_approx_nearest inv argpartition 1 (map (fun x => [x]) xs) (map (fun x => v + g * x + H * x ^ 2) xs) = Some (map (fun x => [v + g * x + H * x ^ 2; g + 2 * H * x; 2 * H]) xs).
Proof.
  intros IV PA ND L. 
  pose proof (C98_nearest inv argpartition 1 (map (fun x => [x]) xs) v (fun _ => g) (fun _ _ => 2 * H) IV PA) as Q.
  rewrite !map_map in Q. rewrite (map_ext (fun x => v + g * x + H * x ^ 2) (fun x => value_at 1 v (fun _ => g) (fun _ _ => 2 * H) [x])) by (intros x; unfold value_at, quadratic; cbn [sum_to nth]; field). rewrite Q.
  - f_equal. apply map_ext. intros x. unfold value_at, quadratic, gradient_at. cbn. f_equal; [field|]. f_equal. field.
  - apply List.Forall_forall. intros p P. apply in_map_iff in P. destruct P as (x & <- & _). reflexivity.
  - intros i j _ _. reflexivity.
  - rewrite map_length. exact L.
  - intros p near IP (chosen & NC & LC & FC & -> & _). apply in_map_iff in IP. destruct IP as (t & <- & _). change (triangular (1 + 1)) with 3%nat in LC.
    destruct chosen as [|i [|j [|m [|? ?]]]]; try discriminate LC. rewrite List.Forall_forall in FC. rewrite map_length in FC.
    assert (BI : (i < length xs)%nat) by (apply FC; cbn; tauto). assert (BJ : (j < length xs)%nat) by (apply FC; cbn; tauto). assert (BM : (m < length xs)%nat) by (apply FC; cbn; tauto).
    cbn [map]. rewrite !(nth_map_in (fun x => [x]) xs 0 []) by assumption.
    inversion NC as [|? ? N1 NC1]; subst. inversion NC1 as [|? ? N2 _]; subst. rewrite NoDup_nth with (d := 0) in ND.
    apply C98_line; intros E; apply ND in E; try assumption; subst; cbn in N1, N2; tauto.
Qed.
(** Exactly as many points as there are derivatives are refused, although each
    derivative could be found from them. *)
Theorem C98_enough_points_refuted inv argpartition xs : inverts inv -> NoDup xs -> length xs = 3%nat ->
  (forall v g H t, taylor_approx inv [t] (map (fun x => [x]) xs) (map (fun x => v + g * x + H * x ^ 2) xs) = Some [v + g * t + H * t ^ 2; g + 2 * H * t; 2 * H]) /\
  forall values, non_uniform_approx_nearest inv argpartition 1 (map (fun x => [x]) xs) values = None.
Proof.
  intros IV ND L. split.
  - intros v g H t. destruct xs as [|a [|b [|c [|? ?]]]]; try discriminate L. inversion ND as [|? ? N1 ND1]; subst. inversion ND1 as [|? ? N2 _]; subst. cbn in N1, N2.
    pose proof (C98_taylor inv 1 [t] (map (fun x => [x]) [a; b; c]) (v + g * t + H * t ^ 2) (fun _ => g + 2 * H * t) (fun _ _ => 2 * H) IV eq_refl eq_refl) as Q.
    rewrite map_map in Q. rewrite (map_ext (fun x => v + g * x + H * x ^ 2) (fun x => expanded 1 [t] (v + g * t + H * t ^ 2) (fun _ => g + 2 * H * t) (fun _ _ => 2 * H) [x])) by (intros x; unfold expanded, quadratic; cbn [sum_to nth]; field).
    rewrite Q; [reflexivity|repeat constructor|intros i j _ _; reflexivity|]. apply C98_line; intros E; subst; tauto.
  - intros values. unfold non_uniform_approx_nearest. rewrite map_length, L. reflexivity.
Qed.
(** x^3 on three points: the error of the first derivative is the whole bound. *)
Example C98_first_example : exists points w out, grid 3 1 false = Some (points, w) /\ grid_index 3 1 [1%nat] /\ inner 3 0 [1%nat] /\ w = 1 / 2 /\
  central (evaluate (fun p => nth 0 p 0 ^ 3) 1 points) [0%nat] w = Some out /\ elt out [1%nat] = Fin 1 /\
  smooth (fun k t => match k with 0%nat => (1 / 2 + t) ^ 3 | 1%nat => 3 * (1 / 2 + t) ^ 2 | 2%nat => 6 * (1 / 2 + t) | 3%nat => 6 | _ => 0 end) 3 6 w /\ Rabs (1 - 3 * (1 / 2 + 0) ^ 2) = 6 * w ^ 2 / 6.
Proof.
  eexists _, _, _. split; [reflexivity|]. split; [split; [reflexivity|repeat constructor]|]. split; [split; cbn; lia|]. split; [cbn; field|]. split; [reflexivity|]. split; [|split].
  - cbn -[xdiv]. change (Pos.to_nat 1) with 1%nat. cbn -[xdiv]. rewrite xdiv_f by lra. f_equal. field.
  - intros t T. split; [|rewrite Rabs_pos_eq by lra; lra]. intros [|[|[|k]]] L; try lia; auto_derive; trivial; ring.
  - rewrite Rabs_pos_eq by lra. cbn. field.
Qed.
(** Four points on a line. *)
Example C98_nearest_example inv argpartition : inverts inv -> partitions argpartition ->
  non_uniform_approx_nearest inv argpartition 1 [[0]; [1]; [3]; [4]] [1; 2; 10; 17] = Some [[1; 0; 2]; [2; 2; 2]; [10; 6; 2]; [17; 8; 2]].
Proof.
  intros IV PA. pose proof (C98_nearest_line inv argpartition [0; 1; 3; 4] 1 0 1 IV PA) as Q. cbn [map] in Q. 
  assert (X : forall a b, a = b -> @Some (list (list R)) a = Some b) by (intros; congruence).
  replace [1; 2; 10; 17] with [1 + 0 * 0 + 1 * 0 ^ 2; 1 + 0 * 1 + 1 * 1 ^ 2; 1 + 0 * 3 + 1 * 3 ^ 2; 1 + 0 * 4 + 1 * 4 ^ 2] by (repeat f_equal; ring).
  rewrite Q; [|repeat constructor; cbn; lra|cbn; lia]. apply X. repeat (f_equal; try ring).
Qed.

Print Assumptions C98_rosenbrock.
Print Assumptions C98_grid.
Print Assumptions C98_shift.
Print Assumptions C98_first.
Print Assumptions C98_second.
Print Assumptions C98_mixed.
Print Assumptions C98_other.
Print Assumptions C98_names.
Print Assumptions C98_taylor.
Print Assumptions C98_line.
Print Assumptions C98_nearest.
Print Assumptions C98_nearest_line.
Print Assumptions C98_enough_points_refuted.
