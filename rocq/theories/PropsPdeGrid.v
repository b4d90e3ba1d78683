(** C48: PDE grids. *)
From Coq Require Import Reals List Bool Arith Lra Lia Permutation.
From Verif Require Import TensorModel BrentModel TimeGridModel PdeGridModel TimeGridSpec PdeGridSpec TensorProofs TimeGridProofs PropsTimeGrid.
Import ListNotations.
Open Scope R_scope.

Lemma linspace_length a b n : length (linspace a b n) = n.
Proof. unfold linspace. rewrite map_length, seq_length. reflexivity. Qed.
Lemma linspace_nth a b n i : (i < n)%nat -> nth i (linspace a b n) 0 = a + INR i * ((b - a) / INR (Nat.max (n - 1) 1)).
Proof.
  intros L. unfold linspace. set (f := fun i => _). rewrite (nth_indep _ 0 (f 0%nat)) by (rewrite map_length, seq_length; lia).
  rewrite map_nth, seq_nth by assumption. reflexivity.
Qed.
Lemma linspace_uniform lo hi n : lo < hi -> (2 <= n)%nat -> uniform_points lo hi n (linspace lo hi n).
Proof.
  intros L N. assert (M : Nat.max (n - 1) 1 = (n - 1)%nat) by lia.
  assert (P : 0 < INR (n - 1)) by (apply lt_0_INR; lia).
  assert (D : forall i, (S i < n)%nat -> nth (S i) (linspace lo hi n) 0 - nth i (linspace lo hi n) 0 = (hi - lo) / INR (n - 1)).
  { intros i Hi. rewrite !linspace_nth by lia. rewrite M, S_INR. field. lra. }
  unfold uniform_points. split; [apply linspace_length|]. split; [|split; [|split]].
  - rewrite linspace_nth by lia. cbn [INR]. ring.
  - rewrite linspace_nth by lia. rewrite M. field. lra.
  - intros i Hi. rewrite linspace_length in Hi. specialize (D i Hi).
    assert (0 < (hi - lo) / INR (n - 1)) by (apply Rdiv_lt_0_compat; lra). lra.
  - exact D.
Qed.
Lemma exp_uniform lo hi n l : 0 < lo -> 0 < hi -> (2 <= n)%nat -> uniform_points (ln lo) (ln hi) n l -> log_uniform_points lo hi n (map exp l).
Proof.
  intros Lo Hi N (A & B & C & D & E).
  assert (P : 0 < INR (n - 1)) by (apply lt_0_INR; lia).
  assert (Q : forall i, (i < n)%nat -> nth i (map exp l) 0 = exp (nth i l 0)).
  { intros i Hi'. rewrite (nth_indep _ 0 (exp 0)) by (rewrite map_length; lia). apply map_nth. }
  unfold log_uniform_points. rewrite map_length. split; [exact A|]. split; [|split; [|split]].
  - rewrite Q by lia. rewrite B. apply exp_ln. exact Lo.
  - rewrite Q by lia. rewrite C. apply exp_ln. exact Hi.
  - intros i H. rewrite map_length in H. rewrite !Q by lia. specialize (D i H). rewrite Rplus_0_r in *. apply exp_increasing. exact D.
  - intros i H. rewrite !Q by lia. specialize (E i H). unfold Rpower. rewrite <- exp_plus. f_equal.
    unfold Rdiv at 1. rewrite ln_mult by (try apply Rinv_0_lt_compat; assumption). rewrite ln_Rinv by assumption. replace (/ INR (n - 1) * (ln hi + - ln lo)) with ((ln hi - ln lo) / INR (n - 1)) by (field; lra). lra.
Qed.
Lemma linspaces_length lo hi n : length (linspaces lo hi n) = length n.
Proof. unfold linspaces. rewrite map_length, seq_length. reflexivity. Qed.
Lemma linspaces_nth lo hi n i : (i < length n)%nat -> nth i (linspaces lo hi n) [] = linspace (nth i lo 0) (nth i hi 0) (nth i n 0%nat).
Proof.
  intros L. unfold linspaces. set (f := fun i => _). rewrite (nth_indep _ [] (f 0%nat)) by (rewrite map_length, seq_length; lia).
  rewrite map_nth, seq_nth by assumption. reflexivity.
Qed.
Lemma above_spec hi lo : length hi = length lo -> (all_above hi lo = true <-> forall i, (i < length lo)%nat -> nth i lo 0 < nth i hi 0).
Proof.
  unfold all_above. revert hi. induction lo as [|a lo IH]; intros [|b hi] L; try discriminate L; [cbn; split; [intros _ i X; lia|reflexivity]|].
  cbn [combine forallb length fst snd]. injection L as L. rewrite Bool.andb_true_iff. rewrite (IH hi L). unfold rlt. destruct (Rlt_dec a b) as [H|H].
  - split; [intros [_ X] [|i] Y; [exact H|apply X; lia]|]. intros X. split; [reflexivity|]. intros i Y. apply (X (S i)). lia.
  - split; [intros [X _]; discriminate X|]. intros X. exfalso. apply H. apply (X 0%nat). lia.
Qed.
Lemma two_spec l : all_two l = true <-> forall i, (i < length l)%nat -> (2 <= nth i l 0)%nat.
Proof.
  unfold all_two. rewrite forallb_forall. split.
  - intros H i L. apply Nat.leb_le, H, nth_In, L.
  - intros H x X. destruct (In_nth l x 0%nat X) as (i & L & <-). apply Nat.leb_le, H, L.
Qed.
Lemma positive_spec l : all_positive l = true <-> forall i, (i < length l)%nat -> 0 < nth i l 0.
Proof.
  unfold all_positive. rewrite forallb_forall. unfold rlt. split.
  - intros H i L. specialize (H (nth i l 0) (nth_In l 0 L)). destruct (Rlt_dec 0 (nth i l 0)); [assumption|discriminate].
  - intros H x X. destruct (In_nth l x 0 X) as (i & L & <-). specialize (H i L). destruct (Rlt_dec 0 (nth i l 0)); [reflexivity|contradiction].
Qed.
Lemma logs_ok l : (forall i, (i < length l)%nat -> 0 < nth i l 0) -> logs l = Some (map ln l).
Proof. intros H. unfold logs. apply positive_spec in H. rewrite H. reflexivity. Qed.
Lemma ln_nth l i : (i < length l)%nat -> nth i (map ln l) 0 = ln (nth i l 0).
Proof. intros L. rewrite (nth_indep _ 0 (ln 0)) by (rewrite map_length; exact L). apply map_nth. Qed.

(** ** Grids without extra points *)
(** With as many minimums as maximums and sizes, every minimum below its
    maximum and at least two points per axis, uniform_grid returns one vector
    per axis: the requested number of equally spaced, strictly increasing points
    from the minimum to the maximum; whether or not arguments are validated. *)
Theorem C48_uniform (validate : bool) (lo hi : list R) (n : list nat) :
  length lo = length hi -> length lo = length n ->
  (forall i, (i < length n)%nat -> nth i lo 0 < nth i hi 0 /\ (2 <= nth i n 0)%nat) ->
  exists axes, uniform_grid validate lo hi n = Some axes /\ length axes = length n
    /\ forall i, (i < length n)%nat -> uniform_points (nth i lo 0) (nth i hi 0) (nth i n 0%nat) (nth i axes []).
Proof.
  intros L1 L2 H. exists (linspaces lo hi n). split; [|split].
  - unfold uniform_grid, same_shape. rewrite <- L1, <- L2, !Nat.eqb_refl. cbn [negb andb].
    rewrite (proj2 (above_spec hi lo (eq_sym L1))) by (intros i Hi; apply H; lia).
    rewrite (proj2 (two_spec n)) by (intros i Hi; apply H; lia).
    cbn [negb andb]. rewrite andb_false_r. reflexivity.
  - apply linspaces_length.
  - intros i Hi. rewrite linspaces_nth by assumption. apply linspace_uniform; apply H; assumption.
Qed.
Print Assumptions C48_uniform.

(** The same in log space: from the minimum to the maximum, strictly increasing
    and with a constant ratio.  Validation works only when a dtype is given. *)
Theorem C48_log_uniform (dtype_given validate : bool) (lo hi : list R) (n : list nat) :
  length lo = length hi -> length lo = length n -> (validate = true -> dtype_given = true) ->
  (forall i, (i < length n)%nat -> 0 < nth i lo 0 < nth i hi 0 /\ (2 <= nth i n 0)%nat) ->
  exists axes, log_uniform_grid dtype_given validate lo hi n = Some axes /\ length axes = length n
    /\ forall i, (i < length n)%nat -> log_uniform_points (nth i lo 0) (nth i hi 0) (nth i n 0%nat) (nth i axes []).
Proof.
  intros L1 L2 V H. exists (map (map exp) (linspaces (map ln lo) (map ln hi) n)). split; [|split].
  - unfold log_uniform_grid, same_shape. rewrite <- L1, <- L2, !Nat.eqb_refl. cbn [negb andb].
    rewrite (proj2 (above_spec hi lo (eq_sym L1))) by (intros i Hi; apply H; lia).
    rewrite (proj2 (two_spec n)) by (intros i Hi; apply H; lia).
    rewrite (proj2 (positive_spec lo)) by (intros i Hi; apply H; lia).
    rewrite !logs_ok by (intros i Hi; destruct (H i ltac:(lia)) as [[? ?] ?]; lra).
    destruct validate; [rewrite V by reflexivity|]; reflexivity.
  - rewrite map_length. apply linspaces_length.
  - intros i Hi. destruct (H i Hi) as [[A B] C].
    change (@nil R) with (map exp (@nil R)) at 1. rewrite map_nth, linspaces_nth by assumption. rewrite !ln_nth by lia.
    apply exp_uniform; try lra; try assumption. apply linspace_uniform; [|assumption]. apply ln_increasing; assumption.
Qed.
Print Assumptions C48_log_uniform.

(** With validation on, a grid is returned only for valid arguments: as many
    minimums as maximums and sizes, every minimum below its maximum, at least
    two points per axis, and positive minimums for the log grid. *)
Theorem C48_validation (lo hi : list R) (n : list nat) (dtype_given : bool) :
  (uniform_grid true lo hi n <> None ->
     length lo = length hi /\ length lo = length n
     /\ forall i, (i < length n)%nat -> nth i lo 0 < nth i hi 0 /\ (2 <= nth i n 0)%nat)
  /\ (log_uniform_grid dtype_given true lo hi n <> None ->
     length lo = length hi /\ length lo = length n
     /\ forall i, (i < length n)%nat -> 0 < nth i lo 0 < nth i hi 0 /\ (2 <= nth i n 0)%nat).
Proof.
  split; unfold uniform_grid, log_uniform_grid, same_shape;
    destruct (Nat.eqb (length lo) (length hi)) eqn:E1; cbn [andb negb]; try congruence;
    destruct (Nat.eqb (length lo) (length n)) eqn:E2; cbn [andb negb]; try congruence;
    apply Nat.eqb_eq in E1; apply Nat.eqb_eq in E2.
  - destruct (all_above hi lo) eqn:A; cbn [andb negb]; [|congruence]. destruct (all_two n) eqn:B; cbn [andb negb]; [|congruence].
    intros _. split; [exact E1|]. split; [exact E2|]. intros i Hi. split; [apply (above_spec hi lo (eq_sym E1)); [exact A|lia]|apply two_spec; assumption].
  - destruct (all_above hi lo) eqn:A; cbn [andb negb]; [|congruence]. destruct dtype_given; cbn [andb negb]; [|congruence].
    destruct (all_positive lo) eqn:P; cbn [andb negb]; [|congruence]. destruct (all_two n) eqn:B; cbn [andb negb]; [|congruence].
    intros _. split; [exact E1|]. split; [exact E2|]. intros i Hi. split; [split|].
    + apply positive_spec; [exact P|lia].
    + apply (above_spec hi lo (eq_sym E1)); [exact A|lia].
    + apply two_spec; assumption.
Qed.
Print Assumptions C48_validation.

(** ** Grids with an extra point *)
Lemma ascending_nondecr l : nondecr l -> ascending l.
Proof. intros H i L. apply nondecr_le; [assumption|lia|lia]. Qed.
Lemma axis_uniform lo hi n : lo < hi -> (2 <= n)%nat -> uniform_points lo hi n (axis_points lo hi n).
Proof.
  intros L N. destruct (linspace_uniform 0 1 n ltac:(lra) N) as (A & B & C & D & E).
  set (f := fun u => lo + (hi - lo) * u).
  assert (Q : forall i, (i < n)%nat -> nth i (axis_points lo hi n) 0 = lo + (hi - lo) * nth i (linspace 0 1 n) 0).
  { intros i Hi. unfold axis_points. rewrite (nth_indep _ 0 (f 0)) by (rewrite map_length; lia). apply (map_nth f). }
  unfold uniform_points. split; [unfold axis_points; rewrite map_length; exact A|]. split; [|split; [|split]].
  - rewrite Q by lia. rewrite B. ring.
  - rewrite Q by lia. rewrite C. ring.
  - intros i Hi. unfold axis_points in Hi. rewrite map_length in Hi. specialize (D i Hi). rewrite A in Hi. rewrite !Q by lia. nra.
  - intros i Hi. specialize (E i Hi). rewrite !Q by lia.
    replace (lo + (hi - lo) * nth (S i) (linspace 0 1 n) 0 - (lo + (hi - lo) * nth i (linspace 0 1 n) 0))
      with ((hi - lo) * (nth (S i) (linspace 0 1 n) 0 - nth i (linspace 0 1 n) 0)) by ring.
    rewrite E. field. apply not_0_INR. lia.
Qed.
Lemma all_some_col (rows : list (list R)) i : (forall r, In r rows -> (i < length r)%nat) -> column rows i = Some (map (fun r => nth i r 0) rows).
Proof.
  unfold column. induction rows as [|r rows IH]; intros H; [reflexivity|]. cbn [map all_some].
  rewrite (nth_error_nth' r 0) by (apply H; left; reflexivity). rewrite IH by (intros; apply H; right; assumption). reflexivity.
Qed.
Lemma all_some_ok {A B} (f : A -> option B) (g : A -> B) l : (forall x, In x l -> f x = Some (g x)) -> all_some (map f l) = Some (map g l).
Proof.
  induction l as [|x l IH]; intros H; [reflexivity|]. cbn [map all_some]. rewrite H by (left; reflexivity).
  rewrite IH by (intros; apply H; right; assumption). reflexivity.
Qed.
(** the row of the bounds that applies to batch row [b] *)
Definition row_of {A} (l : list (list A)) (b : nat) : list A := if Nat.eqb (length l) 1 then nth 0 l [] else nth b l [].
Lemma row_same {A} (l : list (list A)) b : (b < length l)%nat -> row_of l b = nth b l [].
Proof. intros L. unfold row_of. destruct (Nat.eqb_spec (length l) 1) as [E|E]; [|reflexivity]. replace b with 0%nat by lia. reflexivity. Qed.

Definition rect {A} (d : nat) (rows : list (list A)) : Prop := forall r, In r rows -> length r = d.
Lemma rect_nth {A} d (rows : list (list A)) b : rect d rows -> (b < length rows)%nat -> length (nth b rows []) = d.
Proof. intros H L. apply H, nth_In, L. Qed.
Lemma same_rows_ok d lo hi : length lo = length hi -> rect d lo -> rect d hi -> same_rows lo hi = true.
Proof.
  unfold same_rows, rect. intros L A B. rewrite L, Nat.eqb_refl. cbn [andb]. apply forallb_forall. intros [x y] H. cbn [fst snd].
  apply Nat.eqb_eq. rewrite (A x), (B y); [reflexivity|eapply in_combine_r; exact H|eapply in_combine_l; exact H].
Qed.
Lemma broadcast_ok {A} b (d : A) l : (length l = b \/ length l = 1)%nat ->
  exists rows, broadcast_rows b l = Some rows /\ length rows = b /\ forall i, (i < b)%nat -> nth i rows d = nth (if Nat.eqb (length l) 1 then 0 else i) l d.
Proof.
  intros H. unfold broadcast_rows. destruct (Nat.eqb_spec (length l) b) as [E|E].
  - exists l. split; [reflexivity|]. split; [exact E|]. intros i L. destruct (Nat.eqb_spec (length l) 1); [|reflexivity]. replace i with 0%nat by lia. reflexivity.
  - destruct l as [|x [|y l]]; cbn [length] in *; [lia| |lia]. exists (repeat x b). split; [reflexivity|]. split; [apply repeat_length|].
    intros i L. cbn. clear - L. revert i L. induction b as [|b IH]; intros [|i] L; try lia; [reflexivity|]. cbn [repeat nth]. apply IH. lia.
Qed.
Lemma combine_nth_map {A B C} (f : A * B -> C) (x : list A) (y : list B) i da db dc :
  length x = length y -> (i < length x)%nat -> nth i (map f (combine x y)) dc = f (nth i x da, nth i y db).
Proof.
  revert y i. induction x as [|a x IH]; intros [|b y] [|i] L I; cbn [length] in *; try lia; [reflexivity|].
  cbn [combine map]. change (nth (S i) (f (a, b) :: map f (combine x y)) dc) with (nth i (map f (combine x y)) dc). cbn [nth]. apply IH; lia.
Qed.
Lemma map_row {A B} (f : A -> B) (d : B) (l : list A) (e : A) i : (i < length l)%nat -> nth i (map f l) d = f (nth i l e).
Proof. intros L. rewrite (nth_indep _ d (f e)) by (rewrite map_length; exact L). apply map_nth. Qed.

Lemma axis_ok d lo hi x n i : length lo = length hi -> rect d lo -> rect d hi -> rect d x -> (i < d)%nat ->
  (length lo = length x \/ length lo = 1)%nat ->
  exists rows, axis_with_extra lo hi x n i = Some rows /\ length rows = length x
    /\ forall b, (b < length x)%nat ->
         nth b rows [] = sort (axis_points (nth i (row_of lo b) 0) (nth i (row_of hi b) 0) n ++ [nth i (nth b x []) 0]).
Proof.
  intros L A B C I H. unfold axis_with_extra.
  rewrite !all_some_col by (intros r Hr; first [rewrite (A r Hr)|rewrite (B r Hr)|rewrite (C r Hr)]; exact I).
  set (loc := map (fun p => axis_points (fst p) (snd p) n) (combine (map (fun r => nth i r 0) lo) (map (fun r => nth i r 0) hi))).
  assert (Ll : length loc = length lo) by (unfold loc; rewrite map_length, combine_length, !map_length; lia).
  destruct (broadcast_ok (length x) [] loc ltac:(rewrite Ll; exact H)) as (rows & E & Lr & Q).
  rewrite E. eexists. split; [reflexivity|]. split; [rewrite map_length, combine_length, map_length; lia|].
  intros b Hb. rewrite (combine_nth_map _ rows _ b [] 0 []) by (rewrite ?map_length; lia). cbn [fst snd].
  rewrite (map_row _ _ _ []) by exact Hb. rewrite Q by exact Hb. f_equal. f_equal. rewrite Ll.
  unfold loc, row_of. rewrite <- L.
  destruct (Nat.eqb_spec (length lo) 1) as [K|K].
  - rewrite (combine_nth_map _ _ _ 0 0 0 []) by (rewrite !map_length; lia). cbn [fst snd]. rewrite !(map_row _ _ _ []) by lia. reflexivity.
  - rewrite (combine_nth_map _ _ _ b 0 0 []) by (rewrite !map_length; lia). cbn [fst snd]. rewrite !(map_row _ _ _ []) by lia. reflexivity.
Qed.
Lemma axes_ok lo hi n x : length lo = length hi -> rect (length n) lo -> rect (length n) hi -> rect (length n) x ->
  (length lo = length x \/ length lo = 1)%nat ->
  exists axes, axes_with_extra lo hi n x = Some axes /\ length axes = length n
    /\ forall i, (i < length n)%nat -> length (nth i axes []) = length x
       /\ forall b, (b < length x)%nat ->
         nth b (nth i axes []) [] = sort (axis_points (nth i (row_of lo b) 0) (nth i (row_of hi b) 0) (nth i n 0%nat) ++ [nth i (nth b x []) 0]).
Proof.
  intros L A B C H.
  set (g := fun i => match axis_with_extra lo hi x (nth i n 0%nat) i with Some r => r | None => [] end).
  assert (G : forall i, In i (seq 0 (length n)) -> axis_with_extra lo hi x (nth i n 0%nat) i = Some (g i)).
  { intros i Hi. apply in_seq in Hi. destruct (axis_ok (length n) lo hi x (nth i n 0%nat) i L A B C ltac:(lia) H) as (r & E & _).
    unfold g. rewrite E. reflexivity. }
  exists (map g (seq 0 (length n))). unfold axes_with_extra. split; [apply all_some_ok; exact G|]. split; [rewrite map_length, seq_length; reflexivity|].
  intros i Hi. rewrite (map_row g [] _ 0%nat) by (rewrite seq_length; exact Hi). rewrite seq_nth by exact Hi. cbn [plus].
  destruct (axis_ok (length n) lo hi x (nth i n 0%nat) i L A B C Hi H) as (r & E & E2 & E3). unfold g. rewrite E. split; [exact E2|exact E3].
Qed.
Lemma concat_above d (hi lo : list (list R)) : length lo = length hi -> rect d lo -> rect d hi ->
  (forall b i, (b < length lo)%nat -> (i < d)%nat -> nth i (nth b lo []) 0 < nth i (nth b hi []) 0) ->
  all_above (concat hi) (concat lo) = true.
Proof.
  revert hi. induction lo as [|a lo IH]; intros [|c hi] L A B H; try discriminate L; [reflexivity|].
  injection L as L. assert (La : length a = d) by (apply A; left; reflexivity). assert (Lc : length c = d) by (apply B; left; reflexivity).
  cbn [concat]. unfold all_above.
  assert (CA : forall (x1 y1 x2 y2 : list R), length x1 = length y1 -> combine (x1 ++ x2) (y1 ++ y2) = combine x1 y1 ++ combine x2 y2).
  { clear. induction x1 as [|p x1 IH]; intros [|q y1] x2 y2 L; try discriminate L; [reflexivity|]. injection L as L. cbn. rewrite IH by exact L. reflexivity. }
  rewrite CA by lia. rewrite forallb_app. apply andb_true_iff. split.
  - apply (proj2 (above_spec c a ltac:(lia))). intros i Hi. apply (H 0%nat i); cbn [length]; lia.
  - apply (IH hi L); [intros r Hr; apply A; right; exact Hr|intros r Hr; apply B; right; exact Hr|].
    intros b i Hb Hi. apply (H (S b) i); cbn [length]; lia.
Qed.
Lemma with_sort l x : with_point l x (sort (l ++ [x])).
Proof.
  split; [|apply ascending_nondecr, sort_nondecr].
  eapply perm_trans; [apply sort_perm|]. symmetry. apply Permutation_cons_append.
Qed.
Lemma row_in {A} (l x : list (list A)) b : (length l = length x \/ length l = 1)%nat -> (b < length x)%nat ->
  exists c, (c < length l)%nat /\ forall m : list (list A), length m = length l -> row_of m b = nth c m [].
Proof.
  intros H L. destruct (Nat.eq_dec (length l) 1) as [E|E].
  - exists 0%nat. split; [lia|]. intros m Em. unfold row_of. rewrite Em, E. reflexivity.
  - exists b. split; [lia|]. intros m Em. unfold row_of. rewrite Em. destruct (Nat.eqb_spec (length l) 1); [contradiction|reflexivity].
Qed.

(** uniform_grid_with_extra_point, called with a dtype: for every axis and every
    batch row the result is the uniform grid between that row's bounds with the
    extra point put in its place.  The bounds have one row per extra point, or a
    single row shared by all (rank 1 bounds). *)
Theorem C48_extra (validate : bool) (lo hi : list (list R)) (n : list nat) (x : list (list R)) :
  length lo = length hi -> rect (length n) lo -> rect (length n) hi -> rect (length n) x ->
  (length lo = length x \/ length lo = 1)%nat ->
  (forall i, (i < length n)%nat -> (2 <= nth i n 0)%nat) ->
  (forall b i, (b < length lo)%nat -> (i < length n)%nat -> nth i (nth b lo []) 0 < nth i (nth b hi []) 0) ->
  exists axes, uniform_grid_with_extra_point true validate lo hi n x = Some axes /\ length axes = length n
    /\ forall i, (i < length n)%nat -> length (nth i axes []) = length x
       /\ forall b, (b < length x)%nat -> exists base,
            uniform_points (nth i (row_of lo b) 0) (nth i (row_of hi b) 0) (nth i n 0%nat) base
            /\ with_point base (nth i (nth b x []) 0) (nth b (nth i axes []) []).
Proof.
  intros L A B C H N U. destruct (axes_ok lo hi n x L A B C H) as (axes & E & E2 & E3).
  exists axes. split; [|split; [exact E2|]].
  - unfold uniform_grid_with_extra_point. rewrite (same_rows_ok (length n) lo hi L A B).
    rewrite (concat_above (length n) hi lo L A B U). rewrite (proj2 (two_spec n) N). cbn [negb andb]. rewrite andb_false_r. exact E.
  - intros i Hi. destruct (E3 i Hi) as [E4 E5]. split; [exact E4|]. intros b Hb.
    destruct (row_in lo x b H Hb) as (c & Hc & Q). rewrite (E5 b Hb).
    exists (axis_points (nth i (row_of lo b) 0) (nth i (row_of hi b) 0) (nth i n 0%nat)). split; [|apply with_sort].
    rewrite (Q lo eq_refl), (Q hi (eq_sym L)). apply axis_uniform; [apply U; assumption|apply N; exact Hi].
Qed.
Print Assumptions C48_extra.

Lemma rows_logs rows : (forall r, In r rows -> forall v, In v r -> 0 < v) -> all_some (map logs rows) = Some (map (map ln) rows).
Proof. intros H. apply all_some_ok. intros r Hr. apply logs_ok. intros i Hi. apply (H r Hr), nth_In, Hi. Qed.
Lemma rect_map {A B} (f : A -> B) d rows : rect d rows -> rect d (map (map f) rows).
Proof. intros H r Hr. apply in_map_iff in Hr. destruct Hr as (s & <- & Hs). rewrite map_length. apply H, Hs. Qed.
Lemma concat_positive rows : (forall r, In r rows -> forall v, In v r -> 0 < v) -> all_positive (concat rows) = true.
Proof.
  intros H. unfold all_positive. apply forallb_forall. intros v Hv. apply in_concat in Hv. destruct Hv as (r & Hr & Hv).
  unfold rlt. specialize (H r Hr v Hv). destruct (Rlt_dec 0 v); [reflexivity|contradiction].
Qed.
Lemma exp_with base x l : 0 < x -> with_point base (ln x) l -> with_point (map exp base) x (map exp l).
Proof.
  intros P [A B]. split.
  - apply (Permutation_map exp) in A. cbn [map] in A. rewrite exp_ln in A by exact P. exact A.
  - intros i L. rewrite map_length in L. specialize (B i L). rewrite !(map_row exp 0 _ 0) by lia.
    destruct B as [B|B]; [left; apply exp_increasing, B|right; rewrite B; reflexivity].
Qed.
(** log_uniform_grid_with_extra_point, called with a dtype and positive
    arguments: the log-uniform grid with the extra point put in its place. *)
Theorem C48_log_extra (validate : bool) (lo hi : list (list R)) (n : list nat) (x : list (list R)) :
  length lo = length hi -> rect (length n) lo -> rect (length n) hi -> rect (length n) x ->
  (length lo = length x \/ length lo = 1)%nat ->
  (forall i, (i < length n)%nat -> (2 <= nth i n 0)%nat) ->
  (forall b i, (b < length lo)%nat -> (i < length n)%nat -> 0 < nth i (nth b lo []) 0 < nth i (nth b hi []) 0) ->
  (forall b i, (b < length x)%nat -> (i < length n)%nat -> 0 < nth i (nth b x []) 0) ->
  exists axes, log_uniform_grid_with_extra_point true validate lo hi n x = Some axes /\ length axes = length n
    /\ forall i, (i < length n)%nat -> length (nth i axes []) = length x
       /\ forall b, (b < length x)%nat -> exists base,
            log_uniform_points (nth i (row_of lo b) 0) (nth i (row_of hi b) 0) (nth i n 0%nat) base
            /\ with_point base (nth i (nth b x []) 0) (nth b (nth i axes []) []).
Proof.
  intros L A B C H N U X.
  assert (PL : forall r, In r lo -> forall v, In v r -> 0 < v).
  { intros r Hr v Hv. destruct (In_nth lo r [] Hr) as (b & Hb & <-). destruct (In_nth _ v 0 Hv) as (i & Hi & <-). rewrite (rect_nth (length n)) in Hi by assumption. apply U; assumption. }
  assert (PH : forall r, In r hi -> forall v, In v r -> 0 < v).
  { intros r Hr v Hv. destruct (In_nth hi r [] Hr) as (b & Hb & <-). destruct (In_nth _ v 0 Hv) as (i & Hi & <-). rewrite (rect_nth (length n)) in Hi by assumption. rewrite <- L in Hb. specialize (U b i Hb Hi). lra. }
  assert (PX : forall r, In r x -> forall v, In v r -> 0 < v).
  { intros r Hr v Hv. destruct (In_nth x r [] Hr) as (b & Hb & <-). destruct (In_nth _ v 0 Hv) as (i & Hi & <-). rewrite (rect_nth (length n)) in Hi by assumption. apply X; assumption. }
  destruct (axes_ok (map (map ln) lo) (map (map ln) hi) n (map (map ln) x)) as (axes & E & E2 & E3);
    [rewrite !map_length; exact L|apply rect_map; assumption|apply rect_map; assumption|apply rect_map; assumption|rewrite !map_length; exact H|].
  exists (map (map (map exp)) axes). split; [|split; [rewrite map_length; exact E2|]].
  - unfold log_uniform_grid_with_extra_point. rewrite (same_rows_ok (length n) lo hi L A B).
    rewrite (concat_above (length n) hi lo L A B) by (intros b i Hb Hi; apply U; assumption).
    rewrite (concat_positive lo PL). rewrite (proj2 (two_spec n) N). cbn [negb andb]. rewrite andb_false_r.
    rewrite !rows_logs by assumption. rewrite E. reflexivity.
  - intros i Hi. destruct (E3 i Hi) as [E4 E5]. rewrite (map_row _ [] _ []) by lia. rewrite map_length. rewrite map_length in E4, E5. split; [exact E4|].
    intros b Hb. rewrite (map_row _ [] _ []) by lia. rewrite (E5 b Hb).
    destruct (row_in lo x b H Hb) as (c & Hc & Q).
    assert (Q' : forall m, length m = length lo -> rect (length n) m -> row_of (map (map ln) m) b = map ln (nth c m [])).
    { intros m Em Rm. unfold row_of. rewrite map_length. specialize (Q m Em). unfold row_of in Q. destruct (Nat.eqb_spec (length m) 1) as [F|F].
      - rewrite (map_row _ [] _ []) by lia. f_equal. exact Q.
      - destruct H as [H|H]; [|lia]. rewrite (map_row _ [] _ []) by lia. f_equal. exact Q. }
    rewrite (Q' lo eq_refl A), (Q' hi (eq_sym L) B).
    assert (Lc : length (nth c lo []) = length n) by (apply rect_nth; assumption).
    assert (Lh : length (nth c hi []) = length n) by (apply rect_nth; [assumption|lia]).
    assert (Lx : length (nth b x []) = length n) by (apply rect_nth; assumption).
    rewrite !ln_nth by lia. rewrite (map_row _ [] x []) by lia. rewrite ln_nth by lia. rewrite (Q lo eq_refl), (Q hi (eq_sym L)).
    destruct (U c i Hc Hi) as [U1 U2].
    eexists. split; [apply exp_uniform; [exact U1|lra|apply N; exact Hi|apply axis_uniform; [apply ln_increasing; assumption|apply N; exact Hi]]|].
    apply exp_with; [apply X; assumption|apply with_sort].
Qed.
Print Assumptions C48_log_extra.

Lemma ascending_le l i j : ascending l -> (i <= j < length l)%nat -> nth i l 0 <= nth j l 0.
Proof.
  intros H. induction j as [|j IH]; intros [L M]; [replace i with 0%nat by lia; lra|].
  destruct (Nat.eq_dec i (S j)) as [->|E]; [lra|]. pose proof (IH ltac:(lia)). pose proof (H j ltac:(lia)). lra.
Qed.
Lemma increasing_lt l i j : increasing l -> (i < j < length l)%nat -> nth i l 0 < nth j l 0.
Proof.
  intros H. induction j as [|j IH]; intros [L M]; [lia|]. pose proof (H j ltac:(lia)) as K. rewrite Rplus_0_r in K.
  destruct (Nat.eq_dec i j) as [->|E]; [exact K|]. pose proof (IH ltac:(lia)). lra.
Qed.
Lemma increasing_nodup l : increasing l -> NoDup l.
Proof.
  intros H. apply (NoDup_nth l 0). intros i j Hi Hj E.
  destruct (lt_eq_lt_dec i j) as [[K|K]|K]; [|exact K|];
    [pose proof (increasing_lt l i j H ltac:(lia))|pose proof (increasing_lt l j i H ltac:(lia))]; lra.
Qed.
Lemma ascending_nodup l : ascending l -> NoDup l -> increasing l.
Proof.
  intros A N i Hi. rewrite Rplus_0_r. destruct (A i Hi) as [H|H]; [exact H|]. exfalso.
  assert (i = S i); [|lia]. apply (proj1 (NoDup_nth l 0) N); [lia|exact Hi|exact H].
Qed.
(** What putting a point in its place means for the grid: it has one more point,
    contains the extra point and all the others, keeps its end points when the
    extra point lies between them, and is still strictly increasing exactly when
    the extra point was not a grid point already. *)
Theorem C48_placed_point (base : list R) (x : R) (l : list R) :
  increasing base -> base <> [] -> with_point base x l ->
  length l = S (length base) /\ (forall y, In y l <-> y = x \/ In y base)
  /\ (nth 0 base 0 <= x <= last base 0 -> nth 0 l 0 = nth 0 base 0 /\ last l 0 = last base 0)
  /\ (increasing l <-> ~ In x base).
Proof.
  intros I NE [P A].
  assert (L : length l = S (length base)) by (rewrite (Permutation_length P); reflexivity).
  assert (M : forall y, In y l <-> y = x \/ In y base).
  { intros y. split; intros H; [apply (Permutation_in _ P) in H; destruct H as [<-|H]; [left; reflexivity|right; exact H]|].
    apply (Permutation_in _ (Permutation_sym P)). destruct H as [->|H]; [left; reflexivity|right; exact H]. }
  split; [exact L|]. split; [exact M|].
  assert (B0 : (0 < length base)%nat) by (destruct base; [contradiction|cbn; lia]).
  split.
  - intros [H1 H2].
    assert (LB : last base 0 = nth (length base - 1) base 0) by (rewrite (last_nth' base); f_equal; lia).
    assert (LL : last l 0 = nth (length l - 1) l 0) by (rewrite (last_nth' l); f_equal; lia).
    assert (lows : forall y, In y l -> nth 0 base 0 <= y).
    { intros y Hy. apply M in Hy. destruct Hy as [->|Hy]; [exact H1|]. destruct (In_nth base y 0 Hy) as (k & Hk & <-).
      destruct k; [lra|]. left. apply increasing_lt; [exact I|lia]. }
    assert (highs : forall y, In y l -> y <= last base 0).
    { intros y Hy. apply M in Hy. destruct Hy as [->|Hy]; [exact H2|]. destruct (In_nth base y 0 Hy) as (k & Hk & <-). rewrite LB.
      destruct (Nat.eq_dec k (length base - 1)) as [->|K]; [lra|]. left. apply increasing_lt; [exact I|lia]. }
    split; apply Rle_antisym.
    + assert (In (nth 0 base 0) l) as Hin by (apply M; right; apply nth_In; exact B0).
      destruct (In_nth l _ 0 Hin) as (k & Hk & <-). apply ascending_le; [exact A|lia].
    + apply lows, nth_In. lia.
    + apply highs. rewrite LL. apply nth_In. lia.
    + assert (In (last base 0) l) as Hin by (apply M; right; rewrite LB; apply nth_In; lia).
      destruct (In_nth l _ 0 Hin) as (k & Hk & <-). rewrite LL. apply ascending_le; [exact A|lia].
  - split.
    + intros H. apply increasing_nodup in H. apply (Permutation_NoDup P) in H. inversion H; assumption.
    + intros H. apply ascending_nodup; [exact A|]. apply (Permutation_NoDup (Permutation_sym P)). constructor; [exact H|apply increasing_nodup; exact I].
Qed.
Print Assumptions C48_placed_point.

(** The documentation calls dtype optional.  Without it the extra-point variants
    fail for every input, and so does log_uniform_grid with validation. *)
Theorem C48_default_dtype_refuted :
  (forall validate lo hi n x, uniform_grid_with_extra_point false validate lo hi n x = None
     /\ log_uniform_grid_with_extra_point false validate lo hi n x = None)
  /\ (forall lo hi n, log_uniform_grid false true lo hi n = None).
Proof.
  split.
  - intros v lo hi n x. unfold uniform_grid_with_extra_point, log_uniform_grid_with_extra_point.
    destruct (same_rows lo hi); cbn [negb]; [|split; reflexivity]. split; match goal with |- (if ?c then _ else _) = _ => destruct c; reflexivity end.
  - intros lo hi n. unfold log_uniform_grid. destruct (same_shape lo hi n); cbn [negb]; [|reflexivity].
    cbn [andb]. rewrite andb_false_r. reflexivity.
Qed.
Print Assumptions C48_default_dtype_refuted.

(** ** Examples *)
Example uniform_example : exists axes, uniform_grid true [0; 1] [2; 5] [3%nat; 2%nat] = Some axes
  /\ nth 1 (nth 0 axes []) 0 = 1 /\ nth 1 (nth 1 axes []) 0 = 5.
Proof.
  destruct (C48_uniform true [0; 1] [2; 5] [3%nat; 2%nat] eq_refl eq_refl) as (axes & E & L & H).
  - intros i Hi. cbn [length] in Hi. destruct i as [|[|i]]; [cbn; split; [lra|lia]|cbn; split; [lra|lia]|lia].
  - exists axes. split; [exact E|]. destruct (H 0%nat ltac:(cbn; lia)) as (_ & A & _ & _ & D). destruct (H 1%nat ltac:(cbn; lia)) as (_ & _ & B & _).
    split; [|exact B]. specialize (D 0%nat ltac:(cbn; lia)). cbn [nth] in A, D. rewrite A in D. cbn in D. lra.
Qed.
(** The docstring's example: the extra point 1 in the grid 0, 5, 10; and a
    repeated point when the extra point is 5. *)
Example extra_example : exists axes, uniform_grid_with_extra_point true true [[0]] [[10]] [3%nat] [[1]; [5]] = Some axes
  /\ (forall y, In y (nth 0 (nth 0 axes []) []) <-> y = 1 \/ y = 0 \/ y = 5 \/ y = 10)
  /\ ~ increasing (nth 1 (nth 0 axes []) []).
Proof.
  destruct (C48_extra true [[0]] [[10]] [3%nat] [[1]; [5]]) as (axes & E & L & H); try reflexivity.
  - intros r [<-|[]]; reflexivity.
  - intros r [<-|[]]; reflexivity.
  - intros r [<-|[<-|[]]]; reflexivity.
  - right; reflexivity.
  - intros [|i] Hi; cbn in *; lia.
  - intros [|b] [|i] Hb Hi; cbn in *; try lia; lra.
  - exists axes. split; [exact E|]. destruct (H 0%nat ltac:(cbn; lia)) as [_ K].
    assert (three : forall base, uniform_points 0 10 3 base -> base = [0; 5; 10]).
    { intros [|a [|b [|c [|d base]]]] (A & B & C & _ & D); try discriminate A. cbn in B, C. subst a c.
      specialize (D 0%nat ltac:(lia)). cbn in D. replace b with 5 by lra. reflexivity. }
    destruct (K 0%nat ltac:(cbn; lia)) as (base & U & W). destruct (K 1%nat ltac:(cbn; lia)) as (base' & U' & W').
    cbn [row_of nth length Nat.eqb] in U, U'. pose proof (three _ U) as T. pose proof (three _ U') as T'.
    destruct (C48_placed_point base _ _ (proj1 (proj2 (proj2 (proj2 U)))) ltac:(rewrite T; discriminate) W) as (_ & M & _).
    destruct (C48_placed_point base' _ _ (proj1 (proj2 (proj2 (proj2 U')))) ltac:(rewrite T'; discriminate) W') as (_ & _ & _ & S').
    split.
    + intros y. rewrite (M y), T. cbn. intuition congruence.
    + intros X. apply S' in X. apply X. rewrite T'. cbn. tauto.
Qed.
