(** Lemmas on FdMethodsModel.v: the derivatives that are named, Taylor
    coefficients and nearest points. *)
From Coq Require Import Reals Lra Lia Psatz ZArith List Bool Arith Permutation.
From Verif Require Import ExtReal HaganWestModel BrentModel BoundedCalModel MvNormalModel MvNormalSpec MvNormalProofs GbmProofs2 FdMethodsModel FdMethodsSpec FdMethodsProofs.
Import ListNotations.
Open Scope R_scope.

(** * Names *)
Lemma triu_from n m : forall a, (a + m = n)%nat -> (2 * length (flat_map (fun i => map (fun j => (i, j)) (seq (S i) (n - S i))) (seq a m)) = m * (m - 1))%nat.
Proof.
  induction m as [|m IH]; intros a E; [reflexivity|]. cbn [seq flat_map]. rewrite app_length, map_length, seq_length. specialize (IH (S a) ltac:(lia)).
  replace (S m - 1)%nat with m by lia. replace (n - S a)%nat with m by lia. rewrite Nat.mul_add_distr_l, IH. destruct m; [reflexivity|]. replace (S m - 1)%nat with m by lia. lia.
Qed.
Lemma names_length n : length (derivative_names n) = triangular (n + 1).
Proof.
  unfold derivative_names, triangular. rewrite !app_length, !map_length, seq_length. cbn [length].
  pose proof (triu_from n n 0 eq_refl) as T. fold (triu_indices n) in T. set (t := length (triu_indices n)) in *. clearbody t.
  apply Nat.div_unique with (r := 0%nat); [lia|]. destruct n; [lia|]. replace (S n - 1)%nat with n in T by lia. lia.
Qed.
Lemma triu_in n i j : In (i, j) (triu_indices n) <-> (i < j < n)%nat.
Proof.
  unfold triu_indices. rewrite in_flat_map. split.
  - intros (k & K & M). apply in_seq in K. apply in_map_iff in M. destruct M as (l & E & L). apply in_seq in L. injection E as <- <-. lia.
  - intros L. exists i. split; [apply in_seq; lia|]. apply in_map_iff. exists j. split; [reflexivity|]. apply in_seq. lia.
Qed.
Lemma names_in n ds : In ds (derivative_names n) <-> ds = [] \/ (exists i, (i < n)%nat /\ ds = [i]) \/ exists i j, (i <= j < n)%nat /\ ds = [i; j].
Proof.
  unfold derivative_names. rewrite !in_app_iff, !in_map_iff. split.
  - intros [[<-|[]]|[(i & <- & L)|[(i & <- & L)|((i & j) & <- & L)]]].
    + left. reflexivity.
    + apply in_seq in L. right. left. exists i. split; [lia|reflexivity].
    + apply in_seq in L. right. right. exists i, i. split; [lia|reflexivity].
    + apply triu_in in L. right. right. exists i, j. split; [lia|reflexivity].
  - intros [->|[(i & L & ->)|(i & j & L & ->)]].
    + left. left. reflexivity.
    + right. left. exists i. split; [reflexivity|apply in_seq; lia].
    + right. right. destruct (Nat.eq_dec i j) as [->|N]; [left; exists j; split; [reflexivity|apply in_seq; lia]|]. right. exists (i, j). split; [reflexivity|]. apply triu_in. lia.
Qed.
Lemma nodup_app {A} (a b : list A) : NoDup a -> NoDup b -> (forall x, In x a -> ~ In x b) -> NoDup (a ++ b).
Proof.
  intros HA HB D. induction HA as [|x r NI HA IH]; [exact HB|]. cbn. constructor.
  - rewrite in_app_iff. intros [X|X]; [tauto|]. exact (D x (or_introl eq_refl) X).
  - apply IH. intros y Y. apply D. right. exact Y.
Qed.
Lemma nodup_map {A B} (f : A -> B) l : (forall x y, f x = f y -> x = y) -> NoDup l -> NoDup (map f l).
Proof. intros J. apply FinFun.Injective_map_NoDup. exact J. Qed.
Lemma triu_nodup n m : forall a, NoDup (flat_map (fun i => map (fun j => (i, j)) (seq (S i) (n - S i))) (seq a m)).
Proof.
  induction m as [|m IH]; intros a; [constructor|]. cbn [seq flat_map]. apply nodup_app; [|apply IH|].
  - apply nodup_map; [intros x y E; injection E; auto|apply seq_NoDup].
  - intros x X Y. apply in_map_iff in X. destruct X as (j & <- & _). apply in_flat_map in Y. destruct Y as (k & K & Y). apply in_seq in K. apply in_map_iff in Y. destruct Y as (l & E & _). injection E as E _. lia.
Qed.
Lemma names_nodup n : NoDup (derivative_names n).
Proof.
  unfold derivative_names. apply nodup_app; [repeat constructor; intros []| |].
  - apply nodup_app; [apply nodup_map; [intros x y E; injection E; auto|apply seq_NoDup]| |].
    + apply nodup_app; [apply nodup_map; [intros x y E; injection E; auto|apply seq_NoDup]| |].
      * apply nodup_map; [|exact (triu_nodup n n 0)]. intros (a & b) (c & d) E. injection E as -> ->. reflexivity.
      * intros x X Y. apply in_map_iff in X. destruct X as (i & <- & _). apply in_map_iff in Y. destruct Y as ((a & b) & E & L). apply triu_in in L. injection E as -> ->. lia.
    + intros x X Y. apply in_map_iff in X. destruct X as (i & <- & _). apply in_app_iff in Y. destruct Y as [Y|Y]; apply in_map_iff in Y; [destruct Y as (j & E & _)|destruct Y as ((a & b) & E & _)]; discriminate E.
  - intros x X Y. destruct X as [<-|[]]. rewrite !in_app_iff in Y. destruct Y as [Y|[Y|Y]]; apply in_map_iff in Y; [destruct Y as (j & E & _)|destruct Y as (j & E & _)|destruct Y as ((a & b) & E & _)]; discriminate E.
Qed.

(** * Sums *)
Definition lsum {A} (f : A -> R) (l : list A) : R := fold_right Rplus 0 (map f l).
Lemma lsum_app {A} (f : A -> R) a b : lsum f (a ++ b) = lsum f a + lsum f b.
Proof. unfold lsum. induction a as [|x a IH]; cbn; [ring|]. rewrite IH. ring. Qed.
Lemma lsum_seq f n : lsum f (seq 0 n) = sum_to n f.
Proof. induction n as [|n IH]; [reflexivity|]. rewrite seq_S, lsum_app, IH. unfold lsum. cbn. ring. Qed.
Lemma lsum_one {A} (f : A -> R) x : lsum f [x] = f x.
Proof. unfold lsum. cbn. ring. Qed.
Lemma lsum_ext {A} (f g : A -> R) l : (forall x, In x l -> f x = g x) -> lsum f l = lsum g l.
Proof. intros H. unfold lsum. f_equal. apply map_ext_in. exact H. Qed.
Lemma dot_app a b c d : length a = length c -> dot (a ++ b) (c ++ d) = dot a c + dot b d.
Proof. unfold dot. revert c. induction a as [|x a IH]; intros [|y c] L; try discriminate L; cbn; [ring|]. rewrite IH by (cbn in L; lia). ring. Qed.
Lemma dot_map {A} (f g : A -> R) l : dot (map f l) (map g l) = lsum (fun x => f x * g x) l.
Proof. unfold dot, lsum. induction l as [|x l IH]; [reflexivity|]. cbn. rewrite IH. reflexivity. Qed.
Lemma dot_sum k : forall a b, length a = k -> length b = k -> dot a b = sum_to k (fun j => nth j a 0 * nth j b 0).
Proof.
  induction k as [|k IH]; intros [|x a] [|y b] LA LB; try discriminate; [reflexivity|]. rewrite sum_to_first. cbn [nth]. unfold dot in *. cbn [combine map fold_right]. rewrite IH by (cbn in *; lia). reflexivity.
Qed.
Lemma triu_sum n (F : nat -> nat -> R) : lsum (fun '(i, j) => F i j) (triu_indices n) = sum_to n (fun i => lsum (F i) (seq (S i) (n - S i))).
Proof.
  rewrite <- lsum_seq. unfold triu_indices. generalize (seq 0 n) as l. intros l. induction l as [|i l IH]; [reflexivity|]. cbn [flat_map]. rewrite lsum_app, IH. unfold lsum at 3. cbn [map fold_right].
  f_equal. unfold lsum. rewrite map_map. reflexivity.
Qed.
Lemma half_square n (F : nat -> nat -> R) : (forall i j, (i < n)%nat -> (j < n)%nat -> F i j = F j i) ->
  sum_to n (fun i => sum_to n (F i)) = sum_to n (fun i => F i i) + 2 * sum_to n (fun i => lsum (F i) (seq (S i) (n - S i))).
Proof.
  induction n as [|n IH]; intros S; [cbn; ring|]. cbn [sum_to]. rewrite st_plus, IH by (intros; apply S; lia).
  replace (sum_to n (fun i => lsum (F i) (seq (Datatypes.S i) (Datatypes.S n - Datatypes.S i)))) with (sum_to n (fun i => lsum (F i) (seq (Datatypes.S i) (n - Datatypes.S i)) + F i n)).
  - rewrite st_plus, Nat.sub_diag. cbn [seq]. change (lsum (F n) []) with 0. rewrite (sum_to_ext n (F n) (fun i => F i n)) by (intros; apply S; lia). ring.
  - apply sum_to_ext. intros i L. replace (Datatypes.S n - Datatypes.S i)%nat with (Datatypes.S (n - Datatypes.S i)) by lia. rewrite seq_S, lsum_app. replace (Datatypes.S i + (n - Datatypes.S i))%nat with n by lia. rewrite lsum_one. reflexivity.
Qed.

(** * Rows of coefficients *)
Lemma delta_nth p t i : length p = length t -> nth i (map (fun '(s, u) => s - u) (combine p t)) 0 = nth i p 0 - nth i t 0.
Proof. revert t i. induction p as [|x p IH]; intros [|y t] i L; try discriminate L; [destruct i; cbn; ring|]. destruct i; [reflexivity|]. cbn. apply IH. cbn in L. lia. Qed.
Lemma list_of_nths (l : list R) n : length l = n -> l = map (fun i => nth i l 0) (seq 0 n).
Proof. intros <-. apply (nth_ext _ _ 0 0); [rewrite map_length, seq_length; reflexivity|]. intros a A. rewrite (nth_map_seq (fun i => nth i l 0)) by exact A. reflexivity. Qed.
Lemma row_length t p : length p = length t -> length (coeffs_row t p) = triangular (length t + 1).
Proof.
  intros L. rewrite <- names_length. unfold coeffs_row, derivative_names. rewrite !app_length, !map_length, combine_length, seq_length. cbn [length]. rewrite L, Nat.min_id. reflexivity.
Qed.
Lemma row_value n t p v g H : length p = n -> length t = n -> symmetric n H -> dot (coeffs_row t p) (map (named v g H) (derivative_names n)) = expanded n t v g H p.
Proof.
  intros LP LT SH. unfold coeffs_row. set (dx := map (fun '(s, u) => s - u) (combine p t)). assert (LD : length dx = n) by (unfold dx; rewrite map_length, combine_length; lia).
  assert (ND : forall i, nth i dx 0 = nth i p 0 - nth i t 0) by (intros i; apply delta_nth; lia). clearbody dx. rewrite LT.
  unfold derivative_names. rewrite !map_app, !map_map. cbn [map named app].
  change (1 :: dx ++ ?a) with ([1] ++ dx ++ a). 
  change (v :: ?a) with ([v] ++ a). rewrite dot_app by reflexivity. rewrite dot_app by (rewrite map_length, seq_length; exact LD).
  rewrite dot_app by (rewrite !map_length, seq_length; exact LD).
  rewrite (list_of_nths dx n LD) at 1 2. rewrite map_map, !dot_map, !lsum_seq.
  rewrite (lsum_ext _ (fun '(i, j) => H i j * (nth i p 0 - nth i t 0) * (nth j p 0 - nth j t 0)) (triu_indices n)) by (intros (i & j) _; cbn [named]; rewrite !ND; ring).
  rewrite (triu_sum n (fun i j => H i j * (nth i p 0 - nth i t 0) * (nth j p 0 - nth j t 0))).
  unfold expanded, quadratic. rewrite (half_square n (fun i j => H i j * (nth i p 0 - nth i t 0) * (nth j p 0 - nth j t 0))) by (intros i j A B; rewrite (SH i j A B); ring).
  rewrite (sum_to_ext n (fun i => nth i dx 0 * g i) (fun i => g i * (nth i p 0 - nth i t 0))) by (intros; rewrite ND; ring).
  rewrite (sum_to_ext n (fun i => nth i dx 0 * nth i dx 0 / 2 * H i i) (fun i => / 2 * (H i i * (nth i p 0 - nth i t 0) * (nth i p 0 - nth i t 0)))) by (intros; rewrite !ND; field).
  rewrite <- st_scal. unfold dot. cbn [combine map fold_right]. lra.
Qed.
(** Expansion at another point. *)
Lemma recentre n v g H p x : symmetric n H -> value_at n v g H x = expanded n p (value_at n v g H p) (gradient_at n g H p) H x.
Proof.
  intros SH. unfold value_at, expanded, quadratic, gradient_at.
  set (X := fun i => nth i x 0). set (P := fun i => nth i p 0).
  change (v + sum_to n (fun i => g i * X i) + / 2 * sum_to n (fun i => sum_to n (fun j => H i j * X i * X j)) =
    v + sum_to n (fun i => g i * P i) + / 2 * sum_to n (fun i => sum_to n (fun j => H i j * P i * P j)) + sum_to n (fun i => (g i + sum_to n (fun j => H i j * P j)) * (X i - P i)) +
    / 2 * sum_to n (fun i => sum_to n (fun j => H i j * (X i - P i) * (X j - P j)))). clearbody X P.
  rewrite (sum_to_ext n (fun i => (g i + sum_to n (fun j => H i j * P j)) * (X i - P i)) (fun i => (g i * X i + - (1) * (g i * P i)) + (sum_to n (fun j => H i j * X i * P j) + - (1) * sum_to n (fun j => H i j * P i * P j)))).
  2:{ intros i L. rewrite <- (sum_to_ext n (fun j => X i * (H i j * P j)) (fun j => H i j * X i * P j)) by (intros; ring). rewrite <- (sum_to_ext n (fun j => P i * (H i j * P j)) (fun j => H i j * P i * P j)) by (intros; ring). rewrite <- !st_scal. ring. }
  rewrite !st_plus, <- !st_scal.
  rewrite (sum_to_ext n (fun i => sum_to n (fun j => H i j * (X i - P i) * (X j - P j))) (fun i => sum_to n (fun j => H i j * X i * X j) + (- (1) * sum_to n (fun j => H i j * X i * P j) + (- (1) * sum_to n (fun j => H i j * P i * X j) + sum_to n (fun j => H i j * P i * P j))))).
  2:{ intros i L. rewrite !st_scal, <- !st_plus. apply sum_to_ext. intros. ring. }
  rewrite !st_plus, <- !st_scal.
  rewrite (st_swap n n (fun i j => H i j * P i * X j)). rewrite (sum_to_ext n (fun j => sum_to n (fun i => H i j * P i * X j)) (fun i => sum_to n (fun j => H i j * X i * P j))).
  2:{ intros i L. apply sum_to_ext. intros j M. rewrite (SH j i M L). ring. }
  lra.
Qed.
