(** Lemmas about adaptive Gauss-Kronrod integration. *)
From Coquelicot Require Import Coquelicot.
From Coq Require Import Reals List Bool ZArith QArith Lia Lra Psatz Permutation Sorting.Sorted.
From Verif Require Import TensorModel TensorProofs InterpModel BrentModel BrentProofs ExtReal IntegrateModel PolySpec GaussData GaussProofs KronrodModel KronrodSpec.
Import ListNotations.
Open Scope R_scope.

(** ** Tilings under bisection *)
Lemma chain_split l1 x y m l2 : forall a b, chain a b (l1 ++ (x, y) :: l2) -> chain a b (l1 ++ (x, m) :: (m, y) :: l2).
Proof.
  induction l1 as [|[u v] l1 IH]; intros a b H; cbn [app chain] in *.
  - destruct H as [-> H]. split; [reflexivity|]. split; [reflexivity|exact H].
  - destruct H as [-> H]. split; [reflexivity|]. apply IH. exact H.
Qed.
Lemma tiles_perm a b l l' : Permutation l l' -> tiles a b l -> tiles a b l'.
Proof.
  intros P [(o & Po & C) F]. split.
  - exists o. split; [exact (Permutation_trans Po P)|exact C].
  - exact (Permutation_Forall P F).
Qed.
Lemma tiles_split a b x y l : tiles a b ((x, y) :: l) -> tiles a b ((x, (x + y) / 2) :: ((x + y) / 2, y) :: l).
Proof.
  intros [(o & P & C) F]. assert (I : In (x, y) o) by (apply (Permutation_in _ (Permutation_sym P)); left; reflexivity).
  apply in_split in I as (l1 & l2 & ->). split.
  - exists (l1 ++ (x, (x + y) / 2) :: ((x + y) / 2, y) :: l2). split.
    + apply Permutation_sym. apply (Permutation_trans (l' := (x, (x + y) / 2) :: ((x + y) / 2, y) :: l1 ++ l2)).
      * do 2 constructor. apply (Permutation_cons_inv (a := (x, y))). apply (Permutation_trans (Permutation_sym P)). apply Permutation_sym, Permutation_middle.
      * apply (Permutation_trans (l' := (x, (x + y) / 2) :: l1 ++ ((x + y) / 2, y) :: l2)); [constructor; apply Permutation_middle|]. apply (Permutation_middle l1 _ (x, (x + y) / 2)).
    + apply chain_split. exact C.
  - inversion F as [|p l' (s & S & E) F' EQ]; subst. cbn [fst snd] in E. constructor; [|constructor; [|exact F']]; exists (s / 2); cbn [fst snd]; (split; [lra|]); lra.
Qed.
Definition halves (p : R * R) : list (R * R) := [(fst p, (fst p + snd p) / 2); ((fst p + snd p) / 2, snd p)].
Lemma tiles_halve a b sel : forall rest, tiles a b (rest ++ sel) -> tiles a b (rest ++ flat_map halves sel).
Proof.
  induction sel as [|[x y] sel IH]; intros rest T; [exact T|]. cbn [flat_map halves fst snd app].
  assert (T1 : tiles a b ((x, y) :: rest ++ sel)) by (revert T; apply tiles_perm, Permutation_sym, Permutation_middle).
  apply tiles_split in T1. set (p := (x, (x + y) / 2)) in *. set (q := ((x + y) / 2, y)) in *.
  specialize (IH ([p; q] ++ rest)). cbn [app] in IH. specialize (IH T1). revert IH. apply tiles_perm.
  apply (Permutation_trans (l' := p :: rest ++ q :: flat_map halves sel)); [constructor; apply Permutation_middle|apply (Permutation_middle rest)].
Qed.

(** ** The choice of the worst pieces *)
Lemma insert_perm keys i l : Permutation (i :: l) (insert_desc keys i l).
Proof.
  induction l as [|j l IH]; [apply Permutation_refl|]. cbn [insert_desc]. destruct (key_lt _ _); [|apply Permutation_refl].
  apply (Permutation_trans (perm_swap j i l)). constructor. exact IH.
Qed.
Lemma argsort_perm keys : Permutation (seq 0 (length keys)) (argsort_desc keys).
Proof.
  unfold argsort_desc. generalize (seq 0 (length keys)). intros l. induction l as [|i l IH]; [constructor|]. cbn [fold_right].
  apply (Permutation_trans (perm_skip i IH)). apply insert_perm.
Qed.
Lemma key_lt_asym a b : key_lt a b = true -> key_lt b a = false.
Proof.
  destruct a as [x|n|], b as [y|m|]; cbn; try discriminate; try reflexivity.
  - intros H. apply rlt_true in H. apply rlt_false. lra.
  - destruct m; [discriminate|reflexivity].
  - destruct n; [reflexivity|discriminate].
  - destruct n, m; cbn; try discriminate; reflexivity.
Qed.
Lemma key_ge_trans a b c : key_lt a b = false -> key_lt b c = false -> key_lt a c = false.
Proof.
  destruct a as [x|n|], b as [y|m|], c as [z|k|]; cbn; try discriminate; try reflexivity;
    try (destruct n; cbn); try (destruct m; cbn); try (destruct k; cbn); try discriminate; try reflexivity.
  intros H1 H2. apply rlt_false in H1. apply rlt_false in H2. apply rlt_false. lra.
Qed.
Definition ge_key (keys : list xr) (i j : nat) : Prop := key_lt (nth i keys NaN) (nth j keys NaN) = false.
Lemma insert_sorted keys i l : StronglySorted (ge_key keys) l -> StronglySorted (ge_key keys) (insert_desc keys i l).
Proof.
  induction l as [|j l IH]; intros S; [repeat constructor|]. cbn [insert_desc]. inversion S as [|? ? S' F]; subst. destruct (key_lt _ _) eqn:E.
  - constructor; [apply IH; exact S'|]. apply (Permutation_Forall (insert_perm keys i l)). constructor; [apply key_lt_asym; exact E|exact F].
  - constructor; [exact S|]. constructor; [exact E|]. revert F. apply Forall_impl. intros k K. exact (key_ge_trans _ _ _ E K).
Qed.
Lemma argsort_sorted keys : StronglySorted (ge_key keys) (argsort_desc keys).
Proof. unfold argsort_desc. induction (seq 0 (length keys)); [constructor|]. cbn [fold_right]. apply insert_sorted. exact IHl. Qed.

(** Bad keys come first. *)
Definition bad (tol : R) (k : xr) : bool := xlt (Fin tol) k.
Lemma bad_up tol a b : key_lt a b = false -> bad tol b = true -> bad tol a = true.
Proof.
  unfold bad. destruct a as [x|n|], b as [y|m|]; cbn; try discriminate; try (intros; reflexivity).
  - intros H1 H2. apply rlt_false in H1. apply rlt_true in H2. apply rlt_true. lra.
  - intros H1 H2. congruence.
  - destruct n; [intros H; discriminate|reflexivity].
  - destruct n, m; cbn; try discriminate; reflexivity.
Qed.
Lemma sorted_skip tol keys l : forall k, StronglySorted (ge_key keys) l -> (length (filter (fun i => bad tol (nth i keys NaN)) l) <= k)%nat ->
  Forall (fun i => bad tol (nth i keys NaN) = false) (skipn k l).
Proof.
  induction l as [|i l IH]; intros k S L; [rewrite skipn_nil; constructor|]. inversion S as [|? ? S' F]; subst. cbn [filter] in L.
  destruct (bad tol (nth i keys NaN)) eqn:B.
  - cbn [length] in L. destruct k as [|k]; [lia|]. cbn [skipn]. apply IH; [exact S'|lia].
  - assert (A : Forall (fun i => bad tol (nth i keys NaN) = false) (i :: l)).
    { constructor; [exact B|]. revert F. apply Forall_impl. intros j J. unfold ge_key in J. destruct (bad tol (nth j keys NaN)) eqn:BJ; [|reflexivity]. rewrite (bad_up tol _ _ J BJ) in B. discriminate. }
    clear - A. revert A. generalize (i :: l). clear. intros l A. revert k. induction A; intros [|k]; cbn [skipn]; try constructor; auto.
Qed.
Lemma filter_perm_length {A} (f : A -> bool) l l' : Permutation l l' -> length (filter f l) = length (filter f l').
Proof. induction 1; cbn; [reflexivity|destruct (f x); cbn; congruence|destruct (f x), (f y); reflexivity|congruence]. Qed.
Lemma filter_map_length {A B} (g : A -> B) (f : B -> bool) l : length (filter f (map g l)) = length (filter (fun x => f (g x)) l).
Proof. induction l as [|a l IH]; [reflexivity|]. cbn. destruct (f (g a)); cbn; rewrite IH; reflexivity. Qed.
Lemma map_nth_seq {A} (d : A) l : map (fun i => nth i l d) (seq 0 (length l)) = l.
Proof.
  induction l as [|a l IH] using rev_ind; [reflexivity|]. rewrite app_length. cbn [length]. rewrite Nat.add_1_r, seq_S, map_app. cbn [map Nat.add]. f_equal.
  - rewrite <- IH at 2. apply map_ext_in. intros i I. apply in_seq in I. apply app_nth1. lia.
  - rewrite app_nth2, Nat.sub_diag by lia. reflexivity.
Qed.
Lemma rest_good tol keys k : (count_bad tol keys <= k)%nat -> Forall (fun i => bad tol (nth i keys NaN) = false) (skipn k (argsort_desc keys)).
Proof.
  intros L. apply sorted_skip; [apply argsort_sorted|]. rewrite <- (filter_perm_length _ _ _ (argsort_perm keys)).
  unfold count_bad in L. rewrite <- (map_nth_seq NaN keys), filter_map_length in L at 1. exact L.
Qed.

(** ** One row *)
Lemma rsum_perm l l' : Permutation l l' -> reduce_sum l = reduce_sum l'.
Proof. unfold reduce_sum. induction 1; cbn [fold_right]; lra. Qed.
Lemma rsum_app l l' : reduce_sum (l ++ l') = reduce_sum l + reduce_sum l'.
Proof. unfold reduce_sum. induction l; cbn [app fold_right]; [lra|]. rewrite IHl. lra. Qed.

Section Row.
Context (K E : R * R -> R) (tol : R).
Definition rel (p : R * R) : xr := relative_error (K p) (E p).
Definition good (p : R * R) : Prop := bad tol (rel p) = false.
Definition row_ok (a b w : R) (r : krow) : Prop := length (klower r) = length (kupper r) /\
  Forall (fun p => snd p - fst p = w) (combine (klower r) (kupper r)) /\
  exists acc, ksum r = reduce_sum (map K acc) /\ tiles a b (acc ++ combine (klower r) (kupper r)) /\ Forall good acc.

Lemma gather_fst lo up idx : length lo = length up -> Forall (fun i => (i < length lo)%nat) idx ->
  gather lo idx = map fst (map (fun i => nth i (combine lo up) (0, 0)) idx).
Proof. intros L F. unfold gather. rewrite map_map. apply map_ext_in. intros i I. rewrite Forall_forall in F. rewrite combine_nth by exact L. reflexivity. Qed.
Lemma gather_snd lo up idx : length lo = length up -> Forall (fun i => (i < length lo)%nat) idx ->
  gather up idx = map snd (map (fun i => nth i (combine lo up) (0, 0)) idx).
Proof. intros L F. unfold gather. rewrite map_map. apply map_ext_in. intros i I. rewrite combine_nth by exact L. reflexivity. Qed.
Lemma halves_perm sel : Permutation (flat_map halves sel)
  (combine (map fst sel ++ vzip (fun l u => (l + u) / 2) (map fst sel) (map snd sel)) (vzip (fun l u => (l + u) / 2) (map fst sel) (map snd sel) ++ map snd sel)).
Proof.
  assert (A : forall l m l' m' : list R, length l = length m -> combine (l ++ l') (m ++ m') = combine l m ++ combine l' m').
  { clear. induction l as [|x l IH]; intros [|y m] l' m' L; try discriminate; [reflexivity|]. cbn [app combine]. rewrite IH by (cbn in L; lia). reflexivity. }
  rewrite A by (unfold vzip; rewrite !map_length, combine_length, !map_length; lia). clear A.
  induction sel as [|[x y] sel IH]; [constructor|]. unfold vzip in *. cbn [flat_map halves map fst snd combine app] in *. constructor.
  apply (Permutation_trans (perm_skip _ IH)). apply Permutation_middle.
Qed.
Lemma map_nth' {A B} (f : A -> B) l d d' i : (i < length l)%nat -> nth i (map f l) d' = f (nth i l d).
Proof. intros H. rewrite (nth_indep _ d' (f d)) by (rewrite map_length; exact H). apply map_nth. Qed.

Lemma update_row_ok a b w k lo up s : row_ok a b w (KRow lo up s) -> let items := combine lo up in
  (count_bad tol (map rel items) <= k)%nat ->
  let '(lo', up', g) := update_row k lo up (map K items) (map rel items) in row_ok a b (w / 2) (KRow lo' up' (s + g)).
Proof.
  intros (L & WD & acc & S & T & G) items C. cbn [klower kupper ksum] in *. unfold update_row.
  set (keys := map rel items) in *. set (idx := argsort_desc keys). assert (LI : length items = length lo) by (unfold items; rewrite combine_length; lia).
  assert (LK : length keys = length lo) by (unfold keys; rewrite map_length; exact LI).
  assert (PI : Permutation (seq 0 (length lo)) idx) by (rewrite <- LK; apply argsort_perm).
  assert (IDX : Forall (fun i => (i < length lo)%nat) idx) by (apply (Permutation_Forall PI), Forall_forall; intros i I; apply in_seq in I; lia).
  unfold top_k. fold idx. assert (F1 : Forall (fun i => (i < length lo)%nat) (firstn k idx)) by (rewrite <- (firstn_skipn k idx) in IDX; apply Forall_app in IDX; tauto).
  assert (F2 : Forall (fun i => (i < length lo)%nat) (skipn k idx)) by (rewrite <- (firstn_skipn k idx) in IDX; apply Forall_app in IDX; tauto).
  rewrite (gather_fst lo up _ L F1), (gather_snd lo up _ L F1). fold items.
  set (sel := map (fun i => nth i items (0, 0)) (firstn k idx)). set (rest := map (fun i => nth i items (0, 0)) (skipn k idx)).
  assert (P : Permutation items (sel ++ rest)).
  { unfold sel, rest. rewrite <- map_app, firstn_skipn. rewrite <- (map_nth_seq (0, 0) items) at 1. apply Permutation_map. rewrite LI. exact PI. }
  assert (GE : gather (map K items) (firstn k idx) = map K sel).
  { unfold gather, sel. rewrite map_map. apply map_ext_in. intros i I. rewrite Forall_forall in F1. apply map_nth'. rewrite LI. apply F1. exact I. }
  rewrite GE. split; cbn [klower kupper ksum].
  - unfold vzip. rewrite !app_length, !map_length, combine_length, !map_length. lia.
  - split.
    { apply (Permutation_Forall (halves_perm sel)). fold items in WD. apply (Permutation_Forall P), Forall_app in WD as [WS _]. clear - WS.
      induction WS as [|p sel Q WS IH]; [constructor|]. cbn [flat_map halves app]. repeat (constructor; cbn [fst snd]; [lra|]). exact IH. }
    exists (acc ++ rest). split; [|split].
    + rewrite map_app, rsum_app, <- S. rewrite (rsum_perm _ _ (Permutation_map K P)), map_app, rsum_app. lra.
    + apply (tiles_perm a b ((acc ++ rest) ++ flat_map halves sel)); [apply Permutation_app_head, halves_perm|]. apply tiles_halve. revert T. apply tiles_perm.
      fold items. rewrite <- app_assoc. apply Permutation_app_head. apply (Permutation_trans P). apply Permutation_app_comm.
    + apply Forall_app. split; [exact G|]. unfold rest. apply Forall_map. pose proof (rest_good tol keys k C) as RG. fold idx in RG.
      rewrite Forall_forall in *. intros i I. unfold good. specialize (RG i I). unfold keys in RG. rewrite (map_nth' rel items (0, 0) NaN i) in RG by (rewrite LI; apply F2; exact I). exact RG.
Qed.
End Row.

(** ** The loop *)
Definition KE (f : R -> R) (n : nat) (p : R * R) : R * R := match estimate_and_error f n (fst p) (snd p) with Some e => e | None => (0, 0) end.
Definition Kv f n p := fst (KE f n p).
Definition Ev f n p := snd (KE f n p).

Section Loop.
Context (f : R -> R) (tol : R) (n : nat) (SUP : forall l u, estimate_and_error f n l u <> None).
Lemma KE_some l u : estimate_and_error f n l u = Some (KE f n (l, u)).
Proof. unfold KE. cbn [fst snd]. pose proof (SUP l u). destruct (estimate_and_error f n l u); congruence. Qed.
Lemma row_estimates_some lo : forall up, row_estimates f n lo up = Some (map (KE f n) (combine lo up)).
Proof. induction lo as [|l lo IH]; intros [|u up]; try reflexivity. cbn [row_estimates combine map]. rewrite KE_some, IH. reflexivity. Qed.
Lemma all_some_map {A B} (g : A -> option B) (h : A -> B) l : (forall x, g x = Some (h x)) -> all_some (map g l) = Some (map h l).
Proof. intros H. induction l as [|x l IH]; [reflexivity|]. cbn [map all_some]. rewrite H, IH. reflexivity. Qed.

Definition limits_ok (w : R) (limits : list (R * R)) (rows : list krow) : Prop := Forall2 (fun p r => row_ok (Kv f n) (Ev f n) tol (fst p) (snd p) ((snd p - fst p) * w) r) limits rows.
Definition items (r : krow) := combine (klower r) (kupper r).
Definition step_k (rows : list krow) : nat := fold_right Nat.max 0%nat (map (fun r => count_bad tol (map (rel (Kv f n) (Ev f n)) (items r))) rows).
Definition step_row (k : nat) (r : krow) : krow :=
  let '(lo, up, g) := update_row k (klower r) (kupper r) (map (Kv f n) (items r)) (map (rel (Kv f n) (Ev f n)) (items r)) in KRow lo up (ksum r + g).
Lemma body_eq rows : kronrod_body f tol n rows = Some (map (step_row (step_k rows)) rows).
Proof.
  unfold kronrod_body. rewrite (all_some_map _ (fun r => map (KE f n) (items r))) by (intros r; apply row_estimates_some). f_equal.
  set (k := fold_right _ _ _). assert (EK : k = step_k rows). { unfold k, step_k. f_equal. rewrite !map_map. apply map_ext. intros r. rewrite map_map. reflexivity. }
  rewrite EK. generalize (step_k rows). clear. intros k. induction rows as [|r rows IH]; [reflexivity|]. cbn [map combine]. rewrite IH. f_equal.
  unfold step_row. rewrite !map_map. reflexivity.
Qed.
Lemma le_max l x : In x l -> (x <= fold_right Nat.max 0%nat l)%nat.
Proof. induction l as [|y l IH]; intros []; cbn [fold_right]; [subst; lia|specialize (IH H); lia]. Qed.
Lemma step_ok w limits rows : limits_ok w limits rows -> limits_ok (w / 2) limits (map (step_row (step_k rows)) rows).
Proof.
  intros H. assert (B : Forall (fun r => (count_bad tol (map (rel (Kv f n) (Ev f n)) (items r)) <= step_k rows)%nat) rows).
  { apply Forall_forall. intros r R. apply le_max. apply in_map_iff. exists r. split; [reflexivity|exact R]. }
  revert B. generalize (step_k rows). intros k B. induction H as [|p r limits rows P H IH]; [constructor|]. inversion B; subst. cbn [map]. constructor; [|apply IH; assumption].
  destruct r as [lo up s]. unfold step_row. pose proof (update_row_ok (Kv f n) (Ev f n) tol _ _ _ k lo up s P) as U. cbn zeta in U. unfold items in *. cbn [klower kupper ksum] in *.
  match goal with X : (_ <= k)%nat |- _ => specialize (U X) end. destruct (update_row _ _ _ _ _) as [[lo' up'] g]. replace ((snd p - fst p) * (w / 2)) with ((snd p - fst p) * w / 2) by field. exact U.
Qed.
Lemma empty_rows w w' limits rows : kronrod_cond rows = false -> limits_ok w limits rows -> limits_ok w' limits rows.
Proof.
  intros C H. unfold kronrod_cond in C. apply negb_false_iff in C. induction H as [|p r limits rows P H IH]; [constructor|]. cbn [forallb] in C. apply andb_true_iff in C as [C1 C2].
  constructor; [|apply IH; exact C2]. destruct P as (L & _ & A). split; [exact L|]. split; [|exact A]. apply Nat.eqb_eq in C1. destruct (klower r); [constructor|discriminate].
Qed.
Lemma loop_ok d : forall w limits rows rows', limits_ok w limits rows -> kronrod_loop d f tol n rows = Some rows' -> limits_ok (w / 2 ^ d) limits rows'.
Proof.
  induction d as [|d IH]; intros w limits rows rows' H L; cbn [kronrod_loop] in L.
  - cbn [pow]. replace (w / 1) with w by field. congruence.
  - destruct (kronrod_cond rows) eqn:C; [|injection L as <-; exact (empty_rows w _ limits rows C H)]. rewrite body_eq in L.
    replace (w / 2 ^ S d) with (w / 2 / 2 ^ d) by (cbn [pow]; field; apply pow_nonzero; lra). apply (IH (w / 2) limits _ rows' (step_ok w limits rows H) L).
Qed.
Lemma loop_some d : forall rows, exists rows', kronrod_loop d f tol n rows = Some rows'.
Proof. induction d as [|d IH]; intros rows; cbn [kronrod_loop]; [eauto|]. destruct (kronrod_cond rows); [|eauto]. rewrite body_eq. apply IH. Qed.
Lemma init_ok limits : limits_ok 1 limits (map (fun '(l, u) => KRow [l] [u] 0) limits).
Proof.
  induction limits as [|[l u] limits IH]; [constructor|]. cbn [map]. constructor; [|exact IH]. split; [reflexivity|]. split; [cbn; constructor; [cbn [fst snd]; lra|constructor]|]. exists []. split; [reflexivity|]. split; [|constructor].
  split; [exists [(l, u)]; split; [apply Permutation_refl|cbn; auto]|]. constructor; [exists 1; cbn [fst snd]; split; lra|constructor].
Qed.
End Loop.

(** ** Acceptance, sums and integrals over a tiling *)
Lemma accept_iff tol k e : 0 <= tol -> 0 <= e -> bad tol (relative_error k e) = false <-> (0 < k -> e <= tol * k) /\ (k = 0 -> e = 0).
Proof.
  intros T E. unfold bad, relative_error, xdiv. destruct (req k 0) eqn:K.
  - apply req_true in K. subst k. destruct (req e 0) eqn:Z.
    + apply req_true in Z. cbn. split; [intros _; split; intros; lra|reflexivity].
    + apply req_false in Z. replace (rlt e 0) with false by (symmetry; apply rlt_false; lra). cbn. split; [discriminate|]. intros [_ H]. exfalso. apply Z, H. reflexivity.
  - apply req_false in K. cbn [xlt]. split.
    + intros H. apply rlt_false in H. split; [|intros; contradiction]. intros P. apply (Rmult_le_compat_r k) in H; [|lra]. replace (e / k * k) with e in H by (field; lra). exact H.
    + intros [H _]. apply rlt_false. destruct (Rlt_le_dec 0 k) as [P|N].
      * specialize (H P). apply (Rmult_le_reg_r k); [exact P|]. replace (e / k * k) with e by (field; lra). exact H.
      * apply Rle_trans with 0; [|exact T]. unfold Rdiv. assert (/ k < 0) by (apply Rinv_lt_0_compat; lra). nra.
Qed.
Lemma chain_tel (F : R -> R) l : forall a b, chain a b l -> reduce_sum (map (fun p => F (snd p) - F (fst p)) l) = F b - F a.
Proof. unfold reduce_sum. induction l as [|[x y] l IH]; intros a b C; cbn [chain map fold_right fst snd] in *; [subst; lra|]. destruct C as [-> C]. rewrite (IH y b C). lra. Qed.
Lemma tiles_tel (F : R -> R) a b l : tiles a b l -> reduce_sum (map (fun p => F (snd p) - F (fst p)) l) = F b - F a.
Proof. intros [(o & P & C) _]. rewrite <- (rsum_perm _ _ (Permutation_map _ P)). apply chain_tel. exact C. Qed.
Lemma tiles_width a b l : tiles a b l -> reduce_sum (map (fun p => Rabs (snd p - fst p)) l) = Rabs (b - a).
Proof.
  intros T. pose proof (tiles_tel (fun x => x) a b l T) as W. cbn in W. destruct T as [_ F]. unfold Rabs at 2. destruct (Rcase_abs (b - a)) as [N|N].
  - rewrite <- W. clear W. unfold reduce_sum. induction F as [|p l (s & S & E) F IH]; cbn [map fold_right]; [lra|]. rewrite IH. rewrite Rabs_left; [lra|]. rewrite E. nra.
  - rewrite <- W. clear W. unfold reduce_sum. induction F as [|p l (s & S & E) F IH]; cbn [map fold_right]; [lra|]. rewrite IH. rewrite Rabs_right; [lra|]. rewrite E. nra.
Qed.
Lemma chain_inside a b l : forall c, Forall (fun p => exists s, 0 < s /\ snd p - fst p = s * (b - a)) l -> chain c b l ->
  Forall (fun p => Rmin c b <= fst p <= Rmax c b /\ Rmin c b <= snd p <= Rmax c b) l /\ 0 <= (b - c) * (b - a).
Proof.
  induction l as [|[x y] l IH]; intros c F C; cbn [chain] in C.
  - subst. split; [constructor|lra].
  - destruct C as [-> C]. inversion F as [|p l' (s & S & E) F']; subst. cbn [fst snd] in E. destruct (IH y F' C) as [I O].
    assert (O' : 0 <= (y - c) * (b - a)) by (rewrite E; pose proof (Rle_0_sqr (b - a)); unfold Rsqr in *; nra).
    assert (ORD : (c <= y <= b) \/ (b <= y <= c)).
    { destruct (Rtotal_order a b) as [AB|[AB|AB]].
      - left. split; [assert (0 < s * (b - a)) by (apply Rmult_lt_0_compat; lra); lra|]. destruct (Rle_lt_dec y b); [assumption|]. exfalso. nra.
      - subst b. rewrite Rminus_eq_0, Rmult_0_r in E. assert (y = c) by lra. subst y. destruct (Rle_lt_dec c a); [left; lra|right; lra].
      - right. split; [|assert (0 < s * (a - b)) by (apply Rmult_lt_0_compat; lra); lra]. destruct (Rle_lt_dec b y); [assumption|]. exfalso. nra. }
    split; [|nra]. assert (M : Rmin c b <= Rmin y b /\ Rmax y b <= Rmax c b /\ Rmin c b <= c <= Rmax c b /\ Rmin c b <= y <= Rmax c b).
    { unfold Rmin, Rmax. destruct (Rle_dec c b), (Rle_dec y b); lra. }
    constructor; [cbn [fst snd]; split; lra|]. revert I. apply Forall_impl. intros p [P1 P2]. lra.
Qed.
Lemma tiles_inside a b l : tiles a b l -> Forall (fun p => Rmin a b <= fst p <= Rmax a b /\ Rmin a b <= snd p <= Rmax a b) l.
Proof.
  intros [(o & P & C) F]. apply (Permutation_Forall P). apply (Permutation_Forall (Permutation_sym P)) in F. exact (proj1 (chain_inside a b o a F C)).
Qed.
Lemma peval_abs_mono c x y : 0 <= x <= y -> 0 <= peval (map Rabs c) x <= peval (map Rabs c) y.
Proof.
  intros H. induction c as [|c0 c IH]; cbn [map peval]; [lra|]. pose proof (Rabs_pos c0).
  assert (0 <= x * peval (map Rabs c) x) by (apply Rmult_le_pos; lra). assert (x * peval (map Rabs c) x <= y * peval (map Rabs c) y) by (apply Rmult_le_compat; lra). lra.
Qed.
Lemma sum_close (g h k : R * R -> R) l : Forall (fun p => Rabs (g p - h p) <= k p) l -> Rabs (reduce_sum (map g l) - reduce_sum (map h l)) <= reduce_sum (map k l).
Proof.
  unfold reduce_sum. induction 1 as [|p l H F IH]; cbn [map fold_right]; [rewrite Rminus_0_r, Rabs_R0; lra|].
  replace (g p + fold_right Rplus 0 (map g l) - (h p + fold_right Rplus 0 (map h l))) with ((g p - h p) + (fold_right Rplus 0 (map g l) - fold_right Rplus 0 (map h l))) by ring.
  eapply Rle_trans; [apply Rabs_triang|]. lra.
Qed.
Lemma sum_scal k (g : R * R -> R) l : reduce_sum (map (fun p => k * g p) l) = k * reduce_sum (map g l).
Proof. unfold reduce_sum. induction l; cbn [map fold_right]; [ring|]. rewrite IHl. ring. Qed.
Lemma sum_le (g h : R * R -> R) l : Forall (fun p => g p <= h p) l -> reduce_sum (map g l) <= reduce_sum (map h l).
Proof. unfold reduce_sum. induction 1; cbn [map fold_right]; lra. Qed.
