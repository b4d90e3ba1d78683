From Coq Require Import ZArith Reals List Bool Lia Lra.
From Verif Require Import SegmentModel SegmentSpec.
Import ListNotations.
Open Scope R_scope.

Lemma runs_exist : forall ids x, length ids = length x -> exists s, runs s /\ seg_ids s = ids /\ seg_values s = x.
Proof.
  induction ids as [|i ids IH]; intros [|v x] L; try discriminate; [exists []; repeat split|].
  injection L as L. destruct (IH x L) as (s & R & I & V). destruct s as [|(g, w) r].
  - exists [(i, [v])]. cbn in I, V. subst. cbn. repeat split; congruence.
  - destruct (Z.eq_dec i g) as [->|N].
    + exists ((g, v :: w) :: r). cbn in *. subst. destruct R as (R1 & R2 & R3). repeat split; try congruence; assumption.
    + exists ((i, [v]) :: (g, w) :: r). cbn in *. subst. destruct R as (R1 & R2 & R3). repeat split; try congruence; assumption.
Qed.

Lemma seg_len s : length (seg_ids s) = length (seg_values s).
Proof.
  unfold seg_ids, seg_values. induction s as [|(g, v) s IH]; [reflexivity|]. cbn. rewrite !app_length, repeat_length. congruence.
Qed.

(** diff, positionally *)
Lemma nth_combine_sub (a b : list R) i : length a = length b -> (i < length a)%nat ->
  nth i (map (fun '(x1, x0) => x1 - x0) (combine a b)) 0 = nth i a 0 - nth i b 0.
Proof.
  revert b i. induction a as [|x a IH]; intros [|y b] i L H; cbn in L, H; try lia.
  destruct i; [reflexivity|]. cbn. apply IH; lia.
Qed.
Lemma nth_skipn' {A} (l : list A) n i d : nth i (skipn n l) d = nth (n + i) l d.
Proof. revert l. induction n; intros l; [reflexivity|]. destruct l; cbn; [destruct i; reflexivity|apply IHn]. Qed.
Lemma nth_firstn' {A} (l : list A) n i d : (i < n)%nat -> nth i (firstn n l) d = nth i l d.
Proof. revert l i. induction n; intros l i H; [lia|]. destruct l; cbn; [reflexivity|]. destruct i; [reflexivity|]. apply IHn. lia. Qed.
Lemma diff_excl_length order x : length (diff_excl order x) = (length x - order)%nat.
Proof. unfold diff_excl. rewrite map_length, combine_length, skipn_length, firstn_length. lia. Qed.
Lemma diff_length order x : length (diff order false x) = length x.
Proof. unfold diff. rewrite app_length, diff_excl_length, firstn_length. lia. Qed.
Lemma diff_excl_nth order x i : (i < length x - order)%nat -> nth i (diff_excl order x) 0 = nth (i + order) x 0 - nth i x 0.
Proof.
  intros H. unfold diff_excl. rewrite nth_combine_sub.
  - rewrite nth_skipn', nth_firstn' by assumption. f_equal. f_equal. lia.
  - rewrite skipn_length, firstn_length. lia.
  - rewrite skipn_length. assumption.
Qed.
Lemma diff_nth order x i : (i < length x)%nat ->
  nth i (diff order false x) 0 = if Nat.ltb i order then nth i x 0 else nth i x 0 - nth (i - order) x 0.
Proof.
  intros H. unfold diff. destruct (Nat.ltb_spec i order).
  - rewrite app_nth1 by (rewrite firstn_length; lia). apply nth_firstn'. assumption.
  - rewrite app_nth2 by (rewrite firstn_length; lia). rewrite firstn_length, Nat.min_l by lia.
    rewrite diff_excl_nth by lia. f_equal. f_equal. lia.
Qed.

Lemma list_as_map (l : list R) : l = map (fun i => nth i l 0) (seq 0 (length l)).
Proof.
  apply nth_ext with (d := 0) (d' := 0); [rewrite map_length, seq_length; reflexivity|]. intros i H.
  rewrite (nth_indep (map _ _) 0 ((fun i => nth i l 0) 0%nat)) by (rewrite map_length, seq_length; assumption).
  rewrite (map_nth (fun i => nth i l 0)), seq_nth by assumption. reflexivity.
Qed.

(** Splitting a computation over indices into one per run. *)
Lemma split_runs (D : nat -> R) (P : nat -> bool) (G : list R -> list R) (L : list (list R)) : forall off,
  (forall pre s post, L = pre ++ s :: post ->
     map D (filter P (seq (off + length (concat pre)) (length s))) = G s) ->
  map D (filter P (seq off (length (concat L)))) = concat (map G L).
Proof.
  induction L as [|s L IH]; intros off H; [reflexivity|]. cbn [concat map]. rewrite app_length, seq_app, filter_app, map_app. f_equal.
  - specialize (H [] s L eq_refl). cbn in H. rewrite Nat.add_0_r in H. assumption.
  - apply IH. intros pre t post E. specialize (H (s :: pre) t post ltac:(cbn; congruence)). cbn [concat] in H. rewrite app_length in H.
    rewrite Nat.add_assoc in H. assumption.
Qed.

(** Starts of runs. *)
Fixpoint starts (off : nat) (L : list (list R)) : list nat :=
  match L with [] => [] | s :: r => off :: starts (off + length s) r end.

Lemma where_true_app i a b : where_true i (a ++ b) = where_true i a ++ where_true (i + length a) b.
Proof. revert i. induction a as [|x a IH]; intros i; [cbn; rewrite Nat.add_0_r; reflexivity|]. cbn. rewrite IH. replace (S i + length a)%nat with (i + S (length a))%nat by lia. destruct x; reflexivity. Qed.
Lemma where_true_false i n : where_true i (repeat false n) = [].
Proof. revert i. induction n; intros; [reflexivity|]. cbn. apply IHn. Qed.

(** changes after a given previous id *)
Fixpoint changes (prev : Z) (ids : list Z) : list bool :=
  match ids with [] => [] | i :: r => negb (Z.eqb (i - prev) 0) :: changes i r end.
Lemma changes_eq i ids : map (fun '(a, b) => negb (Z.eqb (a - b) 0)) (combine ids (removelast (i :: ids))) = changes i ids.
Proof. revert i. induction ids as [|j ids IH]; intros i; [reflexivity|]. cbn [changes]. rewrite <- IH. reflexivity. Qed.
Lemma changes_repeat g n r : changes g (repeat g n ++ r) = repeat false n ++ changes g r.
Proof. induction n; [reflexivity|]. cbn. rewrite Z.sub_diag. cbn. rewrite IHn. reflexivity. Qed.

Lemma where_changes : forall s prev off, runs s -> match s with [] => True | (g, _) :: _ => prev <> g end ->
  where_true off (changes prev (seg_ids s)) = starts off (map snd s).
Proof.
  induction s as [|(g, v) s IH]; intros prev off R N; [reflexivity|]. destruct R as (R1 & R2 & R3).
  unfold seg_ids. cbn [map concat snd starts]. fold (seg_ids s). destruct v as [|v0 v]; [congruence|]. cbn [length repeat app changes where_true].
  replace (negb (Z.eqb (g - prev) 0)) with true by (symmetry; apply negb_true_iff; apply Z.eqb_neq; lia). f_equal.
  rewrite changes_repeat, where_true_app, where_true_false, repeat_length. cbn [app].
  replace (S off + length v)%nat with (off + S (length v))%nat by lia. apply IH; [assumption|]. destruct s as [|(g', v')]; [trivial|congruence].
Qed.
Lemma starts_eq s : runs s -> s <> [] -> where_true 0 (has_segment_changed (seg_ids s)) = tl (starts 0 (map snd s)).
Proof.
  destruct s as [|(g, v) s]; [congruence|]. intros (R1 & R2 & R3) _. unfold has_segment_changed, seg_ids. cbn [map concat].
  fold (seg_ids s). destruct v as [|v0 v]; [congruence|]. cbn [length repeat app tl snd starts map].
  rewrite changes_eq, changes_repeat. cbn [where_true]. rewrite where_true_app, where_true_false, repeat_length. cbn [app].
  replace (1 + length v)%nat with (0 + S (length v))%nat by lia. apply where_changes; [assumption|]. destruct s as [|(g', v')]; [trivial|congruence].
Qed.

(** (start, end) pairs of the runs *)
Lemma pairs_in : forall L off n, (off + length (concat L) = n)%nat -> forall p e,
  In (p, e) (combine (starts off L) (tl (starts off L) ++ [n])) <->
  exists pre s post, L = pre ++ s :: post /\ p = (off + length (concat pre))%nat /\ e = (p + length s)%nat.
Proof.
  induction L as [|a L IH]; intros off n E p e; cbn [starts].
  - cbn. split; [intros []|intros (pre & s & post & H & _)]. destruct pre; discriminate.
  - cbn [concat] in E. rewrite app_length in E. cbn [tl].
    assert (C : combine (off :: starts (off + length a) L) (starts (off + length a) L ++ [n]) =
      (off, off + length a)%nat :: combine (starts (off + length a) L) (tl (starts (off + length a) L) ++ [n])).
    { destruct L as [|b L]; cbn [starts tl app combine]; [cbn in E; f_equal; f_equal; lia|reflexivity]. }
    rewrite C. cbn [In]. rewrite (IH (off + length a)%nat n ltac:(lia)). split.
    + intros [H|(pre & s & post & -> & -> & ->)].
      * injection H as <- <-. exists [], a, L. cbn. split; [reflexivity|]. lia.
      * exists (a :: pre), s, post. cbn [concat app]. rewrite app_length. split; [reflexivity|]. lia.
    + intros ([|b pre] & s & post & H & -> & ->).
      * left. injection H as -> ->. cbn. f_equal; lia.
      * right. injection H as -> ->. exists pre, s, post. cbn [concat]. rewrite app_length. split; [reflexivity|]. lia.
Qed.

Lemma chunk_unique : forall (L pre : list (list R)) s post pre' s' post' i,
  L = pre ++ s :: post -> L = pre' ++ s' :: post' ->
  (length (concat pre) <= i < length (concat pre) + length s)%nat ->
  (length (concat pre') <= i < length (concat pre') + length s')%nat ->
  pre = pre' /\ s = s'.
Proof.
  induction L as [|a L IH]; intros pre s post pre' s' post' i E E' H H'; [destruct pre; discriminate|].
  destruct pre as [|b pre], pre' as [|b' pre']; cbn [app] in E, E'.
  - split; [reflexivity|congruence].
  - exfalso. injection E as <- _. injection E' as <- _. cbn [concat length] in *. rewrite app_length in H'. lia.
  - exfalso. injection E as <- _. injection E' as <- _. cbn [concat length] in *. rewrite app_length in H. lia.
  - injection E as <- E. injection E' as <- E'. cbn [concat] in *. rewrite app_length in *.
    destruct (IH pre s post pre' s' post' (i - length a)%nat E E' ltac:(lia) ltac:(lia)) as (-> & ->). auto.
Qed.

Section Fix.
Variables (order : nat) (sg : segmentation).
Hypothesis (RUNS : runs sg) (NE : sg <> []).
Notation L := (map snd sg).
Notation x := (seg_values sg).
Notation ids := (seg_ids sg).
Definition fixb (i : nat) : bool := existsb (Nat.eqb i) (fix_indices order ids).

Lemma fixb_chunk pre s post k : L = pre ++ s :: post -> (k < length s)%nat ->
  fixb (length (concat pre) + k) = (match pre with [] => false | _ => Nat.ltb k order end).
Proof.
  intros E K. unfold fixb.
  assert (IN : forall i, In i (fix_indices order ids) <-> exists pre' s' post', L = pre' ++ s' :: post' /\ pre' <> [] /\
     (length (concat pre') <= i < length (concat pre') + Nat.min order (length s'))%nat).
  { intros i. unfold fix_indices. rewrite (starts_eq sg RUNS NE). rewrite in_concat.
    destruct sg as [|(g0, v0) sg0] eqn:SG; [congruence|]. cbn [map snd starts tl].
    assert (LN : length (seg_ids ((g0, v0) :: sg0)) = (0 + length v0 + length (concat (map snd sg0)))%nat).
    { rewrite seg_len. unfold seg_values. cbn [map snd concat]. rewrite app_length. lia. }
    split.
    - intros (l & Hl & Hi). apply in_map_iff in Hl as ((p, e) & <- & Hp).
      apply (pairs_in (map snd sg0) (0 + length v0) _ (eq_sym LN)) in Hp as (pre' & s' & post' & E' & -> & ->).
      apply filter_In in Hi as (Hi & Hlt). apply in_map_iff in Hi as (q & <- & Hq). apply in_seq in Hq. apply Nat.ltb_lt in Hlt.
      exists (v0 :: pre'), s', post'. cbn [app concat]. rewrite app_length. split; [congruence|]. split; [discriminate|]. lia.
    - intros ([|b pre'] & s' & post' & E' & N & H); [congruence|]. cbn [app concat] in *. injection E' as <- E'. rewrite app_length in H.
      eexists. split.
      + apply in_map_iff. exists ((0 + length v0 + length (concat pre'))%nat, (0 + length v0 + length (concat pre') + length s')%nat).
        split; [reflexivity|]. apply (pairs_in (map snd sg0) (0 + length v0) _ (eq_sym LN)). exists pre', s', post'. auto.
      + apply filter_In. split; [|apply Nat.ltb_lt; lia]. apply in_map_iff. exists (i - (length v0 + length (concat pre')))%nat. split; [lia|]. apply in_seq. lia. }
  assert (B : existsb (Nat.eqb (length (concat pre) + k)) (fix_indices order ids) = true <-> In (length (concat pre) + k)%nat (fix_indices order ids)).
  { rewrite existsb_exists. split; [intros (j & J & Q); apply Nat.eqb_eq in Q; congruence|intros J; eexists; split; [eassumption|apply Nat.eqb_refl]]. }
  rewrite IN in B. destruct (existsb _ _) eqn:Q.
  - destruct (proj1 B eq_refl) as (pre' & s' & post' & E' & N & H).
    destruct (chunk_unique L pre s post pre' s' post' (length (concat pre) + k)%nat E E' ltac:(lia) ltac:(lia)) as (<- & <-).
    destruct pre; [congruence|]. symmetry. apply Nat.ltb_lt. lia.
  - destruct pre as [|b pre]; [reflexivity|]. symmetry. apply Nat.ltb_ge. destruct (Nat.le_gt_cases order k) as [H|H]; [assumption|]. exfalso.
    assert (F : false = true); [|discriminate]. apply B. exists (b :: pre), s, post. split; [assumption|]. split; [discriminate|]. lia.
Qed.

Lemma x_chunk pre s post k : L = pre ++ s :: post -> (k < length s)%nat -> nth (length (concat pre) + k) x 0 = nth k s 0.
Proof.
  intros E K. unfold seg_values. rewrite E, concat_app. cbn [concat]. rewrite app_nth2 by lia. rewrite app_nth1 by lia. f_equal. lia.
Qed.
Lemma x_len : length x = length (concat L).
Proof. reflexivity. Qed.

Lemma select3_map (c : nat -> bool) (a b : list R) n : length a = n -> length b = n ->
  select3 (map c (seq 0 n)) a b = map (fun i => if c i then nth i a 0 else nth i b 0) (seq 0 n).
Proof.
  intros La Lb. unfold select3. rewrite (list_as_map a), (list_as_map b), La, Lb at 1.
  generalize (seq 0 n). intros l. induction l; [reflexivity|]. cbn. f_equal. exact IHl.
Qed.

Theorem segment_diff_incl : segment_diff x (Some ids) order false = concat (map (diff order false) L).
Proof.
  cbn [segment_diff]. unfold needs_fix. rewrite seg_len. rewrite select3_map; [|reflexivity|apply diff_length].
  rewrite x_len. rewrite <- (split_runs (fun i => if fixb i then nth i x 0 else nth i (diff order false x) 0) (fun _ => true) (diff order false) L 0).
  - f_equal. generalize (seq 0 (length (concat L))). intros l. induction l; [reflexivity|]. cbn. f_equal. assumption.
  - intros pre s post E. assert (FT : forall l : list nat, filter (fun _ => true) l = l) by (induction l; cbn; congruence). rewrite FT.
    rewrite (list_as_map (diff order false s)), diff_length.
    assert (SH : seq (0 + length (concat pre)) (length s) = map (fun k => (length (concat pre) + k)%nat) (seq 0 (length s))).
    { generalize (length s), (length (concat pre)). intros n o. cbn [Nat.add]. revert o. clear. intros o.
      assert (G : forall n a, seq (o + a) n = map (fun k => (o + k)%nat) (seq a n)); [|specialize (G n 0%nat); rewrite Nat.add_0_r in G; exact G].
      induction n0; intros a; [reflexivity|]. cbn. f_equal. rewrite <- IHn0. f_equal. lia. }
    rewrite SH, map_map. apply map_ext_in. intros k K. apply in_seq in K.
    rewrite (fixb_chunk pre s post k E ltac:(lia)). rewrite (x_chunk pre s post k E ltac:(lia)).
    rewrite diff_nth.
    2:{ rewrite x_len, E, concat_app. cbn [concat]. rewrite !app_length. lia. }
    rewrite diff_nth by lia. rewrite (x_chunk pre s post k E ltac:(lia)).
    destruct pre as [|b pre].
    + cbn [concat length Nat.add]. destruct (Nat.ltb_spec k order); [reflexivity|]. f_equal.
      rewrite <- (x_chunk [] s post (k - order) E ltac:(lia)). reflexivity.
    + destruct (Nat.ltb_spec k order); [reflexivity|].
      replace (Nat.ltb (length (concat (b :: pre)) + k) order) with false by (symmetry; apply Nat.ltb_ge; lia). f_equal.
      replace (length (concat (b :: pre)) + k - order)%nat with (length (concat (b :: pre)) + (k - order))%nat by lia. apply (x_chunk (b :: pre) s post); [assumption|lia].
Qed.

Lemma mask_map (f : nat -> R) (c : nat -> bool) l : boolean_mask (map f l) (map negb (map c l)) = map f (filter (fun i => negb (c i)) l).
Proof. unfold boolean_mask. induction l; [reflexivity|]. cbn. destruct (c a); cbn; [assumption|f_equal; assumption]. Qed.
Lemma skipn_seq k a n : skipn k (seq a n) = seq (a + k) (n - k).
Proof. revert a n. induction k; intros a n; [rewrite Nat.add_0_r, Nat.sub_0_r; reflexivity|]. destruct n; [reflexivity|]. cbn. rewrite IHk. f_equal. lia. Qed.
Lemma skipn_map' {A B} (f : A -> B) k l : skipn k (map f l) = map f (skipn k l).
Proof. revert l. induction k; intros l; [reflexivity|]. destruct l; [reflexivity|]. cbn. apply IHk. Qed.

Lemma diff_excl_map y : diff_excl order y = map (fun i => nth i y 0 - nth (i - order) y 0) (seq order (length y - order)).
Proof.
  apply nth_ext with (d := 0) (d' := 0); [rewrite diff_excl_length, map_length, seq_length; reflexivity|]. intros i H. rewrite diff_excl_length in H.
  rewrite diff_excl_nth by assumption.
  rewrite (nth_indep (map _ _) 0 ((fun i => nth i y 0 - nth (i - order) y 0) 0%nat)) by (rewrite map_length, seq_length; assumption).
  rewrite (map_nth (fun i => nth i y 0 - nth (i - order) y 0)), seq_nth by assumption. f_equal; f_equal; lia.
Qed.

Lemma seq_shift_gen o a n : seq (o + a) n = map (fun k => (o + k)%nat) (seq a n).
Proof. revert a. induction n; intros a; [reflexivity|]. cbn. f_equal. rewrite <- IHn. f_equal. lia. Qed.

Lemma filter_ge (P : nat -> bool) : forall n a, (forall k, In k (seq a n) -> P k = Nat.leb order k) -> (a <= order)%nat ->
  filter P (seq a n) = seq order (a + n - order).
Proof.
  induction n; intros a H LE; cbn [seq filter].
  - replace (a + 0 - order)%nat with 0%nat by lia. reflexivity.
  - rewrite H by (left; reflexivity). destruct (Nat.leb_spec order a).
    + assert (a = order) by lia. subst a. replace (order + S n - order)%nat with (S n) by lia. cbn. f_equal.
      assert (FA : forall l, (forall k, In k l -> P k = true) -> filter P l = l).
      { induction l; intros F; [reflexivity|]. cbn. rewrite F by (left; reflexivity). f_equal. apply IHl. intros; apply F; right; assumption. }
      apply FA. intros k K. rewrite H by (right; assumption). apply in_seq in K. apply Nat.leb_le. lia.
    + rewrite IHn; [f_equal; lia|intros; apply H; right; assumption|lia].
Qed.

Theorem segment_diff_exclusive : segment_diff x (Some ids) order true = concat (map (diff order true) L).
Proof.
  cbn [segment_diff]. unfold needs_fix. rewrite seg_len. rewrite skipn_map', skipn_seq. cbn [Nat.add].
  unfold diff at 1. rewrite diff_excl_map. rewrite mask_map.
  transitivity (map (fun i => nth i x 0 - nth (i - order) x 0) (filter (fun i => Nat.leb order i && negb (fixb i)) (seq 0 (length (concat L))))).
  - f_equal. rewrite x_len. fold fixb. set (n := length (concat L)). clearbody n.
    transitivity (filter (fun i => negb (fixb i)) (filter (fun i => Nat.leb order i) (seq 0 n))).
    + destruct (Nat.le_gt_cases order n).
      * rewrite (filter_ge (fun i => Nat.leb order i) n 0); [reflexivity|reflexivity|lia].
      * rewrite (filter_ge (fun i => Nat.leb order i) n 0); [reflexivity|reflexivity|lia].
    + generalize (seq 0 n). intros l. clear. induction l as [|a l IH]; [reflexivity|]. cbn [filter]. destruct (Nat.leb order a); cbn [andb filter]; rewrite IH; reflexivity.
  - apply (split_runs _ _ (diff order true) L 0). intros pre s post E. cbn [Nat.add]. unfold diff. rewrite diff_excl_map.
    assert (SH : seq (length (concat pre)) (length s) = map (fun k => (length (concat pre) + k)%nat) (seq 0 (length s))).
    { rewrite <- seq_shift_gen, Nat.add_0_r. reflexivity. }
    rewrite SH.
    assert (FM : forall (P : nat -> bool) (f : nat -> nat) l, filter P (map f l) = map f (filter (fun k => P (f k)) l)).
    { clear. intros P f. induction l; [reflexivity|]. cbn. destruct (P (f a)); cbn; [f_equal|]; assumption. }
    rewrite FM, map_map. rewrite (filter_ge (fun k => Nat.leb order (length (concat pre) + k) && negb (fixb (length (concat pre) + k))) (length s) 0); [|intros k K; apply in_seq in K|lia].
    + cbn [Nat.add]. apply map_ext_in. intros k K. apply in_seq in K. rewrite (x_chunk pre s post k E ltac:(lia)). f_equal.
      replace (length (concat pre) + k - order)%nat with (length (concat pre) + (k - order))%nat by lia. apply (x_chunk pre s post); [assumption|lia].
    + rewrite (fixb_chunk pre s post k E ltac:(lia)). destruct pre as [|b pre].
      * cbn [concat length Nat.add negb]. apply andb_true_r.
      * destruct (Nat.ltb_spec k order) as [Q1|Q1], (Nat.leb_spec order k) as [Q2|Q2]; try (exfalso; lia); cbn [negb].
        -- apply andb_false_r.
        -- rewrite andb_true_r. apply Nat.leb_le. lia.
Qed.
End Fix.

(** cumsum *)
Lemma scan_run (excl : bool) g r rids : forall v c pv, exists c' pv',
  scan_cumsum excl (c, g, pv) (v ++ r) (repeat g (length v) ++ rids) =
  cumsum_from (if excl then c + pv else c) excl v ++ scan_cumsum excl (c', g, pv') r rids.
Proof.
  induction v as [|a v IH]; intros c pv; [eexists _, _; reflexivity|]. cbn [app length repeat scan_cumsum]. rewrite Z.eqb_refl.
  destruct excl; cbn [cumsum_from app].
  - destruct (IH (c + pv) a) as (c' & pv' & E). exists c', pv'. rewrite E. reflexivity.
  - destruct (IH (c + a) a) as (c' & pv' & E). exists c', pv'. rewrite E. reflexivity.
Qed.
Lemma scan_runs (excl : bool) : forall sg c prev pv, runs sg -> match sg with [] => True | (g, _) :: _ => prev <> g end ->
  scan_cumsum excl (c, prev, pv) (seg_values sg) (seg_ids sg) = concat (map (cumsum excl) (map snd sg)).
Proof.
  induction sg as [|(g, v) sg IH]; intros c prev pv R N; [reflexivity|]. destruct R as (R1 & R2 & R3).
  unfold seg_values, seg_ids. cbn [map concat snd]. fold (seg_values sg) (seg_ids sg). destruct v as [|a v]; [congruence|].
  cbn [app length repeat scan_cumsum]. replace (Z.eqb prev g) with false by (symmetry; apply Z.eqb_neq; assumption).
  unfold cumsum at 1. destruct excl; cbn [cumsum_from app].
  - edestruct (scan_run true g (seg_values sg) (seg_ids sg) v 0 a) as (c' & pv' & E). rewrite E. f_equal. f_equal. apply IH; [assumption|]. destruct sg as [|(g', v')]; [trivial|congruence].
  - edestruct (scan_run false g (seg_values sg) (seg_ids sg) v a a) as (c' & pv' & E). rewrite E. rewrite Rplus_0_l. f_equal. f_equal. apply IH; [assumption|]. destruct sg as [|(g', v')]; [trivial|congruence].
Qed.
Theorem segment_cumsum_runs excl sg : runs sg -> segment_cumsum (seg_values sg) (Some (seg_ids sg)) excl = concat (map (cumsum excl) (map snd sg)).
Proof.
  intros R. unfold segment_cumsum. apply scan_runs; [assumption|]. destruct sg as [|(g, v) sg]; [trivial|].
  destruct R as (R1 & _). destruct v; [congruence|]. cbn. lia.
Qed.

(** round trips *)
Lemma cumsum_nth excl : forall x acc i, (i < length x)%nat ->
  nth i (cumsum_from acc excl x) 0 = acc + fold_right Rplus 0 (firstn (if excl then i else S i) x).
Proof.
  induction x as [|a x IH]; intros acc i H; [cbn in H; lia|]. cbn [cumsum_from]. destruct i.
  - destruct excl; cbn; lra.
  - cbn [nth]. cbn in H. rewrite IH by lia. destruct excl; cbn [firstn fold_right]; lra.
Qed.
Lemma cumsum_length excl x : forall acc, length (cumsum_from acc excl x) = length x.
Proof. induction x; intros; cbn; [reflexivity|]. f_equal. apply IHx. Qed.

Lemma diff1_cons a b x : diff 1 false (a :: b :: x) = a :: (b - a) :: tl (diff 1 false (b :: x)).
Proof. unfold diff, diff_excl. cbn. rewrite Nat.sub_0_r. reflexivity. Qed.
Lemma cumsum_diff : forall x, cumsum false (diff 1 false x) = x.
Proof.
  assert (G : forall x a acc, cumsum_from acc false (diff 1 false (a :: x)) = (acc + a) :: map (fun v => acc + v) x).
  { induction x as [|b x IH]; intros a acc; [cbn; reflexivity|]. rewrite diff1_cons. cbn [cumsum_from map]. f_equal.
    specialize (IH b (acc + a - a)). destruct (diff 1 false (b :: x)) as [|d ds] eqn:D; [discriminate D|].
    assert (d = b) by (unfold diff in D; cbn in D; congruence). subst d. cbn [cumsum_from] in IH. injection IH as IH. cbn [tl].
    f_equal; [lra|]. replace (acc + a + (b - a)) with (acc + a - a + b) by lra. rewrite IH. apply map_ext. intros. lra. }
  intros [|a x]; [reflexivity|]. unfold cumsum. rewrite G. rewrite Rplus_0_l. f_equal. rewrite <- (map_id x) at 2. apply map_ext. intros. lra.
Qed.
Lemma diff_cumsum x : diff 1 false (cumsum false x) = x.
Proof.
  apply nth_ext with (d := 0) (d' := 0); [rewrite diff_length; apply cumsum_length|]. intros i H. rewrite diff_length in H. unfold cumsum in *.
  rewrite cumsum_length in H. rewrite diff_nth by (rewrite cumsum_length; assumption). rewrite cumsum_nth by assumption. destruct i.
  - destruct x; cbn in *; [lia|lra].
  - cbn [Nat.ltb Nat.leb]. rewrite cumsum_nth by lia. replace (S i - 1)%nat with i by lia.
    assert (S1 : forall (l : list R) k, (k < length l)%nat -> fold_right Rplus 0 (firstn (S k) l) = fold_right Rplus 0 (firstn k l) + nth k l 0).
    { clear. induction l; intros k H; [cbn in H; lia|]. destruct k; [cbn; lra|]. cbn in H. cbn [firstn fold_right nth]. specialize (IHl k ltac:(lia)). cbn [firstn fold_right] in IHl. rewrite IHl. lra. }
    rewrite (S1 x (S i)) by assumption. lra.
Qed.
