(** Lemmas for tensors of dates. *)
From Coq Require Import ZArith List Bool Arith Lia ZifyBool.
From Verif Require Import ShapeModel ShapeProofs DateModel DateSpec BoundedCalModel UnboundedCalModel CalSetup DateTensorModel DateTensorSpec.
Import ListNotations.
Open Scope nat_scope.
Ltac Zify.zify_post_hook ::= Z.div_mod_to_equations.

(** * Indices *)
Lemma inside_length sh idx : inside sh idx -> length idx = length sh.
Proof. intros W. induction W; cbn; congruence. Qed.
Lemma inside_nth sh idx : inside sh idx <-> length idx = length sh /\ forall i, i < length sh -> nth i idx 0 < nth i sh 0.
Proof.
  split.
  - intros W. split; [exact (inside_length _ _ W)|]. induction W as [|a b idx sh L W IH]; intros i K; cbn in K; [lia|]. destruct i; cbn; [exact L|apply IH; lia].
  - revert idx. induction sh as [|n sh IH]; intros [|a idx] (L & H); cbn in L; try discriminate; [constructor|].
    constructor; [exact (H 0 ltac:(cbn; lia))|]. apply IH. split; [lia|]. intros i K. exact (H (S i) ltac:(cbn; lia)).
Qed.
Lemma inside_app a b i j : inside a i -> inside b j -> inside (a ++ b) (i ++ j).
Proof. apply Forall2_app. Qed.
Lemma inside_firstn k sh idx : inside sh idx -> inside (firstn k sh) (firstn k idx).
Proof. intros W. revert k. induction W as [|a b idx sh L W IH]; intros [|k]; cbn; try constructor; auto; try apply IH. Qed.
Lemma inside_skipn k sh idx : inside sh idx -> inside (skipn k sh) (skipn k idx).
Proof. intros W. revert k. induction W as [|a b idx sh L W IH]; intros [|k]; cbn; try constructor; auto; try apply IH. Qed.
Lemma inside_volume sh idx : inside sh idx -> 0 < volume sh.
Proof. intros W. induction W as [|i n idx sh L W IH]; [cbn; lia|]. change (volume (n :: sh)) with (n * volume sh). nia. Qed.
Lemma ravel_lt sh idx : inside sh idx -> ravel sh idx < volume sh.
Proof. intros W. induction W as [|i n idx sh L W IH]; [cbn; lia|]. change (volume (n :: sh)) with (n * volume sh). cbn [ravel]. nia. Qed.
Lemma ravel_inj sh a b : inside sh a -> inside sh b -> ravel sh a = ravel sh b -> a = b.
Proof.
  intros W. revert b. induction W as [|i n a sh L W IH]; intros b WB E.
  - inversion WB; reflexivity.
  - inversion WB as [|i' n' b' sh' L' WB' E1 E2]; subst. cbn [ravel] in E.
    pose proof (ravel_lt sh a W). pose proof (ravel_lt sh b' WB').
    assert (i = i') by nia. subst i'. f_equal. apply IH; [assumption|lia].
Qed.
Lemma unravel_ok sh k : k < volume sh -> inside sh (unravel sh k) /\ ravel sh (unravel sh k) = k.
Proof.
  revert k. induction sh as [|n sh IH]; intros k K.
  - cbn in *. split; [constructor|lia].
  - change (volume (n :: sh)) with (n * volume sh) in K. assert (P : volume sh <> 0) by nia. destruct (IH (k mod volume sh) (Nat.mod_upper_bound _ _ P)) as (W & E).
    cbn [unravel ravel]. rewrite E. split.
    + constructor; [apply Nat.div_lt_upper_bound; nia|exact W].
    + pose proof (Nat.div_mod k (volume sh) P). lia.
Qed.
Lemma unravel_ravel sh idx : inside sh idx -> unravel sh (ravel sh idx) = idx.
Proof. intros W. pose proof (unravel_ok sh _ (ravel_lt sh idx W)) as (A & B). exact (ravel_inj _ _ _ A W B). Qed.

Lemma axis_bound a n k : axis_of a n = Some k -> k < n.
Proof.
  unfold axis_of. destruct ((0 <=? a) && (a <? Z.of_nat n))%Z eqn:E; [intros [= <-]; lia|].
  destruct ((- Z.of_nat n <=? a) && (a <? 0))%Z eqn:F; [intros [= <-]; lia|discriminate].
Qed.

(** * Every operation reads inside its argument *)
Lemma insert_inside k n sh idx : k <= length sh -> inside (insert_at k n sh) idx -> nth k idx 0 < n /\ inside sh (remove_at k idx).
Proof.
  intros K W. pose proof (inside_firstn k _ _ W) as A. pose proof (inside_skipn k _ _ W) as B. unfold insert_at in A, B.
  assert (L : length (firstn k sh) = k) by (rewrite firstn_length; lia).
  rewrite firstn_app, L, Nat.sub_diag, app_nil_r, firstn_firstn, Nat.min_id in A.
  rewrite skipn_app, L, Nat.sub_diag, skipn_all2, app_nil_l in B by lia. cbn [skipn] in B.
  assert (S1 : skipn (S k) idx = tl (skipn k idx)).
  { clear. revert idx. induction k as [|k IH]; intros [|a idx]; try reflexivity. cbn [skipn]. rewrite <- IH. reflexivity. }
  assert (S0 : nth k idx 0 = hd 0 (skipn k idx)).
  { clear. revert idx. induction k as [|k IH]; intros [|a idx]; try reflexivity. cbn [skipn nth]. apply IH. }
  unfold remove_at. rewrite S1, S0. inversion B as [|a b r s La Wr E1 E2]; subst. cbn [tl hd]. split; [exact La|].
  rewrite <- (firstn_skipn k sh) at 1. apply inside_app; assumption.
Qed.
Lemma project_inside sh target idx : broadcasts_rev (rev sh) (rev target) = true -> inside target idx -> inside sh (project sh idx).
Proof.
  intros B W. apply broadcasts_rev_iff in B. apply brev_nth in B as (L & H). rewrite !rev_length in *.
  pose proof (inside_length _ _ W) as LI. apply inside_nth in W as (_ & W).
  assert (LP : length (skipn (length idx - length sh) idx) = length sh) by (rewrite skipn_length; lia).
  apply inside_nth. unfold project. rewrite map_length, combine_length, LP, Nat.min_id. split; [reflexivity|]. intros i K.
  pose (f := fun x : nat * nat => let '(d, i) := x in if Nat.eqb d 1 then 0 else i).
  change (map _ (combine sh (skipn (length idx - length sh) idx))) with (map f (combine sh (skipn (length idx - length sh) idx))).
  rewrite (nth_indep _ 0 (f (0, 0))) by (rewrite map_length, combine_length; lia).
  rewrite (map_nth f), combine_nth by lia. unfold f. clear f.
  destruct (Nat.eqb_spec (nth i sh 0) 1) as [E|E]; [lia|].
  assert (N : nth i (skipn (length idx - length sh) idx) 0 = nth (length idx - length sh + i) idx 0).
  { clear. generalize (length idx - length sh) as k. intros k. revert idx. induction k as [|k IH]; intros idx; [reflexivity|]. destruct idx; [destruct i; reflexivity|]. apply IH. }
  rewrite N. specialize (H (length sh - 1 - i) ltac:(lia)).
  rewrite !rev_nth in H by lia. replace (length sh - S (length sh - 1 - i)) with i in H by lia.
  replace (length target - S (length sh - 1 - i)) with (length idx - length sh + i) in H by lia.
  destruct H as [H|H]; [|lia]. rewrite H. apply W. lia.
Qed.
Lemma position_ok a l : existsb (Nat.eqb a) l = true -> position a l < length l /\ nth (position a l) l 0 = a.
Proof.
  induction l as [|x l IH]; cbn; [discriminate|]. intros H. rewrite (Nat.eqb_sym x a). destruct (Nat.eqb_spec a x) as [E|E]; cbn in H.
  - split; [lia|congruence].
  - destruct (IH H). split; [lia|assumption].
Qed.
Lemma transpose_inside perm sh p idx : transpose perm sh = Some p -> inside (fst p) idx -> inside sh (snd p idx).
Proof.
  unfold transpose. set (q := match perm with None => rev (seq 0 (length sh)) | Some p => p end). clearbody q.
  destruct (Nat.eqb (length q) (length sh) && forallb (fun a => existsb (Nat.eqb a) q) (seq 0 (length sh))) eqn:E; [|discriminate].
  intros [= <-]. cbn [fst snd]. intros W. apply andb_prop in E as (L & F). rewrite forallb_forall in F. apply inside_nth in W as (LI & W). rewrite map_length in LI, W.
  apply inside_nth. rewrite map_length, seq_length. split; [reflexivity|]. intros i K.
  pose proof (F i ltac:(apply in_seq; lia)) as (P1 & P2)%position_ok.
  rewrite (nth_indep _ 0 ((fun a => nth (position a q) idx 0) 0)) by (rewrite map_length, seq_length; lia).
  rewrite (map_nth (fun a => nth (position a q) idx 0)), seq_nth by lia. cbn [Nat.add].
  specialize (W _ P1). rewrite (nth_indep (map _ _) 0 ((fun p => nth p sh 0) 0)) in W by (rewrite map_length; lia). rewrite (map_nth (fun p => nth p sh 0)), P2 in W. exact W.
Qed.
Lemma squeeze_inside drop : forall sh idx, length drop = length sh -> (forall i, i < length sh -> nth i drop false = true -> nth i sh 0 = 1) ->
  inside (fst (squeeze_from drop sh)) idx -> inside sh (snd (squeeze_from drop sh) idx).
Proof.
  induction drop as [|b drop IH]; intros [|d sh] idx L H; cbn in L; try discriminate; cbn [squeeze_from].
  - cbn. intros _. constructor.
  - specialize (IH sh). destruct (squeeze_from drop sh) as (s, g) eqn:E. cbn [fst snd] in IH.
    assert (H' : forall i, i < length sh -> nth i drop false = true -> nth i sh 0 = 1) by (intros i K; exact (H (S i) ltac:(cbn; lia))).
    destruct b; cbn [fst snd].
    + intros W. pose proof (H 0 ltac:(cbn; lia) eq_refl) as D. cbn in D. constructor; [lia|]. apply IH; [lia|exact H'|exact W].
    + intros W. inversion W as [|i n r s' Li Wr E1 E2]; subst. constructor; [exact Li|]. apply IH; [lia|exact H'|exact Wr].
Qed.
Lemma map_opt_in {A B} (f : A -> option B) l r : map_opt f l = Some r -> forall y, In y r -> exists x, In x l /\ f x = Some y.
Proof.
  revert r. induction l as [|a l IH]; intros r; cbn.
  - intros [= <-] y [].
  - destruct (f a) eqn:E; [|discriminate]. destruct (map_opt f l) eqn:F; [|discriminate]. intros [= <-] y [<-|Y]; [exists a; auto|].
    destruct (IH _ eq_refl y Y) as (x & X1 & X2). exists x. auto.
Qed.
Lemma squeeze_plan_inside axes sh p idx : squeeze axes sh = Some p -> inside (fst p) idx -> inside sh (snd p idx).
Proof.
  unfold squeeze. destruct axes as [axes|].
  - destruct (map_opt (fun a => axis_of a (length sh)) axes) as [ks|] eqn:M; [|discriminate].
    destruct (forallb (fun k => Nat.eqb (nth k sh 0) 1) ks) eqn:F; [|discriminate]. intros [= <-]. rewrite forallb_forall in F.
    apply squeeze_inside; [rewrite map_length, seq_length; reflexivity|]. intros i K. rewrite (nth_indep _ false (existsb (Nat.eqb 0) ks)) by (rewrite map_length, seq_length; lia).
    rewrite (map_nth (fun k => existsb (Nat.eqb k) ks)), seq_nth by lia. cbn [Nat.add]. intros X. apply existsb_exists in X as (k & Hk & Ek). apply Nat.eqb_eq in Ek. subst k.
    apply Nat.eqb_eq. exact (F _ Hk).
  - intros [= <-]. apply squeeze_inside; [apply map_length|]. intros i K. rewrite (nth_indep _ false (Nat.eqb 1 0)) by (rewrite map_length; lia).
    rewrite (map_nth (Nat.eqb 1)). intros X. apply Nat.eqb_eq in X. congruence.
Qed.
Lemma mask_inside mask axis sh p idx : boolean_mask mask axis sh = Some p -> inside (fst p) idx -> inside sh (snd p idx).
Proof.
  unfold boolean_mask. set (k := match axis with None => 0 | Some a => a end). clearbody k. set (ms := tshape mask).
  destruct (Nat.eqb_spec (length ms) 0) as [Z|Z]; [discriminate|].
  destruct (list_eq_dec Nat.eq_dec (firstn (length ms) (skipn k sh)) ms) as [E|E]; [|discriminate]. cbn [negb].
  set (kept := filter (fun j => entry mask (unravel ms j)) (seq 0 (volume ms))). intros [= <-]. cbn [fst snd]. intros W.
  assert (K : k < length sh).
  { apply (f_equal (@length nat)) in E. rewrite firstn_length, skipn_length in E. lia. }
  assert (D : sh = firstn k sh ++ ms ++ skipn (k + length ms) sh).
  { transitivity (firstn k sh ++ skipn k sh); [symmetry; apply firstn_skipn|]. f_equal. rewrite <- (firstn_skipn (length ms) (skipn k sh)) at 1. rewrite E. f_equal.
    clear. revert sh. induction k as [|k IH]; intros sh; [reflexivity|]. destruct sh; [cbn; rewrite skipn_nil; reflexivity|]. apply IH. }
  assert (I : inside (insert_at k (length kept) (firstn k sh ++ skipn (k + length ms) sh)) idx).
  { unfold insert_at. rewrite firstn_app, skipn_app, firstn_firstn, Nat.min_id, firstn_length, Nat.min_l by lia. rewrite Nat.sub_diag. cbn [firstn skipn].
    rewrite app_nil_r, skipn_all2 by (rewrite firstn_length; lia). exact W. }
  apply insert_inside in I as (I1 & _); [|rewrite app_length, firstn_length; lia].
  rewrite D at 1. apply inside_app; [|apply inside_app].
  - pose proof (inside_firstn k _ _ W) as A. rewrite firstn_app, firstn_firstn, Nat.min_id, firstn_length, Nat.min_l in A by lia. rewrite Nat.sub_diag in A. cbn [firstn] in A. rewrite app_nil_r in A. exact A.
  - apply unravel_ok. assert (In (nth (nth k idx 0) kept 0) kept) as H by (apply nth_In; exact I1). apply filter_In in H as (H & _). apply in_seq in H. lia.
  - pose proof (inside_skipn (S k) _ _ W) as A. rewrite skipn_app, firstn_length, Nat.min_l in A by lia. rewrite skipn_all2 in A by (rewrite firstn_length; lia).
    replace (S k - k) with 1 in A by lia. exact A.
Qed.
Lemma slice_inside a b c d first n step : slice_bounds a b c d = Some (first, n, step) -> forall i, i < n -> (0 <= first + Z.of_nat i * step < Z.of_nat d)%Z.
Proof.
  unfold slice_bounds. set (st := match c with None => 1%Z | Some s => s end). clearbody st. destruct (Z.eqb_spec st 0) as [E|E]; [discriminate|].
  destruct (Z.ltb_spec 0 st) as [P|P].
  - set (f := match a with None => _ | Some _ => _ end). set (l := match b with None => _ | Some _ => _ end).
    assert (F : (0 <= f)%Z) by (unfold f; destruct a as [v|]; [destruct (Z.ltb_spec v 0)|]; lia).
    assert (L : (l <= Z.of_nat d)%Z) by (unfold l; destruct b as [v|]; [destruct (Z.ltb_spec v 0)|]; lia).
    clearbody f l. intros [= <- <- <-] i I.
    assert (Q : (Z.of_nat i + 1 <= (l - f + st - 1) / st)%Z) by lia.
    assert (M : (st * ((l - f + st - 1) / st) <= l - f + st - 1)%Z) by (apply Z.mul_div_le; lia). nia.
  - set (f := match a with None => _ | Some _ => _ end). set (l := match b with None => _ | Some _ => _ end).
    assert (F : (f <= Z.of_nat d - 1)%Z) by (unfold f; destruct a as [v|]; [destruct (Z.ltb_spec v 0)|]; lia).
    assert (L : (-1 <= l)%Z) by (unfold l; destruct b as [v|]; [destruct (Z.ltb_spec v 0)|]; lia).
    clearbody f l. intros [= <- <- <-] i I.
    assert (Q : (Z.of_nat i + 1 <= (f - l - st - 1) / - st)%Z) by lia.
    assert (M : (- st * ((f - l - st - 1) / - st) <= f - l - st - 1)%Z) by (apply Z.mul_div_le; lia). nia.
Qed.
Lemma index_inside : forall keys sh p idx, index_plan keys sh = Some p -> inside (fst p) idx -> inside sh (snd p idx).
Proof.
  induction keys as [|k keys IH]; intros sh p idx; cbn [index_plan].
  - destruct sh; [|discriminate]. intros [= <-] _. constructor.
  - destruct k as [i|a b c| |]; [| | |discriminate].
    + destruct sh as [|d sh]; [discriminate|]. destruct (axis_of i d) as [j|] eqn:E; [|discriminate]. destruct (index_plan keys sh) as [(s, g)|] eqn:F; [|discriminate].
      intros [= <-] W. cbn [fst snd] in *. constructor; [exact (axis_bound _ _ _ E)|exact (IH _ _ _ F W)].
    + destruct sh as [|d sh]; [discriminate|]. destruct (slice_bounds a b c d) as [((f, n), st)|] eqn:E; [|discriminate]. destruct (index_plan keys sh) as [(s, g)|] eqn:F; [|discriminate].
      intros [= <-] W. cbn [fst snd] in *. inversion W as [|i m r s' Li Wr E1 E2]; subst. pose proof (slice_inside _ _ _ _ _ _ _ E i Li). constructor; [lia|exact (IH _ _ _ F Wr)].
    + destruct (index_plan keys sh) as [(s, g)|] eqn:F; [|discriminate]. intros [= <-] W. cbn [fst snd] in *. inversion W as [|i m r s' Li Wr E1 E2]; subst. exact (IH _ _ _ F Wr).
Qed.
Lemma plan_inside u sh p idx : unary_plan u sh = Some p -> inside (fst p) idx -> inside sh (snd p idx).
Proof.
  destruct u as [a|s| |s|q|a|m a|ks]; cbn [unary_plan].
  - unfold expand_dims. destruct (axis_of a (S (length sh))) as [k|] eqn:E; [|discriminate]. intros [= <-]. cbn [fst snd]. apply axis_bound in E. intros W.
    exact (proj2 (insert_inside k 1 sh idx ltac:(lia) W)).
  - unfold reshape. destruct (negb (forallb (fun d => (-1 <=? d)%Z) s)); [discriminate|]. set (missing := match length (filter (Z.eqb (-1)) s) with O => _ | S _ => _ end). clearbody missing.
    destruct missing as [m|]; [|discriminate]. set (new := map _ s). clearbody new. destruct (Nat.eqb_spec (volume new) (volume sh)) as [E|E]; [|discriminate].
    intros [= <-]. cbn [fst snd]. intros W. apply unravel_ok. rewrite <- E. exact (ravel_lt _ _ W).
  - intros [= <-]. cbn. auto.
  - unfold broadcast_plan. destruct (broadcasts_rev (rev sh) (rev s)) eqn:E; [|discriminate]. intros [= <-]. cbn [fst snd]. apply project_inside. exact E.
  - apply transpose_inside.
  - apply squeeze_plan_inside.
  - apply mask_inside.
  - unfold getitem. destruct (Nat.ltb (length sh) (length (filter consumes ks))); [discriminate|]. apply index_inside.
Qed.

Lemma locate_ok sizes i : i < fold_right Nat.add 0 sizes -> fst (locate sizes i) < length sizes /\ snd (locate sizes i) < nth (fst (locate sizes i)) sizes 0.
Proof.
  revert i. induction sizes as [|n sizes IH]; intros i I; cbn in I; [lia|]. cbn [locate]. destruct (Nat.ltb_spec i n) as [L|L]; [cbn; lia|].
  specialize (IH (i - n) ltac:(lia)). destruct (locate sizes (i - n)) as (k, j). cbn in *. lia.
Qed.
Lemma firstn_eq_remove {A} a (s t : list A) : a <= length s -> a <= length t -> remove_at a s = remove_at a t -> firstn a s = firstn a t /\ skipn (S a) s = skipn (S a) t.
Proof.
  unfold remove_at. intros L M E. split.
  - apply (f_equal (firstn a)) in E. rewrite !firstn_app, !firstn_firstn, !firstn_length, Nat.min_id, !Nat.min_l, Nat.sub_diag in E by lia. cbn [firstn] in E. rewrite !app_nil_r in E. exact E.
  - apply (f_equal (skipn a)) in E. rewrite !skipn_app, !firstn_length, !Nat.min_l, Nat.sub_diag in E by lia. cbn [skipn] in E. rewrite !skipn_all2 in E by (rewrite firstn_length; lia). exact E.
Qed.
Lemma split_at {A} a (d : A) s : a < length s -> s = firstn a s ++ nth a s d :: skipn (S a) s.
Proof. revert s. induction a as [|a IH]; intros [|x s] L; cbn in L; try lia; [reflexivity|]. cbn [firstn nth skipn app]. f_equal. apply IH. lia. Qed.
Lemma join_inside n shs j idx : nary_join n shs = Some j -> inside (fst j) idx -> fst (snd j idx) < length shs /\ inside (nth (fst (snd j idx)) shs []) (snd (snd j idx)).
Proof.
  destruct n as [a|a|c]; cbn [nary_join].
  - unfold concat_join. destruct shs as [|sh r]; [discriminate|]. destruct (axis_of a (length sh)) as [k|] eqn:E; [|discriminate]. apply axis_bound in E.
    set (shs := sh :: r). clearbody shs. clear r. match goal with |- (if ?b then _ else _) = _ -> _ => destruct b eqn:F; [|discriminate] end. rewrite forallb_forall in F. intros [= <-]. cbn [fst snd].
    intros W. set (sizes := map (fun s => nth k s 0) shs) in *.
    assert (I : nth k idx 0 < fold_right Nat.add 0 sizes /\ inside (remove_at k sh) (remove_at k idx)).
    { apply insert_inside; [unfold remove_at; rewrite app_length, firstn_length; lia|]. unfold insert_at, remove_at.
      rewrite firstn_app, skipn_app, firstn_firstn, Nat.min_id, firstn_length, Nat.min_l by lia. rewrite Nat.sub_diag. cbn [firstn skipn].
      rewrite app_nil_r. rewrite (skipn_all2 (firstn k sh)) by (rewrite firstn_length; lia). exact W. }
    destruct I as (I1 & I2). apply locate_ok in I1. destruct (locate sizes (nth k idx 0)) as (q, i). cbn [fst snd] in *.
    unfold sizes in I1 at 1. rewrite map_length in I1. destruct I1 as (Q & R1). split; [exact Q|].
    assert (QS : In (nth q shs []) shs) by (apply nth_In; exact Q). specialize (F _ QS). apply andb_prop in F as (F1 & F2). apply Nat.eqb_eq in F1.
    destruct (list_eq_dec Nat.eq_dec (remove_at k (nth q shs [])) (remove_at k sh)) as [F3|]; [|discriminate F2].
    apply firstn_eq_remove in F3 as (F3 & F4); [|lia|lia]. rewrite (split_at k 0 (nth q shs [])) by lia. rewrite F3, F4.
    pose proof (inside_firstn k _ _ W) as A. pose proof (inside_skipn (S k) _ _ W) as B.
    rewrite firstn_app, firstn_firstn, Nat.min_id, firstn_length, Nat.min_l in A by lia. rewrite Nat.sub_diag in A. cbn [firstn] in A. rewrite app_nil_r in A.
    rewrite skipn_app, firstn_length, Nat.min_l in B by lia. rewrite skipn_all2 in B by (rewrite firstn_length; lia). replace (S k - k) with 1 in B by lia. cbn [app] in B. change (skipn 1 (?x :: ?y)) with y in B.
    apply inside_app; [exact A|]. constructor; [|exact B].
    unfold sizes in R1. rewrite (nth_indep _ 0 ((fun s => nth k s 0) [])) in R1 by (rewrite map_length; exact Q). rewrite (map_nth (fun s => nth k s 0)) in R1. exact R1.
  - unfold stack_join. destruct shs as [|sh r]; [discriminate|]. destruct (axis_of a (S (length sh))) as [k|] eqn:E; [|discriminate]. apply axis_bound in E.
    set (shs := sh :: r). clearbody shs. clear r. match goal with |- (if ?b then _ else _) = _ -> _ => destruct b eqn:F; [|discriminate] end. rewrite forallb_forall in F. intros [= <-]. cbn [fst snd]. intros W.
    apply insert_inside in W as (W1 & W2); [|lia]. split; [exact W1|].
    assert (QS : In (nth (nth k idx 0) shs []) shs) by (apply nth_In; exact W1). specialize (F _ QS). cbn beta in F.
    destruct (list_eq_dec Nat.eq_dec (nth (nth k idx 0) shs []) sh) as [F3|]; [|discriminate F]. rewrite F3. exact W2.
  - unfold where_join. destruct shs as [|s1 [|s2 [|]]]; try discriminate. destruct (common_shape [tshape c; s1; s2]) as [sh|] eqn:E; [|discriminate]. intros [= <-]. cbn [fst snd]. intros W.
    apply common_spec in E as (E & _).
    destruct (entry c (project (tshape c) idx)); cbn [fst snd nth length]; (split; [lia|]); apply project_inside with sh; try exact W; apply broadcasts_rev_iff; apply E; cbn; auto.
Qed.

(** * Tensors of dates *)
Lemma unary_same {A B} (f : A -> B) u (t : tensor B) (T : tensor A) : same t (tmap f T) -> both (fun t' T' => same t' (tmap f T')) (unary_op u t) (unary_op u T).
Proof.
  intros (S & E). cbn [tshape tmap] in S. unfold unary_op. rewrite S. destruct (unary_plan u (tshape T)) as [p|] eqn:P; cbn; [|exact I].
  split; [reflexivity|]. cbn. intros idx W. rewrite E; [reflexivity|]. rewrite S. exact (plan_inside _ _ _ _ P W).
Qed.
Lemma nary_same {A B} (f : A -> B) n (ts : list (tensor B)) (Ts : list (tensor A)) : Forall2 (fun t T => same t (tmap f T)) ts Ts -> both (fun t' T' => same t' (tmap f T')) (nary_op n ts) (nary_op n Ts).
Proof.
  intros F. assert (SH : map tshape ts = map tshape Ts).
  { clear n. induction F as [|t T ts Ts (S & _) F IH]; [reflexivity|]. cbn. f_equal; [exact S|exact IH]. }
  unfold nary_op. destruct F as [|t T ts Ts H F]; [exact I|]. rewrite SH.
  assert (F' : Forall2 (fun t T => same t (tmap f T)) (t :: ts) (T :: Ts)) by (constructor; assumption).
  remember (t :: ts) as tl eqn:E1. remember (T :: Ts) as Tl eqn:E2. clear E1 E2.
  destruct (nary_join n (map tshape Tl)) as [j|] eqn:P; cbn; [|exact I]. split; [reflexivity|]. cbn. intros idx W.
  pose proof (join_inside _ _ _ _ P W) as (Q & V). destruct (snd j idx) as (k, i). cbn [fst snd] in *. rewrite map_length in Q.
  rewrite (nth_indep _ [] (tshape T)) in V by (rewrite map_length; exact Q). rewrite map_nth in V. clear P W SH.
  revert k Q V. induction F' as [|a b l m (S1 & S2) F' IH]; intros k Q V; cbn in Q; [lia|]. destruct k as [|k].
  - cbn in *. rewrite S2; [reflexivity|]. rewrite S1. exact V.
  - cbn [nth] in *. apply IH; [lia|exact V].
Qed.
