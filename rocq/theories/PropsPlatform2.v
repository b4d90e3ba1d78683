(** C93, continued: past fixings, the curves of a batch and the interpolated
    curves. *)
From Coq Require Import String Reals QArith Qreals ZArith List Bool Lia Lra ZifyBool Sorted Permutation.
From Verif Require Import DateModel DateSpec DateRepr DateProofs DateProofs2 PropsDateAux PropsDate CalSpec BoundedCalModel UnboundedCalModel CalSetup CalProofs CalModified BoundedCalProofs UnboundedCalProofs PropsCalAux PropsCal DayCountModel.
From Verif Require Import TensorModel InterpModel IntegrateModel SegmentModel ScheduleModel ScheduleSpec ScheduleProofs ScheduleProofs2 RatesModel InstrumentModel InstrumentSpec InstrumentProofs PropsInstrument PropsInstrument2 CmsProofs PropsLinear CubicSpec PropsCubic PropsConstFwd PlatformModel PlatformSpec PlatformProofs PropsPlatform.
Import ListNotations.
Open Scope R_scope.

(** ** Past fixings *)
Lemma ssl_split l x d : nondecreasing l -> exists k, UnboundedCalModel.searchsorted_left (map ordinal l) x = Z.of_nat k /\ (k <= length l)%nat /\
  (forall j, (j < k)%nat -> (ordinal (nth j l d) < x)%Z) /\ (forall j, (k <= j < length l)%nat -> (x <= ordinal (nth j l d))%Z).
Proof.
  intros ST. induction ST as [|a l ST IH F]; [exists 0%nat; cbn; split; [reflexivity|split; [lia|split; intros; lia]]|]. destruct IH as (k & E & L & B & A). rewrite Forall_forall in F.
  cbn [map UnboundedCalModel.searchsorted_left]. rewrite E. destruct (ordinal a <? x)%Z eqn:Q.
  - exists (S k). split; [lia|]. split; [cbn; lia|]. split.
    + intros [|j] H; cbn [nth]; [lia|apply B; lia].
    + intros [|j] H; [lia|]. cbn [nth]. apply A. cbn in H. lia.
  - assert (k = 0%nat). { destruct k as [|k]; [reflexivity|]. specialize (B 0%nat ltac:(lia)). destruct l as [|b l]; [cbn in L; lia|]. specialize (F b (or_introl eq_refl)). cbn in B. lia. }
    subst k. exists 0%nat. split; [lia|]. split; [lia|]. split; [intros; lia|]. intros [|j] H; cbn [nth]; [lia|]. cbn in H. apply A. lia.
Qed.
(** The fixing looked up is the one that holds on that day. *)
Theorem C93_fixing f d : nondecreasing (f_dates f) -> f_dates f <> [] -> length (f_rates f) = length (f_dates f) -> fixing_on (f_dates f) (f_rates f) d (fixing_at f d).
Proof.
  intros ST NE L. destruct (ssl_split (f_dates f) (ordinal d) d ST) as (k & E & LK & B & A).
  assert (N0 : (0 < length (f_dates f))%nat) by (destruct (f_dates f); [contradiction|cbn; lia]).
  unfold fixing_at. rewrite E. set (n := length (f_dates f)) in *. replace (Z.to_nat (Z.min (Z.max (Z.of_nat k) 0) (Z.of_nat n - 1))) with (Nat.min k (n - 1)) by lia.
  exists (Nat.min k (n - 1)). split; [fold n; lia|]. split; [apply nth_error_nth'; lia|]. split; [intros j J; apply B; lia|].
  destruct (Nat.lt_ge_cases k n) as [H|H]; [left; apply A; lia|right; fold n; lia].
Qed.
(** The coupon whose fixing is looked up is the one the valuation date is in. *)
Theorem C93_fixing_period valuation l : nondecreasing l -> (ordinal (hd valuation l) < ordinal valuation)%Z -> (ordinal valuation <= ordinal (last l valuation))%Z ->
  exists i, fixing_period valuation l = (nth i l valuation, nth (S i) l valuation) /\ (S i < length l)%nat /\
    (ordinal (nth i l valuation) < ordinal valuation <= ordinal (nth (S i) l valuation))%Z.
Proof.
  intros ST H1 H2. destruct l as [|a l]; [cbn in *; lia|]. cbn [hd] in H1. destruct (exists_last (l := a :: l) ltac:(discriminate)) as (m & z & E). rewrite E in *. rewrite last_last in H2.
  destruct m as [|a' m]; [cbn in E; injection E as -> ->; lia|]. assert (a' = a) by (cbn in E; congruence). subst a'.
  assert (SM : nondecreasing (a :: m)).
  { clear - ST. revert ST. generalize (a :: m) as u. induction u as [|x u IH]; intros H; [constructor|]. cbn in H. inversion H as [|? ? H' F]; subst. constructor; [exact (IH H')|]. rewrite Forall_forall in F |- *. intros y J. apply F. apply in_or_app. left. exact J. }
  destruct (ssl_split (a :: m) (ordinal valuation) valuation SM) as (k & EK & LK & B & A).
  unfold fixing_period. rewrite removelast_last, EK. assert (K0 : (0 < k)%nat). { destruct k; [|lia]. specialize (A 0%nat ltac:(cbn; lia)). cbn in A. lia. }
  replace (Z.to_nat (Z.max (Z.of_nat k - 1) 0)) with (k - 1)%nat by lia. exists (k - 1)%nat.
  assert (LL : length ((a :: m) ++ [z]) = S (length (a :: m))) by (rewrite app_length; cbn; lia).
  assert (N1 : nth (k - 1) ((a :: m) ++ [z]) valuation = nth (k - 1) (a :: m) valuation) by (apply app_nth1; lia).
  replace (nth (k - 1) (tl ((a :: m) ++ [z])) valuation) with (nth (S (k - 1)) ((a :: m) ++ [z]) valuation) by reflexivity. rewrite N1. split; [reflexivity|]. split; [lia|]. split; [apply B; lia|].
  replace (S (k - 1)) with k by lia. destruct (Nat.lt_ge_cases k (length (a :: m))) as [H|H].
  - rewrite app_nth1 by exact H. apply A. lia.
  - rewrite app_nth2 by exact H. replace (k - length (a :: m))%nat with 0%nat by lia. exact H2.
Qed.

(** ** The curves of a batch *)
(** Every contract keeps its own curve type (up to its name); the same name is
    asked for once. *)
Lemma insert_unique_in x y l : In y (insert_unique x l) <-> y = x \/ In y l.
Proof.
  induction l as [|z l IH]; cbn [insert_unique]; [cbn; intuition|]. destruct (String.compare x z) eqn:C.
  - apply String.compare_eq_iff in C. subst z. cbn. intuition.
  - cbn. intuition.
  - cbn. rewrite IH. intuition.
Qed.
Lemma np_unique_in y l : In y (np_unique l) <-> In y l.
Proof. induction l as [|x l IH]; [cbn; intuition|]. unfold np_unique in *. cbn [fold_right]. rewrite insert_unique_in, IH. cbn. intuition. Qed.
Lemma string_compare_lt_trans x y z : String.compare x y = Lt -> String.compare y z = Lt -> String.compare x z = Lt.
Proof.
  revert y z. induction x as [|a x IH]; intros [|b y] [|c z]; cbn; try discriminate; try reflexivity.
  unfold Ascii.compare. destruct (N.compare (Ascii.N_of_ascii a) (Ascii.N_of_ascii b)) eqn:C1; try discriminate.
  - apply N.compare_eq in C1. rewrite C1. destruct (N.compare (Ascii.N_of_ascii b) (Ascii.N_of_ascii c)); try discriminate; [apply IH|reflexivity].
  - intros _. destruct (N.compare (Ascii.N_of_ascii b) (Ascii.N_of_ascii c)) eqn:C2; try discriminate.
    + apply N.compare_eq in C2. rewrite <- C2, C1. reflexivity.
    + intros _. apply N.compare_lt_iff in C1, C2. replace (N.compare (Ascii.N_of_ascii a) (Ascii.N_of_ascii c)) with Lt; [reflexivity|]. symmetry. apply N.compare_lt_iff. exact (N.lt_trans _ _ _ C1 C2).
Qed.
Lemma np_unique_sorted l : StronglySorted (fun x y => String.compare x y = Lt) (np_unique l).
Proof.
  induction l as [|x l IH]; [constructor|]. unfold np_unique in *. cbn [fold_right]. revert IH. generalize (fold_right insert_unique [] l) as u. intros u S. clear l.
  induction S as [|z u S IH F]; cbn [insert_unique]; [repeat constructor|]. rewrite Forall_forall in F. destruct (String.compare x z) eqn:C.
  - constructor; [exact S|apply Forall_forall; exact F].
  - constructor; [constructor; [exact S|apply Forall_forall; exact F]|]. apply Forall_forall. intros y [<-|J]; [exact C|]. exact (string_compare_lt_trans x z y C (F y J)).
  - constructor; [exact IH|]. apply Forall_forall. intros y J. apply insert_unique_in in J as [->|J]; [|exact (F y J)]. rewrite String.compare_antisym, C. reflexivity.
Qed.
Lemma index_of_nth x l : In x l -> nth_error l (index_of x l) = Some x.
Proof.
  induction l as [|y l IH]; [contradiction|]. intros J. cbn [index_of]. destruct (String.eqb x y) eqn:Q; [apply String.eqb_eq in Q; subst; reflexivity|].
  destruct J as [->|J]; [rewrite String.eqb_refl in Q; discriminate|]. exact (IH J).
Qed.
Theorem C93_mask curves : exists cs mask, process_curve_types curves None = Some (cs, mask) /\ length mask = length curves /\
  NoDup (map signature cs) /\ (forall c, In c cs -> In c curves) /\
  forall j c, nth_error curves j = Some c -> exists i c', nth_error mask j = Some i /\ nth_error cs i = Some c' /\ signature c' = signature c.
Proof.
  unfold process_curve_types. set (u := np_unique (map signature curves)).
  assert (LK : forall key, In key (map signature curves) -> exists c, lookup curves key = Some c /\ signature c = key /\ In c curves).
  { intros key J. unfold lookup. apply in_map_iff in J as (c & E & J). destruct (find (fun c0 => String.eqb (signature c0) key) (rev curves)) as [c'|] eqn:Q.
    - apply find_some in Q as (Q1 & Q2). exists c'. split; [reflexivity|]. split; [apply String.eqb_eq; exact Q2|]. apply in_rev. exact Q1.
    - exfalso. pose proof (find_none _ _ Q c (proj1 (in_rev curves c) J)) as H. cbv beta in H. rewrite E, String.eqb_refl in H. discriminate. }
  assert (M : exists cs, map_opt (lookup curves) u = Some cs /\ map signature cs = u /\ (forall c, In c cs -> In c curves)).
  { assert (SU : forall key, In key u -> In key (map signature curves)) by (intros key J; apply np_unique_in; exact J). clearbody u. induction u as [|key u IH].
    - exists []. repeat split. contradiction.
    - destruct IH as (cs & E & S & J); [intros k Jk; apply SU; right; exact Jk|]. destruct (LK key (SU key (or_introl eq_refl))) as (c & EC & SC & JC).
      exists (c :: cs). cbn [map_opt]. rewrite EC, E. split; [reflexivity|]. split; [cbn; rewrite S, SC; reflexivity|]. intros c' [<-|J']; [exact JC|exact (J c' J')]. }
  destruct M as (cs & E & S & J). exists cs, (map (fun h => index_of h u) (map signature curves)). rewrite E. split; [reflexivity|]. split; [rewrite !map_length; reflexivity|]. split; [|split; [exact J|]].
  - rewrite S. pose proof (np_unique_sorted (map signature curves)) as H. fold u in H. clearbody u. clear - H. induction H as [|x u S IH F]; constructor; [|exact IH]. intros Jx. rewrite Forall_forall in F. specialize (F x Jx).
    pose proof (String.compare_antisym x x) as A. rewrite F in A. discriminate.
  - intros j c Ej. exists (index_of (signature c) u). assert (JU : In (signature c) u) by (apply np_unique_in; apply in_map; exact (nth_error_In _ _ Ej)).
    pose proof (index_of_nth _ _ JU) as NI. rewrite <- S in NI at 1. rewrite nth_error_map in NI. destruct (nth_error cs (index_of (signature c) u)) as [c'|]; [|discriminate]. injection NI as NI. exists c'.
    split; [rewrite map_map; rewrite (map_nth_error (fun x => index_of (signature x) u) j curves Ej); reflexivity|]. split; [reflexivity|exact NI].
Qed.

(** ** Fixings of a batch with several indices *)
Lemma insert_perm x l : Permutation (x :: l) (insert_by x l).
Proof. induction l as [|y l IH]; cbn [insert_by]; [reflexivity|]. destruct (Nat.leb _ _); [reflexivity|]. rewrite perm_swap. constructor. exact IH. Qed.
Lemma sorted_perm l : Permutation l (fold_right insert_by [] l).
Proof. induction l as [|x l IH]; [constructor|]. cbn. rewrite <- insert_perm. constructor. exact IH. Qed.
Lemma insert_sorted l : StronglySorted (fun x y => (fst x <= fst y)%nat) (fold_right insert_by [] l).
Proof.
  induction l as [|x l IH]; [constructor|]. cbn [fold_right]. revert IH. generalize (fold_right insert_by [] l) as u. intros u ST. clear l.
  induction ST as [|z u ST IH F]; cbn [insert_by]; [repeat constructor|]. rewrite Forall_forall in F. destruct (Nat.leb (fst x) (fst z)) eqn:C.
  - apply Nat.leb_le in C. constructor; [constructor; [exact ST|apply Forall_forall; exact F]|]. apply Forall_forall. intros y [<-|J]; [exact C|]. specialize (F y J). lia.
  - apply Nat.leb_gt in C. constructor; [exact IH|]. apply Forall_forall. intros y J. apply (Permutation_in _ (Permutation_sym (insert_perm x u))) in J. destruct J as [<-|J]; [lia|exact (F y J)].
Qed.
(** sorting a permutation of 0, 1, ..., n - 1 *)
Lemma sorted_seq l : StronglySorted (fun x y : nat => (x <= y)%nat) l -> Permutation l (seq 0 (length l)) -> l = seq 0 (length l).
Proof.
  intros ST P. assert (ND : NoDup l) by (apply (Permutation_NoDup (Permutation_sym P)); apply seq_NoDup).
  assert (ST' : StronglySorted lt l).
  { clear P. induction ST as [|x l ST IH F]; constructor; [apply IH; inversion ND; assumption|]. rewrite Forall_forall in F |- *. intros y J. specialize (F y J). inversion ND as [|? ? NI _]; subst. assert (x <> y) by (intros ->; exact (NI J)). lia. }
  assert (H : forall l (a : nat), StronglySorted lt l -> Permutation l (seq a (length l)) -> l = seq a (length l)).
  { clear. induction l as [|x l IH]; intros a ST P; [reflexivity|]. inversion ST as [|? ? ST1 F]; subst. rewrite Forall_forall in F. cbn [length seq] in *.
    assert (x = a).
    { assert (JA : In a (x :: l)) by (apply (Permutation_in _ (Permutation_sym P)); left; reflexivity). assert (JX : In x (a :: seq (S a) (length l))) by (apply (Permutation_in _ P); left; reflexivity).
      destruct JA as [<-|JA]; [reflexivity|]. specialize (F a JA). destruct JX as [->|JX]; [reflexivity|]. apply in_seq in JX. lia. }
    subst x. f_equal. apply IH; [exact ST1|]. apply Permutation_cons_inv in P. exact P. }
  apply H; assumption.
Qed.
Lemma argsort_inverse l : Permutation l (seq 0 (length l)) -> forall j, (j < length l)%nat -> exists i, nth_error (argsort_nat l) j = Some i /\ nth_error l i = Some j.
Proof.
  intros P j J. unfold argsort_nat. set (u := fold_right insert_by [] (combine l (seq 0 (length l)))).
  assert (PU : Permutation (combine l (seq 0 (length l))) u) by apply sorted_perm.
  assert (LC : length (combine l (seq 0 (length l))) = length l) by (rewrite combine_length, seq_length; lia).
  assert (LU : length u = length l) by (rewrite <- (Permutation_length PU); exact LC).
  assert (PF : Permutation l (map fst u)).
  { rewrite <- (Permutation_map fst PU). rewrite combine_map_fst by (rewrite seq_length; reflexivity). reflexivity. }
  assert (FU : map fst u = seq 0 (length l)).
  { assert (LM : length (map fst u) = length l) by (rewrite map_length; exact LU). rewrite <- LM. apply sorted_seq.
    - pose proof (insert_sorted (combine l (seq 0 (length l)))) as H. fold u in H. clearbody u. clear - H. induction H as [|x u H IH F]; [constructor|]. cbn [map]. constructor; [exact IH|].
      rewrite Forall_forall in F |- *. intros y Y. apply in_map_iff in Y as (z & <- & Z). exact (F z Z).
    - rewrite LM, <- PF. exact P. }
  destruct (nth_error u j) as [(a, i)|] eqn:Q; [|apply nth_error_None in Q; lia].
  assert (A : a = j).
  { assert (E : nth_error (map fst u) j = Some a) by (rewrite nth_error_map, Q; reflexivity). rewrite FU, (nth_error_nth' _ 0%nat) in E by (rewrite seq_length; exact J). rewrite seq_nth in E by exact J. cbn in E. congruence. }
  subst a. exists i. split; [rewrite nth_error_map, Q; reflexivity|].
  assert (IN : In (j, i) (combine l (seq 0 (length l)))) by (apply (Permutation_in _ (Permutation_sym PU)); exact (nth_error_In _ _ Q)).
  clear - IN. assert (H : forall (l : list nat) s j i, In (j, i) (combine l (seq s (length l))) -> (s <= i)%nat /\ nth_error l (i - s) = Some j).
  { clear. induction l as [|x l IH]; intros s j i K; [contradiction|]. cbn [length seq combine] in K. destruct K as [K|K].
    - injection K as -> ->. rewrite Nat.sub_diag. split; [lia|reflexivity].
    - destruct (IH _ _ _ K) as (H1 & H2). split; [lia|]. replace (i - s)%nat with (S (i - S s)) by lia. exact H2. }
  destruct (H l 0%nat j i IN) as (_ & E). rewrite Nat.sub_0_r in E. exact E.
Qed.
Lemma split_perm mask n : (forall i, In i mask -> (i < n)%nat) -> Permutation (concat (map (indices_of mask) (seq 0 n))) (seq 0 (length mask)).
Proof.
  intros H. apply NoDup_Permutation.
  - assert (G : forall k s, NoDup (concat (map (indices_of mask) (seq s k)))).
    { induction k as [|k IH]; intros s; [constructor|]. cbn [seq map concat]. 
      assert (ND : NoDup (indices_of mask s)) by (apply NoDup_filter, seq_NoDup). specialize (IH (S s)).
      assert (DJ : forall x, In x (indices_of mask s) -> ~ In x (concat (map (indices_of mask) (seq (S s) k)))).
      { intros x X Y. apply in_concat in Y as (v & V & Y). apply in_map_iff in V as (i & <- & V). apply in_seq in V. unfold indices_of in X, Y. apply filter_In in X as (_ & X). apply filter_In in Y as (_ & Y). apply Nat.eqb_eq in X, Y. lia. }
      clear - ND IH DJ. revert ND DJ. generalize (indices_of mask s) as u. induction u as [|x u IHu]; intros ND DJ; [exact IH|]. cbn [app]. inversion ND; subst. constructor.
      - intros K. apply in_app_or in K as [K|K]; [contradiction|]. exact (DJ x (or_introl eq_refl) K).
      - apply IHu; [assumption|]. intros y Y. apply DJ. right. exact Y. }
    apply G.
  - apply seq_NoDup.
  - intros j. rewrite in_seq. split.
    + intros K. apply in_concat in K as (v & V & K). apply in_map_iff in V as (i & <- & V). unfold indices_of in K. apply filter_In in K as (K & _). apply in_seq in K. lia.
    + intros K. apply in_concat. exists (indices_of mask (nth j mask 0%nat)). split.
      * apply in_map. apply in_seq. split; [lia|]. cbn. apply H. apply nth_In. lia.
      * unfold indices_of. apply filter_In. split; [apply in_seq; lia|apply Nat.eqb_refl].
Qed.
Lemma opt_concat {A B C} (g : A -> C -> option B) (split : list (list A)) (cs : list C) fs : length split = length cs ->
  map_opt (fun '(idx, c) => map_opt (fun j => g j c) idx) (combine split cs) = Some fs ->
  Forall2 (fun x v => g (fst x) (snd x) = Some v) (concat (map (fun '(idx, c) => map (fun j => (j, c)) idx) (combine split cs))) (concat fs).
Proof.
  revert cs fs. induction split as [|idx split IH]; intros [|c cs] fs L E; try discriminate; [cbn in E; injection E as <-; constructor|].
  cbn [combine map_opt] in E. destruct (map_opt (fun j => g j c) idx) as [f|] eqn:Q; [|discriminate].
  destruct (map_opt _ (combine split cs)) as [fs'|] eqn:Q'; [|discriminate]. injection E as <-. cbn [combine map concat]. apply Forall2_app; [|apply IH; [cbn in L; lia|exact Q']].
  clear - Q. revert f Q. induction idx as [|j idx IH]; intros f Q; cbn [map_opt] in Q; [injection Q as <-; constructor|].
  destruct (g j c) as [v|] eqn:G; [|discriminate]. destruct (map_opt _ idx) as [f'|]; [|discriminate]. injection Q as <-. cbn [map]. constructor; [exact G|apply IH; reflexivity].
Qed.
(** Every contract gets the fixing of its own index for its own period. *)
Theorem C93_fixings_split curves mask periods out : length mask = length periods -> (forall i, In i mask -> (i < length curves)%nat) ->
  get_fixings curves mask periods = Some out ->
  length out = length periods /\
  forall j s e, nth_error periods j = Some (s, e) -> exists i c x, nth_error mask j = Some i /\ nth_error curves i = Some c /\ nth_error out j = Some x /\ fixing_of_period c s e = Some x.
Proof.
  intros LM HM E. set (dummy := mk_date 0 0 0 0).
  assert (ONE : forall c, curves = [c] -> length out = length periods /\ forall j s e, nth_error periods j = Some (s, e) -> exists i c x, nth_error mask j = Some i /\ nth_error curves i = Some c /\ nth_error out j = Some x /\ fixing_of_period c s e = Some x).
  { intros c ->. cbn [get_fixings] in E. assert (F : Forall2 (fun p v => fixing_of_period c (fst p) (snd p) = Some v) periods out).
    { clear - E. revert out E. induction periods as [|(s, e) periods IH]; intros out E; cbn [map_opt] in E; [injection E as <-; constructor|].
      destruct (fixing_of_period c s e) as [v|] eqn:G; [|discriminate]. destruct (map_opt _ periods) as [vs|]; [|discriminate]. injection E as <-. constructor; [exact G|apply IH; reflexivity]. }
    split; [symmetry; clear - F; induction F; cbn; congruence|]. intros j s e Ej.
    assert (Lj : (j < length mask)%nat) by (rewrite LM; apply nth_error_Some; congruence).
    assert (Ei : exists x, nth_error out j = Some x /\ fixing_of_period c s e = Some x).
    { clear - F Ej. revert j Ej. induction F as [|p v ps vs G F IH]; intros [|j] Ej; try discriminate; [|exact (IH j Ej)]. cbn in Ej. injection Ej as ->. exists v. split; [reflexivity|exact G]. }
    destruct Ei as (x & E1 & E2). destruct (nth_error mask j) as [i|] eqn:Q; [|apply nth_error_None in Q; lia]. exists i, c, x. split; [reflexivity|].
    specialize (HM i (nth_error_In _ _ Q)). cbn in HM. assert (i = 0%nat) by lia. subst i. split; [reflexivity|]. split; assumption. }
  destruct curves as [|c0 [|c1 cs']] eqn:EC; [| exact (ONE c0 eq_refl) |]; rewrite <- EC in *; clear ONE.
  { rewrite EC in HM, E. destruct mask as [|i mask]; [|specialize (HM i (or_introl eq_refl)); cbn in HM; lia]. destruct periods; [|discriminate]. cbn in E. injection E as <-. split; [reflexivity|]. intros [|j] s e Ej; discriminate. }
  assert (E' : bind (map_opt (fun '(idx, c) => map_opt (fun j => let '(s, e) := nth j periods (dummy, dummy) in fixing_of_period c s e) idx) (combine (map (indices_of mask) (seq 0 (length curves))) curves))
     (fun fs => Some (map (fun j => nth j (concat fs) 0) (argsort_nat (concat (map (indices_of mask) (seq 0 (length curves)))))) ) = Some out) by (rewrite EC in E |- *; exact E).
  clear E. rename E' into E. set (split := map (indices_of mask) (seq 0 (length curves))) in *.
  destruct (map_opt _ (combine split curves)) as [fs|] eqn:Q; [|discriminate]. cbn [bind] in E. injection E as <-.
  assert (LS : length split = length curves) by (unfold split; rewrite map_length, seq_length; reflexivity).
  pose proof (opt_concat (fun j c => let '(s, e) := nth j periods (dummy, dummy) in fixing_of_period c s e) split curves fs LS Q) as F.
  pose proof (split_perm mask (length curves) HM) as PM. fold split in PM.
  assert (LP : length (concat split) = length periods) by (rewrite (Permutation_length PM), seq_length; exact LM).
  assert (PM' : Permutation (concat split) (seq 0 (length (concat split)))) by (rewrite LP, <- LM; exact PM).
  assert (LA : length (argsort_nat (concat split)) = length periods).
  { unfold argsort_nat. rewrite map_length, <- (Permutation_length (sorted_perm _)), combine_length, seq_length. lia. }
  split; [rewrite map_length; exact LA|]. intros j s e Ej. assert (Lj : (j < length periods)%nat) by (apply nth_error_Some; congruence).
  destruct (argsort_inverse (concat split) PM' j ltac:(lia)) as (k & K1 & K2).
  set (pairs := concat (map (fun '(idx, c) => map (fun j => (j, c)) idx) (combine split curves))) in *.
  assert (FP : map fst pairs = concat split).
  { unfold pairs. clear - LS. revert LS. generalize curves as cs. generalize split as sp. induction sp as [|idx sp IH]; intros [|c cs] LS; try discriminate; [reflexivity|]. cbn [combine map concat]. rewrite map_app, IH by (cbn in LS; lia). f_equal. rewrite map_map. apply map_id. }
  assert (NK : exists c, nth_error pairs k = Some (j, c)).
  { rewrite <- FP, nth_error_map in K2. destruct (nth_error pairs k) as [(j', c)|]; [|discriminate]. injection K2 as ->. exists c. reflexivity. }
  destruct NK as (c & NK).
  assert (V : exists x, nth_error (concat fs) k = Some x /\ fixing_of_period c s e = Some x).
  { assert (H : exists x, nth_error (concat fs) k = Some x /\ (let '(s, e) := nth j periods (dummy, dummy) in fixing_of_period c s e) = Some x).
    { clear - F NK. revert k NK. induction F as [|p v ps vs G F IH]; intros [|k] NK; try discriminate; [|exact (IH k NK)]. cbn in NK. injection NK as ->. exists v. split; [reflexivity|exact G]. }
    destruct H as (x & H1 & H2). exists x. split; [exact H1|]. rewrite (nth_error_nth periods j (dummy, dummy) Ej) in H2. exact H2. }
  destruct V as (x & V1 & V2).
  assert (CI : nth_error curves (nth j mask 0%nat) = Some c).
  { assert (IP : In (j, c) pairs) by exact (nth_error_In _ _ NK). unfold pairs in IP. apply in_concat in IP as (v & IV & IP). apply in_map_iff in IV as ((idx, c') & <- & IV). apply in_map_iff in IP as (j' & EQ & IP). injection EQ as -> ->.
    unfold split in IV. clear - IV IP. assert (H : forall cs s, In (idx, c) (combine (map (indices_of mask) (seq s (length cs))) cs) -> exists i, idx = indices_of mask i /\ (s <= i)%nat /\ nth_error cs (i - s) = Some c).
    { clear. induction cs as [|c0 cs IH]; intros s K; [contradiction|]. cbn [length seq map combine] in K. destruct K as [K|K].
      - injection K as <- ->. exists s. rewrite Nat.sub_diag. repeat split. lia.
      - destruct (IH _ K) as (i & E1 & E2 & E3). exists i. split; [exact E1|]. split; [lia|]. replace (i - s)%nat with (S (i - S s)) by lia. exact E3. }
    destruct (H curves 0%nat IV) as (i & -> & _ & EI). unfold indices_of in IP. apply filter_In in IP as (_ & IP). apply Nat.eqb_eq in IP. rewrite IP. rewrite Nat.sub_0_r in EI. exact EI. }
  exists (nth j mask 0%nat), c, x. split; [apply nth_error_nth'; lia|]. split; [exact CI|]. split; [|exact V2].
  rewrite (map_nth_error (fun j => nth j (concat fs) 0) j _ K1). f_equal. apply nth_error_nth. exact V1.
Qed.

(** ** Interpolated curves *)
(** At its nodes a curve has the given discount factors, with every method and
    whether it interpolates rates or discount factors. *)
Theorem C93_curve c valuation i : curve_daycount c = DC_ACTUAL_365 \/ curve_daycount c = DC_ACTUAL_360 -> (2 <= length (node_dates c))%nat -> length (node_discounts c) = length (node_dates c) ->
  (ordinal valuation < ordinal (nth 0 (node_dates c) valuation))%Z ->
  (forall k, (S k < length (node_dates c))%nat -> (ordinal (nth k (node_dates c) valuation) < ordinal (nth (S k) (node_dates c) valuation))%Z) ->
  (forall k, (k < length (node_dates c))%nat -> 0 < nth k (node_discounts c) 0) -> (i < length (node_dates c))%nat ->
  let d := nth i (node_dates c) valuation in let t := time_of c valuation d in
  0 < t /\ discount_factor c valuation d = Some (nth i (node_discounts c) 0) /\ discount_rate c valuation d = Some (- ln (nth i (node_discounts c) 0) / t).
Proof.
  intros DC L2 LD V0 INC DP LI d t. set (n := length (node_dates c)) in *.
  assert (TM : forall a, exists k, 0 < k /\ time_of c valuation a = IZR (ordinal a - ordinal valuation) / k).
  { intros a. unfold time_of. destruct DC as [-> | ->]; cbn [get_daycount_fn]; [exists 365|exists 360]; (split; [lra|]); unfold actual_365_fixed, actual_360, days_until; (rewrite Q2R_div by (unfold Qeq; cbn; lia); unfold Q2R; cbn; field). }
  assert (KK : exists k, 0 < k /\ forall a, time_of c valuation a = IZR (ordinal a - ordinal valuation) / k).
  { unfold time_of in *. destruct DC as [E|E]; rewrite E in *; [exists 365|exists 360]; (split; [lra|]); intros a; cbn [get_daycount_fn]; unfold actual_365_fixed, actual_360, days_until; (rewrite Q2R_div by (unfold Qeq; cbn; lia); unfold Q2R; cbn; field). }
  clear TM. destruct KK as (k & K & TM).
  set (ts := node_times c valuation). assert (LT : length ts = n) by (unfold ts, node_times; apply map_length).
  assert (NT : forall j, (j < n)%nat -> nth j ts 0 = time_of c valuation (nth j (node_dates c) valuation)).
  { intros j J. unfold ts, node_times. rewrite (nth_indep _ 0 (time_of c valuation valuation)) by (rewrite map_length; exact J). apply map_nth. }
  assert (TI : forall j, (S j < length ts)%nat -> nth j ts 0 < nth (S j) ts 0).
  { intros j J. rewrite LT in J. rewrite !NT by lia. rewrite !TM. specialize (INC j J). apply Rmult_lt_compat_r; [apply Rinv_0_lt_compat; exact K|]. apply IZR_lt. lia. }
  assert (T0 : 0 < nth 0 ts 0). { rewrite NT by lia. rewrite TM. apply Rdiv_lt_0_compat; [apply IZR_lt; lia|exact K]. }
  assert (TP : forall j, (j < n)%nat -> 0 < nth j ts 0) by (intros j J; apply (pos_all ts TI T0); lia).
  assert (EI : t = nth i ts 0) by (symmetry; apply NT; exact LI).
  assert (IP : forall ys, length ys = n -> interpolator (method_ c) t ts ys = Some (nth i ys 0)).
  { intros ys LY. rewrite EI. unfold interpolator. destruct (method_ c).
    - rewrite (C22_knots false ts ys None None i); [reflexivity|congruence|exact TI|lia].
    - destruct (C23_natural_spline false ts ys) as (s & E & H & _); [split; [congruence|split; [lia|exact TI]]|]. rewrite E. cbn [option_map]. rewrite (H i) by lia. reflexivity.
    - rewrite (C36_knots ts ys i TI); [reflexivity|congruence|exact T0|lia]. }
  assert (LR : length (rate_nodes c valuation) = n) by (unfold rate_nodes; rewrite map2_length; [exact LD|fold ts; congruence]).
  assert (NR : nth i (rate_nodes c valuation) 0 = - ln (nth i (node_discounts c) 0) / t).
  { unfold rate_nodes. fold ts. unfold map2. rewrite (nth_indep _ 0 ((fun '(df, t0) => divide_no_nan (- ln df) t0) (0, 0))) by (rewrite map_length, combine_length; lia).
    pose proof (map_nth (fun '(df, t0) => divide_no_nan (- ln df) t0) (combine (node_discounts c) ts) (0, 0) i) as M. cbv beta iota in M. rewrite M, combine_nth by congruence. rewrite <- EI. unfold divide_no_nan. destruct (Req_EM_T t 0) as [Z|_]; [|reflexivity]. specialize (TP i LI). rewrite <- EI in TP. lra. }
  assert (TP' : 0 < t) by (rewrite EI; apply TP; exact LI). specialize (DP i LI).
  split; [exact TP'|]. unfold discount_factor, discount_rate. fold d t ts. destruct (by_rates c).
  - rewrite (IP _ LR), NR. cbn [option_map]. split; [|reflexivity]. f_equal. replace (- (- ln (nth i (node_discounts c) 0) / t) * t) with (ln (nth i (node_discounts c) 0)) by (field; lra). apply exp_ln. exact DP.
  - rewrite (IP _ LD). cbn [option_map]. split; [reflexivity|]. f_equal. unfold divide_no_nan. destruct (Req_EM_T t 0); [lra|]. field. lra.
Qed.
(** Curves with as many dates, the same method and the default day count: every
    contract is discounted on the curve of its type. *)
Theorem C93_curves_partial m types mask cs : map_opt (yield_curve m) types = Some cs -> cs <> [] ->
  (forall c c', In c cs -> In c' cs -> length (node_dates c) = length (node_dates c') /\ method_ c = method_ c' /\ by_rates c = by_rates c') ->
  (forall c, In c cs -> curve_daycount c = DC_ACTUAL_365) -> (forall i, In i mask -> (i < length types)%nat) ->
  exists out, get_discount_curve m types mask = Some out /\
    Forall2 (fun i c => exists k, nth_error types i = Some k /\ yield_curve m k = Some c) mask out.
Proof.
  intros E NE SAME DC HM. unfold get_discount_curve. rewrite E. cbn [bind]. destruct (rev cs) as [|z u] eqn:RV; [apply (f_equal (@rev curve)) in RV; rewrite rev_involutive in RV; contradiction|].
  assert (JZ : In z cs) by (apply in_rev; rewrite RV; left; reflexivity).
  replace (forallb _ cs) with true. 2: { symmetry. apply forallb_forall. intros c J. apply Nat.eqb_eq. apply (SAME c z J JZ). }
  assert (NTH : forall i, (i < length types)%nat -> exists k c, nth_error types i = Some k /\ yield_curve m k = Some c /\ nth_error cs i = Some c).
  { clear - E. revert cs E. induction types as [|k types IH]; intros cs E i L; [cbn in L; lia|]. cbn [map_opt] in E. destruct (yield_curve m k) as [c|] eqn:Q; [|discriminate]. destruct (map_opt (yield_curve m) types) as [cs'|]; [|discriminate]. injection E as <-.
    destruct i as [|i]; [exists k, c; repeat split; assumption|]. apply (IH cs' eq_refl i). cbn in L. lia. }
  clear E RV. induction mask as [|i mask IH]; [exists []; split; [reflexivity|constructor]|]. destruct (IH (fun j J => HM j (or_intror J))) as (out & EO & FO).
  destruct (NTH i (HM i (or_introl eq_refl))) as (k & c & E1 & E2 & E3). cbn [map_opt]. rewrite EO, E3. cbn [option_map].
  exists (c :: out). split; [|constructor; [exists k; split; assumption|exact FO]]. f_equal. f_equal. assert (JC : In c cs) by exact (nth_error_In _ _ E3).
  destruct (SAME z c JZ JC) as (_ & -> & ->). rewrite <- (DC c JC). destruct c; reflexivity.
Qed.

(** ** Examples *)
Example C93_fixing_ex : let f := Fixings [ymd_date 2021 1 4; ymd_date 2021 4 5] [1 / 50; 1 / 40] (Some DC_ACTUAL_365) in
  nondecreasing (f_dates f) /\ fixing_at f (ymd_date 2021 2 1) = 1 / 40.
Proof. cbv zeta. split; [repeat constructor; vm_compute; discriminate|]. unfold fixing_at. cbn [f_dates f_rates]. vm_compute (Z.to_nat _). reflexivity. Qed.
Example C93_fixing_period_ex : fixing_period (ymd_date 2021 9 1) [ymd_date 2021 1 19; ymd_date 2021 7 19; ymd_date 2022 1 19] = (ymd_date 2021 7 19, ymd_date 2022 1 19).
Proof. vm_compute. reflexivity. Qed.
Example C93_mask_ex : process_curve_types [RiskFreeCurve "USD"; RiskFreeCurve "AUD"; RiskFreeCurve "USD"] None = Some ([RiskFreeCurve "AUD"; RiskFreeCurve "USD"], [1; 0; 1]%nat).
Proof. vm_compute. reflexivity. Qed.
Example C93_fixings_split_ex : let f r := Some (Fixings [ymd_date 2021 1 4] [r] (Some (DC_CALLABLE (fun _ _ => 1)))) in let p := (ymd_date 2021 1 4, ymd_date 2021 7 5) in
  get_fixings [f 1; f 2] [1; 0; 1]%nat [p; p; p] = Some [2 * 1; 1 * 1; 2 * 1].
Proof. cbv zeta. reflexivity. Qed.
Example C93_curve_ex : let c := Curve [ymd_date 2022 1 4; ymd_date 2023 1 4] [9 / 10; 8 / 10] LINEAR true DC_ACTUAL_365 in
  (ordinal (ymd_date 2021 1 4) < ordinal (nth 0 (node_dates c) (ymd_date 2021 1 4)))%Z /\ discount_factor c (ymd_date 2021 1 4) (ymd_date 2023 1 4) = Some (8 / 10).
Proof.
  cbv zeta. split; [reflexivity|]. apply (C93_curve (Curve [ymd_date 2022 1 4; ymd_date 2023 1 4] [9 / 10; 8 / 10] LINEAR true DC_ACTUAL_365) (ymd_date 2021 1 4) 1); cbn [curve_daycount node_dates node_discounts length]; try lia; auto.
  - vm_compute. reflexivity.
  - intros [|[|k]] H; [vm_compute; reflexivity|lia|lia].
  - intros [|[|k]] H; cbn [nth]; try lra; lia.
Qed.
Example C93_curves_ex : let c := Curve [ymd_date 2022 1 4; ymd_date 2023 1 4] [9 / 10; 8 / 10] LINEAR true DC_ACTUAL_365 in
  get_discount_curve [("USD", "risk_free_curve", c)]%string [RiskFreeCurve "USD"] [0; 0]%nat = Some [c; c].
Proof. reflexivity. Qed.

Print Assumptions C93_fixing.
Print Assumptions C93_fixing_period.
Print Assumptions C93_mask.
Print Assumptions C93_fixings_split.
Print Assumptions C93_curve.
Print Assumptions C93_curves_partial.
