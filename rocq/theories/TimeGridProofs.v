(** Sorting, deduplication and index lookup of simulation time grids. *)
From Coq Require Import ZArith Reals List Bool Arith Lia Lra Permutation.
From Verif Require Import TensorModel TensorProofs SegmentModel BrentModel VarianceProofs TimeGridModel TimeGridSpec.
Import ListNotations.
Open Scope R_scope.

(** ** sorting *)
Lemma insert_perm x l : Permutation (insert x l) (x :: l).
Proof.
  induction l as [|y l IH]; cbn; [reflexivity|]. destruct (Rle_dec x y); [reflexivity|].
  rewrite IH. apply perm_swap.
Qed.
Lemma sort_perm l : Permutation (sort l) l.
Proof. induction l as [|x l IH]; cbn; [reflexivity|]. rewrite insert_perm. constructor. exact IH. Qed.
Fixpoint sorted_from (p : R) (l : list R) : Prop :=
  match l with [] => True | x :: r => p <= x /\ sorted_from x r end.
Lemma sorted_from_weaken p q l : q <= p -> sorted_from p l -> sorted_from q l.
Proof. destruct l; cbn; [auto|]. intros L [A B]. split; [lra|assumption]. Qed.
Lemma insert_sorted x l p : p <= x -> sorted_from p l -> sorted_from p (insert x l).
Proof.
  revert p. induction l as [|y l IH]; intros p L; cbn; [auto|]. intros [A B].
  destruct (Rle_dec x y); cbn; [auto|]. split; [assumption|]. apply IH; [lra|assumption].
Qed.
Lemma sort_sorted l p : (forall x, In x l -> p <= x) -> sorted_from p (sort l).
Proof.
  intros H. induction l as [|x l IH]; cbn; [exact I|]. apply insert_sorted; [apply H; left; reflexivity|].
  apply IH. intros y Y. apply H. right; exact Y.
Qed.
Lemma sort_in l x : In x (sort l) <-> In x l.
Proof. split; apply Permutation_in; [|symmetry]; apply sort_perm. Qed.
Lemma sort_length l : length (sort l) = length l.
Proof. apply Permutation_length, sort_perm. Qed.
Lemma sorted_from_ge p l : sorted_from p l -> forall x, In x l -> p <= x.
Proof.
  revert p. induction l as [|y l IH]; intros p; cbn; [contradiction|]. intros [A B] x [->|X]; [assumption|].
  specialize (IH y B x X). lra.
Qed.
Lemma sorted_from_nondecr p l : sorted_from p l -> nondecr (p :: l).
Proof.
  revert p. induction l as [|y l IH]; intros p; [intros _ i H; cbn in H; lia|]. intros [A B] [|i] H; cbn in H; [exact A|].
  apply (IH y B i). cbn. lia.
Qed.
Lemma sort_nondecr l : nondecr (sort l).
Proof.
  assert (E : exists p, forall x, In x l -> p <= x).
  { induction l as [|x l [p P]]; [exists 0; contradiction|]. exists (Rmin x p). intros y [->|Y]; [apply Rmin_l|].
    specialize (P y Y). pose proof (Rmin_r x p). lra. }
  destruct E as [p P]. apply nondecr_tl with (a := p). apply sorted_from_nondecr, sort_sorted, P.
Qed.

(** ** deduplication *)
Fixpoint dd (tol p : R) (l : list R) : list R :=
  match l with
  | [] => []
  | x :: r => if Rlt_dec tol (x - p) then x :: dd tol x r else dd tol x r
  end.
Lemma mask_cons x l b m : boolean_mask (x :: l) (b :: m) = if b then x :: boolean_mask l m else boolean_mask l m.
Proof. unfold boolean_mask. cbn [combine filter snd]. destruct b; reflexivity. Qed.
Lemma dedup_tail tol p l : boolean_mask l (map (fun d => rlt tol d) (diff 1 true (p :: l))) = dd tol p l.
Proof.
  revert p. induction l as [|x l IH]; intros p; [reflexivity|]. rewrite diff_cons. cbn [map]. rewrite mask_cons, IH. cbn [dd].
  unfold rlt. destruct (Rlt_dec tol (x - p)); reflexivity.
Qed.
Lemma dedup_eq tol x l : tol < 1 -> dedup tol (x :: l) = x :: dd tol x l.
Proof.
  intros H. unfold dedup. cbn [map]. rewrite mask_cons. unfold rlt at 1. destruct (Rlt_dec tol 1); [|lra].
  f_equal. apply dedup_tail.
Qed.

Section Chain.
Variable tol : R.
Hypothesis T0 : 0 <= tol.
Lemma dd_above p l : sorted_from p l -> forall q, In q (dd tol p l) -> p + tol < q.
Proof.
  revert p. induction l as [|x l IH]; intros p; cbn; [contradiction|]. intros [A B] q Q.
  destruct (Rlt_dec tol (x - p)) as [H|H].
  - destruct Q as [->|Q]; [lra|]. specialize (IH x B q Q). lra.
  - specialize (IH x B q Q). lra.
Qed.
Lemma dd_in p l q : In q (dd tol p l) -> In q l.
Proof.
  revert p. induction l as [|x l IH]; intros p; cbn; [contradiction|].
  destruct (Rlt_dec tol (x - p)); [intros [->|Q]|intros Q]; auto; right; eapply IH; eassumption.
Qed.
Lemma dd_gaps p l p' : p' <= p -> sorted_from p l -> gaps_above tol (p' :: dd tol p l).
Proof.
  revert p p'. induction l as [|x l IH]; intros p p' L; cbn [sorted_from dd].
  - intros _ i H. cbn in H. lia.
  - intros [A B]. destruct (Rlt_dec tol (x - p)) as [H|H].
    + intros [|i] K; [cbn [nth]; lra|]. change (nth i (x :: dd tol x l) 0 + tol < nth (S i) (x :: dd tol x l) 0).
      apply (IH x x); [lra|assumption|]. cbn [length] in K |- *. lia.
    + apply (IH x p'); [lra|assumption].
Qed.
Lemma dd_chain p l : sorted_from p l -> forall t, In t (p :: l) -> forall q, In q (p :: dd tol p l) -> t < q -> t + tol < q.
Proof.
  revert p. induction l as [|x l IH]; intros p S t H q Q L.
  - cbn in *. destruct H as [<-|[]], Q as [<-|[]]. lra.
  - destruct S as [A B]. destruct H as [<-|H].
    + destruct Q as [<-|Q]; [lra|]. apply (dd_above p (x :: l)); [split; assumption|assumption].
    + assert (G : x <= t) by (apply (sorted_from_ge x (x :: l)); [split; [lra|assumption]|assumption]).
      destruct Q as [<-|Q]; [lra|]. apply (IH x B t H q); [|assumption].
      cbn [dd] in Q. destruct (Rlt_dec tol (x - p)); [assumption|right; assumption].
Qed.
Lemma dd_kept p l i : (i < length l)%nat -> tol < nth i l 0 - nth i (p :: l) 0 -> In (nth i l 0) (dd tol p l).
Proof.
  revert p i. induction l as [|x l IH]; intros p i; [cbn; lia|]. intros H K. cbn [dd]. destruct i as [|i].
  - cbn [nth] in *. destruct (Rlt_dec tol (x - p)); [left; reflexivity|contradiction].
  - change (nth (S i) (p :: x :: l) 0) with (nth i (x :: l) 0) in K. change (nth (S i) (x :: l) 0) with (nth i l 0) in *.
    assert (In (nth i l 0) (dd tol x l)) by (apply IH; [cbn in H; lia|assumption]).
    destruct (Rlt_dec tol (x - p)); [right|]; assumption.
Qed.
Lemma dd_kept_inv p l q : In q (dd tol p l) -> exists i, (i < length l)%nat /\ nth i l 0 = q /\ tol < q - nth i (p :: l) 0.
Proof.
  revert p. induction l as [|x l IH]; intros p; cbn [dd]; [contradiction|].
  assert (R : In q (dd tol x l) -> exists i, (i < length (x :: l))%nat /\ nth i (x :: l) 0 = q /\ tol < q - nth i (p :: x :: l) 0).
  { intros Q. destruct (IH x Q) as (i & I1 & I2 & I3). exists (S i). split; [cbn; lia|]. split; assumption. }
  destruct (Rlt_dec tol (x - p)) as [H|H]; [|exact R]. intros [->|Q]; [|exact (R Q)].
  exists 0%nat. cbn. split; [lia|]. split; [reflexivity|assumption].
Qed.
End Chain.

(** ** the index of a time *)
Lemma increasing_incr l : increasing l -> incr l.
Proof. intros H i L. specialize (H i L). unfold at_. lra. Qed.
Lemma gaps_increasing d l : 0 <= d -> gaps_above d l -> increasing l.
Proof. intros D H i L. specialize (H i L). lra. Qed.
Lemma step_index_spec tol l t : 0 <= tol -> increasing l -> (0 < length l)%nat -> nth 0 l 0 <= t ->
  (forall q, In q l -> t < q -> t + tol < q) ->
  exists i, step_index tol l t = Some i /\ last_not_after l i t.
Proof.
  intros T0 I L H0 C. pose proof (increasing_incr l I) as I'. pose proof (incr_nondecr l I') as N.
  unfold step_index, gather. pose proof (ssl_le l t) as K. pose proof (ssl_below l t) as B. pose proof (ssl_above l t N) as A.
  set (k := searchsorted_left l t) in *. clearbody k.
  destruct (length l) as [|n] eqn:E; [lia|].
  destruct (Nat.eq_dec k (S n)) as [->|D].
  - rewrite Nat.min_r by lia. rewrite (nth_error_nth' l 0) by lia. specialize (B n ltac:(lia)). unfold at_ in B.
    unfold rlt. destruct (Rlt_dec tol (nth n l 0 - t)); [lra|]. exists n. split; [reflexivity|].
    split; [lia|]. split; [lra|]. intros j J. lia.
  - rewrite Nat.min_l by lia. rewrite (nth_error_nth' l 0) by lia. pose proof (A k ltac:(lia)) as G. unfold at_ in G.
    unfold rlt. destruct (Rlt_dec tol (nth k l 0 - t)) as [Q|Q].
    + destruct k as [|k]; [lra|]. exists k. split; [reflexivity|]. split; [lia|].
      specialize (B k ltac:(lia)). unfold at_ in B. split; [lra|]. intros j J.
      pose proof (nondecr_le l N (S k) j ltac:(lia) ltac:(lia)) as M. unfold at_ in M. lra.
    + exists k. split; [reflexivity|]. assert (nth k l 0 = t).
      { destruct (Rle_lt_dec (nth k l 0) t); [lra|]. assert (Q' : In (nth k l 0) l) by (apply nth_In; lia). specialize (C (nth k l 0) Q' ltac:(lra)). lra. }
      split; [lia|]. split; [lra|]. intros j J. pose proof (incr_lt l I' k j ltac:(lia) ltac:(lia)) as M. unfold at_ in M. lra.
Qed.
Lemma all_some_map {A} (f : A -> option nat) (P : nat -> A -> Prop) l : (forall x, In x l -> exists i, f x = Some i /\ P i x) ->
  exists idx, all_some (map f l) = Some idx /\ length idx = length l /\ Forall2 P idx l.
Proof.
  induction l as [|x l IH]; intros H; cbn; [exists []; auto|]. destruct (H x (or_introl eq_refl)) as (i & Ei & Pi).
  destruct IH as (idx & E1 & E2 & E3); [intros y Y; apply H; right; exact Y|]. rewrite Ei, E1. exists (i :: idx). cbn.
  split; [reflexivity|]. split; [lia|]. constructor; assumption.
Qed.
Lemma forall2_nth {A} (P : nat -> A -> Prop) idx l d : Forall2 P idx l -> forall k, (k < length l)%nat -> P (nth k idx 0%nat) (nth k l d).
Proof.
  intros H. induction H as [|i x idx l Hp H IH]; intros k K; cbn in K; [lia|]. destruct k; [exact Hp|]. apply IH. lia.
Qed.
Lemma scatter_marks idx n : (forall i, In i idx -> (i < n)%nat) -> exists mask, scatter_mask idx n = Some mask /\ marks mask n idx.
Proof.
  intros H. unfold scatter_mask. assert (E : forallb (fun i => Nat.ltb i n) idx = true).
  { apply forallb_forall. intros i Hi. apply Nat.ltb_lt, H, Hi. }
  rewrite E. eexists. split; [reflexivity|]. split; [rewrite map_length, seq_length; reflexivity|]. split; [exact H|]. intros i L.
  rewrite (nth_indep _ false (Nat.ltb 0 (count_occ Nat.eq_dec idx 0%nat))) by (rewrite map_length, seq_length; exact L).
  rewrite (map_nth (fun i => Nat.ltb 0 (count_occ Nat.eq_dec idx i))). rewrite seq_nth by exact L. cbn [plus].
  rewrite Nat.ltb_lt. split; intros Q; [apply (count_occ_In Nat.eq_dec); lia|apply (count_occ_In Nat.eq_dec) in Q; lia].
Qed.

(** ** the uniform grid *)
Lemma up_bounds x : IZR (up x) - 1 <= x < IZR (up x).
Proof. destruct (archimed x). lra. Qed.
Lemma ceil_bounds x : IZR (ceil x) - 1 < x <= IZR (ceil x).
Proof. unfold ceil. rewrite minus_IZR. pose proof (up_bounds (- x)). lra. Qed.
Lemma range_ok limit delta : 0 < delta -> 0 <= limit ->
  exists m, range_from_0 limit delta = Some (map (fun i => INR i * delta) (seq 0 m)) /\
    limit <= INR m * delta /\ forall k, (k < m)%nat -> INR k * delta < limit.
Proof.
  intros D L. unfold range_from_0. destruct (Req_EM_T delta 0); [lra|]. unfold rlt.
  destruct (Rlt_dec 0 delta); [|lra]. destruct (Rlt_dec limit 0); [lra|]. destruct (Rlt_dec delta 0); [lra|]. cbn [andb].
  assert (Q : 0 <= limit / delta). { apply (Rmult_le_reg_r delta); [lra|]. replace (limit / delta * delta) with limit by (field; lra). lra. }
  rewrite Rabs_right by lra. exists (Z.to_nat (ceil (limit / delta))). split; [reflexivity|].
  pose proof (ceil_bounds (limit / delta)) as [B1 B2]. assert (P : (0 <= ceil (limit / delta))%Z) by (apply le_IZR; lra).
  split.
  - rewrite INR_IZR_INZ, Z2Nat.id by exact P. apply (Rmult_le_compat_r delta) in B2; [|lra].
    replace (limit / delta * delta) with limit in B2 by (field; lra). exact B2.
  - intros k K. apply (Rmult_lt_reg_r (/ delta)); [apply Rinv_0_lt_compat; lra|].
    replace (INR k * delta * / delta) with (INR k) by (field; lra).
    assert (Z.of_nat k + 1 <= ceil (limit / delta))%Z as K' by lia. apply IZR_le in K'. rewrite plus_IZR, <- INR_IZR_INZ in K'.
    change (limit * / delta) with (limit / delta). lra.
Qed.

(** ** at most two points of two spaced lists in a window *)
Definition within (a d x : R) : bool := rle a x && rle x (a + d).
Lemma within_spec a d x : within a d x = true <-> a <= x <= a + d.
Proof. unfold within, rle. destruct (Rle_dec a x), (Rle_dec x (a + d)); cbn; split; intros; try discriminate; try lra; reflexivity. Qed.
Lemma filter_perm {A} (f : A -> bool) l l' : Permutation l l' -> length (filter f l) = length (filter f l').
Proof.
  induction 1; cbn; [reflexivity| | |lia].
  - destruct (f x); cbn; lia.
  - destruct (f x), (f y); cbn; reflexivity.
Qed.
Lemma gaps_tl d x l : gaps_above d (x :: l) -> gaps_above d l.
Proof. intros H i L. apply (H (S i)). cbn. lia. Qed.
Lemma gaps_later d x l : 0 <= d -> gaps_above d (x :: l) -> forall y, In y l -> x + d < y.
Proof.
  revert x. induction l as [|z l IH]; intros x D H y; [contradiction|]. pose proof (H 0%nat ltac:(cbn; lia)) as H0. cbn in H0.
  intros [->|Y]; [exact H0|]. pose proof (IH z D (gaps_tl d x _ H) y Y). lra.
Qed.
Lemma gaps_window a d l : 0 <= d -> gaps_above d l -> (length (filter (within a d) l) <= 1)%nat.
Proof.
  intros D. induction l as [|x l IH]; intros G; cbn; [lia|]. specialize (IH (gaps_tl d x l G)).
  destruct (within a d x) eqn:W; cbn; [|exact IH]. apply within_spec in W.
  assert (E : filter (within a d) l = []).
  { destruct (filter (within a d) l) as [|y r] eqn:F; [reflexivity|]. exfalso.
    assert (Y : In y (filter (within a d) l)) by (rewrite F; left; reflexivity). apply filter_In in Y. destruct Y as [Y1 Y2].
    apply within_spec in Y2. pose proof (gaps_later d x l D G y Y1). lra. }
  rewrite E. cbn. lia.
Qed.
Lemma three_split (l : list R) i : (S (S i) < length l)%nat ->
  exists a b, l = a ++ nth i l 0 :: nth (S i) l 0 :: nth (S (S i)) l 0 :: b.
Proof.
  revert i. induction l as [|x l IH]; intros i H; [cbn in H; lia|]. destruct i as [|i].
  - destruct l as [|y [|z l]]; [cbn in H; lia|cbn in H; lia|]. exists [], l. reflexivity.
  - cbn in H. destruct (IH i ltac:(lia)) as (a & b & E). exists (x :: a), b.
    change (nth (S i) (x :: l) 0) with (nth i l 0). change (nth (S (S i)) (x :: l) 0) with (nth (S i) l 0).
    change (nth (S (S (S i))) (x :: l) 0) with (nth (S (S i)) l 0). cbn [app]. f_equal. exact E.
Qed.
Lemma no_three d l1 l2 l : 0 <= d -> gaps_above d l1 -> gaps_above d l2 -> Permutation l (l1 ++ l2) -> nondecr l ->
  forall i, (S (S i) < length l)%nat -> nth i l 0 + d < nth (S (S i)) l 0.
Proof.
  intros D G1 G2 P N i H. destruct (Rlt_le_dec (nth i l 0 + d) (nth (S (S i)) l 0)) as [K|K]; [exact K|exfalso].
  pose proof (filter_perm (within (nth i l 0) d) _ _ P) as F. rewrite filter_app, app_length in F.
  pose proof (gaps_window (nth i l 0) d l1 D G1). pose proof (gaps_window (nth i l 0) d l2 D G2).
  destruct (three_split l i H) as (a & b & E).
  pose proof (N i ltac:(lia)) as N1. pose proof (N (S i) ltac:(lia)) as N2. unfold at_ in N1, N2.
  set (x := nth i l 0) in *. set (y := nth (S i) l 0) in *. set (z := nth (S (S i)) l 0) in *. clearbody x y z.
  rewrite E in F. rewrite filter_app, app_length in F. cbn [filter] in F.
  rewrite (proj2 (within_spec x d x)) in F by lra. rewrite (proj2 (within_spec x d y)) in F by lra. rewrite (proj2 (within_spec x d z)) in F by lra.
  cbn [length] in F. lia.
Qed.
Lemma grid_gaps d m delta : d < delta -> gaps_above d (map (fun i => INR i * delta) (seq 0 m)).
Proof.
  intros D i H. rewrite map_length, seq_length in H.
  rewrite !(nth_indep _ 0 ((fun i => INR i * delta) 0%nat)) by (rewrite map_length, seq_length; lia).
  rewrite !(map_nth (fun i => INR i * delta)), !seq_nth by lia. cbn [plus]. rewrite S_INR. lra.
Qed.
