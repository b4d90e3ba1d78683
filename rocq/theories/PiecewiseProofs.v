From Coq Require Import ZArith Reals List Bool Lia Lra.
From Coquelicot Require Import Coquelicot.
From Verif Require Import TensorModel TensorProofs RIntAux SegmentModel SegmentProofs PiecewiseModel.
Import ListNotations.
Open Scope R_scope.

(** step functions *)
Definition step_l (j x : R) : R := if Rlt_dec j x then 1 else 0.
Lemma is_RInt_step_up j a b : a <= b -> is_RInt (step_l j) a b (Rmax 0 (b - j) - Rmax 0 (a - j)).
Proof.
  intros AB.
  assert (LO : forall a b, a <= b -> b <= j -> is_RInt (step_l j) a b 0).
  { clear. intros a b AB BJ. apply isi_ext with (f := fun _ => 0).
    - rewrite Rmin_left, Rmax_right by assumption. intros x H. unfold step_l. destruct (Rlt_dec j x); lra.
    - apply isi_const. ring. }
  assert (HI : forall a b, a <= b -> j <= a -> is_RInt (step_l j) a b (b - a)).
  { clear. intros a b AB BJ. apply isi_ext with (f := fun _ => 1).
    - rewrite Rmin_left, Rmax_right by assumption. intros x H. unfold step_l. destruct (Rlt_dec j x); lra.
    - apply isi_const. ring. }
  destruct (Rle_dec b j) as [BJ|BJ]; [|destruct (Rle_dec j a) as [JA|JA]].
  - rewrite !Rmax_left by lra. replace (0 - 0) with 0 by ring. apply LO; assumption.
  - rewrite !Rmax_right by lra. replace (b - j - (a - j)) with (b - a) by ring. apply HI; assumption.
  - rewrite Rmax_right, Rmax_left by lra.
    apply isi_chasles with (b := j) (l1 := 0) (l2 := b - j); [apply LO|apply HI|]; lra.
Qed.
Lemma is_RInt_step j a b : is_RInt (step_l j) a b (Rmax 0 (b - j) - Rmax 0 (a - j)).
Proof.
  destruct (Rle_dec a b) as [H|H]; [apply is_RInt_step_up; assumption|].
  eapply isi_swap; [apply is_RInt_step_up; lra|ring].
Qed.
Definition step_r (j x : R) : R := if Rle_dec j x then 1 else 0.
Lemma is_RInt_step_r j a b : is_RInt (step_r j) a b (Rmax 0 (b - j) - Rmax 0 (a - j)).
Proof.
  destruct (Rle_dec a j) as [AJ|AJ], (Rle_dec b j) as [BJ|BJ].
  1: { apply isi_ext with (f := step_l j); [|apply is_RInt_step]. intros x (_ & H).
       assert (Rmax a b <= j) by (apply Rmax_lub; assumption). unfold step_l, step_r. destruct (Rlt_dec j x), (Rle_dec j x); lra. }
  3: { apply isi_ext with (f := step_l j); [|apply is_RInt_step]. intros x (H & _).
       assert (j < Rmin a b) by (apply Rmin_glb_lt; lra). unfold step_l, step_r. destruct (Rlt_dec j x), (Rle_dec j x); lra. }
  - apply isi_chasles with (b := j) (l1 := 0) (l2 := b - j).
    + apply isi_ext with (f := step_l j); [|eapply isi_eq; [apply is_RInt_step|]; rewrite !Rmax_left by lra; ring].
      rewrite Rmin_left, Rmax_right by lra. intros x H. unfold step_l, step_r. destruct (Rlt_dec j x), (Rle_dec j x); lra.
    + apply isi_ext with (f := step_l j); [|eapply isi_eq; [apply is_RInt_step|]; rewrite Rmax_right, Rmax_left by lra; ring].
      rewrite Rmin_left, Rmax_right by lra. intros x H. unfold step_l, step_r. destruct (Rlt_dec j x), (Rle_dec j x); lra.
    + rewrite Rmax_right, Rmax_left by lra. ring.
  - apply isi_chasles with (b := j) (l1 := j - a) (l2 := 0).
    + apply isi_ext with (f := step_l j); [|eapply isi_eq; [apply is_RInt_step|]; rewrite Rmax_left, Rmax_right by lra; ring].
      rewrite Rmin_right, Rmax_left by lra. intros x H. unfold step_l, step_r. destruct (Rlt_dec j x), (Rle_dec j x); lra.
    + apply isi_ext with (f := step_l j); [|eapply isi_eq; [apply is_RInt_step|]; rewrite !Rmax_left by lra; ring].
      rewrite Rmin_right, Rmax_left by lra. intros x H. unfold step_l, step_r. destruct (Rlt_dec j x), (Rle_dec j x); lra.
    + rewrite Rmax_left, Rmax_right by lra. ring.
Qed.
Lemma is_RInt_rsum (f : nat -> R -> R) (g : nat -> R) a b n : (forall i, is_RInt (f i) a b (g i)) ->
  is_RInt (fun x => rsum (fun i => f i x) n) a b (rsum g n).
Proof.
  intros H. induction n; cbn.
  - apply isi_const. ring.
  - eapply isi_plus; [exact IHn|apply H|reflexivity].
Qed.

Section PW.
Variable f : pw.
Notation n := (length (jumps f)).
Notation J := (at_ (jumps f)).
Notation V := (at_ (pvalues f)).
Hypothesis LEN : length (pvalues f) = S n.
Hypothesis SORT : nondecr (jumps f).

Lemma call_left_index x k : (k <= n)%nat -> (forall i, (i < k)%nat -> J i < x) -> (forall i, (k <= i < n)%nat -> x <= J i) ->
  pw_call f true x = V k.
Proof. intros. unfold pw_call. rewrite (ssl_unique _ _ k); auto. Qed.
Lemma call_right_index x k : (k <= n)%nat -> (forall i, (i < k)%nat -> J i <= x) -> (forall i, (k <= i < n)%nat -> x < J i) ->
  pw_call f false x = V k.
Proof. intros. unfold pw_call. rewrite (ssr_unique _ _ k); auto. Qed.

(** the function as a sum of steps *)
Lemma call_steps x : pw_call f true x = V 0%nat + rsum (fun i => (V (S i) - V i) * step_l (J i) x) n.
Proof.
  unfold pw_call. set (k := searchsorted_left (jumps f) x).
  pose proof (ssl_le (jumps f) x) as K. fold k in K.
  rewrite (rsum_cut _ k n K).
  - rewrite (rsum_ext _ (fun i => V (S i) - V i)); [rewrite rsum_tel; ring|]. intros i H.
    pose proof (ssl_below _ _ i H). unfold step_l. destruct (Rlt_dec (J i) x); [ring|lra].
  - intros i H. pose proof (ssl_above _ x SORT i H). unfold step_l. destruct (Rlt_dec (J i) x); [lra|ring].
Qed.

Definition prim (x : R) : R := V 0%nat * (x - J 0%nat) + rsum (fun i => (V (S i) - V i) * Rmax 0 (x - J i)) n.
Lemma prim_int a b : is_RInt (pw_call f true) a b (prim b - prim a).
Proof.
  apply isi_ext with (f := fun x => V 0%nat + rsum (fun i => (V (S i) - V i) * step_l (J i) x) n); [intros x _; symmetry; apply call_steps|].
  eapply isi_plus; [apply isi_const; reflexivity|apply (is_RInt_rsum (fun i x => (V (S i) - V i) * step_l (J i) x)); intros i; eapply isi_scal; [apply is_RInt_step|reflexivity]|].
  unfold prim. rewrite (rsum_ext (fun i => (V (S i) - V i) * (Rmax 0 (b - J i) - Rmax 0 (a - J i))) (fun i => (V (S i) - V i) * Rmax 0 (b - J i) - (V (S i) - V i) * Rmax 0 (a - J i))) by (intros; ring).
  rewrite rsum_minus. ring.
Qed.

Lemma call_steps_r x : pw_call f false x = V 0%nat + rsum (fun i => (V (S i) - V i) * step_r (J i) x) n.
Proof.
  unfold pw_call. set (k := searchsorted_right (jumps f) x).
  pose proof (ssr_le (jumps f) x) as K. fold k in K.
  rewrite (rsum_cut _ k n K).
  - rewrite (rsum_ext _ (fun i => V (S i) - V i)); [rewrite rsum_tel; ring|]. intros i H.
    pose proof (ssr_below _ _ i H). unfold step_r. destruct (Rle_dec (J i) x); [ring|lra].
  - intros i H. pose proof (ssr_above _ x SORT i H). unfold step_r. destruct (Rle_dec (J i) x); [lra|ring].
Qed.
Lemma prim_int_r a b : is_RInt (pw_call f false) a b (prim b - prim a).
Proof.
  apply isi_ext with (f := fun x => V 0%nat + rsum (fun i => (V (S i) - V i) * step_r (J i) x) n); [intros x _; symmetry; apply call_steps_r|].
  eapply isi_plus; [apply isi_const; reflexivity|apply (is_RInt_rsum (fun i x => (V (S i) - V i) * step_r (J i) x)); intros i; eapply isi_scal; [apply is_RInt_step_r|reflexivity]|].
  unfold prim. rewrite (rsum_ext (fun i => (V (S i) - V i) * (Rmax 0 (b - J i) - Rmax 0 (a - J i))) (fun i => (V (S i) - V i) * Rmax 0 (b - J i) - (V (S i) - V i) * Rmax 0 (a - J i))) by (intros; ring).
  rewrite rsum_minus. ring.
Qed.

(** the precomputed integrals *)
Hypothesis NE : jumps f <> [].
Lemma integrals_0 : at_ (pw_integrals f) 0 = 0.
Proof. reflexivity. Qed.
Lemma nth_combine_mul (a b : list R) i : (i < length a)%nat -> (i < length b)%nat ->
  at_ (map (fun '(x1, x0) => x1 * x0) (combine a b)) i = at_ a i * at_ b i.
Proof.
  unfold at_. revert b i. induction a as [|x a IH]; intros [|y b] i L H; cbn in L, H; try lia.
  destruct i; [reflexivity|]. cbn. apply IH; lia.
Qed.
Lemma nth_removelast (l : list R) i : (S i < length l)%nat -> at_ (removelast l) i = at_ l i.
Proof.
  unfold at_. revert i. induction l as [|a l IH]; intros i H; [cbn in H; lia|]. destruct l; [cbn in H; lia|]. destruct i; [reflexivity|]. cbn in *. apply IH. lia.
Qed.
Lemma removelast_length (l : list R) : length (removelast l) = (length l - 1)%nat.
Proof. induction l as [|a l IH]; [reflexivity|]. destruct l; [reflexivity|]. cbn [removelast length] in *. lia. Qed.
Lemma tl_at (l : list R) i : at_ (tl l) i = at_ l (S i).
Proof. destruct l; [destruct i; reflexivity|reflexivity]. Qed.
Lemma tl_length (l : list R) : length (tl l) = (length l - 1)%nat.
Proof. destruct l; cbn; lia. Qed.
Lemma fold_rsum l k : (k <= length l)%nat -> fold_right Rplus 0 (firstn k l) = rsum (at_ l) k.
Proof.
  revert k. induction l as [|a l IH]; intros k H; [cbn in H; replace k with 0%nat by lia; reflexivity|].
  destruct k; [reflexivity|]. rewrite rsum_S_l. cbn [firstn fold_right]. rewrite IH by (cbn in H; lia). reflexivity.
Qed.
Lemma integrals_at k : (k < n)%nat -> at_ (pw_integrals f) k = rsum (fun i => V (S i) * (J (S i) - J i)) k.
Proof.
  intros K. unfold pw_integrals. set (j := jumps f) in *. set (v := pvalues f) in *.
  set (d := map (fun '(a, b) => a - b) (combine (tl j) (removelast j))).
  set (inner := firstn (length v - 1 - 1) (tl v)). set (p := map _ (combine inner d)).
  assert (LD : length d = (length j - 1)%nat) by (unfold d; rewrite map_length, combine_length, tl_length, removelast_length; lia).
  assert (LI : length inner = (length j - 1)%nat) by (unfold inner; rewrite firstn_length, tl_length; lia).
  assert (LP : length p = (length j - 1)%nat) by (unfold p; rewrite map_length, combine_length; lia).
  destruct k; [reflexivity|]. cbn [app]. rewrite at_cons. rewrite at_app1 by (unfold cumsum; rewrite cumsum_length; lia).
  unfold at_, cumsum. rewrite cumsum_nth by lia. rewrite Rplus_0_l. rewrite fold_rsum by lia. apply rsum_ext. intros i I.
  unfold p. rewrite nth_combine_mul by lia. unfold inner, d. unfold at_ at 1. rewrite nth_firstn' by lia. fold (at_ (tl v) i). rewrite tl_at.
  unfold at_ at 2. rewrite nth_combine_sub by (rewrite ?tl_length, ?removelast_length; lia). fold (at_ (tl j) i) (at_ (removelast j) i).
  rewrite tl_at, nth_removelast by lia. reflexivity.
Qed.

Definition lin (k : nat) (x : R) : R := V 0%nat * (x - J 0%nat) + rsum (fun i => (V (S i) - V i) * (x - J i)) k.
Lemma lin_abel k x : lin (S k) x = rsum (fun i => V (S i) * (J (S i) - J i)) k + (x - J k) * V (S k).
Proof.
  unfold lin. induction k; [cbn; ring|]. cbn [rsum] in *. rewrite <- Rplus_assoc, IHk. ring.
Qed.
Lemma prim_lin k x : (k <= n)%nat -> (forall i, (i < k)%nat -> J i <= x) -> (forall i, (k <= i < n)%nat -> x <= J i) -> prim x = lin k x.
Proof.
  intros K B A. unfold prim, lin. f_equal. rewrite (rsum_cut _ k n K).
  - apply rsum_ext. intros i I. specialize (B i I). rewrite Rmax_right by lra. reflexivity.
  - intros i I. specialize (A i I). rewrite Rmax_left by lra. ring.
Qed.
Lemma n_pos : (0 < n)%nat.
Proof. destruct (jumps f); [congruence|cbn; lia]. Qed.

Lemma right_part x : (let '(v, j, i) := pw_right f x in at_ (pw_integrals f) i + (x - j) * v) = prim x.
Proof.
  unfold pw_right. set (k := searchsorted_right (jumps f) x). pose proof (ssr_le (jumps f) x) as K. fold k in K. pose proof n_pos.
  rewrite (prim_lin k x K); [|intros; apply ssr_below; assumption|intros i I; left; apply (ssr_above _ _ SORT); assumption].
  destruct k as [|k].
  - cbn [Nat.sub Nat.max]. rewrite integrals_at by lia. unfold lin. cbn. ring.
  - replace (Nat.max (S k - 1) 0) with k by lia. rewrite integrals_at by lia. rewrite lin_abel. reflexivity.
Qed.
Lemma left_part x : (let '(v, j, i) := pw_left f x in at_ (pw_integrals f) i - (j - x) * v) = prim x.
Proof.
  unfold pw_left. set (k := searchsorted_left (jumps f) x). pose proof (ssl_le (jumps f) x) as K. fold k in K. pose proof n_pos.
  rewrite (prim_lin k x K); [|intros i I; left; apply ssl_below; assumption|intros i I; apply (ssl_above _ _ SORT); assumption].
  rewrite LEN. destruct k as [|k].
  - cbn [Nat.min]. rewrite integrals_at by lia. unfold lin. cbn. ring.
  - rewrite lin_abel. destruct (Nat.le_gt_cases n (S k)).
    + replace (Nat.min (S k) (S n - 2)) with k by lia. rewrite integrals_at by lia. ring.
    + replace (Nat.min (S k) (S n - 2)) with (S k) by lia. rewrite integrals_at by lia. cbn [rsum]. ring.
Qed.
Theorem integrate_prim a b : pw_integrate f a b = prim b - prim a.
Proof.
  unfold pw_integrate. pose proof (right_part b) as RB. pose proof (left_part a) as LA.
  destruct (pw_right f b) as ((v2 & j2) & i2). destruct (pw_left f a) as ((v1 & j1) & i1). lra.
Qed.
End PW.
