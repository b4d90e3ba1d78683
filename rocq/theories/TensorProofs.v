(** Finite sums and searchsorted. *)
From Coq Require Import Reals List Bool Lia Lra.
From Verif Require Import TensorModel.
Import ListNotations.
Open Scope R_scope.

Fixpoint rsum (f : nat -> R) (n : nat) : R :=
  match n with O => 0 | S m => rsum f m + f m end.
Lemma rsum_ext f g n : (forall i, (i < n)%nat -> f i = g i) -> rsum f n = rsum g n.
Proof. induction n; intros H; cbn; [reflexivity|]. rewrite IHn by (intros; apply H; lia). rewrite H by lia. reflexivity. Qed.
Lemma rsum_plus f g n : rsum (fun i => f i + g i) n = rsum f n + rsum g n.
Proof. induction n; cbn; [lra|]. rewrite IHn. lra. Qed.
Lemma rsum_scal c f n : rsum (fun i => c * f i) n = c * rsum f n.
Proof. induction n; cbn; [lra|]. rewrite IHn. lra. Qed.
Lemma rsum_minus f g n : rsum (fun i => f i - g i) n = rsum f n - rsum g n.
Proof. induction n; cbn; [lra|]. rewrite IHn. lra. Qed.
Lemma rsum_0 f n : (forall i, (i < n)%nat -> f i = 0) -> rsum f n = 0.
Proof. induction n; intros H; cbn; [reflexivity|]. rewrite IHn by (intros; apply H; lia). rewrite H by lia. lra. Qed.
Lemma rsum_tel f n : rsum (fun i => f (S i) - f i) n = f n - f 0%nat.
Proof. induction n; cbn; [lra|]. rewrite IHn. lra. Qed.
Lemma rsum_add f a b : rsum f (a + b) = rsum f a + rsum (fun i => f (a + i)%nat) b.
Proof. induction b; [rewrite Nat.add_0_r; cbn; lra|]. rewrite Nat.add_succ_r. cbn. rewrite IHb. lra. Qed.
Lemma rsum_cut f a b : (a <= b)%nat -> (forall i, (a <= i < b)%nat -> f i = 0) -> rsum f b = rsum f a.
Proof.
  intros L H. replace b with (a + (b - a))%nat by lia. rewrite rsum_add. rewrite (rsum_0 (fun i => f (a + i)%nat)); [lra|]. intros; apply H; lia.
Qed.
Lemma rsum_S_l f n : rsum f (S n) = f 0%nat + rsum (fun i => f (S i)) n.
Proof. replace (S n) with (1 + n)%nat by lia. rewrite rsum_add. cbn. lra. Qed.
Lemma rsum_nonneg f n : (forall i, (i < n)%nat -> 0 <= f i) -> 0 <= rsum f n.
Proof. induction n; intros H; cbn; [lra|]. assert (0 <= rsum f n) by (apply IHn; intros; apply H; lia). specialize (H n ltac:(lia)). lra. Qed.
Lemma rsum_le f g n : (forall i, (i < n)%nat -> f i <= g i) -> rsum f n <= rsum g n.
Proof. induction n; intros H; cbn; [lra|]. assert (rsum f n <= rsum g n) by (apply IHn; intros; apply H; lia). specialize (H n ltac:(lia)). lra. Qed.
Lemma rsum_rev f n : rsum f n = rsum (fun i => f (n - 1 - i)%nat) n.
Proof.
  induction n; [reflexivity|]. rewrite (rsum_S_l (fun i => f (S n - 1 - i)%nat)). cbn [rsum]. rewrite IHn. rewrite Rplus_comm.
  f_equal; [f_equal; lia|]. apply rsum_ext. intros i H. f_equal. lia.
Qed.

(** nondecreasing / increasing vectors *)
Definition nondecr (l : list R) : Prop := forall i, (S i < length l)%nat -> at_ l i <= at_ l (S i).
Definition incr (l : list R) : Prop := forall i, (S i < length l)%nat -> at_ l i < at_ l (S i).
Lemma incr_nondecr l : incr l -> nondecr l.
Proof. intros H i L. specialize (H i L). lra. Qed.
Lemma nondecr_le l : nondecr l -> forall i j, (i <= j)%nat -> (j < length l)%nat -> at_ l i <= at_ l j.
Proof.
  intros N i j L H. induction L; [lra|]. specialize (IHL ltac:(lia)). specialize (N m H). lra.
Qed.
Lemma incr_lt l : incr l -> forall i j, (i < j)%nat -> (j < length l)%nat -> at_ l i < at_ l j.
Proof.
  intros N i j L H. induction L; [apply N; assumption|]. specialize (IHL ltac:(lia)). specialize (N m H). lra.
Qed.
Lemma at_cons a l i : at_ (a :: l) (S i) = at_ l i.
Proof. reflexivity. Qed.
Lemma nondecr_tl a l : nondecr (a :: l) -> nondecr l.
Proof. intros N i H. apply (N (S i)). cbn. lia. Qed.

Lemma ssl_le l x : (searchsorted_left l x <= length l)%nat.
Proof. induction l; cbn; [lia|]. destruct (Rlt_dec a x); lia. Qed.
Lemma ssr_le l x : (searchsorted_right l x <= length l)%nat.
Proof. induction l; cbn; [lia|]. destruct (Rle_dec a x); lia. Qed.
Lemma ssl_below l x : forall i, (i < searchsorted_left l x)%nat -> at_ l i < x.
Proof.
  induction l as [|a l IH]; cbn; [intros; lia|]. destruct (Rlt_dec a x); intros i H; [|lia]. destruct i; [assumption|]. apply IH. lia.
Qed.
Lemma ssr_below l x : forall i, (i < searchsorted_right l x)%nat -> at_ l i <= x.
Proof.
  induction l as [|a l IH]; cbn; [intros; lia|]. destruct (Rle_dec a x); intros i H; [|lia]. destruct i; [assumption|]. apply IH. lia.
Qed.
Lemma ssl_above l x : nondecr l -> forall i, (searchsorted_left l x <= i < length l)%nat -> x <= at_ l i.
Proof.
  intros N i H. assert (F : x <= at_ l (searchsorted_left l x)).
  { assert (H1 : (searchsorted_left l x < length l)%nat) by lia. clear N H. induction l as [|a l IH]; cbn in *; [lia|].
    destruct (Rlt_dec a x); [|cbn; lra]. apply IH. lia. }
  pose proof (nondecr_le l N (searchsorted_left l x) i ltac:(lia) ltac:(lia)). lra.
Qed.
Lemma ssr_above l x : nondecr l -> forall i, (searchsorted_right l x <= i < length l)%nat -> x < at_ l i.
Proof.
  intros N i H. assert (F : x < at_ l (searchsorted_right l x)).
  { assert (H1 : (searchsorted_right l x < length l)%nat) by lia. clear N H. induction l as [|a l IH]; cbn in *; [lia|].
    destruct (Rle_dec a x); [|cbn; lra]. apply IH. lia. }
  pose proof (nondecr_le l N (searchsorted_right l x) i ltac:(lia) ltac:(lia)). lra.
Qed.
Lemma ssl_unique l x k : nondecr l -> (k <= length l)%nat ->
  (forall i, (i < k)%nat -> at_ l i < x) -> (forall i, (k <= i < length l)%nat -> x <= at_ l i) -> searchsorted_left l x = k.
Proof.
  intros N L B A. destruct (Nat.lt_trichotomy (searchsorted_left l x) k) as [H|[H|H]]; [exfalso|assumption|exfalso].
  - pose proof (B _ H). pose proof (ssl_above l x N (searchsorted_left l x) ltac:(lia)). lra.
  - pose proof (ssl_below l x k H). pose proof (ssl_le l x). specialize (A k ltac:(lia)). lra.
Qed.
Lemma ssr_unique l x k : nondecr l -> (k <= length l)%nat ->
  (forall i, (i < k)%nat -> at_ l i <= x) -> (forall i, (k <= i < length l)%nat -> x < at_ l i) -> searchsorted_right l x = k.
Proof.
  intros N L B A. destruct (Nat.lt_trichotomy (searchsorted_right l x) k) as [H|[H|H]]; [exfalso|assumption|exfalso].
  - pose proof (B _ H). pose proof (ssr_above l x N (searchsorted_right l x) ltac:(lia)). lra.
  - pose proof (ssr_below l x k H). pose proof (ssr_le l x). specialize (A k ltac:(lia)). lra.
Qed.

Lemma at_map (f : R -> R) l i : (i < length l)%nat -> at_ (map f l) i = f (at_ l i).
Proof. intros H. unfold at_. rewrite (nth_indep _ 0 (f 0)) by (rewrite map_length; assumption). apply map_nth. Qed.
Lemma at_seq (f : nat -> R) n i : (i < n)%nat -> at_ (map f (seq 0 n)) i = f i.
Proof.
  intros H. unfold at_. rewrite (nth_indep _ 0 (f 0%nat)) by (rewrite map_length, seq_length; assumption). rewrite map_nth, seq_nth by assumption. reflexivity.
Qed.
Lemma at_app1 a b i : (i < length a)%nat -> at_ (a ++ b) i = at_ a i.
Proof. intros. apply app_nth1. assumption. Qed.
Lemma at_app2 a b i : (length a <= i)%nat -> at_ (a ++ b) i = at_ b (i - length a).
Proof. intros. apply app_nth2. assumption. Qed.
