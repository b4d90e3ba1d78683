From Coq Require Import Reals List Bool Lia Lra.
From Verif Require Import TensorModel TensorProofs InterpModel.
Import ListNotations.
Open Scope R_scope.

Lemma fold_rsum_seq f a n : fold_right Rplus 0 (map f (seq a n)) = rsum (fun i => f (a + i)%nat) n.
Proof.
  revert a. induction n; intros a; [reflexivity|]. rewrite rsum_S_l. cbn [seq map fold_right]. rewrite IHn. rewrite Nat.add_0_r. f_equal.
  apply rsum_ext. intros. f_equal. lia.
Qed.
Lemma get_slice_at tpu x i : (i < length x)%nat -> get_slice tpu x i = at_ x i.
Proof.
  intros H. destruct tpu; [|reflexivity]. unfold get_slice. rewrite fold_rsum_seq. cbn [Nat.add].
  rewrite (rsum_cut _ (S i) (length x)) by first [lia | intros j J; destruct (Nat.eqb_spec j i); [lia|ring]].
  cbn [rsum]. rewrite rsum_0 by (intros j J; destruct (Nat.eqb_spec j i); [lia|ring]). rewrite Nat.eqb_refl. ring.
Qed.

Section Lin.
Variables (tpu : bool) (xs ys : list R) (ls rs : option R).
Notation n := (length xs).
Hypothesis LEN : length ys = n.
Hypothesis SORT : nondecr xs.
Notation f := (linear_interpolate tpu xs ys ls rs).
Definition slope (s : option R) : R := match s with None => 0 | Some v => v end.

Lemma lin_low x : (0 < n)%nat -> x <= at_ xs 0 -> f x = at_ ys 0 + slope ls * (x - at_ xs 0).
Proof.
  intros N H. unfold linear_interpolate. assert (K : searchsorted_left xs x = 0%nat).
  { apply ssl_unique; [assumption|lia|intros; lia|]. intros i I. pose proof (nondecr_le xs SORT 0 i ltac:(lia) ltac:(lia)). lra. }
  rewrite K. cbn [Nat.eqb]. destruct n eqn:E; [lia|]. reflexivity.
Qed.
Lemma lin_high x : (0 < n)%nat -> at_ xs (n - 1) < x -> f x = at_ ys (n - 1) + slope rs * (x - at_ xs (n - 1)).
Proof.
  intros N H. unfold linear_interpolate. assert (K : searchsorted_left xs x = n).
  { apply ssl_unique; [assumption|lia| |intros; lia]. intros i I. pose proof (nondecr_le xs SORT i (n - 1) ltac:(lia) ltac:(lia)). lra. }
  rewrite K. rewrite Nat.eqb_refl, LEN. reflexivity.
Qed.
Lemma lin_mid x i : (S i < n)%nat -> at_ xs i < x <= at_ xs (S i) ->
  f x = at_ ys i + (x - at_ xs i) * ((at_ ys (S i) - at_ ys i) / (at_ xs (S i) - at_ xs i)).
Proof.
  intros N H. unfold linear_interpolate. assert (K : searchsorted_left xs x = S i).
  { apply ssl_unique; [assumption|lia| |].
    - intros j J. pose proof (nondecr_le xs SORT j i ltac:(lia) ltac:(lia)). lra.
    - intros j J. pose proof (nondecr_le xs SORT (S i) j ltac:(lia) ltac:(lia)). lra. }
  rewrite K. replace (Nat.eqb (S i) n) with false by (symmetry; apply Nat.eqb_neq; lia). replace (Nat.eqb (S i) 0) with false by reflexivity. cbn [orb].
  replace (Nat.max (S i - 1) 0) with i by lia. replace (Nat.min (S i) (n - 1)) with (S i) by lia.
  rewrite !get_slice_at by lia. unfold divide_no_nan. destruct (Req_EM_T (at_ xs (S i) - at_ xs i) 0); [lra|]. reflexivity.
Qed.

(** Where a point lies. *)
Lemma locate x : (0 < n)%nat -> x <= at_ xs 0 \/ at_ xs (n - 1) < x \/ exists i, (S i < n)%nat /\ at_ xs i < x <= at_ xs (S i).
Proof.
  intros N. destruct (searchsorted_left xs x) as [|k] eqn:K.
  - left. apply (ssl_above xs x SORT). lia.
  - right. pose proof (ssl_le xs x). destruct (Nat.eq_dec (S k) n) as [E|E].
    + left. apply ssl_below. lia.
    + right. exists k. split; [lia|]. split; [apply ssl_below; lia|apply (ssl_above xs x SORT); lia].
Qed.

Section Mono.
Hypothesis YS : nondecr ys.
Hypothesis SL : 0 <= slope ls.
Hypothesis SR : 0 <= slope rs.
Lemma lin_le_upper x k : searchsorted_left xs x = k -> (k < n)%nat -> f x <= at_ ys k.
Proof.
  intros K H. assert (U : x <= at_ xs k) by (apply (ssl_above xs x SORT); lia). destruct k.
  - rewrite lin_low by (lia || assumption). assert (slope ls * (at_ xs 0 - x) >= 0) by (apply Rle_ge, Rmult_le_pos; lra). lra.
  - assert (L : at_ xs k < x) by (apply ssl_below; lia). rewrite (lin_mid x k) by (lia || lra).
    assert (D : 0 <= at_ ys (S k) - at_ ys k) by (specialize (YS k ltac:(lia)); lra).
    set (dx := at_ xs (S k) - at_ xs k). assert (0 < dx) by (unfold dx; lra).
    replace ((x - at_ xs k) * ((at_ ys (S k) - at_ ys k) / dx)) with ((at_ ys (S k) - at_ ys k) * ((x - at_ xs k) / dx)) by (field; lra).
    assert ((x - at_ xs k) / dx <= 1). { apply Rmult_le_reg_r with dx; [assumption|]. unfold Rdiv. rewrite Rmult_assoc, Rinv_l by lra. unfold dx. lra. }
    assert ((at_ ys (S k) - at_ ys k) * ((x - at_ xs k) / dx) <= (at_ ys (S k) - at_ ys k) * 1) by (apply Rmult_le_compat_l; assumption). lra.
Qed.
Lemma lin_ge_lower x k : searchsorted_left xs x = S k -> at_ ys k <= f x.
Proof.
  intros K. pose proof (ssl_le xs x). assert (L : at_ xs k < x) by (apply ssl_below; lia). destruct (Nat.eq_dec (S k) n) as [E|E].
  - rewrite lin_high by (try lia; replace (n - 1)%nat with k by lia; assumption). replace (n - 1)%nat with k by lia.
    assert (0 <= slope rs * (x - at_ xs k)) by (apply Rmult_le_pos; lra). lra.
  - assert (U : x <= at_ xs (S k)) by (apply (ssl_above xs x SORT); lia). rewrite (lin_mid x k) by (lia || lra).
    assert (D : 0 <= at_ ys (S k) - at_ ys k) by (specialize (YS k ltac:(lia)); lra).
    assert (0 <= (at_ ys (S k) - at_ ys k) / (at_ xs (S k) - at_ xs k)) by (apply Rmult_le_pos; [assumption|left; apply Rinv_0_lt_compat; lra]).
    assert (0 <= (x - at_ xs k) * ((at_ ys (S k) - at_ ys k) / (at_ xs (S k) - at_ xs k))) by (apply Rmult_le_pos; lra). lra.
Qed.
Lemma lin_mono a b : (0 < n)%nat -> a <= b -> f a <= f b.
Proof.
  intros N AB. pose proof (ssl_le xs a) as LA. pose proof (ssl_le xs b) as LB.
  assert (KK : (searchsorted_left xs a <= searchsorted_left xs b)%nat).
  { destruct (Nat.le_gt_cases (searchsorted_left xs a) (searchsorted_left xs b)) as [H|H]; [assumption|exfalso].
    pose proof (ssl_below xs a _ H). pose proof (ssl_above xs b SORT (searchsorted_left xs b) ltac:(lia)). lra. }
  destruct (Nat.eq_dec (searchsorted_left xs a) (searchsorted_left xs b)) as [E|E].
  - destruct (locate a N) as [A|[A|(i & I & A)]].
    + assert (B : b <= at_ xs 0).
      { apply (ssl_above xs b SORT). rewrite <- E. assert (searchsorted_left xs a = 0)%nat; [|lia].
        destruct (searchsorted_left xs a) eqn:Q; [reflexivity|]. pose proof (ssl_below xs a 0 ltac:(lia)). lra. }
      rewrite !lin_low by assumption. assert (0 <= slope ls * (b - a)) by (apply Rmult_le_pos; lra). lra.
    + rewrite !lin_high by (assumption || lra). assert (0 <= slope rs * (b - a)) by (apply Rmult_le_pos; lra). lra.
    + assert (Q : searchsorted_left xs a = S i).
      { apply ssl_unique; [assumption|lia| |].
        - intros j J. pose proof (nondecr_le xs SORT j i ltac:(lia) ltac:(lia)). lra.
        - intros j J. pose proof (nondecr_le xs SORT (S i) j ltac:(lia) ltac:(lia)). lra. }
      assert (B : b <= at_ xs (S i)) by (apply (ssl_above xs b SORT); lia).
      rewrite (lin_mid a i), (lin_mid b i) by (assumption || lra).
      assert (D : 0 <= at_ ys (S i) - at_ ys i) by (specialize (YS i ltac:(lia)); lra).
      assert (0 <= (at_ ys (S i) - at_ ys i) / (at_ xs (S i) - at_ xs i)) by (apply Rmult_le_pos; [assumption|left; apply Rinv_0_lt_compat; lra]).
      apply Rplus_le_compat_l. apply Rmult_le_compat_r; lra.
  - destruct (searchsorted_left xs b) as [|kb] eqn:KB; [lia|].
    apply Rle_trans with (at_ ys kb); [|apply lin_ge_lower; assumption].
    apply Rle_trans with (at_ ys (searchsorted_left xs a)); [apply lin_le_upper; [reflexivity|lia]|]. apply nondecr_le; [assumption|lia|lia].
Qed.
End Mono.
End Lin.
