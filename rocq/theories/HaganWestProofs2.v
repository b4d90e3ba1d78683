(** Lemmas about the whole monotone convex curve. *)
From Coq Require Import Reals Bool ZArith Lia Lra Psatz.
From Coquelicot Require Import Coquelicot.
From Coq Require Import List.
From Verif Require Import TensorModel TensorProofs InterpModel BrentModel SegmentModel SegmentProofs PiecewiseModel PropsPiecewise ExtReal RatesModel PropsForwards HaganWestModel HaganWestSpec HaganWestProofs RIntAux.
Import ListNotations.
Open Scope R_scope.

Lemma nth_tl (l : list R) k : nth k (tl l) 0 = nth (S k) l 0.
Proof. destruct l; [destruct k; reflexivity|reflexivity]. Qed.
Lemma nth_removelast (l : list R) : forall k, (S k < length l)%nat -> nth k (removelast l) 0 = nth k l 0.
Proof. induction l as [|a [|b l] IH]; intros k K; cbn [length] in K; try lia. change (removelast (a :: b :: l)) with (a :: removelast (b :: l)). destruct k; [reflexivity|]. cbn [nth]. apply IH. cbn [length]. lia. Qed.
Lemma length_removelast (l : list R) : length (removelast l) = (length l - 1)%nat.
Proof. induction l as [|a [|b l] IH]; [reflexivity|reflexivity|]. change (removelast (a :: b :: l)) with (a :: removelast (b :: l)). cbn [length] in *. rewrite IH. lia. Qed.
Lemma length_tl (l : list R) : length (tl l) = (length l - 1)%nat.
Proof. destruct l; cbn; lia. Qed.
Lemma last_nth (l : list R) : last l 0 = nth (length l - 1) l 0.
Proof. induction l as [|a [|b l] IH]; [reflexivity|reflexivity|]. change (last (a :: b :: l) 0) with (last (b :: l) 0). rewrite IH. cbn [length]. replace (S (S (length l)) - 1)%nat with (S (S (length l) - 1)) by lia. reflexivity. Qed.

Section Curve.
Context (ts fds : list R) (V : valid ts fds).
Notation n := (length ts).
Notation E := (edge ts).
Notation fd := (avg fds).
Notation bd := (boundary ts fds).

Lemma dt1_nth k : (k < n)%nat -> nth k (diff 1 false ts) 0 = E (S k) - E k.
Proof. intros K. rewrite SegmentProofs.diff_nth by exact K. unfold edge. destruct k; cbn [Nat.ltb Nat.leb]; [cbn; ring|]. replace (S k - 1)%nat with k by lia. reflexivity. Qed.
Lemma dt2_nth k : (S k < n)%nat -> nth k (tl (diff 2 false ts)) 0 = E (S (S k)) - E k.
Proof.
  intros K. rewrite nth_tl, SegmentProofs.diff_nth by exact K. unfold edge. destruct k.
  - cbn [Nat.ltb Nat.leb]. change (nth 0 (0 :: ts) 0) with 0. change (nth 2 (0 :: ts) 0) with (nth 1 ts 0). ring.
  - replace (Nat.ltb (S (S k)) 2) with false by (symmetry; apply Nat.ltb_ge; lia). replace (S (S k) - 2)%nat with k by lia. reflexivity.
Qed.
Lemma adjacent_eq : interpolate_adjacent ts fds = Some (map bd (seq 0 (S n))).
Proof.
  destruct V as (N2 & L & INC). unfold interpolate_adjacent.
  set (dt1 := diff 1 false ts). set (dt2 := tl (diff 2 false ts)).
  assert (L1 : length dt1 = n) by apply diff_length. assert (L2 : length dt2 = (n - 1)%nat) by (unfold dt2; rewrite length_tl, diff_length; reflexivity).
  assert (LR : length (vzip Rdiv (removelast dt1) dt2) = (n - 1)%nat) by (rewrite vzip_length; rewrite length_removelast; lia).
  assert (LL : length (vzip Rdiv (tl dt1) dt2) = (n - 1)%nat) by (rewrite vzip_length; rewrite length_tl; lia).
  assert (LA : length (vzip Rmult (vzip Rdiv (removelast dt1) dt2) (tl fds)) = (n - 1)%nat) by (rewrite vzip_length; rewrite ?length_tl; lia).
  assert (LB : length (vzip Rmult (vzip Rdiv (tl dt1) dt2) (removelast fds)) = (n - 1)%nat) by (rewrite vzip_length; rewrite ?length_removelast; lia).
  set (iv := vzip Rplus _ _). assert (LI : length iv = (n - 1)%nat) by (unfold iv; rewrite vzip_length; congruence).
  assert (IV : iv = map (inner ts fds) (seq 1 (n - 1))).
  { apply (nth_ext _ _ 0 (inner ts fds 0)); [rewrite map_length, seq_length; exact LI|]. intros k K. rewrite LI in K.
    rewrite map_nth, seq_nth by exact K. unfold iv. rewrite vzip_nth by lia. rewrite !vzip_nth by (rewrite ?LR, ?LL, ?length_tl, ?length_removelast; lia).
    rewrite !nth_tl, !nth_removelast by lia. unfold dt1, dt2. rewrite dt1_nth, dt1_nth, dt2_nth by lia. unfold inner. cbn [Nat.add]. replace (S k - 1)%nat with k by lia.
    unfold avg. unfold Rdiv. ring. }
  assert (D : exists r, iv = inner ts fds 1 :: r). { rewrite IV. destruct (n - 1)%nat as [|m] eqn:M; [lia|]. cbn [seq map]. eexists. reflexivity. }
  destruct D as (r & D). rewrite D. rewrite <- D. f_equal. rewrite !last_nth, LI, L, IV. rewrite (nth_indep (map (inner ts fds) (seq 1 (n - 1))) 0 (inner ts fds 0)) by (rewrite map_length, seq_length; lia). rewrite map_nth, seq_nth by lia.
  replace (S n) with (1 + ((n - 1) + 1))%nat at 1 by lia. rewrite seq_app, seq_app, !map_app. cbn [seq map]. f_equal; [|f_equal].
  - f_equal. unfold boundary, at_, avg. cbn [Nat.eqb]. field.
  - apply map_ext_in. intros i I. apply in_seq in I. unfold boundary. destruct (Nat.eqb_spec i 0) as [Q0|Q0]; [lia|]. destruct (Nat.eqb_spec i n) as [Q1|Q1]; [lia|]. reflexivity.
  - f_equal. unfold boundary. cbn [Nat.add]. replace (S (n - 1))%nat with n by lia. destruct (Nat.eqb_spec n 0) as [Q0|Q0]; [lia|]. rewrite Nat.eqb_refl. replace (S (n - 1 - 1))%nat with (n - 1)%nat by lia. unfold avg. field.
Qed.
Lemma edges_incr : incr (0 :: ts).
Proof. destruct V as (_ & _ & INC). intros i I. cbn [length] in I. apply (INC i). lia. Qed.
Lemma edge_lt i j : (i < j <= n)%nat -> E i < E j.
Proof.
  intros [IJ J]. destruct V as (_ & _ & INC). induction IJ as [|j IJ IH]; [apply INC; lia|]. specialize (IH ltac:(lia)). specialize (INC j ltac:(lia)). lra.
Qed.
Lemma edge_le i j : (i <= j <= n)%nat -> E i <= E j.
Proof. intros H. destruct (Nat.eq_dec i j) as [->|N]; [lra|]. left. apply edge_lt. lia. Qed.
Lemma edge_0 : E 0 = 0.
Proof. reflexivity. Qed.

Lemma index_eq i t : belongs ts i t -> find_interval_index t (0 :: ts) true = Z.of_nat i.
Proof.
  intros (I & A & B). destruct (C21_find_interval_index (0 :: ts) t (incr_nondecr _ edges_incr) ltac:(discriminate)) as (R & LO & HI & ->).
  set (j := find_interval_index t (0 :: ts) false) in *. cbn [length] in *. replace (S n - 1)%nat with n in * by lia. fold (E n).
  destruct B as [B|[B ->]].
  - pose proof (edge_le (S i) n ltac:(lia)) as M. destruct (Req_EM_T t (E n)); [lra|].
    destruct (Z.lt_trichotomy j (Z.of_nat i)) as [J|[J|J]]; [|exact J|]; exfalso.
    + specialize (HI ltac:(lia)). pose proof (edge_le (Z.to_nat (j + 1)) i ltac:(lia)) as X. unfold edge in *. lra.
    + specialize (LO ltac:(lia)). pose proof (edge_le (S i) (Z.to_nat j) ltac:(lia)) as X. unfold edge in *. lra.
  - rewrite B. destruct (Req_EM_T (E n) (E n)); [lia|contradiction].
Qed.
Lemma locate_time t : 0 <= t <= E n -> exists i, belongs ts i t.
Proof.
  intros T. destruct V as (N2 & _ & INC). destruct (Req_dec t (E n)) as [->|NE].
  - exists (n - 1)%nat. pose proof (INC (n - 1)%nat ltac:(lia)) as H. replace (S (n - 1)) with n in H by lia. unfold belongs. replace (S (n - 1)) with n by lia. split; [lia|]. split; [lra|]. right. split; reflexivity.
  - assert (G : forall m, (m <= n)%nat -> t < E m -> exists i, (i < m)%nat /\ E i <= t < E (S i)).
    { induction m as [|m IH]; intros M L; [rewrite edge_0 in L; lra|]. destruct (Rle_lt_dec (E m) t) as [X|X]; [exists m; split; [lia|lra]|]. destruct (IH ltac:(lia) X) as (i & I & B). exists i. split; [lia|exact B]. }
    destruct (G n ltac:(lia) ltac:(lra)) as (i & I & B). exists i. split; [exact I|]. split; [lra|left; lra].
Qed.
Lemma gather_bd i : (i <= n)%nat -> gather1 (map bd (seq 0 (S n))) (Z.of_nat i) = Some (bd i).
Proof.
  intros I. unfold gather1. destruct (Z.ltb_spec (Z.of_nat i) 0); [lia|]. rewrite Nat2Z.id. rewrite nth_error_map. rewrite (nth_error_nth' (seq 0 (S n)) 0%nat) by (rewrite seq_length; lia). rewrite seq_nth by lia. reflexivity.
Qed.
Lemma gather_list (l : list R) i : (i < length l)%nat -> gather1 l (Z.of_nat i) = Some (nth i l 0).
Proof. intros I. unfold gather1. destruct (Z.ltb_spec (Z.of_nat i) 0); [lia|]. rewrite Nat2Z.id. apply nth_error_nth'. exact I. Qed.

Definition len (i : nat) : R := E (S i) - E i.
Definition pos (i : nat) (t : R) : R := (t - E i) / len i.
Lemma len_pos i : (i < n)%nat -> 0 < len i.
Proof. intros I. destruct V as (_ & _ & INC). specialize (INC i I). unfold len. lra. Qed.
Lemma validated t va : 0 <= t -> va && negb (rleb 0 t && forallb (fun u => rlt 0 u) ts) = false.
Proof.
  intros T. destruct va; [|reflexivity]. cbn [andb]. replace (rleb 0 t) with true by (symmetry; apply rleb_true; exact T). cbn [andb].
  replace (forallb (fun u => rlt 0 u) ts) with true; [reflexivity|]. symmetry. apply forallb_forall. intros u U. apply rlt_true. apply (In_nth ts u 0) in U as (k & K & <-).
  pose proof (edge_lt 0 (S k) ltac:(lia)) as X. exact X.
Qed.
Lemma belongs_nonneg i t : belongs ts i t -> 0 <= t <= E n.
Proof. intros (I & A & B). pose proof (edge_le 0 i ltac:(lia)) as X. rewrite edge_0 in X. pose proof (edge_le (S i) n ltac:(lia)). lra. Qed.
Lemma hw_at next i t va : belongs ts i t -> hw_interpolate next t fds ts va = Some (interval_curve next (bd i) (bd (S i)) (fd i) (pos i t) (len i)).
Proof.
  intros B. pose proof (belongs_nonneg i t B) as T. unfold hw_interpolate. rewrite validated by lra. rewrite adjacent_eq. rewrite (index_eq i t B). destruct B as (I & _ & _). destruct V as (N2 & L & _).
  replace (Z.of_nat i + 1)%Z with (Z.of_nat (S i)) by lia. rewrite !gather_bd by lia. rewrite (gather_list fds i) by lia. rewrite !(gather_list (0 :: ts)) by (cbn [length]; lia). reflexivity.
Qed.
Lemma pos_range i t : belongs ts i t -> 0 <= pos i t <= 1.
Proof. intros (I & A & B). pose proof (len_pos i I) as L. unfold pos. apply quot_bounds; unfold len in *; nra. Qed.

Notation origin next i := (flat next ts fds i).
Notation regular i := (HaganWestSpec.regular ts fds i).
Lemma origin_dec next i : {origin next i} + {~ origin next i}.
Proof. unfold flat. destruct (Rle_dec (Rabs (bd i - fd i)) (Rabs (next (fd i) (bd i) - fd i) * (11 / 10))), (Rle_dec (Rabs (bd (S i) - fd i)) (Rabs (next (fd i) (bd (S i)) - fd i) * (11 / 10))); [left; tauto|right; tauto|right; tauto|right; tauto]. Qed.
Lemma curve_eq next i x l : interval_curve next (bd i) (bd (S i)) (fd i) x l =
  let '(r, q) := if origin_dec next i then (Fin 0, Fin 0) else regions (bd i - fd i) (bd (S i) - fd i) x in (r +x Fin (fd i), (q +x Fin (fd i * x)) *x Fin l).
Proof.
  unfold interval_curve, regions. cbv zeta. unfold rleb. destruct (origin_dec next i) as [O|O]; unfold flat in O;
  destruct (Rle_dec (Rabs (bd i - fd i)) _), (Rle_dec (Rabs (bd (S i) - fd i)) _); cbn [andb]; try reflexivity; exfalso; tauto.
Qed.
(** The curve over interval [i] as real functions of the position. *)
Lemma interval_piece next i : regular i -> exists v I : R -> R,
  (forall x l, 0 <= x <= 1 -> interval_curve next (bd i) (bd (S i)) (fd i) x l = (Fin (v x + fd i), Fin ((I x + fd i * x) * l))) /\
  (origin next i /\ (forall x, v x = 0) /\ (forall x, I x = 0) \/ ~ origin next i /\ piece (bd i - fd i) (bd (S i) - fd i) v I).
Proof.
  intros G. destruct (origin_dec next i) as [O|O] eqn:OD.
  - exists (fun _ => 0), (fun _ => 0). split; [|left; auto]. intros x l X. rewrite curve_eq, OD. reflexivity.
  - destruct (regions_piece (bd i - fd i) (bd (S i) - fd i)) as (v & I & P & Q); [destruct (Req_dec (bd i) (fd i)) as [D|D]; [right; specialize (G D); lra|left; lra]|]. exists v, I. split; [|right; auto].
    intros x l X. rewrite curve_eq, OD, (Q x X). reflexivity.
Qed.
End Curve.

Lemma is_RInt_affine (v : R -> R) a l x K c : 0 < l -> is_RInt v 0 x K -> is_RInt (fun s => v ((s - a) / l) + c) a (a + x * l) ((K + c * x) * l).
Proof.
  intros L H. apply (isi_ext (fun s => l * (/ l * v (/ l * s + - a / l)) + c)).
  - intros s _. replace (/ l * s + - a / l) with ((s - a) / l) by (field; lra). field. lra.
  - eapply isi_plus; [eapply isi_scal; [apply (is_RInt_comp_lin (V := R_NormedModule) v (/ l) (- a / l) a (a + x * l) K)|reflexivity]|apply isi_const; reflexivity|].
    + replace (/ l * a + - a / l) with 0 by (field; lra). replace (/ l * (a + x * l) + - a / l) with x by (field; lra). exact H.
    + ring.
Qed.
