From Coq Require Import Reals Lra Lia.
From Coquelicot Require Import Coquelicot.
From Coq Require Import List Arith.
From Verif Require Import TensorProofs LoopModel.
Import ListNotations.
Open Scope R_scope.

Lemma rsum_swap (f : nat -> nat -> R) n m : rsum (fun i => rsum (fun j => f i j) m) n = rsum (fun j => rsum (fun i => f i j) n) m.
Proof. induction n; cbn; [rewrite (rsum_0 _ m); [reflexivity|reflexivity]|]. rewrite IHn, <- rsum_plus. reflexivity. Qed.
Lemma rsum_scal_r f c n : rsum (fun i => f i * c) n = rsum f n * c.
Proof. rewrite (rsum_ext _ (fun i => c * f i)) by (intros; ring). rewrite rsum_scal. ring. Qed.
Lemma fold_seq (g : mat -> R) (f : nat -> mat) a k : fold_right (fun x acc => g x + acc) 0 (map f (seq a k)) = rsum (fun q => g (f (a + q)%nat)) k.
Proof.
  revert a. induction k; intros a; [reflexivity|]. rewrite rsum_S_l. cbn [seq map fold_right]. rewrite IHk, Nat.add_0_r. f_equal. apply rsum_ext. intros i _. do 2 f_equal. lia.
Qed.
Lemma ent_add_n f k r c : ent (add_n (map f (seq 0 k))) r c = rsum (fun q => ent (f q) r c) k.
Proof. destruct k; [reflexivity|]. cbn [seq map add_n ent]. exact (fold_seq (fun m => ent m r c) f 0 (S k)). Qed.
Lemma nth_map_seq {X} (f : nat -> X) n i dflt : (i < n)%nat -> nth i (map f (seq 0 n)) dflt = f i.
Proof. intros H. rewrite (nth_indep _ dflt (f 0%nat)) by (rewrite map_length, seq_length; lia). rewrite (map_nth f). rewrite seq_nth by lia. reflexivity. Qed.
Lemma getb_map F n m i j : (i < n)%nat -> (j < m)%nat -> getb (map (fun i => map (fun j => F i j) (seq 0 m)) (seq 0 n)) i j = F i j.
Proof. intros A B. unfold getb. rewrite (nth_map_seq (fun i => map (fun j => F i j) (seq 0 m))) by assumption. apply nth_map_seq. assumption. Qed.

(** [m] has [n] x [w] blocks, block (a, b) of size r a x c b *)
Definition wfb (m : block) (n w : nat) (r c : nat -> nat) : Prop :=
  length m = n /\ (forall l, In l m -> length l = w) /\
  forall a b, (a < n)%nat -> (b < w)%nat -> rows (getb m a b) = r a /\ cols (getb m a b) = c b.
Lemma wfb_jmax m n w r c : wfb m n w r c -> (0 < n)%nat -> match m with [] => 0%nat | l :: _ => length l end = w.
Proof. intros (L & W & _) N. destruct m as [|l m]; [cbn in L; lia|]. apply W. left. reflexivity. Qed.
Lemma wfb_map F n w r c : (forall a b, (a < n)%nat -> (b < w)%nat -> rows (F a b) = r a /\ cols (F a b) = c b) ->
  wfb (map (fun i => map (fun j => F i j) (seq 0 w)) (seq 0 n)) n w r c.
Proof.
  intros H. split; [rewrite map_length, seq_length; reflexivity|]. split.
  - intros l L. apply in_map_iff in L as (i & <- & _). rewrite map_length, seq_length. reflexivity.
  - intros a b A B. rewrite getb_map by assumption. auto.
Qed.
Lemma matmul_wf m1 m2 n k w r c1 c2 : wfb m1 n k r c1 -> wfb m2 k w c1 c2 -> (0 < k)%nat -> wfb (block_matmul m1 m2) n w r c2.
Proof.
  intros W1 W2 K. unfold block_matmul. rewrite (wfb_jmax m2 k w c1 c2 W2 K). destruct W1 as (L1 & _ & E1), W2 as (L2 & _ & E2). rewrite L1, L2.
  apply wfb_map. intros a b A B. destruct k; [lia|]. cbn [seq map add_n rows cols matmul]. split; [apply E1; lia|apply E2; lia].
Qed.
Lemma matmul_ent m1 m2 n k w r c1 c2 a b x y : wfb m1 n k r c1 -> wfb m2 k w c1 c2 -> (0 < k)%nat -> (a < n)%nat -> (b < w)%nat ->
  ent (getb (block_matmul m1 m2) a b) x y = rsum (fun q => rsum (fun l => ent (getb m1 a q) x l * ent (getb m2 q b) l y) (c1 q)) k.
Proof.
  intros W1 W2 K A B. unfold block_matmul. rewrite (wfb_jmax m2 k w c1 c2 W2 K). destruct W1 as (L1 & _ & E1), W2 as (L2 & _ & E2). rewrite L1, L2.
  rewrite getb_map by assumption. rewrite ent_add_n. apply rsum_ext. intros q Q. cbn [matmul ent]. destruct (E1 a q A Q) as (_ & ->). reflexivity.
Qed.
Lemma add_wf m1 m2 n w r c : wfb m1 n w r c -> (0 < n)%nat -> wfb (block_add m1 m2) n w r c.
Proof.
  intros W1 N. unfold block_add. rewrite (wfb_jmax m1 n w r c W1 N). destruct W1 as (L1 & _ & E1). rewrite L1. apply wfb_map. intros a b A B. cbn. apply E1; assumption.
Qed.
Lemma add_ent m1 m2 n w r c a b x y : wfb m1 n w r c -> (0 < n)%nat -> (a < n)%nat -> (b < w)%nat ->
  ent (getb (block_add m1 m2) a b) x y = ent (getb m1 a b) x y + ent (getb m2 a b) x y.
Proof.
  intros W1 N A B. unfold block_add. rewrite (wfb_jmax m1 n w r c W1 N). destruct W1 as (L1 & _ & E1). rewrite L1. rewrite getb_map by assumption. cbn. ring.
Qed.

Section Loop.
  Context (d : list nat) (p : nat).
  Local Notation n := (length d).
  Local Notation dim := (fun a => nth a d 0%nat).
  Hypothesis NPOS : (0 < n)%nat.

  (** the Jacobian [j] applied to a change (ds, dp) of state and parameters *)
  Definition jac_apply (j : jac) (ds : state) (dp : params) (a r : nat) : R :=
    rsum (fun b => rsum (fun k => ent (getb (fst j) a b) r k * ds b k) (nth b d 0%nat)) n +
    rsum (fun q => ent (getb (snd j) a q) r 0 * dp q) p.
  (** blocks of the right sizes *)
  Definition jac_ok (j : jac) : Prop := wfb (fst j) n n dim dim /\ wfb (snd j) n p dim (fun _ => 1%nat).

  Lemma unit_ok : jac_ok (make_unit_jacobian d p).
  Proof.
    split; cbn [make_unit_jacobian fst snd].
    - apply wfb_map. intros a b A B. destruct (Nat.eqb_spec a b) as [->|]; cbn; auto.
    - apply wfb_map. intros a b A B. cbn. auto.
  Qed.
  Lemma unit_apply ds dp a r : (a < n)%nat -> (r < dim a)%nat -> jac_apply (make_unit_jacobian d p) ds dp a r = ds a r.
  Proof.
    intros A Rr. unfold jac_apply, make_unit_jacobian. cbn [fst snd].
    rewrite (rsum_0 _ p). 2:{ intros i I. rewrite (getb_map (fun i _ => zeros (nth i d 0%nat) 1)) by assumption. cbn. ring. }
    rewrite Rplus_0_r.
    rewrite (rsum_ext _ (fun b => if Nat.eqb b a then ds a r else 0)).
    2:{ intros b B. rewrite (getb_map (fun i j => if Nat.eqb i j then eye (nth i d 0%nat) else zeros (nth i d 0%nat) (nth j d 0%nat))) by assumption.
        destruct (Nat.eqb_spec a b) as [<-|N].
        - rewrite Nat.eqb_refl. cbn [eye ent]. rewrite (rsum_ext _ (fun k => if Nat.eqb k r then ds a r else 0)).
          2:{ intros k K. rewrite (Nat.eqb_sym r k). destruct (Nat.eqb_spec k r) as [->|]; ring. }
          clear -Rr. cbn in Rr. revert Rr. generalize (nth a d 0%nat). intros m0. induction m0 as [|m0 IH0]; intros H; [lia|]. cbn [rsum]. destruct (Nat.eqb_spec m0 r) as [->|].
          + rewrite rsum_0; [ring|]. intros i I. destruct (Nat.eqb_spec i r); [lia|reflexivity].
          + rewrite IH0 by lia. ring.
        - destruct (Nat.eqb_spec b a); [congruence|]. apply rsum_0. intros. cbn. ring. }
    clear -A. revert A. generalize (length d). intros m0. induction m0 as [|m0 IH0]; intros H; [lia|]. cbn [rsum]. destruct (Nat.eqb_spec m0 a) as [->|].
    + rewrite rsum_0; [ring|]. intros i I. destruct (Nat.eqb_spec i a); [lia|reflexivity].
    + rewrite IH0 by lia. ring.
  Qed.
  Lemma mult_ok j1 j2 : jac_ok j1 -> jac_ok j2 -> jac_ok (multiply_jacobians j1 j2).
  Proof.
    destruct j1 as (js1, jp1), j2 as (js2, jp2). intros (A1 & A2) (B1 & B2). cbn [fst snd multiply_jacobians] in *. split; cbn [fst snd].
    - eapply matmul_wf; eassumption.
    - apply add_wf; [eapply matmul_wf; eassumption|assumption].
  Qed.
  (** chain rule: product of Jacobians = composition *)
  Lemma mult_apply j1 j2 ds dp a r : jac_ok j1 -> jac_ok j2 -> (a < n)%nat ->
    jac_apply (multiply_jacobians j1 j2) ds dp a r = jac_apply j1 (jac_apply j2 ds dp) dp a r.
  Proof.
    destruct j1 as (js1, jp1), j2 as (js2, jp2). intros (A1 & A2) (B1 & B2) A. cbn [fst snd multiply_jacobians] in *. unfold jac_apply. cbn [fst snd].
    rewrite (rsum_ext _ (fun b => rsum (fun k => rsum (fun q => rsum (fun l => ent (getb js1 a q) r l * (ent (getb js2 q b) l k * ds b k)) (dim q)) n) (dim b))).
    2:{ intros b B. apply rsum_ext. intros k K. rewrite (matmul_ent js1 js2 n n n dim dim dim) by assumption. rewrite <- rsum_scal_r. apply rsum_ext. intros q Q. rewrite <- rsum_scal_r. apply rsum_ext. intros; ring. }
    rewrite (rsum_ext (fun q => ent (getb (block_add (block_matmul js1 jp2) jp1) a q) r 0 * dp q)
      (fun q => rsum (fun b => rsum (fun l => ent (getb js1 a b) r l * (ent (getb jp2 b q) l 0 * dp q)) (dim b)) n + ent (getb jp1 a q) r 0 * dp q)).
    2:{ intros q Q. rewrite (add_ent _ _ n p dim (fun _ => 1%nat)) by (try assumption; eapply matmul_wf; eassumption).
        rewrite (matmul_ent js1 jp2 n n p dim dim (fun _ => 1%nat)) by assumption. rewrite Rmult_plus_distr_r. f_equal. rewrite <- rsum_scal_r. apply rsum_ext. intros b B. rewrite <- rsum_scal_r. apply rsum_ext. intros; ring. }
    rewrite rsum_plus, <- Rplus_assoc. f_equal.
    rewrite (rsum_ext (fun b => rsum (fun k => ent (getb js1 a b) r k * (rsum (fun b0 => rsum (fun k0 => ent (getb js2 b b0) k k0 * ds b0 k0) (nth b0 d 0%nat)) n + rsum (fun q => ent (getb jp2 b q) k 0 * dp q) p)) (nth b d 0%nat))
      (fun b => rsum (fun k => rsum (fun b0 => rsum (fun k0 => ent (getb js1 a b) r k * (ent (getb js2 b b0) k k0 * ds b0 k0)) (nth b0 d 0%nat)) n) (dim b) + rsum (fun k => rsum (fun q => ent (getb js1 a b) r k * (ent (getb jp2 b q) k 0 * dp q)) p) (dim b))).
    2:{ intros b B. rewrite <- rsum_plus. apply rsum_ext. intros k K. rewrite Rmult_plus_distr_l, <- !rsum_scal. f_equal. apply rsum_ext. intros b0 _. rewrite rsum_scal. reflexivity. }
    rewrite rsum_plus. f_equal.
    - (* swap (b, k) with (q, l) *)
      rewrite (rsum_ext _ (fun b => rsum (fun q => rsum (fun k => rsum (fun l => ent (getb js1 a q) r l * (ent (getb js2 q b) l k * ds b k)) (dim q)) (dim b)) n)).
      2:{ intros b B. apply rsum_swap. }
      rewrite rsum_swap. apply rsum_ext. intros q Q.
      rewrite (rsum_ext _ (fun b => rsum (fun l => rsum (fun k => ent (getb js1 a q) r l * (ent (getb js2 q b) l k * ds b k)) (dim b)) (dim q))) by (intros; apply rsum_swap).
      rewrite rsum_swap. reflexivity.
    - rewrite rsum_swap. apply rsum_ext. intros b B. apply rsum_swap.
  Qed.

  (** the gradient is the transposed Jacobian *)
  Lemma gradient_dual j ws ds dp : jac_ok j ->
    rsum (fun b => rsum (fun k => fst (gradient d j ws) b k * ds b k) (nth b d 0%nat)) n + rsum (fun q => snd (gradient d j ws) q * dp q) p =
    rsum (fun a => rsum (fun r => ws a r * jac_apply j ds dp a r) (nth a d 0%nat)) n.
  Proof.
    destruct j as (js, jp). intros (A1 & A2). cbn [fst snd] in A1, A2. cbn [gradient fst snd].
    assert (W : wfb (ws_block d ws) 1 n (fun _ => 1%nat) dim).
    { apply (wfb_map (fun _ a => Mat 1 (nth a d 0%nat) (fun _ r => ws a r)) 1 n). intros; cbn; auto. }
    assert (WE : forall a y r, (a < n)%nat -> ent (getb (ws_block d ws) 0 a) y r = ws a r).
    { intros a y r A. unfold ws_block, getb. cbn [nth]. rewrite (nth_map_seq (fun a => Mat 1 (nth a d 0%nat) (fun _ r => ws a r))) by assumption. reflexivity. }
    rewrite (rsum_ext _ (fun b => rsum (fun k => rsum (fun a => rsum (fun r => ws a r * (ent (getb js a b) r k * ds b k)) (dim a)) n) (dim b))).
    2:{ intros b B. apply rsum_ext. intros k K. rewrite (matmul_ent (ws_block d ws) js 1 n n (fun _ => 1%nat) dim dim) by (try assumption; lia).
        rewrite <- rsum_scal_r. apply rsum_ext. intros a A. rewrite <- rsum_scal_r. apply rsum_ext. intros r Rr. rewrite WE by assumption. ring. }
    rewrite (rsum_ext (fun q => reduce_sum _ * dp q) (fun q => rsum (fun a => rsum (fun r => ws a r * (ent (getb jp a q) r 0 * dp q)) (dim a)) n)).
    2:{ intros q Q. unfold reduce_sum. destruct (matmul_wf _ _ 1 n p _ _ _ W A2 NPOS) as (_ & _ & E). destruct (E 0%nat q ltac:(lia) Q) as (-> & ->). cbn [rsum]. rewrite !Rplus_0_l.
        rewrite (matmul_ent (ws_block d ws) jp 1 n p (fun _ => 1%nat) dim (fun _ => 1%nat)) by (try assumption; lia).
        rewrite <- rsum_scal_r. apply rsum_ext. intros a A. rewrite <- rsum_scal_r. apply rsum_ext. intros r Rr. rewrite WE by assumption. ring. }
    unfold jac_apply. cbn [fst snd].
    rewrite (rsum_ext (fun a => rsum (fun r => ws a r * (_ + _)) _) (fun a => rsum (fun r => rsum (fun b => rsum (fun k => ws a r * (ent (getb js a b) r k * ds b k)) (dim b)) n) (dim a) + rsum (fun r => rsum (fun q => ws a r * (ent (getb jp a q) r 0 * dp q)) p) (dim a))).
    2:{ intros a A. rewrite <- rsum_plus. apply rsum_ext. intros r Rr. rewrite Rmult_plus_distr_l, <- !rsum_scal. f_equal. apply rsum_ext. intros b _. rewrite rsum_scal. reflexivity. }
    rewrite rsum_plus. f_equal.
    - rewrite (rsum_ext _ (fun b => rsum (fun a => rsum (fun k => rsum (fun r => ws a r * (ent (getb js a b) r k * ds b k)) (dim a)) (dim b)) n)) by (intros; apply rsum_swap).
      rewrite rsum_swap. apply rsum_ext. intros a A.
      rewrite (rsum_ext _ (fun b => rsum (fun r => rsum (fun k => ws a r * (ent (getb js a b) r k * ds b k)) (dim b)) (dim a))) by (intros; apply rsum_swap).
      rewrite rsum_swap. reflexivity.
    - rewrite rsum_swap. apply rsum_ext. intros a A. apply rsum_swap.
  Qed.
End Loop.

Lemma while_loop_last {X} (body : nat -> X -> X) m i x : while_loop body i (S m) x = body (i + m)%nat (while_loop body i m x).
Proof.
  revert i x. induction m; intros i x; [cbn; rewrite Nat.add_0_r; reflexivity|].
  change (while_loop body i (S (S m)) x) with (while_loop body (S i) (S m) (body i x)). rewrite IHm. cbn [while_loop]. f_equal. lia.
Qed.

(** accumulating loop *)
Lemma acc_write_ok {X} (acc : list (option X)) k x : (k < length acc)%nat -> exists acc', acc_write acc k x = Some acc' /\ length acc' = length acc /\
  nth_error acc' k = Some (Some x) /\ forall j, j <> k -> nth_error acc' j = nth_error acc j.
Proof.
  intros K. unfold acc_write. destruct (Nat.ltb_spec k (length acc)); [|lia]. eexists. split; [reflexivity|].
  assert (LF : length (firstn k acc) = k) by (rewrite firstn_length; lia).
  split; [rewrite app_length, LF; cbn [length]; rewrite skipn_length; lia|]. split.
  - rewrite nth_error_app2 by lia. rewrite LF, Nat.sub_diag. reflexivity.
  - intros j J. rewrite <- (firstn_skipn k acc) at 3. destruct (Nat.lt_ge_cases j k).
    + rewrite !nth_error_app1 by lia. reflexivity.
    + rewrite !nth_error_app2 by lia. rewrite LF. destruct (j - k)%nat as [|q] eqn:Q; [lia|]. cbn [nth_error].
      clear -K. revert k K q. induction acc as [|a acc IH]; intros [|k] K q; cbn in *; try lia; [reflexivity|]. apply IH. lia.
Qed.

Fixpoint incr_nat (l : list nat) : Prop :=
  match l with a :: (b :: _) as t => (a < b)%nat /\ incr_nat t | _ => True end.
Lemma incr_nat_tl a l : incr_nat (a :: l) -> incr_nat l.
Proof. destruct l; cbn; tauto. Qed.
Lemma incr_nat_hd a l : incr_nat (a :: l) -> forall x, In x l -> (a < x)%nat.
Proof.
  revert a. induction l as [|b l IH]; intros a H x; [intros []|]. destruct H as (H1 & H2). intros [<-|X]; [assumption|]. specialize (IH b H2 x X). lia.
Qed.
(** number of counts below or equal to i: the slot written at iteration i *)
Definition below (l : list nat) (i : nat) : nat := length (filter (fun c => Nat.leb c i) l).
Lemma below_S l i : below l (S i) = (below l i + mask_of l (S i))%nat.
Proof.
  unfold below, mask_of. induction l as [|c l IH]; [reflexivity|]. cbn [filter].
  destruct (Nat.leb_spec c (S i)), (Nat.leb_spec c i), (Nat.eqb_spec (S i) c); cbn [length]; lia.
Qed.
Lemma below_0 l : below l 0 = mask_of l 0.
Proof. unfold below, mask_of. induction l as [|c l IH]; [reflexivity|]. cbn [filter]. destruct (Nat.leb_spec c 0), (Nat.eqb_spec 0 c); cbn [length]; lia. Qed.
Lemma below_nth l k i : incr_nat l -> (k < length l)%nat -> (nth k l 0 <= i)%nat -> (k < below l i)%nat.
Proof.
  unfold below. revert k. induction l as [|c l IH]; intros k H K L; [cbn in K; lia|]. cbn [filter].
  destruct k as [|k].
  - cbn in L. destruct (Nat.leb_spec c i); [cbn; lia|lia].
  - cbn in K, L. specialize (IH k (incr_nat_tl _ _ H) ltac:(lia) L). assert (c < nth k l 0)%nat by (apply (incr_nat_hd c l H), nth_In; lia).
    destruct (Nat.leb_spec c i); cbn; lia.
Qed.
Lemma below_nth_gt l k i : incr_nat l -> (k < length l)%nat -> (i < nth k l 0)%nat -> (below l i <= k)%nat.
Proof.
  unfold below. revert k. induction l as [|c l IH]; intros k H K L; [cbn in K; lia|]. cbn [filter].
  destruct k as [|k].
  - cbn in L. destruct (Nat.leb_spec c i); [lia|]. assert (E : filter (fun c => Nat.leb c i) l = []).
    { pose proof (incr_nat_hd c l H) as HH. clear -HH H0. induction l as [|x l IH]; [reflexivity|]. cbn. destruct (Nat.leb_spec x i); [specialize (HH x ltac:(left; reflexivity)); lia|]. apply IH. intros; apply HH; right; assumption. }
    rewrite E. cbn. lia.
  - cbn in K, L. specialize (IH k (incr_nat_tl _ _ H) ltac:(lia) L). destruct (Nat.leb_spec c i); cbn; lia.
Qed.
Lemma below_lt l i : (i < fold_right Nat.max 0 l)%nat -> (below l i < length l)%nat.
Proof.
  unfold below. induction l as [|c l IH]; cbn; [lia|]. intros H. assert (FL : (length (filter (fun c => Nat.leb c i) l) <= length l)%nat) by (clear; induction l as [|x l IH]; cbn; [lia|destruct (Nat.leb x i); cbn; lia]).
  destruct (Nat.leb_spec c i); cbn; [|lia]. specialize (IH ltac:(lia)). lia.
Qed.

Section Acc.
  Context {X : Type} (body : nat -> X -> X) (x0 : X) (l : list nat).
  Hypothesis INC : incr_nat l.
  Local Notation mx := (fold_right Nat.max 0%nat l).
  Local Notation st := (fun k => while_loop body 0 k x0).
  Lemma max_ge k : (k < length l)%nat -> (nth k l 0 <= mx)%nat.
  Proof. clear INC. revert k. induction l as [|c l' IH]; intros [|k] K; cbn in *; try lia. specialize (IH k ltac:(lia)). lia. Qed.

  (** invariant before iteration i: slots of counts <= i hold their states, and
      the slot under construction holds the current state *)
  Definition acc_inv (i : nat) (acc : list (option X)) : Prop :=
    length acc = length l /\ (forall k, (k < length l)%nat -> (nth k l 0 <= i)%nat -> nth_error acc k = Some (Some (st (nth k l 0%nat)))).
  Lemma acc_loop_inv fuel : forall i acc ai, (i + fuel = mx)%nat -> acc_inv i acc ->
    ai = (match i with 0 => 0 | S j => below l j end)%nat ->
    exists acc', acc_loop body (mask_of l) i fuel ai (st i) acc = Some acc' /\ acc_inv mx acc'.
  Proof.
    induction fuel as [|fuel IH]; intros i acc ai E INV AI.
    - exists acc. split; [reflexivity|]. replace mx with i by lia. assumption.
    - cbn [acc_loop]. destruct INV as (LA & SL).
      assert (AI' : (ai + mask_of l i = below l i)%nat) by (rewrite AI; destruct i; [rewrite below_0; reflexivity|rewrite below_S; reflexivity]).
      rewrite AI'. assert (BL : (below l i < length l)%nat) by (apply below_lt; lia).
      destruct (acc_write_ok acc (below l i) (body i (st i)) ltac:(lia)) as (acc1 & W & L1 & S1 & S2). rewrite W.
      assert (ST : body i (st i) = st (S i)) by (rewrite while_loop_last; reflexivity). rewrite ST in *.
      apply IH; [lia| |reflexivity]. split; [lia|]. intros k K Q.
      destruct (Nat.eq_dec (nth k l 0%nat) (S i)) as [Q'|Q'].
      + rewrite Q'. assert (k = below l i) as ->; [|assumption].
        pose proof (below_nth l k (S i) INC K ltac:(lia)). pose proof (below_nth_gt l k i INC K ltac:(lia)).
        assert (below l i = k \/ (below l i < k)%nat) as [?|B] by lia; [lia|]. exfalso.
        (* slot below l i has a count > i, smaller than count k = S i *)
        assert (nth (below l i) l 0 <= i \/ i < nth (below l i) l 0)%nat as [B1|B1] by lia.
        * pose proof (below_nth l (below l i) i INC BL B1). lia.
        * assert (MONO : forall l a b, incr_nat l -> (a < b)%nat -> (b < length l)%nat -> (nth a l 0 < nth b l 0)%nat).
          { clear. intros l1. induction l1 as [|c l1 IH]; intros [|a] [|b] H A B; cbn in *; try lia.
            - apply (incr_nat_hd c l1 H), nth_In. lia.
            - apply IH; [apply (incr_nat_tl c), H|lia|lia]. }
          specialize (MONO l (below l i) k INC B K). lia.
      + rewrite S2; [apply SL; lia|]. pose proof (below_nth l k i INC K ltac:(lia)). lia.
  Qed.
  Lemma acc_loop_ok : l <> [] -> exists acc, accumulating_for_loop body x0 l = Some acc /\ length acc = length l /\
    forall k, (k < length l)%nat -> nth_error acc k = Some (Some (st (nth k l 0%nat))).
  Proof.
    intros NE. unfold accumulating_for_loop. assert (LP : (0 < length l)%nat) by (destruct l; [congruence|cbn; lia]).
    destruct (acc_write_ok (repeat None (length l)) 0 x0) as (acc & W & LA & S1 & S2); [rewrite repeat_length; assumption|]. rewrite W.
    rewrite repeat_length in LA.
    destruct (acc_loop_inv mx 0 acc 0 ltac:(lia)) as (acc' & E & LA' & SL); [|reflexivity|].
    - split; [assumption|]. intros k K Q. assert (k = 0%nat) as ->.
      { destruct k as [|k]; [reflexivity|]. exfalso. revert INC K Q. destruct l as [|c l']; [congruence|]. cbn. intros H K Q. pose proof (incr_nat_hd c l' H (nth k l' 0%nat) ltac:(apply nth_In; lia)). lia. }
      replace (nth 0 l 0%nat) with 0%nat by lia. assumption.
    - exists acc'. split; [assumption|]. split; [assumption|]. intros k K. apply SL; [assumption|apply max_ge; assumption].
  Qed.
End Acc.
