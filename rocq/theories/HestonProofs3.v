(** Lemmas for the Heston model: the time grid and the recording of the states. *)
From Coquelicot Require Import Coquelicot.
From Coq Require Import Reals List Bool Arith Lia Lra Permutation Sorting.Sorted.
From Verif Require Import TensorModel TensorProofs SegmentModel BrentModel InterpModel BrentProofs ExtReal HaganWestModel BootstrapModel BlackScholesModel BlackScholesSpec
  LoopModel LoopProofs PropsLoop TimeGridModel TimeGridSpec TimeGridProofs PropsTimeGrid MvNormalModel MvNormalProofs PiecewiseModel GbmModel PropsEuler HullWhiteModel HullWhiteProofs2
  HestonModel HestonSpec.
Import ListNotations.
Open Scope R_scope.

(** * Positions *)
Definition positions {A} (f : A -> bool) (d : A) (l : list A) : list nat := filter (fun i => f (nth i l d)) (seq 0 (length l)).
Lemma positions_shift {A} (f : A -> bool) d l s pre : length pre = s ->
  map (fun i => nth i (pre ++ l) d) (filter (fun i => f (nth i (pre ++ l) d)) (seq s (length l))) = filter f l.
Proof.
  revert s pre. induction l as [|x l IH]; intros s pre E; [reflexivity|]. cbn [length seq filter].
  assert (N : nth s (pre ++ x :: l) d = x) by (rewrite app_nth2 by lia; replace (s - length pre)%nat with 0%nat by lia; reflexivity).
  rewrite N. specialize (IH (S s) (pre ++ [x])). rewrite app_length, <- app_assoc in IH. cbn [app length] in IH. specialize (IH ltac:(lia)).
  destruct (f x); cbn [map]; rewrite ?N, IH; reflexivity.
Qed.
Lemma positions_map {A} (f : A -> bool) d l : map (fun i => nth i l d) (positions f d l) = filter f l.
Proof. exact (positions_shift f d l 0 [] eq_refl). Qed.
Lemma filter_sorted {A} (P : A -> A -> Prop) f l : StronglySorted P l -> StronglySorted P (filter f l).
Proof.
  induction 1 as [|x l St IH F]; [constructor|]. cbn [filter]. destruct (f x); [|exact IH]. constructor; [exact IH|].
  apply Forall_forall. intros y Y. apply filter_In in Y. rewrite Forall_forall in F. apply F, Y.
Qed.
Lemma sorted_increasing l : StronglySorted lt l -> increasing_nat l.
Proof.
  induction 1 as [|x l St IH F]; intros k K; [cbn in K; lia|]. cbn [length] in K. destruct k.
  - rewrite Forall_forall in F. apply F. cbn [nth]. apply nth_In. lia.
  - cbn [nth]. apply IH. lia.
Qed.
Lemma positions_increasing {A} (f : A -> bool) d l : increasing_nat (positions f d l).
Proof. apply sorted_increasing, filter_sorted, seq_sorted. Qed.
Lemma sorted_same a : forall b, StronglySorted lt a -> StronglySorted lt b -> (forall x, In x a <-> In x b) -> a = b.
Proof.
  induction a as [|x a IH]; intros b A B H.
  - destruct b as [|y b]; [reflexivity|]. destruct (proj2 (H y) (or_introl eq_refl)).
  - destruct b as [|y b]; [destruct (proj1 (H x) (or_introl eq_refl))|]. apply StronglySorted_inv in A as [A FA]. apply StronglySorted_inv in B as [B FB]. rewrite Forall_forall in FA, FB.
    assert (x = y). { destruct (proj1 (H x) (or_introl eq_refl)) as [E|E]; [congruence|]. destruct (proj2 (H y) (or_introl eq_refl)) as [E'|E']; [congruence|]. specialize (FA _ E'). specialize (FB _ E). lia. }
    subst y. f_equal. apply IH; [exact A|exact B|]. intros z. split; intros Z.
    + destruct (proj1 (H z) (or_intror Z)) as [<-|E]; [|exact E]. specialize (FA _ Z). lia.
    + destruct (proj2 (H z) (or_intror Z)) as [<-|E]; [|exact E]. specialize (FB _ Z). lia.
Qed.

(** * The grid *)
Section Grid.
  Variables (before_ times after_ : list R).
  Let all := before_ ++ times ++ after_.
  Let flags := repeat false (length before_) ++ repeat true (length times) ++ repeat false (length after_).
  Definition m_grid : list R := map (fun i => nth i all 0) (argsort all).
  Definition m_mask : list bool := map (fun i => nth i flags false) (argsort all).
  Definition m_index : list nat := positions (fun b => b) false m_mask.
  Definition in_block (i : nat) : bool := (Nat.leb (length before_) i && Nat.ltb i (length before_ + length times))%bool.
  Lemma flags_nth i : nth i flags false = in_block i.
  Proof.
    unfold flags, in_block. destruct (Nat.leb_spec (length before_) i) as [L|L].
    - rewrite app_nth2 by (rewrite repeat_length; exact L). rewrite repeat_length. destruct (Nat.ltb_spec i (length before_ + length times)) as [L2|L2]; cbn [andb].
      + rewrite app_nth1 by (rewrite repeat_length; lia). apply (repeat_spec (length times) true). apply nth_In. rewrite repeat_length. lia.
      + rewrite app_nth2 by (rewrite repeat_length; lia). apply nth_repeat.
    - rewrite app_nth1 by (rewrite repeat_length; exact L). apply nth_repeat.
  Qed.
  Lemma m_length : length m_grid = (length before_ + length times + length after_)%nat.
  Proof. unfold m_grid. rewrite map_length, (Permutation_length (argsort_perm all)), seq_length. unfold all. rewrite !app_length. lia. Qed.
  Lemma mask_length : length m_mask = length m_grid. Proof. unfold m_mask, m_grid. rewrite !map_length. reflexivity. Qed.
  Lemma m_marks : marks m_mask (length m_grid) m_index.
  Proof.
    split; [apply mask_length|]. unfold m_index, positions. rewrite mask_length. split.
    - intros i H. apply filter_In in H as [H _]. apply in_seq in H. lia.
    - intros i H. rewrite filter_In, in_seq. intuition lia.
  Qed.
  Lemma m_in t : In t m_grid <-> In t before_ \/ In t times \/ In t after_.
  Proof.
    assert (P : Permutation m_grid all).
    { unfold m_grid. rewrite (Permutation_map _ (argsort_perm all)). clear. induction all as [|x l IH]; [reflexivity|]. cbn [length seq map nth]. rewrite <- seq_shift, map_map. cbn [nth]. rewrite IH. reflexivity. }
    assert (E : In t m_grid <-> In t all) by (split; apply Permutation_in; [exact P|symmetry; exact P]).
    rewrite E. unfold all. rewrite !in_app_iff. reflexivity.
  Qed.
  Lemma strongly_nth {A} (P : A -> A -> Prop) l d : StronglySorted P l -> forall i j, (i < j)%nat -> (j < length l)%nat -> P (nth i l d) (nth j l d).
  Proof.
    induction 1 as [|x l St IH F]; intros i j L H; [cbn in H; lia|]. cbn [length] in H. destruct j; [lia|]. destruct i; cbn [nth].
    - rewrite Forall_forall in F. apply F, nth_In. lia.
    - apply IH; lia.
  Qed.
  Lemma m_nondecr i j : (i <= j)%nat -> (j < length m_grid)%nat -> nth i m_grid 0 <= nth j m_grid 0.
  Proof.
    intros L H. destruct (Nat.eq_dec i j) as [->|N]; [lra|]. unfold m_grid in *. rewrite map_length in H. set (F := fun i => nth i all 0).
    rewrite !(nth_indep (map F (argsort all)) 0 (F 0%nat)) by (rewrite map_length; lia). rewrite !map_nth. unfold F.
    destruct (strongly_nth _ _ 0%nat (argsort_sorted all) i j ltac:(lia) H) as [X|[X _]]; cbn [fst] in X; lra.
  Qed.
  Hypothesis Ti : forall i j, (i <= j)%nat -> (j < length times)%nat -> nth i times 0 <= nth j times 0.
  Lemma block_nth i : (i < length times)%nat -> nth (length before_ + i) all 0 = nth i times 0.
  Proof. intros H. unfold all. rewrite app_nth2 by lia. replace (length before_ + i - length before_)%nat with i by lia. apply app_nth1. exact H. Qed.
  Lemma block_sorted : filter in_block (argsort all) = seq (length before_) (length times).
  Proof.
    apply sorted_same.
    - assert (St := filter_sorted _ in_block _ (argsort_sorted all)).
      assert (B : forall i, In i (filter in_block (argsort all)) -> in_block i = true) by (intros i H; apply filter_In in H; apply H).
      induction St as [|x l St IH F]; [constructor|]. constructor; [apply IH; intros; apply B; right; assumption|].
      apply Forall_forall. intros y Y. rewrite Forall_forall in F. specialize (F y Y). pose proof (B x (or_introl eq_refl)) as BX. pose proof (B y (or_intror Y)) as BY.
      unfold in_block in BX, BY. apply andb_prop in BX as [BX1 BX2]. apply andb_prop in BY as [BY1 BY2].
      apply Nat.leb_le in BX1, BY1. apply Nat.ltb_lt in BX2, BY2. destruct F as [F|[_ F]]; cbn [fst snd] in F; [|exact F].
      destruct (le_lt_dec y x) as [L|L]; [|exact L]. exfalso.
      pose proof (Ti (y - length before_) (x - length before_) ltac:(lia) ltac:(lia)) as T. rewrite <- !block_nth in T by lia.
      replace (length before_ + (y - length before_))%nat with y in T by lia. replace (length before_ + (x - length before_))%nat with x in T by lia. lra.
    - apply seq_sorted.
    - intros x. rewrite filter_In, in_seq. unfold in_block. split.
      + intros [_ H]. apply andb_prop in H as [H1 H2]. apply Nat.leb_le in H1. apply Nat.ltb_lt in H2. lia.
      + intros H. split; [|apply andb_true_intro; split; [apply Nat.leb_le; lia|apply Nat.ltb_lt; lia]].
        apply (Permutation_in x (Permutation_sym (argsort_perm all))). apply in_seq. unfold all. rewrite !app_length. lia.
  Qed.
  Lemma filter_ext' {A} (f g : A -> bool) l : (forall x, In x l -> f x = g x) -> filter f l = filter g l.
  Proof. intros H. induction l as [|x l IH]; [reflexivity|]. cbn. rewrite (H x) by (left; reflexivity). rewrite IH by (intros; apply H; right; assumption). reflexivity. Qed.
  Lemma m_index_perm : map (fun i => nth i (argsort all) 0%nat) m_index = seq (length before_) (length times).
  Proof.
    rewrite <- block_sorted. rewrite <- (positions_map in_block 0%nat). f_equal. unfold m_index, positions. rewrite mask_length. unfold m_grid. rewrite map_length.
    apply filter_ext'. intros i H. apply in_seq in H. unfold m_mask. set (F := fun i => nth i flags false).
    rewrite (nth_indep (map F (argsort all)) false (F 0%nat)) by (rewrite map_length; lia). rewrite map_nth. unfold F. apply flags_nth.
  Qed.
  Lemma m_index_length : length m_index = length times.
  Proof. pose proof (f_equal (@length nat) m_index_perm) as E. rewrite map_length, seq_length in E. exact E. Qed.
  Lemma m_index_at j : (j < length times)%nat -> (nth j m_index 0 < length m_grid)%nat /\ nth (nth j m_index 0%nat) m_grid 0 = nth j times 0.
  Proof.
    intros H. assert (L : (nth j m_index 0 < length m_grid)%nat) by (apply (proj1 (proj2 m_marks)), nth_In; rewrite m_index_length; exact H). split; [exact L|].
    pose proof (f_equal (fun l => nth j l 0%nat) m_index_perm) as E. cbv beta in E. rewrite seq_nth in E by exact H. set (G := fun i => nth i (argsort all) 0%nat) in E.
    rewrite (nth_indep (map G m_index) 0%nat (G 0%nat)) in E by (rewrite map_length, m_index_length; exact H). rewrite map_nth in E. unfold G in E.
    unfold m_grid in *. rewrite map_length in L. set (F := fun i => nth i all 0). rewrite (nth_indep (map F (argsort all)) 0 (F 0%nat)) by (rewrite map_length; lia). rewrite map_nth.
    unfold F. rewrite E. apply block_nth. exact H.
  Qed.
  (** the first point *)
  Hypotheses (B0 : before_ <> []) (First : nth 0 before_ 0 = 0) (Pos : forall t, In t all -> 0 <= t).
  Lemma m_first : nth 0 (argsort all) 0%nat = 0%nat.
  Proof.
    pose proof (argsort_sorted all) as St. pose proof (argsort_perm all) as P.
    assert (A0 : nth 0 all 0 = 0) by (unfold all; rewrite app_nth1 by (destruct before_; [contradiction|cbn; lia]); exact First).
    assert (LA : (0 < length all)%nat) by (unfold all; rewrite app_length; destruct before_; [contradiction|cbn; lia]).
    assert (I0 : In 0%nat (argsort all)) by (apply (Permutation_in _ (Permutation_sym P)), in_seq; lia).
    destruct (argsort all) as [|h l] eqn:E; [destruct I0|]. cbn [nth]. destruct I0 as [I0|I0]; [exact I0|].
    apply StronglySorted_inv in St as [_ F]. rewrite Forall_forall in F. specialize (F _ I0). destruct F as [F|[_ F]]; cbn [fst snd] in F; [|lia].
    rewrite A0 in F. assert (IH : In h (seq 0 (length all))) by (apply (Permutation_in _ P); left; reflexivity). apply in_seq in IH.
    assert (HL : (h < length all)%nat) by lia. pose proof (Pos (nth h all 0) (nth_In all 0 HL)). lra.
  Qed.
  Lemma m_grid_pos : (0 < length m_grid)%nat. Proof. rewrite m_length. destruct before_; [contradiction|cbn; lia]. Qed.
  Lemma m_grid_first : nth 0 m_grid 0 = 0.
  Proof.
    pose proof m_grid_pos as L. unfold m_grid in *. rewrite map_length in L. set (F := fun i => nth i all 0). rewrite (nth_indep (map F (argsort all)) 0 (F 0%nat)) by (rewrite map_length; lia). rewrite map_nth.
    unfold F. rewrite m_first. unfold all. rewrite app_nth1 by (destruct before_; [contradiction|cbn; lia]). exact First.
  Qed.
  Lemma m_index_pos j : (j < length times)%nat -> (0 < nth j m_index 0)%nat.
  Proof.
    intros H. destruct (nth j m_index 0%nat) as [|n] eqn:E; [|lia]. exfalso.
    assert (I : In 0%nat m_index) by (rewrite <- E; apply nth_In; rewrite m_index_length; exact H).
    apply (proj2 (proj2 m_marks)) in I; [|apply m_grid_pos]. pose proof m_grid_pos as L. unfold m_mask in I. unfold m_grid in L. rewrite map_length in L. set (F := fun i => nth i flags false) in I.
    rewrite (nth_indep (map F (argsort all)) false (F 0%nat)) in I by (rewrite map_length; lia). rewrite map_nth in I. unfold F in I. rewrite flags_nth, m_first in I.
    assert (LB : (0 < length before_)%nat) by (clear - B0; destruct before_; [contradiction|cbn; lia]).
    unfold in_block in I. apply andb_prop in I as [I _]. apply Nat.leb_le in I. lia.
  Qed.
End Grid.

(** * The loop *)
Lemma all_some_eq {A} (l : list (option A)) r : all_some l = Some r -> l = map Some r.
Proof.
  revert r. induction l as [|[x|] l IH]; intros r H; cbn in H; [injection H as <-; reflexivity| |discriminate]. destruct (all_some l) as [s|]; [|discriminate]. injection H as <-. cbn. f_equal. apply IH. reflexivity.
Qed.
Section Run.
  Variables (h : heston) (tol : R) (z : nat -> R * R) (grid : list R) (X : nat -> state).
  Hypothesis ST : forall i, (S i < length grid)%nat -> heston_step h tol z grid i (X i) = Some (X (S i)).
  Variables (mask : list bool) (idx : list nat).
  Hypotheses (Im : increasing_nat idx) (Mk : marks mask (length grid) idx) (Ne : idx <> []) (P0 : forall j, (j < length idx)%nat -> (0 < nth j idx 0)%nat).
  Lemma heston_run_ok : heston_run h tol z grid mask (length idx) (X 0%nat) = Some (map (fun i => Some (X i)) idx).
  Proof.
    assert (LG : length grid = S (length (steps_dt grid))).
    { unfold steps_dt. rewrite diff_length'. destruct grid; [|reflexivity]. destruct Mk as (_ & M & _). destruct idx; [contradiction|]. specialize (M n (or_introl eq_refl)). cbn in M. lia. }
    assert (Np : (0 < length idx)%nat) by (destruct idx; [contradiction|cbn; lia]).
    assert (ST' : forall i, (i < length (steps_dt grid))%nat -> heston_step h tol z grid i (X i) = Some (X (S i))) by (intros; apply ST; lia).
    unfold heston_run.
    assert (SS : exists r, (if Nat.eqb (length idx) 1 then Some (Single (X 0%nat)) else write (Slots (repeat None (length idx))) 0 (X 0%nat)) = Some r /\
      tape_ok (fun _ x => x) X idx 0 0 r).
    { destruct (Nat.eqb_spec (length idx) 1) as [E|E].
      - exists (Single (X 0%nat)). split; [reflexivity|]. split; [exact E|reflexivity].
      - cbn [write]. destruct (acc_write_ok (repeat None (length idx)) 0 (X 0%nat)) as (l & W1 & W2 & W3 & W4); [rewrite repeat_length; exact Np|]. rewrite W1.
        exists (Slots l). split; [reflexivity|]. split; [exact E|]. split; [rewrite W2, repeat_length; reflexivity|]. intros k K. lia. }
    destruct SS as (r & -> & RT). rewrite LG in Mk.
    destruct (loop_ok (heston_step h tol z grid) (fun _ x => x) X (length (steps_dt grid)) ST' mask idx Im Mk Ne (length (steps_dt grid)) 0 0 r) as (r' & W1 & W2);
      [lia|split; [lia|split; [intros; lia|intros k K; apply P0; lia]]|exact RT|intros; lia|].
    rewrite W1. assert (RE : recorded (fun _ x => x) X idx = map X idx) by reflexivity. rewrite RE in W2. destruct r' as [y|l]; cbn [finish] in W2.
    - assert (Q : [y] = map X idx) by congruence. f_equal. rewrite <- map_map with (f := X) (g := Some). rewrite <- Q. reflexivity.
    - f_equal. rewrite (all_some_eq _ _ W2), map_map. reflexivity.
  Qed.
End Run.
Fixpoint run_states (h : heston) (tol : R) (z : nat -> R * R) (grid : list R) (x0 : state) (n : nat) : state :=
  match n with O => x0 | S m => match heston_step h tol z grid m (run_states h tol z grid x0 m) with Some y => y | None => x0 end end.
Lemma run_states_step h tol z grid x0 i : heston_step h tol z grid i (run_states h tol z grid x0 i) = Some (run_states h tol z grid x0 (S i)).
Proof. cbn [run_states]. destruct (run_states h tol z grid x0 i) as [x v]. unfold heston_step. reflexivity. Qed.
