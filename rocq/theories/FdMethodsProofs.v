(** Lemmas on FdMethodsModel.v: shifts, difference quotients, Taylor coefficients. *)
From Coquelicot Require Import Coquelicot.
From Coq Require Import Reals Lra Lia Psatz ZArith List Bool Arith.
From Verif Require Import ExtReal HaganWestModel BrentModel BoundedCalModel MvNormalModel MvNormalSpec MvNormalProofs GbmProofs2 ImpliedVolProofs FdMethodsModel FdMethodsSpec.
Import ListNotations.
Open Scope R_scope.

(** * Shifts *)
Lemma slice_inside n o k : (k < n)%nat -> in_slice (to_slice n o) k = ((0 <=? Z.of_nat k - o) && (Z.of_nat k - o <? Z.of_nat n))%Z.
Proof.
  intros L. apply eq_true_iff_eq. unfold in_slice, to_slice. rewrite !andb_true_iff, Nat.leb_le, Nat.ltb_lt, Z.leb_le, Z.ltb_lt.
  destruct (Z.leb_spec 0 o); cbn [fst snd]; lia.
Qed.
Lemma slice_source n o k : (k < n)%nat -> (0 <= Z.of_nat k - o < Z.of_nat n)%Z -> Z.of_nat (fst (to_slice n (- o)) + (k - fst (to_slice n o))) = (Z.of_nat k - o)%Z.
Proof. intros L B. unfold to_slice. destruct (Z.leb_spec 0 o), (Z.leb_spec 0 (- o)); cbn [fst snd]; lia. Qed.
Lemma slice_lengths n o : snd (to_slice n o) = snd (to_slice n (- o)).
Proof. unfold to_slice. destruct (Z.leb_spec 0 o), (Z.leb_spec 0 (- o)); cbn [fst snd]; lia. Qed.
Lemma nth_combine3 (idx sh : list nat) (os : list Z) a : length idx = length sh -> length os = length sh -> (a < length sh)%nat ->
  nth a (combine idx (combine sh os)) (0%nat, (0%nat, 0%Z)) = (nth a idx 0%nat, (nth a sh 0%nat, nth a os 0%Z)).
Proof. intros A B L. rewrite combine_nth by (rewrite combine_length; lia). rewrite combine_nth by lia. reflexivity. Qed.
Lemma shift_value x os : length os = length (shape x) -> exists out, shift x os = Some out /\ shape out = shape x /\
  forall idx, Forall2 lt idx (shape x) ->
    (forall src, length src = length idx -> (forall a, (a < length idx)%nat -> (nth a src 0 < nth a (shape x) 0)%nat /\ Z.of_nat (nth a src 0%nat) = (Z.of_nat (nth a idx 0%nat) - nth a os 0)%Z) -> elt out idx = elt x src) /\
    ((exists a, (a < length idx)%nat /\ ~ (0 <= Z.of_nat (nth a idx 0%nat) - nth a os 0 < Z.of_nat (nth a (shape x) 0%nat))%Z) -> elt out idx = NaN).
Proof.
  intros LO. unfold shift. rewrite LO, Nat.ltb_irrefl, Nat.sub_diag. cbn [repeat]. rewrite app_nil_r.
  match goal with |- context [if ?b then _ else None] => replace b with true end.
  2:{ symmetry. apply forallb_forall. intros (n & o) _. apply Nat.eqb_eq. apply slice_lengths. }
  eexists. split; [reflexivity|]. split; [reflexivity|]. intros idx F.
  assert (LI : length idx = length (shape x)) by (clear - F; induction F; cbn; congruence).
  assert (IB : forall a, (a < length idx)%nat -> (nth a idx 0 < nth a (shape x) 0)%nat).
  { clear - F. induction F as [|k n r s L F IH]; intros a A; [cbn in A; lia|]. destruct a; [exact L|]. apply IH. cbn in A. lia. }
  cbn [elt]. set (C := combine idx (combine (shape x) os)). assert (LC : length C = length idx) by (unfold C; rewrite !combine_length; lia).
  assert (NC : forall a, (a < length idx)%nat -> nth a C (0%nat, (0%nat, 0%Z)) = (nth a idx 0%nat, (nth a (shape x) 0%nat, nth a os 0%Z))) by (intros a A; apply nth_combine3; lia).
  split.
  - intros src LS SR. match goal with |- (if ?b then _ else _) = _ => replace b with true end.
    + f_equal. apply (nth_ext _ _ 0%nat 0%nat); [rewrite map_length; lia|]. intros a A. rewrite map_length, LC in A.
      match goal with |- nth a (map ?g C) _ = _ => etransitivity; [apply (nth_indep (map g C) 0%nat (g (0%nat, (0%nat, 0%Z)))); rewrite map_length; lia|etransitivity; [exact (map_nth g C (0%nat, (0%nat, 0%Z)) a)|]] end.
      rewrite NC by exact A. destruct (SR a A) as (B & E). apply Nat2Z.inj. rewrite slice_source; [lia|apply IB; exact A|lia].
    + symmetry. apply forallb_forall. intros (k & (n & o)) I1. apply (In_nth _ _ (0%nat, (0%nat, 0%Z))) in I1. destruct I1 as (a & A & E). rewrite LC in A. rewrite NC in E by exact A.
      injection E as <- <- <-. destruct (SR a A) as (B & E). rewrite slice_inside by (apply IB; exact A). apply andb_true_iff. rewrite Z.leb_le, Z.ltb_lt. lia.
  - intros (a & A & NB). match goal with |- (if ?b then _ else _) = _ => destruct b eqn:F1 end; [|reflexivity]. exfalso. rewrite forallb_forall in F1.
    specialize (F1 (nth a C (0%nat, (0%nat, 0%Z))) ltac:(apply nth_In; lia)). rewrite NC in F1 by exact A. rewrite slice_inside in F1 by (apply IB; exact A).
    apply andb_true_iff in F1. rewrite Z.leb_le, Z.ltb_lt in F1. lia.
Qed.

Lemma grid_index_repeat num ndim idx : grid_index num ndim idx -> Forall2 lt idx (repeat num ndim).
Proof.
  intros (L & F). revert ndim L. induction F as [|k r K F IH]; intros ndim L; cbn in L; subst ndim; [constructor|]. cbn. constructor; [exact K|]. apply IH. reflexivity.
Qed.
Lemma nth_repeat_in {A} (x y : A) n a : (a < n)%nat -> nth a (repeat x n) y = x.
Proof. revert a. induction n as [|n IH]; intros a L; [lia|]. destruct a; [reflexivity|]. cbn. apply IH. lia. Qed.
Lemma nth_map_seq {A} (o : nat -> A) (x : A) n a : (a < n)%nat -> nth a (map o (seq 0 n)) x = o a.
Proof. intros L. rewrite (nth_indep _ x (o 0%nat)) by (rewrite map_length, seq_length; exact L). rewrite map_nth, seq_nth by exact L. reflexivity. Qed.

Lemma nth_map_in {A B} (g : A -> B) (l : list A) (x : A) (y : B) a : (a < length l)%nat -> nth a (map g l) y = g (nth a l x).
Proof. intros L. rewrite (nth_indep _ y (g x)) by (rewrite map_length; exact L). apply map_nth. Qed.

Section Shifted.
  Variables (num ndim : nat) (f : list R -> R) (x : tensor xr).
  Hypotheses (SX : shape x = repeat num ndim) (VX : forall idx, grid_index num ndim idx -> elt x idx = Fin (f (grid_point num idx))).
  Lemma shifted o : exists out, shift x (map o (seq 0 ndim)) = Some out /\ forall idx, grid_index num ndim idx ->
    ((forall a, (a < ndim)%nat -> (0 <= Z.of_nat (nth a idx 0%nat) - o a < Z.of_nat num)%Z) ->
      elt out idx = Fin (f (map (fun a => nth a (grid_point num idx) 0 - IZR (o a) / INR (num - 1)) (seq 0 ndim)))) /\
    ((exists a, (a < ndim)%nat /\ ~ (0 <= Z.of_nat (nth a idx 0%nat) - o a < Z.of_nat num)%Z) -> elt out idx = NaN).
  Proof.
    destruct (shift_value x (map o (seq 0 ndim))) as (out & E & _ & V); [rewrite map_length, seq_length, SX, repeat_length; reflexivity|].
    exists out. split; [exact E|]. intros idx G. pose proof (grid_index_repeat _ _ _ G) as F. rewrite <- SX in F. destruct (V idx F) as (V1 & V2). destruct G as (LI & GF). split.
    - intros B. set (src := map (fun a => Z.to_nat (Z.of_nat (nth a idx 0%nat) - o a)) (seq 0 ndim)).
      assert (NS : forall a, (a < ndim)%nat -> nth a src 0%nat = Z.to_nat (Z.of_nat (nth a idx 0%nat) - o a)) by (intros a A; apply (nth_map_seq (fun a => Z.to_nat (Z.of_nat (nth a idx 0%nat) - o a))); exact A).
      rewrite (V1 src).
      + rewrite VX.
        * f_equal. f_equal. unfold grid_point. apply (nth_ext _ _ 0 0); [unfold src; rewrite !map_length, seq_length; reflexivity|]. intros a A. unfold src in A. rewrite !map_length, seq_length in A.
          rewrite (nth_map_seq (fun a => nth a (map (fun k => INR k / INR (num - 1)) idx) 0 - IZR (o a) / INR (num - 1))) by exact A.
          rewrite (nth_map_in _ src 0%nat 0) by (unfold src; rewrite map_length, seq_length; exact A). rewrite NS by exact A. rewrite (nth_map_in _ idx 0%nat 0) by lia.
          pose proof (B a A) as BA. rewrite (INR_IZR_INZ (Z.to_nat _)), Z2Nat.id by lia. rewrite minus_IZR, <- INR_IZR_INZ. unfold Rdiv. ring.
        * split; [unfold src; rewrite map_length, seq_length; reflexivity|]. apply Forall_forall. intros k K. apply (In_nth _ _ 0%nat) in K. destruct K as (a & A & <-).
          unfold src in A. rewrite map_length, seq_length in A. rewrite NS by exact A. pose proof (B a A). lia.
      + unfold src. rewrite map_length, seq_length. lia.
      + intros a A. rewrite LI in A. rewrite NS, SX, nth_repeat_in, nth_map_seq by exact A. pose proof (B a A). lia.
    - intros (a & A & NB). apply V2. exists a. split; [lia|]. rewrite SX, nth_repeat_in, nth_map_seq by exact A. exact NB.
  Qed.
End Shifted.


(** * Difference quotients *)
Lemma bound_integral (F F1 : R -> R) C n w : F 0 = 0 -> (forall t, 0 <= t <= w -> is_derive F t (F1 t) /\ Rabs (F1 t) <= C * t ^ n) ->
  forall t, 0 <= t <= w -> Rabs (F t) <= C / INR (n + 1) * t ^ (n + 1).
Proof.
  intros Z H t T. assert (P : 0 < INR (n + 1)) by (apply lt_0_INR; lia).
  assert (DP : forall u, is_derive (fun u => C / INR (n + 1) * u ^ (n + 1)) u (C * u ^ n)).
  { intros u. auto_derive; [exact Logic.I|]. replace (Nat.pred (n + 1)) with n by lia. field. lra. }
  assert (M : forall sg, sg = 1 \/ sg = - (1) -> sg * F t <= C / INR (n + 1) * t ^ (n + 1)).
  { intros sg SG. destruct (Req_dec t 0) as [->|T0]; [rewrite Z, pow_i by lia; lra|].
    destruct (MVT_gen (fun u => C / INR (n + 1) * u ^ (n + 1) - sg * F u) 0 t (fun u => C * u ^ n - sg * F1 u)) as (c & CB & E).
    - intros u U. rewrite Rmin_left, Rmax_right in U by lra. apply (is_derive_minus (K := R_AbsRing) (V := R_NormedModule)); [apply DP|]. apply (is_derive_scal F). apply H. lra.
    - intros u U. rewrite Rmin_left, Rmax_right in U by lra. apply continuity_pt_minus.
      + apply derivable_continuous_pt. exists (C * u ^ n). apply is_derive_Reals. apply DP.
      + apply derivable_continuous_pt. exists (sg * F1 u). apply is_derive_Reals. apply (is_derive_scal F). apply H. lra.
    - rewrite Rmin_left, Rmax_right in CB by lra. rewrite Z, pow_i in E by lia. destruct (H c ltac:(lra)) as (_ & B).
      assert (0 <= C * c ^ n - sg * F1 c) by (pose proof (Rabs_def2 (F1 c) (C * c ^ n + 1)); pose proof (Rle_abs (F1 c)); pose proof (Rle_abs (- F1 c)); rewrite Rabs_Ropp in *; destruct SG as [-> | ->]; lra).
      assert (0 <= (C * c ^ n - sg * F1 c) * (t - 0)) by (apply Rmult_le_pos; lra). lra. }
  apply Rabs_le. pose proof (M 1 ltac:(auto)). pose proof (M (- (1)) ltac:(auto)). lra.
Qed.
Section Quotients.
  Variables (D : nat -> R -> R) (M w : R).
  Hypothesis W : 0 < w.
  Lemma back k : (forall t, - w <= t <= w -> is_derive (D k) t (D (S k) t)) -> forall t, 0 <= t <= w -> is_derive (fun u => D k (- u)) t (- D (S k) (- t)).
  Proof using W.
    intros H t T. replace (- D (S k) (- t)) with (- (1) * D (S k) (- t)) by ring. apply (is_derive_comp (D k) (fun u => - u)); [apply H; lra|].
    auto_derive; [exact Logic.I|ring].
  Qed.
  Lemma first_quotient : smooth D 3 M w -> Rabs ((D 0%nat w - D 0%nat (- w)) / (2 * w) - D 1%nat 0) <= M * w ^ 2 / 6.
  Proof using W.
    intros S. assert (H : forall k, (k < 3)%nat -> forall t, - w <= t <= w -> is_derive (D k) t (D (Datatypes.S k) t)) by (intros k K t T; apply (S t T); exact K).
    assert (B : forall t, 0 <= t <= w -> Rabs (D 3%nat t + D 3%nat (- t)) <= 2 * M * t ^ 0).
    { intros t T. destruct (S t ltac:(lra)) as (_ & B1). destruct (S (- t) ltac:(lra)) as (_ & B2). pose proof (Rabs_triang (D 3%nat t) (D 3%nat (- t))). cbn [pow]. lra. }
    assert (B2 : forall t, 0 <= t <= w -> Rabs (D 2%nat t - D 2%nat (- t)) <= 2 * M / INR 1 * t ^ 1).
    { apply (bound_integral (fun t => D 2%nat t - D 2%nat (- t)) (fun t => D 3%nat t + D 3%nat (- t)) (2 * M) 0 w); [rewrite Ropp_0; ring|]. intros t T. split; [|apply B; exact T].
      replace (D 3%nat t + D 3%nat (- t)) with (D 3%nat t - - D 3%nat (- t)) by ring. apply (is_derive_minus (K := R_AbsRing) (V := R_NormedModule)); [apply (H 2%nat); [lia|lra]|apply back; [apply H; lia|exact T]]. }
    assert (B1 : forall t, 0 <= t <= w -> Rabs (D 1%nat t + D 1%nat (- t) - 2 * D 1%nat 0) <= 2 * M / INR 1 / INR 2 * t ^ 2).
    { apply (bound_integral (fun t => D 1%nat t + D 1%nat (- t) - 2 * D 1%nat 0) (fun t => D 2%nat t - D 2%nat (- t)) (2 * M / INR 1) 1 w); [rewrite Ropp_0; ring|]. intros t T. split; [|apply B2; exact T].
      replace (D 2%nat t - D 2%nat (- t)) with (D 2%nat t + - D 2%nat (- t) - 0) by ring. apply (is_derive_minus (K := R_AbsRing) (V := R_NormedModule)); [|apply (is_derive_const (K := R_AbsRing) (V := R_NormedModule))].
      apply (is_derive_plus (K := R_AbsRing) (V := R_NormedModule)); [apply (H 1%nat); [lia|lra]|apply back; [apply H; lia|exact T]]. }
    assert (B0 : forall t, 0 <= t <= w -> Rabs (D 0%nat t - D 0%nat (- t) - 2 * t * D 1%nat 0) <= 2 * M / INR 1 / INR 2 / INR 3 * t ^ 3).
    { apply (bound_integral (fun t => D 0%nat t - D 0%nat (- t) - 2 * t * D 1%nat 0) (fun t => D 1%nat t + D 1%nat (- t) - 2 * D 1%nat 0) (2 * M / INR 1 / INR 2) 2 w); [rewrite Ropp_0; ring|]. intros t T. split; [|apply B1; exact T].
      replace (D 1%nat t + D 1%nat (- t)) with (D 1%nat t - - D 1%nat (- t)) by ring. apply (is_derive_minus (K := R_AbsRing) (V := R_NormedModule)); [|auto_derive; [exact Logic.I|ring]].
      apply (is_derive_minus (K := R_AbsRing) (V := R_NormedModule)); [apply (H 0%nat); [lia|lra]|apply back; [apply H; lia|exact T]]. }
    pose proof (B0 w ltac:(lra)) as Q. cbn [INR] in Q.
    replace ((D 0%nat w - D 0%nat (- w)) / (2 * w) - D 1%nat 0) with ((D 0%nat w - D 0%nat (- w) - 2 * w * D 1%nat 0) * / (2 * w)) by (field; lra).
    assert (IP : 0 < / (2 * w)) by (apply Rinv_0_lt_compat; lra). rewrite Rabs_mult, (Rabs_pos_eq (/ (2 * w))) by lra.
    apply (Rmult_le_compat_r (/ (2 * w))) in Q; [|lra]. eapply Rle_trans; [exact Q|]. right. field. lra.
  Qed.
  Lemma second_quotient : smooth D 4 M w -> Rabs ((D 0%nat w - 2 * D 0%nat 0 + D 0%nat (- w)) / w ^ 2 - D 2%nat 0) <= M * w ^ 2 / 12.
  Proof using W.
    intros S. assert (H : forall k, (k < 4)%nat -> forall t, - w <= t <= w -> is_derive (D k) t (D (Datatypes.S k) t)) by (intros k K t T; apply (S t T); exact K).
    assert (B : forall t, 0 <= t <= w -> Rabs (D 4%nat t + D 4%nat (- t)) <= 2 * M * t ^ 0).
    { intros t T. destruct (S t ltac:(lra)) as (_ & B1). destruct (S (- t) ltac:(lra)) as (_ & B2). pose proof (Rabs_triang (D 4%nat t) (D 4%nat (- t))). cbn [pow]. lra. }
    assert (B3 : forall t, 0 <= t <= w -> Rabs (D 3%nat t - D 3%nat (- t)) <= 2 * M / INR 1 * t ^ 1).
    { apply (bound_integral (fun t => D 3%nat t - D 3%nat (- t)) (fun t => D 4%nat t + D 4%nat (- t)) (2 * M) 0 w); [rewrite Ropp_0; ring|]. intros t T. split; [|apply B; exact T].
      replace (D 4%nat t + D 4%nat (- t)) with (D 4%nat t - - D 4%nat (- t)) by ring. apply (is_derive_minus (K := R_AbsRing) (V := R_NormedModule)); [apply (H 3%nat); [lia|lra]|apply back; [apply H; lia|exact T]]. }
    assert (B2 : forall t, 0 <= t <= w -> Rabs (D 2%nat t + D 2%nat (- t) - 2 * D 2%nat 0) <= 2 * M / INR 1 / INR 2 * t ^ 2).
    { apply (bound_integral (fun t => D 2%nat t + D 2%nat (- t) - 2 * D 2%nat 0) (fun t => D 3%nat t - D 3%nat (- t)) (2 * M / INR 1) 1 w); [rewrite Ropp_0; ring|]. intros t T. split; [|apply B3; exact T].
      replace (D 3%nat t - D 3%nat (- t)) with (D 3%nat t + - D 3%nat (- t) - 0) by ring. apply (is_derive_minus (K := R_AbsRing) (V := R_NormedModule)); [|apply (is_derive_const (K := R_AbsRing) (V := R_NormedModule))].
      apply (is_derive_plus (K := R_AbsRing) (V := R_NormedModule)); [apply (H 2%nat); [lia|lra]|apply back; [apply H; lia|exact T]]. }
    assert (B1 : forall t, 0 <= t <= w -> Rabs (D 1%nat t - D 1%nat (- t) - 2 * t * D 2%nat 0) <= 2 * M / INR 1 / INR 2 / INR 3 * t ^ 3).
    { apply (bound_integral (fun t => D 1%nat t - D 1%nat (- t) - 2 * t * D 2%nat 0) (fun t => D 2%nat t + D 2%nat (- t) - 2 * D 2%nat 0) (2 * M / INR 1 / INR 2) 2 w); [rewrite Ropp_0; ring|]. intros t T. split; [|apply B2; exact T].
      replace (D 2%nat t + D 2%nat (- t)) with (D 2%nat t - - D 2%nat (- t)) by ring. apply (is_derive_minus (K := R_AbsRing) (V := R_NormedModule)); [|auto_derive; [exact Logic.I|ring]].
      apply (is_derive_minus (K := R_AbsRing) (V := R_NormedModule)); [apply (H 1%nat); [lia|lra]|apply back; [apply H; lia|exact T]]. }
    assert (B0 : forall t, 0 <= t <= w -> Rabs (D 0%nat t + D 0%nat (- t) - (2 * D 0%nat 0 + t ^ 2 * D 2%nat 0)) <= 2 * M / INR 1 / INR 2 / INR 3 / INR 4 * t ^ 4).
    { apply (bound_integral (fun t => D 0%nat t + D 0%nat (- t) - (2 * D 0%nat 0 + t ^ 2 * D 2%nat 0)) (fun t => D 1%nat t - D 1%nat (- t) - 2 * t * D 2%nat 0) (2 * M / INR 1 / INR 2 / INR 3) 3 w); [rewrite Ropp_0; ring|]. intros t T. split; [|apply B1; exact T].
      replace (D 1%nat t - D 1%nat (- t)) with (D 1%nat t + - D 1%nat (- t)) by ring. apply (is_derive_minus (K := R_AbsRing) (V := R_NormedModule)); [|auto_derive; [exact Logic.I|ring]].
      apply (is_derive_plus (K := R_AbsRing) (V := R_NormedModule)); [apply (H 0%nat); [lia|lra]|apply back; [apply H; lia|exact T]]. }
    pose proof (B0 w ltac:(lra)) as Q. cbn [INR] in Q.
    replace ((D 0%nat w - 2 * D 0%nat 0 + D 0%nat (- w)) / w ^ 2 - D 2%nat 0) with ((D 0%nat w + D 0%nat (- w) - (2 * D 0%nat 0 + w ^ 2 * D 2%nat 0)) * / w ^ 2) by (field; lra).
    assert (IP : 0 < / w ^ 2) by (apply Rinv_0_lt_compat; nra). rewrite Rabs_mult, (Rabs_pos_eq (/ w ^ 2)) by lra.
    apply (Rmult_le_compat_r (/ w ^ 2)) in Q; [|lra]. eapply Rle_trans; [exact Q|]. right. field. lra.
  Qed.
End Quotients.
Lemma mean_value (F F1 : R -> R) w : 0 < w -> (forall t, - w <= t <= w -> is_derive F t (F1 t)) -> exists c, - w <= c <= w /\ F w - F (- w) = 2 * w * F1 c.
Proof.
  intros W H. destruct (MVT_gen F (- w) w F1) as (c & CB & E).
  - intros u U. rewrite Rmin_left, Rmax_right in U by lra. apply H. lra.
  - intros u U. rewrite Rmin_left, Rmax_right in U by lra. apply derivable_continuous_pt. exists (F1 u). apply is_derive_Reals. apply H. lra.
  - rewrite Rmin_left, Rmax_right in CB by lra. exists c. split; [exact CB|]. rewrite E. ring.
Qed.
Lemma mixed_quotient (G G1 G12 : R -> R -> R) w : 0 < w ->
  (forall s t, - w <= s <= w -> - w <= t <= w -> is_derive (fun s => G s t) s (G1 s t) /\ is_derive (fun t => G1 s t) t (G12 s t)) ->
  exists s t, - w <= s <= w /\ - w <= t <= w /\ (G w w - G w (- w) - G (- w) w + G (- w) (- w)) / (4 * w ^ 2) = G12 s t.
Proof.
  intros W H. destruct (mean_value (fun s => G s w - G s (- w)) (fun s => G1 s w - G1 s (- w)) w W) as (s & SB & E1).
  { intros t T. apply (is_derive_minus (K := R_AbsRing) (V := R_NormedModule)); apply H; lra. }
  destruct (mean_value (fun t => G1 s t) (fun t => G12 s t) w W) as (t & TB & E2).
  { intros t T. apply H; assumption. }
  exists s, t. split; [exact SB|split; [exact TB|]]. rewrite E2 in E1.
  replace (G w w - G w (- w) - G (- w) w + G (- w) (- w)) with (G w w - G w (- w) - (G (- w) w - G (- w) (- w))) by ring. rewrite E1. field. lra.
Qed.
