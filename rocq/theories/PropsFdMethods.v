(** C98: finite differences on uniform grids. *)
From Coquelicot Require Import Coquelicot.
From Coq Require Import Reals Lra Lia Psatz ZArith List Bool Arith.
From Verif Require Import ExtReal HaganWestModel BrentModel BoundedCalModel MvNormalModel MvNormalSpec MvNormalProofs GbmProofs2 ImpliedVolProofs FdMethodsModel FdMethodsSpec FdMethodsProofs FdMethodsProofs2.
Import ListNotations.
Open Scope R_scope.

(** The test function is nowhere negative and is zero only where all coordinates are one. *)
Theorem C98_rosenbrock x : 0 <= rosenbrock x /\ ((1 < length x)%nat -> rosenbrock x = 0 <-> Forall (fun c => c = 1) x).
Proof.
  assert (E : forall a b r, rosenbrock (a :: b :: r) = 100 * (b - a ^ 2) ^ 2 + (1 - a) ^ 2 + rosenbrock (b :: r)) by reflexivity.
  assert (P : forall x, 0 <= rosenbrock x).
  { intros y. destruct y as [|a r]; [right; reflexivity|]. revert a. induction r as [|b r IH]; intros a; [right; reflexivity|]. rewrite E. specialize (IH b). pose proof (pow2_ge_0 (b - a ^ 2)). pose proof (pow2_ge_0 (1 - a)). lra. }
  assert (Q0 : forall y, y ^ 2 <= 0 -> y = 0) by (intros y Y; destruct (Req_dec y 0) as [|N]; [assumption|]; pose proof (pow2_gt_0 y N); lra).
  split; [apply P|]. intros L. destruct x as [|a [|b r]]; cbn in L; try lia. clear L. revert a b. induction r as [|c r IH]; intros a b; rewrite E.
  - change (rosenbrock [b]) with 0. split.
    + intros Z. pose proof (pow2_ge_0 (b - a ^ 2)). assert (A : 1 - a = 0) by (apply Q0; lra). assert (A1 : a = 1) by lra. subst a. assert (B : b - 1 ^ 2 = 0) by (apply Q0; pose proof (pow2_ge_0 (1 - 1)); lra). assert (B1 : b = 1) by lra. subst b. repeat constructor.
    + intros F. inversion F as [|? ? -> F1]. inversion F1 as [|? ? -> _]. ring.
  - specialize (IH b c). pose proof (P (b :: c :: r)) as Q. split.
    + intros Z. assert (Z2 : rosenbrock (b :: c :: r) = 0) by (pose proof (pow2_ge_0 (b - a ^ 2)); pose proof (pow2_ge_0 (1 - a)); lra). constructor; [|apply IH; exact Z2]. assert (A : 1 - a = 0) by (apply Q0; pose proof (pow2_ge_0 (b - a ^ 2)); lra). lra.
    + intros F. inversion F as [|? ? -> F1]. rewrite (proj2 IH F1). inversion F1 as [|? ? -> _]. ring.
Qed.

(** The grid: what is refused, and its points. *)
Theorem C98_grid num ndim large : (grid num ndim large = None <-> num = 1%nat \/ ndim = 0%nat \/ (large = false /\ (10000000 < N.of_nat num ^ N.of_nat ndim * N.of_nat ndim)%N)) /\
  forall points w, grid num ndim large = Some (points, w) -> shape points = repeat num ndim ++ [ndim] /\
    ((1 < num)%nat -> w = 1 / INR (num - 1)) /\
    forall idx, grid_index num ndim idx -> map (fun a => elt points (idx ++ [a])) (seq 0 ndim) = grid_point num idx.
Proof.
  unfold grid, too_large. split.
  - destruct large; cbn [negb andb].
    + destruct (Nat.eqb_spec num 1), (Nat.eqb_spec ndim 0); split; try tauto; try discriminate. intros [X|[X|(X & _)]]; [tauto|tauto|discriminate X].
    + destruct (N.ltb_spec 10000000 (N.of_nat num ^ N.of_nat ndim * N.of_nat ndim)) as [B|B]; [split; [intros _; right; right; split; [reflexivity|exact B]|reflexivity]|].
      destruct (Nat.eqb_spec num 1), (Nat.eqb_spec ndim 0); split; try tauto; try discriminate. intros [X|[X|(_ & X)]]; [tauto|tauto|lia].
  - intros points w. match goal with |- (if ?b then _ else _) = _ -> _ => destruct b end; [discriminate|]. destruct (Nat.eqb_spec num 1) as [|N1]; [discriminate|]. destruct (Nat.eqb_spec ndim 0); [discriminate|].
    intros E. injection E as <- <-. split; [reflexivity|]. split; [intros L; rewrite minus_INR by lia; reflexivity|]. intros idx (LI & F). unfold grid_point. cbn [elt].
    apply (nth_ext _ _ 0 0); [rewrite !map_length, seq_length; lia|]. intros a A. rewrite map_length, seq_length in A. rewrite (nth_map_in _ (seq 0 ndim) 0%nat 0) by (rewrite seq_length; exact A).
    rewrite (nth_map_in _ idx 0%nat 0) by lia. rewrite seq_nth by exact A. cbn [Nat.add]. rewrite last_last, app_nth1 by lia.
    assert (K : (nth a idx 0 < num)%nat) by (rewrite Forall_forall in F; apply F; apply nth_In; lia). rewrite minus_INR by lia. change (INR 1) with 1. unfold Rdiv. ring.
Qed.

(** Shifting moves every element by the offsets and fills with NaN. *)
Theorem C98_shift x offsets : length offsets = length (shape x) -> exists out, shift x offsets = Some out /\ shape out = shape x /\
  forall idx, Forall2 lt idx (shape x) ->
    (forall src, length src = length idx -> (forall a, (a < length idx)%nat -> (nth a src 0 < nth a (shape x) 0)%nat /\ Z.of_nat (nth a src 0%nat) = (Z.of_nat (nth a idx 0%nat) - nth a offsets 0)%Z) -> elt out idx = elt x src) /\
    ((exists a, (a < length idx)%nat /\ ~ (0 <= Z.of_nat (nth a idx 0%nat) - nth a offsets 0 < Z.of_nat (nth a (shape x) 0%nat))%Z) -> elt out idx = NaN).
Proof. exact (shift_value x offsets). Qed.

(** * Differences on the grid *)
Definition unit_offset (s : Z) (d a : nat) : Z := if Nat.eqb a d then s else 0%Z.
Lemma zneg_eye n d : zneg (eye_row n d) = map (unit_offset (-1) d) (seq 0 n).
Proof. unfold zneg, eye_row. rewrite map_map. apply map_ext. intros a. unfold unit_offset. destruct (Nat.eqb a d); reflexivity. Qed.
Lemma zneg_map o n : zneg (map o (seq 0 n)) = map (fun a => (- o a)%Z) (seq 0 n).
Proof. unfold zneg. rewrite map_map. reflexivity. Qed.
Lemma combine_maps {A B C} (f : A -> B) (g : A -> C) l : combine (map f l) (map g l) = map (fun x => (f x, g x)) l.
Proof. induction l as [|x l IH]; [reflexivity|]. cbn. rewrite IH. reflexivity. Qed.
Lemma zplus_map o u n : zplus (map o (seq 0 n)) (map u (seq 0 n)) = map (fun a => (o a + u a)%Z) (seq 0 n).
Proof. unfold zplus. rewrite combine_maps, map_map. reflexivity. Qed.
Lemma zminus_map o u n : zminus (map o (seq 0 n)) (map u (seq 0 n)) = map (fun a => (o a - u a)%Z) (seq 0 n).
Proof. unfold zminus. rewrite combine_maps, map_map. reflexivity. Qed.
Section Grid.
  Variables (f : list R -> R) (num ndim : nat) (large : bool) (points : tensor R) (w : R).
  Hypothesis G : grid num ndim large = Some (points, w).
  Local Notation values := (evaluate f ndim points).
  Lemma grid_facts : shape values = repeat num ndim /\ (forall idx, grid_index num ndim idx -> elt values idx = Fin (f (grid_point num idx))) /\ (forall idx d, grid_index num ndim idx -> (d < ndim)%nat -> (1 < num)%nat /\ 0 < w /\ w = 1 / INR (num - 1)).
  Proof.
    destruct (C98_grid num ndim large) as (RF & PT). destruct (PT points w G) as (SH & W & V). split; [|split].
    - cbn [shape evaluate]. rewrite SH. apply removelast_last.
    - intros idx I1. cbn [elt evaluate]. rewrite (V idx I1). reflexivity.
    - intros idx d (LI & F) D. assert (K : (nth d idx 0 < num)%nat) by (rewrite Forall_forall in F; apply F; apply nth_In; lia).
      assert (N1 : num <> 1%nat) by (intros E; assert (X : grid num ndim large = None) by (apply RF; left; exact E); rewrite X in G; discriminate G). assert (N2 : (1 < num)%nat) by lia.
      split; [exact N2|]. rewrite (W N2). split; [|reflexivity]. apply Rdiv_lt_0_compat; [lra|]. apply lt_0_INR. lia.
  Qed.
  Lemma point_length idx : grid_index num ndim idx -> length (grid_point num idx) = ndim.
  Proof. intros (L & _). unfold grid_point. rewrite map_length. exact L. Qed.
  Lemma value_moved o idx : exists out, shift values (map o (seq 0 ndim)) = Some out /\ (grid_index num ndim idx -> 
     ((forall a, (a < ndim)%nat -> (0 <= Z.of_nat (nth a idx 0%nat) - o a < Z.of_nat num)%Z) -> elt out idx = Fin (f (map (fun a => nth a (grid_point num idx) 0 - IZR (o a) / INR (num - 1)) (seq 0 ndim)))) /\
     ((exists a, (a < ndim)%nat /\ ~ (0 <= Z.of_nat (nth a idx 0%nat) - o a < Z.of_nat num)%Z) -> elt out idx = NaN)).
  Proof. destruct grid_facts as (SH & V & _). destruct (shifted num ndim f values SH V o) as (out & E & P). exists out. split; [exact E|]. intros I1. exact (P idx I1). Qed.
  Lemma index_bound idx a : grid_index num ndim idx -> (a < ndim)%nat -> (nth a idx 0 < num)%nat.
  Proof. intros (LI & F) A. rewrite Forall_forall in F. apply F. apply nth_In. lia. Qed.
  Lemma nan_sub_l x : NaN -x x = NaN. Proof. destruct x; reflexivity. Qed.
  Lemma nan_sub_r x : x -x NaN = NaN. Proof. destruct x; reflexivity. Qed.
  Lemma nan_add_l x : NaN +x x = NaN. Proof. destruct x; reflexivity. Qed.
  Lemma nan_add_r x : x +x NaN = NaN. Proof. destruct x; reflexivity. Qed.
  Lemma nan_div x : NaN /x x = NaN. Proof. destruct x; reflexivity. Qed.

  (** First derivatives: the error is of second order; there are none at the ends. *)
  Theorem C98_first d : (d < ndim)%nat -> exists out, central values [d] w = Some out /\ shape out = repeat num ndim /\ forall idx, grid_index num ndim idx ->
    (~ inner num d idx -> elt out idx = NaN) /\
    (inner num d idx -> exists e, elt out idx = Fin e /\
      forall D M, (forall t, D 0%nat t = f (moved (grid_point num idx) d t)) -> smooth D 3 M w -> Rabs (e - D 1%nat 0) <= M * w ^ 2 / 6).
  Proof.
    intros DL. destruct grid_facts as (SH & V & W). unfold central. rewrite SH, repeat_length. cbn [forallb]. rewrite (proj2 (Nat.ltb_lt d ndim) DL). cbn [andb negb]. rewrite zneg_eye, zneg_map.
    destruct (value_moved (unit_offset (-1) d) []) as (a & EA & _). destruct (value_moved (fun b => (- unit_offset (-1) d b)%Z) []) as (b & EB & _). rewrite EA, EB.
    eexists. split; [reflexivity|]. split; [reflexivity|]. intros idx I1. cbn [elt].
    destruct (value_moved (unit_offset (-1) d) idx) as (a' & EA' & VA). rewrite EA in EA'. injection EA' as <-. destruct (VA I1) as (VA1 & VA2).
    destruct (value_moved (fun b => (- unit_offset (-1) d b)%Z) idx) as (b' & EB' & VB). rewrite EB in EB'. injection EB' as <-. destruct (VB I1) as (VB1 & VB2).
    pose proof (index_bound idx d I1 DL) as KD. destruct (W idx d I1 DL) as (N1 & W0 & WE). unfold inner. split.
    - intros NI. destruct (Nat.eq_dec (nth d idx 0%nat) 0) as [Z|Z].
      + rewrite VB2 by (exists d; split; [exact DL|]; unfold unit_offset; rewrite Nat.eqb_refl; lia). rewrite nan_sub_r. apply nan_div.
      + rewrite VA2 by (exists d; split; [exact DL|]; unfold unit_offset; rewrite Nat.eqb_refl; lia). rewrite nan_sub_l. apply nan_div.
    - intros (I2 & I3). exists ((f (moved (grid_point num idx) d w) - f (moved (grid_point num idx) d (- w))) / (2 * w)). split.
      + rewrite VA1, VB1 by (intros c C; pose proof (index_bound idx c I1 C); unfold unit_offset; destruct (Nat.eqb_spec c d) as [->|]; lia).
        unfold moved. rewrite (point_length idx I1). unfold xsub. cbn [xopp xadd]. rewrite xdiv_f by lra. f_equal. f_equal. match goal with |- ?A + - ?B = ?C - ?E => assert (XX : A = C /\ B = E); [|destruct XX as (-> & ->); ring] end.
        split; f_equal; apply map_ext; intros c; unfold unit_offset; rewrite WE; destruct (Nat.eqb c d); cbn [Z.opp]; unfold Rdiv; ring.
      + intros D M E S. rewrite <- !E. apply first_quotient; [exact W0|exact S].
  Qed.
  (** Second derivatives along an axis. *)
  Theorem C98_second d : (d < ndim)%nat -> exists out, central values [d; d] w = Some out /\ shape out = repeat num ndim /\ forall idx, grid_index num ndim idx ->
    (~ inner num d idx -> elt out idx = NaN) /\
    (inner num d idx -> exists e, elt out idx = Fin e /\
      forall D M, (forall t, D 0%nat t = f (moved (grid_point num idx) d t)) -> smooth D 4 M w -> Rabs (e - D 2%nat 0) <= M * w ^ 2 / 12).
  Proof.
    intros DL. destruct grid_facts as (SH & V & W). unfold central. rewrite SH, repeat_length. cbn [forallb]. rewrite (proj2 (Nat.ltb_lt d ndim) DL). cbn [andb negb]. rewrite Nat.eqb_refl, zneg_eye, zneg_map.
    destruct (value_moved (unit_offset (-1) d) []) as (a & EA & _). destruct (value_moved (fun b => (- unit_offset (-1) d b)%Z) []) as (b & EB & _). rewrite EA, EB.
    eexists. split; [reflexivity|]. split; [reflexivity|]. intros idx I1. cbn [elt].
    destruct (value_moved (unit_offset (-1) d) idx) as (a' & EA' & VA). rewrite EA in EA'. injection EA' as <-. destruct (VA I1) as (VA1 & VA2).
    destruct (value_moved (fun b => (- unit_offset (-1) d b)%Z) idx) as (b' & EB' & VB). rewrite EB in EB'. injection EB' as <-. destruct (VB I1) as (VB1 & VB2).
    pose proof (index_bound idx d I1 DL) as KD. destruct (W idx d I1 DL) as (N1 & W0 & WE). unfold inner. split.
    - intros NI. destruct (Nat.eq_dec (nth d idx 0%nat) 0) as [Z|Z].
      + rewrite VB2 by (exists d; split; [exact DL|]; unfold unit_offset; rewrite Nat.eqb_refl; lia). rewrite nan_add_r. apply nan_div.
      + rewrite VA2 by (exists d; split; [exact DL|]; unfold unit_offset; rewrite Nat.eqb_refl; lia). rewrite nan_sub_l, nan_add_l. apply nan_div.
    - intros (I2 & I3). exists ((f (moved (grid_point num idx) d w) - 2 * f (moved (grid_point num idx) d 0) + f (moved (grid_point num idx) d (- w))) / w ^ 2). split.
      + rewrite VA1, VB1 by (intros c C; pose proof (index_bound idx c I1 C); unfold unit_offset; destruct (Nat.eqb_spec c d) as [->|]; lia). change (Fin (f (map (fun a0 => elt points (idx ++ [a0])) (seq 0 ndim)))) with (elt values idx). rewrite (V idx I1).
        unfold moved. rewrite (point_length idx I1). unfold xsub. cbn [xmul xopp xadd]. rewrite xdiv_f by (apply pow_nonzero; lra). f_equal. f_equal.
        replace (map (fun a0 => nth a0 (grid_point num idx) 0 + (if Nat.eqb a0 d then 0 else 0)) (seq 0 ndim)) with (grid_point num idx).
        2:{ rewrite (list_of_nths (grid_point num idx) ndim (point_length idx I1)) at 1. apply map_ext. intros c. destruct (Nat.eqb c d); ring. }
        match goal with |- ?A + - _ + ?B = ?C - _ + ?E => assert (XX : A = C /\ B = E); [|destruct XX as (-> & ->); ring] end.
        split; f_equal; apply map_ext; intros c; unfold unit_offset; rewrite WE; destruct (Nat.eqb c d); cbn [Z.opp]; unfold Rdiv; ring.
      + intros D M E S. rewrite <- !E. apply second_quotient; [exact W0|exact S].
  Qed.
  (** Mixed derivatives: the estimate is the mixed derivative at a point within the
      step on both axes. *)
  Theorem C98_mixed d e : (d < ndim)%nat -> (e < ndim)%nat -> d <> e -> exists out, central values [d; e] w = Some out /\ shape out = repeat num ndim /\ forall idx, grid_index num ndim idx ->
    (~ (inner num d idx /\ inner num e idx) -> elt out idx = NaN) /\
    (inner num d idx /\ inner num e idx -> exists v, elt out idx = Fin v /\
      forall F F1 F12, (forall s t, F s t = f (moved (moved (grid_point num idx) d s) e t)) ->
        (forall s t, - w <= s <= w -> - w <= t <= w -> is_derive (fun s => F s t) s (F1 s t) /\ is_derive (fun t => F1 s t) t (F12 s t)) ->
        exists s t, - w <= s <= w /\ - w <= t <= w /\ v = F12 s t).
  Proof.
    intros DL EL DE. destruct grid_facts as (SH & V & W). unfold central. rewrite SH, repeat_length. cbn [forallb]. rewrite (proj2 (Nat.ltb_lt d ndim) DL), (proj2 (Nat.ltb_lt e ndim) EL). cbn [andb negb].
    rewrite (proj2 (Nat.eqb_neq d e) DE), !zneg_eye, zneg_map, zplus_map, !zminus_map.
    set (u := unit_offset (-1) d). set (v := unit_offset (-1) e).
    assert (UD : u d = (-1)%Z) by (unfold u, unit_offset; rewrite Nat.eqb_refl; reflexivity). assert (UE : u e = 0%Z) by (unfold u, unit_offset; rewrite (proj2 (Nat.eqb_neq e d)) by congruence; reflexivity).
    assert (VE : v e = (-1)%Z) by (unfold v, unit_offset; rewrite Nat.eqb_refl; reflexivity). assert (VD : v d = 0%Z) by (unfold v, unit_offset; rewrite (proj2 (Nat.eqb_neq d e)) by congruence; reflexivity).
    destruct (value_moved (fun x => (u x + v x)%Z) []) as (a & EA & _). destruct (value_moved (fun x => (u x - v x)%Z) []) as (b & EB & _).
    destruct (value_moved (fun x => (v x - u x)%Z) []) as (c & EC & _). destruct (value_moved (fun x => (- u x - v x)%Z) []) as (g & EG & _). rewrite EA, EB, EC, EG.
    eexists. split; [reflexivity|]. split; [reflexivity|]. intros idx I1. cbn [elt].
    destruct (value_moved (fun x => (u x + v x)%Z) idx) as (a' & EA' & VA). rewrite EA in EA'. injection EA' as <-. destruct (VA I1) as (VA1 & VA2).
    destruct (value_moved (fun x => (u x - v x)%Z) idx) as (b' & EB' & VB). rewrite EB in EB'. injection EB' as <-. destruct (VB I1) as (VB1 & VB2).
    destruct (value_moved (fun x => (v x - u x)%Z) idx) as (c' & EC' & VC). rewrite EC in EC'. injection EC' as <-. destruct (VC I1) as (VC1 & VC2).
    destruct (value_moved (fun x => (- u x - v x)%Z) idx) as (g' & EG' & VG). rewrite EG in EG'. injection EG' as <-. destruct (VG I1) as (VG1 & VG2).
    pose proof (index_bound idx d I1 DL) as KD. pose proof (index_bound idx e I1 EL) as KE. destruct (W idx d I1 DL) as (N1 & W0 & WE). unfold inner. split.
    - intros NI. assert (X : ((nth d idx 0 = 0 \/ nth e idx 0 = 0) \/ (nth d idx 0 + 1 = num \/ nth e idx 0 + 1 = num))%nat) by lia. destruct X as [X|X].
      + rewrite VG2; [rewrite nan_add_r; apply nan_div|]. destruct X as [X|X]; [exists d|exists e]; (split; [assumption|]); rewrite ?UD, ?UE, ?VD, ?VE; lia.
      + rewrite VA2; [rewrite !nan_sub_l, nan_add_l; apply nan_div|]. destruct X as [X|X]; [exists d|exists e]; (split; [assumption|]); rewrite ?UD, ?UE, ?VD, ?VE; lia.
    - intros ((I2 & I3) & I4 & I5).
      set (F := fun s t => f (moved (moved (grid_point num idx) d s) e t)).
      assert (IN : forall z : nat -> Z, (forall x, x <> d -> x <> e -> z x = 0%Z) -> (-1 <= z d <= 1)%Z -> (-1 <= z e <= 1)%Z -> forall x, (x < ndim)%nat -> (0 <= Z.of_nat (nth x idx 0%nat) - z x < Z.of_nat num)%Z).
      { intros z Z0 Z1 Z2 x X. pose proof (index_bound idx x I1 X). destruct (Nat.eq_dec x d) as [->|]; [lia|]. destruct (Nat.eq_dec x e) as [->|]; [lia|]. rewrite Z0 by assumption. lia. }
      assert (U0 : forall x, x <> d -> x <> e -> u x = 0%Z /\ v x = 0%Z) by (intros x X Y; unfold u, v, unit_offset; rewrite (proj2 (Nat.eqb_neq x d) X), (proj2 (Nat.eqb_neq x e) Y); split; reflexivity).
      assert (MV : forall (z : nat -> Z) s t, (forall x, x <> d -> x <> e -> z x = 0%Z) -> - IZR (z d) * w = s -> - IZR (z e) * w = t ->
        Fin (f (map (fun x => nth x (grid_point num idx) 0 - IZR (z x) / INR (num - 1)) (seq 0 ndim))) = Fin (F s t)).
      { intros z s t Z0 <- <-. unfold F. f_equal. f_equal. unfold moved at 1. assert (LM : length (moved (grid_point num idx) d (- IZR (z d) * w)) = ndim) by (unfold moved; rewrite map_length, seq_length; apply point_length; exact I1). rewrite LM.
        apply map_ext_in. intros x X. apply in_seq in X. unfold moved. rewrite (point_length idx I1). rewrite (nth_map_seq (fun a0 => nth a0 (grid_point num idx) 0 + (if Nat.eqb a0 d then - IZR (z d) * w else 0))) by lia. rewrite WE.
        destruct (Nat.eqb_spec x d) as [->|XD]; [rewrite (proj2 (Nat.eqb_neq d e) DE); unfold Rdiv; ring|]. destruct (Nat.eqb_spec x e) as [->|XE]; [unfold Rdiv; ring|]. rewrite Z0 by assumption. unfold Rdiv. ring. }
      exists ((F w w - F w (- w) - F (- w) w + F (- w) (- w)) / (4 * w ^ 2)). split.
      + rewrite VA1 by (apply IN; [intros x X Y; destruct (U0 x X Y) as (-> & ->); reflexivity| |]; rewrite ?UD, ?UE, ?VD, ?VE; lia).
        rewrite VB1 by (apply IN; [intros x X Y; destruct (U0 x X Y) as (-> & ->); reflexivity| |]; rewrite ?UD, ?UE, ?VD, ?VE; lia).
        rewrite VC1 by (apply IN; [intros x X Y; destruct (U0 x X Y) as (-> & ->); reflexivity| |]; rewrite ?UD, ?UE, ?VD, ?VE; lia).
        rewrite VG1 by (apply IN; [intros x X Y; destruct (U0 x X Y) as (-> & ->); reflexivity| |]; rewrite ?UD, ?UE, ?VD, ?VE; lia).
        rewrite (MV (fun x => (u x + v x)%Z) w w), (MV (fun x => (u x - v x)%Z) w (- w)), (MV (fun x => (v x - u x)%Z) (- w) w), (MV (fun x => (- u x - v x)%Z) (- w) (- w));
          try (intros x X Y; destruct (U0 x X Y) as (-> & ->); reflexivity); try (rewrite ?UD, ?UE, ?VD, ?VE; cbn [Z.add Z.sub Z.opp Z.pos_sub]; ring).
        unfold xsub. cbn [xopp xadd]. rewrite xdiv_f; [reflexivity|]. assert (0 < w ^ 2) by (apply pow_lt; exact W0). lra.
      + intros F' F1 F12 E H. destruct (mixed_quotient F F1 F12 w W0) as (s & t & SB & TB & Q).
        * intros s t S T. destruct (H s t S T) as (H1 & H2). split; [|exact H2]. apply (is_derive_ext (fun s => F' s t)); [intros x; apply E|exact H1].
        * exists s, t. split; [exact SB|split; [exact TB|exact Q]].
  Qed.
  (** No axes: the values. Three or more, or an axis that is not there: an error. *)
  Theorem C98_other : central values [] w = Some values /\ (forall a b c r, central values (a :: b :: c :: r) w = None) /\ (forall d e, (ndim <= d)%nat -> central values [d] w = None /\ central values [d; e] w = None /\ central values [e; d] w = None).
  Proof.
    destruct grid_facts as (SH & _). unfold central. rewrite SH, repeat_length. split; [reflexivity|]. split.
    - intros a b c r. match goal with |- (if ?x then _ else _) = _ => destruct x end; reflexivity.
    - intros d e L. cbn [forallb]. rewrite (proj2 (Nat.ltb_ge d ndim) L). rewrite !andb_false_r. repeat split; reflexivity.
  Qed.
End Grid.
