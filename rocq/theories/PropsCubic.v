(** C23: cubic splines. *)
From Coquelicot Require Import Coquelicot.
From Coq Require Import Reals List Bool Lia Lra.
From Verif Require Import TensorModel TensorProofs InterpModel LinearProofs CubicSpec CubicProofs.
Import ListNotations.
Open Scope R_scope.

(** Whatever the second-derivative vector, the interpolant passes through the
    data and is constant outside the knots. *)
Theorem C23_knots tpu xs ys cs k : knots xs ys -> length cs = length xs -> (k < length xs)%nat ->
  cubic_interpolate tpu (Spline xs ys cs) (nth k xs 0) = nth k ys 0.
Proof. intros (L & N & INC) LC K. apply (cubic_knot xs ys cs INC L LC ltac:(lia) tpu k K). Qed.

Theorem C23_extrapolation tpu xs ys cs x : knots xs ys -> length cs = length xs ->
  (x < nth 0 xs 0 -> cubic_interpolate tpu (Spline xs ys cs) x = nth 0 ys 0) /\
  (nth (length xs - 1) xs 0 < x -> cubic_interpolate tpu (Spline xs ys cs) x = nth (length xs - 1) ys 0).
Proof.
  intros (L & N & INC) LC. split; intros H.
  - apply (cubic_first xs ys cs INC L LC ltac:(lia) tpu x H).
  - apply (cubic_last xs ys cs INC L LC ltac:(lia) tpu x). unfold at_. lra.
Qed.

Theorem C23_tpu_same xs ys cs x : knots xs ys -> length cs = length xs ->
  cubic_interpolate true (Spline xs ys cs) x = cubic_interpolate false (Spline xs ys cs) x.
Proof.
  intros (L & N & INC) LC. unfold cubic_interpolate. cbn [x_data y_data spline_coeffs]. pose proof (ssr_le xs x).
  rewrite !(get_slice_at true) by lia. reflexivity.
Qed.

(** Natural splines: the construction succeeds and gives the natural cubic spline of the data. *)
Theorem C23_natural_spline tpu xs ys : knots xs ys -> exists s, spline_build xs ys NATURAL = Some s /\
  (forall k, (k < length xs)%nat -> cubic_interpolate tpu s (nth k xs 0) = nth k ys 0) /\
  exists P P1 P2, cubic_spline xs (cubic_interpolate tpu s) P P1 P2 /\ end_conditions xs NATURAL P1 P2.
Proof.
  intros K. pose proof K as (L & N & INC). destruct (natural_coeffs xs ys INC L N) as (c & E & LC & C0 & CN & EQ & _).
  exists (Spline xs ys c). unfold spline_build. rewrite E. split; [reflexivity|]. split; [intros k KK; apply C23_knots; assumption|].
  exists (P xs ys c), (P1 xs ys c), (P2 xs c). split.
  - apply spline_from_equations; try assumption. lia.
  - cbn. change (nth 0 xs 0) with (at_ xs 0). rewrite P2_left by (assumption || lia).
    replace (length xs - 1)%nat with (S (length xs - 2)) by lia. change (nth (S (length xs - 2)) xs 0) with (at_ xs (S (length xs - 2))).
    rewrite P2_right by (assumption || lia). replace (S (length xs - 2)) with (length xs - 1)%nat by lia. rewrite C0, CN. split; ring.
Qed.

(** Prescribed end slopes, when no piece of the data is flat. *)
Lemma build_clamped xs ys l r bc : knots xs ys -> (bc = CLAMPED /\ l = 0 /\ r = 0) \/ bc = FIXED l r ->
  spline_build xs ys bc = match thomas None (map (rowC xs ys l r) (seq 0 (length xs))) with None => None | Some c => Some (Spline xs ys c) end.
Proof.
  intros (L & N & INC) B. unfold spline_build, calculate_spline_coeffs. rewrite <- (clamped_rows xs ys INC L N l r).
  destruct B as [(-> & -> & ->)| ->]; reflexivity.
Qed.
Theorem C23_clamped_spline tpu xs ys bc : knots xs ys -> bc <> NATURAL -> no_flat_piece ys bc -> exists s, spline_build xs ys bc = Some s /\
  (forall k, (k < length xs)%nat -> cubic_interpolate tpu s (nth k xs 0) = nth k ys 0) /\
  exists P P1 P2, cubic_spline xs (cubic_interpolate tpu s) P P1 P2 /\ end_conditions xs bc P1 P2.
Proof.
  intros K NB NF. pose proof K as (L & N & INC).
  assert (B : exists l r, ((bc = CLAMPED /\ l = 0 /\ r = 0) \/ bc = FIXED l r) /\ r = right_slope bc /\
     forall Q1 Q2, Q1 0%nat (nth 0 xs 0) = l -> Q1 (length xs - 2)%nat (nth (length xs - 1) xs 0) = r -> end_conditions xs bc Q1 Q2).
  { destruct bc as [| |l r]; [congruence|exists 0, 0|exists l, r]; cbn; auto 10. }
  destruct B as (l & r & B & RS & EC). rewrite (build_clamped xs ys l r bc K B).
  destruct (clamped_coeffs xs ys INC L N l r) as (c & -> & LC & E0 & EN & EQ & _). exists (Spline xs ys c). split; [reflexivity|].
  split; [intros k KK; apply C23_knots; assumption|]. exists (P xs ys c), (P1 xs ys c), (P2 xs c).
  assert (FL : forall k, (S k < length xs)%nat -> dD xs ys k = 0 -> nth k ys 0 = nth (S k) ys 0).
  { intros k KK Z. pose proof (dX_pos xs INC k KK). unfold dD, Rdiv in Z. apply Rmult_integral in Z as [Z|Z]; [unfold at_ in Z; lra|].
    exfalso. apply (Rinv_neq_0_compat (dX xs k)); [lra|assumption]. }
  assert (R0 : rhsC xs ys l r 0 = 3 * (dD xs ys 0 - l)) by reflexivity.
  assert (RN : rhsC xs ys l r (length xs - 1) = -3 * (dD xs ys (length xs - 2) - r)).
  { unfold rhsC. replace (Nat.eqb (length xs - 1) 0) with false by (symmetry; apply Nat.eqb_neq; lia). rewrite Nat.eqb_refl.
    replace (length xs - 1 - 1)%nat with (length xs - 2)%nat by lia. unfold req. destruct (Req_EM_T _ _) as [Z|Z]; [|reflexivity].
    apply FL in Z as Z'; [|lia]. apply NF in Z'; [|lia]. destruct Z' as (_ & Z'). rewrite Z, RS, Z' by lia. ring. }
  assert (RK : forall k, (S (S k) < length xs)%nat -> rhsC xs ys l r (S k) = 3 * (dD xs ys (S k) - dD xs ys k)).
  { intros k KK. unfold rhsC. replace (Nat.eqb (S k) (length xs - 1)) with false by (symmetry; apply Nat.eqb_neq; lia). cbn [Nat.eqb].
    replace (S k - 1)%nat with k by lia. unfold req. destruct (Req_EM_T _ _) as [Z|Z]; [|reflexivity].
    apply FL in Z as Z'; [|lia]. apply NF in Z'; [|lia]. destruct Z' as (Z' & _). specialize (Z' ltac:(lia)). rewrite Z.
    assert (ZZ : dD xs ys (S k) = 0) by (unfold dD, at_; rewrite Z'; unfold Rdiv; ring). rewrite ZZ. ring. }
  split.
  - apply spline_from_equations; try assumption; [lia|]. intros k KK. rewrite (EQ k KK). apply RK. assumption.
  - apply EC.
    + change (nth 0 xs 0) with (at_ xs 0). rewrite P1_left by (assumption || lia). rewrite R0 in E0. lra.
    + replace (length xs - 1)%nat with (S (length xs - 2)) in * by lia. change (nth (S (length xs - 2)) xs 0) with (at_ xs (S (length xs - 2))).
      rewrite P1_right by (assumption || lia). rewrite RN in EN. lra.
Qed.

(** The flat-piece exclusion is needed: with two equal consecutive data values
    the clamped construction zeroes an equation of the system (line 358 tests
    the secant where it means the knot distance) and the result has a kink. *)
Theorem C23_clamped_flat_refuted : exists xs ys s, knots xs ys /\ spline_build xs ys CLAMPED = Some s /\
  ~ exists P P1 P2, cubic_spline xs (cubic_interpolate false s) P P1 P2.
Proof.
  set (xs := [0; 1; 2]). set (ys := [0; 0; 1]).
  assert (INC : incr xs) by (intros [|[|[|i]]] H; cbn in *; try lia; unfold at_; cbn; lra).
  assert (K : knots xs ys) by (split; [reflexivity|]; split; [cbn; lia|]; exact INC).
  destruct (clamped_coeffs xs ys INC eq_refl ltac:(cbn; lia) 0 0) as (c & T & LC & E0 & EN & EQ & _).
  exists xs, ys, (Spline xs ys c). split; [assumption|]. split; [rewrite (build_clamped xs ys 0 0) by auto; rewrite T; reflexivity|].
  assert (D0 : dD xs ys 0 = 0) by (unfold dD, dX, at_; cbn; field).
  assert (D1 : dD xs ys 1 = 1) by (unfold dD, dX, at_; cbn; field).
  assert (X0 : dX xs 0 = 1) by (unfold dX, at_; cbn; ring). assert (X1 : dX xs 1 = 1) by (unfold dX, at_; cbn; ring).
  assert (RQ0 : req 0 0 = true) by (unfold req; destruct (Req_EM_T 0 0); [reflexivity|contradiction]).
  assert (RQ1 : req 1 0 = false) by (apply req_false; lra).
  specialize (EQ 0%nat ltac:(cbn; lia)). unfold rhsC in E0, EN, EQ. cbn [Nat.eqb length Nat.sub xs] in E0, EN, EQ. fold xs in E0, EN, EQ.
  rewrite ?D0, ?D1, ?X0, ?X1, ?RQ0, ?RQ1 in E0. rewrite ?D0, ?D1, ?X0, ?X1, ?RQ0, ?RQ1 in EN. rewrite ?D0, ?D1, ?X0, ?X1, ?RQ0, ?RQ1 in EQ.
  intros (Q & Q1 & Q2 & S1 & S2).
  destruct (S1 0%nat ltac:(cbn; lia)) as ((a & b & cc & d & PA) & DA & _ & FA).
  destruct (S1 1%nat ltac:(cbn; lia)) as ((a' & b' & cc' & d' & PB) & DB & _ & FB).
  destruct (S2 0%nat ltac:(cbn; lia)) as (_ & M & _). cbn [nth xs] in M.
  assert (V0 : forall x, 0 <= x <= 1 -> a + b * x + cc * x ^ 2 + d * x ^ 3 = P xs ys c 0 x).
  { intros x X. rewrite <- PA, <- FA by (cbn; lra). apply (cubic_closed xs ys c INC eq_refl LC ltac:(cbn; lia)); [cbn; lia|unfold at_; cbn; lra]. }
  assert (V1 : forall x, 1 <= x <= 2 -> a' + b' * x + cc' * x ^ 2 + d' * x ^ 3 = P xs ys c 1 x).
  { intros x X. rewrite <- PB, <- FB by (cbn; lra). apply (cubic_closed xs ys c INC eq_refl LC ltac:(cbn; lia)); [cbn; lia|unfold at_; cbn; lra]. }
  assert (W0 : Q1 0%nat 1 = b + 2 * cc + 3 * d).
  { rewrite <- (is_derive_unique _ _ _ (DA 1)). apply is_derive_unique.
    apply is_derive_ext with (f := fun x => a + b * x + cc * x ^ 2 + d * x ^ 3); [intros; symmetry; apply PA|]. auto_derive; [trivial|]. ring. }
  assert (W1 : Q1 1%nat 1 = b' + 2 * cc' + 3 * d').
  { rewrite <- (is_derive_unique _ _ _ (DB 1)). apply is_derive_unique.
    apply is_derive_ext with (f := fun x => a' + b' * x + cc' * x ^ 2 + d' * x ^ 3); [intros; symmetry; apply PB|]. auto_derive; [trivial|]. ring. }
  assert (C0 : at_ c 0 = -1/4) by lra. assert (C1 : at_ c 1 = 1/2) by lra. assert (C2 : at_ c 2 = -7/4) by lra.
  pose proof (V0 0 ltac:(lra)) as A0. pose proof (V0 (1/3) ltac:(lra)) as A1. pose proof (V0 (2/3) ltac:(lra)) as A2. pose proof (V0 1 ltac:(lra)) as A3.
  pose proof (V1 1 ltac:(lra)) as B0. pose proof (V1 (4/3) ltac:(lra)) as B1. pose proof (V1 (5/3) ltac:(lra)) as B2. pose proof (V1 2 ltac:(lra)) as B3.
  unfold P, tt in A0, A1, A2, A3, B0, B1, B2, B3. rewrite X0 in A0, A1, A2, A3. rewrite X1 in B0, B1, B2, B3.
  rewrite C0, C1 in A0, A1, A2, A3. rewrite C1, C2 in B0, B1, B2, B3. unfold at_ in A0, A1, A2, A3, B0, B1, B2, B3. cbn [nth xs ys] in A0, A1, A2, A3, B0, B1, B2, B3.
  rewrite W0, W1 in M. lra.
Qed.

(** Affine data are reproduced exactly between the end knots. *)
Theorem C23_linear_data tpu xs ys al be bc x : knots xs ys -> (forall k, (k < length xs)%nat -> nth k ys 0 = al + be * nth k xs 0) ->
  bc = NATURAL \/ bc = FIXED be be -> nth 0 xs 0 <= x <= nth (length xs - 1) xs 0 ->
  exists s, spline_build xs ys bc = Some s /\ cubic_interpolate tpu s x = al + be * x.
Proof.
  intros K LINE B X. pose proof K as (L & N & INC).
  assert (DD : forall k, (S k < length xs)%nat -> dD xs ys k = be).
  { intros k KK. pose proof (dX_pos xs INC k KK). unfold dD. unfold at_ at 1 2. rewrite !LINE by lia. fold (at_ xs k) (at_ xs (S k)). unfold dX in *. field. lra. }
  assert (E : exists c, spline_build xs ys bc = Some (Spline xs ys c) /\ length c = length xs /\ forall i, at_ c i = 0).
  { destruct B as [->| ->].
    - destruct (natural_coeffs xs ys INC L N) as (c & E & LC & _ & _ & _ & Z). exists c. unfold spline_build. rewrite E. split; [reflexivity|]. split; [assumption|].
      apply Z. intros k KK. rewrite !DD by lia. reflexivity.
    - destruct (clamped_coeffs xs ys INC L N be be) as (c & E & LC & _ & _ & _ & Z). exists c. rewrite (build_clamped xs ys be be _ K ltac:(auto)), E. split; [reflexivity|].
      split; [assumption|]. apply Z. intros i I. unfold rhsC. destruct (Nat.eqb_spec i 0); [rewrite DD by lia; ring|].
      destruct (req _ _); [reflexivity|]. destruct (Nat.eqb_spec i (length xs - 1)); rewrite !DD by lia; ring. }
  destruct E as (c & -> & LC & Z). eexists. split; [reflexivity|].
  assert (LOC : exists k, (S k < length xs)%nat /\ at_ xs k <= x <= at_ xs (S k)).
  { pose proof (incr_nondecr xs INC) as ND. destruct (locate xs ys L ND x ltac:(lia)) as [H|[H|(i & I & H)]].
    - exists 0%nat. split; [lia|]. unfold at_ in *. specialize (INC 0%nat ltac:(lia)). unfold at_ in INC. lra.
    - exfalso. unfold at_ in H. lra.
    - exists i. split; [assumption|lra]. }
  destruct LOC as (k & KK & H). rewrite (cubic_closed xs ys c INC L LC ltac:(lia) tpu k x KK H). unfold P. rewrite !Z. unfold tt.
  pose proof (dX_pos xs INC k KK). unfold at_ at 1 3 4. rewrite !LINE by lia. fold (at_ xs k) (at_ xs (S k)). unfold dX in *. field. lra.
Qed.

Example C23_ex : knots [0; 1; 3; 4] [1; 2; -1; 5] /\ no_flat_piece [1; 2; -1; 5] CLAMPED /\ knots [0; 1; 2] [0; 0; 1] /\ ~ no_flat_piece [0; 0; 1] CLAMPED.
Proof.
  split; [|split; [|split]].
  - split; [reflexivity|]. split; [cbn; lia|]. intros [|[|[|[|k]]]] H; cbn in *; try lia; lra.
  - intros [|[|[|[|k]]]] H E; cbn in *; try lia; lra.
  - split; [reflexivity|]. split; [cbn; lia|]. intros [|[|[|[|k]]]] H; cbn in *; try lia; lra.
  - intros H. destruct (H 0%nat ltac:(cbn; lia) eq_refl) as (E & _). specialize (E ltac:(cbn; lia)). cbn in E. lra.
Qed.

Print Assumptions C23_knots.
Print Assumptions C23_extrapolation.
Print Assumptions C23_tpu_same.
Print Assumptions C23_natural_spline.
Print Assumptions C23_clamped_spline.
Print Assumptions C23_clamped_flat_refuted.
Print Assumptions C23_linear_data.
