(** C34: forward rates, yields and discount factors determine each other. *)
From Coq Require Import Reals List Bool ZArith Lia Lra Psatz.
From Verif Require Import TensorModel InterpModel SegmentModel SegmentSpec SegmentProofs PropsSegment RatesModel.
Import ListNotations.
Open Scope R_scope.

(** Maturity [i] is the first of its curve: without groups only the first one
    is, with groups also every one whose label differs from its predecessor's. *)
Definition first_of_group (groups : option (list Z)) (i : nat) : Prop :=
  i = 0%nat \/ match groups with None => False | Some g => nth i g 0%Z <> nth (i - 1) g 0%Z end.
Definition group_length_ok (groups : option (list Z)) (n : nat) : Prop := match groups with None => True | Some g => length g = n end.
(** Positive maturities that increase within each curve. *)
Definition maturities (groups : option (list Z)) (times : list R) : Prop :=
  forall i, (i < length times)%nat -> 0 < nth i times 0 /\ (~ first_of_group groups i -> nth (i - 1) times 0 < nth i times 0).

Lemma first_dec groups i : {first_of_group groups i} + {~ first_of_group groups i}.
Proof.
  unfold first_of_group. destruct i; [left; left; reflexivity|]. destruct groups as [g|].
  - destruct (Z.eq_dec (nth (S i) g 0%Z) (nth (S i - 1) g 0%Z)); [right|left; right; assumption]. intros [X|X]; [discriminate|contradiction].
  - right. intros [X|X]; [discriminate|contradiction].
Qed.

Lemma scan_nth x : forall ids c g pv i, length ids = length x -> (i < length x)%nat ->
  nth i (scan_cumsum false (c, g, pv) x ids) 0 =
  match i with
  | O => if Z.eqb g (nth 0 ids 0%Z) then c + nth 0 x 0 else nth 0 x 0
  | S j => if Z.eqb (nth j ids 0%Z) (nth (S j) ids 0%Z) then nth j (scan_cumsum false (c, g, pv) x ids) 0 + nth (S j) x 0 else nth (S j) x 0
  end.
Proof.
  induction x as [|v x IH]; intros [|h ids] c g pv i L I; try discriminate; cbn [length] in I; [lia|]. cbn [length] in L.
  destruct i as [|i]; [reflexivity|]. cbn [scan_cumsum]. set (c' := if (g =? h)%Z then c + v else v).
  change (nth (S i) (c' :: ?a) 0) with (nth i a 0). change (nth (S i) (h :: ids) 0%Z) with (nth i ids 0%Z). change (nth (S i) (v :: x) 0) with (nth i x 0).
  change (nth (S i) (c' :: scan_cumsum false (c', h, v) x ids) 0) with (nth i (scan_cumsum false (c', h, v) x ids) 0).
  rewrite IH by lia. destruct i; reflexivity.
Qed.
Lemma cumsum_nth groups x i : group_length_ok groups (length x) -> (i < length x)%nat ->
  let c := segment_cumsum x groups false in
  (first_of_group groups i -> nth i c 0 = nth i x 0) /\ (~ first_of_group groups i -> nth i c 0 = nth (i - 1) c 0 + nth i x 0).
Proof.
  destruct groups as [g|]; cbn [group_length_ok segment_cumsum]; intros L I; unfold first_of_group.
  - rewrite scan_nth by assumption. destruct i as [|i].
    + split; [|tauto]. intros _. destruct g; [destruct x; [cbn in I; lia|discriminate]|]. cbn [hd nth]. destruct (Z.eqb_spec (z - 1) z); [lia|reflexivity].
    + replace (S i - 1)%nat with i by lia. destruct (Z.eqb_spec (nth i g 0%Z) (nth (S i) g 0%Z)); split; intros F.
      * destruct F as [F|F]; [discriminate|congruence].
      * reflexivity.
      * reflexivity.
      * exfalso. apply F. right. congruence.
  - clear L. unfold cumsum. assert (G : forall x a i, (i < length x)%nat -> nth i (cumsum_from a false x) 0 = match i with O => a + nth 0 x 0 | S j => nth j (cumsum_from a false x) 0 + nth (S j) x 0 end).
    { clear. induction x as [|v x IH]; intros a [|i] I; cbn [length] in I; try lia; [reflexivity|]. cbn [cumsum_from]. change (nth (S i) (a + v :: ?l) 0) with (nth i l 0).
      change (nth (S i) (a + v :: cumsum_from (a + v) false x) 0) with (nth i (cumsum_from (a + v) false x) 0). rewrite IH by lia. destruct i; reflexivity. }
    rewrite G by exact I. destruct i as [|i]; split; intros F; try tauto.
    + ring.
    + destruct F as [F|F]; [discriminate|contradiction].
    + replace (S i - 1)%nat with i by lia. reflexivity.
Qed.
Lemma cumsum_length groups x : group_length_ok groups (length x) -> length (segment_cumsum x groups false) = length x.
Proof.
  destruct groups as [g|]; cbn [group_length_ok segment_cumsum].
  - generalize (0, (hd 0%Z g - 1)%Z, 0). revert g. induction x as [|v x IH]; intros [|h g] [[a b] d] L; try discriminate; [reflexivity|]. cbn [scan_cumsum length]. rewrite IH by (cbn in L; lia). reflexivity.
  - intros _. unfold cumsum. generalize 0. induction x; intros a'; cbn; [reflexivity|]. rewrite IHx. reflexivity.
Qed.
Lemma diff_of_cumsum groups x : group_length_ok groups (length x) -> segment_cumsum (segment_diff x groups 1 false) groups false = x /\ segment_diff (segment_cumsum x groups false) groups 1 false = x /\ length (segment_diff x groups 1 false) = length x.
Proof.
  assert (LD : forall g x, x <> [] -> length g = length x -> length (segment_diff x (Some g) 1 false) = length x).
  { intros g y N L. destruct (C20_round_trip y g L N) as [E _]. destruct (runs_exist g y L) as (s & RS & <- & <-). assert (NE : s <> []) by (intros ->; apply N; reflexivity).
    rewrite segment_diff_incl by assumption. unfold seg_values. clear - s. induction s as [|[h v] s IH]; [reflexivity|]. cbn [map concat snd]. rewrite !app_length. f_equal; [|exact IH].
    destruct (diff_is 1 v) as [X _]. exact X. }
  destruct x as [|a x'].
  - destruct groups as [[|]|]; cbn; intros L; try discriminate; repeat split.
  - set (x := a :: x') in *. assert (N : x <> []) by discriminate. destruct groups as [g|]; cbn [group_length_ok]; intros L.
    + destruct (C20_round_trip x g L N) as [A B]. split; [exact A|]. split; [exact B|]. apply LD; assumption.
    + assert (CN : forall y, y <> [] -> segment_cumsum y None false = segment_cumsum y (Some (repeat 0%Z (length y))) false).
      { intros y NY. apply (nth_ext _ _ 0 0); [rewrite !cumsum_length; [reflexivity|cbn; apply repeat_length|exact I]|]. intros i LI. rewrite cumsum_length in LI by exact I. induction i as [|i IH].
        - destruct (cumsum_nth None y 0 I LI) as [A _]. destruct (cumsum_nth (Some (repeat 0%Z (length y))) y 0 (repeat_length _ _) LI) as [B _]. rewrite A, B by (left; reflexivity). reflexivity.
        - destruct (cumsum_nth None y (S i) I LI) as [_ A]. destruct (cumsum_nth (Some (repeat 0%Z (length y))) y (S i) (repeat_length _ _) LI) as [_ B].
          rewrite A, B; [replace (S i - 1)%nat with i by lia; rewrite IH by lia; reflexivity| |].
          + intros [X|X]; [discriminate|]. rewrite !nth_repeat in X. congruence.
          + intros [X|X]; [discriminate|contradiction]. }
      destruct (C20_unsegmented x 1 false) as (_ & _ & _ & U). pose proof (U 0%Z false N) as U1. set (g := repeat 0%Z (length x)) in *. assert (LG : length g = length x) by apply repeat_length.
      rewrite <- U1. destruct (C20_round_trip x g LG N) as [A B]. split; [|split].
      * rewrite CN by (intros Z; apply (f_equal (@length R)) in Z; rewrite LD in Z by assumption; discriminate). rewrite LD by assumption. exact A.
      * rewrite CN by exact N. fold g. destruct (C20_unsegmented (segment_cumsum x (Some g) false) 1 false) as (_ & _ & _ & V).
        assert (LC : length (segment_cumsum x (Some g) false) = length x) by (apply cumsum_length; exact LG).
        rewrite <- (V 0%Z false) by (intros Z; rewrite Z in LC; discriminate). rewrite LC. exact B.
      * apply LD; assumption.
Qed.
Lemma diff_nth groups x i : group_length_ok groups (length x) -> (i < length x)%nat ->
  let d := segment_diff x groups 1 false in
  (first_of_group groups i -> nth i d 0 = nth i x 0) /\ (~ first_of_group groups i -> nth i d 0 = nth i x 0 - nth (i - 1) x 0).
Proof.
  intros L I d. destruct (diff_of_cumsum groups x L) as (A & _ & B). fold d in A, B.
  destruct (cumsum_nth groups d i) as [C1 C2]; [rewrite B; exact L|rewrite B; exact I|]. cbv zeta in C1, C2. rewrite A in C1, C2. split; intros F; [symmetry; apply C1; exact F|specialize (C2 F); lra].
Qed.
Lemma vzip_nth h a : forall b i, length a = length b -> (i < length a)%nat -> nth i (vzip h a b) 0 = h (nth i a 0) (nth i b 0).
Proof. unfold vzip. induction a as [|x a IH]; intros [|y b] i L I; cbn [length] in *; try lia. destruct i; cbn [combine map nth]; [reflexivity|apply IH; lia]. Qed.
Lemma vzip_length h (a b : list R) : length a = length b -> length (vzip h a b) = length a.
Proof. intros L. unfold vzip. rewrite map_length, combine_length. lia. Qed.

Section Curve.
Context (groups : option (list Z)) (ts : list R) (GL : group_length_ok groups (length ts)) (M : maturities groups ts).
Notation first := (first_of_group groups).
Lemma fwd_length ys : length ys = length ts -> length (forward_rates_from_yields ys ts groups) = length ts.
Proof.
  intros L. unfold forward_rates_from_yields. assert (LV : length (vzip Rmult ys ts) = length ts) by (rewrite vzip_length; assumption).
  destruct (diff_of_cumsum groups (vzip Rmult ys ts)) as (_ & _ & A); [rewrite LV; exact GL|]. destruct (diff_of_cumsum groups ts GL) as (_ & _ & B). rewrite vzip_length; congruence.
Qed.
Lemma fwd_nth ys i : length ys = length ts -> (i < length ts)%nat -> let f := nth i (forward_rates_from_yields ys ts groups) 0 in
  (first i -> f = nth i ys 0) /\
  (~ first i -> f * (nth i ts 0 - nth (i - 1) ts 0) = nth i ts 0 * nth i ys 0 - nth (i - 1) ts 0 * nth (i - 1) ys 0).
Proof.
  intros L I f. assert (LV : length (vzip Rmult ys ts) = length ts) by (rewrite vzip_length; assumption).
  assert (GV : group_length_ok groups (length (vzip Rmult ys ts))) by (rewrite LV; exact GL).
  destruct (diff_of_cumsum groups (vzip Rmult ys ts) GV) as (_ & _ & A). destruct (diff_of_cumsum groups ts GL) as (_ & _ & B).
  destruct (diff_nth groups (vzip Rmult ys ts) i GV ltac:(lia)) as [C1 C2]. destruct (diff_nth groups ts i GL I) as [D1 D2]. destruct (M i I) as [T0 T1].
  unfold f, forward_rates_from_yields. rewrite vzip_nth by (rewrite A; congruence). split; intros F.
  - rewrite (C1 F), (D1 F), vzip_nth by lia. field. lra.
  - specialize (T1 F). rewrite (C2 F), (D2 F), !vzip_nth by lia. field. lra.
Qed.
Lemma yld_length fs : length fs = length ts -> length (yields_from_forward_rates fs ts groups) = length ts.
Proof.
  intros L. unfold yields_from_forward_rates. destruct (diff_of_cumsum groups ts GL) as (_ & _ & B).
  assert (LV : length (vzip Rmult (segment_diff ts groups 1 false) fs) = length ts) by (rewrite vzip_length; congruence).
  rewrite vzip_length; rewrite cumsum_length; rewrite LV; try reflexivity; exact GL.
Qed.
Lemma yld_nth fs i : length fs = length ts -> (i < length ts)%nat -> let y := yields_from_forward_rates fs ts groups in
  (first i -> nth i y 0 = nth i fs 0) /\
  (~ first i -> nth i ts 0 * nth i y 0 = nth (i - 1) ts 0 * nth (i - 1) y 0 + nth i fs 0 * (nth i ts 0 - nth (i - 1) ts 0)).
Proof.
  intros L I y. destruct (diff_of_cumsum groups ts GL) as (_ & _ & B). set (x := vzip Rmult (segment_diff ts groups 1 false) fs).
  assert (LX : length x = length ts) by (unfold x; rewrite vzip_length; congruence). assert (GX : group_length_ok groups (length x)) by (rewrite LX; exact GL).
  assert (YN : forall j, (j < length ts)%nat -> nth j ts 0 * nth j y 0 = nth j (segment_cumsum x groups false) 0).
  { intros j J. unfold y, yields_from_forward_rates. fold x. rewrite vzip_nth by (rewrite cumsum_length; rewrite ?LX; try reflexivity; try exact GL; exact J). destruct (M j J) as [T0 _].
    unfold divide_no_nan. destruct (Req_EM_T (nth j ts 0) 0); [lra|]. field. lra. }
  destruct (cumsum_nth groups x i GX ltac:(lia)) as [C1 C2]. destruct (diff_nth groups ts i GL I) as [D1 D2]. destruct (M i I) as [T0 T1].
  assert (XN : nth i x 0 = nth i (segment_diff ts groups 1 false) 0 * nth i fs 0) by (unfold x; apply vzip_nth; congruence || (rewrite B; exact I)).
  split; intros F.
  - apply (Rmult_eq_reg_l (nth i ts 0)); [|lra]. rewrite YN, (C1 F), XN, (D1 F) by exact I. reflexivity.
  - rewrite !YN, (C2 F), XN, (D2 F) by lia. ring.
Qed.
Lemma by_group_ind (P : nat -> Prop) : (forall i, (i < length ts)%nat -> first i -> P i) -> (forall i, (i < length ts)%nat -> ~ first i -> P (i - 1)%nat -> P i) -> forall i, (i < length ts)%nat -> P i.
Proof.
  intros A B i. induction i as [|i IH]; intros I; [apply A; [exact I|left; reflexivity]|]. destruct (first_dec groups (S i)) as [F|F]; [apply A; assumption|]. apply B; [assumption|assumption|]. replace (S i - 1)%nat with i by lia. apply IH. lia.
Qed.
End Curve.

(** The forward rate of the first maturity of a curve is its yield; every other
    one carries the discount factor of the preceding maturity to its own. *)
Theorem C34_forwards groups ts ys i : group_length_ok groups (length ts) -> maturities groups ts -> length ys = length ts -> (i < length ts)%nat ->
  let f := nth i (forward_rates_from_yields ys ts groups) 0 in
  let Z := fun j => exp (- nth j ys 0 * nth j ts 0) in
  (first_of_group groups i -> f = nth i ys 0 /\ Z i = exp (- f * nth i ts 0)) /\
  (~ first_of_group groups i -> f = (nth i ts 0 * nth i ys 0 - nth (i - 1) ts 0 * nth (i - 1) ys 0) / (nth i ts 0 - nth (i - 1) ts 0) /\
     Z i = Z (i - 1)%nat * exp (- f * (nth i ts 0 - nth (i - 1) ts 0))).
Proof.
  intros GL M L I f Z. destruct (fwd_nth groups ts GL M ys i L I) as [A B]. fold f in A, B. destruct (M i I) as [T0 T1]. split; intros F.
  - specialize (A F). split; [exact A|]. unfold Z. rewrite A. reflexivity.
  - specialize (B F). specialize (T1 F). split.
    + rewrite <- B. field. lra.
    + unfold Z. rewrite <- exp_plus. f_equal. lra.
Qed.
(** The yields built from forward rates discount each maturity by the product of
    the forwards up to it within its curve. *)
Theorem C34_yields groups ts fs i : group_length_ok groups (length ts) -> maturities groups ts -> length fs = length ts -> (i < length ts)%nat ->
  let y := yields_from_forward_rates fs ts groups in
  let Z := fun j => exp (- nth j y 0 * nth j ts 0) in
  (first_of_group groups i -> nth i y 0 = nth i fs 0) /\
  (~ first_of_group groups i -> Z i = Z (i - 1)%nat * exp (- nth i fs 0 * (nth i ts 0 - nth (i - 1) ts 0))).
Proof.
  intros GL M L I y Z. destruct (yld_nth groups ts GL M fs i L I) as [A B]. fold y in A, B. split; [exact A|]. intros F. specialize (B F). unfold Z. rewrite <- exp_plus. f_equal. lra.
Qed.
(** The two conversions are inverse to each other. *)
Theorem C34_round_trip groups ts v : group_length_ok groups (length ts) -> maturities groups ts -> length v = length ts ->
  yields_from_forward_rates (forward_rates_from_yields v ts groups) ts groups = v /\
  forward_rates_from_yields (yields_from_forward_rates v ts groups) ts groups = v.
Proof.
  intros GL M L. pose proof (fwd_length groups ts GL v L) as LF. pose proof (yld_length groups ts GL v L) as LY. split.
  - apply (nth_ext _ _ 0 0); [rewrite (yld_length groups ts GL _ LF); congruence|]. rewrite (yld_length groups ts GL _ LF).
    apply (by_group_ind groups ts); intros i I F; destruct (fwd_nth groups ts GL M v i L I) as [A B]; destruct (yld_nth groups ts GL M _ i LF I) as [C D]; destruct (M i I) as [T0 T1].
    + rewrite (C F). exact (A F).
    + intros E. specialize (B F). specialize (D F). rewrite E, B in D. apply (Rmult_eq_reg_l (nth i ts 0)); [|lra]. rewrite D. ring.
  - apply (nth_ext _ _ 0 0); [rewrite (fwd_length groups ts GL _ LY); congruence|]. rewrite (fwd_length groups ts GL _ LY). intros i I.
    destruct (fwd_nth groups ts GL M _ i LY I) as [A B]. destruct (yld_nth groups ts GL M v i L I) as [C D]. destruct (M i I) as [T0 T1]. destruct (first_dec groups i) as [F|F].
    + rewrite (A F). exact (C F).
    + specialize (B F). specialize (D F). specialize (T1 F). rewrite D in B. apply (Rmult_eq_reg_r (nth i ts 0 - nth (i - 1) ts 0)); [|lra]. rewrite B. ring.
Qed.
(** The simple forward rate accrues the end discount factor to the start one. *)
Theorem C34_simple s e d i : length s = length e -> length s = length d -> (i < length s)%nat -> nth i e 0 <> 0 -> nth i d 0 <> 0 ->
  (1 + nth i (forward_rates s e d) 0 * nth i d 0) * nth i e 0 = nth i s 0.
Proof.
  unfold forward_rates. revert e d i. induction s as [|a s IH]; intros [|b e] [|c d] i L1 L2 I E D; cbn [length] in *; try lia. destruct i as [|i]; cbn [combine map nth] in *.
  - unfold forward_rate, divide_no_nan. destruct (Req_EM_T b 0); [contradiction|].
    destruct (Req_EM_T c 0); [contradiction|]. field. split; assumption.
  - apply IH; assumption || lia.
Qed.

(** Two curves with two and one maturities. *)
Example C34_ex : let ts := [1; 2; 5] in let g := Some [7; 7; 3]%Z in group_length_ok g (length ts) /\ maturities g ts /\
  nth 1 (forward_rates_from_yields [3; 4; 6] ts g) 0 = 5 /\ nth 2 (forward_rates_from_yields [3; 4; 6] ts g) 0 = 6.
Proof.
  intros ts g. assert (GL : group_length_ok g (length ts)) by reflexivity.
  assert (M : maturities g ts).
  { intros i I. unfold ts, g, first_of_group in *. cbn [length] in I. destruct i as [|[|[|i]]]; cbn [nth]; try lia; (split; [lra|]; intros F).
    - exfalso. apply F. left. reflexivity.
    - cbn. lra.
    - exfalso. apply F. right. cbn. lia. }
  split; [exact GL|]. split; [exact M|]. split.
  - destruct (C34_forwards g ts [3; 4; 6] 1 GL M eq_refl ltac:(cbn; lia)) as [_ B]. destruct B as [-> _]; [intros [X|X]; [discriminate|cbn in X; lia]|]. cbn. lra.
  - destruct (C34_forwards g ts [3; 4; 6] 2 GL M eq_refl ltac:(cbn; lia)) as [A _]. destruct A as [-> _]; [right; cbn; lia|]. reflexivity.
Qed.

Print Assumptions C34_forwards.
Print Assumptions C34_yields.
Print Assumptions C34_round_trip.
Print Assumptions C34_simple.
