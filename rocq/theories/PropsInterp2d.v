(** C69: interpolation of a surface. *)
From Coquelicot Require Import Coquelicot.
From Coq Require Import Reals List Bool Lia Lra.
From Verif Require Import TensorModel TensorProofs InterpModel LinearProofs CubicSpec CubicProofs PropsLinear PropsCubic TimeGridModel TimeGridProofs Interp2dModel.
Import ListNotations.
Open Scope R_scope.

(** The documented data: at least one x-coordinate, strictly increasing; one row
    per x-coordinate, with at least two strictly increasing y-coordinates. *)
Definition surface (x_data : list R) (rows : list (list R * list R)) : Prop :=
  length rows = length x_data /\ (0 < length x_data)%nat /\
  (forall k, (S k < length x_data)%nat -> nth k x_data 0 < nth (S k) x_data 0) /\
  (forall ys zs, In (ys, zs) rows -> knots ys zs).

(** [f] is the natural cubic spline of the row, extended by constants. *)
Definition natural_spline_of (row : list R * list R) (f : R -> R) : Prop :=
  let (ys, zs) := row in
  (forall k, (k < length ys)%nat -> f (nth k ys 0) = nth k zs 0) /\
  (exists P P1 P2, cubic_spline ys f P P1 P2 /\ end_conditions ys NATURAL P1 P2) /\
  (forall y, y < nth 0 ys 0 -> f y = nth 0 zs 0) /\
  (forall y, nth (length ys - 1) ys 0 < y -> f y = nth (length ys - 1) zs 0).

Lemma row_spline ys zs : knots ys zs -> exists s, spline_build ys zs NATURAL = Some s /\ natural_spline_of (ys, zs) (cubic_interpolate false s).
Proof.
  intros K. destruct (C23_natural_spline false ys zs K) as (s & E & KN & SP). exists s. split; [exact E|].
  split; [exact KN|]. split; [exact SP|].
  pose proof K as (L & N & INC). destruct (natural_coeffs ys zs INC L N) as (c & E' & LC & _).
  unfold spline_build in E. rewrite E' in E. injection E as <-.
  split; intros y Y; apply (C23_extrapolation false ys zs c y K LC); exact Y.
Qed.

(** The interpolation never fails; along y it follows the natural cubic spline
    of each row, along x it is linear between neighbouring rows and constant
    outside. *)
Theorem C69_surface x_data rows : surface x_data rows -> exists f : nat -> R -> R,
  (forall i, (i < length x_data)%nat -> natural_spline_of (nth i rows ([], [])) (f i)) /\
  (forall i y, (i < length x_data)%nat -> interpolate_2d x_data rows (nth i x_data 0) y = Some (f i y)) /\
  (forall i x y, (S i < length x_data)%nat -> nth i x_data 0 <= x <= nth (S i) x_data 0 ->
     let w := (x - nth i x_data 0) / (nth (S i) x_data 0 - nth i x_data 0) in
     0 <= w <= 1 /\ interpolate_2d x_data rows x y = Some ((1 - w) * f i y + w * f (S i) y)) /\
  (forall x y, x <= nth 0 x_data 0 -> interpolate_2d x_data rows x y = Some (f 0%nat y)) /\
  (forall x y, nth (length x_data - 1) x_data 0 <= x -> interpolate_2d x_data rows x y = Some (f (length x_data - 1)%nat y)).
Proof.
  intros (LR & N & INC & KR).
  assert (B : exists ss, build_rows rows = Some ss /\ length ss = length rows /\
    forall i, (i < length rows)%nat -> natural_spline_of (nth i rows ([], [])) (cubic_interpolate false (nth i ss (Spline [] [] [])))).
  { clear - KR. induction rows as [|[ys zs] rows IH].
    - exists []. split; [reflexivity|]. split; [reflexivity|]. cbn. lia.
    - destruct IH as (ss & E & L & F); [intros; apply KR; right; assumption|].
      destruct (row_spline ys zs (KR ys zs (or_introl eq_refl))) as (s & ES & NS).
      exists (s :: ss). unfold build_rows in *. cbn. rewrite ES, E. split; [reflexivity|]. split; [cbn; lia|].
      intros [|i] I; [exact NS|]. cbn [nth]. apply F. cbn in I. lia. }
  destruct B as (ss & E & LS & F).
  set (d := Spline [] [] []) in *.
  exists (fun i => cubic_interpolate false (nth i ss d)).
  assert (V : forall x y, interpolate_2d x_data rows x y = Some (linear_interpolate false x_data (map (fun s => cubic_interpolate false s y) ss) None None x)).
  { intros. unfold interpolate_2d. rewrite E. reflexivity. }
  assert (LM : forall y, length (map (fun s => cubic_interpolate false s y) ss) = length x_data) by (intros; rewrite map_length; lia).
  assert (AT : forall i y, (i < length x_data)%nat -> nth i (map (fun s => cubic_interpolate false s y) ss) 0 = cubic_interpolate false (nth i ss d) y).
  { intros i y I. rewrite (nth_indep _ 0 ((fun s => cubic_interpolate false s y) d)) by (rewrite LM; exact I).
    apply (map_nth (fun s => cubic_interpolate false s y)). }
  assert (KN : forall i y, (i < length x_data)%nat -> interpolate_2d x_data rows (nth i x_data 0) y = Some (cubic_interpolate false (nth i ss d) y)).
  { intros i y I. rewrite V. f_equal. rewrite C22_knots by (auto; apply LM). apply AT. exact I. }
  assert (NI : forall k, (S k < length x_data)%nat -> nth k x_data 0 <= nth (S k) x_data 0) by (intros k K; specialize (INC k K); lra).
  split; [intros i I; apply F; lia|]. split; [exact KN|]. split; [|split].
  - intros i x y I X. cbv zeta. pose proof (INC i I) as D. destruct (Req_dec x (nth i x_data 0)) as [-> |NE].
    + replace ((nth i x_data 0 - nth i x_data 0) / (nth (S i) x_data 0 - nth i x_data 0)) with 0 by (field; lra).
      split; [lra|]. rewrite KN by lia. f_equal. ring.
    + destruct (C22_chord false x_data (map (fun s => cubic_interpolate false s y) ss) None None i x (LM y) NI I ltac:(lra)) as (W & C).
      split; [lra|]. rewrite V, C. rewrite !AT by lia. reflexivity.
  - intros x y X. rewrite V. f_equal.
    rewrite (proj1 (C22_extrapolation false x_data (map (fun s => cubic_interpolate false s y) ss) None None x (LM y) NI N) X).
    rewrite AT by exact N. unfold slope_or_zero. ring.
  - intros x y X. destruct (Req_dec x (nth (length x_data - 1) x_data 0)) as [-> |NE]; [apply KN; lia|].
    rewrite V. f_equal.
    rewrite (proj2 (C22_extrapolation false x_data (map (fun s => cubic_interpolate false s y) ss) None None x (LM y) NI N)) by lra.
    rewrite AT by lia. unfold slope_or_zero. ring.
Qed.

(** The data are reproduced. *)
Theorem C69_knots x_data rows i j : surface x_data rows -> (i < length x_data)%nat ->
  let (ys, zs) := nth i rows ([], []) in (j < length ys)%nat ->
  interpolate_2d x_data rows (nth i x_data 0) (nth j ys 0) = Some (nth j zs 0).
Proof.
  intros SF I. destruct (C69_surface x_data rows SF) as (f & F & KN & _). specialize (F i I).
  destruct (nth i rows ([], [])) as [ys zs]. intros J. rewrite KN by exact I. f_equal. apply F. exact J.
Qed.

(** A bilinear surface is reproduced exactly inside the data. *)
Theorem C69_bilinear x_data rows a b c d x y : surface x_data rows -> (2 <= length x_data)%nat ->
  (forall i, (i < length x_data)%nat -> let (ys, zs) := nth i rows ([], []) in
     nth 0 ys 0 <= y <= nth (length ys - 1) ys 0 /\
     forall j, (j < length ys)%nat -> let u := nth i x_data 0 in let v := nth j ys 0 in nth j zs 0 = a + b * u + c * v + d * u * v) ->
  nth 0 x_data 0 <= x <= nth (length x_data - 1) x_data 0 ->
  interpolate_2d x_data rows x y = Some (a + b * x + c * y + d * x * y).
Proof.
  intros SF N2 G X. pose proof SF as (LR & N & INC & KR).
  assert (ROW : forall i, (i < length x_data)%nat -> exists s, spline_build (fst (nth i rows ([], []))) (snd (nth i rows ([], []))) NATURAL = Some s /\
    cubic_interpolate false s y = a + b * nth i x_data 0 + (c + d * nth i x_data 0) * y).
  { intros i I. specialize (G i I). pose proof (nth_In rows ([], []) (n := i) ltac:(lia)) as IN. destruct (nth i rows ([], [])) as [ys zs].
    destruct G as (Y & G). cbn [fst snd]. apply C23_linear_data; [apply KR; exact IN| |left; reflexivity|exact Y].
    intros k K. rewrite (G k K). ring. }
  assert (B : exists ss, build_rows rows = Some ss /\ length ss = length rows /\
    forall i, (i < length x_data)%nat -> cubic_interpolate false (nth i ss (Spline [] [] [])) y = a + b * nth i x_data 0 + (c + d * nth i x_data 0) * y).
  { rewrite <- LR in ROW |- *. clear - ROW. generalize dependent x_data. induction rows as [|r rows IH]; intros x_data ROW.
    - exists []. split; [reflexivity|]. split; [reflexivity|]. cbn. lia.
    - destruct (ROW 0%nat ltac:(cbn; lia)) as (s & ES & NS). cbn [nth] in ES.
      destruct (IH (tl x_data)) as (ss & E & L & F).
      { intros i I. destruct (ROW (S i) ltac:(cbn; lia)) as (s' & ES' & NS'). exists s'. cbn [nth] in ES'. split; [exact ES'|].
        rewrite NS'. destruct x_data; [destruct i|]; reflexivity. }
      exists (s :: ss). unfold build_rows in *. cbn [map]. cbn. rewrite ES. rewrite E. split; [reflexivity|]. split; [cbn; lia|].
      intros [|i] I; [exact NS|]. cbn [nth]. rewrite F by (cbn in I; lia). destruct x_data; [destruct i|]; reflexivity. }
  destruct B as (ss & E & LS & F).
  assert (LM : length (map (fun s => cubic_interpolate false s y) ss) = length x_data) by (rewrite map_length; lia).
  assert (AT : forall i, (i < length x_data)%nat -> nth i (map (fun s => cubic_interpolate false s y) ss) 0 = a + b * nth i x_data 0 + (c + d * nth i x_data 0) * y).
  { intros i I. rewrite (nth_indep _ 0 ((fun s => cubic_interpolate false s y) (Spline [] [] []))) by (rewrite LM; exact I).
    rewrite (map_nth (fun s => cubic_interpolate false s y)). apply F. exact I. }
  unfold interpolate_2d. rewrite E. f_equal.
  assert (NI : forall k, (S k < length x_data)%nat -> nth k x_data 0 <= nth (S k) x_data 0) by (intros k K; specialize (INC k K); lra).
  destruct (Req_dec x (nth 0 x_data 0)) as [-> |NE].
  - rewrite C22_knots by (auto; lia). rewrite AT by lia. ring.
  - assert (P : exists i, (S i < length x_data)%nat /\ nth i x_data 0 < x <= nth (S i) x_data 0).
    { assert (Q : forall m, (m < length x_data)%nat -> x <= nth m x_data 0 -> exists i, (S i < length x_data)%nat /\ nth i x_data 0 < x <= nth (S i) x_data 0).
      { induction m as [|m IH]; intros M H; [lra|]. destruct (Rle_lt_dec x (nth m x_data 0)) as [H'|H']; [apply IH; [lia|exact H']|].
        exists m. split; [lia|lra]. }
      apply (Q (length x_data - 1)%nat); [lia|lra]. }
    destruct P as (i & I & B).
    destruct (C22_chord false x_data (map (fun s => cubic_interpolate false s y) ss) None None i x LM NI I B) as (_ & C).
    rewrite C. rewrite !AT by lia. specialize (INC i I). field. lra.
Qed.

(** The class documentation says that the values are interpolated along x with a
    cubic spline as well.  They are not: the result has a kink at the inner
    x-coordinates. *)
Theorem C69_cubic_in_x_refuted : exists x_data rows y f, surface x_data rows /\
  (forall x, interpolate_2d x_data rows x y = Some (f x)) /\
  ~ exists P P1 P2, cubic_spline x_data f P P1 P2.
Proof.
  set (xs := [0; 1; 2]).
  set (rows := [([0; 1], [0; 0]); ([0; 1], [1; 1]); ([0; 1], [0; 0])]).
  assert (SF : surface xs rows).
  { split; [reflexivity|]. split; [cbn; lia|]. split; [intros [|[|[|i]]] H; cbn in *; try lia; lra|].
    intros ys zs [H|[H|[H|[]]]]; injection H as <- <-; (split; [reflexivity|]; split; [cbn; lia|]; intros [|[|i]] H; cbn in *; try lia; lra). }
  destruct (C69_surface xs rows SF) as (g & G & KN & MID & LO & HI).
  assert (G0 : g 0%nat 0 = 0) by exact (proj1 (G 0%nat ltac:(cbn; lia)) 0%nat ltac:(cbn; lia)).
  assert (G1 : g 1%nat 0 = 1) by exact (proj1 (G 1%nat ltac:(cbn; lia)) 0%nat ltac:(cbn; lia)).
  assert (G2 : g 2%nat 0 = 0) by exact (proj1 (G 2%nat ltac:(cbn; lia)) 0%nat ltac:(cbn; lia)).
  assert (TOT : forall x, exists v, interpolate_2d xs rows x 0 = Some v).
  { intros x. unfold interpolate_2d. pose proof (KN 0%nat 0 ltac:(cbn; lia)) as K. unfold interpolate_2d in K.
    destruct (build_rows rows); [eexists; reflexivity|discriminate]. }
  set (f := fun x => match interpolate_2d xs rows x 0 with Some v => v | None => 0 end).
  exists xs, rows, 0, f. split; [exact SF|]. split; [intros x; unfold f; destruct (TOT x) as (v & ->); reflexivity|].
  assert (FA : forall x, 0 <= x <= 1 -> f x = x).
  { intros x X. unfold f. destruct (MID 0%nat x 0 ltac:(cbn; lia) ltac:(cbn; lra)) as (_ & ->). rewrite G0, G1. cbn [nth xs]. field. }
  assert (FB : forall x, 1 <= x <= 2 -> f x = 2 - x).
  { intros x X. unfold f. destruct (MID 1%nat x 0 ltac:(cbn; lia) ltac:(cbn; lra)) as (_ & ->). rewrite G1, G2. cbn [nth xs]. field. }
  intros (Q & Q1 & Q2 & S1 & S2).
  destruct (S1 0%nat ltac:(cbn; lia)) as ((a & b & cc & d & PA) & DA & _ & VA).
  destruct (S1 1%nat ltac:(cbn; lia)) as ((a' & b' & cc' & d' & PB) & DB & _ & VB).
  destruct (S2 0%nat ltac:(cbn; lia)) as (_ & M & _). cbn [nth xs] in M.
  assert (W0 : Q1 0%nat 1 = b + 2 * cc + 3 * d).
  { rewrite <- (is_derive_unique _ _ _ (DA 1)). apply is_derive_unique.
    apply is_derive_ext with (f := fun x => a + b * x + cc * x ^ 2 + d * x ^ 3); [intros; symmetry; apply PA|]. auto_derive; [trivial|]. ring. }
  assert (W1 : Q1 1%nat 1 = b' + 2 * cc' + 3 * d').
  { rewrite <- (is_derive_unique _ _ _ (DB 1)). apply is_derive_unique.
    apply is_derive_ext with (f := fun x => a' + b' * x + cc' * x ^ 2 + d' * x ^ 3); [intros; symmetry; apply PB|]. auto_derive; [trivial|]. ring. }
  assert (V0 : forall x, 0 <= x <= 1 -> a + b * x + cc * x ^ 2 + d * x ^ 3 = x) by (intros x X; rewrite <- PA, <- VA by (cbn; lra); apply FA; exact X).
  assert (V1 : forall x, 1 <= x <= 2 -> a' + b' * x + cc' * x ^ 2 + d' * x ^ 3 = 2 - x) by (intros x X; rewrite <- PB, <- VB by (cbn; lra); apply FB; exact X).
  pose proof (V0 0 ltac:(lra)). pose proof (V0 (1/3) ltac:(lra)). pose proof (V0 (2/3) ltac:(lra)). pose proof (V0 1 ltac:(lra)).
  pose proof (V1 1 ltac:(lra)). pose proof (V1 (4/3) ltac:(lra)). pose proof (V1 (5/3) ltac:(lra)). pose proof (V1 2 ltac:(lra)).
  rewrite W0, W1 in M. lra.
Qed.

Example C69_ex : surface [1; 2; 4] [([0; 1; 3], [5; 6; 2]); ([1; 2; 5], [0; 0; 1]); ([0; 2], [3; 4])] /\
  interpolate_2d [1; 2; 4] [([0; 1; 3], [5; 6; 2]); ([1; 2; 5], [0; 0; 1]); ([0; 2], [3; 4])] 2 5 = Some 1.
Proof.
  assert (SF : surface [1; 2; 4] [([0; 1; 3], [5; 6; 2]); ([1; 2; 5], [0; 0; 1]); ([0; 2], [3; 4])]).
  { split; [reflexivity|]. split; [cbn; lia|]. split; [intros [|[|[|i]]] H; cbn in *; try lia; lra|].
    intros ys zs [H|[H|[H|[]]]]; injection H as <- <-; (split; [reflexivity|]; split; [cbn; lia|]; intros [|[|[|i]]] H; cbn in *; try lia; lra). }
  split; [exact SF|]. exact (C69_knots _ _ 1 2 SF ltac:(cbn; lia) ltac:(cbn; lia)).
Qed.

Print Assumptions C69_surface.
Print Assumptions C69_knots.
Print Assumptions C69_bilinear.
Print Assumptions C69_cubic_in_x_refuted.
