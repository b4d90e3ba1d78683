(** Proofs for C99: the exercise boundary. *)
From Coquelicot Require Import Coquelicot.
From Coq Require Import Reals List Bool Arith Lia Lra Psatz FunctionalExtensionality.
From Verif Require Import TensorModel InterpModel BrentModel BrentProofs ExtReal HaganWestModel BootstrapModel BlackScholesModel BlackScholesSpec BlackScholesProofs NormalProofs IntegrateModel
  GaussData PropsGauss KronrodModel CubicSpec PropsCubic FdMethodsProofs AndersenLakeModel AndersenLakeSpec AndersenLakeProofs.
Import ListNotations.
Open Scope R_scope.

(** Gauss-Legendre quadrature over [0, T]. *)
Definition legendre_quad (n : nat) (f : R -> R) (T : R) : R := match gl f 0 T n with Some v => v | None => 0 end.
Lemma quad_some f T n : supported n -> legendre f 0 T n = Some (legendre_quad n f T).
Proof. intros SP. unfold legendre_quad. change (legendre f 0 T n) with (gl f 0 T n). destruct (gl f 0 T n) eqn:E; [reflexivity|]. exfalso. revert E. apply C32_supported, SP. Qed.
Lemma normal_cdf_fun : normal_cdf = ncdf. Proof. apply functional_extensionality, normal_cdf_eq. Qed.

Section Boundary.
  Variables (eps : R) (grid : list R) (k r q sigma tol : R) (points : nat).
  Hypothesis E0 : 0 < eps.
  Hypothesis SP : supported points.
  Local Notation img B := (image ncdf (legendre_quad points) eps k r q sigma B).
  Local Notation bot B := (bottom ncdf (legendre_quad points) eps k r q sigma B).

  Lemma new_point_eq B t : new_point eps B k r q sigma points t = if rlt (bot B t) 0 then None else Some (img B t).
  Proof using SP.
    unfold new_point, boundary_numerator, boundary_denominator. rewrite normal_cdf_fun, !(quad_some _ _ _ SP).
    change (ncdf (d_plus eps t (B t / k) r q sigma) + q * legendre_quad points (fun u => exp (q * u) * ncdf (d_plus eps (t - u) (safe_divide eps (B t) (B u)) r q sigma)) t) with (bot B t).
    destruct (rlt (bot B t) 0); [reflexivity|]. f_equal. unfold safe_divide, image. rewrite Ropp_mult_distr_l. reflexivity.
  Qed.
  Lemma bottom_pos B t : 0 <= q -> 0 <= t -> 0 < bot B t.
  Proof using SP.
    intros Q0 T0. unfold bottom. assert (P := ncdf_pos (dp eps r q sigma t (B t / k))). set (f := fun u : R => _) in *.
    destruct (legendre_some f t points SP T0) as (v & EV & V0). { intros x _. unfold f. apply Rmult_le_pos; apply Rlt_le; [apply exp_pos|apply ncdf_pos]. }
    rewrite (quad_some f t points SP) in EV. injection EV as ->. assert (0 <= q * v) by (apply Rmult_le_pos; assumption). lra.
  Qed.
  Lemma all_some_map {A B} (f : A -> option B) l out : all_some (map f l) = Some out -> length out = length l /\ forall i a b, (i < length l)%nat -> f (nth i l a) = Some (nth i out b).
  Proof using.
    revert out. induction l as [|x l IH]; intros out E; cbn [map all_some] in E; [injection E as <-; split; [reflexivity|cbn; intros; lia]|].
    destruct (f x) as [y|] eqn:F; [|discriminate]. destruct (all_some (map f l)) as [ys|] eqn:G; [|discriminate]. cbn [option_map] in E. injection E as <-.
    destruct (IH ys eq_refl) as (L & H). split; [cbn; lia|]. intros [|i] a b I0; cbn [nth length] in *; [exact F|]. apply H. lia.
  Qed.
  Lemma all_some_ok {A B} (f : A -> option B) l : (forall x, In x l -> f x <> None) -> exists out, all_some (map f l) = Some out.
  Proof using.
    induction l as [|x l IH]; intros H; [exists []; reflexivity|]. cbn [map all_some]. destruct (f x) as [y|] eqn:F; [|exfalso; apply (H x); [left; reflexivity|exact F]].
    destruct IH as (ys & ->); [intros z Z; apply H; right; exact Z|]. exists (y :: ys). reflexivity.
  Qed.

  Lemma vzip_len (f : R -> R -> R) l m : length l = length m -> length (vzip f l m) = length l.
  Proof using. revert m. induction l as [|x l IH]; intros [|y m] L; cbn in *; try reflexivity; try discriminate. f_equal. apply IH. lia. Qed.
  Lemma vzip_nth_ok (f : R -> R -> R) l : forall m i d a b, length l = length m -> (i < length l)%nat -> nth i (vzip f l m) d = f (nth i l a) (nth i m b).
  Proof using. induction l as [|x l IH]; intros [|y m] i d a b L I0; cbn in *; try lia. destruct i; cbn; [reflexivity|]. apply IH; lia. Qed.
  Lemma fold_max_le x l t : fold_right Rmax x l <= t <-> x <= t /\ forall i, (i < length l)%nat -> nth i l 0 <= t.
  Proof using.
    induction l as [|y l IH]; cbn [fold_right length]; [split; [intros; split; [assumption|intros; lia]|tauto]|]. split.
    - intros H. assert (A1 := Rmax_l y (fold_right Rmax x l)). assert (A2 := Rmax_r y (fold_right Rmax x l)). destruct (proj1 IH) as (B1 & B2); [lra|]. split; [exact B1|]. intros [|i] I0; cbn; [lra|apply B2; lia].
    - intros (H1 & H2). apply Rmax_lub; [apply (H2 0%nat); lia|]. apply IH. split; [exact H1|]. intros i I0. apply (H2 (S i)). lia.
  Qed.
  Lemma change_agree new old : length new = length old -> new <> [] -> rle (relative_change eps new old) tol = true <-> agree eps tol (length new) new old.
  Proof using.
    intros L N. rewrite rle_true. unfold relative_change, reduce_max, agree. rewrite fold_max_le, vzip_len by exact L.
    assert (G : forall i, (i < length new)%nat -> nth i (vzip (fun n c => Rabs (n - c) / (Rabs n + eps)) new old) 0 = Rabs (nth i new 0 - nth i old 0) / (Rabs (nth i new 0) + eps)) by (intros; apply (vzip_nth_ok (fun n c => Rabs (n - c) / (Rabs n + eps)) new old i 0 0 0); assumption).
    assert (P : (0 < length new)%nat) by (destruct new; [congruence|cbn; lia]). unfold at_. split.
    - intros (_ & H) i I0. rewrite <- G by exact I0. apply H, I0.
    - intros H. split; [rewrite G by exact P; apply H, P|]. intros i I0. rewrite G by exact I0. apply H, I0.
  Qed.

  Hypothesis G2 : (2 <= length grid)%nat.
  Hypothesis GI : forall i, (S i < length grid)%nat -> nth i grid 0 < nth (S i) grid 0.
  Lemma spline_ok ys : length ys = length grid -> exists s, spline_build grid ys NATURAL = Some s /\ floored_spline eps grid ys (boundary_function eps s).
  Proof using G2 GI.
    intros L. destruct (C23_natural_spline false grid ys) as (s & E & K & SPL). { split; [exact L|]. split; assumption. }
    exists s. split; [exact E|]. exists (cubic_interpolate false s). split; [reflexivity|]. split; assumption.
  Qed.
  (** One pass of the loop. *)
  Definition pass (old new : list R) (B : R -> R) : Prop :=
    length new = length grid /\ floored_spline eps grid old B /\ forall j, (j < length grid)%nat -> nth j new 0 = img B (nth j grid 0).
  Lemma body_pass old c new : length old = length grid -> boundary_body eps grid k r q sigma tol points old = Some (c, new) ->
    (exists B, pass old new B) /\ (c = true <-> agree eps tol (length grid) new old).
  Proof using SP G2 GI.
    intros L E. unfold boundary_body in E. destruct (spline_ok old L) as (s & ES & FS). rewrite ES in E.
    destruct (all_some _) as [nw|] eqn:A; [|discriminate]. injection E as <- <-. apply all_some_map in A as (LN & H). split.
    - exists (boundary_function eps s). split; [exact LN|]. split; [exact FS|]. intros j J. specialize (H j 0 0 J). rewrite new_point_eq in H. destruct (rlt _ 0); [discriminate|]. injection H as ->. reflexivity.
    - rewrite change_agree; [rewrite LN; reflexivity|lia|]. intros ->. cbn in LN. lia.
  Qed.
  Lemma body_total old : 0 <= q -> (forall t, In t grid -> 0 <= t) -> length old = length grid -> boundary_body eps grid k r q sigma tol points old <> None.
  Proof using SP G2 GI.
    intros Q0 T0 L. unfold boundary_body. destruct (spline_ok old L) as (s & ES & _). rewrite ES.
    destruct (all_some_ok (new_point eps (boundary_function eps s) k r q sigma points) grid) as (out & ->); [|discriminate].
    intros t T. rewrite new_point_eq. assert (P := bottom_pos (boundary_function eps s) t Q0 (T0 t T)). destruct (rlt _ 0) eqn:X; [|discriminate]. apply rlt_true in X. lra.
  Qed.
  Lemma loop_total m : forall c old, 0 <= q -> (forall t, In t grid -> 0 <= t) -> length old = length grid -> exists out, boundary_loop eps grid k r q sigma tol points m c old = Some out /\ length out = length grid.
  Proof using SP G2 GI.
    induction m as [|m IH]; intros c old Q0 T0 L; cbn [boundary_loop]; [exists old; split; [reflexivity|exact L]|]. destruct (negb c); [|exists old; split; [reflexivity|exact L]].
    assert (B := body_total old Q0 T0 L). destruct (boundary_body _ _ _ _ _ _ _ _ old) as [[c' new]|] eqn:E; [|congruence]. apply IH; [assumption..|]. apply body_pass in E as ((B' & P & _) & _); assumption.
  Qed.
  (** The successive approximations of the loop. *)
  Lemma loop_history m : forall c old out, length old = length grid -> boundary_loop eps grid k r q sigma tol points m c old = Some out ->
    exists n (P : nat -> list R) (B : nat -> R -> R), (n <= m)%nat /\ P 0%nat = old /\ P n = out /\ length out = length grid /\
      (forall i, (i < n)%nat -> pass (P i) (P (S i)) (B i)) /\
      (forall i, (i < n)%nat -> agree eps tol (length grid) (P (S i)) (P i) -> S i = n) /\
      (c = true -> n = 0%nat) /\
      (n = m \/ (c = true /\ n = 0%nat) \/ exists i, n = S i /\ agree eps tol (length grid) (P n) (P i)).
  Proof using SP G2 GI.
    induction m as [|m IH]; intros c old out L E; cbn [boundary_loop] in E.
    { injection E as <-. exists 0%nat, (fun _ => old), (fun _ _ => 0). repeat split; try assumption; try lia; try reflexivity; intros; try lia. }
    destruct c; cbn [negb] in E.
    { injection E as <-. exists 0%nat, (fun _ => old), (fun _ _ => 0). split; [lia|]. do 2 (split; [reflexivity|]). split; [exact L|]. do 2 (split; [intros; lia|]). split; [reflexivity|]. right. left. split; reflexivity. }
    destruct (boundary_body _ _ _ _ _ _ _ _ old) as [[c' new]|] eqn:EB; [|discriminate]. destruct (body_pass _ _ _ L EB) as ((B0 & PA) & AG).
    destruct (IH c' new out (proj1 PA) E) as (n & P & B & NM & P0 & PN & LO & PS & ST & CN & FIN).
    exists (S n), (fun i => match i with O => old | S i => P i end), (fun i => match i with O => B0 | S i => B i end).
    split; [lia|]. split; [reflexivity|]. split; [exact PN|]. split; [exact LO|]. split.
    { intros [|i] I0; [rewrite P0; exact PA|apply PS; lia]. }
    split. { intros [|i] I0 A; [rewrite P0 in A; apply AG in A; rewrite (CN A); reflexivity|]. f_equal. apply ST; [lia|exact A]. }
    split; [discriminate|]. destruct FIN as [->|[(C & ->)|(i & -> & A)]]; [left; reflexivity| |].
    - right. right. exists 0%nat. split; [reflexivity|]. rewrite P0. apply AG, C.
    - right. right. exists (S i). split; [reflexivity|exact A].
  Qed.
End Boundary.
