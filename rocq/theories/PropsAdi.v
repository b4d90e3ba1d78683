(** C77: the multidimensional PDE stepper with the Douglas ADI scheme. *)
From Coq Require Import Reals List Bool Arith Lia Lra FunctionalExtensionality.
From Verif Require Import MvNormalSpec AdiModel AdiSpec AdiView AdiProofs.
Import ListNotations.
Open Scope R_scope.

(** the boundary conditions at the time [t] determine the boundary values *)
Definition conditions_determined (n : nat) (coord_grid : nat -> nat -> R) (lower upper : nat -> condition) (t : R) : Prop :=
  forall d, (d < n)%nat -> determined (spacing coord_grid) d (boundary_at (lower d) t) /\ determined (spacing coord_grid) d (boundary_at (upper d) t).
(** the tridiagonal solver of the implicit part meets no zero pivot *)
Definition solver_succeeds (n : nat) (sizes : nat -> nat) (coord_grid : nat -> nat -> R) (lower upper : nat -> condition) (co : coefficient_fns) (theta t1 t2 : R) : Prop :=
  solvable_lines n sizes coord_grid lower upper co theta t1 t2.

(** The result of a step is that of the Douglas scheme: with [v] the given values
    where the equation is imposed and the boundary values that meet the conditions
    at [t1], Y 0 is the explicit step from [v]; each dimension in turn is then made
    implicit, with functions that meet the conditions of that dimension at [t2];
    and the boundary of the result meets the conditions at [t2]. *)
Theorem C77_step n sizes coord_grid lower upper co theta t1 t2 u w :
  douglas_step n sizes coord_grid lower upper co theta t1 t2 u = Some w ->
  (forall d, (d < n)%nat -> spacing coord_grid d <> 0) -> (forall d, (n <= d)%nat -> lower d = None) ->
  conditions_determined n coord_grid lower upper t1 -> conditions_determined n coord_grid lower upper t2 ->
  (theta <> 0 -> solver_succeeds n sizes coord_grid lower upper co theta t1 t2) ->
  let h := spacing coord_grid in
  let ol := fun d => open_end (lower d) in let ou := fun d => open_end (upper d) in
  exists (v : point -> R) (Y : nat -> point -> R),
    (forall p, unknown n sizes ol ou p -> v p = u p)
    /\ boundaries_hold n sizes h ol ou (fun d => boundary_at (lower d) t1) (fun d => boundary_at (upper d) t1) v
    /\ douglas n sizes h ol ou theta (t2 - t1) (equation_at co t1) (equation_at co t2) v Y
    /\ (forall i p, (i < n)%nat -> unknown n sizes ol ou p -> lower_holds h i (boundary_at (lower i) t2) (Y (S i)) p /\ upper_holds sizes h i (boundary_at (upper i) t2) (Y (S i)) p)
    /\ (forall p, unknown n sizes ol ou p -> w p = Y n p)
    /\ boundaries_hold n sizes h ol ou (fun d => boundary_at (lower d) t2) (fun d => boundary_at (upper d) t2) w.
Proof.
  intros ST HN NB D1 D2 SOL h ol ou. unfold douglas_step in ST.
  destruct (forallb (fun d => Nat.leb 4 (sizes d)) (seq 0 n)) eqn:F; [|discriminate ST].
  assert (SZ : forall d, (d < n)%nat -> (4 <= sizes d)%nat) by (intros d D; rewrite forallb_forall in F; apply Nat.leb_le, F, in_seq; lia). clear F.
  unfold douglas_scheme in ST. destruct (Rlt_dec theta 0); [discriminate ST|]. destruct (Rlt_dec 1 theta); [discriminate ST|].
  set (inner := trim (lower_trim lower) no_shift u) in *.
  pose proof (boundaries_ok n sizes coord_grid lower upper SZ HN NB t1 inner D1) as [BA BB].
  assert (UI : forall p, unknown n sizes ol ou p -> inner (conv lower p) = u p).
  { intros p U. unfold inner. rewrite trim_none. change (u (full lower (conv lower p)) = u p). rewrite (full_conv n sizes lower upper SZ NB p U). reflexivity. }
  assert (RF : forall p, unknown n sizes ol ou p -> in_range n sizes lower upper (conv lower p) /\ full lower (conv lower p) = p).
  { intros p U. split; [apply (conv_range n sizes lower upper SZ p U)|apply (full_conv n sizes lower upper SZ NB p U)]. }
  destruct (Req_EM_T theta 0) as [T0|T0].
  - injection ST as <-. exists (append_boundaries n sizes coord_grid lower upper t1 inner).
    exists (fun i => match i with O => fun p => explicit_substep n sizes coord_grid lower upper co inner t1 t2 (conv lower p) | S i => ext sizes coord_grid lower upper t2 i (explicit_substep n sizes coord_grid lower upper co inner t1 t2) end).
    assert (YI : forall i p, (i <= n)%nat -> unknown n sizes ol ou p -> match i with O => fun p => explicit_substep n sizes coord_grid lower upper co inner t1 t2 (conv lower p) | S i => ext sizes coord_grid lower upper t2 i (explicit_substep n sizes coord_grid lower upper co inner t1 t2) end p = explicit_substep n sizes coord_grid lower upper co inner t1 t2 (conv lower p)).
    { intros [|i] p I U; [reflexivity|]. apply (ext_in n sizes coord_grid lower upper SZ); [lia|apply U; lia]. }
    pose proof (boundaries_ok n sizes coord_grid lower upper SZ HN NB t2 (explicit_substep n sizes coord_grid lower upper co inner t1 t2) D2) as [WA WB].
    split; [|split; [exact BB|split; [|split; [|split; [|exact WB]]]]].
    + intros p U. rewrite BA by exact U. apply UI, U.
    + split.
      * intros p U. destruct (RF p U) as [K FC]. rewrite (explicit_ok n sizes coord_grid lower upper co SZ HN NB t1 t2 inner _ D1 K), FC, (BA p U). reflexivity.
      * intros i I p U. rewrite T0. rewrite (YI (S i) p I U), (YI i p (Nat.lt_le_incl _ _ I) U). ring.
    + intros i p I U. apply (ext_ends n sizes coord_grid lower upper SZ HN t2 i _ p I D2).
    + intros p U. rewrite (YI n p (Nat.le_refl n) U). apply WA, U.
  - injection ST as <-. specialize (SOL T0). set (G := corrected n sizes coord_grid lower upper co theta t1 t2 inner).
    change (fold_left (correction_substep n sizes coord_grid lower upper co theta t1 t2 inner) (seq 0 n) (explicit_substep n sizes coord_grid lower upper co inner t1 t2)) with (G n).
    exists (append_boundaries n sizes coord_grid lower upper t1 inner).
    exists (fun i => match i with O => fun p => G 0%nat (conv lower p) | S i => ext sizes coord_grid lower upper t2 i (G (S i)) end).
    assert (YI : forall i p, (i <= n)%nat -> unknown n sizes ol ou p -> match i with O => fun p => G 0%nat (conv lower p) | S i => ext sizes coord_grid lower upper t2 i (G (S i)) end p = G i (conv lower p)).
    { intros [|i] p I U; [reflexivity|]. apply (ext_in n sizes coord_grid lower upper SZ); [lia|apply U; lia]. }
    pose proof (boundaries_ok n sizes coord_grid lower upper SZ HN NB t2 (G n) D2) as [WA WB].
    split; [|split; [exact BB|split; [|split; [|split; [|exact WB]]]]].
    + intros p U. rewrite BA by exact U. apply UI, U.
    + split.
      * intros p U. destruct (RF p U) as [K FC]. unfold G, corrected. cbn [seq fold_left]. rewrite (explicit_ok n sizes coord_grid lower upper co SZ HN NB t1 t2 inner _ D1 K), FC, (BA p U). reflexivity.
      * intros i I p U. destruct (RF p U) as [K FC]. rewrite (YI (S i) p I U), (YI i p (Nat.lt_le_incl _ _ I) U).
        unfold G at 1. rewrite (corrected_eq n sizes coord_grid lower upper co SZ HN NB theta t1 t2 inner i _ D1 D2 SOL I K), FC. reflexivity.
    + intros i p I U. apply (ext_ends n sizes coord_grid lower upper SZ HN t2 i _ p I D2).
    + intros p U. rewrite (YI n p (Nat.le_refl n) U). apply WA, U.
Qed.
Print Assumptions C77_step.

(** Weights outside [0, 1] are refused; with a weight in [0, 1] the step yields a result. *)
Theorem C77_theta n sizes coord_grid lower upper co theta t1 t2 u :
  (theta < 0 \/ 1 < theta -> douglas_step n sizes coord_grid lower upper co theta t1 t2 u = None) /\
  (0 <= theta <= 1 -> (forall d, (d < n)%nat -> (4 <= sizes d)%nat) -> douglas_step n sizes coord_grid lower upper co theta t1 t2 u <> None).
Proof.
  unfold douglas_step, douglas_scheme. split.
  - intros T. destruct (forallb _ _); [|reflexivity]. destruct (Rlt_dec theta 0); [reflexivity|]. destruct (Rlt_dec 1 theta); [reflexivity|lra].
  - intros T SZ. assert (F : forallb (fun d => Nat.leb 4 (sizes d)) (seq 0 n) = true) by (apply forallb_forall; intros d D; apply in_seq in D; apply Nat.leb_le, SZ; lia).
    rewrite F. destruct (Rlt_dec theta 0); [lra|]. destruct (Rlt_dec 1 theta); [lra|]. destruct (Req_EM_T theta 0); discriminate.
Qed.
Print Assumptions C77_theta.

(** The solver succeeds for any weight and any size of a backward step if there
    are no coefficients under the derivatives, boundary values are prescribed at the
    ends that have a condition, c is not positive, the diffusion dominates the drift
    on the scale of the grid, and the drift points into the grid at open ends. *)
Theorem C77_solvable n sizes coord_grid lower upper co theta t1 t2 :
  (forall d, (d < n)%nat -> (4 <= sizes d)%nat) -> (forall d, (d < n)%nat -> 0 < spacing coord_grid d) -> 0 <= theta -> t2 < t1 ->
  (forall d c, (d < n)%nat -> (lower d = Some c \/ upper d = Some c) -> exists alpha gamma, c t2 = (Some alpha, None, gamma)) ->
  let e := equation_at co t2 in
  (forall d, (d < n)%nat -> eA e d d = None /\ eB e d = None) ->
  (forall d p, (d < n)%nat -> unknown n sizes (fun d => open_end (lower d)) (fun d => open_end (upper d)) p ->
     (inside sizes d p = true -> Rabs (weight (eb e d) p) * spacing coord_grid d <= 2 * weight (ea e d d) p) /\
     (p d = 0%nat -> 0 <= weight (eb e d) p) /\ (p d = (sizes d - 1)%nat -> weight (eb e d) p <= 0)) ->
  (forall p, unknown n sizes (fun d => open_end (lower d)) (fun d => open_end (upper d)) p -> weight (ec e) p <= 0) ->
  solver_succeeds n sizes coord_grid lower upper co theta t1 t2.
Proof.
  intros SZ HP TH DT DIR e IN CF CZ.
  assert (HN : forall d, (d < n)%nat -> delta coord_grid d <> 0) by (intros d D; specialize (HP d D); unfold spacing in HP; unfold delta; lra).
  exact (solvable_dominated n sizes coord_grid lower upper co SZ HN theta t1 t2 HP TH DT DIR IN CF CZ).
Qed.
Print Assumptions C77_solvable.

(** Grid functions that meet the boundary conditions and the discretized equation
    with dV/dt = 0 are kept by a step, whatever the weight and the step size, up to
    the boundary. *)
Theorem C77_steady n sizes coord_grid lower upper co theta t1 t2 v :
  (forall d, (d < n)%nat -> (4 <= sizes d)%nat) -> 0 <= theta <= 1 ->
  (forall d, (d < n)%nat -> spacing coord_grid d <> 0) -> (forall d, (n <= d)%nat -> lower d = None) ->
  conditions_determined n coord_grid lower upper t1 -> conditions_determined n coord_grid lower upper t2 ->
  solver_succeeds n sizes coord_grid lower upper co theta t1 t2 ->
  let h := spacing coord_grid in
  let ol := fun d => open_end (lower d) in let ou := fun d => open_end (upper d) in
  boundaries_hold n sizes h ol ou (fun d => boundary_at (lower d) t1) (fun d => boundary_at (upper d) t1) v ->
  boundaries_hold n sizes h ol ou (fun d => boundary_at (lower d) t2) (fun d => boundary_at (upper d) t2) v ->
  (forall p, unknown n sizes ol ou p -> sum_to n (fun d => along n sizes h ol ou (equation_at co t1) d v p) + mixed n sizes h (equation_at co t1) v p = 0) ->
  (forall p d, (d < n)%nat -> unknown n sizes ol ou p -> along n sizes h ol ou (equation_at co t1) d v p = along n sizes h ol ou (equation_at co t2) d v p) ->
  exists w, douglas_step n sizes coord_grid lower upper co theta t1 t2 v = Some w /\ forall p, (forall d, (d < n)%nat -> (p d < sizes d)%nat) -> w p = v p.
Proof.
  intros SZ TH HN NB D1 D2 SOL h ol ou B1 B2 S0 SE.
  pose proof (steady n sizes coord_grid lower upper co SZ HN NB theta t1 t2 v D1 D2 SOL B1 B2 S0 SE) as ST.
  unfold douglas_step, douglas_scheme. assert (F : forallb (fun d => Nat.leb 4 (sizes d)) (seq 0 n) = true) by (apply forallb_forall; intros d D; apply in_seq in D; apply Nat.leb_le, SZ; lia).
  rewrite F. destruct (Rlt_dec theta 0); [lra|]. destruct (Rlt_dec 1 theta); [lra|].
  set (inner := trim (lower_trim lower) no_shift v) in *.
  assert (FIN : forall i, (i <= n)%nat -> forall p, (forall d, (d < n)%nat -> (p d < sizes d)%nat) -> append_boundaries n sizes coord_grid lower upper t2 (corrected n sizes coord_grid lower upper co theta t1 t2 inner i) p = v p).
  { intros i I p G. apply (bounds_unique n sizes coord_grid lower upper SZ HN NB t2 v _ D2 B2); [|exact G].
    intros q U. rewrite (ST i I) by (apply (conv_range n sizes lower upper SZ q U)). rewrite (full_conv n sizes lower upper SZ NB q U). reflexivity. }
  destruct (Req_EM_T theta 0) as [T0|T0]; cbn [option_map]; eexists; (split; [reflexivity|]).
  - exact (FIN 0%nat (Nat.le_0_l n)).
  - exact (FIN n (Nat.le_refl n)).
Qed.
Print Assumptions C77_steady.

(** The differences of the specification are the derivatives of quadratics in the
    coordinates when all points have the spacing of the first two. *)
Theorem C77_differences (x : nat -> nat -> R) d e (q0 q1 q2 q3 q4 q5 : R) (p : point) :
  (forall d j, x d j = x d 0%nat + INR j * spacing x d) -> spacing x d <> 0 -> spacing x e <> 0 -> d <> e -> (0 < p d)%nat -> (0 < p e)%nat ->
  let f := fun a b => q0 + q1 * a + q2 * b + q3 * a * a + q4 * a * b + q5 * b * b in
  let u := fun p : point => f (x d (p d)) (x e (p e)) in
  diff1 (spacing x d) d u p = q1 + 2 * q3 * x d (p d) + q4 * x e (p e)
  /\ diff2 (spacing x d) d u p = 2 * q3
  /\ diff_mixed (spacing x d) (spacing x e) d e u p = q4
  /\ normal_derivative (spacing x d) (u (move d 0 p)) (u (move d 1 p)) (u (move d 2 p)) = - (q1 + 2 * q3 * x d 0%nat + q4 * x e (p e)).
Proof.
  intros UN HD HE ND PD PE f u. unfold u, diff1, diff2, diff_mixed, normal_derivative, next, prev.
  assert (NE : e <> d) by congruence.
  rewrite ?(move_other d _ _ e), ?(move_other e _ _ d), ?move_at by assumption.
  rewrite !(UN d (S (p d))), !(UN d (p d - 1)%nat), !(UN e (S (p e))), !(UN e (p e - 1)%nat), !(UN d (p d)), !(UN e (p e)), (UN d 1%nat), (UN d 2%nat).
  rewrite !S_INR, !minus_INR by lia. clear UN. set (hd := spacing x d) in *. set (he := spacing x e) in *. clearbody hd he.
  unfold f. cbn [INR]. repeat split; field; auto.
Qed.
Print Assumptions C77_differences.

(** A concrete case: dV/dt + V_xx + V_xy + V_yy = 0 on a 4 x 5 grid with the spacing
    1, V = 0 and V = 3 prescribed at the ends of x and open ends of y.  V = x is
    steady, and the implicit step keeps it. *)
Definition heat2 : coefficient_fns :=
  {| second_fn := fun _ d e => Some (fun _ => if Nat.eqb d e then 1 else 1 / 2); first_fn := fun _ _ => None; zeroth_fn := fun _ => None;
     inner_second_fn := fun _ _ _ => None; inner_first_fn := fun _ _ => None |}.
Definition fixed_value (v : R) : condition := Some (fun _ => (Some (fun _ => 1), None, fun _ => v)).
Definition plain_grid : nat -> nat -> R := fun _ j => INR j.
Example step_ex :
  let sizes := fun d => if Nat.eqb d 0 then 4%nat else 5%nat in
  let lower := fun d => if Nat.eqb d 0 then fixed_value 0 else None in let upper := fun d => if Nat.eqb d 0 then fixed_value 3 else None in
  exists w, douglas_step 2 sizes plain_grid lower upper heat2 (1 / 2) 1 0 (fun p => INR (p 0%nat)) = Some w
    /\ forall i j, (i < 4)%nat -> (j < 5)%nat -> w (fun d => if Nat.eqb d 0 then i else j) = INR i.
Proof.
  intros sizes lower upper.
  assert (SZ : forall d, (d < 2)%nat -> (4 <= sizes d)%nat) by (intros d _; unfold sizes; destruct (d =? 0)%nat; lia).
  assert (SP : forall d, spacing plain_grid d = 1) by (intros d; unfold spacing, plain_grid; cbn; lra).
  assert (DT : forall t, conditions_determined 2 plain_grid lower upper t).
  { intros t d D. unfold lower, upper, fixed_value, boundary_at, at_time, determined. destruct (d =? 0)%nat; cbn [option_map weight]; split; try exact Logic.I; intros p; lra. }
  assert (BH : forall t, boundaries_hold 2 sizes (spacing plain_grid) (fun d => open_end (lower d)) (fun d => open_end (upper d)) (fun d => boundary_at (lower d) t) (fun d => boundary_at (upper d) t) (fun p => INR (p 0%nat))).
  { intros t d D p _ _. unfold lower_holds, upper_holds, lower, upper, fixed_value, boundary_at, at_time. destruct (Nat.eqb_spec d 0) as [->|N]; cbn [option_map weight]; [|split; exact Logic.I].
    unfold sizes. cbn [Nat.eqb Nat.sub]. rewrite !move_at. cbn [INR]. split; lra. }
  assert (SOL : solver_succeeds 2 sizes plain_grid lower upper heat2 (1 / 2) 1 0).
  { apply C77_solvable; [exact SZ|intros d _; rewrite SP; lra|lra|lra| | | |].
    - intros d c D [E|E]; unfold lower, upper, fixed_value in E; destruct (d =? 0)%nat; try discriminate E; injection E as <-; eexists; eexists; reflexivity.
    - intros d D. split; reflexivity.
    - intros d p D U. cbn [equation_at heat2 first_fn second_fn eb ea weight]. rewrite Nat.eqb_refl, Rabs_R0. repeat split; intros; lra.
    - intros p U. cbn. lra. }
  assert (ZERO : forall t d p, (d < 2)%nat -> unknown 2 sizes (fun d => open_end (lower d)) (fun d => open_end (upper d)) p -> along 2 sizes (spacing plain_grid) (fun d => open_end (lower d)) (fun d => open_end (upper d)) (equation_at heat2 t) d (fun p => INR (p 0%nat)) p = 0).
  { intros t d p D U. unfold along. cbn [equation_at heat2 first_fn second_fn inner_first_fn inner_second_fn zeroth_fn eb ea eA eB ec term]. unfold diff2, times, coef. rewrite SP, Nat.eqb_refl.
    destruct (Nat.eqb_spec d 0) as [->|N].
    - unfold next, prev. rewrite !move_at. destruct (U 0%nat ltac:(lia)) as (A & B & C). unfold lower, upper, open_end, fixed_value in *. cbn [Nat.eqb andb] in *.
      assert (P0 : p 0%nat <> 0%nat) by (intros E; specialize (B E); discriminate B). rewrite S_INR, minus_INR by lia. cbn [INR]. lra.
    - unfold next, prev. rewrite !move_other by auto. destruct (open_end (lower d) && _); [lra|]. destruct (open_end (upper d) && _); lra. }
  destruct (C77_steady 2 sizes plain_grid lower upper heat2 (1 / 2) 1 0 (fun p => INR (p 0%nat))) as (w & W & E).
  - exact SZ.
  - lra.
  - intros d _. rewrite SP. lra.
  - intros d D. unfold lower. destruct (Nat.eqb_spec d 0); [lia|reflexivity].
  - apply DT.
  - apply DT.
  - exact SOL.
  - apply BH.
  - apply BH.
  - intros p U. unfold mixed. cbn [sum_to Nat.sub Nat.add]. rewrite !ZERO by (try exact U; lia). unfold mixed2.
    destruct (inside sizes 0 p && inside sizes 1 p) eqn:IN; [|lra]. cbn [equation_at heat2 second_fn inner_second_fn ea eA term]. unfold diff_mixed, times, coef, next, prev. rewrite !SP, !move_at. rewrite !(move_other 1 _ _ 0) by lia. field.
  - intros p d D U. rewrite !ZERO by assumption. reflexivity.
  - exists w. split; [exact W|]. intros i j I J. apply (E (fun d => if Nat.eqb d 0 then i else j)). intros d D. unfold sizes. destruct (d =? 0)%nat; assumption.
Qed.

(** The coordinates are not required to be equally spaced, but only the first
    spacing is used: V = x solves dV/dt + V_xx = 0 with V prescribed at the ends,
    on the points 0, 1, 3 and 4 a step does not keep it. *)
Definition uneven_grid : nat -> nat -> R := fun _ j => match j with 0%nat => 0 | 1%nat => 1 | 2%nat => 3 | _ => 4 end.
Definition heat1 : coefficient_fns :=
  {| second_fn := fun _ _ _ => Some (fun _ => 1); first_fn := fun _ _ => None; zeroth_fn := fun _ => None;
     inner_second_fn := fun _ _ _ => None; inner_first_fn := fun _ _ => None |}.
Theorem C77_nonuniform_refuted : exists w,
  douglas_step 1 (fun _ => 4%nat) uneven_grid (fun d => if Nat.eqb d 0 then fixed_value 0 else None) (fun d => if Nat.eqb d 0 then fixed_value 4 else None) heat1 0 1 0 (fun p => uneven_grid 0 (p 0%nat)) = Some w
  /\ uneven_grid 0 0 < uneven_grid 0 1 < uneven_grid 0 2 /\ uneven_grid 0 2 < uneven_grid 0 3
  /\ w (fun _ => 1%nat) = 2 /\ uneven_grid 0 1 = 1.
Proof.
  set (lower := fun d => if Nat.eqb d 0 then fixed_value 0 else None). set (upper := fun d => if Nat.eqb d 0 then fixed_value 4 else None).
  destruct (douglas_step 1 (fun _ => 4%nat) uneven_grid lower upper heat1 0 1 0 (fun p => uneven_grid 0 (p 0%nat))) as [w|] eqn:W.
  2: { exfalso. revert W. apply C77_theta; [lra|intros; lia]. }
  exists w. split; [reflexivity|]. split; [cbn; lra|]. split; [cbn; lra|]. split; [|reflexivity].
  assert (SP : spacing uneven_grid 0 = 1) by (unfold spacing; cbn; lra).
  assert (DT : forall t, conditions_determined 1 uneven_grid lower upper t).
  { intros t d D. unfold lower, upper, fixed_value, boundary_at, at_time, determined. destruct (d =? 0)%nat; cbn [option_map weight]; split; try exact Logic.I; intros p; lra. }
  destruct (C77_step _ _ _ _ _ _ _ _ _ _ _ W) as (v & Y & V1 & V2 & [Y0 Y1] & _ & WY & _).
  - intros d D. assert (d = 0%nat) by lia. subst d. rewrite SP. lra.
  - intros d D. unfold lower. destruct (Nat.eqb_spec d 0); [lia|reflexivity].
  - apply DT.
  - apply DT.
  - intros C. contradiction C. reflexivity.
  - assert (UN : forall j, (1 <= j <= 2)%nat -> forall p : point, p 0%nat = j -> unknown 1 (fun _ => 4%nat) (fun d => open_end (lower d)) (fun d => open_end (upper d)) p).
    { intros j J p P d D. assert (d = 0%nat) by lia. subst d. rewrite P. unfold unknown_at. repeat split; intros; lia. }
    set (p := fun _ : nat => 1%nat) in *. pose proof (UN 1%nat ltac:(lia) p eq_refl) as U.
    rewrite (WY p U), (Y1 0%nat ltac:(lia) p U), (Y0 p U). cbn [sum_to]. unfold mixed. cbn [sum_to Nat.sub Nat.add].
    unfold along. cbn [equation_at heat1 first_fn second_fn inner_first_fn inner_second_fn zeroth_fn eb ea eA eB ec term lower upper open_end fixed_value Nat.eqb andb].
    unfold diff2, times, coef. rewrite SP.
    assert (N1 : v (next 0 p) = 3) by (rewrite V1; [reflexivity|apply (UN 2%nat); [lia|reflexivity]]).
    assert (C1 : v p = 1) by (rewrite V1; [reflexivity|exact U]).
    assert (P1 : v (prev 0 p) = 0).
    { destruct (V2 0%nat ltac:(lia) p) as [LH _]; [intros; lia|intros; lia|]. unfold lower_holds, lower, fixed_value, boundary_at, at_time in LH. cbn [Nat.eqb option_map weight] in LH. unfold prev. cbn [p Nat.sub]. lra. }
    rewrite N1, C1, P1. lra.
Qed.
Print Assumptions C77_nonuniform_refuted.
