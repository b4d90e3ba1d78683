(** C82: values computed by the one-dimensional PDE solver keep bounds and order
    when the grid resolves the drift and the explicit part is short enough. *)
From Coq Require Import Reals List Bool Arith Lra Lia.
From Verif Require Import TensorProofs TimeGridSpec PdeStepModel PdeStepSpec PdeStepView PdeStepProofs PdeRowProofs PropsPdeStep PdeSolveModel PdeSolveView PropsPdeSolve
  ItoPdeModel ItoPdeSpec ItoPdeProofs PdeMonotoneSpec PdeMonotoneProofs.
Import ListNotations.
Open Scope R_scope.

Lemma lower_value x b t f m M : end_within b t m M -> lower_at x b t f -> b <> None -> m <= f 0%nat <= M.
Proof.
  intros E A N. destruct b as [g|]; [|contradiction]. cbn [end_within lower_at] in *. destruct E as (v & G & B). unfold lower_holds in A. rewrite G in A. cbn [robin_holds coef] in A. lra.
Qed.
Lemma upper_value x n b t f m M : end_within b t m M -> upper_at x n b t f -> b <> None -> m <= f n <= M.
Proof.
  intros E A N. destruct b as [g|]; [|contradiction]. cbn [end_within upper_at] in *. destruct E as (v & G & B). unfold upper_holds in A. rewrite G in A. cbn [robin_holds coef] in A. lra.
Qed.

(** One step keeps any bounds [m, M] that the data have: the values before the
    step and the values prescribed at the ends.  With discounting (a zeroth order
    coefficient below 0) the bounds have to satisfy m <= 0 <= M. *)
Theorem C82_step_bounds (theta t1 t2 m M : R) (xs vs ws : list R) (lower upper : boundary) (co : coefficients) :
  let n := length xs in let tm := (t1 + t2) / 2 in
  increasing xs -> length vs = n -> sized_co n co tm -> 0 <= theta <= 1 -> t2 <= t1 ->
  monotone_at xs lower upper co tm theta (t1 - t2) ->
  (forall p, unknown lower upper n p -> coef_at (zeroth co tm) p * M <= 0 <= coef_at (zeroth co tm) p * m) ->
  end_within lower tm m M -> end_within lower t2 m M -> end_within upper tm m M -> end_within upper t2 m M ->
  all_within n vs m M ->
  parabolic_step (weighted_scheme theta) t1 t2 xs vs lower upper co = Some ws ->
  length ws = n /\ all_within n ws m M.
Proof.
  intros n tm Hx Lv SC T12 DT MO CM L1 L2 U1 U2 V H.
  assert (Hn : (3 <= n)%nat) by (destruct (step_some _ t1 t2 xs vs lower upper co ws Lv Hx H) as (? & ? & ? & _); assumption).
  destruct (theta_step_raw theta t1 t2 xs vs lower upper co ws Hx Lv SC H) as (Lw & LA & UA & v & w & VW & A1 & A2 & A3 & A4 & E).
  fold n tm in Lw, LA, UA, VW, A1, A2, A3, A4, E. set (L := op xs lower upper (pde_at co tm)) in *.
  assert (VB : forall p, (p < n)%nat -> m <= v p <= M).
  { intros p P. destruct (unknown_dec xs lower upper co tm theta (t1 - t2) Hn MO p P) as [U|[[-> N]|[-> N]]].
    - destruct (VW p U) as [-> _]. apply V. exact P.
    - apply (lower_value _ lower tm v m M L1 A1 N).
    - apply (upper_value _ _ upper tm v m M U1 A2 N). }
  assert (WB : forall p, (p < n)%nat -> unknown lower upper n p \/ m <= w p <= M).
  { intros p P. destruct (unknown_dec xs lower upper co tm theta (t1 - t2) Hn MO p P) as [U|[[-> N]|[-> N]]]; [left; exact U|right..].
    - apply (lower_value _ lower tm w m M L1 A3 N).
    - apply (upper_value _ _ upper tm w m M U1 A4 N). }
  assert (LO : forall p, (p < n)%nat -> 0 <= w p - m).
  { apply (core n (fun p => v p - m) (fun p => w p - m) (L (fun p => v p - m)) (L (fun p => w p - m)) (unknown lower upper n) (t1 - t2) theta); [lra|lra| | | |].
    - intros p P. destruct (WB p P) as [U|B]; [left; exact U|right; lra].
    - intros p P U. unfold L. rewrite !(op_minus xs lower upper co tm theta (t1 - t2) Hx Hn MO _ (fun _ => m)) by exact U. rewrite (op_const xs lower upper co tm theta (t1 - t2) Hx Hn MO) by exact U. fold L.
      specialize (E p U). destruct (CM p U) as [_ C2]. assert (0 <= (t1 - t2) * (coef_at (zeroth co tm) p * m)) by (apply Rmult_le_pos; lra). lra.
    - intros p P U. apply (explicit_positive xs lower upper co tm theta (t1 - t2) Hx Hn MO (fun p => v p - m) p); [lra|lra| |exact U]. intros q Q. specialize (VB q Q). lra.
    - intros p P U Mn N. apply (at_minimum xs lower upper co tm theta (t1 - t2) Hx Hn MO (fun p => w p - m) p); [exact Mn|exact N|exact U]. }
  assert (UP : forall p, (p < n)%nat -> 0 <= M - w p).
  { apply (core n (fun p => M - v p) (fun p => M - w p) (L (fun p => M - v p)) (L (fun p => M - w p)) (unknown lower upper n) (t1 - t2) theta); [lra|lra| | | |].
    - intros p P. destruct (WB p P) as [U|B]; [left; exact U|right; lra].
    - intros p P U. unfold L. rewrite !(op_minus xs lower upper co tm theta (t1 - t2) Hx Hn MO (fun _ => M)) by exact U. rewrite (op_const xs lower upper co tm theta (t1 - t2) Hx Hn MO) by exact U. fold L.
      specialize (E p U). destruct (CM p U) as [C1 _]. assert (0 <= (t1 - t2) * - (coef_at (zeroth co tm) p * M)) by (apply Rmult_le_pos; lra). lra.
    - intros p P U. apply (explicit_positive xs lower upper co tm theta (t1 - t2) Hx Hn MO (fun p => M - v p) p); [lra|lra| |exact U]. intros q Q. specialize (VB q Q). lra.
    - intros p P U Mn N. apply (at_minimum xs lower upper co tm theta (t1 - t2) Hx Hn MO (fun p => M - w p) p); [exact Mn|exact N|exact U]. }
  split; [exact Lw|]. intros p P. destruct (unknown_dec xs lower upper co tm theta (t1 - t2) Hn MO p P) as [U|[[-> N]|[-> N]]].
  - destruct (VW p U) as [_ <-]. specialize (LO p P). specialize (UP p P). lra.
  - apply (lower_value _ lower t2 (sq ws) m M L2 LA N).
  - apply (upper_value _ _ upper t2 (sq ws) m M U2 UA N).
Qed.
Print Assumptions C82_step_bounds.

Lemma op_same xs (lower lower' upper upper' : boundary) e f p : (lower = None <-> lower' = None) -> (upper = None <-> upper' = None) -> op xs lower upper e f p = op xs lower' upper' e f p.
Proof.
  intros [A1 A2] [B1 B2]. unfold op. destruct lower, lower'; try (discriminate (A1 eq_refl)); try (discriminate (A2 eq_refl));
    destruct upper, upper'; try (discriminate (B1 eq_refl)); try (discriminate (B2 eq_refl)); reflexivity.
Qed.
Lemma end_le_kind b b' t : end_le b b' t -> (b = None <-> b' = None).
Proof. destruct b, b'; cbn; intros H; try contradiction; split; intros; (reflexivity || discriminate). Qed.
Lemma lower_le x b b' t f f' : end_le b b' t -> lower_at x b t f -> lower_at x b' t f' -> b <> None -> f 0%nat <= f' 0%nat.
Proof.
  intros E A A' N. destruct b as [g|]; [|contradiction]. destruct b' as [g'|]; [|contradiction]. cbn [end_le lower_at] in *. destruct E as (v & v' & G & G' & B).
  unfold lower_holds in A, A'. rewrite G in A. rewrite G' in A'. cbn [robin_holds coef] in A, A'. lra.
Qed.
Lemma upper_le x n b b' t f f' : end_le b b' t -> upper_at x n b t f -> upper_at x n b' t f' -> b <> None -> f n <= f' n.
Proof.
  intros E A A' N. destruct b as [g|]; [|contradiction]. destruct b' as [g'|]; [|contradiction]. cbn [end_le upper_at] in *. destruct E as (v & v' & G & G' & B).
  unfold upper_holds in A, A'. rewrite G in A. rewrite G' in A'. cbn [robin_holds coef] in A, A'. lra.
Qed.

(** Larger data give larger values. *)
Theorem C82_step_order (theta t1 t2 : R) (xs vs vs' ws ws' : list R) (lower lower' upper upper' : boundary) (co : coefficients) :
  let n := length xs in let tm := (t1 + t2) / 2 in
  increasing xs -> length vs = n -> length vs' = n -> sized_co n co tm -> 0 <= theta <= 1 -> t2 <= t1 ->
  monotone_at xs lower upper co tm theta (t1 - t2) ->
  end_le lower lower' tm -> end_le lower lower' t2 -> end_le upper upper' tm -> end_le upper upper' t2 ->
  all_le n vs vs' ->
  parabolic_step (weighted_scheme theta) t1 t2 xs vs lower upper co = Some ws ->
  parabolic_step (weighted_scheme theta) t1 t2 xs vs' lower' upper' co = Some ws' ->
  length ws = n /\ length ws' = n /\ all_le n ws ws'.
Proof.
  intros n tm Hx Lv Lv' SC T12 DT MO L1 L2 U1 U2 V H H'.
  assert (Hn : (3 <= n)%nat) by (destruct (step_some _ t1 t2 xs vs lower upper co ws Lv Hx H) as (? & ? & ? & _); assumption).
  destruct (theta_step_raw theta t1 t2 xs vs lower upper co ws Hx Lv SC H) as (Lw & LA & UA & v & w & VW & A1 & A2 & A3 & A4 & E).
  destruct (theta_step_raw theta t1 t2 xs vs' lower' upper' co ws' Hx Lv' SC H') as (Lw' & LA' & UA' & v' & w' & VW' & A1' & A2' & A3' & A4' & E').
  fold n tm in Lw, LA, UA, VW, A1, A2, A3, A4, E, Lw', LA', UA', VW', A1', A2', A3', A4', E'. set (L := op xs lower upper (pde_at co tm)) in *.
  pose proof (end_le_kind _ _ _ L1) as KL. pose proof (end_le_kind _ _ _ U1) as KU.
  assert (UK : forall p, unknown lower upper n p -> unknown lower' upper' n p) by (intros p (P & P0 & P1); split; [exact P|]; split; intros Q; [apply KL, P0, Q|apply KU, P1, Q]).
  assert (EE : forall p, unknown lower upper n p -> w' p - v' p = - (t2 - t1) * (theta * L v' p + (1 - theta) * L w' p)).
  { intros p U. rewrite (E' p (UK p U)). unfold L. rewrite !(op_same xs lower lower' upper upper') by assumption. reflexivity. }
  assert (VB : forall p, (p < n)%nat -> v p <= v' p).
  { intros p P. destruct (unknown_dec xs lower upper co tm theta (t1 - t2) Hn MO p P) as [U|[[-> N]|[-> N]]].
    - destruct (VW p U) as [-> _]. destruct (VW' p (UK p U)) as [-> _]. apply V. exact P.
    - apply (lower_le _ lower lower' tm v v' L1 A1 A1' N).
    - apply (upper_le _ _ upper upper' tm v v' U1 A2 A2' N). }
  assert (WB : forall p, (p < n)%nat -> unknown lower upper n p \/ w p <= w' p).
  { intros p P. destruct (unknown_dec xs lower upper co tm theta (t1 - t2) Hn MO p P) as [U|[[-> N]|[-> N]]]; [left; exact U|right..].
    - apply (lower_le _ lower lower' tm w w' L1 A3 A3' N).
    - apply (upper_le _ _ upper upper' tm w w' U1 A4 A4' N). }
  assert (LO : forall p, (p < n)%nat -> 0 <= w' p - w p).
  { apply (core n (fun p => v' p - v p) (fun p => w' p - w p) (L (fun p => v' p - v p)) (L (fun p => w' p - w p)) (unknown lower upper n) (t1 - t2) theta); [lra|lra| | | |].
    - intros p P. destruct (WB p P) as [U|B]; [left; exact U|right; lra].
    - intros p P U. unfold L. rewrite !(op_minus xs lower upper co tm theta (t1 - t2) Hx Hn MO) by exact U. fold L. specialize (E p U). specialize (EE p U). lra.
    - intros p P U. apply (explicit_positive xs lower upper co tm theta (t1 - t2) Hx Hn MO (fun p => v' p - v p) p); [lra|lra| |exact U]. intros q Q. specialize (VB q Q). lra.
    - intros p P U Mn N. apply (at_minimum xs lower upper co tm theta (t1 - t2) Hx Hn MO (fun p => w' p - w p) p); [exact Mn|exact N|exact U]. }
  split; [exact Lw|]. split; [exact Lw'|]. intros p P. destruct (unknown_dec xs lower upper co tm theta (t1 - t2) Hn MO p P) as [U|[[-> N]|[-> N]]].
  - destruct (VW p U) as [_ <-]. destruct (VW' p (UK p U)) as [_ <-]. specialize (LO p P). lra.
  - apply (lower_le _ lower lower' t2 (sq ws) (sq ws') L2 LA LA' N).
  - apply (upper_le _ _ upper upper' t2 (sq ws) (sq ws') U2 UA UA' N).
Qed.
Print Assumptions C82_step_order.

(** ** The step does not fail *)
Lemma extended_exists xs co vs lower upper t : increasing xs -> (3 <= length xs)%nat -> extended_matrix xs co vs lower upper t <> None.
Proof.
  intros Hx Hn. unfold extended_matrix, raw_matrix.
  pose proof (proj1 (orders_exist xs Hx Hn (first_ co t) (inner_first co t) (map (fun _ => 0) (inner vs)))) as O1.
  pose proof (proj2 (orders_exist xs Hx Hn (second co t) (inner_second co t) (map (fun _ => 0) (inner vs)))) as O2.
  destruct (first_order (first_ co t) _ _ _ _ _) as [[[s1 d1] u1]|]; [|contradiction]. cbn [bind].
  destruct (second_order (second co t) _ _ _ _ _) as [[[s2 d2] u2]|]; [|contradiction]. cbn [bind].
  assert (F0 : first (tl (zw Rminus (tl xs) (removelast xs))) <> 0).
  { unfold first. rewrite (forward_nth xs Hn) by lia. pose proof (inc3 xs 0 Hx ltac:(lia)). lra. }
  assert (B0 : last (removelast (zw Rminus (tl xs) (removelast xs))) 0 <> 0).
  { rewrite last_at, (backward_length xs Hn). rewrite (backward_nth xs Hn) by lia. pose proof (inc3 xs (length xs - 2 - 1) Hx ltac:(lia)). lra. }
  assert (DL : forall m, match lower with None => default_lower m (first_ co t) (zeroth co t) (inner_first co t) (tl (zw Rminus (tl xs) (removelast xs))) | Some _ => Some m end <> None).
  { intros [[s d] u]. destruct lower; [discriminate|]. unfold default_lower. rewrite !odiv_ok by exact F0. discriminate. }
  assert (DU : forall m, match upper with None => default_upper m (first_ co t) (zeroth co t) (inner_first co t) (removelast (zw Rminus (tl xs) (removelast xs))) | Some _ => Some m end <> None).
  { intros [[s d] u]. destruct upper; [discriminate|]. unfold default_upper. rewrite !odiv_ok by exact B0. discriminate. }
  match goal with |- bind ?a _ <> None => destruct a as [m|] eqn:EA; [cbn [bind]; apply DU|] end.
  exfalso. eapply DL. exact EA.
Qed.
Lemma robin_dirichlet deltas m (lower upper : boundary) t m1 M1 m2 M2 : end_within lower t m1 M1 -> end_within upper t m2 M2 ->
  exists inh, robin deltas m (at_time lower t) (at_time upper t) = Some (m, inh).
Proof.
  intros A B. destruct m as [[s d] u]. unfold robin, at_time. destruct lower as [g|], upper as [g'|]; cbn [end_within option_map] in *.
  - destruct A as (v & -> & _). destruct B as (v' & -> & _). cbn [has_beta negb andb dirichlet_term]. rewrite !odiv_ok by lra. cbn [bind]. eauto.
  - destruct A as (v & -> & _). cbn [has_beta negb andb dirichlet_term]. rewrite !odiv_ok by lra. cbn [bind]. eauto.
  - destruct B as (v' & -> & _). cbn [has_beta negb andb dirichlet_term]. cbn [bind]. rewrite !odiv_ok by lra. cbn [bind]. eauto.
  - eauto.
Qed.
Theorem C82_step_exists (theta t1 t2 m M : R) (xs vs : list R) (lower upper : boundary) (co : coefficients) :
  let n := length xs in let tm := (t1 + t2) / 2 in
  increasing xs -> (4 <= n)%nat -> length vs = n -> sized_co n co tm -> 0 <= theta <= 1 -> t2 <= t1 ->
  monotone_at xs lower upper co tm theta (t1 - t2) ->
  end_within lower tm m M -> end_within lower t2 m M -> end_within upper tm m M -> end_within upper t2 m M ->
  parabolic_step (weighted_scheme theta) t1 t2 xs vs lower upper co <> None.
Proof.
  intros n tm Hx Hn Lv SC T12 DT MO L1 L2 U1 U2. unfold parabolic_step.
  pose proof (inner_grid_spec vs lower upper) as [Lg _]. cbv zeta in Lg. set (g0 := match upper with None => _ | Some _ => _ end) in *. clearbody g0.
  rewrite Lv in *. destruct (Nat.ltb_spec n 3); [lia|]. set (k := (n - offset lower - offset upper)%nat) in *. assert (K : (2 <= k)%nat) by (unfold k; destruct lower, upper; cbn [offset]; lia).
  destruct (Nat.ltb_spec (length g0) 2); [lia|]. cbn [orb].
  destruct (extended_matrix xs co vs lower upper tm) as [[[sub diag] sup]|] eqn:EM; [|exfalso; revert EM; apply extended_exists; [exact Hx|fold n; lia]].
  destruct (robin_dirichlet (zw Rminus (tl xs) (removelast xs)) (sub, diag, sup) lower upper tm m M m M L1 U1) as [inh RD].
  assert (PA : equation_params xs vs co lower upper tm = Some ((sub, diag, sup), inh)) by (rewrite equation_params_eq, EM; cbn [bind]; exact RD).
  destruct (params_rows xs Hx ltac:(fold n; lia) co vs lower upper tm _ inh SC Lv PA) as (W & LI & _); [fold n; fold k; exact K|]. fold n in W, LI. fold k in W, LI. destruct W as (W1 & W2 & W3).
  destruct (C49_theta_exists theta t1 t2 g0 (equation_params xs vs co lower upper) sub diag sup inh PA) as [EX _]; try (rewrite Lg; assumption).
  assert (SN : weighted_scheme theta g0 t1 t2 (equation_params xs vs co lower upper) <> None).
  { apply EX; [exact T12|]. rewrite Lg. intros i I.
    destruct (entries xs lower upper co tm theta (t1 - t2) Hx ltac:(fold n; lia) MO vs (sub, diag, sup) i SC Lv EM K I) as (E1 & E2 & E3). cbn [fst snd] in E1, E2, E3.
    rewrite E1, E2, E3. destruct MO as (MA & MB & MC). destruct (MC _ (index_unknown xs lower upper co tm theta (t1 - t2) ltac:(fold n; lia) (conj MA (conj MB MC)) i I)) as (P1 & P2 & P3 & _). fold n in P1, P2, P3 |- *.
    set (up := upper_weight _ _ _ _ _) in *. set (lo := lower_weight _ _ _ _ _) in *. set (cc := coef_at _ _) in *.
    set (q := (1 - theta) * (t1 - t2)). assert (Q : 0 <= q) by (apply Rmult_le_pos; lra). replace ((1 - theta) * (t2 - t1)) with (- q) by (unfold q; ring).
    replace (- q * - lo) with (q * lo) by ring. replace (- q * - up) with (q * up) by ring. replace (1 - - q * (up + lo - cc)) with (1 + q * lo + q * up + q * - cc) by ring.
    assert (0 <= q * lo) by (apply Rmult_le_pos; lra). assert (0 <= q * up) by (apply Rmult_le_pos; lra). assert (0 <= q * - cc) by (apply Rmult_le_pos; lra).
    rewrite !Rabs_pos_eq by lra. lra. }
  destruct (weighted_scheme theta g0 t1 t2 (equation_params xs vs co lower upper)) as [u|]; [|contradiction]. cbn [bind]. unfold after_step.
  assert (BL : forall d0 d1 v1 v2, boundary_value d0 d1 v1 v2 lower t2 <> None).
  { intros. destruct lower as [g|]; [|discriminate]. cbn [boundary_value end_within] in *. destruct L2 as (v & -> & _). cbn [discretize_boundary]. rewrite odiv_ok by lra. discriminate. }
  assert (BU : forall d0 d1 v1 v2, boundary_value d0 d1 v1 v2 upper t2 <> None).
  { intros. destruct upper as [g|]; [|discriminate]. cbn [boundary_value end_within] in *. destruct U2 as (v & -> & _). cbn [discretize_boundary]. rewrite odiv_ok by lra. discriminate. }
  match goal with |- bind ?a _ <> None => pose proof (BL (first (zw Rminus (tl xs) (removelast xs))) (nth 1 (zw Rminus (tl xs) (removelast xs)) 0) (first u) (nth 1 u 0)) as Q1; destruct a; [cbn [bind]|contradiction] end.
  match goal with |- bind ?a _ <> None => pose proof (BU (last (zw Rminus (tl xs) (removelast xs)) 0) (last2 (zw Rminus (tl xs) (removelast xs))) (last u 0) (last2 u)) as Q2; destruct a; [discriminate|contradiction] end.
Qed.
Print Assumptions C82_step_exists.

(** ** The solver *)
(** decreasing times in [lo, hi], [dt] apart *)
Definition steps_down (l : list R) (lo hi dt : R) : Prop :=
  (forall i, (S i < length l)%nat -> nth i l 0 - nth (S i) l 0 = dt) /\ (forall i, (i < length l)%nat -> lo <= nth i l 0 <= hi).
Lemma steps_tail a l lo hi dt : steps_down (a :: l) lo hi dt -> steps_down l lo hi dt.
Proof. intros [A B]. split; intros i H; [apply (A (S i))|apply (B (S i))]; cbn [length]; lia. Qed.
Lemma steps_head a c l lo hi dt : steps_down (a :: c :: l) lo hi dt -> a - c = dt /\ lo <= a <= hi /\ lo <= c <= hi.
Proof. intros [A B]. split; [apply (A 0%nat); cbn [length]; lia|]. split; [apply (B 0%nat)|apply (B 1%nat)]; cbn [length]; lia. Qed.
Lemma steps_times (T t : R) (k : nat) : t < T -> (1 <= k)%nat -> steps_down (map (fun i => T - INR i * ((T - t) / INR k)) (seq 0 (S k))) t T ((T - t) / INR k).
Proof.
  intros Ht K. assert (PK : 0 < INR k) by (apply lt_0_INR; lia).
  assert (NT : forall i, (i < S k)%nat -> nth i (map (fun i => T - INR i * ((T - t) / INR k)) (seq 0 (S k))) 0 = T - INR i * ((T - t) / INR k)).
  { intros i I. pose (F := fun i => T - INR i * ((T - t) / INR k)). change (nth i (map F (seq 0 (S k))) 0 = F i). rewrite (nth_indep _ 0 (F 0%nat)) by (rewrite map_length, seq_length; exact I). rewrite map_nth, seq_nth by exact I. reflexivity. }
  split; rewrite map_length, seq_length; intros i I.
  - rewrite !NT by lia. rewrite S_INR. ring.
  - rewrite NT by exact I. assert (Q : 0 <= (T - t) / INR k) by (apply Rmult_le_pos; [lra|left; apply Rinv_0_lt_compat; exact PK]).
    assert (0 <= INR i <= INR k) by (split; [apply pos_INR|apply le_INR; lia]).
    assert (INR k * ((T - t) / INR k) = T - t) by (field; lra). nra.
Qed.

Section SolverSection.
Variables (xs : list R) (b : boundary * boundary) (co : coefficients) (theta lo hi dt m M : R).
Let n := length xs.
Hypothesis Hx : increasing xs.
Hypothesis Hn : (4 <= n)%nat.
Hypothesis SC : forall s, sized_co n co s.
Hypothesis TH : 0 <= theta <= 1.
Hypothesis DT : 0 <= dt.
Hypothesis MO : forall s, lo <= s <= hi -> monotone_at xs (fst b) (snd b) co s theta dt.
Hypothesis L : forall s, lo <= s <= hi -> end_within (fst b) s m M.
Hypothesis U : forall s, lo <= s <= hi -> end_within (snd b) s m M.

Lemma one_exists vs a c count : length vs = n -> a - c = dt -> lo <= a <= hi -> lo <= c <= hi ->
  exists ws, one_step (fun _ => weighted_scheme theta) xs b co a c count (Some vs) = Some ws /\ parabolic_step (weighted_scheme theta) a c xs vs (fst b) (snd b) co = Some ws.
Proof using Hx Hn SC TH DT MO L U.
  intros Lv E A C. cbn [one_step bind].
  destruct (parabolic_step (weighted_scheme theta) a c xs vs (fst b) (snd b) co) as [ws|] eqn:PS; [eauto|]. exfalso. revert PS.
  apply (C82_step_exists theta a c m M xs vs (fst b) (snd b) co); try assumption; try (apply SC); try (apply L; lra); try (apply U; lra); try lra.
  rewrite E. apply MO. lra.
Qed.

Hypothesis CM : forall s p, lo <= s <= hi -> unknown (fst b) (snd b) n p -> coef_at (zeroth co s) p * M <= 0 <= coef_at (zeroth co s) p * m.
Lemma march_bounds : forall l vs count, steps_down l lo hi dt -> length vs = n -> all_within n vs m M ->
  exists ws, march (one_step (fun _ => weighted_scheme theta) xs b co) (fun _ v => v) l count (Some vs) = Some ws /\ length ws = n /\ all_within n ws m M.
Proof using Hx Hn SC TH DT MO L U CM.
  induction l as [|a [|c l] IH]; intros vs count D Lv V; [exists vs; split; [reflexivity|split; assumption]..|].
  destruct (steps_head _ _ _ _ _ _ D) as (E & A & C). destruct (one_exists vs a c count Lv E A C) as (ws & O & PS).
  destruct (C82_step_bounds theta a c m M xs vs ws (fst b) (snd b) co) as [Lw W]; try assumption; try (apply SC); try (apply L; lra); try (apply U; lra); try lra.
  { rewrite E. apply MO. lra. }
  { intros p P. apply CM; [lra|exact P]. }
  change (march (one_step (fun _ => weighted_scheme theta) xs b co) (fun _ v => v) (a :: c :: l) count (Some vs))
    with (march (one_step (fun _ => weighted_scheme theta) xs b co) (fun _ v => v) (c :: l) (S count) (one_step (fun _ => weighted_scheme theta) xs b co a c count (Some vs))).
  rewrite O. apply IH; [apply (steps_tail _ _ _ _ _ D)|exact Lw|exact W].
Qed.
End SolverSection.

Section OrderSection.
Variables (xs : list R) (b b' : boundary * boundary) (co : coefficients) (theta lo hi dt m M : R).
Let n := length xs.
Hypothesis Hx : increasing xs.
Hypothesis Hn : (4 <= n)%nat.
Hypothesis SC : forall s, sized_co n co s.
Hypothesis TH : 0 <= theta <= 1.
Hypothesis DT : 0 <= dt.
Hypothesis MO : forall s, lo <= s <= hi -> monotone_at xs (fst b) (snd b) co s theta dt.
Hypothesis L : forall s, lo <= s <= hi -> end_le (fst b) (fst b') s.
Hypothesis U : forall s, lo <= s <= hi -> end_le (snd b) (snd b') s.
Lemma march_order : forall l vs vs' count ws ws', steps_down l lo hi dt -> length vs = n -> length vs' = n -> all_le n vs vs' ->
  march (one_step (fun _ => weighted_scheme theta) xs b co) (fun _ v => v) l count (Some vs) = Some ws ->
  march (one_step (fun _ => weighted_scheme theta) xs b' co) (fun _ v => v) l count (Some vs') = Some ws' ->
  length ws = n /\ length ws' = n /\ all_le n ws ws'.
Proof using Hx Hn SC TH DT MO L U.
  induction l as [|a [|c l] IH]; intros vs vs' count ws ws' D Lv Lv' V H H'; [injection H as <-; injection H' as <-; auto..|].
  destruct (steps_head _ _ _ _ _ _ D) as (E & A & C).
  change (march (one_step (fun _ => weighted_scheme theta) xs b co) (fun _ v => v) (a :: c :: l) count (Some vs))
    with (march (one_step (fun _ => weighted_scheme theta) xs b co) (fun _ v => v) (c :: l) (S count) (one_step (fun _ => weighted_scheme theta) xs b co a c count (Some vs))) in H.
  change (march (one_step (fun _ => weighted_scheme theta) xs b' co) (fun _ v => v) (a :: c :: l) count (Some vs'))
    with (march (one_step (fun _ => weighted_scheme theta) xs b' co) (fun _ v => v) (c :: l) (S count) (one_step (fun _ => weighted_scheme theta) xs b' co a c count (Some vs'))) in H'.
  cbn [one_step bind] in H, H'.
  destruct (parabolic_step (weighted_scheme theta) a c xs vs (fst b) (snd b) co) as [us|] eqn:PS; [|rewrite (march_none xs b co (fun _ => weighted_scheme theta)) in H; discriminate].
  destruct (parabolic_step (weighted_scheme theta) a c xs vs' (fst b') (snd b') co) as [us'|] eqn:PS'; [|rewrite (march_none xs b' co (fun _ => weighted_scheme theta)) in H'; discriminate].
  destruct (C82_step_order theta a c xs vs vs' us us' (fst b) (fst b') (snd b) (snd b') co) as (Lw & Lw' & W); try assumption; try (apply SC); try (apply L; lra); try (apply U; lra); try lra.
  { rewrite E. apply MO. lra. }
  apply (IH us us' (S count) ws ws'); try assumption. apply (steps_tail _ _ _ _ _ D).
Qed.
End OrderSection.

(** The whole run of the backward solver: with the grid and the steps as above at
    all times of the run it finishes at the requested time and its values stay
    between the bounds of the payoff and of the prescribed end values. *)
Theorem C82_solver_bounds (g : generic) (discounting : option (R -> point -> R)) (T t : R) (xs payoff : list R) (theta m M : R) (b : option (boundary * boundary)) (k count fuel : nat) :
  let n := length xs in let co := backward_coefficients g discounting xs in let lower := fst (boundaries_or_zero b) in let upper := snd (boundaries_or_zero b) in
  increasing xs -> (4 <= n)%nat -> length payoff = n -> 0 <= theta <= 1 -> 0 <= t < T -> (1 <= k)%nat ->
  (forall s, t <= s <= T -> monotone_at xs lower upper co s theta ((T - t) / INR k)) ->
  (discounting = None \/ m <= 0 <= M) ->
  (forall s, t <= s <= T -> end_within lower s m M /\ end_within upper s m M) ->
  all_within n payoff m M ->
  exists values, fd_solver_backward g T t xs payoff discounting (Some (fun _ => weighted_scheme theta)) b count (Some k) None fuel = Some (Some values, t, (count + k)%nat)
    /\ length values = n /\ all_within n values m M.
Proof.
  intros n co lower upper Hx Hn Lp TH Ht K MO DI EN V. set (b' := boundaries_or_zero b) in *.
  destruct (C49_backward_num_steps (one_step (fun _ => weighted_scheme theta) xs b' co) (fun _ v => v) None fuel count (Some payoff) T t k Ht K) as [B _].
  assert (PK : 0 < INR k) by (apply lt_0_INR; lia).
  destruct (march_bounds xs b' co theta t T ((T - t) / INR k) m M) with (l := map (fun i => T - INR i * ((T - t) / INR k)) (seq 0 (S k))) (vs := payoff) (count := count) as (ws & E & Lw & W); try assumption.
  - intros s. apply backward_sized.
  - apply Rmult_le_pos; [lra|left; apply Rinv_0_lt_compat; exact PK].
  - intros s S0. apply EN. exact S0.
  - intros s S0. apply EN. exact S0.
  - intros s p S0 P. destruct DI as [->|DI]; [cbn; lra|]. destruct (MO s S0) as (_ & _ & MC). destruct (MC p P) as (_ & _ & C0 & _). fold n in C0. cbv zeta in C0. set (cc := coef_at _ p) in *. nra.
  - apply steps_times; [lra|exact K].
  - exists ws. split; [|split; assumption]. refine (eq_trans B _). rewrite E. reflexivity.
Qed.
Print Assumptions C82_solver_bounds.

Theorem C82_solver_order (g : generic) (discounting : option (R -> point -> R)) (T t : R) (xs payoff payoff' values values' : list R) (theta : R) (b b' : option (boundary * boundary)) (k count fuel : nat) t' t'' c' c'' :
  let n := length xs in let co := backward_coefficients g discounting xs in
  let lower := fst (boundaries_or_zero b) in let upper := snd (boundaries_or_zero b) in let lower' := fst (boundaries_or_zero b') in let upper' := snd (boundaries_or_zero b') in
  increasing xs -> (4 <= n)%nat -> length payoff = n -> length payoff' = n -> 0 <= theta <= 1 -> 0 <= t < T -> (1 <= k)%nat ->
  (forall s, t <= s <= T -> monotone_at xs lower upper co s theta ((T - t) / INR k)) ->
  (forall s, t <= s <= T -> end_le lower lower' s /\ end_le upper upper' s) ->
  all_le n payoff payoff' ->
  fd_solver_backward g T t xs payoff discounting (Some (fun _ => weighted_scheme theta)) b count (Some k) None fuel = Some (Some values, t', c') ->
  fd_solver_backward g T t xs payoff' discounting (Some (fun _ => weighted_scheme theta)) b' count (Some k) None fuel = Some (Some values', t'', c'') ->
  all_le n values values'.
Proof.
  intros n co lower upper lower' upper' Hx Hn Lp Lp' TH Ht K MO EN V HB HB'. set (b1 := boundaries_or_zero b) in *. set (b2 := boundaries_or_zero b') in *.
  destruct (C49_backward_num_steps (one_step (fun _ => weighted_scheme theta) xs b1 co) (fun _ v => v) None fuel count (Some payoff) T t k Ht K) as [B _].
  destruct (C49_backward_num_steps (one_step (fun _ => weighted_scheme theta) xs b2 co) (fun _ v => v) None fuel count (Some payoff') T t k Ht K) as [B' _].
  unfold fd_solver_backward in HB, HB'. cbn [scheme_or_default] in HB, HB'.
  pose proof (eq_trans (eq_sym B) HB) as E. pose proof (eq_trans (eq_sym B') HB') as E'. clear B B' HB HB'. pose proof (steps_times T t k ltac:(lra) K) as D.
  assert (PK : 0 < INR k) by (apply lt_0_INR; lia).
  assert (Q : 0 <= (T - t) / INR k) by (apply Rmult_le_pos; [lra|left; apply Rinv_0_lt_compat; exact PK]).
  remember (map (fun i => T - INR i * ((T - t) / INR k)) (seq 0 (S k))) as ts eqn:TS. clear TS. injection E as E _ _. injection E' as E' _ _.
  destruct (march_order xs b1 b2 co theta t T ((T - t) / INR k) Hx Hn (backward_sized g discounting xs) TH Q MO (fun s S0 => proj1 (EN s S0)) (fun s S0 => proj2 (EN s S0)) ts payoff payoff' count values values' D Lp Lp' V E E') as (_ & _ & W).
  exact W.
Qed.
Print Assumptions C82_solver_order.

(** The implicit scheme needs no condition on the length of the steps: on a grid
    with max(spacing) * |drift| <= volatility^2, for a process with one asset and
    rates that are not negative, with Dirichlet conditions or the default zero
    ends, every run succeeds and keeps the bounds. *)
Theorem C82_implicit (m1 s1 : R -> R -> R) (rate : option (R -> R -> R)) (T t : R) (xs payoff : list R) (m M : R) (ends : option ((R -> R) * (R -> R))) (k count fuel : nat) :
  let n := length xs in
  let g := Generic 1 (fun s x _ => m1 s (x 0%nat)) (fun s x _ _ => s1 s (x 0%nat)) in
  let discounting := option_map (fun r s (x : point) => r s (x 0%nat)) rate in
  let b := option_map (fun e => (Some (dirichlet (fst e)), Some (dirichlet (snd e)))) ends in
  let low := match ends with Some e => fst e | None => fun _ => 0 end in let high := match ends with Some e => snd e | None => fun _ => 0 end in
  increasing xs -> (4 <= n)%nat -> length payoff = n -> 0 <= t < T -> (1 <= k)%nat ->
  (forall s p, t <= s <= T -> (S (S p) < n)%nat ->
     Rmax (nth (S p) xs 0 - nth p xs 0) (nth (S (S p)) xs 0 - nth (S p) xs 0) * Rabs (m1 s (nth (S p) xs 0)) <= s1 s (nth (S p) xs 0) * s1 s (nth (S p) xs 0)) ->
  (forall r s x, rate = Some r -> 0 <= r s x) -> (rate = None \/ m <= 0 <= M) ->
  (forall s, t <= s <= T -> m <= low s <= M /\ m <= high s <= M) -> all_within n payoff m M ->
  exists values, fd_solver_backward g T t xs payoff discounting (Some (fun _ => implicit_scheme)) b count (Some k) None fuel = Some (Some values, t, (count + k)%nat)
    /\ length values = n /\ all_within n values m M.
Proof.
  intros n g discounting b low high Hx Hn Lp Ht K PE RA DI EN V. unfold implicit_scheme.
  assert (LB : fst (boundaries_or_zero b) = Some (dirichlet low)) by (unfold b, low; destruct ends; reflexivity).
  assert (UB : snd (boundaries_or_zero b) = Some (dirichlet high)) by (unfold b, high; destruct ends; reflexivity).
  apply (C82_solver_bounds g discounting T t xs payoff 0 m M b k count fuel); try assumption; rewrite ?LB, ?UB.
  - lra.
  - intros s S0. split; [reflexivity|]. split; [reflexivity|]. fold n. intros p (P & P0 & P1).
    assert (p <> 0%nat) by (intros ->; discriminate (P0 eq_refl)). assert (p <> (n - 1)%nat) by (intros ->; discriminate (P1 eq_refl)).
    destruct p as [|p]; [contradiction|]. assert (P2 : (S (S p) < n)%nat) by lia. specialize (PE s p S0 P2).
    cbv zeta. unfold upper_weight, lower_weight. change (Nat.eqb (S p) 0) with false. cbv iota. destruct (Nat.eqb_spec (S p) (n - 1)); [contradiction|].
    replace (S p + 1)%nat with (S (S p)) by lia. replace (S p - 1)%nat with p by lia.
    pose proof (Hx p ltac:(fold n; lia)) as X1. pose proof (Hx (S p) ltac:(fold n; lia)) as X2.
    unfold coef_at, backward_coefficients. cbn [second first_ zeroth]. rewrite !on_grid_nth by (fold n; lia).
    unfold second_order_coeff, first_order_coeff. cbn [gdim mu sg g rsum]. unfold mesh. unfold sq.
    set (x0 := nth p xs 0) in *. set (x1 := nth (S p) xs 0) in *. set (x2 := nth (S (S p)) xs 0) in *. set (v := s1 s x1) in *. set (u := m1 s x1) in *.
    assert (Q1 : (x1 - x0) * Rabs u <= v * v) by (apply Rle_trans with (Rmax (x1 - x0) (x2 - x1) * Rabs u); [apply Rmult_le_compat_r; [apply Rabs_pos|apply Rmax_l]|exact PE]).
    assert (Q2 : (x2 - x1) * Rabs u <= v * v) by (apply Rle_trans with (Rmax (x1 - x0) (x2 - x1) * Rabs u); [apply Rmult_le_compat_r; [apply Rabs_pos|apply Rmax_r]|exact PE]).
    pose proof (Rle_abs u) as A1. pose proof (Rle_abs (- u)) as A2. rewrite Rabs_Ropp in A2.
    assert (CZ : match option_map (on_grid xs) (zeroth_order_coeff discounting (fun _ => xs) s) with Some l => nth (S p) l 0 | None => 0 end <= 0).
    { unfold discounting, zeroth_order_coeff. destruct rate as [r|]; cbn [option_map]; [|lra]. rewrite on_grid_nth by (fold n; lia). unfold mesh. specialize (RA r s x1 eq_refl). fold x1. lra. }
    split; [|split; [|split; [exact CZ|lra]]].
    + apply Rmult_le_pos; [nra|left; apply Rinv_0_lt_compat, Rmult_lt_0_compat; lra].
    + apply Rmult_le_pos; [nra|left; apply Rinv_0_lt_compat, Rmult_lt_0_compat; lra].
  - destruct DI as [->|DI]; [left; reflexivity|right; exact DI].
  - intros s S0. destruct (EN s S0) as [E1 E2]. split; cbn [end_within]; unfold dirichlet; eauto.
Qed.
Print Assumptions C82_implicit.

(** a case with drift, rate and unequal spacings that meets the hypotheses: drift
    x/4, volatility 1 and rate 1/10 on the grid 0, 1, 3, 4, a call as payoff *)
Example implicit_case : exists values,
  fd_solver_backward (Generic 1 (fun s x _ => (fun _ y => y / 8) s (x 0%nat)) (fun s x _ _ => (fun _ _ => 1) s (x 0%nat))) 2 0 [0; 1; 3; 4] [0; 0; 1; 2]
    (Some (fun s (x : point) => (fun _ _ => 1 / 10) s (x 0%nat))) (Some (fun _ => implicit_scheme)) (Some (Some (dirichlet (fun _ => 0)), Some (dirichlet (fun _ => 2)))) 0 (Some 5%nat) None 10 = Some (Some values, 0, 5%nat)
  /\ length values = 4%nat /\ all_within 4 values 0 2.
Proof.
  apply (C82_implicit (fun _ y => y / 8) (fun _ _ => 1) (Some (fun _ _ => 1 / 10)) 2 0 [0; 1; 3; 4] [0; 0; 1; 2] 0 2 (Some (fun _ => 0, fun _ => 2)) 5 0 10).
  - intros i I. cbn [length] in I. destruct i as [|[|[|i]]]; cbn; try lra; lia.
  - cbn; lia.
  - reflexivity.
  - lra.
  - lia.
  - intros s p _ P. cbn [length] in P. destruct p as [|[|p]]; [| |lia]; cbn [nth]; unfold Rmax; destruct Rle_dec; try lra; rewrite Rabs_pos_eq; lra.
  - intros r s x E. assert (r = fun _ _ => 1 / 10) by congruence. subst r. lra.
  - right. lra.
  - intros s _. cbn [fst snd]. lra.
  - intros p P. cbn [length] in P. destruct p as [|[|[|[|p]]]]; cbn; try lra; lia.
Qed.

(** With the default scheme this fails: for standard Brownian motion on the grid
    0, 1, 2, 3 with the default zero ends, the payoff 0, 1, 0, 0 and one step of
    length 8, the value at 1 is negative. *)
Definition brownian := backward_coefficients (Generic 1 (fun _ _ _ => 0) (fun _ _ _ _ => 1)) None [0; 1; 2; 3].
Lemma list2 (a b c d : R) : a = c -> b = d -> [a; b] = [c; d].
Proof. intros -> ->. reflexivity. Qed.
Lemma brownian_params t : equation_params [0; 1; 2; 3] [0; 1; 0; 0] brownian zero_ends zero_ends t = Some (([- (1 / 2); - (1 / 2)], [1; 1], [- (1 / 2); - (1 / 2)]), [0; 0]).
Proof.
  unfold equation_params, first_order, second_order, zeroth_order, default_lower, default_upper, robin, robin_terms, dirichlet_term, has_beta, at_time, divs, zero_ends, dirichlet,
    brownian, backward_coefficients, on_grid, second_order_coeff, first_order_coeff. cbn. repeat (run; cbn).
  apply f_equal. apply f_equal2; [apply f_equal2; [apply f_equal2|]|]; apply list2; field.
Qed.
Lemma brownian_implicit v0 v1 h t1 : 0 < h ->
  implicit_scheme [v0; v1] t1 (t1 - h) (equation_params [0; 1; 2; 3] [0; 1; 0; 0] brownian zero_ends zero_ends)
  = Some [((1 + h) * v0 + h / 2 * v1) / ((1 + h) * (1 + h) - h * h / 4); (h / 2 * v0 + (1 + h) * v1) / ((1 + h) * (1 + h) - h * h / 4)].
Proof.
  intros Hh. unfold implicit_scheme, weighted_scheme. rewrite brownian_params. destruct (Rlt_dec 0 0); [lra|]. destruct (Rlt_dec 1 0); [lra|]. cbn [bind].
  destruct (Req_EM_T 0 0); [|lra]. destruct (Req_EM_T 0 1); [lra|]. unfold implicit_part, thomas. cbn -[Rmult].
  replace ((1 - 0) * (t1 - (t1 - h))) with h by ring. set (a := 1 + h * 1). assert (A : a <> 0) by (unfold a; lra).
  replace (a - h * - (1 / 2) * 0) with a by ring. rewrite !odiv_ok by exact A. cbn [bind].
  assert (D1 : a * a - h * h / 4 <> 0) by (unfold a; nra).
  assert (D : a - h * - (1 / 2) * (h * - (1 / 2) / a) <> 0).
  { replace (a - h * - (1 / 2) * (h * - (1 / 2) / a)) with ((a * a - h * h / 4) * / a) by (field; exact A). apply Rmult_integral_contrapositive_currified; [exact D1|apply Rinv_neq_0_compat, A]. }
  rewrite !odiv_ok by exact D. cbn [bind first nth]. replace (1 + h) with a by (unfold a; ring).
  destruct (Rlt_dec 0 1); [|lra]. apply f_equal. apply list2; field; repeat split; try assumption; nra.
Qed.
Lemma default_step : parabolic_step (damped_crank_nicolson 1 0) 8 0 [0; 1; 2; 3] [0; 1; 0; 0] zero_ends zero_ends brownian = Some [0; - 199 / 28665; 836 / 28665; 0].
Proof.
  unfold parabolic_step. cbn [length Nat.ltb Nat.leb orb zero_ends inner tl removelast]. unfold damped_crank_nicolson, composite_scheme. cbn [Nat.ltb Nat.leb]. unfold extrapolation_scheme.
  fold zero_ends. replace ((8 + 0) / 2) with (8 - 4) by field. rewrite brownian_implicit by lra. cbn [bind].
  assert (Z : forall t1 h v0 v1, 0 < h -> t1 - h = 0 -> implicit_scheme [v0; v1] t1 0 (equation_params [0; 1; 2; 3] [0; 1; 0; 0] brownian zero_ends zero_ends)
    = Some [((1 + h) * v0 + h / 2 * v1) / ((1 + h) * (1 + h) - h * h / 4); (h / 2 * v0 + (1 + h) * v1) / ((1 + h) * (1 + h) - h * h / 4)]) by (intros t1 h v0 v1 Hh E; rewrite <- brownian_implicit with (t1 := t1) by exact Hh; rewrite E; reflexivity).
  rewrite (Z (8 - 4) 4) by lra. cbn [bind]. rewrite (Z 8 8) by lra. cbn [bind map zw].
  unfold after_step, boundary_value, zero_ends, dirichlet, discretize_boundary. rewrite !odiv_ok by lra. cbn.
  apply f_equal. repeat apply f_equal2; try reflexivity; field.
Qed.
Theorem C82_default_negative_refuted :
  let g := Generic 1 (fun _ _ _ => 0) (fun _ _ _ _ => 1) in
  fd_solver_backward g 8 0 [0; 1; 2; 3] [0; 1; 0; 0] None None None 0 (Some 1%nat) None 2 = Some (Some [0; - 199 / 28665; 836 / 28665; 0], 0, 1%nat)
  /\ all_within 4 [0; 1; 0; 0] 0 1 /\ ~ all_within 4 [0; - 199 / 28665; 836 / 28665; 0] 0 1.
Proof.
  intros g. split; [|split].
  - unfold fd_solver_backward. cbn [scheme_or_default boundaries_or_zero].
    destruct (C49_backward_num_steps (one_step (damped_crank_nicolson 1) [0; 1; 2; 3] (zero_ends, zero_ends) (backward_coefficients g None [0; 1; 2; 3])) (fun _ v => v) None 2 0 (Some [0; 1; 0; 0]) 8 0 1 ltac:(lra) ltac:(lia)) as [B _].
    refine (eq_trans B _). clear B. cbn [seq map march INR]. replace (8 - 0 * ((8 - 0) / 1)) with 8 by field. replace (8 - 1 * ((8 - 0) / 1)) with 0 by field.
    unfold one_step. cbn [bind fst snd]. change (backward_coefficients g None [0; 1; 2; 3]) with brownian. rewrite default_step. reflexivity.
  - intros p P. destruct p as [|[|[|[|p]]]]; cbn; try lra; lia.
  - intros A. specialize (A 1%nat ltac:(lia)). cbn in A. lra.
Qed.
Print Assumptions C82_default_negative_refuted.
