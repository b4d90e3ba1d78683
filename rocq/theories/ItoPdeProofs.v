(** Lemmas about the equations of a process: the schemes applied to transposed
    equations, summation by parts. *)
From Coq Require Import Reals List Bool Arith Lra Lia.
From Verif Require Import TensorProofs EulerModel TimeGridSpec PdeStepModel PdeStepSpec PdeStepView PdeStepProofs PdeRowProofs PropsPdeStep PdeSolveModel PdeSolveView ItoPdeModel ItoPdeSpec.
Import ListNotations.
Open Scope R_scope.

Definition dot (k : nat) (u r : list R) : R := rsum (fun i => nth i u 0 * nth i r 0) k.
Definition apply_tri (k : nat) (m : tridiagonal) (u r : list R) : R := rsum (fun i => tri m u i * nth i r 0) k.

(** ** Schemes on transposed equations *)
Definition transposed (k : nat) (pb pf : R -> option (tridiagonal * list R)) : Prop :=
  forall t mb bb mf bf, pb t = Some (mb, bb) -> pf t = Some (mf, bf) ->
    well_sized mb k /\ well_sized mf k /\ length bb = k /\ length bf = k
    /\ (forall i, nth i bb 0 = 0) /\ (forall i, nth i bf 0 = 0)
    /\ forall u r, length u = k -> length r = k -> apply_tri k mb u r = - rsum (fun i => nth i u 0 * tri mf r i) k.

Lemma pairs_cancel theta d wp vq Y : wp - vq = - d * (1 - theta) * Y -> wp - vq = d * theta * Y -> wp = vq.
Proof. intros A B. pose proof (f_equal (Rmult theta) A) as A1. pose proof (f_equal (Rmult (1 - theta)) B) as B1. cbv beta in A1, B1. lra. Qed.

Lemma weighted_dual theta k tb te v w p q pb pf : transposed k pb pf -> length v = k -> length p = k ->
  weighted_scheme theta v tb te pb = Some w -> weighted_scheme theta p te tb pf = Some q ->
  length w = k /\ length q = k /\ dot k w p = dot k v q.
Proof.
  intros TR Lv Lp HW HQ.
  destruct (pb ((tb + te) / 2)) as [[mb bb]|] eqn:PB; [|unfold weighted_scheme in HW; rewrite PB in HW; destruct (Rlt_dec theta 0); [discriminate|]; destruct (Rlt_dec 1 theta); discriminate].
  assert (PF : exists mf bf, pf ((te + tb) / 2) = Some (mf, bf)).
  { destruct (pf ((te + tb) / 2)) as [[mf bf]|] eqn:PF; [eauto|]. unfold weighted_scheme in HQ. rewrite PF in HQ. destruct (Rlt_dec theta 0); [discriminate|]. destruct (Rlt_dec 1 theta); discriminate. }
  destruct PF as (mf & bf & PF). pose proof PF as PF'. rewrite Rplus_comm in PF'.
  destruct (TR _ _ _ _ _ PB PF') as (W1 & W2 & L1 & L2 & Z1 & Z2 & ADJ).
  rewrite <- Lv in W1, L1. rewrite <- Lp in W2, L2.
  destruct (weighted_spec theta v tb te pb mb bb w PB W1 L1 HW) as [Lw EW]. destruct (weighted_spec theta p te tb pf mf bf q PF W2 L2 HQ) as [Lq EQ].
  rewrite Lv in Lw. rewrite Lp in Lq. split; [exact Lw|]. split; [exact Lq|].
  unfold theta_equation in EW, EQ. rewrite Lv in EW. rewrite Lp in EQ.
  assert (EQ1 : forall r, dot k w r - dot k v r = (te - tb) * (theta * apply_tri k mb v r + (1 - theta) * apply_tri k mb w r)).
  { intros r. unfold dot, apply_tri. rewrite <- rsum_minus, <- !rsum_scal, <- rsum_plus, <- rsum_scal. apply rsum_ext. intros i I. specialize (EW i I). rewrite Z1 in EW.
    replace (nth i w 0 * nth i r 0 - nth i v 0 * nth i r 0) with ((nth i w 0 - nth i v 0) * nth i r 0) by ring. rewrite EW. ring. }
  assert (EQ2 : forall u, length u = k -> dot k u q - dot k u p = (te - tb) * (theta * apply_tri k mb u p + (1 - theta) * apply_tri k mb u q)).
  { intros u Lu. rewrite (ADJ u p Lu Lp), (ADJ u q Lu Lq).
    transitivity ((tb - te) * (theta * rsum (fun i => nth i u 0 * tri mf p i) k + (1 - theta) * rsum (fun i => nth i u 0 * tri mf q i) k)); [|ring].
    unfold dot. rewrite <- rsum_minus, <- !rsum_scal, <- rsum_plus, <- rsum_scal. apply rsum_ext. intros i I. specialize (EQ i I). rewrite Z2 in EQ.
    replace (nth i u 0 * nth i q 0 - nth i u 0 * nth i p 0) with (nth i u 0 * (nth i q 0 - nth i p 0)) by ring. rewrite EQ. ring. }
  pose proof (EQ1 p) as A1. pose proof (EQ1 q) as A2. pose proof (EQ2 v Lv) as A3. pose proof (EQ2 w Lw) as A4.
  apply (pairs_cancel theta (tb - te) (dot k w p) (dot k v q) (apply_tri k mb w p - apply_tri k mb v q)); lra.
Qed.

Lemma extrapolation_dual k tb te v w p q pb pf : transposed k pb pf -> length v = k -> length p = k ->
  extrapolation_scheme v tb te pb = Some w -> extrapolation_scheme p te tb pf = Some q ->
  length w = k /\ length q = k /\ dot k w p = dot k v q.
Proof.
  intros TR Lv Lp HW HQ. unfold extrapolation_scheme, implicit_scheme in HW, HQ. rewrite (Rplus_comm te tb) in HQ. set (tm := (tb + te) / 2) in *.
  apply bind_some in HW. destruct HW as (h1 & H1 & HW). apply bind_some in HW. destruct HW as (w1 & W1 & HW). apply bind_some in HW. destruct HW as (f1 & F1 & HW). injection HW as <-.
  apply bind_some in HQ. destruct HQ as (h2 & H2 & HQ). apply bind_some in HQ. destruct HQ as (w2 & W2 & HQ). apply bind_some in HQ. destruct HQ as (f2 & F2 & HQ). injection HQ as <-.
  destruct (weighted_dual 0 k tb te v f1 p f2 pb pf TR Lv Lp F1 F2) as (A1 & A2 & A3).
  assert (PB : forall a b v w, weighted_scheme 0 v a b pb = Some w -> exists m bb, pb ((a + b) / 2) = Some (m, bb)).
  { intros a b v0 w0 H. unfold weighted_scheme in H. destruct (pb ((a + b) / 2)) as [[m bb]|] eqn:E; [eauto|]. destruct (Rlt_dec 0 0); [discriminate|]. destruct (Rlt_dec 1 0); discriminate. }
  assert (PF : forall a b v w, weighted_scheme 0 v a b pf = Some w -> exists m bb, pf ((a + b) / 2) = Some (m, bb)).
  { intros a b v0 w0 H. unfold weighted_scheme in H. destruct (pf ((a + b) / 2)) as [[m bb]|] eqn:E; [eauto|]. destruct (Rlt_dec 0 0); [discriminate|]. destruct (Rlt_dec 1 0); discriminate. }
  assert (L1 : length h1 = k).
  { destruct (PB _ _ _ _ H1) as (m & bb & E). destruct (PF _ _ _ _ W2) as (m' & bb' & E'). rewrite Rplus_comm in E'. destruct (TR _ _ _ _ _ E E') as (X1 & X2 & X3 & X4 & _).
    rewrite <- Lv in X1, X3. destruct (weighted_spec 0 v tb tm pb m bb h1 E X1 X3 H1) as [X _]. lia. }
  assert (L2 : length h2 = k).
  { destruct (PF _ _ _ _ H2) as (m & bb & E). destruct (PB _ _ _ _ W1) as (m' & bb' & E'). rewrite Rplus_comm in E'. destruct (TR _ _ _ _ _ E' E) as (X1 & X2 & X3 & X4 & _).
    rewrite <- Lp in X2, X4. destruct (weighted_spec 0 p te tm pf m bb h2 E X2 X4 H2) as [X _]. lia. }
  destruct (weighted_dual 0 k tm te h1 w1 p h2 pb pf TR L1 Lp W1 H2) as (B1 & _ & B3).
  destruct (weighted_dual 0 k tb tm v h1 h2 w2 pb pf TR Lv L2 H1 W2) as (_ & C2 & C3).
  assert (Z1 : length (zw Rminus (map (fun v => 2 * v) w1) f1) = k) by (rewrite zw_length; rewrite map_length; lia).
  assert (Z2 : length (zw Rminus (map (fun v => 2 * v) w2) f2) = k) by (rewrite zw_length; rewrite map_length; lia).
  split; [exact Z1|]. split; [exact Z2|].
  assert (E1 : dot k (zw Rminus (map (fun v => 2 * v) w1) f1) p = 2 * dot k w1 p - dot k f1 p).
  { unfold dot. rewrite <- rsum_scal, <- rsum_minus. apply rsum_ext. intros i I. rewrite zw_nth by (rewrite map_length; lia). rewrite (map_nth_lt (fun v => 2 * v)) by lia. ring. }
  assert (E2 : dot k v (zw Rminus (map (fun v => 2 * v) w2) f2) = 2 * dot k v w2 - dot k v f2).
  { unfold dot. rewrite <- rsum_scal, <- rsum_minus. apply rsum_ext. intros i I. rewrite zw_nth by (rewrite map_length; lia). rewrite (map_nth_lt (fun v => 2 * v)) by lia. ring. }
  rewrite E1, E2, A3, B3, C3. reflexivity.
Qed.

(** ** Summation by parts *)
Lemma shift_sum k (H : nat -> R) : H 0%nat = 0 -> H k = 0 -> rsum (fun i => H (S i)) k = rsum H k.
Proof. intros A B. pose proof (rsum_tel H k) as E. rewrite rsum_minus in E. lra. Qed.
Lemma parts2 k (F G : nat -> R) : F 0%nat = 0 -> F (S k) = 0 -> G 0%nat = 0 -> G (S k) = 0 ->
  rsum (fun i => (F (S (S i)) - 2 * F (S i) + F i) * G (S i)) k = rsum (fun i => F (S i) * (G (S (S i)) - 2 * G (S i) + G i)) k.
Proof.
  intros F0 F1 G0 G1.
  pose proof (shift_sum k (fun i => F (S i) * G i) ltac:(cbv beta; rewrite G0; ring) ltac:(cbv beta; rewrite F1; ring)) as A. cbv beta in A.
  pose proof (shift_sum k (fun i => F i * G (S i)) ltac:(cbv beta; rewrite F0; ring) ltac:(cbv beta; rewrite G1; ring)) as B. cbv beta in B.
  transitivity (rsum (fun i => F (S (S i)) * G (S i)) k + rsum (fun i => F i * G (S i)) k - 2 * rsum (fun i => F (S i) * G (S i)) k).
  - rewrite <- rsum_scal, <- rsum_plus, <- rsum_minus. apply rsum_ext. intros; ring.
  - rewrite A, <- B, <- rsum_scal, <- rsum_plus, <- rsum_minus. apply rsum_ext. intros; ring.
Qed.
Lemma parts1 k (F G : nat -> R) : F 0%nat = 0 -> F (S k) = 0 -> G 0%nat = 0 -> G (S k) = 0 ->
  rsum (fun i => (F (S (S i)) - F i) * G (S i)) k = - rsum (fun i => F (S i) * (G (S (S i)) - G i)) k.
Proof.
  intros F0 F1 G0 G1.
  pose proof (shift_sum k (fun i => F (S i) * G i) ltac:(cbv beta; rewrite G0; ring) ltac:(cbv beta; rewrite F1; ring)) as A. cbv beta in A.
  pose proof (shift_sum k (fun i => F i * G (S i)) ltac:(cbv beta; rewrite F0; ring) ltac:(cbv beta; rewrite G1; ring)) as B. cbv beta in B.
  transitivity (rsum (fun i => F (S (S i)) * G (S i)) k - rsum (fun i => F i * G (S i)) k).
  - rewrite <- rsum_minus. apply rsum_ext. intros; ring.
  - rewrite A, <- B, <- rsum_minus. transitivity (-1 * rsum (fun i => F (S i) * (G (S (S i)) - G i)) k); [|ring]. rewrite <- rsum_scal. apply rsum_ext. intros; ring.
Qed.

(** ** The equations of a process on a grid *)
Lemma on_grid_length xs c : length (on_grid xs c) = length xs.
Proof. unfold on_grid. rewrite map_length, seq_length. reflexivity. Qed.
Lemma on_grid_nth xs c i : (i < length xs)%nat -> nth i (on_grid xs c) 0 = c (fun _ => i).
Proof.
  intros H. unfold on_grid. rewrite (nth_indep _ 0 (c (fun _ => 0%nat))) by (rewrite map_length, seq_length; exact H).
  rewrite (map_nth (fun i => c (fun _ => i))). rewrite seq_nth by exact H. reflexivity.
Qed.
Lemma backward_sized g disc xs t : sized_co (length xs) (backward_coefficients g disc xs) t.
Proof. unfold sized_co, backward_coefficients, sized. cbn. rewrite !on_grid_length. destruct disc; cbn; rewrite ?on_grid_length; repeat split. Qed.
Lemma forward_sized g xs t : sized_co (length xs) (forward_coefficients g xs) t.
Proof. unfold sized_co, forward_coefficients, sized. cbn. rewrite !on_grid_length. repeat split. Qed.

Definition zero_ends : boundary := Some (dirichlet (fun _ => 0)).
Lemma zero_lower x t f : f 0%nat = 0 -> lower_at x zero_ends t f.
Proof. intros H. cbn. unfold lower_holds, robin_holds, dirichlet. cbn [coef]. rewrite H. ring. Qed.
Lemma zero_upper x n t f : f n = 0 -> upper_at x n zero_ends t f.
Proof. intros H. cbn. unfold upper_holds, robin_holds, dirichlet. cbn [coef]. rewrite H. ring. Qed.

(** a vector of inner values, 0 at both ends *)
Definition extend (k : nat) (u : list R) (i : nat) : R := match i with O => 0 | S j => if Nat.ltb j k then nth j u 0 else 0 end.
Lemma extend_0 k u : extend k u 0 = 0. Proof. reflexivity. Qed.
Lemma extend_k k u : extend k u (S k) = 0. Proof. unfold extend. rewrite Nat.ltb_irrefl. reflexivity. Qed.
Lemma extend_S k u i : (i < k)%nat -> extend k u (S i) = nth i u 0.
Proof. intros H. unfold extend. apply Nat.ltb_lt in H. rewrite H. reflexivity. Qed.
Lemma extend_list k u : length u = k -> map (extend k u) (seq 1 k) = u.
Proof.
  intros L. apply list_ext; [rewrite map_length, seq_length; lia|]. intros i I. rewrite map_length, seq_length in I.
  rewrite (nth_indep _ 0 (extend k u 0)) by (rewrite map_length, seq_length; exact I). rewrite map_nth, seq_nth by exact I. apply extend_S. exact I.
Qed.

Lemma rows_zero xs vs co t m b : increasing xs -> (4 <= length xs)%nat -> length vs = length xs -> sized_co (length xs) co t ->
  equation_params xs vs co zero_ends zero_ends t = Some (m, b) ->
  let k := (length xs - 2)%nat in
  well_sized m k /\ length b = k /\ (forall i, nth i b 0 = 0)
  /\ forall u, length u = k -> forall i, (i < k)%nat -> tri m u i = - space_operator (pde_at co t) (sq xs) (extend k u) i.
Proof.
  intros Hx Hn Lv SC H k.
  destruct (params_rows xs Hx ltac:(lia) co vs zero_ends zero_ends t m b SC Lv H ltac:(cbn; lia)) as (W & L & Rows & _).
  cbn [offset zero_ends] in W, L, Rows. replace (length xs - 1 - 1)%nat with k in * by (unfold k; lia).
  assert (Rw : forall u, length u = k -> forall i, (i < k)%nat -> tri m u i + nth i b 0 = - space_operator (pde_at co t) (sq xs) (extend k u) i).
  { intros u Lu i I. specialize (Rows (extend k u) (zero_lower _ _ _ (extend_0 k u))).
    replace (length xs - 1)%nat with (S k) in Rows by (unfold k; lia). specialize (Rows (zero_upper _ _ _ _ (extend_k k u)) i I).
    rewrite extend_list in Rows by exact Lu. rewrite Rows. unfold op. rewrite Nat.add_1_r. cbn [zero_ends Nat.sub]. rewrite Nat.sub_0_r. reflexivity. }
  assert (B0 : forall i, nth i b 0 = 0).
  { intros i. destruct (le_lt_dec k i) as [Q|Q]; [apply nth_overflow; lia|].
    specialize (Rw (repeat 0 k) (repeat_length 0 k) i Q).
    assert (N0 : forall j, nth j (repeat 0 k) 0 = 0) by (intros j; destruct (le_lt_dec k j); [apply nth_overflow; rewrite repeat_length; lia|apply nth_repeat_lt; assumption]).
    assert (T0 : tri m (repeat 0 k) i = 0) by (destruct m as [[sub diag] sup]; unfold tri; destruct i; rewrite !N0; ring).
    assert (X0 : forall j, extend k (repeat 0 k) j = 0) by (intros [|j]; [reflexivity|]; unfold extend; destruct (Nat.ltb j k); [apply N0|reflexivity]).
    assert (S0 : space_operator (pde_at co t) (sq xs) (extend k (repeat 0 k)) i = 0).
    { unfold space_operator, second_term, first_term, zeroth_term, d2, d1, slope. rewrite !X0. unfold Rdiv.
      destruct (pa (pde_at co t)), (pA (pde_at co t)), (pb (pde_at co t)), (pB (pde_at co t)), (pc (pde_at co t)); ring. }
    rewrite T0, S0 in Rw. lra. }
  split; [exact W|]. split; [exact L|]. split; [exact B0|]. intros u Lu i I. rewrite <- (Rw u Lu i I), B0. ring.
Qed.

Lemma d2_uniform xs h f i : 0 < h -> equally_spaced xs h -> (S (S i) < length xs)%nat -> d2 (sq xs) f i = (f (S (S i)) - 2 * f (S i) + f i) / (h * h).
Proof.
  intros Hh E I. pose proof (E i ltac:(lia)) as A. pose proof (E (S i) I) as B. unfold d2, slope, sq. rewrite A, B. replace (nth (S (S i)) xs 0 - nth i xs 0) with (2 * h) by lra. field. lra.
Qed.
Lemma d1_uniform xs h f i : 0 < h -> equally_spaced xs h -> (S (S i) < length xs)%nat -> d1 (sq xs) f i = (f (S (S i)) - f i) / (2 * h).
Proof.
  intros Hh E I. pose proof (E i ltac:(lia)) as A. pose proof (E (S i) I) as B. unfold d1, slope, sq. rewrite A, B. replace (nth (S (S i)) xs 0 - nth i xs 0) with (2 * h) by lra. field. lra.
Qed.
Lemma uniform_increasing xs h : 0 < h -> equally_spaced xs h -> increasing xs.
Proof. intros Hh E i I. specialize (E i I). lra. Qed.

Lemma process_transposed g xs vs ps h : 0 < h -> equally_spaced xs h -> (4 <= length xs)%nat -> length vs = length xs -> length ps = length xs ->
  transposed (length xs - 2) (equation_params xs vs (backward_coefficients g None xs) zero_ends zero_ends) (equation_params xs ps (forward_coefficients g xs) zero_ends zero_ends).
Proof.
  intros Hh E Hn Lv Lp t mb bb mf bf PB PF. set (k := (length xs - 2)%nat). pose proof (uniform_increasing xs h Hh E) as Hx.
  destruct (rows_zero xs vs _ t mb bb Hx Hn Lv (backward_sized g None xs t) PB) as (W1 & L1 & Z1 & R1). fold k in W1, L1, R1.
  destruct (rows_zero xs ps _ t mf bf Hx Hn Lp (forward_sized g xs t) PF) as (W2 & L2 & Z2 & R2). fold k in W2, L2, R2.
  do 4 (split; [assumption|]). split; [exact Z1|]. split; [exact Z2|]. intros u r Lu Lr.
  set (a := fun i => nth i (on_grid xs (second_order_coeff g (fun _ => xs) t 0 0)) 0). set (b := fun i => nth i (on_grid xs (first_order_coeff g (fun _ => xs) t 0)) 0).
  set (F := extend k u). set (G := extend k r).
  assert (Sb : forall i, (i < k)%nat -> tri mb u i = - (a (S i) * ((F (S (S i)) - 2 * F (S i) + F i) / (h * h)) + b (S i) * ((F (S (S i)) - F i) / (2 * h)))).
  { intros i I. rewrite R1 by assumption. fold F. unfold space_operator, second_term, first_term, zeroth_term, pde_at, backward_coefficients. cbn [pa pA pb pB pc second first_ zeroth inner_second inner_first option_map zeroth_order_coeff value].
    rewrite (d2_uniform xs h) by (assumption || (unfold k in I; lia)). rewrite (d1_uniform xs h) by (assumption || (unfold k in I; lia)). cbv beta. unfold a, b, sq, Rdiv. ring. }
  assert (Sf : forall i, (i < k)%nat -> tri mf r i = - (- ((a (S (S i)) * G (S (S i)) - 2 * (a (S i) * G (S i)) + a i * G i) / (h * h)) + (b (S (S i)) * G (S (S i)) - b i * G i) / (2 * h))).
  { intros i I. rewrite R2 by assumption. fold G. unfold space_operator, second_term, first_term, zeroth_term, pde_at, forward_coefficients. cbn [pa pA pb pB pc second first_ zeroth inner_second inner_first option_map zeroth_order_coeff value].
    rewrite (d2_uniform xs h) by (assumption || (unfold k in I; lia)). rewrite (d1_uniform xs h) by (assumption || (unfold k in I; lia)).
    assert (N : forall j, (j < length xs)%nat -> sq (on_grid xs (fun q => - second_order_coeff g (fun _ => xs) t 0 0 q)) j = - a j).
    { intros j J. unfold sq, a. rewrite !on_grid_nth by exact J. reflexivity. }
    cbv beta. rewrite !N by (unfold k in I; lia). unfold b, sq, Rdiv. ring. }
  transitivity (rsum (fun i => - / (h * h) * ((F (S (S i)) - 2 * F (S i) + F i) * (a (S i) * G (S i))) + - / (2 * h) * ((F (S (S i)) - F i) * (b (S i) * G (S i)))) k).
  { unfold apply_tri. apply rsum_ext. intros i I. rewrite Sb by exact I. unfold G. rewrite extend_S by exact I. unfold Rdiv. ring. }
  transitivity (- rsum (fun i => / (h * h) * (F (S i) * (a (S (S i)) * G (S (S i)) - 2 * (a (S i) * G (S i)) + a i * G i)) - / (2 * h) * (F (S i) * (b (S (S i)) * G (S (S i)) - b i * G i))) k).
  { rewrite rsum_plus, rsum_minus, !rsum_scal.
    rewrite (parts2 k F (fun i => a i * G i)); [|apply extend_0|apply extend_k|unfold G; rewrite extend_0; ring|unfold G; rewrite extend_k; ring].
    rewrite (parts1 k F (fun i => b i * G i)); [|apply extend_0|apply extend_k|unfold G; rewrite extend_0; ring|unfold G; rewrite extend_k; ring]. ring. }
  f_equal. apply rsum_ext. intros i I. rewrite Sf by exact I. unfold F. rewrite extend_S by exact I. unfold Rdiv. ring.
Qed.

(** ** Steps and the time loop *)
Definition plain_scheme (scheme : list R -> R -> R -> (R -> option (tridiagonal * list R)) -> option (list R)) : Prop :=
  (exists theta, scheme = weighted_scheme theta) \/ scheme = extrapolation_scheme.
Lemma step_dual g xs h scheme tb te vs ws ps qs : plain_scheme scheme -> 0 < h -> equally_spaced xs h -> (4 <= length xs)%nat -> length vs = length xs -> length ps = length xs ->
  parabolic_step scheme tb te xs vs zero_ends zero_ends (backward_coefficients g None xs) = Some ws ->
  parabolic_step scheme te tb xs ps zero_ends zero_ends (forward_coefficients g xs) = Some qs ->
  length ws = length xs /\ length qs = length xs /\ pairing (length xs) ws ps = pairing (length xs) vs qs.
Proof.
  intros SC Hh E Hn Lv Lp HB HF. pose proof (uniform_increasing xs h Hh E) as Hx.
  destruct (step_some scheme tb te xs vs zero_ends zero_ends _ ws Lv Hx HB) as (v0 & u & _ & _ & Lv0 & Nv0 & SB & WB).
  destruct (step_some scheme te tb xs ps zero_ends zero_ends _ qs Lp Hx HF) as (p0 & r & _ & _ & Lp0 & Np0 & SF & WF).
  cbn [offset zero_ends] in *. replace (length xs - 1 - 1)%nat with (length xs - 2)%nat in * by lia. set (k := (length xs - 2)%nat) in *.
  pose proof (process_transposed g xs vs ps h Hh E Hn Lv Lp) as TR. fold k in TR.
  assert (D : length u = k /\ length r = k /\ dot k u p0 = dot k v0 r).
  { destruct SC as [[theta ->]| ->]; [apply (weighted_dual theta k tb te v0 u p0 r _ _ TR); assumption|apply (extrapolation_dual k tb te v0 u p0 r _ _ TR); assumption]. }
  destruct D as (Lu & Lr & D). destruct (WB Lu) as (B1 & _ & _ & B4). destruct (WF Lr) as (F1 & _ & _ & F4).
  split; [exact B1|]. split; [exact F1|]. unfold pairing. fold k.
  transitivity (dot k u p0); [|rewrite D]; unfold dot; apply rsum_ext; intros i I.
  - rewrite Np0 by exact I. rewrite <- B4 by exact I. rewrite Nat.add_1_r. reflexivity.
  - rewrite Nv0 by exact I. rewrite <- F4 by exact I. rewrite Nat.add_1_r. reflexivity.
Qed.

Lemma march_snoc {A : Type} (f : R -> R -> nat -> A -> A) (l : list R) a b count x :
  march f (fun _ v => v) (l ++ [a; b]) count x = f a b (count + length l)%nat (march f (fun _ v => v) (l ++ [a]) count x).
Proof.
  revert count x. induction l as [|c l IH]; intros count x; [cbn; rewrite Nat.add_0_r; reflexivity|].
  destruct l as [|d l].
  - cbn. replace (count + 1)%nat with (S count) by lia. reflexivity.
  - cbn [app] in *. specialize (IH (S count) (f c d count x)). cbn [length] in *.
    change (march f (fun _ v => v) (c :: d :: l ++ [a; b]) count x) with (march f (fun _ v => v) (d :: l ++ [a; b]) (S count) (f c d count x)). rewrite IH.
    replace (S count + S (length l))%nat with (count + S (S (length l)))%nat by lia. reflexivity.
Qed.

Lemma march_none xs b co (s : scheme_fn) l count : march (one_step s xs b co) (fun _ v => v) l count None = None.
Proof. revert count. induction l as [|a [|c l] IH]; intros count; [reflexivity|reflexivity|]. change (march (one_step s xs b co) (fun _ v => v) (c :: l) (S count) (one_step s xs b co a c count None) = None). cbn [one_step bind]. apply IH. Qed.
Lemma march_dual g xs h scheme (c1 c2 : nat) : plain_scheme scheme -> 0 < h -> equally_spaced xs h -> (4 <= length xs)%nat ->
  forall ts vs ps V P c2, length vs = length xs -> length ps = length xs ->
  march (one_step (fun _ => scheme) xs (zero_ends, zero_ends) (backward_coefficients g None xs)) (fun _ v => v) (rev ts) c1 (Some vs) = Some V ->
  march (one_step (fun _ => scheme) xs (zero_ends, zero_ends) (forward_coefficients g xs)) (fun _ v => v) ts c2 (Some ps) = Some P ->
  length V = length xs /\ length P = length xs /\ pairing (length xs) V ps = pairing (length xs) vs P.
Proof.
  intros SC Hh E Hn ts. induction ts as [|a ts IH]; intros vs ps V P c3 Lv Lp HB HF.
  - cbn in HB, HF. injection HB as <-. injection HF as <-. auto.
  - destruct ts as [|b ts].
    + cbn in HB, HF. injection HB as <-. injection HF as <-. auto.
    + change (march (one_step (fun _ => scheme) xs (zero_ends, zero_ends) (forward_coefficients g xs)) (fun _ v => v) (b :: ts) (S c3)
        (one_step (fun _ => scheme) xs (zero_ends, zero_ends) (forward_coefficients g xs) a b c3 (Some ps)) = Some P) in HF.
      cbn [rev] in HB. rewrite <- app_assoc in HB. cbn [app] in HB. rewrite march_snoc in HB.
      change (rev ts ++ [b]) with (rev (b :: ts)) in HB.
      destruct (one_step _ _ _ _ a b c3 (Some ps)) as [p1|] eqn:S1; [|rewrite march_none in HF; discriminate].
      destruct (march _ _ (rev (b :: ts)) c1 (Some vs)) as [v1|] eqn:S2; [|discriminate].
      cbn [one_step bind fst snd] in HB, S1.
      assert (Lp1 : length p1 = length xs).
      { destruct (step_some scheme a b xs ps zero_ends zero_ends _ p1 Lp (uniform_increasing xs h Hh E) S1) as (w0 & u & _ & _ & Lw0 & _ & SS & WW). apply WW.
        cbn [offset zero_ends] in *. rewrite <- Lw0. destruct SC as [[theta ->]| ->].
        - destruct (equation_params xs ps (forward_coefficients g xs) zero_ends zero_ends ((a + b) / 2)) as [[m bb]|] eqn:EP; [|unfold weighted_scheme in SS; rewrite EP in SS; destruct (Rlt_dec theta 0); [discriminate|]; destruct (Rlt_dec 1 theta); discriminate].
          destruct (rows_zero xs ps _ _ m bb (uniform_increasing xs h Hh E) Hn Lp (forward_sized g xs _) EP) as (W1 & L1 & _).
          replace (length xs - 2)%nat with (length w0) in * by lia. destruct (weighted_spec theta w0 a b _ m bb u EP W1 L1 SS) as [X _]. exact X.
        - unfold extrapolation_scheme, implicit_scheme in SS. apply bind_some in SS. destruct SS as (h1 & H1 & SS). apply bind_some in SS. destruct SS as (w1 & W1 & SS). apply bind_some in SS. destruct SS as (f1 & F1 & SS). injection SS as <-.
          assert (LW : forall x y v w, length v = length w0 -> weighted_scheme 0 v x y (equation_params xs ps (forward_coefficients g xs) zero_ends zero_ends) = Some w -> length w = length w0).
          { intros x y v w L H. destruct (equation_params xs ps (forward_coefficients g xs) zero_ends zero_ends ((x + y) / 2)) as [[m bb]|] eqn:EP; [|unfold weighted_scheme in H; rewrite EP in H; destruct (Rlt_dec 0 0); [discriminate|]; destruct (Rlt_dec 1 0); discriminate].
            destruct (rows_zero xs ps _ _ m bb (uniform_increasing xs h Hh E) Hn Lp (forward_sized g xs _) EP) as (X1 & X2 & _).
            replace (length xs - 2)%nat with (length v) in * by lia. destruct (weighted_spec 0 v x y _ m bb w EP X1 X2 H) as [X _]. lia. }
          pose proof (LW _ _ _ _ eq_refl H1) as Q1. pose proof (LW _ _ _ _ Q1 W1) as Q2. pose proof (LW _ _ _ _ eq_refl F1) as Q3. rewrite zw_length; rewrite map_length; lia. }
      destruct (IH vs p1 v1 P (S c3) Lv Lp1 S2 HF) as (L1 & L2 & D1).
      destruct (step_dual g xs h scheme b a v1 V ps p1 SC Hh E Hn L1 Lp HB S1) as (L3 & _ & D2).
      split; [exact L3|]. split; [exact L2|]. rewrite D2. exact D1.
Qed.
