(** The rows of the space-discretized equation are the finite differences. *)
From Coq Require Import Reals List Bool Arith Lra Lia.
From Verif Require Import TimeGridSpec PdeStepModel PdeStepSpec PdeStepView PdeStepProofs.
Import ListNotations.
Open Scope R_scope.

Definition val (o : option (list R)) (i : nat) : R := match o with Some l => nth i l 0 | None => 1 end.
Lemma value_val o i : value (option_map sq o) i = val o i.
Proof. destruct o; reflexivity. Qed.
Lemma times_opt_length l o : sized (length l) o -> length (times_opt l o) = length l.
Proof. destruct o as [c|]; intros H; [|reflexivity]. cbn in *. apply zw_length. lia. Qed.
Lemma times_opt_nth l o i : sized (length l) o -> (i < length l)%nat -> nth i (times_opt l o) 0 = nth i l 0 * val o i.
Proof. destruct o as [c|]; intros H I; cbn in *; [|ring]. rewrite zw_nth by lia. reflexivity. Qed.
Lemma times2_length k l o1 o2 : length l = k -> sized k o1 -> sized k o2 -> length (times_opt (times_opt l o1) o2) = k.
Proof. intros <- A B. rewrite !times_opt_length; rewrite ?times_opt_length; auto. Qed.
Lemma times2_nth k l o1 o2 i : length l = k -> sized k o1 -> sized k o2 -> (i < k)%nat ->
  nth i (times_opt (times_opt l o1) o2) 0 = nth i l 0 * val o1 i * val o2 i.
Proof. intros <- A B I. rewrite !times_opt_nth; rewrite ?times_opt_length; auto. Qed.
Lemma sized_inner n o : sized n o -> sized (n - 2) (option_map inner o).
Proof. destruct o; cbn; [|trivial]. intros <-. apply inner_length. Qed.
Lemma sized_before n o : sized n o -> sized (n - 2) (option_map before2 o).
Proof. destruct o; cbn; [|trivial]. intros <-. apply before2_length. Qed.
Lemma sized_after n o : sized n o -> sized (n - 2) (option_map after2 o).
Proof. destruct o; cbn; [|trivial]. intros <-. apply after2_length. Qed.
Lemma val_inner n o i : sized n o -> (i + 2 < n)%nat -> val (option_map inner o) i = val o (S i).
Proof. destruct o; cbn; [|trivial]. intros <- I. apply inner_nth. exact I. Qed.
Lemma val_before n o i : sized n o -> (i + 2 < n)%nat -> val (option_map before2 o) i = val o i.
Proof. destruct o; cbn; [|trivial]. intros <- I. apply before2_nth. exact I. Qed.
Lemma val_after n o i : sized n o -> (i + 2 < n)%nat -> val (option_map after2 o) i = val o (S (S i)).
Proof. destruct o; cbn; [|trivial]. intros <- I. apply after2_nth. Qed.

(** the three-point row [j] of a matrix on the points j, S j and S (S j) *)
Definition row3 (m : tridiagonal) (f : nat -> R) (j : nat) : R :=
  let '(sub, diag, sup) := m in nth j sub 0 * f j + nth j diag 0 * f (S j) + nth j sup 0 * f (S (S j)).

Section Grid.
  Variable xs : list R.
  Hypothesis Hx : increasing xs.
  Let n := length xs.
  Hypothesis Hn : (3 <= n)%nat.
  Let x := sq xs.
  Let deltas := zw Rminus (tl xs) (removelast xs).
  Let forward := tl deltas.
  Let backward := removelast deltas.
  Let sums := zw Rplus forward backward.

  Lemma deltas_length : length deltas = (n - 1)%nat.
  Proof. unfold deltas. rewrite zw_length; rewrite ?tl_length', ?rl_length; fold n; lia. Qed.
  Lemma deltas_nth i : (S i < n)%nat -> nth i deltas 0 = x (S i) - x i.
  Proof. intros I. unfold deltas. rewrite zw_nth by (rewrite ?tl_length', ?rl_length; fold n; lia). rewrite tl_nth, rl_nth by (fold n; lia). reflexivity. Qed.
  Lemma step_pos i : (S i < n)%nat -> 0 < x (S i) - x i.
  Proof. intros I. pose proof (Hx i I) as H. unfold x, sq. lra. Qed.
  Lemma forward_length : length forward = (n - 2)%nat.
  Proof. unfold forward. rewrite tl_length', deltas_length. lia. Qed.
  Lemma forward_nth i : (i + 2 < n)%nat -> nth i forward 0 = x (S (S i)) - x (S i).
  Proof. intros I. unfold forward. rewrite tl_nth, deltas_nth by lia. reflexivity. Qed.
  Lemma backward_length : length backward = (n - 2)%nat.
  Proof. unfold backward. rewrite rl_length, deltas_length. lia. Qed.
  Lemma backward_nth i : (i + 2 < n)%nat -> nth i backward 0 = x (S i) - x i.
  Proof. intros I. unfold backward. rewrite rl_nth, deltas_nth by (rewrite ?deltas_length; lia). reflexivity. Qed.
  Lemma sums_length : length sums = (n - 2)%nat.
  Proof. unfold sums. rewrite zw_length; rewrite ?forward_length, ?backward_length; reflexivity. Qed.
  Lemma sums_nth i : (i + 2 < n)%nat -> nth i sums 0 = x (S (S i)) - x i.
  Proof. intros I. unfold sums. rewrite zw_nth by (rewrite ?forward_length, ?backward_length; lia). rewrite forward_nth, backward_nth by exact I. ring. Qed.
  Lemma sf_length : length (zw Rmult sums forward) = (n - 2)%nat.
  Proof. rewrite zw_length; rewrite ?sums_length, ?forward_length; reflexivity. Qed.
  Lemma sb_length : length (zw Rmult sums backward) = (n - 2)%nat.
  Proof. rewrite zw_length; rewrite ?sums_length, ?backward_length; reflexivity. Qed.
  Lemma sf_nth i : (i + 2 < n)%nat -> nth i (zw Rmult sums forward) 0 = (x (S (S i)) - x i) * (x (S (S i)) - x (S i)).
  Proof. intros I. rewrite zw_nth by (rewrite ?sums_length, ?forward_length; lia). rewrite sums_nth, forward_nth by exact I. reflexivity. Qed.
  Lemma sb_nth i : (i + 2 < n)%nat -> nth i (zw Rmult sums backward) 0 = (x (S (S i)) - x i) * (x (S i) - x i).
  Proof. intros I. rewrite zw_nth by (rewrite ?sums_length, ?backward_length; lia). rewrite sums_nth, backward_nth by exact I. reflexivity. Qed.
  Lemma two_steps i : (i + 2 < n)%nat -> 0 < x (S (S i)) - x (S i) /\ 0 < x (S i) - x i /\ 0 < x (S (S i)) - x i.
  Proof. intros I. pose proof (step_pos i ltac:(lia)). pose proof (step_pos (S i) ltac:(lia)). lra. Qed.
  Lemma nonzero_sf : forall y, In y (zw Rmult sums forward) -> y <> 0.
  Proof.
    intros y Hy. destruct (In_nth _ y 0 Hy) as (i & Hi & <-). rewrite sf_length in Hi. rewrite sf_nth by lia. destruct (two_steps i ltac:(lia)) as (A & B & C).
    apply Rmult_integral_contrapositive. lra.
  Qed.
  Lemma nonzero_sb : forall y, In y (zw Rmult sums backward) -> y <> 0.
  Proof.
    intros y Hy. destruct (In_nth _ y 0 Hy) as (i & Hi & <-). rewrite sb_length in Hi. rewrite sb_nth by lia. destruct (two_steps i ltac:(lia)) as (A & B & C).
    apply Rmult_integral_contrapositive. lra.
  Qed.

  (** one derivative term, given the quotients of the code *)
  Lemma scaled_rows (sub diag sup : list R) (o1 o2 : option (list R)) : length sub = (n - 2)%nat -> length diag = (n - 2)%nat -> length sup = (n - 2)%nat ->
    sized n o1 -> sized n o2 ->
    let m := (times_opt (times_opt sub (option_map inner o1)) (option_map before2 o2),
              times_opt (times_opt diag (option_map inner o1)) (option_map inner o2),
              times_opt (times_opt sup (option_map inner o1)) (option_map after2 o2)) in
    well_sized m (n - 2) /\ forall j f, (j + 2 < n)%nat -> row3 m f j = val o1 (S j) * row3 (sub, diag, sup) (fun k => val o2 k * f k) j.
  Proof.
    intros L1 L2 L3 S1 S2 m. pose proof (sized_inner n o1 S1) as I1. pose proof (sized_inner n o2 S2) as I2.
    pose proof (sized_before n o2 S2) as B2. pose proof (sized_after n o2 S2) as A2.
    assert (W : well_sized m (n - 2)).
    { unfold m, well_sized. split; [|split]; apply times2_length; assumption. }
    split; [exact W|]. intros j f J. unfold row3, m.
    rewrite !(times2_nth (n - 2)) by (assumption || lia).
    rewrite (val_inner n o1), (val_inner n o2), (val_before n o2), (val_after n o2) by (assumption || lia). ring.
  Qed.
  Lemma zero_rows z : length z = (n - 2)%nat -> (forall i, nth i z 0 = 0) -> well_sized (z, z, z) (n - 2) /\ forall j f, row3 (z, z, z) f j = 0.
  Proof. intros L Z. split; [repeat split; exact L|]. intros j f. unfold row3. rewrite !Z. ring. Qed.

  Lemma first_order_rows b B z m : sized n b -> sized n B -> length z = (n - 2)%nat -> (forall i, nth i z 0 = 0) ->
    first_order b B forward backward sums z = Some m ->
    well_sized m (n - 2) /\ forall j f e, (j + 2 < n)%nat -> pb e = option_map sq b -> pB e = option_map sq B -> row3 m f j = - first_term e x f j.
  Proof.
    intros Sb SB Lz Z H.
    destruct (match b, B with None, None => false | _, _ => true end) eqn:K.
    - assert (H' : bind (divs (map Ropp backward) (zw Rmult sums forward)) (fun sup =>
          bind (divs forward (zw Rmult sums backward)) (fun sub =>
          let diag := zw Rminus (map Ropp sup) sub in
          Some (times_opt (times_opt sub (option_map inner b)) (option_map before2 B),
            times_opt (times_opt diag (option_map inner b)) (option_map inner B),
            times_opt (times_opt sup (option_map inner b)) (option_map after2 B)))) = Some m).
      { unfold first_order in H. destruct b, B; try exact H. discriminate K. }
      clear H. apply bind_some in H'. destruct H' as (sup & P & H). apply bind_some in H. destruct H as (sub & Q & H). cbv zeta in H. injection H as <-.
      apply divs_some in P; [|rewrite map_length, backward_length, sf_length; reflexivity]. destruct P as [LP P].
      apply divs_some in Q; [|rewrite forward_length, sb_length; reflexivity]. destruct Q as [LQ Q].
      rewrite map_length, backward_length in *. rewrite forward_length in *.
      set (diag := zw Rminus (map Ropp sup) sub).
      assert (LD : length diag = (n - 2)%nat) by (unfold diag; rewrite zw_length; rewrite ?map_length; lia).
      destruct (scaled_rows sub diag sup b B LQ LD LP Sb SB) as [W R3]. cbv zeta in W, R3. split; [exact W|].
      intros j f e J Eb EB. rewrite (R3 j f J). unfold row3.
      assert (ND : nth j diag 0 = - nth j sup 0 - nth j sub 0).
      { unfold diag. rewrite zw_nth by (rewrite ?map_length; lia). rewrite (map_nth_lt Ropp) by lia. reflexivity. }
      rewrite ND. destruct (P j ltac:(lia)) as [_ P']. destruct (Q j ltac:(lia)) as [_ Q'].
      rewrite (map_nth_lt Ropp) in P' by (rewrite backward_length; lia). rewrite backward_nth, sf_nth in P' by exact J. rewrite forward_nth, sb_nth in Q' by exact J.
      rewrite P', Q'. unfold first_term. rewrite Eb, EB.
      assert (T : (match option_map sq b, option_map sq B with None, None => 0 | _, _ => value (option_map sq b) (S j) * d1 x (fun k => value (option_map sq B) k * f k) j end)
                  = val b (S j) * d1 x (fun k => val B k * f k) j).
      { destruct b, B; try reflexivity. discriminate K. }
      rewrite T. unfold d1, slope. destruct (two_steps j J) as (A1 & A2 & A3). field. repeat split; lra.
    - destruct b; [destruct B; discriminate K|]. destruct B; [discriminate K|]. injection H as <-. destruct (zero_rows z Lz Z) as [W E].
      split; [exact W|]. intros j f e J Eb EB. rewrite E. unfold first_term. rewrite Eb, EB. cbn. ring.
  Qed.
  Lemma second_order_rows a A z m : sized n a -> sized n A -> length z = (n - 2)%nat -> (forall i, nth i z 0 = 0) ->
    second_order a A forward backward sums z = Some m ->
    well_sized m (n - 2) /\ forall j f e, (j + 2 < n)%nat -> pa e = option_map sq a -> pA e = option_map sq A -> row3 m f j = - second_term e x f j.
  Proof.
    intros Sb SB Lz Z H.
    destruct (match a, A with None, None => false | _, _ => true end) eqn:K.
    - assert (H' : bind (divs (map (fun _ => -2) forward) (zw Rmult sums forward)) (fun sup =>
          bind (divs (map (fun _ => -2) backward) (zw Rmult sums backward)) (fun sub =>
          let diag := zw Rminus (map Ropp sup) sub in
          Some (times_opt (times_opt sub (option_map inner a)) (option_map before2 A),
            times_opt (times_opt diag (option_map inner a)) (option_map inner A),
            times_opt (times_opt sup (option_map inner a)) (option_map after2 A)))) = Some m).
      { unfold second_order in H. destruct a, A; try exact H. discriminate K. }
      clear H. apply bind_some in H'. destruct H' as (sup & P & H). apply bind_some in H. destruct H as (sub & Q & H). cbv zeta in H. injection H as <-.
      apply divs_some in P; [|rewrite map_length, forward_length, sf_length; reflexivity]. destruct P as [LP P].
      apply divs_some in Q; [|rewrite map_length, backward_length, sb_length; reflexivity]. destruct Q as [LQ Q].
      rewrite map_length, ?backward_length in *. rewrite forward_length in *.
      set (diag := zw Rminus (map Ropp sup) sub).
      assert (LD : length diag = (n - 2)%nat) by (unfold diag; rewrite zw_length; rewrite ?map_length; lia).
      destruct (scaled_rows sub diag sup a A LQ LD LP Sb SB) as [W R3]. cbv zeta in W, R3. split; [exact W|].
      intros j f e J Eb EB. rewrite (R3 j f J). unfold row3.
      assert (ND : nth j diag 0 = - nth j sup 0 - nth j sub 0).
      { unfold diag. rewrite zw_nth by (rewrite ?map_length; lia). rewrite (map_nth_lt Ropp) by lia. reflexivity. }
      rewrite ND. destruct (P j ltac:(lia)) as [_ P']. destruct (Q j ltac:(lia)) as [_ Q'].
      rewrite const_nth in P' by (rewrite forward_length; lia). rewrite const_nth in Q' by (rewrite backward_length; lia).
      rewrite sf_nth in P' by exact J. rewrite sb_nth in Q' by exact J.
      rewrite P', Q'. unfold second_term. rewrite Eb, EB.
      assert (T : (match option_map sq a, option_map sq A with None, None => 0 | _, _ => value (option_map sq a) (S j) * d2 x (fun k => value (option_map sq A) k * f k) j end)
                  = val a (S j) * d2 x (fun k => val A k * f k) j).
      { destruct a, A; try reflexivity. discriminate K. }
      rewrite T. unfold d2, slope. destruct (two_steps j J) as (A1 & A2 & A3). field. repeat split; lra.
    - destruct a; [destruct A; discriminate K|]. destruct A; [discriminate K|]. injection H as <-. destruct (zero_rows z Lz Z) as [W E].
      split; [exact W|]. intros j f e J Eb EB. rewrite E. unfold second_term. rewrite Eb, EB. cbn. ring.
  Qed.
  Lemma orders_exist b B z : first_order b B forward backward sums z <> None /\ second_order b B forward backward sums z <> None.
  Proof.
    pose proof (divs_ok (map Ropp backward) _ nonzero_sf). pose proof (divs_ok forward _ nonzero_sb).
    pose proof (divs_ok (map (fun _ => -2) forward) _ nonzero_sf). pose proof (divs_ok (map (fun _ => -2) backward) _ nonzero_sb).
    unfold first_order, second_order.
    destruct (divs (map Ropp backward) (zw Rmult sums forward)); [|contradiction]. destruct (divs forward (zw Rmult sums backward)); [|contradiction].
    destruct (divs (map (fun _ => -2) forward) (zw Rmult sums forward)); [|contradiction]. destruct (divs (map (fun _ => -2) backward) (zw Rmult sums backward)); [|contradiction].
    destruct b, B; split; discriminate.
  Qed.

  (** the matrix before boundary conditions *)
  Definition raw_matrix (co : coefficients) (vs : list R) (t : R) : option tridiagonal :=
    let zeros := map (fun _ => 0) (inner vs) in
    bind (first_order (first_ co t) (inner_first co t) forward backward sums zeros) (fun '(sub1, diag1, sup1) =>
    bind (second_order (second co t) (inner_second co t) forward backward sums zeros) (fun '(sub2, diag2, sup2) =>
    Some (zw Rplus sub1 sub2, zw Rplus (zw Rplus (zeroth_order (zeroth co t) zeros) diag1) diag2, zw Rplus sup1 sup2))).
  Lemma raw_rows co vs t m : sized_co n co t -> length vs = n -> raw_matrix co vs t = Some m ->
    well_sized m (n - 2) /\ forall j f, (j + 2 < n)%nat -> row3 m f j = - space_operator (pde_at co t) x f j.
  Proof.
    intros (Sa & Sb & Sc & SA & SB) Lv H. unfold raw_matrix in H. set (z := map (fun _ => 0) (inner vs)) in H.
    assert (Lz : length z = (n - 2)%nat) by (unfold z; rewrite map_length, inner_length; lia).
    assert (Z : forall i, nth i z 0 = 0).
    { intros i. destruct (Nat.lt_ge_cases i (length z)) as [I|I]; [|apply nth_overflow; exact I].
      unfold z. apply const_nth. unfold z in I. rewrite map_length in I. exact I. }
    apply bind_some in H. destruct H as ([[sub1 diag1] sup1] & H1 & H). apply bind_some in H. destruct H as ([[sub2 diag2] sup2] & H2 & H). injection H as <-.
    destruct (first_order_rows _ _ z _ Sb SB Lz Z H1) as [(A1 & A2 & A3) R1].
    destruct (second_order_rows _ _ z _ Sa SA Lz Z H2) as [(B1 & B2 & B3) R2].
    assert (LZ : length (zeroth_order (zeroth co t) z) = (n - 2)%nat).
    { unfold zeroth_order. destruct (zeroth co t) as [c|]; [|exact Lz]. rewrite map_length, inner_length. cbn in Sc. lia. }
    split.
    { unfold well_sized. rewrite !zw_length; rewrite ?zw_length; repeat split; lia. }
    intros j f J. unfold row3. rewrite !zw_nth; rewrite ?zw_length; try lia.
    specialize (R1 j f (pde_at co t) J eq_refl eq_refl). specialize (R2 j f (pde_at co t) J eq_refl eq_refl). unfold row3 in R1, R2.
    assert (ZT : nth j (zeroth_order (zeroth co t) z) 0 * f (S j) = - zeroth_term (pde_at co t) f (S j)).
    { unfold zeroth_order, zeroth_term. cbn [pde_at pc]. destruct (zeroth co t) as [c|]; cbn [option_map].
      - cbn in Sc. rewrite (map_nth_lt Ropp) by (rewrite inner_length; lia). rewrite inner_nth by lia. unfold sq. ring.
      - rewrite Z. ring. }
    unfold space_operator.
    replace (- (second_term (pde_at co t) x f j + first_term (pde_at co t) x f j + zeroth_term (pde_at co t) f (S j)))
      with (- second_term (pde_at co t) x f j + - first_term (pde_at co t) x f j + - zeroth_term (pde_at co t) f (S j)) by ring.
    rewrite <- R2, <- R1, <- ZT. ring.
  Qed.

  (** ** Boundaries *)
  Definition offset {A} (b : option A) : nat := match b with None => 0 | Some _ => 1 end.
  (** row [i] applied to a function on the whole grid, the first unknown being grid point [o] *)
  Definition full_row (o : nat) (m : tridiagonal) (f : nat -> R) (i : nat) : R :=
    let '(sub, diag, sup) := m in
    match (i + o)%nat with O => 0 | S j => nth i sub 0 * f j end + nth i diag 0 * f (i + o)%nat + nth i sup 0 * f (S (i + o)).
  (** the space operator of the code at grid point [p], the default conditions
      with the spacing the code divides by *)
  Definition op {A B} (lower : option A) (upper : option B) (e : pde) (f : nat -> R) (p : nat) : R :=
    match lower, p with
    | None, O => lower_operator e (x 2 - x 1) f
    | _, _ =>
        match upper with
        | None => if Nat.eqb p (n - 1) then upper_operator e (x (n - 2) - x (n - 3)) f (n - 1) else space_operator e x f (p - 1)
        | Some _ => space_operator e x f (p - 1)
        end
    end.
  Lemma default_lower_rows co t m m' : sized_co n co t -> well_sized m (n - 2) ->
    default_lower m (first_ co t) (zeroth co t) (inner_first co t) forward = Some m' ->
    well_sized m' (n - 1) /\ (forall f, full_row 0 m' f 0 = - lower_operator (pde_at co t) (x 2 - x 1) f)
    /\ (forall f i, (i + 2 < n)%nat -> full_row 0 m' f (S i) = row3 m f i) /\ nth 0 (fst (fst m')) 0 = 0.
  Proof.
    intros (Sa & Sb & Sc & SA & SB). destruct m as [[sub diag] sup]. intros (L1 & L2 & L3) H. unfold default_lower in H.
    apply bind_some in H. destruct H as (s & Hs & H). apply bind_some in H. destruct H as (d & Hd & H). injection H as <-.
    apply odiv_some in Hs. destruct Hs as [NZ ->]. apply odiv_some in Hd. destruct Hd as [_ ->].
    assert (F0 : first forward = x 2 - x 1) by (unfold first; apply forward_nth; lia). rewrite F0 in *.
    split; [|split; [|split]].
    - unfold well_sized. cbn [length]. repeat split; lia.
    - intros f. unfold full_row. cbn [Nat.add nth].
      unfold lower_operator, zeroth_term, edge_first_order, inner_or_ones, zeroth_or_zero, first. cbn [pde_at pb pB pc].
      destruct (first_ co t) as [b|], (inner_first co t) as [B|], (zeroth co t) as [c|]; cbn [option_map value nth]; unfold sq; field; exact NZ.
    - intros f i I. unfold full_row, row3. rewrite !Nat.add_0_r. reflexivity.
    - reflexivity.
  Qed.
  Lemma app_nth_last (l : list R) y : nth (length l) (l ++ [y]) 0 = y.
  Proof. rewrite app_nth2 by lia. rewrite Nat.sub_diag. reflexivity. Qed.
  Lemma app_nth_last' (l : list R) y k : length l = k -> nth k (l ++ [y]) 0 = y.
  Proof. intros <-. apply app_nth_last. Qed.
  Lemma default_upper_rows co t m m' k : sized_co n co t -> well_sized m k -> (0 < k)%nat ->
    default_upper m (first_ co t) (zeroth co t) (inner_first co t) backward = Some m' ->
    well_sized m' (S k)
    /\ (forall f o, (k + o = n - 1)%nat -> full_row o m' f k = - upper_operator (pde_at co t) (x (n - 2) - x (n - 3)) f (n - 1))
    /\ (forall f o i, (i < k)%nat -> full_row o m' f i = full_row o m f i) /\ nth k (snd m') 0 = 0 /\ nth 0 (fst (fst m')) 0 = nth 0 (fst (fst m)) 0.
  Proof.
    intros (Sa & Sb & Sc & SA & SB). destruct m as [[sub diag] sup]. intros (L1 & L2 & L3) K H. unfold default_upper in H.
    apply bind_some in H. destruct H as (d & Hd & H). apply bind_some in H. destruct H as (s & Hs & H). injection H as <-.
    apply odiv_some in Hs. destruct Hs as [NZ ->]. apply odiv_some in Hd. destruct Hd as [_ ->].
    assert (LB : last backward 0 = x (n - 2) - x (n - 3)).
    { rewrite last_at, backward_length. rewrite backward_nth by lia. f_equal; f_equal; lia. }
    rewrite LB in *.
    split; [|split; [|split; [|split]]].
    - unfold well_sized. rewrite !app_length. cbn [length]. repeat split; lia.
    - intros f o Ho. unfold full_row. rewrite Ho.
      rewrite !app_nth_last' by assumption.
      unfold upper_operator, zeroth_term, edge_first_order, inner_or_ones, zeroth_or_zero. cbn [pde_at pb pB pc].
      replace (n - 1)%nat with (S (n - 2)) by lia. cbv iota. replace (S (n - 2) - 1)%nat with (n - 2)%nat by lia. 
      destruct (first_ co t) as [b|], (inner_first co t) as [B|], (zeroth co t) as [c|]; cbn [option_map value]; unfold sq;
        cbn in Sb, SB, Sc; rewrite ?(last_at b), ?(last_at B), ?(last_at c), ?(last2_at B) by lia; rewrite ?Sb, ?SB, ?Sc;
        try change (last [1; 1] 0) with 1; try change (last2 [1; 1]) with 1; try change (last [0] 0) with 0;
        replace (n - 1)%nat with (S (n - 2)) by lia; field; exact NZ.
    - intros f o i I. unfold full_row. rewrite !app_nth1 by lia. reflexivity.
    - cbn [snd]. rewrite app_nth_last' by assumption. ring.
    - cbn [fst]. rewrite app_nth1 by lia. reflexivity.
  Qed.
  Definition extended_matrix (co : coefficients) (vs : list R) (lower upper : boundary) (t : R) : option tridiagonal :=
    bind (raw_matrix co vs t) (fun m =>
    bind (match lower with None => default_lower m (first_ co t) (zeroth co t) (inner_first co t) forward | Some _ => Some m end) (fun m =>
    match upper with None => default_upper m (first_ co t) (zeroth co t) (inner_first co t) backward | Some _ => Some m end)).
  Lemma row3_full m f i : full_row 1 m f i = row3 m f i.
  Proof. destruct m as [[sub diag] sup]. unfold full_row, row3. rewrite Nat.add_1_r. reflexivity. Qed.
  Lemma extended_rows co vs lower upper t m : sized_co n co t -> length vs = n -> extended_matrix co vs lower upper t = Some m ->
    let k := (n - offset lower - offset upper)%nat in
    well_sized m k /\ (forall f i, (i < k)%nat -> full_row (offset lower) m f i = - op lower upper (pde_at co t) f (i + offset lower))
    /\ (lower = None -> nth 0 (fst (fst m)) 0 = 0) /\ (upper = None -> nth (k - 1) (snd m) 0 = 0).
  Proof.
    intros SC Lv H. unfold extended_matrix in H. apply bind_some in H. destruct H as (m0 & H0 & H). apply bind_some in H. destruct H as (m1 & H1 & H2).
    destruct (raw_rows co vs t m0 SC Lv H0) as [W0 R0].
    assert (S1 : let k := (n - 1 - offset lower)%nat in well_sized m1 k
      /\ (forall f i, (i < k)%nat -> full_row (offset lower) m1 f i = - op lower (Some tt) (pde_at co t) f (i + offset lower))
      /\ (lower = None -> nth 0 (fst (fst m1)) 0 = 0)).
    { destruct lower as [b|]; cbn [offset]; cbv zeta.
      - injection H1 as <-. split; [replace (n - 1 - 1)%nat with (n - 2)%nat by lia; exact W0|]. split; [|discriminate].
        intros f i I. rewrite row3_full, R0 by lia. unfold op. rewrite Nat.add_1_r. cbn [Nat.sub]. rewrite Nat.sub_0_r. reflexivity.
      - destruct (default_lower_rows co t m0 m1 SC W0 H1) as (W1 & Z & Rr & E). split; [rewrite Nat.sub_0_r; exact W1|]. split; [|intros _; exact E].
        intros f [|i] I; [rewrite Z; reflexivity|]. rewrite Rr, R0 by lia. unfold op. rewrite Nat.add_0_r. cbn [Nat.sub]. rewrite Nat.sub_0_r. reflexivity. }
    cbv zeta in S1. destruct S1 as (W1 & R1 & E1). cbv zeta. destruct upper as [b|]; cbn [offset].
    - injection H2 as <-. replace (n - offset lower - 1)%nat with (n - 1 - offset lower)%nat by lia.
      split; [exact W1|]. split; [|split; [exact E1|discriminate]].
      intros f i I. rewrite R1 by exact I. unfold op. destruct lower, (i + offset _)%nat; reflexivity.
    - assert (K : (0 < n - 1 - offset lower)%nat) by (destruct lower; cbn [offset]; lia).
      destruct (default_upper_rows co t m1 m _ SC W1 K H2) as (W2 & Z & Rr & E & E2).
      replace (n - offset lower - 0)%nat with (S (n - 1 - offset lower)) by (destruct lower; cbn [offset]; lia).
      split; [exact W2|]. split; [|split].
      + intros f i I. destruct (Nat.eq_dec i (n - 1 - offset lower)) as [->|NE].
        * rewrite Z by (destruct lower; cbn [offset]; lia). unfold op.
          replace (n - 1 - offset lower + offset lower)%nat with (n - 1)%nat by (destruct lower; cbn [offset]; lia).
          rewrite Nat.eqb_refl. destruct lower; [reflexivity|]. destruct (n - 1)%nat eqn:Q; [lia|reflexivity].
        * rewrite Rr by lia. rewrite R1 by lia. unfold op. assert (Q : Nat.eqb (i + offset lower) (n - 1) = false) by (apply Nat.eqb_neq; lia).
          rewrite Q. destruct lower; [reflexivity|]. destruct (i + offset None)%nat; reflexivity.
      + intros El. rewrite E2. apply E1. exact El.
      + intros _. replace (S (n - 1 - offset lower) - 1)%nat with (n - 1 - offset lower)%nat by lia. exact E.
  Qed.

  Lemma discretize_spec dx0 dx1 abc xi1 xi2 eta : 0 < dx0 -> 0 < dx1 -> discretize_boundary dx0 dx1 abc = Some (xi1, xi2, eta) ->
    forall f0 f1 f2, robin_holds abc f0 ((2 * dx0 + dx1) / (dx0 * (dx0 + dx1)) * f0 - (dx0 + dx1) / (dx0 * dx1) * f1 + dx0 / (dx1 * (dx0 + dx1)) * f2)
      <-> f0 = xi1 * f1 + xi2 * f2 + eta.
  Proof.
    intros P0 P1 H f0 f1 f2. destruct abc as [[alpha beta] gamma]. unfold robin_holds, discretize_boundary in *.
    destruct beta as [beta|].
    - apply bind_some in H. destruct H as (a & A & H). apply bind_some in H. destruct H as (b & B & H). apply bind_some in H. destruct H as (c & C & H). injection H as <- <- <-.
      apply odiv_some in A. destruct A as [NZ ->]. apply odiv_some in B. destruct B as [_ ->]. apply odiv_some in C. destruct C as [_ ->].
      set (al := match alpha with None => 0 | Some alpha => alpha * dx0 * dx1 * (dx0 + dx1) end) in *.
      assert (Al : al = coef alpha * (dx0 * dx1 * (dx0 + dx1))) by (unfold al, coef; destruct alpha; ring).
      clearbody al. cbn [coef]. set (D := beta * dx1 * (2 * dx0 + dx1) + al) in *.
      set (g := dx0 * dx1 * (dx0 + dx1)). assert (G : 0 < g) by (unfold g; repeat apply Rmult_lt_0_compat; lra).
      set (lhs := coef alpha * f0 + beta * ((2 * dx0 + dx1) / (dx0 * (dx0 + dx1)) * f0 - (dx0 + dx1) / (dx0 * dx1) * f1 + dx0 / (dx1 * (dx0 + dx1)) * f2)).
      assert (E : lhs * g = D * f0 - beta * (dx0 + dx1) * (dx0 + dx1) * f1 + beta * dx0 * dx0 * f2).
      { unfold lhs, g, D. rewrite Al. field. repeat split; lra. }
      assert (F : (beta * (dx0 + dx1) * (dx0 + dx1) / D * f1 + - beta * dx0 * dx0 / D * f2 + gamma * dx0 * dx1 * (dx0 + dx1) / D) * D
                  = beta * (dx0 + dx1) * (dx0 + dx1) * f1 - beta * dx0 * dx0 * f2 + gamma * g) by (unfold g; field; exact NZ).
      split; intros Q.
      + apply (Rmult_eq_reg_r D); [|exact NZ]. rewrite F. rewrite Q in E. lra.
      + apply (Rmult_eq_reg_r g); [|lra]. rewrite E. rewrite <- Q in F. lra.
    - destruct alpha as [alpha|]; [|discriminate]. apply bind_some in H. destruct H as (q & Q & H). injection H as <- <- <-.
      apply odiv_some in Q. destruct Q as [NZ ->]. cbn [coef]. rewrite Rmult_0_l, Rplus_0_r. split; intros E.
      + rewrite <- E. field. exact NZ.
      + rewrite E. field. exact NZ.
  Qed.
  Lemma lower_spec abc xi1 xi2 eta : discretize_boundary (x 1 - x 0) (x 2 - x 1) abc = Some (xi1, xi2, eta) ->
    forall f, lower_holds abc x f <-> f 0%nat = xi1 * f 1%nat + xi2 * f 2%nat + eta.
  Proof.
    intros H f. pose proof (step_pos 0 ltac:(lia)) as P0. pose proof (step_pos 1 ltac:(lia)) as P1.
    rewrite <- (discretize_spec _ _ _ _ _ _ P0 P1 H). unfold lower_holds.
    assert (E : - d1_first x f 0 = (2 * (x 1%nat - x 0%nat) + (x 2%nat - x 1%nat)) / ((x 1%nat - x 0%nat) * (x 1%nat - x 0%nat + (x 2%nat - x 1%nat))) * f 0%nat
        - (x 1%nat - x 0%nat + (x 2%nat - x 1%nat)) / ((x 1%nat - x 0%nat) * (x 2%nat - x 1%nat)) * f 1%nat
        + (x 1%nat - x 0%nat) / ((x 2%nat - x 1%nat) * (x 1%nat - x 0%nat + (x 2%nat - x 1%nat))) * f 2%nat).
    { unfold d1_first, d2, slope. field. repeat split; lra. }
    rewrite E. reflexivity.
  Qed.
  Lemma upper_spec abc xi1 xi2 eta : discretize_boundary (x (n - 1) - x (n - 2)) (x (n - 2) - x (n - 3)) abc = Some (xi1, xi2, eta) ->
    forall f, upper_holds abc x f (n - 1) <-> f (n - 1)%nat = xi1 * f (n - 2)%nat + xi2 * f (n - 3)%nat + eta.
  Proof.
    intros H f. assert (Q : exists k, n = S (S (S k))) by (exists (n - 3)%nat; lia). destruct Q as [k Q].
    pose proof (step_pos k ltac:(lia)) as P0. pose proof (step_pos (S k) ltac:(lia)) as P1. clearbody n. subst n.
    cbn [Nat.sub] in *. rewrite !Nat.sub_0_r in *.
    rewrite <- (discretize_spec _ _ _ _ _ _ P1 P0 H). unfold upper_holds. cbn [Nat.sub]. rewrite ?Nat.sub_0_r.
    set (h := x (S k) - x k) in *. set (g := x (S (S k)) - x (S k)) in *.
    assert (E : d1_last x f k = (2 * g + h) / (g * (g + h)) * f (S (S k)) - (g + h) / (g * h) * f (S k) + g / (h * (g + h)) * f k).
    { unfold d1_last, d2, slope. fold h g. replace (x (S (S k)) - x k) with (g + h) by (unfold g, h; ring). field. repeat split; lra. }
    rewrite E. reflexivity.
  Qed.

  (** what one boundary contributes to its row *)
  Definition terms (dx0 dx1 edge : R) (c : option (option R * option R * R)) (d u y : R) : Prop :=
    match c with
    | None => d = 0 /\ u = 0 /\ y = 0
    | Some abc => exists xi1 xi2 eta, discretize_boundary dx0 dx1 abc = Some (xi1, xi2, eta) /\ d = edge * xi1 /\ u = edge * xi2 /\ y = edge * eta
    end.
  Lemma dirichlet_terms dx0 dx1 edge c y : has_beta c = false -> dirichlet_term edge c = Some y -> terms dx0 dx1 edge c 0 0 y.
  Proof.
    destruct c as [[[alpha beta] gamma]|]; cbn.
    - destruct beta; [discriminate|]. destruct alpha as [alpha|]; [|discriminate]. intros _ H. apply odiv_some in H. destruct H as [NZ ->].
      exists 0, 0, (gamma / alpha). split; [unfold odiv; destruct (Req_EM_T alpha 0); [contradiction|reflexivity]|].
      split; [ring|]. split; [ring|]. field. exact NZ.
    - intros _ H. injection H as <-. auto.
  Qed.
  Lemma robin_terms_spec dx0 dx1 edge c d u y : robin_terms edge dx0 dx1 c = Some (d, u, y) -> terms dx0 dx1 edge c d u y.
  Proof.
    destruct c as [abc|]; cbn.
    - intros H. apply bind_some in H. destruct H as ([[xi1 xi2] eta] & E & H). injection H as <- <- <-. exists xi1, xi2, eta. auto.
    - intros H. injection H as <- <- <-. auto.
  Qed.
  Lemma fal_length a l b : length (first_and_last a l b) = S (S (length l)).
  Proof. unfold first_and_last. cbn [length]. rewrite app_length. cbn. lia. Qed.
  Lemma fal_nth a l b i : (i < S (S (length l)))%nat ->
    nth i (first_and_last a l b) 0 = if Nat.eqb i 0 then a else if Nat.eqb i (S (length l)) then b else nth (i - 1) l 0.
  Proof.
    intros I. unfold first_and_last. destruct i as [|i]; [reflexivity|]. cbn [nth Nat.eqb].
    destruct (Nat.eqb_spec i (length l)) as [->|E]; [apply app_nth_last|]. rewrite app_nth1 by lia. f_equal. lia.
  Qed.
  Definition at_index (k i : nat) (v : R) : R := if Nat.eqb i k then v else 0.
  Lemma robin_spec sub diag sup lower upper m' inh k : well_sized (sub, diag, sup) k -> (2 <= k)%nat ->
    robin deltas (sub, diag, sup) lower upper = Some (m', inh) ->
    well_sized m' k /\ length inh = k /\
    exists d0 u0 y0 d1 l1 y1,
      terms (x 1 - x 0) (x 2 - x 1) (nth 0 sub 0) lower d0 u0 y0
      /\ terms (x (n - 1) - x (n - 2)) (x (n - 2) - x (n - 3)) (nth (k - 1) sup 0) upper d1 l1 y1
      /\ forall i, (i < k)%nat ->
        nth i (fst (fst m')) 0 = nth i sub 0 + at_index (k - 1) i l1
        /\ nth i (snd (fst m')) 0 = nth i diag 0 + at_index 0 i d0 + at_index (k - 1) i d1
        /\ nth i (snd m') 0 = nth i sup 0 + at_index 0 i u0
        /\ nth i inh 0 = at_index 0 i y0 + at_index (k - 1) i y1.
  Proof.
    intros (L1 & L2 & L3) K H.
    assert (FD : first deltas = x 1 - x 0) by (unfold first; apply deltas_nth; lia).
    assert (SD : nth 1 deltas 0 = x 2 - x 1) by (apply deltas_nth; lia).
    assert (LD : last deltas 0 = x (n - 1) - x (n - 2)).
    { rewrite last_at, deltas_length. replace (n - 1 - 1)%nat with (n - 2)%nat by lia. rewrite deltas_nth by lia. f_equal. f_equal. lia. }
    assert (L2D : last2 deltas = x (n - 2) - x (n - 3)).
    { rewrite last2_at by (rewrite deltas_length; lia). rewrite deltas_length. replace (n - 1 - 2)%nat with (n - 3)%nat by lia. rewrite deltas_nth by lia. f_equal. f_equal. lia. }
    assert (LS : last sup 0 = nth (k - 1) sup 0) by (rewrite last_at, L3; reflexivity).
    assert (ZI : forall i, nth i (map (fun _ => 0) (inner diag)) 0 = 0).
    { intros i. destruct (Nat.lt_ge_cases i (length (inner diag))) as [I|I]; [apply const_nth; exact I|apply nth_overflow; rewrite map_length; exact I]. }
    assert (LI : length (inner diag) = (k - 2)%nat) by (rewrite inner_length; lia).
    assert (INH : forall a b, length (first_and_last a (map (fun _ => 0) (inner diag)) b) = k
      /\ forall i, (i < k)%nat -> nth i (first_and_last a (map (fun _ => 0) (inner diag)) b) 0 = at_index 0 i a + at_index (k - 1) i b).
    { intros a b. rewrite fal_length, map_length, LI. split; [lia|]. intros i I. rewrite fal_nth by (rewrite map_length, LI; lia). rewrite map_length, LI, ZI.
      unfold at_index. replace (S (k - 2)) with (k - 1)%nat by lia. destruct (Nat.eqb_spec i 0), (Nat.eqb_spec i (k - 1)); try lia; ring. }
    assert (both : (lower = None /\ upper = None) \/ exists a b,
      (if negb (has_beta lower) && negb (has_beta upper) then
        bind (dirichlet_term (first sub) lower) (fun x => bind (dirichlet_term (last sup 0) upper) (fun y =>
        Some ((sub, diag, sup), first_and_last x (map (fun _ => 0) (inner diag)) y)))
      else
        bind (robin_terms (first sub) (first deltas) (nth 1 deltas 0) lower) (fun '(d0, u0, x) =>
        bind (robin_terms (last sup 0) (last deltas 0) (last2 deltas) upper) (fun '(d1, l1, y) =>
        Some ((removelast sub ++ [last sub 0 + l1],
               first_and_last (first diag + d0) (inner diag) (last diag 0 + d1),
               (first sup + u0) :: tl sup),
              first_and_last x (map (fun _ => 0) (inner diag)) y)))) = Some (a, b) /\ m' = a /\ inh = b).
    { unfold robin in H. destruct lower as [lo|]; [right; exists m', inh; split; [exact H|auto]|]. destruct upper as [up|]; [right; exists m', inh; split; [exact H|auto]|left; auto]. }
    destruct both as [[-> ->]|(a & b & H' & -> & ->)].
    - cbn in H. injection H as <- <-. split; [exact (conj L1 (conj L2 L3))|]. split; [rewrite map_length; exact L2|].
      exists 0, 0, 0, 0, 0, 0. split; [cbn; auto|]. split; [cbn; auto|]. intros i I. cbn [fst snd]. rewrite const_nth by lia.
      unfold at_index. destruct (Nat.eqb i 0), (Nat.eqb i (k - 1)); repeat split; ring.
    - clear H. destruct (has_beta lower) eqn:BL, (has_beta upper) eqn:BU; cbn [negb andb] in H'.
      all: try (apply bind_some in H'; destruct H' as ([[d0 u0] y0] & T0 & H'); apply bind_some in H'; destruct H' as ([[d1 l1] y1] & T1 & H'); injection H' as <- <-;
        rewrite FD, SD in T0; rewrite LD, L2D, LS in T1; apply robin_terms_spec in T0; apply robin_terms_spec in T1;
        destruct (INH y0 y1) as [I1 I2];
        assert (LR : length (removelast sub) = (k - 1)%nat) by (rewrite rl_length; lia);
        split; [unfold well_sized; rewrite app_length, fal_length, LI, LR; cbn [length]; rewrite tl_length'; repeat split; lia|]; split; [exact I1|];
        exists d0, u0, y0, d1, l1, y1; split; [exact T0|]; split; [exact T1|]; intros i I; cbn [fst snd]; split; [|split; [|split]];
        [ unfold at_index; destruct (Nat.eqb_spec i (k - 1)) as [->|E];
          [rewrite app_nth_last' by exact LR; rewrite last_at, L1; reflexivity|rewrite app_nth1 by lia; rewrite rl_nth by lia; ring]
        | rewrite fal_nth by lia; rewrite LI; unfold at_index; replace (S (k - 2)) with (k - 1)%nat by lia;
          destruct (Nat.eqb_spec i 0) as [->|E]; [destruct (Nat.eqb_spec 0 (k - 1)); [lia|]; unfold first; ring|];
          destruct (Nat.eqb_spec i (k - 1)) as [->|E2]; [rewrite last_at, L2; ring|]; rewrite inner_nth by lia; replace (S (i - 1)) with i by lia; ring
        | unfold at_index; destruct i as [|i]; [cbn [nth Nat.eqb]; unfold first; reflexivity|]; cbn [nth Nat.eqb]; rewrite tl_nth; ring
        | apply I2; exact I ]).
      apply bind_some in H'. destruct H' as (y0 & T0 & H'). apply bind_some in H'. destruct H' as (y1 & T1 & H'). injection H' as <- <-.
      rewrite LS in T1. destruct (INH y0 y1) as [I1 I2]. split; [exact (conj L1 (conj L2 L3))|]. split; [exact I1|].
      exists 0, 0, y0, 0, 0, y1. split; [apply dirichlet_terms; assumption|]. split; [apply dirichlet_terms; assumption|].
      intros i I. cbn [fst snd]. rewrite (I2 i I). unfold at_index. destruct (Nat.eqb i 0), (Nat.eqb i (k - 1)); repeat split; ring.
  Qed.

  Lemma op_eq (lower upper : boundary) e f p :
    op lower upper e f p = grid_operator (if_default lower (x 2 - x 1)) (if_default upper (x (n - 2) - x (n - 3))) e x (n - 1) f p.
  Proof. unfold op, grid_operator, if_default. destruct lower, upper, p; reflexivity. Qed.

  Lemma equation_params_eq co vs lower upper t : equation_params xs vs co lower upper t
    = bind (extended_matrix co vs lower upper t) (fun m => robin deltas m (at_time lower t) (at_time upper t)).
  Proof.
    unfold equation_params, extended_matrix, raw_matrix. fold deltas forward backward. fold sums.
    destruct (first_order (first_ co t) (inner_first co t) forward backward sums (map (fun _ => 0) (inner vs))) as [[[? ?] ?]|]; [|reflexivity]. cbn [bind].
    destruct (second_order (second co t) (inner_second co t) forward backward sums (map (fun _ => 0) (inner vs))) as [[[? ?] ?]|]; [|reflexivity]. cbn [bind].
    destruct lower as [lo|]; cbn [bind].
    - destruct upper; reflexivity.
    - match goal with |- bind ?a _ = _ => destruct a; [|reflexivity] end. cbn [bind]. destruct upper; reflexivity.
  Qed.
  Lemma seq_map_nth (f : nat -> R) o k i : (i < k)%nat -> nth i (map f (seq o k)) 0 = f (i + o)%nat.
  Proof.
    intros I. rewrite (nth_indep _ 0 (f 0%nat)) by (rewrite map_length, seq_length; exact I). rewrite map_nth, seq_nth by exact I. f_equal. lia.
  Qed.

  Lemma params_rows co vs lower upper t m inh : sized_co n co t -> length vs = n ->
    equation_params xs vs co lower upper t = Some (m, inh) ->
    let k := (n - offset lower - offset upper)%nat in (2 <= k)%nat ->
    well_sized m k /\ length inh = k
    /\ (forall f, lower_at x lower t f -> upper_at x (n - 1) upper t f -> forall i, (i < k)%nat ->
          tri m (map f (seq (offset lower) k)) i + nth i inh 0 = - op lower upper (pde_at co t) f (i + offset lower))
    /\ (forall u, exists f, lower_at x lower t f /\ upper_at x (n - 1) upper t f /\ forall i, (i < k)%nat -> f (i + offset lower)%nat = nth i u 0).
  Proof.
    intros SC Lv H k K. rewrite equation_params_eq in H. apply bind_some in H. destruct H as (m0 & H0 & H).
    destruct (extended_rows co vs lower upper t m0 SC Lv H0) as (W0 & R0 & E1 & E2). fold k in W0, R0, E2.
    destruct m0 as [[sub diag] sup]. destruct (robin_spec sub diag sup _ _ m inh k W0 K H) as (W & LI & d0 & u0 & y0 & d1 & l1 & y1 & T0 & T1 & Q).
    split; [exact W|]. split; [exact LI|]. cbn [fst snd] in E1, E2.
    assert (KN : (k + offset lower + offset upper = n)%nat) by (unfold k; destruct lower, upper; cbn [offset] in *; lia).
    split.
    - intros f BL BU i I. set (u := map f (seq (offset lower) k)).
      assert (U : forall j, (j < k)%nat -> nth j u 0 = f (j + offset lower)%nat) by (intros j J; apply seq_map_nth; exact J).
      assert (UK : nth k u 0 = 0) by (apply nth_overflow; unfold u; rewrite map_length, seq_length; lia).
      rewrite <- (R0 f i I). destruct (Q i I) as (Q1 & Q2 & Q3 & Q4). destruct m as [[sub' diag'] sup']. cbn [fst snd] in Q1, Q2, Q3.
      unfold tri. rewrite Q1, Q2, Q3, Q4. unfold full_row.
      assert (LOW : at_index 0 i d0 * f (0 + offset lower)%nat + at_index 0 i u0 * f (1 + offset lower)%nat + at_index 0 i y0
                    = at_index 0 i (match lower with None => 0 | Some _ => nth 0 sub 0 * f 0%nat end)).
      { unfold at_index. destruct (Nat.eqb i 0); [|ring]. destruct lower as [g|]; cbn [at_time option_map terms offset lower_at] in *.
        - destruct T0 as (xi1 & xi2 & eta & D & -> & -> & ->). rewrite (lower_spec _ _ _ _ D) in BL. rewrite BL. cbn [Nat.add]. ring.
        - destruct T0 as (-> & -> & ->). ring. }
      assert (UPP : at_index (k - 1) i l1 * f (k - 2 + offset lower)%nat + at_index (k - 1) i d1 * f (k - 1 + offset lower)%nat + at_index (k - 1) i y1
                    = at_index (k - 1) i (match upper with None => 0 | Some _ => nth (k - 1) sup 0 * f (n - 1)%nat end)).
      { unfold at_index. destruct (Nat.eqb i (k - 1)); [|ring]. destruct upper as [g|]; cbn [at_time option_map terms offset upper_at] in *.
        - destruct T1 as (xi1 & xi2 & eta & D & -> & -> & ->). rewrite (upper_spec _ _ _ _ D) in BU. rewrite BU.
          replace (k - 2 + offset lower)%nat with (n - 3)%nat by lia. replace (k - 1 + offset lower)%nat with (n - 2)%nat by lia. ring.
        - destruct T1 as (-> & -> & ->). ring. }
      assert (SUPT : nth i sup 0 * nth (S i) u 0 = nth i sup 0 * f (S (i + offset lower)) - at_index (k - 1) i (match upper with None => 0 | Some _ => nth (k - 1) sup 0 * f (n - 1)%nat end)).
      { unfold at_index. destruct (Nat.eqb_spec i (k - 1)) as [E|E].
        - replace (S i) with k by lia. rewrite UK. destruct upper; [|rewrite E, (E2 eq_refl); ring].
          cbn [offset] in KN. replace (S (i + offset lower)) with (n - 1)%nat by lia. rewrite E. ring.
        - rewrite U by lia. cbn [Nat.add]. ring. }
      assert (SUBT : match i with O => 0 | S j => nth i sub 0 * nth j u 0 end
                     = match (i + offset lower)%nat with O => 0 | S j => nth i sub 0 * f j end - at_index 0 i (match lower with None => 0 | Some _ => nth 0 sub 0 * f 0%nat end)).
      { unfold at_index. destruct i as [|j]; cbn [Nat.eqb Nat.add].
        - destruct lower; cbn [offset]; ring.
        - rewrite U by lia. ring. }
      assert (CL : match i with O => 0 | S j => (nth i sub 0 + at_index (k - 1) i l1) * nth j u 0 end
                   = match i with O => 0 | S j => nth i sub 0 * nth j u 0 end + at_index (k - 1) i l1 * f (k - 2 + offset lower)%nat).
      { destruct i as [|j]; [unfold at_index; destruct (Nat.eqb_spec 0 (k - 1)); [lia|ring]|].
        rewrite Rmult_plus_distr_r. f_equal. unfold at_index. destruct (Nat.eqb_spec (S j) (k - 1)) as [E|E]; [|ring].
        rewrite U by lia. replace j with (k - 2)%nat by lia. reflexivity. }
      assert (CU : at_index 0 i u0 * nth (S i) u 0 = at_index 0 i u0 * f (1 + offset lower)%nat).
      { unfold at_index. destruct (Nat.eqb_spec i 0) as [->|E]; [rewrite U by lia; reflexivity|ring]. }
      assert (CD0 : at_index 0 i d0 * nth i u 0 = at_index 0 i d0 * f (0 + offset lower)%nat).
      { unfold at_index. destruct (Nat.eqb_spec i 0) as [->|E]; [rewrite U by lia; reflexivity|ring]. }
      assert (CD1 : at_index (k - 1) i d1 * nth i u 0 = at_index (k - 1) i d1 * f (k - 1 + offset lower)%nat).
      { unfold at_index. destruct (Nat.eqb_spec i (k - 1)) as [->|E]; [rewrite U by lia; reflexivity|ring]. }
      rewrite CL, !Rmult_plus_distr_r, CU, CD0, CD1, SUPT, SUBT. rewrite (U i I) at 1. lra.
    - intros u.
      set (f := fun p : nat =>
        match at_time lower t with
        | Some abc => if Nat.eqb p 0 then match discretize_boundary (x 1 - x 0) (x 2 - x 1) abc with Some (xi1, xi2, eta) => xi1 * nth 0 u 0 + xi2 * nth 1 u 0 + eta | None => 0 end
                      else match at_time upper t with
                           | Some abc' => if Nat.eqb p (n - 1) then match discretize_boundary (x (n - 1) - x (n - 2)) (x (n - 2) - x (n - 3)) abc' with
                                  Some (xi1, xi2, eta) => xi1 * nth (k - 1) u 0 + xi2 * nth (k - 2) u 0 + eta | None => 0 end else nth (p - 1) u 0
                           | None => nth (p - 1) u 0 end
        | None => match at_time upper t with
                           | Some abc' => if Nat.eqb p (n - 1) then match discretize_boundary (x (n - 1) - x (n - 2)) (x (n - 2) - x (n - 3)) abc' with
                                  Some (xi1, xi2, eta) => xi1 * nth (k - 1) u 0 + xi2 * nth (k - 2) u 0 + eta | None => 0 end else nth p u 0
                           | None => nth p u 0 end
        end).
      assert (FU : forall i, (i < k)%nat -> f (i + offset lower)%nat = nth i u 0).
      { intros i I. unfold f. destruct lower as [g|], upper as [h|]; cbn [at_time option_map offset] in *.
        - destruct (Nat.eqb_spec (i + 1) 0); [lia|]. destruct (Nat.eqb_spec (i + 1) (n - 1)); [lia|]. f_equal. lia.
        - destruct (Nat.eqb_spec (i + 1) 0); [lia|]. f_equal. lia.
        - destruct (Nat.eqb_spec (i + 0) (n - 1)); [lia|]. f_equal. lia.
        - f_equal. lia. }
      exists f. split; [|split; [|exact FU]].
      + destruct lower as [g|]; [|exact Logic.I]. cbn [at_time option_map terms lower_at offset] in *. destruct T0 as (xi1 & xi2 & eta & D & _).
        apply (lower_spec _ _ _ _ D). pose proof (FU 0%nat ltac:(lia)) as F1. pose proof (FU 1%nat ltac:(lia)) as F2. cbn [Nat.add] in F1, F2. rewrite F1, F2.
        unfold f. cbn [Nat.eqb]. rewrite D. reflexivity.
      + destruct upper as [h|]; [|exact Logic.I]. cbn [at_time option_map terms upper_at offset] in *. destruct T1 as (xi1 & xi2 & eta & D & _).
        apply (upper_spec _ _ _ _ D). pose proof (FU (k - 1)%nat ltac:(lia)) as F1. pose proof (FU (k - 2)%nat ltac:(lia)) as F2.
        replace (k - 1 + offset lower)%nat with (n - 2)%nat in F1 by lia. replace (k - 2 + offset lower)%nat with (n - 3)%nat in F2 by lia. rewrite F1, F2.
        unfold f. destruct lower as [g|]; cbn [at_time option_map]; [destruct (Nat.eqb_spec (n - 1) 0); [lia|]|]; rewrite Nat.eqb_refl, D; reflexivity.
  Qed.

  (** the boundary values put back after the step *)
  Lemma after_step_spec u lower upper t ws : (2 <= length u)%nat -> (length u + offset lower + offset upper = n)%nat ->
    after_step xs u lower upper t = Some ws ->
    length ws = n /\ lower_at x lower t (sq ws) /\ upper_at x (n - 1) upper t (sq ws) /\ forall i, (i < length u)%nat -> nth (i + offset lower) ws 0 = nth i u 0.
  Proof.
    intros K KN H. unfold after_step in H. fold deltas in H.
    assert (FD : first deltas = x 1 - x 0) by (unfold first; apply deltas_nth; lia).
    assert (SD : nth 1 deltas 0 = x 2 - x 1) by (apply deltas_nth; lia).
    assert (LD : last deltas 0 = x (n - 1) - x (n - 2)).
    { rewrite last_at, deltas_length. replace (n - 1 - 1)%nat with (n - 2)%nat by lia. rewrite deltas_nth by lia. f_equal. f_equal. lia. }
    assert (L2D : last2 deltas = x (n - 2) - x (n - 3)).
    { rewrite last2_at by (rewrite deltas_length; lia). rewrite deltas_length. replace (n - 1 - 2)%nat with (n - 3)%nat by lia. rewrite deltas_nth by lia. f_equal. f_equal. lia. }
    rewrite FD, SD, LD, L2D in H. rewrite (last_at u), (last2_at u K) in H.
    apply bind_some in H. destruct H as (a & A & H). apply bind_some in H. destruct H as (b & B & H). injection H as <-.
    assert (LU : length (append_last u b) = (length u + offset upper)%nat /\ forall i, (i < length u)%nat -> nth i (append_last u b) 0 = nth i u 0).
    { destruct upper as [g|]; cbn [boundary_value offset] in *.
      - apply bind_some in B. destruct B as ([[xi1 xi2] eta] & _ & B). injection B as <-. cbn [append_last]. rewrite app_length. cbn [length]. split; [lia|].
        intros i I. apply app_nth1. exact I.
      - injection B as <-. cbn [append_last]. split; [lia|auto]. }
    destruct LU as [LU NU].
    assert (LW : length (append_first a (append_last u b)) = n /\ forall i, nth (i + offset lower) (append_first a (append_last u b)) 0 = nth i (append_last u b) 0).
    { destruct lower as [g|]; cbn [boundary_value offset] in *.
      - apply bind_some in A. destruct A as ([[xi1 xi2] eta] & _ & A). injection A as <-. cbn [append_first length]. split; [lia|].
        intros i. rewrite Nat.add_1_r. reflexivity.
      - injection A as <-. cbn [append_first]. split; [lia|]. intros i. rewrite Nat.add_0_r. reflexivity. }
    destruct LW as [LW NW]. split; [exact LW|]. set (ws := append_first a (append_last u b)) in *.
    assert (NN : forall i, (i < length u)%nat -> nth (i + offset lower) ws 0 = nth i u 0) by (intros i I; rewrite NW; apply NU; exact I).
    split; [|split; [|exact NN]].
    - destruct lower as [g|]; [|exact Logic.I]. cbn [lower_at boundary_value offset] in *. apply bind_some in A. destruct A as ([[xi1 xi2] eta] & D & A). injection A as <-.
      apply (lower_spec _ _ _ _ D). unfold sq. pose proof (NN 0%nat ltac:(lia)) as F1. pose proof (NN 1%nat ltac:(lia)) as F2. cbn [Nat.add] in F1, F2. rewrite F1, F2.
      reflexivity.
    - destruct upper as [g|]; [|exact Logic.I]. cbn [upper_at boundary_value offset] in *. apply bind_some in B. destruct B as ([[xi1 xi2] eta] & D & B). injection B as <-.
      apply (upper_spec _ _ _ _ D). unfold sq. pose proof (NN (length u - 1)%nat ltac:(lia)) as F1. pose proof (NN (length u - 2)%nat ltac:(lia)) as F2.
      replace (length u - 1 + offset lower)%nat with (n - 2)%nat in F1 by lia. replace (length u - 2 + offset lower)%nat with (n - 3)%nat in F2 by lia. rewrite F1, F2.
      pose proof (NW (length u)) as F3. replace (length u + offset lower)%nat with (n - 1)%nat in F3 by lia. rewrite F3. cbn [append_last]. apply app_nth_last.
  Qed.
End Grid.
