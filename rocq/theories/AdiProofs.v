(** Auxiliary lemmas about the multidimensional PDE stepper. *)
From Coq Require Import Reals List Bool Arith ZArith Lia Lra FunctionalExtensionality.
From Verif Require Import MvNormalSpec PdeStepModel PdeStepProofs AdiModel AdiSpec AdiView.
Import ListNotations.
Open Scope R_scope.

Lemma put_move d v k : put d v k = move d v k.
Proof. reflexivity. Qed.
Lemma move_at d v p : move d v p d = v.
Proof. unfold move. rewrite Nat.eqb_refl. reflexivity. Qed.
Lemma move_other d v p e : e <> d -> move d v p e = p e.
Proof. unfold move. intros H. destruct (Nat.eqb_spec e d); [contradiction|reflexivity]. Qed.
Lemma move_same d p : move d (p d) p = p.
Proof. extensionality e. unfold move. destruct (Nat.eqb_spec e d) as [->|]; reflexivity. Qed.
Lemma move_move d v w p : move d v (move d w p) = move d v p.
Proof. extensionality e. unfold move. destruct (Nat.eqb e d); reflexivity. Qed.
Lemma move_id d v p : p d = v -> move d v p = p.
Proof. intros <-. apply move_same. Qed.
Lemma move_swap d e v w p : d <> e -> move d v (move e w p) = move e w (move d v p).
Proof. intros N. extensionality x. unfold move. destruct (Nat.eqb_spec x d) as [E1|E1]; destruct (Nat.eqb_spec x e) as [E2|E2]; congruence. Qed.

Lemma fold_add {A} (F : A -> tensor) l g k : fold_left (fun g a => fun k => g k + F a k) l g k = g k + fold_right Rplus 0 (map (fun a => F a k) l).
Proof. revert g. induction l as [|a l IH]; intros g; cbn [fold_left map fold_right]; [lra|]. rewrite IH. lra. Qed.
Lemma sum_seq f n : fold_right Rplus 0 (map f (seq 0 n)) = sum_to n f.
Proof.
  induction n as [|n IH]; [reflexivity|]. rewrite seq_S, map_app, fold_right_app. cbn [map fold_right sum_to plus]. rewrite <- IH.
  assert (G : forall l x, fold_right Rplus x l = fold_right Rplus 0 l + x) by (induction l as [|a l IHl]; intros x; cbn [fold_right]; [lra|rewrite IHl; lra]).
  rewrite G. lra.
Qed.
Lemma sum_app l m : fold_right Rplus 0 (l ++ m) = fold_right Rplus 0 l + fold_right Rplus 0 m.
Proof. induction l as [|a l IH]; cbn [app fold_right]; [lra|rewrite IH; lra]. Qed.
Lemma map_seq_shift {A} (f : nat -> A) s m : map f (seq s m) = map (fun j => f (s + j)%nat) (seq 0 m).
Proof.
  revert s. induction m as [|m IH]; intros s; [reflexivity|]. cbn [seq map]. rewrite (IH (S s)).
  f_equal; [f_equal; lia|]. rewrite <- (seq_shift m 0), map_map. apply map_ext. intros j. f_equal. lia.
Qed.

Section Step.
  Variable n : nat.
  Variable sizes : nat -> nat.
  Variable coord_grid : nat -> nat -> R.
  Variable lower upper : nat -> condition.
  Variable co : coefficient_fns.
  Notation low d := (is_default (lower d)).
  Notation up d := (is_default (upper d)).
  Notation h d := (delta coord_grid d).
  Notation lt := (lower_trim lower).
  Notation isz := (inner_size sizes lower upper).
  Notation eqn t := (equation_at co t).
  Notation olow := (fun d => low d).
  Notation oup := (fun d => up d).
  Definition full (k : index) : point := fun e => (k e + lt e)%nat.
  Definition conv (p : point) : index := fun e => (p e - lt e)%nat.
  Definition in_range (k : index) : Prop := forall e, (e < n)%nat -> (k e < isz e)%nat.

  Hypothesis SZ : forall d, (d < n)%nat -> (4 <= sizes d)%nat.
  Hypothesis HN : forall d, (d < n)%nat -> h d <> 0.

  Lemma isz_full d : (d < n)%nat -> (isz d + lt d + (if up d then 0 else 1) = sizes d)%nat /\ (2 <= isz d)%nat /\ lt d = (if low d then 0 else 1)%nat.
  Proof using SZ. intros D. specialize (SZ d D). unfold inner_size, lower_trim, upper_trim. destruct (low d), (up d); lia. Qed.
  Lemma full_unknown k : in_range k -> unknown n sizes olow oup (full k).
  Proof using SZ.
    intros K d D. specialize (K d D). destruct (isz_full d D) as (A & B & C). unfold unknown_at, full.
    destruct (low d) eqn:EL, (up d) eqn:EU; rewrite C in *; repeat split; try (intros; reflexivity); intros; try lia.
  Qed.
  Lemma unknown_coord d j : (d < n)%nat -> unknown_at sizes olow oup d j -> (lt d <= j)%nat /\ (j - lt d < isz d)%nat.
  Proof using SZ.
    intros D (A & B & C). destruct (isz_full d D) as (A1 & B1 & C1). rewrite C1 in *. destruct (low d) eqn:EL, (up d) eqn:EU; try lia.
    all: try (assert (j <> (sizes d - 1)%nat) by (intros E; specialize (C E); congruence)); try (assert (j <> 0%nat) by (intros E; specialize (B E); congruence)); lia.
  Qed.
  Lemma coord_unknown d j : (d < n)%nat -> (j < isz d)%nat -> unknown_at sizes olow oup d (j + lt d).
  Proof using SZ.
    intros D K. destruct (isz_full d D) as (A & B & C). unfold unknown_at.
    destruct (low d) eqn:EL, (up d) eqn:EU; rewrite C in *; repeat split; try (intros; reflexivity); intros; try lia.
  Qed.
  Lemma full_put d j k : full (put d j k) = move d (j + lt d) (full k).
  Proof. extensionality e. unfold full, put, move. destruct (Nat.eqb_spec e d) as [->|]; reflexivity. Qed.
  Lemma trim_none lo (t : tensor) k : trim lo no_shift t k = t (fun e => (k e + lo e)%nat).
  Proof. unfold trim, no_shift. f_equal. extensionality e. lia. Qed.
  Lemma trim_up lo d (t : tensor) k : trim lo (shift1 d 1) t k = t (next d (fun e => (k e + lo e)%nat)).
  Proof. unfold trim, shift1, next, move. f_equal. extensionality e. destruct (Nat.eqb_spec e d) as [->|]; lia. Qed.
  Lemma trim_down lo d (t : tensor) k : trim lo (shift1 d (-1)) t k = t (prev d (fun e => (k e + lo e)%nat)).
  Proof. unfold trim, shift1, prev, move. f_equal. extensionality e. destruct (Nat.eqb_spec e d) as [->|]; lia. Qed.

  (** the terms of dimension d without c V *)
  Definition bare (t : R) (d : nat) (u : point -> R) (p : point) : R :=
    let e := eqn t in
    if low d && Nat.eqb (p d) 0 then term (eb e d) (eB e d) (coef (eb e d) p * diff_forward (h d) d (times (eB e d) u) p)
     else if up d && Nat.eqb (p d) (sizes d - 1) then term (eb e d) (eB e d) (coef (eb e d) p * diff_backward (h d) d (times (eB e d) u) p)
     else term (ea e d d) (eA e d d) (coef (ea e d d) p * diff2 (h d) d (times (eA e d d) u) p)
          + term (eb e d) (eB e d) (coef (eb e d) p * diff1 (h d) d (times (eB e d) u) p).
  Definition row (m : matrix3) (d : nat) (k : index) (u : point -> R) (p : point) : R :=
    let '(sup, diag, sub) := m in sup k * u (next d p) + diag k * u p + sub k * u (prev d p).

  Lemma centered_row t d k u : (d < n)%nat -> let p := fun e => (k e + trimmed_lower lower [d] e)%nat in
    row (tridiagonal_matrix coord_grid lower co t d) d k u p
    = - (term (second_fn co t d d) (inner_second_fn co t d d) (coef (second_fn co t d d) p * diff2 (h d) d (times (inner_second_fn co t d d) u) p)
         + term (first_fn co t d) (inner_first_fn co t d) (coef (first_fn co t d) p * diff1 (h d) d (times (inner_first_fn co t d) u) p)).
  Proof using HN.
    intros D p. specialize (HN d D). unfold tridiagonal_matrix, first_order_matrix, second_order_matrix.
    destruct (second_fn co t d d) as [a|], (inner_second_fn co t d d) as [A|], (first_fn co t d) as [b|], (inner_first_fn co t d) as [B|];
      unfold row, times_coeff, term, diff1, diff2, times, coef; rewrite ?trim_none, ?trim_up, ?trim_down; fold p; field; exact HN.
  Qed.
  Lemma edge_inner_at t d k : edge_inner lower co t d k = coef (inner_first_fn co t d) (full k).
  Proof. unfold edge_inner, coef. destruct (inner_first_fn co t d); [apply trim_none|reflexivity]. Qed.
  Lemma edge_outer_at t d j k x : edge_outer lower co t d j k * x = term (first_fn co t d) (inner_first_fn co t d) (coef (first_fn co t d) (full (put d j k)) * x).
  Proof. unfold edge_outer, coef, term, slice. destruct (first_fn co t d), (inner_first_fn co t d); rewrite ?trim_none; unfold full; ring. Qed.
  Lemma next_at d (p : point) : next d p d = S (p d).
  Proof. apply move_at. Qed.
  Lemma row_default_lower t d m k u : (d < n)%nat -> low d = true -> k d = 0%nat ->
    row (default_lower coord_grid lower co t d m) d k u (full k)
    = - term (first_fn co t d) (inner_first_fn co t d) (coef (first_fn co t d) (full k) * diff_forward (h d) d (times (inner_first_fn co t d) u) (full k)).
  Proof using HN.
    intros D L K. pose proof (HN d D) as H. destruct m as [[sup diag] sub]. unfold default_lower, row, append_first. rewrite K. unfold slice.
    rewrite !edge_inner_at. rewrite (full_put d 0), (full_put d 1).
    assert (T : lt d = 0%nat) by (unfold lower_trim; rewrite L; reflexivity). rewrite T.
    assert (F : full k d = 0%nat) by (unfold full; rewrite K, T; reflexivity).
    change (0 + 0)%nat with 0%nat. change (1 + 0)%nat with 1%nat. rewrite (move_id d 0 (full k) F).
    assert (NX : move d 1 (full k) = next d (full k)) by (unfold next; rewrite F; reflexivity). rewrite NX.
    pose proof (edge_outer_at t d 0 k (/ h d * (coef (inner_first_fn co t d) (next d (full k)) * u (next d (full k)) - coef (inner_first_fn co t d) (full k) * u (full k)))) as E.
    rewrite full_put, T in E. change (0 + 0)%nat with 0%nat in E. rewrite (move_id d 0 (full k) F) in E.
    unfold diff_forward, times. match goal with |- _ = - term _ _ (?a * ?b) => replace (a * b) with (coef (first_fn co t d) (full k) * (/ h d * (coef (inner_first_fn co t d) (next d (full k)) * u (next d (full k)) - coef (inner_first_fn co t d) (full k) * u (full k)))) by (field; exact H) end.
    rewrite <- E. field. exact H.
  Qed.
  Lemma row_default_upper t d m k u : (d < n)%nat -> up d = true -> k d = (isz d - 1)%nat ->
    row (default_upper sizes coord_grid lower upper co t d m) d k u (full k)
    = - term (first_fn co t d) (inner_first_fn co t d) (coef (first_fn co t d) (full k) * diff_backward (h d) d (times (inner_first_fn co t d) u) (full k)).
  Proof using HN SZ.
    intros D L K. pose proof (HN d D) as H. destruct (isz_full d D) as (IA & IB & IC). destruct m as [[sup diag] sub]. unfold default_upper, row, append_last. rewrite K, Nat.ltb_irrefl. unfold slice.
    rewrite !edge_inner_at. rewrite !full_put.
    assert (F : full k d = (isz d - 1 + lt d)%nat) by (unfold full; rewrite K; reflexivity).
    rewrite (move_id d (isz d - 1 + lt d) (full k) F).
    assert (NX : move d (isz d - 1 - 1 + lt d) (full k) = prev d (full k)) by (unfold prev; rewrite F; f_equal; lia). rewrite NX.
    pose proof (edge_outer_at t d (isz d - 1) k (/ h d * (coef (inner_first_fn co t d) (full k) * u (full k) - coef (inner_first_fn co t d) (prev d (full k)) * u (prev d (full k))))) as E.
    rewrite full_put in E. rewrite (move_id d (isz d - 1 + lt d) (full k) F) in E.
    unfold diff_backward, times. match goal with |- _ = - term _ _ (?a * ?b) => replace (a * b) with (coef (first_fn co t d) (full k) * (/ h d * (coef (inner_first_fn co t d) (full k) * u (full k) - coef (inner_first_fn co t d) (prev d (full k)) * u (prev d (full k))))) by (field; exact H) end.
    rewrite <- E. field. exact H.
  Qed.
  (** away from the default ends the rows are those of the centered differences *)
  Lemma row_default_rest t d m k u : (d < n)%nat -> (k d < isz d)%nat -> (low d = true -> k d <> 0%nat) -> (up d = true -> k d <> (isz d - 1)%nat) ->
    exists k', (forall e, (k' e + trimmed_lower lower [d] e)%nat = full k e) /\
      row (apply_default sizes coord_grid lower upper co t d m) d k u (full k) = row m d k' u (full k).
  Proof using SZ.
    intros D K L U. destruct (isz_full d D) as (IA & IB & IC). destruct m as [[sup diag] sub].
    assert (TL : forall e, trimmed_lower lower [d] e = if Nat.eqb e d then 1%nat else lt e).
    { intros e. unfold trimmed_lower, padding_lower, lower_trim. cbn [existsb]. rewrite orb_false_r. destruct (low e), (Nat.eqb e d); reflexivity. }
    unfold apply_default. destruct (low d) eqn:EL.
    - exists (put d (k d - 1) k). split.
      { intros e. rewrite TL. unfold put, full. specialize (L eq_refl). destruct (Nat.eqb_spec e d) as [->|]; lia. }
      specialize (L eq_refl). destruct (k d) as [|j] eqn:KD; [contradiction|]. replace (S j - 1)%nat with j by lia.
      destruct (up d) eqn:EU; unfold default_upper, default_lower, row, append_last, append_first; rewrite KD; [|reflexivity].
      specialize (U eq_refl). assert (LT : (S j <? isz d - 1)%nat = true) by (apply Nat.ltb_lt; lia). rewrite LT. reflexivity.
    - exists k. split.
      { intros e. rewrite TL. unfold full. destruct (Nat.eqb_spec e d) as [->|]; lia. }
      destruct (up d) eqn:EU; [|reflexivity]. unfold default_upper, row, append_last.
      specialize (U eq_refl). assert (LT : (k d <? isz d - 1)%nat = true) by (apply Nat.ltb_lt; lia). rewrite LT. reflexivity.
  Qed.
  Lemma bare_row t d k u : (d < n)%nat -> (k d < isz d)%nat ->
    let m := apply_default sizes coord_grid lower upper co t d (tridiagonal_matrix coord_grid lower co t d) in
    row m d k u (full k) = - bare t d u (full k)
    /\ (low d = true -> k d = 0%nat -> snd m k = 0) /\ (up d = true -> k d = (isz d - 1)%nat -> fst (fst m) k = 0).
  Proof using HN SZ.
    intros D K m. destruct (isz_full d D) as (IA & IB & IC). split; [|split].
    - unfold bare. cbv zeta. cbn [equation_at ea eb ec eA eB].
      assert (F : full k d = (k d + lt d)%nat) by reflexivity.
      destruct (low d && (full k d =? 0)%nat) eqn:C1.
      + apply andb_prop in C1. destruct C1 as [L Z]. apply Nat.eqb_eq in Z. assert (K0 : k d = 0%nat) by lia.
        rewrite <- (row_default_lower t d (tridiagonal_matrix coord_grid lower co t d) k u D L K0). unfold m, apply_default. rewrite L.
        destruct (up d); [|reflexivity].
        destruct (default_lower coord_grid lower co t d (tridiagonal_matrix coord_grid lower co t d)) as [[a b] c]. unfold default_upper, row, append_last.
        assert (LT : (k d <? isz d - 1)%nat = true) by (apply Nat.ltb_lt; lia). rewrite LT. reflexivity.
      + destruct (up d && (full k d =? sizes d - 1)%nat) eqn:C2.
        * apply andb_prop in C2. destruct C2 as [U Z]. apply Nat.eqb_eq in Z. rewrite U in IA. assert (K0 : k d = (isz d - 1)%nat) by lia.
          unfold m, apply_default. rewrite U. apply row_default_upper; assumption.
        * destruct (row_default_rest t d (tridiagonal_matrix coord_grid lower co t d) k u D K) as (k' & E & R1).
          { intros L Z. rewrite L in C1, IC. rewrite F, Z, IC in C1. discriminate C1. }
          { intros U Z. rewrite U in C2, IA. cbn [andb] in C2. apply Nat.eqb_neq in C2. lia. }
          unfold m. rewrite R1. pose proof (centered_row t d k' u D) as CR. cbv zeta in CR.
          assert (EP : (fun e => (k' e + trimmed_lower lower [d] e)%nat) = full k) by (extensionality e; apply E). rewrite EP in CR. exact CR.
    - intros L Z. unfold m, apply_default. rewrite L.
      destruct (tridiagonal_matrix coord_grid lower co t d) as [[a b] c]. unfold default_lower.
      destruct (up d); unfold default_upper, append_last, append_first; cbn [snd]; rewrite Z; [|reflexivity].
      assert (LT : (0 <? isz d - 1)%nat = true) by (apply Nat.ltb_lt; lia). rewrite LT. reflexivity.
    - intros U Z. unfold m, apply_default. rewrite U.
      match goal with |- context [default_upper _ _ _ _ _ _ _ ?x] => destruct x as [[a b] c] end. unfold default_upper, append_last. cbn [fst]. rewrite Z, Nat.ltb_irrefl. reflexivity.
  Qed.
  Lemma discretize_spec dx (alpha beta : option tensor) (gamma : tensor) (k : index) : dx <> 0 -> weight alpha k + weight beta k * (3 / (2 * dx)) <> 0 ->
    let '(x1, x2, e) := discretize dx (alpha, beta, gamma) in
    forall u0 u1 u2, u0 = x1 k * u1 + x2 k * u2 + e k <-> weight alpha k * u0 + weight beta k * normal_derivative dx u0 u1 u2 = gamma k.
  Proof.
    intros DX W. unfold discretize, normal_derivative, weight in *. destruct beta as [beta|].
    - destruct alpha as [alpha|].
      + assert (Z : beta k * dx * (2 * dx + dx) + alpha k * dx * dx * (dx + dx) <> 0).
        { intros E. apply W. replace (alpha k + beta k * (3 / (2 * dx))) with ((beta k * dx * (2 * dx + dx) + alpha k * dx * dx * (dx + dx)) / (2 * dx * dx * dx)) by (field; exact DX). rewrite E. unfold Rdiv. ring. }
        set (D := beta k * dx * (2 * dx + dx) + alpha k * dx * dx * (dx + dx)) in *.
        intros u0 u1 u2.
        assert (E : alpha k * u0 + beta k * ((3 * u0 - 4 * u1 + u2) / (2 * dx)) = (D * u0 - 4 * beta k * dx * dx * u1 + beta k * dx * dx * u2) / (2 * dx * dx * dx)) by (unfold D; field; exact DX).
        rewrite E. clear E. clearbody D. split; intros H.
        * assert (E : D * u0 = 4 * beta k * dx * dx * u1 - beta k * dx * dx * u2 + 2 * gamma k * dx * dx * dx) by (rewrite H; field; exact Z). rewrite E. field. exact DX.
        * assert (E : D * u0 = 4 * beta k * dx * dx * u1 - beta k * dx * dx * u2 + 2 * gamma k * dx * dx * dx) by (rewrite <- H; field; exact DX).
          apply (Rmult_eq_reg_l D); [|exact Z]. rewrite E. field. exact Z.
      + assert (Z : beta k * dx * (2 * dx + dx) + 0 <> 0).
        { intros E. apply W. replace (0 + beta k * (3 / (2 * dx))) with ((beta k * dx * (2 * dx + dx) + 0) / (2 * dx * dx * dx)) by (field; exact DX). rewrite E. unfold Rdiv. ring. }
        assert (B : beta k <> 0) by (intros E; apply Z; rewrite E; ring).
        intros u0 u1 u2. split; intros H.
        * rewrite H. field; repeat split; first [assumption|intros E; apply Z; lra].
        * rewrite <- H. field; repeat split; first [assumption|intros E; apply Z; lra].
    - rewrite Rmult_0_l, Rplus_0_r in W. destruct alpha as [alpha|]; [|contradiction].
      intros u0 u1 u2. split; intros H.
      + rewrite H. field. split; assumption.
      + rewrite <- H. field. split; assumption.
  Qed.
  Notation bnd := boundary_at.
  Lemma reshape_discretize dx d tr abc k : let '(x1, x2, e) := discretize dx abc in
    let '(x1', x2', e') := discretize dx (reshape3 lower d tr abc) in
    let q := put d 0 (fun a => if tr a then (k a + lt a)%nat else k a) in x1' k = x1 q /\ x2' k = x2 q /\ e' k = e q.
  Proof.
    destruct abc as [[alpha beta] gamma]. unfold discretize, reshape3. destruct alpha as [alpha|], beta as [beta|]; cbn [option_map]; unfold reshape; repeat split; reflexivity.
  Qed.
  (** the discretized condition in the form used by the code *)
  Lemma condition_solved d t c tr k : (d < n)%nat -> determined (fun d => h d) d (bnd c t) ->
    match at_time c t with None => True | Some abc =>
      let '(x1, x2, e) := discretize (h d) (reshape3 lower d tr abc) in
      let q := put d 0 (fun a => if tr a then (k a + lt a)%nat else k a) in
      let '(alpha, beta, gamma) := abc in
      forall u0 u1 u2, u0 = x1 k * u1 + x2 k * u2 + e k <-> weight alpha q * u0 + weight beta q * normal_derivative (h d) u0 u1 u2 = gamma q end.
  Proof using HN.
    intros D DET. unfold boundary_at in DET. destruct (at_time c t) as [abc|]; [|exact Logic.I].
    pose proof (reshape_discretize (h d) d tr abc k) as RD. destruct abc as [[alpha beta] gamma]. unfold determined in DET.
    pose proof (discretize_spec (h d) alpha beta gamma (put d 0 (fun a => if tr a then (k a + lt a)%nat else k a)) (HN d D) (DET _)) as SP.
    destruct (discretize (h d) (alpha, beta, gamma)) as [[x1 x2] e]. destruct (discretize (h d) (reshape3 lower d tr (alpha, beta, gamma))) as [[x1' x2'] e'].
    cbv zeta in RD. destruct RD as (R1 & R2 & R3). cbv zeta. intros u0 u1 u2. rewrite R1, R2, R3. apply SP.
  Qed.
  Definition side (d : nat) (edge : tensor) (c : condition) (t : R) : tensor * tensor * tensor :=
    robin_elements coord_grid d edge (option_map (reshape3 lower d (fun _ => true)) (at_time c t)).
  Lemma side_dirichlet d edge c t k : (d < n)%nat -> determined (fun d => h d) d (bnd c t) ->
    has_beta (option_map (reshape3 lower d (fun _ => true)) (at_time c t)) = false ->
    let '(x, y, z) := side d edge c t in
    x k = 0 /\ y k = 0 /\ z k = dirichlet_element edge (option_map (reshape3 lower d (fun _ => true)) (at_time c t)) k.
  Proof.
    intros D DET HB. unfold side, robin_elements, boundary_at in *. destruct (at_time c t) as [[[alpha beta] gamma]|]; cbn [option_map reshape3 has_beta dirichlet_element] in *; [|repeat split; ring].
    destruct beta as [beta|]; cbn [option_map] in *; [discriminate HB|]. unfold discretize. cbn [determined] in DET.
    destruct alpha as [alpha|]; cbn [option_map]; repeat split; try ring. unfold Rdiv. ring.
  Qed.
  Lemma apply_robin_at t d (sup diag sub : tensor) (k : index) : (d < n)%nat -> (k d < isz d)%nat ->
    determined (fun d => h d) d (bnd (lower d) t) -> determined (fun d => h d) d (bnd (upper d) t) ->
    let '(df, sf, zf) := side d (slice d 0 sub) (lower d) t in
    let '(dl, sl, zl) := side d (slice d (isz d - 1) sup) (upper d) t in
    let '((sup', diag', sub'), inh) := apply_robin sizes coord_grid lower upper t d (sup, diag, sub) in
    (k d = 0%nat -> sup' k = sup k + sf k /\ diag' k = diag k + df k /\ inh k = zf k) /\
    (k d = (isz d - 1)%nat -> sub' k = sub k + sl k /\ diag' k = diag k + dl k /\ inh k = zl k) /\
    (k d <> 0%nat -> sub' k = sub k \/ k d = (isz d - 1)%nat) /\ (k d <> (isz d - 1)%nat -> sup' k = sup k \/ k d = 0%nat) /\
    (k d <> 0%nat -> k d <> (isz d - 1)%nat -> sub' k = sub k /\ sup' k = sup k /\ diag' k = diag k /\ inh k = 0).
  Proof using SZ.
    intros D K DL DU. destruct (isz_full d D) as (IA & IB & IC).
    pose proof (side_dirichlet d (slice d 0 sub) (lower d) t k D DL) as SL. pose proof (side_dirichlet d (slice d (isz d - 1) sup) (upper d) t k D DU) as SU.
    destruct (side d (slice d 0 sub) (lower d) t) as [[df sf] zf] eqn:EL. destruct (side d (slice d (isz d - 1) sup) (upper d) t) as [[dl sl] zl] eqn:EU.
    unfold apply_robin. unfold side in EL, EU.
    assert (PS : forall j, k d = j -> put d j k = k) by (intros j <-; apply (move_same d k)).
    destruct (low d && up d) eqn:DEF.
    - apply andb_prop in DEF. destruct DEF as [L U]. assert (AL : at_time (lower d) t = None) by (destruct (lower d); [discriminate L|reflexivity]). assert (AU : at_time (upper d) t = None) by (destruct (upper d); [discriminate U|reflexivity]).
      rewrite AL in EL. rewrite AU in EU. cbn in EL, EU. injection EL as <- <- <-. injection EU as <- <- <-. repeat split; intros; try ring; auto.
    - destruct (negb _ && negb _) eqn:NB.
      + apply andb_prop in NB. destruct NB as [N1 N2]. apply negb_true_iff in N1, N2. destruct (SL N1) as (A1 & A2 & A3). destruct (SU N2) as (B1 & B2 & B3).
        split; [|split; [|split; [|split]]].
        * intros Z. rewrite A1, A2, A3. unfold append_first_and_last. rewrite Z. cbn [Nat.eqb]. repeat split; ring.
        * intros Z. rewrite B1, B2, B3. unfold append_first_and_last. rewrite Z. destruct (Nat.eqb_spec (isz d - 1) 0) as [E|_]; [lia|]. rewrite Nat.ltb_irrefl. repeat split; ring.
        * intros _. left. reflexivity.
        * intros _. left. reflexivity.
        * intros Z1 Z2. repeat split. unfold append_first_and_last. destruct (Nat.eqb_spec (k d) 0) as [E|_]; [contradiction|]. destruct (Nat.ltb_spec (k d) (isz d - 1)) as [_|E]; [reflexivity|lia].
      + rewrite EL, EU. unfold append_first_and_last, slice.
        split; [|split; [|split; [|split]]].
        * intros Z. rewrite Z. cbn [Nat.eqb]. rewrite (PS 0%nat Z). repeat split; reflexivity.
        * intros Z. rewrite Z. destruct (Nat.eqb_spec (isz d - 1) 0) as [E|_]; [lia|]. rewrite Nat.ltb_irrefl. rewrite (PS _ Z). repeat split; reflexivity.
        * intros Z1. destruct (Nat.eqb_spec (k d) 0) as [E|_]; [contradiction|]. destruct (Nat.ltb_spec (k d) (isz d - 1)) as [_|E]; [left; reflexivity|right; lia].
        * intros Z1. destruct (Nat.eqb_spec (k d) 0) as [E|_]; [right; exact E|]. destruct (Nat.ltb_spec (k d) (isz d - 1)) as [_|E]; left; reflexivity.
        * intros Z1 Z2. destruct (Nat.eqb_spec (k d) 0) as [E|_]; [contradiction|]. destruct (Nat.ltb_spec (k d) (isz d - 1)) as [_|E]; [repeat split; reflexivity|lia].
  Qed.
  (** the conditions of dimension d on the line through a point *)
  Definition ends_hold (t : R) (d : nat) (v : point -> R) (p : point) : Prop :=
    lower_holds (fun d => h d) d (bnd (lower d) t) v p /\ upper_holds sizes (fun d => h d) d (bnd (upper d) t) v p.
  Lemma robin_row t d m v k : (d < n)%nat -> (k d < isz d)%nat ->
    determined (fun d => h d) d (bnd (lower d) t) -> determined (fun d => h d) d (bnd (upper d) t) ->
    ends_hold t d v (full k) ->
    (low d = true -> k d = 0%nat -> snd m k = 0) -> (up d = true -> k d = (isz d - 1)%nat -> fst (fst m) k = 0) ->
    let '(m', inh) := apply_robin sizes coord_grid lower upper t d m in
    tridiag_explicit sizes lower upper m' (fun k => v (full k)) d k + inh k = row m d k v (full k).
  Proof using SZ HN.
    intros D K DL DU [HL HU] E1 E2. destruct (isz_full d D) as (IA & IB & IC). destruct m as [[sup diag] sub]. cbn [snd fst] in E1, E2.
    pose proof (apply_robin_at t d sup diag sub k D K DL DU) as AT.
    assert (QK : put d 0 (fun a => (k a + lt a)%nat) = move d 0 (full k)) by reflexivity.
    assert (FK : forall j, v (full (put d j k)) = v (move d (j + lt d) (full k))) by (intros j; rewrite full_put; reflexivity).
    assert (SELF : put d (k d) k = k) by apply (move_same d k).
    (* the value at the lower end *)
    assert (LOW : k d = 0%nat -> let '(df, sf, zf) := side d (slice d 0 sub) (lower d) t in
        sub k * v (prev d (full k)) = df k * v (full k) + sf k * v (next d (full k)) + zf k).
    { intros Z. pose proof (condition_solved d t (lower d) (fun _ => true) k D DL) as CS. unfold side, robin_elements. unfold boundary_at, lower_holds in HL. cbv beta in CS.
      destruct (at_time (lower d) t) as [abc|] eqn:AT1; cbn [option_map].
      - assert (L : low d = false) by (destruct (lower d); [reflexivity|discriminate AT1]). rewrite L in IC.
        destruct (discretize (h d) (reshape3 lower d (fun _ => true) abc)) as [[x1 x2] e]. destruct abc as [[al be] ga]. cbv zeta in CS. rewrite QK in CS. apply CS in HL.
        unfold slice. rewrite <- Z, SELF.
        assert (P0 : move d 0 (full k) = prev d (full k)) by (unfold prev, full; rewrite Z, IC; reflexivity).
        assert (P1 : move d 1 (full k) = full k) by (apply move_id; unfold full; rewrite Z, IC; reflexivity).
        assert (P2 : move d 2 (full k) = next d (full k)) by (unfold next, full; rewrite Z, IC; reflexivity).
        rewrite P0, P1, P2 in HL. rewrite HL. ring.
      - assert (L : low d = true) by (destruct (lower d); [discriminate AT1|reflexivity]). rewrite (E1 L Z). ring. }
    assert (UPP : k d = (isz d - 1)%nat -> let '(dl, sl, zl) := side d (slice d (isz d - 1) sup) (upper d) t in
        sup k * v (next d (full k)) = dl k * v (full k) + sl k * v (prev d (full k)) + zl k).
    { intros Z. pose proof (condition_solved d t (upper d) (fun _ => true) k D DU) as CS. unfold side, robin_elements. unfold boundary_at, upper_holds in HU. cbv beta in CS.
      destruct (at_time (upper d) t) as [abc|] eqn:AT1; cbn [option_map].
      - assert (L : up d = false) by (destruct (upper d); [reflexivity|discriminate AT1]). rewrite L in IA.
        destruct (discretize (h d) (reshape3 lower d (fun _ => true) abc)) as [[x1 x2] e]. destruct abc as [[al be] ga]. cbv zeta in CS. rewrite QK in CS. apply CS in HU.
        unfold slice. rewrite <- Z, SELF.
        assert (P0 : move d (sizes d - 1) (full k) = next d (full k)) by (unfold next; f_equal; unfold full; lia).
        assert (P1 : move d (sizes d - 2) (full k) = full k) by (apply move_id; unfold full; lia).
        assert (P2 : move d (sizes d - 3) (full k) = prev d (full k)) by (unfold prev; f_equal; unfold full; lia).
        rewrite P0, P1, P2 in HU. rewrite HU. ring.
      - assert (L : up d = true) by (destruct (upper d); [discriminate AT1|reflexivity]). rewrite (E2 L Z). ring. }
    destruct (side d (slice d 0 sub) (lower d) t) as [[df sf] zf]. destruct (side d (slice d (isz d - 1) sup) (upper d) t) as [[dl sl] zl].
    match type of AT with context [apply_robin ?a ?b ?c ?e ?f ?g ?x] => set (AR := apply_robin a b c e f g x) in AT end.
    match goal with |- context [apply_robin ?a ?b ?c ?e ?f ?g ?x] => change (apply_robin a b c e f g x) with AR end.
    clearbody AR. destruct AR as [[[sup' diag'] sub'] inh]. destruct AT as (A0 & A1 & A2 & A3 & A4).
    unfold tridiag_explicit, row.
    assert (NX : (k d < isz d - 1)%nat -> v (full (put d (S (k d)) k)) = v (next d (full k))) by (intros _; rewrite FK; reflexivity).
    assert (PV : forall j, k d = S j -> v (full (put d j k)) = v (prev d (full k))).
    { intros j EJ. rewrite FK. unfold prev. do 2 f_equal. unfold full. lia. }
    destruct (k d) as [|j] eqn:KD.
    - destruct (A0 eq_refl) as (B1 & B2 & B3). specialize (LOW eq_refl). assert (LT : (1 <? isz d)%nat = true) by (apply Nat.ltb_lt; lia). rewrite LT, NX, B1, B2, B3 by lia. lra.
    - rewrite (PV j eq_refl). destruct (Nat.ltb_spec (S (S j)) (isz d)) as [LT|LT].
      + destruct (A4 ltac:(lia) ltac:(lia)) as (B1 & B2 & B3 & B4). rewrite NX, B1, B2, B3, B4 by lia. lra.
      + assert (KL : S j = (isz d - 1)%nat) by lia. destruct (A1 KL) as (B1 & B2 & B3). specialize (UPP KL). rewrite B1, B2, B3. lra.
  Qed.
  (** the matrix and the inhomogeneous term of dimension d are minus its terms in the equation *)
  Lemma params_row t d v k : (d < n)%nat -> (k d < isz d)%nat ->
    determined (fun d => h d) d (bnd (lower d) t) -> determined (fun d => h d) d (bnd (upper d) t) ->
    ends_hold t d v (full k) ->
    tridiag_explicit sizes lower upper (fst (equation_params n sizes coord_grid lower upper co t d)) (fun k => v (full k)) d k + snd (equation_params n sizes coord_grid lower upper co t d) k
    = - along n sizes (fun d => h d) olow oup (eqn t) d v (full k).
  Proof using SZ HN.
    intros D K DL DU E. destruct (bare_row t d k v D K) as (B1 & B2 & B3).
    pose proof (robin_row t d (apply_default sizes coord_grid lower upper co t d (tridiagonal_matrix coord_grid lower co t d)) v k D K DL DU E B2 B3) as RR.
    unfold equation_params. destruct (apply_robin sizes coord_grid lower upper t d (apply_default sizes coord_grid lower upper co t d (tridiagonal_matrix coord_grid lower co t d))) as [[[sup diag] sub] inh].
    rewrite B1 in RR. cbn [fst snd]. unfold along. change (if low d && _ then _ else _) with (bare t d v (full k)).
    cbn [equation_at ec]. unfold add_zeroth.
    destruct (zeroth_fn co t) as [c|]; unfold tridiag_explicit in *; [|lra]. rewrite trim_none. fold (full k).
    assert (NN : INR n <> 0) by (apply not_0_INR; lia).
    match goal with |- ?a + (diag k + ?x) * ?w + ?b + ?i = _ => assert (Q : x * w = - (c (full k) * v (full k) / INR n)) by (unfold full; field; exact NN) end.
    lra.
  Qed.
  (** ** Mixed terms *)
  Lemma pad_in pl size (t : tensor) k : (forall e, (e < n)%nat -> (pl e <= k e < pl e + size e)%nat) -> pad n pl size t k = t (fun e => (k e - pl e)%nat).
  Proof.
    intros H. unfold pad. assert (F : forallb (fun e => Nat.leb (pl e) (k e) && Nat.ltb (k e) (pl e + size e)) (seq 0 n) = true).
    { apply forallb_forall. intros e E. apply in_seq in E. specialize (H e ltac:(lia)). apply andb_true_intro. split; [apply Nat.leb_le|apply Nat.ltb_lt]; lia. }
    rewrite F. reflexivity.
  Qed.
  Lemma pad_out pl size (t : tensor) k e : (e < n)%nat -> ~ (pl e <= k e < pl e + size e)%nat -> pad n pl size t k = 0.
  Proof.
    intros E H. unfold pad. destruct (forallb _ _) eqn:F; [|reflexivity]. exfalso. rewrite forallb_forall in F. specialize (F e ltac:(apply in_seq; lia)).
    apply andb_prop in F. destruct F as [A B]. apply Nat.leb_le in A. apply Nat.ltb_lt in B. apply H. lia.
  Qed.
  Lemma mixed_pad d1 d2 (t : tensor) k : in_range k -> (d1 < n)%nat -> (d2 < n)%nat ->
    pad n (padding_lower lower [d1; d2]) (fun e => (isz e - padding_lower lower [d1; d2] e - padding_upper upper [d1; d2] e)%nat) t k
    = if inside sizes d1 (full k) && inside sizes d2 (full k) then t (fun e => (k e - padding_lower lower [d1; d2] e)%nat) else 0.
  Proof using SZ.
    intros K D1 D2.
    assert (PLU : forall e, padding_lower lower [d1; d2] e = (if low e && ((e =? d1) || (e =? d2))%nat then 1 else 0)%nat /\ padding_upper upper [d1; d2] e = (if up e && ((e =? d1) || (e =? d2))%nat then 1 else 0)%nat).
    { intros e. unfold padding_lower, padding_upper. cbn [existsb]. rewrite orb_false_r. split; reflexivity. }
    assert (IN : forall e, (e < n)%nat -> (e = d1 \/ e = d2) -> (inside sizes e (full k) = true <-> (padding_lower lower [d1; d2] e <= k e < padding_lower lower [d1; d2] e + (isz e - padding_lower lower [d1; d2] e - padding_upper upper [d1; d2] e))%nat)).
    { intros e E EE. destruct (isz_full e E) as (IA & IB & IC). pose proof (K e E) as KE. destruct (PLU e) as [P1 P2].
      assert (EB : ((e =? d1) || (e =? d2))%nat = true) by (apply orb_true_iff; rewrite !Nat.eqb_eq; exact EE). rewrite EB, andb_true_r in P1, P2.
      unfold inside, full. rewrite andb_true_iff, !Nat.ltb_lt. rewrite P1, P2. destruct (low e), (up e); rewrite IC; lia. }
    destruct (inside sizes d1 (full k)) eqn:I1; cbn [andb].
    - destruct (inside sizes d2 (full k)) eqn:I2.
      + apply pad_in. intros e E. destruct (Nat.eq_dec e d1) as [->|N1]; [apply IN; auto|]. destruct (Nat.eq_dec e d2) as [->|N2]; [apply IN; auto|].
        destruct (PLU e) as [P1 P2]. apply Nat.eqb_neq in N1, N2. rewrite N1, N2, !andb_false_r in *. rewrite P1, P2. pose proof (K e E). lia.
      + apply pad_out with (e := d2); [exact D2|]. intros C. apply IN in C; auto. congruence.
    - apply pad_out with (e := d1); [exact D1|]. intros C. apply IN in C; auto. congruence.
  Qed.
  Lemma values_pad d1 d2 s1 s2 (v : tensor) k : in_range k -> (d1 < n)%nat -> (d2 < n)%nat -> d1 <> d2 ->
    inside sizes d1 (full k) = true -> inside sizes d2 (full k) = true -> (s1 = 1%Z \/ s1 = (-1)%Z) -> (s2 = 1%Z \/ s2 = (-1)%Z) ->
    trim (fun _ => 1%nat) (shift2 d1 s1 d2 s2) (pad n (fun e => if low e then 1%nat else 0%nat) sizes v) k
    = v (move d1 (Z.to_nat (Z.of_nat (full k d1) + s1)) (move d2 (Z.to_nat (Z.of_nat (full k d2) + s2)) (full k))).
  Proof using SZ.
    intros K D1 D2 ND I1 I2 S1 S2. unfold trim. rewrite pad_in.
    - f_equal. extensionality e. unfold shift2, move, full, lower_trim. destruct (Nat.eqb_spec e d2) as [E2|N2]; destruct (Nat.eqb_spec e d1) as [E1|N1]; [exfalso; congruence| | |].
      + subst e. unfold inside, full, lower_trim in I2. apply andb_prop in I2. destruct I2 as [A B]. apply Nat.ltb_lt in A, B. destruct (low d2); lia.
      + subst e. unfold inside, full, lower_trim in I1. apply andb_prop in I1. destruct I1 as [A B]. apply Nat.ltb_lt in A, B. destruct (low d1); lia.
      + destruct (low e); lia.
    - intros e E. destruct (isz_full e E) as (IA & IB & IC). pose proof (K e E) as KE. unfold shift2. unfold inside, full, lower_trim in I1, I2. apply andb_prop in I1, I2. destruct I1 as [A1 B1], I2 as [A2 B2]. apply Nat.ltb_lt in A1, B1, A2, B2.
      destruct (Nat.eqb_spec e d2) as [E2|N2]; [subst e; destruct (low d2), (up d2); lia|]. destruct (Nat.eqb_spec e d1) as [E1|N1]; [subst e; destruct (low d1), (up d1); lia|].
      destruct (low e), (up e); lia.
  Qed.
  Lemma mixed_at t d1 d2 (v : tensor) dt k : in_range k -> (d1 < n)%nat -> (d2 < n)%nat -> d1 <> d2 ->
    match mixed_params n sizes coord_grid lower upper co t d1 d2 with None => 0 | Some m => mixed_explicit n sizes lower v m dt d1 d2 k end
    = - (dt * mixed2 sizes (fun d => h d) (eqn t) d1 d2 v (full k)).
  Proof using SZ HN.
    intros K D1 D2 ND. pose proof (HN d1 D1) as H1. pose proof (HN d2 D2) as H2. unfold mixed_params, mixed2. cbn [equation_at ea eA].
    assert (PU : forall d (p : point), Z.to_nat (Z.of_nat (p d) + 1) = S (p d)) by (intros; lia).
    assert (PD : forall d (p : point), Z.to_nat (Z.of_nat (p d) + -1) = (p d - 1)%nat) by (intros; lia).
    assert (LO : forall e, (k e - padding_lower lower [d1; d2] e + trimmed_lower lower [d1; d2] e)%nat = full k e \/ (k e < padding_lower lower [d1; d2] e)%nat) by (intros e; unfold trimmed_lower, full; lia).
    destruct (inside sizes d1 (full k) && inside sizes d2 (full k)) eqn:IN.
    - assert (IN' := IN). apply andb_prop in IN'. destruct IN' as [I1 I2].
      assert (LO' : forall e, (k e - padding_lower lower [d1; d2] e + trimmed_lower lower [d1; d2] e)%nat = full k e).
      { intros e. destruct (LO e) as [E|E]; [exact E|exfalso]. unfold padding_lower in E. cbn [existsb] in E. rewrite orb_false_r in E.
        destruct (low e) eqn:L; [|cbn in E; lia]. unfold inside, full, lower_trim in I1, I2. apply andb_prop in I1, I2. destruct I1 as [A1 _], I2 as [A2 _]. apply Nat.ltb_lt in A1, A2.
        destruct (Nat.eqb_spec e d1) as [E1|E1]; [subst e; rewrite L in A1; cbn in E; lia|]. destruct (Nat.eqb_spec e d2) as [E2|E2]; [subst e; rewrite L in A2; cbn in E; lia|]. cbn in E. lia. }
      clear LO. set (k' := fun e => (k e - padding_lower lower [d1; d2] e)%nat).
      assert (TN : forall c : tensor, trim (trimmed_lower lower [d1; d2]) no_shift c k' = c (full k)) by (intros c; rewrite trim_none; f_equal; extensionality e; apply LO').
      assert (TS : forall (c : tensor) s1 s2, trim (trimmed_lower lower [d1; d2]) (shift2 d1 s1 d2 s2) c k'
          = c (move d1 (Z.to_nat (Z.of_nat (full k d1) + s1)) (move d2 (Z.to_nat (Z.of_nat (full k d2) + s2)) (full k)))).
      { intros c s1 s2. unfold trim. f_equal. extensionality e. unfold k'. rewrite LO'. unfold shift2, move. destruct (Nat.eqb_spec e d2) as [E2|E2]; destruct (Nat.eqb_spec e d1) as [E1|E1]; [exfalso; congruence|subst e; reflexivity|subst e; reflexivity|lia]. }
      assert (NN : forall a b, move d1 (Z.to_nat (Z.of_nat (full k d1) + a)) (move d2 b (full k)) = move d1 (Z.to_nat (Z.of_nat (move d2 b (full k) d1) + a)) (move d2 b (full k))) by (intros a b; rewrite move_other by exact ND; reflexivity).
      unfold mixed_explicit.
      destruct (second_fn co t d1 d2) as [a|], (inner_second_fn co t d1 d2) as [A|]; unfold term; try ring;
        rewrite !(mixed_pad d1 d2) by assumption; rewrite IN; fold k'; unfold times_coeff; rewrite ?TN, ?TS;
        rewrite !values_pad by (try assumption; auto); unfold diff_mixed, times, coef, next, prev; rewrite !NN, !PU, !PD; field; split; assumption.
    - rewrite Rmult_0_r, Ropp_0. unfold mixed_explicit.
      destruct (second_fn co t d1 d2) as [a|], (inner_second_fn co t d1 d2) as [A|]; try reflexivity;
        rewrite !(mixed_pad d1 d2) by assumption; rewrite IN; ring.
  Qed.
  (** ** Restoring the boundaries *)
  Hypothesis NB : forall d, (n <= d)%nat -> lower d = None.
  Definition all_determined (t : R) : Prop := forall d, (d < n)%nat -> determined (fun d => h d) d (bnd (lower d) t) /\ determined (fun d => h d) d (bnd (upper d) t).
  Definition convd (d : nat) (p : point) : index := fun e => if Nat.ltb e d then p e else (p e - lt e)%nat.
  Lemma convd_0 p : convd 0 p = conv p.
  Proof. reflexivity. Qed.
  Lemma convd_n p : convd n p = p.
  Proof using NB. extensionality e. unfold convd. destruct (Nat.ltb_spec e n) as [E|E]; [reflexivity|]. unfold lower_trim. rewrite NB by exact E. cbn. lia. Qed.
  Lemma convd_S d p : convd (S d) p d = p d.
  Proof. unfold convd. destruct (Nat.ltb_spec d (S d)); [reflexivity|lia]. Qed.
  Lemma convd_step d p : put d (p d - lt d) (convd (S d) p) = convd d p.
  Proof.
    extensionality e. unfold put, convd. destruct (Nat.eqb_spec e d) as [E|E]; [subst e; rewrite Nat.ltb_irrefl; reflexivity|].
    destruct (Nat.ltb_spec e (S d)), (Nat.ltb_spec e d); try reflexivity; lia.
  Qed.
  Lemma convd_move d v p : convd (S d) (move d v p) = put d v (convd (S d) p).
  Proof.
    extensionality e. unfold put, convd, move. destruct (Nat.eqb_spec e d) as [E|E]; [subst e|reflexivity]. destruct (Nat.ltb_spec d (S d)); [reflexivity|lia].
  Qed.
  Lemma put_put d a b (k : index) : put d a (put d b k) = put d a k.
  Proof. apply move_move. Qed.
  Lemma put_at d a (k : index) : put d a k d = a.
  Proof. apply move_at. Qed.
  Lemma append_at t d g p : (d < n)%nat -> unknown_at sizes olow oup d (p d) ->
    append_boundary sizes coord_grid lower upper t d g (convd (S d) p) = g (convd d p).
  Proof using SZ.
    intros D U. destruct (unknown_coord d (p d) D U) as [A B]. destruct (isz_full d D) as (IA & IB & IC). pose proof (convd_S d p) as CS.
    assert (UP : forall f k j, (j < isz d)%nat -> k d = j -> match at_time (upper d) t with None => g | Some abc => append_last d (isz d) g (f abc) end k = g k).
    { intros f k j J KD. destruct (at_time (upper d) t); [|reflexivity]. unfold append_last. rewrite KD. destruct (Nat.ltb_spec j (isz d)); [reflexivity|lia]. }
    unfold append_boundary. destruct (at_time (lower d) t) as [abc|] eqn:AT.
    - assert (L : low d = false) by (destruct (lower d); [reflexivity|discriminate AT]). rewrite L in IC.
      unfold append_first. rewrite CS. destruct (p d) as [|j] eqn:PD; [lia|].
      rewrite (UP _ _ j) by (try apply put_at; lia). f_equal. rewrite <- (convd_step d p), PD. f_equal. lia.
    - assert (L : low d = true) by (destruct (lower d); [discriminate AT|reflexivity]). rewrite L in IC.
      rewrite (UP _ _ (p d)) by (try exact CS; lia). f_equal. rewrite <- (convd_step d p), IC, Nat.sub_0_r, <- CS. symmetry. apply (move_same d (convd (S d) p)).
  Qed.
  Lemma append_ends t d g p : (d < n)%nat -> all_determined t -> (forall e, (d < e < n)%nat -> unknown_at sizes olow oup e (p e)) ->
    ends_hold t d (fun p => append_boundary sizes coord_grid lower upper t d g (convd (S d) p)) p.
  Proof using SZ HN NB.
    intros D DET UN. destruct (DET d D) as [DL DU]. destruct (isz_full d D) as (IA & IB & IC). pose proof (SZ d D) as SZD.
    assert (QK : forall v, put d 0 (fun a => if Nat.ltb d a then (put d v (convd (S d) p) a + lt a)%nat else put d v (convd (S d) p) a) = move d 0 p).
    { intros v. extensionality e. unfold put, move. destruct (Nat.eqb_spec e d) as [E|E]; [reflexivity|]. unfold convd. destruct (Nat.ltb_spec d e) as [L|L], (Nat.ltb_spec e (S d)) as [M|M]; try lia.
      destruct (Nat.lt_ge_cases e n) as [EN|EN]; [destruct (unknown_coord e (p e) EN (UN e ltac:(lia))); lia|]. unfold lower_trim. rewrite NB by exact EN. cbn. lia. }
    assert (WAT : forall j, unknown_at sizes olow oup d j -> append_boundary sizes coord_grid lower upper t d g (convd (S d) (move d j p)) = g (put d (j - lt d) (convd (S d) p))).
    { intros j U. rewrite append_at; [|exact D|rewrite move_at; exact U]. rewrite <- convd_step, move_at, convd_move, put_put. reflexivity. }
    split.
    - unfold lower_holds, boundary_at. destruct (at_time (lower d) t) as [abc|] eqn:AT; [|exact Logic.I]. destruct abc as [[al be] ga].
      assert (L : low d = false) by (destruct (lower d); [reflexivity|discriminate AT]). rewrite L in IC.
      assert (U1 : forall j, (1 <= j <= 2)%nat -> unknown_at sizes olow oup d j) by (intros j J; unfold unknown_at; repeat split; intros; lia).
      rewrite (WAT 1%nat), (WAT 2%nat) by (apply U1; lia). rewrite IC.
      unfold append_boundary at 1 2. rewrite AT. unfold append_first at 1 2. rewrite convd_move, put_at.
      pose proof (condition_solved d t (lower d) (fun a => Nat.ltb d a) (put d 0 (convd (S d) p)) D DL) as CS. rewrite AT in CS.
      destruct (discretize (h d) (reshape3 lower d (fun a => Nat.ltb d a) (al, be, ga))) as [[x1 x2] e]. cbv zeta in CS. rewrite QK in CS.
      apply CS. unfold slice. rewrite !put_put. reflexivity.
    - unfold upper_holds, boundary_at. destruct (at_time (upper d) t) as [abc|] eqn:AT; [|exact Logic.I]. destruct abc as [[al be] ga].
      assert (L : up d = false) by (destruct (upper d); [reflexivity|discriminate AT]). rewrite L in IA.
      assert (U1 : forall j, (sizes d - 3 <= j <= sizes d - 2)%nat -> unknown_at sizes olow oup d j) by (intros j J; unfold unknown_at; repeat split; intros; lia).
      rewrite (WAT (sizes d - 2)%nat), (WAT (sizes d - 3)%nat) by (apply U1; lia).
      assert (TOP : append_boundary sizes coord_grid lower upper t d g (convd (S d) (move d (sizes d - 1) p))
        = let '(x1, x2, e) := discretize (h d) (reshape3 lower d (fun a => Nat.ltb d a) (al, be, ga)) in
          x1 (put d (isz d) (convd (S d) p)) * g (put d (isz d - 1) (convd (S d) p)) + x2 (put d (isz d) (convd (S d) p)) * g (put d (isz d - 2) (convd (S d) p)) + e (put d (isz d) (convd (S d) p))).
      { unfold append_boundary. rewrite AT. destruct (discretize (h d) (reshape3 lower d (fun a => Nat.ltb d a) (al, be, ga))) as [[x1 x2] e].
        rewrite convd_move. destruct (at_time (lower d) t) as [abc|] eqn:ATL.
        - assert (LL : low d = false) by (destruct (lower d); [reflexivity|discriminate ATL]). rewrite LL in IC.
          unfold append_first. rewrite put_at. destruct (sizes d - 1)%nat as [|j] eqn:SJ; [lia|]. assert (J : j = isz d) by lia. subst j.
          unfold append_last. rewrite put_at, Nat.ltb_irrefl. unfold slice. rewrite !put_put. reflexivity.
        - assert (LL : low d = true) by (destruct (lower d); [discriminate ATL|reflexivity]). rewrite LL in IC.
          unfold append_last. assert (J : (sizes d - 1)%nat = isz d) by lia. rewrite J, put_at, Nat.ltb_irrefl. unfold slice. rewrite !put_put. reflexivity. }
      rewrite TOP.
      pose proof (condition_solved d t (upper d) (fun a => Nat.ltb d a) (put d (isz d) (convd (S d) p)) D DU) as CS. rewrite AT in CS.
      destruct (discretize (h d) (reshape3 lower d (fun a => Nat.ltb d a) (al, be, ga))) as [[x1 x2] e]. cbv zeta in CS. rewrite QK in CS.
      apply CS. replace (sizes d - 2 - lt d)%nat with (isz d - 1)%nat by lia. replace (sizes d - 3 - lt d)%nat with (isz d - 2)%nat by lia. reflexivity.
  Qed.
  Lemma ends_ext t d v w p : (forall j, (j < sizes d)%nat -> v (move d j p) = w (move d j p)) -> (4 <= sizes d)%nat -> ends_hold t d v p -> ends_hold t d w p.
  Proof.
    intros E S4 [HL HU]. split.
    - unfold lower_holds in *. destruct (bnd (lower d) t) as [[[al be] ga]|]; [|exact Logic.I]. rewrite <- !E by lia. exact HL.
    - unfold upper_holds in *. destruct (bnd (upper d) t) as [[[al be] ga]|]; [|exact Logic.I]. rewrite <- !E by lia. exact HU.
  Qed.
  Definition stage (t : R) (d : nat) (inner : tensor) : tensor := fold_left (fun g d => append_boundary sizes coord_grid lower upper t d g) (seq 0 d) inner.
  Lemma stage_S t d inner : stage t (S d) inner = append_boundary sizes coord_grid lower upper t d (stage t d inner).
  Proof. unfold stage. rewrite seq_S, fold_left_app. reflexivity. Qed.
  Lemma stage_ok t inner d : (d <= n)%nat -> all_determined t ->
    (forall p, (forall e, (e < d)%nat -> unknown_at sizes olow oup e (p e)) -> stage t d inner (convd d p) = inner (conv p)) /\
    (forall d', (d' < d)%nat -> forall p, (forall e, (d' < e < n)%nat -> unknown_at sizes olow oup e (p e)) -> ends_hold t d' (fun p => stage t d inner (convd d p)) p).
  Proof using SZ HN NB.
    intros D DET. induction d as [|d IH].
    - split; [intros p _; reflexivity|intros d' C; lia].
    - destruct (IH ltac:(lia)) as [I1 I2]. rewrite stage_S. split.
      + intros p U. rewrite append_at; [|lia|apply U; lia]. apply I1. intros e E. apply U. lia.
      + intros d' D' p U. destruct (Nat.eq_dec d' d) as [->|ND].
        * apply append_ends; [lia|exact DET|exact U].
        * apply ends_ext with (v := fun p => stage t d inner (convd d p)); [|apply SZ; lia|apply I2; [lia|exact U]].
          intros j J. rewrite append_at; [reflexivity|lia|]. rewrite move_other by lia. apply U. lia.
  Qed.
  Lemma conv_full k : conv (full k) = k.
  Proof. extensionality e. unfold conv, full. lia. Qed.
  Lemma full_conv p : unknown n sizes olow oup p -> full (conv p) = p.
  Proof using SZ NB.
    intros U. extensionality e. unfold conv, full. destruct (Nat.lt_ge_cases e n) as [E|E]; [destruct (unknown_coord e (p e) E (U e E)); lia|].
    unfold lower_trim. rewrite NB by exact E. cbn. lia.
  Qed.
  Lemma conv_range p : unknown n sizes olow oup p -> in_range (conv p).
  Proof using SZ. intros U e E. apply (unknown_coord e (p e) E (U e E)). Qed.
  Lemma boundaries_ok t inner : all_determined t ->
    (forall p, unknown n sizes olow oup p -> append_boundaries n sizes coord_grid lower upper t inner p = inner (conv p)) /\
    boundaries_hold n sizes (fun d => h d) olow oup (fun d => bnd (lower d) t) (fun d => bnd (upper d) t) (append_boundaries n sizes coord_grid lower upper t inner).
  Proof using SZ HN NB.
    intros DET. destruct (stage_ok t inner n (Nat.le_refl n) DET) as [A B].
    assert (E : (fun p => stage t n inner (convd n p)) = append_boundaries n sizes coord_grid lower upper t inner) by (extensionality p; rewrite convd_n; reflexivity).
    split.
    - intros p U. rewrite <- (A p); [rewrite convd_n; reflexivity|exact U].
    - intros d D p _ U. rewrite <- E. apply (B d D p U).
  Qed.

  (** a function with given values at the unknown points that meets the conditions of dimension d *)
  Definition ext (t : R) (d : nat) (y : tensor) (p : point) : R :=
    let top := match at_time (upper d) t with
               | Some abc => if Nat.eqb (p d) (sizes d - 1) then let '(x1, x2, e) := discretize (h d) abc in x1 (move d 0 p) * y (conv (move d (sizes d - 2) p)) + x2 (move d 0 p) * y (conv (move d (sizes d - 3) p)) + e (move d 0 p) else y (conv p)
               | None => y (conv p) end in
    match at_time (lower d) t with
    | Some abc => if Nat.eqb (p d) 0 then let '(x1, x2, e) := discretize (h d) abc in x1 (move d 0 p) * y (conv (move d 1 p)) + x2 (move d 0 p) * y (conv (move d 2 p)) + e (move d 0 p) else top
    | None => top end.
  Lemma ext_in t d y p : (d < n)%nat -> unknown_at sizes olow oup d (p d) -> ext t d y p = y (conv p).
  Proof using SZ.
    intros D (A & B & C). unfold ext.
    assert (TOP : match at_time (upper d) t with
               | Some abc => if Nat.eqb (p d) (sizes d - 1) then let '(x1, x2, e) := discretize (h d) abc in x1 (move d 0 p) * y (conv (move d (sizes d - 2) p)) + x2 (move d 0 p) * y (conv (move d (sizes d - 3) p)) + e (move d 0 p) else y (conv p)
               | None => y (conv p) end = y (conv p)).
    { destruct (Nat.eqb_spec (p d) (sizes d - 1)) as [E|E]; [|destruct (at_time (upper d) t); reflexivity]. specialize (C E). destruct (upper d); [discriminate C|reflexivity]. }
    rewrite TOP. destruct (Nat.eqb_spec (p d) 0) as [E|E]; [|destruct (at_time (lower d) t); reflexivity]. specialize (B E). destruct (lower d); [discriminate B|reflexivity].
  Qed.
  Lemma ext_ends t d y p : (d < n)%nat -> all_determined t -> ends_hold t d (ext t d y) p.
  Proof using SZ HN.
    intros D DET. destruct (DET d D) as [DL DU]. pose proof (SZ d D) as SZD. split.
    - unfold lower_holds, boundary_at in *. destruct (at_time (lower d) t) as [abc|] eqn:AT; [|exact Logic.I]. destruct abc as [[al be] ga].
      assert (L : low d = false) by (destruct (lower d); [reflexivity|discriminate AT]).
      assert (U1 : forall j, (1 <= j <= 2)%nat -> ext t d y (move d j p) = y (conv (move d j p))) by (intros j J; apply ext_in; [exact D|]; rewrite move_at; unfold unknown_at; repeat split; intros; lia).
      rewrite (U1 1%nat), (U1 2%nat) by lia. cbn [determined] in DL.
      pose proof (discretize_spec (h d) al be ga (move d 0 p) (HN d D) (DL _)) as SP. unfold ext at 1 2. rewrite AT, move_at. cbn [Nat.eqb].
      destruct (discretize (h d) (al, be, ga)) as [[x1 x2] e]. apply SP. rewrite !move_move. reflexivity.
    - unfold upper_holds, boundary_at in *. destruct (at_time (upper d) t) as [abc|] eqn:AT; [|exact Logic.I]. destruct abc as [[al be] ga].
      assert (L : up d = false) by (destruct (upper d); [reflexivity|discriminate AT]).
      assert (U1 : forall j, (sizes d - 3 <= j <= sizes d - 2)%nat -> ext t d y (move d j p) = y (conv (move d j p))) by (intros j J; apply ext_in; [exact D|]; rewrite move_at; unfold unknown_at; repeat split; intros; lia).
      rewrite (U1 (sizes d - 2)%nat), (U1 (sizes d - 3)%nat) by lia. cbn [determined] in DU.
      pose proof (discretize_spec (h d) al be ga (move d 0 p) (HN d D) (DU _)) as SP.
      assert (TOP : ext t d y (move d (sizes d - 1) p) = let '(x1, x2, e) := discretize (h d) (al, be, ga) in x1 (move d 0 p) * y (conv (move d (sizes d - 2) p)) + x2 (move d 0 p) * y (conv (move d (sizes d - 3) p)) + e (move d 0 p)).
      { unfold ext. rewrite AT, move_at, Nat.eqb_refl, !move_move. assert (NZ : (sizes d - 1 =? 0)%nat = false) by (apply Nat.eqb_neq; lia). rewrite NZ. destruct (at_time (lower d) t); reflexivity. }
      rewrite TOP. destruct (discretize (h d) (al, be, ga)) as [[x1 x2] e]. apply SP. reflexivity.
  Qed.

  (** ** Lines *)
  Lemma line_nth d (t : tensor) k i : (i < isz d)%nat -> nth i (line sizes lower upper d t k) 0 = t (put d i k).
  Proof.
    intros I. unfold line. set (F := fun j => t (put d j k)). rewrite (nth_indep (map F (seq 0 (isz d))) 0 (F 0%nat)) by (rewrite map_length, seq_length; exact I).
    rewrite map_nth, seq_nth by exact I. reflexivity.
  Qed.
  Lemma line_length d t k : length (line sizes lower upper d t k) = isz d.
  Proof. unfold line. rewrite map_length, seq_length. reflexivity. Qed.
  Lemma line_put d t k j : line sizes lower upper d t (put d j k) = line sizes lower upper d t k.
  Proof. unfold line. apply map_ext. intros i. rewrite put_put. reflexivity. Qed.
  Lemma correction_ok theta dt m rhs d k : (k d < isz d)%nat -> correction_line sizes lower upper theta dt m rhs d k <> None ->
    correction sizes lower upper theta dt m rhs d k = rhs k + theta * dt * tridiag_explicit sizes lower upper m (correction sizes lower upper theta dt m rhs d) d k.
  Proof.
    intros K OK. set (y := correction sizes lower upper theta dt m rhs d).
    destruct (correction_line sizes lower upper theta dt m rhs d k) as [xs|] eqn:XS; [clear OK|contradiction].
    assert (YJ : forall j, y (put d j k) = nth j xs 0).
    { intros j. unfold y, correction. assert (E : correction_line sizes lower upper theta dt m rhs d (put d j k) = Some xs) by (rewrite <- XS; unfold correction_line; destruct m as [[a b] c]; rewrite !line_put; reflexivity).
      rewrite E, put_at. reflexivity. }
    assert (PK : put d (k d) k = k) by apply (move_same d k).
    assert (YK : y k = nth (k d) xs 0) by (rewrite <- (YJ (k d)), PK; reflexivity).
    unfold correction_line in XS. destruct m as [[sup diag] sub]. apply thomas_solves in XS. destruct XS as (L1 & _ & _ & _ & EQ).
    rewrite line_length in *. specialize (EQ (k d) K). unfold tri_prev in EQ. rewrite !line_nth in EQ by exact K. rewrite PK in EQ.
    unfold tridiag_explicit. rewrite YK. destruct (k d) as [|j] eqn:KD.
    - destruct (Nat.ltb_spec 1 (isz d)) as [LT|LT].
      + rewrite YJ. lra.
      + assert (O : nth 1 xs 0 = 0) by (apply nth_overflow; lia). rewrite O in EQ. lra.
    - rewrite (YJ j). destruct (Nat.ltb_spec (S (S j)) (isz d)) as [LT|LT].
      + rewrite YJ. lra.
      + assert (O : nth (S (S j)) xs 0 = 0) by (apply nth_overflow; lia). rewrite O in EQ. lra.
  Qed.
  Lemma tridiag_ext m (v w : tensor) d k : (d < n)%nat -> in_range k -> (forall k, in_range k -> v k = w k) ->
    tridiag_explicit sizes lower upper m v d k = tridiag_explicit sizes lower upper m w d k.
  Proof.
    intros D K E. destruct m as [[sup diag] sub]. unfold tridiag_explicit.
    assert (P : forall j, (j < isz d)%nat -> v (put d j k) = w (put d j k)).
    { intros j J. apply E. intros e EN. unfold put. destruct (Nat.eqb_spec e d) as [->|]; [exact J|apply K; exact EN]. }
    rewrite (E k K). f_equal; [f_equal|].
    - pose proof (K d D). destruct (k d) as [|j]; [reflexivity|]. rewrite P by lia. reflexivity.
    - destruct (Nat.ltb_spec (S (k d)) (isz d)); [|reflexivity]. rewrite P by assumption. reflexivity.
  Qed.
  (** ** One step *)
  Notation params t i := (equation_params n sizes coord_grid lower upper co t i).
  Notation bounds t u := (append_boundaries n sizes coord_grid lower upper t u).
  Notation alg := (along n sizes (fun d => h d) olow oup).
  Lemma pairs_sum (F : nat -> nat -> R) : fold_right Rplus 0 (map (fun p => F (fst p) (snd p)) (pairs n)) = sum_to n (fun d => sum_to (n - (d + 1)) (fun j => F d (d + 1 + j)%nat)).
  Proof.
    unfold pairs.
    assert (G : forall l, fold_right Rplus 0 (map (fun p : nat * nat => F (fst p) (snd p)) (flat_map (fun i => map (fun j => (i, j)) (seq (i + 1) (n - (i + 1)))) l))
      = fold_right Rplus 0 (map (fun d => sum_to (n - (d + 1)) (fun j => F d (d + 1 + j)%nat)) l)).
    { induction l as [|i l IH]; [reflexivity|]. cbn [flat_map map fold_right]. rewrite map_app, sum_app, IH. f_equal.
      rewrite map_map. cbn [fst snd]. rewrite (map_seq_shift (fun j => F i j)). apply sum_seq. }
    rewrite G, sum_seq. destruct n as [|m]; [reflexivity|]. replace (S m - 1)%nat with m by lia. cbn [sum_to].
    replace (S m - (m + 1))%nat with 0%nat by lia. cbn [sum_to]. lra.
  Qed.
  Lemma sum_to_ext' m f g : (forall i, (i < m)%nat -> f i = g i) -> sum_to m f = sum_to m g.
  Proof. induction m as [|m IH]; intros E; [reflexivity|]. cbn [sum_to]. rewrite IH, E by (intros; try apply E; lia). reflexivity. Qed.
  Lemma sum_to_scal m f c : sum_to m (fun i => c * f i) = c * sum_to m f.
  Proof. induction m as [|m IH]; cbn [sum_to]; [ring|rewrite IH; ring]. Qed.
  Lemma sum_to_add m f g : sum_to m (fun i => f i + g i) = sum_to m f + sum_to m g.
  Proof. induction m as [|m IH]; cbn [sum_to]; [ring|rewrite IH; ring]. Qed.
  Lemma full_others k d : in_range k -> (d < n)%nat -> forall e, (d < e < n)%nat -> unknown_at sizes olow oup e (full k e).
  Proof using SZ. intros K D e E. apply (full_unknown k K). lia. Qed.
  Lemma params_bounds t values i k : all_determined t -> (i < n)%nat -> in_range k ->
    tridiag_explicit sizes lower upper (fst (params t i)) values i k + snd (params t i) k = - alg (eqn t) i (bounds t values) (full k).
  Proof using SZ HN NB.
    intros DET I K. destruct (boundaries_ok t values DET) as [AG BH]. destruct (DET i I) as [DL DU].
    rewrite (tridiag_ext _ values (fun k => bounds t values (full k)) i k I K) by (intros k' K'; rewrite AG by (apply full_unknown; exact K'); rewrite conv_full; reflexivity).
    apply params_row; [exact I|apply K; exact I|exact DL|exact DU|]. apply BH; [exact I| |].
    - intros e E. apply (full_unknown k K). lia.
    - intros e E. apply (full_unknown k K). lia.
  Qed.
  Lemma explicit_ok t1 t2 values k : all_determined t1 -> in_range k ->
    explicit_substep n sizes coord_grid lower upper co values t1 t2 k
    = values k - (t2 - t1) * (sum_to n (fun d => alg (eqn t1) d (bounds t1 values) (full k)) + mixed n sizes (fun d => h d) (eqn t1) (bounds t1 values) (full k)).
  Proof using SZ HN NB.
    intros DET K. unfold explicit_substep. rewrite fold_add, sum_seq, fold_add, sum_seq.
    assert (G : forall l g, fold_left (fun g p => match mixed_params n sizes coord_grid lower upper co t1 (fst p) (snd p) with
                                   | None => g
                                   | Some m => fun k => g k + mixed_explicit n sizes lower (bounds t1 values) m (t2 - t1) (fst p) (snd p) k
                                   end) l g k
      = g k + fold_right Rplus 0 (map (fun p => match mixed_params n sizes coord_grid lower upper co t1 (fst p) (snd p) with None => 0 | Some m => mixed_explicit n sizes lower (bounds t1 values) m (t2 - t1) (fst p) (snd p) k end) l)).
    { induction l as [|p l IH]; intros g; [cbn; lra|]. cbn [fold_left map fold_right]. rewrite IH. destruct (mixed_params _ _ _ _ _ _ _ _ _); lra. }
    rewrite G.
    rewrite (pairs_sum (fun d1 d2 => match mixed_params n sizes coord_grid lower upper co t1 d1 d2 with None => 0 | Some m => mixed_explicit n sizes lower (bounds t1 values) m (t2 - t1) d1 d2 k end)).
    rewrite (sum_to_ext' n _ (fun d => (- (t2 - t1)) * sum_to (n - (d + 1)) (fun j => mixed2 sizes (fun d => h d) (eqn t1) d (d + 1 + j) (bounds t1 values) (full k)))).
    2: { intros d D. rewrite <- sum_to_scal. apply sum_to_ext'. intros j J. rewrite mixed_at; [ring|exact K|exact D|lia|lia]. }
    rewrite sum_to_scal. fold (mixed n sizes (fun d => h d) (eqn t1) (bounds t1 values) (full k)).
    rewrite Rplus_assoc, <- sum_to_add.
    rewrite (sum_to_ext' n _ (fun d => (- (t2 - t1)) * alg (eqn t1) d (bounds t1 values) (full k))).
    2: { intros d D. rewrite <- Rmult_plus_distr_r, params_bounds by assumption. ring. }
    rewrite sum_to_scal. ring.
  Qed.
  (** the inner grid after the corrections of the first i dimensions *)
  Definition corrected (theta t1 t2 : R) (values : tensor) (i : nat) : tensor :=
    fold_left (correction_substep n sizes coord_grid lower upper co theta t1 t2 values) (seq 0 i) (explicit_substep n sizes coord_grid lower upper co values t1 t2).
  Lemma corrected_S theta t1 t2 values i : corrected theta t1 t2 values (S i)
    = correction sizes lower upper theta (t2 - t1) (fst (params t2 i)) (correction_rhs n sizes coord_grid lower upper co theta t1 t2 values (corrected theta t1 t2 values i) i) i.
  Proof. unfold corrected. rewrite seq_S, fold_left_app. reflexivity. Qed.
  Definition solvable_lines (theta t1 t2 : R) : Prop := forall i k rhs, (i < n)%nat -> in_range k ->
    correction_line sizes lower upper theta (t2 - t1) (fst (params t2 i)) rhs i k <> None.
  Lemma corrected_eq theta t1 t2 values i k : all_determined t1 -> all_determined t2 -> solvable_lines theta t1 t2 -> (i < n)%nat -> in_range k ->
    corrected theta t1 t2 values (S i) k = corrected theta t1 t2 values i k
      - theta * (t2 - t1) * (alg (eqn t2) i (ext t2 i (corrected theta t1 t2 values (S i))) (full k) - alg (eqn t1) i (bounds t1 values) (full k)).
  Proof using SZ HN NB.
    intros D1 D2 SOL I K.
    pose proof (correction_ok theta (t2 - t1) (fst (params t2 i)) (correction_rhs n sizes coord_grid lower upper co theta t1 t2 values (corrected theta t1 t2 values i) i) i k (K i I) (SOL i k _ I K)) as CO.
    rewrite <- corrected_S in CO. set (y := corrected theta t1 t2 values (S i)) in *. rewrite CO. unfold correction_rhs.
    pose proof (params_bounds t1 values i k D1 I K) as P1. destruct (D2 i I) as [DL DU].
    assert (YE : forall k', in_range k' -> y k' = ext t2 i y (full k')) by (intros k' K'; rewrite ext_in; [rewrite conv_full; reflexivity|exact I|apply (full_unknown k' K'); exact I]).
    pose proof (params_row t2 i (ext t2 i y) k I (K i I) DL DU (ext_ends t2 i y (full k) I D2)) as P2.
    rewrite (tridiag_ext _ y (fun k => ext t2 i y (full k)) i k I K YE).
    replace (alg (eqn t2) i (ext t2 i y) (full k)) with (- (tridiag_explicit sizes lower upper (fst (params t2 i)) (fun k => ext t2 i y (full k)) i k + snd (params t2 i) k)) by (rewrite P2; ring).
    replace (alg (eqn t1) i (bounds t1 values) (full k)) with (- (tridiag_explicit sizes lower upper (fst (params t1 i)) values i k + snd (params t1 i) k)) by (rewrite P1; ring).
    ring.
  Qed.
  Lemma along_ext e d (v w : point -> R) p : (d < n)%nat -> unknown n sizes olow oup p ->
    (forall j, (j < sizes d)%nat -> v (move d j p) = w (move d j p)) -> alg e d v p = alg e d w p.
  Proof using SZ.
    intros D U E. destruct (U d D) as (A & B & C). pose proof (SZ d D) as SZD.
    assert (EP : v p = w p) by (rewrite <- (move_same d p); apply E; exact A).
    assert (EN : (p d <> sizes d - 1)%nat -> v (next d p) = w (next d p)) by (intros N; apply E; lia).
    assert (EV : (p d <> 0)%nat -> v (prev d p) = w (prev d p)) by (intros N; apply E; lia).
    unfold along. rewrite EP. f_equal. unfold times, diff_forward, diff_backward, diff2, diff1.
    destruct (Nat.eqb_spec (p d) 0) as [Z|Z].
    - rewrite (B Z). cbn [andb]. rewrite EP, EN by lia. reflexivity.
    - rewrite andb_false_r. destruct (Nat.eqb_spec (p d) (sizes d - 1)) as [Z2|Z2].
      + rewrite (C Z2). cbn [andb]. rewrite EP, EV by lia. reflexivity.
      + rewrite andb_false_r. rewrite EP, EN, EV by assumption. reflexivity.
  Qed.
  Definition on_grid (p : point) : Prop := forall e, (e < n)%nat -> (p e < sizes e)%nat.
  Lemma mixed_ext e (v w : point -> R) p : on_grid p -> (forall q, on_grid q -> v q = w q) -> mixed n sizes (fun d => h d) e v p = mixed n sizes (fun d => h d) e w p.
  Proof.
    intros G E. unfold mixed. apply sum_to_ext'. intros d D. apply sum_to_ext'. intros j J. unfold mixed2.
    destruct (inside sizes d p) eqn:I1; [|reflexivity]. destruct (inside sizes (d + 1 + j) p) eqn:I2; [|reflexivity]. cbn [andb].
    unfold inside in I1, I2. apply andb_prop in I1, I2. destruct I1 as [A1 B1], I2 as [A2 B2]. apply Nat.ltb_lt in A1, B1, A2, B2.
    assert (Q : forall a b, (a < sizes d)%nat -> (b < sizes (d + 1 + j))%nat -> v (move d a (move (d + 1 + j) b p)) = w (move d a (move (d + 1 + j) b p))).
    { intros a b HA HB. apply E. intros x X. unfold move. destruct (Nat.eqb_spec x d) as [->|]; [exact HA|]. destruct (Nat.eqb_spec x (d + 1 + j)) as [->|]; [exact HB|apply G; exact X]. }
    unfold diff_mixed, times, next, prev. rewrite !move_other by lia. rewrite !Q by lia. reflexivity.
  Qed.
  (** boundary conditions that determine the boundary have one solution *)
  Lemma ends_unique t d v w p : (d < n)%nat -> all_determined t -> (p d < sizes d)%nat -> ends_hold t d v p -> ends_hold t d w p ->
    (forall j, unknown_at sizes olow oup d j -> v (move d j p) = w (move d j p)) -> v p = w p.
  Proof using SZ HN.
    intros D DET G [VL VU] [WL WU] E. destruct (DET d D) as [DL DU]. pose proof (SZ d D) as SZD.
    destruct (Nat.eq_dec (p d) 0) as [Z|Z].
    - destruct (low d) eqn:L.
      + rewrite <- (move_same d p). apply E. rewrite Z. unfold unknown_at. repeat split; intros; [lia|exact L|lia].
      + unfold lower_holds, boundary_at in *. destruct (at_time (lower d) t) as [[[al be] ga]|] eqn:AT; [|destruct (lower d); discriminate]. cbn [determined] in DL.
        pose proof (discretize_spec (h d) al be ga (move d 0 p) (HN d D) (DL _)) as SP. destruct (discretize (h d) (al, be, ga)) as [[x1 x2] e].
        apply SP in VL. apply SP in WL. rewrite (move_id d 0 p Z) in VL, WL. rewrite VL, WL, !E by (unfold unknown_at; repeat split; intros; lia). reflexivity.
    - destruct (Nat.eq_dec (p d) (sizes d - 1)) as [Z2|Z2].
      + destruct (up d) eqn:L.
        * rewrite <- (move_same d p). apply E. rewrite Z2. unfold unknown_at. repeat split; intros; [lia|lia|exact L].
        * unfold upper_holds, boundary_at in *. destruct (at_time (upper d) t) as [[[al be] ga]|] eqn:AT; [|destruct (upper d); discriminate]. cbn [determined] in DU.
          pose proof (discretize_spec (h d) al be ga (move d 0 p) (HN d D) (DU _)) as SP. destruct (discretize (h d) (al, be, ga)) as [[x1 x2] e].
          apply SP in VU. apply SP in WU. rewrite (move_id d (sizes d - 1) p Z2) in VU, WU. rewrite VU, WU, !E by (unfold unknown_at; repeat split; intros; lia). reflexivity.
      + rewrite <- (move_same d p). apply E. unfold unknown_at. repeat split; intros; lia.
  Qed.
  Lemma stage_unique t (v : point -> R) inner d : (d <= n)%nat -> all_determined t ->
    boundaries_hold n sizes (fun d => h d) olow oup (fun d => bnd (lower d) t) (fun d => bnd (upper d) t) v ->
    (forall p, unknown n sizes olow oup p -> inner (conv p) = v p) ->
    forall p, (forall e, (e < d)%nat -> (p e < sizes e)%nat) -> (forall e, (d <= e < n)%nat -> unknown_at sizes olow oup e (p e)) -> stage t d inner (convd d p) = v p.
  Proof using SZ HN NB.
    intros D DET BH EQ. induction d as [|d IH]; intros p G U.
    - apply EQ. intros e E. apply U. lia.
    - pose proof (stage_ok t inner (S d) D DET) as [_ SO].
      apply (ends_unique t d (fun p => stage t (S d) inner (convd (S d) p)) v p); [lia|exact DET|apply G; lia|apply SO; [lia|intros e E; apply U; lia]|apply BH; [lia|intros e E; apply G; lia|intros e E; apply U; lia]|].
      intros j J. rewrite stage_S, append_at; [|lia|rewrite move_at; exact J]. apply IH; [lia| |].
      + intros e E. rewrite move_other by lia. apply G. lia.
      + intros e E. destruct (Nat.eq_dec e d) as [->|NE]; [rewrite move_at; exact J|]. rewrite move_other by exact NE. apply U. lia.
  Qed.
  Lemma bounds_unique t (v : point -> R) inner : all_determined t ->
    boundaries_hold n sizes (fun d => h d) olow oup (fun d => bnd (lower d) t) (fun d => bnd (upper d) t) v ->
    (forall p, unknown n sizes olow oup p -> inner (conv p) = v p) -> forall p, on_grid p -> bounds t inner p = v p.
  Proof using SZ HN NB.
    intros DET BH EQ p G. rewrite <- (stage_unique t v inner n (Nat.le_refl n) DET BH EQ p G) by (intros; lia). rewrite convd_n. reflexivity.
  Qed.
  Lemma correction_unique theta dt m rhs d k (z : tensor) : (k d < isz d)%nat -> correction_line sizes lower upper theta dt m rhs d k <> None ->
    (forall j, (j < isz d)%nat -> z (put d j k) = rhs (put d j k) + theta * dt * tridiag_explicit sizes lower upper m z d (put d j k)) ->
    correction sizes lower upper theta dt m rhs d k = z k.
  Proof.
    intros K OK ZE. destruct (correction_line sizes lower upper theta dt m rhs d k) as [xs|] eqn:XS; [clear OK|contradiction].
    unfold correction. rewrite XS. unfold correction_line in XS. destruct m as [[sup diag] sub].
    assert (E : line sizes lower upper d z k = xs).
    { apply (thomas_unique _ _ _ _ _ _ _ _ XS); [rewrite !line_length; reflexivity|]. rewrite line_length. intros i I.
      unfold tri_prev. rewrite !line_nth by exact I. rewrite ?(line_nth d rhs) by exact I. specialize (ZE i I). unfold tridiag_explicit in ZE. rewrite put_at in ZE.
      assert (NX : nth (S i) (line sizes lower upper d z k) 0 = if Nat.ltb (S i) (isz d) then z (put d (S i) k) else 0).
      { destruct (Nat.ltb_spec (S i) (isz d)); [apply line_nth; assumption|apply nth_overflow; rewrite line_length; lia]. }
      rewrite NX. destruct i as [|i].
      - rewrite !put_put in ZE. destruct (Nat.ltb 1 (isz d)); lra.
      - rewrite line_nth by lia. rewrite !put_put in ZE. destruct (Nat.ltb (S (S i)) (isz d)); lra. }
    rewrite <- E, line_nth by exact K. f_equal. apply (move_same d k).
  Qed.
  Lemma steady theta t1 t2 (v : point -> R) : all_determined t1 -> all_determined t2 -> solvable_lines theta t1 t2 ->
    boundaries_hold n sizes (fun d => h d) olow oup (fun d => bnd (lower d) t1) (fun d => bnd (upper d) t1) v ->
    boundaries_hold n sizes (fun d => h d) olow oup (fun d => bnd (lower d) t2) (fun d => bnd (upper d) t2) v ->
    (forall p, unknown n sizes olow oup p -> sum_to n (fun d => alg (eqn t1) d v p) + mixed n sizes (fun d => h d) (eqn t1) v p = 0) ->
    (forall p d, (d < n)%nat -> unknown n sizes olow oup p -> alg (eqn t1) d v p = alg (eqn t2) d v p) ->
    forall i, (i <= n)%nat -> forall k, in_range k -> corrected theta t1 t2 (trim lt no_shift v) i k = v (full k).
  Proof using SZ HN NB.
    intros D1 D2 SOL B1 B2 S0 SE. set (inner := trim lt no_shift v).
    assert (IN : forall p, unknown n sizes olow oup p -> inner (conv p) = v p) by (intros p U; unfold inner; rewrite trim_none; change (v (full (conv p)) = v p); rewrite full_conv by exact U; reflexivity).
    assert (BV : forall p, on_grid p -> bounds t1 inner p = v p) by (apply bounds_unique; assumption).
    assert (UG : forall p, unknown n sizes olow oup p -> on_grid p) by (intros p U e E; apply (U e E)).
    assert (MG : forall p d j, unknown n sizes olow oup p -> (d < n)%nat -> (j < sizes d)%nat -> on_grid (move d j p)).
    { intros p d j U D J e E. unfold move. destruct (Nat.eqb_spec e d) as [->|]; [exact J|apply (U e E)]. }
    assert (AV : forall e d p, (d < n)%nat -> unknown n sizes olow oup p -> alg e d (bounds t1 inner) p = alg e d v p).
    { intros e d p D U. apply along_ext; [exact D|exact U|]. intros j J. apply BV, MG; assumption. }
    assert (FE : forall k, in_range k -> inner k = v (full k)) by (intros k K; unfold inner; rewrite trim_none; reflexivity).
    induction i as [|i IH]; intros LE k K; pose proof (full_unknown k K) as U.
    - unfold corrected. cbn [seq fold_left]. rewrite explicit_ok by assumption.
      rewrite (sum_to_ext' n _ (fun d => alg (eqn t1) d v (full k))) by (intros d D; apply AV; assumption).
      rewrite (mixed_ext (eqn t1) (bounds t1 inner) v (full k) (UG _ U) BV), S0 by exact U. rewrite FE by exact K. ring.
    - assert (I : (i < n)%nat) by lia. destruct (D2 i I) as [DL DU]. rewrite corrected_S. rewrite (correction_unique _ _ _ _ _ _ (fun k => v (full k))); [reflexivity|apply K; exact I|apply SOL; assumption|].
      intros j J. cbv beta. set (k' := put i j k).
      assert (K' : in_range k') by (intros e E; unfold k', put; destruct (Nat.eqb_spec e i) as [->|]; [exact J|apply K; exact E]).
      pose proof (full_unknown k' K') as U'. unfold correction_rhs. rewrite (IH ltac:(lia) k' K').
      pose proof (params_bounds t1 inner i k' D1 I K') as P1. rewrite (AV _ _ _ I U') in P1. rewrite (SE _ _ I U') in P1.
      pose proof (params_row t2 i v k' I (K' i I) DL DU) as P2.
      rewrite <- P2 in P1 by (apply B2; [exact I|intros e E; apply (UG _ U'); lia|intros e E; apply U'; lia]).
      set (T1 := tridiag_explicit sizes lower upper (fst (params t1 i)) inner i k') in *. set (T2 := tridiag_explicit sizes lower upper (fst (params t2 i)) (fun k => v (full k)) i k') in *.
      set (Z1 := snd (params t1 i) k') in *. set (Z2 := snd (params t2 i) k') in *. clearbody T1 T2 Z1 Z2. replace T1 with (T2 + Z2 - Z1) by lra. ring.
  Qed.
  (** ** Lines that can be solved *)
  Lemma dominated_line theta dt sup diag sub rhs d k :
    (forall j, (j < isz d)%nat -> Rabs (theta * sub (put d j k) * dt) + Rabs (theta * sup (put d j k) * dt) < Rabs (1 - theta * diag (put d j k) * dt)) ->
    correction_line sizes lower upper theta dt (sup, diag, sub) rhs d k <> None.
  Proof.
    intros H. unfold correction_line. apply thomas_exists; rewrite ?line_length; [rewrite Rabs_R0; lra|reflexivity|reflexivity|reflexivity|].
    intros j J. rewrite line_length in J. rewrite !line_nth by exact J. specialize (H j J).
    replace (- theta * sub (put d j k) * dt) with (- (theta * sub (put d j k) * dt)) by ring. replace (- theta * sup (put d j k) * dt) with (- (theta * sup (put d j k) * dt)) by ring.
    rewrite !Rabs_Ropp. exact H.
  Qed.
  Lemma bare_simple t d u p : inner_second_fn co t d d = None -> inner_first_fn co t d = None ->
    bare t d u p = if low d && Nat.eqb (p d) 0 then weight (first_fn co t d) p * diff_forward (h d) d u p
     else if up d && Nat.eqb (p d) (sizes d - 1) then weight (first_fn co t d) p * diff_backward (h d) d u p
     else weight (second_fn co t d d) p * diff2 (h d) d u p + weight (first_fn co t d) p * diff1 (h d) d u p.
  Proof.
    intros E1 E2. unfold bare. cbn [equation_at ea eb eA eB]. rewrite E1, E2. unfold term, times, coef, weight, diff_forward, diff_backward, diff1, diff2.
    destruct (low d && Nat.eqb (p d) 0); [|destruct (up d && Nat.eqb (p d) (sizes d - 1))]; destruct (first_fn co t d), (second_fn co t d d); rewrite ?Rmult_1_l, ?Rmult_0_l; reflexivity.
  Qed.
  Lemma solvable_dominated theta t1 t2 : (forall d, (d < n)%nat -> 0 < h d) -> 0 <= theta -> t2 < t1 ->
    (forall d c, (d < n)%nat -> (lower d = Some c \/ upper d = Some c) -> exists alpha gamma, c t2 = (Some alpha, None, gamma)) ->
    (forall d, (d < n)%nat -> inner_second_fn co t2 d d = None /\ inner_first_fn co t2 d = None) ->
    (forall d p, (d < n)%nat -> unknown n sizes olow oup p ->
       (inside sizes d p = true -> Rabs (weight (first_fn co t2 d) p) * h d <= 2 * weight (second_fn co t2 d d) p) /\
       (p d = 0%nat -> 0 <= weight (first_fn co t2 d) p) /\ (p d = (sizes d - 1)%nat -> weight (first_fn co t2 d) p <= 0)) ->
    (forall p, unknown n sizes olow oup p -> weight (zeroth_fn co t2) p <= 0) ->
    solvable_lines theta t1 t2.
  Proof using SZ HN.
    intros HP TH DT DIR INN CF CZ d k rhs D K.
    destruct (INN d D) as [IN1 IN2]. pose proof (HP d D) as HD. destruct (isz_full d D) as (IA & IB & IC).
    set (m := apply_default sizes coord_grid lower upper co t2 d (tridiagonal_matrix coord_grid lower co t2 d)).
    assert (FM : fst (params t2 d) = add_zeroth n lower co t2 m).
    { unfold equation_params. fold m. unfold apply_robin. destruct m as [[sup diag] sub]. destruct (low d && up d); [reflexivity|].
      assert (NL : has_beta (option_map (reshape3 lower d (fun _ => true)) (at_time (lower d) t2)) = false).
      { destruct (lower d) as [c|] eqn:EL; [|reflexivity]. destruct (DIR d c D (or_introl EL)) as (al & ga & E). unfold at_time. cbn [option_map]. rewrite E. reflexivity. }
      assert (NU : has_beta (option_map (reshape3 lower d (fun _ => true)) (at_time (upper d) t2)) = false).
      { destruct (upper d) as [c|] eqn:EL; [|reflexivity]. destruct (DIR d c D (or_intror EL)) as (al & ga & E). unfold at_time. cbn [option_map]. rewrite E. reflexivity. }
      rewrite NL, NU. reflexivity. }
    rewrite FM. destruct m as [[sup diag] sub] eqn:EM.
    set (diag' := fun k => diag k + - weight (zeroth_fn co t2) (full k) / INR n).
    assert (AZ : add_zeroth n lower co t2 (sup, diag, sub) = (sup, diag', sub)).
    { unfold add_zeroth, diag', weight. destruct (zeroth_fn co t2) as [c|]; f_equal; f_equal; extensionality x; [rewrite trim_none; reflexivity|unfold Rdiv; ring]. }
    rewrite AZ. apply dominated_line. intros j J. set (q := put d j k).
    assert (Q : in_range q) by (intros e E; unfold q, put; destruct (Nat.eqb_spec e d) as [->|]; [exact J|apply K; exact E]).
    assert (QD : q d = j) by apply put_at. pose proof (full_unknown q Q) as U. destruct (CF d (full q) D U) as (C1 & C2 & C3). specialize (CZ (full q) U).
    assert (RW : forall u, sup q * u (next d (full q)) + diag q * u (full q) + sub q * u (prev d (full q)) = - bare t2 d u (full q)).
    { intros u. pose proof (bare_row t2 d q u D) as BR. cbv zeta in BR. fold m in BR. rewrite EM in BR. apply BR. rewrite QD. exact J. }
    assert (ED : (low d = true -> q d = 0%nat -> sub q = 0) /\ (up d = true -> q d = (isz d - 1)%nat -> sup q = 0)).
    { pose proof (bare_row t2 d q (fun _ => 0) D) as BR. cbv zeta in BR. fold m in BR. rewrite EM in BR. apply BR. rewrite QD. exact J. }
    destruct ED as [ED1 ED2].
    (* the three entries: nonpositive off the diagonal, with the sum zero *)
    assert (ENT : sup q <= 0 /\ sub q <= 0 /\ sup q + diag q + sub q = 0).
    { pose proof (RW (fun _ => 1)) as R1. pose proof (RW (fun x => INR (x d) - INR (full q d))) as R2. pose proof (RW (fun x => (INR (x d) - INR (full q d)) * (INR (x d) - INR (full q d)))) as R3.
      rewrite bare_simple in R1, R2, R3 by assumption. unfold diff_forward, diff_backward, diff1, diff2 in R1, R2, R3. unfold next, prev in R2, R3. rewrite !move_at in R2, R3. rewrite !S_INR in R2, R3.
      set (b := weight (first_fn co t2 d) (full q)) in *. set (a := weight (second_fn co t2 d d) (full q)) in *. clearbody a b. set (x := INR (full q d)) in *.
      assert (FQ : full q d = (j + lt d)%nat) by (unfold full; rewrite QD; reflexivity).
      destruct (low d && (full q d =? 0)%nat) eqn:Z1.
      - apply andb_prop in Z1. destruct Z1 as [L Z1]. apply Nat.eqb_eq in Z1. specialize (C2 Z1). assert (S0 : sub q = 0) by (apply ED1; [exact L|lia]). rewrite S0 in *.
        replace (b * ((1 - 1) / h d)) with 0 in R1 by (field; lra). replace (b * ((x + 1 - x - (x - x)) / h d)) with (b / h d) in R2 by (field; lra).
        assert (0 <= b / h d) by (apply Rmult_le_pos; [exact C2|apply Rlt_le, Rinv_0_lt_compat; exact HD]). lra.
      - assert (NZ : full q d <> 0%nat).
        { intros E. rewrite E in Z1. cbn [Nat.eqb] in Z1. rewrite andb_true_r in Z1. rewrite Z1 in IC. lia. }
        assert (PI : INR (full q d - 1) = x - 1) by (unfold x; rewrite minus_INR by lia; reflexivity). rewrite PI in R2, R3.
        destruct (up d && (full q d =? sizes d - 1)%nat) eqn:Z2.
        + apply andb_prop in Z2. destruct Z2 as [L Z2]. apply Nat.eqb_eq in Z2. specialize (C3 Z2). rewrite L in IA. assert (S0 : sup q = 0) by (apply ED2; [exact L|lia]). rewrite S0 in *.
          replace (b * ((1 - 1) / h d)) with 0 in R1 by (field; lra). replace (b * ((x - x - (x - 1 - x)) / h d)) with (- (- b / h d)) in R2 by (field; lra).
          assert (0 <= - b / h d) by (apply Rmult_le_pos; [lra|apply Rlt_le, Rinv_0_lt_compat; exact HD]). lra.
        + assert (INS : inside sizes d (full q) = true).
          { unfold inside. apply andb_true_intro. split; apply Nat.ltb_lt; [lia|]. destruct (up d) eqn:L; [|lia]. cbn [andb] in Z2. apply Nat.eqb_neq in Z2. lia. }
          specialize (C1 INS).
          replace (a * ((1 - 2 * 1 + 1) / (h d * h d)) + b * ((1 - 1) / (2 * h d))) with 0 in R1 by (field; lra).
          replace (a * ((x + 1 - x - 2 * (x - x) + (x - 1 - x)) / (h d * h d)) + b * ((x + 1 - x - (x - 1 - x)) / (2 * h d))) with (b / h d) in R2 by (field; lra).
          replace (a * (((x + 1 - x) * (x + 1 - x) - 2 * ((x - x) * (x - x)) + (x - 1 - x) * (x - 1 - x)) / (h d * h d)) + b * (((x + 1 - x) * (x + 1 - x) - (x - 1 - x) * (x - 1 - x)) / (2 * h d))) with (2 * a / (h d * h d)) in R3 by (field; lra).
          assert (BD : Rabs (b / h d) <= 2 * a / (h d * h d)).
          { unfold Rdiv at 1. rewrite Rabs_mult, (Rabs_right (/ h d)) by (apply Rle_ge, Rlt_le, Rinv_0_lt_compat; exact HD).
            apply (Rmult_le_reg_r (h d * h d)); [apply Rmult_lt_0_compat; exact HD|]. replace (Rabs b * / h d * (h d * h d)) with (Rabs b * h d) by (field; lra). replace (2 * a / (h d * h d) * (h d * h d)) with (2 * a) by (field; lra). exact C1. }
          pose proof (Rle_abs (b / h d)) as M1. pose proof (Rle_abs (- (b / h d))) as M2. rewrite Rabs_Ropp in M2.
          generalize dependent (2 * a / (h d * h d)). intros w R3 BD. generalize dependent (Rabs (b / h d)). generalize dependent (b / h d). intros z R2 y BD M1 M2.
          split; [|split]; lra. }
    destruct ENT as (S1 & S2 & S3).
    assert (NP : 0 < INR n) by (apply lt_0_INR; lia).
    assert (CN : 0 <= - weight (zeroth_fn co t2) (full q) / INR n) by (apply Rmult_le_pos; [lra|apply Rlt_le, Rinv_0_lt_compat; exact NP]).
    unfold diag'. set (z := - weight (zeroth_fn co t2) (full q) / INR n) in *. clearbody z.
    assert (TD : 0 <= theta * (t1 - t2)) by (apply Rmult_le_pos; lra). set (w := theta * (t1 - t2)) in *.
    replace (theta * sub q * (t2 - t1)) with (w * - sub q) by (unfold w; ring). replace (theta * sup q * (t2 - t1)) with (w * - sup q) by (unfold w; ring).
    replace (1 - theta * (diag q + z) * (t2 - t1)) with (1 + w * (diag q + z)) by (unfold w; ring). clearbody w.
    assert (A1 : 0 <= w * - sub q) by (apply Rmult_le_pos; lra). assert (A2 : 0 <= w * - sup q) by (apply Rmult_le_pos; lra). assert (A3 : 0 <= w * z) by (apply Rmult_le_pos; lra).
    assert (A4 : w * diag q = w * - sub q + w * - sup q) by (replace (diag q) with (- sub q - sup q) by lra; ring).
    rewrite !Rabs_right by lra. lra.
  Qed.
End Step.
