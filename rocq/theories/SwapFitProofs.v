(** Lemmas for fitted swap curves. *)
From Coq Require Import Reals List Bool Arith Lia Lra Psatz.
From Verif Require Import TensorProofs InterpModel BootstrapModel BootstrapSpec BootstrapProofs CgModel CgSpec CgProofs SwapFitModel SwapFitSpec.
Import ListNotations.
Open Scope R_scope.

Section Groups.
Variables (A : Type) (size : A -> nat) (row : A -> list R).
Fixpoint gids (k : nat) (l : list A) : list nat := match l with [] => [] | a :: l => repeat k (size a) ++ gids (S k) l end.
Lemma gids_ids l : forall k, concat (map (fun '(i, a) => repeat i (size a)) (combine (seq k (length l)) l)) = gids k l.
Proof using Type. induction l as [|a l IH]; intros k; [reflexivity|]. cbn [length seq combine map concat gids]. rewrite IH. reflexivity. Qed.
Lemma group_ids_gids l : group_ids size l = gids 0 l.
Proof using Type. apply gids_ids. Qed.
Lemma row_sum i k r n : length r = n -> total (map (fun '(g, x) => (if Nat.eqb g i then 1 else 0) * x) (combine (repeat k n) r)) = if Nat.eqb k i then total r else 0.
Proof using Type.
  revert r. induction n as [|n IH]; intros [|x r] L; cbn in L; try discriminate L.
  - cbn. destruct (Nat.eqb k i); reflexivity.
  - cbn [repeat combine map total fold_right]. fold (total (map (fun '(g, x0) => (if Nat.eqb g i then 1 else 0) * x0) (combine (repeat k n) r))). rewrite IH by congruence. destruct (Nat.eqb k i); unfold total; cbn [fold_right]; ring.
Qed.
Lemma rows_sum i l : Forall (fun a => length (row a) = size a) l -> forall k,
  total (map (fun '(g, x) => (if Nat.eqb g i then 1 else 0) * x) (combine (gids k l) (flat_map row l)))
  = if Nat.ltb i k then 0 else match nth_error l (i - k) with Some a => total (row a) | None => 0 end.
Proof using Type.
  induction 1 as [|a l E F IH]; intros k.
  - cbn [gids flat_map combine map]. destruct (Nat.ltb i k); [reflexivity|]. destruct (i - k)%nat; reflexivity.
  - cbn [gids flat_map]. rewrite combine_app by (rewrite repeat_length; congruence). rewrite map_app, total_app, row_sum by exact E. rewrite IH.
    destruct (Nat.eqb_spec k i) as [Q|Q].
    + subst i. replace (Nat.ltb k (S k)) with true by (symmetry; apply Nat.ltb_lt; lia). rewrite Nat.ltb_irrefl, Nat.sub_diag. cbn. ring.
    + destruct (Nat.ltb_spec i (S k)), (Nat.ltb_spec i k); try lia; [ring|]. replace (i - k)%nat with (S (i - S k)) by lia. cbn [nth_error]. ring.
Qed.
Lemma group_sum_rows l : Forall (fun a => length (row a) = size a) l -> group_sum (length l) (group_ids size l) (flat_map row l) = map (fun a => total (row a)) l.
Proof using Type.
  intros F. rewrite group_ids_gids. unfold group_sum.
  transitivity (map (fun i => match nth_error l i with Some a => total (row a) | None => 0 end) (seq 0 (length l))).
  - apply map_ext. intros i. pose proof (rows_sum i l F 0) as Q. unfold total in Q at 1. rewrite Q. cbn [Nat.ltb Nat.leb]. rewrite Nat.sub_0_r. reflexivity.
  - clear F. assert (Q : forall (M P : list A), map (fun i => match nth_error (P ++ M) i with Some a => total (row a) | None => 0 end) (seq (length P) (length M)) = map (fun a => total (row a)) M).
    { induction M as [|b M IH]; intros P; [reflexivity|]. cbn [length seq map]. f_equal.
      - rewrite nth_error_app2 by lia. rewrite Nat.sub_diag. reflexivity.
      - specialize (IH (P ++ [b])). rewrite <- app_assoc, app_length in IH. cbn [app length] in IH. rewrite Nat.add_1_r in IH. exact IH. }
    exact (Q l []).
Qed.
End Groups.

Lemma pairs_fst {A B} (l : list A) : forall (m : list B), length m = length l -> map fst (combine l m) = l.
Proof. induction l as [|a l IH]; intros [|b m] L; cbn in L; try discriminate L; [reflexivity|]. cbn. rewrite IH by congruence. reflexivity. Qed.
Lemma flat_pairs {A B C} (f : A -> list C) (l : list A) : forall (m : list B), length m = length l -> flat_map f l = flat_map (fun p => f (fst p)) (combine l m).
Proof. induction l as [|a l IH]; intros [|b m] L; cbn in L; try discriminate L; [reflexivity|]. cbn. rewrite (IH m) by congruence. reflexivity. Qed.
Lemma ids_pairs {A B} (f : A -> nat) (l : list A) : forall (m : list B), length m = length l -> group_ids f l = group_ids (fun p => f (fst p)) (combine l m).
Proof.
  intros m L. rewrite !group_ids_gids. generalize 0%nat. revert m L. induction l as [|a l IH]; intros [|b m] L k; cbn in L; try discriminate L; [reflexivity|]. cbn. rewrite (IH m) by congruence. reflexivity.
Qed.

Section Values.
Variables (own F D : R -> R).
(** one floating and one fixed row *)
Lemma float_row s t : length (float_start s) = length (float_end s) ->
  total (map (fun '(c, d) => c * d) (combine (map (fun '(a, e) => exp (e * own e - a * own a) - 1) (combine (float_start s) (float_end s)))
    (map (fun '(e, u) => exp (- F e * e + F u * u)) (combine (float_end s) (repeat t (length (float_start s)))))))
  = float_value (discount own) (discount F) s / discount F t.
Proof using Type.
  unfold float_value. generalize (float_start s) (float_end s). intros a. induction a as [|x a IH]; intros [|y b] L; cbn in L; try discriminate L.
  - cbn. unfold Rdiv. ring.
  - cbn [length repeat combine map total fold_right]. unfold total in IH. rewrite IH by congruence.
    assert (E1 : exp (y * own y - x * own x) = discount own x / discount own y).
    { unfold discount, Rdiv. rewrite <- exp_Ropp, <- exp_plus. f_equal. ring. }
    assert (E2 : exp (- F y * y + F t * t) = discount F y / discount F t).
    { unfold discount, Rdiv. rewrite <- exp_Ropp, <- exp_plus. f_equal. ring. }
    rewrite E1, E2. unfold Rdiv. ring.
Qed.
Lemma fixed_row s t : length (fixed_cashflows s) = length (fixed_end s) -> length (fixed_daycount s) = length (fixed_end s) ->
  total (zip3 (fun a c d => a * c * d) (fixed_daycount s) (fixed_cashflows s) (map (fun '(e, u) => exp (- D e * e + D u * u)) (combine (fixed_end s) (repeat t (length (fixed_end s))))))
  = fixed_value (discount D) s / discount D t.
Proof using Type.
  unfold fixed_value, zip3. generalize (fixed_cashflows s) (fixed_daycount s) (fixed_end s). intros a. induction a as [|x a IH]; intros [|y b] [|z c] L M; cbn in L, M; try discriminate L; try discriminate M.
  - cbn. unfold Rdiv. ring.
  - cbn [length repeat combine map total fold_right]. unfold total in IH. rewrite IH by congruence.
    assert (E2 : exp (- D z * z + D t * t) = discount D z / discount D t).
    { unfold discount, Rdiv. rewrite <- exp_Ropp, <- exp_plus. f_equal. ring. }
    rewrite E2. unfold Rdiv. ring.
Qed.
End Values.

Lemma zip3_flat_map {A} h (f g k : A -> list R) l : Forall (fun a => length (f a) = length (g a) /\ length (g a) = length (k a)) l ->
  zip3 h (flat_map f l) (flat_map g l) (flat_map k l) = flat_map (fun a => zip3 h (f a) (g a) (k a)) l.
Proof.
  intros F. unfold zip3. rewrite combine_flat_map by (eapply Forall_impl; [|exact F]; intros a [_ Q]; exact Q). rewrite combine_flat_map by (eapply Forall_impl; [|exact F]; intros a [Q1 Q2]; rewrite combine_length; lia). apply map_flat_map.
Qed.

Section Model.
Variables (interp : real_interpolator) (float_leg fixed_leg : option curve) (swaps : list swap) (settle x : list R).
Definition rate_of (c : option curve) : R -> R := match c with None => fun t => interp t (map expiry swaps) x | Some (ts, rs) => fun t => interp t ts rs end.
Lemma model_values_are : Forall complete swaps -> length settle = length swaps ->
  model_values interp float_leg fixed_leg swaps settle x
  = map (fun '(s, t) => settled_value (discount (rate_of None)) (discount (rate_of float_leg)) (discount (rate_of fixed_leg)) t s) (combine swaps settle).
Proof using Type.
  intros C L. unfold model_values. cbv zeta. fold (rate_of float_leg). fold (rate_of fixed_leg).
  change (match float_leg with | Some (ts, rs) => fun t => interp t ts rs | None => fun t => interp t (map expiry swaps) x end) with (rate_of float_leg). change (match fixed_leg with | Some (ts, rs) => fun t => interp t ts rs | None => fun t => interp t (map expiry swaps) x end) with (rate_of fixed_leg).
  generalize (rate_of float_leg) (rate_of fixed_leg). intros F D.
  assert (CP : Forall (fun p => complete (fst p)) (combine swaps settle)).
  { rewrite <- (pairs_fst swaps settle L) in C. rewrite Forall_map in C. exact C. }
  rewrite !(flat_pairs _ swaps settle L), !(ids_pairs _ swaps settle L).
  assert (LN : length swaps = length (combine swaps settle)) by (rewrite combine_length; lia). rewrite LN at 1 2.
  set (Q := combine swaps settle) in *. clearbody Q. clear C L LN.
  rewrite (flat_map_ext (fun '(s, t) => repeat t (length (float_start s))) (fun p : swap * R => repeat (snd p) (length (float_start (fst p)))) (fun p => match p with (s, t) => eq_refl end)).
  rewrite (flat_map_ext (fun '(s, t) => repeat t (length (fixed_end s))) (fun p : swap * R => repeat (snd p) (length (fixed_end (fst p)))) (fun p => match p with (s, t) => eq_refl end)).
  assert (C1 : forall p : swap * R, complete (fst p) -> length (float_start (fst p)) = length (float_end (fst p))) by (intros p (E & _); exact E).
  assert (C2 : forall p : swap * R, complete (fst p) -> length (fixed_cashflows (fst p)) = length (fixed_end (fst p)) /\ length (fixed_daycount (fst p)) = length (fixed_end (fst p))) by (intros p (_ & _ & E1 & E2 & _); split; assumption).
  rewrite (combine_flat_map _ _ Q) by (eapply Forall_impl; [|exact CP]; intros p H; cbv beta in *; apply C1; exact H).
  rewrite (combine_flat_map _ _ Q) by (eapply Forall_impl; [|exact CP]; intros p H; cbv beta in *; rewrite repeat_length; symmetry; apply C1; exact H).
  rewrite (combine_flat_map _ _ Q) by (eapply Forall_impl; [|exact CP]; intros p H; cbv beta in *; rewrite repeat_length; reflexivity).
  rewrite !map_flat_map.
  rewrite (combine_flat_map _ _ Q) by (eapply Forall_impl; [|exact CP]; intros p H; cbv beta in *; rewrite !map_length, !combine_length, repeat_length; rewrite (C1 p H); reflexivity).
  rewrite map_flat_map. rewrite zip3_flat_map by (eapply Forall_impl; [|exact CP]; intros p H; cbv beta in *; destruct (C2 p H); rewrite map_length, combine_length, repeat_length; lia).
  rewrite (group_sum_rows _ (fun p => length (float_start (fst p)))) by (eapply Forall_impl; [|exact CP]; intros p H; cbv beta in *; rewrite map_length, combine_length, !map_length, !combine_length, repeat_length; rewrite (C1 p H); lia).
  rewrite (group_sum_rows _ (fun p => length (fixed_end (fst p)))) by (eapply Forall_impl; [|exact CP]; intros p H; cbv beta in *; destruct (C2 p H); unfold zip3; rewrite map_length, !combine_length, !map_length, !combine_length, repeat_length; lia).
  rewrite combine_map_same, map_map. apply map_ext_in. intros p IP. rewrite Forall_forall in CP. specialize (CP p IP). destruct p as [s t]. cbn [fst snd] in *. unfold settled_value.
  destruct (C2 (s, t) CP) as [D1 D2]. exact (f_equal2 Rplus (float_row (rate_of None) F s t (C1 (s, t) CP)) (fixed_row D s t D1 D2)).
Qed.
End Model.

Lemma total_nonneg l : Forall (fun r => 0 <= r) l -> 0 <= total l.
Proof. induction 1 as [|r l H F IH]; [cbn; lra|]. unfold total in *. cbn. lra. Qed.
Lemma total_member l r : Forall (fun r => 0 <= r) l -> In r l -> r <= total l.
Proof.
  induction 1 as [|x l H F IH]; intros I; [destruct I|]. pose proof (total_nonneg l F). unfold total in *. cbn. destruct I as [->|I]; [lra|]. specialize (IH I). lra.
Qed.
Lemma total_zero l : Forall (fun r => 0 <= r) l -> total l = 0 -> Forall (fun r => r = 0) l.
Proof. intros F E. rewrite Forall_forall in *. intros r I. pose proof (total_member l r ltac:(apply Forall_forall; exact F) I). pose proof (F r I). lra. Qed.
Lemma total_le {A} (f g : A -> R) l : (forall a, In a l -> f a <= g a) -> total (map f l) <= total (map g l).
Proof.
  induction l as [|a l IH]; intros H; [cbn; lra|]. pose proof (H a (or_introl eq_refl)). specialize (IH (fun b I => H b (or_intror I))). unfold total in *. cbn. lra.
Qed.
(** the loss as a sum over the swaps *)
Lemma loss_errors interp fl fx swaps settle weights x value : length settle = length swaps -> length weights = length swaps ->
  model_values interp fl fx swaps settle x = map value (seq 0 (length swaps)) -> loss interp fl fx swaps settle weights x = errors value weights swaps.
Proof.
  intros L W E. unfold loss, errors, zip3. cbv zeta. rewrite E. fold (total (map (fun '(x0, (y, z)) => x0 * ((y - z) * (y - z))) (combine weights (combine (map value (seq 0 (length swaps))) (map present_value swaps))))). f_equal.
  assert (G : forall n (P : list R) (w : list R) (v : nat -> R) k, length w = n -> length P = n ->
    map (fun '(x0, (y, z)) => x0 * ((y - z) * (y - z))) (combine w (combine (map v (seq k n)) P)) = map (fun j => nth j w 0 * (v (k + j)%nat - nth j P 0) ^ 2) (seq 0 n)).
  { induction n as [|n IH]; intros [|p P] [|a w] v k H1 H2; cbn in H1, H2; try discriminate H1; try discriminate H2; [reflexivity|]. cbn [seq map combine]. f_equal; [cbn [nth]; rewrite Nat.add_0_r; ring|].
    rewrite (IH P w v (S k)) by congruence. rewrite <- seq_shift, map_map. apply map_ext. intros j. cbn [nth]. replace (S k + j)%nat with (k + S j)%nat by lia. reflexivity. }
  rewrite (G (length swaps) (map present_value swaps) weights value 0%nat W (map_length _ _)). reflexivity.
Qed.
Lemma total_zeros {A} (l : list A) : total (map (fun _ => 0) l) = 0.
Proof. induction l as [|a l IH]; [reflexivity|]. unfold total in *. cbn. lra. Qed.
