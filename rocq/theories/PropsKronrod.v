(** C53: adaptive Gauss-Kronrod integration.  [tiles] is defined in
    KronrodSpec.v. *)
From Coquelicot Require Import Coquelicot.
From Coq Require Import Reals List Bool ZArith QArith Qreals Lia Lra Psatz Permutation.
From Verif Require Import TensorModel InterpModel BrentModel BrentProofs ExtReal IntegrateModel PolySpec GaussData GaussProofs GaussTables PropsGauss SimpsonProofs
  KronrodModel KronrodSpec KronrodTables KronrodProofs.
Import ListNotations.
Open Scope R_scope.

(** The numbers of points documented for the routine. *)
Definition kronrod_supported (n : nat) : Prop := n = 15%nat \/ n = 21%nat \/ n = 31%nat.
(** The Kronrod estimate of one piece, and its distance to the Gauss-Legendre
    estimate with (n - 1) / 2 points. *)
Definition piece_estimate (f : R -> R) (n : nat) (p : R * R) : R :=
  match non_adaptive_gauss_kronrod f (fst p) (snd p) n with Some (k, _) => k | None => 0 end.
Definition piece_error (f : R -> R) (n : nat) (p : R * R) : R :=
  match gl f (fst p) (snd p) ((n - 1) / 2) with Some g => Rabs (piece_estimate f n p - g) | None => 0 end.
Definition total (g : R * R -> R) (l : list (R * R)) : R := fold_right Rplus 0 (map g l).
(** A piece is accepted when its error is within the tolerance, relative to
    its estimate. *)
Definition within (tol : R) (f : R -> R) (n : nat) (p : R * R) : Prop :=
  piece_error f n p <= tol * Rabs (piece_estimate f n p).

Lemma ksup n : kronrod_supported n <-> In n kronrod_sizes.
Proof. unfold kronrod_supported, kronrod_sizes. cbn [In]. intuition congruence. Qed.
Lemma half_in n : In n kronrod_sizes -> In ((n - 1) / 2)%nat legendre_sizes.
Proof. intros [<-|[<-|[<-|[]]]]; cbn; tauto. Qed.

Lemma estimate_pieces f n : In n kronrod_sizes -> forall p, estimate_and_error f n (fst p) (snd p) = Some (piece_estimate f n p, piece_error f n p) /\
  exists xs ws, (forall q, piece_estimate f n q = mapped_rule f (fst q) (snd q) xs ws) /\ length xs = n /\ length ws = n /\
    Forall (fun x => -1 < x < 1) xs /\ Forall (fun w => 0 < w) ws.
Proof.
  intros I p. set (m := ((n - 1) / 2)%nat). destruct (kronrod_table n I) as (ls & ss & ws & E1 & E2 & E3 & L1 & L2 & O & P & _).
  destruct (legendre_table m (half_in n I)) as (ls' & vs & X & V & XL & VL & _). fold m in E1. rewrite E1 in X. injection X as <-.
  assert (NA : forall q, non_adaptive_gauss_kronrod f (fst q) (snd q) n = Some (mapped_rule f (fst q) (snd q) (ls ++ ss) ws, map f (map (fun root => ((snd q - fst q) * root + snd q + fst q) / 2) (ls ++ ss)))).
  { intros q. unfold non_adaptive_gauss_kronrod. fold m. rewrite E1, E2, E3. reflexivity. }
  split.
  - unfold estimate_and_error. fold m. rewrite NA, V. unfold piece_error. fold m. rewrite (gl_rule f _ _ m ls vs E1 V).
    unfold piece_estimate. rewrite NA. do 2 f_equal. do 2 f_equal. unfold mapped_rule. f_equal. f_equal. rewrite !map_app, firstn_app.
    rewrite !map_length, XL, Nat.sub_diag, firstn_O, app_nil_r. apply firstn_all2. rewrite !map_length. lia.
  - exists (ls ++ ss), ws. split; [|tauto]. intros q. unfold piece_estimate. rewrite NA. reflexivity.
Qed.
Lemma Kv_piece f n p : In n kronrod_sizes -> Kv f n p = piece_estimate f n p /\ Ev f n p = piece_error f n p.
Proof. intros I. unfold Kv, Ev, KE. rewrite (proj1 (estimate_pieces f n I p)). split; reflexivity. Qed.
Lemma estimates_ok f n : In n kronrod_sizes -> forall l u, estimate_and_error f n l u <> None.
Proof. intros I l u. pose proof (proj1 (estimate_pieces f n I (l, u))) as H. cbn [fst snd] in H. rewrite H. discriminate. Qed.
Lemma piece_error_pos f n p : 0 <= piece_error f n p.
Proof. unfold piece_error. destruct (gl _ _ _ _); [apply Rabs_pos|lra]. Qed.

(** Unsupported numbers of points are refused; the others never fail. *)
Theorem C53_supported f limits tol n d : limits <> [] -> (0 < d)%nat -> gauss_kronrod f limits tol n d <> None <-> kronrod_supported n.
Proof.
  intros L D. rewrite ksup. split.
  - intros H. destruct (in_dec Nat.eq_dec n kronrod_sizes) as [I|I]; [exact I|]. exfalso. apply H. unfold gauss_kronrod. destruct d as [|d]; [lia|]. cbn [kronrod_loop].
    destruct limits as [|[l u] limits]; [contradiction|]. cbn [map kronrod_cond forallb klower length Nat.eqb negb andb]. unfold kronrod_body. cbn [map klower kupper row_estimates].
    unfold estimate_and_error, non_adaptive_gauss_kronrod. rewrite (kronrod_missing n I). destruct (get legendre_roots _); reflexivity.
  - intros I. unfold gauss_kronrod. destruct (loop_some f tol n (estimates_ok f n I) d (map (fun '(l, u) => KRow [l] [u] 0) limits)) as [rows ->]. discriminate.
Qed.

(** The result of each batch element is the total of the Kronrod estimates of
    accepted pieces.  Accepted and pending pieces together tile the interval;
    a piece is pending only if it was halved as often as allowed.  An accepted
    piece with a positive (zero) estimate has a small (zero) error. *)
Theorem C53_tiling f limits tol n d results i a b v : kronrod_supported n -> 0 <= tol ->
  gauss_kronrod f limits tol n d = Some results -> nth_error limits i = Some (a, b) -> nth_error results i = Some v ->
  exists accepted pending, tiles a b (accepted ++ pending) /\ v = total (piece_estimate f n) accepted /\
    Forall (fun p => snd p - fst p = (b - a) / 2 ^ d) pending /\
    Forall (fun p => 0 <= piece_estimate f n p -> within tol f n p) accepted.
Proof.
  intros I T G Li Ri. apply ksup in I. unfold gauss_kronrod in G. destruct (kronrod_loop _ _ _ _ _) as [rows|] eqn:KL; [|discriminate]. injection G as <-.
  pose proof (loop_ok f tol n (estimates_ok f n I) d 1 limits _ rows (init_ok f tol n limits) KL) as OK. unfold limits_ok in OK.
  assert (N : exists r, nth_error rows i = Some r /\ ksum r = v). { rewrite nth_error_map in Ri. destruct (nth_error rows i) as [r|]; [|discriminate]. exists r. split; [reflexivity|]. cbn in Ri. congruence. }
  destruct N as (r & Rr & <-).
  assert (OR : row_ok (Kv f n) (Ev f n) tol a b ((b - a) * (1 / 2 ^ d)) r).
  { clear - OK Li Rr. revert i Li Rr. induction OK as [|p r' limits rows P OK IH]; intros [|i] Li Rr; try discriminate.
    - cbn in Li, Rr. injection Li as ->. injection Rr as ->. exact P.
    - exact (IH i Li Rr). }
  destruct OR as (_ & W & acc & S & TL & GD). exists acc, (combine (klower r) (kupper r)). split; [exact TL|]. split; [|split].
  - rewrite S. unfold total, reduce_sum. f_equal. apply map_ext. intros p. apply Kv_piece. exact I.
  - revert W. apply Forall_impl. intros p ->. field. apply pow_nonzero. lra.
  - revert GD. apply Forall_impl. intros p GP NN. unfold good, rel in GP. rewrite (proj1 (Kv_piece f n p I)), (proj2 (Kv_piece f n p I)) in GP.
    apply accept_iff in GP as [G1 G2]; [|exact T|apply piece_error_pos]. unfold within. rewrite Rabs_right by lra. destruct NN as [P|Z]; [exact (G1 P)|]. rewrite (G2 (eq_sym Z)), <- Z. lra.
Qed.

(** For a nonnegative function, when no piece is pending, the accumulated
    error estimate is within the tolerance relative to the result. *)
Theorem C53_error_control f limits tol n d results i a b v : kronrod_supported n -> 0 <= tol -> a <= b -> (forall x, a <= x <= b -> 0 <= f x) ->
  gauss_kronrod f limits tol n d = Some results -> nth_error limits i = Some (a, b) -> nth_error results i = Some v ->
  exists accepted pending, tiles a b (accepted ++ pending) /\ v = total (piece_estimate f n) accepted /\
    Forall (fun p => snd p - fst p = (b - a) / 2 ^ d) pending /\ total (piece_error f n) accepted <= tol * v /\ 0 <= v.
Proof.
  intros I T AB F G Li Ri. destruct (C53_tiling f limits tol n d results i a b v I T G Li Ri) as (acc & pend & TL & V & W & GD). exists acc, pend.
  apply ksup in I. assert (POS : Forall (fun p => 0 <= piece_estimate f n p) acc).
  { pose proof (tiles_inside a b _ TL) as IN. destruct TL as [_ OR]. apply Forall_app in IN as [IN _]. apply Forall_app in OR as [OR _]. rewrite Forall_forall in *. intros p P. specialize (IN p P). specialize (OR p P).
    destruct (proj2 (estimate_pieces f n I p)) as (xs & ws & -> & _ & _ & O & PW). rewrite mapped_rule_wsum. destruct OR as (s & S0 & E). rewrite Rmin_left, Rmax_right in IN by lra.
    assert (0 <= s * (b - a)) by (apply Rmult_le_pos; lra). apply Rmult_le_pos; [lra|].
    replace 0 with (wsum (fun _ => 0) xs ws). 2:{ rewrite (wsum_ext _ (fun x => 0 * x + 0 * x)) by (intros; ring). rewrite wsum_lin. ring. }
    apply wsum_le; [|revert PW; apply Forall_impl; intros; lra]. revert O. apply Forall_impl. intros x Hx. apply F. nra. }
  do 3 (split; [assumption|]). rewrite V. unfold total. fold (reduce_sum (map (piece_error f n) acc)) (reduce_sum (map (piece_estimate f n) acc)). split.
  - rewrite <- sum_scal. apply sum_le. rewrite Forall_forall in *. intros p P. specialize (GD p P (POS p P)). unfold within in GD. rewrite Rabs_right in GD; [exact GD|]. specialize (POS p P). lra.
  - replace 0 with (reduce_sum (map (fun p => 0 * piece_estimate f n p) acc)) by (rewrite sum_scal; ring). apply sum_le. revert POS. apply Forall_impl. intros; lra.
Qed.

(** Polynomials of degree at most 3m+1 (3m+2 if m is odd), where n = 2m+1: the
    non-adaptive estimate and every adaptive result without pending pieces are
    the integral up to 1e-20 relative to the size of the coefficients. *)
Theorem C53_polynomial n c p I : kronrod_supported n -> let m := ((n - 1) / 2)%nat in (length c <= 3 * m + 2 + (if Nat.odd m then 1 else 0))%nat ->
  is_RInt (peval c) (fst p) (snd p) I ->
  Rabs (piece_estimate (peval c) n p - I) <= 1 / 10 ^ 20 * (Rabs (snd p - fst p) / 2) * peval (map Rabs c) (Rmax (Rabs (fst p)) (Rabs (snd p))).
Proof.
  intros S m L HI. apply ksup in S. destruct (kronrod_table n S) as (ls & ss & ws & E1 & E2 & E3 & _ & _ & _ & _ & M).
  assert (PE : piece_estimate (peval c) n p = mapped_rule (peval c) (fst p) (snd p) (ls ++ ss) ws).
  { unfold piece_estimate, non_adaptive_gauss_kronrod. rewrite E1, E2, E3. reflexivity. }
  rewrite PE. apply (rule_polynomial (ls ++ ss) ws _ (1 / 10 ^ 20) M); [exact L| |exact HI]. unfold Rdiv. rewrite Rmult_1_l. left. apply Rinv_0_lt_compat, pow_lt. lra.
Qed.
Theorem C53_tiled_polynomial n c a b pieces I : kronrod_supported n -> let m := ((n - 1) / 2)%nat in (length c <= 3 * m + 2 + (if Nat.odd m then 1 else 0))%nat ->
  tiles a b pieces -> is_RInt (peval c) a b I ->
  Rabs (total (piece_estimate (peval c) n) pieces - I) <= 1 / 10 ^ 20 * (Rabs (b - a) / 2) * peval (map Rabs c) (Rmax (Rabs a) (Rabs b)).
Proof.
  intros S m L TL HI. set (F := panti 0 c). set (eps := 1 / 10 ^ 20). assert (E0 : 0 <= eps) by (unfold eps, Rdiv; rewrite Rmult_1_l; left; apply Rinv_0_lt_compat, pow_lt; lra).
  assert (EI : I = F b - F a). { pose proof (peval_int c a b) as X. apply (is_RInt_unique (V := R_CompleteNormedModule)) in X. apply (is_RInt_unique (V := R_CompleteNormedModule)) in HI. unfold F. congruence. }
  rewrite EI, <- (tiles_tel F a b pieces TL). set (B := peval (map Rabs c) (Rmax (Rabs a) (Rabs b))).
  eapply Rle_trans; [apply (sum_close _ (fun p => F (snd p) - F (fst p)) (fun p => eps / 2 * B * Rabs (snd p - fst p)))|].
  - pose proof (tiles_inside a b pieces TL) as IN. revert IN. apply Forall_impl. intros p [P1 P2].
    eapply Rle_trans; [apply (C53_polynomial n c p _ S L (peval_int c _ _))|]. fold eps.
    assert (MX : 0 <= Rmax (Rabs (fst p)) (Rabs (snd p)) <= Rmax (Rabs a) (Rabs b)).
    { split; [apply Rle_trans with (Rabs (fst p)); [apply Rabs_pos|apply Rmax_l]|]. clear - P1 P2. unfold Rmax, Rmin, Rabs in *. repeat destruct (Rcase_abs _); repeat destruct (Rle_dec _ _); lra. }
    pose proof (peval_abs_mono c _ _ MX) as [Q0 Q]. fold B in Q. set (Y := peval _ _) in *. pose proof (Rabs_pos (snd p - fst p)).
    replace (eps / 2 * B * Rabs (snd p - fst p)) with (eps * (Rabs (snd p - fst p) / 2) * B) by field. apply Rmult_le_compat_l; [|exact Q]. apply Rmult_le_pos; lra.
  - rewrite sum_scal, (tiles_width a b pieces TL). apply Req_le. field.
Qed.

(** Refuted: at the depth limit the pieces still pending are left out of the
    result instead of contributing their latest estimates. *)
Theorem C53_depth f n tol a b : kronrod_supported n -> 0 <= tol -> 0 < piece_estimate f n (a, b) -> tol * piece_estimate f n (a, b) < piece_error f n (a, b) ->
  gauss_kronrod f [(a, b)] tol n 1 = Some [0].
Proof.
  intros S T K E. apply ksup in S. unfold gauss_kronrod. cbn [map kronrod_loop]. cbn [kronrod_cond forallb klower length Nat.eqb negb andb].
  rewrite (body_eq f tol n (estimates_ok f n S)). cbn [map option_map]. unfold step_row, step_k, items. cbn [klower kupper ksum combine map].
  assert (B : bad tol (rel (Kv f n) (Ev f n) (a, b)) = true).
  { unfold rel. rewrite (proj1 (Kv_piece f n (a, b) S)), (proj2 (Kv_piece f n (a, b) S)). destruct (bad tol _) eqn:B; [reflexivity|]. apply accept_iff in B as [B _]; [|exact T|apply piece_error_pos]. specialize (B K). lra. }
  unfold count_bad. cbn [filter]. unfold bad in B. rewrite B. cbn [length fold_right Nat.max]. unfold update_row, top_k. cbn. do 2 f_equal. ring.
Qed.
(** A negative estimate is accepted whatever its error. *)
Theorem C53_negative f n tol a b d : kronrod_supported n -> 0 <= tol -> piece_estimate f n (a, b) < 0 ->
  gauss_kronrod f [(a, b)] tol n (S d) = Some [piece_estimate f n (a, b)].
Proof.
  intros S T K. apply ksup in S. unfold gauss_kronrod. cbn [map kronrod_loop]. cbn [kronrod_cond forallb klower length Nat.eqb negb andb].
  rewrite (body_eq f tol n (estimates_ok f n S)). cbn [map]. unfold step_row, step_k, items. cbn [klower kupper ksum combine map].
  assert (B : bad tol (rel (Kv f n) (Ev f n) (a, b)) = false).
  { unfold rel. rewrite (proj1 (Kv_piece f n (a, b) S)), (proj2 (Kv_piece f n (a, b) S)). apply accept_iff; [exact T|apply piece_error_pos|]. split; intros; lra. }
  unfold count_bad. cbn [filter]. unfold bad in B. rewrite B. cbn [length fold_right Nat.max]. unfold update_row, top_k. cbn [firstn gather map vzip combine app].
  rewrite (proj1 (Kv_piece f n (a, b) S)). unfold reduce_sum. cbn [fold_right]. destruct d; cbn; do 2 f_equal; ring.
Qed.

(** Witnesses: a spike at the centre of [-1, 1]. *)
Definition spike (x : R) : R := if req x 0 then 1 else 0.
Definition spike_q (rs ws : list Q) : Q := fold_right Qplus 0%Q (map (fun '(r, w) => if Qeq_bool r 0 then w else 0%Q) (combine rs ws)).
Lemma spike_sum rs : forall ws, wsum spike (map Q2R rs) (map Q2R ws) = Q2R (spike_q rs ws).
Proof.
  unfold wsum, vzip, reduce_sum, spike_q. induction rs as [|r rs IH]; intros [|w ws]; cbn [map combine fold_right]; try (unfold Q2R; cbn; lra).
  rewrite Q2R_plus, <- IH. f_equal. unfold spike. destruct (Qeq_bool r 0) eqn:E.
  - apply Qeq_bool_iff, Qeq_eqR in E. replace (Q2R r) with 0 by (rewrite E; unfold Q2R; cbn; lra). replace (req 0 0) with true by (symmetry; apply req_true; reflexivity). ring.
  - replace (req (Q2R r) 0) with false; [unfold Q2R; cbn; ring|]. symmetry. apply req_false. intros Z. apply Qeq_bool_neq in E. apply E. apply eqR_Qeq. rewrite Z. unfold Q2R. cbn. lra.
Qed.
Definition sum_q (rs ws : list Q) : Q := fold_right Qplus 0%Q (map (fun '(r, w) => w) (combine rs ws)).
Lemma one_sum rs : forall ws, wsum (fun _ => 1) (map Q2R rs) (map Q2R ws) = Q2R (sum_q rs ws).
Proof.
  unfold wsum, vzip, reduce_sum, sum_q. induction rs as [|r rs IH]; intros [|w ws]; cbn [map combine fold_right]; try (unfold Q2R; cbn; lra).
  rewrite Q2R_plus, <- IH. ring.
Qed.
(** The function k + l spike over [-1, 1] with 15 points. *)
Lemma spike_estimates k l : exists s g : R, (0.209 < s < 0.21) /\ (0.417 < g < 0.418) /\ exists t h : R, (1.999 < t < 2.001) /\ (1.999 < h < 2.001) /\
  piece_estimate (fun x => k * 1 + l * spike x) 15 (-1, 1) = k * t + l * s /\
  piece_error (fun x => k * 1 + l * spike x) 15 (-1, 1) = Rabs (k * t + l * s - (k * h + l * g)).
Proof.
  set (f := fun x => k * 1 + l * spike x).
  destruct (find_q legendre_roots 7) as [ls|] eqn:E1; [|discriminate E1]. destruct (find_q stieltjes_roots 15) as [ss|] eqn:E2; [|discriminate E2].
  destruct (find_q kronrod_weights 15) as [ws|] eqn:E3; [|discriminate E3]. destruct (find_q legendre_weights 7) as [vs|] eqn:E4; [|discriminate E4].
  assert (R : forall xs ys, mapped_rule f (-1) 1 (map Q2R xs) (map Q2R ys) = k * Q2R (sum_q xs ys) + l * Q2R (spike_q xs ys)).
  { intros xs ys. rewrite mapped_rule_wsum. unfold f. rewrite (wsum_ext _ (fun t => k * 1 + l * spike t)).
    - rewrite (wsum_lin (fun _ => 1) spike), one_sum, spike_sum. field.
    - intros x. do 3 f_equal. field. }
  assert (PE : piece_estimate f 15 (-1, 1) = k * Q2R (sum_q (ls ++ ss) ws) + l * Q2R (spike_q (ls ++ ss) ws)).
  { rewrite <- R. unfold piece_estimate, non_adaptive_gauss_kronrod. cbn [fst snd]. change ((15 - 1) / 2)%nat with 7%nat. rewrite !get_find, E1, E2, E3. cbn [option_map]. rewrite <- map_app. reflexivity. }
  assert (PG : piece_error f 15 (-1, 1) = Rabs (piece_estimate f 15 (-1, 1) - (k * Q2R (sum_q ls vs) + l * Q2R (spike_q ls vs)))).
  { rewrite <- R. unfold piece_error. cbn [fst snd]. change ((15 - 1) / 2)%nat with 7%nat. rewrite (gl_rule f (-1) 1 7 (map Q2R ls) (map Q2R vs)); [reflexivity| |]; rewrite get_find; [rewrite E1|rewrite E4]; reflexivity. }
  exists (Q2R (spike_q (ls ++ ss) ws)), (Q2R (spike_q ls vs)).
  assert (C : ((0.209 < spike_q (ls ++ ss) ws)%Q /\ (spike_q (ls ++ ss) ws < 0.21)%Q) /\ ((0.417 < spike_q ls vs)%Q /\ (spike_q ls vs < 0.418)%Q) /\
              ((1.999 < sum_q (ls ++ ss) ws)%Q /\ (sum_q (ls ++ ss) ws < 2.001)%Q) /\ ((1.999 < sum_q ls vs)%Q /\ (sum_q ls vs < 2.001)%Q)).
  { clear - E1 E2 E3 E4. vm_compute in E1, E2, E3, E4. injection E1 as <-. injection E2 as <-. injection E3 as <-. injection E4 as <-. vm_compute. repeat split; discriminate || reflexivity. }
  destruct C as ([C1 C2] & [C3 C4] & [C5 C6] & [C7 C8]). apply Qlt_Rlt in C1, C2, C3, C4, C5, C6, C7, C8.
  assert (D : Q2R 0.209 = 0.209 /\ Q2R 0.21 = 0.21 /\ Q2R 0.417 = 0.417 /\ Q2R 0.418 = 0.418 /\ Q2R 1.999 = 1.999 /\ Q2R 2.001 = 2.001) by (unfold Q2R; cbn; repeat split; lra).
  destruct D as (D1 & D2 & D3 & D4 & D5 & D6).
  split; [lra|]. split; [lra|]. exists (Q2R (sum_q (ls ++ ss) ws)), (Q2R (sum_q ls vs)). split; [lra|]. split; [lra|]. split; [exact PE|]. rewrite PG, PE. reflexivity.
Qed.

(** A function at least 1 everywhere is integrated to 0 over [-1, 1] when the
    depth limit is reached. *)
Theorem C53_depth_refuted : exists f, (forall x, 1 <= f x) /\ gauss_kronrod f [(-1, 1)] 0.01 15 1 = Some [0].
Proof.
  exists (fun x => 1 * 1 + 1 * spike x). split.
  - intros x. unfold spike. destruct (req x 0); lra.
  - destruct (spike_estimates 1 1) as (s & g & S & G & t & h & T & H & PE & PR). apply C53_depth; [left; reflexivity|lra|rewrite PE; lra|]. rewrite PE, PR. rewrite Rabs_left by lra. lra.
Qed.
(** A function that vanishes except at one point is integrated to less than
    -0.2, with a tolerance of 1e-9 and every depth limit. *)
Theorem C53_negative_refuted : exists f, (forall x, x <> 0 -> f x = 0) /\ forall d, exists v, gauss_kronrod f [(-1, 1)] (1 / 10 ^ 9) 15 (S d) = Some [v] /\ v < -0.2.
Proof.
  exists (fun x => 0 * 1 + -1 * spike x). split.
  - intros x N. unfold spike. replace (req x 0) with false by (symmetry; apply req_false; exact N). ring.
  - intros d. destruct (spike_estimates 0 (-1)) as (s & g & S & G & t & h & T & H & PE & PR). exists (piece_estimate (fun x => 0 * 1 + -1 * spike x) 15 (-1, 1)). split; [|rewrite PE; lra].
    apply C53_negative; [left; reflexivity| |rewrite PE; lra]. apply Rlt_le, Rdiv_lt_0_compat; [lra|apply pow_lt; lra].
Qed.

(** A batch of two intervals: hypotheses of the tiling theorem hold. *)
Example C53_ex : exists results, gauss_kronrod (peval [1; 2]) [(0, 1); (2, 5)] 0.001 21 20 = Some results /\ length results = 2%nat.
Proof.
  destruct (gauss_kronrod (peval [1; 2]) [(0, 1); (2, 5)] 0.001 21 20) as [rs|] eqn:E.
  2:{ exfalso. apply (proj2 (C53_supported (peval [1; 2]) [(0, 1); (2, 5)] 0.001 21 20 ltac:(discriminate) ltac:(lia))); [right; left; reflexivity|exact E]. }
  exists rs. split; [reflexivity|]. unfold gauss_kronrod in E. destruct (kronrod_loop _ _ _ _ _) as [rows|] eqn:K; [|discriminate]. injection E as <-. rewrite map_length.
  pose proof (loop_ok _ _ 21 (estimates_ok (peval [1; 2]) 21 ltac:(cbn; tauto)) 20 1 _ _ rows (init_ok _ _ 21 [(0, 1); (2, 5)]) K) as F. unfold limits_ok in F.
  inversion F as [|? ? ? ? _ F1]; subst. inversion F1 as [|? ? ? ? _ F2]; subst. inversion F2. reflexivity.
Qed.

Print Assumptions C53_supported.
Print Assumptions C53_tiling.
Print Assumptions C53_error_control.
Print Assumptions C53_polynomial.
Print Assumptions C53_tiled_polynomial.
Print Assumptions C53_depth.
Print Assumptions C53_negative.
Print Assumptions C53_depth_refuted.
Print Assumptions C53_negative_refuted.
