(** Lemmas about the Brent root search model. *)
From Coq Require Import Reals List Bool Arith Lia Lra Psatz.
From Verif Require Import InterpModel BrentModel.
Import ListNotations.
Open Scope R_scope.

Lemma rlt_true a b : rlt a b = true <-> a < b.
Proof. unfold rlt. destruct (Rlt_dec a b); split; intros; try reflexivity; try assumption; try discriminate; lra. Qed.
Lemma rlt_false a b : rlt a b = false <-> b <= a.
Proof. unfold rlt. destruct (Rlt_dec a b); split; intros; try reflexivity; try discriminate; lra. Qed.
Lemma rle_true a b : rle a b = true <-> a <= b.
Proof. unfold rle. destruct (Rle_dec a b); split; intros; try reflexivity; try assumption; try discriminate; lra. Qed.
Lemma rle_false a b : rle a b = false <-> b < a.
Proof. unfold rle. destruct (Rle_dec a b); split; intros; try reflexivity; try discriminate; lra. Qed.
Lemma req_true a b : req a b = true <-> a = b.
Proof. unfold req. destruct (Req_EM_T a b); split; intros; try reflexivity; try assumption; try discriminate; contradiction. Qed.
Lemma req_false a b : req a b = false <-> a <> b.
Proof. unfold req. destruct (Req_EM_T a b); split; intros; try reflexivity; try assumption; try discriminate; contradiction. Qed.

(** ** Signs *)
Lemma mul_neg_cases a b : a * b < 0 -> (a < 0 /\ 0 < b) \/ (0 < a /\ b < 0).
Proof. intros H. destruct (Rtotal_order a 0) as [A|[A|A]]; [left|subst; lra|right]; split; try assumption; nra. Qed.
Lemma mul_pos_cases a b : 0 < a * b -> (a < 0 /\ b < 0) \/ (0 < a /\ 0 < b).
Proof. intros H. destruct (Rtotal_order a 0) as [A|[A|A]]; [left|subst; lra|right]; split; try assumption; nra. Qed.
Lemma div_pos a b : 0 < a * b -> 0 < a / b.
Proof.
  intros H. apply mul_pos_cases in H as [[A B]|[A B]].
  - replace (a / b) with ((- a) / (- b)) by (field; lra). apply Rdiv_lt_0_compat; lra.
  - apply Rdiv_lt_0_compat; lra.
Qed.
Lemma div_neg a b : a * b < 0 -> a / b < 0.
Proof.
  intros H. assert (b <> 0) by (destruct (mul_neg_cases _ _ H); lra). replace (a / b) with (- ((- a) / b)) by (field; assumption).
  assert (0 < (- a) / b) by (apply div_pos; lra). lra.
Qed.

Lemma same_sign_nonneg x y : (x < 0 /\ y < 0) \/ (0 < x /\ 0 < y) -> 0 <= x * y.
Proof. intros [[A B]|[A B]]; nra. Qed.

(** The secant step points from [b] towards [c]. *)
Lemma secant_sign b c fb fc : fb * fc < 0 -> 0 <= secant_step b c fb fc * (c - b).
Proof.
  intros H. unfold secant_step. assert (fb - fc <> 0) by (destruct (mul_neg_cases _ _ H); lra).
  replace (- fb * (b - c) / (fb - fc) * (c - b)) with ((c - b) * (c - b) * (fb / (fb - fc))) by (field; assumption).
  apply Rmult_le_pos; [apply Rle_0_sqr|]. left. apply div_pos. pose proof (Rle_0_sqr fb) as Q. unfold Rsqr in Q. lra.
Qed.
(** So does the inverse quadratic one when [b] lies between [l] and [c]. *)
Lemma quad_sign b l c fb fl fc : fb * fc < 0 -> fl * fc < 0 -> Rabs fb < Rabs fl -> 0 < (b - l) * (c - b) ->
  0 <= quadratic_interpolation_step fb fl fc b l c * (c - b).
Proof.
  intros H1 H2 H3 H4. unfold quadratic_interpolation_step.
  set (r2 := (fl - fb) / (l - b)). set (r3 := (fc - fb) / (c - b)).
  apply mul_pos_cases in H4. apply mul_neg_cases in H1. apply mul_neg_cases in H2.
  assert (S3 : (c - b < 0 -> 0 < r3 * (- fc)  ) /\ (0 < c - b -> r3 * fc > 0)).
  { unfold r3. split; intros C.
    - destruct H1 as [[A B]|[A B]].
      + assert ((fc - fb) / (c - b) < 0) by (apply div_neg; nra). nra.
      + assert (0 < (fc - fb) / (c - b)) by (apply div_pos; nra). nra.
    - destruct H1 as [[A B]|[A B]].
      + assert (0 < (fc - fb) / (c - b)) by (apply div_pos; nra). nra.
      + assert ((fc - fb) / (c - b) < 0) by (apply div_neg; nra). nra. }
  assert (S2 : (c - b < 0 -> 0 < r2 * fl) /\ (0 < c - b -> r2 * fl < 0)).
  { unfold r2. split; intros C.
    - destruct H2 as [[A B]|[A B]]; destruct H1 as [[A1 B1]|[A1 B1]]; try lra.
      + rewrite !Rabs_left in H3 by lra. assert ((fl - fb) / (l - b) < 0) by (apply div_neg; nra). nra.
      + rewrite !Rabs_right in H3 by lra. assert (0 < (fl - fb) / (l - b)) by (apply div_pos; nra). nra.
    - destruct H2 as [[A B]|[A B]]; destruct H1 as [[A1 B1]|[A1 B1]]; try lra.
      + rewrite !Rabs_left in H3 by lra. assert (0 < (fl - fb) / (l - b)) by (apply div_pos; nra). nra.
      + rewrite !Rabs_right in H3 by lra. assert ((fl - fb) / (l - b) < 0) by (apply div_neg; nra). nra. }
  clearbody r2 r3. unfold divide_no_nan. destruct (Req_EM_T (r3 * r2 * (fc - fl)) 0) as [Z|Z]; [nra|].
  destruct S2 as [S2a S2b], S3 as [S3a S3b].
  set (num := fc * r3 - fl * r2). set (den := r3 * r2 * (fc - fl)) in *.
  assert (E : - fb * (num / den) * (c - b) = (- fb * (c - b)) * (num / den)) by (field; assumption). rewrite E. clear E.
  destruct H4 as [[L C]|[L C]].
  - specialize (S2a C). specialize (S3a C). assert (N : num < 0) by (unfold num; clear - S2a S3a; lra).
    destruct H1 as [[A B]|[A B]]; destruct H2 as [[A2 B2]|[A2 B2]]; try lra.
    + assert (r3 < 0) by nra. assert (r2 < 0) by nra. assert (0 < den) by (unfold den; assert (0 < r3 * r2) by nra; nra).
      assert (num / den < 0) by (apply div_neg; nra). apply same_sign_nonneg. left. split; [clear - C A; nra|assumption].
    + assert (0 < r3) by nra. assert (0 < r2) by nra. assert (den < 0) by (unfold den; assert (0 < r3 * r2) by nra; nra).
      assert (0 < num / den) by (apply div_pos; nra). apply same_sign_nonneg. right. split; [clear - C A; nra|assumption].
  - specialize (S2b C). specialize (S3b C). assert (N : 0 < num) by (unfold num; clear - S2b S3b; lra).
    destruct H1 as [[A B]|[A B]]; destruct H2 as [[A2 B2]|[A2 B2]]; try lra.
    + assert (0 < r3) by nra. assert (0 < r2) by nra. assert (0 < den) by (unfold den; assert (0 < r3 * r2) by nra; nra).
      assert (0 < num / den) by (apply div_pos; nra). apply same_sign_nonneg. right. split; [clear - C A; nra|assumption].
    + assert (r3 < 0) by nra. assert (r2 < 0) by nra. assert (den < 0) by (unfold den; assert (0 < r3 * r2) by nra; nra).
      assert (num / den < 0) by (apply div_neg; nra). apply same_sign_nonneg. left. split; [clear - C A; nra|assumption].
Qed.

(** The move of one iteration: towards [c], at least the tolerance, at most
    three quarters of the way. *)
Definition good_move (tol b c d : R) : Prop :=
  (b < c -> tol <= d <= 3 / 4 * (c - b)) /\ (c < b -> 3 / 4 * (c - b) <= d <= - tol).

Lemma move_ok tol b c s : 0 <= tol -> tol <= Rabs (/ 2 * (c - b)) -> 0 <= s * (c - b) -> Rabs s <= 3 / 4 * Rabs (c - b) ->
  good_move tol b c (if rlt tol (Rabs s) then s else if rlt 0 (/ 2 * (c - b)) then tol else - tol).
Proof.
  intros T M S B. split; intros C.
  - rewrite (Rabs_right (/ 2 * (c - b))) in M by lra. rewrite (Rabs_right (c - b)) in B by lra.
    assert (0 <= s) by nra. rewrite Rabs_right in * by lra.
    destruct (rlt tol s) eqn:E; [apply rlt_true in E; lra|].
    assert (E2 : rlt 0 (/ 2 * (c - b)) = true) by (apply rlt_true; lra). rewrite E2. lra.
  - rewrite (Rabs_left (/ 2 * (c - b))) in M by lra. rewrite (Rabs_left (c - b)) in B by lra.
    assert (s <= 0) by nra. rewrite (Rabs_left1 s) in * by lra.
    destruct (rlt tol (- s)) eqn:E; [apply rlt_true in E; lra|].
    assert (E2 : rlt 0 (/ 2 * (c - b)) = false) by (apply rlt_false; lra). rewrite E2. lra.
Qed.

(** ** One loop body in two stages *)
Definition reorder (s : bstate) : bstate :=
  let replace_contrapoint := negb (finished s) && rlt (value_at_last_estimate s * value_at_best_estimate s) 0 in
  let contra := if replace_contrapoint then last_estimate s else contrapoint s in
  let v_contra := if replace_contrapoint then value_at_last_estimate s else value_at_contrapoint s in
  let s_last := if replace_contrapoint then best_estimate s - last_estimate s else step_to_last_estimate s in
  let s_best := if replace_contrapoint then s_last else step_to_best_estimate s in
  let replace_best := if finished s then false else rlt (Rabs v_contra) (Rabs (value_at_best_estimate s)) in
  let last := if replace_best then best_estimate s else last_estimate s in
  let best := if replace_best then contra else best_estimate s in
  let contra := if replace_best then last else contra in
  let v_last := if replace_best then value_at_best_estimate s else value_at_last_estimate s in
  let v_best := if replace_best then v_contra else value_at_best_estimate s in
  let v_contra := if replace_best then v_last else v_contra in
  BState best v_best last v_last contra v_contra s_best s_last (num_iterations s) (finished s).

Definition tol_at (p : bparams) (x : R) : R := / 2 * (absolute_root_tolerance p + relative_root_tolerance p * Rabs x).

Definition stops (p : bparams) (s : bstate) : bool :=
  finished s || (Nat.leb (max_iterations p) (num_iterations s)
                 || rlt (Rabs (/ 2 * (contrapoint s - best_estimate s))) (tol_at p (best_estimate s))
                 || rle (Rabs (value_at_best_estimate s)) (function_tolerance p)).

Definition trial (p : bparams) (s : bstate) : bool * R :=
  let compute := rlt (tol_at p (best_estimate s)) (Rabs (step_to_last_estimate s)) && rlt (Rabs (value_at_best_estimate s)) (Rabs (value_at_last_estimate s)) in
  let short :=
    if compute then
      if req (last_estimate s) (contrapoint s)
      then secant_step (best_estimate s) (last_estimate s) (value_at_best_estimate s) (value_at_last_estimate s)
      else quadratic_interpolation_step (value_at_best_estimate s) (value_at_last_estimate s) (value_at_contrapoint s) (best_estimate s) (last_estimate s) (contrapoint s)
    else 0 in
  let m := / 2 * (contrapoint s - best_estimate s) in
  let use := if compute then rlt (2 * Rabs short) (Rmin (3 * Rabs m - tol_at p (best_estimate s)) (Rabs (step_to_last_estimate s))) else false in
  (use, if use then short else m).

Definition move (p : bparams) (s : bstate) : R :=
  let t := snd (trial p s) in
  if rlt (tol_at p (best_estimate s)) (Rabs t) then t
  else if rlt 0 (/ 2 * (contrapoint s - best_estimate s)) then tol_at p (best_estimate s) else - tol_at p (best_estimate s).

Lemma body_stop p s : stops p (reorder s) = true ->
  let r := reorder s in let b := brent_loop_body p s in
  best_estimate b = best_estimate r /\ value_at_best_estimate b = value_at_best_estimate r /\
  last_estimate b = last_estimate r /\ value_at_last_estimate b = value_at_last_estimate r /\
  num_iterations b = num_iterations s /\ finished b = true.
Proof.
  intros H r b. unfold b, brent_loop_body, r. change (stops p (reorder s)) with
   (finished s || (Nat.leb (max_iterations p) (num_iterations s)
                 || rlt (Rabs (/ 2 * (contrapoint (reorder s) - best_estimate (reorder s)))) (tol_at p (best_estimate (reorder s)))
                 || rle (Rabs (value_at_best_estimate (reorder s))) (function_tolerance p))) in H.
  unfold reorder, tol_at in *. cbv zeta in *. cbn [best_estimate value_at_best_estimate last_estimate value_at_last_estimate contrapoint num_iterations finished] in *.
  rewrite H. rewrite Rplus_0_r. repeat split.
Qed.
Lemma body_go p s : stops p (reorder s) = false ->
  let r := reorder s in
  brent_loop_body p s =
    BState (best_estimate r + move p r) (objective_fn p (best_estimate r + move p r)) (best_estimate r) (value_at_best_estimate r)
      (contrapoint r) (value_at_contrapoint r) (snd (trial p r)) (if fst (trial p r) then step_to_best_estimate r else / 2 * (contrapoint r - best_estimate r))
      (S (num_iterations s)) false.
Proof.
  intros H r. unfold brent_loop_body, r. change (stops p (reorder s)) with
   (finished s || (Nat.leb (max_iterations p) (num_iterations s)
                 || rlt (Rabs (/ 2 * (contrapoint (reorder s) - best_estimate (reorder s)))) (tol_at p (best_estimate (reorder s)))
                 || rle (Rabs (value_at_best_estimate (reorder s))) (function_tolerance p))) in H.
  unfold move, trial, reorder, tol_at in *. cbv zeta in *.
  cbn [best_estimate value_at_best_estimate last_estimate value_at_last_estimate contrapoint value_at_contrapoint step_to_best_estimate step_to_last_estimate num_iterations finished fst snd] in *.
  rewrite H. reflexivity.
Qed.

(** ** The invariant *)
Section Inv.
Variable p : bparams.
Variables lo hi : R.
Notation f := (objective_fn p).
Definition inside x := lo <= x <= hi.

Definition inv (s : bstate) : Prop :=
  value_at_best_estimate s = f (best_estimate s) /\ value_at_last_estimate s = f (last_estimate s) /\
  inside (best_estimate s) /\ inside (last_estimate s) /\
  (finished s = false ->
     f (last_estimate s) * f (best_estimate s) < 0 \/
     (value_at_contrapoint s = f (contrapoint s) /\ inside (contrapoint s) /\ f (last_estimate s) * f (contrapoint s) < 0 /\
      0 <= f (last_estimate s) * f (best_estimate s) /\
      0 <= (best_estimate s - last_estimate s) * (contrapoint s - best_estimate s))).

Definition ordered (s : bstate) : Prop :=
  value_at_best_estimate s = f (best_estimate s) /\ value_at_last_estimate s = f (last_estimate s) /\ value_at_contrapoint s = f (contrapoint s) /\
  inside (best_estimate s) /\ inside (last_estimate s) /\ inside (contrapoint s) /\
  (f (best_estimate s) <> 0 ->
   f (best_estimate s) * f (contrapoint s) < 0 /\
   (last_estimate s = contrapoint s \/
    (f (last_estimate s) * f (contrapoint s) < 0 /\ 0 <= (best_estimate s - last_estimate s) * (contrapoint s - best_estimate s)))).

(** The length of the bracket the search holds. *)
Definition width (s : bstate) : R :=
  if rlt (value_at_last_estimate s * value_at_best_estimate s) 0 then Rabs (last_estimate s - best_estimate s)
  else Rabs (contrapoint s - best_estimate s).

Lemma reorder_ok s : inv s -> finished s = false ->
  ordered (reorder s) /\ Rabs (contrapoint (reorder s) - best_estimate (reorder s)) = width s.
Proof.
  intros (VB & VL & IB & IL & H) F. specialize (H F). unfold ordered, reorder, width. rewrite F. cbn [negb andb]. rewrite VB, VL. cbv zeta.
  cbn [best_estimate value_at_best_estimate last_estimate value_at_last_estimate contrapoint value_at_contrapoint].
  destruct H as [H|(VC & IC & H1 & H2 & H3)].
  - rewrite (proj2 (rlt_true _ _) H). destruct (rlt _ _).
    + split; [|apply Rabs_minus_sym]. do 6 (split; [first [reflexivity|assumption]|]). intros _. split; [exact H|left; reflexivity].
    + split; [|reflexivity]. do 6 (split; [first [reflexivity|assumption]|]). intros _. split; [lra|left; reflexivity].
  - rewrite (proj2 (rlt_false _ _) H2). rewrite VC. destruct (rlt _ _) eqn:E.
    + split; [|apply Rabs_minus_sym]. do 6 (split; [first [reflexivity|assumption]|]). intros _. split; [|left; reflexivity].
      apply rlt_true in E. assert (NZ : f (best_estimate s) <> 0). { intros Z. rewrite Z, Rabs_R0 in E. pose proof (Rabs_pos (f (contrapoint s))). lra. }
      clear - H1 H2 NZ. apply mul_neg_cases in H1. destruct H1 as [[A B]|[A B]]; destruct (Rtotal_order (f (best_estimate s)) 0) as [C|[C|C]]; try contradiction; nra.
    + split; [|reflexivity]. do 6 (split; [first [reflexivity|assumption]|]). intros NZ. split.
      * clear - H1 H2 NZ. apply mul_neg_cases in H1. destruct H1 as [[A B]|[A B]]; destruct (Rtotal_order (f (best_estimate s)) 0) as [C|[C|C]]; try contradiction; nra.
      * right. split; assumption.
Qed.

Hypothesis AT : 0 <= absolute_root_tolerance p.
Hypothesis RT : 0 <= relative_root_tolerance p.
Hypothesis FT : 0 <= function_tolerance p.

Lemma tol_nonneg x : 0 <= tol_at p x.
Proof. unfold tol_at. pose proof (Rabs_pos x). nra. Qed.
Lemma tol_atol x : absolute_root_tolerance p / 2 <= tol_at p x.
Proof. unfold tol_at. pose proof (Rabs_pos x). assert (0 <= relative_root_tolerance p * Rabs x) by nra. lra. Qed.

Lemma trial_ok r : ordered r -> stops p r = false ->
  0 <= snd (trial p r) * (contrapoint r - best_estimate r) /\ Rabs (snd (trial p r)) <= 3 / 4 * Rabs (contrapoint r - best_estimate r).
Proof.
  intros (VB & VL & VC & IB & IL & IC & H) S. unfold stops in S. apply orb_false_iff in S as [F S]. apply orb_false_iff in S as [S S3]. apply orb_false_iff in S as [S1 S2].
  apply rlt_false in S2. apply rle_false in S3. rewrite VB in S3.
  assert (NZ : f (best_estimate r) <> 0). { intros Z. rewrite Z, Rabs_R0 in S3. lra. }
  destruct (H NZ) as [H1 H2]. clear H. unfold trial. cbv zeta. cbn [snd].
  assert (BIS : 0 <= / 2 * (contrapoint r - best_estimate r) * (contrapoint r - best_estimate r) /\ Rabs (/ 2 * (contrapoint r - best_estimate r)) <= 3 / 4 * Rabs (contrapoint r - best_estimate r)).
  { split; [pose proof (Rle_0_sqr (contrapoint r - best_estimate r)) as Q; unfold Rsqr in Q; lra|]. rewrite Rabs_mult, (Rabs_right (/ 2)) by lra. pose proof (Rabs_pos (contrapoint r - best_estimate r)). lra. }
  destruct (rlt (tol_at p (best_estimate r)) (Rabs (step_to_last_estimate r)) && rlt (Rabs (value_at_best_estimate r)) (Rabs (value_at_last_estimate r))) eqn:C; [|exact BIS].
  apply andb_true_iff in C as [C1 C2]. apply rlt_true in C2. rewrite VB, VL in C2.
  match goal with |- context [if ?u then ?s else _] => destruct u eqn:U; [|exact BIS]; set (st := s) in * end.
  apply rlt_true in U. split.
  - unfold st. rewrite VB, VL, VC. destruct (req (last_estimate r) (contrapoint r)) eqn:Q.
    + apply req_true in Q. rewrite Q. apply secant_sign. assumption.
    + apply req_false in Q. destruct H2 as [H2|[H2 H3]]; [contradiction|]. apply quad_sign; try assumption.
      destruct (Rle_lt_or_eq_dec _ _ H3) as [L|L]; [assumption|]. exfalso. symmetry in L. apply Rmult_integral in L as [L|L].
      * assert (E : best_estimate r = last_estimate r) by lra. rewrite E in C2. lra.
      * assert (E : best_estimate r = contrapoint r) by lra. rewrite E in H1. pose proof (Rle_0_sqr (f (contrapoint r))). unfold Rsqr in *. lra.
  - pose proof (Rmin_l (3 * Rabs (/ 2 * (contrapoint r - best_estimate r)) - tol_at p (best_estimate r)) (Rabs (step_to_last_estimate r))).
    pose proof (tol_nonneg (best_estimate r)). rewrite Rabs_mult, (Rabs_right (/ 2)) in * by lra. lra.
Qed.

Lemma move_good r : ordered r -> stops p r = false ->
  good_move (tol_at p (best_estimate r)) (best_estimate r) (contrapoint r) (move p r).
Proof.
  intros O S. destruct (trial_ok r O S) as [T1 T2]. unfold move. cbv zeta. apply move_ok; try assumption; [apply tol_nonneg|].
  unfold stops in S. apply orb_false_iff in S as [F S]. apply orb_false_iff in S as [S S3]. apply orb_false_iff in S as [S1 S2].
  apply rlt_false in S2. exact S2.
Qed.

(** Why a search is over. *)
Definition reason (s : bstate) : Prop :=
  (max_iterations p <= num_iterations s)%nat \/ Rabs (f (best_estimate s)) <= function_tolerance p \/
  exists c, inside c /\ f (best_estimate s) * f c < 0 /\ Rabs (c - best_estimate s) < absolute_root_tolerance p + relative_root_tolerance p * Rabs (best_estimate s).

Lemma reorder_finished s : finished s = true -> best_estimate (reorder s) = best_estimate s /\ value_at_best_estimate (reorder s) = value_at_best_estimate s /\
   last_estimate (reorder s) = last_estimate s /\ value_at_last_estimate (reorder s) = value_at_last_estimate s.
Proof. intros F. unfold reorder. rewrite F. cbn. repeat split. Qed.

Lemma body_finished s : finished s = true ->
  let b := brent_loop_body p s in
  best_estimate b = best_estimate s /\ value_at_best_estimate b = value_at_best_estimate s /\ last_estimate b = last_estimate s /\ value_at_last_estimate b = value_at_last_estimate s /\
  num_iterations b = num_iterations s /\ finished b = true.
Proof.
  intros F b. destruct (reorder_finished s F) as (R1 & R2 & R3 & R4).
  assert (S : stops p (reorder s) = true) by (unfold stops; cbn; rewrite F; reflexivity).
  destruct (body_stop p s S) as (B1 & B2 & B3 & B4 & B5 & B6). unfold b. rewrite B1, B2, B3, B4. repeat split; assumption.
Qed.

(** One body keeps the invariant; when it goes on, the bracket shrinks. *)
Lemma body_inv s : inv s -> (finished s = true -> reason s) ->
  let b := brent_loop_body p s in
  inv b /\ (finished b = true -> reason b) /\
  (finished b = false -> finished s = false /\ num_iterations b = S (num_iterations s) /\ (num_iterations s < max_iterations p)%nat /\
     width b <= width s - absolute_root_tolerance p / 4) /\
  (finished s = false -> finished b = true -> num_iterations b = num_iterations s).
Proof.
  intros I K b. destruct (finished s) eqn:F.
  - destruct (body_finished s F) as (B1 & B2 & B3 & B4 & B5 & B6). fold b in B1, B2, B3, B4, B5, B6.
    destruct I as (VB & VL & IB & IL & _). split; [|split; [|split]].
    + unfold inv. rewrite B1, B2, B3, B4, B6. repeat split; try assumption; try apply IB; try apply IL. discriminate.
    + intros _. specialize (K eq_refl). unfold reason in *. rewrite B1, B5. exact K.
    + rewrite B6. discriminate.
    + discriminate.
  - destruct (reorder_ok s I F) as [O W]. assert (O' := O). destruct O' as (VB & VL & VC & IB & IL & IC & H).
    destruct (stops p (reorder s)) eqn:S.
    + destruct (body_stop p s S) as (B1 & B2 & B3 & B4 & B5 & B6). fold b in B1, B2, B3, B4, B5, B6.
      split; [|split; [|split]].
      * unfold inv. rewrite B1, B2, B3, B4, B6. repeat split; try assumption; try apply IB; try apply IL. discriminate.
      * intros _. unfold reason. rewrite B1, B5. unfold stops in S.
        apply orb_true_iff in S as [S|S]; [change (finished s = true) in S; congruence|].
        apply orb_true_iff in S as [S|S]; [apply orb_true_iff in S as [S|S]|].
        -- left. apply Nat.leb_le. exact S.
        -- destruct (Req_dec (f (best_estimate (reorder s))) 0) as [Z|NZ]; [right; left; rewrite Z, Rabs_R0; assumption|].
           right; right. destruct (H NZ) as [H1 _]. exists (contrapoint (reorder s)). split; [assumption|]. split; [assumption|].
           apply rlt_true in S. unfold tol_at in S. rewrite Rabs_mult, (Rabs_right (/ 2)) in S by lra. lra.
        -- right; left. apply rle_true in S. rewrite VB in S. exact S.
      * rewrite B6. discriminate.
      * intros _ _. exact B5.
    + assert (G := body_go p s S). cbv zeta in G. fold b in G. assert (MG := move_good _ O S).
      assert (S' := S). unfold stops in S'. apply orb_false_iff in S' as [_ S']. apply orb_false_iff in S' as [S' S3]. apply orb_false_iff in S' as [S1 S2].
      apply rle_false in S3. rewrite VB in S3. apply rlt_false in S2. apply Nat.leb_gt in S1. change (num_iterations s < max_iterations p)%nat in S1.
      assert (NZ : f (best_estimate (reorder s)) <> 0). { intros Z. rewrite Z, Rabs_R0 in S3. lra. }
      destruct (H NZ) as [H1 _]. clear H.
      set (r := reorder s) in *. set (d := move p r) in *.
      assert (NE : best_estimate r <> contrapoint r). { intros E. rewrite E in H1. pose proof (Rle_0_sqr (f (contrapoint r))). unfold Rsqr in *. lra. }
      assert (T := tol_nonneg (best_estimate r)). assert (TA := tol_atol (best_estimate r)).
      rewrite Rabs_mult, (Rabs_right (/ 2)) in S2 by lra. destruct MG as [M1 M2].
      rewrite G. unfold inv, width. cbn [best_estimate value_at_best_estimate last_estimate value_at_last_estimate contrapoint value_at_contrapoint num_iterations finished].
      split; [|split; [|split]].
      * split; [reflexivity|]. split; [exact VB|]. destruct IB as [IB1 IB2], IC as [IC1 IC2]. unfold inside.
        assert (BT : lo <= best_estimate r + d <= hi /\ 0 <= d * (contrapoint r - (best_estimate r + d))).
        { destruct (Rtotal_order (best_estimate r) (contrapoint r)) as [L|[L|L]]; [specialize (M1 L)|contradiction|specialize (M2 L)].
          - split; [lra|]. apply Rmult_le_pos; lra.
          - split; [lra|]. replace (d * (contrapoint r - (best_estimate r + d))) with ((- d) * (best_estimate r + d - contrapoint r)) by ring. apply Rmult_le_pos; lra. }
        destruct BT as [BT1 BT2]. split; [exact BT1|]. split; [lra|]. intros _.
        destruct (Rlt_dec (f (best_estimate r) * f (best_estimate r + d)) 0) as [L|L]; [left; exact L|]. right.
        split; [exact VC|]. split; [lra|]. split; [exact H1|]. split; [lra|]. replace (best_estimate r + d - best_estimate r) with d by ring. exact BT2.
      * discriminate.
      * intros _. split; [reflexivity|]. split; [reflexivity|]. split; [exact S1|].
        change (Rabs (contrapoint r - best_estimate r) = width s) in W. fold (width s). rewrite <- W. rewrite VB.
        destruct (rlt _ _).
        -- replace (best_estimate r - (best_estimate r + d)) with (- d) by ring. rewrite Rabs_Ropp.
           destruct (Rtotal_order (best_estimate r) (contrapoint r)) as [L|[L|L]]; [specialize (M1 L)|contradiction|specialize (M2 L)].
           ++ rewrite (Rabs_right (contrapoint r - best_estimate r)) in * by lra. rewrite Rabs_right by lra. lra.
           ++ rewrite (Rabs_left (contrapoint r - best_estimate r)) in * by lra. rewrite Rabs_left1 by lra. lra.
        -- destruct (Rtotal_order (best_estimate r) (contrapoint r)) as [L|[L|L]]; [specialize (M1 L)|contradiction|specialize (M2 L)].
           ++ rewrite (Rabs_right (contrapoint r - best_estimate r)) in * by lra. rewrite Rabs_right by lra. lra.
           ++ rewrite (Rabs_left (contrapoint r - best_estimate r)) in * by lra. rewrite Rabs_left1 by lra. lra.
      * discriminate.
Qed.

Lemma width_nonneg s : 0 <= width s.
Proof. unfold width. destruct (rlt _ _); apply Rabs_pos. Qed.

Definition run (k : nat) (s : bstate) : bstate := Nat.iter k (brent_loop_body p) s.

Lemma run_inv s k : inv s -> (finished s = true -> reason s) ->
  inv (run k s) /\ (finished (run k s) = true -> reason (run k s)) /\
  (finished (run k s) = false -> num_iterations (run k s) = (num_iterations s + k)%nat /\ (k <> 0%nat -> (num_iterations (run k s) <= max_iterations p)%nat) /\
     INR k * (absolute_root_tolerance p / 4) <= width s - width (run k s)) /\
  (num_iterations (run k s) <= Nat.max (num_iterations s) (max_iterations p))%nat.
Proof.
  intros I K. induction k as [|k (IH1 & IH2 & IH3 & IH4)].
  - cbn [run Nat.iter]. unfold run. cbn. split; [assumption|]. split; [assumption|]. split; [|lia]. intros F. split; [lia|]. split; [lia|]. lra.
  - change (run (S k) s) with (brent_loop_body p (run k s)).
    destruct (body_inv (run k s) IH1 IH2) as (B1 & B2 & B3 & B4). split; [exact B1|]. split; [exact B2|]. split.
    + intros F. destruct (B3 F) as (C1 & C2 & C3 & C4). destruct (IH3 C1) as (D1 & D2 & D3). split; [lia|]. split; [lia|]. rewrite S_INR. lra.
    + destruct (finished (brent_loop_body p (run k s))) eqn:F.
      * destruct (finished (run k s)) eqn:F'.
        -- destruct (body_finished (run k s) F') as (_ & _ & _ & _ & E & _). lia.
        -- rewrite (B4 eq_refl eq_refl). lia.
      * destruct (B3 eq_refl) as (C1 & C2 & C3 & C4). lia.
Qed.
End Inv.
