(** C30: Newton root search.  [root_finder fs starts max_iterations tol rtol]
    returns (position, converged, failed) for every element; [fs] are the
    components of a value-and-gradient function acting elementwise. *)
From Coq Require Import Reals List Bool Arith Lia Lra Psatz.
From Verif Require Import InterpModel BrentModel BrentProofs BrentProofs2 ExtReal NewtonModel NewtonProofs.
Import ListNotations.
Open Scope R_scope.

(** ** Specification: Newton's method for a function F with derivative F' *)
Definition small_step (F F' : R -> R) (rtol tol x : R) : Prop := F' x <> 0 /\ Rabs (F x / F' x) < rtol * Rabs (F x) + tol.
(** [newton_path n x]: n steps x - F/F' lead from x0 to x, and the search had
    no reason to stop at any of the earlier points. *)
Inductive newton_path (F F' : R -> R) (rtol tol x0 : R) : nat -> R -> Prop :=
| path_start : newton_path F F' rtol tol x0 0 x0
| path_step n x : newton_path F F' rtol tol x0 n x -> F' x <> 0 -> ~ small_step F F' rtol tol x ->
    newton_path F F' rtol tol x0 (S n) (x - F x / F' x).
(** A value-and-gradient function that is F, F' on finite arguments and anything elsewhere. *)
Definition computes (f : xr -> xr * xr) (F F' : R -> R) : Prop := forall a, f (Fin a) = (Fin (F a), Fin (F' a)).

(** Every case of one update at a finite point. *)
Lemma upd_fin rtol tol f F F' a : computes f F F' ->
  (F' a = 0 /\ is_finite (fst (fst (newton_update rtol tol f (Fin a)))) = false /\ snd (fst (newton_update rtol tol f (Fin a))) = false) \/
  (small_step F F' rtol tol a /\ newton_update rtol tol f (Fin a) = (Fin a, true, false)) \/
  (F' a <> 0 /\ ~ small_step F F' rtol tol a /\ newton_update rtol tol f (Fin a) = (Fin (a - F a / F' a), false, false)).
Proof.
  intros C. unfold newton_update. rewrite C. cbn [xdiv]. destruct (req (F' a) 0) eqn:E.
  - apply req_true in E. left. split; [exact E|]. destruct (req (F a) 0); [split; reflexivity|]. cbn.
    destruct (rlt (F a) 0); cbn; unfold req, rlt; destruct (Req_EM_T (- (1)) 0); try lra; split; reflexivity.
  - apply req_false in E. right. cbn [xabs xmul xadd xlt]. destruct (rlt _ _) eqn:L.
    + left. apply rlt_true in L. split; [split; assumption|]. cbn. f_equal. f_equal. f_equal. ring.
    + right. apply rlt_false in L. split; [exact E|]. split; [intros [_ H]; lra|]. cbn. f_equal. f_equal. f_equal. ring.
Qed.

Theorem C30_result fs starts max_iterations tol rtol i f F F' x0 y converged failed :
  length fs = length starts -> nth_error fs i = Some f -> nth_error starts i = Some (Fin x0) -> computes f F F' ->
  nth_error (root_finder fs starts max_iterations tol rtol) i = Some (y, converged, failed) ->
  (* failed: the path ran into a point of zero derivative *)
  (failed = true -> is_finite y = false /\ exists n x, (n < max_iterations)%nat /\ newton_path F F' rtol tol x0 n x /\ F' x = 0) /\
  (* otherwise the position is a point of the path ... *)
  (failed = false -> exists n x, y = Fin x /\ (n <= max_iterations)%nat /\ newton_path F F' rtol tol x0 n x /\
     (* ... where the criterion holds if the flag says so, the last allowed one if not *)
     (converged = true -> small_step F F' rtol tol x) /\ (converged = false -> n = max_iterations)).
Proof.
  intros L FI XI C RI. destruct (root_finder_element _ _ _ _ _ _ _ _ _ L FI XI RI) as (k & K1 & K2 & K3).
  assert (INV : forall k, let r := niter rtol tol f k (start (Fin x0)) in
     (is_finite (fst (fst r)) = false /\ (0 < k)%nat /\ exists n x, (n < k)%nat /\ newton_path F F' rtol tol x0 n x /\ F' x = 0) \/
     (exists n x, r = (Fin x, snd (fst r), false) /\ (n <= k)%nat /\ newton_path F F' rtol tol x0 n x /\
        (snd (fst r) = true -> small_step F F' rtol tol x) /\ (snd (fst r) = false -> n = k))).
  { clear k K1 K2 K3. induction k as [|k IH]; intros r.
    - right. exists 0%nat, x0. cbn. repeat split; try lia; try constructor; discriminate.
    - unfold r. clear r. rewrite niter_S. cbv zeta in IH. set (q := niter rtol tol f k (start (Fin x0))) in *.
      destruct IH as [(I1 & I2 & n & x & I3 & I4 & I5)|(n & x & I1 & I2 & I3 & I4 & I5)].
      + left. split; [apply upd_nonfinite; exact I1|]. split; [lia|]. exists n, x. split; [lia|]. split; assumption.
      + rewrite I1. cbn [fst].
        destruct (snd (fst q)) eqn:CQ.
        * (* already converged *)
          assert (Q : q = (Fin x, true, false)) by exact I1.
          apply niter_true in Q. rewrite Q. cbn [fst snd]. right. exists n, x. repeat split; try lia; try assumption; try (apply I4; reflexivity); discriminate.
        * destruct (upd_fin rtol tol f F F' x C) as [(U1 & U2 & U3)|[(U1 & U2)|(U1 & U2 & U3)]].
          -- left. split; [exact U2|]. split; [lia|]. exists n, x. split; [lia|]. split; assumption.
          -- right. rewrite U2. exists n, x. cbn [fst snd]. repeat split; try assumption; try lia; try discriminate; apply U1.
          -- right. rewrite U3. exists (S n), (x - F x / F' x). cbn [fst snd]. specialize (I5 eq_refl). repeat split; try lia; try discriminate.
             constructor; assumption. }
  specialize (INV k). cbv zeta in INV. rewrite <- K2 in INV. cbn [fst snd] in INV, K3.
  destruct INV as [(I1 & I2 & n & x & I3 & I4 & I5)|(n & x & I1 & I2 & I3 & I4 & I5)].
  - assert (FL : failed = true). { pose proof (niter_flag rtol tol f k (Fin x0) I2) as H. rewrite <- K2 in H. cbn [fst snd] in H. rewrite I1 in H. exact H. }
    split; [|rewrite FL; discriminate]. intros _. split; [exact I1|]. exists n, x. split; [lia|]. split; assumption.
  - injection I1 as E1 E2. subst y failed. split; [discriminate|]. intros _. exists n, x. split; [reflexivity|]. split; [lia|]. split; [exact I3|]. split; [exact I4|].
    intros CF. rewrite (I5 CF). destruct K3 as [K3|K3]; [exact K3|]. rewrite CF in K3. discriminate.
Qed.

(** The failed flag is exactly "the returned position is not finite", for any
    function and any start, as soon as one iteration is allowed. *)
Theorem C30_failed_flag fs starts max_iterations tol rtol i f x y converged failed :
  length fs = length starts -> nth_error fs i = Some f -> nth_error starts i = Some x -> (0 < max_iterations)%nat ->
  nth_error (root_finder fs starts max_iterations tol rtol) i = Some (y, converged, failed) ->
  failed = negb (is_finite y).
Proof.
  intros L FI XI M RI. destruct (root_finder_element _ _ _ _ _ _ _ _ _ L FI XI RI) as (k & K1 & K2 & K3).
  destruct k as [|k].
  - cbn in K2. unfold start in K2. injection K2 as E1 E2 E3. subst. destruct K3 as [K3|K3]; [lia|]. cbn in K3. destruct x; cbn in *; congruence.
  - pose proof (niter_flag rtol tol f (S k) x ltac:(lia)) as H. rewrite <- K2 in H. exact H.
Qed.

(** The criterion holds at the returned point, for any function (also one
    returning infinities or NaN). *)
Theorem C30_converged_flag fs starts max_iterations tol rtol i f x y failed :
  length fs = length starts -> nth_error fs i = Some f -> nth_error starts i = Some x ->
  nth_error (root_finder fs starts max_iterations tol rtol) i = Some (y, true, failed) ->
  let '(v, g) := f y in xlt (xabs (xdiv v g)) (xadd (xmul (Fin rtol) (xabs v)) (Fin tol)) = true.
Proof.
  intros L FI XI RI. destruct (root_finder_element _ _ _ _ _ _ _ _ _ L FI XI RI) as (k & K1 & K2 & K3).
  symmetry in K2. apply niter_true in K2. unfold newton_update in K2. destruct (f y) as [v g]. injection K2 as _ E _. exact E.
Qed.

(** Elements do not influence each other: alone or in a batch an element fails
    or not alike, and if not, its position and flag are the same. *)
Theorem C30_batch_independent fs starts max_iterations tol rtol i f x y converged failed :
  length fs = length starts -> nth_error fs i = Some f -> nth_error starts i = Some x -> (0 < max_iterations)%nat ->
  nth_error (root_finder fs starts max_iterations tol rtol) i = Some (y, converged, failed) ->
  exists y1 converged1, root_finder [f] [x] max_iterations tol rtol = [(y1, converged1, failed)] /\
    (failed = false -> y1 = y /\ converged1 = converged).
Proof.
  intros L FI XI M RI. assert (FLAG := C30_failed_flag _ _ _ _ _ _ _ _ _ _ _ L FI XI M RI).
  destruct (root_finder_element _ _ _ _ _ _ _ _ _ L FI XI RI) as (k & K1 & K2 & K3).
  assert (LEN : exists r, root_finder [f] [x] max_iterations tol rtol = [r]).
  { unfold root_finder. destruct (newton_loop_niters rtol tol [f] max_iterations max_iterations 0 [start x] eq_refl eq_refl) as (j & _ & J & _).
    change (map (fun x0 => (x0, false, is_nan x0)) [x]) with [start x]. rewrite J. unfold niters. cbn. eexists. reflexivity. }
  destruct LEN as [[[y1 c1] f1] E1]. rewrite E1. exists y1, c1.
  assert (RI1 : nth_error (root_finder [f] [x] max_iterations tol rtol) 0 = Some (y1, c1, f1)) by (rewrite E1; reflexivity).
  assert (FLAG1 := C30_failed_flag [f] [x] _ _ _ 0 _ _ _ _ _ eq_refl eq_refl eq_refl M RI1).
  destruct (root_finder_element [f] [x] _ _ _ 0 _ _ _ eq_refl eq_refl eq_refl RI1) as (j & J1 & J2 & J3). cbn [fst snd] in K3, J3.
  (* from the earlier stop on, a failed element stays failed and a converged one stays put *)
  assert (KEY : forall a b ra rb, (a <= b)%nat -> ra = niter rtol tol f a (start x) -> rb = niter rtol tol f b (start x) ->
     (a = b \/ snd (fst ra) || snd ra = true) ->
     (ra = rb) \/ (is_finite (fst (fst ra)) = false /\ is_finite (fst (fst rb)) = false)).
  { intros a b ra rb AB EA EB S. destruct S as [S|S]; [subst; left; reflexivity|].
    replace b with ((b - a) + a)%nat in EB by lia. rewrite niter_add, <- EA in EB. apply orb_true_iff in S as [S|S].
    - left. destruct ra as [[ya ca] ga]. cbn in S. subst ca. pose proof (eq_sym EA) as Q. apply niter_true in Q. rewrite EB. symmetry. apply (niter_converged rtol tol f _ ya). exact Q.
    - right. assert (NF : is_finite (fst (fst ra)) = false) by (rewrite EA in *; apply niter_flag_true; exact S). split; [exact NF|]. rewrite EB. apply niter_nonfinite. exact NF. }
  assert (CASES : (y, converged, failed) = (y1, c1, f1) \/ (is_finite y = false /\ is_finite y1 = false)).
  { destruct (Nat.le_gt_cases k j) as [LE|GT].
    - apply (KEY k j); try assumption. destruct K3 as [K3|K3]; [left; lia|right; exact K3].
    - destruct (KEY j k (y1, c1, f1) (y, converged, failed)) as [Q|[Q1 Q2]]; try assumption; try lia; [destruct J3 as [J3|J3]; [left; lia|right; exact J3]|left; congruence|right; split; assumption]. }
  destruct CASES as [Q|[Q1 Q2]].
  - injection Q as <- <- <-. split; [reflexivity|]. intros _. split; reflexivity.
  - rewrite FLAG, FLAG1, Q1, Q2. split; [reflexivity|]. discriminate.
Qed.

(** The documented meaning of the flag, "the root results in an objective
    function value less than the tolerance", is not what is tested: a steep
    function is declared converged far from it. *)
Theorem C30_documented_flag_refuted :
  exists f F F', computes f F F' /\ root_finder [f] [Fin (1 / 100000000)] 20 (2 / 10000000) 0 = [(Fin (1 / 100000000), true, false)] /\
    F (1 / 100000000) = 10.
Proof.
  set (F := fun x => 1000000000 * x). exists (fun x => (match x with Fin a => Fin (F a) | _ => NaN end, Fin 1000000000)), F, (fun _ => 1000000000).
  split; [intros a; reflexivity|]. split; [|unfold F; lra].
  set (f := fun x => _).
  assert (U : newton_update 0 (2 / 10000000) f (Fin (1 / 100000000)) = (Fin (1 / 100000000), true, false)).
  { unfold newton_update, f. cbn [xdiv]. rewrite (proj2 (req_false 1000000000 0)) by lra. cbn [xabs xmul xadd xlt].
    rewrite (proj2 (rlt_true _ _)).
    - cbn. f_equal. f_equal. f_equal. ring.
    - unfold F. replace (1000000000 * (1 / 100000000) / 1000000000) with (1 / 100000000) by lra. rewrite Rabs_right by lra. lra. }
  unfold root_finder. cbn [map newton_loop newton_continue Nat.leb forallb negb orb andb is_nan newton_body combine]. rewrite U. reflexivity.
Qed.

(** The square root of four from 3: a path with one step and the hypotheses of [C30_result]. *)
Definition sq4 (x : xr) : xr * xr := match x with Fin a => (Fin (a * a - 4), Fin (2 * a)) | _ => (NaN, NaN) end.
Example C30_ex : computes sq4 (fun a => a * a - 4) (fun a => 2 * a) /\
  newton_path (fun a => a * a - 4) (fun a => 2 * a) 0 (1 / 1000) 3 1 (13 / 6) /\
  newton_update 0 (1 / 1000) sq4 (Fin 3) = (Fin (13 / 6), false, false) /\ newton_update 0 (1 / 1000) sq4 (Fin 2) = (Fin 2, true, false).
Proof.
  assert (NS : ~ small_step (fun a => a * a - 4) (fun a => 2 * a) 0 (1 / 1000) 3).
  { intros [_ H]. replace ((3 * 3 - 4) / (2 * 3)) with (5 / 6) in H by lra. rewrite Rabs_right in H by lra. lra. }
  split; [intros a; reflexivity|]. split; [|split].
  - replace (13 / 6) with (3 - (3 * 3 - 4) / (2 * 3)) by lra.
    apply (path_step (fun a => a * a - 4) (fun a => 2 * a) 0 (1 / 1000) 3 0 3); [constructor|lra|exact NS].
  - destruct (upd_fin 0 (1 / 1000) sq4 (fun a => a * a - 4) (fun a => 2 * a) 3) as [(U1 & _)|[(U1 & _)|(_ & _ & U)]]; [intros a; reflexivity|lra|contradiction|].
    rewrite U. do 3 f_equal. lra.
  - destruct (upd_fin 0 (1 / 1000) sq4 (fun a => a * a - 4) (fun a => 2 * a) 2) as [(U1 & _)|[(_ & U)|(_ & U1 & _)]]; [intros a; reflexivity|lra|exact U|].
    exfalso. apply U1. split; [lra|]. replace ((2 * 2 - 4) / (2 * 2)) with 0 by lra. rewrite Rabs_R0. lra.
Qed.

Print Assumptions C30_result.
Print Assumptions C30_failed_flag.
Print Assumptions C30_converged_flag.
Print Assumptions C30_batch_independent.
Print Assumptions C30_documented_flag_refuted.
