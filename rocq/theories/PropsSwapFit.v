(** C84: a fitted swap curve minimizes the pricing errors of its swaps. *)
From Coq Require Import Reals Bool Arith Lia Lra Psatz.
From Coquelicot Require Import Coquelicot.
From Coq Require Import List FunctionalExtensionality.
From Verif Require Import TensorModel TensorProofs InterpModel PropsLinear BrentModel ExtReal BootstrapModel BootstrapSpec BootstrapProofs PropsBootstrap CgModel CgSpec CgProofs PropsCg SwapFitModel SwapFitSpec SwapFitProofs.
Import ListNotations.
Open Scope R_scope.

Definition linear : real_interpolator := fun t ts ys => linear_interpolate false ts ys None None t.
Definition nth_swap (k : nat) (swaps : list swap) : swap := nth k swaps (mk_swap [] [] [] [] [] 0).

(** What is minimized: for every vector of node rates the objective is the weighted
    sum of the squared differences between the value of each swap, at its
    settlement time, and its price.  The floating rates are projected off the
    fitted curve.  A leg is discounted by its own curve if it has one; the fixed
    leg without one by the curve of the floating leg; otherwise by the fitted
    curve.  The result is read from the optimizer. *)
Theorem C84_objective differentiate search swaps x0 settlement float_leg fixed_leg opt interpolate weights tolerance max_iterations r :
  let interp := match interpolate with Some f => f | None => linear end in
  let settle := match settlement with Some t => t | None => map (fun _ => 0) swaps end in
  let ws := match weights with Some w => w | None => map default_weight swaps end in
  let optimize := match opt with Some o => o | None => conjugate_gradient search end in
  Forall complete swaps ->
  swap_curve_fit differentiate search swaps (Some x0) settlement float_leg fixed_leg opt interpolate weights tolerance max_iterations = Some r ->
  exists f o, optimize f x0 tolerance max_iterations = Some o
  /\ (forall x,
       let own := fun t => interp t (map expiry swaps) x in
       let of := fun c => match c with Some (ts, rs) => fun t => interp t ts rs | None => own end in
       let F := discount (of float_leg) in
       let D := discount (of (match fixed_leg with Some c => Some c | None => float_leg end)) in
       fst (f x) = errors (fun k => settled_value (discount own) F D (nth k settle 0) (nth_swap k swaps)) ws swaps
       /\ snd (f x) = differentiate (fun y => fst (f y)) x)
  /\ times r = map expiry swaps /\ rates r = o_position o /\ initial_rates r = x0
  /\ (length (rates r) = length swaps -> length (discount_factors r) = length swaps /\ forall k, (k < length swaps)%nat -> nth k (discount_factors r) 0 = exp (- nth k (rates r) 0 * expiry (nth_swap k swaps)))
  /\ converged r = o_converged o /\ failed r = o_failed o /\ iterations r = o_iterations o /\ objective_value r = o_value o.
Proof.
  intros interp settle ws optimize C H. unfold swap_curve_fit in H. fold linear in H. fold interp settle ws optimize in H.
  assert (LG : legs float_leg fixed_leg = (float_leg, match fixed_leg with Some c => Some c | None => float_leg end)) by (destruct float_leg, fixed_leg; reflexivity). rewrite LG in H. set (fx := match fixed_leg with Some c => Some c | None => float_leg end) in *.
  destruct (shapes_fit swaps settle ws) eqn:SF; [|discriminate H]. unfold shapes_fit in SF. repeat (apply andb_prop in SF; destruct SF as [SF ?]). apply Nat.eqb_eq in SF. match goal with W : Nat.eqb (length ws) _ = true |- _ => apply Nat.eqb_eq in W; rename W into LW end.
  destruct (optimize _ x0 tolerance max_iterations) as [o|] eqn:O; [|discriminate H]. injection H as <-. cbn [times rates initial_rates discount_factors converged failed iterations objective_value].
  eexists. exists o. split; [exact O|]. split.
  - intros x. cbv zeta. cbn [fst snd]. split; [|f_equal; apply functional_extensionality; reflexivity].
    apply loss_errors; [exact SF|exact LW|]. rewrite (model_values_are interp float_leg fx swaps settle x C SF).
    assert (G : forall l m (g : R -> swap -> R), length m = length l -> map (fun '(s, t) => g t s) (combine l m) = map (fun k => g (nth k m 0) (nth_swap k l)) (seq 0 (length l))).
    { induction l as [|a l IH]; intros [|b m] g L; cbn in L; try discriminate L; [reflexivity|]. cbn [combine map length seq]. f_equal. rewrite (IH m g) by congruence. rewrite <- seq_shift, map_map. reflexivity. }
    rewrite (G swaps settle (fun t s => settled_value (discount (rate_of interp swaps x None)) (discount (rate_of interp swaps x float_leg)) (discount (rate_of interp swaps x fx)) t s) SF).
    apply map_ext. intros k. unfold rate_of, fx. destruct float_leg as [[? ?]|], fixed_leg as [[? ?]|]; reflexivity.
  - split; [reflexivity|]. split; [reflexivity|]. split; [reflexivity|]. split; [|repeat split].
    intros L. split; [rewrite map_length, combine_length, map_length; lia|]. intros k K.
    pose (G := fun p : R * R => let '(r, t) := p in exp (- r * t)). change (map (fun '(r, t) => exp (- r * t))) with (map G). rewrite (nth_indep _ 0 (G (0, 0))) by (rewrite map_length, combine_length, map_length; lia). rewrite map_nth. rewrite combine_nth by (rewrite map_length; exact L). unfold G.
    rewrite (nth_indep (map expiry swaps) 0 (expiry (mk_swap [] [] [] [] [] 0))) by (rewrite map_length; exact K). rewrite map_nth. reflexivity.
Qed.
Print Assumptions C84_objective.

(** The objective bounds the error of every swap, and is zero exactly when all
    swaps are priced. *)
Theorem C84_bounds value weights swaps : length weights = length swaps -> Forall (fun w => 0 <= w) weights ->
  (forall k, (k < length swaps)%nat -> nth k weights 0 * (value k - present_value (nth_swap k swaps)) ^ 2 <= errors value weights swaps)
  /\ (Forall (fun w => 0 < w) weights -> (errors value weights swaps = 0 <-> forall k, (k < length swaps)%nat -> value k = present_value (nth_swap k swaps))).
Proof.
  intros L W. set (term := fun k => nth k weights 0 * (value k - nth k (map present_value swaps) 0) ^ 2).
  assert (PV : forall k, (k < length swaps)%nat -> nth k (map present_value swaps) 0 = present_value (nth_swap k swaps)).
  { intros k K. rewrite (nth_indep _ 0 (present_value (mk_swap [] [] [] [] [] 0))) by (rewrite map_length; exact K). rewrite map_nth. reflexivity. }
  assert (NN : Forall (fun r => 0 <= r) (map term (seq 0 (length swaps)))).
  { apply Forall_forall. intros r I. apply in_map_iff in I. destruct I as (k & <- & I). apply in_seq in I. apply Rmult_le_pos; [|apply pow2_ge_0]. rewrite Forall_forall in W. apply W. apply nth_In. lia. }
  split.
  - intros k K. rewrite <- (PV k K). apply (total_member _ (term k) NN). apply in_map. apply in_seq. lia.
  - intros P. split.
    + intros E k K. pose proof (total_zero _ NN E) as Z. rewrite Forall_forall in Z. specialize (Z (term k) ltac:(apply in_map; apply in_seq; lia)). unfold term in Z. rewrite (PV k K) in Z.
      rewrite Forall_forall in P. specialize (P (nth k weights 0) ltac:(apply nth_In; lia)). apply Rmult_integral in Z. destruct Z as [Z|Z]; [rewrite Z in P; destruct (Rlt_irrefl _ P)|]. apply Rminus_diag_uniq. apply Rsqr_0_uniq. unfold Rsqr. rewrite <- Z. ring.
    + intros E. unfold errors. rewrite (map_ext_in _ (fun _ => 0)); [apply total_zeros|].
      intros k I. apply in_seq in I. rewrite (PV k) by lia. rewrite (E k) by lia. ring.
Qed.
Print Assumptions C84_bounds.

(** With the default optimizer: the iterations respect the limit, the objective is
    that of the returned rates, and it exceeds that of the initial rates by at most
    a factor 1 + 10^-6 per iteration. *)
Theorem C84_default differentiate search swaps x0 settlement float_leg fixed_leg interpolate weights tolerance max_iterations r :
  let interp := match interpolate with Some f => f | None => linear end in
  let settle := match settlement with Some t => t | None => map (fun _ => 0) swaps end in
  let ws := match weights with Some w => w | None => map default_weight swaps end in
  let objective := fun x =>
       let own := fun t => interp t (map expiry swaps) x in
       let of := fun c => match c with Some (ts, rs) => fun t => interp t ts rs | None => own end in
       let F := discount (of float_leg) in
       let D := discount (of (match fixed_leg with Some c => Some c | None => float_leg end)) in
       errors (fun k => settled_value (discount own) F D (nth k settle 0) (nth_swap k swaps)) ws swaps in
  Forall complete swaps -> search_evaluates search -> search_bounded search -> Forall (fun w => 0 <= w) ws ->
  swap_curve_fit differentiate search swaps (Some x0) settlement float_leg fixed_leg None interpolate weights tolerance max_iterations = Some r ->
  length (rates r) = length x0 /\ (iterations r <= max_iterations)%nat /\ objective_value r = objective (rates r)
  /\ objective_value r <= (1 + / 1000000) ^ iterations r * objective x0
  /\ (iterations r = max_iterations \/ converged r = true \/ failed r = true).
Proof.
  intros interp settle ws objective C SE SB W H.
  assert (LW : length ws = length swaps).
  { unfold swap_curve_fit in H. fold ws in H. destruct (legs float_leg fixed_leg). destruct (shapes_fit _ _ _) eqn:SF; [|discriminate H]. unfold shapes_fit in SF. repeat (apply andb_prop in SF; destruct SF as [SF ?]). apply Nat.eqb_eq. assumption. }
  destruct (C84_objective differentiate search swaps x0 settlement float_leg fixed_leg None interpolate weights tolerance max_iterations r C H) as (f & o & O & FV & _ & RT & _ & _ & CV & FL & IT & OV). cbv zeta in FV. fold interp settle ws in FV.
  assert (FO : forall x, fst (f x) = objective x) by (intros x; apply (FV x)). clear FV.
  assert (NN : forall x, 0 <= objective x).
  { intros x. unfold objective. cbv zeta. apply total_nonneg. apply Forall_forall. intros q I. apply in_map_iff in I. destruct I as (k & <- & I). apply in_seq in I. apply Rmult_le_pos; [|apply pow2_ge_0]. rewrite Forall_forall in W. apply W. apply nth_In. lia. }
  rewrite RT, CV, FL, IT, OV. clear H RT CV FL IT OV r. clearbody objective. unfold conjugate_gradient in O. cbv zeta in O. set (n := length x0) in *.
  set (obj := fun (_ : nat) v => let '(value, grad) := f (as_list n v) in (value, as_vec grad)) in *.
  destruct (minimize 1 n obj (fun _ => as_vec x0) tolerance 0 0 max_iterations None None search max_iterations) as [s|] eqn:M; [|discriminate O]. injection O as <-. cbn [o_position o_converged o_failed o_iterations o_value].
  assert (OB : forall b v, fst (obj b v) = objective (as_list n v)) by (intros b v; unfold obj; rewrite <- FO; destruct (f (as_list n v)); reflexivity).
  destruct (C83_run 1 n obj (fun _ => as_vec x0) tolerance 0 0 max_iterations max_iterations None None search) as [_ Q]. destruct (Q s M) as (E & B & ST & BE). clear Q.
  split; [unfold as_list; rewrite map_length, seq_length; reflexivity|]. split; [exact B|]. split.
  { pose proof (C83_consistent 1 n obj (fun _ => as_vec x0) tolerance 0 0 max_iterations max_iterations None None search s 0%nat SE M) as CO. rewrite <- (OB 0%nat). rewrite CO. reflexivity. }
  split.
  - set (iterate := fun k => Nat.iter k (cg_body 1 n obj default_params search tolerance 0 0) (cg_initial n obj (fun _ => as_vec x0) tolerance)) in *.
    assert (BE' : forall j, (j < num_iterations s)%nat -> CgModel.converged (iterate j) 0%nat = false /\ CgModel.failed (iterate j) 0%nat = false).
    { intros j J. specialize (BE j J). unfold converged_all, all in BE. cbn [seq forallb] in BE. change (Nat.iter j (cg_body 1 n obj default_params search tolerance 0 0) (cg_initial n obj (fun _ => as_vec x0) tolerance)) with (iterate j) in BE. destruct (CgModel.converged (iterate j) 0%nat), (CgModel.failed (iterate j) 0%nat); cbn in BE; try discriminate BE. split; reflexivity. }
    assert (X0 : as_list n (as_vec x0) = x0).
    { unfold as_list, as_vec, n. apply (nth_ext _ _ 0 0); [rewrite map_length, seq_length; reflexivity|]. intros k K. rewrite map_length, seq_length in K. rewrite (nth_indep _ 0 (nth 0 x0 0)) by (rewrite map_length, seq_length; exact K). rewrite (map_nth (fun i => nth i x0 0)). rewrite seq_nth by exact K. reflexivity. }
    assert (CK : forall k, consistent obj (iterate k) 0%nat).
    { induction k as [|k IH]; [unfold consistent; cbn; apply surjective_pairing|]. unfold iterate. rewrite iter_S. apply (body_consistent 1 n obj default_params search tolerance 0 0 _ 0%nat SE IH). }
    assert (VN : forall k, 0 <= value (iterate k) 0%nat).
    { intros k. specialize (CK k). unfold consistent in CK. pose proof (OB 0%nat (position (iterate k) 0%nat)) as Q. rewrite CK in Q. cbn [fst] in Q. rewrite Q. apply NN. }
    assert (GO : forall k, (k <= num_iterations s)%nat -> value (iterate k) 0%nat <= (1 + / 1000000) ^ k * objective x0).
    { induction k as [|k IH]; intros K.
      - unfold iterate. cbn [Nat.iter cg_initial value pow]. cbn. rewrite OB, X0. lra.
      - specialize (IH ltac:(lia)). pose proof (C83_no_increase 1 n obj (fun _ => as_vec x0) tolerance 0 0 default_params search k 0%nat SE SB) as S1. cbv beta zeta in S1. cbn [eps delta eta psi_1 psi_2 default_params] in S1. fold iterate in S1.
        change (Nat.iter (S k) (cg_body 1 n obj default_params search tolerance 0 0) (cg_initial n obj (fun _ => as_vec x0) tolerance)) with (iterate (S k)) in S1. change (Nat.iter k (cg_body 1 n obj default_params search tolerance 0 0) (cg_initial n obj (fun _ => as_vec x0) tolerance)) with (iterate k) in S1.
        specialize (S1 ltac:(lra) ltac:(lra) ltac:(lra) ltac:(lra) ltac:(lra)). specialize (S1 (fun j J => proj1 (BE' j ltac:(lia))) (proj2 (BE' k ltac:(lia)))). rewrite (Rabs_right (value (iterate k) 0%nat)) in S1 by (apply Rle_ge; apply VN). cbn [pow]. lra. }
    specialize (GO (num_iterations s) (Nat.le_refl _)). unfold iterate in GO at 1. rewrite <- E in GO. exact GO.
  - destruct ST as [ST|ST]; [left; exact ST|right]. unfold converged_all, all in ST. cbn [seq forallb] in ST. rewrite andb_true_r in ST. apply orb_prop in ST. exact ST.
Qed.
Print Assumptions C84_default.

(** Without separate discount curves a floating leg without gaps from [a] to [b]
    is worth P(a) - P(b), whatever the interpolation in between. *)
Theorem C84_floating_leg P s a b : (forall t, P t <> 0) -> adjoining a b (float_start s) (float_end s) -> float_value P P s = P a - P b.
Proof.
  intros NZ. unfold float_value. revert a. generalize (float_end s). induction (float_start s) as [|u us IH]; intros [|v vs] a A; cbn in A; try contradiction; [subst; cbn; ring|].
  destruct A as [-> A]. cbn [combine map total fold_right]. specialize (IH vs v A). unfold total in IH. rewrite IH. field. apply NZ.
Qed.
Print Assumptions C84_floating_leg.

(** A bootstrapped curve is nearly optimal: with linear interpolation and increasing
    expiries, the rates of a converged bootstrap lie within its tolerance of rates
    whose objective is at most the weighted sum of ((coupon - 1) tolerance)^2; if
    the bootstrap has come to rest the objective of its rates is zero. *)
Theorem C84_bootstrap xinterp init final start tol maxit failed it disc zr weights :
  let swaps := init ++ [final] in
  let T := map expiry swaps in
  let coupon := fun s => last (fixed_cashflows s) 0 * last (fixed_daycount s) 0 in
  (forall t ts ys, xinterp t ts (map Fin ys) = Fin (linear_interpolate false ts ys None None t)) ->
  swaps_ok init final -> (forall k, (S k < length T)%nat -> nth k T 0 < nth (S k) T 0) -> length start = length swaps ->
  length weights = length swaps -> Forall (fun w => 0 <= w) weights ->
  swap_curve_bootstrap xinterp SelfBoth swaps start tol maxit = Some ((true, failed, it, disc), zr) ->
  exists prev next, disc = map Fin next /\ length prev = length swaps /\ (forall k, (k < length swaps)%nat -> Rabs (nth k next 0 - nth k prev 0) < tol) /\
    (Forall (fun d => 0 < d) prev ->
     loss linear None None swaps (map (fun _ => 0) swaps) weights (zero_rates prev T)
       <= total (map (fun k => nth k weights 0 * ((coupon (nth_swap k swaps) - 1) * tol) ^ 2) (seq 0 (length swaps)))
     /\ (prev = next -> zr = map Fin (zero_rates prev T) /\ loss linear None None swaps (map (fun _ => 0) swaps) weights (zero_rates prev T) = 0)).
Proof.
  intros swaps T coupon XI OK INC LS LW WN H.
  destruct (C38_swap_self xinterp init final start tol maxit failed it disc zr OK LS H) as (prev & next & DN & LP & LN & CL & PR). fold swaps in LP, LN, CL.
  exists prev, next. split; [exact DN|]. split; [exact LP|]. split; [exact CL|]. intros PP.
  assert (CV : curve_of xinterp init final prev (fun t => linear t T (zero_rates prev T))).
  { apply (C38_linear xinterp init final prev XI INC); [unfold T in *; rewrite map_length; exact LP|exact PP]. }
  assert (WF : Forall well_formed swaps) by (destruct OK as [W _]; exact W).
  assert (CO : Forall complete swaps) by (eapply Forall_impl; [|exact WF]; intros s (A & B & D & E & F & _); repeat split; assumption).
  set (P := discount (fun t => linear t T (zero_rates prev T))).
  assert (P0 : P 0 = 1) by (unfold P, discount; rewrite Rmult_0_r; apply exp_0).
  assert (VAL : loss linear None None swaps (map (fun _ => 0) swaps) weights (zero_rates prev T) = errors (fun k => swap_value P P P (nth_swap k swaps)) weights swaps).
  { apply loss_errors; [apply map_length|exact LW|]. rewrite model_values_are; [|exact CO|apply map_length]. unfold rate_of. fold T. change (fun t => linear t T (zero_rates prev T)) with (fun t => linear t T (zero_rates prev T)). fold P.
    clear - P0. clearbody P. induction swaps as [|s l IH]; [reflexivity|]. cbn [map combine length seq]. f_equal; [unfold settled_value, swap_value, nth_swap; rewrite P0; cbn [nth]; field|]. rewrite IH. rewrite <- seq_shift, map_map. reflexivity. }
  assert (ERR : forall k, (k < length swaps)%nat -> swap_value P P P (nth_swap k swaps) - present_value (nth_swap k swaps) = (coupon (nth_swap k swaps) - 1) * (nth k prev 0 - nth k next 0)).
  { intros k K. apply (PR _ k (nth_swap k swaps) CV). fold swaps. unfold nth_swap. apply nth_error_nth'. exact K. }
  assert (PV : forall k, (k < length swaps)%nat -> nth k (map present_value swaps) 0 = present_value (nth_swap k swaps)).
  { intros k K. rewrite (nth_indep _ 0 (present_value (mk_swap [] [] [] [] [] 0))) by (rewrite map_length; exact K). rewrite map_nth. reflexivity. }
  split.
  - rewrite VAL. unfold errors. apply total_le. intros k I. apply in_seq in I. rewrite (PV k) by lia. rewrite (ERR k) by lia.
    apply Rmult_le_compat_l; [rewrite Forall_forall in WN; apply WN; apply nth_In; lia|]. specialize (CL k ltac:(lia)). rewrite Rabs_minus_sym in CL. apply Rabs_def2 in CL. set (e := nth k prev 0 - nth k next 0) in *. clearbody e. rewrite !Rpow_mult_distr. apply Rmult_le_compat_l; [apply pow2_ge_0|]. nra.
  - intros PN. split.
    + unfold swap_curve_bootstrap in H. destruct (boot_loop _ _ _) as [st|]; [|discriminate H]. cbn [obind] in H. injection H as H1 <-. rewrite H1. cbn [snd]. rewrite DN, <- PN. apply rates_fin; [unfold T; rewrite map_length; exact LP|exact PP|].
      apply Forall_forall. intros t I. apply in_map_iff in I as (u & <- & U). destruct (expiry_last u (proj1 (Forall_forall _ _) WF u U)) as (_ & _ & Q). lra.
    + rewrite VAL. destruct (C84_bounds (fun k => swap_value P P P (nth_swap k swaps)) weights swaps LW WN) as [_ _]. unfold errors. rewrite (map_ext_in _ (fun _ => 0)); [apply total_zeros|].
      intros k I. apply in_seq in I. rewrite (PV k) by lia. replace (swap_value P P P (nth_swap k swaps) - present_value (nth_swap k swaps)) with 0; [ring|]. rewrite (ERR k) by lia. rewrite PN. ring.
Qed.
Print Assumptions C84_bootstrap.

(** ** One swap of one year *)
Lemma linear_single t r : t <= 1 -> linear t [1] [r] = r.
Proof.
  intros L. unfold linear, linear_interpolate. cbv zeta. assert (S : searchsorted_left [1] t = 0%nat) by (unfold searchsorted_left; cbn; destruct (Rlt_dec 1 t); [lra|reflexivity]).
  rewrite S. cbn. ring.
Qed.
Lemma one_year_expiry c pv : expiry (one_year c pv) = 1.
Proof. unfold expiry. cbn. apply Rmax_left. lra. Qed.
Lemma one_year_complete c pv : Forall complete [one_year c pv].
Proof. repeat constructor; cbn; lia. Qed.
Lemma single_value c pv P F D : P 0 = 1 -> P 1 <> 0 -> F 0 = 1 -> D 0 = 1 -> settled_value P F D 0 (one_year c pv) = (1 / P 1 - 1) * F 1 + c * D 1.
Proof. intros P0 P1 F0 D0. unfold settled_value, float_value, fixed_value, total. cbn. rewrite P0, F0, D0. field. exact P1. Qed.
Lemma at_zero f : discount f 0 = 1.
Proof. unfold discount. rewrite Rmult_0_r. apply exp_0. Qed.
Lemma single_loss c pv w r : loss linear None None [one_year c pv] [0] [w] [r] = w * (1 + (c - 1) * exp (- r) - pv) ^ 2.
Proof.
  rewrite (loss_errors linear None None [one_year c pv] [0] [w] [r] (fun _ => 1 + (c - 1) * exp (- r)) eq_refl eq_refl).
  - unfold errors, total. cbn. ring.
  - rewrite (model_values_are linear None None [one_year c pv] [0] [r] (one_year_complete c pv) eq_refl). unfold rate_of. cbn [map combine length seq]. rewrite one_year_expiry. f_equal.
    rewrite single_value; try apply at_zero; [|unfold discount; apply Rgt_not_eq, exp_pos]. unfold discount. rewrite (linear_single 1 r) by lra. replace (- r * 1) with (- r) by ring. field. apply Rgt_not_eq, exp_pos.
Qed.
(** a stationary start is reported at once *)
Lemma single_stationary differentiate search c pv r tol m : differentiates differentiate ->
  derivable_pt_lim (fun h => 1 * (1 + (c - 1) * exp (- (r + h)) - pv) ^ 2) 0 0 -> 0 < tol ->
  exists res, swap_curve_fit differentiate search [one_year c pv] (Some [r]) None None None None None None tol m = Some res
    /\ rates res = [r] /\ converged res = true /\ failed res = false /\ iterations res = 0%nat /\ objective_value res = (1 + (c - 1) * exp (- r) - pv) ^ 2.
Proof.
  intros DF DV TP. unfold swap_curve_fit. cbn [legs map]. fold linear. assert (W : default_weight (one_year c pv) = 1).
  { unfold default_weight. cbn. rewrite no_nan_div by lra. replace (1 / 1) with 1 by field. rewrite Rmax_left, Rmin_left by lra. reflexivity. }
  rewrite W. replace (shapes_fit [one_year c pv] [0] [1]) with true by reflexivity. set (ob := loss linear None None [one_year c pv] [0] [1]).
  assert (G : nth 0 (differentiate ob [r]) 0 = 0).
  { destruct (DF ob [r]) as [_ Q]. apply (Q 0%nat 0 ltac:(cbn; lia)). unfold partial_derivative. cbn [firstn skipn nth app]. intros e E. destruct (DV e E) as [d Hd]. exists d. intros h N B. unfold ob. rewrite !single_loss. apply (Hd h N B). }
  unfold conjugate_gradient. cbv zeta. cbn [length]. unfold minimize. set (I0 := cg_initial 1 _ _ tol).
  assert (CV : CgModel.converged I0 0%nat = true).
  { unfold I0. cbn [cg_initial CgModel.converged]. match goal with |- rltb ?a ?b = true => destruct (rltb_spec a b) as [_|N]; [reflexivity|exfalso; apply N] end.
    unfold norm, norm_sq. cbn. unfold as_vec at 1 2. cbn. unfold as_list. cbn. unfold as_vec. cbn. change [r] with [r]. rewrite G. replace (0 + 0 * 0) with 0 by ring. rewrite sqrt_0. exact TP. }
  assert (CD : cg_cond m (converged_all 1) I0 = false).
  { unfold cg_cond. replace (converged_all 1 (CgModel.converged I0) (CgModel.failed I0)) with true by (unfold converged_all, all; cbn [seq forallb]; rewrite CV; reflexivity). apply andb_false_r. }
  destruct m as [|m]; cbn [cg_loop]; rewrite CD; (eexists; split; [reflexivity|]; cbn [rates converged failed iterations objective_value o_position o_converged o_failed o_iterations o_value];
    split; [unfold I0, as_list, as_vec; reflexivity|]; split; [exact CV|]; split; [reflexivity|]; split; [reflexivity|]; transitivity (ob [r]); [reflexivity|]; unfold ob; rewrite single_loss; ring).
Qed.

(** A swap paying 100 % against a floating year, priced at zero: started at the
    rate ln 2 the fit is exact. *)
Example exact_fit differentiate search tol m : differentiates differentiate -> 0 < tol ->
  exists res, swap_curve_fit differentiate search [one_year (-1) 0] (Some [ln 2]) None None None None None None tol m = Some res
    /\ rates res = [ln 2] /\ converged res = true /\ failed res = false /\ iterations res = 0%nat /\ objective_value res = 0.
Proof.
  intros DF TP. destruct (single_stationary differentiate search (-1) 0 (ln 2) tol m DF) as (res & A & B & C & D & E & F); [|exact TP|].
  - apply is_derive_Reals. assert (Q : is_derive (fun h => 1 * (1 + (-1 - 1) * exp (- (ln 2 + h)) - 0) ^ 2) 0 (2 * (1 - 2 * exp (- (ln 2 + 0))) * (2 * exp (- (ln 2 + 0))))).
    { auto_derive; [exact Logic.I|]. ring. }
    match type of Q with is_derive _ _ ?d => replace 0 with d at 2; [exact Q|] end. rewrite Rplus_0_r, exp_Ropp, exp_ln by lra. field.
  - exists res. split; [exact A|]. split; [exact B|]. split; [exact C|]. split; [exact D|]. split; [exact E|]. rewrite F. rewrite exp_Ropp, exp_ln by lra. field.
Qed.

(** "Converged" does not mean that the swaps are priced.  A floating year with the
    notional back is worth 1 on every curve; asked to fit the price 9/10 the
    function reports convergence at once, from every starting rate, with any
    tolerance and optimizer iterations. *)
Theorem C84_converged_refuted differentiate search r tol m : differentiates differentiate -> 0 < tol ->
  (forall P s, P 0 = 1 -> P 1 <> 0 -> s = one_year 1 (9 / 10) -> settled_value P P P 0 s = 1)
  /\ exists res, swap_curve_fit differentiate search [one_year 1 (9 / 10)] (Some [r]) None None None None None None tol m = Some res
    /\ rates res = [r] /\ converged res = true /\ failed res = false /\ iterations res = 0%nat /\ objective_value res = 1 / 100.
Proof.
  intros DF TP. split.
  - intros P s P0 P1 ->. rewrite single_value by assumption. field. exact P1.
  - destruct (single_stationary differentiate search 1 (9 / 10) r tol m DF) as (res & A & B & C & D & E & F); [|exact TP|].
    + apply is_derive_Reals. apply (is_derive_ext (fun _ => 1 / 100)); [intros h; change (1 / 100 = 1 * (1 + (1 - 1) * exp (- (r + h)) - 9 / 10) ^ 2); field|]. apply (is_derive_const (K := R_AbsRing) (V := R_NormedModule)).
    + exists res. split; [exact A|]. split; [exact B|]. split; [exact C|]. split; [exact D|]. split; [exact E|]. rewrite F. field.
Qed.
Print Assumptions C84_converged_refuted.

(** Documented: "By default the weights are set to be the inverse of maturities".
    True from one year on when both legs end together; a swap of half a year gets
    1, and legs ending after one and two years give 1. *)
Theorem C84_weights_refuted :
  (forall s, last (fixed_end s) 0 = last (float_end s) 0 -> 1 <= last (float_end s) 0 -> default_weight s = / expiry s)
  /\ (exists s, complete s /\ expiry s = 1 / 2 /\ default_weight s = 1) /\ (exists s, complete s /\ expiry s = 2 /\ default_weight s = 1).
Proof.
  split; [|split].
  - intros s E L. unfold default_weight, expiry. rewrite E, !Rmax_left by lra. rewrite no_nan_div by lra. replace (1 / last (float_end s) 0) with (/ last (float_end s) 0) by (field; lra). apply Rmin_right. rewrite <- Rinv_1. apply Rinv_le_contravar; lra.
  - exists (mk_swap [0] [1 / 2] [1 / 2] [1] [1 / 2] 0). split; [repeat constructor; cbn; lia|]. split; [unfold expiry; cbn; apply Rmax_left; lra|]. unfold default_weight. cbn. rewrite !no_nan_div by lra. rewrite Rmax_left by lra. apply Rmin_left. lra.
  - exists (mk_swap [0] [1] [1; 2] [1; 1] [1; 1] 0). split; [repeat constructor; cbn; lia|]. split; [unfold expiry; cbn; apply Rmax_right; lra|]. unfold default_weight. cbn. rewrite !no_nan_div by lra. rewrite Rmax_left by lra. apply Rmin_left. lra.
Qed.
Print Assumptions C84_weights_refuted.

(** Documented for both legs: "By default the cashflows are discounted using the
    curve that is being constructed".  With a curve for the floating leg only, the
    fixed leg is discounted by that curve as well: the value of the swap is 1/2
    where the documented one is 1. *)
Theorem C84_fixed_discount_refuted differentiate search : exists swaps x0 float_curve opt r,
  Forall complete swaps
  /\ swap_curve_fit differentiate search swaps (Some x0) None (Some float_curve) None (Some opt) None None 1 1 = Some r
  /\ rates r = x0
  /\ let own := discount (fun t => linear t (map expiry swaps) x0) in
     let F := discount (fun t => linear t (fst float_curve) (snd float_curve)) in
     objective_value r = 1 / 4 /\ errors (fun k => settled_value own F own 0 (nth_swap k swaps)) (map default_weight swaps) swaps = 1.
Proof.
  exists [one_year 1 0], [0], ([1], [ln 2]), (fun f x0 _ _ => Some (Optimum x0 true false 0 (fst (f x0)))). eexists. split; [apply one_year_complete|]. split; [reflexivity|]. split; [reflexivity|]. cbv zeta. cbn [objective_value o_value fst snd].
  assert (W : default_weight (one_year 1 0) = 1).
  { unfold default_weight. cbn. rewrite no_nan_div by lra. replace (1 / 1) with 1 by field. rewrite Rmax_left, Rmin_left by lra. reflexivity. }
  assert (P1 : discount (fun t => linear t [1] [0]) 1 = 1) by (unfold discount; rewrite linear_single by lra; replace (- 0 * 1) with 0 by ring; apply exp_0).
  assert (F1 : discount (fun t => linear t [1] [ln 2]) 1 = 1 / 2) by (unfold discount; rewrite linear_single by lra; rewrite Rmult_1_r, exp_Ropp, exp_ln by lra; field).
  split.
  - transitivity (loss linear (Some ([1], [ln 2])) (Some ([1], [ln 2])) [one_year 1 0] [0] [default_weight (one_year 1 0)] [0]); [reflexivity|]. rewrite (loss_errors linear (Some ([1], [ln 2])) (Some ([1], [ln 2])) [one_year 1 0] [0] [default_weight (one_year 1 0)] [0] (fun _ => 1 / 2) eq_refl eq_refl).
    + unfold errors, total. cbn. rewrite W. field.
    + rewrite (model_values_are linear _ _ [one_year 1 0] [0] [0] (one_year_complete 1 0) eq_refl). unfold rate_of. cbn [map combine length seq]. rewrite one_year_expiry. f_equal. rewrite single_value; try apply at_zero; [|rewrite P1; lra]. rewrite P1, F1. field.
  - unfold errors, total. cbn [length seq map fold_right nth nth_swap]. rewrite one_year_expiry, W. rewrite single_value; try apply at_zero; [|rewrite P1; lra]. rewrite P1, F1. cbn [present_value one_year]. field.
Qed.
Print Assumptions C84_fixed_discount_refuted.
