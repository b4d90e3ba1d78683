(** C90: calibrated parameters stay within their bounds and fit no worse than the
    starting values. *)
From Coq Require Import Reals ZArith List Bool Lra Lia Psatz.
From Verif Require Import InterpModel BrentModel ExtReal HaganWestModel BootstrapModel BlackScholesModel ImpliedVolModel SabrModel BoundedCalModel CalibrationModel CalibrationSpec CalibrationProofs.
Import ListNotations.
Open Scope R_scope.

(** ** The map between an interval and the whole line *)
Theorem C90_mapping lb ub : lb < ub ->
  (forall v, inside lb ub (to_constrained (Fin v) (Fin lb) (Fin ub)))
  /\ (forall s, lb <= s <= ub -> to_constrained (to_unconstrained (Fin s) (Fin lb) (Fin ub)) (Fin lb) (Fin ub) = Fin s)
  /\ (forall v, to_unconstrained (to_constrained (Fin v) (Fin lb) (Fin ub)) (Fin lb) (Fin ub) = Fin v)
  /\ (forall v w, v < w -> at_most (to_constrained (Fin v) (Fin lb) (Fin ub)) (to_constrained (Fin w) (Fin lb) (Fin ub)))
  /\ (forall s, s < lb \/ ub < s -> to_unconstrained (Fin s) (Fin lb) (Fin ub) = NaN).
Proof.
  intros L. split; [intros v; rewrite constrained_squash; apply squash_inside, L|].
  split; [intros s B; rewrite constrained_squash; apply squash_unconstrained; assumption|].
  split.
  { intros v. rewrite constrained_squash. cbn [squash]. destruct (squash_inside lb ub v L) as (r & E & B). cbn [squash] in E. injection E as E. rewrite E.
    rewrite unconstrained_inside by exact B. f_equal. rewrite <- E. pose proof (exp_pos (- v)).
    replace ((ub - (lb + (ub - lb) / (1 + exp (- v)))) / (lb + (ub - lb) / (1 + exp (- v)) - lb)) with (exp (- v)) by (field; lra). rewrite ln_exp. ring. }
  split; [|intros s O; apply unconstrained_nan; assumption].
  intros v w V. rewrite !constrained_squash. cbn [squash at_most]. pose proof (exp_pos (- v)). pose proof (exp_pos (- w)). assert (exp (- w) < exp (- v)) by (apply exp_increasing; lra).
  assert (/ (1 + exp (- v)) < / (1 + exp (- w))) by (apply Rinv_lt_contravar; nra). unfold Rdiv. nra.
Qed.

(** ** SABR *)
Definition average (l : list R) : R := fold_right Rplus 0 l / INR (length l).
(** The starting value and the bounds of alpha: the ones given, or a value that makes
    alpha F^(beta - 1) ten percent at the mean forward F, with bounds a tenth and ten
    times of it. *)
Definition alpha_setting (r : sabr_row) (a l u : R) : Prop :=
  match given_alpha r with
  | None => let f := average (map v_forward (quotes r)) in
            quotes r <> [] /\ 0 < f /\ a * Rpower f (given_beta r - 1) = 1 / 10 /\ l = a / 10 /\ u = 10 * a
  | Some x => a = x /\ alpha_lower r = Some l /\ alpha_upper r = Some u
  end.
Definition ordered (r : sabr_row) : Prop := beta_lower r < beta_upper r /\ volvol_lower r < volvol_upper r /\ rho_lower r < rho_upper r.
(** Every starting value lies within its bounds, ends included. *)
Definition admissible (r : sabr_row) (a l u : R) : Prop :=
  alpha_setting r a l u /\ ordered r /\ l < u /\ l <= a <= u /\ beta_lower r <= given_beta r <= beta_upper r
  /\ volvol_lower r <= given_volvol r <= volvol_upper r /\ rho_lower r <= given_rho r <= rho_upper r.
Lemma alpha_spec r a l u : alpha_setting r a l u -> sabr_alpha r = Some (Bounded (Fin a) (Fin l) (Fin u)).
Proof.
  unfold alpha_setting, sabr_alpha. destruct (given_alpha r) as [x|].
  - intros (-> & -> & ->). reflexivity.
  - cbv zeta. intros (N & P & E & -> & ->). unfold xmean.
    replace (map (fun q : vanilla => Fin (v_forward q)) (quotes r)) with (map Fin (map v_forward (quotes r))) by apply map_map.
    rewrite xsum_fin, !map_length. unfold average in P, E. rewrite map_length in P, E. set (f := fold_right Rplus 0 (map v_forward (quotes r)) / INR (length (quotes r))) in *.
    cbn [xdiv]. rewrite req_f by (destruct (quotes r); [congruence|]; cbn [length]; rewrite S_INR; pose proof (pos_INR (length l)); lra). fold f. clearbody f.
    cbn [xpower]. rewrite rlt_t by exact P. cbn [xmul].
    assert (A : exp ((1 - given_beta r) * ln f) * (1 / 10) = a).
    { fold (Rpower f (1 - given_beta r)). apply (Rmult_eq_reg_r (Rpower f (given_beta r - 1))); [|unfold Rpower; pose proof (exp_pos ((given_beta r - 1) * ln f)); lra].
      rewrite E. replace (Rpower f (1 - given_beta r) * (1 / 10) * Rpower f (given_beta r - 1)) with (Rpower f (1 - given_beta r) * Rpower f (given_beta r - 1) * (1 / 10)) by ring.
      rewrite <- Rpower_plus. replace (1 - given_beta r + (given_beta r - 1)) with 0 by ring. rewrite Rpower_O by exact P. ring. }
    rewrite A. do 3 f_equal; lra.
Qed.
(** The automatic starting value lies strictly within its bounds. *)
Lemma alpha_auto r a l u : given_alpha r = None -> alpha_setting r a l u -> 0 < l /\ l < a /\ a < u.
Proof.
  unfold alpha_setting. intros ->. cbv zeta. intros (_ & P & E & -> & ->).
  assert (0 < Rpower (average (map v_forward (quotes r))) (given_beta r - 1)) by apply exp_pos. assert (0 < a) by nra. lra.
Qed.

Section Sabr.
Variables (S : Type) (eps : R) (vt : option sabr_volatility_type) (vol_based calibrate_beta validate_args : bool)
  (implied : list (list vanilla) -> bool -> list vanilla -> list xr).
Local Notation run := (sabr_calibration (S := S) eps vt vol_based calibrate_beta validate_args implied).


(** Whatever the optimizer does, every parameter is reported within its bounds or as
    NaN, and a beta that is not calibrated is reported unchanged. *)
Theorem C90_sabr_bounds rows opt ps st : Forall ordered rows -> run rows opt = Some (ps, st) ->
  Forall2 (fun r p =>
    (forall a l u, alpha_setting r a l u -> l < u -> within_or_nan l u (p_alpha p))
    /\ within_or_nan (volvol_lower r) (volvol_upper r) (p_volvol p) /\ within_or_nan (rho_lower r) (rho_upper r) (p_rho p)
    /\ if calibrate_beta then within_or_nan (beta_lower r) (beta_upper r) (p_beta p) else p_beta p = Fin (given_beta r)) rows ps.
Proof.
  intros O E. unfold sabr_calibration, bind in E. destruct (map_opt _ rows) as [hs|] eqn:H; [|discriminate]. apply map_opt_forall2' in H.
  apply optimize_some in E. destruct E as (r0 & _ & E & _).
  assert (H' : Forall2 (fun r h => ordered r /\ sabr_prepare validate_args calibrate_beta r = Some h) rows hs).
  { clear E r0. induction H; [constructor|]. inversion O; subst. constructor; auto. }
  refine (forall2_compose _ (fun h p => exists x, sabr_read h x = Some p) _ _ _ _ _ H' (read_rows_forall sabr_read _ _ _ _ _ E)); [|intros b x p _ Q; exists x; exact Q].
  intros r h p [(OB & OV & OR) P] (x & Q). apply sabr_prepare_some in P. destruct P as (PA & PV & PR & PC & PB).
  apply sabr_read_some in Q. destruct Q as (xa & xv & xq & _ & _ & _ & QA & QV & QR & QB). rewrite PC, PB in QB. rewrite QV, QR, PV, PR. unfold decode in *. cbn [low high start] in *.
  rewrite !constrained_squash. split.
  { intros a l u A L. rewrite (alpha_spec _ _ _ _ A) in PA. injection PA as PA. rewrite QA, <- PA. cbn [low high]. rewrite constrained_squash. apply squash_within, L. }
  split; [apply squash_within, OV|]. split; [apply squash_within, OR|]. destruct calibrate_beta; [|exact QB].
  destruct QB as (xb & _ & ->). rewrite constrained_squash. apply squash_within, OB.
Qed.

(** An optimizer that returns its starting position reports the starting values,
    also when some of them lie on a bound. *)
Definition starting_params (r : sabr_row) (a : R) : sabr_params := SabrParams (Fin a) (Fin (given_beta r)) (Fin (given_volvol r)) (Fin (given_rho r)).
Lemma prepare_admissible r a l u : admissible r a l u ->
  exists h, sabr_prepare validate_args calibrate_beta r = Some h /\ sabr_read h (sabr_initial h) = Some (starting_params r a).
Proof.
  intros (A & (OB & OV & OR) & L & IA & IB & IV & IR). unfold sabr_prepare, bind. rewrite (alpha_spec _ _ _ _ A). rewrite !valid_within by assumption.
  eexists; split; [reflexivity|]. rewrite sabr_read_start. cbn [h_alpha h_volvol h_rho h_beta h_calibrate_beta start]. rewrite !decode_encode by assumption. unfold starting_params. destruct calibrate_beta; reflexivity.
Qed.
Lemma prepare_rows rows starts : Forall2 (fun r a => exists l u, admissible r a l u) rows starts ->
  exists hs, map_opt (sabr_prepare validate_args calibrate_beta) rows = Some hs
  /\ read_rows sabr_read hs (map sabr_initial hs) = Some (map (fun '(r, a) => starting_params r a) (combine rows starts)).
Proof.
  intros F. assert (exists hs, Forall2 (fun r h => sabr_prepare validate_args calibrate_beta r = Some h) rows hs
    /\ map_opt (fun '(b, x) => sabr_read b x) (combine hs (map sabr_initial hs)) = Some (map (fun '(r, a) => starting_params r a) (combine rows starts))) as (hs & A & B).
  { induction F as [|r a rows starts (l & u & Q) F (hs & A & B)]; [exists []; split; [constructor|reflexivity]|].
    destruct (prepare_admissible _ _ _ _ Q) as (h & P & D). exists (h :: hs). split; [constructor; assumption|]. cbn [map combine map_opt]. rewrite D, B. reflexivity. }
  exists hs. split; [apply forall2_map_opt, A|]. unfold read_rows. rewrite map_length, Nat.eqb_refl. exact B.
Qed.
Theorem C90_sabr_start rows starts opt (st : S) : Forall2 (fun r a => exists l u, admissible r a l u) rows starts ->
  (forall f x, opt f x = Some (Optimum x st)) ->
  run rows opt = Some (map (fun '(r, a) => starting_params r a) (combine rows starts), st).
Proof.
  intros F O. unfold sabr_calibration, bind. destruct (prepare_rows _ _ F) as (hs & -> & B). apply optimize_some. exists (Optimum (map sabr_initial hs) st). split; [apply O|]. split; [exact B|reflexivity].
Qed.

(** An optimizer that never returns a position with a larger objective gives, model
    by model, parameters that fit at least as well as the starting values. *)
Definition never_worse {X} (opt : optimizer X (list xr) S) : Prop :=
  forall f x r vs, opt f x = Some r -> f x = Some vs -> exists ws, f (position r) = Some ws /\ Forall2 at_most ws vs.
Definition error (rows : list sabr_row) (r : sabr_row) (p : sabr_params) : xr :=
  let vt := match vt with Some t => t | None => LOGNORMAL end in
  sabr_loss vol_based (implied (map quotes rows) (match vt with NORMAL => true | LOGNORMAL => false end)) eps vt (quotes r) p.
Theorem C90_sabr_no_worse rows starts opt ps st : Forall2 (fun r a => exists l u, admissible r a l u) rows starts ->
  never_worse opt -> run rows opt = Some (ps, st) ->
  Forall2 (fun '(r, a) p => at_most (error rows r p) (error rows r (starting_params r a))) (combine rows starts) ps.
Proof.
  intros F W E. unfold sabr_calibration, bind in E. destruct (prepare_rows _ _ F) as (hs & H & B). rewrite H in E. apply optimize_some in E. destruct E as (r0 & E & D & _).
  set (value := value_rows (fun r => sabr_loss vol_based _ eps _ (quotes r)) rows) in *.
  destruct (W _ _ _ (value (map (fun '(r, a) => starting_params r a) (combine rows starts))) E) as (ws & G & C); [rewrite B; reflexivity|]. rewrite D in G. cbn [option_map] in G. injection G as <-.
  assert (L : length ps = length rows).
  { apply read_rows_some in D. destruct D as [L D]. apply forall2_length in D. rewrite combine_length, <- L, Nat.min_id in D. apply map_opt_forall2' in H. apply forall2_length in H. lia. }
  unfold value, value_rows in C. clear - C L F. unfold error. cbv zeta. generalize dependent (map quotes rows). intros qss C. revert ps L C. induction F as [|r a rows starts Q F IH]; intros [|p ps] L C; try discriminate L; [constructor|].
  cbn [map combine] in *. inversion C as [|? ? ? ? C1 C2]; subst. constructor; [exact C1|]. apply IH; [cbn in L; lia|exact C2].
Qed.
End Sabr.

(** What is minimised: with a volatility target the mean squared difference of
    volatilities, otherwise of the logarithms of one plus the prices.  It is zero
    exactly when the model reproduces every quote. *)
Theorem C90_sabr_error eps vt implied qs p ts vs : qs <> [] -> length ts = length qs ->
  (implied qs = map Fin ts -> map (sabr_vol eps vt p) qs = map Fin vs -> sabr_loss true implied eps vt qs p = Fin (mean_square ts vs))
  /\ (implied qs = map Fin ts -> (sabr_loss true implied eps vt qs p = Fin 0 <-> map (sabr_vol eps vt p) qs = map Fin ts))
  /\ (Forall (fun q => -1 < v_price q) qs -> map (sabr_price eps vt p) qs = map Fin vs -> Forall (fun v => -1 < v) vs ->
      sabr_loss false implied eps vt qs p = Fin (mean_square (map (fun v => ln (1 + v)) vs) (map (fun q => ln (1 + v_price q)) qs)))
  /\ (Forall (fun q => -1 < v_price q) qs -> (sabr_loss false implied eps vt qs p = Fin 0 <-> Forall (fun q => sabr_price eps vt p q = Fin (v_price q)) qs)).
Proof.
  intros N L. unfold sabr_loss, sabr_target, sabr_values. assert (NT : ts <> []) by (destruct ts, qs; cbn in L; congruence).
  split; [|split; [|split]].
  - intros -> E. rewrite E. apply xmean_squares; [|exact NT]. apply (f_equal (@length xr)) in E. rewrite !map_length in E. congruence.
  - intros ->. apply loss_zero; [rewrite map_length; exact L|exact NT].
  - intros P E V. replace (map (fun q : vanilla => xlog1p (sabr_price eps vt p q)) qs) with (map Fin (map (fun v => ln (1 + v)) vs)).
    2: { rewrite <- (map_map (sabr_price eps vt p) xlog1p), E, !map_map. apply map_ext_in. intros v I. rewrite Forall_forall in V. rewrite log1p_fin by (apply V, I). reflexivity. }
    replace (map (fun q : vanilla => xlog1p (Fin (v_price q))) qs) with (map Fin (map (fun q => ln (1 + v_price q)) qs)).
    2: { rewrite map_map. apply map_ext_in. intros q I. rewrite Forall_forall in P. rewrite log1p_fin by (apply P, I). reflexivity. }
    apply (f_equal (@length xr)) in E. rewrite !map_length in E. apply xmean_squares; [rewrite !map_length; congruence|]. destruct vs, qs; cbn in E; try congruence; discriminate.
  - intros P. assert (T : map (fun q : vanilla => xlog1p (Fin (v_price q))) qs = map Fin (map (fun q => ln (1 + v_price q)) qs)).
    { rewrite map_map. apply map_ext_in. intros q I. rewrite Forall_forall in P. apply log1p_fin, P, I. }
    rewrite T, squares_sym. rewrite loss_zero; [|rewrite !map_length; reflexivity|destruct qs; [congruence|discriminate]]. rewrite <- T.
    clear - P. induction qs as [|q qs IH]; cbn [map]; [split; [constructor|reflexivity]|]. inversion P as [|? ? P1 P2]; subst. specialize (IH P2). split.
    + intros E. assert (E1 : xlog1p (sabr_price eps vt p q) = xlog1p (Fin (v_price q))) by congruence. constructor; [apply log1p_inj in E1; assumption|]. apply IH. congruence.
    + intros F. inversion F as [|? ? F1 F2]; subst. f_equal; [rewrite F1; reflexivity|]. apply IH, F2.
Qed.

(** With alpha chosen automatically, the volatility alpha F^(beta - 1) of the start
    is ten percent, and no calibration with a fixed beta leaves the range from one
    percent to one hundred percent. *)
Theorem C90_alpha_range r a l u x : alpha_setting r a l u -> given_alpha r = None -> within l u x ->
  exists alpha, x = Fin alpha /\ 1 / 100 <= alpha * Rpower (average (map v_forward (quotes r))) (given_beta r - 1) <= 1.
Proof.
  intros A G (alpha & -> & B). exists alpha. split; [reflexivity|]. pose proof (alpha_auto _ _ _ _ G A). unfold alpha_setting in A. rewrite G in A. cbv zeta in A. destruct A as (_ & _ & E & -> & ->).
  assert (P : 0 < Rpower (average (map v_forward (quotes r))) (given_beta r - 1)) by apply exp_pos. set (w := Rpower _ _) in *. clearbody w. split; nra.
Qed.

(** Starting values outside their bounds are refused with validate_args. *)
Theorem C90_sabr_validate c r : (given_volvol r < volvol_lower r \/ volvol_upper r < given_volvol r \/ given_rho r < rho_lower r \/ rho_upper r < given_rho r
    \/ given_beta r < beta_lower r \/ beta_upper r < given_beta r) -> sabr_prepare true c r = None.
Proof.
  intros O. unfold sabr_prepare, bind.
  destruct (assert_parameter_valid true (Bounded (Fin (given_beta r)) (Fin (beta_lower r)) (Fin (beta_upper r)))) eqn:B; [|reflexivity].
  destruct (sabr_alpha r); [|reflexivity]. destruct (assert_parameter_valid true b0); [|reflexivity].
  destruct (assert_parameter_valid true (Bounded (Fin (given_volvol r)) (Fin (volvol_lower r)) (Fin (volvol_upper r)))) eqn:V; [|reflexivity].
  destruct (assert_parameter_valid true (Bounded (Fin (given_rho r)) (Fin (rho_lower r)) (Fin (rho_upper r)))) eqn:Q; [|reflexivity]. exfalso.
  destruct O as [O|[O|[O|[O|[O|O]]]]].
  - rewrite valid_outside in V by (left; exact O). discriminate.
  - rewrite valid_outside in V by (right; exact O). discriminate.
  - rewrite valid_outside in Q by (left; exact O). discriminate.
  - rewrite valid_outside in Q by (right; exact O). discriminate.
  - rewrite valid_outside in B by (left; exact O). discriminate.
  - rewrite valid_outside in B by (right; exact O). discriminate.
Qed.

(** The example of the documentation: one model, alpha left to the procedure. *)
Definition doc_row : sabr_row :=
  SabrRow [Vanilla 20 80 (1 / 2) 100 true; Vanilla 4 100 (1 / 2) 100 true] None None None (1 / 2) 0 1 1 0 10 0 (- (3 / 4)) (3 / 4).
Example doc_row_admissible : admissible doc_row 1 (1 / 10) 10.
Proof.
  unfold admissible, ordered, alpha_setting. cbn. replace (average [100; 100]) with 100 by (unfold average; cbn; field).
  assert (P : Rpower 100 (1 / 2 - 1) = 1 / 10).
  { replace (1 / 2 - 1) with (- / 2) by field. rewrite Rpower_Ropp, Rpower_sqrt by lra. replace 100 with (10 * 10) by ring. rewrite sqrt_square by lra. field. }
  rewrite P. repeat split; try discriminate; lra.
Qed.
Example doc_calibration eps implied (opt := fun (_ : list (list xr) -> option (list xr)) x => Some (Optimum x tt)) :
  sabr_calibration eps None true false true implied [doc_row] opt = Some ([SabrParams (Fin 1) (Fin (1 / 2)) (Fin 1) (Fin 0)], tt).
Proof.
  refine (C90_sabr_start unit eps None true false true implied [doc_row] [1] opt tt _ _); [|reflexivity].
  constructor; [|constructor]. exists (1 / 10), 10. apply doc_row_admissible.
Qed.

(** The bounds of alpha default to None, but are converted without a test when alpha
    is given: such a call always fails. *)
Theorem C90_alpha_bounds_refuted : exists r : sabr_row,
  given_alpha r = Some 1 /\ alpha_lower r = None /\ alpha_upper r = None
  /\ forall S eps vt vol_based calibrate_beta validate_args implied (opt : optimizer (list (list xr)) (list xr) S),
     sabr_calibration eps vt vol_based calibrate_beta validate_args implied [r] opt = None.
Proof.
  exists (SabrRow [Vanilla 20 80 (1 / 2) 100 true] (Some 1) None None (1 / 2) 0 1 (1 / 2) 0 1 0 (-1) 1). repeat split; try reflexivity.
  intros. unfold sabr_calibration. cbn [map_opt]. unfold sabr_prepare at 1. destruct (assert_parameter_valid _ _); reflexivity.
Qed.

(** volvol = 0 is documented as a starting value and accepted by validate_args, but
    it lies on the default lower bound, whose image is minus infinity: an optimizer
    that moves by finite steps never leaves it. *)
Definition finite_steps {S} (opt : optimizer (list (list xr)) (list xr) S) : Prop :=
  forall f x r, opt f x = Some r -> exists steps : list (list R), map (@length R) steps = map (@length xr) x
    /\ position r = map (fun '(row, d) => map (fun '(v, s) => v +x Fin s) (combine row d)) (combine x steps).
Theorem C90_zero_volvol_refuted : exists r : sabr_row,
  given_volvol r = 0 /\ volvol_lower r = 0 /\ volvol_upper r = 1 /\ (exists a l u, admissible r a l u)
  /\ (exists h, sabr_prepare true false r = Some h)
  /\ forall S eps vt vol_based implied (opt : optimizer (list (list xr)) (list xr) S) ps st, finite_steps opt ->
     sabr_calibration eps vt vol_based false true implied [r] opt = Some (ps, st) -> map p_volvol ps = [Fin 0].
Proof.
  set (r := SabrRow [Vanilla 20 80 (1 / 2) 100 true; Vanilla 4 100 (1 / 2) 100 true] None None None (1 / 2) 0 1 0 0 1 0 (-1) 1).
  assert (A : admissible r 1 (1 / 10) 10).
  { destruct doc_row_admissible as (A & _). unfold admissible, ordered. split; [exact A|]. cbn. repeat split; lra. }
  exists r. repeat split; try reflexivity; [exists 1, (1 / 10), 10; exact A|destruct (prepare_admissible false true r _ _ _ A) as (h & H & _); exists h; exact H|].
  intros S eps vt vol_based implied opt ps st F E. unfold sabr_calibration in E. destruct (prepare_admissible false true r _ _ _ A) as (h & H & _).
  cbn [map_opt] in E. rewrite H in E. cbn [bind] in E. apply optimize_some in E. destruct E as (q & O & D & _). apply F in O. destruct O as (steps & L & P).
  apply sabr_prepare_some in H. destruct H as (_ & HV & _ & HC & _).
  destruct steps as [|s [|? ?]]; try discriminate L. cbn [map] in L, P. rewrite P in D. cbn [combine map] in D.
  unfold sabr_initial in L, D. rewrite HC in L, D. destruct s as [|s0 [|s1 [|s2 [|]]]]; try discriminate L. cbn [combine map] in D.
  unfold read_rows in D. cbn [length Nat.eqb combine map_opt] in D.
  match type of D with match sabr_read h ?x with _ => _ end = _ => destruct (sabr_read h x) as [p|] eqn:Q; [|discriminate] end. injection D as <-.
  apply sabr_read_some in Q. destruct Q as (xa & xv & xq & _ & S1 & _ & _ & V & _ & _). cbn [slot nth_error] in S1. injection S1 as <-.
  cbn [map]. rewrite V, HV. unfold encode, decode. cbn [start low high given_volvol volvol_lower volvol_upper r]. rewrite unconstrained_low by lra. cbn [xadd]. rewrite constrained_squash. reflexivity.
Qed.

Print Assumptions C90_mapping.
Print Assumptions C90_sabr_bounds.
Print Assumptions C90_sabr_start.
Print Assumptions C90_sabr_no_worse.
Print Assumptions C90_sabr_error.
Print Assumptions C90_alpha_range.
Print Assumptions C90_sabr_validate.
Print Assumptions C90_alpha_bounds_refuted.
Print Assumptions C90_zero_volvol_refuted.
