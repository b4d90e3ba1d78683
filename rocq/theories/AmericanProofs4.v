(** The values below the boundary: finite, continuous and homogeneous. *)
From Coquelicot Require Import Coquelicot.
From Coq Require Import Reals List Bool Arith ZArith Lia Lra Psatz.
From Verif Require Import TensorModel InterpModel BrentModel ExtReal HaganWestModel HaganWestProofs BootstrapModel IntegrateModel BlackScholesModel BlackScholesSpec GaussianAux NormalProofs BlackScholesProofs ImpliedVolProofs ImpliedVolProofs2 BarrierSpec BarrierProofs AmericanModel AmericanSpec AmericanProofs AmericanProofs3.
Import ListNotations.
Open Scope R_scope.

Definition hold93_r (s k t r b sigma beta X : R) : R :=
  (X - k) * Rpower X (- beta) * Rpower s beta - (X - k) * Rpower X (- beta) * phi_r s t beta X X r b sigma
  + phi_r s t 1 X X r b sigma - phi_r s t 1 k X r b sigma - k * phi_r s t 0 X X r b sigma + k * phi_r s t 0 k X r b sigma.
Lemma hold93_fin s k t r b sigma beta X : 0 < s -> 0 < k -> 0 < t -> 0 < sigma -> 0 < X ->
  hold_1993 s k t r b sigma (Fin beta) (Fin X) = Fin (hold93_r s k t r b sigma beta X).
Proof. intros. unfold hold_1993. cbv zeta. rewrite !phi_fin by assumption. xn. reflexivity. Qed.

Definition cbnd_r (xs ws : list R) (dh dk rho : R) : R :=
  reduce_sum (vzip (fun fx w => fx * (1 - -1) * w / 2)
    (map (fun x => exp ((- dh * - dk * sin (asin rho * (1 * x + 1) / 2) - (- dh * - dh + - dk * - dk) / 2) / (1 - sin (asin rho * (1 * x + 1) / 2) * sin (asin rho * (1 * x + 1) / 2))))
      (map (fun root => ((1 - -1) * root + 1 + -1) / 2) xs)) ws) * asin rho / (4 * PI) + ncdf (- - dh) * ncdf (- - dk).
Lemma cbnd_fin roots coefficients xs ws dh dk rho : roots 20%nat = Some xs -> coefficients 20%nat = Some ws ->
  cbnd roots coefficients (Fin dh) (Fin dk) rho = Fin (cbnd_r xs ws dh dk rho).
Proof. intros A B. unfold cbnd, gauss_legendre. rewrite A, B. reflexivity. Qed.
Definition psi_d (l rate tt sigma : R) : R := - (l + rate * tt) / (sigma * sqrt tt).
Definition psi_r (xs ws : list R) (s t gamma h x2 x1 t1 r b sigma : R) : R :=
  let rate := b + (gamma - 1 / 2) * sigma ^ 2 in
  let kappa := 2 * b / sigma ^ 2 + (2 * gamma - 1) in
  let rho := sqrt (t1 / t) in
  exp ((- r + gamma * b + 1 / 2 * gamma * (gamma - 1) * sigma ^ 2) * t) * Rpower s gamma *
    (cbnd_r xs ws (psi_d (ln (s / x1)) rate t1 sigma) (psi_d (ln (s / h)) rate t sigma) rho
     - Rpower (x2 / s) kappa * cbnd_r xs ws (psi_d (ln (x2 * x2 / (s * x1))) rate t1 sigma) (psi_d (ln (x2 * x2 / (s * h))) rate t sigma) rho
     - Rpower (x1 / s) kappa * cbnd_r xs ws (psi_d (ln (s / x1)) (- rate) t1 sigma) (psi_d (ln (x1 * x1 / (s * h))) rate t sigma) (- rho)
     + Rpower (x1 / x2) kappa * cbnd_r xs ws (psi_d (ln (x2 * x2 / (s * x1))) (- rate) t1 sigma) (psi_d (ln (s * (x1 * x1) / (h * (x2 * x2)))) rate t sigma) (- rho)).
Section Psi.
Variables (roots coefficients : nat -> option (list R)) (xs ws : list R).
Hypothesis RT : roots 20%nat = Some xs. Hypothesis CT : coefficients 20%nat = Some ws.
Variables (t t1 r b sigma : R).
Hypothesis T0 : 0 < t. Hypothesis T1 : 0 < t1. Hypothesis S0 : 0 < sigma.
Lemma psi_fin s gamma h x2 x1 : 0 < s -> 0 < h -> 0 < x2 -> 0 < x1 ->
  bs_psi roots coefficients s t (Fin gamma) (Fin h) (Fin x2) (Fin x1) t1 r b sigma = Fin (psi_r xs ws s t gamma h x2 x1 t1 r b sigma).
Proof.
  intros. assert (V : 0 < sigma ^ 2) by nra. assert (W := wd_pos sigma t S0 T0). assert (W1 := wd_pos sigma t1 S0 T1). unfold wd in W, W1.
  unfold bs_psi. cbv zeta. rewrite (xsqrt_f t), (xsqrt_f t1) by lra. unfold xsquare. xn.
  rewrite !(cbnd_fin _ _ _ _ _ _ _ RT CT). xn. unfold psi_r, psi_d. cbv zeta.
  assert (M : forall a c e, a - c * e = a + - c * e) by (intros; ring). rewrite !M. reflexivity.
Qed.
Definition hold02_r (s k beta x1 x2 : R) : R :=
  (x2 - k) * Rpower x2 (- beta) * Rpower s beta - (x2 - k) * Rpower x2 (- beta) * phi_r s t1 beta x2 x2 r b sigma
  + phi_r s t1 1 x2 x2 r b sigma - phi_r s t1 1 x1 x2 r b sigma - k * phi_r s t1 0 x2 x2 r b sigma + k * phi_r s t1 0 x1 x2 r b sigma
  + (x1 - k) * Rpower x1 (- beta) * phi_r s t1 beta x1 x2 r b sigma - (x1 - k) * Rpower x1 (- beta) * psi_r xs ws s t beta x1 x2 x1 t1 r b sigma
  + psi_r xs ws s t 1 x1 x2 x1 t1 r b sigma - psi_r xs ws s t 1 k x2 x1 t1 r b sigma - k * psi_r xs ws s t 0 x1 x2 x1 t1 r b sigma + k * psi_r xs ws s t 0 k x2 x1 t1 r b sigma.
Lemma hold02_fin s k beta x1 x2 : 0 < s -> 0 < k -> 0 < x1 -> 0 < x2 ->
  hold_2002 roots coefficients s k t t1 r b sigma (Fin beta) (Fin x1) (Fin x2) = Fin (hold02_r s k beta x1 x2).
Proof. intros. unfold hold_2002. cbv zeta. rewrite !phi_fin, !psi_fin by assumption. xn. reflexivity. Qed.

(** * Matching at the boundary *)
Lemma psi_barrier s gamma h x1 : 0 < s -> 0 < h -> 0 < x1 -> psi_r xs ws s t gamma h s x1 t1 r b sigma = 0.
Proof.
  intros A B C. unfold psi_r. cbv zeta. replace (s * s / (s * x1)) with (s / x1) by (field; lra). replace (s * s / (s * h)) with (s / h) by (field; lra).
  replace (s * (x1 * x1) / (h * (s * s))) with (x1 * x1 / (s * h)) by (field; lra). replace (s / s) with 1 by (field; lra).
  unfold Rpower at 2. rewrite ln_1, Rmult_0_r, exp_0. ring.
Qed.
Lemma power_cancel X beta : 0 < X -> Rpower X (- beta) * Rpower X beta = 1.
Proof. intros P. rewrite <- Rpower_plus. replace (- beta + beta) with 0 by ring. apply Rpower_O. exact P. Qed.
Lemma hold02_match k beta x1 x2 : 0 < k -> 0 < x1 -> 0 < x2 -> hold02_r x2 k beta x1 x2 = x2 - k.
Proof.
  intros A B C. unfold hold02_r. rewrite !phi_barrier, !psi_barrier by assumption. assert (E := power_cancel x2 beta C).
  transitivity ((x2 - k) * (Rpower x2 (- beta) * Rpower x2 beta)); [ring|rewrite E; ring].
Qed.
End Psi.
Lemma hold93_match k t r b sigma beta X : 0 < k -> 0 < X -> hold93_r X k t r b sigma beta X = X - k.
Proof.
  intros A B. unfold hold93_r. rewrite !phi_barrier by assumption. assert (E := power_cancel X beta B).
  transitivity ((X - k) * (Rpower X (- beta) * Rpower X beta)); [ring|rewrite E; ring].
Qed.

(** * Continuity in the spot *)
Lemma cmul (f g : R -> R) s : continuous f s -> continuous g s -> continuous (fun s => f s * g s) s.
Proof. intros A B. exact (continuous_mult (K := R_AbsRing) f g s A B). Qed.
Lemma cadd (f g : R -> R) s : continuous f s -> continuous g s -> continuous (fun s => f s + g s) s.
Proof. intros A B. exact (continuous_plus (V := R_NormedModule) f g s A B). Qed.
Lemma csub (f g : R -> R) s : continuous f s -> continuous g s -> continuous (fun s => f s - g s) s.
Proof. intros A B. exact (continuous_minus (V := R_NormedModule) f g s A B). Qed.
Lemma ccst (c s : R) : continuous (fun _ : R => c) s. Proof. apply continuous_const. Qed.
Lemma ccomp (f g : R -> R) s : continuous f s -> continuous g (f s) -> continuous (fun s => g (f s)) s.
Proof. intros A B. exact (continuous_comp f g s A B). Qed.
Lemma cexp x : continuous exp x.
Proof. apply (ex_derive_continuous (K := R_AbsRing) (V := R_NormedModule)). eexists. apply is_derive_exp. Qed.
Lemma cncdf x : continuous ncdf x.
Proof. apply (ex_derive_continuous (K := R_AbsRing) (V := R_NormedModule)). eexists. apply ncdf_derive. Qed.
Lemma clog a c s : 0 < a -> 0 < c -> 0 < s -> continuous (fun s => ln (a / (s * c))) s.
Proof.
  intros A C S. apply (ex_derive_continuous (K := R_AbsRing) (V := R_NormedModule)). auto_derive. repeat split; [nra|]. apply Rmult_lt_0_compat; [exact A|]. apply Rinv_0_lt_compat. nra.
Qed.
Lemma clog1 a s : 0 < a -> 0 < s -> continuous (fun s => ln (a / s)) s.
Proof.
  intros A S. apply (ex_derive_continuous (K := R_AbsRing) (V := R_NormedModule)). auto_derive. repeat split; [lra|]. apply Rmult_lt_0_compat; [exact A|]. apply Rinv_0_lt_compat. lra.
Qed.
Lemma clog2 c s : 0 < c -> 0 < s -> continuous (fun s => ln (s / c)) s.
Proof.
  intros C S. apply (ex_derive_continuous (K := R_AbsRing) (V := R_NormedModule)). auto_derive. repeat split; try lra. apply Rmult_lt_0_compat; [exact S|]. apply Rinv_0_lt_compat. lra.
Qed.
Lemma clog3 a c s : 0 < a -> 0 < c -> 0 < s -> continuous (fun s => ln (s * a / c)) s.
Proof.
  intros A C S. apply (ex_derive_continuous (K := R_AbsRing) (V := R_NormedModule)). auto_derive. repeat split; try lra. apply Rmult_lt_0_compat; [nra|]. apply Rinv_0_lt_compat. lra.
Qed.
Lemma cln s : 0 < s -> continuous ln s.
Proof. intros S. apply (ex_derive_continuous (K := R_AbsRing) (V := R_NormedModule)). eexists. apply is_derive_ln. exact S. Qed.
Lemma cpow (f : R -> R) g s : continuous (fun s => ln (f s)) s -> continuous (fun s => Rpower (f s) g) s.
Proof. intros A. unfold Rpower. apply (ccomp (fun s => g * ln (f s)) exp); [|apply cexp]. apply cmul; [apply ccst|exact A]. Qed.
Lemma cpsi (l : R -> R) rate tt sigma s : continuous l s -> continuous (fun s => psi_d (l s) rate tt sigma) s.
Proof.
  intros A. unfold psi_d, Rdiv. apply cmul; [|apply ccst].
  apply continuous_ext with (f := fun s => -1 * (l s + rate * tt)); [intros u; assert (Q : -1 * (l u + rate * tt) = - (l u + rate * tt)) by ring; exact Q|].
  apply cmul; [apply ccst|]. apply cadd; [exact A|apply ccst].
Qed.
Lemma cneg (l : R -> R) s : continuous l s -> continuous (fun s => - l s) s.
Proof. intros A. exact (continuous_opp (V := R_NormedModule) l s A). Qed.
Lemma ccbnd xs ws (dh dk : R -> R) rho s : continuous dh s -> continuous dk s -> continuous (fun s => cbnd_r xs ws (dh s) (dk s) rho) s.
Proof.
  intros A B. unfold cbnd_r. apply cadd.
  - unfold Rdiv at 5. apply cmul; [|apply ccst]. apply cmul; [|apply ccst].
    revert ws. induction xs as [|x xs IH]; intros ws; [apply ccst|]. destruct ws as [|w ws]; [apply ccst|].
    cbn [map vzip]. cbn [reduce_sum fold_right]. apply cadd; [|apply IH].
    unfold Rdiv at 1. apply cmul; [|apply ccst]. apply cmul; [|apply ccst]. apply cmul; [|apply ccst].
    match goal with |- continuous (fun s => exp (@?g s)) _ => apply (ccomp g exp); [|apply cexp] end.
    unfold Rdiv at 1. apply cmul; [|apply ccst]. apply csub.
    + apply cmul; [|apply ccst]. apply cmul; apply cneg; assumption.
    + unfold Rdiv. apply cmul; [|apply ccst]. apply cadd; (apply cmul; apply cneg; assumption).
  - apply cmul; (match goal with |- continuous (fun s => ncdf (@?g s)) _ => apply (ccomp g ncdf); [|apply cncdf] end); apply cneg, cneg; assumption.
Qed.
Lemma cphi t gamma h X r b sigma s : 0 < s -> 0 < h -> 0 < X -> continuous (fun s => phi_r s t gamma h X r b sigma) s.
Proof.
  intros S H Y. unfold phi_r. apply cmul; [apply cmul; [apply ccst|]|].
  - apply cpow. apply cln. exact S.
  - apply csub.
    + apply (ccomp (fun s => psi_d (ln (s / h)) (b + (gamma - 1 / 2) * sigma ^ 2) t sigma) ncdf); [|apply cncdf]. apply cpsi. apply clog2; assumption.
    + apply cmul; [apply cpow, clog1; assumption|].
      apply (ccomp (fun s => psi_d (ln (X * X / (s * h))) (b + (gamma - 1 / 2) * sigma ^ 2) t sigma) ncdf); [|apply cncdf]. apply cpsi. apply clog; try assumption. nra.
Qed.
Lemma cpsi_r xs ws t gamma h x2 x1 t1 r b sigma s : 0 < s -> 0 < h -> 0 < x1 -> 0 < x2 -> continuous (fun s => psi_r xs ws s t gamma h x2 x1 t1 r b sigma) s.
Proof.
  intros S H X1 X2. assert (0 < x1 * x1) by nra. assert (0 < x2 * x2) by nra. assert (0 < h * (x2 * x2)) by nra. unfold psi_r. cbv zeta. apply cmul; [apply cmul; [apply ccst|apply cpow, cln; exact S]|].
  apply cadd; [apply csub; [apply csub|]|].
  - apply ccbnd; apply cpsi, clog2; assumption.
  - apply cmul; [apply cpow, clog1; assumption|]. apply ccbnd; apply cpsi, clog; assumption.
  - apply cmul; [apply cpow, clog1; assumption|]. apply ccbnd; apply cpsi; [apply clog2|apply clog]; assumption.
  - apply cmul; [apply ccst|]. apply ccbnd; apply cpsi; [apply clog|apply clog3]; assumption.
Qed.
Ltac ct := match goal with
  | |- continuous (fun s => @?f s + @?g s) _ => apply (cadd f g); ct
  | |- continuous (fun s => @?f s - @?g s) _ => apply (csub f g); ct
  | |- continuous (fun s => @?f s * @?g s) _ => apply (cmul f g); ct
  | |- continuous (fun s => phi_r s _ _ _ _ _ _ _) _ => apply cphi; assumption
  | |- continuous (fun s => psi_r _ _ s _ _ _ _ _ _ _ _ _) _ => apply cpsi_r; assumption
  | |- continuous (fun s => Rpower s _) _ => apply cpow, cln; assumption
  | |- _ => apply ccst
  end.
Lemma chold93 k t r b sigma beta X s : 0 < s -> 0 < k -> 0 < X -> continuous (fun s => hold93_r s k t r b sigma beta X) s.
Proof. intros. unfold hold93_r. ct. Qed.
Lemma chold02 xs ws t t1 r b sigma k beta x1 x2 s : 0 < s -> 0 < k -> 0 < x1 -> 0 < x2 -> continuous (fun s => hold02_r xs ws t t1 r b sigma s k beta x1 x2) s.
Proof. intros. unfold hold02_r. ct. Qed.
Lemma glue (f : R -> R) X k s : 0 < X -> 0 < s -> (forall u, 0 < u -> continuous f u) -> f X = X - k ->
  continuous (fun s => if Rlt_dec s X then f s else s - k) s.
Proof.
  intros X0 S C M. set (lo := fun s => (s + X - Rabs (s - X)) / 2). set (hi := fun s => (s + X + Rabs (s - X)) / 2).
  assert (CA : continuous (fun s => Rabs (s - X)) s). { apply (ccomp (fun s => s - X) Rabs); [apply csub; [apply continuous_id|apply ccst]|apply continuous_Rabs]. }
  assert (CL : continuous lo s). { unfold lo, Rdiv. apply cmul; [|apply ccst]. apply csub; [apply cadd; [apply continuous_id|apply ccst]|exact CA]. }
  assert (CH : continuous hi s). { unfold hi, Rdiv. apply cmul; [|apply ccst]. apply cadd; [apply cadd; [apply continuous_id|apply ccst]|exact CA]. }
  apply continuous_ext with (f := fun s => f (lo s) + (hi s - k) - f X).
  { assert (Q : forall u : R, f ((u + X - Rabs (u - X)) / 2) + ((u + X + Rabs (u - X)) / 2 - k) - f X = if Rlt_dec u X then f u else u - k); [|exact Q].
    intros u. destruct (Rlt_dec u X) as [L|L].
    - rewrite Rabs_left by lra. replace ((u + X - - (u - X)) / 2) with u by field. rewrite M. field.
    - rewrite Rabs_right by lra. replace ((u + X - (u - X)) / 2) with X by field. field. }
  apply csub; [|apply ccst]. apply cadd; [|apply csub; [exact CH|apply ccst]].
  apply (ccomp lo f); [exact CL|]. apply C. unfold lo. unfold Rabs. destruct (Rcase_abs (s - X)); lra.
Qed.

(** * Homogeneity *)
Section Scale.
Variables (l : R).
Hypothesis L0 : 0 < l.
Lemma scale_power s g : 0 < s -> Rpower (l * s) g = Rpower l g * Rpower s g.
Proof. intros S. symmetry. apply Rpower_mult_distr; assumption. Qed.
Lemma phi_scale s t gamma h X r b sigma : 0 < s -> 0 < h -> 0 < X -> phi_r (l * s) t gamma (l * h) (l * X) r b sigma = Rpower l gamma * phi_r s t gamma h X r b sigma.
Proof.
  intros S H Y. unfold phi_r. rewrite scale_power by exact S. replace (l * s / (l * h)) with (s / h) by (field; lra).
  replace (l * X * (l * X) / (l * s * (l * h))) with (X * X / (s * h)) by (field; lra). replace (l * X / (l * s)) with (X / s) by (field; lra). ring.
Qed.
Lemma psi_scale xs ws s t gamma h x2 x1 t1 r b sigma : 0 < s -> 0 < h -> 0 < x1 -> 0 < x2 ->
  psi_r xs ws (l * s) t gamma (l * h) (l * x2) (l * x1) t1 r b sigma = Rpower l gamma * psi_r xs ws s t gamma h x2 x1 t1 r b sigma.
Proof.
  intros S H X1 X2. unfold psi_r. cbv zeta. rewrite scale_power by exact S.
  replace (l * s / (l * h)) with (s / h) by (field; lra). replace (l * s / (l * x1)) with (s / x1) by (field; lra).
  replace (l * x2 * (l * x2) / (l * s * (l * x1))) with (x2 * x2 / (s * x1)) by (field; lra).
  replace (l * x2 * (l * x2) / (l * s * (l * h))) with (x2 * x2 / (s * h)) by (field; lra).
  replace (l * x1 * (l * x1) / (l * s * (l * h))) with (x1 * x1 / (s * h)) by (field; lra).
  replace (l * s * (l * x1 * (l * x1)) / (l * h * (l * x2 * (l * x2)))) with (s * (x1 * x1) / (h * (x2 * x2))) by (field; lra).
  replace (l * x2 / (l * s)) with (x2 / s) by (field; lra). replace (l * x1 / (l * s)) with (x1 / s) by (field; lra). replace (l * x1 / (l * x2)) with (x1 / x2) by (field; lra).
  ring.
Qed.
Lemma scale_cancel beta X s : 0 < X -> 0 < s -> Rpower (l * X) (- beta) * Rpower l beta = Rpower X (- beta).
Proof. intros P S. rewrite scale_power by exact P. replace (Rpower l (- beta) * Rpower X (- beta) * Rpower l beta) with (Rpower l (- beta) * Rpower l beta * Rpower X (- beta)) by ring. rewrite power_cancel by exact L0. ring. Qed.
Lemma hold93_scale s k t r b sigma beta X : 0 < s -> 0 < k -> 0 < X -> hold93_r (l * s) (l * k) t r b sigma beta (l * X) = l * hold93_r s k t r b sigma beta X.
Proof.
  intros S K Y. unfold hold93_r. rewrite !phi_scale, (scale_power s beta) by assumption. rewrite Rpower_1, Rpower_O by exact L0. assert (E := scale_cancel beta X s Y S).
  rewrite <- E. ring.
Qed.
Lemma hold02_scale xs ws t t1 r b sigma s k beta x1 x2 : 0 < s -> 0 < k -> 0 < x1 -> 0 < x2 ->
  hold02_r xs ws t t1 r b sigma (l * s) (l * k) beta (l * x1) (l * x2) = l * hold02_r xs ws t t1 r b sigma s k beta x1 x2.
Proof.
  intros S K X1 X2. unfold hold02_r. rewrite !phi_scale, !psi_scale, (scale_power s beta) by assumption. rewrite Rpower_1, Rpower_O by exact L0. assert (E1 := scale_cancel beta x1 s X1 S). assert (E2 := scale_cancel beta x2 s X2 S).
  rewrite <- E1, <- E2. ring.
Qed.
Lemma bnd_scale k r b sigma beta tau : 0 < k -> b0 k r b < binf k beta -> 0 < b0 k r b -> bnd (l * k) r b sigma beta tau = l * bnd k r b sigma beta tau.
Proof.
  intros K G P. assert (E0 : b0 (l * k) r b = l * b0 k r b). { unfold b0. replace (r / (r - b) * (l * k)) with (l * (r / (r - b) * k)) by ring. apply RmaxRmult. lra. }
  assert (E1 : binf (l * k) beta = l * binf k beta) by (unfold binf; ring).
  unfold bnd. rewrite E0, E1. clear E0 E1. generalize dependent (binf k beta). generalize dependent (b0 k r b). intros p P q G. replace ((l * k) ^ 2 / ((l * q - l * p) * (l * p))) with (k ^ 2 / ((q - p) * p)) by (field; repeat split; nra). ring.
Qed.
End Scale.
