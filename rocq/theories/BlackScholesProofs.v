(** Lemmas about the Black-Scholes prices. *)
From Coquelicot Require Import Coquelicot.
From Coq Require Import Reals Lra Lia Bool.
From Verif Require Import RIntAux InterpModel BrentModel ExtReal HaganWestModel HaganWestProofs BootstrapModel BlackScholesModel BlackScholesSpec NormalProofs.
Open Scope R_scope.

(** Expectations. *)
Lemma expectation_ext f g m : (forall z, f z = g z) -> expectation f m -> expectation g m.
Proof.
  intros E A. unfold expectation in *. eapply (is_RInt_gen_ext (V := R_NormedModule)); [|exact A].
  apply (Filter_prod _ _ _ (fun _ => True) (fun _ => True)); [exists 0; auto|exists 0; auto|].
  intros a b _ _ z _. rewrite E. reflexivity.
Qed.
Lemma expectation_scal f c m n : expectation f m -> n = c * m -> expectation (fun z => c * f z) n.
Proof.
  intros A ->. unfold expectation in *. apply (is_RInt_gen_scal (V := R_NormedModule) _ c) in A.
  eapply (is_RInt_gen_ext (V := R_NormedModule)); [|exact A].
  apply (Filter_prod _ _ _ (fun _ => True) (fun _ => True)); [exists 0; auto|exists 0; auto|].
  intros a b _ _ z _. change (c * (f z * density z) = c * f z * density z). ring.
Qed.
Lemma expectation_plus f g m n l : expectation f m -> expectation g n -> l = m + n -> expectation (fun z => f z + g z) l.
Proof.
  intros A B ->. unfold expectation in *. assert (C := is_RInt_gen_plus (V := R_NormedModule) _ _ _ _ A B).
  eapply (is_RInt_gen_ext (V := R_NormedModule)); [|exact C].
  apply (Filter_prod _ _ _ (fun _ => True) (fun _ => True)); [exists 0; auto|exists 0; auto|].
  intros a b _ _ z _. change (f z * density z + g z * density z = (f z + g z) * density z). ring.
Qed.
Lemma expectation_nonneg f m : (forall z, 0 <= f z) -> expectation f m -> 0 <= m.
Proof.
  intros P A. unfold expectation in A.
  assert (B := RInt_gen_norm (V := R_CompleteNormedModule) (Fa := Rbar_locally m_infty) (Fb := Rbar_locally p_infty)
                 (fun z => f z * density z) (fun z => f z * density z) m m).
  apply Rle_trans with (Rabs m); [apply Rabs_pos|]. apply B; [| |exact A|exact A].
  - apply (Filter_prod _ _ _ (fun a => a < 0) (fun b => 0 < b)); [exists 0; auto|exists 0; auto|]. intros a b X Y. cbn. lra.
  - apply (Filter_prod _ _ _ (fun _ => True) (fun _ => True)); [exists 0; auto|exists 0; auto|].
    intros a b _ _ z _. change (Rabs (f z * density z) <= f z * density z).
    rewrite Rabs_right; [lra|]. apply Rle_ge, Rmult_le_pos; [apply P|left; apply density_pos].
Qed.
Lemma expectation_le f g m n : (forall z, f z <= g z) -> expectation f m -> expectation g n -> m <= n.
Proof.
  intros L A B.
  assert (C : expectation (fun z => g z + -1 * f z) (n - m)).
  { eapply expectation_plus; [exact B|eapply expectation_scal; [exact A|reflexivity]|ring]. }
  apply expectation_nonneg in C; [lra|]. intros z. specialize (L z). lra.
Qed.
Lemma expectation_unique f m n : expectation f m -> expectation f n -> m = n.
Proof. intros A B. apply Rle_antisym; (eapply expectation_le; [|eassumption|eassumption]); intros; lra. Qed.
Lemma prim_at normal F s alpha beta : expectation (fun z => alpha * asset normal F s z + beta) (alpha * F + beta).
Proof.
  (* split at zero *)
  eapply expectation_ext with (f := fun z => (if Rlt_dec z 0 then alpha * asset normal F s z + beta else 0) + (if Rlt_dec z 0 then 0 else alpha * asset normal F s z + beta)).
  { intros z. destruct (Rlt_dec z 0); ring. }
  eapply expectation_plus.
  - eapply (expect_down normal F s alpha beta 0); [| |reflexivity]; intros z L; destruct (Rlt_dec z 0); lra.
  - eapply (expect_up normal F s alpha beta 0); [| |reflexivity]; intros z L; destruct (Rlt_dec z 0); lra.
  - ring.
Qed.

(** Fair values. *)
Definition in_range (a : option_args) (x : R) : Prop := is_normal_volatility a = true \/ 0 < x.
Lemma asset_in_range a F z : in_range a F -> in_range a (asset (is_normal_volatility a) F (deviation a) z).
Proof.
  intros [N|P]; unfold in_range; [left; exact N|]. destruct (is_normal_volatility a); [left; reflexivity|right].
  unfold asset. apply Rmult_lt_0_compat; [exact P|apply exp_pos].
Qed.
Lemma fair_ext a F p q m : in_range a F -> (forall x, in_range a x -> p x = q x) -> fair a F p m -> fair a F q m.
Proof.
  intros R E. unfold fair. destruct (Rlt_dec 0 (deviation a)).
  - apply expectation_ext. intros z. apply E. apply asset_in_range. exact R.
  - intros ->. apply E. exact R.
Qed.
Lemma fair_le a F p q m n : in_range a F -> (forall x, in_range a x -> p x <= q x) -> fair a F p m -> fair a F q n -> m <= n.
Proof.
  intros R E. unfold fair. destruct (Rlt_dec 0 (deviation a)).
  - apply expectation_le. intros z. apply E. apply asset_in_range. exact R.
  - intros -> ->. apply E. exact R.
Qed.
Lemma fair_lin a F p q c d m n l : fair a F p m -> fair a F q n -> l = c * m + d * n -> fair a F (fun x => c * p x + d * q x) l.
Proof.
  unfold fair. destruct (Rlt_dec 0 (deviation a)).
  - intros A B ->. eapply expectation_plus; [eapply expectation_scal; [exact A|reflexivity]|eapply expectation_scal; [exact B|reflexivity]|ring].
  - intros -> -> ->. reflexivity.
Qed.
Lemma fair_affine a F c d : fair a F (fun x => c * x + d) (c * F + d).
Proof. unfold fair. destruct (Rlt_dec 0 (deviation a)); [apply prim_at|reflexivity]. Qed.
Lemma fair_unique a F p m n : fair a F p m -> fair a F p n -> m = n.
Proof. unfold fair. destruct (Rlt_dec 0 (deviation a)); [apply expectation_unique|intros -> ->; reflexivity]. Qed.

(** Where the asset exceeds the strike. *)
Definition threshold (normal : bool) (F K s : R) : R := if normal then (K - F) / s else - (ln (F / K) / s - s / 2).
Lemma threshold_spec normal F K s z : 0 < s -> (normal = false -> 0 < F /\ 0 < K) ->
  (threshold normal F K s < z -> K < asset normal F s z) /\ (z < threshold normal F K s -> asset normal F s z < K).
Proof.
  intros P V. destruct normal; unfold threshold, asset.
  - split; intros L; apply (Rmult_lt_compat_r s) in L; try lra; replace ((K - F) / s * s) with (K - F) in L by (field; lra); lra.
  - destruct (V eq_refl) as [VF VK].
    assert (E : exp (ln (F / K)) = F / K) by (apply exp_ln, Rdiv_lt_0_compat; lra).
    assert (KE : K = F * exp (- ln (F / K))) by (rewrite exp_Ropp, E; field; lra).
    split; intros L; apply (Rmult_lt_compat_r s) in L; try lra; replace (- (ln (F / K) / s - s / 2) * s) with (- ln (F / K) + s ^ 2 / 2) in L by (field; lra);
      rewrite KE at 1; apply Rmult_lt_compat_l; try lra; apply exp_increasing; lra.
Qed.
(** Value of [alpha * asset + beta] paid above and below the strike. *)
Definition above (normal : bool) (F K s alpha beta : R) : R := alpha * F + beta - prim normal F s alpha beta (threshold normal F K s).
Definition below (normal : bool) (F K s alpha beta : R) : R := prim normal F s alpha beta (threshold normal F K s).
Lemma fair_above a F p alpha beta : 0 < deviation a -> (is_normal_volatility a = false -> 0 < F /\ 0 < strike a) ->
  (forall x, x < strike a -> p x = 0) -> (forall x, strike a < x -> p x = alpha * x + beta) ->
  fair a F p (above (is_normal_volatility a) F (strike a) (deviation a) alpha beta).
Proof.
  intros S V Z E. unfold fair. destruct (Rlt_dec 0 (deviation a)) as [_|Q]; [|lra].
  eapply expect_up; [| |reflexivity]; intros z L; destruct (threshold_spec (is_normal_volatility a) F (strike a) (deviation a) z S V) as [U W]; auto.
Qed.
Lemma fair_below a F p alpha beta : 0 < deviation a -> (is_normal_volatility a = false -> 0 < F /\ 0 < strike a) ->
  (forall x, x < strike a -> p x = alpha * x + beta) -> (forall x, strike a < x -> p x = 0) ->
  fair a F p (below (is_normal_volatility a) F (strike a) (deviation a) alpha beta).
Proof.
  intros S V E Z. unfold fair. destruct (Rlt_dec 0 (deviation a)) as [_|Q]; [|lra].
  eapply expect_down; [| |reflexivity]; intros z L; destruct (threshold_spec (is_normal_volatility a) F (strike a) (deviation a) z S V) as [U W]; auto.
Qed.
(** Closed forms. *)
Lemma above_log F K s alpha beta : s <> 0 ->
  above false F K s alpha beta = alpha * F * ncdf (ln (F / K) / s + s / 2) + beta * ncdf (ln (F / K) / s + s / 2 - s).
Proof.
  intros S. unfold above, prim, threshold.
  replace (- (ln (F / K) / s - s / 2) - s) with (- (ln (F / K) / s + s / 2)) by (field; exact S).
  rewrite !ncdf_symm. replace (ln (F / K) / s + s / 2 - s) with (ln (F / K) / s - s / 2) by (field; exact S). ring.
Qed.
Lemma above_normal F K s alpha beta : s <> 0 ->
  above true F K s alpha beta = (alpha * F + beta) * ncdf ((F - K) / s) + alpha * s * density ((F - K) / s).
Proof.
  intros S. unfold above, prim, threshold. replace ((K - F) / s) with (- ((F - K) / s)) by (field; exact S).
  rewrite ncdf_symm, density_even. ring.
Qed.
Lemma below_above normal F K s alpha beta : below normal F K s alpha beta = alpha * F + beta - above normal F K s alpha beta.
Proof. unfold below, above. ring. Qed.
Lemma prim_opp normal F s alpha beta c : prim normal F s (- alpha) (- beta) c = - prim normal F s alpha beta c.
Proof. destruct normal; unfold prim; ring. Qed.

(** The code on finite numbers. *)
Lemma quoted_discount a D F : quoted a D F -> snd (discounting_args a) = Fin D.
Proof.
  intros (P & Q & _). unfold discounts_to in Q. unfold discounting_args.
  destruct (discount_rate a) as [r|], (discount_factor a) as [d|]; try contradiction; subst D; cbn [snd]; try reflexivity.
  do 2 f_equal. ring.
Qed.
Lemma xln_pos d : 0 < d -> xln (Fin d) = Fin (ln d).
Proof. intros P. unfold xln, rlt. destruct (Rlt_dec 0 d); [reflexivity|lra]. Qed.
Lemma quoted_forward a D F : quoted a D F -> forward_args a = Fin F.
Proof.
  intros (P & Q & W & T & N & _). unfold discounts_to in Q. unfold forward_is in W. unfold forward_args, degenerate in *.
  destruct (spot a) as [x|], (forward a) as [f|]; try contradiction; [|subst; reflexivity].
  assert (DV : dividend_args a = Fin (dividend a)) by (unfold dividend_args, dividend; destruct (dividend_rate a); reflexivity).
  rewrite DV. unfold discounting_args.
  destruct (discount_rate a) as [r|], (discount_factor a) as [d|]; try contradiction; cbn [fst].
  - rewrite fsub, fmul. cbn [xexp]. rewrite fmul. f_equal. subst F D. set (q := dividend a). clearbody q.
    unfold Rdiv. rewrite <- exp_Ropp, Rmult_assoc, <- exp_plus. f_equal. f_equal. ring.
  - assert (TN : expiry a <> 0). { intros Z. apply N. split; [exact Z|]. split; discriminate. }
    subst d. rewrite xln_pos by exact P. cbn [xopp]. rewrite fdiv by exact TN. rewrite fsub, fmul. cbn [xexp]. rewrite fmul. f_equal.
    subst F. set (q := dividend a). clearbody q.
    replace ((- ln D / expiry a - q) * expiry a) with (- (q * expiry a) + - ln D) by (field; exact TN).
    rewrite exp_plus, (exp_Ropp (ln D)), exp_ln by exact P. unfold Rdiv. ring.
  - rewrite fsub, fmul. cbn [xexp]. rewrite fmul. f_equal. subst F D. set (q := dividend a). clearbody q.
    replace ((0 - q) * expiry a) with (- (q * expiry a)) by ring. field.
Qed.
Lemma quoted_var a D F : quoted a D F -> sqrt_var a = Fin (deviation a).
Proof.
  intros (_ & _ & _ & T & _). unfold sqrt_var, xsqrt, rlt, deviation. destruct (Rlt_dec (expiry a) 0); [lra|]. reflexivity.
Qed.
Lemma quoted_ok a D F : quoted a D F -> args_ok a = true.
Proof.
  intros (_ & Q & W & _). unfold args_ok, discounts_to, forward_is in *.
  destruct (spot a), (forward a), (discount_rate a), (discount_factor a); try contradiction; reflexivity.
Qed.
Lemma quoted_range a D F : quoted a D F -> in_range a F.
Proof. intros (_ & _ & _ & _ & _ & V). unfold in_range. destruct (is_normal_volatility a); [left; reflexivity|right; apply V; reflexivity]. Qed.
Lemma quoted_pos a D F : quoted a D F -> is_normal_volatility a = false -> 0 < F /\ 0 < strike a.
Proof. intros (_ & _ & _ & _ & _ & V). exact V. Qed.
Lemma xdensity_fin d : xdensity (Fin d) = Fin (density d).
Proof.
  unfold xdensity. rewrite fsquare, fmul. cbn [xexp]. rewrite fdiv by (apply Rgt_not_eq, sqrt2pi_pos). unfold density. do 3 f_equal. unfold Rdiv. ring.
Qed.
Lemma rlt_pos x : 0 < x -> xlt (Fin 0) (Fin x) = true.
Proof. intros. cbn. unfold rlt. destruct (Rlt_dec 0 x); [reflexivity|lra]. Qed.
Lemma rlt_npos x : ~ 0 < x -> xlt (Fin 0) (Fin x) = false.
Proof. intros. cbn. unfold rlt. destruct (Rlt_dec 0 x); [lra|reflexivity]. Qed.
Lemma xdnn a b : b <> 0 -> xdivide_no_nan (Fin a) (Fin b) = Fin (a / b).
Proof. intros N. unfold xdivide_no_nan, xzero, req. destruct (Req_EM_T b 0); [contradiction|]. apply fdiv; exact N. Qed.
Lemma call_pos a D F : quoted a D F -> 0 < deviation a ->
  undiscounted_call a = Fin (above (is_normal_volatility a) F (strike a) (deviation a) 1 (- strike a)).
Proof.
  intros Q S. unfold undiscounted_call. cbv zeta. rewrite (quoted_forward a D F Q), (quoted_var a D F Q), rlt_pos by exact S.
  assert (V := quoted_pos a D F Q). assert (N : deviation a <> 0) by lra.
  destruct (is_normal_volatility a); cbn [negb].
  - rewrite above_normal by exact N. rewrite fsub, xdnn by exact N. cbn [xncdf]. rewrite xdensity_fin. xfin. f_equal. ring.
  - destruct (V eq_refl) as [VF VK]. rewrite above_log by exact N. rewrite fdiv by lra.
    rewrite xln_pos by (apply Rdiv_lt_0_compat; lra). rewrite xdnn by exact N. rewrite fdiv by lra. rewrite fadd, fsub. cbn [xncdf]. rewrite !fmul, fsub. f_equal. ring.
Qed.
Lemma call_zero a D F : quoted a D F -> ~ 0 < deviation a -> undiscounted_call a = Fin (Rmax (F - strike a) 0).
Proof.
  intros Q S. unfold undiscounted_call. cbv zeta. rewrite (quoted_forward a D F Q), (quoted_var a D F Q), rlt_npos by exact S.
  rewrite fsub, fmax. destruct (negb (is_normal_volatility a)); reflexivity.
Qed.
Lemma price_value a D F : quoted a D F -> exists m, option_price a = Some (Fin (D * m)) /\ fair a F (vanilla (calls a) (strike a)) m.
Proof.
  intros Q. unfold option_price. rewrite (quoted_ok a D F Q). cbn [negb]. cbv zeta. rewrite (quoted_discount a D F Q), (quoted_forward a D F Q).
  assert (V := quoted_pos a D F Q).
  destruct (Rlt_dec 0 (deviation a)) as [S|S].
  - rewrite (call_pos a D F Q S).
    set (A := above (is_normal_volatility a) F (strike a) (deviation a) 1 (- strike a)).
    assert (FA : fair a F (vanilla true (strike a)) A).
    { apply fair_above; [exact S|exact V| |]; intros x X; unfold vanilla, Rmax; destruct (Rle_dec (x - strike a) 0); lra. }
    assert (FB : fair a F (vanilla false (strike a)) (A - (F - strike a))).
    { replace (A - (F - strike a)) with (below (is_normal_volatility a) F (strike a) (deviation a) (-1) (strike a)).
      - apply fair_below; [exact S|exact V| |]; intros x X; unfold vanilla, Rmax; destruct (Rle_dec (strike a - x) 0); lra.
      - unfold below, A, above. assert (E := prim_opp (is_normal_volatility a) F (deviation a) 1 (- strike a) (threshold (is_normal_volatility a) F (strike a) (deviation a))).
        replace (- (1)) with (-1) in E by ring. rewrite Ropp_involutive in E. rewrite E. ring. }
    unfold calls. destruct (is_call_option a) as [[|]|]; xfin.
    + exists A. split; [reflexivity|exact FA].
    + exists (A - (F - strike a)). split; [reflexivity|exact FB].
    + exists A. split; [reflexivity|exact FA].
  - rewrite (call_zero a D F Q S). unfold calls, fair. destruct (Rlt_dec 0 (deviation a)) as [W|_]; [contradiction|].
    destruct (is_call_option a) as [[|]|]; xfin; eexists; (split; [reflexivity|]); unfold vanilla, Rmax;
      destruct (Rle_dec (F - strike a) 0), (Rle_dec (strike a - F) 0); lra.
Qed.
Lemma quoted_type a D F c : quoted a D F -> quoted (with_type a c) D F. Proof. exact (fun H => H). Qed.
Lemma quoted_vol a D F v : quoted a D F -> quoted (with_volatility a v) D F. Proof. exact (fun H => H). Qed.

(** Monotone in the volatility. *)
Lemma log_vega F K s : 0 < F -> 0 < K -> 0 < s ->
  is_derive (fun s => above false F K s 1 (- K)) s (F * density (ln (F / K) / s + s / 2)).
Proof.
  intros PF PK PS. set (L := ln (F / K)).
  apply (is_derive_ext_loc (fun s => F * ncdf (L / s + s / 2) + - K * ncdf (L / s - s / 2))).
  { exists (mkposreal s PS). intros t B. assert (T : t <> 0). { intros ->. unfold ball in B. cbn in B. unfold AbsRing_ball, abs, minus, plus, opp in B. cbn in B. replace (0 + - s) with (- s) in B by ring. rewrite Rabs_Ropp, Rabs_right in B; lra. }
    change (F * ncdf (L / t + t / 2) + - K * ncdf (L / t - t / 2) = above false F K t 1 (- K)). rewrite above_log by exact T. fold L. replace (L / t + t / 2 - t) with (L / t - t / 2) by (field; exact T). ring. }
  assert (E : F * density (L / s + s / 2) = K * density (L / s - s / 2)).
  { unfold density. replace (- ((L / s - s / 2) ^ 2 / 2)) with (- ((L / s + s / 2) ^ 2 / 2) + L) by (field; lra).
    rewrite exp_plus. unfold L at 3. rewrite exp_ln by (apply Rdiv_lt_0_compat; lra). assert (Q := sqrt2pi_pos). field. lra. }
  assert (D1 : is_derive (fun s => L / s + s / 2) s (- L / s ^ 2 + / 2)) by (auto_derive; [lra|]; field; lra).
  assert (D2 : is_derive (fun s => L / s - s / 2) s (- L / s ^ 2 - / 2)) by (auto_derive; [lra|]; field; lra).
  assert (C1 := is_derive_comp (V := R_NormedModule) ncdf (fun s => L / s + s / 2) s _ _ (ncdf_derive _) D1).
  assert (C2 := is_derive_comp (V := R_NormedModule) ncdf (fun s => L / s - s / 2) s _ _ (ncdf_derive _) D2).
  apply (is_derive_scal _ _ F) in C1. apply (is_derive_scal _ _ (- K)) in C2.
  assert (C := is_derive_plus (V := R_NormedModule) _ _ _ _ _ C1 C2).
  match type of C with is_derive _ _ ?d => replace (F * density (L / s + s / 2)) with d; [exact C|] end.
  change (F * ((- L / s ^ 2 + / 2) * density (L / s + s / 2)) + - K * ((- L / s ^ 2 - / 2) * density (L / s - s / 2)) = F * density (L / s + s / 2)).
  assert (X : - K * ((- L / s ^ 2 - / 2) * density (L / s - s / 2)) = - (K * density (L / s - s / 2)) * (- L / s ^ 2 - / 2)) by ring.
  rewrite X, <- E. field. lra.
Qed.
Lemma normal_vega F K s : 0 < s -> is_derive (fun s => above true F K s 1 (- K)) s (density ((F - K) / s)).
Proof.
  intros PS. set (L := F - K).
  apply (is_derive_ext_loc (fun s => L * ncdf (L / s) + s * density (L / s))).
  { exists (mkposreal s PS). intros t B. assert (T : t <> 0). { intros ->. unfold ball in B. cbn in B. unfold AbsRing_ball, abs, minus, plus, opp in B. cbn in B. replace (0 + - s) with (- s) in B by ring. rewrite Rabs_Ropp, Rabs_right in B; lra. }
    change (L * ncdf (L / t) + t * density (L / t) = above true F K t 1 (- K)). rewrite above_normal by exact T. unfold L. ring. }
  assert (D1 : is_derive (fun s => L / s) s (- L / s ^ 2)) by (auto_derive; [lra|]; field; lra).
  assert (C1 := is_derive_comp (V := R_NormedModule) ncdf (fun s => L / s) s _ _ (ncdf_derive _) D1).
  assert (C2 := is_derive_comp (V := R_NormedModule) density (fun s => L / s) s _ _ (density_derive _) D1).
  apply (is_derive_scal _ _ L) in C1.
  assert (C3 := is_derive_mult (fun s => s) (fun s => density (L / s)) s _ _ (is_derive_id s) C2 Rmult_comm).
  assert (C := is_derive_plus (V := R_NormedModule) _ _ _ _ _ C1 C3).
  match type of C with is_derive _ _ ?d => replace (density (L / s)) with d; [exact C|] end.
  change (L * ((- L / s ^ 2) * density (L / s)) + (1 * density (L / s) + s * ((- L / s ^ 2) * (- (L / s) * density (L / s)))) = density (L / s)).
  field. lra.
Qed.
Lemma above_incr normal F K s t : (normal = false -> 0 < F /\ 0 < K) -> 0 < s -> s < t -> above normal F K s 1 (- K) < above normal F K t 1 (- K).
Proof.
  intros V S T.
  assert (X : exists d : R -> R, forall u, 0 < u -> is_derive (fun s => above normal F K s 1 (- K)) u (d u) /\ 0 < d u).
  { destruct normal.
    - exists (fun u => density ((F - K) / u)). intros u U. split; [apply normal_vega; exact U|apply density_pos].
    - destruct (V eq_refl). exists (fun u => F * density (ln (F / K) / u + u / 2)). intros u U. split; [apply log_vega; assumption|].
      apply Rmult_lt_0_compat; [assumption|apply density_pos]. }
  destruct X as [d X].
  destruct (MVT_gen (fun s => above normal F K s 1 (- K)) s t d) as [c [B E]].
  - intros x B. rewrite Rmin_left in B by lra. apply X. lra.
  - intros x B. rewrite Rmin_left in B by lra. apply (continuity_pt_filterlim (fun s => above normal F K s 1 (- K))). apply (ex_derive_continuous (V := R_NormedModule) (fun s => above normal F K s 1 (- K))). exists (d x). apply X. lra.
  - rewrite Rmin_left, Rmax_right in B by lra. destruct (X c) as [_ P]; [lra|]. nra.
Qed.
