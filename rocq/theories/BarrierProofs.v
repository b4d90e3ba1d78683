(** Lemmas about barrier prices. *)
From Coquelicot Require Import Coquelicot.
From Coq Require Import Reals Lra Lia List Bool ZArith.
From Verif Require Import RIntAux InterpModel BrentModel ExtReal HaganWestModel HaganWestProofs BootstrapModel BlackScholesModel BlackScholesSpec NormalProofs BlackScholesProofs BarrierModel BarrierSpec.
Import ListNotations.
Open Scope R_scope.

(** Integrals of functions that vanish outside an interval. *)
Lemma between_int (f g A : R -> R) (c d m : R) : c <= d ->
  (forall z, z < c -> f z = 0) -> (forall z, c < z < d -> f z = g z) -> (forall z, d < z -> f z = 0) -> (forall z, is_derive A z (g z)) -> (forall z, continuous g z) ->
  m = A d - A c ->
  is_RInt_gen (V := R_NormedModule) f (Rbar_locally m_infty) (Rbar_locally p_infty) m.
Proof.
  intros L Z E Z' D C M P [eps HP]. subst m.
  apply (Filter_prod _ _ _ (fun a => a < c) (fun b => d < b)); [exists c; auto|exists d; auto|].
  intros a b Ha Hb. exists (A d - A c). split.
  - apply (isi_chasles f a d b (A d - A c) 0); [| |ring].
    + apply (isi_chasles f a c d 0 (A d - A c)); [| |ring].
      * apply (isi_ext (fun _ => 0)); [|apply isi_const; ring]. intros z [_ B]. rewrite Rmax_right in B by lra. symmetry; apply Z; exact B.
      * apply (isi_ext g). { intros z B. rewrite Rmin_left, Rmax_right in B by lra. symmetry; apply E; exact B. }
        apply (is_RInt_derive (V := R_CompleteNormedModule)); intros; auto.
    + apply (isi_ext (fun _ => 0)); [|apply isi_const; ring]. intros z [B _]. rewrite Rmin_left in B by lra. symmetry; apply Z'; exact B.
  - apply HP. change (Rabs (minus (A d - A c) (A d - A c)) < eps). unfold minus, plus, opp; cbn.
    replace (A d - A c + - (A d - A c)) with 0 by ring. rewrite Rabs_R0. apply cond_pos.
Qed.

(** Sums of four exponentials against the density. *)
Definition quad (a b c d s u z : R) : R := a * ncdf (z - s) + b * ncdf z - (c * ncdf (z - s - u) + d * ncdf (z - u)).
Definition dquad (a b c d s u z : R) : R := (a * exp (s * z - s ^ 2 / 2) + b - (c * exp ((s + u) * z - (s + u) ^ 2 / 2) + d * exp (u * z - u ^ 2 / 2))) * density z.
Lemma shift_derive k z : is_derive (fun z => ncdf (z - k)) z (exp (k * z - k ^ 2 / 2) * density z).
Proof.
  rewrite density_shift. replace (density (z - k)) with (1 * density (z - k)) by ring.
  apply (is_derive_comp (V := R_NormedModule) ncdf (fun z => z - k)); [apply ncdf_derive|]. auto_derive; [exact I|]. ring.
Qed.
Lemma quad_derive a b c d s u z : is_derive (quad a b c d s u) z (dquad a b c d s u z).
Proof.
  unfold quad, dquad.
  assert (D1 := is_derive_scal _ _ a _ (shift_derive s z)). assert (D2 := is_derive_scal _ _ b _ (ncdf_derive z)).
  assert (D3 := is_derive_scal _ _ c _ (shift_derive (s + u) z)). assert (D4 := is_derive_scal _ _ d _ (shift_derive u z)).
  assert (E := is_derive_minus (V := R_NormedModule) _ _ _ _ _ (is_derive_plus (V := R_NormedModule) _ _ _ _ _ D1 D2) (is_derive_plus (V := R_NormedModule) _ _ _ _ _ D3 D4)).
  match type of E with is_derive _ _ ?e => replace ((a * exp (s * z - s ^ 2 / 2) + b - (c * exp ((s + u) * z - (s + u) ^ 2 / 2) + d * exp (u * z - u ^ 2 / 2))) * density z) with e end.
  - eapply is_derive_ext; [|exact E]. intros t. change (a * ncdf (t - s) + b * ncdf t - (c * ncdf (t - (s + u)) + d * ncdf (t - u)) = a * ncdf (t - s) + b * ncdf t - (c * ncdf (t - s - u) + d * ncdf (t - u))).
    replace (t - s - u) with (t - (s + u)) by ring. reflexivity.
  - change (a * (exp (s * z - s ^ 2 / 2) * density z) + b * density z - (c * (exp ((s + u) * z - (s + u) ^ 2 / 2) * density z) + d * (exp (u * z - u ^ 2 / 2) * density z)) = (a * exp (s * z - s ^ 2 / 2) + b - (c * exp ((s + u) * z - (s + u) ^ 2 / 2) + d * exp (u * z - u ^ 2 / 2))) * density z). ring.
Qed.
Lemma dquad_cont a b c d s u z : continuous (dquad a b c d s u) z.
Proof. apply (ex_derive_continuous (V := R_NormedModule)). assert (A := sqrt2pi_pos). unfold dquad, density. auto_derive. repeat split; lra. Qed.
Lemma quad_lim a b c d s u (p : Rbar) n : p = p_infty /\ n = 1 \/ p = m_infty /\ n = 0 -> is_lim (quad a b c d s u) p ((a + b - (c + d)) * n).
Proof.
  intros H. assert (P : p = p_infty \/ p = m_infty) by tauto.
  assert (L : is_lim ncdf p n) by (destruct H as [[-> ->]|[-> ->]]; [apply ncdf_lim_p|apply ncdf_lim_m]).
  replace (Finite ((a + b - (c + d)) * n)) with (Finite (a * n + b * n - (c * n + d * n))) by (f_equal; ring).
  unfold quad.
  apply (is_lim_minus' (fun z => a * ncdf (z - s) + b * ncdf z) (fun z => c * ncdf (z - s - u) + d * ncdf (z - u))).
  - apply (is_lim_plus' (fun z => a * ncdf (z - s)) (fun z => b * ncdf z)).
    + apply (is_lim_scal_l (fun z => ncdf (z - s)) a p n). apply is_lim_shift; assumption.
    + apply (is_lim_scal_l ncdf b p n). exact L.
  - apply (is_lim_plus' (fun z => c * ncdf (z - s - u)) (fun z => d * ncdf (z - u))).
    + apply (is_lim_scal_l (fun z => ncdf (z - s - u)) c p n). apply (is_lim_shift (fun z => ncdf (z - u)) s); [exact P|].
      apply is_lim_shift; assumption.
    + apply (is_lim_scal_l (fun z => ncdf (z - u)) d p n). apply is_lim_shift; assumption.
Qed.

Section Args.
Variable a : barrier_args.
Hypothesis V : valid_args a.
Let s := deviation_of a.
Let K := b_strike a.
Definition shift_u : R := 2 * ln (b_barrier a / b_spot a) / deviation_of a.
Definition level_z (L : R) : R := - (ln (b_spot a / L) / deviation_of a + (rate a - yield a - b_volatility a ^ 2 / 2) * b_expiry a / deviation_of a).
Definition weight : R := exp (shift_u * ((rate a - yield a - b_volatility a ^ 2 / 2) * b_expiry a / deviation_of a)).
Definition weight2 : R := weight * exp (deviation_of a * shift_u).

Lemma s_pos : 0 < deviation_of a.
Proof. destruct V as (A1 & A2 & _). unfold deviation_of. apply Rmult_lt_0_compat; [exact A1|apply sqrt_lt_R0; exact A2]. Qed.
Lemma s_sq : deviation_of a ^ 2 = b_volatility a ^ 2 * b_expiry a.
Proof. destruct V as (A1 & A2 & _). unfold deviation_of. rewrite Rpow_mult_distr. f_equal. rewrite <- Rsqr_pow2. apply Rsqr_sqrt. lra. Qed.
Lemma mu_s : (rate a - yield a - b_volatility a ^ 2 / 2) / b_volatility a ^ 2 * deviation_of a = (rate a - yield a - b_volatility a ^ 2 / 2) * b_expiry a / deviation_of a.
Proof.
  assert (P := s_pos). assert (Q := s_sq). destruct V as (A1 & A2 & _).
  apply (Rmult_eq_reg_r (deviation_of a)); [|lra].
  replace ((rate a - yield a - b_volatility a ^ 2 / 2) * b_expiry a / deviation_of a * deviation_of a) with ((rate a - yield a - b_volatility a ^ 2 / 2) * b_expiry a) by (field; lra).
  replace ((rate a - yield a - b_volatility a ^ 2 / 2) / b_volatility a ^ 2 * deviation_of a * deviation_of a) with ((rate a - yield a - b_volatility a ^ 2 / 2) / b_volatility a ^ 2 * deviation_of a ^ 2) by ring.
  rewrite Q. field. lra.
Qed.
Lemma lamda_s : (1 + (rate a - yield a - b_volatility a ^ 2 / 2) / b_volatility a ^ 2) * deviation_of a = deviation_of a + (rate a - yield a - b_volatility a ^ 2 / 2) * b_expiry a / deviation_of a.
Proof. rewrite <- mu_s. ring. Qed.
Lemma ln_div x y : 0 < x -> 0 < y -> ln (x / y) = ln x - ln y.
Proof. intros X Y. unfold Rdiv. rewrite ln_mult, ln_Rinv; [ring|assumption|assumption|apply Rinv_0_lt_compat; assumption]. Qed.
(** The end price as a function of z. *)
Lemma ln_end z L : 0 < L -> ln (end_price a z / L) = deviation_of a * (z - level_z L).
Proof.
  intros PL. assert (P := s_pos). assert (Q := s_sq). destruct V as (A1 & A2 & A3 & A4 & A5).
  unfold end_price, asset, forward_of.
  replace (b_spot a * exp ((rate a - yield a) * b_expiry a) * exp (deviation_of a * z - deviation_of a ^ 2 / 2) / L)
    with (b_spot a / L * exp ((rate a - yield a) * b_expiry a + (deviation_of a * z - deviation_of a ^ 2 / 2))) by (rewrite exp_plus; field; lra).
  rewrite ln_mult; [|apply Rdiv_lt_0_compat; assumption|apply exp_pos]. rewrite ln_exp. unfold level_z. rewrite Q. field. lra.
Qed.
Lemma end_pos z : 0 < end_price a z.
Proof. destruct V as (A1 & A2 & A3 & A4 & A5). unfold end_price, asset, forward_of. repeat apply Rmult_lt_0_compat; try apply exp_pos. exact A3. Qed.
Lemma end_lt z L : 0 < L -> (level_z L < z <-> L < end_price a z).
Proof.
  intros PL. assert (E := ln_end z L PL). assert (P := s_pos). assert (EP := end_pos z).
  rewrite ln_div in E by assumption. split; intros X.
  - apply ln_lt_inv; [exact PL|exact EP|]. nra.
  - apply ln_increasing in X; [|exact PL]. nra.
Qed.
Lemma end_gt z L : 0 < L -> (z < level_z L <-> end_price a z < L).
Proof.
  intros PL. assert (E := ln_end z L PL). assert (P := s_pos). assert (EP := end_pos z).
  rewrite ln_div in E by assumption. split; intros X.
  - apply ln_lt_inv; [exact EP|exact PL|]. nra.
  - apply ln_increasing in X; [|exact EP]. nra.
Qed.
Lemma level_le L M : 0 < L -> 0 < M -> (L <= M <-> level_z L <= level_z M).
Proof.
  intros PL PM. assert (P := s_pos). destruct V as (A1 & A2 & A3 & A4 & A5). unfold level_z.
  rewrite !ln_div by assumption. set (m := (rate a - yield a - b_volatility a ^ 2 / 2) * b_expiry a / deviation_of a). clearbody m.
  assert (IP : 0 < / deviation_of a) by (apply Rinv_0_lt_compat; exact P). split; intros X.
  - assert (ln L <= ln M). { destruct (Rle_lt_or_eq_dec L M X) as [Y| ->]; [left; apply ln_increasing; assumption|lra]. } unfold Rdiv. nra.
  - apply Rnot_lt_le. intros Y. apply (ln_increasing M L PM) in Y. unfold Rdiv in X. nra.
Qed.
(** The chance of being hit is an exponential in z. *)
Lemma hit_exp z : exp (- (2 * ln (b_spot a / b_barrier a) * ln (end_price a z / b_barrier a) / deviation_of a ^ 2)) = weight * exp (shift_u * z - shift_u ^ 2 / 2).
Proof.
  assert (P := s_pos). destruct V as (A1 & A2 & A3 & A4 & A5). rewrite ln_end by exact A5. unfold weight. rewrite <- exp_plus. f_equal.
  unfold shift_u, level_z. rewrite !ln_div by assumption. field. lra.
Qed.
Lemma hit_asset z : end_price a z * (weight * exp (shift_u * z - shift_u ^ 2 / 2)) = weight2 * forward_of a * exp ((deviation_of a + shift_u) * z - (deviation_of a + shift_u) ^ 2 / 2).
Proof.
  unfold end_price, asset, weight2.
  replace ((deviation_of a + shift_u) * z - (deviation_of a + shift_u) ^ 2 / 2) with ((deviation_of a * z - deviation_of a ^ 2 / 2) + (shift_u * z - shift_u ^ 2 / 2) + - (deviation_of a * shift_u)) by field.
  rewrite !exp_plus, exp_Ropp. assert (E := exp_pos (deviation_of a * shift_u)). field. lra.
Qed.
(** (alpha * price + beta) times survival. *)
Definition A4 (alpha beta z : R) : R := quad (alpha * forward_of a) beta (alpha * (weight2 * forward_of a)) (beta * weight) (deviation_of a) shift_u z.
Definition g4 (alpha beta z : R) : R := dquad (alpha * forward_of a) beta (alpha * (weight2 * forward_of a)) (beta * weight) (deviation_of a) shift_u z.
Lemma g4_eq alpha beta z : (alpha * end_price a z + beta) * (1 - exp (- (2 * ln (b_spot a / b_barrier a) * ln (end_price a z / b_barrier a) / deviation_of a ^ 2))) * density z = g4 alpha beta z.
Proof.
  rewrite hit_exp. unfold g4, dquad. f_equal. rewrite Rmult_minus_distr_l, Rmult_1_r. rewrite Rmult_plus_distr_r, Rmult_assoc, hit_asset.
  unfold end_price, asset. ring.
Qed.
Lemma expect_interval (lo hi : option R) alpha beta (f : R -> R) m :
  (forall l h, lo = Some l -> hi = Some h -> l <= h) ->
  (forall z, (forall l, lo = Some l -> l < z) -> (forall h, hi = Some h -> z < h) -> f z = (alpha * end_price a z + beta) * (1 - exp (- (2 * ln (b_spot a / b_barrier a) * ln (end_price a z / b_barrier a) / deviation_of a ^ 2)))) ->
  (forall z l, lo = Some l -> z < l -> f z = 0) -> (forall z h, hi = Some h -> h < z -> f z = 0) ->
  lo <> None \/ hi <> None ->
  m = (match hi with Some h => A4 alpha beta h | None => alpha * forward_of a + beta - (alpha * (weight2 * forward_of a) + beta * weight) end)
      - (match lo with Some l => A4 alpha beta l | None => 0 end) ->
  expectation f m.
Proof.
  intros LH E Z1 Z2 NN M. destruct lo as [l|], hi as [h|].
  - apply (between_int _ (g4 alpha beta) (A4 alpha beta) l h); [apply LH; reflexivity| | | |intros; apply quad_derive|intros; apply dquad_cont|exact M].
    + intros z X. rewrite (Z1 z l eq_refl X). ring.
    + intros z [X Y]. rewrite <- g4_eq. f_equal. apply E; intros ? [= <-]; assumption.
    + intros z X. rewrite (Z2 z h eq_refl X). ring.
  - apply (half_up _ (g4 alpha beta) (A4 alpha beta) l (alpha * forward_of a + beta - (alpha * (weight2 * forward_of a) + beta * weight))); [| |intros; apply quad_derive|intros; apply dquad_cont| |exact M].
    + intros z X. rewrite (Z1 z l eq_refl X). ring.
    + intros z X. rewrite <- g4_eq. f_equal. apply E; [intros ? [= <-]; assumption|discriminate].
    + assert (Q := quad_lim (alpha * forward_of a) beta (alpha * (weight2 * forward_of a)) (beta * weight) (deviation_of a) shift_u p_infty 1 (or_introl (conj eq_refl eq_refl))). rewrite Rmult_1_r in Q. exact Q.
  - apply (half_down _ (g4 alpha beta) (A4 alpha beta) h 0); [| |intros; apply quad_derive|intros; apply dquad_cont| |exact M].
    + intros z X. rewrite <- g4_eq. f_equal. apply E; [discriminate|intros ? [= <-]; assumption].
    + intros z X. rewrite (Z2 z h eq_refl X). ring.
    + assert (Q := quad_lim (alpha * forward_of a) beta (alpha * (weight2 * forward_of a)) (beta * weight) (deviation_of a) shift_u m_infty 0 (or_intror (conj eq_refl eq_refl))). rewrite Rmult_0_r in Q. exact Q.
  - destruct NN as [N|N]; contradiction.
Qed.

(** The twelve products of the code. *)
Definition side (above : bool) (p : R) : R := if above then 1 - p else p.
Definition sgn (c : bool) : R := if c then 1 else -1.
Let cK := level_z (b_strike a).
Let cB := level_z (b_barrier a).
Let u := shift_u.
Definition rebate_b : R := ((rate a - yield a - b_volatility a ^ 2 / 2) ^ 2 + 2 * b_volatility a ^ 2 * rate a) / b_volatility a ^ 2.
Definition rebate_out : R :=
  let aa := (rate a - yield a - b_volatility a ^ 2 / 2) / b_volatility a ^ 2 in
  let z := ln (b_barrier a / b_spot a) / deviation_of a + rebate_b * deviation_of a in
  rebate a * Rpower (b_barrier a / b_spot a) (aa + rebate_b) * ncdf (sgn (down a) * z)
  + rebate a * Rpower (b_barrier a / b_spot a) (aa - rebate_b) * ncdf (sgn (down a) * (z - 2 * rebate_b * deviation_of a)).
Definition products : list R :=
  let D := discount_of a in
  let F := forward_of a in
  let f := sgn (a_call a) in
  let cl := side (a_call a) in
  let dn := side (down a) in
  let r := rebate a in
  [f * (D * F) * cl (ncdf (cK - s)); - (f * (D * K)) * cl (ncdf cK);
   f * (D * F) * cl (ncdf (cB - s)); - (f * (D * K)) * cl (ncdf cB);
   f * (D * F) * weight2 * dn (ncdf (cK - s - u)); - (f * (D * K)) * weight * dn (ncdf (cK - u));
   f * (D * F) * weight2 * dn (ncdf (cB - s - u)); - (f * (D * K)) * weight * dn (ncdf (cB - u));
   r * D * dn (ncdf cB); - r * D * weight * dn (ncdf (cB - u));
   rebate a * Rpower (b_barrier a / b_spot a) ((rate a - yield a - b_volatility a ^ 2 / 2) / b_volatility a ^ 2 + rebate_b) * ncdf (sgn (down a) * (ln (b_barrier a / b_spot a) / deviation_of a + rebate_b * deviation_of a));
   rebate a * Rpower (b_barrier a / b_spot a) ((rate a - yield a - b_volatility a ^ 2 / 2) / b_volatility a ^ 2 - rebate_b) * ncdf (sgn (down a) * (ln (b_barrier a / b_spot a) / deviation_of a + rebate_b * deviation_of a - 2 * rebate_b * deviation_of a))].
Lemma fold_products ms ts cs : fold_right Rplus 0 (map (fun '(m, (t, c)) => m * t * c) (combine ms (combine ts cs)))
  = fold_right Rplus 0 (map (fun '(m, p) => m * p) (combine ms (map (fun '(t, c) => t * c) (combine ts cs)))).
Proof.
  revert ts cs. induction ms as [|m ms IH]; intros ts cs; [reflexivity|].
  destruct ts as [|t ts], cs as [|c cs]; try reflexivity. cbn [combine map fold_right]. rewrite IH. ring.
Qed.
Lemma side_ncdf c p : ncdf (sgn c * - p) = side c (ncdf p).
Proof. destruct c; unfold sgn, side; [rewrite Rmult_1_l; apply ncdf_symm|f_equal; ring]. Qed.
Lemma flag_eqb o : (if Z.eqb (flag o) 0 then -1 else 1) = sgn (is_true o).
Proof. destruct o as [[|]|]; reflexivity. Qed.
Lemma weight_power : Rpower (b_barrier a / b_spot a) (2 * (1 + (rate a - yield a - b_volatility a ^ 2 / 2) / b_volatility a ^ 2) - 2) = weight.
Proof.
  assert (P := s_pos). unfold Rpower, weight, shift_u. f_equal. rewrite <- mu_s. destruct V as (A1 & _). field. split; lra.
Qed.
Lemma weight2_power : Rpower (b_barrier a / b_spot a) (2 * (1 + (rate a - yield a - b_volatility a ^ 2 / 2) / b_volatility a ^ 2)) = weight2.
Proof.
  assert (P := s_pos). unfold weight2. rewrite <- weight_power. unfold Rpower. rewrite <- exp_plus. f_equal. unfold shift_u. destruct V as (A1 & _). field. split; lra.
Qed.
Lemma df_spot : discount_of a * forward_of a = b_spot a * exp (- yield a * b_expiry a).
Proof.
  unfold discount_of, forward_of. replace (exp (- (rate a * b_expiry a)) * (b_spot a * exp ((rate a - yield a) * b_expiry a))) with (b_spot a * (exp (- (rate a * b_expiry a)) * exp ((rate a - yield a) * b_expiry a))) by ring.
  rewrite <- exp_plus. do 2 f_equal. ring.
Qed.
Lemma price_products : barrier_price a = fold_right Rplus 0 (map (fun '(m, p) => m * p) (combine (masks a) products)).
Proof.
  unfold barrier_price. cbv zeta. rewrite fold_products. do 4 f_equal.
  rewrite !flag_eqb. fold (a_call a). fold (down a). fold (rate a). fold (yield a). fold (rebate a).
  fold (deviation_of a). rewrite lamda_s. assert (P := s_pos). assert (VV := V). destruct VV as (V1 & V2 & V3 & V4 & V5).
  set (m := (rate a - yield a - b_volatility a ^ 2 / 2) * b_expiry a / deviation_of a).
  assert (X1 : forall L, ln (b_spot a / L) / deviation_of a + (deviation_of a + m) = - (level_z L - deviation_of a)) by (intros L; unfold level_z; fold m; ring).
  assert (X2 : forall L, 0 < L -> ln (b_barrier a ^ 2 / (b_spot a * L)) / deviation_of a + (deviation_of a + m) = - (level_z L - deviation_of a - shift_u)).
  { intros L PL. unfold level_z, shift_u. fold m. replace (b_barrier a ^ 2 / (b_spot a * L)) with ((b_barrier a / b_spot a) * (b_barrier a / L)) by (field; lra).
    rewrite ln_mult by (apply Rdiv_lt_0_compat; assumption). rewrite !ln_div by assumption. field. lra. }
  assert (X3 : ln (b_barrier a / b_spot a) / deviation_of a + (deviation_of a + m) = - (level_z (b_barrier a) - deviation_of a - shift_u)).
  { unfold level_z, shift_u. fold m. rewrite !ln_div by assumption. field. lra. }
  rewrite !X1, X2, X3 by exact V4.
  assert (Y1 : forall L, - (level_z L - deviation_of a) - deviation_of a = - level_z L) by (intros; ring).
  assert (Y2 : forall L, - (level_z L - deviation_of a - shift_u) - deviation_of a = - (level_z L - shift_u)) by (intros; ring).
  rewrite !Y1, !Y2. rewrite weight_power, weight2_power.
  cbn [map combine]. rewrite !side_ncdf. unfold products. fold cK cB s u.
  assert (E1 : sgn (a_call a) * b_spot a * exp (- yield a * b_expiry a) = sgn (a_call a) * (discount_of a * forward_of a)) by (rewrite df_spot; ring).
  assert (E2 : exp (- rate a * b_expiry a) = discount_of a) by (unfold discount_of; f_equal; ring).
  rewrite E1, E2. fold rebate_b. unfold K.
  repeat (apply f_equal2; [ring|]). reflexivity.
Qed.
End Args.

(** Knock-out options. *)
Lemma flag_true o : flag o = if is_true o then 1%Z else 0%Z.
Proof. destruct o as [[|]|]; reflexivity. Qed.
Lemma masks_eq a : masks a =
  map IZR (nth (Z.to_nat ((if down a then 4 else 0) + (if out a then 2 else 0) + (if a_call a then 1 else 0)))
             (if rlt (b_barrier a) (b_strike a) then mask_matrix_greater_strike else mask_matrix_lower_strike) []).
Proof.
  unfold masks, mask_index. rewrite !flag_true. unfold down, out, a_call.
  destruct (is_true (is_barrier_down a)), (is_true (is_knock_out a)), (is_true (is_call a)), (rlt (b_barrier a) (b_strike a)); reflexivity.
Qed.
Lemma A4_eq a alpha beta z : A4 a alpha beta z = alpha * forward_of a * ncdf (z - deviation_of a) + beta * ncdf z
  - (alpha * (weight2 a * forward_of a) * ncdf (z - deviation_of a - shift_u a) + beta * weight a * ncdf (z - shift_u a)).
Proof. reflexivity. Qed.
Lemma expectation_0 f : (forall z, f z = 0) -> expectation f 0.
Proof.
  intros E. apply (expectation_ext (fun z => 0 * (0 * asset true 0 0 z + 0))); [intros; rewrite E; ring|].
  eapply expectation_scal; [apply prim_at|ring].
Qed.
Lemma vanilla_call K x : (K <= x -> vanilla true K x = x - K) /\ (x <= K -> vanilla true K x = 0).
Proof. unfold vanilla. split; intros; [rewrite Rmax_left by lra|rewrite Rmax_right by lra]; reflexivity. Qed.
Lemma vanilla_put K x : (K <= x -> vanilla false K x = 0) /\ (x <= K -> vanilla false K x = K - x).
Proof. unfold vanilla. split; intros; [rewrite Rmax_right by lra|rewrite Rmax_left by lra]; reflexivity. Qed.
Lemma survival_alive d B v S x : alive d B x -> survival d B v S x = 1 - exp (- (2 * ln (S / B) * ln (x / B) / v)).
Proof. unfold alive, survival. destruct d; intros L; destruct (Rlt_dec _ _); tauto. Qed.
Lemma survival_dead d B v S x : ~ alive d B x -> survival d B v S x = 0.
Proof. unfold alive, survival. destruct d; intros L; destruct (Rlt_dec _ _); tauto. Qed.

Lemma rlt_spec x y : rlt x y = true /\ x < y \/ rlt x y = false /\ y <= x.
Proof. unfold rlt. destruct (Rlt_dec x y); [left|right]; split; auto; lra. Qed.
Lemma rebate_zero a : rebate a = 0 -> rebate_out a = 0.
Proof. intros E. unfold rebate_out. rewrite E. cbv zeta. ring. Qed.
Ltac row_index := repeat match goal with |- context [Z.to_nat ?z] => let n := eval vm_compute in (Z.to_nat z) in change (Z.to_nat z) with n end.
Lemma value_out a : valid_args a -> out a = true ->
  exists e, expectation (fun z => pays a z * survives a z) e /\ barrier_price a = discount_of a * e + rebate_out a.
Proof.
  intros V O. rewrite (price_products a V). rewrite masks_eq, O. unfold rebate_out. cbv zeta.
  assert (VV := V). destruct VV as (V1 & V2 & V3 & V4 & V5).
  assert (EK : forall z, (level_z a (b_strike a) < z -> b_strike a < end_price a z) /\ (z < level_z a (b_strike a) -> end_price a z < b_strike a)) by (intros z; split; [apply end_lt|apply end_gt]; assumption).
  assert (EB : forall z, (level_z a (b_barrier a) < z -> b_barrier a < end_price a z) /\ (z < level_z a (b_barrier a) -> end_price a z < b_barrier a)) by (intros z; split; [apply end_lt|apply end_gt]; assumption).
  assert (KB := level_le a V _ _ V4 V5). assert (BK := level_le a V _ _ V5 V4).
  unfold pays, survives.
  destruct (rlt_spec (b_barrier a) (b_strike a)) as [[-> G]|[-> G]]; destruct (down a) eqn:Dn; destruct (a_call a) eqn:Cl;
    row_index;
    unfold products; rewrite ?Dn, ?Cl; cbn [nth mask_matrix_greater_strike mask_matrix_lower_strike combine map fold_right sgn side].
  - eexists. split; [eapply (expect_interval a V (Some (level_z a (b_strike a))) None 1 (- b_strike a)); [discriminate| | |discriminate|left; discriminate|reflexivity]|].
    + intros z L _. specialize (L _ eq_refl). destruct (EK z) as [P _]. specialize (P L). rewrite survival_alive by (unfold alive; lra). rewrite (proj1 (vanilla_call _ _)) by lra. f_equal. ring.
    + intros z l [= <-] L. apply EK in L. rewrite (proj2 (vanilla_call _ _)) by lra. ring.
    + rewrite A4_eq. ring.
  - eexists. split; [eapply (expect_interval a V (Some (level_z a (b_barrier a))) (Some (level_z a (b_strike a))) (-1) (b_strike a)); [|  | | |left; discriminate|reflexivity]|].
    + intros ? ? [= <-] [= <-]. apply BK. lra.
    + intros z L H. specialize (L _ eq_refl). specialize (H _ eq_refl). apply EB in L. apply EK in H. rewrite survival_alive by (unfold alive; lra). rewrite (proj2 (vanilla_put _ _)) by lra. f_equal. ring.
    + intros z l [= <-] L. apply EB in L. rewrite survival_dead by (unfold alive; lra). ring.
    + intros z l [= <-] L. apply EK in L. rewrite (proj1 (vanilla_put _ _)) by lra. ring.
    + rewrite !A4_eq. ring.
  - exists 0. split; [apply expectation_0|ring].
    intros z. destruct (Rlt_le_dec (end_price a z) (b_barrier a)) as [L|L]; [rewrite (proj2 (vanilla_call _ _)) by lra|rewrite survival_dead by (unfold alive; lra)]; ring.
  - eexists. split; [eapply (expect_interval a V None (Some (level_z a (b_barrier a))) (-1) (b_strike a)); [discriminate| |discriminate| |right; discriminate|reflexivity]|].
    + intros z _ H. specialize (H _ eq_refl). apply EB in H. rewrite survival_alive by (unfold alive; lra). rewrite (proj2 (vanilla_put _ _)) by lra. f_equal. ring.
    + intros z l [= <-] L. apply EB in L. rewrite survival_dead by (unfold alive; lra). ring.
    + rewrite !A4_eq. ring.
  - eexists. split; [eapply (expect_interval a V (Some (level_z a (b_barrier a))) None 1 (- b_strike a)); [discriminate| | |discriminate|left; discriminate|reflexivity]|].
    + intros z L _. specialize (L _ eq_refl). apply EB in L. rewrite survival_alive by (unfold alive; lra). rewrite (proj1 (vanilla_call _ _)) by lra. f_equal. ring.
    + intros z l [= <-] L. apply EB in L. rewrite survival_dead by (unfold alive; lra). ring.
    + rewrite A4_eq. ring.
  - exists 0. split; [apply expectation_0|ring].
    intros z. destruct (Rlt_le_dec (b_barrier a) (end_price a z)) as [L|L]; [rewrite (proj1 (vanilla_put _ _)) by lra|rewrite survival_dead by (unfold alive; lra)]; ring.
  - eexists. split; [eapply (expect_interval a V (Some (level_z a (b_strike a))) (Some (level_z a (b_barrier a))) 1 (- b_strike a)); [|  | | |left; discriminate|reflexivity]|].
    + intros ? ? [= <-] [= <-]. apply KB. lra.
    + intros z L H. specialize (L _ eq_refl). specialize (H _ eq_refl). apply EK in L. apply EB in H. rewrite survival_alive by (unfold alive; lra). rewrite (proj1 (vanilla_call _ _)) by lra. f_equal. ring.
    + intros z l [= <-] L. apply EK in L. rewrite (proj2 (vanilla_call _ _)) by lra. ring.
    + intros z l [= <-] L. apply EB in L. rewrite survival_dead by (unfold alive; lra). ring.
    + rewrite !A4_eq. ring.
  - eexists. split; [eapply (expect_interval a V None (Some (level_z a (b_strike a))) (-1) (b_strike a)); [discriminate| |discriminate| |right; discriminate|reflexivity]|].
    + intros z _ H. specialize (H _ eq_refl). apply EK in H. rewrite survival_alive by (unfold alive; lra). rewrite (proj2 (vanilla_put _ _)) by lra. f_equal. ring.
    + intros z l [= <-] L. apply EK in L. rewrite (proj1 (vanilla_put _ _)) by lra. ring.
    + rewrite !A4_eq. ring.
Qed.

(** Knock-in options. *)
Lemma value_vanilla a : valid_args a -> exists e, expectation (pays a) e
  /\ nth 0 (products a) 0 + nth 1 (products a) 0 = discount_of a * e /\ option_price (vanilla_args a) = Some (Fin (discount_of a * e)).
Proof.
  intros V. assert (VV := V). destruct VV as (V1 & V2 & V3 & V4 & V5).
  assert (EK : forall z, (level_z a (b_strike a) < z -> b_strike a < end_price a z) /\ (z < level_z a (b_strike a) -> end_price a z < b_strike a)) by (intros z; split; [apply end_lt|apply end_gt]; assumption).
  assert (Q : quoted (vanilla_args a) (discount_of a) (forward_of a)).
  { split; [apply exp_pos|]. split; [|split; [|split; [cbn; lra|split]]].
    - unfold discounts_to, vanilla_args, discount_of, rate; cbn. destruct (b_rate a); cbn; [reflexivity|]. rewrite Rmult_0_l, Ropp_0. apply exp_0.
    - unfold forward_is, vanilla_args, dividend; cbn. assert (X := exp_pos (- (rate a * b_expiry a))). apply (Rmult_eq_reg_l (discount_of a)); [|unfold discount_of; lra].
      rewrite df_spot. unfold yield, discount_of. replace (- default0 (b_dividend a) * b_expiry a) with (- (default0 (b_dividend a) * b_expiry a)) by ring.
      unfold default0. field. lra.
    - intros (_ & N & _). apply N. reflexivity.
    - intros _. split; [|exact V4]. unfold forward_of. apply Rmult_lt_0_compat; [exact V3|apply exp_pos]. }
  destruct (price_value _ _ _ Q) as (m & EP & FA).
  assert (X : expectation (pays a) m).
  { unfold fair in FA. cbn in FA. assert (P := s_pos a V). unfold deviation_of in P. unfold deviation in FA; cbn in FA. destruct (Rlt_dec 0 (b_volatility a * sqrt (b_expiry a))) as [_|N]; [|contradiction].
    exact FA. }
  exists m. split; [exact X|]. split; [|exact EP].
  assert (Y : exists e, expectation (pays a) e /\ nth 0 (products a) 0 + nth 1 (products a) 0 = discount_of a * e).
  { unfold products, pays. cbn [nth]. destruct (a_call a) eqn:Cl; cbn [sgn side].
    - eexists. split; [apply (expect_up false (forward_of a) (deviation_of a) 1 (- b_strike a) (level_z a (b_strike a))); [| |reflexivity]|].
      + intros z L. apply EK in L. apply vanilla_call. lra.
      + intros z L. apply EK in L. rewrite (proj1 (vanilla_call _ _)) by lra. unfold end_price. ring.
      + unfold prim. ring.
    - eexists. split; [apply (expect_down false (forward_of a) (deviation_of a) (-1) (b_strike a) (level_z a (b_strike a))); [| |reflexivity]|].
      + intros z L. apply EK in L. rewrite (proj2 (vanilla_put _ _)) by lra. unfold end_price. ring.
      + intros z L. apply EK in L. apply vanilla_put. lra.
      + unfold prim. ring. }
  destruct Y as (e & E1 & E2). rewrite E2. f_equal. apply (expectation_unique (pays a)); assumption.
Qed.
Lemma value_survives a : valid_args a -> exists e, expectation (survives a) e
  /\ nth 8 (products a) 0 + nth 9 (products a) 0 = rebate a * (discount_of a * e).
Proof.
  intros V. assert (VV := V). destruct VV as (V1 & V2 & V3 & V4 & V5).
  assert (EB : forall z, (level_z a (b_barrier a) < z -> b_barrier a < end_price a z) /\ (z < level_z a (b_barrier a) -> end_price a z < b_barrier a)) by (intros z; split; [apply end_lt|apply end_gt]; assumption).
  unfold products, survives. cbn [nth]. destruct (down a) eqn:Dn; cbn [side].
  - eexists. split; [eapply (expect_interval a V (Some (level_z a (b_barrier a))) None 0 1); [discriminate| | |discriminate|left; discriminate|reflexivity]|].
    + intros z L _. specialize (L _ eq_refl). apply EB in L. rewrite survival_alive by (unfold alive; lra). ring.
    + intros z l [= <-] L. apply EB in L. rewrite survival_dead by (unfold alive; lra). ring.
    + rewrite A4_eq. ring.
  - eexists. split; [eapply (expect_interval a V None (Some (level_z a (b_barrier a))) 0 1); [discriminate| |discriminate| |right; discriminate|reflexivity]|].
    + intros z _ H. specialize (H _ eq_refl). apply EB in H. rewrite survival_alive by (unfold alive; lra). ring.
    + intros z l [= <-] L. apply EB in L. rewrite survival_dead by (unfold alive; lra). ring.
    + rewrite !A4_eq. ring.
Qed.
(** The row of the table with the wrong rebate columns. *)
Definition wrong_row (a : barrier_args) : bool := down a && negb (a_call a) && rlt (b_barrier a) (b_strike a).
Lemma core_parity a : valid_args a ->
  exists e, barrier_price (with_out a true) = e + rebate_out a
    /\ barrier_price (with_out a false) = nth 0 (products a) 0 + nth 1 (products a) 0 - e + (if wrong_row a then rebate_out a else nth 8 (products a) 0 + nth 9 (products a) 0).
Proof.
  intros V. assert (V' : forall o, valid_args (with_out a o)) by (intros; exact V).
  rewrite !(price_products _ (V' _)), !masks_eq.
  change (products (with_out a true)) with (products a). change (products (with_out a false)) with (products a).
  change (down (with_out a true)) with (down a). change (down (with_out a false)) with (down a).
  change (a_call (with_out a true)) with (a_call a). change (a_call (with_out a false)) with (a_call a).
  change (out (with_out a true)) with true. change (out (with_out a false)) with false.
  change (b_barrier (with_out a true)) with (b_barrier a). change (b_barrier (with_out a false)) with (b_barrier a).
  change (b_strike (with_out a true)) with (b_strike a). change (b_strike (with_out a false)) with (b_strike a).
  assert (RO : rebate_out a = nth 10 (products a) 0 + nth 11 (products a) 0) by reflexivity.
  rewrite RO. assert (LL : exists p0 p1 p2 p3 p4 p5 p6 p7 p8 p9 p10 p11, products a = [p0; p1; p2; p3; p4; p5; p6; p7; p8; p9; p10; p11]) by (unfold products; repeat eexists).
  destruct LL as (p0 & p1 & p2 & p3 & p4 & p5 & p6 & p7 & p8 & p9 & p10 & p11 & ->). unfold wrong_row.
  destruct (rlt (b_barrier a) (b_strike a)), (down a), (a_call a);
    row_index; cbn [nth mask_matrix_greater_strike mask_matrix_lower_strike map combine fold_right andb negb];
    (match goal with |- exists e, ?x = e + ?r /\ _ => exists (x - r) end); split; ring.
Qed.
