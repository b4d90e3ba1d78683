(** Lemmas about SabrPathModel.v *)
From Coquelicot Require Import Coquelicot.
From Coq Require Import Reals List Bool Arith ZArith Lia Lra Psatz.
From Verif Require Import TensorModel InterpModel BrentModel BrentProofs ExtReal HaganWestModel BootstrapModel BlackScholesModel ImpliedVolModel MvNormalModel EulerModel TimeGridModel
  BlackScholesSpec BlackScholesProofs ImpliedVolProofs MvNormalProofs HestonProofs SabrPathModel SabrPathSpec.
Import ListNotations.
Open Scope R_scope.

Lemma req_refl_ a : req a a = true. Proof. apply req_true. reflexivity. Qed.
Lemma xsub_f a b : Fin a -x Fin b = Fin (a - b). Proof. reflexivity. Qed.
Lemma xle_f a b : xle (Fin a) (Fin b) = rle a b.
Proof. unfold xle. cbn [xlt]. unfold rlt, rle. destruct (Rlt_dec b a), (Rle_dec a b); try reflexivity; lra. Qed.

(** * Powers *)
Definition pw (x y : R) : R := if rlt 0 x then Rpower x y else 0.
Lemma pw_nonneg x y : 0 <= pw x y.
Proof. unfold pw. destruct (rlt 0 x); [|lra]. unfold Rpower. apply Rlt_le, exp_pos. Qed.
Lemma xrpow_nonneg x y : 0 <= x -> 0 < y -> xrpow (Fin x) y = Fin (pw x y).
Proof.
  intros X Y. unfold xrpow, pw. replace (req y 0) with false by (symmetry; apply req_false; lra).
  unfold rlt at 1 3. destruct (Rlt_dec 0 x) as [L|L]; [reflexivity|].
  replace (req x 0) with true by (symmetry; apply req_true; lra). unfold rlt. destruct (Rlt_dec 0 y); [reflexivity|lra].
Qed.
Lemma xrpow_one x : xrpow (Fin x) 1 = Fin x.
Proof.
  unfold xrpow. replace (req 1 0) with false by (symmetry; apply req_false; lra). unfold rlt. destruct (Rlt_dec 0 x) as [L|L].
  - rewrite Rpower_1 by exact L. reflexivity.
  - destruct (req x 0) eqn:E; [apply req_true in E; subst; destruct (Rlt_dec 0 1); [reflexivity|lra]|]. rewrite req_refl_. reflexivity.
Qed.

(** * The coefficients of a step *)
Section Step.
  Variables beta volvol rho thr : R.
  Hypotheses (B : 0 <= beta < 1) (V : 0 < volvol) (Rh : -1 < rho < 1) (Th : 1 <= thr <= 2).

  Lemma rho_sq : 0 < 1 - rho ^ 2 <= 1.
  Proof. pose proof (pow2_ge_0 rho). nra. Qed.
  Lemma b_ge_1 : 1 <= forward_b beta rho.
  Proof.
    pose proof rho_sq as Q. unfold forward_b.
    replace (2 - (1 - 2 * beta - rho ^ 2 * (1 - beta)) / ((1 - beta) * (1 - rho ^ 2))) with (1 + beta / ((1 - beta) * (1 - rho ^ 2))).
    - assert (0 <= beta / ((1 - beta) * (1 - rho ^ 2))); [|lra]. apply Rdiv_le_0_compat; [lra|]. apply Rmult_lt_0_compat; lra.
    - field. split; nra.
  Qed.
  Definition scaled (f : R) : R := (if req beta 0 then f else pw f (1 - beta)) / (1 - beta).
  Definition a_of (f v nv iv : R) : R := 1 / iv * (scaled f + rho / volvol * (nv - v)) ^ 2.
  Lemma a_value f v nv iv : 0 <= f \/ beta = 0 -> 0 < iv -> forward_a beta volvol rho (Fin f) v nv iv = Fin (a_of f v nv iv).
  Proof.
    intros F I. unfold forward_a, a_of, scaled.
    assert (P : xrpow (Fin f) (1 - beta) = Fin (if req beta 0 then f else pw f (1 - beta))).
    { destruct (req beta 0) eqn:E.
      - apply req_true in E. rewrite E. replace (1 - 0) with 1 by ring. apply xrpow_one.
      - apply req_false in E. destruct F as [F|F]; [|contradiction]. apply xrpow_nonneg; [exact F|lra]. }
    rewrite P. rewrite !xdiv_f by lra. cbn [xsquare xmul xadd]. unfold xsquare. cbn [xmul]. f_equal. ring.
  Qed.
  Lemma a_nonneg f v nv iv : 0 < iv -> 0 <= a_of f v nv iv.
  Proof. intros I. unfold a_of. apply Rmult_le_pos; [|apply pow2_ge_0]. apply Rlt_le, Rdiv_lt_0_compat; lra. Qed.

  (** ** The quadratic branch *)
  Section Quadratic.
    Variables a iv : R.
    Hypotheses (A : 0 <= a) (I0 : 0 < iv).
    Definition kk : R := 2 - forward_b beta rho.
    Definition mm : R := kk + a.
    Definition ps : R := 2 * (kk + 2 * a) / (mm * mm).
    Definition inv : R := 2 / ps.
    Definition ee : R := inv - 1 + sqrt inv * sqrt (inv - 1).
    Definition xx (z : R) : R := mm / (1 + ee) * (sqrt ee + z) ^ 2.
    Section Chosen.
      Hypotheses (M : 0 < mm) (P : ps <= 2).
      Lemma ps_pos : 0 < ps.
      Proof. unfold ps. apply Rdiv_lt_0_compat; [|nra]. unfold mm in M. lra. Qed.
      Lemma inv_ge : 1 <= inv.
      Proof. unfold inv. pose proof ps_pos. apply (Rmult_le_reg_r ps); [lra|]. unfold Rdiv. rewrite Rmult_assoc, Rinv_l by lra. lra. Qed.
      Lemma ee_nonneg : 0 <= ee.
      Proof. unfold ee. pose proof inv_ge. pose proof (sqrt_pos inv). pose proof (sqrt_pos (inv - 1)). assert (0 <= sqrt inv * sqrt (inv - 1)) by (apply Rmult_le_pos; lra). lra. Qed.
      Lemma xx_nonneg z : 0 <= xx z.
      Proof. unfold xx. pose proof ee_nonneg. apply Rmult_le_pos; [|apply pow2_ge_0]. apply Rlt_le, Rdiv_lt_0_compat; lra. Qed.
      Lemma ee_sqrt : sqrt ee ^ 2 = ee.
      Proof. rewrite <- Rsqr_pow2. apply Rsqr_sqrt, ee_nonneg. Qed.
      Lemma ee_root : (1 + ee) ^ 2 - 2 * inv * (1 + ee) + inv = 0.
      Proof.
        unfold ee. pose proof inv_ge as Q. rewrite <- sqrt_mult by lra.
        assert (S : sqrt (inv * (inv - 1)) * sqrt (inv * (inv - 1)) = inv * (inv - 1)) by (apply sqrt_sqrt; nra).
        set (w := sqrt (inv * (inv - 1))) in *. clearbody w. nra.
      Qed.
      Lemma xx_mean : expectation xx mm.
      Proof.
        pose proof ee_nonneg as E0. pose proof ee_sqrt as S. set (e := sqrt ee) in *.
        apply (expectation_ext (fun z => mm / (1 + ee) * e ^ 2 + (2 * (mm / (1 + ee)) * e) * z + mm / (1 + ee) * z ^ 2)).
        { intros z. unfold xx. fold e. ring. }
        assert (Q := expect_quadratic (mm / (1 + ee) * e ^ 2) (2 * (mm / (1 + ee)) * e) (mm / (1 + ee))).
        assert (E : mm / (1 + ee) * e ^ 2 + mm / (1 + ee) = mm) by (rewrite S; field; lra). rewrite E in Q. exact Q.
      Qed.
      Lemma xx_second : expectation (fun z => xx z ^ 2) (mm ^ 2 + 2 * (kk + 2 * a)).
      Proof.
        pose proof ee_nonneg as E0. pose proof ee_sqrt as S. pose proof ee_root as Rt. set (e := sqrt ee) in *. set (c := mm / (1 + ee)).
        apply (expectation_ext (fun z => c ^ 2 * e ^ 4 + (4 * c ^ 2 * e ^ 3) * z + (6 * c ^ 2 * e ^ 2) * z ^ 2 + (4 * c ^ 2 * e) * z ^ 3 + c ^ 2 * z ^ 4)).
        { intros z. unfold xx. fold e c. ring. }
        replace (mm ^ 2 + 2 * (kk + 2 * a)) with (c ^ 2 * e ^ 4 + 6 * c ^ 2 * e ^ 2 + 3 * c ^ 2); [apply expect_quartic|].
        replace (2 * (kk + 2 * a)) with (mm ^ 2 * ps) by (unfold ps; field; lra).
        replace (e ^ 4) with ((e ^ 2) ^ 2) by ring. rewrite S. unfold c. pose proof inv_ge as IG. pose proof ps_pos as PP.
        assert (PE : ps = 2 / inv) by (unfold inv; field; lra). set (y := ee) in *. clearbody y e. clear c S.
        assert (E : ps * (1 + y) ^ 2 = 2 * (2 * (1 + y) - 1)).
        { rewrite PE. apply (Rmult_eq_reg_r inv); [|lra]. replace (2 / inv * (1 + y) ^ 2 * inv) with (2 * (1 + y) ^ 2) by (field; lra). nra. }
        apply (Rmult_eq_reg_r ((1 + y) ^ 2)); [|apply pow_nonzero; lra].
        replace ((mm ^ 2 + mm ^ 2 * ps) * (1 + y) ^ 2) with (mm ^ 2 * ((1 + y) ^ 2 + ps * (1 + y) ^ 2)) by ring. rewrite E. field. lra.
      Qed.
      Lemma quad_value z : quadratic_forward beta rho (Fin a) iv z = (Fin mm, Fin ps, Fin (pw ((1 - beta) ^ 2 * iv * xx z) (1 / 2 / (1 - beta)))).
      Proof.
        unfold quadratic_forward. cbv zeta. fold kk. cbn [xadd xmul]. fold mm. unfold xsquare at 1 2 3 4 5 6. cbn [xmul].
        assert (M2 : mm * mm <> 0) by nra. rewrite !(xdiv_f _ (mm * mm)) by exact M2. fold ps.
        pose proof ps_pos as P0. rewrite !(xdiv_f 2 ps) by lra. fold inv. pose proof inv_ge as IG. pose proof ee_nonneg as E0.
        rewrite !xsub_f. rewrite !(xsqrt_f inv), !(xsqrt_f (inv - 1)) by lra. cbn [xmul xadd]. fold ee. rewrite xsqrt_f by exact E0. rewrite xdiv_f by lra.
        unfold xsquare. cbn [xadd xmul]. f_equal.
        replace ((1 - beta) ^ 2 * iv * (mm / (1 + ee)) * ((sqrt ee + z) * (sqrt ee + z))) with ((1 - beta) ^ 2 * iv * xx z) by (unfold xx; ring).
        apply xrpow_nonneg.
        - apply Rmult_le_pos; [|apply xx_nonneg]. apply Rmult_le_pos; [apply pow2_ge_0|lra].
        - apply Rdiv_lt_0_compat; lra.
      Qed.
    End Chosen.
    (** the first two results in general *)
    Lemma quad_branch z : exists psi y, quadratic_forward beta rho (Fin a) iv z = (Fin mm, psi, y) /\
      ((xle (Fin 0) (Fin mm) && xle psi (Fin thr))%bool = true -> 0 < mm /\ ps <= thr /\ psi = Fin ps).
    Proof.
      unfold quadratic_forward. cbv zeta. fold kk. cbn [xadd xmul]. fold mm. unfold xsquare at 1. cbn [xmul]. do 2 eexists. split; [reflexivity|]. intros H.
      apply andb_true_iff in H. destruct H as [H1 H2]. rewrite xle_f in H1. apply rle_true in H1.
      destruct (Req_EM_T (mm * mm) 0) as [Z|Z].
      - exfalso. assert (M0 : mm = 0) by nra. cbn [xdiv] in H2. replace (req (mm * mm) 0) with true in H2 by (symmetry; apply req_true; exact Z).
        assert (K : kk + 2 * a = a) by (unfold mm in M0; lra). rewrite K in H2.
        destruct (req (2 * a) 0) eqn:E; [cbn in H2; discriminate|]. unfold xle in H2. cbn [xlt] in H2.
        replace (rlt (2 * a) 0) with false in H2 by (symmetry; unfold rlt; destruct (Rlt_dec (2 * a) 0); [lra|reflexivity]). cbn in H2. discriminate.
      - rewrite xdiv_f in H2 |- * by exact Z. fold ps in H2 |- *. rewrite xle_f in H2. apply rle_true in H2. split; [|split; [exact H2|reflexivity]].
        destruct (Rle_lt_or_eq_dec _ _ H1) as [?|E]; [assumption|]. exfalso. apply Z. rewrite <- E. ring.
    Qed.
  End Quadratic.

  Section Forward.
    Variables (G : R -> R -> R) (igamma igammac : xr -> xr -> xr) (root_finder : (xr -> xr * xr) -> xr -> xr) (trunc : nat).
    Hypothesis X : external G igamma igammac root_finder.
    Lemma forward_good f v nv iv u z : 0 <= f \/ beta = 0 -> 0 < iv ->
      exists r, sample_forwards igamma igammac root_finder beta volvol rho thr trunc (Fin f) v nv iv u z = Fin r /\ 0 <= r.
    Proof.
      intros F I0. unfold sample_forwards. cbv zeta. rewrite a_value by assumption. pose proof (a_nonneg f v nv iv I0) as A. set (a := a_of f v nv iv) in *. clearbody a.
      destruct (negb (req beta 0) && _)%bool; [destruct (quadratic_forward _ _ _ _ _) as [[? ?] ?]; exists 0; split; [reflexivity|lra]|].
      destruct (quad_branch a iv A z) as (psi & y & E & H). pose proof E as E'. rewrite E.
      destruct (xle (Fin 0) (Fin (mm a)) && xle psi (Fin thr))%bool.
      - destruct (H eq_refl) as (M & P & PE). rewrite quad_value in E' by (try assumption; lra). injection E' as _ <-. eexists. split; [reflexivity|apply pw_nonneg].
      - unfold root_chi2. destruct (root_number _ _ _ _ X (fun c_star : xr => let '(p, dpc) := ncx2cdf_and_gradient igammac (Fin a) (Fin (forward_b beta rho)) c_star trunc in (Fin 1 -x p -x Fin u, xopp dpc)) a) as [r E2].
        cbv zeta. rewrite E2. rewrite xmax_f. cbn [xmul]. rewrite xrpow_nonneg.
        + eexists. split; [reflexivity|apply pw_nonneg].
        + apply Rmult_le_pos; [|lra]. apply Rmult_le_pos; [apply Rmax_r|apply pow2_ge_0].
        + apply Rdiv_lt_0_compat; lra.
    Qed.
    Lemma forward_absorbed v nv iv u z : beta <> 0 -> sample_forwards igamma igammac root_finder beta volvol rho thr trunc (Fin 0) v nv iv u z = Fin 0.
    Proof.
      intros B0. unfold sample_forwards. cbv zeta. destruct (quadratic_forward _ _ _ _ _) as [[? ?] ?].
      replace (req beta 0) with false by (symmetry; apply req_false; exact B0). rewrite xle_f. replace (rle 0 0) with true by (symmetry; apply rle_true; lra). reflexivity.
    Qed.
  End Forward.
End Step.

(** * The steps between two times *)
Fixpoint lengths (end_time time_step : R) (fuel : nat) (cur : R) : list R :=
  match fuel with
  | O => []
  | S n => if rlt cur end_time then let d := if rle (end_time - cur) time_step then end_time - cur else time_step in d :: lengths end_time time_step n (cur + d) else []
  end.
Definition total (l : list R) : R := fold_right Rplus 0 l.
Lemma total_app a b : total (a ++ b) = total a + total b.
Proof. unfold total. induction a as [|x a IH]; cbn; [lra|]. rewrite IH. lra. Qed.
Lemma lengths_ok e h : 0 < h -> forall fuel cur, cur <= e -> (e - cur) / h <= INR fuel ->
  total (lengths e h fuel cur) = e - cur /\ (forall d, In d (lengths e h fuel cur) -> 0 < d <= h) /\ INR (length (lengths e h fuel cur)) <= (e - cur) / h + 1.
Proof.
  intros H. assert (IV : 0 < / h) by (apply Rinv_0_lt_compat; exact H). induction fuel as [|n IH]; intros cur C F.
  - cbn in *. assert (0 <= (e - cur) / h) by (apply Rdiv_le_0_compat; lra). assert (E : e - cur = 0).
    { assert (Q : (e - cur) / h * h = 0 * h) by (f_equal; lra). unfold Rdiv in Q. rewrite Rmult_assoc, Rinv_l in Q by lra. lra. }
    split; [lra|]. split; [intros d []|lra].
  - cbn [lengths]. unfold rlt. destruct (Rlt_dec cur e) as [L|L].
    + unfold rle. destruct (Rle_dec (e - cur) h) as [Q|Q].
      * assert (E : lengths e h n (cur + (e - cur)) = []).
        { destruct n; [reflexivity|]. cbn [lengths]. unfold rlt. destruct (Rlt_dec (cur + (e - cur)) e); [lra|reflexivity]. }
        cbv zeta. rewrite E. cbn. split; [lra|]. split; [intros d [<-|[]]; lra|]. assert (0 <= (e - cur) / h) by (apply Rdiv_le_0_compat; lra). lra.
      * assert (S1 : (e - (cur + h)) / h = (e - cur) / h - 1) by (field; lra).
        destruct (IH (cur + h)) as (T & D & N); [lra|rewrite S1; rewrite S_INR in F; lra|]. cbv zeta. split; [|split].
        -- cbn [total fold_right]. fold (total (lengths e h n (cur + h))). rewrite T. lra.
        -- intros d [<-|I1]; [lra|apply D; exact I1].
        -- cbn [length]. rewrite S_INR. lra.
    + split; [cbn; lra|]. split; [intros d []|]. cbn. assert (0 <= (e - cur) / h) by (apply Rdiv_le_0_compat; lra). lra.
Qed.

Section Path.
  Variables (igamma igammac : xr -> xr -> xr) (root_finder : (xr -> xr * xr) -> xr -> xr) (beta volvol rho thr : R) (trunc : nat).
  Notation fwd := (sample_forwards igamma igammac root_finder beta volvol rho thr trunc).
  (** one step of length [d] *)
  Definition one (d : R) (w : R * R * R) (s : xr * R) : xr * R :=
    let '(dwv, u, z) := w in let '(f, v) := s in
    let nv := sample_next_volatilities volvol v d dwv in
    (fwd f v nv (sample_integrated_variance rho v nv d) (uniforms_of u) z, nv).
  (** the steps [ds], which use the draws from number [i] on *)
  Fixpoint run (draws : nat -> R * R * R) (ds : list R) (i : nat) (s : xr * R) : xr * R :=
    match ds with [] => s | d :: r => run draws r (S i) (one d (draws i) s) end.
  Lemma run_app draws a b i s : run draws (a ++ b) i s = run draws b (i + length a) (run draws a i s).
  Proof. revert i s. induction a as [|d a IH]; intros i s; cbn; [rewrite Nat.add_0_r; reflexivity|]. rewrite IH. f_equal. lia. Qed.
  Lemma propagate_run draws N e h : forall fuel cur f v i, (i + length (lengths e h fuel cur) <= N)%nat ->
    propagate_to_time igamma igammac root_finder beta volvol rho thr trunc (map draws (seq 0 N)) e h fuel cur f v i =
    Some (fst (run draws (lengths e h fuel cur) i (f, v)), snd (run draws (lengths e h fuel cur) i (f, v)), (i + length (lengths e h fuel cur))%nat).
  Proof.
    induction fuel as [|n IH]; intros cur f v i L; [cbn; rewrite Nat.add_0_r; reflexivity|]. cbn [propagate_to_time lengths] in *. destruct (rlt cur e); [|cbn; rewrite Nat.add_0_r; reflexivity].
    cbv zeta in L |- *. set (d := if rle (e - cur) h then e - cur else h) in *. cbn [length] in L.
    rewrite nth_error_map. rewrite (nth_error_nth' _ 0%nat) by (rewrite seq_length; lia). rewrite seq_nth by lia. cbn [option_map]. rewrite Nat.add_0_l.
    unfold step_to. destruct (draws i) as [[dwv u] z] eqn:E. cbv zeta. fold d. rewrite IH by lia. cbn [run length]. unfold one. rewrite E.
    rewrite Nat.add_1_r. do 2 f_equal. lia.
  Qed.
  Fixpoint segments (h : R) (fuel : nat) (times : list R) (cur : R) : list (list R) :=
    match times with [] => [] | t :: r => lengths t h fuel cur :: segments h fuel r t end.
  (** what has been done up to each requested time *)
  Definition prefix_steps (h : R) (fuel : nat) (times : list R) (cur : R) (k : nat) : list R := concat (firstn (S k) (segments h fuel times cur)).
  Lemma segments_length h fuel times : forall cur, length (segments h fuel times cur) = length times.
  Proof. induction times as [|t r IH]; intros cur; cbn; [reflexivity|]. f_equal. apply IH. Qed.
  Lemma sample_run draws N h fuel : forall times cur f v i, (i + length (concat (segments h fuel times cur)) <= N)%nat ->
    sample_times igamma igammac root_finder beta volvol rho thr trunc (map draws (seq 0 N)) h fuel times cur f v i =
    Some (map (fun k => run draws (prefix_steps h fuel times cur k) i (f, v)) (seq 0 (length times))).
  Proof.
    induction times as [|t r IH]; intros cur f v i L; [reflexivity|]. cbn [segments concat] in L. rewrite app_length in L.
    cbn [sample_times]. rewrite propagate_run by lia. rewrite IH by lia. cbn [option_map length seq map]. f_equal. f_equal.
    - unfold prefix_steps. cbn [segments firstn concat]. rewrite app_nil_r. symmetry. apply surjective_pairing.
    - rewrite <- seq_shift, map_map. apply map_ext. intros k. rewrite <- surjective_pairing. unfold prefix_steps. cbn [segments].
      change (firstn (S (S k)) (lengths t h fuel cur :: segments h fuel r t)) with (lengths t h fuel cur :: firstn (S k) (segments h fuel r t)). cbn [concat].
      rewrite run_app. reflexivity.
  Qed.
  (** the volatility *)
  Fixpoint shocks (draws : nat -> R * R * R) (ds : list R) (i : nat) : R :=
    match ds with [] => 0 | d :: r => sqrt d * fst (fst (draws i)) + shocks draws r (S i) end.
  Lemma run_vol draws ds : forall i s, (forall d, In d ds -> 0 < d) -> snd (run draws ds i s) = snd s * exp (volvol * shocks draws ds i - volvol ^ 2 * total ds / 2).
  Proof.
    induction ds as [|d r IH]; intros i s P; cbn [run shocks total fold_right].
    - replace (volvol * 0 - volvol ^ 2 * 0 / 2) with 0 by field. rewrite exp_0. ring.
    - rewrite IH by (intros; apply P; right; assumption). fold (total r). unfold one. destruct (draws i) as [[dwv u] z]. destruct s as [f v]. cbn [fst snd].
      unfold sample_next_volatilities. rewrite Rmult_assoc, <- exp_plus. f_equal. f_equal. field.
  Qed.
  Section Good.
    Variables (G : R -> R -> R).
    Hypotheses (B : 0 <= beta < 1) (V : 0 < volvol) (Rh : -1 < rho < 1) (Th : 1 <= thr <= 2) (X : external G igamma igammac root_finder).
    Definition good (s : xr * R) : Prop := exists f, fst s = Fin f /\ (0 <= f \/ beta = 0) /\ 0 < snd s.
    Lemma next_vol_pos v d w : 0 < v -> 0 < sample_next_volatilities volvol v d w.
    Proof. intros Q. unfold sample_next_volatilities. apply Rmult_lt_0_compat; [exact Q|apply exp_pos]. Qed.
    Lemma variance_pos v nv d : 0 < v -> 0 < d -> 0 < sample_integrated_variance rho v nv d.
    Proof.
      intros Q D. unfold sample_integrated_variance. pose proof (rho_sq rho Rh). pose proof (pow2_ge_0 nv). assert (0 < v ^ 2) by (apply pow_lt; exact Q).
      apply Rdiv_lt_0_compat; [|lra]. apply Rmult_lt_0_compat; [apply Rmult_lt_0_compat; lra|lra].
    Qed.
    Lemma one_good d w s : 0 < d -> good s -> good (one d w s) /\ exists f, fst (one d w s) = Fin f /\ 0 <= f.
    Proof.
      intros D (f & E & F & Q). destruct s as [f0 v]. cbn in E, Q. subst f0. destruct w as [[dwv u] z]. unfold one. cbn [fst snd].
      destruct (forward_good beta volvol rho thr B V Th G igamma igammac root_finder trunc X f v (sample_next_volatilities volvol v d dwv)
        (sample_integrated_variance rho v (sample_next_volatilities volvol v d dwv) d) (uniforms_of u) z F (variance_pos _ _ _ Q D)) as (r & E & P).
      rewrite E. split; [exists r; cbn; split; [reflexivity|split; [left; exact P|apply next_vol_pos; exact Q]]|exists r; split; [reflexivity|exact P]].
    Qed.
    Lemma run_good draws ds : forall i s, (forall d, In d ds -> 0 < d) -> good s -> good (run draws ds i s) /\ (ds <> [] -> exists f, fst (run draws ds i s) = Fin f /\ 0 <= f).
    Proof.
      induction ds as [|d r IH]; intros i s P Q; cbn [run]; [split; [exact Q|congruence]|].
      destruct (one_good d (draws i) s (P d (or_introl eq_refl)) Q) as [Q1 Q2]. destruct (IH (S i) (one d (draws i) s)) as [Q3 Q4]; [intros; apply P; right; assumption|exact Q1|].
      split; [exact Q3|]. intros _. destruct r as [|e r]; [exact Q2|apply Q4; discriminate].
    Qed.
    Lemma run_absorbed draws ds : beta <> 0 -> forall i s, fst s = Fin 0 -> fst (run draws ds i s) = Fin 0.
    Proof.
      intros B0. induction ds as [|d r IH]; intros i s E; [exact E|]. cbn [run]. apply IH. unfold one. destruct (draws i) as [[dwv u] z]. destruct s as [f v]. cbn in E. subst f.
      apply (forward_absorbed beta volvol rho thr igamma igammac root_finder trunc). exact B0.
    Qed.
  End Good.
End Path.
