(** Lemmas about variance swaps. *)
From Coquelicot Require Import Coquelicot.
From Coq Require Import Reals Lra Lia List Bool Arith.
From Verif Require Import InterpModel BrentModel ExtReal SegmentModel BlackScholesModel BlackScholesSpec NormalProofs BlackScholesProofs VarianceModel VarianceSpec.
Import ListNotations.
Open Scope R_scope.

Lemma diff_cons x y l : diff 1 true (x :: y :: l) = (y - x) :: diff 1 true (y :: l).
Proof.
  unfold diff, diff_excl. cbn [skipn length]. replace (S (S (length l)) - 1)%nat with (S (length l)) by lia. replace (S (length l) - 1)%nat with (length l) by lia.
  cbn [firstn combine map]. reflexivity.
Qed.
Lemma diff_one x : diff 1 true [x] = [].
Proof. reflexivity. Qed.
Lemma diff_nil : diff 1 true [] = [].
Proof. reflexivity. Qed.

Section Slopes.
Variables (f : R -> R).
(** Changes of slope. *)
Fixpoint bends (r : R) (ks : list R) : list R :=
  match ks with
  | k :: rest => match rest with l :: _ => let m := divide_no_nan (f l - f k) (l - k) in (m - r) :: bends m rest | [] => [] end
  | [] => []
  end.
Lemma bends_cons r k l rest : bends r (k :: l :: rest) = (divide_no_nan (f l - f k) (l - k) - r) :: bends (divide_no_nan (f l - f k) (l - k)) (l :: rest).
Proof. reflexivity. Qed.
Lemma bends_eq ks : forall r, diff 1 true ([r] ++ map (fun '(p, k) => divide_no_nan p k) (combine (diff 1 true (map f ks)) (diff 1 true ks))) = bends r ks.
Proof.
  induction ks as [|k rest IH]; intros r; [reflexivity|]. destruct rest as [|l rest]; [reflexivity|].
  cbn [map]. rewrite !diff_cons. cbn [combine map app]. rewrite diff_cons. cbn [bends]. f_equal.
  specialize (IH (divide_no_nan (f l - f k) (l - k))). cbn [map app] in IH. exact IH.
Qed.
Lemma bends_length ks : forall r, length (bends r ks) = (length ks - 1)%nat.
Proof. induction ks as [|k rest IH]; intros r; [reflexivity|]. destruct rest as [|l rest]; [reflexivity|]. rewrite bends_cons. cbn [length]. rewrite IH. cbn [length]. lia. Qed.
Definition gain (c : bool) (k x : R) : R := if c then vanilla true k x else - vanilla false k x.
Definition bend_value (c : bool) (r : R) (ks : list R) (x : R) : R := fold_right Rplus 0 (map (fun '(w, k) => w * gain c k x) (combine (bends r ks) ks)).
Definition beyond (c : bool) (k x : R) : Prop := if c then k <= x else x <= k.
Lemma gain_beyond c k x : beyond c k x -> gain c k x = x - k.
Proof. unfold beyond, gain, vanilla. destruct c; intros L; rewrite Rmax_left by lra; ring. Qed.
Lemma gain_before c k x : beyond c x k -> gain c k x = 0.
Proof. unfold beyond, gain, vanilla. destruct c; intros L; rewrite Rmax_right by lra; ring. Qed.
Lemma slope_div k l c : further c k l -> divide_no_nan (f l - f k) (l - k) = (f l - f k) / (l - k).
Proof. unfold further, divide_no_nan. destruct c; intros L; destruct (Req_EM_T (l - k) 0); lra || reflexivity. Qed.
Lemma bend_cons c r k l rest x : bend_value c r (k :: l :: rest) x = (divide_no_nan (f l - f k) (l - k) - r) * gain c k x + bend_value c (divide_no_nan (f l - f k) (l - k)) (l :: rest) x.
Proof. reflexivity. Qed.
Lemma ordered_first c k ks j : ordered c (k :: ks) -> (j < length (k :: ks))%nat -> beyond c k (nth j (k :: ks) 0).
Proof.
  revert k j. induction ks as [|l ks IH]; intros k j O L.
  - destruct j; [|cbn in L; lia]. unfold beyond; cbn; destruct c; lra.
  - destruct j as [|j]; [unfold beyond; cbn; destruct c; lra|]. destruct O as [F O]. change (nth (S j) (k :: l :: ks) 0) with (nth j (l :: ks) 0). assert (X := IH l j O ltac:(cbn in *; lia)).
    unfold beyond, further in *. destruct c; lra.
Qed.
Lemma bend_before c r ks x : ordered c ks -> (forall k, In k ks -> beyond c x k) -> bend_value c r ks x = 0.
Proof.
  revert r. induction ks as [|k ks IH]; intros r O B; [reflexivity|]. destruct ks as [|l ks]; [reflexivity|].
  rewrite bend_cons, (gain_before c k) by (apply B; left; reflexivity). rewrite IH; [ring|apply O|]. intros q Q. apply B. right. exact Q.
Qed.
Lemma bend_interp c ks : forall r j t, ordered c ks -> (S j < length ks)%nat -> 0 <= t <= 1 ->
  bend_value c r ks ((1 - t) * nth j ks 0 + t * nth (S j) ks 0)
  = (1 - t) * f (nth j ks 0) + t * f (nth (S j) ks 0) - f (nth 0 ks 0) - r * ((1 - t) * nth j ks 0 + t * nth (S j) ks 0 - nth 0 ks 0).
Proof.
  induction ks as [|k ks IH]; intros r j t O L T; [cbn in L; lia|]. destruct ks as [|l ks]; [cbn in L; lia|].
  rewrite bend_cons. destruct O as [F O]. rewrite (slope_div k l c F). set (m := (f l - f k) / (l - k)).
  assert (M : m * (l - k) = f l - f k). { unfold m. field. unfold further in F. destruct c; lra. }
  destruct j as [|j].
  - cbn [nth]. set (x := (1 - t) * k + t * l). assert (X1 : beyond c k x) by (unfold x, beyond, further in *; destruct c; nra).
    assert (X2 : beyond c x l) by (unfold x, beyond, further in *; destruct c; nra).
    rewrite gain_beyond by exact X1. rewrite bend_before; [unfold x; nra|exact O|].
    intros q Q. destruct (In_nth _ _ 0 Q) as (i & I1 & <-). assert (Z := ordered_first c l ks i O I1). unfold beyond in *. destruct c; lra.
  - change (nth (S j) (k :: l :: ks) 0) with (nth j (l :: ks) 0). change (nth (S (S j)) (k :: l :: ks) 0) with (nth (S j) (l :: ks) 0).
    rewrite IH; [|exact O|cbn in *; lia|exact T]. set (x := (1 - t) * nth j (l :: ks) 0 + t * nth (S j) (l :: ks) 0).
    assert (B1 := ordered_first c l ks j O ltac:(cbn in *; lia)). assert (B2 := ordered_first c l ks (S j) O ltac:(cbn in *; lia)).
    rewrite gain_beyond. 2: { unfold x, beyond, further in *. destruct c; nra. }
    change (nth 0 (k :: l :: ks) 0) with k. change (nth 0 (l :: ks) 0) with l. nra.
Qed.
End Slopes.

(** The logarithm lies below its tangents. *)
Lemma ln_tangent a x : 0 < a -> 0 < x -> ln a <= ln x + (a - x) / x.
Proof.
  intros A X. destruct (Req_dec a x) as [->|N]; [unfold Rdiv; rewrite Rminus_diag_eq by reflexivity; lra|].
  assert (Y : ln a - ln x <> 0). { intros E. apply N. apply ln_inv; [exact A|exact X|lra]. }
  assert (E := exp_ineq1 _ Y). replace (exp (ln a - ln x)) with (a / x) in E.
  - replace ((a - x) / x) with (a / x - 1) by (field; lra). lra.
  - unfold Rminus. rewrite exp_plus, exp_Ropp, !exp_ln by assumption. reflexivity.
Qed.
Lemma ln_concave a b t : 0 < a -> 0 < b -> 0 <= t <= 1 -> (1 - t) * ln a + t * ln b <= ln ((1 - t) * a + t * b).
Proof.
  intros A B T. set (x := (1 - t) * a + t * b). assert (X : 0 < x) by (unfold x; destruct (Rlt_le_dec t 1); [nra|assert (t = 1) by lra; subst; lra]).
  assert (P := ln_tangent a x A X). assert (Q := ln_tangent b x B X).
  assert (E : (1 - t) * ((a - x) / x) + t * ((b - x) / x) = 0) by (unfold x; field; fold x; lra). nra.
Qed.
Definition marginal (ref T x : R) : R := 2 / T * (/ ref - / x).
Lemma ln_quot x y : 0 < x -> 0 < y -> ln (x / y) = ln x - ln y.
Proof. intros X Y. unfold Rdiv. rewrite ln_mult, ln_Rinv; [ring|assumption|assumption|apply Rinv_0_lt_compat; assumption]. Qed.
Lemma target_log ref T x : 0 < ref -> 0 < x -> target ref T x = log_payoff ref T x.
Proof. intros A B. unfold target, log_payoff. cbv zeta. rewrite ln_quot by assumption. reflexivity. Qed.
Lemma slope_bounds ref T k l c : 0 < ref -> 0 < T -> 0 < k -> 0 < l -> further c k l ->
  let m := (log_payoff ref T l - log_payoff ref T k) / (l - k) in
  if c then marginal ref T k <= m <= marginal ref T l else marginal ref T l <= m <= marginal ref T k.
Proof.
  intros A PT B C F. cbv zeta. assert (P := ln_tangent k l B C). assert (Q := ln_tangent l k C B).
  assert (I : 0 < 2 / T) by (apply Rdiv_lt_0_compat; lra).
  assert (N : l - k <> 0) by (unfold further in F; destruct c; lra).
  assert (E : (log_payoff ref T l - log_payoff ref T k) / (l - k) = 2 / T * (/ ref - (ln l - ln k) / (l - k))).
  { unfold log_payoff. cbv zeta. field. repeat split; lra. }
  rewrite E. clear E. unfold marginal.
  assert (D1 : (k - l) / l = - ((l - k) * / l)) by (field; lra). assert (D2 : (l - k) / k = (l - k) * / k) by (field; lra). rewrite D1 in P. rewrite D2 in Q.
  destruct c; unfold further in F; split; apply Rmult_le_compat_l; try lra; apply Rplus_le_compat_l, Ropp_le_contravar.
  - apply (Rmult_le_reg_r (l - k)); [lra|]. replace ((ln l - ln k) / (l - k) * (l - k)) with (ln l - ln k) by (field; lra). lra.
  - apply (Rmult_le_reg_r (l - k)); [lra|]. replace ((ln l - ln k) / (l - k) * (l - k)) with (ln l - ln k) by (field; lra). lra.
  - apply (Rmult_le_reg_r (k - l)); [lra|]. replace ((ln l - ln k) / (l - k) * (k - l)) with (ln k - ln l) by (field; lra). lra.
  - apply (Rmult_le_reg_r (k - l)); [lra|]. replace ((ln l - ln k) / (l - k) * (k - l)) with (ln k - ln l) by (field; lra). lra.
Qed.
Lemma bends_sign ref T c ks : 0 < ref -> 0 < T -> ordered c ks -> Forall (fun k => 0 < k) ks -> forall r,
  (forall k rest, ks = k :: rest -> if c then r <= marginal ref T k else marginal ref T k <= r) ->
  Forall (fun w => if c then 0 <= w else w <= 0) (bends (log_payoff ref T) r ks).
Proof.
  intros A PT. induction ks as [|k ks IH]; intros O P r H; [constructor|]. destruct ks as [|l ks]; [constructor|].
  destruct O as [F O]. inversion P as [|? ? Pk P']; subst. inversion P' as [|? ? Pl _]; subst. rewrite bends_cons. rewrite (slope_div _ _ _ c F).
  assert (S := slope_bounds ref T k l c A PT Pk Pl F). cbv zeta in S. specialize (H k _ eq_refl). constructor.
  - destruct c; lra.
  - apply IH; [exact O|exact P'|]. intros k' rest [= <- <-]. destruct c; lra.
Qed.
Lemma weights_bends d r : row_weights d r = map (fun w => if d then - w else w) (bends (log_payoff (row_reference r) (row_expiry r)) 0 (row_strikes r)).
Proof.
  unfold row_weights. cbv zeta. rewrite bends_eq. destruct d; [reflexivity|]. symmetry. apply map_id.
Qed.
Lemma portfolio_bends c r x : portfolio c (row_weights (negb c) r) (row_strikes r) x = bend_value (log_payoff (row_reference r) (row_expiry r)) c 0 (row_strikes r) x.
Proof.
  rewrite weights_bends. unfold portfolio, bend_value. generalize (bends (log_payoff (row_reference r) (row_expiry r)) 0 (row_strikes r)) as ws. generalize (row_strikes r) as ks.
  intros ks. induction ks as [|k ks IH]; intros ws; destruct ws as [|w ws]; try reflexivity. cbn [map combine fold_right]. rewrite IH. f_equal. unfold gain. destruct c; cbn [negb]; ring.
Qed.
(** The order flags of a batch of one row. *)
Lemma flags_row c ks : ordered c ks -> forallb (fun d => if c then rlt 0 d else rlt d 0) (diff 1 true ks) = true.
Proof.
  induction ks as [|k ks IH]; intros O; [reflexivity|]. destruct ks as [|l ks]; [reflexivity|]. destruct O as [F O]. rewrite diff_cons. cbn [forallb]. rewrite IH by exact O.
  unfold further in F. unfold rlt. destruct c; [destruct (Rlt_dec 0 (l - k))|destruct (Rlt_dec (l - k) 0)]; try reflexivity; lra.
Qed.
Lemma not_descending k l ks : ordered true (k :: l :: ks) -> forallb (fun d => rlt d 0) (diff 1 true (k :: l :: ks)) = false.
Proof. intros [F _]. unfold further in F. rewrite diff_cons. cbn [forallb]. unfold rlt. destruct (Rlt_dec (l - k) 0); [lra|reflexivity]. Qed.
Lemma weights_row c ks ref T v : ordered c ks -> (c = true -> (2 <= length ks)%nat) -> replicating_weights [SwapRow ks ref T] v = Some [row_weights (negb c) (SwapRow ks ref T)].
Proof.
  intros O L. unfold replicating_weights. cbn [flat_map row_strikes]. rewrite app_nil_r. assert (F := flags_row c ks O). destruct c; cbn [negb].
  - destruct ks as [|k [|l ks]]; [specialize (L eq_refl); cbn in L; lia|specialize (L eq_refl); cbn in L; lia|]. rewrite (not_descending k l ks O), F. cbn [orb negb]. rewrite andb_false_r. reflexivity.
  - rewrite F. cbn [orb negb]. rewrite andb_false_r. reflexivity.
Qed.

(** Expectations of portfolios. *)
Lemma combine_removelast {A B} (ws : list A) (ks : list B) : length ws = (length ks - 1)%nat -> combine ws ks = combine ws (removelast ks).
Proof.
  revert ws. induction ks as [|k ks IH]; intros ws L; [reflexivity|]. destruct ks as [|l ks].
  - destruct ws; [reflexivity|cbn in L; lia].
  - destruct ws as [|w ws]; [reflexivity|]. change (removelast (k :: l :: ks)) with (k :: removelast (l :: ks)). cbn [combine]. f_equal. apply IH. cbn in *. lia.
Qed.
Definition pricing_args (s k T S r : R) (c : bool) : option_args := OptionArgs s k T (Some S) None (Some r) None None (Some c) false.
Lemma side_value s T S r c ks : 0 < s -> 0 < T -> 0 < S -> forall vs ws, Forall (fun k => 0 < k) ks -> length vs = length ks -> Forall (eq s) vs -> length ws = length ks ->
  exists ps e, all_some (map (fun '(v, k) => finite_price (OptionArgs v k T (Some S) None (Some r) None None (Some c) false)) (combine vs ks)) = Some ps
    /\ expectation (fun z => portfolio c ws ks (asset false (S * exp (r * T)) (s * sqrt T) z)) e /\ exp (r * T) * dot ws ps = e.
Proof.
  intros Ps PT PS. induction ks as [|k ks IH]; intros vs ws PK LV FV LW.
  - destruct vs; [|discriminate]. destruct ws; [|discriminate]. exists [], 0. split; [reflexivity|]. split; [|unfold dot; cbn; ring].
    apply (expectation_ext (fun z => 0 * (0 * asset true 0 0 z + 0))); [intros; unfold portfolio; cbn; ring|]. eapply expectation_scal; [apply prim_at|ring].
  - destruct vs as [|v vs]; [discriminate|]. destruct ws as [|w ws]; [discriminate|]. assert (Pk := Forall_inv PK). assert (PK' := Forall_inv_tail PK). assert (Ev := Forall_inv FV). assert (FV' := Forall_inv_tail FV). cbv beta in Pk. rewrite <- Ev.
    destruct (IH vs ws PK' ltac:(cbn in *; lia) FV' ltac:(cbn in *; lia)) as (ps & e & E1 & E2 & E3).
    set (a := OptionArgs s k T (Some S) None (Some r) None None (Some c) false).
    assert (Q : quoted a (exp (- (r * T))) (S * exp (r * T))).
    { split; [apply exp_pos|]. split; [reflexivity|]. split; [|split; [cbn; lra|split]].
      - cbn. unfold dividend; cbn. rewrite Rmult_0_l, Ropp_0, exp_0. rewrite exp_Ropp. field. assert (X := exp_pos (r * T)). lra.
      - intros (_ & N & _). apply N. reflexivity.
      - intros _. split; [apply Rmult_lt_0_compat; [exact PS|apply exp_pos]|exact Pk]. }
    destruct (price_value _ _ _ Q) as (m & EP & FA). unfold fair in FA. cbn in FA. unfold deviation in FA; cbn in FA.
    assert (SD : 0 < s * sqrt T) by (apply Rmult_lt_0_compat; [exact Ps|apply sqrt_lt_R0; exact PT]).
    destruct (Rlt_dec 0 (s * sqrt T)) as [_|N]; [|contradiction].
    exists (exp (- (r * T)) * m :: ps), (w * m + e). split; [|split].
    + cbn [combine map all_some]. rewrite E1. unfold finite_price at 1. fold a. rewrite EP. reflexivity.
    + apply (expectation_ext (fun z => w * vanilla c k (asset false (S * exp (r * T)) (s * sqrt T) z) + portfolio c ws ks (asset false (S * exp (r * T)) (s * sqrt T) z))); [intros; reflexivity|].
      eapply expectation_plus; [eapply expectation_scal; [|reflexivity]|exact E2|reflexivity].
      apply (expectation_ext _ _ _ (fun z => eq_refl)) in FA. eapply expectation_ext; [|exact FA]. intros z. cbv beta. destruct c; reflexivity.
    + change (dot (w :: ws) (exp (- (r * T)) * m :: ps)) with (w * (exp (- (r * T)) * m) + dot ws ps). rewrite Rmult_plus_distr_l, E3.
      rewrite exp_Ropp. field. assert (X := exp_pos (r * T)). lra.
Qed.
(** Expected log payoff. *)
Lemma target_value ref T S r s : 0 < ref -> 0 < T -> 0 < S -> 0 < s ->
  expectation (fun z => target ref T (asset false (S * exp (r * T)) (s * sqrt T) z)) (s ^ 2 - 2 / T * (T * r - exp (T * r) * (S / ref) + 1 + ln (S / ref))).
Proof.
  intros A PT PS Ps. set (F := S * exp (r * T)). set (d := s * sqrt T).
  assert (FP : 0 < F) by (unfold F; apply Rmult_lt_0_compat; [exact PS|apply exp_pos]).
  assert (D2 : d ^ 2 = s ^ 2 * T) by (unfold d; rewrite Rpow_mult_distr; f_equal; rewrite <- Rsqr_pow2; apply Rsqr_sqrt; lra).
  apply (expectation_ext (fun z => (2 / T / ref * asset false F d z + - (2 / T * (1 + ln F - d ^ 2 / 2 - ln ref))) + (- (2 / T) * asset true 0 d z + 0))).
  - intros z. unfold target, asset. set (E := exp (d * z - d ^ 2 / 2)). assert (EP : 0 < E) by apply exp_pos.
    replace (ln (F * E / ref)) with (ln F + (d * z - d ^ 2 / 2) - ln ref).
    + field. repeat split; lra.
    + unfold Rdiv. rewrite !ln_mult, ln_Rinv; try assumption; [unfold E; rewrite ln_exp; unfold Rminus, Rdiv; ring|apply Rmult_lt_0_compat; assumption|apply Rinv_0_lt_compat; exact A].
  - eapply expectation_plus; [apply prim_at|apply prim_at|].
    rewrite D2. unfold F. rewrite ln_mult, ln_exp by (try assumption; apply exp_pos).
    rewrite ln_quot by assumption. rewrite (Rmult_comm T r). field. split; lra.
Qed.
