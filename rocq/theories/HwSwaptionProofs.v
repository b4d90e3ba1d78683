(** The decomposition of a swaption into bond options (Jamshidian). *)
From Coquelicot Require Import Coquelicot.
From Coq Require Import ZArith Reals List Bool Arith Lia Lra Psatz.
From Verif Require Import TensorModel TensorProofs BrentModel BrentProofs ExtReal HaganWestModel BootstrapModel BlackScholesModel BlackScholesSpec NormalProofs BlackScholesProofs ImpliedVolProofs GaussConv MvNormalSpec MvNormalProofs PropsMvNormal GbmModel GbmProofs PiecewiseModel
  HullWhiteModel HullWhiteSpec HullWhiteProofs HullWhiteProofs2 HullWhiteBondSpec HullWhiteBondProofs PropsHullWhiteBond HullWhiteOptionModel PropsHullWhiteOption HwSwaptionModel HwSwaptionSpec.
Import ListNotations.
Open Scope R_scope.

(** ** Expectations *)
Lemma iid_plus d : forall f g e e', iid_expectation d f e -> iid_expectation d g e' -> iid_expectation d (fun l => f l + g l) (e + e').
Proof.
  induction d as [|d IH]; intros f g e e' A B; cbn in *; [rewrite A, B; reflexivity|]. destruct A as (u & A & X), B as (v & B & Y). exists (fun x => u x + v x). split; [intros x; apply (IH (fun l => f (x :: l)) (fun l => g (x :: l))); [apply A|apply B]|].
  eapply expectation_plus; [exact X|exact Y|reflexivity].
Qed.
Lemma iid_le d : forall f g e e', (forall l, f l <= g l) -> iid_expectation d f e -> iid_expectation d g e' -> e <= e'.
Proof.
  induction d as [|d IH]; intros f g e e' H A B; cbn in *; [rewrite A, B; apply H|]. destruct A as (u & A & X), B as (v & B & Y). apply (expectation_le u v); [|exact X|exact Y]. intros z. apply (IH (fun l => f (z :: l)) (fun l => g (z :: l))); [intros l; apply H|apply A|apply B].
Qed.
Lemma iid_const0 d : iid_expectation d (fun _ => 0) 0.
Proof. induction d as [|d IH]; cbn; [reflexivity|]. exists (fun _ => 0). split; [intros _; exact IH|apply expect_const]. Qed.
Lemma iid_sum d n (f : nat -> list R -> R) (e : nat -> R) : (forall i, (i < n)%nat -> iid_expectation d (f i) (e i)) -> iid_expectation d (fun l => sum_to n (fun i => f i l)) (sum_to n e).
Proof.
  induction n as [|n IH]; intros H; cbn [sum_to]; [apply iid_const0|]. apply (iid_plus d (fun l => sum_to n (fun i => f i l)) (f n)); [apply IH; intros i Hi; apply H; lia|apply H; lia].
Qed.
Lemma iid_near d f g w e e' t eps : iid_expectation d f e -> iid_expectation d g e' -> iid_expectation d w t -> (forall l, Rabs (f l - g l) <= eps * w l) -> Rabs (e - e') <= eps * t.
Proof.
  intros A B C H. apply (iid_scal d w t eps) in C. apply Rabs_le. split.
  - assert (e' <= e + eps * t); [|lra]. apply (iid_le d g (fun l => f l + eps * w l)); [|exact B|apply (iid_plus d f (fun l => eps * w l)); assumption]. intros l. specialize (H l). apply Rabs_le_between in H. lra.
  - assert (e <= e' + eps * t); [|lra]. apply (iid_le d f (fun l => g l + eps * w l)); [|exact A|apply (iid_plus d g (fun l => eps * w l)); assumption]. intros l. specialize (H l). apply Rabs_le_between in H. lra.
Qed.

(** ** Sums *)
Lemma sum_le n f g : (forall i, (i < n)%nat -> f i <= g i) -> sum_to n f <= sum_to n g.
Proof. induction n as [|n IH]; intros H; cbn [sum_to]; [lra|]. pose proof (IH (fun i Hi => H i (Nat.lt_lt_succ_r _ _ Hi))). pose proof (H n (Nat.lt_succ_diag_r n)). lra. Qed.
Lemma sum_zero n f : (forall i, (i < n)%nat -> f i = 0) -> sum_to n f = 0.
Proof. induction n as [|n IH]; intros H; cbn [sum_to]; [reflexivity|]. rewrite (IH (fun i Hi => H i (Nat.lt_lt_succ_r _ _ Hi))), (H n (Nat.lt_succ_diag_r n)). ring. Qed.
Lemma sum_last n f x : (0 < n)%nat -> sum_to n (fun i => f i + (if Nat.eqb (S i) n then x i else 0)) = sum_to n f + x (n - 1)%nat.
Proof.
  intros N0. destruct n as [|n]; [lia|]. cbn [sum_to]. rewrite Nat.eqb_refl. replace (S n - 1)%nat with n by lia. rewrite (sum_to_ext n _ f); [ring|]. intros i Hi. destruct (Nat.eqb_spec (S i) (S n)); [lia|ring].
Qed.

(** ** The decomposition *)
Definition weight (n : nat) (c : nat -> R) (i : nat) : R := c i + (if Nat.eqb (S i) n then 1 else 0).
Lemma swap_as_sum n c P : (0 < n)%nat -> swap_value n c P = 1 - sum_to n (fun i => weight n c i * P i).
Proof.
  intros N0. unfold swap_value, weight. rewrite (sum_to_ext n (fun i => (c i + (if Nat.eqb (S i) n then 1 else 0)) * P i) (fun i => c i * P i + (if Nat.eqb (S i) n then P i else 0))) by (intros i _; destruct (Nat.eqb _ _); ring).
  rewrite (sum_last n (fun i => c i * P i) P N0). ring.
Qed.
Section Jamshidian.
  Variables (n : nat) (c times : nat -> R) (g : nat -> R) (P : R -> nat -> R).
  Hypothesis N0 : (0 < n)%nat.
  Hypothesis REG : regular_leg n c times.
  Hypothesis GP : forall i, (i < n)%nat -> 0 < g i.
  Hypothesis GM : forall i, (i < n)%nat -> times i <= times (n - 1)%nat -> g i <= g (n - 1)%nat.
  Hypothesis PP : forall r i, 0 < P r i.
  Hypothesis PS : forall r r' i, P r' i = P r i * exp (- ((r' - r) * g i)).
  Notation a := (weight n c).
  Definition leg (r : R) : R := sum_to n (fun i => a i * P r i).
  Lemma factor_le x w : 0 < w -> 0 <= x -> exp (- (x * w)) <= 1.
  Proof. intros W X. rewrite <- exp_0. destruct (Req_dec x 0) as [->|]; [rewrite Rmult_0_l, Ropp_0; lra|]. left. apply exp_increasing. nra. Qed.
  Lemma exp_mono x z : x <= z -> exp x <= exp z.
  Proof. intros [L| ->]; [left; apply exp_increasing, L|lra]. Qed.
  Lemma price_down r r' i : (i < n)%nat -> r <= r' -> P r' i <= P r i.
  Proof. intros Hi L. rewrite (PS r r' i). pose proof (factor_le (r' - r) (g i) (GP i Hi) ltac:(lra)). pose proof (PP r i). nra. Qed.
  (** A leg worth a positive amount at r is worth less at a higher rate, and more
      at a lower one. *)
  Lemma leg_up r r' : 0 <= leg r -> r <= r' -> leg r' <= leg r.
  Proof.
    intros L0 RR. unfold leg in *. destruct REG as [POS|[NEG LAST]].
    - apply sum_le. intros i Hi. apply Rmult_le_compat_l; [|apply price_down; assumption]. unfold weight. pose proof (POS i Hi). destruct (Nat.eqb _ _); lra.
    - set (E := exp (- ((r' - r) * g (n - 1)%nat))). assert (E1 : E <= 1) by (apply factor_le; [apply GP; lia|lra]). assert (E0 : 0 < E) by apply exp_pos.
      apply Rle_trans with (E * sum_to n (fun i => a i * P r i)); [|nra]. rewrite <- sum_scaled. apply sum_le. intros i Hi. rewrite (PS r r' i). unfold weight. destruct (NEG i Hi) as [CN TL]. destruct (Nat.eqb_spec (S i) n) as [EN|NN].
      + replace i with (n - 1)%nat by lia. fold E. lra.
      + pose proof (GM i Hi TL). assert (E <= exp (- ((r' - r) * g i))) by (apply exp_mono; nra). pose proof (PP r i). assert (0 <= (- c i) * P r i) by nra. nra.
  Qed.
  Lemma leg_down r r' : 0 <= leg r -> r' <= r -> leg r <= leg r'.
  Proof.
    intros L0 RR. unfold leg in *. destruct REG as [POS|[NEG LAST]].
    - apply sum_le. intros i Hi. apply Rmult_le_compat_l; [|apply price_down; assumption]. unfold weight. pose proof (POS i Hi). destruct (Nat.eqb _ _); lra.
    - set (E := exp (- ((r' - r) * g (n - 1)%nat))). assert (E1 : 1 <= E). { unfold E. replace (- ((r' - r) * g (n - 1)%nat)) with ((r - r') * g (n - 1)%nat) by ring. rewrite <- exp_0. apply exp_mono. pose proof (GP (n - 1) ltac:(lia)). nra. }
      apply Rle_trans with (E * sum_to n (fun i => a i * P r i)); [nra|]. rewrite <- sum_scaled. apply sum_le. intros i Hi. rewrite (PS r r' i). unfold weight. destruct (NEG i Hi) as [CN TL]. destruct (Nat.eqb_spec (S i) n) as [EN|NN].
      + replace i with (n - 1)%nat by lia. fold E. lra.
      + pose proof (GM i Hi TL). assert (exp (- ((r' - r) * g i)) <= E) by (apply exp_mono; nra). pose proof (PP r i). assert (0 <= (- c i) * P r i) by nra. nra.
  Qed.
  (** The payoff above the swap rate at the rate [b] is a sum of bond options with
      the strikes P(b). *)
  Lemma decomposition payer b r : 0 <= leg b ->
    sum_to n (fun i => a i * vanilla (negb payer) (P b i) (P r i)) = swaption_payoff payer (swap_value n c (P r) - swap_value n c (P b)).
  Proof.
    intros L0. rewrite !swap_as_sum by exact N0. fold (leg r) (leg b). unfold swaption_payoff.
    assert (MX : forall x y0, x <= y0 -> Rmax (x - y0) 0 = 0) by (intros; apply Rmax_right; lra). assert (MY : forall x y0, y0 <= x -> Rmax (x - y0) 0 = x - y0) by (intros; apply Rmax_left; lra).
    assert (DF : forall u v, sum_to n (fun i => a i * (P u i - P v i)) = leg u - leg v).
    { intros u v. unfold leg. generalize (weight n c). intros w. clear. induction n as [|m IH]; cbn [sum_to]; [ring|]. rewrite IH. ring. }
    destruct (Rle_dec b r) as [B|B].
    - pose proof (leg_up b r L0 B) as LE. destruct payer; cbn [negb].
      + rewrite (sum_to_ext n _ (fun i => a i * (P b i - P r i))) by (intros i Hi; unfold vanilla; rewrite MY; [reflexivity|apply price_down; assumption]). rewrite DF, Rmax_left; lra.
      + rewrite sum_zero; [rewrite Rmax_right; lra|]. intros i Hi. unfold vanilla. rewrite MX; [ring|apply price_down; assumption].
    - assert (B' : r <= b) by lra. pose proof (leg_down b r L0 B') as LE. destruct payer; cbn [negb].
      + rewrite sum_zero; [rewrite Rmax_right; lra|]. intros i Hi. unfold vanilla. rewrite MX; [ring|apply price_down; assumption].
      + rewrite (sum_to_ext n _ (fun i => a i * (P r i - P b i))) by (intros i Hi; unfold vanilla; rewrite MY; [reflexivity|apply price_down; assumption]). rewrite DF, Rmax_left; lra.
  Qed.
End Jamshidian.
Lemma payoff_near payer v w : Rabs (swaption_payoff payer (v - w) - swaption_payoff payer v) <= Rabs w.
Proof. unfold swaption_payoff, Rmax. destruct payer; repeat destruct (Rle_dec _ _); unfold Rabs; repeat destruct (Rcase_abs _); lra. Qed.

(** ** In the Hull-White model *)
Section Model.
  Variables (h : hw) (k : R) (y : R -> R) (G : R -> R -> R).
  Notation f := (hw_forward h 0).
  Hypothesis HC : hw_coordinate h 0 k.
  Hypothesis SV : state_variance (param_at (hw_vol h 0)) k y.
  Hypothesis HL : loading k G.
  Lemma discount_scaled r r' T S : 0 <= T -> discount_bond_price h 0 r' T S = discount_bond_price h 0 r T S * exp (- ((r' - r) * G T S)).
  Proof. intros T0. rewrite !(C67_formula h 0 k y G _ T S HC SV HL T0), Rmult_assoc, <- exp_plus. f_equal. f_equal. ring. Qed.
  Lemma loading_mono T S S' : S <= S' -> G T S <= G T S'.
  Proof.
    intros SS. destruct HC as (_ & K0 & _). rewrite !(loading_is k G _ _ K0 HL). assert (GG : 0 <= (1 - exp (- (k * (S' - S)))) / k).
    { rewrite <- (loading_is k G S S' K0 HL). destruct SS as [L| ->]; [left; apply (loading_pos h k G HC HL), L|]. rewrite (loading_is k G S' S' K0 HL). replace (k * (S' - S')) with 0 by ring. rewrite Ropp_0, exp_0. unfold Rdiv. lra. }
    pose proof (exp_pos (- (k * (S - T)))) as EP. replace ((1 - exp (- (k * (S' - T)))) / k) with ((1 - exp (- (k * (S - T)))) / k + exp (- (k * (S - T))) * ((1 - exp (- (k * (S' - S)))) / k)).
    - nra.
    - replace (exp (- (k * (S' - T)))) with (exp (- (k * (S - T))) * exp (- (k * (S' - S)))) by (rewrite <- exp_plus; f_equal; ring). field. exact K0.
  Qed.
  (** The discounted payoff as a function of the two normal variables, and the
      value of the discount factor alone. *)
  Definition discounted_swaption (n : nat) (c times : nat -> R) (payoff : R -> R) (T m mx alpha beta : R) (z : list R) : R :=
    exp (- (m + alpha * nth 0 z 0 + beta * nth 1 z 0)) * payoff (swap_value n c (fun i => discount_bond_price h 0 (f T + mx + sqrt (y T) * nth 0 z 0) T (times i))).
  Lemma discount_expectation T m mx alpha beta : 0 <= T -> is_RInt f 0 T (hw_rate h 0 T * T) -> rate_and_integral f (param_at (hw_vol h 0)) k y G T m mx alpha beta ->
    iid_expectation 2 (fun z => exp (- (m + alpha * nth 0 z 0 + beta * nth 1 z 0))) (initial_bond h 0 T).
  Proof.
    intros T0 HF RI. destruct (joint_facts h k y G HC SV HL T m mx alpha beta T0 HF RI) as (_ & EM).
    pose proof (iid_exp 2 (- m) (fun i => match i with O => - alpha | _ => - beta end)) as E. unfold initial_bond. replace (- (hw_rate h 0 T * T)) with (- m + sum_to 2 (fun i => match i with O => - alpha | _ => - beta end ^ 2) / 2) by (cbn [sum_to]; rewrite EM; field).
    revert E. apply iid_ext. intros l. f_equal. cbn [sum_to]. unfold coord. ring.
  Qed.
  Section Swaption.
    Variables (n : nat) (c times : nat -> R) (T : R).
    Hypothesis N0 : (0 < n)%nat. Hypothesis REG : regular_leg n c times. Hypothesis T0 : 0 <= T. Hypothesis TS : forall i, (i < n)%nat -> T < times i. Hypothesis YP : 0 < y T.
    Notation P := (fun r i => discount_bond_price h 0 r T (times i)).
    Definition option_part (payer : bool) (b : R) (i : nat) : R :=
      initial_bond h 0 T * log_value (P b i) (negb payer) (ln (initial_bond h 0 (times i) / initial_bond h 0 T) - bond_option_variance h T (times i) / 2) (sqrt (bond_option_variance h T (times i))).
    Definition jamshidian_value (payer : bool) (b : R) : R := sum_to n (fun i => weight n c i * option_part payer b i).
    Lemma option_part_is payer b i : (i < n)%nat -> bond_option h (P b i) T (times i) (negb payer) = Fin (option_part payer b i).
    Proof. intros Hi. pose proof (TS i Hi). apply (option_value h (P b i) T (times i) (negb payer)); [apply discount_pos|exact T0|lra|]. apply (variance_pos h k y G HC SV HL); assumption. Qed.
    Lemma jamshidian_expectation payer b m mx alpha beta : swap_value n c (P b) <= 1 -> is_RInt f 0 T (hw_rate h 0 T * T) -> rate_and_integral f (param_at (hw_vol h 0)) k y G T m mx alpha beta ->
      iid_expectation 2 (discounted_swaption n c times (fun v => swaption_payoff payer (v - swap_value n c (P b))) T m mx alpha beta) (jamshidian_value payer b).
    Proof.
      intros L1 HF RI. unfold jamshidian_value.
      apply (iid_ext 2 (fun z => sum_to n (fun i => weight n c i * discounted h y (vanilla (negb payer) (P b i)) T (times i) m mx alpha beta z))).
      - intros z. unfold discounted_swaption, discounted. set (r := f T + mx + sqrt (y T) * nth 0 z 0). rewrite <- (decomposition n c times (fun i => G T (times i)) P N0 REG) with (b := b) (r := r).
        + rewrite <- sum_scaled. apply sum_to_ext. intros i _. fold r. ring.
        + intros i Hi. apply (loading_pos h k G HC HL), TS, Hi.
        + intros i Hi L. apply loading_mono, L.
        + intros. apply discount_pos.
        + intros. apply discount_scaled, T0.
        + rewrite swap_as_sum in L1 by exact N0. unfold leg. lra.
      - apply iid_sum. intros i Hi. apply iid_scal. apply (option_expectation h k y G HC SV HL); [apply discount_pos|exact T0|apply TS, Hi|exact YP|exact HF|exact RI].
    Qed.
    Lemma jamshidian_parity b : is_RInt f 0 T (hw_rate h 0 T * T) ->
      jamshidian_value true b - jamshidian_value false b = swap_value n c (fun i => initial_bond h 0 (times i)) - (1 - initial_bond h 0 T) - swap_value n c (P b) * initial_bond h 0 T.
    Proof.
      intros HF. rewrite !swap_as_sum by exact N0. unfold jamshidian_value.
      assert (E : sum_to n (fun i => weight n c i * option_part true b i) - sum_to n (fun i => weight n c i * option_part false b i) = sum_to n (fun i => weight n c i * (P b i)) * initial_bond h 0 T - sum_to n (fun i => weight n c i * initial_bond h 0 (times i))).
      { assert (Q : forall i, (i < n)%nat -> option_part false b i - option_part true b i = initial_bond h 0 (times i) - P b i * initial_bond h 0 T).
        { intros i Hi. destruct (C68_parity h k y G (P b i) T (times i) HC SV HL (discount_pos _ _ _ _ _) T0 (TS i Hi) YP) as (u & v & E1 & E2 & E3). pose proof (option_part_is false b i Hi) as F1. pose proof (option_part_is true b i Hi) as F2. cbn [negb] in F1, F2. rewrite E1 in F1. rewrite E2 in F2. injection F1 as F1. injection F2 as F2. lra. }
        revert Q. generalize (weight n c). intros w. clear. revert n. fix IH 1. intros [|m] Q; cbn [sum_to]; [ring|]. pose proof (IH m (fun i Hi => Q i (Nat.lt_lt_succ_r _ _ Hi))) as E. pose proof (Q m (Nat.lt_succ_diag_r m)). nra. }
      rewrite E. ring.
    Qed.
  End Swaption.
End Model.
