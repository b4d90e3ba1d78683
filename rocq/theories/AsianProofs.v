(** Proofs about geometric Asian options. *)
From Coquelicot Require Import Coquelicot.
From Coq Require Import Reals List Bool Arith Lia Lra.
From Verif Require Import InterpModel BrentModel ExtReal HaganWestModel BootstrapModel BlackScholesModel ImpliedVolModel BlackScholesSpec NormalProofs BlackScholesProofs ImpliedVolProofs GaussConv AsianModel AsianSpec.
Import ListNotations.
Open Scope R_scope.

Lemma path_unique times : forall prev w f m n, path_expectation times prev w f m -> path_expectation times prev w f n -> m = n.
Proof.
  induction times as [|t r IH]; cbn [path_expectation]; intros prev w f m n.
  - intros -> ->. reflexivity.
  - intros (g & G & E) (h & H & E'). apply (expectation_unique g); [exact E|]. apply (expectation_ext h); [|exact E'].
    intros z. exact (IH _ _ _ _ _ (H z) (G z)).
Qed.
Lemma path_ext times : forall prev w f g m, (forall l, length l = length times -> f l = g l) -> path_expectation times prev w f m -> path_expectation times prev w g m.
Proof.
  induction times as [|t r IH]; cbn [path_expectation length]; intros prev w f g m E.
  - intros ->. apply E. reflexivity.
  - intros (h & H & X). exists h. split; [|exact X]. intros z. apply (IH _ _ (fun l => f ((w + sqrt (t - prev) * z) :: l))); [|apply H].
    intros l L. apply E. cbn [length]. rewrite L. reflexivity.
Qed.

(** The variance of the sum of the path. *)
Fixpoint bvar (prev : R) (times : list R) : R :=
  match times with [] => 0 | t :: r => (t - prev) * INR (length times) ^ 2 + bvar t r end.
Lemma bvar_nonneg times : forall prev, in_order prev times -> 0 <= bvar prev times.
Proof.
  induction times as [|t r IH]; intros prev; cbn [in_order bvar]; [intros; lra|]. intros [L O]. specialize (IH t O).
  pose proof (pow2_ge_0 (INR (length (t :: r)))). pose proof (Rmult_le_pos (t - prev) _ ltac:(lra) H). lra.
Qed.
Lemma in_order_ge times : forall prev t, in_order prev times -> In t times -> prev <= t.
Proof. induction times as [|u r IH]; intros prev t; cbn [in_order In]; [tauto|]. intros [L O] [<-|I]; [exact L|]. specialize (IH u t O I). lra. Qed.
Lemma total_app (f g : R -> R) (l : list R) : total (map (fun x => f x + g x) l) = total (map f l) + total (map g l).
Proof. unfold total. induction l as [|x l IH]; cbn [map fold_right]; [ring|]. rewrite IH. ring. Qed.
Lemma total_const c l : total (map (fun _ : R => c) l) = c * INR (length l).
Proof. unfold total. induction l as [|x l IH]; cbn [map fold_right]; [cbn; ring|]. rewrite IH. cbn [length]. rewrite S_INR. ring. Qed.
Lemma total_ext (f g : R -> R) l : (forall x, In x l -> f x = g x) -> total (map f l) = total (map g l).
Proof. intros H. f_equal. apply map_ext_in. exact H. Qed.
Lemma bvar_mins times : forall prev, in_order prev times ->
  total (map (fun x => total (map (Rmin x) times)) times) = bvar prev times + prev * INR (length times) ^ 2.
Proof.
  induction times as [|t r IH]; intros prev; [cbn; intros; ring|]. intros O. destruct O as [L O].
  cbn [map total fold_right bvar]. change (fold_right Rplus 0) with total.
  rewrite (total_ext (fun x => total (Rmin x t :: map (Rmin x) r)) (fun x => t + total (map (Rmin x) r))).
  2:{ intros x X. cbn [total fold_right]. rewrite Rmin_right by (apply (in_order_ge r t x O X)). reflexivity. }
  rewrite (total_app (fun _ => t)), total_const. rewrite (IH t O).
  rewrite (total_ext (Rmin t) (fun _ => t)) by (intros x X; apply Rmin_left; apply (in_order_ge r t x O X)). rewrite total_const.
  rewrite Rmin_left by lra. cbn [length]. rewrite S_INR. ring.
Qed.

(** The expectation of a payoff on the exponential of the sum of the path. *)
Lemma path_value K call (KP : 0 < K) c times : 0 <= c -> forall prev w c0, in_order prev times ->
  path_expectation times prev w (fun l => vanilla call K (exp (c0 + c * total l))) (log_value K call (c0 + c * INR (length times) * w) (c * sqrt (bvar prev times))).
Proof.
  intros CP. induction times as [|t r IH]; intros prev w c0 O; cbn [path_expectation].
  - cbn [bvar length INR total fold_right]. rewrite sqrt_0, Rmult_0_r, log_value_at. f_equal. f_equal. ring.
  - destruct O as [L O]. set (n := INR (length (t :: r))). assert (NN : n = INR (length r) + 1) by (unfold n; cbn [length]; apply S_INR).
    exists (fun z => log_value K call ((c0 + c * n * w) + c * n * sqrt (t - prev) * z) (c * sqrt (bvar t r))). split.
    + intros z. set (w' := w + sqrt (t - prev) * z). specialize (IH t w' (c0 + c * w') O).
      replace (c0 + c * n * w + c * n * sqrt (t - prev) * z) with (c0 + c * w' + c * INR (length r) * w') by (unfold w'; rewrite NN; ring).
      revert IH. apply path_ext. intros l _. cbn [total fold_right]. do 2 f_equal. change (fold_right Rplus 0 l) with (total l). ring.
    + cbn [bvar]. fold n. pose proof (bvar_nonneg r t O) as B. assert (NP : 0 <= n) by apply pos_INR. pose proof (sqrt_pos (t - prev)). pose proof (sqrt_pos (bvar t r)).
      replace (c * sqrt ((t - prev) * n ^ 2 + bvar t r)) with (sqrt ((c * n * sqrt (t - prev)) ^ 2 + (c * sqrt (bvar t r)) ^ 2)).
      * apply log_value_conv; [exact KP| |]; repeat apply Rmult_le_pos; assumption.
      * replace ((c * n * sqrt (t - prev)) ^ 2 + (c * sqrt (bvar t r)) ^ 2) with (c ^ 2 * (n ^ 2 * (sqrt (t - prev)) ^ 2 + (sqrt (bvar t r)) ^ 2)) by ring.
        rewrite !pow2_sqrt by lra. pose proof (pow2_ge_0 n). assert (0 <= (t - prev) * n ^ 2) by (apply Rmult_le_pos; lra).
        rewrite sqrt_mult by nra. rewrite sqrt_pow2 by exact CP. f_equal. f_equal. ring.
Qed.

(** Products and logarithms. *)
Lemma product_pos l : Forall (fun x => 0 < x) l -> 0 < product l.
Proof. induction 1; cbn [product fold_right]; [lra|]. apply Rmult_lt_0_compat; assumption. Qed.
Lemma ln_product l : Forall (fun x => 0 < x) l -> ln (product l) = total (map ln l).
Proof.
  induction 1 as [|x l X L IH]; cbn [product total map fold_right]; [apply ln_1|]. change (fold_right Rmult 1 l) with (product l).
  rewrite ln_mult; [rewrite IH; reflexivity|exact X|apply product_pos; exact L].
Qed.
Lemma product_app a b : product (a ++ b) = product a * product b.
Proof. unfold product. induction a as [|x a IH]; cbn [app fold_right]; [ring|]. rewrite IH. ring. Qed.
Lemma asset_at_pos S0 mu sigma t w : 0 < S0 -> 0 < asset_at S0 mu sigma t w.
Proof. intros H. apply Rmult_lt_0_compat; [exact H|apply exp_pos]. Qed.
Lemma path_pos S0 mu sigma : 0 < S0 -> forall times ws, Forall (fun x => 0 < x) (asset_path S0 mu sigma times ws).
Proof. intros H times ws. unfold asset_path. apply Forall_forall. intros x X. apply in_map_iff in X. destruct X as ([t w] & <- & _). apply asset_at_pos. exact H. Qed.
Lemma ln_asset S0 mu sigma t w : 0 < S0 -> ln (asset_at S0 mu sigma t w) = ln S0 + (mu - sigma ^ 2 / 2) * t + sigma * w.
Proof. intros H. unfold asset_at. rewrite ln_mult, ln_exp by (try apply exp_pos; exact H). ring. Qed.
Lemma ln_path S0 mu sigma : 0 < S0 -> forall times ws, length ws = length times ->
  total (map ln (asset_path S0 mu sigma times ws)) = INR (length times) * ln S0 + (mu - sigma ^ 2 / 2) * total times + sigma * total ws.
Proof.
  intros H. unfold asset_path. induction times as [|t r IH]; intros [|w ws] L; try discriminate; [cbn; ring|].
  injection L as L. cbn [combine map total fold_right]. change (fold_right Rplus 0) with total. rewrite (IH ws L), ln_asset by exact H. cbn [length]. rewrite S_INR. ring.
Qed.
Lemma xprod_fin l : xprod (map Fin l) = Fin (product l).
Proof. unfold xprod, product. induction l as [|x l IH]; [reflexivity|]. cbn [map fold_right]. rewrite IH. reflexivity. Qed.

(** The arguments of the code in terms of the market. *)
Lemma market_args a D mu : 0 < D -> 0 < expiry a -> market_rate a D mu ->
  exists r, discounting_args a = (Fin r, Fin D) /\ Fin r -x dividend_args a = Fin mu.
Proof.
  intros DP T [H ->]. unfold discounts_to in H. unfold discounting_args, dividend_args, dividend.
  destruct (discount_rate a) as [r|], (discount_factor a) as [d|]; try contradiction; subst D.
  - exists r. rewrite ln_exp. split; [f_equal; do 2 f_equal; ring|]. destruct (dividend_rate a); cbn [xsub xopp xadd]; f_equal; field; lra.
  - exists (- ln d / expiry a). rewrite (xln_f d DP). cbn [xopp]. rewrite (xdiv_f _ _ (Rgt_not_eq _ _ T)). split; [reflexivity|]. destruct (dividend_rate a); cbn [xsub xopp xadd]; f_equal; ring.
  - exists 0. split; [reflexivity|]. rewrite ln_1. destruct (dividend_rate a); cbn [xsub xopp xadd]; f_equal; field; lra.
Qed.
Lemma market_spot_ok a D mu S0 : 0 < D -> 0 < expiry a -> market_rate a D mu -> market_spot a mu S0 -> asian_spot a = Fin S0.
Proof.
  intros DP T M S. destruct (market_args a D mu DP T M) as (r & E & F). unfold asian_spot, market_spot in *. rewrite E. cbn [fst]. rewrite F.
  destruct (spot a), (forward a); try contradiction; subst; [reflexivity|]. cbn [xopp xmul xexp]. f_equal. rewrite Rmult_assoc, <- exp_plus. replace (mu * expiry a + - mu * expiry a) with 0 by ring. rewrite exp_0. ring.
Qed.
Lemma forwards_ok a D mu S0 times : 0 < D -> 0 < expiry a -> market_rate a D mu -> market_spot a mu S0 ->
  sampling_time_forwards a times = map Fin (asset_path S0 mu 0 times times).
Proof.
  intros DP T M S. unfold sampling_time_forwards, asset_path. rewrite (market_spot_ok a D mu S0 DP T M S). destruct (market_args a D mu DP T M) as (r & E & F). rewrite E. cbn [fst]. rewrite F.
  induction times as [|t l IH]; [reflexivity|]. cbn [map combine]. rewrite IH. f_equal. cbn [xmul xexp]. unfold asset_at. f_equal. f_equal. f_equal. field.
Qed.
Lemma path_length S0 mu sigma times ws : length ws = length times -> length (asset_path S0 mu sigma times ws) = length times.
Proof. intros L. unfold asset_path. rewrite map_length, combine_length, L. apply Nat.min_id. Qed.
(** The effective forward and volatility. *)
Section Effective.
  Variables (a : option_args) (times : list R) (past : option (list R)) (D mu S0 : R).
  Hypothesis DP : 0 < D. Hypothesis T : 0 < expiry a. Hypothesis M : market_rate a D mu. Hypothesis S : market_spot a mu S0. Hypothesis SP : 0 < S0.
  Hypothesis NE : times <> []. Hypothesis O : in_order 0 times. Hypothesis PP : Forall (fun x => 0 < x) (fixings past). Hypothesis VP : 0 <= volatility a.
  Let n := sample_count times past.
  Let sigma := volatility a.
  Definition mean_log : R := (total (map ln (fixings past)) + INR (length times) * ln S0 + (mu - sigma ^ 2 / 2) * total times) / n.
  Definition dev_sum : R := sigma / n * sqrt (bvar 0 times).
  Lemma n_pos : 0 < n.
  Proof. unfold n, sample_count. apply lt_0_INR. destruct times; [contradiction|]. cbn [length]. lia. Qed.
  Lemma t2_ok : t2 times n = bvar 0 times / n ^ 2.
  Proof. unfold t2. rewrite (bvar_mins times 0 O). f_equal. ring. Qed.
  Lemma dev_sum_sq : dev_sum ^ 2 = sigma ^ 2 * t2 times n.
  Proof. unfold dev_sum. rewrite t2_ok. replace ((sigma / n * sqrt (bvar 0 times)) ^ 2) with (sigma ^ 2 / n ^ 2 * (sqrt (bvar 0 times)) ^ 2) by (field; pose proof n_pos; lra). rewrite pow2_sqrt by (apply bvar_nonneg; exact O). field. pose proof n_pos. lra. Qed.
  Lemma asian_forward_ok : asian_forward a times past = Fin (exp (mean_log + dev_sum ^ 2 / 2)).
  Proof.
    assert (NP := n_pos). unfold asian_forward. fold n. rewrite (forwards_ok a D mu S0 times DP T M S), xprod_fin.
    assert (RA : running_accumulator past = Fin (product (fixings past))) by (destruct past; [apply xprod_fin|reflexivity]). rewrite RA. cbn [xmul].
    assert (P1 := product_pos _ PP). assert (P2 := product_pos _ (path_pos S0 mu 0 SP times times)).
    rewrite xpow_f by (apply Rmult_lt_0_compat; assumption). cbn [xsub xopp xadd xmul xexp]. f_equal. rewrite <- exp_plus. f_equal.
    rewrite ln_mult by assumption. rewrite ln_product by exact PP. rewrite ln_product by (apply path_pos; exact SP). rewrite ln_path by (try reflexivity; exact SP).
    rewrite dev_sum_sq. unfold mean_log, t1. fold sigma. field. lra.
  Qed.
  Lemma effective_ok : exists v, effective_volatility a times past = Fin v /\ v * sqrt (expiry a) = dev_sum.
  Proof.
    assert (NP := n_pos). unfold effective_volatility. fold n. rewrite (xdiv_f _ _ (Rgt_not_eq _ _ T)). pose proof (bvar_nonneg times 0 O) as B.
    assert (Q : 0 <= t2 times n) by (rewrite t2_ok; apply Rmult_le_pos; [exact B|left; apply Rinv_0_lt_compat; apply pow_lt; exact NP]).
    assert (Q' : 0 <= t2 times n / expiry a) by (apply Rmult_le_pos; [exact Q|left; apply Rinv_0_lt_compat; exact T]).
    rewrite (xsqrt_f _ Q'). cbn [xmul]. eexists. split; [reflexivity|]. rewrite Rmult_assoc, <- sqrt_mult by lra. replace (t2 times n / expiry a * expiry a) with (t2 times n) by (field; lra).
    rewrite t2_ok. unfold dev_sum. fold sigma. replace (bvar 0 times / n ^ 2) with (bvar 0 times * (/ n) ^ 2) by (field; lra).
    assert (IP : 0 < / n) by (apply Rinv_0_lt_compat; exact NP). rewrite sqrt_mult, sqrt_pow2 by (try apply pow2_ge_0; lra). unfold Rdiv. ring.
  Qed.
  Lemma geometric_ok ws : length ws = length times ->
    geometric_mean (fixings past ++ asset_path S0 mu sigma times ws) = exp (mean_log + sigma / n * total ws).
  Proof.
    intros L. assert (NP := n_pos). unfold geometric_mean, Rpower. rewrite app_length, (path_length _ _ _ _ _ L), product_app.
    rewrite ln_mult by (apply product_pos; first [exact PP|apply path_pos; exact SP]). rewrite ln_product by exact PP. rewrite ln_product by (apply path_pos; exact SP). rewrite ln_path by assumption.
    assert (NN : INR (length (fixings past) + length times) = n) by (unfold n, sample_count; f_equal; rewrite Nat.add_comm; f_equal; destruct past; reflexivity). rewrite NN.
    f_equal. unfold mean_log. field. lra.
  Qed.
  Lemma asian_value call K : 0 < K -> path_expectation times 0 0 (fun ws => vanilla call K (geometric_mean (fixings past ++ asset_path S0 mu sigma times ws))) (log_value K call mean_log dev_sum).
  Proof.
    intros KP. assert (NP := n_pos). assert (CP : 0 <= sigma / n) by (apply Rmult_le_pos; [exact VP|left; apply Rinv_0_lt_compat; exact NP]).
    assert (X := path_value K call KP (sigma / n) times CP 0 0 mean_log O). rewrite Rmult_0_r, Rplus_0_r in X. fold dev_sum in X. revert X. apply path_ext. intros l L. rewrite geometric_ok by exact L. reflexivity.
  Qed.
End Effective.
