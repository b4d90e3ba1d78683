(** Lemmas about the binomial tree. *)
From Coq Require Import Reals Lra Lia List Bool Arith.
From Verif Require Import InterpModel BrentModel BinomialModel BinomialSpec.
Import ListNotations.
Open Scope R_scope.

(** One-step averages. *)
Fixpoint average (f : R -> R) (u d p : R) (n : nat) (x : R) : R :=
  match n with O => f x | S n => p * average f u d p n (x * u) + (1 - p) * average f u d p n (x * d) end.
Lemma binomial_step n p g : binomial_expectation (S n) p g = p * binomial_expectation n p (fun k => g (S k)) + (1 - p) * binomial_expectation n p g.
Proof.
  unfold binomial_expectation. destruct n as [|n].
  - cbn. unfold C. cbn. field.
  - rewrite (decomp_sum _ (S (S n))) by lia. cbn [pred].
    rewrite (tech5 (fun i => C (S (S n)) (S i) * p ^ S i * (1 - p) ^ (S (S n) - S i) * g (S i)) n).
    rewrite (tech5 (fun k => C (S n) k * p ^ k * (1 - p) ^ (S n - k) * g (S k)) n).
    rewrite (decomp_sum (fun k => C (S n) k * p ^ k * (1 - p) ^ (S n - k) * g k) (S n)) by lia. cbn [pred].
    rewrite !Rmult_plus_distr_l. rewrite !scal_sum.
    assert (E : sum_f_R0 (fun i => C (S (S n)) (S i) * p ^ S i * (1 - p) ^ (S (S n) - S i) * g (S i)) n
      = sum_f_R0 (fun i => C (S n) i * p ^ i * (1 - p) ^ (S n - i) * g (S i) * p) n
        + sum_f_R0 (fun i => C (S n) (S i) * p ^ S i * (1 - p) ^ (S n - S i) * g (S i) * (1 - p)) n).
    { rewrite <- sum_plus. apply sum_eq. intros i L. rewrite <- (pascal (S n) i) by lia.
      replace (S (S n) - S i)%nat with (S (n - i)) by lia. replace (S n - i)%nat with (S (n - i)) by lia. replace (S n - S i)%nat with (n - i)%nat by lia.
      cbn [pow]. ring. }
    rewrite E. rewrite !Nat.sub_0_r, !Nat.sub_diag. rewrite !C_n_0 || idtac.
    assert (C0 : forall m, C m 0 = 1). { intros m. unfold C. cbn [fact]. rewrite Nat.sub_0_r. assert (X := INR_fact_neq_0 m). cbn [INR]. field. exact X. }
    assert (Cn : forall m, C m m = 1). { intros m. unfold C. rewrite Nat.sub_diag. cbn [fact]. assert (X := INR_fact_neq_0 m). cbn [INR]. field. exact X. }
    rewrite !C0, !Cn. cbn [pow]. ring.
Qed.
Lemma average_binomial f u d p n : forall x, average f u d p n x = binomial_expectation n p (fun k => f (x * u ^ k * d ^ (n - k))).
Proof.
  induction n as [|n IH]; intros x.
  - unfold binomial_expectation, C. cbn. rewrite !Rmult_1_r. field.
  - cbn [average]. rewrite binomial_step, !IH. f_equal; f_equal; unfold binomial_expectation; apply sum_eq; intros k L; do 2 f_equal.
    + cbn [Nat.sub pow]. ring.
    + replace (S n - k)%nat with (S (n - k)) by lia. cbn [pow]. ring.
Qed.
Lemma average_ext f g u d p n : (forall x, f x = g x) -> forall x, average f u d p n x = average g u d p n x.
Proof. intros E. induction n as [|n IH]; intros x; cbn [average]; [apply E|]. rewrite !IH. reflexivity. Qed.
Lemma average_lin f g u d p n a b : forall x, average (fun x => a * f x + b * g x) u d p n x = a * average f u d p n x + b * average g u d p n x.
Proof. induction n as [|n IH]; intros x; cbn [average]; [reflexivity|]. rewrite !IH. ring. Qed.
Lemma average_id u d p n : forall x, average (fun x => x) u d p n x = x * (p * u + (1 - p) * d) ^ n.
Proof. induction n as [|n IH]; intros x; cbn [average pow]; [ring|]. rewrite !IH. ring. Qed.
Lemma average_const c u d p n : forall x, average (fun _ => c) u d p n x = c.
Proof. induction n as [|n IH]; intros x; cbn [average]; [reflexivity|]. rewrite !IH. ring. Qed.
Lemma average_le f g u d p n : 0 <= p <= 1 -> 0 < u -> 0 < d -> (forall x, 0 < x -> f x <= g x) -> forall x, 0 < x -> average f u d p n x <= average g u d p n x.
Proof.
  intros P U D L. induction n as [|n IH]; intros x X; cbn [average]; [apply L; exact X|].
  assert (A := IH (x * u) ltac:(apply Rmult_lt_0_compat; assumption)). assert (B := IH (x * d) ltac:(apply Rmult_lt_0_compat; assumption)). nra.
Qed.

(** The loop of the code at one node. *)
Fixpoint back (m : R -> R -> R) (f : R -> R) (u d p D : R) (n : nat) (x : R) : R :=
  match n with O => f x | S n => D * m (back m f u d p D n (x * d) * (1 - p) + back m f u d p D n (x * u) * p) x end.
Lemma seq_S n : forall s, seq s (S n) = s :: map S (seq s n).
Proof. intros s. cbn [seq]. f_equal. symmetry. apply seq_shift. Qed.
Lemma removelast_map {A B} (f : A -> B) l : removelast (map f l) = map f (removelast l).
Proof. induction l as [|a [|b l] IH]; [reflexivity|reflexivity|]. change (f a :: removelast (map f (b :: l)) = f a :: map f (removelast (b :: l))). rewrite IH. reflexivity. Qed.
Lemma removelast_seq s n : removelast (seq s (S n)) = seq s n.
Proof. rewrite seq_S_end || replace (S n) with (n + 1)%nat by lia. rewrite seq_app. cbn [seq]. apply removelast_last. Qed.
Lemma combine_maps {A B C} (f : A -> B) (g : A -> C) l : combine (map f l) (map g l) = map (fun x => (f x, g x)) l.
Proof. induction l as [|a l IH]; [reflexivity|]. cbn [map combine]. rewrite IH. reflexivity. Qed.
Definition node (l lu N : R) (i j : nat) : R := l + lu * (N - INR i) - 2 * lu * INR j.
Lemma loop_nodes m f u d p D l lu N : u = exp lu -> d = exp (- lu) -> forall i, (i <= N)%nat ->
  Nat.iter i (one_step_back p (1 - p) D lu m) (map f (map exp (map (node l lu (INR N) 0) (seq 0 (N + 1)))), map (node l lu (INR N) 0) (seq 0 (N + 1)))
  = (map (fun j => back m f u d p D i (exp (node l lu (INR N) i j))) (seq 0 (N + 1 - i)), map (node l lu (INR N) i) (seq 0 (N + 1 - i))).
Proof.
  intros U D'. induction i as [|i IH]; intros L.
  - change (Nat.iter 0 ?g ?x) with x. rewrite Nat.sub_0_r. rewrite !map_map. reflexivity.
  - change (Nat.iter (S i) ?g ?x) with (g (Nat.iter i g x)). rewrite IH by lia.
    replace (N + 1 - i)%nat with (S (N + 1 - S i)) by lia. set (k := (N + 1 - S i)%nat).
    unfold one_step_back. rewrite !removelast_map, !removelast_seq. rewrite seq_S at 1. cbn [map tl]. rewrite !map_map.
    rewrite combine_maps, !map_map. rewrite combine_maps, !map_map.
    assert (E : forall j, node l lu (INR N) i j - lu = node l lu (INR N) (S i) j) by (intros j; unfold node; rewrite S_INR; ring).
    f_equal; apply map_ext; intros j; [|apply E].
    cbn [back]. rewrite E.
    replace (exp (node l lu (INR N) (S i) j) * d) with (exp (node l lu (INR N) i (S j))) by (rewrite D', <- exp_plus; f_equal; unfold node; rewrite !S_INR; ring).
    replace (exp (node l lu (INR N) (S i) j) * u) with (exp (node l lu (INR N) i j)) by (rewrite U, <- exp_plus; f_equal; unfold node; rewrite !S_INR; ring).
    reflexivity.
Qed.

Section Args.
Variable a : tree_args.
Hypothesis V : tree_ok a.
Definition weight : R := (exp ((interest a - payout a) * step a) * up a - 1) / (up a * up a - 1).
Lemma step_pos : 0 < step a.
Proof. destruct V as (A & B & C & D). unfold step. apply Rdiv_lt_0_compat; [exact A|apply lt_0_INR; exact D]. Qed.
Lemma up_pos : 0 < up a. Proof. apply exp_pos. Qed.
Lemma dn_pos : 0 < dn a. Proof. apply Rinv_0_lt_compat, up_pos. Qed.
Lemma up_ne : up a * up a - 1 <> 0.
Proof.
  destruct V as (A & B & C & D). assert (P := sqrt_lt_R0 _ step_pos). unfold up. rewrite <- exp_plus. intros E.
  assert (X : exp (t_volatility a * sqrt (step a) + t_volatility a * sqrt (step a)) = exp 0) by (rewrite exp_0; lra). apply exp_inv in X.
  apply C. apply (Rmult_eq_reg_r (sqrt (step a))); lra.
Qed.
Lemma weight_neutral : risk_neutral a weight.
Proof. unfold risk_neutral, weight, dn. assert (U := up_pos). assert (N := up_ne). field. split; lra. Qed.
Lemma weight_unique p : risk_neutral a p -> p = weight.
Proof.
  assert (W := weight_neutral). unfold risk_neutral in *. intros E. assert (U := up_pos). assert (N := up_ne).
  assert (X : (p - weight) * (up a - dn a) = 0) by lra. apply Rmult_integral in X. destruct X as [X|X]; [lra|].
  exfalso. apply N. unfold dn in X. replace (up a * up a - 1) with ((up a - / up a) * up a) by (field; lra). rewrite X. ring.
Qed.
Lemma price_back : option_price_binomial a = Some (back (value_modifier (american a) (exercise (a_call a) (t_strike a))) (exercise (a_call a) (t_strike a)) (up a) (dn a) weight (step_discount a) (t_steps a) (t_spot a)).
Proof.
  assert (VV := V). destruct VV as (A & B & C & D). unfold option_price_binomial.
  assert (rlt 0 (t_expiry a) = true) as -> by (unfold rlt; destruct (Rlt_dec 0 (t_expiry a)); [reflexivity|lra]).
  cbv zeta. assert (PN : 0 < INR (t_steps a)) by (apply lt_0_INR; exact D).
  assert (req (INR (t_steps a)) 0 = false) as -> by (unfold req; destruct (Req_EM_T _ 0); [lra|reflexivity]).
  fold (step a). assert (E2 : exp (2 * (t_volatility a * sqrt (step a))) = up a * up a) by (unfold up; rewrite <- exp_plus; f_equal; ring).
  rewrite E2. assert (req (up a * up a - 1) 0 = false) as -> by (unfold req; destruct (Req_EM_T _ 0) as [E|E]; [exfalso; exact (up_ne E)|reflexivity]).
  cbn [orb].
  assert (PE : forall x, tree_payoff (t_strike a) (or_true (t_call a)) x = exercise (a_call a) (t_strike a) x).
  { intros x. unfold tree_payoff, exercise, a_call, or_true. destruct (t_call a) as [[|]|]; f_equal; ring. }
  assert (WE : (exp ((or_zero (t_rate a) - or_zero (t_dividend a)) * step a + t_volatility a * sqrt (step a)) - 1) / (up a * up a - 1) = weight).
  { unfold weight. rewrite exp_plus. reflexivity. }
  rewrite WE. assert (DE : exp (- or_zero (t_rate a) * step a) = step_discount a) by (unfold step_discount; f_equal; unfold or_zero, interest; ring). rewrite DE.
  set (lu := t_volatility a * sqrt (step a)).
  assert (GE : map (fun j => ln (t_spot a) + lu * INR (t_steps a) + (- lu - lu) * INR j) (seq 0 (t_steps a + 1)) = map (node (ln (t_spot a)) lu (INR (t_steps a)) 0) (seq 0 (t_steps a + 1))).
  { apply map_ext. intros j. unfold node. cbn [INR]. ring. }
  rewrite GE. rewrite (loop_nodes _ _ (up a) (dn a) weight (step_discount a) (ln (t_spot a)) lu (t_steps a)); [|reflexivity|unfold dn, up; rewrite exp_Ropp; reflexivity|lia].
  replace (t_steps a + 1 - t_steps a)%nat with 1%nat by lia. cbn [seq map nth]. f_equal.
  replace (exp (node (ln (t_spot a)) lu (INR (t_steps a)) (t_steps a) 0)) with (t_spot a).
  2: { unfold node. cbn [INR]. replace (ln (t_spot a) + lu * (INR (t_steps a) - INR (t_steps a)) - 2 * lu * 0) with (ln (t_spot a)) by ring. symmetry. apply exp_ln. exact B. }
  assert (BE : forall n x, back (value_modifier (or_false (t_american a)) (tree_payoff (t_strike a) (or_true (t_call a)))) (tree_payoff (t_strike a) (or_true (t_call a))) (up a) (dn a) weight (step_discount a) n x
    = back (value_modifier (american a) (exercise (a_call a) (t_strike a))) (exercise (a_call a) (t_strike a)) (up a) (dn a) weight (step_discount a) n x).
  { induction n as [|n IH]; intros x; cbn [back]; [apply PE|]. rewrite !IH. unfold value_modifier. rewrite PE. reflexivity. }
  apply BE.
Qed.
Lemma fine_weight : fine_enough a <-> 0 <= weight <= 1.
Proof.
  assert (W := weight_neutral). unfold risk_neutral in W. assert (N := up_ne). assert (VV := V). destruct VV as (A & B & C & D).
  assert (P := sqrt_lt_R0 _ step_pos). assert (U := up_pos).
  set (s := sqrt (step a)) in *. assert (SS : step a = s * s) by (unfold s; symmetry; apply sqrt_sqrt; left; apply step_pos).
  set (b := interest a - payout a) in *.
  assert (EU : up a = exp (t_volatility a * s)) by reflexivity. assert (ED : dn a = exp (- (t_volatility a * s))) by (unfold dn; rewrite EU, exp_Ropp; reflexivity).
  assert (EG : exp (b * step a) = exp (b * s * s)) by (f_equal; rewrite SS; ring). rewrite EG, EU, ED in W. clear EG.
  assert (M : forall x y, exp x <= exp y <-> x <= y).
  { intros x y. split; intros [L|L]; [left; apply exp_lt_inv; exact L|right; apply exp_inv; exact L|left; apply exp_increasing; exact L|right; f_equal; exact L]. }
  unfold fine_enough. fold b s. set (v := t_volatility a) in *.
  assert (Q : 0 <= weight <= 1 <-> - Rabs v * s <= b * s * s <= Rabs v * s).
  { set (g := exp (b * s * s)) in *. rewrite <- (M (- Rabs v * s)), <- (M (b * s * s)). fold g.
    destruct (Rlt_le_dec v 0) as [L|L].
    - rewrite Rabs_left by exact L. replace (- - v * s) with (v * s) by ring. replace (- v * s) with (- (v * s)) by ring.
      assert (X : exp (v * s) < exp (- (v * s))) by (apply exp_increasing; nra). split; intros Y; split; nra.
    - rewrite Rabs_right by lra. replace (- v * s) with (- (v * s)) by ring.
      assert (X : exp (- (v * s)) < exp (v * s)) by (apply exp_increasing; assert (0 < v) by lra; nra). split; intros Y; split; nra. }
  rewrite Q. assert (PV := Rabs_pos v). unfold Rabs at 1. destruct (Rcase_abs b); split; intros; try split; nra.
Qed.
Lemma european_average : american a = false -> option_price_binomial a = Some (discount a * average (exercise (a_call a) (t_strike a)) (up a) (dn a) weight (t_steps a) (t_spot a)).
Proof.
  intros E. rewrite price_back, E. f_equal.
  assert (X : forall n x, back (value_modifier false (exercise (a_call a) (t_strike a))) (exercise (a_call a) (t_strike a)) (up a) (dn a) weight (step_discount a) n x
    = step_discount a ^ n * average (exercise (a_call a) (t_strike a)) (up a) (dn a) weight n x).
  { induction n as [|n IH]; intros x; cbn [back average pow value_modifier]; [ring|]. rewrite !IH. ring. }
  rewrite X. f_equal. destruct V as (A & B & C & D). unfold step_discount, discount, step.
  assert (Y : forall n x, exp x ^ n = exp (INR n * x)).
  { induction n as [|n IH]; intros x; [cbn [pow INR]; rewrite Rmult_0_l, exp_0; reflexivity|]. cbn [pow]. rewrite IH, <- exp_plus, S_INR. f_equal. ring. }
  rewrite Y. f_equal. field. apply not_0_INR. lia.
Qed.
End Args.
