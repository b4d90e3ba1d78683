(** C35: swap prices. *)
From Coq Require Import Reals List Bool ZArith Lia Lra Psatz.
From Verif Require Import TensorModel InterpModel IntegrateModel RatesModel SwapSpec.
Import ListNotations.
Open Scope R_scope.

(** The price arguments as the API takes them, from the payments of two legs. *)
Definition price (pay receive : list payment) : R :=
  ir_swap_price (map coupon pay) (map coupon receive) (map notional pay) (map notional receive)
    (map daycount pay) (map daycount receive) (map df pay) (map df receive).

Lemma leg_pv l : present_value (rate_leg_cashflows (map notional l) (map daycount l) (map coupon l)) (map df l) = leg_value l.
Proof.
  unfold present_value, rate_leg_cashflows, reduce_sum, leg_value, vzip, amount. induction l as [|p l IH]; [reflexivity|]. cbn [map combine fold_right]. rewrite IH. ring.
Qed.
Lemma leg_pv' l : present_value (rate_leg_cashflows (map coupon l) (map notional l) (map daycount l)) (map df l) = leg_value l.
Proof.
  unfold present_value, rate_leg_cashflows, reduce_sum, leg_value, vzip, amount. induction l as [|p l IH]; [reflexivity|]. cbn [map combine fold_right]. rewrite IH. ring.
Qed.

(** A swap is worth what is received less what is paid. *)
Theorem C35_value pay receive : price pay receive = leg_value receive - leg_value pay.
Proof. unfold price, ir_swap_price, swap_price. rewrite !leg_pv. reflexivity. Qed.
(** Exchanging the legs negates the price. *)
Theorem C35_legs pay receive : price receive pay = - price pay receive.
Proof. rewrite !C35_value. ring. Qed.
(** The price is linear in the notional, additive in the coupons, and additive
    over the payments. *)
Theorem C35_linear pay receive k : price (map (scale k) pay) (map (scale k) receive) = k * price pay receive.
Proof.
  rewrite !C35_value. assert (G : forall l, leg_value (map (scale k) l) = k * leg_value l).
  { unfold leg_value. induction l as [|p l IH]; cbn [map fold_right]; [ring|]. rewrite IH. unfold amount. cbn [scale coupon notional daycount df]. ring. }
  rewrite !G. ring.
Qed.
Theorem C35_coupons (l : list payment) receive (c1 c2 : payment -> R) : 
  price (map (fun p => with_coupon (c1 p + c2 p) p) l) receive = price (map (fun p => with_coupon (c1 p) p) l) receive + price (map (fun p => with_coupon (c2 p) p) l) [].
Proof.
  rewrite !C35_value. assert (G : leg_value (map (fun p => with_coupon (c1 p + c2 p) p) l) = leg_value (map (fun p => with_coupon (c1 p) p) l) + leg_value (map (fun p => with_coupon (c2 p) p) l)).
  { unfold leg_value. induction l as [|p l IH]; cbn [map fold_right]; [ring|]. rewrite IH. unfold amount. cbn [with_coupon coupon notional daycount df]. ring. }
  rewrite G. cbn. ring.
Qed.
Theorem C35_additive p1 p2 r1 r2 : price (p1 ++ p2) (r1 ++ r2) = price p1 r1 + price p2 r2.
Proof.
  rewrite !C35_value. assert (G : forall a b, leg_value (a ++ b) = leg_value a + leg_value b). { unfold leg_value. induction a; intros b; cbn [app fold_right]; [ring|]. rewrite IHa. ring. }
  rewrite !G. ring.
Qed.

(** The legs of a plain swap on a curve: the floating leg pays the forward rate
    of each period at its end, the fixed leg pays [K] at each fixing. *)
Definition curve_df (rate : R -> R) (t : R) : R := exp (- rate t * t).
Definition floating_leg (rate : R -> R) (N : R) (l : list period) : list payment :=
  let f := forward_rates (map (fun p => curve_df rate (fstart p)) l) (map (fun p => curve_df rate (fend p)) l) (map fcount l) in
  map (fun '(c, p) => {| coupon := c; notional := N; daycount := fcount p; df := curve_df rate (fend p) |}) (combine f l).
Definition fixed_leg (rate : R -> R) (N K : R) (l : list fixing) : list payment :=
  map (fun p => {| coupon := K; notional := N; daycount := xcount p; df := curve_df rate (ftime p) |}) l.
(** The value of the payer swap at coupon [K] is the notional times the annuity
    times the distance of [K] from the par rate: it vanishes exactly at par. *)
Theorem C35_par rate N K floating fixed : Forall (fun p => fcount p <> 0) floating ->
  let '(par, annuity) := ir_swap_par_rate_and_annuity (map fstart floating) (map fend floating) (map ftime fixed) (map xcount fixed) rate in
  annuity <> 0 ->
  price (fixed_leg rate N K fixed) (floating_leg rate N floating) = N * annuity * (par - K) /\
  (N <> 0 -> price (fixed_leg rate N K fixed) (floating_leg rate N floating) = 0 <-> K = par).
Proof.
  intros F. unfold ir_swap_par_rate_and_annuity. set (A := reduce_sum _). intros NA.
  assert (FX : leg_value (fixed_leg rate N K fixed) = N * K * A).
  { unfold A, leg_value, fixed_leg, reduce_sum, vzip, amount. clear. induction fixed as [|p l IH]; cbn [map combine fold_right]; [ring|]. cbn [coupon notional daycount df] in *. rewrite IH. unfold curve_df, df_of. ring. }
  assert (FL : leg_value (floating_leg rate N floating) = N * reduce_sum (vzip Rminus (map (df_of rate) (map fstart floating)) (map (df_of rate) (map fend floating)))).
  { unfold floating_leg, forward_rates, leg_value, reduce_sum, vzip, amount. clear - F. induction F as [|p l D F IH]; cbn [map combine fold_right]; [ring|]. cbn [coupon notional daycount df] in *. rewrite IH. 
    unfold forward_rate, divide_no_nan, curve_df, df_of. pose proof (exp_pos (- rate (fend p) * fend p)). destruct (Req_EM_T (exp (- rate (fend p) * fend p)) 0); [lra|]. destruct (Req_EM_T (fcount p) 0); [contradiction|]. field. split; [lra|exact D]. }
  set (B := reduce_sum (vzip Rminus (map (df_of rate) (map fstart floating)) (map (df_of rate) (map fend floating)))) in *. assert (V : price (fixed_leg rate N K fixed) (floating_leg rate N floating) = N * A * (B / A - K)).
  { rewrite C35_value, FX, FL. field. exact NA. }
  split; [exact V|]. intros NN. rewrite V. split.
  - intros Z. apply Rmult_integral in Z as [Z|Z]; [|lra]. exfalso. apply Rmult_integral in Z as [Z|Z]; contradiction.
  - intros ->. ring.
Qed.

(** Equity swaps: the receiver and the payer have opposite prices. *)
Theorem C35_equity_sides rate_leg forwards spot eN edf dividends :
  let p := equity_swap_price (map coupon rate_leg) forwards spot (map notional rate_leg) eN (map daycount rate_leg) (map df rate_leg) edf dividends in
  p (Some true) = p None /\ p (Some false) = - p (Some true).
Proof. unfold equity_swap_price. split; [reflexivity|]. cbv beta iota zeta. ring. Qed.
(** The receiver gets the equity leg and pays the rate leg.  A dividend d adds
    d / S to the payment, S being the price at the start of its period. *)
Fixpoint dividend_value (spot : R) (forwards dividends edf : list R) : R :=
  match forwards, dividends, edf with
  | s :: forwards, c :: dividends, d :: edf => d * (c / spot) + dividend_value s forwards dividends edf
  | _, _, _ => 0
  end.
Theorem C35_equity_dividends rate_leg forwards spot eN edf dividends : spot <> 0 -> Forall (fun s => s <> 0) forwards -> length edf = length forwards -> length dividends = length forwards ->
  equity_swap_price (map coupon rate_leg) forwards spot (map notional rate_leg) eN (map daycount rate_leg) (map df rate_leg) edf dividends None
  = equity_value eN spot forwards edf + dividend_value spot forwards dividends edf - leg_value rate_leg.
Proof.
  intros S F L M. unfold equity_swap_price, swap_price. rewrite leg_pv'. cbv beta iota zeta. rewrite Rmult_1_l. f_equal.
  unfold present_value, equity_leg_cashflows, reduce_sum, vzip. cbn [tl]. revert spot S edf L dividends M. induction F as [|s l D F IH]; intros spot S edf L dividends M; [cbn; ring|].
  destruct edf as [|d edf]; [discriminate L|]. destruct dividends as [|c dividends]; [discriminate M|]. cbn [length] in L, M. change (removelast (spot :: s :: l)) with (spot :: removelast (s :: l)). cbn [map combine fold_right equity_value dividend_value]. rewrite (IH s D edf ltac:(lia) dividends ltac:(lia)).
  unfold divide_no_nan. destruct (Req_EM_T spot 0); [contradiction|]. field. exact S.
Qed.
(** Without dividends only the equity leg and the rate leg remain. *)
Theorem C35_equity_value rate_leg forwards spot eN edf : spot <> 0 -> Forall (fun s => s <> 0) forwards -> length edf = length forwards ->
  equity_swap_price (map coupon rate_leg) forwards spot (map notional rate_leg) eN (map daycount rate_leg) (map df rate_leg) edf (map (fun _ => 0) forwards) None
  = equity_value eN spot forwards edf - leg_value rate_leg.
Proof.
  intros S F L. rewrite C35_equity_dividends by (try assumption; apply map_length). enough (E : dividend_value spot forwards (map (fun _ => 0) forwards) edf = 0) by (rewrite E; ring).
  clear. revert spot edf. induction forwards as [|s l IH]; intros spot [|d edf]; cbn [map dividend_value]; try reflexivity. rewrite IH. unfold Rdiv. ring.
Qed.
(** Scaling both notionals scales the price, as long as no dividends are paid. *)
Theorem C35_equity_linear rate_leg forwards spot eN edf k : spot <> 0 -> Forall (fun s => s <> 0) forwards -> length edf = length forwards ->
  let p := fun leg n => equity_swap_price (map coupon leg) forwards spot (map notional leg) n (map daycount leg) (map df leg) edf (map (fun _ => 0) forwards) None in
  p (map (scale k) rate_leg) (k * eN) = k * p rate_leg eN.
Proof.
  intros S F L p. unfold p. rewrite !C35_equity_value by assumption.
  assert (G : forall l, leg_value (map (scale k) l) = k * leg_value l).
  { unfold leg_value. induction l as [|q l IH]; cbn [map fold_right]; [ring|]. rewrite IH. unfold amount. cbn [scale coupon notional daycount df]. ring. }
  rewrite G, Rmult_minus_distr_l. f_equal. clear. revert spot edf. induction forwards as [|s l IH]; intros spot [|d edf]; cbn [equity_value]; try ring. rewrite IH. ring.
Qed.
(** On forwards that grow at the funding rate, spot divided by the discount
    factor, the equity leg is worth the notional less its value at the end:
    the fair swap pays financing. *)
Theorem C35_equity_funding N spot dfs : 0 < spot -> Forall (fun d => 0 < d) dfs ->
  equity_value N spot (map (fun d => spot / d) dfs) dfs = N * (1 - last dfs 1).
Proof.
  intros S F. assert (G : forall d0, 0 < d0 -> equity_value N (spot / d0) (map (fun d => spot / d) dfs) dfs = N * (d0 - last dfs d0)).
  { induction F as [|d l D F IH]; intros d0 D0; cbn [map equity_value]; [cbn; ring|]. rewrite IH by exact D.
    replace (last (d :: l) d0) with (last l d). 2:{ clear. revert d. induction l as [|x l IH]; intros d; [reflexivity|]. cbn [last] in *. destruct l; [reflexivity|]. rewrite IH. symmetry. apply (IH d0). }
    assert (spot / d0 <> 0) by (apply Rgt_not_eq; apply Rdiv_lt_0_compat; assumption). field. repeat split; lra. }
  specialize (G 1 ltac:(lra)). replace (spot / 1) with spot in G by field. exact G.
Qed.

(** With dividends the documented payment, notional times
    (S_i - S_{i-1}) / S_{i-1} + d_i, is not what is computed: the dividend is
    divided by the price and not multiplied by the notional. *)
Theorem C35_dividends_refuted : exists s0 s1 N d, 0 < s0 /\ 0 < s1 /\ 0 < N /\ 0 < d /\
  let pays := fun n => equity_leg_cashflows [s1] s0 n [d] in
  pays N <> [N * ((s1 - s0) / s0 + d)] /\ pays N <> [N * ((s1 - s0 + d) / s0)] /\ pays (2 * N) <> map (fun c => 2 * c) (pays N).
Proof.
  exists 1, 2, 10, 1. do 4 (split; [lra|]). cbv zeta. unfold equity_leg_cashflows. cbn. unfold divide_no_nan. destruct (Req_EM_T 1 0); [lra|].
  repeat split; intros H; injection H; lra.
Qed.

(** A two-period swap with one yearly fixed payment. *)
Example C35_ex : let l := [{| fstart := 0; fend := 1; fcount := 1 |}; {| fstart := 1; fend := 2; fcount := 1 |}] in let x := [{| ftime := 2; xcount := 2 |}] in let rate := fun _ : R => 1 in
  Forall (fun p => fcount p <> 0) l /\ snd (ir_swap_par_rate_and_annuity (map fstart l) (map fend l) (map ftime x) (map xcount x) rate) <> 0 /\
  fst (ir_swap_par_rate_and_annuity (map fstart l) (map fend l) (map ftime x) (map xcount x) rate) = (1 - exp (-2)) / (2 * exp (-2)).
Proof.
  cbv zeta. split; [repeat constructor; cbn; lra|]. unfold ir_swap_par_rate_and_annuity, reduce_sum, vzip, df_of. cbn -[exp].
  replace (- (1) * 2) with (-2) by ring. replace (- (1) * 0) with 0 by ring. rewrite exp_0. pose proof (exp_pos (-2)). split; [lra|]. field. lra.
Qed.
Example C35_equity_ex : equity_value 10 4 [6; 3] [1; 1 / 2] = 5 / 2.
Proof. cbn. lra. Qed.

Print Assumptions C35_value.
Print Assumptions C35_legs.
Print Assumptions C35_linear.
Print Assumptions C35_coupons.
Print Assumptions C35_additive.
Print Assumptions C35_par.
Print Assumptions C35_equity_sides.
Print Assumptions C35_equity_dividends.
Print Assumptions C35_equity_value.
Print Assumptions C35_equity_linear.
Print Assumptions C35_equity_funding.
Print Assumptions C35_dividends_refuted.
