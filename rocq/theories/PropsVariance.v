(** C44: variance swap replication. *)
From Coquelicot Require Import Coquelicot.
From Coq Require Import Reals Lra Lia List Bool Arith.
From Verif Require Import InterpModel BrentModel SegmentModel BlackScholesModel BlackScholesSpec BlackScholesProofs VarianceModel VarianceSpec VarianceProofs.
Import ListNotations.
Open Scope R_scope.

(** The weights for one list of strikes: one per strike but the last, none
    negative when the list starts on the right side of the reference. *)
Theorem C44_weights c ks ref T v : ordered c ks -> (2 <= length ks)%nat -> Forall (fun k => 0 < k) ks -> 0 < ref -> 0 < T -> starts_at c ref (nth 0 ks 0) ->
  exists ws, replicating_weights [SwapRow ks ref T] v = Some [ws] /\ length ws = (length ks - 1)%nat /\ Forall (fun w => 0 <= w) ws.
Proof.
  intros O L P R PT ST. eexists. split; [apply (weights_row c); [exact O|intros; exact L]|]. rewrite weights_bends, map_length, bends_length. split; [reflexivity|].
  apply Forall_forall. intros w W. apply in_map_iff in W. destruct W as (b & <- & B). cbn [row_reference row_expiry row_strikes] in B.
  assert (S : Forall (fun w => if c then 0 <= w else w <= 0) (bends (log_payoff ref T) 0 ks)).
  { apply bends_sign; try assumption. intros k rest ->. cbn [nth] in ST. inversion P as [|? ? Pk _]; subst. assert (I : 0 < 2 / T) by (apply Rdiv_lt_0_compat; lra). unfold marginal.
    destruct c; cbn in ST.
    - assert (/ k <= / ref) by (apply Rinv_le_contravar; lra). nra.
    - assert (/ ref <= / k) by (apply Rinv_le_contravar; lra). nra. }
  rewrite Forall_forall in S. specialize (S b B). destruct c; cbn [negb]; lra.
Qed.

(** At every strike, and by straight lines in between, the options pay the
    target less its value at the first strike. *)
Theorem C44_replicates c ks ref T v ws j t : ordered c ks -> Forall (fun k => 0 < k) ks -> 0 < ref ->
  (S j < length ks)%nat -> 0 <= t <= 1 -> replicating_weights [SwapRow ks ref T] v = Some [ws] ->
  portfolio c ws ks ((1 - t) * nth j ks 0 + t * nth (S j) ks 0)
  = (1 - t) * target ref T (nth j ks 0) + t * target ref T (nth (S j) ks 0) - target ref T (nth 0 ks 0).
Proof.
  intros O P R L HT E. rewrite (weights_row c) in E; [|exact O|intros; lia]. injection E as <-.
  change (portfolio c (row_weights (negb c) (SwapRow ks ref T)) ks) with (portfolio c (row_weights (negb c) (SwapRow ks ref T)) (row_strikes (SwapRow ks ref T))).
  rewrite portfolio_bends. cbn [row_strikes row_reference row_expiry]. rewrite bend_interp by assumption.
  assert (PN : forall i, (i < length ks)%nat -> 0 < nth i ks 0) by (intros i I; rewrite Forall_forall in P; apply P, nth_In; exact I).
  rewrite !target_log; try assumption; try (apply PN; lia). ring.
Qed.
(** So they never pay less than the target in the range of the strikes. *)
Theorem C44_super_replicates c ks ref T v ws j t : ordered c ks -> Forall (fun k => 0 < k) ks -> 0 < ref -> 0 < T ->
  (S j < length ks)%nat -> 0 <= t <= 1 -> replicating_weights [SwapRow ks ref T] v = Some [ws] ->
  let x := (1 - t) * nth j ks 0 + t * nth (S j) ks 0 in
  target ref T x - target ref T (nth 0 ks 0) <= portfolio c ws ks x.
Proof.
  intros O P R PT L HT E. cbv zeta. rewrite (C44_replicates c ks ref T v ws j t) by assumption.
  assert (PN : forall i, (i < length ks)%nat -> 0 < nth i ks 0) by (intros i I; rewrite Forall_forall in P; apply P, nth_In; exact I).
  assert (A := PN j ltac:(lia)). assert (B := PN (S j) L). set (a := nth j ks 0) in *. set (b := nth (S j) ks 0) in *.
  assert (X : 0 < (1 - t) * a + t * b) by (destruct (Rlt_le_dec t 1); [nra|assert (t = 1) by lra; subst; lra]).
  rewrite (target_log ref T a), (target_log ref T b), (target_log ref T ((1 - t) * a + t * b)) by assumption. unfold log_payoff. cbv zeta. assert (C := ln_concave a b t A B HT). assert (I : 0 < 2 / T) by (apply Rdiv_lt_0_compat; lra).
  set (ln_x := ln ((1 - t) * a + t * b)) in *. clearbody ln_x.
  assert (D : 0 <= 2 / T * (ln_x - ((1 - t) * ln a + t * ln b))) by (apply Rmult_le_pos; lra).
  match goal with |- ?p - ?z <= ?q - ?z => assert (Q : q - p = 2 / T * (ln_x - ((1 - t) * ln a + t * ln b))) by (field; lra); lra end.
Qed.

(** With one volatility for all strikes the fair strike is the variance, up to
    the expected replication error of the portfolio. *)
Theorem C44_fair_strike ps pv cs cv s T r S ref v : 0 < s -> 0 < T -> 0 < S -> 0 < ref ->
  ordered false ps -> ordered true cs -> Forall (fun k => 0 < k) ps -> Forall (fun k => 0 < k) cs -> (2 <= length ps)%nat -> (2 <= length cs)%nat ->
  length pv = length ps -> length cv = length cs -> Forall (eq s) (removelast pv) -> Forall (eq s) (removelast cv) ->
  exists pw cw e, replicating_weights [SwapRow ps ref T] v = Some [pw] /\ replicating_weights [SwapRow cs ref T] v = Some [cw]
    /\ expectation (fun z => let x := asset false (S * exp (r * T)) (s * sqrt T) z in portfolio false pw ps x + portfolio true cw cs x - target ref T x) e
    /\ fair_strike ps pv cs cv T r S ref v = Some (s ^ 2 + e).
Proof.
  intros Ps PT PS PR Op Oc Pp Pc Lp Lc Lpv Lcv Fp Fc.
  assert (Wp := weights_row false ps ref T v Op ltac:(discriminate)). assert (Wc := weights_row true cs ref T v Oc ltac:(intros; exact Lc)).
  set (pw := row_weights (negb false) (SwapRow ps ref T)) in *. set (cw := row_weights (negb true) (SwapRow cs ref T)) in *.
  assert (Lpw : length pw = (length ps - 1)%nat) by (unfold pw; rewrite weights_bends, map_length, bends_length; reflexivity).
  assert (Lcw : length cw = (length cs - 1)%nat) by (unfold cw; rewrite weights_bends, map_length, bends_length; reflexivity).
  assert (RL : forall l : list R, length (removelast l) = (length l - 1)%nat).
  { intros l. induction l as [|x [|y l] IH]; [reflexivity|reflexivity|]. change (removelast (x :: y :: l)) with (x :: removelast (y :: l)). cbn [length]. rewrite IH. cbn. lia. }
  assert (RF : forall l : list R, Forall (fun k => 0 < k) l -> Forall (fun k => 0 < k) (removelast l)).
  { intros l. induction l as [|x [|y l] IH]; intros H; [constructor|constructor|]. change (removelast (x :: y :: l)) with (x :: removelast (y :: l)). inversion H; subst. constructor; [assumption|apply IH; assumption]. }
  destruct (side_value s T S r false (removelast ps) Ps PT PS (removelast pv) pw (RF _ Pp) ltac:(rewrite !RL; congruence) Fp ltac:(rewrite RL; exact Lpw)) as (pp & ep & A1 & A2 & A3).
  destruct (side_value s T S r true (removelast cs) Ps PT PS (removelast cv) cw (RF _ Pc) ltac:(rewrite !RL; congruence) Fc ltac:(rewrite RL; exact Lcw)) as (cp & ec & B1 & B2 & B3).
  exists pw, cw, (ep + ec - (s ^ 2 - 2 / T * (T * r - exp (T * r) * (S / ref) + 1 + ln (S / ref)))). split; [exact Wp|]. split; [exact Wc|]. split.
  - assert (TV := target_value ref T S r s PR PT PS Ps).
    apply (expectation_ext (fun z => (portfolio false pw (removelast ps) (asset false (S * exp (r * T)) (s * sqrt T) z) + portfolio true cw (removelast cs) (asset false (S * exp (r * T)) (s * sqrt T) z)) + -1 * target ref T (asset false (S * exp (r * T)) (s * sqrt T) z))).
    + intros z. cbv zeta. unfold portfolio. rewrite (combine_removelast pw ps Lpw), (combine_removelast cw cs Lcw). ring.
    + eapply expectation_plus; [eapply expectation_plus; [exact A2|exact B2|reflexivity]|eapply expectation_scal; [exact TV|reflexivity]|ring].
  - unfold fair_strike. rewrite Lpv, Lcv, !Nat.eqb_refl. cbn [andb negb]. rewrite Wp, Wc. unfold side_prices. rewrite A1, B1. cbv zeta. f_equal. rewrite <- A3, <- B3. rewrite (Rmult_comm T r). ring.
Qed.

(** A batch is taken as puts only when every row descends, so the weights of a
    descending row come out negated next to an ascending one. *)
Theorem C44_mixed_batch_refuted ps cs ref T : ordered false ps -> ordered true cs -> (2 <= length ps)%nat -> (2 <= length cs)%nat ->
  exists pw cw, replicating_weights [SwapRow ps ref T] false = Some [pw] /\ replicating_weights [SwapRow cs ref T] false = Some [cw]
    /\ replicating_weights [SwapRow ps ref T; SwapRow cs ref T] false = Some [map Ropp pw; cw].
Proof.
  intros Op Oc Lp Lc. do 2 eexists. split; [apply (weights_row false); [exact Op|discriminate]|]. split; [apply (weights_row true); [exact Oc|intros; exact Lc]|].
  unfold replicating_weights. cbn [flat_map row_strikes andb]. rewrite app_nil_r, forallb_app.
  destruct cs as [|k [|l cs]]; [cbn in Lc; lia|cbn in Lc; lia|]. rewrite (not_descending k l cs Oc), andb_false_r. cbn [map negb]. do 2 f_equal.
  rewrite !weights_bends, map_map. apply map_ext. intros w. ring.
Qed.

Example C44_ex : ordered true [100; 105; 110; 115] /\ ordered false [100; 95; 90; 85] /\ Forall (fun k => 0 < k) [100; 105; 110; 115] /\ Forall (fun k => 0 < k) [100; 95; 90; 85]
  /\ starts_at true 100 (nth 0 [100; 105; 110; 115] 0) /\ starts_at false 100 (nth 0 [100; 95; 90; 85] 0) /\ Forall (eq (1 / 5)) (removelast [1 / 5; 1 / 5; 1 / 5; 0]).
Proof.
  split; [cbn; lra|]. split; [cbn; lra|]. split; [repeat constructor; lra|]. split; [repeat constructor; lra|]. split; [cbn; lra|]. split; [cbn; lra|]. repeat constructor.
Qed.

Print Assumptions C44_weights.
Print Assumptions C44_replicates.
Print Assumptions C44_super_replicates.
Print Assumptions C44_fair_strike.
Print Assumptions C44_mixed_batch_refuted.
