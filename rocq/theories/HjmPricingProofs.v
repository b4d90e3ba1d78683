(** Lemmas on valuation by simulation in the quasi-Gaussian HJM model. *)
From Coquelicot Require Import Coquelicot.
From Coq Require Import ZArith Reals List Bool Arith Lia Lra.
From Verif Require Import TensorModel TensorProofs SegmentModel BrentModel ExtReal HaganWestModel BootstrapModel TimeGridModel TimeGridSpec TimeGridProofs PropsTimeGrid EulerModel EulerSpec PropsEuler MvNormalSpec MvNormalProofs PropsMvNormal GbmModel GbmProofs PropsMc
  ImpliedVolProofs HullWhiteBondSpec HullWhiteBondProofs PropsHullWhiteBond HjmModel HjmSpec HjmProofs HjmProofs2 PropsHjm HjmQuasiModel HjmQuasiSpec HjmQuasiProofs PropsHjmQuasi HwSwaptionModel HwSwaptionSpec PropsHwSwaption HjmPricingModel HjmPricingSpec.
Import ListNotations.
Open Scope R_scope.

(** ** Sums and means *)
Lemma mean_fin v n (g : nat -> R) : (0 < n)%nat -> (forall s, (s < n)%nat -> v s = Fin (g s)) -> sample_mean v n = Fin (mean_over n g).
Proof. intros N H. unfold sample_mean. rewrite (xsum_to v g n H). apply xdiv_f. apply not_0_INR. lia. Qed.
Lemma max_of_in l : l <> [] -> In (max_of l) l.
Proof.
  destruct l as [|a l]; [contradiction|]. intros _. unfold max_of. cbn [hd tl]. induction l as [|b l IH]; [left; reflexivity|]. cbn [fold_right]. unfold Rmax. destruct (Rle_dec b _); [destruct IH as [IH|IH]; [left; exact IH|right; right; exact IH]|right; left; reflexivity].
Qed.
Lemma max_of_ge l x : In x l -> x <= max_of l.
Proof.
  destruct l as [|a l]; [intros []|]. unfold max_of. cbn [hd tl]. intros H.
  induction l as [|b l IH]; [destruct H as [->|[]]; cbn; lra|]. cbn [fold_right]. destruct H as [->|[->|H]]; [|apply Rmax_l|]; (eapply Rle_trans; [|apply Rmax_r]; apply IH; [left; reflexivity|right; assumption] || (eapply Rle_trans; [apply IH; (left; reflexivity) || (right; exact H)|apply Rmax_r])).
Qed.
Lemma util_discount_at sim (r : nat -> R) i : (i < length sim)%nat ->
  nth i (util_discount sim r) NaN = Fin (exp (- sum_to i (fun j => r (S j) * (nth (S j) sim 0 - nth j sim 0)))).
Proof.
  intros Hi. unfold util_discount. set (F := fun j => exp (- r j * time_step_at sim j)).
  assert (EM : map (fun j => Fin (F j)) (seq 0 (length sim)) = map Fin (map F (seq 0 (length sim)))) by (rewrite map_map; reflexivity).
  change (map (fun j => Fin (exp (- r j * time_step_at sim j))) (seq 0 (length sim))) with (map (fun j => Fin (F j)) (seq 0 (length sim))).
  rewrite EM, C61_cumprod; [|apply Forall_forall; intros v V; apply in_map_iff in V; destruct V as (j & <- & _); apply exp_pos|rewrite map_length, seq_length; exact Hi]. f_equal.
  assert (EP : forall n, (n <= length sim)%nat -> prod_to n (fun j => nth j (map F (seq 0 (length sim))) 0) = prod_to n F).
  { induction n as [|n IH]; intros Hn; [reflexivity|]. cbn [prod_to]. rewrite IH by lia. f_equal. rewrite (nth_indep _ 0 (F 0%nat)) by (rewrite map_length, seq_length; lia). rewrite map_nth, seq_nth by lia. reflexivity. }
  rewrite EP by lia. unfold F. rewrite prod_exp. f_equal. rewrite sum_to_first. cbn [time_step_at]. replace (- r 0%nat * 0) with 0 by ring. rewrite Rplus_0_l. rewrite <- sums_opp. apply sums_ext. intros j _. cbn [time_step_at]. unfold at_. ring.
Qed.

(** ** Repeated times *)
Lemma prepare_same times times' step tol grid mask idx : 0 <= tol < 1 -> times <> [] -> times' <> [] -> (forall x, In x times <-> In x times') -> last times 0 = last times' 0 ->
  prepare_grid times' step tol None None = Some (grid, mask, idx) ->
  exists mask1 idx1, prepare_grid times step tol None None = Some (grid, mask1, idx1) /\ length idx1 = length times /\
    forall k k', (k < length times)%nat -> (k' < length times')%nat -> nth k times 0 = nth k' times' 0 -> nth k idx1 0%nat = nth k' idx 0%nat.
Proof.
  intros TT N N' IN LA E. unfold prepare_grid, grid_from_time_step in *.
  destruct times as [|a l]; [contradiction|]. destruct times' as [|a' l']; [contradiction|]. set (T := a :: l) in *. set (T' := a' :: l') in *. rewrite LA. destruct (range_from_0 (last T' 0) step) as [r|]; [|discriminate].
  assert (EG : dedup tol (sort (T ++ r)) = dedup tol (sort (T' ++ r))).
  { apply increasing_same; [apply dedup_increasing, TT|apply dedup_increasing, TT|]. intros x. assert (NN : T ++ r <> []) by discriminate. assert (NN' : T' ++ r <> []) by discriminate. rewrite (dedup_in tol _ TT NN), (dedup_in tol _ TT NN').
    assert (IA : forall z, In z (T ++ r) <-> In z (T' ++ r)) by (intros z; rewrite !in_app_iff, IN; reflexivity). rewrite IA. split; intros (P & Q); (split; [exact P|]); intros z Z; apply Q, IA, Z. }
  rewrite EG. set (D := dedup tol (sort (T' ++ r))) in *. destruct (all_some (map (step_index tol D) T')) as [i'|] eqn:EI; [|discriminate]. destruct (scatter_mask i' (length D)) as [m'|] eqn:EM; [|discriminate]. injection E as <- <- <-.
  assert (AS : forall ts js, all_some (map (step_index tol D) ts) = Some js -> map (step_index tol D) ts = map Some js).
  { induction ts as [|t ts IH]; intros js H; [assert (J : js = []) by (cbn in H; congruence); rewrite J; reflexivity|]. cbn [map all_some] in H. destruct (step_index tol D t) as [j|] eqn:EJ; [|discriminate]. destruct (all_some (map (step_index tol D) ts)) as [js0|] eqn:EA; [|discriminate]. assert (J : js = j :: js0) by congruence. rewrite J. cbn [map]. rewrite EJ, (IH js0 eq_refl). reflexivity. }
  apply AS in EI. assert (LI : length i' = length T') by (apply (f_equal (@length (option nat))) in EI; rewrite !map_length in EI; symmetry; exact EI).
  assert (AT : forall k', (k' < length T')%nat -> step_index tol D (nth k' T' 0) = Some (nth k' i' 0%nat)).
  { intros k' Hk. apply (f_equal (fun z => nth k' z None)) in EI. rewrite (nth_indep _ None (step_index tol D 0)) in EI by (rewrite map_length; exact Hk). rewrite map_nth in EI. rewrite (nth_indep _ None (Some 0%nat)) in EI by (rewrite map_length; lia). rewrite (map_nth (@Some nat)) in EI. exact EI. }
  set (js := map (fun t => match step_index tol D t with Some j => j | None => 0%nat end) T).
  assert (EJ : map (step_index tol D) T = map Some js).
  { unfold js. rewrite map_map. apply map_ext_in. intros t Ht. apply IN in Ht. apply (In_nth _ _ 0) in Ht. destruct Ht as (k' & Hk & <-). rewrite AT by exact Hk. reflexivity. }
  rewrite EJ, all_some_some. assert (RG : forall j, In j js -> (j < length D)%nat).
  { intros j J. unfold js in J. apply in_map_iff in J. destruct J as (t & <- & Ht). apply IN in Ht. apply (In_nth _ _ 0) in Ht. destruct Ht as (k' & Hk & <-). rewrite AT by exact Hk. unfold scatter_mask in EM. destruct (forallb _ i') eqn:EF; [|discriminate]. rewrite forallb_forall in EF. apply Nat.ltb_lt, EF. apply nth_In. lia. }
  destruct (scatter_marks js (length D) RG) as (m & EM' & _). exists m, js. rewrite EM'. split; [reflexivity|]. split; [unfold js; apply map_length|].
  intros k k' Hk Hk' Q. unfold js. rewrite (nth_indep _ 0%nat ((fun t => match step_index tol D t with Some j => j | None => 0%nat end) 0)) by (rewrite map_length; exact Hk). rewrite (map_nth (fun t => match step_index tol D t with Some j => j | None => 0%nat end)). rewrite Q, AT by exact Hk'. reflexivity.
Qed.
(** Simulation at repeated times. *)
Lemma paths_repeated h unwritten times times' step tol draws : times <> [] -> times' <> [] -> (forall x, In x times <-> In x times') -> last times 0 = last times' 0 ->
  gaps_above (2 * tol) times' -> 0 <= nth 0 times' 0 -> 2 * tol < step -> 0 < step -> 0 <= tol < 1 ->
  exists grid idx o X Y, q_sample_paths h unwritten times (Some step) None tol draws = Some o /\
    nth 0 grid 0 = 0 /\ gaps_above tol grid /\ gaps_at_most (step + tol) grid /\
    (forall s, follows h (fun n => nth n grid 0) (fun n => draws n s) (X s) (Y s)) /\
    forall k, (k < length times)%nat -> let i := nth k idx 0%nat in (i < length grid)%nat /\ 0 <= nth k times 0 - nth i grid 0 <= tol /\ q_outputs_ok h (fun n => nth n grid 0) X Y o k i.
Proof.
  intros TN TN' IN LA TG T0 S2 S0 TT. assert (TI : increasing times') by (apply (gaps_increasing (2 * tol)); [lra|exact TG]).
  destruct (C45_time_step times' step tol TN' TI T0 S0 TT) as (grid & mask & idx' & E' & G0 & GA & GI & LI' & LN & MK). destruct (C45_time_step_close times' step tol grid mask idx' TN' TG T0 S2 S0 TT E') as (CL & _ & GM & _ & _).
  destruct (prepare_same times times' step tol grid mask idx' TT TN TN' IN LA E') as (mask1 & idx & E & LI & SM).
  set (Z := end_path (quasi_process h) (fun n => nth n grid 0) draws (fun _ _ => 0)).
  exists grid, idx. eexists. exists (fun s n => xs (Z n s)), (fun s n => ys h (Z n s)). split; [|split; [exact G0|split; [exact GA|split; [exact GM|split; [intros s; apply quasi_path|]]]]].
  - unfold q_sample_paths. destruct times as [|t0 tl]; [contradiction|]. cbv zeta. rewrite E. rewrite (euler_all (quasi_process h) times' step tol draws (fun _ _ => 0) grid mask idx' TN' TG T0 S2 S0 TT E'). fold Z. rewrite written_all. reflexivity.
  - intros k Hk. cbv zeta. assert (Q : In (nth k times 0) times') by (apply IN, nth_In, Hk). apply (In_nth _ _ 0) in Q. destruct Q as (k' & Hk' & Q). rewrite (SM k k' Hk Hk' (eq_sym Q)), <- Q. assert (Hi : (nth k' idx' 0 < length grid)%nat) by (apply (LN k' Hk')). split; [exact Hi|]. split; [apply CL, Hk'|].
    rewrite <- (SM k k' Hk Hk' (eq_sym Q)). apply q_outputs_read; [rewrite LI; exact Hk|rewrite (SM k k' Hk Hk' (eq_sym Q)); exact Hi].
Qed.

(** ** Caplets *)
Lemma caplet_identity cap delta K P : 0 < delta -> 0 < 1 + delta * K -> 0 < P ->
  (1 + delta * K) * option_payoff (negb cap) (1 / (1 + delta * K)) P = caplet_value cap delta K P.
Proof.
  intros D G P0. unfold option_payoff, caplet_value, simple_rate. set (g := 1 + delta * K) in *.
  assert (SC : forall c a, 0 < c -> c * Rmax a 0 = Rmax (c * a) 0) by (intros c a C; rewrite <- (RmaxRmult a 0 c) by lra; rewrite Rmult_0_r; reflexivity).
  destruct cap; cbn [negb]; rewrite <- Rmult_assoc, !SC by (try apply Rmult_lt_0_compat; assumption); f_equal; unfold g; field; repeat split; fold g; lra.
Qed.
