(** Steps and paths of the Cox-Ingersoll-Ross model. *)
From Coquelicot Require Import Coquelicot.
From Coq Require Import Reals List Lia Lra Psatz Bool ZArith.
From Verif Require Import BrentModel BrentProofs RandomProg CirModel CirSpec CirProofs.
Import ListNotations.
Open Scope R_scope.

(** ** Programs *)
Fixpoint always {K A} (P : A -> Prop) (p : prog K A) : Prop :=
  match p with
  | Ret a => P a
  | Poisson _ _ next => forall n, always P (next n)
  | Gamma _ _ _ next => forall g, 0 < g -> always P (next g)
  end.
Lemma expects_bind {K A B} (P : A -> Prop) (p : prog K A) (f : A -> prog K B) (g : B -> R) (h : A -> R) :
  always P p -> (forall a, P a -> expects (f a) g (h a)) -> forall m, expects p h m -> expects (bind p f) g m.
Proof.
  intros AL F. induction p as [a|key rate next IH|key shape rate next IH]; intros m E; cbn [bind expects always] in *.
  - subst m. apply F, AL.
  - destruct E as [R0 [G [HG HM]]]. split; [exact R0|]. exists G. split; [|exact HM]. intros n. apply IH; auto.
  - destruct E as [S0 [R0 [G [HG HM]]]]. split; [exact S0|split; [exact R0|]]. exists G. split; [|exact HM]. intros n N. apply IH; auto.
Qed.
Lemma always_bind {K A B} (P : A -> Prop) (Q : B -> Prop) (p : prog K A) (f : A -> prog K B) :
  always P p -> (forall a, P a -> always Q (f a)) -> always Q (bind p f).
Proof.
  intros AL F. induction p as [a|key rate next IH|key shape rate next IH]; cbn [bind always] in *; auto.
Qed.
Lemma expects_unique {K A} (p : prog K A) f m m' : expects p f m -> expects p f m' -> m = m'.
Proof.
  revert m m'. induction p as [a|key rate next IH|key shape rate next IH]; cbn [expects]; intros m m'.
  - congruence.
  - intros [_ [F [HF HM]]] [_ [F' [HF' HM']]]. apply (poisson_unique rate F); [exact HM|]. apply (poisson_ext rate F'); [|exact HM']. intros n. apply (IH n); auto.
  - intros [_ [_ [F [HF HM]]]] [_ [_ [F' [HF' HM']]]]. apply (gamma_mean_unique shape rate F); [exact HM|]. apply (gamma_mean_ext shape rate F'); [|exact HM']. intros n N. apply (IH n); auto.
Qed.
Lemma run_bind {K A B} dp dg (p : prog K A) (f : A -> prog K B) : run dp dg (bind p f) = run dp dg (f (run dp dg p)).
Proof. induction p as [a|key rate next IH|key shape rate next IH]; cbn [bind run]; auto. Qed.
Lemma keys_bind {K A B} dp dg (p : prog K A) (f : A -> prog K B) : keys dp dg (bind p f) = keys dp dg p ++ keys dp dg (f (run dp dg p)).
Proof. induction p as [a|key rate next IH|key shape rate next IH]; cbn [bind run keys app]; try rewrite IH; auto. Qed.

(** ** The integral of the decay *)
Lemma decay_pos k t : 0 < t -> 0 < integral_decay k t.
Proof.
  intros T. unfold integral_decay. destruct (Req_EM_T k 0) as [_|K]; [exact T|].
  destruct (Rlt_le_dec 0 k) as [P|N].
  - apply Rdiv_lt_0_compat; [|exact P]. assert (exp (- k * t) < exp 0); [apply exp_increasing; nra|]. rewrite exp_0 in *. lra.
  - assert (K' : k < 0) by lra. replace ((1 - exp (- k * t)) / k) with ((exp (- k * t) - 1) / - k) by (field; exact K).
    apply Rdiv_lt_0_compat; [|lra]. assert (exp 0 < exp (- k * t)); [apply exp_increasing; nra|]. rewrite exp_0 in *. lra.
Qed.
Lemma decay_0 k : integral_decay k 0 = 0.
Proof. unfold integral_decay. destruct (Req_EM_T k 0) as [_|K]; [reflexivity|]. rewrite Rmult_0_r, exp_0. field. exact K. Qed.
Lemma decay_add k s t : integral_decay k (s + t) = integral_decay k t + exp (- k * t) * integral_decay k s.
Proof.
  unfold integral_decay. destruct (Req_EM_T k 0) as [->|K]; [rewrite Ropp_0, Rmult_0_l, exp_0; ring|].
  rewrite Rmult_plus_distr_l, exp_plus. field. exact K.
Qed.
Lemma decay_exp k t : exp (- k * t) = 1 - k * integral_decay k t.
Proof. unfold integral_decay. destruct (Req_EM_T k 0) as [->|K]; [rewrite Ropp_0, Rmult_0_l, exp_0; ring|field; exact K]. Qed.
Lemma decay_derive k t : is_derive (integral_decay k) t (exp (- k * t)).
Proof.
  unfold integral_decay. destruct (Req_EM_T k 0) as [->|K].
  - rewrite Ropp_0, Rmult_0_l, exp_0. apply (is_derive_id (K := R_AbsRing)).
  - auto_derive; [exact Logic.I|]. field. exact K.
Qed.
Lemma zeta_eq k dt : cir_zeta k dt = integral_decay k dt.
Proof. reflexivity. Qed.

(** ** One step *)
Section Step.
Variables (a k sigma : R).
Hypotheses (A0 : 0 < a) (S0 : sigma <> 0).
Let h := sigma ^ 2 / 2.
Let nu := 2 * a / sigma ^ 2.
Let H0 : 0 < h. Proof. unfold h. assert (0 < sigma ^ 2) by (apply pow2_gt_0; exact S0). lra. Qed.
Let N0 : 0 < nu. Proof. unfold nu. apply Rdiv_lt_0_compat; [lra|apply pow2_gt_0; exact S0]. Qed.
Lemma c_pos dt : 0 < dt -> cir_c k sigma dt = 2 / (h * integral_decay k dt) /\ 0 < cir_c k sigma dt.
Proof.
  intros T. assert (D := decay_pos k dt T). unfold cir_c, divide_no_nan. rewrite zeta_eq. assert (P : 0 < sigma ^ 2) by (apply pow2_gt_0; exact S0).
  destruct (Req_EM_T (sigma ^ 2 * integral_decay k dt) 0) as [E|_]; [exfalso; assert (0 < sigma ^ 2 * integral_decay k dt) by (apply Rmult_lt_0_compat; assumption); lra|].
  assert (E : 4 / (sigma ^ 2 * integral_decay k dt) = 2 / (h * integral_decay k dt)) by (unfold h; field; split; [lra|exact S0]).
  split; [exact E|]. apply Rdiv_lt_0_compat; [lra|apply Rmult_lt_0_compat; assumption].
Qed.
Lemma c_zero : cir_c k sigma 0 = 0.
Proof. unfold cir_c, divide_no_nan. rewrite zeta_eq, decay_0, Rmult_0_r. destruct (Req_EM_T 0 0); [reflexivity|lra]. Qed.
(** the step for a positive and a zero increment *)
Lemma step_zero pk gk x : cir_step a k sigma pk gk 0 x = Ret x.
Proof. unfold cir_step. rewrite c_zero. replace (rlt 0 0) with false; [reflexivity|]. symmetry. apply rlt_false. lra. Qed.
Lemma step_pos pk gk dt x : 0 < dt -> exists beta, beta = / (h * integral_decay k dt) /\ 0 < beta /\
  cir_step a k sigma pk gk dt x = Poisson pk (beta * exp (- k * dt) * x) (fun n => Gamma gk (INR n + nu) beta (fun g => Ret g)).
Proof.
  intros T. destruct (c_pos dt T) as [CE CP]. assert (D := decay_pos k dt T). exists (/ (h * integral_decay k dt)). split; [reflexivity|].
  assert (B : cir_c k sigma dt / 2 = / (h * integral_decay k dt)) by (rewrite CE; field; split; [apply Rgt_not_eq; exact D|lra]).
  split; [rewrite <- B; lra|]. unfold cir_step. replace (rlt 0 (cir_c k sigma dt)) with true by (symmetry; apply rlt_true; exact CP). rewrite <- B.
  replace (cir_c k sigma dt * exp (- k * dt) * x / 2) with (cir_c k sigma dt / 2 * exp (- k * dt) * x) by field. reflexivity.
Qed.
Lemma step_always pk gk dt x : 0 <= dt -> 0 <= x -> always (fun y => 0 <= y) (cir_step a k sigma pk gk dt x).
Proof.
  intros T X. destruct (Rle_lt_or_eq_dec 0 dt T) as [L| <-]; [|rewrite step_zero; exact X].
  destruct (step_pos pk gk dt x L) as [b [_ [_ ->]]]. cbn [always]. intros n g G. lra.
Qed.
(** any step *)
Lemma step_expects pk gk dt x f F m : 0 <= dt -> 0 <= x ->
  (dt = 0 -> m = f x) ->
  (0 < dt -> let b := / (h * integral_decay k dt) in 0 < b -> (forall n : nat, gamma_mean (INR n + nu) b f (F n)) /\ poisson_mean (b * exp (- k * dt) * x) F m) ->
  expects (cir_step a k sigma pk gk dt x) f m.
Proof.
  intros T X Z P. destruct (Rle_lt_or_eq_dec 0 dt T) as [L| <-]; [|rewrite step_zero; cbn; auto].
  destruct (step_pos pk gk dt x L) as [b [E [B ->]]]. cbv zeta in P. rewrite <- E in P. destruct (P L B) as [PG PP]. cbn [expects]. split.
  - apply Rmult_le_pos; [|exact X]. apply Rmult_le_pos; [lra|apply Rlt_le, exp_pos].
  - exists F. split; [|exact PP]. intros n. assert (NN := pos_INR n). split; [lra|]. split; [exact B|]. exists f. split; [intros g _; reflexivity|apply PG].
Qed.
Lemma step_const pk gk dt x c : 0 <= dt -> 0 <= x -> expects (cir_step a k sigma pk gk dt x) (fun _ => c) c.
Proof.
  intros T X. apply (step_expects pk gk dt x (fun _ => c) (fun _ => c)); auto. intros L. cbv zeta. intros B. split.
  - intros n. assert (NN := pos_INR n). apply gamma_mean_const; [lra|exact B].
  - assert (Q := poisson_exp (/ (h * integral_decay k dt) * exp (- k * dt) * x) 1 c). rewrite Rminus_diag_eq, Rmult_0_r, Ropp_0, exp_0, Rmult_1_r in Q by reflexivity.
    eapply poisson_ext; [|exact Q]. intros n. cbv beta. rewrite pow1. ring.
Qed.
Lemma denom_pos t u : 0 <= t -> 0 <= u -> 0 < 1 + u * (h * integral_decay k t).
Proof.
  intros T U. assert (0 <= integral_decay k t) by (destruct (Rle_lt_or_eq_dec 0 t T) as [L| <-]; [apply Rlt_le, decay_pos, L|rewrite decay_0; lra]).
  assert (0 <= u * (h * integral_decay k t)) by (apply Rmult_le_pos; [exact U|apply Rmult_le_pos; lra]). lra.
Qed.
Lemma B_nonneg t u : 0 <= t -> 0 <= u -> 0 <= cir_B k sigma t u.
Proof.
  intros T U. unfold cir_B. fold h. apply Rmult_le_pos; [apply Rmult_le_pos; [exact U|apply Rlt_le, exp_pos]|]. apply Rlt_le, Rinv_0_lt_compat, denom_pos; assumption.
Qed.
Lemma A_zero u : cir_A a k sigma 0 u = 1.
Proof. unfold cir_A. rewrite decay_0, !Rmult_0_r, Rplus_0_r. unfold Rpower. rewrite ln_1, Rmult_0_r. apply exp_0. Qed.
Lemma B_zero u : cir_B k sigma 0 u = u.
Proof. unfold cir_B. rewrite decay_0, !Rmult_0_r, Rplus_0_r, exp_0. field. Qed.
Lemma step_laplace pk gk dt x c u : 0 <= dt -> 0 <= x -> 0 <= u ->
  expects (cir_step a k sigma pk gk dt x) (fun y => c * exp (- (u * y))) (c * cir_A a k sigma dt u * exp (- (cir_B k sigma dt u * x))).
Proof.
  intros T X U. set (D := integral_decay k dt). set (b := / (h * D)).
  apply (step_expects pk gk dt x _ (fun n => c * Rpower (1 + u / b) (- (INR n + nu)))); auto.
  - intros ->. rewrite A_zero, B_zero. ring.
  - intros L. fold D b. cbv zeta. intros B. assert (DP : 0 < D) by (apply decay_pos, L). split.
    + intros n. assert (NN := pos_INR n). apply gamma_mean_exp; [lra|exact B|exact U].
    + assert (UB : u / b = u * (h * D)) by (unfold b; field; split; lra). rewrite UB.
      assert (P := denom_pos dt u T U). fold D in P. set (w := 1 + u * (h * D)) in *.
      assert (Q := poisson_exp (b * exp (- k * dt) * x) (/ w) (c * Rpower w (- nu))).
      replace (c * cir_A a k sigma dt u * exp (- (cir_B k sigma dt u * x))) with (c * Rpower w (- nu) * exp (- (b * exp (- k * dt) * x * (1 - / w)))).
      * eapply poisson_ext; [|exact Q]. intros n. cbv beta. replace (- (INR n + nu)) with (- nu + - INR n) by ring. rewrite Rpower_plus, (Rpower_Ropp w (INR n)), Rpower_pow by exact P. rewrite pow_inv. ring.
      * unfold cir_A, cir_B. fold h nu D w. f_equal. f_equal. f_equal. unfold w, b. field. fold w. repeat split; lra.
Qed.
(** polynomials of degree at most two *)
Lemma gamma_linear s b f g mf mg p q : gamma_mean s b f mf -> gamma_mean s b g mg -> gamma_mean s b (fun x => p * f x + q * g x) (p * mf + q * mg).
Proof.
  intros [M [M0 [H1 H2]]] [M' [M0' [H1' H2']]]. assert (E := gamma_integral_unique _ _ _ _ _ H1 H1'). subst M'.
  exists M. split; [exact M0|split; [exact H1|]]. assert (Q1 := gamma_scal _ _ _ _ p H2). assert (Q2 := gamma_scal _ _ _ _ q H2').
  unfold gamma_integral in *. assert (Q := is_RInt_gen_plus (V := R_NormedModule) _ _ _ _ Q1 Q2).
  replace ((p * mf + q * mg) * M) with (plus (p * (mf * M)) (q * (mg * M))) by (unfold plus; cbn; ring).
  eapply gen_pos_ext; [|exact Q]. intros x _. unfold plus. cbn. ring.
Qed.
Definition qmean (q2 q1 q0 : R) (t x : R) : R :=
  let e := exp (- k * t) in let z := integral_decay k t in
  q2 * (e ^ 2 * x ^ 2 + (2 * a + sigma ^ 2) * z * e * x + z ^ 2 * a * (a + sigma ^ 2 / 2)) + q1 * (e * x + a * z) + q0.
Lemma step_quadratic pk gk dt x q2 q1 q0 : 0 <= dt -> 0 <= x ->
  expects (cir_step a k sigma pk gk dt x) (fun y => q2 * y ^ 2 + q1 * y + q0) (qmean q2 q1 q0 dt x).
Proof.
  intros T X. set (D := integral_decay k dt). set (b := / (h * D)).
  apply (step_expects pk gk dt x _ (fun n => q2 / b ^ 2 * ((INR n + nu) * (INR n + nu + 1)) + q1 / b * (INR n + nu) + q0)); auto.
  - intros ->. unfold qmean. rewrite decay_0, Rmult_0_r, exp_0. ring.
  - intros L. fold D b. cbv zeta. intros B. assert (DP : 0 < D) by (apply decay_pos, L). split.
    + intros n. assert (NN := pos_INR n). assert (SP : 0 < INR n + nu) by lra. destruct (gamma_moments (INR n + nu) b SP B) as [M1 M2].
      assert (M0 := gamma_mean_const (INR n + nu) b 1 SP B).
      assert (Q := gamma_linear _ _ _ _ _ _ 1 q0 (gamma_linear _ _ _ _ _ _ q2 q1 M2 M1) M0). cbv beta in Q.
      match type of Q with gamma_mean _ _ _ ?m => replace (q2 / b ^ 2 * ((INR n + nu) * (INR n + nu + 1)) + q1 / b * (INR n + nu) + q0) with m by (field; lra) end.
      eapply gamma_mean_ext; [|exact Q]. intros y _. cbv beta. ring.
    + set (lam := b * exp (- k * dt) * x). destruct (poisson_moments lam nu) as [P1 P2]. unfold poisson_mean in *.
      assert (P0 := poisson_one lam).
      assert (Q := is_series_plus _ _ _ _ (is_series_plus _ _ _ _ (is_series_scal (q2 / b ^ 2) _ _ P2) (is_series_scal (q1 / b) _ _ P1)) (is_series_scal q0 _ _ P0)).
      match type of Q with is_series _ ?m => replace (qmean q2 q1 q0 dt x) with m end.
      * eapply ser_ext; [|exact Q]. intros n. unfold plus, scal. cbn -[INR]. unfold mult. cbn -[INR]. ring.
      * unfold plus, scal. cbn -[INR]. unfold mult. cbn -[INR]. unfold qmean, lam. fold D. unfold b, nu, h. field. split; [exact S0|lra].
Qed.
End Step.

(** ** Paths *)
Lemma increments_length times : forall p, length (increments p times) = length times.
Proof. induction times as [|t r IH]; intros p; cbn; auto. Qed.
Lemma increments_nth times : forall p i, (i < length times)%nat -> nth i (increments p times) 0 = nth i times 0 - nth i (p :: times) 0.
Proof.
  induction times as [|t r IH]; intros p i L; [cbn in L; lia|]. destruct i as [|i]; [reflexivity|]. cbn [length] in L.
  change (nth (S i) (increments p (t :: r)) 0) with (nth i (increments t r) 0). rewrite IH by lia. reflexivity.
Qed.
Lemma times_mono times : ordered_times times -> forall i j, (i <= j)%nat -> (j < length times)%nat -> nth i times 0 <= nth j times 0.
Proof.
  intros O i j IJ. induction IJ as [|j IJ IH]; intros L; [lra|]. apply Rle_trans with (nth j times 0); [apply IH; lia|]. exact (O (S j) L).
Qed.
Section Path.
Variables (a k sigma : R) (pkeys gkeys : nat -> draw_key) (times : list R).
Hypotheses (A0 : 0 < a) (S0 : sigma <> 0) (OT : ordered_times times).
Let dts := increments 0 times.
Let LD : length dts = length times. Proof. apply increments_length. Qed.
Let loop := cir_loop a k sigma pkeys gkeys dts.
Lemma dt_nonneg i : (i < length times)%nat -> 0 <= nth i dts 0.
Proof. intros L. unfold dts. rewrite increments_nth by exact L. specialize (OT i L). lra. Qed.
Lemma loop_step fuel i x samples : (i < length times)%nat ->
  loop (S fuel) i x samples = bind (cir_step a k sigma (pkeys i) (gkeys i) (nth i dts 0) x) (fun x' => loop fuel (S i) x' (samples ++ [x'])).
Proof. intros L. unfold loop at 1. cbn [cir_loop]. rewrite LD. replace (i <? length times)%nat with true by (symmetry; apply Nat.ltb_lt; exact L). reflexivity. Qed.
Lemma loop_at (f : R -> R) (P : R -> R -> R) :
  (forall x, 0 <= x -> P 0 x = f x) ->
  (forall pk gk D s x, 0 <= D -> 0 <= s -> 0 <= x -> expects (cir_step a k sigma pk gk D x) (P s) (P (D + s) x)) ->
  forall j, (j < length times)%nat -> forall fuel i x samples, (i + fuel = length times)%nat -> length samples = i -> 0 <= x ->
  expects (loop fuel i x samples) (fun l => f (nth j l 0)) (if (j <? i)%nat then f (nth j samples 0) else P (nth j times 0 - nth i (0 :: times) 0) x).
Proof.
  intros Z ST j J. induction fuel as [|fuel IH]; intros i x samples IF LS X.
  - cbn [loop cir_loop expects]. replace (j <? i)%nat with true by (symmetry; apply Nat.ltb_lt; lia). reflexivity.
  - assert (IL : (i < length times)%nat) by lia. rewrite loop_step by exact IL.
    assert (D := dt_nonneg i IL). set (F := fun x' => if (j <? S i)%nat then f (nth j (samples ++ [x']) 0) else P (nth j times 0 - nth (S i) (0 :: times) 0) x').
    apply (expects_bind (fun y => 0 <= y) _ _ _ F).
    + apply step_always; assumption.
    + intros x' X'. unfold F. apply IH; [lia|rewrite app_length, LS; cbn; lia|exact X'].
    + clear IH. unfold F. cbn [nth]. unfold dts. rewrite increments_nth by exact IL. unfold dts in D. rewrite increments_nth in D by exact IL.
      set (D' := nth i times 0 - nth i (0 :: times) 0) in *.
      destruct (j <? i)%nat eqn:JI; [|destruct (j <? S i)%nat eqn:JS].
      * apply Nat.ltb_lt in JI. replace (j <? S i)%nat with true by (symmetry; apply Nat.ltb_lt; lia).
        assert (Q := step_const a k sigma A0 S0 (pkeys i) (gkeys i) D' x (f (nth j samples 0)) D X).
        replace (fun x' => f (nth j (samples ++ [x']) 0)) with (fun _ : R => f (nth j samples 0)); [exact Q|].
        apply FunctionalExtensionality.functional_extensionality. intros y. rewrite app_nth1 by lia. reflexivity.
      * apply Nat.ltb_ge in JI. apply Nat.ltb_lt in JS. assert (j = i) by lia. subst j.
        assert (Q := ST (pkeys i) (gkeys i) D' 0 x D (Rle_refl 0) X). rewrite Rplus_0_r in Q. fold D'.
        assert (EB := expects_bind (fun y => 0 <= y) (cir_step a k sigma (pkeys i) (gkeys i) D' x) (fun y => Ret y) (fun x' => f (nth i (samples ++ [x']) 0)) (P 0)).
        assert (BR : forall (p : prog draw_key R), bind p (fun y => Ret y) = p).
        { induction p as [y|ky r nx IHp|ky s r nx IHp]; cbn [bind]; [reflexivity| |]; f_equal; apply FunctionalExtensionality.functional_extensionality; exact IHp. }
        rewrite BR in EB. apply EB; [apply step_always; assumption| |exact Q].
        intros y Y. cbn [expects]. rewrite app_nth2, LS, Nat.sub_diag by lia. cbn [nth]. apply Z, Y.
      * apply Nat.ltb_ge in JS. assert (M : 0 <= nth j times 0 - nth i times 0) by (assert (T := times_mono times OT i j ltac:(lia) J); lra).
        assert (Q := ST (pkeys i) (gkeys i) D' _ x D M X). replace (D' + (nth j times 0 - nth i times 0)) with (nth j times 0 - nth i (0 :: times) 0) in Q by (unfold D'; ring). exact Q.
Qed.
Lemma loop_always : forall fuel i x samples, (i + fuel = length times)%nat -> length samples = i -> 0 <= x -> Forall (fun y => 0 <= y) samples ->
  always (fun l => length l = length times /\ Forall (fun y => 0 <= y) l) (loop fuel i x samples).
Proof.
  induction fuel as [|fuel IH]; intros i x samples IF LS X F.
  - cbn [loop cir_loop always]. split; [lia|exact F].
  - assert (IL : (i < length times)%nat) by lia. rewrite loop_step by exact IL. apply (always_bind (fun y => 0 <= y)).
    + apply step_always; [exact S0|apply dt_nonneg, IL|exact X].
    + intros y Y. apply IH; [lia|rewrite app_length, LS; cbn; lia|exact Y|]. apply Forall_app. split; [exact F|constructor; [exact Y|constructor]].
Qed.
(** joint Laplace transform *)
Lemma dot_app us : forall xs ys, dot us (xs ++ ys) = dot us xs + dot (skipn (length xs) us) ys.
Proof.
  induction us as [|u us IH]; intros xs ys; [rewrite skipn_nil; destruct xs; cbn; ring|]. destruct xs as [|x xs]; [cbn [app length skipn]; cbn; ring|]. cbn [app dot length skipn]. rewrite IH. ring.
Qed.
Lemma skipn_cons (l : list R) i : (i < length l)%nat -> skipn i l = nth i l 0 :: skipn (S i) l.
Proof. revert i. induction l as [|y l IH]; intros i L; [cbn in L; lia|]. destruct i as [|i]; [reflexivity|]. cbn [length] in L. cbn [skipn nth]. rewrite IH by lia. reflexivity. Qed.
Lemma joint_nonneg : forall ts us t0, (forall i, (i < length ts)%nat -> nth i (t0 :: ts) 0 <= nth i ts 0) -> Forall (fun u => 0 <= u) us -> 0 <= snd (joint_transform a k sigma t0 ts us).
Proof.
  induction ts as [|t ts IH]; intros us t0 O U; [cbn; lra|]. destruct us as [|u us]; [cbn; lra|]. cbn [joint_transform snd]. inversion U; subst.
  assert (T := O 0%nat ltac:(cbn; lia)). cbn in T. apply B_nonneg; [exact S0|lra|].
  assert (0 <= snd (joint_transform a k sigma t ts us)); [|lra]. apply IH; [|assumption]. intros i L. exact (O (S i) ltac:(cbn; lia)).
Qed.
Lemma loop_joint us : length us = length times -> Forall (fun u => 0 <= u) us -> forall fuel i x samples, (i + fuel = length times)%nat -> length samples = i -> 0 <= x ->
  expects (loop fuel i x samples) (fun l => exp (- dot us l))
    (let J := joint_transform a k sigma (nth i (0 :: times) 0) (skipn i times) (skipn i us) in exp (- dot us samples) * (fst J * exp (- (snd J * x)))).
Proof.
  intros LU NU. induction fuel as [|fuel IH]; intros i x samples IF LS X.
  - cbn [loop cir_loop expects]. rewrite !skipn_all2 by lia. cbn. rewrite Rmult_0_l, Ropp_0, exp_0. ring.
  - assert (IL : (i < length times)%nat) by lia. rewrite loop_step by exact IL. assert (D := dt_nonneg i IL).
    set (J' := joint_transform a k sigma (nth i times 0) (skipn (S i) times) (skipn (S i) us)).
    assert (UI : 0 <= nth i us 0). { assert (NF := proj1 (Forall_nth _ us) NU i 0 ltac:(lia)). exact NF. }
    assert (JN : 0 <= snd J').
    { apply joint_nonneg.
      - intros q Q. rewrite skipn_length in Q. assert (SN : forall p, nth p (skipn (S i) times) 0 = nth (S i + p) times 0) by (intros p; rewrite <- (firstn_skipn (S i) times) at 2; rewrite app_nth2; rewrite firstn_length_le by lia; [f_equal; lia|lia]).
        rewrite SN. destruct q as [|q]; [cbn [nth]; rewrite Nat.add_0_r; exact (OT (S i) ltac:(lia))|]. cbn [nth]. rewrite SN. replace (S i + S q)%nat with (S (S i + q)) by lia. exact (OT (S (S i + q)) ltac:(lia)).
      - apply Forall_forall. intros u IU. rewrite Forall_forall in NU. apply NU. rewrite <- (firstn_skipn (S i) us). apply in_or_app. right. exact IU. }
    apply (expects_bind (fun y => 0 <= y) _ _ _ (fun x' => exp (- dot us samples) * fst J' * exp (- ((nth i us 0 + snd J') * x')))).
    + apply step_always; assumption.
    + intros x' X'. assert (Q := IH (S i) x' (samples ++ [x']) ltac:(lia) ltac:(rewrite app_length, LS; cbn; lia) X'). cbv zeta in Q. cbn [nth] in Q. fold J' in Q.
      replace (exp (- dot us samples) * fst J' * exp (- ((nth i us 0 + snd J') * x'))) with (exp (- dot us (samples ++ [x'])) * (fst J' * exp (- (snd J' * x')))); [exact Q|].
      rewrite dot_app, LS, (skipn_cons us i) by lia. cbn [dot]. replace (dot (skipn (S i) us) []) with 0 by (destruct (skipn (S i) us); reflexivity).
      replace (- (dot us samples + (nth i us 0 * x' + 0))) with (- dot us samples + - (nth i us 0 * x')) by ring.
      replace (- ((nth i us 0 + snd J') * x')) with (- (nth i us 0 * x') + - (snd J' * x')) by ring. rewrite !exp_plus. ring.
    + assert (UJ : 0 <= nth i us 0 + snd J') by lra.
      assert (Q := step_laplace a k sigma A0 S0 (pkeys i) (gkeys i) (nth i dts 0) x (exp (- dot us samples) * fst J') _ D X UJ).
      rewrite (skipn_cons times i), (skipn_cons us i) by lia. cbn [joint_transform fst snd]. fold J'. cbv zeta.
      unfold dts in Q at 2 3. rewrite increments_nth in Q by exact IL.
      match goal with |- expects _ _ ?m => match type of Q with expects _ _ ?m' => replace m with m' by ring end end. exact Q.
Qed.
End Path.
