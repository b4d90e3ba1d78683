(** C75: exact simulation of the Cox-Ingersoll-Ross process. *)
From Coquelicot Require Import Coquelicot.
From Coq Require Import Reals List Lia Lra Psatz Bool ZArith.
From Verif Require Import BrentModel BrentProofs RandomProg CirModel CirSpec CirProofs CirProofs2 HestonProofs2.
Import ListNotations.
Open Scope R_scope.

Lemma sample_loop a k sigma times x0 rt seed p : cir_sample_paths a k sigma times (Some x0) rt seed = Some p ->
  exists pk gk, p = cir_loop a k sigma pk gk (increments 0 times) (length times) 0 x0 [].
Proof.
  unfold cir_sample_paths. intros H. destruct rt as [[]|]; destruct seed; cbn [seed_fns] in H; try discriminate H; eexists; eexists; injection H as <-; reflexivity.
Qed.
(** ** The law *)
Lemma laplace_backward a k sigma u : 0 < a -> sigma <> 0 -> 0 <= u -> backward_equation a k sigma u (fun t x => cir_A a k sigma t u * exp (- (cir_B k sigma t u * x))).
Proof.
  intros A0 S0 U. set (phi := fun t x => cir_A a k sigma t u * exp (- (cir_B k sigma t u * x))). split; [intros x; unfold phi; rewrite A_zero, B_zero; ring|].
  exists (fun t x => - cir_B k sigma t u * phi t x), (fun t x => cir_B k sigma t u ^ 2 * phi t x). intros t x T.
  assert (D1 : forall y, is_derive (phi t) y (- cir_B k sigma t u * phi t y)) by (intros y; unfold phi; auto_derive; [exact Logic.I|ring]).
  split; [apply D1|]. split.
  - assert (Q := is_derive_scal (phi t) x (- cir_B k sigma t u) _ (D1 x)). match type of Q with is_derive _ _ ?d => replace (cir_B k sigma t u ^ 2 * phi t x) with d; [exact Q|] end. ring.
  - set (h := sigma ^ 2 / 2). set (z := integral_decay k t). set (e := exp (- k * t)). set (w := 1 + u * (h * z)).
    assert (W : 0 < w) by (apply denom_pos; assumption).
    assert (P2 : 0 < sigma ^ 2) by (apply pow2_gt_0; exact S0).
    assert (DZ := decay_derive k t). fold e in DZ.
    assert (DW : is_derive (fun s => 1 + u * (h * integral_decay k s)) t (u * (h * e))).
    { assert (Q1 := is_derive_scal (integral_decay k) t h _ DZ). assert (Q2 := is_derive_scal _ t u _ Q1).
      assert (Q3 := is_derive_plus (fun _ => 1) _ t _ _ (is_derive_const (K := R_AbsRing) (V := R_NormedModule) 1 t) Q2).
      match type of Q3 with is_derive _ _ ?d => replace (u * (h * e)) with d; [exact Q3|] end. unfold plus, zero. cbn. ring. }
    assert (DE : is_derive (fun s => exp (- k * s)) t (- k * e)) by (unfold e; auto_derive; [exact Logic.I|ring]).
    assert (DB : is_derive (fun s => cir_B k sigma s u) t (- k * cir_B k sigma t u - h * cir_B k sigma t u ^ 2)).
    { unfold cir_B. fold h.
      assert (Q1 := is_derive_scal _ t u _ DE). assert (Q2 := is_derive_div _ _ t _ _ Q1 DW (Rgt_not_eq _ _ W)).
      match type of Q2 with is_derive _ _ ?d => match goal with |- is_derive _ _ ?d' => replace d' with d; [exact Q2|] end end.
      cbv beta. fold e z w. field. lra. }
    assert (DA : is_derive (fun s => cir_A a k sigma s u) t (- a * cir_B k sigma t u * cir_A a k sigma t u)).
    { unfold cir_A. fold h. assert (R1 := rpower_derive (- (2 * a / sigma ^ 2)) w W).
      assert (Q := is_derive_comp (fun y => Rpower y (- (2 * a / sigma ^ 2))) (fun s => 1 + u * (h * integral_decay k s)) t _ _ R1 DW).
      match type of Q with is_derive _ _ ?d => match goal with |- is_derive _ _ ?d' => replace d' with d; [exact Q|] end end.
      unfold scal. cbn -[pow]. unfold mult. cbn -[pow]. fold z w. unfold cir_B. fold h z e w.
      assert (RS := rpower_succ (- (2 * a / sigma ^ 2) - 1) w W). replace (- (2 * a / sigma ^ 2) - 1 + 1) with (- (2 * a / sigma ^ 2)) in RS by ring. rewrite RS.
      generalize (Rpower w (- (2 * a / sigma ^ 2) - 1)). intros y. clearbody w e. unfold h. field. split; [lra|exact S0]. }
    assert (DX : is_derive (fun s => exp (- (cir_B k sigma s u * x))) t (- x * (- k * cir_B k sigma t u - h * cir_B k sigma t u ^ 2) * exp (- (cir_B k sigma t u * x)))).
    { assert (E1 : is_derive (fun b => exp (- (b * x))) (cir_B k sigma t u) (- x * exp (- (cir_B k sigma t u * x)))) by (auto_derive; [exact Logic.I|ring]).
      assert (Q := is_derive_comp (fun b => exp (- (b * x))) (fun s => cir_B k sigma s u) t _ _ E1 DB).
      match type of Q with is_derive _ _ ?d => match goal with |- is_derive _ _ ?d' => replace d' with d; [exact Q|] end end. unfold scal. cbn. unfold mult. cbn. ring. }
    assert (Q := is_derive_mult _ _ t _ _ DA DX Rmult_comm).
    match type of Q with is_derive _ _ ?d => match goal with |- is_derive _ _ ?d' => replace d' with d; [exact Q|] end end.
    unfold plus, mult. cbn -[pow]. unfold phi. unfold h. field.
Qed.
Lemma laplace_add a k sigma s t u x : 0 < a -> sigma <> 0 -> 0 <= u -> 0 <= s -> 0 <= t ->
  cir_A a k sigma t u * cir_A a k sigma s (cir_B k sigma t u) * exp (- (cir_B k sigma s (cir_B k sigma t u) * x)) =
  cir_A a k sigma (s + t) u * exp (- (cir_B k sigma (s + t) u * x)).
Proof.
  intros A0 S0 U S1 T. assert (W1 := denom_pos k sigma S0 t u T U). assert (W2 := denom_pos k sigma S0 s (cir_B k sigma t u) S1 (B_nonneg k sigma S0 t u T U)).
  assert (ST : 0 <= s + t) by lra. assert (W3 := denom_pos k sigma S0 (s + t) u ST U).
  assert (E : (1 + u * (sigma ^ 2 / 2 * integral_decay k t)) * (1 + cir_B k sigma t u * (sigma ^ 2 / 2 * integral_decay k s)) = 1 + u * (sigma ^ 2 / 2 * integral_decay k (s + t))).
  { unfold cir_B. rewrite decay_add. field. lra. }
  f_equal.
  - unfold cir_A. rewrite Rpower_mult_distr by assumption. f_equal. exact E.
  - f_equal. f_equal. f_equal. unfold cir_B at 1 3. rewrite <- E. unfold cir_B at 1.
    replace (- k * (s + t)) with (- k * s + - k * t) by ring. rewrite exp_plus. field. split; lra.
Qed.
(** The law of the simulated value at every requested time is the law of the
    process: its Laplace transform solves the backward equation, whatever other
    times are requested. *)
Theorem C75_law : forall a k sigma u, 0 < a -> sigma <> 0 -> 0 <= u ->
  exists phi, backward_equation a k sigma u phi /\
  forall times x0 rt seed p, ordered_times times -> 0 <= x0 -> cir_sample_paths a k sigma times (Some x0) rt seed = Some p ->
  forall j, (j < length times)%nat -> expects p (fun path => exp (- (u * nth j path 0))) (phi (nth j times 0) x0).
Proof.
  intros a k sigma u A0 S0 U. exists (fun t x => cir_A a k sigma t u * exp (- (cir_B k sigma t u * x))). split; [apply laplace_backward; assumption|].
  intros times x0 rt seed p OT X0 H j J. destruct (sample_loop _ _ _ _ _ _ _ _ H) as [pk [gk ->]].
  assert (Q := loop_at a k sigma pk gk times A0 S0 OT (fun y => exp (- (u * y))) (fun t x => cir_A a k sigma t u * exp (- (cir_B k sigma t u * x)))).
  assert (R0 := fun Z ST => Q Z ST j J (length times) 0%nat x0 [] eq_refl eq_refl X0). cbn [Nat.ltb Nat.leb nth] in R0. rewrite Rminus_0_r in R0. apply R0.
  - intros x X. rewrite A_zero, B_zero. ring.
  - intros pk' gk' D s x HD HS HX. rewrite <- laplace_add by assumption.
    apply step_laplace; [exact A0|exact S0|exact HD|exact HX|apply B_nonneg; assumption].
Qed.
(** The joint law at all requested times. *)
Theorem C75_joint_law : forall a k sigma times x0 rt seed p us, 0 < a -> sigma <> 0 -> ordered_times times -> 0 <= x0 ->
  cir_sample_paths a k sigma times (Some x0) rt seed = Some p -> length us = length times -> Forall (fun u => 0 <= u) us ->
  let J := joint_transform a k sigma 0 times us in expects p (fun path => exp (- dot us path)) (fst J * exp (- (snd J * x0))).
Proof.
  intros a k sigma times x0 rt seed p us A0 S0 OT X0 H LU NU. cbv zeta. destruct (sample_loop _ _ _ _ _ _ _ _ H) as [pk [gk ->]].
  assert (Q := loop_joint a k sigma pk gk times A0 S0 OT us LU NU (length times) 0%nat x0 [] eq_refl eq_refl X0). cbv zeta in Q. cbn [nth skipn] in Q.
  replace (dot us []) with 0 in Q by (destruct us; reflexivity). rewrite Ropp_0, exp_0, Rmult_1_l in Q. exact Q.
Qed.

(** ** Mean and second moment *)
Lemma qmean_unique a k sigma x m1 m2 t : cir_moments a k sigma x m1 m2 -> m1 t = qmean a k sigma 0 1 0 t x /\ m2 t = qmean a k sigma 1 0 0 t x.
Proof.
  intros [I1 [I2 [D1 D2]]].
  assert (DQ : forall q2 q1 s, is_derive (fun s => qmean a k sigma q2 q1 0 s x) s (q2 * ((2 * a + sigma ^ 2) * qmean a k sigma 0 1 0 s x - 2 * k * qmean a k sigma 1 0 0 s x) + q1 * (a - k * qmean a k sigma 0 1 0 s x))).
  { intros q2 q1 s. unfold qmean. set (z := integral_decay k s).
    assert (DZ := decay_derive k s). rewrite decay_exp in DZ. fold z in DZ.
    assert (F : is_derive (fun z => q2 * ((1 - k * z) ^ 2 * x ^ 2 + (2 * a + sigma ^ 2) * z * (1 - k * z) * x + z ^ 2 * a * (a + sigma ^ 2 / 2)) + q1 * ((1 - k * z) * x + a * z) + 0) z
      (q2 * (- 2 * k * (1 - k * z) * x ^ 2 + (2 * a + sigma ^ 2) * (1 - 2 * k * z) * x + 2 * z * a * (a + sigma ^ 2 / 2)) + q1 * (- k * x + a))) by (auto_derive; [exact Logic.I|field]).
    assert (Q := is_derive_comp _ (integral_decay k) s _ _ F DZ). eapply is_derive_ext; [|match type of Q with is_derive _ _ ?d => match goal with |- is_derive _ _ ?d' => replace d' with d; [exact Q|] end end].
    - intros r. cbv beta zeta. rewrite decay_exp. reflexivity.
    - unfold scal. cbn -[pow]. unfold mult. cbn -[pow]. rewrite decay_exp. fold z. field. }
  assert (Q0 : forall q2 q1, qmean a k sigma q2 q1 0 0 x = q2 * x ^ 2 + q1 * x) by (intros q2 q1; unfold qmean; rewrite decay_0, Rmult_0_r, exp_0; ring).
  assert (M1 : forall s, m1 s = qmean a k sigma 0 1 0 s x).
  { intros s. assert (m1 s - qmean a k sigma 0 1 0 s x = 0); [|lra]. apply (linear_unique k (fun s => m1 s - qmean a k sigma 0 1 0 s x) (fun _ => 0)); [|rewrite I1, Q0; ring|reflexivity].
    intros r. assert (Q := is_derive_minus _ _ r _ _ (D1 r) (DQ 0 1 r)). match type of Q with is_derive _ _ ?d => match goal with |- is_derive _ _ ?d' => replace d' with d; [exact Q|] end end.
    unfold minus, plus, opp. cbn -[pow qmean]. ring. }
  split; [apply M1|].
  assert (m2 t - qmean a k sigma 1 0 0 t x = 0); [|lra]. apply (linear_unique (2 * k) (fun s => m2 s - qmean a k sigma 1 0 0 s x) (fun _ => 0)); [|rewrite I2, Q0; ring|reflexivity].
  intros r. assert (Q := is_derive_minus _ _ r _ _ (D2 r) (DQ 1 0 r)). match type of Q with is_derive _ _ ?d => match goal with |- is_derive _ _ ?d' => replace d' with d; [exact Q|] end end.
  unfold minus, plus, opp. cbn -[pow qmean]. rewrite (M1 r). ring.
Qed.
Theorem C75_moments : forall a k sigma times x0 rt seed p m1 m2, 0 < a -> sigma <> 0 -> ordered_times times -> 0 <= x0 ->
  cir_sample_paths a k sigma times (Some x0) rt seed = Some p -> cir_moments a k sigma x0 m1 m2 ->
  forall j, (j < length times)%nat -> expects p (fun path => nth j path 0) (m1 (nth j times 0)) /\ expects p (fun path => nth j path 0 ^ 2) (m2 (nth j times 0)).
Proof.
  intros a k sigma times x0 rt seed p m1 m2 A0 S0 OT X0 H M j J. destruct (sample_loop _ _ _ _ _ _ _ _ H) as [pk [gk ->]].
  destruct (qmean_unique a k sigma x0 m1 m2 (nth j times 0) M) as [E1 E2]. rewrite E1, E2.
  assert (G : forall q2 q1, expects (cir_loop a k sigma pk gk (increments 0 times) (length times) 0 x0 []) (fun path => q2 * nth j path 0 ^ 2 + q1 * nth j path 0 + 0) (qmean a k sigma q2 q1 0 (nth j times 0) x0)).
  { intros q2 q1.
    assert (Q := loop_at a k sigma pk gk times A0 S0 OT (fun y => q2 * y ^ 2 + q1 * y + 0) (fun t x => qmean a k sigma q2 q1 0 t x)).
    assert (R0 := fun Z ST => Q Z ST j J (length times) 0%nat x0 [] eq_refl eq_refl X0). cbn [Nat.ltb Nat.leb nth] in R0. rewrite Rminus_0_r in R0. apply R0.
    - intros x X. unfold qmean. rewrite decay_0, Rmult_0_r, exp_0. ring.
    - intros pk' gk' D s x HD HS HX. set (e := exp (- k * s)). set (z := integral_decay k s).
      assert (SQ := step_quadratic a k sigma A0 S0 pk' gk' D x (q2 * e ^ 2) (q2 * (2 * a + sigma ^ 2) * z * e + q1 * e) (q2 * z ^ 2 * a * (a + sigma ^ 2 / 2) + q1 * a * z) HD HX).
      replace (qmean a k sigma q2 q1 0 s) with (fun y => q2 * e ^ 2 * y ^ 2 + (q2 * (2 * a + sigma ^ 2) * z * e + q1 * e) * y + (q2 * z ^ 2 * a * (a + sigma ^ 2 / 2) + q1 * a * z)).
      + match type of SQ with expects _ _ ?m => match goal with |- expects _ _ ?m' => replace m' with m; [exact SQ|] end end.
        unfold qmean. rewrite decay_add. replace (- k * (D + s)) with (- k * D + - k * s) by ring. rewrite exp_plus. fold e z. field.
      + apply FunctionalExtensionality.functional_extensionality. intros y. unfold qmean. fold e z. ring. }
  split; [assert (Q := G 0 1)|assert (Q := G 1 0)].
  - replace (fun path => nth j path 0) with (fun path : list R => 0 * nth j path 0 ^ 2 + 1 * nth j path 0 + 0); [exact Q|]. apply FunctionalExtensionality.functional_extensionality. intros y. ring.
  - replace (fun path => nth j path 0 ^ 2) with (fun path : list R => 1 * nth j path 0 ^ 2 + 0 * nth j path 0 + 0); [exact Q|]. apply FunctionalExtensionality.functional_extensionality. intros y. ring.
Qed.

(** ** The states for given draws *)
(** how the draws are made: what the generators are called with at step i *)
Definition keys_of (rt : option random_type) (seed : seed_arg) (pk gk : nat -> draw_key) : Prop :=
  match rt, seed with
  | Some STATELESS, PairSeed s0 s1 => forall i, pk i = Stateless s0 (s1 + Z.of_nat i) /\ gk i = Stateless (s0 + 1) (s1 + Z.of_nat i)
  | Some PSEUDO, NoSeed | None, NoSeed => forall i, pk i = Stateful None i /\ gk i = Stateful None i
  | Some PSEUDO, IntSeed s | None, IntSeed s => forall i, pk i = Stateful (Some s) i /\ gk i = Stateful (Some s) i
  | _, _ => False
  end.
Lemma sample_keys a k sigma times x0 rt seed p : cir_sample_paths a k sigma times x0 rt seed = Some p ->
  exists pk gk, keys_of rt seed pk gk /\ p = cir_loop a k sigma pk gk (increments 0 times) (length times) 0 (match x0 with None => 1 | Some x => x end) [].
Proof.
  unfold cir_sample_paths. intros H. destruct rt as [[]|]; destruct seed; cbn [seed_fns] in H; try discriminate H; eexists; eexists; (split; [|injection H as <-; reflexivity]); cbn; intros i; split; reflexivity.
Qed.
Section Run.
Variables (a k sigma : R) (pk gk : nat -> draw_key) (times : list R) (dp : draw_key -> R -> nat) (dg : draw_key -> R -> R -> R).
Let step i x := run dp dg (cir_step a k sigma (pk i) (gk i) (nth i (increments 0 times) 0) x).
Fixpoint states (n i : nat) (x : R) : list R := match n with O => [] | S n => step i x :: states n (S i) (step i x) end.
Lemma loop_run : forall n i x samples, (i + n = length times)%nat ->
  run dp dg (cir_loop a k sigma pk gk (increments 0 times) n i x samples) = samples ++ states n i x.
Proof.
  induction n as [|n IH]; intros i x samples E; [cbn; rewrite app_nil_r; reflexivity|].
  cbn [cir_loop]. rewrite increments_length. replace (i <? length times)%nat with true by (symmetry; apply Nat.ltb_lt; lia).
  rewrite run_bind, IH by lia. fold (step i x). cbn [states]. rewrite <- app_assoc. reflexivity.
Qed.
Lemma states_length : forall n i x, length (states n i x) = n.
Proof. induction n as [|n IH]; intros i x; cbn; auto. Qed.
Lemma states_nth : forall n i x j, (j < n)%nat -> nth j (states n i x) 0 = step (i + j) (nth j (x :: states n i x) 0).
Proof.
  induction n as [|n IH]; intros i x j J; [lia|]. cbn [states]. destruct j as [|j]; [cbn [nth]; rewrite Nat.add_0_r; reflexivity|].
  cbn [nth]. rewrite IH by lia. replace (S i + j)%nat with (i + S j)%nat by lia. reflexivity.
Qed.
Lemma loop_keys : sigma <> 0 -> (forall i, (i < length times)%nat -> nth i (0 :: times) 0 < nth i times 0) -> forall n i x samples, (i + n = length times)%nat ->
  keys dp dg (cir_loop a k sigma pk gk (increments 0 times) n i x samples) = concat (map (fun i => [(APoisson, pk i); (AGamma, gk i)]) (seq i n)).
Proof.
  intros S0 O. induction n as [|n IH]; intros i x samples E; [reflexivity|].
  cbn [cir_loop]. rewrite increments_length. replace (i <? length times)%nat with true by (symmetry; apply Nat.ltb_lt; lia).
  rewrite keys_bind, IH by lia. cbn [seq map concat]. f_equal.
  assert (IL : (i < length times)%nat) by lia. assert (T := O i IL).
  rewrite increments_nth by exact IL. destruct (step_pos a k sigma S0 (pk i) (gk i) (nth i times 0 - nth i (0 :: times) 0) x) as [b [_ [_ ->]]]; [lra|]. reflexivity.
Qed.
End Run.
(** Entry i of a path: the previous value (the initial state, 1 by default, for
    i = 0) when no time has passed; otherwise a gamma variable whose shape is a
    Poisson variable plus 2 a / sigma^2. *)
Theorem C75_path : forall a k sigma times x0 rt seed p dp dg, sigma <> 0 -> ordered_times times ->
  cir_sample_paths a k sigma times x0 rt seed = Some p ->
  exists pk gk, keys_of rt seed pk gk /\
  let path := run dp dg p in
  length path = length times /\
  forall i, (i < length times)%nat ->
    let before := nth i (match x0 with None => 1 | Some x => x end :: path) 0 in
    let D := nth i times 0 - nth i (0 :: times) 0 in
    let rate := 2 / (sigma ^ 2 * integral_decay k D) in
    (D = 0 -> nth i path 0 = before) /\
    (0 < D -> nth i path 0 = dg (gk i) (INR (dp (pk i) (rate * exp (- k * D) * before)) + 2 * a / sigma ^ 2) rate).
Proof.
  intros a k sigma times x0 rt seed p dp dg S0 OT H. destruct (sample_keys _ _ _ _ _ _ _ _ H) as [pk [gk [HK ->]]]. exists pk, gk. split; [exact HK|].
  cbv zeta. rewrite loop_run by lia. cbn [app]. rewrite states_length. split; [reflexivity|]. intros i IL. rewrite states_nth by exact IL. cbn [Nat.add].
  set (before := nth i (_ :: states _ _ _ _ _ _ _ _ _ _ _) 0). rewrite increments_nth by exact IL. set (D := nth i times 0 - nth i (0 :: times) 0). split.
  - intros ->. rewrite step_zero. reflexivity.
  - intros DP. destruct (step_pos a k sigma S0 (pk i) (gk i) D before DP) as [b [E [_ ->]]]. cbn [run].
    assert (Z := decay_pos k D DP). replace (2 / (sigma ^ 2 * integral_decay k D)) with b by (rewrite E; field; split; [lra|exact S0]). reflexivity.
Qed.
(** No state is negative. *)
Theorem C75_nonnegative : forall a k sigma times x0 rt seed p dp dg, sigma <> 0 -> ordered_times times -> 0 <= x0 -> (forall key s r, 0 < dg key s r) ->
  cir_sample_paths a k sigma times (Some x0) rt seed = Some p -> Forall (fun x => 0 <= x) (run dp dg p).
Proof.
  intros a k sigma times x0 rt seed p dp dg S0 OT X0 DG H. destruct (sample_loop _ _ _ _ _ _ _ _ H) as [pk [gk ->]].
  assert (AL := loop_always a k sigma pk gk times S0 OT (length times) 0%nat x0 [] eq_refl eq_refl X0 (Forall_nil _)).
  assert (G : forall q : prog draw_key (list R), always (fun l => length l = length times /\ Forall (fun y => 0 <= y) l) q -> Forall (fun y => 0 <= y) (run dp dg q)).
  { induction q as [y|ky r nx IHp|ky s r nx IHp]; cbn [always run]; [intros Q; apply Q| |]; intros Q; apply IHp; [apply Q|apply Q, DG]. }
  apply G, AL.
Qed.
(** With the stateless generators each of the draws has its own seed, and the seeds
    are those of the documentation. *)
Theorem C75_seeds : forall a k sigma times x0 s0 s1 p dp dg, sigma <> 0 -> (forall i, (i < length times)%nat -> nth i (0 :: times) 0 < nth i times 0) ->
  cir_sample_paths a k sigma times x0 (Some STATELESS) (PairSeed s0 s1) = Some p ->
  let used := map snd (keys dp dg p) in
  length used = (2 * length times)%nat /\ NoDup used /\
  forall key, In key used -> exists i j, (0 <= i <= 1)%Z /\ (0 <= j < Z.of_nat (length times))%Z /\ key = Stateless (s0 + i) (s1 + j).
Proof.
  intros a k sigma times x0 s0 s1 p dp dg S0 OT H. destruct (sample_keys _ _ _ _ _ _ _ _ H) as [pk [gk [HK ->]]]. cbn in HK. cbv zeta. rewrite loop_keys by (assumption || lia).
  generalize (length times) as n. intros n.
  assert (E : forall m, map snd (concat (map (fun i => [(APoisson, pk i); (AGamma, gk i)]) (seq m n))) = concat (map (fun i => [Stateless s0 (s1 + Z.of_nat i); Stateless (s0 + 1) (s1 + Z.of_nat i)]) (seq m n))).
  { intros m. rewrite concat_map, map_map. f_equal. apply map_ext. intros i. destruct (HK i) as [E1 E2]. cbn. rewrite E1, E2. reflexivity. }
  rewrite E. clear E.
  assert (IN : forall n m key, In key (concat (map (fun i => [Stateless s0 (s1 + Z.of_nat i); Stateless (s0 + 1) (s1 + Z.of_nat i)]) (seq m n))) ->
    exists i j, (0 <= i <= 1)%Z /\ (Z.of_nat m <= j < Z.of_nat (m + n))%Z /\ key = Stateless (s0 + i) (s1 + j)).
  { clear. induction n as [|n IH]; intros m key; cbn [seq map concat app In]; [tauto|]. intros [<-|[<-|K]].
    - exists 0%Z, (Z.of_nat m). split; [lia|split; [lia|]]. f_equal; lia.
    - exists 1%Z, (Z.of_nat m). split; [lia|split; [lia|]]. reflexivity.
    - destruct (IH _ _ K) as [i [j [I1 [J1 ->]]]]. exists i, j. split; [lia|split; [lia|reflexivity]]. }
  split; [|split].
  - clear. assert (G : forall m, length (concat (map (fun i => [Stateless s0 (s1 + Z.of_nat i); Stateless (s0 + 1) (s1 + Z.of_nat i)]) (seq m n))) = (2 * n)%nat); [|apply G].
    induction n as [|n IH]; intros m; [reflexivity|]. cbn [seq map concat app length]. rewrite IH. lia.
  - clear - IN. generalize 0%nat as m. induction n as [|n IH]; intros m; cbn [seq map concat app]; [constructor|]. constructor; [|constructor; [|apply IH]].
    + intros [X|X]; [injection X as X; lia|]. destruct (IN _ _ _ X) as [i [j [I1 [J1 Q]]]]. injection Q as Q1 Q2. lia.
    + intros X. destruct (IN _ _ _ X) as [i [j [I1 [J1 Q]]]]. injection Q as Q1 Q2. lia.
  - intros key K. destruct (IN _ _ _ K) as [i [j [I1 [J1 Q]]]]. exists i, j. repeat split; try lia. exact Q.
Qed.
(** Refused arguments. *)
Theorem C75_refused : forall a k sigma times x0 rt seed, cir_sample_paths a k sigma times x0 rt seed = None <->
  rt = Some OTHER \/ (rt = Some STATELESS /\ forall s0 s1, seed <> PairSeed s0 s1) \/ ((rt = None \/ rt = Some PSEUDO) /\ exists s0 s1, seed = PairSeed s0 s1).
Proof.
  intros a k sigma times x0 rt seed. destruct rt as [[]|]; destruct seed; cbn; split; intros H; try discriminate H; try reflexivity.
  all: try (exfalso; destruct H as [H|[[H H']|[[H|H] [? [? H']]]]]; try discriminate H; try discriminate H'; try (eapply H'; reflexivity); fail).
  all: try (left; reflexivity).
  all: try (right; left; split; [reflexivity|intros; discriminate]).
  all: right; right; (split; [auto|eexists; eexists; reflexivity]).
Qed.
(** Without volatility the process follows dX = (a - k X) dt, but the simulated
    path never moves. *)
Theorem C75_no_volatility_refuted : forall dp dg,
  exists p, cir_sample_paths 1 1 0 [1] (Some 0) None NoSeed = Some p /\ run dp dg p = [0] /\
  forall x, x 0 = 0 -> (forall t, is_derive x t (1 - 1 * x t)) -> x 1 = 1 - exp (- (1)).
Proof.
  intros dp dg. eexists. split; [reflexivity|]. split.
  - cbn [increments length cir_loop Nat.ltb Nat.leb nth]. unfold cir_step, cir_c, divide_no_nan.
    destruct (Req_EM_T (0 ^ 2 * cir_zeta 1 (1 - 0)) 0) as [_|N]; [|exfalso; apply N; ring]. replace (rlt 0 0) with false by (symmetry; apply rlt_false; lra). reflexivity.
  - intros x X0 D. assert (x 1 - (1 - exp (- (1))) = 0); [|lra].
    assert (Q := linear_unique 1 (fun t => x t - (1 - exp (- t))) (fun _ => 0)). cbv beta in Q. apply Q; [|rewrite X0, Ropp_0, exp_0; ring|reflexivity].
    intros t. assert (E : is_derive (fun t => 1 - exp (- t)) t (exp (- t))) by (auto_derive; [exact Logic.I|ring]).
    assert (M := is_derive_minus x _ t _ _ (D t) E). match type of M with is_derive _ _ ?d => match goal with |- is_derive _ _ ?d' => replace d' with d; [exact M|] end end.
    unfold minus, plus, opp. cbn. ring.
Qed.

(** ** Examples *)
Example C75_ex_times : ordered_times [1 / 2; 1 / 2; 2].
Proof. intros i L. cbn in L. destruct i as [|[|[|i]]]; cbn; try lra; lia. Qed.
(** the mean at the last time of a concrete model *)
Example C75_ex_mean : exists p, cir_sample_paths 1 1 1 [1 / 2; 1 / 2; 2] (Some 3) (Some STATELESS) (PairSeed 4 5) = Some p /\
  expects p (fun path => nth 2 path 0) (1 + 2 * exp (- (2))).
Proof.
  eexists. split; [reflexivity|].
  assert (M : cir_moments 1 1 1 3 (fun t => 1 + 2 * exp (- t)) (fun t => 3 / 2 + 6 * exp (- t) + 3 / 2 * exp (- t) ^ 2)).
  { split; [rewrite Ropp_0, exp_0; ring|]. split; [rewrite Ropp_0, exp_0; lra|]. split; intros t; (auto_derive; [exact Logic.I|]); try lra. }
  assert (Q := C75_moments 1 1 1 [1 / 2; 1 / 2; 2] 3 (Some STATELESS) (PairSeed 4 5) _ _ _ Rlt_0_1 R1_neq_R0 C75_ex_times ltac:(lra) eq_refl M 2%nat ltac:(cbn; lia)).
  destruct Q as [Q _]. exact Q.
Qed.
Example C75_ex_refused : cir_sample_paths 1 1 1 [1] None (Some STATELESS) NoSeed = None.
Proof. reflexivity. Qed.

Print Assumptions C75_law.
Print Assumptions C75_joint_law.
Print Assumptions C75_moments.
Print Assumptions C75_path.
Print Assumptions C75_nonnegative.
Print Assumptions C75_seeds.
Print Assumptions C75_refused.
Print Assumptions C75_no_volatility_refuted.
