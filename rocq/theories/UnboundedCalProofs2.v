(** The unbounded calendar's operations meet the business-day specification. *)
From Coq Require Import ZArith List Bool Lia ZifyBool Sorted.
From Verif Require Import DateModel DateSpec DateRepr DateProofs DateProofs2 PropsDateAux CalSpec BoundedCalModel UnboundedCalModel CalProofs CalModified BoundedCalProofs BoundedCalProofs2 UnboundedCalProofs.
Import ListNotations.
Open Scope Z_scope.

Section U.
Variables (c : ucal) (m : list bool) (h : list Z).
Hypothesis OK : ucal_ok c m h.
Notation b := (business m h).
Notation R o := (busdays b 0 o).

Lemma to_biz o : 8 <= o -> to_biz_space c o = Some (R o + bz b o - 1, b o).
Proof.
  intros H. destruct (ucal_maps c m h OK) as (F & _). rewrite F by assumption. unfold K.
  rewrite busdays_last by lia. reflexivity.
Qed.
Lemma from_biz x : exists r, from_biz_space c x = Some r /\ (1 <= x -> 0 <= r) /\ (0 <= r -> b r = true /\ R r = x).
Proof.
  destruct (ucal_maps c m h OK) as (_ & G & _). destruct (G x) as (r & E & P & Q). exists r. split; [assumption|]. split; [assumption|].
  intros H. destruct (Q H) as [B KE]. split; [assumption|]. unfold K in KE. rewrite busdays_last in KE by lia.
  unfold bz in KE. rewrite B in KE. lia.
Qed.
Lemma R_pos o : 8 <= o -> 1 <= R o.
Proof.
  intros H. destruct (ucal_maps c m h OK) as (_ & _ & (k & K1 & K2)). apply (busdays_pos b 0 o k); [lia|assumption].
Qed.
Lemma R_pos2 o k : 8 <= k <= o -> b k = true -> 2 <= R (o + 1).
Proof.
  intros H Hb. rewrite (busdays_split b 0 8 (o + 1)) by lia. pose proof (R_pos 8 ltac:(lia)).
  pose proof (busdays_pos b 8 (o + 1) k ltac:(lia) Hb). lia.
Qed.

Lemma u_is_business_day_spec d : 8 <= ordinal d -> u_is_business_day c d = Some (b (ordinal d)).
Proof. intros H. unfold u_is_business_day. rewrite to_biz by assumption. reflexivity. Qed.

Lemma get_month_of o : 1 <= o -> get_month o = month_of o.
Proof. intros H. rewrite <- month_of_ordinal by assumption. unfold get_month, from_ordinal_unchecked, from_ordinal_unchecked.
  destruct (ordinal_to_year_month_day o) as [[y mm] dd]. reflexivity. Qed.

Lemma next_is o : 8 <= o -> exists r, from_biz_space c (if b o then R o + bz b o - 1 else R o + bz b o - 1 + 1) = Some r /\
  following b o r.
Proof.
  intros H. assert (E : (if b o then R o + bz b o - 1 else R o + bz b o - 1 + 1) = R o) by (unfold bz; destruct (b o); lia).
  rewrite E. destruct (from_biz (R o)) as (r & F & P & Q). exists r. split; [assumption|].
  pose proof (R_pos o H). destruct (Q (P ltac:(lia))) as [B1 B2]. apply (rank_following b 0); [lia|auto with zarith|assumption|assumption].
Qed.

Lemma prev_is o : 8 <= o -> exists r, from_biz_space c (R o + bz b o - 1) = Some r /\
  (0 <= r -> preceding b o r) /\ ((exists k, 8 <= k <= o /\ b k = true) -> 8 <= r).
Proof.
  intros H. destruct (from_biz (R o + bz b o - 1)) as (r & F & P & Q). exists r. split; [assumption|].
  assert (A : 0 <= r -> preceding b o r).
  { intros R0. destruct (Q R0) as [B1 B2]. apply (rank_preceding b 0); [lia|lia|assumption|lia]. }
  split; [assumption|]. intros (k & K1 & K2). pose proof (R_pos2 o k K1 K2) as RP. rewrite busdays_last in RP by lia.
  destruct (A (P ltac:(lia))) as (A1 & A2 & A3). destruct (Z_le_gt_dec 8 r); [assumption|].
  rewrite (A3 k) in K2 by lia. discriminate.
Qed.

Lemma u_roll_following d : 8 <= ordinal d ->
  exists r, u_roll c d FOLLOWING = Some (from_ordinal_unchecked r) /\ following b (ordinal d) r.
Proof.
  intros H. unfold u_roll, apply_roll_biz_space. rewrite to_biz by assumption. cbn [bind].
  destruct (next_is (ordinal d) H) as (r & -> & F). cbn [bind]. exists r. split; [|assumption].
  destruct F as (F1 & _). unfold from_ordinal. replace (0 <? r) with true by lia. reflexivity.
Qed.

Lemma u_roll_preceding_sound d x : 8 <= ordinal d -> u_roll c d PRECEDING = Some x ->
  exists r, x = from_ordinal_unchecked r /\ 1 <= r /\ preceding b (ordinal d) r.
Proof.
  intros H. unfold u_roll, apply_roll_biz_space. rewrite to_biz by assumption. cbn [bind].
  destruct (prev_is (ordinal d) H) as (r & -> & F & _). cbn [bind]. unfold from_ordinal.
  destruct (0 <? r) eqn:E; [|discriminate]. injection 1 as <-. exists r. split; [reflexivity|]. split; [lia|]. apply F; lia.
Qed.

Lemma u_roll_preceding d : 8 <= ordinal d -> (exists k, 8 <= k <= ordinal d /\ b k = true) ->
  exists r, u_roll c d PRECEDING = Some (from_ordinal_unchecked r) /\ 8 <= r /\ preceding b (ordinal d) r.
Proof.
  intros H EX. unfold u_roll, apply_roll_biz_space. rewrite to_biz by assumption. cbn [bind].
  destruct (prev_is (ordinal d) H) as (r & -> & F & G). cbn [bind]. specialize (G EX). exists r.
  split; [|split; [assumption|apply F; lia]]. unfold from_ordinal. replace (0 <? r) with true by lia. reflexivity.
Qed.

(** The MODIFIED conventions, as computed: month numbers are compared. *)
Lemma u_roll_modfol d : 8 <= ordinal d -> month d = month_of (ordinal d) -> (exists k, 8 <= k <= ordinal d /\ b k = true) ->
  exists f p, following b (ordinal d) f /\ preceding b (ordinal d) p /\ 8 <= p /\
    u_roll c d MODIFIED_FOLLOWING = Some (from_ordinal_unchecked (if month_of f =? month_of (ordinal d) then f else p)).
Proof.
  intros H MD EX. unfold u_roll, apply_roll_biz_space. rewrite to_biz by assumption. cbn [bind].
  destruct (next_is (ordinal d) H) as (f & Ef & F). destruct (prev_is (ordinal d) H) as (p & Ep & P & G). specialize (G EX).
  exists f, p. split; [assumption|]. split; [apply P; lia|]. split; [assumption|].
  rewrite Ef. cbn [bind]. destruct F as (F1 & _). rewrite get_month_of by lia. rewrite MD.
  destruct (month_of f =? month_of (ordinal d)); cbn [negb].
  - rewrite Ef. cbn [bind]. unfold from_ordinal. replace (0 <? f) with true by lia. reflexivity.
  - rewrite Ep. cbn [bind]. unfold from_ordinal. replace (0 <? p) with true by lia. reflexivity.
Qed.
Lemma u_roll_modpre d : 8 <= ordinal d -> month d = month_of (ordinal d) -> (exists k, 8 <= k <= ordinal d /\ b k = true) ->
  exists f p, following b (ordinal d) f /\ preceding b (ordinal d) p /\ 8 <= p /\
    u_roll c d MODIFIED_PRECEDING = Some (from_ordinal_unchecked (if month_of p =? month_of (ordinal d) then p else f)).
Proof.
  intros H MD EX. unfold u_roll, apply_roll_biz_space. rewrite to_biz by assumption. cbn [bind].
  destruct (next_is (ordinal d) H) as (f & Ef & F). destruct (prev_is (ordinal d) H) as (p & Ep & P & G). specialize (G EX).
  exists f, p. split; [assumption|]. split; [apply P; lia|]. split; [assumption|].
  rewrite Ep. cbn [bind]. destruct F as (F1 & _). rewrite get_month_of by lia. rewrite MD.
  destruct (month_of p =? month_of (ordinal d)); cbn [negb].
  - rewrite Ep. cbn [bind]. unfold from_ordinal. replace (0 <? p) with true by lia. reflexivity.
  - rewrite Ef. cbn [bind]. unfold from_ordinal. replace (0 <? f) with true by lia. reflexivity.
Qed.

Lemma u_between_spec d1 d2 : 8 <= ordinal d1 -> 8 <= ordinal d2 ->
  u_business_days_between c d1 d2 = Some (busdays b (ordinal d1) (ordinal d2)).
Proof.
  intros H1 H2. unfold u_business_days_between. rewrite !to_biz by assumption. cbn [bind]. f_equal.
  set (o1 := ordinal d1) in *. set (o2 := ordinal d2) in *.
  replace (if b o2 then R o2 + bz b o2 - 1 else R o2 + bz b o2 - 1 + 1) with (R o2) by (unfold bz; destruct (b o2); lia).
  replace (if b o1 then R o1 + bz b o1 - 1 else R o1 + bz b o1 - 1 + 1) with (R o1) by (unfold bz; destruct (b o1); lia).
  destruct (Z_le_gt_dec o1 o2) as [L|L].
  - rewrite (busdays_split b 0 o1 o2) by lia. pose proof (busdays_nonneg b o1 o2). lia.
  - rewrite (busdays_empty b o1 o2) by lia. pose proof (busdays_mono b 0 o2 o1 ltac:(lia) ltac:(lia)). lia.
Qed.

Lemma u_add_none_sound d n x : 8 <= ordinal d -> u_add_business_days c d n NONE = Some x ->
  b (ordinal d) = true /\ exists r, x = from_ordinal_unchecked r /\ 1 <= r /\ nth_business_day b (ordinal d) n r.
Proof.
  intros H. unfold u_add_business_days, apply_roll_biz_space. rewrite to_biz by assumption. cbn [bind].
  destruct (b (ordinal d)) eqn:B; [|discriminate]. cbn [negb].
  destruct (from_biz (R (ordinal d) + bz b (ordinal d) - 1 + n)) as (r & -> & P & Q). cbn [bind]. unfold from_ordinal.
  destruct (0 <? r) eqn:E; [|discriminate]. injection 1 as <-. split; [reflexivity|]. exists r. split; [reflexivity|]. split; [lia|].
  destruct (Q ltac:(lia)) as [Q1 Q2]. apply (rank_nth b 0); [lia|lia|assumption|]. unfold bz in Q2. rewrite B in Q2. lia.
Qed.

Lemma u_add_none_complete d n r : 8 <= ordinal d -> b (ordinal d) = true -> 8 <= r ->
  nth_business_day b (ordinal d) n r -> u_add_business_days c d n NONE = Some (from_ordinal_unchecked r).
Proof.
  intros H B R8 N. unfold u_add_business_days, apply_roll_biz_space. rewrite to_biz by assumption. cbn [bind].
  rewrite B. cbn [negb].
  pose proof (nth_rank b 0 (ordinal d) n r ltac:(lia) ltac:(lia) N) as RR.
  destruct (from_biz (R (ordinal d) + bz b (ordinal d) - 1 + n)) as (r' & -> & P & Q). cbn [bind].
  unfold bz in P, Q. rewrite B in P, Q. pose proof (R_pos r R8).
  destruct (Q (P ltac:(lia))) as [Q1 Q2].
  assert (r' = r). { apply (rank_inj b 0); [apply P; lia|lia|assumption|apply N|lia]. }
  subst r'. unfold from_ordinal. replace (0 <? r) with true by lia. reflexivity.
Qed.

Lemma u_add_none_refuses d n : 8 <= ordinal d -> b (ordinal d) = false -> u_add_business_days c d n NONE = None.
Proof.
  intros H B. unfold u_add_business_days. rewrite to_biz by assumption. cbn [bind]. rewrite B. reflexivity.
Qed.

(** With a convention: roll first, then add. *)
Lemma u_add_conv d n conv : 8 <= ordinal d -> month d = month_of (ordinal d) -> conv <> NONE ->
  (exists k, 8 <= k <= ordinal d /\ b k = true) ->
  u_add_business_days c d n conv = bind (u_roll c d conv) (fun d' => u_add_business_days c d' n NONE).
Proof.
  intros H MD NN EX.
  assert (G : forall x r, from_biz_space c x = Some r -> 8 <= r -> b r = true -> R r = x ->
    bind (from_ordinal r) (fun d' => u_add_business_days c d' n NONE) = bind (from_biz_space c (x + n)) from_ordinal).
  { intros x r E R8 B RE. unfold from_ordinal at 1. replace (0 <? r) with true by lia. cbn [bind].
    destruct (from_ordinal_unchecked_repr r ltac:(lia)) as (O & _).
    unfold u_add_business_days, apply_roll_biz_space. rewrite to_biz by lia. rewrite O, B. cbn [bind negb].
    f_equal. f_equal. unfold bz. rewrite B. lia. }
  assert (U : forall r, to_biz_space c (ordinal d) = Some r ->
    u_add_business_days c d n conv = bind (apply_roll_biz_space c d (fst r) (snd r) conv) (fun r => bind (from_biz_space c (r + n)) from_ordinal) /\
    u_roll c d conv = bind (apply_roll_biz_space c d (fst r) (snd r) conv) (fun r => bind (from_biz_space c r) from_ordinal)).
  { intros [r1 r2] E. unfold u_add_business_days, u_roll. rewrite E. cbn [bind fst snd].
    split; destruct conv; try reflexivity; congruence. }
  destruct (U _ (to_biz (ordinal d) H)) as [-> ->]. cbn [fst snd].
  destruct (next_is (ordinal d) H) as (f & Ef & F). destruct (prev_is (ordinal d) H) as (p & Ep & P & P8). specialize (P8 EX).
  specialize (P ltac:(lia)).
  set (nx := if b (ordinal d) then R (ordinal d) + bz b (ordinal d) - 1 else R (ordinal d) + bz b (ordinal d) - 1 + 1) in *.
  assert (Gf : bind (from_ordinal f) (fun d' => u_add_business_days c d' n NONE) = bind (from_biz_space c (nx + n)) from_ordinal).
  { destruct F as (F1 & F2 & F3). apply G; [assumption|lia|assumption|].
    rewrite (following_rank b 0 (ordinal d) f); [|lia|split; auto]. unfold nx, bz. destruct (b (ordinal d)); lia. }
  assert (Gp : bind (from_ordinal p) (fun d' => u_add_business_days c d' n NONE) =
     bind (from_biz_space c (R (ordinal d) + bz b (ordinal d) - 1 + n)) from_ordinal).
  { apply G; [assumption|lia|apply P|]. rewrite (preceding_rank b 0 (ordinal d) p); [lia|lia|assumption]. }
  unfold apply_roll_biz_space. fold nx. destruct conv; [congruence| | | |]; cbn [bind].
  - rewrite Ef. cbn [bind]. symmetry. assumption.
  - rewrite Ef. cbn [bind]. destruct (negb (get_month f =? month d)).
    + rewrite Ep. cbn [bind]. symmetry. assumption.
    + rewrite Ef. cbn [bind]. symmetry. assumption.
  - rewrite Ep. cbn [bind]. symmetry. assumption.
  - rewrite Ep. cbn [bind]. destruct (negb (get_month p =? month d)).
    + rewrite Ef. cbn [bind]. symmetry. assumption.
    + rewrite Ep. cbn [bind]. symmetry. assumption.
Qed.
End U.
