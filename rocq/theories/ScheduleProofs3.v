From Coq Require Import ZArith List Bool Lia ZifyBool Sorted.
From Verif Require Import DateModel DateSpec DateRepr DateProofs DateProofs2 PropsDateAux CalSpec BoundedCalModel CalSetup CalProofs CalModified BoundedCalProofs PropsCalAux ScheduleModel ScheduleSpec ScheduleProofs ScheduleProofs2.
Import ListNotations.
Open Scope Z_scope.

Lemma ss_app {A} (R : A -> A -> Prop) l1 l2 : StronglySorted R l1 -> StronglySorted R l2 ->
  (forall x y, In x l1 -> In y l2 -> R x y) -> StronglySorted R (l1 ++ l2).
Proof.
  induction 1 as [|a l H IH F]; intros S2 C; [assumption|]. cbn. constructor.
  - apply IH; [assumption|]. intros; apply C; [right|]; assumption.
  - apply Forall_app. split; [assumption|]. apply Forall_forall. intros y I. apply C; [left; reflexivity|assumption].
Qed.
Lemma ss_rev {A} (R : A -> A -> Prop) l : StronglySorted (fun x y => R y x) l -> StronglySorted R (rev l).
Proof.
  induction 1 as [|a l H IH F]; [constructor|]. cbn. apply ss_app; [assumption|repeat constructor|].
  intros x y I [<-|[]]. apply in_rev in I. rewrite Forall_forall in F. apply F; assumption.
Qed.
Lemma ss_zrange_map {A} (R : A -> A -> Prop) (f : Z -> A) n : forall lo,
  (forall i j, lo <= i < j -> j < lo + Z.of_nat n -> R (f i) (f j)) -> StronglySorted R (map f (zrange lo n)).
Proof.
  induction n; intros lo H; [constructor|]. rewrite zrange_S. cbn [map]. constructor.
  - apply IHn. intros. apply H; lia.
  - apply Forall_forall. intros x I. apply in_map_iff in I as (k & <- & K). apply in_zrange in K. apply H; lia.
Qed.
Lemma ss_weaken {A} (R R' : A -> A -> Prop) l : (forall x y, R x y -> R' x y) -> StronglySorted R l -> StronglySorted R' l.
Proof. intros H. induction 1; constructor; [assumption|]. eapply Forall_impl; [|eassumption]. intros; apply H; assumption. Qed.
Lemma ss_repeat {A} (R : A -> A -> Prop) x n : R x x -> StronglySorted R (repeat x n).
Proof. intros H. induction n; cbn; constructor; [assumption|]. apply Forall_forall. intros y I. apply repeat_spec in I. subst; assumption. Qed.
Lemma ss_forall2 {A} (R : A -> A -> Prop) (P : A -> A -> Prop) l l' : StronglySorted R l -> Forall2 P l l' ->
  (forall x y x' y', In x l -> In y l -> R x y -> P x x' -> P y y' -> R x' y') -> StronglySorted R l'.
Proof.
  intros S F. revert S. induction F as [|a b l l' H F IH]; intros S C; [constructor|]. inversion S as [|? ? S' G]; subst. constructor.
  - apply IH; [assumption|]. intros x y x' y' I J. apply C; right; assumption.
  - clear IH S. apply Forall_forall. intros y I. rewrite Forall_forall in G.
    assert (EX : exists z, In z l /\ P z y).
    { clear - F I. induction F; [destruct I|]. destruct I as [<-|I]; [eexists; split; [left; reflexivity|assumption]|].
      destruct (IHF I) as (z & Z1 & Z2). exists z. split; [right|]; assumption. }
    destruct EX as (z & Z1 & Z2). apply (C a z); [left; reflexivity|right; assumption|apply G; assumption|assumption|assumption].
Qed.

Lemma row_spec_increasing t bw r l : is_date (rstart r) -> is_date (rend r) -> 0 < rqty r -> ordinal (rstart r) <= ordinal (rend r) ->
  row_spec t bw r l -> (ordinal (rstart r) < ordinal (rend r) -> increasing l /\ (exists q, l = rstart r :: q)) /\ nondecreasing l /\ (bw = true \/ exists p, l = p ++ [rend r]).
Proof.
  intros D De Q LE S. pose proof (min_days_pos t). destruct bw; destruct S as (n & s & A & B & ->).
  - assert (O : forall k, 0 <= k < Z.of_nat n -> ordinal (s k) = sord t (rend r) (- (rqty r * k)) /\ ordinal (rstart r) < ordinal (s k)).
    { intros k K. destruct (A k K) as (E & O). unfold date_sub, period_mul in E. cbn [quantity ptype] in E. destruct (add_sord _ _ _ _ De E) as (O' & _). auto. }
    assert (I : increasing (rstart r :: rev (map s (zrange 0 n)))).
    { constructor.
      - apply ss_rev. apply ss_zrange_map. intros i j H1 H2. destruct (O i ltac:(lia)) as (-> & _). destruct (O j ltac:(lia)) as (-> & _).
        pose proof (sord_many t (rend r) (- (rqty r * j)) (rqty r * (j - i)) De ltac:(nia)) as M.
        replace (- (rqty r * j) + rqty r * (j - i)) with (- (rqty r * i)) in M by lia. assert (P1 : 0 < rqty r * (j - i)) by nia. revert M. generalize P1. generalize (rqty r * (j - i)). intros w W M. nia.
      - apply Forall_forall. intros x I. apply in_rev in I. apply in_map_iff in I as (k & <- & K). apply in_zrange in K. apply O. lia. }
    split; [intros _; split; [assumption|eauto]|]. split; [|left; reflexivity]. apply (ss_weaken (fun x y => ordinal x < ordinal y)); [intros; lia|exact I].
  - assert (O : forall k, 0 <= k < Z.of_nat n -> ordinal (s k) = sord t (rstart r) (rqty r * k) /\ ordinal (s k) < ordinal (rend r)).
    { intros k K. destruct (A k K) as (E & O). unfold period_mul in E. cbn [quantity ptype] in E. destruct (add_sord _ _ _ _ D E) as (O' & _). auto. }
    assert (I : increasing (map s (zrange 0 n) ++ [rend r])).
    { apply ss_app; [|repeat constructor|].
      - apply ss_zrange_map. intros i j H1 H2. destruct (O i ltac:(lia)) as (-> & _). destruct (O j ltac:(lia)) as (-> & _).
        pose proof (sord_many t (rstart r) (rqty r * i) (rqty r * (j - i)) D ltac:(nia)) as M.
        replace (rqty r * i + rqty r * (j - i)) with (rqty r * j) in M by lia. assert (P1 : 0 < rqty r * (j - i)) by nia. revert M. generalize P1. generalize (rqty r * (j - i)). intros w W M. nia.
      - intros x y I [<-|[]]. apply in_map_iff in I as (k & <- & K). apply in_zrange in K. apply O. lia. }
    split; [|split; [apply (ss_weaken (fun x y => ordinal x < ordinal y)); [intros; lia|exact I]|right; eauto]].
    intros LT. split; [assumption|]. destruct (add_some (rstart r) t (rqty r * 0) D) as (x & E).
    { intros _. rewrite Z.mul_0_r, sord_0 by assumption. apply is_date_iff; assumption. }
    destruct (add_sord _ _ _ _ D E) as (Ox & Dx). rewrite Z.mul_0_r, sord_0 in Ox by assumption.
    destruct n as [|n]; [exfalso; specialize (B 0 x ltac:(lia) E); lia|].
    destruct (A 0 ltac:(lia)) as (E0 & _). unfold period_mul in E0. cbn [quantity ptype] in E0. rewrite E in E0. injection E0 as E0.
    rewrite zrange_S. cbn [map app]. eexists. f_equal. rewrite <- E0. apply is_date_inj; [|assumption|assumption].
    apply Dx. rewrite Ox. apply is_date_iff; assumption.
Qed.
Lemma backward_last t r l : is_date (rstart r) -> is_date (rend r) -> ordinal (rstart r) < ordinal (rend r) ->
  row_spec t true r l -> exists p, l = p ++ [rend r].
Proof.
  intros D De LT (n & s & A & B & ->). destruct (add_some (rend r) t (- (rqty r * 0)) De) as (x & E).
  { intros _. replace (- (rqty r * 0)) with 0 by lia. rewrite sord_0 by assumption. apply is_date_iff; assumption. }
  destruct (add_sord _ _ _ _ De E) as (Ox & Dx). replace (- (rqty r * 0)) with 0 in Ox by lia. rewrite sord_0 in Ox by assumption.
  destruct n as [|n]; [exfalso; specialize (B 0 x ltac:(lia) E); lia|].
  destruct (A 0 ltac:(lia)) as (E0 & _). unfold date_sub, period_mul in E0. cbn [quantity ptype] in E0. rewrite E in E0. injection E0 as E0.
  rewrite zrange_S. cbn [map rev]. exists (rstart r :: rev (map s (zrange (0 + 1) n))). cbn [app]. f_equal. f_equal. f_equal.
  rewrite <- E0. apply is_date_inj; [|assumption|assumption]. apply Dx. rewrite Ox. apply is_date_iff; assumption.
Qed.

Lemma padded_nondecreasing (bw : bool) L l out : nondecreasing l -> (if bw then padded_first L else padded_last L) l out -> nondecreasing out.
Proof.
  intros S. destruct bw; intros (p & x & -> & ->).
  - apply ss_app; [apply ss_repeat; lia|assumption|]. intros a b Ha Hb. apply repeat_spec in Ha. subst a.
    destruct Hb as [<-|Hb]; [lia|]. inversion S as [|? ? ? F]; subst. rewrite Forall_forall in F. apply F; assumption.
  - apply ss_app; [assumption|apply ss_repeat; lia|]. intros a b Ha Hb. apply repeat_spec in Hb. subst b.
    apply in_app_or in Ha as [Ha|[<-|[]]]; [|lia].
    clear - S Ha. induction p; [destruct Ha|]. inversion S as [|? ? S' F]; subst. destruct Ha as [<-|Ha]; [|apply IHp; assumption].
    rewrite Forall_forall in F. apply F. apply in_or_app. right. left. reflexivity.
Qed.
Lemma padded_dates (bw : bool) L l out : Forall is_date l -> (if bw then padded_first L else padded_last L) l out -> Forall is_date out.
Proof.
  intros S. destruct bw; intros (p & x & -> & ->); apply Forall_app; (split; [|try assumption]); [|assumption|];
    apply Forall_forall; intros a Ha; apply repeat_spec in Ha; subst a.
  - inversion S; assumption.
  - rewrite Forall_forall in S. apply S. apply in_or_app. right. left. reflexivity.
Qed.

(** Elementwise adjustments. *)
Lemma map_opt_forall2 {A B} (f : A -> option B) l l' : map_opt f l = Some l' <-> Forall2 (fun x y => f x = Some y) l l'.
Proof.
  revert l'. induction l; intros l'; cbn [map_opt].
  - split; [intros [= <-]; constructor|inversion 1; reflexivity].
  - destruct (f a) eqn:E; split.
    + destruct (map_opt f l) eqn:M; [|discriminate]. intros [= <-]. constructor; [assumption|]. apply IHl. reflexivity.
    + inversion 1 as [|? ? ? l2 H1 H2]; subst. apply IHl in H2. rewrite H2. rewrite E in H1. injection H1 as ->. reflexivity.
    + discriminate.
    + inversion 1; subst. congruence.
Qed.

Lemma Forall2_nth_r {A B} (P : A -> B -> Prop) l l' : Forall2 P l l' -> forall i x, nth_error l i = Some x -> exists y, nth_error l' i = Some y /\ P x y.
Proof. induction 1; intros [|i] z E; cbn in *; try discriminate; [injection E as <-; eauto|apply IHForall2; assumption]. Qed.
Lemma Forall2_nth_l {A B} (P : A -> B -> Prop) l l' : Forall2 P l l' -> forall i y, nth_error l' i = Some y -> exists x, nth_error l i = Some x /\ P x y.
Proof. induction 1; intros [|i] z E; cbn in *; try discriminate; [injection E as <-; eauto|apply IHForall2; assumption]. Qed.

Lemma nth_error_combine {A B} (l : list A) (l' : list B) i x y : nth_error l i = Some x -> nth_error l' i = Some y -> nth_error (combine l l') i = Some (x, y).
Proof.
  revert l' i. induction l; intros [|b l'] [|i]; cbn; try discriminate; [intros [= ->] [= ->]; reflexivity|apply IHl].
Qed.

Lemma shift_to_eom_spec anchor s s' : is_date anchor -> Forall is_date s -> shift_to_eom anchor s = Some s' ->
  Forall2 (fun x x' => (last_of_month anchor /\ moved_to_eom x x') \/ (~ last_of_month anchor /\ x' = x)) s s'.
Proof.
  intros D F. unfold shift_to_eom. destruct (eom_b anchor D) as (b & -> & H). cbn [bind]. destruct b.
  - intros E. apply map_opt_forall2 in E. assert (LM : last_of_month anchor) by tauto. clear H. revert F. induction E as [|x y l l' H1 H2 IH]; intros F; [constructor|].
    inversion F; subst. constructor; [|auto]. left. split; [assumption|]. destruct (to_eom x ltac:(assumption)) as (z & Z1 & Z2). rewrite H1 in Z1. injection Z1 as ->. assumption.
  - intros [= <-]. apply Forall2_same. intros x _. right. split; [|reflexivity]. intros L. apply H in L. discriminate.
Qed.
Lemma shift_to_eom_some anchor s : is_date anchor -> Forall is_date s -> exists s', shift_to_eom anchor s = Some s'.
Proof.
  intros D F. unfold shift_to_eom. destruct (eom_b anchor D) as (b & -> & H). cbn [bind]. destruct b; [|eauto]. clear H.
  induction F; [exists []; reflexivity|]. cbn [map_opt]. destruct (to_eom x H) as (z & -> & _). destruct IHF as (s' & ->). eauto.
Qed.

(** moving to the end of month is monotone *)
Lemma eom_mono x y x' y' : is_date x -> is_date y -> moved_to_eom x x' -> moved_to_eom y y' -> ordinal x <= ordinal y -> ordinal x' <= ordinal y'.
Proof.
  intros Dx Dy (D1 & Y1 & M1 & L1) (D2 & Y2 & M2 & L2) LE.
  assert (G : forall d, is_date d -> ordinal d = ybase (year d) + mbase (year d) (month d) + day d /\ 1 <= month d <= 12 /\ 1 <= day d <= month_length (year d) (month d)).
  { intros d D. pose proof (repr_self d D) as (V & _ & N). apply is_nth_iff in N as (_ & N). unfold ymd_of in *. destruct V as (V1 & V2 & V3).
    rewrite ord_closed in N by assumption. auto. }
  destruct (G x Dx) as (Ox & Mx & Bx). destruct (G y Dy) as (Oy & My & By). destruct (G x' D1) as (Ox' & _ & _). destruct (G y' D2) as (Oy' & _ & _).
  unfold last_of_month in *. rewrite L1, Y1, M1 in Ox'. rewrite L2, Y2, M2 in Oy'. rewrite Ox', Oy'. rewrite Ox, Oy in LE.
  (* month index *)
  assert (S : forall y m, 1 <= m <= 12 -> ybase y + mbase y m = mstart (12 * y + (m - 1)) /\ month_length y m = mlen (12 * y + (m - 1))).
  { intros yy m H. unfold mstart, mlen. replace ((12 * yy + (m - 1)) / 12) with yy by (apply (Z.div_unique_pos _ 12 _ (m - 1)); lia).
    replace ((12 * yy + (m - 1)) mod 12) with (m - 1) by (apply (Z.mod_unique_pos _ 12 yy (m - 1)); lia). replace (m - 1 + 1) with m by lia. auto. }
  destruct (S (year x) (month x) Mx) as (E1 & E2). destruct (S (year y) (month y) My) as (E3 & E4).
  rewrite E1, E3, E2, E4 in *. set (i := 12 * year x + (month x - 1)) in *. set (j := 12 * year y + (month y - 1)) in *.
  assert (MM : forall a b, a <= b -> mstart a <= mstart b).
  { intros a b H. replace b with (a + Z.of_nat (Z.to_nat (b - a))) by lia. generalize (Z.to_nat (b - a)). intros k. induction k; [replace (a + Z.of_nat 0) with a by lia; lia|].
    replace (a + Z.of_nat (Datatypes.S k)) with (a + Z.of_nat k + 1) by lia. rewrite mstart_succ. unfold mlen. pose proof (month_length_bounds ((a + Z.of_nat k) / 12) ((a + Z.of_nat k) mod 12 + 1)). lia. }
  pose proof (mstart_succ i). pose proof (mstart_succ j).
  destruct (Z_le_gt_dec i j) as [H1|H1]; [pose proof (MM (i + 1) (j + 1) ltac:(lia)); lia|].
  pose proof (MM (j + 1) i ltac:(lia)). lia.
Qed.
Lemma forall2_len {A B} {P : A -> B -> Prop} {l l'} : Forall2 P l l' -> length l = length l'.
Proof. induction 1; cbn; congruence. Qed.
