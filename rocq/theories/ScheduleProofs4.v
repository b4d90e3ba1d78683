From Coq Require Import ZArith List Bool Lia ZifyBool Sorted.
From Verif Require Import DateModel DateSpec DateRepr DateProofs DateProofs2 PropsDateAux CalSpec BoundedCalModel CalSetup CalProofs CalModified BoundedCalProofs PropsCalAux ScheduleModel ScheduleSpec ScheduleProofs ScheduleProofs2 ScheduleProofs3.
Import ListNotations.
Open Scope Z_scope.

Lemma zrange_shift lo k n : zrange (lo + k) n = map (fun j => j + k) (zrange lo n).
Proof.
  revert lo. induction n; intros lo; [reflexivity|]. rewrite !zrange_S. cbn [map]. f_equal. rewrite <- IHn. f_equal. lia.
Qed.
Lemma map_gather (Fl : list Z) (f : Z -> Z) : (forall n, 0 <= n < Z.of_nat (length Fl) -> gather Fl n = Some (f n)) ->
  map f (zrange 0 (length Fl)) = Fl.
Proof.
  intros H. apply nth_ext with (d := 0) (d' := 0); [rewrite map_length, zrange_length; reflexivity|].
  intros n L. rewrite map_length, zrange_length in L. specialize (H (Z.of_nat n) ltac:(lia)).
  apply gather_some in H as (_ & H). rewrite Nat2Z.id in H. rewrite (nth_error_nth _ _ 0 H).
  rewrite (nth_error_nth (map f (zrange 0 (length Fl))) n 0 (x := f (Z.of_nat n))); [reflexivity|].
  apply map_nth_error. rewrite nth_error_zrange by assumption. reflexivity.
Qed.
Lemma busdays_filter b o1 o2 : busdays b o1 o2 = Z.of_nat (length (filter b (zrange o1 (Z.to_nat (o2 - o1))))).
Proof.
  unfold busdays. generalize (Z.to_nat (o2 - o1)). intros n. revert o1.
  induction n; intros o1; [reflexivity|]. rewrite zrange_S. cbn [count_from filter]. rewrite IHn. destruct (b o1); cbn [length]; lia.
Qed.
Lemma filter_gap b lo n : (forall k, lo <= k < lo + Z.of_nat n -> b k = false) -> filter b (zrange lo n) = [].
Proof.
  intros H. pose proof (busdays_none b lo (lo + Z.of_nat n) H) as E. rewrite busdays_filter in E.
  replace (Z.to_nat (lo + Z.of_nat n - lo)) with n in E by lia. destruct (filter b (zrange lo n)); [reflexivity|cbn in E; lia].
Qed.

Section Biz.
Variables (b : Z -> bool) (c : cal_ops) (dom : Z -> Prop).
Hypothesis dom_convex : forall a k z, dom a -> dom z -> a <= k <= z -> dom k.
Hypothesis FOL : forall d x, is_date d -> dom (ordinal d) -> op_roll c d FOLLOWING = Some x ->
  is_date x /\ following b (ordinal d) (ordinal x).
Hypothesis FOLS : forall d k, is_date d -> dom (ordinal d) -> ordinal d <= k -> dom k -> b k = true -> exists x, op_roll c d FOLLOWING = Some x.
Hypothesis PRE : forall d x, is_date d -> dom (ordinal d) -> op_roll c d PRECEDING = Some x ->
  is_date x /\ preceding b (ordinal d) (ordinal x).
Hypothesis PRES : forall d k, is_date d -> dom (ordinal d) -> k <= ordinal d -> dom k -> b k = true -> exists x, op_roll c d PRECEDING = Some x.
Hypothesis BTW : forall d1 d2, is_date d1 -> is_date d2 -> dom (ordinal d1) -> dom (ordinal d2) ->
  op_between c d1 d2 = Some (busdays b (ordinal d1) (ordinal d2)).
Hypothesis ADDS : forall d n x, is_date d -> dom (ordinal d) -> op_add c d n NONE = Some x ->
  is_date x /\ nth_business_day b (ordinal d) n (ordinal x).
Hypothesis ADDC : forall d n x, is_date d -> dom (ordinal d) -> b (ordinal d) = true -> is_date x -> dom (ordinal x) ->
  nth_business_day b (ordinal d) n (ordinal x) -> op_add c d n NONE = Some x.

Definition getd (d : date) (n : Z) : date := match op_add c d n NONE with Some x => x | None => d end.
Lemma map_opt_getd d l xs : map_opt (fun n => op_add c d n NONE) l = Some xs ->
  xs = map (getd d) l /\ forall n, In n l -> op_add c d n NONE = Some (getd d n).
Proof.
  intros E. apply map_opt_forall2 in E. induction E as [|n x l xs H F (IH & IHn)]; [split; [reflexivity|intros n []]|].
  split.
  - cbn. unfold getd at 1. rewrite H. f_equal. assumption.
  - intros k [<-|I]; [unfold getd; rewrite H; reflexivity|apply IHn; assumption].
Qed.

Section Row.
Variables s e : date.
Hypothesis (Ds : is_date s) (De : is_date e) (Os : dom (ordinal s)) (Oe : dom (ordinal e)) (bs : b (ordinal s) = true) (be : b (ordinal e) = true)
  (LE : ordinal s <= ordinal e).
Notation S0 := (ordinal s).
Notation E0 := (ordinal e).
Notation Fl := (filter b (zrange S0 (Z.to_nat (E0 - S0 + 1)))).
Notation cnt := (busdays b S0 E0).
Lemma len_Fl : Z.of_nat (length Fl) = cnt + 1.
Proof.
  pose proof (busdays_filter b S0 (E0 + 1)) as H. replace (E0 + 1 - S0) with (E0 - S0 + 1) in H by lia. rewrite <- H.
  rewrite busdays_last by assumption. unfold bz. rewrite be. reflexivity.
Qed.
Lemma Fl_nth n r : S0 <= r <= E0 -> b r = true -> busdays b S0 r = n -> gather Fl n = Some r.
Proof. intros H1 H2 H3. apply gather_filter_zrange. split; [lia|]. auto. Qed.
Lemma Fl_inv n r : gather Fl n = Some r -> S0 <= r <= E0 /\ b r = true /\ busdays b S0 r = n.
Proof. intros H. apply gather_filter_zrange in H as (H1 & H2 & H3). split; [lia|]. auto. Qed.

Lemma row_forward M xs : cnt + 1 <= M -> map_opt (fun n => op_add c s n NONE) (zrange 0 (Z.to_nat M)) = Some xs ->
  exists F, Forall is_date F /\ map ordinal F = Fl /\ (exists p, F = p ++ [e]) /\
    map (fun d => if ordinal d <=? E0 then d else e) xs = F ++ repeat e (Z.to_nat M - length F).
Proof.
  intros HM E. apply map_opt_getd in E as (-> & G). pose proof (busdays_nonneg b S0 E0).
  assert (A : forall n, 0 <= n < M -> is_date (getd s n) /\ nth_business_day b S0 n (ordinal (getd s n))).
  { intros n Hn. apply ADDS; [assumption|assumption|]. apply G. apply in_zrange. lia. }
  assert (B : forall n, 0 <= n <= cnt -> gather Fl n = Some (ordinal (getd s n))).
  { intros n Hn. destruct (A n ltac:(lia)) as (_ & NB). destruct NB as (Br & [(H1 & H2 & H3)|(H1 & _)]); [|lia].
    apply Fl_nth; [|assumption|assumption]. split; [assumption|].
    destruct (Z_le_gt_dec (ordinal (getd s n)) E0); [assumption|]. exfalso.
    pose proof (busdays_mono b S0 (E0 + 1) (ordinal (getd s n)) ltac:(lia) ltac:(lia)).
    rewrite busdays_last in H0 by assumption. unfold bz in H0. rewrite be in H0. lia. }
  exists (map (getd s) (zrange 0 (length Fl))). pose proof len_Fl as LF.
  split; [|split; [|split]].
  - apply Forall_forall. intros x I. apply in_map_iff in I as (n & <- & I). apply in_zrange in I. apply A. lia.
  - rewrite map_map. apply map_gather. intros n Hn. apply B. lia.
  - replace (length Fl) with (Z.to_nat cnt + 1)%nat by lia. rewrite zrange_app, map_app, (zrange_S _ 0). eexists. cbn [map]. f_equal.
    replace (0 + Z.of_nat (Z.to_nat cnt)) with cnt by lia. destruct (A cnt ltac:(lia)) as (Dg & NB). change (zrange (cnt + 1) 0) with (@nil Z). cbn [map]. f_equal. apply is_date_inj; [assumption|assumption|].
    apply (nth_business_day_unique b S0 cnt); [assumption|]. split; [assumption|]. left. lia.
  - rewrite map_length, zrange_length. replace (Z.to_nat M) with (length Fl + (Z.to_nat M - length Fl))%nat at 1 by lia.
    rewrite zrange_app, map_app, map_app. f_equal.
    + rewrite <- (map_id (map (getd s) (zrange 0 (length Fl)))) at 2. apply map_ext_in. intros x I. apply in_map_iff in I as (n & <- & I). apply in_zrange in I.
      specialize (B n ltac:(lia)). apply Fl_inv in B as (B & _). replace (ordinal (getd s n) <=? E0) with true by lia. reflexivity.
    + rewrite (map_const_repeat _ e); [rewrite map_length, zrange_length; reflexivity|].
      intros x I. apply in_map_iff in I as (n & <- & I). apply in_zrange in I. destruct (A n ltac:(lia)) as (_ & (Br & [(H1 & H2 & H3)|(H1 & _)])); [|lia].
      destruct (ordinal (getd s n) <=? E0) eqn:C; [|reflexivity]. exfalso.
      pose proof (busdays_mono b S0 (ordinal (getd s n)) E0 ltac:(lia) ltac:(lia)). lia.
Qed.

Lemma row_backward M xs : cnt + 1 <= M -> map_opt (fun n => op_add c e n NONE) (zrange (- M + 1) (Z.to_nat M)) = Some xs ->
  exists F, Forall is_date F /\ map ordinal F = Fl /\ (exists q, F = s :: q) /\
    map (fun d => if S0 <=? ordinal d then d else s) xs = repeat s (Z.to_nat M - length F) ++ F.
Proof.
  intros HM E. apply map_opt_getd in E as (-> & G). pose proof (busdays_nonneg b S0 E0).
  assert (A : forall n, - M < n <= 0 -> is_date (getd e n) /\ nth_business_day b E0 n (ordinal (getd e n))).
  { intros n Hn. apply ADDS; [assumption|assumption|]. apply G. apply in_zrange. lia. }
  assert (A' : forall n, - M < n <= 0 -> ordinal (getd e n) <= E0 /\ busdays b (ordinal (getd e n)) E0 = - n /\ b (ordinal (getd e n)) = true).
  { intros n Hn. destruct (A n Hn) as (_ & (Br & [(H1 & H2 & H3)|(H1 & H2 & H3)])); [|split; [lia|auto]].
    assert (n = 0) by lia. subst n. destruct (Z.eq_dec (ordinal (getd e 0)) E0) as [->|N]; [split; [lia|]; rewrite busdays_empty by lia; auto|].
    exfalso. pose proof (busdays_pos b E0 (ordinal (getd e 0)) E0 ltac:(lia) be). lia. }
  assert (B : forall n, - cnt <= n <= 0 -> gather Fl (n + cnt) = Some (ordinal (getd e n))).
  { intros n Hn. destruct (A' n ltac:(lia)) as (H1 & H2 & Br).
    assert (S0 <= ordinal (getd e n)).
    { destruct (Z_le_gt_dec S0 (ordinal (getd e n))); [assumption|]. exfalso.
      rewrite (busdays_split b (ordinal (getd e n)) S0 E0) in H2 by lia.
      pose proof (busdays_pos b (ordinal (getd e n)) S0 (ordinal (getd e n)) ltac:(lia) Br). lia. }
    apply Fl_nth; [lia|assumption|]. rewrite (busdays_split b S0 (ordinal (getd e n)) E0) by lia. lia. }
  pose proof len_Fl as LF.
  exists (map (getd e) (zrange (- cnt) (length Fl))).
  split; [|split; [|split]].
  - apply Forall_forall. intros x I. apply in_map_iff in I as (n & <- & I). apply in_zrange in I. apply A. lia.
  - rewrite map_map. replace (- cnt) with (0 + (- cnt)) by lia. rewrite zrange_shift, map_map. apply map_gather. intros n Hn.
    specialize (B (n + - cnt) ltac:(lia)). replace (n + - cnt + cnt) with n in B by lia. assumption.
  - replace (length Fl) with (S (Z.to_nat cnt))%nat by lia. rewrite zrange_S. cbn [map]. eexists. f_equal.
    destruct (A (- cnt) ltac:(lia)) as (Dg & NB). apply is_date_inj; [assumption|assumption|].
    specialize (B (- cnt) ltac:(lia)). replace (- cnt + cnt) with 0 in B by lia. rewrite (Fl_nth 0 S0) in B; [congruence|lia|assumption|apply busdays_empty; lia].
  - rewrite map_length, zrange_length. replace (Z.to_nat M) with ((Z.to_nat M - length Fl) + length Fl)%nat at 1 by lia.
    rewrite zrange_app, map_app, map_app. replace (- M + 1 + Z.of_nat (Z.to_nat M - length Fl)) with (- cnt) by lia. f_equal.
    + rewrite (map_const_repeat _ s); [rewrite map_length, zrange_length; reflexivity|].
      intros x I. apply in_map_iff in I as (n & <- & I). apply in_zrange in I. destruct (A' n ltac:(lia)) as (H1 & H2 & Br).
      destruct (S0 <=? ordinal (getd e n)) eqn:C; [|reflexivity]. exfalso.
      rewrite (busdays_split b S0 (ordinal (getd e n)) E0) in LF by lia. pose proof (busdays_nonneg b S0 (ordinal (getd e n))). lia.
    + rewrite <- (map_id (map (getd e) (zrange (- cnt) (length Fl)))) at 2. apply map_ext_in. intros x I. apply in_map_iff in I as (n & <- & I). apply in_zrange in I.
      specialize (B n ltac:(lia)). apply Fl_inv in B as (B & _). replace (S0 <=? ordinal (getd e n)) with true by lia. reflexivity.
Qed.

Lemma gather_ex n : 0 <= n < Z.of_nat (length Fl) -> exists r, gather Fl n = Some r.
Proof.
  intros H. unfold gather. replace (n <? 0) with false by lia.
  destruct (nth_error Fl (Z.to_nat n)) eqn:E; [eauto|]. apply nth_error_None in E. lia.
Qed.
Lemma row_defined n : 0 <= n <= cnt -> exists x, op_add c s n NONE = Some x.
Proof.
  intros H. pose proof len_Fl. destruct (gather_ex n ltac:(lia)) as (r & R). apply Fl_inv in R as (R1 & R2 & R3).
  assert (1 <= S0) by (apply is_date_iff; assumption).
  destruct (is_date_from r ltac:(lia)) as (D & O). exists (from_ordinal_unchecked r). apply ADDC; auto; rewrite O.
  - apply (dom_convex S0 r E0); auto.
  - split; [assumption|]. left. lia.
Qed.
Lemma row_defined_b n : - cnt <= n <= 0 -> exists x, op_add c e n NONE = Some x.
Proof.
  intros H. pose proof len_Fl. destruct (gather_ex (n + cnt) ltac:(lia)) as (r & R). apply Fl_inv in R as (R1 & R2 & R3).
  assert (1 <= S0) by (apply is_date_iff; assumption).
  destruct (is_date_from r ltac:(lia)) as (D & O). exists (from_ordinal_unchecked r). apply ADDC; auto; rewrite O.
  - apply (dom_convex S0 r E0); auto.
  - rewrite (busdays_split b S0 r E0) in R3 by lia. split; [assumption|].
    destruct (Z.eq_dec r E0) as [->|N]; [left; pose proof (busdays_empty b E0 E0 ltac:(lia)); split; [|split]; lia|right].
    pose proof (busdays_pos b r E0 r ltac:(lia) R2). split; [lia|]. split; lia.
Qed.
End Row.

(** filters over the original range and over the rolled one agree *)
Lemma filter_rolled s e s' e' : following b s s' -> preceding b e e' -> s' <= e' ->
  filter b (zrange s (Z.to_nat (e - s + 1))) = filter b (zrange s' (Z.to_nat (e' - s' + 1))).
Proof.
  intros (F1 & F2 & F3) (P1 & P2 & P3) L.
  replace (Z.to_nat (e - s + 1)) with (Z.to_nat (s' - s) + (Z.to_nat (e' - s' + 1) + Z.to_nat (e - e')))%nat by lia.
  rewrite zrange_app, filter_app, zrange_app, filter_app.
  rewrite (filter_gap b s) by (intros k K; apply F3; lia).
  replace (s + Z.of_nat (Z.to_nat (s' - s))) with s' by lia.
  rewrite (filter_gap b (s' + Z.of_nat (Z.to_nat (e' - s' + 1)))) by (intros k K; apply P3; lia). rewrite app_nil_r. reflexivity.
Qed.

Definition brow_spec (r : date * date) (l : list date) : Prop := business_dates b (fst r) (snd r) l.

Lemma forall2_compose {A B C} (P : A -> B -> Prop) (Q : B -> C -> Prop) l1 l2 l3 :
  Forall2 P l1 l2 -> Forall2 Q l2 l3 -> Forall2 (fun x z => exists y, P x y /\ Q y z) l1 l3.
Proof. intros H. revert l3. induction H; inversion 1; subst; constructor; eauto. Qed.
Lemma forall2_impl {A B} (P Q : A -> B -> Prop) l1 l2 : (forall x y, In x l1 -> In y l2 -> P x y -> Q x y) -> Forall2 P l1 l2 -> Forall2 Q l1 l2.
Proof. intros H F. induction F; constructor; [apply H; [left; reflexivity|left; reflexivity|assumption]|apply IHF; intros; apply H; [right|right|]; assumption]. Qed.
Lemma forall2_choice {A B C} (P : A -> B -> C -> Prop) l1 l2 : Forall2 (fun x y => exists z, P x y z) l1 l2 ->
  exists l3, Forall2 (fun x z => exists y, P x y z) l1 l3 /\ Forall2 (fun z y => exists x, In x l1 /\ P x y z) l3 l2.
Proof.
  induction 1 as [|x y l1 l2 (z & Z) F (l3 & H1 & H2)]; [exists []; split; constructor|].
  exists (z :: l3). split; constructor; eauto.
  - exists x. split; [left; reflexivity|assumption].
  - eapply forall2_impl; [|exact H2]. cbv beta. intros a b0 _ _ (x0 & I & X). exists x0. split; [right; assumption|assumption].
Qed.

Theorem business_schedule_sound rows bw out : rows <> [] ->
  Forall (fun r => is_date (fst r) /\ is_date (snd r) /\ dom (ordinal (fst r)) /\ dom (ordinal (snd r))) rows ->
  business_day_schedule c rows bw = Some out -> batch brow_spec bw rows out.
Proof.
  intros NE OK E. unfold business_day_schedule in E.
  destruct (map_opt _ rows) as [rows'|] eqn:M in E; [|discriminate]. cbn [bind] in E. apply map_opt_forall2 in M.
  destruct (forallb (fun '(s, e) => ordinal s <=? ordinal e) rows') eqn:FB; [|discriminate]. cbn [negb] in E.
  destruct (map_opt _ rows') as [counts|] eqn:MC in E; [|discriminate]. cbn [bind] in E. apply map_opt_forall2 in MC.
  rewrite forallb_forall in FB.
  (* facts about each rolled row *)
  assert (RR : Forall2 (fun r r' => following b (ordinal (fst r)) (ordinal (fst r')) /\ preceding b (ordinal (snd r)) (ordinal (snd r')) /\
     ordinal (fst r') <= ordinal (snd r') /\ is_date (fst r') /\ is_date (snd r') /\ dom (ordinal (fst r')) /\ dom (ordinal (snd r'))) rows rows').
  { eapply forall2_impl; [|exact M]. intros [s e] [s' e'] I I' H. cbn [fst snd]. rewrite Forall_forall in OK. specialize (OK _ I). cbn [fst snd] in OK.
    destruct OK as (Ds & De & Os & Oe). specialize (FB _ I'). cbv beta iota in FB, H.
    destruct (op_roll c s FOLLOWING) as [s1|] eqn:R1; [|discriminate]. cbn [bind] in H.
    destruct (op_roll c e PRECEDING) as [e1|] eqn:R2; [|discriminate]. cbn [option_map] in H. injection H as -> ->.
    destruct (FOL s s' Ds Os R1) as (D1 & F1). destruct (PRE e e' De Oe R2) as (D2 & F2).
    pose proof F1 as (X1 & _). pose proof F2 as (X2 & _).
    split; [assumption|]. split; [assumption|]. split; [lia|]. split; [assumption|]. split; [assumption|].
    split; apply (dom_convex (ordinal s) _ (ordinal e)); auto; lia. }
  assert (MC' : Forall2 (fun r n => n = busdays b (ordinal (fst r)) (ordinal (snd r))) rows' counts).
  { eapply forall2_impl; [|exact MC]. intros [s' e'] n I' _ H. cbn [fst snd]. cbv beta iota in H.
    destruct (In_nth_error _ _ I') as (i & Hi). destruct (Forall2_nth_l _ _ _ RR i _ Hi) as ([s e] & _ & (_ & _ & L & D1 & D2 & O1 & O2)). cbn [fst snd] in *.
    rewrite BTW in H by assumption. congruence. }
  assert (NE' : counts <> []).
  { intros ->. inversion MC'; subst. inversion RR; subst. congruence. }
  destruct (reduce_max_spec counts NE') as (m & EM & IM & MM). rewrite EM in E.
  assert (Mnn : 0 <= m).
  { destruct (In_nth_error _ _ IM) as (i & Hi). destruct (Forall2_nth_l _ _ _ MC' i _ Hi) as (r & _ & ->). apply busdays_nonneg. }
  rewrite Z.abs_eq in E by assumption. set (L := m + 1) in *.
  assert (CL : forall r', In r' rows' -> busdays b (ordinal (fst r')) (ordinal (snd r')) + 1 <= L).
  { intros r' I. destruct (In_nth_error _ _ I) as (i & Hi). destruct (Forall2_nth_r _ _ _ MC' i _ Hi) as (n & Hn & ->).
    apply nth_error_In in Hn. specialize (MM _ Hn). unfold L. lia. }
  apply map_opt_forall2 in E.
  assert (X : Forall2 (fun r o => exists F, (business_dates b (fst r) (snd r) F /\ Z.of_nat (length F) <= L) /\ (if bw then padded_first (Z.to_nat L) else padded_last (Z.to_nat L)) F o) rows out).
  { assert (Y := forall2_compose _ _ _ _ _ RR E). eapply forall2_impl; [|exact Y]. clear Y.
    intros [s e] o I _ ([s' e'] & (F & P & LE & D1 & D2 & O1 & O2) & H). cbn [fst snd] in *.
    assert (I' : busdays b (ordinal s') (ordinal e') + 1 <= L).
    { (* the pair is in rows' *) clear - CL RR MC' H F P LE D1 D2 I NE' MM EM IM Mnn L FOL PRE M OK.
      destruct (In_nth_error _ _ I) as (i & Hi). destruct (Forall2_nth_r _ _ _ RR i _ Hi) as ([s1 e1] & H1 & (F1 & P1 & _ & Ds1 & De1 & _)). cbn [fst snd] in *.
      apply nth_error_In in H1. specialize (CL _ H1). cbn [fst snd] in CL.
      rewrite (following_unique _ _ _ _ F F1), (preceding_unique _ _ _ _ P P1). assumption. }
    pose proof F as (_ & bs & _). pose proof P as (_ & be & _).
    assert (LF : Z.of_nat (length (filter b (zrange (ordinal s') (Z.to_nat (ordinal e' - ordinal s' + 1))))) = busdays b (ordinal s') (ordinal e') + 1) by (apply len_Fl; assumption).
    destruct bw; cbv beta iota in H.
    - destruct (map_opt _ (zrange _ _)) as [xs|] eqn:MX in H; [|discriminate]. cbn [option_map] in H. injection H as <-.
      edestruct (row_backward s' e') as (Fd & A1 & A2 & (q & A3) & A4); try eassumption.
      exists Fd. split.
      + split; [split; [assumption|]; cbn [fst snd]; rewrite A2; symmetry; apply filter_rolled; assumption|]. rewrite <- (map_length ordinal Fd), A2. lia.
      + exists s', q. split; [assumption|]. exact A4.
    - destruct (map_opt _ (zrange _ _)) as [xs|] eqn:MX in H; [|discriminate]. cbn [option_map] in H. injection H as <-.
      edestruct (row_forward s' e') as (Fd & A1 & A2 & (p & A3) & A4); try eassumption.
      exists Fd. split.
      + split; [split; [assumption|]; cbn [fst snd]; rewrite A2; symmetry; apply filter_rolled; assumption|]. rewrite <- (map_length ordinal Fd), A2. lia.
      + exists p, e'. split; [assumption|]. exact A4. }
  destruct (forall2_choice _ _ _ X) as (ls & H1 & H2). exists ls, (Z.to_nat L). split; [|split].
  - eapply forall2_impl; [|exact H1]. intros r l _ _ (o & (B & _) & _). exact B.
  - split.
    + destruct (In_nth_error _ _ IM) as (i & Hi). destruct (Forall2_nth_l _ _ _ MC' i _ Hi) as ([s' e'] & Hr' & EQ).
      destruct (Forall2_nth_l _ _ _ RR i _ Hr') as ([s e] & Hr & (F & P & LE & D1 & D2 & O1 & O2)). destruct (Forall2_nth_r _ _ _ H1 i _ Hr) as (l & Hl & (o & ((_ & B) & _) & _)).
      exists l. split; [apply nth_error_In in Hl; assumption|]. cbn [fst snd] in *.
      rewrite <- (map_length ordinal l), B, (filter_rolled _ _ _ _ F P LE). pose proof P as (_ & be & _). pose proof F as (_ & bs & _). assert (LF : Z.of_nat (length (filter b (zrange (ordinal s') (Z.to_nat (ordinal e' - ordinal s' + 1))))) = busdays b (ordinal s') (ordinal e') + 1) by (apply len_Fl; assumption). unfold L. lia.
    + intros l I. destruct (In_nth_error _ _ I) as (i & Hi). destruct (Forall2_nth_l _ _ _ H1 i _ Hi) as (r & _ & (o & (_ & B) & _)). lia.
  - eapply forall2_impl; [|exact H2]. cbv beta. intros l o _ _ (r & _ & (_ & B)). exact B.
Qed.

(** A single row with a business day always has a schedule; a batch does when
    business days can always be added. *)
Theorem business_schedule_defined rows (bw : bool) :
  Forall (fun r => is_date (fst r) /\ is_date (snd r) /\ dom (ordinal (fst r)) /\ dom (ordinal (snd r)) /\
     exists k, ordinal (fst r) <= k <= ordinal (snd r) /\ b k = true) rows ->
  (exists r, rows = [r]) \/ (bw = false /\ forall d n, is_date d -> dom (ordinal d) -> b (ordinal d) = true -> 0 <= n -> exists x, op_add c d n NONE = Some x) ->
  exists out, business_day_schedule c rows bw = Some out.
Proof.
  intros OK CASE. unfold business_day_schedule.
  assert (RR : exists rows', map_opt (fun '(s, e) => bind (op_roll c s FOLLOWING) (fun s' =>
                                option_map (fun e' => (s', e')) (op_roll c e PRECEDING))) rows = Some rows' /\
     length rows' = length rows /\
     Forall (fun r' => ordinal (fst r') <= ordinal (snd r') /\ is_date (fst r') /\ is_date (snd r') /\ dom (ordinal (fst r')) /\ dom (ordinal (snd r')) /\
        b (ordinal (fst r')) = true /\ b (ordinal (snd r')) = true) rows').
  { clear CASE. induction OK as [|[s e] rows (Ds & De & Os & Oe & k & K & Bk) OK (rows' & E & LL & F)]; [exists []; split; [reflexivity|split; [reflexivity|constructor]]|].
    cbn [fst snd] in *. assert (dom k) by (apply (dom_convex (ordinal s) _ (ordinal e)); auto).
    destruct (FOLS s k Ds Os ltac:(lia) H Bk) as (s' & R1). destruct (PRES e k De Oe ltac:(lia) H Bk) as (e' & R2).
    cbn [map_opt]. rewrite R1. cbn [bind]. rewrite R2. cbn [option_map]. rewrite E. eexists. split; [reflexivity|]. split; [cbn; lia|]. constructor; [|assumption].
    cbn [fst snd]. destruct (FOL s s' Ds Os R1) as (D1 & (F1 & F2 & F3)). destruct (PRE e e' De Oe R2) as (D2 & (P1 & P2 & P3)).
    assert (ordinal s' <= k) by (destruct (Z_le_gt_dec (ordinal s') k); [assumption|]; rewrite F3 in Bk by lia; discriminate).
    assert (k <= ordinal e') by (destruct (Z_le_gt_dec k (ordinal e')); [assumption|]; rewrite P3 in Bk by lia; discriminate).
    split; [lia|]. split; [assumption|]. split; [assumption|]. split; [|split; [|auto]]; apply (dom_convex (ordinal s) _ (ordinal e)); auto; lia. }
  destruct RR as (rows' & -> & LL & F). cbn [bind]. rewrite Forall_forall in F.
  replace (forallb (fun '(s, e) => ordinal s <=? ordinal e) rows') with true
    by (symmetry; apply forallb_forall; intros [s e] I; specialize (F _ I); cbn [fst snd] in F; lia).
  cbn [negb]. rewrite (map_opt_some _ (fun r => busdays b (ordinal (fst r)) (ordinal (snd r)))).
  2:{ intros [s e] I. specialize (F _ I). cbn [fst snd] in *. apply BTW; tauto. }
  cbn [bind].
  assert (G : forall {A B} (f : A -> option B) l, (forall x, In x l -> exists y, f x = Some y) -> exists ys, map_opt f l = Some ys).
  { intros A B f. induction l; intros H; [exists []; reflexivity|]. destruct (H a (or_introl eq_refl)) as (y & Y).
    destruct IHl as (ys & YS); [intros; apply H; right; assumption|]. cbn [map_opt]. rewrite Y, YS. eauto. }
  apply G. intros [s' e'] I. specialize (F _ I) as FF. cbn [fst snd] in FF. destruct FF as (LE & D1 & D2 & O1 & O2 & bs & be).
  destruct CASE as [(r & ->)|(-> & ADD)].
  - destruct rows' as [|r' [|? ?]]; cbn in LL; try discriminate LL; try lia. destruct I as [->|[]]. cbn [map reduce_max fold_left fst snd].
    rewrite Z.abs_eq by apply busdays_nonneg. pose proof (busdays_nonneg b (ordinal s') (ordinal e')).
    destruct bw.
    + destruct (G _ _ (fun n => op_add c e' n NONE) (zrange (- (busdays b (ordinal s') (ordinal e') + 1) + 1) (Z.to_nat (busdays b (ordinal s') (ordinal e') + 1)))) as (ys & ->); [|eexists; reflexivity].
      intros n Hn. apply in_zrange in Hn. apply (row_defined_b s' e'); auto. lia.
    + destruct (G _ _ (fun n => op_add c s' n NONE) (zrange 0 (Z.to_nat (busdays b (ordinal s') (ordinal e') + 1)))) as (ys & ->); [|eexists; reflexivity].
      intros n Hn. apply in_zrange in Hn. apply (row_defined s' e'); auto. lia.
  - match goal with |- context [zrange 0 ?M] => destruct (G _ _ (fun n => op_add c s' n NONE) (zrange 0 M)) as (ys & ->); [|eexists; reflexivity] end.
    intros n Hn. apply in_zrange in Hn. apply ADD; auto. lia.
Qed.
End Biz.
