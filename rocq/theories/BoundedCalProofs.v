From Coq Require Import ZArith List Bool Lia ZifyBool.
From Verif Require Import DateModel DateSpec DateRepr DateProofs DateProofs2 PropsDateAux CalSpec BoundedCalModel CalProofs.
Import ListNotations.
Open Scope Z_scope.

Lemma combine_map {A B C} (f : A -> B) (g : A -> C) l :
  combine (map f l) (map g l) = map (fun x => (f x, g x)) l.
Proof. induction l; cbn; [reflexivity|]. f_equal. assumption. Qed.

Lemma zrange_shift lo n : zrange lo n = map (fun i => lo + i) (zrange 0 n).
Proof. unfold zrange. rewrite map_map. apply map_ext. intros; lia. Qed.

Lemma gather_mask mask o : length mask = 7%nat ->
  gather (map b2z mask) ((o - 1) mod 7) = Some (b2z (day_off mask o)).
Proof.
  intros L. pose proof (Z.mod_pos_bound (o - 1) 7 ltac:(lia)) as H.
  unfold gather, day_off. replace ((o - 1) mod 7 <? 0) with false by lia.
  rewrite (map_nth_error b2z _ mask (d := nth (Z.to_nat ((o - 1) mod 7)) mask false)); [reflexivity|].
  apply nth_error_nth'. lia.
Qed.

Lemma occurrences_notin i l : ~ In i l -> occurrences i l = 0.
Proof.
  induction l; intros H; [reflexivity|]. cbn. cbn in H. destruct (a =? i) eqn:E; [lia|]. rewrite IHl; tauto.
Qed.
Lemma occurrences_nodup i l : NoDup l -> occurrences i l = b2z (existsb (Z.eqb i) l).
Proof.
  induction l; intros H; [reflexivity|]. inversion H; subst. cbn. destruct (Z.eqb_spec a i).
  - subst. rewrite Z.eqb_refl. rewrite occurrences_notin by assumption. reflexivity.
  - replace (i =? a) with false by lia. cbn. apply IHl; assumption.
Qed.
Lemma occurrences_shift i k l : occurrences i (map (fun o => o - k) l) = occurrences (k + i) l.
Proof. induction l; cbn; [reflexivity|]. rewrite IHl. replace (a - k =? i) with (a =? k + i) by lia. reflexivity. Qed.

(** A calendar built from mask [mask] and duplicate-free holidays [hol]. *)
Record bcal_ok (mask : list bool) (hol : list Z) (c : bcal) : Prop := {
  ok_mask : bmask c = map b2z mask;
  ok_len : length mask = 7%nat;
  ok_size : 0 <= bsize c;
  ok_off : 1 <= boffset c;
  ok_hol : bholidays c = Some hol \/ (bholidays c = None /\ hol = []);
  ok_nodup : NoDup hol;
  ok_in : forall h, In h hol -> boffset c <= h < boffset c + bsize c }.

Section Cal.
Variables (mask : list bool) (hol : list Z) (c : bcal).
Hypothesis OK : bcal_ok mask hol c.
Notation off := (boffset c).
Notation sz := (bsize c).
Notation b := (business mask hol).

(** Business days including the two artificial ones. *)
Definition bx (o : Z) : bool := (o =? off - 1) || (o =? off + sz) || b o.
Definition n2 : nat := Z.to_nat (sz + 2).

Lemma bx_in o : off <= o < off + sz -> bx o = b o.
Proof. intros. unfold bx. replace (o =? off - 1) with false by lia. replace (o =? off + sz) with false by lia. reflexivity. Qed.

Lemma table_eq : is_bus_day_table c = Some (map (bz bx) (zrange (off - 1) n2)).
Proof.
  destruct OK as [HM HL HS HO HH HN HI].
  unfold is_bus_day_table. replace (sz <? 0) with false by lia. rewrite HM.
  rewrite (map_opt_some _ (fun o => b2z (day_off mask o))) by (intros; apply gather_mask; assumption).
  cbn [bind].
  assert (E : (match bholidays c with
        | None => Some (map (fun o => b2z (day_off mask o)) (zrange off (Z.to_nat sz)))
        | Some h =>
            bind (scatter_ones (map (fun o => o - off) h) (Z.to_nat sz)) (fun ones_at =>
            Some (map (fun '(a, b) => Z.lor a b)
              (combine (map (fun o => b2z (day_off mask o)) (zrange off (Z.to_nat sz))) ones_at)))
        end) = Some (map (fun o => 1 - b2z (b o)) (zrange off (Z.to_nat sz)))).
  { destruct HH as [-> | [-> HH]].
    - unfold scatter_ones.
      replace (forallb _ _) with true.
      2:{ symmetry. apply forallb_forall. intros x Hx. apply in_map_iff in Hx as (h & <- & Hx). apply HI in Hx. lia. }
      cbn [bind]. f_equal. rewrite (zrange_shift off). rewrite !map_map, combine_map, map_map.
      apply map_ext. intros i. rewrite occurrences_shift, occurrences_nodup by assumption.
      unfold business. destruct (day_off mask (off + i)), (existsb (Z.eqb (off + i)) hol); reflexivity.
    - rewrite HH. f_equal. apply map_ext. intros i. unfold business. destruct (day_off mask i); reflexivity. }
  rewrite E. cbn [bind]. f_equal. unfold n2.
  replace (Z.to_nat (sz + 2)) with (S (Z.to_nat sz + 1)) by lia.
  rewrite zrange_S, zrange_app. cbn [map]. rewrite map_app.
  replace (off - 1 + 1) with off by lia.
  change ([1] ++ ?x) with (1 :: x). f_equal; [unfold bz, bx; rewrite Z.eqb_refl; reflexivity|].
  f_equal.
  - rewrite map_map. apply map_ext_in. intros o Ho. apply in_zrange in Ho. unfold bz.
    rewrite bx_in by lia. destruct (b o); reflexivity.
  - rewrite zrange_S. cbn. unfold bz, bx. replace (off + Z.of_nat (Z.to_nat sz)) with (off + sz) by lia.
    rewrite (Z.eqb_refl (off + sz)), orb_true_r. reflexivity.
Qed.

Definition rk (o : Z) : Z := busdays bx (off - 1) o.

Lemma cumul_eq : cumul_bus_days_table c = Some (map rk (zrange (off - 1) n2)).
Proof.
  unfold cumul_bus_days_table. rewrite table_eq. cbn [option_map]. f_equal. unfold cumsum_excl. rewrite cumsum_zrange.
  apply map_ext. intros; unfold rk; lia.
Qed.

Lemma busord_eq : bus_day_ordinals_table c = Some (filter bx (zrange (off - 1) n2)).
Proof.
  unfold bus_day_ordinals_table. rewrite table_eq. cbn [option_map]. f_equal.
  rewrite <- (where_zrange bx n2 0 (off - 1)). apply map_ext. intros; lia.
Qed.

Lemma n2_Z : Z.of_nat n2 = sz + 2.
Proof. destruct OK. unfold n2. lia. Qed.

(** range of the extended table *)
Definition ext (o : Z) : Prop := off - 1 <= o <= off + sz.

Lemma bgather_map f o : ext o -> bgather c (map f (zrange (off - 1) n2)) (o - off + 1) = Some (f o).
Proof.
  unfold ext. intros H. pose proof n2_Z. unfold bgather.
  replace ((0 <=? o - off + 1) && (o - off + 1 <? sz + 2)) with true by lia.
  rewrite gather_map_zrange by lia. do 2 f_equal. lia.
Qed.
Lemma bgather_out t o : ~ ext o -> bgather c t (o - off + 1) = None.
Proof.
  unfold ext. intros H. unfold bgather.
  replace ((0 <=? o - off + 1) && (o - off + 1 <? sz + 2)) with false by lia. reflexivity.
Qed.

Lemma bx_ends : bx (off - 1) = true /\ bx (off + sz) = true.
Proof. unfold bx. rewrite !Z.eqb_refl, orb_true_r. split; reflexivity. Qed.

Lemma bus_select k r : gather (filter bx (zrange (off - 1) n2)) k = Some r <->
  ext r /\ bx r = true /\ rk r = k.
Proof. rewrite gather_filter_zrange, n2_Z. unfold ext, rk. split; intros (A & B & C); (split; [lia|split; assumption]). Qed.

Definition ftab (o : Z) (r : Z) : Prop := ext r /\ following bx o r.

Lemma fol_exists o : ext o -> exists r, ext r /\ following bx o r.
Proof.
  unfold ext. intros H. destruct (following_exists bx o (off + sz) ltac:(lia) (proj2 bx_ends)) as (r & F & L).
  exists r. split; [|assumption]. destruct F. lia.
Qed.
Lemma pre_exists o : ext o -> exists r, ext r /\ preceding bx o r.
Proof.
  unfold ext. intros H. destruct (preceding_exists bx o (off - 1) ltac:(lia) (proj1 bx_ends)) as (r & F & L).
  exists r. split; [|assumption]. destruct F. lia.
Qed.

Lemma fol_gather o r : ext o -> ext r -> following bx o r ->
  gather (filter bx (zrange (off - 1) n2)) (rk o) = Some r.
Proof.
  intros Ho Hr F. apply bus_select. split; [assumption|]. split; [apply F|].
  unfold rk. apply following_rank; [unfold ext in Ho; lia|assumption].
Qed.
Lemma pre_gather o r : ext o -> ext r -> preceding bx o r ->
  gather (filter bx (zrange (off - 1) n2)) (rk o - (1 - bz bx o)) = Some r.
Proof.
  intros Ho Hr F. apply bus_select. split; [assumption|]. split; [apply F|].
  unfold rk. apply preceding_rank; [unfold ext in Hr; lia|assumption].
Qed.

(** The functions computed by the tables. *)
Definition ff (o : Z) : Z := match gather (filter bx (zrange (off - 1) n2)) (rk o) with Some r => r | None => 0 end.
Definition pf (o : Z) : Z := match gather (filter bx (zrange (off - 1) n2)) (rk o - (1 - bz bx o)) with Some r => r | None => 0 end.

Lemma ff_spec o : ext o -> ext (ff o) /\ following bx o (ff o) /\
  gather (filter bx (zrange (off - 1) n2)) (rk o) = Some (ff o).
Proof.
  intros H. destruct (fol_exists o H) as (r & E & F). pose proof (fol_gather o r H E F) as G.
  unfold ff. rewrite G. auto.
Qed.
Lemma pf_spec o : ext o -> ext (pf o) /\ preceding bx o (pf o) /\
  gather (filter bx (zrange (off - 1) n2)) (rk o - (1 - bz bx o)) = Some (pf o).
Proof.
  intros H. destruct (pre_exists o H) as (r & E & F). pose proof (pre_gather o r H E F) as G.
  unfold pf. rewrite G. auto.
Qed.

Lemma in_ext o : In o (zrange (off - 1) n2) -> ext o.
Proof. intros H. apply in_zrange in H. rewrite n2_Z in H. unfold ext. lia. Qed.

Lemma map_opt_map {A B C} (f : B -> option C) (g : A -> B) l : map_opt f (map g l) = map_opt (fun x => f (g x)) l.
Proof. induction l; cbn; [reflexivity|]. rewrite IHl. reflexivity. Qed.

Lemma following_table_eq : following_table c = Some (map ff (zrange (off - 1) n2)).
Proof.
  unfold following_table. rewrite cumul_eq, busord_eq. cbn [bind]. rewrite map_opt_map.
  apply map_opt_some. intros o H. apply ff_spec. apply in_ext; assumption.
Qed.
Lemma preceding_table_eq : preceding_table c = Some (map pf (zrange (off - 1) n2)).
Proof.
  unfold preceding_table. rewrite cumul_eq, busord_eq, table_eq. cbn [bind]. rewrite combine_map, map_opt_map.
  apply map_opt_some. intros o H. apply pf_spec. apply in_ext; assumption.
Qed.

Lemma in_bounds_iff o : in_bounds c o = true <-> off <= o < off + sz.
Proof. unfold in_bounds. lia. Qed.

Lemma is_business_day_spec d : b_is_business_day c d =
  if in_bounds c (ordinal d) then Some (b (ordinal d)) else None.
Proof.
  unfold b_is_business_day. rewrite table_eq. cbn [bind].
  destruct (in_bounds c (ordinal d)) eqn:E.
  - apply in_bounds_iff in E. rewrite bgather_map by (unfold ext; lia). cbn [bind].
    unfold bz. rewrite bx_in by assumption. destruct (b (ordinal d)); reflexivity.
  - destruct (bgather c _ _); reflexivity.
Qed.

(** following/preceding for the true predicate inside the bounds *)
Lemma fol_bx_b o r : off <= o -> off <= r < off + sz -> (following bx o r <-> following b o r).
Proof.
  intros Ho Hr. split; intros (L & B & N).
  - split; [assumption|]. split; [rewrite <- bx_in; assumption|]. intros k K. rewrite <- bx_in by lia. apply N; assumption.
  - split; [assumption|]. split; [rewrite bx_in; assumption|]. intros k K. rewrite bx_in by lia. apply N; assumption.
Qed.
Lemma pre_bx_b o r : o < off + sz -> off <= r < off + sz -> (preceding bx o r <-> preceding b o r).
Proof.
  intros Ho Hr. split; intros (L & B & N).
  - split; [assumption|]. split; [rewrite <- bx_in; assumption|]. intros k K. rewrite <- bx_in by lia. apply N; assumption.
  - split; [assumption|]. split; [rewrite bx_in; assumption|]. intros k K. rewrite bx_in by lia. apply N; assumption.
Qed.

Lemma b_roll_table conv f d :
  conv <> NONE -> rolled_dates_table c conv = Some (map f (zrange (off - 1) n2)) ->
  forall x, b_roll c d conv = Some x <->
    ext (ordinal d) /\ off <= f (ordinal d) < off + sz /\ x = from_ordinal_unchecked (f (ordinal d)).
Proof.
  intros NC T x. assert (E : b_roll c d conv =
     bind (Some (map f (zrange (off - 1) n2))) (fun t =>
      bind (bgather c t (ordinal d - boffset c + 1)) (fun r =>
      if in_bounds c r then Some (from_ordinal_unchecked r) else None))).
  { unfold b_roll. rewrite T. destruct conv; congruence. }
  rewrite E. clear E. cbn [bind].
  destruct (Z_le_gt_dec (off - 1) (ordinal d)).
  2:{ rewrite bgather_out by (unfold ext; lia). unfold ext. cbn. split; [discriminate|lia]. }
  destruct (Z_le_gt_dec (ordinal d) (off + sz)).
  2:{ rewrite bgather_out by (unfold ext; lia). unfold ext. cbn. split; [discriminate|lia]. }
  rewrite bgather_map by (unfold ext; lia). cbn [bind].
  destruct (in_bounds c (f (ordinal d))) eqn:B.
  - apply in_bounds_iff in B. split.
    + intros H. injection H as <-. unfold ext. repeat split; lia.
    + intros (_ & _ & ->). reflexivity.
  - split; [discriminate|]. intros (_ & H & _). apply in_bounds_iff in H. congruence.
Qed.

Lemma ext_end o : ext o -> ~ (off <= o < off + sz) -> bx o = true.
Proof. unfold ext. intros. unfold bx. lia. Qed.

Lemma roll_following_spec d x : b_roll c d FOLLOWING = Some x <->
  off <= ordinal d < off + sz /\ off <= ordinal x < off + sz /\
  following b (ordinal d) (ordinal x) /\ x = from_ordinal_unchecked (ordinal x).
Proof.
  rewrite (b_roll_table FOLLOWING ff d ltac:(discriminate) following_table_eq).
  split.
  - intros (E & R & ->). pose proof (ff_spec _ E) as (_ & F & _).
    assert (off <= ordinal d < off + sz).
    { destruct F as (L & B & N). split; [|lia].
      destruct (Z_le_gt_dec off (ordinal d)); [assumption|].
      assert (ordinal d = off - 1) as Q by (unfold ext in E; lia).
      rewrite Q in *. exfalso. assert (bx (off - 1) = false) by (apply N; lia). pose proof (proj1 bx_ends). congruence. }
    destruct (from_ordinal_unchecked_repr (ff (ordinal d))) as (O & _); [destruct OK; lia|].
    split; [assumption|]. rewrite O. split; [assumption|]. split; [|reflexivity].
    apply fol_bx_b; [lia|assumption|assumption].
  - intros (D & X & F & ->). assert (E : ext (ordinal d)) by (unfold ext; lia).
    pose proof (ff_spec _ E) as (_ & F' & _).
    assert (ff (ordinal d) = ordinal x) as ->.
    { eapply following_unique; [exact F'|]. apply fol_bx_b; [lia|assumption|assumption]. }
    auto.
Qed.

Lemma roll_preceding_spec d x : b_roll c d PRECEDING = Some x <->
  off <= ordinal d < off + sz /\ off <= ordinal x < off + sz /\
  preceding b (ordinal d) (ordinal x) /\ x = from_ordinal_unchecked (ordinal x).
Proof.
  rewrite (b_roll_table PRECEDING pf d ltac:(discriminate) preceding_table_eq).
  split.
  - intros (E & R & ->). pose proof (pf_spec _ E) as (_ & F & _).
    assert (off <= ordinal d < off + sz).
    { destruct F as (L & B & N). split; [lia|].
      destruct (Z_lt_le_dec (ordinal d) (off + sz)); [assumption|].
      assert (ordinal d = off + sz) as Q by (unfold ext in E; lia).
      rewrite Q in *. exfalso. assert (bx (off + sz) = false) by (apply N; lia). pose proof (proj2 bx_ends). congruence. }
    destruct (from_ordinal_unchecked_repr (pf (ordinal d))) as (O & _); [destruct OK; lia|].
    split; [assumption|]. rewrite O. split; [assumption|]. split; [|reflexivity].
    apply pre_bx_b; [lia|assumption|assumption].
  - intros (D & X & F & ->). assert (E : ext (ordinal d)) by (unfold ext; lia).
    pose proof (pf_spec _ E) as (_ & F' & _).
    assert (pf (ordinal d) = ordinal x) as ->.
    { eapply preceding_unique; [exact F'|]. apply pre_bx_b; [lia|assumption|assumption]. }
    auto.
Qed.

Lemma combine_map2 {A B C D E} (f : A -> B) (g : A -> C) (h : A -> D) (k : A -> E) l :
  combine (combine (map f l) (map g l)) (combine (map h l) (map k l)) = map (fun x => ((f x, g x), (h x, k x))) l.
Proof. rewrite !combine_map. reflexivity. Qed.

(** MODIFIED tables need offset >= 2 (the padding day must have a positive ordinal) *)
Hypothesis OFF2 : 2 <= off.

Lemma mapopt_from_ordinal f : (forall o, ext o -> 1 <= f o) ->
  map_opt from_ordinal (map f (zrange (off - 1) n2)) = Some (map (fun o => from_ordinal_unchecked (f o)) (zrange (off - 1) n2)).
Proof.
  intros H. rewrite map_opt_map. apply map_opt_some. intros o I. apply in_ext, H in I. unfold from_ordinal.
  replace (0 <? f o) with true by lia. reflexivity.
Qed.

Lemma month_of_ordinal o : 1 <= o -> month (from_ordinal_unchecked o) = month_of o.
Proof.
  intros H. destruct (from_ordinal_unchecked_repr o H) as (_ & R). unfold month_of.
  destruct R as (_ & <- & _). reflexivity.
Qed.

Definition mff (o : Z) : Z := if month_of (ff o) =? month_of o then ff o else pf o.
Definition mpf (o : Z) : Z := if month_of (pf o) =? month_of o then pf o else ff o.

Lemma mod_tables :
  rolled_dates_table c MODIFIED_FOLLOWING = Some (map mff (zrange (off - 1) n2)) /\
  rolled_dates_table c MODIFIED_PRECEDING = Some (map mpf (zrange (off - 1) n2)).
Proof.
  assert (PF : forall o, ext o -> 1 <= pf o) by (intros o E; destruct (pf_spec o E) as (X & _); unfold ext in X; lia).
  assert (FF : forall o, ext o -> 1 <= ff o) by (intros o E; destruct (ff_spec o E) as (X & _); unfold ext in X; lia).
  unfold rolled_dates_table. rewrite following_table_eq, preceding_table_eq. cbn [bind].
  rewrite !mapopt_from_ordinal by assumption. cbn [bind].
  replace (zrange (off - 1) (Z.to_nat (sz + 2))) with (map (fun o => o) (zrange (off - 1) n2)) by (rewrite map_id; reflexivity).
  rewrite mapopt_from_ordinal by (intros o E; unfold ext in E; lia). cbn [bind].
  rewrite !combine_map2. rewrite !map_map. split; f_equal; apply map_ext_in; intros o H; apply in_ext in H.
  - unfold mff. rewrite !month_of_ordinal by (try (apply FF; assumption); unfold ext in H; lia). reflexivity.
  - unfold mpf. rewrite !month_of_ordinal by (try (apply PF; assumption); unfold ext in H; lia). reflexivity.
Qed.

Lemma roll_modfol_spec d x : b_roll c d MODIFIED_FOLLOWING = Some x <->
  off <= ordinal d < off + sz /\ off <= ordinal x < off + sz /\ x = from_ordinal_unchecked (ordinal x) /\
  exists f p, following bx (ordinal d) f /\ preceding bx (ordinal d) p /\
    ordinal x = if month_of f =? month_of (ordinal d) then f else p.
Proof.
  rewrite (b_roll_table MODIFIED_FOLLOWING mff d ltac:(discriminate) (proj1 mod_tables)). split.
  - intros (E & R & ->).
    destruct (ff_spec _ E) as (EF & F & _). destruct (pf_spec _ E) as (EP & P & _).
    destruct (from_ordinal_unchecked_repr (mff (ordinal d))) as (O & _); [lia|]. rewrite !O.
    assert (off <= ordinal d < off + sz).
    { destruct (in_bounds c (ordinal d)) eqn:B; [apply in_bounds_iff in B; assumption|]. exfalso.
      assert (BX : bx (ordinal d) = true).
      { apply ext_end; [assumption|]. rewrite <- in_bounds_iff. congruence. }
      assert (ff (ordinal d) = ordinal d).
      { eapply following_unique; [exact F|]. split; [lia|]. split; [assumption|]. intros; lia. }
      assert (pf (ordinal d) = ordinal d).
      { eapply preceding_unique; [exact P|]. split; [lia|]. split; [assumption|]. intros; lia. }
      unfold mff in R. rewrite H, H0 in R. destruct (_ =? _); apply in_bounds_iff in R; congruence. }
    repeat (split; [assumption|]). split; [reflexivity|]. exists (ff (ordinal d)), (pf (ordinal d)).
    repeat (split; [assumption|]). reflexivity.
  - intros (D & X & -> & f & p & F & P & E).
    assert (ED : ext (ordinal d)) by (unfold ext; lia).
    destruct (ff_spec _ ED) as (EF & F' & _). destruct (pf_spec _ ED) as (EP & P' & _).
    rewrite (following_unique _ _ _ _ F F') in E. rewrite (preceding_unique _ _ _ _ P P') in E.
    fold (mff (ordinal d)) in E. rewrite <- E. auto.
Qed.

Lemma roll_modpre_spec d x : b_roll c d MODIFIED_PRECEDING = Some x <->
  off <= ordinal d < off + sz /\ off <= ordinal x < off + sz /\ x = from_ordinal_unchecked (ordinal x) /\
  exists f p, following bx (ordinal d) f /\ preceding bx (ordinal d) p /\
    ordinal x = if month_of p =? month_of (ordinal d) then p else f.
Proof.
  rewrite (b_roll_table MODIFIED_PRECEDING mpf d ltac:(discriminate) (proj2 mod_tables)). split.
  - intros (E & R & ->).
    destruct (ff_spec _ E) as (EF & F & _). destruct (pf_spec _ E) as (EP & P & _).
    destruct (from_ordinal_unchecked_repr (mpf (ordinal d))) as (O & _); [lia|]. rewrite !O.
    assert (off <= ordinal d < off + sz).
    { destruct (in_bounds c (ordinal d)) eqn:B; [apply in_bounds_iff in B; assumption|]. exfalso.
      assert (BX : bx (ordinal d) = true).
      { apply ext_end; [assumption|]. rewrite <- in_bounds_iff. congruence. }
      assert (ff (ordinal d) = ordinal d).
      { eapply following_unique; [exact F|]. split; [lia|]. split; [assumption|]. intros; lia. }
      assert (pf (ordinal d) = ordinal d).
      { eapply preceding_unique; [exact P|]. split; [lia|]. split; [assumption|]. intros; lia. }
      unfold mpf in R. rewrite H, H0 in R. destruct (_ =? _); apply in_bounds_iff in R; congruence. }
    repeat (split; [assumption|]). split; [reflexivity|]. exists (ff (ordinal d)), (pf (ordinal d)).
    repeat (split; [assumption|]). reflexivity.
  - intros (D & X & -> & f & p & F & P & E).
    assert (ED : ext (ordinal d)) by (unfold ext; lia).
    destruct (ff_spec _ ED) as (EF & F' & _). destruct (pf_spec _ ED) as (EP & P' & _).
    rewrite (following_unique _ _ _ _ F F') in E. rewrite (preceding_unique _ _ _ _ P P') in E.
    fold (mpf (ordinal d)) in E. rewrite <- E. auto.
Qed.
End Cal.

Section Cal2.
Variables (mask : list bool) (hol : list Z) (c : bcal).
Hypothesis OK : bcal_ok mask hol c.
Notation off := (boffset c).
Notation sz := (bsize c).
Notation b := (business mask hol).
Notation bx := (bx mask hol c).

Lemma busdays_bx_b a e : off <= a -> e <= off + sz -> busdays bx a e = busdays b a e.
Proof.
  intros Ha He. unfold busdays.
  assert (G : forall n a, off <= a -> a + Z.of_nat n <= off + sz -> count_from bx a n = count_from b a n).
  { clear - OK. induction n; intros a Ha He; cbn [count_from]; [reflexivity|].
    rewrite bx_in by lia. rewrite IHn by lia. reflexivity. }
  destruct (Z_le_gt_dec a e); [apply G; lia|]. replace (Z.to_nat (e - a)) with O by lia. reflexivity.
Qed.

Lemma nth_bx_b o n r : off <= o < off + sz -> off <= r < off + sz ->
  (nth_business_day bx o n r <-> nth_business_day b o n r).
Proof.
  intros Ho Hr. unfold nth_business_day. rewrite bx_in by lia. rewrite !busdays_bx_b by lia. reflexivity.
Qed.

Lemma add_none_spec d n x : b_add_business_days c d n NONE = Some x <->
  off <= ordinal d < off + sz /\ b (ordinal d) = true /\ off <= ordinal x < off + sz /\
  nth_business_day b (ordinal d) n (ordinal x) /\ x = from_ordinal_unchecked (ordinal x).
Proof.
  unfold b_add_business_days. rewrite (is_business_day_spec mask hol c OK).
  destruct (in_bounds c (ordinal d)) eqn:B.
  2:{ cbn [bind]. split; [discriminate|]. intros (H & _). apply in_bounds_iff in H. congruence. }
  apply in_bounds_iff in B. cbn [bind]. destruct (b (ordinal d)) eqn:BD.
  2:{ cbn [bind]. split; [discriminate|]. intros (_ & H & _). congruence. }
  cbn [bind]. rewrite (cumul_eq mask hol c OK), (busord_eq mask hol c OK). cbn [bind].
  rewrite (bgather_map mask hol c OK) by (unfold ext; lia). cbn [bind].
  set (k := rk mask hol c (ordinal d) + n).
  assert (SEL : forall r, bgather c (filter bx (zrange (off - 1) (n2 c))) k = Some r <->
     ext c r /\ bx r = true /\ rk mask hol c r = k).
  { intros r. unfold bgather. destruct ((0 <=? k) && (k <? sz + 2)) eqn:K; [apply bus_select; assumption|].
    split; [discriminate|]. intros (E & BX & RK). exfalso.
    pose proof (busdays_nonneg bx (off - 1) r). unfold rk in RK.
    assert (busdays bx (off - 1) r <= r - (off - 1)).
    { unfold ext in E. clear - E. unfold busdays.
      assert (forall n a, count_from bx a n <= Z.of_nat n).
      { induction n; intros a; cbn [count_from]; [lia|]. specialize (IHn (a + 1)). destruct (bx a); lia. }
      specialize (H (Z.to_nat (r - (off - 1))) (off - 1)). lia. }
    unfold ext in E. lia. }
  destruct (bgather c (filter bx (zrange (off - 1) (n2 c))) k) as [r|] eqn:G.
  - pose proof (proj1 (SEL r) eq_refl) as (E & BX & RK). cbn [bind].
    destruct (in_bounds c r) eqn:BR.
    + apply in_bounds_iff in BR.
      assert (N : nth_business_day b (ordinal d) n r).
      { apply nth_bx_b; try lia. apply (rank_nth bx (off - 1)); [lia|lia|assumption|exact RK]. }
      destruct (from_ordinal_unchecked_repr r) as (O & _); [destruct OK; lia|]. split.
      * intros H. injection H as <-. rewrite O. auto.
      * intros (_ & _ & X & N' & ->). f_equal. f_equal.
        eapply nth_business_day_unique; eassumption.
    + split; [discriminate|]. intros (_ & _ & X & N & _).
      apply nth_bx_b in N; [|lia|lia].
      assert (r = ordinal x).
      { apply (rank_inj bx (off - 1)); [unfold ext in E; lia|lia|assumption|apply N|].
        unfold rk in RK. rewrite RK. unfold k. rewrite (nth_rank bx (off - 1) (ordinal d) n (ordinal x)); [reflexivity|lia|lia|assumption]. }
      subst r. apply in_bounds_iff in X. congruence.
  - cbn [bind]. split; [discriminate|]. intros (_ & _ & X & N & _). exfalso.
    apply nth_bx_b in N; [|lia|lia].
    assert (G' : @None Z = Some (ordinal x)); [|discriminate].
    apply SEL. split; [unfold ext; lia|]. split; [apply N|].
    unfold k, rk. apply (nth_rank bx (off - 1)); [lia|lia|assumption].
Qed.

Lemma add_conv_spec d n conv : conv <> NONE ->
  b_add_business_days c d n conv = bind (b_roll c d conv) (fun d' => b_add_business_days c d' n NONE) \/
  exists x, b_roll c d conv = Some x /\ ~ (off <= ordinal x < off + sz /\ b (ordinal x) = true).
Proof.
  intros NC. destruct (b_roll c d conv) as [x|] eqn:E.
  - destruct (in_bounds c (ordinal x)) eqn:B; [destruct (b (ordinal x)) eqn:BX|].
    + left. unfold b_add_business_days at 1. rewrite E.
      replace (match conv with NONE => bind (b_is_business_day c d) (fun b : bool => if b then Some d else None) | _ => Some x end) with (Some x) by (destruct conv; congruence).
      cbn [bind]. unfold b_add_business_days. rewrite (is_business_day_spec mask hol c OK). rewrite B, BX. reflexivity.
    + right. exists x. split; [reflexivity|]. intros [_ ?]. congruence.
    + right. exists x. split; [reflexivity|]. intros [H _]. apply in_bounds_iff in H. congruence.
  - left. unfold b_add_business_days. rewrite E. destruct conv; try congruence; reflexivity.
Qed.

Lemma between_spec d1 d2 : b_business_days_between c d1 d2 =
  if in_bounds c (ordinal d1) && in_bounds c (ordinal d2)
  then Some (busdays b (ordinal d1) (ordinal d2)) else None.
Proof.
  unfold b_business_days_between. rewrite (cumul_eq mask hol c OK). cbn [bind].
  destruct (in_bounds c (ordinal d1)) eqn:B1; [|reflexivity].
  destruct (in_bounds c (ordinal d2)) eqn:B2; [|reflexivity]. cbn [negb andb].
  apply in_bounds_iff in B1, B2.
  rewrite !(bgather_map mask hol c OK) by (unfold ext; lia). cbn [bind]. f_equal. unfold rk.
  destruct (Z_le_gt_dec (ordinal d1) (ordinal d2)).
  - rewrite (busdays_split bx (off - 1) (ordinal d1) (ordinal d2)) by lia.
    rewrite (busdays_bx_b (ordinal d1) (ordinal d2)) by lia. pose proof (busdays_nonneg b (ordinal d1) (ordinal d2)). lia.
  - rewrite (busdays_split bx (off - 1) (ordinal d2) (ordinal d1)) by lia.
    rewrite (busdays_empty b) by lia. pose proof (busdays_nonneg bx (ordinal d2) (ordinal d1)). lia.
Qed.
End Cal2.
