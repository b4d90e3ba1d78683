From Coq Require Import ZArith List Bool Lia ZifyBool.
From Verif Require Import DateModel DateSpec DateRepr DateProofs DateProofs2 PropsDateAux CalSpec BoundedCalModel CalSetup CalProofs BoundedCalProofs PropsCalAux ScheduleModel.
Import ListNotations.
Open Scope Z_scope.

Definition ymd_of (d : date) : ymd := (year d, month d, day d).
Definition sord (t : period_type) (d : date) (n : Z) : Z :=
  match t with
  | DAY => ordinal d + n
  | WEEK => ordinal d + n * 7
  | MONTH => ord (shift_months (ymd_of d) n)
  | YEAR => ord (shift_years (ymd_of d) n)
  end.

Lemma repr_self d : is_date d -> repr d (ymd_of d).
Proof. intros (c & R). pose proof R as (_ & E & _). unfold ymd_of. rewrite E. assumption. Qed.

Lemma add_years_model x c n : repr x c ->
  date_add x (mk_period n YEAR) = let '(y, m, d) := shift_years c n in Some (from_ymd_unchecked y m d).
Proof.
  intros R. pose proof R as (V & E & _). destruct c as [[y m] d]. injection E as E1 E2 E3.
  destruct V as (V1 & V2 & V3). unfold date_add, adjust_day, shift_years. cbn [ptype quantity].
  rewrite E1, E2, E3. rewrite num_days_in_month_spec by assumption. reflexivity.
Qed.

Lemma ord_pos_valid y m d : 1 <= m <= 12 -> 1 <= d <= month_length y m -> 1 <= ord (y, m, d) -> valid (y, m, d).
Proof.
  intros M D O. split; [|split; assumption]. destruct (Z_le_gt_dec 1 y); [assumption|]. exfalso.
  rewrite ord_closed in O by assumption. pose proof (mbase_bounds y m M). 
  pose proof (ybase_mono (y + 1) 1 ltac:(lia)). change (ybase 1) with 0 in *. lia.
Qed.

Lemma shift_fields c n : valid c -> let '(y, m, d) := shift_months c n in 1 <= m <= 12 /\ 1 <= d <= month_length y m.
Proof.
  destruct c as [[y m] d]. intros (V1 & V2 & V3). unfold shift_months.
  set (k := 12 * y + (m - 1) + n). pose proof (Z.mod_pos_bound k 12 ltac:(lia)).
  split; [lia|]. pose proof (month_length_bounds (k / 12) (k mod 12 + 1)). lia.
Qed.
Lemma shift_years_fields c n : valid c -> let '(y, m, d) := shift_years c n in 1 <= m <= 12 /\ 1 <= d <= month_length y m.
Proof.
  destruct c as [[y m] d]. intros (V1 & V2 & V3). unfold shift_years.
  split; [lia|]. pose proof (month_length_bounds (y + n) m). lia.
Qed.

Lemma add_sord d t n x : is_date d -> date_add d (mk_period n t) = Some x ->
  ordinal x = sord t d n /\ (1 <= ordinal x -> is_date x).
Proof.
  intros D E. pose proof (repr_self d D) as R. destruct t.
  - cbn in E. unfold from_ordinal in E. destruct (0 <? ordinal d + n) eqn:Q; [|discriminate]. injection E as <-.
    destruct (is_date_from (ordinal d + n) ltac:(lia)) as (A & B). split; [rewrite B; reflexivity|intros; assumption].
  - cbn in E. unfold from_ordinal in E. destruct (0 <? ordinal d + n * 7) eqn:Q; [|discriminate]. injection E as <-.
    destruct (is_date_from (ordinal d + n * 7) ltac:(lia)) as (A & B). split; [rewrite B; reflexivity|intros; assumption].
  - rewrite (add_months_model d (ymd_of d) n R) in E. cbn [sord].
    pose proof (shift_fields (ymd_of d) n (proj1 R)) as F. destruct (shift_months (ymd_of d) n) as [[y m] dd].
    injection E as <-. cbn [ordinal]. split; [reflexivity|]. intros O. eexists. apply repr_unchecked.
    apply ord_pos_valid; tauto.
  - rewrite (add_years_model d (ymd_of d) n R) in E. cbn [sord].
    pose proof (shift_years_fields (ymd_of d) n (proj1 R)) as F. destruct (shift_years (ymd_of d) n) as [[y m] dd].
    injection E as <-. cbn [ordinal]. split; [reflexivity|]. intros O. eexists. apply repr_unchecked.
    apply ord_pos_valid; tauto.
Qed.

Lemma add_some d t n : is_date d -> (t = DAY \/ t = WEEK -> 1 <= sord t d n) ->
  exists x, date_add d (mk_period n t) = Some x.
Proof.
  intros D H. pose proof (repr_self d D) as R. destruct t.
  - cbn. unfold from_ordinal. specialize (H (or_introl eq_refl)). cbn in H. replace (0 <? ordinal d + n) with true by lia. eexists; reflexivity.
  - cbn. unfold from_ordinal. specialize (H (or_intror eq_refl)). cbn in H. replace (0 <? ordinal d + n * 7) with true by lia. eexists; reflexivity.
  - rewrite (add_months_model d (ymd_of d) n R). destruct (shift_months (ymd_of d) n) as [[y m] dd]. eexists; reflexivity.
  - rewrite (add_years_model d (ymd_of d) n R). destruct (shift_years (ymd_of d) n) as [[y m] dd]. eexists; reflexivity.
Qed.

(** first day of month number k (12*y + m - 1) *)
Definition mstart (k : Z) : Z := ybase (k / 12) + mbase (k / 12) (k mod 12 + 1).
Definition mlen (k : Z) : Z := month_length (k / 12) (k mod 12 + 1).
Lemma mstart_succ k : mstart (k + 1) = mstart k + mlen k.
Proof.
  unfold mstart, mlen. pose proof (Z.div_mod k 12 ltac:(lia)) as E. pose proof (Z.mod_pos_bound k 12 ltac:(lia)) as B.
  set (y := k / 12) in *. set (j := k mod 12) in *. clearbody y j. subst k.
  destruct (Z.eq_dec j 11) as [->|N].
  - replace ((12 * y + 11 + 1) / 12) with (y + 1) by (apply (Z.div_unique_pos _ 12 _ 0); lia).
    replace ((12 * y + 11 + 1) mod 12) with 0 by (apply (Z.mod_unique_pos _ 12 (y + 1) 0); lia).
    rewrite ybase_succ. pose proof (mbase_12 y). change (mbase (y + 1) (0 + 1)) with 0.
    change (11 + 1) with 12. change (month_length y 12) with 31. lia.
  - replace ((12 * y + j + 1) / 12) with y by (apply (Z.div_unique_pos _ 12 _ (j + 1)); lia).
    replace ((12 * y + j + 1) mod 12) with (j + 1) by (apply (Z.mod_unique_pos _ 12 y (j + 1)); lia).
    rewrite (mbase_succ y (j + 1)) by lia. lia.
Qed.
Lemma ord_shift_months y m d n : ord (shift_months (y, m, d) n) =
  mstart (12 * y + (m - 1) + n) + Z.min d (mlen (12 * y + (m - 1) + n)).
Proof.
  unfold shift_months. rewrite ord_closed; [reflexivity|].
  pose proof (Z.mod_pos_bound (12 * y + (m - 1) + n) 12 ltac:(lia)). lia.
Qed.

Lemma sord_step t d n : is_date d -> sord t d n + min_days t <= sord t d (n + 1).
Proof.
  intros D. pose proof (repr_self d D) as (V & _). destruct t; cbn [sord min_days]; [lia|lia| |].
  - unfold ymd_of. rewrite !ord_shift_months. set (k := 12 * year d + (month d - 1) + n).
    replace (12 * year d + (month d - 1) + (n + 1)) with (k + 1) by (unfold k; lia). rewrite mstart_succ.
    pose proof (month_length_bounds (k / 12) (k mod 12 + 1)). pose proof (month_length_bounds ((k + 1) / 12) ((k + 1) mod 12 + 1)).
    unfold mlen in *. lia.
  - unfold ymd_of, shift_years. destruct V as (V1 & V2 & V3). rewrite !ord_closed by assumption.
    set (y := year d + n). replace (year d + (n + 1)) with (y + 1) by (unfold y; lia). rewrite ybase_succ.
    clearbody y. revert V3. generalize (month d), (day d) , V2. intros m dd M H. clear - M H.
    unfold mbase, month_length.
    assert (X : m = 1 \/ m = 2 \/ m = 3 \/ m = 4 \/ m = 5 \/ m = 6 \/ m = 7 \/ m = 8 \/ m = 9 \/ m = 10 \/ m = 11 \/ m = 12) by lia.
    assert (DD : 1 <= dd) by lia. clear H M.
    destruct X as [->|[->|[->|[->|[->|[->|[->|[->|[->|[->|[->| ->]]]]]]]]]]];
      destruct (leapb y), (leapb (y + 1)); cbn; lia.
Qed.

Lemma sord_0 t d : is_date d -> sord t d 0 = ordinal d.
Proof.
  intros D. pose proof (repr_self d D) as R. destruct t; cbn [sord]; [lia|lia| |].
  - destruct (add_some d MONTH 0 D) as (x & E); [intros [H|H]; discriminate|].
    destruct R as (V & R1 & R2). apply is_nth_iff in R2 as (_ & ->). unfold ymd_of, shift_months in *.
    destruct V as (V1 & V2 & V3).
    replace (12 * year d + (month d - 1) + 0) with ((month d - 1) + year d * 12) by lia.
    rewrite Z.div_add, Z.mod_add by lia. rewrite Z.div_small, Z.mod_small by lia.
    replace (0 + year d) with (year d) by lia. replace (month d - 1 + 1) with (month d) by lia. rewrite Z.min_l by lia. reflexivity.
  - destruct R as (V & R1 & R2). apply is_nth_iff in R2 as (_ & ->). unfold ymd_of, shift_years in *.
    destruct V as (V1 & V2 & V3). replace (year d + 0) with (year d) by lia. rewrite Z.min_l by lia. reflexivity.
Qed.

Lemma sord_many t d n k : is_date d -> 0 <= k -> sord t d n + k * min_days t <= sord t d (n + k).
Proof.
  intros D K. replace k with (Z.of_nat (Z.to_nat k)) by lia. generalize (Z.to_nat k). intros j. induction j.
  - replace (n + Z.of_nat 0) with n by lia. lia.
  - replace (n + Z.of_nat (S j)) with (n + Z.of_nat j + 1) by lia. pose proof (sord_step t d (n + Z.of_nat j) D). lia.
Qed.

Lemma min_days_pos t : 1 <= min_days t.
Proof. destruct t; cbn; lia. Qed.

(** The first index at which an increasing function reaches a level. *)
Lemma first_reach (g : Z -> Z) (E : Z) (u : nat) : (forall k, 0 <= k -> g k < g (k + 1)) -> E <= g (Z.of_nat u) ->
  exists n : nat, (n <= u)%nat /\ (forall k, 0 <= k < Z.of_nat n -> g k < E) /\ E <= g (Z.of_nat n).
Proof.
  intros INC. induction u; intros H.
  - exists 0%nat. split; [lia|]. split; [intros; lia|assumption].
  - destruct (Z_le_gt_dec E (g (Z.of_nat u))) as [L|L].
    + destruct (IHu L) as (n & A & B). exists n. split; [lia|assumption].
    + exists (S u). split; [lia|]. split; [|assumption]. intros k Hk.
      assert (M : forall j, 0 <= k -> g k <= g (k + Z.of_nat j)).
      { induction j; intros; [replace (k + Z.of_nat 0) with k by lia; lia|].
        replace (k + Z.of_nat (S j)) with (k + Z.of_nat j + 1) by lia. pose proof (INC (k + Z.of_nat j) ltac:(lia)). specialize (IHj H0). lia. }
      specialize (M (Z.to_nat (Z.of_nat u - k)) ltac:(lia)). replace (k + Z.of_nat (Z.to_nat (Z.of_nat u - k))) with (Z.of_nat u) in M by lia. lia.
Qed.

Lemma g_mono (g : Z -> Z) : (forall k, 0 <= k -> g k < g (k + 1)) -> forall j k, 0 <= j -> j <= k -> g j <= g k.
Proof.
  intros INC j k J JK. replace k with (j + Z.of_nat (Z.to_nat (k - j))) by lia. generalize (Z.to_nat (k - j)). intros i.
  induction i; [replace (j + Z.of_nat 0) with j by lia; lia|].
  replace (j + Z.of_nat (S i)) with (j + Z.of_nat i + 1) by lia. pose proof (INC (j + Z.of_nat i) ltac:(lia)). lia.
Qed.

(** reduce_max, reduce_min *)
Lemma reduce_max_spec l : l <> [] -> exists m, reduce_max l = Some m /\ In m l /\ forall x, In x l -> x <= m.
Proof.
  destruct l as [|a l]; [congruence|]. intros _. cbn [reduce_max]. exists (fold_left Z.max l a).
  split; [reflexivity|]. split.
  - destruct (fold_max_in l a) as [E|E]; [left; symmetry; assumption|right; assumption].
  - intros x [<-|I]; [exact (proj1 (BoundedCalProofs2.fold_max_ge l a))|exact (proj2 (BoundedCalProofs2.fold_max_ge l a) x I)].
Qed.
Lemma reduce_min_spec l : l <> [] -> exists m, reduce_min l = Some m /\ In m l /\ forall x, In x l -> m <= x.
Proof.
  destruct l as [|a l]; [congruence|]. intros _. cbn [reduce_min]. exists (fold_left Z.min l a).
  split; [reflexivity|]. split.
  - destruct (fold_min_in l a) as [E|E]; [left; symmetry; assumption|right; assumption].
  - intros x [<-|I]; [exact (proj1 (BoundedCalProofs2.fold_min_le l a))|exact (proj2 (BoundedCalProofs2.fold_min_le l a) x I)].
Qed.

Lemma ceil_div_spec a b : 0 < b -> a <= ceil_div a b * b.
Proof. intros B. unfold ceil_div. pose proof (Z.div_mod (- a) b ltac:(lia)). pose proof (Z.mod_pos_bound (- a) b B). nia. Qed.

Lemma ub_spec rows t r : In r rows -> 0 < rqty r -> ordinal (rstart r) <= ordinal (rend r) ->
  ordinal (rend r) - ordinal (rstart r) + 1 <= len_upper_bound rows t * (rqty r * min_days t) /\ 0 < len_upper_bound rows t.
Proof.
  intros I Q L. unfold len_upper_bound.
  set (f := fun r => ceil_div (ordinal (rend r) - ordinal (rstart r) + 1) (rqty r * min_days t)).
  destruct (reduce_max_spec (map f rows)) as (m & E & _ & M).
  { intros H. apply in_map with (f := f) in I. rewrite H in I. destruct I. }
  rewrite E. specialize (M (f r) (in_map f _ _ I)). pose proof (min_days_pos t).
  pose proof (ceil_div_spec (ordinal (rend r) - ordinal (rstart r) + 1) (rqty r * min_days t) ltac:(nia)) as C.
  fold (f r) in C. assert (0 < f r) by nia. split; nia.
Qed.

Lemma where_from_app i l1 l2 : where_from i (l1 ++ l2) = where_from i l1 ++ where_from (i + Z.of_nat (length l1)) l2.
Proof.
  revert i. induction l1; intros i; cbn [app where_from length]; [rewrite Z.add_0_r; reflexivity|].
  rewrite IHl1. replace (i + 1 + Z.of_nat (length l1)) with (i + Z.of_nat (S (length l1))) by lia.
  destruct (a =? 0); reflexivity.
Qed.
Lemma where_from_zeros i l : (forall x, In x l -> x = 0) -> where_from i l = [].
Proof.
  revert i. induction l; intros i H; [reflexivity|]. cbn [where_from]. rewrite (H a) by (left; reflexivity).
  cbn. apply IHl. intros; apply H; right; assumption.
Qed.
Lemma where_from_ones i l : (forall x, In x l -> x <> 0) -> where_from i l = zrange i (length l).
Proof.
  revert i. induction l; intros i H; [reflexivity|]. cbn [where_from length]. rewrite zrange_S.
  assert (a <> 0) by (apply H; left; reflexivity). replace (a =? 0) with false by lia. f_equal. apply IHl. intros; apply H; right; assumption.
Qed.

Lemma map_const_repeat {A B} (f : A -> B) (x : B) l : (forall a, In a l -> f a = x) -> map f l = repeat x (length l).
Proof.
  induction l; intros H; [reflexivity|]. cbn. rewrite (H a) by (left; reflexivity). f_equal. apply IHl. intros; apply H; right; assumption.
Qed.

Lemma firstn_app_repeat {A} (l : list A) x m k : (k <= length l + m)%nat -> (length l <= k)%nat ->
  firstn k (l ++ repeat x m) = l ++ repeat x (k - length l).
Proof.
  intros H1 H2. rewrite firstn_app. rewrite firstn_all2 by assumption. f_equal.
  assert (G : forall m j, (j <= m)%nat -> firstn j (repeat x m) = repeat x j).
  { clear. induction m; intros j H; [replace j with 0%nat by lia; reflexivity|]. destruct j; [reflexivity|]. cbn. f_equal. apply IHm; lia. }
  apply G. lia.
Qed.

(** A forward row after clipping. *)
Definition fseq (r : row) (t : period_type) (k : Z) : date := from_ordinal_unchecked (sord t (rstart r) (rqty r * k)).

Section Fwd.
Variables (rows : list row) (t : period_type).
Hypothesis OKR : forall r, In r rows -> is_date (rstart r) /\ is_date (rend r) /\ 0 < rqty r /\ ordinal (rstart r) <= ordinal (rend r).
Notation ub := (Z.to_nat (len_upper_bound rows t)).

Lemma g_inc r k : In r rows -> 0 <= k -> sord t (rstart r) (rqty r * k) < sord t (rstart r) (rqty r * (k + 1)).
Proof.
  intros I K. destruct (OKR r I) as (D & _ & Q & _). pose proof (sord_many t (rstart r) (rqty r * k) (rqty r) D ltac:(lia)).
  replace (rqty r * (k + 1)) with (rqty r * k + rqty r) by lia. pose proof (min_days_pos t). nia.
Qed.
Lemma g_low r k : In r rows -> 0 <= k -> ordinal (rstart r) + k * (rqty r * min_days t) <= sord t (rstart r) (rqty r * k).
Proof.
  intros I K. destruct (OKR r I) as (D & _ & Q & _). pose proof (sord_many t (rstart r) 0 (rqty r * k) D ltac:(nia)) as H.
  rewrite sord_0 in H by assumption. replace (0 + rqty r * k) with (rqty r * k) in H by lia. nia.
Qed.
Lemma fseq_spec r k : In r rows -> 0 <= k ->
  date_add (rstart r) (period_mul (mk_period (rqty r) t) k) = Some (fseq r t k) /\ is_date (fseq r t k) /\
  ordinal (fseq r t k) = sord t (rstart r) (rqty r * k).
Proof.
  intros I K. destruct (OKR r I) as (D & _ & Q & _). pose proof (g_low r k I K) as G. pose proof (min_days_pos t).
  assert (1 <= ordinal (rstart r)) by (apply is_date_iff; assumption).
  unfold period_mul. cbn [quantity ptype].
  destruct (add_some (rstart r) t (rqty r * k) D) as (x & E); [intros; nia|].
  destruct (add_sord _ _ _ _ D E) as (O & Dx). assert (1 <= ordinal x) by (rewrite O; nia). specialize (Dx H1).
  unfold fseq. rewrite <- O. apply is_date_iff in Dx as Dx'. destruct Dx' as [_ Ex]. rewrite <- Ex. auto.
Qed.

Definition fwd_n (r : row) (n : nat) : Prop :=
  (n <= ub)%nat /\ (forall k, 0 <= k < Z.of_nat n -> ordinal (fseq r t k) < ordinal (rend r)) /\
  ordinal (rend r) <= ordinal (fseq r t (Z.of_nat n)).

Lemma fwd_n_ex r : In r rows -> exists n, fwd_n r n.
Proof.
  intros I. destruct (OKR r I) as (D & De & Q & L).
  destruct (first_reach (fun k => sord t (rstart r) (rqty r * k)) (ordinal (rend r)) ub) as (n & A & B & C).
  - intros k K. apply g_inc; assumption.
  - pose proof (g_low r (Z.of_nat ub) I ltac:(lia)). destruct (ub_spec rows t r I Q L) as [U1 U2].
    replace (Z.of_nat ub) with (len_upper_bound rows t) in * by lia. lia.
  - exists n. split; [assumption|]. split.
    + intros k K. destruct (fseq_spec r k I ltac:(lia)) as (_ & _ & ->). apply B; assumption.
    + destruct (fseq_spec r (Z.of_nat n) I ltac:(lia)) as (_ & _ & ->). assumption.
Qed.

Lemma clip_row r n : In r rows -> fwd_n r n ->
  map (fun d => if ordinal d <=? ordinal (rend r) then d else rend r) (map (fseq r t) (zrange 0 ub) ++ [rend r]) =
  map (fseq r t) (zrange 0 n) ++ repeat (rend r) (S (ub - n)).
Proof.
  intros I (N1 & N2 & N3). destruct (OKR r I) as (D & De & Q & L).
  replace (zrange 0 ub) with (zrange 0 n ++ zrange (0 + Z.of_nat n) (ub - n)) by (rewrite <- zrange_app; f_equal; lia).
  rewrite (map_app (fseq r t)), <- app_assoc, map_app. f_equal.
  - rewrite map_map. apply map_ext_in. intros k K. apply in_zrange in K. specialize (N2 k ltac:(lia)).
    replace (ordinal (fseq r t k) <=? ordinal (rend r)) with true by lia. reflexivity.
  - rewrite map_const_repeat with (x := rend r).
    + rewrite app_length, map_length, zrange_length. cbn [length]. f_equal. lia.
    + intros d J. apply in_app_or in J as [J|[<-|[]]]; [|rewrite Z.leb_refl; reflexivity].
      apply in_map_iff in J as (k & <- & K). apply in_zrange in K.
      destruct (ordinal (fseq r t k) <=? ordinal (rend r)) eqn:E; [|reflexivity].
      destruct (fseq_spec r k I ltac:(lia)) as (_ & Dk & Ok). apply is_date_inj; [assumption|assumption|].
      destruct (fseq_spec r (Z.of_nat n) I ltac:(lia)) as (_ & _ & On).
      pose proof (g_mono (fun k => sord t (rstart r) (rqty r * k)) (fun k K => g_inc r k I K) (Z.of_nat n) k ltac:(lia) ltac:(lia)).
      cbv beta in H. lia.
Qed.

Lemma where_row r n : In r rows -> fwd_n r n ->
  where_from 0 (map (fun d => b2z (negb (ordinal d =? ordinal (rend r)))) (map (fseq r t) (zrange 0 n) ++ repeat (rend r) (S (ub - n)))) = zrange 0 n.
Proof.
  intros I (N1 & N2 & N3). rewrite map_app, where_from_app. rewrite where_from_ones.
  - rewrite where_from_zeros, app_nil_r.
    + rewrite !map_length, zrange_length. reflexivity.
    + intros x J. apply in_map_iff in J as (d & <- & J). apply repeat_spec in J. subst d. rewrite Z.eqb_refl. reflexivity.
  - intros x J. apply in_map_iff in J as (d & <- & J). apply in_map_iff in J as (k & <- & K). apply in_zrange in K.
    specialize (N2 k ltac:(lia)). replace (ordinal (fseq r t k) =? ordinal (rend r)) with false by lia. cbn. lia.
Qed.

Lemma forward_eq (N : row -> nat) : (forall r, In r rows -> fwd_n r (N r)) ->
  (exists r, In r rows /\ ordinal (rstart r) < ordinal (rend r)) ->
  exists L, (forall r, In r rows -> (N r < L)%nat) /\ (exists r, In r rows /\ L = S (N r)) /\
  periodic_forward rows t = Some (map (fun r => map (fseq r t) (zrange 0 (N r)) ++ repeat (rend r) (L - N r)) rows).
Proof.
  intros HN (r0 & I0 & LT0). unfold periodic_forward.
  rewrite (map_opt_some _ (fun r => (r, map (fseq r t) (zrange 0 ub) ++ [rend r]))).
  2:{ intros r I. rewrite (map_opt_some _ (fseq r t)); [reflexivity|]. intros k K. apply in_zrange in K. apply fseq_spec; [assumption|lia]. }
  cbn [bind]. rewrite map_map.
  rewrite (map_ext_in _ (fun r => (r, map (fseq r t) (zrange 0 (N r)) ++ repeat (rend r) (S (ub - N r))))).
  2:{ intros r I. rewrite (clip_row r (N r) I (HN r I)). reflexivity. }
  assert (WL : where_last (fun r d => negb (ordinal d =? ordinal (rend r)))
     (map (fun r => (r, map (fseq r t) (zrange 0 (N r)) ++ repeat (rend r) (S (ub - N r)))) rows) = concat (map (fun r => zrange 0 (N r)) rows)).
  { unfold where_last. f_equal. rewrite map_map. apply map_ext_in. intros r I. apply where_row; auto. }
  rewrite WL.
  assert (N0 : (0 < N r0)%nat).
  { destruct (N r0) eqn:E; [|lia]. destruct (HN r0 I0) as (_ & _ & H). rewrite E in H. cbn [Z.of_nat] in H.
    destruct (fseq_spec r0 0 I0 ltac:(lia)) as (_ & _ & O). rewrite O in H. rewrite Z.mul_0_r, sord_0 in H by apply (OKR r0 I0). lia. }
  destruct (reduce_max_spec (concat (map (fun r => zrange 0 (N r)) rows))) as (m & EM & IM & MM).
  { intros H. assert (In 0 (concat (map (fun r => zrange 0 (N r)) rows))); [|rewrite H in *; auto].
    apply in_concat. exists (zrange 0 (N r0)). split; [apply in_map_iff; eauto|]. apply in_zrange. lia. }
  rewrite EM. exists (Z.to_nat (m + 2)).
  assert (M1 : forall r, In r rows -> (N r < Z.to_nat (m + 2))%nat).
  { intros r I. destruct (N r) eqn:E; [|].
    - apply in_concat in IM as (l & Hl & IM). apply in_map_iff in Hl as (r' & <- & _). apply in_zrange in IM. lia.
    - assert (Z.of_nat n <= m); [|lia]. apply MM. apply in_concat. exists (zrange 0 (N r)).
      split; [apply in_map_iff; eauto|]. apply in_zrange. lia. }
  split; [assumption|]. split.
  - apply in_concat in IM as (l & Hl & IM). apply in_map_iff in Hl as (r' & <- & I'). apply in_zrange in IM.
    exists r'. split; [assumption|]. specialize (M1 r' I'). lia.
  - f_equal. rewrite map_map. apply map_ext_in. intros r I. specialize (M1 r I).
    rewrite firstn_app_repeat.
    + rewrite map_length, zrange_length. reflexivity.
    + rewrite map_length, zrange_length. 
      apply in_concat in IM as (l & Hl & IM). apply in_map_iff in Hl as (r' & <- & I'). apply in_zrange in IM.
      destruct (HN r' I') as (U & _). destruct (HN r I) as (U' & _). lia.
    + rewrite map_length, zrange_length. lia.
Qed.

Lemma forward_degenerate : (forall r, In r rows -> ordinal (rstart r) = ordinal (rend r)) ->
  periodic_forward rows t = Some (map (fun _ => []) rows).
Proof.
  intros EQ. unfold periodic_forward.
  rewrite (map_opt_some _ (fun r => (r, map (fseq r t) (zrange 0 ub) ++ [rend r]))).
  2:{ intros r I. rewrite (map_opt_some _ (fseq r t)); [reflexivity|]. intros k K. apply in_zrange in K. apply fseq_spec; [assumption|lia]. }
  cbn [bind]. rewrite map_map.
  assert (F0 : forall r, In r rows -> fwd_n r 0).
  { intros r I. split; [lia|]. split; [intros; lia|]. destruct (fseq_spec r 0 I ltac:(lia)) as (_ & _ & O). cbn [Z.of_nat].
    rewrite O, Z.mul_0_r, sord_0 by apply (OKR r I). rewrite (EQ r I). lia. }
  rewrite (map_ext_in _ (fun r => (r, map (fseq r t) (zrange 0 0) ++ repeat (rend r) (S (ub - 0))))).
  2:{ intros r I. rewrite (clip_row r 0 I (F0 r I)). reflexivity. }
  assert (WL : where_last (fun r d => negb (ordinal d =? ordinal (rend r)))
     (map (fun r => (r, map (fseq r t) (zrange 0 0) ++ repeat (rend r) (S (ub - 0)))) rows) = []).
  { unfold where_last. rewrite map_map. rewrite (map_ext_in _ (fun r => [])).
    - clear. induction rows; [reflexivity|assumption].
    - intros r I. apply (where_row r 0 I (F0 r I)). }
  rewrite WL. cbn [reduce_max]. rewrite map_map. reflexivity.
Qed.
End Fwd.
