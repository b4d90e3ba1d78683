From Coq Require Import ZArith List Bool Lia ZifyBool.
From Verif Require Import DateModel DateSpec DateRepr DateProofs DateProofs2 PropsDateAux CalSpec BoundedCalModel CalSetup CalProofs BoundedCalProofs PropsCalAux ScheduleModel ScheduleSpec ScheduleProofs.
Import ListNotations.
Open Scope Z_scope.

Section Bwd.
Variables (rows : list row) (t : period_type).
Hypothesis OKR : forall r, In r rows -> is_date (rstart r) /\ is_date (rend r) /\ 0 < rqty r /\ ordinal (rstart r) <= ordinal (rend r).
Notation ub := (Z.to_nat (len_upper_bound rows t)).
Definition bseq (r : row) (t : period_type) (k : Z) : date :=
  match date_sub (rend r) (period_mul (mk_period (rqty r) t) k) with Some x => x | None => rend r end.
Notation h r k := (sord t (rend r) (- (rqty r * k))).

Lemma h_dec r k : In r rows -> 0 <= k -> h r (k + 1) < h r k.
Proof.
  intros I K. destruct (OKR r I) as (_ & D & Q & _). pose proof (sord_many t (rend r) (- (rqty r * (k + 1))) (rqty r) D ltac:(lia)) as H.
  replace (- (rqty r * (k + 1)) + rqty r) with (- (rqty r * k)) in H by lia. pose proof (min_days_pos t). nia.
Qed.
Lemma h_up r k : In r rows -> 0 <= k -> h r k <= ordinal (rend r) - k * (rqty r * min_days t).
Proof.
  intros I K. destruct (OKR r I) as (_ & D & Q & _). pose proof (sord_many t (rend r) (- (rqty r * k)) (rqty r * k) D ltac:(nia)) as H.
  replace (- (rqty r * k) + rqty r * k) with 0 in H by lia. rewrite sord_0 in H by assumption. nia.
Qed.

Lemma sub_spec r k x : In r rows -> date_sub (rend r) (period_mul (mk_period (rqty r) t) k) = Some x ->
  bseq r t k = x /\ ordinal x = h r k /\ (1 <= ordinal x -> is_date x).
Proof.
  intros I E. unfold bseq. rewrite E. split; [reflexivity|]. unfold date_sub, period_mul in E. cbn [quantity ptype] in E.
  apply add_sord; [apply (OKR r I)|assumption].
Qed.
Lemma sub_some r k : In r rows -> (t = DAY \/ t = WEEK -> 1 <= h r k) ->
  date_sub (rend r) (period_mul (mk_period (rqty r) t) k) = Some (bseq r t k).
Proof.
  intros I H. destruct (add_some (rend r) t (- (rqty r * k)) (proj1 (proj2 (OKR r I))) H) as (x & E).
  unfold bseq, date_sub, period_mul. cbn [quantity ptype]. rewrite E. reflexivity.
Qed.

Definition bwd_n (r : row) (n : nat) : Prop :=
  (n <= ub)%nat /\ (forall k, 0 <= k < Z.of_nat n -> ordinal (rstart r) < h r k) /\ h r (Z.of_nat n) <= ordinal (rstart r).
Lemma bwd_n_ex r : In r rows -> exists n, bwd_n r n.
Proof.
  intros I. destruct (OKR r I) as (D & De & Q & L).
  destruct (first_reach (fun k => - h r k) (- ordinal (rstart r)) ub) as (n & A & B & C).
  - intros k K. pose proof (h_dec r k I K). lia.
  - pose proof (h_up r (Z.of_nat ub) I ltac:(lia)). destruct (ub_spec rows t r I Q L) as [U1 U2].
    replace (Z.of_nat ub) with (len_upper_bound rows t) in * by lia. lia.
  - exists n. split; [assumption|]. split; [intros k K; specialize (B k K); cbv beta in B; lia|lia].
Qed.

Lemma h_mono r j k : In r rows -> 0 <= j -> j <= k -> h r k <= h r j.
Proof.
  intros I J JK. assert (INC : forall k, 0 <= k -> - h r k < - h r (k + 1)) by (intros i K; pose proof (h_dec r i I K); lia).
  pose proof (g_mono (fun k => - h r k) INC j k J JK). cbv beta in H. lia.
Qed.

Hypothesis DEF : forall r k, In r rows -> 0 <= k < Z.of_nat ub ->
  date_sub (rend r) (period_mul (mk_period (rqty r) t) k) = Some (bseq r t k).

Lemma bclip_row r n : In r rows -> bwd_n r n ->
  map (fun d => if ordinal (rstart r) <=? ordinal d then d else rstart r) ([rstart r] ++ map (bseq r t) (rev (zrange 0 ub))) =
  repeat (rstart r) (S (ub - n)) ++ map (bseq r t) (rev (zrange 0 n)).
Proof.
  intros I (N1 & N2 & N3). destruct (OKR r I) as (D & De & Q & L).
  replace (zrange 0 ub) with (zrange 0 n ++ zrange (0 + Z.of_nat n) (ub - n)) by (rewrite <- zrange_app; f_equal; lia).
  rewrite rev_app_distr, (map_app (bseq r t)), app_assoc, map_app. f_equal.
  - rewrite map_const_repeat with (x := rstart r).
    + rewrite app_length, map_length, rev_length, zrange_length. cbn [length]. reflexivity.
    + intros d J. apply in_app_or in J as [[<-|[]]|J]; [rewrite Z.leb_refl; reflexivity|].
      apply in_map_iff in J as (k & <- & K). apply in_rev in K. apply in_zrange in K.
      destruct (ordinal (rstart r) <=? ordinal (bseq r t k)) eqn:E; [|reflexivity].
      destruct (sub_spec r k _ I (DEF r k I ltac:(lia))) as (_ & Ok & Dk). 
      assert (1 <= ordinal (rstart r)) by (apply is_date_iff; assumption).
      apply is_date_inj; [apply Dk; lia|assumption|].
      pose proof (h_mono r (Z.of_nat n) k I ltac:(lia) ltac:(lia)). lia.
  - rewrite map_map. apply map_ext_in. intros k K. apply in_rev in K. apply in_zrange in K. specialize (N2 k ltac:(lia)).
    destruct (sub_spec r k _ I (DEF r k I ltac:(lia))) as (_ & Ok & _).
    replace (ordinal (rstart r) <=? ordinal (bseq r t k)) with true by lia. reflexivity.
Qed.

Lemma bwhere_row r n : In r rows -> bwd_n r n ->
  where_from 0 (map (fun d => b2z (negb (ordinal d =? ordinal (rstart r)))) (repeat (rstart r) (S (ub - n)) ++ map (bseq r t) (rev (zrange 0 n)))) =
  zrange (Z.of_nat (S (ub - n))) n.
Proof.
  intros I (N1 & N2 & N3). rewrite map_app, where_from_app. rewrite where_from_zeros.
  - cbn [app]. rewrite where_from_ones.
    + rewrite !map_length, rev_length, zrange_length, repeat_length. f_equal.
    + intros x J. apply in_map_iff in J as (d & <- & J). apply in_map_iff in J as (k & <- & K). apply in_rev in K. apply in_zrange in K.
      specialize (N2 k ltac:(lia)). destruct (sub_spec r k _ I (DEF r k I ltac:(lia))) as (_ & Ok & _).
      replace (ordinal (bseq r t k) =? ordinal (rstart r)) with false by lia. cbn. lia.
  - intros x J. apply in_map_iff in J as (d & <- & J). apply repeat_spec in J. subst d. rewrite Z.eqb_refl. reflexivity.
Qed.

Lemma skipn_repeat_app {A} (x : A) m k l : (k <= m)%nat -> skipn k (repeat x m ++ l) = repeat x (m - k) ++ l.
Proof.
  revert k. induction m; intros k H; [replace k with 0%nat by lia; reflexivity|]. destruct k; [reflexivity|].
  cbn [repeat app skipn]. rewrite IHm by lia. reflexivity.
Qed.

Lemma backward_eq (N : row -> nat) : (forall r, In r rows -> bwd_n r (N r)) ->
  (exists r, In r rows /\ ordinal (rstart r) < ordinal (rend r)) ->
  exists L, (forall r, In r rows -> (N r < L)%nat) /\ (exists r, In r rows /\ L = S (N r)) /\
  periodic_backward rows t = Some (map (fun r => repeat (rstart r) (L - N r) ++ map (bseq r t) (rev (zrange 0 (N r)))) rows).
Proof.
  intros HN (r0 & I0 & LT0). unfold periodic_backward.
  rewrite (map_opt_some _ (fun r => (r, [rstart r] ++ map (bseq r t) (rev (zrange 0 ub))))).
  2:{ intros r I. rewrite (map_opt_some _ (bseq r t)); [reflexivity|]. intros k K. apply in_rev in K. apply in_zrange in K. apply DEF; [assumption|lia]. }
  cbn [bind]. rewrite map_map.
  rewrite (map_ext_in _ (fun r => (r, repeat (rstart r) (S (ub - N r)) ++ map (bseq r t) (rev (zrange 0 (N r)))))).
  2:{ intros r I. rewrite (bclip_row r (N r) I (HN r I)). reflexivity. }
  assert (WL : where_last (fun r d => negb (ordinal d =? ordinal (rstart r)))
     (map (fun r => (r, repeat (rstart r) (S (ub - N r)) ++ map (bseq r t) (rev (zrange 0 (N r))))) rows) =
     concat (map (fun r => zrange (Z.of_nat (S (ub - N r))) (N r)) rows)).
  { unfold where_last. f_equal. rewrite map_map. apply map_ext_in. intros r I. apply bwhere_row; auto. }
  rewrite WL.
  assert (N0 : (0 < N r0)%nat).
  { destruct (N r0) eqn:E; [|lia]. destruct (HN r0 I0) as (_ & _ & H). rewrite E in H. cbn [Z.of_nat] in H.
    rewrite Z.mul_0_r, sord_0 in H by apply (OKR r0 I0). lia. }
  destruct (reduce_min_spec (concat (map (fun r => zrange (Z.of_nat (S (ub - N r))) (N r)) rows))) as (m & EM & IM & MM).
  { intros H. assert (In (Z.of_nat (S (ub - N r0))) (concat (map (fun r => zrange (Z.of_nat (S (ub - N r))) (N r)) rows))); [|rewrite H in *; auto].
    apply in_concat. eexists. split; [apply in_map_iff; eauto|]. apply in_zrange. lia. }
  rewrite EM.
  apply in_concat in IM as (l & Hl & IM). apply in_map_iff in Hl as (r' & <- & I'). apply in_zrange in IM.
  assert (M0 : (0 < N r')%nat) by lia.
  assert (M2 : m = Z.of_nat (S (ub - N r'))).
  { assert (m <= Z.of_nat (S (ub - N r'))); [|lia]. apply MM. apply in_concat. eexists.
    split; [apply in_map_iff; exists r'; eauto|]. apply in_zrange. lia. }
  assert (M1 : forall r, In r rows -> (N r <= N r')%nat).
  { intros r I. destruct (N r) eqn:E; [lia|]. destruct (HN r I) as (U & _). destruct (HN r' I') as (U' & _).
    assert (m <= Z.of_nat (S (ub - N r))); [|lia]. apply MM. apply in_concat. eexists.
    split; [apply in_map_iff; exists r; eauto|]. apply in_zrange. lia. }
  exists (S (N r')). split; [intros r I; specialize (M1 r I); lia|]. split; [eauto|].
  f_equal. rewrite map_map. apply map_ext_in. intros r I. specialize (M1 r I).
  destruct (HN r I) as (U & _). destruct (HN r' I') as (U' & _).
  rewrite skipn_repeat_app by lia. f_equal. f_equal. lia.
Qed.
End Bwd.

(** From the equations to the specification. *)
Lemma choose_rows {A} (P : row -> A -> Prop) rows (a0 : A) :
  (forall r, In r rows -> exists a, P r a) -> exists l, Forall2 P rows l.
Proof.
  induction rows; intros H; [exists []; constructor|].
  destruct (H a (or_introl eq_refl)) as (x & X). destruct IHrows as (l & L); [intros; apply H; right; assumption|].
  exists (x :: l). constructor; assumption.
Qed.

Lemma fwd_n_unique rows t r n1 n2 : fwd_n rows t r n1 -> fwd_n rows t r n2 -> n1 = n2.
Proof.
  intros (_ & A1 & B1) (_ & A2 & B2). destruct (Nat.lt_trichotomy n1 n2) as [H|[H|H]]; [|assumption|].
  - specialize (A2 (Z.of_nat n1) ltac:(lia)). lia.
  - specialize (A1 (Z.of_nat n2) ltac:(lia)). lia.
Qed.

Definition first_n (g : Z -> bool) (u : nat) : nat := length (filter g (zrange 0 u)).

Lemma filter_first (g : Z -> bool) n u : (n <= u)%nat -> (forall k, 0 <= k < Z.of_nat n -> g k = true) ->
  (forall k, Z.of_nat n <= k < Z.of_nat u -> g k = false) -> first_n g u = n.
Proof.
  intros H A B. unfold first_n. replace u with (n + (u - n))%nat by lia. rewrite zrange_app, filter_app, app_length.
  assert (F1 : filter g (zrange 0 n) = zrange 0 n).
  { assert (G : forall l, (forall k, In k l -> g k = true) -> filter g l = l).
    { induction l; intros F; [reflexivity|]. cbn. rewrite F by (left; reflexivity). f_equal. apply IHl. intros; apply F; right; assumption. }
    apply G. intros k K. apply in_zrange in K. apply A. lia. }
  assert (F2 : filter g (zrange (0 + Z.of_nat n) (u - n)) = []).
  { assert (G : forall l, (forall k, In k l -> g k = false) -> filter g l = []).
    { induction l; intros F; [reflexivity|]. cbn. rewrite F by (left; reflexivity). apply IHl. intros; apply F; right; assumption. }
    apply G. intros k K. apply in_zrange in K. apply B. lia. }
  rewrite F1, F2, zrange_length. cbn. lia.
Qed.

Definition Nf rows t (r : row) : nat :=
  first_n (fun k => ordinal (fseq r t k) <? ordinal (rend r)) (Z.to_nat (len_upper_bound rows t)).
Definition Nb rows t (r : row) : nat :=
  first_n (fun k => ordinal (rstart r) <? sord t (rend r) (- (rqty r * k))) (Z.to_nat (len_upper_bound rows t)).

Definition rows_ok (rows : list row) : Prop :=
  forall r, In r rows -> is_date (rstart r) /\ is_date (rend r) /\ 0 < rqty r /\ ordinal (rstart r) <= ordinal (rend r).

Lemma Nf_ok rows t : rows_ok rows -> forall r, In r rows -> fwd_n rows t r (Nf rows t r).
Proof.
  intros OKR r I. destruct (fwd_n_ex rows t OKR r I) as (n & F). pose proof F as (A & B & C).
  replace (Nf rows t r) with n; [assumption|]. symmetry. apply filter_first; [assumption|..].
  - intros k K. specialize (B k K). lia.
  - intros k K. destruct (fseq_spec rows t OKR r k I ltac:(lia)) as (_ & _ & O). 
    destruct (fseq_spec rows t OKR r (Z.of_nat n) I ltac:(lia)) as (_ & _ & On).
    pose proof (g_mono (fun k => sord t (rstart r) (rqty r * k)) (fun k K => g_inc rows t OKR r k I K) (Z.of_nat n) k ltac:(lia) ltac:(lia)) as M.
    cbv beta in M. lia.
Qed.
Lemma Nb_ok rows t : rows_ok rows -> forall r, In r rows -> bwd_n rows t r (Nb rows t r).
Proof.
  intros OKR r I. destruct (bwd_n_ex rows t OKR r I) as (n & F). pose proof F as (A & B & C).
  replace (Nb rows t r) with n; [assumption|]. symmetry. apply filter_first; [assumption|..].
  - intros k K. specialize (B k K). lia.
  - intros k K. pose proof (h_mono rows t OKR r (Z.of_nat n) k I ltac:(lia) ltac:(lia)). lia.
Qed.

Definition row_spec (t : period_type) (backward : bool) (r : row) (l : list date) : Prop :=
  if backward then backward_dates (rstart r) (rend r) (mk_period (rqty r) t) l
  else forward_dates (rstart r) (rend r) (mk_period (rqty r) t) l.

Lemma Forall2_map_r {A B C} (P : A -> C -> Prop) (f : B -> C) l l' : Forall2 (fun a b => P a (f b)) l l' -> Forall2 P l (map f l').
Proof. induction 1; constructor; assumption. Qed.
Lemma Forall2_same {A} (P : A -> A -> Prop) l : (forall x, In x l -> P x x) -> Forall2 P l l.
Proof. induction l; intros H; constructor; [apply H; left; reflexivity|]. apply IHl. intros; apply H; right; assumption. Qed.
Lemma Forall2_maps {A B C} (P : B -> C -> Prop) (f : A -> B) (g : A -> C) l : (forall x, In x l -> P (f x) (g x)) -> Forall2 P (map f l) (map g l).
Proof. induction l; intros H; constructor; [apply H; left; reflexivity|]. apply IHl. intros; apply H; right; assumption. Qed.

Lemma forward_batch rows t : rows_ok rows -> (exists r, In r rows /\ ordinal (rstart r) < ordinal (rend r)) ->
  exists out, periodic_forward rows t = Some out /\ batch (row_spec t false) false rows out.
Proof.
  intros OKR EX. destruct (forward_eq rows t OKR (Nf rows t) (Nf_ok rows t OKR) EX) as (L & A & (r' & I' & EL) & E).
  eexists. split; [exact E|]. exists (map (fun r => map (fseq r t) (zrange 0 (Nf rows t r)) ++ [rend r]) rows), L.
  split; [|split; [split|]].
  - apply Forall2_map_r. apply Forall2_same. intros r I. exists (Nf rows t r), (fseq r t).
    destruct (Nf_ok rows t OKR r I) as (_ & B & C). split; [|split; [|reflexivity]].
    + intros k K. split; [apply (fseq_spec rows t OKR r k I); lia|apply B; assumption].
    + intros k x K EQ. destruct (fseq_spec rows t OKR r k I ltac:(lia)) as (E1 & _ & O1). rewrite EQ in E1. injection E1 as ->.
      destruct (fseq_spec rows t OKR r _ I (Zle_0_nat (Nf rows t r))) as (_ & _ & On).
      pose proof (g_mono (fun k => sord t (rstart r) (rqty r * k)) (fun k K => g_inc rows t OKR r k I K) (Z.of_nat (Nf rows t r)) k ltac:(lia) ltac:(lia)) as M.
      cbv beta in M. lia.
  - eexists. split; [apply in_map_iff; exists r'; split; [reflexivity|assumption]|]. rewrite app_length, map_length, zrange_length. cbn. lia.
  - intros l I. apply in_map_iff in I as (r & <- & I). rewrite app_length, map_length, zrange_length. cbn. specialize (A r I). lia.
  - apply Forall2_maps. intros r I. exists (map (fseq r t) (zrange 0 (Nf rows t r))), (rend r). split; [reflexivity|].
    rewrite app_length, map_length, zrange_length, <- app_assoc. f_equal. specialize (A r I). cbn [length].
    replace (L - Nf rows t r)%nat with (S (L - (Nf rows t r + 1))) by lia. reflexivity.
Qed.

Lemma backward_batch rows t : rows_ok rows -> (exists r, In r rows /\ ordinal (rstart r) < ordinal (rend r)) ->
  (forall out, periodic_backward rows t = Some out -> batch (row_spec t true) true rows out) /\
  (t = MONTH \/ t = YEAR \/ (exists r, rows = [r]) -> exists out, periodic_backward rows t = Some out).
Proof.
  intros OKR EX.
  assert (G : (forall r k, In r rows -> 0 <= k < Z.of_nat (Z.to_nat (len_upper_bound rows t)) ->
     date_sub (rend r) (period_mul (mk_period (rqty r) t) k) = Some (bseq r t k)) -> 
     exists out, periodic_backward rows t = Some out /\ batch (row_spec t true) true rows out).
  { intros DEF. destruct (backward_eq rows t OKR DEF (Nb rows t) (Nb_ok rows t OKR) EX) as (L & A & (r' & I' & EL) & E).
    eexists. split; [exact E|]. exists (map (fun r => rstart r :: rev (map (bseq r t) (zrange 0 (Nb rows t r)))) rows), L.
    split; [|split; [split|]].
    - apply Forall2_map_r. apply Forall2_same. intros r I. exists (Nb rows t r), (bseq r t).
      destruct (Nb_ok rows t OKR r I) as (U & B & C). split; [|split; [|reflexivity]].
      + intros k K. assert (E1 := DEF r k I ltac:(lia)). split; [assumption|].
        destruct (sub_spec rows t OKR r k _ I E1) as (_ & -> & _). apply B; assumption.
      + intros k x K EQ. destruct (sub_spec rows t OKR r k _ I EQ) as (_ & -> & _).
        pose proof (h_mono rows t OKR r (Z.of_nat (Nb rows t r)) k I ltac:(lia) ltac:(lia)). lia.
    - eexists. split; [apply in_map_iff; exists r'; split; [reflexivity|assumption]|]. cbn [length]. rewrite rev_length, map_length, zrange_length. lia.
    - intros l I. apply in_map_iff in I as (r & <- & I). cbn [length]. rewrite rev_length, map_length, zrange_length. specialize (A r I). lia.
    - apply Forall2_maps. intros r I. exists (rstart r), (rev (map (bseq r t) (zrange 0 (Nb rows t r)))). split; [reflexivity|].
      cbn [length]. rewrite rev_length, map_length, zrange_length. specialize (A r I).
      rewrite map_rev. replace (L - Nb rows t r)%nat with (L - S (Nb rows t r) + 1)%nat by lia. rewrite repeat_app, <- app_assoc. reflexivity. }
  split.
  - intros out E. destruct G as (out' & E' & B); [|rewrite E in E'; injection E' as ->; assumption].
    intros r k I K. unfold periodic_backward in E.
    destruct (map_opt _ rows) eqn:M in E; [|discriminate]. destruct (map_opt_inv _ _ _ M) as (_ & MM).
    apply In_nth_error in I as (i & I). destruct (MM i r I) as (y & _ & Y).
    destruct (map_opt _ (rev _)) eqn:M2 in Y; [|discriminate]. destruct (map_opt_inv _ _ _ M2) as (_ & MM2).
    assert (I2 : In k (rev (zrange 0 (Z.to_nat (len_upper_bound rows t))))) by (rewrite <- in_rev; apply in_zrange; lia).
    apply In_nth_error in I2 as (j & I2). destruct (MM2 j k I2) as (z & _ & Z0). cbv beta in Z0. unfold bseq. rewrite Z0. reflexivity.
  - intros C. destruct G as (out' & E' & B); [|eauto]. intros r k I K. apply (sub_some rows t OKR r k I). intros T.
    destruct C as [->|[->|(r0 & ->)]]; [destruct T; discriminate|destruct T; discriminate|].
    destruct I as [<-|[]]. destruct (OKR r0 (or_introl eq_refl)) as (D & De & Q & L).
    assert (1 <= ordinal (rstart r0)) by (apply is_date_iff; assumption).
    assert (UB : len_upper_bound [r0] t = ceil_div (ordinal (rend r0) - ordinal (rstart r0) + 1) (rqty r0 * min_days t)) by reflexivity.
    rewrite UB in K. unfold ceil_div in K.
    set (w := ordinal (rend r0) - ordinal (rstart r0) + 1) in *. set (b := rqty r0 * min_days t) in *.
    pose proof (min_days_pos t). assert (0 < b) by (unfold b; nia).
    pose proof (Z.div_mod (- w) b ltac:(lia)). pose proof (Z.mod_pos_bound (- w) b ltac:(lia)).
    assert (k * b < w) by nia.
    assert (ordinal (rend r0) - k * b >= 1) by (unfold w in *; lia).
    destruct T as [->| ->]; cbn [sord]; unfold b in *; cbn [min_days] in *; lia.
Qed.

Lemma eom_b d : is_date d -> exists b, is_end_of_month d = Some b /\ (b = true <-> last_of_month d).
Proof.
  intros D. pose proof (repr_self d D) as R. unfold ymd_of in R. destruct (eom_spec d _ R) as (_ & b & E & H). exists b. split; assumption.
Qed.
Lemma to_eom d : is_date d -> exists x, to_end_of_month d = Some x /\ moved_to_eom d x.
Proof.
  intros D. pose proof (repr_self d D) as R. unfold ymd_of in R. destruct (eom_spec d _ R) as ((x & E & R' & _) & _).
  exists x. split; [assumption|]. pose proof R' as (_ & EQ & _). injection EQ as E1 E2 E3.
  split; [eexists; exact R'|]. split; [assumption|]. split; [assumption|]. unfold last_of_month. rewrite E1, E2, E3. reflexivity.
Qed.

(** all dates of a base schedule are dates *)
Lemma row_spec_dates t bw r l : is_date (rstart r) -> is_date (rend r) -> 0 < rqty r -> row_spec t bw r l -> Forall is_date l.
Proof.
  intros D De Q S. assert (1 <= ordinal (rstart r)) by (apply is_date_iff; assumption). destruct bw; destruct S as (n & s & A & _ & ->).
  - constructor; [assumption|]. apply Forall_rev. apply Forall_forall. intros x I. apply in_map_iff in I as (k & <- & K). apply in_zrange in K.
    destruct (A k ltac:(lia)) as (E & O). unfold date_sub, period_mul in E. cbn [quantity ptype] in E. destruct (add_sord _ _ _ _ De E) as (_ & X). apply X. lia.
  - apply Forall_app. split; [|constructor; [assumption|constructor]]. apply Forall_forall. intros x I. apply in_map_iff in I as (k & <- & K). apply in_zrange in K.
    destruct (A k ltac:(lia)) as (E & O). unfold period_mul in E. cbn [quantity ptype] in E. destruct (add_sord _ _ _ _ D E) as (O2 & X). apply X. rewrite O2.
    pose proof (sord_many t (rstart r) 0 (rqty r * k) D ltac:(nia)) as M. rewrite sord_0 in M by assumption. replace (0 + rqty r * k) with (rqty r * k) in M by lia.
    pose proof (min_days_pos t). nia.
Qed.
