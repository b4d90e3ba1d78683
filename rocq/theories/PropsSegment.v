(** C20: segmented differences and cumulative sums never mix runs. *)
From Coq Require Import ZArith Reals List Lia Lra.
From Verif Require Import SegmentModel SegmentSpec SegmentProofs.
Import ListNotations.
Open Scope R_scope.

Lemma segmentwise_map (rel : list R -> list R -> Prop) G (s : segmentation) :
  (forall v, rel v (G v)) -> segmentwise rel s (concat (map G (map snd s))).
Proof.
  intros H. exists (map G (map snd s)). split; [reflexivity|]. induction s; cbn; constructor; auto.
Qed.
Lemma diff_is order v : is_diff order v (diff order false v).
Proof.
  split; [apply diff_length|]. intros i H. rewrite diff_nth by assumption. split; intros Q.
  - apply Nat.ltb_lt in Q. rewrite Q. reflexivity.
  - apply Nat.ltb_ge in Q. rewrite Q. reflexivity.
Qed.
Lemma diff_excl_is order v : is_diff_excl order v (diff order true v).
Proof. split; [apply diff_excl_length|]. intros i H. apply diff_excl_nth. assumption. Qed.
Lemma cumsum_is excl v : is_cumsum excl v (cumsum excl v).
Proof. split; [apply cumsum_length|]. intros i H. unfold cumsum. rewrite cumsum_nth by assumption. unfold sum. lra. Qed.

(** Any ids vector is a sequence of runs, so the theorems below cover every input. *)
Theorem C20_every_input_has_runs ids x : length ids = length x -> exists s, runs s /\ seg_ids s = ids /\ seg_values s = x.
Proof. apply runs_exist. Qed.

(** Each run is differenced on its own, whatever the lengths of the runs and the order. *)
Theorem C20_segment_diff s order : runs s -> s <> [] ->
  segmentwise (is_diff order) s (segment_diff (seg_values s) (Some (seg_ids s)) order false) /\
  segmentwise (is_diff_excl order) s (segment_diff (seg_values s) (Some (seg_ids s)) order true).
Proof.
  intros R N. rewrite segment_diff_incl, segment_diff_exclusive by assumption. split; apply segmentwise_map.
  - apply diff_is.
  - apply diff_excl_is.
Qed.

Theorem C20_segment_cumsum s exclusive : runs s ->
  segmentwise (is_cumsum exclusive) s (segment_cumsum (seg_values s) (Some (seg_ids s)) exclusive).
Proof. intros R. rewrite segment_cumsum_runs by assumption. apply segmentwise_map. apply cumsum_is. Qed.

(** Without ids the whole vector is one run. *)
Theorem C20_unsegmented x order exclusive :
  is_diff order x (segment_diff x None order false) /\
  is_diff_excl order x (segment_diff x None order true) /\
  is_cumsum exclusive x (segment_cumsum x None exclusive) /\
  (forall g b, x <> [] -> segment_diff x (Some (repeat g (length x))) order b = segment_diff x None order b).
Proof.
  split; [apply diff_is|]. split; [apply diff_excl_is|]. split; [apply cumsum_is|]. intros g b N.
  assert (R : runs [(g, x)]) by (cbn; auto).
  assert (V : seg_values [(g, x)] = x) by (unfold seg_values; cbn; apply app_nil_r).
  assert (I : seg_ids [(g, x)] = repeat g (length x)) by (unfold seg_ids; cbn; apply app_nil_r).
  assert (Q : [(g, x)] <> []) by discriminate.
  destruct b.
  - pose proof (segment_diff_exclusive order [(g, x)] R Q) as E. rewrite V, I in E. rewrite E. cbn. apply app_nil_r.
  - pose proof (segment_diff_incl order [(g, x)] R Q) as E. rewrite V, I in E. rewrite E. cbn. apply app_nil_r.
Qed.

(** Order-1 differences and cumulative sums are inverse to each other, per run. *)
Theorem C20_round_trip x ids : length ids = length x -> x <> [] ->
  segment_cumsum (segment_diff x (Some ids) 1 false) (Some ids) false = x /\
  segment_diff (segment_cumsum x (Some ids) false) (Some ids) 1 false = x.
Proof.
  intros L N. destruct (runs_exist ids x L) as (s & RS & <- & <-).
  assert (NE : s <> []) by (intros ->; apply N; reflexivity).
  rewrite segment_diff_incl by assumption. rewrite segment_cumsum_runs by assumption.
  assert (G : forall F, (forall v : list R, length (F v) = length v) ->
    let s' := map (fun '(g, v) => (g, F v)) s in
    runs s' /\ s' <> [] /\ seg_ids s' = seg_ids s /\ seg_values s' = concat (map F (map snd s)) /\ map snd s' = map F (map snd s)).
  { intros F HF s'. split; [|split; [|split; [|split]]].
    - subst s'. clear N NE L. induction s as [|(g, v) s IH]; [exact I|]. destruct RS as (R1 & R2 & R3). cbn. split; [|split; [|apply IH; assumption]].
      + intros E. apply R1. apply length_zero_iff_nil. rewrite <- (HF v), E. reflexivity.
      + destruct s as [|(g', v')]; [exact I|]. exact R2.
    - subst s'. destruct s; [congruence|discriminate].
    - subst s'. unfold seg_ids. rewrite map_map. f_equal. apply map_ext. intros (g, v). rewrite HF. reflexivity.
    - subst s'. unfold seg_values. rewrite !map_map. f_equal. apply map_ext. intros (g, v). reflexivity.
    - subst s'. rewrite !map_map. apply map_ext. intros (g, v). reflexivity. }
  split.
  - destruct (G (diff 1 false) (diff_length 1)) as (R' & N' & I' & V' & M'). rewrite <- V', <- I'. rewrite segment_cumsum_runs by assumption.
    rewrite M', map_map. unfold seg_values. f_equal. rewrite <- (map_id (map snd s)) at 2. apply map_ext. apply cumsum_diff.
  - destruct (G (cumsum false) (fun v => cumsum_length false v 0)) as (R' & N' & I' & V' & M'). rewrite <- V', <- I'. rewrite segment_diff_incl by assumption.
    rewrite M', map_map. unfold seg_values. f_equal. rewrite <- (map_id (map snd s)) at 2. apply map_ext. apply diff_cumsum.
Qed.

(** Three runs, one shorter than the order. *)
Example C20_ex :
  let s := [(0%Z, [2; 5; 1; 7]); (3%Z, [9]); (4%Z, [10; 30; 60])] in
  runs s /\ s <> [] /\
  segment_diff (seg_values s) (Some (seg_ids s)) 2 false = [2; 5; 1 - 2; 7 - 5; 9; 10; 30; 60 - 10] /\
  segment_diff (seg_values s) (Some (seg_ids s)) 2 true = [1 - 2; 7 - 5; 60 - 10] /\
  segment_cumsum (seg_values s) (Some (seg_ids s)) true = [0; 0 + 2; 0 + 2 + 5; 0 + 2 + 5 + 1; 0; 0; 0 + 10; 0 + 10 + 30].
Proof. cbn. repeat split; discriminate. Qed.

Print Assumptions C20_every_input_has_runs.
Print Assumptions C20_segment_diff.
Print Assumptions C20_segment_cumsum.
Print Assumptions C20_unsegmented.
Print Assumptions C20_round_trip.
