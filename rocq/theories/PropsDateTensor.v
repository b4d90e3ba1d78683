(** C89: tensors of dates keep their dates through shape operations and
    conversions, and create_holiday_calendar builds the calendar asked for. *)
From Coq Require Import ZArith List Bool Arith Lia ZifyBool Sorted.
From Verif Require Import ShapeModel ShapeProofs DateModel DateSpec DateRepr DateProofs DateProofs2 PropsDateAux PropsDate CalSpec BoundedCalModel UnboundedCalModel CalSetup CalProofs BoundedCalProofs PropsCalAux PropsCal.
From Verif Require Import DateTensorModel DateTensorSpec DateTensorProofs.
Import ListNotations.
Open Scope nat_scope.

(** Expanding, reshaping, broadcasting, transposing, squeezing, masking and
    indexing a DateTensor fails exactly when the same operation on the tensor of
    its dates fails, and otherwise its result holds the dates that this
    operation gives. *)
Theorem C89_operations : forall u t T, holds t T -> both holds (date_unary u t) (unary_op u T).
Proof.
  intros u t T (D & O & Y & M & E & _).
  pose proof (unary_same ordinal u _ _ O) as BO. pose proof (unary_same year u _ _ Y) as BY. pose proof (unary_same month u _ _ M) as BM. pose proof (unary_same day u _ _ E) as BE.
  unfold date_unary, apply_op. destruct (unary_op u T) as [T'|] eqn:UT.
  - destruct (unary_op u (dt_ordinals t)) as [o|]; [|destruct BO]. destruct (unary_op u (dt_years t)) as [y|]; [|destruct BY].
    destruct (unary_op u (dt_months t)) as [m|]; [|destruct BM]. destruct (unary_op u (dt_days t)) as [d|]; [|destruct BE]. cbn in *.
    split; [|split; [exact BO|split; [exact BY|split; [exact BM|split; [exact BE|exact I]]]]].
    intros idx W. unfold unary_op in UT. destruct (unary_plan u (tshape T)) as [p|] eqn:P; cbn in UT; [|discriminate]. injection UT as <-. cbn in *. apply D. exact (plan_inside _ _ _ _ P W).
  - destruct (unary_op u (dt_ordinals t)) as [o|]; [destruct BO|]. cbn. exact I.
Qed.

(** The same for joining several DateTensors: concat, stack and where. *)
Lemma forall2_project {B} (f : date_tensor -> tensor B) (g : date -> B) ts Ts :
  (forall t T, holds t T -> same (f t) (tmap g T)) -> Forall2 holds ts Ts -> Forall2 (fun t T => same t (tmap g T)) (map f ts) Ts.
Proof. intros H F. induction F; cbn; constructor; auto. Qed.
Lemma validate_all ts : validate_types (map Instance ts : list (wrapped date_tensor)) = Some ts.
Proof. unfold validate_types. induction ts as [|t ts IH]; [reflexivity|]. cbn in *. rewrite IH. reflexivity. Qed.
Theorem C89_joins : forall n ts Ts, Forall2 holds ts Ts -> both holds (date_nary n (map Instance ts)) (nary_op n Ts).
Proof.
  intros n ts Ts F. unfold date_nary. rewrite validate_all. cbn [bind]. unfold apply_sequence_op.
  pose proof (nary_same ordinal n _ _ (forall2_project (B := Z) dt_ordinals ordinal ts Ts (fun t T H => proj1 (proj2 H)) F)) as BO.
  pose proof (nary_same year n _ _ (forall2_project (B := Z) dt_years year ts Ts (fun t T H => proj1 (proj2 (proj2 H))) F)) as BY.
  pose proof (nary_same month n _ _ (forall2_project (B := Z) dt_months month ts Ts (fun t T H => proj1 (proj2 (proj2 (proj2 H)))) F)) as BM.
  pose proof (nary_same day n _ _ (forall2_project (B := Z) dt_days day ts Ts (fun t T H => proj1 (proj2 (proj2 (proj2 (proj2 H))))) F)) as BE.
  destruct (nary_op n Ts) as [T'|] eqn:UT.
  - destruct (nary_op n (map dt_ordinals ts)) as [o|]; [|destruct BO]. destruct (nary_op n (map dt_years ts)) as [y|]; [|destruct BY].
    destruct (nary_op n (map dt_months ts)) as [m|]; [|destruct BM]. destruct (nary_op n (map dt_days ts)) as [d|]; [|destruct BE]. cbn in *.
    split; [|split; [exact BO|split; [exact BY|split; [exact BM|split; [exact BE|exact I]]]]].
    clear BO BY BM BE o y m d. intros idx W. unfold nary_op in UT. destruct Ts as [|T Ts]; [discriminate|]. remember (T :: Ts) as L eqn:EL.
    destruct (nary_join n (map tshape L)) as [j|] eqn:P; cbn in UT; [|discriminate]. injection UT as <-. cbn in *.
    pose proof (join_inside _ _ _ _ P W) as (Q & V). destruct (snd j idx) as (k, i). cbn [fst snd] in *. rewrite map_length in Q.
    rewrite (nth_indep _ [] (tshape T)) in V by (rewrite map_length; exact Q). rewrite map_nth in V. clear P W EL.
    revert k Q V. induction F as [|a b l m' H F IH]; intros k Q V; cbn in Q; [lia|]. destruct k as [|k]; [exact (proj1 H i V)|]. apply IH; [lia|exact V].
  - destruct (nary_op n (map dt_ordinals ts)) as [o|]; [destruct BO|]. exact I.
Qed.
(** An argument that is not a DateTensor is refused. *)
Theorem C89_foreign : forall n ts, In Foreign ts -> date_nary n ts = None.
Proof.
  intros n ts H. unfold date_nary. assert (E : validate_types ts = None); [|rewrite E; reflexivity].
  unfold validate_types. induction ts as [|w ts IH]; [destruct H|]. cbn. destruct H as [->|H]; [reflexivity|]. destruct w; [|reflexivity]. rewrite (IH H). reflexivity.
Qed.

(** Asking for the day of the year, now or again later, gives the position of
    each date in its year and leaves the dates as they are. *)
Theorem C89_day_of_year : forall t T, holds t T ->
  same (fst (dt_get_day_of_year t)) (tmap day_of_year T) /\ holds (snd (dt_get_day_of_year t)) T /\
  forall idx, inside (tshape T) idx -> forall j, is_nth j (year (entry T idx), 1, 1)%Z ->
    entry (fst (dt_get_day_of_year t)) idx = Some (ordinal (entry T idx) - j + 1)%Z.
Proof.
  intros t T (D & O & Y & M & E & C).
  assert (S : same (fst (dt_get_day_of_year t)) (tmap day_of_year T)).
  { unfold dt_get_day_of_year. destruct (dt_day_of_year t) as [c|]; [exact C|]. cbn [fst]. split; [exact (proj1 M)|]. cbn [tshape]. intros idx W. cbn [entry tmap]. f_equal. unfold dt_element.
    assert (W' : inside (tshape T) idx) by (rewrite (proj1 M) in W; exact W).
    rewrite (proj2 O), (proj2 Y), (proj2 M), (proj2 E) by (first [rewrite (proj1 O)|rewrite (proj1 Y)|rewrite (proj1 M)|rewrite (proj1 E)]; exact W').
    cbn. destruct (entry T idx); reflexivity. }
  split; [exact S|]. split.
  - unfold dt_get_day_of_year in *. destruct (dt_day_of_year t) as [c|] eqn:EC; cbn [fst snd] in *.
    + unfold holds. rewrite EC. auto 10.
    + unfold holds. cbn. auto 10.
  - intros idx W j J. rewrite (proj2 S) by (rewrite (proj1 S); exact W). cbn. destruct (D idx W) as (((y, m), d) & RP).
    pose proof RP as (_ & EQ & _). assert (EY : year (entry T idx) = y) by congruence. rewrite EY in J. exact (proj2 (proj2 C03_weekday_day_of_year) _ _ _ _ _ RP J).
Qed.

(** Every date in a result is a date of an argument: no operation makes up dates
    or mixes the parts of different ones. *)
Theorem C89_no_new_dates :
  (forall u (T T' : tensor date), unary_op u T = Some T' -> forall idx, inside (tshape T') idx -> exists idx', inside (tshape T) idx' /\ entry T' idx = entry T idx') /\
  (forall n (Ts : list (tensor date)) T', nary_op n Ts = Some T' -> forall idx, inside (tshape T') idx -> exists T idx', In T Ts /\ inside (tshape T) idx' /\ entry T' idx = entry T idx').
Proof.
  split.
  - intros u T T' H idx W. unfold unary_op in H. destruct (unary_plan u (tshape T)) as [p|] eqn:P; cbn in H; [|discriminate]. injection H as <-. exists (snd p idx). split; [exact (plan_inside _ _ _ _ P W)|reflexivity].
  - intros n Ts T' H idx W. unfold nary_op in H. destruct Ts as [|T0 Ts]; [discriminate|]. remember (T0 :: Ts) as L.
    destruct (nary_join n (map tshape L)) as [j|] eqn:P; cbn in H; [|discriminate]. injection H as <-. cbn in W. pose proof (join_inside _ _ _ _ P W) as (Q & V). rewrite map_length in Q.
    exists (nth (fst (snd j idx)) L T0), (snd (snd j idx)). split; [apply nth_In; exact Q|]. split.
    + rewrite (nth_indep _ [] (tshape T0)) in V by (rewrite map_length; exact Q). rewrite map_nth in V. exact V.
    + cbn. destruct (snd j idx). reflexivity.
Qed.

(** Reshaping keeps the entries in row-major order. *)
Lemma indices_unravel sh : indices sh = map (unravel sh) (seq 0 (volume sh)).
Proof.
  induction sh as [|n sh IH]; [reflexivity|]. cbn [indices]. rewrite IH. change (volume (n :: sh)) with (n * volume sh). set (v := volume sh) in *.
  destruct (Nat.eq_dec v 0) as [Z|Z].
  - rewrite Z, Nat.mul_0_r. cbn. clear. generalize (seq 0 n). intros l. induction l; [reflexivity|assumption].
  - assert (G : forall k s, flat_map (fun i => map (cons i) (map (unravel sh) (seq 0 v))) (seq s k) = map (unravel (n :: sh)) (seq (s * v) (k * v))).
    { induction k as [|k IHk]; intros s; [reflexivity|]. cbn [seq flat_map]. rewrite IHk. cbn [Nat.mul]. rewrite seq_app, map_app. f_equal.
      - rewrite map_map. replace (seq (s * v) v) with (map (fun i => s * v + i) (seq 0 v)).
        + rewrite map_map. apply map_ext_in. intros i Hi. apply in_seq in Hi. cbn [unravel]. fold v. rewrite Nat.add_comm, Nat.div_add, Nat.mod_add, Nat.div_small, Nat.mod_small by lia. reflexivity.
        + assert (Q : forall w a b, map (fun i => a + i) (seq b w) = seq (a + b) w) by (clear; induction w as [|w IH]; intros a b; [reflexivity|]; cbn; f_equal; rewrite IH; f_equal; lia). rewrite Q. f_equal. lia.
      - rewrite (Nat.add_comm (s * v)). reflexivity. }
    exact (G n 0).
Qed.
Theorem C89_reshape : forall target (T T' : tensor date), unary_op (Reshape target) T = Some T' -> entries T' = entries T /\ Forall2 (fun z d => z = Z.of_nat d \/ z = (-1)%Z) target (tshape T').
Proof.
  intros target T T'. unfold unary_op. cbn [unary_plan]. unfold reshape.
  destruct (forallb (fun d => (-1 <=? d)%Z) target) eqn:FA; cbn [negb]; [|discriminate]. set (missing := match length (filter (Z.eqb (-1)) target) with O => _ | S _ => _ end). clearbody missing.
  destruct missing as [m|]; [|discriminate]. set (new := map _ target). destruct (Nat.eqb_spec (volume new) (volume (tshape T))) as [E|E]; [|discriminate].
  intros [= <-]. split.
  - unfold entries. cbn [tshape run_plan fst]. rewrite !indices_unravel, E, !map_map. apply map_ext_in. intros k K. apply in_seq in K. cbn [run_plan snd entry].
    rewrite (proj2 (unravel_ok new k ltac:(lia))). reflexivity.
  - cbn [run_plan tshape fst]. unfold new. rewrite forallb_forall in FA. clear E new. induction target as [|z target IH]; [constructor|]. cbn. constructor.
    + destruct (Z.eqb_spec z (-1)); [auto|]. left. specialize (FA z (or_introl eq_refl)). lia.
    + apply IH. intros x X. apply FA. right. exact X.
Qed.

(** Stacking and taking the parts again, and transposing twice, change nothing. *)
Theorem C89_stack_index : forall (Ts : list (tensor date)) T', nary_op (Stack 0) Ts = Some T' ->
  forall i, i < length Ts -> both same (unary_op (GetItem [KInt (Z.of_nat i)]) T') (nth_error Ts i).
Proof.
  intros Ts T' H i L. unfold nary_op in H. destruct Ts as [|T0 Ts]; [discriminate|]. remember (T0 :: Ts) as Us eqn:EU.
  destruct (nary_join (Stack 0) (map tshape Us)) as [j|] eqn:P; cbn in H; [|discriminate]. injection H as <-.
  cbn [nary_join] in P. unfold stack_join in P. destruct (map tshape Us) as [|sh r] eqn:EM; [discriminate|]. rewrite <- EM in P.
  destruct (axis_of 0 (S (length sh))) as [k|] eqn:EA; [|discriminate]. assert (k = 0) as -> by (unfold axis_of in EA; destruct ((0 <=? 0) && (0 <? Z.of_nat (S (length sh))))%Z eqn:Q; [injection EA as <-; reflexivity|lia]).
  match type of P with (if ?b then _ else _) = _ => destruct b eqn:F; [|discriminate] end. rewrite forallb_forall in F. injection P as <-.
  assert (SH : tshape (nth i Us T0) = sh).
  { specialize (F (tshape (nth i Us T0))). rewrite EM in F. rewrite <- EM in F. specialize (F (in_map tshape _ _ (nth_In _ _ L))). destruct (list_eq_dec Nat.eq_dec (tshape (nth i Us T0)) sh) as [E|]; [exact E|discriminate F]. }
  rewrite (nth_error_nth' _ T0 L). unfold unary_op. cbn [unary_plan run_join tshape fst]. unfold insert_at. cbn [firstn skipn app]. rewrite map_length.
  unfold getitem. cbn [length filter consumes]. change (S (length sh) <? 1) with false. cbn iota. cbn [expand_keys index_plan].
  assert (AX : axis_of (Z.of_nat i) (length Us) = Some i).
  { unfold axis_of. replace ((0 <=? Z.of_nat i) && (Z.of_nat i <? Z.of_nat (length Us)))%Z with true by lia. rewrite Nat2Z.id. reflexivity. }
  rewrite AX. replace (S (length sh) - 1) with (length sh) by lia.
  assert (FS : forall s, exists g, index_plan (repeat (KSlice None None None) (length s)) s = Some (s, g) /\ forall idx, inside s idx -> g idx = idx).
  { clear. induction s as [|d s (g & IH1 & IH2)]; [exists (fun _ => []); split; [reflexivity|intros idx W; inversion W; reflexivity]|].
    cbn [length repeat index_plan]. unfold slice_bounds. cbn [Z.eqb Z.ltb Z.compare]. change (1 =? 0)%Z with false. change (0 <? 1)%Z with true. cbn iota. rewrite IH1.
    replace (Z.to_nat ((Z.of_nat d - 0 + 1 - 1) / 1)) with d by (rewrite Z.div_1_r; lia).
    eexists. split; [reflexivity|]. intros idx W. inversion W as [|a b r s' La Wr E1 E2]; subst. rewrite (IH2 _ Wr). f_equal. lia. }
  destruct (FS sh) as (g & G1 & G2). rewrite G1. cbn. split; [cbn; congruence|]. cbn. intros idx W. rewrite (G2 _ W). reflexivity.
Qed.
Theorem C89_transpose_twice : forall T : tensor date, exists T' T'', unary_op (Transpose None) T = Some T' /\ unary_op (Transpose None) T' = Some T'' /\ same T'' T /\
  tshape T' = rev (tshape T) /\ forall idx, inside (tshape T) idx -> entry T' (rev idx) = entry T idx.
Proof.
  assert (PL : forall sh, exists g, transpose None sh = Some (rev sh, g) /\ forall idx, length idx = length sh -> g idx = rev idx).
  { intros sh. unfold transpose. rewrite rev_length, seq_length, Nat.eqb_refl. cbn [andb].
    assert (F : forallb (fun a => existsb (Nat.eqb a) (rev (seq 0 (length sh)))) (seq 0 (length sh)) = true).
    { apply forallb_forall. intros a A. apply existsb_exists. exists a. split; [apply in_rev; rewrite rev_involutive; exact A|apply Nat.eqb_refl]. }
    assert (M : map (fun p => nth p sh 0) (rev (seq 0 (length sh))) = rev sh).
    { rewrite map_rev. f_equal. apply nth_ext with 0 0; [rewrite map_length, seq_length; reflexivity|]. intros i K. rewrite map_length, seq_length in K.
      rewrite (nth_indep _ 0 (nth 0 sh 0)) by (rewrite map_length, seq_length; exact K). rewrite (map_nth (fun p => nth p sh 0)), seq_nth by exact K. reflexivity. }
    rewrite F, M. eexists. split; [reflexivity|].
    { intros idx L. assert (PO : forall n a, a < n -> position a (rev (seq 0 n)) = n - 1 - a).
      { clear. induction n as [|n IH]; intros a A; [lia|]. rewrite seq_S, rev_app_distr. cbn [rev app position]. destruct (Nat.eqb_spec (0 + n) a) as [E|E]; [lia|]. rewrite IH by lia. lia. }
      apply nth_ext with 0 0; [rewrite map_length, seq_length, rev_length; congruence|]. intros i K. rewrite map_length, seq_length in K.
      rewrite (nth_indep _ 0 ((fun a => nth (position a (rev (seq 0 (length sh)))) idx 0) 0)) by (rewrite map_length, seq_length; exact K).
      rewrite (map_nth (fun a => nth (position a (rev (seq 0 (length sh)))) idx 0)), seq_nth by exact K. cbn [Nat.add]. rewrite PO by exact K. rewrite rev_nth by lia. f_equal. lia. } }
  intros T. destruct (PL (tshape T)) as (g & G1 & G2). destruct (PL (rev (tshape T))) as (h & H1 & H2).
  exists (run_plan (rev (tshape T), g) T), (run_plan (rev (rev (tshape T)), h) (run_plan (rev (tshape T), g) T)).
  unfold unary_op. cbn [unary_plan]. rewrite G1. cbn [option_map run_plan tshape fst]. rewrite H1. split; [reflexivity|]. split; [reflexivity|]. split; [|split; [reflexivity|]].
  - split; [cbn; apply rev_involutive|]. cbn. rewrite rev_involutive. intros idx W. apply inside_length in W. rewrite H2, G2 by (rewrite !rev_length; exact W). rewrite rev_involutive. reflexivity.
  - cbn. intros idx W. apply inside_length in W. rewrite G2 by (rewrite rev_length; exact W). rewrite rev_involutive. reflexivity.
Qed.

(** Joining along the first axis puts the dates one after the other. *)
Lemma locate_flat {B} (F : nat * nat -> list B) sizes :
  flat_map (fun i => F (locate sizes i)) (seq 0 (fold_right Nat.add 0 sizes)) = flat_map (fun k => flat_map (fun i => F (k, i)) (seq 0 (nth k sizes 0))) (seq 0 (length sizes)).
Proof.
  revert F. induction sizes as [|n sizes IH]; intros F; [reflexivity|]. cbn [fold_right length]. rewrite seq_app, flat_map_app.
  change (seq 0 (S (length sizes))) with (0 :: seq 1 (length sizes)). cbn [flat_map nth]. f_equal.
  - rewrite !flat_map_concat_map. f_equal. apply map_ext_in. intros i K. apply in_seq in K. cbn [locate]. replace (i <? n) with true by lia. reflexivity.
  - specialize (IH (fun p => F (S (fst p), snd p))). cbn [fst snd] in IH.
    assert (S1 : forall m s, seq (0 + s) m = map (fun i => i + s) (seq 0 m)).
    { clear. intros m s. assert (Q : forall b, seq (b + s) m = map (fun i => i + s) (seq b m)); [|apply Q]. induction m as [|m IH]; intros b; [reflexivity|]. cbn. f_equal. apply (IH (S b)). }
    rewrite (S1 _ n). change (seq 1 (length sizes)) with (seq (0 + 1) (length sizes)). rewrite (S1 _ 1). rewrite !flat_map_concat_map, !map_map, <- !flat_map_concat_map.
    etransitivity; [|etransitivity; [exact IH|]].
    + rewrite !flat_map_concat_map. f_equal. apply map_ext. intros i. cbn [locate]. replace (i + n <? n) with false by lia. replace (i + n - n) with i by lia. destruct (locate sizes i). reflexivity.
    + rewrite !flat_map_concat_map. f_equal. apply map_ext. intros k. rewrite Nat.add_1_r. reflexivity.
Qed.
Theorem C89_concat : forall (Ts : list (tensor date)) T', nary_op (Concat 0) Ts = Some T' -> entries T' = flat_map entries Ts.
Proof.
  intros Ts T' H. unfold nary_op in H. destruct Ts as [|T0 Ts]; [discriminate|]. remember (T0 :: Ts) as Us eqn:EU.
  destruct (nary_join (Concat 0) (map tshape Us)) as [j|] eqn:P; cbn in H; [|discriminate]. injection H as <-.
  cbn [nary_join] in P. unfold concat_join in P. assert (EM : map tshape Us = tshape T0 :: map tshape Ts) by (subst; reflexivity). rewrite EM in P. rewrite <- EM in P.
  destruct (axis_of 0 (length (tshape T0))) as [k|] eqn:EA; [|discriminate]. pose proof (axis_bound _ _ _ EA) as KB.
  assert (k = 0) as -> by (unfold axis_of in EA; destruct ((0 <=? 0) && (0 <? Z.of_nat (length (tshape T0))))%Z eqn:Q; [injection EA as <-; reflexivity|lia]).
  match type of P with (if ?b then _ else _) = _ => destruct b eqn:F; [|discriminate] end. rewrite forallb_forall in F. injection P as <-.
  destruct (tshape T0) as [|n0 sh] eqn:ES; [cbn in KB; lia|]. cbn [firstn skipn app].
  assert (SH : forall T, In T Us -> exists n, tshape T = n :: sh).
  { intros T HT. specialize (F (tshape T) (in_map tshape _ _ HT)). apply andb_prop in F as (F1 & F2). destruct (list_eq_dec Nat.eq_dec (remove_at 0 (tshape T)) (remove_at 0 (n0 :: sh))) as [E|]; [|discriminate].
    destruct (tshape T) as [|n s]; [cbn in F1; discriminate|]. cbn in E. exists n. congruence. }
  set (sizes := map (fun s => nth 0 s 0) (map tshape Us)).
  unfold entries at 1. cbn [run_join tshape fst indices].
  assert (M : forall (f : list nat -> date) l, map f (flat_map (fun i => map (cons i) (indices sh)) l) = flat_map (fun i => map (fun r => f (i :: r)) (indices sh)) l).
  { intros f l. rewrite !flat_map_concat_map, concat_map, map_map. f_equal. apply map_ext. intros i. rewrite map_map. reflexivity. }
  rewrite M. cbn [entry snd nth skipn].
  etransitivity; [|etransitivity; [exact (locate_flat (fun p => map (fun r => entry (nth (fst p) Us T0) (snd p :: r)) (indices sh)) sizes)|]].
  - rewrite !flat_map_concat_map. f_equal. apply map_ext. intros i. apply map_ext. intros r. unfold run_join. cbn [entry snd nth]. destruct (locate sizes i). reflexivity.
  - unfold sizes. rewrite !map_length, map_map. clear EU EM F M ES KB EA.
    transitivity (flat_map (fun k => entries (nth k Us T0)) (seq 0 (length Us))).
    + rewrite !flat_map_concat_map. f_equal. apply map_ext_in. intros k K. apply in_seq in K. cbn [fst snd].
      rewrite (nth_indep _ 0 ((fun x => nth 0 (tshape x) 0) T0)) by (rewrite map_length; lia). rewrite (map_nth (fun x => nth 0 (tshape x) 0)).
      assert (KU : k < length Us) by lia. destruct (SH (nth k Us T0) (nth_In _ _ KU)) as (n & N). unfold entries. rewrite N. cbn [nth indices].
      rewrite !flat_map_concat_map, concat_map, map_map. f_equal. apply map_ext. intros i. rewrite map_map. reflexivity.
    + rewrite !flat_map_concat_map. f_equal. clear. revert T0. induction Us as [|U Us IH]; intros T0; [reflexivity|]. cbn [length seq map nth]. f_equal. rewrite <- seq_shift, map_map. apply IH.
Qed.

(** Tensors of periods behave in the same way; joining periods of different
    types is refused. *)
Definition periods (t : period_tensor) : tensor period := tmap (fun q => mk_period q (pt_type t)) (pt_quantity t).
Lemma same_refl {A} (t : tensor A) : same t t. Proof. split; auto. Qed.
Lemma both_map {A B} (f : A -> B) x y : both (fun t' T' => same t' (tmap f T')) x y -> both (fun T' t' => same (tmap f T') t') y x.
Proof. destruct x, y; cbn; auto. intros (S & E). split; [auto|]. cbn in *. intros idx W. symmetry. apply E. rewrite S. exact W. Qed.
Lemma validate_periods ts : validate_types (map Instance ts : list (wrapped period_tensor)) = Some ts.
Proof. unfold validate_types. induction ts as [|t ts IH]; [reflexivity|]. cbn in *. rewrite IH. reflexivity. Qed.
Theorem C89_periods :
  (forall u t, both same (option_map periods (period_unary u t)) (unary_op u (periods t))) /\
  (forall n ts ty, (forall t, In t ts -> pt_type t = ty) -> both same (option_map periods (period_nary n (map Instance ts))) (nary_op n (map periods ts))) /\
  (forall n ts a b, In a ts -> In b ts -> pt_type a <> pt_type b -> period_nary n (map Instance ts) = None) /\
  (forall n ts, In Foreign ts -> period_nary n ts = None).
Proof.
  assert (TE : forall a b, period_type_eqb a b = true <-> a = b) by (intros [] []; cbn; split; congruence).
  split; [|split; [|split]].
  - intros u t. unfold period_unary. pose proof (both_map _ _ _ (unary_same (fun q => mk_period q (pt_type t)) u (periods t) (pt_quantity t) (same_refl _))) as B.
    destruct (unary_op u (pt_quantity t)) as [q|]; cbn in *; exact B.
  - intros n ts ty H. unfold period_nary. rewrite validate_periods. cbn [bind].
    assert (B : both (fun T' t' => same (tmap (fun q => mk_period q ty) T') t') (nary_op n (map pt_quantity ts)) (nary_op n (map periods ts))).
    { apply both_map. apply nary_same. clear n. induction ts as [|t ts IH]; [constructor|]. cbn. constructor; [|apply IH; intros x X; apply H; right; exact X].
      unfold periods. rewrite (H t (or_introl eq_refl)). apply same_refl. }
    destruct (nary_op n (map pt_quantity ts)) as [q|] eqn:Q; cbn [bind].
    + destruct ts as [|t r]; [discriminate Q|]. replace (forallb (fun t' => period_type_eqb (pt_type t') (pt_type t)) r) with true.
      * rewrite (H t (or_introl eq_refl)). cbn [bind option_map]. destruct (nary_op n (map periods (t :: r))) as [x|]; cbn in B |- *; exact B.
      * symmetry. apply forallb_forall. intros x X. apply TE. rewrite (H x (or_intror X)), (H t (or_introl eq_refl)). reflexivity.
    + exact B.
  - intros n ts a b A B NE. unfold period_nary. rewrite validate_periods. cbn [bind]. destruct (nary_op n (map pt_quantity ts)) as [q|]; [|reflexivity]. cbn [bind].
    destruct ts as [|t r]; [reflexivity|]. destruct (forallb (fun t' => period_type_eqb (pt_type t') (pt_type t)) r) eqn:F; [|reflexivity]. exfalso. rewrite forallb_forall in F.
    assert (G : forall x, In x (t :: r) -> pt_type x = pt_type t) by (intros x [<-|X]; [reflexivity|apply TE, F, X]). apply NE. rewrite (G a A), (G b B). reflexivity.
  - intros n ts H. unfold period_nary. assert (E : validate_types ts = None); [|rewrite E; reflexivity].
    unfold validate_types. induction ts as [|w ts IH]; [destruct H|]. cbn. destruct H as [->|H]; [reflexivity|]. destruct w; [|reflexivity]. rewrite (IH H). reflexivity.
Qed.

(** * Conversions *)
Open Scope Z_scope.
(** Each documented format gives the dates it denotes, in the same order and
    shape, or an error if one of them does not exist. *)
Lemma map_opt_all {A B} (f : A -> option B) (P : A -> B -> Prop) l : (forall x, In x l -> exists y, f x = Some y /\ P x y) -> exists r, map_opt f l = Some r /\ Forall2 P l r.
Proof.
  induction l as [|a l IH]; intros H; [exists []; split; [reflexivity|constructor]|].
  destruct (H a (or_introl eq_refl)) as (y & Y & PY). destruct IH as (r & R1 & R2); [intros x X; apply H; right; exact X|]. exists (y :: r). cbn. rewrite Y, R1. split; [reflexivity|constructor; assumption].
Qed.
Lemma map_opt_fail {A B} (f : A -> option B) l x : In x l -> f x = None -> map_opt f l = None.
Proof. induction l as [|a l IH]; intros []; intros E; cbn; [subst; rewrite E; reflexivity|]. destruct (f a); [|reflexivity]. rewrite IH by assumption. reflexivity. Qed.
Definition triple_date (c : ymd) : element := let '(y, m, d) := c in EDate y m d.
Definition triple_seq (c : ymd) : element := let '(y, m, d) := c in ESeq [y; m; d].
Definition denotes (x : date_input) (sh : shape) (cs : list ymd) : Prop := exists l, convert_to_date_tensor x = Dates sh l /\ Forall2 (fun c d => repr d c) cs l.
Lemma forall2_map_l {A B C} (f : A -> C) (R : C -> B -> Prop) l r : Forall2 R (map f l) r <-> Forall2 (fun a b => R (f a) b) l r.
Proof. revert r. induction l as [|a l IH]; intros r; split; intros H; inversion H; subst; constructor; auto; apply IH; assumption. Qed.
Theorem C89_conversions :
  (forall y m d, valid (y, m, d) -> denotes (InDatetime y m d) [] [(y, m, d)]) /\
  (forall cs, Forall valid cs -> denotes (InSequence (map triple_date cs)) [length cs] cs) /\
  (forall cs, cs <> [] -> Forall valid cs -> denotes (InSequence (map triple_seq cs)) [length cs] cs) /\
  (forall cs, ~ Forall valid cs -> forall sh l, convert_to_date_tensor (InSequence (map triple_seq cs)) <> Dates sh l) /\
  (forall sh ns, Forall (fun n => 1 <= n + 719163) ns -> denotes (InArray sh ns) sh (map (fun n => nth_day (Z.to_nat (n + 719163 - 1))) ns)) /\
  (forall sh ns, Forall (fun n => 1 <= n) ns -> denotes (InTensor (sh, ns)) sh (map (fun n => nth_day (Z.to_nat (n - 1))) ns)) /\
  (forall sh ns, ~ Forall (fun n => 1 <= n) ns -> forall s l, convert_to_date_tensor (InTensor (sh, ns)) <> Dates s l) /\
  (forall n cs, Forall valid cs -> length cs = n ->
     denotes (InSequence [ETensor ([n], map (fun c => fst (fst c)) cs); ETensor ([n], map (fun c => snd (fst c)) cs); ETensor ([n], map snd cs)]) [n] cs).
Proof.
  split; [|split; [|split; [|split; [|split; [|split; [|split]]]]]].
  - intros y m d V. eexists. split; [reflexivity|]. constructor; [apply repr_unchecked; exact V|constructor].
  - intros cs V. destruct (map_opt_all (fun e => match e with EDate y m d => Some (from_ymd_unchecked y m d) | _ => None end) (fun e d => exists c, e = triple_date c /\ repr d c) (map triple_date cs)) as (r & R1 & R2).
    { intros x X. apply in_map_iff in X as (((y, m), d) & <- & X). eexists. split; [reflexivity|]. exists (y, m, d). split; [reflexivity|]. apply repr_unchecked. rewrite Forall_forall in V. exact (V _ X). }
    exists r. split.
    + destruct cs as [|((y, m), d) cs]; [cbn in *; congruence|]. cbn [convert_to_date_tensor map triple_date]. unfold from_datetimes. change (EDate y m d :: map triple_date cs) with (map triple_date (@cons ymd (y, m, d) cs)). rewrite R1, map_length. reflexivity.
    + apply forall2_map_l in R2. revert R2. clear. intros H. induction H as [|((y, m), d) x l r (c & E & RP) H IH]; constructor; auto. destruct c as ((y', m'), d'). cbn in E. congruence.
  - intros cs NE V. destruct (map_opt_all (fun e => match e with ESeq (y :: m :: d :: _) => from_ymd y m d | _ => None end) (fun e d => exists c, e = triple_seq c /\ repr d c) (map triple_seq cs)) as (r & R1 & R2).
    { intros x X. apply in_map_iff in X as (((y, m), d) & <- & X). rewrite Forall_forall in V. destruct (proj1 (from_ymd_spec y m d) (V _ X)) as (e & E1 & E2). exists e. split; [exact E1|]. exists (y, m, d). auto. }
    exists r. split.
    + destruct cs as [|((y, m), d) cs]; [congruence|]. cbn [convert_to_date_tensor map triple_seq]. unfold from_tuples. change (ESeq [y; m; d] :: map triple_seq cs) with (map triple_seq (@cons ymd (y, m, d) cs)). rewrite R1, map_length. reflexivity.
    + apply forall2_map_l in R2. revert R2. clear. intros H. induction H as [|((y, m), d) x l r (c & E & RP) H IH]; constructor; auto. destruct c as ((y', m'), d'). cbn in E. congruence.
  - intros cs NV sh l. destruct cs as [|((y, m), d) cs]; [exfalso; apply NV; constructor|]. cbn [convert_to_date_tensor map triple_seq]. unfold from_tuples.
    change (ESeq [y; m; d] :: map triple_seq cs) with (map triple_seq (@cons ymd (y, m, d) cs)). generalize dependent (@cons ymd (y, m, d) cs). clear. intros cs NV.
    assert (X : exists c, In c cs /\ ~ valid c).
    { apply Exists_exists. apply Exists_Forall_neg; [|exact NV]. intros ((y, m), d). unfold valid. lia. }
    destruct X as (((y, m), d) & X1 & X2). rewrite (map_opt_fail _ _ (triple_seq (y, m, d))); [discriminate|apply in_map; exact X1|]. exact (proj2 (from_ymd_spec y m d) X2).
  - intros sh ns V. eexists. split; [reflexivity|]. apply forall2_map_l. induction V as [|n ns H V IH]; constructor; [|exact IH]. unfold from_np_datetime, ORDINAL_OF_1_1_1970. exact (proj2 (from_ordinal_unchecked_repr _ H)).
  - intros sh ns V. destruct (map_opt_all from_ordinal (fun n d => repr d (nth_day (Z.to_nat (n - 1)))) ns) as (r & R1 & R2).
    { intros n X. rewrite Forall_forall in V. destruct (proj1 (from_ordinal_spec n) (V n X)) as (x & E1 & _ & E2). exists x. auto. }
    exists r. split; [cbn [convert_to_date_tensor]; unfold from_ordinals; cbn [fst snd]; rewrite R1; reflexivity|]. apply forall2_map_l. exact R2.
  - intros sh ns NV s l. cbn [convert_to_date_tensor]. unfold from_ordinals. cbn [fst snd].
    assert (X : exists n, In n ns /\ ~ 1 <= n) by (apply Exists_exists; apply Exists_Forall_neg; [intros n; lia|exact NV]). destruct X as (n & X1 & X2).
    rewrite (map_opt_fail _ _ n X1); [discriminate|]. apply (proj2 (from_ordinal_spec n)). lia.
  - intros n cs V L. cbn [denotes]. unfold denotes. cbn [convert_to_date_tensor tensor_of]. unfold from_year_month_day. cbn [fst].
    assert (CS : common_shape [[n]; [n]; [n]] = Some [n]).
    { unfold common_shape, broadcast_static_shape, broadcast_dim. cbn [fold_left rev app broadcast_rev]. unfold broadcast_dim. rewrite Nat.eqb_refl. cbn. unfold broadcast_static_shape. cbn. unfold broadcast_dim. rewrite Nat.eqb_refl. reflexivity. }
    match goal with |- context [common_shape ?a] => replace (common_shape a) with (Some [n]) by (symmetry; exact CS) end. cbn [spread]. rewrite Forall_forall in V.
    destruct (map_opt_all (fun '(y, (m, d)) => from_ymd y m d) (fun p d => repr d (fst p, fst (snd p), snd (snd p))) (map (fun c : ymd => (fst (fst c), (snd (fst c), snd c))) cs)) as (r & R1 & R2).
    { intros x X. apply in_map_iff in X as (((y, m), d) & <- & X). destruct (proj1 (from_ymd_spec y m d) (V _ X)) as (e & E1 & E2). exists e. auto. }
    exists r. split.
    + assert (CO : combine (map (fun c : ymd => fst (fst c)) cs) (combine (map (fun c : ymd => snd (fst c)) cs) (map snd cs)) = map (fun c : ymd => (fst (fst c), (snd (fst c), snd c))) cs).
      { clear. induction cs as [|c cs IH]; [reflexivity|]. cbn. f_equal. exact IH. }
      refine (eq_trans (f_equal (fun z => or_error [n] (map_opt (fun '(y, (m, d)) => from_ymd y m d) z)) CO) _). exact (f_equal (or_error [n]) R1).
    + apply forall2_map_l in R2. revert R2. clear. intros H. induction H as [|((y, m), d) x l r RP H IH]; constructor; auto.
Qed.

(** A list of integers is read as ordinals, unless it has three elements: then
    it is read as the year, month and day of one date. *)
Theorem C89_integers : forall zs,
  (zs <> [] -> length zs <> 3%nat -> convert_to_date_tensor (InSequence (map EInt zs)) = convert_to_date_tensor (InTensor ([length zs], zs))) /\
  (forall y m d, zs = [y; m; d] -> (valid (y, m, d) -> denotes (InSequence (map EInt zs)) [] [(y, m, d)]) /\ (~ valid (y, m, d) -> convert_to_date_tensor (InSequence (map EInt zs)) = OtherError)).
Proof.
  intros zs. split.
  - intros NE L3. assert (M : forall l, map_opt int_of (map EInt l) = Some l) by (induction l as [|a l IH]; [reflexivity|cbn; rewrite IH; reflexivity]).
    destruct zs as [|a zs]; [congruence|]. cbn [map convert_to_date_tensor].
    assert (LD : last_ditch (EInt a :: map EInt zs) = from_ordinals ([length (a :: zs)], a :: zs)).
    { unfold last_ditch. change (EInt a :: map EInt zs) with (map EInt (a :: zs)). rewrite M. reflexivity. }
    destruct zs as [|b [|c [|e zs]]]; try exact LD. cbn in L3. congruence.
  - intros y m d ->. cbn [map]. unfold denotes. cbn [convert_to_date_tensor tensor_of]. unfold from_year_month_day. cbn [fst]. change (common_shape [[]; []; []]) with (Some (@nil nat)). cbn [spread volume fold_right repeat combine map_opt].
    split.
    + intros V. destruct (proj1 (from_ymd_spec y m d) V) as (x & X1 & X2). rewrite X1. exists [x]. split; [reflexivity|]. constructor; [exact X2|constructor].
    + intros NV. rewrite (proj2 (from_ymd_spec y m d) NV). reflexivity.
Qed.

(** The documentation promises a ValueError whenever a conversion fails; there
    are failing conversions and none of them raises it. *)
Theorem C89_value_error_refuted : (forall x, convert_to_date_tensor x <> ValueError) /\ (exists x, convert_to_date_tensor x = OtherError).
Proof.
  split; [|exists InOther; reflexivity]. assert (OE : forall sh o, or_error sh o <> ValueError) by (intros sh [l|]; discriminate).
  intros [sh l|y m d|sh l|t|l|]; cbn [convert_to_date_tensor]; try discriminate; try apply OE.
  destruct l as [|e r]; [apply OE|].
  assert (LD : forall l, last_ditch l <> ValueError) by (intros l; unfold last_ditch; destruct (map_opt int_of l); [apply OE|discriminate]).
  assert (Y : forall a b c, match tensor_of a, tensor_of b, tensor_of c with Some y, Some m, Some d => from_year_month_day y m d | _, _, _ => OtherError end <> ValueError).
  { intros a b c. destruct (tensor_of a) as [y|], (tensor_of b) as [m|], (tensor_of c) as [d|]; try discriminate. unfold from_year_month_day. destruct (common_shape [fst y; fst m; fst d]); [apply OE|discriminate]. }
  destruct e; try apply OE; destruct r as [|b [|c [|f r]]]; try apply LD; apply Y.
Qed.

(** * Calendars *)
Lemma ymd_date_some y m d : valid (y, m, d) -> exists x, from_ymd y m d = Some x.
Proof. intros V. destruct (proj1 (from_ymd_spec y m d) V) as (x & X & _). exists x. exact X. Qed.
Lemma fold_min l a : fold_left Z.min l a <= a /\ Forall (fun x => fold_left Z.min l a <= x) l /\ (fold_left Z.min l a = a \/ In (fold_left Z.min l a) l).
Proof.
  revert a. induction l as [|b l IH]; intros a; cbn [fold_left]; [split; [lia|split; [constructor|auto]]|]. destruct (IH (Z.min a b)) as (I1 & I2 & I3).
  split; [lia|]. split; [constructor; [lia|exact I2]|]. destruct I3 as [I3|I3]; [|right; right; exact I3].
  destruct (Z.min_spec a b) as [(Q & QQ)|(Q & QQ)]; rewrite QQ in I3; [left; congruence|right; left; congruence].
Qed.
Lemma fold_max l a : a <= fold_left Z.max l a /\ Forall (fun x => x <= fold_left Z.max l a) l /\ (fold_left Z.max l a = a \/ In (fold_left Z.max l a) l).
Proof.
  revert a. induction l as [|b l IH]; intros a; cbn [fold_left]; [split; [lia|split; [constructor|auto]]|]. destruct (IH (Z.max a b)) as (I1 & I2 & I3).
  split; [lia|]. split; [constructor; [lia|exact I2]|]. destruct I3 as [I3|I3]; [|right; right; exact I3].
  destruct (Z.max_spec a b) as [(Q & QQ)|(Q & QQ)]; rewrite QQ in I3; [right; left; congruence|left; congruence].
Qed.
Lemma is_date_year x : is_date x -> 1 <= year x.
Proof. intros (((y, m), d) & V & E & _). assert (year x = y) by congruence. unfold valid in V. lia. Qed.

(** With a weekend mask given as a tuple: holidays, in any accepted form but a
    Tensor, give a calendar bounded by their years; otherwise two years give a
    bounded calendar; otherwise the calendar is unbounded. *)
Theorem C89_calendar : forall mask, length mask = 7%nat ->
  (forall x sh l s e, convert_to_date_tensor x = Dates sh l -> (forall t, x <> InTensor t) -> l <> [] -> Forall is_date l -> NoDup l ->
     exists c ys ye, create_holiday_calendar (MaskTuple mask) (Some x) s e = Some (Bounded c) /\ bounded_calendar mask l ys ye c) /\
  (forall ys ye, 1 <= ys <= ye -> exists c, create_holiday_calendar (MaskTuple mask) None (Some ys) (Some ye) = Some (Bounded c) /\ bounded_calendar mask [] ys ye c) /\
  (forall s e, s = None \/ e = None -> In false mask -> exists c, create_holiday_calendar (MaskTuple mask) None s e = Some (Unbounded c) /\ unbounded_calendar mask [] c).
Proof.
  intros mask LM. split; [|split].
  - intros x sh l s e CV NT NE FD ND.
    assert (NEM : not_empty (Some x) = Some true).
    { destruct x as [sh' l'|y m d|sh' l'|t|l'|]; cbn [not_empty]; try reflexivity.
      - cbn in CV. destruct l'; [|reflexivity]. injection CV as _ <-. cbn in NE. congruence.
      - destruct (NT t eq_refl).
      - destruct l'; [|reflexivity]. cbn in CV. injection CV as _ <-. congruence. }
    destruct l as [|h r]; [congruence|].
    set (ys := fold_left Z.min (map year r) (year h)). set (ye := fold_left Z.max (map year r) (year h)).
    destruct (fold_min (map year r) (year h)) as (A1 & A2 & A3). destruct (fold_max (map year r) (year h)) as (B1 & B2 & B3). fold ys in A1, A2, A3. fold ye in B1, B2, B3.
    assert (IN : forall z, In z (map year (h :: r)) -> exists x, In x (h :: r) /\ year x = z) by (intros z HZ; apply in_map_iff in HZ as (q & Q1 & Q2); exists q; auto).
    assert (YS : exists x, In x (h :: r) /\ year x = ys) by (apply IN; destruct A3 as [A3|A3]; [left; congruence|right; exact A3]).
    assert (YE : exists x, In x (h :: r) /\ year x = ye) by (apply IN; destruct B3 as [B3|B3]; [left; congruence|right; exact B3]).
    assert (P1 : 1 <= ys) by (destruct YS as (q & Q1 & <-); apply is_date_year; rewrite Forall_forall in FD; exact (FD q Q1)).
    assert (P2 : 1 <= ye) by (destruct YE as (q & Q1 & <-); apply is_date_year; rewrite Forall_forall in FD; exact (FD q Q1)).
    destruct (ymd_date_some ys 1 1) as (ds & DS); [unfold valid, month_length; cbn; lia|]. destruct (ymd_date_some (ye + 1) 1 1) as (de & DE); [unfold valid, month_length; cbn; lia|].
    assert (MK : exists c, make_bcal (Some (map b2z mask)) (Some (h :: r)) s e = Some c).
    { unfold make_bcal. cbn [resolve_boundaries bind]. fold ys ye. rewrite DS. cbn [bind]. rewrite DE. cbn [bind]. eexists. reflexivity. }
    destruct MK as (c & MK). exists c, ys, ye. split.
    + unfold create_holiday_calendar. rewrite NEM. cbn [orb bounded_mask bind holidays_of]. rewrite CV. cbn [bind]. rewrite MK. reflexivity.
    + apply bc_holidays with s e; try assumption. intros q [<-|Q]; [split; assumption|]. rewrite Forall_forall in A2, B2. split; [apply A2|apply B2]; apply in_map; exact Q.
  - intros ys ye Y. destruct (ymd_date_some ys 1 1) as (ds & DS); [unfold valid, month_length; cbn; lia|]. destruct (ymd_date_some (ye + 1) 1 1) as (de & DE); [unfold valid, month_length; cbn; lia|].
    assert (MK : exists c, make_bcal (Some (map b2z mask)) None (Some ys) (Some ye) = Some c) by (unfold make_bcal; cbn [resolve_boundaries bind]; rewrite DS; cbn [bind]; rewrite DE; cbn [bind]; eexists; reflexivity).
    destruct MK as (c & MK). exists c. split; [unfold create_holiday_calendar; cbn [not_empty orb bounded_mask bind holidays_of]; rewrite MK; reflexivity|]. apply bc_years with None; auto; lia.
  - intros s e H IF. eexists. split; [|apply uc_mask; assumption]. unfold create_holiday_calendar. cbn [not_empty orb]. destruct H as [->| ->]; [reflexivity|destruct s; reflexivity].
Qed.

(** Findings.  Holidays given as a Tensor, one of the documented formats, are
    refused always. *)
Theorem C89_tensor_holidays_refuted : forall mask sh ns s e, create_holiday_calendar mask (Some (InTensor (sh, ns))) s e = None.
Proof. reflexivity. Qed.
(** A weekend mask given as a Tensor, the documented type, is refused by every
    bounded calendar. *)
Theorem C89_tensor_mask_refuted : forall m s e, create_holiday_calendar (MaskTensor m) None (Some s) (Some e) = None /\
  (forall x, not_empty (Some x) = Some true -> create_holiday_calendar (MaskTensor m) (Some x) (Some s) (Some e) = None) /\
  create_holiday_calendar (MaskTensor m) None None None = create_holiday_calendar (MaskTuple m) None None None.
Proof.
  intros m s e. split; [reflexivity|]. split; [|reflexivity]. intros x H. unfold create_holiday_calendar. rewrite H. reflexivity.
Qed.
(** No holidays: a missing argument makes every day a business day, an empty
    list none, and an empty DateTensor is refused. *)
Theorem C89_empty_holidays_refuted :
  (exists c, create_holiday_calendar NoMask None None None = Some (Unbounded c) /\ forall d, u_is_business_day c d = Some true) /\
  (exists c, create_holiday_calendar NoMask (Some (InSequence [])) None None = Some (Unbounded c) /\ forall d, u_is_business_day c d = Some false) /\
  create_holiday_calendar NoMask (Some (InDates [0%nat] [])) None None = None.
Proof.
  split; [|split].
  - eexists. split; [reflexivity|]. reflexivity.
  - eexists. split; [reflexivity|]. intros d. exact (C10_no_weekend_mask_refuted [] d).
  - reflexivity.
Qed.

(** Examples *)
Definition two_dates : tensor date := Tensor [2%nat] (fun idx => match idx with [0%nat] => ymd_date 2020 2 29 | _ => ymd_date 2021 12 31 end).
Definition two_dates_dt : date_tensor := new_dt (tmap ordinal two_dates) (tmap year two_dates) (tmap month two_dates) (tmap day two_dates).
Example C89_ex_holds : holds two_dates_dt two_dates.
Proof.
  split; [|repeat split].
  intros idx W. inversion W as [|a b r s L W' E1 E2]; subst. inversion W'; subst. destruct a as [|[|a]]; [| |lia]; apply ymd_is_date; unfold valid; repeat split; vm_compute; discriminate.
Qed.
Example C89_ex_reverse : option_map (fun t => map day (entries t)) (unary_op (GetItem [KSlice None None (Some (-1))]) two_dates) = Some [31; 29].
Proof. reflexivity. Qed.
Example C89_ex_concat : option_map (fun t => map year (entries t)) (nary_op (Concat (-1)) [two_dates; two_dates]) = Some [2020; 2021; 2020; 2021].
Proof. reflexivity. Qed.
Example C89_ex_reshape : option_map tshape (unary_op (Reshape [-1; 1; 2]) two_dates) = Some [1; 1; 2]%nat.
Proof. reflexivity. Qed.
Example C89_ex_calendar : exists c, create_holiday_calendar (MaskTuple sat_sun) (Some (InSequence [EDate 2000 1 3; EDate 2000 1 4])) None None = Some (Bounded c) /\
  b_is_business_day c (ymd_date 2000 1 3) = Some false.
Proof. eexists. split; [reflexivity|]. vm_compute. reflexivity. Qed.

Print Assumptions C89_operations.
Print Assumptions C89_joins.
Print Assumptions C89_foreign.
Print Assumptions C89_day_of_year.
Print Assumptions C89_no_new_dates.
Print Assumptions C89_reshape.
Print Assumptions C89_stack_index.
Print Assumptions C89_transpose_twice.
Print Assumptions C89_concat.
Print Assumptions C89_periods.
Print Assumptions C89_conversions.
Print Assumptions C89_integers.
Print Assumptions C89_value_error_refuted.
Print Assumptions C89_calendar.
Print Assumptions C89_tensor_holidays_refuted.
Print Assumptions C89_tensor_mask_refuted.
Print Assumptions C89_empty_holidays_refuted.
