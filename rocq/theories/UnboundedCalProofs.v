From Coq Require Import ZArith List Bool Lia ZifyBool Sorted.
From Verif Require Import DateModel DateSpec DateRepr DateProofs DateProofs2 PropsDateAux CalSpec BoundedCalModel UnboundedCalModel CalProofs.
Import ListNotations.
Open Scope Z_scope.

(** All weekend masks. *)
Fixpoint all_masks (n : nat) : list (list bool) :=
  match n with O => [[]] | S k => map (cons true) (all_masks k) ++ map (cons false) (all_masks k) end.
Lemma all_masks_complete n : forall m, length m = n -> In m (all_masks n).
Proof.
  induction n; intros [|x m] H; try discriminate H; [left; reflexivity|]. cbn. apply in_or_app.
  injection H as H. destruct x; [left|right]; apply in_map, IHn; assumption.
Qed.

Definition seven : list Z := [0; 1; 2; 3; 4; 5; 6].
Lemma in_seven j : 0 <= j < 7 -> In j seven.
Proof. intros. assert (j = 0 \/ j = 1 \/ j = 2 \/ j = 3 \/ j = 4 \/ j = 5 \/ j = 6) as H1 by lia.
  unfold seven. cbn. intuition. Qed.

(** Everything needed about the weekday tables, by enumeration of the 128 masks. *)
Definition wmask_at (m : list bool) (j : Z) : bool := match gather (weekday_mask m) j with Some x => x | None => false end.
Definition woff_at (m : list bool) (j : Z) : Z := match gather (weekday_offsets m) j with Some x => x | None => 0 end.
Definition ooff_at (m : list bool) (j : Z) : Z := match gather (ordinal_offsets m) j with Some x => x | None => -1 end.
Definition isSome {A} (o : option A) : bool := match o with Some _ => true | None => false end.
Definition mask_check (m : list bool) : bool :=
  forallb (fun j =>
    isSome (gather (weekday_mask m) j) && isSome (gather (weekday_offsets m) j) &&
    eqb (wmask_at m j) (negb (nth (Z.to_nat ((j + 6) mod 7)) m false)) &&
    ((j =? 6) || (woff_at m (j + 1) =? woff_at m j + b2z (wmask_at m (j + 1)))) &&
    ((num_workdays m <=? j) ||
      (isSome (gather (ordinal_offsets m) j) && (0 <=? ooff_at m j) && (ooff_at m j <? 7) &&
       wmask_at m (ooff_at m j) && (woff_at m (ooff_at m j) =? j)))) seven
  && (woff_at m 0 =? b2z (wmask_at m 0) - 1)
  && (woff_at m 6 =? num_workdays m - 1)
  && (0 <=? num_workdays m) && (num_workdays m <=? 7)
  && eqb (num_workdays m =? 0) (forallb (fun x => x) m).
Lemma mask_check_all : forallb mask_check (all_masks 7) = true.
Proof. vm_compute. reflexivity. Qed.
Lemma mask_check_ok m : length m = 7%nat -> mask_check m = true.
Proof. intros H. pose proof mask_check_all as A. rewrite forallb_forall in A. apply A, all_masks_complete, H. Qed.

Section Week.
Variable m : list bool.
Hypothesis LEN : length m = 7%nat.
Hypothesis WORK : forallb (fun x => x) m = false. (* some working weekday *)
Notation D := (fun o => negb (day_off m o)).
Notation num := (num_workdays m).

Lemma mask_facts j : 0 <= j < 7 ->
  gather (weekday_mask m) j = Some (wmask_at m j) /\ gather (weekday_offsets m) j = Some (woff_at m j) /\
  wmask_at m j = negb (nth (Z.to_nat ((j + 6) mod 7)) m false) /\
  (j <> 6 -> woff_at m (j + 1) = woff_at m j + b2z (wmask_at m (j + 1))) /\
  (j < num -> gather (ordinal_offsets m) j = Some (ooff_at m j) /\ 0 <= ooff_at m j < 7 /\
              wmask_at m (ooff_at m j) = true /\ woff_at m (ooff_at m j) = j).
Proof.
  intros H. pose proof (mask_check_ok m LEN) as C. unfold mask_check in C.
  rewrite !andb_true_iff in C. destruct C as (((((C & _) & _) & _) & _) & _).
  rewrite forallb_forall in C. specialize (C j (in_seven j H)). 
  rewrite !andb_true_iff in C. destruct C as ((((C1 & C2) & C3) & C4) & C5).
  unfold isSome in *. split; [|split; [|split; [|split]]].
  - unfold wmask_at. destruct (gather (weekday_mask m) j); [reflexivity|discriminate].
  - unfold woff_at. destruct (gather (weekday_offsets m) j); [reflexivity|discriminate].
  - apply eqb_prop; assumption.
  - intros N. lia.
  - intros N. replace (num <=? j) with false in C5 by lia. cbn [orb] in C5. rewrite !andb_true_iff in C5.
    destruct C5 as ((((D1 & D2) & D3) & D4) & D5). split; [|split; [lia|split; [assumption|lia]]].
    unfold ooff_at. destruct (gather (ordinal_offsets m) j); [reflexivity|discriminate].
Qed.
Lemma mask_facts2 : woff_at m 0 = b2z (wmask_at m 0) - 1 /\ woff_at m 6 = num - 1 /\ 1 <= num <= 7.
Proof.
  pose proof (mask_check_ok m LEN) as C. unfold mask_check in C.
  rewrite !andb_true_iff in C. destruct C as (((((_ & C1) & C2) & C3) & C4) & C5).
  rewrite WORK in C5. apply eqb_prop in C5. lia.
Qed.

Lemma wmask_D o : wmask_at m (o mod 7) = D o.
Proof.
  destruct (mask_facts (o mod 7) (Z.mod_pos_bound o 7 ltac:(lia))) as (_ & _ & -> & _).
  unfold day_off. do 3 f_equal. rewrite Z.add_mod_idemp_l by lia.
  replace (o + 6) with (o - 1 + 1 * 7) by lia. apply Z.mod_add. lia.
Qed.

Definition W (o : Z) : Z := o / 7 * num + woff_at m (o mod 7).

Lemma weekday_fwd_eq o : weekday_fwd (Some m) o = Some (W o, D o).
Proof.
  unfold weekday_fwd. destruct (mask_facts (o mod 7) (Z.mod_pos_bound o 7 ltac:(lia))) as (-> & -> & _).
  cbn [bind]. rewrite wmask_D. reflexivity.
Qed.

Lemma W_step o : W (o + 1) = W o + bz D (o + 1).
Proof.
  unfold W. change (bz D (o + 1)) with (b2z (negb (day_off m (o + 1)))). rewrite <- (wmask_D (o + 1)).
  pose proof (Z.div_mod o 7 ltac:(lia)) as E. pose proof (Z.mod_pos_bound o 7 ltac:(lia)) as B.
  set (q := o / 7) in *. set (j := o mod 7) in *. clearbody q j. subst o.
  destruct (Z.eq_dec j 6) as [->|NE].
  - replace (7 * q + 6 + 1) with (0 + (q + 1) * 7) by lia. rewrite Z.div_add, Z.mod_add by lia.
    change (0 / 7) with 0. change (0 mod 7) with 0.
    destruct mask_facts2 as (-> & -> & _). lia.
  - replace (7 * q + j + 1) with (j + 1 + q * 7) by lia. rewrite Z.div_add, Z.mod_add by lia.
    rewrite (Z.div_small (j + 1)), (Z.mod_small (j + 1)) by lia.
    destruct (mask_facts j B) as (_ & _ & _ & F & _). rewrite F by assumption. lia.
Qed.

Lemma W_count o : -1 <= o -> W o = busdays D 0 (o + 1) - 1.
Proof.
  intros H. replace o with (-1 + Z.of_nat (Z.to_nat (o + 1))) by lia.
  generalize (Z.to_nat (o + 1)). induction n.
  - cbn [Z.of_nat]. rewrite busdays_empty by lia. unfold W. change (-1 + 0) with (-1).
    change (-1 / 7) with (-1). change (-1 mod 7) with 6. destruct mask_facts2 as (_ & -> & _). lia.
  - replace (-1 + Z.of_nat (S n)) with (-1 + Z.of_nat n + 1) by lia. rewrite W_step, IHn.
    rewrite (busdays_last D 0 (-1 + Z.of_nat n + 1)) by lia. lia.
Qed.

Lemma weekday_back_eq w : exists r, weekday_back (Some m) w = Some r /\ D r = true /\ W r = w /\
  (0 <= w -> 0 <= r) /\ (w < 0 -> r < 0).
Proof.
  unfold weekday_back. destruct mask_facts2 as (_ & _ & N). replace (num =? 0) with false by lia.
  pose proof (Z.mod_pos_bound w num ltac:(lia)) as B.
  destruct (mask_facts (w mod num) ltac:(lia)) as (_ & _ & _ & _ & F).
  destruct (F ltac:(lia)) as (-> & O1 & O2 & O3). cbn [option_map].
  set (j := ooff_at m (w mod num)) in *.
  exists (w / num * 7 + j). split; [reflexivity|].
  assert (E1 : (w / num * 7 + j) / 7 = w / num) by (generalize (w / num); intros q; clear - O1; symmetry; apply (Z.div_unique_pos _ 7 q j); lia).
  assert (E2 : (w / num * 7 + j) mod 7 = j) by (generalize (w / num); intros q; clear - O1; symmetry; apply (Z.mod_unique_pos _ 7 q j); lia).
  split; [rewrite <- wmask_D, E2; assumption|]. split.
  - unfold W. rewrite E1, E2, O3. pose proof (Z.div_mod w num ltac:(lia)). lia.
  - split; intros H.
    + assert (0 <= w / num) by (apply Z.div_pos; lia). lia.
    + assert (w / num < 0) by (apply Z.div_lt_upper_bound; lia). lia.
Qed.

Lemma W_mono o1 o2 : o1 <= o2 -> W o1 <= W o2.
Proof.
  intros H. replace o2 with (o1 + Z.of_nat (Z.to_nat (o2 - o1))) by lia.
  generalize (Z.to_nat (o2 - o1)). induction n; [replace (o1 + Z.of_nat 0) with o1 by lia; lia|].
  replace (o1 + Z.of_nat (S n)) with (o1 + Z.of_nat n + 1) by lia. rewrite W_step.
  pose proof (bz_range D (o1 + Z.of_nat n + 1)). lia.
Qed.
Lemma W_week o : W (o + 7) = W o + num.
Proof.
  unfold W. replace (o + 7) with (o + 1 * 7) by lia. rewrite Z.div_add, Z.mod_add by lia. lia.
Qed.
Lemma W_lt o h : o < h -> D h = true -> W o < W h.
Proof.
  intros L H. pose proof (W_mono o (h - 1) ltac:(lia)). pose proof (W_step (h - 1)) as S.
  replace (h - 1 + 1) with h in S by lia. unfold bz in S. rewrite H in S. lia.
Qed.
Lemma W_ge1 o : 7 <= o -> 0 <= W o.
Proof.
  intros. pose proof (W_mono 7 o ltac:(lia)). pose proof (W_week 0) as Q. change (0 + 7) with 7 in Q. destruct mask_facts2 as (A & B & C).
  assert (W 0 = woff_at m 0) by (unfold W; change (0 / 7) with 0; change (0 mod 7) with 0; lia).
  assert (0 <= b2z (wmask_at m 0)) by (destruct (wmask_at m 0); cbn; lia). lia.
Qed.
Lemma W_ge2 o : 8 <= o -> D o = true -> 1 <= W o.
Proof. intros H1 H2. pose proof (W_lt 7 o ltac:(lia) H2). pose proof (W_ge1 7 ltac:(lia)). lia. Qed.
End Week.

(** counting in sorted lists *)
Fixpoint cle (l : list Z) (x : Z) : Z := match l with [] => 0 | h :: r => (if h <=? x then 1 else 0) + cle r x end.

Lemma ssl_app l1 l2 x : searchsorted_left (l1 ++ l2) x = searchsorted_left l1 x + searchsorted_left l2 x.
Proof. induction l1; cbn [app searchsorted_left]; [lia|]. rewrite IHl1. lia. Qed.
Lemma ssl_rev_opp l x : searchsorted_left (rev (map Z.opp l)) (- x) = Z.of_nat (length l) - cle l x.
Proof.
  induction l; [reflexivity|]. cbn [map rev cle length]. rewrite ssl_app, IHl. cbn [searchsorted_left].
  destruct (a <=? x) eqn:E, (- a <? - x) eqn:E2; lia.
Qed.
Lemma bizday_fwd_eq hs x : bizday_fwd hs x = (x - (cle hs x - 1), negb (searchsorted_left hs x =? cle hs x - 1)).
Proof.
  unfold bizday_fwd. rewrite ssl_rev_opp.
  replace (Z.of_nat (length hs) - 1 - (Z.of_nat (length hs) - cle hs x)) with (cle hs x - 1) by lia. reflexivity.
Qed.

Lemma ssl_cle l x : searchsorted_left l x = cle l x - occurrences x l.
Proof.
  induction l; [reflexivity|]. cbn [searchsorted_left cle occurrences]. rewrite IHl.
  destruct (a <? x) eqn:A, (a <=? x) eqn:B, (a =? x) eqn:C; lia.
Qed.

(** [bizday_back] on a strictly increasing list *)
Definition gaps (i : Z) (hs : list Z) : list Z := map (fun '(h, i) => h - i) (combine hs (zrange i (length hs))).
Lemma gaps_cons i h r : gaps i (h :: r) = (h - i) :: gaps (i + 1) r.
Proof. unfold gaps. cbn [length]. rewrite zrange_S. reflexivity. Qed.

Lemma gaps_ge i hs x : StronglySorted Z.lt hs -> (forall h, In h hs -> x + i <= h) ->
  searchsorted_left (gaps i hs) x = 0.
Proof.
  revert i. induction hs; intros i S H; [reflexivity|]. rewrite gaps_cons. cbn [searchsorted_left].
  inversion S as [|? ? S1 S2]; subst. rewrite IHhs; [|assumption|].
  - specialize (H a (or_introl eq_refl)). replace (a - i <? x) with false by lia. reflexivity.
  - intros h I. rewrite Forall_forall in S2. specialize (S2 h I). specialize (H a (or_introl eq_refl)). lia.
Qed.

(** v = x + (i + k) - 1 where k counts entries below *)
Lemma gaps_spec hs x : forall i, StronglySorted Z.lt hs ->
  let k := searchsorted_left (gaps i hs) x in
  let v := x + i + k - 1 in
  0 <= k /\ cle hs v = k /\ ~ In v hs \/ (k = 0 /\ hs <> [] /\ False).
Proof.
  induction hs as [|a hs IH]; intros i S k v.
  - left. unfold k. cbn. split; [lia|]. split; [reflexivity|tauto].
  - left. inversion S as [|? ? S1 S2]; subst. rewrite Forall_forall in S2.
    unfold v, k. rewrite gaps_cons. cbn [searchsorted_left].
    destruct (a - i <? x) eqn:E.
    + specialize (IH (i + 1) S1). cbv zeta in IH. destruct IH as [(K0 & C & NI)|[_ [_ []]]].
      set (k' := searchsorted_left (gaps (i + 1) hs) x) in *.
      replace (x + i + (1 + k') - 1) with (x + (i + 1) + k' - 1) by lia.
      split; [lia|]. cbn [cle]. rewrite C. replace (a <=? x + (i + 1) + k' - 1) with true by lia. split; [lia|].
      cbn [In]. intros [H|H]; [lia|contradiction].
    + rewrite gaps_ge; [|assumption|].
      2:{ intros h I. specialize (S2 h I). lia. }
      split; [lia|]. split.
      * cbn [cle]. replace (a <=? x + i + (0 + 0) - 1) with false by lia.
        assert (G : forall l, (forall h, In h l -> a < h) -> cle l (x + i + (0 + 0) - 1) = 0).
        { clear - E. induction l; intros H; [reflexivity|]. cbn [cle]. rewrite IHl by (intros; apply H; right; assumption).
          specialize (H a0 (or_introl eq_refl)). replace (a0 <=? x + i + (0 + 0) - 1) with false by lia. reflexivity. }
        rewrite G; [reflexivity|assumption].
      * cbn [In]. intros [H|H]; [lia|]. specialize (S2 _ H). lia.
Qed.

Lemma bizday_back_eq hs x : StronglySorted Z.lt hs ->
  let v := bizday_back hs x in
  cle hs v = v - x + 1 /\ ~ In v hs.
Proof.
  intros S v. pose proof (gaps_spec hs x 0 S) as G. cbv zeta in G. unfold gaps in G.
  destruct G as [(K & C & N)|[_ [_ []]]]. unfold v, bizday_back.
  set (k := searchsorted_left _ x) in *. replace (x + 0 + k - 1) with (x + k - 1) in * by lia.
  split; [lia|assumption].
Qed.

(** Calendars *)
Inductive ucal_ok : ucal -> list bool -> list Z -> Prop :=
| ok_plain c : umask c = None -> uholidays c = None -> ucal_ok c (repeat false 7) []
| ok_mask_only c m : umask c = Some m -> uholidays c = None -> length m = 7%nat -> In false m -> ucal_ok c m []
| ok_both c m h : umask c = Some m -> uholidays c = Some h -> length m = 7%nat -> In false m ->
    StronglySorted Z.lt h -> (forall x, In x h -> 8 <= x) -> ucal_ok c m h.

Lemma work_of_in m : In false m -> forallb (fun x => x) m = false.
Proof.
  intros H. destruct (forallb (fun x => x) m) eqn:E; [|reflexivity].
  rewrite forallb_forall in E. specialize (E false H). discriminate.
Qed.

Definition K (b : Z -> bool) (o : Z) : Z := busdays b 0 (o + 1) - 1.

Lemma busdays_ext b1 b2 a c : (forall o, a <= o < c -> b1 o = b2 o) -> busdays b1 a c = busdays b2 a c.
Proof.
  intros H. unfold busdays.
  assert (G : forall n a, (forall o, a <= o < a + Z.of_nat n -> b1 o = b2 o) -> count_from b1 a n = count_from b2 a n).
  { clear. induction n; intros a H; cbn [count_from]; [reflexivity|]. rewrite (H a) by lia. rewrite IHn; [reflexivity|].
    intros; apply H; lia. }
  apply G. intros; apply H; lia.
Qed.

Section Holidays.
Variables (m : list bool) (h : list Z).
Hypothesis LEN : length m = 7%nat.
Hypothesis WRK : In false m.
Hypothesis SRT : StronglySorted Z.lt h.
Hypothesis H8 : forall x, In x h -> 8 <= x.
Let WORK := work_of_in m WRK.
Notation D := (fun o => negb (day_off m o)).
Notation b := (business m h).

Definition wh : list Z := filter D h.
Definition hs : list Z := 0 :: map (W m) wh.

Lemma adjusted_eq : adjusted_holidays (Some m) h = Some hs.
Proof.
  unfold adjusted_holidays.
  rewrite (map_opt_some _ (fun o => (W m o, D o))) by (intros; apply weekday_fwd_eq; assumption).
  cbn [option_map]. f_equal. unfold hs, wh. f_equal. clear. induction h; [reflexivity|].
  cbn [map filter snd]. destruct (negb (day_off m a)) eqn:E; cbn [fst map]; [f_equal|]; assumption.
Qed.

Lemma wh_in x : In x wh <-> In x h /\ D x = true.
Proof. unfold wh. apply filter_In. Qed.

Lemma wh_sorted : StronglySorted Z.lt wh.
Proof.
  unfold wh. clear - SRT. induction h; [constructor|]. inversion SRT as [|? ? S1 S2]; subst. cbn [filter].
  destruct (negb (day_off m a)); [|apply IHl; assumption]. constructor; [apply IHl; assumption|].
  rewrite Forall_forall in *. intros x I. apply filter_In in I. apply S2, I.
Qed.

Lemma hs_sorted : StronglySorted Z.lt hs.
Proof.
  unfold hs. constructor.
  - pose proof wh_sorted as S. assert (D' : forall x, In x wh -> D x = true) by (intros x I; apply wh_in in I; apply I).
    clear - S D' LEN WORK. induction wh; [constructor|]. inversion S as [|? ? S1 S2]; subst. cbn [map]. constructor.
    + apply IHl; [assumption|]. intros; apply D'; right; assumption.
    + rewrite Forall_forall in *. intros y I. apply in_map_iff in I as (x & <- & I).
      apply W_lt; [assumption|assumption|apply S2; assumption|apply D'; right; assumption].
  - rewrite Forall_forall. intros y I. apply in_map_iff in I as (x & <- & I). apply wh_in in I as [I1 I2].
    pose proof (W_ge2 m LEN WORK x (H8 x I1) I2). lia.
Qed.

(** number of weekday holidays <= o *)
Lemma cle_wh o : 8 <= o \/ 0 <= W m o -> cle (map (W m) wh) (W m o) = busdays (fun k => D k && existsb (Z.eqb k) h) 0 (o + 1).
Proof.
  intros _.
  assert (G : forall l, StronglySorted Z.lt l -> (forall x, In x l -> D x = true /\ 0 <= x) ->
     cle (map (W m) l) (W m o) = busdays (fun k => existsb (Z.eqb k) l) 0 (o + 1)).
  { clear - LEN WORK. induction l; intros S HD.
    - cbn. symmetry. apply busdays_none. reflexivity.
    - inversion S as [|? ? S1 S2]; subst. cbn [map cle]. rewrite IHl; [|assumption|intros; apply HD; right; assumption].
      destruct (HD a (or_introl eq_refl)) as [Da A0].
      rewrite Forall_forall in S2.
      assert (NI : existsb (Z.eqb a) l = false).
      { destruct (existsb (Z.eqb a) l) eqn:E; [|reflexivity]. apply existsb_exists in E as (x & I & E). specialize (S2 x I). lia. }
      destruct (W m a <=? W m o) eqn:E.
      + assert (a <= o). { destruct (Z_le_gt_dec a o); [assumption|]. pose proof (W_lt m LEN WORK o a ltac:(lia) Da). lia. }
        rewrite (busdays_split (fun k => existsb (Z.eqb k) (a :: l)) 0 a (o + 1)) by lia.
        rewrite (busdays_split (fun k => existsb (Z.eqb k) l) 0 a (o + 1)) by lia.
        rewrite (busdays_first (fun k => existsb (Z.eqb k) (a :: l)) a) by lia.
        rewrite (busdays_first (fun k => existsb (Z.eqb k) l) a) by lia.
        unfold bz. rewrite NI. cbn [existsb]. rewrite Z.eqb_refl. cbn [orb].
        rewrite (busdays_ext (fun k => (k =? a) || existsb (Z.eqb k) l) (fun k => existsb (Z.eqb k) l) 0 a) by (intros k Hk; replace (k =? a) with false by lia; reflexivity).
        rewrite (busdays_ext (fun k => (k =? a) || existsb (Z.eqb k) l) (fun k => existsb (Z.eqb k) l) (a + 1) (o + 1)) by (intros k Hk; replace (k =? a) with false by lia; reflexivity).
        lia.
      + assert (o < a). { destruct (Z_lt_le_dec o a); [assumption|]. pose proof (W_mono m LEN WORK a o ltac:(lia)). lia. }
        symmetry. apply busdays_ext. intros k Hk. cbn [existsb]. replace (k =? a) with false by lia. reflexivity. }
  rewrite G; [|apply wh_sorted|intros x I; apply wh_in in I as [I1 I2]; specialize (H8 x I1); split; [assumption|lia]].
  apply busdays_ext. intros k Hk.
  destruct (existsb (Z.eqb k) wh) eqn:E.
  - apply existsb_exists in E as (x & I & E). apply Z.eqb_eq in E. subst x. apply wh_in in I as [I1 I2].
    symmetry. apply andb_true_iff. split; [assumption|]. apply existsb_exists. exists k. split; [assumption|apply Z.eqb_refl].
  - symmetry. apply andb_false_iff. destruct (negb (day_off m k)) eqn:DK; [right|left; reflexivity].
    destruct (existsb (Z.eqb k) h) eqn:E2; [|reflexivity].
    apply existsb_exists in E2 as (x & I & E2). apply Z.eqb_eq in E2. subst x.
    assert (existsb (Z.eqb k) wh = true); [|congruence]. apply existsb_exists. exists k. split; [apply wh_in; auto|apply Z.eqb_refl].
Qed.

Lemma K_eq o : -1 <= o -> K b o = W m o - busdays (fun k => D k && existsb (Z.eqb k) h) 0 (o + 1).
Proof.
  intros H. unfold K. rewrite (W_count m LEN WORK o H).
  assert (G : forall n a, count_from b a n = count_from D a n - count_from (fun k => D k && existsb (Z.eqb k) h) a n).
  { clear. induction n; intros a; cbn [count_from]; [reflexivity|]. rewrite IHn. unfold business.
    destruct (negb (day_off m a)), (existsb (Z.eqb a) h); cbn; lia. }
  unfold busdays at 1. rewrite G. unfold busdays. lia.
Qed.

Lemma in_hs_iff o : 8 <= o -> D o = true -> (In (W m o) hs <-> existsb (Z.eqb o) h = true).
Proof.
  intros H Do. pose proof (W_ge2 m LEN WORK o H Do). unfold hs. cbn [In]. split.
  - intros [E|I]; [lia|]. apply in_map_iff in I as (x & E & I). apply wh_in in I as [I1 I2].
    apply existsb_exists. exists x. split; [assumption|]. apply Z.eqb_eq.
    destruct (Z.lt_trichotomy o x) as [L|[L|L]]; [|assumption|].
    + pose proof (W_lt m LEN WORK o x L I2). lia.
    + pose proof (W_lt m LEN WORK x o L Do). lia.
  - intros E. right. apply existsb_exists in E as (x & I & E). apply Z.eqb_eq in E. subst x.
    apply in_map. apply wh_in. auto.
Qed.

Lemma sorted_nodup l : StronglySorted Z.lt l -> NoDup l.
Proof.
  induction 1; constructor; [|assumption]. rewrite Forall_forall in H0. intros I. specialize (H0 _ I). lia.
Qed.

Lemma to_biz_holidays c o : umask c = Some m -> uholidays c = Some h -> 8 <= o -> to_biz_space c o = Some (K b o, b o).
Proof.
  intros E1 E2 H. unfold to_biz_space. rewrite E1, E2, adjusted_eq. cbn [bind].
  rewrite weekday_fwd_eq by assumption. cbn [bind]. rewrite bizday_fwd_eq.
  pose proof (W_ge1 m LEN WORK o ltac:(lia)) as W0.
  f_equal. f_equal.
  - rewrite K_eq by lia. unfold hs. cbn [cle]. replace (0 <=? W m o) with true by lia.
    rewrite cle_wh by lia. lia.
  - unfold business. destruct (negb (day_off m o)) eqn:Do; [cbn [andb]|reflexivity]. f_equal.
    rewrite ssl_cle.
    assert (OC : occurrences (W m o) hs = b2z (existsb (Z.eqb o) h)).
    { clear - LEN WRK SRT H8 H Do WORK. pose proof (in_hs_iff o H Do) as I. pose proof (sorted_nodup _ hs_sorted) as ND.
      assert (G : forall l, NoDup l -> occurrences (W m o) l = if in_dec Z.eq_dec (W m o) l then 1 else 0).
      { induction l; intros N; [reflexivity|]. inversion N; subst. cbn [occurrences]. rewrite IHl by assumption.
        destruct (in_dec Z.eq_dec (W m o) (a :: l)) as [J|J], (in_dec Z.eq_dec (W m o) l) as [J2|J2], (a =? W m o) eqn:Q; cbn [In] in J; try reflexivity.
        - exfalso. apply H2. replace a with (W m o) by lia. assumption.
        - exfalso. destruct J; [lia|contradiction].
        - exfalso. apply H2. replace a with (W m o) by lia. assumption.
        - exfalso. tauto.
        - exfalso. apply J. left. lia. }
      rewrite G by assumption. destruct (in_dec Z.eq_dec (W m o) hs) as [J|J].
      - apply I in J. rewrite J. reflexivity.
      - destruct (existsb (Z.eqb o) h); [|reflexivity]. exfalso. apply J, I. reflexivity. }
    rewrite OC. destruct (existsb (Z.eqb o) h); cbn [b2z]; lia.
Qed.

Lemma from_biz_holidays c x : umask c = Some m -> uholidays c = Some h ->
  (1 <= x -> exists r, from_biz_space c x = Some r /\ 0 <= r /\ b r = true /\ K b r = x) /\
  (x < 1 -> exists r, from_biz_space c x = Some r /\ r < 0).
Proof.
  intros E1 E2. unfold from_biz_space. rewrite E1, E2, adjusted_eq. cbn [bind].
  destruct (bizday_back_eq hs x hs_sorted) as (C & N). set (v := bizday_back hs x) in *.
  destruct (weekday_back_eq m LEN WORK v) as (r & -> & Dr & Wr & P1 & P2).
  assert (V : (1 <= x -> 1 <= v) /\ (x < 1 -> v < 0)).
  { unfold hs in C, N. cbn [cle In] in C, N.
    assert (NN : forall l, 0 <= cle l v) by (clear; induction l; cbn [cle]; [lia|]; destruct (a <=? v); lia).
    specialize (NN (map (W m) wh)). split; intros X.
    - destruct (0 <=? v) eqn:Q; [lia|]. lia.
    - destruct (Z_lt_le_dec v 0); [assumption|]. exfalso.
      unfold v, bizday_back in *.
      assert (Z0 : searchsorted_left (gaps 0 hs) x = 0).
      { apply gaps_ge; [apply hs_sorted|]. intros y [<-|I]; [lia|].
        pose proof hs_sorted as S. unfold hs in S. inversion S as [|? ? _ F]; subst. rewrite Forall_forall in F. specialize (F y I). lia. }
      unfold gaps in Z0. change (0 :: map (W m) wh) with hs in *. rewrite Z0 in l. lia. }
  destruct V as [V1 V2]. split; intros X.
  - specialize (V1 X). exists r. split; [reflexivity|]. split; [lia|].
    assert (R0 : 0 <= r) by lia.
    assert (B : b r = true).
    { unfold business. rewrite Dr. cbn [andb]. destruct (existsb (Z.eqb r) h) eqn:E; [|reflexivity].
      exfalso. apply N. rewrite <- Wr. unfold hs. right. apply in_map. apply wh_in.
      apply existsb_exists in E as (y & I & E). apply Z.eqb_eq in E. subst y. auto. }
    split; [assumption|]. rewrite K_eq by lia. rewrite <- cle_wh by lia. rewrite Wr.
    unfold hs in C. cbn [cle] in C. replace (0 <=? v) with true in C by lia. lia.
  - specialize (V2 X). exists r. split; [reflexivity|]. lia.
Qed.
End Holidays.

Lemma business_nil m o : business m [] o = negb (day_off m o).
Proof. unfold business. cbn. apply andb_true_r. Qed.

Lemma day_off_none o : day_off (repeat false 7) o = false.
Proof.
  unfold day_off. generalize (Z.to_nat ((o - 1) mod 7)). intros n. do 8 (destruct n; [reflexivity|]). reflexivity.
Qed.

(** The two mappings of a correctly built calendar. *)
Lemma ucal_maps c m h : ucal_ok c m h ->
  let b := business m h in
  (forall o, 8 <= o -> to_biz_space c o = Some (K b o, b o)) /\
  (forall x, exists r, from_biz_space c x = Some r /\ (1 <= x -> 0 <= r) /\
     (0 <= r -> b r = true /\ K b r = x)) /\
  (exists k, 0 <= k < 8 /\ b k = true).
Proof.
  intros OK b.
  assert (WK : forall m, length m = 7%nat -> In false m -> (forall x, In x h -> 8 <= x) -> exists k, 0 <= k < 8 /\ business m h k = true).
  { clear. intros m L I H8. destruct (In_nth _ _ true I) as (i & Hi & E).
    exists (Z.of_nat i + 1). split; [lia|]. unfold business.
    apply andb_true_iff. split.
    - unfold day_off. replace (Z.of_nat i + 1 - 1) with (Z.of_nat i) by lia. rewrite Z.mod_small by lia.
      rewrite Nat2Z.id. rewrite (nth_indep _ false true) by lia. rewrite E. reflexivity.
    - apply negb_true_iff. destruct (existsb (Z.eqb (Z.of_nat i + 1)) h) eqn:X; [|reflexivity].
      apply existsb_exists in X as (x & J & X). specialize (H8 x J). lia. }
  destruct OK as [c E1 E2|c m E1 E2 L W0|c m h E1 E2 L W0 S H8].
  - assert (B : forall o, b o = true) by (intros o; unfold b; rewrite business_nil, day_off_none; reflexivity).
    assert (KE : forall o, -1 <= o -> K b o = o).
    { intros o H. unfold K. assert (G : forall n a, count_from b a n = Z.of_nat n).
      { clear - B. induction n; intros a; cbn [count_from]; [reflexivity|]. rewrite B, IHn. lia. }
      unfold busdays. rewrite G. lia. }
    split; [|split].
    + intros o H. unfold to_biz_space. rewrite E1, E2, B, KE by lia. reflexivity.
    + intros x. unfold from_biz_space. rewrite E1, E2. exists x. split; [reflexivity|]. split; [lia|]. intros H. rewrite B, KE by lia. auto.
    + exists 0. split; [lia|apply B].
  - pose proof (work_of_in m W0) as WORK.
    assert (KE : forall o, -1 <= o -> K b o = W m o).
    { intros o H. rewrite (W_count m L WORK o H). unfold K, b. do 1 f_equal. apply busdays_ext. intros; apply business_nil. }
    split; [|split].
    + intros o H. unfold to_biz_space. rewrite E1, E2. rewrite weekday_fwd_eq by assumption.
      rewrite KE by lia. unfold b. rewrite business_nil. reflexivity.
    + intros x. unfold from_biz_space. rewrite E1, E2.
      destruct (weekday_back_eq m L WORK x) as (r & -> & Dr & Wr & P1 & P2). exists r. split; [reflexivity|]. split; [lia|].
      intros H. split; [unfold b; rewrite business_nil; assumption|]. rewrite KE by lia. assumption.
    + apply WK; [assumption|assumption|intros ? []].
  - split; [|split].
    + intros o H. apply to_biz_holidays; assumption.
    + intros x. destruct (from_biz_holidays m h L W0 S H8 c x E1 E2) as [A B].
      destruct (Z_le_gt_dec 1 x) as [G|G].
      * destruct (A G) as (r & E & R0 & Br & Kr). exists r. auto.
      * destruct (B ltac:(lia)) as (r & E & R0). exists r. split; [assumption|]. split; lia.
    + apply WK; assumption.
Qed.
