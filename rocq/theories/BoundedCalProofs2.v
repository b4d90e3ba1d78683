From Coq Require Import ZArith List Bool Lia ZifyBool.
From Verif Require Import DateModel DateSpec DateRepr DateProofs DateProofs2 PropsDateAux CalSpec BoundedCalModel CalProofs BoundedCalProofs.
Import ListNotations.
Open Scope Z_scope.

Lemma fold_min_le l : forall a, fold_left Z.min l a <= a /\ forall x, In x l -> fold_left Z.min l a <= x.
Proof.
  induction l; intros a0; cbn; [split; [lia|tauto]|].
  destruct (IHl (Z.min a0 a)) as [A B]. split; [lia|]. intros x [<-|H]; [lia|]. apply B; assumption.
Qed.
Lemma fold_max_ge l : forall a, a <= fold_left Z.max l a /\ forall x, In x l -> x <= fold_left Z.max l a.
Proof.
  induction l; intros a0; cbn; [split; [lia|tauto]|].
  destruct (IHl (Z.max a0 a)) as [A B]. split; [lia|]. intros x [<-|H]; [lia|]. apply B; assumption.
Qed.

Definition good_date (x : date) : Prop := exists c, repr x c.

(** first and last year of a calendar *)
Definition cal_years (c : bcal) (ys ye : Z) : Prop :=
  is_nth (boffset c) (ys, 1, 1) /\ is_nth (boffset c + bsize c) (ye + 1, 1, 1).

Lemma from_ymd_is_nth y m d x : from_ymd y m d = Some x -> is_nth (ordinal x) (y, m, d).
Proof.
  intros H. destruct (valid_dec (y, m, d)) as [V|V].
  - destruct (proj1 (from_ymd_spec y m d) V) as (x' & E & R). rewrite H in E. injection E as <-. apply R.
  - rewrite (proj2 (from_ymd_spec y m d) V) in H. discriminate.
Qed.

Lemma year_bounds h y m d o1 ys o2 ye : repr h (y, m, d) -> is_nth o1 (ys, 1, 1) -> is_nth o2 (ye + 1, 1, 1) ->
  (ys <= y <= ye <-> o1 <= ordinal h < o2).
Proof.
  intros (V & _ & N)%repr_iff H1%is_nth_iff H2%is_nth_iff.
  destruct H1 as (V1 & ->), H2 as (V2 & ->). rewrite N.
  assert (A : ord (ys, 1, 1) <= ord (y, m, d) <-> ys <= y).
  { rewrite <- ymd_le_iff by assumption. unfold ymd_le, ymd_lt. destruct V as (_ & Vm & Vd). split.
    - intros [H|H]; [lia|]. injection H; lia.
    - intros H. destruct (Z.eq_dec ys y) as [->|]; [|left; lia].
      destruct (Z.eq_dec m 1) as [->|]; [|left; lia]. destruct (Z.eq_dec d 1) as [->|]; [right; reflexivity|left; lia]. }
  assert (B : ord (y, m, d) < ord (ye + 1, 1, 1) <-> y <= ye).
  { rewrite <- ord_lt_iff by assumption. unfold ymd_lt. destruct V as (_ & Vm & Vd). lia. }
  lia.
Qed.

Lemma make_bcal_ok mask hd s e c :
  length mask = 7%nat ->
  Forall good_date (match hd with Some l => l | None => [] end) ->
  NoDup (map ordinal (match hd with Some l => l | None => [] end)) ->
  (match hd with Some (_ :: _) => True | _ => match s, e with Some s, Some e => s <= e + 1 | _, _ => True end end) ->
  make_bcal (Some (map b2z mask)) hd s e = Some c ->
  bcal_ok mask (map ordinal (match hd with Some l => l | None => [] end)) c /\
  exists ys ye, cal_years c ys ye /\
    (match hd with
     | Some ((h :: r) as l) => (forall x, In x l -> ys <= year x <= ye)
     | _ => s = Some ys /\ e = Some ye end).
Proof.
  intros HL HG HN HSE H. unfold make_bcal in H.
  destruct (resolve_boundaries hd s e) as [[ys ye]|] eqn:RB; [|discriminate].
  cbn [bind] in H.
  destruct (from_ymd ys 1 1) as [ds|] eqn:FS; [|discriminate]. cbn [bind] in H.
  destruct (from_ymd (ye + 1) 1 1) as [de|] eqn:FE; [|discriminate]. cbn [bind] in H. injection H as <-.
  apply from_ymd_is_nth in FS, FE.
  assert (YR : match hd with
     | Some ((h :: r) as l) => (forall x, In x l -> ys <= year x <= ye)
     | _ => s = Some ys /\ e = Some ye end).
  { unfold resolve_boundaries in RB. destruct hd as [[|h r]|].
    - destruct s, e; try discriminate. injection RB as -> ->. auto.
    - injection RB as <- <-. destruct (fold_min_le (map year r) (year h)) as [A B].
      destruct (fold_max_ge (map year r) (year h)) as [A' B'].
      intros x [<-|I]; [lia|]. specialize (B (year x) (in_map year r x I)). specialize (B' (year x) (in_map year r x I)). lia.
    - destruct s, e; try discriminate. injection RB as -> ->. auto. }
  assert (SZ : ordinal ds <= ordinal de).
  { assert (ys <= ye + 1).
    { destruct hd as [[|h r]|].
      - destruct YR as [-> ->]. assumption.
      - specialize (YR h (or_introl eq_refl)). lia.
      - destruct YR as [-> ->]. assumption. }
    apply is_nth_iff in FS as (V1 & ->), FE as (V2 & ->). apply ymd_le_iff; try assumption.
    unfold ymd_le, ymd_lt. destruct (Z.eq_dec ys (ye + 1)) as [->|]; [right; reflexivity|left; lia]. }
  split.
  - constructor; cbn [bmask bholidays boffset bsize].
    + reflexivity.
    + assumption.
    + lia.
    + apply FS.
    + destruct hd; [left|right]; cbn; auto.
    + assumption.
    + intros o I. apply in_map_iff in I as (x & <- & I).
      rewrite Forall_forall in HG. destruct (HG x I) as ([[y m] d] & R).
      replace (ordinal ds + (ordinal de - ordinal ds)) with (ordinal de) by lia.
      apply (year_bounds x y m d _ ys _ ye R FS FE).
      destruct R as (_ & E & _). injection E as <- _ _.
      destruct hd as [[|h r]|]; [destruct I|apply YR; assumption|destruct I].
  - exists ys, ye. split; [|assumption]. unfold cal_years. cbn [boffset bsize].
    replace (ordinal ds + (ordinal de - ordinal ds)) with (ordinal de) by lia. auto.
Qed.

(** Whole months: the calendar covers whole years, so a day in the month of an
    in-bounds day is in bounds. *)
Lemma cal_month_closed c ys ye o k : cal_years c ys ye -> boffset c <= o < boffset c + bsize c -> 1 <= k ->
  mi k = mi o -> boffset c <= k < boffset c + bsize c.
Proof.
  intros (N1 & N2) H K E.
  assert (G : forall z, 1 <= z -> (boffset c <= z < boffset c + bsize c <-> 12 * ys <= mi z < 12 * (ye + 1))).
  { intros z Z1. destruct (from_ordinal_unchecked_repr z Z1) as (O & R).
    unfold mi. pose proof (valid_nth_day (Z.to_nat (z - 1))) as V.
    destruct (nth_day (Z.to_nat (z - 1))) as [[y m] d].
    rewrite <- O at 1 2. rewrite <- (year_bounds _ y m d _ ys _ ye R N1 N2). destruct V as (_ & V & _). lia. }
  apply G; [assumption|]. rewrite E. apply G; [destruct N1; lia|assumption].
Qed.
