(** Lemmas for C88. *)
From Coq Require Import Reals QArith Qreals ZArith List Bool Lia Lra ZifyBool Sorted.
From Verif Require Import InterpModel BrentModel BrentProofs ExtReal BootstrapModel BootstrapProofs HaganWestModel TensorModel IntegrateModel SegmentModel DateModel DateSpec DateRepr DateProofs DateProofs2 DayCountModel
  CalSpec CalSetup CalProofs PropsCalAux PropsCal BoundedCalModel UnboundedCalModel ScheduleModel ScheduleSpec ScheduleProofs ScheduleProofs2 ScheduleProofs3 ScheduleProofs4 PropsSchedule RatesModel InstrumentModel InstrumentSpec
  InstrumentProofs PropsInstrument PropsInstrument2 ImpliedVolProofs CapFloorProofs FuturesModel FuturesSpec.
Import ListNotations.
Open Scope R_scope.

(** ** Dates *)
Lemma is_date_pos x : is_date x -> (1 <= ordinal x)%Z.
Proof. intros D. exact (proj1 (proj1 (is_date_iff x) D)). Qed.
Lemma next_day_spec d : is_date d -> date_add d one_day = Some (next_day d) /\ is_date (next_day d) /\ ordinal (next_day d) = (ordinal d + 1)%Z.
Proof.
  intros [k K]. assert (P : (1 <= ordinal d)%Z) by (exact (is_date_pos d (ex_intro _ k K))).
  destruct (proj1 (add_days_spec d k 1 K) ltac:(lia)) as (x & E & O & X).
  unfold next_day, InstrumentSpec.plus, one_day. rewrite E. split; [reflexivity|]. split; [exists (nth_day (Z.to_nat (ordinal d + 1 - 1))); exact X|exact O].
Qed.
(** The days of a schedule of daily steps. *)
Lemma daily_dates s e l : is_date s -> is_date e -> (ordinal s <= ordinal e)%Z -> forward_dates s e (mk_period 1 DAY) l ->
  Forall is_date l /\ map ordinal l = zrange (ordinal s) (Z.to_nat (ordinal e - ordinal s + 1)).
Proof.
  intros [k K] De O (n & f & H1 & H2 & ->). assert (P : (1 <= ordinal s)%Z) by (exact (is_date_pos s (ex_intro _ k K))).
  assert (ST : forall i, (0 <= i)%Z -> exists x, date_add s (period_mul (mk_period 1 DAY) i) = Some x /\ is_date x /\ ordinal x = (ordinal s + i)%Z).
  { intros i I. change (period_mul (mk_period 1 DAY) i) with (mk_period (1 * i) DAY). destruct (proj1 (add_days_spec s k (1 * i) K) ltac:(lia)) as (x & E & OX & X).
    exists x. split; [exact E|]. split; [eexists; exact X|lia]. }
  assert (N : Z.of_nat n = (ordinal e - ordinal s)%Z).
  { destruct (Z.lt_trichotomy (Z.of_nat n) (ordinal e - ordinal s)) as [L|[L|L]]; [|exact L|].
    - destruct (ST (Z.of_nat n) ltac:(lia)) as (x & E & _ & OX). pose proof (H2 (Z.of_nat n) x ltac:(lia) E). lia.
    - destruct (ST (ordinal e - ordinal s)%Z ltac:(lia)) as (x & E & _ & OX). destruct (H1 (ordinal e - ordinal s)%Z ltac:(lia)) as [E' LT]. rewrite E in E'. assert (EF : x = f (ordinal e - ordinal s)%Z) by congruence. rewrite <- EF in LT. lia. }
  split.
  - apply Forall_app. split; [|repeat constructor; exact De]. apply Forall_forall. intros x I. apply in_map_iff in I. destruct I as (i & <- & I).
    unfold zrange in I. apply in_map_iff in I. destruct I as (j & <- & J). apply in_seq in J. destruct (H1 (0 + Z.of_nat j)%Z ltac:(lia)) as [E _].
    destruct (ST (0 + Z.of_nat j)%Z ltac:(lia)) as (x & E' & X & _). rewrite E in E'. injection E' as ->. exact X.
  - rewrite map_app, map_map. replace (Z.to_nat (ordinal e - ordinal s + 1)) with (n + 1)%nat by lia. unfold zrange. rewrite seq_app, map_app, map_map. f_equal.
    + apply map_ext_in. intros j J. apply in_seq in J. destruct (H1 (0 + Z.of_nat j)%Z ltac:(lia)) as [E _].
      destruct (ST (0 + Z.of_nat j)%Z ltac:(lia)) as (x & E' & _ & OX). rewrite E in E'. injection E' as ->. lia.
    + cbn. f_equal. lia.
Qed.

(** ** Rolled dates are the business days, with repetitions *)
Lemma zrange_cons lo n : zrange lo (S n) = lo :: zrange (lo + 1) n.
Proof. unfold zrange. cbn [seq map]. f_equal; [lia|]. rewrite <- seq_shift, map_map. apply map_ext. intros. lia. Qed.
Lemma rolled b n : forall lo l, length l = S n -> Forall is_date l -> Forall2 (fun o x => following b o (ordinal x)) (zrange lo (S n)) l -> b (lo + Z.of_nat n)%Z = true ->
  exists r, Forall is_date r /\ map ordinal r = filter b (zrange lo (S n)) /\
    (forall f, (forall x, is_date x -> f x x = 0) -> forall x past, over_periods f (x :: l ++ [past]) = over_periods f (x :: r ++ [past]) /\ compounded f (x :: l ++ [past]) = compounded f (x :: r ++ [past])).
Proof.
  induction n as [|n IH]; intros lo l L D F B.
  - destruct l as [|x [|y l]]; try discriminate L. exists [x]. split; [exact D|]. split; [|intros; split; reflexivity].
    rewrite zrange_cons in F. inversion F as [|? ? ? ? (F1 & F2 & F3) _]; subst. replace (lo + Z.of_nat 0)%Z with lo in B by lia.
    assert (E : ordinal x = lo). { destruct (Z.eq_dec (ordinal x) lo) as [E|E]; [exact E|]. pose proof (F3 lo ltac:(lia)). congruence. }
    cbn. replace (lo + 0)%Z with lo by lia. rewrite B, E. reflexivity.
  - destruct l as [|x l]; [discriminate L|]. rewrite zrange_cons in F. inversion F as [|? ? ? ? (F1 & F2 & F3) F']; subst. inversion D as [|? ? DX D']; subst.
    destruct (IH (lo + 1)%Z l ltac:(cbn in L; lia) D' F' ltac:(rewrite <- B; f_equal; lia)) as (r & R1 & R2 & R3).
    destruct (b lo) eqn:E.
    + assert (OX : ordinal x = lo). { destruct (Z.eq_dec (ordinal x) lo) as [E'|E']; [exact E'|]. pose proof (F3 lo ltac:(lia)). congruence. }
      exists (x :: r). split; [constructor; assumption|]. split; [rewrite zrange_cons; cbn [map filter]; rewrite E, OX, R2; reflexivity|].
      intros f Z0 y past. destruct (R3 f Z0 x past) as [A C]. cbn [app over_periods compounded]. cbn [app] in A, C.
      change (f y x + over_periods f (x :: l ++ [past]) = f y x + over_periods f (x :: r ++ [past]) /\ (1 + f y x) * compounded f (x :: l ++ [past]) = (1 + f y x) * compounded f (x :: r ++ [past])).
      rewrite A, C. split; reflexivity.
    + destruct l as [|y l]; [discriminate L|]. inversion D' as [|? ? DY _]; subst. rewrite zrange_cons in F'. inversion F' as [|? ? ? ? (G1 & G2 & G3) _]; subst.
      assert (OX : ordinal x = ordinal y).
      { destruct (Z.lt_trichotomy (ordinal x) (ordinal y)) as [LT|[EQ|LT]]; [|exact EQ|].
        - destruct (Z.eq_dec (ordinal x) lo) as [EL|EL]; [congruence|]. pose proof (G3 (ordinal x) ltac:(lia)). congruence.
        - pose proof (F3 (ordinal y) ltac:(lia)). congruence. }
      pose proof (is_date_inj x y DX DY OX) as ->. exists r. split; [exact R1|]. split; [rewrite zrange_cons; cbn [filter]; rewrite E; exact R2|].
      intros f Z0 w past. destruct (R3 f Z0 w past) as [A C]. rewrite <- A, <- C.
      change (f w y + (f y y + over_periods f (y :: l ++ [past])) = f w y + over_periods f (y :: l ++ [past]) /\
              (1 + f w y) * ((1 + f y y) * compounded f (y :: l ++ [past])) = (1 + f w y) * compounded f (y :: l ++ [past])).
      rewrite (Z0 y DY). split; ring.
Qed.

(** ** The dates of a contract *)
Lemma forall2_of_nth {A B} (P : A -> B -> Prop) l l' : Forall2 P l l' -> Forall2 (fun y x => P x y) l' l.
Proof. induction 1; constructor; assumption. Qed.
Lemma contract_dates_of b roll s e : is_date s -> is_date e -> (ordinal s + 1 < ordinal e)%Z -> b (ordinal e) = true -> rolls b roll s e ->
  exists l r, contract_resets roll s e = Some (s :: l ++ [next_day e]) /\ Forall is_date l /\ business_dates b (next_day s) e r /\
    (forall f, (forall x, is_date x -> f x x = 0) -> over_periods f (s :: l ++ [next_day e]) = over_periods f (s :: r ++ [next_day e]) /\ compounded f (s :: l ++ [next_day e]) = compounded f (s :: r ++ [next_day e])).
Proof.
  intros DS DE O B R. destruct (next_day_spec s DS) as (ES & DS' & OS). destruct (next_day_spec e DE) as (EE & _ & _).
  set (row := mk_row (next_day s) e 1).
  assert (RD : Forall row_dates [row]) by (repeat constructor; assumption).
  assert (VR : valid_rows [row]) by (intros r [<-|[]]; cbn; lia).
  assert (LT : exists r, In r [row] /\ (ordinal (rstart r) < ordinal (rend r))%Z) by (exists row; split; [left; reflexivity|cbn; lia]).
  destruct (C17_schedule_exists [row] DAY false false RD VR ltac:(discriminate) LT ltac:(left; reflexivity)) as [out EO].
  destruct (C17_periodic_schedule [row] DAY false false None out RD LT EO) as (_ & _ & base & (ls & L & F & (LO & LM) & PD) & LN & AD).
  inversion F as [|? l ? ? Fl Fn]; subst. inversion Fn; subst. inversion PD as [|? l1 ? ? Pl Pn]; subst. inversion Pn; subst.
  assert (Q : l1 = l). { destruct LO as (l2 & [<-|[]] & EL). destruct Pl as (p & x & E1 & E2). rewrite E2, EL, Nat.sub_diag. cbn. apply app_nil_r. }
  subst l1. assert (EQ : out = [l]).
  { destruct out as [|o [|? ?]]; try discriminate LN. f_equal. pose proof (AD 0%nat row l o eq_refl eq_refl eq_refl) as A. clear - A.
    induction A as [|x y l l' (x' & [[C _]|[_ ->]] & H2) A IH]; [reflexivity|discriminate C|]. rewrite H2, IH. reflexivity. }
  subst out. destruct (daily_dates (next_day s) e l DS' DE ltac:(lia) Fl) as [Dl Ol].
  assert (EX : exists l', map_opt roll l = Some l' /\ Forall is_date l' /\ Forall2 (fun x y => following b (ordinal x) (ordinal y)) l l').
  { assert (IN : forall d, In d l -> (ordinal s < ordinal d <= ordinal e)%Z).
    { intros d I. apply (in_map ordinal) in I. rewrite Ol in I. unfold zrange in I. apply in_map_iff in I. destruct I as (j & <- & J). apply in_seq in J. lia. }
    clear - R Dl IN. induction l as [|d l IH]; [exists []; repeat constructor|]. inversion Dl; subst.
    destruct IH as (l' & E & D & F); [assumption|intros; apply IN; right; assumption|]. destruct (R d ltac:(assumption) (IN d (or_introl eq_refl))) as (x & EX & DX & FX).
    exists (x :: l'). cbn [map_opt]. rewrite EX, E. repeat split; constructor; assumption. }
  destruct EX as (l' & E' & D' & F').
  assert (LL : length l = S (Z.to_nat (ordinal e - ordinal s - 1))).
  { rewrite <- (map_length ordinal), Ol. unfold zrange. rewrite map_length, seq_length. lia. }
  destruct (rolled b (Z.to_nat (ordinal e - ordinal s - 1)) (ordinal (next_day s)) l') as (r & R1 & R2 & R3).
  - rewrite <- (forall2_len' _ _ _ F'). exact LL.
  - exact D'.
  - replace (S (Z.to_nat (ordinal e - ordinal s - 1))) with (Z.to_nat (ordinal e - ordinal (next_day s) + 1)) by lia. rewrite <- Ol.
    clear - F'. induction F'; constructor; assumption.
  - rewrite <- B. f_equal. lia.
  - exists l', r. split; [|split; [exact D'|split; [split; [exact R1|]|intros f Z0; exact (R3 f Z0 s (next_day e))]]].
    + unfold contract_resets. rewrite ES. cbn [bind]. fold row.
      assert (PS : periodic_schedule [row] DAY false false (Some roll) = Some [l']).
      { unfold periodic_schedule in EO |- *. cbn [andb] in EO |- *.
        destruct (negb (forallb _ [row])); [discriminate EO|]. destruct (negb (forallb _ [row])); [discriminate EO|].
        destruct (periodic_forward [row] DAY) as [ss|]; [|discriminate EO]. cbn [bind] in EO |- *. injection EO as ->. cbn [map_opt]. rewrite E'. reflexivity. }
      rewrite PS. cbn [bind]. rewrite EE. cbn [bind concat]. rewrite app_nil_r. reflexivity.
    + rewrite R2. f_equal. f_equal. lia.
Qed.

(** ** Sums and products over the days of a contract *)
Lemma segment_products {A} (row : A -> list xr) (size : A -> nat) l a : Forall (fun a => length (row a) = size a) (l ++ [a]) -> size a <> 0%nat ->
  xsegment_prod (flat_map row (l ++ [a])) (group_ids size (l ++ [a])) = map (fun a => xprod (row a)) (l ++ [a]).
Proof.
  intros F Z. change (group_ids size (l ++ [a])) with (ids_from size 0 (l ++ [a])). unfold xsegment_prod. destruct (BootstrapProofs.ids_last size 0 l a Z) as [NE LA]. destruct (ids_from size 0 (l ++ [a])) as [|i0 ids] eqn:I; [contradiction|]. rewrite <- I in *. rewrite LA. cbn [Nat.add].
  replace (S (length l)) with (length (l ++ [a])) by (rewrite app_length; cbn; lia). set (L := l ++ [a]) in *. clearbody L. clear I NE LA i0 ids.
  transitivity (map (fun g => xprod (match nth_error L g with Some a => row a | None => [] end)) (seq 0 (length L))).
  - apply map_ext_in. intros g G. apply in_seq in G. rewrite (filter_rows row size L F 0 g). replace (Nat.leb 0 g && Nat.ltb g (0 + length L))%bool with true by (symmetry; apply andb_true_iff; split; [apply Nat.leb_le|apply Nat.ltb_lt]; lia).
    rewrite Nat.sub_0_r. destruct (nth_error L g); cbn [flat_map]; rewrite ?app_nil_r; reflexivity.
  - assert (Q : forall (M P : list A), map (fun g => xprod (match nth_error (P ++ M) g with Some a => row a | None => [] end)) (seq (length P) (length M)) = map (fun a => xprod (row a)) M).
    { induction M as [|b M IH]; intros P; [reflexivity|]. cbn [length seq map]. f_equal.
      - rewrite nth_error_app2 by lia. rewrite Nat.sub_diag. reflexivity.
      - specialize (IH (P ++ [b])). rewrite <- app_assoc, app_length in IH. cbn [app length] in IH. rewrite Nat.add_1_r in IH. exact IH. }
    exact (Q L []).
Qed.
Lemma sum_periods f l : xsum (map Fin (map2 f (removelast l) (tl l))) = Fin (over_periods f l).
Proof.
  induction l as [|a [|b l] IH]; [reflexivity|reflexivity|]. change (removelast (a :: b :: l)) with (a :: removelast (b :: l)). cbn [tl].
  unfold map2 in *. cbn [combine map]. unfold xsum in *. cbn [fold_right]. change (tl (b :: l)) with l in IH. rewrite IH. reflexivity.
Qed.
Lemma product_periods f l : xprod (map (xadd (Fin 1)) (map Fin (map2 f (removelast l) (tl l)))) = Fin (compounded f l).
Proof.
  induction l as [|a [|b l] IH]; [reflexivity|reflexivity|]. change (removelast (a :: b :: l)) with (a :: removelast (b :: l)). cbn [tl].
  unfold map2 in *. cbn [combine map]. unfold xprod in *. cbn [fold_right]. change (tl (b :: l)) with l in IH. rewrite IH. reflexivity.
Qed.
Lemma zip_fins a b : xzip xmul (map Fin a) (map Fin b) = map Fin (map2 Rmult a b).
Proof. unfold xzip, map2. revert b. induction a as [|x a IH]; intros [|y b]; [reflexivity..|]. cbn. rewrite IH. reflexivity. Qed.
Lemma mult_rows (g : date -> R) (f : date -> date -> R) l : map2 Rmult (map g (removelast l)) (map2 f (removelast l) (tl l)) = map2 (fun s e => g s * f s e) (removelast l) (tl l).
Proof.
  induction l as [|a [|b l] IH]; [reflexivity|reflexivity|]. change (removelast (a :: b :: l)) with (a :: removelast (b :: l)). cbn [tl].
  unfold map2 in *. cbn [combine map]. change (tl (b :: l)) with l in IH. rewrite IH. reflexivity.
Qed.
(** Actual day counts add up. *)
Lemma actual_days c : c <> THIRTY_360_ISDA -> exists m, 0 < m /\ forall s e, daycount_fraction c s e = IZR (ordinal e - ordinal s) / m.
Proof.
  intros N. destruct c; [exists 360|exists 365|congruence]; (split; [lra|]); intros s e; unfold daycount_fraction, actual_360, actual_365_fixed, days_until; unfold Q2R; cbn; rewrite ?Pos.mul_1_r, ?Z.mul_1_r; reflexivity.
Qed.
Lemma last_default {A} (l : list A) : forall b a, last (b :: l) a = last l b.
Proof. induction l as [|x l IH]; intros b a; [reflexivity|]. change (last (b :: x :: l) a) with (last (x :: l) a). rewrite IH. symmetry. apply IH. Qed.
Lemma actual_total c a l : c <> THIRTY_360_ISDA -> over_periods (daycount_fraction c) (a :: l) = daycount_fraction c a (last l a).
Proof.
  intros N. destruct (actual_days c N) as (m & M & E). revert a. induction l as [|b l IH]; intros a.
  - cbn. rewrite E. rewrite Z.sub_diag. unfold Rdiv. ring.
  - change (over_periods (daycount_fraction c) (a :: b :: l)) with (daycount_fraction c a b + over_periods (daycount_fraction c) (b :: l)). rewrite IH.
    rewrite last_default.
    rewrite !E. rewrite !minus_IZR. unfold Rdiv. ring.
Qed.
