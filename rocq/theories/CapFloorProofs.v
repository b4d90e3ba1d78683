(** Lemmas for C86. *)
From Coquelicot Require Import Coquelicot.
From Coq Require Import Reals QArith Qreals ZArith List Bool Lra Lia Sorting.Sorted.
From Verif Require Import InterpModel BrentModel BrentProofs ExtReal HaganWestModel HaganWestProofs BootstrapModel BlackScholesModel BlackScholesSpec BlackScholesProofs PropsBlackScholes
  DateModel DayCountModel DateSpec CalSetup PropsCalAux BoundedCalModel ScheduleModel ScheduleSpec InstrumentModel InstrumentSpec InstrumentProofs CapFloorModel CapFloorSpec.
Import ListNotations.
Open Scope R_scope.

(** ** One caplet *)
Lemma curve_years v d : curve_time v d = years v d.
Proof. unfold curve_time, years, actual_365_fixed, days_until. rewrite Q2R_div by (unfold Qeq; cbn; lia). unfold Q2R. cbn. rewrite Rinv_1, !Rmult_1_r. reflexivity. Qed.
Lemma years_nonneg v d : (ordinal v <= ordinal d)%Z -> 0 <= years v d.
Proof. intros H. unfold years. apply Rmult_le_pos; [apply IZR_le; lia|lra]. Qed.

Definition black_args (vol K T F : R) (call : bool) : option_args := OptionArgs vol K T None (Some F) None None None (Some call) false.
Lemma black_some vol K T F call : exists b, option_price (black_args vol K T F call) = Some b.
Proof. unfold option_price, black_args, args_ok. cbn. eexists. reflexivity. Qed.
Lemma rlt_yes x y : x < y -> rlt x y = true.
Proof. intros. unfold rlt. destruct (Rlt_dec x y); [reflexivity|lra]. Qed.
Lemma rlt_no x y : ~ x < y -> rlt x y = false.
Proof. intros. unfold rlt. destruct (Rlt_dec x y); [contradiction|reflexivity]. Qed.
Lemma req_yes x y : x = y -> req x y = true.
Proof. intros. unfold req. destruct (Req_EM_T x y); [reflexivity|contradiction]. Qed.
Lemma req_no x y : x <> y -> req x y = false.
Proof. intros. unfold req. destruct (Req_EM_T x y); [contradiction|reflexivity]. Qed.
(** An option on a zero forward has a finite price. *)
Lemma black_zero vol K T call : 0 < K -> 0 <= T -> exists p, option_price (black_args vol K T 0 call) = Some (Fin p).
Proof.
  intros HK HT. unfold option_price, black_args, args_ok, undiscounted_call, sqrt_var, forward_args, discounting_args.
  cbn [spot forward discount_rate discount_factor dividend_rate is_call_option is_normal_volatility volatility strike expiry is_none eqb negb andb snd fst].
  assert (SQ : xsqrt (Fin T) = Fin (sqrt T)) by (cbn; rewrite rlt_no by lra; reflexivity). rewrite SQ.
  change (Fin vol *x Fin (sqrt T)) with (Fin (vol * sqrt T)). set (s := vol * sqrt T).
  assert (FD : Fin 0 /x Fin K = Fin 0).
  { cbn. rewrite req_no by lra. f_equal. field. lra. }
  rewrite FD. assert (LN : xln (Fin 0) = Inf true) by (cbn; rewrite rlt_no by lra; rewrite req_yes by reflexivity; reflexivity). rewrite LN.
  change (xlt (Fin 0) (Fin s)) with (rlt 0 s). destruct (rlt 0 s) eqn:RS.
  - assert (S0 : 0 < s) by (unfold rlt in RS; destruct (Rlt_dec 0 s); [assumption|discriminate]).
    assert (D1 : xdivide_no_nan (Inf true) (Fin s) +x Fin s /x Fin 2 = Inf true).
    { unfold xdivide_no_nan. cbn [xzero]. rewrite req_no by lra. cbn. rewrite rlt_no by lra. rewrite req_no by lra. reflexivity. }
    rewrite D1. destruct call; eexists; reflexivity.
  - unfold xsub, xmax. cbn. destruct (rlt (0 + - K) 0); destruct call; eexists; reflexivity.
Qed.

Lemma caplet_ok valuation discount reference libor c k call vol s e : 0 < k_rate k -> positive_rates valuation reference ->
  is_date s -> is_date e -> (ordinal s <= ordinal e)%Z ->
  exists x, caplet_price valuation discount reference libor vol (k_notional k) (daycount_fraction c s e) (k_rate k) call s e = Some (Fin x)
    /\ caplet_value valuation discount reference libor c k call vol s e x.
Proof.
  intros HK HR Ds De O. unfold caplet_price. fold (black_args vol (k_rate k) (curve_time valuation s) (cap_forward valuation reference libor (daycount_fraction c s e) s e) call).
  unfold caplet_value, cap_forward. set (fr := daycount_fraction c s e). pose proof (fraction_nonneg c s e Ds De O) as FN. fold fr in FN.
  unfold date_gtb, date_ltb in *. rewrite curve_years.
  destruct (Z.ltb_spec (ordinal e) (ordinal valuation)) as [P|P].
  { destruct (black_some vol (k_rate k) (years valuation s) 0 call) as (b & ->). cbn [bind].
    destruct (Z.ltb_spec (ordinal valuation) (ordinal e)); [lia|]. destruct (Z.leb_spec (ordinal e) (ordinal valuation)); [|lia].
    eexists. split; [reflexivity|ring]. }
  destruct (Z.ltb_spec (ordinal s) (ordinal valuation)) as [Q|Q].
  { destruct (black_some vol (k_rate k) (years valuation s) libor call) as (b & ->). cbn [bind xmul]. eexists. split; [reflexivity|].
    destruct (Z.leb_spec (ordinal e) (ordinal valuation)); destruct (Z.ltb_spec (ordinal valuation) (ordinal e)); try lia; [ring|].
    destruct (Req_EM_T fr 0) as [->|NF]; [ring|]. eexists. split; [|reflexivity]. unfold vanilla. ring. }
  assert (T : 0 <= years valuation s) by (apply years_nonneg; lia).
  destruct (Rlt_dec 0 fr) as [F|F].
  - assert (LT : (ordinal s < ordinal e)%Z).
    { destruct (Z.eq_dec (ordinal s) (ordinal e)) as [E|]; [|lia]. exfalso. assert (fr <= 0); [|lra].
      pose proof (fraction_nonneg c e s De Ds ltac:(lia)). 
      assert (s = e) as ->; [|unfold fr; rewrite fraction_same by assumption; lra]. exact (is_date_inj s e Ds De E). }
    destruct (HR s e Q LT) as (R1 & R2).
    assert (FP : 0 < get_forward_rate reference s e fr).
    { unfold get_forward_rate. apply Rdiv_lt_0_compat; [|exact F]. assert (1 < reference s / reference e); [|lra]. apply Rlt_div_r; lra. }
    set (fw := get_forward_rate reference s e fr) in *.
    destruct (C39_value (black_args vol (k_rate k) (years valuation s) fw call) 1 fw) as (m & E & V).
    { unfold quoted, discounts_to, forward_is, degenerate, black_args. cbn. repeat split; try lra; try reflexivity. intros (_ & X & _). apply X. reflexivity. }
    rewrite E. cbn [bind xmul]. eexists. split; [reflexivity|].
    destruct (Z.leb_spec (ordinal e) (ordinal valuation)); [lia|]. destruct (Z.ltb_spec (ordinal valuation) (ordinal e)); [|lia].
    destruct (Req_EM_T fr 0); [lra|]. exists m. split; [ring|]. destruct call; exact V.
  - assert (Z0 : fr = 0) by lra. destruct (black_zero vol (k_rate k) (years valuation s) call HK T) as (p & E). rewrite E. cbn [bind xmul]. eexists. split; [reflexivity|].
    rewrite Z0. destruct (Z.leb_spec (ordinal e) (ordinal valuation)); [ring|]. destruct (Req_EM_T 0 0); [ring|contradiction].
Qed.
(** A period without days is worth nothing. *)
Lemma caplet_same valuation discount reference libor c k call vol x v : is_date x -> caplet_value valuation discount reference libor c k call vol x x v -> v = 0.
Proof. intros D. unfold caplet_value. rewrite fraction_same by exact D. destruct (Z.leb _ _); [auto|]. destruct (Req_EM_T 0 0); [auto|contradiction]. Qed.

(** ** Sums over periods *)
Lemma sum_over_const (P : R -> date -> date -> R -> Prop) w x m v : (forall u y, P u x x y -> y = 0) -> sum_over P w (repeat x m) v -> v = 0.
Proof.
  intros Z. revert w v. induction m as [|[|m] IH]; intros w v H; [exact H|exact H|].
  cbn [repeat] in H, IH. cbn [sum_over] in H. destruct w as [|u w]; [exact H|]. destruct H as (a & b & A & B & ->). rewrite (Z u a A). rewrite (IH w b B). ring.
Qed.
Lemma sum_over_padded (P : R -> date -> date -> R -> Prop) p x m w v : (forall u y, P u x x y -> y = 0) -> (length p <= length w)%nat -> sum_over P w ((p ++ [x]) ++ repeat x m) v -> sum_over P w (p ++ [x]) v.
Proof.
  intros Z. revert w v. induction p as [|a p IH]; intros w v L H.
  - cbn [app] in *. assert (v = 0) as ->; [|reflexivity]. apply (sum_over_const P w x (S m) v Z). exact H.
  - cbn in L. destruct w as [|u w]; [cbn in L; lia|]. cbn [app] in H |- *. destruct (p ++ [x]) as [|b q] eqn:E; [destruct p; discriminate|].
    cbn [app] in H. cbn [sum_over] in H |- *. destruct H as (y & z & A & B & ->). exists y, z. split; [exact A|]. split; [|reflexivity].
    apply IH; [cbn in L; lia|]. exact B.
Qed.

(** ** Batches *)
Lemma map_opt_flat {A B C} (f : B -> option C) (g : A -> list B) (h : A -> list C) ds : (forall x, In x ds -> map_opt f (g x) = Some (h x)) ->
  map_opt f (flat_map g ds) = Some (flat_map h ds).
Proof.
  intros H. induction ds as [|x ds IH]; [reflexivity|]. cbn [flat_map]. specialize (IH (fun y Y => H y (or_intror Y))). specialize (H x (or_introl eq_refl)).
  revert H. generalize (h x) as hx. generalize (g x) as gx. induction gx as [|y gx IHg]; intros hx H.
  - cbn in H. injection H as <-. exact IH.
  - cbn [map_opt app] in H |- *. destruct (f y) as [z|]; [|discriminate]. destruct (map_opt f gx) as [zs|]; [|discriminate]. injection H as <-. rewrite (IHg zs eq_refl). reflexivity.
Qed.
Lemma xsegment_rows {A} (g : A -> list xr) n ds : (0 < n)%nat -> (forall x, In x ds -> length (g x) = n) ->
  xsegment_sum (flat_map g ds) (tf_repeat (seq 0 (length ds)) n) = map (fun x => xsum (g x)) ds.
Proof.
  intros N H. unfold xsegment_sum. destruct ds as [|x0 ds0] eqn:ED; [reflexivity|]. rewrite <- ED in *.
  assert (B : (0 < length ds)%nat) by (rewrite ED; cbn; lia).
  replace (match tf_repeat (seq 0 (length ds)) n with [] => 0%nat | _ :: _ => S (last (tf_repeat (seq 0 (length ds)) n) 0%nat) end) with (length ds).
  2:{ rewrite ids_last by assumption. destruct (tf_repeat (seq 0 (length ds)) n) eqn:E; [|lia].
      exfalso. pose proof (ids_last 0 (length ds) n N B) as L. rewrite ED in E. unfold tf_repeat in E. cbn [length seq flat_map] in E. destruct n; [lia|]. discriminate. }
  clear B ED x0 ds0. generalize 0%nat as a. induction ds as [|x ds IH]; intros a; [reflexivity|].
  cbn [length seq map]. unfold tf_repeat. cbn [flat_map]. fold (tf_repeat (seq (S a) (length ds)) n).
  assert (CA : combine (g x ++ flat_map g ds) (repeat a n ++ tf_repeat (seq (S a) (length ds)) n) = combine (g x) (repeat a n) ++ combine (flat_map g ds) (tf_repeat (seq (S a) (length ds)) n)).
  { pose proof (H x (or_introl eq_refl)) as L. clear - L. generalize (tf_repeat (seq (S a) (length ds)) n) as t, (flat_map g ds) as u. intros t u. revert L. generalize (g x) as l, n as m. induction l as [|y l IHl]; intros [|m] L; cbn in L; try discriminate; [reflexivity|]. cbn. f_equal. apply IHl. lia. }
  rewrite CA. f_equal.
  - rewrite filter_app, filter_all, filter_none.
    + rewrite app_nil_r, combine_map_fst by (rewrite repeat_length; apply H; left; reflexivity). reflexivity.
    + intros [v i] I. apply in_combine_r in I. apply ids_ge in I. cbn. apply Nat.eqb_neq. lia.
    + intros [v i] I. apply in_combine_r, repeat_spec in I. cbn. apply Nat.eqb_eq. exact I.
  - specialize (IH (fun y Y => H y (or_intror Y)) (S a)). rewrite <- IH. apply map_ext_in. intros i I. apply in_seq in I. f_equal. f_equal.
    rewrite filter_app, filter_none; [reflexivity|]. intros [v j] J. apply in_combine_r, repeat_spec in J. subst j. cbn. apply Nat.eqb_neq. lia.
Qed.
Lemma xsum_fins xs : xsum (map Fin xs) = Fin (fold_right Rplus 0 xs).
Proof. induction xs as [|x xs IH]; [reflexivity|]. cbn [map xsum fold_right]. fold (xsum (map Fin xs)). rewrite IH. reflexivity. Qed.
Lemma broadcast_self {A} n (l : list A) : length l = n -> broadcast_to n l = Some l.
Proof. intros <-. unfold broadcast_to. rewrite Nat.eqb_refl. reflexivity. Qed.
Lemma broadcast_one {A} n (x : A) : broadcast_to n [x] = Some (repeat x n).
Proof. unfold broadcast_to. destruct (Nat.eqb_spec (length [x]) n) as [<-|]; reflexivity. Qed.
Lemma flat_repeat {A B} (x : B) n (ds : list A) : flat_map (fun _ => repeat x n) ds = repeat x (length ds * n).
Proof. induction ds as [|d ds IH]; [reflexivity|]. cbn [flat_map length Nat.mul]. rewrite IH, <- repeat_app. reflexivity. Qed.

(** ** The caplets of one contract *)
Definition caplet_of (valuation : date) (discount reference : date -> R) (p : date * date * R * R * R * (R * bool) * R) : option xr :=
  let '((((((s, e), fr), l), v), (k, b)), n) := p in caplet_price valuation discount reference l v n fr k b s e.
Definition caplet_row (c : daycount) (k : contract) (b : bool) (fixing : R) (w : list R) (l : list date) (n : nat) : list (date * date * R * R * R * (R * bool) * R) :=
  combine (combine (combine (combine (combine (combine (removelast l) (tl l)) (map2 (daycount_fraction c) (removelast l) (tl l))) (repeat fixing n)) w)
    (combine (repeat (k_rate k) n) (repeat b n))) (repeat (k_notional k) n).
Lemma caplet_row_ok valuation discount reference fixing c k b l : 0 < k_rate k -> positive_rates valuation reference -> Forall is_date l -> nondecreasing l ->
  forall w, length l = S (length w) -> exists xs, length xs = length w /\ map_opt (caplet_of valuation discount reference) (caplet_row c k b fixing w l (length w)) = Some (map Fin xs) /\
    sum_over (caplet_value valuation discount reference fixing c k b) w l (fold_right Rplus 0 xs).
Proof.
  intros HK HR. induction l as [|s l IH]; intros D N w LW; [discriminate|]. destruct l as [|e l].
  { destruct w; [|discriminate]. exists []. repeat split. }
  destruct w as [|u w]; [discriminate|]. inversion D as [|? ? Ds D']; subst. inversion D' as [|? ? De _]; subst. inversion N as [|? ? N' NF]; subst. inversion NF as [|? ? LE _]; subst.
  destruct (IH D' N' w) as (xs & L & M & SO); [cbn in LW |- *; lia|].
  destruct (caplet_ok valuation discount reference fixing c k b u s e HK HR Ds De LE) as (x & E & V).
  exists (x :: xs). split; [cbn; lia|]. split.
  - change (caplet_row c k b fixing (u :: w) (s :: e :: l) (length (u :: w))) with ((s, e, daycount_fraction c s e, fixing, u, (k_rate k, b), k_notional k) :: caplet_row c k b fixing w (e :: l) (length w)).
    cbn [map_opt]. change (caplet_of valuation discount reference (s, e, daycount_fraction c s e, fixing, u, (k_rate k, b), k_notional k)) with
      (caplet_price valuation discount reference fixing u (k_notional k) (daycount_fraction c s e) (k_rate k) b s e).
    rewrite E, M. reflexivity.
  - cbn [fold_right sum_over]. exists x, (fold_right Rplus 0 xs). repeat split; assumption.
Qed.
Lemma map_opt_rows {A B} (f : B -> option xr) (g : A -> list B) (P : A -> list R -> Prop) ds : (forall x, In x ds -> exists xs, map_opt f (g x) = Some (map Fin xs) /\ P x xs) ->
  exists ys, Forall2 P ds ys /\ map_opt f (flat_map g ds) = Some (flat_map (map Fin) ys).
Proof.
  intros H. induction ds as [|x ds IH]; [exists []; split; [constructor|reflexivity]|].
  destruct IH as (ys & F & M); [intros; apply H; right; assumption|]. destruct (H x (or_introl eq_refl)) as (xs & E & HP).
  exists (xs :: ys). split; [constructor; assumption|]. cbn [flat_map]. revert E. generalize (map Fin xs) as hx. generalize (g x) as gx. induction gx as [|y gx IHg]; intros hx E.
  - cbn in E. injection E as <-. exact M.
  - cbn [map_opt app] in E |- *. destruct (f y) as [z|]; [|discriminate]. destruct (map_opt f gx) as [zs|]; [|discriminate]. injection E as <-. rewrite (IHg zs eq_refl). reflexivity.
Qed.
Lemma flat_length {A B} (g : A -> list B) n ds : (forall x, In x ds -> length (g x) = n) -> length (flat_map g ds) = (length ds * n)%nat.
Proof. intros H. induction ds as [|x ds IH]; [reflexivity|]. cbn [flat_map length Nat.mul]. rewrite app_length, H by (left; reflexivity). rewrite IH; [reflexivity|]. intros; apply H; right; assumption. Qed.
