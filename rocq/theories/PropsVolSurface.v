(** C103: a volatility surface returns its quotes. *)
From Coq Require Import Reals QArith Qreals ZArith List Bool Lia Lra.
From Verif Require Import TensorModel TensorProofs InterpModel LinearProofs CubicSpec CubicProofs PropsLinear PropsCubic TimeGridModel TimeGridProofs Interp2dModel.
From Verif Require Import DateModel DateSpec DateRepr DateProofs DateProofs2 PropsDateAux PropsDate CalSpec BoundedCalModel UnboundedCalModel CalSetup CalProofs CalModified BoundedCalProofs UnboundedCalProofs PropsCalAux PropsCal DayCountModel.
From Verif Require Import TensorModel InterpModel IntegrateModel SegmentModel ScheduleModel ScheduleSpec ScheduleProofs ScheduleProofs2 RatesModel InstrumentModel InstrumentSpec InstrumentProofs PropsInstrument PropsInstrument2 CmsProofs PlatformModel PlatformSpec PlatformProofs.
From Verif Require Import Interp2dModel PropsInterp2d PropsPlatform VolSurfaceModel.
Import ListNotations.
Open Scope R_scope.

Definition dates_increase (l : list date) : Prop := forall k d, (S k < length l)%nat -> (ordinal (nth k l d) < ordinal (nth (S k) l d))%Z.
Definition counts_days (c : option day_count) : Prop := c = None \/ c = Some DC_ACTUAL_360 \/ c = Some DC_ACTUAL_365.

Section Surface.
Variables (valuation : date) (expiries : list date) (quotes : list (list R * list R)) (c : option day_count).
Let s := new_vol_surface valuation expiries quotes c None.
Let fraction := get_daycount_fn (match c with None => DC_ACTUAL_365 | Some c => c end) valuation.
Lemma nth_times k d : (k < length expiries)%nat -> nth k (map fraction expiries) 0 = fraction (nth k expiries d).
Proof. intros L. rewrite (nth_indep _ 0 (fraction d)) by (rewrite map_length; exact L). apply map_nth. Qed.
Lemma times_surface : length quotes = length expiries -> (0 < length expiries)%nat ->
  (forall k d, (S k < length expiries)%nat -> fraction (nth k expiries d) < fraction (nth (S k) expiries d)) ->
  (forall ks vs, In (ks, vs) quotes -> knots ks vs) -> surface (map fraction expiries) quotes.
Proof.
  intros L N H K. split; [rewrite map_length; exact L|]. split; [rewrite map_length; exact N|]. split; [|exact K].
  intros k Q. rewrite map_length in Q. rewrite (nth_times k valuation), (nth_times (S k) valuation) by lia. apply H. exact Q.
Qed.
End Surface.

Lemma fraction_days v c : counts_days c -> forall d e, (ordinal d < ordinal e)%Z ->
  get_daycount_fn (match c with None => DC_ACTUAL_365 | Some c => c end) v d < get_daycount_fn (match c with None => DC_ACTUAL_365 | Some c => c end) v e.
Proof.
  intros C d e L. apply IZR_lt in L. destruct (C93_named_day_counts v d) as (A1 & A2 & _). destruct (C93_named_day_counts v e) as (B1 & B2 & _).
  rewrite minus_IZR in *. destruct C as [->|[->| ->]]; rewrite ?A1, ?A2, ?B1, ?B2; lra.
Qed.

(** Any day count that tells the expiries apart: the quote of every expiry and
    strike is returned, asked for by date or by time. *)
Theorem C103_quotes_any : forall valuation expiries quotes c i j d,
  let fraction := get_daycount_fn (match c with None => DC_ACTUAL_365 | Some c => c end) valuation in
  length quotes = length expiries -> (i < length expiries)%nat ->
  (forall k d, (S k < length expiries)%nat -> fraction (nth k expiries d) < fraction (nth (S k) expiries d)) ->
  (forall ks vs, In (ks, vs) quotes -> knots ks vs) ->
  let s := new_vol_surface valuation expiries quotes c None in
  let (ks, vs) := nth i quotes ([], []) in (j < length ks)%nat ->
  volatility s (nth j ks 0) (Some (nth i expiries d)) None = Some (nth j vs 0) /\
  volatility s (nth j ks 0) None (Some (fraction (nth i expiries d))) = Some (nth j vs 0).
Proof.
  intros valuation expiries quotes c i j d fraction L Ii H K s.
  pose proof (C69_knots (map fraction expiries) quotes i j (times_surface valuation expiries quotes c L ltac:(lia) H K)) as P.
  rewrite map_length in P. specialize (P Ii). destruct (nth i quotes ([], [])) as [ks vs]. intros J. specialize (P J).
  unfold fraction in P. rewrite (nth_times valuation expiries c i d Ii) in P. split; exact P.
Qed.
(** Counting days over 360 or 365 (the default), increasing dates are enough. *)
Theorem C103_quotes : forall valuation expiries quotes c i j d, counts_days c ->
  length quotes = length expiries -> (i < length expiries)%nat -> dates_increase expiries ->
  (forall ks vs, In (ks, vs) quotes -> knots ks vs) ->
  let (ks, vs) := nth i quotes ([], []) in (j < length ks)%nat ->
  volatility (new_vol_surface valuation expiries quotes c None) (nth j ks 0) (Some (nth i expiries d)) None = Some (nth j vs 0).
Proof.
  intros valuation expiries quotes c i j d C L Ii D K.
  pose proof (C103_quotes_any valuation expiries quotes c i j d L Ii) as P. cbv zeta in P.
  specialize (P ltac:(intros k e Q; apply fraction_days; [exact C|apply D; exact Q]) K).
  destruct (nth i quotes ([], [])) as [ks vs]. intros J. apply (P J).
Qed.

(** Between the expiries: for a strike, the volatilities of the neighbouring
    expiries are mixed by the days passed; outside, the nearest expiry's. *)
Theorem C103_between : forall valuation expiries quotes c d strike, counts_days c ->
  length quotes = length expiries -> (0 < length expiries)%nat -> dates_increase expiries ->
  (forall ks vs, In (ks, vs) quotes -> knots ks vs) ->
  let s := new_vol_surface valuation expiries quotes c None in
  let vol e := volatility s strike (Some e) None in
  (forall i e, (S i < length expiries)%nat ->
     let a := nth i expiries d in let b := nth (S i) expiries d in (ordinal a <= ordinal e <= ordinal b)%Z ->
     exists va vb, vol a = Some va /\ vol b = Some vb /\
       let w := IZR (ordinal e - ordinal a) / IZR (ordinal b - ordinal a) in vol e = Some ((1 - w) * va + w * vb)) /\
  (forall e, (ordinal e <= ordinal (nth 0 expiries d))%Z -> vol e = vol (nth 0 expiries d)) /\
  (forall e, (ordinal (nth (length expiries - 1) expiries d) <= ordinal e)%Z -> vol e = vol (nth (length expiries - 1) expiries d)).
Proof.
  intros valuation expiries quotes c d strike C L N D K s vol.
  set (fraction := get_daycount_fn (match c with None => DC_ACTUAL_365 | Some c => c end) valuation).
  assert (V : forall e, vol e = interpolate_2d (map fraction expiries) quotes (fraction e) strike) by reflexivity.
  assert (FR : exists q, 0 < q /\ forall e, fraction e = IZR (ordinal e - ordinal valuation) / q).
  { destruct C as [->|[->| ->]]; [exists 365|exists 360|exists 365]; (split; [lra|]); intros e; apply (C93_named_day_counts valuation e). }
  destruct FR as (q & Q0 & FR).
  assert (LE : forall x y, (ordinal x <= ordinal y)%Z -> fraction x <= fraction y).
  { intros x y Le. rewrite !FR. apply Rmult_le_compat_r; [left; apply Rinv_0_lt_compat; exact Q0|]. apply IZR_le. lia. }
  destruct (C69_surface (map fraction expiries) quotes (times_surface valuation expiries quotes c L N ltac:(intros k e Q; apply fraction_days; [exact C|apply D; exact Q]) K)) as (f & _ & F2 & F3 & F4 & F5).
  rewrite map_length in *.
  assert (T : forall k, (k < length expiries)%nat -> nth k (map fraction expiries) 0 = fraction (nth k expiries d)) by (intros k Q; apply (nth_times valuation expiries c); exact Q).
  assert (AT : forall k, (k < length expiries)%nat -> vol (nth k expiries d) = Some (f k strike)) by (intros k Q; rewrite V, <- (T k Q); apply F2; exact Q).
  split; [|split].
  - intros i e Ii a b [E1 E2]. exists (f i strike), (f (S i) strike). split; [apply AT; lia|]. split; [apply AT; exact Ii|]. cbv zeta.
    rewrite V. destruct (F3 i (fraction e) strike Ii) as [_ F]; [rewrite !T by lia; split; apply LE; assumption|]. rewrite F. rewrite !T by lia. fold a. fold b.
    assert (W : (fraction e - fraction a) / (fraction b - fraction a) = IZR (ordinal e - ordinal a) / IZR (ordinal b - ordinal a)).
    { pose proof (D i d Ii) as Dd. fold a in Dd. fold b in Dd. apply IZR_lt in Dd. rewrite !FR, !minus_IZR. field. split; lra. }
    rewrite W. reflexivity.
  - intros e E. rewrite (AT 0%nat N), V. apply F4. rewrite T by exact N. apply LE. exact E.
  - intros e E. rewrite (AT (length expiries - 1)%nat ltac:(lia)), V. apply F5. rewrite T by lia. apply LE. exact E.
Qed.

(** A given interpolator is used with the time of the date; exactly one of date
    and time is accepted. *)
Theorem C103_arguments : forall valuation expiries quotes c f strike e t g,
  let s := new_vol_surface valuation expiries quotes c f in
  volatility s strike (Some e) (Some t) = None /\ volatility s strike None None = None /\
  volatility s strike (Some e) None = volatility s strike None (Some (get_daycount_fn (match c with None => DC_ACTUAL_365 | Some c => c end) valuation e)) /\
  (f = Some g -> volatility s strike None (Some t) = Some (g t strike)).
Proof. intros. split; [reflexivity|]. split; [reflexivity|]. split; [reflexivity|]. intros E. unfold s. rewrite E. reflexivity. Qed.

(** With the 30/360 count, the 30th and the 31st of a month have one time: two
    different quotes on these dates cannot both be returned. *)
Theorem C103_thirty_refuted : exists valuation a b, is_date valuation /\ is_date a /\ is_date b /\ (ordinal a < ordinal b)%Z /\
  forall quotes va vb strike, va <> vb ->
  let s := new_vol_surface valuation [a; b] quotes (Some DC_30_360) None in
  ~ (volatility s strike (Some a) None = Some va /\ volatility s strike (Some b) None = Some vb).
Proof.
  exists (ymd_date 2021 1 30), (ymd_date 2021 3 30), (ymd_date 2021 3 31).
  split; [dates|]. split; [dates|]. split; [dates|]. split; [vm_compute; reflexivity|].
  intros quotes va vb strike D s [Ea Eb]. apply D.
  assert (Q : get_daycount_fn DC_30_360 (ymd_date 2021 1 30) (ymd_date 2021 3 30) = get_daycount_fn DC_30_360 (ymd_date 2021 1 30) (ymd_date 2021 3 31)) by (cbn [get_daycount_fn]; f_equal; vm_compute; reflexivity).
  change (interpolate_2d (map (get_daycount_fn DC_30_360 (ymd_date 2021 1 30)) [ymd_date 2021 3 30; ymd_date 2021 3 31]) quotes (get_daycount_fn DC_30_360 (ymd_date 2021 1 30) (ymd_date 2021 3 30)) strike = Some va) in Ea.
  change (interpolate_2d (map (get_daycount_fn DC_30_360 (ymd_date 2021 1 30)) [ymd_date 2021 3 30; ymd_date 2021 3 31]) quotes (get_daycount_fn DC_30_360 (ymd_date 2021 1 30) (ymd_date 2021 3 31)) strike = Some vb) in Eb.
  rewrite <- Q in Eb. rewrite Eb in Ea. injection Ea as ->. reflexivity.
Qed.

(** Two expiries with the quotes of two strikes each. *)
Example C103_ex : let expiries := [ymd_date 2021 2 2; ymd_date 2022 2 2] in let quotes := [([100; 110], [1 / 5; 1 / 4]); ([90; 120], [3 / 10; 2 / 5])] in
  length quotes = length expiries /\ dates_increase expiries /\ (forall ks vs, In (ks, vs) quotes -> knots ks vs) /\
  volatility (new_vol_surface (ymd_date 2021 1 4) expiries quotes None None) 110 (Some (ymd_date 2021 2 2)) None = Some (1 / 4).
Proof.
  intros expiries quotes.
  assert (D : dates_increase expiries) by (intros [|k] d L; [vm_compute; reflexivity|cbn in L; lia]).
  assert (K : forall ks vs, In (ks, vs) quotes -> knots ks vs).
  { intros ks vs [E|[E|[]]]; injection E as <- <-; (split; [reflexivity|]; split; [cbn; lia|]); intros [|k] L; cbn in L |- *; try lia; lra. }
  split; [reflexivity|]. split; [exact D|]. split; [exact K|].
  exact (C103_quotes (ymd_date 2021 1 4) expiries quotes None 0 1 (ymd_date 2021 1 4) (or_introl eq_refl) eq_refl ltac:(cbn; lia) D K ltac:(cbn; lia)).
Qed.

Print Assumptions C103_quotes_any.
Print Assumptions C103_quotes.
Print Assumptions C103_between.
Print Assumptions C103_arguments.
Print Assumptions C103_thirty_refuted.
