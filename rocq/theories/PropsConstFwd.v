(** C36: constant-forward interpolation. *)
From Coq Require Import Reals List Bool ZArith Lia Lra Psatz.
From Verif Require Import TensorModel TensorProofs InterpModel LinearProofs PropsLinear CubicProofs ExtReal NewtonProofs PropsForwards RatesModel.
Import ListNotations.
Open Scope R_scope.

Section C36.
Variables (ts ys : list R).
Notation n := (length ts).
Notation T i := (nth i ts 0).
Notation Y i := (nth i ys 0).
Notation rate := (constant_fwd_interpolate ts ys).
(** Strictly increasing maturities. *)
Definition increasing : Prop := forall i, (S i < n)%nat -> T i < T (S i).
(** The forward rate of the data between two neighbours. *)
Definition data_forward (i : nat) : R := (T (S i) * Y (S i) - T i * Y i) / (T (S i) - T i).

Lemma pos_all : increasing -> 0 < T 0 -> forall i, (i < n)%nat -> 0 < T i.
Proof. intros INC P i I. pose proof (nondecr_le ts (incr_nondecr ts INC) 0 i ltac:(lia) I) as H. unfold at_ in H. lra. Qed.
Lemma clip : increasing -> (0 < n)%nat -> forall t, rate t =
  let t' := Rmin (T (n - 1)) (Rmax (T 0) t) in xdiv (Fin (linear_interpolate false ts (vzip Rmult ts ys) None None t')) (Fin t').
Proof. intros INC N t. unfold constant_fwd_interpolate. rewrite (max_last ts ts ts INC eq_refl eq_refl N), (min_first ts ts ts INC eq_refl eq_refl N). reflexivity. Qed.
Lemma prod_nth i : length ys = n -> (i < n)%nat -> nth i (vzip Rmult ts ys) 0 = T i * Y i.
Proof. intros L I. apply vzip_nth; [congruence|exact I]. Qed.
Lemma xdiv_fin a b : b <> 0 -> xdiv (Fin a) (Fin b) = Fin (a / b).
Proof. intros B. cbn. unfold InterpModel.req. destruct (Req_EM_T b 0); [contradiction|reflexivity]. Qed.

(** At a maturity the result is its yield. *)
Theorem C36_knots i : increasing -> length ys = n -> 0 < T 0 -> (i < n)%nat -> rate (T i) = Fin (Y i).
Proof.
  intros INC L P I. pose proof (incr_nondecr ts INC) as ND. rewrite clip by (assumption || lia). cbv zeta.
  pose proof (nondecr_le ts ND 0 i ltac:(lia) I) as A. pose proof (nondecr_le ts ND i (n - 1) ltac:(lia) ltac:(lia)) as B. unfold at_ in A, B.
  rewrite Rmax_right, Rmin_right by lra. pose proof (pos_all INC P i I). rewrite xdiv_fin by lra. rewrite C22_knots by (try assumption; rewrite vzip_length; congruence). rewrite prod_nth by assumption. f_equal. field. lra.
Qed.
(** Between two neighbouring maturities the forward rate over every
    subinterval is the forward rate of the data. *)
Theorem C36_forward i s t : increasing -> length ys = n -> 0 < T 0 -> (S i < n)%nat -> T i <= s <= T (S i) -> T i <= t <= T (S i) ->
  exists rs rt, rate s = Fin rs /\ rate t = Fin rt /\ t * rt - s * rs = data_forward i * (t - s) /\
  exp (- rt * t) = exp (- rs * s) * exp (- data_forward i * (t - s)).
Proof.
  intros INC L P I HS HT. pose proof (incr_nondecr ts INC) as ND. pose proof (INC i I) as D. pose proof (pos_all INC P i ltac:(lia)) as PI.
  assert (G : forall u, T i <= u <= T (S i) -> exists ru, rate u = Fin ru /\ u * ru = T i * Y i + data_forward i * (u - T i)).
  { intros u U. destruct (Req_dec u (T i)) as [->|NU].
    - exists (Y i). rewrite C36_knots by (assumption || lia). split; [reflexivity|ring].
    - rewrite clip by (assumption || lia). cbv zeta. pose proof (nondecr_le ts ND 0 i ltac:(lia) ltac:(lia)) as A. pose proof (nondecr_le ts ND (S i) (n - 1) ltac:(lia) ltac:(lia)) as B. unfold at_ in A, B.
      rewrite Rmax_right, Rmin_right by lra. rewrite xdiv_fin by lra.
      destruct (C22_chord false ts (vzip Rmult ts ys) None None i u) as [_ E]; [rewrite vzip_length; congruence|exact ND|exact I|lra|]. cbv zeta in E. rewrite E, !prod_nth by (assumption || lia).
      eexists. split; [reflexivity|]. unfold data_forward. field. lra. }
  destruct (G s HS) as (rs & RS & ES). destruct (G t HT) as (rt & RT & ET). exists rs, rt. split; [exact RS|]. split; [exact RT|]. assert (X : t * rt - s * rs = data_forward i * (t - s)) by lra.
  split; [exact X|]. rewrite <- exp_plus. f_equal. lra.
Qed.
(** Outside the maturities the yield is that of the nearest one. *)
Theorem C36_flat t : increasing -> length ys = n -> 0 < T 0 -> (0 < n)%nat ->
  (t <= T 0 -> rate t = Fin (Y 0)) /\ (T (n - 1) <= t -> rate t = Fin (Y (n - 1))).
Proof.
  intros INC L P N. pose proof (nondecr_le ts (incr_nondecr ts INC) 0 (n - 1) ltac:(lia) ltac:(lia)) as B. unfold at_ in B. split; intros H.
  - rewrite <- (C36_knots 0) by assumption. rewrite !clip by assumption. rewrite (Rmax_left (T 0) t), (Rmax_left (T 0) (T 0)) by lra. reflexivity.
  - rewrite <- (C36_knots (n - 1)) by (assumption || lia). rewrite !clip by assumption. rewrite (Rmax_right (T 0) t), (Rmax_right (T 0) (T (n - 1))) by lra. rewrite !Rmin_left by lra. reflexivity.
Qed.
(** A curve that starts at time 0, as the one in the documentation does, has no
    yield there: the result is not a number at 0 and before, for any data. *)
Theorem C36_zero t : increasing -> length ys = n -> (0 < n)%nat -> T 0 = 0 -> t <= 0 -> rate t = NaN.
Proof.
  intros INC L N Z H. rewrite clip by assumption. cbv zeta. pose proof (nondecr_le ts (incr_nondecr ts INC) 0 (n - 1) ltac:(lia) ltac:(lia)) as B. unfold at_ in B.
  rewrite Z, (Rmax_left 0 t), Rmin_right by lra. replace 0 with (T 0) at 1 by exact Z.
  rewrite C22_knots by (try assumption; rewrite vzip_length; congruence). rewrite prod_nth, Z, Rmult_0_l by assumption. cbn. unfold InterpModel.req. destruct (Req_EM_T 0 0); [reflexivity|contradiction].
Qed.
End C36.

(** The documentation's curve: the yield given for its first maturity is not returned. *)
Theorem C36_zero_refuted : exists ts ys, increasing ts /\ length ys = length ts /\ nth 0 ts 7 = 0 /\ nth 0 ys 7 = 1 / 100 /\ constant_fwd_interpolate ts ys 0 = NaN.
Proof.
  exists [0; 2; 6; 8; 18; 30], [1 / 100; 2 / 100; 15 / 1000; 14 / 1000; 2 / 100; 25 / 1000].
  assert (INC : increasing [0; 2; 6; 8; 18; 30]) by (intros i I; cbn [length] in I; do 5 (destruct i as [|i]; [cbn; lra|]); lia).
  split; [exact INC|]. do 3 (split; [reflexivity|]). apply C36_zero; try assumption; try reflexivity; cbn; lia || lra.
Qed.

Example C36_ex : let ts := [1; 2; 4] in let ys := [3; 2; 5] in increasing ts /\ constant_fwd_interpolate ts ys 3 = Fin 4.
Proof.
  cbv zeta. assert (INC : increasing [1; 2; 4]) by (intros i I; cbn [length] in I; do 2 (destruct i as [|i]; [cbn; lra|]); lia). split; [exact INC|].
  destruct (C36_forward [1; 2; 4] [3; 2; 5] 1 2 3 INC eq_refl ltac:(cbn; lra) ltac:(cbn; lia) ltac:(cbn; lra) ltac:(cbn; lra)) as (rs & rt & RS & RT & E & _).
  pose proof (C36_knots [1; 2; 4] [3; 2; 5] 1 INC eq_refl ltac:(cbn; lra) ltac:(cbn; lia)) as K. cbn [nth] in K. rewrite K in RS. injection RS as <-. rewrite RT. f_equal. unfold data_forward in E. cbn [nth] in E. lra.
Qed.

Print Assumptions C36_knots.
Print Assumptions C36_forward.
Print Assumptions C36_flat.
Print Assumptions C36_zero.
Print Assumptions C36_zero_refuted.
