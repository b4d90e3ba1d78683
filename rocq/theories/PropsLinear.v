(** C22: linear interpolation. *)
From Coq Require Import Reals List Bool Lia Lra.
From Verif Require Import TensorModel TensorProofs InterpModel LinearProofs.
Import ListNotations.
Open Scope R_scope.

Section C22.
Variables (tpu : bool) (xs ys : list R) (left_slope right_slope : option R).
Notation interpolate := (linear_interpolate tpu xs ys left_slope right_slope).
Notation n := (length xs).
(** An omitted slope means a constant extrapolation. *)
Definition slope_or_zero (s : option R) : R := match s with Some v => v | None => 0 end.

(** Through every knot. *)
Theorem C22_knots i : length ys = n -> (forall k, (S k < n)%nat -> nth k xs 0 < nth (S k) xs 0) -> (i < n)%nat ->
  interpolate (nth i xs 0) = nth i ys 0.
Proof.
  intros L INC I. assert (SORT : nondecr xs) by (apply incr_nondecr; exact INC). destruct i.
  - rewrite lin_low by (try assumption; unfold at_; lra). fold (at_ xs 0) (at_ ys 0). ring.
  - pose proof (INC i I) as H. rewrite (lin_mid tpu xs ys left_slope right_slope L SORT _ i) by (try assumption; unfold at_; lra).
    fold (at_ xs (S i)) (at_ ys (S i)) (at_ xs i) in *. field. lra.
Qed.

(** Between two consecutive knots: on the chord, a convex combination of the two values. *)
Theorem C22_chord i x : length ys = n -> (forall k, (S k < n)%nat -> nth k xs 0 <= nth (S k) xs 0) -> (S i < n)%nat ->
  nth i xs 0 < x <= nth (S i) xs 0 ->
  let w := (x - nth i xs 0) / (nth (S i) xs 0 - nth i xs 0) in
  0 < w <= 1 /\ interpolate x = (1 - w) * nth i ys 0 + w * nth (S i) ys 0.
Proof.
  intros L SORT I H w. assert (0 < nth (S i) xs 0 - nth i xs 0) by lra. split.
  - unfold w. split; [apply Rdiv_lt_0_compat; lra|]. apply Rmult_le_reg_r with (nth (S i) xs 0 - nth i xs 0); [lra|]. unfold Rdiv. rewrite Rmult_assoc, Rinv_l by lra. lra.
  - rewrite (lin_mid tpu xs ys left_slope right_slope L SORT x i I H). unfold w, at_. field. lra.
Qed.

(** Outside the knots: a straight line with the declared slope. *)
Theorem C22_extrapolation x : length ys = n -> (forall k, (S k < n)%nat -> nth k xs 0 <= nth (S k) xs 0) -> (0 < n)%nat ->
  (x <= nth 0 xs 0 -> interpolate x = nth 0 ys 0 + slope_or_zero left_slope * (x - nth 0 xs 0)) /\
  (nth (n - 1) xs 0 < x -> interpolate x = nth (n - 1) ys 0 + slope_or_zero right_slope * (x - nth (n - 1) xs 0)).
Proof. intros L SORT N. split; intros H; [apply lin_low|apply lin_high]; assumption. Qed.

(** Monotone data and nonnegative slopes give a monotone function. *)
Theorem C22_monotone a b : length ys = n -> (forall k, (S k < n)%nat -> nth k xs 0 <= nth (S k) xs 0) -> (0 < n)%nat ->
  (forall k, (S k < n)%nat -> nth k ys 0 <= nth (S k) ys 0) -> 0 <= slope_or_zero left_slope -> 0 <= slope_or_zero right_slope ->
  a <= b -> interpolate a <= interpolate b.
Proof. intros L SORT N YS SL SR AB. apply lin_mono; try assumption. intros i I. apply YS. lia. Qed.

(** The one-hot variant used on TPUs computes the same value. *)
Theorem C22_tpu_same x : length ys = n -> (0 < n)%nat ->
  linear_interpolate true xs ys left_slope right_slope x = linear_interpolate false xs ys left_slope right_slope x.
Proof.
  intros L N. unfold linear_interpolate. pose proof (ssl_le xs x).
  rewrite !(get_slice_at true) by lia. reflexivity.
Qed.
End C22.

Example C22_ex : let xs := [1; 2; 4] in let ys := [10; 20; 0] in
  (forall k, (S k < 3)%nat -> nth k xs 0 < nth (S k) xs 0) /\
  linear_interpolate false xs ys None None 3 = 10 /\ linear_interpolate true xs ys (Some 5) None 0 = 5.
Proof.
  cbn zeta. split; [intros [|[|k]] H; cbn; try lia; lra|].
  split; unfold linear_interpolate, get_slice, divide_no_nan, at_; cbn;
    repeat (match goal with |- context [Rlt_dec ?a ?b] => destruct (Rlt_dec a b); try lra | |- context [Req_EM_T ?a ?b] => destruct (Req_EM_T a b); try lra end; cbn); lra.
Qed.

Print Assumptions C22_knots.
Print Assumptions C22_chord.
Print Assumptions C22_extrapolation.
Print Assumptions C22_monotone.
Print Assumptions C22_tpu_same.
