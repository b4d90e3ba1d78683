(** C21: piecewise constant functions. *)
From Coq Require Import ZArith Reals List Bool Lia Lra.
From Coquelicot Require Import Coquelicot.
From Verif Require Import TensorModel TensorProofs SegmentModel PiecewiseModel PiecewiseProofs.
Import ListNotations.
Open Scope R_scope.

(** What the constructor accepts, together with the documented requirement that
    the jump locations are sorted. *)
Definition pw_ok (j v : list R) (f : pw) : Prop := pw_make j v = Some f /\ nondecr j.
Lemma pw_ok_inv j v f : pw_ok j v f -> f = PW j v /\ length v = S (length j) /\ nondecr j.
Proof. intros (E & N). unfold pw_make in E. destruct (Nat.eqb_spec (length v) (S (length j))); [|discriminate]. injection E as <-. auto. Qed.

(** The interval containing [x] has index [k]: the jumps before it are below
    [x], those from [k] on are above.  A jump equal to [x] ends the interval of
    the left-continuous version and starts the one of the right-continuous. *)
Definition in_interval (j : list R) (left_continuous : bool) (k : nat) (x : R) : Prop :=
  (k <= length j)%nat /\
  (forall i, (i < k)%nat -> if left_continuous then nth i j 0 < x else nth i j 0 <= x) /\
  (forall i, (k <= i < length j)%nat -> if left_continuous then x <= nth i j 0 else x < nth i j 0).

Theorem C21_value j v f left_continuous x : pw_ok j v f ->
  (exists k, in_interval j left_continuous k x) /\
  (forall k, in_interval j left_continuous k x -> pw_call f left_continuous x = nth k v 0).
Proof.
  intros OK. apply pw_ok_inv in OK as (-> & L & N). split.
  - destruct left_continuous.
    + exists (searchsorted_left j x). split; [apply ssl_le|]. split; [apply ssl_below|apply ssl_above; assumption].
    + exists (searchsorted_right j x). split; [apply ssr_le|]. split; [apply ssr_below|apply ssr_above; assumption].
  - intros k (K & B & A). destruct left_continuous; [apply (call_left_index (PW j v))|apply (call_right_index (PW j v))]; assumption.
Qed.

(** A wrong number of values is refused. *)
Theorem C21_bad_shape_refused j v : length v <> S (length j) -> pw_make j v = None.
Proof. intros H. unfold pw_make. destruct (Nat.eqb_spec (length v) (S (length j))); [congruence|reflexivity]. Qed.

(** [integrate] is the exact signed Riemann integral of the function itself. *)
Theorem C21_integrate_exact j v f a b : pw_ok j v f -> j <> [] ->
  is_RInt (pw_call f true) a b (pw_integrate f a b) /\ is_RInt (pw_call f false) a b (pw_integrate f a b).
Proof.
  intros OK NE. apply pw_ok_inv in OK as (-> & L & N).
  assert (I : is_RInt (pw_call (PW j v) true) a b (pw_integrate (PW j v) a b)).
  { rewrite (integrate_prim (PW j v)) by assumption. apply prim_int; assumption. }
  split; [assumption|]. rewrite (integrate_prim (PW j v)) by assumption. apply prim_int_r; assumption.
Qed.

Theorem C21_integrate_additive j v f a b c : pw_ok j v f -> j <> [] ->
  pw_integrate f a b + pw_integrate f b c = pw_integrate f a c /\ pw_integrate f a b = - pw_integrate f b a /\ pw_integrate f a a = 0.
Proof. intros OK NE. apply pw_ok_inv in OK as (-> & L & N). rewrite !(integrate_prim (PW j v)) by assumption. lra. Qed.

(** The interval index of a query: -1 below the first lower bound, otherwise the
    interval [lower i <= q < lower (i+1)]; with a closed last interval the last
    lower bound itself belongs to the interval before it. *)
Theorem C21_find_interval_index lower q : nondecr lower -> lower <> [] ->
  let n := Z.of_nat (length lower) in
  let i := find_interval_index q lower false in
  (-1 <= i < n)%Z /\
  ((0 <= i)%Z -> nth (Z.to_nat i) lower 0 <= q) /\
  ((i < n - 1)%Z -> q < nth (Z.to_nat (i + 1)) lower 0) /\
  find_interval_index q lower true =
    (if Req_EM_T q (nth (length lower - 1) lower 0) then (n - 2)%Z else i).
Proof.
  intros N NE n i. unfold find_interval_index in i.
  pose proof (ssr_le lower q) as K. assert (LP : (0 < length lower)%nat) by (destruct lower; [congruence|cbn; lia]).
  split; [subst i n; lia|]. split; [|split].
  - intros H. subst i. apply (ssr_below lower q). lia.
  - intros H. subst i. apply (ssr_above lower q N). lia.
  - unfold find_interval_index. cbn zeta. replace (Z.to_nat (Z.of_nat (length lower) - 1)) with (length lower - 1)%nat by lia.
    fold (at_ lower (length lower - 1)).
    pose proof (ssr_above lower q N) as AB. pose proof (ssr_below lower q) as BE. subst i n.
    destruct (Z.eqb_spec (Z.of_nat (searchsorted_right lower q) - 1) (Z.of_nat (length lower) - 1)) as [E|E]; cbn [andb].
    + assert (Q : at_ lower (length lower - 1) <= q) by (apply BE; lia).
      destruct (Rle_dec q (at_ lower (length lower - 1))), (Req_EM_T q (at_ lower (length lower - 1))); try lra; lia.
    + assert (Q : q < at_ lower (length lower - 1)) by (apply AB; lia).
      destruct (Req_EM_T q (at_ lower (length lower - 1))); [lra|]. lia.
Qed.

Example C21_ex :
  let f := PW [1; 2; 4] [5; 7; 3; 10] in
  pw_ok [1; 2; 4] [5; 7; 3; 10] f /\ in_interval [1; 2; 4] true 1 2 /\ in_interval [1; 2; 4] false 2 2 /\
  pw_integrate f 0 5 = 5 + 7 + 3 * 2 + 10.
Proof.
  cbn zeta. assert (N : nondecr [1; 2; 4]) by (intros [|[|[|i]]] H; cbn in *; try lia; unfold at_; cbn; lra).
  split; [split; [reflexivity|exact N]|]. split; [|split].
  - split; [cbn; lia|]. split; intros [|[|[|i]]] H; cbn in *; try lia; lra.
  - split; [cbn; lia|]. split; intros [|[|[|i]]] H; cbn in *; try lia; lra.
  - unfold pw_integrate, pw_left, pw_right, pw_integrals, at_. cbn.
    repeat (match goal with |- context [Rlt_dec ?a ?b] => destruct (Rlt_dec a b); try lra | |- context [Rle_dec ?a ?b] => destruct (Rle_dec a b); try lra end; cbn); lra.
Qed.

Print Assumptions C21_value.
Print Assumptions C21_bad_shape_refused.
Print Assumptions C21_integrate_exact.
Print Assumptions C21_integrate_additive.
Print Assumptions C21_find_interval_index.
