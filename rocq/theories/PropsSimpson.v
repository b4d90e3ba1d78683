(** C31: composite Simpson integration. *)
From Coquelicot Require Import Coquelicot.
From Coq Require Import Reals List Bool ZArith Lia Lra Psatz.
From Verif Require Import TensorModel TensorProofs InterpModel IntegrateModel PolySpec RIntAux SimpsonProofs.
Import ListNotations.
Open Scope R_scope.

(** Exactly the odd numbers of points from three on are accepted. *)
Theorem C31_rejects f a b n : simpson f a b n = None <-> ~ ((3 <= n)%Z /\ Z.odd n = true).
Proof.
  unfold simpson. destruct ((3 <=? n)%Z && (n mod 2 =? 1)%Z) eqn:E; cbn [negb].
  - split; [discriminate|]. intros H. exfalso. apply H. apply andb_true_iff in E as [E1 E2]. apply Z.leb_le in E1. apply Z.eqb_eq in E2. split; [exact E1|]. rewrite Zmod_odd in E2. destruct (Z.odd n); [reflexivity|discriminate].
  - split; [|reflexivity]. intros _ [H1 H2]. apply andb_false_iff in E as [E|E]; [apply Z.leb_gt in E; lia|]. apply Z.eqb_neq in E. apply E. rewrite Zmod_odd, H2. reflexivity.
Qed.

Lemma odd_mod n : Z.odd n = true -> (n mod 2 = 1)%Z.
Proof. intros H. rewrite Zmod_odd, H. reflexivity. Qed.

(** Every cubic is integrated exactly over every interval (also a reversed or
    empty one) for every admissible number of points. *)
Theorem C31_cubic_exact c0 c1 c2 c3 a b n : (3 <= n)%Z -> Z.odd n = true ->
  exists v, simpson (fun x => c0 + c1 * x + c2 * x ^ 2 + c3 * x ^ 3) a b n = Some v /\
            is_RInt (fun x => c0 + c1 * x + c2 * x ^ 2 + c3 * x ^ 3) a b v.
Proof.
  intros N1 N2. apply odd_mod in N2. exists (panti 0 [c0; c1; c2; c3] b - panti 0 [c0; c1; c2; c3] a). split.
  - rewrite <- (simpson_cubic c0 c1 c2 c3 a b n N1 N2). unfold simpson. replace (negb _) with false; [|symmetry; apply negb_false_iff, andb_true_iff; split; [apply Z.leb_le; lia|apply Z.eqb_eq; exact N2]].
    do 4 f_equal. rewrite (map_ext (fun x => c0 + c1 * x + c2 * x ^ 2 + c3 * x ^ 3) (peval [c0; c1; c2; c3])); [reflexivity|]. intros x. cbn. ring.
  - apply (isi_ext (peval [c0; c1; c2; c3])); [intros x _; cbn; ring|apply peval_int].
Qed.

(** For four times differentiable integrands the error is of fourth order in
    the step: with F' = f the difference to F(b) - F(a), the integral, is at
    most (b-a)^5 max|f''''| / (180 (n-1)^4). *)
Theorem C31_error_bound (F f f1 f2 f3 f4 : R -> R) a b M n v : a <= b ->
  (forall x, a <= x <= b -> is_derive F x (f x) /\ is_derive f x (f1 x) /\ is_derive f1 x (f2 x) /\ is_derive f2 x (f3 x) /\ is_derive f3 x (f4 x) /\ Rabs (f4 x) <= M) ->
  (3 <= n)%Z -> Z.odd n = true -> simpson f a b n = Some v ->
  Rabs ((F b - F a) - v) <= (b - a) ^ 5 * M / (180 * (IZR n - 1) ^ 4).
Proof. intros AB H N1 N2 V. apply odd_mod in N2. exact (simpson_error F f f1 f2 f3 f4 a b M n v AB H N1 N2 V). Qed.

(** Linear in the integrand. *)
Theorem C31_linear f g p q a b n : (3 <= n)%Z -> Z.odd n = true ->
  exists u v, simpson f a b n = Some u /\ simpson g a b n = Some v /\ simpson (fun x => p * f x + q * g x) a b n = Some (p * u + q * v).
Proof.
  intros N1 N2. apply odd_mod in N2. unfold simpson. replace (negb _) with false; [|symmetry; apply negb_false_iff, andb_true_iff; split; [apply Z.leb_le; lia|apply Z.eqb_eq; exact N2]].
  eexists. eexists. split; [reflexivity|]. split; [reflexivity|]. f_equal.
  generalize (map (fun i => a + (b - a) / (IZR n - 1) * i) (range_float (Z.to_nat n))) as grid. generalize (simpson_weights n) as w. intros w grid.
  assert (S : reduce_sum (vzip Rmult (map (fun x => p * f x + q * g x) grid) w) = p * reduce_sum (vzip Rmult (map f grid) w) + q * reduce_sum (vzip Rmult (map g grid) w)).
  { unfold vzip, reduce_sum. revert w. induction grid as [|x grid IH]; intros w; [cbn; ring|]. destruct w as [|y w]; [cbn; ring|]. cbn. cbn in IH. rewrite IH. ring. }
  rewrite S. field.
  assert (3 <= IZR n) by (apply (IZR_le 3); exact N1). lra.
Qed.

(** The integrand is sampled at the n equally spaced points only, the first
    and last being the limits. *)
Theorem C31_grid f g a b n : (forall i, (0 <= i < n)%Z -> f (a + (b - a) / (IZR n - 1) * IZR i) = g (a + (b - a) / (IZR n - 1) * IZR i)) ->
  simpson f a b n = simpson g a b n.
Proof.
  intros H. unfold simpson. destruct (negb _) eqn:E; [reflexivity|]. do 4 f_equal. unfold range_float. rewrite !map_map.
  rewrite (map_ext_in (fun x => f (a + (b - a) / (IZR n - 1) * INR x)) (fun x => g (a + (b - a) / (IZR n - 1) * INR x))); [reflexivity|].
  intros i I. apply in_seq in I. rewrite INR_IZR_INZ. apply H. lia.
Qed.

(** Without a method and a number of points the integral is computed by this
    rule on 1001 points: exact for cubics, and for four times differentiable
    integrands within (b-a)^5 max|f4| / (1.8 10^14). *)
Theorem C31_default roots coefficients a b :
  (forall c0 c1 c2 c3, exists v, integrate roots coefficients (fun x => c0 + c1 * x + c2 * x ^ 2 + c3 * x ^ 3) a b COMPOSITE_SIMPSONS_RULE None = Some v /\
     is_RInt (fun x => c0 + c1 * x + c2 * x ^ 2 + c3 * x ^ 3) a b v) /\
  (forall F f f1 f2 f3 f4 M, a <= b ->
    (forall x, a <= x <= b -> is_derive F x (f x) /\ is_derive f x (f1 x) /\ is_derive f1 x (f2 x) /\ is_derive f2 x (f3 x) /\ is_derive f3 x (f4 x) /\ Rabs (f4 x) <= M) ->
    exists v, integrate roots coefficients f a b COMPOSITE_SIMPSONS_RULE None = Some v /\ Rabs ((F b - F a) - v) <= (b - a) ^ 5 * M / (180 * 1000 ^ 4)) /\
  (forall f n, integrate roots coefficients f a b COMPOSITE_SIMPSONS_RULE (Some n) = simpson f a b n).
Proof.
  split; [|split; [|reflexivity]].
  - intros c0 c1 c2 c3. apply C31_cubic_exact; [lia|reflexivity].
  - intros F f f1 f2 f3 f4 M AB H. cbn [integrate]. destruct (simpson f a b 1001) as [v|] eqn:E.
    + exists v. split; [reflexivity|]. pose proof (C31_error_bound F f f1 f2 f3 f4 a b M 1001 v AB H ltac:(lia) eq_refl E) as B. replace (IZR 1001 - 1) with 1000 in B by ring. exact B.
    + exfalso. apply C31_rejects in E. apply E. split; [lia|reflexivity].
Qed.
Print Assumptions C31_default.

(** x^4 on [0,1] with three points: 5/24 against 1/5, an error of 1/120, which
    is exactly the bound of [C31_error_bound] with M = 24. *)
Example C31_ex : simpson (fun x => x ^ 4) 0 1 3 = Some (5 / 24) /\
  (forall x, 0 <= x <= 1 -> is_derive (fun x => x ^ 5 / 5) x (x ^ 4) /\ is_derive (fun x => x ^ 4) x (4 * x ^ 3) /\ is_derive (fun x => 4 * x ^ 3) x (12 * x ^ 2) /\
     is_derive (fun x => 12 * x ^ 2) x (24 * x) /\ is_derive (fun x => 24 * x) x 24 /\ Rabs 24 <= 24) /\
  Rabs ((1 ^ 5 / 5 - 0 ^ 5 / 5) - 5 / 24) = (1 - 0) ^ 5 * 24 / (180 * (IZR 3 - 1) ^ 4).
Proof.
  split; [|split].
  - unfold simpson. change (Z.to_nat 3) with 3%nat. unfold simpson_weights. cbn. f_equal. field.
  - intros x _. split; [|split; [|split; [|split; [|split]]]]; [auto_derive; [exact I|]; cbn; field ..|rewrite Rabs_right; lra].
  - replace (1 ^ 5 / 5 - 0 ^ 5 / 5 - 5 / 24) with (- (1 / 120)) by field. rewrite Rabs_Ropp, Rabs_right by lra. field.
Qed.

Print Assumptions C31_rejects.
Print Assumptions C31_cubic_exact.
Print Assumptions C31_error_bound.
Print Assumptions C31_linear.
Print Assumptions C31_grid.
