(** C32: Gauss-Legendre integration.  [peval c] is the polynomial with
    coefficients [c] (PolySpec.v); a list of length at most 2 n is a polynomial
    of degree at most 2 n - 1. *)
From Coquelicot Require Import Coquelicot.
From Coq Require Import Reals List Bool ZArith QArith Qreals Lia Lra Psatz.
From Verif Require Import TensorModel InterpModel IntegrateModel PolySpec GaussData GaussProofs GaussTables RIntAux SimpsonProofs.
Import ListNotations.
Open Scope R_scope.

(** The routine with the library's tables. *)
Definition gl := gauss_legendre (get legendre_roots) (get legendre_weights).
(** The numbers of points documented for the routine. *)
Definition supported (n : nat) : Prop := (2 <= n <= 15)%nat \/ n = 20%nat \/ n = 32%nat.

Lemma supported_in n : supported n <-> In n legendre_sizes.
Proof. unfold supported, legendre_sizes. cbn [In]. lia. Qed.
Lemma gl_rule f a b n xs ws : get legendre_roots n = Some xs -> get legendre_weights n = Some ws -> gl f a b n = Some (mapped_rule f a b xs ws).
Proof. intros X W. unfold gl, gauss_legendre. rewrite X, W. reflexivity. Qed.

(** Any other number of points is refused; the supported ones never fail. *)
Theorem C32_supported f a b n : gl f a b n <> None <-> supported n.
Proof.
  rewrite supported_in. split.
  - intros H. destruct (in_dec Nat.eq_dec n legendre_sizes) as [I|I]; [exact I|]. exfalso. apply H. unfold gl, gauss_legendre. rewrite (legendre_missing n I). reflexivity.
  - intros I. destruct (legendre_table n I) as (xs & ws & X & W & _). rewrite (gl_rule f a b n xs ws X W). discriminate.
Qed.

(** Degree 2n-1: the result is the integral up to 1e-24 relative to the
    size of the coefficients; the tables carry 25 decimal places. *)
Theorem C32_polynomial n c a b I v : (length c <= 2 * n)%nat -> gl (peval c) a b n = Some v -> is_RInt (peval c) a b I ->
  Rabs (v - I) <= 1 / 10 ^ 24 * (Rabs (b - a) / 2) * peval (map Rabs c) (Rmax (Rabs a) (Rabs b)).
Proof.
  intros L V HI. assert (In n legendre_sizes) as S by (apply supported_in, (C32_supported (peval c) a b); congruence).
  destruct (legendre_table n S) as (xs & ws & X & W & _ & _ & _ & _ & _ & M). rewrite (gl_rule _ a b n xs ws X W) in V. injection V as <-.
  apply (rule_polynomial xs ws (2 * n) (1 / 10 ^ 24) M); [exact L| |exact HI].
  unfold Rdiv. rewrite Rmult_1_l. left. apply Rinv_0_lt_compat, pow_lt. lra.
Qed.

(** The function is evaluated at n points, strictly inside the interval and
    in increasing order, with positive weights. *)
Theorem C32_nodes n : supported n -> exists xs ws, length xs = n /\ length ws = n /\ incr_r xs /\
  Forall (fun x => -1 < x < 1) xs /\ Forall (fun w => 0 < w) ws /\
  forall f a b, gl f a b n = Some (fold_right Rplus 0 (map (fun '(x, w) => (b - a) / 2 * w * f ((a + b) / 2 + (b - a) / 2 * x)) (combine xs ws))).
Proof.
  intros S. apply supported_in in S. destruct (legendre_table n S) as (xs & ws & X & W & L1 & L2 & Q1 & Q2 & Q3 & _). exists xs, ws.
  do 5 (split; [assumption|]). intros f a b. rewrite (gl_rule f a b n xs ws X W), mapped_rule_wsum. f_equal. unfold wsum, vzip, reduce_sum. clear.
  revert ws. induction xs as [|x xs IH]; intros [|w ws]; cbn [combine map fold_right]; try ring. rewrite <- IH. ring.
Qed.

(** Order: if f <= g everywhere on the interval then the results are ordered. *)
Theorem C32_monotone n f g a b u v : a <= b -> (forall x, a < x < b -> f x <= g x) -> gl f a b n = Some u -> gl g a b n = Some v -> u <= v.
Proof.
  intros AB FG U V. assert (In n legendre_sizes) as S by (apply supported_in, (C32_supported f a b); congruence).
  destruct (legendre_table n S) as (xs & ws & X & W & _ & _ & _ & Q2 & Q3 & _). rewrite (gl_rule f a b n xs ws X W) in U. rewrite (gl_rule g a b n xs ws X W) in V.
  injection U as <-. injection V as <-. rewrite !mapped_rule_wsum. destruct (Req_dec a b) as [->|NE].
  - replace ((b - b) / 2) with 0 by field. rewrite !Rmult_0_l. lra.
  - apply Rmult_le_compat_l; [lra|]. apply wsum_le; [|revert Q3; apply Forall_impl; intros; lra]. revert Q2. apply Forall_impl. intros x Hx. apply FG. nra.
Qed.

(** Linearity in the function. *)
Theorem C32_linear n f g k l a b u v : gl f a b n = Some u -> gl g a b n = Some v -> gl (fun x => k * f x + l * g x) a b n = Some (k * u + l * v).
Proof.
  intros U V. assert (In n legendre_sizes) as S by (apply supported_in, (C32_supported f a b); congruence).
  pose proof (legendre_table n S) as (xs & ws & X & W & R). rewrite (gl_rule f a b n xs ws X W) in U. rewrite (gl_rule g a b n xs ws X W) in V.
  injection U as <-. injection V as <-. rewrite (gl_rule _ a b n xs ws X W), !mapped_rule_wsum, wsum_lin. f_equal. ring.
Qed.

(** The integral by this method without a number of points uses 32 points, and is
    exact to 24 digits for polynomials of degree up to 63. *)
Theorem C32_default : let gauss f a b n := integrate (get legendre_roots) (get legendre_weights) f a b GAUSS_LEGENDRE n in
  (forall f a b n, gauss f a b (Some (Z.of_nat n)) = gl f a b n) /\
  (forall c a b I, (length c <= 64)%nat -> is_RInt (peval c) a b I ->
    exists v, gauss (peval c) a b None = Some v /\ Rabs (v - I) <= 1 / 10 ^ 24 * (Rabs (b - a) / 2) * peval (map Rabs c) (Rmax (Rabs a) (Rabs b))).
Proof.
  split.
  - intros f a b n. cbn [integrate]. rewrite Nat2Z.id. reflexivity.
  - intros c a b I L HI. cbn [integrate]. fold gl. destruct (gl (peval c) a b 32) as [v|] eqn:E.
    + exists v. split; [reflexivity|]. apply (C32_polynomial 32 c a b I v); assumption.
    + exfalso. apply (proj2 (C32_supported (peval c) a b 32)); [right; right; reflexivity|exact E].
Qed.
Print Assumptions C32_default.

(** Two points integrate x^3 + x^2 over [0, 3] to 29.25 up to 1e-22. *)
Example C32_ex : exists v, gl (peval [0; 0; 1; 1]) 0 3 2 = Some v /\ Rabs (v - 29.25) <= 1 / 10 ^ 22.
Proof.
  destruct (gl (peval [0; 0; 1; 1]) 0 3 2) as [v|] eqn:E.
  2:{ exfalso. apply (proj2 (C32_supported (peval [0; 0; 1; 1]) 0 3 2)); [left; lia|exact E]. }
  exists v. split; [reflexivity|]. pose proof (peval_int [0; 0; 1; 1] 0 3) as P. pose proof (C32_polynomial 2 [0; 0; 1; 1] 0 3 _ v ltac:(cbn; lia) E P) as B.
  assert (EI : panti 0 [0; 0; 1; 1] 3 - panti 0 [0; 0; 1; 1] 0 = 29.25) by (cbn [panti pow INR]; lra). rewrite EI in B.
  eapply Rle_trans; [exact B|]. cbn [map peval]. rewrite !Rabs_R0, Rabs_R1. replace (Rmax 0 (Rabs 3)) with 3 by (rewrite (Rabs_right 3), Rmax_right; lra). rewrite (Rabs_right (3 - 0)) by lra.
  assert (0 < 10 ^ 22) by (apply pow_lt; lra). replace (10 ^ 24) with (100 * 10 ^ 22) by (cbn [pow]; ring). replace (1 / 10 ^ 22) with (100 * (1 / (100 * 10 ^ 22))) by (field; lra).
  assert (0 < 1 / (100 * 10 ^ 22)) by (apply Rdiv_lt_0_compat; lra). nra.
Qed.

Print Assumptions C32_supported.
Print Assumptions C32_polynomial.
Print Assumptions C32_nodes.
Print Assumptions C32_monotone.
Print Assumptions C32_linear.
