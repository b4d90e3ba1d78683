(** C81: the equations given to the finite difference solvers are those of the
    process, backward for values and forward for densities. *)
From Coq Require Import Reals List Bool Arith ZArith Lra Lia Psatz.
From Verif Require Import TensorModel TensorProofs SegmentModel EulerModel TimeGridSpec PdeStepModel PdeStepSpec PdeStepView PdeStepProofs PdeRowProofs PropsPdeStep PdeSolveModel PdeSolveView PropsPdeSolve
  PropsEuler ItoPdeModel ItoPdeSpec ItoPdeProofs.
Import ListNotations.
Open Scope R_scope.

(** ** The equation of the sampled process *)
Lemma rsum_swap n m (F : nat -> nat -> R) : rsum (fun i => rsum (F i) m) n = rsum (fun j => rsum (fun i => F i j) n) m.
Proof. induction n as [|n IH]; cbn [rsum]; [symmetry; apply rsum_0; reflexivity|]. rewrite IH, <- rsum_plus. reflexivity. Qed.
Lemma rsum_const c n : rsum (fun _ => c) n = INR n * c.
Proof. induction n as [|n IH]; cbn [rsum]; [cbn; ring|]. rewrite IH, S_INR. ring. Qed.
Lemma rsum_scal_r c f n : rsum (fun i => f i * c) n = rsum f n * c.
Proof. rewrite Rmult_comm, <- rsum_scal. apply rsum_ext. intros; ring. Qed.

Lemma quadratic_shift d c b q x e : quadratic d c b q (fun i => x i + e i)
  = quadratic d c b q x + rsum (fun i => quadratic_d d b q x i * e i) d + rsum (fun i => rsum (fun j => q i j * (e i * e j)) d) d.
Proof.
  unfold quadratic, quadratic_d.
  assert (A : rsum (fun i => b i * (x i + e i)) d = rsum (fun i => b i * x i) d + rsum (fun i => b i * e i) d) by (rewrite <- rsum_plus; apply rsum_ext; intros; ring).
  assert (B : rsum (fun i => rsum (fun j => q i j * ((x i + e i) * (x j + e j))) d) d
    = rsum (fun i => rsum (fun j => q i j * (x i * x j)) d) d + (rsum (fun i => rsum (fun j => q i j * (e i * x j)) d) d + rsum (fun i => rsum (fun j => q i j * (x i * e j)) d) d)
      + rsum (fun i => rsum (fun j => q i j * (e i * e j)) d) d).
  { rewrite <- !rsum_plus. apply rsum_ext. intros i _. rewrite <- !rsum_plus. apply rsum_ext. intros; ring. }
  assert (D : rsum (fun i => (b i + rsum (fun j => (q i j + q j i) * x j) d) * e i) d
    = rsum (fun i => b i * e i) d + (rsum (fun i => rsum (fun j => q i j * (e i * x j)) d) d + rsum (fun i => rsum (fun j => q i j * (x i * e j)) d) d)).
  { rewrite (rsum_swap d d (fun i j => q i j * (x i * e j))). rewrite <- !rsum_plus. apply rsum_ext. intros i _. rewrite Rmult_plus_distr_r. f_equal.
    rewrite <- rsum_scal_r, <- rsum_plus. apply rsum_ext. intros; ring. }
  rewrite A, B, D. ring.
Qed.

Lemma draws_mean num d z (sigma : nat -> nat -> R) h i : standard_draws num d z ->
  rsum (fun s => rsum (fun l => sigma i l * (z s l * h)) d) num = 0.
Proof.
  intros [M _]. rewrite rsum_swap. apply rsum_0. intros l L. transitivity (sigma i l * h * rsum (fun s => z s l) num); [|rewrite M by exact L; ring].
  rewrite <- rsum_scal. apply rsum_ext. intros; ring.
Qed.
Lemma delta_sum d l (f : nat -> R) c : (l < d)%nat -> rsum (fun k => f k * (if Nat.eqb l k then c else 0)) d = f l * c.
Proof.
  intros L. induction d as [|d IH]; [lia|]. cbn [rsum]. destruct (Nat.eq_dec l d) as [->|N].
  - rewrite Nat.eqb_refl. rewrite (rsum_0 _ d); [ring|]. intros k K. destruct (Nat.eqb_spec d k); [lia|ring].
  - rewrite IH by lia. destruct (Nat.eqb_spec l d); [contradiction|ring].
Qed.
Lemma draws_covariance num d z (sigma : nat -> nat -> R) h i j : standard_draws num d z ->
  rsum (fun s => rsum (fun l => sigma i l * (z s l * h)) d * rsum (fun l => sigma j l * (z s l * h)) d) num = INR num * (h * h) * rsum (fun l => sigma i l * sigma j l) d.
Proof.
  intros [_ C].
  transitivity (rsum (fun s => rsum (fun l => rsum (fun k => sigma i l * sigma j k * (h * h) * (z s l * z s k)) d) d) num).
  { apply rsum_ext. intros s _. rewrite <- rsum_scal_r. apply rsum_ext. intros l _. rewrite <- rsum_scal. apply rsum_ext. intros; ring. }
  rewrite rsum_swap. rewrite <- rsum_scal. apply rsum_ext. intros l L. rewrite rsum_swap.
  transitivity (rsum (fun k => sigma i l * sigma j k * (h * h) * (if Nat.eqb l k then INR num else 0)) d).
  - apply rsum_ext. intros k K. rewrite rsum_scal. rewrite C by assumption. reflexivity.
  - rewrite (delta_sum d l (fun k => sigma i l * sigma j k * (h * h))) by exact L. ring.
Qed.

(** One Euler step of the sampler and the coefficients of the backward equation
    describe the same process: in any dimension, from any point of any grid and
    for every quadratic function f, averaging f over one step of length h with
    draws of mean 0 and covariance 1 changes it by
    h (sum_i b_i df/dx_i + sum_ij a_ij d2f/dx_i dx_j) + O(h^2), where b and a are
    the first and second order coefficients given to the solver, and the O(h^2)
    term is h^2 times the quadratic part of f on the drift. *)
Theorem C81_same_process (g : generic) (axes : nat -> list R) (k : nat -> nat) (t0 t1 : R) (draws : nat -> samples) (num : nat)
  (c : R) (b : nat -> R) (q : nat -> nat -> R) :
  let d := gdim g in let h := t1 - t0 in let x := mesh axes k in
  let f := quadratic d c b q in
  0 <= h -> (0 < num)%nat -> standard_draws num d (draws 0%nat) ->
  average num (fun s => f (euler_step (sampled g) [t0; t1] draws 0 (fun _ => x) s))
  = f x
    + h * (rsum (fun i => first_order_coeff g axes t1 i k * quadratic_d d b q x i) d
           + rsum (fun i => rsum (fun j => second_order_coeff g axes t1 i j k * quadratic_dd q i j) d) d)
    + h * h * rsum (fun i => rsum (fun j => q i j * (mu g t1 x i * mu g t1 x j)) d) d.
Proof.
  intros d h x f Hh Nn SD. set (z := draws 0%nat) in *. set (sigma := sg g t1 x). set (m := mu g t1 x).
  set (e := fun s i => rsum (fun l => sigma i l * (z s l * sqrt h)) d).
  set (y := fun i => x i + h * m i).
  assert (ST : forall s, euler_step (sampled g) [t0; t1] draws 0 (fun _ => x) s = fun i => y i + e s i) by (intros s; reflexivity).
  assert (PN : 0 < INR num) by (apply lt_0_INR; exact Nn).
  assert (AV : average num (fun s => f (euler_step (sampled g) [t0; t1] draws 0 (fun _ => x) s)) = f y + h * rsum (fun i => rsum (fun j => q i j * rsum (fun l => sigma i l * sigma j l) d) d) d).
  { unfold average. rewrite (rsum_ext _ (fun s => f y + rsum (fun i => quadratic_d d b q y i * e s i) d + rsum (fun i => rsum (fun j => q i j * (e s i * e s j)) d) d))
      by (intros s _; rewrite ST; apply quadratic_shift).
    rewrite !rsum_plus, rsum_const, (rsum_swap num d (fun s i => quadratic_d d b q y i * e s i)).
    rewrite (rsum_0 (fun j => rsum (fun i => quadratic_d d b q y j * e i j) num) d) by (intros i _; rewrite rsum_scal; unfold e; rewrite (draws_mean num d z sigma) by exact SD; ring).
    assert (Q : rsum (fun s => rsum (fun i => rsum (fun j => q i j * (e s i * e s j)) d) d) num = INR num * (h * rsum (fun i => rsum (fun j => q i j * rsum (fun l => sigma i l * sigma j l) d) d) d)).
    { rewrite rsum_swap. rewrite <- Rmult_assoc, <- rsum_scal. apply rsum_ext. intros i _. rewrite rsum_swap. rewrite <- rsum_scal. apply rsum_ext. intros j _. rewrite rsum_scal.
      unfold e. rewrite (draws_covariance num d z sigma) by exact SD. rewrite sqrt_sqrt by exact Hh. ring. }
    rewrite Q. field. lra. }
  rewrite AV. unfold f at 1, y. rewrite quadratic_shift. fold f.
  assert (F1 : rsum (fun i => quadratic_d d b q x i * (h * m i)) d = h * rsum (fun i => first_order_coeff g axes t1 i k * quadratic_d d b q x i) d).
  { rewrite <- rsum_scal. apply rsum_ext. intros i _. unfold first_order_coeff. fold x m. ring. }
  assert (F2 : rsum (fun i => rsum (fun j => q i j * (h * m i * (h * m j))) d) d = h * h * rsum (fun i => rsum (fun j => q i j * (m i * m j)) d) d).
  { rewrite <- rsum_scal. apply rsum_ext. intros i _. rewrite <- rsum_scal. apply rsum_ext. intros; ring. }
  assert (F3 : rsum (fun i => rsum (fun j => q i j * rsum (fun l => sigma i l * sigma j l) d) d) d = rsum (fun i => rsum (fun j => second_order_coeff g axes t1 i j k * quadratic_dd q i j) d) d).
  { unfold second_order_coeff, quadratic_dd. fold x sigma d.
    transitivity (/ 2 * rsum (fun i => rsum (fun j => q i j * rsum (fun l => sigma i l * sigma j l) d) d) d + / 2 * rsum (fun i => rsum (fun j => q j i * rsum (fun l => sigma j l * sigma i l) d) d) d).
    - rewrite (rsum_swap d d (fun i j => q j i * _)). field.
    - rewrite <- !rsum_scal, <- rsum_plus. apply rsum_ext. intros i _. rewrite <- !rsum_scal, <- rsum_plus. apply rsum_ext. intros j _.
      rewrite (rsum_ext (fun l => sigma j l * sigma i l) (fun l => sigma i l * sigma j l)) by (intros; ring). field. }
  rewrite F1, F2, F3. ring.
Qed.
Print Assumptions C81_same_process.

(** draws that meet the hypothesis: two correlated assets, the four sign
    combinations as draws, and the function (y0 - y1)^2 *)
Definition signs : nat -> nat -> nat -> R := fun _ s c => match s, c with
  | 0%nat, _ => 1 | 1%nat, 0%nat => 1 | 1%nat, _ => - (1) | 2%nat, 0%nat => - (1) | 2%nat, _ => 1 | _, _ => - (1) end.
Example signs_standard : standard_draws 4 2 (signs 0%nat).
Proof.
  split.
  - intros [|[|c]] H; [| |lia]; cbn; ring.
  - intros [|[|c]] [|[|c']] H H'; try lia; cbn; ring.
Qed.

(** With a discount rate [r] the coefficients are those of the discounted
    process: over a short time [h] the average of the discounted values is given
    by the second-, first- and zeroth-order terms, up to [h] squared. *)
Theorem C81_discounting (g : generic) (r : R -> point -> R) (axes : nat -> list R) (k : nat -> nat) (t0 t1 : R) (draws : nat -> samples) (num : nat)
  (c : R) (b : nat -> R) (q : nat -> nat -> R) :
  let d := gdim g in let h := t1 - t0 in let x := mesh axes k in
  let f := quadratic d c b q in
  0 <= h -> (0 < num)%nat -> standard_draws num d (draws 0%nat) ->
  exists zeroth rest, zeroth_order_coeff (Some r) axes t1 = Some zeroth /\ zeroth_order_coeff None axes t1 = None /\
  ((1 - h * r t1 x) * average num (fun s => f (euler_step (sampled g) [t0; t1] draws 0 (fun _ => x) s))
  = f x
    + h * (rsum (fun i => first_order_coeff g axes t1 i k * quadratic_d d b q x i) d
           + rsum (fun i => rsum (fun j => second_order_coeff g axes t1 i j k * quadratic_dd q i j) d) d
           + zeroth k * f x)
    + h * h * rest) /\
  rest = rsum (fun i => rsum (fun j => q i j * (mu g t1 x i * mu g t1 x j)) d) d * (1 - h * r t1 x)
         - r t1 x * (rsum (fun i => first_order_coeff g axes t1 i k * quadratic_d d b q x i) d
                     + rsum (fun i => rsum (fun j => second_order_coeff g axes t1 i j k * quadratic_dd q i j) d) d).
Proof.
  intros d h x f H N Z. assert (E := C81_same_process g axes k t0 t1 draws num c b q H N Z). cbv zeta in E. fold d h x f in E.
  eexists _, _. split; [reflexivity|]. split; [reflexivity|]. split; [|reflexivity]. rewrite E. fold x. ring.
Qed.
Print Assumptions C81_discounting.


(** The matrix of second order coefficients is symmetric and never negative: the
    equation is parabolic in the right direction of time whatever the volatility
    matrix is. *)
Theorem C81_parabolic (g : generic) (axes : nat -> list R) (t : R) (k : nat -> nat) :
  (forall i j, second_order_coeff g axes t i j k = second_order_coeff g axes t j i k)
  /\ forall xi : nat -> R, 0 <= rsum (fun i => rsum (fun j => second_order_coeff g axes t i j k * (xi i * xi j)) (gdim g)) (gdim g).
Proof.
  split; [intros i j; unfold second_order_coeff; f_equal; apply rsum_ext; intros; ring|]. intros xi. unfold second_order_coeff. set (s := sg g t (mesh axes k)). set (d := gdim g).
  apply Rle_trans with (/ 2 * rsum (fun l => rsum (fun i => xi i * s i l) d * rsum (fun i => xi i * s i l) d) d).
  - apply Rmult_le_pos; [lra|]. apply rsum_nonneg. intros l _. apply Rle_0_sqr.
  - right. rewrite <- rsum_scal.
    transitivity (rsum (fun l => rsum (fun i => rsum (fun j => / 2 * (s i l * s j l) * (xi i * xi j)) d) d) d).
    + apply rsum_ext. intros l _. rewrite <- rsum_scal_r. rewrite <- rsum_scal. apply rsum_ext. intros i _. rewrite <- !rsum_scal. apply rsum_ext. intros; ring.
    + rewrite rsum_swap. apply rsum_ext. intros i _. rewrite rsum_swap. apply rsum_ext. intros j _. rewrite rsum_scal_r, rsum_scal. field.
Qed.
Print Assumptions C81_parabolic.

(** ** Values and densities *)
Lemma rev_times (T t : R) (k : nat) : (1 <= k)%nat ->
  map (fun i => T - INR i * ((T - t) / INR k)) (seq 0 (S k)) = rev (map (fun i => t + INR i * ((T - t) / INR k)) (seq 0 (S k))).
Proof.
  intros K. assert (PK : 0 < INR k) by (apply lt_0_INR; lia).
  apply list_ext; [rewrite rev_length, !map_length; reflexivity|]. intros i I. rewrite map_length, seq_length in I.
  rewrite rev_nth by (rewrite map_length, seq_length; exact I). rewrite map_length, seq_length.
  pose (F := fun i => T - INR i * ((T - t) / INR k)). pose (G := fun i => t + INR i * ((T - t) / INR k)). change (nth i (map F (seq 0 (S k))) 0 = nth (S k - S i) (map G (seq 0 (S k))) 0).
  rewrite (nth_indep (map F _) 0 (F 0%nat)) by (rewrite map_length, seq_length; exact I). rewrite (nth_indep (map G _) 0 (G 0%nat)) by (rewrite map_length, seq_length; lia).
  rewrite !map_nth. rewrite !seq_nth by lia. unfold F, G. cbn [plus Nat.sub]. rewrite minus_INR by lia. field. lra.
Qed.

(** The backward solver applied to a payoff and the forward solver applied to an
    initial density give the same price: on an equally spaced grid with the
    default conditions at its ends, for any drift and volatility depending on
    time and space, any number of steps, and the implicit, explicit,
    Crank-Nicolson, weighted or extrapolation scheme, the sum of the values now
    times the density now equals the sum of the payoff times the density at
    expiry. *)
Theorem C81_values_and_densities_partial (g : generic) (T t : R) (xs payoff density values densities : list R) (h : R) (k c c' : nat)
  (scheme : list R -> R -> R -> (R -> option (tridiagonal * list R)) -> option (list R)) fuel tb tf nb nf :
  (exists theta, scheme = weighted_scheme theta) \/ scheme = extrapolation_scheme ->
  0 < h -> equally_spaced xs h -> (4 <= length xs)%nat -> length payoff = length xs -> length density = length xs ->
  0 <= t < T -> (1 <= k)%nat ->
  fd_solver_backward g T t xs payoff None (Some (fun _ => scheme)) None c (Some k) None fuel = Some (Some values, tb, nb) ->
  fd_solver_forward g t T xs density (Some (fun _ => scheme)) None c' (Some k) None fuel = Some (Some densities, tf, nf) ->
  tb = t /\ tf = T /\ pairing (length xs) values density = pairing (length xs) payoff densities.
Proof.
  intros SC Hh E Hn Lp Ld Ht K HB HF. unfold fd_solver_backward, fd_solver_forward in HB, HF. cbn [scheme_or_default boundaries_or_zero] in HB, HF.
  destruct (C49_backward_num_steps (one_step (fun _ => scheme) xs (zero_ends, zero_ends) (backward_coefficients g None xs)) (fun _ v => v) None fuel c (Some payoff) T t k Ht K) as [B _].
  destruct (C49_forward_num_steps (one_step (fun _ => scheme) xs (zero_ends, zero_ends) (forward_coefficients g xs)) (fun _ v => v) None fuel c' (Some density) t T k ltac:(lra) K) as [F _].
  pose proof (eq_trans (eq_sym B) HB) as HB'. pose proof (eq_trans (eq_sym F) HF) as HF'. clear HB HF B F. rename HB' into HB. rename HF' into HF. rewrite (rev_times T t k K) in HB.
  remember (map (fun i => t + INR i * ((T - t) / INR k)) (seq 0 (S k))) as ts eqn:TS. clear TS.
  injection HB as HB <- _. injection HF as HF <- _. split; [reflexivity|]. split; [reflexivity|].
  destruct (march_dual g xs h scheme c c' SC Hh E Hn _ payoff density values densities c' Lp Ld HB HF) as (_ & _ & D). exact D.
Qed.
Print Assumptions C81_values_and_densities_partial.

(** ** Arguments *)
Theorem C81_arguments (dim : Z) drift volatility :
  (forall g, generic_make dim drift volatility = Some g -> (1 <= dim)%Z /\ Z.of_nat (gdim g) = dim /\ drift = Some (mu g) /\ volatility = Some (sg g))
  /\ (generic_make dim drift volatility = None <-> (dim < 1)%Z \/ drift = None \/ volatility = None).
Proof.
  unfold generic_make. destruct (Z.ltb_spec dim 1) as [D|D].
  - split; [discriminate|]. split; auto.
  - destruct drift as [m|], volatility as [s|]; (split; [try discriminate|]).
    + intros g E. assert (g = Generic (Z.to_nat dim) m s) by congruence. subst g. cbn [gdim mu sg]. repeat split; lia.
    + split; [discriminate|]. intros [H|[H|H]]; [lia|discriminate|discriminate].
    + split; auto.
    + split; auto.
    + split; auto.
Qed.
Print Assumptions C81_arguments.

(** ** Concrete runs *)
Definition drift_only := Generic 1 (fun _ _ _ => 1) (fun _ _ _ _ => 0).
Lemma list4 (a b c d a' b' c' d' : R) : a = a' -> b = b' -> c = c' -> d = d' -> [a; b; c; d] = [a'; b'; c'; d'].
Proof. intros -> -> -> ->. reflexivity. Qed.
Ltac explicit_run := unfold_step; unfold explicit_part, zero_ends, dirichlet, backward_coefficients, forward_coefficients, on_grid, second_order_coeff, first_order_coeff;
  destruct (Rlt_dec 1 0); [lra|]; destruct (Rlt_dec 1 1); [lra|]; destruct (Req_EM_T 1 0); [lra|]; cbn; repeat (run; cbn);
  apply f_equal; apply list4; field.
Lemma backward_unequal : parabolic_step explicit_scheme 1 0 [0; 1; 3; 4] [0; 1; 0; 0] zero_ends zero_ends (backward_coefficients drift_only None [0; 1; 3; 4]) = Some [0; 3 / 2; - (1 / 6); 0].
Proof. explicit_run. Qed.
Lemma forward_unequal : parabolic_step explicit_scheme 0 1 [0; 1; 3; 4] [0; 1; 0; 0] zero_ends zero_ends (forward_coefficients drift_only [0; 1; 3; 4]) = Some [0; 1 / 2; 1 / 6; 0].
Proof. explicit_run. Qed.
Lemma backward_equal : parabolic_step explicit_scheme 1 0 [0; 1; 2; 3] [0; 1; 3; 0] zero_ends zero_ends (backward_coefficients (Generic 1 (fun _ x _ => x 0%nat) (fun _ _ _ _ => 1)) None [0; 1; 2; 3]) = Some [0; 3; - (1 / 2); 0].
Proof. explicit_run. Qed.
Lemma forward_equal : parabolic_step explicit_scheme 0 1 [0; 1; 2; 3] [0; 1; 0; 0] zero_ends zero_ends (forward_coefficients (Generic 1 (fun _ x _ => x 0%nat) (fun _ _ _ _ => 1)) [0; 1; 2; 3]) = Some [0; 0; 1; 0].
Proof. explicit_run. Qed.
Lemma one_step_runs g xs vs ps ws qs :
  parabolic_step explicit_scheme 1 0 xs vs zero_ends zero_ends (backward_coefficients g None xs) = Some ws ->
  parabolic_step explicit_scheme 0 1 xs ps zero_ends zero_ends (forward_coefficients g xs) = Some qs ->
  fd_solver_backward g 1 0 xs vs None (Some (fun _ => explicit_scheme)) None 0 (Some 1%nat) None 2 = Some (Some ws, 0, 1%nat)
  /\ fd_solver_forward g 0 1 xs ps (Some (fun _ => explicit_scheme)) None 0 (Some 1%nat) None 2 = Some (Some qs, 1, 1%nat).
Proof.
  intros HB HF. unfold fd_solver_backward, fd_solver_forward. cbn [scheme_or_default boundaries_or_zero].
  destruct (C49_backward_num_steps (one_step (fun _ => explicit_scheme) xs (zero_ends, zero_ends) (backward_coefficients g None xs)) (fun _ v => v) None 2 0 (Some vs) 1 0 1 ltac:(lra) ltac:(lia)) as [B _].
  destruct (C49_forward_num_steps (one_step (fun _ => explicit_scheme) xs (zero_ends, zero_ends) (forward_coefficients g xs)) (fun _ v => v) None 2 0 (Some ps) 0 1 1 ltac:(lra) ltac:(lia)) as [F _].
  split.
  - refine (eq_trans B _). cbn [seq map march INR]. replace (1 - 0 * ((1 - 0) / 1)) with 1 by field. replace (1 - 1 * ((1 - 0) / 1)) with 0 by field.
    unfold one_step. cbn [bind fst snd]. rewrite HB. reflexivity.
  - refine (eq_trans F _). cbn [seq map march INR]. replace (0 + 0 * ((1 - 0) / 1)) with 0 by field. replace (0 + 1 * ((1 - 0) / 1)) with 1 by field.
    unfold one_step. cbn [bind fst snd]. rewrite HF. reflexivity.
Qed.
(** runs that meet the hypotheses of C81_values_and_densities_partial, with a drift that
    depends on the point *)
Example equal_spacing_case : let g := Generic 1 (fun _ x _ => x 0%nat) (fun _ _ _ _ => 1) in
  fd_solver_backward g 1 0 [0; 1; 2; 3] [0; 1; 3; 0] None (Some (fun _ => explicit_scheme)) None 0 (Some 1%nat) None 2 = Some (Some [0; 3; - (1 / 2); 0], 0, 1%nat)
  /\ fd_solver_forward g 0 1 [0; 1; 2; 3] [0; 1; 0; 0] (Some (fun _ => explicit_scheme)) None 0 (Some 1%nat) None 2 = Some (Some [0; 0; 1; 0], 1, 1%nat)
  /\ equally_spaced [0; 1; 2; 3] 1 /\ pairing 4 [0; 3; - (1 / 2); 0] [0; 1; 0; 0] = 3 /\ pairing 4 [0; 1; 3; 0] [0; 0; 1; 0] = 3.
Proof.
  intros g. destruct (one_step_runs g _ _ _ _ _ backward_equal forward_equal) as [A B]. split; [exact A|]. split; [exact B|].
  split; [intros i I; cbn [length] in I; destruct i as [|[|[|i]]]; cbn; try lra; lia|]. split; unfold pairing; cbn; lra.
Qed.

(** On a grid with unequal spacings the two solvers disagree: for the drift 1
    without volatility on the grid 0, 1, 3, 4, the payoff 1 at the point 1 and the
    density 1 at the point 1, one explicit step of length 1 gives the price 3/2
    from the values and 1/2 from the densities. *)
Theorem C81_unequal_spacing_refuted :
  fd_solver_backward drift_only 1 0 [0; 1; 3; 4] [0; 1; 0; 0] None (Some (fun _ => explicit_scheme)) None 0 (Some 1%nat) None 2 = Some (Some [0; 3 / 2; - (1 / 6); 0], 0, 1%nat)
  /\ fd_solver_forward drift_only 0 1 [0; 1; 3; 4] [0; 1; 0; 0] (Some (fun _ => explicit_scheme)) None 0 (Some 1%nat) None 2 = Some (Some [0; 1 / 2; 1 / 6; 0], 1, 1%nat)
  /\ increasing [0; 1; 3; 4] /\ pairing 4 [0; 3 / 2; - (1 / 6); 0] [0; 1; 0; 0] = 3 / 2 /\ pairing 4 [0; 1; 0; 0] [0; 1 / 2; 1 / 6; 0] = 1 / 2.
Proof.
  destruct (one_step_runs drift_only _ _ _ _ _ backward_unequal forward_unequal) as [A B]. split; [exact A|]. split; [exact B|].
  split; [intros i I; cbn [length] in I; destruct i as [|[|[|i]]]; cbn; try lra; lia|]. split; unfold pairing; cbn; lra.
Qed.
Print Assumptions C81_unequal_spacing_refuted.
