(** Model of tf_quant_finance/experimental/local_stochastic_volatility
    (local_stochastic_volatility_model.py and lsv_variance_model.py), on exact
    reals, one sample and a variance process of one factor.  [None] is an
    exception.  Definitions only. *)
From Coq Require Import Reals List Bool.
Import ListNotations.
Open Scope R_scope.

(** lsv_variance_model.py 68-87 *)
Record variance_process := mk_variance { vp_drift : R -> R -> R; vp_volatility : R -> R -> R }.
Definition lsv_variance (k m alpha : R) : variance_process :=
  mk_variance (fun _ state => k * (m - state)) (fun _ state => alpha * sqrt state).

(** local_stochastic_volatility_model.py 453-458 and 138-139: the correlation
    matrix and its Cholesky factor, computed entry by entry *)
Definition corr_matrix (rho : R) (i j : nat) : R := if Nat.eqb i j then 1 else rho.
Definition sqrt_rho (rho : R) (i j : nat) : R :=
  let l00 := sqrt (corr_matrix rho 0 0) in
  let l10 := corr_matrix rho 1 0 / l00 in
  match i, j with
  | O, O => l00
  | S _, O => l10
  | O, S _ => 0
  | S _, S _ => sqrt (corr_matrix rho 1 1 - l10 * l10)
  end.

(** 80-167.  A given [dtype] is [true]; without one, line 132 reads an attribute
    that is never set. *)
Record lsv := mk_lsv { m_drift : R -> R * R -> R * R; m_vol : R -> R * R -> nat -> nat -> R }.
Definition zero_or (o : option R) : R := match o with None => 0 | Some x => x end.
Definition new_lsv (leverage : R -> R -> R) (vp : variance_process) (rate dividend rho : option R) (dtype : bool) : option lsv :=
  if dtype then
    let r := zero_or rate in
    let q := zero_or dividend in
    let root := sqrt_rho (zero_or rho) in
    let drift := fun t state => ((r - q) * fst state, vp_drift vp t (snd state)) in
    let vol := fun t state (i j : nat) =>
      let '(spot, variance) := state in
      let spot_diffusion := leverage t spot * spot * sqrt variance in
      let variance_diffusion := vp_volatility vp t variance in
      (* expand_dims at -2: a row, multiplied into every row of the factor *)
      (if Nat.eqb j 0 then spot_diffusion else variance_diffusion) * root i j in
    Some (mk_lsv drift vol)
  else None.

(** 479-507, one coordinate *)
Definition tavella_randell (x_min x_max x_star : R) (num : nat) (alpha : R) : list R :=
  let c1 := arcsinh ((x_min - x_star) / alpha) in
  let c2 := arcsinh ((x_max - x_star) / alpha) in
  map (fun i => x_star + alpha * sinh (c2 * INR i / INR num + c1 * (1 - INR i / INR num))) (seq 0 (num + 1)).
(** 613-646, with the shift and the scale of 668-669 and 700 *)
Definition log_spot_nodes (initial_spot : R) (minimum maximum : option R) (num : nat) : list R :=
  let lo := match minimum with None => 1 / 100 | Some m => m / initial_spot end in
  let hi := match maximum with None => 10 | Some m => m / initial_spot end in
  map (fun x => x + ln initial_spot) (tavella_randell (ln lo) (ln hi) 0 num (3 / 10)).
Definition variance_nodes (initial_variance : R) (minimum maximum : option R) (num : nat) : list R :=
  let lo := match minimum with None => 1 / 10000 | Some m => m / initial_variance end in
  let hi := match maximum with None => 5 | Some m => m / initial_variance end in
  map (fun y => y * initial_variance) (tavella_randell lo hi 1 num (3 / 10)).

(** Grids of [ns + 1] log spots and [nv + 1] variances; the density at variance
    [j] and log spot [i]. *)
Fixpoint total (f : nat -> R) (n : nat) : R := match n with O => 0 | S m => total f m + f m end.
Definition density := nat -> nat -> R.
Definition divide_no_nan (x y : R) : R := if Req_EM_T y 0 then 0 else x / y.
Section Leverage.
Variables (ns nv : nat) (x y : nat -> R).       (* scaled nodes *)
Variables (x_scale y_scale : R).
(** 468-475 *)
Definition two_d_integration (p : density) : R :=
  total (fun i => total (fun j => p j i * (y (S j) - y j)) nv * (x (S i) - x i)) ns.
(** 510-525 at the nodes, where the interpolation returns the data *)
Definition conditional_variance (p : density) (i : nat) : R :=
  let v := fun j => y j * y_scale in
  let integral_0 := total (fun j => p j i * (v (S j) - v j)) nv in
  let integral_1 := total (fun j => v j * p j i * (v (S j) - v j)) nv in
  divide_no_nan integral_1 integral_0.
(** 689-712, at the nodes *)
Definition compute_leverage (local_volatility : R -> R -> R) (t : R) (p : density) (i : nat) : R :=
  let lv := local_volatility t (exp (x i + x_scale)) in
  let lv := if Rlt_dec 10000 (Rabs lv) then 0 else lv in
  divide_no_nan lv (sqrt (conditional_variance p i)).
(** 722-763.  [solve leverage t p] is the forward solver of 723-736, whose
    coefficients read the leverage at the nodes.  The coefficient functions see
    the [leverage_fn] of 651; the one of 744 is a local name of [loop_body].  The
    result is the density and the rows written, for the first [n] passes. *)
Definition after_solve (p : density) : density :=
  let p := fun j i => Rmax (p j i) 0 in
  let area := two_d_integration p in
  fun j i => p j i / area.
Fixpoint leverage_loop (solve : (nat -> R) -> R -> density -> density) (local_volatility : R -> R -> R) (dt : R) (p0 : density) (n : nat) : density * list (nat -> R) :=
  match n with
  | O => (p0, [fun _ => 1])
  | S m =>
      let '(p, rows) := leverage_loop solve local_volatility dt p0 m in
      let t := INR m * dt in
      let p' := after_solve (solve (fun _ => 1) t p) in
      (p', rows ++ [compute_leverage local_volatility (t + dt) p'])
  end.
End Leverage.
