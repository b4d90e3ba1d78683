(** Model of tf_quant_finance/black_scholes/brownian_bridge.py for one element
    of the batch, over exact reals.  Definitions only.  The division by a zero
    variance is not modelled; the theorems assume a positive variance. *)
From Coq Require Import Reals List ZArith.
Import ListNotations.
Open Scope R_scope.

(** brownian_bridge.py 104-124; [n_cutoff] is a natural number. *)
Definition brownian_bridge_double (x_start x_end variance upper_barrier lower_barrier : R) (n_cutoff : nat) : R :=
  let barrier_diff := upper_barrier - lower_barrier in
  let ks := map (fun i => IZR (Z.of_nat i - Z.of_nat n_cutoff)) (seq 0 (2 * n_cutoff + 1)) in
  let output := map (fun k =>
    let a := k * barrier_diff * (k * barrier_diff + (x_end - x_start)) in
    let b := (k * barrier_diff + x_start - upper_barrier) * (k * barrier_diff + (x_end - upper_barrier)) in
    exp (-2 * a / variance) - exp (-2 * b / variance)) ks in
  fold_right Rplus 0 output.

(** brownian_bridge.py 189-196. *)
Definition brownian_bridge_single (x_start x_end variance barrier : R) : R :=
  let a := (x_start - barrier) * (x_end - barrier) in
  1 - exp (-2 * a / variance).
