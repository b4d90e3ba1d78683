(** The Cox-Ingersoll-Ross model.
    tf_quant_finance/models/cir/cir_model.py.  One batch element and one sample:
    all operations on them are elementwise. *)
From Coq Require Import Reals List Bool ZArith.
From Verif Require Import BrentModel RandomProg.
Import ListNotations.
Open Scope R_scope.

(** lines 98-107: drift a - k x *)
Definition cir_drift (theta k x : R) : R := theta - k * x.
(** lines 109-116: volatility sigma sqrt x (a 1 by 1 matrix) *)
Definition cir_volatility (sigma x : R) : R := sigma * sqrt x.

(** tf.math.divide_no_nan *)
Definition divide_no_nan (a b : R) : R := if Req_EM_T b 0 then 0 else a / b.
(** lines 255-257 *)
Definition cir_zeta (k dt : R) : R := if Req_EM_T k 0 then dt else (1 - exp (- k * dt)) / k.
(** lines 258-259 *)
Definition cir_c (k sigma dt : R) : R := divide_no_nan 4 (sigma ^ 2 * cir_zeta k dt).

(** lines 319-340: what the generators are called with.  A stateless generator is
    called with a pair; the other with the seed of the caller and its own state,
    here the number of the step. *)
Inductive draw_key := Stateless (s0 s1 : Z) | Stateful (seed : option Z) (call : nat).
(** lines 334 and 338-339 *)
Inductive random_type := PSEUDO | STATELESS | OTHER.
Inductive seed_arg := NoSeed | IntSeed (s : Z) | PairSeed (s0 s1 : Z).
(** lines 319-340: the two functions of the seed and the step, None: ValueError.
    A pair as seed of the stateful generators and an integer as seed of the
    stateless ones fail in TensorFlow: None. *)
Definition seed_fns (rt : random_type) (seed : seed_arg) : option ((nat -> draw_key) * (nat -> draw_key)) :=
  match rt, seed with
  | STATELESS, PairSeed s0 s1 => Some (fun i => Stateless s0 (s1 + Z.of_nat i), fun i => Stateless (s0 + 1) (s1 + Z.of_nat i))
  | PSEUDO, NoSeed => Some (fun i => Stateful None i, fun i => Stateful None i)
  | PSEUDO, IntSeed s => Some (fun i => Stateful (Some s) i, fun i => Stateful (Some s) i)
  | _, _ => None
  end.

(** lines 252-281, one step.  The code draws also when c is not positive and
    discards what it drew (line 278); then no draw has an effect and the model
    makes none.  Line 268: the shape of the gamma variable. *)
Definition cir_step (theta k sigma : R) (pkey gkey : draw_key) (dt x : R) : prog draw_key R :=
  let c := cir_c k sigma dt in
  let d := c * exp (- k * dt) in
  if rlt 0 c then
    Poisson pkey (d * x / 2) (fun n =>
      Gamma gkey (INR n + 2 * theta / sigma ^ 2) (c / 2) (fun g => Ret g))
  else Ret x.

(** lines 283-292: the loop; the states are written at the positions 0, 1, ... in
    order, so that the array is a list that grows. *)
Fixpoint cir_loop (theta k sigma : R) (pkeys gkeys : nat -> draw_key) (dts : list R) (fuel i : nat) (x : R) (samples : list R) : prog draw_key (list R) :=
  match fuel with
  | O => Ret samples
  | S fuel =>
      if (i <? length dts)%nat then
        bind (cir_step theta k sigma (pkeys i) (gkeys i) (nth i dts 0) x)
             (fun x' => cir_loop theta k sigma pkeys gkeys dts fuel (S i) x' (samples ++ [x']))
      else Ret samples
  end.
(** lines 244-248: times[1:] - times[:-1] after 0 is put in front *)
Fixpoint increments (prev : R) (times : list R) : list R :=
  match times with [] => [] | t :: r => (t - prev) :: increments t r end.

(** lines 120-228 and 230-300; [initial_state = None] means 1 (line 200), a missing
    random type PSEUDO (line 211), lines 213-215: a stateless generator needs a seed. *)
Definition cir_sample_paths (theta k sigma : R) (times : list R) (initial_state : option R) (rt : option random_type) (seed : seed_arg)
  : option (prog draw_key (list R)) :=
  let x0 := match initial_state with None => 1 | Some x => x end in
  let rt := match rt with None => PSEUDO | Some r => r end in
  match rt, seed with
  | STATELESS, NoSeed => None
  | _, _ =>
      match seed_fns rt seed with
      | None => None
      | Some (pkeys, gkeys) =>
          let dts := increments 0 times in
          Some (cir_loop theta k sigma pkeys gkeys dts (length times) 0 x0 [])
      end
  end.
