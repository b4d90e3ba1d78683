(** Model of tf_quant_finance/models/joined_ito_process.py.  Definitions only.
    Processes, states and draws as in EulerModel.v; a coordinate beyond the
    dimension of a process reads 0.  A correlation block is its size and a
    function of time, constant for a given tensor. *)
From Coq Require Import Reals List Bool Arith.
From Verif Require Import TensorProofs EulerModel.
Import ListNotations.
Open Scope R_scope.

Definition matrix_block := (nat * (nat -> nat -> R))%type.
Definition corr_block := (nat * (R -> nat -> nat -> R))%type.

(** x[..., i1:i2] *)
Definition position (i1 d : nat) (x : samples) : samples := fun s c => if Nat.ltb c d then x s (i1 + c)%nat else 0.

(** joined_ito_process.py 162-177: the drifts of the slices, concatenated *)
Fixpoint joined_drift (ps : list process) (i1 : nat) (t : R) (x : samples) (s c : nat) : R :=
  match ps with
  | [] => 0
  | p :: r =>
      if Nat.ltb c (dim p) then drift_fn p t (position i1 (dim p) x) s c
      else joined_drift r (i1 + dim p) t x s (c - dim p)
  end.
(** 184-193: the volatility matrices of the slices *)
Fixpoint joined_vols (ps : list process) (i1 : nat) (t : R) (x : samples) (s : nat) : list matrix_block :=
  match ps with
  | [] => []
  | p :: r => (dim p, volatility_fn p t (position i1 (dim p) x) s) :: joined_vols r (i1 + dim p) t x s
  end.
(** models/utils.py 323-326 *)
Fixpoint block_diagonal (ms : list matrix_block) (i j : nat) : R :=
  match ms with
  | [] => 0
  | (d, m) :: r =>
      if Nat.ltb i d then (if Nat.ltb j d then m i j else 0)
      else if Nat.ltb j d then 0 else block_diagonal r (i - d) (j - d)
  end.
Fixpoint total_dim (ps : list process) : nat := match ps with [] => 0 | p :: r => dim p + total_dim r end.
Fixpoint corr_dim (corr : list corr_block) : nat := match corr with [] => 0 | (d, _) :: r => d + corr_dim r end.

Section Joined.
(** tf.linalg.cholesky of a matrix of the given size (external) *)
Variable cholesky : nat -> (nat -> nat -> R) -> nat -> nat -> R.
(** 197-200 and 291-305 *)
Definition cholesky_decomp (corr : list corr_block) (t : R) : nat -> nat -> R :=
  block_diagonal (map (fun '(d, m) => (d, cholesky d (m t))) corr).
(** 179-201 *)
Definition joined_volatility (ps : list process) (corr : list corr_block) (t : R) (x : samples) (s i j : nat) : R :=
  rsum (fun k => block_diagonal (joined_vols ps 0 t x s) i k * cholesky_decomp corr t k j) (total_dim ps).
(** 140-204; the product of matrices of different sizes is refused *)
Definition joined_process (ps : list process) (corr : list corr_block) : option process :=
  if Nat.eqb (corr_dim corr) (total_dim ps)
  then Some (Process (total_dim ps) (joined_drift ps 0) (joined_volatility ps corr))
  else None.
(** 206-288; [tolerance] is the default of euler_sampling.sample *)
Definition joined_sample_paths (ps : list process) (corr : list corr_block) (times : list R) (time_step : option R) (tolerance : R)
    (draws : nat -> samples) (x0 : samples) : option (list (option samples)) :=
  match time_step with
  | None => None
  | Some _ =>
      match joined_process ps corr with
      | None => None
      | Some p => euler_sample p times time_step None None tolerance false false draws x0
      end
  end.
End Joined.
