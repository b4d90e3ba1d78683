(** Model of tf_quant_finance/models/utils.py (draws, cumulative sums and
    products, updates along an axis) and of the two geometric Brownian motions in
    models/geometric_brownian_motion.  Definitions only.  Python lists of
    parameters that broadcast over coordinates are functions of the coordinate.
    [None] is an exception. *)
From Coq Require Import Reals QArith ZArith List Bool Arith String.
From Verif Require Import ExtReal HaganWestModel BootstrapModel BlackScholesModel TensorModel PiecewiseModel MvNormalModel.
Import ListNotations.
Open Scope nat_scope.

Section Draws.
  Variable random_normal : option Z -> list nat -> list nat -> R.
  Variable stateless_normal : Z -> list nat -> list nat -> R.
  Variable cholesky : tensor R -> option (tensor R).

  Definition antithetic (ty : option random_type) : bool := match ty with Some PSEUDO_ANTITHETIC | Some STATELESS_ANTITHETIC => true | _ => false end.
  (** models/utils.py 83-128 *)
  Definition generate_mc_normal_draws (num_normal_draws num_time_steps num_sample_paths : nat) (ty : option random_type) (batch_shape : list nat)
      (skip : nat) (seed : option Z) (randomization_params : option (list Z * list Q)) : option (tensor xr) :=
    let total_dimension := Tensor [num_time_steps * num_normal_draws] (fun _ => 0%R) in
    let is_antithetic := antithetic ty in
    let sample_shape := if is_antithetic then num_sample_paths :: batch_shape else batch_shape ++ [num_sample_paths] in
    match multivariate_normal random_normal stateless_normal cholesky sample_shape (Some total_dimension) None None ty seed skip randomization_params with
    | None => None
    | Some normal_draws =>
        let normal_draws := reshape normal_draws (sample_shape ++ [num_time_steps; num_normal_draws]) in
        let rank := List.length (shape normal_draws) in
        let perm := if is_antithetic && Nat.ltb 3 rank then [rank - 2] ++ seq 1 (rank - 3) ++ [0; rank - 1]
                    else [rank - 2] ++ seq 0 (rank - 2) ++ [rank - 1] in
        Some (transpose normal_draws perm)
    end.
End Draws.

(** models/utils.py 181-206; [axis] is not negative.  The new tensor is
    broadcast against the old one. *)
Definition maybe_update_along_axis {A} (t new_t : tensor A) (axis : nat) (ind : Z) (do_update : bool) : tensor A :=
  let size_along_axis := nth axis (shape t) 0 in
  if Nat.ltb 1 size_along_axis then
    if do_update then
      let one_hot i := Z.eqb (Z.of_nat i) ind in
      Tensor (shape t) (fun idx => if one_hot (nth axis idx 0) then bget new_t idx else elt t idx)
    else t
  else new_t.

(** tf.linalg.band_part(ones, -1, 0) *)
Definition lower_triangular (i j : nat) : R := if Nat.leb j i then 1%R else 0%R.
(** models/utils.py 329-336 for one row; also used at
    univariate_geometric_brownian_motion.py 310-314 and
    multivariate_geometric_brownian_motion.py 275-279 *)
Definition cumsum_using_matvec (x : list xr) : list xr :=
  let n := List.length x in
  map (fun i => xsum (map (fun j => Fin (lower_triangular i j) *x nth j x NaN) (seq 0 n))) (seq 0 n).
(** models/utils.py 339-346 *)
Definition cumprod_using_matvec (x : list xr) : list xr := map xexp (cumsum_using_matvec (map xln x)).

(** ** univariate_geometric_brownian_motion.py *)
(** A constant or a piecewise constant function of time (lines 92-99), for one
    batch element. *)
Inductive param := Const (c : R) | Piecewise (f : pw).
Definition param_at (p : param) (t : R) : R := match p with Const c => c | Piecewise f => pw_call f true t end.
(** lines 240-259 *)
Definition integrate_parameter (x : param) (t0 t1 : R) : R := match x with Const c => (c * (t1 - t0))%R | Piecewise f => pw_integrate f t0 t1 end.
(** lines 319-340 *)
Definition volatility_squared (v : param) : param :=
  match v with Const c => Const (c ^ 2)%R | Piecewise f => Piecewise (PW (jumps f) (map (fun x => x ^ 2)%R (pvalues f))) end.
Record gbm := GBM { gbm_mean : param; gbm_volatility : param }.
(** lines 127-138 and 140-153 *)
Definition gbm_drift_fn (p : gbm) (t x : R) : R := (param_at (gbm_mean p) t * x)%R.
Definition gbm_volatility_fn (p : gbm) (t x : R) : R := (param_at (gbm_volatility p) t * x)%R.
(** lines 288-316: one path, from its draws *)
Definition gbm_path (p : gbm) (times : list R) (initial_state : R) (draws : list xr) : list xr :=
  let all := 0%R :: times in
  let steps := combine (removelast all) times in
  let mean_integral := map (fun '(t0, t1) => integrate_parameter (gbm_mean p) t0 t1) steps in
  let volatility_sq_integral := map (fun '(t0, t1) => integrate_parameter (volatility_squared (gbm_volatility p)) t0 t1) steps in
  let log_increments := map (fun '((m, v), z) => (Fin m -x Fin v /x Fin 2) +x xsqrt (Fin v) *x z) (combine (combine mean_integral volatility_sq_integral) draws) in
  map (fun c => Fin initial_state *x xexp c) (cumsum_using_matvec log_increments).
(** lines 216-238 and 261-317.  The draws are the given tensor of shape
    [num_samples, num_time_points, 1], or are generated (tensor of shape
    [num_time_points, num_samples, 1]).  Simplification: one time point in the
    draws for several times (which TensorFlow would broadcast) is refused. *)
Definition gbm_sample_paths (rn : option Z -> list nat -> list nat -> R) (sn : Z -> list nat -> list nat -> R)
    (p : gbm) (times : list R) (initial_state : option (nat -> R)) (num_samples : nat) (ty : option random_type) (seed : option Z) (skip : nat)
    (rp : option (list Z * list Q)) (normal_draws : option (tensor R)) : option (tensor xr) :=
  let k := List.length times in
  let x0 s := match initial_state with Some f => f s | None => 1%R end in
  match normal_draws with
  | Some d =>
      match shape d with
      | [n; k'; 1] => if Nat.eqb k' k then
          Some (Tensor [n; k; 1] (fun idx => nth (nth 1 idx 0) (gbm_path p times (x0 (nth 0 idx 0)) (map (fun j => Fin (elt d [nth 0 idx 0; j; 0])) (seq 0 k))) NaN))
          else None
      | _ => None
      end
  | None =>
      match generate_mc_normal_draws rn sn (fun _ => None) 1 k num_samples ty [] skip seed rp with
      | None => None
      | Some d => Some (Tensor [num_samples; k; 1] (fun idx =>
          nth (nth 1 idx 0) (gbm_path p times (x0 (nth 0 idx 0)) (map (fun j => elt d [j; nth 0 idx 0; 0]) (seq 0 k))) NaN))
      end
  end.

(** ** multivariate_geometric_brownian_motion.py *)
Record mgbm := MGBM { m_dim : nat; m_means : nat -> R; m_vols : nat -> R; m_corr : option (tensor R) }.
(** lines 100-116 *)
Definition mgbm_make (dim : nat) (means vols : nat -> R) (corr_matrix : option (tensor R)) : option mgbm :=
  match corr_matrix with
  | Some c => if list_eq_dec Nat.eq_dec (shape c) [dim; dim] then Some (MGBM dim means vols corr_matrix) else None
  | None => Some (MGBM dim means vols None)
  end.
(** lines 130-136 and 138-151: row a, column b of the volatility matrix *)
Definition mgbm_drift_fn (p : mgbm) (x : nat -> R) (a : nat) : R := (m_means p a * x a)%R.
Definition mgbm_volatility_fn (cholesky : tensor R -> option (tensor R)) (p : mgbm) (x : nat -> R) : option (nat -> nat -> R) :=
  match m_corr p with
  | Some c => option_map (fun l a b => (m_vols p a * x a * elt l [a; b])%R) (cholesky c)
  | None => Some (fun a b => if Nat.eqb a b then (m_vols p a * x a)%R else 0%R)
  end.
(** Broadcasting of one axis. *)
Definition bdim (a b : nat) : option nat := if Nat.eqb a b then Some a else if Nat.eqb a 1 then Some b else if Nat.eqb b 1 then Some a else None.
Definition bidx (n s : nat) : nat := if Nat.eqb n 1 then 0 else s.
(** lines 205-282.  [initial_state] has a number of rows (1 when it has no
    sample axis) and a value for each row and coordinate. *)
Definition mgbm_sample_paths (rn : option Z -> list nat -> list nat -> R) (sn : Z -> list nat -> list nat -> R) (cholesky : tensor R -> option (tensor R))
    (p : mgbm) (times : list R) (initial_state : option (nat * (nat -> nat -> R))) (num_samples : nat) (ty : option random_type) (seed : option Z) (skip : nat)
    (rp : option (list Z * list Q)) (normal_draws : option (tensor R)) : option (tensor xr) :=
  let k := List.length times in
  let dim := m_dim p in
  (* lines 211-220 *)
  let initial_rows := match initial_state with Some (r, _) => bdim r num_samples | None => Some num_samples end in
  let x0 s a := match initial_state with Some (r, f) => f (bidx r s) a | None => 1%R end in
  (* lines 239-255: number of samples, values at [time, sample, coordinate] *)
  let draws := match normal_draws with
               | Some d => match shape d with
                           | [n; k'; dd] => if Nat.eqb dd dim && Nat.eqb k' k then Some (n, fun j s a => Fin (elt d [s; j; a])) else None
                           | _ => None
                           end
               | None => option_map (fun d => (num_samples, fun j s a => elt d [j; s; a])) (generate_mc_normal_draws rn sn (fun _ => None) dim k num_samples ty [] skip seed rp)
               end in
  (* lines 261-265 *)
  let factor := match m_corr p with None => Some None | Some c => option_map Some (cholesky c) end in
  match initial_rows, draws, factor with
  | Some rows0, Some (n, z), Some l =>
      let stochastic_increment j s a := match l with
        | None => z j s a
        | Some l => xsum (map (fun b => Fin (elt l [a; b]) *x z j s b) (seq 0 dim))
        end in
      let all := 0%R :: times in
      let dt j := (nth j times 0 - nth j all 0)%R in
      let log_increment s a j := Fin ((m_means p a - m_vols p a ^ 2 / 2) * dt j)%R +x xsqrt (Fin (dt j)) *x Fin (m_vols p a) *x stochastic_increment j s a in
      (* line 281: the rows of the initial state and of the draws broadcast *)
      option_map (fun rows => Tensor [rows; k; dim] (fun idx =>
        let s := nth 0 idx 0 in let a := nth 2 idx 0 in
        Fin (x0 s a) *x xexp (nth (nth 1 idx 0) (cumsum_using_matvec (map (log_increment (bidx n s) a) (seq 0 k))) NaN))) (bdim rows0 n)
  | _, _, _ => None
  end.

(** ** Attributes of the process objects *)
Open Scope string_scope.
(** Attributes set in the constructors (lines 90-105; 100-116), methods of the
    class and of its base class ito_process.ItoProcess. *)
Definition ito_methods := ["name"; "dim"; "dtype"; "drift_fn"; "volatility_fn"; "sample_paths"; "fd_solver_backward"; "fd_solver_forward"].
Definition gbm_attributes := (["_name"; "_mean"; "_mean_is_constant"; "_dtype"; "_volatility"; "_volatility_is_constant"; "_volatility_squared"; "_dim";
  "drift_is_constant"; "volatility_is_constant"; "_integrate_parameter"; "_sample_paths"; "_volatility_squared_from_volatility"] ++ ito_methods)%list.
Definition mgbm_attributes := (["_name"; "_means"; "_dtype"; "_vols"; "_dim"; "_corr_matrix"; "_sample_paths"] ++ ito_methods)%list.
Definition getattr (attributes : list string) (name : string) : option unit := if in_dec string_dec name attributes then Some tt else None.
(** lines 486-506 (univariate), 450-470 (multivariate) and the forward solvers
    644-670, 620-646: the coefficients come from self._drift_fn and
    self._volatility_fn.  [solve] is the rest of the method. *)
Definition fd_solver {A} (attributes : list string) (solve : unit -> unit -> option A) : option A :=
  match getattr attributes "_drift_fn" with
  | None => None
  | Some d => match getattr attributes "_volatility_fn" with None => None | Some v => solve d v end
  end.
