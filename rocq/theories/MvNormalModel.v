(** Model of tf_quant_finance/math/random_ops/multivariate_normal.py, uniform.py
    and stateless.py.  Definitions only.  A tensor is its shape and the value at
    every index.  TensorFlow's generators of normal and uniform numbers and its
    Cholesky factorization are parameters.  [None] is an exception. *)
From Coquelicot Require Import Coquelicot.
From Coq Require Import Reals QArith Qreals ZArith List Bool Arith.
From Verif Require Import ExtReal HaganWestModel BootstrapModel BlackScholesModel SobolModel SobolData HaltonModel.
Import ListNotations.
Open Scope nat_scope.

Record tensor (A : Type) := Tensor { shape : list nat; elt : list nat -> A }.
Arguments Tensor {A}. Arguments shape {A}. Arguments elt {A}.
Definition size (sh : list nat) : nat := fold_right Nat.mul 1 sh.
(** Row-major position of an index and back. *)
Fixpoint ravel (sh idx : list nat) : nat :=
  match sh, idx with _ :: sh', i :: idx' => i * size sh' + ravel sh' idx' | _, _ => 0 end.
Fixpoint unravel (sh : list nat) (k : nat) : list nat :=
  match sh with [] => [] | _ :: sh' => k / size sh' :: unravel sh' (k mod size sh') end.
(** tf.reshape *)
Definition reshape {A} (t : tensor A) (sh : list nat) : tensor A := Tensor sh (fun idx => elt t (unravel (shape t) (ravel sh idx))).
(** tf.transpose: axis i of the result is axis [nth i perm] of the argument *)
Fixpoint index_of (p : nat) (l : list nat) : nat := match l with [] => 0 | x :: r => if Nat.eqb x p then 0 else S (index_of p r) end.
Definition transpose {A} (t : tensor A) (perm : list nat) : tensor A :=
  Tensor (map (fun p => nth p (shape t) 0) perm) (fun idx => elt t (map (fun p => nth (index_of p perm) idx 0) (seq 0 (length (shape t))))).
(** Value of a tensor that is broadcast against a shape with index [idx] *)
Definition bget {A} (t : tensor A) (idx : list nat) : A :=
  elt t (map (fun '(n, i) => if Nat.eqb n 1 then 0 else i) (combine (shape t) (skipn (length idx - length (shape t)) idx))).
(** tf.concat along axis 0 of two tensors of the same shape *)
Definition concat0 {A} (t u : tensor A) : tensor A :=
  let n := nth 0 (shape t) 0 in
  Tensor ((n + n) :: tl (shape t)) (fun idx => match idx with i :: r => if Nat.ltb i n then elt t (i :: r) else elt u (i - n :: r) | [] => elt t [] end).

(** multivariate_normal.py 27-44; [Other] stands for any other value *)
Inductive random_type := PSEUDO | STATELESS | HALTON | HALTON_RANDOMIZED | SOBOL | PSEUDO_ANTITHETIC | STATELESS_ANTITHETIC | Other.

(** tf.math.erfinv: the point where erf reaches y; infinite at -1 and 1. *)
Definition erfinv (y : R) : xr :=
  if Rlt_dec 1 (Rabs y) then NaN else
  match Lub_Rbar (fun x => (erf x < y)%R) with Finite r => Fin r | p_infty => Inf false | m_infty => Inf true end.

Section Generators.
  (** tf.random.normal, tf.random.stateless_normal and the uniform versions:
      seed and shape to values; tf.linalg.cholesky *)
  Variables random_normal random_uniform : option Z -> list nat -> list nat -> R.
  Variables stateless_normal stateless_uniform : Z -> list nat -> list nat -> R.
  Variable cholesky : tensor R -> option (tensor R).

  (** multivariate_normal.py 427-451: mean, scale, batch shape (with the
      dimension of the samples) and dimension *)
  Definition process_mean_scale (mean scale cov : option (tensor R)) : option (option (tensor R) * option (tensor R) * list nat * nat) :=
    let scale := match scale, cov with
                 | Some s, _ => Some (Some s)
                 | None, Some c => option_map Some (cholesky c)
                 | None, None => Some None
                 end in
    match scale with
    | None => None
    | Some scale =>
        match mean, scale with
        | None, Some s => Some (None, scale, removelast (shape s), last (shape s) 0)
        | None, None => None
        | Some m, _ => Some (mean, scale, shape m, last (shape m) 0)
        end
    end.
  (** multivariate_normal.py 270-273 and 421-424: mean + scale * samples; a
      missing mean is the number 0.0.  Simplification: mean and scale must
      broadcast to the shape of the samples. *)
  Definition shift_scale (mean scale : option (tensor R)) (samples : tensor xr) : tensor xr :=
    let scaled idx := match scale with
                      | None => elt samples idx
                      | Some s => xsum (map (fun l => Fin (bget s (idx ++ [l])) *x elt samples (removelast idx ++ [l])) (seq 0 (last (shape s) 0)))
                      end in
    Tensor (shape samples) (fun idx => match mean with None => Fin 0 | Some m => Fin (bget m idx) end +x scaled idx).
  (** multivariate_normal.py 248-273 *)
  Definition mvnormal_pseudo (sample_shape : list nat) (mean cov scale : option (tensor R)) (stateless : bool) (seed : option Z) : option (tensor xr) :=
    match process_mean_scale mean scale cov with
    | None => None
    | Some (mean, scale, batch_shape, _) =>
        let output_shape := sample_shape ++ batch_shape in
        match stateless, seed with
        | false, _ => Some (shift_scale mean scale (Tensor output_shape (fun i => Fin (random_normal seed output_shape i))))
        | true, None => None
        | true, Some s => Some (shift_scale mean scale (Tensor output_shape (fun i => Fin (stateless_normal s output_shape i))))
        end
    end.
  (** multivariate_normal.py 276-311 *)
  Definition mvnormal_antithetic (sample_shape : list nat) (mean cov scale : option (tensor R)) (stateless : bool) (seed : option Z) : option (tensor xr) :=
    match sample_shape with
    | [] => None
    | n :: rest =>
        if negb (Nat.eqb (n mod 2) 0) then None else
        match mvnormal_pseudo (n / 2 :: rest) mean cov scale stateless seed with
        | None => None
        | Some result =>
            Some (concat0 result (Tensor (shape result) (fun idx =>
              match mean with None => xopp (elt result idx) | Some m => Fin 2 *x Fin (bget m idx) -x elt result idx end)))
        end
    end.
  (** multivariate_normal.py 376-405: the sequence, [num_samples, dim] *)
  Definition low_discrepancy (ty : random_type) (dim num_samples skip : nat) (randomization_params : option (list Z * list Q)) : list (list Q) :=
    match ty with
    | SOBOL => sobol_sample dim num_samples skip joe_kuo
    | HALTON_RANDOMIZED => halton_sample dim (map Z.of_nat (seq skip num_samples)) randomization_params
    | _ => halton_sample dim (map Z.of_nat (seq skip num_samples)) None
    end.
  (** multivariate_normal.py 407-417 *)
  Definition arrange (sample_shape batch_shape : list nat) (points : tensor R) : tensor R :=
    let t := transpose points [1; 0] in
    let output_shape_t := rev batch_shape ++ sample_shape in
    let size_sample := length sample_shape in
    let size_batch := length batch_shape in
    let permutation := seq size_batch size_sample ++ rev (seq 0 size_batch) in
    transpose (reshape t output_shape_t) permutation.
  (** multivariate_normal.py 314-424.  The randomization that is drawn when
      none is given is represented by [randomization_params]. *)
  Definition mvnormal_quasi (sample_shape : list nat) (mean cov scale : option (tensor R)) (ty : random_type) (skip : nat)
      (randomization_params : option (list Z * list Q)) : option (tensor xr) :=
    match process_mean_scale mean scale cov with
    | None => None
    | Some (mean, scale, batch_shape, dim) =>
        let num_samples := size (rev batch_shape ++ sample_shape) / dim in
        let points := low_discrepancy ty dim num_samples skip randomization_params in
        let low_discrepancy_seq := arrange sample_shape batch_shape (Tensor [num_samples; dim] (fun idx => Q2R (nth (nth 1 idx 0) (nth (nth 0 idx 0) points []) 0%Q))) in
        let samples := Tensor (shape low_discrepancy_seq) (fun idx => erfinv ((elt low_discrepancy_seq idx - / 2) * 2)%R *x Fin (sqrt 2)) in
        Some (shift_scale mean scale samples)
    end.
  (** multivariate_normal.py 47-245 *)
  Definition multivariate_normal (sample_shape : list nat) (mean cov scale : option (tensor R)) (ty : option random_type) (seed : option Z)
      (skip : nat) (randomization_params : option (list Z * list Q)) : option (tensor xr) :=
    match mean, cov, scale with
    | None, None, None => None
    | _, Some _, Some _ => None
    | _, _, _ =>
        match ty with
        | None | Some PSEUDO => mvnormal_pseudo sample_shape mean cov scale false seed
        | Some STATELESS => mvnormal_pseudo sample_shape mean cov scale true seed
        | Some PSEUDO_ANTITHETIC => mvnormal_antithetic sample_shape mean cov scale false seed
        | Some STATELESS_ANTITHETIC => mvnormal_antithetic sample_shape mean cov scale true seed
        | Some SOBOL => mvnormal_quasi sample_shape mean cov scale SOBOL skip randomization_params
        | Some HALTON => mvnormal_quasi sample_shape mean cov scale HALTON skip randomization_params
        | Some HALTON_RANDOMIZED => mvnormal_quasi sample_shape mean cov scale HALTON_RANDOMIZED skip randomization_params
        | Some Other => None
        end
    end.

  (** uniform.py 117-153 *)
  Definition quasi_uniform (dim : nat) (sample_shape : list nat) (ty : random_type) (skip : nat) (randomization_params : option (list Z * list Q)) : tensor R :=
    let num_samples := size sample_shape in
    let points := low_discrepancy ty dim num_samples skip randomization_params in
    reshape (Tensor [num_samples; dim] (fun idx => Q2R (nth (nth 1 idx 0) (nth (nth 0 idx 0) points []) 0%Q))) (sample_shape ++ [dim]).
  (** uniform.py 24-114 *)
  Definition uniform (dim : nat) (sample_shape : list nat) (ty : option random_type) (seed : option Z)
      (skip : nat) (randomization_params : option (list Z * list Q)) : option (tensor R) :=
    let shp := sample_shape ++ [dim] in
    match ty with
    | None | Some PSEUDO => Some (Tensor shp (random_uniform seed shp))
    | Some STATELESS => match seed with None => None | Some s => Some (Tensor shp (stateless_uniform s shp)) end
    | Some PSEUDO_ANTITHETIC => None
    | Some t => Some (quasi_uniform dim sample_shape t skip randomization_params)
    end.

  (** tf.argsort with stable=True: insertion of (value, index) pairs *)
  Fixpoint insert_pair (x : R * nat) (l : list (R * nat)) : list (R * nat) :=
    match l with [] => [x] | y :: r => if Rle_dec (fst x) (fst y) then x :: l else y :: insert_pair x r end.
  Definition argsort (values : list R) : list nat := map snd (fold_right insert_pair [] (combine values (seq 0 (length values)))).
  (** stateless.py 25-52, the rows of the input *)
  Definition stateless_random_shuffle {A} (d : A) (input : list A) (seed : Z) : list A :=
    let n := length input in
    let uniforms := map (fun i => stateless_uniform seed [n] [i]) (seq 0 n) in
    map (fun i => nth i input d) (argsort uniforms).
End Generators.
