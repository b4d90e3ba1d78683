(** Model of tf_quant_finance/math/custom_loops.py.  Definitions only.
    A state is a tuple of [length d] tensors; [d] lists their last dimensions.
    For one batch element, state tensor [a] is the vector [s a]; [p] scalar
    parameters.  Exact reals.  Derivatives of the user's body (tf.GradientTape,
    external) are an argument [step_jac]. *)
From Coq Require Import Reals List Arith.
From Verif Require Import TensorProofs.
Import ListNotations.
Open Scope nat_scope.

Definition state := nat -> nat -> R.
Definition params := nat -> R.
Record mat := Mat { rows : nat; cols : nat; ent : nat -> nat -> R }.
Definition block := list (list mat).
Definition getb (m : block) (i j : nat) : mat := nth j (nth i m []) (Mat 0 0 (fun _ _ => 0%R)).

(** tf.matmul, tf.math.add_n, tf.zeros, tf.eye, tf.reduce_sum (external) *)
Definition matmul (a b : mat) : mat := Mat (rows a) (cols b) (fun i j => rsum (fun k => ent a i k * ent b k j)%R (cols a)).
Definition add_n (ms : list mat) : mat :=
  match ms with
  | [] => Mat 0 0 (fun _ _ => 0%R)
  | m :: _ => Mat (rows m) (cols m) (fun i j => fold_right (fun x acc => (ent x i j + acc)%R) 0%R ms)
  end.
Definition zeros (r c : nat) : mat := Mat r c (fun _ _ => 0%R).
Definition eye (n : nat) : mat := Mat n n (fun i j => if Nat.eqb i j then 1%R else 0%R).
Definition reduce_sum (m : mat) : R := rsum (fun i => rsum (fun j => ent m i j) (cols m)) (rows m).

(** custom_loops.py 297-315, one level of blocks (the assertion that the inner
    sizes agree is not modelled) *)
Definition block_matmul (m1 m2 : block) : block :=
  let i_max := length m1 in
  let k_max := length m2 in
  let j_max := match m2 with [] => 0 | r :: _ => length r end in
  map (fun i => map (fun j => add_n (map (fun k => matmul (getb m1 i k) (getb m2 k j)) (seq 0 k_max))) (seq 0 j_max)) (seq 0 i_max).
(** custom_loops.py 318-335, for two block matrices *)
Definition block_add (m1 m2 : block) : block :=
  let i_max := length m1 in
  let j_max := match m1 with [] => 0 | r :: _ => length r end in
  map (fun i => map (fun j => add_n [getb m1 i j; getb m2 i j]) (seq 0 j_max)) (seq 0 i_max).

(** (d state / d state, d state / d params) *)
Definition jac := (block * block)%type.
(** custom_loops.py 217-240 *)
Definition make_unit_jacobian (d : list nat) (p : nat) : jac :=
  let n := length d in
  (map (fun i => map (fun j => if Nat.eqb i j then eye (nth i d 0) else zeros (nth i d 0) (nth j d 0)) (seq 0 n)) (seq 0 n),
   map (fun i => map (fun _ => zeros (nth i d 0) 1) (seq 0 p)) (seq 0 n)).
(** custom_loops.py 290-294 *)
Definition multiply_jacobians (jac1 jac2 : jac) : jac :=
  let '(js1, jp1) := jac1 in
  let '(js2, jp2) := jac2 in
  (block_matmul js1 js2, block_add (block_matmul js1 jp2) jp1).

(** while_cond / while_body, custom_loops.py 170-187: [fuel] is the number of
    iterations left, [i] the loop variable *)
Fixpoint while_loop {X} (body : nat -> X -> X) (i fuel : nat) (x : X) : X :=
  match fuel with
  | O => x
  | S m => while_loop body (S i) m (body i x)
  end.
Definition while_body (body_fn : nat -> state -> params -> state) (step_jac : nat -> state -> params -> jac) (ps : params)
    (i : nat) (x : state * jac) : state * jac :=
  let '(s, j) := x in (body_fn i s ps, multiply_jacobians (step_jac i s ps) j).
(** custom_loops.py 163-187, scalar num_iterations *)
Definition for_loop body_fn step_jac (d : list nat) (p : nat) (s : state) (ps : params) (num_iterations : nat) : state * jac :=
  while_loop (while_body body_fn step_jac ps) 0 num_iterations (s, make_unit_jacobian d p).

(** custom_loops.py 189-208; the gradients with respect to the state tensors and
    the parameters *)
Definition ws_block (d : list nat) (ws : state) : block :=
  [map (fun a => Mat 1 (nth a d 0) (fun _ r => ws a r)) (seq 0 (length d))].
Definition gradient (d : list nat) (j : jac) (ws : state) : state * params :=
  let '(js, jp) := j in
  let ws_js := block_matmul (ws_block d ws) js in
  let ws_jp := block_matmul (ws_block d ws) jp in
  (fun b k => ent (getb ws_js 0 b) 0 k, fun q => reduce_sum (getb ws_jp 0 q)).
(** the same with [nb] batch elements: the parameters are shared, and
    tf.reduce_sum (line 204) also sums over the batch *)
Definition gradient_batch (d : list nat) (nb : nat) (j : nat -> jac) (ws : nat -> state) : (nat -> state) * params :=
  (fun e => fst (gradient d (j e) (ws e)), fun q => rsum (fun e => snd (gradient d (j e) (ws e)) q) nb).

(** _accumulating_for_loop, custom_loops.py 342-396.  A tf.TensorArray is the
    list of its slots, [None] while unwritten.  tf.scatter_nd adds the updates of
    equal indices.  Writing outside the array fails.  The state and the Jacobian
    are accumulated alike, hence the type parameter [X]. *)
Definition acc_write {X} (acc : list (option X)) (k : nat) (x : X) : option (list (option X)) :=
  if Nat.ltb k (length acc) then Some (firstn k acc ++ Some x :: skipn (S k) acc) else None.
Definition mask_of (num_iterations : list nat) (i : nat) : nat := length (filter (Nat.eqb i) num_iterations).
Fixpoint acc_loop {X} (body : nat -> X -> X) (mask : nat -> nat) (i fuel acc_index : nat) (x : X) (acc : list (option X)) : option (list (option X)) :=
  match fuel with
  | O => Some acc
  | S m =>
      let next := body i x in
      let acc_index := acc_index + mask i in
      match acc_write acc acc_index next with
      | None => None
      | Some acc' => acc_loop body mask (S i) m acc_index next acc'
      end
  end.
Definition accumulating_for_loop {X} (body : nat -> X -> X) (x0 : X) (num_iterations : list nat) : option (list (option X)) :=
  let max_iterations := fold_right Nat.max 0 num_iterations in
  match acc_write (repeat None (length num_iterations)) 0 x0 with
  | None => None
  | Some acc => acc_loop body (mask_of num_iterations) 0 max_iterations 0 x0 acc
  end.
(** custom_loops.py 398-418: sum over the accumulating axis *)
Definition gradient_acc (d : list nat) (js : list jac) (ws : nat -> state) : state * params :=
  (fun b k => rsum (fun e => fst (gradient d (nth e js ([], [])) (ws e)) b k) (length js),
   fun q => rsum (fun e => snd (gradient d (nth e js ([], [])) (ws e)) q) (length js)).
