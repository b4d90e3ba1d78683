(** Model of tf_quant_finance/math/integration/gauss_kronrod.py and
    adaptive_update.py.  Definitions only.  The batch is a list of rows. *)
From Coq Require Import Reals List Bool ZArith QArith.
From Verif Require Import TensorModel InterpModel BrentModel ExtReal IntegrateModel GaussData.
Import ListNotations.
Open Scope R_scope.

(** gauss_kronrod.py 11-96 for one interval: the estimate and the function
    values; [None] is a ValueError. *)
Definition non_adaptive_gauss_kronrod (func : R -> R) (lower upper : R) (num_points : nat) : option (R * list R) :=
  match get legendre_roots ((num_points - 1) / 2), get stieltjes_roots num_points, get kronrod_weights num_points with
  | Some legendre, Some stieltjes, Some weights =>
      let roots := legendre ++ stieltjes in
      let grid := map (fun root => ((upper - lower) * root + upper + lower) / 2) roots in
      let func_results := map func grid in
      Some (reduce_sum (vzip (fun fx w => fx * (upper - lower) * w / 2) func_results weights), func_results)
  | _, _, _ => None
  end.

(** gauss_kronrod.py 174-188: the estimate and its error. *)
Definition estimate_and_error (func : R -> R) (num_points : nat) (lower upper : R) : option (R * R) :=
  let legendre_num_points := ((num_points - 1) / 2)%nat in
  match non_adaptive_gauss_kronrod func lower upper num_points, get legendre_weights legendre_num_points with
  | Some (kronrod_result, func_results), Some legendre_weights =>
      let legendre_func_results := firstn legendre_num_points func_results in
      let legendre_result := reduce_sum (vzip (fun fx w => fx * (upper - lower) * w / 2) legendre_func_results legendre_weights) in
      Some (kronrod_result, Rabs (kronrod_result - legendre_result))
  | _, _ => None
  end.

(** tf.math.top_k(keys, k).indices: the indices of the k largest keys.  The
    order among the chosen (unspecified with sorted=False) is taken to be
    descending, the lower index first among equals; NaN counts as the least. *)
Definition key_lt (a b : xr) : bool := match a, b with NaN, NaN => false | NaN, _ => true | _, NaN => false | _, _ => xlt a b end.
Fixpoint insert_desc (keys : list xr) (i : nat) (l : list nat) : list nat :=
  match l with
  | [] => [i]
  | j :: r => if key_lt (nth i keys NaN) (nth j keys NaN) then j :: insert_desc keys i r else i :: j :: r
  end.
Definition argsort_desc (keys : list xr) : list nat := fold_right (insert_desc keys) [] (seq 0 (length keys)).
Definition top_k (keys : list xr) (k : nat) : list nat := firstn k (argsort_desc keys).
(** tf.gather along the last axis. *)
Definition gather (l : list R) (idx : list nat) : list R := map (fun i => nth i l 0) idx.

(** A row of the loop state: the subintervals and the sum of estimates. *)
Record krow := KRow { klower : list R; kupper : list R; ksum : R }.

(** adaptive_update.py 66: error / estimate. *)
Definition relative_error (estimate error : R) : xr := xdiv (Fin error) (Fin estimate).
(** adaptive_update.py 67, 74-75 for one row. *)
Definition count_bad (tolerance : R) (relative : list xr) : nat := length (filter (fun r => xlt (Fin tolerance) r) relative).
(** adaptive_update.py 78-99 for one row. *)
Definition update_row (num_bad : nat) (lower upper estimate : list R) (relative : list xr) : list R * list R * R :=
  let indices := top_k relative num_bad in
  let sum_all := reduce_sum estimate in
  let sum_bad := reduce_sum (gather estimate indices) in
  let sum_goods := sum_all - sum_bad in
  let filtered_lower := gather lower indices in
  let filtered_upper := gather upper indices in
  let mid_points := vzip (fun l u => (l + u) / 2) filtered_lower filtered_upper in
  let new_lower := filtered_lower ++ mid_points in
  let new_upper := mid_points ++ filtered_upper in
  (new_lower, new_upper, sum_goods).

(** The estimates and errors of a row. *)
Fixpoint row_estimates (func : R -> R) (num_points : nat) (lower upper : list R) : option (list (R * R)) :=
  match lower, upper with
  | l :: lower, u :: upper =>
      match estimate_and_error func num_points l u, row_estimates func num_points lower upper with
      | Some e, Some es => Some (e :: es)
      | _, _ => None
      end
  | _, _ => Some []
  end.
Fixpoint all_some {A} (l : list (option A)) : option (list A) :=
  match l with [] => Some [] | Some a :: r => option_map (cons a) (all_some r) | None :: _ => None end.

(** gauss_kronrod.py 171-195 with adaptive_update.update inlined. *)
Definition kronrod_body (func : R -> R) (tolerance : R) (num_points : nat) (rows : list krow) : option (list krow) :=
  match all_some (map (fun r => row_estimates func num_points (klower r) (kupper r)) rows) with
  | None => None
  | Some ests =>
      let relative := map (map (fun e => relative_error (fst e) (snd e))) ests in
      let num_bad := fold_right Nat.max 0%nat (map (count_bad tolerance) relative) in
      Some (map (fun '(r, es) =>
        let '(new_lower, new_upper, good) := update_row num_bad (klower r) (kupper r) (map fst es) (map (fun e => relative_error (fst e) (snd e)) es) in
        KRow new_lower new_upper (ksum r + good)) (combine rows ests))
  end.
(** gauss_kronrod.py 167-169. *)
Definition kronrod_cond (rows : list krow) : bool := negb (forallb (fun r => Nat.eqb (length (klower r)) 0) rows).
(** gauss_kronrod.py 207-212: at most [max_depth] iterations. *)
Fixpoint kronrod_loop (max_depth : nat) (func : R -> R) (tolerance : R) (num_points : nat) (rows : list krow) : option (list krow) :=
  match max_depth with
  | O => Some rows
  | S d => if kronrod_cond rows then match kronrod_body func tolerance num_points rows with Some rows => kronrod_loop d func tolerance num_points rows | None => None end else Some rows
  end.
(** gauss_kronrod.py 99-214, on a batch of (lower, upper). *)
Definition gauss_kronrod (func : R -> R) (limits : list (R * R)) (tolerance : R) (num_points max_depth : nat) : option (list R) :=
  option_map (map ksum) (kronrod_loop max_depth func tolerance num_points (map (fun '(l, u) => KRow [l] [u] 0) limits)).
