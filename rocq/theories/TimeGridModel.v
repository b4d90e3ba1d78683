(** Model of prepare_grid in tf_quant_finance/models/utils.py, the time grid of
    every path simulation.  Definitions only.  Times are exact reals, indices
    are nat and a failing tensor operation is [None]. *)
From Coq Require Import ZArith Reals List Bool Arith.
From Verif Require Import TensorModel SegmentModel BrentModel.
Import ListNotations.
Open Scope R_scope.

(** tf.sort of a vector, ascending *)
Fixpoint insert (x : R) (l : list R) : list R :=
  match l with
  | [] => [x]
  | y :: r => if Rle_dec x y then x :: l else y :: insert x r
  end.
Fixpoint sort (l : list R) : list R :=
  match l with [] => [] | x :: r => insert x (sort r) end.

(** The smallest integer that is not less than [x]. *)
Definition ceil (x : R) : Z := (1 - up (- x))%Z.
(** tf.range(0.0, limit, delta): refused when delta is 0 or has the wrong sign;
    the size is ceil(|limit / delta|). *)
Definition range_from_0 (limit delta : R) : option (list R) :=
  if Req_EM_T delta 0 then None
  else if rlt 0 delta && rlt limit 0 then None
  else if rlt delta 0 && rlt 0 limit then None
  else Some (map (fun i => INR i * delta) (seq 0 (Z.to_nat (ceil (Rabs (limit / delta)))))).
(** tf.linspace(start, stop, num): spacing (stop - start) / max(num - 1, 1), and
    the first [num] points are kept. *)
Definition linspace (start stop : R) (num : nat) : list R :=
  map (fun i => start + INR i * ((stop - start) / INR (Nat.max (num - 1) 1))) (seq 0 num).
(** tf.gather *)
Definition gather (l : list R) (i : nat) : option R := nth_error l i.
Fixpoint all_some {A} (l : list (option A)) : option (list A) :=
  match l with
  | [] => Some []
  | Some x :: r => match all_some r with Some s => Some (x :: s) | None => None end
  | None :: _ => None
  end.

(** models/utils.py 285-306.  [times[-1]] of an empty vector fails; an index of
    -1 is refused by scatter_nd on line 276. *)
Definition dedup (tolerance : R) (all_times : list R) : list R :=
  let dt := 1 :: diff 1 true all_times in
  boolean_mask all_times (map (fun d => rlt tolerance d) dt).
Definition step_index (tolerance : R) (all_times : list R) (t : R) : option nat :=
  let i := searchsorted_left all_times t in
  match length all_times with
  | O => None
  | S n =>
      let i := Nat.min i n in
      match gather all_times i with
      | None => None
      | Some g =>
          if rlt tolerance (g - t) then match i with O => None | S k => Some k end
          else Some i
      end
  end.
Definition grid_from_time_step (times : list R) (time_step tolerance : R) : option (list R * list nat) :=
  match times with
  | [] => None
  | _ =>
      match range_from_0 (last times 0) time_step with
      | None => None
      | Some grid =>
          let all_times := dedup tolerance (sort (times ++ grid)) in
          match all_some (map (step_index tolerance all_times) times) with
          | Some idx => Some (all_times, idx)
          | None => None
          end
      end
  end.

(** models/utils.py 309-320; num_time_steps - tf.shape(times)[0] is clipped at 0,
    as nat subtraction does. *)
Definition grid_from_num_times (times : list R) (time_step : R) (num_time_steps : nat) : option (list R * list nat) :=
  match times with
  | [] => None
  | _ =>
      let uniform_grid := linspace time_step (last times 0 - time_step) (num_time_steps - length times) in
      let all_times := 0 :: sort (uniform_grid ++ times) in
      Some (all_times, map (searchsorted_left all_times) times)
  end.

(** models/utils.py 263-271; [time_indices - 1] clipped at 0 is nat [pred]. *)
Definition nearest_index (times_grid : list R) (t : R) : option nat :=
  let i := searchsorted_left times_grid t in
  match gather times_grid i, gather times_grid (pred i) with
  | Some g1, Some g2 =>
      if rlt (Rabs (g1 - t)) (Rabs (g2 - t)) then Some i else Some (pred i)
  | _, _ => None
  end.

(** models/utils.py 276-280: contributions to equal indices add up, indices out
    of range are refused *)
Definition scatter_mask (idx : list nat) (n : nat) : option (list bool) :=
  if forallb (fun i => Nat.ltb i n) idx
  then Some (map (fun i => Nat.ltb 0 (count_occ Nat.eq_dec idx i)) (seq 0 n))
  else None.

(** models/utils.py 209-282, with the tolerance given *)
Definition prepare_grid (times : list R) (time_step tolerance : R) (num_time_steps : option nat) (times_grid : option (list R))
  : option (list R * list bool * list nat) :=
  let grid :=
    match times_grid with
    | None =>
        match num_time_steps with
        | None => grid_from_time_step times time_step tolerance
        | Some n => grid_from_num_times times time_step n
        end
    | Some g => match all_some (map (nearest_index g) times) with Some idx => Some (g, idx) | None => None end
    end in
  match grid with
  | None => None
  | Some (all_times, idx) =>
      match scatter_mask idx (length all_times) with
      | Some mask => Some (all_times, mask, idx)
      | None => None
      end
  end.
