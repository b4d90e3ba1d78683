(** Model of tf_quant_finance/utils/shape_utils.py on fully defined shapes.
    Definitions only. *)
From Coq Require Import List Arith Bool.
Import ListNotations.

Definition shape := list nat.

(** tf.broadcast_static_shape (external), on reversed shapes: dimensions are
    aligned on the right; equal, or one of them 1. *)
Definition broadcast_dim (a b : nat) : option nat :=
  if Nat.eqb a b then Some a else if Nat.eqb a 1 then Some b else if Nat.eqb b 1 then Some a else None.
Fixpoint broadcast_rev (a b : shape) : option shape :=
  match a, b with
  | [], _ => Some b
  | _, [] => Some a
  | x :: a', y :: b' =>
      match broadcast_dim x y, broadcast_rev a' b' with
      | Some d, Some r => Some (d :: r)
      | _, _ => None
      end
  end.
Definition broadcast_static_shape (a b : shape) : option shape :=
  option_map (@rev nat) (broadcast_rev (rev a) (rev b)).

(** shape_utils.py 62-107; [None] (the ValueError) for incompatible shapes.
    Without arguments the Python function returns None as well. *)
Definition common_shape (args : list shape) : option shape :=
  match args with
  | [] => None
  | a :: rest => fold_left (fun acc s => match acc with None => None | Some o => broadcast_static_shape o s end) rest (Some a)
  end.

(** tf.broadcast_to (external): a tensor is a shape and its entries by
    multi-index.  Entry [idx] of the result is the entry at the last [rank]
    coordinates of [idx], with 0 along the axes of size 1. *)
Record tensor (A : Type) := Tensor { tshape : shape; entry : list nat -> A }.
Arguments Tensor {A}. Arguments tshape {A}. Arguments entry {A}.
Fixpoint broadcasts_rev (a t : shape) : bool :=
  match a, t with
  | [], _ => true
  | _ :: _, [] => false
  | x :: a', y :: t' => (Nat.eqb x y || Nat.eqb x 1) && broadcasts_rev a' t'
  end.
Definition project (s : shape) (idx : list nat) : list nat :=
  map (fun '(d, i) => if Nat.eqb d 1 then 0 else i) (combine s (skipn (length idx - length s) idx)).
Definition broadcast_to {A} (x : tensor A) (t : shape) : option (tensor A) :=
  if broadcasts_rev (rev (tshape x)) (rev t)
  then Some (Tensor t (fun idx => entry x (project (tshape x) idx)))
  else None.

(** shape_utils.py 110-141 *)
Fixpoint sequence {A} (l : list (option A)) : option (list A) :=
  match l with
  | [] => Some []
  | None :: _ => None
  | Some a :: r => option_map (cons a) (sequence r)
  end.
Definition broadcast_tensors {A} (args : list (tensor A)) : option (list (tensor A)) :=
  match common_shape (map tshape args) with
  | None => None
  | Some s => sequence (map (fun x => broadcast_to x s) args)
  end.

(** Python slices [s[:-d]] and [s[-d:]]: for [d = 0] they are [s[:0]] and [s[0:]] *)
Definition slice_to_minus (s : shape) (d : nat) : shape := if Nat.eqb d 0 then [] else firstn (length s - d) s.
Definition slice_from_minus (s : shape) (d : nat) : shape := if Nat.eqb d 0 then s else skipn (length s - d) s.

(** shape_utils.py 144-213 *)
Definition broadcast_common_batch_shape {A} (args : list (tensor A)) (event_ranks : option (list nat)) : option (list (tensor A)) :=
  let event_ranks := match event_ranks with None => repeat 1 (length args) | Some e => e end in
  if negb (Nat.eqb (length event_ranks) (length args)) then None
  else
    let dummies := map (fun '(arg, d) => slice_to_minus (tshape arg) d) (combine args event_ranks) in
    match common_shape dummies with
    | None => None
    | Some common => sequence (map (fun '(x, d) => broadcast_to x (common ++ slice_from_minus (tshape x) d)) (combine args event_ranks))
    end.
