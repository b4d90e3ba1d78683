(** Model of tf_quant_finance/math/pad.py.  Definitions only.
    A tensor of shape batch + [n] is the list of its rows (the batch is
    flattened); the element type and its comparison and subtraction are
    parameters, so that exact, wrapping and rounding dtypes can be plugged in. *)
From Coq Require Import List Arith ZArith Bool.
From Verif Require Import DateModel.
Open Scope nat_scope.
Import ListNotations.

Section Pad.
  Context {A : Type} (gtb : A -> A -> bool) (sub1 : A -> A).

  Local Notation rows := (list (list A)).
  (** tf.shape(t)[-1] *)
  Definition last_dim (t : rows) : nat := match t with [] => 0 | r :: _ => length r end.
  (** tf.reduce_min of a non-empty tensor *)
  Definition minb (a b : A) : A := if gtb a b then b else a.
  Definition reduce_min (t : rows) : option A :=
    match concat t with [] => None | x :: l => Some (fold_left minb l x) end.
  (** pad_values argument: absent, one scalar, or one tensor per input tensor
      (a list with one value per row, or a single value for all rows). *)
  Inductive pad_arg := NoPad | ScalarPad (c : A) | ListPad (l : list (list A)).
  (** pad.py 120-134; the value for each row of each tensor.  [None]: the value
      cannot be broadcast to the rows, or the tensor has an empty last axis. *)
  Definition last_of (r : list A) : option A := match rev r with [] => None | x :: _ => Some x end.
  Fixpoint traverse {B C} (f : B -> option C) (l : list B) : option (list C) :=
    match l with
    | [] => Some []
    | b :: l' => match f b, traverse f l' with Some c, Some r => Some (c :: r) | _, _ => None end
    end.
  Definition spread (v : list A) (t : rows) : option (list A) :=
    match v with
    | [c] => Some (map (fun _ => c) t)
    | _ => if Nat.eqb (length v) (length t) then Some v else None
    end.
  Definition prepare_pad_values (pv : pad_arg) (tensors : list rows) : list (rows -> option (list A)) :=
    match pv with
    | NoPad => map (fun _ => traverse last_of) tensors
    | ScalarPad c => map (fun _ t => Some (map (fun _ => c) t)) tensors
    | ListPad l => map spread l
    end.
  (** pad.py 75-84, one tensor.  Tensors without elements are refused (their
      reduce_min is the largest value of the dtype; not modelled). *)
  Definition pad_row (max_size : nat) (constant pad_value : A) (r : list A) : list A :=
    map (fun x => if gtb x constant then x else pad_value) (r ++ repeat constant (max_size - length r)).
  Definition pad_tensor (max_size : nat) (pv : rows -> option (list A)) (t : rows) : option rows :=
    match reduce_min t, pv t with
    | Some m, Some vs => Some (map (fun '(v, r) => pad_row max_size (sub1 m) v r) (combine vs t))
    | _, _ => None
    end.
  (** pad.py 62-85.  [zip] stops at the shorter of its arguments. *)
  Definition max_last_dim (tensors : list rows) : nat := fold_right Nat.max 0 (map last_dim tensors).
  Definition pad_tensors (tensors : list rows) (pad_values : pad_arg) : option (list rows) :=
    traverse (fun '(pv, t) => pad_tensor (max_last_dim tensors) pv t) (combine (prepare_pad_values pad_values tensors) tensors).
End Pad.

(** pad.py 88-117; DateTensor elements, exact integer ordinals. *)
Definition pad_date_tensors (ts : list (list (list date))) : option (list (list (list date))) :=
  option_map (map (map (map from_ordinal_unchecked)))
    (pad_tensors Z.gtb (fun m => m - 1)%Z (map (map (map ordinal)) ts) NoPad).

(** int32 arithmetic: wrap-around to [-2^31, 2^31) *)
Definition wrap32 (z : Z) : Z := ((z + 2 ^ 31) mod 2 ^ 32 - 2 ^ 31)%Z.
