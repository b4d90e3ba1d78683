(** Number types for the time loop, and what it means to march along given times. *)
From Coq Require Import Reals ZArith List Bool Arith.
From Flocq Require Import IEEE754.BinarySingleNaN IEEE754.Binary IEEE754.Bits.
From Verif Require Import TimeGridModel PdeSolveModel.
Import ListNotations.

(** exact arithmetic *)
Definition real : number R := {|
  plus_ := Rplus; minus_ := Rminus; over_ := Rdiv; abs_ := Rabs; minimum := Rmin; maximum := Rmax;
  ge_ := fun a b => if Rle_dec b a then true else false; equal_ := fun a b => if Req_EM_T a b then true else false;
  zero_ := 0%R; of_nat := INR; ceil_nat := fun x => Z.to_nat (ceil x) |}.

(** IEEE binary64 with rounding to nearest *)
Definition float_of_Z (z : Z) : binary64 := binary_normalize 53 1024 eq_refl eq_refl mode_NE z 0 false.
Definition float_lt (a b : binary64) : bool := match Bcompare 53 1024 a b with Some Lt => true | _ => false end.
Definition float_eq (a b : binary64) : bool := match Bcompare 53 1024 a b with Some Eq => true | _ => false end.
Definition float_ceil (x : binary64) : Z := let z := Btrunc 53 1024 x in if float_lt (float_of_Z z) x then (z + 1)%Z else z.
Definition float : number binary64 := {|
  plus_ := b64_plus mode_NE; minus_ := b64_minus mode_NE; over_ := b64_div mode_NE; abs_ := b64_abs;
  minimum := fun a b => if float_lt b a then b else a; maximum := fun a b => if float_lt a b then b else a;
  ge_ := fun a b => float_lt b a || float_eq a b; equal_ := float_eq;
  zero_ := float_of_Z 0; of_nat := fun n => float_of_Z (Z.of_nat n); ceil_nat := fun x => Z.to_nat (float_ceil x) |}.

(** one step for every two neighbouring times, the transform after each step *)
Fixpoint march {T A : Type} (one_step : T -> T -> nat -> A -> A) (transform : T -> A -> A) (times : list T) (count : nat) (a : A) : A :=
  match times with
  | [] => a
  | t :: rest =>
      match rest with
      | [] => a
      | t' :: _ => march one_step transform rest (S count) (transform t' (one_step t t' count a))
      end
  end.
