(** Programs that draw Poisson and gamma variables, and their meaning. *)
From Coquelicot Require Import Coquelicot.
From Coq Require Import Reals List ZArith.
Open Scope R_scope.

(** A program draws with a key (what the generator is called with) and the
    parameters of the distribution, and goes on with the value drawn. *)
Inductive prog (K A : Type) : Type :=
| Ret (a : A)
| Poisson (key : K) (rate : R) (next : nat -> prog K A)
| Gamma (key : K) (shape rate : R) (next : R -> prog K A).
Arguments Ret {K A}. Arguments Poisson {K A}. Arguments Gamma {K A}.
Fixpoint bind {K A B} (p : prog K A) (f : A -> prog K B) : prog K B :=
  match p with
  | Ret a => f a
  | Poisson key rate next => Poisson key rate (fun n => bind (next n) f)
  | Gamma key shape rate next => Gamma key shape rate (fun g => bind (next g) f)
  end.

(** The Poisson distribution. *)
Definition poisson_mass (rate : R) (n : nat) : R := exp (- rate) * rate ^ n / INR (fact n).
Definition poisson_mean (rate : R) (F : nat -> R) (m : R) : Prop := is_series (fun n => poisson_mass rate n * F n) m.
(** The gamma distribution: density proportional to x^(shape - 1) e^(- rate x) on the positive numbers. *)
Definition gamma_weight (shape rate x : R) : R := Rpower x (shape - 1) * exp (- (rate * x)).
Definition gamma_integral (shape rate : R) (f : R -> R) (m : R) : Prop :=
  is_RInt_gen (V := R_NormedModule) (fun x => f x * gamma_weight shape rate x) (at_right 0) (Rbar_locally p_infty) m.
Definition gamma_mean (shape rate : R) (f : R -> R) (m : R) : Prop :=
  exists mass, 0 < mass /\ gamma_integral shape rate (fun _ => 1) mass /\ gamma_integral shape rate f (m * mass).

(** [expects p f m]: the result of [p] has distributions for all its draws, and the
    mean of [f] of the result, over independent draws, is [m]. *)
Fixpoint expects {K A} (p : prog K A) (f : A -> R) (m : R) : Prop :=
  match p with
  | Ret a => m = f a
  | Poisson _ rate next => 0 <= rate /\ exists F, (forall n, expects (next n) f (F n)) /\ poisson_mean rate F m
  | Gamma _ shape rate next =>
      0 < shape /\ 0 < rate /\ exists F, (forall g, 0 < g -> expects (next g) f (F g)) /\ gamma_mean shape rate F m
  end.
(** The result when the draws are given. *)
Fixpoint run {K A} (draw_p : K -> R -> nat) (draw_g : K -> R -> R -> R) (p : prog K A) : A :=
  match p with
  | Ret a => a
  | Poisson key rate next => run draw_p draw_g (next (draw_p key rate))
  | Gamma key shape rate next => run draw_p draw_g (next (draw_g key shape rate))
  end.
(** The keys in the order of the draws. *)
Inductive kind := APoisson | AGamma.
Fixpoint keys {K A} (draw_p : K -> R -> nat) (draw_g : K -> R -> R -> R) (p : prog K A) : list (kind * K) :=
  match p with
  | Ret a => nil
  | Poisson key rate next => (APoisson, key) :: keys draw_p draw_g (next (draw_p key rate))
  | Gamma key shape rate next => (AGamma, key) :: keys draw_p draw_g (next (draw_g key shape rate))
  end.
