(** Replication of the log contract, without reference to the code. *)
From Coq Require Import Reals List.
From Verif Require Import BlackScholesSpec VarianceModel.
Import ListNotations.
Open Scope R_scope.

(** The payoff to replicate, with reference price R and expiry T:
    2/T ((x - R)/R - log(x/R)). *)
Definition target (reference expiry x : R) : R := 2 / expiry * ((x - reference) / reference - ln (x / reference)).
(** Payoff at [x] of a portfolio of options with these weights and strikes; a
    strike without a weight is not held. *)
Definition portfolio (call : bool) (weights strikes : list R) (x : R) : R :=
  fold_right Rplus 0 (map (fun '(w, k) => w * vanilla call k x) (combine weights strikes)).
(** Is [l] strictly further out than [k], for calls or for puts? *)
Definition further (call : bool) (k l : R) : Prop := if call then k < l else l < k.
(** Strikes in the required order: ascending for calls, descending for puts. *)
Fixpoint ordered (call : bool) (strikes : list R) : Prop :=
  match strikes with
  | k :: r => match r with l :: _ => further call k l | [] => True end /\ ordered call r
  | [] => True
  end.
(** The first strike is not on the wrong side of the reference. *)
Definition starts_at (call : bool) (reference k : R) : Prop := if call then reference <= k else k <= reference.
