(** Specification of caps and floors (C86): every contract is a sum of options
    on the rates of its own periods. *)
From Coquelicot Require Import Coquelicot.
From Coq Require Import Reals ZArith List Bool.
From Verif Require Import BlackScholesSpec DateModel DateSpec ScheduleSpec InstrumentModel InstrumentSpec.
Import ListNotations.
Open Scope R_scope.

(** [k_rate] of a contract is the strike. *)

(** The undiscounted value of an option on a lognormal rate with forward F and
    total deviation s: the expected payoff. *)
Definition lognormal_value (call : bool) (K F s m : R) : Prop :=
  if Rlt_dec 0 s then expectation (fun z => vanilla call K (F * exp (s * z - s ^ 2 / 2))) m else m = vanilla call K F.
(** Years of 365 days. *)
Definition years (a b : date) : R := IZR (ordinal b - ordinal a) / 365.
(** The value of one caplet or floorlet for the period from s to e, paid at e
    with rate set at s.  Nothing if the payment is not in the future or no
    interest accrues; the known payoff if the rate has been set; an option on
    the forward rate else. *)
Definition caplet_value (valuation : date) (discount reference : date -> R) (fixing : R) (c : daycount) (k : contract) (call : bool) (vol : R) (s e : date) (v : R) : Prop :=
  let fraction := daycount_fraction c s e in
  if Z.leb (ordinal e) (ordinal valuation) then v = 0
  else if Req_EM_T fraction 0 then v = 0
  else exists m, v = k_notional k * fraction * discount e * m /\
    if Z.ltb (ordinal s) (ordinal valuation) then m = vanilla call (k_rate k) fixing
    else lognormal_value call (k_rate k) ((reference s / reference e - 1) / fraction) (vol * sqrt (years valuation s)) m.
(** [v] is the sum of values [P s e vol] over the periods of the dates [l], each
    with its own volatility. *)
Fixpoint sum_over (P : R -> date -> date -> R -> Prop) (vols : list R) (l : list date) (v : R) {struct l} : Prop :=
  match l, vols with
  | s :: ((e :: _) as r), w :: ws => exists x y, P w s e x /\ sum_over P ws r y /\ v = x + y
  | _, _ => v = 0
  end.
(** The value of a cap (call) or floor. *)
Definition cap_value (valuation : date) (discount reference : date -> R) (fixing : R) (c : daycount) (k : contract) (call : bool) (vols : list R) (l : list date) (v : R) : Prop :=
  sum_over (caplet_value valuation discount reference fixing c k call) vols l v.
(** Positive forward rates after the valuation date. *)
Definition positive_rates (valuation : date) (reference : date -> R) : Prop :=
  forall s e, (ordinal valuation <= ordinal s)%Z -> (ordinal s < ordinal e)%Z -> 0 < reference e < reference s.
(** The day count convention unless told otherwise. *)
Definition convention (c : option daycount) : daycount := match c with None => ACTUAL_360 | Some c => c end.
