(** Model of tf_quant_finance/experimental/instruments/cap_floor.py.
    Definitions only.  A batch is a list with one entry per contract, a vector
    of all caplets lists the caplets of one contract after the other.  [None] is
    an exception. *)
From Coquelicot Require Import Coquelicot.
From Coq Require Import Reals ZArith List Bool.
From Verif Require Import InterpModel BrentModel ExtReal HaganWestModel BootstrapModel BlackScholesModel DateModel BoundedCalModel ScheduleModel InstrumentModel.
Import ListNotations.
Open Scope R_scope.

(** Broadcasting a vector (or a scalar, a vector of one entry) to length n. *)
Definition broadcast_to {A} (n : nat) (l : list A) : option (list A) :=
  if Nat.eqb (length l) n then Some l else match l with [x] => Some (repeat x n) | _ => None end.

(** The notional argument: a number or a list of numbers. *)
Inductive notional_arg := Number (_ : R) | Numbers (_ : list R).
(** 147: [notional or 1.0]; the number 0 is as good as no argument *)
Definition notional_or_one (a : option notional_arg) : list R :=
  match a with
  | None => [1]
  | Some (Number x) => if Req_EM_T x 0 then [1] else [x]
  | Some (Numbers []) => [1]
  | Some (Numbers l) => l
  end.

Record cap_floor := CapFloor { cf_batch : nat; cf_count : nat; cf_reset : list date; cf_payment : list date; cf_fractions : list R;
  cf_notional : list R; cf_strike : list R; cf_is_cap : list bool; cf_contract : list nat }.
(** 138-155 and 246-281.  The strikes and the flags are repeated for every
    caplet of a contract, the notional is not.  The rate term (269-271) is not
    used afterwards. *)
Definition cap_setup (starts ends : list date) (freq : list Z) (t : period_type) (strike : list R) (c : option daycount)
    (notional : option notional_arg) (is_cap : option (list bool)) : option cap_floor :=
  bind (broadcast_to (length starts) (match is_cap with None => [true] | Some l => l end)) (fun is_cap =>
  bind (periodic_schedule (map2 (fun '(s, e) q => mk_row s e q) (combine starts ends) freq) t false false None) (fun date_schedule =>
  let reset := map (@removelast date) date_schedule in
  let payment := map (@tl date) date_schedule in
  let fractions := map2 (map2 (daycount_fraction (match c with None => ACTUAL_360 | Some c => c end))) reset payment in
  let n := width payment in
  Some (CapFloor (length starts) n (concat reset) (concat payment) (concat fractions) (notional_or_one notional)
          (tf_repeat strike n) (tf_repeat is_cap n) (tf_repeat (seq 0 (length starts)) n)))).

(** 283-304 for one caplet *)
Definition cap_forward (valuation : date) (reference : date -> R) (libor fraction : R) (s e : date) : R :=
  if date_ltb e valuation then 0 else if date_ltb s valuation then libor
  else if Rlt_dec 0 fraction then get_forward_rate reference s e fraction else 0.
(** 212-244 for one caplet *)
Definition caplet_price (valuation : date) (discount reference : date -> R) (libor vol notional fraction strike : R) (is_cap : bool) (s e : date) : option xr :=
  let discount_factor := if date_gtb e valuation then discount e else 0 in
  let forward := cap_forward valuation reference libor fraction s e in
  bind (option_price (OptionArgs vol strike (curve_time valuation s) None (Some forward) None None None (Some is_cap) false)) (fun black =>
  let intrinsic := if is_cap then Rmax (forward - strike) 0 else Rmax (strike - forward) 0 in
  let price := if date_ltb e valuation then Fin 0 else if date_ltb s valuation then Fin intrinsic else black in
  Some (Fin discount_factor *x (Fin (notional * fraction) *x price))).

(** rates_common.py 54-66 *)
Inductive rate_model := LOGNORMAL_RATE | NORMAL_RATE | LOGNORMAL_SMILE_CONSISTENT_REPLICATION | NORMAL_SMILE_CONSISTENT_REPLICATION.
(** 157-244.  Without a pricing context the attribute [_term] is read, which is
    never set (225-226, 269).  The other operands are broadcast to the number
    of all caplets. *)
Definition cap_price (f : cap_floor) (valuation : date) (discount reference : date -> R) (libor : option R) (model : option rate_model)
    (pricing_context : option (list R)) : option (list xr) :=
  match model, pricing_context with
  | Some LOGNORMAL_RATE, Some vols | None, Some vols =>
      let total := length (cf_reset f) in
      bind (broadcast_to total (libor_rates libor (cf_batch f) (cf_count f))) (fun libor =>
      bind (broadcast_to total vols) (fun vols =>
      bind (broadcast_to total (cf_strike f)) (fun strike =>
      bind (broadcast_to total (cf_is_cap f)) (fun is_cap =>
      bind (broadcast_to total (cf_notional f)) (fun notional =>
      bind (map_opt (fun '((((((s, e), fr), l), v), (k, b)), n) => caplet_price valuation discount reference l v n fr k b s e)
              (combine (combine (combine (combine (combine (combine (cf_reset f) (cf_payment f)) (cf_fractions f)) libor) vols) (combine strike is_cap)) notional))
        (fun caplets => Some (xsegment_sum caplets (cf_contract f))))))))
  | _, _ => None
  end.
