(** American equity options: what a contract says, the price of the stock along a
    sampled path, and what is assumed of the samples, without reference to the
    code. *)
From Coq Require Import String Reals ZArith List Bool.
From Verif Require Import TensorProofs BatchModel BatchSpec EquityOptionModel.
Import ListNotations.
Open Scope R_scope.

Record option_terms := OptionTerms { ot_holder : bool; ot_currency : string; ot_expiry : Z * Z * Z; ot_equity : string; ot_amount : R; ot_rule : Z; ot_calendar : Z;
  ot_strike : R; ot_call : bool; ot_settlement : Z; ot_name : string * string }.
Definition agreed_option (m : option_message) : option_terms :=
  OptionTerms (e_holder m) (e_currency m) (e_expiry m) (e_equity m) (amount (e_amount m)) (e_rule m) (e_holidays m) (amount (e_strike m)) (e_call m) (e_settlement m) (e_name m).
Definition option_entry (b : option_batch) (i : nat) (t : option_terms) : Prop :=
  nth_error (eb_holder b) i = Some (ot_holder t) /\ nth_error (eb_currency b) i = Some (ot_currency t) /\ nth_error (eb_expiry b) i = Some (ot_expiry t) /\
  nth_error (eb_equity b) i = Some (ot_equity t) /\ nth_error (eb_amount b) i = Some (ot_amount t) /\ eb_rule b = ot_rule t /\ eb_calendar b = ot_calendar t /\
  nth_error (eb_strike b) i = Some (ot_strike t) /\ nth_error (eb_call b) i = Some (ot_call t) /\ nth_error (eb_settlement b) i = Some (ot_settlement t) /\
  nth_error (eb_names b) i = Some (ot_name t).
Definition option_size (b : option_batch) (n : nat) : Prop :=
  length (eb_holder b) = n /\ length (eb_currency b) = n /\ length (eb_expiry b) = n /\ length (eb_equity b) = n /\ length (eb_amount b) = n /\
  length (eb_strike b) = n /\ length (eb_call b) = n /\ length (eb_settlement b) = n /\ length (eb_names b) = n.
Definition same_option_conventions (p q : option_message) : Prop := e_holidays p = e_holidays q /\ e_rule p = e_rule q.

(** what the holder receives on exercise when the stock is worth [x] *)
Definition exercise_value (call : bool) (strike x : R) : R := if call then Rmax (x - strike) 0 else Rmax (strike - x) 0.
(** the stock price at time [t] when the Brownian motion is at [w] *)
Definition stock (spot r sigma t w : R) : R := spot * exp ((r - sigma ^ 2 / 2) * t + sigma * w).
(** the samples of a geometric Brownian motion without drift and with volatility 1
    at the times [t 0], [t 1], ...; [w] is the Brownian motion *)
Definition driftless (gbm : nat -> nat -> R) (t : nat -> R) (w : nat -> nat -> R) : Prop :=
  (forall s, w 0%nat s = 0) /\ forall e s, gbm e s = exp (- (t e) / 2 + w e s).
(** what is used of the pseudo-inverse: that of a diagonal matrix of size [n] is a
    generalized inverse *)
Definition inverts_diagonal (pinv : (nat -> nat -> R) -> nat -> nat -> R) (n : nat) : Prop :=
  forall mat, (forall a b, (a < n)%nat -> (b < n)%nat -> a <> b -> mat a b = 0) ->
  forall a d, (a < n)%nat -> (d < n)%nat -> rsum (fun b => rsum (fun c => mat a b * pinv mat b c * mat c d) n) n = mat a d.
(** every equity has one currency, different equities different ones, and the names
    are in the same order as the currencies *)
Definition listed_in_order (home : string -> string) (equities : list string) : Prop :=
  forall x y, In x equities -> In y equities -> String.compare x y = Lt -> String.compare (home x) (home y) = Lt.
