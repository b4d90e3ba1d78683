(** Specification of the batching of contract messages (C95): the terms that
    were agreed on, the terms at a position of a batch, and what a partition of a
    portfolio into batches is. *)
From Coq Require Import String Reals ZArith List Bool Permutation.
From Verif Require Import DateModel PlatformModel BatchModel.
Import ListNotations.
Open Scope R_scope.

(** ** The terms of a contract *)
Inductive leg_terms :=
| FixedTerms (currency : string) (every : Z * Z) (notional rate : R) (days rule daycount calendar : Z)
| FloatTerms (currency : string) (every reset : Z * Z) (notional spread : R) (index : rate_index) (days rule daycount calendar : Z).
Record swap_terms := SwapTerms { st_start : Z * Z * Z; st_maturity : Z * Z * Z; st_pay : leg_terms; st_receive : leg_terms; st_name : string * string }.

(** A decimal is a number of units and of billionths. *)
Definition amount (d : decimal) : R := IZR (units d) + IZR (nanos d) / 10 ^ 9.
Definition agreed_period (p : period_message) : Z * Z := (p_type p, p_amount p).
Definition agreed_leg (l : leg_message) : leg_terms :=
  match l with
  | FixedLegM m => FixedTerms (xm_currency m) (agreed_period (xm_frequency m)) (amount (xm_notional m)) (amount (xm_rate m)) (xm_settlement m) (xm_rule m) (xm_daycount m) (xm_holidays m)
  | FloatLegM m => FloatTerms (fm_currency m) (agreed_period (fm_frequency m)) (agreed_period (fm_reset m)) (amount (fm_notional m)) (amount (fm_spread m)) (fm_index m)
                     (fm_settlement m) (fm_rule m) (fm_daycount m) (fm_holidays m)
  end.
Definition agreed (m : swap_message) : swap_terms := SwapTerms (w_start m) (w_maturity m) (agreed_leg (w_pay m)) (agreed_leg (w_receive m)) (w_name m).
(** Paying a leg on minus the notional is receiving it: the legs change sides. *)
Definition opposite (l : leg_terms) : leg_terms :=
  match l with
  | FixedTerms c e n r d u y k => FixedTerms c e (- n) r d u y k
  | FloatTerms c e s n p i d u y k => FloatTerms c e s (- n) p i d u y k
  end.
Definition mirrored (t : swap_terms) : swap_terms := SwapTerms (st_start t) (st_maturity t) (opposite (st_receive t)) (opposite (st_pay t)) (st_name t).
Definition pays_floating_for_fixed (m : swap_message) : bool := match w_pay m, w_receive m with FloatLegM _, FixedLegM _ => true | _, _ => false end.

(** ** The terms at position [i] of a batch; every list has to reach that far. *)
Definition leg_entry (l : leg_spec) (i : nat) (t : leg_terms) : Prop :=
  match l, t with
  | FixedLegS s, FixedTerms c e n r d u y k =>
      nth_error (xs_currency s) i = Some c /\ fst (xs_frequency s) = fst e /\ nth_error (snd (xs_frequency s)) i = Some (snd e) /\ nth_error (xs_notional s) i = Some n /\
      nth_error (xs_rate s) i = Some r /\ nth_error (xs_settlement s) i = Some d /\ xs_rule s = u /\ xs_daycount s = y /\ xs_calendar s = k
  | FloatLegS s, FloatTerms c e f n p x d u y k =>
      nth_error (fs_currency s) i = Some c /\ fst (fs_frequency s) = fst e /\ nth_error (snd (fs_frequency s)) i = Some (snd e) /\
      fst (fs_reset s) = fst f /\ nth_error (snd (fs_reset s)) i = Some (snd f) /\ nth_error (fs_notional s) i = Some n /\ nth_error (fs_spread s) i = Some p /\
      nth_error (fs_index s) i = Some x /\ nth_error (fs_settlement s) i = Some d /\ fs_rule s = u /\ fs_daycount s = y /\ fs_calendar s = k
  | _, _ => False
  end.
Definition leg_size (l : leg_spec) (n : nat) : Prop :=
  match l with
  | FixedLegS s => length (xs_currency s) = n /\ length (snd (xs_frequency s)) = n /\ length (xs_notional s) = n /\ length (xs_rate s) = n /\ length (xs_settlement s) = n
  | FloatLegS s => length (fs_currency s) = n /\ length (snd (fs_frequency s)) = n /\ length (snd (fs_reset s)) = n /\ length (fs_notional s) = n /\
      length (fs_spread s) = n /\ length (fs_index s) = n /\ length (fs_settlement s) = n
  end.
Definition swap_entry (b : swap_batch) (i : nat) (t : swap_terms) : Prop :=
  nth_error (b_start b) i = Some (st_start t) /\ nth_error (b_maturity b) i = Some (st_maturity t) /\ nth_error (b_names b) i = Some (st_name t) /\
  leg_entry (b_pay b) i (st_pay t) /\ leg_entry (b_receive b) i (st_receive t).
Definition swap_size (b : swap_batch) (n : nat) : Prop :=
  length (b_start b) = n /\ length (b_maturity b) = n /\ length (b_names b) = n /\ leg_size (b_pay b) n /\ leg_size (b_receive b) n.

(** ** Partition: every message is in exactly one group, groups keep the order of
    the portfolio, and two messages share a group exactly if they are [together]. *)
Definition partition {M} (together : M -> M -> Prop) (l : list M) (gs : list (list M)) : Prop :=
  Permutation (concat gs) l /\
  (forall g, In g gs -> g <> [] /\ (exists keep, g = filter keep l) /\ forall p q, In p g -> In q l -> (In q g <-> together p q)).

(** ** Which messages the code can keep apart *)
Definition monthly_or_shorter (p : period_message) : Prop := p_type p <> 5%Z.
Definition leg_calendar (l : leg_message) : Z := match l with FixedLegM m => xm_holidays m | FloatLegM m => fm_holidays m end.
Definition leg_currency (l : leg_message) : string := match l with FixedLegM m => xm_currency m | FloatLegM m => fm_currency m end.
Definition leg_periods (l : leg_message) : list period_message := match l with FixedLegM m => [xm_frequency m] | FloatLegM m => [fm_frequency m; fm_reset m] end.
Definition plain_swap (m : swap_message) : Prop :=
  (forall l, l = w_pay m \/ l = w_receive m -> leg_calendar l = w_holidays m /\ forall p, In p (leg_periods l) -> monthly_or_shorter p).
(** the periods the date library knows *)
Definition known_period (p : period_message) : Prop := (p_type p = 1 \/ p_type p = 2 \/ p_type p = 3)%Z.
Definition usable_swap (m : swap_message) : Prop :=
  plain_swap m /\ leg_currency (w_pay m) = leg_currency (w_receive m) /\
  forall l, l = w_pay m \/ l = w_receive m -> forall p, In p (leg_periods l) -> known_period p.
(** The conventions that a batch shares: kinds of legs, types of period, day counts,
    business day rules and the calendar. *)
Inductive leg_kind := FixedKind (t y u : Z) | FloatKind (t r y u : Z).
Definition kind_of (l : leg_message) : leg_kind :=
  match l with
  | FixedLegM m => FixedKind (p_type (xm_frequency m)) (xm_daycount m) (xm_rule m)
  | FloatLegM m => FloatKind (p_type (fm_frequency m)) (p_type (fm_reset m)) (fm_daycount m) (fm_rule m)
  end.
(** the legs, the fixed one first if there is one of each *)
Definition legs_in_order (m : swap_message) : leg_message * leg_message := if pays_floating_for_fixed m then (w_receive m, w_pay m) else (w_pay m, w_receive m).
Definition same_conventions (p q : swap_message) : Prop :=
  kind_of (fst (legs_in_order p)) = kind_of (fst (legs_in_order q)) /\ kind_of (snd (legs_in_order p)) = kind_of (snd (legs_in_order q)) /\ w_holidays p = w_holidays q.

(** The hash function separates the keys of a portfolio. *)
Definition separates {M} (hasher : key -> string) (k : M -> key) (l : list M) : Prop :=
  forall p q, In p l -> In q l -> hasher (k p) = hasher (k q) -> k p = k q.

(** ** Forward rate agreements *)
Record fra_terms := FraTerms { ft_short : bool; ft_currency : string; ft_fixing : Z * Z * Z; ft_rate : R; ft_notional : R; ft_daycount : Z; ft_rule : Z; ft_calendar : Z;
  ft_term : Z * Z; ft_index : rate_index; ft_days : Z; ft_name : string * string }.
Definition agreed_fra (m : fra_message) : fra_terms :=
  FraTerms (r_short m) (r_currency m) (r_fixing m) (amount (r_rate m)) (amount (r_notional m)) (r_daycount m) (r_rule m) (r_holidays m) (agreed_period (r_term m)) (r_index m) (r_settlement m) (r_name m).
Definition fra_entry (b : fra_batch) (i : nat) (t : fra_terms) : Prop :=
  nth_error (rb_short b) i = Some (ft_short t) /\ nth_error (rb_currency b) i = Some (ft_currency t) /\ nth_error (rb_fixing b) i = Some (ft_fixing t) /\
  nth_error (rb_rate b) i = Some (ft_rate t) /\ nth_error (rb_notional b) i = Some (ft_notional t) /\ rb_daycount b = ft_daycount t /\ rb_rule b = ft_rule t /\
  rb_calendar b = ft_calendar t /\ fst (rb_term b) = fst (ft_term t) /\ nth_error (snd (rb_term b)) i = Some (snd (ft_term t)) /\
  nth_error (rb_index b) i = Some (ft_index t) /\ nth_error (rb_settlement b) i = Some (ft_days t) /\ nth_error (rb_names b) i = Some (ft_name t).
Definition fra_size (b : fra_batch) (n : nat) : Prop :=
  length (rb_short b) = n /\ length (rb_currency b) = n /\ length (rb_fixing b) = n /\ length (rb_rate b) = n /\ length (rb_notional b) = n /\
  length (snd (rb_term b)) = n /\ length (rb_index b) = n /\ length (rb_settlement b) = n /\ length (rb_names b) = n.
Definition same_fra_conventions (p q : fra_message) : Prop :=
  r_holidays p = r_holidays q /\ r_daycount p = r_daycount q /\ r_rule p = r_rule q /\ p_type (r_term p) = p_type (r_term q).
