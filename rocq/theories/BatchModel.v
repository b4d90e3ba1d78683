(** Model of the batching of contract messages in
    tf_quant_finance/experimental/pricing_platform/framework:
    rate_instruments/interest_rate_swap/proto_utils.py,
    rate_instruments/forward_rate_agreement/proto_utils.py,
    rate_instruments/swaption/{proto_utils,swaption_impl}.py,
    rate_instruments/utils.py, utils.py and the class methods [from_protos],
    [group_protos] and [create_constructor_args] of the instruments.  Definitions
    only.  The values of an enumeration are represented by their numbers, those of
    currencies and rate indices by their names (numbers and names correspond one to
    one); a value outside its enumeration, which raises in the code, is not
    represented.  A Python dictionary is the list of its entries in the order of
    insertion. *)
From Coq Require Import String Reals ZArith List Bool.
From Verif Require Import TensorModel DateModel BoundedCalModel ScheduleModel RatesModel InstrumentModel PlatformModel.
Import ListNotations.
Open Scope R_scope.

(** ** Messages: instrument_protos/*.proto *)
(** decimal.proto; rate_instruments/utils.py 18-22 *)
Record decimal := Decimal { units : Z; nanos : Z }.
Definition decimal_to_double (d : decimal) : R := IZR (units d) + IZR (nanos d) * (1 / 1000000000).
(** period.proto: 1 is a day, 2 a week, 3 a month, 4 a quarter, 5 a year *)
Record period_message := PeriodMessage { p_type : Z; p_amount : Z }.
(** rate_indices.proto *)
Record rate_index := RateIndex { i_type : string; i_source : string; i_name : string }.
(** interest_rate_swap.proto *)
Record fixed_message := FixedMessage { xm_currency : string; xm_frequency : period_message; xm_notional : decimal; xm_daycount : Z; xm_rule : Z;
  xm_settlement : Z; xm_holidays : Z; xm_rate : decimal }.
Record float_message := FloatMessage { fm_currency : string; fm_frequency : period_message; fm_notional : decimal; fm_daycount : Z; fm_rule : Z;
  fm_settlement : Z; fm_holidays : Z; fm_reset : period_message; fm_index : rate_index; fm_spread : decimal }.
Inductive leg_message := FixedLegM (m : fixed_message) | FloatLegM (m : float_message).
Notation ymd_message := (Z * Z * Z)%type (only parsing).
Notation name_of := (string * string)%type (only parsing).
Record swap_message := SwapMessage { w_start : ymd_message; w_maturity : ymd_message; w_currency : string; w_receive : leg_message; w_pay : leg_message;
  w_holidays : Z; w_name : name_of }.

(** ** Dictionaries *)
(** framework/utils.py 19-22: what is hashed; the hash function is an argument of
    the functions below *)
Inductive atom := KNone | KInt (z : Z) | KStr (s : string).
Definition key := list atom.
(** [if h in d: update d[h]; else: d[h] = fresh] *)
Fixpoint add_to {V} (h : string) (fresh : V) (update : V -> option V) (d : list (string * V)) : option (list (string * V)) :=
  match d with
  | [] => Some [(h, fresh)]
  | (k, v) :: r => if String.eqb h k then option_map (fun v' => (k, v') :: r) (update v)
                   else option_map (cons (k, v)) (add_to h fresh update r)
  end.
(** the loops over the messages *)
Fixpoint batch_loop {M V} (hash : M -> string) (fresh : M -> V) (update : V -> M -> option V) (l : list M) (d : list (string * V)) : option (list (string * V)) :=
  match l with
  | [] => Some d
  | m :: r => match add_to (hash m) (fresh m) (fun v => update v m) d with Some d' => batch_loop hash fresh update r d' | None => None end
  end.

(** ** interest_rate_swap/proto_utils.py *)
(** 594-599; the same function in forward_rate_agreement/proto_utils.py 277-281 *)
Definition frequency_and_multiplier (t : Z) : Z * Z := (if Z.eqb t 5 then 3 else t, 1)%Z.
(** coupon_specs.py 24-87 *)
Record fixed_spec := FixedSpec { xs_currency : list string; xs_frequency : Z * list Z; xs_notional : list R; xs_rate : list R; xs_settlement : list Z;
  xs_rule : Z; xs_daycount : Z; xs_calendar : Z }.
Record float_spec := FloatSpec { fs_currency : list string; fs_frequency : Z * list Z; fs_reset : Z * list Z; fs_notional : list R; fs_index : list rate_index;
  fs_settlement : list Z; fs_rule : Z; fs_daycount : Z; fs_spread : list R; fs_calendar : Z }.
Inductive leg_spec := FixedLegS (s : fixed_spec) | FloatLegS (s : float_spec).
(** 207-258 *)
Definition leg_from_proto_v2 (l : leg_message) : leg_spec :=
  match l with
  | FixedLegM m =>
      let (freq, mult) := frequency_and_multiplier (p_type (xm_frequency m)) in
      FixedLegS (FixedSpec [xm_currency m] (freq, [(mult * p_amount (xm_frequency m))%Z]) [decimal_to_double (xm_notional m)] [decimal_to_double (xm_rate m)]
        [xm_settlement m] (xm_rule m) (xm_daycount m) (xm_holidays m))
  | FloatLegM m =>
      let (freq, mult) := frequency_and_multiplier (p_type (fm_frequency m)) in
      let (rfreq, rmult) := frequency_and_multiplier (p_type (fm_reset m)) in
      FloatLegS (FloatSpec [fm_currency m] (freq, [(mult * p_amount (fm_frequency m))%Z]) (rfreq, [(rmult * p_amount (fm_reset m))%Z])
        [decimal_to_double (fm_notional m)] [fm_index m] [fm_settlement m] (fm_rule m) (fm_daycount m) [decimal_to_double (fm_spread m)] (fm_holidays m))
  end.
(** 283-313 *)
Definition update_leg_v2 (cur leg : leg_spec) : option leg_spec :=
  match cur, leg with
  | FixedLegS c, FixedLegS l =>
      Some (FixedLegS (FixedSpec (xs_currency c ++ xs_currency l) (fst (xs_frequency c), snd (xs_frequency c) ++ snd (xs_frequency l))
        (xs_notional c ++ xs_notional l) (xs_rate c ++ xs_rate l) (xs_settlement c ++ xs_settlement l) (xs_rule c) (xs_daycount c) (xs_calendar c)))
  | FloatLegS c, FloatLegS l =>
      Some (FloatLegS (FloatSpec (fs_currency c ++ fs_currency l) (fst (fs_frequency c), snd (fs_frequency c) ++ snd (fs_frequency l))
        (fst (fs_reset c), snd (fs_reset c) ++ snd (fs_reset l)) (fs_notional c ++ fs_notional l) (fs_index c ++ fs_index l)
        (fs_settlement c ++ fs_settlement l) (fs_rule c) (fs_daycount c) (fs_spread c ++ fs_spread l) (fs_calendar c)))
  | _, _ => None
  end.
(** 490-536: the key of the first version *)
Definition get_keys (l : leg_message) : key * key :=
  match l with
  | FixedLegM m => ([KInt (p_type (xm_frequency m)); KInt (p_amount (xm_frequency m)); KInt (xm_daycount m); KInt (xm_rule m)], repeat KNone 7)
  | FloatLegM m => (repeat KNone 4,
      [KInt (p_type (fm_frequency m)); KInt (p_amount (fm_frequency m)); KInt (p_type (fm_reset m)); KInt (p_amount (fm_reset m));
       KInt (fm_daycount m); KInt (fm_rule m); KStr (i_type (fm_index m))])
  end.
(** 539-569 *)
Definition get_keys_v2 (l : leg_message) : key * key :=
  match l with
  | FixedLegM m => ([KInt (if Z.eqb (p_type (xm_frequency m)) 5 then 3 else p_type (xm_frequency m)); KInt (xm_daycount m); KInt (xm_rule m)], repeat KNone 4)
  | FloatLegM m => (repeat KNone 3,
      [KInt (fst (frequency_and_multiplier (p_type (fm_frequency m)))); KInt (fst (frequency_and_multiplier (p_type (fm_reset m))));
       KInt (fm_daycount m); KInt (fm_rule m)])
  end.
(** 524-536 and 579-591 *)
Definition starts_with_none (k : key) : bool := match k with KNone :: _ => true | _ => false end.
Definition legs_hash_key (keys : leg_message -> key * key) (leg1 leg2 : leg_message) : bool * key :=
  let (p1, p2) := keys leg1 in
  let (r1, r2) := keys leg2 in
  let key1 := p1 ++ p2 in
  let key2 := r1 ++ r2 in
  let flip := starts_with_none p1 && negb (starts_with_none r1) in
  if flip then (flip, key2 ++ key1) else (flip, key1 ++ key2).
(** 326-334 and 337-344, before hashing *)
Definition swap_key (m : swap_message) : key := snd (legs_hash_key get_keys (w_pay m) (w_receive m)) ++ [KStr (w_currency m); KInt (w_holidays m)].
Definition swap_key_v2 (m : swap_message) : key := snd (legs_hash_key get_keys_v2 (w_pay m) (w_receive m)) ++ [KInt (w_holidays m)].
Definition flip_legs (m : swap_message) : bool := fst (legs_hash_key get_keys_v2 (w_pay m) (w_receive m)).
(** 363-376; also 347-360, the FRA's 92-105 and the swaption's 55-69: with the key
    as an argument *)
Definition group_protos {M} (hasher : key -> string) (k : M -> key) (l : list M) : option (list (string * list M)) :=
  batch_loop (fun m => hasher (k m)) (fun m => [m]) (fun g m => Some (g ++ [m])) l [].
(** 449-458 *)
Definition negate_notional (l : leg_spec) : leg_spec :=
  match l with
  | FixedLegS c => FixedLegS (FixedSpec (xs_currency c) (xs_frequency c) (map Ropp (xs_notional c)) (xs_rate c) (xs_settlement c) (xs_rule c) (xs_daycount c) (xs_calendar c))
  | FloatLegS c => FloatLegS (FloatSpec (fs_currency c) (fs_frequency c) (fs_reset c) (map Ropp (fs_notional c)) (fs_index c) (fs_settlement c) (fs_rule c) (fs_daycount c) (fs_spread c) (fs_calendar c))
  end.
Definition legs_of (m : swap_message) : leg_spec * leg_spec :=
  let pay := leg_from_proto_v2 (w_pay m) in
  let receive := leg_from_proto_v2 (w_receive m) in
  if flip_legs m then (negate_notional receive, negate_notional pay) else (pay, receive).
(** 429-476 *)
Record swap_batch := SwapBatch { b_start : list ymd_message; b_maturity : list ymd_message; b_pay : leg_spec; b_receive : leg_spec; b_names : list name_of }.
Definition swaps_from_protos_v2 (hasher : key -> string) (l : list swap_message) : option (list (string * swap_batch)) :=
  batch_loop (fun m => hasher (swap_key_v2 m))
    (fun m => let (pay, receive) := legs_of m in SwapBatch [w_start m] [w_maturity m] pay receive [w_name m])
    (fun b m => let (pay, receive) := legs_of m in
       bind (update_leg_v2 (b_pay b) pay) (fun pay' =>
       option_map (fun receive' => SwapBatch (b_start b ++ [w_start m]) (b_maturity b ++ [w_maturity m]) pay' receive' (b_names b ++ [w_name m]))
         (update_leg_v2 (b_receive b) receive))) l [].
(** market_data/utils.py 93-108 with 479-487: the type of period has to exist in
    the date library, which has no quarters *)
Definition period_from_list (p : Z * list Z) : option (period_type * list Z) :=
  match fst p with
  | 1%Z => Some (DAY, snd p) | 2%Z => Some (WEEK, snd p) | 3%Z => Some (MONTH, snd p) | 5%Z => Some (YEAR, snd p)
  | _ => None
  end.
Definition frequency_of_spec (l : leg_spec) : option (list (period_type * list Z)) :=
  match l with
  | FixedLegS c => map_opt period_from_list [xs_frequency c]
  | FloatLegS c => map_opt period_from_list [fs_frequency c; fs_reset c]
  end.
Definition currencies_of (l : leg_spec) : list string := match l with FixedLegS c => xs_currency c | FloatLegS c => fs_currency c end.
Fixpoint same_strings (a b : list string) : bool :=
  match a, b with
  | [], [] => true
  | x :: a', y :: b' => String.eqb x y && same_strings a' b'
  | _, _ => false
  end.
(** interest_rate_swap_impl.py 295-307 with 216-217: the periods are converted and
    both legs need the same currencies; the batches as they are handed to the
    constructor *)
Definition swap_instruments (hasher : key -> string) (l : list swap_message) : option (list swap_batch) :=
  bind (swaps_from_protos_v2 hasher l) (fun d =>
  map_opt (fun '(_, b) =>
    bind (frequency_of_spec (b_pay b)) (fun _ => bind (frequency_of_spec (b_receive b)) (fun _ =>
    if same_strings (currencies_of (b_pay b)) (currencies_of (b_receive b)) then Some b else None))) d).
(** 34-132 [fixed_leg_tensor_repr], [floating_leg_tensor_repr]: the curves and the
    masks of a batch; [config] maps a currency to a discounting curve *)
Definition discount_type (config : string -> option curve_type) (c : string) : curve_type := match config c with Some x => x | None => RiskFreeCurve c end.
Definition reference_type (c : string) (i : rate_index) : curve_type := RateIndexCurve c (i_type i) [i_source i] [i_name i].
Definition leg_curves (config : string -> option curve_type) (l : leg_spec) : option (list curve_type * list nat * option (list curve_type * list nat)) :=
  bind (process_curve_types (map (discount_type config) (currencies_of l)) None) (fun '(types, mask) =>
  match l with
  | FixedLegS _ => Some (types, mask, None)
  | FloatLegS s => option_map (fun r => (types, mask, Some r)) (process_curve_types (map2 reference_type (fs_currency s) (fs_index s)) None)
  end).

(** ** forward_rate_agreement/proto_utils.py *)
(** forward_rate_agreement.proto *)
Record fra_message := FraMessage { r_short : bool; r_fixing : ymd_message; r_currency : string; r_index : rate_index; r_term : period_message;
  r_notional : decimal; r_rate : decimal; r_daycount : Z; r_rule : Z; r_holidays : Z; r_settlement : Z; r_name : name_of }.
(** 56-73 *)
Definition fra_key_v2 (m : fra_message) : key :=
  [KInt (r_holidays m); KInt (r_daycount m); KInt (r_rule m); KInt (fst (frequency_and_multiplier (p_type (r_term m))))].
Record fra_batch := FraBatch { rb_short : list bool; rb_currency : list string; rb_fixing : list ymd_message; rb_rate : list R; rb_notional : list R;
  rb_daycount : Z; rb_rule : Z; rb_calendar : Z; rb_term : Z * list Z; rb_index : list rate_index; rb_settlement : list Z; rb_names : list name_of }.
(** 159-212 *)
Definition fras_from_protos_v2 (hasher : key -> string) (l : list fra_message) : option (list (string * fra_batch)) :=
  let term m := let (t, mult) := frequency_and_multiplier (p_type (r_term m)) in (t, [(mult * p_amount (r_term m))%Z]) in
  batch_loop (fun m => hasher (fra_key_v2 m))
    (fun m => FraBatch [r_short m] [r_currency m] [r_fixing m] [decimal_to_double (r_rate m)] [decimal_to_double (r_notional m)]
       (r_daycount m) (r_rule m) (r_holidays m) (term m) [r_index m] [r_settlement m] [r_name m])
    (fun b m => Some (FraBatch (rb_short b ++ [r_short m]) (rb_currency b ++ [r_currency m]) (rb_fixing b ++ [r_fixing m])
       (rb_rate b ++ [decimal_to_double (r_rate m)]) (rb_notional b ++ [decimal_to_double (r_notional m)])
       (rb_daycount b) (rb_rule b) (rb_calendar b) (fst (rb_term b), snd (rb_term b) ++ snd (term m)) (rb_index b ++ [r_index m])
       (rb_settlement b ++ [r_settlement m]) (rb_names b ++ [r_name m]))) l [].
(** forward_rate_agreement_impl.py 311-325 *)
Definition fra_instruments (hasher : key -> string) (l : list fra_message) : option (list (fra_batch * (period_type * list Z))) :=
  bind (fras_from_protos_v2 hasher l) (fun d => map_opt (fun '(_, b) => option_map (fun t => (b, t)) (period_from_list (rb_term b))) d).

(** ** swaption *)
Record swaption_message := SwaptionMessage { o_expiry : ymd_message; o_swap : swap_message; o_name : name_of }.
Record swaption_batch := SwaptionBatch { ob_expiry : list ymd_message; ob_swaps : list swap_message; ob_names : list name_of }.
(** proto_utils.py 27-52; the key is the first version of that of the swap *)
Definition swaptions_from_protos (hasher : key -> string) (l : list swaption_message) : option (list (string * swaption_batch)) :=
  batch_loop (fun m => hasher (swap_key (o_swap m)))
    (fun m => SwaptionBatch [o_expiry m] [o_swap m] [o_name m])
    (fun b m => Some (SwaptionBatch (ob_expiry b ++ [o_expiry m]) (ob_swaps b ++ [o_swap m]) (ob_names b ++ [o_name m]))) l [].
(** swaption_impl.py 245-256: the first of the instruments made of the swaps *)
Definition swaption_instruments (hasher : key -> string) (l : list swaption_message) : option (list (list ymd_message * swap_batch)) :=
  bind (swaptions_from_protos hasher l) (fun d =>
  map_opt (fun '(_, b) => bind (swap_instruments hasher (ob_swaps b)) (fun s => match s with x :: _ => Some (ob_expiry b, x) | [] => None end)) d).
(** swaption_impl.py 222 and 317-338: what is handed to the pricing function.  A swap
    without a fixed leg has no strike; [unit_price payer i] stands for the value
    of the [i]th swaption on a notional of one.  hull_white/swaption.py multiplies
    by the notional at the end (line 984). *)
Definition swaption_prices (unit_price : bool -> nat -> R) (b : swap_batch) : option (list R) :=
  let payer := match b_pay b with FixedLegS _ => true | FloatLegS _ => false end in
  let notional := match b_pay b with FixedLegS c => xs_notional c | FloatLegS c => fs_notional c end in
  match b_pay b, b_receive b with
  | FloatLegS _, FloatLegS _ => None
  | FixedLegS _, FixedLegS _ => None
  | _, _ => Some (map2 (fun n i => n * unit_price payer i) notional (seq 0 (length notional)))
  end.
