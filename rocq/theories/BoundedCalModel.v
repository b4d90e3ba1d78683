(** Model of tf_quant_finance/datetime/bounded_holiday_calendar.py, one date
    (element) at a time; tables are lists.  Definitions only.  The lazy table
    cache (282-291, 411-426) is not modelled: each table is a function of the
    calendar. *)
From Coq Require Import ZArith List Bool.
From Verif Require Import DateModel.
Import ListNotations.
Open Scope Z_scope.

(** constants.py BusinessDayConvention *)
Inductive convention := NONE | FOLLOWING | MODIFIED_FOLLOWING | PRECEDING | MODIFIED_PRECEDING.

(** tf.cast(bool, int32) *)
Definition b2z (b : bool) : Z := if b then 1 else 0.

(** All-or-nothing map: one failing element fails the op. *)
Fixpoint map_opt {A B} (f : A -> option B) (l : list A) : option (list B) :=
  match l with
  | [] => Some []
  | x :: r => match f x, map_opt f r with Some y, Some s => Some (y :: s) | _, _ => None end
  end.
Definition bind {A B} (o : option A) (f : A -> option B) : option B :=
  match o with Some x => f x | None => None end.

(** tf.range(lo, lo + n) *)
Definition zrange (lo : Z) (n : nat) : list Z := map (fun i => lo + Z.of_nat i) (seq 0 n).

(** tf.where(t)[:, 0] on a rank-1 integer tensor: indices of non-zeros. *)
Fixpoint where_from (i : Z) (t : list Z) : list Z :=
  match t with
  | [] => []
  | x :: r => if x =? 0 then where_from (i + 1) r else i :: where_from (i + 1) r
  end.

(** tf.scatter_nd(indices, ones, [n]): contributions to equal indices add up;
    an index outside the shape is an error. *)
Fixpoint occurrences (i : Z) (l : list Z) : Z :=
  match l with [] => 0 | x :: r => (if x =? i then 1 else 0) + occurrences i r end.
Definition scatter_ones (indices : list Z) (n : nat) : option (list Z) :=
  if forallb (fun i => (0 <=? i) && (i <? Z.of_nat n)) indices
  then Some (map (fun i => occurrences i indices) (zrange 0 n)) else None.

(** bounded_holiday_calendar.py 40-87; [bholidays] are the holidays' ordinals. *)
Record bcal := mk_bcal {
  bmask : list Z; bholidays : option (list Z); boffset : Z; bsize : Z }.

(** bounded_holiday_calendar.py 400-408 [_resolve_calendar_boundaries]; an
    empty or missing holiday list needs both years. *)
Definition resolve_boundaries (holidays : option (list date)) (start_year end_year : option Z)
  : option (Z * Z) :=
  match holidays with
  | None | Some [] =>
      match start_year, end_year with Some s, Some e => Some (s, e) | _, _ => None end
  | Some (h :: r) =>
      Some (fold_left Z.min (map year r) (year h), fold_left Z.max (map year r) (year h))
  end.

(** bounded_holiday_calendar.py 40-87 [__init__]; [None] as weekend mask is
    WeekendMask.NONE. *)
Definition make_bcal (mask : option (list Z)) (holidays : option (list date))
  (start_year end_year : option Z) : option bcal :=
  let mask := match mask with Some m => m | None => [0; 0; 0; 0; 0; 0; 0] end in
  bind (resolve_boundaries holidays start_year end_year) (fun '(s, e) =>
  bind (from_ymd s 1 1) (fun ds =>
  bind (from_ymd (e + 1) 1 1) (fun de =>
  Some (mk_bcal mask (option_map (map ordinal) holidays) (ordinal ds) (ordinal de - ordinal ds))))).

(** 325-356 [_compute_is_bus_day_table]; tf.range needs start <= limit. *)
Definition is_bus_day_table (c : bcal) : option (list Z) :=
  if bsize c <? 0 then None else
  let n := Z.to_nat (bsize c) in
  bind (map_opt (fun o => gather (bmask c) ((o - 1) mod 7)) (zrange (boffset c) n)) (fun is_holiday =>
  bind (match bholidays c with
        | None => Some is_holiday
        | Some h =>
            bind (scatter_ones (map (fun o => o - boffset c) h) n) (fun ones_at =>
            Some (map (fun '(a, b) => Z.lor a b) (combine is_holiday ones_at)))
        end) (fun is_holiday =>
  Some ([1] ++ map (fun x => 1 - x) is_holiday ++ [1]))).

(** 358-367 [_compute_cumul_bus_days_table] *)
Definition cumul_bus_days_table (c : bcal) : option (list Z) :=
  option_map cumsum_excl (is_bus_day_table c).

(** 369-379 [_compute_bus_day_ordinals_table] *)
Definition bus_day_ordinals_table (c : bcal) : option (list Z) :=
  option_map (fun t => map (fun i => i + boffset c - 1) (where_from 0 t)) (is_bus_day_table c).

(** 381-388 [_gather] *)
Definition bgather (c : bcal) (table : list Z) (i : Z) : option Z :=
  if (0 <=? i) && (i <? bsize c + 2) then gather table i else None.

(** 390-397 [_assert_ordinals_in_bounds] *)
Definition in_bounds (c : bcal) (o : Z) : bool :=
  (boffset c <=? o) && (o <? boffset c + bsize c).

(** 89-97 [is_business_day]; the int32 to bool cast is [<> 0]. *)
Definition b_is_business_day (c : bcal) (d : date) : option bool :=
  bind (is_bus_day_table c) (fun t =>
  bind (bgather c t (ordinal d - boffset c + 1)) (fun v =>
  if in_bounds c (ordinal d) then Some (negb (v =? 0)) else None)).

(** 293-323 FOLLOWING and PRECEDING tables *)
Definition following_table (c : bcal) : option (list Z) :=
  bind (cumul_bus_days_table c) (fun cumul =>
  bind (bus_day_ordinals_table c) (fun bus => map_opt (gather bus) cumul)).
Definition preceding_table (c : bcal) : option (list Z) :=
  bind (is_bus_day_table c) (fun isb =>
  bind (cumul_bus_days_table c) (fun cumul =>
  bind (bus_day_ordinals_table c) (fun bus =>
  map_opt (fun '(cu, i) => gather bus (cu - (1 - i))) (combine cumul isb)))).

(** 293-323 [_compute_rolled_dates_table_without_cache].  For the MODIFIED
    conventions every ordinal of the tables goes through the validating
    [from_ordinals] (309-313). *)
Definition rolled_dates_table (c : bcal) (conv : convention) : option (list Z) :=
  match conv with
  | NONE => None
  | FOLLOWING => following_table c
  | PRECEDING => preceding_table c
  | _ =>
      bind (following_table c) (fun following =>
      bind (preceding_table c) (fun preceding =>
      bind (map_opt from_ordinal following) (fun dates_following =>
      bind (map_opt from_ordinal preceding) (fun dates_preceding =>
      bind (map_opt from_ordinal (zrange (boffset c - 1) (Z.to_nat (bsize c + 2)))) (fun original =>
      Some (match conv with
            | MODIFIED_FOLLOWING =>
                map (fun '((df, o), (f, p)) => if month df =? month o then f else p)
                    (combine (combine dates_following original) (combine following preceding))
            | _ =>
                map (fun '((dp, o), (f, p)) => if month dp =? month o then p else f)
                    (combine (combine dates_preceding original) (combine following preceding))
            end))))))
  end.

(** 99-117 [roll_to_business_day] *)
Definition b_roll (c : bcal) (d : date) (conv : convention) : option date :=
  match conv with
  | NONE => Some d
  | _ =>
      bind (rolled_dates_table c conv) (fun t =>
      bind (bgather c t (ordinal d - boffset c + 1)) (fun r =>
      if in_bounds c r then Some (from_ordinal_unchecked r) else None))
  end.

(** 119-137 [add_period_and_roll] *)
Definition b_add_period_and_roll (c : bcal) (d : date) (p : period) (conv : convention) : option date :=
  bind (date_add d p) (fun d' => b_roll c d' conv).

(** 186-207 [subtract_period_and_roll] *)
Definition b_subtract_period_and_roll (c : bcal) (d : date) (p : period) (conv : convention) : option date :=
  b_add_period_and_roll c d (mk_period (- quantity p) (ptype p)) conv.

(** 139-184 [add_business_days] *)
Definition b_add_business_days (c : bcal) (d : date) (n : Z) (conv : convention) : option date :=
  bind (match conv with
        | NONE => bind (b_is_business_day c d) (fun b => if b then Some d else None)
        | _ => b_roll c d conv
        end) (fun d =>
  bind (cumul_bus_days_table c) (fun cumul =>
  bind (bgather c cumul (ordinal d - boffset c + 1)) (fun cb =>
  bind (bus_day_ordinals_table c) (fun bus =>
  bind (bgather c bus (cb + n)) (fun o =>
  if in_bounds c o then Some (from_ordinal_unchecked o) else None))))).

(** 209-235 [subtract_business_days] *)
Definition b_subtract_business_days (c : bcal) (d : date) (n : Z) (conv : convention) : option date :=
  b_add_business_days c d (- n) conv.

(** 254-280 [business_days_between] *)
Definition b_business_days_between (c : bcal) (d1 d2 : date) : option Z :=
  bind (cumul_bus_days_table c) (fun cumul =>
  if negb (in_bounds c (ordinal d1) && in_bounds c (ordinal d2)) then None else
  bind (bgather c cumul (ordinal d1 - boffset c + 1)) (fun c1 =>
  bind (bgather c cumul (ordinal d2 - boffset c + 1)) (fun c2 =>
  Some (Z.max (c2 - c1) 0)))).

(** 237-252 [business_days_in_period] *)
Definition b_business_days_in_period (c : bcal) (d : date) (p : period) : option Z :=
  bind (date_add d p) (fun d' => b_business_days_between c d d').
