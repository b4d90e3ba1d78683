(** Model of tf_quant_finance/datetime: tensor_wrapper.py, the tensor level of
    date_tensor.py and periods/period_tensors.py, and
    holiday_calendar_factory.py.  Definitions only.  A tensor is its shape and
    its entry at every multi-index ([ShapeModel.tensor]).  Every TensorFlow
    operation used here only moves entries: it is given by its effect on shapes
    and, for every index of the result, the index it reads. *)
From Coq Require Import ZArith List Bool Arith.
From Verif Require Import ShapeModel DateModel BoundedCalModel UnboundedCalModel.
Import ListNotations.
Open Scope nat_scope.

(** * TensorFlow's shape operations (external) *)
Definition plan : Type := shape * (list nat -> list nat).
Definition run_plan {A} (p : plan) (t : tensor A) : tensor A := Tensor (fst p) (fun idx => entry t (snd p idx)).

(** Number of entries, row-major position of an index and back. *)
Definition volume (sh : shape) : nat := fold_right Nat.mul 1 sh.
Fixpoint ravel (sh : shape) (idx : list nat) : nat :=
  match sh, idx with _ :: sh', i :: idx' => i * volume sh' + ravel sh' idx' | _, _ => 0 end.
Fixpoint unravel (sh : shape) (k : nat) : list nat :=
  match sh with [] => [] | _ :: sh' => k / volume sh' :: unravel sh' (k mod volume sh') end.

(** An axis between -n and n-1; negative ones count from the end. *)
Definition axis_of (axis : Z) (n : nat) : option nat :=
  if ((0 <=? axis) && (axis <? Z.of_nat n))%Z then Some (Z.to_nat axis) else
  if ((- Z.of_nat n <=? axis) && (axis <? 0))%Z then Some (Z.to_nat (axis + Z.of_nat n)) else None.
Definition insert_at {A} (k : nat) (x : A) (l : list A) : list A := firstn k l ++ x :: skipn k l.
Definition remove_at {A} (k : nat) (l : list A) : list A := firstn k l ++ skipn (S k) l.

(** tf.expand_dims *)
Definition expand_dims (axis : Z) (sh : shape) : option plan :=
  match axis_of axis (S (length sh)) with
  | None => None
  | Some k => Some (insert_at k 1 sh, remove_at k)
  end.

(** tf.reshape; at most one entry may be -1 *)
Definition known (target : list Z) : nat := fold_right (fun d acc => if Z.eqb d (-1) then acc else Z.to_nat d * acc) 1 target.
Definition reshape (target : list Z) (sh : shape) : option plan :=
  let unknown := length (filter (Z.eqb (-1)) target) in
  if negb (forallb (fun d => (-1 <=? d)%Z) target) then None else
  let missing := match unknown with
                 | O => Some 0
                 | S O => if Nat.eqb (known target) 0 then None else Some (volume sh / known target)
                 | _ => None
                 end in
  match missing with
  | None => None
  | Some m =>
      let new := map (fun d => if Z.eqb d (-1) then m else Z.to_nat d) target in
      if Nat.eqb (volume new) (volume sh) then Some (new, fun idx => unravel sh (ravel new idx)) else None
  end.

(** tf.identity *)
Definition identity (sh : shape) : option plan := Some (sh, fun idx => idx).

(** tf.broadcast_to *)
Definition broadcast_plan (target : shape) (sh : shape) : option plan :=
  if broadcasts_rev (rev sh) (rev target) then Some (target, project sh) else None.

(** tf.transpose: axis i of the result is axis [nth i perm] of the argument;
    without a permutation the axes are reversed *)
Fixpoint position (p : nat) (l : list nat) : nat := match l with [] => 0 | x :: r => if Nat.eqb x p then 0 else S (position p r) end.
Definition transpose (perm : option (list nat)) (sh : shape) : option plan :=
  let perm := match perm with None => rev (seq 0 (length sh)) | Some p => p end in
  if Nat.eqb (length perm) (length sh) && forallb (fun a => existsb (Nat.eqb a) perm) (seq 0 (length sh))
  then Some (map (fun p => nth p sh 0) perm, fun idx => map (fun a => nth (position a perm) idx 0) (seq 0 (length sh)))
  else None.

(** tf.squeeze: all axes of size 1, or the given ones, which must have size 1 *)
Fixpoint squeeze_from (drop : list bool) (sh : shape) : plan :=
  match drop, sh with
  | b :: drop', d :: sh' =>
      let (s, g) := squeeze_from drop' sh' in
      if b then (s, fun idx => 0 :: g idx) else (d :: s, fun idx => match idx with i :: r => i :: g r | [] => [] end)
  | _, _ => ([], fun _ => [])
  end.
Definition squeeze (axes : option (list Z)) (sh : shape) : option plan :=
  match axes with
  | None => Some (squeeze_from (map (Nat.eqb 1) sh) sh)
  | Some axes =>
      match map_opt (fun a => axis_of a (length sh)) axes with
      | None => None
      | Some ks =>
          if forallb (fun k => Nat.eqb (nth k sh 0) 1) ks
          then Some (squeeze_from (map (fun k => existsb (Nat.eqb k) ks) (seq 0 (length sh))) sh)
          else None
      end
  end.

(** tf.boolean_mask: the axes [axis], ..., [axis] + rank of the mask - 1 become
    one axis, along which the entries with a true mask are kept.  Negative axes
    are not modelled. *)
Definition boolean_mask (mask : tensor bool) (axis : option nat) (sh : shape) : option plan :=
  let k := match axis with None => 0 | Some a => a end in
  let ms := tshape mask in
  if Nat.eqb (length ms) 0 then None else
  if negb (if list_eq_dec Nat.eq_dec (firstn (length ms) (skipn k sh)) ms then true else false) then None else
  let kept := filter (fun j => entry mask (unravel ms j)) (seq 0 (volume ms)) in
  Some (firstn k sh ++ length kept :: skipn (k + length ms) sh,
        fun idx => firstn k idx ++ unravel ms (nth (nth k idx 0) kept 0) ++ skipn (S k) idx).

(** Indexing: integers, slices, tf.newaxis and at most one ellipsis *)
Inductive key := KInt (i : Z) | KSlice (start stop step : option Z) | KNew | KEllipsis.
(** Start, number of entries and step of a slice of an axis of size [d] *)
Definition slice_bounds (start stop step : option Z) (d : nat) : option (Z * nat * Z) :=
  let step := match step with None => 1 | Some s => s end%Z in
  if Z.eqb step 0 then None else
  let n := Z.of_nat d in
  let lower := if (0 <? step)%Z then 0%Z else (-1)%Z in
  let upper := if (0 <? step)%Z then n else (n - 1)%Z in
  let clamp := fun v => (if v <? 0 then Z.max (v + n) lower else Z.min v upper)%Z in
  let first := match start with None => if (0 <? step)%Z then lower else upper | Some v => clamp v end in
  let last := match stop with None => if (0 <? step)%Z then upper else lower | Some v => clamp v end in
  let count := if (0 <? step)%Z then ((last - first + step - 1) / step)%Z else ((first - last - step - 1) / (- step))%Z in
  Some (first, Z.to_nat count, step).
Fixpoint index_plan (keys : list key) (sh : shape) : option plan :=
  match keys with
  | [] => match sh with [] => Some ([], fun _ => []) | _ :: _ => None end
  | KInt i :: ks =>
      match sh with
      | [] => None
      | d :: sh' =>
          match axis_of i d, index_plan ks sh' with
          | Some j, Some (s, g) => Some (s, fun idx => j :: g idx)
          | _, _ => None
          end
      end
  | KSlice a b c :: ks =>
      match sh with
      | [] => None
      | d :: sh' =>
          match slice_bounds a b c d, index_plan ks sh' with
          | Some (first, n, step), Some (s, g) =>
              Some (n :: s, fun idx => match idx with i :: r => Z.to_nat (first + Z.of_nat i * step) :: g r | [] => [] end)
          | _, _ => None
          end
      end
  | KNew :: ks => match index_plan ks sh with Some (s, g) => Some (1 :: s, fun idx => g (tl idx)) | None => None end
  | KEllipsis :: _ => None
  end.
Definition consumes (k : key) : bool := match k with KInt _ | KSlice _ _ _ => true | _ => false end.
Fixpoint expand_keys (fill : list key) (keys : list key) : list key :=
  match keys with
  | [] => fill
  | KEllipsis :: ks => fill ++ ks
  | k :: ks => k :: expand_keys fill ks
  end.
Definition getitem (keys : list key) (sh : shape) : option plan :=
  let used := length (filter consumes keys) in
  if Nat.ltb (length sh) used then None else
  index_plan (expand_keys (repeat (KSlice None None None) (length sh - used)) keys) sh.

(** Operations on a sequence: every index of the result reads one entry of one
    of the arguments. *)
Definition join : Type := shape * (list nat -> nat * list nat).
Definition run_join {A} (j : join) (ts : list (tensor A)) (t0 : tensor A) : tensor A :=
  Tensor (fst j) (fun idx => let (k, i) := snd j idx in entry (nth k ts t0) i).

(** tf.concat *)
Fixpoint locate (sizes : list nat) (i : nat) : nat * nat :=
  match sizes with
  | [] => (0, i)
  | n :: r => if Nat.ltb i n then (0, i) else let (k, j) := locate r (i - n) in (S k, j)
  end.
Definition concat_join (axis : Z) (shs : list shape) : option join :=
  match shs with
  | [] => None
  | sh :: _ =>
      match axis_of axis (length sh) with
      | None => None
      | Some a =>
          if forallb (fun s => Nat.eqb (length s) (length sh) && (if list_eq_dec Nat.eq_dec (remove_at a s) (remove_at a sh) then true else false)) shs
          then let sizes := map (fun s => nth a s 0) shs in
               Some (firstn a sh ++ fold_right Nat.add 0 sizes :: skipn (S a) sh,
                     fun idx => let (k, j) := locate sizes (nth a idx 0) in (k, firstn a idx ++ j :: skipn (S a) idx))
          else None
      end
  end.

(** tf.stack *)
Definition stack_join (axis : Z) (shs : list shape) : option join :=
  match shs with
  | [] => None
  | sh :: _ =>
      match axis_of axis (S (length sh)) with
      | None => None
      | Some a =>
          if forallb (fun s => if list_eq_dec Nat.eq_dec s sh then true else false) shs
          then Some (insert_at a (length shs) sh, fun idx => (nth a idx 0, remove_at a idx))
          else None
      end
  end.

(** tf.where with three arguments *)
Definition where_join (condition : tensor bool) (shs : list shape) : option join :=
  match shs with
  | [s1; s2] =>
      match common_shape [tshape condition; s1; s2] with
      | None => None
      | Some sh => Some (sh, fun idx => if entry condition (project (tshape condition) idx) then (0, project s1 idx) else (1, project s2 idx))
      end
  | _ => None
  end.

(** * DateTensor *)
(** date_tensor.py 67-109: the four tensors and the lazily computed days of the
    year, whose entries are [None] where the computation fails. *)
Record date_tensor := mk_dt { dt_ordinals : tensor Z; dt_years : tensor Z; dt_months : tensor Z; dt_days : tensor Z; dt_day_of_year : option (tensor (option Z)) }.
(** date_tensor.py 67-109 [__init__] *)
Definition new_dt (o y m d : tensor Z) : date_tensor := mk_dt o y m d None.

(** date_tensor.py 406-411 [_apply_op] *)
Definition apply_op (op : tensor Z -> option (tensor Z)) (t : date_tensor) : option date_tensor :=
  bind (op (dt_ordinals t)) (fun o => bind (op (dt_years t)) (fun y => bind (op (dt_months t)) (fun m => bind (op (dt_days t)) (fun d =>
  Some (new_dt o y m d))))).
(** date_tensor.py 398-404 [_apply_sequence_to_tensor_op] *)
Definition apply_sequence_op (op : list (tensor Z) -> option (tensor Z)) (ts : list date_tensor) : option date_tensor :=
  bind (op (map dt_ordinals ts)) (fun o => bind (op (map dt_years ts)) (fun y => bind (op (map dt_months ts)) (fun m => bind (op (map dt_days ts)) (fun d =>
  Some (new_dt o y m d))))).

(** date_tensor.py 203-230 [day_of_year] with its cache: the days of the year
    and the object afterwards *)
Definition dt_element (t : date_tensor) (idx : list nat) : date :=
  mk_date (entry (dt_ordinals t) idx) (entry (dt_years t) idx) (entry (dt_months t) idx) (entry (dt_days t) idx).
Definition dt_get_day_of_year (t : date_tensor) : tensor (option Z) * date_tensor :=
  match dt_day_of_year t with
  | Some c => (c, t)
  | None => let c := Tensor (tshape (dt_months t)) (fun idx => day_of_year (dt_element t idx)) in
            (c, mk_dt (dt_ordinals t) (dt_years t) (dt_months t) (dt_days t) (Some c))
  end.

(** tensor_wrapper.py 90-124: the methods with one argument *)
Inductive unary := ExpandDims (axis : Z) | Reshape (target : list Z) | Identity | BroadcastTo (target : shape)
  | Transpose (perm : option (list nat)) | Squeeze (axes : option (list Z)) | BooleanMask (mask : tensor bool) (axis : option nat) | GetItem (keys : list key).
Definition unary_plan (u : unary) (sh : shape) : option plan :=
  match u with
  | ExpandDims a => expand_dims a sh
  | Reshape s => reshape s sh
  | Identity => identity sh
  | BroadcastTo s => broadcast_plan s sh
  | Transpose p => transpose p sh
  | Squeeze a => squeeze a sh
  | BooleanMask m a => boolean_mask m a sh
  | GetItem k => getitem k sh
  end.
Definition unary_op {A} (u : unary) (t : tensor A) : option (tensor A) := option_map (fun p => run_plan p t) (unary_plan u (tshape t)).
Definition date_unary (u : unary) (t : date_tensor) : option date_tensor := apply_op (unary_op u) t.

(** tensor_wrapper.py 58-79: concat, stack and where *)
Inductive nary := Concat (axis : Z) | Stack (axis : Z) | Where (condition : tensor bool).
Definition nary_join (n : nary) (shs : list shape) : option join :=
  match n with Concat a => concat_join a shs | Stack a => stack_join a shs | Where c => where_join c shs end.
Definition nary_op {A} (n : nary) (ts : list (tensor A)) : option (tensor A) :=
  match ts with
  | [] => None
  | t :: _ => option_map (fun j => run_join j ts t) (nary_join n (map tshape ts))
  end.
(** An argument of concat, stack or where: of the class itself, or anything
    else *)
Inductive wrapped (T : Type) := Instance (t : T) | Foreign.
Arguments Instance {T}. Arguments Foreign {T}.
(** tensor_wrapper.py 81-88 [_validate_tensor_types] *)
Definition validate_types {T} (ts : list (wrapped T)) : option (list T) :=
  map_opt (fun w => match w with Instance t => Some t | Foreign => None end) ts.
Definition date_nary (n : nary) (ts : list (wrapped date_tensor)) : option date_tensor :=
  bind (validate_types ts) (apply_sequence_op (nary_op n)).

(** * PeriodTensor *)
(** periods/period_tensors.py 54-124 *)
Record period_tensor := mk_pt { pt_quantity : tensor Z; pt_type : period_type }.
Definition period_unary (u : unary) (t : period_tensor) : option period_tensor :=
  bind (unary_op u (pt_quantity t)) (fun q => Some (mk_pt q (pt_type t))).
Definition period_nary (n : nary) (ts : list (wrapped period_tensor)) : option period_tensor :=
  bind (validate_types ts) (fun ts =>
  bind (nary_op n (map pt_quantity ts)) (fun q =>
  match ts with
  | [] => None
  | t :: r => if forallb (fun t' => period_type_eqb (pt_type t') (pt_type t)) r then Some (mk_pt q (pt_type t)) else None
  end)).

(** * Conversion to a DateTensor *)
(** Elementwise constructors over a whole tensor: one failing entry fails the
    call.  The tensors of this section are given by their shape and the list of
    their entries in row-major order. *)
Definition flat (A : Type) : Type := shape * list A.
(** An element of a sequence: an object with year, month and day; a sequence of
    integers; an integer tensor; an integer; anything else. *)
Inductive element := EDate (y m d : Z) | ESeq (l : list Z) | ETensor (t : flat Z) | EInt (z : Z) | EOther.
Inductive date_input :=
  | InDates (sh : shape) (l : list date)
  | InDatetime (y m d : Z)
  | InArray (sh : shape) (days : list Z)
  | InTensor (t : flat Z)
  | InSequence (l : list element)
  | InOther.
Inductive outcome := Dates (sh : shape) (l : list date) | ValueError | OtherError.
Definition or_error (sh : shape) (o : option (list date)) : outcome := match o with Some l => Dates sh l | None => OtherError end.
(** date_tensor.py 628-662 [from_ordinals] *)
Definition from_ordinals (t : flat Z) : outcome := or_error (fst t) (map_opt from_ordinal (snd t)).
(** date_tensor.py 566-625 [from_year_month_day] on tensors of one shape or
    scalars (shape []) *)
Definition spread (n : nat) (t : flat Z) : list Z := match t with ([], [z]) => repeat z n | (_, l) => l end.
Definition from_year_month_day (y m d : flat Z) : outcome :=
  match common_shape [fst y; fst m; fst d] with
  | None => OtherError
  | Some sh =>
      let n := volume sh in
      or_error sh (map_opt (fun '(y, (m, d)) => from_ymd y m d) (combine (spread n y) (combine (spread n m) (spread n d))))
  end.
Definition int_of (e : element) : option Z := match e with EInt z => Some z | _ => None end.
Definition tensor_of (e : element) : option (flat Z) := match e with EInt z => Some ([], [z]) | ETensor t => Some t | _ => None end.
(** date_tensor.py 476-504 [from_datetimes] *)
Definition from_datetimes (l : list element) : outcome :=
  or_error [length l] (map_opt (fun e => match e with EDate y m d => Some (from_ymd_unchecked y m d) | _ => None end) l).
(** date_tensor.py 537-563 [from_tuples] *)
Definition from_tuples (l : list element) : outcome :=
  or_error [length l] (map_opt (fun e => match e with ESeq (y :: m :: d :: _) => from_ymd y m d | _ => None end) l).
(** date_tensor.py 466-473: the last attempt.  The message of the ValueError is
    built by adding an exception to a string, which raises a TypeError. *)
Definition last_ditch (l : list element) : outcome :=
  match map_opt int_of l with
  | Some zs => from_ordinals ([length zs], zs)
  | None => OtherError
  end.
(** date_tensor.py 421-473 [convert_to_date_tensor] *)
Definition convert_to_date_tensor (x : date_input) : outcome :=
  match x with
  | InDates sh l => Dates sh l
  | InDatetime y m d => Dates [] [from_ymd_unchecked y m d]
  | InArray sh days => Dates sh (map from_np_datetime days)
  | InTensor t => from_ordinals t
  | InSequence [] => from_ordinals ([0], [])
  | InSequence (e :: r) =>
      match e with
      | EDate _ _ _ => from_datetimes (e :: r)
      | ESeq _ => from_tuples (e :: r)
      | _ =>
          match e :: r with
          | [a; b; c] =>
              match tensor_of a, tensor_of b, tensor_of c with
              | Some y, Some m, Some d => from_year_month_day y m d
              | _, _, _ => OtherError
              end
          | l => last_ditch l
          end
      end
  | InOther => OtherError
  end.

(** * The choice of a calendar *)
(** The weekend mask: missing, a tuple such as WeekendMask.SATURDAY_SUNDAY, or a
    Tensor (or array) of seven elements *)
Inductive mask_input := NoMask | MaskTuple (m : list bool) | MaskTensor (m : list bool).
Inductive calendar := Bounded (c : bcal) | Unbounded (c : ucal).
(** holiday_calendar_factory.py 95-105 [_tensor_is_not_empty]; [None] is an
    exception: for a tf.Tensor the method [num_elements] is compared with 0
    without being called *)
Definition not_empty (h : option date_input) : option bool :=
  match h with
  | None => Some false
  | Some (InArray _ l) => Some (negb (Nat.eqb (length l) 0))
  | Some (InTensor _) => None
  | Some (InSequence l) => Some (negb (Nat.eqb (length l) 0))
  | Some (InDates _ _) | Some (InDatetime _ _ _) | Some InOther => Some true
  end.
(** bounded_holiday_calendar.py 69 and unbounded_holiday_calendar.py 48-49: the
    expression [weekend_mask or NONE] takes the truth value of the mask, which
    raises for a Tensor or an array of seven elements *)
Definition bounded_mask (m : mask_input) : option (option (list Z)) :=
  match m with NoMask => Some None | MaskTuple l => Some (Some (map b2z l)) | MaskTensor _ => None end.
Definition unbounded_mask (m : mask_input) : option (list bool) :=
  match m with NoMask => None | MaskTuple l | MaskTensor l => Some l end.
Definition holidays_of (h : option date_input) : option (option (list date)) :=
  match h with
  | None => Some None
  | Some x => match convert_to_date_tensor x with Dates _ l => Some (Some l) | _ => None end
  end.
(** holiday_calendar_factory.py 23-92 [create_holiday_calendar] *)
Definition create_holiday_calendar (mask : mask_input) (holidays : option date_input) (start_year end_year : option Z) : option calendar :=
  match not_empty holidays with
  | None => None
  | Some nonempty =>
      if nonempty || match start_year, end_year with Some _, Some _ => true | _, _ => false end
      then bind (bounded_mask mask) (fun m => bind (holidays_of holidays) (fun h => option_map Bounded (make_bcal m h start_year end_year)))
      else bind (holidays_of holidays) (fun h => Some (Unbounded (mk_ucal (unbounded_mask mask) (option_map (map ordinal) h))))
  end.
