(** Model of tf_quant_finance/math/random_ops/sobol/sobol_impl.py and of
    tf_quant_finance/math/qmc/{sobol,digital_net,utils}.py.  Definitions only.
    Non-negative integers are [N] (all values fit the integer dtypes in the
    documented ranges), reals are exact rationals.  Tensors elementwise: one
    dimension, one sample. *)
From Coq Require Import NArith ZArith QArith List Bool.
Import ListNotations.
Open Scope N_scope.

(** sobol_impl.py 171-197, one dimension with polynomial [a] and initial
    direction numbers [init] ([deg] = floor(log2 a)); numbers are computed
    left to right. *)
Definition degree (a : N) : nat := N.to_nat (N.log2 a).
Definition direction_step (a : N) (deg : nat) (m : list N) : N :=
  let j := length m in
  fold_left (fun acc i =>
      if N.eqb (N.land (N.shiftr a (N.of_nat i)) 1) 1
      then N.lxor acc (N.shiftl (nth (j - deg + i) m 0) (N.of_nat (deg - i))) else acc)
    (seq 0 deg) (nth (j - deg) m 0).
Fixpoint direction_extend (a : N) (deg : nat) (m : list N) (fuel : nat) : list N :=
  match fuel with
  | O => m
  | S f => direction_extend a deg (m ++ [direction_step a deg m]) f
  end.
Definition direction_row (a : N) (init : list N) : list N :=
  direction_extend a (degree a) (firstn (degree a) init) (32 - degree a).
(** polynomials and initial numbers of dimensions 2, 3, ... from the data file *)
Definition compute_direction_numbers (dim : nat) (data : list (N * list N)) : list (list N) :=
  repeat 1 32 :: map (fun k => let '(a, init) := nth k data (0, []) in direction_row a init) (seq 0 (dim - 1)).

(** sobol_impl.py 118-167 for one index and one row [m] of direction numbers;
    [num_digits] = ceil(log2(skip + num_results + 1)) is passed in. *)
Definition sobol_int (num_digits : nat) (m : list N) (index : N) : N :=
  let direction j := N.shiftl (nth j m 0) (N.of_nat (num_digits - 1 - j)) in
  let product j := direction j * N.land 1 (N.shiftr index (N.of_nat j)) in
  fold_left (fun acc i => N.lxor acc (product i)) (seq 1 (num_digits - 1)) (product 0%nat).
Definition to_unit (num_digits : nat) (x : N) : Q := (inject_Z (Z.of_N x) / inject_Z (2 ^ Z.of_nat num_digits))%Q.
Definition sobol_num_digits (num_results skip : nat) : nat := N.to_nat (N.log2_up (N.of_nat (skip + num_results + 1))).
Definition sobol_sample (dim num_results skip : nat) (data : list (N * list N)) : list (list Q) :=
  let num_digits := sobol_num_digits num_results skip in
  map (fun k => map (fun m => to_unit num_digits (sobol_int num_digits m (N.of_nat (skip + 1 + k))))
                    (compute_direction_numbers dim data))
      (seq 0 num_results).

(** qmc/utils.py 120-158 *)
Definition filter_tensor (value bit_mask : N) (bit_index : nat) : N :=
  if N.eqb 1 (N.land (N.shiftr bit_mask (N.of_nat bit_index)) 1) then value else 0.
(** qmc/utils.py 94-117 *)
Definition tent_transform (x : Q) : Q := if Qlt_le_dec x (1 # 2) then (2 * x)%Q else (2 * (1 - x))%Q.

(** qmc/sobol.py 221-243 *)
Definition identity_matrix (num_columns num_digits : nat) : list N :=
  map (fun i => N.shiftl 1 (N.of_nat (num_digits - 1 - i))) (seq 0 num_columns).
(** qmc/sobol.py 246-395, one dimension; the while loop over [column] updates
    all columns at once.  floor(log2) taken as exact. *)
Definition matrix_update (polynomial : N) (deg column : nat) (matrix : list N) : list N :=
  let column_value := nth column matrix 0 in
  map (fun idx =>
         let should_be_updated := Nat.leb (Nat.max deg (column + 1)) idx && Nat.leb idx (column + deg) in
         let base := if Nat.eqb idx (column + deg) then N.shiftr column_value (N.of_nat deg) else nth idx matrix 0 in
         let updated := N.lxor base (filter_tensor column_value polynomial (column + deg - idx)) in
         if should_be_updated then updated else nth idx matrix 0)
      (seq 0 (length matrix)).
Fixpoint matrix_loop (polynomial : N) (deg column fuel : nat) (matrix : list N) : list N :=
  match fuel with
  | O => matrix
  | S f => matrix_loop polynomial deg (S column) f (matrix_update polynomial deg column matrix)
  end.
Definition generating_matrix (polynomial : N) (init : list N) (log_num_results num_digits : nat) : list N :=
  let directions := map (fun i => nth i init 0) (seq 0 log_num_results) in
  let initial := map (fun i => N.shiftl (nth i directions 0) (N.of_nat (num_digits - 1 - i))) (seq 0 log_num_results) in
  matrix_loop polynomial (degree polynomial) 0 (log_num_results - 1) initial.
Definition sobol_generating_matrices (dim num_digits log_num_results : nat) (data : list (N * list N)) : list (list N) :=
  identity_matrix log_num_results num_digits ::
  map (fun k => let '(a, init) := nth k data (0, []) in generating_matrix a init log_num_results num_digits) (seq 0 (dim - 1)).

(** qmc/digital_net.py 379-419, one dimension and one index *)
Definition digital_net_int (matrix : list N) (log_num_results : nat) (digital_shift index : N) : N :=
  fold_left (fun acc j => N.lxor acc (filter_tensor (nth j matrix 0) index j)) (seq 0 log_num_results) digital_shift.
(** qmc/digital_net.py 422-527, one dimension *)
Definition scramble_column (scrambling : list N) (num_digits : nat) (g : N) : N :=
  fold_left (fun acc shift => N.lxor acc (filter_tensor (N.shiftr (nth shift scrambling 0) (N.of_nat shift)) g (num_digits - 1 - shift)))
    (seq 0 num_digits) 0.
Definition scramble_generating_matrix (matrix scrambling : list N) (num_digits : nat) : list N :=
  map (scramble_column scrambling num_digits) matrix.
(** qmc/digital_net.py 279-419, one dimension.  ceil(log2 num_results) exact. *)
Definition log_num (num_results : nat) : nat := N.to_nat (N.log2_up (N.of_nat num_results)).
Definition digital_net_sample (matrix : list N) (num_results num_digits : nat) (sequence_indices : option (list N))
    (scrambling : option (list N)) (digital_shift : option N) (apply_tent_transform : bool) : list Q :=
  let idx := match sequence_indices with None => map N.of_nat (seq 0 num_results) | Some l => l end in
  let shift := match digital_shift with None => 0 | Some s => s end in
  let matrix := match scrambling with None => matrix | Some s => scramble_generating_matrix matrix s num_digits end in
  map (fun i =>
         let point := to_unit num_digits (digital_net_int matrix (log_num num_results) shift i) in
         if apply_tent_transform then tent_transform point else point) idx.

(** qmc/sobol.py 97-129 *)
Definition qmc_sobol_sample (dim num_results : nat) (data : list (N * list N)) (sequence_indices : option (list N))
    (digital_shift : option (list N)) (scrambling : option (list (list N))) (apply_tent_transform : bool) : list (list Q) :=
  let num_digits := log_num num_results in
  let matrices := sobol_generating_matrices dim num_digits (log_num num_results) data in
  let matrices := match scrambling with
                  | None => matrices
                  | Some s => map (fun k => scramble_generating_matrix (nth k matrices []) (nth k s []) num_digits) (seq 0 dim)
                  end in
  let columns := map (fun k => digital_net_sample (nth k matrices []) num_results num_digits sequence_indices None
                                 (option_map (fun s => nth k s 0) digital_shift) apply_tent_transform) (seq 0 dim) in
  map (fun r => map (fun col => nth r col 0%Q) columns)
      (seq 0 (match sequence_indices with None => num_results | Some l => length l end)).

(** qmc/utils.py 23-54 for a signed dtype of [bits] bits *)
Definition exp2 (bits value : nat) : N := if Nat.leb (bits - 1) value then 2 ^ N.of_nat (bits - 1) - 1 else N.shiftl 1 (N.of_nat value).
(** qmc/digital_net.py 155-202: the integers that may be drawn; used for
    digital shifts (45-95) and for scrambling matrices (98-152).  The draw
    itself is not modelled. *)
Definition random_range (bits num_digits : nat) (x : N) : Prop := exp2 bits (num_digits - 1) <= x < exp2 bits num_digits.
(** sobol_impl.py 85-104: the checks made when validate_args is set *)
Definition sobol_validate (dim num_results skip : Z) : bool :=
  (1 <=? dim)%Z && (0 <? num_results)%Z && (0 <? skip)%Z && (skip <? 2 ^ 31 - 1 - num_results)%Z.
