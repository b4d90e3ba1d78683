(** Model of tf_quant_finance/math/random_ops/halton/halton_impl.py and of
    tf_quant_finance/math/qmc/lattice_rule.py.  Definitions only.  Integers are
    [Z], floating point numbers exact rationals (the integer-valued floats used
    for digits and weights are exact in the code as long as they fit the
    mantissa).  Tensors elementwise: one sample, one event dimension. *)
From Coq Require Import ZArith QArith Qround List Bool.
From Verif Require Import HaltonData SobolModel.
Import ListNotations.
Open Scope Z_scope.

Definition Qsum (l : list Q) : Q := fold_right Qplus 0%Q l.

(** 29-41; [max_index] is 2^24-1 for float32 and 2^53-1 for float64,
    [num_coeffs] 24 and 54 *)
Definition max_index32 : Z := 2 ^ 24 - 1.
Definition num_coeffs32 : nat := 24.
(** 419-439: floor(log num / log base) + 1, taken as exact: the number of
    digits of num in the base *)
Fixpoint base_digits (fuel : nat) (num base : Z) : nat :=
  match fuel with
  | O => O
  | S f => if num <? base then 1%nat else S (base_digits f (num / base) base)
  end.
Definition base_expansion_size (num base : Z) : nat := base_digits (Z.to_nat (Z.log2 num + 1)) num base.

(** 253-287 for a dimension with radix [b] whose expansion has [size] digits;
    [k] is the coefficient position *)
Definition weight (b : Z) (size k : nat) : Z :=
  let weight_mask := Nat.leb size k in
  let capped_exponent := if weight_mask then O else k in
  b ^ Z.of_nat capped_exponent.
Definition coeff (b : Z) (size : nat) (index : Z) (k : nat) : Z :=
  let weight_mask := Nat.leb size k in
  (index / weight b size k * (if weight_mask then 0 else 1)) mod b.
(** 288-290 *)
Definition halton_value (b : Z) (size max_size : nat) (index : Z) : Q :=
  Qsum (map (fun k => inject_Z (coeff b size index k) / inject_Z b / inject_Z (weight b size k))%Q (seq 0 max_size)).

(** 323-336; [perms] is the flattened tensor *)
Definition offset (radixes : list Z) (d k : nat) : Z :=
  fold_right Z.add 0 (firstn d radixes) + Z.of_nat k * fold_right Z.add 0 radixes.
Definition randomize (perms : list Z) (radixes : list Z) (d k : nat) (c : Z) : Z :=
  nth (Z.to_nat (c + offset radixes d k)) perms 0.
(** 339-375: [P] holds the permutation drawn for coefficient k and dimension d
    at nth d (nth k P); concatenated along the last axis, then flattened (331) *)
Definition flatten_perms (P : list (list (list Z))) : list Z := concat (map (@concat Z) P).
(** 292-320 *)
Definition halton_randomized (perms : list Z) (radixes : list Z) (d : nat) (zero_correction : Q) (b : Z) (size max_size : nat) (index : Z) : Q :=
  let c k := randomize perms radixes d k (coeff b size index k) in
  let masked k := c k * (if Nat.leb size k then 0 else 1) in
  (Qsum (map (fun k => inject_Z (masked k) / inject_Z b / inject_Z (weight b size k)) (seq 0 max_size)) + zero_correction)%Q.

(** 59-320, sample(dim, sequence_indices = indices) in float32; the second
    component of the result (the parameters) is what is passed in *)
Definition halton_sample (dim : nat) (sequence_indices : list Z) (randomization : option (list Z * list Q)) : list (list Q) :=
  let radixes := firstn dim primes in
  let sizes := map (base_expansion_size max_index32) radixes in
  let max_size := fold_right Nat.max 0%nat sizes in
  map (fun i =>
         map (fun d =>
                let b := nth d radixes 0 in
                let size := nth d sizes 0%nat in
                match randomization with
                | None => halton_value b size max_size (i + 1)
                | Some (perms, zero_correction) => halton_randomized perms radixes d (nth d zero_correction 0%Q) b size max_size (i + 1)
                end)
             (seq 0 dim))
      sequence_indices.
(** 405-407 *)
Definition default_indices (num_results : nat) : list Z := map Z.of_nat (seq 0 num_results).

(** lattice_rule.py 196-229, one coordinate; [floormod x 1] is the fractional
    part *)
Definition floormod1 (x : Q) : Q := (x - inject_Z (Qfloor x))%Q.
Definition lattice_point (z num_results : Z) (additive_shift : option Q) (index : Z) : Q :=
  let scaled := (inject_Z z / inject_Z num_results)%Q in
  let point := (inject_Z index * floormod1 scaled)%Q in
  let point := match additive_shift with None => point | Some s => (point + s)%Q end in
  floormod1 point.
Definition lattice_rule_sample (generating_vectors : list Z) (dim : nat) (num_results : Z) (sequence_indices : option (list Z))
    (additive_shift : option (list Q)) (apply_tent_transform : bool) : list (list Q) :=
  let idx := match sequence_indices with None => map Z.of_nat (seq 0 (Z.to_nat num_results)) | Some l => l end in
  map (fun i => map (fun d =>
         let p := lattice_point (nth d generating_vectors 0) num_results (option_map (fun s => nth d s 0%Q) additive_shift) i in
         if apply_tent_transform then tent_transform p else p) (seq 0 dim)) idx.
