(** Model of the multidimensional PDE stepper: tf_quant_finance/math/pde/steppers/
    multidim_parabolic_equation_stepper.py and douglas_adi.py.  Definitions only.

    One batch entry.  A tensor is a function of the index, and an index gives the
    position along every dimension; sizes are kept apart.  Values are exact reals,
    divisions are those of the reals: where a divisor is zero (inf or NaN in the
    code) the model means nothing, and the theorems exclude it.  Coefficients are
    already broadcast to the grid (lines 1076-1100).  The transpositions that make
    one dimension the last and back (douglas_adi.py 257-335) are left out: the
    operations between them act along that dimension. *)
From Coq Require Import Reals List Bool Arith ZArith.
From Verif Require Import PdeStepModel.
Import ListNotations.
Open Scope R_scope.

Definition index := nat -> nat.
Definition tensor := index -> R.
Definition put (d v : nat) (k : index) : index := fun e => if Nat.eqb e d then v else k e.

(** a_ij, b_i, c, A_ij and B_i of the equation
    dV/dt + Sum a_ij d2(A_ij V)/dx_i dx_j + Sum b_i d(B_i V)/dx_i + c V = 0,
    as functions of time *)
Record coefficient_fns := { second_fn : R -> nat -> nat -> option tensor; first_fn : R -> nat -> option tensor; zeroth_fn : R -> option tensor;
                            inner_second_fn : R -> nat -> nat -> option tensor; inner_first_fn : R -> nat -> option tensor }.
(** A boundary callable returns alpha, beta and gamma, tensors without the axis of
    the boundary: the index of that axis is set to 0.  None is the default. *)
Definition condition := option (R -> option tensor * option tensor * tensor).

Section Step.
  Variable n : nat.                         (* the number of dimensions *)
  Variable sizes : nat -> nat.              (* the shape of the value grid *)
  Variable coord_grid : nat -> nat -> R.
  Variable lower upper : nat -> condition.
  Variable co : coefficient_fns.

  Definition is_default (c : condition) : bool := match c with None => true | Some _ => false end.
  (** multidim_parabolic_equation_stepper.py 265-286 *)
  Definition lower_trim (d : nat) : nat := if is_default (lower d) then 0%nat else 1%nat.
  Definition upper_trim (d : nat) : nat := if is_default (upper d) then (sizes d - 1)%nat else (sizes d - 2)%nat.
  Definition inner_size (d : nat) : nat := (upper_trim d + 1 - lower_trim d)%nat.
  (** 1064-1073 *)
  Definition delta (d : nat) : R := coord_grid d 1%nat - coord_grid d 0%nat.
  (** _trim_boundaries, 1160-1199: the entry [k] of a slice that begins at
      [lo + shifts] *)
  Definition no_shift : nat -> Z := fun _ => 0%Z.
  Definition shift1 (d : nat) (s : Z) : nat -> Z := fun e => if Nat.eqb e d then s else 0%Z.
  Definition shift2 (d1 : nat) (s1 : Z) (d2 : nat) (s2 : Z) : nat -> Z := fun e => if Nat.eqb e d2 then s2 else if Nat.eqb e d1 then s1 else 0%Z.
  Definition trim (lo : nat -> nat) (shifts : nat -> Z) (t : tensor) : tensor := fun k => t (fun e => Z.to_nat (Z.of_nat (k e + lo e) + shifts e)).
  Definition times_coeff (t : tensor) (lo : nat -> nat) (shifts : nat -> Z) (c : option tensor) : tensor :=
    match c with None => t | Some c => fun k => t k * trim lo shifts c k end.
  (** _remove_default_boundary, 1202-1230 *)
  Definition padding_lower (dims : list nat) (d : nat) : nat := if is_default (lower d) && existsb (Nat.eqb d) dims then 1%nat else 0%nat.
  Definition padding_upper (dims : list nat) (d : nat) : nat := if is_default (upper d) && existsb (Nat.eqb d) dims then 1%nat else 0%nat.
  Definition trimmed_lower (dims : list nat) (d : nat) : nat := (lower_trim d + padding_lower dims d)%nat.
  (** tf.pad with zeros: [size] is the size before padding *)
  Definition pad (pl : nat -> nat) (size : nat -> nat) (t : tensor) : tensor := fun k =>
    if forallb (fun e => Nat.leb (pl e) (k e) && Nat.ltb (k e) (pl e + size e)) (seq 0 n) then t (fun e => (k e - pl e)%nat) else 0.
  (** _slice to one position, 1146-1157, broadcast along the axis *)
  Definition slice (d j : nat) (t : tensor) : tensor := fun k => t (put d j k).
  (** 1052-1061, tf.concat along the axis [d]; [len] is the length of [rest] *)
  Definition append_first (d : nat) (first rest : tensor) : tensor := fun k => match k d with O => first k | S j => rest (put d j k) end.
  Definition append_last (d len : nat) (rest last : tensor) : tensor := fun k => if Nat.ltb (k d) len then rest k else last k.
  Definition append_first_and_last (d len : nat) (first mid last : tensor) : tensor := fun k => if Nat.eqb (k d) 0 then first k else if Nat.ltb (k d) (len - 1) then mid k else last k.

  Definition matrix3 := (tensor * tensor * tensor)%type.   (* superdiagonal, diagonal, subdiagonal *)
  (** 450-563 *)
  Definition first_order_matrix (t : R) (d : nat) : matrix3 :=
    let lo := trimmed_lower [d] in
    match first_fn co t d, inner_first_fn co t d with
    | None, None => ((fun _ => 0), (fun _ => 0), (fun _ => 0))
    | b, B =>
        let sup := -1 / (2 * delta d) in
        let sub := 1 / (2 * delta d) in
        let diag := - sup - sub in
        (times_coeff (times_coeff (fun _ => sup) lo no_shift b) lo (shift1 d 1) B,
         times_coeff (times_coeff (fun _ => diag) lo no_shift b) lo no_shift B,
         times_coeff (times_coeff (fun _ => sub) lo no_shift b) lo (shift1 d (-1)) B)
    end.
  Definition second_order_matrix (t : R) (d : nat) : matrix3 :=
    let lo := trimmed_lower [d] in
    match second_fn co t d d, inner_second_fn co t d d with
    | None, None => ((fun _ => 0), (fun _ => 0), (fun _ => 0))
    | a, A =>
        let sup := -1 / (delta d * delta d) in
        let sub := -1 / (delta d * delta d) in
        let diag := - sup - sub in
        (times_coeff (times_coeff (fun _ => sup) lo no_shift a) lo (shift1 d 1) A,
         times_coeff (times_coeff (fun _ => diag) lo no_shift a) lo no_shift A,
         times_coeff (times_coeff (fun _ => sub) lo no_shift a) lo (shift1 d (-1)) A)
    end.
  Definition tridiagonal_matrix (t : R) (d : nat) : matrix3 :=
    let '(sup1, diag1, sub1) := first_order_matrix t d in
    let '(sup2, diag2, sub2) := second_order_matrix t d in
    ((fun k => sup1 k + sup2 k), (fun k => diag1 k + diag2 k), (fun k => sub1 k + sub2 k)).
  (** 717-737 and 772-791: the inner coefficient and, at position [j] along the
      axis, the outer one *)
  Definition edge_inner (t : R) (d : nat) : tensor := match inner_first_fn co t d with None => fun _ => 1 | Some B => trim lower_trim no_shift B end.
  Definition edge_outer (t : R) (d j : nat) : tensor :=
    match first_fn co t d with
    | None => match inner_first_fn co t d with None => fun _ => 0 | Some _ => fun _ => 1 end
    | Some b => slice d j (trim lower_trim no_shift b)
    end.
  (** 700-752 *)
  Definition default_lower (t : R) (d : nat) (m : matrix3) : matrix3 :=
    let '(sup, diag, sub) := m in
    let extra_sup := fun k => slice d 1 (edge_inner t d) k * edge_outer t d 0 k / delta d in
    let extra_diag := fun k => - slice d 0 (edge_inner t d) k * edge_outer t d 0 k / delta d in
    (append_first d (fun k => - extra_sup k) sup, append_first d (fun k => - extra_diag k) diag, append_first d (fun _ => 0) sub).
  (** 755-809 *)
  Definition default_upper (t : R) (d : nat) (m : matrix3) : matrix3 :=
    let '(sup, diag, sub) := m in
    let last := (inner_size d - 1)%nat in
    let extra_diag := fun k => slice d last (edge_inner t d) k * edge_outer t d last k / delta d in
    let extra_sub := fun k => - slice d (last - 1) (edge_inner t d) k * edge_outer t d last k / delta d in
    (append_last d last sup (fun _ => 0), append_last d last diag (fun k => - extra_diag k), append_last d last sub (fun k => - extra_sub k)).
  (** 656-697 *)
  Definition apply_default (t : R) (d : nat) (m : matrix3) : matrix3 :=
    let m := if is_default (lower d) then default_lower t d m else m in
    if is_default (upper d) then default_upper t d m else m.

  (** 1103-1126 with dx0 = dx1; the case of neither alpha nor beta, which raises an
      error, has no meaning here *)
  Definition discretize (dx : R) (abc : option tensor * option tensor * tensor) : tensor * tensor * tensor :=
    let '(alpha, beta, gamma) := abc in
    match beta with
    | None => ((fun _ => 0), (fun _ => 0), fun k => match alpha with None => 0 | Some alpha => gamma k / alpha k end)
    | Some beta =>
        let denom := fun k => beta k * dx * (2 * dx + dx) + match alpha with None => 0 | Some alpha => alpha k * dx * dx * (dx + dx) end in
        ((fun k => beta k * (dx + dx) * (dx + dx) / denom k), (fun k => - beta k * dx * dx / denom k), (fun k => gamma k * dx * dx * (dx + dx) / denom k))
    end.
  (** 1087-1100 and 1129-1143: the coefficients at the inner index [k], where the
      positions along the dimensions selected by [trimmed] are those of the inner grid *)
  Definition reshape (d : nat) (trimmed : nat -> bool) (c : tensor) : tensor := fun k => c (put d 0 (fun e => if trimmed e then (k e + lower_trim e)%nat else k e)).
  Definition reshape3 (d : nat) (trimmed : nat -> bool) (abc : option tensor * option tensor * tensor) : option tensor * option tensor * tensor :=
    let '(alpha, beta, gamma) := abc in (option_map (reshape d trimmed) alpha, option_map (reshape d trimmed) beta, reshape d trimmed gamma).
  Definition at_time (c : condition) (t : R) : option (option tensor * option tensor * tensor) := option_map (fun f => f t) c.
  Definition has_beta (c : option (option tensor * option tensor * tensor)) : bool := match c with Some (_, Some _, _) => true | _ => false end.
  (** 885-894 *)
  Definition dirichlet_element (edge : tensor) (c : option (option tensor * option tensor * tensor)) : tensor :=
    match c with Some (Some alpha, _, gamma) => fun k => edge k * gamma k / alpha k | _ => fun _ => 0 end.
  (** 912-933: the corrections of the diagonal, of the neighbouring diagonal and the
      inhomogeneous element *)
  Definition robin_elements (d : nat) (edge : tensor) (c : option (option tensor * option tensor * tensor)) : tensor * tensor * tensor :=
    match c with
    | None => ((fun _ => 0), (fun _ => 0), (fun _ => 0))
    | Some abc => let '(xi1, xi2, eta) := discretize (delta d) abc in ((fun k => edge k * xi1 k), (fun k => edge k * xi2 k), (fun k => edge k * eta k))
    end.
  (** 812-950 *)
  Definition apply_robin (t : R) (d : nat) (m : matrix3) : matrix3 * tensor :=
    let '(sup, diag, sub) := m in
    if is_default (lower d) && is_default (upper d) then (m, fun _ => 0)
    else
      let size := inner_size d in
      let low := option_map (reshape3 d (fun _ => true)) (at_time (lower d) t) in
      let up := option_map (reshape3 d (fun _ => true)) (at_time (upper d) t) in
      let sub_first := slice d 0 sub in
      let sup_last := slice d (size - 1) sup in
      if negb (has_beta low) && negb (has_beta up) then
        (m, append_first_and_last d size (dirichlet_element sub_first low) (fun _ => 0) (dirichlet_element sup_last up))
      else
        let '(diag_first, sup_first, first_inhomog) := robin_elements d sub_first low in
        let '(diag_last, sub_last, last_inhomog) := robin_elements d sup_last up in
        ((append_first_and_last d size (fun k => slice d 0 sup k + sup_first k) sup sup,
          append_first_and_last d size (fun k => slice d 0 diag k + diag_first k) diag (fun k => slice d (size - 1) diag k + diag_last k),
          append_first_and_last d size sub sub (fun k => slice d (size - 1) sub k + sub_last k)),
         append_first_and_last d size first_inhomog (fun _ => 0) last_inhomog).
  (** 364-369 and 424-428 *)
  Definition add_zeroth (t : R) (m : matrix3) : matrix3 :=
    let '(sup, diag, sub) := m in
    match zeroth_fn co t with None => m | Some c => (sup, (fun k => diag k + - trim lower_trim no_shift c k / INR n), sub) end.
  (** 372-430: the matrix of dimension [d] and its inhomogeneous term *)
  Definition equation_params (t : R) (d : nat) : matrix3 * tensor :=
    let '(m, inhomog) := apply_robin t d (apply_default t d (tridiagonal_matrix t d)) in
    (add_zeroth t m, inhomog).
  (** 566-653: the contributions of the points (+1, +1), (+1, -1), (-1, +1) and
      (-1, -1) *)
  Definition mixed_params (t : R) (d1 d2 : nat) : option (tensor * tensor * tensor * tensor) :=
    let lo := trimmed_lower [d1; d2] in
    let size := fun e => (inner_size e - padding_lower [d1; d2] e - padding_upper [d1; d2] e)%nat in
    let append_zeros := pad (padding_lower [d1; d2]) size in
    match second_fn co t d1 d2, inner_second_fn co t d1 d2 with
    | None, None => None
    | outer, inner =>
        let contrib := times_coeff (fun _ => -1 / (2 * delta d1 * delta d2)) lo no_shift outer in
        match inner with
        | None => let contrib := append_zeros contrib in Some (contrib, (fun k => - contrib k), (fun k => - contrib k), contrib)
        | Some _ =>
            Some (append_zeros (times_coeff contrib lo (shift2 d1 1 d2 1) inner),
                  append_zeros (times_coeff (fun k => - contrib k) lo (shift2 d1 1 d2 (-1)) inner),
                  append_zeros (times_coeff (fun k => - contrib k) lo (shift2 d1 (-1) d2 1) inner),
                  append_zeros (times_coeff contrib lo (shift2 d1 (-1) d2 (-1)) inner))
        end
    end.

  (** 979-1041: restores the boundary of dimension [d]; those of the dimensions
      before it have been restored *)
  Definition append_boundary (t : R) (d : nat) (grid : tensor) : tensor :=
    let size := inner_size d in
    let trimmed := fun e => Nat.ltb d e in
    let value abc v1 v2 := let '(xi1, xi2, eta) := discretize (delta d) (reshape3 d trimmed abc) in fun k => xi1 k * v1 k + xi2 k * v2 k + eta k in
    let grid' := match at_time (upper d) t with
                 | None => grid
                 | Some abc => append_last d size grid (value abc (slice d (size - 1) grid) (slice d (size - 2) grid))
                 end in
    match at_time (lower d) t with
    | None => grid'
    | Some abc => append_first d (value abc (slice d 0 grid) (slice d 1 grid)) grid'
    end.
  (** 953-976 *)
  Definition append_boundaries (t : R) (inner : tensor) : tensor := fold_left (fun g d => append_boundary t d g) (seq 0 n) inner.

  (** douglas_adi.py 205-254; [values] has all boundaries *)
  Definition mixed_explicit (values : tensor) (m : tensor * tensor * tensor * tensor) (dt : R) (d1 d2 : nat) : tensor :=
    let '(pp, pm, mp, mm) := m in
    let values := pad (fun e => if is_default (lower e) then 1%nat else 0%nat) sizes values in
    let at_ s1 s2 := trim (fun _ => 1%nat) (shift2 d1 s1 d2 s2) values in
    fun k => (mm k * at_ (-1)%Z (-1)%Z k + mp k * at_ (-1)%Z 1%Z k + pm k * at_ 1%Z (-1)%Z k + pp k * at_ 1%Z 1%Z k) * dt.
  (** douglas_adi.py 257-277; the first subdiagonal and the last superdiagonal
      entry of a line are ignored *)
  Definition tridiag_explicit (m : matrix3) (v : tensor) (d : nat) : tensor :=
    let '(sup, diag, sub) := m in
    fun k => (match k d with O => 0 | S j => sub k * v (put d j k) end) + diag k * v k + (if Nat.ltb (S (k d)) (inner_size d) then sup k * v (put d (S (k d)) k) else 0).
  (** douglas_adi.py 280-306: the line through [k] along dimension [d] *)
  Definition line (d : nat) (t : tensor) (k : index) : list R := map (fun j => t (put d j k)) (seq 0 (inner_size d)).
  Definition correction_line (theta dt : R) (m : matrix3) (rhs : tensor) (d : nat) (k : index) : option (list R) :=
    let '(sup, diag, sub) := m in
    thomas 0 0 (line d (fun k => - theta * sub k * dt) k) (line d (fun k => 1 - theta * diag k * dt) k) (line d (fun k => - theta * sup k * dt) k) (line d rhs k).
  (** A line on which the solver divides by zero means nothing; the theorems
      exclude it. *)
  Definition correction (theta dt : R) (m : matrix3) (rhs : tensor) (d : nat) : tensor := fun k =>
    match correction_line theta dt m rhs d k with Some l => nth (k d) l 0 | None => 0 end.
  Definition pairs : list (nat * nat) := flat_map (fun i => map (fun j => (i, j)) (seq (i + 1) (n - (i + 1)))) (seq 0 (n - 1)).
  (** douglas_adi.py 158-185 *)
  Definition explicit_substep (values : tensor) (t1 t2 : R) : tensor :=
    let dt := t2 - t1 in
    let values_with_boundaries := append_boundaries t1 values in
    let g := fold_left (fun g p => match mixed_params t1 (fst p) (snd p) with
                                   | None => g
                                   | Some m => fun k => g k + mixed_explicit values_with_boundaries m dt (fst p) (snd p) k
                                   end) pairs values in
    let g := fold_left (fun g i => fun k => g k + tridiag_explicit (fst (equation_params t1 i)) values i k * dt) (seq 0 n) g in
    fold_left (fun g i => fun k => g k + snd (equation_params t1 i) k * dt) (seq 0 n) g.
  (** douglas_adi.py 193-199 and 283-285 *)
  Definition correction_rhs (theta t1 t2 : R) (values current : tensor) (i : nat) : tensor := fun k =>
    current k - theta * (tridiag_explicit (fst (equation_params t1 i)) values i k * (t2 - t1)) + theta * (snd (equation_params t2 i) k - snd (equation_params t1 i) k) * (t2 - t1).
  Definition correction_substep (theta t1 t2 : R) (values current : tensor) (i : nat) : tensor :=
    correction theta (t2 - t1) (fst (equation_params t2 i)) (correction_rhs theta t1 t2 values current i) i.
  (** douglas_adi.py 151-201 *)
  Definition douglas_scheme (theta : R) (values : tensor) (t1 t2 : R) : option tensor :=
    if Rlt_dec theta 0 then None
    else if Rlt_dec 1 theta then None
    else
      let g := explicit_substep values t1 t2 in
      if Req_EM_T theta 0 then Some g
      else Some (fold_left (correction_substep theta t1 t2 values) (seq 0 n) g).
  (** multidim_parabolic_equation_stepper.py 304-337.  Simplification: grids with
      fewer than four points along a dimension are refused; the code concatenates
      slices that overlap or are empty on some of them. *)
  Definition douglas_step (theta t1 t2 : R) (value_grid : tensor) : option tensor :=
    if forallb (fun d => Nat.leb 4 (sizes d)) (seq 0 n) then
      option_map (append_boundaries t2) (douglas_scheme theta (trim lower_trim no_shift value_grid) t1 t2)
    else None.
End Step.
