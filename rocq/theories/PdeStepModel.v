(** Model of the one-dimensional PDE steppers: tf_quant_finance/math/pde/steppers/
    parabolic_equation_stepper.py, weighted_implicit_explicit.py, implicit.py,
    explicit.py, crank_nicolson.py, extrapolation.py, composite_stepper.py and
    oscillation_damped_crank_nicolson.py.  Definitions only.

    One batch row: coordinates, values and coefficients are lists of exact reals
    with one entry per grid point.  A coefficient callable is a function of time
    (the grid does not change) returning [None] when the term is absent, or its
    values already broadcast to the grid (lines 595-603).  An exception and a
    division by zero (inf or NaN) are [None]. *)
From Coq Require Import Reals List Bool Arith.
Import ListNotations.
Open Scope R_scope.

Definition bind {A B} (x : option A) (f : A -> option B) : option B := match x with Some a => f a | None => None end.
Notation "'let?' x := e 'in' k" := (bind e (fun x => k)) (at level 200, x pattern, right associativity).
(** elementwise operation on two vectors of one length *)
Definition zw (f : R -> R -> R) (a b : list R) : list R := map (fun p => f (fst p) (snd p)) (combine a b).
(** division *)
Definition odiv (a b : R) : option R := if Req_EM_T b 0 then None else Some (a / b).
Fixpoint divs (a b : list R) : option (list R) :=
  match a, b with
  | x :: a, y :: b => let? q := odiv x y in let? r := divs a b in Some (q :: r)
  | _, _ => Some []
  end.
(** [l[1:-1]], [l[2:]] and [l[:-2]] *)
Definition inner (l : list R) : list R := removelast (tl l).
Definition after2 (l : list R) : list R := tl (tl l).
Definition before2 (l : list R) : list R := removelast (removelast l).
Definition first (l : list R) : R := nth 0 l 0.
(** the last but one element *)
Definition last2 (l : list R) : R := last (removelast l) 0.
(** [l *= c], skipped when [c] is None *)
Definition times_opt (l : list R) (c : option (list R)) : list R := match c with None => l | Some c => zw Rmult l c end.

(** a, b, c, A and B of dV/dt + a d2(A V)/dx2 + b d(B V)/dx + c V = 0 *)
Record coefficients := { second : R -> option (list R); first_ : R -> option (list R); zeroth : R -> option (list R);
                         inner_second : R -> option (list R); inner_first : R -> option (list R) }.
(** a boundary callable returns alpha, beta and gamma; None is the default *)
Definition boundary := option (R -> option R * option R * R).

(** the tridiagonal matrix: subdiagonal, diagonal, superdiagonal *)
Definition tridiagonal := (list R * list R * list R)%type.

(** parabolic_equation_stepper.py 255-271 *)
Definition first_order (b B : option (list R)) (forward backward sums zeros : list R) : option tridiagonal :=
  match b, B with
  | None, None => Some (zeros, zeros, zeros)
  | _, _ =>
      let? sup := divs (map Ropp backward) (zw Rmult sums forward) in
      let? sub := divs forward (zw Rmult sums backward) in
      let diag := zw Rminus (map Ropp sup) sub in
      Some (times_opt (times_opt sub (option_map inner b)) (option_map before2 B),
            times_opt (times_opt diag (option_map inner b)) (option_map inner B),
            times_opt (times_opt sup (option_map inner b)) (option_map after2 B))
  end.
(** parabolic_equation_stepper.py 274-290 *)
Definition second_order (a A : option (list R)) (forward backward sums zeros : list R) : option tridiagonal :=
  match a, A with
  | None, None => Some (zeros, zeros, zeros)
  | _, _ =>
      let? sup := divs (map (fun _ => -2) forward) (zw Rmult sums forward) in
      let? sub := divs (map (fun _ => -2) backward) (zw Rmult sums backward) in
      let diag := zw Rminus (map Ropp sup) sub in
      Some (times_opt (times_opt sub (option_map inner a)) (option_map before2 A),
            times_opt (times_opt diag (option_map inner a)) (option_map inner A),
            times_opt (times_opt sup (option_map inner a)) (option_map after2 A))
  end.
(** parabolic_equation_stepper.py 248-252 *)
Definition zeroth_order (c : option (list R)) (zeros : list R) : list R :=
  match c with None => zeros | Some c => map Ropp (inner c) end.

(** parabolic_equation_stepper.py 329-330 *)
Definition zeroth_or_zero (c : option (list R)) : list R := match c with None => [0] | Some c => c end.
(** parabolic_equation_stepper.py 368-372, 409-412 *)
Definition inner_or_ones (B : option (list R)) : list R := match B with None => [1; 1] | Some B => B end.
(** parabolic_equation_stepper.py 373-380 and 413-420; [pick] is the first or
    the last entry *)
Definition edge_first_order (pick : list R -> R) (b B : option (list R)) : R :=
  match b with
  | Some b => pick b
  | None => match B with None => 0 | Some _ => 1 end
  end.
(** parabolic_equation_stepper.py 355-393 *)
Definition default_lower (m : tridiagonal) (b c B : option (list R)) (forward : list R) : option tridiagonal :=
  let '(sub, diag, sup) := m in
  let e := edge_first_order first b B in
  let? s := odiv (nth 1 (inner_or_ones B) 0 * e) (first forward) in
  let? d := odiv (- first (inner_or_ones B) * e) (first forward) in
  Some (0 :: sub, - (d + first (zeroth_or_zero c)) :: diag, - s :: sup).
(** parabolic_equation_stepper.py 396-433 *)
Definition default_upper (m : tridiagonal) (b c B : option (list R)) (backward : list R) : option tridiagonal :=
  let '(sub, diag, sup) := m in
  let e := edge_first_order (fun l => last l 0) b B in
  let? d := odiv (last (inner_or_ones B) 0 * e) (last backward 0) in
  let? s := odiv (- last2 (inner_or_ones B) * e) (last backward 0) in
  Some (sub ++ [- s], diag ++ [- (d + last (zeroth_or_zero c) 0)], sup ++ [- 0]).

(** parabolic_equation_stepper.py 616-639 *)
Definition discretize_boundary (dx0 dx1 : R) (abc : option R * option R * R) : option (R * R * R) :=
  let '(alpha, beta, gamma) := abc in
  match beta with
  | None =>
      match alpha with
      | None => None
      | Some alpha => let? q := odiv gamma alpha in Some (0, 0, q)
      end
  | Some beta =>
      let denom := beta * dx1 * (2 * dx0 + dx1)
                   + match alpha with None => 0 | Some alpha => alpha * dx0 * dx1 * (dx0 + dx1) end in
      let? xi1 := odiv (beta * (dx0 + dx1) * (dx0 + dx1)) denom in
      let? xi2 := odiv (- beta * dx0 * dx0) denom in
      let? eta := odiv (gamma * dx0 * dx1 * (dx0 + dx1)) denom in
      Some (xi1, xi2, eta)
  end.

Definition has_beta (c : option (option R * option R * R)) : bool :=
  match c with Some (_, Some _, _) => true | _ => false end.
(** parabolic_equation_stepper.py 485 and 490 *)
Definition dirichlet_term (edge : R) (c : option (option R * option R * R)) : option R :=
  match c with
  | None => Some 0
  | Some (Some alpha, _, gamma) => odiv (edge * gamma) alpha
  | Some (None, _, _) => None
  end.
(** parabolic_equation_stepper.py 499-527: the corrections of the diagonal, of
    the neighbouring diagonal and of the inhomogeneous term *)
Definition robin_terms (edge dx0 dx1 : R) (c : option (option R * option R * R)) : option (R * R * R) :=
  match c with
  | None => Some (0, 0, 0)
  | Some abc => let? (xi1, xi2, eta) := discretize_boundary dx0 dx1 abc in Some (edge * xi1, edge * xi2, edge * eta)
  end.
(** [append_first_and_last(x, zeros_like(l[1:-1]), y)] *)
Definition first_and_last (x : R) (l : list R) (y : R) : list R := x :: l ++ [y].
(** parabolic_equation_stepper.py 436-541; [lower] and [upper] hold alpha, beta
    and gamma at the time in question, None for the default condition *)
Definition robin (deltas : list R) (m : tridiagonal) (lower upper : option (option R * option R * R)) : option (tridiagonal * list R) :=
  let '(sub, diag, sup) := m in
  match lower, upper with
  | None, None => Some (m, map (fun _ => 0) diag)
  | _, _ =>
      if negb (has_beta lower) && negb (has_beta upper) then
        let? x := dirichlet_term (first sub) lower in
        let? y := dirichlet_term (last sup 0) upper in
        Some (m, first_and_last x (map (fun _ => 0) (inner diag)) y)
      else
        let? (d0, u0, x) := robin_terms (first sub) (first deltas) (nth 1 deltas 0) lower in
        let? (d1, l1, y) := robin_terms (last sup 0) (last deltas 0) (last2 deltas) upper in
        Some ((removelast sub ++ [last sub 0 + l1],
               first_and_last (first diag + d0) (inner diag) (last diag 0 + d1),
               (first sup + u0) :: tl sup),
              first_and_last x (map (fun _ => 0) (inner diag)) y)
  end.

Definition at_time (b : boundary) (t : R) : option (option R * option R * R) := option_map (fun f => f t) b.
(** parabolic_equation_stepper.py 202-311: the matrix and the inhomogeneous term *)
Definition equation_params (xs vs : list R) (co : coefficients) (lower upper : boundary) (t : R) : option (tridiagonal * list R) :=
  let deltas := zw Rminus (tl xs) (removelast xs) in
  let forward := tl deltas in
  let backward := removelast deltas in
  let sums := zw Rplus forward backward in
  let zeros := map (fun _ => 0) (inner vs) in
  let? (sub1, diag1, sup1) := first_order (first_ co t) (inner_first co t) forward backward sums zeros in
  let? (sub2, diag2, sup2) := second_order (second co t) (inner_second co t) forward backward sums zeros in
  let m := (zw Rplus sub1 sub2, zw Rplus (zw Rplus (zeroth_order (zeroth co t) zeros) diag1) diag2, zw Rplus sup1 sup2) in
  let? m := match lower with None => default_lower m (first_ co t) (zeroth co t) (inner_first co t) forward | Some _ => Some m end in
  let? m := match upper with None => default_upper m (first_ co t) (zeroth co t) (inner_first co t) backward | Some _ => Some m end in
  robin deltas m (at_time lower t) (at_time upper t).

(** weighted_implicit_explicit.py 169-202 *)
Definition explicit_part (vec : list R) (m : tridiagonal) (theta t1 t2 : R) : list R :=
  let '(sub, diag, sup) := m in
  let multiplier := theta * (t2 - t1) in
  let diag := map (fun d => 1 + multiplier * d) diag in
  let sup := map (fun u => multiplier * u) sup in
  let sub := map (fun l => multiplier * l) sub in
  let diag_part := zw Rmult diag vec in
  let lower_part := 0 :: zw Rmult (tl sub) (removelast vec) in
  let upper_part := zw Rmult (removelast sup) (tl vec) ++ [0] in
  zw Rplus (zw Rplus lower_part diag_part) upper_part.
(** tf.linalg.tridiagonal_solve without pivoting: one forward elimination and
    one back substitution; the first subdiagonal entry and the last superdiagonal
    entry have no effect.  A zero pivot and vectors of different lengths are
    refused.  [c] and [d] are the eliminated coefficient and right-hand side of
    the row above. *)
Fixpoint thomas (c d : R) (sub diag sup rhs : list R) : option (list R) :=
  match sub, diag, sup, rhs with
  | l :: sub, p :: diag, u :: sup, r :: rhs =>
      let? c' := odiv u (p - l * c) in
      let? d' := odiv (r - l * d) (p - l * c) in
      let? xs := thomas c' d' sub diag sup rhs in
      Some (d' - c' * first xs :: xs)
  | [], [], [], [] => Some []
  | _, _, _, _ => None
  end.
(** weighted_implicit_explicit.py 205-236 *)
Definition implicit_part (vec : list R) (m : tridiagonal) (theta t1 t2 : R) : option (list R) :=
  let '(sub, diag, sup) := m in
  let multiplier := (1 - theta) * (t1 - t2) in
  thomas 0 0 (map (fun l => multiplier * l) sub) (map (fun d => 1 + multiplier * d) diag)
    (map (fun u => multiplier * u) sup) vec.
(** weighted_implicit_explicit.py 142-166 *)
Definition weighted_scheme (theta : R) (values : list R) (t1 t2 : R) (params : R -> option (tridiagonal * list R)) : option (list R) :=
  if Rlt_dec theta 0 then None
  else if Rlt_dec 1 theta then None
  else
    let? (m, inhomog) := params ((t1 + t2) / 2) in
    let rhs := if Req_EM_T theta 0 then values else explicit_part values m theta t1 t2 in
    let rhs := zw Rplus rhs (map (fun b => b * (t2 - t1)) inhomog) in
    if Rlt_dec theta 1 then implicit_part rhs m theta t1 t2 else Some rhs.
(** implicit.py 77, explicit.py 79, crank_nicolson.py 80 *)
Definition implicit_scheme := weighted_scheme 0.
Definition explicit_scheme := weighted_scheme 1.
Definition crank_nicolson_scheme := weighted_scheme (1 / 2).
(** extrapolation.py 66-104 *)
Definition extrapolation_scheme (values : list R) (t1 t2 : R) (params : R -> option (tridiagonal * list R)) : option (list R) :=
  let? half := implicit_scheme values t1 ((t1 + t2) / 2) params in
  let? two_halves := implicit_scheme half ((t1 + t2) / 2) t2 params in
  let? full := implicit_scheme values t1 t2 params in
  Some (zw Rminus (map (fun v => 2 * v) two_halves) full).
(** composite_stepper.py 57-60 *)
Definition composite_scheme {A} (first_steps : nat) (scheme1 scheme2 : A) (steps_performed : nat) : A :=
  if Nat.ltb steps_performed first_steps then scheme1 else scheme2.
(** oscillation_damped_crank_nicolson.py 21-49 *)
Definition damped_crank_nicolson (extrapolation_steps : nat) :=
  composite_scheme extrapolation_steps extrapolation_scheme crank_nicolson_scheme.

(** parabolic_equation_stepper.py 544-592: the boundary value after the step, or
    nothing to append for the default condition *)
Definition boundary_value (dx0 dx1 v1 v2 : R) (b : boundary) (t : R) : option (option R) :=
  match b with
  | None => Some None
  | Some f => let? (xi1, xi2, eta) := discretize_boundary dx0 dx1 (f t) in Some (Some (xi1 * v1 + xi2 * v2 + eta))
  end.
Definition append_first (x : option R) (l : list R) : list R := match x with None => l | Some x => x :: l end.
Definition append_last (l : list R) (x : option R) : list R := match x with None => l | Some x => l ++ [x] end.
Definition after_step (xs values : list R) (lower upper : boundary) (t : R) : option (list R) :=
  let deltas := zw Rminus (tl xs) (removelast xs) in
  let? x := boundary_value (first deltas) (nth 1 deltas 0) (first values) (nth 1 values 0) lower t in
  let? y := boundary_value (last deltas 0) (last2 deltas) (last values 0) (last2 values) upper t in
  Some (append_first x (append_last values y)).

(** parabolic_equation_stepper.py 153-199.  Simplification: with two boundary
    callables and a grid of fewer than four points the code builds vectors of two
    entries for at most one unknown; the model refuses such grids, and grids of
    fewer than three points, on which [forward_deltas] is empty. *)
Definition parabolic_step (scheme : list R -> R -> R -> (R -> option (tridiagonal * list R)) -> option (list R))
  (time next_time : R) (xs vs : list R) (lower upper : boundary) (co : coefficients) : option (list R) :=
  let inner_grid := match lower with None => vs | Some _ => tl vs end in
  let inner_grid := match upper with None => inner_grid | Some _ => removelast inner_grid end in
  if Nat.ltb (length vs) 3 || Nat.ltb (length inner_grid) 2 then None
  else
    let? out := scheme inner_grid time next_time (equation_params xs vs co lower upper) in
    after_step xs out lower upper next_time.
