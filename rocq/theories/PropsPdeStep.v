(** C50: boundary and space discretization of the one-dimensional PDE steppers;
    C49: their time marching. *)
From Coq Require Import Reals List Bool Arith Lra Lia.
From Verif Require Import TimeGridSpec PdeStepModel PdeStepSpec PdeStepView PdeStepProofs PdeRowProofs.
Import ListNotations.
Open Scope R_scope.

(** ** C50: finite differences *)
(** The three-point differences are exact for quadratic functions on any grid
    with distinct points: at the middle point and at both ends. *)
Theorem C50_differences (x : nat -> R) (i : nat) (a b c : R) :
  x i < x (S i) < x (S (S i)) ->
  let q := fun k => a * (x k * x k) + b * x k + c in
  let q' := fun k => 2 * a * x k + b in
  d2 x q i = 2 * a /\ d1 x q i = q' (S i) /\ d1_first x q i = q' i /\ d1_last x q i = q' (S (S i)).
Proof.
  intros [H1 H2]. cbv zeta. unfold d1_first, d1_last, d1, d2, slope.
  repeat split; field; repeat split; lra.
Qed.
Print Assumptions C50_differences.

(** The boundary values the code writes are exactly the ones for which the
    condition alpha V + beta V_n = gamma holds with the one-sided three-point
    derivative along the outer normal: at the lower and at the upper end. *)
Theorem C50_boundary (x : nat -> R) (i : nat) (abc : option R * option R * R) (xi1 xi2 eta : R) (f : nat -> R) :
  x i < x (S i) < x (S (S i)) ->
  (discretize_boundary (x (S i) - x i) (x (S (S i)) - x (S i)) abc = Some (xi1, xi2, eta) ->
     (robin_holds abc (f i) (- d1_first x f i) <-> f i = xi1 * f (S i) + xi2 * f (S (S i)) + eta))
  /\ (discretize_boundary (x (S (S i)) - x (S i)) (x (S i) - x i) abc = Some (xi1, xi2, eta) ->
     (robin_holds abc (f (S (S i))) (d1_last x f i) <-> f (S (S i)) = xi1 * f (S i) + xi2 * f i + eta)).
Proof.
  intros [H1 H2]. set (h := x (S i) - x i). set (g := x (S (S i)) - x (S i)).
  assert (Hh : 0 < h) by (unfold h; lra). assert (Hg : 0 < g) by (unfold g; lra). split; intros H.
  - rewrite <- (discretize_spec _ _ _ _ _ _ Hh Hg H).
    assert (E : - d1_first x f i = (2 * h + g) / (h * (h + g)) * f i - (h + g) / (h * g) * f (S i) + h / (g * (h + g)) * f (S (S i))).
    { unfold d1_first, d2, slope. fold h g. replace (x (S (S i)) - x i) with (h + g) by (unfold g, h; ring). field. repeat split; lra. }
    rewrite E. reflexivity.
  - rewrite <- (discretize_spec _ _ _ _ _ _ Hg Hh H).
    assert (E : d1_last x f i = (2 * g + h) / (g * (g + h)) * f (S (S i)) - (g + h) / (g * h) * f (S i) + g / (h * (g + h)) * f i).
    { unfold d1_last, d2, slope. fold h g. replace (x (S (S i)) - x i) with (g + h) by (unfold g, h; ring). field. repeat split; lra. }
    rewrite E. reflexivity.
Qed.
Print Assumptions C50_boundary.

(** The boundary condition can be imposed whenever alpha and beta are not
    negative and not both zero: Dirichlet, Neumann and Robin conditions.  With
    both absent the code raises an error. *)
Theorem C50_boundary_exists (dx0 dx1 alpha beta gamma : R) :
  0 < dx0 -> 0 < dx1 -> 0 <= alpha -> 0 <= beta ->
  (0 < alpha -> discretize_boundary dx0 dx1 (Some alpha, None, gamma) = Some (0, 0, gamma / alpha))
  /\ (0 < beta -> discretize_boundary dx0 dx1 (None, Some beta, gamma) <> None)
  /\ (0 < alpha + beta -> discretize_boundary dx0 dx1 (Some alpha, Some beta, gamma) <> None)
  /\ discretize_boundary dx0 dx1 (None, None, gamma) = None.
Proof.
  intros P0 P1 A B.
  assert (D : 0 < dx1 * (2 * dx0 + dx1)) by (apply Rmult_lt_0_compat; lra).
  assert (E : 0 < dx0 * dx1 * (dx0 + dx1)) by (repeat apply Rmult_lt_0_compat; lra).
  split; [|split; [|split]].
  - intros Pa. cbn. unfold odiv. destruct (Req_EM_T alpha 0); [lra|reflexivity].
  - intros Pb. unfold discretize_boundary, odiv. destruct (Req_EM_T (beta * dx1 * (2 * dx0 + dx1) + 0) 0) as [Z|Z]; [|discriminate].
    exfalso. assert (0 < beta * (dx1 * (2 * dx0 + dx1))) by (apply Rmult_lt_0_compat; assumption). lra.
  - intros Pab. unfold discretize_boundary, odiv.
    destruct (Req_EM_T (beta * dx1 * (2 * dx0 + dx1) + alpha * dx0 * dx1 * (dx0 + dx1)) 0) as [Z|Z]; [|discriminate].
    exfalso. assert (0 <= beta * (dx1 * (2 * dx0 + dx1))) by (apply Rmult_le_pos; lra).
    assert (0 <= alpha * (dx0 * dx1 * (dx0 + dx1))) by (apply Rmult_le_pos; lra).
    destruct (Rle_lt_or_eq_dec 0 alpha A) as [Pa|Pa].
    + assert (0 < alpha * (dx0 * dx1 * (dx0 + dx1))) by (apply Rmult_lt_0_compat; lra). lra.
    + assert (0 < beta * (dx1 * (2 * dx0 + dx1))) by (apply Rmult_lt_0_compat; lra). lra.
  - reflexivity.
Qed.
Print Assumptions C50_boundary_exists.

Lemma last_index k : (3 <= k)%nat -> exists j, (k = S (S (S j)))%nat.
Proof. intros H. exists (k - 3)%nat. lia. Qed.
Lemma inc3 xs i : increasing xs -> (i + 2 < length xs)%nat -> sq xs i < sq xs (S i) < sq xs (S (S i)).
Proof. intros H L. pose proof (H i ltac:(lia)). pose proof (H (S i) ltac:(lia)). unfold sq. lra. Qed.

(** The space discretization as a whole is exact for quadratic functions: if the
    quadratic q satisfies the two boundary conditions at time t, then on every
    inner grid point the matrix and the inhomogeneous term produce
    -(a q'' + b q' + c q), on any increasing grid of at least four points. *)
Theorem C50_quadratics (xs vs : list R) (co : coefficients) (lo up : R -> option R * option R * R) (t qa qb qc : R) m inh :
  let n := length xs in let x := sq xs in
  let q := fun k => qa * (x k * x k) + qb * x k + qc in
  let q' := fun k => 2 * qa * x k + qb in
  increasing xs -> (4 <= n)%nat -> length vs = n -> sized_co n co t ->
  inner_second co t = None -> inner_first co t = None ->
  robin_holds (lo t) (q 0%nat) (- q' 0%nat) -> robin_holds (up t) (q (n - 1)%nat) (q' (n - 1)%nat) ->
  equation_params xs vs co (Some lo) (Some up) t = Some (m, inh) ->
  forall p, (0 < p < n - 1)%nat ->
    tri m (map q (seq 1 (n - 2))) (p - 1) + nth (p - 1) inh 0
    = - (match second co t with Some a => nth p a 0 * (2 * qa) | None => 0 end
         + match first_ co t with Some b => nth p b 0 * q' p | None => 0 end
         + match zeroth co t with Some c => nth p c 0 * q p | None => 0 end).
Proof.
  intros n x q q' Hx Hn Lv SC NA NB BL BU H p Hp.
  assert (Q3 : forall i, (i + 2 < n)%nat -> d2 x q i = 2 * qa /\ d1 x q i = q' (S i) /\ d1_first x q i = q' i /\ d1_last x q i = q' (S (S i))).
  { intros i Hi. apply (C50_differences x i qa qb qc). apply inc3; assumption. }
  destruct (params_rows xs Hx ltac:(fold n; lia) co vs (Some lo) (Some up) t m inh SC Lv H) as (_ & _ & E & _); [cbn [offset]; fold n; lia|].
  fold n in E. cbn [offset] in E. replace (n - 1 - 1)%nat with (n - 2)%nat in E by lia.
  rewrite E; try lia.
  - fold x. unfold op. replace (p - 1 + 1)%nat with p by lia. destruct p as [|k]; [lia|]. cbn [Nat.sub]. rewrite Nat.sub_0_r.
    destruct (Q3 k ltac:(lia)) as (Q1 & Q2 & _). unfold space_operator, second_term, first_term, zeroth_term.
    cbn [pde_at pa pb pc pA pB]. rewrite NA, NB. cbn [option_map].
    assert (ext : forall g, (forall j, g j = q j) -> d1 x g k = d1 x q k /\ d2 x g k = d2 x q k).
    { intros g G. unfold d1, d2, slope. rewrite !G. split; reflexivity. }
    destruct (ext (fun k0 => value None k0 * q k0)) as [X1 X2]; [intros j; cbn [value]; ring|].
    destruct (second co t) as [a|], (first_ co t) as [b|], (zeroth co t) as [c|]; cbn [option_map value] in *; fold x;
      rewrite ?X1, ?X2, ?Q1, ?Q2; unfold sq; ring.
  - cbn [lower_at]. unfold lower_holds. fold x. destruct (Q3 0%nat ltac:(lia)) as (_ & _ & Q & _). rewrite Q. exact BL.
  - cbn [upper_at]. unfold upper_holds. fold x n. replace (n - 1 - 2)%nat with (n - 3)%nat by lia. destruct (Q3 (n - 3)%nat ltac:(lia)) as (_ & _ & _ & Q). rewrite Q.
    replace (S (S (n - 3))) with (n - 1)%nat by lia. exact BU.
Qed.
Print Assumptions C50_quadratics.

(** ** The step *)
Lemma inner_grid_spec (vs : list R) (lower upper : boundary) :
  let g := match lower with None => vs | Some _ => tl vs end in
  let g := match upper with None => g | Some _ => removelast g end in
  let k := (length vs - offset lower - offset upper)%nat in
  length g = k /\ forall i, (i < k)%nat -> nth i g 0 = nth (i + offset lower) vs 0.
Proof.
  cbv zeta. destruct lower, upper; cbn [offset]; rewrite ?rl_length, ?tl_length'; split; try lia; intros i I;
    rewrite ?rl_nth by (rewrite ?tl_length'; lia); rewrite ?tl_nth; f_equal; lia.
Qed.
Lemma step_some scheme t1 t2 xs vs lower upper co ws : length vs = length xs -> increasing xs ->
  parabolic_step scheme t1 t2 xs vs lower upper co = Some ws ->
  let n := length xs in let k := (n - offset lower - offset upper)%nat in
  exists v0 u, (3 <= n)%nat /\ (2 <= k)%nat /\ length v0 = k /\ (forall i, (i < k)%nat -> nth i v0 0 = nth (i + offset lower) vs 0)
    /\ scheme v0 t1 t2 (equation_params xs vs co lower upper) = Some u
    /\ (length u = k -> length ws = n /\ lower_at (sq xs) lower t2 (sq ws) /\ upper_at (sq xs) (n - 1) upper t2 (sq ws)
          /\ forall i, (i < k)%nat -> nth (i + offset lower) ws 0 = nth i u 0).
Proof.
  intros Lv Hx H n k. unfold parabolic_step in H. pose proof (inner_grid_spec vs lower upper) as [Lg Ng]. cbv zeta in Lg, Ng.
  set (g := match upper with None => _ | Some _ => _ end) in *. clearbody g. rewrite Lv in Lg, Ng. fold n in Lg, Ng. fold k in Lg, Ng.
  destruct (Nat.ltb_spec (length vs) 3) as [A|A]; [discriminate|]. destruct (Nat.ltb_spec (length g) 2) as [B|B]; [discriminate|]. cbn [orb] in H.
  apply bind_some in H. destruct H as (u & U & H). exists g, u. rewrite Lv in A. fold n in A. split; [exact A|]. split; [lia|]. split; [exact Lg|]. split; [exact Ng|]. split; [exact U|].
  intros Lu. assert (KN : (length u + offset lower + offset upper = n)%nat) by (unfold k in *; destruct lower, upper; cbn [offset] in *; lia).
  destruct (after_step_spec xs Hx A u lower upper t2 ws ltac:(lia) KN H) as (W1 & W2 & W3 & W4). rewrite Lu in W4. auto.
Qed.
Lemma theta_step_raw theta t1 t2 xs vs lower upper co ws : increasing xs -> length vs = length xs -> sized_co (length xs) co ((t1 + t2) / 2) ->
  parabolic_step (weighted_scheme theta) t1 t2 xs vs lower upper co = Some ws ->
  let n := length xs in let tm := (t1 + t2) / 2 in
  length ws = n /\ lower_at (sq xs) lower t2 (sq ws) /\ upper_at (sq xs) (n - 1) upper t2 (sq ws)
  /\ exists v w : nat -> R,
       (forall p, unknown lower upper n p -> v p = nth p vs 0 /\ w p = nth p ws 0)
       /\ lower_at (sq xs) lower tm v /\ upper_at (sq xs) (n - 1) upper tm v
       /\ lower_at (sq xs) lower tm w /\ upper_at (sq xs) (n - 1) upper tm w
       /\ forall p, unknown lower upper n p ->
            w p - v p = - (t2 - t1) * (theta * op xs lower upper (pde_at co tm) v p + (1 - theta) * op xs lower upper (pde_at co tm) w p).
Proof.
  intros Hx Lv SC H n tm.
  destruct (step_some _ t1 t2 xs vs lower upper co ws Lv Hx H) as (v0 & u & Hn & K & Lv0 & Nv0 & Sch & W). cbv zeta in *. fold n in Hn, K, Lv0, Nv0, W.
  set (k := (n - offset lower - offset upper)%nat) in *.
  destruct (equation_params xs vs co lower upper tm) as [[m inh]|] eqn:P.
  2:{ exfalso. unfold weighted_scheme in Sch. fold tm in Sch. rewrite P in Sch. destruct (Rlt_dec theta 0); [discriminate|]. destruct (Rlt_dec 1 theta); discriminate. }
  destruct (params_rows xs Hx Hn co vs lower upper tm m inh SC Lv P K) as (WS & LI & Rows & Ghost). fold n in Rows, Ghost, LI, WS. fold k in Rows, Ghost, LI, WS.
  rewrite <- Lv0 in WS, LI. destruct (weighted_spec theta v0 t1 t2 _ m inh u P WS LI Sch) as [Lu Eq]. rewrite Lv0 in *.
  destruct (W Lu) as (W1 & W2 & W3 & W4). split; [exact W1|]. split; [exact W2|]. split; [exact W3|].
  destruct (Ghost v0) as (v & Vl & Vu & Vn). destruct (Ghost u) as (w & Wl & Wu & Wn). exists v, w.
  assert (IDX : forall p, unknown lower upper n p -> exists i, (i < k)%nat /\ p = (i + offset lower)%nat).
  { intros p (A & B & C). exists (p - offset lower)%nat. unfold k. destruct lower, upper; cbn [offset] in *.
    - assert (p <> 0%nat) by (intros E; discriminate (B E)). assert (p <> (n - 1)%nat) by (intros E; discriminate (C E)). lia.
    - assert (p <> 0%nat) by (intros E; discriminate (B E)). lia.
    - assert (p <> (n - 1)%nat) by (intros E; discriminate (C E)). lia.
    - lia. }
  split.
  { intros p Hp. destruct (IDX p Hp) as (i & I & ->). rewrite Vn, Wn, Nv0, W4 by exact I. split; reflexivity. }
  split; [exact Vl|]. split; [exact Vu|]. split; [exact Wl|]. split; [exact Wu|].
  intros p Hp. destruct (IDX p Hp) as (i & I & ->). rewrite Wn, Vn by exact I. rewrite (Eq i ltac:(lia)).
  assert (Mv : map v (seq (offset lower) k) = v0) by (apply list_ext; [rewrite map_length, seq_length; lia|]; intros j J; rewrite map_length, seq_length in J; rewrite (seq_map_nth xs Hn) by exact J; apply Vn; exact J).
  assert (Mw : map w (seq (offset lower) k) = u) by (apply list_ext; [rewrite map_length, seq_length; lia|]; intros j J; rewrite map_length, seq_length in J; rewrite (seq_map_nth xs Hn) by exact J; apply Wn; exact J).
  pose proof (Rows v Vl Vu i I) as Rv. pose proof (Rows w Wl Wu i I) as Rw. rewrite Mv in Rv. rewrite Mw in Rw.
  replace (theta * tri m v0 i + (1 - theta) * tri m u i + nth i inh 0) with (theta * (tri m v0 i + nth i inh 0) + (1 - theta) * (tri m u i + nth i inh 0)) by ring.
  rewrite Rv, Rw. ring.
Qed.
(** the documented operator at an end with the default condition *)
Definition documented_operator (lower upper : boundary) (e : pde) (x : nat -> R) (n : nat) : (nat -> R) -> nat -> R :=
  grid_operator (if_default lower (x 1%nat - x 0%nat)) (if_default upper (x n - x (n - 1)%nat)) e x n.
Lemma op_documented xs lower upper e f p : (3 <= length xs)%nat ->
  (lower = None -> sq xs 1 - sq xs 0 = sq xs 2 - sq xs 1) ->
  (upper = None -> sq xs (length xs - 1) - sq xs (length xs - 2) = sq xs (length xs - 2) - sq xs (length xs - 3)) ->
  op xs lower upper e f p = documented_operator lower upper e (sq xs) (length xs - 1) f p.
Proof.
  intros L A B. rewrite (op_eq xs) by assumption. unfold documented_operator. f_equal.
  - destruct lower; [reflexivity|]. cbn [if_default]. rewrite A by reflexivity. reflexivity.
  - destruct upper; [reflexivity|]. cbn [if_default]. rewrite <- B by reflexivity. replace (length xs - 1 - 1)%nat with (length xs - 2)%nat by lia. reflexivity.
Qed.

(** C49: one step of the weighted implicit-explicit scheme.  Let v and w be the
    values before and after the step, completed at the ends that have a boundary
    condition so that the discretized conditions hold at the middle of the step.
    Then at every other grid point
      (w - v) + (t2 - t1) (theta L v + (1 - theta) L w) = 0,
    where L is the finite-difference operator a d2(A .) + b d(B .) + c at the
    middle of the step; and the returned values satisfy the discretized boundary
    conditions at t2.  At an end with the default condition the equation is the
    documented one, provided the two spacings next to that end are equal. *)
Theorem C49_theta_step (theta t1 t2 : R) (xs vs ws : list R) (lower upper : boundary) (co : coefficients) :
  let n := length xs in let x := sq xs in let tm := (t1 + t2) / 2 in
  let L := documented_operator lower upper (pde_at co tm) x (n - 1) in
  increasing xs -> length vs = n -> sized_co n co tm ->
  (lower = None -> x 1%nat - x 0%nat = x 2%nat - x 1%nat) ->
  (upper = None -> x (n - 1)%nat - x (n - 2)%nat = x (n - 2)%nat - x (n - 3)%nat) ->
  parabolic_step (weighted_scheme theta) t1 t2 xs vs lower upper co = Some ws ->
  length ws = n /\ lower_at x lower t2 (sq ws) /\ upper_at x (n - 1) upper t2 (sq ws)
  /\ exists v w : nat -> R,
       (forall p, unknown lower upper n p -> v p = nth p vs 0 /\ w p = nth p ws 0)
       /\ lower_at x lower tm v /\ upper_at x (n - 1) upper tm v
       /\ lower_at x lower tm w /\ upper_at x (n - 1) upper tm w
       /\ forall p, unknown lower upper n p -> (w p - v p) + (t2 - t1) * (theta * L v p + (1 - theta) * L w p) = 0.
Proof.
  intros n x tm L Hx Lv SC DL DU H. assert (Hn : (3 <= length xs)%nat) by (destruct (step_some _ t1 t2 xs vs lower upper co ws Lv Hx H) as (? & ? & ? & _); assumption).
  destruct (theta_step_raw theta t1 t2 xs vs lower upper co ws Hx Lv SC H) as (A & B & C & v & w & E1 & E2 & E3 & E4 & E5 & E6).
  split; [exact A|]. split; [exact B|]. split; [exact C|]. exists v, w. split; [exact E1|]. split; [exact E2|]. split; [exact E3|]. split; [exact E4|]. split; [exact E5|].
  intros p Hp. rewrite (E6 p Hp). rewrite !op_documented by assumption. fold n x tm. unfold L. ring.
Qed.
Print Assumptions C49_theta_step.

(** C50: after every step, with any time marching scheme that keeps the number
    of values, a Dirichlet boundary holds its prescribed value exactly. *)
Theorem C50_dirichlet (theta t1 t2 : R) (xs vs ws : list R) (lower upper : boundary) (co : coefficients) :
  increasing xs -> length vs = length xs -> sized_co (length xs) co ((t1 + t2) / 2) ->
  parabolic_step (weighted_scheme theta) t1 t2 xs vs lower upper co = Some ws ->
  (forall g alpha gamma, lower = Some g -> g t2 = (Some alpha, None, gamma) -> alpha <> 0 -> nth 0 ws 0 = gamma / alpha)
  /\ (forall g alpha gamma, upper = Some g -> g t2 = (Some alpha, None, gamma) -> alpha <> 0 -> nth (length xs - 1) ws 0 = gamma / alpha).
Proof.
  intros Hx Lv SC H. destruct (theta_step_raw theta t1 t2 xs vs lower upper co ws Hx Lv SC H) as (_ & B & C & _).
  split; intros g alpha gamma E G NZ; subst; cbn [lower_at upper_at] in *; [unfold lower_holds in B; rewrite G in B|unfold upper_holds in C; rewrite G in C];
    cbn [robin_holds coef] in *; unfold sq in *; [rewrite <- B|rewrite <- C]; field; exact NZ.
Qed.
Print Assumptions C50_dirichlet.

(** The weighted scheme on its own, for any tridiagonal matrix and inhomogeneous
    term: the result is the solution of the theta-scheme equation, and there is
    no other. *)
Theorem C49_theta_scheme (theta t1 t2 : R) (v : list R) (params : R -> option (tridiagonal * list R)) sub diag sup b w :
  params ((t1 + t2) / 2) = Some ((sub, diag, sup), b) ->
  length sub = length v -> length diag = length v -> length sup = length v -> length b = length v ->
  weighted_scheme theta v t1 t2 params = Some w ->
  length w = length v /\ theta_equation theta t1 t2 (sub, diag, sup) b v w
  /\ forall u, length u = length v -> theta_equation theta t1 t2 (sub, diag, sup) b v u -> u = w.
Proof.
  intros P L1 L2 L3 Lb H. assert (W : well_sized (sub, diag, sup) (length v)) by (exact (conj L1 (conj L2 L3))).
  destruct (weighted_spec theta v t1 t2 params _ b w P W Lb H) as [Lw E]. split; [exact Lw|]. split; [exact E|].
  intros u Lu Eu. apply (weighted_unique theta v t1 t2 params _ b w u P W Lb H Lu Eu).
Qed.
Print Assumptions C49_theta_scheme.

(** The scheme returns a result for every theta in [0, 1] when the matrix of the
    implicit part is strictly diagonally dominant; other thetas are refused. *)
Theorem C49_theta_exists (theta t1 t2 : R) (v : list R) (params : R -> option (tridiagonal * list R)) sub diag sup b :
  params ((t1 + t2) / 2) = Some ((sub, diag, sup), b) ->
  length sub = length v -> length diag = length v -> length sup = length v -> length b = length v ->
  let k := (1 - theta) * (t2 - t1) in
  (0 <= theta <= 1 -> (forall i, (i < length v)%nat -> Rabs (k * nth i sub 0) + Rabs (k * nth i sup 0) < Rabs (1 - k * nth i diag 0)) ->
     weighted_scheme theta v t1 t2 params <> None)
  /\ (~ 0 <= theta <= 1 -> weighted_scheme theta v t1 t2 params = None).
Proof.
  intros P L1 L2 L3 Lb k. assert (W : well_sized (sub, diag, sup) (length v)) by (exact (conj L1 (conj L2 L3))).
  unfold weighted_scheme. destruct (Rlt_dec theta 0) as [A|A]; [split; [lra|reflexivity]|]. destruct (Rlt_dec 1 theta) as [B|B]; [split; [lra|reflexivity]|].
  split; [|lra]. intros _ D. rewrite P. cbn [bind]. destruct (Rlt_dec theta 1) as [T|T]; [|discriminate].
  assert (LR : length (zw Rplus (if Req_EM_T theta 0 then v else explicit_part v (sub, diag, sup) theta t1 t2) (map (fun b => b * (t2 - t1)) b)) = length v).
  { destruct v as [|v0 v'].
    - destruct b; [|discriminate]. unfold zw. cbn [map]. destruct (if Req_EM_T theta 0 then [] else _); reflexivity.
    - apply (rhs_nth theta (v0 :: v') (sub, diag, sup) b t1 t2 0 W Lb). cbn. lia. }
  unfold implicit_part. set (q := (1 - theta) * (t1 - t2)). assert (Q : q = - k) by (unfold q, k; ring).
  apply thomas_exists; rewrite ?map_length, ?LR; try assumption.
  - rewrite Rabs_R0. lra.
  - intros i I. rewrite map_length in I. rewrite (map_nth_lt (fun l => q * l)), (map_nth_lt (fun u => q * u)), (map_nth_lt (fun d => 1 + q * d)) by lia.
    specialize (D i ltac:(lia)). rewrite Q. replace (- k * nth i sub 0) with (- (k * nth i sub 0)) by ring. replace (- k * nth i sup 0) with (- (k * nth i sup 0)) by ring.
    rewrite !Rabs_Ropp. replace (1 + - k * nth i diag 0) with (1 - k * nth i diag 0) by ring. exact D.
Qed.
Print Assumptions C49_theta_exists.

(** The extrapolation scheme: twice the result of two implicit half steps minus
    the result of one implicit full step. *)
Theorem C49_extrapolation (t1 t2 : R) (v : list R) (params : R -> option (tridiagonal * list R)) (m : R -> tridiagonal) (b : R -> list R) w :
  let tm := (t1 + t2) / 2 in
  (forall t, params t = Some (m t, b t)) ->
  (forall t, length (fst (fst (m t))) = length v /\ length (snd (fst (m t))) = length v /\ length (snd (m t)) = length v /\ length (b t) = length v) ->
  extrapolation_scheme v t1 t2 params = Some w ->
  exists half two full,
    length half = length v /\ length two = length v /\ length full = length v /\ length w = length v
    /\ theta_equation 0 t1 tm (m ((t1 + tm) / 2)) (b ((t1 + tm) / 2)) v half
    /\ theta_equation 0 tm t2 (m ((tm + t2) / 2)) (b ((tm + t2) / 2)) half two
    /\ theta_equation 0 t1 t2 (m tm) (b tm) v full
    /\ forall i, (i < length v)%nat -> nth i w 0 = 2 * nth i two 0 - nth i full 0.
Proof.
  intros tm P Z H. unfold extrapolation_scheme in H. fold tm in H.
  assert (WS : forall t, well_sized (m t) (length v)).
  { intros t. destruct (Z t) as (Z1 & Z2 & Z3 & _). destruct (m t) as [[s d] u]. exact (conj Z1 (conj Z2 Z3)). }
  assert (LB : forall t, length (b t) = length v) by (intros t; apply (Z t)).
  apply bind_some in H. destruct H as (half & H1 & H). apply bind_some in H. destruct H as (two & H2 & H). apply bind_some in H. destruct H as (full & H3 & H).
  injection H as <-. exists half, two, full.
  destruct (weighted_spec 0 v t1 tm params _ _ half (P _) (WS _) (LB _) H1) as [L1 E1].
  destruct (weighted_spec 0 v t1 t2 params _ _ full (P _) (WS _) (LB _) H3) as [L3 E3].
  assert (WS' : forall t, well_sized (m t) (length half)) by (rewrite L1; exact WS). assert (LB' : forall t, length (b t) = length half) by (rewrite L1; exact LB).
  destruct (weighted_spec 0 half tm t2 params _ _ two (P _) (WS' _) (LB' _) H2) as [L2 E2].
  split; [exact L1|]. split; [congruence|]. split; [exact L3|]. split; [rewrite zw_length; rewrite map_length; lia|].
  split; [exact E1|]. split; [exact E2|]. split; [exact E3|].
  intros i I. rewrite zw_nth by (rewrite ?map_length; lia). rewrite (map_nth_lt (fun v => 2 * v)) by lia. reflexivity.
Qed.
Print Assumptions C49_extrapolation.

(** ** Steady states *)
Definition keeps_steady (scheme : list R -> R -> R -> (R -> option (tridiagonal * list R)) -> option (list R)) : Prop :=
  forall v t1 t2 params u,
    (forall t m b, params t = Some (m, b) -> well_sized m (length v) /\ length b = length v /\ forall i, (i < length v)%nat -> tri m v i + nth i b 0 = 0) ->
    scheme v t1 t2 params = Some u -> u = v.
Lemma weighted_steady theta : keeps_steady (weighted_scheme theta).
Proof.
  intros v t1 t2 params u Z H. destruct (params ((t1 + t2) / 2)) as [[m b]|] eqn:P.
  - destruct (Z _ _ _ P) as (W & L & E). symmetry. apply (weighted_unique theta v t1 t2 params m b u v P W L H eq_refl).
    intros i I. specialize (E i I). replace (theta * tri m v i + (1 - theta) * tri m v i + nth i b 0) with (tri m v i + nth i b 0) by ring. rewrite E. ring.
  - unfold weighted_scheme in H. rewrite P in H. destruct (Rlt_dec theta 0); [discriminate|]. destruct (Rlt_dec 1 theta); discriminate.
Qed.
Lemma extrapolation_steady : keeps_steady extrapolation_scheme.
Proof.
  intros v t1 t2 params u Z H. unfold extrapolation_scheme in H.
  apply bind_some in H. destruct H as (half & H1 & H). apply bind_some in H. destruct H as (two & H2 & H). apply bind_some in H. destruct H as (full & H3 & H).
  injection H as <-. apply (weighted_steady 0) in H1; [|exact Z]. subst half. apply (weighted_steady 0) in H2; [|exact Z]. apply (weighted_steady 0) in H3; [|exact Z]. subst two full.
  assert (LZ : length (zw Rminus (map (fun v => 2 * v) v) v) = length v) by (rewrite zw_length; rewrite map_length; reflexivity).
  apply list_ext; [exact LZ|]. intros i I. rewrite LZ in I.
  rewrite zw_nth by (rewrite ?map_length; lia). rewrite (map_nth_lt (fun v => 2 * v)) by lia. ring.
Qed.
Lemma damped_steady first_steps count : keeps_steady (damped_crank_nicolson first_steps count).
Proof. unfold damped_crank_nicolson, composite_scheme. destruct (Nat.ltb count first_steps); [apply extrapolation_steady|apply (weighted_steady (1/2))]. Qed.

Lemma lower_unique xs ws vs lower t : increasing xs -> (3 <= length xs)%nat -> length ws = length xs -> length vs = length xs ->
  lower_at (sq xs) lower t (sq ws) -> lower_at (sq xs) lower t (sq vs) -> nth 1 ws 0 = nth 1 vs 0 -> nth 2 ws 0 = nth 2 vs 0 ->
  (forall g, lower = Some g -> discretize_boundary (sq xs 1 - sq xs 0) (sq xs 2 - sq xs 1) (g t) <> None) ->
  lower <> None -> nth 0 ws 0 = nth 0 vs 0.
Proof.
  intros Hx Hn Lw Lv A B E1 E2 D NN. destruct lower as [g|]; [|contradiction]. specialize (D g eq_refl). cbn [lower_at] in A, B. unfold lower_holds in A, B.
  destruct (discretize_boundary _ _ (g t)) as [[[xi1 xi2] eta]|] eqn:Q; [|contradiction].
  pose proof (inc3 xs 0 Hx ltac:(lia)) as I3.
  apply (proj1 (C50_boundary (sq xs) 0 (g t) xi1 xi2 eta (sq ws) I3) Q) in A. apply (proj1 (C50_boundary (sq xs) 0 (g t) xi1 xi2 eta (sq vs) I3) Q) in B.
  unfold sq in A, B. rewrite A, B, E1, E2. reflexivity.
Qed.
Lemma upper_unique xs ws vs upper t : increasing xs -> (3 <= length xs)%nat -> length ws = length xs -> length vs = length xs ->
  let n := length xs in
  upper_at (sq xs) (n - 1) upper t (sq ws) -> upper_at (sq xs) (n - 1) upper t (sq vs) -> nth (n - 2) ws 0 = nth (n - 2) vs 0 -> nth (n - 3) ws 0 = nth (n - 3) vs 0 ->
  (forall g, upper = Some g -> discretize_boundary (sq xs (n - 1) - sq xs (n - 2)) (sq xs (n - 2) - sq xs (n - 3)) (g t) <> None) ->
  upper <> None -> nth (n - 1) ws 0 = nth (n - 1) vs 0.
Proof.
  intros Hx Hn Lw Lv n A B E1 E2 D NN. destruct upper as [g|]; [|contradiction]. specialize (D g eq_refl). cbn [upper_at] in A, B. unfold upper_holds in A, B.
  destruct (discretize_boundary _ _ (g t)) as [[[xi1 xi2] eta]|] eqn:Q; [|contradiction].
  pose proof (inc3 xs (n - 3) Hx ltac:(fold n; lia)) as I3.
  destruct (last_index n Hn) as [j J]. rewrite J in *. cbn [Nat.sub] in *. rewrite Nat.sub_0_r in *.
  apply (proj2 (C50_boundary (sq xs) j (g t) xi1 xi2 eta (sq ws) I3) Q) in A. apply (proj2 (C50_boundary (sq xs) j (g t) xi1 xi2 eta (sq vs) I3) Q) in B.
  unfold sq in A, B. rewrite A, B, E1, E2. reflexivity.
Qed.
Lemma step_boundaries scheme t1 t2 xs vs lower upper co ws : (3 <= length xs)%nat -> parabolic_step scheme t1 t2 xs vs lower upper co = Some ws ->
  let n := length xs in
  (forall g, lower = Some g -> discretize_boundary (sq xs 1 - sq xs 0) (sq xs 2 - sq xs 1) (g t2) <> None)
  /\ (forall g, upper = Some g -> discretize_boundary (sq xs (n - 1) - sq xs (n - 2)) (sq xs (n - 2) - sq xs (n - 3)) (g t2) <> None).
Proof.
  intros Hn H n. unfold parabolic_step in H. set (g0 := match upper with None => _ | Some _ => _ end) in *. clearbody g0.
  destruct (Nat.ltb (length vs) 3 || Nat.ltb (length g0) 2); [discriminate|]. apply bind_some in H. destruct H as (u & _ & H).
  unfold after_step in H. apply bind_some in H. destruct H as (x & X & H). apply bind_some in H. destruct H as (y & Y & _).
  assert (DL : length (zw Rminus (tl xs) (removelast xs)) = (n - 1)%nat) by (rewrite zw_length; rewrite ?tl_length', ?rl_length; unfold n; lia).
  assert (DN : forall i, (i < n - 1)%nat -> nth i (zw Rminus (tl xs) (removelast xs)) 0 = sq xs (S i) - sq xs i).
  { intros i I. rewrite zw_nth by (rewrite ?tl_length', ?rl_length; unfold n in I; lia). rewrite tl_nth, rl_nth by (unfold n in I; lia). reflexivity. }
  split; intros g E; subst.
  - cbn [boundary_value] in X. apply bind_some in X. destruct X as (q & Q & _). intros N0.
    assert (F : first (zw Rminus (tl xs) (removelast xs)) = sq xs 1 - sq xs 0) by (rewrite <- DN by (unfold n; lia); destruct (zw Rminus (tl xs) (removelast xs)); reflexivity).
    rewrite F, (DN 1%nat) in Q by (unfold n; lia). congruence.
  - cbn [boundary_value] in Y. apply bind_some in Y. destruct Y as (q & Q & _). intros N0.
    rewrite last_at, DL, last2_at, DL in Q by (rewrite DL; unfold n; lia). rewrite !DN in Q by (unfold n; lia).
    replace (S (n - 1 - 1)) with (n - 1)%nat in Q by (unfold n; lia). replace (S (n - 1 - 2)) with (n - 2)%nat in Q by (unfold n; lia).
    replace (n - 1 - 1)%nat with (n - 2)%nat in Q by lia. replace (n - 1 - 2)%nat with (n - 3)%nat in Q by lia. congruence.
Qed.

(** the values are a steady state of the equation on the grid at all times *)
Definition steady (xs vs : list R) (lower upper : boundary) (co : coefficients) : Prop :=
  forall t, lower_at (sq xs) lower t (sq vs) /\ upper_at (sq xs) (length xs - 1) upper t (sq vs)
    /\ forall p, unknown lower upper (length xs) p -> documented_operator lower upper (pde_at co t) (sq xs) (length xs - 1) (sq vs) p = 0.

Lemma steady_step scheme t1 t2 xs vs ws lower upper co : keeps_steady scheme ->
  increasing xs -> length vs = length xs -> (forall t, sized_co (length xs) co t) ->
  (lower = None -> sq xs 1 - sq xs 0 = sq xs 2 - sq xs 1) ->
  (upper = None -> sq xs (length xs - 1) - sq xs (length xs - 2) = sq xs (length xs - 2) - sq xs (length xs - 3)) ->
  steady xs vs lower upper co ->
  parabolic_step scheme t1 t2 xs vs lower upper co = Some ws -> ws = vs.
Proof.
  intros KS Hx Lv SC DL DU ST H.
  destruct (step_some _ t1 t2 xs vs lower upper co ws Lv Hx H) as (v0 & u & Hn & K & Lv0 & Nv0 & Sch & W). cbv zeta in *.
  destruct (step_boundaries _ t1 t2 xs vs lower upper co ws Hn H) as [BL BU]. cbv zeta in BU.
  set (n := length xs) in *. set (k := (n - offset lower - offset upper)%nat) in *.
  assert (U : u = v0).
  { apply (KS v0 t1 t2 (equation_params xs vs co lower upper)); [|exact Sch]. intros t m b P.
    destruct (params_rows xs Hx Hn co vs lower upper t m b (SC t) Lv P K) as (WS & LI & Rows & _). fold n in WS, LI, Rows. fold k in WS, LI, Rows.
    rewrite Lv0. split; [exact WS|]. split; [exact LI|]. intros i I. destruct (ST t) as (S1 & S2 & S3).
    pose proof (Rows (sq vs) S1 S2 i I) as E.
    assert (Mv : map (sq vs) (seq (offset lower) k) = v0).
    { apply list_ext; [rewrite map_length, seq_length; lia|]; intros j J; rewrite map_length, seq_length in J; rewrite (seq_map_nth xs Hn) by exact J. unfold sq. symmetry. apply Nv0. exact J. }
    rewrite Mv in E. rewrite E, op_documented by assumption. fold n. rewrite S3; [ring|].
    unfold unknown. fold n. unfold k in I. destruct lower, upper; cbn [offset] in *; (split; [lia|]; split; intros; (reflexivity || lia)). }
  subst u. destruct (W Lv0) as (W1 & W2 & W3 & W4). destruct (ST t2) as (S1 & S2 & _). fold n in S2.
  assert (IN : forall p, unknown lower upper n p -> nth p ws 0 = nth p vs 0).
  { intros p (A & B & C). replace p with (p - offset lower + offset lower)%nat at 1 2 by (destruct lower; cbn [offset]; [assert (p <> 0%nat) by (intros E; discriminate (B E))|]; lia).
    assert (I : (p - offset lower < k)%nat).
    { unfold k. destruct lower, upper; cbn [offset] in *.
      - assert (p <> 0%nat) by (intros E; discriminate (B E)). assert (p <> (n - 1)%nat) by (intros E; discriminate (C E)). lia.
      - assert (p <> 0%nat) by (intros E; discriminate (B E)). lia.
      - assert (p <> (n - 1)%nat) by (intros E; discriminate (C E)). lia.
      - lia. }
    rewrite W4, Nv0 by exact I. reflexivity. }
  assert (E0 : nth 0 ws 0 = nth 0 vs 0).
  { destruct lower as [g|] eqn:EL; [|apply IN; repeat split; try lia; destruct upper; cbn [offset] in *; intros; try reflexivity; lia].
    apply (lower_unique xs ws vs (Some g) t2); try assumption; try discriminate.
    - apply IN. split; [lia|]. split; intros; [lia|]. destruct upper; cbn [offset] in *; [unfold k in K; lia|reflexivity].
    - apply IN. split; [lia|]. split; intros; [lia|]. destruct upper; cbn [offset] in *; [unfold k in K; lia|reflexivity]. }
  assert (E1 : nth (n - 1) ws 0 = nth (n - 1) vs 0).
  { destruct upper as [g|] eqn:EU; [|apply IN; repeat split; try lia; destruct lower; cbn [offset] in *; intros; try reflexivity; lia].
    apply (upper_unique xs ws vs (Some g) t2); try assumption; try discriminate.
    - apply IN. split; [lia|]. split; intros; [|lia]. destruct lower; cbn [offset] in *; [unfold k in K; lia|reflexivity].
    - apply IN. split; [lia|]. split; intros; [|lia]. destruct lower; cbn [offset] in *; [unfold k in K; lia|reflexivity]. }
  apply list_ext; [congruence|]. intros p Hp. rewrite W1 in Hp.
  destruct (Nat.eq_dec p 0) as [->|P0]; [exact E0|]. destruct (Nat.eq_dec p (n - 1)) as [->|P1]; [exact E1|].
  apply IN. split; [exact Hp|]. split; intros; contradiction.
Qed.

(** A steady state is left unchanged by the weighted scheme, by the
    extrapolation scheme and by Crank-Nicolson with oscillation damping at any
    step count. *)
Theorem C49_steady (t1 t2 : R) (xs vs ws : list R) (lower upper : boundary) (co : coefficients) scheme :
  let n := length xs in let x := sq xs in
  (exists theta, scheme = weighted_scheme theta) \/ scheme = extrapolation_scheme \/ (exists first_steps count, scheme = damped_crank_nicolson first_steps count) ->
  increasing xs -> length vs = n -> (forall t, sized_co n co t) ->
  (lower = None -> x 1%nat - x 0%nat = x 2%nat - x 1%nat) ->
  (upper = None -> x (n - 1)%nat - x (n - 2)%nat = x (n - 2)%nat - x (n - 3)%nat) ->
  steady xs vs lower upper co ->
  parabolic_step scheme t1 t2 xs vs lower upper co = Some ws -> ws = vs.
Proof.
  intros n x [[theta ->]|[->|(f & c & ->)]]; apply steady_step; [apply weighted_steady|apply extrapolation_steady|apply damped_steady].
Qed.
Print Assumptions C49_steady.

Lemma nth_repeat_lt (c d : R) n p : (p < n)%nat -> nth p (repeat c n) d = c.
Proof. revert p. induction n as [|n IH]; intros p H; [lia|]. destruct p; [reflexivity|]. cbn. apply IH. lia. Qed.

(** In particular constants are preserved when there is no zeroth order term and
    no inner coefficient, and each boundary condition is either the default one
    or satisfied by the constant; Neumann conditions with gamma = 0 are. *)
Definition constant_ok (c : R) (b : boundary) : Prop := forall g t, b = Some g -> robin_holds (g t) c 0.
Theorem C49_constants (t1 t2 c : R) (xs ws : list R) (lower upper : boundary) (co : coefficients) scheme :
  let n := length xs in let x := sq xs in
  (exists theta, scheme = weighted_scheme theta) \/ scheme = extrapolation_scheme \/ (exists first_steps count, scheme = damped_crank_nicolson first_steps count) ->
  increasing xs -> (forall t, sized_co n co t) ->
  (lower = None -> x 1%nat - x 0%nat = x 2%nat - x 1%nat) ->
  (upper = None -> x (n - 1)%nat - x (n - 2)%nat = x (n - 2)%nat - x (n - 3)%nat) ->
  (forall t, zeroth co t = None /\ inner_second co t = None /\ inner_first co t = None) ->
  constant_ok c lower -> constant_ok c upper ->
  parabolic_step scheme t1 t2 xs (repeat c n) lower upper co = Some ws -> ws = repeat c n.
Proof.
  intros n x SCH Hx SC DL DU NO CL CU H. pose proof (repeat_length c n) as Lr.
  assert (Hn : (3 <= n)%nat) by (destruct (step_some _ t1 t2 xs (repeat c n) lower upper co ws Lr Hx H) as (? & ? & ? & _); assumption).
  apply (C49_steady t1 t2 xs (repeat c n) ws lower upper co scheme SCH Hx Lr SC DL DU); [|exact H].
  assert (Q : forall p, (p < n)%nat -> sq (repeat c n) p = c) by (intros p Hp; unfold sq; apply nth_repeat_lt; exact Hp).
  assert (SL : forall i, (S i < n)%nat -> slope x (sq (repeat c n)) i = 0) by (intros i I; unfold slope; rewrite !Q by lia; unfold Rdiv; ring).
  assert (D2 : forall i, (S (S i) < n)%nat -> d2 x (sq (repeat c n)) i = 0) by (intros i I; unfold d2; rewrite !SL by lia; unfold Rdiv; ring).
  intros t. fold n x. split; [|split].
  - destruct lower as [g|]; [|exact Logic.I]. cbn [lower_at]. unfold lower_holds.
    assert (D : d1_first x (sq (repeat c n)) 0 = 0) by (unfold d1_first; rewrite SL, D2 by lia; unfold Rdiv; ring). rewrite D, Q by lia. replace (- 0) with 0 by ring. apply CL. reflexivity.
  - destruct upper as [g|]; [|exact Logic.I]. cbn [upper_at]. unfold upper_holds.
    assert (D : d1_last x (sq (repeat c n)) (n - 1 - 2) = 0) by (unfold d1_last; rewrite SL, D2 by lia; unfold Rdiv; ring). rewrite D, Q by lia. apply CU. reflexivity.
  - intros p (Hp & P0 & P1). destruct (NO t) as (N1 & N2 & N3).
    assert (EX : forall i, (S (S i) < n)%nat -> d1 x (fun k => 1 * sq (repeat c n) k) i = 0 /\ d2 x (fun k => 1 * sq (repeat c n) k) i = 0).
    { intros i I. unfold d1, d2, slope. rewrite !Q by lia. split; unfold Rdiv; ring. }
    assert (INN : forall i, (S (S i) < n)%nat -> space_operator (pde_at co t) x (sq (repeat c n)) i = 0).
    { intros i I. unfold space_operator, second_term, first_term, zeroth_term. cbn [pde_at pa pb pc pA pB]. rewrite N1, N2, N3. destruct (EX i I) as [X1 X2].
      destruct (second co t), (first_ co t); cbn [option_map value]; rewrite ?X1, ?X2; ring. }
    unfold documented_operator, grid_operator, if_default.
    assert (LO : lower_operator (pde_at co t) (x 1%nat - x 0%nat) (sq (repeat c n)) = 0).
    { unfold lower_operator, zeroth_term. cbn [pde_at pa pb pc pA pB]. rewrite N1, N3. destruct (first_ co t); cbn [option_map value]; rewrite ?Q by lia; unfold Rdiv; ring. }
    assert (UP : upper_operator (pde_at co t) (x (n - 1)%nat - x (n - 1 - 1)%nat) (sq (repeat c n)) (n - 1) = 0).
    { unfold upper_operator, zeroth_term. cbn [pde_at pa pb pc pA pB]. rewrite N1, N3. destruct (first_ co t); cbn [option_map value]; rewrite ?Q by lia; unfold Rdiv; ring. }
    destruct lower, upper; destruct p as [|p]; try exact LO; try (discriminate (P0 eq_refl)); cbn [Nat.sub]; rewrite ?Nat.sub_0_r.
    + apply INN. assert (S p <> (n - 1)%nat) by (intros E; discriminate (P1 E)). lia.
    + destruct (Nat.eqb_spec (S p) (n - 1)); [exact UP|apply INN; lia].
    + apply INN. assert (S p <> (n - 1)%nat) by (intros E; discriminate (P1 E)). lia.
    + destruct (Nat.eqb_spec (S p) (n - 1)); [exact UP|apply INN; lia].
Qed.
Print Assumptions C49_constants.

(** ** Concrete steps *)
Lemma odiv_ok a b : b <> 0 -> odiv a b = Some (a / b).
Proof. intros H. unfold odiv. destruct (Req_EM_T b 0); [contradiction|reflexivity]. Qed.
Definition drift_one (n : nat) : coefficients :=
  {| second := fun _ => None; first_ := fun _ => Some (repeat 1 n); zeroth := fun _ => None; inner_second := fun _ => None; inner_first := fun _ => None |}.
Ltac run := repeat (rewrite odiv_ok by lra; cbn [bind]).

(** C50, default boundary condition: the documented condition is the equation
    with V_xx = 0 and one-sided differences at the end itself.  On a grid with
    unequal spacings the code divides by the neighbouring spacing instead.  With
    V_t + V_x = 0, V = x on the grid 0, 1, 3 and one explicit step from 1 to 0,
    the code computes 1/2 and 5 at the ends, where V_x = 1 gives 1 and 4. *)
Theorem C50_default_spacing_refuted :
  let x := [0; 1; 3] in
  parabolic_step explicit_scheme 1 0 x x None None (drift_one 3) = Some [1 / 2; 2; 5]
  /\ increasing x
  /\ (forall p, (p < 3)%nat -> documented_operator None None (pde_at (drift_one 3) (1 / 2)) (sq x) 2 (sq x) p = 1)
  /\ nth 0 x 0 - (0 - 1) * 1 = 1 /\ nth 2 x 0 - (0 - 1) * 1 = 4.
Proof.
  cbv zeta. split; [|split; [|split]].
  - unfold parabolic_step, explicit_scheme, weighted_scheme, equation_params, first_order, second_order, zeroth_order, default_lower, default_upper, robin, drift_one, divs.
    destruct (Rlt_dec 1 0); [lra|]. destruct (Rlt_dec 1 1); [lra|]. destruct (Req_EM_T 1 0); [lra|].
    cbn. run. cbn. run. cbn. run. cbn. run. cbn. f_equal. repeat (f_equal; [field|]). f_equal. field.
  - intros i I. cbn [length] in I. destruct i as [|[|i]]; cbn; try lra; lia.
  - intros p Hp. unfold documented_operator, grid_operator, if_default, lower_operator, upper_operator, space_operator, second_term, first_term, zeroth_term, d1, slope, sq.
    destruct p as [|[|[|p]]]; try lia; cbn; field.
  - cbn. lra.
Qed.
Print Assumptions C50_default_spacing_refuted.

Definition heat (n : nat) : coefficients :=
  {| second := fun _ => Some (repeat 1 n); first_ := fun _ => None; zeroth := fun _ => None; inner_second := fun _ => None; inner_first := fun _ => None |}.
Ltac unfold_step :=
  unfold parabolic_step, implicit_scheme, explicit_scheme, weighted_scheme, equation_params, first_order, second_order, zeroth_order, default_lower, default_upper, robin,
    robin_terms, dirichlet_term, has_beta, at_time, heat, drift_one, divs, after_step, boundary_value, discretize_boundary, implicit_part.
(** an explicit step of V_t + V_xx = 0 from 1 to 0 with V = t on the left and the
    default condition on the right meets the hypotheses of C49_theta_step and
    C50_dirichlet; its values follow by hand from the equation *)
Example heat_step :
  let x := [0; 1; 2; 3] in
  parabolic_step explicit_scheme 1 0 x [1; 2; 3; 5] (Some (fun t => (Some 1, None, t))) None (heat 4) = Some [0; 3 / 2; 4; 5]
  /\ increasing x /\ sized_co 4 (heat 4) (1 / 2).
Proof.
  cbv zeta. split; [|split].
  - unfold_step. destruct (Rlt_dec 1 0); [lra|]. destruct (Rlt_dec 1 1); [lra|]. destruct (Req_EM_T 1 0); [lra|].
    cbn. run. cbn. run. cbn. run. cbn. run. cbn. run. f_equal. repeat (f_equal; [field|]). f_equal. field.
  - intros i I. cbn [length] in I. destruct i as [|[|[|i]]]; cbn; try lra; lia.
  - repeat split.
Qed.
(** x^2 satisfies V = 0 on the left and V_n = 8 on the right of 0, 1, 3, 4, so
    the hypotheses of C50_quadratics can be met *)
Example quadratic_params :
  let x := [0; 1; 3; 4] in let q := map (fun x => x * x) x in
  let lower := Some (fun _ => (Some 1, None, 0)) in let upper := Some (fun _ => (None, Some 1, 8)) in
  equation_params x q (heat 4) lower upper 0 <> None /\ increasing x
  /\ robin_holds (Some 1, None, 0) 0 (- 0) /\ robin_holds (None, Some 1, 8) (4 * 4) (2 * 1 * 4 + 0).
Proof.
  cbv zeta. split; [|split].
  - unfold_step. cbn. run. cbn. run. cbn. run. cbn. run. cbn. discriminate.
  - intros i I. cbn [length] in I. destruct i as [|[|[|i]]]; cbn; try lra; lia.
  - cbn. lra.
Qed.
(** the implicit part of the heat equation with two zero Dirichlet ends is
    strictly dominant, whatever the size of the step *)
Example heat_dominant (h : R) : 0 < h ->
  let params := fun _ : R => Some (([0; -1; -1], [2; 2; 2], [-1; -1; 0]), [0; 0; 0]) in
  weighted_scheme 0 [1; 2; 3] h 0 params <> None /\ extrapolation_scheme [1; 2; 3] h 0 params <> None.
Proof.
  intros Hh params.
  assert (A : forall v t1 t2, length v = 3%nat -> t2 < t1 -> exists w, weighted_scheme 0 v t1 t2 params = Some w /\ length w = 3%nat).
  { intros v t1 t2 L T. destruct (C49_theta_exists 0 t1 t2 v params [0; -1; -1] [2; 2; 2] [-1; -1; 0] [0; 0; 0] eq_refl) as [E _]; try (rewrite L; reflexivity).
    destruct (weighted_scheme 0 v t1 t2 params) as [w|] eqn:W.
    - exists w. split; [reflexivity|]. rewrite <- L. apply (C49_theta_scheme 0 t1 t2 v params [0; -1; -1] [2; 2; 2] [-1; -1; 0] [0; 0; 0] w eq_refl); try (rewrite L; reflexivity). exact W.
    - exfalso. apply E; [lra| |reflexivity]. intros i I. rewrite L in I. set (k := (1 - 0) * (t2 - t1)). assert (K : k < 0) by (unfold k; lra).
      destruct i as [|[|[|i]]]; [| | |lia]; cbn [nth]; rewrite ?Rmult_0_r, ?Rabs_R0; rewrite ?(Rabs_pos_eq (k * -1)), ?(Rabs_pos_eq (1 - k * 2)) by lra; lra. }
  split.
  - destruct (A [1; 2; 3] h 0 eq_refl Hh) as (w & -> & _). discriminate.
  - unfold extrapolation_scheme, implicit_scheme.
    destruct (A [1; 2; 3] h ((h + 0) / 2) eq_refl ltac:(lra)) as (w1 & -> & L1). cbn [bind].
    destruct (A w1 ((h + 0) / 2) 0 L1 ltac:(lra)) as (w2 & -> & _). cbn [bind].
    destruct (A [1; 2; 3] h 0 eq_refl Hh) as (w & -> & _). discriminate.
Qed.
