(** C37: monotone convex (Hagan-West) interpolation of forward rates. *)
From Coq Require Import Reals Bool ZArith Lia Lra Psatz.
From Coquelicot Require Import Coquelicot.
From Coq Require Import List.
From Verif Require Import TensorModel TensorProofs InterpModel BrentModel SegmentModel PiecewiseModel PropsPiecewise ExtReal RatesModel PropsForwards HaganWestModel HaganWestSpec HaganWestProofs HaganWestProofs2 RIntAux.
Import ListNotations.
Open Scope R_scope.

(** The forward rates at the ends of the intervals. *)
Theorem C37_boundaries ts fds : valid ts fds -> interpolate_adjacent ts fds = Some (map (boundary ts fds) (seq 0 (S (length ts)))).
Proof. apply adjacent_eq. Qed.
(** At an inner edge the forward rate lies between the neighbouring averages. *)
Theorem C37_boundary_between ts fds i : valid ts fds -> (0 < i < length ts)%nat ->
  Rmin (avg fds (i - 1)) (avg fds i) <= boundary ts fds i <= Rmax (avg fds (i - 1)) (avg fds i).
Proof.
  intros V I. unfold boundary. destruct (Nat.eqb_spec i 0); [lia|]. destruct (Nat.eqb_spec i (length ts)); [lia|]. unfold inner.
  pose proof (edge_lt ts fds V (i - 1) i ltac:(lia)) as A. pose proof (edge_lt ts fds V i (S i) ltac:(lia)) as B.
  set (a := avg fds (i - 1)). set (b := avg fds i). set (p := edge ts (i - 1)) in *. set (q := edge ts i) in *. set (r := edge ts (S i)) in *.
  assert (W : 0 <= (q - p) / (r - p) <= 1) by (apply quot_bounds; nra). replace (((q - p) * b + (r - q) * a) / (r - p)) with (a + (b - a) * ((q - p) / (r - p))) by (field; lra).
  apply between_mix. exact W.
Qed.

Section C37.
Variables (next : R -> R -> R) (ts fds : list R).
Notation n := (length ts).
Notation E := (edge ts).
Notation fd := (avg fds).
Notation bd := (boundary ts fds).
(** The interpolated forward rate as a real number. *)
Definition forward (t : R) : R := match hw_interpolate next t fds ts false with Some (Fin f, _) => f | _ => 0 end.

Lemma forward_at v I i t : valid ts fds -> belongs ts i t -> (forall x l, 0 <= x <= 1 -> interval_curve next (bd i) (bd (S i)) (fd i) x l = (Fin (v x + fd i), Fin ((I x + fd i * x) * l))) ->
  forward t = v (pos ts i t) + fd i.
Proof. intros V B F. unfold forward. rewrite (hw_at ts fds V next i t false B). rewrite F by (apply (pos_range ts fds V); exact B). reflexivity. Qed.
Lemma interval_start i : valid ts fds -> (i < n)%nat -> belongs ts i (E i).
Proof. intros (_ & _ & INC) I. split; [exact I|]. specialize (INC i I). split; [lra|left; exact INC]. Qed.

(** Inside the reference times both outputs are finite numbers; the second is
    the integral of the forward rate from the start of the interval. *)
Theorem C37_integrated i t va : valid ts fds -> regular ts fds i -> belongs ts i t ->
  exists J, hw_interpolate next t fds ts va = Some (Fin (forward t), Fin J) /\ is_RInt forward (E i) t J.
Proof.
  intros V G B. destruct (interval_piece ts fds next i G) as (v & I & F & P). pose proof (pos_range ts fds V i t B) as X. assert (IN : (i < n)%nat) by apply B. pose proof (len_pos ts fds V i IN) as L.
  exists ((I (pos ts i t) + fd i * pos ts i t) * len ts i). rewrite (hw_at ts fds V next i t va B), (F _ _ X), (forward_at v I i t V B F). split; [reflexivity|].
  assert (H : is_RInt v 0 (pos ts i t) (I (pos ts i t))).
  { destruct P as [(_ & V0 & I0)|(_ & P)]; [|apply (piece_int _ _ _ _ P); exact X]. rewrite I0. apply (isi_ext (fun _ => 0)); [intros s _; symmetry; apply V0|apply isi_const; ring]. }
  pose proof (is_RInt_affine v (E i) (len ts i) (pos ts i t) _ (fd i) L H) as Q. replace (E i + pos ts i t * len ts i) with t in Q by (unfold pos; field; lra).
  refine (isi_ext _ _ _ _ _ _ Q). intros s S. destruct B as (_ & B1 & B2). rewrite Rmin_left, Rmax_right in S by lra. rewrite (forward_at v I i s V); [reflexivity| |exact F]. split; [exact IN|]. split; [lra|left; lra].
Qed.
Theorem C37_total t va : valid ts fds -> (forall i, (i < n)%nat -> regular ts fds i) -> 0 <= t <= E n ->
  exists J, hw_interpolate next t fds ts va = Some (Fin (forward t), Fin J).
Proof.
  intros V G T. destruct (locate_time ts fds V t T) as (i & B). destruct (C37_integrated i t va V (G i ltac:(apply B)) B) as (J & H & _). exists J. exact H.
Qed.
(** Times outside the curve are refused. *)
Theorem C37_outside t va : valid ts fds -> t < 0 \/ E n < t -> hw_interpolate next t fds ts va = None.
Proof.
  intros V T. unfold hw_interpolate. destruct (_ && _); [reflexivity|]. rewrite (adjacent_eq ts fds V).
  destruct (C21_find_interval_index (0 :: ts) t (incr_nondecr _ (edges_incr ts fds V)) ltac:(discriminate)) as (RG & LO & HI & ->). set (j := find_interval_index t (0 :: ts) false) in *. cbn [length] in *.
  replace (S n - 1)%nat with n in * by lia. fold (E n). destruct (Req_EM_T t (E n)) as [Q|Q]; [exfalso; destruct T as [T|T]; [|lra]; pose proof (edge_le ts fds V 0 n ltac:(lia)) as X; rewrite edge_0 in X; lra|].
  destruct T as [T|T].
  - assert (J : (j < 0)%Z). { destruct (Z.ltb_spec j 0) as [A|A]; [exact A|]. exfalso. specialize (LO ltac:(lia)). pose proof (edge_le ts fds V 0 (Z.to_nat j) ltac:(lia)) as X. rewrite edge_0 in X. unfold edge in X. lra. }
    unfold gather1 at 1. destruct (Z.ltb_spec j 0); [reflexivity|lia].
  - assert (J : j = Z.of_nat n). { destruct (Z.ltb_spec j (Z.of_nat n)) as [A|A]; [|lia]. exfalso. specialize (HI ltac:(lia)). pose proof (edge_le ts fds V (Z.to_nat (j + 1)) n ltac:(lia)) as X. unfold edge in X, T. lra. }
    rewrite J. destruct (gather1 _ (Z.of_nat n)); [|reflexivity]. replace (gather1 (map bd (seq 0 (S n))) (Z.of_nat n + 1)) with (@None R); [reflexivity|]. symmetry. unfold gather1. destruct (Z.ltb_spec (Z.of_nat n + 1) 0); [reflexivity|]. apply nth_error_None. rewrite map_length, seq_length. lia.
Qed.
(** Over every interval the forward rate integrates to the average times the
    length: the input is reproduced. *)
Theorem C37_average i : valid ts fds -> regular ts fds i -> (i < n)%nat -> is_RInt forward (E i) (E (S i)) (fd i * (E (S i) - E i)).
Proof.
  intros V G IN. destruct (interval_piece ts fds next i G) as (v & I & F & P). pose proof (len_pos ts fds V i IN) as L.
  assert (H : is_RInt v 0 1 0).
  { destruct P as [(_ & V0 & I0)|(_ & P)].
    - apply (isi_ext (fun _ => 0)); [intros s _; symmetry; apply V0|apply isi_const; ring].
    - pose proof (piece_int _ _ _ _ P 1 ltac:(lra)) as Q. rewrite (piece_one _ _ _ _ P) in Q. exact Q. }
  pose proof (is_RInt_affine v (E i) (len ts i) 1 _ (fd i) L H) as Q. replace (E i + 1 * len ts i) with (E (S i)) in Q by (unfold len; ring). replace ((0 + fd i * 1) * len ts i) with (fd i * (E (S i) - E i)) in Q by (unfold len; ring).
  refine (isi_ext _ _ _ _ _ _ Q). intros s S. unfold len in L. rewrite Rmin_left, Rmax_right in S by lra. rewrite (forward_at v I i s V); [reflexivity| |exact F]. split; [exact IN|]. split; [lra|left; lra].
Qed.
(** Integral from time 0. *)
Definition accrued (i : nat) : R := fold_right Rplus 0 (map (fun j => fd j * (E (S j) - E j)) (seq 0 i)).
Lemma accrued_S i : accrued (S i) = accrued i + fd i * (E (S i) - E i).
Proof. unfold accrued. rewrite seq_S, map_app, fold_right_app. cbn [map fold_right Nat.add]. rewrite Rplus_0_r. generalize (map (fun j => fd j * (E (S j) - E j)) (seq 0 i)). intros l. induction l as [|a l IH]; cbn [fold_right]; [ring|]. rewrite IH. ring. Qed.
Lemma integral_edges : valid ts fds -> (forall i, (i < n)%nat -> regular ts fds i) -> forall i, (i <= n)%nat -> is_RInt forward 0 (E i) (accrued i).
Proof.
  intros V G. induction i as [|i IH]; intros I.
  - rewrite edge_0. apply (isi_eq _ _ _ 0); [|reflexivity]. apply (is_RInt_point (V := R_NormedModule)).
  - eapply isi_chasles; [apply IH; lia|apply C37_average; [exact V|apply G; lia|lia]|]. apply accrued_S.
Qed.
(** When every interval starts or ends away from its average only if it does
    both, the forward curve is continuous (indeed Lipschitz). *)
Definition joined (i : nat) : Prop :=
  bd i = fd i /\ bd (S i) = fd i \/ bd i <> fd i /\ bd (S i) <> fd i /\ ~ flat next ts fds i.
Lemma joined_regular i : joined i -> regular ts fds i.
Proof. unfold joined, regular. tauto. Qed.
Lemma joined_interval i : valid ts fds -> (i < n)%nat -> joined i -> (forall j, (j < n)%nat -> joined j) ->
  exists L, 0 <= L /\ forall s t, E i <= s <= E (S i) -> E i <= t <= E (S i) -> Rabs (forward s - forward t) <= L * Rabs (s - t).
Proof.
  intros V IN J JA.
  assert (ST : forall j, (j < n)%nat -> forward (E j) = bd j).
  { intros j JN. destruct (interval_piece ts fds next j (joined_regular j (JA j JN))) as (v & I & F & P). rewrite (forward_at v I j (E j) V (interval_start j V JN) F). replace (pos ts j (E j)) with 0 by (unfold pos, Rdiv; ring).
    destruct (JA j JN) as [(A & B)|(A & B & C)].
    - destruct P as [(_ & V0 & _)|(NF & _)]; [rewrite V0; lra|]. exfalso. apply NF. unfold flat. cbv zeta. rewrite A, B, Rminus_eq_0, Rabs_R0. pose proof (Rabs_pos (next (fd j) (fd j) - fd j)). lra.
    - destruct P as [(F1 & _)|(_ & P)]; [contradiction|]. rewrite (piece_left _ _ _ _ P) by lra. ring. }
  destruct (interval_piece ts fds next i (joined_regular i J)) as (v & I & F & P). pose proof (len_pos ts fds V i IN) as LP.
  assert (EN : v 1 + fd i = bd (S i)).
  { destruct J as [(A & B)|(A & B & C)].
    - destruct P as [(_ & V0 & _)|(_ & P)]; [rewrite V0; lra|rewrite (piece_right _ _ _ _ P); ring].
    - destruct P as [(F1 & _)|(_ & P)]; [contradiction|rewrite (piece_right _ _ _ _ P); ring]. }
  assert (AT : forall s, E i <= s <= E (S i) -> forward s = v (pos ts i s) + fd i).
  { intros s HS. destruct (Rlt_le_dec s (E (S i))) as [L|L]; [apply (forward_at v I i s V); [split; [exact IN|split; [lra|left; exact L]]|exact F]|].
    assert (s = E (S i)) by lra. subst s. destruct (Nat.eq_dec (S i) n) as [Q|Q]; [apply (forward_at v I i _ V); [split; [exact IN|split; [lra|right; split; [exact Q|reflexivity]]]|exact F]|].
    rewrite ST by lia. replace (pos ts i (E (S i))) with 1 by (unfold pos, len; field; unfold len in LP; lra). symmetry. exact EN. }
  assert (LV : lip v). { destruct P as [(_ & V0 & _)|(_ & P)]; [|apply (piece_lip _ _ _ _ P)]. exists 0. split; [lra|]. intros x y _ _. rewrite !V0, Rminus_eq_0, Rabs_R0. lra. }
  destruct LV as (L & L0 & LV). exists (L / len ts i). split; [apply Rdiv_le_0_compat; lra|]. intros s t HS HT. rewrite (AT s HS), (AT t HT).
  assert (PR : forall u, E i <= u <= E (S i) -> 0 <= pos ts i u <= 1) by (intros u U; unfold pos; apply quot_bounds; unfold len in *; nra).
  specialize (LV (pos ts i s) (pos ts i t) (PR s HS) (PR t HT)). replace (v (pos ts i s) + fd i - (v (pos ts i t) + fd i)) with (v (pos ts i s) - v (pos ts i t)) by ring.
  replace (pos ts i s - pos ts i t) with ((s - t) * / len ts i) in LV by (unfold pos; field; lra). rewrite Rabs_mult, (Rabs_right (/ len ts i)) in LV by (left; apply Rinv_0_lt_compat; exact LP).
  unfold Rdiv. lra.
Qed.
Theorem C37_continuous : valid ts fds -> (forall i, (i < n)%nat -> joined i) ->
  exists L, 0 <= L /\ forall s t, 0 <= s <= E n -> 0 <= t <= E n -> Rabs (forward s - forward t) <= L * Rabs (s - t).
Proof.
  intros V J. assert (G : forall m, (m <= n)%nat -> exists L, 0 <= L /\ forall s t, 0 <= s <= E m -> 0 <= t <= E m -> s <= t -> Rabs (forward s - forward t) <= L * (t - s)).
  { induction m as [|m IH]; intros M.
    - exists 0. split; [lra|]. rewrite edge_0. intros s t S T _. assert (s = t) by lra. subst. rewrite Rminus_eq_0, Rabs_R0. lra.
    - destruct (IH ltac:(lia)) as (L1 & P1 & H1). destruct (joined_interval m V ltac:(lia) (J m ltac:(lia)) J) as (L2 & P2 & H2). pose proof (edge_le ts fds V 0 m ltac:(lia)) as E0. rewrite edge_0 in E0. pose proof (edge_lt ts fds V m (S m) ltac:(lia)) as E1.
      exists (L1 + L2). split; [lra|]. intros s t HS HT ST. destruct (Rle_lt_dec t (E m)) as [A|A]; [|destruct (Rle_lt_dec (E m) s) as [B|B]].
      + specialize (H1 s t ltac:(lra) ltac:(lra) ST). nra.
      + specialize (H2 s t ltac:(lra) ltac:(lra)). rewrite (Rabs_left1 (s - t)) in H2 by lra. nra.
      + specialize (H1 s (E m) ltac:(lra) ltac:(lra) ltac:(lra)). specialize (H2 (E m) t ltac:(lra) ltac:(lra)). rewrite (Rabs_left1 (E m - t)) in H2 by lra.
        pose proof (Rabs_triang (forward s - forward (E m)) (forward (E m) - forward t)) as X. replace (forward s - forward (E m) + (forward (E m) - forward t)) with (forward s - forward t) in X by ring. nra. }
  destruct (G n ltac:(lia)) as (L & P & H). exists L. split; [exact P|]. intros s t S T. destruct (Rle_lt_dec s t) as [A|A].
  - rewrite (Rabs_left1 (s - t)) by lra. specialize (H s t S T A). lra.
  - rewrite (Rabs_right (s - t)) by lra. specialize (H t s T S ltac:(lra)). rewrite Rabs_minus_sym. lra.
Qed.
(** Shape: if the average lies between the end values of the interval, so do
    all forward rates in it. *)
Theorem C37_shape i t : valid ts fds -> regular ts fds i -> belongs ts i t ->
  Rmin (bd i) (bd (S i)) <= fd i <= Rmax (bd i) (bd (S i)) ->
  Rmin (bd i) (bd (S i)) <= forward t <= Rmax (bd i) (bd (S i)).
Proof.
  intros V G B M. destruct (interval_piece ts fds next i G) as (v & I & F & P). pose proof (pos_range ts fds V i t B) as X. rewrite (forward_at v I i t V B F). destruct P as [(_ & V0 & _)|(_ & P)]; [rewrite V0; lra|].
  destruct (piece_bound _ _ _ _ P _ X) as [Q|(Q & _)]; [unfold between in Q; revert M Q; unfold Rmin, Rmax; repeat destruct (Rle_dec _ _); lra|].
  exfalso. revert M Q. unfold Rmin, Rmax. destruct (Rle_dec _ _); nra.
Qed.
(** Positivity: with the end values positive and below three times the
    average, the forward rate is positive throughout. *)
Theorem C37_positive i t : valid ts fds -> regular ts fds i -> belongs ts i t ->
  0 < bd i < 3 * fd i -> 0 < bd (S i) < 3 * fd i -> 0 < forward t.
Proof.
  intros V G B A C. destruct (interval_piece ts fds next i G) as (v & I & F & P). pose proof (pos_range ts fds V i t B) as X. rewrite (forward_at v I i t V B F). destruct P as [(_ & V0 & _)|(_ & P)]; [rewrite V0; lra|].
  destruct (piece_bound _ _ _ _ P _ X) as [Q|(Q & K)]; [unfold between in Q; revert Q; unfold Rmin, Rmax; repeat destruct (Rle_dec _ _); lra|].
  set (g0 := bd i - fd i) in *. set (g1 := bd (S i) - fd i) in *. assert (H : g0 * g1 / (g0 + g1) < fd i).
  { destruct (Rlt_le_dec 0 g0) as [Z|Z].
    - assert (0 < g1) by nra. apply (Rmult_lt_reg_r (g0 + g1)); [lra|]. replace (g0 * g1 / (g0 + g1) * (g0 + g1)) with (g0 * g1) by (field; lra). unfold g0, g1 in *. nra.
    - clearbody g0 g1. assert (Z0 : g0 < 0) by (destruct Z as [Z|Z]; [exact Z|rewrite Z in Q; lra]). assert (Z1 : g1 < 0) by (clear - Z0 Q; nra). assert (0 < fd i) by lra. assert (Y : 0 < g0 * g1 / - (g0 + g1)) by (apply Rdiv_lt_0_compat; lra).
      replace (g0 * g1 / (g0 + g1)) with (- (g0 * g1 / - (g0 + g1))) by (field; lra). lra. }
  unfold between, Rmin, Rmax in K. revert K. repeat destruct (Rle_dec _ _); unfold g0, g1 in *; lra.
Qed.
(** When an interval ends exactly at its average, the forward rate stays at the
    average all over it, whatever its value at the start should be. *)
Theorem C37_flat_end i t : valid ts fds -> belongs ts i t -> bd (S i) = fd i -> forward t = fd i.
Proof.
  intros V B H. unfold forward. rewrite (hw_at ts fds V next i t false B), curve_eq. destruct (origin_dec ts fds next i) as [O|O]; [cbn; ring|].
  assert (Q : regions (bd i - fd i) (bd (S i) - fd i) (pos ts i t) = (Fin 0, Fin 0)); [|rewrite Q; cbn; ring].
  replace (bd (S i) - fd i) with 0 by lra. set (g := bd i - fd i). pose proof (pos_range ts fds V i t B) as X. unfold regions. rewrite where2_false by (rewrite test_4; unfold pred_4; lra).
  destruct (Req_dec g 0) as [G|G].
  - rewrite where2_false by (rewrite test_3; unfold pred_3; lra). rewrite where2_false by (rewrite test_2; unfold pred_2; lra). rewrite where2_false by (rewrite test_1; unfold pred_1; lra). reflexivity.
  - assert (P : pred_3 g 0) by (unfold pred_3; lra). rewrite where2_true by (apply test_3; exact P). destruct (region_3_fin g 0 (pos ts i t) P ltac:(lra)) as [-> ->]. destruct (eta3_range g 0 P) as (_ & _ & _ & E3). specialize (E3 eq_refl).
    unfold v3, I3. rewrite E3. f_equal; f_equal; unfold Rdiv; rewrite ?Rinv_0; ring.
Qed.
End C37.

(** ** Yields *)
Lemma valid_maturities ts fds : valid ts fds -> maturities None ts.
Proof.
  intros V i I. split; [pose proof (edge_lt ts fds V 0 (S i) ltac:(lia)) as X; exact X|]. intros F. destruct i as [|i]; [exfalso; apply F; left; reflexivity|].
  pose proof (edge_lt ts fds V (S i) (S (S i)) ltac:(lia)) as X. replace (S i - 1)%nat with i by lia. exact X.
Qed.
Lemma accrued_yields ts ys : let fds := forward_rates_from_yields ys ts None in valid ts fds -> length ys = length ts -> forall i, (i <= length ts)%nat -> accrued ts fds i = nth i (0 :: ys) 0 * nth i (0 :: ts) 0.
Proof.
  intros fds V L. pose proof (valid_maturities ts fds V) as M. induction i as [|i IH]; intros I.
  - unfold accrued. cbn. ring.
  - rewrite accrued_S, IH by lia. clear IH. destruct (C34_forwards None ts ys i Logic.I M L ltac:(lia)) as [A B]. fold fds in A, B. unfold avg, edge.
    destruct i as [|i].
    + destruct (A (or_introl eq_refl)) as [A1 _]. rewrite A1. cbn [nth]. ring.
    + destruct B as [B1 _]; [intros [Q|Q]; [discriminate Q|exact Q]|]. rewrite B1. cbn [nth]. replace (S i - 1)%nat with i by lia. pose proof (edge_lt ts fds V (S i) (S (S i)) ltac:(lia)) as X. unfold edge in X. cbn [nth] in X. field. lra.
Qed.
Section Yields.
Variables (next : R -> R -> R) (ts ys : list R).
Let fds := forward_rates_from_yields ys ts None.
(** The yield to time [t] times [t] is the integral of the forward rate. *)
Theorem C37_yields t va : valid ts fds -> length ys = length ts -> (forall i, (i < length ts)%nat -> regular ts fds i) -> 0 < t <= edge ts (length ts) ->
  exists y, interpolate_yields next t ts (Some ys) None va = Some (Fin y) /\ is_RInt (forward next ts fds) 0 t (y * t).
Proof.
  intros V L G T. destruct (locate_time ts fds V t ltac:(lra)) as (i & B). assert (IN : (i < length ts)%nat) by apply B. destruct (C37_integrated next ts fds i t va V (G i IN) B) as (J & H & K).
  unfold interpolate_yields, curve_inputs. fold fds. rewrite H. rewrite (index_eq ts fds V i t B).
  rewrite gather_list by (rewrite vzip_length; cbn [length]; lia). rewrite vzip_nth by (cbn [length]; lia). rewrite <- (accrued_yields ts ys V L i ltac:(lia)). fold fds. destruct (Req_EM_T t 0) as [Z|Z]; [lra|].
  rewrite fadd, fdiv by lra. eexists. split; [reflexivity|]. replace ((accrued ts fds i + J) / t * t) with (accrued ts fds i + J) by (field; lra).
  eapply isi_chasles; [apply (integral_edges next ts fds V G i); lia|exact K|reflexivity].
Qed.
(** The yields supplied are reproduced at the reference times. *)
Theorem C37_reprices i va : valid ts fds -> length ys = length ts -> (forall i, (i < length ts)%nat -> regular ts fds i) -> (i < length ts)%nat ->
  interpolate_yields next (nth i ts 0) ts (Some ys) None va = Some (Fin (nth i ys 0)).
Proof.
  intros V L G I. change (nth i ts 0) with (edge ts (S i)). pose proof (edge_lt ts fds V 0 (S i) ltac:(lia)) as X. rewrite edge_0 in X. pose proof (edge_le ts fds V (S i) (length ts) ltac:(lia)) as Y.
  destruct (C37_yields (edge ts (S i)) va V L G ltac:(lra)) as (y & H & K). rewrite H. do 2 f_equal. pose proof (integral_edges next ts fds V G (S i) ltac:(lia)) as Q.
  apply (is_RInt_unique (V := R_CompleteNormedModule)) in K. apply (is_RInt_unique (V := R_CompleteNormedModule)) in Q. rewrite K in Q. pose proof (accrued_yields ts ys V L (S i) ltac:(lia)) as Z. fold fds in Z. cbn [nth] in Z.
  apply (Rmult_eq_reg_r (edge ts (S i))); [|lra]. rewrite Q, Z. reflexivity.
Qed.
(** At time 0 the yield is reported as 0. *)
Theorem C37_yield_zero va : valid ts fds -> length ys = length ts -> (forall i, (i < length ts)%nat -> regular ts fds i) ->
  interpolate_yields next 0 ts (Some ys) None va = Some (Fin 0).
Proof.
  intros V L G. destruct V as (N2 & V'). pose proof (conj N2 V') as V. pose proof (interval_start ts fds 0 V ltac:(lia)) as B. rewrite edge_0 in B. destruct (C37_integrated next ts fds 0 0 va V (G 0%nat ltac:(lia)) B) as (J & H & K).
  unfold interpolate_yields, curve_inputs. fold fds. rewrite H. rewrite (index_eq ts fds V 0 0 B). rewrite gather_list by (rewrite vzip_length; cbn [length]; lia). destruct (Req_EM_T 0 0) as [Z|Z]; [reflexivity|contradiction].
Qed.
End Yields.
(** Supplying the forwards is the same as supplying the yields they imply. *)
Theorem C37_inputs next ts fds t va : valid ts fds ->
  interpolate_yields next t ts None (Some fds) va = interpolate_yields next t ts (Some (yields_from_forward_rates fds ts None)) None va /\
  interpolate_forward_rate next t ts None (Some fds) va = interpolate_forward_rate next t ts (Some (yields_from_forward_rates fds ts None)) None va.
Proof.
  intros V. assert (L : length fds = length ts) by apply V. destruct (C34_round_trip None ts fds I (valid_maturities ts fds V) L) as [_ Q]. unfold interpolate_yields, interpolate_forward_rate, curve_inputs. rewrite Q. split; reflexivity.
Qed.

(** ** A curve that meets the hypotheses *)
Example ts3 : list R := [1; 2; 3].
Example curve3_valid a b c : valid ts3 [a; b; c].
Proof. split; [cbn; lia|]. split; [reflexivity|]. intros i I. cbn in I. destruct i as [|[|[|i]]]; [cbn; lra|cbn; lra|cbn; lra|lia]. Qed.
Lemma boundary3 a b c : boundary ts3 [a; b; c] 0 = (5 * a - b) / 4 /\ boundary ts3 [a; b; c] 1 = (a + b) / 2 /\ boundary ts3 [a; b; c] 2 = (b + c) / 2 /\ boundary ts3 [a; b; c] 3 = (5 * c - b) / 4.
Proof. unfold boundary, inner, avg, edge, ts3. cbn. repeat split; field. Qed.
Example curve3_joined next i : (forall a b, Rabs (next a b - a) <= / 8) -> (i < 3)%nat -> joined next ts3 [1; 2; 4] i.
Proof.
  intros H I. destruct (boundary3 1 2 4) as (B0 & B1 & B2 & B3). right. unfold flat. cbv zeta.
  destruct i as [|[|[|i]]]; [| | |lia]; rewrite ?B0, ?B1, ?B2, ?B3; unfold avg; cbn [nth]; (split; [lra|]); (split; [lra|]); intros [F1 F2].
  - pose proof (H 1 ((1 + 2) / 2)). rewrite (Rabs_right ((1 + 2) / 2 - 1)) in F2 by lra. lra.
  - pose proof (H 2 ((2 + 4) / 2)). rewrite (Rabs_right ((2 + 4) / 2 - 2)) in F2 by lra. lra.
  - pose proof (H 4 ((5 * 4 - 2) / 4)). rewrite (Rabs_right ((5 * 4 - 2) / 4 - 4)) in F2 by lra. lra.
Qed.
Example curve3_positive next : 0 < forward next ts3 [1; 2; 4] (3 / 2).
Proof.
  destruct (boundary3 1 2 4) as (B0 & B1 & B2 & B3). apply (C37_positive next ts3 [1; 2; 4] 1); [apply curve3_valid| | | |]; unfold regular, belongs; rewrite ?B1, ?B2; unfold avg, edge, ts3; cbn; [lra| |lra|lra].
  split; [lia|]. split; [lra|left; lra].
Qed.
(** ** Refutations *)
(** An interval whose start has exactly its average forward rate but whose end
    has not gives NaN although all data are finite, positive and monotone. *)
Theorem C37_nan_refuted : exists ts fds t, valid ts fds /\ (forall i, (i < length fds)%nat -> 0 < avg fds i) /\ 0 < t < edge ts (length ts) /\
  forall next va, (forall a b, Rabs (next a b - a) <= / 8) -> hw_interpolate next t fds ts va = Some (NaN, NaN).
Proof.
  exists ts3, [1; 1; 2], (3 / 2). split; [apply curve3_valid|]. split; [intros [|[|[|i]]] I; unfold avg; cbn in *; [lra|lra|lra|lia]|]. split; [cbn; lra|]. intros next va H.
  destruct (boundary3 1 1 2) as (B0 & B1 & B2 & B3). rewrite (hw_at ts3 [1; 1; 2] (curve3_valid 1 1 2) next 1 (3 / 2) va) by (unfold belongs, edge, ts3; cbn; split; [lia|split; [lra|left; lra]]).
  rewrite curve_eq. destruct (origin_dec _ _ _ _) as [[_ F2]|O].
  - exfalso. cbv zeta in F2. rewrite B2 in F2. unfold avg in F2. cbn [nth] in F2. pose proof (H 1 ((1 + 2) / 2)). rewrite (Rabs_right ((1 + 2) / 2 - 1)) in F2 by lra. lra.
  - rewrite B1, B2. unfold avg. cbn [nth]. replace ((1 + 1) / 2 - 1) with 0 by field. rewrite regions_nan; [reflexivity|lra|]. unfold pos, len, edge, ts3. cbn [nth]. lra.
Qed.
(** An interval that ends at its average makes the forward curve jump where it
    starts. *)
Theorem C37_jump_refuted : exists ts fds t0, valid ts fds /\ (forall i, (i < length fds)%nat -> 0 < avg fds i /\ regular ts fds i) /\ 0 < t0 < edge ts (length ts) /\
  forall next, (forall a b, Rabs (next a b - a) <= / 8) -> forall delta, 0 < delta -> exists t, 0 <= t < t0 /\ t0 - t < delta /\ 1 / 4 <= forward next ts fds t - forward next ts fds t0.
Proof.
  exists ts3, [2; 1; 1], 1. destruct (boundary3 2 1 1) as (B0 & B1 & B2 & B3). split; [apply curve3_valid|].
  split. { intros [|[|[|i]]] I; unfold regular; rewrite ?B0, ?B1, ?B2, ?B3; unfold avg; cbn in *; [lra|lra|lra|lia]. }
  split; [cbn; lra|]. intros next H delta D.
  assert (F1 : forward next ts3 [2; 1; 1] 1 = 1). { apply (C37_flat_end next ts3 [2; 1; 1] 1); [apply curve3_valid|unfold belongs, edge, ts3; cbn; split; [lia|split; [lra|left; lra]]|rewrite B2; unfold avg; cbn; lra]. }
  assert (F0 : forall t, 0 <= t < 1 -> forward next ts3 [2; 1; 1] t = 9 / 4 - 3 / 4 * (t * t)).
  { intros t T. unfold forward. rewrite (hw_at ts3 [2; 1; 1] (curve3_valid 2 1 1) next 0 t false) by (unfold belongs, edge, ts3; cbn; split; [lia|split; [lra|left; lra]]).
    rewrite curve_eq. destruct (origin_dec _ _ _ _) as [[_ F2]|O].
    - exfalso. cbv zeta in F2. rewrite B1 in F2. unfold avg in F2. cbn [nth] in F2. pose proof (H 2 ((2 + 1) / 2)). rewrite (Rabs_left ((2 + 1) / 2 - 2)) in F2 by lra. lra.
    - rewrite B0, B1. unfold avg. cbn [nth]. assert (PX : pos ts3 0 t = t) by (unfold pos, len, edge, ts3; cbn [nth]; field). rewrite PX. set (g0 := (5 * 2 - 1) / 4 - 2). set (g1 := (2 + 1) / 2 - 2).
      assert (G0 : g0 = 1 / 4) by (unfold g0; field). assert (G1 : g1 = - (1 / 2)) by (unfold g1; field). unfold regions. rewrite where2_false by (rewrite test_4; unfold pred_4; lra). rewrite where2_false by (rewrite test_3; unfold pred_3; lra).
      assert (P : pred_2 g0 g1) by (unfold pred_2; lra). rewrite where2_true by (apply test_2; exact P). destruct (region_2_fin g0 g1 t P) as [-> _]. cbn [xadd]. unfold v2, eta2. replace ((g1 + 2 * g0) / (g1 - g0)) with 0 by (rewrite G0, G1; field). rewrite (Rmax_left t 0) by lra. rewrite G0, G1. field. }
  exists (1 - Rmin (delta / 2) (1 / 2)). assert (M : 0 < Rmin (delta / 2) (1 / 2) <= 1 / 2 /\ Rmin (delta / 2) (1 / 2) <= delta / 2) by (unfold Rmin; destruct (Rle_dec _ _); lra). set (m := Rmin (delta / 2) (1 / 2)) in *. clearbody m.
  split; [lra|]. split; [lra|]. rewrite F1, F0 by lra. nra.
Qed.
Print Assumptions C37_boundaries.
Print Assumptions C37_boundary_between.
Print Assumptions C37_integrated.
Print Assumptions C37_total.
Print Assumptions C37_outside.
Print Assumptions C37_average.
Print Assumptions C37_continuous.
Print Assumptions C37_shape.
Print Assumptions C37_positive.
Print Assumptions C37_flat_end.
Print Assumptions C37_yields.
Print Assumptions C37_reprices.
Print Assumptions C37_yield_zero.
Print Assumptions C37_inputs.
Print Assumptions C37_nan_refuted.
Print Assumptions C37_jump_refuted.
