(** C38: curve bootstrapping reprices its instruments. *)
From Coq Require Import Reals Bool Arith Lia Lra Psatz ZArith.
From Coquelicot Require Import Coquelicot.
From Coq Require Import List.
From Verif Require Import TensorModel TensorProofs InterpModel PropsLinear BrentModel ExtReal RatesModel PropsForwards HaganWestModel HaganWestSpec HaganWestProofs HaganWestProofs2 PropsHaganWest BootstrapModel BootstrapSpec BootstrapProofs.
Import ListNotations.
Open Scope R_scope.

Section Swaps.
Variables (interp : interpolator) (mode : discounting) (init : list swap) (final : swap).
(** The swaps; the last one has more than one period in both legs. *)
Let swaps := init ++ [final].
Definition swaps_ok : Prop :=
  Forall well_formed (init ++ [final]) /\ (2 <= length (float_end final))%nat /\ (2 <= length (fixed_end final))%nat.
Notation T := (map expiry swaps).

(** Rows of the segment sums. *)
Let float_row (rate : R -> xr) (F : R -> xr) (s : swap) : list xr :=
  map (fun '(a, b) => (xexp (Fin b *x rate b) /x xexp (Fin a *x rate a) -x Fin 1) *x F b) (combine (removelast (float_start s)) (removelast (float_end s))).
Let fixed_row (D : R -> xr) (s : swap) : list xr :=
  map (fun '(t, (a, c)) => Fin (a * c) *x D t) (combine (removelast (fixed_end s)) (combine (removelast (fixed_daycount s)) (removelast (fixed_cashflows s)))).

Lemma float_sum rate F : swaps_ok ->
  xsegment_sum (xzip xmul (map (fun '(s, e) => xexp (Fin e *x rate e) /x xexp (Fin s *x rate s) -x Fin 1) (combine (flat_map (fun s => removelast (float_start s)) swaps) (flat_map (fun s => removelast (float_end s)) swaps)))
                          (map F (flat_map (fun s => removelast (float_end s)) swaps))) (group_ids (fun s => length (removelast (float_start s))) swaps) = map (fun s => xsum (float_row rate F s)) swaps.
Proof.
  intros (W & F2 & X2). fold swaps in W. assert (LS : Forall (fun s => length (removelast (float_start s)) = length (removelast (float_end s))) swaps).
  { apply (Forall_impl _ (P := well_formed)); [|exact W]. intros s (A & _). rewrite !removelast_len. lia. }
  rewrite combine_flat_map by exact LS. rewrite !map_flat_map. rewrite xzip_flat_map.
  2:{ apply (Forall_impl _ (P := fun s => length (removelast (float_start s)) = length (removelast (float_end s)))); [|exact LS]. intros s A. rewrite !map_length, combine_length. lia. }
  rewrite (flat_map_ext' _ (float_row rate F)).
  - apply segment_rows.
    + fold swaps. apply (Forall_impl _ (P := fun s => length (removelast (float_start s)) = length (removelast (float_end s)))); [|exact LS]. intros s A. unfold float_row. rewrite map_length, combine_length. lia.
    + apply Forall_app in W as [_ W]. inversion W as [|x y (A & _) _]. subst. rewrite removelast_len. lia.
  - apply (Forall_impl _ (P := fun s => length (removelast (float_start s)) = length (removelast (float_end s)))); [|exact LS]. intros s A. unfold float_row. generalize dependent (removelast (float_end s)). generalize (removelast (float_start s)). intros u. induction u as [|a u IH]; intros [|b v] L; cbn in L; try discriminate L; [reflexivity|].
    unfold xzip in *. cbn [combine map]. rewrite IH by congruence. reflexivity.
Qed.
Lemma fixed_sum D : swaps_ok ->
  xsegment_sum (xzip xmul (xzip xmul (map Fin (flat_map (fun s => removelast (fixed_daycount s)) swaps)) (map Fin (flat_map (fun s => removelast (fixed_cashflows s)) swaps))) (map D (flat_map (fun s => removelast (fixed_end s)) swaps)))
    (group_ids (fun s => length (removelast (fixed_end s))) swaps) = map (fun s => xsum (fixed_row D s)) swaps.
Proof.
  intros (W & F2 & X2). fold swaps in W. assert (LS : Forall (fun s => length (removelast (fixed_daycount s)) = length (removelast (fixed_end s)) /\ length (removelast (fixed_cashflows s)) = length (removelast (fixed_end s))) swaps).
  { apply (Forall_impl _ (P := well_formed)); [|exact W]. intros s (_ & _ & A & B & _). rewrite !removelast_len. lia. }
  rewrite !map_flat_map. rewrite xzip_flat_map. 2:{ eapply Forall_impl; [|exact LS]. intros s [A B]. rewrite !map_length. lia. }
  rewrite xzip_flat_map. 2:{ eapply Forall_impl; [|exact LS]. intros s [A B]. unfold xzip. rewrite !map_length, combine_length, !map_length. lia. }
  rewrite (flat_map_ext' _ (fixed_row D)).
  - apply segment_rows.
    + fold swaps. eapply Forall_impl; [|exact LS]. intros s [A B]. unfold fixed_row. rewrite map_length, !combine_length. lia.
    + rewrite removelast_len. lia.
  - eapply Forall_impl; [|exact LS]. intros s [A B]. unfold fixed_row. revert A B. generalize (removelast (fixed_daycount s)) (removelast (fixed_cashflows s)) (removelast (fixed_end s)). intros u. induction u as [|a u IH]; intros [|b v] [|c w] A B; cbn in A, B; try discriminate A; try discriminate B; [reflexivity|].
    unfold xzip in *. cbn [combine map]. rewrite IH by congruence. reflexivity.
Qed.

(** One iteration, swap by swap. *)
Definition next_of (d : list xr) (s : swap) : xr :=
  let x := discount_rates d T in
  let rate := fun t => interp t T x in
  let own := curve_discount interp T x in
  let F := match mode with Separate t r _ _ => curve_discount interp t r | _ => own end in
  let D := match mode with SelfBoth => own | SelfFloat t r | Separate _ _ t r => curve_discount interp t r end in
  let fp := xsum (float_row rate F s) in
  let xp := xsum (fixed_row D s) in
  let c := Fin (last (fixed_cashflows s) 0) in
  let a := Fin (last (fixed_daycount s) 0) in
  let pv := Fin (present_value s) in
  let p := own (last (float_start s) 0) in
  let q := a *x c *x D (last (fixed_end s) 0) in
  match mode with
  | SelfBoth => (pv -x fp -x xp -x p) /x (c *x a -x Fin 1)
  | SelfFloat _ _ => fp +x (xp +x q) -x pv +x p
  | Separate _ _ _ _ => let l := F (last (float_end s) 0) in p *x l /x (pv -x fp -x (xp +x q) +x l)
  end.
Lemma step_eq d : swaps_ok -> swap_step interp mode swaps d = Some (map (next_of d) swaps).
Proof.
  intros OK. unfold swap_step, next_of. cbv zeta. rewrite (float_sum _ _ OK), (fixed_sum _ OK). destruct mode; rewrite ?map_map, ?xzip_map, ?bzip_map; cbn [obind]; repeat (rewrite ?bzip_map; cbn [obind]); reflexivity.
Qed.

(** When convergence is reported, the last two iterates are finite, lie within
    the tolerance of each other, and the second is the result. *)
Lemma converged_pair rates tol maxit failed it disc zr : swaps_ok -> length rates = length swaps ->
  swap_curve_bootstrap interp mode swaps rates tol maxit = Some ((true, failed, it, disc), zr) ->
  exists prev next, disc = map Fin next /\ length prev = length swaps /\ length next = length swaps /\
    (forall k, (k < length swaps)%nat -> Rabs (nth k next 0 - nth k prev 0) < tol) /\ map Fin next = map (next_of (map Fin prev)) swaps.
Proof.
  intros OK L H. unfold swap_curve_bootstrap in H. destruct (boot_loop _ _ _) as [st|] eqn:B; [|discriminate H]. cbn [obind] in H. injection H as -> _.
  destruct (loop_last (swap_body interp mode swaps tol) (fun st => length (snd st) = length swaps)) with (4 := B) as (st' & LP & BD); [| |reflexivity|reflexivity|].
  - intros [[[c f] i] d] st' LD Q. unfold swap_body in Q. rewrite (step_eq d OK) in Q. cbn [obind] in Q. destruct (bzip _ _ _) as [df|]; [|discriminate Q]. cbn [obind] in Q. injection Q as <-. cbn. apply map_length.
  - cbn [snd]. rewrite map_length, combine_length, map_length. lia.
  - destruct st' as [[[c f] i] d]. cbn [snd] in LP. unfold swap_body in BD. rewrite (step_eq d OK) in BD. cbn [obind] in BD. unfold bzip in BD. rewrite map_length, LP, Nat.eqb_refl in BD. cbn [obind] in BD. injection BD as SM _ _ DQ.
    destruct (small_close tol (map (next_of d) swaps) d ltac:(rewrite map_length; congruence) SM) as (x & y & E1 & E2 & C). rewrite map_length in C. exists y, x.
    split; [congruence|]. split; [rewrite E2, map_length in LP; exact LP|]. split; [apply (f_equal (@length xr)) in E1; rewrite !map_length in E1; congruence|]. split; [exact C|]. rewrite <- E1, E2. reflexivity.
Qed.
End Swaps.

(** Real evaluation of the rows. *)
Section Values.
Variables (rate F D : R -> R).
Notation P := (discount rate).
Lemma float_split s : well_formed s -> float_value P F s =
  total (map (fun '(a, b) => (P a / P b - 1) * F b) (combine (removelast (float_start s)) (removelast (float_end s)))) + (P (last (float_start s) 0) / P (last (float_end s) 0) - 1) * F (last (float_end s) 0).
Proof.
  intros (A & B & _). unfold float_value. rewrite (split_last (float_start s)) at 1 by lia. rewrite (split_last (float_end s)) at 1 by lia. rewrite combine_app by (rewrite !removelast_len; lia). rewrite map_app, total_app. cbn [combine map total fold_right]. unfold total. cbn [fold_right]. ring.
Qed.
Lemma fixed_split s : well_formed s -> fixed_value D s =
  total (map (fun '(t, (a, c)) => a * c * D t) (combine (removelast (fixed_end s)) (combine (removelast (fixed_daycount s)) (removelast (fixed_cashflows s))))) + last (fixed_daycount s) 0 * last (fixed_cashflows s) 0 * D (last (fixed_end s) 0).
Proof.
  intros (_ & _ & A & B & C & _). unfold fixed_value. rewrite (split_last (fixed_end s)) at 1 by lia. rewrite (split_last (fixed_daycount s)) at 1 by lia. rewrite (split_last (fixed_cashflows s)) at 1 by lia.
  rewrite !combine_app by (rewrite ?combine_length, !removelast_len; lia). rewrite map_app, total_app. cbn [combine map total fold_right]. unfold total. cbn [fold_right]. ring.
Qed.
Lemma discount_pos t : 0 < P t.
Proof. apply exp_pos. Qed.
Lemma float_row_fin (xrate xF : R -> xr) l m : (forall t, In t l -> xrate t = Fin (rate t)) -> (forall t, In t m -> xrate t = Fin (rate t) /\ xF t = Fin (F t)) ->
  xsum (map (fun '(a, b) => (xexp (Fin b *x xrate b) /x xexp (Fin a *x xrate a) -x Fin 1) *x xF b) (combine l m)) = Fin (total (map (fun '(a, b) => (P a / P b - 1) * F b) (combine l m))).
Proof.
  intros HL HM. rewrite <- xsum_fin, map_map. f_equal. apply map_ext_in. intros [a b] I. pose proof (in_combine_l _ _ _ _ I) as IA. pose proof (in_combine_r _ _ _ _ I) as IB. rewrite (HL a IA). destruct (HM b IB) as [-> ->]. cbn [xmul xexp].
  rewrite fdiv by (pose proof (exp_pos (a * rate a)); lra). rewrite fsub. cbn [xmul]. f_equal. f_equal. unfold discount. replace (- rate a * a) with (- (a * rate a)) by ring. replace (- rate b * b) with (- (b * rate b)) by ring. rewrite !exp_Ropp.
  pose proof (exp_pos (a * rate a)). pose proof (exp_pos (b * rate b)). field. split; lra.
Qed.
Lemma fixed_row_fin (xD : R -> xr) l (m : list (R * R)) : (forall t, In t l -> xD t = Fin (D t)) ->
  xsum (map (fun '(t, (a, c)) => Fin (a * c) *x xD t) (combine l m)) = Fin (total (map (fun '(t, (a, c)) => a * c * D t) (combine l m))).
Proof.
  intros HL. rewrite <- xsum_fin, map_map. f_equal. apply map_ext_in. intros [t [a c]] I. rewrite (HL t (in_combine_l _ _ _ _ I)). reflexivity.
Qed.
End Values.

Lemma expiry_last s : well_formed s -> expiry s = last (float_end s) 0 /\ expiry s = last (fixed_end s) 0 /\ 0 < expiry s.
Proof. intros (_ & _ & _ & _ & _ & E & P). unfold expiry. rewrite E, Rmax_left by lra. repeat split; lra || reflexivity. Qed.

Section Repricing.
Variables (interp : interpolator) (init : list swap) (final : swap).
Let swaps := init ++ [final].
Notation T := (map expiry swaps).
Notation n := (length swaps).
(** [rate] is the interpolated rate function of the curve with discount factors
    [d] at the expiries: it agrees with the interpolator at every time the
    swaps use, and goes through the nodes. *)
Definition curve_of (d : list R) (rate : R -> R) : Prop :=
  Forall (fun x => 0 < x) d /\
  (forall t, In t (flat_map swap_times (init ++ [final])) -> interp t (map expiry (init ++ [final])) (map Fin (zero_rates d (map expiry (init ++ [final])))) = Fin (rate t)) /\
  (forall k, (k < length (init ++ [final]))%nat -> rate (nth k (map expiry (init ++ [final])) 0) = nth k (zero_rates d (map expiry (init ++ [final]))) 0).

Lemma curve_facts d rate k s : swaps_ok init final -> length d = n -> curve_of d rate -> nth_error swaps k = Some s ->
  well_formed s /\ (forall t, In t (swap_times s) -> interp t T (discount_rates (map Fin d) T) = Fin (rate t)) /\ discount rate (expiry s) = nth k d 0 /\ 0 < nth k d 0.
Proof.
  intros (W & _) L (PD & AT & ND) K. fold swaps in W, AT, ND. assert (IN : In s swaps) by (apply nth_error_In in K; exact K). pose proof (proj1 (Forall_forall _ _) W s IN) as WS. assert (KN : (k < n)%nat) by (apply nth_error_Some; congruence).
  assert (TP : Forall (fun t => t <> 0) T). { apply Forall_forall. intros t I. apply in_map_iff in I as (u & <- & U). destruct (expiry_last u (proj1 (Forall_forall _ _) W u U)) as (_ & _ & Q). lra. }
  split; [exact WS|]. split.
  - intros t I. rewrite rates_fin; [|rewrite map_length; exact L|exact PD|exact TP]. apply AT. apply in_flat_map. exists s. split; assumption.
  - assert (TK : nth k T 0 = expiry s). { rewrite (nth_indep _ 0 (expiry s)) by (rewrite map_length; exact KN). rewrite map_nth. f_equal. apply nth_error_nth. exact K. }
    specialize (ND k KN). rewrite TK in ND. assert (DP : 0 < nth k d 0). { apply (proj1 (Forall_forall _ _) PD). apply nth_In. lia. } split; [|exact DP].
    unfold discount. rewrite ND. rewrite zero_rates_nth by (rewrite ?map_length; lia). rewrite TK.
    destruct (expiry_last s WS) as (_ & _ & Q). replace (- (- ln (nth k d 0) / expiry s) * expiry s) with (ln (nth k d 0)) by (field; lra). apply exp_ln. exact DP.
Qed.
Lemma next_fin mode prev next k s : length next = n -> map Fin next = map (next_of interp mode init final (map Fin prev)) swaps -> nth_error swaps k = Some s -> next_of interp mode init final (map Fin prev) s = Fin (nth k next 0).
Proof.
  intros L E K. assert (KN : (k < n)%nat) by (apply nth_error_Some; congruence). pose proof (f_equal (fun l => nth_error l k) E) as Q. cbv beta in Q. rewrite !nth_error_map, K in Q. rewrite (nth_error_nth' next 0) in Q by lia. cbn in Q. congruence.
Qed.
Lemma own_discount d rate s t : (forall t, In t (swap_times s) -> interp t T (discount_rates (map Fin d) T) = Fin (rate t)) -> In t (swap_times s) -> curve_discount interp T (discount_rates (map Fin d) T) t = Fin (discount rate t).
Proof. intros A I. unfold curve_discount. rewrite (A t I). reflexivity. Qed.
Lemma in_start s t : In t (float_start s) -> In t (swap_times s).
Proof. intros I. unfold swap_times. apply in_or_app. left. exact I. Qed.
Lemma in_end s t : In t (float_end s) -> In t (swap_times s).
Proof. intros I. unfold swap_times. apply in_or_app. right. apply in_or_app. left. exact I. Qed.
Lemma in_fixed s t : In t (fixed_end s) -> In t (swap_times s).
Proof. intros I. unfold swap_times. apply in_or_app. right. apply in_or_app. right. exact I. Qed.

(** Swaps discounted on the curve itself.  The curve through the last but one
    iterate, which is within the tolerance of the result, misprices every swap
    by exactly its last step times (coupon - 1); so by nothing when the
    iteration has come to rest. *)
Theorem C38_swap_self rates tol maxit failed it disc zr : swaps_ok init final -> length rates = n ->
  swap_curve_bootstrap interp SelfBoth swaps rates tol maxit = Some ((true, failed, it, disc), zr) ->
  exists prev next, disc = map Fin next /\ length prev = n /\ length next = n /\
    (forall k, (k < n)%nat -> Rabs (nth k next 0 - nth k prev 0) < tol) /\
    forall rate k s, curve_of prev rate -> nth_error swaps k = Some s ->
      let P := discount rate in
      swap_value P P P s - present_value s = (last (fixed_cashflows s) 0 * last (fixed_daycount s) 0 - 1) * (nth k prev 0 - nth k next 0).
Proof.
  intros OK L H. destruct (converged_pair interp SelfBoth init final rates tol maxit failed it disc zr OK L H) as (prev & next & E & LP & LN & C & NX). fold swaps in LP, LN, C, NX. exists prev, next. split; [exact E|]. split; [exact LP|]. split; [exact LN|]. split; [exact C|].
  intros rate k s CV K. cbv zeta. destruct (curve_facts prev rate k s OK LP CV K) as (W & AT & DN & DP). pose proof (next_fin SelfBoth prev next k s LN NX K) as NF. pose proof W as (W1 & W2 & W3 & W4 & W5 & W6 & W7). destruct (expiry_last s W) as (X1 & X2 & X3).
  unfold next_of in NF. cbv zeta in NF. fold swaps in NF.
  rewrite (float_row_fin rate (discount rate)) in NF. 2:{ intros t I. apply AT. apply in_start. apply in_removelast. exact I. } 2:{ intros t I. apply in_removelast in I. split; [apply AT; apply in_end; exact I|apply (own_discount prev rate s t AT); apply in_end; exact I]. }
  rewrite (fixed_row_fin (discount rate)) in NF. 2:{ intros t I. apply in_removelast in I. apply (own_discount prev rate s t AT). apply in_fixed. exact I. }
  rewrite (own_discount prev rate s _ AT) in NF by (apply in_start, in_last; lia). cbn [xmul] in NF. rewrite !fsub in NF. apply xdiv_inv in NF as [SC NF].
  unfold swap_value. rewrite (float_split rate (discount rate) s W), (fixed_split (discount rate) s W). rewrite <- X1, <- X2, DN.
  match goal with |- context [total ?a + _ + (total ?b + _)] => set (fv := total a) in *; set (xv := total b) in * end. rewrite NF. field. split; [exact SC|lra].
Qed.
(** Fixed leg on another curve [fixed], floating leg on the curve itself: the
    error is the last step. *)
Theorem C38_swap_float ft fr rates tol maxit failed it disc zr : swaps_ok init final -> length rates = n ->
  swap_curve_bootstrap interp (SelfFloat ft fr) swaps rates tol maxit = Some ((true, failed, it, disc), zr) ->
  exists prev next, disc = map Fin next /\ length prev = n /\ length next = n /\
    (forall k, (k < n)%nat -> Rabs (nth k next 0 - nth k prev 0) < tol) /\
    forall rate fixed k s, curve_of prev rate -> nth_error swaps k = Some s -> (forall t, In t (fixed_end s) -> interp t ft fr = Fin (fixed t)) ->
      swap_value (discount rate) (discount rate) (discount fixed) s - present_value s = nth k next 0 - nth k prev 0.
Proof.
  intros OK L H. destruct (converged_pair interp (SelfFloat ft fr) init final rates tol maxit failed it disc zr OK L H) as (prev & next & E & LP & LN & C & NX). fold swaps in LP, LN, C, NX. exists prev, next. split; [exact E|]. split; [exact LP|]. split; [exact LN|]. split; [exact C|].
  intros rate fixed k s CV K FX. destruct (curve_facts prev rate k s OK LP CV K) as (W & AT & DN & DP). pose proof (next_fin (SelfFloat ft fr) prev next k s LN NX K) as NF. pose proof W as (W1 & W2 & W3 & W4 & W5 & W6 & W7). destruct (expiry_last s W) as (X1 & X2 & X3).
  assert (FD : forall t, In t (fixed_end s) -> curve_discount interp ft fr t = Fin (discount fixed t)) by (intros t I; unfold curve_discount; rewrite (FX t I); reflexivity).
  unfold next_of in NF. cbv zeta in NF. fold swaps in NF.
  rewrite (float_row_fin rate (discount rate)) in NF. 2:{ intros t I. apply AT. apply in_start. apply in_removelast. exact I. } 2:{ intros t I. apply in_removelast in I. split; [apply AT; apply in_end; exact I|apply (own_discount prev rate s t AT); apply in_end; exact I]. }
  rewrite (fixed_row_fin (discount fixed)) in NF by (intros t I; apply in_removelast in I; apply FD; exact I).
  rewrite (own_discount prev rate s _ AT) in NF by (apply in_start, in_last; lia). rewrite FD in NF by (apply in_last; lia). cbn [xmul] in NF. rewrite !fadd, fsub, fadd in NF.
  unfold swap_value. rewrite (float_split rate (discount rate) s W), (fixed_split (discount fixed) s W). rewrite <- X1, DN. injection NF as NF. rewrite <- NF. field. lra.
Qed.
(** Both legs on other curves: the error is the last step of the final floating
    payment. *)
Theorem C38_swap_separate gt gr ft fr rates tol maxit failed it disc zr : swaps_ok init final -> length rates = n ->
  swap_curve_bootstrap interp (Separate gt gr ft fr) swaps rates tol maxit = Some ((true, failed, it, disc), zr) ->
  exists prev next, disc = map Fin next /\ length prev = n /\ length next = n /\
    (forall k, (k < n)%nat -> Rabs (nth k next 0 - nth k prev 0) < tol) /\
    forall rate float fixed k s, curve_of prev rate -> nth_error swaps k = Some s ->
      (forall t, In t (float_end s) -> interp t gt gr = Fin (float t)) -> (forall t, In t (fixed_end s) -> interp t ft fr = Fin (fixed t)) ->
      nth k next 0 <> 0 /\
      swap_value (discount rate) (discount float) (discount fixed) s - present_value s =
      discount rate (last (float_start s) 0) * discount float (last (float_end s) 0) * (/ nth k prev 0 - / nth k next 0).
Proof.
  intros OK L H. destruct (converged_pair interp (Separate gt gr ft fr) init final rates tol maxit failed it disc zr OK L H) as (prev & next & E & LP & LN & C & NX). fold swaps in LP, LN, C, NX. exists prev, next. split; [exact E|]. split; [exact LP|]. split; [exact LN|]. split; [exact C|].
  intros rate float fixed k s CV K GX FX. destruct (curve_facts prev rate k s OK LP CV K) as (W & AT & DN & DP). pose proof (next_fin (Separate gt gr ft fr) prev next k s LN NX K) as NF. pose proof W as (W1 & W2 & W3 & W4 & W5 & W6 & W7). destruct (expiry_last s W) as (X1 & X2 & X3).
  assert (FD : forall t, In t (fixed_end s) -> curve_discount interp ft fr t = Fin (discount fixed t)) by (intros t I; unfold curve_discount; rewrite (FX t I); reflexivity).
  assert (GD : forall t, In t (float_end s) -> curve_discount interp gt gr t = Fin (discount float t)) by (intros t I; unfold curve_discount; rewrite (GX t I); reflexivity).
  unfold next_of in NF. cbv zeta in NF. fold swaps in NF.
  rewrite (float_row_fin rate (discount float)) in NF. 2:{ intros t I. apply AT. apply in_start. apply in_removelast. exact I. } 2:{ intros t I. apply in_removelast in I. split; [apply AT; apply in_end; exact I|apply GD; exact I]. }
  rewrite (fixed_row_fin (discount fixed)) in NF by (intros t I; apply in_removelast in I; apply FD; exact I).
  rewrite (own_discount prev rate s _ AT) in NF by (apply in_start, in_last; lia). rewrite FD in NF by (apply in_last; lia). rewrite GD in NF by (apply in_last; lia). cbn [xmul] in NF. rewrite !fsub, !fadd in NF. rewrite fsub, fadd in NF. apply xdiv_inv in NF as [SC NF].
  unfold swap_value. rewrite (float_split rate (discount float) s W), (fixed_split (discount fixed) s W). rewrite <- X1 in *. rewrite DN in *.
  pose proof (discount_pos rate (last (float_start s) 0)) as P1. pose proof (discount_pos float (expiry s)) as P2. set (p := discount rate (last (float_start s) 0)) in *. set (l := discount float (expiry s)) in *.
  match goal with |- context [total ?a + _ + (total ?b + _)] => set (fv := total a) in *; set (xv := total b) in * end.
  assert (NZ : nth k next 0 <> 0). { rewrite NF. unfold Rdiv. apply Rmult_integral_contrapositive_currified; [apply Rmult_integral_contrapositive_currified; lra|apply Rinv_neq_0_compat; exact SC]. } split; [exact NZ|].
  rewrite NF. field. repeat split; try lra; exact SC.
Qed.
End Repricing.
(** The default interpolation is linear: its curve is one of those above. *)
Theorem C38_linear interp init final d :
  (forall t ts ys, interp t ts (map Fin ys) = Fin (linear_interpolate false ts ys None None t)) ->
  let T := map expiry (init ++ [final]) in
  (forall k, (S k < length T)%nat -> nth k T 0 < nth (S k) T 0) -> length d = length T -> Forall (fun x => 0 < x) d ->
  curve_of interp init final d (linear_interpolate false T (zero_rates d T) None None).
Proof.
  intros EX T INC L PD. split; [exact PD|]. fold T. split; [intros t _; apply EX|]. intros k K.
  apply (C22_knots false T (zero_rates d T) None None k); [unfold zero_rates; rewrite map_length, combine_length; lia|exact INC|unfold T; rewrite map_length; exact K].
Qed.

(** ** Bonds *)
Section Bonds.
Variables (interp : interpolator) (bonds : list bond).
Notation T := (map (fun b => last (cashflow_times b) 0) bonds).
Notation n := (length bonds).
Definition bond_next (d : list xr) (b : bond) : xr :=
  xopp (xsum (map (fun '(c, t) => Fin c *x curve_discount interp T (discount_rates d T) t) (combine (- bond_pv b :: removelast (cashflows b)) (settle_time b :: removelast (cashflow_times b))))) /x Fin (last (cashflows b) 0).
Definition bond_curve_of (d : list R) (rate : R -> R) : Prop :=
  Forall (fun x => 0 < x) d /\
  (forall t, In t (flat_map bond_times bonds) -> interp t T (map Fin (zero_rates d T)) = Fin (rate t)) /\
  (forall k, (k < n)%nat -> rate (nth k T 0) = nth k (zero_rates d T) 0).
Lemma bond_body_eq tol c f i d : Forall bond_formed bonds -> bonds <> [] -> bond_body interp bonds tol (c, f, i, d) =
  let? diff := bzip (fun a b => xabs (a -x b)) (map (bond_next d) bonds) d in
  Some (small tol diff, existsb is_nan (discount_rates d T) || existsb is_nan d, S i, map (bond_next d) bonds).
Proof.
  intros W NE. unfold bond_body. destruct (exists_last NE) as (l & a & LA). assert (LS : Forall (fun b => length (- bond_pv b :: removelast (cashflows b)) = length (settle_time b :: removelast (cashflow_times b)) /\ length (- bond_pv b :: removelast (cashflows b)) = length (cashflows b)) bonds).
  { eapply Forall_impl; [|exact W]. intros b (A & B & _). cbn [length]. rewrite !removelast_len. lia. }
  rewrite !map_flat_map. rewrite xzip_flat_map. 2:{ eapply Forall_impl; [|exact LS]. intros b [A _]. rewrite !map_length. exact A. }
  set (row := fun b => xzip xmul (map Fin (- bond_pv b :: removelast (cashflows b))) (map (curve_discount interp T (discount_rates d T)) (settle_time b :: removelast (cashflow_times b)))).
  assert (SG : xsegment_sum (flat_map row bonds) (group_ids (fun b => length (cashflows b)) bonds) = map (fun b => xsum (row b)) bonds).
  { rewrite LA. apply segment_rows.
    - rewrite <- LA. eapply Forall_impl; [|exact LS]. intros b [A B]. unfold row, xzip. rewrite map_length, combine_length, !map_length. lia.
    - rewrite LA in W. apply Forall_app in W as [_ W]. inversion W as [|x y (_ & B & _) _]. subst. lia. }
  rewrite SG. rewrite map_map, bzip_map. cbn [obind].
  replace (map (fun a0 => xopp (xsum (row a0)) /x Fin (last (cashflows a0) 0)) bonds) with (map (bond_next d) bonds); [reflexivity|].
  apply map_ext_in. intros b I. unfold bond_next, row. do 3 f_equal. destruct (proj1 (Forall_forall _ _) LS b I) as [A _]. revert A. generalize (- bond_pv b :: removelast (cashflows b)) (settle_time b :: removelast (cashflow_times b)). intros u. induction u as [|x u IH]; intros [|y v] A; cbn in A; try discriminate A; [reflexivity|].
  unfold xzip in *. cbn [combine map]. rewrite <- IH by congruence. reflexivity.
Qed.
Lemma bond_pair rates tol maxit failed it disc zr : Forall bond_formed bonds -> bonds <> [] -> length rates = n ->
  bond_curve interp bonds rates tol maxit = Some ((true, failed, it, disc), zr) ->
  exists prev next, disc = map Fin next /\ length prev = n /\ length next = n /\ failed = existsb is_nan (discount_rates (map Fin prev) T) /\
    (forall k, (k < n)%nat -> Rabs (nth k next 0 - nth k prev 0) < tol) /\ map Fin next = map (bond_next (map Fin prev)) bonds.
Proof.
  intros W NE L H. unfold bond_curve in H. destruct (boot_loop _ _ _) as [st|] eqn:B; [|discriminate H]. cbn [obind] in H. injection H as -> _.
  destruct (loop_last (bond_body interp bonds tol) (fun st => length (snd st) = n)) with (4 := B) as (st' & LP & BD); [| |reflexivity|reflexivity|].
  - intros [[[c f] i] d] st' LD Q. rewrite (bond_body_eq tol c f i d W NE) in Q. destruct (bzip _ _ _) as [df|]; [|discriminate Q]. cbn [obind] in Q. injection Q as <-. cbn. apply map_length.
  - cbn [snd]. rewrite map_length, combine_length, map_length. lia.
  - destruct st' as [[[c f] i] d]. cbn [snd] in LP. rewrite (bond_body_eq tol c f i d W NE) in BD. unfold bzip in BD. rewrite map_length, LP, Nat.eqb_refl in BD. cbn [obind] in BD. injection BD as SM FQ _ DQ.
    destruct (small_close tol (map (bond_next d) bonds) d ltac:(rewrite map_length; congruence) SM) as (x & y & E1 & E2 & C). rewrite map_length in C. exists y, x.
    split; [congruence|]. split; [rewrite E2, map_length in LP; exact LP|]. split; [apply (f_equal (@length xr)) in E1; rewrite !map_length in E1; congruence|]. split; [|split; [exact C|rewrite <- E1, E2; reflexivity]].
    rewrite <- FQ, E2. replace (existsb is_nan (map Fin y)) with false by (clear; induction y; cbn; congruence). apply orb_false_r.
Qed.
(** The curve through the last but one iterate misprices every bond by exactly
    its last step times the final cashflow. *)
Theorem C38_bond rates tol maxit failed it disc zr : Forall bond_formed bonds -> bonds <> [] -> length rates = n ->
  bond_curve interp bonds rates tol maxit = Some ((true, failed, it, disc), zr) ->
  exists prev next, disc = map Fin next /\ length prev = n /\ length next = n /\
    (forall k, (k < n)%nat -> Rabs (nth k next 0 - nth k prev 0) < tol) /\
    (failed = false -> Forall (fun d => 0 <= d) prev) /\
    forall rate k b, bond_curve_of prev rate -> nth_error bonds k = Some b ->
      let P := discount rate in
      bond_value P b - bond_pv b * P (settle_time b) = last (cashflows b) 0 * (nth k prev 0 - nth k next 0).
Proof.
  intros W NE L H. destruct (bond_pair rates tol maxit failed it disc zr W NE L H) as (prev & next & E & LP & LN & FQ & C & NX). exists prev, next. split; [exact E|]. split; [exact LP|]. split; [exact LN|]. split; [exact C|]. split.
  - intros F0. rewrite F0 in FQ. symmetry in FQ. apply Forall_forall. intros x I. destruct (Rle_lt_dec 0 x) as [Q|Q]; [exact Q|exfalso]. assert (N : existsb is_nan (discount_rates (map Fin prev) T) = true); [|congruence].
    apply existsb_exists. exists NaN. split; [|reflexivity]. apply (In_nth prev x 0) in I as (k & K & KX). unfold discount_rates, xzip. apply in_map_iff. exists (Fin x, Fin (nth k T 0)). split; [cbn; unfold rlt, req; destruct (Rlt_dec 0 x); [lra|]; destruct (Req_EM_T x 0); [lra|reflexivity]|].
    apply (nth_error_In _ k). rewrite <- KX. assert (G : forall (a : list R) (b : list R) j, (j < length a)%nat -> (j < length b)%nat -> nth_error (combine (map Fin a) (map Fin b)) j = Some (Fin (nth j a 0), Fin (nth j b 0))).
    { induction a as [|u a IH]; intros [|v b] [|j] A B; cbn in A, B; try lia; [reflexivity|]. cbn. apply IH; lia. }
    apply G; [exact K|rewrite map_length; lia].
  - intros rate k b (PD & AT & ND) K. cbv zeta. assert (IN : In b bonds) by (apply nth_error_In in K; exact K). pose proof (proj1 (Forall_forall _ _) W b IN) as (W1 & W2 & W3). assert (KN : (k < n)%nat) by (apply nth_error_Some; congruence).
    assert (TP : Forall (fun t => t <> 0) T). { apply Forall_forall. intros t I. apply in_map_iff in I as (u & <- & U). destruct (proj1 (Forall_forall _ _) W u U) as (_ & _ & Q). lra. }
    assert (AB : forall t, In t (bond_times b) -> curve_discount interp T (discount_rates (map Fin prev) T) t = Fin (discount rate t)).
    { intros t I. unfold curve_discount. rewrite rates_fin; [|rewrite map_length; exact LP|exact PD|exact TP]. rewrite AT by (apply in_flat_map; exists b; split; assumption). reflexivity. }
    assert (TK : nth k T 0 = last (cashflow_times b) 0). { rewrite (nth_indep _ 0 ((fun b => last (cashflow_times b) 0) b)) by (rewrite map_length; exact KN). rewrite (map_nth (fun b => last (cashflow_times b) 0)). f_equal. f_equal. apply nth_error_nth. exact K. }
    assert (DP : 0 < nth k prev 0) by (apply (proj1 (Forall_forall _ _) PD); apply nth_In; lia).
    assert (DN : discount rate (last (cashflow_times b) 0) = nth k prev 0).
    { specialize (ND k KN). rewrite TK in ND. unfold discount. rewrite ND. rewrite zero_rates_nth by (rewrite ?map_length; lia). rewrite TK. replace (- (- ln (nth k prev 0) / last (cashflow_times b) 0) * last (cashflow_times b) 0) with (ln (nth k prev 0)) by (field; lra). apply exp_ln. exact DP. }
    assert (NF : bond_next (map Fin prev) b = Fin (nth k next 0)).
    { pose proof (f_equal (fun l => nth_error l k) NX) as Q. cbv beta in Q. rewrite !nth_error_map, K in Q. rewrite (nth_error_nth' next 0) in Q by lia. cbn [option_map] in Q. congruence. }
    unfold bond_next in NF. cbn [combine map] in NF. unfold xsum in NF. cbn [fold_right] in NF. rewrite AB in NF by (left; reflexivity).
    set (pv0 := total (map (fun '(t, c) => c * discount rate t) (combine (removelast (cashflow_times b)) (removelast (cashflows b))))).
    assert (SM : fold_right xadd (Fin 0) (map (fun '(c, t) => Fin c *x curve_discount interp T (discount_rates (map Fin prev) T) t) (combine (removelast (cashflows b)) (removelast (cashflow_times b)))) = Fin pv0).
    { assert (AR : forall t, In t (removelast (cashflow_times b)) -> curve_discount interp T (discount_rates (map Fin prev) T) t = Fin (discount rate t)) by (intros t I; apply AB; right; apply in_removelast; exact I).
      unfold pv0. revert AR. generalize (removelast (cashflow_times b)) (removelast (cashflows b)). intros u. induction u as [|x u IH]; intros [|y v] AR; try reflexivity. cbn [combine map fold_right]. rewrite IH by (intros t I; apply AR; right; exact I). rewrite AR by (left; reflexivity). reflexivity. }
    rewrite SM in NF. cbn [xmul xadd xopp] in NF. apply xdiv_inv in NF as [SC NF].
    unfold bond_value. rewrite (split_last (cashflow_times b)) at 1 by lia. rewrite (split_last (cashflows b)) at 1 by lia. rewrite combine_app by (rewrite !removelast_len; lia). rewrite map_app, total_app. fold pv0. cbn [combine map]. change (total [last (cashflows b) 0 * discount rate (last (cashflow_times b) 0)]) with (last (cashflows b) 0 * discount rate (last (cashflow_times b) 0) + 0). rewrite DN, NF. field. exact SC.
Qed.
End Bonds.
(** The bond curve is interpolated by the monotone convex method: the curve
    built from positive discount factors is one of those above, as long as no
    interval is degenerate. *)
Theorem C38_hagan_west next interp bonds d :
  let T := map (fun b => last (cashflow_times b) 0) bonds in
  let fds := forward_rates_from_yields (zero_rates d T) T None in
  (forall t ys y, interpolate_yields next t T (Some ys) None false = Some y -> interp t T (map Fin ys) = y) ->
  length d = length bonds -> Forall (fun x => 0 < x) d -> valid T fds -> (forall i, (i < length T)%nat -> regular T fds i) ->
  (forall t, In t (flat_map bond_times bonds) -> 0 <= t <= edge T (length T)) ->
  exists rate, bond_curve_of interp bonds d rate /\ forall t, 0 < t <= edge T (length T) -> is_RInt (forward next T fds) 0 t (rate t * t).
Proof.
  intros T fds EX L PD V G TR. assert (LZ : length (zero_rates d T) = length T) by (unfold zero_rates, T; rewrite map_length, combine_length, map_length; lia).
  set (rate := fun t => match interp t T (map Fin (zero_rates d T)) with Fin r => r | _ => 0 end).
  assert (AT : forall t, 0 <= t <= edge T (length T) -> interp t T (map Fin (zero_rates d T)) = Fin (rate t)).
  { intros t IT. destruct (Req_dec t 0) as [->|N0].
    - pose proof (C37_yield_zero next T (zero_rates d T) false V LZ G) as Q. unfold rate. rewrite (EX 0 _ _ Q). reflexivity.
    - destruct (C37_yields next T (zero_rates d T) t false V LZ G ltac:(lra)) as (y & Q & _). unfold rate. rewrite (EX t _ _ Q). reflexivity. }
  exists rate. split.
  - split; [exact PD|]. fold T. split; [intros t I; apply AT, TR; exact I|]. intros k K. pose proof (C37_reprices next T (zero_rates d T) k false V LZ G ltac:(unfold T; rewrite map_length; exact K)) as Q. unfold rate. rewrite (EX _ _ _ Q). reflexivity.
  - intros t IT. destruct (C37_yields next T (zero_rates d T) t false V LZ G IT) as (y & Q & R). unfold rate. rewrite (EX t _ _ Q). exact R.
Qed.

(** ** Concrete curves *)
(** A step interpolation, flat outside the nodes. *)
Fixpoint step_interp (t : R) (ts : list R) (ys : list xr) : xr :=
  match ts, ys with
  | a :: ts', y :: ys' => match ts' with [] => y | _ => if Rle_dec t a then y else step_interp t ts' ys' end
  | _, _ => NaN
  end.
Lemma step_nodes ts : forall ys k, (forall j, (S j < length ts)%nat -> nth j ts 0 < nth (S j) ts 0) -> length ys = length ts -> (k < length ts)%nat -> step_interp (nth k ts 0) ts ys = nth k ys NaN.
Proof.
  induction ts as [|a ts IH]; intros [|y ys] k INC L K; cbn [length] in L, K; try lia. cbn [step_interp]. destruct ts as [|b ts]; [destruct k; [reflexivity|cbn in K; lia]|]. destruct k as [|k].
  - cbn [nth]. destruct (Rle_dec a a); [reflexivity|lra].
  - change (nth (S k) (a :: b :: ts) 0) with (nth k (b :: ts) 0). change (nth (S k) (y :: ys) NaN) with (nth k ys NaN). assert (LT : a < nth k (b :: ts) 0). { clear - INC K. assert (G : forall m, (m < length (b :: ts))%nat -> a < nth m (b :: ts) 0); [|apply G; lia]. intros m. induction m as [|m IH]; intros M; [apply (INC 0%nat); cbn in *; lia|]. specialize (IH ltac:(lia)). specialize (INC (S m) ltac:(cbn in *; lia)). cbn [nth] in INC. cbn [nth] in IH |- *. lra. }
    destruct (Rle_dec (nth k (b :: ts) 0) a) as [Q|Q]; [lra|]. apply IH; [intros j J; apply (INC (S j)); cbn in *; lia|cbn in *; lia|cbn in *; lia].
Qed.
Definition one_year (c pv : R) : swap := mk_swap [0] [1] [1] [c] [1] pv.
Definition two_year (c1 c2 pv : R) : swap := mk_swap [0; 1] [1; 2] [1; 2] [c1; c2] [1; 1] pv.
Example two_swaps_ok a b c d e : swaps_ok [one_year a b] (two_year c d e).
Proof. unfold swaps_ok. cbn. split; [|split; lia]. repeat constructor; cbn; lia || lra. Qed.
Lemma expiries2 a b c d e : map expiry [one_year a b; two_year c d e] = [1; 2].
Proof. cbn. unfold expiry. cbn. rewrite !Rmax_left by lra. reflexivity. Qed.
(** An iteration in which the first discount factor is 1. *)
Lemma step_one y a b c d e : a <> 1 -> swap_step step_interp SelfBoth [one_year a b; two_year c d e] [Fin 1; y] =
  Some [Fin ((b - 1) / (a - 1)); Fin (e - c - 1) /x Fin (d - 1)].
Proof.
  intros A. change [one_year a b; two_year c d e] with ([one_year a b] ++ [two_year c d e]). rewrite (step_eq step_interp SelfBoth [one_year a b] (two_year c d e) _ (two_swaps_ok a b c d e)). cbn [app]. unfold next_of. cbv zeta. cbn [app]. rewrite expiries2. cbn [map one_year two_year float_start float_end fixed_end fixed_cashflows fixed_daycount present_value last removelast combine].
  assert (RT : forall t, 0 <= t <= 1 -> step_interp t [1; 2] (discount_rates [Fin 1; y] [1; 2]) = Fin 0).
  { intros t IT. unfold discount_rates, xzip. cbn [map combine step_interp]. destruct (Rle_dec t 1); [|lra]. cbn [xln]. unfold rlt. destruct (Rlt_dec 0 1); [|lra]. rewrite ln_1. cbn [xopp]. rewrite fdiv by lra. f_equal. field. }
  unfold curve_discount. rewrite !RT by lra. unfold xsum. cbn [map combine fold_right xmul xopp xexp]. replace (1 * 0) with 0 by ring. replace (0 * 0) with 0 by ring. replace (- 0 * 0) with 0 by ring. replace (- 0 * 1) with 0 by ring. rewrite exp_0. rewrite !fdiv by lra. rewrite !fsub. cbn [xmul xadd].
  do 2 f_equal; [|do 2 f_equal].
  - rewrite ?fsub. rewrite fdiv by lra. f_equal. field. lra.
  - rewrite ?fsub. f_equal; f_equal; field.
  - f_equal. field.
Qed.
Lemma small2 tol a b : small tol [Fin a; Fin b] = true <-> a < tol /\ b < tol.
Proof.
  unfold small. cbn. unfold xmax. cbn. unfold rlt. destruct (Rlt_dec a b); cbn; unfold rlt; (destruct (Rlt_dec _ _); split; intros H; try discriminate; try reflexivity; try (split; lra); try lra).
Qed.

Lemma start2 a b c d e : map (fun '(r, t) => Fin (exp (- r * t))) (combine [0; 0] (map expiry [one_year a b; two_year c d e])) = [Fin 1; Fin 1].
Proof. rewrite expiries2. cbn. replace (- 0 * 1) with 0 by ring. replace (- 0 * 2) with 0 by ring. rewrite exp_0. reflexivity. Qed.
(** A convergent run in which the hypotheses of [C38_swap_self] hold with a
    positive curve: swaps of 0 and 10%, flat curve. *)
Example run_flat tol m : 0 < tol -> swap_curve_bootstrap step_interp SelfBoth ([one_year 0 0] ++ [two_year (1 / 10) (1 / 10) (2 / 10)]) [0; 0] tol (S m) = Some ((true, false, 1%nat, map Fin [1; 1]), [Fin 0; Fin 0]).
Proof.
  intros TP. unfold swap_curve_bootstrap. cbn [app]. rewrite start2, expiries2. cbn [boot_loop orb swap_body]. rewrite step_one by lra. cbn [obind]. rewrite fdiv by lra. replace ((0 - 1) / (0 - 1)) with 1 by field. replace ((2 / 10 - 1 / 10 - 1) / (1 / 10 - 1)) with 1 by field.
  unfold bzip, xzip. cbn [length Nat.eqb combine map obind]. rewrite !fsub. cbn [xabs]. replace (1 - 1) with 0 by ring. rewrite Rabs_R0. rewrite (proj2 (small2 tol 0 0)) by lra.
  assert (B : boot_loop (swap_body step_interp SelfBoth [one_year 0 0; two_year (1 / 10) (1 / 10) (2 / 10)] tol) m (true, false, 1%nat, [Fin 1; Fin 1]) = Some (true, false, 1%nat, [Fin 1; Fin 1])) by (destruct m; reflexivity).
  rewrite B. cbn [obind snd]. unfold discount_rates, xzip. cbn [combine map xln]. unfold rlt. destruct (Rlt_dec 0 1); [|lra]. rewrite ln_1. cbn [xopp]. rewrite !fdiv by lra. do 2 f_equal. do 2 f_equal; [field|]. do 2 f_equal. field.
Qed.
Example curve_flat : curve_of step_interp [one_year 0 0] (two_year (1 / 10) (1 / 10) (2 / 10)) [1; 1] (fun _ => 0).
Proof.
  assert (Z : zero_rates [1; 1] [1; 2] = [0; 0]) by (unfold zero_rates; cbn; rewrite ln_1; repeat f_equal; field).
  unfold curve_of. cbn [app]. rewrite expiries2, Z. split; [repeat constructor; lra|]. split.
  - intros t I. cbn [map step_interp]. destruct (Rle_dec t 1); reflexivity.
  - intros [|[|k]] K; [reflexivity|reflexivity|cbn in K; lia].
Qed.
(** Bonds that meet the hypotheses of [C38_bond]. *)
Definition par_bonds : list bond := [mk_bond [1] [1] 1 0; mk_bond [1 / 10; 1] [1; 2] (11 / 10) 0].
Example bonds_flat tol m : 0 < tol -> Forall bond_formed par_bonds /\ bond_curve_of step_interp par_bonds [1; 1] (fun _ => 0) /\
  bond_curve step_interp par_bonds [0; 0] tol (S m) = Some ((true, false, 1%nat, map Fin [1; 1]), [Fin 0; Fin 0]).
Proof.
  intros TP. assert (W : Forall bond_formed par_bonds) by (repeat constructor; cbn; lia || lra). split; [exact W|].
  assert (Z : zero_rates [1; 1] [1; 2] = [0; 0]) by (unfold zero_rates; cbn; rewrite ln_1; repeat f_equal; field).
  assert (DR : discount_rates [Fin 1; Fin 1] [1; 2] = [Fin 0; Fin 0]). { unfold discount_rates, xzip. cbn [combine map xln]. unfold rlt. destruct (Rlt_dec 0 1); [|lra]. rewrite ln_1. cbn [xopp]. rewrite !fdiv by lra. do 2 f_equal; [field|]. do 2 f_equal. field. }
  assert (RT : forall t, step_interp t [1; 2] [Fin 0; Fin 0] = Fin 0) by (intros t; cbn; destruct (Rle_dec t 1); reflexivity).
  assert (EX : map (fun b => last (cashflow_times b) 0) par_bonds = [1; 2]) by reflexivity. split.
  - unfold bond_curve_of. rewrite EX, Z. split; [repeat constructor; lra|]. split; [intros t _; apply RT|]. intros [|[|k]] K; [reflexivity|reflexivity|cbn in K; lia].
  - unfold bond_curve. rewrite EX. replace (map (fun '(r, t) => Fin (exp (- r * t))) (combine [0; 0] [1; 2])) with [Fin 1; Fin 1] by (cbn; replace (- 0 * 1) with 0 by ring; replace (- 0 * 2) with 0 by ring; rewrite exp_0; reflexivity).
    cbn [boot_loop orb]. rewrite bond_body_eq by (exact W || discriminate). rewrite EX, DR.
    assert (NX : map (bond_next step_interp par_bonds [Fin 1; Fin 1]) par_bonds = [Fin 1; Fin 1]).
    { unfold bond_next. rewrite EX, DR. unfold curve_discount, par_bonds, xsum. cbn [map combine removelast last cashflows cashflow_times bond_pv settle_time fold_right]. rewrite !RT. cbn [xopp xmul xexp xadd]. replace (- 0 * 0) with 0 by ring. replace (- 0 * 1) with 0 by ring. rewrite exp_0. rewrite !fdiv by lra. do 2 f_equal; [field|]. do 2 f_equal. field. }
    rewrite NX. unfold bzip, xzip. cbn [length Nat.eqb combine map obind existsb is_nan orb]. rewrite !fsub. cbn [xabs]. replace (1 - 1) with 0 by ring. rewrite Rabs_R0. rewrite (proj2 (small2 tol 0 0)) by lra.
    match goal with |- context [boot_loop ?b m ?s] => assert (B : boot_loop b m s = Some s) by (destruct m; reflexivity); rewrite B end. cbn [obind snd]. rewrite DR. reflexivity.
Qed.
(** ** Refutations *)
(** Convergence can be reported, without failure, for a negative discount
    factor and a rate that is not a number. *)
Theorem C38_negative_refuted : exists interp init final,
  (forall ts ys k, (forall j, (S j < length ts)%nat -> nth j ts 0 < nth (S j) ts 0) -> length ys = length ts -> (k < length ts)%nat -> interp (nth k ts 0) ts ys = nth k ys NaN) /\
  swaps_ok init final /\
  forall tol m, 0 < tol <= 1 -> swap_curve_bootstrap interp SelfBoth (init ++ [final]) [0; 0] tol (S (S m)) = Some ((true, false, 2%nat, [Fin 1; Fin (-1)]), [Fin 0; NaN]).
Proof.
  exists step_interp, [one_year 0 0], (two_year 0 2 0). split; [intros ts ys k; apply step_nodes|]. split; [apply two_swaps_ok|]. intros tol m TP. unfold swap_curve_bootstrap. cbn [app]. rewrite start2, expiries2.
  cbn [boot_loop orb swap_body]. rewrite step_one by lra. cbn [obind]. rewrite fdiv by lra. replace ((0 - 1) / (0 - 1)) with 1 by field. replace ((0 - 0 - 1) / (2 - 1)) with (-1) by field.
  unfold bzip, xzip. cbn [length Nat.eqb combine map obind]. rewrite !fsub. cbn [xabs]. replace (1 - 1) with 0 by ring. rewrite Rabs_R0. replace (Rabs (-1 - 1)) with 2 by (rewrite Rabs_left by lra; ring).
  destruct (small tol [Fin 0; Fin 2]) eqn:SM; [apply small2 in SM; lra|]. cbn [boot_loop orb swap_body]. rewrite step_one by lra. cbn [obind]. rewrite fdiv by lra. replace ((0 - 1) / (0 - 1)) with 1 by field. replace ((0 - 0 - 1) / (2 - 1)) with (-1) by field.
  unfold bzip, xzip. cbn [length Nat.eqb combine map obind]. rewrite !fsub. cbn [xabs]. replace (1 - 1) with 0 by ring. replace (-1 - -1) with 0 by ring. rewrite Rabs_R0. rewrite (proj2 (small2 tol 0 0)) by lra.
  assert (B : boot_loop (swap_body step_interp SelfBoth [one_year 0 0; two_year 0 2 0] tol) m (true, false, 2%nat, [Fin 1; Fin (-1)]) = Some (true, false, 2%nat, [Fin 1; Fin (-1)])) by (destruct m; reflexivity).
  rewrite B. cbn [obind snd]. unfold discount_rates, xzip. cbn [combine map xln]. unfold rlt, req. destruct (Rlt_dec 0 1); [|lra]. destruct (Rlt_dec 0 (-1)); [lra|]. destruct (Req_EM_T (-1) 0); [lra|]. rewrite ln_1. cbn [xopp]. rewrite fdiv by lra. do 2 f_equal. f_equal. f_equal. field.
Qed.
(** The failure flag, documented to report NaN, is never set: here the rate is
    not a number from the first iteration on. *)
Theorem C38_failed_refuted : (forall interp mode swaps rates tol m c f i d z, swap_curve_bootstrap interp mode swaps rates tol m = Some ((c, f, i, d), z) -> f = false) /\
  exists interp init final, swaps_ok init final /\
  forall tol m, swap_curve_bootstrap interp SelfBoth (init ++ [final]) [0; 0] tol (S m) = Some ((false, false, S m, [Fin 1; Inf true]), [Fin 0; NaN]).
Proof.
  split.
  - intros interp mode swaps rates tol m c f i d z H. unfold swap_curve_bootstrap in H. destruct (boot_loop _ _ _) as [st|] eqn:B; [|discriminate H]. cbn [obind] in H. injection H as -> _.
    apply (loop_inv _ (fun st => snd (fst (fst st)) = false)) in B; [exact B| |reflexivity]. intros [[[c' f'] i'] d'] st' F Q. cbn in F. subst f'. unfold swap_body in Q. destruct (swap_step _ _ _ _); [|discriminate Q]. cbn [obind] in Q. destruct (bzip _ _ _); [|discriminate Q]. cbn [obind] in Q. injection Q as <-. reflexivity.
  - exists step_interp, [one_year 0 0], (two_year 0 1 0). split; [apply two_swaps_ok|]. intros tol m. unfold swap_curve_bootstrap. cbn [app]. rewrite start2, expiries2.
    assert (STEP : forall y i, (y = Fin 1 \/ y = Inf true) -> swap_body step_interp SelfBoth [one_year 0 0; two_year 0 1 0] tol (false, false, i, [Fin 1; y]) = Some (false, false, S i, [Fin 1; Inf true])).
    { intros y i Y. unfold swap_body. rewrite step_one by lra. cbn [obind]. replace ((0 - 1) / (0 - 1)) with 1 by field. replace (Fin (0 - 0 - 1) /x Fin (1 - 1)) with (Inf true) by (cbn; unfold req, rlt; destruct (Req_EM_T (1 - 1) 0); [|lra]; destruct (Req_EM_T (0 - 0 - 1) 0); [lra|]; destruct (Rlt_dec (0 - 0 - 1) 0); [reflexivity|lra]).
      unfold bzip, xzip. cbn [length Nat.eqb combine map obind]. rewrite !fsub. cbn [xabs]. do 2 f_equal. do 2 f_equal. destruct Y as [->| ->]; [|reflexivity]. cbn. unfold small. cbn. unfold xmax. cbn. reflexivity. }
    assert (L : forall m i, boot_loop (swap_body step_interp SelfBoth [one_year 0 0; two_year 0 1 0] tol) m (false, false, i, [Fin 1; Inf true]) = Some (false, false, (m + i)%nat, [Fin 1; Inf true])).
    { induction m0 as [|m0 IH]; intros i; [reflexivity|]. cbn [boot_loop orb]. rewrite STEP by (right; reflexivity). cbn [obind]. rewrite IH. replace (m0 + S i)%nat with (S m0 + i)%nat by lia. reflexivity. }
    cbn [boot_loop orb]. rewrite STEP by (left; reflexivity). cbn [obind]. rewrite L. replace (m + 1)%nat with (S m) by lia. cbn [obind snd]. unfold discount_rates, xzip. cbn [combine map xln]. unfold rlt. destruct (Rlt_dec 0 1); [|lra]. rewrite ln_1. cbn [xopp]. rewrite fdiv by lra. do 3 f_equal. f_equal. field.
Qed.
(** Without the condition on the last swap the sums of the earlier swaps are
    broadcast to it: the curve below is reported as converged after a step of
    zero, yet it misses the price of the second swap by 1. *)
Definition half_years : swap := mk_swap [0; 1 / 2] [1 / 2; 1] [1 / 2; 1] [1; 2] [1; 1] 3.
Definition forward_swap : swap := mk_swap [1] [2] [2] [3] [1] 4.
Theorem C38_broadcast_refuted : exists interp init final,
  (forall ts ys k, (forall j, (S j < length ts)%nat -> nth j ts 0 < nth (S j) ts 0) -> length ys = length ts -> (k < length ts)%nat -> interp (nth k ts 0) ts ys = nth k ys NaN) /\
  Forall well_formed (init ++ [final]) /\ curve_of interp init final [1; 1] (fun _ => 0) /\
  (forall tol m, 0 < tol -> swap_curve_bootstrap interp SelfBoth (init ++ [final]) [0; 0] tol (S m) = Some ((true, false, 1%nat, [Fin 1; Fin 1]), [Fin 0; Fin 0])) /\
  swap_value (discount (fun _ => 0)) (discount (fun _ => 0)) (discount (fun _ => 0)) final - present_value final = -1.
Proof.
  assert (EX : map expiry [half_years; forward_swap] = [1; 2]) by (cbn; unfold expiry; cbn; rewrite !Rmax_left by lra; reflexivity).
  assert (Z : zero_rates [1; 1] [1; 2] = [0; 0]) by (unfold zero_rates; cbn; rewrite ln_1; repeat f_equal; field).
  assert (DR : discount_rates [Fin 1; Fin 1] [1; 2] = [Fin 0; Fin 0]). { unfold discount_rates, xzip. cbn [combine map xln]. unfold rlt. destruct (Rlt_dec 0 1); [|lra]. rewrite ln_1. cbn [xopp]. rewrite !fdiv by lra. do 2 f_equal; [field|]. do 2 f_equal. field. }
  assert (RT : forall t, step_interp t [1; 2] [Fin 0; Fin 0] = Fin 0) by (intros t; cbn; destruct (Rle_dec t 1); reflexivity).
  exists step_interp, [half_years], forward_swap. split; [intros ts ys k; apply step_nodes|]. split; [cbn; repeat constructor; cbn; lia || lra|]. split; [|split].
  - unfold curve_of. cbn [app]. rewrite EX, Z. split; [repeat constructor; lra|]. split; [intros t _; apply RT|]. intros [|[|k]] K; [reflexivity|reflexivity|cbn in K; lia].
  - intros tol m TP. unfold swap_curve_bootstrap. cbn [app]. rewrite EX. replace (map (fun '(r, t) => Fin (exp (- r * t))) (combine [0; 0] [1; 2])) with [Fin 1; Fin 1] by (cbn; replace (- 0 * 1) with 0 by ring; replace (- 0 * 2) with 0 by ring; rewrite exp_0; reflexivity).
    cbn [boot_loop orb]. unfold swap_body at 1. unfold swap_step. cbv zeta. rewrite EX, DR. unfold curve_discount, group_ids, half_years, forward_swap, xsegment_sum, bzip, xzip, xsum.
    cbn [map flat_map app combine length seq repeat concat removelast last float_start float_end fixed_end fixed_cashflows fixed_daycount present_value Nat.eqb obind filter fst snd fold_right]. rewrite !RT. cbn [xmul xopp xexp]. replace (1 / 2 * 0) with 0 by ring. replace (0 * 0) with 0 by ring. replace (- 0 * (1 / 2)) with 0 by ring. replace (- 0 * 1) with 0 by ring. rewrite exp_0. rewrite !fdiv by lra. rewrite !fsub. cbn [xmul xadd].
    rewrite !fsub. rewrite !fdiv by lra. rewrite !fsub. cbn [xabs]. replace ((3 - ((1 / 1 - 1) * 1 + 0) - (1 * 1 * 1 + 0) - 1) / (2 * 1 - 1)) with 1 by field. replace ((4 - ((1 / 1 - 1) * 1 + 0) - (1 * 1 * 1 + 0) - 1) / (3 * 1 - 1)) with 1 by field. replace (1 - 1) with 0 by ring. rewrite Rabs_R0.
    rewrite (proj2 (small2 tol 0 0)) by lra. match goal with |- context [boot_loop ?b m ?s] => assert (B : boot_loop b m s = Some s) by (destruct m; reflexivity); rewrite B end. cbn [obind snd]. rewrite DR. reflexivity.
  - unfold swap_value, float_value, fixed_value, discount, forward_swap. cbn. replace (- 0 * 1) with 0 by ring. replace (- 0 * 2) with 0 by ring. rewrite exp_0. field.
Qed.
Print Assumptions C38_swap_self.
Print Assumptions C38_swap_float.
Print Assumptions C38_swap_separate.
Print Assumptions C38_linear.
Print Assumptions C38_bond.
Print Assumptions C38_hagan_west.
Print Assumptions C38_negative_refuted.
Print Assumptions C38_failed_refuted.
Print Assumptions C38_broadcast_refuted.
