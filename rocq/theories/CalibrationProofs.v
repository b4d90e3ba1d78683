(** Lemmas for the calibrations of C90. *)
From Coq Require Import Reals ZArith List Bool Lra Lia Psatz.
From Verif Require Import InterpModel BrentModel ExtReal HaganWestModel BootstrapModel BlackScholesModel ImpliedVolModel SabrModel BoundedCalModel CalibrationModel CalibrationSpec.
Import ListNotations.
Open Scope R_scope.

Lemma rlt_t a b : a < b -> rlt a b = true.
Proof. unfold rlt. destruct Rlt_dec; intros; [reflexivity|contradiction]. Qed.
Lemma rlt_f a b : b <= a -> rlt a b = false.
Proof. unfold rlt. destruct Rlt_dec; intros; [lra|reflexivity]. Qed.
Lemma req_t a b : a = b -> req a b = true.
Proof. unfold req. destruct Req_EM_T; intros; [reflexivity|contradiction]. Qed.
Lemma req_f a b : a <> b -> req a b = false.
Proof. unfold req. destruct Req_EM_T; intros; [contradiction|reflexivity]. Qed.

(** The image of the whole line, both infinities included. *)
Definition squash (lb ub : R) (x : xr) : xr :=
  match x with
  | Fin v => Fin (lb + (ub - lb) / (1 + exp (- v)))
  | Inf false => Fin ub
  | Inf true => Fin lb
  | NaN => NaN
  end.
Lemma constrained_squash x lb ub : to_constrained x (Fin lb) (Fin ub) = squash lb ub x.
Proof.
  unfold to_constrained, xsub. destruct x as [v|[|]|]; cbn [xopp xexp negb xadd xdiv xmul squash]; try reflexivity.
  - pose proof (exp_pos (- v)). rewrite req_f by lra. cbn [xmul xadd]. f_equal. field. lra.
  - f_equal. ring.
  - rewrite req_f by lra. cbn [xmul xadd]. f_equal. field.
Qed.
Lemma squash_inside lb ub v : lb < ub -> inside lb ub (squash lb ub (Fin v)).
Proof.
  intros L. cbn [squash]. eexists; split; [reflexivity|]. pose proof (exp_pos (- v)) as E.
  assert (0 < / (1 + exp (- v)) < 1).
  { split; [apply Rinv_0_lt_compat; lra|]. rewrite <- Rinv_1 at 2. apply Rinv_lt_contravar; lra. }
  unfold Rdiv. nra.
Qed.
Lemma squash_within lb ub x : lb < ub -> within_or_nan lb ub (squash lb ub x).
Proof.
  intros L. destruct x as [v|[|]|]; [right|right|right|left; reflexivity].
  - destruct (squash_inside lb ub v L) as (r & E & B). exists r. split; [exact E|lra].
  - exists lb. split; [reflexivity|lra].
  - exists ub. split; [reflexivity|lra].
Qed.

(** The starting value mapped to the line. *)
Lemma unconstrained_low lb ub : lb < ub -> to_unconstrained (Fin lb) (Fin lb) (Fin ub) = Inf true.
Proof.
  intros L. unfold to_unconstrained, scale, xsub. cbn [xopp xadd xdiv]. rewrite req_f by lra. cbn [xopp xadd xdiv].
  rewrite req_t by (unfold Rdiv; replace (lb + - lb) with 0 by ring; ring). rewrite req_f by (unfold Rdiv; replace (lb + - lb) with 0 by ring; lra).
  rewrite rlt_f by (unfold Rdiv; replace (lb + - lb) with 0 by ring; lra). reflexivity.
Qed.
Lemma unconstrained_high lb ub : lb < ub -> to_unconstrained (Fin ub) (Fin lb) (Fin ub) = Inf false.
Proof.
  intros L. unfold to_unconstrained, scale, xsub. cbn [xopp xadd xdiv]. rewrite req_f by lra. cbn [xopp xadd xdiv].
  assert (Q : (ub + - lb) / (ub + - lb) = 1) by (field; lra). rewrite Q. rewrite req_f by lra. cbn [xln].
  rewrite rlt_f by lra. rewrite req_t by lra. reflexivity.
Qed.
Lemma unconstrained_inside s lb ub : lb < s < ub -> to_unconstrained (Fin s) (Fin lb) (Fin ub) = Fin (- ln ((ub - s) / (s - lb))).
Proof.
  intros L. unfold to_unconstrained, scale, xsub. cbn [xopp xadd xdiv]. rewrite req_f by lra. cbn [xopp xadd xdiv].
  assert (Q : 0 < (s + - lb) / (ub + - lb)) by (apply Rdiv_lt_0_compat; lra). rewrite req_f by lra. cbn [xln].
  assert (W : (1 + - ((s + - lb) / (ub + - lb))) / ((s + - lb) / (ub + - lb)) = (ub - s) / (s - lb)) by (field; lra). rewrite W.
  rewrite rlt_t by (apply Rdiv_lt_0_compat; lra). reflexivity.
Qed.
Lemma squash_unconstrained s lb ub : lb < ub -> lb <= s <= ub -> squash lb ub (to_unconstrained (Fin s) (Fin lb) (Fin ub)) = Fin s.
Proof.
  intros L [A B]. destruct (Req_dec s lb) as [->|NL]; [rewrite unconstrained_low by exact L; reflexivity|].
  destruct (Req_dec s ub) as [->|NU]; [rewrite unconstrained_high by exact L; reflexivity|].
  rewrite unconstrained_inside by lra. cbn [squash]. rewrite Ropp_involutive, exp_ln by (apply Rdiv_lt_0_compat; lra). f_equal. field. lra.
Qed.
Lemma unconstrained_nan s lb ub : lb < ub -> s < lb \/ ub < s -> to_unconstrained (Fin s) (Fin lb) (Fin ub) = NaN.
Proof.
  intros L O. unfold to_unconstrained, scale, xsub. cbn [xopp xadd xdiv]. rewrite req_f by lra. cbn [xopp xadd xdiv].
  assert (P : 0 < / (ub + - lb)) by (apply Rinv_0_lt_compat; lra). assert (K : (ub + - lb) * / (ub + - lb) = 1) by (field; lra).
  rewrite req_f by (unfold Rdiv; destruct O; nra). cbn [xln].
  assert (W : (1 + - ((s + - lb) / (ub + - lb))) / ((s + - lb) / (ub + - lb)) = (ub - s) / (s - lb)) by (field; destruct O; lra). rewrite W.
  assert (G : (ub - s) / (s - lb) < 0).
  { destruct O as [O|O].
    - replace ((ub - s) / (s - lb)) with (- ((ub - s) / (lb - s))) by (field; lra). pose proof (Rdiv_lt_0_compat (ub - s) (lb - s)). lra.
    - replace ((ub - s) / (s - lb)) with (- ((s - ub) / (s - lb))) by (field; lra). pose proof (Rdiv_lt_0_compat (s - ub) (s - lb)). lra. }
  rewrite rlt_f by lra. rewrite req_f by lra. reflexivity.
Qed.

(** The variant of the HJM calibration. *)
Definition squash_hjm (lb ub : R) (x : xr) : xr := match x with Inf false => NaN | _ => squash lb ub x end.
Lemma hjm_squash x lb ub : hjm_to_constrained x (Fin lb) (Fin ub) = squash_hjm lb ub x.
Proof.
  unfold hjm_to_constrained, xsub. destruct x as [v|[|]|]; cbn [xopp xexp negb xadd xdiv xmul squash squash_hjm]; try reflexivity.
  - pose proof (exp_pos v). rewrite req_f by lra. cbn [xmul xadd]. f_equal. rewrite exp_Ropp. field. lra.
  - rewrite req_f by lra. cbn [xmul xadd]. f_equal. field.
Qed.

(** ** Generic facts about the call of the optimizer *)
Lemma optimize_some {X V P S} (read : X -> option P) (value : P -> V) (start : X) (opt : optimizer X V S) p s :
  optimize read value start opt = Some (p, s) <->
  exists r, opt (fun x => option_map value (read x)) start = Some r /\ read (position r) = Some p /\ s = status r.
Proof.
  unfold optimize, bind. split.
  - destruct (opt _ start) as [r|]; [|discriminate]. destruct (read (position r)) as [q|] eqn:E; cbn [option_map]; [|discriminate].
    intros Q. injection Q as <- <-. exists r. repeat split; auto.
  - intros (r & -> & E & ->). rewrite E. reflexivity.
Qed.
Lemma map_opt_forall2' {A B} (f : A -> option B) l m : map_opt f l = Some m -> Forall2 (fun x y => f x = Some y) l m.
Proof.
  revert m. induction l as [|x l IH]; intros m E; cbn [map_opt] in E; [injection E as <-; constructor|].
  destruct (f x) eqn:F; [|discriminate]. destruct (map_opt f l); [|discriminate]. injection E as <-. constructor; auto.
Qed.
Lemma forall2_map_opt {A B} (f : A -> option B) l m : Forall2 (fun x y => f x = Some y) l m -> map_opt f l = Some m.
Proof. induction 1 as [|x y l m E F IH]; cbn [map_opt]; [reflexivity|]. rewrite E, IH. reflexivity. Qed.
Lemma read_rows_some {B P} (read : B -> list xr -> option P) rows xs ps :
  read_rows read rows xs = Some ps -> length rows = length xs /\ Forall2 (fun '(b, x) p => read b x = Some p) (combine rows xs) ps.
Proof.
  unfold read_rows. destruct (Nat.eqb_spec (length rows) (length xs)) as [E|E]; [|discriminate]. intros M. split; [exact E|].
  apply map_opt_forall2' in M. clear E. induction M as [|[b x] p l m F M IH]; constructor; auto.
Qed.
Lemma read_rows_forall {B P} (read : B -> list xr -> option P) (Q : B -> P -> Prop) rows xs ps :
  (forall b x p, In b rows -> read b x = Some p -> Q b p) -> read_rows read rows xs = Some ps -> Forall2 Q rows ps.
Proof.
  intros H R. apply read_rows_some in R. destruct R as [L F]. revert xs ps L F. induction rows as [|b rows IH]; intros [|x xs] ps L F; try discriminate L.
  - inversion F; subst; constructor.
  - cbn [combine] in F. inversion F as [|? ? ? ? A R]; subst. constructor; [apply H with (x := x); [left; reflexivity|exact A]|].
    apply IH with (xs := xs); [intros; apply H with (x := x0); [right; assumption|assumption]|cbn in L; lia|exact R].
Qed.
Lemma read_rows_start {B P} (read : B -> list xr -> option P) (initial : B -> list xr) (out : B -> P) rows :
  (forall b, In b rows -> read b (initial b) = Some (out b)) -> read_rows read rows (map initial rows) = Some (map out rows).
Proof.
  intros H. unfold read_rows. rewrite map_length, Nat.eqb_refl. apply forall2_map_opt. induction rows as [|b rows IH]; cbn [map combine]; constructor.
  - apply H. left. reflexivity.
  - apply IH. intros. apply H. right. assumption.
Qed.

(** ** The objective on finite numbers *)
Lemma xsum_fin l : xsum (map Fin l) = Fin (fold_right Rplus 0 l).
Proof. induction l as [|x l IH]; [reflexivity|]. cbn [map]. unfold xsum in *. cbn [fold_right]. rewrite IH. reflexivity. Qed.
Lemma squares_fin a b : squares (map Fin a) (map Fin b) = map Fin (map (fun '(x, y) => (x - y) ^ 2) (combine a b)).
Proof.
  unfold squares, xzip. revert b. induction a as [|x a IH]; intros [|y b]; cbn [map combine]; try reflexivity.
  rewrite IH. f_equal. unfold xsquare, xsub. cbn [xopp xadd xmul]. f_equal. ring.
Qed.
Lemma sum_squares_fold a b : fold_right Rplus 0 (map (fun '(x, y) => (x - y) ^ 2) (combine a b)) = sum_squares a b.
Proof. revert b. induction a as [|x a IH]; intros [|y b]; cbn [map combine fold_right sum_squares]; try reflexivity. rewrite IH. reflexivity. Qed.
Lemma squares_length a b : length a = length b -> length (squares a b) = length a.
Proof. intros L. unfold squares, xzip. rewrite map_length, combine_length, <- L. apply Nat.min_id. Qed.
Lemma xmean_squares a b : length a = length b -> a <> [] -> xmean (squares (map Fin a) (map Fin b)) = Fin (mean_square a b).
Proof.
  intros L N. unfold xmean. rewrite squares_length by (rewrite !map_length; exact L). rewrite map_length, squares_fin, xsum_fin, sum_squares_fold.
  unfold mean_square. cbn [xdiv]. rewrite req_f; [reflexivity|]. destruct a; [congruence|]. cbn [length]. rewrite S_INR. pose proof (pos_INR (length a)). lra.
Qed.
Lemma sum_squares_nonneg a b : 0 <= sum_squares a b.
Proof. revert b. induction a as [|x a IH]; intros [|y b]; cbn [sum_squares]; try lra. specialize (IH b). pose proof (pow2_ge_0 (x - y)). lra. Qed.
Lemma sum_squares_zero a b : length a = length b -> (sum_squares a b = 0 <-> a = b).
Proof.
  revert b. induction a as [|x a IH]; intros [|y b] L; try discriminate L; cbn [sum_squares]; [tauto|].
  injection L as L. specialize (IH b L). pose proof (pow2_ge_0 (x - y)) as P. pose proof (sum_squares_nonneg a b) as Q. split; intros E.
  - assert (A : (x - y) ^ 2 = 0) by lra. assert (S : sum_squares a b = 0) by lra. apply IH in S. subst b. assert (x - y = 0) by nra. f_equal. lra.
  - injection E as -> ->. assert (sum_squares b b = 0) by (apply IH; reflexivity). replace (y - y) with 0 by ring. lra.
Qed.
Lemma mean_square_zero a b : length a = length b -> a <> [] -> (mean_square a b = 0 <-> a = b).
Proof.
  intros L N. rewrite <- sum_squares_zero by exact L. unfold mean_square.
  assert (P : 0 < INR (length a)) by (destruct a; [congruence|]; cbn [length]; rewrite S_INR; pose proof (pos_INR (length a)); lra).
  split; intros E.
  - replace (sum_squares a b) with (sum_squares a b / INR (length a) * INR (length a)) by (field; lra). rewrite E. ring.
  - rewrite E. unfold Rdiv. ring.
Qed.
Lemma sum_squares_sym a b : sum_squares a b = sum_squares b a.
Proof. revert b. induction a as [|x a IH]; intros [|y b]; cbn [sum_squares]; try reflexivity. rewrite IH. ring. Qed.

(** A finite objective needs finite model values. *)
Lemma xadd_fin a b e : a +x b = Fin e -> exists x y, a = Fin x /\ b = Fin y /\ e = x + y.
Proof. destruct a as [x|[]|], b as [y|[]|]; cbn; try discriminate. intros E. injection E as <-. exists x, y. auto. Qed.
Lemma xsum_finite l e : xsum l = Fin e -> exists m, l = map Fin m.
Proof.
  revert e. induction l as [|x l IH]; intros e E; [exists []; reflexivity|]. unfold xsum in *. cbn [fold_right] in E. apply xadd_fin in E.
  destruct E as (a & b & -> & E & _). apply IH in E. destruct E as (m & ->). exists (a :: m). reflexivity.
Qed.
Lemma xdiv_finite a n e : n <> 0 -> a /x Fin n = Fin e -> exists x, a = Fin x /\ e = x / n.
Proof. intros N. destruct a as [x|[]|]; cbn [xdiv]; try discriminate. rewrite req_f by exact N. intros E. injection E as <-. exists x. auto. Qed.
Lemma xsquare_fin a e : xsquare a = Fin e -> exists x, a = Fin x.
Proof. unfold xsquare. destruct a as [x|[]|]; cbn; try discriminate. exists x. reflexivity. Qed.
Lemma squares_finite ts vs m : length ts = length vs -> squares (map Fin ts) vs = map Fin m -> exists ws, vs = map Fin ws.
Proof.
  unfold squares, xzip. revert vs m. induction ts as [|t ts IH]; intros [|v vs] m L E; try discriminate L; [exists []; reflexivity|].
  cbn [map combine] in E. destruct m as [|e m]; [discriminate|]. cbn [map] in E.
  assert (E1 : xsquare (Fin t -x v) = Fin e) by congruence. assert (E2 : map (fun '(x, y) => xsquare (x -x y)) (combine (map Fin ts) vs) = map Fin m) by congruence.
  injection L as L. destruct (IH _ _ L E2) as (ws & ->). apply xsquare_fin in E1. destruct E1 as (d & E1). unfold xsub in E1. apply xadd_fin in E1. destruct E1 as (_ & y & _ & E1 & _).
  destruct v as [w|[]|]; try discriminate. exists (w :: ws). reflexivity.
Qed.
Lemma squares_sym a b : squares a b = squares b a.
Proof.
  unfold squares, xzip. revert b. induction a as [|x a IH]; intros [|y b]; cbn [map combine]; try reflexivity. rewrite IH. f_equal.
  unfold xsquare, xsub. destruct x as [x|[]|], y as [y|[]|]; cbn; try reflexivity. f_equal. ring.
Qed.
Lemma loss_zero ts vs : length ts = length vs -> ts <> [] -> (xmean (squares (map Fin ts) vs) = Fin 0 <-> vs = map Fin ts).
Proof.
  intros L N. split.
  - intros E. assert (P : INR (length (squares (map Fin ts) vs)) <> 0).
    { rewrite squares_length by (rewrite map_length; exact L). rewrite map_length. destruct ts; [congruence|]. cbn [length]. rewrite S_INR. pose proof (pos_INR (length ts)). lra. }
    unfold xmean in E. pose proof E as E'. apply (xdiv_finite _ _ _ P) in E'. destruct E' as (x & S & _). apply xsum_finite in S. destruct S as (m & S).
    destruct (squares_finite _ _ _ L S) as (ws & ->). fold (xmean (squares (map Fin ts) (map Fin ws))) in E. rewrite map_length in L.
    rewrite xmean_squares in E by assumption. injection E as E. apply (mean_square_zero _ _ L N) in E. subst. reflexivity.
  - intros ->. rewrite xmean_squares by auto. f_equal. apply mean_square_zero; auto.
Qed.
Lemma log1p_fin p : -1 < p -> xlog1p (Fin p) = Fin (ln (1 + p)).
Proof. intros P. unfold xlog1p. cbn [xadd xln]. rewrite rlt_t by lra. reflexivity. Qed.
Lemma log1p_inj v p : -1 < p -> xlog1p v = xlog1p (Fin p) <-> v = Fin p.
Proof.
  intros P. split; [|intros ->; reflexivity]. rewrite log1p_fin by exact P. unfold xlog1p. destruct v as [v|[]|]; cbn [xadd xln]; try discriminate.
  destruct (rlt 0 (1 + v)) eqn:E; [|destruct (req (1 + v) 0); discriminate]. unfold rlt in E. destruct Rlt_dec as [G|]; [|discriminate].
  intros Q. injection Q as Q. apply ln_inv in Q; try lra. f_equal. lra.
Qed.
Lemma forall2_length {A B} (P : A -> B -> Prop) l m : Forall2 P l m -> length l = length m.
Proof. induction 1; cbn [length]; congruence. Qed.
Lemma forall2_compose {A B C} (P : A -> B -> Prop) (Q : B -> C -> Prop) (W : A -> C -> Prop) l m n :
  (forall a b c, P a b -> Q b c -> W a c) -> Forall2 P l m -> Forall2 Q m n -> Forall2 W l n.
Proof. intros H F. revert n. induction F; intros n G; inversion G; subst; constructor; eauto. Qed.

(** ** SABR *)
Lemma valid_same v b b' : assert_parameter_valid v b = Some b' -> b' = b.
Proof. unfold assert_parameter_valid. destruct v; [destruct (_ && _)%bool|]; intros E; congruence. Qed.
Lemma sabr_prepare_some v c r h : sabr_prepare v c r = Some h ->
  sabr_alpha r = Some (h_alpha h) /\ h_volvol h = Bounded (Fin (given_volvol r)) (Fin (volvol_lower r)) (Fin (volvol_upper r))
  /\ h_rho h = Bounded (Fin (given_rho r)) (Fin (rho_lower r)) (Fin (rho_upper r)) /\ h_calibrate_beta h = c
  /\ h_beta h = Bounded (Fin (given_beta r)) (Fin (beta_lower r)) (Fin (beta_upper r)).
Proof.
  unfold sabr_prepare, bind. destruct (assert_parameter_valid v (Bounded (Fin (given_beta r)) _ _)) as [b|] eqn:B; [|discriminate].
  destruct (sabr_alpha r) as [a|] eqn:A; [|discriminate]. destruct (assert_parameter_valid v a) as [a'|] eqn:A'; [|discriminate].
  destruct (assert_parameter_valid v (Bounded (Fin (given_volvol r)) _ _)) as [n|] eqn:N; [|discriminate].
  destruct (assert_parameter_valid v (Bounded (Fin (given_rho r)) _ _)) as [q|] eqn:Q; [|discriminate].
  apply valid_same in B, A', N, Q. subst. intros E. injection E as <-. auto.
Qed.
Lemma sabr_read_some h x p : sabr_read h x = Some p ->
  exists xa xv xq, slot x 0 = Some xa /\ slot x 1 = Some xv /\ slot x 2 = Some xq
  /\ p_alpha p = decode (h_alpha h) xa /\ p_volvol p = decode (h_volvol h) xv /\ p_rho p = decode (h_rho h) xq
  /\ (if h_calibrate_beta h then exists xb, last_slot x = Some xb /\ p_beta p = decode (h_beta h) xb else p_beta p = start (h_beta h)).
Proof.
  unfold sabr_read, bind. destruct (slot x 0) as [xa|]; [|discriminate]. destruct (slot x 1) as [xv|]; [|discriminate]. destruct (slot x 2) as [xq|]; [|discriminate]. cbn [option_map].
  destruct (h_calibrate_beta h).
  - destruct (last_slot x) as [xb|]; [|discriminate]. cbn [option_map]. intros E. injection E as <-. exists xa, xv, xq. repeat split. exists xb. auto.
  - intros E. injection E as <-. exists xa, xv, xq. repeat split.
Qed.
Lemma sabr_read_start h : sabr_read h (sabr_initial h) =
  Some (SabrParams (decode (h_alpha h) (encode (h_alpha h))) (if h_calibrate_beta h then decode (h_beta h) (encode (h_beta h)) else start (h_beta h))
    (decode (h_volvol h) (encode (h_volvol h))) (decode (h_rho h) (encode (h_rho h)))).
Proof. unfold sabr_read, sabr_initial. destruct (h_calibrate_beta h) eqn:E; cbn [slot nth_error option_map bind last_slot last]; reflexivity. Qed.
Lemma decode_encode s lb ub : lb < ub -> lb <= s <= ub -> decode (Bounded (Fin s) (Fin lb) (Fin ub)) (encode (Bounded (Fin s) (Fin lb) (Fin ub))) = Fin s.
Proof. intros L B. unfold decode, encode. cbn [start low high]. rewrite constrained_squash. apply squash_unconstrained; assumption. Qed.
Lemma valid_within s lb ub : lb <= s <= ub -> forall v, assert_parameter_valid v (Bounded (Fin s) (Fin lb) (Fin ub)) = Some (Bounded (Fin s) (Fin lb) (Fin ub)).
Proof.
  intros [A B] []; [|reflexivity]. unfold assert_parameter_valid. cbn [start low high xle xlt]. rewrite !rlt_f by assumption. reflexivity.
Qed.
Lemma valid_outside s lb ub : s < lb \/ ub < s -> assert_parameter_valid true (Bounded (Fin s) (Fin lb) (Fin ub)) = None.
Proof.
  intros [A|A]; unfold assert_parameter_valid; cbn [start low high xle xlt]; [rewrite (rlt_t s lb) by exact A|rewrite (rlt_t ub s) by exact A; rewrite andb_comm]; reflexivity.
Qed.

(** ** Heston *)
Lemma heston_prepare_some v s t : heston_prepare v s = Some t -> t = s.
Proof.
  unfold heston_prepare, bind. destruct (assert_parameter_valid v (b_mean_reversion s)) as [a|] eqn:A; [|discriminate].
  destruct (assert_parameter_valid v (b_theta s)) as [b|] eqn:B; [|discriminate]. destruct (assert_parameter_valid v (b_volvol s)) as [c|] eqn:C; [|discriminate].
  destruct (assert_parameter_valid v (b_variance s)) as [d|] eqn:D; [|discriminate]. destruct (assert_parameter_valid v (b_rho s)) as [e|] eqn:E; [|discriminate].
  apply valid_same in A, B, C, D, E. subst. intros Q. injection Q as <-. destruct s; reflexivity.
Qed.
Lemma heston_read_some s x p : heston_read s x = Some p -> exists x0 x1 x2 x3 x4,
  p_variance p = decode (b_variance s) x0 /\ p_theta p = decode (b_theta s) x1 /\ p_vol p = decode (b_volvol s) x2
  /\ p_mean_reversion p = decode (b_mean_reversion s) x3 /\ p_corr p = decode (b_rho s) x4.
Proof.
  unfold heston_read, bind. destruct (slot x 0) as [x0|]; [|discriminate]. destruct (slot x 1) as [x1|]; [|discriminate]. destruct (slot x 2) as [x2|]; [|discriminate].
  destruct (slot x 3) as [x3|]; [|discriminate]. destruct (last_slot x) as [x4|]; [|discriminate]. cbn [option_map]. intros E. injection E as <-. exists x0, x1, x2, x3, x4. repeat split.
Qed.
Lemma heston_read_start s : heston_read s (heston_initial s) =
  Some (HestonParams (decode (b_mean_reversion s) (encode (b_mean_reversion s))) (decode (b_theta s) (encode (b_theta s))) (decode (b_volvol s) (encode (b_volvol s)))
    (decode (b_rho s) (encode (b_rho s))) (decode (b_variance s) (encode (b_variance s)))).
Proof. reflexivity. Qed.
