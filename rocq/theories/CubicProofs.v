From Coquelicot Require Import Coquelicot.
From Coq Require Import Reals List Bool Lia Lra.
From Verif Require Import TensorModel TensorProofs InterpModel LinearProofs CubicSpec.
Import ListNotations.
Open Scope R_scope.

(** Thomas algorithm *)
Definition row := (R * R * R * R)%type.
Fixpoint tri_sat (prev : R) (rows : list row) (sol : list R) : Prop :=
  match rows, sol with
  | [], [] => True
  | (sup, d, sub, r) :: rest, s :: sol' => sub * prev + d * s + sup * hd 0 sol' = r /\ tri_sat s rest sol'
  | _, _ => False
  end.
Lemma thomas_sat : forall rows p sol, thomas p rows = Some sol ->
  tri_sat (match p with None => 0 | Some (u, z) => z - u * hd 0 sol end) rows sol.
Proof.
  induction rows as [|(((sup, d), sub), r) rows IH]; intros p sol E; cbn [thomas] in E.
  - injection E as <-. exact I.
  - assert (Q : exists pu px, (match p with None => (0, 0) | Some q => q end) = (pu, px) /\
        forall s, (match p with None => 0 | Some (u, z) => z - u * s end) = px - pu * s).
    { destruct p as [(u, z)|]; eexists _, _; (split; [reflexivity|]); intros; ring. }
    destruct Q as (pu & px & EQ & PS). rewrite EQ in E. destruct (Req_EM_T (d - sub * pu) 0) as [Z|Z]; [discriminate|].
    destruct (thomas _ rows) as [sol'|] eqn:T; [|discriminate]. injection E as <-. apply IH in T. cbn [tri_sat hd]. rewrite PS.
    set (s := match sol' with [] => (r - sub * px) / (d - sub * pu) | s0 :: _ => (r - sub * px) / (d - sub * pu) - sup / (d - sub * pu) * s0 end) in *.
    assert (S : s = (r - sub * px) / (d - sub * pu) - sup / (d - sub * pu) * hd 0 sol') by (subst s; destruct sol'; cbn; ring).
    split; [rewrite S; field; assumption|]. rewrite S. exact T.
Qed.
(** strictly diagonally dominant rows never give a zero pivot *)
Definition dominant (r : row) : Prop := let '(sup, d, sub, _) := r in Rabs sup + Rabs sub < Rabs d.
Lemma thomas_defined : forall rows p, Forall dominant rows ->
  match p with None => True | Some (u, _) => Rabs u < 1 end -> exists sol, thomas p rows = Some sol.
Proof.
  induction rows as [|(((sup, d), sub), r) rows IH]; intros p D P; [eexists; reflexivity|]. inversion D as [|? ? D1 D2]; subst. cbn in D1.
  cbn [thomas].
  assert (Q : exists pu px, (match p with None => (0, 0) | Some q => q end) = (pu, px) /\ Rabs pu < 1).
  { destruct p as [(u, z)|]; eexists _, _; (split; [reflexivity|]); [assumption|rewrite Rabs_R0; lra]. }
  destruct Q as (pu & px & EQ & PS). rewrite EQ.
  assert (A : Rabs sup < Rabs (d - sub * pu)).
  { pose proof (Rabs_triang_inv d (sub * pu)) as T. rewrite Rabs_mult in T.
    assert (Rabs sub * Rabs pu <= Rabs sub) by (rewrite <- (Rmult_1_r (Rabs sub)) at 2; apply Rmult_le_compat_l; [apply Rabs_pos|lra]). lra. }
  destruct (Req_EM_T (d - sub * pu) 0) as [Z|Z].
  - rewrite Z, Rabs_R0 in A. pose proof (Rabs_pos sup). lra.
  - edestruct (IH (Some (sup / (d - sub * pu), (r - sub * px) / (d - sub * pu)))) as (sol & ->); [assumption| |eexists; reflexivity].
    unfold Rdiv. rewrite Rabs_mult, Rabs_inv. apply Rmult_lt_reg_r with (Rabs (d - sub * pu)); [apply Rabs_pos_lt; assumption|].
    rewrite Rmult_assoc, Rinv_l by (apply Rabs_no_R0; assumption). lra.
Qed.
Lemma thomas_zero : forall rows p sol, Forall (fun '(_, _, _, r) => r = 0) rows -> match p with None => True | Some (_, z) => z = 0 end ->
  thomas p rows = Some sol -> Forall (fun s => s = 0) sol.
Proof.
  induction rows as [|(((sup, d), sub), r) rows IH]; intros p sol D P E; cbn [thomas] in E; [injection E as <-; constructor|].
  pose proof (Forall_inv D) as D1. pose proof (Forall_inv_tail D) as D2. cbn in D1. subst r.
  assert (Q : exists pu, (match p with None => (0, 0) | Some q => q end) = (pu, 0)) by (destruct p as [(u, z)|]; [cbn in P; subst z|]; eexists; reflexivity).
  destruct Q as (pu & EQ). rewrite EQ in E. destruct (Req_EM_T (d - sub * pu) 0); [discriminate|].
  destruct (thomas _ rows) as [sol'|] eqn:T; [|discriminate]. injection E as <-.
  assert (Z : (0 - sub * 0) / (d - sub * pu) = 0) by (field; assumption).
  rewrite Z in *. apply IH in T; [|assumption|reflexivity]. constructor; [|assumption]. destruct sol' as [|s ?]; [reflexivity|]. pose proof (Forall_inv T) as T1. cbn in T1. rewrite T1. ring.
Qed.

(** vectors as maps over indices *)
Lemma list_eq_map (l : list R) (f : nat -> R) m : length l = m -> (forall i, (i < m)%nat -> at_ l i = f i) -> l = map f (seq 0 m).
Proof.
  intros L H. apply nth_ext with (d := 0) (d' := 0); [rewrite map_length, seq_length; assumption|]. intros i I.
  fold (at_ l i) (at_ (map f (seq 0 m)) i). rewrite H, at_seq by lia. reflexivity.
Qed.
Lemma combine_maps {A B C} (f : A -> B) (g : A -> C) l : combine (map f l) (map g l) = map (fun i => (f i, g i)) l.
Proof. induction l; [reflexivity|]. cbn. f_equal. assumption. Qed.
Lemma map_seq_ext {A} (f g : nat -> A) m : (forall i, (i < m)%nat -> f i = g i) -> map f (seq 0 m) = map g (seq 0 m).
Proof. intros H. apply map_ext_in. intros i I. apply in_seq in I. apply H. lia. Qed.
Lemma tl_length' {A} (l : list A) : length (tl l) = (length l - 1)%nat.
Proof. destruct l; cbn; lia. Qed.
Lemma removelast_length' {A} (l : list A) : length (removelast l) = (length l - 1)%nat.
Proof. induction l as [|a l IH]; [reflexivity|]. destruct l; [reflexivity|]. cbn [removelast length] in *. lia. Qed.
Lemma at_tl l i : at_ (tl l) i = at_ l (S i).
Proof. destruct l; [destruct i; reflexivity|reflexivity]. Qed.
Lemma at_removelast l i : (S i < length l)%nat -> at_ (removelast l) i = at_ l i.
Proof.
  unfold at_. revert i. induction l as [|a l IH]; intros i H; [cbn in H; lia|]. destruct l; [cbn in H; lia|]. destruct i; [reflexivity|]. cbn in *. apply IH. lia.
Qed.
Lemma vzip_length f a b : length (vzip f a b) = Nat.min (length a) (length b).
Proof. unfold vzip. rewrite map_length, combine_length. reflexivity. Qed.
Lemma at_vzip f a b i : (i < length a)%nat -> (i < length b)%nat -> at_ (vzip f a b) i = f (at_ a i) (at_ b i).
Proof.
  unfold at_, vzip. revert b i. induction a as [|x a IH]; intros [|y b] i L H; cbn in L, H; try lia.
  destruct i; [reflexivity|]. cbn. apply IH; lia.
Qed.
Lemma vdiff_length x : length (vdiff x) = (length x - 1)%nat.
Proof. unfold vdiff. rewrite vzip_length, tl_length', removelast_length'. lia. Qed.
Lemma at_vdiff x i : (S i < length x)%nat -> at_ (vdiff x) i = at_ x (S i) - at_ x i.
Proof. intros H. unfold vdiff. rewrite at_vzip by (rewrite ?tl_length', ?removelast_length'; lia). rewrite at_tl, at_removelast by assumption. reflexivity. Qed.
Lemma at_skipn l k i : at_ (skipn k l) i = at_ l (k + i).
Proof. unfold at_. revert l. induction k; intros l; [reflexivity|]. destruct l; cbn; [destruct i; reflexivity|apply IHk]. Qed.
Lemma at_firstn l k i : (i < k)%nat -> at_ (firstn k l) i = at_ l i.
Proof. unfold at_. revert l i. induction k; intros l i H; [lia|]. destruct l; cbn; [reflexivity|]. destruct i; [reflexivity|]. apply IHk. lia. Qed.
Lemma req_false a b : a <> b -> req a b = false.
Proof. intros H. unfold req. destruct (Req_EM_T a b); [contradiction|reflexivity]. Qed.

(** tri_sat by index *)
Lemma tri_sat_len : forall rows prev sol, tri_sat prev rows sol -> length sol = length rows.
Proof.
  induction rows as [|(((sup, d), sub), r) rows IH]; intros prev [|s sol] H; cbn in H; try contradiction; [reflexivity|]. cbn. f_equal. destruct H as (_ & H). eapply IH. eassumption.
Qed.
Lemma tri_sat_at (fsup fd fsub fr : nat -> R) m : forall a prev sol, tri_sat prev (map (fun i => (fsup i, fd i, fsub i, fr i)) (seq a m)) sol ->
  forall i, (i < m)%nat -> fsub (a + i)%nat * (match i with O => prev | S j => at_ sol j end) + fd (a + i)%nat * at_ sol i + fsup (a + i)%nat * at_ sol (S i) = fr (a + i)%nat.
Proof.
  induction m; intros a prev sol H i I; [lia|]. cbn [seq map tri_sat] in H. destruct sol as [|s sol]; [contradiction|]. destruct H as (H1 & H2). destruct i.
  - rewrite Nat.add_0_r. rewrite <- H1. unfold at_. cbn [nth]. destruct sol; reflexivity.
  - specialize (IHm (S a) s sol H2 i ltac:(lia)). replace (a + S i)%nat with (S a + i)%nat by lia. rewrite <- IHm. unfold at_. destruct i; reflexivity.
Qed.

(** the pieces *)
Section Pieces.
Variables (xs ys cs : list R).
Notation n := (length xs).
Notation X := (at_ xs). Notation Y := (at_ ys). Notation C := (at_ cs).
Definition dX k := X (S k) - X k.
Definition dD k := (Y (S k) - Y k) / dX k.
Definition tt k x := (x - X k) / dX k.
Definition P k x := Y k + tt k x * (Y (S k) - Y k) + dX k * dX k * (((tt k x + 1) * C (S k) * 2 - (tt k x - 2) * C k * 2) * tt k x * (tt k x - 1) / 6).
Definition P1 k x := dD k + dX k * ((3 * tt k x ^ 2 - 1) * C (S k) - (3 * tt k x ^ 2 - 6 * tt k x + 2) * C k) / 3.
Definition P2 k x := 2 * tt k x * C (S k) - (2 * tt k x - 2) * C k.
Hypothesis INC : incr xs.
Hypothesis LEN : length ys = n.
Hypothesis LENC : length cs = n.

Lemma dX_pos k : (S k < n)%nat -> 0 < dX k.
Proof. intros H. specialize (INC k H). unfold dX. lra. Qed.
Lemma P_cubic k : (S k < n)%nat -> exists a b c d, forall x, P k x = a + b * x + c * x ^ 2 + d * x ^ 3.
Proof.
  intros H. pose proof (dX_pos k H) as D.
  set (al := - X k / dX k). set (be := / dX k). set (dy := Y (S k) - Y k). set (q := dX k * dX k / 3).
  set (p1 := dy + q * (- C (S k) - 2 * C k)). set (p2 := q * (3 * C k)). set (p3 := q * (C (S k) - C k)).
  exists (Y k + p1 * al + p2 * al ^ 2 + p3 * al ^ 3), (be * (p1 + 2 * p2 * al + 3 * p3 * al ^ 2)), (be ^ 2 * (p2 + 3 * p3 * al)), (p3 * be ^ 3).
  intros x. assert (T : tt k x = al + be * x) by (unfold tt, al, be; field; lra). unfold P. rewrite T. unfold p1, p2, p3, q, dy. field.
Qed.
Lemma P_derive k x : (S k < n)%nat -> is_derive (P k) x (P1 k x).
Proof.
  intros H. pose proof (dX_pos k H) as D. unfold P, P1, tt, dD. auto_derive; [trivial|]. field. lra.
Qed.
Lemma P1_derive k x : (S k < n)%nat -> is_derive (P1 k) x (P2 k x).
Proof.
  intros H. pose proof (dX_pos k H) as D. unfold P1, P2, tt, dD. auto_derive; [trivial|]. field. lra.
Qed.
Lemma tt_left k : (S k < n)%nat -> tt k (X k) = 0.
Proof. intros H. pose proof (dX_pos k H) as D. unfold tt. field. lra. Qed.
Lemma tt_right k : (S k < n)%nat -> tt k (X (S k)) = 1.
Proof. intros H. pose proof (dX_pos k H) as D. unfold tt. unfold dX in *. field. lra. Qed.
Lemma P_left k : (S k < n)%nat -> P k (X k) = Y k.
Proof. intros H. unfold P. rewrite tt_left by assumption. field. Qed.
Lemma P_right k : (S k < n)%nat -> P k (X (S k)) = Y (S k).
Proof. intros H. unfold P. rewrite tt_right by assumption. field. Qed.
Lemma P1_left k : (S k < n)%nat -> P1 k (X k) = dD k - dX k * (C (S k) + 2 * C k) / 3.
Proof. intros H. unfold P1. rewrite tt_left by assumption. field. Qed.
Lemma P1_right k : (S k < n)%nat -> P1 k (X (S k)) = dD k + dX k * (2 * C (S k) + C k) / 3.
Proof. intros H. unfold P1. rewrite tt_right by assumption. field. Qed.
Lemma P2_left k : (S k < n)%nat -> P2 k (X k) = 2 * C k.
Proof. intros H. unfold P2. rewrite tt_left by assumption. field. Qed.
Lemma P2_right k : (S k < n)%nat -> P2 k (X (S k)) = 2 * C (S k).
Proof. intros H. unfold P2. rewrite tt_right by assumption. field. Qed.

(** evaluation *)
Lemma fold_max_le (l : list R) d B : d <= B -> (forall v, In v l -> v <= B) -> fold_right Rmax d l <= B.
Proof. induction l; intros D H; cbn; [assumption|]. apply Rmax_lub; [apply H; left; reflexivity|apply IHl; [assumption|intros; apply H; right; assumption]]. Qed.
Lemma fold_max_ge (l : list R) d v : In v l -> v <= fold_right Rmax d l.
Proof. induction l; intros H; [contradiction|]. cbn. destruct H as [->|H]; [apply Rmax_l|]. eapply Rle_trans; [apply IHl; assumption|apply Rmax_r]. Qed.
Lemma fold_min_ge (l : list R) d B : B <= d -> (forall v, In v l -> B <= v) -> B <= fold_right Rmin d l.
Proof. induction l; intros D H; cbn; [assumption|]. apply Rmin_glb; [apply H; left; reflexivity|apply IHl; [assumption|intros; apply H; right; assumption]]. Qed.
Lemma fold_min_le (l : list R) d v : In v l -> fold_right Rmin d l <= v.
Proof. induction l; intros H; [contradiction|]. cbn. destruct H as [->|H]; [apply Rmin_l|]. eapply Rle_trans; [apply Rmin_r|apply IHl; assumption]. Qed.
Hypothesis NE : (0 < n)%nat.
Lemma max_last : reduce_max xs = X (n - 1).
Proof.
  unfold reduce_max. pose proof (incr_nondecr xs INC) as ND. apply Rle_antisym.
  - apply fold_max_le; [apply nondecr_le; [assumption|lia|lia]|]. intros v V. apply In_nth with (d := 0) in V as (i & I & <-). apply (nondecr_le xs ND); lia.
  - apply fold_max_ge. apply nth_In. lia.
Qed.
Lemma min_first : reduce_min xs = X 0.
Proof.
  unfold reduce_min. pose proof (incr_nondecr xs INC) as ND. apply Rle_antisym.
  - apply fold_min_le. apply nth_In. lia.
  - apply fold_min_ge; [lra|]. intros v V. apply In_nth with (d := 0) in V as (i & I & <-). apply (nondecr_le xs ND); lia.
Qed.
Variable tpu : bool.
Notation f := (cubic_interpolate tpu (Spline xs ys cs)).
Lemma cubic_inside k x : (S k < n)%nat -> X k <= x < X (S k) -> f x = P k x.
Proof.
  intros H R. pose proof (incr_nondecr xs INC) as ND. unfold cubic_interpolate. cbn [x_data y_data InterpModel.spline_coeffs].
  assert (K : searchsorted_right xs x = S k).
  { apply ssr_unique; [assumption|lia| |].
    - intros j J. pose proof (nondecr_le xs ND j k ltac:(lia) ltac:(lia)). lra.
    - intros j J. pose proof (nondecr_le xs ND (S k) j ltac:(lia) ltac:(lia)). lra. }
  rewrite K. replace (S k - 1)%nat with k by lia. replace (Nat.min (S k) (n - 1)) with (S k) by lia.
  rewrite !get_slice_at by lia. rewrite max_last, min_first.
  pose proof (nondecr_le xs ND (S k) (n - 1) ltac:(lia) ltac:(lia)). pose proof (nondecr_le xs ND 0 k ltac:(lia) ltac:(lia)).
  destruct (Rle_dec x (X (n - 1))) as [?Q|?Q]; [|lra]. destruct (Rle_dec (X 0) x) as [?Q|?Q]; [|lra]. pose proof (dX_pos k H) as D. unfold dX in D.
  destruct (Rlt_dec 0 (X (S k) - X k)) as [?Q|?Q]; [|lra]. reflexivity.
Qed.
Lemma cubic_last x : X (n - 1) <= x -> f x = Y (n - 1).
Proof.
  intros R. pose proof (incr_nondecr xs INC) as ND. unfold cubic_interpolate. cbn [x_data y_data InterpModel.spline_coeffs].
  assert (K : searchsorted_right xs x = n).
  { apply ssr_unique; [assumption|lia| |intros; lia].
    intros j J. pose proof (nondecr_le xs ND j (n - 1) ltac:(lia) ltac:(lia)). lra. }
  rewrite K. replace (Nat.min n (n - 1)) with (n - 1)%nat by lia. rewrite !get_slice_at by lia. rewrite max_last, min_first.
  pose proof (nondecr_le xs ND 0 (n - 1) ltac:(lia) ltac:(lia)).
  destruct (Rlt_dec 0 (X (n - 1) - X (n - 1))) as [?Q|?Q]; [lra|].
  destruct (Rle_dec x (X (n - 1))) as [?Q|?Q]; [destruct (Rle_dec (X 0) x) as [?Q|?Q]; [field|lra]|]. destruct (Rlt_dec (X (n - 1)) x) as [?Q|?Q]; [reflexivity|lra].
Qed.
Lemma cubic_first x : x < X 0 -> f x = Y 0.
Proof.
  intros R. pose proof (incr_nondecr xs INC) as ND. unfold cubic_interpolate. cbn [x_data y_data InterpModel.spline_coeffs].
  assert (K : searchsorted_right xs x = 0%nat).
  { apply ssr_unique; [assumption|lia|intros; lia|].
    intros j J. pose proof (nondecr_le xs ND 0 j ltac:(lia) ltac:(lia)). lra. }
  rewrite K. cbn [Nat.sub Nat.min]. rewrite !get_slice_at by lia. rewrite max_last, min_first.
  pose proof (nondecr_le xs ND 0 (n - 1) ltac:(lia) ltac:(lia)).
  destruct (Rle_dec x (X (n - 1))) as [?Q|?Q]; [|lra]. destruct (Rle_dec (X 0) x) as [?Q|?Q]; [lra|]. destruct (Rlt_dec (X (n - 1)) x) as [?Q|?Q]; [lra|reflexivity].
Qed.
Lemma cubic_closed k x : (S k < n)%nat -> X k <= x <= X (S k) -> f x = P k x.
Proof.
  intros H R. destruct (Req_dec x (X (S k))) as [->|N]; [|apply cubic_inside; [assumption|lra]].
  rewrite P_right by assumption. destruct (Nat.eq_dec (S k) (n - 1)) as [E|E].
  - rewrite E. apply cubic_last. lra.
  - pose proof (INC (S k) ltac:(lia)) as I1. rewrite (cubic_inside (S k)) by (try lia; lra). apply P_left. lia.
Qed.
Lemma cubic_knot k : (k < n)%nat -> f (X k) = Y k.
Proof.
  intros H. destruct (Nat.eq_dec k (n - 1)) as [->|E]; [apply cubic_last; lra|].
  pose proof (INC k ltac:(lia)) as I1. rewrite (cubic_inside k) by (try lia; lra). apply P_left. lia.
Qed.

(** the continuity equations make a spline *)
Lemma spline_from_equations :
  (forall k, (S (S k) < n)%nat -> dX k * C k + 2 * (dX k + dX (S k)) * C (S k) + dX (S k) * C (S (S k)) = 3 * (dD (S k) - dD k)) ->
  cubic_spline xs f P P1 P2.
Proof.
  intros EQ. split.
  - intros k H. split; [apply P_cubic; assumption|]. split; [intros; apply P_derive; assumption|]. split; [intros; apply P1_derive; assumption|].
    intros x R. apply cubic_closed; assumption.
  - intros k H x. subst x. fold (X (S k)). rewrite P_right, P_left, P1_right, P1_left, P2_right, P2_left by lia.
    split; [reflexivity|]. split; [|reflexivity]. specialize (EQ k H). lra.
Qed.
End Pieces.

(** the coefficient vectors *)
Section Coeffs.
Variables (xs ys : list R).
Notation n := (length xs).
Hypothesis INC : incr xs.
Hypothesis LEN : length ys = n.
Hypothesis N2 : (2 <= n)%nat.
Notation dx := (vdiff xs).
Notation dd := (vzip (fun dy dx => if req dx 0 then 0 else dy / dx) (vdiff ys) (vdiff xs)).
Lemma dx_len : length dx = (n - 1)%nat. Proof. apply vdiff_length. Qed.
Lemma dd_len : length dd = (n - 1)%nat. Proof. rewrite vzip_length, !vdiff_length. lia. Qed.
Lemma at_dx k : (S k < n)%nat -> at_ dx k = dX xs k.
Proof. intros H. rewrite at_vdiff by assumption. reflexivity. Qed.
Lemma at_dd k : (S k < n)%nat -> at_ dd k = dD xs ys k.
Proof.
  intros H. rewrite at_vzip by (rewrite vdiff_length; lia). rewrite !at_vdiff by lia.
  pose proof (dX_pos xs INC k H) as D. unfold dD, dX in *. rewrite req_false by lra. reflexivity.
Qed.

Definition rowN (i : nat) : row := (dX xs (S i), 2 * (dX xs i + dX xs (S i)), dX xs i, 3 * (dD xs ys (S i) - dD xs ys i)).
Lemma natural_rows : calculate_spline_coeffs xs ys NATURAL =
  match thomas None (map rowN (seq 0 (n - 2))) with None => None | Some c => Some ([0] ++ c ++ [0]) end.
Proof.
  unfold calculate_spline_coeffs, coeffs_natural, tridiagonal_solve.
  pose proof dx_len as DL. pose proof dd_len as DDL.
  rewrite (list_eq_map (tl dx) (fun i => dX xs (S i)) (n - 2)) by first [rewrite tl_length'; lia | intros i I; rewrite at_tl, at_dx by lia; reflexivity].
  rewrite (list_eq_map (removelast dx) (fun i => dX xs i) (n - 2)) by first [rewrite removelast_length'; lia | intros i I; rewrite at_removelast, at_dx by lia; reflexivity].
  rewrite (list_eq_map (vzip (fun a b => -3 * (a - b)) (removelast dd) (tl dd)) (fun i => 3 * (dD xs ys (S i) - dD xs ys i)) (n - 2)).
  2:{ rewrite vzip_length, tl_length', removelast_length'. lia. }
  2:{ intros i I. rewrite at_vzip by (rewrite ?tl_length', ?removelast_length'; lia). rewrite at_tl, at_removelast, !at_dd by lia. ring. }
  rewrite (list_eq_map (vzip (fun a b => 2 * (a - b)) (skipn 2 xs) (firstn (n - 2) xs)) (fun i => 2 * (dX xs i + dX xs (S i))) (n - 2)).
  2:{ rewrite vzip_length, skipn_length, firstn_length. lia. }
  2:{ intros i I. rewrite at_vzip by (rewrite ?skipn_length, ?firstn_length; lia). rewrite at_skipn, at_firstn by lia. unfold dX. cbn [Nat.add]. ring. }
  unfold vzip. rewrite !combine_maps, !map_map, !combine_maps, !map_map, !combine_maps.
  match goal with |- match thomas None ?a with _ => _ end = match thomas None ?b with _ => _ end => replace a with b; [reflexivity|] end.
  apply map_seq_ext. intros i I. pose proof (dX_pos xs INC i ltac:(lia)). pose proof (dX_pos xs INC (S i) ltac:(lia)).
  rewrite !req_false by lra. reflexivity.
Qed.
Lemma natural_coeffs : exists c, calculate_spline_coeffs xs ys NATURAL = Some c /\ length c = n /\ at_ c 0 = 0 /\ at_ c (n - 1) = 0 /\
  (forall k, (S (S k) < n)%nat -> dX xs k * at_ c k + 2 * (dX xs k + dX xs (S k)) * at_ c (S k) + dX xs (S k) * at_ c (S (S k)) = 3 * (dD xs ys (S k) - dD xs ys k)) /\
  ((forall k, (S (S k) < n)%nat -> dD xs ys (S k) = dD xs ys k) -> forall i, at_ c i = 0).
Proof.
  rewrite natural_rows. destruct (thomas_defined (map rowN (seq 0 (n - 2))) None) as (sol & T); [|exact I|].
  { apply Forall_forall. intros r R. apply in_map_iff in R as (i & <- & I). apply in_seq in I.
    pose proof (dX_pos xs INC i ltac:(lia)). pose proof (dX_pos xs INC (S i) ltac:(lia)). cbn. rewrite !Rabs_pos_eq by lra. lra. }
  rewrite T. eexists. split; [reflexivity|]. pose proof (thomas_sat _ _ _ T) as SAT. pose proof (tri_sat_len _ _ _ SAT) as LS. rewrite map_length, seq_length in LS.
  split; [rewrite !app_length; cbn; lia|]. split; [reflexivity|].
  assert (CS : forall i, at_ ([0] ++ sol ++ [0]) (S i) = at_ sol i).
  { intros i. cbn [app]. rewrite at_cons. destruct (Nat.lt_ge_cases i (length sol)) as [H|H]; [apply at_app1; assumption|].
    rewrite at_app2 by assumption. unfold at_. rewrite (nth_overflow sol) by assumption. destruct (i - length sol)%nat as [|[|q]]; reflexivity. }
  split.
  { replace (n - 1)%nat with (S (n - 2)) by lia. rewrite CS. apply nth_overflow. lia. }
  split.
  - intros k K. pose proof (tri_sat_at _ _ _ _ _ 0 0 sol SAT k ltac:(lia)) as E. cbn [Nat.add] in E.
    rewrite !CS. rewrite <- E. f_equal. f_equal. f_equal. destruct k; [reflexivity|]. apply CS.
  - intros Z. assert (F : Forall (fun s => s = 0) sol).
    { refine (thomas_zero _ None sol _ I T). apply Forall_forall. intros r R. apply in_map_iff in R as (i & <- & I). apply in_seq in I.
      cbn. rewrite Z by lia. ring. }
    intros [|i]; [reflexivity|]. rewrite CS. destruct (Nat.lt_ge_cases i (length sol)) as [H|H]; [|apply nth_overflow; assumption].
    rewrite Forall_forall in F. apply F. apply nth_In. assumption.
Qed.

(** prescribed end slopes *)
Definition rhsC (l r : R) (i : nat) : R :=
  if Nat.eqb i 0 then 3 * (dD xs ys 0 - l)
  else if req (dD xs ys (i - 1)) 0 then 0
  else if Nat.eqb i (n - 1) then -3 * (dD xs ys (i - 1) - r) else 3 * (dD xs ys i - dD xs ys (i - 1)).
Definition rowC (l r : R) (i : nat) : row :=
  (if Nat.eqb i (n - 1) then 0 else dX xs i,
   if Nat.eqb i 0 then 2 * dX xs 0 else if Nat.eqb i (n - 1) then 2 * dX xs (i - 1) else 2 * (dX xs (i - 1) + dX xs i),
   if Nat.eqb i 0 then 0 else dX xs (i - 1),
   rhsC l r i).
Lemma at_triple (a : R) (m : list R) (b : R) i : (i < S (S (length m)))%nat -> at_ ([a] ++ m ++ [b]) i =
  if Nat.eqb i 0 then a else if Nat.eqb i (S (length m)) then b else at_ m (i - 1).
Proof.
  intros H. destruct i; [reflexivity|]. cbn [app Nat.eqb]. rewrite at_cons. replace (S i - 1)%nat with i by lia. destruct (Nat.eqb_spec i (length m)) as [->|E].
  - rewrite at_app2 by lia. rewrite Nat.sub_diag. reflexivity.
  - apply at_app1. lia.
Qed.
Lemma clamped_rows l r :
  coeffs_clamped dx dd (tl dx) (removelast dx) (vzip (fun a b => 2 * (a - b)) (skipn 2 xs) (firstn (n - 2) xs))
    (vzip (fun a b => -3 * (a - b)) (removelast dd) (tl dd)) l r = thomas None (map (rowC l r) (seq 0 n)).
Proof.
  unfold coeffs_clamped, tridiagonal_solve. pose proof dx_len as DL. pose proof dd_len as DDL.
  set (diag := vzip (fun a b => 2 * (a - b)) (skipn 2 xs) (firstn (n - 2) xs)).
  assert (LD : length diag = (n - 2)%nat) by (unfold diag; rewrite vzip_length, skipn_length, firstn_length; lia).
  assert (AD : forall i, (i < n - 2)%nat -> at_ diag i = 2 * (dX xs i + dX xs (S i))).
  { intros i I. unfold diag. rewrite at_vzip by (rewrite ?skipn_length, ?firstn_length; lia). rewrite at_skipn, at_firstn by lia. unfold dX. cbn [Nat.add]. ring. }
  set (rhs := vzip (fun a b => -3 * (a - b)) (removelast dd) (tl dd)).
  assert (LR : length rhs = (n - 2)%nat) by (unfold rhs; rewrite vzip_length, tl_length', removelast_length'; lia).
  assert (AR : forall i, (i < n - 2)%nat -> at_ rhs i = 3 * (dD xs ys (S i) - dD xs ys i)).
  { intros i I. unfold rhs. rewrite at_vzip by (rewrite ?tl_length', ?removelast_length'; lia). rewrite at_tl, at_removelast, !at_dd by lia. ring. }
  assert (LT : length (tl dx) = (n - 2)%nat) by (rewrite tl_length'; lia).
  assert (LRM : length (removelast dx) = (n - 2)%nat) by (rewrite removelast_length'; lia).
  clearbody diag rhs.
  rewrite (list_eq_map ([2 * at_ dx 0] ++ diag ++ [0]) (fun i => if Nat.eqb i 0 then 2 * dX xs 0 else if Nat.eqb i (n - 1) then 0 else 2 * (dX xs (i - 1) + dX xs i)) n).
  2:{ rewrite !app_length. cbn. lia. }
  2:{ intros i I. rewrite at_triple by lia. rewrite at_dx by lia. destruct (Nat.eqb_spec i 0) as [?Q|?Q]; [reflexivity|]. replace (S (length diag)) with (n - 1)%nat by lia.
      destruct (Nat.eqb_spec i (n - 1)) as [?Q|?Q]; [reflexivity|]. rewrite AD by lia. replace (S (i - 1)) with i by lia. reflexivity. }
  rewrite (list_eq_map ([at_ dx 0] ++ tl dx ++ [0]) (fun i => if Nat.eqb i (n - 1) then 0 else dX xs i) n).
  2:{ rewrite !app_length. cbn. lia. }
  2:{ intros i I. rewrite at_triple by lia. rewrite at_dx by lia. replace (S (length (tl dx))) with (n - 1)%nat by lia. destruct (Nat.eqb_spec i 0) as [->|?Q].
      - destruct (Nat.eqb_spec 0 (n - 1)) as [?Q|?Q]; [lia|reflexivity].
      - destruct (Nat.eqb_spec i (n - 1)) as [?Q|?Q]; [reflexivity|]. rewrite at_tl, at_dx by lia. f_equal. lia. }
  rewrite (list_eq_map ([0] ++ removelast dx ++ [at_ dx (length dx - 1)]) (fun i => if Nat.eqb i 0 then 0 else dX xs (i - 1)) n).
  2:{ rewrite !app_length. cbn. lia. }
  2:{ intros i I. rewrite at_triple by lia. rewrite at_dx by lia. replace (S (length (removelast dx))) with (n - 1)%nat by lia. destruct (Nat.eqb_spec i 0) as [->|?Q]; [reflexivity|].
      destruct (Nat.eqb_spec i (n - 1)) as [?Q|?Q]; [f_equal; lia|]. rewrite at_removelast, at_dx by lia. reflexivity. }
  assert (LP : length ([1] ++ dx ++ [0]) = S n) by (rewrite !app_length; cbn; lia).
  rewrite (list_eq_map (tl ([1] ++ dx ++ [0])) (fun i => if Nat.eqb i (n - 1) then 0 else dX xs i) n).
  2:{ rewrite tl_length'. lia. }
  2:{ intros i I. rewrite at_tl, at_triple by lia. cbn [Nat.eqb]. replace (length dx) with (n - 1)%nat by lia. destruct (Nat.eqb_spec i (n - 1)) as [?Q|?Q]; [reflexivity|].
      rewrite at_dx by lia. f_equal. lia. }
  rewrite (list_eq_map (removelast ([1] ++ dx ++ [0])) (fun i => if Nat.eqb i 0 then 1 else dX xs (i - 1)) n).
  2:{ rewrite removelast_length'. lia. }
  2:{ intros i I. rewrite at_removelast by lia. rewrite at_triple by lia. destruct (Nat.eqb_spec i 0) as [?Q|?Q]; [reflexivity|].
      destruct (Nat.eqb_spec i (S (length dx))) as [?Q|?Q]; [lia|]. rewrite at_dx by lia. reflexivity. }
  rewrite (list_eq_map ([3 * (at_ dd 0 - l)] ++ rhs ++ [0]) (fun i => if Nat.eqb i 0 then 3 * (dD xs ys 0 - l) else if Nat.eqb i (n - 1) then 0 else 3 * (dD xs ys i - dD xs ys (i - 1))) n).
  2:{ rewrite !app_length. cbn. lia. }
  2:{ intros i I. rewrite at_triple by lia. rewrite at_dd by lia. destruct (Nat.eqb_spec i 0) as [?Q|?Q]; [reflexivity|]. replace (S (length rhs)) with (n - 1)%nat by lia.
      destruct (Nat.eqb_spec i (n - 1)) as [?Q|?Q]; [reflexivity|]. rewrite AR by lia. replace (S (i - 1)) with i by lia. reflexivity. }
  rewrite (list_eq_map ([1] ++ dd) (fun i => if Nat.eqb i 0 then 1 else dD xs ys (i - 1)) n).
  2:{ rewrite app_length. cbn [length]. lia. }
  2:{ intros i I. destruct i; [reflexivity|]. cbn [app]. rewrite at_cons, at_dd by lia. cbn [Nat.eqb]. f_equal. lia. }
  unfold vzip. rewrite !map_map. rewrite !combine_maps, !map_map, !combine_maps, !map_map, !combine_maps, !map_map, !combine_maps.
  f_equal. apply map_seq_ext. intros i I. unfold rowC, rhsC.
  assert (Z : req 0 0 = true) by (unfold req; destruct (Req_EM_T 0 0); [reflexivity|contradiction]).
  assert (Z1 : req 1 0 = false) by (apply req_false; lra).
  destruct (Nat.eqb_spec i 0) as [->|E0].
  - destruct (Nat.eqb_spec 0 (n - 1)) as [|E1]; [lia|]. rewrite Z1. pose proof (dX_pos xs INC 0 ltac:(lia)). rewrite (req_false (dX xs 0)) by lra. reflexivity.
  - pose proof (dX_pos xs INC (i - 1) ltac:(lia)). rewrite !(req_false (dX xs (i - 1))) by lra. destruct (Nat.eqb_spec i (n - 1)) as [E1|E1].
    + rewrite Z. cbn [andb negb]. reflexivity.
    + pose proof (dX_pos xs INC i ltac:(lia)). rewrite (req_false (dX xs i)) by lra. cbn [andb negb]. reflexivity.
Qed.
Lemma clamped_coeffs l r : exists c, thomas None (map (rowC l r) (seq 0 n)) = Some c /\ length c = n /\
  (2 * dX xs 0 * at_ c 0 + dX xs 0 * at_ c 1 = rhsC l r 0) /\
  (dX xs (n - 2) * at_ c (n - 2) + 2 * dX xs (n - 2) * at_ c (n - 1) = rhsC l r (n - 1)) /\
  (forall k, (S (S k) < n)%nat -> dX xs k * at_ c k + 2 * (dX xs k + dX xs (S k)) * at_ c (S k) + dX xs (S k) * at_ c (S (S k)) = rhsC l r (S k)) /\
  ((forall i, (i < n)%nat -> rhsC l r i = 0) -> forall i, at_ c i = 0).
Proof.
  destruct (thomas_defined (map (rowC l r) (seq 0 n)) None) as (sol & T); [|exact I|].
  { apply Forall_forall. intros q R. apply in_map_iff in R as (i & <- & I). apply in_seq in I. unfold rowC, dominant.
    destruct (Nat.eqb_spec i 0) as [->|E0].
    - destruct (Nat.eqb_spec 0 (n - 1)) as [?Q|?Q]; [lia|]. pose proof (dX_pos xs INC 0 ltac:(lia)). rewrite Rabs_R0, !Rabs_pos_eq by lra. lra.
    - pose proof (dX_pos xs INC (i - 1) ltac:(lia)). destruct (Nat.eqb_spec i (n - 1)) as [?Q|?Q].
      + rewrite Rabs_R0, !Rabs_pos_eq by lra. lra.
      + pose proof (dX_pos xs INC i ltac:(lia)). rewrite !Rabs_pos_eq by lra. lra. }
  exists sol. split; [assumption|]. pose proof (thomas_sat _ _ _ T) as SAT. pose proof (tri_sat_len _ _ _ SAT) as LS. rewrite map_length, seq_length in LS.
  split; [assumption|].
  pose proof (tri_sat_at (fun i => if Nat.eqb i (n - 1) then 0 else dX xs i)
     (fun i => if Nat.eqb i 0 then 2 * dX xs 0 else if Nat.eqb i (n - 1) then 2 * dX xs (i - 1) else 2 * (dX xs (i - 1) + dX xs i))
     (fun i => if Nat.eqb i 0 then 0 else dX xs (i - 1)) (rhsC l r) n 0 0 sol SAT) as E. cbn [Nat.add] in E.
  split; [|split; [|split]].
  - specialize (E 0%nat ltac:(lia)). replace (Nat.eqb 0 (n - 1)) with false in E by (symmetry; apply Nat.eqb_neq; lia). cbn [Nat.eqb] in E. rewrite <- E. ring.
  - specialize (E (n - 1)%nat ltac:(lia)). rewrite Nat.eqb_refl in E. replace (Nat.eqb (n - 1) 0) with false in E by (symmetry; apply Nat.eqb_neq; lia).
    rewrite <- E. replace (n - 1 - 1)%nat with (n - 2)%nat by lia. destruct (n - 1)%nat as [|m] eqn:M; [lia|]. replace (n - 2)%nat with m by lia. ring.
  - intros k K. specialize (E (S k) ltac:(lia)). replace (Nat.eqb (S k) (n - 1)) with false in E by (symmetry; apply Nat.eqb_neq; lia). cbn [Nat.eqb] in E.
    replace (S k - 1)%nat with k in E by lia. assumption.
  - intros Z. assert (F : Forall (fun s => s = 0) sol).
    { refine (thomas_zero _ None sol _ I T). apply Forall_forall. intros q R. apply in_map_iff in R as (i & <- & I). apply in_seq in I.
      unfold rowC. apply Z. lia. }
    intros i. destruct (Nat.lt_ge_cases i (length sol)) as [H|H]; [|apply nth_overflow; assumption].
    rewrite Forall_forall in F. apply F. apply nth_In. assumption.
Qed.
End Coeffs.
