(** Lemmas for the exact sampling of geometric Brownian motions. *)
From Coquelicot Require Import Coquelicot.
From Coq Require Import Reals QArith ZArith List Bool Arith Lia Lra.
From Verif Require Import ExtReal HaganWestModel BootstrapModel BlackScholesModel BlackScholesSpec BlackScholesProofs GaussConv TensorModel TensorProofs PiecewiseModel PiecewiseProofs PropsPiecewise.
From Verif Require Import AsianSpec MvNormalModel MvNormalSpec MvNormalProofs GbmModel GbmSpec GbmProofs.
Import ListNotations.
Open Scope nat_scope.

(** * Finite sums *)
Lemma st_scal n k f : (k * sum_to n f = sum_to n (fun i => k * f i))%R.
Proof. induction n as [|n IH]; cbn [sum_to]; [ring|]. rewrite <- IH. ring. Qed.
Lemma st_plus n f g : (sum_to n (fun i => f i + g i) = sum_to n f + sum_to n g)%R.
Proof. induction n as [|n IH]; cbn [sum_to]; [ring|]. rewrite IH. ring. Qed.
Lemma st_zero n : sum_to n (fun _ => 0%R) = 0%R.
Proof. induction n as [|n IH]; cbn [sum_to]; [reflexivity|]. rewrite IH. ring. Qed.
Lemma st_swap n m (f : nat -> nat -> R) : sum_to n (fun i => sum_to m (fun j => f i j)) = sum_to m (fun j => sum_to n (fun i => f i j)).
Proof. induction n as [|n IH]; cbn [sum_to]; [symmetry; apply st_zero|]. rewrite IH, <- st_plus. reflexivity. Qed.
Lemma st_prod n m f g : (sum_to n f * sum_to m g = sum_to n (fun i => sum_to m (fun j => f i * g j)))%R.
Proof. rewrite Rmult_comm, st_scal. apply sum_to_ext. intros i _. rewrite Rmult_comm, st_scal. reflexivity. Qed.
(** sums over pairs, numbered row by row *)
Lemma st_pairs n d (f : nat -> nat -> R) : 0 < d -> sum_to (n * d) (fun p => f (p / d) (p mod d)) = sum_to n (fun i => sum_to d (f i)).
Proof.
  intros D. induction n as [|n IH]; [reflexivity|]. cbn [sum_to]. rewrite <- IH. replace (S n * d) with (n * d + d) by lia.
  assert (G : forall e, e <= d -> sum_to (n * d + e) (fun p => f (p / d) (p mod d)) = Rplus (sum_to (n * d) (fun p => f (p / d) (p mod d))) (sum_to e (f n))).
  { induction e as [|e IHe]; intros H; [rewrite Nat.add_0_r; cbn; ring|]. replace (n * d + S e) with (S (n * d + e)) by lia. cbn [sum_to]. rewrite IHe by lia.
    replace ((n * d + e) / d) with n by (rewrite Nat.add_comm, Nat.div_add, Nat.div_small; lia). replace ((n * d + e) mod d) with e by (rewrite Nat.add_comm, Nat.mod_add, Nat.mod_small; lia). ring. }
  apply G. lia.
Qed.
(** sums cut off *)
Lemma st_cut n m f : m <= n -> sum_to n (fun j => if Nat.ltb j m then f j else 0%R) = sum_to m f.
Proof.
  induction n as [|n IH]; intros H; [replace m with 0 by lia; reflexivity|]. destruct (Nat.eq_dec m (S n)) as [->|E].
  - apply sum_to_ext. intros k K. apply Nat.ltb_lt in K. rewrite K. reflexivity.
  - cbn [sum_to]. rewrite IH by lia. destruct (Nat.ltb_spec n m); [lia|ring].
Qed.
Lemma st_telescope n (B : nat -> R) : sum_to n (fun j => B (S j) - B j)%R = (B n - B O)%R.
Proof. induction n as [|n IH]; cbn [sum_to]; [ring|]. rewrite IH. ring. Qed.

(** Linear combinations of independent standard normal variables are jointly
    normal. *)
Lemma linear_normal K P (Y : nat -> list R -> R) (m : nat -> R) (c : nat -> nat -> R) (C : nat -> nat -> R) :
  (forall p z, p < P -> Y p z = (m p + sum_to K (fun k => c p k * coord z k))%R) ->
  (forall p q, p < P -> q < P -> C p q = sum_to K (fun k => c p k * c q k)%R) -> jointly_normal K P Y m C.
Proof.
  intros HY HC u.
  assert (E : (sum_to P (fun p => sum_to P (fun q => u p * u q * C p q)) = sum_to K (fun k => sum_to P (fun p => u p * c p k) ^ 2))%R).
  { transitivity (sum_to P (fun p => sum_to P (fun q => sum_to K (fun k => (u p * c p k) * (u q * c q k))))%R).
    - apply sum_to_ext. intros p Hp. apply sum_to_ext. intros q Hq. rewrite HC by assumption. rewrite st_scal. apply sum_to_ext. intros k _. ring.
    - transitivity (sum_to P (fun p => sum_to K (fun k => sum_to P (fun q => (u p * c p k) * (u q * c q k))))%R); [apply sum_to_ext; intros p _; apply st_swap|].
      rewrite st_swap. apply sum_to_ext. intros k _. rewrite <- st_prod. ring. }
  rewrite E. apply (iid_ext K (fun z => exp (sum_to P (fun p => u p * m p) + sum_to K (fun k => sum_to P (fun p => u p * c p k) * coord z k)))%R); [|apply (iid_exp K _ (fun k => sum_to P (fun p => u p * c p k))%R)].
  intros z. f_equal. transitivity (sum_to P (fun p => u p * m p + u p * sum_to K (fun k => c p k * coord z k)))%R.
  - rewrite st_plus. f_equal. transitivity (sum_to K (fun k => sum_to P (fun p => u p * c p k * coord z k)))%R.
    + apply sum_to_ext. intros k _. rewrite Rmult_comm, st_scal. apply sum_to_ext. intros; ring.
    + rewrite st_swap. apply sum_to_ext. intros p _. rewrite st_scal. apply sum_to_ext. intros; ring.
  - apply sum_to_ext. intros p Hp. rewrite HY by exact Hp. ring.
Qed.

(** * Integrals of the parameters *)
Definition param_ok (p : param) : Prop := match p with Const _ => True | Piecewise f => exists j v, pw_ok j v f /\ j <> [] end.
Lemma param_integral p a b : param_ok p -> is_RInt (param_at p) a b (integrate_parameter p a b).
Proof.
  destruct p as [c|f]; cbn [param_ok param_at integrate_parameter].
  - intros _. replace (c * (b - a))%R with (scal (b - a)%R c) by (unfold scal; cbn; unfold mult; cbn; ring). apply (is_RInt_const (V := R_NormedModule)).
  - intros (j & v & OK & NE). apply (C21_integrate_exact j v f a b OK NE).
Qed.
Lemma square_ok p : param_ok p -> param_ok (volatility_squared p) /\ forall t, param_at (volatility_squared p) t = (param_at p t ^ 2)%R.
Proof.
  destruct p as [c|f]; cbn [param_ok param_at volatility_squared]; [split; [exact Logic.I|reflexivity]|].
  intros (j & v & OK & NE). apply pw_ok_inv in OK as (-> & L & N). cbn [jumps pvalues]. split.
  - exists j, (map (fun x => x ^ 2)%R v). split; [|exact NE]. split; [|exact N]. unfold pw_make. rewrite map_length, L, Nat.eqb_refl. reflexivity.
  - intros t. unfold pw_call. cbn [jumps pvalues]. unfold at_. replace 0%R with (0 ^ 2)%R at 1 by ring. apply (map_nth (fun x => x ^ 2)%R).
Qed.
Section Increments.
  Variables (p : param) (times : list R) (A : nat -> R).
  Hypothesis OK : param_ok p.
  Hypothesis INT : integrals (param_at p) times A.
  Let T i := nth i (0%R :: times) 0%R.
  Lemma increment i : i < length times -> integrate_parameter p (T i) (T (S i)) = (A (S i) - A i)%R.
  Proof.
    intros L. pose proof (INT i ltac:(lia)) as H0. pose proof (INT (S i) ltac:(lia)) as H1. fold (T i) in H0. fold (T (S i)) in H1.
    pose proof (is_RInt_Chasles _ _ _ _ _ _ H0 (param_integral p (T i) (T (S i)) OK)) as H2.
    apply (is_RInt_unique (V := R_CompleteNormedModule)) in H1. apply (is_RInt_unique (V := R_CompleteNormedModule)) in H2. rewrite H1 in H2. match type of H2 with _ = ?d => change d with (A i + integrate_parameter p (T i) (T (S i)))%R in H2 end. lra.
  Qed.
  Lemma start : A 0 = 0%R.
  Proof. pose proof (INT 0 ltac:(lia)) as H. cbn [nth] in H. apply (is_RInt_unique (V := R_CompleteNormedModule)) in H. rewrite <- H. exact (RInt_point (V := R_CompleteNormedModule) 0%R (param_at p)). Qed.
End Increments.
Lemma in_order_nth times : forall prev, in_order prev times -> forall i, i < length times -> (nth i (prev :: times) 0 <= nth (S i) (prev :: times) 0)%R.
Proof.
  induction times as [|t l IH]; intros prev H i L; [cbn in L; lia|]. destruct H as (H & H'). destruct i as [|i]; [exact H|]. apply (IH t H' i). cbn in L. lia.
Qed.
Lemma variance_grows v times B : param_ok v -> in_order 0 times -> integrals (fun t => param_at v t ^ 2)%R times B ->
  forall i, i < length times -> (0 <= B (S i) - B i)%R.
Proof.
  intros OK O INT i L. destruct (square_ok v OK) as (OK2 & SQ).
  assert (INT2 : integrals (param_at (volatility_squared v)) times B).
  { intros k K. apply (is_RInt_ext (V := R_NormedModule) (fun t => param_at v t ^ 2)%R); [intros t _; symmetry; apply SQ|apply INT, K]. }
  rewrite <- (increment _ times B OK2 INT2 i L). apply (is_RInt_ge_0 (param_at (volatility_squared v)) (nth i (0%R :: times) 0%R) (nth (S i) (0%R :: times) 0%R)).
  - apply (in_order_nth times 0%R O i L).
  - apply param_integral, OK2.
  - intros t _. rewrite SQ. apply pow2_ge_0.
Qed.
Lemma nth_combine {X Y} (a : list X) (b : list Y) i x y : length a = length b -> nth i (combine a b) (x, y) = (nth i a x, nth i b y).
Proof. intros H. apply combine_nth, H. Qed.
Lemma removelast_len {X} (x : X) l : length (removelast (x :: l)) = length l.
Proof. revert x. induction l as [|y l IH]; intros x; [reflexivity|]. change (removelast (x :: y :: l)) with (x :: removelast (y :: l)). cbn [length]. rewrite IH. reflexivity. Qed.
Lemma removelast_nth (x : R) l i : i < length l -> nth i (removelast (x :: l)) 0%R = nth i (x :: l) 0%R.
Proof.
  revert x i. induction l as [|y l IH]; intros x i H; [cbn in H; lia|]. change (removelast (x :: y :: l)) with (x :: removelast (y :: l)). destruct i as [|i]; [reflexivity|]. cbn [nth]. cbn in H. rewrite IH by lia. reflexivity.
Qed.
Lemma xsqrt_fin v : (0 <= v)%R -> xsqrt (Fin v) = Fin (sqrt v).
Proof. intros H. cbn. unfold BrentModel.rlt. destruct (Rlt_dec v 0); [lra|reflexivity]. Qed.

(** * One path *)
Lemma gbm_path_value p times x0 z (y : nat -> R) A B i : param_ok (gbm_mean p) -> param_ok (gbm_volatility p) -> in_order 0 times ->
  integrals (param_at (gbm_mean p)) times A -> integrals (fun t => param_at (gbm_volatility p) t ^ 2)%R times B ->
  (forall j, j < length times -> nth j z NaN = Fin (y j)) -> length z = length times -> i < length times ->
  length (gbm_path p times x0 z) = length times /\
  nth i (gbm_path p times x0 z) NaN = Fin (gbm_value x0 A B y i).
Proof.
  intros OM OV O IA IB FZ LZ L. unfold gbm_path. cbv zeta.
  destruct (square_ok _ OV) as (OV2 & SQ). set (v2 := volatility_squared (gbm_volatility p)) in *.
  assert (IB2 : integrals (param_at v2) times B).
  { intros k K. apply (is_RInt_ext (V := R_NormedModule) (fun t => param_at (gbm_volatility p) t ^ 2)%R); [intros t _; symmetry; apply SQ|apply IB, K]. }
  set (steps := combine (removelast (0%R :: times)) times).
  assert (LS : length steps = length times) by (unfold steps; rewrite combine_length, removelast_len; lia).
  set (mi := map _ steps). set (vi := map (fun '(t0, t1) => integrate_parameter v2 t0 t1) steps).
  assert (LM : length mi = length times) by (unfold mi; rewrite map_length; exact LS). assert (LV : length vi = length times) by (unfold vi; rewrite map_length; exact LS).
  set (incs := map _ (combine (combine mi vi) z)).
  assert (LI : length incs = length times) by (unfold incs; rewrite map_length, !combine_length, LM, LV, LZ; lia).
  assert (ST : forall j, j < length times -> nth j steps (0, 0)%R = (nth j (0%R :: times) 0%R, nth (S j) (0%R :: times) 0%R)).
  { intros j J. unfold steps. rewrite nth_combine by apply removelast_len. rewrite removelast_nth by exact J. reflexivity. }
  assert (MI : forall j, j < length times -> nth j mi 0%R = (A (S j) - A j)%R).
  { intros j J. unfold mi. rewrite (nth_indep _ 0%R (integrate_parameter (gbm_mean p) 0 0)) by (rewrite map_length, LS; exact J).
    rewrite (map_nth (fun '(t0, t1) => integrate_parameter (gbm_mean p) t0 t1) steps (0, 0)%R), ST by exact J. apply increment; assumption. }
  assert (VI : forall j, j < length times -> nth j vi 0%R = (B (S j) - B j)%R).
  { intros j J. unfold vi. rewrite (nth_indep _ 0%R (integrate_parameter v2 0 0)) by (rewrite map_length, LS; exact J).
    rewrite (map_nth (fun '(t0, t1) => integrate_parameter v2 t0 t1) steps (0, 0)%R), ST by exact J. apply increment; assumption. }
  assert (IC : forall j, j < length times -> nth j incs NaN = Fin ((A (S j) - A j) - (B (S j) - B j) / 2 + sqrt (B (S j) - B j) * y j)).
  { intros j J. unfold incs. set (F := fun _ => _). rewrite (nth_indep _ NaN (F ((0, 0)%R, NaN))) by (rewrite map_length, !combine_length, LM, LV, LZ; lia).
    rewrite (map_nth F). rewrite nth_combine by (rewrite combine_length, LM, LV, LZ; lia). rewrite nth_combine by congruence. rewrite MI, VI, FZ by exact J. unfold F.
    rewrite xsqrt_fin by (apply (variance_grows (gbm_volatility p) times B OV O IB j J)). unfold xsub. cbn [xadd xopp xmul xdiv]. unfold InterpModel.req. destruct (Req_EM_T 2 0); [lra|]. cbn [xadd xopp]. reflexivity. }
  split; [rewrite map_length, cumsum_length; exact LI|].
  rewrite (nth_indep _ NaN (Fin x0 *x xexp NaN)) by (rewrite map_length, cumsum_length, LI; exact L). rewrite (map_nth (fun c => Fin x0 *x xexp c)).
  rewrite (cumsum_fin incs (fun j => (A (S j) - A j) - (B (S j) - B j) / 2 + sqrt (B (S j) - B j) * y j)%R) by (try rewrite LI; assumption).
  cbn [xexp xmul]. unfold gbm_value. f_equal. f_equal. f_equal. rewrite st_plus. f_equal.
  rewrite (sum_to_ext _ _ (fun j => (A (S j) - B (S j) / 2) - (A j - B j / 2))%R) by (intros; field). rewrite (st_telescope (S i) (fun j => A j - B j / 2)%R).
  rewrite (start _ times A IA), (start _ times B IB2). field.
Qed.

(** * The law of a path *)
Lemma gbm_law k A B x0 : (x0 <> 0)%R -> B 0 = 0%R -> (forall i, i < k -> (0 <= B (S i) - B i)%R) ->
  jointly_normal k k (fun i z => ln (gbm_value x0 A B (coord z) i / x0)) (fun i => A (S i) - B (S i) / 2)%R (fun i j => B (S (Nat.min i j))).
Proof.
  intros X0 B0 G. apply (linear_normal k k _ _ (fun i j => if Nat.ltb j (S i) then sqrt (B (S j) - B j) else 0)%R).
  - intros i z I0. unfold gbm_value. replace (x0 * exp (A (S i) - B (S i) / 2 + sum_to (S i) (fun j => sqrt (B (S j) - B j) * coord z j)) / x0)%R with (exp (A (S i) - B (S i) / 2 + sum_to (S i) (fun j => sqrt (B (S j) - B j) * coord z j)))%R by (field; exact X0).
    rewrite ln_exp. f_equal. rewrite <- (st_cut k (S i)) by lia. apply sum_to_ext. intros j _. destruct (Nat.ltb j (S i)); ring.
  - intros i j Hi Hj. transitivity (sum_to k (fun l => if Nat.ltb l (S (Nat.min i j)) then B (S l) - B l else 0)%R).
    + rewrite st_cut by lia. rewrite st_telescope, B0. ring.
    + apply sum_to_ext. intros l Hl. destruct (Nat.ltb_spec l (S i)), (Nat.ltb_spec l (S j)), (Nat.ltb_spec l (S (Nat.min i j))); try lia; try ring.
      symmetry. apply sqrt_sqrt. apply G, Hl.
Qed.
