(** C97: the Brownian motion of models/legacy. *)
From Coquelicot Require Import Coquelicot.
From Coq Require Import Reals Lra Lia Psatz ZArith List Bool Arith.
From Verif Require Import ExtReal HaganWestModel HaganWestProofs BootstrapModel BrentModel TensorModel TensorProofs BoundedCalModel TimeGridModel TimeGridProofs BlackScholesSpec BlackScholesProofs AsianSpec MvNormalModel MvNormalSpec MvNormalProofs PropsMvNormal GbmSpec GbmProofs GbmProofs2 LegacyBmModel LegacyBmSpec LegacyBmProofs.
Import ListNotations.
Open Scope R_scope.

(** The coefficients that the documentation promises. *)
Definition promised_drift (dr : option drift_arg) (t : R) (i : nat) : R :=
  match dr with None => 0 | Some (DScalar a) => a | Some (DVector a) => a i | Some (DCallable f) => f t i end.
Definition promised_volatility (vol : option vol_arg) (t : R) (i j : nat) : R :=
  match vol with
  | None => if Nat.eqb i j then 1 else 0
  | Some (VScalar v) => if Nat.eqb i j then v else 0
  | Some (VVector v) => if Nat.eqb i j then v i else 0
  | Some (VMatrix m) => m i j
  | Some (VCallable f) => f t i j
  end.
Definition drift_callable (dr : option drift_arg) : Prop := match dr with Some (DCallable _) => True | _ => False end.
Definition vol_callable (vol : option vol_arg) : Prop := match vol with Some (VCallable _) => True | _ => False end.

(** Which arguments are refused. *)
Theorem C97_refused dim dr vol td tc : brownian_motion dim dr vol td tc = None <-> (dim = 0%nat \/ (dr = None /\ td <> None) \/ (vol = None /\ tc <> None)).
Proof.
  unfold brownian_motion. destruct dim as [|dim]; [split; [left; reflexivity|reflexivity]|]. change (Nat.ltb (S dim) 1) with false. cbv iota.
  assert (N : forall (A : Type) (x : A), Some x <> None) by discriminate.
  destruct dr as [dr|], td as [td|], vol as [vol|], tc as [tc|]; try destruct dr; try destruct vol;
    (split; [cbn; intros E; try discriminate E; (right; left; split; [reflexivity|apply N]) || (right; right; split; [reflexivity|apply N])
            |intros [E|[(E & E')|(E & E')]]; try discriminate E; try congruence; reflexivity]).
Qed.
(** Drift and volatility are as promised, except for the default volatility. *)
Theorem C97_coefficients_partial dim dr vol td tc p : brownian_motion dim dr vol td tc = Some p ->
  p_dim p = dim /\ (forall t i, p_drift p t i = promised_drift dr t i) /\
  (vol <> None \/ dim = 1%nat -> forall t i j, (i < dim)%nat -> (j < dim)%nat -> p_vol p t i j = promised_volatility vol t i j).
Proof.
  unfold brownian_motion. destruct (Nat.ltb dim 1); [discriminate|].
  destruct dr as [[]|], td as [td|]; try discriminate; destruct vol as [[]|], tc as [tc|]; try discriminate; cbn; intros E; injection E as <-; cbn;
    (split; [reflexivity|split; [reflexivity|]]); intros [V|V]; try congruence; intros t i j I1 J1; try reflexivity; unfold eye; destruct (Nat.eqb_spec i j); try ring; lia.
Qed.
Lemma rsum_sum_to f n : rsum f n = sum_to n f.
Proof. induction n as [|n IH]; cbn; [reflexivity|]. rewrite IH. reflexivity. Qed.
Lemma diag_sum d f g i : (i < d)%nat -> sum_to d (fun k => (if Nat.eqb i k then f k else 0) * g k) = f i * g i.
Proof.
  intros L. rewrite (sum_to_ext d _ (fun k => identity_matrix i k * (f k * g k))); [apply sum_to_identity, L|]. intros k _. unfold identity_matrix. destruct (Nat.eqb i k); ring.
Qed.
(** Constant coefficients are integrated; given integrals are used as they are;
    without them the process has none. *)
Theorem C97_totals dim dr vol td tc p : brownian_motion dim dr vol td tc = Some p ->
  (match td with Some f => p_total_drift p = Some f
   | None => (drift_callable dr -> p_total_drift p = None) /\ (~ drift_callable dr -> exists f, p_total_drift p = Some f /\ integrated_drift dim (promised_drift dr) f) end) /\
  (match tc with Some f => p_total_covariance p = Some f
   | None => (vol_callable vol -> p_total_covariance p = None) /\ (~ vol_callable vol -> exists f, p_total_covariance p = Some f /\ integrated_covariance dim (promised_volatility vol) f) end).
Proof.
  unfold brownian_motion. destruct (Nat.ltb dim 1); [discriminate|]. intros E. split.
  - assert (TD : p_total_drift p = snd (construct_drift_data dr td)).
    { destruct dr as [[]|], td as [td|]; try discriminate E; destruct vol as [[]|], tc as [tc|]; try discriminate E; cbn in E; injection E as <-; reflexivity. }
    destruct td as [td|]; [rewrite TD; destruct dr as [[]|]; reflexivity|]. rewrite TD. clear.
    assert (K : forall c s t, is_RInt (fun _ => c) s t ((t - s) * c)) by (intros c s t; exact (is_RInt_const (V := R_NormedModule) s t c)).
    destruct dr as [[a|a|f]|]; cbn; (split; [tauto|intros N; first [exfalso; tauto|eexists; split; [reflexivity|]]]); intros s t i _ _; cbn.
    + apply K.
    + apply K.
    + pose proof (K 0 s t) as Z. rewrite Rmult_0_r in Z. exact Z.
  - assert (TC : p_total_covariance p = snd (construct_vol_data dim vol tc)).
    { destruct dr as [[]|], td as [td|]; try discriminate E; destruct vol as [[]|], tc as [tc|]; try discriminate E; cbn in E; injection E as <-; reflexivity. }
    destruct tc as [tc|]; [rewrite TC; destruct vol as [[]|]; reflexivity|]. rewrite TC. clear.
    assert (K : forall c s t, is_RInt (fun _ => c) s t ((t - s) * c)) by (intros c s t; exact (is_RInt_const (V := R_NormedModule) s t c)).
    destruct vol as [[v|v|m|f]|]; cbn; (split; [tauto|intros N; first [exfalso; tauto|eexists; split; [reflexivity|]]]); intros s t i j _ I1 J1; unfold covariance_rate; cbn;
      match goal with |- is_RInt ?f _ _ (_ * ?c) => apply (is_RInt_ext (V := R_NormedModule) (fun _ => c)); [intros u _; cbv beta; symmetry; match goal with |- ?x = ?y => change (@eq R x y) end|apply K] end.
    + rewrite (diag_sum dim (fun _ => v) (fun k => if Nat.eqb j k then v else 0) i I1). unfold eye. rewrite (Nat.eqb_sym j i). destruct (Nat.eqb i j); ring.
    + rewrite (diag_sum dim (fun _ => v i) (fun k => if Nat.eqb j k then v j else 0) i I1). rewrite (Nat.eqb_sym j i). destruct (Nat.eqb_spec i j) as [->|]; ring.
    + symmetry. apply rsum_sum_to.
    + rewrite (diag_sum dim (fun _ => 1) (fun k => if Nat.eqb j k then 1 else 0) i I1). unfold eye. rewrite (Nat.eqb_sym j i). destruct (Nat.eqb i j); ring.
Qed.

(** * Exact sampling *)
(** What is used of the Cholesky factorization. *)
Definition cholesky_contract (cholesky : tensor R -> option (tensor R)) (k d : nat) : Prop :=
  forall c, shape c = [k; d; d] -> (forall i, (i < k)%nat -> positive_definite d (fun a b => elt c [i; a; b])) ->
  exists l, cholesky c = Some l /\ shape l = [k; d; d] /\ forall i, (i < k)%nat -> root_of d (fun a b => elt c [i; a; b]) (fun a b => elt l [i; a; b]).
Lemma steps_order times : forall prev, (forall i, (i < length times)%nat -> nth i (prev :: times) 0 <= nth (S i) (prev :: times) 0) -> in_order prev times.
Proof.
  induction times as [|t r IH]; intros prev S0; [exact Logic.I|]. split; [exact (S0 0%nat ltac:(cbn; lia))|]. apply IH. intros i L. exact (S0 (S i) ltac:(cbn; lia)).
Qed.
Section Exact.
  Variables (sn : Z -> list nat -> list nat -> R) (cholesky : tensor R -> option (tensor R)).
  Variables (p : process) (td : R -> R -> nat -> R) (tc : R -> R -> nat -> nat -> R) (a : R -> nat -> R) (vol : R -> nat -> nat -> R).
  Hypotheses (TD : p_total_drift p = Some td) (TC : p_total_covariance p = Some tc).
  Hypotheses (ID : integrated_drift (p_dim p) a td) (IC : integrated_covariance (p_dim p) vol tc).
  Local Notation d := (p_dim p).
  Local Notation T times := (time_number times).
  Lemma order_steps times : in_order 0 times -> forall i, (i < length times)%nat -> 0 <= T times i <= T times (S i).
  Proof.
    intros O. assert (MO : forall i, (i < length times)%nat -> T times i <= T times (S i)) by (intros i L; exact (in_order_nth times 0 O i L)).
    intros i L. split; [|apply MO, L]. induction i as [|i IH]; [unfold time_number; cbn; lra|]. pose proof (MO i ltac:(lia)). specialize (IH ltac:(lia)). lra.
  Qed.
  Lemma start_time times i : (i < length times)%nat -> nth i (firstn (length times) (0 :: times)) 0 = T times i.
  Proof.
    intros L. unfold time_number. generalize (0 :: times). intros l. revert i l L. generalize (length times). induction n as [|k IH]; intros i l L; [lia|].
    destruct l as [|x l]; [destruct i; reflexivity|]. destruct i; [reflexivity|]. cbn. apply IH. lia.
  Qed.
  Local Notation covars times := (Tensor [length times; d; d] (fun idx => tc (nth (nth 0 idx 0%nat) (firstn (length times) (0 :: times)) 0) (nth (nth 0 idx 0%nat) times 0) (nth 1 idx 0%nat) (nth 2 idx 0%nat))).
  Lemma factor_exists times : cholesky_contract cholesky (length times) d -> (forall i, (i < length times)%nat -> positive_definite d (tc (T times i) (T times (S i)))) ->
    exists l, cholesky (covars times) = Some l /\ shape l = [length times; d; d] /\ forall i, (i < length times)%nat -> root_of d (tc (T times i) (T times (S i))) (fun c b => elt l [i; c; b]).
  Proof.
    intros CC PD. destruct (CC (covars times) eq_refl) as (l & CL & SL & RO).
    { intros i L. cbn [elt nth]. rewrite start_time by exact L. exact (PD i L). }
    exists l. split; [exact CL|split; [exact SL|]]. intros i L e f E F. rewrite (RO i L e f E F). cbn [elt nth]. rewrite start_time by exact L. reflexivity.
  Qed.
  Lemma exact_core rn times N init ty seed dt h l : in_order 0 times -> ty = None \/ ty = Some PSEUDO -> cholesky (covars times) = Some l -> shape l = [length times; d; d] ->
    exists paths, sample_paths rn sn cholesky p times N init dt h ty seed = Some paths /\ shape paths = [N; length times; d] /\
      forall s i c, (s < N)%nat -> (i < length times)%nat -> (c < d)%nat -> elt paths [s; i; c] =
        Fin (match init with Some x => x c | None => 0 end + td 0 (T times (S i)) c +
             sum_to (S i) (fun j => sum_to d (fun b => elt l [j; c; b] * rn 0%nat seed [N; length times; d] [s; j; b]))).
  Proof using TD TC ID.
    intros O TY CL SL. pose proof (order_steps times O) as OS. pose proof (start_time times) as ST.
    set (drifts := Tensor [length times; d] (fun idx => td (nth (nth 0 idx 0%nat) (firstn (length times) (0 :: times)) 0) (nth (nth 0 idx 0%nat) times 0) (nth 1 idx 0%nat))).
    assert (AR : arguments cholesky (Some drifts) (Some (covars times)) None [length times] d (Some l)) by (split; [exists l; split; [exact CL|reflexivity]|reflexivity]).
    destruct (C59_pseudo (rn 0%nat) sn cholesky [N] [length times] d (Some drifts) (Some (covars times)) None (Some l) ty seed 0 None AR TY) as (t & ET & SH & VA).
    eexists. split; [|split].
    - unfold sample_paths. rewrite TD, TC. unfold exact_sampling. cbv zeta.
      match goal with |- context [if ?b then _ else None] => replace b with true end.
      + cbv iota. fold drifts. rewrite ET. cbn [option_map shape elt]. reflexivity.
      + symmetry. apply forallb_forall. intros i L. apply in_seq in L. rewrite ST by lia. pose proof (OS i ltac:(lia)) as (X & Y). change (T times (S i)) with (nth i times 0) in Y.
        unfold rle. destruct (Rle_dec (T times i) (nth i times 0)); [|lra]. destruct (Rle_dec 0 (T times i)); [reflexivity|lra].
    - cbn [shape]. exact SH.
    - intros s i c Hs Hi Hc. cbn [elt nth].
      rewrite (xsum_to _ (fun j => td (T times j) (T times (S j)) c + sum_to d (fun b => elt l [j; c; b] * rn 0%nat seed [N; length times; d] [s; j; b]))).
      + rewrite fadd, st_plus. f_equal. rewrite (telescoping (fun u => a u c) (T times) (fun x y => td x y c)) with (n := S i).
        * destruct init; ring.
        * intros x y X. apply ID; assumption.
        * reflexivity.
        * intros j J. apply OS. lia.
      + intros j J. assert (JK : (j < length times)%nat) by lia.
        etransitivity; [apply (VA [s] [j] c (fun e f => elt l [j; e; f]) (fun e => td (T times j) (T times (S j)) e))|]; [repeat constructor; assumption|repeat constructor; assumption|exact Hc| | |reflexivity].
        * right. split; [exact SL|reflexivity].
        * split; [reflexivity|]. intros e. unfold drifts. cbn [elt nth app]. rewrite ST by exact JK. reflexivity.
  Qed.
  (** The state is the start plus the integral of the drift plus, for every time up
      to this one, a root of the integrated covariance since the time before
      applied to the draws. *)
  Theorem C97_exact rn times N init ty seed dt h : in_order 0 times -> cholesky_contract cholesky (length times) d -> ty = None \/ ty = Some PSEUDO ->
    (forall i, (i < length times)%nat -> positive_definite d (tc (T times i) (T times (S i)))) ->
    exists L paths, (forall i, (i < length times)%nat -> root_of d (tc (T times i) (T times (S i))) (L i)) /\
      sample_paths rn sn cholesky p times N init dt h ty seed = Some paths /\ shape paths = [N; length times; d] /\
      forall s i c, (s < N)%nat -> (i < length times)%nat -> (c < d)%nat -> elt paths [s; i; c] =
        Fin (match init with Some x => x c | None => 0 end + td 0 (T times (S i)) c +
             sum_to (S i) (fun j => sum_to d (fun b => L j c b * rn 0%nat seed [N; length times; d] [s; j; b]))).
  Proof using TD TC ID.
    intros O CC TY PD. destruct (factor_exists times CC PD) as (l & CL & SL & RO). destruct (exact_core rn times N init ty seed dt h l O TY CL SL) as (paths & E & SH & V).
    exists (fun j c b => elt l [j; c; b]), paths. split; [exact RO|]. split; [exact E|]. split; [exact SH|exact V].
  Qed.
  (** The law: with independent standard normal draws the states at all times are
      jointly normal, with mean the start plus the integral of the drift and
      covariance of two of them the integral of the rate of covariance up to the
      earlier time.  Number i * d + c stands for coordinate c at time i. *)
  Theorem C97_law times x0 ty seed dt h : in_order 0 times -> cholesky_contract cholesky (length times) d -> ty = None \/ ty = Some PSEUDO -> (0 < d)%nat ->
    (forall i, (i < length times)%nat -> positive_definite d (tc (T times i) (T times (S i)))) ->
    let k := length times in
    exists X : nat -> nat -> list R -> R,
      (forall z, exists paths, sample_paths (fun _ _ sh idx => coord z (ravel sh idx)) sn cholesky p times 1 (Some x0) dt h ty seed = Some paths /\
         forall i c, (i < k)%nat -> (c < d)%nat -> elt paths [0%nat; i; c] = Fin (X i c z)) /\
      jointly_normal (k * d) (k * d) (fun n z => X (n / d)%nat (n mod d)%nat z)
        (fun n => x0 (n mod d)%nat + td 0 (T times (S (n / d))) (n mod d)%nat)
        (fun n n' => tc 0 (T times (S (Nat.min (n / d) (n' / d)))) (n mod d)%nat (n' mod d)%nat).
  Proof using TD TC ID IC.
    intros O CC TY D0 PD k. destruct (factor_exists times CC PD) as (l & CL & SL & RO). pose proof (order_steps times O) as OS.
    exists (fun i c z => x0 c + td 0 (T times (S i)) c + sum_to (S i) (fun j => sum_to d (fun b => elt l [j; c; b] * coord z (j * d + b)))). split.
    - intros z. destruct (exact_core (fun _ _ sh idx => coord z (ravel sh idx)) times 1 (Some x0) ty seed dt h l O TY CL SL) as (paths & E & SH & V).
      exists paths. split; [exact E|]. intros i c Hi Hc. rewrite (V 0%nat i c Nat.lt_0_1 Hi Hc). f_equal. f_equal. apply sum_to_ext. intros j J. apply sum_to_ext. intros b B. f_equal. f_equal.
      cbn [ravel size fold_right]. lia.
    - apply (linear_normal (k * d) (k * d) _ _ (fun n q => if Nat.ltb (q / d) (S (n / d)) then elt l [(q / d)%nat; (n mod d)%nat; (q mod d)%nat] else 0)).
      + intros n z Hn. set (i := (n / d)%nat). set (c := (n mod d)%nat). assert (Hi : (i < k)%nat) by (apply Nat.div_lt_upper_bound; lia). f_equal.
        pose (F := fun j b : nat => if Nat.ltb j (S i) then elt l [j; c; b] * coord z (j * d + b)%nat else 0).
        transitivity (sum_to (k * d) (fun q => F (q / d)%nat (q mod d)%nat)).
        * rewrite (st_pairs k d F D0). unfold F. rewrite (sum_to_ext k _ (fun j => if Nat.ltb j (S i) then sum_to d (fun b => elt l [j; c; b] * coord z (j * d + b)%nat) else 0)).
          -- rewrite st_cut by lia. reflexivity.
          -- intros j J. destruct (Nat.ltb j (S i)); [reflexivity|apply st_zero].
        * apply sum_to_ext. intros q Hq. unfold F. replace (q / d * d + q mod d)%nat with q by (rewrite Nat.mul_comm; apply Nat.div_mod; lia). destruct (Nat.ltb (q / d) (S i)); ring.
      + intros n n' Hn Hn'. set (i := (n / d)%nat). set (c := (n mod d)%nat). set (i' := (n' / d)%nat). set (c' := (n' mod d)%nat).
        assert (Hi : (i < k)%nat) by (apply Nat.div_lt_upper_bound; lia). assert (Hi' : (i' < k)%nat) by (apply Nat.div_lt_upper_bound; lia).
        assert (Hc : (c < d)%nat) by (apply Nat.mod_upper_bound; lia). assert (Hc' : (c' < d)%nat) by (apply Nat.mod_upper_bound; lia).
        pose (F := fun j b : nat => if Nat.ltb j (S (Nat.min i i')) then elt l [j; c; b] * elt l [j; c'; b] else 0).
        transitivity (sum_to (k * d) (fun q => F (q / d)%nat (q mod d)%nat)).
        * rewrite (st_pairs k d F D0). unfold F. rewrite (sum_to_ext k _ (fun j => if Nat.ltb j (S (Nat.min i i')) then tc (T times j) (T times (S j)) c c' else 0)).
          -- rewrite st_cut by lia. symmetry. apply (telescoping (covariance_rate d vol c c') (T times) (fun x y => tc x y c c')); [intros x y X; apply IC; assumption|reflexivity|intros j J; apply OS; lia].
          -- intros j J. destruct (Nat.ltb j (S (Nat.min i i'))); [|apply st_zero]. exact (RO j J c c' Hc Hc').
        * apply sum_to_ext. intros q Hq. unfold F. destruct (Nat.ltb_spec (q / d) (S i)), (Nat.ltb_spec (q / d) (S i')), (Nat.ltb_spec (q / d) (S (Nat.min i i'))); try lia; ring.
  Qed.
  (** Times that are negative or go down are refused. *)
  Theorem C97_order rn times N init ty seed dt h : ~ in_order 0 times -> sample_paths rn sn cholesky p times N init dt h ty seed = None.
  Proof using TD TC.
    intros NO. unfold sample_paths. rewrite TD, TC. unfold exact_sampling. cbv zeta. match goal with |- context [if ?b then _ else None] => destruct b eqn:Q end; [|reflexivity]. exfalso. apply NO.
    assert (S0 : forall i, (i < length times)%nat -> nth i (0 :: times) 0 <= nth (S i) (0 :: times) 0).
    { intros i L. rewrite forallb_forall in Q. specialize (Q i ltac:(apply in_seq; lia)). rewrite start_time in Q by exact L. apply andb_prop in Q. destruct Q as (Q & _). unfold rle in Q. destruct (Rle_dec _ _) as [Z|]; [exact Z|discriminate Q]. }
    exact (steps_order times 0 S0).
  Qed.
End Exact.

(** * Euler sampling *)
Section Euler.
  Variables (sn : Z -> list nat -> list nat -> R) (cholesky : tensor R -> option (tensor R)) (p : process).
  Hypothesis NT : p_total_drift p = None \/ p_total_covariance p = None.
  Local Notation d := (p_dim p).
  Lemma no_totals rn times N init dt h ty seed : sample_paths rn sn cholesky p times N init dt (Some h) ty seed =
    euler_sampling rn sn cholesky p times N (match init with Some x => x | None => fun _ => 0 end) dt h ty seed.
  Proof using NT. unfold sample_paths. destruct NT as [E|E]; rewrite E; [reflexivity|]. destruct (p_total_drift p); reflexivity. Qed.
  Lemma step_draws rn N ty seed : ty = None \/ ty = Some PSEUDO ->
    exists t, multivariate_normal rn sn cholesky [N] (Some (Tensor [d; 1%nat] (fun _ => 0))) None None ty seed 0 None = Some t /\
      forall s b, (s < N)%nat -> (b < d)%nat -> elt t [s; b; 0%nat] = Fin (rn seed [N; d; 1%nat] [s; b; 0%nat]).
  Proof using.
    intros TY. destruct (C59_pseudo rn sn cholesky [N] [d] 1 (Some (Tensor [d; 1%nat] (fun _ => 0))) None None None ty seed 0 None) as (t & E & _ & V); [split; reflexivity|exact TY|].
    exists t. split; [exact E|]. intros s b Hs Hb. etransitivity; [apply (V [s] [b] 0%nat identity_matrix (fun _ => 0)); [repeat constructor; assumption|repeat constructor; assumption|lia|reflexivity|split; [reflexivity|reflexivity]]|].
    unfold affine. cbn [sum_to]. unfold identity_matrix. cbn [Nat.eqb]. f_equal. cbn [app]. ring.
  Qed.
  Lemma map_opt_draws (rn : nat -> option Z -> list nat -> list nat -> R) N ty seed : ty = None \/ ty = Some PSEUDO -> forall n,
    exists dws, map_opt (fun i => multivariate_normal (rn i) sn cholesky [N] (Some (Tensor [d; 1%nat] (fun _ => 0))) None None ty seed 0 None) (seq 0 n) = Some dws /\
      forall i s b, (i < n)%nat -> (s < N)%nat -> (b < d)%nat -> elt (nth i dws (Tensor [] (fun _ => NaN))) [s; b; 0%nat] = Fin (rn i seed [N; d; 1%nat] [s; b; 0%nat]).
  Proof using.
    intros TY n. assert (GEN : forall n o, exists dws, map_opt (fun i => multivariate_normal (rn i) sn cholesky [N] (Some (Tensor [d; 1%nat] (fun _ => 0))) None None ty seed 0 None) (seq o n) = Some dws /\
      forall i s b, (i < n)%nat -> (s < N)%nat -> (b < d)%nat -> elt (nth i dws (Tensor [] (fun _ => NaN))) [s; b; 0%nat] = Fin (rn (o + i)%nat seed [N; d; 1%nat] [s; b; 0%nat])).
    { clear n. induction n as [|n IH]; intros o; [exists []; split; [reflexivity|intros; lia]|]. cbn [seq map_opt]. destruct (step_draws (rn o) N ty seed TY) as (t & E & V). rewrite E.
      destruct (IH (S o)) as (dws & E2 & V2). rewrite E2. exists (t :: dws). split; [reflexivity|]. intros i s b Hi Hs Hb. destruct i as [|i]; cbn [nth].
      - rewrite Nat.add_0_r. apply V; assumption.
      - rewrite V2 by (assumption || lia). rewrite Nat.add_succ_r. reflexivity. }
    destruct (GEN n 0%nat) as (dws & E & V). exists dws. split; [exact E|exact V].
  Qed.
  (** A grid that contains the requested times, in steps of at most the given one:
      the values are those of the Euler scheme on this grid. *)
  Definition on_grid (times : list R) (h : R) (n : nat) (g : nat -> R) (m : nat -> nat) : Prop :=
    fine_grid h n g /\ forall k, (k < length times)%nat -> (m k <= n)%nat /\ g (m k) = nth k times 0.
  Theorem C97_euler times h : times <> [] -> in_order 0 times -> Forall (fun t => 0 < t) times -> 0 < h ->
    exists n g m, on_grid times h n g m /\ forall rn N init ty seed, ty = None \/ ty = Some PSEUDO ->
      exists paths, sample_paths rn sn cholesky p times N init Float32 (Some h) ty seed = Some paths /\ shape paths = [N; length times; d] /\
      forall s k c, (s < N)%nat -> (k < length times)%nat -> (c < d)%nat -> elt paths [s; k; c] =
        Fin (euler_value d (p_drift p) (p_vol p) g (fun i b => rn i seed [N; d; 1%nat] [s; b; 0%nat]) (match init with Some x => x | None => fun _ => 0 end) (m k) c).
  Proof using NT.
    intros NE O PO H. destruct (euler_grid_ok times h NE O PO H) as (G & EG & LG & FG & KE). set (kept := filter (fun i => nth i (map snd G) false) (seq 1 (length G - 1))) in *.
    assert (LK : length kept = length times) by (rewrite <- KE; symmetry; apply map_length).
    assert (KB : forall k, (k < length times)%nat -> (nth k kept 0 <= length G - 1)%nat).
    { intros k L. assert (I1 : In (nth k kept 0%nat) kept) by (apply nth_In; lia). apply filter_In in I1. destruct I1 as (I1 & _). apply in_seq in I1. lia. }
    exists (length G - 1)%nat, (at_ (map fst G)), (fun k => nth k kept 0%nat). split.
    - split; [exact FG|]. intros k L. split; [apply KB, L|]. rewrite <- KE. rewrite (nth_indep _ 0 (at_ (map fst G) 0%nat)) by (rewrite map_length; lia). symmetry. apply map_nth.
    - intros rn N init ty seed TY. rewrite no_totals. unfold euler_sampling. rewrite EG. cbv zeta. fold kept.
      destruct (map_opt_draws rn N ty seed TY (length G - 1)) as (dws & ED & VD). rewrite ED. eexists. split; [reflexivity|]. split; [reflexivity|].
      intros s k c Hs Hk Hc. cbn [elt nth]. rewrite (nth_error_nth' kept 0%nat) by lia.
      apply euler_formula. intros i b Hi Hb. apply VD; [|exact Hs|exact Hb]. pose proof (KB k Hk). lia.
  Qed.
End Euler.
