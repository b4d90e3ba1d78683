(** Lemmas for the Brownian motion of models/legacy. *)
From Coquelicot Require Import Coquelicot.
From Coq Require Import Reals Lra Lia Psatz ZArith List Bool Arith Permutation Sorted.
From Verif Require Import ExtReal HaganWestModel HaganWestProofs BootstrapModel BrentModel TensorModel TensorProofs BoundedCalModel TimeGridModel TimeGridProofs AsianSpec MvNormalModel MvNormalSpec MvNormalProofs GbmSpec GbmProofs2 LegacyBmModel LegacyBmSpec.
Import ListNotations.
Open Scope R_scope.

(** * The grid *)
Local Notation earlier := (fun x y : R * bool => fst x <= fst y).
Lemma insert_perm x l : Permutation (insert_time x l) (x :: l).
Proof.
  induction l as [|y r IH]; cbn; [reflexivity|]. destruct (Rle_dec (fst x) (fst y)); [reflexivity|]. rewrite IH. apply perm_swap.
Qed.
Lemma sort_perm l : Permutation (fold_right insert_time [] l) l.
Proof. induction l as [|x r IH]; cbn; [reflexivity|]. rewrite insert_perm. apply perm_skip, IH. Qed.
Lemma insert_sorted x l : StronglySorted earlier l -> StronglySorted earlier (insert_time x l).
Proof.
  induction 1 as [|y r SS IH F]; cbn; [repeat constructor|]. destruct (Rle_dec (fst x) (fst y)) as [L|L].
  - constructor; [constructor; assumption|]. constructor; [exact L|]. eapply Forall_impl; [|exact F]. intros z Z. cbn in *. lra.
  - constructor; [exact IH|]. rewrite Forall_forall in *. intros z Z. apply (Permutation_in _ (insert_perm x r)) in Z. destruct Z as [<-|Z]; [lra|apply F, Z].
Qed.
Lemma sort_sorted l : StronglySorted earlier (fold_right insert_time [] l).
Proof. induction l; cbn; [constructor|apply insert_sorted; assumption]. Qed.
Lemma perm_filter {A} (f : A -> bool) l l' : Permutation l l' -> Permutation (filter f l) (filter f l').
Proof.
  induction 1 as [|x l l' P IH|x y l|l l' l'' P1 I1 P2 I2]; cbn; [reflexivity| | |etransitivity; eassumption].
  - destruct (f x); [apply perm_skip|]; exact IH.
  - destruct (f x), (f y); reflexivity || apply perm_swap.
Qed.
Lemma sorted_filter f l : StronglySorted earlier l -> StronglySorted Rle (map fst (filter f l)).
Proof.
  induction 1 as [|x r SS IH F]; cbn; [constructor|]. destruct (f x); [|exact IH]. cbn. constructor; [exact IH|].
  rewrite Forall_forall in *. intros y Y. apply in_map_iff in Y. destruct Y as (z & <- & Z). apply filter_In in Z. apply F, Z.
Qed.
Lemma sorted_unique l : forall l', StronglySorted Rle l -> StronglySorted Rle l' -> Permutation l l' -> l = l'.
Proof.
  induction l as [|x r IH]; intros l' S1 S2 P; [symmetry; apply Permutation_nil; exact P|].
  destruct l' as [|y r']; [apply Permutation_sym, Permutation_nil in P; discriminate P|]. inversion S1 as [|? ? S1' F1]; inversion S2 as [|? ? S2' F2]; subst.
  rewrite Forall_forall in F1, F2. assert (E : x = y).
  { apply Rle_antisym.
    - destruct (Permutation_in y (Permutation_sym P) (or_introl eq_refl)) as [->|I1]; [lra|apply F1, I1].
    - destruct (Permutation_in x P (or_introl eq_refl)) as [->|I1]; [lra|apply F2, I1]. }
  subst y. f_equal. apply IH; [assumption..|]. exact (Permutation_cons_inv P).
Qed.
Lemma order_sorted times : forall prev, in_order prev times -> StronglySorted Rle times /\ Forall (fun t => prev <= t) times.
Proof.
  induction times as [|t r IH]; intros prev O; [split; constructor|]. destruct O as (L & O). destruct (IH t O) as (S1 & F1). split.
  - constructor; assumption.
  - constructor; [exact L|]. eapply Forall_impl; [|exact F1]. intros u U. cbn in U. lra.
Qed.
Lemma filter_index {A} (f : A -> bool) (d : A) l : forall o, map (fun i => nth (i - o) l d) (filter (fun i => f (nth (i - o) l d)) (seq o (length l))) = filter f l.
Proof.
  induction l as [|x r IH]; intros o; [reflexivity|]. cbn [length seq]. cbn [filter]. rewrite Nat.sub_diag. change (nth 0 (x :: r) d) with x.
  assert (E : map (fun i => nth (i - o) (x :: r) d) (filter (fun i => f (nth (i - o) (x :: r) d)) (seq (S o) (length r))) = filter f r).
  { rewrite <- (IH (S o)). rewrite (filter_ext_in _ (fun i => f (nth (i - S o) r d))).
    - apply map_ext_in. intros i I1. apply filter_In in I1. destruct I1 as (I1 & _). apply in_seq in I1. replace (i - o)%nat with (S (i - S o)) by lia. reflexivity.
    - intros i I1. apply in_seq in I1. replace (i - o)%nat with (S (i - S o)) by lia. reflexivity. }
  destruct (f x); cbn [map]; rewrite E; [rewrite Nat.sub_diag|]; reflexivity.
Qed.
Lemma last_max times t0 : StronglySorted Rle times -> In t0 times -> t0 <= last times 0.
Proof.
  intros SS; revert t0; induction SS as [|x r SS IH F]; intros t I1; [destruct I1|]. destruct r as [|y r]; [destruct I1 as [->|[]]; cbn; lra|].
  change (last (x :: y :: r) 0) with (last (y :: r) 0). destruct I1 as [->|I1]; [|exact (IH t I1)].
  inversion F; subst. pose proof (IH y (or_introl eq_refl)). lra.
Qed.
Lemma sorted_at (l : list (R * bool)) : StronglySorted earlier l -> forall i j, (i <= j < length l)%nat -> at_ (map fst l) i <= at_ (map fst l) j.
Proof.
  induction 1 as [|x r SS IH F]; intros i j L; cbn in L; [lia|]. destruct i, j; cbn [map]; rewrite ?at_cons; try lia.
  - lra.
  - change (at_ (fst x :: map fst r) 0) with (fst x). rewrite Forall_forall in F. unfold at_. change 0 with (fst (0, false)). rewrite map_nth. apply F, nth_In. lia.
  - apply IH. lia.
Qed.
Theorem euler_grid_ok times h : times <> [] -> in_order 0 times -> Forall (fun t => 0 < t) times -> 0 < h ->
  exists G, euler_grid times h = Some G /\ (0 < length G)%nat /\ fine_grid h (length G - 1) (at_ (map fst G)) /\
    map (at_ (map fst G)) (filter (fun i => nth i (map snd G) false) (seq 1 (length G - 1))) = times.
Proof.
  intros NE O PO H. destruct (order_sorted _ _ O) as (SS & _). rewrite Forall_forall in PO.
  assert (LP : 0 < last times 0) by (destruct times as [|t r]; [congruence|]; pose proof (PO t (or_introl eq_refl)); pose proof (last_max _ t SS (or_introl eq_refl)); lra).
  destruct (range_ok (last times 0) h H) as (m & RG & B1 & B2); [lra|].
  unfold euler_grid. rewrite RG. set (all := map (fun t => (t, false)) (map (fun i => INR i * h) (seq 0 m)) ++ map (fun t => (t, true)) times).
  exists (fold_right insert_time [] all). split; [destruct times; [congruence|reflexivity]|].
  pose proof (sort_perm all) as P. pose proof (sort_sorted all) as SO. set (G := fold_right insert_time [] all) in *. clearbody G.
  assert (M0 : (0 < m)%nat) by (destruct m; [cbn in B1; lra|lia]).
  assert (GRID : forall j, (j < m)%nat -> In (INR j * h, false) G).
  { intros j J. apply (Permutation_in _ (Permutation_sym P)), in_or_app. left. apply in_map_iff. exists (INR j * h). split; [reflexivity|]. apply in_map_iff. exists j. split; [reflexivity|apply in_seq; lia]. }
  assert (EV : forall x, In x G -> (exists j, (j < m)%nat /\ x = (INR j * h, false)) \/ (0 < fst x /\ In (fst x) times)).
  { intros x X. apply (Permutation_in _ P) in X. apply in_app_or in X. destruct X as [X|X]; apply in_map_iff in X; destruct X as (t & <- & X).
    - left. apply in_map_iff in X. destruct X as (j & <- & X). apply in_seq in X. exists j. split; [lia|reflexivity].
    - right. cbn. split; [apply PO, X|exact X]. }
  assert (LEN : (0 < length G)%nat) by (pose proof (GRID 0%nat M0) as X; destruct G; [destruct X|cbn; lia]).
  assert (GN : forall i, at_ (map fst G) i = fst (nth i G (0, false))) by (intros i; unfold at_; change 0 with (fst (0, false)) at 1; apply map_nth).
  assert (HD : nth 0 G (0, false) = (0, false)).
  { pose proof (nth_In G (0, false) LEN) as X. pose proof (sorted_at G SO) as SA.
    destruct (In_nth G _ (0, false) (GRID 0%nat M0)) as (q & Q1 & Q2). pose proof (SA 0%nat q ltac:(lia)) as LE. rewrite !GN, Q2 in LE. cbn [INR fst] in LE.
    destruct (EV _ X) as [(j & J & E)|(E & _)]; [|lra]. rewrite E in LE |- *. cbn [fst] in LE. pose proof (pos_INR j). assert (INR j * h = 0) by nra. rewrite H1. reflexivity. }
  assert (LAST : forall x, In x G -> fst x <= last times 0).
  { intros x X. destruct (EV x X) as [(j & J & ->)|(_ & E)]; [cbn; pose proof (B2 j J); lra|apply last_max; assumption]. }
  split; [exact LEN|]. split; [split|].
  - rewrite GN, HD. reflexivity.
  - intros i I1. pose proof (sorted_at G SO) as SA. pose proof (SA i (i + 1)%nat ltac:(lia)) as ST. split; [lra|].
    destruct (Rle_dec (at_ (map fst G) (i + 1) - at_ (map fst G) i) h) as [L|L]; [exact L|exfalso]. apply Rnot_le_lt in L.
    set (x := at_ (map fst G) i) in *. set (y := at_ (map fst G) (i + 1)) in *.
    assert (X0 : 0 <= x) by (pose proof (SA 0%nat i ltac:(lia)) as Z; rewrite GN, HD in Z; exact Z).
    assert (YL : y <= last times 0) by (unfold y; rewrite GN; apply LAST, nth_In; lia).
    destruct (archimed (x / h)) as (A1 & A2). assert (Q0 : 0 <= x / h) by (apply Rmult_le_pos; [lra|apply Rlt_le, Rinv_0_lt_compat, H]).
    assert (UP : (0 <= up (x / h))%Z) by (apply le_IZR; lra). set (j := Z.to_nat (up (x / h))).
    assert (JE : INR j = IZR (up (x / h))) by (unfold j; rewrite INR_IZR_INZ, Z2Nat.id by exact UP; reflexivity).
    assert (XE : x = x / h * h) by (field; lra). assert (J1 : x < INR j * h) by (rewrite JE; rewrite XE at 1; apply Rmult_lt_compat_r; lra).
    assert (J2 : INR j * h <= x + h) by (rewrite JE; replace (x + h) with ((x / h + 1) * h) by (rewrite XE at 2; ring); apply Rmult_le_compat_r; lra).
    assert (JM : (j < m)%nat) by (destruct (le_lt_dec m j) as [Q|Q]; [exfalso; apply le_INR in Q; nra|exact Q]).
    destruct (In_nth G _ (0, false) (GRID j JM)) as (q & Q1 & Q2).
    destruct (le_lt_dec q i) as [QI|QI].
    + pose proof (SA q i ltac:(lia)) as Z. rewrite GN, Q2 in Z. cbn [fst] in Z. fold x in Z. lra.
    + pose proof (SA (i + 1)%nat q ltac:(lia)) as Z. rewrite (GN q), Q2 in Z. cbn [fst] in Z. fold y in Z. lra.
  - assert (E : map fst (filter snd G) = times).
    { apply sorted_unique; [apply sorted_filter, SO|exact SS|]. rewrite (perm_filter snd _ _ P). unfold all. rewrite filter_app, map_app.
      replace (filter snd (map (fun t => (t, false)) (map (fun i => INR i * h) (seq 0 m)))) with (@nil (R * bool)) by (clear; induction (seq 0 m) as [|q l IHl]; [reflexivity|cbn; exact IHl]).
      replace (filter snd (map (fun t => (t, true)) times)) with (map (fun t => (t, true)) times) by (clear; induction times as [|q l IHl]; [reflexivity|cbn; f_equal; exact IHl]).
      cbn. rewrite map_map, map_id. reflexivity. }
    rewrite <- E. rewrite <- (filter_index snd (0, false) G 0). destruct (length G) as [|n] eqn:LG; [lia|]. cbn [seq filter].
    rewrite Nat.sub_diag, HD. cbn [snd]. replace (S n - 1)%nat with n by lia. rewrite map_map.
    rewrite (filter_ext (fun i => nth i (map snd G) false) (fun i => snd (nth (i - 0) G (0, false)))).
    + apply map_ext. intros i. rewrite Nat.sub_0_r. apply GN.
    + intros i. rewrite Nat.sub_0_r. change false with (snd (0, false)). apply map_nth.
Qed.
(** * The scheme *)
Lemma euler_formula p times x0 dw z s : forall n, (forall i b, (i < n)%nat -> (b < p_dim p)%nat -> elt (dw i) [s; b; 0%nat] = Fin (z i b)) -> forall a,
  euler_state p times x0 dw n s a = Fin (euler_value (p_dim p) (p_drift p) (p_vol p) (at_ times) z x0 n a).
Proof.
  induction n as [|n IH]; intros E a; cbn [euler_state].
  - unfold euler_value. cbn [sum_to]. f_equal. ring.
  - rewrite IH by (intros; apply E; lia). rewrite (xsum_to _ (fun b => sqrt (at_ times (S n) - at_ times n) * (p_vol p (at_ times (S n)) a b * z n b))).
    + rewrite !fadd. unfold euler_value. cbn [sum_to]. rewrite !Nat.add_1_r. rewrite <- st_scal. f_equal. ring.
    + intros b B. rewrite E by lia. rewrite !fmul. f_equal. ring.
Qed.
(** the sum over a grid against the integral *)
Lemma riemann_error K h f g : lipschitz K f -> 0 <= K -> forall n v, fine_grid h n g -> is_RInt f 0 (g n) v ->
  Rabs (sum_to n (fun i => (g (i + 1)%nat - g i) * f (g (i + 1)%nat)) - v) <= K * h * g n.
Proof.
  intros LI K0. induction n as [|n IH]; intros v (G0 & GS) IV.
  - cbn [sum_to]. rewrite G0 in *. assert (v = 0) as -> by (rewrite <- (is_RInt_unique (V := R_CompleteNormedModule) _ _ _ _ IV); apply (RInt_point (V := R_CompleteNormedModule))).
    rewrite Rminus_0_r, Rabs_R0. lra.
  - assert (MONO : forall i, (i <= n)%nat -> 0 <= g i).
    { induction i as [|i IHi]; intros L; [lra|]. pose proof (GS i ltac:(lia)) as X. rewrite Nat.add_1_r in X. specialize (IHi ltac:(lia)). lra. }
    pose proof (GS n ltac:(lia)) as (S1 & S2). rewrite Nat.add_1_r in S1, S2. pose proof (MONO n ltac:(lia)) as G1.
    assert (EX : ex_RInt f 0 (g (S n))) by (exists v; exact IV).
    assert (E1 : ex_RInt f 0 (g n)) by (apply (ex_RInt_Chasles_1 (V := R_CompleteNormedModule) f 0 (g n) (g (S n))); [lra|exact EX]).
    assert (E2 : ex_RInt f (g n) (g (S n))) by (apply (ex_RInt_Chasles_2 (V := R_CompleteNormedModule) f 0 (g n) (g (S n))); [lra|exact EX]).
    destruct E1 as (v1 & I1), E2 as (v2 & I2).
    assert (VE : v = v1 + v2). { pose proof (is_RInt_Chasles (V := R_NormedModule) f 0 (g n) (g (S n)) v1 v2 I1 I2) as X. pose proof (is_RInt_unique (V := R_CompleteNormedModule) _ _ _ _ IV) as U1. pose proof (is_RInt_unique (V := R_CompleteNormedModule) _ _ _ _ X) as U2. rewrite <- U1, U2. reflexivity. }
    assert (FG : fine_grid h n g) by (split; [exact G0|intros i L; apply GS; lia]). specialize (IH v1 FG I1). cbn [sum_to]. rewrite Nat.add_1_r.
    assert (STEP : Rabs ((g (S n) - g n) * f (g (S n)) - v2) <= K * h * (g (S n) - g n)).
    { set (c := f (g (S n))). assert (BD : forall u, g n < u < g (S n) -> c - K * h <= f u <= c + K * h).
      { intros u U. pose proof (LI u (g (S n)) ltac:(lra) ltac:(lra)) as X. fold c in X. rewrite (Rabs_left1 (u - g (S n))) in X by lra.
        assert (K * - (u - g (S n)) <= K * h) by (apply Rmult_le_compat_l; lra). pose proof (Rabs_le_between (f u - c) (K * h)) as (Y & _). specialize (Y ltac:(lra)). lra. }
      assert (GL : g n <= g (S n)) by lra. pose proof (is_RInt_const (V := R_NormedModule) (g n) (g (S n)) (c - K * h)) as C1. pose proof (is_RInt_const (V := R_NormedModule) (g n) (g (S n)) (c + K * h)) as C2.
      pose proof (is_RInt_le _ _ _ _ _ _ GL C1 I2 (fun u U => proj1 (BD u U))) as L1. pose proof (is_RInt_le _ _ _ _ _ _ GL I2 C2 (fun u U => proj2 (BD u U))) as L2.
      unfold scal in L1, L2; cbn in L1, L2; unfold mult in L1, L2; cbn in L1, L2. apply Rabs_le. split; nra. }
    rewrite VE. match goal with |- Rabs ?e <= _ => replace e with ((sum_to n (fun i => (g (i + 1)%nat - g i) * f (g (i + 1)%nat)) - v1) + ((g (S n) - g n) * f (g (S n)) - v2)) by ring end.
    eapply Rle_trans; [apply Rabs_triang|]. replace (K * h * g (S n)) with (K * h * g n + K * h * (g (S n) - g n)) by ring. lra.
Qed.
(** * Integrals *)
Lemma telescoping f T (td : R -> R -> R) : (forall s t, 0 <= s <= t -> is_RInt f s t (td s t)) -> T 0%nat = 0 ->
  forall n, (forall i, (i < n)%nat -> 0 <= T i <= T (S i)) -> sum_to n (fun j => td (T j) (T (S j))) = td 0 (T n).
Proof.
  intros IV T0. assert (UN : forall s t v, 0 <= s <= t -> is_RInt f s t v -> v = td s t).
  { intros s t v L X. pose proof (is_RInt_unique (V := R_CompleteNormedModule) _ _ _ _ X) as U1. pose proof (is_RInt_unique (V := R_CompleteNormedModule) _ _ _ _ (IV s t L)) as U2. rewrite <- U1, U2. reflexivity. }
  induction n as [|n IH]; intros O; cbn [sum_to].
  - rewrite T0. apply UN; [lra|]. apply (is_RInt_point (V := R_NormedModule)).
  - rewrite IH by (intros; apply O; lia). pose proof (O n ltac:(lia)). apply UN; [lra|].
    apply (is_RInt_Chasles (V := R_NormedModule) f 0 (T n) (T (S n))); apply IV; lra.
Qed.
