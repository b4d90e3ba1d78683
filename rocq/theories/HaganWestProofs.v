(** Lemmas about the monotone convex method on one interval. *)
From Coq Require Import Reals Bool ZArith Lia Lra Psatz.
From Coquelicot Require Import Coquelicot.
From Coq Require Import List.
From Verif Require Import TensorModel InterpModel BrentModel ExtReal HaganWestModel RIntAux.
Import ListNotations.
Open Scope R_scope.

(** * Finite arithmetic *)
Lemma fadd a b : Fin a +x Fin b = Fin (a + b). Proof. reflexivity. Qed.
Lemma fsub a b : Fin a -x Fin b = Fin (a - b). Proof. reflexivity. Qed.
Lemma fmul a b : Fin a *x Fin b = Fin (a * b). Proof. reflexivity. Qed.
Lemma fdiv a b : b <> 0 -> Fin a /x Fin b = Fin (a / b).
Proof. intros B. cbn. unfold req. destruct (Req_EM_T b 0); [contradiction|reflexivity]. Qed.
Lemma fmax a b : xmax (Fin a) (Fin b) = Fin (Rmax a b).
Proof. unfold xmax. cbn. unfold rlt. destruct (Rlt_dec a b); f_equal; [rewrite Rmax_right; lra|rewrite Rmax_left; lra]. Qed.
Lemma fmin a b : xmin (Fin a) (Fin b) = Fin (Rmin a b).
Proof. unfold xmin. cbn. unfold rlt. destruct (Rlt_dec a b); f_equal; [rewrite Rmin_left; lra|rewrite Rmin_right; lra]. Qed.
Lemma fsquare a : xsquare (Fin a) = Fin (a * a). Proof. reflexivity. Qed.
Lemma fcube a : xcube (Fin a) = Fin (a * (a * a)). Proof. reflexivity. Qed.
Lemma zero_zero : Fin 0 /x Fin 0 = NaN.
Proof. cbn. unfold req. destruct (Req_EM_T 0 0); [reflexivity|contradiction]. Qed.
Lemma rlt_true a b : rlt a b = true <-> a < b.
Proof. unfold rlt. destruct (Rlt_dec a b); split; intros H; try reflexivity; try assumption; try discriminate; contradiction. Qed.
Lemma rleb_true a b : rleb a b = true <-> a <= b.
Proof. unfold rleb. destruct (Rle_dec a b); split; intros H; try reflexivity; try assumption; try discriminate; contradiction. Qed.
Ltac xfin := repeat first [rewrite fadd | rewrite fsub | rewrite fmul | rewrite fmax | rewrite fmin | rewrite fsquare | rewrite fcube | rewrite fdiv by (assumption || lra)].

(** * Integrals of truncated squares *)
Lemma int_poly2 (p q r a b : R) : is_RInt (fun s => p * (s - q) ^ 2 + r) a b (p * (b - q) ^ 3 / 3 - p * (a - q) ^ 3 / 3 + r * (b - a)).
Proof.
  set (G := fun s => p * (s - q) ^ 3 / 3 + r * s). apply (isi_eq _ _ _ (G b - G a)); [|unfold G; ring].
  apply (is_RInt_derive (V := R_CompleteNormedModule) G (fun s => p * (s - q) ^ 2 + r)).
  - intros x _. unfold G. auto_derive; [exact I|]. field.
  - intros x _. apply (ex_derive_continuous (fun s => p * (s - q) ^ 2 + r)). auto_derive. exact I.
Qed.
Lemma int_floor e a b : a <= b -> is_RInt (fun s => (Rmax s e - e) ^ 2) a b ((Rmax b e - e) ^ 3 / 3 - (Rmax a e - e) ^ 3 / 3).
Proof.
  intros AB. assert (LO : forall c d, c <= d -> d <= e -> is_RInt (fun s => (Rmax s e - e) ^ 2) c d 0).
  { intros c d CD DE. apply (isi_ext (fun _ => 0)); [|apply isi_const; ring]. intros x [_ X]. rewrite Rmax_right in X by lra. rewrite Rmax_right by lra. ring. }
  assert (HI : forall c d, c <= d -> e <= c -> is_RInt (fun s => (Rmax s e - e) ^ 2) c d ((d - e) ^ 3 / 3 - (c - e) ^ 3 / 3)).
  { intros c d CD EC. apply (isi_ext (fun s => 1 * (s - e) ^ 2 + 0)).
    - intros x [X _]. rewrite Rmin_left in X by lra. rewrite Rmax_left by lra. ring.
    - eapply isi_eq; [apply int_poly2|]. field. }
  destruct (Rle_dec e a) as [EA|EA]; [rewrite !Rmax_left by lra; apply HI; lra|]. destruct (Rle_dec b e) as [BE|BE].
  - rewrite !Rmax_right by lra. eapply isi_eq; [apply LO; lra|]. ring.
  - rewrite (Rmax_left b e), (Rmax_right a e) by lra. eapply (isi_chasles _ a e b); [apply LO; lra|apply HI; lra|]. field.
Qed.
Lemma int_cap e a b : a <= b -> is_RInt (fun s => (e - Rmin s e) ^ 2) a b ((e - Rmin a e) ^ 3 / 3 - (e - Rmin b e) ^ 3 / 3).
Proof.
  intros AB. assert (HI : forall c d, c <= d -> e <= c -> is_RInt (fun s => (e - Rmin s e) ^ 2) c d 0).
  { intros c d CD DE. apply (isi_ext (fun _ => 0)); [|apply isi_const; ring]. intros x [X _]. rewrite Rmin_left in X by lra. rewrite Rmin_right by lra. ring. }
  assert (LO : forall c d, c <= d -> d <= e -> is_RInt (fun s => (e - Rmin s e) ^ 2) c d ((e - c) ^ 3 / 3 - (e - d) ^ 3 / 3)).
  { intros c d CD EC. apply (isi_ext (fun s => 1 * (s - e) ^ 2 + 0)).
    - intros x [_ X]. rewrite Rmax_right in X by lra. rewrite Rmin_left by lra. ring.
    - eapply isi_eq; [apply int_poly2|]. field. }
  destruct (Rle_dec e a) as [EA|EA]; [rewrite !Rmin_right by lra; eapply isi_eq; [apply HI; lra|ring]|]. destruct (Rle_dec b e) as [BE|BE].
  - rewrite !Rmin_left by lra. apply LO; lra.
  - rewrite (Rmin_right b e), (Rmin_left a e) by lra. eapply (isi_chasles _ a e b); [apply LO; lra|apply HI; lra|]. field.
Qed.

(** * Lipschitz functions on [0, 1] *)
Definition lip (f : R -> R) : Prop := exists L, 0 <= L /\ forall x y, 0 <= x <= 1 -> 0 <= y <= 1 -> Rabs (f x - f y) <= L * Rabs (x - y).
Lemma lip_const c : lip (fun _ => c).
Proof. exists 0. split; [lra|]. intros x y _ _. rewrite Rminus_eq_0, Rabs_R0. lra. Qed.
Lemma lip_id : lip (fun x => x).
Proof. exists 1. split; [lra|]. intros x y _ _. lra. Qed.
Lemma lip_plus f g : lip f -> lip g -> lip (fun x => f x + g x).
Proof.
  intros (L & L0 & H) (K & K0 & G). exists (L + K). split; [lra|]. intros x y X Y. specialize (H x y X Y). specialize (G x y X Y).
  replace (f x + g x - (f y + g y)) with ((f x - f y) + (g x - g y)) by ring. eapply Rle_trans; [apply Rabs_triang|]. lra.
Qed.
Lemma lip_bound f : lip f -> exists B, 0 <= B /\ forall x, 0 <= x <= 1 -> Rabs (f x) <= B.
Proof.
  intros (L & L0 & H). exists (L + Rabs (f 0)). split; [pose proof (Rabs_pos (f 0)); lra|]. intros x X. specialize (H x 0 X ltac:(lra)). replace (f x) with ((f x - f 0) + f 0) by ring.
  eapply Rle_trans; [apply Rabs_triang|]. rewrite (Rabs_pos_eq (x - 0)) in H by lra. assert (L * (x - 0) <= L) by nra. lra.
Qed.
Lemma lip_mult f g : lip f -> lip g -> lip (fun x => f x * g x).
Proof.
  intros F G. destruct (lip_bound f F) as (B & B0 & HB). destruct (lip_bound g G) as (C & C0 & HC). destruct F as (L & L0 & H). destruct G as (K & K0 & G).
  exists (B * K + C * L). split; [nra|]. intros x y X Y. specialize (H x y X Y). specialize (G x y X Y). replace (f x * g x - f y * g y) with (f x * (g x - g y) + g y * (f x - f y)) by ring.
  eapply Rle_trans; [apply Rabs_triang|]. rewrite !Rabs_mult. rewrite Rmult_plus_distr_r. apply Rplus_le_compat.
  - rewrite Rmult_assoc. apply Rmult_le_compat; try apply Rabs_pos; [apply HB; exact X|exact G].
  - rewrite Rmult_assoc. apply Rmult_le_compat; try apply Rabs_pos; [apply HC; exact Y|exact H].
Qed.
Lemma lip_max e : lip (fun x => Rmax x e).
Proof. exists 1. split; [lra|]. intros x y _ _. unfold Rmax, Rabs. destruct (Rle_dec x e), (Rle_dec y e); repeat (destruct (Rcase_abs _)); lra. Qed.
Lemma lip_min e : lip (fun x => Rmin x e).
Proof. exists 1. split; [lra|]. intros x y _ _. unfold Rmin, Rabs. destruct (Rle_dec x e), (Rle_dec y e); repeat (destruct (Rcase_abs _)); lra. Qed.
Lemma lip_opp f : lip f -> lip (fun x => - f x).
Proof. intros (L & L0 & H). exists L. split; [exact L0|]. intros x y X Y. replace (- f x - - f y) with (- (f x - f y)) by ring. rewrite Rabs_Ropp. apply H; assumption. Qed.
Lemma lip_minus f g : lip f -> lip g -> lip (fun x => f x - g x).
Proof. intros F G. apply (lip_plus f (fun x => - g x)); [exact F|apply lip_opp; exact G]. Qed.
Lemma lip_div f c : lip f -> lip (fun x => f x / c).
Proof. intros F. apply (lip_mult f (fun _ => / c)); [exact F|apply lip_const]. Qed.
Ltac lip := repeat first [apply lip_const | apply lip_id | apply lip_max | apply lip_min | apply lip_plus | apply lip_minus | apply lip_mult | apply lip_div | apply lip_opp].

(** * One interval, relative to its average *)
Definition between (a b v : R) : Prop := Rmin a b <= v <= Rmax a b.
Lemma between_mix a b w : 0 <= w <= 1 -> between a b (a + (b - a) * w).
Proof. intros W. unfold between, Rmin, Rmax. destruct (Rle_dec a b); nra. Qed.
Lemma between_sym a b v : between a b v -> between b a v.
Proof. unfold between. rewrite Rmin_comm, Rmax_comm. tauto. Qed.

(** [v] is a curve from [g0] to [g1] with zero average and [I] its integral. *)
Record piece (g0 g1 : R) (v I : R -> R) : Prop := {
  piece_int : forall x, 0 <= x <= 1 -> is_RInt v 0 x (I x);
  piece_zero : I 0 = 0;
  piece_one : I 1 = 0;
  piece_left : g1 <> 0 -> v 0 = g0;
  piece_right : v 1 = g1;
  piece_lip : lip v;
  piece_bound : forall x, 0 <= x <= 1 -> between g0 g1 (v x) \/ 0 < g0 * g1 /\ (between (- (g0 * g1 / (g0 + g1))) g0 (v x) \/ between (- (g0 * g1 / (g0 + g1))) g1 (v x)) }.

Definition pred_1 (g0 g1 : R) : Prop := g1 + 2 * g0 < 0 /\ 0 <= g0 + 2 * g1 \/ 0 < g1 + 2 * g0 /\ g0 + 2 * g1 <= 0.
Definition pred_2 (g0 g1 : R) : Prop := g0 < 0 /\ 0 <= g1 + 2 * g0 \/ 0 < g0 /\ g1 + 2 * g0 <= 0.
Definition pred_3 (g0 g1 : R) : Prop := g1 <= 0 /\ 0 < g0 + 2 * g1 \/ 0 <= g1 /\ g0 + 2 * g1 < 0.
Definition pred_4 (g0 g1 : R) : Prop := 0 <= g0 /\ 0 < g1 \/ g0 <= 0 /\ g1 < 0.

Lemma test_1 g0 g1 x : fst (fst (region_1 (g1 + 2 * g0) (g0 + 2 * g1) g0 g1 x)) = true <-> pred_1 g0 g1.
Proof. unfold region_1, pred_1. cbn [fst]. rewrite orb_true_iff, !andb_true_iff, !rlt_true, !rleb_true. tauto. Qed.
Lemma test_2 g0 g1 x : fst (fst (region_2 (g1 + 2 * g0) (g0 + 2 * g1) g0 g1 x)) = true <-> pred_2 g0 g1.
Proof. unfold region_2, pred_2. cbn [fst]. rewrite orb_true_iff, !andb_true_iff, !rlt_true, !rleb_true. tauto. Qed.
Lemma test_3 g0 g1 x : fst (fst (region_3 (g1 + 2 * g0) (g0 + 2 * g1) g0 g1 x)) = true <-> pred_3 g0 g1.
Proof. unfold region_3, pred_3. cbn [fst]. rewrite orb_true_iff, !andb_true_iff, !rlt_true, !rleb_true. tauto. Qed.
Lemma test_4 g0 g1 x : fst (fst (region_4 (g1 + 2 * g0) (g0 + 2 * g1) g0 g1 x)) = true <-> pred_4 g0 g1.
Proof. unfold region_4, pred_4. cbn [fst]. rewrite orb_true_iff, !andb_true_iff, !rlt_true, !rleb_true. tauto. Qed.
Lemma covered g0 g1 : g0 <> 0 \/ g1 <> 0 -> pred_1 g0 g1 \/ pred_2 g0 g1 \/ pred_3 g0 g1 \/ pred_4 g0 g1.
Proof.
  intros N. unfold pred_1, pred_2, pred_3, pred_4. destruct (Rtotal_order g0 0) as [A|[A|A]]; destruct (Rtotal_order g1 0) as [B|[B|B]];
    destruct (Rle_lt_dec 0 (g1 + 2 * g0)); destruct (Rle_lt_dec 0 (g0 + 2 * g1)); try lra; 
    destruct (Req_dec (g1 + 2 * g0) 0); destruct (Req_dec (g0 + 2 * g1) 0); lra.
Qed.

(** Region 1: one parabola. *)
Definition v1 (g0 g1 x : R) : R := (3 * (g0 + g1) * x + -2 * (g1 + 2 * g0)) * x + g0.
Definition I1 (g0 g1 x : R) : R := x * (1 - x) * (g0 * (1 - x) - g1 * x).
Lemma region_1_fin g0 g1 x : snd (fst (region_1 (g1 + 2 * g0) (g0 + 2 * g1) g0 g1 x)) = Fin (v1 g0 g1 x) /\ snd (region_1 (g1 + 2 * g0) (g0 + 2 * g1) g0 g1 x) = Fin (I1 g0 g1 x).
Proof. split; reflexivity. Qed.
Lemma piece_1 g0 g1 : pred_1 g0 g1 -> piece g0 g1 (v1 g0 g1) (I1 g0 g1).
Proof.
  intros P. constructor.
  - intros x X. apply (isi_eq _ _ _ (I1 g0 g1 x - I1 g0 g1 0)); [|unfold I1; ring].
    apply (is_RInt_derive (V := R_CompleteNormedModule) (I1 g0 g1) (v1 g0 g1)).
    + intros s _. unfold I1, v1. auto_derive; [exact I|]. ring.
    + intros s _. apply (ex_derive_continuous (v1 g0 g1)). unfold v1. auto_derive. exact I.
  - unfold I1. ring.
  - unfold I1. ring.
  - intros _. unfold v1. ring.
  - unfold v1. ring.
  - unfold v1. lip.
  - intros x X. left. unfold pred_1, between in *. assert (A : v1 g0 g1 x - g0 = x * (3 * (g0 + g1) * x - 2 * (g1 + 2 * g0))) by (unfold v1; ring).
    assert (B : g1 - v1 g0 g1 x = (1 - x) * (3 * (g0 + g1) * x + (g1 - g0))) by (unfold v1; ring). set (v := v1 g0 g1 x) in *. clearbody v.
    assert (C : 3 * (g0 + g1) * x - 2 * (g1 + 2 * g0) = (1 - x) * (-2 * (g1 + 2 * g0)) + x * (g1 - g0)) by ring.
    assert (D : 3 * (g0 + g1) * x + (g1 - g0) = (1 - x) * (g1 - g0) + x * (2 * (g0 + 2 * g1))) by ring. rewrite C in A. rewrite D in B.
    destruct P as [[P Q]|[P Q]].
    + rewrite Rmin_left, Rmax_right by lra. assert (0 <= (1 - x) * (-2 * (g1 + 2 * g0)) + x * (g1 - g0)) by (apply Rplus_le_le_0_compat; apply Rmult_le_pos; lra).
      assert (0 <= (1 - x) * (g1 - g0) + x * (2 * (g0 + 2 * g1))) by (apply Rplus_le_le_0_compat; apply Rmult_le_pos; lra).
      split; [assert (0 <= v - g0) by (rewrite A; apply Rmult_le_pos; lra); lra|assert (0 <= g1 - v) by (rewrite B; apply Rmult_le_pos; lra); lra].
    + rewrite Rmin_right, Rmax_left by lra. assert (0 <= (1 - x) * (2 * (g1 + 2 * g0)) + x * (g0 - g1)) by (apply Rplus_le_le_0_compat; apply Rmult_le_pos; lra).
      assert (0 <= (1 - x) * (g0 - g1) + x * (-2 * (g0 + 2 * g1))) by (apply Rplus_le_le_0_compat; apply Rmult_le_pos; lra).
      split; [assert (0 <= v - g1)|assert (0 <= g0 - v)]; try lra.
      * replace (v - g1) with ((1 - x) * ((1 - x) * (g0 - g1) + x * (-2 * (g0 + 2 * g1)))) by lra. apply Rmult_le_pos; lra.
      * replace (g0 - v) with (x * ((1 - x) * (2 * (g1 + 2 * g0)) + x * (g0 - g1))) by lra. apply Rmult_le_pos; lra.
Qed.

(** A quotient in [0, 1]. *)
Lemma quot_bounds a b : b <> 0 -> 0 <= a * b -> 0 <= (b - a) * b -> 0 <= a / b <= 1.
Proof.
  intros B H1 H2. assert (BB : 0 < b * b) by nra. replace (a / b) with (a * b / (b * b)) by (field; exact B). split.
  - apply Rmult_le_pos; [exact H1|left; apply Rinv_0_lt_compat; exact BB].
  - apply (Rmult_le_reg_r (b * b)); [exact BB|]. unfold Rdiv. rewrite Rmult_assoc, Rinv_l by lra. nra.
Qed.

(** Region 2: flat, then a parabola. *)
Definition eta2 (g0 g1 : R) : R := (g1 + 2 * g0) / (g1 - g0).
Definition v2 (g0 g1 x : R) : R := let e := eta2 g0 g1 in g0 + (g1 - g0) * ((Rmax x e - e) / (1 - e) * ((Rmax x e - e) / (1 - e))).
Definition I2 (g0 g1 x : R) : R := let e := eta2 g0 g1 in let r := (Rmax x e - e) / (1 - e) in g0 * x + (g1 - g0) * (1 - e) / 3 * (r * (r * r)).
Lemma eta2_range g0 g1 : pred_2 g0 g1 -> g1 - g0 <> 0 /\ 0 <= eta2 g0 g1 < 1 /\ 1 - eta2 g0 g1 = - 3 * g0 / (g1 - g0).
Proof.
  intros P. unfold pred_2 in P. assert (N : g1 - g0 <> 0) by lra. assert (E : 1 - eta2 g0 g1 = - 3 * g0 / (g1 - g0)) by (unfold eta2; field; exact N).
  split; [exact N|]. split; [|exact E]. pose proof (quot_bounds (g1 + 2 * g0) (g1 - g0) N ltac:(destruct P; nra) ltac:(destruct P; nra)) as Q. fold (eta2 g0 g1) in Q.
  split; [lra|]. assert (- 3 * g0 / (g1 - g0) <> 0) by (unfold Rdiv; apply Rmult_integral_contrapositive_currified; [lra|apply Rinv_neq_0_compat; exact N]). lra.
Qed.
Lemma region_2_fin g0 g1 x : pred_2 g0 g1 -> snd (fst (region_2 (g1 + 2 * g0) (g0 + 2 * g1) g0 g1 x)) = Fin (v2 g0 g1 x) /\ snd (region_2 (g1 + 2 * g0) (g0 + 2 * g1) g0 g1 x) = Fin (I2 g0 g1 x).
Proof.
  intros P. destruct (eta2_range g0 g1 P) as (N & R & _). unfold region_2. cbn [fst snd]. rewrite fdiv by exact N. fold (eta2 g0 g1). assert (1 - eta2 g0 g1 <> 0) by lra. xfin. split; reflexivity.
Qed.
Lemma ratio_floor_bounds e x : 0 <= e < 1 -> 0 <= x <= 1 -> 0 <= (Rmax x e - e) / (1 - e) <= 1.
Proof. intros E X. apply quot_bounds; [lra| |]; unfold Rmax; destruct (Rle_dec x e); nra. Qed.
Lemma piece_2 g0 g1 : pred_2 g0 g1 -> piece g0 g1 (v2 g0 g1) (I2 g0 g1).
Proof.
  intros P. destruct (eta2_range g0 g1 P) as (N & R & E). set (e := eta2 g0 g1) in *. constructor.
  - intros x X. apply (isi_ext (fun s => (g1 - g0) / (1 - e) ^ 2 * (Rmax s e - e) ^ 2 + g0)).
    + intros s _. unfold v2. fold e. field. lra.
    + eapply isi_plus; [eapply isi_scal; [apply (int_floor e 0 x); lra|reflexivity]|apply isi_const; reflexivity|]. unfold I2. fold e. rewrite (Rmax_right 0 e) by lra. field. lra.
  - unfold I2. fold e. rewrite (Rmax_right 0 e) by lra. field. lra.
  - unfold I2. fold e. rewrite (Rmax_left 1 e) by lra. replace ((1 - e) / (1 - e)) with 1 by (field; lra). rewrite E. field. exact N.
  - intros _. unfold v2. fold e. rewrite (Rmax_right 0 e) by lra. field. lra.
  - unfold v2. fold e. rewrite (Rmax_left 1 e) by lra. field. lra.
  - unfold v2. cbv zeta. lip.
  - intros x X. left. unfold v2. fold e. pose proof (ratio_floor_bounds e x R X) as Q. set (r := (Rmax x e - e) / (1 - e)) in *. apply between_mix. nra.
Qed.

(** Region 3: a parabola, then flat. *)
Definition eta3 (g0 g1 : R) : R := 3 * g1 / (g1 - g0).
Definition v3 (g0 g1 x : R) : R := let e := eta3 g0 g1 in g1 + (g0 - g1) * ((e - Rmin x e) / e * ((e - Rmin x e) / e)).
Definition I3 (g0 g1 x : R) : R := let e := eta3 g0 g1 in let r := (e - Rmin x e) / e in g1 * x + e * (g0 - g1) / 3 * (1 - r * (r * r)).
Lemma eta3_range g0 g1 : pred_3 g0 g1 -> g1 - g0 <> 0 /\ 0 <= eta3 g0 g1 <= 1 /\ (g1 <> 0 -> 0 < eta3 g0 g1) /\ (g1 = 0 -> eta3 g0 g1 = 0).
Proof.
  intros P. unfold pred_3 in P. assert (N : g1 - g0 <> 0) by lra. pose proof (quot_bounds (3 * g1) (g1 - g0) N ltac:(destruct P; nra) ltac:(destruct P; nra)) as Q. fold (eta3 g0 g1) in Q.
  split; [exact N|]. split; [exact Q|]. split.
  - intros G. assert (3 * g1 / (g1 - g0) <> 0) by (unfold Rdiv; apply Rmult_integral_contrapositive_currified; [lra|apply Rinv_neq_0_compat; exact N]). fold (eta3 g0 g1) in H. lra.
  - intros ->. unfold eta3. field. lra.
Qed.
Lemma region_3_fin g0 g1 x : pred_3 g0 g1 -> 0 <= x -> snd (fst (region_3 (g1 + 2 * g0) (g0 + 2 * g1) g0 g1 x)) = Fin (v3 g0 g1 x) /\ snd (region_3 (g1 + 2 * g0) (g0 + 2 * g1) g0 g1 x) = Fin (I3 g0 g1 x).
Proof.
  intros P X. destruct (eta3_range g0 g1 P) as (N & R & R1 & R2). unfold region_3. cbn [fst snd]. rewrite fdiv by exact N. fold (eta3 g0 g1). destruct (Req_dec g1 0) as [G|G].
  - specialize (R2 G). unfold v3, I3. rewrite R2. rewrite fmin, fsub, (Rmin_right x 0) by lra. replace (0 - 0) with 0 by ring. rewrite zero_zero. cbn [is_nan]. xfin. split; f_equal; unfold Rdiv; rewrite ?Rinv_0; ring.
  - specialize (R1 G). rewrite fmin, fsub, fdiv by lra. cbn [is_nan]. xfin. split; reflexivity.
Qed.
Lemma ratio_cap_bounds e x : 0 < e <= 1 -> 0 <= x <= 1 -> 0 <= (e - Rmin x e) / e <= 1.
Proof. intros E X. apply quot_bounds; [lra| |]; unfold Rmin; destruct (Rle_dec x e); nra. Qed.
Lemma piece_3 g0 g1 : pred_3 g0 g1 -> piece g0 g1 (v3 g0 g1) (I3 g0 g1).
Proof.
  intros P. destruct (eta3_range g0 g1 P) as (N & R & R1 & R2). destruct (Req_dec g1 0) as [G|G].
  - specialize (R2 G). assert (V : forall x, v3 g0 g1 x = 0) by (intros x; unfold v3; rewrite R2, G; unfold Rdiv; rewrite Rinv_0; ring).
    assert (J : forall x, I3 g0 g1 x = 0) by (intros x; unfold I3; rewrite R2, G; unfold Rdiv; ring). constructor.
    + intros x X. rewrite J. apply (isi_ext (fun _ => 0)); [intros s _; rewrite V; reflexivity|apply isi_const; ring].
    + apply J.
    + apply J.
    + contradiction.
    + rewrite V. lra.
    + exists 0. split; [lra|]. intros x y _ _. rewrite !V, Rminus_eq_0, Rabs_R0. lra.
    + intros x X. left. rewrite V, G. unfold between, Rmin, Rmax. destruct (Rle_dec g0 0); lra.
  - specialize (R1 G). set (e := eta3 g0 g1) in *. constructor.
    + intros x X. apply (isi_ext (fun s => (g0 - g1) / e ^ 2 * (e - Rmin s e) ^ 2 + g1)).
      * intros s _. unfold v3. fold e. field. lra.
      * eapply isi_plus; [eapply isi_scal; [apply (int_cap e 0 x); lra|reflexivity]|apply isi_const; reflexivity|]. unfold I3. fold e. rewrite (Rmin_left 0 e) by lra. field. lra.
    + unfold I3. fold e. rewrite (Rmin_left 0 e) by lra. field. lra.
    + unfold I3. fold e. rewrite (Rmin_right 1 e) by lra. replace ((e - e) / e) with 0 by (field; lra). unfold e, eta3. field. exact N.
    + intros _. unfold v3. fold e. rewrite (Rmin_left 0 e) by lra. field. lra.
    + unfold v3. fold e. rewrite (Rmin_right 1 e) by lra. field. lra.
    + unfold v3. cbv zeta. lip.
    + intros x X. left. unfold v3. fold e. pose proof (ratio_cap_bounds e x ltac:(lra) X) as Q. set (r := (e - Rmin x e) / e) in *. apply between_sym. apply between_mix. nra.
Qed.

(** Region 4: two parabolas with their vertex at [eta4]. *)
Definition eta4 (g0 g1 : R) : R := g1 / (g0 + g1).
Definition sh (g0 g1 : R) : R := - (1 / 2) * (eta4 g0 g1 * g0 + (1 - eta4 g0 g1) * g1).
Definition v4 (g0 g1 x : R) : R := let e := eta4 g0 g1 in let a := sh g0 g1 in let c := (e - Rmin x e) / e in let f := (Rmax x e - e) / (1 - e) in a + (g0 - a) * (c * c) + (g1 - a) * (f * f).
Definition I4 (g0 g1 x : R) : R := let e := eta4 g0 g1 in let a := sh g0 g1 in let c := (e - Rmin x e) / e in let f := (Rmax x e - e) / (1 - e) in
  a * x + (g0 - a) * e * (1 - c * (c * c)) / 3 + (g1 - a) * (1 - e) * (f * (f * f)) / 3.
Lemma eta4_range g0 g1 : pred_4 g0 g1 -> g0 <> 0 -> g0 + g1 <> 0 /\ 0 < eta4 g0 g1 < 1 /\ 0 < g0 * g1 /\ sh g0 g1 = - (g0 * g1 / (g0 + g1)).
Proof.
  intros P Z. unfold pred_4 in P. assert (N : g0 + g1 <> 0) by lra. pose proof (quot_bounds g1 (g0 + g1) N ltac:(destruct P; nra) ltac:(destruct P; nra)) as Q. fold (eta4 g0 g1) in Q.
  assert (g1 / (g0 + g1) <> 0) by (unfold Rdiv; apply Rmult_integral_contrapositive_currified; [lra|apply Rinv_neq_0_compat; exact N]).
  assert (1 - eta4 g0 g1 <> 0). { replace (1 - eta4 g0 g1) with (g0 / (g0 + g1)) by (unfold eta4; field; exact N). unfold Rdiv. apply Rmult_integral_contrapositive_currified; [exact Z|apply Rinv_neq_0_compat; exact N]. }
  fold (eta4 g0 g1) in H. split; [exact N|]. split; [lra|]. split; [destruct P; nra|]. unfold sh, eta4. field. exact N.
Qed.
Lemma region_4_fin g0 g1 x : pred_4 g0 g1 -> g0 <> 0 -> snd (fst (region_4 (g1 + 2 * g0) (g0 + 2 * g1) g0 g1 x)) = Fin (v4 g0 g1 x) /\ snd (region_4 (g1 + 2 * g0) (g0 + 2 * g1) g0 g1 x) = Fin (I4 g0 g1 x).
Proof.
  intros P Z. destruct (eta4_range g0 g1 P Z) as (N & R & _ & _). unfold region_4. cbn [fst snd]. rewrite fdiv by exact N. fold (eta4 g0 g1). assert (1 - eta4 g0 g1 <> 0) by lra. assert (eta4 g0 g1 <> 0) by lra. xfin. split; reflexivity.
Qed.
Lemma piece_4 g0 g1 : pred_4 g0 g1 -> g0 <> 0 -> piece g0 g1 (v4 g0 g1) (I4 g0 g1).
Proof.
  intros P Z. destruct (eta4_range g0 g1 P Z) as (N & R & S & A). set (e := eta4 g0 g1) in *. set (a := sh g0 g1) in *. constructor.
  - intros x X. apply (isi_ext (fun s => ((g0 - a) / e ^ 2 * (e - Rmin s e) ^ 2 + (g1 - a) / (1 - e) ^ 2 * (Rmax s e - e) ^ 2) + a)).
    + intros s _. unfold v4. fold e. fold a. field. lra.
    + eapply isi_plus; [eapply isi_plus; [eapply isi_scal; [apply (int_cap e 0 x); lra|reflexivity]|eapply isi_scal; [apply (int_floor e 0 x); lra|reflexivity]|reflexivity]|apply isi_const; reflexivity|].
      unfold I4. fold e. fold a. rewrite (Rmin_left 0 e), (Rmax_right 0 e) by lra. field. lra.
  - unfold I4. fold e. fold a. rewrite (Rmin_left 0 e), (Rmax_right 0 e) by lra. field. lra.
  - unfold I4. fold e. fold a. rewrite (Rmin_right 1 e), (Rmax_left 1 e) by lra. replace ((e - e) / e) with 0 by (field; lra). replace ((1 - e) / (1 - e)) with 1 by (field; lra).
    unfold a, sh. fold e. unfold e, eta4. field. exact N.
  - intros _. unfold v4. fold e. fold a. rewrite (Rmin_left 0 e), (Rmax_right 0 e) by lra. field. lra.
  - unfold v4. fold e. fold a. rewrite (Rmin_right 1 e), (Rmax_left 1 e) by lra. field. lra.
  - unfold v4. cbv zeta. lip.
  - intros x X. right. split; [exact S|]. unfold v4. fold e. fold a. rewrite <- A. pose proof (ratio_cap_bounds e x ltac:(lra) X) as Q1. pose proof (ratio_floor_bounds e x ltac:(lra) X) as Q2.
    set (c := (e - Rmin x e) / e) in *. set (f := (Rmax x e - e) / (1 - e)) in *. destruct (Rle_dec x e) as [L|L].
    + left. assert (F0 : f = 0) by (unfold f; rewrite Rmax_right by lra; field; lra). rewrite F0. replace (a + (g0 - a) * (c * c) + (g1 - a) * (0 * 0)) with (a + (g0 - a) * (c * c)) by ring. apply between_mix. nra.
    + right. assert (C0 : c = 0) by (unfold c; rewrite Rmin_right by lra; field; lra). rewrite C0. replace (a + (g0 - a) * (0 * 0) + (g1 - a) * (f * f)) with (a + (g1 - a) * (f * f)) by ring. apply between_mix. nra.
Qed.

(** * The choice of region *)
Definition regions (g0 g1 x : R) : xr * xr :=
  let A := g1 + 2 * g0 in let B := g0 + 2 * g1 in
  where2 (region_4 A B g0 g1 x) (where2 (region_3 A B g0 g1 x) (where2 (region_2 A B g0 g1 x) (where2 (region_1 A B g0 g1 x) (Fin 0, Fin 0)))).
Lemma where2_true r acc : fst (fst r) = true -> where2 r acc = (snd (fst r), snd r).
Proof. destruct r as [[b v] i]. cbn. intros ->. reflexivity. Qed.
Lemma where2_false r acc : fst (fst r) <> true -> where2 r acc = acc.
Proof. destruct r as [[b v] i]. cbn. destruct b; [contradiction|reflexivity]. Qed.
Lemma pred_dec (P : R -> R -> Prop) (t : R -> R -> bool) : (forall a b, t a b = true <-> P a b) -> forall a b, P a b \/ ~ P a b.
Proof. intros H a b. rewrite <- H. destruct (t a b); [left; reflexivity|right; discriminate]. Qed.

Lemma regions_piece g0 g1 : g0 <> 0 \/ g1 = 0 -> exists v I, piece g0 g1 v I /\ forall x, 0 <= x <= 1 -> regions g0 g1 x = (Fin (v x), Fin (I x)).
Proof.
  intros Z. unfold regions.
  destruct (pred_dec pred_4 _ (fun a b => test_4 a b 0) g0 g1) as [P4|P4].
  { assert (N : g0 <> 0) by (destruct Z as [Z|Z]; [exact Z|unfold pred_4 in P4; lra]). exists (v4 g0 g1), (I4 g0 g1). split; [apply piece_4; assumption|]. intros x X.
    rewrite where2_true by (apply test_4; exact P4). destruct (region_4_fin g0 g1 x P4 N) as [-> ->]. reflexivity. }
  destruct (pred_dec pred_3 _ (fun a b => test_3 a b 0) g0 g1) as [P3|P3].
  { exists (v3 g0 g1), (I3 g0 g1). split; [apply piece_3; assumption|]. intros x X. rewrite where2_false by (rewrite test_4; exact P4).
    rewrite where2_true by (apply test_3; exact P3). destruct (region_3_fin g0 g1 x P3 ltac:(lra)) as [-> ->]. reflexivity. }
  destruct (pred_dec pred_2 _ (fun a b => test_2 a b 0) g0 g1) as [P2|P2].
  { exists (v2 g0 g1), (I2 g0 g1). split; [apply piece_2; assumption|]. intros x X. rewrite where2_false by (rewrite test_4; exact P4). rewrite where2_false by (rewrite test_3; exact P3).
    rewrite where2_true by (apply test_2; exact P2). destruct (region_2_fin g0 g1 x P2) as [-> ->]. reflexivity. }
  destruct (pred_dec pred_1 _ (fun a b => test_1 a b 0) g0 g1) as [P1|P1].
  { exists (v1 g0 g1), (I1 g0 g1). split; [apply piece_1; assumption|]. intros x X. rewrite where2_false by (rewrite test_4; exact P4). rewrite where2_false by (rewrite test_3; exact P3). rewrite where2_false by (rewrite test_2; exact P2).
    rewrite where2_true by (apply test_1; exact P1). reflexivity. }
  assert (O : g0 = 0 /\ g1 = 0). { destruct (Req_dec g0 0); destruct (Req_dec g1 0); try (split; assumption); exfalso; destruct (covered g0 g1) as [H1|[H1|[H1|H1]]]; auto. }
  destruct O as [-> ->]. exists (fun _ => 0), (fun _ => 0). split.
  - constructor; try reflexivity.
    + intros x _. apply isi_const. ring.
    + apply lip_const.
    + intros x _. left. unfold between, Rmin, Rmax. destruct (Rle_dec 0 0); lra.
  - intros x X. rewrite where2_false by (rewrite test_4; exact P4). rewrite where2_false by (rewrite test_3; exact P3). rewrite where2_false by (rewrite test_2; exact P2). rewrite where2_false by (rewrite test_1; exact P1). reflexivity.
Qed.
Lemma regions_nan g1 x : g1 <> 0 -> 0 <= x <= 1 -> regions 0 g1 x = (NaN, NaN).
Proof.
  intros N X. unfold regions. assert (P4 : pred_4 0 g1) by (unfold pred_4; lra). rewrite where2_true by (apply test_4; exact P4). unfold region_4. cbn [fst snd].
  rewrite fdiv by lra. replace (g1 / (0 + g1)) with 1 by (field; lra). xfin. replace (1 - 1) with 0 by ring. rewrite (Rmax_right x 1) by lra. replace (1 - 1) with 0 by ring. rewrite zero_zero. rewrite (fdiv _ 3) by lra. reflexivity.
Qed.
