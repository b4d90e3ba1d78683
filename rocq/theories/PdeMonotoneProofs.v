(** Lemmas for the order of the values under the weighted scheme. *)
From Coq Require Import Reals List Bool Arith Lra Lia.
From Verif Require Import TimeGridSpec PdeStepModel PdeStepSpec PdeStepView PdeStepProofs PdeRowProofs PropsPdeStep PdeMonotoneSpec.
Import ListNotations.
Open Scope R_scope.

Lemma argmin (f : nat -> R) n : (0 < n)%nat -> exists p, (p < n)%nat /\ forall q, (q < n)%nat -> f p <= f q.
Proof.
  induction n as [|n IH]; intros H; [lia|]. destruct n as [|n]; [exists 0%nat; split; [lia|]; intros q Q; replace q with 0%nat by lia; lra|].
  destruct (IH ltac:(lia)) as (p & P & M). destruct (Rle_dec (f p) (f (S n))) as [L|L].
  - exists p. split; [lia|]. intros q Q. destruct (Nat.eq_dec q (S n)) as [->|]; [exact L|apply M; lia].
  - exists (S n). split; [lia|]. intros q Q. destruct (Nat.eq_dec q (S n)) as [->|]; [lra|]. specialize (M q ltac:(lia)). lra.
Qed.

(** the order is kept at the unknowns when it is kept at the other points *)
Lemma core n (f0 f1 L0 L1 : nat -> R) (unk : nat -> Prop) (d theta : R) :
  0 <= d -> theta <= 1 ->
  (forall p, (p < n)%nat -> unk p \/ 0 <= f1 p) ->
  (forall p, (p < n)%nat -> unk p -> d * (theta * L0 p + (1 - theta) * L1 p) <= f1 p - f0 p) ->
  (forall p, (p < n)%nat -> unk p -> 0 <= f0 p + theta * d * L0 p) ->
  (forall p, (p < n)%nat -> unk p -> (forall q, (q < n)%nat -> f1 p <= f1 q) -> f1 p <= 0 -> 0 <= L1 p) ->
  forall p, (p < n)%nat -> 0 <= f1 p.
Proof.
  intros D T K E X M p P. destruct (argmin f1 n ltac:(lia)) as (p0 & P0 & A). apply Rle_trans with (f1 p0); [|apply A; exact P].
  destruct (Rle_dec 0 (f1 p0)) as [|N]; [assumption|]. destruct (K p0 P0) as [U|]; [|assumption].
  specialize (E p0 P0 U). specialize (X p0 P0 U). specialize (M p0 P0 U A ltac:(lra)).
  assert (0 <= d * (1 - theta) * L1 p0) by (apply Rmult_le_pos; [apply Rmult_le_pos; lra|exact M]). lra.
Qed.

Section Step.
  Variables (xs : list R) (lower upper : boundary) (co : coefficients) (t theta dt : R).
  Let n := length xs.
  Let x := sq xs.
  Let a := coef_at (second co t).
  Let b := coef_at (first_ co t).
  Let c := coef_at (zeroth co t).
  Hypotheses (Hx : increasing xs) (Hn : (3 <= n)%nat) (MO : monotone_at xs lower upper co t theta dt).

  Lemma op_weights f p : unknown lower upper n p ->
    op xs lower upper (pde_at co t) f p
    = upper_weight x n a b p * (f (S p) - f p) + lower_weight x n a b p * (f (p - 1)%nat - f p) + c p * f p.
  Proof.
    intros (P & P0 & P1). destruct MO as (N1 & N2 & _).
    assert (INN : forall i, (S (S i) < n)%nat -> S i = p -> space_operator (pde_at co t) x f i
      = upper_weight x n a b p * (f (S p) - f p) + lower_weight x n a b p * (f (p - 1)%nat - f p) + c p * f p).
    { intros i I E. subst p. unfold upper_weight, lower_weight. destruct (Nat.eqb_spec (S i) 0); [lia|]. destruct (Nat.eqb_spec (S i) (n - 1)); [lia|].
      cbn [Nat.sub]. rewrite Nat.sub_0_r, Nat.add_1_r.
      unfold space_operator, second_term, first_term, zeroth_term, pde_at. cbn [pa pb pc pA pB]. rewrite N1, N2. cbn [option_map value].
      pose proof (inc3 xs i Hx ltac:(unfold n in I; lia)) as [X1 X2]. fold x in X1, X2.
      unfold a, b, c, coef_at. destruct (second co t), (first_ co t), (zeroth co t); cbn [option_map value]; unfold d1, d2, slope, sq; fold x;
        change (nth i xs 0) with (x i); change (nth (S i) xs 0) with (x (S i)); change (nth (S (S i)) xs 0) with (x (S (S i))); field; repeat split; lra. }
    unfold op. fold n x. destruct p as [|p].
    - destruct lower as [g|] eqn:EL; [discriminate (P0 eq_refl)|].
      unfold lower_operator, zeroth_term, pde_at. cbn [pa pb pc pA pB]. rewrite N2. unfold upper_weight, lower_weight. cbn [Nat.eqb].
      pose proof (inc3 xs 0 Hx ltac:(unfold n in Hn; lia)) as [X1 X2]. fold x in X1, X2.
      unfold b, c, coef_at. destruct (first_ co t), (zeroth co t); cbn [option_map value]; unfold sq; field; lra.
    - assert (G : forall u : boundary, u = upper -> match u with None => if Nat.eqb (S p) (n - 1) then upper_operator (pde_at co t) (x (n - 2)%nat - x (n - 3)%nat) f (n - 1) else space_operator (pde_at co t) x f (S p - 1) | Some _ => space_operator (pde_at co t) x f (S p - 1) end
        = upper_weight x n a b (S p) * (f (S (S p)) - f (S p)) + lower_weight x n a b (S p) * (f (S p - 1)%nat - f (S p)) + c (S p) * f (S p)).
      { intros u EU. destruct (Nat.eqb_spec (S p) (n - 1)) as [Q|Q].
        - rewrite <- EU in P1. rewrite (P1 Q). rewrite Q. unfold upper_operator, zeroth_term, pde_at. cbn [pa pb pc pA pB]. rewrite N2. unfold upper_weight, lower_weight. rewrite Nat.eqb_refl.
          destruct (Nat.eqb_spec (n - 1) 0); [lia|].
          pose proof (inc3 xs (n - 3) Hx ltac:(fold n; lia)) as [X1 X2]. fold x in X1, X2. replace (S (n - 3)) with (n - 2)%nat in * by lia.
          unfold b, c, coef_at. destruct (first_ co t), (zeroth co t); cbn [option_map value]; unfold sq; field; lra.
        - destruct u; cbn [Nat.sub]; rewrite ?Nat.sub_0_r; (rewrite INN; [cbn [Nat.sub]; rewrite ?Nat.sub_0_r; reflexivity|lia|reflexivity]). }
      destruct lower; apply (G upper eq_refl).
  Qed.

  Lemma unknown_dec p : (p < n)%nat -> unknown lower upper n p \/ ((p = 0%nat /\ lower <> None) \/ (p = (n - 1)%nat /\ upper <> None)).
  Proof.
    intros P. destruct (Nat.eq_dec p 0) as [E0|E0]; [destruct lower as [g|] eqn:EL|destruct (Nat.eq_dec p (n - 1)) as [E1|E1]; [destruct upper as [g|] eqn:EU|]].
    - right. left. split; [exact E0|discriminate].
    - left. split; [exact P|]. split; [reflexivity|]. intros; lia.
    - right. right. split; [exact E1|discriminate].
    - left. split; [exact P|]. split; [intros; lia|reflexivity].
    - left. split; [exact P|]. split; intros; lia.
  Qed.
  (** the weight of the missing neighbour vanishes *)
  Lemma edge_weights : lower_weight x n a b 0 = 0 /\ upper_weight x n a b (n - 1) = 0.
  Proof.
    unfold lower_weight, upper_weight. cbn [Nat.eqb]. split; [reflexivity|]. destruct (Nat.eqb_spec (n - 1) 0); [lia|]. rewrite Nat.eqb_refl. reflexivity.
  Qed.
  Lemma explicit_positive f p : 0 <= theta -> 0 <= dt -> (forall q, (q < n)%nat -> 0 <= f q) -> unknown lower upper n p ->
    0 <= f p + theta * dt * op xs lower upper (pde_at co t) f p.
  Proof.
    intros T D F U. rewrite op_weights by exact U. destruct MO as (_ & _ & W). destruct (W p U) as (W1 & W2 & W3 & W4). fold n x a b c in W1, W2, W3, W4.
    set (up := upper_weight x n a b p) in *. set (lo := lower_weight x n a b p) in *. destruct U as (P & _).
    assert (TD : 0 <= theta * dt) by (apply Rmult_le_pos; lra).
    assert (A1 : 0 <= (1 - theta * dt * (up + lo - c p)) * f p) by (apply Rmult_le_pos; [lra|apply F; exact P]).
    assert (A2 : 0 <= up * f (S p)).
    { destruct (Nat.eq_dec p (n - 1)) as [Q|Q]; [unfold up; rewrite Q, (proj2 edge_weights); lra|]. apply Rmult_le_pos; [exact W1|apply F; lia]. }
    assert (A3 : 0 <= lo * f (p - 1)%nat) by (apply Rmult_le_pos; [exact W2|apply F; lia]).
    assert (A4 : 0 <= theta * dt * (up * f (S p) + lo * f (p - 1)%nat)) by (apply Rmult_le_pos; lra). lra.
  Qed.
  Lemma at_minimum f p : (forall q, (q < n)%nat -> f p <= f q) -> f p <= 0 -> unknown lower upper n p -> 0 <= op xs lower upper (pde_at co t) f p.
  Proof.
    intros F N U. rewrite op_weights by exact U. destruct MO as (_ & _ & W). destruct (W p U) as (W1 & W2 & W3 & _). fold n x a b c in W1, W2, W3.
    destruct U as (P & _).
    assert (A2 : 0 <= upper_weight x n a b p * (f (S p) - f p)).
    { destruct (Nat.eq_dec p (n - 1)) as [Q|Q]; [rewrite Q, (proj2 edge_weights); lra|]. specialize (F (S p) ltac:(lia)). apply Rmult_le_pos; lra. }
    assert (A3 : 0 <= lower_weight x n a b p * (f (p - 1)%nat - f p)) by (specialize (F (p - 1)%nat ltac:(lia)); apply Rmult_le_pos; lra).
    assert (A4 : 0 <= c p * f p) by (replace (c p * f p) with (- c p * - f p) by ring; apply Rmult_le_pos; lra). lra.
  Qed.
  Lemma op_minus f g p : unknown lower upper n p -> op xs lower upper (pde_at co t) (fun q => f q - g q) p = op xs lower upper (pde_at co t) f p - op xs lower upper (pde_at co t) g p.
  Proof. intros U. rewrite !op_weights by exact U. ring. Qed.
  Lemma op_const m p : unknown lower upper n p -> op xs lower upper (pde_at co t) (fun _ => m) p = c p * m.
  Proof. intros U. rewrite op_weights by exact U. ring. Qed.

  (** the entries of the matrix *)
  Definition unit_at (j : nat) : nat -> R := fun q => if Nat.eqb q j then 1 else 0.
  Lemma unit_same j : unit_at j j = 1. Proof. unfold unit_at. rewrite Nat.eqb_refl. reflexivity. Qed.
  Lemma unit_other j q : q <> j -> unit_at j q = 0. Proof. unfold unit_at. intros H. destruct (Nat.eqb_spec q j); [contradiction|reflexivity]. Qed.
  Lemma index_unknown i : let k := (n - offset lower - offset upper)%nat in (i < k)%nat -> unknown lower upper n (i + offset lower).
  Proof. cbv zeta. intros I. unfold unknown. destruct lower, upper; cbn [offset] in *; (split; [lia|]; split; intros; (reflexivity || lia)). Qed.
  Lemma entries vs m i : sized_co n co t -> length vs = n -> extended_matrix xs co vs lower upper t = Some m ->
    let k := (n - offset lower - offset upper)%nat in let p := (i + offset lower)%nat in (2 <= k)%nat -> (i < k)%nat ->
    nth i (fst (fst m)) 0 = - lower_weight x n a b p
    /\ nth i (snd (fst m)) 0 = upper_weight x n a b p + lower_weight x n a b p - c p
    /\ nth i (snd m) 0 = - upper_weight x n a b p.
  Proof.
    intros SC Lv H k p K I. destruct (extended_rows xs Hx Hn co vs lower upper t m SC Lv H) as (W & Rw & E1 & E2). fold n in W, Rw, E2. fold k in W, Rw, E2.
    pose proof (index_unknown i I) as U. fold p in U. destruct m as [[sub diag] sup]. cbn [fst snd] in *.
    assert (Rr : forall f, full_row (offset lower) (sub, diag, sup) f i = - (upper_weight x n a b p * (f (S p) - f p) + lower_weight x n a b p * (f (p - 1)%nat - f p) + c p * f p)).
    { intros f. rewrite Rw by exact I. fold p. rewrite op_weights by exact U. reflexivity. }
    unfold full_row in Rr. fold p in Rr.
    assert (DG : nth i diag 0 = upper_weight x n a b p + lower_weight x n a b p - c p).
    { specialize (Rr (unit_at p)). rewrite unit_same, (unit_other p (S p)) in Rr by lia. destruct p as [|j] eqn:EP.
      - cbn [Nat.sub] in Rr. rewrite unit_same in Rr. rewrite (proj1 edge_weights) in *. lra.
      - cbn [Nat.sub] in Rr. rewrite Nat.sub_0_r in Rr. rewrite (unit_other (S j) j) in Rr by lia. lra. }
    assert (SP : nth i sup 0 = - upper_weight x n a b p).
    { specialize (Rr (unit_at (S p))). rewrite unit_same, (unit_other (S p) p) in Rr by lia. rewrite (unit_other (S p) (p - 1)%nat) in Rr by lia. destruct p as [|j] eqn:EP; [lra|].
      rewrite (unit_other (S (S j)) j) in Rr by lia. lra. }
    split; [|split; [exact DG|exact SP]].
    destruct p as [|j] eqn:EP.
    - assert (EL : lower = None) by (apply U; reflexivity). unfold p in EP. rewrite EL in EP. cbn [offset] in EP. replace i with 0%nat by lia. rewrite (E1 EL), (proj1 edge_weights). ring.
    - specialize (Rr (unit_at j)). rewrite unit_same, (unit_other j (S j)), (unit_other j (S (S j))) in Rr by lia. cbn [Nat.sub] in Rr. rewrite Nat.sub_0_r, unit_same in Rr. lra.
  Qed.
End Step.
