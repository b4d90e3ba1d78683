(** Quadrature tables: certified moments and the lift to polynomials. *)
From Coquelicot Require Import Coquelicot.
From Coq Require Import Reals List Bool ZArith QArith Qreals Lia Lra Psatz.
From Verif Require Import TensorModel TensorProofs InterpModel IntegrateModel PolySpec RIntAux SimpsonProofs.
Import ListNotations.
Open Scope R_scope.

(** ** Fixed-point moments *)
Definition bits : Z := 96.
Definition fixp (q : Q) : Z := (Qnum q * 2 ^ bits) / Zpos (Qden q).
Definition dotz (ps ws : list Z) : Z := fold_right Z.add 0%Z (map (fun '(p, w) => (p * w)%Z) (combine ps ws)).
Definition stepz (rs ps : list Z) : list Z := map (fun '(p, r) => Z.shiftr (p * r) bits) (combine ps rs).
Fixpoint moments (k : nat) (rs ps ws : list Z) : list Z :=
  match k with O => [] | S k => dotz ps ws :: moments k rs (stepz rs ps) ws end.
Definition moment_ok (eps k s : Z) : bool :=
  (Z.abs (s * (k + 1) - (if Z.even k then 2 else 0) * 2 ^ (2 * bits)) <=? eps * (k + 1))%Z.
Fixpoint all_ok (eps k : Z) (l : list Z) : bool := match l with [] => true | s :: r => moment_ok eps k s && all_ok eps (k + 1) r end.
Definition unit_ok (q : Q) : bool := Qle_bool (-1) q && Qle_bool q 1.
Definition check (deg : nat) (eps : Z) (rs ws : list Q) : bool :=
  Nat.eqb (length rs) (length ws) && forallb unit_ok rs && forallb unit_ok ws &&
  all_ok eps 0 (moments deg (map fixp rs) (map (fun _ => (2 ^ bits)%Z) rs) (map fixp ws)).

Definition scale : R := IZR (2 ^ bits).
Lemma scale_pos : 0 < scale.
Proof. unfold scale. apply (IZR_lt 0). reflexivity. Qed.
Definition fx (z : Z) : R := IZR z / scale.

Lemma floor_div_err (a b : Z) : (0 < b)%Z -> IZR (a / b) <= IZR a / IZR b <= IZR (a / b) + 1.
Proof.
  intros B. pose proof (Z.div_mod a b ltac:(lia)) as D. pose proof (Z.mod_pos_bound a b B) as M.
  assert (BR : 0 < IZR b) by (apply IZR_lt; exact B).
  assert (E : IZR a = IZR b * IZR (a / b) + IZR (a mod b)) by (rewrite <- mult_IZR, <- plus_IZR; f_equal; exact D).
  assert (M0 : 0 <= IZR (a mod b) <= IZR b) by (split; apply IZR_le; lia).
  split; [apply Rle_div_r|apply Rle_div_l]; nra.
Qed.
Lemma fixp_err q : Rabs (fx (fixp q) - Q2R q) <= / scale.
Proof.
  unfold fx, fixp, Q2R. pose proof (floor_div_err (Qnum q * 2 ^ bits) (Zpos (Qden q)) ltac:(lia)) as H. rewrite mult_IZR in H. fold scale in H.
  pose proof scale_pos as S. assert (D : 0 < IZR (Zpos (Qden q))) by (apply (IZR_lt 0); lia).
  set (z := (Qnum q * 2 ^ bits / Zpos (Qden q))%Z) in *. set (a := IZR (Qnum q)) in *. set (d := IZR (Zpos (Qden q))) in *.
  replace (a * scale / d) with ((a * / d) * scale) in H by (field; lra).
  replace (IZR z / scale - a * / d) with ((IZR z - (a * / d) * scale) * / scale) by (field; lra).
  rewrite Rabs_mult, (Rabs_right (/ scale)) by (left; apply Rinv_0_lt_compat; exact S).
  rewrite <- (Rmult_1_l (/ scale)) at 2. apply Rmult_le_compat_r; [left; apply Rinv_0_lt_compat; exact S|]. apply Rabs_le. lra.
Qed.

(** One fixed-point power. *)
Fixpoint powz (r : Z) (j : nat) : Z := match j with O => (2 ^ bits)%Z | S j => Z.shiftr (powz r j * r) bits end.
Lemma powz_unit r j : (Z.abs r <= 2 ^ bits)%Z -> (Z.abs (powz r j) <= 2 ^ bits)%Z.
Proof.
  intros R1. induction j as [|j IH]; [cbn [powz]; rewrite Z.abs_eq; [lia|apply Z.pow_nonneg; lia]|].
  cbn [powz]. rewrite Z.shiftr_div_pow2 by (unfold bits; lia). assert (P : (0 < 2 ^ bits)%Z) by reflexivity. set (S := (2 ^ bits)%Z) in *. clearbody S.
  assert (B : (- (S * S) <= powz r j * r <= S * S)%Z) by nia.
  assert ((- S <= powz r j * r / S)%Z) by (apply Z.div_le_lower_bound; nia).
  assert ((powz r j * r / S <= S)%Z) by (apply Z.div_le_upper_bound; nia). lia.
Qed.
Lemma pow_unit x j : Rabs x <= 1 -> Rabs (x ^ j) <= 1.
Proof. intros H. rewrite <- RPow_abs. rewrite <- (pow1 j). apply pow_incr. split; [apply Rabs_pos|exact H]. Qed.
Lemma fx_unit z : (Z.abs z <= 2 ^ bits)%Z -> Rabs (fx z) <= 1.
Proof.
  intros H. unfold fx. pose proof scale_pos. apply Rabs_le. assert (- scale <= IZR z <= scale) by (unfold scale; rewrite <- opp_IZR; split; apply IZR_le; lia).
  split; [apply Rle_div_r|apply Rle_div_l]; lra.
Qed.
Lemma powz_err r x j : (Z.abs r <= 2 ^ bits)%Z -> Rabs x <= 1 -> Rabs (fx r - x) <= / scale -> Rabs (fx (powz r j) - x ^ j) <= 2 * INR j * / scale.
Proof.
  intros R1 X1 E. pose proof scale_pos as S. assert (IS : 0 < / scale) by (apply Rinv_0_lt_compat; exact S). induction j as [|j IH].
  - cbn [powz pow INR]. unfold fx. fold scale. replace (scale / scale - 1) with 0 by (field; lra). rewrite Rabs_R0. lra.
  - assert (F : Rabs (fx (powz r (Datatypes.S j)) - fx (powz r j) * fx r) <= / scale).
    { cbn [powz]. rewrite Z.shiftr_div_pow2 by (unfold bits; lia). pose proof (floor_div_err (powz r j * r) (2 ^ bits) ltac:(reflexivity)) as H. fold scale in H. rewrite mult_IZR in H.
      unfold fx. replace (IZR (powz r j * r / 2 ^ bits) / scale - IZR (powz r j) / scale * (IZR r / scale)) with ((IZR (powz r j * r / 2 ^ bits) - IZR (powz r j) * IZR r / scale) * / scale) by (field; lra).
      rewrite Rabs_mult, (Rabs_right (/ scale)) by lra. rewrite <- (Rmult_1_l (/ scale)) at 2. apply Rmult_le_compat_r; [lra|]. apply Rabs_le. lra. }
    assert (P1 : Rabs (fx (powz r j)) <= 1) by (apply fx_unit, powz_unit; exact R1).
    replace (fx (powz r (Datatypes.S j)) - x ^ Datatypes.S j) with ((fx (powz r (Datatypes.S j)) - fx (powz r j) * fx r) + (fx (powz r j) * (fx r - x) + x * (fx (powz r j) - x ^ j))) by (cbn [pow]; ring).
    rewrite S_INR.
    eapply Rle_trans; [apply Rabs_triang|]. eapply Rle_trans; [apply Rplus_le_compat; [exact F|apply Rabs_triang]|]. rewrite !Rabs_mult.
    assert (Rabs (fx (powz r j)) * Rabs (fx r - x) <= 1 * / scale) by (apply Rmult_le_compat; try apply Rabs_pos; assumption).
    assert (Rabs x * Rabs (fx (powz r j) - x ^ j) <= 1 * (2 * INR j * / scale)) by (apply Rmult_le_compat; try apply Rabs_pos; assumption). lra.
Qed.

(** The list version. *)
Lemma stepz_powz rs j : stepz rs (map (fun r => powz r j) rs) = map (fun r => powz r (S j)) rs.
Proof. unfold stepz. induction rs as [|r rs IH]; [reflexivity|]. cbn [map combine]. rewrite IH. reflexivity. Qed.
Lemma moments_nth K rs ws : forall j k, (k < K)%nat -> nth k (moments K rs (map (fun r => powz r j) rs) ws) 0%Z = dotz (map (fun r => powz r (j + k)) rs) ws.
Proof.
  induction K as [|K IH]; intros j k H; [lia|]. cbn [moments]. destruct k as [|k]; cbn [nth].
  - rewrite Nat.add_0_r. reflexivity.
  - rewrite stepz_powz, IH by lia. replace (S j + k)%nat with (j + S k)%nat by lia. reflexivity.
Qed.
Lemma moments_length K : forall rs ps ws, length (moments K rs ps ws) = K.
Proof. induction K; intros; cbn; [reflexivity|]. rewrite IHK. reflexivity. Qed.
Lemma all_ok_nth eps l : forall k i, all_ok eps k l = true -> (i < length l)%nat -> moment_ok eps (k + Z.of_nat i) (nth i l 0%Z) = true.
Proof.
  induction l as [|s l IH]; intros k i H I; [cbn in I; lia|]. cbn [all_ok] in H. apply andb_true_iff in H as [H1 H2]. destruct i as [|i].
  - cbn [nth]. replace (k + Z.of_nat 0)%Z with k by lia. exact H1.
  - cbn [nth]. replace (k + Z.of_nat (S i))%Z with (k + 1 + Z.of_nat i)%Z by lia. apply IH; [exact H2|cbn in I; lia].
Qed.

Lemma unit_ok_R q : unit_ok q = true -> Rabs (Q2R q) <= 1.
Proof.
  unfold unit_ok. intros H. apply andb_true_iff in H as [H1 H2]. apply Qle_bool_iff in H1. apply Qle_bool_iff in H2. apply Qle_Rle in H1. apply Qle_Rle in H2.
  unfold Q2R in H1 at 1. unfold Q2R in H2 at 2. cbn in H1, H2. apply Rabs_le. lra.
Qed.
Lemma unit_ok_Z q : unit_ok q = true -> (Z.abs (fixp q) <= 2 ^ bits)%Z.
Proof.
  unfold unit_ok. intros H. apply andb_true_iff in H as [H1 H2]. apply Qle_bool_iff in H1. apply Qle_bool_iff in H2. unfold Qle in *. cbn in H1, H2. unfold fixp.
  assert (P : (0 < 2 ^ bits)%Z) by reflexivity. set (S := (2 ^ bits)%Z) in *. clearbody S.
  assert ((- S <= Qnum q * S / Zpos (Qden q))%Z) by (apply Z.div_le_lower_bound; nia).
  assert ((Qnum q * S / Zpos (Qden q) <= S)%Z) by (apply Z.div_le_upper_bound; nia). lia.
Qed.

(** Weighted sum of a function over the nodes. *)
Definition wsum (f : R -> R) (xs ws : list R) : R := reduce_sum (vzip (fun x w => f x * w) xs ws).

Lemma dot_err rs : forall ws k, length rs = length ws -> forallb unit_ok rs = true -> forallb unit_ok ws = true ->
  Rabs (IZR (dotz (map (fun r => powz r k) (map fixp rs)) (map fixp ws)) / (scale * scale) - wsum (fun x => x ^ k) (map Q2R rs) (map Q2R ws)) <= INR (length rs) * ((2 * INR k + 1) * / scale).
Proof.
  pose proof scale_pos as S. assert (IS : 0 < / scale) by (apply Rinv_0_lt_compat; exact S).
  induction rs as [|r rs IH]; intros [|w ws] k L HR HW; try discriminate.
  - cbn. replace (0 / (scale * scale) - 0) with 0 by (field; lra). rewrite Rabs_R0. lra.
  - cbn [forallb] in HR, HW. apply andb_true_iff in HR as [HR1 HR2]. apply andb_true_iff in HW as [HW1 HW2]. cbn [length] in L. specialize (IH ws k ltac:(lia) HR2 HW2).
    cbn [map length]. unfold dotz, wsum, vzip, reduce_sum in *. cbn [combine map fold_right]. rewrite plus_IZR, mult_IZR, S_INR.
    set (A := IZR (fold_right Z.add 0%Z _)) in *. set (B := fold_right Rplus 0 _) in *.
    replace ((IZR (powz (fixp r) k) * IZR (fixp w) + A) / (scale * scale) - (Q2R r ^ k * Q2R w + B))
      with ((fx (powz (fixp r) k) * (fx (fixp w) - Q2R w) + Q2R w * (fx (powz (fixp r) k) - Q2R r ^ k)) + (A / (scale * scale) - B)) by (unfold fx; field; lra).
    assert (P1 : Rabs (fx (powz (fixp r) k)) <= 1) by (apply fx_unit, powz_unit, unit_ok_Z; exact HR1).
    assert (PE := powz_err (fixp r) (Q2R r) k (unit_ok_Z r HR1) (unit_ok_R r HR1) (fixp_err r)).
    eapply Rle_trans; [apply Rabs_triang|]. eapply Rle_trans; [apply Rplus_le_compat; [apply Rabs_triang|exact IH]|]. rewrite !Rabs_mult.
    assert (Rabs (fx (powz (fixp r) k)) * Rabs (fx (fixp w) - Q2R w) <= 1 * / scale) by (apply Rmult_le_compat; try apply Rabs_pos; [exact P1|apply fixp_err]).
    assert (Rabs (Q2R w) * Rabs (fx (powz (fixp r) k) - Q2R r ^ k) <= 1 * (2 * INR k * / scale)) by (apply Rmult_le_compat; try apply Rabs_pos; [apply unit_ok_R; exact HW1|exact PE]). lra.
Qed.

(** The integral of t^k over [-1,1]. *)
Definition exact_moment (k : nat) : R := (if Nat.even k then 2 else 0) / (INR k + 1).
Lemma even_of_nat k : Z.even (Z.of_nat k) = Nat.even k.
Proof. induction k as [|k IH]; [reflexivity|]. rewrite Nat2Z.inj_succ, Z.even_succ, <- Z.negb_even, IH, Nat.even_succ, <- Nat.negb_even. reflexivity. Qed.

Lemma check_moment deg eps rs ws k : check deg eps rs ws = true -> (k < deg)%nat ->
  Rabs (wsum (fun x => x ^ k) (map Q2R rs) (map Q2R ws) - exact_moment k) <= IZR eps / (scale * scale) + INR (length rs) * ((2 * INR k + 1) * / scale).
Proof.
  intros C K. unfold check in C. apply andb_true_iff in C as [C C4]. apply andb_true_iff in C as [C C3]. apply andb_true_iff in C as [C1 C2]. apply Nat.eqb_eq in C1.
  pose proof (dot_err rs ws k C1 C2 C3) as E.
  pose proof (all_ok_nth eps _ 0 k C4) as A. rewrite moments_length in A. specialize (A K).
  replace (map (fun _ : Q => (2 ^ bits)%Z) rs) with (map (fun r => powz r 0) (map fixp rs)) in A by (rewrite map_map; reflexivity).
  rewrite moments_nth in A by exact K. cbn [Nat.add] in A. change (0 + Z.of_nat k)%Z with (Z.of_nat k) in A.
  set (s := dotz _ _) in *. unfold moment_ok in A. apply Z.leb_le in A. rewrite even_of_nat in A.
  pose proof scale_pos as S. assert (KP : 0 < INR k + 1) by (pose proof (pos_INR k); lra).
  assert (AR : Rabs (IZR s / (scale * scale) - exact_moment k) <= IZR eps / (scale * scale)).
  { unfold exact_moment. apply IZR_le in A. rewrite abs_IZR, minus_IZR, !mult_IZR, plus_IZR in A. rewrite <- INR_IZR_INZ in A.
    replace (2 ^ (2 * bits))%Z with (2 ^ bits * 2 ^ bits)%Z in A by reflexivity. rewrite mult_IZR in A. fold scale in A.
    replace (IZR (if Nat.even k then 2 else 0)) with (if Nat.even k then 2 else 0) in A by (destruct (Nat.even k); reflexivity).
    set (m := if Nat.even k then 2 else 0) in *.
    replace (IZR s / (scale * scale) - m / (INR k + 1)) with ((IZR s * (INR k + 1) - m * (scale * scale)) * / (scale * scale * (INR k + 1))) by (field; lra).
    assert (Q : 0 < scale * scale * (INR k + 1)) by (apply Rmult_lt_0_compat; [nra|lra]).
    rewrite Rabs_mult, (Rabs_right (/ _)) by (left; apply Rinv_0_lt_compat; exact Q).
    replace (IZR eps / (scale * scale)) with (IZR eps * (INR k + 1) * / (scale * scale * (INR k + 1))) by (field; lra).
    apply Rmult_le_compat_r; [left; apply Rinv_0_lt_compat; exact Q|exact A]. }
  replace (wsum (fun x => x ^ k) (map Q2R rs) (map Q2R ws) - exact_moment k) with ((IZR s / (scale * scale) - exact_moment k) + - (IZR s / (scale * scale) - wsum (fun x => x ^ k) (map Q2R rs) (map Q2R ws))) by ring.
  eapply Rle_trans; [apply Rabs_triang|]. rewrite Rabs_Ropp. lra.
Qed.

(** ** From monomials to polynomials *)
Definition norm1 (q : list R) : R := fold_right (fun c s => Rabs c + s) 0 q.
Fixpoint padd (p q : list R) : list R := match p, q with [], _ => q | _, [] => p | a :: p, b :: q => (a + b) :: padd p q end.
Definition pscal (k : R) (p : list R) : list R := map (Rmult k) p.
Fixpoint tcomp (m h : R) (c : list R) : list R :=
  match c with [] => [] | c0 :: c => let T := tcomp m h c in padd [c0] (padd (pscal m T) (0 :: pscal h T)) end.

Lemma norm1_pos q : 0 <= norm1 q.
Proof. induction q as [|a q IH]; [cbn; lra|]. cbn [norm1 fold_right]. fold (norm1 q). pose proof (Rabs_pos a). lra. Qed.
Lemma padd_eval p : forall q x, peval (padd p q) x = peval p x + peval q x.
Proof. induction p as [|a p IH]; intros [|b q] x; cbn [padd peval]; try ring. rewrite IH. ring. Qed.
Lemma padd_norm p : forall q, norm1 (padd p q) <= norm1 p + norm1 q.
Proof.
  induction p as [|a p IH]; intros q; [change (norm1 []) with 0; cbn [padd]; lra|]. destruct q as [|b q]; [change (norm1 []) with 0; cbn [padd]; lra|]. cbn [padd norm1 fold_right]. fold (norm1 (padd p q)) (norm1 p) (norm1 q).
  specialize (IH q). pose proof (Rabs_triang a b). lra.
Qed.
Lemma padd_length p : forall q, length (padd p q) = Nat.max (length p) (length q).
Proof. induction p as [|a p IH]; intros [|b q]; cbn; try reflexivity. rewrite IH. reflexivity. Qed.
Lemma pscal_eval k p x : peval (pscal k p) x = k * peval p x.
Proof. induction p as [|a p IH]; cbn; [ring|]. unfold pscal in IH. rewrite IH. ring. Qed.
Lemma pscal_norm k p : norm1 (pscal k p) = Rabs k * norm1 p.
Proof. induction p as [|a p IH]; cbn; [ring|]. unfold pscal, norm1 in IH. rewrite IH, Rabs_mult. ring. Qed.
Lemma tcomp_eval m h c x : peval (tcomp m h c) x = peval c (m + h * x).
Proof. induction c as [|c0 c IH]; [reflexivity|]. cbn [tcomp]. rewrite !padd_eval. cbn [peval]. rewrite !pscal_eval, IH. ring. Qed.
Lemma tcomp_length m h c : length (tcomp m h c) = length c.
Proof. induction c as [|c0 c IH]; [reflexivity|]. cbn [tcomp]. rewrite !padd_length. cbn [length]. unfold pscal. rewrite !map_length, IH. lia. Qed.
Lemma tcomp_norm m h c : norm1 (tcomp m h c) <= peval (map Rabs c) (Rabs m + Rabs h).
Proof.
  induction c as [|c0 c IH]; [cbn; lra|]. cbn [tcomp map peval]. eapply Rle_trans; [apply padd_norm|]. cbn [norm1 fold_right].
  pose proof (padd_norm (pscal m (tcomp m h c)) (0 :: pscal h (tcomp m h c))) as N. unfold norm1 in N at 3. cbn [fold_right] in N. fold (norm1 (pscal h (tcomp m h c))) in N.
  rewrite !pscal_norm, Rabs_R0 in N. pose proof (Rabs_pos m). pose proof (Rabs_pos h).
  assert ((Rabs m + Rabs h) * norm1 (tcomp m h c) <= (Rabs m + Rabs h) * peval (map Rabs c) (Rabs m + Rabs h)) by (apply Rmult_le_compat_l; [lra|exact IH]). lra.
Qed.
Lemma abs_mid a b : Rabs ((a + b) / 2) + Rabs ((b - a) / 2) = Rmax (Rabs a) (Rabs b).
Proof. unfold Rmax, Rabs. repeat destruct (Rcase_abs _); destruct (Rle_dec _ _); lra. Qed.

Lemma wsum_ext f g xs : forall ws, (forall x, f x = g x) -> wsum f xs ws = wsum g xs ws.
Proof. unfold wsum, vzip, reduce_sum. induction xs as [|x xs IH]; intros [|w ws] E; cbn; try reflexivity. rewrite E, (IH ws E). reflexivity. Qed.
Lemma wsum_lin f g k l xs : forall ws, wsum (fun x => k * f x + l * g x) xs ws = k * wsum f xs ws + l * wsum g xs ws.
Proof. unfold wsum, vzip, reduce_sum. induction xs as [|x xs IH]; intros [|w ws]; cbn; try ring. rewrite (IH ws). ring. Qed.

Lemma panti_moment j : (1 ^ (j + 1) - (-1) ^ (j + 1)) / (INR j + 1) = exact_moment j.
Proof.
  unfold exact_moment. f_equal. rewrite pow1. destruct (Nat.even j) eqn:E.
  - apply Nat.even_spec in E as [m ->]. replace (2 * m + 1)%nat with (S (2 * m)) by lia. rewrite <- tech_pow_Rmult, pow_1_even. ring.
  - assert (O : Nat.odd j = true) by (rewrite <- Nat.negb_even, E; reflexivity). apply Nat.odd_spec in O as [m ->]. replace (2 * m + 1 + 1)%nat with (2 * S m)%nat by lia. rewrite pow_1_even. ring.
Qed.

Lemma poly_shift xs ws deg eps : (forall k, (k < deg)%nat -> Rabs (wsum (fun x => x ^ k) xs ws - exact_moment k) <= eps) ->
  forall q j, (j + length q <= deg)%nat -> Rabs (wsum (fun x => x ^ j * peval q x) xs ws - (panti j q 1 - panti j q (-1))) <= eps * norm1 q.
Proof.
  intros H. induction q as [|c q IH]; intros j L.
  - cbn [panti]. rewrite (wsum_ext _ (fun x => 0 * x + 0 * x)) by (intros; cbn [peval]; ring). rewrite wsum_lin. change (norm1 []) with 0.
    replace (_ - _) with 0 by ring. rewrite Rabs_R0. lra.
  - cbn [length] in L. cbn [panti].
    rewrite (wsum_ext _ (fun x => c * x ^ j + 1 * (x ^ S j * peval q x))) by (intros; cbn [peval pow]; ring). rewrite wsum_lin.
    pose proof (H j ltac:(lia)) as H1. specialize (IH (S j) ltac:(lia)). rewrite <- panti_moment in H1. replace (j + 1)%nat with (S j) in H1 by lia. rewrite (S_INR j).
    replace (norm1 (c :: q)) with (Rabs c + norm1 q) by reflexivity.
    set (A := wsum (fun x => x ^ j) xs ws) in *. set (B := wsum (fun x => x ^ S j * peval q x) xs ws) in *.
    assert (N : INR j + 1 <> 0) by (pose proof (pos_INR j); lra).
    set (one := 1 ^ S j) in *. set (mone := (-1) ^ S j) in *.
    replace (c * A + 1 * B - (c * one / (INR j + 1) + panti (S j) q 1 - (c * mone / (INR j + 1) + panti (S j) q (-1))))
      with (c * (A - (one - mone) / (INR j + 1)) + (B - (panti (S j) q 1 - panti (S j) q (-1)))) by (field; exact N).
    eapply Rle_trans; [apply Rabs_triang|]. rewrite Rabs_mult. pose proof (Rabs_pos c). nra.
Qed.

(** The rule mapped to an interval, as both quadratures apply it. *)
Definition mapped_rule (f : R -> R) (a b : R) (xs ws : list R) : R :=
  reduce_sum (vzip (fun y w => y * (b - a) * w / 2) (map f (map (fun root => ((b - a) * root + b + a) / 2) xs)) ws).
Lemma mapped_rule_wsum f a b xs : forall ws, mapped_rule f a b xs ws = (b - a) / 2 * wsum (fun t => f ((a + b) / 2 + (b - a) / 2 * t)) xs ws.
Proof.
  unfold mapped_rule, wsum, vzip, reduce_sum. induction xs as [|x xs IH]; intros [|w ws]; cbn [map combine fold_right]; try ring.
  rewrite IH. replace (((b - a) * x + b + a) / 2) with ((a + b) / 2 + (b - a) / 2 * x) by field. field.
Qed.

Lemma rule_polynomial xs ws deg eps : (forall k, (k < deg)%nat -> Rabs (wsum (fun x => x ^ k) xs ws - exact_moment k) <= eps) ->
  forall c a b I, (length c <= deg)%nat -> 0 <= eps -> is_RInt (peval c) a b I ->
  Rabs (mapped_rule (peval c) a b xs ws - I) <= eps * (Rabs (b - a) / 2) * peval (map Rabs c) (Rmax (Rabs a) (Rabs b)).
Proof.
  intros H c a b I L E HI. rewrite mapped_rule_wsum. set (m := (a + b) / 2). set (h := (b - a) / 2).
  rewrite (wsum_ext _ (fun x => x ^ 0 * peval (tcomp m h c) x)) by (intros x; rewrite tcomp_eval; cbn [pow]; ring).
  pose proof (poly_shift xs ws deg eps H (tcomp m h c) 0) as P. rewrite tcomp_length in P. specialize (P ltac:(lia)).
  pose proof (peval_int (tcomp m h c) (-1) 1) as I1. set (J := panti 0 (tcomp m h c) 1 - panti 0 (tcomp m h c) (-1)) in *.
  assert (EI : I = h * J).
  { assert (X : is_RInt (fun y => h * peval c (h * y + m)) (-1) 1 I).
    { apply (is_RInt_comp_lin (V := R_NormedModule) (peval c) h m (-1) 1 I). replace (h * -1 + m) with a by (unfold h, m; field). replace (h * 1 + m) with b by (unfold h, m; field). exact HI. }
    assert (Y : is_RInt (fun y => h * peval c (h * y + m)) (-1) 1 (h * J)).
    { apply (isi_ext (fun y => h * peval (tcomp m h c) y)); [intros x _; rewrite tcomp_eval; do 2 f_equal; ring|]. eapply isi_scal; [exact I1|reflexivity]. }
    apply (is_RInt_unique (V := R_CompleteNormedModule)) in X. apply (is_RInt_unique (V := R_CompleteNormedModule)) in Y. congruence. }
  rewrite EI. replace (h * wsum _ xs ws - h * J) with (h * (wsum (fun x => x ^ 0 * peval (tcomp m h c) x) xs ws - J)) by ring.
  rewrite Rabs_mult. replace (Rabs (b - a) / 2) with (Rabs h).
  2:{ unfold h, Rdiv. rewrite Rabs_mult, (Rabs_right (/ 2)) by lra. reflexivity. }
  rewrite <- abs_mid. fold m h. pose proof (tcomp_norm m h c) as TN. pose proof (Rabs_pos h).
  assert (eps * norm1 (tcomp m h c) <= eps * peval (map Rabs c) (Rabs m + Rabs h)) by (apply Rmult_le_compat_l; assumption).
  rewrite (Rmult_comm eps), Rmult_assoc. apply Rmult_le_compat_l; [lra|]. lra.
Qed.

(** Bounds of a rule with positive weights. *)
Lemma wsum_le f g xs : forall ws, Forall (fun x => f x <= g x) xs -> Forall (fun w => 0 <= w) ws -> wsum f xs ws <= wsum g xs ws.
Proof.
  unfold wsum, vzip, reduce_sum. induction xs as [|x xs IH]; intros [|w ws] F W; cbn [combine map fold_right]; try lra.
  inversion F; subst. inversion W; subst. specialize (IH ws ltac:(assumption) ltac:(assumption)). nra.
Qed.

(** ** Table checks *)
Fixpoint incr_q (l : list Q) : bool := match l with x :: ((y :: _) as r) => negb (Qle_bool y x) && incr_q r | _ => true end.
Definition in_open (q : Q) : bool := negb (Qle_bool q (-1)) && negb (Qle_bool 1 q).
Definition pos_q (q : Q) : bool := negb (Qle_bool q 0).
Lemma negb_Qle_R x y : negb (Qle_bool x y) = true -> Q2R y < Q2R x.
Proof. intros H. apply Qlt_Rlt. apply negb_true_iff in H. apply Qnot_le_lt. intros C. apply Qle_bool_iff in C. congruence. Qed.
Fixpoint incr_r (l : list R) : Prop := match l with x :: ((y :: _) as r) => x < y /\ incr_r r | _ => True end.
Lemma incr_q_R l : incr_q l = true -> incr_r (map Q2R l).
Proof.
  induction l as [|x [|y l] IH]; intros H; [exact I|exact I|]. cbn [incr_q] in H. apply andb_true_iff in H as [H1 H2].
  cbn [map incr_r]. split; [apply negb_Qle_R; exact H1|apply IH; exact H2].
Qed.
Lemma in_open_R l : forallb in_open l = true -> Forall (fun x => -1 < x < 1) (map Q2R l).
Proof.
  intros H. apply Forall_map, Forall_forall. intros q Q. rewrite forallb_forall in H. specialize (H q Q). apply andb_true_iff in H as [H1 H2].
  apply negb_Qle_R in H1. apply negb_Qle_R in H2. unfold Q2R in H1 at 1. unfold Q2R in H2 at 2. cbn in H1, H2. lra.
Qed.
Lemma pos_q_R l : forallb pos_q l = true -> Forall (fun x => 0 < x) (map Q2R l).
Proof.
  intros H. apply Forall_map, Forall_forall. intros q Q. rewrite forallb_forall in H. specialize (H q Q). apply negb_Qle_R in H. unfold Q2R in H at 1. cbn in H. lra.
Qed.
