(** Lemmas about the tridiagonal solver and the space discretization. *)
From Coq Require Import Reals List Bool Arith Lra Lia.
From Verif Require Import PdeStepModel PdeStepSpec.
Import ListNotations.
Open Scope R_scope.

(** ** Lists *)
Lemma zw_length f a b : length a = length b -> length (zw f a b) = length a.
Proof. intros L. unfold zw. rewrite map_length, combine_length. lia. Qed.
Lemma zw_nth f a b i : length a = length b -> (i < length a)%nat -> nth i (zw f a b) 0 = f (nth i a 0) (nth i b 0).
Proof.
  unfold zw. revert b i. induction a as [|x a IH]; intros [|y b] [|i] L I; cbn [length] in *; try lia; [reflexivity|].
  cbn [combine map nth]. apply IH; lia.
Qed.
Lemma map_nth_lt (f : R -> R) l i : (i < length l)%nat -> nth i (map f l) 0 = f (nth i l 0).
Proof. intros L. rewrite (nth_indep _ 0 (f 0)) by (rewrite map_length; exact L). apply map_nth. Qed.
Lemma const_nth (l : list R) c i : (i < length l)%nat -> nth i (map (fun _ => c) l) 0 = c.
Proof. intros L. apply (map_nth_lt (fun _ => c)). exact L. Qed.
Lemma tl_length' (l : list R) : length (tl l) = (length l - 1)%nat.
Proof. destruct l; cbn; lia. Qed.
Lemma tl_nth (l : list R) i : nth i (tl l) 0 = nth (S i) l 0.
Proof. destruct l; [destruct i; reflexivity|reflexivity]. Qed.
Lemma rl_length (l : list R) : length (removelast l) = (length l - 1)%nat.
Proof. induction l as [|x [|y l] IH]; [reflexivity|reflexivity|]. change (removelast (x :: y :: l)) with (x :: removelast (y :: l)). cbn [length] in *. lia. Qed.
Lemma rl_nth (l : list R) i : (S i < length l)%nat -> nth i (removelast l) 0 = nth i l 0.
Proof.
  revert i. induction l as [|x [|y l] IH]; intros i L; cbn [length] in *; try lia.
  change (removelast (x :: y :: l)) with (x :: removelast (y :: l)). destruct i as [|i]; [reflexivity|].
  change (nth (S i) (x :: removelast (y :: l)) 0) with (nth i (removelast (y :: l)) 0). rewrite IH by (cbn; lia). reflexivity.
Qed.
Lemma last_at (l : list R) : last l 0 = nth (length l - 1) l 0.
Proof.
  induction l as [|x [|y l] IH]; [reflexivity|reflexivity|]. change (last (x :: y :: l) 0) with (last (y :: l) 0). rewrite IH.
  replace (length (x :: y :: l) - 1)%nat with (S (length (y :: l) - 1)) by (cbn; lia). reflexivity.
Qed.
Lemma last2_at (l : list R) : (2 <= length l)%nat -> last2 l = nth (length l - 2) l 0.
Proof. intros L. unfold last2. rewrite last_at, rl_length, rl_nth by (rewrite ?rl_length; lia). f_equal; lia. Qed.
Lemma inner_length l : length (inner l) = (length l - 2)%nat.
Proof. unfold inner. rewrite rl_length, tl_length'. lia. Qed.
Lemma inner_nth l i : (i + 2 < length l)%nat -> nth i (inner l) 0 = nth (S i) l 0.
Proof. intros L. unfold inner. rewrite rl_nth by (rewrite tl_length'; lia). apply tl_nth. Qed.
Lemma after2_length l : length (after2 l) = (length l - 2)%nat.
Proof. unfold after2. rewrite !tl_length'. lia. Qed.
Lemma after2_nth l i : nth i (after2 l) 0 = nth (S (S i)) l 0.
Proof. unfold after2. rewrite !tl_nth. reflexivity. Qed.
Lemma before2_length l : length (before2 l) = (length l - 2)%nat.
Proof. unfold before2. rewrite !rl_length. lia. Qed.
Lemma before2_nth l i : (i + 2 < length l)%nat -> nth i (before2 l) 0 = nth i l 0.
Proof. intros L. unfold before2. rewrite !rl_nth by (rewrite ?rl_length; lia). reflexivity. Qed.
Lemma list_ext (a b : list R) : length a = length b -> (forall i, (i < length a)%nat -> nth i a 0 = nth i b 0) -> a = b.
Proof. intros L H. apply (nth_ext a b 0 0 L H). Qed.

(** ** Division *)
Lemma odiv_some a b q : odiv a b = Some q <-> b <> 0 /\ q = a / b.
Proof.
  unfold odiv. destruct (Req_EM_T b 0) as [E|E]; split; intros H; [discriminate|destruct H; contradiction|injection H as <-; split; [exact E|reflexivity]|].
  destruct H as [_ ->]. reflexivity.
Qed.
Lemma bind_some {A B} (x : option A) (f : A -> option B) r : bind x f = Some r <-> exists a, x = Some a /\ f a = Some r.
Proof. destruct x as [a|]; cbn; split; intros H; [exists a; auto|destruct H as (a' & E & H); congruence|discriminate|destruct H as (a' & E & _); discriminate]. Qed.
Lemma divs_some a b q : length a = length b -> divs a b = Some q ->
  length q = length a /\ forall i, (i < length a)%nat -> nth i b 0 <> 0 /\ nth i q 0 = nth i a 0 / nth i b 0.
Proof.
  revert b q. induction a as [|x a IH]; intros [|y b] q L H; try discriminate L.
  - injection H as <-. split; [reflexivity|]. intros i I. cbn in I. lia.
  - cbn [divs] in H. apply bind_some in H. destruct H as (p & P & H). apply bind_some in H. destruct H as (r & E & H). injection H as <-.
    apply odiv_some in P. destruct P as [P ->]. injection L as L. destruct (IH b r L E) as [L2 H2].
    split; [cbn [length]; lia|]. intros [|i] I; [split; [exact P|reflexivity]|]. cbn [length] in I. cbn [nth]. apply H2. lia.
Qed.
Lemma divs_ok a b : (forall y, In y b -> y <> 0) -> divs a b <> None.
Proof.
  revert b. induction a as [|x a IH]; intros [|y b] H; try discriminate. cbn [divs]. unfold odiv.
  destruct (Req_EM_T y 0) as [E|E]; [exfalso; apply (H y); [left; reflexivity|exact E]|]. cbn [bind].
  destruct (divs a b) eqn:D; [discriminate|]. exfalso. apply (IH b); [intros z Hz; apply H; right; exact Hz|exact D].
Qed.

(** ** The solver *)
Definition tri_prev (p : R) (sub diag sup u : list R) (i : nat) : R :=
  nth i sub 0 * match i with O => p | S j => nth j u 0 end + nth i diag 0 * nth i u 0 + nth i sup 0 * nth (S i) u 0.
Lemma tri_prev_S p sub diag sup u l q r x i :
  tri_prev p (l :: sub) (q :: diag) (r :: sup) (x :: u) (S i) = tri_prev x sub diag sup u i.
Proof. unfold tri_prev. destruct i; reflexivity. Qed.
Lemma thomas_solves c d sub diag sup rhs xs : thomas c d sub diag sup rhs = Some xs ->
  length xs = length rhs /\ length sub = length rhs /\ length diag = length rhs /\ length sup = length rhs
  /\ forall i, (i < length rhs)%nat -> tri_prev (d - c * first xs) sub diag sup xs i = nth i rhs 0.
Proof.
  revert c d diag sup rhs xs. induction sub as [|l sub IH]; intros c d [|p diag] [|u sup] [|r rhs] xs H; try discriminate H.
  - injection H as <-. repeat split. intros i I. cbn in I. lia.
  - cbn [thomas] in H. apply bind_some in H. destruct H as (c' & C & H). apply bind_some in H. destruct H as (d' & D & H).
    apply bind_some in H. destruct H as (ys & Y & H). injection H as <-.
    apply odiv_some in C. destruct C as [NZ C]. apply odiv_some in D. destruct D as [_ D].
    destruct (IH _ _ _ _ _ _ Y) as (L1 & L2 & L3 & L4 & H). cbn [length]. split; [lia|]. split; [lia|]. split; [lia|]. split; [lia|].
    intros [|i] I.
    + unfold tri_prev. cbn [nth first]. change (first (d' - c' * first ys :: ys)) with (d' - c' * first ys).
      fold (first ys). rewrite C, D. field. exact NZ.
    + rewrite tri_prev_S. cbn [nth]. apply H. lia.
Qed.
Lemma thomas_unique c d sub diag sup rhs xs ys : thomas c d sub diag sup rhs = Some xs -> length ys = length rhs ->
  (forall i, (i < length rhs)%nat -> tri_prev (d - c * first ys) sub diag sup ys i = nth i rhs 0) -> ys = xs.
Proof.
  revert c d diag sup rhs xs ys. induction sub as [|l sub IH]; intros c d [|p diag] [|u sup] [|r rhs] xs ys H L Y; try discriminate H.
  - injection H as <-. destruct ys; [reflexivity|discriminate].
  - cbn [thomas] in H. apply bind_some in H. destruct H as (c' & C & H). apply bind_some in H. destruct H as (d' & D & H).
    apply bind_some in H. destruct H as (zs & Z & H). injection H as <-.
    apply odiv_some in C. destruct C as [NZ C]. apply odiv_some in D. destruct D as [_ D].
    destruct ys as [|y ys]; [discriminate|]. cbn [length] in *. injection L as L.
    assert (Q : y = d' - c' * first ys).
    { specialize (Y 0%nat ltac:(lia)). unfold tri_prev in Y. cbn [nth] in Y. change (first (y :: ys)) with y in Y. fold (first ys) in Y.
      rewrite C, D. apply (Rmult_eq_reg_l (p - l * c)); [|exact NZ]. replace ((p - l * c) * ((r - l * d) / (p - l * c) - u / (p - l * c) * first ys)) with (r - l * d - u * first ys) by (field; exact NZ).
      rewrite <- Y. ring. }
    assert (E : ys = zs).
    { apply (IH _ _ _ _ _ _ _ Z L). intros i I. specialize (Y (S i) ltac:(lia)). rewrite tri_prev_S in Y. rewrite <- Q. exact Y. }
    rewrite <- E, <- Q. reflexivity.
Qed.
(** every row is strictly diagonally dominant *)
Definition dominant (sub diag sup : list R) : Prop :=
  forall i, (i < length diag)%nat -> Rabs (nth i sub 0) + Rabs (nth i sup 0) < Rabs (nth i diag 0).
Lemma thomas_exists c d sub diag sup rhs : Rabs c <= 1 -> length sub = length rhs -> length diag = length rhs -> length sup = length rhs ->
  dominant sub diag sup -> thomas c d sub diag sup rhs <> None.
Proof.
  revert c d diag sup rhs. induction sub as [|l sub IH]; intros c d [|p diag] [|u sup] [|r rhs] HC L1 L2 L3 D; try discriminate.
  cbn [thomas]. pose proof (D 0%nat ltac:(cbn; lia)) as D0. cbn [nth] in D0.
  assert (B : Rabs u < Rabs (p - l * c)).
  { pose proof (Rabs_triang_inv p (l * c)) as T. rewrite Rabs_mult in T.
    pose proof (Rabs_pos l). pose proof (Rabs_pos c). assert (Rabs l * Rabs c <= Rabs l) by nra. lra. }
  assert (NZ : p - l * c <> 0).
  { intros E. rewrite E, Rabs_R0 in B. pose proof (Rabs_pos u). lra. }
  unfold odiv. destruct (Req_EM_T (p - l * c) 0) as [E|_]; [contradiction|]. cbn [bind].
  match goal with |- bind ?t _ <> None => destruct t eqn:T; [discriminate|] end.
  exfalso. revert T. apply IH; cbn [length] in *; try lia.
  - unfold Rdiv. rewrite Rabs_mult, Rabs_inv. assert (0 < Rabs (p - l * c)) by (pose proof (Rabs_pos u); lra).
    apply (Rmult_le_reg_r (Rabs (p - l * c))); [assumption|]. rewrite Rmult_assoc, Rinv_l by lra. lra.
  - intros i I. apply (D (S i)). cbn [length]. lia.
Qed.

(** ** The weighted scheme *)
Definition well_sized (m : tridiagonal) (n : nat) : Prop :=
  let '(sub, diag, sup) := m in length sub = n /\ length diag = n /\ length sup = n.
Lemma explicit_nth vec m theta t1 t2 i : well_sized m (length vec) -> (i < length vec)%nat ->
  length (explicit_part vec m theta t1 t2) = length vec
  /\ nth i (explicit_part vec m theta t1 t2) 0 = nth i vec 0 + theta * (t2 - t1) * tri m vec i.
Proof.
  destruct m as [[sub diag] sup]. intros (L1 & L2 & L3) I. unfold explicit_part. set (k := theta * (t2 - t1)).
  set (lo := 0 :: zw Rmult (tl (map (fun l => k * l) sub)) (removelast vec)).
  set (up := zw Rmult (removelast (map (fun u => k * u) sup)) (tl vec) ++ [0]).
  set (dp := zw Rmult (map (fun d => 1 + k * d) diag) vec).
  assert (Ll : length lo = length vec) by (unfold lo; cbn [length]; rewrite zw_length; rewrite ?tl_length', ?rl_length, ?map_length; lia).
  assert (Lu : length up = length vec) by (unfold up; rewrite app_length, zw_length; rewrite ?tl_length', ?rl_length, ?map_length; cbn [length]; lia).
  assert (Ld : length dp = length vec) by (unfold dp; rewrite zw_length; rewrite ?map_length; lia).
  assert (NL : nth i lo 0 = match i with O => 0 | S j => k * nth i sub 0 * nth j vec 0 end).
  { unfold lo. destruct i as [|j]; [reflexivity|]. cbn [nth]. rewrite zw_nth by (rewrite ?tl_length', ?rl_length, ?map_length; lia).
    rewrite tl_nth, rl_nth by lia. rewrite (map_nth_lt (fun l => k * l)) by lia. reflexivity. }
  assert (NU : nth i up 0 = k * nth i sup 0 * nth (S i) vec 0).
  { unfold up. destruct (Nat.eq_dec (S i) (length vec)) as [E|E].
    - rewrite app_nth2 by (rewrite zw_length; rewrite ?tl_length', ?rl_length, ?map_length; lia).
      rewrite zw_length by (rewrite ?tl_length', ?rl_length, ?map_length; lia). rewrite rl_length, map_length.
      replace (i - (length sup - 1))%nat with 0%nat by lia. rewrite (nth_overflow vec) by lia. cbn [nth]. ring.
    - rewrite app_nth1 by (rewrite zw_length; rewrite ?tl_length', ?rl_length, ?map_length; lia).
      rewrite zw_nth by (rewrite ?tl_length', ?rl_length, ?map_length; lia). rewrite tl_nth, rl_nth by (rewrite map_length; lia).
      rewrite (map_nth_lt (fun u => k * u)) by lia. reflexivity. }
  assert (ND : nth i dp 0 = (1 + k * nth i diag 0) * nth i vec 0).
  { unfold dp. rewrite zw_nth by (rewrite ?map_length; lia). rewrite (map_nth_lt (fun d => 1 + k * d)) by lia. reflexivity. }
  split.
  - rewrite !zw_length; rewrite ?zw_length; lia.
  - rewrite zw_nth by (rewrite ?zw_length; lia). rewrite zw_nth by lia. rewrite NL, NU, ND. unfold tri. destruct i; ring.
Qed.
Lemma implicit_spec vec m theta t1 t2 w : well_sized m (length vec) -> implicit_part vec m theta t1 t2 = Some w ->
  length w = length vec /\ forall i, (i < length vec)%nat -> nth i w 0 - (1 - theta) * (t2 - t1) * tri m w i = nth i vec 0.
Proof.
  destruct m as [[sub diag] sup]. intros (L1 & L2 & L3) H. unfold implicit_part in H. set (k := (1 - theta) * (t1 - t2)) in *.
  apply thomas_solves in H. destruct H as (Lw & _ & _ & _ & H). split; [exact Lw|]. intros i I. specialize (H i I). rewrite <- H.
  unfold tri_prev, tri. rewrite (map_nth_lt (fun l => k * l)), (map_nth_lt (fun d => 1 + k * d)), (map_nth_lt (fun u => k * u)) by lia.
  replace ((1 - theta) * (t2 - t1)) with (- k) by (unfold k; ring). destruct i; ring.
Qed.
Lemma implicit_unique vec m theta t1 t2 w u : well_sized m (length vec) -> implicit_part vec m theta t1 t2 = Some w ->
  length u = length vec -> (forall i, (i < length vec)%nat -> nth i u 0 - (1 - theta) * (t2 - t1) * tri m u i = nth i vec 0) -> u = w.
Proof.
  destruct m as [[sub diag] sup]. intros (L1 & L2 & L3) H L E. unfold implicit_part in H. set (k := (1 - theta) * (t1 - t2)) in *.
  apply (thomas_unique _ _ _ _ _ _ _ _ H L). intros i I. rewrite <- (E i I).
  unfold tri_prev, tri. rewrite (map_nth_lt (fun l => k * l)), (map_nth_lt (fun d => 1 + k * d)), (map_nth_lt (fun u => k * u)) by lia.
  replace ((1 - theta) * (t2 - t1)) with (- k) by (unfold k; ring). destruct i; ring.
Qed.
Lemma rhs_nth theta vs m b t1 t2 i : well_sized m (length vs) -> length b = length vs -> (i < length vs)%nat ->
  let rhs := zw Rplus (if Req_EM_T theta 0 then vs else explicit_part vs m theta t1 t2) (map (fun b => b * (t2 - t1)) b) in
  length rhs = length vs /\ nth i rhs 0 = nth i vs 0 + theta * (t2 - t1) * tri m vs i + nth i b 0 * (t2 - t1).
Proof.
  intros W Lb I. cbv zeta. destruct (explicit_nth vs m theta t1 t2 i W I) as [Le Ne].
  assert (L : length (if Req_EM_T theta 0 then vs else explicit_part vs m theta t1 t2) = length vs) by (destruct (Req_EM_T theta 0); [reflexivity|exact Le]).
  split; [rewrite zw_length; rewrite ?map_length; lia|]. rewrite zw_nth by (rewrite ?map_length; lia). rewrite (map_nth_lt (fun b => b * (t2 - t1))) by lia.
  destruct (Req_EM_T theta 0) as [->|_]; [ring|rewrite Ne; ring].
Qed.
Lemma weighted_spec theta v t1 t2 params m b w : params ((t1 + t2) / 2) = Some (m, b) -> well_sized m (length v) -> length b = length v ->
  weighted_scheme theta v t1 t2 params = Some w -> length w = length v /\ theta_equation theta t1 t2 m b v w.
Proof.
  intros P W Lb H. unfold weighted_scheme in H. destruct (Rlt_dec theta 0); [discriminate|]. destruct (Rlt_dec 1 theta); [discriminate|].
  rewrite P in H. cbn [bind] in H.
  destruct v as [|v0 v'].
  { cbn [length] in *. destruct b; [|discriminate]. unfold theta_equation. split; [|intros i I; cbn in I; lia].
    assert (Z : zw Rplus (if Req_EM_T theta 0 then [] else explicit_part [] m theta t1 t2) (map (fun b => b * (t2 - t1)) []) = []).
    { unfold zw. cbn [map]. destruct (if Req_EM_T theta 0 then [] else explicit_part [] m theta t1 t2); reflexivity. }
    rewrite Z in H. destruct (Rlt_dec theta 1).
    - destruct m as [[sub diag] sup]. unfold implicit_part in H. apply thomas_solves in H. apply H.
    - injection H as <-. reflexivity. }
  set (v := v0 :: v') in *. assert (I0 : (0 < length v)%nat) by (cbn; lia).
  pose proof (rhs_nth theta v m b t1 t2 0 W Lb I0) as [Lr _]. cbv zeta in Lr.
  set (rhs := zw Rplus _ _) in *.
  assert (Hr : forall i, (i < length v)%nat -> nth i rhs 0 = nth i v 0 + theta * (t2 - t1) * tri m v i + nth i b 0 * (t2 - t1)).
  { intros i I. apply (rhs_nth theta v m b t1 t2 i W Lb I). }
  clearbody rhs. destruct (Rlt_dec theta 1) as [T|T].
  - rewrite <- Lr in W. destruct (implicit_spec rhs m theta t1 t2 w W H) as [Lw E]. split; [lia|].
    intros i I. specialize (E i ltac:(lia)). rewrite Hr in E by exact I. replace (nth i w 0) with ((1 - theta) * (t2 - t1) * tri m w i + (nth i v 0 + theta * (t2 - t1) * tri m v i + nth i b 0 * (t2 - t1))) by lra. ring.
  - injection H as <-. split; [exact Lr|]. intros i I. rewrite Hr by exact I. replace theta with 1 by lra. ring.
Qed.
Lemma weighted_unique theta v t1 t2 params m b w u : params ((t1 + t2) / 2) = Some (m, b) -> well_sized m (length v) -> length b = length v ->
  weighted_scheme theta v t1 t2 params = Some w -> length u = length v -> theta_equation theta t1 t2 m b v u -> u = w.
Proof.
  intros P W Lb H Lu E. pose proof (weighted_spec theta v t1 t2 params m b w P W Lb H) as [Lw Ew].
  unfold weighted_scheme in H. destruct (Rlt_dec theta 0); [discriminate|]. destruct (Rlt_dec 1 theta); [discriminate|].
  rewrite P in H. cbn [bind] in H.
  destruct (Rlt_dec theta 1) as [T|T].
  - destruct v as [|v0 v']; [destruct u; [|discriminate]; destruct w; [reflexivity|discriminate]|]. set (v := v0 :: v') in *.
    assert (I0 : (0 < length v)%nat) by (cbn; lia).
    pose proof (rhs_nth theta v m b t1 t2 0 W Lb I0) as [Lr _]. cbv zeta in Lr. set (rhs := zw Rplus _ _) in *.
    assert (Hr : forall i, (i < length v)%nat -> nth i rhs 0 = nth i v 0 + theta * (t2 - t1) * tri m v i + nth i b 0 * (t2 - t1)).
    { intros i I. apply (rhs_nth theta v m b t1 t2 i W Lb I). }
    clearbody rhs. rewrite <- Lr in W. apply (implicit_unique rhs m theta t1 t2 w u W H ltac:(lia)).
    intros i I. rewrite Hr by lia. specialize (E i ltac:(lia)).
    replace (nth i u 0) with (nth i v 0 + (nth i u 0 - nth i v 0)) by ring. rewrite E. ring.
  - apply list_ext; [lia|]. intros i I. specialize (E i ltac:(lia)). specialize (Ew i ltac:(lia)). replace theta with 1 in * by lra.
    assert (Z : forall q, (t2 - t1) * (1 * tri m v i + (1 - 1) * tri m q i + nth i b 0) = (t2 - t1) * (tri m v i + nth i b 0)) by (intros; ring).
    rewrite Z in E, Ew. lra.
Qed.
