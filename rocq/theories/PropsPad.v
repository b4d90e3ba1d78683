(** C25: padding tensors to a common length. *)
From Coq Require Import List Arith ZArith Bool Lia Reals Lra.
From Flocq Require Import IEEE754.BinarySingleNaN IEEE754.Binary IEEE754.Bits.
From Verif Require Import DateModel DateSpec DateRepr PropsDate PadModel PadProofs.
Import ListNotations.
Open Scope nat_scope.

(** a non-empty tensor: at least one row, all rows of the same positive length *)
Definition tensor_ok {A} (t : list (list A)) : Prop :=
  t <> [] /\ exists n, 1 <= n /\ forall r, In r t -> length r = n.
(** [n] is the largest row length *)
Definition is_max_length {A} (n : nat) (tensors : list (list (list A))) : Prop :=
  (forall t r, In t tensors -> In r t -> length r <= n) /\ exists t r, In t tensors /\ In r t /\ length r = n.
(** [vs] are the padding values the caller asked for, one for each row of
    tensor number [k]: the row's last element, the scalar, or the supplied
    values (one for each row, or one for all rows). *)
Definition asked {A} (pv : @pad_arg A) (k : nat) (t : list (list A)) (vs : list A) : Prop :=
  match pv with
  | NoPad => Forall2 (fun r v => r <> [] /\ last r v = v) t vs
  | ScalarPad c => vs = repeat c (length t)
  | ListPad l => exists w, nth_error l k = Some w /\ ((exists c, w = [c] /\ vs = repeat c (length t)) \/ (w = vs /\ length w = length t))
  end.
Definition supplied {A} (pv : @pad_arg A) (tensors : list (list (list A))) : Prop :=
  match pv with
  | ListPad l => length l = length tensors /\ forall k w t, nth_error l k = Some w -> nth_error tensors k = Some t -> length w = 1 \/ length w = length t
  | _ => True
  end.

Section Generic.
  Context {A : Type} (gtb : A -> A -> bool) (sub1 : A -> A).
  (** the marker [min - 1] is below every element *)
  Definition marker_ok (t : list (list A)) : Prop :=
    exists m, reduce_min gtb t = Some m /\ gtb (sub1 m) (sub1 m) = false /\ forall x, In x (concat t) -> gtb x (sub1 m) = true.
  Definition pads_correctly (tensors : list (list (list A))) (pv : pad_arg) : Prop :=
    exists n rs, pad_tensors gtb sub1 tensors pv = Some rs /\ is_max_length n tensors /\ length rs = length tensors /\
      forall k t t', nth_error tensors k = Some t -> nth_error rs k = Some t' -> exists vs, asked pv k t vs /\ padded n vs t t'.

  Lemma ok_last_dim (t : list (list A)) : tensor_ok t -> forall r, In r t -> length r = last_dim t.
  Proof. intros (N & n & P & H) r R. rewrite (H r R). destruct t as [|r0 t]; [congruence|]. symmetry. apply H. left. reflexivity. Qed.
  Lemma max_is_max (tensors : list (list (list A))) : tensors <> [] -> (forall t, In t tensors -> tensor_ok t) -> is_max_length (max_last_dim tensors) tensors.
  Proof.
    intros N OK. split.
    - intros t r T R. rewrite (ok_last_dim t (OK t T) r R). apply max_last_dim_ge. assumption.
    - destruct (max_last_dim_in tensors N) as (t & T & E). destruct (OK t T) as (NE & _). destruct t as [|r t]; [congruence|].
      exists (r :: t), r. split; [assumption|]. split; [left; reflexivity|]. rewrite <- E. reflexivity.
  Qed.
  Lemma nth_error_combine {B C} (l : list B) (m : list C) k b c : nth_error (combine l m) k = Some (b, c) <-> nth_error l k = Some b /\ nth_error m k = Some c.
  Proof.
    revert m k. induction l as [|x l IH]; intros [|y m] [|k]; cbn; try (split; [discriminate|intros (H & K); discriminate]).
    - split; [intros E; injection E as -> ->; auto|intros (H & K); congruence].
    - apply IH.
  Qed.
  Lemma prepare_len pv (tensors : list (list (list A))) : supplied pv tensors -> length (prepare_pad_values pv tensors) = length tensors.
  Proof. destruct pv; cbn; rewrite map_length; [auto|auto|intros (H & _); assumption]. Qed.
  Lemma map_repeat {B} (c : A) (t : list B) : map (fun _ => c) t = repeat c (length t).
  Proof. induction t; cbn; congruence. Qed.
  Lemma prepare_asked pv (tensors : list (list (list A))) k f t : supplied pv tensors -> tensor_ok t ->
    nth_error (prepare_pad_values pv tensors) k = Some f -> nth_error tensors k = Some t -> exists vs, f t = Some vs /\ asked pv k t vs /\ length vs = length t.
  Proof.
    destruct pv as [|c|l]; cbn [prepare_pad_values supplied asked]; rewrite nth_error_map; intros S OK F T.
    - rewrite T in F. cbn in F. injection F as <-. destruct OK as (_ & n & P & H).
      assert (E : exists vs, traverse last_of t = Some vs).
      { clear T S. induction t as [|r t IH]; [exists []; reflexivity|]. destruct IH as (vs & V); [intros; apply H; right; assumption|]. cbn. rewrite V.
        specialize (H r ltac:(left; reflexivity)). unfold last_of. destruct (rev r) as [|x q] eqn:R; [|eexists; reflexivity]. apply (f_equal (@length A)) in R. rewrite rev_length in R. cbn in R. lia. }
      destruct E as (vs & V). exists vs. split; [assumption|]. apply traverse_forall2 in V.
      assert (V' : Forall2 (fun r v => r <> [] /\ last r v = v) t vs) by (clear -V; induction V as [|r v ? ? W V IH]; constructor; [apply last_of_last; assumption|assumption]).
      split; [assumption|]. clear -V'. induction V'; cbn; congruence.
    - rewrite T in F. cbn in F. injection F as <-. rewrite map_repeat. eexists. split; [reflexivity|]. split; [reflexivity|]. apply repeat_length.
    - destruct S as (_ & S). destruct (nth_error l k) as [w|] eqn:W; [|discriminate]. cbn in F. injection F as <-. specialize (S k w t W T).
      unfold spread. destruct w as [|c [|c' w]].
      + destruct S as [S|S]; cbn in S; [lia|]. rewrite <- S. cbn. exists []. split; [reflexivity|]. split; [|reflexivity]. exists []. auto.
      + rewrite map_repeat. eexists. split; [reflexivity|]. split; [|apply repeat_length]. exists [c]. split; [reflexivity|]. left. eauto.
      + destruct S as [S|S]; [cbn in S; lia|]. rewrite S, Nat.eqb_refl. eexists. split; [reflexivity|]. split; [|assumption]. eexists. split; [reflexivity|]. right. auto.
  Qed.
  Lemma forall2_nth {B C} (P : B -> C -> Prop) l r : Forall2 P l r -> length l = length r /\ forall k b c, nth_error l k = Some b -> nth_error r k = Some c -> P b c.
  Proof.
    intros H. induction H as [|b c l r H F (L & IH)]; [split; [reflexivity|intros [|k]; discriminate]|]. split; [cbn; congruence|].
    intros [|k] b' c' E E'; cbn in *; [congruence|eauto].
  Qed.
  Theorem generic_pads tensors pv : tensors <> [] -> (forall t, In t tensors -> tensor_ok t /\ marker_ok t) -> supplied pv tensors -> pads_correctly tensors pv.
  Proof.
    intros N OK S. exists (max_last_dim tensors).
    assert (MX : is_max_length (max_last_dim tensors) tensors) by (apply max_is_max; [assumption|intros; apply OK; assumption]).
    assert (EX : exists rs, pad_tensors gtb sub1 tensors pv = Some rs).
    { unfold pad_tensors. set (l := combine _ _).
      assert (H : forall f t, In (f, t) l -> exists r, pad_tensor gtb sub1 (max_last_dim tensors) f t = Some r).
      { intros f t I. apply In_nth_error in I as (k & I). apply nth_error_combine in I as (F & T). destruct (OK t ltac:(eapply nth_error_In; eassumption)) as (O & m & M & _).
        destruct (prepare_asked pv tensors k f t S O F T) as (vs & V & _). unfold pad_tensor. rewrite M, V. eexists. reflexivity. }
      clear -H. induction l as [|(f, t) l IH]; [eexists; reflexivity|]. destruct IH as (rs & E); [intros; apply H; right; assumption|]. destruct (H f t ltac:(left; reflexivity)) as (r & R).
      cbn. rewrite R, E. eexists. reflexivity. }
    destruct EX as (rs & E). exists rs. split; [assumption|]. split; [assumption|]. unfold pad_tensors in E. apply traverse_forall2, forall2_nth in E as (L & H).
    rewrite combine_length, (prepare_len pv tensors S), Nat.min_id in L. split; [auto|]. intros k t t' T T'.
    destruct (nth_error (prepare_pad_values pv tensors) k) as [f|] eqn:F.
    2:{ apply nth_error_None in F. rewrite (prepare_len pv tensors S) in F. apply nth_error_None in F. congruence. }
    specialize (H k (f, t) t' (proj2 (nth_error_combine _ _ _ _ _) (conj F T)) T'). cbn in H.
    assert (IT : In t tensors) by (eapply nth_error_In; eassumption). destruct (OK t IT) as (O & m & M & C & G).
    destruct (prepare_asked pv tensors k f t S O F T) as (vs & V & AS & LV). exists vs. split; [assumption|].
    unfold pad_tensor in H. rewrite M, V in H. injection H as <-. apply pad_tensor_padded; try assumption. intros r R. apply MX with (t := t); assumption.
  Qed.
End Generic.

Lemma concat_ne {A} (t : list (list A)) : tensor_ok t -> concat t <> [].
Proof. intros (N & n & P & H). destruct t as [|r t]; [congruence|]. specialize (H r ltac:(left; reflexivity)). destruct r; [cbn in H; lia|discriminate]. Qed.
Lemma zmin t : tensor_ok t -> exists m, reduce_min Z.gtb t = Some m /\ In m (concat t) /\ forall x, In x (concat t) -> (m <= x)%Z.
Proof.
  intros O. destruct (reduce_min_some Z.gtb t (concat_ne t O)) as (m & M). exists m. split; [assumption|].
  apply (reduce_min_spec Z.gtb Z.le t m); try assumption; intros; try lia; rewrite Z.gtb_ltb in *; lia.
Qed.
(** Exact integers: for every non-empty list of non-empty tensors of any shapes,
    all results have the common maximal length, the leading entries are
    unchanged and the padding entries are the requested values. *)
Theorem C25_pad_exact_integers (tensors : list (list (list Z))) pv :
  tensors <> [] -> (forall t, In t tensors -> tensor_ok t) -> supplied pv tensors ->
  pads_correctly Z.gtb (fun m => m - 1)%Z tensors pv.
Proof.
  intros N OK S. apply generic_pads; try assumption. intros t T. split; [auto|]. destruct (zmin t (OK t T)) as (m & M & I & L).
  exists m. split; [assumption|]. split; [rewrite Z.gtb_ltb; apply Z.ltb_irrefl|]. intros x X. specialize (L x X). rewrite Z.gtb_ltb. apply Z.ltb_lt. lia.
Qed.
(** Exact reals. *)
Definition rgtb (a b : R) : bool := if Rlt_dec b a then true else false.
Theorem C25_pad_exact_reals (tensors : list (list (list R))) pv :
  tensors <> [] -> (forall t, In t tensors -> tensor_ok t) -> supplied pv tensors ->
  pads_correctly rgtb (fun m => m - 1)%R tensors pv.
Proof.
  intros N OK S. apply generic_pads; try assumption. intros t T. split; [auto|].
  destruct (reduce_min_some rgtb t (concat_ne t (OK t T))) as (m & M). exists m. split; [assumption|].
  destruct (reduce_min_spec rgtb Rle t m) as (_ & L); try assumption; unfold rgtb.
  - intros; lra.
  - intros; lra.
  - intros a b. destruct (Rlt_dec b a); [lra|discriminate].
  - intros a b. destruct (Rlt_dec b a); [discriminate|lra].
  - split; [destruct (Rlt_dec (m - 1) (m - 1)); [lra|reflexivity]|]. intros x X. specialize (L x X). destruct (Rlt_dec (m - 1) x); [reflexivity|lra].
Qed.
(** 32-bit integers: the same, as long as the tensors do not contain -2^31. *)
Theorem C25_pad_int32 (tensors : list (list (list Z))) pv :
  tensors <> [] -> (forall t, In t tensors -> tensor_ok t /\ forall x, In x (concat t) -> - 2 ^ 31 < x < 2 ^ 31)%Z -> supplied pv tensors ->
  pads_correctly Z.gtb (fun m => wrap32 (m - 1)) tensors pv.
Proof.
  intros N OK S. apply generic_pads; try assumption. intros t T. destruct (OK t T) as (O & RG). split; [auto|]. destruct (zmin t O) as (m & M & I & L).
  exists m. split; [assumption|]. split; [rewrite Z.gtb_ltb; apply Z.ltb_irrefl|]. intros x X. specialize (L x X). rewrite Z.gtb_ltb. apply Z.ltb_lt.
  specialize (RG m I). unfold wrap32. rewrite Z.mod_small; lia.
Qed.
(** ... and with -2^31 the whole tensor is overwritten: [min - 1] wraps to the
    largest integer.  [-2^31, 7, 8] padded with 5 becomes [5, 5, 5, 5]. *)
Theorem C25_pad_int32_refuted : exists tensors rs,
  (forall t, In t tensors -> tensor_ok t /\ forall x, In x (concat t) -> - 2 ^ 31 <= x < 2 ^ 31)%Z /\
  pad_tensors Z.gtb (fun m => wrap32 (m - 1)) tensors (ScalarPad 5%Z) = Some rs /\
  tensors = [[[-2147483648; 7; 8]]; [[1; 2; 3; 4]]]%Z /\ rs = [[[5; 5; 5; 5]]; [[1; 2; 3; 4]]]%Z.
Proof.
  exists [[[-2147483648; 7; 8]]; [[1; 2; 3; 4]]]%Z. eexists. split; [|split; [vm_compute; reflexivity|split; reflexivity]].
  intros t [<-|[<-|[]]]; (split; [split; [discriminate|eexists; split; [|intros r [<-|[]]; reflexivity]; cbn; lia]|cbn; intros x H; intuition (subst; lia)]).
Qed.
(** In binary64 the marker rounds back to the minimum for large values (here
    2^54, where 2^54 - 1 rounds to 2^54), so the minimum is overwritten:
    [2^54, 2^55] padded to length 3 with its last element becomes
    [2^55, 2^55, 2^55]. *)
Definition f64 (z : Z) : binary64 := binary_normalize 53 1024 eq_refl eq_refl mode_NE z 0 false.
Definition f64_gtb (a b : binary64) : bool := match Bcompare 53 1024 a b with Some Gt => true | _ => false end.
Theorem C25_pad_float64_refuted : exists rs,
  pad_tensors f64_gtb (fun m => b64_minus mode_NE m (f64 1)) [[[f64 (2 ^ 54); f64 (2 ^ 55)]]; [[f64 1; f64 2; f64 3]]] NoPad = Some rs /\
  map (map (map bits_of_b64)) rs = map (map (map bits_of_b64)) [[[f64 (2 ^ 55); f64 (2 ^ 55); f64 (2 ^ 55)]]; [[f64 1; f64 2; f64 3]]] /\
  bits_of_b64 (f64 (2 ^ 54)) <> bits_of_b64 (f64 (2 ^ 55)).
Proof. eexists. split; [reflexivity|]. split; [vm_compute; reflexivity|vm_compute; discriminate]. Qed.

(** Dates: every padded date tensor keeps its dates and is extended by repeating
    the last one. *)
Theorem C25_pad_date_tensors (ts : list (list (list date))) : ts <> [] -> (forall t, In t ts -> tensor_ok t) ->
  (forall t r d, In t ts -> In r t -> In d r -> exists c, repr d c) ->
  exists n rs, pad_date_tensors ts = Some rs /\ is_max_length n ts /\ length rs = length ts /\
    forall k t t', nth_error ts k = Some t -> nth_error rs k = Some t' -> exists vs, asked NoPad k t vs /\ padded n vs t t'.
Proof.
  intros N OK D.
  set (os := map (map (map ordinal)) ts).
  assert (OKo : forall t, In t os -> tensor_ok t).
  { intros t T. apply in_map_iff in T as (u & <- & U). destruct (OK u U) as (NE & n & P & H). split; [destruct u; [congruence|discriminate]|].
    exists n. split; [assumption|]. intros r R. apply in_map_iff in R as (q & <- & Q). rewrite map_length. auto. }
  destruct (C25_pad_exact_integers os NoPad) as (n & rs & E & MX & L & H); [unfold os; destruct ts; [congruence|discriminate]|assumption|exact I|].
  assert (RT : forall d c, repr d c -> from_ordinal_unchecked (ordinal d) = d).
  { intros d c R. destruct C01_date_ordinal_bijection as (_ & B & _). destruct R as (V & Y & (O1 & NT)).
    destruct (B (ordinal d) O1) as (x & X & OX & (_ & YX & _) & _). unfold from_ordinal in X. destruct (_ <? _)%Z; [|discriminate]. injection X as X. rewrite X.
    rewrite NT in YX. rewrite <- Y in YX. destruct x, d. cbn in *. congruence. }
  assert (RTT : forall t, In t ts -> map (map from_ordinal_unchecked) (map (map ordinal) t) = t).
  { intros t T. rewrite map_map. rewrite <- (map_id t) at 2. apply map_ext_in. intros r R. rewrite map_map. rewrite <- (map_id r) at 2. apply map_ext_in. intros d I.
    destruct (D t r d T R I) as (c & C). apply (RT d c C). }
  exists n, (map (map (map from_ordinal_unchecked)) rs). split; [unfold pad_date_tensors; fold os; rewrite E; reflexivity|]. split.
  { split.
    - intros t r T R. rewrite <- (map_length ordinal). apply (proj1 MX (map (map ordinal) t)); apply in_map; assumption.
    - destruct MX as (_ & t & r & T & R & Q). apply in_map_iff in T as (u & <- & U). apply in_map_iff in R as (q & <- & V). exists u, q. rewrite map_length in Q. auto. }
  split; [rewrite map_length, L; apply map_length|]. intros k t t' T T'. rewrite nth_error_map in T'. destruct (nth_error rs k) as [r|] eqn:R; [|discriminate]. cbn in T'. injection T' as <-.
  assert (IT : In t ts) by (eapply nth_error_In; eassumption).
  destruct (H k (map (map ordinal) t) r) as (vs & AV & PV); [unfold os; rewrite nth_error_map, T; reflexivity|assumption|].
  exists (map from_ordinal_unchecked vs). split.
  - cbn in *. rewrite <- (RTT t IT). clear -AV. induction AV as [|q v l vs (A1 & A2) F IH]; cbn; constructor; [|assumption].
    split; [destruct q; [congruence|discriminate]|]. clear -A1 A2. destruct (exists_last A1) as (q' & x & ->). rewrite last_last in A2. subst. rewrite map_app. cbn. apply last_last.
  - destruct PV as (P1 & P2 & P3). rewrite <- (RTT t IT). split; [rewrite !map_length in *; assumption|]. split; [rewrite !map_length in *; assumption|].
    intros i q q' v Q Q' V. rewrite nth_error_map in Q, Q', V.
    destruct (nth_error (map (map ordinal) t) i) as [q0|] eqn:Q0; [|discriminate]. destruct (nth_error r i) as [q1|] eqn:Q1; [|discriminate]. destruct (nth_error vs i) as [v0|] eqn:V0; [|discriminate].
    cbn in Q, Q', V. injection Q as <-. injection Q' as <-. injection V as <-. destruct (P3 i q0 q1 v0 Q0 Q1 V0) as (B1 & B2 & B3).
    rewrite !map_length. split; [assumption|]. split; [rewrite firstn_map, B2; reflexivity|]. intros j J. rewrite nth_error_map, (B3 j J). reflexivity.
Qed.

(** A list of pad values shorter than the list of tensors silently drops the
    remaining tensors ([zip]). *)
Theorem C25_short_pad_list_refuted : pad_tensors Z.gtb (fun m => m - 1)%Z [[[1]]; [[2; 3]]]%Z (ListPad [[0%Z]]) = Some [[[1; 0]]]%Z.
Proof. reflexivity. Qed.

Example C25_ex : pad_tensors Z.gtb (fun m => m - 1)%Z [[[1; 2; 3; 9]; [2; 3; 5; 2]]; [[4; 5; 8]]]%Z NoPad = Some [[[1; 2; 3; 9]; [2; 3; 5; 2]]; [[4; 5; 8; 8]]]%Z /\
  pad_tensors Z.gtb (fun m => m - 1)%Z [[[1; 2; 3; 9]; [2; 3; 5; 2]]; [[4; 5; 8]]]%Z (ScalarPad 10%Z) = Some [[[1; 2; 3; 9]; [2; 3; 5; 2]]; [[4; 5; 8; 10]]]%Z.
Proof. split; reflexivity. Qed.

Print Assumptions C25_pad_exact_integers.
Print Assumptions C25_pad_exact_reals.
Print Assumptions C25_pad_int32.
Print Assumptions C25_pad_int32_refuted.
Print Assumptions C25_pad_float64_refuted.
Print Assumptions C25_pad_date_tensors.
Print Assumptions C25_short_pad_list_refuted.
