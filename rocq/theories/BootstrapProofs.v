(** Lemmas for curve bootstrapping. *)
From Coq Require Import Reals List Bool Arith Lia Lra Psatz.
From Verif Require Import InterpModel BrentModel ExtReal HaganWestModel HaganWestProofs BootstrapModel BootstrapSpec.
Import ListNotations.
Open Scope R_scope.

(** * Segments *)
Lemma combine_app {A B} (a1 a2 : list A) (b1 b2 : list B) : length a1 = length b1 -> combine (a1 ++ a2) (b1 ++ b2) = combine a1 b1 ++ combine a2 b2.
Proof. revert b1. induction a1 as [|x a1 IH]; intros [|y b1] L; cbn in L |- *; try discriminate L; [reflexivity|]. rewrite IH by congruence. reflexivity. Qed.
Lemma map_flat_map {A B C} (h : B -> C) (f : A -> list B) l : map h (flat_map f l) = flat_map (fun a => map h (f a)) l.
Proof. induction l as [|a l IH]; cbn; [reflexivity|]. rewrite map_app, IH. reflexivity. Qed.
Lemma combine_flat_map {A B C} (f : A -> list B) (g : A -> list C) l : Forall (fun a => length (f a) = length (g a)) l -> combine (flat_map f l) (flat_map g l) = flat_map (fun a => combine (f a) (g a)) l.
Proof. induction 1 as [|a l E F IH]; cbn; [reflexivity|]. rewrite combine_app by exact E. rewrite IH. reflexivity. Qed.
Lemma xzip_flat_map {A} h (f g : A -> list xr) l : Forall (fun a => length (f a) = length (g a)) l -> xzip h (flat_map f l) (flat_map g l) = flat_map (fun a => xzip h (f a) (g a)) l.
Proof. intros F. unfold xzip. rewrite combine_flat_map by exact F. apply map_flat_map. Qed.
Lemma flat_map_ext' {A B} (f g : A -> list B) l : Forall (fun a => f a = g a) l -> flat_map f l = flat_map g l.
Proof. induction 1 as [|a l E F IH]; cbn; [reflexivity|]. rewrite E, IH. reflexivity. Qed.
Lemma combine_map_same {A B C} (f : A -> B) (g : A -> C) l : combine (map f l) (map g l) = map (fun a => (f a, g a)) l.
Proof. induction l as [|a l IH]; cbn; [reflexivity|]. rewrite IH. reflexivity. Qed.
Lemma xzip_map {A} h (f g : A -> xr) l : xzip h (map f l) (map g l) = map (fun a => h (f a) (g a)) l.
Proof. unfold xzip. rewrite combine_map_same, map_map. reflexivity. Qed.
Lemma bzip_map {A} h (f g : A -> xr) l : bzip h (map f l) (map g l) = Some (map (fun a => h (f a) (g a)) l).
Proof. unfold bzip. rewrite !map_length, Nat.eqb_refl, xzip_map. reflexivity. Qed.

Section Segments.
Context {A : Type} (row : A -> list xr) (size : A -> nat).
Definition ids_from (k : nat) (l : list A) : list nat := concat (map (fun '(i, a) => repeat i (size a)) (combine (seq k (length l)) l)).
Lemma filter_row (r : list xr) k g : map fst (filter (fun p => Nat.eqb (snd p) g) (combine r (repeat k (length r)))) = if Nat.eqb k g then r else [].
Proof. induction r as [|x r IH]; cbn; [destruct (Nat.eqb k g); reflexivity|]. destruct (Nat.eqb k g) eqn:E; cbn; rewrite IH; reflexivity. Qed.
Lemma filter_rows l : Forall (fun a => length (row a) = size a) l -> forall k g,
  map fst (filter (fun p => Nat.eqb (snd p) g) (combine (flat_map row l) (ids_from k l))) = if (Nat.leb k g && Nat.ltb g (k + length l))%bool then flat_map row (match nth_error l (g - k) with Some a => [a] | None => [] end) else [].
Proof.
  induction 1 as [|a l E F IH]; intros k g; [cbn; destruct (_ && _); [rewrite (proj2 (nth_error_None (@nil A) (g - k))) by (cbn; lia)|]; reflexivity|].
  cbn [flat_map]. unfold ids_from. cbn [length seq combine map concat]. fold (ids_from (S k) l). rewrite combine_app by (rewrite repeat_length; exact E). rewrite filter_app, map_app, IH. rewrite <- E, filter_row. cbn [length].
  destruct (Nat.eqb_spec k g) as [->|N].
  - replace (Nat.leb (S g) g) with false by (symmetry; apply Nat.leb_gt; lia). replace (Nat.leb g g && Nat.ltb g (g + S (length l)))%bool with true by (symmetry; apply andb_true_iff; split; [apply Nat.leb_le|apply Nat.ltb_lt]; lia).
    rewrite Nat.sub_diag. cbn. reflexivity.
  - cbn [app]. replace (Nat.leb (S k) g && Nat.ltb g (S k + length l))%bool with (Nat.leb k g && Nat.ltb g (k + S (length l)))%bool.
    + destruct (Nat.leb_spec k g) as [G|G]; [|reflexivity]. destruct (Nat.ltb g (k + S (length l))); [|reflexivity]. cbn [andb]. replace (g - k)%nat with (S (g - S k)) by lia. reflexivity.
    + destruct (Nat.leb_spec (S k) g), (Nat.leb_spec k g), (Nat.ltb_spec g (S k + length l)), (Nat.ltb_spec g (k + S (length l))); cbn; lia || reflexivity.
Qed.
Lemma ids_app k l1 l2 : ids_from k (l1 ++ l2) = ids_from k l1 ++ ids_from (k + length l1) l2.
Proof. unfold ids_from. rewrite app_length, seq_app, combine_app by (rewrite seq_length; reflexivity). rewrite map_app, concat_app. reflexivity. Qed.
Lemma ids_last k l a : size a <> 0%nat -> ids_from k (l ++ [a]) <> [] /\ last (ids_from k (l ++ [a])) 0%nat = (k + length l)%nat.
Proof.
  intros S. rewrite ids_app. unfold ids_from at 2 4. cbn [length seq combine map concat]. rewrite app_nil_r. destruct (size a) as [|p]; [contradiction|]. cbn [repeat]. rewrite repeat_cons, app_assoc. split; [|apply last_last].
  intros E. apply (f_equal (@length nat)) in E. rewrite app_length in E. cbn in E. lia.
Qed.
Lemma segment_rows l a : Forall (fun a => length (row a) = size a) (l ++ [a]) -> size a <> 0%nat ->
  xsegment_sum (flat_map row (l ++ [a])) (group_ids size (l ++ [a])) = map (fun a => xsum (row a)) (l ++ [a]).
Proof.
  intros F S. change (group_ids size (l ++ [a])) with (ids_from 0 (l ++ [a])). unfold xsegment_sum. destruct (ids_last 0 l a S) as [NE LA]. destruct (ids_from 0 (l ++ [a])) as [|i0 ids] eqn:I; [contradiction|]. rewrite <- I in *. rewrite LA. cbn [Nat.add].
  replace (Datatypes.S (length l)) with (length (l ++ [a])) by (rewrite app_length; cbn; lia). set (L := l ++ [a]) in *. clearbody L. clear I NE LA i0 ids.
  transitivity (map (fun g => xsum (match nth_error L g with Some a => row a | None => [] end)) (seq 0 (length L))).
  - apply map_ext_in. intros g G. apply in_seq in G. rewrite (filter_rows L F 0 g). replace (Nat.leb 0 g && Nat.ltb g (0 + length L))%bool with true by (symmetry; apply andb_true_iff; split; [apply Nat.leb_le|apply Nat.ltb_lt]; lia).
    rewrite Nat.sub_0_r. destruct (nth_error L g); cbn [flat_map]; rewrite ?app_nil_r; reflexivity.
  - assert (Q : forall (M P : list A), map (fun g => xsum (match nth_error (P ++ M) g with Some a => row a | None => [] end)) (seq (length P) (length M)) = map (fun a => xsum (row a)) M).
    { induction M as [|b M IH]; intros P; [reflexivity|]. cbn [length seq map]. f_equal.
      - rewrite nth_error_app2 by lia. rewrite Nat.sub_diag. reflexivity.
      - specialize (IH (P ++ [b])). rewrite <- app_assoc, app_length in IH. cbn [app length] in IH. rewrite Nat.add_1_r in IH. exact IH. }
    exact (Q L []).
Qed.
End Segments.

(** * Convergence test *)
Lemma xlt_max a b t : is_nan a = false -> is_nan b = false -> xlt (xmax a b) (Fin t) = true -> xlt a (Fin t) = true /\ xlt b (Fin t) = true.
Proof.
  intros NA NB. unfold xmax. rewrite NA, NB. cbn [orb]. destruct (xlt a b) eqn:E; intros H; (split; [|try exact H]; try exact H).
  - destruct a as [x|[]|], b as [y|[]|]; cbn in *; try discriminate; try reflexivity. unfold rlt in *. destruct (Rlt_dec x y), (Rlt_dec y t), (Rlt_dec x t); try discriminate; try reflexivity; lra.
  - destruct a as [x|[]|], b as [y|[]|]; cbn in *; try discriminate; try reflexivity. unfold rlt in *. destruct (Rlt_dec x y), (Rlt_dec y t), (Rlt_dec x t); try discriminate; try reflexivity; lra.
Qed.
Lemma xmax_nan a b : is_nan a = false -> is_nan b = false -> is_nan (xmax a b) = false.
Proof. intros NA NB. unfold xmax. rewrite NA, NB. cbn [orb]. destruct (xlt a b); assumption. Qed.
Lemma small_all tol diff : small tol diff = true -> Forall (fun d => xlt d (Fin tol) = true) diff.
Proof.
  unfold small. intros H. apply andb_true_iff in H as [N H]. apply negb_true_iff in N. assert (Q : is_nan (fold_right xmax (Inf true) diff) = false /\ (xlt (fold_right xmax (Inf true) diff) (Fin tol) = true -> Forall (fun d => xlt d (Fin tol) = true) diff)); [|exact (proj2 Q H)].
  clear H. induction diff as [|d diff IH]; cbn in *; [split; [reflexivity|intros _; constructor]|]. apply orb_false_iff in N as [N1 N2]. destruct (IH N2) as [A B]. split; [apply xmax_nan; assumption|]. intros H. destruct (xlt_max d _ tol N1 A H) as [C D]. constructor; [exact C|apply B; exact D].
Qed.
Lemma diff_small a b t : xlt (xabs (a -x b)) (Fin t) = true -> exists x y, a = Fin x /\ b = Fin y /\ Rabs (x - y) < t.
Proof.
  destruct a as [x|[]|], b as [y|[]|]; cbn; intros H; try discriminate. exists x, y. split; [reflexivity|]. split; [reflexivity|]. unfold rlt in H. destruct (Rlt_dec _ _) as [L|L]; [|discriminate]. unfold Rminus. exact L.
Qed.
Lemma small_close tol a b : length a = length b -> small tol (xzip (fun a b => xabs (a -x b)) a b) = true ->
  exists x y, a = map Fin x /\ b = map Fin y /\ forall k, (k < length a)%nat -> Rabs (nth k x 0 - nth k y 0) < tol.
Proof.
  intros L H. apply small_all in H. revert b L H. induction a as [|u a IH]; intros [|v b] L H; cbn in L; try discriminate L; [exists [], []; repeat split; intros k K; cbn in K; lia|].
  unfold xzip in H. cbn in H. inversion H as [|d ds H1 H2]. subst. destruct (diff_small u v tol H1) as (x & y & -> & -> & C). destruct (IH b ltac:(congruence) H2) as (xs & ys & -> & -> & CS). exists (x :: xs), (y :: ys). repeat split.
  intros [|k] K; [exact C|]. cbn [nth]. apply CS. cbn in K. lia.
Qed.

(** * The loop *)
Lemma loop_last (body : boot_state -> option boot_state) (P : boot_state -> Prop) : (forall st st', P st -> body st = Some st' -> P st') ->
  forall fuel st0 st, P st0 -> fst (fst (fst st0)) = false -> boot_loop body fuel st0 = Some st -> fst (fst (fst st)) = true -> exists st', P st' /\ body st' = Some st.
Proof.
  intros INV. induction fuel as [|fuel IH]; intros st0 st P0 C0 H C; cbn in H.
  - injection H as <-. congruence.
  - destruct st0 as [[[c f] i] d]. cbn in C0. subst c. cbn [orb] in H. destruct f; [injection H as <-; discriminate C|]. destruct (body (false, false, i, d)) as [st1|] eqn:B; [|discriminate H]. cbn [obind] in H.
    destruct (fst (fst (fst st1))) eqn:C1.
    + destruct fuel as [|fuel]; cbn in H.
      * injection H as <-. exists (false, false, i, d). split; assumption.
      * destruct st1 as [[[c1 f1] i1] d1]. cbn in C1. subst c1. cbn [orb] in H. injection H as <-. exists (false, false, i, d). split; assumption.
    + exact (IH st1 st (INV _ _ P0 B) C1 H C).
Qed.
(** An invariant of the body holds at the end. *)
Lemma loop_inv (body : boot_state -> option boot_state) (P : boot_state -> Prop) : (forall st st', P st -> body st = Some st' -> P st') ->
  forall fuel st0 st, P st0 -> boot_loop body fuel st0 = Some st -> P st.
Proof.
  intros INV. induction fuel as [|fuel IH]; intros st0 st P0 H; cbn in H; [injection H as <-; exact P0|]. destruct st0 as [[[c f] i] d]. destruct (c || f); [injection H as <-; exact P0|].
  destruct (body (c, f, i, d)) as [st1|] eqn:B; [|discriminate H]. cbn [obind] in H. exact (IH st1 st (INV _ _ P0 B) H).
Qed.

(** * Finite arithmetic *)
Lemma xsum_fin l : xsum (map Fin l) = Fin (total l).
Proof. induction l as [|a l IH]; cbn; [reflexivity|]. unfold xsum in IH. rewrite IH. reflexivity. Qed.
Lemma total_app a b : total (a ++ b) = total a + total b.
Proof. induction a as [|x a IH]; [change (total []) with 0; cbn [app]; ring|]. change (total ((x :: a) ++ b)) with (x + total (a ++ b)). change (total (x :: a)) with (x + total a). rewrite IH. ring. Qed.
Lemma xdiv_inv a b c : Fin a /x Fin b = Fin c -> b <> 0 /\ c = a / b.
Proof. cbn. unfold req. destruct (Req_EM_T b 0); [destruct (Req_EM_T a 0); discriminate|]. intros H. injection H as <-. split; [assumption|reflexivity]. Qed.
Lemma rates_fin d ts : length d = length ts -> Forall (fun d => 0 < d) d -> Forall (fun t => t <> 0) ts -> discount_rates (map Fin d) ts = map Fin (zero_rates d ts).
Proof.
  intros L F G. revert ts L G. induction F as [|a d A F IH]; intros [|t ts] L G; cbn in L; try discriminate L; [reflexivity|]. inversion G as [|t' ts' T G']. subst. cbn [map]. unfold discount_rates, xzip, zero_rates in *. cbn [map combine]. rewrite <- IH by (congruence || assumption).
  f_equal. cbn. unfold rlt. destruct (Rlt_dec 0 a); [|contradiction]. cbn. unfold req. destruct (Req_EM_T t 0); [contradiction|]. reflexivity.
Qed.
Lemma split_last (l : list R) : (0 < length l)%nat -> l = removelast l ++ [last l 0].
Proof. intros L. apply app_removelast_last. intros ->. cbn in L. lia. Qed.
Lemma removelast_len (l : list R) : length (removelast l) = (length l - 1)%nat.
Proof. induction l as [|a [|b l] IH]; [reflexivity|reflexivity|]. change (removelast (a :: b :: l)) with (a :: removelast (b :: l)). cbn [length] in *. rewrite IH. lia. Qed.
Lemma in_removelast {A} (x : A) l : In x (removelast l) -> In x l.
Proof. induction l as [|a [|b l] IH]; [intros []|intros []|]. change (removelast (a :: b :: l)) with (a :: removelast (b :: l)). intros [->|H]; [left; reflexivity|right; apply IH; exact H]. Qed.
Lemma in_last (l : list R) : (0 < length l)%nat -> In (last l 0) l.
Proof. intros L. rewrite (split_last l L) at 2. apply in_or_app. right. left. reflexivity. Qed.
Lemma zero_rates_nth d : forall ts k, length d = length ts -> (k < length d)%nat -> nth k (zero_rates d ts) 0 = - ln (nth k d 0) / nth k ts 0.
Proof. induction d as [|a d IH]; intros [|t ts] [|k] L K; cbn in L, K; try lia; [reflexivity|]. unfold zero_rates in *. cbn [combine map nth]. apply IH; lia. Qed.
