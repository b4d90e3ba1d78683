(** Lemmas about the Newton root finder model. *)
From Coq Require Import Reals List Bool Arith Lia Lra Psatz.
From Verif Require Import InterpModel BrentModel BrentProofs BrentProofs2 ExtReal NewtonModel.
Import ListNotations.
Open Scope R_scope.

Section One.
Variables (rtol tol : R) (f : xr -> xr * xr).
Notation upd := (newton_update rtol tol f).

Lemma xadd_fin_zero x : xadd x (Fin 0) = x.
Proof. destruct x; cbn; try reflexivity. f_equal. ring. Qed.
Lemma upd_converged x y c : upd x = (y, true, c) -> y = x /\ c = negb (is_finite x).
Proof.
  unfold newton_update. destruct (f x) as [v g]. generalize (xdiv v g) (xadd (xmul (Fin rtol) (xabs v)) (Fin tol)). intros d t E. injection E as E1 E2 E3. rewrite E1 in E3. rewrite E2 in *.
  assert (D : exists r, d = Fin r).
  { destruct d as [r|n|]; [exists r; reflexivity| |discriminate E2]. exfalso. destruct t as [?|[]|]; discriminate E2. }
  destruct D as [r D]. rewrite D in E1. cbn [xopp xmul] in E1. replace (- 0 * r) with 0 in E1 by ring. rewrite xadd_fin_zero in E1. subst y. split; [reflexivity|symmetry; exact E3].
Qed.
Lemma upd_nonfinite x : is_finite x = false -> is_finite (fst (fst (upd x))) = false.
Proof.
  intros H. unfold newton_update. destruct (f x) as [v g]. cbn [fst]. set (d := xmul _ (xdiv v g)). clearbody d.
  destruct x as [r|n|]; [discriminate| |]; destruct d as [?|m|]; cbn; try reflexivity. destruct (eqb n m); reflexivity.
Qed.
Lemma upd_failed x : snd (upd x) = negb (is_finite (fst (fst (upd x)))).
Proof. unfold newton_update. destruct (f x) as [v g]. reflexivity. Qed.

Definition start (x : xr) : xr * bool * bool := (x, false, is_nan x).
Definition niter (k : nat) (st : xr * bool * bool) : xr * bool * bool := Nat.iter k (fun st => upd (fst (fst st))) st.

Lemma niter_S k st : niter (S k) st = upd (fst (fst (niter k st))).
Proof. reflexivity. Qed.
Lemma niter_add a b st : niter (a + b) st = niter a (niter b st).
Proof. unfold niter. induction a as [|a IH]; [reflexivity|]. unfold Nat.iter in *. cbn. rewrite IH. reflexivity. Qed.

(** Once converged, nothing changes any more. *)
Lemma niter_converged k x y c : upd x = (y, true, c) -> niter k (y, true, c) = (y, true, c).
Proof.
  intros E. destruct (upd_converged _ _ _ E) as [-> _]. induction k as [|k IH]; [reflexivity|]. rewrite niter_S, IH. exact E.
Qed.
(** Once not finite, never finite again. *)
Lemma niter_nonfinite k st : is_finite (fst (fst st)) = false -> is_finite (fst (fst (niter k st))) = false.
Proof. intros H. induction k as [|k IH]; [exact H|]. rewrite niter_S. apply upd_nonfinite. exact IH. Qed.
Lemma niter_flag k x : (0 < k)%nat -> snd (niter k (start x)) = negb (is_finite (fst (fst (niter k (start x))))).
Proof. destruct k; [lia|]. intros _. rewrite niter_S. apply upd_failed. Qed.
Lemma niter_flag_true k x : snd (niter k (start x)) = true -> is_finite (fst (fst (niter k (start x)))) = false.
Proof. destruct k; [cbn; destruct x; cbn; congruence|]. intros H. rewrite niter_flag in H by lia. apply negb_true_iff in H. exact H. Qed.

(** A converged flag tells about the returned point. *)
Lemma niter_true k x y c : niter k (start x) = (y, true, c) -> upd y = (y, true, c).
Proof.
  destruct k; [cbn; unfold start; congruence|]. rewrite niter_S. intros E. destruct (upd_converged _ _ _ E) as [E1 _]. rewrite E1 at 1. exact E.
Qed.
End One.

(** ** The batch *)
Definition niters (rtol tol : R) (fs : list (xr -> xr * xr)) (k : nat) (st : list (xr * bool * bool)) :=
  map (fun '(f, s) => niter rtol tol f k s) (combine fs st).

Lemma niters_0 rtol tol fs st : length fs = length st -> niters rtol tol fs 0 st = st.
Proof. unfold niters. revert st. induction fs as [|p ps IH]; intros [|s ss] H; try discriminate; try reflexivity. cbn [combine map]. rewrite IH by (cbn in H; lia). reflexivity. Qed.
Lemma niters_S rtol tol fs k st : niters rtol tol fs (S k) st = niters rtol tol fs k (newton_body rtol tol fs st).
Proof.
  unfold niters, newton_body. revert st. induction fs as [|f fs IH]; intros [|[[x c] g] st]; try reflexivity. cbn [combine map]. rewrite IH. f_equal.
  replace (S k) with (k + 1)%nat by lia. rewrite niter_add. reflexivity.
Qed.
Lemma newton_body_length rtol tol fs st : length fs = length st -> length (newton_body rtol tol fs st) = length st.
Proof. intros H. unfold newton_body. rewrite map_length, combine_length. lia. Qed.

Lemma newton_loop_niters rtol tol fs m left : forall counter st, length fs = length st -> (counter + left = m)%nat ->
  exists k, (k <= left)%nat /\ newton_loop rtol tol fs m counter (S left) st = niters rtol tol fs k st /\
    (k = left \/ forallb (fun '(_, c, f) => c || f) (niters rtol tol fs k st) = true).
Proof.
  induction left as [|n IH]; intros counter st H M; cbn [newton_loop]; destruct (newton_continue m counter st) eqn:E.
  - unfold newton_continue in E. apply negb_true_iff in E. apply orb_false_iff in E as [E _]. apply Nat.leb_gt in E. lia.
  - exists 0%nat. rewrite niters_0 by assumption. auto.
  - destruct (IH (S counter) (newton_body rtol tol fs st)) as (k & K1 & K2 & K3); [rewrite newton_body_length; assumption|lia|].
    exists (S k). split; [lia|]. rewrite niters_S. split; [exact K2|]. destruct K3 as [K3|K3]; [left; lia|right; exact K3].
  - exists 0%nat. rewrite niters_0 by assumption. split; [lia|]. split; [reflexivity|]. right.
    unfold newton_continue in E. apply negb_false_iff in E. apply orb_true_iff in E as [E|E]; [apply Nat.leb_le in E; lia|exact E].
Qed.

Lemma root_finder_element fs xs m tol rtol i f x r : length fs = length xs ->
  nth_error fs i = Some f -> nth_error xs i = Some x -> nth_error (root_finder fs xs m tol rtol) i = Some r ->
  exists k, (k <= m)%nat /\ r = niter rtol tol f k (start x) /\ (k = m \/ snd (fst r) || snd r = true).
Proof.
  intros L FI XI RI. unfold root_finder in RI.
  set (st := map (fun x => (x, false, is_nan x)) xs) in *.
  assert (LS : length fs = length st) by (unfold st; rewrite map_length; assumption).
  destruct (newton_loop_niters rtol tol fs m m 0 st LS eq_refl) as (k & K1 & K2 & K3). rewrite K2 in RI.
  assert (SI : nth_error st i = Some (start x)) by (unfold st; rewrite (map_nth_error _ _ _ XI); reflexivity).
  assert (NI : nth_error (niters rtol tol fs k st) i = Some (niter rtol tol f k (start x))) by exact (nth_zip (fun '(f, s) => niter rtol tol f k s) fs st i f (start x) FI SI).
  rewrite NI in RI. injection RI as <-. exists k. split; [exact K1|]. split; [reflexivity|].
  destruct K3 as [K3|K3]; [left; exact K3|right]. rewrite forallb_forall in K3. apply nth_error_In in NI. specialize (K3 _ NI).
  destruct (niter rtol tol f k (start x)) as [[y c] g]. exact K3.
Qed.
