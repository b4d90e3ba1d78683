(** The quadrature tables pass the moment check; the rules on polynomials. *)
From Coquelicot Require Import Coquelicot.
From Coq Require Import Reals List Bool ZArith QArith Qreals Lia Lra Psatz.
From Verif Require Import TensorModel TensorProofs InterpModel IntegrateModel PolySpec RIntAux SimpsonProofs GaussData GaussProofs.
Import ListNotations.
Open Scope R_scope.

Definition find_q (t : list (nat * list Q)) (n : nat) : option (list Q) := option_map snd (find (fun e => Nat.eqb (fst e) n) t).
Lemma get_find t n : get t n = option_map (map Q2R) (find_q t n).
Proof. reflexivity. Qed.

Definition legendre_eps : Z := Eval vm_compute in (9 * 2 ^ 192 / 10 ^ 25)%Z.
Definition legendre_sizes : list nat := [2; 3; 4; 5; 6; 7; 8; 9; 10; 11; 12; 13; 14; 15; 20; 32]%nat.
Definition legendre_entry (n : nat) : bool :=
  match find_q legendre_roots n, find_q legendre_weights n with
  | Some rs, Some ws => Nat.eqb (length rs) n && Nat.eqb (length ws) n && incr_q rs && forallb in_open rs && forallb pos_q ws && check (2 * n) legendre_eps rs ws
  | _, _ => false
  end.
Lemma legendre_entries : forallb legendre_entry legendre_sizes = true.
Proof. vm_compute. reflexivity. Qed.

Lemma legendre_eps_bound : IZR legendre_eps / (scale * scale) <= 9 / 10 ^ 25.
Proof.
  pose proof scale_pos. apply Rle_div_l; [nra|]. unfold scale. rewrite <- mult_IZR.
  assert ((10 ^ 25 * legendre_eps <= 9 * (2 ^ bits * 2 ^ bits))%Z) as Z by (vm_compute; discriminate). apply IZR_le in Z.
  rewrite mult_IZR, (mult_IZR 9) in Z. replace (IZR (10 ^ 25)) with (10 ^ 25) in Z by exact (pow_IZR 10 25).
  assert (0 < 10 ^ 25) by (apply pow_lt; lra). replace (9 / 10 ^ 25 * IZR (2 ^ bits * 2 ^ bits)) with (9 * IZR (2 ^ bits * 2 ^ bits) / 10 ^ 25) by (field; lra).
  apply Rle_div_r; [assumption|]. lra.
Qed.
Lemma slack_bound n k : (n <= 32)%nat -> (k < 64)%nat -> INR n * ((2 * INR k + 1) * / scale) <= 1 / 10 ^ 25.
Proof.
  intros N K. pose proof scale_pos as S. assert (0 <= INR n <= 32) by (split; [apply pos_INR|replace 32 with (INR 32) by (cbn; lra); apply le_INR; exact N]).
  assert (0 <= INR k <= 63) by (split; [apply pos_INR|replace 63 with (INR 63) by (cbn; lra); apply le_INR; lia]).
  assert (P : 0 < 10 ^ 25) by (apply pow_lt; lra).
  assert (B : 32 * (2 * 63 + 1) * 10 ^ 25 <= scale).
  { unfold scale. replace (32 * (2 * 63 + 1) * 10 ^ 25) with (IZR (32 * (2 * 63 + 1) * 10 ^ 25)) by (rewrite mult_IZR, (mult_IZR 32), (plus_IZR (2 * 63)), (mult_IZR 2); f_equal; exact (eq_sym (pow_IZR 10 25))). apply IZR_le. vm_compute. discriminate. }
  apply Rle_trans with (32 * (2 * 63 + 1) * / scale).
  - rewrite <- (Rmult_assoc (INR n)). apply Rmult_le_compat_r; [left; apply Rinv_0_lt_compat; exact S|]. apply Rmult_le_compat; lra.
  - set (c := 32 * (2 * 63 + 1)) in *. apply (Rmult_le_reg_r (scale * 10 ^ 25)); [nra|].
    replace (c * / scale * (scale * 10 ^ 25)) with (c * 10 ^ 25) by (field; lra). replace (1 / 10 ^ 25 * (scale * 10 ^ 25)) with scale by (field; lra). exact B.
Qed.

(** What the tables hold. *)
Lemma legendre_table n : In n legendre_sizes -> exists xs ws, get legendre_roots n = Some xs /\ get legendre_weights n = Some ws /\
  length xs = n /\ length ws = n /\ incr_r xs /\ Forall (fun x => -1 < x < 1) xs /\ Forall (fun w => 0 < w) ws /\
  (forall k, (k < 2 * n)%nat -> Rabs (wsum (fun x => x ^ k) xs ws - exact_moment k) <= 1 / 10 ^ 24).
Proof.
  intros I. pose proof legendre_entries as E. rewrite forallb_forall in E. specialize (E n I). unfold legendre_entry in E. rewrite !get_find.
  destruct (find_q legendre_roots n) as [rs|]; [|discriminate]. destruct (find_q legendre_weights n) as [ws|]; [|discriminate].
  apply andb_true_iff in E as [E E6]. apply andb_true_iff in E as [E E5]. apply andb_true_iff in E as [E E4]. apply andb_true_iff in E as [E E3]. apply andb_true_iff in E as [E1 E2].
  apply Nat.eqb_eq in E1. apply Nat.eqb_eq in E2. exists (map Q2R rs), (map Q2R ws). rewrite !map_length.
  split; [reflexivity|]. split; [reflexivity|]. split; [exact E1|]. split; [exact E2|]. split; [apply incr_q_R; exact E3|]. split; [apply in_open_R; exact E4|]. split; [apply pos_q_R; exact E5|].
  intros k K. eapply Rle_trans; [apply (check_moment (2 * n) legendre_eps rs ws k E6 K)|]. rewrite E1.
  assert (N : (n <= 32)%nat). { clear - I. unfold legendre_sizes in I. cbn [In] in I. lia. }
  pose proof (slack_bound n k N ltac:(lia)). pose proof legendre_eps_bound. assert (0 < 10 ^ 24) by (apply pow_lt; lra).
  replace (10 ^ 25) with (10 * 10 ^ 24) in * by (cbn [pow]; ring). replace (1 / 10 ^ 24) with (9 / (10 * 10 ^ 24) + 1 / (10 * 10 ^ 24)) by (field; lra). lra.
Qed.
Lemma legendre_missing n : ~ In n legendre_sizes -> get legendre_roots n = None.
Proof.
  intros I. unfold get. replace (find _ legendre_roots) with (@None (nat * list Q)); [reflexivity|]. symmetry.
  destruct (find _ _) as [[m l]|] eqn:F; [|reflexivity]. exfalso. apply find_some in F as [F1 F2]. cbn [fst] in F2. apply Nat.eqb_eq in F2. subst m. apply I.
  change legendre_sizes with (map fst legendre_roots). apply (in_map fst) in F1. exact F1.
Qed.
