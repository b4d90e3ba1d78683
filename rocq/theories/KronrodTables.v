(** The Kronrod tables pass the moment check. *)
From Coquelicot Require Import Coquelicot.
From Coq Require Import Reals List Bool ZArith QArith Qreals Lia Lra Psatz.
From Verif Require Import TensorModel TensorProofs InterpModel IntegrateModel PolySpec GaussData GaussProofs GaussTables.
Import ListNotations.
Open Scope R_scope.

Definition kronrod_eps : Z := Eval vm_compute in (9 * 2 ^ 192 / 10 ^ 21)%Z.
Definition kronrod_sizes : list nat := [15; 21; 31]%nat.
Definition kronrod_entry (n : nat) : bool :=
  let m := ((n - 1) / 2)%nat in
  match find_q legendre_roots m, find_q stieltjes_roots n, find_q kronrod_weights n with
  | Some ls, Some ss, Some ws => Nat.eqb (length (ls ++ ss)) n && Nat.eqb (length ws) n && forallb in_open (ls ++ ss) && forallb pos_q ws && check (3 * m + 2 + (if Nat.odd m then 1 else 0)) kronrod_eps (ls ++ ss) ws
  | _, _, _ => false
  end.
Lemma kronrod_entries : forallb kronrod_entry kronrod_sizes = true.
Proof. vm_compute. reflexivity. Qed.

Lemma kronrod_eps_bound : IZR kronrod_eps / (scale * scale) <= 9 / 10 ^ 21.
Proof.
  pose proof scale_pos. apply Rle_div_l; [nra|]. unfold scale. rewrite <- mult_IZR.
  assert ((10 ^ 21 * kronrod_eps <= 9 * (2 ^ bits * 2 ^ bits))%Z) as Z by (vm_compute; discriminate). apply IZR_le in Z.
  rewrite mult_IZR, (mult_IZR 9) in Z. replace (IZR (10 ^ 21)) with (10 ^ 21) in Z by exact (pow_IZR 10 21).
  assert (0 < 10 ^ 21) by (apply pow_lt; lra). replace (9 / 10 ^ 21 * IZR (2 ^ bits * 2 ^ bits)) with (9 * IZR (2 ^ bits * 2 ^ bits) / 10 ^ 21) by (field; lra).
  apply (Rmult_le_reg_r (10 ^ 21)); [assumption|]. replace (9 * IZR (2 ^ bits * 2 ^ bits) / 10 ^ 21 * 10 ^ 21) with (9 * IZR (2 ^ bits * 2 ^ bits)) by (field; lra). lra.
Qed.

Lemma kronrod_table n : In n kronrod_sizes -> let m := ((n - 1) / 2)%nat in
  exists ls ss ws, get legendre_roots m = Some ls /\ get stieltjes_roots n = Some ss /\ get kronrod_weights n = Some ws /\
  length (ls ++ ss) = n /\ length ws = n /\ Forall (fun x => -1 < x < 1) (ls ++ ss) /\ Forall (fun w => 0 < w) ws /\
  (forall k, (k < 3 * m + 2 + (if Nat.odd m then 1 else 0))%nat -> Rabs (wsum (fun x => x ^ k) (ls ++ ss) ws - exact_moment k) <= 1 / 10 ^ 20).
Proof.
  intros I m. pose proof kronrod_entries as E. rewrite forallb_forall in E. specialize (E n I). unfold kronrod_entry in E. rewrite !get_find. fold m in E.
  destruct (find_q legendre_roots m) as [ls|]; [|discriminate]. destruct (find_q stieltjes_roots n) as [ss|]; [|discriminate]. destruct (find_q kronrod_weights n) as [ws|]; [|discriminate].
  apply andb_true_iff in E as [E E5]. apply andb_true_iff in E as [E E4]. apply andb_true_iff in E as [E E3]. apply andb_true_iff in E as [E1 E2].
  apply Nat.eqb_eq in E1. apply Nat.eqb_eq in E2. exists (map Q2R ls), (map Q2R ss), (map Q2R ws). rewrite <- map_app, !map_length.
  do 3 (split; [reflexivity|]). split; [exact E1|]. split; [exact E2|]. split; [apply in_open_R; exact E3|]. split; [apply pos_q_R; exact E4|].
  intros k K. eapply Rle_trans; [apply (check_moment _ kronrod_eps (ls ++ ss) ws k E5 K)|]. rewrite E1.
  assert (N : (n <= 32)%nat /\ (k < 64)%nat). { clear - I K. unfold kronrod_sizes in I. cbn [In] in I. destruct I as [<-|[<-|[<-|[]]]]; cbn in m; subst m; cbn in K; lia. }
  pose proof (slack_bound n k (proj1 N) (proj2 N)). pose proof kronrod_eps_bound. assert (0 < 10 ^ 20) by (apply pow_lt; lra).
  assert (1 / 10 ^ 25 <= 1 / 10 ^ 21). { unfold Rdiv. rewrite !Rmult_1_l. apply Rinv_le_contravar; [apply pow_lt; lra|]. apply Rle_pow; [lra|lia]. }
  replace (10 ^ 21) with (10 * 10 ^ 20) in * by (cbn [pow]; ring). replace (1 / 10 ^ 20) with (9 / (10 * 10 ^ 20) + 1 / (10 * 10 ^ 20)) by (field; lra). lra.
Qed.
Lemma kronrod_missing n : ~ In n kronrod_sizes -> get stieltjes_roots n = None.
Proof.
  intros I. unfold get. replace (find _ stieltjes_roots) with (@None (nat * list Q)); [reflexivity|]. symmetry.
  destruct (find _ _) as [[m l]|] eqn:F; [|reflexivity]. exfalso. apply find_some in F as [F1 F2]. cbn [fst] in F2. apply Nat.eqb_eq in F2. subst m. apply I.
  change kronrod_sizes with (map fst stieltjes_roots). apply (in_map fst) in F1. exact F1.
Qed.
