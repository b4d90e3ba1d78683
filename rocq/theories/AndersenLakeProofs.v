(** Proofs for C99. *)
From Coquelicot Require Import Coquelicot.
From Coq Require Import Reals List Bool Arith Lia Lra Psatz.
From Verif Require Import InterpModel BrentModel BrentProofs ExtReal HaganWestModel BootstrapModel BlackScholesModel BlackScholesSpec BlackScholesProofs NormalProofs IntegrateModel PolySpec
  GaussData GaussProofs GaussTables PropsGauss KronrodModel KronrodSpec KronrodTables KronrodProofs PropsKronrod PropsBlackScholes AmericanProofs3 CubicSpec PropsCubic AndersenLakeModel AndersenLakeSpec.
Import ListNotations.
Open Scope R_scope.

Lemma erf_ncdf x : erf (x / sqrt 2) = 2 * ncdf x - 1.
Proof. unfold ncdf. lra. Qed.
Lemma normal_cdf_eq a : normal_cdf a = ncdf a.
Proof.
  assert (S2 : 0 < sqrt 2) by (apply sqrt_lt_R0; lra). unfold normal_cdf. cbv zeta.
  assert (AB : Rabs (a / sqrt 2) = Rabs a / sqrt 2). { unfold Rdiv. rewrite Rabs_mult, (Rabs_right (/ sqrt 2)); [reflexivity|]. apply Rle_ge, Rlt_le, Rinv_0_lt_compat, S2. }
  rewrite AB, !erf_ncdf. destruct (rlt _ _); [lra|]. destruct (rlt 0 (a / sqrt 2)) eqn:E.
  - apply rlt_true in E. assert (0 < a). { apply (Rmult_lt_reg_r (/ sqrt 2)); [apply Rinv_0_lt_compat, S2|]. rewrite Rmult_0_l. exact E. } rewrite Rabs_right by lra. lra.
  - apply rlt_false in E. assert (a <= 0). { apply (Rmult_le_reg_r (/ sqrt 2)); [apply Rinv_0_lt_compat, S2|]. rewrite Rmult_0_l. exact E. } rewrite Rabs_left1 by lra. rewrite ncdf_symm. lra.
Qed.

(** Quadrature. *)
Lemma legendre_some f T n : supported n -> 0 <= T -> (forall x, 0 < x < T -> 0 <= f x) -> exists v, legendre f 0 T n = Some v /\ 0 <= v.
Proof.
  intros SP T0 F. change (exists v, gl f 0 T n = Some v /\ 0 <= v). destruct (gl f 0 T n) as [v|] eqn:E; [|exfalso; revert E; apply C32_supported, SP].
  exists v. split; [reflexivity|]. assert (L := C32_linear n f f 0 0 0 T v v E E).
  replace 0 with (0 * v + 0 * v) by ring. apply (C32_monotone n (fun x => 0 * f x + 0 * f x) f 0 T); [exact T0| |exact L|exact E]. intros x X. specialize (F x X). lra.
Qed.
Lemma kronrod_one f a b tol n d vs : gauss_kronrod f [(a, b)] tol n d = Some vs -> exists v, vs = [v].
Proof.
  unfold gauss_kronrod. cbn [map]. assert (G : forall d rows out, length rows = 1%nat -> kronrod_loop d f tol n rows = Some out -> length out = 1%nat).
  { clear. induction d as [|d IH]; intros rows out L E; cbn [kronrod_loop] in E; [injection E as <-; exact L|]. destruct (kronrod_cond rows); [|injection E as <-; exact L].
    destruct (kronrod_body f tol n rows) as [rows'|] eqn:B; [|discriminate]. apply (IH rows'); [|exact E]. unfold kronrod_body in B. destruct rows as [|r [|]]; try discriminate L. cbn [map] in B. cbn [all_some] in B.
    destruct (row_estimates f n (klower r) (kupper r)) as [es|]; [|discriminate]. cbn [option_map] in B. injection B as <-. reflexivity. }
  destruct (kronrod_loop _ _ _ _ _) as [rows|] eqn:E; [|discriminate]. cbn [option_map]. intros Q. injection Q as <-. apply G in E; [|reflexivity]. destruct rows as [|r [|]]; try discriminate E. exists (ksum r). reflexivity.
Qed.
Lemma kronrod_some f a b tol n d : kronrod_supported n -> exists v, gauss_kronrod f [(a, b)] tol n d = Some [v].
Proof.
  intros SP. destruct d as [|d]; [exists 0; reflexivity|]. destruct (gauss_kronrod f [(a, b)] tol n (S d)) as [vs|] eqn:E.
  - destruct (kronrod_one _ _ _ _ _ _ _ E) as (v & ->). exists v. reflexivity.
  - exfalso. revert E. apply C53_supported; [discriminate|lia|exact SP].
Qed.
Definition slack : R := 1 + 1 / 10 ^ 20.
Lemma total_le (g h : R * R -> R) l : Forall (fun p => g p <= h p) l -> total g l <= total h l.
Proof. unfold total. induction 1; cbn; lra. Qed.
Lemma total_app (g : R * R -> R) l m : total g (l ++ m) = total g l + total g m.
Proof. unfold total. induction l; cbn in *; lra. Qed.
Lemma total_pos (g : R * R -> R) l : Forall (fun p => 0 <= g p) l -> 0 <= total g l.
Proof. unfold total. induction 1; cbn; lra. Qed.
Lemma piece_rule n : In n kronrod_sizes -> exists xs ws, (forall f q, piece_estimate f n q = mapped_rule f (fst q) (snd q) xs ws) /\ Forall (fun x => -1 < x < 1) xs /\ Forall (fun w => 0 < w) ws.
Proof.
  intros I. destruct (kronrod_table n I) as (ls & ss & ws & E1 & E2 & E3 & L1 & L2 & O & P & _). exists (ls ++ ss), ws. split; [|tauto].
  intros f q. unfold piece_estimate, non_adaptive_gauss_kronrod. rewrite E1, E2, E3. reflexivity.
Qed.
Lemma pieces_between f g n a b l : In n kronrod_sizes -> a <= b -> tiles a b l -> (forall x, a <= x <= b -> f x <= g x) -> Forall (fun p => piece_estimate f n p <= piece_estimate g n p) l.
Proof.
  intros I AB TL F. pose proof (tiles_inside a b _ TL) as IN. destruct TL as [_ OR]. rewrite Forall_forall in *. intros p P. specialize (IN p P). specialize (OR p P).
  destruct (piece_rule n I) as (xs & ws & ER & O & PW). rewrite !ER, !mapped_rule_wsum. destruct OR as (s & S0 & E). rewrite Rmin_left, Rmax_right in IN by lra.
  assert (0 <= s * (b - a)) by (apply Rmult_le_pos; lra). apply Rmult_le_compat_l; [lra|].
  apply wsum_le; [|revert PW; apply Forall_impl; intros; lra]. revert O. apply Forall_impl. intros x Hx. apply F. nra.
Qed.
Lemma kronrod_bounds f T tol n d v c : kronrod_supported n -> 0 <= tol -> 0 <= T -> (forall x, 0 <= x <= T -> 0 <= f x <= c) -> gauss_kronrod f [(0, T)] tol n d = Some [v] -> 0 <= v <= c * T * slack.
Proof.
  intros SP TOL T0 F E. destruct (C53_error_control f [(0, T)] tol n d [v] 0 0 T v SP TOL T0 (fun x X => proj1 (F x X)) E eq_refl eq_refl) as (acc & pend & TL & V & _ & _ & V0).
  split; [exact V0|]. apply ksup in SP as IS. assert (C0 : 0 <= c) by (specialize (F 0 ltac:(lra)); lra).
  assert (B1 := pieces_between f (peval [c]) n 0 T _ IS T0 TL). assert (B2 := pieces_between (fun _ => 0) (peval [c]) n 0 T _ IS T0 TL). assert (Z := pieces_between (fun _ => 0) (fun _ => 0) n 0 T _ IS T0 TL).
  assert (PC : forall x, peval [c] x = c) by (intros; unfold peval; cbn; ring).
  assert (P1 : Forall (fun p => piece_estimate f n p <= piece_estimate (peval [c]) n p) (acc ++ pend)) by (apply B1; intros x X; rewrite PC; apply F; exact X).
  assert (P2 : Forall (fun p => 0 <= piece_estimate (peval [c]) n p) (acc ++ pend)).
  { assert (P3 : Forall (fun p => piece_estimate (fun _ => 0) n p <= piece_estimate (peval [c]) n p) (acc ++ pend)) by (apply B2; intros x X; rewrite PC; exact C0).
    revert P3. apply Forall_impl. intros p. destruct (piece_rule n IS) as (xs & ws & ER & _). rewrite (ER (fun _ => 0)), mapped_rule_wsum.
    rewrite (wsum_ext _ (fun x => 0 * x + 0 * x)) by (intros; ring). rewrite wsum_lin. lra. }
  apply Forall_app in P1 as (P1 & _). apply total_le in P1. rewrite <- V in P1. apply Forall_app in P2 as (_ & P2). apply total_pos in P2.
  assert (LEN : (length [c] <= 3 * ((n - 1) / 2) + 2 + (if Nat.odd ((n - 1) / 2) then 1 else 0))%nat) by (cbn [length]; lia).
  assert (INT : is_RInt (peval [c]) 0 T (c * T)). { apply (is_RInt_ext (V := R_NormedModule) (fun _ => c)); [intros; rewrite PC; reflexivity|]. replace (c * T) with (scal (T - 0) c) by (unfold scal; cbn; unfold mult; cbn; ring). apply (is_RInt_const (V := R_NormedModule)). }
  assert (Q := C53_tiled_polynomial n [c] 0 T _ (c * T) SP LEN TL INT). rewrite total_app in Q. cbn [map] in Q. rewrite Rminus_0_r, (Rabs_right T) in Q by lra.
  replace (peval [Rabs c] (Rmax (Rabs 0) T)) with c in Q by (unfold peval; cbn; rewrite (Rabs_right c) by lra; ring).
  apply Rabs_le_between in Q. unfold slack. assert (0 <= c * T) by nra. lra.
Qed.
Lemma kronrod_zero f T tol n d v : kronrod_supported n -> 0 <= tol -> 0 <= T -> (forall x, 0 <= x <= T -> f x = 0) -> gauss_kronrod f [(0, T)] tol n d = Some [v] -> v = 0.
Proof. intros SP TOL T0 F E. assert (B := kronrod_bounds f T tol n d v 0 SP TOL T0 ltac:(intros x X; rewrite (F x X); lra) E). lra. Qed.
