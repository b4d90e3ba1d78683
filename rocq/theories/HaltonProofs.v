From Coq Require Import ZArith Znumtheory QArith Qround List Bool Lia Permutation Sorted.
From Verif Require Import SobolSpec HaltonSpec HaltonData SobolModel HaltonModel.
Import ListNotations.
Open Scope Z_scope.

(** ** Mirrored digits with a permutation [s j] applied to digit j *)
Section Mirror.
Variable b : Z.
Hypothesis B : 2 <= b.
Variable s : nat -> Z -> Z.
Hypothesis S_bound : forall j d, 0 <= d < b -> 0 <= s j d < b.
Hypothesis S_inj : forall j d d', 0 <= d < b -> 0 <= d' < b -> s j d = s j d' -> d = d'.
Hypothesis S_surj : forall j e, 0 <= e < b -> exists d, 0 <= d < b /\ s j d = e.

Fixpoint mirror (k j : nat) (n : Z) : Z :=
  match k with O => 0 | S k' => s j (n mod b) * b ^ Z.of_nat k' + mirror k' (S j) (n / b) end.
Lemma bpow k : 0 < b ^ Z.of_nat k.
Proof. apply Z.pow_pos_nonneg; lia. Qed.
Lemma bpowS k : b ^ Z.of_nat (S k) = b * b ^ Z.of_nat k.
Proof. rewrite Nat2Z.inj_succ, Z.pow_succ_r by lia. reflexivity. Qed.
Lemma mirror_bound k : forall j n, 0 <= mirror k j n < b ^ Z.of_nat k.
Proof.
  induction k as [|k IH]; intros j n; [cbn; lia|]. cbn [mirror]. rewrite bpowS. specialize (IH (S j) (n / b)). pose proof (S_bound j (n mod b) ltac:(apply Z.mod_pos_bound; lia)). pose proof (bpow k). nia.
Qed.
Lemma mirror_split e : forall k j n, mirror (k + e) j n = mirror k j n * b ^ Z.of_nat e + mirror e (k + j) (n / b ^ Z.of_nat k).
Proof.
  induction k as [|k IH]; intros j n; [cbn [Nat.add mirror]; change (b ^ Z.of_nat 0) with 1; rewrite Z.div_1_r; lia|].
  cbn [Nat.add mirror]. rewrite IH. rewrite Nat2Z.inj_add, Z.pow_add_r by lia. rewrite bpowS. rewrite Z.div_div by (try apply bpow; lia). replace (k + S j)%nat with (S (k + j)) by lia. ring.
Qed.
Lemma mirror_inj k : forall j n n', mirror k j n = mirror k j n' -> n mod b ^ Z.of_nat k = n' mod b ^ Z.of_nat k.
Proof.
  induction k as [|k IH]; intros j n n' E; [change (b ^ Z.of_nat 0) with 1; rewrite !Z.mod_1_r; reflexivity|]. cbn [mirror] in E.
  pose proof (mirror_bound k (S j) (n / b)). pose proof (mirror_bound k (S j) (n' / b)). pose proof (bpow k).
  assert (s j (n mod b) = s j (n' mod b) /\ mirror k (S j) (n / b) = mirror k (S j) (n' / b)) as (E1 & E2) by (apply (Z.div_mod_unique (b ^ Z.of_nat k)); lia).
  apply S_inj in E1; [|apply Z.mod_pos_bound; lia|apply Z.mod_pos_bound; lia]. apply IH in E2. rewrite bpowS, !Z.rem_mul_r by (try apply Z.neq_sym; lia). rewrite E1, E2. reflexivity.
Qed.
Lemma mirror_mod k : forall j n n', n mod b ^ Z.of_nat k = n' mod b ^ Z.of_nat k -> mirror k j n = mirror k j n'.
Proof.
  induction k as [|k IH]; intros j n n' E; [reflexivity|]. cbn [mirror]. rewrite bpowS, !Z.rem_mul_r in E by (pose proof (bpow k); lia).
  pose proof (Z.mod_pos_bound n b ltac:(lia)). pose proof (Z.mod_pos_bound n' b ltac:(lia)).
  assert (n mod b = n' mod b /\ (n / b) mod b ^ Z.of_nat k = (n' / b) mod b ^ Z.of_nat k) as (E1 & E2) by (apply and_comm, (Z.div_mod_unique b); lia).
  rewrite E1, (IH (S j) _ _ E2). reflexivity.
Qed.
Lemma mirror_surj k : forall j c, 0 <= c < b ^ Z.of_nat k -> exists n, 0 <= n < b ^ Z.of_nat k /\ mirror k j n = c.
Proof.
  induction k as [|k IH]; intros j c C; [exists 0; cbn in *; lia|]. rewrite bpowS in *. pose proof (bpow k).
  destruct (IH (S j) (c mod b ^ Z.of_nat k)) as (n & Nb & E); [apply Z.mod_pos_bound; lia|].
  assert (HB : 0 <= c / b ^ Z.of_nat k < b) by (split; [apply Z.div_pos; lia|apply Z.div_lt_upper_bound; lia]).
  destruct (S_surj j (c / b ^ Z.of_nat k) HB) as (d & Db & Ed). exists (n * b + d). split; [nia|]. cbn [mirror].
  assert (Em : (n * b + d) mod b = d) by (rewrite Z.add_comm, Z_mod_plus_full; apply Z.mod_small; assumption).
  assert (Eq : (n * b + d) / b = n) by (rewrite Z.div_add_l by lia; rewrite Z.div_small by lia; lia).
  rewrite Em, Eq, Ed, E. pose proof (Z.div_mod c (b ^ Z.of_nat k) ltac:(lia)). lia.
Qed.

(** the sum of the code is the mirrored number *)
Definition msum (size : nat) (n : Z) (a : nat) : Q :=
  Qsum (map (fun k => inject_Z (s k (n / b ^ Z.of_nat k mod b)) / inject_Z b / inject_Z (b ^ Z.of_nat k))%Q (seq a size)).
Lemma Qsum_app l l' : (Qsum (l ++ l') == Qsum l + Qsum l')%Q.
Proof. unfold Qsum. induction l; cbn [app fold_right]; [ring|]. rewrite IHl. ring. Qed.
Lemma Qsum_ext {A} (f g : A -> Q) l : (forall x, In x l -> f x == g x)%Q -> (Qsum (map f l) == Qsum (map g l))%Q.
Proof. unfold Qsum. induction l as [|x l IH]; intros H; cbn [map fold_right]; [reflexivity|]. rewrite (H x), IH; [reflexivity| |left; reflexivity]. intros y Y. apply H. right; assumption. Qed.
Lemma injb k : ~ (inject_Z (b ^ Z.of_nat k) == 0)%Q.
Proof. pose proof (bpow k). unfold Qeq. cbn. lia. Qed.
Lemma injb1 : ~ (inject_Z b == 0)%Q.
Proof. unfold Qeq. cbn. lia. Qed.
Lemma msum_mirror size n : (msum size n 0 == inject_Z (mirror size 0 n) / inject_Z (b ^ Z.of_nat size))%Q.
Proof.
  induction size as [|k IH]; [cbn; reflexivity|]. unfold msum in *. rewrite seq_S, map_app, Qsum_app, IH. cbn [map Qsum fold_right Nat.add].
  assert (E : mirror (S k) 0 n = mirror k 0 n * b + s k (n / b ^ Z.of_nat k mod b)).
  { replace (S k) with (k + 1)%nat by lia. rewrite (mirror_split 1 k 0 n). cbn [mirror]. rewrite Nat.add_0_r. change (b ^ Z.of_nat 0) with 1. change (Z.of_nat 1) with 1. rewrite Z.pow_1_r. ring. }
  rewrite E. rewrite inject_Z_plus, inject_Z_mult, bpowS, inject_Z_mult. field. split; [apply injb|apply injb1].
Qed.

(** Cells: the interval of length b^-k holding the point is given by the first
    k mirrored digits. *)
Lemma frac_cell (p : positive) (e : nat) (x c : Z) (z : Q) : (0 <= z)%Q -> (z * inject_Z (Zpos p * b ^ Z.of_nat e) < 1)%Q ->
  in_cell p c (inject_Z x / inject_Z (Zpos p * b ^ Z.of_nat e) + z) <-> x / b ^ Z.of_nat e = c.
Proof.
  intros Z0 Z1. pose proof (bpow e) as Pe. set (q := b ^ Z.of_nat e) in *. clearbody q.
  set (w := (z * inject_Z (Zpos p * q))%Q) in *.
  assert (PQ : (0 < inject_Z (Zpos p * q))%Q) by (unfold Qlt; cbn [Qnum Qden inject_Z]; nia).
  assert (P0 : ~ (inject_Z (Zpos p) == 0)%Q) by (unfold Qeq; cbn; lia). assert (Q0 : ~ (inject_Z q == 0)%Q) by (unfold Qeq; cbn; lia).
  assert (E : ((inject_Z x / inject_Z (Zpos p * q) + z) * inject_Z (Zpos p * q) == inject_Z x + w)%Q) by (unfold w; rewrite inject_Z_mult; field; split; assumption).
  assert (F : forall a, ((a # p) * inject_Z (Zpos p * q) == inject_Z (a * q))%Q) by (intros a; rewrite Qmake_Qdiv, !inject_Z_mult; field; assumption).
  assert (W0 : (0 <= w)%Q) by (unfold w; apply Qmult_le_0_compat; [assumption|apply Qlt_le_weak; assumption]).
  assert (G : forall a, (inject_Z a <= inject_Z x + w)%Q <-> a <= x).
  { intros a. clearbody w. destruct w as (wn, wd). unfold Qle, Qlt, Qplus, inject_Z in *. cbn [Qnum Qden] in *. split; intros H; nia. }
  unfold in_cell. rewrite <- (Qmult_le_r (c # p) _ _ PQ), <- (Qmult_lt_r _ (c + 1 # p) _ PQ), E, !F, G.
  assert (G' : (inject_Z x + w < inject_Z ((c + 1) * q))%Q <-> x < (c + 1) * q).
  { split; intros H; [|apply Qnot_le_lt; intros H'; apply G in H'; lia]. apply Znot_ge_lt. intros H'. apply Qlt_not_le in H. apply H, G. lia. }
  rewrite G'. split.
  - intros (A & C). symmetry. apply (Z.div_unique_pos x q c (x - q * c)); lia.
  - intros <-. pose proof (Z.div_mod x q ltac:(lia)). pose proof (Z.mod_pos_bound x q ltac:(lia)). lia.
Qed.
Lemma mirror_cell size n z k c : (k <= size)%nat -> (0 <= z)%Q -> (z * inject_Z (b ^ Z.of_nat size) < 1)%Q ->
  in_cell (Z.to_pos (b ^ Z.of_nat k)) c (msum size n 0 + z) <-> mirror k 0 n = c.
Proof.
  intros K Z0 Z1. assert (E : b ^ Z.of_nat size = Zpos (Z.to_pos (b ^ Z.of_nat k)) * b ^ Z.of_nat (size - k)).
  { rewrite Z2Pos.id by apply bpow. rewrite <- Z.pow_add_r by lia. f_equal. lia. }
  assert (IC : in_cell (Z.to_pos (b ^ Z.of_nat k)) c (msum size n 0 + z) <-> in_cell (Z.to_pos (b ^ Z.of_nat k)) c (inject_Z (mirror size 0 n) / inject_Z (Zpos (Z.to_pos (b ^ Z.of_nat k)) * b ^ Z.of_nat (size - k)) + z)).
  { unfold in_cell. rewrite (msum_mirror size n), E. reflexivity. }
  rewrite IC. rewrite frac_cell; [|assumption|rewrite <- E; assumption].
  replace size with (k + (size - k))%nat at 1 by lia. rewrite mirror_split. rewrite Z.div_add_l by (pose proof (bpow (size - k)); lia). rewrite (Z.div_small (mirror (size - k) _ _)) by apply mirror_bound. rewrite Z.add_0_r. reflexivity.
Qed.
Lemma mirror_residue k c : 0 <= c < b ^ Z.of_nat k -> exists r, 0 <= r < b ^ Z.of_nat k /\ forall n, mirror k 0 n = c <-> n mod b ^ Z.of_nat k = r.
Proof.
  intros C. destruct (mirror_surj k 0 c C) as (r & Rb & E). exists r. split; [assumption|]. intros n. split; intros H.
  - rewrite <- E in H. apply mirror_inj in H. rewrite H. apply Z.mod_small. assumption.
  - rewrite <- E. apply mirror_mod. rewrite H. symmetry. apply Z.mod_small. assumption.
Qed.
Lemma msum_range size n z : (0 <= z)%Q -> (z * inject_Z (b ^ Z.of_nat size) < 1)%Q -> (0 <= msum size n 0 + z /\ msum size n 0 + z < 1)%Q.
Proof.
  intros Z0 Z1. assert (IC : in_cell (Z.to_pos (b ^ Z.of_nat 0)) 0 (msum size n 0 + z)) by (apply mirror_cell; [lia|assumption|assumption|reflexivity]).
  change (Z.to_pos (b ^ Z.of_nat 0)) with 1%positive in IC. exact IC.
Qed.
End Mirror.

(** ** The plain sequence: no permutation *)
Section Plain.
Variable b : Z.
Hypothesis B : 2 <= b.
Let idp : nat -> Z -> Z := fun _ d => d.
Lemma mirror_id_radical k : forall j n, 0 <= n < b ^ Z.of_nat k -> exists q, radical_inverse b n q /\ (q == inject_Z (mirror b idp k j n) / inject_Z (b ^ Z.of_nat k))%Q.
Proof.
  induction k as [|k IH]; intros j n H.
  - exists 0%Q. replace n with 0 by (cbn in H; lia). split; [constructor|]. cbn. reflexivity.
  - rewrite (bpowS b) in *. destruct (IH (S j) (n / b)) as (q & RI & E).
    { split; [apply Z.div_pos; lia|apply Z.div_lt_upper_bound; lia]. }
    exists ((inject_Z (n mod b) + q) / inject_Z b)%Q. split.
    + rewrite (Z.div_mod n b) at 1 by lia. constructor; [apply Z.mod_pos_bound; lia|assumption].
    + rewrite E. cbn [mirror]. unfold idp at 2. rewrite inject_Z_plus, !inject_Z_mult. field. split; [apply (injb b B)|apply (injb1 b B)].
Qed.
End Plain.

(** ** Chinese remainders *)
Lemma coprime_mul_divide a c x : rel_prime a c -> (a | x) -> (c | x) -> (a * c | x).
Proof.
  intros RP (k & ->) D. rewrite Z.mul_comm in D. apply Gauss in D; [|apply rel_prime_sym; assumption]. destruct D as (m & ->). exists m. ring.
Qed.
Lemma mod_eq_divide a x y : 0 < a -> x mod a = y mod a <-> (a | x - y).
Proof.
  intros A. split; intros H.
  - exists (x / a - y / a). pose proof (Z.div_mod x a ltac:(lia)). pose proof (Z.div_mod y a ltac:(lia)). nia.
  - destruct H as (k & E). replace x with (y + k * a) by lia. apply Z_mod_plus_full.
Qed.
Fixpoint zprod (l : list Z) : Z := match l with [] => 1 | x :: r => x * zprod r end.
Lemma zprod_pos l : Forall (fun m => 0 < m) l -> 0 < zprod l.
Proof. induction 1; cbn [zprod]; [lia|]. apply Z.mul_pos_pos; assumption. Qed.
Lemma rel_prime_zprod m l : Forall (rel_prime m) l -> rel_prime m (zprod l).
Proof. induction 1; cbn [zprod]; [apply rel_prime_sym, rel_prime_1|]. apply rel_prime_mult; assumption. Qed.
Lemma crt ms : Forall (fun m => 0 < m) ms -> ForallOrdPairs rel_prime ms -> forall rs, length rs = length ms ->
  Forall2 (fun m r => 0 <= r < m) ms rs ->
  exists R, 0 <= R < zprod ms /\ forall n, Forall2 (fun m r => n mod m = r) ms rs <-> n mod zprod ms = R.
Proof.
  intros P. induction 1 as [|m ms RP OP IH]; intros rs L F.
  - destruct rs; [|discriminate]. exists 0. split; [cbn; lia|]. intros n. cbn [zprod]. rewrite Z.mod_1_r. split; [reflexivity|constructor].
  - destruct rs as [|r rs]; [discriminate|]. inversion P as [|? ? Pm Pms]; subst. inversion F as [|? ? ? ? Fr Frs]; subst.
    destruct (IH Pms rs ltac:(cbn in L; lia) Frs) as (R & RB & H). cbn [zprod]. pose proof (zprod_pos ms Pms) as PP.
    assert (RP' : rel_prime m (zprod ms)) by (apply rel_prime_zprod; assumption).
    destruct (rel_prime_bezout _ _ RP') as [u v UV]. set (x := r * (v * zprod ms) + R * (u * m)).
    exists (x mod (m * zprod ms)). assert (MP : 0 < m * zprod ms) by (apply Z.mul_pos_pos; assumption). split; [apply Z.mod_pos_bound; assumption|].
    assert (X1 : x mod m = r). { replace x with (r + (R * u - r * u) * m) by (unfold x; replace (v * zprod ms) with (1 - u * m) by lia; ring). rewrite Z_mod_plus_full. apply Z.mod_small. assumption. }
    assert (X2 : x mod zprod ms = R). { replace x with (R + (r * v - R * v) * zprod ms) by (unfold x; replace (u * m) with (1 - v * zprod ms) by lia; ring). rewrite Z_mod_plus_full. apply Z.mod_small. assumption. }
    clearbody x. intros n. split.
    + intros F2. inversion F2 as [|? ? ? ? E1 E2]; subst. apply H in E2. apply mod_eq_divide; [assumption|]. apply coprime_mul_divide; [assumption| |].
      * apply mod_eq_divide; [assumption|]. congruence.
      * apply mod_eq_divide; [assumption|]. congruence.
    + intros E. apply mod_eq_divide in E; [|assumption]. constructor.
      * rewrite <- X1. apply mod_eq_divide; [assumption|]. eapply Z.divide_trans; [|exact E]. exists (zprod ms). ring.
      * apply H. rewrite <- X2. apply mod_eq_divide; [assumption|]. eapply Z.divide_trans; [|exact E]. exists m. ring.
Qed.
Lemma residue_in_run P R n0 : 0 <= R < P -> exists k, 0 <= k < P /\ (n0 + k) mod P = R /\ forall k', 0 <= k' < P -> (n0 + k') mod P = R -> k' = k.
Proof.
  intros H. exists ((R - n0) mod P). split; [apply Z.mod_pos_bound; lia|]. split.
  - rewrite Z.add_mod_idemp_r by lia. replace (n0 + (R - n0)) with R by ring. apply Z.mod_small. assumption.
  - intros k' K E. rewrite <- (Z.mod_small k' P) by assumption. apply mod_eq_divide; [lia|]. rewrite <- (Z.mod_small R P) in E by assumption. apply mod_eq_divide in E; [|lia]. replace (k' - (R - n0)) with (n0 + k' - R) by ring. assumption.
Qed.

(** ** The prime table *)
Lemma small_divisor n : 1 < n -> ~ prime n -> exists d, 1 < d /\ d * d <= n /\ (d | n).
Proof.
  intros N1 NP. destruct (not_prime_divide n N1 NP) as (d & D & (e & E)).
  destruct (Z.le_gt_cases (d * d) n) as [L|L]; [exists d; repeat split; try lia; exists e; lia|].
  exists e. repeat split; [nia|nia|exists d; lia].
Qed.
Lemma prime_iff n k : 1 < n -> n < (k + 1) * (k + 1) -> 0 < k -> prime n <-> forall d, 2 <= d <= k -> d < n -> ~ (d | n).
Proof.
  intros N1 K K0. split.
  - intros P d D DN H. destruct (prime_divisors n P _ H) as [|[|[|]]]; lia.
  - intros H. destruct (prime_dec n) as [|NP]; [assumption|]. exfalso. destruct (small_divisor n N1 NP) as (d & D1 & D2 & D3). apply (H d); [nia|nia|assumption].
Qed.
(** numbers up to 120 by trial division; beyond, counters for the divisors 2
    to 88 are ticked from one number to the next *)
Definition trial (n : Z) : bool := forallb (fun d => (n <=? d) || negb (n mod d =? 0)) [2; 3; 4; 5; 6; 7; 8; 9; 10].
Definition tick (c : nat * nat) : nat * nat := match c with (d, O) => (d, pred d) | (d, S e) => (d, e) end.
Definition at_zero (c : nat * nat) : bool := match c with (_, O) => true | _ => false end.
Fixpoint walk (fuel : nat) (n : Z) (cs : list (nat * nat)) : list Z :=
  match fuel with
  | O => []
  | S f => let rest := walk f (n + 1) (map tick cs) in if existsb at_zero cs then rest else n :: rest
  end.
Definition counters : list (nat * nat) := map (fun d => (d, Z.to_nat ((- 121) mod Z.of_nat d))) (seq 2 87).
Lemma trial_prime n : 1 < n < 121 -> trial n = true <-> prime n.
Proof.
  intros Nb. rewrite (prime_iff n 10) by lia. unfold trial. rewrite forallb_forall. split.
  - intros H d D DN DV. specialize (H d). apply Z.mod_divide in DV; [|lia]. rewrite DV in H. assert (I : In d [2; 3; 4; 5; 6; 7; 8; 9; 10]) by (cbn; lia). specialize (H I). apply orb_prop in H as [H|H]; [apply Z.leb_le in H; lia|discriminate].
  - intros H d D. destruct (Z.leb_spec n d); [reflexivity|]. cbn [orb]. destruct (Z.eqb_spec (n mod d) 0) as [E|]; [|reflexivity]. exfalso. assert (2 <= d <= 10) by (cbn in D; lia). apply Z.mod_divide in E; [|lia]. apply (H d); assumption.
Qed.
Definition counter_ok (n : Z) (c : nat * nat) : Prop := (2 <= fst c)%nat /\ Z.of_nat (snd c) = (- n) mod Z.of_nat (fst c).
Lemma tick_ok n c : counter_ok n c -> counter_ok (n + 1) (tick c).
Proof.
  destruct c as (d, [|e]); unfold counter_ok; cbn [fst snd tick]; intros (D & E); (split; [assumption|]).
  - symmetry. apply Z.mod_divide in E || idtac. symmetry in E. apply Z.mod_divide in E; [|lia]. destruct E as (k & E). replace (- (n + 1)) with ((Z.of_nat d - 1) + (k - 1) * Z.of_nat d) by lia. rewrite Z_mod_plus_full. rewrite Z.mod_small; lia.
  - pose proof (Z.mod_pos_bound (- n) (Z.of_nat d) ltac:(lia)). pose proof (Z.div_mod (- n) (Z.of_nat d) ltac:(lia)). replace (- (n + 1)) with (Z.of_nat e + (- n) / Z.of_nat d * Z.of_nat d) by lia. rewrite Z_mod_plus_full. rewrite Z.mod_small; lia.
Qed.
Lemma zero_divides n c : counter_ok n c -> at_zero c = true <-> (Z.of_nat (fst c) | n).
Proof.
  destruct c as (d, e). unfold counter_ok. cbn [fst snd]. intros (D & E). rewrite <- Z.divide_opp_r, <- Z.mod_divide by lia. rewrite <- E. destruct e; cbn [at_zero]; split; intros; try reflexivity; try discriminate; lia.
Qed.
Lemma map_tick_fst cs : map fst (map tick cs) = map fst cs.
Proof. rewrite map_map. apply map_ext. intros (d, [|e]); reflexivity. Qed.
Lemma walk_spec f : forall n cs p, Forall (counter_ok n) cs -> In p (walk f n cs) <-> n <= p < n + Z.of_nat f /\ forall d, In d (map fst cs) -> ~ (Z.of_nat d | p).
Proof.
  induction f as [|f IH]; intros n cs p OK; [cbn; lia|]. cbn [walk]. cbv zeta.
  assert (OK' : Forall (counter_ok (n + 1)) (map tick cs)) by (apply Forall_map; eapply Forall_impl; [|exact OK]; intros c; apply tick_ok).
  specialize (IH (n + 1) (map tick cs) p OK'). rewrite map_tick_fst in IH.
  assert (Z0 : existsb at_zero cs = true <-> exists d, In d (map fst cs) /\ (Z.of_nat d | n)).
  { rewrite existsb_exists. rewrite Forall_forall in OK. split.
    - intros (c & I & Zc). exists (fst c). split; [apply in_map; assumption|]. apply (zero_divides n c); [apply OK; assumption|assumption].
    - intros (d & I & Dn). apply in_map_iff in I as (c & <- & I). exists c. split; [assumption|]. apply (zero_divides n c); [apply OK; assumption|assumption]. }
  destruct (existsb at_zero cs) eqn:E.
  - destruct (proj1 Z0 eq_refl) as (d & I & Dn). rewrite IH. split; [intros (A & C); split; [lia|assumption]|]. intros (A & C). split; [|assumption]. assert (p <> n) by (intros ->; apply (C d I Dn)). lia.
  - cbn [In]. rewrite IH. split.
    + intros [->|(A & C)]; [|split; [lia|assumption]]. split; [lia|]. intros d I Dn. assert (false = true) by (apply Z0; exists d; split; assumption). discriminate.
    + intros (A & C). destruct (Z.eq_dec n p); [left; assumption|right; split; [lia|assumption]].
Qed.
Lemma primes_computed : primes = filter trial (map Z.of_nat (seq 2 119)) ++ walk (Z.to_nat 7799) 121 counters.
Proof. vm_cast_no_check (eq_refl primes). Qed.
Lemma counters_ok : Forall (counter_ok 121) counters.
Proof. apply Forall_map. apply Forall_forall. intros d D. apply in_seq in D. unfold counter_ok. cbn [fst snd]. split; [lia|]. rewrite Z2Nat.id; [reflexivity|]. apply Z.mod_pos_bound. lia. Qed.
Lemma primes_spec p : In p primes <-> prime p /\ p <= 7919.
Proof.
  rewrite primes_computed, in_app_iff, filter_In, (walk_spec _ _ _ _ counters_ok), in_map_iff.
  assert (CF : forall d, In d (map fst counters) <-> (2 <= d < 89)%nat).
  { intros d. unfold counters. rewrite map_map. cbn [fst]. rewrite map_id, in_seq. lia. }
  split.
  - intros [((k & <- & K) & T)|(A & C)].
    + apply in_seq in K. split; [|lia]. apply trial_prime; [lia|assumption].
    + split; [|lia]. apply (prime_iff p 88); [lia|lia|lia|]. intros d D _ DV. apply (C (Z.to_nat d)); [apply CF; lia|]. rewrite Z2Nat.id by lia. assumption.
  - intros (P & L). pose proof (prime_ge_2 p P). destruct (Z.lt_ge_cases p 121).
    + left. split; [|apply trial_prime; [lia|assumption]]. exists (Z.to_nat p). split; [lia|apply in_seq; lia].
    + right. split; [lia|]. intros d D. apply CF in D. apply (proj1 (prime_iff p 88 ltac:(lia) ltac:(lia) ltac:(lia)) P); lia.
Qed.
Lemma primes_length : length primes = 1000%nat. Proof. reflexivity. Qed.
Fixpoint increasing (l : list Z) : bool := match l with x :: ((y :: _) as r) => (x <? y) && increasing r | _ => true end.
Lemma increasing_sorted l : increasing l = true -> StronglySorted Z.lt l.
Proof.
  intros H. apply Sorted_StronglySorted; [intros x y z; lia|]. induction l as [|x l IH]; [constructor|]. constructor.
  - apply IH. destruct l; [reflexivity|]. cbn in H. apply andb_prop in H. apply H.
  - destruct l; constructor. cbn in H. apply andb_prop in H as (H & _). apply Z.ltb_lt. assumption.
Qed.
Lemma primes_sorted : StronglySorted Z.lt primes.
Proof. apply increasing_sorted. vm_compute. reflexivity. Qed.
Lemma distinct_primes_coprime p q : prime p -> prime q -> p <> q -> rel_prime p q.
Proof. intros P Q N. apply prime_rel_prime; [assumption|]. intros D. apply N. apply prime_div_prime; assumption. Qed.
