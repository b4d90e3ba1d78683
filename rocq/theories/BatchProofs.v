(** Lemmas about the batching of messages (C95). *)
From Coq Require Import String Reals Lra ZArith Lia List Bool Permutation.
From Verif Require Import TensorModel DateModel BoundedCalModel ScheduleModel RatesModel InstrumentModel PlatformModel BatchModel BatchSpec.
Import ListNotations.
Open Scope nat_scope.

Section Loop.
  Context {M V : Type} (hash : M -> string) (fresh : M -> V) (update : V -> M -> option V) (Rep : list M -> V -> Prop) (Good : M -> Prop).
  Hypothesis Fresh : forall m, Good m -> Rep [m] (fresh m).
  Hypothesis Update : forall g v m, g <> [] -> (forall p, In p g -> Good p /\ hash p = hash m) -> Good m -> Rep g v -> exists v', update v m = Some v' /\ Rep (g ++ [m]) v'.

  Definition of_hash (h : string) (l : list M) : list M := filter (fun q => String.eqb h (hash q)) l.
  Fixpoint keys_of (seen : list string) (l : list M) : list string :=
    match l with
    | [] => seen
    | m :: r => keys_of (if existsb (String.eqb (hash m)) seen then seen else seen ++ [hash m]) r
    end.

  Lemma of_hash_snoc h l m : of_hash h (l ++ [m]) = if String.eqb h (hash m) then of_hash h l ++ [m] else of_hash h l.
  Proof using. unfold of_hash. rewrite filter_app. cbn [filter]. destruct (String.eqb h (hash m)); [reflexivity|apply app_nil_r]. Qed.
  Lemma of_hash_in h l m : In m (of_hash h l) <-> In m l /\ hash m = h.
  Proof using. unfold of_hash. rewrite filter_In, String.eqb_eq. intuition congruence. Qed.

  Lemma add_new h f u (d : list (string * V)) : ~ In h (map fst d) -> add_to h f u d = Some (d ++ [(h, f)]).
  Proof using.
    induction d as [|[k v] d IH]; cbn; intros Q; [reflexivity|].
    destruct (String.eqb_spec h k) as [E|E]; [exfalso; apply Q; left; congruence|].
    rewrite IH by tauto. reflexivity.
  Qed.
  Lemma others hs l1 (d : list (string * V)) m : (forall h, In h hs -> String.eqb h (hash m) = false) ->
    Forall2 (fun h kv => fst kv = h /\ Rep (of_hash h l1) (snd kv)) hs d -> Forall2 (fun h kv => fst kv = h /\ Rep (of_hash h (l1 ++ [m])) (snd kv)) hs d.
  Proof using.
    intros A F. induction F as [|h kv hs d [E1 E2] F IH]; constructor.
    - split; [exact E1|]. rewrite of_hash_snoc, A by (left; reflexivity). exact E2.
    - apply IH. intros q Q. apply A. right; exact Q.
  Qed.
  Lemma add_old hs l1 d m : NoDup hs -> In (hash m) hs -> (forall p, In p l1 -> Good p) -> Good m -> (forall h, In h hs -> of_hash h l1 <> []) ->
    Forall2 (fun h kv => fst kv = h /\ Rep (of_hash h l1) (snd kv)) hs d ->
    exists d', add_to (hash m) (fresh m) (fun v => update v m) d = Some d' /\
      Forall2 (fun h kv => fst kv = h /\ Rep (of_hash h (l1 ++ [m])) (snd kv)) hs d'.
  Proof using Update.
    intros ND IN G1 G2 NE F. induction F as [|h [k v] hs d [E1 E2] F IH]; [destruct IN|].
    cbn [fst snd] in E1, E2. subst k. inversion ND as [|? ? N1 N2]; subst. cbn [add_to].
    destruct (String.eqb_spec (hash m) h) as [E|E].
    - subst h. destruct (Update (of_hash (hash m) l1) v m) as (v' & U1 & U2).
      + apply NE. left; reflexivity.
      + intros p P. apply of_hash_in in P. split; [apply G1|]; tauto.
      + exact G2.
      + exact E2.
      + exists ((hash m, v') :: d). rewrite U1. split; [reflexivity|]. constructor.
        * split; [reflexivity|]. rewrite of_hash_snoc, String.eqb_refl. exact U2.
        * apply (others hs l1 d m); [|exact F]. intros q Q. apply String.eqb_neq. intros E1. apply N1. congruence.
    - destruct IH as (d' & A1 & A2); [exact N2| |intros q Q; apply NE; right; exact Q|].
      + destruct IN as [X|X]; [congruence|exact X].
      + exists ((h, v) :: d'). rewrite A1. split; [reflexivity|]. constructor; [|exact A2]. split; [reflexivity|].
        cbn [snd]. rewrite of_hash_snoc. destruct (String.eqb_spec h (hash m)); [congruence|exact E2].
  Qed.

  Definition keys_ok (hs : list string) (l1 : list M) : Prop := NoDup hs /\ forall h, In h hs <-> exists m, In m l1 /\ hash m = h.
  Lemma keys_nonempty hs l1 : keys_ok hs l1 -> forall h, In h hs -> of_hash h l1 <> [].
  Proof using.
    intros (_ & K) h IN. apply K in IN. destruct IN as (m & I1 & I2). intros E.
    assert (X : In m (of_hash h l1)) by (apply of_hash_in; tauto). rewrite E in X. destruct X.
  Qed.
  Lemma keys_step hs l1 m : keys_ok hs l1 -> keys_ok (if existsb (String.eqb (hash m)) hs then hs else hs ++ [hash m]) (l1 ++ [m]).
  Proof using.
    intros (ND & K). destruct (existsb (String.eqb (hash m)) hs) eqn:E.
    - apply existsb_exists in E. destruct E as (h & I1 & I2). apply String.eqb_eq in I2. subst h. split; [exact ND|].
      intros h. rewrite K. split.
      + intros (q & Q1 & Q2). exists q. rewrite in_app_iff. tauto.
      + intros (q & Q1 & Q2). rewrite in_app_iff in Q1. destruct Q1 as [Q1|[Q1|[]]]; [exists q; tauto|]. subst q. rewrite Q2 in I1. apply K in I1. exact I1.
    - split.
      + apply NoDup_rev in ND. rewrite <- (rev_involutive (hs ++ [hash m])). apply NoDup_rev. rewrite rev_app_distr. cbn. constructor; [|exact ND].
        rewrite <- in_rev. intros Q. assert (X : existsb (String.eqb (hash m)) hs = true) by (apply existsb_exists; exists (hash m); split; [exact Q|apply String.eqb_refl]). congruence.
      + intros h. rewrite in_app_iff, K. split.
        * intros [(q & Q1 & Q2)|[Q|[]]]; [exists q; rewrite in_app_iff; tauto|]. exists m. rewrite in_app_iff. cbn. tauto.
        * intros (q & Q1 & Q2). rewrite in_app_iff in Q1. destruct Q1 as [Q1|[Q1|[]]]; [left; exists q; tauto|]. subst q. right; left; exact Q2.
  Qed.

  Lemma loop_rep l : forall hs l1 d, keys_ok hs l1 -> (forall p, In p (l1 ++ l) -> Good p) ->
    Forall2 (fun h kv => fst kv = h /\ Rep (of_hash h l1) (snd kv)) hs d ->
    exists d', batch_loop hash fresh update l d = Some d' /\ keys_ok (keys_of hs l) (l1 ++ l) /\
      Forall2 (fun h kv => fst kv = h /\ Rep (of_hash h (l1 ++ l)) (snd kv)) (keys_of hs l) d'.
  Proof using Fresh Update.
    induction l as [|m l IH]; intros hs l1 d K G F; [exists d; rewrite app_nil_r; tauto|].
    cbn [batch_loop keys_of].
    assert (Gm : Good m) by (apply G; rewrite in_app_iff; cbn; tauto).
    pose proof (keys_step hs l1 m K) as K'.
    assert (ST : exists d', add_to (hash m) (fresh m) (fun v => update v m) d = Some d' /\
       Forall2 (fun h kv => fst kv = h /\ Rep (of_hash h (l1 ++ [m])) (snd kv)) (if existsb (String.eqb (hash m)) hs then hs else hs ++ [hash m]) d').
    { destruct (existsb (String.eqb (hash m)) hs) eqn:E.
      - apply (add_old hs l1 d m); [apply K| | |exact Gm|apply keys_nonempty; exact K|exact F].
        + apply existsb_exists in E. destruct E as (h & I1 & I2). apply String.eqb_eq in I2. congruence.
        + intros p P. apply G. rewrite in_app_iff. tauto.
      - assert (NI : ~ In (hash m) hs).
        { intros Q. assert (X : existsb (String.eqb (hash m)) hs = true) by (apply existsb_exists; exists (hash m); split; [exact Q|apply String.eqb_refl]). congruence. }
        exists (d ++ [(hash m, fresh m)]). split.
        + apply add_new. intros Q. apply NI. clear - F Q. induction F as [|h kv hs d [E1 _] F IH]; [exact Q|]. cbn in *. destruct Q as [Q|Q]; [left; congruence|right; apply IH; exact Q].
        + apply Forall2_app.
          * assert (A : forall h, In h hs -> String.eqb h (hash m) = false) by (intros h I1; apply String.eqb_neq; intros E1; apply NI; congruence).
            apply (others hs l1 d m A F).
          * constructor; [|constructor]. split; [reflexivity|]. cbn [snd]. rewrite of_hash_snoc, String.eqb_refl.
            assert (E0 : of_hash (hash m) l1 = []).
            { destruct (of_hash (hash m) l1) as [|q r] eqn:EQ; [reflexivity|]. exfalso. apply NI. apply K. exists q. apply of_hash_in. rewrite EQ. left; reflexivity. }
            rewrite E0. apply Fresh. exact Gm. }
    destruct ST as (d' & S1 & S2). rewrite S1.
    destruct (IH _ (l1 ++ [m]) d' K') as (d'' & R1 & R2 & R3); [rewrite <- app_assoc; exact G|exact S2|].
    rewrite <- app_assoc in R2, R3. exists d''. tauto.
  Qed.

  Theorem loop_spec l : (forall p, In p l -> Good p) -> exists hs d, batch_loop hash fresh update l [] = Some d /\ keys_ok hs l /\
    Forall2 (fun h kv => fst kv = h /\ Rep (of_hash h l) (snd kv)) hs d.
  Proof using Fresh Update.
    intros G. destruct (loop_rep l [] [] []) as (d & D1 & D2 & D3).
    - split; [constructor|]. intros h. split; [intros []|intros (m & [] & _)].
    - exact G.
    - constructor.
    - exists (keys_of [] l), d. tauto.
  Qed.
End Loop.

(** the groups of a portfolio by hash *)
Lemma concat_classes {M} (hash : M -> string) hs l : NoDup hs -> (forall m, In m l -> In (hash m) hs) ->
  Permutation (concat (map (fun h => of_hash hash h l) hs)) l.
Proof.
  intros ND. induction l as [|m l IH]; intros A.
  - replace (concat (map (fun h => of_hash hash h []) hs)) with (@nil M); [constructor|]. clear. induction hs as [|h hs IH]; cbn; [reflexivity|exact IH].
  - apply Permutation_trans with (m :: concat (map (fun h => of_hash hash h l) hs)).
    2: { constructor. apply IH. intros q Q. apply A. right; exact Q. }
    assert (IN : In (hash m) hs) by (apply A; left; reflexivity). clear IH A.
    induction hs as [|h hs IH]; [destruct IN|]. inversion ND as [|? ? N1 N2]; subst. cbn [map concat].
    unfold of_hash at 1 3. cbn [filter]. fold (of_hash hash h l).
    destruct (String.eqb_spec h (hash m)) as [E|E].
    + subst h. cbn [app]. constructor. apply Permutation_app_head.
      replace (map (fun h => of_hash hash h (m :: l)) hs) with (map (fun h => of_hash hash h l) hs); [apply Permutation_refl|].
      apply map_ext_in. intros h Hh. unfold of_hash at 2. cbn [filter]. destruct (String.eqb_spec h (hash m)) as [X|X]; [exfalso; apply N1; congruence|reflexivity].
    + destruct IN as [X|X]; [congruence|]. fold (of_hash hash h l). apply Permutation_trans with (of_hash hash h l ++ m :: concat (map (fun h => of_hash hash h l) hs)).
      * apply Permutation_app_head. apply IH; [exact N2|exact X].
      * apply Permutation_sym. apply Permutation_middle.
Qed.

Lemma classes_partition {M} (hash : M -> string) (together : M -> M -> Prop) hs l : keys_ok hash hs l ->
  (forall p q, In p l -> In q l -> (hash p = hash q <-> together p q)) -> partition together l (map (fun h => of_hash hash h l) hs).
Proof.
  intros K T. split.
  - apply concat_classes; [apply K|]. intros m I1. apply K. exists m. tauto.
  - intros g IG. apply in_map_iff in IG. destruct IG as (h & <- & Ih). split; [apply (keys_nonempty hash hs l K h Ih)|]. split.
    + exists (fun q => String.eqb h (hash q)). reflexivity.
    + intros p q P Q. apply of_hash_in in P. destruct P as (P1 & P2). rewrite of_hash_in. rewrite <- (T p q P1 Q). intuition congruence.
Qed.

(** ** Keys *)
Lemma flip_spec m : flip_legs m = pays_floating_for_fixed m.
Proof. unfold flip_legs, legs_hash_key, pays_floating_for_fixed. destruct (w_pay m), (w_receive m); reflexivity. Qed.

Definition year_month (t : Z) : Z := if Z.eqb t 5 then 3%Z else t.
Lemma ym_plain t : t <> 5%Z -> year_month t = t.
Proof. intros N. unfold year_month. destruct (Z.eqb_spec t 5); congruence. Qed.

Definition leg_key (l : leg_message) : key := fst (get_keys_v2 l) ++ snd (get_keys_v2 l).
Lemma key_legs m : swap_key_v2 m = leg_key (fst (legs_in_order m)) ++ leg_key (snd (legs_in_order m)) ++ [KInt (w_holidays m)].
Proof.
  unfold swap_key_v2, legs_hash_key, legs_in_order, pays_floating_for_fixed. destruct (w_pay m) as [a|a], (w_receive m) as [b|b]; reflexivity.
Qed.
Lemma leg_key_length l : length (leg_key l) = 7.
Proof. destruct l; reflexivity. Qed.
Lemma leg_key_inj a b : leg_key a = leg_key b ->
  match a, b with
  | FixedLegM a, FixedLegM b => year_month (p_type (xm_frequency a)) = year_month (p_type (xm_frequency b)) /\ xm_daycount a = xm_daycount b /\ xm_rule a = xm_rule b
  | FloatLegM a, FloatLegM b => year_month (p_type (fm_frequency a)) = year_month (p_type (fm_frequency b)) /\ year_month (p_type (fm_reset a)) = year_month (p_type (fm_reset b)) /\
      fm_daycount a = fm_daycount b /\ fm_rule a = fm_rule b
  | _, _ => False
  end.
Proof.
  unfold leg_key, year_month. destruct a as [a|a], b as [b|b]; cbn -[Z.eqb]; intros E; inversion E; repeat split; auto.
Qed.
Lemma app_eq {A} (a b c d : list A) : length a = length b -> a ++ c = b ++ d -> a = b /\ c = d.
Proof.
  revert b. induction a as [|x a IH]; intros [|y b] L E; cbn in *; try discriminate; [tauto|]. injection E as E1 E2. injection L as L.
  destruct (IH b L E2) as (-> & ->). subst. tauto.
Qed.
Lemma same_key p q : swap_key_v2 p = swap_key_v2 q -> leg_key (fst (legs_in_order p)) = leg_key (fst (legs_in_order q)) /\
  leg_key (snd (legs_in_order p)) = leg_key (snd (legs_in_order q)) /\ w_holidays p = w_holidays q.
Proof.
  rewrite !key_legs. intros E. apply app_eq in E; [|rewrite !leg_key_length; reflexivity]. destruct E as (E1 & E).
  apply app_eq in E; [|rewrite !leg_key_length; reflexivity]. destruct E as (E2 & E3). injection E3 as E3. tauto.
Qed.

(** ** What a group of swaps is turned into *)
Definition sign (m : swap_message) : R := if pays_floating_for_fixed m then (-1)%R else 1%R.
(** the legs a batch is made of, in terms of the messages *)
Definition rep_leg (sel : swap_message -> leg_message) (g : list swap_message) (l : leg_spec) : Prop :=
  match g with
  | [] => False
  | first :: _ =>
    match sel first, l with
    | FixedLegM a, FixedLegS s => exists ms, Forall2 (fun m x => sel m = FixedLegM x) g ms /\
        xs_currency s = map xm_currency ms /\ xs_frequency s = (year_month (p_type (xm_frequency a)), map (fun x => p_amount (xm_frequency x)) ms) /\
        xs_notional s = map (fun '(m, x) => (sign m * decimal_to_double (xm_notional x))%R) (combine g ms) /\ xs_rate s = map (fun x => decimal_to_double (xm_rate x)) ms /\
        xs_settlement s = map xm_settlement ms /\ xs_rule s = xm_rule a /\ xs_daycount s = xm_daycount a /\ xs_calendar s = xm_holidays a
    | FloatLegM a, FloatLegS s => exists ms, Forall2 (fun m x => sel m = FloatLegM x) g ms /\
        fs_currency s = map fm_currency ms /\ fs_frequency s = (year_month (p_type (fm_frequency a)), map (fun x => p_amount (fm_frequency x)) ms) /\
        fs_reset s = (year_month (p_type (fm_reset a)), map (fun x => p_amount (fm_reset x)) ms) /\
        fs_notional s = map (fun '(m, x) => (sign m * decimal_to_double (fm_notional x))%R) (combine g ms) /\ fs_index s = map fm_index ms /\
        fs_settlement s = map fm_settlement ms /\ fs_rule s = fm_rule a /\ fs_daycount s = fm_daycount a /\ fs_spread s = map (fun x => decimal_to_double (fm_spread x)) ms /\
        fs_calendar s = fm_holidays a
    | _, _ => False
    end
  end.
Definition pay_side (m : swap_message) : leg_message := fst (legs_in_order m).
Definition receive_side (m : swap_message) : leg_message := snd (legs_in_order m).
Definition rep_swap (g : list swap_message) (b : swap_batch) : Prop :=
  b_start b = map w_start g /\ b_maturity b = map w_maturity g /\ b_names b = map w_name g /\ rep_leg pay_side g (b_pay b) /\ rep_leg receive_side g (b_receive b).

Definition one_leg (m : swap_message) (l : leg_message) : leg_spec :=
  if pays_floating_for_fixed m then negate_notional (leg_from_proto_v2 l) else leg_from_proto_v2 l.
Lemma legs_of_spec m : legs_of m = (one_leg m (pay_side m), one_leg m (receive_side m)).
Proof. unfold legs_of, one_leg, pay_side, receive_side, legs_in_order. rewrite flip_spec. destruct (pays_floating_for_fixed m); reflexivity. Qed.

Lemma fm_spec t : frequency_and_multiplier t = (year_month t, 1%Z).
Proof. reflexivity. Qed.
Lemma mult_one z : match z with 0%Z => 0%Z | Z.pos y' => Z.pos y' | Z.neg y' => Z.neg y' end = z.
Proof. destruct z; reflexivity. Qed.

Lemma rep_one sel m : rep_leg sel [m] (one_leg m (sel m)).
Proof.
  unfold rep_leg, one_leg, sign. destruct (sel m) as [a|a] eqn:E; destruct (pays_floating_for_fixed m) eqn:Q; cbn [leg_from_proto_v2]; rewrite !fm_spec; cbn -[year_month Z.mul Rmult decimal_to_double];
    exists [a]; cbn -[year_month Z.mul Rmult decimal_to_double]; rewrite ?Z.mul_1_l, ?Rmult_1_l;
    repeat split; auto.
  all: try (constructor; [exact E|constructor]).
  all: rewrite Q; f_equal; lra.
Qed.

Lemma combine_snoc {A B} (a : list A) (b : list B) x y : length a = length b -> combine (a ++ [x]) (b ++ [y]) = combine a b ++ [(x, y)].
Proof. revert b. induction a as [|u a IH]; intros [|v b] L; cbn in *; try discriminate; [reflexivity|]. rewrite IH by congruence. reflexivity. Qed.

Lemma f2_len {A B} (P : A -> B -> Prop) a b : Forall2 P a b -> length a = length b.
Proof. induction 1; cbn; congruence. Qed.
Lemma rep_more sel g m l : g <> [] -> (forall p, In p g -> leg_key (sel p) = leg_key (sel m)) -> rep_leg sel g l ->
  exists l', update_leg_v2 l (one_leg m (sel m)) = Some l' /\ rep_leg sel (g ++ [m]) l'.
Proof.
  intros NE SK RL. destruct g as [|first g']; [congruence|].
  pose proof (SK first (or_introl eq_refl)) as K0. apply leg_key_inj in K0.
  unfold rep_leg in RL |- *. cbn [app]. change (first :: g' ++ [m]) with ((first :: g') ++ [m]).
  remember (first :: g') as g eqn:EG.
  unfold one_leg. destruct (sel first) as [a|a] eqn:EF, (sel m) as [b|b] eqn:EM; try contradiction; destruct l as [s|s]; try contradiction.
  - destruct RL as (ms & F & A1 & A2 & A3 & A4 & A5 & A6 & A7 & A8).
    pose proof (f2_len _ _ _ F) as FL.
    destruct (pays_floating_for_fixed m) eqn:Q; cbn [leg_from_proto_v2]; rewrite !fm_spec; cbn -[year_month Z.mul Rmult decimal_to_double];
      eexists; (split; [reflexivity|]); exists (ms ++ [b]); cbn -[year_month Z.mul Rmult decimal_to_double];
      rewrite A1, A2, A3, A4, A5, A6, A7, A8, !map_app, combine_snoc, map_app by exact FL; cbn -[year_month Z.mul Rmult decimal_to_double]; rewrite ?Z.mul_1_l;
      (split; [apply Forall2_app; [exact F|constructor; [exact EM|constructor]]|]); repeat split; auto; f_equal; unfold sign; rewrite Q; f_equal; lra.
  - destruct RL as (ms & F & A1 & A2 & A3 & A4 & A5 & A6 & A7 & A8 & A9 & A10).
    pose proof (f2_len _ _ _ F) as FL.
    destruct (pays_floating_for_fixed m) eqn:Q; cbn [leg_from_proto_v2]; rewrite !fm_spec; cbn -[year_month Z.mul Rmult decimal_to_double];
      eexists; (split; [reflexivity|]); exists (ms ++ [b]); cbn -[year_month Z.mul Rmult decimal_to_double];
      rewrite A1, A2, A3, A4, A5, A6, A7, A8, A9, A10, !map_app, combine_snoc, map_app by exact FL; cbn -[year_month Z.mul Rmult decimal_to_double]; rewrite ?Z.mul_1_l;
      (split; [apply Forall2_app; [exact F|constructor; [exact EM|constructor]]|]); repeat split; auto; f_equal; unfold sign; rewrite Q; f_equal; lra.
Qed.
