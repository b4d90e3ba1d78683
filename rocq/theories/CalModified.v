(** Facts about the MODIFIED conventions, independent of the implementations. *)
From Coq Require Import ZArith List Bool Lia ZifyBool.
From Verif Require Import DateModel DateSpec DateRepr DateProofs DateProofs2 PropsDateAux CalSpec BoundedCalModel CalProofs.
Import ListNotations.
Open Scope Z_scope.

Lemma same_month_mi o1 o2 : same_month o1 o2 <-> mi o1 = mi o2.
Proof. apply mi_year_month. Qed.

Lemma mi_between o r f : 1 <= o -> o <= r -> r <= f -> mi f = mi o -> mi r = mi o.
Proof. intros. pose proof (mi_mono o r ltac:(lia) ltac:(lia)). pose proof (mi_mono r f ltac:(lia) ltac:(lia)). lia. Qed.

Section Mod.
Variable b : Z -> bool.

Lemma modified_following_month o r : 1 <= o -> month_has_business_day b o -> modified_following b o r -> same_month r o.
Proof.
  intros H (k & K1 & Km & Kb) [[F S]|[(P1 & P2 & P3) N]]; [assumption|].
  rewrite same_month_mi in *. 
  destruct (Z_lt_le_dec k o) as [L|L].
  - assert (k <= r). { destruct (Z_le_gt_dec k r); [assumption|]. rewrite (P3 k) in Kb by lia. discriminate. }
    pose proof (mi_mono k r ltac:(lia) ltac:(lia)). pose proof (mi_mono r o ltac:(lia) ltac:(lia)). lia.
  - exfalso. destruct (following_exists b o k L Kb) as (f & F & Fk). apply (N f F). apply same_month_mi.
    destruct F as (F1 & _). apply (mi_between o f k); assumption.
Qed.

Lemma modified_preceding_month o r : 1 <= o -> month_has_business_day b o -> modified_preceding b o r -> same_month r o.
Proof.
  intros H (k & K1 & Km & Kb) [[F S]|[(P1 & P2 & P3) N]]; [assumption|].
  rewrite same_month_mi in *. 
  destruct (Z_lt_le_dec o k) as [L|L].
  - assert (r <= k). { destruct (Z_le_gt_dec r k); [assumption|]. rewrite (P3 k) in Kb by lia. discriminate. }
    pose proof (mi_mono o r ltac:(lia) ltac:(lia)). pose proof (mi_mono r k ltac:(lia) ltac:(lia)). lia.
  - exfalso. destruct (preceding_exists b o k L Kb) as (f & F & Fk). apply (N f ltac:(lia) F). apply same_month_mi.
    destruct F as (F1 & _). pose proof (mi_mono k f ltac:(lia) ltac:(lia)). pose proof (mi_mono f o ltac:(lia) ltac:(lia)). lia.
Qed.

Lemma month_order o1 o2 r1 r2 : 1 <= r1 -> 1 <= r2 -> mi o1 < mi o2 -> mi r1 = mi o1 -> mi r2 = mi o2 -> r1 <= r2.
Proof. intros. destruct (Z_le_gt_dec r1 r2); [assumption|]. pose proof (mi_mono r2 r1 ltac:(lia) ltac:(lia)). lia. Qed.

Lemma modified_following_mono o1 o2 r1 r2 : 1 <= o1 -> o1 <= o2 -> 1 <= r1 -> 1 <= r2 ->
  month_has_business_day b o1 -> month_has_business_day b o2 ->
  modified_following b o1 r1 -> modified_following b o2 r2 -> r1 <= r2.
Proof.
  intros H H12 R1 R2 M1 M2 A B.
  pose proof (modified_following_month o1 r1 ltac:(lia) M1 A) as S1.
  pose proof (modified_following_month o2 r2 ltac:(lia) M2 B) as S2.
  rewrite same_month_mi in S1, S2.
  pose proof (mi_mono o1 o2 ltac:(lia) ltac:(lia)) as MM.
  destruct (Z.eq_dec (mi o1) (mi o2)) as [E|E]; [|apply (month_order o1 o2); lia].
  destruct A as [[(A1 & A2 & A3) _]|[(A1 & A2 & A3) _]], B as [[(B1 & B2 & B3) _]|[(B1 & B2 & B3) BN]]; try lia.
  - destruct (Z_le_gt_dec r1 r2); [assumption|]. rewrite (A3 r2) in B2 by lia. discriminate.
  - destruct (Z_le_gt_dec r1 o2) as [L|L].
    + destruct (Z_le_gt_dec r1 r2); [assumption|]. rewrite (B3 r1) in A2 by lia. discriminate.
    + exfalso. apply (BN r1); [|apply same_month_mi; lia]. split; [lia|]. split; [assumption|]. intros; apply A3; lia.
  - destruct (Z_le_gt_dec r1 r2); [assumption|]. rewrite (B3 r1) in A2 by lia. discriminate.
Qed.

Lemma modified_preceding_mono o1 o2 r1 r2 : 1 <= o1 -> o1 <= o2 -> 1 <= r1 -> 1 <= r2 ->
  month_has_business_day b o1 -> month_has_business_day b o2 ->
  modified_preceding b o1 r1 -> modified_preceding b o2 r2 -> r1 <= r2.
Proof.
  intros H H12 R1 R2 M1 M2 A B.
  pose proof (modified_preceding_month o1 r1 ltac:(lia) M1 A) as S1.
  pose proof (modified_preceding_month o2 r2 ltac:(lia) M2 B) as S2.
  rewrite same_month_mi in S1, S2.
  pose proof (mi_mono o1 o2 ltac:(lia) ltac:(lia)) as MM.
  destruct (Z.eq_dec (mi o1) (mi o2)) as [E|E]; [|apply (month_order o1 o2); lia].
  destruct A as [[(A1 & A2 & A3) _]|[(A1 & A2 & A3) AN]], B as [[(B1 & B2 & B3) _]|[(B1 & B2 & B3) _]]; try lia.
  - destruct (Z_le_gt_dec r1 r2); [assumption|]. rewrite (B3 r1) in A2 by lia. discriminate.
  - destruct (Z_le_gt_dec r1 r2); [assumption|]. exfalso. destruct (Z_le_gt_dec o1 r2) as [L|L].
    + rewrite (A3 r2) in B2 by lia. discriminate.
    + apply (AN r2 R2); [|apply same_month_mi; lia]. split; [lia|]. split; [assumption|]. intros; apply B3; lia.
  - destruct (Z_le_gt_dec r1 r2); [assumption|]. rewrite (A3 r2) in B2 by lia. discriminate.
Qed.
End Mod.
