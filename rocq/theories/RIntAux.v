(** Coquelicot integrals of real functions, with plain real operations. *)
From Coq Require Import Reals Lra.
From Coquelicot Require Import Coquelicot.
Open Scope R_scope.

Lemma isi_const a b c l : l = (b - a) * c -> is_RInt (fun _ => c) a b l.
Proof. intros ->. apply (is_RInt_const (V := R_NormedModule) a b c). Qed.
Lemma isi_chasles (f : R -> R) a b c l1 l2 l : is_RInt f a b l1 -> is_RInt f b c l2 -> l = l1 + l2 -> is_RInt f a c l.
Proof. intros A B ->. apply (is_RInt_Chasles (V := R_NormedModule) f a b c l1 l2 A B). Qed.
Lemma isi_plus (f g : R -> R) a b l1 l2 l : is_RInt f a b l1 -> is_RInt g a b l2 -> l = l1 + l2 -> is_RInt (fun x => f x + g x) a b l.
Proof. intros A B ->. apply (is_RInt_plus (V := R_NormedModule) f g a b l1 l2 A B). Qed.
Lemma isi_minus (f g : R -> R) a b l1 l2 l : is_RInt f a b l1 -> is_RInt g a b l2 -> l = l1 - l2 -> is_RInt (fun x => f x - g x) a b l.
Proof. intros A B ->. apply (is_RInt_minus (V := R_NormedModule) f g a b l1 l2 A B). Qed.
Lemma isi_scal (f : R -> R) a b c l1 l : is_RInt f a b l1 -> l = c * l1 -> is_RInt (fun x => c * f x) a b l.
Proof. intros A ->. apply (is_RInt_scal (V := R_NormedModule) f a b c l1 A). Qed.
Lemma isi_swap (f : R -> R) a b l1 l : is_RInt f b a l1 -> l = - l1 -> is_RInt f a b l.
Proof. intros A ->. apply (is_RInt_swap (V := R_NormedModule) f a b l1 A). Qed.
Lemma isi_ext (f g : R -> R) a b l : (forall x, Rmin a b < x < Rmax a b -> f x = g x) -> is_RInt f a b l -> is_RInt g a b l.
Proof. intros E. apply (is_RInt_ext (V := R_NormedModule)). assumption. Qed.
Lemma isi_eq (f : R -> R) (a b l1 l : R) : is_RInt f a b l1 -> l1 = l -> is_RInt f a b l.
Proof. intros A <-. exact A. Qed.
