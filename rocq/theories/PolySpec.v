(** Polynomials as coefficient lists, for statements about quadrature. *)
From Coq Require Import Reals List.
Import ListNotations.
Open Scope R_scope.

(** c0 + c1 x + c2 x^2 + ...; a list of length n is a polynomial of degree < n. *)
Fixpoint peval (c : list R) (x : R) : R := match c with [] => 0 | a :: r => a + x * peval r x end.
