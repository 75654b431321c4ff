(** * Specification: DerivativeWrt of vectors and matrices, whatever the exponents *)

From Coq Require Import ZArith NArith Bool List.
From Verif Require Import Num Syntax ModelScalar Spec ModelHeap SpecHeap SpecCopy.
Import ListNotations.

Section SpecSweep.
Context {NN : Num}.

(** no monomial of the list in which [v] has an exponent other than 1 shares exponents with another monomial of the list *)
Definition own_exponents_in (h : heap) (v : var) (ms : list hmono) : Prop :=
  forall i j m m', i <> j -> nth_error ms i = Some m -> nth_error ms j = Some m' ->
    ~ at_most_linear_in v (SM (rd_mono h m')) -> ~ share_exponents m m'.
(** ... or with a monomial of [t] *)
Definition out_of_reach_of (h : heap) (v : var) (ms : list hmono) (t : hscalar) : Prop :=
  forall m m', In m (monomials h t) -> In m' ms -> ~ at_most_linear_in v (SM (rd_mono h m')) -> ~ share_exponents m m'.

(** all monomials of a list of polynomials *)
Definition monomials_in (h : heap) (ps : list slice) : list hmono := flat_map (view (hm h)) ps.

End SpecSweep.
