(** * Specification: tests on terms and searches for terms *)

From Coq Require Import ZArith NArith Bool List.
From Verif Require Import Num Syntax Spec.
Import ListNotations.

Section SpecForm.
Context {NN : Num}.

(** the term v *)
Definition just (v : var) : Monomial := mkMono n1 [1%Z] [v].
(** the term at position [i] is the first one with property [P] *)
Definition first_such (P : Monomial -> Prop) (p : list Monomial) (i : nat) : Prop :=
  exists m, nth_error p i = Some m /\ P m /\ forall j m', j < i -> nth_error p j = Some m' -> ~ P m'.
(** the result of a search: the position of the first such term; nothing (-1 in Go) only if there is none *)
Definition found (P : Monomial -> Prop) (p : list Monomial) (o : option nat) : Prop :=
  match o with Some i => first_such P p i | None => forall m, In m p -> ~ P m end.
(** the answer [b] to the question [P] *)
Definition answers (r : res bool) (P : Prop) : Prop := exists b, r = Ok b /\ (b = true <-> P).
(** LinearCoeff looks up the variable of a monomial of degree 1 in the list; a monomial without variables has none to look up *)
Definition has_linear_variable (s : scalar) (w : list var) : Prop :=
  match s with SM m => (tdeg m <= 1)%Z -> exists v l, m_vars m = v :: l /\ In (v_id v) (map v_id w) | _ => True end.

End SpecForm.
