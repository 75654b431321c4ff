(** * Specification: further vocabulary

    Nothing in this file refers to the model's functions, only to its data types. *)

From Coq Require Import ZArith NArith Bool List.
From Verif Require Import Num Syntax Spec.
Import ListNotations.
Local Open Scope num_scope.

Section SpecMore.
Context {NN : Num}.

(** the terms of total degree 2 and more *)
Definition higher_terms (s : scalar) : list Monomial := filter (fun m => Z.ltb 1 (tdeg m)) (terms s).

(** [v] occurs in a term of degree 1 *)
Definition occurs_linearly (i : N) (s : scalar) : Prop := exists m, In m (terms s) /\ tdeg m = 1%Z /\ In i (ids m).

End SpecMore.
