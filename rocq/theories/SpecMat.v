(** * What the product of two matrices is, entry by entry and term by term *)

From Coq Require Import ZArith NArith Bool List.
From Verif Require Import Num Syntax Spec SpecArr SpecEffect SpecCollect SpecSub.
Import ListNotations.

Section SpecMat.
Context {NN : Num}.

(** entry (i, j): the products of row i of [a] with column j of [b], added from left to right *)
Definition row_times_column (a b : expr) (n i j : nat) : scalar := added (map (fun k => multiplied (entry a i k) (entry b k j)) (seq 0 n)).
(** the same with everything multiplied out and nothing collected *)
Definition row_column_terms (a b : expr) (n i j : nat) : list Monomial := flat_map (fun k => expanded (entry a i k) (entry b k j)) (seq 0 n).

(** the products of matrices that are computed row by row: matrix times matrix, and a PolynomialMatrix or a MonomialMatrix with one row times a VariableVector *)
Definition row_by_row (a b : expr) (da : nat * nat) : Prop :=
  match a, b with
  | EM _, EM _ => True
  | EM (MP _), EV (VV _) => True
  | EM (MM _), EV (VV _) => fst da = 1%nat
  | _, _ => False
  end.

(** a MonomialMatrix of several rows times a VariableVector: every entry of the matrix is taken as a polynomial with one term *)
Definition polynomial_row (a b : expr) (n i : nat) : scalar := added (map (fun k => multiplied (SP (terms (entry a i k))) (entry b k 0)) (seq 0 n)).
Definition is_polynomial (s : scalar) : bool := match s with SP _ => true | _ => false end.

End SpecMat.
