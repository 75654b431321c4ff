(** * Specification: rejected substitution maps *)

From Coq Require Import NArith List.
From Verif Require Import Num Syntax ModelScalar ModelShape Spec SpecArr.
Import ListNotations.

Section SpecMeasure.
Context {NN : Num}.
(** some key is not a valid variable, or some value is not a scalar or fails Check *)
Definition bad_map (sm : list (var * expr)) : Prop := exists k e, In (k, e) sm /\ (~ valid_var k \/ ~ is_scalar e \/ expr_check e = false).
End SpecMeasure.
