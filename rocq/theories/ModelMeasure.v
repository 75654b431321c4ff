(** * Model: NumVariables, VariableIDs and the Dims of vector constraints *)

From Coq Require Import ZArith NArith Bool List.
From Verif Require Import Num Syntax ModelScalar ModelShape ModelConstr.
Import ListNotations.

Section ModelMeasure.
Context {NN : Num}.

(** expression.go:75-77 NumVariables *)
Definition num_variables (e : expr) : res nat := vs <- expr_variables e ;; Ok (length vs).
(** expression.go:80-89 VariableIDs *)
Definition variable_ids (e : expr) : res (list N) := vs <- expr_variables e ;; Ok (map v_id vs).
(** vector_constraint.go:19-28 *)
Definition vc_dims (c : vector_constraint) : res (nat * nat) := _ <- vc_check c ;; vec_dims (vc_left c).

End ModelMeasure.
