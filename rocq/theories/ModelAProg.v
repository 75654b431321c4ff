(** * Programs over vectors and matrices, run with the methods of the library *)

From Coq Require Import ZArith NArith Bool List.
From Verif Require Import Num Syntax ModelScalar ModelShape ModelArith Spec SpecArr SpecAProg.
Import ListNotations.

Section ModelAProg.
Context {NN : Num}.

(** What a caller of the library does with the interface Expression (symbolic/expression.go:12-73: Plus, Minus, Multiply, Power, Transpose,
    AsSimplifiedExpression) and with the functions HStack and VStack (expression.go:156-243) on two arguments.  Each step is the method of
    the dynamic type of its receiver. *)
Fixpoint arun (p : aprog) : res expr :=
  match p with
  | ALeaf e => Ok e
  | APlus a b => x <- arun a ;; y <- arun b ;; expr_plus x (GExpr y)
  | AMinus a b => x <- arun a ;; y <- arun b ;; expr_minus x (GExpr y)
  | ATimes a b => x <- arun a ;; y <- arun b ;; expr_mul x (GExpr y)
  | APower a n => x <- arun a ;; expr_power x (Z.of_nat n)
  | ATransposed a => x <- arun a ;; expr_transpose x
  | ASimplified a => x <- arun a ;; expr_simplified x
  | ABeside a b => x <- arun a ;; y <- arun b ;; hstack [x; y]
  | AAbove a b => x <- arun a ;; y <- arun b ;; vstack [x; y]
  end.

End ModelAProg.
