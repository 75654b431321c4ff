(** * What the float64 arithmetic does to the coefficients of a sum *)

From Coq Require Import ZArith NArith Bool List.
From Coq Require Import Floats.SpecFloat.
From Verif Require Import Num Syntax Spec SpecEffect.
Import ListNotations.

Section SpecRound.
Context {NN : Num}.
Local Open Scope num_scope.

(** the coefficients of the terms of the expression that look like [m], other than zeros *)
Definition coefficients (m : Monomial) (s : scalar) : list num :=
  filter (fun c => negb (c =? n0)) (map m_coeff (filter (fun t => alike t m) (terms s))).

(** the coefficients of a sum, when each operand has at most one: both present, one addition; one present, that one as it is *)
Definition added (l l' : list num) : list num :=
  filter (fun c => negb (c =? n0)) (match l, l' with [x], [y] => [x + y] | _, _ => l ++ l' end).

(** the same for a difference: one subtraction, or one change of sign *)
Definition subtracted (l l' : list num) : list num :=
  filter (fun c => negb (c =? n0)) (match l, l' with [x], [y] => [x - y] | _, _ => l ++ map nopp l' end).

(** the same for a product with the number [f]: one multiplication *)
Definition multiplied (l : list num) (f : num) : list num :=
  filter (fun c => negb (c =? n0)) (map (fun c => c * f) l).

(** the coefficients of like terms added from left to right, starting with the first *)
Definition left_to_right_sum (l : list num) : list num :=
  filter (fun c => negb (c =? n0)) (match l with [] => [] | x :: r => [fold_left nadd r x] end).
End SpecRound.

(** the elements of [spec_float] that are float64 values: 53-bit mantissas in canonical form *)
Definition float64 (c : spec_float) : Prop := valid_binary 53 1024 c = true.
Definition float64s (s : @scalar F64Num) : Prop := Forall (fun t : @Monomial F64Num => float64 (m_coeff t)) (terms s).
(** a float64 value that is neither an infinity nor NaN *)
Definition finite64 (c : spec_float) : Prop := float64 c /\ match c with S754_zero _ | S754_finite _ _ _ => True | _ => False end.
