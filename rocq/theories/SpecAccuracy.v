(** * Values of float64 expressions as real numbers *)

From Coq Require Import ZArith NArith Reals List Floats.SpecFloat.
From Verif Require Import Num Syntax ModelScalar Spec SpecRound.
Import ListNotations.
Local Open Scope R_scope.

(** the real number that a float64 value stands for: plus or minus m * 2^e *)
Definition real64 (c : @num F64Num) : R :=
  match c : spec_float with S754_finite s m e => (if s then -1 else 1) * IZR (Zpos m) * powerRZ 2 e | _ => 0 end.

(** half the distance from 1 to the next float64 number, and half the smallest positive one *)
Definition unit64 : R := / 2 ^ 53.
Definition tiny64 : R := / 2 ^ 1075.

(** the product of the powers of a term when variable [i] has the value [r i] *)
Fixpoint powers64 (r : N -> R) (vs : list (@var F64Num)) (es : list Z) : R :=
  match vs, es with
  | v :: vs', e :: es' => r (v_id v) ^ Z.to_nat e * powers64 r vs' es'
  | _, _ => 1
  end.
Definition factors64 (r : N -> R) (t : @Monomial F64Num) : R := powers64 r (m_vars t) (m_exps t).

Fixpoint total (l : list R) : R := match l with [] => 0 | x :: r => x + total r end.

(** the exact value of the expression, the same with every term made positive, and the same with every coefficient replaced by 1 *)
Definition value64 (r : N -> R) (s : @scalar F64Num) : R := total (map (fun t => real64 (m_coeff t) * factors64 r t) (terms s)).
Definition size64 (r : N -> R) (s : @scalar F64Num) : R := total (map (fun t => Rabs (real64 (m_coeff t) * factors64 r t)) (terms s)).
Definition spread64 (r : N -> R) (s : @scalar F64Num) : R := total (map (fun t => Rabs (factors64 r t)) (terms s)).

(** no coefficient is an infinity or NaN *)
Definition finite64s (s : @scalar F64Num) : Prop := Forall (fun t : @Monomial F64Num => finite64 (m_coeff t)) (terms s).

(** the expressions of [l] added to [a] one after the other *)
Fixpoint sum_up {NN : Num} (a : scalar) (l : list scalar) : res scalar :=
  match l with [] => Ok a | x :: r => bind (scalar_plus a x) (fun b => sum_up b r) end.

(** the point [r] with another value for variable [i] *)
Definition at64 (r : N -> R) (i : N) (x : R) : N -> R := fun j => if N.eqb j i then x else r j.

(** the derivative of the product of the powers of a term with respect to variable [i], by the product rule *)
Fixpoint slopes64 (r : N -> R) (i : N) (vs : list (@var F64Num)) (es : list Z) : R :=
  match vs, es with
  | v :: vs', e :: es' =>
      (if N.eqb (v_id v) i then INR (Z.to_nat e) * r (v_id v) ^ pred (Z.to_nat e) else 0) * powers64 r vs' es' + r (v_id v) ^ Z.to_nat e * slopes64 r i vs' es'
  | _, _ => 0
  end.
Definition slope64 (r : N -> R) (i : N) (t : @Monomial F64Num) : R := slopes64 r i (m_vars t) (m_exps t).
