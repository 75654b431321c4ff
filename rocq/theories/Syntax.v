(** * Data types of the package and the panic monad *)

From Coq Require Import ZArith NArith Bool List.
From Coq Require String.
From Verif Require Import Num.
Import ListNotations.

(** ** Panics.  A Go call either returns or panics.  Message texts are not modelled, only the kind of the
    value passed to [panic]. *)
Inductive panic :=
| PCheck               (* an error returned by some Check() method *)
| PDim                 (* smErrors/matrix_dimension_error.go, vector_dimension_error.go *)
| PUnsupported         (* smErrors/unsupported_input.go, and the "unexpected type" fmt.Errorf defaults *)
| PNegExp              (* smErrors/negative_exponent_error.go *)
| PIndex               (* smErrors/out_of_bounds_error.go *)
| PNoLinearCoeff       (* smErrors: EmptyLinearCoeffsError, CanNotGetLinearCoeffOfConstantError *)
| PLinearRequired      (* smErrors: LinearExpressionRequiredError *)
| PEqRequired          (* smErrors: EqualityConstraintRequiredError *)
| PIneqRequired        (* smErrors: InequalityConstraintRequiredError *)
| PRuntime             (* Go run-time panic: index out of range, failed type assertion *)
| PGonum               (* panic raised inside gonum/mat *)
| POther.              (* any other panic(fmt.Errorf(...)) *)

Inductive res (A : Type) :=
| Ok (a : A)
| Panic (p : panic).
Arguments Ok {A} a.
Arguments Panic {A} p.

Definition bind {A B} (x : res A) (f : A -> res B) : res B :=
  match x with Ok a => f a | Panic p => Panic p end.
Notation "x <- e ;; f" := (bind e (fun x => f)) (at level 100, e at next level, right associativity).

(** [if !b { panic(p) }] *)
Definition check (b : bool) (p : panic) : res unit := if b then Ok tt else Panic p.

(** A loop over a slice that may panic in the body *)
Fixpoint mapM {A B} (f : A -> res B) (l : list A) : res (list B) :=
  match l with
  | [] => Ok []
  | a :: l' => b <- f a ;; bs <- mapM f l' ;; Ok (b :: bs)
  end.
Fixpoint foldM {A B} (f : A -> B -> res A) (acc : A) (l : list B) : res A :=
  match l with
  | [] => Ok acc
  | b :: l' => acc' <- f acc b ;; foldM f acc' l'
  end.

(** [s[i]] with Go's bounds check *)
Definition index {A} (l : list A) (i : nat) : res A :=
  match nth_error l i with Some a => Ok a | None => Panic PRuntime end.

(** [s[i] = x]; the callers have established that [i] is in range *)
Fixpoint set_nth {A} (i : nat) (x : A) (l : list A) : list A :=
  match l, i with
  | [], _ => []
  | _ :: l', O => x :: l'
  | a :: l', S i' => a :: set_nth i' x l'
  end.

Section Types.
Context {NN : Num}.

(** variable.go:12-20.  [Environment] is an interface holding a pointer; only pointer equality is ever used on it, so a pointer
    is an abstract number ([None] is nil).  [Type] is the byte. *)
Record var := mkVar {
  v_id    : N;
  v_lower : num;
  v_upper : num;
  v_type  : N;
  v_name  : String.string;
  v_env   : option N
}.

(** monomial.go:17-21 *)
Record Monomial := mkMono {
  m_coeff : num;
  m_exps  : list Z;
  m_vars  : list var
}.

(** polynomial.go:18-20, the slice [Monomials] *)
Definition Polynomial := list Monomial.

(** The four implementations of ScalarExpression (scalar_expression.go:96-113): K, Variable, Monomial, Polynomial *)
Inductive scalar :=
| SK (k : num)
| SV (v : var)
| SM (m : Monomial)
| SP (p : Polynomial).

(** The four implementations of VectorExpression (vector_expression.go:102-121):
    KVector, VariableVector, MonomialVector, PolynomialVector *)
Inductive vector :=
| VK (l : list num)
| VV (l : list var)
| VM (l : list Monomial)
| VP (l : list Polynomial).

(** The four implementations of MatrixExpression (matrix_expression.go): KMatrix, VariableMatrix, MonomialMatrix,
    PolynomialMatrix, as slices of rows *)
Inductive matrix :=
| MK (l : list (list num))
| MV (l : list (list var))
| MM (l : list (list Monomial))
| MP (l : list (list Polynomial)).

(** The Expression interface (expression.go:12-73): exactly these twelve types implement it *)
Inductive expr :=
| ES (s : scalar)
| EV (v : vector)
| EM (m : matrix).

(** A value of type interface{} as received by Plus, Minus, Multiply, Comparison: the Go types mentioned in the type switches,
    and anything else.  A mat.VecDense is its list of entries, a mat.Dense its list of rows; [P] marks the pointer types. *)
Inductive goval :=
| GFloat (f : num)
| GInt (z : Z)
| GVec (l : list num)
| GVecP (l : list num)
| GDense (l : list (list num))
| GDenseP (l : list (list num))
| GExpr (e : expr)
| GOther.

(** The arguments of get/KVector/from.go and get/KMatrix/from.go, which also accept slices *)
Inductive from_input :=
| FVal (g : goval)                  (* KVector, KMatrix, mat.VecDense, mat.Dense and pointers to them; anything else *)
| FFloats (l : list num)            (* []float64 *)
| FInts (l : list Z)                (* []int *)
| FRows (l : list (list num)).      (* [][]float64 *)

(** constr_sense.go:9-15: the three senses and, since ConstrSense is a byte, any other byte *)
Inductive sense := SenseLe | SenseGe | SenseEq | SenseOther.

(** The fields are also returned by Left, Right and ConstrSense: scalar_constraint.go:20-22, 25-27, 60-62;
    vector_constraint.go:84-86, 89-91, 94-96; matrix_constraint.go:18-20, 23-25, 28-30 *)
Record scalar_constraint := mkSC { sc_left : scalar; sc_right : scalar; sc_sense : sense }.
Record vector_constraint := mkVC { vc_left : vector; vc_right : vector; vc_sense : sense }.
Record matrix_constraint := mkMC { mc_left : matrix; mc_right : matrix; mc_sense : sense }.

(** constraint.go:34-50 *)
Inductive constraint :=
| CS (c : scalar_constraint)
| CV (c : vector_constraint)
| CM (c : matrix_constraint).

End Types.
