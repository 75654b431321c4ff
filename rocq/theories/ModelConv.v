(** * Model of the conversions between types and of the tests for types and constants

    Files: constant_vector.go, variable_vector.go, monomial_vector.go, polynomial_vector.go, constant_matrix.go, variable_matrix.go,
    scalar_expression.go, vector_expression.go, matrix_expression.go, polynomial_like.go, polynomial_like_scalar.go,
    polynomial_like_vector.go, polynomial_like_matrix.go. *)

From Coq Require Import ZArith NArith Bool List.
From Verif Require Import Num Syntax ModelScalar ModelShape ModelEnv.
Import ListNotations.
Local Open Scope num_scope.

Section ModelConv.
Context {NN : Num}.

(** ** Between numeric types.  mat.VecDense and mat.Dense are lists of numbers; slices have values here, sharing is in the heap model. *)

(** constant_vector.go:439-445 ToVecDense; mat.NewVecDense panics on length 0 *)
Definition k_to_vec_dense (l : list num) : res (list num) := _ <- check (nonempty l) PGonum ;; Ok (map (fun k => k) l).
(** constant_vector.go:448-454 VecDenseToKVector *)
Definition vec_dense_to_k (l : list num) : res (list num) := mapM (fun i => index l i) (seq 0 (length l)).
(** constant_matrix.go:511-527 DenseToKMatrix.  A mat.Dense with [nR] rows and [nC] columns; the zero value has neither. *)
Definition dense_to_k (d : nat * nat) (l : list (list num)) : res (list (list num)) :=
  mapM (fun i => mapM (fun j => row <- index l i ;; index row j) (seq 0 (snd d))) (seq 0 (fst d)).

(** ** To vectors of monomials and polynomials *)

(** constant_vector.go:457-472, variable_vector.go:417-433 *)
Definition k_vec_to_monos (l : list num) : res (list Monomial) := _ <- check (vec_check (VK l)) PCheck ;; Ok (map k_to_mono l).
Definition var_vec_to_monos (l : list var) : res (list Monomial) := _ <- check (vec_check (VV l)) PCheck ;; Ok (map var_to_mono l).
(** monomial_vector.go:458-473, variable_vector.go:436-452, constant_vector.go:475-477 *)
Definition mono_vec_to_polys (l : list Monomial) : res (list Polynomial) := _ <- check (vec_check (VM l)) PCheck ;; Ok (map mono_to_poly l).
Definition var_vec_to_polys (l : list var) : res (list Polynomial) := _ <- check (vec_check (VV l)) PCheck ;; Ok (map var_to_poly l).
Definition k_vec_to_polys (l : list num) : res (list Polynomial) := m <- k_vec_to_monos l ;; mono_vec_to_polys m.

(** variable_vector.go:295-307 Copy; Len is the length of the slice (27-31) *)
Definition var_vec_copy (l : list var) : res (list var) := n <- vec_len (VV l) ;; mapM (fun i => index l i) (seq 0 n).

(** ** To matrices of monomials and polynomials *)

(** the loops of constant_matrix.go:535-541 and 552-558 *)
Definition k_mat_convert {A} (f : num -> A) (l : list (list num)) : res (list (list A)) :=
  d <- mat_dims (MK l) ;;
  mapM (fun i => mapM (fun j => row <- index l i ;; k <- index row j ;; Ok (f k)) (seq 0 (snd d))) (seq 0 (fst d)).
(** constant_matrix.go:530-545, 548-563 *)
Definition k_mat_to_monos (l : list (list num)) : res (list (list Monomial)) := k_mat_convert k_to_mono l.
Definition k_mat_to_polys (l : list (list num)) : res (list (list Polynomial)) := k_mat_convert k_to_poly l.
(** variable_matrix.go:521-538, 541-558 *)
Definition var_mat_to_monos (l : list (list var)) : res (list (list Monomial)) :=
  _ <- check (mat_check (MV l)) PCheck ;; Ok (map (map var_to_mono) l).
Definition var_mat_to_polys (l : list (list var)) : res (list (list Polynomial)) :=
  _ <- check (mat_check (MV l)) PCheck ;; Ok (map (map var_to_poly) l).

(** matrix_expression.go:139-142 IsSquare *)
Definition is_square (m : matrix) : res bool := d <- mat_dims m ;; Ok (Nat.eqb (fst d) (snd d)).

(** ** Types of a Go value.  The second component of a result tells whether the error is nil. *)

(** scalar_expression.go:98-115 *)
Definition is_scalar_expression (g : goval) : bool :=
  match g with GFloat _ | GExpr (ES _) => true | _ => false end.
(** scalar_expression.go:119-144 *)
Definition to_scalar_expression (g : goval) : scalar * bool :=
  if is_scalar_expression g then
    match g with
    | GFloat f => (SK f, true)
    | GExpr (ES s) => (s, true)
    | _ => (SK n1, false)
    end
  else (SK n1, false).

(** vector_expression.go:102-121 *)
Definition is_vector_expression (g : goval) : bool :=
  match g with GVec _ | GVecP _ | GExpr (EV _) => true | _ => false end.
(** vector_expression.go:124-153; OnesVector(1) *)
Definition to_vector_expression (g : goval) : vector * bool :=
  if is_vector_expression g then
    match g with
    | GVec l | GVecP l => (VK l, true)
    | GExpr (EV v) => (v, true)
    | _ => (VK [n1], false)
    end
  else (VK [n1], false).

(** matrix_expression.go:84-103 *)
Definition is_matrix_expression (g : goval) : bool :=
  match g with GDense _ | GDenseP _ | GExpr (EM _) => true | _ => false end.
(** matrix_expression.go:106-136; ZerosMatrix(1, 1) *)
Definition to_matrix_expression (g : goval) : matrix * bool :=
  if is_matrix_expression g then
    match g with
    | GDense l | GDenseP l => (MK l, true)
    | GExpr (EM m) => (m, true)
    | _ => (MK [[n0]], false)
    end
  else (MK [[n0]], false).

(** polynomial_like_scalar.go:88-106, polynomial_like_vector.go:101-118, polynomial_like_matrix.go:84-101: pointers are refused *)
Definition is_polynomial_like_scalar (g : goval) : bool := match g with GFloat _ | GExpr (ES _) => true | _ => false end.
Definition is_polynomial_like_vector (g : goval) : bool := match g with GVec _ | GExpr (EV _) => true | _ => false end.
Definition is_polynomial_like_matrix (g : goval) : bool := match g with GDense _ | GExpr (EM _) => true | _ => false end.
(** polynomial_like.go:77-79 *)
Definition is_polynomial_like (g : goval) : bool :=
  is_polynomial_like_scalar g || is_polynomial_like_vector g || is_polynomial_like_matrix g.

(** polynomial_like_scalar.go:109-136 *)
Definition to_polynomial_like_scalar (g : goval) : scalar * bool :=
  if is_polynomial_like_scalar g then
    match g with
    | GFloat f => (SK f, true)
    | GExpr (ES s) => (s, true)
    | _ => (SK n1, false)
    end
  else (SK n1, false).
(** polynomial_like_vector.go:121-148 *)
Definition to_polynomial_like_vector (g : goval) : vector * bool :=
  if is_polynomial_like_vector g then
    match g with
    | GVec l => (VK l, true)
    | GExpr (EV v) => (v, true)
    | _ => (VK [n1], false)
    end
  else (VK [n1], false).
(** polynomial_like_matrix.go:104-131 *)
Definition to_polynomial_like_matrix (g : goval) : matrix * bool :=
  if is_polynomial_like_matrix g then
    match g with
    | GDense l => (MK l, true)
    | GExpr (EM m) => (m, true)
    | _ => (MK [[n0]], false)
    end
  else (MK [[n0]], false).
(** polynomial_like.go:83-99 *)
Definition to_polynomial_like (g : goval) : res (expr * bool) :=
  if is_polynomial_like_scalar g then let (s, ok) := to_polynomial_like_scalar g in Ok (ES s, ok)
  else if is_polynomial_like_vector g then let (v, ok) := to_polynomial_like_vector g in Ok (EV v, ok)
  else if is_polynomial_like_matrix g then let (m, ok) := to_polynomial_like_matrix g in Ok (EM m, ok)
  else Panic PUnsupported.

(** ** Constants *)

(** the loops that stop at the first entry that is not constant *)
Fixpoint all_constant {A} (f : A -> res bool) (l : list A) : res bool :=
  match l with
  | [] => Ok true
  | a :: l' => c <- f a ;; if c then all_constant f l' else Ok false
  end.
(** monomial_vector.go:439-455 IsConstant *)
Definition mono_vec_is_constant (l : list Monomial) : res bool :=
  _ <- check (vec_check (VM l)) PCheck ;; all_constant mono_is_constant l.
(** polynomial_vector.go:396-406 IsConstantVector: no Check; [&&] skips the test of the remaining entries *)
Definition poly_vec_is_constant (l : list Polynomial) : res bool := all_constant poly_is_constant l.

End ModelConv.
