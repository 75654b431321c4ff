(** * Model of the Comparison methods, of vector_constraint.go, matrix_constraint.go and of constraint.go *)

From Coq Require Import ZArith NArith Bool List.
From Verif Require Import Num Syntax ModelScalar ModelSC ModelShape ModelArith.
Import ListNotations.
Local Open Scope num_scope.

Section ModelConstr.
Context {NN : Num}.

(** ** Comparison *)

(** scalar_expression.go IsScalarExpression on a value of static type Expression: decided by the type, not by the dimensions *)
Definition scalar_type (e : expr) : bool := match e with ES _ => true | _ => false end.

(** utils.go:130-145 CheckDimensionsInComparison.  The error message needs sense.String(), which panics on a byte that is not a sense
    (constr_sense.go:18-29). *)
Definition comparison_dims (a b : expr) (s : sense) : res unit :=
  da <- expr_dims a ;;
  db <- expr_dims b ;;
  if dims_eqb da db || scalar_type a || scalar_type b then Ok tt
  else Panic (match s with SenseOther => POther | _ => PDim end).

(** [if IsExpression(rightIn) { check rightIn; check the dimensions }], as in constant_vector.go:221-234 *)
Definition comparison_check (a : expr) (g : goval) (s : sense) : res unit :=
  match as_expr g with
  | None => Ok tt
  | Some b => _ <- check (expr_check b) PCheck ;; comparison_dims a b s
  end.

(** the final panic of the type switches.  monomial.go:309, polynomial.go:428, monomial_vector.go:324, constant_matrix.go:412,
    variable_matrix.go:386 and monomial_matrix.go:422 build the function name with sense.String(); the others do not. *)
Definition unsupported (named : bool) (s : sense) : panic :=
  match named, s with true, SenseOther => POther | _, _ => PUnsupported end.

(** constant.go:177-242 *)
Definition k_comparison (c : num) (g : goval) (s : sense) : res constraint :=
  _ <- (match as_expr g with None => Ok tt | Some b => check (expr_check b) PCheck end) ;;
  match g with
  | GFloat f => Ok (CS (mkSC (SK c) (SK f) s))
  | GExpr (ES b) => Ok (CS (mkSC (SK c) b s))
  | GVec l | GVecP l | GExpr (EV (VK l)) => Ok (CV (mkVC (VK (repeat c (length l))) (VK l) s))
  | GExpr (EV (VV l)) => Ok (CV (mkVC (VK (repeat c (length l))) (VV l) s))
  | _ => Panic PUnsupported
  end.

(** variable.go:196-242, monomial.go:271-316, polynomial.go:391-435 *)
Definition scalar_comparison (a : scalar) (g : goval) (s : sense) : res constraint :=
  match a with
  | SK c => k_comparison c g s
  | _ =>
      _ <- check (scalar_check a) PCheck ;;
      _ <- (match as_expr g with None => Ok tt | Some b => check (expr_check b) PCheck end) ;;
      match g with
      | GFloat f => Ok (CS (mkSC a (SK f) s))
      | GInt z => Ok (CS (mkSC a (SK (nofZ z)) s))
      | GExpr (ES b) => Ok (CS (mkSC a b s))
      | _ => Panic (unsupported (match a with SV _ => false | _ => true end) s)
      end
  end.

(** OnesVector(n) scaled by [f]: constant_vector.go:238-240, monomial_vector.go:294-295, polynomial_vector.go:316-317 *)
Definition constant_vector (n : nat) (f : num) : res (list num) :=
  o <- ones_vector n ;; Ok (map (fun x => f * x) o).

(** The vector that the argument is converted to, for the types the receiver's type switch knows: constant_vector.go:236-271,
    variable_vector.go:268-291, monomial_vector.go:289-331, polynomial_vector.go:309-359.  The recursive calls repeat checks that have succeeded or
    that succeed on a vector of the receiver's length. *)
Definition vec_comparison_right (v : vector) (g : goval) (s : sense) : res vector :=
  n <- vec_len v ;;
  match v, g with
  | VK _, GFloat f => l <- constant_vector n f ;; Ok (VK l)
  | VK _, GInt z => l <- constant_vector n (nofZ z) ;; Ok (VK l)
  | VK _, GExpr (ES (SK k)) => l <- constant_vector n k ;; Ok (VK l)
  | VK _, (GVec l | GVecP l) => Ok (VK l)
  | VK _, GExpr (EV w) => Ok w
  | VV _, (GVec l | GVecP l) => Ok (VK l)
  | VV _, GExpr (EV w) => Ok w
  | VM _, (GFloat k | GExpr (ES (SK k))) => l <- constant_vector n k ;; Ok (VK l)
  | VM _, GExpr (EV (VP _)) => Panic (unsupported true s)
  | VM _, GExpr (EV w) => Ok w
  | VM _, _ => Panic (unsupported true s)
  | VP _, (GFloat k | GExpr (ES (SK k))) => l <- constant_vector n k ;; Ok (VK l)
  | VP _, (GVec l | GVecP l) => Ok (VK l)
  | VP _, GExpr (EV w) => Ok w
  | _, _ => Panic PUnsupported
  end.

(** constant_vector.go:212-272, variable_vector.go:246-292, monomial_vector.go:267-332, polynomial_vector.go:289-360 *)
Definition vec_comparison (v : vector) (g : goval) (s : sense) : res constraint :=
  _ <- check (vec_check v) PCheck ;;
  _ <- comparison_check (EV v) g s ;;
  w <- vec_comparison_right v g s ;;
  Ok (CV (mkVC v w s)).

(** OnesMatrix scaled by [f]: constant_matrix.go:389-391, variable_matrix.go:369-371, monomial_matrix.go:386-388, polynomial_matrix.go:374-376 *)
Definition constant_matrix (d : nat * nat) (f : num) : res (list (list num)) :=
  o <- ones_matrix (fst d) (snd d) ;; Ok (map (map (fun x => f * x)) o).

(** constant_matrix.go:385-417, variable_matrix.go:362-393, monomial_matrix.go:380-429, polynomial_matrix.go:367-397 *)
Definition mat_comparison_right (m : matrix) (g : goval) (s : sense) : res matrix :=
  match m, g with
  | MK _, GExpr (ES (SK k)) => d <- mat_dims m ;; l <- constant_matrix d k ;; Ok (MK l)
  | MK _, (GDense l | GDenseP l) => Ok (MK l)
  | MK _, GExpr (EM w) => Ok w
  | MK _, _ => Panic (unsupported true s)
  | MV _, (GFloat k | GExpr (ES (SK k))) => d <- mat_dims m ;; l <- constant_matrix d k ;; Ok (MK l)
  | MV _, GDense l => Ok (MK l)
  | MV _, GExpr (EM w) => Ok w
  | MV _, _ => Panic (unsupported true s)
  | MM _, (GFloat k | GExpr (ES (SK k))) => d <- mat_dims m ;; l <- constant_matrix d k ;; Ok (MK l)
  | MM _, (GDense l | GDenseP l) => Ok (MK l)
  | MM _, GExpr (EM w) => Ok w
  | MM _, _ => Panic (unsupported true s)
  | MP _, (GFloat k | GExpr (ES (SK k))) => d <- mat_dims m ;; l <- constant_matrix d k ;; Ok (MK l)
  | MP _, (GDense l | GDenseP l) => Ok (MK l)
  | MP _, GExpr (EM (MK l)) => Ok (MK l)
  | MP _, _ => Panic PUnsupported
  end.

(** constant_matrix.go:362-419 (the check of the receiver is commented out; KMatrix.Check never fails), variable_matrix.go:339-393,
    monomial_matrix.go:361-429, polynomial_matrix.go:343-397 *)
Definition mat_comparison (m : matrix) (g : goval) (s : sense) : res constraint :=
  _ <- check (mat_check m) PCheck ;;
  _ <- comparison_check (EM m) g s ;;
  w <- mat_comparison_right m g s ;;
  Ok (CM (mkMC m w s)).

(** The method Comparison.  LessEq, GreaterEq and Eq call it with their sense: constant.go:159-174, variable.go:177-192,
    monomial.go:252-266, polynomial.go:438-450, constant_vector.go:195-209, variable_vector.go:226-242, monomial_vector.go:252-264,
    polynomial_vector.go:362-380, constant_matrix.go:341-357, variable_matrix.go:395-411, monomial_matrix.go:431-447,
    polynomial_matrix.go:399-417. *)
Definition expr_comparison (e : expr) (g : goval) (s : sense) : res constraint :=
  match e with ES a => scalar_comparison a g s | EV v => vec_comparison v g s | EM m => mat_comparison m g s end.

(** ** Vector constraints *)

(** vector_constraint.go:52-79 with smErrors/matrix_dimension_error.go:200-225.  After the checks of both sides Len cannot panic. *)
Definition vc_check (c : vector_constraint) : res unit :=
  _ <- check (vec_check (vc_left c)) PCheck ;;
  _ <- check (vec_check (vc_right c)) PCheck ;;
  _ <- check (sense_check (vc_sense c)) POther ;;
  dl <- vec_dims (vc_left c) ;;
  dr <- vec_dims (vc_right c) ;;
  check (dims_eqb dl dr || dims_scalar dl || dims_scalar dr) PDim.

(** vector_constraint.go:258-267 *)
Definition vc_len (c : vector_constraint) : res nat := _ <- vc_check c ;; vec_len (vc_left c).

(** vector_constraint.go:31-49; CheckIndexOnVector uses Dims (19-28), that is the dimensions of the left side *)
Definition vc_at_vec (c : vector_constraint) (i : Z) : res scalar_constraint :=
  _ <- vc_check c ;;
  n <- vc_len c ;;
  _ <- check (in_range i n) PIndex ;;
  l <- vec_at_vec (vc_left c) i ;;
  r <- vec_at_vec (vc_right c) i ;;
  Ok (mkSC l r (vc_sense c)).

(** vector_constraint.go:98-100 *)
Definition vc_is_linear (c : vector_constraint) : res bool :=
  r <- vec_is_linear (vc_right c) ;;
  if r : bool then vec_is_linear (vc_left c) else Ok false.

(** vector_constraint.go:115-129 and 180-194 *)
Definition vc_require_linear (c : vector_constraint) : res unit :=
  lin <- vc_is_linear c ;;
  if lin : bool then Ok tt
  else
    l <- vec_is_linear (vc_left c) ;;
    _ <- check l PLinearRequired ;;
    r <- vec_is_linear (vc_right c) ;;
    check r PLinearRequired.

(** the assertions .(PolynomialLikeVector) and .(VectorExpression): the four vector types and no other type implement them *)
Definition as_vector (e : expr) : res vector := match e with EV v => Ok v | _ => Panic PRuntime end.

(** x.Minus(x.Constant()) on a vector *)
Definition vec_without_constant (v : vector) : res expr :=
  k <- vec_constant v ;; expr_minus (EV v) (GVec k).

(** vector_constraint.go:140-144 and 205-209 *)
Definition vc_moved (c : vector_constraint) : res vector :=
  r <- vec_without_constant (vc_right c) ;;
  r <- as_vector r ;;
  l <- expr_minus (EV (vc_left c)) (GExpr (EV r)) ;;
  as_vector l.

(** vector_constraint.go:153-158 and 214-218: SubVec of gonum panics on different lengths *)
Definition sub_vec (a b : list num) : res (list num) :=
  _ <- check (Nat.eqb (length a) (length b)) PGonum ;;
  Ok (map (fun xy => fst xy - snd xy) (combine a b)).

Definition vc_constants (c : vector_constraint) : res (list num) :=
  n <- vec_len (vc_left c) ;;
  _ <- check (negb (Nat.eqb n 0)) PGonum ;;
  r <- vec_constant (vc_right c) ;;
  l <- vec_constant (vc_left c) ;;
  sub_vec r l.

(** vector_constraint.go:105-167; Scale and ScaleVec multiply every entry by -1 *)
Definition vc_linear_inequality (c : vector_constraint) (wrt : list (list var)) : res (list (list num) * list num) :=
  _ <- vc_check c ;;
  _ <- vc_require_linear c ;;
  _ <- check (negb (sense_eqb (vc_sense c) SenseEq)) PIneqRequired ;;
  l <- vc_moved c ;;
  A <- vec_linear_coeff l wrt ;;
  let A := if sense_eqb (vc_sense c) SenseGe then map (map (fun x => nm1 * x)) A else A in
  b <- vc_constants c ;;
  Ok (A, if sense_eqb (vc_sense c) SenseGe then map (fun x => nm1 * x) b else b).

(** vector_constraint.go:172-223 *)
Definition vc_linear_equality (c : vector_constraint) (wrt : list (list var)) : res (list (list num) * list num) :=
  _ <- vc_check c ;;
  _ <- vc_require_linear c ;;
  _ <- check (sense_eqb (vc_sense c) SenseEq) PEqRequired ;;
  l <- vc_moved c ;;
  A <- vec_linear_coeff l wrt ;;
  b <- vc_constants c ;;
  Ok (A, b).

(** vector_constraint.go:226-239; the assertions succeed because vectors are substituted into vectors *)
Definition vc_substitute (c : vector_constraint) (x : var) (e : scalar) : res vector_constraint :=
  _ <- vc_check c ;;
  l <- vec_substitute (vc_left c) x e ;;
  r <- vec_substitute (vc_right c) x e ;;
  Ok (mkVC l r (vc_sense c)).

(** vector_constraint.go:242-255.  [sm] and [sm'] list the map in the two orders in which the two range loops visit it. *)
Definition vc_substitute_map (c : vector_constraint) (sm sm' : submap) : res vector_constraint :=
  _ <- vc_check c ;;
  l <- vec_substitute_map (vc_left c) sm ;;
  r <- vec_substitute_map (vc_right c) sm' ;;
  Ok (mkVC l r (vc_sense c)).

(** vector_constraint.go:270-294 *)
Definition vc_simplified (c : vector_constraint) : res vector_constraint :=
  _ <- vc_check c ;;
  l <- vec_without_constant (vc_left c) ;;
  r <- vec_without_constant (vc_right c) ;;
  lhs <- expr_minus l (GExpr r) ;;
  rk <- vec_constant (vc_right c) ;;
  lk <- vec_constant (vc_left c) ;;
  rhs <- expr_minus (EV (VK rk)) (GVec lk) ;;
  lhs <- as_vector lhs ;;
  rhs <- as_vector rhs ;;
  Ok (mkVC lhs rhs (vc_sense c)).

(** ** Matrix constraints *)

(** matrix_constraint.go:35-81 *)
Definition mc_check (c : matrix_constraint) : res unit :=
  _ <- check (mat_check (mc_left c)) PCheck ;;
  _ <- check (mat_check (mc_right c)) PCheck ;;
  dl <- mat_dims (mc_left c) ;;
  dr <- mat_dims (mc_right c) ;;
  _ <- check (dims_eqb dl dr) POther ;;
  check (sense_check (mc_sense c)) POther.

(** matrix_constraint.go:85-94; vector_constraint.go:19-28 is vc_dims in ModelMeasure.v *)
Definition mc_dims (c : matrix_constraint) : res (nat * nat) := _ <- mc_check c ;; mat_dims (mc_left c).

(** matrix_constraint.go:97-115 *)
Definition mc_at (c : matrix_constraint) (i j : Z) : res scalar_constraint :=
  _ <- mc_check c ;;
  d <- mc_dims c ;;
  _ <- check (in_range i (fst d) && in_range j (snd d)) PIndex ;;
  l <- mat_at (mc_left c) i j ;;
  r <- mat_at (mc_right c) i j ;;
  Ok (mkSC l r (mc_sense c)).

(** matrix_constraint.go:119-121 *)
Definition mc_is_linear (c : matrix_constraint) : res bool :=
  r <- mat_is_linear (mc_right c) ;;
  if r : bool then mat_is_linear (mc_left c) else Ok false.

(** matrix_constraint.go:124-138 *)
Definition mc_substitute (c : matrix_constraint) (x : var) (e : scalar) : res matrix_constraint :=
  _ <- mc_check c ;;
  l <- mat_substitute (mc_left c) x e ;;
  r <- mat_substitute (mc_right c) x e ;;
  Ok (mkMC l r (mc_sense c)).

(** matrix_constraint.go:142-156 *)
Definition mc_substitute_map (c : matrix_constraint) (sm sm' : submap) : res matrix_constraint :=
  _ <- mc_check c ;;
  l <- mat_substitute_map (mc_left c) sm ;;
  r <- mat_substitute_map (mc_right c) sm' ;;
  Ok (mkMC l r (mc_sense c)).

(** x.Minus(x.Constant()) on a matrix *)
Definition mat_without_constant (m : matrix) : res expr :=
  k <- mat_constant m ;; expr_minus (EM m) (GDense k).

(** matrix_constraint.go:159-177: there is no Check *)
Definition mc_simplified (c : matrix_constraint) : res matrix_constraint :=
  l <- mat_without_constant (mc_left c) ;;
  r <- mat_without_constant (mc_right c) ;;
  lhs <- expr_minus l (GExpr r) ;;
  rk <- mat_constant (mc_right c) ;;
  lk <- mat_constant (mc_left c) ;;
  rhs <- expr_minus (EM (MK rk)) (GDense lk) ;;
  lhs <- as_matrix lhs ;;
  rhs <- as_matrix rhs ;;
  Ok (mkMC lhs rhs (mc_sense c)).

(** ** The Constraint interface *)

(** the three methods Check *)
Definition con_check (c : constraint) : res unit :=
  match c with
  | CS c => check (sc_check c) PCheck
  | CV c => vc_check c
  | CM c => mc_check c
  end.

(** constraint.go:86-118 CompileConstraintsIntoScalarConstraints, one constraint *)
Definition con_scalars (c : constraint) : res (list scalar_constraint) :=
  match c with
  | CS c => Ok [c]
  | CV c => n <- vc_len c ;; mapM (fun i => vc_at_vec c (Z.of_nat i)) (seq 0 n)
  | CM c =>
      d <- mc_dims c ;;
      rows <- mapM (fun i => mapM (fun j => mc_at c (Z.of_nat i) (Z.of_nat j)) (seq 0 (snd d))) (seq 0 (fst d)) ;;
      Ok (concat rows)
  end.
(** constraint.go:86-118 *)
Definition compile_constraints (l : list constraint) : res (list scalar_constraint) :=
  parts <- mapM con_scalars l ;; Ok (concat parts).

(** constraint.go:55-82 VariablesInThisConstraint, also called Variables (vector_constraint.go:297-299, matrix_constraint.go:180-182).  [order]: the order in which the range loop visits the map. *)
Definition con_variables (order : list var -> list var) (c : constraint) : res (list var) :=
  _ <- con_check c ;;
  l <- (match c with CS c => Ok (scalar_variables (sc_left c)) | CV c => vec_variables (vc_left c) | CM c => mat_variables (mc_left c) end) ;;
  r <- (match c with CS c => Ok (scalar_variables (sc_right c)) | CV c => vec_variables (vc_right c) | CM c => mat_variables (mc_right c) end) ;;
  Ok (order (insert_keys r (insert_keys l []))).

(** AsSimplifiedConstraint: scalar_constraint.go:245-247 and the two above *)
Definition con_simplified (c : constraint) : res constraint :=
  match c with
  | CS c => c' <- sc_simplify c ;; Ok (CS c')
  | CV c => c' <- vc_simplified c ;; Ok (CV c')
  | CM c => c' <- mc_simplified c ;; Ok (CM c')
  end.

Definition con_is_linear (c : constraint) : res bool :=
  match c with CS c => sc_is_linear c | CV c => vc_is_linear c | CM c => mc_is_linear c end.

Definition con_substitute (c : constraint) (x : var) (e : scalar) : res constraint :=
  match c with
  | CS c => c' <- sc_substitute c x e ;; Ok (CS c')
  | CV c => c' <- vc_substitute c x e ;; Ok (CV c')
  | CM c => c' <- mc_substitute c x e ;; Ok (CM c')
  end.

Definition con_substitute_map (c : constraint) (sm sm' : submap) : res constraint :=
  match c with
  | CS c => c' <- sc_substitute_map c sm ;; Ok (CS c')
  | CV c => c' <- vc_substitute_map c sm sm' ;; Ok (CV c')
  | CM c => c' <- mc_substitute_map c sm sm' ;; Ok (CM c')
  end.

(** a loop that returns true at the first entry for which [f] does *)
Fixpoint any_of {A} (f : A -> res bool) (l : list A) : res bool :=
  match l with
  | [] => Ok false
  | a :: l' => b <- f a ;; if b : bool then Ok true else any_of f l'
  end.

(** ImpliesThisIsAlsoSatisfied: scalar_constraint.go:287-393, vector_constraint.go:302-336, matrix_constraint.go:185-222.  [o i j] gives the
    iteration orders for the call on entry (i,j). *)
Definition con_implies (o : nat -> nat -> orders) (c other : constraint) : res bool :=
  _ <- con_check c ;;
  _ <- con_check other ;;
  match c, other with
  | CS c, CS d => sc_implies (o O O) c d
  | CS c, _ => _ <- sc_simplify c ;; Ok false
  | CV c, CS d =>
      n <- vc_len c ;;
      any_of (fun i => s <- vc_at_vec c (Z.of_nat i) ;; sc_implies (o i O) s d) (seq 0 n)
  | CM c, CS d =>
      dm <- mc_dims c ;;
      any_of (fun i => any_of (fun j => s <- mc_at c (Z.of_nat i) (Z.of_nat j) ;; sc_implies (o i j) s d) (seq 0 (snd dm))) (seq 0 (fst dm))
  | _, _ => Ok false
  end.

End ModelConstr.
