(** * Model of the vector and matrix expressions, part 2: Plus, Multiply, Minus and Power on all expression types,
      with operands of any Go type.

    Files: constant.go, variable.go, monomial.go, polynomial.go, constant_vector.go, variable_vector.go, monomial_vector.go,
    polynomial_vector.go, constant_matrix.go, variable_matrix.go, monomial_matrix.go, polynomial_matrix.go, vector_expression.go,
    matrix_expression.go, expression.go.

    Simplification: products of two mat.Dense, or of a mat.Dense and a mat.VecDense, are summed from left to right; gonum's assembly
    kernels may associate the floating point sum differently. *)

From Coq Require Import ZArith NArith Bool List.
From Verif Require Import Num Syntax ModelScalar ModelShape.
Import ListNotations.
Local Open Scope num_scope.

Section ModelArith.
Context {NN : Num}.

Definition enum {A} (l : list A) : list (nat * A) := combine (seq 0 (length l)) l.
Definition as_EM (r : res matrix) : res expr := m <- r ;; Ok (EM m).
Definition as_EV (r : res vector) : res expr := v <- r ;; Ok (EV v).
Definition as_ES (r : res scalar) : res expr := s <- r ;; Ok (ES s).

(** ** Plus on vectors *)

(** vector_expression.go:390-416 VectorPlusTemplate *)
Definition vec_plus_template (v : vector) (e : expr) : res expr :=
  match e with
  | ES s => l <- mapM (fun a => scalar_plus a s) (vec_entries v) ;; concretize_slice l
  | EV w =>
      l <- mapM (fun ia => b <- vec_get w (fst ia) ;; scalar_plus (snd ia) b) (enum (vec_entries v)) ;;
      concretize_slice l
  | EM _ => Panic PUnsupported
  end.

(** Plus with an Expression argument: constant_vector.go:80-101, 121-122, 139; variable_vector.go:92-107, 116-117, 135;
    monomial_vector.go:100-117, 126-127, 140; polynomial_vector.go:125-142, 152-153, 165 *)
Definition vec_plus_expr (v : vector) (e : expr) : res expr :=
  _ <- check (vec_check v) PCheck ;;
  _ <- operand_check dims_add (vec_dims v) (GExpr e) ;;
  simplify_result (vec_plus_template v e).

(** constant_vector.go:80-140, variable_vector.go:87-136, monomial_vector.go:98-141, polynomial_vector.go:123-167 *)
Definition vec_plus (v : vector) (g : goval) : res expr :=
  _ <- check (vec_check v) PCheck ;;
  _ <- operand_check dims_add (vec_dims v) g ;;
  match g with
  | GExpr e => simplify_result (vec_plus_template v e)
  | GFloat f =>
      match v with
      | VK l =>
          if Nat.eqb (length l) 1 then k <- index l 0 ;; Ok (ES (SK (k + f)))
          else o <- ones_vector (length l) ;; simplify_result (vec_plus_expr v (EV (VK (map (fun x => f * x) o))))
      | _ => simplify_result (vec_plus_expr v (ES (SK f)))
      end
  | GInt z =>
      match v with
      | VV _ | VM _ => simplify_result (vec_plus_expr v (ES (SK (nofZ z))))
      | _ => Panic PUnsupported
      end
  | GVec r | GVecP r =>
      match v with
      | VK _ | VV _ => simplify_result (vec_plus_expr v (EV (VK r)))
      | _ => Panic PUnsupported
      end
  | _ => Panic PUnsupported
  end.

(** ** Plus on matrices *)

(** matrix_expression.go:232-269 MatrixPlusTemplate *)
Definition mat_plus_template (m r : matrix) : res matrix :=
  _ <- check (mat_check m) PCheck ;;
  _ <- check (mat_check r) PCheck ;;
  dl <- mat_dims m ;;
  dr <- mat_dims r ;;
  _ <- check (dims_eqb dl dr) PDim ;;
  l <- mapM (fun i => mapM (fun j => a <- mat_get m i j ;; b <- mat_get r i j ;; scalar_plus a b) (seq 0 (snd dl)))
            (seq 0 (fst dl)) ;;
  concretize_matrix l.

(** constant_matrix.go:86-98: KMatrix.Plus(float64); [right*1 + km[i][j]] entry by entry *)
Definition k_mat_plus_float (l : list (list num)) (f : num) : res expr :=
  d <- rows_dims l ;;
  o <- ones_matrix (fst d) (snd d) ;;
  a <- k_to_dense l ;;
  Ok (EM (MK (map (fun or => map (fun ox => f * fst ox + snd ox) (combine (fst or) (snd or))) (combine o a)))).

(** constant_matrix.go:59-80, 121-122, 136: KMatrix.Plus(MatrixExpression) *)
Definition k_mat_plus_mat (l : list (list num)) (r : matrix) : res expr :=
  _ <- operand_check dims_add (mat_dims (MK l)) (GExpr (EM r)) ;;
  simplify_result (as_EM (mat_plus_template (MK l) r)).

(** constant_matrix.go:59-137 *)
Definition k_mat_plus (l : list (list num)) (g : goval) : res expr :=
  _ <- operand_check dims_add (mat_dims (MK l)) g ;;
  d <- rows_dims l ;;
  match g with
  | GFloat f => simplify_result (k_mat_plus_float l f)
  | GExpr (ES (SK f)) => simplify_result (simplify_result (k_mat_plus_float l f))
  | GExpr (ES (SV x)) => simplify_result (k_mat_plus_mat l (MV (repeat (repeat x (snd d)) (fst d))))
  | GDense r => simplify_result (k_mat_plus_mat l (MK r))
  | GDenseP r => simplify_result (simplify_result (k_mat_plus_mat l (MK r)))
  | GExpr (EM r) => simplify_result (as_EM (mat_plus_template (MK l) r))
  | _ => Panic PUnsupported
  end.

(** variable_matrix.go:139-149: VariableMatrix.Plus(KMatrix), with the assertion [.(Polynomial)] *)
Definition var_mat_plus_k (l : list (list var)) (r : list (list num)) : res expr :=
  rows <- mapM (fun ir =>
            mapM (fun jx =>
              rr <- index r (fst ir) ;; k <- index rr (fst jx) ;;
              s <- var_plus_k (snd jx) k ;;
              match s with SP p => Ok p | _ => Panic PRuntime end) (enum (snd ir))) (enum l) ;;
  Ok (EM (MP rows)).

(** variable_matrix.go:104-160.  The recursive calls repeat checks that have been passed, except the comparison of the dimensions with
    a matrix of the same dimensions. *)
Definition var_mat_plus (l : list (list var)) (g : goval) : res expr :=
  _ <- check (mat_check (MV l)) PCheck ;;
  _ <- operand_check dims_add (mat_dims (MV l)) g ;;
  match g with
  | GFloat f | GExpr (ES (SK f)) =>
      d <- mat_dims (MV l) ;;
      o <- ones_matrix (fst d) (snd d) ;;
      var_mat_plus_k l (map (map (fun x => f * x)) o)
  | GExpr (EM (MK r)) => var_mat_plus_k l r
  | _ => Panic PUnsupported
  end.

(** monomial_matrix.go:123-126, 138-141, 154-157, 171-175, 187-191: one entry of the sum; [add] are the monomials appended.  The result of
    Simplify is discarded. *)
Definition mono_mat_plus_entry (m : Monomial) (add : list Monomial) : res Polynomial :=
  _ <- poly_simplify (m :: add) ;; Ok (m :: add).
Definition mono_mat_plus_all (l : list (list Monomial)) (add : list Monomial) : res expr :=
  rows <- mapM (mapM (fun m => mono_mat_plus_entry m add)) l ;; Ok (EM (MP rows)).

(** monomial_matrix.go:97-206 *)
Definition mono_mat_plus (l : list (list Monomial)) (g : goval) : res expr :=
  _ <- check (mat_check (MM l)) PCheck ;;
  _ <- operand_check dims_add (mat_dims (MM l)) g ;;
  match g with
  | GFloat f | GExpr (ES (SK f)) => mono_mat_plus_all l [k_to_mono f]
  | GExpr (ES (SV x)) => mono_mat_plus_all l [var_to_mono x]
  | GExpr (ES (SM m)) => mono_mat_plus_all l [m]
  | GExpr (ES (SP p)) => mono_mat_plus_all l p
  | GExpr (EM (MP r)) =>
      rows <- mapM (fun ir =>
                mapM (fun jm =>
                  rr <- index r (fst ir) ;; p <- index rr (fst jm) ;;
                  mono_mat_plus_entry (snd jm) p) (enum (snd ir))) (enum l) ;;
      Ok (EM (MP rows))
  | _ => Panic PUnsupported
  end.

(** polynomial_matrix.go:123-134, 138-149: adding one scalar to every entry *)
Definition poly_mat_plus_all (l : list (list Polynomial)) (s : scalar) : res expr :=
  rows <- mapM (mapM (fun p => poly_plus p s)) l ;; simplify_result (concretize_rows rows).

(** polynomial_matrix.go:93-187 *)
Definition poly_mat_plus (l : list (list Polynomial)) (g : goval) : res expr :=
  _ <- check (mat_check (MP l)) PCheck ;;
  _ <- operand_check dims_add (mat_dims (MP l)) g ;;
  match g with
  | GFloat f => simplify_result (poly_mat_plus_all l (SK f))
  | GExpr (ES (SK f)) => poly_mat_plus_all l (SK f)
  | GExpr (ES (SM m)) => simplify_result (poly_mat_plus_all l (SP (mono_to_poly m)))
  | GExpr (ES (SP p)) => poly_mat_plus_all l (SP p)
  | GExpr (EM (MK r)) =>
      rows <- mapM (fun ir =>
                mapM (fun jp => k <- mat_get (MK r) (fst ir) (fst jp) ;; poly_plus (snd jp) k) (enum (snd ir))) (enum l) ;;
      simplify_result (concretize_rows rows)
  | GExpr (EM (MP r)) =>
      rows <- mapM (fun ir =>
                mapM (fun jp => rr <- index r (fst ir) ;; q <- index rr (fst jp) ;; poly_plus (snd jp) (SP q)) (enum (snd ir))) (enum l) ;;
      simplify_result (concretize_rows rows)
  | _ => Panic PUnsupported
  end.

Definition mat_plus (m : matrix) (g : goval) : res expr :=
  match m with
  | MK l => k_mat_plus l g
  | MV l => var_mat_plus l g
  | MM l => mono_mat_plus l g
  | MP l => poly_mat_plus l g
  end.

(** ** Plus on scalars, with any operand *)

(** constant.go:67-122 *)
Definition k_plus_any (c : num) (g : goval) : res expr :=
  _ <- (match as_expr g with Some e => check (expr_check e) PCheck | None => Ok tt end) ;;
  match g with
  | GInt z => as_ES (k_plus c (SK (nofZ z)))
  | GFloat f => as_ES (k_plus c (SK f))
  | GExpr (ES s) => as_ES (k_plus c s)
  | GVec l | GVecP l => vec_plus (VK l) (GExpr (ES (SK c)))
  | GExpr (EV v) => vec_plus v (GExpr (ES (SK c)))
  | GDense l | GDenseP l => mat_plus (MK l) (GExpr (ES (SK c)))
  | GExpr (EM m) => mat_plus m (GExpr (ES (SK c)))
  | GOther => Panic PUnsupported
  end.

(** variable.go:73-132 *)
Definition var_plus_any (v : var) (g : goval) : res expr :=
  _ <- check (var_check v) PCheck ;;
  match g with
  | GFloat f => as_ES (scalar_plus_float (SV v) f)
  | GInt z => as_ES (scalar_plus_float (SV v) (nofZ z))
  | GExpr (ES s) => as_ES (var_plus v s)
  | GVec l | GVecP l => simplify_result (simplify_result (vec_plus (VK l) (GExpr (ES (SV v)))))
  | GExpr (EV w) => simplify_result (vec_plus w (GExpr (ES (SV v))))
  | _ => Panic PUnsupported
  end.

(** monomial.go:52-118 *)
Definition mono_plus_any (m : Monomial) (g : goval) : res expr :=
  _ <- check (mono_check m) PCheck ;;
  _ <- operand_check dims_add (Ok (1%nat, 1%nat)) g ;;
  match g with
  | GFloat f => as_ES (scalar_plus_float (SM m) f)
  | GExpr (ES s) => as_ES (mono_plus m s)
  | _ => Panic PUnsupported
  end.

(** polynomial.go:67-187 *)
Definition poly_plus_any (p : Polynomial) (g : goval) : res expr :=
  _ <- check (poly_check p) PCheck ;;
  _ <- (match as_expr g with Some e => check (expr_check e) PCheck | None => Ok tt end) ;;
  match g with
  | GFloat f => as_ES (scalar_plus_float (SP p) f)
  | GExpr (ES s) => as_ES (poly_plus p s)
  | GExpr (EV v) =>
      n <- vec_len v ;;
      if Nat.eqb n 1 then simplify_result (as_ES (s <- vec_get v 0 ;; poly_plus p s))
      else
        l <- mapM (fun i => s <- vec_get v i ;; poly_plus p s) (seq 0 n) ;;
        simplify_result (concretize_slice l)
  | GExpr (EM m) =>
      d <- mat_dims m ;;
      if Nat.eqb (fst d) 1 && Nat.eqb (snd d) 1 then simplify_result (as_ES (s <- mat_get m 0 0 ;; poly_plus p s))
      else
        rows <- mapM (fun i => mapM (fun j => s <- mat_get m i j ;; poly_plus p s) (seq 0 (snd d))) (seq 0 (fst d)) ;;
        simplify_result (concretize_rows rows)
  | _ => Panic PUnsupported
  end.

(** The method Plus of every expression type *)
Definition expr_plus (e : expr) (g : goval) : res expr :=
  match e with
  | ES (SK c) => k_plus_any c g
  | ES (SV v) => var_plus_any v g
  | ES (SM m) => mono_plus_any m g
  | ES (SP p) => poly_plus_any p g
  | EV v => vec_plus v g
  | EM m => mat_plus m g
  end.

(** ** Multiply on vectors *)

(** vector_expression.go:365-386 VectorMultiplyTemplate on a scalar *)
Definition vec_mul_template (v : vector) (s : scalar) : res expr :=
  l <- mapM (fun a => scalar_mul a s) (vec_entries v) ;; concretize_slice l.

(** Multiply with a ScalarExpression argument: constant_vector.go:306-338, variable_vector.go:203-204, monomial_vector.go:217-218,
    polynomial_vector.go:231-247 (which knows K and Polynomial only) *)
Definition vec_mul_scalar (v : vector) (s : scalar) : res expr :=
  _ <- check (vec_check v) PCheck ;;
  _ <- operand_check dims_mul (vec_dims v) (GExpr (ES s)) ;;
  match v, s with
  | VP _, SV _ | VP _, SM _ => Panic PUnsupported
  | _, _ => simplify_result (vec_mul_template v s)
  end.

(** constant_vector.go:345-353: KVector.Multiply(KVector) uses the first entry of the argument *)
Definition k_vec_mul_vec (l r : list num) : res expr :=
  _ <- operand_check dims_mul (vec_dims (VK l)) (GExpr (EV (VK r))) ;;
  k <- index r 0 ;; simplify_result (vec_mul_scalar (VK l) (SK k)).

(** constant_vector.go:275-366, variable_vector.go:178-223, monomial_vector.go:189-230, polynomial_vector.go:208-263 *)
Definition vec_mul (v : vector) (g : goval) : res expr :=
  _ <- check (vec_check v) PCheck ;;
  _ <- operand_check dims_mul (vec_dims v) g ;;
  match v, g with
  | VV _, GFloat f => vec_mul_scalar v (SK f)
  | _, GFloat f => simplify_result (vec_mul_scalar v (SK f))
  | _, GExpr (ES s) => vec_mul_scalar v s
  | VK l, GVec r => simplify_result (k_vec_mul_vec l r)
  | VK l, GVecP r => simplify_result (simplify_result (k_vec_mul_vec l r))
  | VK l, GExpr (EV (VK r)) => k_vec_mul_vec l r
  | VK l, GExpr (EV (VV r)) => x <- index r 0 ;; simplify_result (vec_mul_scalar v (SV x))
  | VV _, GExpr (EV w) => s <- vec_get w 0 ;; simplify_result (vec_mul_scalar v s)
  | VP _, GExpr (EV (VP r)) => q <- index r 0 ;; simplify_result (vec_mul_scalar v (SP q))
  | _, _ => Panic PUnsupported
  end.

(** variable.go:338-340, 349: Variable.Multiply(VectorExpression) *)
Definition var_mul_vec (x : var) (v : vector) : res expr :=
  _ <- check (var_check x) PCheck ;;
  _ <- operand_check dims_mul (Ok (1%nat, 1%nat)) (GExpr (EV v)) ;;
  simplify_result (vec_mul_template v (SV x)).

(** ** Multiply on matrices *)

(** gonum's sum of products, from left to right *)
Definition sum_products (a b : list num) : num := fold_left (fun acc xy => acc + fst xy * snd xy) (combine a b) n0.

(** mat.VecDense.MulVec *)
Definition dense_mul_vec (a : list (list num)) (x : list num) : res (list num) :=
  d <- rows_dims a ;;
  _ <- check (Nat.eqb (snd d) (length x)) PGonum ;;
  Ok (map (fun r => sum_products r x) a).

(** mat.Dense.Mul *)
Definition dense_mul (a b : list (list num)) : res (list (list num)) :=
  da <- rows_dims a ;;
  db <- rows_dims b ;;
  _ <- check (Nat.eqb (snd da) (fst db)) PGonum ;;
  bt <- transpose_rows b (snd db) ;;
  Ok (map (fun r => map (sum_products r) bt) a).

(** matrix_expression.go:174-228 MatrixMultiplyTemplate *)
Definition mat_mul_entry (m r : matrix) (n i j : nat) : res scalar :=
  s <- foldM (fun acc k => a <- mat_get m i k ;; b <- mat_get r k j ;; t <- scalar_mul a b ;; scalar_plus acc t)
             (SK n0) (seq 0 n) ;;
  scalar_simplified s.

Definition mat_mul_template (m r : matrix) : res expr :=
  _ <- check (mat_check m) PCheck ;;
  _ <- check (mat_check r) PCheck ;;
  dl <- mat_dims m ;;
  dr <- mat_dims r ;;
  _ <- check (Nat.eqb (snd dl) (fst dr)) PDim ;;
  l <- mapM (fun i => mapM (fun j => mat_mul_entry m r (snd dl) i j) (seq 0 (snd dr))) (seq 0 (fst dl)) ;;
  concretize_rows l.

(** constant_matrix.go:214-220: KMatrix.Multiply(float64) *)
Definition k_mat_mul_float (l : list (list num)) (f : num) : res expr :=
  a <- k_to_dense l ;; Ok (EM (MK (map (map (fun x => f * x)) a))).

(** constant_matrix.go:223-235: KMatrix.Multiply(Polynomial) *)
Definition k_mat_mul_poly (l : list (list num)) (p : Polynomial) : res expr :=
  d <- rows_dims l ;;
  rows <- mapM (fun i => mapM (fun j => r <- index l i ;; k <- index r j ;; poly_mul_poly (k_to_poly k) p) (seq 0 (snd d)))
               (seq 0 (fst d)) ;;
  concretize_rows rows.

(** constant_matrix.go:237-251: KMatrix.Multiply( *mat.VecDense) *)
Definition k_mat_mul_vec (l : list (list num)) (x : list num) : res expr :=
  a <- k_to_dense l ;;
  y <- dense_mul_vec a x ;;
  match y with [k] => Ok (ES (SK k)) | _ => Ok (EV (VK y)) end.

(** constant_matrix.go:253-274: KMatrix.Multiply(VariableVector).  In the second branch column [c] goes through
    Variable.Multiply( *mat.VecDense): variable.go:333-340, 349. *)
Definition k_mat_mul_vars (l : list (list num)) (xs : list var) : res expr :=
  d <- rows_dims l ;;
  if Nat.eqb (fst d) 1 then
    as_ES (foldM (fun acc cx =>
             r <- index l 0 ;; k <- index r (fst cx) ;; t <- var_mul_k (snd cx) k ;; scalar_plus acc t) (SK n0) (enum xs))
  else
    z <- zeros_vector (fst d) ;;
    foldM (fun acc c =>
      a <- k_to_dense l ;;
      col <- mapM (fun r => index r c) a ;;
      x <- index xs c ;;
      t <- simplify_result (simplify_result (var_mul_vec x (VK col))) ;;
      expr_plus acc (GExpr t)) (EV (VK z)) (seq 0 (snd d)).

(** constant_matrix.go:276-299: KMatrix.Multiply( *mat.Dense) *)
Definition k_mat_mul_dense (l b : list (list num)) : res expr :=
  a <- k_to_dense l ;;
  y <- dense_mul a b ;;
  match y with
  | [[k]] => Ok (ES (SK k))
  | _ =>
      d <- rows_dims y ;;
      if Nat.eqb (snd d) 1 then c <- mapM (fun r => index r 0) y ;; Ok (EV (VK c)) else Ok (EM (MK y))
  end.

(** constant_matrix.go:188-314 *)
Definition k_mat_mul (l : list (list num)) (g : goval) : res expr :=
  _ <- operand_check dims_mul (mat_dims (MK l)) g ;;
  match g with
  | GFloat f => simplify_result (k_mat_mul_float l f)
  | GExpr (ES (SK f)) => simplify_result (simplify_result (k_mat_mul_float l f))
  | GExpr (ES (SP p)) => simplify_result (k_mat_mul_poly l p)
  | GVecP x => simplify_result (k_mat_mul_vec l x)
  | GExpr (EV (VV xs)) => simplify_result (k_mat_mul_vars l xs)
  | GDenseP b => simplify_result (k_mat_mul_dense l b)
  | GDense b => simplify_result (simplify_result (k_mat_mul_dense l b))
  | GExpr (EM r) => simplify_result (mat_mul_template (MK l) r)
  | _ => Panic PUnsupported
  end.

(** variable_matrix.go:245-256: VariableMatrix.Multiply(K), with the assertion [.(Monomial)] *)
Definition var_mat_mul_k (l : list (list var)) (f : num) : res expr :=
  rows <- mapM (mapM (fun x => s <- var_mul_k x f ;; match s with SM m => Ok m | _ => Panic PRuntime end)) l ;;
  Ok (EM (MM rows)).

(** variable_matrix.go:257-271: VariableMatrix.Multiply(KVector) *)
Definition var_mat_mul_kvec (l : list (list var)) (ks : list num) : res expr :=
  d <- mat_dims (MV l) ;;
  p <- mapM (fun r =>
         foldM (fun acc j => x <- index r j ;; k <- index ks j ;; t <- var_mul_k x k ;; scalar_plus acc t)
               (SK n0) (seq 0 (snd d))) l ;;
  concretize_slice p.

(** variable_matrix.go:215-241, 257-271, 310: the whole call on a KVector *)
Definition var_mat_mul_kvec_call (l : list (list var)) (ks : list num) : res expr :=
  _ <- check (mat_check (MV l)) PCheck ;;
  _ <- operand_check dims_mul (mat_dims (MV l)) (GExpr (EV (VK ks))) ;;
  simplify_result (var_mat_mul_kvec l ks).

(** variable_matrix.go:278-292: VariableMatrix.Multiply(VariableVector) *)
Definition var_mat_mul_vars (l : list (list var)) (xs : list var) : res expr :=
  d <- mat_dims (MV l) ;;
  foldM (fun acc c =>
    col <- mapM (fun r => index r c) l ;;
    x <- index xs c ;;
    t <- vec_mul (VV col) (GExpr (ES (SV x))) ;;
    expr_plus acc (GExpr t)) (ES (SK n0)) (seq 0 (snd d)).

(** variable_matrix.go:299-300, 310: the whole call on a MatrixExpression *)
Definition var_mat_mul_mat (l : list (list var)) (r : matrix) : res expr :=
  _ <- check (mat_check (MV l)) PCheck ;;
  _ <- operand_check dims_mul (mat_dims (MV l)) (GExpr (EM r)) ;;
  simplify_result (mat_mul_template (MV l) r).

(** variable_matrix.go:215-311 *)
Definition var_mat_mul (l : list (list var)) (g : goval) : res expr :=
  _ <- check (mat_check (MV l)) PCheck ;;
  _ <- operand_check dims_mul (mat_dims (MV l)) g ;;
  match g with
  | GFloat f => simplify_result (simplify_result (var_mat_mul_k l f))
  | GExpr (ES (SK f)) => simplify_result (var_mat_mul_k l f)
  | GExpr (EV (VK ks)) => simplify_result (var_mat_mul_kvec l ks)
  | GVec ks | GVecP ks => simplify_result (var_mat_mul_kvec_call l ks)
  | GExpr (EV (VV xs)) => simplify_result (var_mat_mul_vars l xs)
  | GDense r | GDenseP r => simplify_result (var_mat_mul_mat l (MK r))
  | GExpr (EM r) => simplify_result (mat_mul_template (MV l) r)
  | _ => Panic PUnsupported
  end.

(** monomial_matrix.go:278-310: MonomialMatrix.Multiply(VariableVector); the sum of two rows of entries is asserted to be a
    Polynomial *)
Definition mono_mat_mul_vars (l : list (list Monomial)) (xs : list var) : res expr :=
  if Nat.eqb (length l) 1 then
    r <- index l 0 ;;
    s <- foldM (fun acc im =>
           x <- index xs (fst im) ;; t <- mono_mul_var (snd im) x ;; scalar_plus acc (SM t)) (SK n0) (enum r) ;;
    as_ES (scalar_simplified s)
  else
    p <- mapM (fun r =>
           m0 <- index r 0 ;; x0 <- index xs 0 ;;
           s0 <- poly_mul_var (mono_to_poly m0) x0 ;;
           foldM (fun acc j =>
             m <- index r j ;; x <- index xs j ;;
             t <- poly_mul_var (mono_to_poly m) x ;;
             s <- scalar_plus acc t ;;
             match s with SP _ => Ok s | _ => Panic PRuntime end) s0 (seq 1 (length r - 1))) l ;;
    as_EV (concretize_vector p).

(** monomial_matrix.go:242-330 *)
Definition mono_mat_mul (l : list (list Monomial)) (g : goval) : res expr :=
  _ <- check (mat_check (MM l)) PCheck ;;
  _ <- operand_check dims_mul (mat_dims (MM l)) g ;;
  match g with
  | GFloat f | GExpr (ES (SK f)) => rows <- mapM (mapM (fun m => mono_mul_k m f)) l ;; Ok (EM (MM rows))
  | GExpr (EV (VV xs)) => mono_mat_mul_vars l xs
  | GExpr (EM r) => mat_mul_template (MM l) r
  | _ => Panic PUnsupported
  end.

(** one row of polynomial_matrix.go:278-281 and 291-293 *)
Definition poly_row_mul_vars (r : list Polynomial) (xs : list var) : res scalar :=
  foldM (fun acc jp => x <- index xs (fst jp) ;; t <- poly_mul_var (snd jp) x ;; scalar_plus acc t) (SK n0) (enum r).

(** polynomial_matrix.go:229-313 *)
Definition poly_mat_mul_k (l : list (list Polynomial)) (f : num) : res expr :=
  rows <- mapM (mapM (fun p => poly_mul_k p f)) l ;; simplify_result (concretize_rows rows).

Definition poly_mat_mul (l : list (list Polynomial)) (g : goval) : res expr :=
  _ <- check (mat_check (MP l)) PCheck ;;
  _ <- operand_check dims_mul (mat_dims (MP l)) g ;;
  match g with
  | GFloat f => simplify_result (poly_mat_mul_k l f)
  | GExpr (ES (SK f)) => poly_mat_mul_k l f
  | GExpr (EV (VV xs)) =>
      if Nat.eqb (length l) 1 then r <- index l 0 ;; simplify_result (as_ES (poly_row_mul_vars r xs))
      else p <- mapM (fun r => poly_row_mul_vars r xs) l ;; concretize_slice p
  | GExpr (EM r) => mat_mul_template (MP l) r
  | _ => Panic PUnsupported
  end.

Definition mat_mul (m : matrix) (g : goval) : res expr :=
  match m with
  | MK l => k_mat_mul l g
  | MV l => var_mat_mul l g
  | MM l => mono_mat_mul l g
  | MP l => poly_mat_mul l g
  end.

(** ** Multiply on scalars, with any operand *)

(** constant.go:245-287 *)
Definition k_mul_any (c : num) (g : goval) : res expr :=
  _ <- (match as_expr g with Some e => check (expr_check e) PCheck | None => Ok tt end) ;;
  match g with
  | GFloat f => as_ES (k_mul c (SK f))
  | GInt z => as_ES (k_mul c (SK (nofZ z)))
  | GExpr (ES s) => as_ES (k_mul c s)
  | _ => Panic PUnsupported
  end.

(** variable.go:274-351 *)
Definition var_mul_any (v : var) (g : goval) : res expr :=
  _ <- check (var_check v) PCheck ;;
  _ <- operand_check dims_mul (Ok (1%nat, 1%nat)) g ;;
  match g with
  | GFloat f => as_ES (scalar_mul_float (SV v) f)
  | GInt z => as_ES (scalar_mul_float (SV v) (nofZ z))
  | GExpr (ES s) => as_ES (var_mul v s)
  | GVecP l => simplify_result (simplify_result (var_mul_vec v (VK l)))
  | GVec l => simplify_result (var_mul_vec v (VK l))
  | GExpr (EV w) => simplify_result (vec_mul_template w (SV v))
  | _ => Panic PUnsupported
  end.

(** monomial.go:155-236 *)
Definition mono_mul_any (m : Monomial) (g : goval) : res expr :=
  _ <- check (mono_check m) PCheck ;;
  _ <- operand_check dims_mul (Ok (1%nat, 1%nat)) g ;;
  match g with
  | GFloat f => as_ES (scalar_mul_float (SM m) f)
  | GInt z => as_ES (scalar_mul_float (SM m) (nofZ z))
  | GExpr (ES s) => as_ES (mono_mul m s)
  | _ => Panic PUnsupported
  end.

(** polynomial.go:294-376 *)
Definition poly_mul_any (p : Polynomial) (g : goval) : res expr :=
  _ <- check (poly_check p) PCheck ;;
  _ <- (match as_expr g with Some e => check (expr_check e) PCheck | None => Ok tt end) ;;
  match g with
  | GFloat f => as_ES (scalar_mul_float (SP p) f)
  | GExpr (ES s) => as_ES (poly_mul p s)
  | GExpr (EV v) => simplify_result (vec_mul v (GExpr (ES (SP p))))
  | GExpr (EM m) => simplify_result (mat_mul m (GExpr (ES (SP p))))
  | _ => Panic PUnsupported
  end.

(** The method Multiply of every expression type *)
Definition expr_mul (e : expr) (g : goval) : res expr :=
  match e with
  | ES (SK c) => k_mul_any c g
  | ES (SV v) => var_mul_any v g
  | ES (SM m) => mono_mul_any m g
  | ES (SP p) => poly_mul_any p g
  | EV v => vec_mul v g
  | EM m => mat_mul m g
  end.

(** ** Minus *)

(** expression.go:119-123, the function Minus *)
Definition minus (left right : expr) : res expr :=
  t <- expr_mul right (GFloat nm1) ;; expr_plus left (GExpr t).

(** The method Minus: constant.go:125-156, variable.go:136-172, monomial.go:121-152, polynomial.go:190-222,
    constant_vector.go:143-193 (which rejects matrices), variable_vector.go:140-175, monomial_vector.go:144-186,
    polynomial_vector.go:170-205, constant_matrix.go:140-185, variable_matrix.go:163-212, monomial_matrix.go:209-239,
    polynomial_matrix.go:191-226.  K and Polynomial do not compare dimensions. *)
Definition expr_minus (e : expr) (g : goval) : res expr :=
  _ <- check (expr_check e) PCheck ;;
  match as_expr g with
  | None => Panic PUnsupported
  | Some r =>
      _ <- (match e with
            | ES (SK _) | ES (SP _) => check (expr_check r) PCheck
            | _ => operand_check dims_add (expr_dims e) (GExpr r)
            end) ;;
      match e, r with
      | EV (VK _), EM _ => Panic PUnsupported
      | _, _ => minus e r
      end
  end.

(** ** Power *)

(** vector_expression.go:331-361 VectorPowerTemplate, called by constant_vector.go:502-504, variable_vector.go:490-492,
    monomial_vector.go:524-526, polynomial_vector.go:514-516 *)
Definition vec_power (v : vector) (exponent : Z) : res scalar :=
  _ <- check (vec_check v) PCheck ;;
  _ <- check (Z.leb 0 exponent) PNegExp ;;
  n <- vec_len v ;;
  _ <- check (Nat.eqb n 1) POther ;;
  b <- vec_get v 0 ;;
  power_loop b (Z.to_nat exponent) (SK n1).

Definition as_matrix (e : expr) : res matrix := match e with EM m => Ok m | _ => Panic PRuntime end.

Fixpoint mat_power_loop (me : matrix) (n : nat) (out : matrix) : res matrix :=
  match n with
  | O => Ok out
  | S n' => e <- mat_mul out (GExpr (EM me)) ;; out' <- as_matrix e ;; mat_power_loop me n' out'
  end.

(** matrix_expression.go:145-170 MatrixPowerTemplate, called by constant_matrix.go:583-585, variable_matrix.go:595-597,
    monomial_matrix.go:595-597, polynomial_matrix.go:602-604 *)
Definition mat_power (me : matrix) (exponent : Z) : res matrix :=
  _ <- check (mat_check me) PCheck ;;
  d <- mat_dims me ;;
  _ <- check (Nat.eqb (fst d) (snd d)) POther ;;
  _ <- check (Z.leb 0 exponent) PNegExp ;;
  i <- identity_matrix (fst d) ;;
  e <- k_plus_any n0 (GDense i) ;;
  out <- as_matrix e ;;
  mat_power_loop me (Z.to_nat exponent) out.

Definition expr_power (e : expr) (exponent : Z) : res expr :=
  match e with
  | ES s => as_ES (scalar_power s exponent)
  | EV v => as_ES (vec_power v exponent)
  | EM m => as_EM (mat_power m exponent)
  end.

(** ** get/KVector/from.go and get/KMatrix/from.go *)

Definition floats_to_kvec (l : list num) : res (list num) := _ <- check (nonempty l) PGonum ;; Ok l.

(** get/KVector/from.go:22-52; NewVecDense panics on length 0 *)
Definition kvector_from (i : from_input) : res (list num) :=
  match i with
  | FVal (GExpr (EV (VK l))) => Ok l
  | FVal (GVec l) | FVal (GVecP l) => Ok l
  | FFloats l => floats_to_kvec l
  | FInts l => floats_to_kvec (map nofZ l)
  | _ => Panic PUnsupported
  end.

(** get/KMatrix/from.go:15-64 *)
Definition kmatrix_from (i : from_input) : res (list (list num)) :=
  match i with
  | FVal (GExpr (EM (MK l))) => Ok l
  | FVal (GDense l) | FVal (GDenseP l) => Ok l
  | FRows l =>
      r0 <- index l 0 ;;
      _ <- check (forallb (fun r => Nat.eqb (length r) (length r0)) l) PDim ;;
      Ok l
  | _ => Panic PUnsupported
  end.

End ModelArith.
