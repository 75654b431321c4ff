(** * Model of the vector and matrix expressions, part 1: checks, dimensions, indexing, concretisation, simplification,
      transposition, stacking, substitution, degree, constants, linear coefficients.

    Files: constant_vector.go, variable_vector.go, monomial_vector.go, polynomial_vector.go, constant_matrix.go, variable_matrix.go,
    monomial_matrix.go, polynomial_matrix.go, vector_expression.go, matrix_expression.go, expression.go, polynomial_like_vector.go,
    smErrors/matrix_dimension_error.go, smErrors/out_of_bounds_error.go.  A mat.VecDense is its list of entries and a
    mat.Dense the list of its rows. *)

From Coq Require Import ZArith NArith Bool List.
From Verif Require Import Num Syntax ModelScalar.
Import ListNotations.
Local Open Scope num_scope.

Section ModelShape.
Context {NN : Num}.

(** ** Entries *)

(** ToScalarExpressions: constant_vector.go:512-518, variable_vector.go:500-506, monomial_vector.go:564-570, polynomial_vector.go:519-525 *)
Definition vec_entries (v : vector) : list scalar :=
  match v with VK l => map SK l | VV l => map SV l | VM l => map SM l | VP l => map SP l end.

(** the rows of a matrix with the entries as ScalarExpressions *)
Definition mat_rows (m : matrix) : list (list scalar) :=
  match m with
  | MK l => map (map SK) l | MV l => map (map SV) l | MM l => map (map SM) l | MP l => map (map SP) l
  end.

(** ** Check *)

Definition nonempty {A} (l : list A) : bool := match l with [] => false | _ => true end.

(** constant_vector.go:26-28, variable_vector.go:329-343, monomial_vector.go:27-43, polynomial_vector.go:18-34 *)
Definition vec_check (v : vector) : bool :=
  match v with
  | VK _ => true
  | VV l => forallb var_check l
  | VM l => nonempty l && forallb mono_check l
  | VP l => nonempty l && forallb poly_check l
  end.

(** The test shared by variable_matrix.go:33-72, monomial_matrix.go:32-63 and polynomial_matrix.go:32-63: at least one row, every row as
    long as the first, every entry valid *)
Definition rows_check {A} (ok : A -> bool) (l : list (list A)) : bool :=
  match l with
  | [] => false
  | r0 :: _ => forallb (fun r => Nat.eqb (length r) (length r0)) l && forallb (forallb ok) l
  end.

(** constant_matrix.go:16-18 and the three above *)
Definition mat_check (m : matrix) : bool :=
  match m with
  | MK _ => true
  | MV l => rows_check var_check l
  | MM l => rows_check mono_check l
  | MP l => rows_check poly_check l
  end.

Definition expr_check (e : expr) : bool :=
  match e with ES s => scalar_check s | EV v => vec_check v | EM m => mat_check m end.

(** ** Dimensions *)

(** Len: constant_vector.go:20-22, variable_vector.go:24-31, monomial_vector.go:64-66, polynomial_vector.go:37-49 (with a Check) *)
Definition vec_len (v : vector) : res nat :=
  match v with
  | VK l => Ok (length l)
  | VV l => Ok (length l)
  | VM l => Ok (length l)
  | VP l => _ <- check (vec_check (VP l)) PCheck ;; Ok (length l)
  end.

(** Dims: constant_vector.go:384, variable_vector.go:324, monomial_vector.go:70, polynomial_vector.go:283 *)
Definition vec_dims (v : vector) : res (nat * nat) := n <- vec_len v ;; Ok (n, 1%nat).

Definition rows_dims {A} (l : list (list A)) : res (nat * nat) :=
  r0 <- index l 0 ;; Ok (length l, length r0).

(** Dims: constant_matrix.go:49-56 ([km[0]] panics on an empty matrix), variable_matrix.go:92-101, monomial_matrix.go:87-94,
    polynomial_matrix.go:83-90 *)
Definition mat_dims (m : matrix) : res (nat * nat) :=
  _ <- check (mat_check m) PCheck ;;
  match m with MK l => rows_dims l | MV l => rows_dims l | MM l => rows_dims l | MP l => rows_dims l end.

(** Dims of any Expression; constant.go:290, variable.go:354, monomial.go:47, polynomial.go:53 for scalars *)
Definition expr_dims (e : expr) : res (nat * nat) :=
  match e with ES _ => Ok (1%nat, 1%nat) | EV v => vec_dims v | EM m => mat_dims m end.

Definition dims_eqb (a b : nat * nat) : bool := Nat.eqb (fst a) (fst b) && Nat.eqb (snd a) (snd b).
(** smErrors/matrix_like.go:13-17 IsScalarExpression *)
Definition dims_scalar (a : nat * nat) : bool := dims_eqb a (1%nat, 1%nat).

(** smErrors/matrix_dimension_error.go:59-74 CheckDimensionsInAddition and 82-97 CheckDimensionsInSubtraction *)
Definition dims_add (a b : nat * nat) : bool := dims_eqb a b || dims_scalar a || dims_scalar b.
(** smErrors/matrix_dimension_error.go:109-130 CheckDimensionsInMultiplication *)
Definition dims_mul (a b : nat * nat) : bool := Nat.eqb (snd a) (fst b) || dims_scalar a || dims_scalar b.

(** ** Operands of type interface{} *)

(** expression.go:75-95 IsExpression and 99-116 ToExpression.  [None]: not an expression (note that int is not one). *)
Definition as_expr (g : goval) : option expr :=
  match g with
  | GFloat f => Some (ES (SK f))
  | GVec l | GVecP l => Some (EV (VK l))
  | GDense l | GDenseP l => Some (EM (MK l))
  | GExpr e => Some e
  | GInt _ | GOther => None
  end.

(** [if IsExpression(right) { check right; check the dimensions }], as in constant_vector.go:87-100 *)
Definition operand_check (dims : nat * nat -> nat * nat -> bool) (left : res (nat * nat)) (g : goval) : res unit :=
  match as_expr g with
  | None => Ok tt
  | Some e =>
      _ <- check (expr_check e) PCheck ;;
      dl <- left ;;
      dr <- expr_dims e ;;
      check (dims dl dr) PDim
  end.

(** ** Indexing *)

(** a Go slice indexed with an int *)
Definition index_z {A} (l : list A) (i : Z) : res A :=
  if Z.ltb i 0 then Panic PRuntime else index l (Z.to_nat i).

(** smErrors/out_of_bounds_error.go:44-52 and 60-81 *)
Definition in_range (i : Z) (n : nat) : bool := Z.leb 0 i && Z.ltb i (Z.of_nat n).

(** AtVec: constant_vector.go:49-61, variable_vector.go:55-66, monomial_vector.go:406-415 (no index check before the slice access),
    polynomial_vector.go:72-86 *)
Definition vec_at_vec (v : vector) (i : Z) : res scalar :=
  match v with
  | VK l => _ <- check (in_range i (length l)) PIndex ;; k <- index_z l i ;; Ok (SK k)
  | VV l => _ <- check (in_range i (length l)) PIndex ;; x <- index_z l i ;; Ok (SV x)
  | VM l => _ <- check (vec_check v) PCheck ;; m <- index_z l i ;; Ok (SM m)
  | VP l => _ <- check (vec_check v) PCheck ;; _ <- check (in_range i (length l)) PIndex ;; p <- index_z l i ;; Ok (SP p)
  end.

(** At: constant_vector.go:34-46, variable_vector.go:37-52, monomial_vector.go:386-403, polynomial_vector.go:55-69 *)
Definition vec_at (v : vector) (i j : Z) : res scalar :=
  _ <- check (match v with VK _ => true | _ => vec_check v end) PCheck ;;
  n <- vec_len v ;;
  _ <- check (in_range i n && in_range j 1) PIndex ;;
  s <- index_z (vec_entries v) i ;; Ok s.

(** constant_matrix.go:21-41 ToDense: NewDense panics on a zero dimension, a row shorter than the first one makes
    [km[rIndex][cIndex]] panic, the surplus of a longer row is dropped *)
Definition k_to_dense (l : list (list num)) : res (list (list num)) :=
  d <- rows_dims l ;;
  _ <- check (negb (Nat.eqb (snd d) 0)) PGonum ;;
  mapM (fun r => _ <- check (Nat.leb (snd d) (length r)) PRuntime ;; Ok (firstn (snd d) r)) l.

(** Dense.At of gonum: panics outside the dimensions *)
Definition dense_at (d : list (list num)) (i j : Z) : res num :=
  match (if Z.ltb i 0 then None else nth_error d (Z.to_nat i)) with
  | Some r => match (if Z.ltb j 0 then None else nth_error r (Z.to_nat j)) with Some x => Ok x | None => Panic PGonum end
  | None => Panic PGonum
  end.

Definition rows_index {A} (l : list (list A)) (i j : Z) : res A := r <- index_z l i ;; index_z r j.

(** At: constant_matrix.go:422-425, variable_matrix.go:442-451, monomial_matrix.go:479-488, polynomial_matrix.go:448-465 *)
Definition mat_at (m : matrix) (i j : Z) : res scalar :=
  match m with
  | MK l => d <- k_to_dense l ;; x <- dense_at d i j ;; Ok (SK x)
  | MV l => _ <- check (mat_check m) PCheck ;; x <- rows_index l i j ;; Ok (SV x)
  | MM l => _ <- check (mat_check m) PCheck ;; x <- rows_index l i j ;; Ok (SM x)
  | MP l =>
      _ <- check (mat_check m) PCheck ;;
      d <- mat_dims m ;;
      _ <- check (in_range i (fst d) && in_range j (snd d)) PIndex ;;
      x <- rows_index l i j ;; Ok (SP x)
  end.

Definition expr_at (e : expr) (i j : Z) : res scalar :=
  match e with ES s => scalar_at s i j | EV v => vec_at v i j | EM m => mat_at m i j end.

Definition vec_get (v : vector) (i : nat) : res scalar := vec_at_vec v (Z.of_nat i).
Definition mat_get (m : matrix) (i j : nat) : res scalar := mat_at m (Z.of_nat i) (Z.of_nat j).

(** ** Concretisation *)

Definition is_k (s : scalar) : bool := match s with SK _ => true | _ => false end.
Definition is_v (s : scalar) : bool := match s with SV _ => true | _ => false end.
Definition is_m (s : scalar) : bool := match s with SM _ => true | _ => false end.
Definition is_p (s : scalar) : bool := match s with SP _ => true | _ => false end.

(** the conversions of vector_expression.go:202-218 and 227-241 *)
Definition to_poly (s : scalar) : Polynomial :=
  match s with SK k => k_to_poly k | SV v => var_to_poly v | SM m => mono_to_poly m | SP p => p end.
Definition to_mono (s : scalar) : res Monomial :=
  match s with SK k => Ok (k_to_mono k) | SV v => Ok (var_to_mono v) | SM m => Ok m | SP _ => Panic PUnsupported end.
Definition to_var (s : scalar) : res var := match s with SV v => Ok v | _ => Panic PUnsupported end.
Definition to_k (s : scalar) : res num := match s with SK k => Ok k | _ => Panic POther end.

(** vector_expression.go:156-299 ConcretizeVectorExpression *)
Definition concretize_vector (l : list scalar) : res vector :=
  _ <- check (nonempty l) POther ;;
  if existsb is_p l then Ok (VP (map to_poly l))
  else if existsb is_m l || (existsb is_k l && existsb is_v l) then ms <- mapM to_mono l ;; Ok (VM ms)
  else if forallb is_v l then vs <- mapM to_var l ;; Ok (VV vs)
  else if existsb is_k l then ks <- mapM to_k l ;; Ok (VK ks)
  else Panic POther.

(** matrix_expression.go:304-488 ConcretizeMatrixExpression *)
Definition concretize_matrix (l : list (list scalar)) : res matrix :=
  match l with
  | [] => Panic POther
  | r0 :: _ =>
      _ <- check (forallb (fun r => Nat.eqb (length r) (length r0)) l) POther ;;
      let all := concat l in
      if existsb is_p all then Ok (MP (map (map to_poly) l))
      else if existsb is_m all || (existsb is_k all && existsb is_v all) then ms <- mapM (mapM to_mono) l ;; Ok (MM ms)
      else if forallb is_v all then vs <- mapM (mapM to_var) l ;; Ok (MV vs)
      else if existsb is_k all then ks <- mapM (mapM to_k) l ;; Ok (MK ks)
      else Panic POther
  end.

(** expression.go:246-290 ConcretizeExpression on a []ScalarExpression (256-263) *)
Definition concretize_slice (l : list scalar) : res expr :=
  v <- concretize_vector l ;;
  d <- vec_dims v ;;
  if Nat.eqb (fst d) 1 then s <- vec_at v 0 0 ;; Ok (ES s) else Ok (EV v).

(** expression.go:265-279, on a [][]ScalarExpression *)
Definition concretize_rows (l : list (list scalar)) : res expr :=
  m <- concretize_matrix l ;;
  d <- mat_dims m ;;
  if Nat.eqb (fst d) 1 && Nat.eqb (snd d) 1 then s <- mat_get m 0 0 ;; Ok (ES s)
  else if Nat.eqb (snd d) 1 then
    col <- mapM (fun i => mat_get m i 0) (seq 0 (fst d)) ;;
    v <- concretize_vector col ;; Ok (EV v)
  else Ok (EM m).

(** ** AsSimplifiedExpression *)

(** constant_vector.go:507, variable_vector.go:495, monomial_vector.go:541-561, polynomial_vector.go:409-441 *)
Definition vec_simplified (v : vector) : res vector :=
  match v with
  | VK _ | VV _ => Ok v
  | VM _ | VP _ => _ <- check (vec_check v) PCheck ;; l <- mapM scalar_simplified (vec_entries v) ;; concretize_vector l
  end.

(** constant_matrix.go:589, variable_matrix.go:600, monomial_matrix.go:600-627, polynomial_matrix.go:490-517 *)
Definition mat_simplified (m : matrix) : res matrix :=
  match m with
  | MK _ | MV _ => Ok m
  | MM _ | MP _ => _ <- check (mat_check m) PCheck ;; l <- mapM (mapM scalar_simplified) (mat_rows m) ;; concretize_matrix l
  end.

Definition expr_simplified (e : expr) : res expr :=
  match e with
  | ES s => s' <- scalar_simplified s ;; Ok (ES s')
  | EV v => v' <- vec_simplified v ;; Ok (EV v')
  | EM m => m' <- mat_simplified m ;; Ok (EM m')
  end.

(** [out.AsSimplifiedExpression()] on the result of a call *)
Definition simplify_result (r : res expr) : res expr := out <- r ;; expr_simplified out.

(** ** Transpose *)

(** the double loops of variable_matrix.go:322-333, monomial_matrix.go:341-355, polynomial_matrix.go:325-336 *)
Definition transpose_rows {A} (l : list (list A)) (ncols : nat) : res (list (list A)) :=
  mapM (fun j => mapM (fun r => index r j) l) (seq 0 ncols).

(** constant_vector.go:369-381 (NewVecDense panics on length 0), variable_vector.go:310-321, monomial_vector.go:233-249,
    polynomial_vector.go:266-280 *)
Definition vec_transpose (v : vector) : res matrix :=
  match v with
  | VK l => _ <- check (nonempty l) PGonum ;; Ok (MK [l])
  | VV l => _ <- check (vec_check v) PCheck ;; Ok (MV [l])
  | VM l => _ <- check (vec_check v) PCheck ;; Ok (MM [l])
  | VP l => _ <- check (vec_check v) PCheck ;; Ok (MP [l])
  end.

(** constant_matrix.go:318-338 (through gonum), variable_matrix.go:314-336, monomial_matrix.go:333-358, polynomial_matrix.go:316-340 *)
Definition mat_transpose (m : matrix) : res matrix :=
  match m with
  | MK l => dd <- k_to_dense l ;; d <- rows_dims dd ;; t <- transpose_rows dd (snd d) ;; Ok (MK t)
  | MV l => d <- mat_dims m ;; t <- transpose_rows l (snd d) ;; Ok (MV t)
  | MM l => d <- mat_dims m ;; t <- transpose_rows l (snd d) ;; Ok (MM t)
  | MP l => d <- mat_dims m ;; t <- transpose_rows l (snd d) ;; Ok (MP t)
  end.

Definition expr_transpose (e : expr) : res expr :=
  match e with
  | ES s => s' <- scalar_transpose s ;; Ok (ES s')
  | EV v => m <- vec_transpose v ;; Ok (EM m)
  | EM m => m' <- mat_transpose m ;; Ok (EM m')
  end.

(** ** Stacking *)

Definition neighbours_eqb (l : list nat) : bool :=
  forallb (fun ab => Nat.eqb (fst ab) (snd ab)) (combine l (tl l)).

(** the entries of row [i] of an expression, read with At *)
Definition expr_row (e : expr) (ncols : nat) (i : nat) : res (list scalar) :=
  mapM (fun j => expr_at e (Z.of_nat i) (Z.of_nat j)) (seq 0 ncols).

(** expression.go:156-200 HStack with smErrors/matrix_dimension_error.go:141-164 *)
Definition hstack (es : list expr) : res expr :=
  _ <- check (nonempty es) POther ;;
  ds <- mapM expr_dims es ;;
  _ <- check (neighbours_eqb (map fst ds)) PDim ;;
  d0 <- index ds 0 ;;
  rows <- mapM (fun i =>
            parts <- mapM (fun ed => expr_row (fst ed) (snd (snd ed)) i) (combine es ds) ;;
            Ok (concat parts)) (seq 0 (fst d0)) ;;
  concretize_rows rows.

(** expression.go:203-243 VStack with smErrors/matrix_dimension_error.go:175-198 *)
Definition vstack (es : list expr) : res expr :=
  _ <- check (nonempty es) POther ;;
  ds <- mapM expr_dims es ;;
  _ <- check (neighbours_eqb (map snd ds)) PDim ;;
  blocks <- mapM (fun ed => mapM (fun i => expr_row (fst ed) (snd (snd ed)) i) (seq 0 (fst (snd ed)))) (combine es ds) ;;
  concretize_rows (concat blocks).

(** ** Substitute *)

(** vector_expression.go:302-328 VectorSubstituteTemplate, called by variable_vector.go:461-463, monomial_vector.go:497-499,
    polynomial_vector.go:486-488; constant_vector.go:491-493 *)
Definition vec_substitute (v : vector) (x : var) (s : scalar) : res vector :=
  match v with
  | VK _ => Ok v
  | _ =>
      _ <- check (vec_check v) PCheck ;;
      _ <- check (var_check x) PCheck ;;
      _ <- check (scalar_check s) PCheck ;;
      n <- vec_len v ;;
      l <- mapM (fun i => a <- vec_get v i ;; scalar_substitute a x s) (seq 0 n) ;;
      concretize_vector l
  end.

(** matrix_expression.go:273-301 MatrixSubstituteTemplate, called by variable_matrix.go:567-569, monomial_matrix.go:568-570,
    polynomial_matrix.go:574-576; constant_matrix.go:571-573 *)
Definition mat_substitute (m : matrix) (x : var) (s : scalar) : res matrix :=
  match m with
  | MK _ => Ok m
  | _ =>
      _ <- check (mat_check m) PCheck ;;
      _ <- check (var_check x) PCheck ;;
      _ <- check (scalar_check s) PCheck ;;
      d <- mat_dims m ;;
      l <- mapM (fun i => mapM (fun j => a <- mat_get m i j ;; scalar_substitute a x s) (seq 0 (snd d))) (seq 0 (fst d)) ;;
      concretize_matrix l
  end.

Definition expr_substitute (e : expr) (x : var) (s : scalar) : res expr :=
  match e with
  | ES a => r <- scalar_substitute a x s ;; Ok (ES r)
  | EV v => r <- vec_substitute v x s ;; Ok (EV r)
  | EM m => r <- mat_substitute m x s ;; Ok (EM r)
  end.

(** the assertion [tempExpr.(ScalarExpression)]; the map check has established that it succeeds *)
Definition as_scalar (e : expr) : res scalar := match e with ES s => Ok s | _ => Panic PRuntime end.

(** variable_vector.go:466-487, monomial_vector.go:502-521, polynomial_vector.go:491-511, constant_vector.go:497-499.  [sm] lists the
    map in the order in which the range loop visits it. *)
Definition vec_substitute_map (v : vector) (sm : submap) : res vector :=
  match v with
  | VK _ => Ok v
  | _ =>
      _ <- check (vec_check v) PCheck ;;
      _ <- check (check_submap sm) PCheck ;;
      foldM (fun out kv => s <- as_scalar (snd kv) ;; vec_substitute out (fst kv) s) v sm
  end.

(** variable_matrix.go:572-592, monomial_matrix.go:573-592, polynomial_matrix.go:579-599, constant_matrix.go:577-579 *)
Definition mat_substitute_map (m : matrix) (sm : submap) : res matrix :=
  match m with
  | MK _ => Ok m
  | _ =>
      _ <- check (mat_check m) PCheck ;;
      _ <- check (check_submap sm) PCheck ;;
      foldM (fun out kv => s <- as_scalar (snd kv) ;; mat_substitute out (fst kv) s) m sm
  end.

(** ** Variables *)

(** constant_vector.go:64, variable_vector.go:69, monomial_vector.go:46-61, polynomial_vector.go:89-95 *)
Definition vec_variables (v : vector) : res (list var) :=
  match v with
  | VK _ => Ok []
  | VV l => Ok (unique_vars l)
  | VM l => _ <- check (vec_check v) PCheck ;; Ok (unique_vars (flat_map m_vars l))
  | VP l => Ok (unique_vars (flat_map poly_variables l))
  end.

(** constant_matrix.go:44, variable_matrix.go:75-89, monomial_matrix.go:67-84, polynomial_matrix.go:66-80 *)
Definition mat_variables (m : matrix) : res (list var) :=
  match m with
  | MK _ => Ok []
  | MV l => _ <- check (mat_check m) PCheck ;; Ok (unique_vars (concat l))
  | MM l => _ <- check (mat_check m) PCheck ;; Ok (unique_vars (flat_map m_vars (concat l)))
  | MP l => _ <- check (mat_check m) PCheck ;; Ok (unique_vars (flat_map poly_variables (concat l)))
  end.

Definition expr_variables (e : expr) : res (list var) :=
  match e with ES s => Ok (scalar_variables s) | EV v => vec_variables v | EM m => mat_variables m end.

Definition expr_substitute_map (e : expr) (sm : submap) : res expr :=
  match e with
  | ES s => r <- scalar_substitute_map s sm ;; Ok (ES r)
  | EV v => r <- vec_substitute_map v sm ;; Ok (EV r)
  | EM m => r <- mat_substitute_map m sm ;; Ok (EM r)
  end.

(** ** Degree *)

Definition max_degree (l : list scalar) : res Z :=
  foldM (fun d s => ds <- scalar_degree s ;; Ok (if Z.ltb d ds then ds else d)) 0%Z l.

(** constant_vector.go:485, variable_vector.go:456, monomial_vector.go:476-494, polynomial_vector.go:465-483 *)
Definition vec_degree (v : vector) : res Z :=
  match v with
  | VK _ => Ok 0%Z
  | VV _ => Ok 1%Z
  | VM _ | VP _ => _ <- check (vec_check v) PCheck ;; max_degree (vec_entries v)
  end.

(** constant_matrix.go:566, variable_matrix.go:562, monomial_matrix.go:545-565, polynomial_matrix.go:554-571 *)
Definition mat_degree (m : matrix) : res Z :=
  match m with
  | MK _ => Ok 0%Z
  | MV _ => Ok 1%Z
  | MM _ | MP _ => _ <- check (mat_check m) PCheck ;; max_degree (concat (mat_rows m))
  end.

Definition expr_degree (e : expr) : res Z :=
  match e with ES s => scalar_degree s | EV v => vec_degree v | EM m => mat_degree m end.

(** expression.go:129-138 IsLinear.  All vector and matrix types are PolynomialLike (polynomial_like.go:63-80). *)
Definition vec_is_linear (v : vector) : res bool := d <- vec_degree v ;; Ok (Z.leb d 1).
Definition mat_is_linear (m : matrix) : res bool := d <- mat_degree m ;; Ok (Z.leb d 1).
Definition expr_is_linear (e : expr) : res bool := d <- expr_degree e ;; Ok (Z.leb d 1).

(** ** Constant *)

(** constant_vector.go:75-77 (ToVecDense panics on length 0), variable_vector.go:74-77, monomial_vector.go:75-95,
    polynomial_vector.go:98-113 *)
Definition vec_constant (v : vector) : res (list num) :=
  match v with
  | VK l => _ <- check (nonempty l) PGonum ;; Ok l
  | VV l => zeros_vector (length l)
  | VM l => _ <- check (vec_check v) PCheck ;; Ok (map mono_constant l)
  | VP l => _ <- check (vec_check v) PCheck ;; mapM poly_constant l
  end.

(** constant_matrix.go:435-445 ZerosMatrix, 448-458 OnesMatrix; NewDense panics on a zero dimension *)
Definition zeros_matrix (r c : nat) : res (list (list num)) :=
  if Nat.eqb r 0 || Nat.eqb c 0 then Panic PGonum else Ok (repeat (repeat n0 c) r).
Definition ones_matrix (r c : nat) : res (list (list num)) :=
  if Nat.eqb r 0 || Nat.eqb c 0 then Panic PGonum else Ok (repeat (repeat n1 c) r).
(** constant_vector.go:392-400 OnesVector *)
Definition ones_vector (n : nat) : res (list num) :=
  match n with O => Panic PGonum | _ => Ok (repeat n1 n) end.

(** constant_matrix.go:462-472 Identity *)
Definition identity_matrix (n : nat) : res (list (list num)) :=
  z <- zeros_matrix n n ;;
  Ok (map (fun ir => set_nth (fst ir) n1 (snd ir)) (combine (seq 0 n) z)).

(** constant_matrix.go:428-430, variable_matrix.go:455-457, monomial_matrix.go:491-512, polynomial_matrix.go:469-487 *)
Definition mat_constant (m : matrix) : res (list (list num)) :=
  match m with
  | MK l => k_to_dense l
  | MV l => d <- mat_dims m ;; zeros_matrix (fst d) (snd d)
  | MM l => d <- mat_dims m ;; _ <- zeros_matrix (fst d) (snd d) ;; Ok (map (map mono_constant) l)
  | MP l => d <- mat_dims m ;; _ <- zeros_matrix (fst d) (snd d) ;; mapM (mapM poly_constant) l
  end.

(** ** LinearCoeff: polynomial_like_vector.go:156-196 PolynomialLikeVector_SharedLinearCoeffCalc, called by constant_vector.go:70-72,
    variable_vector.go:81-83, monomial_vector.go:536-538, polynomial_vector.go:118-120.  NewDense panics on length 0. *)
Definition vec_linear_coeff (v : vector) (wrt : list (list var)) : res (list (list num)) :=
  _ <- check (vec_check v) PCheck ;;
  w <- (match wrt with
        | [] => vec_variables v
        | [w] => Ok w
        | _ => Panic POther
        end) ;;
  _ <- check (nonempty w) PNoLinearCoeff ;;
  n <- vec_len v ;;
  _ <- check (negb (Nat.eqb n 0)) PGonum ;;
  mapM (fun i => a <- vec_get v i ;; scalar_linear_coeff a [w]) (seq 0 n).

(** ** DerivativeWrt of the types whose entries are immutable values *)

(** constant_vector.go:416-418, variable_vector.go:349-372.  MonomialVector and PolynomialVector are in the heap model. *)
Definition k_vec_derivative (l : list num) : res (list num) := zeros_vector (length l).
Definition var_vec_derivative (l : list var) (x : var) : res (list num) :=
  _ <- check (vec_check (VV l)) PCheck ;;
  _ <- check (var_check x) PCheck ;;
  _ <- zeros_vector (length l) ;;
  Ok (map (fun v => if same_id v x then n1 else n0) l).

(** constant_matrix.go:476-478, variable_matrix.go:415-439 ([v] is not checked) *)
Definition k_mat_derivative (l : list (list num)) : res (list (list num)) :=
  d <- rows_dims l ;; zeros_matrix (fst d) (snd d).
Definition var_mat_derivative (l : list (list var)) (x : var) : res (list (list num)) :=
  d <- mat_dims (MV l) ;;
  _ <- zeros_matrix (fst d) (snd d) ;;
  Ok (map (map (fun v => if same_id v x then n1 else n0)) l).

End ModelShape.
