(** * Model of the error values and their messages

    Files: smErrors/*.go and the Check methods of the scalars, vectors and matrices.  [print_int z] is fmt.Sprintf("%v", z) of an int. *)

From Coq Require Import ZArith NArith Bool Ascii String List.
From Verif Require Import Num Syntax ModelScalar ModelShape ModelConstr ModelSC ModelString.
Import ListNotations.
Local Open Scope string_scope.

Definition print_nat (n : nat) : string := print_int (Z.of_nat n).

(** ** The operands in an error value

    smErrors/matrix_like.go:3-5 MatrixLike and smErrors/vector_like.go:9-12 VectorLike: what %T prints for the object, what Dims returns
    (two numbers for every type of the package), and what Len returns if the object has that method. *)
Record operand := mkOperand { o_type : string; o_dims : nat * nat; o_len : option nat }.

(** the error types of smErrors: matrix_dimension_error.go:18-22, vector_dimension_error.go:12-16, matrix_column_mismatch.go:5-9,
    out_of_bounds_error.go:11-20, negative_exponent.go:13-15, unsupported_input.go:12-15, equality_constraint_required.go:3-5,
    inequality_constraint_required.go:3-5, linear_expression_required.go:5-8, empty_vector.go:13-15, empty_matrix.go:13-15,
    empty_linear_coeffs.go:13-15, linear_coeffs.go:13-15.  Of a field of type interface{} we keep what %T prints, and of the last one
    also what %v prints; of the VectorLike operands what Len returns. *)
Inductive sm_error :=
| MatrixDimensionError (operation : string) (arg1 arg2 : operand)
| VectorDimensionError (operation : string) (len1 len2 : nat)
| MatrixColumnMismatchError (expected actual row : nat)
| InvalidVectorIndexError (index : Z) (expression : operand)
| InvalidMatrixIndexError (row col : Z) (expression : operand)
| NegativeExponentError (exponent : Z)
| UnsupportedInputError (function_name input : string)
| EqualityConstraintRequiredError (operation : string)
| InequalityConstraintRequiredError (operation : string)
| LinearExpressionRequiredError (operation expression : string)
| EmptyVectorError (expression : string)
| EmptyMatrixError (expression : string)
| EmptyLinearCoeffsError (expression : string)
| CanNotGetLinearCoeffOfConstantError (shown expression : string).

(** smErrors/matrix_dimension_error.go:34-57 ArgDimsAsStrings, one of the two strings; the loops run over the two numbers of Dims *)
Definition dims_as_string (d : nat * nat) : string := "(" ++ print_nat (fst d) ++ "," ++ print_nat (snd d) ++ ")".
(** fmt.Sprintf("%v", dims) of a slice of two ints *)
Definition print_dims (d : nat * nat) : string := "[" ++ print_nat (fst d) ++ " " ++ print_nat (snd d) ++ "]".

(** the Error methods: smErrors/matrix_dimension_error.go:24-32, smErrors/vector_dimension_error.go:18-25, smErrors/matrix_column_mismatch.go:11-18,
    smErrors/out_of_bounds_error.go:22-30, smErrors/out_of_bounds_error.go:32-41, smErrors/negative_exponent.go:18-20, smErrors/unsupported_input.go:17-23, smErrors/equality_constraint_required.go:7-9,
    smErrors/inequality_constraint_required.go:7-9, smErrors/linear_expression_required.go:10-16, smErrors/empty_vector.go:18-24, smErrors/empty_matrix.go:18-24,
    smErrors/empty_linear_coeffs.go:18-24, smErrors/linear_coeffs.go:17-23 *)
Definition error_text (e : sm_error) : string :=
  match e with
  | MatrixDimensionError op a b =>
      "dimension error: Cannot perform " ++ op ++ " between expression of dimension " ++ dims_as_string (o_dims a)
        ++ " and expression of dimension " ++ dims_as_string (o_dims b)
  | VectorDimensionError op m n =>
      "vector dimension error: Cannot perform " ++ op ++ " between expression of dimension " ++ print_nat m
        ++ " and expression of dimension " ++ print_nat n
  | MatrixColumnMismatchError e a r =>
      "matrix column mismatch error: expected " ++ print_nat e ++ " columns, received " ++ print_nat a ++ " in row " ++ print_nat r
  | InvalidVectorIndexError i o =>
      "out of bounds error: index " ++ print_int i ++ " is out of bounds for " ++ o_type o ++ " object of dimension " ++ print_dims (o_dims o)
  | InvalidMatrixIndexError i j o =>
      "out of bounds error: index (" ++ print_int i ++ ", " ++ print_int j ++ ") is out of bounds for " ++ o_type o
        ++ " object of dimension " ++ print_dims (o_dims o)
  | NegativeExponentError k => "received negative exponent (" ++ print_int k ++ "); expected non-negative exponent"
  | UnsupportedInputError f t => "unsupported input error: " ++ f ++ " does not support input of type " ++ t
  | EqualityConstraintRequiredError op => "Equality constraint required for operation: " ++ op
  | InequalityConstraintRequiredError op => "Inequality constraint required for operation: " ++ op
  | LinearExpressionRequiredError op t =>
      "Linear expression required for operation " ++ op ++ "; received an expression which is not linear (" ++ t ++ ")."
  | EmptyVectorError t => "empty vector error: the vector of type " ++ t ++ " is empty"
  | EmptyMatrixError t => "empty matrix error: the matrix of type " ++ t ++ " is empty"
  | EmptyLinearCoeffsError t => "the expression of type " ++ t ++ " has no variables to compute linear coefficients for"
  | CanNotGetLinearCoeffOfConstantError s t =>
      "linear coefficients error: cannot find linear coefficients of object " ++ s ++ " (type " ++ t
        ++ ") which represents a constant (i.e., this is a polynomial that equals a constant like 3.14)!"
  end.

(** ** The checks that build error values; [None] stands for nil *)

(** smErrors/matrix_dimension_error.go:59-74 *)
Definition check_addition (l r : operand) : option sm_error :=
  if dims_add (o_dims l) (o_dims r) then None else Some (MatrixDimensionError "Plus" l r).
(** smErrors/matrix_dimension_error.go:82-97 *)
Definition check_subtraction (l r : operand) : option sm_error :=
  if dims_add (o_dims l) (o_dims r) then None else Some (MatrixDimensionError "Minus" l r).
(** smErrors/matrix_dimension_error.go:109-130 *)
Definition check_multiplication (l r : operand) : option sm_error :=
  if dims_mul (o_dims l) (o_dims r) then None else Some (MatrixDimensionError "Multiply" l r).

(** smErrors/matrix_dimension_error.go:148-163 and 182-197, the loops over neighbours *)
Fixpoint check_neighbours (op : string) (dim : nat * nat -> nat) (l : list operand) : option sm_error :=
  match l with
  | a :: (b :: _) as l' =>
      if Nat.eqb (dim (o_dims b)) (dim (o_dims a)) then check_neighbours op dim l' else Some (MatrixDimensionError op a b)
  | _ => None
  end.
(** smErrors/matrix_dimension_error.go:141-164 and 175-198 *)
Definition check_hstack (l : list operand) : option sm_error := check_neighbours "HStack" fst l.
Definition check_vstack (l : list operand) : option sm_error := check_neighbours "VStack" snd l.

(** smErrors/matrix_dimension_error.go:200-225; a failed type assertion to VectorLike is a run-time panic *)
Definition check_comparison (l r : operand) (type : string) : res (option sm_error) :=
  if dims_add (o_dims l) (o_dims r) then Ok None
  else if Nat.eqb (snd (o_dims l)) 1 && Nat.eqb (snd (o_dims r)) 1
  then match o_len l, o_len r with
       | Some m, Some n => Ok (Some (VectorDimensionError ("Comparison (" ++ type ++ ")") m n))
       | _, _ => Panic PRuntime
       end
  else Ok (Some (MatrixDimensionError type l r)).

(** smErrors/out_of_bounds_error.go:44-52 *)
Definition check_index_vector (i : Z) (o : operand) : option sm_error :=
  if Z.ltb i 0 || Z.leb (Z.of_nat (fst (o_dims o))) i then Some (InvalidVectorIndexError i o) else None.
(** smErrors/out_of_bounds_error.go:60-81 *)
Definition check_index_matrix (i j : Z) (o : operand) : option sm_error :=
  if Z.ltb i 0 || Z.leb (Z.of_nat (fst (o_dims o))) i then Some (InvalidMatrixIndexError i j o)
  else if Z.ltb j 0 || Z.leb (Z.of_nat (snd (o_dims o))) j then Some (InvalidMatrixIndexError i j o)
  else None.

(** ** The errors returned by Check *)

Section Checks.
Context {NN : Num} (fmt : num -> string).

(** what %T prints for the expression types of package symbolic *)
Definition type_name (e : expr) : string :=
  "symbolic." ++
  match e with
  | ES (SK _) => "K" | ES (SV _) => "Variable" | ES (SM _) => "Monomial" | ES (SP _) => "Polynomial"
  | EV (VK _) => "KVector" | EV (VV _) => "VariableVector" | EV (VM _) => "MonomialVector" | EV (VP _) => "PolynomialVector"
  | EM (MK _) => "KMatrix" | EM (MV _) => "VariableMatrix" | EM (MM _) => "MonomialMatrix" | EM (MP _) => "PolynomialMatrix"
  end.

(** an expression as an operand of the checks above; [d] is what Dims returns.  The vector types and no others have a Len method
    (constant_vector.go:20, variable_vector.go:29, monomial_vector.go:64, polynomial_vector.go:47). *)
Definition operand_of (e : expr) (d : nat * nat) : operand := mkOperand (type_name e) d (match e with EV _ => Some (fst d) | _ => None end).

(** utils.go:130-146 CheckDimensionsInComparison of package symbolic, whose IsScalarExpression (scalar_expression.go:96-115) looks at the
    type; [dl] and [dr] are what Dims returns *)
Definition check_comparison_sense (l r : expr) (dl dr : nat * nat) (s : sense) : res (option sm_error) :=
  if dims_eqb dl dr || scalar_type l || scalar_type r then Ok None
  else t <- sense_string s ;; Ok (Some (MatrixDimensionError ("Comparison (" ++ t ++ ")") (operand_of l dl) (operand_of r dr))).

(** the first element of a slice for which the test returns an error, with its index *)
Fixpoint first_error {A} (f : A -> option string) (i : nat) (l : list A) : option (nat * string) :=
  match l with
  | [] => None
  | a :: l' => match f a with Some s => Some (i, s) | None => first_error f (S i) l' end
  end.

(** variable.go:359-370 *)
Definition var_error (v : var) : option string :=
  if (v_upper v <=? v_lower v)%num
  then Some ("lower bound (" ++ fmt (v_lower v) ++ ") of variable must be less than upper bound (" ++ fmt (v_upper v) ++ ").") else None.
(** monomial.go:27-38 *)
Definition mono_error (m : Monomial) : option string :=
  if Nat.eqb (List.length (m_exps m)) (List.length (m_vars m)) then None
  else Some ("the number of degrees (" ++ print_nat (List.length (m_exps m)) ++ ") does not match the number of variables ("
             ++ print_nat (List.length (m_vars m)) ++ ")").
(** polynomial.go:25-41 *)
Definition poly_error (p : Polynomial) : option string :=
  match p with
  | [] => Some "polynomial has no monomials"
  | _ => match first_error mono_error 0 p with Some (i, s) => Some ("error in monomial " ++ print_nat i ++ ": " ++ s) | None => None end
  end.

(** variable_vector.go:329-343, monomial_vector.go:27-43, polynomial_vector.go:18-34, constant_vector.go:26-28 *)
Definition vec_error (v : vector) : option string :=
  match v with
  | VK _ => None
  | VV l => match first_error var_error 0 l with Some (i, s) => Some ("element " ++ print_nat i ++ " has an issue: " ++ s) | None => None end
  | VM l => match l with
            | [] => Some (error_text (EmptyVectorError (type_name (EV v))))
            | _ => match first_error mono_error 0 l with Some (i, s) => Some ("error in monomial " ++ print_nat i ++ ": " ++ s) | None => None end
            end
  | VP l => match l with
            | [] => Some "polynomial vector has no polynomials"
            | _ => match first_error poly_error 0 l with Some (i, s) => Some ("error in polynomial " ++ print_nat i ++ ": " ++ s) | None => None end
            end
  end.

(** variable_matrix.go:44-54, monomial_matrix.go:39-49, polynomial_matrix.go:39-49 *)
Fixpoint columns_error {A} (n i : nat) (l : list (list A)) : option string :=
  match l with
  | [] => None
  | row :: l' =>
      if Nat.eqb (List.length row) n then columns_error n (S i) l'
      else Some (error_text (MatrixColumnMismatchError n (List.length row) i))
  end.
(** variable_matrix.go:56-68, monomial_matrix.go:51-59, polynomial_matrix.go:51-59 *)
Definition entries_error {A} (f : A -> option string) (before between after : string) (l : list (list A)) : option string :=
  match first_error (fun row => match first_error f 0 row with Some (j, s) => Some (print_nat j ++ after ++ s) | None => None end) 0 l with
  | Some (i, s) => Some (before ++ print_nat i ++ between ++ s)
  | None => None
  end.
(** variable_matrix.go:33-72, monomial_matrix.go:32-63, polynomial_matrix.go:32-63 *)
Definition rows_error {A} (f : A -> option string) (before between after ty : string) (l : list (list A)) : option string :=
  match l with
  | [] => Some (error_text (EmptyMatrixError ty))
  | r0 :: _ => match columns_error (List.length r0) 0 l with Some s => Some s | None => entries_error f before between after l end
  end.
(** the three above and constant_matrix.go:16-18 *)
Definition mat_error (m : matrix) : option string :=
  match m with
  | MK _ => None
  | MV l => rows_error var_error "error in entry (" ", " "): " (type_name (EM m)) l
  | MM l => rows_error mono_error "error in monomial " "," ": " (type_name (EM m)) l
  | MP l => rows_error poly_error "error in polynomial " "," ": " (type_name (EM m)) l
  end.

Definition scalar_error (s : scalar) : option string :=
  match s with SK _ => None | SV v => var_error v | SM m => mono_error m | SP p => poly_error p end.
(** the error returned by Check, as a text; [None] stands for nil *)
Definition check_error (e : expr) : option string :=
  match e with ES s => scalar_error s | EV v => vec_error v | EM m => mat_error m end.

End Checks.
