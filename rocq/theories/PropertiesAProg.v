(** * Properties of programs over vectors and matrices

    Each theorem is proved in another file; the identifiers are those of properties.jsonl.  Below each theorem stand its
    assumptions and an instance of its hypotheses.  [arun] runs a program with the methods of the library; [adims], [meaning] and
    [adegree] are the dimensions, the entries and the degree that matrix algebra gives to its text (SpecAProg.v). *)

From Coq Require Import ZArith NArith Bool List.
From Verif Require Import Num Syntax ModelScalar Spec SpecProg ModelShape ModelArith SpecArr ModelConstr SpecCon SpecAProg ModelAProg AProgTop AffineProofs Witness ScalarWit ArrWit AProgWit.
Import ListNotations.
Local Open Scope num_scope.

(** ** C63 Programs over vectors and matrices *)

(** The dimensions of the result are those of matrix algebra, for all numbers; a 1 x 1 result is of a scalar type *)
Theorem C63_dimensions : forall {NN : Num} (p : aprog) (e : expr), proper_leaves p -> arun p = Ok e ->
  exists d, adims p = Some d /\ valid_array d e /\ (d = one_one -> is_scalar e).
Proof. exact @arun_dims. Qed.
Print Assumptions C63_dimensions.
Example C63_dimensions_nonvacuous (NN := QNum) : proper_leaves w_stack /\ (adegree w_stack <= 2)%Z /\ adims w_stack = Some (4, 2)%nat /\ exists e, arun w_stack = Ok e.
Proof. exact wit_stack. Qed.

(** If some dimensions do not fit, the program panics *)
Theorem C63_mismatch : forall {NN : Num} (p : aprog), proper_leaves p -> adims p = None -> exists x, arun p = Panic x.
Proof. exact @arun_mismatch. Qed.
Print Assumptions C63_mismatch.
Example C63_mismatch_nonvacuous (NN := QNum) : proper_leaves w_misfit /\ adims w_misfit = None.
Proof. exact wit_misfit. Qed.

(** No entry of the result has a degree above that of the text, for all numbers *)
Theorem C63_degree : forall {NN : Num} (p : aprog) (e : expr), proper_leaves p -> arun p = Ok e -> array_degree (adegree p) e.
Proof. exact @arun_degree. Qed.
Print Assumptions C63_degree.
Example C63_degree_nonvacuous (NN := QNum) : proper_leaves w_quadratic /\ (adegree w_quadratic <= 2)%Z /\ exists e, arun w_quadratic = Ok e.
Proof. exact wit_quadratic. Qed.

(** missing: programs of degree 3 and more in several variables, for which the claim is false (C63_value_refuted) *)
Theorem C63_value_degree2_partial : forall {NN : Num} (p : aprog) (e : expr), ExactNum NN -> proper_leaves p -> (adegree p <= 2)%Z -> arun p = Ok e ->
  forall r i j, (i < fst (dims_of p))%nat -> (j < snd (dims_of p))%nat -> value r e i j = meaning r p i j.
Proof. exact @arun_value_degree2. Qed.
Print Assumptions C63_value_degree2_partial.
Example C63_value_degree2_nonvacuous (NN := QNum) : proper_leaves w_quadratic /\ (adegree w_quadratic <= 2)%Z /\ exists e, arun w_quadratic = Ok e.
Proof. exact wit_quadratic. Qed.

(** missing: several variables; see above *)
Theorem C63_value_one_variable_partial : forall {NN : Num} (x : N) (p : aprog) (e : expr), ExactNum NN -> proper_leaves p -> leaves_only x p -> arun p = Ok e ->
  forall r i j, (i < fst (dims_of p))%nat -> (j < snd (dims_of p))%nat -> value r e i j = meaning r p i j.
Proof. exact @arun_value_variable. Qed.
Print Assumptions C63_value_one_variable_partial.
Example C63_value_one_variable_nonvacuous (NN := QNum) : proper_leaves w_cube /\ leaves_only 0 w_cube /\ dims_of w_cube = (2, 2)%nat /\ exists e, arun w_cube = Ok e.
Proof. exact wit_cube. Qed.

(** The third power of the matrix (x y; x y) has a wrong entry at x = 1, y = 2: 7 instead of 9 *)
Theorem C63_value_refuted : forall NN, NN = F64Num \/ NN = QNum -> exists (p : aprog) (e : expr) (r : assignment),
  proper_leaves p /\ adims p = Some (2, 2)%nat /\ arun p = Ok e /\ (value r e 0 0 =? meaning r p 0 0) = false.
Proof. exact program_value_refuted. Qed.
Print Assumptions C63_value_refuted.

(** The monomial 2x times the vector (x, y): the dimensions fit, but the call panics *)
Theorem C63_total_refuted : forall NN, NN = F64Num \/ NN = QNum -> exists p : aprog,
  proper_leaves p /\ adims p = Some (2, 1)%nat /\ (adegree p <= 2)%Z /\ arun p = Panic PUnsupported.
Proof. exact program_total_refuted. Qed.
Print Assumptions C63_total_refuted.

(** ** C64 Quadratic forms, linear and affine maps *)

(** x.Transpose().Multiply(Q).Multiply(x), for at least two variables, repeated or not: the call succeeds for all numbers, and returns the sum of Q_ij x_i x_j *)
Theorem C64_quadratic_form_partial : forall {NN : Num} (n : nat) (xs : list var) (Q : list (list num)),
  (2 <= n)%nat -> length xs = n -> Forall valid_var xs -> dense_shape (n, n) Q ->
  exists s, arun (quadratic_form xs Q) = Ok (ES s) /\ valid s /\ degree_at_most 2 s
   /\ (ExactNum NN -> forall r, eval r s = sum_to (fun i => sum_to (fun j => at_ij Q i j * var_at r xs i * var_at r xs j) n) n).
(** missing: one variable, for which the claim is false (C64_one_variable_refuted) *)
Proof. exact @quadratic_form_ok. Qed.
Print Assumptions C64_quadratic_form_partial.
Example C64_quadratic_form_nonvacuous (NN := QNum) : length [wx; wy] = 2%nat /\ Forall valid_var [wx; wy] /\ dense_shape (2, 2)%nat w_Q.
Proof. exact wit_form. Qed.

(** with one variable the same calls panic *)
Theorem C64_one_variable_refuted : forall NN, NN = F64Num \/ NN = QNum -> exists (x : var) (k : num), valid_var x /\ arun (quadratic_form [x] [[k]]) = Panic PUnsupported.
Proof. exact quadratic_one_refuted. Qed.
Print Assumptions C64_one_variable_refuted.

(** A.Multiply(x): entry i is the sum of A_ij x_j *)
Theorem C64_linear_map : forall {NN : Num} (m n : nat) (A : list (list num)) (xs : list var),
  (2 <= m)%nat -> (1 <= n)%nat -> dense_shape (m, n) A -> length xs = n -> Forall valid_var xs ->
  exists v, expr_mul (EM (MK A)) (GExpr (EV (VV xs))) = Ok (EV v) /\ valid_array (m, 1)%nat (EV v) /\ array_degree 1 (EV v)
   /\ (ExactNum NN -> forall r i, (i < m)%nat -> value r (EV v) i 0 = sum_to (fun j => at_ij A i j * var_at r xs j) n).
Proof. exact @linear_map_final. Qed.
Print Assumptions C64_linear_map.

(** A.Multiply(x).Plus(b): entry i is the sum of A_ij x_j, plus b_i *)
Theorem C64_affine_map : forall {NN : Num} (m n : nat) (A : list (list num)) (xs : list var) (b : list num),
  (2 <= m)%nat -> (1 <= n)%nat -> dense_shape (m, n) A -> length xs = n -> Forall valid_var xs -> length b = m ->
  exists v w, expr_mul (EM (MK A)) (GExpr (EV (VV xs))) = Ok (EV v) /\ expr_plus (EV v) (GExpr (EV (VK b))) = Ok (EV w)
   /\ valid_array (m, 1)%nat (EV w) /\ array_degree 1 (EV w)
   /\ (ExactNum NN -> forall r i, (i < m)%nat -> value r (EV w) i 0 = sum_to (fun j => at_ij A i j * var_at r xs j) n + nth i b n0).
Proof. exact @affine_map_final. Qed.
Print Assumptions C64_affine_map.

(** The constraint A x (sense) b, built with Multiply and a comparison, hands exactly A and b to a solver.
    missing: rows of zeros, for which the claim is false (C64_zero_row_refuted) *)
Theorem C64_linear_constraint_partial : forall {NN : Num}, ExactNum NN -> forall (m n : nat) (A : list (list num)) (xs : list var) (b : list num) (s : sense),
  (2 <= m)%nat -> dense_shape (m, n) A -> length xs = n -> Forall valid_var xs -> NoDup (map v_id xs) -> no_zero_row m n A -> length b = m -> s <> SenseOther ->
  exists v k, expr_mul (EM (MK A)) (GExpr (EV (VV xs))) = Ok (EV v) /\ expr_comparison (EV v) (GExpr (EV (VK b))) s = Ok (CV k) /\
   match s with
   | SenseLe => vc_linear_inequality k [xs] = Ok (A, b)
   | SenseGe => vc_linear_inequality k [xs] = Ok (map (map (fun x => - x)) A, map (fun x => - x) b)
   | _ => vc_linear_equality k [xs] = Ok (A, b)
   end.
Proof. exact @linear_constraint. Qed.
Print Assumptions C64_linear_constraint_partial.
Example C64_linear_constraint_nonvacuous (NN := QNum) :
  dense_shape (2, 3)%nat w_A3 /\ Forall valid_var [wx; wy; wz] /\ NoDup (map v_id [wx; wy; wz]) /\ no_zero_row 2 3 w_A3 /\ length [nofZ 7; nofZ 8] = 2%nat.
Proof. exact wit_affine. Qed.

(** A x + b (sense) c hands over A and c - b *)
Theorem C64_affine_constraint_partial : forall {NN : Num}, ExactNum NN -> forall (m n : nat) (A : list (list num)) (xs : list var) (b c : list num) (s : sense),
  (2 <= m)%nat -> dense_shape (m, n) A -> length xs = n -> Forall valid_var xs -> NoDup (map v_id xs) -> no_zero_row m n A ->
  length b = m -> length c = m -> s <> SenseOther ->
  exists v w k, expr_mul (EM (MK A)) (GExpr (EV (VV xs))) = Ok (EV v) /\ expr_plus (EV v) (GExpr (EV (VK b))) = Ok (EV w)
   /\ expr_comparison (EV w) (GExpr (EV (VK c))) s = Ok (CV k) /\
   match s with
   | SenseLe => vc_linear_inequality k [xs] = Ok (A, minus_list c b)
   | SenseGe => vc_linear_inequality k [xs] = Ok (map (map (fun x => - x)) A, map (fun x => - x) (minus_list c b))
   | _ => vc_linear_equality k [xs] = Ok (A, minus_list c b)
   end.
Proof. exact @affine_constraint. Qed.
Print Assumptions C64_affine_constraint_partial.

(** Any vector constraint whose sides are of degree one, with like terms collected, and differ by M x - q: exactly M and q are handed over *)
Theorem C64_coefficients_partial : forall {NN : Num} {EX : ExactNum NN} (m : nat) (c : vector_constraint) (w : list var) (M : list (list num)) (q : list num),
  (2 <= m)%nat -> valid_con (m, 1)%nat (CV c) -> array_degree 1 (EV (vc_left c)) -> array_degree 1 (EV (vc_right c)) ->
  array_collected (EV (vc_left c)) -> array_collected (EV (vc_right c)) -> Forall valid_var w -> NoDup (map v_id w) ->
  occurs_in w (EV (vc_left c)) -> occurs_in w (EV (vc_right c)) -> dense_shape (m, length w) M -> length q = m -> no_zero_row m (length w) M ->
  (forall r i, (i < m)%nat -> value r (EV (vc_left c)) i 0 - value r (EV (vc_right c)) i 0 = sum_to (fun j => at_ij M i j * var_at r w j) (length w) - nth i q n0) ->
  vc_sense c = SenseLe -> vc_linear_inequality c [w] = Ok (M, q).
Proof. exact @exact_inequality. Qed.
Print Assumptions C64_coefficients_partial.

(** A = (2 0; 0 0): the representation of A x <= (3, 4) panics *)
Theorem C64_zero_row_refuted : forall NN, NN = F64Num \/ NN = QNum -> exists (A : list (list num)) (xs : list var) (b : list num) (v : vector) (k : vector_constraint) (p : panic),
  dense_shape (2, 2)%nat A /\ Forall valid_var xs /\ NoDup (map v_id xs) /\ expr_mul (EM (MK A)) (GExpr (EV (VV xs))) = Ok (EV v)
  /\ expr_comparison (EV v) (GExpr (EV (VK b))) SenseLe = Ok (CV k) /\ vc_linear_inequality k [xs] = Panic p.
Proof. exact zero_row_refuted. Qed.
Print Assumptions C64_zero_row_refuted.
