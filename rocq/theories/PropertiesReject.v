(** * C77: methods other than arithmetic reject expressions that fail Check

    Each theorem is proved in another file; the identifiers are those of properties.jsonl. *)

From Coq Require Import ZArith NArith Bool List.
From Verif Require Import Num Syntax ModelScalar ModelShape ModelArith ModelConstr ModelHeap ModelHeapArr SpecArr SpecReject CheckExact Reject RejectArith Witness RejectWit RejectHeap RejectArithHeap.
Import ListNotations.

(** ** C77 Substitute, SubstituteAccordingTo, DerivativeWrt, At, LinearCoeff, Transpose, AsSimplifiedExpression, Degree, IsLinear, Constant and Variables *)

(** Check accepts exactly the expressions whose variables, terms, entries and rows are as they should be *)
Theorem C77_check : forall {NN : Num} (e : expr), expr_check e = true <-> well_formed e.
Proof. exact @check_exact. Qed.
Print Assumptions C77_check.
Example C77_check_nonvacuous (NN := QNum) : well_formed (EM (MP [[[mkMono n1 [1%Z] [wx]]; [mkMono n1 [1%Z] [wx]]]])) /\ ~ well_formed (EM rj_mat) /\ ~ well_formed (EV (VV [wx; rj_var])).
Proof. exact wit_well_formed. Qed.

(** the receiver fails Check *)
Theorem C77_substitute : forall {NN : Num} (e : expr) (x : var) (s : scalar), expr_check e = false -> expr_substitute e x s = Panic PCheck.
Proof. exact @reject_substitute. Qed.
Print Assumptions C77_substitute.
Theorem C77_substitute_map : forall {NN : Num} (e : expr) (sm : submap), expr_check e = false -> expr_substitute_map e sm = Panic PCheck.
Proof. exact @reject_substitute_map. Qed.
Print Assumptions C77_substitute_map.
Theorem C77_at : forall {NN : Num} (i j : Z),
  (forall s, scalar_check s = false -> scalar_at s i j = Panic PCheck) /\ (forall v, vec_check v = false -> vec_at v i j = Panic PCheck) /\ (forall m, mat_check m = false -> mat_at m i j = Panic PCheck).
Proof. exact @reject_at. Qed.
Print Assumptions C77_at.
Theorem C77_linear_coeff : forall {NN : Num} (w : list (list var)),
  (forall s, scalar_check s = false -> scalar_linear_coeff s w = Panic PCheck) /\ (forall v, vec_check v = false -> vec_linear_coeff v w = Panic PCheck).
Proof. exact @reject_linear_coeff. Qed.
Print Assumptions C77_linear_coeff.
(** missing: a Variable that fails Check is returned as it is (C77_receiver_refuted) *)
Theorem C77_transpose_partial : forall {NN : Num} (e : expr), expr_check e = false -> (forall v, e <> ES (SV v)) -> expr_transpose e = Panic PCheck.
Proof. exact @reject_transpose. Qed.
Print Assumptions C77_transpose_partial.
(** missing: variables and arrays of variables, which are not tested (C77_variables_unchecked) *)
Theorem C77_simplified_partial : forall {NN : Num} (e : expr), expr_check e = false -> of_variables e = false -> expr_simplified e = Panic PCheck.
Proof. exact @reject_simplified. Qed.
Print Assumptions C77_simplified_partial.
(** missing: variables and arrays of variables, which are not tested (C77_variables_unchecked) *)
Theorem C77_degree_partial : forall {NN : Num} (e : expr), expr_check e = false -> of_variables e = false -> expr_degree e = Panic PCheck /\ expr_is_linear e = Panic PCheck.
Proof. exact @reject_degree. Qed.
Print Assumptions C77_degree_partial.
(** missing: Variable, Monomial and VariableVector, which are not tested *)
Theorem C77_constant_partial : forall {NN : Num},
  (forall p, poly_check p = false -> scalar_constant (SP p) = Panic PCheck) /\ (forall v, vec_check v = false -> of_variables (EV v) = false -> vec_constant v = Panic PCheck)
  /\ (forall m, mat_check m = false -> mat_constant m = Panic PCheck).
Proof. exact @reject_constant. Qed.
Print Assumptions C77_constant_partial.
(** missing: scalars, VariableVector and PolynomialVector, which are not tested *)
Theorem C77_variables_partial : forall {NN : Num},
  (forall l, vec_check (VM l) = false -> vec_variables (VM l) = Panic PCheck) /\ (forall m, mat_check m = false -> mat_variables m = Panic PCheck).
Proof. exact @reject_variables. Qed.
Print Assumptions C77_variables_partial.
Example C77_receiver_nonvacuous (NN := QNum) : expr_check (ES (SV rj_var)) = false /\ expr_check (ES (SM rj_mono)) = false /\ expr_check (ES (SP [])) = false /\ expr_check (EV rj_vec) = false
  /\ expr_check (EV (VV [wx; rj_var])) = false /\ expr_check (EM rj_mat) = false /\ of_variables (EM rj_mat) = false /\ of_variables (EV rj_vec) = false.
Proof. exact wit_reject. Qed.

(** whatever the variables are, valid or not *)
Theorem C77_variables_unchecked : forall {NN : Num} (e : expr), of_variables e = true -> expr_simplified e = Ok e /\ expr_degree e = Ok 1%Z.
Proof. exact @variables_unchecked. Qed.
Print Assumptions C77_variables_unchecked.
Theorem C77_receiver_refuted : forall NN : Num, NN = F64Num \/ NN = QNum -> exists (e : expr) (m : Monomial),
  expr_check e = false /\ expr_degree e = Ok 1%Z /\ expr_simplified e = Ok e /\ expr_transpose e = Ok e /\ mono_check m = false /\ exists c, scalar_constant (SM m) = Ok c.
Proof. exact reject_refuted. Qed.
Print Assumptions C77_receiver_refuted.

(** an argument fails Check *)
Theorem C77_substitute_argument : forall {NN : Num} (e : expr) (x : var) (s : scalar), of_constants e = false -> var_check x = false \/ scalar_check s = false -> expr_substitute e x s = Panic PCheck.
Proof. exact @reject_argument. Qed.
Print Assumptions C77_substitute_argument.
Theorem C77_substitute_map_argument : forall {NN : Num} (e : expr) (sm : submap), of_constants e = false -> faulty_map sm -> expr_substitute_map e sm = Panic PCheck.
Proof. exact @reject_map. Qed.
Print Assumptions C77_substitute_map_argument.
(** constants take any argument *)
Theorem C77_constants_ignore : forall {NN : Num} (e : expr) (x : var) (s : scalar) (sm : submap), of_constants e = true -> expr_substitute e x s = Ok e /\ expr_substitute_map e sm = Ok e.
Proof. exact @constants_ignore. Qed.
Print Assumptions C77_constants_ignore.
(** the receiver or the variable of differentiation fails Check *)
Theorem C77_derivative : forall {NN : Num} (s : scalar) (v : var), scalar_check s = false \/ (forall k, s <> SK k) /\ var_check v = false -> scalar_derivative s v = Panic PCheck.
Proof. exact @reject_derivative. Qed.
Print Assumptions C77_derivative.
Example C77_argument_nonvacuous (NN := QNum) : of_constants (ES w_cubic) = false /\ var_check rj_var = false /\ scalar_check (SM rj_mono) = false /\ faulty_map [(wx, ES w_lin); (wy, ES (SM rj_mono))]
  /\ faulty_map [(wx, EV (VV [wx]))] /\ faulty_map [(rj_var, ES w_lin)].
Proof. exact wit_reject_argument. Qed.

(** ** C77 tests and searches: IsConstant, IsZero, ToVariable, IsDegreeOneContainingVariable, IsVariable, MatchesFormOf, ConstantMonomialIndex, VariableMonomialIndex, MonomialIndex, AtVec, Len *)
Theorem C77_monomial_tests : forall {NN : Num} (m : Monomial), mono_check m = false ->
  mono_is_constant m = Panic PCheck /\ mono_is_zero m = Panic PCheck /\ mono_to_variable m = Panic PCheck
  /\ (forall v, mono_is_degree_one_in m v = Panic PCheck /\ mono_is_variable m v = Panic PCheck) /\ (forall m', mono_matches_form m m' = Panic PCheck /\ mono_matches_form m' m = Panic PCheck)
  /\ (forall p, poly_monomial_index p m = Panic PCheck).
Proof. exact @reject_monomial_tests. Qed.
Print Assumptions C77_monomial_tests.
Theorem C77_variable_tests : forall {NN : Num} (v : var), var_check v = false ->
  (forall m, mono_is_degree_one_in m v = Panic PCheck /\ mono_is_variable m v = Panic PCheck) /\ (forall p, poly_variable_index p v = Panic PCheck).
Proof. exact @reject_variable_tests. Qed.
Print Assumptions C77_variable_tests.
Theorem C77_polynomial_tests : forall {NN : Num} (p : Polynomial), poly_check p = false ->
  poly_is_constant p = Panic PCheck /\ poly_constant_index p = Panic PCheck /\ (forall v, poly_variable_index p v = Panic PCheck) /\ (forall m, poly_monomial_index p m = Panic PCheck).
Proof. exact @reject_polynomial_tests. Qed.
Print Assumptions C77_polynomial_tests.
(** missing: VariableVector.AtVec and Len of VariableVector and MonomialVector, which do not test *)
Theorem C77_vector_access_partial : forall {NN : Num} (v : vector), vec_check v = false -> of_variables (EV v) = false ->
  (forall i, vec_at_vec v i = Panic PCheck) /\ (forall l, v = VP l -> vec_len v = Panic PCheck).
Proof. exact @reject_vector_access. Qed.
Print Assumptions C77_vector_access_partial.
Example C77_tests_nonvacuous (NN := QNum) : var_check rj_var = false /\ mono_check rj_mono = false /\ poly_check [mkMono n1 [1%Z] [wx]; rj_mono] = false /\ vec_check (VP [[mkMono n1 [1%Z] [wx]]; []]) = false.
Proof. exact wit_reject_tests. Qed.

(** with memory: a rejected call leaves every slice as it was *)
Theorem C77_derivative_heap : forall {NN : Num} {RT : Runtime} (s : hscalar) (v : var) (h : heap),
  scalar_check (rd h s) = false \/ (forall k, s <> HK k) /\ var_check v = false -> h_derivative s v h = (Panic PCheck, h).
Proof. exact @hreject_derivative. Qed.
Print Assumptions C77_derivative_heap.
Theorem C77_substitute_heap : forall {NN : Num} {RT : Runtime} (s e : hscalar) (v : var) (h : heap),
  scalar_check (rd h s) = false \/ (forall k, s <> HK k) /\ (var_check v = false \/ scalar_check (rd h e) = false) -> h_substitute s v e h = (Panic PCheck, h).
Proof. exact @hreject_substitute. Qed.
Print Assumptions C77_substitute_heap.
Theorem C77_minus_power_heap : forall {NN : Num} {RT : Runtime} (s r : hscalar) (n : Z) (h : heap),
  (scalar_check (rd h s) = false \/ scalar_check (rd h r) = false -> h_minus s r h = (Panic PCheck, h)) /\ (scalar_check (rd h s) = false -> h_power s n h = (Panic PCheck, h)).
Proof. exact @hreject_minus_power. Qed.
Print Assumptions C77_minus_power_heap.
Theorem C77_derivative_monomial_vector : forall {NN : Num} {RT : Runtime} (l : slice) (v : var) (h : heap), vec_check (rd_vec h (HVM l)) = false -> h_monovec_derivative l v h = (Panic PCheck, h).
Proof. exact @hreject_monovec. Qed.
Print Assumptions C77_derivative_monomial_vector.
Theorem C77_derivative_monomial_matrix : forall {NN : Num} {RT : Runtime} (l : list slice) (v : var) (h : heap),
  mat_check (MM (map (fun r => map (rd_mono h) (view (hm h) r)) l)) = false \/ var_check v = false -> h_monomat_derivative l v h = (Panic PCheck, h).
Proof. exact @hreject_monomat. Qed.
Print Assumptions C77_derivative_monomial_matrix.
Theorem C77_derivative_polynomial_matrix : forall {NN : Num} {RT : Runtime} (l : list slice) (v : var) (h : heap),
  mat_check (MP (map (fun r => map (rd_poly h) (view (hp h) r)) l)) = false \/ var_check v = false -> h_polymat_derivative l v h = (Panic PCheck, h).
Proof. exact @hreject_polymat. Qed.
Print Assumptions C77_derivative_polynomial_matrix.
(** missing: the variable given to VariableMatrix.DerivativeWrt, which is not tested *)
Theorem C77_derivative_variables_partial : forall {NN : Num} (x : var),
  (forall l, vec_check (VV l) = false \/ var_check x = false -> var_vec_derivative l x = Panic PCheck) /\ (forall l, mat_check (MV l) = false -> var_mat_derivative l x = Panic PCheck).
Proof. exact @reject_var_arrays. Qed.
Print Assumptions C77_derivative_variables_partial.
Example C77_heap_nonvacuous (NN := QNum) : let s := mkSlice 0 0 1 1 in
  scalar_check (rd rj_h (HM (mkHM n1 s (mkSlice 0 0 2 2)))) = false /\ scalar_check (rd rj_h (HP s)) = false /\ scalar_check (rd rj_h (HP (mkSlice 0 0 0 0))) = false
  /\ vec_check (rd_vec rj_h (HVM s)) = false /\ mat_check (MM (map (fun r => map (rd_mono rj_h) (view (hm rj_h) r)) [s])) = false
  /\ mat_check (MP (map (fun r => map (rd_poly rj_h) (view (hp rj_h) r)) [s])) = false /\ vec_check (VV [wx; rj_var]) = false /\ mat_check (MV [[wx]; [wx; wy]]) = false.
Proof. exact wit_reject_heap. Qed.

(** ** C77 arithmetic and comparisons: C47 says that they do not return, this is the error they panic with *)
Theorem C77_arithmetic_receiver : forall {NN : Num} (a : expr) (g : goval) (z : Z) (s : sense), expr_check a = false ->
  expr_plus a g = Panic PCheck /\ expr_minus a g = Panic PCheck /\ expr_mul a g = Panic PCheck /\ expr_power a z = Panic PCheck /\ expr_comparison a g s = Panic PCheck.
Proof. exact @reject_receiver. Qed.
Print Assumptions C77_arithmetic_receiver.
(** missing: two Variables (C47_operand_refuted); a matrix added to a Variable is not looked at, its type is not implemented *)
Theorem C77_arithmetic_operand_partial : forall {NN : Num} (a b : expr) (s : sense), expr_check b = false ->
  (both_variables a b <> true -> expr_plus a (GExpr b) = Panic (match a, b with ES (SV v), EM _ => if var_check v then PUnsupported else PCheck | _, _ => PCheck end))
  /\ expr_minus a (GExpr b) = Panic PCheck /\ expr_mul a (GExpr b) = Panic PCheck /\ expr_comparison a (GExpr b) s = Panic PCheck.
Proof. exact @reject_operand. Qed.
Print Assumptions C77_arithmetic_operand_partial.
Example C77_arithmetic_nonvacuous (NN := QNum) : expr_check (ES (SV rj_var)) = false /\ expr_check (EM rj_mat) = false /\ both_variables (ES (SV wx)) (EM rj_mat) <> true /\ expr_check (ES (SV wx)) = true.
Proof. exact wit_reject_arith. Qed.

(** with memory: a rejected Plus, Minus, Multiply or Power of scalars, vectors and matrices leaves every slice as it was *)
Theorem C77_arithmetic_receiver_heap : forall {NN : Num} {RT : Runtime} (a : aexpr) (g : aval) (z : Z) (h : heap), expr_check (rd_aexpr h a) = false ->
  aexpr_plus a g h = (Panic PCheck, h) /\ aexpr_minus a g h = (Panic PCheck, h) /\ aexpr_mul a g h = (Panic PCheck, h) /\ aexpr_power a z h = (Panic PCheck, h).
Proof. exact @hreject_receiver. Qed.
Print Assumptions C77_arithmetic_receiver_heap.
(** missing: Plus of a Variable, which is the next theorem *)
Theorem C77_arithmetic_operand_heap_partial : forall {NN : Num} {RT : Runtime} (a b : aexpr) (h : heap), expr_check (rd_aexpr h b) = false ->
  ((forall v, a <> AES (HV v)) -> aexpr_plus a (AExpr b) h = (Panic PCheck, h)) /\ aexpr_minus a (AExpr b) h = (Panic PCheck, h) /\ aexpr_mul a (AExpr b) h = (Panic PCheck, h).
Proof. exact @hreject_operand. Qed.
Print Assumptions C77_arithmetic_operand_heap_partial.
(** missing: two Variables (C47_operand_refuted); for a matrix the error is that of its type *)
Theorem C77_variable_operand_heap_partial : forall {NN : Num} {RT : Runtime} (v : var) (b : aexpr) (h : heap), expr_check (rd_aexpr h b) = false ->
  match b with
  | AES (HV _) => True
  | AEM _ => exists p, aexpr_plus (AES (HV v)) (AExpr b) h = (Panic p, h)
  | _ => aexpr_plus (AES (HV v)) (AExpr b) h = (Panic PCheck, h)
  end.
Proof. exact @hreject_operand_variable. Qed.
Print Assumptions C77_variable_operand_heap_partial.
(** a Monomial with one exponent and two variables, a Polynomial, a vector and a matrix that contain it, a Variable *)
Example C77_arithmetic_heap_nonvacuous (NN := QNum) : let s := mkSlice 0 0 1 1 in let m := mkHM n1 s (mkSlice 0 0 2 2) in
  expr_check (rd_aexpr rj_h (AES (HM m))) = false /\ expr_check (rd_aexpr rj_h (AES (HP s))) = false /\ expr_check (rd_aexpr rj_h (AEV (AVM [m; m]))) = false
  /\ expr_check (rd_aexpr rj_h (AEM (AMP [[s]]))) = false /\ expr_check (rd_aexpr rj_h (AES (HV rj_var))) = false.
Proof. exact wit_arith_heap. Qed.
