(** * Properties of new variables, conversions, type tests, constants and equal functions *)

From Coq Require Import ZArith NArith Bool List Permutation.
From Verif Require Import Num Syntax ModelScalar Spec SpecProg Programs ModelShape ModelArith SpecArr Witness ScalarWit ArrWit ModelEnv SpecEnv ModelConv SpecConv Canon ConvProofs ConvWit.
Import ListNotations.
Local Open Scope num_scope.

(** ** C54 new variables *)

Theorem C54_continuous : forall {NN : Num} (st : store) (envs : list N) (e : N), asked envs e -> exists v st', run_call st (NewContinuous envs) = ([v], st') /\ is_continuous v
  /\ v_env v = Some e /\ v_name v = index_name (length (st e))
  /\ (exists w, In w (st' e) /\ v_id w = v_id v) /\ incl (st e) (st' e) /\ (forall a, a <> e -> st' a = st a).
Proof. exact @continuous_facts. Qed.
Print Assumptions C54_continuous.
Theorem C54_binary : forall {NN : Num} (st : store) (envs : list N) (e : N), asked envs e -> exists v st', run_call st (NewBinary envs) = ([v], st') /\ is_binary v
  /\ v_env v = Some e /\ v_name v = index_name (length (st e))
  /\ (exists w, In w (st' e) /\ v_id w = v_id v) /\ incl (st e) (st' e) /\ (forall a, a <> e -> st' a = st a).
Proof. exact @binary_facts. Qed.
Print Assumptions C54_binary.
Theorem C54_arrays : forall {NN : Num} (st : store) (envs : list N) (e : N) (v : var), asked envs e ->
  (forall n, In v (fst (run_call st (NewVector n envs))) -> is_continuous v /\ v_env v = Some e)
  /\ (forall r c, In v (fst (run_call st (NewMatrix r c envs))) -> is_continuous v /\ v_env v = Some e).
Proof. exact @array_variables_facts. Qed.
Print Assumptions C54_arrays.
(** every variable of every history is accepted by Check *)
Theorem C54_valid : forall {NN : Num} (cs : list call) (v : var), ExactNum NN \/ NN = F64Num -> In v (fst (run_calls empty_store cs)) -> valid_var v.
Proof. exact @history_valid. Qed.
Print Assumptions C54_valid.
Example C54_nonvacuous (NN := QNum) : asked [] 0 /\ asked [3%N] 3 /\ fst (run_calls empty_store [NewBinary [3%N]; NewVector 2 []]) = [binary 0 3; continuous 0 0; continuous 1 0].
Proof. exact wit_asked. Qed.

(** two environments are accepted, and neither is used *)
Theorem C54_two_environments_refuted : forall (NN : Num), exists (envs : list N) (v : var) (st : store),
  run_call empty_store (NewContinuous envs) = ([v], st) /\ envs <> [] /\ v_env v = Some 0%N /\ ~ In 0%N envs.
Proof. exact two_environments_refuted. Qed.
Print Assumptions C54_two_environments_refuted.

(** ** C55 derivatives of vectors and matrices of constants and variables *)

Theorem C55_constant_vector : forall {NN : Num} (d : nat * nat) (x : var) (l : list num), valid_var x -> valid_array d (EV (VK l)) -> exists l', k_vec_derivative l = Ok l' /\ unit_array d x (EV (VK l)) (EV (VK l'))
  /\ (ExactNum NN -> rates d (v_id x) (EV (VK l)) (EV (VK l'))).
Proof. exact @k_vec_derivative_units. Qed.
Print Assumptions C55_constant_vector.
Theorem C55_variable_vector : forall {NN : Num} (d : nat * nat) (x : var) (l : list var), valid_var x -> valid_array d (EV (VV l)) -> exists l', var_vec_derivative l x = Ok l' /\ unit_array d x (EV (VV l)) (EV (VK l'))
  /\ (ExactNum NN -> rates d (v_id x) (EV (VV l)) (EV (VK l'))).
Proof. exact @var_vec_derivative_units. Qed.
Print Assumptions C55_variable_vector.
Theorem C55_constant_matrix : forall {NN : Num} (d : nat * nat) (x : var) (l : list (list num)), valid_var x -> valid_array d (EM (MK l)) -> exists l', k_mat_derivative l = Ok l' /\ unit_array d x (EM (MK l)) (EM (MK l'))
  /\ (ExactNum NN -> rates d (v_id x) (EM (MK l)) (EM (MK l'))).
Proof. exact @k_mat_derivative_units. Qed.
Print Assumptions C55_constant_matrix.
Theorem C55_variable_matrix : forall {NN : Num} (d : nat * nat) (x : var) (l : list (list var)), valid_var x -> valid_array d (EM (MV l)) -> exists l', var_mat_derivative l x = Ok l' /\ unit_array d x (EM (MV l)) (EM (MK l'))
  /\ (ExactNum NN -> rates d (v_id x) (EM (MV l)) (EM (MK l'))).
Proof. exact @var_mat_derivative_units. Qed.
Print Assumptions C55_variable_matrix.
Example C55_nonvacuous (NN := QNum) : valid_var wx /\ valid_array (2, 1) (EV (VK [nofZ 2; nofZ 3])) /\ valid_array (2, 1) (EV (VV [wx; wy])) /\ valid_array (2, 2) (EM (MK [[nofZ 1; nofZ 2]; [nofZ 3; nofZ 4]]))
  /\ valid_array (2, 2) (EM (MV [[wx; wy]; [wz; wx]])) /\ var_mat_derivative [[wx; wy]; [wz; wx]] wx = Ok [[n1; n0]; [n0; n1]].
Proof. exact wit_array_derivatives. Qed.

(** ** C56 conversions between types *)

Theorem C56_vectors : forall {NN : Num} (n : nat), 
  (forall l, valid_array (n, 1) (EV (VK l)) -> exists m, k_vec_to_monos l = Ok m /\ converted (n, 1) (EV (VK l)) (EV (VM m)))
  /\ (forall l, valid_array (n, 1) (EV (VK l)) -> exists p, k_vec_to_polys l = Ok p /\ converted (n, 1) (EV (VK l)) (EV (VP p)))
  /\ (forall l, valid_array (n, 1) (EV (VV l)) -> exists m, var_vec_to_monos l = Ok m /\ converted (n, 1) (EV (VV l)) (EV (VM m)))
  /\ (forall l, valid_array (n, 1) (EV (VV l)) -> exists p, var_vec_to_polys l = Ok p /\ converted (n, 1) (EV (VV l)) (EV (VP p)))
  /\ (forall l, valid_array (n, 1) (EV (VM l)) -> exists p, mono_vec_to_polys l = Ok p /\ converted (n, 1) (EV (VM l)) (EV (VP p))).
Proof. exact @vector_conversions. Qed.
Print Assumptions C56_vectors.
Theorem C56_matrices : forall {NN : Num} (d : nat * nat), 
  (forall l, valid_array d (EM (MK l)) -> exists m, k_mat_to_monos l = Ok m /\ converted d (EM (MK l)) (EM (MM m)))
  /\ (forall l, valid_array d (EM (MK l)) -> exists p, k_mat_to_polys l = Ok p /\ converted d (EM (MK l)) (EM (MP p)))
  /\ (forall l, valid_array d (EM (MV l)) -> exists m, var_mat_to_monos l = Ok m /\ converted d (EM (MV l)) (EM (MM m)))
  /\ (forall l, valid_array d (EM (MV l)) -> exists p, var_mat_to_polys l = Ok p /\ converted d (EM (MV l)) (EM (MP p))).
Proof. exact @matrix_conversions. Qed.
Print Assumptions C56_matrices.
Theorem C56_value : forall {NN : Num} (d : nat * nat) (e e' : expr), ExactNum NN -> converted d e e' -> forall r i j, i < fst d -> j < snd d -> value r e' i j = value r e i j.
Proof. exact @converted_value. Qed.
Print Assumptions C56_value.
Example C56_nonvacuous (NN := QNum) : valid_array (2, 1) (EV (VK [nofZ 2; nofZ 3])) /\ valid_array (2, 1) (EV (VV [wx; wy])) /\ valid_array (2, 1) (EV (VM [mkMono (nofZ 2) [2%Z] [wx]; mkMono n1 [] []]))
  /\ valid_array (2, 3) (EM (MK [[nofZ 1; nofZ 2; nofZ 3]; [nofZ 4; nofZ 5; nofZ 6]])) /\ valid_array (2, 2) (EM (MV [[wx; wy]; [wz; wx]])).
Proof. exact wit_conversions. Qed.

Theorem C56_numeric : forall {NN : Num}, 
  (forall l, l <> [] -> k_to_vec_dense l = Ok l) /\ (k_to_vec_dense [] = Panic PGonum) /\ (forall l, vec_dense_to_k l = Ok l)
  /\ (forall d l, length l = fst d -> Forall (fun row => length row = snd d) l -> dense_to_k d l = Ok l).
Proof. exact @dense_round_trips. Qed.
Print Assumptions C56_numeric.
Theorem C56_copy : forall {NN : Num} (l : list var), var_vec_copy l = Ok l.
Proof. exact @variable_copy. Qed.
Print Assumptions C56_copy.
Theorem C56_square : forall {NN : Num} (d : nat * nat) (m : matrix), valid_array d (EM m) -> is_square m = Ok (Nat.eqb (fst d) (snd d)).
Proof. exact @square_test. Qed.
Print Assumptions C56_square.
(** a KMatrix whose rows differ in length passes Check; its conversion loses an entry *)
Theorem C56_ragged_refuted : forall (NN : Num), exists (l : list (list num)) (l' : list (list Monomial)),
  mat_check (MK l) = true /\ k_mat_to_monos l = Ok l' /\ length (concat l) = 3 /\ length (concat l') = 2.
Proof. exact ragged_refuted. Qed.
Print Assumptions C56_ragged_refuted.
Theorem C56_ragged_panic_refuted : forall (NN : Num), exists (l : list (list num)) (p : panic), mat_check (MK l) = true /\ k_mat_to_monos l = Panic p.
Proof. exact ragged_panic_refuted. Qed.
Print Assumptions C56_ragged_panic_refuted.
Theorem C56_empty_refuted : forall (NN : Num), exists (l : list num) (p : panic), vec_check (VK l) = true /\ k_vec_to_polys l = Panic p.
Proof. exact empty_vector_refuted. Qed.
Print Assumptions C56_empty_refuted.

(** ** C57 recognition of types *)

Theorem C57_scalar : forall {NN : Num} (g : goval) (s : scalar), to_scalar_expression g = (s, true) <-> means g = Some (ES s) /\ ~ is_int g.
Proof. exact @scalar_type. Qed.
Print Assumptions C57_scalar.
Theorem C57_vector : forall {NN : Num} (g : goval) (v : vector), to_vector_expression g = (v, true) <-> means g = Some (EV v).
Proof. exact @vector_type. Qed.
Print Assumptions C57_vector.
Theorem C57_matrix : forall {NN : Num} (g : goval) (m : matrix), to_matrix_expression g = (m, true) <-> means g = Some (EM m).
Proof. exact @matrix_type. Qed.
Print Assumptions C57_matrix.
Theorem C57_polynomial_like : forall {NN : Num} (g : goval) (e : expr), to_polynomial_like g = Ok (e, true) <-> means g = Some e /\ ~ is_int g /\ ~ is_pointer g.
Proof. exact @polynomial_like_type. Qed.
Print Assumptions C57_polynomial_like.
(** a test succeeds exactly if the conversion does *)
Theorem C57_tests : forall {NN : Num} (g : goval), is_scalar_expression g = snd (to_scalar_expression g) /\ is_vector_expression g = snd (to_vector_expression g)
  /\ is_matrix_expression g = snd (to_matrix_expression g) /\ is_polynomial_like_scalar g = snd (to_polynomial_like_scalar g)
  /\ is_polynomial_like_vector g = snd (to_polynomial_like_vector g) /\ is_polynomial_like_matrix g = snd (to_polynomial_like_matrix g).
Proof. exact @type_tests. Qed.
Print Assumptions C57_tests.
Theorem C57_polynomial_like_test : forall {NN : Num} (g : goval), is_polynomial_like g = true <-> exists e, to_polynomial_like g = Ok (e, true).
Proof. exact @polynomial_like_test. Qed.
Print Assumptions C57_polynomial_like_test.
Theorem C57_failure : forall {NN : Num} (g : goval), (snd (to_scalar_expression g) = false -> fst (to_scalar_expression g) = SK n1)
  /\ (snd (to_vector_expression g) = false -> fst (to_vector_expression g) = VK [n1])
  /\ (snd (to_matrix_expression g) = false -> fst (to_matrix_expression g) = MK [[n0]]).
Proof. exact @failed_types. Qed.
Print Assumptions C57_failure.
Example C57_nonvacuous (NN := QNum) : to_scalar_expression (GFloat (nofZ 2)) = (SK (nofZ 2), true) /\ to_vector_expression (GVecP [nofZ 2]) = (VK [nofZ 2], true) /\ to_matrix_expression (GExpr w_vm) = (MV [[wx; wy]; [wz; wx]], true)
  /\ to_polynomial_like (GExpr (ES (SV wx))) = Ok (ES (SV wx), true) /\ to_polynomial_like (GInt 3) = Panic PUnsupported.
Proof. exact wit_types. Qed.

(** the error result of ToPolynomialLike is never used: what it does not recognise makes it panic *)
Theorem C57_polynomial_like_panics : forall {NN : Num} (g : goval), is_polynomial_like g = false -> to_polynomial_like g = Panic PUnsupported.
Proof. exact @polynomial_like_panics. Qed.
Print Assumptions C57_polynomial_like_panics.
(** a pointer to a mat.VecDense is a vector expression but makes ToPolynomialLike panic *)
Theorem C57_polynomial_like_refuted : forall (NN : Num), exists (g : goval) (e : expr),
  means g = Some e /\ is_vector_expression g = true /\ to_polynomial_like g = Panic PUnsupported.
Proof. exact polynomial_like_refuted. Qed.
Print Assumptions C57_polynomial_like_refuted.
(** an int is an operand of the arithmetic but not a scalar expression *)
Theorem C57_int_refuted : forall (NN : Num), exists (g : goval) (s : scalar), means g = Some (ES s) /\ snd (to_scalar_expression g) = false.
Proof. exact int_refuted. Qed.
Print Assumptions C57_int_refuted.

(** ** C58 constants *)

Theorem C58_monomial : forall {NN : Num} (m : Monomial), valid_mono m -> exists b, mono_is_constant m = Ok b /\ (b = true <-> forall i, ~ occurs i (SM m)).
Proof. exact @mono_constant_test. Qed.
Print Assumptions C58_monomial.
Theorem C58_polynomial : forall {NN : Num} (p : Polynomial), valid_poly p -> exists b, poly_is_constant p = Ok b /\ (b = true <-> forall i, ~ occurs i (SP p)).
Proof. exact @poly_constant_test. Qed.
Print Assumptions C58_polynomial.
Theorem C58_vectors : forall {NN : Num} (n : nat), 
  (forall l, valid_array (n, 1) (EV (VM l)) -> exists b, mono_vec_is_constant l = Ok b /\ (b = true <-> forall i x, i < n -> ~ occurs x (entry (EV (VM l)) i 0)))
  /\ (forall l, valid_array (n, 1) (EV (VP l)) -> exists b, poly_vec_is_constant l = Ok b /\ (b = true <-> forall i x, i < n -> ~ occurs x (entry (EV (VP l)) i 0))).
Proof. exact @vector_constant_tests. Qed.
Print Assumptions C58_vectors.
Example C58_nonvacuous (NN := QNum) : valid_mono (mkMono (nofZ 2) [2%Z] [wx]) /\ valid_poly (w_poly w_lin) /\ valid_array (2, 1) (EV (VP [w_poly w_lin; [mkMono (nofZ 5) [] []]])) /\ poly_is_constant [mkMono (nofZ 5) [] []] = Ok true
  /\ poly_is_constant (w_poly w_lin) = Ok false.
Proof. exact wit_constant. Qed.

(** what is reported as constant is constant *)
Theorem C58_no_variables : forall {NN : Num} (s : scalar), (forall i, ~ occurs i s) -> constant_function s.
Proof. exact @no_variables_constant. Qed.
Print Assumptions C58_no_variables.
(** missing: zero coefficients and uncollected terms, for which a constant function has variables (C58_constant_refuted) *)
Theorem C58_constant_partial : forall {NN : Num} (s : scalar), ExactNum NN -> valid s -> different_powers s -> (forall m, In m (terms s) -> m_coeff m <> n0) ->
  (constant_function s <-> forall i, ~ occurs i s).
Proof. exact @constant_terms. Qed.
Print Assumptions C58_constant_partial.
(** an expression is a constant function exactly if simplification gives a constant; missing: terms with factors listed in different orders (C60_difference_refuted) *)
Theorem C58_simplified_partial : forall {NN : Num} {EX : ExactNum NN} (a : scalar), valid a -> unambiguous (fun m => In m (terms a)) -> uniquely_listed (fun m => In m (terms a)) ->
  exists s, scalar_simplified a = Ok s /\ (constant_function a <-> exists k, s = SK k).
Proof. exact @constant_simplified. Qed.
Print Assumptions C58_simplified_partial.
(** missing: degree above two *)
Theorem C58_simplified_degree2_partial : forall {NN : Num} {EX : ExactNum NN} (a : scalar), valid a -> degree_at_most 2 a -> exists s, scalar_simplified a = Ok s /\ (constant_function a <-> exists k, s = SK k).
Proof. exact @constant_degree2. Qed.
Print Assumptions C58_simplified_degree2_partial.
Example C58_constant_nonvacuous (NN := QNum) : valid w_lin /\ different_powers w_lin /\ (forall m, In m (terms w_lin) -> m_coeff m <> n0) /\ degree_at_most 2 w_lin.
Proof. exact wit_constant_terms. Qed.

Theorem C58_constant_refuted : forall NN, NN = QNum -> exists (m : Monomial) (p : Polynomial), valid_mono m /\ valid_poly p /\ mono_is_constant m = Ok false /\ poly_is_constant p = Ok false
  /\ constant_function (SM m) /\ constant_function (SP p).
Proof. exact constant_refuted. Qed.
Print Assumptions C58_constant_refuted.

(** ** C60 expressions that are equal as functions *)

(** two expressions have the same values everywhere exactly if every product of powers has the same total coefficient in both *)
Theorem C60_functions : forall {NN : Num} {EX : ExactNum NN} (s t : scalar), valid s -> valid t -> (same_function s t <-> forall m, valid_mono m -> coefficient m s = coefficient m t).
Proof. exact @functions_determined. Qed.
Print Assumptions C60_functions.
(** missing: expressions with terms that look alike (C06) or list the same factors in different orders (C60_difference_refuted) *)
Theorem C60_canonical_partial : forall {NN : Num} {EX : ExactNum NN} (a b : scalar), valid a -> valid b ->
  unambiguous (fun m => In m (terms a)) -> unambiguous (fun m => In m (terms b)) ->
  uniquely_listed (fun m => In m (terms a)) -> uniquely_listed (fun m => In m (terms b)) ->
  exists s t, scalar_simplified a = Ok s /\ scalar_simplified b = Ok t /\ (same_function a b <-> same_multiples (terms s) (terms t)).
Proof. exact @simplify_canonical. Qed.
Print Assumptions C60_canonical_partial.
(** missing: degree above two *)
Theorem C60_canonical_degree2_partial : forall {NN : Num} {EX : ExactNum NN} (a b : scalar), valid a -> valid b -> degree_at_most 2 a -> degree_at_most 2 b ->
  exists s t, scalar_simplified a = Ok s /\ scalar_simplified b = Ok t /\ (same_function a b <-> same_multiples (terms s) (terms t)).
Proof. exact @canonical_degree2. Qed.
Print Assumptions C60_canonical_degree2_partial.
(** missing: degree above two in several variables *)
Theorem C60_canonical_one_variable_partial : forall {NN : Num} {EX : ExactNum NN} (x : N) (a b : scalar), valid a -> valid b -> only_variable x a -> only_variable x b ->
  exists s t, scalar_simplified a = Ok s /\ scalar_simplified b = Ok t /\ (same_function a b <-> same_multiples (terms s) (terms t)).
Proof. exact @canonical_one_variable. Qed.
Print Assumptions C60_canonical_one_variable_partial.
(** missing: the same expressions as above *)
Theorem C60_difference_partial : forall {NN : Num} {EX : ExactNum NN} (a b : scalar), valid a -> valid b -> unambiguous (in_either a b) -> uniquely_listed (in_either a b) ->
  exists s, scalar_minus a b = Ok s /\ (same_function a b <-> s = SK n0).
Proof. exact @difference_zero. Qed.
Print Assumptions C60_difference_partial.
(** missing: degree above two *)
Theorem C60_difference_degree2_partial : forall {NN : Num} {EX : ExactNum NN} (a b : scalar), valid a -> valid b -> degree_at_most 2 a -> degree_at_most 2 b ->
  exists s, scalar_minus a b = Ok s /\ (same_function a b <-> s = SK n0).
Proof. exact @difference_degree2. Qed.
Print Assumptions C60_difference_degree2_partial.
(** missing: degree above two in several variables *)
Theorem C60_difference_one_variable_partial : forall {NN : Num} {EX : ExactNum NN} (x : N) (a b : scalar), valid a -> valid b -> only_variable x a -> only_variable x b ->
  exists s, scalar_minus a b = Ok s /\ (same_function a b <-> s = SK n0).
Proof. exact @difference_one_variable. Qed.
Print Assumptions C60_difference_one_variable_partial.
(** missing: terms whose factors are not in the order of the IDs *)
Theorem C60_difference_sorted_partial : forall {NN : Num} {EX : ExactNum NN} (a b : scalar), valid a -> valid b -> sorted_terms a -> sorted_terms b ->
  exists s, scalar_minus a b = Ok s /\ (same_function a b <-> s = SK n0).
Proof. exact @difference_sorted. Qed.
Print Assumptions C60_difference_sorted_partial.
Example C60_nonvacuous (NN := QNum) : valid w_cubic /\ valid w_cubic2 /\ unambiguous (in_either w_cubic w_cubic2) /\ uniquely_listed (in_either w_cubic w_cubic2) /\ same_function w_twice (SM (mkMono (nofZ 2) [1%Z] [wx])).
Proof. exact wit_listed. Qed.

(** x x y - y x x does not cancel *)
Theorem C60_difference_refuted : forall NN, NN = QNum -> exists (p q : prog) (a b s : scalar), well_formed p /\ well_formed q /\ run p = Ok a /\ run q = Ok b /\ same_function a b
  /\ scalar_minus a b = Ok s /\ length (terms s) = 2.
Proof. exact difference_refuted. Qed.
Print Assumptions C60_difference_refuted.
