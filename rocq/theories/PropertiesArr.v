(** * Properties of vectors and matrices *)

From Coq Require Import ZArith NArith Bool List Permutation.
From Verif Require Import Num Syntax ModelScalar Spec SpecProg ScalarNorm Witness ScalarWit ModelShape ModelArith SpecArr ArrTop ArrPow ArrShape IndexErr ArrMisc ArrSub ArrFacts ArrWit SpecReject Unsupported UnsupWit.
Import ListNotations.
Local Open Scope num_scope.

(** ** C32 sums of vectors and matrices *)

Theorem C32_plus_shape : forall {NN : Num} (a b : expr) (g : goval) (da db d : nat * nat) (e : expr), valid_array da a -> valid_array db b -> means g = Some b ->
  broadcast a b da db d -> expr_plus a g = Ok e -> valid_array d e.
Proof. exact @array_plus_shape. Qed.
Print Assumptions C32_plus_shape.
Example C32_plus_shape_nonvacuous (NN := QNum) : valid_array (1, 1) (ES (SV wx)) /\ valid_array (2, 1) w_mv /\ means (GExpr w_mv) = Some w_mv /\ broadcast (ES (SV wx)) w_mv (1, 1) (2, 1) (2, 1)
  /\ exists e, expr_plus (ES (SV wx)) (GExpr w_mv) = Ok e.
Proof. exact wit_arr_broadcast. Qed.

Theorem C32_plus_mismatch : forall {NN : Num} (a b : expr) (g : goval) (da db : nat * nat), valid_array da a -> valid_array db b -> means g = Some b ->
  da <> db -> da <> (1, 1) -> db <> (1, 1) -> expr_plus a g = Panic PDim.
Proof. exact @array_plus_mismatch. Qed.
Print Assumptions C32_plus_mismatch.
Example C32_plus_mismatch_nonvacuous (NN := QNum) : valid_array (2, 2) w_vm /\ valid_array (2, 3) w_km3 /\ means (GExpr w_km3) = Some w_km3 /\ (2, 2) <> (2, 3) /\ (2, 2) <> (1, 1) /\ (2, 3) <> (1, 1).
Proof. exact wit_arr_mismatch. Qed.

(** missing: terms that look alike (same exponent list, same variables in another order), for which the claim is false (C32_plus_refuted) *)
Theorem C32_plus_value_partial : forall {NN : Num} (a b : expr) (g : goval) (da db d : nat * nat) (e : expr), ExactNum NN -> valid_array da a -> valid_array db b -> means g = Some b ->
  broadcast a b da db d -> unambiguous_exponents (sum_exps a b) -> expr_plus a g = Ok e ->
  forall r i j, i < fst d -> j < snd d -> value r e i j = bvalue r a i j + bvalue r b i j.
Proof. exact @array_plus_value. Qed.
Print Assumptions C32_plus_value_partial.

(** missing: entries of degree above 2 in several variables *)
Theorem C32_plus_degree2_partial : forall {NN : Num} (a b : expr) (g : goval) (da db d : nat * nat) (e : expr), ExactNum NN -> valid_array da a -> valid_array db b -> means g = Some b ->
  broadcast a b da db d -> array_degree 2 a -> array_degree 2 b -> expr_plus a g = Ok e ->
  forall r i j, i < fst d -> j < snd d -> value r e i j = bvalue r a i j + bvalue r b i j.
Proof. exact @array_plus_degree2. Qed.
Print Assumptions C32_plus_degree2_partial.
Example C32_plus_degree2_nonvacuous (NN := QNum) : valid_array (2, 1) w_pv /\ valid_array (2, 1) w_vv /\ means (GExpr w_vv) = Some w_vv /\ broadcast w_pv w_vv (2, 1) (2, 1) (2, 1)
  /\ array_degree 2 w_pv /\ array_degree 2 w_vv /\ plus_accepts w_pv (GExpr w_vv) = true /\ variable_matrix_and_numbers w_pv w_vv = false
  /\ exists e, expr_plus w_pv (GExpr w_vv) = Ok e.
Proof. exact wit_arr_plus. Qed.

Example C32_plus_value_nonvacuous (NN := QNum) : unambiguous_exponents (sum_exps w_pv w_vv).
Proof. exact wit_arr_unambiguous. Qed.

(** missing: entries in several variables *)
Theorem C32_plus_one_variable_partial : forall {NN : Num} (x : N) (a b : expr) (g : goval) (da db d : nat * nat) (e : expr), ExactNum NN -> valid_array da a -> valid_array db b -> means g = Some b ->
  broadcast a b da db d -> array_variable x a -> array_variable x b -> expr_plus a g = Ok e ->
  forall r i j, i < fst d -> j < snd d -> value r e i j = bvalue r a i j + bvalue r b i j.
Proof. exact @array_plus_variable. Qed.
Print Assumptions C32_plus_one_variable_partial.
Example C32_plus_one_variable_nonvacuous (NN := QNum) : valid_array (2, 1) w_uv /\ array_variable 0 w_uv /\ means (GExpr w_uv) = Some w_uv /\ broadcast w_uv w_uv (2, 1) (2, 1) (2, 1)
  /\ exists e, expr_plus w_uv (GExpr w_uv) = Ok e.
Proof. exact wit_arr_variable. Qed.

(** every implemented pair of types returns, except a matrix of variables plus numbers ... *)
Theorem C32_plus_total : forall {NN : Num} (a b : expr) (g : goval) (da db d : nat * nat), valid_array da a -> valid_array db b -> means g = Some b ->
  broadcast a b da db d -> plus_accepts a g = true -> variable_matrix_and_numbers a b = false -> exists e, expr_plus a g = Ok e.
Proof. exact @array_plus_total. Qed.
Print Assumptions C32_plus_total.

(** ... which returns if none of the numbers is 0 *)
Theorem C32_plus_variable_matrix : forall {NN : Num} (a b : expr) (g : goval) (da db d : nat * nat), ExactNum NN -> valid_array da a -> valid_array db b -> means g = Some b ->
  broadcast a b da db d -> plus_accepts a g = true -> variable_matrix_and_numbers a b = true -> no_zero a -> no_zero b -> exists e, expr_plus a g = Ok e.
Proof. exact @array_plus_variable_matrix. Qed.
Print Assumptions C32_plus_variable_matrix.
Example C32_plus_variable_matrix_nonvacuous (NN := QNum) : valid_array (2, 2) w_vm /\ valid_array (2, 2) w_km /\ means (GExpr w_km) = Some w_km /\ broadcast w_vm w_km (2, 2) (2, 2) (2, 2)
  /\ plus_accepts w_vm (GExpr w_km) = true /\ variable_matrix_and_numbers w_vm w_km = true /\ no_zero w_vm /\ no_zero w_km.
Proof. exact wit_arr_vm_numbers. Qed.

Theorem C32_plus_refuted : forall NN, NN = F64Num \/ NN = QNum -> exists (a b : vector) (e : expr) (r : assignment),
  valid_array (2, 1) (EV a) /\ valid_array (2, 1) (EV b) /\ expr_plus (EV a) (GExpr (EV b)) = Ok e
  /\ (value r e 0 0 =? value r (EV a) 0 0 + value r (EV b) 0 0) = false.
Proof. exact array_plus_refuted. Qed.
Print Assumptions C32_plus_refuted.

(** a vector of length 1 plus a vector of length 2: neither the dimension error nor a broadcast *)
Theorem C32_plus_length_refuted : forall NN, NN = F64Num \/ NN = QNum -> exists (a b : vector) (e : expr),
  valid_array (1, 1) (EV a) /\ valid_array (2, 1) (EV b) /\ expr_plus (EV a) (GExpr (EV b)) = Ok e /\ valid_array (1, 1) e.
Proof. exact array_plus_length_refuted. Qed.
Print Assumptions C32_plus_length_refuted.

Theorem C32_plus_zero_refuted : forall NN, NN = F64Num \/ NN = QNum -> exists (a : matrix) (p : panic),
  valid_array (2, 2) (EM a) /\ plus_accepts (EM a) (GFloat n0) = true /\ expr_plus (EM a) (GFloat n0) = Panic p.
Proof. exact array_plus_zero_refuted. Qed.
Print Assumptions C32_plus_zero_refuted.

(** differences *)
Theorem C32_minus_shape : forall {NN : Num} (a b : expr) (g : goval) (da db d : nat * nat) (e : expr), valid_array da a -> valid_array db b -> means g = Some b ->
  broadcast a b da db d -> expr_minus a g = Ok e -> valid_array d e.
Proof. exact @array_minus_shape. Qed.
Print Assumptions C32_minus_shape.
Example C32_minus_shape_nonvacuous (NN := QNum) : valid_array (2, 1) w_pv /\ valid_array (2, 1) w_vv /\ means (GExpr w_vv) = Some w_vv /\ broadcast w_pv w_vv (2, 1) (2, 1) (2, 1)
  /\ array_degree 2 w_pv /\ array_degree 2 w_vv /\ minus_accepts w_pv (GExpr w_vv) = true /\ exists e, expr_minus w_pv (GExpr w_vv) = Ok e.
Proof. exact wit_minus. Qed.

(** missing: terms that look alike *)
Theorem C32_minus_value_partial : forall {NN : Num} (a b : expr) (g : goval) (da db d : nat * nat) (e : expr), ExactNum NN -> valid_array da a -> valid_array db b -> means g = Some b ->
  broadcast a b da db d -> unambiguous_exponents (sum_exps a b) -> expr_minus a g = Ok e ->
  forall r i j, i < fst d -> j < snd d -> value r e i j = bvalue r a i j - bvalue r b i j.
Proof. exact @array_minus_value. Qed.
Print Assumptions C32_minus_value_partial.

(** missing: entries of degree above 2 in several variables *)
Theorem C32_minus_degree2_partial : forall {NN : Num} (a b : expr) (g : goval) (da db d : nat * nat) (e : expr), ExactNum NN -> valid_array da a -> valid_array db b -> means g = Some b ->
  broadcast a b da db d -> array_degree 2 a -> array_degree 2 b -> expr_minus a g = Ok e ->
  forall r i j, i < fst d -> j < snd d -> value r e i j = bvalue r a i j - bvalue r b i j.
Proof. exact @array_minus_degree2. Qed.
Print Assumptions C32_minus_degree2_partial.

Theorem C32_minus_total : forall {NN : Num} (a b : expr) (g : goval) (da db d : nat * nat), valid_array da a -> valid_array db b -> means g = Some b ->
  broadcast a b da db d -> minus_accepts a g = true -> exists e, expr_minus a g = Ok e.
Proof. exact @array_minus_total. Qed.
Print Assumptions C32_minus_total.

Theorem C32_minus_mismatch : forall {NN : Num} (a b : expr) (g : goval) (da db : nat * nat), valid_array da a -> valid_array db b -> means g = Some b ->
  da <> db -> da <> (1, 1) -> db <> (1, 1) -> expr_minus a g = Panic PDim.
Proof. exact @array_minus_mismatch_means. Qed.
Print Assumptions C32_minus_mismatch.

Theorem C32_minus_refuted : forall NN, NN = F64Num \/ NN = QNum -> exists (a b : matrix) (p q : panic),
  valid_array (2, 2) (EM a) /\ valid_array (2, 2) (EM b) /\ expr_minus (EM a) (GExpr (EM a)) = Panic p /\ expr_minus (EM b) (GExpr (EM b)) = Panic q
  /\ is_variable_matrix (EM a) = true /\ matrix_kind b = 2.
Proof. exact array_minus_refuted. Qed.
Print Assumptions C32_minus_refuted.

(** ** C33 products of vectors and matrices *)

Theorem C33_multiply_shape : forall {NN : Num} (a b : expr) (g : goval) (da db d : nat * nat) (e : expr), valid_array da a -> valid_array db b -> means g = Some b ->
  product_dims a b da db d -> expr_mul a g = Ok e -> valid_array d e.
Proof. exact @array_multiply_shape. Qed.
Print Assumptions C33_multiply_shape.
Example C33_multiply_shape_nonvacuous (NN := QNum) : valid_array (2, 2) w_km /\ valid_array (2, 3) w_km3 /\ means (GExpr w_km3) = Some w_km3 /\ product_dims w_km w_km3 (2, 2) (2, 3) (2, 3)
  /\ multiply_accepts w_km (GExpr w_km3) = true /\ variable_matrix_times_number w_km w_km3 = false /\ monomial_matrix_times_variables w_km w_km3 = false
  /\ exists e, expr_mul w_km (GExpr w_km3) = Ok e.
Proof. exact wit_mul. Qed.

Theorem C33_multiply_mismatch : forall {NN : Num} (a b : expr) (g : goval) (da db : nat * nat), valid_array da a -> valid_array db b -> means g = Some b ->
  snd da <> fst db -> da <> (1, 1) -> db <> (1, 1) -> expr_mul a g = Panic PDim.
Proof. exact @array_multiply_mismatch. Qed.
Print Assumptions C33_multiply_mismatch.
Example C33_multiply_mismatch_nonvacuous (NN := QNum) : valid_array (2, 3) w_km3 /\ valid_array (2, 2) w_vm /\ means (GExpr w_vm) = Some w_vm /\ snd (2, 3) <> fst (2, 2) /\ (2, 3) <> (1, 1) /\ (2, 2) <> (1, 1).
Proof. exact wit_mul_mismatch. Qed.

(** missing: products of terms that look alike (C33_multiply_refuted) *)
Theorem C33_multiply_value_partial : forall {NN : Num} (a b : expr) (g : goval) (da db d : nat * nat) (e : expr), ExactNum NN -> valid_array da a -> valid_array db b -> means g = Some b ->
  product_dims a b da db d -> unambiguous_exponents (product_exps a b) -> expr_mul a g = Ok e ->
  forall r i j, i < fst d -> j < snd d -> value r e i j = product_value r a b (snd da) i j.
Proof. exact @array_multiply_value. Qed.
Print Assumptions C33_multiply_value_partial.

Example C33_multiply_value_nonvacuous (NN := QNum) : unambiguous_exponents (product_exps w_pm w_vm).
Proof. exact wit_mul_unambiguous. Qed.

(** missing: products of degree above 2 in several variables *)
Theorem C33_multiply_degree2_partial : forall {NN : Num} (ka kb : Z) (a b : expr) (g : goval) (da db d : nat * nat) (e : expr), ExactNum NN -> valid_array da a -> valid_array db b -> means g = Some b ->
  product_dims a b da db d -> array_degree ka a -> array_degree kb b -> (ka + kb <= 2)%Z -> expr_mul a g = Ok e ->
  forall r i j, i < fst d -> j < snd d -> value r e i j = product_value r a b (snd da) i j.
Proof. exact @array_multiply_degree2. Qed.
Print Assumptions C33_multiply_degree2_partial.
Example C33_multiply_degree2_nonvacuous (NN := QNum) : valid_array (2, 2) w_pm /\ valid_array (2, 2) w_vm /\ means (GExpr w_vm) = Some w_vm /\ product_dims w_pm w_vm (2, 2) (2, 2) (2, 2)
  /\ array_degree 1 w_pm /\ array_degree 1 w_vm /\ (1 + 1 <= 2)%Z /\ exists e, expr_mul w_pm (GExpr w_vm) = Ok e.
Proof. exact wit_mul_degree2. Qed.

(** missing: entries in several variables *)
Theorem C33_multiply_one_variable_partial : forall {NN : Num} (x : N) (a b : expr) (g : goval) (da db d : nat * nat) (e : expr), ExactNum NN -> valid_array da a -> valid_array db b -> means g = Some b ->
  product_dims a b da db d -> array_variable x a -> array_variable x b -> expr_mul a g = Ok e ->
  forall r i j, i < fst d -> j < snd d -> value r e i j = product_value r a b (snd da) i j.
Proof. exact @array_multiply_variable. Qed.
Print Assumptions C33_multiply_one_variable_partial.
Example C33_multiply_one_variable_nonvacuous (NN := QNum) : valid_array (2, 2) (EM w_um) /\ array_variable 0 (EM w_um) /\ product_dims (EM w_um) (EM w_um) (2, 2) (2, 2) (2, 2)
  /\ exists e, expr_mul (EM w_um) (GExpr (EM w_um)) = Ok e.
Proof. exact wit_mul_variable. Qed.

Theorem C33_multiply_total : forall {NN : Num} (a b : expr) (g : goval) (da db d : nat * nat), valid_array da a -> valid_array db b -> means g = Some b ->
  product_dims a b da db d -> multiply_accepts a g = true -> variable_matrix_times_number a b = false -> monomial_matrix_times_variables a b = false ->
  exists e, expr_mul a g = Ok e.
Proof. exact @array_multiply_total. Qed.
Print Assumptions C33_multiply_total.

Theorem C33_multiply_number : forall {NN : Num} (a : expr) (f : num) (g : goval) (da d : nat * nat), ExactNum NN -> valid_array da a -> means g = Some (ES (SK f)) ->
  product_dims a (ES (SK f)) da (1, 1) d -> multiply_accepts a g = true -> variable_matrix_times_number a (ES (SK f)) = true -> f <> n0 -> f <> n1 ->
  exists e, expr_mul a g = Ok e.
Proof. exact @array_multiply_number. Qed.
Print Assumptions C33_multiply_number.
Example C33_multiply_number_nonvacuous (NN := QNum) : valid_array (2, 2) w_vm /\ means (GFloat (nofZ 5)) = Some (ES (SK (nofZ 5))) /\ product_dims w_vm (ES (SK (nofZ 5))) (2, 2) (1, 1) (2, 2)
  /\ multiply_accepts w_vm (GFloat (nofZ 5)) = true /\ variable_matrix_times_number w_vm (ES (SK (nofZ 5))) = true /\ nofZ 5 <> n0 /\ nofZ 5 <> n1.
Proof. exact wit_mul_number. Qed.

Theorem C33_multiply_refuted : forall NN, NN = F64Num \/ NN = QNum -> exists (a b : matrix) (e : expr) (r : assignment),
  valid_array (2, 2) (EM a) /\ valid_array (2, 2) (EM b) /\ expr_mul (EM a) (GExpr (EM b)) = Ok e
  /\ (value r e 0 0 =? product_value r (EM a) (EM b) 2 0 0) = false.
Proof. exact array_multiply_refuted. Qed.
Print Assumptions C33_multiply_refuted.

Theorem C33_multiply_length_refuted : forall NN, NN = F64Num \/ NN = QNum -> exists (a b c : vector) (m : matrix) (e e' : expr),
  valid_array (1, 1) (EV a) /\ valid_array (2, 1) (EV b) /\ expr_mul (EV a) (GExpr (EV b)) = Ok e /\ valid_array (1, 1) e
  /\ valid_array (1, 2) (EM m) /\ valid_array (1, 1) (EV c) /\ expr_mul (EM m) (GExpr (EV c)) = Ok e' /\ valid_array (1, 1) e'.
Proof. exact array_multiply_length_refuted. Qed.
Print Assumptions C33_multiply_length_refuted.

Theorem C33_multiply_panic_refuted : forall NN, NN = F64Num \/ NN = QNum -> exists (a b : matrix) (v : vector) (p q : panic),
  valid_array (2, 2) (EM a) /\ multiply_accepts (EM a) (GFloat n1) = true /\ expr_mul (EM a) (GFloat n1) = Panic p
  /\ valid_array (2, 2) (EM b) /\ valid_array (2, 1) (EV v) /\ multiply_accepts (EM b) (GExpr (EV v)) = true /\ expr_mul (EM b) (GExpr (EV v)) = Panic q.
Proof. exact array_multiply_panic_refuted. Qed.
Print Assumptions C33_multiply_panic_refuted.

(** ** C34 powers of matrices *)

(** missing: 1x1 matrices, whose powers panic (C34_power_refuted) *)
Theorem C34_power_total_partial : forall {NN : Num} (n : nat) (me : matrix) (z : Z), 2 <= n -> valid_array (n, n) (EM me) -> (0 <= z)%Z -> exists p, expr_power (EM me) z = Ok p /\ valid_array (n, n) p.
Proof. exact @array_power_total. Qed.
Print Assumptions C34_power_total_partial.

(** missing: powers with terms that look alike (C34_power_value_refuted) *)
Theorem C34_power_value_partial : forall {NN : Num} (n : nat) (me : matrix) (z : Z) (p : expr), ExactNum NN -> 2 <= n -> valid_array (n, n) (EM me) -> (0 <= z)%Z ->
  unambiguous_exponents (power_exps (EM me) (Z.to_nat z)) -> expr_power (EM me) z = Ok p ->
  forall r i j, i < n -> j < n -> value r p i j = mat_npow n (value r (EM me)) (Z.to_nat z) i j.
Proof. exact @array_power_value. Qed.
Print Assumptions C34_power_value_partial.

Example C34_power_value_nonvacuous (NN := QNum) : unambiguous_exponents (power_exps (EM w_um) (Z.to_nat 3)).
Proof. exact wit_pow_unambiguous. Qed.

Theorem C34_power_numeric : forall {NN : Num} (n : nat) (me : matrix) (z : Z) (p : expr), ExactNum NN -> 2 <= n -> valid_array (n, n) (EM me) -> (0 <= z)%Z ->
  numeric (EM me) -> expr_power (EM me) z = Ok p ->
  forall r i j, i < n -> j < n -> value r p i j = mat_npow n (value r (EM me)) (Z.to_nat z) i j.
Proof. exact @array_power_numeric. Qed.
Print Assumptions C34_power_numeric.
Example C34_power_numeric_nonvacuous (NN := QNum) : 2 <= 2 /\ valid_array (2, 2) w_km /\ (0 <= 5)%Z /\ numeric w_km /\ exists p, expr_power w_km 5 = Ok p.
Proof. exact wit_pow_numeric. Qed.

(** missing: entries in several variables *)
Theorem C34_power_one_variable_partial : forall {NN : Num} (x : N) (n : nat) (me : matrix) (z : Z) (p : expr), ExactNum NN -> 2 <= n -> valid_array (n, n) (EM me) -> (0 <= z)%Z ->
  array_variable x (EM me) -> expr_power (EM me) z = Ok p ->
  forall r i j, i < n -> j < n -> value r p i j = mat_npow n (value r (EM me)) (Z.to_nat z) i j.
Proof. exact @array_power_variable. Qed.
Print Assumptions C34_power_one_variable_partial.
Example C34_power_one_variable_nonvacuous (NN := QNum) : 2 <= 2 /\ valid_array (2, 2) (EM w_um) /\ (0 <= 3)%Z /\ array_variable 0 (EM w_um) /\ exists p, expr_power (EM w_um) 3 = Ok p.
Proof. exact wit_pow. Qed.

(** missing: powers of degree above 2 in several variables *)
Theorem C34_power_degree2_partial : forall {NN : Num} (k : Z) (n : nat) (me : matrix) (z : Z) (p : expr), ExactNum NN -> 2 <= n -> valid_array (n, n) (EM me) -> (0 <= z)%Z ->
  array_degree k (EM me) -> (0 <= k)%Z -> (k * z <= 2)%Z -> expr_power (EM me) z = Ok p ->
  forall r i j, i < n -> j < n -> value r p i j = mat_npow n (value r (EM me)) (Z.to_nat z) i j.
Proof. exact @array_power_degree2. Qed.
Print Assumptions C34_power_degree2_partial.
Example C34_power_degree2_nonvacuous (NN := QNum) : 2 <= 2 /\ valid_array (2, 2) w_pm /\ (0 <= 2)%Z /\ array_degree 1 w_pm /\ (0 <= 1)%Z /\ (1 * 2 <= 2)%Z /\ exists p, expr_power w_pm 2 = Ok p.
Proof. exact wit_pow_degree2. Qed.

Theorem C34_power_not_square : forall {NN : Num} (me : matrix) (d : nat * nat) (z : Z), valid_array d (EM me) -> fst d <> snd d -> expr_power (EM me) z = Panic POther.
Proof. exact @array_power_not_square. Qed.
Print Assumptions C34_power_not_square.
Example C34_power_bad_nonvacuous (NN := QNum) : valid_array (2, 3) w_km3 /\ fst (2, 3) <> snd (2, 3) /\ valid_array (2, 2) w_vm /\ (-1 < 0)%Z /\ valid_array (2, 1) w_pv /\ 2 <> 1.
Proof. exact wit_pow_bad. Qed.

Theorem C34_power_negative : forall {NN : Num} (me : matrix) (n : nat) (z : Z), valid_array (n, n) (EM me) -> (z < 0)%Z -> expr_power (EM me) z = Panic PNegExp.
Proof. exact @array_power_negative. Qed.
Print Assumptions C34_power_negative.

Theorem C34_vector_power : forall {NN : Num} (v : vector) (n : nat) (z : Z), valid_array (n, 1) (EV v) -> n <> 1 -> (0 <= z)%Z -> expr_power (EV v) z = Panic POther.
Proof. exact @vector_power_length. Qed.
Print Assumptions C34_vector_power.
Theorem C34_vector_power_entry : forall {NN : Num} (v : vector) (z : Z), valid_array (1, 1) (EV v) -> expr_power (EV v) z = expr_power (ES (entry (EV v) 0 0)) z.
Proof. exact @vector_power_entry. Qed.
Print Assumptions C34_vector_power_entry.
(** missing: powers in which different products look alike (C04) *)
Theorem C34_vector_power_value_partial : forall {NN : Num} (v : vector) (z : Z), ExactNum NN -> valid_array (1, 1) (EV v) -> (0 <= z)%Z ->
  unambiguous_exponents (power_terms (entry (EV v) 0 0) (Z.to_nat z)) ->
  exists s, expr_power (EV v) z = Ok (ES s) /\ forall r, eval r s = npow (value r (EV v) 0 0) (Z.to_nat z).
Proof. exact @vector_power_value. Qed.
Print Assumptions C34_vector_power_value_partial.
Example C34_vector_power_nonvacuous (NN := QNum) : valid_array (1, 1) (EV (VP [w_poly w_uni])) /\ (0 <= 7)%Z /\ unambiguous_exponents (power_terms (entry (EV (VP [w_poly w_uni])) 0 0) (Z.to_nat 7)).
Proof. exact wit_vector_power. Qed.

Theorem C34_power_refuted : forall NN, NN = F64Num \/ NN = QNum -> exists (a : matrix) (p : panic),
  valid_array (1, 1) (EM a) /\ expr_power (EM a) 1 = Panic p.
Proof. exact array_power_refuted. Qed.
Print Assumptions C34_power_refuted.

Theorem C34_power_value_refuted : forall NN, NN = F64Num \/ NN = QNum -> exists (a : matrix) (e : expr) (r : assignment),
  valid_array (2, 2) (EM a) /\ expr_power (EM a) 3 = Ok e /\ (value r e 0 0 =? mat_npow 2 (value r (EM a)) 3 0 0) = false.
Proof. exact array_power_value_refuted. Qed.
Print Assumptions C34_power_value_refuted.

(** ** C35 transposition *)

Theorem C35_transpose : forall {NN : Num} (d : nat * nat) (e : expr), valid_array d e ->
  exists t, expr_transpose e = Ok t /\ valid_array (snd d, fst d) t /\ forall i j, i < snd d -> j < fst d -> entry t i j = entry e j i.
Proof. exact @array_transpose. Qed.
Print Assumptions C35_transpose.
Example C35_transpose_nonvacuous (NN := QNum) : valid_array (2, 2) w_pm /\ valid_array (2, 1) w_pv /\ valid_array (2, 3) w_km3 /\ valid_array (2, 2) w_vm.
Proof. exact wit_shapes. Qed.

Theorem C35_transpose_twice : forall {NN : Num} (d : nat * nat) (e t : expr), valid_array d e -> expr_transpose e = Ok t ->
  exists u, expr_transpose t = Ok u /\ valid_array d u /\ forall i j, i < fst d -> j < snd d -> entry u i j = entry e i j.
Proof. exact @array_transpose_twice. Qed.
Print Assumptions C35_transpose_twice.

(** ** C36 stacking *)

Theorem C36_hstack : forall {NN : Num} (n : nat) (ds : list (nat * nat)) (es : list expr), es <> [] -> Forall2 valid_array ds es -> Forall (fun d => fst d = n) ds ->
  exists e, hstack es = Ok e /\ valid_array (n, list_sum (map snd ds)) e /\ forall i, i < n -> Forall2 same_terms (beside es i) (nth i (rows e) []).
Proof. exact @hstack_spec. Qed.
Print Assumptions C36_hstack.
Example C36_hstack_nonvacuous (NN := QNum) : [w_pv; w_km3; w_vm] <> [] /\ Forall2 valid_array [(2, 1); (2, 3); (2, 2)] [w_pv; w_km3; w_vm] /\ Forall (fun d => fst d = 2) [(2, 1); (2, 3); (2, 2)].
Proof. exact wit_hstack. Qed.

Theorem C36_vstack : forall {NN : Num} (c : nat) (ds : list (nat * nat)) (es : list expr), es <> [] -> Forall2 valid_array ds es -> Forall (fun d => snd d = c) ds ->
  exists e, vstack es = Ok e /\ valid_array (list_sum (map fst ds), c) e /\ Forall2 (Forall2 same_terms) (concat (map rows es)) (rows e).
Proof. exact @vstack_spec. Qed.
Print Assumptions C36_vstack.
Example C36_vstack_nonvacuous (NN := QNum) : [w_pm; w_vm; w_km] <> [] /\ Forall2 valid_array [(2, 2); (2, 2); (2, 2)] [w_pm; w_vm; w_km] /\ Forall (fun d => snd d = 2) [(2, 2); (2, 2); (2, 2)].
Proof. exact wit_vstack. Qed.

Theorem C36_hstack_entry : forall {NN : Num} (n : nat) (ds : list (nat * nat)) (es : list expr) (e : expr) (k : nat) (ek : expr) (i j : nat), ExactNum NN ->
  Forall2 valid_array ds es -> Forall (fun d => fst d = n) ds -> hstack es = Ok e -> nth_error es k = Some ek -> i < n -> j < snd (nth k ds (0, 0)%nat) ->
  forall r, value r e i (list_sum (map snd (firstn k ds)) + j)%nat = value r ek i j.
Proof. exact @hstack_entry. Qed.
Print Assumptions C36_hstack_entry.

Theorem C36_vstack_entry : forall {NN : Num} (c : nat) (ds : list (nat * nat)) (es : list expr) (e : expr) (k : nat) (ek : expr) (i j : nat), ExactNum NN ->
  Forall2 valid_array ds es -> Forall (fun d => snd d = c) ds -> vstack es = Ok e -> nth_error es k = Some ek -> i < fst (nth k ds (0, 0)%nat) -> j < c ->
  forall r, value r e (list_sum (map fst (firstn k ds)) + i)%nat j = value r ek i j.
Proof. exact @vstack_entry. Qed.
Print Assumptions C36_vstack_entry.

Theorem C36_hstack_mismatch : forall {NN : Num} (ds : list (nat * nat)) (es : list expr) (d1 d2 : nat * nat), Forall2 valid_array ds es -> In d1 ds -> In d2 ds -> fst d1 <> fst d2 -> hstack es = Panic PDim.
Proof. exact @hstack_mismatch. Qed.
Print Assumptions C36_hstack_mismatch.
Example C36_mismatch_nonvacuous (NN := QNum) : Forall2 valid_array [(2, 1); (1, 1)] [w_pv; ES (SV wx)] /\ In (2, 1) [(2, 1); (1, 1)] /\ In (1, 1) [(2, 1); (1, 1)] /\ fst (2, 1) <> fst (1, 1)
  /\ Forall2 valid_array [(2, 3); (2, 2)] [w_km3; w_vm] /\ snd (2, 3) <> snd (2, 2).
Proof. exact wit_stack_mismatch. Qed.

Theorem C36_vstack_mismatch : forall {NN : Num} (ds : list (nat * nat)) (es : list expr) (d1 d2 : nat * nat), Forall2 valid_array ds es -> In d1 ds -> In d2 ds -> snd d1 <> snd d2 -> vstack es = Panic PDim.
Proof. exact @vstack_mismatch. Qed.
Print Assumptions C36_vstack_mismatch.

(** ** C37 choice of the concrete type *)

Theorem C37_concretize_vector : forall {NN : Num} (l : list scalar), l <> [] ->
  exists v, concretize_vector l = Ok v /\ Forall2 (Forall2 same_terms) (map (fun s => [s]) l) (rows (EV v)) /\ smallest_kind l (vector_kind v).
Proof. exact @concretize_vector_spec. Qed.
Print Assumptions C37_concretize_vector.
Example C37_concretize_nonvacuous (NN := QNum) : [SV wx; SK (nofZ 3); w_lin] <> [] /\ Forall valid [SV wx; SK (nofZ 3); w_lin].
Proof. exact wit_concretize. Qed.

Theorem C37_concretize_matrix : forall {NN : Num} (R : list (list scalar)) (c : nat), R <> [] -> 1 <= c -> Forall (fun r => length r = c) R ->
  exists m, concretize_matrix R = Ok m /\ Forall2 (Forall2 same_terms) R (rows (EM m)) /\ smallest_kind (concat R) (matrix_kind m).
Proof. exact @concretize_matrix_spec. Qed.
Print Assumptions C37_concretize_matrix.

Theorem C37_concretize_slice : forall {NN : Num} (l : list scalar), l <> [] -> Forall valid l ->
  exists e, concretize_slice l = Ok e /\ valid_array (length l, 1) e /\ Forall2 (Forall2 same_terms) (map (fun s => [s]) l) (rows e).
Proof. exact @concretize_slice_spec. Qed.
Print Assumptions C37_concretize_slice.

Theorem C37_concretize_rows : forall {NN : Num} (d : nat * nat) (R : list (list scalar)), 1 <= fst d -> 1 <= snd d -> length R = fst d -> Forall (fun r => length r = snd d) R -> Forall (Forall valid) R ->
  exists e, concretize_rows R = Ok e /\ valid_array d e /\ Forall2 (Forall2 same_terms) R (rows e).
Proof. exact @concretize_rows_spec. Qed.
Print Assumptions C37_concretize_rows.

Theorem C37_concretize_empty : forall {NN : Num}, concretize_vector [] = Panic POther.
Proof. exact @concretize_vector_empty. Qed.
Print Assumptions C37_concretize_empty.

Theorem C37_concretize_ragged : forall {NN : Num} (R : list (list scalar)) (r1 r2 : list scalar), In r1 R -> In r2 R -> length r1 <> length r2 -> exists p, concretize_matrix R = Panic p.
Proof. exact @concretize_matrix_ragged. Qed.
Print Assumptions C37_concretize_ragged.

(** ** C38 indexing *)

Theorem C38_at : forall {NN : Num} (d : nat * nat) (e : expr) (i j : nat), valid_array d e -> i < fst d -> j < snd d -> expr_at e (Z.of_nat i) (Z.of_nat j) = Ok (entry e i j).
Proof. exact @array_at. Qed.
Print Assumptions C38_at.
Example C38_at_nonvacuous (NN := QNum) : valid_array (2, 2) w_pm /\ valid_array (2, 1) w_pv /\ valid_array (2, 3) w_km3 /\ valid_array (2, 2) w_vm.
Proof. exact wit_shapes. Qed.

Theorem C38_at_vec : forall {NN : Num} (n : nat) (v : vector) (i : nat), valid_array (n, 1) (EV v) -> i < n -> vec_at_vec v (Z.of_nat i) = Ok (entry (EV v) i 0).
Proof. exact @vector_at_vec. Qed.
Print Assumptions C38_at_vec.

Theorem C38_at_out : forall {NN : Num} (d : nat * nat) (e : expr) (z w : Z), valid_array d e -> ~ ((0 <= z < Z.of_nat (fst d))%Z /\ (0 <= w < Z.of_nat (snd d))%Z) -> exists p, expr_at e z w = Panic p.
Proof. exact @array_at_out. Qed.
Print Assumptions C38_at_out.
Example C38_at_out_nonvacuous (NN := QNum) : ~ ((0 <= -1 < Z.of_nat (fst (2, 2)%nat))%Z /\ (0 <= 0 < Z.of_nat (snd (2, 2)%nat))%Z).
Proof. exact wit_at_out. Qed.

Theorem C38_at_vec_out : forall {NN : Num} (n : nat) (v : vector) (z : Z), valid_array (n, 1) (EV v) -> ~ (0 <= z < Z.of_nat n)%Z -> exists p, vec_at_vec v z = Panic p.
Proof. exact @vector_at_vec_out. Qed.
Print Assumptions C38_at_vec_out.
(** the error: the library's index error, gonum's for KMatrix, Go's runtime error for VariableMatrix, MonomialMatrix and MonomialVector.AtVec *)
Theorem C38_at_out_error : forall {NN : Num} (d : nat * nat) (e : expr) (z w : Z), valid_array d e -> ~ ((0 <= z < Z.of_nat (fst d))%Z /\ (0 <= w < Z.of_nat (snd d))%Z) ->
  expr_at e z w = Panic (match e with EM (MK _) => PGonum | EM (MV _) | EM (MM _) => PRuntime | _ => PIndex end).
Proof. exact @at_out_error. Qed.
Print Assumptions C38_at_out_error.
Theorem C38_at_vec_out_error : forall {NN : Num} (n : nat) (v : vector) (z : Z), valid_array (n, 1)%nat (EV v) -> ~ (0 <= z < Z.of_nat n)%Z ->
  vec_at_vec v z = Panic (match v with VM _ => PRuntime | _ => PIndex end).
Proof. exact @at_vec_out_error. Qed.
Print Assumptions C38_at_vec_out_error.

(** ** C45 int operands *)

(** missing: monomials and polynomials, which reject int (C45_int_refuted) *)
Theorem C45_plus_int_partial : forall {NN : Num} (s : scalar) (z : Z), zero_laws -> plus_accepts (ES s) (GInt z) = true -> expr_plus (ES s) (GInt z) = expr_plus (ES s) (GExpr (ES (SK (nofZ z)))).
Proof. exact @plus_int_same. Qed.
Print Assumptions C45_plus_int_partial.
Example C45_int_nonvacuous (NN := QNum) : zero_laws /\ plus_accepts (ES (SV wx)) (GInt 3) = true /\ multiply_accepts (ES w_cubic2) (GInt 3) = true.
Proof. exact wit_int. Qed.

(** [zero_laws] holds for exact numbers and for binary64 (C06) *)
Theorem C45_multiply_int : forall {NN : Num} (s : scalar) (z : Z), zero_laws -> multiply_accepts (ES s) (GInt z) = true -> expr_mul (ES s) (GInt z) = expr_mul (ES s) (GExpr (ES (SK (nofZ z)))).
Proof. exact @multiply_int_same. Qed.
Print Assumptions C45_multiply_int.

Theorem C45_plus_int_unsupported : forall {NN : Num} (s : scalar) (z : Z), plus_accepts (ES s) (GInt z) = false -> expr_check (ES s) = true -> expr_plus (ES s) (GInt z) = Panic PUnsupported.
Proof. exact @plus_int_unsupported. Qed.
Print Assumptions C45_plus_int_unsupported.

Theorem C45_int_refuted : forall NN, NN = F64Num \/ NN = QNum -> exists (s : scalar) (z : Z) (e e' : expr) (p q : panic),
  valid s /\ expr_plus (ES s) (GInt z) = Panic p /\ expr_plus (ES s) (GExpr (ES (SK (nofZ z)))) = Ok e
  /\ expr_mul (ES s) (GInt z) = Panic q /\ expr_mul (ES s) (GExpr (ES (SK (nofZ z)))) = Ok e'.
Proof. exact int_refuted. Qed.
Print Assumptions C45_int_refuted.

(** ** C47 invalid operands *)

Theorem C47_receiver_plus : forall {NN : Num} (a : expr) (g : goval), expr_check a = false -> forall e, expr_plus a g <> Ok e.
Proof. exact @receiver_checked_plus. Qed.
Print Assumptions C47_receiver_plus.
Example C47_invalid_nonvacuous (NN := QNum) : expr_check (ES (SM (mkMono n1 [2%Z] [wx; wy]))) = false /\ expr_check (ES (SP [])) = false /\ both_variables (ES (SV wx)) (ES (SP [])) <> true.
Proof. exact wit_invalid. Qed.

Theorem C47_receiver_multiply : forall {NN : Num} (a : expr) (g : goval), expr_check a = false -> forall e, expr_mul a g <> Ok e.
Proof. exact @receiver_checked_mul. Qed.
Print Assumptions C47_receiver_multiply.

Theorem C47_receiver_minus : forall {NN : Num} (a : expr) (g : goval), expr_check a = false -> forall e, expr_minus a g <> Ok e.
Proof. exact @receiver_checked_minus. Qed.
Print Assumptions C47_receiver_minus.

Theorem C47_receiver_power : forall {NN : Num} (a : expr) (z : Z), expr_check a = false -> forall e, expr_power a z <> Ok e.
Proof. exact @receiver_checked_power. Qed.
Print Assumptions C47_receiver_power.

Theorem C47_operand_multiply : forall {NN : Num} (a b : expr), expr_check b = false -> forall e, expr_mul a (GExpr b) <> Ok e.
Proof. exact @operand_checked_mul. Qed.
Print Assumptions C47_operand_multiply.

Theorem C47_operand_minus : forall {NN : Num} (a b : expr), expr_check b = false -> forall e, expr_minus a (GExpr b) <> Ok e.
Proof. exact @operand_checked_minus. Qed.
Print Assumptions C47_operand_minus.

(** missing: Variable.Plus(Variable), which does not check its operand (C47_operand_refuted) *)
Theorem C47_operand_plus_partial : forall {NN : Num} (a b : expr), expr_check b = false -> both_variables a b <> true -> forall e, expr_plus a (GExpr b) <> Ok e.
Proof. exact @operand_checked_plus. Qed.
Print Assumptions C47_operand_plus_partial.

Theorem C47_unsupported_minus : forall {NN : Num} (a : expr), expr_minus a GOther = if expr_check a then Panic PUnsupported else Panic PCheck.
Proof. exact @unsupported_minus. Qed.
Print Assumptions C47_unsupported_minus.

(** the tables of implemented types are exact *)
Theorem C47_unsupported_plus : forall {NN : Num} (a : expr) (g : goval), plus_accepts a g = false -> forall e, expr_plus a g <> Ok e.
Proof. exact @plus_unsupported. Qed.
Print Assumptions C47_unsupported_plus.

Theorem C47_unsupported_multiply : forall {NN : Num} (a : expr) (g : goval), multiply_accepts a g = false -> forall e, expr_mul a g <> Ok e.
Proof. exact @multiply_unsupported. Qed.
Print Assumptions C47_unsupported_multiply.
(** with a valid receiver and argument of suitable dimensions, the error says that the type is not implemented *)
Theorem C47_unsupported_plus_error : forall {NN : Num} (a : expr) (g : goval) (da : nat * nat), valid_array da a -> fits eq da g -> plus_accepts a g = false -> expr_plus a g = Panic PUnsupported.
Proof. exact @plus_unsupported_error. Qed.
Print Assumptions C47_unsupported_plus_error.
Theorem C47_unsupported_multiply_error : forall {NN : Num} (a : expr) (g : goval) (da : nat * nat), valid_array da a -> fits (fun d1 d2 => snd d1 = fst d2) da g -> multiply_accepts a g = false ->
  expr_mul a g = Panic PUnsupported.
Proof. exact @multiply_unsupported_error. Qed.
Print Assumptions C47_unsupported_multiply_error.
Example C47_unsupported_error_nonvacuous (NN := QNum) : valid_array (2, 2)%nat w_vm /\ fits eq (2, 2)%nat (GExpr w_pm) /\ plus_accepts w_vm (GExpr w_pm) = false
  /\ valid_array (2, 2)%nat w_pm /\ fits (fun d1 d2 => snd d1 = fst d2) (2, 2)%nat (GExpr w_pv) /\ multiply_accepts w_pm (GExpr w_pv) = false.
Proof. exact wit_unsupported. Qed.

Theorem C47_operand_refuted : forall NN, NN = F64Num \/ NN = QNum -> exists (v w : var) (e : expr),
  expr_check (ES (SV v)) = true /\ expr_check (ES (SV w)) = false /\ expr_plus (ES (SV v)) (GExpr (ES (SV w))) = Ok e.
Proof. exact operand_checked_refuted. Qed.
Print Assumptions C47_operand_refuted.

(** ** C48 conversions *)

Theorem C48_vector_from : forall {NN : Num} (i : from_input), match vector_data i with Some l => kvector_from i = Ok l | None => exists p, kvector_from i = Panic p end.
Proof. exact @kvector_from_facts. Qed.
Print Assumptions C48_vector_from.
Example C48_from_nonvacuous (NN := QNum) : vector_data (FInts [1; 2; 3]%Z) <> None /\ matrix_data (FRows [[nofZ 1; nofZ 2]; [nofZ 3; nofZ 4]]) <> None /\ matrix_data (FRows [[nofZ 1; nofZ 2]; [nofZ 3]]) = None.
Proof. exact wit_from. Qed.

Theorem C48_matrix_from : forall {NN : Num} (i : from_input), match matrix_data i with Some l => kmatrix_from i = Ok l | None => exists p, kmatrix_from i = Panic p end.
Proof. exact @kmatrix_from_facts. Qed.
Print Assumptions C48_matrix_from.

(** ** C50 identity, zeros and ones *)

Theorem C50_zeros : forall {NN : Num} (r c : nat), 1 <= r -> 1 <= c -> exists l, zeros_matrix r c = Ok l /\ dense_shape (r, c) l /\ forall i j, i < r -> j < c -> dense_entry l i j = n0.
Proof. exact @zeros_matrix_facts. Qed.
Print Assumptions C50_zeros.

Theorem C50_ones : forall {NN : Num} (r c : nat), 1 <= r -> 1 <= c -> exists l, ones_matrix r c = Ok l /\ dense_shape (r, c) l /\ forall i j, i < r -> j < c -> dense_entry l i j = n1.
Proof. exact @ones_matrix_facts. Qed.
Print Assumptions C50_ones.

Theorem C50_identity : forall {NN : Num} (n : nat), 1 <= n ->
  exists l, identity_matrix n = Ok l /\ dense_shape (n, n) l /\ forall i j, i < n -> j < n -> dense_entry l i j = if Nat.eqb i j then n1 else n0.
Proof. exact @identity_matrix_facts. Qed.
Print Assumptions C50_identity.

Theorem C50_zeros_vector : forall {NN : Num} (n : nat), 1 <= n -> zeros_vector n = Ok (repeat n0 n).
Proof. exact @zeros_vector_facts. Qed.
Print Assumptions C50_zeros_vector.

Theorem C50_ones_vector : forall {NN : Num} (n : nat), 1 <= n -> ones_vector n = Ok (repeat n1 n).
Proof. exact @ones_vector_facts. Qed.
Print Assumptions C50_ones_vector.

Theorem C50_zero_dimensions : forall {NN : Num}, (forall r c : nat, r = 0%nat \/ c = 0%nat -> zeros_matrix r c = Panic PGonum /\ ones_matrix r c = Panic PGonum)
  /\ identity_matrix 0 = Panic PGonum /\ zeros_vector 0 = Panic PGonum /\ ones_vector 0 = Panic PGonum.
Proof. exact @zero_dimensions. Qed.
Print Assumptions C50_zero_dimensions.

(** missing: arrays with terms that look alike *)
Theorem C50_identity_times_partial : forall {NN : Num} (n : nat) (I : list (list num)) (b : expr) (g : goval) (d : nat * nat) (e : expr), ExactNum NN -> 1 <= n -> identity_matrix n = Ok I ->
  valid_array d b -> fst d = n -> ~ is_scalar b -> means g = Some b -> unambiguous_exponents (has_term b) -> expr_mul (EM (MK I)) g = Ok e ->
  valid_array d e /\ forall r i j, i < fst d -> j < snd d -> value r e i j = value r b i j.
Proof. exact @identity_times. Qed.
Print Assumptions C50_identity_times_partial.
Example C50_identity_nonvacuous (NN := QNum) : 1 <= 2 /\ (exists I2, identity_matrix 2 = Ok I2 /\ exists e, expr_mul (EM (MK I2)) (GExpr w_pm) = Ok e /\ exists e', expr_mul w_pm (GExpr (EM (MK I2))) = Ok e')
  /\ valid_array (2, 2) w_pm /\ fst (2, 2) = 2 /\ ~ is_scalar w_pm /\ unambiguous_exponents (has_term w_pm)
  /\ exists Z, zeros_matrix (fst (2, 2)) (snd (2, 2)) = Ok Z /\ means (GExpr (EM (MK Z))) = Some (EM (MK Z)) /\ exists e, expr_plus w_pm (GExpr (EM (MK Z))) = Ok e.
Proof. exact wit_identity. Qed.

(** missing: arrays with terms that look alike *)
Theorem C50_times_identity_partial : forall {NN : Num} (n : nat) (I : list (list num)) (a : expr) (d : nat * nat) (e : expr), ExactNum NN -> 1 <= n -> identity_matrix n = Ok I ->
  valid_array d a -> snd d = n -> ~ is_scalar a -> unambiguous_exponents (has_term a) -> expr_mul a (GExpr (EM (MK I))) = Ok e ->
  valid_array d e /\ forall r i j, i < fst d -> j < snd d -> value r e i j = value r a i j.
Proof. exact @times_identity. Qed.
Print Assumptions C50_times_identity_partial.

(** missing: arrays with terms that look alike; a matrix of variables plus zeros panics (C32_plus_zero_refuted) *)
Theorem C50_plus_zeros_partial : forall {NN : Num} (d : nat * nat) (Z : list (list num)) (a : expr) (g : goval) (e : expr), ExactNum NN -> zeros_matrix (fst d) (snd d) = Ok Z ->
  valid_array d a -> means g = Some (EM (MK Z)) -> ~ is_scalar a -> unambiguous_exponents (has_term a) -> expr_plus a g = Ok e ->
  valid_array d e /\ forall r i j, i < fst d -> j < snd d -> value r e i j = value r a i j.
Proof. exact @plus_zeros. Qed.
Print Assumptions C50_plus_zeros_partial.

(** ** C15 and C17 substitution in vectors and matrices *)

Theorem C15_array_total : forall {NN : Num} (e : expr) (d : nat * nat) (x : var) (t : scalar), valid_array d e -> valid_var x -> valid t ->
  exists e', expr_substitute e x t = Ok e' /\ valid_array d e'.
Proof. exact @array_substitute_total. Qed.
Print Assumptions C15_array_total.

(** missing: as for scalars (C15_substitute_refuted) *)
Theorem C15_array_value_partial : forall {NN : Num} (e : expr) (d : nat * nat) (x : var) (t : scalar), ExactNum NN -> valid_array d e -> valid_var x -> valid t ->
  (forall i j, i < fst d -> j < snd d -> same_environment x (entry e i j) /\ unambiguous_exponents (substituted_terms (replacement x t) (entry e i j))) ->
  exists e', expr_substitute e x t = Ok e' /\ valid_array d e' /\ forall r i j, i < fst d -> j < snd d -> value r e' i j = value (update r (v_id x) (eval r t)) e i j.
Proof. exact @array_substitute_value. Qed.
Print Assumptions C15_array_value_partial.

(** missing: results of degree above 2 *)
Theorem C15_array_degree2_partial : forall {NN : Num} (e : expr) (d : nat * nat) (x : var) (t : scalar) (dd D : Z), ExactNum NN -> valid_array d e -> valid_var x -> valid t ->
  (forall i j, i < fst d -> j < snd d -> same_environment x (entry e i j)) -> array_degree dd e -> degree_at_most D t -> (1 <= D)%Z -> (dd * D <= 2)%Z ->
  exists e', expr_substitute e x t = Ok e' /\ valid_array d e' /\ forall r i j, i < fst d -> j < snd d -> value r e' i j = value (update r (v_id x) (eval r t)) e i j.
Proof. exact @array_substitute_degree2. Qed.
Print Assumptions C15_array_degree2_partial.
Example C15_array_nonvacuous (NN := QNum) : valid_array (2, 1) w_pv /\ valid_var wx /\ valid (SV wz) /\ (forall i j, i < 2 -> j < 1 -> same_environment wx (entry w_pv i j))
  /\ array_degree 2 w_pv /\ degree_at_most 1 (SV wz) /\ (1 <= 1)%Z /\ (2 * 1 <= 2)%Z.
Proof. exact wit_substitute_arr. Qed.

(** the list [sm] is the map in the order in which the runtime iterates over it *)
Theorem C17_substitute_map_total : forall {NN : Num} (e : expr) (d : nat * nat) (sm : list (var * expr)), valid_array d e -> ~ is_scalar e -> valid_map sm ->
  exists e', expr_substitute_map e sm = Ok e' /\ valid_array d e'.
Proof. exact @array_substitute_map_total. Qed.
Print Assumptions C17_substitute_map_total.

(** missing: maps whose replacements contain mapped variables (C17_substitute_map_refuted), entries of degree above 2 *)
Theorem C17_substitute_map_value_partial : forall {NN : Num} (e : expr) (d : nat * nat) (sm : list (var * expr)), ExactNum NN -> valid_array d e -> ~ is_scalar e -> valid_map sm -> array_degree 2 e ->
  (forall k t, In (k, ES t) sm -> degree_at_most 1 t) ->
  (forall w, array_var w e \/ map_var w sm -> forall k, In k (map fst sm) -> v_id w = v_id k -> w = k) ->
  (forall k t k', In (k, ES t) sm -> In k' (map fst sm) -> ~ occurs (v_id k') t) ->
  exists e', expr_substitute_map e sm = Ok e' /\ valid_array d e'
    /\ forall r r' i j, i < fst d -> j < snd d -> simultaneous r sm (entry e i j) r' -> value r e' i j = value r' e i j.
Proof. exact @array_substitute_map_value. Qed.
Print Assumptions C17_substitute_map_value_partial.
Example C17_nonvacuous (NN := QNum) : valid_array (2, 1) w_pv /\ ~ is_scalar w_pv /\ valid_map w_arr_map /\ array_degree 2 w_pv
  /\ (forall k t, In (k, ES t) w_arr_map -> degree_at_most 1 t)
  /\ (forall w, array_var w w_pv \/ map_var w w_arr_map -> forall k, In k (map fst w_arr_map) -> v_id w = v_id k -> w = k)
  /\ (forall k t k', In (k, ES t) w_arr_map -> In k' (map fst w_arr_map) -> ~ occurs (v_id k') t).
Proof. exact wit_arr_map. Qed.

(** missing: as above *)
Theorem C17_substitute_map_order_partial : forall {NN : Num} (e : expr) (d : nat * nat) (sm sm' : list (var * expr)), ExactNum NN -> valid_array d e -> ~ is_scalar e -> valid_map sm -> array_degree 2 e ->
  (forall k t, In (k, ES t) sm -> degree_at_most 1 t) ->
  (forall w, array_var w e \/ map_var w sm -> forall k, In k (map fst sm) -> v_id w = v_id k -> w = k) ->
  (forall k t k', In (k, ES t) sm -> In k' (map fst sm) -> ~ occurs (v_id k') t) -> Permutation sm sm' ->
  exists e1 e2, expr_substitute_map e sm = Ok e1 /\ expr_substitute_map e sm' = Ok e2 /\ forall r i j, i < fst d -> j < snd d -> value r e1 i j = value r e2 i j.
Proof. exact @array_substitute_map_order. Qed.
Print Assumptions C17_substitute_map_order_partial.

(** x -> y, y -> 2 on (x, x): the two iteration orders give different results *)
Theorem C17_substitute_map_refuted : forall NN, NN = F64Num \/ NN = QNum -> exists (a : vector) (sm : submap) (e e' : expr) (r : assignment),
  valid_array (2, 1) (EV a) /\ valid_map sm /\ expr_substitute_map (EV a) sm = Ok e /\ expr_substitute_map (EV a) (rev sm) = Ok e'
  /\ (value r e 0 0 =? value r e' 0 0) = false.
Proof. exact array_substitute_map_refuted. Qed.
Print Assumptions C17_substitute_map_refuted.

(** ** C11, C12, C18, C46 for vectors and matrices *)

Theorem C11_array_degree : forall {NN : Num} (e : expr) (d : nat * nat), valid_array d e ->
  exists g, expr_degree e = Ok g /\ array_degree g e /\ exists row s m, In row (rows e) /\ In s row /\ In m (terms s) /\ tdeg m = g.
Proof. exact @array_degree_spec. Qed.
Print Assumptions C11_array_degree.
Example C11_array_nonvacuous (NN := QNum) : valid_array (2, 2) w_pm /\ valid_array (2, 1) w_pv /\ valid_array (2, 3) w_km3 /\ valid_array (2, 2) w_vm.
Proof. exact wit_shapes. Qed.

Theorem C11_array_linear : forall {NN : Num} (e : expr) (d : nat * nat), valid_array d e -> exists b, expr_is_linear e = Ok b /\ (b = true <-> array_degree 1 e).
Proof. exact @array_is_linear. Qed.
Print Assumptions C11_array_linear.

Theorem C12_array_variables : forall {NN : Num} (e : expr) (d : nat * nat), valid_array d e ->
  exists vs, expr_variables e = Ok vs /\ NoDup (map v_id vs) /\ (forall i, In i (map v_id vs) <-> array_occurs i e) /\ (forall w, In w vs -> array_var w e)
    /\ forall r r', (forall v, In v vs -> r (v_id v) = r' (v_id v)) -> forall i j, i < fst d -> j < snd d -> value r e i j = value r' e i j.
Proof. exact @array_variables. Qed.
Print Assumptions C12_array_variables.

(** missing: entries with uncollected like terms; constant monomials (their LinearCoeff is the constant) *)
Theorem C18_vector_linear_partial : forall {NN : Num} {EX : ExactNum NN} (v : vector) (n : nat) (w : list var), valid_array (n, 1) (EV v) -> array_degree 1 (EV v) ->
  (forall i, i < n -> collected (entry (EV v) i 0) /\ match entry (EV v) i 0 with SM m => m_vars m <> [] | _ => True end) ->
  w <> [] -> Forall valid_var w -> NoDup (map v_id w) -> (forall i, array_occurs i (EV v) -> In i (map v_id w)) ->
  exists A b, vec_linear_coeff v [w] = Ok A /\ vec_constant v = Ok b /\ dense_shape (n, length w) A /\ length b = n
    /\ forall r i, i < n -> value r (EV v) i 0 = dot r (nth i A []) w + nth i b n0.
Proof. exact @vector_linear_decomposition. Qed.
Print Assumptions C18_vector_linear_partial.
Example C18_vector_nonvacuous (NN := QNum) : valid_array (2, 1) (EV w_lv) /\ array_degree 1 (EV w_lv)
  /\ (forall i, i < 2 -> collected (entry (EV w_lv) i 0) /\ match entry (EV w_lv) i 0 with SM m => m_vars m <> [] | _ => True end)
  /\ [wy; wx; wz] <> [] /\ Forall valid_var [wy; wx; wz] /\ NoDup (map v_id [wy; wx; wz]) /\ (forall i, array_occurs i (EV w_lv) -> In i (map v_id [wy; wx; wz])).
Proof. exact wit_arr_linear. Qed.

(** missing: entries with uncollected like terms *)
Theorem C46_vector_constant_partial : forall {NN : Num} {EX : ExactNum NN} (v : vector) (n : nat), valid_array (n, 1) (EV v) -> (forall i, i < n -> collected (entry (EV v) i 0)) ->
  exists c, vec_constant v = Ok c /\ length c = n /\ forall i, i < n -> nth i c n0 = value (fun _ => n0) (EV v) i 0.
Proof. exact @vector_constant. Qed.
Print Assumptions C46_vector_constant_partial.
Example C46_array_nonvacuous (NN := QNum) : valid_array (2, 1) w_pv /\ (forall i, i < 2 -> collected (entry w_pv i 0)) /\ valid_array (2, 2) w_pm /\ (forall i j, i < 2 -> j < 2 -> collected (entry w_pm i j)).
Proof. exact wit_arr_collected. Qed.

(** missing: entries with uncollected like terms, which MonomialMatrix.Plus returns (C46_matrix_refuted) *)
Theorem C46_matrix_constant_partial : forall {NN : Num} {EX : ExactNum NN} (m : matrix) (d : nat * nat), valid_array d (EM m) -> (forall i j, i < fst d -> j < snd d -> collected (entry (EM m) i j)) ->
  exists c, mat_constant m = Ok c /\ dense_shape d c /\ forall i j, i < fst d -> j < snd d -> dense_entry c i j = value (fun _ => n0) (EM m) i j.
Proof. exact @matrix_constant. Qed.
Print Assumptions C46_matrix_constant_partial.

Theorem C46_matrix_refuted : forall NN, NN = F64Num \/ NN = QNum -> exists (a : matrix) (g : goval) (m : matrix) (c : list (list num)),
  valid_array (2, 2) (EM a) /\ expr_plus (EM a) g = Ok (EM m) /\ mat_constant m = Ok c /\ (dense_entry c 0 0 =? value (fun _ => n0) (EM m) 0 0) = false.
Proof. exact array_constant_refuted. Qed.
Print Assumptions C46_matrix_refuted.

(** ** C51 simplification of vectors and matrices *)

Theorem C51_simplified_total : forall {NN : Num} (e : expr) (d : nat * nat), valid_array d e -> exists e', expr_simplified e = Ok e' /\ valid_array d e' /\ forall i, array_occurs i e' -> array_occurs i e.
Proof. exact @array_simplified_total. Qed.
Print Assumptions C51_simplified_total.
Example C51_simplified_nonvacuous (NN := QNum) : valid_array (2, 1) w_pv /\ (forall i j, i < 2 -> j < 1 -> unambiguous (fun m => In m (terms (entry w_pv i j)))).
Proof. exact wit_arr_simplify. Qed.

(** missing: terms that look alike, as for scalars (C05_simplify_refuted) *)
Theorem C51_simplified_value_partial : forall {NN : Num} (e : expr) (d : nat * nat), ExactNum NN -> valid_array d e ->
  (forall i j, i < fst d -> j < snd d -> unambiguous (fun m => In m (terms (entry e i j)))) ->
  exists e', expr_simplified e = Ok e' /\ valid_array d e' /\ forall r i j, i < fst d -> j < snd d -> value r e' i j = value r e i j.
Proof. exact @array_simplified_value. Qed.
Print Assumptions C51_simplified_value_partial.

Theorem C51_simplified_twice : forall {NN : Num} (e : expr) (d : nat * nat) (e' : expr), ExactNum NN -> valid_array d e -> expr_simplified e = Ok e' -> expr_simplified e' = Ok e'.
Proof. exact @array_simplified_twice. Qed.
Print Assumptions C51_simplified_twice.
