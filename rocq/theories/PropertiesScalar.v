(** * Properties of scalar expressions

    Each theorem is proved in another file; the identifiers are those of properties.jsonl.  Below each theorem stand its
    assumptions and an instance of its hypotheses. *)

From Coq Require Import ZArith NArith Bool List Reals.
From Verif Require Import Num Syntax ModelScalar Spec SpecProg NumR Programs ListFacts ScalarNorm ScalarLin ScalarMore Deriv ScalarFacts Degrees Witness ScalarWit.
Import ListNotations.
Local Open Scope num_scope.

(** ** C01 Plus *)

(** any numbers, binary64 included: no panic, and the result is a valid expression in normal form *)
Theorem C01_plus_total : forall {NN : Num} (a b : scalar), valid a -> valid b ->
  exists s, scalar_plus a b = Ok s /\ valid s /\ normal s.
Proof. exact @plus_total. Qed.
Print Assumptions C01_plus_total.
Example C01_plus_total_nonvacuous (NN := QNum) : valid w_cubic /\ valid w_cubic2.
Proof. exact wit_cubic_valid. Qed.

(** exact numbers; missing: pairs of terms such as x^2 y and y^2 x, for which the claim is false (C01_plus_refuted) *)
Theorem C01_plus_value_partial : forall {NN : Num} (a b : scalar), ExactNum NN -> valid a -> valid b -> unambiguous (in_either a b) ->
  exists s, scalar_plus a b = Ok s /\ forall r, eval r s = eval r a + eval r b.
Proof. exact @plus_value. Qed.
Print Assumptions C01_plus_value_partial.
Example C01_plus_value_nonvacuous (NN := QNum) : unambiguous (in_either w_cubic w_cubic2).
Proof. exact wit_cubic_unambiguous. Qed.

Theorem C01_plus_degree2_partial : forall {NN : Num} (a b : scalar), ExactNum NN -> valid a -> valid b ->
  degree_at_most 2 a -> degree_at_most 2 b ->
  exists s, scalar_plus a b = Ok s /\ forall r, eval r s = eval r a + eval r b.
Proof. exact @plus_degree2. Qed.
Print Assumptions C01_plus_degree2_partial.
Example C01_plus_degree2_nonvacuous (NN := QNum) : valid w_quad /\ valid w_quad2 /\ degree_at_most 2 w_quad /\ degree_at_most 2 w_quad2.
Proof. exact wit_quad. Qed.

Theorem C01_plus_one_variable_partial : forall {NN : Num} (x : N) (a b : scalar), ExactNum NN -> valid a -> valid b ->
  only_variable x a -> only_variable x b ->
  exists s, scalar_plus a b = Ok s /\ forall r, eval r s = eval r a + eval r b.
Proof. exact @plus_one_variable. Qed.
Print Assumptions C01_plus_one_variable_partial.
Example C01_plus_one_variable_nonvacuous (NN := QNum) : valid w_uni /\ valid w_uni2 /\ only_variable 0 w_uni /\ only_variable 0 w_uni2.
Proof. exact wit_uni. Qed.

(** any degree and number of variables, if every term lists its variables in increasing ID order *)
Theorem C01_plus_sorted_partial : forall {NN : Num} (a b : scalar), ExactNum NN -> valid a -> valid b ->
  sorted_terms a -> sorted_terms b ->
  exists s, scalar_plus a b = Ok s /\ forall r, eval r s = eval r a + eval r b.
Proof. exact @plus_sorted. Qed.
Print Assumptions C01_plus_sorted_partial.
Example C01_plus_sorted_nonvacuous (NN := QNum) : sorted_terms w_cubic /\ sorted_terms w_cubic2.
Proof. exact wit_cubic_sorted. Qed.

(** x*x*y + y*y*x: the sum of the results of two API programs has the wrong value, in binary64 and in exact arithmetic *)
Theorem C01_plus_refuted : forall NN, NN = F64Num \/ NN = QNum -> exists (p q : prog) (r : assignment) (a b s : scalar),
  well_formed p /\ well_formed q /\ run p = Ok a /\ run q = Ok b /\ scalar_plus a b = Ok s
  /\ (eval r s =? eval r a + eval r b) = false.
Proof. exact plus_refuted. Qed.
Print Assumptions C01_plus_refuted.

(** ** C02 Minus *)

Theorem C02_minus_total : forall {NN : Num} (a b : scalar), valid a -> valid b ->
  exists s, scalar_minus a b = Ok s /\ valid s /\ normal s.
Proof. exact @minus_total. Qed.
Print Assumptions C02_minus_total.
Example C02_minus_total_nonvacuous (NN := QNum) : valid w_cubic /\ valid w_cubic2.
Proof. exact wit_cubic_valid. Qed.

Theorem C02_minus_value_partial : forall {NN : Num} (a b : scalar), ExactNum NN -> valid a -> valid b -> unambiguous (in_either a b) ->
  exists s, scalar_minus a b = Ok s /\ forall r, eval r s = eval r a - eval r b.
Proof. exact @minus_value_u. Qed.
Print Assumptions C02_minus_value_partial.
Example C02_minus_value_nonvacuous (NN := QNum) : unambiguous (in_either w_cubic w_cubic2).
Proof. exact wit_cubic_unambiguous. Qed.

Theorem C02_minus_degree2_partial : forall {NN : Num} (a b : scalar), ExactNum NN -> valid a -> valid b ->
  degree_at_most 2 a -> degree_at_most 2 b ->
  exists s, scalar_minus a b = Ok s /\ forall r, eval r s = eval r a - eval r b.
Proof. exact @minus_degree2. Qed.
Print Assumptions C02_minus_degree2_partial.
Example C02_minus_degree2_nonvacuous (NN := QNum) : valid w_quad /\ valid w_quad2 /\ degree_at_most 2 w_quad /\ degree_at_most 2 w_quad2.
Proof. exact wit_quad. Qed.

Theorem C02_minus_one_variable_partial : forall {NN : Num} (x : N) (a b : scalar), ExactNum NN -> valid a -> valid b ->
  only_variable x a -> only_variable x b ->
  exists s, scalar_minus a b = Ok s /\ forall r, eval r s = eval r a - eval r b.
Proof. exact @minus_one_variable. Qed.
Print Assumptions C02_minus_one_variable_partial.
Example C02_minus_one_variable_nonvacuous (NN := QNum) : valid w_uni /\ valid w_uni2 /\ only_variable 0 w_uni /\ only_variable 0 w_uni2.
Proof. exact wit_uni. Qed.

Theorem C02_minus_sorted_partial : forall {NN : Num} (a b : scalar), ExactNum NN -> valid a -> valid b ->
  sorted_terms a -> sorted_terms b ->
  exists s, scalar_minus a b = Ok s /\ forall r, eval r s = eval r a - eval r b.
Proof. exact @minus_sorted. Qed.
Print Assumptions C02_minus_sorted_partial.
Example C02_minus_sorted_nonvacuous (NN := QNum) : sorted_terms w_cubic /\ sorted_terms w_cubic2.
Proof. exact wit_cubic_sorted. Qed.

Theorem C02_minus_refuted : forall NN, NN = F64Num \/ NN = QNum -> exists (p q : prog) (r : assignment) (a b s : scalar),
  well_formed p /\ well_formed q /\ run p = Ok a /\ run q = Ok b /\ scalar_minus a b = Ok s
  /\ (eval r s =? eval r a - eval r b) = false.
Proof. exact minus_refuted. Qed.
Print Assumptions C02_minus_refuted.

(** ** C03 Multiply *)

Theorem C03_multiply_total : forall {NN : Num} (a b : scalar), valid a -> valid b ->
  exists s, scalar_mul a b = Ok s /\ valid s /\ collected s.
Proof. exact @mul_total. Qed.
Print Assumptions C03_multiply_total.
Example C03_multiply_total_nonvacuous (NN := QNum) : valid w_cubic /\ valid w_cubic2.
Proof. exact wit_cubic_valid. Qed.

Theorem C03_multiply_value_partial : forall {NN : Num} (a b : scalar), ExactNum NN -> valid a -> valid b ->
  unambiguous_exponents (product_terms a b) ->
  exists s, scalar_mul a b = Ok s /\ forall r, eval r s = eval r a * eval r b.
Proof. exact @mul_value. Qed.
Print Assumptions C03_multiply_value_partial.
Example C03_multiply_value_nonvacuous (NN := QNum) : valid w_lin /\ valid (SV wx) /\ unambiguous_exponents (product_terms w_lin (SV wx)).
Proof. exact wit_product. Qed.

Theorem C03_multiply_degree2_partial : forall {NN : Num} (a b : scalar) (da db : Z), ExactNum NN -> valid a -> valid b ->
  degree_at_most da a -> degree_at_most db b -> (da + db <= 2)%Z ->
  exists s, scalar_mul a b = Ok s /\ forall r, eval r s = eval r a * eval r b.
Proof. exact @mul_degree2. Qed.
Print Assumptions C03_multiply_degree2_partial.
Example C03_multiply_degree2_nonvacuous (NN := QNum) : valid w_lin /\ degree_at_most 1 w_lin /\ valid (SV wx) /\ degree_at_most 1 (SV wx) /\ (1 + 1 <= 2)%Z.
Proof. exact wit_lin2. Qed.

Theorem C03_multiply_one_variable_partial : forall {NN : Num} (x : N) (a b : scalar), ExactNum NN -> valid a -> valid b ->
  only_variable x a -> only_variable x b ->
  exists s, scalar_mul a b = Ok s /\ forall r, eval r s = eval r a * eval r b.
Proof. exact @mul_one_variable. Qed.
Print Assumptions C03_multiply_one_variable_partial.
Example C03_multiply_one_variable_nonvacuous (NN := QNum) : valid w_uni /\ valid w_uni2 /\ only_variable 0 w_uni /\ only_variable 0 w_uni2.
Proof. exact wit_uni. Qed.

(** constants, variables and monomials of any degree *)
Theorem C03_multiply_one_term_partial : forall {NN : Num} (a b : scalar), ExactNum NN -> valid a -> valid b -> one_term a -> one_term b ->
  exists s, scalar_mul a b = Ok s /\ forall r, eval r s = eval r a * eval r b.
Proof. exact @mul_one_term. Qed.
Print Assumptions C03_multiply_one_term_partial.
Example C03_multiply_one_term_nonvacuous (NN := QNum) : valid w_cubic2 /\ valid w_uni2 /\ one_term w_cubic2 /\ one_term w_uni2.
Proof. exact wit_one_term. Qed.

(** (x^2 + y*x) * y *)
Theorem C03_multiply_refuted : forall NN, NN = F64Num \/ NN = QNum -> exists (p q : prog) (r : assignment) (a b s : scalar),
  well_formed p /\ well_formed q /\ run p = Ok a /\ run q = Ok b /\ scalar_mul a b = Ok s
  /\ (eval r s =? eval r a * eval r b) = false.
Proof. exact mul_refuted. Qed.
Print Assumptions C03_multiply_refuted.

(** ** C04 Power *)

Theorem C04_power_total : forall {NN : Num} (a : scalar) (n : Z), valid a -> (0 <= n)%Z ->
  exists s, scalar_power a n = Ok s /\ valid s /\ collected s.
Proof. exact @power_total. Qed.
Print Assumptions C04_power_total.
Theorem C04_power_zero : forall {NN : Num} (a : scalar), valid a -> scalar_power a 0 = Ok (SK n1).
Proof. exact @power_zero. Qed.
Print Assumptions C04_power_zero.
Theorem C04_power_negative : forall {NN : Num} (a : scalar) (n : Z), valid a -> (n < 0)%Z -> scalar_power a n = Panic PNegExp.
Proof. exact @power_negative. Qed.
Print Assumptions C04_power_negative.

(** constants, variables, monomials: no condition *)
Theorem C04_power_not_polynomial_partial : forall {NN : Num} (a : scalar) (n : Z), ExactNum NN -> valid a -> (forall p, a <> SP p) -> (0 <= n)%Z ->
  exists s, scalar_power a n = Ok s /\ forall r, eval r s = npow (eval r a) (Z.to_nat n).
Proof. exact @power_not_polynomial. Qed.
Print Assumptions C04_power_not_polynomial_partial.
Example C04_power_not_polynomial_nonvacuous (NN := QNum) : valid w_cubic2 /\ (forall p, w_cubic2 <> SP p) /\ (0 <= 5)%Z.
Proof. exact wit_not_poly. Qed.

Theorem C04_power_value_partial : forall {NN : Num} (a : scalar) (n : Z), ExactNum NN -> valid a -> (0 <= n)%Z ->
  unambiguous_exponents (power_terms a (Z.to_nat n)) ->
  exists s, scalar_power a n = Ok s /\ forall r, eval r s = npow (eval r a) (Z.to_nat n).
Proof. exact @power_value. Qed.
Print Assumptions C04_power_value_partial.
Example C04_power_value_nonvacuous (NN := QNum) : valid w_uni /\ (0 <= 7)%Z /\ unambiguous_exponents (power_terms w_uni (Z.to_nat 7)).
Proof. exact wit_power. Qed.

Theorem C04_power_degree2_partial : forall {NN : Num} (a : scalar) (n d : Z), ExactNum NN -> valid a -> (0 <= n)%Z ->
  degree_at_most d a -> (n * d <= 2)%Z ->
  exists s, scalar_power a n = Ok s /\ forall r, eval r s = npow (eval r a) (Z.to_nat n).
Proof. exact @power_degree2. Qed.
Print Assumptions C04_power_degree2_partial.
Example C04_power_degree2_nonvacuous (NN := QNum) : valid w_lin /\ (0 <= 2)%Z /\ degree_at_most 1 w_lin /\ (2 * 1 <= 2)%Z.
Proof. exact wit_power2. Qed.

Theorem C04_power_one_variable_partial : forall {NN : Num} (x : N) (a : scalar) (n : Z), ExactNum NN -> valid a -> (0 <= n)%Z ->
  only_variable x a ->
  exists s, scalar_power a n = Ok s /\ forall r, eval r s = npow (eval r a) (Z.to_nat n).
Proof. exact @power_one_variable. Qed.
Print Assumptions C04_power_one_variable_partial.
Example C04_power_one_variable_nonvacuous (NN := QNum) : valid w_uni /\ valid w_uni2 /\ only_variable 0 w_uni /\ only_variable 0 w_uni2.
Proof. exact wit_uni. Qed.

(** (x + y)^3 *)
Theorem C04_power_refuted : forall NN, NN = F64Num \/ NN = QNum -> exists (p : prog) (n : Z) (r : assignment) (a s : scalar),
  well_formed p /\ (0 <= n)%Z /\ run p = Ok a /\ scalar_power a n = Ok s
  /\ (eval r s =? npow (eval r a) (Z.to_nat n)) = false.
Proof. exact power_refuted. Qed.
Print Assumptions C04_power_refuted.

(** ** C05 simplification keeps the value *)

Theorem C05_simplify_value_partial : forall {NN : Num} (a : scalar), ExactNum NN -> valid a -> unambiguous (fun m => In m (terms a)) ->
  exists s, scalar_simplified a = Ok s /\ forall r, eval r s = eval r a.
Proof. exact @simplify_value. Qed.
Print Assumptions C05_simplify_value_partial.
Theorem C05_simplify_degree2_partial : forall {NN : Num} (a : scalar), ExactNum NN -> valid a -> degree_at_most 2 a ->
  exists s, scalar_simplified a = Ok s /\ forall r, eval r s = eval r a.
Proof. exact @simplify_degree2. Qed.
Print Assumptions C05_simplify_degree2_partial.
Theorem C05_simplify_one_variable_partial : forall {NN : Num} (x : N) (a : scalar), ExactNum NN -> valid a -> only_variable x a ->
  exists s, scalar_simplified a = Ok s /\ forall r, eval r s = eval r a.
Proof. exact @simplify_one_variable. Qed.
Print Assumptions C05_simplify_one_variable_partial.
Example C05_simplify_nonvacuous (NN := QNum) : valid w_twice /\ unambiguous (fun m => In m (terms w_twice)) /\ degree_at_most 2 w_twice /\ only_variable 0 w_twice.
Proof. exact wit_simplify. Qed.

(** the z-derivative of x*x*y*z*z + y*y*z*z*x, simplified *)
Theorem C05_simplify_refuted : forall NN, NN = F64Num \/ NN = QNum -> exists (p : prog) (r : assignment) (a s : scalar),
  well_formed p /\ run p = Ok a /\ scalar_simplified a = Ok s /\ (eval r s =? eval r a) = false.
Proof. exact simplify_refuted. Qed.
Print Assumptions C05_simplify_refuted.

(** ** C06 normal form and idempotence *)

Theorem C06_simplified_normal : forall {NN : Num} (s : scalar), valid s ->
  exists s', scalar_simplified s = Ok s' /\ valid s' /\ normal s'.
Proof. exact @simplified_normal. Qed.
Print Assumptions C06_simplified_normal.
Theorem C06_idempotent_exact : forall {NN : Num} (s s' : scalar), ExactNum NN -> valid s ->
  scalar_simplified s = Ok s' -> scalar_simplified s' = Ok s'.
Proof. exact @idempotent_exact. Qed.
Print Assumptions C06_idempotent_exact.
Theorem C06_idempotent_binary64 : forall (s s' : @scalar F64Num), valid s ->
  scalar_simplified s = Ok s' -> scalar_simplified s' = Ok s'.
Proof. exact idempotent_binary64. Qed.
Print Assumptions C06_idempotent_binary64.
Example C06_nonvacuous (NN := QNum) : valid w_cubic /\ valid w_cubic2.
Proof. exact wit_cubic_valid. Qed.

(** ** C07 derivatives *)

Theorem C07_derivative_total : forall {NN : Num} (s : scalar) (v : var), valid s -> valid_var v ->
  exists d, scalar_derivative s v = Ok d /\ valid d.
Proof. exact @scalar_derivative_valid. Qed.
Print Assumptions C07_derivative_total.
(** over the real numbers, [derivable_pt_lim f x l] of the standard library: l is the derivative of f at x *)
Theorem C07_derivative_correct : forall (s : @scalar RNum) (v : @var RNum) (r : @assignment RNum), valid s -> valid_var v ->
  exists d, scalar_derivative s v = Ok d /\ valid d
    /\ derivable_pt_lim (fun x : R => eval (update r (v_id v) x) s) (r (v_id v)) (eval r d).
Proof. exact scalar_derivative_derivable. Qed.
Print Assumptions C07_derivative_correct.
Example C07_nonvacuous (NN := RNum) : valid w_cubic /\ valid_var wx.
Proof. exact wit_derivative_R. Qed.

(** ** C11 degrees *)

Theorem C11_degree_is_maximum : forall {NN : Num} (s : scalar), valid s ->
  exists d, scalar_degree s = Ok d /\ (forall m, In m (terms s) -> (tdeg m <= d)%Z) /\ exists m, In m (terms s) /\ tdeg m = d.
Proof. exact @scalar_degree_ok. Qed.
Print Assumptions C11_degree_is_maximum.
Theorem C11_degree_plus : forall {NN : Num} (a b s : scalar) (da db : Z), valid a -> valid b ->
  scalar_plus a b = Ok s -> scalar_degree a = Ok da -> scalar_degree b = Ok db ->
  exists d, scalar_degree s = Ok d /\ (d <= Z.max da db)%Z.
Proof. exact @plus_degree_law. Qed.
Print Assumptions C11_degree_plus.
Theorem C11_degree_multiply : forall {NN : Num} (a b s : scalar) (da db : Z), valid a -> valid b ->
  scalar_mul a b = Ok s -> scalar_degree a = Ok da -> scalar_degree b = Ok db ->
  exists d, scalar_degree s = Ok d /\ (d <= da + db)%Z.
Proof. exact @mul_degree_law. Qed.
Print Assumptions C11_degree_multiply.
Theorem C11_degree_monomials : forall {NN : Num} (m1 m2 : Monomial), valid_mono m1 -> valid_mono m2 ->
  exists m, scalar_mul (SM m1) (SM m2) = Ok (SM m) /\ scalar_degree (SM m) = Ok (tdeg m1 + tdeg m2)%Z.
Proof. exact @mono_degree_law. Qed.
Print Assumptions C11_degree_monomials.
Theorem C11_degree_power : forall {NN : Num} (a : scalar) (n : Z) (s : scalar) (da : Z), valid a -> (0 <= n)%Z ->
  scalar_power a n = Ok s -> scalar_degree a = Ok da -> exists d, scalar_degree s = Ok d /\ (d <= n * da)%Z.
Proof. exact @power_degree_law. Qed.
Print Assumptions C11_degree_power.
Theorem C11_degree_derivative : forall {NN : Num} (s : scalar) (v : var) (d : scalar) (g : Z), valid s -> valid_var v ->
  scalar_derivative s v = Ok d -> scalar_degree s = Ok g -> exists g', scalar_degree d = Ok g' /\ (g' <= Z.max 0 (g - 1))%Z.
Proof. exact @derivative_degree_law. Qed.
Print Assumptions C11_degree_derivative.
Theorem C11_degree_substitute : forall {NN : Num} (s : scalar) (v : var) (e t : scalar) (g d : Z), valid s -> valid_var v -> valid e ->
  scalar_substitute s v e = Ok t -> scalar_degree s = Ok g -> scalar_degree e = Ok d ->
  exists g', scalar_degree t = Ok g' /\ (g' <= g * Z.max 1 d)%Z.
Proof. exact @substitute_degree_law. Qed.
Print Assumptions C11_degree_substitute.
(** whole programs: the degree is at most the one read off the program text *)
Theorem C11_degree_programs : forall {NN : Num} (p : prog), well_formed p ->
  exists s d, run p = Ok s /\ scalar_degree s = Ok d /\ (0 <= d <= text_degree p)%Z.
Proof. exact @run_degree_law. Qed.
Print Assumptions C11_degree_programs.
Example C11_degree_programs_nonvacuous (NN := QNum) : valid_var wx /\ exists p, well_formed p /\ p = PSubst (PDeriv (PPow (PVar wx) 3) wx) wx (PPlus (PVar wy) (PConst n1)).
Proof. exact wit_degree_program. Qed.
Theorem C11_is_linear : forall {NN : Num} (s : scalar), valid s ->
  exists b, scalar_is_linear s = Ok b /\ (b = true <-> degree_at_most 1 s).
Proof. exact @is_linear_iff. Qed.
Print Assumptions C11_is_linear.
Theorem C11_is_quadratic : forall {NN : Num} (s : scalar), valid s ->
  exists b, scalar_is_quadratic s = Ok b /\ (b = true <-> degree_at_most 2 s).
Proof. exact @is_quadratic_iff. Qed.
Print Assumptions C11_is_quadratic.
Example C11_nonvacuous (NN := QNum) : valid w_cubic /\ valid w_cubic2.
Proof. exact wit_cubic_valid. Qed.

(** ** C12 Variables *)

Theorem C12_variables : forall {NN : Num} (s : scalar), valid s ->
  NoDup (map v_id (scalar_variables s))
  /\ (forall i, In i (map v_id (scalar_variables s)) <-> occurs i s)
  /\ (forall r r' : assignment, (forall v, In v (scalar_variables s) -> r (v_id v) = r' (v_id v)) -> eval r s = eval r' s).
Proof. exact @variables_facts. Qed.
Print Assumptions C12_variables.
Example C12_nonvacuous (NN := QNum) : valid w_cubic /\ valid w_cubic2.
Proof. exact wit_cubic_valid. Qed.

(** ** C13 deduplication *)

Theorem C13_unique_vars : forall {NN : Num} (l : list var),
  unique_vars l = delete_later v_id l
  /\ NoDup (map v_id (unique_vars l))
  /\ (forall i, In i (map v_id (unique_vars l)) <-> In i (map v_id l))
  /\ unique_vars (unique_vars l) = unique_vars l.
Proof. exact @unique_vars_facts. Qed.
Print Assumptions C13_unique_vars.
Theorem C13_unique : forall (l : list N),
  unique_ids l = delete_later (fun x => x) l
  /\ NoDup (unique_ids l)
  /\ (forall i, In i (unique_ids l) <-> In i l)
  /\ unique_ids (unique_ids l) = unique_ids l.
Proof. exact unique_ids_facts. Qed.
Print Assumptions C13_unique.
Theorem C13_union_of_variables : forall {NN : Num} (ls : list (list var)),
  union_of_variables ls = delete_later v_id (concat ls)
  /\ NoDup (map v_id (union_of_variables ls))
  /\ (forall i, In i (map v_id (union_of_variables ls)) <-> exists l, In l ls /\ In i (map v_id l)).
Proof. exact @union_facts. Qed.
Print Assumptions C13_union_of_variables.

(** ** C14 FindInSlice *)

Theorem C14_find_in_slice : forall {A : Type} (eqb : A -> A -> bool) (x : A) (l : list A),
  (find_in_slice eqb x l = None <-> forall y, In y l -> eqb x y = false)
  /\ (forall i, find_in_slice eqb x l = Some i -> exists y, nth_error l i = Some y /\ eqb x y = true).
Proof. exact @find_in_slice_facts. Qed.
Print Assumptions C14_find_in_slice.

(** ** C15 Substitute *)

Theorem C15_substitute_total : forall {NN : Num} (s : scalar) (v : var) (e : scalar), valid s -> valid_var v -> valid e ->
  exists s', scalar_substitute s v e = Ok s' /\ valid s'.
Proof. exact @scalar_substitute_valid. Qed.
Print Assumptions C15_substitute_total.
Theorem C15_substitute_value_partial : forall {NN : Num} (s : scalar) (v : var) (e : scalar), ExactNum NN ->
  valid s -> valid_var v -> valid e -> same_environment v s ->
  unambiguous_exponents (substituted_terms (replacement v e) s) ->
  exists s', scalar_substitute s v e = Ok s' /\ forall r, eval r s' = eval (update r (v_id v) (eval r e)) s.
Proof. exact @substitute_value. Qed.
Print Assumptions C15_substitute_value_partial.
Theorem C15_substitute_degree2_partial : forall {NN : Num} (s : scalar) (v : var) (e : scalar) (d D : Z), ExactNum NN ->
  valid s -> valid_var v -> valid e -> same_environment v s ->
  degree_at_most d s -> degree_at_most D e -> (1 <= D)%Z -> (d * D <= 2)%Z ->
  exists s', scalar_substitute s v e = Ok s' /\ forall r, eval r s' = eval (update r (v_id v) (eval r e)) s.
Proof. exact @substitute_degree2. Qed.
Print Assumptions C15_substitute_degree2_partial.
Example C15_substitute_nonvacuous (NN := QNum) : valid w_lin /\ valid_var wx /\ valid w_lin /\ same_environment wx w_lin
  /\ unambiguous_exponents (substituted_terms (replacement wx w_lin) w_lin)
  /\ degree_at_most 1 w_lin /\ (1 <= 1)%Z /\ (1 * 1 <= 2)%Z.
Proof. exact wit_substitute. Qed.
Theorem C15_substitute_one_variable_partial : forall {NN : Num} (s : scalar) (v : var) (e : scalar) (x : N), ExactNum NN ->
  valid s -> valid_var v -> valid e -> same_environment v s ->
  only_variable (v_id v) s -> only_variable x e ->
  exists s', scalar_substitute s v e = Ok s' /\ forall r, eval r s' = eval (update r (v_id v) (eval r e)) s.
Proof. exact @substitute_one_variable. Qed.
Print Assumptions C15_substitute_one_variable_partial.
Example C15_substitute_one_variable_nonvacuous (NN := QNum) : valid w_uni /\ valid_var wx /\ valid w_uni2 /\ same_environment wx w_uni
  /\ only_variable (v_id wx) w_uni /\ only_variable 0 w_uni2.
Proof. exact wit_substitute_one. Qed.
(** z := y in x*x*z + y*y*x *)
Theorem C15_substitute_refuted : forall NN, NN = F64Num \/ NN = QNum ->
  exists (p : prog) (v : var) (e : scalar) (r : assignment) (a s : scalar),
  well_formed p /\ valid_var v /\ valid e /\ run p = Ok a /\ scalar_substitute a v e = Ok s
  /\ (eval r s =? eval (update r (v_id v) (eval r e)) a) = false.
Proof. exact substitute_refuted. Qed.
Print Assumptions C15_substitute_refuted.

(** ** C16 SubstituteAccordingTo *)

Theorem C16_substitute_map_total : forall {NN : Num} (s : scalar) (sm : list (var * expr)), valid s -> valid_map sm ->
  exists s', scalar_substitute_map s sm = Ok s' /\ valid s'.
Proof. exact @substitute_map_total. Qed.
Print Assumptions C16_substitute_map_total.
Theorem C16_substitute_map_value_partial : forall {NN : Num} (s : scalar) (sm : list (var * expr)) (image : var -> scalar), ExactNum NN ->
  valid s -> valid_map sm ->
  (forall w e, In (w, ES e) sm -> image w = e) -> (forall w, (forall e, ~ In (w, e) sm) -> image w = SV w) ->
  unambiguous_exponents (substituted_terms image s) ->
  exists s', scalar_substitute_map s sm = Ok s' /\ forall r r', simultaneous r sm s r' -> eval r s' = eval r' s.
Proof. exact @substitute_map_value. Qed.
Print Assumptions C16_substitute_map_value_partial.
Theorem C16_substitute_map_degree2_partial : forall {NN : Num} (s : scalar) (sm : list (var * expr)) (d D : Z), ExactNum NN ->
  valid s -> valid_map sm -> degree_at_most d s -> (forall k e, In (k, ES e) sm -> degree_at_most D e) -> (1 <= D)%Z -> (d * D <= 2)%Z ->
  exists s', scalar_substitute_map s sm = Ok s' /\ forall r r', simultaneous r sm s r' -> eval r s' = eval r' s.
Proof. exact @substitute_map_degree2. Qed.
Print Assumptions C16_substitute_map_degree2_partial.
Example C16_substitute_map_nonvacuous (NN := QNum) : valid w_lin /\ valid_map w_swap /\ degree_at_most 1 w_lin
  /\ (forall k e, In (k, ES e) w_swap -> degree_at_most 1 e) /\ (1 <= 1)%Z /\ (1 * 1 <= 2)%Z
  /\ simultaneous (at3 3 5 0) w_swap w_lin (at3 5 3 0).
Proof. exact wit_swap. Qed.
(** substituting numbers for all variables evaluates the expression, whatever its degree *)
Theorem C16_substitute_numbers : forall {NN : Num} (s : scalar) (sm : list (var * expr)), ExactNum NN ->
  valid s -> valid_map sm -> maps_to_numbers sm s ->
  exists c, scalar_substitute_map s sm = Ok (SK c) /\ forall r, numbers_of sm s r -> c = eval r s.
Proof. exact @substitute_map_numbers. Qed.
Print Assumptions C16_substitute_numbers.
Example C16_substitute_numbers_nonvacuous (NN := QNum) : valid w_cubic /\ valid_map w_nums /\ maps_to_numbers w_nums w_cubic /\ numbers_of w_nums w_cubic (at3 2 3 0).
Proof. exact wit_nums. Qed.
Theorem C16_substitute_map_refuted : forall NN, NN = F64Num \/ NN = QNum ->
  exists (p : prog) (v : var) (e : scalar) (r : assignment) (a s : scalar),
  well_formed p /\ valid_var v /\ valid e /\ run p = Ok a /\ scalar_substitute_map a [(v, ES e)] = Ok s
  /\ (eval r s =? eval (update r (v_id v) (eval r e)) a) = false.
Proof. exact substitute_map_refuted. Qed.
Print Assumptions C16_substitute_map_refuted.

(** ** C18 LinearCoeff and Constant *)

(** missing: expressions with uncollected like terms (C18_linear_refuted) and monomials without variables (C19) *)
Theorem C18_linear_decomposition_partial : forall {NN : Num} {EX : ExactNum NN} (s : scalar) (w : list var),
  valid s -> degree_at_most 1 s -> collected s -> match s with SM m => m_vars m <> [] | _ => True end ->
  w <> [] -> Forall valid_var w -> NoDup (map v_id w) -> (forall i, occurs i s -> In i (map v_id w)) ->
  exists cs c, scalar_linear_coeff s [w] = Ok cs /\ scalar_constant s = Ok c /\ length cs = length w
    /\ forall r, eval r s = dot r cs w + c.
Proof. exact @linear_decomposition. Qed.
Print Assumptions C18_linear_decomposition_partial.
Example C18_linear_decomposition_nonvacuous (NN := QNum) : valid w_lin /\ degree_at_most 1 w_lin /\ collected w_lin
  /\ [wy; wx; wz] <> [] /\ Forall valid_var [wy; wx; wz] /\ NoDup (map v_id [wy; wx; wz])
  /\ (forall i, occurs i w_lin -> In i (map v_id [wy; wx; wz])).
Proof. exact wit_linear. Qed.
(** every linear expression built by the API without DerivativeWrt *)
Theorem C18_linear_programs_partial : forall {NN : Num} (p : prog) (w : list var), ExactNum NN -> well_formed p -> no_derivative p ->
  exists s, run p = Ok s /\ (degree_at_most 1 s ->
    w <> [] -> Forall valid_var w -> NoDup (map v_id w) -> (forall i, occurs i s -> In i (map v_id w)) ->
    exists cs c, scalar_linear_coeff s [w] = Ok cs /\ scalar_constant s = Ok c /\ length cs = length w
      /\ forall r, eval r s = dot r cs w + c).
Proof. exact @run_linear. Qed.
Print Assumptions C18_linear_programs_partial.
Example C18_linear_programs_nonvacuous (NN := QNum) : well_formed w_prog2 /\ no_derivative w_prog2
  /\ exists s, run w_prog2 = Ok s /\ degree_at_most 1 s /\ forall i, occurs i s -> In i (map v_id [wy; wx]).
Proof. exact wit_prog2. Qed.
(** the derivatives of x*x*y + y*x*x with respect to x and then y: 2x + 2x, whose LinearCoeff is 2 *)
Theorem C18_linear_refuted : forall NN, NN = F64Num \/ NN = QNum ->
  exists (p : prog) (a : scalar) (w : list var) (cs : list num) (c : num) (r : assignment),
  well_formed p /\ run p = Ok a /\ degree_at_most 1 a /\ (forall i, occurs i a -> In i (map v_id w))
  /\ scalar_linear_coeff a [w] = Ok cs /\ scalar_constant a = Ok c /\ (eval r a =? dot r cs w + c) = false.
Proof. exact linear_refuted. Qed.
Print Assumptions C18_linear_refuted.

(** ** C19 LinearCoeff is total *)

(** missing: monomials *)
Theorem C19_linear_coeff_total_partial : forall {NN : Num} (s : scalar) (w : list var),
  valid s -> (forall m, s <> SM m) -> w <> [] -> Forall valid_var w ->
  exists cs, scalar_linear_coeff s [w] = Ok cs /\ length cs = length w
    /\ forall i x c, nth_error w i = Some x -> nth_error cs i = Some c -> ~ occurs (v_id x) s -> c = n0.
Proof. exact @linear_coeff_total. Qed.
Print Assumptions C19_linear_coeff_total_partial.
Example C19_linear_coeff_total_nonvacuous (NN := QNum) : valid w_lin /\ (forall m, w_lin <> SM m) /\ Forall valid_var [wz; wx].
Proof. exact wit_linear_total. Qed.
(** (2x).LinearCoeff([y]) panics inside gonum *)
Theorem C19_linear_coeff_refuted : forall NN, NN = F64Num \/ NN = QNum -> exists (p : prog) (a : scalar) (w : list var),
  well_formed p /\ run p = Ok a /\ degree_at_most 1 a /\ w <> [] /\ Forall valid_var w /\ scalar_linear_coeff a [w] = Panic PGonum.
Proof. exact linear_total_refuted. Qed.
Print Assumptions C19_linear_coeff_refuted.

(** ** C42 validity of everything the scalar API builds *)

Theorem C42_programs_valid : forall {NN : Num} (p : prog), well_formed p -> exists s, run p = Ok s /\ valid s.
Proof. exact @run_valid. Qed.
Print Assumptions C42_programs_valid.
(** whole programs of arithmetic have the value they denote *)
Theorem C42_program_value_degree2_partial : forall {NN : Num} (p : prog), ExactNum NN -> well_formed p -> arithmetic p -> degree_bounded 2 p ->
  exists s, run p = Ok s /\ valid s /\ degree_at_most (text_degree p) s /\ forall r, eval r s = denote r p.
Proof. exact @run_value_degree. Qed.
Print Assumptions C42_program_value_degree2_partial.
Example C42_program_value_degree2_nonvacuous (NN := QNum) : well_formed w_prog /\ arithmetic w_prog /\ degree_bounded 2 w_prog /\ no_derivative w_prog.
Proof. exact wit_prog. Qed.
Theorem C42_program_value_one_variable_partial : forall {NN : Num} (x : N) (p : prog), ExactNum NN -> well_formed p -> arithmetic p -> mentions_only x p ->
  exists s, run p = Ok s /\ valid s /\ only_variable x s /\ forall r, eval r s = denote r p.
Proof. exact @run_value_one_variable. Qed.
Print Assumptions C42_program_value_one_variable_partial.
Example C42_program_value_one_variable_nonvacuous (NN := QNum) : well_formed w_prog1 /\ arithmetic w_prog1 /\ mentions_only 0 w_prog1.
Proof. exact wit_prog1. Qed.

(** ** C46 Constant *)

Theorem C46_constant_partial : forall {NN : Num} {EX : ExactNum NN} (s : scalar), valid s -> collected s ->
  scalar_constant s = Ok (eval (fun _ => n0) s).
Proof. exact @constant_value. Qed.
Print Assumptions C46_constant_partial.
Theorem C46_constant_programs_partial : forall {NN : Num} (p : prog), ExactNum NN -> well_formed p -> no_derivative p ->
  exists s, run p = Ok s /\ scalar_constant s = Ok (eval (fun _ => n0) s).
Proof. exact @run_constant. Qed.
Print Assumptions C46_constant_programs_partial.
Example C46_nonvacuous (NN := QNum) : well_formed w_prog /\ arithmetic w_prog /\ degree_bounded 2 w_prog /\ no_derivative w_prog.
Proof. exact wit_prog. Qed.
(** three derivatives of x*x*y + y*x*x: 2 + 2, whose Constant is 2 *)
Theorem C46_constant_refuted : forall NN, NN = F64Num \/ NN = QNum -> exists (p : prog) (a : scalar) (c : num),
  well_formed p /\ run p = Ok a /\ scalar_constant a = Ok c /\ (eval (fun _ => n0) a =? c) = false.
Proof. exact constant_refuted. Qed.
Print Assumptions C46_constant_refuted.
