(** * C01-C05, C15-C17, C33, C34: what Plus, Minus, Multiply, Power, AsSimplifiedExpression, Substitute, SubstituteAccordingTo and products of matrices return,
    term by term, for all expressions.
    The specification is SpecCollect.v: terms are collected by look-alike classes ([collect]), so these theorems say exactly where the
    results depart from C01-C05 (look-alike terms that are not equal) and what they are then. *)

From Coq Require Import ZArith NArith Bool List.
From Verif Require Import Num Syntax ModelScalar Spec SpecConv SpecEffect SpecCollect SpecSub Witness ScalarWit EffectWit Collect Collect2 Collect3 CollectWit SubWit
  SpecArr SpecMat ModelShape ModelArith ArrWit CollectMat CollectMono MatWit PowStep CollectSub.
Import ListNotations.
Local Open Scope num_scope.

(** ** C05 *)
Theorem C05_simplify_exact : forall {NN : Num} {EX : ExactNum NN} (s : scalar), valid s -> scalar_simplified s = Ok (simplest (terms s)).
Proof. exact @simplify_exact. Qed.
Print Assumptions C05_simplify_exact.
Example C05_simplify_exact_nonvacuous (NN := QNum) : valid (SP (terms w_sum ++ terms w_dif)) /\ length (terms (SP (terms w_sum ++ terms w_dif))) = 4 /\ map m_vars (terms (simplest (terms w_sum ++ terms w_dif))) = [[wx]] /\ the_coefficients (simplest (terms w_sum ++ terms w_dif)) [nofZ 2] = true.
Proof. exact wit_exact_simplify. Qed.

(** ** C01 *)
Theorem C01_plus_exact : forall {NN : Num} {EX : ExactNum NN} (a b : scalar), valid a -> valid b -> scalar_plus a b = Ok (simplest (summed a b)).
Proof. exact @plus_exact. Qed.
Print Assumptions C01_plus_exact.
Example C01_plus_exact_nonvacuous (NN := QNum) : valid w_sum /\ valid w_dif /\ summed w_sum w_dif = terms w_sum ++ terms w_dif
  /\ map m_vars (collect (summed w_sum w_dif)) = [[wx]] /\ the_coefficients (simplest (summed w_sum w_dif)) [nofZ 2] = true /\ the_coefficients (simplest (summed w_dif w_dif)) [nofZ 2; nofZ (-2)] = true.
Proof. exact wit_exact_plus. Qed.

(** ** C02 *)
Theorem C02_minus_exact : forall {NN : Num} {EX : ExactNum NN} (a b : scalar), valid a -> valid b -> scalar_minus a b = Ok (subtracted a b).
Proof. exact @minus_exact. Qed.
Print Assumptions C02_minus_exact.
Example C02_minus_exact_nonvacuous (NN := QNum) : valid w_sum /\ valid w_dif /\ map m_vars (terms (subtracted w_sum w_dif)) = [[wy]] /\ the_coefficients (subtracted w_sum w_dif) [nofZ 2] = true.
Proof. exact wit_exact_minus. Qed.

(** ** C03 *)
Theorem C03_multiply_exact : forall {NN : Num} {EX : ExactNum NN} (a b : scalar), valid a -> valid b -> scalar_mul a b = Ok (multiplied a b).
Proof. exact @multiply_exact. Qed.
Print Assumptions C03_multiply_exact.

Theorem C03_multiply_exactly_when : forall {NN : Num} {EX : ExactNum NN} (a b s : scalar), valid a -> valid b -> scalar_mul a b = Ok s ->
  ((forall r, eval r s = eval r a * eval r b) <-> forall m, valid_mono m -> coefficient m (multiplied a b) = coefficient m (SP (expanded a b))).
Proof. exact @multiply_when. Qed.
Print Assumptions C03_multiply_exactly_when.
Example C03_multiply_exact_nonvacuous (NN := QNum) : valid w_sum /\ valid w_dif /\ valid w_mix
  /\ map m_vars (terms (multiplied w_sum w_dif)) = [[wx]; [wy]] /\ map m_exps (terms (multiplied w_sum w_dif)) = [[2%Z]; [2%Z]] /\ the_coefficients (multiplied w_sum w_dif) [n1; - n1] = true
  /\ length (expanded w_sum w_dif) = 4
  /\ (eval (at3 1 2 0) (multiplied w_sum w_dif) =? eval (at3 1 2 0) w_sum * eval (at3 1 2 0) w_dif) = true
  /\ (eval (at3 1 2 0) (multiplied w_mix w_sum) =? eval (at3 1 2 0) w_mix * eval (at3 1 2 0) w_sum) = false.
Proof. exact wit_exact_multiply. Qed.

(** ** C04 *)
Theorem C04_power_exact : forall {NN : Num} {EX : ExactNum NN} (a : scalar) (n : nat), valid a -> scalar_power a (Z.of_nat n) = Ok (powered a n).
Proof. exact @power_exact. Qed.
Print Assumptions C04_power_exact.

Theorem C04_power_exactly_when : forall {NN : Num} {EX : ExactNum NN} (a s : scalar) (n : nat), valid a -> scalar_power a (Z.of_nat n) = Ok s ->
  ((forall r, eval r s = npow (eval r a) n) <-> forall m, valid_mono m -> coefficient m (powered a n) = coefficient m (SP (expanded_power a n))).
Proof. exact @power_when. Qed.
Print Assumptions C04_power_exactly_when.
Example C04_power_exact_nonvacuous (NN := QNum) : valid w_sum /\ map m_vars (terms (powered w_sum 2)) = [[wx]; [wy; wx]; [wy]] /\ the_coefficients (powered w_sum 2) [n1; nofZ 2; n1] = true /\ length (expanded_power w_sum 2) = 4
  /\ (eval (at3 1 2 0) (powered w_sum 2) =? nofZ 9) = true /\ (eval (at3 1 2 0) (powered w_sum 3) =? nofZ 27) = false.
Proof. exact wit_exact_power. Qed.

(** ** C15 *)
(** a variable, in any arithmetic: it is replaced if the ID and the environment agree, and stays otherwise *)
Theorem C15_variable : forall {NN : Num} (w v : var) (e : scalar), valid_var w -> valid_var v -> valid e -> scalar_substitute (SV w) v e = Ok (replaced v e w).
Proof. exact @variable_exact. Qed.
Print Assumptions C15_variable.

Theorem C15_substitute_exact : forall {NN : Num} {EX : ExactNum NN} (s : scalar) (v : var) (e : scalar), valid s -> valid_var v -> valid e ->
  scalar_substitute s v e = Ok (substituted v e s).
Proof. exact @substitute_exact. Qed.
Print Assumptions C15_substitute_exact.
Example C15_substitute_exact_nonvacuous (NN := QNum) : valid w_sq /\ valid_var wx /\ valid w_sum /\ same_environment wx w_sq
  /\ map m_vars (terms (substituted wx w_sum w_sq)) = [[wx]; [wy; wx]; [wy]; [wy]] /\ the_coefficients (substituted wx w_sum w_sq) [n1; nofZ 2; n1; nofZ 3] = true
  /\ replaced wx w_sum w_other = SV w_other /\ replaced wx w_sum w_free = SV w_free /\ replaced w_free w_sum wx = SV wx /\ replaced wx w_sum wx = w_sum.
Proof. exact wit_sub_exact. Qed.

Theorem C15_substitute_exactly_when : forall {NN : Num} {EX : ExactNum NN} (s : scalar) (v : var) (e s' : scalar), valid s -> valid_var v -> valid e -> same_environment v s ->
  scalar_substitute s v e = Ok s' ->
  ((forall r, eval r s' = eval (update r (v_id v) (eval r e)) s)
   <-> forall m, valid_mono m -> coefficient m (substituted v e s) = coefficient m (SP (expansion (replaced v e) s))).
Proof. exact @substitute_when. Qed.
Print Assumptions C15_substitute_exactly_when.
Example C15_substitute_exactly_when_nonvacuous (NN := QNum) : valid w_cube /\ same_environment wx w_cube /\ length (expansion (replaced wx w_sum) w_sq) = 5 /\ length (expansion (replaced wx w_sum) w_cube) = 8
  /\ (eval (at3 1 2 0) (substituted wx w_sum w_sq) =? nofZ 15) = true /\ (eval (at3 1 2 0) (substituted wx w_sum w_cube) =? nofZ 27) = false.
Proof. exact wit_sub_when. Qed.

(** ** C16 *)
(** vectors and matrices: every entry has the terms that substitution in the entry alone gives, whatever the numbers *)
Theorem C15_array_entries : forall {NN : Num} (e : expr) (d : nat * nat) (x : var) (t : scalar), valid_array d e -> valid_var x -> valid t ->
  exists e', expr_substitute e x t = Ok e' /\ valid_array d e'
    /\ forall i j, i < fst d -> j < snd d -> exists s, scalar_substitute (entry e i j) x t = Ok s /\ terms (entry e' i j) = terms s.
Proof. exact @array_substitute_entries. Qed.
Print Assumptions C15_array_entries.
Theorem C15_array_exact : forall {NN : Num} {EX : ExactNum NN} (e : expr) (d : nat * nat) (x : var) (t : scalar), valid_array d e -> valid_var x -> valid t ->
  exists e', expr_substitute e x t = Ok e' /\ valid_array d e' /\ forall i j, i < fst d -> j < snd d -> terms (entry e' i j) = terms (substituted x t (entry e i j)).
Proof. exact @array_substitute_exact. Qed.
Print Assumptions C15_array_exact.
Theorem C15_array_exactly_when : forall {NN : Num} {EX : ExactNum NN} (e : expr) (d : nat * nat) (x : var) (t : scalar) (e' : expr) (i j : nat),
  valid_array d e -> valid_var x -> valid t -> expr_substitute e x t = Ok e' -> i < fst d -> j < snd d -> same_environment x (entry e i j) ->
  ((forall r, value r e' i j = value (update r (v_id x) (eval r t)) e i j)
   <-> forall m, valid_mono m -> coefficient m (substituted x t (entry e i j)) = coefficient m (SP (expansion (replaced x t) (entry e i j)))).
Proof. exact @array_substitute_when. Qed.
Print Assumptions C15_array_exactly_when.
Example C15_array_exact_nonvacuous (NN := QNum) : valid_array (2, 2) w_sqs /\ valid_var wx /\ valid w_sum /\ same_environment wx (entry w_sqs 0 0)
  /\ map m_exps (terms (substituted wx w_sum (entry w_sqs 0 0))) = [[2%Z]; [1%Z; 1%Z]; [2%Z]] /\ terms (substituted wx w_sum (entry w_sqs 0 1)) = terms (entry w_sqs 0 1).
Proof. exact wit_sub_entries. Qed.

(** SubstituteAccordingTo of vectors and matrices: one key after the other, in the order in which the map is visited *)
Theorem C17_substitute_map_steps : forall {NN : Num} (e : expr) (d : nat * nat) (k : var) (t : scalar) (sm : list (var * expr)), valid_array d e -> ~ is_scalar e -> valid_map ((k, ES t) :: sm) ->
  exists e1, expr_substitute e k t = Ok e1 /\ expr_substitute_map e ((k, ES t) :: sm) = expr_substitute_map e1 sm.
Proof. exact @array_substitute_map_steps. Qed.
Print Assumptions C17_substitute_map_steps.
Theorem C17_substitute_map_nothing : forall {NN : Num} (e : expr) (d : nat * nat), valid_array d e -> ~ is_scalar e -> expr_substitute_map e [] = Ok e.
Proof. exact @array_substitute_map_nothing. Qed.
Print Assumptions C17_substitute_map_nothing.
Example C17_steps_nonvacuous (NN := QNum) : valid_array (2, 1) w_pv /\ ~ is_scalar w_pv /\ exists k t sm, w_arr_map = (k, ES t) :: sm /\ sm <> [] /\ valid_map ((k, ES t) :: sm).
Proof. exact wit_steps. Qed.

Theorem C16_substitute_map_exact : forall {NN : Num} {EX : ExactNum NN} (s : scalar) (sm : list (var * expr)) (image : var -> scalar), valid s -> valid_map sm ->
  (forall w e, In (w, ES e) sm -> image w = e) -> (forall w, (forall e, ~ In (w, e) sm) -> image w = SV w) ->
  scalar_substitute_map s sm = Ok (mapped image s).
Proof. exact @substitute_map_exact. Qed.
Print Assumptions C16_substitute_map_exact.

Theorem C16_substitute_map_exactly_when : forall {NN : Num} {EX : ExactNum NN} (s : scalar) (sm : list (var * expr)) (image : var -> scalar) (s' : scalar), valid s -> valid_map sm ->
  (forall w e, In (w, ES e) sm -> image w = e) -> (forall w, (forall e, ~ In (w, e) sm) -> image w = SV w) ->
  consistent image s -> scalar_substitute_map s sm = Ok s' ->
  ((forall r r', simultaneous r sm s r' -> eval r s' = eval r' s)
   <-> forall m, valid_mono m -> coefficient m (mapped image s) = coefficient m (SP (expansion image s))).
Proof. exact @substitute_map_when. Qed.
Print Assumptions C16_substitute_map_exactly_when.
Example C16_substitute_map_exact_nonvacuous (NN := QNum) : valid w_sq /\ valid_map w_swap /\ (forall w e, In (w, ES e) w_swap -> w_swapped w = e) /\ (forall w, (forall e, ~ In (w, e) w_swap) -> w_swapped w = SV w)
  /\ map m_vars (terms (mapped w_swapped w_sq)) = [[wy]; [wx]] /\ map m_exps (terms (mapped w_swapped w_sq)) = [[2%Z]; [1%Z]] /\ the_coefficients (mapped w_swapped w_sq) [n1; nofZ 3] = true
  /\ consistent w_swapped w_sq /\ length (expansion w_swapped w_sq) = 2.
Proof. exact wit_map_exact. Qed.

(** ** C33 *)
(** missing: products by scalars, of vectors, of constant and variable matrices by vectors; monomial matrices of several rows by vectors are in C33_monomials_exact *)
Theorem C33_multiply_exact_partial : forall {NN : Num} {EX : ExactNum NN} (a b : expr) (da db : nat * nat), valid_array da a -> valid_array db b -> snd da = fst db -> row_by_row a b da ->
  exists e, expr_mul a (GExpr b) = Ok e /\ valid_array (fst da, snd db) e
   /\ forall i j, i < fst da -> j < snd db -> terms (entry e i j) = terms (row_times_column a b (snd da) i j).
Proof. exact @product_exact. Qed.
Print Assumptions C33_multiply_exact_partial.
Example C33_multiply_exact_nonvacuous (NN := QNum) : valid_array (2, 2) w_sqs /\ valid_array (2, 2) w_sym /\ row_by_row w_sqs w_sym (2, 2) /\ valid_array (2, 2) (EM w_um) /\ valid_array (2, 1) w_two /\ row_by_row (EM w_um) w_two (2, 2)
  /\ map m_exps (terms (row_times_column w_sqs w_sym 2 0 1)) = [[3%Z]; [3%Z]] /\ length (terms (row_times_column w_sqs w_sym 2 0 0)) = 1 /\ length (row_column_terms w_sqs w_sym 2 0 0) = 2.
Proof. exact wit_product. Qed.

(** missing: the same products *)
Theorem C33_multiply_exactly_when_partial : forall {NN : Num} {EX : ExactNum NN} (a b e : expr) (da db : nat * nat) (i j : nat), valid_array da a -> valid_array db b -> snd da = fst db -> row_by_row a b da ->
  expr_mul a (GExpr b) = Ok e -> i < fst da -> j < snd db ->
  ((forall r, value r e i j = sum_to (fun k => value r a i k * value r b k j) (snd da))
   <-> forall m, valid_mono m -> coefficient m (row_times_column a b (snd da) i j) = coefficient m (SP (row_column_terms a b (snd da) i j))).
Proof. exact @product_when. Qed.
Print Assumptions C33_multiply_exactly_when_partial.
Example C33_multiply_exactly_when_nonvacuous (NN := QNum) : (eval (at3 1 2 0) (row_times_column w_sqs w_sym 2 0 1) =? sum_to (fun k => value (at3 1 2 0) w_sqs 0 k * value (at3 1 2 0) w_sym k 1) 2) = true
  /\ (eval (at3 1 2 0) (row_times_column w_sqs w_sym 2 0 0) =? sum_to (fun k => value (at3 1 2 0) w_sqs 0 k * value (at3 1 2 0) w_sym k 0) 2) = false.
Proof. exact wit_product_when. Qed.

(** a MonomialMatrix of several rows times a VariableVector: it panics exactly when a partial sum of a row is not a polynomial of two terms or more *)
Theorem C33_monomials_panic : forall {NN : Num} {EX : ExactNum NN} (l : list (list Monomial)) (xs : list var) (da db : nat * nat) (a b : expr), a = EM (MM l) -> b = EV (VV xs) ->
  valid_array da a -> valid_array db b -> snd da = fst db -> fst da <> 1 ->
  ((exists e, expr_mul a (GExpr b) = Ok e) <-> forall i k, i < fst da -> 2 <= k <= snd da -> is_polynomial (polynomial_row a b k i) = true).
Proof. exact @monomials_panic. Qed.
Print Assumptions C33_monomials_panic.
Theorem C33_monomials_exact : forall {NN : Num} {EX : ExactNum NN} (l : list (list Monomial)) (xs : list var) (da db : nat * nat) (a b e : expr), a = EM (MM l) -> b = EV (VV xs) ->
  valid_array da a -> valid_array db b -> snd da = fst db -> fst da <> 1 -> expr_mul a (GExpr b) = Ok e ->
  valid_array (fst da, 1) e /\ forall i, i < fst da -> terms (entry e i 0) = terms (polynomial_row a b (snd da) i).
Proof. exact @monomials_exact. Qed.
Print Assumptions C33_monomials_exact.
Theorem C33_monomials_exactly_when : forall {NN : Num} {EX : ExactNum NN} (l : list (list Monomial)) (xs : list var) (da db : nat * nat) (a b e : expr) (i : nat), a = EM (MM l) -> b = EV (VV xs) ->
  valid_array da a -> valid_array db b -> snd da = fst db -> fst da <> 1 -> expr_mul a (GExpr b) = Ok e -> i < fst da ->
  ((forall r, value r e i 0 = sum_to (fun k => value r a i k * value r b k 0) (snd da))
   <-> forall m, valid_mono m -> coefficient m (polynomial_row a b (snd da) i) = coefficient m (SP (row_column_terms a b (snd da) i 0))).
Proof. exact @monomials_when. Qed.
Print Assumptions C33_monomials_exactly_when.
Example C33_monomials_nonvacuous (NN := QNum) : valid_array (2, 2) w_ms /\ valid_array (2, 2) w_mt /\ valid_array (2, 1) w_two
  /\ is_polynomial (polynomial_row w_ms w_two 2 0) = true /\ is_polynomial (polynomial_row w_ms w_two 2 1) = false
  /\ is_polynomial (polynomial_row w_mt w_two 2 0) = true /\ is_polynomial (polynomial_row w_mt w_two 2 1) = true
  /\ map m_exps (terms (polynomial_row w_mt w_two 2 0)) = [[3%Z]; [2%Z]].
Proof. exact wit_monomials. Qed.

(** ** C04 and C34: one factor after the other, for every type of number *)
Theorem C04_power_step : forall {NN : Num} (a : scalar) (z : Z), valid a -> (0 <= z)%Z ->
  exists s, scalar_power a z = Ok s /\ scalar_power a (z + 1) = scalar_mul s a.
Proof. exact @power_step. Qed.
Print Assumptions C04_power_step.

(** missing: 1 x 1 matrices, which panic (C34_power_refuted) *)
Theorem C34_power_step_partial : forall {NN : Num} (n : nat) (me : matrix) (z : Z), 2 <= n -> valid_array (n, n) (EM me) -> (0 <= z)%Z ->
  exists p, expr_power (EM me) z = Ok (EM p) /\ expr_power (EM me) (z + 1) = expr_mul (EM p) (GExpr (EM me)).
Proof. exact @matrix_power_step. Qed.
Print Assumptions C34_power_step_partial.
Theorem C34_power_exact_partial : forall {NN : Num} {EX : ExactNum NN} (n : nat) (me : matrix) (z : Z), 2 <= n -> valid_array (n, n) (EM me) -> (0 <= z)%Z ->
  exists p q, expr_power (EM me) z = Ok (EM p) /\ expr_power (EM me) (z + 1) = Ok (EM q)
   /\ forall i j, i < n -> j < n -> terms (entry (EM q) i j) = terms (row_times_column (EM p) (EM me) n i j).
Proof. exact @matrix_power_exact. Qed.
Print Assumptions C34_power_exact_partial.
Theorem C34_power_zero : forall {NN : Num} (n : nat) (me : matrix), ExactNum NN \/ NN = F64Num -> valid_array (n, n) (EM me) ->
  exists p, expr_power (EM me) 0 = Ok p /\ valid_array (n, n) p /\ forall i j, i < n -> j < n -> entry p i j = SK (if Nat.eqb i j then n1 else n0).
Proof. exact @matrix_power_zero. Qed.
Print Assumptions C34_power_zero.
Example C34_power_step_nonvacuous (NN := QNum) : 2 <= 2 /\ valid_array (2, 2) w_sym /\ valid_array (2, 2) w_sqs /\ valid w_sq /\ (0 <= 2)%Z.
Proof. exact wit_power_step. Qed.
