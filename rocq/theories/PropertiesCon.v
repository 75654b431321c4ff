(** * Properties of constraints between scalars, vectors and matrices *)

From Coq Require Import ZArith NArith Bool List Permutation.
From Verif Require Import Num Syntax ModelScalar Spec SpecProg ScalarNorm Witness ScalarWit ModelSC SCProofs SCImplies SCWit ModelShape ModelArith SpecArr ArrSub ArrFacts ArrWit ModelConstr SpecCon
  ConProofs ConVec ConMore ConWit.
Import ListNotations.
Local Open Scope num_scope.

(** ** C27 comparisons *)

Theorem C27_total : forall {NN : Num} (a : expr) (g : goval) (b : expr) (da db d : nat * nat) (s : sense), valid_array da a -> valid_array db b -> means g = Some b -> broadcast a b da db d -> 
  comparison_accepts a g = true -> exists c, expr_comparison a g s = Ok c.
Proof. exact @comparison_total. Qed.
Print Assumptions C27_total.
Example C27_total_nonvacuous (NN := QNum) : valid_array (2, 1) w_pv /\ valid_array (2, 1) w_vv /\ means (GExpr w_vv) = Some w_vv /\ broadcast w_pv w_vv (2, 1) (2, 1) (2, 1)
  /\ comparison_accepts w_pv (GExpr w_vv) = true /\ (is_scalar w_pv \/ ~ is_scalar w_vv) /\ exists c, expr_comparison w_pv (GExpr w_vv) SenseGe = Ok c.
Proof. exact wit_compare. Qed.

(** the table of implemented pairs of types is exact *)
Theorem C27_unsupported : forall {NN : Num} (a : expr) (g : goval) (b : expr) (da db d : nat * nat) (s : sense), valid_array da a -> valid_array db b -> means g = Some b -> broadcast a b da db d -> 
  comparison_accepts a g = false -> exists p, expr_comparison a g s = Panic p.
Proof. exact @comparison_unsupported. Qed.
Print Assumptions C27_unsupported.
Example C27_unsupported_nonvacuous (NN := QNum) : valid_array (2, 2) w_pm /\ means (GExpr w_pm) = Some w_pm /\ broadcast w_pm w_pm (2, 2) (2, 2) (2, 2) /\ comparison_accepts w_pm (GExpr w_pm) = false.
Proof. exact wit_compare_unsupported. Qed.

Theorem C27_sense : forall {NN : Num} (a : expr) (g : goval) (b : expr) (da db d : nat * nat) (s : sense) (c : constraint), valid_array da a -> valid_array db b -> means g = Some b -> broadcast a b da db d -> 
  expr_comparison a g s = Ok c -> con_sense c = s /\ (s <> SenseOther -> valid_con d c).
Proof. exact @comparison_sense. Qed.
Print Assumptions C27_sense.

(** for rounded numbers too *)
Theorem C27_means : forall {NN : Num} (a : expr) (g : goval) (b : expr) (da db d : nat * nat) (s : sense) (c : constraint), valid_array da a -> valid_array db b -> means g = Some b -> broadcast a b da db d -> is_scalar a \/ ~ is_scalar b ->
  expr_comparison a g s = Ok c -> forall r, con_sat r d c <-> forall i j, i < fst d -> j < snd d -> holds (bvalue r a i j) s (bvalue r b i j).
Proof. exact @comparison_means. Qed.
Print Assumptions C27_means.
Example C27_means_nonvacuous (NN := QNum) : valid_array (2, 1) w_pv /\ valid_array (2, 1) w_vv /\ means (GExpr w_vv) = Some w_vv /\ broadcast w_pv w_vv (2, 1) (2, 1) (2, 1)
  /\ comparison_accepts w_pv (GExpr w_vv) = true /\ (is_scalar w_pv \/ ~ is_scalar w_vv) /\ exists c, expr_comparison w_pv (GExpr w_vv) SenseGe = Ok c.
Proof. exact wit_compare. Qed.

(** including a vector or matrix compared with a scalar *)
Theorem C27_means_exact : forall {NN : Num} (EX : ExactNum NN) (a : expr) (g : goval) (b : expr) (da db d : nat * nat) (s : sense) (c : constraint), valid_array da a -> valid_array db b -> means g = Some b -> broadcast a b da db d -> 
  expr_comparison a g s = Ok c -> forall r, con_sat r d c <-> forall i j, i < fst d -> j < snd d -> holds (bvalue r a i j) s (bvalue r b i j).
Proof. exact @comparison_means_exact. Qed.
Print Assumptions C27_means_exact.
Example C27_means_exact_nonvacuous (NN := QNum) : valid_array (2, 1) w_pv /\ valid_array (1, 1) (ES (SK (nofZ 3))) /\ means (GFloat (nofZ 3)) = Some (ES (SK (nofZ 3)))
  /\ broadcast w_pv (ES (SK (nofZ 3))) (2, 1) (1, 1) (2, 1) /\ comparison_accepts w_pv (GFloat (nofZ 3)) = true /\ exists c, expr_comparison w_pv (GFloat (nofZ 3)) SenseLe = Ok c.
Proof. exact wit_compare_broadcast. Qed.

Theorem C27_mismatch : forall {NN : Num} (a : expr) (g : goval) (b : expr) (da db : nat * nat) (s : sense), valid_array da a -> valid_array db b -> means g = Some b ->
  ~ is_scalar a -> ~ is_scalar b -> da <> db -> s <> SenseOther -> expr_comparison a g s = Panic PDim.
Proof. exact @comparison_mismatch. Qed.
Print Assumptions C27_mismatch.
Example C27_mismatch_nonvacuous (NN := QNum) : valid_array (2, 2) w_vm /\ valid_array (2, 3) w_km3 /\ means (GExpr w_km3) = Some w_km3 /\ ~ is_scalar w_vm /\ ~ is_scalar w_km3 /\ (2, 2) <> (2, 3).
Proof. exact wit_compare_mismatch. Qed.

(** a polynomial matrix with itself, a monomial vector with a polynomial vector, a variable with a vector, a constant with an int *)
Theorem C27_comparison_refuted : forall NN, NN = F64Num \/ NN = QNum -> exists (m : matrix) (u v w : vector) (x : var) (k : num) (z : Z),
  valid_array (2, 2) (EM m) /\ valid_array (2, 1) (EV u) /\ valid_array (2, 1) (EV v) /\ valid_array (2, 1) (EV w) /\ valid_var x /\
  forall s, (exists p, expr_comparison (EM m) (GExpr (EM m)) s = Panic p) /\ (exists p, expr_comparison (EV u) (GExpr (EV v)) s = Panic p)
    /\ (exists p, expr_comparison (ES (SV x)) (GExpr (EV w)) s = Panic p) /\ (exists p, expr_comparison (ES (SK k)) (GInt z) s = Panic p).
Proof. exact comparison_refuted. Qed.
Print Assumptions C27_comparison_refuted.

(** ** C29 compilation into scalar constraints *)

Theorem C29_conjunction : forall {NN : Num} (ds : list (nat * nat)) (l : list constraint), Forall2 valid_con ds l ->
  exists out, compile_constraints l = Ok out /\ Forall valid_constraint out /\ length out = entries_count ds
    /\ forall r, Forall (satisfies r) out <-> Forall2 (con_sat r) ds l.
Proof. exact @compile_conjunction. Qed.
Print Assumptions C29_conjunction.
Example C29_conjunction_nonvacuous (NN := QNum) : Forall2 valid_con [(2, 1); (1, 1); (2, 2)]%nat [CV (w_vc SenseGe); CS (mkSC w_lin (SV wz) SenseEq); CM (w_mc SenseLe)]
  /\ entries_count [(2, 1); (1, 1); (2, 2)]%nat = 7%nat.
Proof. exact wit_compile. Qed.

(** entry by entry, in order *)
Theorem C29_entries : forall {NN : Num} (ds : list (nat * nat)) (l : list constraint), Forall2 valid_con ds l ->
  compile_constraints l = Ok (concat (map (fun dc => entry_constraints (fst dc) (snd dc)) (combine ds l))).
Proof. exact @compile_entries. Qed.
Print Assumptions C29_entries.

(** outside the claim, which is about sides of equal length: Check accepts vector constraints whose sides have different lengths *)
Theorem C29_compile_refuted : forall NN, NN = F64Num \/ NN = QNum -> exists (a b : vector_constraint) (s : scalar_constraint) (p : panic),
  valid_array (2, 1) (EV (vc_left a)) /\ valid_array (1, 1) (EV (vc_right a)) /\ valid_array (1, 1) (EV (vc_left b)) /\ valid_array (2, 1) (EV (vc_right b)) /\
  con_check (CV a) = Ok tt /\ con_check (CV b) = Ok tt /\ compile_constraints [CV a] = Panic p /\ compile_constraints [CV b] = Ok [s].
Proof. exact compile_refuted. Qed.
Print Assumptions C29_compile_refuted.

(** ** C30 linear representations of vector constraints *)

(** missing: sides with uncollected like terms; that the call returns (C30_inequality_total_partial, C30_representation_refuted) *)
Theorem C30_inequality_partial : forall {NN : Num} {EX : ExactNum NN} (n : nat) (c : vector_constraint) (w : list var) (A : list (list num)) (b : list num), valid_con (n, 1) (CV c) -> vc_sense c = SenseLe \/ vc_sense c = SenseGe ->
  array_degree 1 (EV (vc_left c)) -> array_degree 1 (EV (vc_right c)) -> array_collected (EV (vc_left c)) -> array_collected (EV (vc_right c)) ->
  w <> [] -> Forall valid_var w -> NoDup (map v_id w) -> (forall i, array_occurs i (EV (vc_left c)) \/ array_occurs i (EV (vc_right c)) -> In i (map v_id w)) ->
  vc_linear_inequality c [w] = Ok (A, b) -> dense_shape (n, length w) A /\ length b = n /\ forall r, system_le r A w b <-> con_sat r (n, 1) (CV c).
Proof. exact @vec_inequality. Qed.
Print Assumptions C30_inequality_partial.
Example C30_inequality_nonvacuous (NN := QNum) : 2 <= 2 /\ (forall s, s <> SenseOther -> valid_con (2, 1) (CV (w_vc s)))
  /\ array_degree 1 (EV w_lv) /\ array_degree 1 (EV (VV [wz; wy])) /\ array_collected (EV w_lv) /\ array_collected (EV (VV [wz; wy]))
  /\ [wz; wy; wx] <> [] /\ Forall valid_var [wz; wy; wx] /\ NoDup (map v_id [wz; wy; wx])
  /\ (forall i, array_occurs i (EV w_lv) \/ array_occurs i (EV (VV [wz; wy])) -> In i (map v_id [wz; wy; wx]))
  /\ (forall s, involves_variables (2, 1) (CV (w_vc s))).
Proof. exact wit_vc_repr. Qed.

(** missing: length one and rows without variables, for which the call panics *)
Theorem C30_inequality_total_partial : forall {NN : Num} {EX : ExactNum NN} (n : nat) (c : vector_constraint) (w : list var), 2 <= n -> valid_con (n, 1) (CV c) -> vc_sense c = SenseLe \/ vc_sense c = SenseGe ->
  array_degree 1 (EV (vc_left c)) -> array_degree 1 (EV (vc_right c)) -> array_collected (EV (vc_left c)) -> array_collected (EV (vc_right c)) ->
  w <> [] -> Forall valid_var w -> NoDup (map v_id w) -> (forall i, array_occurs i (EV (vc_left c)) \/ array_occurs i (EV (vc_right c)) -> In i (map v_id w)) ->
  involves_variables (n, 1) (CV c) -> exists A b, vc_linear_inequality c [w] = Ok (A, b).
Proof. exact @vec_inequality_total. Qed.
Print Assumptions C30_inequality_total_partial.

(** missing: sides with uncollected like terms; that the call returns (C30_equality_total_partial, C30_representation_refuted) *)
Theorem C30_equality_partial : forall {NN : Num} {EX : ExactNum NN} (n : nat) (c : vector_constraint) (w : list var) (A : list (list num)) (b : list num), valid_con (n, 1) (CV c) -> vc_sense c = SenseEq ->
  array_degree 1 (EV (vc_left c)) -> array_degree 1 (EV (vc_right c)) -> array_collected (EV (vc_left c)) -> array_collected (EV (vc_right c)) ->
  w <> [] -> Forall valid_var w -> NoDup (map v_id w) -> (forall i, array_occurs i (EV (vc_left c)) \/ array_occurs i (EV (vc_right c)) -> In i (map v_id w)) ->
  vc_linear_equality c [w] = Ok (A, b) -> dense_shape (n, length w) A /\ length b = n /\ forall r, system_eq r A w b <-> con_sat r (n, 1) (CV c).
Proof. exact @vec_equality. Qed.
Print Assumptions C30_equality_partial.
Example C30_equality_nonvacuous (NN := QNum) : 2 <= 2 /\ (forall s, s <> SenseOther -> valid_con (2, 1) (CV (w_vc s)))
  /\ array_degree 1 (EV w_lv) /\ array_degree 1 (EV (VV [wz; wy])) /\ array_collected (EV w_lv) /\ array_collected (EV (VV [wz; wy]))
  /\ [wz; wy; wx] <> [] /\ Forall valid_var [wz; wy; wx] /\ NoDup (map v_id [wz; wy; wx])
  /\ (forall i, array_occurs i (EV w_lv) \/ array_occurs i (EV (VV [wz; wy])) -> In i (map v_id [wz; wy; wx]))
  /\ (forall s, involves_variables (2, 1) (CV (w_vc s))).
Proof. exact wit_vc_repr. Qed.

(** missing: length one and rows without variables, for which the call panics *)
Theorem C30_equality_total_partial : forall {NN : Num} {EX : ExactNum NN} (n : nat) (c : vector_constraint) (w : list var), 2 <= n -> valid_con (n, 1) (CV c) -> vc_sense c = SenseEq ->
  array_degree 1 (EV (vc_left c)) -> array_degree 1 (EV (vc_right c)) -> array_collected (EV (vc_left c)) -> array_collected (EV (vc_right c)) ->
  w <> [] -> Forall valid_var w -> NoDup (map v_id w) -> (forall i, array_occurs i (EV (vc_left c)) \/ array_occurs i (EV (vc_right c)) -> In i (map v_id w)) ->
  involves_variables (n, 1) (CV c) -> exists A b, vc_linear_equality c [w] = Ok (A, b).
Proof. exact @vec_equality_total. Qed.
Print Assumptions C30_equality_total_partial.

(** every linear constraint of length one panics *)
Theorem C30_inequality_one : forall {NN : Num} (c : vector_constraint) (w : list (list var)), valid_con (1, 1) (CV c) -> array_degree 1 (EV (vc_left c)) -> array_degree 1 (EV (vc_right c)) ->
  vc_sense c <> SenseEq -> vc_linear_inequality c w = Panic PRuntime.
Proof. exact @vc_inequality_one. Qed.
Print Assumptions C30_inequality_one.
Example C30_one_nonvacuous (NN := QNum) : valid_con (1, 1) (CV (mkVC (VP [w_poly w_lin]) (VK [nofZ 3]) SenseLe)) /\ array_degree 1 (EV (VP [w_poly w_lin])) /\ array_degree 1 (EV (VK [nofZ 3])).
Proof. exact wit_vc_one. Qed.

Theorem C30_equality_one : forall {NN : Num} (c : vector_constraint) (w : list (list var)), valid_con (1, 1) (CV c) -> array_degree 1 (EV (vc_left c)) -> array_degree 1 (EV (vc_right c)) ->
  vc_sense c = SenseEq -> vc_linear_equality c w = Panic PRuntime.
Proof. exact @vc_equality_one. Qed.
Print Assumptions C30_equality_one.

(** (2x, 2) <= (1, 3) and (x) <= (3) *)
Theorem C30_representation_refuted : forall NN, NN = F64Num \/ NN = QNum -> exists (c d : vector_constraint) (w : list var) (p q : panic),
  valid_con (2, 1) (CV c) /\ array_degree 1 (EV (vc_left c)) /\ array_degree 1 (EV (vc_right c)) /\ vc_sense c = SenseLe /\ Forall valid_var w /\ NoDup (map v_id w)
  /\ (forall i, array_occurs i (EV (vc_left c)) \/ array_occurs i (EV (vc_right c)) -> In i (map v_id w)) /\ vc_linear_inequality c [w] = Panic p
  /\ valid_con (1, 1) (CV d) /\ array_degree 1 (EV (vc_left d)) /\ array_degree 1 (EV (vc_right d)) /\ vc_sense d = SenseLe
  /\ (forall i, array_occurs i (EV (vc_left d)) \/ array_occurs i (EV (vc_right d)) -> In i (map v_id w)) /\ vc_linear_inequality d [w] = Panic q.
Proof. exact representation_refuted. Qed.
Print Assumptions C30_representation_refuted.

(** ** C21 rejected vector constraints *)

Theorem C21_vector_inequality_nonlinear : forall {NN : Num} (n : nat) (c : vector_constraint) (w : list (list var)), valid_con (n, 1) (CV c) ->
  ~ array_degree 1 (EV (vc_left c)) \/ ~ array_degree 1 (EV (vc_right c)) -> vc_linear_inequality c w = Panic PLinearRequired.
Proof. exact @vec_inequality_nonlinear. Qed.
Print Assumptions C21_vector_inequality_nonlinear.

Theorem C21_vector_equality_nonlinear : forall {NN : Num} (n : nat) (c : vector_constraint) (w : list (list var)), valid_con (n, 1) (CV c) ->
  ~ array_degree 1 (EV (vc_left c)) \/ ~ array_degree 1 (EV (vc_right c)) -> vc_linear_equality c w = Panic PLinearRequired.
Proof. exact @vec_equality_nonlinear. Qed.
Print Assumptions C21_vector_equality_nonlinear.
Example C21_vector_nonlinear_nonvacuous (NN := QNum) : valid_con (2, 1) (CV (mkVC (VP [w_poly w_lin; w_poly w_quad2]) (VK [nofZ 3; nofZ 1]) SenseLe)) /\ ~ array_degree 1 (EV (VP [w_poly w_lin; w_poly w_quad2])).
Proof. exact wit_vc_nonlinear. Qed.

(** unlike scalar constraints (C21_inequality_refuted) *)
Theorem C21_vector_inequality_sense : forall {NN : Num} (n : nat) (c : vector_constraint) (w : list (list var)), valid_con (n, 1) (CV c) -> array_degree 1 (EV (vc_left c)) -> array_degree 1 (EV (vc_right c)) ->
  vc_sense c = SenseEq -> vc_linear_inequality c w = Panic PIneqRequired.
Proof. exact @vc_inequality_sense. Qed.
Print Assumptions C21_vector_inequality_sense.

Theorem C21_vector_equality_sense : forall {NN : Num} (n : nat) (c : vector_constraint) (w : list (list var)), valid_con (n, 1) (CV c) -> array_degree 1 (EV (vc_left c)) -> array_degree 1 (EV (vc_right c)) ->
  vc_sense c <> SenseEq -> vc_linear_equality c w = Panic PEqRequired.
Proof. exact @vc_equality_sense. Qed.
Print Assumptions C21_vector_equality_sense.
Example C21_vector_sense_nonvacuous (NN := QNum) : 2 <= 2 /\ (forall s, s <> SenseOther -> valid_con (2, 1) (CV (w_vc s)))
  /\ array_degree 1 (EV w_lv) /\ array_degree 1 (EV (VV [wz; wy])) /\ array_collected (EV w_lv) /\ array_collected (EV (VV [wz; wy]))
  /\ [wz; wy; wx] <> [] /\ Forall valid_var [wz; wy; wx] /\ NoDup (map v_id [wz; wy; wx])
  /\ (forall i, array_occurs i (EV w_lv) \/ array_occurs i (EV (VV [wz; wy])) -> In i (map v_id [wz; wy; wx]))
  /\ (forall s, involves_variables (2, 1) (CV (w_vc s))).
Proof. exact wit_vc_repr. Qed.

(** ** C31 AsSimplifiedConstraint of vector and matrix constraints *)

(** missing: look-alike terms (C31_feasible_refuted); that the call returns (C31_simplified_refuted) *)
Theorem C31_feasible_partial : forall {NN : Num} (d : nat * nat) (c c' : constraint), ExactNum NN -> valid_con d c -> ~ is_scalar (con_left c) ->
  unambiguous_exponents (sum_exps (con_left c) (con_right c)) -> con_simplified c = Ok c' -> valid_con d c' /\ con_sense c' = con_sense c /\ forall r, con_sat r d c' <-> con_sat r d c.
Proof. exact @con_simplified_feasible. Qed.
Print Assumptions C31_feasible_partial.
Example C31_feasible_nonvacuous (NN := QNum) : unambiguous_exponents (sum_exps (con_left (CM (w_mc SenseLe))) (con_right (CM (w_mc SenseLe)))).
Proof. exact wit_simplified_unambiguous. Qed.

(** missing: higher degrees; that the call returns *)
Theorem C31_degree2_partial : forall {NN : Num} (d : nat * nat) (c c' : constraint), ExactNum NN -> valid_con d c -> ~ is_scalar (con_left c) ->
  array_degree 2 (con_left c) -> array_degree 2 (con_right c) -> con_simplified c = Ok c' -> valid_con d c' /\ con_sense c' = con_sense c /\ forall r, con_sat r d c' <-> con_sat r d c.
Proof. exact @con_simplified_degree2. Qed.
Print Assumptions C31_degree2_partial.
Example C31_degree2_nonvacuous (NN := QNum) : valid_con (2, 1) (CV (w_vc SenseGe)) /\ ~ is_scalar (con_left (CV (w_vc SenseGe))) /\ array_degree 2 (con_left (CV (w_vc SenseGe))) /\ array_degree 2 (con_right (CV (w_vc SenseGe)))
  /\ (exists c', con_simplified (CV (w_vc SenseGe)) = Ok c')
  /\ valid_con (2, 2) (CM (w_mc SenseLe)) /\ ~ is_scalar (con_left (CM (w_mc SenseLe))) /\ array_degree 2 (con_left (CM (w_mc SenseLe))) /\ array_degree 2 (con_right (CM (w_mc SenseLe)))
  /\ (exists c', con_simplified (CM (w_mc SenseLe)) = Ok c').
Proof. exact wit_simplified. Qed.

Theorem C31_vectors_total : forall {NN : Num} (n : nat) (c : vector_constraint), 2 <= n -> valid_con (n, 1) (CV c) -> exists c', con_simplified (CV c) = Ok c' /\ valid_con (n, 1) c' /\ con_sense c' = vc_sense c.
Proof. exact @con_simplified_vectors. Qed.
Print Assumptions C31_vectors_total.
Example C31_vectors_total_nonvacuous (NN := QNum) : forall s, s <> SenseOther -> valid_con (2, 1) (CV (w_vc s)).
Proof. exact wit_vc_valid. Qed.

Theorem C31_numbers_total : forall {NN : Num} (d : nat * nat) (l r : list (list num)) (s : sense), valid_con d (CM (mkMC (MK l) (MK r) s)) -> exists c', con_simplified (CM (mkMC (MK l) (MK r) s)) = Ok c'.
Proof. exact @con_simplified_numbers. Qed.
Print Assumptions C31_numbers_total.

(** no vector constraint of length one can be simplified *)
Theorem C31_one_panics : forall {NN : Num} (c : vector_constraint), valid_con (1, 1) (CV c) -> exists p, con_simplified (CV c) = Panic p.
Proof. exact @con_simplified_one. Qed.
Print Assumptions C31_one_panics.

(** no constraint with a VariableMatrix or a MonomialMatrix on either side can be simplified *)
Theorem C31_matrices_panic : forall {NN : Num} (d : nat * nat) (c : matrix_constraint) (s : expr), valid_con d (CM c) -> (n0 + nm1 * n0 =? n0) = true -> s = EM (mc_left c) \/ s = EM (mc_right c) ->
  is_variable_matrix s = true \/ is_monomial_matrix s = true -> exists p, con_simplified (CM c) = Panic p.
Proof. exact @con_simplified_kinds. Qed.
Print Assumptions C31_matrices_panic.
Example C31_matrices_panic_nonvacuous (NN := QNum) : valid_con (2, 2) (CM (mkMC (MV [[wx; wy]; [wz; wx]]) w_km' SenseLe)) /\ (n0 + nm1 * n0 =? n0) = true /\ is_variable_matrix (EM (MV [[wx; wy]; [wz; wx]])) = true
  /\ valid_con (2, 2) (CM (mkMC w_km' w_km' SenseEq)).
Proof. exact wit_simplified_kinds. Qed.

Example C31_matrices_panic_binary64 : (@neqb F64Num (nadd n0 (nmul nm1 n0)) n0) = true.
Proof. exact wit_f64_zero. Qed.

Theorem C31_simplified_refuted : forall NN, NN = F64Num \/ NN = QNum -> exists (c : matrix_constraint) (v : vector_constraint) (p q : panic),
  valid_con (2, 2) (CM c) /\ con_simplified (CM c) = Panic p /\ valid_con (1, 1) (CV v) /\ con_simplified (CV v) = Panic q.
Proof. exact simplified_refuted. Qed.
Print Assumptions C31_simplified_refuted.

(** (x^2 y, 1) <= (y^2 x, 1) *)
Theorem C31_feasible_refuted : forall NN, NN = F64Num \/ NN = QNum -> exists (c : vector_constraint) (c' : constraint) (r : assignment),
  valid_con (2, 1) (CV c) /\ con_simplified (CV c) = Ok c' /\ con_sat r (2, 1) c' /\ ~ con_sat r (2, 1) (CV c).
Proof. exact simplified_feasible_refuted. Qed.
Print Assumptions C31_feasible_refuted.

(** ** C28 substitution into vector and matrix constraints *)

Theorem C28_array_substitute_total : forall {NN : Num} (d : nat * nat) (c : constraint) (x : var) (t : scalar), valid_con d c -> valid_var x -> valid t ->
  exists c', con_substitute c x t = Ok c' /\ valid_con d c' /\ con_sense c' = con_sense c.
Proof. exact @con_substitute_total. Qed.
Print Assumptions C28_array_substitute_total.
Example C28_array_substitute_total_nonvacuous (NN := QNum) : valid_con (2, 1) (CV (w_vc SenseGe)) /\ valid_var wx /\ valid w_lin
  /\ (forall s, In s (entry_constraints (2, 1) (CV (w_vc SenseGe))) -> same_environment wx (sc_left s) /\ same_environment wx (sc_right s))
  /\ array_degree 1 (con_left (CV (w_vc SenseGe))) /\ array_degree 1 (con_right (CV (w_vc SenseGe))) /\ degree_at_most 1 w_lin /\ (1 <= 1)%Z /\ (1 * 1 <= 2)%Z.
Proof. exact wit_con_sub. Qed.

(** missing: ambiguous terms, for which the claim is false (C28_substitute_refuted) *)
Theorem C28_array_substitute_partial : forall {NN : Num} (d : nat * nat) (c : constraint) (x : var) (t : scalar), ExactNum NN -> valid_con d c -> valid_var x -> valid t ->
  (forall s, In s (entry_constraints d c) -> same_environment x (sc_left s) /\ same_environment x (sc_right s)
     /\ unambiguous_exponents (substituted_terms (replacement x t) (sc_left s)) /\ unambiguous_exponents (substituted_terms (replacement x t) (sc_right s))) ->
  exists c', con_substitute c x t = Ok c' /\ valid_con d c' /\ con_sense c' = con_sense c
    /\ forall r, con_sat r d c' <-> con_sat (update r (v_id x) (eval r t)) d c.
Proof. exact @con_substitute_value. Qed.
Print Assumptions C28_array_substitute_partial.

(** missing: results of degree above 2 *)
Theorem C28_array_substitute_degree2_partial : forall {NN : Num} (d : nat * nat) (c : constraint) (x : var) (t : scalar) (dd D : Z), ExactNum NN -> valid_con d c -> valid_var x -> valid t ->
  (forall s, In s (entry_constraints d c) -> same_environment x (sc_left s) /\ same_environment x (sc_right s)) ->
  array_degree dd (con_left c) -> array_degree dd (con_right c) -> degree_at_most D t -> (1 <= D)%Z -> (dd * D <= 2)%Z ->
  exists c', con_substitute c x t = Ok c' /\ valid_con d c' /\ con_sense c' = con_sense c
    /\ forall r, con_sat r d c' <-> con_sat (update r (v_id x) (eval r t)) d c.
Proof. exact @con_substitute_degree2. Qed.
Print Assumptions C28_array_substitute_degree2_partial.
Example C28_array_substitute_degree2_nonvacuous (NN := QNum) : valid_con (2, 1) (CV (w_vc SenseGe)) /\ valid_var wx /\ valid w_lin
  /\ (forall s, In s (entry_constraints (2, 1) (CV (w_vc SenseGe))) -> same_environment wx (sc_left s) /\ same_environment wx (sc_right s))
  /\ array_degree 1 (con_left (CV (w_vc SenseGe))) /\ array_degree 1 (con_right (CV (w_vc SenseGe))) /\ degree_at_most 1 w_lin /\ (1 <= 1)%Z /\ (1 * 1 <= 2)%Z.
Proof. exact wit_con_sub. Qed.

(** missing: higher degrees; replacements that contain mapped variables (C17_substitute_map_refuted). The two iteration orders of the map, one for each side, are arbitrary *)
Theorem C28_array_substitute_map_partial : forall {NN : Num} (d : nat * nat) (c : constraint) (sm sm' : submap), ExactNum NN -> valid_con d c -> ~ is_scalar (con_left c) -> valid_map sm -> Permutation sm sm' ->
  array_degree 2 (con_left c) -> array_degree 2 (con_right c) ->
  (forall k t, In (k, ES t) sm -> degree_at_most 1 t) ->
  (forall w, array_var w (con_left c) \/ array_var w (con_right c) \/ map_var w sm -> forall k, In k (map fst sm) -> v_id w = v_id k -> w = k) ->
  (forall k t k', In (k, ES t) sm -> In k' (map fst sm) -> ~ occurs (v_id k') t) ->
  exists c', con_substitute_map c sm sm' = Ok c' /\ valid_con d c' /\ con_sense c' = con_sense c
    /\ forall r r', (forall s, In s (entry_constraints d c) -> simultaneous r sm (sc_left s) r' /\ simultaneous r sm (sc_right s) r') -> (con_sat r d c' <-> con_sat r' d c).
Proof. exact @con_substitute_map_arrays. Qed.
Print Assumptions C28_array_substitute_map_partial.
Example C28_array_substitute_map_nonvacuous (NN := QNum) : valid_con (2, 1) (CV (w_vc SenseGe)) /\ ~ is_scalar (con_left (CV (w_vc SenseGe))) /\ valid_map w_arr_map /\ Permutation w_arr_map (rev w_arr_map)
  /\ array_degree 2 (con_left (CV (w_vc SenseGe))) /\ array_degree 2 (con_right (CV (w_vc SenseGe)))
  /\ (forall k t, In (k, ES t) w_arr_map -> degree_at_most 1 t)
  /\ (forall w, array_var w (con_left (CV (w_vc SenseGe))) \/ array_var w (con_right (CV (w_vc SenseGe))) \/ map_var w w_arr_map -> forall k, In k (map fst w_arr_map) -> v_id w = v_id k -> w = k)
  /\ (forall k t k', In (k, ES t) w_arr_map -> In k' (map fst w_arr_map) -> ~ occurs (v_id k') t).
Proof. exact wit_con_sub_map. Qed.

(** ** C49 variables of constraints *)

Theorem C49_array_variables : forall {NN : Num} (o : list var -> list var) (d : nat * nat) (c : constraint), valid_con d c -> permutes o ->
  exists l, con_variables o c = Ok l
    /\ (forall i, In i (map v_id l) <-> array_occurs i (con_left c) \/ array_occurs i (con_right c))
    /\ (forall w, In w l -> array_var w (con_left c) \/ array_var w (con_right c))
    /\ (ExactNum NN -> NoDup l).
Proof. exact @con_variables_facts. Qed.
Print Assumptions C49_array_variables.
Example C49_array_variables_nonvacuous (NN := QNum) : valid_con (2, 1) (CV (w_vc SenseGe)) /\ permutes (@rev var)
  /\ (forall v w, (array_var v (con_left (CV (w_vc SenseGe))) \/ array_var v (con_right (CV (w_vc SenseGe)))) ->
        (array_var w (con_left (CV (w_vc SenseGe))) \/ array_var w (con_right (CV (w_vc SenseGe)))) -> v_id v = v_id w -> v = w).
Proof. exact wit_con_vars. Qed.

Theorem C49_array_variables_ids : forall {NN : Num} (o : list var -> list var) (d : nat * nat) (c : constraint), ExactNum NN -> valid_con d c -> permutes o ->
  (forall v w, (array_var v (con_left c) \/ array_var v (con_right c)) -> (array_var w (con_left c) \/ array_var w (con_right c)) -> v_id v = v_id w -> v = w) ->
  exists l, con_variables o c = Ok l /\ NoDup (map v_id l).
Proof. exact @con_variables_ids. Qed.
Print Assumptions C49_array_variables_ids.

(** ** C11 IsLinear of constraints *)

Theorem C11_constraint_is_linear : forall {NN : Num} (d : nat * nat) (c : constraint), valid_con d c ->
  exists b, con_is_linear c = Ok b /\ (b = true <-> array_degree 1 (con_left c) /\ array_degree 1 (con_right c)).
Proof. exact @con_is_linear_ok. Qed.
Print Assumptions C11_constraint_is_linear.

(** ** C25 implication *)

(** missing: entries with a constant on the left or nonlinear entries, for which the claim is false (C25_implies_refuted) *)
Theorem C25_array_implies_sound_partial : forall {NN : Num} {EX : ExactNum NN} (o : nat -> nat -> orders) (d d' : nat * nat) (c other : constraint), valid_con d c -> valid_con d' other -> plain_con d c -> plain_con d' other ->
  (forall i j, permuting (o i j)) -> exists b, con_implies o c other = Ok b /\ (b = true -> forall r, con_sat r d c -> con_sat r d' other).
Proof. exact @con_implies_sound. Qed.
Print Assumptions C25_array_implies_sound_partial.
Example C25_array_implies_nonvacuous (NN := QNum) : valid_con (2, 1) (CV w_pc) /\ plain_con (2, 1) (CV w_pc) /\ plain_con (1, 1) (CS w_plain1)
  /\ con_implies (fun _ _ => reversed) (CV w_pc) (CS w_plain2) = Ok true /\ con_implies (fun _ _ => reversed) (CV w_pc) (CS w_plain1) = Ok false.
Proof. exact wit_con_implies. Qed.

(** ** C47 invalid operands of comparisons *)

Theorem C47_operand_comparison : forall {NN : Num} (a b : expr) (s : sense), expr_check b = false -> forall c, expr_comparison a (GExpr b) s <> Ok c.
Proof. exact @comparison_operands. Qed.
Print Assumptions C47_operand_comparison.

Theorem C47_receiver_comparison : forall {NN : Num} (a : expr) (g : goval) (s : sense), expr_check a = false -> forall c, expr_comparison a g s <> Ok c.
Proof. exact @comparison_receivers. Qed.
Print Assumptions C47_receiver_comparison.

Theorem C47_unsupported_comparison : forall {NN : Num} (a : expr) (s : sense), forall c, expr_comparison a GOther s <> Ok c.
Proof. exact @comparison_others. Qed.
Print Assumptions C47_unsupported_comparison.
