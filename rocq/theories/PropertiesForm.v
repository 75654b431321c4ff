(** * C71: tests on terms, searches for terms, conversions of terms; C19: the lists given to LinearCoeff

    Each theorem is proved in another file; the identifiers are those of properties.jsonl. *)

From Coq Require Import ZArith NArith Bool List Sorted.
From Verif Require Import Num Syntax ModelScalar ModelShape Spec SpecArr SpecForm FormProofs LinWhen Witness FormWit.
Import ListNotations.
Local Open Scope num_scope.

(** ** C71 IsZero, IsVariable, IsDegreeOneContainingVariable, MatchesFormOf, the three index methods, ToVariable, ToMonomial, ToPolynomial *)

Theorem C71_is_zero : forall {NN : Num} {EX : ExactNum NN} (m : Monomial), valid_mono m -> answers (mono_is_zero m) (forall r, eval_mono r m = n0).
Proof. exact @is_zero_spec. Qed.
Print Assumptions C71_is_zero.
Theorem C71_is_variable : forall {NN : Num} {EX : ExactNum NN} (m : Monomial) (v : var), valid_mono m -> valid_var v -> answers (mono_is_variable m v) (forall r, eval_mono r m = r (v_id v)).
Proof. exact @is_variable_spec. Qed.
Print Assumptions C71_is_variable.
(** m is c v *)
Theorem C71_degree_one : forall {NN : Num} (m : Monomial) (v : var), valid_mono m -> valid_var v -> answers (mono_is_degree_one_in m v) (same_powers m (just v)).
Proof. exact @degree_one_spec. Qed.
Print Assumptions C71_degree_one.

(** two terms have the same powers of the same variables exactly if one is a multiple of the other *)
Theorem C71_same_powers : forall {NN : Num} {EX : ExactNum NN} (m1 m2 : Monomial), valid_mono m1 -> valid_mono m2 -> m_coeff m1 <> n0 -> m_coeff m2 <> n0 ->
  (same_powers m1 m2 <-> exists c, forall r, eval_mono r m1 = c * eval_mono r m2).
Proof. exact @same_powers_meaning. Qed.
Print Assumptions C71_same_powers.
(** MatchesFormOf decides that for terms of degree two.
    missing: terms of higher degree, for which it is wrong both ways (C71_matches_refuted); what it decides there is C71_matches *)
Theorem C71_matches_degree2_partial : forall {NN : Num} (m1 m2 : Monomial), valid_mono m1 -> valid_mono m2 -> (tdeg m1 <= 2)%Z -> (tdeg m2 <= 2)%Z -> answers (mono_matches_form m1 m2) (same_powers m1 m2).
Proof. exact @matches_degree2. Qed.
Print Assumptions C71_matches_degree2_partial.
(** missing: terms with unsorted factors *)
Theorem C71_matches_sorted_partial : forall {NN : Num} (m1 m2 : Monomial), valid_mono m1 -> valid_mono m2 -> StronglySorted N.lt (ids m1) -> StronglySorted N.lt (ids m2) ->
  answers (mono_matches_form m1 m2) (same_powers m1 m2).
Proof. exact @matches_sorted. Qed.
Print Assumptions C71_matches_sorted_partial.
(** in general: the same list of exponents and the same set of variables *)
Theorem C71_matches : forall {NN : Num} (m1 m2 : Monomial), valid_mono m1 -> valid_mono m2 -> answers (mono_matches_form m1 m2) (look_alike m1 m2).
Proof. exact @matches_spec. Qed.
Print Assumptions C71_matches.
Theorem C71_matches_symmetric : forall {NN : Num} (m1 m2 : Monomial), valid_mono m1 -> valid_mono m2 -> mono_matches_form m1 m2 = mono_matches_form m2 m1.
Proof. exact @matches_symmetric. Qed.
Print Assumptions C71_matches_symmetric.
(** x y^2 matches y x^2, and x^2 y does not *)
Theorem C71_matches_refuted : forall NN, NN = F64Num \/ NN = QNum -> exists m1 m2 m3 : Monomial, valid_mono m1 /\ valid_mono m2 /\ valid_mono m3 /\
  mono_matches_form m1 m2 = Ok true /\ ~ same_powers m1 m2 /\ mono_matches_form m3 m2 = Ok false /\ same_powers m3 m2.
Proof. exact matches_refuted. Qed.
Print Assumptions C71_matches_refuted.

(** ConstantMonomialIndex, VariableMonomialIndex, MonomialIndex: the position of the first such term *)
Theorem C71_constant_index : forall {NN : Num} (p : list Monomial), valid_poly p -> exists o, poly_constant_index p = Ok o /\ found (fun m => m_vars m = []) p o.
Proof. exact @constant_index_spec. Qed.
Print Assumptions C71_constant_index.
Theorem C71_variable_index : forall {NN : Num} (p : list Monomial) (v : var), valid_poly p -> valid_var v -> exists o, poly_variable_index p v = Ok o /\ found (fun m => same_powers m (just v)) p o.
Proof. exact @variable_index_spec. Qed.
Print Assumptions C71_variable_index.
(** missing: terms of higher degree (C71_matches_refuted); C71_monomial_index says what is found there *)
Theorem C71_monomial_index_degree2_partial : forall {NN : Num} (p : list Monomial) (q : Monomial), valid_poly p -> valid_mono q -> degree_at_most 2 (SP p) -> (tdeg q <= 2)%Z ->
  exists o, poly_monomial_index p q = Ok o /\ found (fun m => same_powers m q) p o.
Proof. exact @monomial_index_degree2. Qed.
Print Assumptions C71_monomial_index_degree2_partial.
Theorem C71_monomial_index : forall {NN : Num} (p : list Monomial) (q : Monomial), valid_poly p -> valid_mono q -> exists o, poly_monomial_index p q = Ok o /\ found (fun m => look_alike m q) p o.
Proof. exact @monomial_index_spec. Qed.
Print Assumptions C71_monomial_index.

(** ToVariable succeeds exactly on the terms c v, and returns v *)
Theorem C71_to_variable : forall {NN : Num} (m : Monomial), valid_mono m ->
  (forall v, mono_to_variable m = Ok v -> m_vars m = [v] /\ same_powers m (just v)) /\ ((exists v, same_powers m (just v)) -> exists v, mono_to_variable m = Ok v).
Proof. exact @to_variable_spec. Qed.
Print Assumptions C71_to_variable.
Theorem C71_to_variable_value : forall {NN : Num} {EX : ExactNum NN} (m : Monomial) (v : var), valid_mono m -> mono_to_variable m = Ok v -> forall r, eval_mono r m = m_coeff m * r (v_id v).
Proof. exact @to_variable_value. Qed.
Print Assumptions C71_to_variable_value.
(** so it drops the coefficient of 3x instead of panicking *)
Theorem C71_to_variable_refuted : forall NN, NN = F64Num \/ NN = QNum -> exists (m : Monomial) (v : var) (r : assignment), valid_mono m /\ mono_to_variable m = Ok v /\ mono_is_variable m v = Ok false /\
  eval_mono r m =? r (v_id v) = false.
Proof. exact to_variable_refuted. Qed.
Print Assumptions C71_to_variable_refuted.
Theorem C71_conversions : forall {NN : Num} {EX : ExactNum NN} (r : assignment),
  (forall k, eval_mono r (k_to_mono k) = k /\ eval_poly r (k_to_poly k) = k) /\ (forall v, eval_mono r (var_to_mono v) = r (v_id v) /\ eval_poly r (var_to_poly v) = r (v_id v)) /\
  (forall m, eval_poly r (mono_to_poly m) = eval_mono r m).
Proof. exact @scalar_conversions. Qed.
Print Assumptions C71_conversions.
(** terms that fail Check are rejected *)
Theorem C71_rejects : forall {NN : Num} (m : Monomial) (v : var), mono_check m = false ->
  (mono_is_zero m = Panic PCheck /\ mono_is_degree_one_in m v = Panic PCheck /\ mono_is_variable m v = Panic PCheck /\ mono_to_variable m = Panic PCheck) /\
  (forall m', mono_matches_form m m' = Panic PCheck) /\ (forall m', mono_check m' = true -> mono_matches_form m' m = Panic PCheck).
Proof. exact @tests_reject. Qed.
Print Assumptions C71_rejects.
Example C71_nonvacuous (NN := QNum) : Forall valid_mono [f_3x; f_xy; f_yx; f_xyy; f_yxx; f_xxy] /\ valid_poly f_poly /\ degree_at_most 2 (SP f_poly) /\ valid_var wx /\ StronglySorted N.lt (ids f_xyy) /\ m_coeff f_3x <> n0.
Proof. exact wit_forms. Qed.
Example C71_rejects_nonvacuous (NN := QNum) : mono_check (mkMono n1 [1; 2]%Z [wx]) = false.
Proof. reflexivity. Qed.

(** ** C19 the lists given to LinearCoeff *)

(** without a list, the variables of the expression are used *)
Theorem C19_no_list : forall {NN : Num} (s : scalar), scalar_linear_coeff s [] = scalar_linear_coeff s [scalar_variables s].
Proof. exact @no_list. Qed.
Print Assumptions C19_no_list.
Theorem C19_vector_no_list : forall {NN : Num} (v : vector) (ws : list var), vec_variables v = Ok ws -> vec_linear_coeff v [] = vec_linear_coeff v [ws].
Proof. exact @vector_no_list. Qed.
Print Assumptions C19_vector_no_list.
(** more than one list is refused, except by constants, which use the first *)
Theorem C19_several_lists : forall {NN : Num} (s : scalar) (w1 w2 : list var) (ws : list (list var)), valid s ->
  match s with SK _ => scalar_linear_coeff s (w1 :: w2 :: ws) = scalar_linear_coeff s [w1] | _ => exists p, scalar_linear_coeff s (w1 :: w2 :: ws) = Panic p end.
Proof. exact @several_lists. Qed.
Print Assumptions C19_several_lists.
Theorem C19_vector_several_lists : forall {NN : Num} (v : vector) (w1 w2 : list var) (ws : list (list var)), exists p, vec_linear_coeff v (w1 :: w2 :: ws) = Panic p.
Proof. exact @vector_lists. Qed.
Print Assumptions C19_vector_several_lists.
(** with one list: it panics exactly when the list is empty or the expression is a monomial of degree 1 or less whose variable is not listed *)
Theorem C19_panics_when : forall {NN : Num} (s : scalar) (w : list var), valid s -> Forall valid_var w ->
  ((exists cs, scalar_linear_coeff s [w] = Ok cs) <-> w <> [] /\ has_linear_variable s w).
Proof. exact @linear_coeff_when. Qed.
Print Assumptions C19_panics_when.
Theorem C19_vector_panics_when : forall {NN : Num} (v : vector) (n : nat) (w : list var), valid_array (n, 1) (EV v) -> Forall valid_var w ->
  ((exists A, vec_linear_coeff v [w] = Ok A) <-> w <> [] /\ forall i, i < n -> has_linear_variable (entry (EV v) i 0) w).
Proof. exact @vector_linear_coeff_when. Qed.
Print Assumptions C19_vector_panics_when.
Example C19_panics_when_nonvacuous (NN := QNum) : valid (SM f_3x) /\ has_linear_variable (SM f_3x) [wy; wx] /\ ~ has_linear_variable (SM f_3x) [wy] /\ has_linear_variable (SM f_xyy) [wz]
  /\ valid_array (2, 1) (EV (VM [f_3x; f_xyy])) /\ Forall valid_var [wy; wx].
Proof. exact wit_linear_when. Qed.
