(** * Properties of scalar constraints *)

From Coq Require Import ZArith NArith Bool List Permutation.
From Verif Require Import Num Syntax ModelScalar ModelSC Spec SpecProg Programs Witness ScalarWit SCProofs SCImplies SCWit.
Import ListNotations.
Local Open Scope num_scope.

(** ** C20 linear inequality representation *)

(** missing: sides with uncollected like terms, for which the claim is false (C20_inequality_refuted) *)
Theorem C20_inequality_partial : forall {NN : Num} {EX : ExactNum NN} (c : scalar_constraint) (w : list var),
  valid_constraint c -> (sc_sense c = SenseLe \/ sc_sense c = SenseGe) ->
  degree_at_most 1 (sc_left c) -> degree_at_most 1 (sc_right c) -> collected (sc_left c) -> collected (sc_right c) ->
  w <> [] -> Forall valid_var w -> NoDup (map v_id w) -> (forall i, occurs i (sc_left c) \/ occurs i (sc_right c) -> In i (map v_id w)) ->
  exists A b, sc_linear_inequality c [w] = Ok (A, b) /\ length A = length w
    /\ forall r, nleb (dot r A w) b = true <-> satisfies r c.
Proof. exact @inequality_repr. Qed.
Print Assumptions C20_inequality_partial.
Example C20_inequality_nonvacuous (NN := QNum) : degree_at_most 1 w_lin /\ degree_at_most 1 (SV wz) /\ collected w_lin /\ collected (SV wz)
  /\ [wz; wy; wx] <> [] /\ Forall valid_var [wz; wy; wx] /\ NoDup (map v_id [wz; wy; wx])
  /\ (forall i, occurs i w_lin \/ occurs i (SV wz) -> In i (map v_id [wz; wy; wx])).
Proof. exact wit_con_repr. Qed.

(** every constraint between linear expressions built by the API without DerivativeWrt *)
Theorem C20_inequality_programs_partial : forall {NN : Num} (p q : prog) (s : sense) (w : list var), ExactNum NN ->
  well_formed p -> well_formed q -> no_derivative p -> no_derivative q -> s = SenseLe \/ s = SenseGe ->
  w <> [] -> Forall valid_var w -> NoDup (map v_id w) ->
  exists a b, run p = Ok a /\ run q = Ok b /\
    (degree_at_most 1 a -> degree_at_most 1 b -> (forall i, occurs i a \/ occurs i b -> In i (map v_id w)) ->
     exists A k, sc_linear_inequality (mkSC a b s) [w] = Ok (A, k) /\ length A = length w
       /\ forall r, nleb (dot r A w) k = true <-> satisfies r (mkSC a b s)).
Proof. exact @inequality_programs. Qed.
Print Assumptions C20_inequality_programs_partial.
Example C20_inequality_programs_nonvacuous (NN := QNum) : well_formed w_prog2 /\ well_formed pz /\ no_derivative w_prog2 /\ no_derivative pz
  /\ exists s, run w_prog2 = Ok s /\ degree_at_most 1 s /\ forall i, occurs i s -> In i (map v_id [wy; wx]).
Proof. exact wit_con_programs. Qed.

(** 2 + 2 <= x, where the left hand side is a third derivative of x*x*y + y*x*x *)
Theorem C20_inequality_refuted : forall NN, NN = F64Num \/ NN = QNum ->
  exists (p q : prog) (a b : scalar) (w : list var) (A : list num) (k : num) (r : assignment),
  well_formed p /\ well_formed q /\ run p = Ok a /\ run q = Ok b /\ degree_at_most 1 a /\ degree_at_most 1 b
  /\ (forall i, occurs i a \/ occurs i b -> In i (map v_id w))
  /\ sc_linear_inequality (mkSC a b SenseLe) [w] = Ok (A, k) /\ nleb (dot r A w) k = true /\ ~ satisfies r (mkSC a b SenseLe).
Proof. exact inequality_refuted. Qed.
Print Assumptions C20_inequality_refuted.

(** ** C21 rejected constraints *)

(** missing: the inequality representation does not reject equalities (C21_inequality_refuted) *)
Theorem C21_inequality_nonlinear_partial : forall {NN : Num} (c : scalar_constraint) (w : list (list var)), valid_constraint c ->
  (~ degree_at_most 1 (sc_left c) \/ ~ degree_at_most 1 (sc_right c)) -> sc_linear_inequality c w = Panic PLinearRequired.
Proof. exact @inequality_nonlinear. Qed.
Print Assumptions C21_inequality_nonlinear_partial.
Theorem C21_equality_nonlinear : forall {NN : Num} (c : scalar_constraint) (w : list (list var)), valid_constraint c ->
  (~ degree_at_most 1 (sc_left c) \/ ~ degree_at_most 1 (sc_right c)) -> sc_linear_equality c w = Panic PLinearRequired.
Proof. exact @equality_nonlinear. Qed.
Print Assumptions C21_equality_nonlinear.
Example C21_nonlinear_nonvacuous (NN := QNum) : valid_constraint (mkSC w_quad (SV wz) SenseLe) /\ ~ degree_at_most 1 w_quad.
Proof. exact wit_con_nonlinear. Qed.
Theorem C21_equality_sense : forall {NN : Num} (c : scalar_constraint) (w : list (list var)), valid_constraint c ->
  degree_at_most 1 (sc_left c) -> degree_at_most 1 (sc_right c) -> sc_sense c <> SenseEq -> sc_linear_equality c w = Panic PEqRequired.
Proof. exact @equality_sense. Qed.
Print Assumptions C21_equality_sense.
Example C21_equality_sense_nonvacuous (NN := QNum) : forall s, s <> SenseOther -> valid_constraint (mkSC w_lin (SV wz) s).
Proof. exact wit_con_valid. Qed.
(** x == 3 has an "inequality representation" x <= 3 that other assignments satisfy *)
Theorem C21_inequality_refuted : forall NN, NN = F64Num \/ NN = QNum ->
  exists (c : scalar_constraint) (w : list var) (A : list num) (k : num) (r : assignment),
  valid_constraint c /\ sc_sense c = SenseEq /\ sc_linear_inequality c [w] = Ok (A, k)
  /\ nleb (dot r A w) k = true /\ (eval r (sc_left c) =? eval r (sc_right c)) = false.
Proof. exact inequality_accepts_equality. Qed.
Print Assumptions C21_inequality_refuted.

(** ** C22 linear equality representation *)

Theorem C22_equality_partial : forall {NN : Num} {EX : ExactNum NN} (c : scalar_constraint) (w : list var),
  valid_constraint c -> sc_sense c = SenseEq ->
  degree_at_most 1 (sc_left c) -> degree_at_most 1 (sc_right c) -> collected (sc_left c) -> collected (sc_right c) ->
  w <> [] -> Forall valid_var w -> NoDup (map v_id w) -> (forall i, occurs i (sc_left c) \/ occurs i (sc_right c) -> In i (map v_id w)) ->
  exists C d, sc_linear_equality c [w] = Ok (C, d) /\ length C = length w
    /\ forall r, dot r C w = d <-> satisfies r c.
Proof. exact @equality_repr. Qed.
Print Assumptions C22_equality_partial.
Example C22_equality_nonvacuous (NN := QNum) : degree_at_most 1 w_lin /\ degree_at_most 1 (SV wz) /\ collected w_lin /\ collected (SV wz)
  /\ [wz; wy; wx] <> [] /\ Forall valid_var [wz; wy; wx] /\ NoDup (map v_id [wz; wy; wx])
  /\ (forall i, occurs i w_lin \/ occurs i (SV wz) -> In i (map v_id [wz; wy; wx])).
Proof. exact wit_con_repr. Qed.
Theorem C22_equality_programs_partial : forall {NN : Num} (p q : prog) (w : list var), ExactNum NN ->
  well_formed p -> well_formed q -> no_derivative p -> no_derivative q ->
  w <> [] -> Forall valid_var w -> NoDup (map v_id w) ->
  exists a b, run p = Ok a /\ run q = Ok b /\
    (degree_at_most 1 a -> degree_at_most 1 b -> (forall i, occurs i a \/ occurs i b -> In i (map v_id w)) ->
     exists C d, sc_linear_equality (mkSC a b SenseEq) [w] = Ok (C, d) /\ length C = length w
       /\ forall r, dot r C w = d <-> satisfies r (mkSC a b SenseEq)).
Proof. exact @equality_programs. Qed.
Print Assumptions C22_equality_programs_partial.
Example C22_equality_programs_nonvacuous (NN := QNum) : well_formed w_prog2 /\ well_formed pz /\ no_derivative w_prog2 /\ no_derivative pz
  /\ exists s, run w_prog2 = Ok s /\ degree_at_most 1 s /\ forall i, occurs i s -> In i (map v_id [wy; wx]).
Proof. exact wit_con_programs. Qed.
Theorem C22_equality_refuted : forall NN, NN = F64Num \/ NN = QNum ->
  exists (p q : prog) (a b : scalar) (w : list var) (A : list num) (k : num) (r : assignment),
  well_formed p /\ well_formed q /\ run p = Ok a /\ run q = Ok b /\ degree_at_most 1 a /\ degree_at_most 1 b
  /\ (forall i, occurs i a \/ occurs i b -> In i (map v_id w))
  /\ sc_linear_equality (mkSC a b SenseEq) [w] = Ok (A, k) /\ (dot r A w =? k) = true /\ (eval r a =? eval r b) = false.
Proof. exact equality_refuted. Qed.
Print Assumptions C22_equality_refuted.

(** ** C23 AsSimplifiedConstraint *)

(** any numbers: no panic, valid, the sense is kept, the right hand side is a constant *)
Theorem C23_simplify_shape : forall {NN : Num} (c : scalar_constraint), valid_constraint c ->
  exists c', sc_simplify c = Ok c' /\ valid_constraint c' /\ sc_sense c' = sc_sense c /\ (exists k, sc_right c' = SK k).
Proof. exact @simplify_shape. Qed.
Print Assumptions C23_simplify_shape.
(** missing: ambiguous terms (C23_feasible_refuted); the left hand side may keep a constant (C23_constant_refuted) *)
Theorem C23_simplify_feasible_partial : forall {NN : Num} (c : scalar_constraint), ExactNum NN -> valid_constraint c ->
  unambiguous (in_either (sc_left c) (sc_right c)) ->
  exists c', sc_simplify c = Ok c' /\ valid_constraint c' /\ sc_sense c' = sc_sense c /\ (exists k, sc_right c' = SK k)
    /\ forall r, satisfies r c' <-> satisfies r c.
Proof. exact @simplify_keeps. Qed.
Print Assumptions C23_simplify_feasible_partial.
Example C23_simplify_nonvacuous (NN := QNum) : valid_constraint (mkSC w_cubic w_cubic2 SenseLe) /\ unambiguous (in_either w_cubic w_cubic2)
  /\ unambiguous (fun m => In m (terms w_cubic)) /\ unambiguous (fun m => In m (terms w_cubic2)).
Proof. exact wit_con_cubic. Qed.
Theorem C23_simplify_degree2_partial : forall {NN : Num} (c : scalar_constraint), ExactNum NN -> valid_constraint c ->
  degree_at_most 2 (sc_left c) -> degree_at_most 2 (sc_right c) ->
  exists c', sc_simplify c = Ok c' /\ valid_constraint c' /\ sc_sense c' = sc_sense c /\ (exists k, sc_right c' = SK k)
    /\ forall r, satisfies r c' <-> satisfies r c.
Proof. exact @simplify_keeps_degree2. Qed.
Print Assumptions C23_simplify_degree2_partial.
Example C23_degree2_nonvacuous (NN := QNum) : valid_constraint (mkSC w_quad w_quad2 SenseLe) /\ degree_at_most 2 w_quad /\ degree_at_most 2 w_quad2 /\ nofZ (-3) <> n0.
Proof. exact wit_con_quad. Qed.
Theorem C23_simplify_one_variable_partial : forall {NN : Num} (x : N) (c : scalar_constraint), ExactNum NN -> valid_constraint c ->
  only_variable x (sc_left c) -> only_variable x (sc_right c) ->
  exists c', sc_simplify c = Ok c' /\ valid_constraint c' /\ sc_sense c' = sc_sense c /\ (exists k, sc_right c' = SK k)
    /\ forall r, satisfies r c' <-> satisfies r c.
Proof. exact @simplify_keeps_one_variable. Qed.
Print Assumptions C23_simplify_one_variable_partial.
Example C23_one_variable_nonvacuous (NN := QNum) : valid_constraint (mkSC w_uni w_uni2 SenseGe) /\ only_variable 0 w_uni /\ only_variable 0 w_uni2.
Proof. exact wit_con_uni. Qed.
(** x + 1 <= y + 2 *)
Theorem C23_constant_refuted : forall NN, NN = F64Num \/ NN = QNum -> exists (p q : prog) (a b : scalar) (c' : scalar_constraint) (k : num),
  well_formed p /\ well_formed q /\ run p = Ok a /\ run q = Ok b /\ sc_simplify (mkSC a b SenseLe) = Ok c'
  /\ scalar_constant (sc_left c') = Ok k /\ (k =? n0) = false.
Proof. exact simplify_constant_refuted. Qed.
Print Assumptions C23_constant_refuted.
(** x*x*y <= y*y*x *)
Theorem C23_feasible_refuted : forall NN, NN = F64Num \/ NN = QNum ->
  exists (p q : prog) (a b : scalar) (c' : scalar_constraint) (r : assignment),
  well_formed p /\ well_formed q /\ run p = Ok a /\ run q = Ok b /\ sc_simplify (mkSC a b SenseLe) = Ok c'
  /\ satisfies r c' /\ ~ satisfies r (mkSC a b SenseLe).
Proof. exact simplify_feasible_refuted. Qed.
Print Assumptions C23_feasible_refuted.

(** ** C24 ScaleBy *)

(** any numbers: no panic, and the sense is flipped exactly for negative factors *)
Theorem C24_scale_sense : forall {NN : Num} (c : scalar_constraint) (f : num), valid_constraint c ->
  exists c', sc_scale_by c f = Ok c' /\ valid_constraint c'
    /\ sc_sense c' = match sc_sense c with SenseLe => if f <? n0 then SenseGe else SenseLe | SenseGe => if f <? n0 then SenseLe else SenseGe | s => s end.
Proof. exact @scale_by_sense. Qed.
Print Assumptions C24_scale_sense.
(** missing: sides with ambiguous uncollected terms (C24_scale_refuted) *)
Theorem C24_scale_feasible_partial : forall {NN : Num} (c : scalar_constraint) (f : num), ExactNum NN -> valid_constraint c -> f <> n0 ->
  unambiguous (fun m => In m (terms (sc_left c))) -> unambiguous (fun m => In m (terms (sc_right c))) ->
  exists c', sc_scale_by c f = Ok c' /\ valid_constraint c' /\ forall r, satisfies r c' <-> satisfies r c.
Proof. exact @scale_by_value. Qed.
Print Assumptions C24_scale_feasible_partial.
Example C24_scale_nonvacuous (NN := QNum) : valid_constraint (mkSC w_cubic w_cubic2 SenseLe) /\ unambiguous (in_either w_cubic w_cubic2)
  /\ unambiguous (fun m => In m (terms w_cubic)) /\ unambiguous (fun m => In m (terms w_cubic2)).
Proof. exact wit_con_cubic. Qed.
Theorem C24_scale_degree2_partial : forall {NN : Num} (c : scalar_constraint) (f : num), ExactNum NN -> valid_constraint c -> f <> n0 ->
  degree_at_most 2 (sc_left c) -> degree_at_most 2 (sc_right c) ->
  exists c', sc_scale_by c f = Ok c' /\ valid_constraint c' /\ forall r, satisfies r c' <-> satisfies r c.
Proof. exact @scale_by_degree2. Qed.
Print Assumptions C24_scale_degree2_partial.
Example C24_degree2_nonvacuous (NN := QNum) : valid_constraint (mkSC w_quad w_quad2 SenseLe) /\ degree_at_most 2 w_quad /\ degree_at_most 2 w_quad2 /\ nofZ (-3) <> n0.
Proof. exact wit_con_quad. Qed.
Theorem C24_scale_one_variable_partial : forall {NN : Num} (x : N) (c : scalar_constraint) (f : num), ExactNum NN -> valid_constraint c -> f <> n0 ->
  only_variable x (sc_left c) -> only_variable x (sc_right c) ->
  exists c', sc_scale_by c f = Ok c' /\ valid_constraint c' /\ forall r, satisfies r c' <-> satisfies r c.
Proof. exact @scale_by_one_variable. Qed.
Print Assumptions C24_scale_one_variable_partial.
Example C24_one_variable_nonvacuous (NN := QNum) : valid_constraint (mkSC w_uni w_uni2 SenseGe) /\ only_variable 0 w_uni /\ only_variable 0 w_uni2.
Proof. exact wit_con_uni. Qed.
Theorem C24_scale_refuted : forall NN, NN = F64Num \/ NN = QNum ->
  exists (p q : prog) (a b : scalar) (f : num) (c' : scalar_constraint) (r : assignment),
  well_formed p /\ well_formed q /\ run p = Ok a /\ run q = Ok b /\ (f =? n0) = false /\ sc_scale_by (mkSC a b SenseLe) f = Ok c'
  /\ satisfies r c' /\ ~ satisfies r (mkSC a b SenseLe).
Proof. exact scale_refuted. Qed.
Print Assumptions C24_scale_refuted.

(** ** C25 ImpliesThisIsAlsoSatisfied *)

(** missing: left hand sides with a constant part (C25_implies_refuted) and nonlinear constraints (C25_nonlinear_refuted) *)
Theorem C25_implies_sound_partial : forall {NN : Num} {EX : ExactNum NN} (o : nat -> list var -> list var) (c d : scalar_constraint),
  plain c -> plain d -> permuting o ->
  exists b, sc_implies o c d = Ok b /\ (b = true -> forall r, satisfies r c -> satisfies r d).
Proof. exact @implies_sound. Qed.
Print Assumptions C25_implies_sound_partial.
Example C25_sound_nonvacuous (NN := QNum) : plain w_plain.
Proof. exact wit_plain. Qed.
(** for constraints "a x <sense> k" in the same variable the answer is exact *)
Theorem C25_implies_exact_partial : forall {NN : Num} {EX : ExactNum NN} (o : nat -> list var -> list var) (c d : scalar_constraint) (v w : var) (k k' : num),
  plain c -> plain d -> permuting o ->
  sc_right c = SK k -> sc_right d = SK k' -> scalar_variables (sc_left c) = [v] -> scalar_variables (sc_left d) = [w] -> v_id v = v_id w ->
  exists b, sc_implies o c d = Ok b /\ (b = true <-> forall r, satisfies r c -> satisfies r d).
Proof. exact @implies_exact. Qed.
Print Assumptions C25_implies_exact_partial.
(** 2x >= 6 implies -3x <= 3 and not conversely; the iteration order alternates *)
Example C25_exact_nonvacuous (NN := QNum) : plain w_plain1 /\ plain w_plain2 /\ plain w_nonneg.
Proof. exact wit_plain1. Qed.
Example C25_orders_nonvacuous (NN := QNum) : permuting reversed.
Proof. exact wit_orders. Qed.
Example C25_both_answers (NN := QNum) :
  sc_implies reversed w_plain1 w_plain2 = Ok true /\ sc_implies reversed w_plain2 w_plain1 = Ok false /\ sc_implies reversed w_plain w_plain1 = Ok false
  /\ sc_is_nonnegativity reversed w_nonneg = Ok true /\ sc_is_nonnegativity reversed w_plain2 = Ok false.
Proof. exact wit_implies_runs. Qed.
(** x - 5 <= 3 is said to imply x <= 3 *)
Theorem C25_implies_refuted : forall NN, NN = F64Num \/ NN = QNum -> exists (p q p' q' : prog) (o : orders) (a b a' b' : scalar) (r : assignment),
  well_formed p /\ well_formed q /\ well_formed p' /\ well_formed q' /\ run p = Ok a /\ run q = Ok b /\ run p' = Ok a' /\ run q' = Ok b'
    /\ permuting o /\ sc_implies o (mkSC a b SenseLe) (mkSC a' b' SenseLe) = Ok true /\ satisfies r (mkSC a b SenseLe) /\ ~ satisfies r (mkSC a' b' SenseLe).
Proof. exact implies_refuted. Qed.
Print Assumptions C25_implies_refuted.
(** x <= 3 is said to imply x + x^2 <= 3 *)
Theorem C25_nonlinear_refuted : forall NN, NN = F64Num \/ NN = QNum -> exists (p q p' q' : prog) (o : orders) (a b a' b' : scalar) (r : assignment),
  well_formed p /\ well_formed q /\ well_formed p' /\ well_formed q' /\ run p = Ok a /\ run q = Ok b /\ run p' = Ok a' /\ run q' = Ok b'
    /\ permuting o /\ sc_implies o (mkSC a b SenseLe) (mkSC a' b' SenseLe) = Ok true /\ satisfies r (mkSC a b SenseLe) /\ ~ satisfies r (mkSC a' b' SenseLe).
Proof. exact implies_nonlinear_refuted. Qed.
Print Assumptions C25_nonlinear_refuted.

(** ** C26 IsNonnegativityConstraint *)

(** missing: left hand sides with a constant part (C26_nonnegativity_refuted) *)
Theorem C26_nonnegativity_partial : forall {NN : Num} {EX : ExactNum NN} (o : nat -> list var -> list var) (c : scalar_constraint),
  plain c -> permuting o ->
  exists b, sc_is_nonnegativity o c = Ok b
    /\ (b = true -> exists x, (forall r, satisfies r c <-> nleb n0 (r x) = true) /\ (occurs x (sc_left c) \/ occurs x (sc_right c))).
Proof. exact @nonneg_sound. Qed.
Print Assumptions C26_nonnegativity_partial.
(** for constraints "a x <sense> k" the answer is exact *)
Theorem C26_nonnegativity_exact_partial : forall {NN : Num} {EX : ExactNum NN} (o : nat -> list var -> list var) (c : scalar_constraint) (v : var) (k : num),
  plain c -> permuting o -> sc_right c = SK k -> scalar_variables (sc_left c) = [v] ->
  exists b, sc_is_nonnegativity o c = Ok b /\ (b = true <-> forall r, satisfies r c <-> nleb n0 (r (v_id v)) = true).
Proof. exact @nonneg_exact. Qed.
Print Assumptions C26_nonnegativity_exact_partial.
Example C26_nonnegativity_nonvacuous (NN := QNum) : plain w_plain1 /\ plain w_plain2 /\ plain w_nonneg.
Proof. exact wit_plain1. Qed.
(** x + 5 >= 0 *)
Theorem C26_nonnegativity_refuted : forall NN, NN = F64Num \/ NN = QNum -> exists (p q : prog) (o : orders) (a b : scalar) (r : assignment),
  well_formed p /\ well_formed q /\ run p = Ok a /\ run q = Ok b /\ permuting o
  /\ sc_is_nonnegativity o (mkSC a b SenseGe) = Ok true /\ satisfies r (mkSC a b SenseGe) /\ forall x, occurs x a -> nleb n0 (r x) = false.
Proof. exact nonneg_refuted. Qed.
Print Assumptions C26_nonnegativity_refuted.

(** ** C28 Substitution into a scalar constraint *)

Theorem C28_substitute_total : forall {NN : Num} (c : scalar_constraint) (v : var) (e : scalar), valid_constraint c -> valid_var v -> valid e ->
  exists c', sc_substitute c v e = Ok c' /\ valid_constraint c' /\ sc_sense c' = sc_sense c.
Proof. exact @sc_substitute_total. Qed.
Print Assumptions C28_substitute_total.
(** missing: ambiguous terms (C28_substitute_refuted) *)
Theorem C28_substitute_partial : forall {NN : Num} (c : scalar_constraint) (v : var) (e : scalar), ExactNum NN ->
  valid_constraint c -> valid_var v -> valid e ->
  same_environment v (sc_left c) -> same_environment v (sc_right c) ->
  unambiguous_exponents (substituted_terms (replacement v e) (sc_left c)) ->
  unambiguous_exponents (substituted_terms (replacement v e) (sc_right c)) ->
  exists c', sc_substitute c v e = Ok c' /\ valid_constraint c' /\ forall r, satisfies r c' <-> satisfies (update r (v_id v) (eval r e)) c.
Proof. exact @sc_substitute_value. Qed.
Print Assumptions C28_substitute_partial.
Theorem C28_substitute_degree2_partial : forall {NN : Num} (c : scalar_constraint) (v : var) (e : scalar) (d D : Z), ExactNum NN ->
  valid_constraint c -> valid_var v -> valid e ->
  same_environment v (sc_left c) -> same_environment v (sc_right c) ->
  degree_at_most d (sc_left c) -> degree_at_most d (sc_right c) -> degree_at_most D e -> (1 <= D)%Z -> (d * D <= 2)%Z ->
  exists c', sc_substitute c v e = Ok c' /\ valid_constraint c' /\ forall r, satisfies r c' <-> satisfies (update r (v_id v) (eval r e)) c.
Proof. exact @sc_substitute_degree2. Qed.
Print Assumptions C28_substitute_degree2_partial.
Example C28_substitute_nonvacuous (NN := QNum) : valid_constraint (mkSC w_lin w_lin SenseLe) /\ valid_var wx /\ valid w_lin /\ same_environment wx w_lin
  /\ unambiguous_exponents (substituted_terms (replacement wx w_lin) w_lin) /\ degree_at_most 1 w_lin /\ (1 <= 1)%Z /\ (1 * 1 <= 2)%Z.
Proof. exact wit_con_substitute. Qed.
Theorem C28_substitute_map_degree2_partial : forall {NN : Num} (c : scalar_constraint) (sm : list (var * expr)) (d D : Z), ExactNum NN ->
  valid_constraint c -> valid_map sm ->
  degree_at_most d (sc_left c) -> degree_at_most d (sc_right c) -> (forall k e, In (k, ES e) sm -> degree_at_most D e) -> (1 <= D)%Z -> (d * D <= 2)%Z ->
  exists c', sc_substitute_map c sm = Ok c' /\ sc_sense c' = sc_sense c
    /\ forall r r', simultaneous r sm (sc_left c) r' -> simultaneous r sm (sc_right c) r' -> (satisfies r c' <-> satisfies r' c).
Proof. exact @sc_substitute_map_degree2. Qed.
Print Assumptions C28_substitute_map_degree2_partial.
Example C28_substitute_map_nonvacuous (NN := QNum) : valid_constraint (mkSC w_lin w_lin SenseLe) /\ valid_map w_swap /\ degree_at_most 1 w_lin
  /\ (forall k e, In (k, ES e) w_swap -> degree_at_most 1 e) /\ simultaneous (at3 3 5 0) w_swap w_lin (at3 5 3 0).
Proof. exact wit_con_map. Qed.
(** with numbers for all variables, the result is a comparison of two constants that holds iff the constraint holds there *)
Theorem C28_substitute_numbers : forall {NN : Num} (c : scalar_constraint) (sm : list (var * expr)), ExactNum NN ->
  valid_constraint c -> valid_map sm -> maps_to_numbers sm (sc_left c) -> maps_to_numbers sm (sc_right c) ->
  exists a b, sc_substitute_map c sm = Ok (mkSC (SK a) (SK b) (sc_sense c))
    /\ forall r, numbers_of sm (sc_left c) r -> numbers_of sm (sc_right c) r -> (holds a (sc_sense c) b <-> satisfies r c).
Proof. exact @sc_substitute_map_numbers. Qed.
Print Assumptions C28_substitute_numbers.
Example C28_substitute_numbers_nonvacuous (NN := QNum) : valid_constraint (mkSC w_cubic w_cubic SenseLe) /\ valid_map w_nums
  /\ maps_to_numbers w_nums w_cubic /\ numbers_of w_nums w_cubic (at3 2 3 0).
Proof. exact wit_con_nums. Qed.
(** z := y in x*x*z + y*y*x <= 5 *)
Theorem C28_substitute_refuted : forall NN, NN = F64Num \/ NN = QNum ->
  exists (p q : prog) (v : var) (e : scalar) (a b : scalar) (c' : scalar_constraint) (r : assignment),
  well_formed p /\ well_formed q /\ valid_var v /\ valid e /\ run p = Ok a /\ run q = Ok b /\ sc_substitute (mkSC a b SenseLe) v e = Ok c'
  /\ satisfies r c' /\ ~ satisfies (update r (v_id v) (eval r e)) (mkSC a b SenseLe).
Proof. exact con_substitute_refuted. Qed.
Print Assumptions C28_substitute_refuted.

(** ** C49 VariablesInThisConstraint on scalar constraints, for every iteration order *)

Theorem C49_scalar_variables : forall {NN : Num} (o : list var -> list var) (c : scalar_constraint), valid_constraint c -> permutes o ->
  exists l, sc_variables o c = Ok l
    /\ (forall i, In i (map v_id l) <-> occurs i (sc_left c) \/ occurs i (sc_right c))
    /\ (forall v, In v l -> exists m, (In m (terms (sc_left c)) \/ In m (terms (sc_right c))) /\ In v (m_vars m))
    /\ (ExactNum NN -> NoDup l).
Proof. exact @sc_variables_facts. Qed.
Print Assumptions C49_scalar_variables.
(** no ID twice, if variables with the same ID are identical (as within one environment) *)
Theorem C49_scalar_variables_ids : forall {NN : Num} (o : list var -> list var) (c : scalar_constraint), ExactNum NN -> valid_constraint c -> permutes o ->
  (forall m1 m2 v1 v2, (In m1 (terms (sc_left c)) \/ In m1 (terms (sc_right c))) -> (In m2 (terms (sc_left c)) \/ In m2 (terms (sc_right c))) ->
     In v1 (m_vars m1) -> In v2 (m_vars m2) -> v_id v1 = v_id v2 -> v1 = v2) ->
  exists l, sc_variables o c = Ok l /\ NoDup (map v_id l).
Proof. exact @sc_variables_ids. Qed.
Print Assumptions C49_scalar_variables_ids.
Example C49_nonvacuous (NN := QNum) : forall m1 m2 v1 v2, (In m1 (terms w_lin) \/ In m1 (terms (SV wz))) -> (In m2 (terms w_lin) \/ In m2 (terms (SV wz))) ->
     In v1 (m_vars m1) -> In v2 (m_vars m2) -> v_id v1 = v_id v2 -> v1 = v2.
Proof. exact wit_con_ids. Qed.
