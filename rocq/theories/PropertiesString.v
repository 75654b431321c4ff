(** * Properties of printing *)

From Coq Require Import ZArith NArith Bool Ascii String List.
From Verif Require Import Num Syntax ModelScalar Spec ModelShape ModelSC SpecArr Witness ModelEnv ModelString SpecString StringProofs StringWit.
Import ListNotations.
Local Open Scope num_scope.

(** ** C61 faithful printing *)

(** String does not panic on a valid expression or constraint *)
Theorem C61_total : forall {NN : Num} (fmt : num -> string) (d : nat * nat) (e : expr), valid_array d e -> exists s, expr_string fmt e = Ok s.
Proof. exact @expr_fine. Qed.
Print Assumptions C61_total.
Theorem C61_total_constraints : forall {NN : Num} (fmt : num -> string) (c : scalar_constraint), valid (sc_left c) -> valid (sc_right c) -> sc_sense c <> SenseOther -> exists s, sc_string fmt c = Ok s.
Proof. exact @sc_fine. Qed.
Print Assumptions C61_total_constraints.
(** every variable of every history of calls has the name made from its ID *)
Theorem C61_names : forall {NN : Num} (cs : list call) (v : var), In v (fst (run_calls empty_store cs)) -> default_name v.
Proof. exact @history_default_names. Qed.
Print Assumptions C61_names.
(** two scalar expressions that print the same have the same coefficients, variables and exponents *)
(** missing: variables renamed by the user, variables of several environments, negative zeros after the first term *)
Theorem C61_scalars_partial : forall {NN : Num} (fmt : num -> string) (s t : scalar) (a : string), ExactNum NN \/ NN = F64Num -> identifies fmt -> valid s -> valid t -> no_negative_zero s -> no_negative_zero t ->
  default_names s -> default_names t -> scalar_string fmt s = Ok a -> scalar_string fmt t = Ok a -> same_printed s t.
Proof. exact (fun NN fmt s t a H HI => @scalar_faithful NN (printable_of NN H) fmt HI s t a). Qed.
Print Assumptions C61_scalars_partial.
Example C61_scalars_nonvacuous (NN := QNum) : identifies print_fraction /\ valid (SP w_named) /\ default_names (SP w_named) /\ no_negative_zero (SP w_named)
  /\ exists s, scalar_string print_fraction (SP w_named) = Ok s /\ s = "2/1 x_0^2x_1 - 3/1 x_0 + 7/1"%string.
Proof. exact wit_print_scalars. Qed.
Example C61_scalars_float_nonvacuous (NN := F64Num) : identifies print_float /\ valid (SP w_named) /\ default_names (SP w_named) /\ no_negative_zero (SP w_named).
Proof. exact wit_print_float. Qed.

(** two expressions of any type that print the same are both scalars, both vectors or both matrices, have the same dimensions, and
    their entries have the same coefficients, variables and exponents *)
(** missing: variables renamed by the user, variables of several environments, negative zeros after the first term *)
Theorem C61_arrays_partial : forall {NN : Num} (fmt : num -> string) (d d' : nat * nat) (e e' : expr) (a : string), ExactNum NN \/ NN = F64Num -> identifies fmt -> valid_array d e -> valid_array d' e' ->
  array_names d e -> array_names d' e' -> array_no_negative_zero d e -> array_no_negative_zero d' e' -> expr_string fmt e = Ok a -> expr_string fmt e' = Ok a ->
  d = d' /\ (is_scalar e <-> is_scalar e') /\ (is_vector e <-> is_vector e') /\ forall i j, i < fst d -> j < snd d -> same_printed (entry e i j) (entry e' i j).
Proof. exact (fun NN fmt d d' e e' a H HI => @expr_faithful NN (printable_of NN H) fmt HI d d' e e' a). Qed.
Print Assumptions C61_arrays_partial.
(** and so the same values *)
Theorem C61_values_partial : forall {NN : Num} {EX : ExactNum NN} (fmt : num -> string) (d d' : nat * nat) (e e' : expr) (a : string), identifies fmt -> valid_array d e -> valid_array d' e' ->
  array_names d e -> array_names d' e' -> expr_string fmt e = Ok a -> expr_string fmt e' = Ok a -> forall r i j, i < fst d -> j < snd d -> value r e i j = value r e' i j.
Proof. exact @expr_values. Qed.
Print Assumptions C61_values_partial.
Example C61_arrays_nonvacuous (NN := QNum) : identifies print_fraction /\ valid_array (2, 1) w_named_vector /\ array_names (2, 1) w_named_vector /\ array_no_negative_zero (2, 1) w_named_vector
  /\ valid_array (2, 2) w_named_matrix /\ array_names (2, 2) w_named_matrix /\ array_no_negative_zero (2, 2) w_named_matrix
  /\ expr_string print_fraction w_named_vector = Ok "PolynomialVector = [2/1 x_0^2x_1 - 3/1 x_0 + 7/1, x_1]"%string.
Proof. exact wit_print_arrays. Qed.

(** two scalar constraints that print the same have the same sides and the same sense *)
(** missing: variables renamed by the user, variables of several environments, negative zeros after the first term *)
Theorem C61_constraints_partial : forall {NN : Num} (fmt : num -> string) (c c' : scalar_constraint) (a : string), ExactNum NN \/ NN = F64Num -> identifies fmt ->
  no_negative_zero (sc_left c) -> no_negative_zero (sc_right c) -> no_negative_zero (sc_left c') -> no_negative_zero (sc_right c') ->
  valid (sc_left c) -> valid (sc_right c) -> sc_sense c <> SenseOther -> default_names (sc_left c) -> default_names (sc_right c) ->
  valid (sc_left c') -> valid (sc_right c') -> sc_sense c' <> SenseOther -> default_names (sc_left c') -> default_names (sc_right c') ->
  sc_string fmt c = Ok a -> sc_string fmt c' = Ok a -> same_printed (sc_left c) (sc_left c') /\ same_printed (sc_right c) (sc_right c') /\ sc_sense c = sc_sense c'.
Proof. exact (fun NN fmt c c' a H HI => @sc_faithful NN (printable_of NN H) fmt HI c c' a). Qed.
Print Assumptions C61_constraints_partial.
Example C61_constraints_nonvacuous (NN := QNum) : let c := mkSC (SP w_named) (SV cy) SenseLe in valid (sc_left c) /\ valid (sc_right c) /\ sc_sense c <> SenseOther /\ default_names (sc_left c) /\ default_names (sc_right c)
  /\ no_negative_zero (sc_left c) /\ no_negative_zero (sc_right c) /\ sc_string print_fraction c = Ok "2/1 x_0^2x_1 - 3/1 x_0 + 7/1 <= x_1"%string.
Proof. exact wit_print_constraints. Qed.

(** the factors "a" and "b" print like the variable "ab" *)
Theorem C61_renamed_refuted : forall (NN : Num) (fmt : num -> string), NN = F64Num \/ NN = QNum -> exists s t a, valid s /\ valid t /\ scalar_string fmt s = Ok a /\ scalar_string fmt t = Ok a /\ ~ same_printed s t.
Proof. exact names_refuted. Qed.
Print Assumptions C61_renamed_refuted.
(** the first variables of two environments print the same *)
Theorem C61_environments_refuted : forall (NN : Num) (fmt : num -> string), exists v w,
  In v (fst (run_calls empty_store [NewContinuous [0%N]; NewContinuous [1%N]])) /\ In w (fst (run_calls empty_store [NewContinuous [0%N]; NewContinuous [1%N]]))
  /\ v_env v <> v_env w /\ scalar_string fmt (SV v) = scalar_string fmt (SV w).
Proof. exact environments_refuted. Qed.
Print Assumptions C61_environments_refuted.
(** in float64 the sign of a zero coefficient is lost *)
Theorem C61_negative_zero_refuted : forall (NN := F64Num) (fmt : num -> string), exists s t a, valid s /\ valid t /\ default_names s /\ default_names t /\ scalar_string fmt s = Ok a /\ scalar_string fmt t = Ok a /\ ~ same_printed s t.
Proof. exact negative_zero_refuted. Qed.
Print Assumptions C61_negative_zero_refuted.
(** a printed matrix of numbers has two opening brackets for every row, but one closing bracket for every row and one more *)
Theorem C61_brackets : forall {NN : Num} (fmt : num -> string) (d : nat * nat) (l : list (list num)), identifies fmt -> valid_array d (EM (MK l)) ->
  exists s, expr_string fmt (EM (MK l)) = Ok s /\ occurrences "[" s = (2 * fst d)%nat /\ occurrences "]" s = S (fst d).
Proof. exact @brackets. Qed.
Print Assumptions C61_brackets.
Theorem C61_brackets_refuted : forall (NN : Num), NN = F64Num \/ NN = QNum -> exists (fmt : num -> string) e s, identifies fmt /\ valid_array (2, 2) e /\ expr_string fmt e = Ok s /\ occurrences "[" s <> occurrences "]" s.
Proof. exact brackets_refuted. Qed.
Print Assumptions C61_brackets_refuted.
