(** * Properties of expressions whose float64 coefficients are short

    Each theorem is proved in another file; the identifiers are those of properties.jsonl.  Below each theorem stand its
    assumptions and an instance of its hypotheses.  [exactly], [exact_scalar] and [exact_prog] read float64 numbers as rational
    numbers, [short k n s]: the coefficients of s are multiples of 2^-k and their absolute values add up to at most n * 2^-k. *)

From Coq Require Import ZArith NArith Bool List.
From Verif Require Import Num Syntax ModelScalar ModelSC Spec SpecProg SpecExact Programs FloatProg FloatLin Witness ExactWit.
Import ListNotations.
Local Open Scope Z_scope.

(** ** C62 float64 arithmetic is exact as long as the coefficients need no more than 53 bits *)

(** single calls: the float64 result, read exactly, is the result of the call in rational arithmetic, or both panic alike *)
Theorem C62_plus : forall (k na nb : Z) (a b : @scalar F64Num), 0 <= k <= 1000 -> short k na a -> short k nb b -> na + nb <= 2 ^ 53 ->
  same_exactly k (na + nb) (@scalar_plus F64Num a b) (@scalar_plus QNum (exact_scalar a) (exact_scalar b)).
Proof. exact exact_plus. Qed.
Print Assumptions C62_plus.
Theorem C62_minus : forall (k na nb : Z) (a b : @scalar F64Num), 0 <= k <= 1000 -> short k na a -> short k nb b -> na + nb <= 2 ^ 53 ->
  same_exactly k (na + nb) (@scalar_minus F64Num a b) (@scalar_minus QNum (exact_scalar a) (exact_scalar b)).
Proof. exact exact_minus. Qed.
Print Assumptions C62_minus.
Theorem C62_multiply : forall (ka kb na nb : Z) (a b : @scalar F64Num), 0 <= ka -> 0 <= kb -> ka + kb <= 1000 -> short ka na a -> short kb nb b ->
  na <= 2 ^ 53 -> nb <= 2 ^ 53 -> na * nb <= 2 ^ 53 ->
  same_exactly (ka + kb) (na * nb) (@scalar_mul F64Num a b) (@scalar_mul QNum (exact_scalar a) (exact_scalar b)).
Proof. exact exact_mul. Qed.
Print Assumptions C62_multiply.
Theorem C62_power : forall (k n : Z) (a : @scalar F64Num) (e : Z), 0 <= k <= 1000 -> 0 <= e -> e * k <= 1000 -> short k n a -> n <= 2 ^ 53 -> n ^ e <= 2 ^ 53 ->
  same_exactly (e * k) (n ^ e) (@scalar_power F64Num a e) (@scalar_power QNum (exact_scalar a) e).
Proof. exact exact_power. Qed.
Print Assumptions C62_power.
Theorem C62_simplified : forall (k n : Z) (a : @scalar F64Num), 0 <= k <= 1000 -> short k n a -> n <= 2 ^ 53 ->
  same_exactly k n (@scalar_simplified F64Num a) (@scalar_simplified QNum (exact_scalar a)).
Proof. exact exact_simplified. Qed.
Print Assumptions C62_simplified.
Theorem C62_derivative : forall (k n : Z) (a : @scalar F64Num) (d : Z) (v : @var F64Num), 0 <= k <= 1000 -> short k n a -> numeric_var v ->
  valid a -> degree_at_most d a -> 0 <= d <= 2 ^ 53 -> n * Z.max 1 d <= 2 ^ 53 ->
  same_exactly k (n * Z.max 1 d) (@scalar_derivative F64Num a v) (@scalar_derivative QNum (exact_scalar a) (exact_var v)).
Proof. exact exact_derivative. Qed.
Print Assumptions C62_derivative.
Theorem C62_substitute : forall (k n : Z) (a : @scalar F64Num) (ke ne : Z) (e : @scalar F64Num) (v : @var F64Num) (d : Z),
  0 <= k -> 0 <= ke -> k + d * ke <= 1000 -> ke <= 1000 -> short k n a -> short ke ne e -> numeric_var v -> valid a -> degree_at_most d a -> 0 <= d ->
  n <= 2 ^ 53 -> ne <= 2 ^ 53 -> Z.max 1 n * Z.max (2 ^ ke) ne ^ d <= 2 ^ 53 ->
  same_exactly (k + d * ke) (n * Z.max (2 ^ ke) ne ^ d) (@scalar_substitute F64Num a v e) (@scalar_substitute QNum (exact_scalar a) (exact_var v) (exact_scalar e)).
Proof. exact exact_substitute. Qed.
Print Assumptions C62_substitute.
Example C62_operands_nonvacuous (NN := F64Num) : exists a b, run w_e1 = Ok a /\ run w_el = Ok b /\ valid a /\ short 1 4 a /\ degree_at_most 2 a /\ valid b /\ short 2 15 b.
Proof. exact wit_operands. Qed.
Example C62_variable_nonvacuous (NN := F64Num) : numeric_var wx.
Proof. exact wit_var. Qed.

(** whole programs, with substitutions and derivatives *)
Theorem C62_program : forall p : @prog F64Num, well_formed p -> fits p ->
  exists s, @run F64Num p = Ok s /\ valid s /\ short (fraction_bits p) (weight p) s /\ @run QNum (exact_prog p) = Ok (exact_scalar s).
Proof. exact run_exact. Qed.
Print Assumptions C62_program.
Example C62_program_nonvacuous : @well_formed F64Num w_e /\ fits w_e.
Proof. exact wit_e. Qed.

(** so the float64 expression has, at every assignment of rational numbers, the value that the program text denotes *)
Theorem C62_value_degree2 : forall p : @prog F64Num, well_formed p -> fits p -> arithmetic p -> degree_bounded 2 p ->
  exists s, @run F64Num p = Ok s /\ valid s /\ forall r : @assignment QNum, @eval QNum r (exact_scalar s) = @denote QNum r (exact_prog p).
Proof. exact run_exact_degree2. Qed.
Print Assumptions C62_value_degree2.
Example C62_value_degree2_nonvacuous : @well_formed F64Num w_e1 /\ fits w_e1 /\ arithmetic w_e1 /\ degree_bounded 2 w_e1.
Proof. exact wit_e1_degree2. Qed.
Theorem C62_value_one_variable : forall (x : N) (p : @prog F64Num), well_formed p -> fits p -> arithmetic p -> mentions_only x p ->
  exists s, @run F64Num p = Ok s /\ valid s /\ forall r : @assignment QNum, @eval QNum r (exact_scalar s) = @denote QNum r (exact_prog p).
Proof. exact run_exact_one_variable. Qed.
Print Assumptions C62_value_one_variable.
Example C62_value_one_variable_nonvacuous : @well_formed F64Num w_e5 /\ fits w_e5 /\ arithmetic w_e5 /\ mentions_only 0 w_e5.
Proof. exact wit_e5. Qed.

(** linear expressions and constraints: LinearCoeff and Constant, and the rows handed to a solver, describe what was written *)
Theorem C62_linear_coefficients : forall (p : @prog F64Num) (w : list (@var F64Num)), well_formed p -> arithmetic p -> degree_bounded 1 p -> fits p ->
  w <> [] -> Forall valid_var w -> Forall numeric_var w -> NoDup (map v_id w) ->
  exists s, @run F64Num p = Ok s /\
    ((forall i, occurs i s -> In i (map v_id w)) ->
     exists L c, @scalar_linear_coeff F64Num s [w] = Ok L /\ @scalar_constant F64Num s = Ok c /\ length L = length w
       /\ forall r : @assignment QNum, denote r (exact_prog p) = nadd (dot r (map exactly L) (map exact_var w)) (exactly c)).
Proof. exact linear_text. Qed.
Print Assumptions C62_linear_coefficients.
Theorem C62_inequality : forall (p q : @prog F64Num) (s : sense) (w : list (@var F64Num)), well_formed p -> well_formed q -> arithmetic p -> arithmetic q ->
  degree_bounded 1 p -> degree_bounded 1 q -> fits (PMinus p q) -> s = SenseLe \/ s = SenseGe ->
  w <> [] -> Forall valid_var w -> Forall numeric_var w -> NoDup (map v_id w) ->
  exists a b, @run F64Num p = Ok a /\ @run F64Num q = Ok b /\
    ((forall i, occurs i a \/ occurs i b -> In i (map v_id w)) ->
     exists A k, @sc_linear_inequality F64Num (mkSC a b s) [w] = Ok (A, k) /\ length A = length w
       /\ forall r : @assignment QNum, nleb (dot r (map exactly A) (map exact_var w)) (exactly k) = true
            <-> @holds QNum (denote r (exact_prog p)) s (denote r (exact_prog q))).
Proof. exact inequality_text. Qed.
Print Assumptions C62_inequality.
Theorem C62_equality : forall (p q : @prog F64Num) (w : list (@var F64Num)), well_formed p -> well_formed q -> arithmetic p -> arithmetic q ->
  degree_bounded 1 p -> degree_bounded 1 q -> fits (PMinus p q) ->
  w <> [] -> Forall valid_var w -> Forall numeric_var w -> NoDup (map v_id w) ->
  exists a b, @run F64Num p = Ok a /\ @run F64Num q = Ok b /\
    ((forall i, occurs i a \/ occurs i b -> In i (map v_id w)) ->
     exists C d, @sc_linear_equality F64Num (mkSC a b SenseEq) [w] = Ok (C, d) /\ length C = length w
       /\ forall r : @assignment QNum, dot r (map exactly C) (map exact_var w) = exactly d <-> denote r (exact_prog p) = denote r (exact_prog q)).
Proof. exact equality_text. Qed.
Print Assumptions C62_equality.
Example C62_linear_nonvacuous (NN := F64Num) : well_formed w_el /\ well_formed w_er /\ arithmetic w_el /\ arithmetic w_er
  /\ degree_bounded 1 w_el /\ degree_bounded 1 w_er /\ fits (PMinus w_el w_er)
  /\ Forall valid_var [wy; wx] /\ Forall numeric_var [wy; wx] /\ NoDup (map v_id [wy; wx])
  /\ exists a b, run w_el = Ok a /\ run w_er = Ok b /\ forall i, occurs i a \/ occurs i b -> In i (map v_id [wy; wx]).
Proof. exact wit_linear_sides. Qed.

(** the bound is sharp: 2^53 + 1 *)
Theorem C62_large_refuted : exists a b : @prog F64Num, well_formed (PPlus a b) /\ fits a /\ fits b /\ fraction_bits (PPlus a b) = 0 /\ weight (PPlus a b) = 2 ^ 53 + 1
  /\ exists s t, @run F64Num (PPlus a b) = Ok s /\ @run QNum (exact_prog (PPlus a b)) = Ok t /\ t <> exact_scalar s.
Proof. exact large_refuted. Qed.
Print Assumptions C62_large_refuted.
(** without a bound, values are wrong even for linear expressions in one variable: 0.1 x + 0.2 x *)
Theorem C62_tenths_refuted : exists (a b : @prog F64Num) (x : N), well_formed (PPlus a b) /\ arithmetic (PPlus a b) /\ fits a /\ fits b
  /\ text_degree (PPlus a b) = 1 /\ mentions_only x (PPlus a b)
  /\ exists s, @run F64Num (PPlus a b) = Ok s /\ exists r : @assignment QNum, @eval QNum r (exact_scalar s) <> @denote QNum r (exact_prog (PPlus a b)).
Proof. exact tenths_refuted. Qed.
Print Assumptions C62_tenths_refuted.
