(** * C74: with float64 coefficients, sums, differences and multiples round each coefficient once *)

From Coq Require Import ZArith NArith Bool List.
From Verif Require Import Num Syntax ModelScalar Spec SpecEffect SpecRound Witness Round RoundWit.
Import ListNotations.
Local Open Scope num_scope.

(** an expression no two of whose terms look alike has at most one coefficient per product of powers *)
Theorem C74_one_coefficient : forall (NN := F64Num) (a : scalar) (m : Monomial), valid a -> collected a -> valid_mono m ->
  (length (coefficients m a) <= 1)%nat.
Proof. exact f64_one. Qed.
Print Assumptions C74_one_coefficient.
Example C74_one_coefficient_nonvacuous (NN := F64Num) : valid_mono w_rm
  /\ exists a b, valid a /\ valid b /\ collected a /\ collected b
  /\ exists s s', scalar_plus a b = Ok s /\ scalar_plus b a = Ok s' /\ one_is (coefficients w_rm s) (w_tenth 1 + w_tenth 2) (w_tenth 3) = true.
Proof. exact wit_round_plus. Qed.

(** simplification adds the coefficients of like terms from left to right, starting with the first *)
Theorem C74_simplify : forall (NN := F64Num) (s s' : scalar) (m : Monomial), valid s -> scalar_simplified s = Ok s' -> valid_mono m ->
  coefficients m s' = left_to_right_sum (coefficients m s).
Proof. exact f64_simplify. Qed.
Print Assumptions C74_simplify.
(** 0.1 x y + 0.2 y x + 0.3 x y becomes ((0.1 + 0.2) + 0.3) x y, which is not (0.1 + (0.2 + 0.3)) x y *)
Example C74_simplify_nonvacuous (NN := F64Num) : valid w_r4 /\ valid_mono w_rm
  /\ exists s, scalar_simplified w_r4 = Ok s /\ one_is (coefficients w_rm s) (w_tenth 1 + w_tenth 2 + w_tenth 3) (w_tenth 1 + (w_tenth 2 + w_tenth 3)) = true.
Proof. exact wit_round_simplify. Qed.

(** the coefficient of a sum is the float64 sum of the two coefficients, or the only coefficient as it is *)
Theorem C74_plus : forall (NN := F64Num) (a b s : scalar) (m : Monomial), valid a -> valid b -> collected a -> collected b -> scalar_plus a b = Ok s -> valid_mono m ->
  coefficients m s = added (coefficients m a) (coefficients m b).
Proof. exact f64_plus. Qed.
Print Assumptions C74_plus.
(** 0.1 x y + 1 and 0.2 y x + x: the coefficient of the sum is the float64 number 0.1 + 0.2, which is not 0.3 *)
Example C74_plus_nonvacuous (NN := F64Num) : valid_mono w_rm
  /\ exists a b, valid a /\ valid b /\ collected a /\ collected b
  /\ exists s s', scalar_plus a b = Ok s /\ scalar_plus b a = Ok s' /\ one_is (coefficients w_rm s) (w_tenth 1 + w_tenth 2) (w_tenth 3) = true.
Proof. exact wit_round_plus. Qed.

(** the order of the operands does not matter, to the last bit *)
Theorem C74_plus_commutes : forall (NN := F64Num) (a b s s' : scalar) (m : Monomial), valid a -> valid b -> collected a -> collected b ->
  scalar_plus a b = Ok s -> scalar_plus b a = Ok s' -> valid_mono m -> coefficients m s = coefficients m s'.
Proof. exact f64_plus_both_ways. Qed.
Print Assumptions C74_plus_commutes.
Example C74_plus_commutes_nonvacuous (NN := F64Num) : valid_mono w_rm
  /\ exists a b, valid a /\ valid b /\ collected a /\ collected b
  /\ exists s s', scalar_plus a b = Ok s /\ scalar_plus b a = Ok s' /\ one_is (coefficients w_rm s) (w_tenth 1 + w_tenth 2) (w_tenth 3) = true.
Proof. exact wit_round_plus. Qed.

(** the coefficient of a difference is the float64 difference *)
Theorem C74_minus : forall (NN := F64Num) (a b s : scalar) (m : Monomial), valid a -> valid b -> collected a -> collected b -> float64s b ->
  scalar_minus a b = Ok s -> valid_mono m -> coefficients m s = subtracted (coefficients m a) (coefficients m b).
Proof. exact f64_minus. Qed.
Print Assumptions C74_minus.
Example C74_minus_nonvacuous (NN := F64Num) : valid_mono w_rm
  /\ exists a b, valid a /\ valid b /\ collected a /\ collected b /\ float64s b
  /\ exists s, scalar_minus a b = Ok s /\ one_is (coefficients w_rm s) (w_tenth 3 - w_tenth 2) (w_tenth 1) = true.
Proof. exact wit_round_minus. Qed.

(** the coefficient of a multiple is the float64 product *)
Theorem C74_multiply_number : forall (NN := F64Num) (s t : scalar) (f : num) (m : Monomial), valid s -> collected s -> finite64 f ->
  scalar_mul_float s f = Ok t -> valid_mono m -> coefficients m t = multiplied (coefficients m s) f.
Proof. exact f64_multiply. Qed.
Print Assumptions C74_multiply_number.
Example C74_multiply_number_nonvacuous (NN := F64Num) : valid_mono w_rm /\ finite64 (nofZ 3)
  /\ exists a, valid a /\ collected a /\ exists s, scalar_mul_float a (nofZ 3) = Ok s /\ one_is (coefficients w_rm s) (w_tenth 1 * nofZ 3) (w_tenth 3) = true.
Proof. exact wit_round_multiply. Qed.

(** (a + b) + c and a + (b + c) can differ: 0.1 x y, 0.2 x y and 0.3 x y *)
Theorem C74_order_matters : let NN := F64Num in exists a b c ab bc s s' m, valid a /\ valid b /\ valid c /\ normal a /\ normal b /\ normal c /\ valid_mono m
  /\ scalar_plus a b = Ok ab /\ scalar_plus ab c = Ok s /\ scalar_plus b c = Ok bc /\ scalar_plus a bc = Ok s' /\ coefficients m s <> coefficients m s'.
Proof. exact refute_round_assoc. Qed.
Print Assumptions C74_order_matters.
