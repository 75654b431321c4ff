(** * C01, C02, C03, C05: what the operations compute on every expression, also where collecting like terms goes wrong *)

From Coq Require Import ZArith NArith Bool List.
From Verif Require Import Num Syntax ModelScalar Spec SpecConv SpecEffect Witness Effect Effect2 EffectWit.
Import ListNotations.
Local Open Scope num_scope.

(** ** C05 Simplify *)

(** the value of the simplified expression is that of the given one with every term read with the variables and exponents of the first
    term that looks like it *)
Theorem C05_simplify_effect : forall {NN : Num} {EX : ExactNum NN} (s s' : scalar), valid s -> scalar_simplified s = Ok s' ->
  forall r, eval r s' = eval_poly r (regroup (terms s)).
Proof. exact @simplify_effect. Qed.
Print Assumptions C05_simplify_effect.
Example C05_simplify_effect_nonvacuous (NN := QNum) : valid w_e4
  /\ regroup (terms w_e4) = [mkMono (nofZ 3) [2%Z; 1%Z] [wx; wy]; mkMono n1 [1%Z] [wx]; mkMono (nofZ 5) [2%Z; 1%Z] [wx; wy]]
  /\ exists s, scalar_simplified w_e4 = Ok s /\ (eval (at3 1 2 0) s =? eval (at3 1 2 0) w_e4) = false.
Proof. exact wit_effect_simplify. Qed.

(** it has the value of the given expression exactly if that reading changes the total coefficient of no product of powers *)
Theorem C05_simplify_exactly_when : forall {NN : Num} {EX : ExactNum NN} (s s' : scalar), valid s -> scalar_simplified s = Ok s' ->
  ((forall r, eval r s' = eval r s) <-> forall m, valid_mono m -> coefficient m (SP (regroup (terms s))) = coefficient m s).
Proof. exact @simplify_exactly_when. Qed.
Print Assumptions C05_simplify_exactly_when.

(** ** C01 Plus *)

Theorem C01_plus_effect : forall {NN : Num} {EX : ExactNum NN} (a b s : scalar), valid a -> valid b -> scalar_plus a b = Ok s ->
  forall r, eval r s = eval_poly r (regroup (listed_sum a b)).
Proof. exact @plus_effect. Qed.
Print Assumptions C01_plus_effect.
Example C01_plus_effect_nonvacuous (NN := QNum) : valid w_e1 /\ valid w_e2 /\ valid w_e3
  /\ regroup (listed_sum w_e1 w_e2) = [mkMono (nofZ 3) [2%Z; 1%Z] [wx; wy]; mkMono n1 [1%Z] [wx]; mkMono (nofZ 5) [2%Z; 1%Z] [wx; wy]; mkMono (nofZ 7) [1%Z] [wz]]
  /\ listed_sum w_e3 w_e1 = terms w_e1 ++ terms w_e3 /\ listed_sum w_e1 w_e3 = terms w_e1 ++ terms w_e3
  /\ (exists s, scalar_plus w_e1 w_e2 = Ok s) /\ exists s, scalar_plus w_e3 w_e1 = Ok s.
Proof. exact wit_effect_plus. Qed.

Theorem C01_plus_exactly_when : forall {NN : Num} {EX : ExactNum NN} (a b s : scalar), valid a -> valid b -> scalar_plus a b = Ok s ->
  ((forall r, eval r s = eval r a + eval r b)
   <-> forall m, valid_mono m -> coefficient m (SP (regroup (listed_sum a b))) = coefficient m (SP (listed_sum a b))).
Proof. exact @plus_exactly_when. Qed.
Print Assumptions C01_plus_exactly_when.

(** ** C02 Minus: the subtrahend is simplified before its terms are listed *)

Theorem C02_minus_effect : forall {NN : Num} {EX : ExactNum NN} (a b b' s : scalar), valid a -> valid b -> scalar_simplified b = Ok b' -> scalar_minus a b = Ok s ->
  forall r, eval r s = eval_poly r (regroup (listed_difference a b')).
Proof. exact @minus_effect. Qed.
Print Assumptions C02_minus_effect.
Example C02_minus_effect_nonvacuous (NN := QNum) : valid w_e1 /\ valid w_e3 /\ normal w_e3
  /\ listed_difference w_e1 w_e3 = [mkMono (nofZ 3) [2%Z; 1%Z] [wx; wy]; mkMono n1 [1%Z] [wx]; mkMono (- nofZ 5) [2%Z; 1%Z] [wy; wx]]
  /\ exists s, scalar_minus w_e1 w_e3 = Ok s /\ (eval (at3 1 2 0) s =? eval (at3 1 2 0) w_e1 - eval (at3 1 2 0) w_e3) = false.
Proof. exact wit_effect_minus. Qed.

Theorem C02_minus_exactly_when : forall {NN : Num} {EX : ExactNum NN} (a b s : scalar), valid a -> valid b -> normal b -> scalar_minus a b = Ok s ->
  ((forall r, eval r s = eval r a - eval r b)
   <-> forall m, valid_mono m -> coefficient m (SP (regroup (listed_difference a b))) = coefficient m (SP (listed_difference a b))).
Proof. exact @minus_exactly_when. Qed.
Print Assumptions C02_minus_exactly_when.

(** ** C03 Multiply by a constant, variable or monomial *)

(** missing: products of two polynomials (for those see C03_multiply_exact and C03_multiply_exactly_when in PropertiesCollect.v) *)
Theorem C03_multiply_effect_partial : forall {NN : Num} {EX : ExactNum NN} (p : Polynomial) (b s : scalar) (t : Monomial),
  valid (SP p) -> valid b -> (forall q, b <> SP q) -> terms b = [t] ->
  scalar_mul (SP p) b = Ok s \/ scalar_mul b (SP p) = Ok s ->
  forall r, eval r s = eval_poly r (regroup (map (fun m => product_term m t) p)).
Proof. exact @multiply_effect. Qed.
Print Assumptions C03_multiply_effect_partial.
Example C03_multiply_effect_nonvacuous (NN := QNum) : valid (SP w_e5) /\ valid (SM w_xy) /\ (forall q, SM w_xy <> SP q) /\ terms (SM w_xy) = [w_xy]
  /\ map m_exps (map (fun m => product_term m w_xy) w_e5) = [[2%Z; 1%Z]; [2%Z; 1%Z]] /\ map m_vars (map (fun m => product_term m w_xy) w_e5) = [[wx; wy]; [wy; wx]]
  /\ exists s, scalar_mul (SP w_e5) (SM w_xy) = Ok s /\ (eval (at3 1 2 0) s =? eval (at3 1 2 0) (SP w_e5) * eval (at3 1 2 0) (SM w_xy)) = false.
Proof. exact wit_effect_multiply. Qed.

(** missing: products of two polynomials (for those see C03_multiply_exact and C03_multiply_exactly_when in PropertiesCollect.v) *)
Theorem C03_multiply_exactly_when_partial : forall {NN : Num} {EX : ExactNum NN} (p : Polynomial) (b s : scalar) (t : Monomial),
  valid (SP p) -> valid b -> (forall q, b <> SP q) -> terms b = [t] ->
  scalar_mul (SP p) b = Ok s \/ scalar_mul b (SP p) = Ok s ->
  ((forall r, eval r s = eval r (SP p) * eval r b)
   <-> forall m, valid_mono m -> coefficient m (SP (regroup (map (fun x => product_term x t) p))) = coefficient m (SP (map (fun x => product_term x t) p))).
Proof. exact @multiply_exactly_when. Qed.
Print Assumptions C03_multiply_exactly_when_partial.
