(** * C32, C51: what Plus and simplification compute on every vector and matrix, entry by entry *)

From Coq Require Import ZArith NArith Bool List.
From Verif Require Import Num Syntax ModelScalar ModelShape ModelArith Spec SpecConv SpecEffect SpecArr SpecEffectArr Witness EffectWit EffectArr2 EffectArrWit.
Import ListNotations.
Local Open Scope num_scope.

(** ** C32 Plus *)

(** Every entry of the sum has the value of the terms of the two entries, with every term read with the variables and exponents of the
    first term that looks like it. *)
Theorem C32_plus_effect : forall {NN : Num} {EX : ExactNum NN} (a b : expr) (g : goval) (da db d : nat * nat) (e : expr),
  valid_array da a -> valid_array db b -> means g = Some b -> broadcast a b da db d -> lists_only a b = false -> expr_plus a g = Ok e ->
  forall r i j, i < fst d -> j < snd d -> value r e i j = eval_poly r (regroup (listed_sum (bentry a i j) (bentry b i j))).
Proof. exact @array_plus_effect. Qed.
Print Assumptions C32_plus_effect.
Example C32_plus_effect_nonvacuous (NN := QNum) : valid_array (2, 1) w_ev1 /\ valid_array (2, 1) w_ev2 /\ means (GExpr w_ev2) = Some w_ev2 /\ broadcast w_ev1 w_ev2 (2, 1) (2, 1) (2, 1)
  /\ lists_only w_ev1 w_ev2 = false
  /\ regroup (listed_sum (bentry w_ev1 0 0) (bentry w_ev2 0 0))
     = [mkMono (nofZ 3) [2%Z; 1%Z] [wx; wy]; mkMono n1 [1%Z] [wx]; mkMono (nofZ 5) [2%Z; 1%Z] [wx; wy]; mkMono (nofZ 7) [1%Z] [wz]]
  /\ exists e, expr_plus w_ev1 (GExpr w_ev2) = Ok e
       /\ negb (value (at3 1 2 0) e 0 0 =? bvalue (at3 1 2 0) w_ev1 0 0 + bvalue (at3 1 2 0) w_ev2 0 0) && (value (at3 1 2 0) e 1 0 =? bvalue (at3 1 2 0) w_ev1 1 0 + bvalue (at3 1 2 0) w_ev2 1 0) = true.
Proof. exact wit_ea_plus. Qed.

(** An entry of the sum is right exactly if that reading changes the total coefficient of no product of powers. *)
Theorem C32_plus_exactly_when : forall {NN : Num} {EX : ExactNum NN} (a b : expr) (g : goval) (da db d : nat * nat) (e : expr),
  valid_array da a -> valid_array db b -> means g = Some b -> broadcast a b da db d -> lists_only a b = false -> expr_plus a g = Ok e ->
  forall i j, i < fst d -> j < snd d ->
  ((forall r, value r e i j = bvalue r a i j + bvalue r b i j)
   <-> forall m, valid_mono m -> coefficient m (SP (regroup (listed_sum (bentry a i j) (bentry b i j)))) = coefficient m (SP (listed_sum (bentry a i j) (bentry b i j)))).
Proof. exact @array_plus_exactly_when. Qed.
Print Assumptions C32_plus_exactly_when.

(** A MonomialMatrix lists the terms one after the other, for every number type *)
Theorem C32_plus_listed : forall {NN : Num} (a b : expr) (g : goval) (da db d : nat * nat) (e : expr),
  valid_array da a -> valid_array db b -> means g = Some b -> broadcast a b da db d -> lists_only a b = true -> expr_plus a g = Ok e ->
  forall i j, i < fst d -> j < snd d ->
  terms (entry e i j) = match a with ES _ => terms (bentry b i j) ++ terms (bentry a i j) | _ => terms (bentry a i j) ++ terms (bentry b i j) end.
Proof. exact @plus_listed. Qed.
Print Assumptions C32_plus_listed.

(** ... so that its sums are right whatever the terms *)
Theorem C32_plus_listed_value : forall {NN : Num} (a b : expr) (g : goval) (da db d : nat * nat) (e : expr), ExactNum NN ->
  valid_array da a -> valid_array db b -> means g = Some b -> broadcast a b da db d -> lists_only a b = true -> expr_plus a g = Ok e ->
  forall r i j, i < fst d -> j < snd d -> value r e i j = bvalue r a i j + bvalue r b i j.
Proof. exact @plus_listed_value. Qed.
Print Assumptions C32_plus_listed_value.
Example C32_plus_listed_nonvacuous (NN := QNum) : valid_array (1, 2) w_em /\ valid_array (1, 1) (ES w_e3) /\ means (GExpr (ES w_e3)) = Some (ES w_e3) /\ broadcast w_em (ES w_e3) (1, 2) (1, 1) (1, 2)
  /\ lists_only w_em (ES w_e3) = true
  /\ exists e, expr_plus w_em (GExpr (ES w_e3)) = Ok e
       /\ (value (at3 1 2 0) e 0 0 =? bvalue (at3 1 2 0) w_em 0 0 + eval (at3 1 2 0) w_e3) && negb (value (at3 1 2 0) e 0 0 =? n0) = true.
Proof. exact wit_ea_list. Qed.

(** ** C51 simplification *)

Theorem C51_simplify_effect : forall {NN : Num} {EX : ExactNum NN} (e e' : expr) (d : nat * nat), valid_array d e -> expr_simplified e = Ok e' ->
  forall r i j, i < fst d -> j < snd d -> value r e' i j = eval_poly r (regroup (terms (entry e i j))).
Proof. exact @array_simplify_effect. Qed.
Print Assumptions C51_simplify_effect.
Example C51_simplify_effect_nonvacuous (NN := QNum) : valid_array (2, 1) w_ev4
  /\ regroup (terms (entry w_ev4 0 0)) = [mkMono (nofZ 3) [2%Z; 1%Z] [wx; wy]; mkMono n1 [1%Z] [wx]; mkMono (nofZ 5) [2%Z; 1%Z] [wx; wy]]
  /\ exists e, expr_simplified w_ev4 = Ok e
       /\ negb (value (at3 1 2 0) e 0 0 =? value (at3 1 2 0) w_ev4 0 0) && (value (at3 1 2 3) e 1 0 =? value (at3 1 2 3) w_ev4 1 0) = true.
Proof. exact wit_ea_simplify. Qed.

Theorem C51_simplify_exactly_when : forall {NN : Num} {EX : ExactNum NN} (e e' : expr) (d : nat * nat), valid_array d e -> expr_simplified e = Ok e' ->
  forall i j, i < fst d -> j < snd d ->
  ((forall r, value r e' i j = value r e i j) <-> forall m, valid_mono m -> coefficient m (SP (regroup (terms (entry e i j)))) = coefficient m (entry e i j)).
Proof. exact @array_simplify_exactly_when. Qed.
Print Assumptions C51_simplify_exactly_when.
