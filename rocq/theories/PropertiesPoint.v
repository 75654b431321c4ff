(** * C74, C75: sums, differences, multiples and simplification of vectors and matrices, entry by entry *)

From Coq Require Import ZArith NArith Bool List.
From Verif Require Import Num Syntax ModelScalar ModelShape ModelArith Spec SpecConv SpecEffect SpecArr SpecEffectArr SpecRound SpecPoint Witness EffectWit EffectArrWit RoundWit PointPlus2 PointMul2 PointWit SpecMat SpecAccuracy PointProd ProdWit.
Import ListNotations.
Local Open Scope num_scope.

(** ** C75 the entries of a sum are the sums of the entries *)

(** missing: sums computed by a MonomialMatrix (C75_refuted; C32_plus_listed says what they are) *)
Theorem C75_plus_entries_partial : forall {NN : Num} {EX : ExactNum NN} (a b : expr) (g : goval) (da db d : nat * nat) (e : expr),
  valid_array da a -> valid_array db b -> means g = Some b -> broadcast a b da db d -> lists_only a b = false -> expr_plus a g = Ok e ->
  forall i j, i < fst d -> j < snd d -> exists s, sum_of_entries a b i j = Ok s /\ same_terms (entry e i j) s.
Proof. exact @plus_entries. Qed.
Print Assumptions C75_plus_entries_partial.
Example C75_plus_entries_nonvacuous (NN := QNum) : valid_array (2, 1) w_ev1 /\ valid_array (2, 1) w_ev2 /\ means (GExpr w_ev2) = Some w_ev2 /\ broadcast w_ev1 w_ev2 (2, 1) (2, 1) (2, 1)
  /\ lists_only w_ev1 w_ev2 = false /\ exists e, expr_plus w_ev1 (GExpr w_ev2) = Ok e /\ Nat.eqb (length (terms (entry e 0 0))) 3 = true.
Proof. exact wit_point_plus. Qed.

(** the same with float64 coefficients, to the last bit *)
(** missing: as above *)
Theorem C75_plus_entries_float64_partial : forall (NN := F64Num) (a b : expr) (g : goval) (da db d : nat * nat) (e : expr),
  valid_array da a -> valid_array db b -> means g = Some b -> broadcast a b da db d -> lists_only a b = false -> number64 a -> number64 b -> expr_plus a g = Ok e ->
  forall i j, i < fst d -> j < snd d -> exists s, sum_of_entries a b i j = Ok s /\ same_terms (entry e i j) s.
Proof. exact f64_plus_entries. Qed.
Print Assumptions C75_plus_entries_float64_partial.
Example C75_plus_entries_float64_nonvacuous (NN := F64Num) : valid_array (1, 1) (ES (SK (w_tenth 2))) /\ broadcast (ES (SK (w_tenth 2))) w_pa (1, 1) (2, 1) (2, 1) /\ number64 (ES (SK (w_tenth 2)))
  /\ lists_only (ES (SK (w_tenth 2))) w_pa = false /\ exists e, expr_plus (ES (SK (w_tenth 2))) (GExpr w_pa) = Ok e /\ one_is (coefficients w_rm (entry e 0 0)) (w_tenth 1) (w_tenth 3) = true.
Proof. exact wit_point_number64. Qed.

(** the row (x, x) plus x has the entries x + x, not collected *)
Theorem C75_refuted : forall NN, NN = F64Num \/ NN = QNum -> exists (a b e : expr) (s : scalar), valid_array (1, 2) a /\ valid_array (1, 1) b /\ broadcast a b (1, 2) (1, 1) (1, 2)
  /\ expr_plus a (GExpr b) = Ok e /\ sum_of_entries a b 0 0 = Ok s /\ ~ same_terms (entry e 0 0) s.
Proof. exact point_refuted. Qed.
Print Assumptions C75_refuted.

(** simplifying an array simplifies its entries, for every number type *)
Theorem C75_simplify_entries : forall {NN : Num} (e e' : expr) (d : nat * nat), valid_array d e -> expr_simplified e = Ok e' ->
  forall i j, i < fst d -> j < snd d -> exists s, scalar_simplified (entry e i j) = Ok s /\ terms (entry e' i j) = terms s.
Proof. exact @simplify_point. Qed.
Print Assumptions C75_simplify_entries.
Example C75_simplify_entries_nonvacuous (NN := F64Num) : valid_array (2, 1) w_pe /\ valid_mono w_rm
  /\ exists e, expr_simplified w_pe = Ok e /\ one_is (coefficients w_rm (entry e 0 0)) (w_tenth 1 + w_tenth 2 + w_tenth 3) (w_tenth 1 + (w_tenth 2 + w_tenth 3)) = true.
Proof. exact wit_point_simplify. Qed.

(** the entries of a product of matrices: the products of the entries of the row and the column, added one after the other as scalars.
    missing: the products by vectors that row_by_row leaves out (C33) *)
Theorem C75_multiply_entries_partial : forall {NN : Num} {EX : ExactNum NN} (a b : expr) (da db : nat * nat), valid_array da a -> valid_array db b -> snd da = fst db -> row_by_row a b da ->
  exists e, expr_mul a (GExpr b) = Ok e /\ valid_array (fst da, snd db) e
   /\ forall i j, i < fst da -> j < snd db -> exists ts s, length ts = snd da /\ (forall k, k < snd da -> scalar_mul (entry a i k) (entry b k j) = Ok (nth k ts (SK n0)))
      /\ sum_up (SK n0) ts = Ok s /\ same_terms (entry e i j) s.
Proof. exact @product_entries. Qed.
Print Assumptions C75_multiply_entries_partial.
Example C75_multiply_entries_nonvacuous (NN := QNum) : valid_array (1, 2) w_pd /\ valid_array (2, 1) w_pg /\ row_by_row w_pd w_pg (1, 2)
  /\ exists e, expr_mul w_pd (GExpr w_pg) = Ok e /\ Nat.eqb (length (terms (entry e 0 0))) 3 = true.
Proof. exact wit_prod. Qed.

(** missing: the same products *)
Theorem C75_multiply_entries_float64_partial : forall (NN := F64Num) (a b : expr) (da db : nat * nat), valid_array da a -> valid_array db b -> snd da = fst db -> row_by_row a b da ->
  exists e, expr_mul a (GExpr b) = Ok e /\ valid_array (fst da, snd db) e
   /\ forall i j, i < fst da -> j < snd db -> exists ts s, length ts = snd da /\ (forall k, k < snd da -> scalar_mul (entry a i k) (entry b k j) = Ok (nth k ts (SK n0)))
      /\ sum_up (SK n0) ts = Ok s /\ same_terms (entry e i j) s.
Proof. exact f64_product_entries. Qed.
Print Assumptions C75_multiply_entries_float64_partial.
Example C75_multiply_entries_float64_nonvacuous (NN := F64Num) : valid_array (1, 2) w_pd /\ valid_array (2, 1) w_pg /\ row_by_row w_pd w_pg (1, 2)
  /\ exists e, expr_mul w_pd (GExpr w_pg) = Ok e /\ one_is (coefficients w_rm (entry e 0 0)) (w_tenth 1 * w_tenth 3 + w_tenth 2 * w_tenth 7) (nofZ 17 / nofZ 100) = true.
Proof. exact wit_prod64. Qed.

(** ** C74 one rounding per coefficient of every entry *)

Theorem C74_plus_array : forall (NN := F64Num) (a b : expr) (g : goval) (da db d : nat * nat) (e : expr) (m : Monomial),
  valid_array da a -> valid_array db b -> means g = Some b -> broadcast a b da db d -> lists_only a b = false -> number64 a -> number64 b -> expr_plus a g = Ok e -> valid_mono m ->
  forall i j, i < fst d -> j < snd d -> collected (bentry a i j) -> collected (bentry b i j) ->
  coefficients m (entry e i j) = added (coefficients m (bentry a i j)) (coefficients m (bentry b i j)).
Proof. exact f64_plus_array. Qed.
Print Assumptions C74_plus_array.
Example C74_plus_array_nonvacuous (NN := F64Num) : valid_array (2, 1) w_pa /\ valid_array (2, 1) w_pb /\ means (GExpr w_pb) = Some w_pb /\ broadcast w_pa w_pb (2, 1) (2, 1) (2, 1)
  /\ lists_only w_pa w_pb = false /\ number64 w_pa /\ number64 w_pb /\ valid_mono w_rm
  /\ (forall i j, i < 2 -> j < 1 -> collected (bentry w_pa i j) /\ collected (bentry w_pb i j))
  /\ exists e, expr_plus w_pa (GExpr w_pb) = Ok e /\ one_is (coefficients w_rm (entry e 0 0)) (w_tenth 1 + w_tenth 2) (w_tenth 3) = true.
Proof. exact wit_point_plus64. Qed.

Theorem C74_simplify_array : forall (NN := F64Num) (e e' : expr) (d : nat * nat) (m : Monomial), valid_array d e -> expr_simplified e = Ok e' -> valid_mono m ->
  forall i j, i < fst d -> j < snd d -> coefficients m (entry e' i j) = left_to_right_sum (coefficients m (entry e i j)).
Proof. exact f64_simplify_array. Qed.
Print Assumptions C74_simplify_array.
Example C74_simplify_array_nonvacuous (NN := F64Num) : valid_array (2, 1) w_pe /\ valid_mono w_rm
  /\ exists e, expr_simplified w_pe = Ok e /\ one_is (coefficients w_rm (entry e 0 0)) (w_tenth 1 + w_tenth 2 + w_tenth 3) (w_tenth 1 + (w_tenth 2 + w_tenth 3)) = true.
Proof. exact wit_point_simplify. Qed.

Theorem C74_multiply_array : forall (NN := F64Num) (e : expr) (f : num) (g : goval) (d : nat * nat) (e' : expr) (m : Monomial), finite64 f ->
  valid_array d e -> (forall i j, i < fst d -> j < snd d -> collected (entry e i j)) -> means g = Some (ES (SK f)) -> expr_mul e g = Ok e' -> valid_mono m ->
  forall i j, i < fst d -> j < snd d -> coefficients m (entry e' i j) = multiplied (coefficients m (entry e i j)) f.
Proof. exact f64_multiply_array. Qed.
Print Assumptions C74_multiply_array.
Example C74_multiply_array_nonvacuous (NN := F64Num) : finite64 (nofZ 3) /\ valid_array (1, 2) w_pd /\ (forall i j, i < 1 -> j < 2 -> collected (entry w_pd i j))
  /\ means (GFloat (nofZ 3)) = Some (ES (SK (nofZ 3))) /\ valid_mono w_rm
  /\ exists e, expr_mul w_pd (GFloat (nofZ 3)) = Ok e /\ one_is (coefficients w_rm (entry e 0 0)) (w_tenth 1 * nofZ 3) (w_tenth 3) = true.
Proof. exact wit_point_multiply. Qed.

(** the method Minus *)
Theorem C74_minus_array : forall (NN := F64Num) (a b : expr) (g : goval) (da db d : nat * nat) (e : expr) (m : Monomial),
  valid_array da a -> valid_array db b -> means g = Some b -> broadcast a b da db d -> list_differences a b = false -> number64 a ->
  (forall i j, i < fst db -> j < snd db -> collected (entry b i j) /\ float64s (entry b i j)) ->
  expr_minus a g = Ok e -> valid_mono m ->
  forall i j, i < fst d -> j < snd d -> collected (bentry a i j) ->
  coefficients m (entry e i j) = subtracted (coefficients m (bentry a i j)) (coefficients m (bentry b i j)).
Proof. exact f64_minus_method. Qed.
Print Assumptions C74_minus_array.
(** the function Minus *)
Theorem C74_minus_function_array : forall (NN := F64Num) (a b : expr) (da db d : nat * nat) (e : expr) (m : Monomial),
  valid_array da a -> valid_array db b -> broadcast a b da db d -> list_differences a b = false -> number64 a ->
  (forall i j, i < fst db -> j < snd db -> collected (entry b i j) /\ float64s (entry b i j)) ->
  minus a b = Ok e -> valid_mono m ->
  forall i j, i < fst d -> j < snd d -> collected (bentry a i j) ->
  coefficients m (entry e i j) = subtracted (coefficients m (bentry a i j)) (coefficients m (bentry b i j)).
Proof. exact f64_minus_array. Qed.
Print Assumptions C74_minus_function_array.
(** (0.3 x y, 0.1 x y + 1) minus (0.2 y x + x, 0.1 x y + 1): the first coefficient is the float64 number 0.3 - 0.2, which is not 0.1 *)
Example C74_minus_array_nonvacuous (NN := F64Num) : valid_array (2, 1) w_pc /\ valid_array (2, 1) w_pb /\ means (GExpr w_pb) = Some w_pb /\ broadcast w_pc w_pb (2, 1) (2, 1) (2, 1)
  /\ list_differences w_pc w_pb = false /\ number64 w_pc /\ (forall i j, i < 2 -> j < 1 -> collected (entry w_pb i j) /\ float64s (entry w_pb i j)) /\ valid_mono w_rm
  /\ (forall i j, i < 2 -> j < 1 -> collected (bentry w_pc i j)) /\ (exists e, minus w_pc w_pb = Ok e)
  /\ exists e, expr_minus w_pc (GExpr w_pb) = Ok e /\ one_is (coefficients w_rm (entry e 0 0)) (w_tenth 3 - w_tenth 2) (w_tenth 1) = true.
Proof. exact wit_point_minus. Qed.
