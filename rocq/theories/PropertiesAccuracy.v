(** * C76: how far the results of float64 arithmetic are from the exact ones *)

From Coq Require Import ZArith NArith Bool List Reals.
From Verif Require Import Num Syntax ModelScalar ModelShape ModelArith Spec SpecConv SpecEffect SpecArr SpecEffectArr SpecRound SpecPoint SpecAccuracy Witness RoundWit PointWit Accuracy2 Accuracy3 Accuracy4 Accuracy7 Accuracy8 AccWit SpecMat AccuracyProd ProdWit.
Import ListNotations.
Local Open Scope num_scope.

(** ** scalars *)

(** missing: expressions with ambiguous terms, for which collecting terms is wrong even without rounding (C01, C03) *)
Theorem C76_plus_partial : forall (NN := F64Num) (r : N -> R) (a b s : scalar), valid a -> valid b -> collected a -> collected b -> float64s a -> float64s b ->
  unambiguous (in_either a b) -> scalar_plus a b = Ok s -> finite64s s ->
  (Rabs (value64 r s - (value64 r a + value64 r b)) <= unit64 * (size64 r a + size64 r b))%R.
Proof. exact acc_plus. Qed.
Print Assumptions C76_plus_partial.
Example C76_plus_nonvacuous (NN := F64Num) : exists a b s, valid a /\ valid b /\ collected a /\ collected b /\ float64s a /\ float64s b /\ unambiguous (in_either a b) /\ scalar_plus a b = Ok s /\ finite64s s
  /\ one_is (coefficients w_rm s) (w_tenth 1 + w_tenth 2) (w_tenth 3) = true.
Proof. exact wit_acc_plus. Qed.

(** missing: expressions with ambiguous terms, for which collecting terms is wrong even without rounding (C01, C03) *)
Theorem C76_minus_partial : forall (NN := F64Num) (r : N -> R) (a b s : scalar), valid a -> valid b -> collected a -> collected b -> float64s a -> float64s b ->
  unambiguous (in_either a b) -> scalar_minus a b = Ok s -> finite64s s ->
  (Rabs (value64 r s - (value64 r a - value64 r b)) <= unit64 * (size64 r a + size64 r b))%R.
Proof. exact acc_minus. Qed.
Print Assumptions C76_minus_partial.
Example C76_minus_nonvacuous (NN := F64Num) : exists a b s, valid a /\ valid b /\ collected a /\ collected b /\ float64s a /\ float64s b /\ unambiguous (in_either a b) /\ scalar_minus a b = Ok s /\ finite64s s
  /\ one_is (coefficients w_rm s) (w_tenth 3 - w_tenth 2) (w_tenth 1) = true.
Proof. exact wit_acc_minus. Qed.

(** missing: expressions with ambiguous terms, for which collecting terms is wrong even without rounding (C01, C03) *)
Theorem C76_multiply_number_partial : forall (NN := F64Num) (r : N -> R) (a s : scalar) (f : num), valid a -> collected a -> float64s a -> finite64 f ->
  unambiguous (fun m => In m (terms a)) -> scalar_mul_float a f = Ok s -> finite64s s ->
  (Rabs (value64 r s - real64 f * value64 r a) <= unit64 * Rabs (real64 f) * size64 r a + tiny64 * spread64 r a)%R.
Proof. exact acc_multiply. Qed.
Print Assumptions C76_multiply_number_partial.
Example C76_multiply_number_nonvacuous (NN := F64Num) : exists a s f, valid a /\ collected a /\ float64s a /\ finite64 f /\ unambiguous (fun m => In m (terms a)) /\ scalar_mul_float a f = Ok s /\ finite64s s
  /\ one_is (coefficients w_rm s) (w_tenth 1 * nofZ 3) (w_tenth 3) = true.
Proof. exact wit_acc_multiply. Qed.

(** missing: expressions with ambiguous terms, for which collecting terms is wrong even without rounding (C01, C03) *)
Theorem C76_simplify_partial : forall (NN := F64Num) (r : N -> R) (a s : scalar), valid a -> float64s a -> unambiguous (fun m => In m (terms a)) -> scalar_simplified a = Ok s -> finite64s s ->
  (Rabs (value64 r s - value64 r a) <= ((1 + unit64) ^ (length (terms a) - 1) - 1) * size64 r a)%R.
Proof. exact acc_simplify. Qed.
Print Assumptions C76_simplify_partial.
Example C76_simplify_nonvacuous (NN := F64Num) : exists a s, valid a /\ float64s a /\ unambiguous (fun m => In m (terms a)) /\ scalar_simplified a = Ok s /\ finite64s s /\ length (terms a) = 3
  /\ one_is (coefficients w_rm s) (w_tenth 1 + w_tenth 2 + w_tenth 3) (w_tenth 1 + (w_tenth 2 + w_tenth 3)) = true.
Proof. exact wit_acc_simplify. Qed.

(** adding many expressions, one after the other *)
(** missing: expressions with ambiguous terms, for which collecting terms is wrong even without rounding (C01, C03) *)
Theorem C76_sum_partial : forall (NN := F64Num) (r : N -> R) (a : scalar) (l : list scalar) (s : scalar), Forall (fun x => valid x /\ collected x /\ float64s x) (a :: l) ->
  unambiguous (fun m => exists x, In x (a :: l) /\ In m (terms x)) -> sum_up a l = Ok s -> finite64s s ->
  (Rabs (value64 r s - total (map (value64 r) (a :: l))) <= ((1 + unit64) ^ length l - 1) * total (map (size64 r) (a :: l)))%R.
Proof. exact acc_sum. Qed.
Print Assumptions C76_sum_partial.
Example C76_sum_nonvacuous (NN := F64Num) : exists a l s, length l = 3 /\ Forall (fun x => valid x /\ collected x /\ float64s x) (a :: l) /\ unambiguous (fun m => exists x, In x (a :: l) /\ In m (terms x))
  /\ sum_up a l = Ok s /\ finite64s s /\ one_is (coefficients w_rm s) (w_tenth 1 + w_tenth 2 + w_tenth 3 + w_tenth 1) (w_tenth 7) = true.
Proof. exact wit_acc_sum. Qed.

(** the product of two expressions *)
(** missing: expressions whose products of terms are ambiguous, for which collecting terms is wrong even without rounding (C03) *)
Theorem C76_multiply_partial : forall (NN := F64Num) (r : N -> R) (a b s : scalar), valid a -> valid b -> float64s a -> float64s b ->
  unambiguous_exponents (product_terms a b) -> scalar_mul a b = Ok s -> finite64s s ->
  (Rabs (value64 r s - value64 r a * value64 r b)
   <= ((1 + unit64) ^ (length (terms a) + length (terms b)) - 1) * (size64 r a * size64 r b)
      + (1 + unit64) ^ (length (terms a) + length (terms b)) * tiny64 * (spread64 r a * spread64 r b))%R.
Proof. exact acc_product. Qed.
Print Assumptions C76_multiply_partial.
Example C76_multiply_nonvacuous (NN := F64Num) : exists a b s, valid a /\ valid b /\ float64s a /\ float64s b /\ unambiguous_exponents (product_terms a b) /\ scalar_mul a b = Ok s /\ finite64s s
  /\ length (terms a) = 2 /\ length (terms b) = 2 /\ one_is (coefficients w_rm s) (w_tenth 3 * w_tenth 3 + w_tenth 7 * w_tenth 1) (nofZ 16 / nofZ 100) = true.
Proof. exact wit_acc_product. Qed.

(** the results are not exact: 2^53 x + x *)
Theorem C76_exact_refuted : forall (NN := F64Num), exists r a b s, valid a /\ valid b /\ collected a /\ collected b /\ float64s a /\ float64s b /\ unambiguous (in_either a b) /\ scalar_plus a b = Ok s /\ finite64s s
  /\ value64 r s <> (value64 r a + value64 r b)%R.
Proof. exact acc_refuted. Qed.
Print Assumptions C76_exact_refuted.

(** ** vectors and matrices, entry by entry *)

(** the slope of each term, summed, is the derivative of the value *)
Theorem C76_slope : forall (NN := F64Num) (r : N -> R) (i : N) (s : scalar),
  derivable_pt_lim (fun x => value64 (at64 r i x) s) (r i) (total (map (fun t => real64 (m_coeff t) * slope64 r i t) (terms s)))%R.
Proof. exact value_limit. Qed.
Print Assumptions C76_slope.

(** the derivative, evaluated at a point, is close to the true derivative there; terms may be ambiguous *)
Theorem C76_derivative : forall (NN := F64Num) (r : N -> R) (s : scalar) (v : var) (s' : scalar) (d : R), valid s -> float64s s -> scalar_derivative s v = Ok s' -> finite64s s' ->
  derivable_pt_lim (fun x => value64 (at64 r (v_id v) x) s) (r (v_id v)) d ->
  (Rabs (value64 r s' - d) <= ((1 + unit64) ^ 2 - 1) * total (map (fun t => Rabs (real64 (m_coeff t) * slope64 r (v_id v) t)) (terms s)) + tiny64 * total (map (fun t => Rabs (slope64 r (v_id v) t)) (terms s)))%R.
Proof. exact acc_derivative. Qed.
Print Assumptions C76_derivative.
Example C76_derivative_nonvacuous (NN := F64Num) : exists s s', valid s /\ float64s s /\ scalar_derivative s wx = Ok s' /\ finite64s s' /\ (forall r, exists d, derivable_pt_lim (fun x => value64 (at64 r (v_id wx) x) s) (r (v_id wx)) d)
  /\ one_is (coefficients w_square s') (w_tenth 1 * nofZ 3) (w_tenth 3) = true.
Proof. exact wit_acc_derivative. Qed.

(** missing: expressions with ambiguous terms, for which collecting terms is wrong even without rounding (C01, C03) *)
Theorem C76_plus_array_partial : forall (NN := F64Num) (r : N -> R) (a b : expr) (g : goval) (da db d : nat * nat) (e : expr),
  valid_array da a -> valid_array db b -> means g = Some b -> broadcast a b da db d -> lists_only a b = false -> number64 a -> number64 b -> expr_plus a g = Ok e ->
  forall i j, i < fst d -> j < snd d -> collected (bentry a i j) -> collected (bentry b i j) -> float64s (bentry a i j) -> float64s (bentry b i j) ->
  unambiguous (in_either (bentry a i j) (bentry b i j)) -> finite64s (entry e i j) ->
  (Rabs (value64 r (entry e i j) - (value64 r (bentry a i j) + value64 r (bentry b i j))) <= unit64 * (size64 r (bentry a i j) + size64 r (bentry b i j)))%R.
Proof. exact acc_plus_array. Qed.
Print Assumptions C76_plus_array_partial.
Example C76_plus_array_nonvacuous (NN := F64Num) : valid_array (2, 1) w_pa /\ valid_array (2, 1) w_pb /\ means (GExpr w_pb) = Some w_pb /\ broadcast w_pa w_pb (2, 1) (2, 1) (2, 1)
  /\ lists_only w_pa w_pb = false /\ number64 w_pa /\ number64 w_pb
  /\ (forall i j, i < 2 -> j < 1 -> collected (bentry w_pa i j) /\ collected (bentry w_pb i j) /\ float64s (bentry w_pa i j) /\ float64s (bentry w_pb i j) /\ unambiguous (in_either (bentry w_pa i j) (bentry w_pb i j)))
  /\ exists e, expr_plus w_pa (GExpr w_pb) = Ok e /\ (forall i j, i < 2 -> j < 1 -> finite64s (entry e i j)) /\ one_is (coefficients w_rm (entry e 0 0)) (w_tenth 1 + w_tenth 2) (w_tenth 3) = true.
Proof. exact wit_acc_plus_array. Qed.

(** the method Minus *)
(** missing: expressions with ambiguous terms, for which collecting terms is wrong even without rounding (C01, C03) *)
Theorem C76_minus_array_partial : forall (NN := F64Num) (r : N -> R) (a b : expr) (g : goval) (da db d : nat * nat) (e : expr),
  valid_array da a -> valid_array db b -> means g = Some b -> broadcast a b da db d -> list_differences a b = false -> number64 a ->
  (forall i j, i < fst db -> j < snd db -> collected (entry b i j) /\ float64s (entry b i j)) -> expr_minus a g = Ok e ->
  forall i j, i < fst d -> j < snd d -> collected (bentry a i j) -> float64s (bentry a i j) ->
  unambiguous (in_either (bentry a i j) (bentry b i j)) -> finite64s (entry e i j) ->
  (Rabs (value64 r (entry e i j) - (value64 r (bentry a i j) - value64 r (bentry b i j))) <= unit64 * (size64 r (bentry a i j) + size64 r (bentry b i j)))%R.
Proof. exact acc_minus_method. Qed.
Print Assumptions C76_minus_array_partial.
Example C76_minus_array_nonvacuous (NN := F64Num) : valid_array (2, 1) w_pc /\ valid_array (2, 1) w_pb /\ means (GExpr w_pb) = Some w_pb /\ broadcast w_pc w_pb (2, 1) (2, 1) (2, 1)
  /\ list_differences w_pc w_pb = false /\ number64 w_pc /\ (forall i j, i < 2 -> j < 1 -> collected (entry w_pb i j) /\ float64s (entry w_pb i j))
  /\ (forall i j, i < 2 -> j < 1 -> collected (bentry w_pc i j) /\ float64s (bentry w_pc i j) /\ unambiguous (in_either (bentry w_pc i j) (bentry w_pb i j))) /\ (exists e, minus w_pc w_pb = Ok e)
  /\ exists e, expr_minus w_pc (GExpr w_pb) = Ok e /\ (forall i j, i < 2 -> j < 1 -> finite64s (entry e i j)) /\ one_is (coefficients w_rm (entry e 0 0)) (w_tenth 3 - w_tenth 2) (w_tenth 1) = true.
Proof. exact wit_acc_minus_array. Qed.

(** the function Minus *)
(** missing: expressions with ambiguous terms, for which collecting terms is wrong even without rounding (C01, C03) *)
Theorem C76_minus_function_array_partial : forall (NN := F64Num) (r : N -> R) (a b : expr) (da db d : nat * nat) (e : expr),
  valid_array da a -> valid_array db b -> broadcast a b da db d -> list_differences a b = false -> number64 a ->
  (forall i j, i < fst db -> j < snd db -> collected (entry b i j) /\ float64s (entry b i j)) -> minus a b = Ok e ->
  forall i j, i < fst d -> j < snd d -> collected (bentry a i j) -> float64s (bentry a i j) ->
  unambiguous (in_either (bentry a i j) (bentry b i j)) -> finite64s (entry e i j) ->
  (Rabs (value64 r (entry e i j) - (value64 r (bentry a i j) - value64 r (bentry b i j))) <= unit64 * (size64 r (bentry a i j) + size64 r (bentry b i j)))%R.
Proof. exact acc_minus_function. Qed.
Print Assumptions C76_minus_function_array_partial.
Example C76_minus_function_array_nonvacuous (NN := F64Num) : valid_array (2, 1) w_pc /\ valid_array (2, 1) w_pb /\ means (GExpr w_pb) = Some w_pb /\ broadcast w_pc w_pb (2, 1) (2, 1) (2, 1)
  /\ list_differences w_pc w_pb = false /\ number64 w_pc /\ (forall i j, i < 2 -> j < 1 -> collected (entry w_pb i j) /\ float64s (entry w_pb i j))
  /\ (forall i j, i < 2 -> j < 1 -> collected (bentry w_pc i j) /\ float64s (bentry w_pc i j) /\ unambiguous (in_either (bentry w_pc i j) (bentry w_pb i j))) /\ (exists e, minus w_pc w_pb = Ok e)
  /\ exists e, expr_minus w_pc (GExpr w_pb) = Ok e /\ (forall i j, i < 2 -> j < 1 -> finite64s (entry e i j)) /\ one_is (coefficients w_rm (entry e 0 0)) (w_tenth 3 - w_tenth 2) (w_tenth 1) = true.
Proof. exact wit_acc_minus_array. Qed.

(** missing: expressions with ambiguous terms, for which collecting terms is wrong even without rounding (C01, C03) *)
Theorem C76_multiply_array_partial : forall (NN := F64Num) (r : N -> R) (e : expr) (f : num) (g : goval) (d : nat * nat) (e' : expr), finite64 f ->
  valid_array d e -> (forall i j, i < fst d -> j < snd d -> collected (entry e i j)) -> means g = Some (ES (SK f)) -> expr_mul e g = Ok e' ->
  forall i j, i < fst d -> j < snd d -> float64s (entry e i j) -> unambiguous (fun m => In m (terms (entry e i j))) -> finite64s (entry e' i j) ->
  (Rabs (value64 r (entry e' i j) - real64 f * value64 r (entry e i j)) <= unit64 * Rabs (real64 f) * size64 r (entry e i j) + tiny64 * spread64 r (entry e i j))%R.
Proof. exact acc_multiply_array. Qed.
Print Assumptions C76_multiply_array_partial.
Example C76_multiply_array_nonvacuous (NN := F64Num) : finite64 (nofZ 3) /\ valid_array (1, 2) w_pd /\ (forall i j, i < 1 -> j < 2 -> collected (entry w_pd i j)) /\ means (GFloat (nofZ 3)) = Some (ES (SK (nofZ 3)))
  /\ (forall i j, i < 1 -> j < 2 -> float64s (entry w_pd i j) /\ unambiguous (fun m => In m (terms (entry w_pd i j))))
  /\ exists e, expr_mul w_pd (GFloat (nofZ 3)) = Ok e /\ (forall i j, i < 1 -> j < 2 -> finite64s (entry e i j)) /\ one_is (coefficients w_rm (entry e 0 0)) (w_tenth 1 * nofZ 3) (w_tenth 3) = true.
Proof. exact wit_acc_multiply_array. Qed.

(** missing: expressions with ambiguous terms, for which collecting terms is wrong even without rounding (C01, C03) *)
Theorem C76_simplify_array_partial : forall (NN := F64Num) (r : N -> R) (e e' : expr) (d : nat * nat), valid_array d e -> expr_simplified e = Ok e' ->
  forall i j, i < fst d -> j < snd d -> float64s (entry e i j) -> unambiguous (fun m => In m (terms (entry e i j))) -> finite64s (entry e' i j) ->
  (Rabs (value64 r (entry e' i j) - value64 r (entry e i j)) <= ((1 + unit64) ^ (length (terms (entry e i j)) - 1) - 1) * size64 r (entry e i j))%R.
Proof. exact acc_simplify_array. Qed.
Print Assumptions C76_simplify_array_partial.
Example C76_simplify_array_nonvacuous (NN := F64Num) : valid_array (2, 1) w_pe /\ (forall i j, i < 2 -> j < 1 -> float64s (entry w_pe i j) /\ unambiguous (fun m => In m (terms (entry w_pe i j))))
  /\ exists e, expr_simplified w_pe = Ok e /\ (forall i j, i < 2 -> j < 1 -> finite64s (entry e i j)) /\ one_is (coefficients w_rm (entry e 0 0)) (w_tenth 1 + w_tenth 2 + w_tenth 3) (w_tenth 1 + (w_tenth 2 + w_tenth 3)) = true.
Proof. exact wit_acc_simplify_array. Qed.

(** every entry of a product of matrices.
    missing: ambiguous terms, and the products by vectors that row_by_row leaves out (C33) *)
Theorem C76_multiply_matrix_partial : forall (NN := F64Num) (r : N -> R) (a b e : expr) (da db : nat * nat) (i j : nat), valid_array da a -> valid_array db b -> snd da = fst db -> row_by_row a b da ->
  expr_mul a (GExpr b) = Ok e -> i < fst da -> j < snd db -> (forall k, k < snd da -> float64s (entry a i k) /\ float64s (entry b k j)) ->
  unambiguous_exponents (fun f => exists k, k < snd da /\ product_terms (entry a i k) (entry b k j) f) -> finite64s (entry e i j) ->
  (Rabs (value64 r (entry e i j) - total (map (fun k => value64 r (entry a i k) * value64 r (entry b k j)) (seq 0 (snd da))))
   <= total (map (fun k => ((1 + unit64) ^ (snd da + (length (terms (entry a i k)) + length (terms (entry b k j)))) - 1) * (size64 r (entry a i k) * size64 r (entry b k j))
                         + (1 + unit64) ^ (snd da + (length (terms (entry a i k)) + length (terms (entry b k j)))) * tiny64 * (spread64 r (entry a i k) * spread64 r (entry b k j))) (seq 0 (snd da))))%R.
Proof. exact acc_product_array. Qed.
Print Assumptions C76_multiply_matrix_partial.
Example C76_multiply_matrix_nonvacuous (NN := F64Num) : valid_array (1, 2) w_pd /\ valid_array (2, 1) w_pg /\ row_by_row w_pd w_pg (1, 2) /\ (forall k, k < 2 -> float64s (entry w_pd 0 k) /\ float64s (entry w_pg k 0))
  /\ unambiguous_exponents (fun f => exists k, k < 2 /\ product_terms (entry w_pd 0 k) (entry w_pg k 0) f)
  /\ exists e, expr_mul w_pd (GExpr w_pg) = Ok e /\ finite64s (entry e 0 0) /\ one_is (coefficients w_rm (entry e 0 0)) (w_tenth 1 * w_tenth 3 + w_tenth 2 * w_tenth 7) (nofZ 17 / nofZ 100) = true.
Proof. exact wit_acc_prod. Qed.
