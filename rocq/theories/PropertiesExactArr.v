(** * Properties of vectors and matrices whose float64 coefficients are short

    Each theorem is proved in another file; the identifiers are those of properties.jsonl.  Below each theorem stand its
    assumptions and an instance of its hypotheses.  [exactly], [exact_expr] and [exact_aprog] read float64 numbers as rational
    numbers, [short_array k n e]: the coefficients of each entry of e are multiples of 2^-k and their absolute values add up to
    at most n * 2^-k. *)

From Coq Require Import ZArith NArith Bool List Permutation.
From Verif Require Import Num Syntax ModelScalar ModelSC Spec SpecProg SpecExact ModelShape ModelArith SpecArr ModelConstr SpecCon SpecAProg ModelAProg AProgTop
  SpecExactArr FloatATop FloatOrder Witness ExactWit ExactArrWit.
Import ListNotations.
Local Open Scope Z_scope.

(** ** C65 float64 arithmetic on vectors and matrices is exact as long as the coefficients of every entry need no more than 53 bits *)

(** single calls: the float64 result, read exactly, is the result of the call in rational arithmetic, or both panic alike *)
Theorem C65_plus : forall (k na nb : Z) (e : @expr F64Num) (g : @goval F64Num), 0 <= k <= 1000 -> 0 <= na -> 0 <= nb -> na + nb <= 2 ^ 53 ->
  short_array k na e -> short_operand k nb g ->
  same_array k (na + nb) (@expr_plus F64Num e g) (@expr_plus QNum (exact_expr e) (exact_operand g)).
Proof. exact array_plus_exact. Qed.
Print Assumptions C65_plus.
Theorem C65_minus : forall (k na nb : Z) (e : @expr F64Num) (g : @goval F64Num), 0 <= k <= 1000 -> 0 <= na -> 0 <= nb -> na + nb <= 2 ^ 53 ->
  short_array k na e -> short_operand k nb g ->
  same_array k (na + nb) (@expr_minus F64Num e g) (@expr_minus QNum (exact_expr e) (exact_operand g)).
Proof. exact array_minus_exact. Qed.
Print Assumptions C65_minus.
(** w: the number of columns of e, that is, the number of products added up in one entry *)
Theorem C65_multiply : forall (ka na kb nb w : Z) (d : nat * nat) (e : @expr F64Num) (g : @goval F64Num),
  0 <= ka -> 0 <= kb -> ka + kb <= 1000 -> 0 <= na -> 0 <= nb -> na <= 2 ^ 53 -> nb <= 2 ^ 53 ->
  @valid_array F64Num d e -> w = Z.of_nat (snd d) -> w * (na * nb) <= 2 ^ 53 -> short_array ka na e -> short_operand kb nb g ->
  same_array (ka + kb) (w * (na * nb)) (@expr_mul F64Num e g) (@expr_mul QNum (exact_expr e) (exact_operand g)).
Proof. exact array_multiply_exact. Qed.
Print Assumptions C65_multiply.
Theorem C65_simplified : forall (k n : Z) (e : @expr F64Num), 0 <= k <= 1000 -> n <= 2 ^ 53 -> short_array k n e ->
  same_array k n (@expr_simplified F64Num e) (@expr_simplified QNum (exact_expr e)).
Proof. exact array_simplified_exact. Qed.
Print Assumptions C65_simplified.
Example C65_operands_nonvacuous : @valid_array F64Num (2, 2)%nat (EM (MK w_H)) /\ short_array 2 12 (EM (MK w_H)) /\ short_operand 2 24 (@GVec F64Num [w_quarter; @nofZ F64Num 6]).
Proof. exact wit_hops. Qed.

(** whole programs *)
Theorem C65_program : forall p : @aprog F64Num, @proper_leaves F64Num p -> afits p ->
  same_array (abits p) (aweight p) (@arun F64Num p) (@arun QNum (exact_aprog p)).
Proof. exact aprogram_exact. Qed.
Print Assumptions C65_program.

(** so each entry of the float64 result has, at every assignment of rational numbers, the value that the program text denotes *)
Theorem C65_value_degree2 : forall (p : @aprog F64Num) (e : @expr F64Num), @proper_leaves F64Num p -> afits p -> adegree p <= 2 -> @arun F64Num p = Ok e ->
  forall (r : @assignment QNum) i j, (i < fst (dims_of p))%nat -> (j < snd (dims_of p))%nat -> @value QNum r (exact_expr e) i j = @meaning QNum r (exact_aprog p) i j.
Proof. exact avalue_degree2_exact. Qed.
Print Assumptions C65_value_degree2.
Example C65_value_degree2_nonvacuous (NN := F64Num) : proper_leaves w_hstack /\ afits w_hstack /\ adegree w_hstack <= 2 /\ adims w_hstack = Some (4, 2)%nat /\ exists e, arun w_hstack = Ok e.
Proof. exact wit_hstack. Qed.
Theorem C65_value_one_variable : forall (x : N) (p : @aprog F64Num) (e : @expr F64Num), @proper_leaves F64Num p -> afits p -> @leaves_only F64Num x p -> @arun F64Num p = Ok e ->
  forall (r : @assignment QNum) i j, (i < fst (dims_of p))%nat -> (j < snd (dims_of p))%nat -> @value QNum r (exact_expr e) i j = @meaning QNum r (exact_aprog p) i j.
Proof. exact avalue_variable_exact. Qed.
Print Assumptions C65_value_one_variable.
Example C65_value_one_variable_nonvacuous (NN := F64Num) : proper_leaves w_hcube /\ afits w_hcube /\ leaves_only 0%N w_hcube /\ dims_of w_hcube = (2, 2)%nat /\ exists e, arun w_hcube = Ok e.
Proof. exact wit_hcube. Qed.

(** x' Q x is the quadratic form of Q, with no rounding *)
Theorem C65_quadratic_form : forall (n : nat) (k w : Z) (xs : list (@var F64Num)) (Q : list (list (@num F64Num))),
  (2 <= n)%nat -> length xs = n -> Forall (@valid_var F64Num) xs -> Forall numeric_var xs -> @dense_shape F64Num (n, n) Q ->
  0 <= k <= 1000 -> 0 <= w -> Forall (Forall (fun c => short k w (SK c))) Q -> Z.of_nat n * (Z.of_nat n * w) <= 2 ^ 53 ->
  exists s, @arun F64Num (quadratic_form xs Q) = Ok (ES s) /\ @valid F64Num s
   /\ forall r : @assignment QNum, @eval QNum r (exact_scalar s)
      = @sum_to QNum (fun i => @sum_to QNum (fun j => @nmul QNum (@nmul QNum (exactly (at_ij Q i j)) (var_at r (map exact_var xs) i)) (var_at r (map exact_var xs) j)) n) n.
Proof. exact quadratic_exact. Qed.
Print Assumptions C65_quadratic_form.
Example C65_quadratic_form_nonvacuous : length w_xs = 2%nat /\ Forall (@valid_var F64Num) w_xs /\ Forall numeric_var w_xs /\ @dense_shape F64Num (2, 2)%nat w_H
  /\ Forall (Forall (fun c => short 2 12 (SK c))) w_H.
Proof. exact wit_hq. Qed.

(** A x <= b, A x >= b and A x = b: the extracted system is A, b again, or -A, -b, with no rounding *)
Theorem C65_linear_constraint : forall (m n : nat) (k w : Z) (A : list (list (@num F64Num))) (xs : list (@var F64Num)) (b : list (@num F64Num)) (s : sense),
  (2 <= m)%nat -> @dense_shape F64Num (m, n) A -> length xs = n -> Forall (@valid_var F64Num) xs -> Forall numeric_var xs -> NoDup (map v_id xs) ->
  @no_zero_row QNum m n (map (map exactly) A) -> length b = m -> s <> SenseOther ->
  0 <= k <= 1000 -> 0 <= w -> Forall (Forall (fun c => short k w (SK c))) A -> Forall (fun c => short k w (SK c)) b -> Z.of_nat (n + 2) * w <= 2 ^ 53 ->
  exists v c A' b', @expr_mul F64Num (EM (MK A)) (GExpr (EV (VV xs))) = Ok (EV v) /\ @expr_comparison F64Num (EV v) (GExpr (EV (VK b))) s = Ok (CV c) /\
   match s with
   | SenseLe => @vc_linear_inequality F64Num c [xs] = Ok (A', b') /\ map (map exactly) A' = map (map exactly) A /\ map exactly b' = map exactly b
   | SenseGe => @vc_linear_inequality F64Num c [xs] = Ok (A', b') /\ map (map exactly) A' = map (map opposite) A /\ map exactly b' = map opposite b
   | _ => @vc_linear_equality F64Num c [xs] = Ok (A', b') /\ map (map exactly) A' = map (map exactly) A /\ map exactly b' = map exactly b
   end.
Proof. exact linear_constraint_exact. Qed.
Print Assumptions C65_linear_constraint.
Example C65_linear_constraint_nonvacuous : length w_xs = 2%nat /\ Forall (@valid_var F64Num) w_xs /\ Forall numeric_var w_xs /\ NoDup (map v_id w_xs) /\ @dense_shape F64Num (2, 2)%nat w_H
  /\ @no_zero_row QNum 2 2 (map (map exactly) w_H) /\ Forall (Forall (fun c => short 2 24 (SK c))) w_H /\ Forall (fun c => short 2 24 (SK c)) [w_quarter; @nofZ F64Num 6].
Proof. exact wit_hcon. Qed.

(** any vector constraint *)
Theorem C65_inequality : forall (k na nb : Z) (c : @vector_constraint F64Num) (wrt : list (list (@var F64Num))),
  0 <= k <= 1000 -> 0 <= na -> 0 <= nb -> na + 2 * nb <= 2 ^ 53 -> short_array k na (EV (vc_left c)) -> short_array k nb (EV (vc_right c)) -> numeric_lists wrt ->
  same_system (@vc_linear_inequality F64Num c wrt) (@vc_linear_inequality QNum (exact_vc c) (map (map exact_var) wrt)).
Proof. exact array_inequality_exact. Qed.
Print Assumptions C65_inequality.
Theorem C65_equality : forall (k na nb : Z) (c : @vector_constraint F64Num) (wrt : list (list (@var F64Num))),
  0 <= k <= 1000 -> 0 <= na -> 0 <= nb -> na + 2 * nb <= 2 ^ 53 -> short_array k na (EV (vc_left c)) -> short_array k nb (EV (vc_right c)) -> numeric_lists wrt ->
  same_system (@vc_linear_equality F64Num c wrt) (@vc_linear_equality QNum (exact_vc c) (map (map exact_var) wrt)).
Proof. exact array_equality_exact. Qed.
Print Assumptions C65_equality.
Example C65_constraint_nonvacuous : short_array 2 24 (EV (@VK F64Num [w_quarter; @nofZ F64Num 6])) /\ short_array 2 24 (EV (VV w_xs)) /\ numeric_lists [w_xs].
Proof. exact wit_hvc. Qed.

(** and no result depends on the order in which gonum adds up the products of a row and a column, which the model fixes *)
Theorem C65_any_order : forall (ka na kb nb : Z) (row column : list (@num F64Num)) (t : summation),
  0 <= ka -> 0 <= kb -> ka + kb <= 1000 -> 0 <= na <= 2 ^ 53 -> 0 <= nb <= 2 ^ 53 ->
  Forall (fun x => short ka na (SK x)) row -> Forall (fun x => short kb nb (SK x)) column -> Z.of_nat (length row) * (na * nb) <= 2 ^ 53 ->
  Permutation (products t) (combine row column) -> exactly (add_up t) = exactly (@sum_products F64Num row column).
Proof. exact any_order_exact. Qed.
Print Assumptions C65_any_order.
Example C65_any_order_nonvacuous : Forall (fun x => short 2 24 (SK x)) [w_quarter; @nofZ F64Num 6]
  /\ Permutation (products (Together (Product (@nofZ F64Num 6) w_quarter) (Together Nothing (Product w_quarter (@nofZ F64Num 6)))))
       (combine [w_quarter; @nofZ F64Num 6] [@nofZ F64Num 6; w_quarter]).
Proof. exact wit_horder. Qed.

(** without the bound it is false: 2^53 x + x, computed by a matrix product of operands that fit *)
Theorem C65_large_refuted : exists (a b : @aprog F64Num) (e : @expr F64Num) (e' : @expr QNum), @proper_leaves F64Num (ATimes a b) /\ afits a /\ afits b /\ abits (ATimes a b) = 0
  /\ @arun F64Num (ATimes a b) = Ok e /\ @arun QNum (exact_aprog (ATimes a b)) = Ok e' /\ e' <> exact_expr e.
Proof. exact array_large_refuted. Qed.
Print Assumptions C65_large_refuted.
