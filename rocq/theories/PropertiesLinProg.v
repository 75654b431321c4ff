(** * Properties of linear constraints between computed vectors

    Each theorem is proved in another file; the identifiers are those of properties.jsonl.  Below each theorem stand its
    assumptions and an instance of its hypotheses. *)

From Coq Require Import ZArith NArith Bool List.
From Verif Require Import Num Syntax ModelScalar ModelSC Spec SpecProg SpecExact ModelShape ModelArith SpecArr ModelConstr SpecCon SpecAProg ModelAProg AProgTop AProgCon
  SpecExactArr FloatLinProg Witness AProgWit ExactArrWit LinProgWit.
Import ListNotations.

(** ** C66 constraints between linear vectors, however they were computed, reach the solver unchanged *)

(** p and q: programs for vectors of length n that are linear in the variables w.  Their simplified results are compared, and the
    solver is given the extracted system.  It has the solutions of the constraint that the two program texts denote. *)
Theorem C66_inequality : forall {NN : Num} {EX : ExactNum NN} (n : nat) (w : list var) (p q : aprog) (s : sense) (a b : expr) (c : vector_constraint),
  2 <= n -> linear_vector n w p -> linear_vector n w q -> w <> [] -> Forall valid_var w -> NoDup (map v_id w) ->
  arun (ASimplified p) = Ok a -> arun (ASimplified q) = Ok b -> expr_comparison a (GExpr b) s = Ok (CV c) -> forall (A : list (list num)) (rhs : list num), s = SenseLe \/ s = SenseGe ->
  vc_linear_inequality c [w] = Ok (A, rhs) ->
  dense_shape (n, length w) A /\ length rhs = n /\ forall r, system_le r A w rhs <-> forall i, i < n -> holds (meaning r p i 0) s (meaning r q i 0).
Proof. exact @program_inequality. Qed.
Print Assumptions C66_inequality.
Theorem C66_equality : forall {NN : Num} {EX : ExactNum NN} (n : nat) (w : list var) (p q : aprog) (s : sense) (a b : expr) (c : vector_constraint),
  2 <= n -> linear_vector n w p -> linear_vector n w q -> w <> [] -> Forall valid_var w -> NoDup (map v_id w) ->
  arun (ASimplified p) = Ok a -> arun (ASimplified q) = Ok b -> expr_comparison a (GExpr b) s = Ok (CV c) -> forall (A : list (list num)) (rhs : list num), s = SenseEq ->
  vc_linear_equality c [w] = Ok (A, rhs) ->
  dense_shape (n, length w) A /\ length rhs = n /\ forall r, system_eq r A w rhs <-> forall i, i < n -> holds (meaning r p i 0) s (meaning r q i 0).
Proof. exact @program_equality. Qed.
Print Assumptions C66_equality.

(** the comparison is accepted unless one of the types is not a vector type, or a vector of monomials is compared with one of polynomials *)
Theorem C66_comparison : forall {NN : Num} (n : nat) (w : list var) (p q : aprog) (s : sense) (v u : vector), linear_vector n w p -> linear_vector n w q ->
  arun (ASimplified p) = Ok (EV v) -> arun (ASimplified q) = Ok (EV u) -> comparison_accepts (EV v) (GExpr (EV u)) = true ->
  expr_comparison (EV v) (GExpr (EV u)) s = Ok (CV (mkVC v u s)).
Proof. exact @program_compared. Qed.
Print Assumptions C66_comparison.
(** and the system is extracted, if in no row the variables cancel *)
Theorem C66_inequality_total : forall {NN : Num} {EX : ExactNum NN} (n : nat) (w : list var) (p q : aprog) (s : sense) (a b : expr) (c : vector_constraint),
  2 <= n -> linear_vector n w p -> linear_vector n w q -> w <> [] -> Forall valid_var w -> NoDup (map v_id w) ->
  arun (ASimplified p) = Ok a -> arun (ASimplified q) = Ok b -> expr_comparison a (GExpr b) s = Ok (CV c) -> s = SenseLe \/ s = SenseGe -> rows_vary n p q ->
  exists A rhs, vc_linear_inequality c [w] = Ok (A, rhs).
Proof. exact @program_inequality_total. Qed.
Print Assumptions C66_inequality_total.
Theorem C66_equality_total : forall {NN : Num} {EX : ExactNum NN} (n : nat) (w : list var) (p q : aprog) (s : sense) (a b : expr) (c : vector_constraint),
  2 <= n -> linear_vector n w p -> linear_vector n w q -> w <> [] -> Forall valid_var w -> NoDup (map v_id w) ->
  arun (ASimplified p) = Ok a -> arun (ASimplified q) = Ok b -> expr_comparison a (GExpr b) s = Ok (CV c) -> s = SenseEq -> rows_vary n p q ->
  exists A rhs, vc_linear_equality c [w] = Ok (A, rhs).
Proof. exact @program_equality_total. Qed.
Print Assumptions C66_equality_total.
Example C66_nonvacuous (NN := QNum) : linear_vector 2 [wz; wx; wy] w_lp /\ linear_vector 2 [wz; wx; wy] w_lq /\ Forall valid_var [wz; wx; wy] /\ NoDup (map v_id [wz; wx; wy]) /\ rows_vary 2 w_lp w_lq
  /\ exists a b c, arun (ASimplified w_lp) = Ok a /\ arun (ASimplified w_lq) = Ok b /\ expr_comparison a (GExpr b) SenseGe = Ok (CV c).
Proof. exact wit_linprog. Qed.

(** with float64 coefficients there is no rounding at all, if the coefficients of every intermediate entry fit into 53 bits *)
Theorem C66_inequality_float64 : forall (n : nat) (w : list (@var F64Num)) (p q : @aprog F64Num) (s : sense) (a b : @expr F64Num) (c : @vector_constraint F64Num),
  (2 <= n)%nat -> @linear_vector F64Num n w p -> @linear_vector F64Num n w q -> afits p -> afits q ->
  (aweight p * 2 ^ (Z.max (abits p) (abits q) - abits p) + 2 * (aweight q * 2 ^ (Z.max (abits p) (abits q) - abits q)) <= 2 ^ 53)%Z ->
  w <> [] -> Forall (@valid_var F64Num) w -> Forall numeric_var w -> NoDup (map v_id w) ->
  @arun F64Num (ASimplified p) = Ok a -> @arun F64Num (ASimplified q) = Ok b -> @expr_comparison F64Num a (GExpr b) s = Ok (CV c) ->
  forall (A : list (list (@num F64Num))) (rhs : list (@num F64Num)), s = SenseLe \/ s = SenseGe -> @vc_linear_inequality F64Num c [w] = Ok (A, rhs) ->
  @dense_shape F64Num (n, length w) A /\ length rhs = n /\ forall r : @assignment QNum,
   @system_le QNum r (map (map exactly) A) (map exact_var w) (map exactly rhs) <->
   forall i, (i < n)%nat -> @holds QNum (@meaning QNum r (exact_aprog p) i 0) s (@meaning QNum r (exact_aprog q) i 0).
Proof. exact program_inequality_exact. Qed.
Print Assumptions C66_inequality_float64.
Theorem C66_equality_float64 : forall (n : nat) (w : list (@var F64Num)) (p q : @aprog F64Num) (s : sense) (a b : @expr F64Num) (c : @vector_constraint F64Num),
  (2 <= n)%nat -> @linear_vector F64Num n w p -> @linear_vector F64Num n w q -> afits p -> afits q ->
  (aweight p * 2 ^ (Z.max (abits p) (abits q) - abits p) + 2 * (aweight q * 2 ^ (Z.max (abits p) (abits q) - abits q)) <= 2 ^ 53)%Z ->
  w <> [] -> Forall (@valid_var F64Num) w -> Forall numeric_var w -> NoDup (map v_id w) ->
  @arun F64Num (ASimplified p) = Ok a -> @arun F64Num (ASimplified q) = Ok b -> @expr_comparison F64Num a (GExpr b) s = Ok (CV c) ->
  forall (A : list (list (@num F64Num))) (rhs : list (@num F64Num)), s = SenseEq -> @vc_linear_equality F64Num c [w] = Ok (A, rhs) ->
  @dense_shape F64Num (n, length w) A /\ length rhs = n /\ forall r : @assignment QNum,
   @system_eq QNum r (map (map exactly) A) (map exact_var w) (map exactly rhs) <->
   forall i, (i < n)%nat -> @holds QNum (@meaning QNum r (exact_aprog p) i 0) s (@meaning QNum r (exact_aprog q) i 0).
Proof. exact program_equality_exact. Qed.
Print Assumptions C66_equality_float64.
Theorem C66_inequality_total_float64 : forall (n : nat) (w : list (@var F64Num)) (p q : @aprog F64Num) (s : sense) (a b : @expr F64Num) (c : @vector_constraint F64Num),
  (2 <= n)%nat -> @linear_vector F64Num n w p -> @linear_vector F64Num n w q -> afits p -> afits q ->
  (aweight p * 2 ^ (Z.max (abits p) (abits q) - abits p) + 2 * (aweight q * 2 ^ (Z.max (abits p) (abits q) - abits q)) <= 2 ^ 53)%Z ->
  w <> [] -> Forall (@valid_var F64Num) w -> Forall numeric_var w -> NoDup (map v_id w) ->
  @arun F64Num (ASimplified p) = Ok a -> @arun F64Num (ASimplified q) = Ok b -> @expr_comparison F64Num a (GExpr b) s = Ok (CV c) ->
  s = SenseLe \/ s = SenseGe -> @rows_vary QNum n (exact_aprog p) (exact_aprog q) -> exists A rhs, @vc_linear_inequality F64Num c [w] = Ok (A, rhs).
Proof. exact program_inequality_exact_total. Qed.
Print Assumptions C66_inequality_total_float64.
Theorem C66_equality_total_float64 : forall (n : nat) (w : list (@var F64Num)) (p q : @aprog F64Num) (s : sense) (a b : @expr F64Num) (c : @vector_constraint F64Num),
  (2 <= n)%nat -> @linear_vector F64Num n w p -> @linear_vector F64Num n w q -> afits p -> afits q ->
  (aweight p * 2 ^ (Z.max (abits p) (abits q) - abits p) + 2 * (aweight q * 2 ^ (Z.max (abits p) (abits q) - abits q)) <= 2 ^ 53)%Z ->
  w <> [] -> Forall (@valid_var F64Num) w -> Forall numeric_var w -> NoDup (map v_id w) ->
  @arun F64Num (ASimplified p) = Ok a -> @arun F64Num (ASimplified q) = Ok b -> @expr_comparison F64Num a (GExpr b) s = Ok (CV c) ->
  s = SenseEq -> @rows_vary QNum n (exact_aprog p) (exact_aprog q) -> exists A rhs, @vc_linear_equality F64Num c [w] = Ok (A, rhs).
Proof. exact program_equality_exact_total. Qed.
Print Assumptions C66_equality_total_float64.
Example C66_float64_nonvacuous (NN := F64Num) : linear_vector 2 [wz; wx; wy] w_hp /\ linear_vector 2 [wz; wx; wy] w_lq /\ afits w_hp /\ afits w_lq
  /\ (aweight w_hp * 2 ^ (Z.max (abits w_hp) (abits w_lq) - abits w_hp) + 2 * (aweight w_lq * 2 ^ (Z.max (abits w_hp) (abits w_lq) - abits w_lq)) <= 2 ^ 53)%Z
  /\ Forall valid_var [wz; wx; wy] /\ Forall numeric_var [wz; wx; wy] /\ NoDup (map v_id [wz; wx; wy]) /\ @rows_vary QNum 2 (exact_aprog w_hp) (exact_aprog w_lq)
  /\ exists a b c, arun (ASimplified w_hp) = Ok a /\ arun (ASimplified w_lq) = Ok b /\ expr_comparison a (GExpr b) SenseLe = Ok (CV c).
Proof. exact wit_linprog_exact. Qed.

(** without simplification it is false: 1 + 2 + 2x <= 1 is extracted as 2x <= 0 *)
Theorem C66_unsimplified_refuted : forall NN, NN = F64Num \/ NN = QNum -> exists (w : list var) (p q : aprog) (a b : expr) (c : vector_constraint) (A : list (list num)) (rhs : list num) (r : assignment),
  linear_vector 2 w p /\ linear_vector 2 w q /\ Forall valid_var w /\ NoDup (map v_id w) /\ arun p = Ok a /\ arun q = Ok b /\ expr_comparison a (GExpr b) SenseLe = Ok (CV c)
  /\ vc_linear_inequality c [w] = Ok (A, rhs) /\ system_le r A w rhs /\ ~ holds (meaning r p 0 0) SenseLe (meaning r q 0 0).
Proof. exact unsimplified_refuted. Qed.
Print Assumptions C66_unsimplified_refuted.
