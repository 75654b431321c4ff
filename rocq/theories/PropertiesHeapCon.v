(** * C70: sessions with expressions and constraints, with memory *)

From Coq Require Import ZArith NArith Bool List.
From Verif Require Import Num Syntax ModelScalar ModelShape ModelArith ModelSC ModelConstr Spec SpecArr SpecCon SpecAProg ModelAProg Witness ScalarWit ModelHeap SpecHeap ModelHeapArr SpecHeapArr
  ModelHeapCon SpecHeapCon HeapWit HeapArrProofs HeapConProofs HeapConWit.
Import ListNotations.
Local Open Scope num_scope.

(** ** C70 Working with constraints leaves every expression and every constraint in use unchanged, and all answers are those of the calls on values *)

(** any session without DerivativeWrt: expressions and constraints made earlier keep their values, and the expressions, the constraints
    and everything the calls returned are those of the same session on immutable values *)
Theorem C70_session : forall {NN : Num} {RT : Runtime} (l1 l2 : list cinstr) (h1 : heap) (es1 : list aexpr) (cs1 : list acon) (t1 : list (res (outcome expr constraint)))
    (h2 : heap) (es2 : list aexpr) (cs2 : list acon) (t2 : list (res (outcome expr constraint))),
  Forall no_derivative_step (l1 ++ l2) -> session empty_heap [] [] l1 = ((h1, es1, cs1), t1) -> session empty_heap [] [] (l1 ++ l2) = ((h2, es2, cs2), t2) ->
  (forall e, In e es1 -> rd_aexpr h2 e = rd_aexpr h1 e) /\ (forall c, In c cs1 -> rd_acon h2 c = rd_acon h1 c) /\
  (values_of (h2, es2, cs2), t2) = session_values [] [] (l1 ++ l2).
Proof. exact @session_plain. Qed.
Print Assumptions C70_session.
Example C70_session_nonvacuous (NN := QNum) : Forall no_derivative_step (firstn 15 w_session).
Proof. exact wit_session_plain. Qed.

(** ... with DerivativeWrt of scalars.
    missing: receivers in which the variable has an exponent other than 1 (C70_derivative_refuted), and DerivativeWrt of vectors and matrices (C08, C10) *)
Theorem C70_session_values_partial : forall {NN : Num} {RT : Runtime} (l : list cinstr) (st : heap * list aexpr * list acon) (t : list (res (outcome expr constraint))),
  charmless_session [] [] l -> session empty_heap [] [] l = (st, t) -> (values_of st, t) = session_values [] [] l.
Proof. exact @session_correct. Qed.
Print Assumptions C70_session_values_partial.
Example C70_session_values_nonvacuous (NN := QNum) : charmless_session [] [] w_session.
Proof. exact wit_session. Qed.
Example C70_session_answers (NN := QNum) : forallb is_ok (snd (session_values [] [] w_session)) = true /\ length (fst (fst (session_values [] [] w_session))) = 8%nat /\ length (snd (fst (session_values [] [] w_session))) = 10%nat.
Proof. exact wit_session_answers. Qed.

(** missing: as above *)
Theorem C70_session_kept_partial : forall {NN : Num} {RT : Runtime} (l1 l2 : list cinstr) (h1 : heap) (es1 : list aexpr) (cs1 : list acon) (t1 : list (res (outcome expr constraint)))
    (h2 : heap) (es2 : list aexpr) (cs2 : list acon) (t2 : list (res (outcome expr constraint))),
  charmless_session [] [] (l1 ++ l2) -> session empty_heap [] [] l1 = ((h1, es1, cs1), t1) -> session empty_heap [] [] (l1 ++ l2) = ((h2, es2, cs2), t2) ->
  (forall e, In e es1 -> rd_aexpr h2 e = rd_aexpr h1 e) /\ (forall c, In c cs1 -> rd_acon h2 c = rd_acon h1 c).
Proof. exact @session_kept. Qed.
Print Assumptions C70_session_kept_partial.

(** one call on any heap: no expression and no constraint in use changes, the result, the answer or the panic is that of the call on
    values, and the heap stays one to which this applies.
    missing: as above, and heaps in which unused capacity of one entry overlaps the variables of another (C43_overlap_refuted) *)
Theorem C70_call_partial : forall {NN : Num} {RT : Runtime} (h : heap) (es : list aexpr) (cs : list acon) (i : cinstr) (r : res (outcome aexpr acon)) (h' : heap),
  all_legal_arrays h (in_use es cs) -> separate_arrays h (in_use es cs) -> charmless (map (rd_aexpr h) es) i -> cexec es cs i h = (r, h') ->
  (forall e, In e es -> rd_aexpr h' e = rd_aexpr h e) /\ (forall c, In c cs -> rd_acon h' c = rd_acon h c) /\
  shown h' r = cexec_value (map (rd_aexpr h) es) (map (rd_acon h) cs) i /\
  (let u := in_use (es ++ new_exprs r) (cs ++ new_cons r) in all_legal_arrays h' u /\ separate_arrays h' u).
Proof. exact @ccall_spec. Qed.
Print Assumptions C70_call_partial.
Example C70_call_nonvacuous (NN := QNum) (RT := doubling) : all_legal_arrays w_cheap (in_use w_ces w_ccs) /\ separate_arrays w_cheap (in_use w_ces w_ccs) /\
  charmless (map (rd_aexpr w_cheap) w_ces) (ICompile [0; 1; 2]%nat).
Proof. exact wit_ccall. Qed.

(** from programs to the matrices for a solver, all in memory: the system has the solutions of the constraint that the two program texts
    denote, and the operands keep their values.
    missing: heaps with overlapping capacity *)
Theorem C70_inequality_partial : forall {NN : Num} {RT : Runtime} (EX : ExactNum NN) (n : nat) (h : heap) (roots : list aexpr) (w : list var) (p q : mprog) (s : sense) (A : list (list num)) (b : list num) (h' : heap),
  (2 <= n)%nat -> all_legal_arrays h roots -> separate_arrays h roots -> leaves_in roots p -> leaves_in roots q ->
  linear_vector n w (program_of h p) -> linear_vector n w (program_of h q) -> w <> [] -> Forall valid_var w -> NoDup (map v_id w) -> s = SenseLe \/ s = SenseGe ->
  system_in_memory h_vc_linear_inequality p q s w h = (Ok (A, b), h') ->
  (forall e, In e roots -> rd_aexpr h' e = rd_aexpr h e) /\ dense_shape (n, length w) A /\ length b = n /\
  forall r, system_le r A w b <-> forall i, (i < n)%nat -> holds (meaning r (program_of h p) i 0) s (meaning r (program_of h q) i 0).
Proof. exact @inequality_in_memory. Qed.
Print Assumptions C70_inequality_partial.
(** missing: as above *)
Theorem C70_equality_partial : forall {NN : Num} {RT : Runtime} (EX : ExactNum NN) (n : nat) (h : heap) (roots : list aexpr) (w : list var) (p q : mprog) (s : sense) (A : list (list num)) (b : list num) (h' : heap),
  (2 <= n)%nat -> all_legal_arrays h roots -> separate_arrays h roots -> leaves_in roots p -> leaves_in roots q ->
  linear_vector n w (program_of h p) -> linear_vector n w (program_of h q) -> w <> [] -> Forall valid_var w -> NoDup (map v_id w) -> s = SenseEq ->
  system_in_memory h_vc_linear_equality p q s w h = (Ok (A, b), h') ->
  (forall e, In e roots -> rd_aexpr h' e = rd_aexpr h e) /\ dense_shape (n, length w) A /\ length b = n /\
  forall r, system_eq r A w b <-> forall i, (i < n)%nat -> holds (meaning r (program_of h p) i 0) s (meaning r (program_of h q) i 0).
Proof. exact @equality_in_memory. Qed.
Print Assumptions C70_equality_partial.
(** ... and a system is returned in memory if and only if it is returned for the values; when that is, C66_inequality_total says.
    missing: as above *)
Theorem C70_system_values_partial : forall {NN : Num} {RT : Runtime} (h : heap) (roots : list aexpr) (p q : mprog) (s : sense) (w : list var),
  all_legal_arrays h roots -> separate_arrays h roots -> leaves_in roots p -> leaves_in roots q ->
  forall (a b : expr) (c : vector_constraint), arun (ASimplified (program_of h p)) = Ok a -> arun (ASimplified (program_of h q)) = Ok b -> expr_comparison a (GExpr b) s = Ok (CV c) ->
  fst (system_in_memory h_vc_linear_inequality p q s w h) = vc_linear_inequality c [w] /\ fst (system_in_memory h_vc_linear_equality p q s w h) = vc_linear_equality c [w].
Proof. exact @system_values. Qed.
Print Assumptions C70_system_values_partial.
Example C70_system_nonvacuous (NN := QNum) (RT := doubling) : all_legal_arrays w_lheap w_lroots /\ separate_arrays w_lheap w_lroots /\ leaves_in w_lroots w_lp_mem /\ leaves_in w_lroots w_lq_mem /\
  linear_vector 2 [wz; wx; wy] (program_of w_lheap w_lp_mem) /\ linear_vector 2 [wz; wx; wy] (program_of w_lheap w_lq_mem) /\ Forall valid_var [wz; wx; wy] /\ NoDup (map v_id [wz; wx; wy]) /\
  (exists A b h', system_in_memory h_vc_linear_inequality w_lp_mem w_lq_mem SenseGe [wz; wx; wy] w_lheap = (Ok (A, b), h')) /\
  (exists A b h', system_in_memory h_vc_linear_equality w_lp_mem w_lq_mem SenseEq [wz; wx; wy] w_lheap = (Ok (A, b), h')).
Proof. exact wit_system. Qed.

(** after x^2.LessEq(4), calling DerivativeWrt on x^2 lets the constraint accept x = 3 *)
Theorem C70_derivative_refuted : forall NN, NN = F64Num \/ NN = QNum -> forall RT : Runtime,
  exists (v : var) (h1 h2 : heap) (es1 es2 : list aexpr) (cs1 cs2 : list acon) (t1 t2 : list (res (outcome expr constraint))) (c : acon) (r : assignment),
  let l := [IExpr (JMono n1 [2]%Z [v]); ICompare 0 (OFloat (nofZ 4)) SenseLe] in
  session empty_heap [] [] l = ((h1, es1, cs1), t1) /\ session empty_heap [] [] (l ++ [IExpr (JDeriv 0 v)]) = ((h2, es2, cs2), t2) /\ nth_error cs1 0 = Some c /\
  ~ con_sat r (1, 1)%nat (rd_acon h1 c) /\ con_sat r (1, 1)%nat (rd_acon h2 c).
Proof. exact spoiled_refuted. Qed.
Print Assumptions C70_derivative_refuted.
