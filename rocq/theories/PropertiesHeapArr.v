(** * C69: calls on vectors and matrices, with memory *)

From Coq Require Import ZArith NArith Bool List.
From Verif Require Import Num Syntax ModelScalar ModelShape ModelArith Spec SpecArr SpecAProg ModelAProg Witness ScalarWit ModelHeap SpecHeap ModelHeapArr SpecHeapArr HeapWit HeapArrProofs HeapArrWit.
Import ListNotations.
Local Open Scope num_scope.

(** ** C69 Calls on scalars, vectors and matrices leave every expression in use unchanged, and return what they return without memory *)

(** any sequence of calls other than DerivativeWrt: everything made earlier keeps its value, and every result is that of the functions on values *)
Theorem C69_arithmetic : forall {NN : Num} {RT : Runtime} (l1 l2 : list ainstr) (h1 : heap) (roots1 : list aexpr) (h2 : heap) (roots2 : list aexpr),
  Forall no_derivative_call (l1 ++ l2) -> ahistory empty_heap [] l1 = (h1, roots1) -> ahistory empty_heap [] (l1 ++ l2) = (h2, roots2) ->
  (forall e, In e roots1 -> rd_aexpr h2 e = rd_aexpr h1 e) /\ map (rd_aexpr h2) roots2 = ahistory_values [] (l1 ++ l2).
Proof. exact @array_arithmetic_keeps. Qed.
Print Assumptions C69_arithmetic.
Example C69_arithmetic_nonvacuous (NN := QNum) : Forall no_derivative_call (firstn 14 w_acalls).
Proof. exact wit_plain. Qed.

(** ... with DerivativeWrt of scalars.
    missing: receivers in which the variable has an exponent other than 1 (C69_sum_refuted, C69_transpose_refuted), and DerivativeWrt of vectors and matrices (C08, C10) *)
Theorem C69_history_values_partial : forall {NN : Num} {RT : Runtime} (l : list ainstr) (h : heap) (roots : list aexpr),
  aharmless_history [] l -> ahistory empty_heap [] l = (h, roots) -> map (rd_aexpr h) roots = ahistory_values [] l.
Proof. exact @array_history_correct. Qed.
Print Assumptions C69_history_values_partial.
Example C69_history_nonvacuous (NN := QNum) : aharmless_history [] w_acalls.
Proof. exact wit_acalls. Qed.
Example C69_history_length (NN := QNum) : length (ahistory_values [] w_acalls) = 21%nat /\ In (JDeriv 13 wx) w_acalls.
Proof. exact wit_acalls_number. Qed.

(** missing: as above *)
Theorem C69_history_kept_partial : forall {NN : Num} {RT : Runtime} (l1 l2 : list ainstr) (h1 : heap) (roots1 : list aexpr) (h2 : heap) (roots2 : list aexpr),
  aharmless_history [] (l1 ++ l2) -> ahistory empty_heap [] l1 = (h1, roots1) -> ahistory empty_heap [] (l1 ++ l2) = (h2, roots2) ->
  forall e, In e roots1 -> rd_aexpr h2 e = rd_aexpr h1 e.
Proof. exact @array_history_kept. Qed.
Print Assumptions C69_history_kept_partial.

(** one call on any heap: nothing in use changes, the result or the panic is that of the call on values, and the heap stays one to which this applies.
    missing: as above, and heaps in which unused capacity of one entry overlaps the variables of another (C43_overlap_refuted) *)
Theorem C69_call_partial : forall {NN : Num} {RT : Runtime} (h : heap) (roots : list aexpr) (i : ainstr) (r : res aexpr) (h' : heap),
  all_legal_arrays h roots -> separate_arrays h roots -> aharmless (map (rd_aexpr h) roots) i -> aexec roots i h = (r, h') ->
  (forall e, In e roots -> rd_aexpr h' e = rd_aexpr h e)
  /\ as_array_value h' r = aexec_value (map (rd_aexpr h) roots) i
  /\ (let roots' := match r with Ok t => roots ++ [t] | Panic _ => roots end in all_legal_arrays h' roots' /\ separate_arrays h' roots').
Proof. exact @acall_spec. Qed.
Print Assumptions C69_call_partial.
Example C69_call_nonvacuous (NN := QNum) (RT := doubling) : all_legal_arrays w_aheap w_aroots /\ separate_arrays w_aheap w_aroots /\
  aharmless (map (rd_aexpr w_aheap) w_aroots) (JMultiply 4 (OResult 8)).
Proof. exact wit_acall. Qed.

(** a nested program: no operand changes, and the result is that of the same program on the values of its operands.
    missing: heaps with overlapping capacity *)
Theorem C69_program_partial : forall {NN : Num} {RT : Runtime} (h : heap) (roots : list aexpr) (p : mprog) (r : res aexpr) (h' : heap),
  all_legal_arrays h roots -> separate_arrays h roots -> leaves_in roots p -> run_in_memory p h = (r, h') ->
  (forall e, In e roots -> rd_aexpr h' e = rd_aexpr h e)
  /\ as_array_value h' r = arun (program_of h p)
  /\ (let roots' := match r with Ok t => roots ++ [t] | Panic _ => roots end in all_legal_arrays h' roots' /\ separate_arrays h' roots').
Proof. exact @program_in_memory. Qed.
Print Assumptions C69_program_partial.
Example C69_program_nonvacuous (NN := QNum) (RT := doubling) : all_legal_arrays w_aheap w_aroots /\ separate_arrays w_aheap w_aroots /\ leaves_in w_aroots w_mprog /\
  proper_leaves (program_of w_aheap w_mprog) /\ (adegree (program_of w_aheap w_mprog) <= 2)%Z /\ exists e h', run_in_memory w_mprog w_aheap = (Ok e, h').
Proof. exact wit_mprog. Qed.

(** ... so a program of degree two, run in memory, has the values of matrix algebra, and its operands still have theirs.
    missing: programs of higher degree, for which the values are wrong (C63_value_refuted) *)
Theorem C69_program_value_partial : forall {NN : Num} {RT : Runtime} (h : heap) (roots : list aexpr) (p : mprog) (e : aexpr) (h' : heap), ExactNum NN ->
  all_legal_arrays h roots -> separate_arrays h roots -> leaves_in roots p -> proper_leaves (program_of h p) -> (adegree (program_of h p) <= 2)%Z ->
  run_in_memory p h = (Ok e, h') ->
  (forall o, In o roots -> rd_aexpr h' o = rd_aexpr h o) /\
  forall r i j, (i < fst (dims_of (program_of h p)))%nat -> (j < snd (dims_of (program_of h p)))%nat -> value r (rd_aexpr h' e) i j = meaning r (program_of h p) i j.
Proof. exact @program_value_in_memory. Qed.
Print Assumptions C69_program_value_partial.
Example C69_program_value_nonvacuous (NN := QNum) (RT := doubling) : all_legal_arrays w_aheap w_aroots /\ separate_arrays w_aheap w_aroots /\ leaves_in w_aroots w_mprog /\
  proper_leaves (program_of w_aheap w_mprog) /\ (adegree (program_of w_aheap w_mprog) <= 2)%Z /\ exists e h', run_in_memory w_mprog w_aheap = (Ok e, h').
Proof. exact wit_mprog. Qed.

(** M.Plus(1).At(0,0).DerivativeWrt(x) changes M, a matrix of monomials x^2 *)
Theorem C69_sum_refuted : forall NN, NN = F64Num \/ NN = QNum -> exists (RT : Runtime) (v : var) (h1 h2 : heap) (roots1 roots2 : list aexpr) (e : aexpr) (r : assignment),
  let l := [JMono n1 [2]%Z [v]; JMMatrix [[0; 0]; [0; 0]]%nat; JPlus 1 (OFloat n1); JAt 2 0 0] in
  ahistory empty_heap [] l = (h1, roots1) /\ ahistory empty_heap [] (l ++ [JDeriv 3 v]) = (h2, roots2) /\ length roots2 = S (length roots1) /\ nth_error roots1 1 = Some e /\
  valid_array (2, 2)%nat (rd_aexpr h1 e) /\ value r (rd_aexpr h2 e) 0 0 =? value r (rd_aexpr h1 e) 0 0 = false.
Proof. exact sum_entry_refuted. Qed.
Print Assumptions C69_sum_refuted.

(** M.Transpose().At(0,1).DerivativeWrt(x) changes M *)
Theorem C69_transpose_refuted : forall NN, NN = F64Num \/ NN = QNum -> forall RT : Runtime,
  exists (v : var) (h1 h2 : heap) (roots1 roots2 : list aexpr) (e : aexpr) (r : assignment),
  let l := [JMono n1 [2]%Z [v]; JMMatrix [[0; 0]; [0; 0]]%nat; JTranspose 1; JAt 2 0 1] in
  ahistory empty_heap [] l = (h1, roots1) /\ ahistory empty_heap [] (l ++ [JDeriv 3 v]) = (h2, roots2) /\ length roots2 = S (length roots1) /\ nth_error roots1 1 = Some e /\
  valid_array (2, 2)%nat (rd_aexpr h1 e) /\ value r (rd_aexpr h2 e) 0 0 =? value r (rd_aexpr h1 e) 0 0 = false.
Proof. exact transposed_entry_refuted. Qed.
Print Assumptions C69_transpose_refuted.
