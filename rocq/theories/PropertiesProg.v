(** * Theorems: programs that call DerivativeWrt on any expression (C08, C43) *)

From Coq Require Import ZArith NArith Bool List.
From Verif Require Import Num Syntax ModelScalar Spec Witness ScalarWit ModelHeap SpecHeap SpecCopy SpecProgram HeapWit ProgramProofs ProgramWit.
Import ListNotations.

(** ** C43 after any program whatsoever, including calls of DerivativeWrt that spoil their receiver *)

(** the hypotheses of C43_call_partial hold after every program, and expressions share exponents only by sharing whole terms *)
Theorem C43_reachable : forall {NN : Num} {RT : Runtime} (l : list instr) (h : heap) (roots : list hscalar), history empty_heap [] l = (h, roots) ->
  all_legal h roots /\ separate h roots /\
  (forall s t m m', In s roots -> In t roots -> In m (monomials h s) -> In m' (monomials h t) -> share_exponents m m' -> h_exps m = h_exps m' /\ h_vars m = h_vars m').
Proof. exact @any_program. Qed.
Print Assumptions C43_reachable.
Example C43_reachable_nonvacuous (NN := QNum) (RT := doubling) : let (h, roots) := history empty_heap [] w_prog in
  length roots = 9%nat /\ exists s t m m', nth_error roots 4 = Some s /\ nth_error roots 5 = Some t /\ In m (monomials h s) /\ In m' (monomials h t) /\ share_exponents m m'.
Proof. exact wit_prog_shared. Qed.

Theorem C43_any_program : forall {NN : Num} {RT : Runtime} (l1 l2 : list instr) (h1 : heap) (roots1 : list hscalar) (h2 : heap) (roots2 : list hscalar),
  history empty_heap [] l1 = (h1, roots1) -> Forall not_derivative l2 -> history h1 roots1 l2 = (h2, roots2) ->
  (forall s, In s roots1 -> rd h2 s = rd h1 s) /\ map (rd h2) roots2 = history_values (map (rd h1) roots1) l2.
Proof. exact @any_calls. Qed.
Print Assumptions C43_any_program.
Example C43_any_program_nonvacuous (NN := QNum) : Forall not_derivative [IVar wx; IVar wy; IMul 0 1; IPlus 2 0; IPow 3 3; IMul 3 2; ISubst 3 wx 2; IMinus 4 6; ISimplify 4].
Proof. exact wit_no_derivative. Qed.

(** ** C08 the values of programs that call DerivativeWrt on any expression *)

(** Every expression that [program_values] does not give up has, at the end of the program, the value it has when the calls are read as functions on values.
    missing: programs that use an expression after DerivativeWrt was called on one with a term that looks the same and is not linear in the variable
    (C08_receiver_refuted, C08_other_refuted), and derivatives of polynomials with a repeated term (C08_repeated_refuted) *)
Theorem C08_programs_partial : forall {NN : Num} {RT : Runtime} (l : list instr) (h : heap) (roots : list hscalar) (vals : list (option scalar)),
  program_values [] l = Some vals -> history empty_heap [] l = (h, roots) -> Forall2 (fun s o => forall x, o = Some x -> rd h s = x) roots vals.
Proof. exact @program_correct. Qed.
Print Assumptions C08_programs_partial.
Example C08_programs_nonvacuous (NN := QNum) : exists vals, program_values [] w_prog = Some vals /\
  map (fun o => match o with Some _ => true | None => false end) vals = [true; true; true; true; false; false; true; true; true] /\
  nth_error vals 6 = Some (Some (SP [mkMono (nofZ 6) [1; 3]%Z [wx; wy]; mkMono (nofZ 18) [1; 2]%Z [wx; wy]; mkMono (nofZ 18) [1; 1]%Z [wx; wy]; mkMono (nofZ 6) [1]%Z [wx]])).
Proof. exact wit_prog. Qed.

(** nothing is given up by programs that do not differentiate nonlinear terms *)
Theorem C08_programs_linear : forall {NN : Num} (l : list instr) (vals : list scalar), harmless_history vals l ->
  program_values (map Some vals) l = Some (map Some (history_values vals l)).
Proof. exact @harmless_program. Qed.
Print Assumptions C08_programs_linear.
Example C08_programs_linear_nonvacuous (NN := QNum) : harmless_history [] w_calls /\ In (IDeriv 3 wx) w_calls.
Proof. exact wit_calls_derivative. Qed.

(** One call of DerivativeWrt after any program.
    missing: the expressions with a term that looks like a nonlinear term of the receiver, and receivers with a repeated term *)
Theorem C08_reached_partial : forall {NN : Num} {RT : Runtime} (l : list instr) (h : heap) (roots : list hscalar) (s : hscalar) (v : var),
  history empty_heap [] l = (h, roots) -> In s roots -> repeated v (monomials_of (rd h s)) = false ->
  exists r h', h_derivative s v h = (r, h') /\ as_value h' r = scalar_derivative (rd h s) v /\
    forall t, In t roots -> endangered v (rd h s) (rd h t) = false -> rd h' t = rd h t.
Proof. exact @any_derivative. Qed.
Print Assumptions C08_reached_partial.
Example C08_reached_nonvacuous (NN := QNum) : exists s, nth_error (history_values [] (firstn 5 w_prog)) 4 = Some s /\ repeated wx (monomials_of s) = false /\
  existsb (nonlinear wx) (monomials_of s) = true /\ map (endangered wx s) (history_values [] (firstn 5 w_prog)) = [false; false; false; false; true].
Proof. exact wit_prog_cube. Qed.
