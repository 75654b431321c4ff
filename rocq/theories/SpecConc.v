(** * Specification: calls of several goroutines on shared expressions *)

From Coq Require Import ZArith NArith Bool List.
From Verif Require Import Num Syntax ModelScalar ModelHeap SpecHeap ModelConc.
Import ListNotations.

Section SpecConc.
Context {NN : Num}.

(** no append to the variables of a monomial of these expressions stays in the same array *)
Definition no_spare_variables (h : heap) (roots : list hscalar) : Prop :=
  forall s m, In s roots -> In m (monomials h s) -> s_cap (h_vars m) = s_len (h_vars m).

(** calls that multiply no monomial by a monomial: literals, Plus, Minus, AsSimplifiedExpression *)
Definition additive (i : instr) : Prop := match i with IMul _ _ | IPow _ _ | ISubst _ _ _ | IDeriv _ _ => False | _ => True end.

(** goroutine [t] has returned [r] *)
Definition finished (c : cconfig) (t : nat) (r : res (list hscalar)) : Prop := nth_error (snd c) t = Some (Done r).
(** how often [t] is scheduled *)
Definition turns (schedule : list nat) (t : nat) : nat := count_occ Nat.eq_dec schedule t.

End SpecConc.
