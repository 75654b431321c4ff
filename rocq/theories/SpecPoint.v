(** * Sums of vectors and matrices, entry by entry *)

From Coq Require Import ZArith NArith Bool List.
From Verif Require Import Num Syntax ModelScalar Spec SpecArr SpecEffectArr SpecRound.
Import ListNotations.

Section SpecPoint.
Context {NN : Num}.
Local Open Scope num_scope.

(** the same terms in the same order; the constants 0 and -0 are not told apart *)
Definition same_terms (s t : scalar) : Prop :=
  terms s = terms t \/ exists c d, terms s = [mkMono c [] []] /\ terms t = [mkMono d [] []] /\ (c =? n0) = true /\ (d =? n0) = true.

(** the sum of the entries at (i,j).  A constant and a variable let the array do the addition. *)
Definition sum_of_entries (a b : expr) (i j : nat) : res scalar :=
  match a, b with
  | ES (SK _), EV _ | ES (SK _), EM _ | ES (SV _), EV _ | ES (SV _), EM _ => scalar_plus (bentry b i j) (bentry a i j)
  | _, _ => scalar_plus (bentry a i j) (bentry b i j)
  end.

End SpecPoint.

(** a number added to an array is a float64 value *)
Definition number64 (e : @expr F64Num) : Prop := match e with ES (SK f) => float64 f | _ => True end.

(** the differences in which the library may leave like terms as they are: those computed by a MonomialMatrix *)
Definition list_differences {NN : Num} (a b : expr) : bool :=
  match a, b with
  | EM (MM _), _ => true
  | ES (SK _), EM (MK _) => false
  | ES (SK _), EM _ => true
  | _, _ => false
  end.
