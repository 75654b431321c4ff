(** * Specification: copies of expressions in memory *)

From Coq Require Import ZArith NArith Bool List.
From Verif Require Import Num Syntax ModelScalar Spec ModelHeap SpecHeap.
Import ListNotations.

Section SpecCopy.
Context {NN : Num}.

(** [m'] differs from [m] at most in the elements and the unused capacity of the slice *)
Definition same_outside {A} (s : slice) (m m' : mem A) : Prop :=
  forall a j, ~ elements s a j -> ~ unused s a j -> nth_error (cells m' a) j = nth_error (cells m a) j.
(** after any number of assignments to m.Exponents[i] and m.VariableFactors[i] and appends to the two slices *)
Definition written_through (h h' : heap) (m : hmono) : Prop :=
  same_outside (h_exps m) (hi h) (hi h') /\ same_outside (h_vars m) (hv h) (hv h') /\ hm h' = hm h /\ hp h' = hp h.
(** after any number of assignments to p.Monomials[i] and appends to the slice *)
Definition terms_replaced (h h' : heap) (p : slice) : Prop :=
  same_outside p (hm h) (hm h') /\ hi h' = hi h /\ hv h' = hv h /\ hp h' = hp h.

(** ** DerivativeWrt *)

(** the two monomials have a cell of an exponent array in common *)
Definition share_exponents (m m' : hmono) : Prop := exists a j, elements (h_exps m) a j /\ elements (h_exps m') a j.
(** no term in which [v] has an exponent other than 1 shares exponents with another term of the expression *)
Definition own_exponents (h : heap) (v : var) (s : hscalar) : Prop :=
  forall i j m m', i <> j -> nth_error (monomials h s) i = Some m -> nth_error (monomials h s) j = Some m' ->
    ~ at_most_linear_in v (SM (rd_mono h m')) -> ~ share_exponents m m'.
(** ... or with a term of [t] *)
Definition out_of_reach (h : heap) (v : var) (s t : hscalar) : Prop :=
  forall m m', In m (monomials h t) -> In m' (monomials h s) -> ~ at_most_linear_in v (SM (rd_mono h m')) -> ~ share_exponents m m'.
(** the expression with every exponent of [v] other than 1 lowered by 1 *)
Definition lowered (v : var) (m : Monomial) : Monomial :=
  mkMono (m_coeff m) (map (fun ue => if same_id (fst ue) v && negb (Z.eqb (snd ue) 1) then (snd ue - 1)%Z else snd ue) (combine (m_vars m) (m_exps m))) (m_vars m).
Definition lowered_scalar (v : var) (s : scalar) : scalar :=
  match s with SM m => SM (lowered v m) | SP p => SP (map (lowered v) p) | _ => s end.

(** the expressions share no exponents at all *)
Definition no_shared_exponents (h : heap) (s t : hscalar) : Prop :=
  forall m m', In m (monomials h t) -> In m' (monomials h s) -> ~ share_exponents m m'.
(** s.DerivativeWrt(v1).DerivativeWrt(v2)... in memory and on values *)
Fixpoint h_derivatives {RT : Runtime} (s : hscalar) (vs : list var) : M hscalar :=
  match vs with [] => ret s | v :: vs' => d <~ h_derivative s v ;; h_derivatives d vs' end.
Fixpoint derivatives (s : scalar) (vs : list var) : res scalar :=
  match vs with [] => Ok s | v :: vs' => d <- scalar_derivative s v ;; derivatives d vs' end.

End SpecCopy.
