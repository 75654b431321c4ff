(** * What collecting like terms does to every expression: the leader of a class of look-alike terms takes it over *)

From Coq Require Import ZArith NArith Bool List.
From Verif Require Import Num Syntax Spec.
Import ListNotations.

Section SpecEffect.
Context {NN : Num}.
Local Open Scope num_scope.

(** [Spec.look_alike] as a test: the same list of exponents, and the same variables in some order *)
Definition alike (m1 m2 : Monomial) : bool :=
  (if list_eq_dec Z.eq_dec (m_exps m1) (m_exps m2) then true else false)
  && Nat.eqb (length (m_vars m1)) (length (m_vars m2))
  && forallb (fun i => existsb (N.eqb i) (ids m2)) (ids m1).

(** the first term of the list that looks like [m] *)
Fixpoint leader (l : list Monomial) (m : Monomial) : Monomial :=
  match l with
  | [] => m
  | e :: l' => if alike e m then e else leader l' m
  end.

(** every term keeps its coefficient, but is read with the variables and exponents of the first term that looks like it:
    [x^2 y + 5 y^2 x] becomes [x^2 y + 5 x^2 y] *)
Definition regroup (l : list Monomial) : list Monomial :=
  map (fun m => mkMono (m_coeff m) (m_exps (leader l m)) (m_vars (leader l m))) l.

(** the order in which a sum lists the terms of its operands: those of [a] first, except that a monomial is appended to a polynomial *)
Definition listed_sum (a b : scalar) : list Monomial :=
  match a, b with
  | SM _, SP _ => terms b ++ terms a
  | _, _ => terms a ++ terms b
  end.

(** the expression with the sign of every coefficient changed *)
Definition negated (b : scalar) : scalar :=
  SP (map (fun m => mkMono (- m_coeff m) (m_exps m) (m_vars m)) (terms b)).

(** the terms of [a - b] in the order of [listed_sum] *)
Definition listed_difference (a b : scalar) : list Monomial :=
  match a, b with
  | SM _, SP _ => terms (negated b) ++ terms a
  | _, _ => terms a ++ terms (negated b)
  end.

(** the product of two terms, listed as the library lists it: the variables of [m1], then those of [m2] that are not among them *)
Definition product_term (m1 m2 : Monomial) : Monomial :=
  let vs := m_vars m1 ++ filter (fun v => negb (existsb (N.eqb (v_id v)) (ids m1))) (m_vars m2) in
  mkMono (m_coeff m1 * m_coeff m2) (map (fun v => (exponent m1 (v_id v) + exponent m2 (v_id v))%Z) vs) vs.

End SpecEffect.
