(** * What collecting like terms, sums, products and powers of expressions are, term by term *)

From Coq Require Import ZArith NArith Bool List.
From Verif Require Import Num Syntax Spec SpecEffect.
Import ListNotations.

Section SpecCollect.
Context {NN : Num}.
Local Open Scope num_scope.

Definition constant_term (m : Monomial) : bool := match m_vars m with [] => true | _ => false end.

(** the first term of each class of look-alike terms, in the order of the list *)
Fixpoint leaders (l : list Monomial) : list Monomial :=
  match l with
  | [] => []
  | m :: l' => m :: filter (fun x => negb (alike m x)) (leaders l')
  end.

(** the sum of the coefficients of the terms that look like [e] *)
Definition gathered (l : list Monomial) (e : Monomial) : num :=
  fold_right (fun x s => (if alike e x then m_coeff x else n0) + s) n0 l.

(** the list after collecting: the sum of the constants, then one term for each class of look-alike terms, written as its first member;
    zeros are left out, unless nothing else remains *)
Definition collect (l : list Monomial) : list Monomial :=
  let c := fold_right (fun m s => m_coeff m + s) n0 (filter constant_term l) in
  let l' := filter (fun m => negb (constant_term m)) l in
  let out := (if c =? n0 then [] else [mkMono c [] []])
             ++ filter (fun m => negb (m_coeff m =? n0)) (map (fun e => mkMono (gathered l' e) (m_exps e) (m_vars e)) (leaders l')) in
  match out with [] => [mkMono n0 [] []] | _ => out end.

(** the simplest type of expression that holds the terms *)
Definition narrowest (l : list Monomial) : scalar :=
  match l with
  | [m] =>
      match m_exps m, m_vars m with
      | [], [] => SK (m_coeff m)
      | [1%Z], [v] => if m_coeff m =? n1 then SV v else SM m
      | _, _ => SM m
      end
  | _ => SP l
  end.
Definition simplest (l : list Monomial) : scalar := narrowest (collect l).

(** the order in which a sum lists the terms of its operands: those of [a] first, except that a variable is appended to a monomial or a
    polynomial, and a monomial to a polynomial *)
Definition summed (a b : scalar) : list Monomial :=
  match a, b with
  | SV _, SM _ | SV _, SP _ | SM _, SP _ => terms b ++ terms a
  | _, _ => terms a ++ terms b
  end.

Definition times (l : list Monomial) (t : Monomial) : list Monomial := map (fun m => product_term m t) l.

(** the term of an expression with one term *)
Definition as_term (s : scalar) : Monomial :=
  match s with SK k => mkMono k [] [] | SV v => mkMono n1 [1%Z] [v] | SM m => m | SP _ => mkMono n0 [] [] end.

(** the product: two polynomials are multiplied by adding, term after term of the second, its multiple of the first;
    a product by a monomial without a polynomial or a variable on the left is not simplified *)
Definition multiplied (a b : scalar) : scalar :=
  match a, b with
  | SP p, SP q => fold_left (fun s t => simplest (summed s (simplest (times p t)))) q (SK n0)
  | SP p, _ => simplest (times p (as_term b))
  | _, SP p => simplest (times p (as_term a))
  | SM m, _ => SM (product_term m (as_term b))
  | SK _, SM m => SM (product_term m (as_term a))
  | SV _, SM m => simplest [product_term m (as_term a)]
  | _, _ => simplest [product_term (as_term a) (as_term b)]
  end.

(** all products of a term of [a] with a term of [b] *)
Definition expanded (a b : scalar) : list Monomial := flat_map (times (terms a)) (terms b).

(** the power: starting from 1, multiply by [a] on the right *)
Fixpoint powered (a : scalar) (n : nat) : scalar :=
  match n with O => SK n1 | S n' => multiplied (powered a n') a end.
Fixpoint expanded_power (a : scalar) (n : nat) : list Monomial :=
  match n with O => [mkMono n1 [] []] | S n' => expanded (SP (expanded_power a n')) a end.

(** the difference: the sum with the product by -1 *)
Definition subtracted (a b : scalar) : scalar := simplest (summed a (multiplied b (SK nm1))).

End SpecCollect.
