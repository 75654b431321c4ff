(** * Specification: conversions, constants, and expressions as functions

    Nothing in this file refers to the model's functions, only to its data types. *)

From Coq Require Import ZArith NArith Bool List Permutation.
From Verif Require Import Num Syntax Spec SpecArr.
Import ListNotations.
Local Open Scope num_scope.

Section SpecConv.
Context {NN : Num}.

(** [e'] has the dimensions and, entry by entry, the terms of [e] *)
Definition converted (d : nat * nat) (e e' : expr) : Prop :=
  valid_array d e' /\ forall i j, i < fst d -> j < snd d -> terms (entry e' i j) = terms (entry e i j).

(** the entries of [e'] are the rates of change of those of [e], each a function of degree at most one of the variable [x] *)
Definition rates (d : nat * nat) (x : N) (e e' : expr) : Prop :=
  forall r t i j, i < fst d -> j < snd d -> value (update r x t) e i j = value r e i j + value r e' i j * (t - r x).

(** the derivative of an array of constants and variables: 1 where [e] has the variable [x], 0 elsewhere *)
Definition unit_array (d : nat * nat) (x : var) (e e' : expr) : Prop :=
  valid_array d e' /\ (forall i j, i < fst d -> j < snd d ->
    (forall k, entry e i j = SK k -> entry e' i j = SK n0)
    /\ forall v, entry e i j = SV v -> (v_id v = v_id x -> entry e' i j = SK n1) /\ (v_id v <> v_id x -> entry e' i j = SK n0)).

(** ** New variables *)

(** bounds -1e100 and 1e100 (constant.go:17), type 'C' *)
Definition is_continuous (v : var) : Prop := v_lower v = nofZ (- 10 ^ 100) /\ v_upper v = nofZ (10 ^ 100) /\ v_type v = 67%N.
(** bounds 0 and 1, type 'B' *)
Definition is_binary (v : var) : Prop := v_lower v = n0 /\ v_upper v = n1 /\ v_type v = 66%N.
(** the environment asked for by the optional arguments; 0 is the default environment *)
Definition asked (envs : list N) (e : N) : Prop := (envs = [] /\ e = 0%N) \/ envs = [e].

(** ** Operands *)
Definition is_int (g : goval) : Prop := match g with GInt _ => True | _ => False end.
Definition is_pointer (g : goval) : Prop := match g with GVecP _ | GDenseP _ => True | _ => False end.

(** ** Functions *)

(** the value is the same at every assignment *)
Definition constant_function (s : scalar) : Prop := forall r r', eval r s = eval r' s.

(** the same value at every assignment *)
Definition same_function (s t : scalar) : Prop := forall r, eval r s = eval r t.

(** no two terms denote the same product of powers *)
Definition different_powers (s : scalar) : Prop :=
  forall l1 m1 l2 m2 l3, terms s = l1 ++ m1 :: l2 ++ m2 :: l3 -> ~ same_powers m1 m2.

(** terms that denote the same product of powers look alike, unlike [x y^2] and [y^2 x] *)
Definition uniquely_listed (P : Monomial -> Prop) : Prop :=
  forall m1 m2, P m1 -> P m2 -> same_powers m1 m2 -> look_alike m1 m2.

(** both lists contain the same multiples of the same products of powers, possibly in another order and with the factors listed in
    another order *)
Definition same_multiples (l1 l2 : list Monomial) : Prop :=
  exists l, Permutation l l2 /\ Forall2 (fun m m' => m_coeff m = m_coeff m' /\ same_powers m m') l1 l.

(** the sum of the coefficients of the terms with the powers of [m] *)
Definition powers_eqb (m1 m2 : Monomial) : bool :=
  forallb (fun i => Z.eqb (exponent m1 i) (exponent m2 i)) (ids m1 ++ ids m2).
Fixpoint coefficient_in (m : Monomial) (p : list Monomial) : num :=
  match p with
  | [] => n0
  | t :: p' => if powers_eqb t m then m_coeff t + coefficient_in m p' else coefficient_in m p'
  end.
Definition coefficient (m : Monomial) (s : scalar) : num := coefficient_in m (terms s).

End SpecConv.
