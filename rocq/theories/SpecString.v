(** * Specification: faithful printing *)

From Coq Require Import ZArith NArith Bool List Ascii String DecimalString.
From Verif Require Import Num Syntax Spec SpecArr.
Import ListNotations.
Local Open Scope num_scope.

(** the characters that separate the parts of a printed expression *)
Definition separator (c : ascii) : Prop := In c [" "; ","; "["; "]"; "x"; "P"; "M"; "V"]%char \/ c = ascii_of_nat 10.

Section SpecString.
Context {NN : Num}.

(** different numbers are printed differently, with at least one character and without separators; strconv prints a float64 with the
    fewest digits that identify it *)
Definition identifies (fmt : num -> string) : Prop :=
  (forall a b, fmt a = fmt b -> a = b) /\ forall a, fmt a <> EmptyString /\ forall c, In c (list_ascii_of_string (fmt a)) -> ~ separator c.

(** the name the library gives to the variable with this ID: "x_" and the ID in decimal *)
Definition default_name (v : var) : Prop := v_name v = String.append "x_" (NilEmpty.string_of_uint (Nat.to_uint (N.to_nat (v_id v)))).
Definition default_names (s : scalar) : Prop := forall m v, In m (terms s) -> In v (m_vars m) -> default_name v.

(** the same coefficients, variables and exponents in the same order *)
Definition same_term (m m' : Monomial) : Prop := m_coeff m = m_coeff m' /\ m_exps m = m_exps m' /\ ids m = ids m'.
Definition same_printed (s t : scalar) : Prop := Forall2 same_term (terms s) (terms t).

(** no coefficient after the first is the negative zero of the floating-point numbers; in exact arithmetic there is none *)
Definition no_negative_zero (s : scalar) : Prop := forall m, In m (tl (terms s)) -> m_coeff m = - n0 -> m_coeff m = n0.
Definition array_no_negative_zero (d : nat * nat) (e : expr) : Prop := forall i j, i < fst d -> j < snd d -> no_negative_zero (entry e i j).

Definition array_names (d : nat * nat) (e : expr) : Prop := forall i j, i < fst d -> j < snd d -> default_names (entry e i j).

(** the number of occurrences of a character *)
Definition occurrences (c : ascii) (s : string) : nat := count_occ ascii_dec (list_ascii_of_string s) c.

End SpecString.
