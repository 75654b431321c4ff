(** * Specification: what the methods other than arithmetic do with expressions that fail Check *)

From Coq Require Import ZArith NArith Bool List.
From Verif Require Import Num Syntax ModelScalar ModelShape Spec SpecArr.
Import ListNotations.

Section SpecReject.
Context {NN : Num}.

(** a Variable, VariableVector or VariableMatrix *)
Definition of_variables (e : expr) : bool := match e with ES (SV _) | EV (VV _) | EM (MV _) => true | _ => false end.
(** a K, KVector or KMatrix *)
Definition of_constants (e : expr) : bool := match e with ES (SK _) | EV (VK _) | EM (MK _) => true | _ => false end.
(** a map with a key that fails Check, or a value that fails Check or is not a scalar *)
Definition faulty_map (sm : list (var * expr)) : Prop :=
  exists x v, In (x, v) sm /\ (var_check x = false \/ match v with ES s => scalar_check s = false | _ => True end).
(** the argument, if it stands for an expression, is valid and has suitable dimensions *)
Definition fits (suit : nat * nat -> nat * nat -> Prop) (da : nat * nat) (g : goval) : Prop :=
  forall b, means g = Some b -> exists db, valid_array db b /\ (suit da db \/ da = (1, 1)%nat \/ db = (1, 1)%nat).

(** what Check asks for: the bounds of a variable are in order, a term has one exponent for each variable, a polynomial has terms; vectors
    other than of variables or constants have entries; the rows of a matrix are of one length; nothing is asked of constants *)
Definition good_var (x : var) : Prop := nleb (v_upper x) (v_lower x) = false.
Definition good_term (m : Monomial) : Prop := length (m_exps m) = length (m_vars m).
Definition good_poly (p : Polynomial) : Prop := p <> [] /\ Forall good_term p.
Definition good_rows {A} (good : A -> Prop) (l : list (list A)) : Prop :=
  l <> [] /\ (forall r r', In r l -> In r' l -> length r = length r') /\ forall r a, In r l -> In a r -> good a.
Definition well_formed (e : expr) : Prop :=
  match e with
  | ES (SK _) | EV (VK _) | EM (MK _) => True
  | ES (SV x) => good_var x
  | ES (SM m) => good_term m
  | ES (SP p) => good_poly p
  | EV (VV l) => Forall good_var l
  | EV (VM l) => l <> [] /\ Forall good_term l
  | EV (VP l) => l <> [] /\ Forall good_poly l
  | EM (MV l) => good_rows good_var l
  | EM (MM l) => good_rows good_term l
  | EM (MP l) => good_rows good_poly l
  end.

End SpecReject.
