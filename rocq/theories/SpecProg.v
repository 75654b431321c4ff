(** * Specification: programs that build scalar expressions, and the value they should have *)

From Coq Require Import ZArith NArith Bool List.
From Verif Require Import Num Syntax Spec.
Import ListNotations.
Local Open Scope num_scope.

Section SpecProg.
Context {NN : Num}.

(** An expression built from constants and variables by method calls *)
Inductive prog :=
| PConst (k : num)
| PVar (v : var)
| PPlus (a b : prog)
| PMinus (a b : prog)
| PMul (a b : prog)
| PPow (a : prog) (n : Z)
| PSimplify (a : prog)
| PDeriv (a : prog) (v : var)
| PSubst (a : prog) (v : var) (e : prog).

(** variables have ordered bounds, exponents are not negative *)
Fixpoint well_formed (p : prog) : Prop :=
  match p with
  | PConst _ => True
  | PVar v => valid_var v
  | PPlus a b | PMinus a b | PMul a b => well_formed a /\ well_formed b
  | PPow a n => well_formed a /\ (0 <= n)%Z
  | PSimplify a => well_formed a
  | PDeriv a v => well_formed a /\ valid_var v
  | PSubst a v e => well_formed a /\ valid_var v /\ well_formed e
  end.

(** only constants, variables, Plus, Minus, Multiply, Power, AsSimplifiedExpression *)
Fixpoint arithmetic (p : prog) : Prop :=
  match p with
  | PConst _ | PVar _ => True
  | PPlus a b | PMinus a b | PMul a b => arithmetic a /\ arithmetic b
  | PPow a _ => arithmetic a
  | PSimplify a => arithmetic a
  | PDeriv _ _ | PSubst _ _ _ => False
  end.

(** the program never calls DerivativeWrt *)
Fixpoint no_derivative (p : prog) : Prop :=
  match p with
  | PConst _ | PVar _ => True
  | PPlus a b | PMinus a b | PMul a b | PSubst a _ b => no_derivative a /\ no_derivative b
  | PPow a _ | PSimplify a => no_derivative a
  | PDeriv _ _ => False
  end.

(** the number an arithmetic program denotes *)
Fixpoint denote (r : assignment) (p : prog) : num :=
  match p with
  | PConst k => k
  | PVar v => r (v_id v)
  | PPlus a b => denote r a + denote r b
  | PMinus a b => denote r a - denote r b
  | PMul a b => denote r a * denote r b
  | PPow a n => npow (denote r a) (Z.to_nat n)
  | PSimplify a => denote r a
  | PDeriv a _ => denote r a
  | PSubst a v e => denote (update r (v_id v) (denote r e)) a
  end.

(** the degree one reads off the program text *)
Fixpoint text_degree (p : prog) : Z :=
  match p with
  | PConst _ => 0
  | PVar _ => 1
  | PPlus a b | PMinus a b => Z.max (text_degree a) (text_degree b)
  | PMul a b => text_degree a + text_degree b
  | PPow a n => n * text_degree a
  | PSimplify a => text_degree a
  | PDeriv a _ => text_degree a
  | PSubst a _ e => text_degree a * Z.max 1 (text_degree e)
  end.

(** every subprogram has degree at most [d] *)
Fixpoint degree_bounded (d : Z) (p : prog) : Prop :=
  (text_degree p <= d)%Z /\
  match p with
  | PConst _ | PVar _ => True
  | PPlus a b | PMinus a b | PMul a b | PSubst a _ b => degree_bounded d a /\ degree_bounded d b
  | PPow a _ | PSimplify a | PDeriv a _ => degree_bounded d a
  end.

(** all variables of the program have the ID [x] *)
Fixpoint mentions_only (x : N) (p : prog) : Prop :=
  match p with
  | PConst _ => True
  | PVar v => v_id v = x
  | PPlus a b | PMinus a b | PMul a b => mentions_only x a /\ mentions_only x b
  | PPow a _ | PSimplify a => mentions_only x a
  | PDeriv a v => mentions_only x a /\ v_id v = x
  | PSubst a v e => mentions_only x a /\ v_id v = x /\ mentions_only x e
  end.

End SpecProg.
