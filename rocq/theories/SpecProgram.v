(** * Specification: programs that may call DerivativeWrt on any expression

    What a caller has to know about the values alone, without looking at the memory: after DerivativeWrt some expressions are given up,
    the others keep their value. *)

From Coq Require Import ZArith NArith Bool List.
From Verif Require Import Num Syntax ModelScalar Spec ModelHeap SpecHeap.
Import ListNotations.

Section SpecProgram.
Context {NN : Num}.

(** the terms of a monomial or polynomial *)
Definition monomials_of (s : scalar) : list Monomial := match s with SM m => [m] | SP p => p | _ => [] end.
(** same variables in the same order, same exponents; the coefficients may differ *)
Definition look_alike (m m' : Monomial) : bool :=
  (if list_eq_dec N.eq_dec (map v_id (m_vars m)) (map v_id (m_vars m')) then true else false) &&
  (if list_eq_dec Z.eq_dec (m_exps m) (m_exps m') then true else false).
(** [v] occurs with an exponent other than 1 *)
Definition nonlinear (v : var) (m : Monomial) : bool :=
  existsb (fun ue => same_id (fst ue) v && negb (Z.eqb (snd ue) 1)) (combine (m_vars m) (m_exps m)).
(** a term of [t] looks like a term of [s] that is not linear in [v] *)
Definition endangered (v : var) (s t : scalar) : bool :=
  existsb (fun m => existsb (fun m' => nonlinear v m' && look_alike m m') (monomials_of s)) (monomials_of t).
(** two of the terms look alike and are not linear in [v] *)
Fixpoint repeated (v : var) (l : list Monomial) : bool :=
  match l with [] => false | m :: l' => (nonlinear v m && existsb (look_alike m) l') || repeated v l' end.

(** the operands of a call *)
Definition operands (i : instr) : list nat :=
  match i with
  | IConst _ | IVar _ | IMono _ _ _ => []
  | IPoly ms => ms
  | IPlus i j | IMinus i j | IMul i j | ISubst i _ j => [i; j]
  | IPow i _ | ISimplify i | IDeriv i _ => [i]
  end.
(** [None]: an expression that was given up *)
Definition given_up (vals : list (option scalar)) (k : nat) : bool := match nth_error vals k with Some None => true | _ => false end.
Definition recall (vals : list (option scalar)) : list scalar := map (fun o => match o with Some s => s | None => SK n0 end) vals.
Definition give_up (v : var) (s : scalar) (o : option scalar) : option scalar :=
  match o with Some t => if endangered v s t then None else Some t | None => None end.
(** the expressions still known after a call *)
Definition keep (vals : list (option scalar)) (i : instr) : list (option scalar) :=
  match i with
  | IDeriv k v => match nth_error vals k with Some (Some s) => map (give_up v s) vals | _ => vals end
  | _ => vals
  end.
(** the call uses no expression that was given up, and differentiates no polynomial in which a nonlinear term is repeated *)
Definition careful (vals : list (option scalar)) (i : instr) : bool :=
  negb (existsb (given_up vals) (operands i)) &&
  match i with
  | IDeriv k v => match nth_error vals k with Some (Some s) => negb (repeated v (monomials_of s)) | _ => true end
  | _ => true
  end.
(** the values of a program, or [None] if it is not careful *)
Fixpoint program_values (vals : list (option scalar)) (l : list instr) : option (list (option scalar)) :=
  match l with
  | [] => Some vals
  | i :: l' =>
      if careful vals i then
        program_values (match exec_value (recall vals) i with Ok t => keep vals i ++ [Some t] | Panic _ => keep vals i end) l'
      else None
  end.

End SpecProgram.
