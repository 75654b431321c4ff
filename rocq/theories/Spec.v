(** * Specification: what scalar expressions and constraints mean

    Nothing in this file refers to the model's functions, only to its data types. *)

From Coq Require Import ZArith NArith Bool List Sorted Permutation.
From Verif Require Import Num Syntax.
Import ListNotations.
Local Open Scope num_scope.

Section Spec.
Context {NN : Num}.

(** ** Values *)

(** An assignment gives every variable ID a number *)
Definition assignment := N -> num.

(** [r] with variable [i] reassigned to [x] *)
Definition update (r : assignment) (i : N) (x : num) : assignment :=
  fun j => if N.eqb j i then x else r j.

(** x^n by repeated multiplication *)
Fixpoint npow (x : num) (n : nat) : num :=
  match n with O => n1 | S n' => x * npow x n' end.

(** product of the factors v^e *)
Fixpoint eval_factors (r : assignment) (vs : list var) (es : list Z) : num :=
  match vs, es with
  | v :: vs', e :: es' => npow (r (v_id v)) (Z.to_nat e) * eval_factors r vs' es'
  | _, _ => n1
  end.

Definition eval_mono (r : assignment) (m : Monomial) : num :=
  m_coeff m * eval_factors r (m_vars m) (m_exps m).

Fixpoint eval_poly (r : assignment) (p : list Monomial) : num :=
  match p with [] => n0 | m :: p' => eval_mono r m + eval_poly r p' end.

Definition eval (r : assignment) (s : scalar) : num :=
  match s with
  | SK k => k
  | SV v => r (v_id v)
  | SM m => eval_mono r m
  | SP p => eval_poly r p
  end.

(** ** Validity *)

(** The bounds of a variable are ordered: not Lower >= Upper *)
Definition valid_var (v : var) : Prop := nleb (v_upper v) (v_lower v) = false.

(** A term lists pairwise different, valid variables, each with a positive exponent *)
Definition valid_mono (m : Monomial) : Prop :=
  length (m_exps m) = length (m_vars m)
  /\ Forall (fun e => (1 <= e)%Z) (m_exps m)
  /\ NoDup (map v_id (m_vars m))
  /\ Forall valid_var (m_vars m).

Definition valid_poly (p : list Monomial) : Prop := p <> [] /\ Forall valid_mono p.

Definition valid (s : scalar) : Prop :=
  match s with
  | SK _ => True
  | SV v => valid_var v
  | SM m => valid_mono m
  | SP p => valid_poly p
  end.

(** ** Terms *)

(** The terms of an expression, as (coefficient, exponents, variables) *)
Definition terms (s : scalar) : list Monomial :=
  match s with
  | SK k => [mkMono k [] []]
  | SV v => [mkMono n1 [1%Z] [v]]
  | SM m => [m]
  | SP p => p
  end.

(** The exponent of variable [i] in a list of factors *)
Fixpoint exponent_in (vs : list var) (es : list Z) (i : N) : Z :=
  match vs, es with
  | v :: vs', e :: es' => ((if N.eqb (v_id v) i then e else 0) + exponent_in vs' es' i)%Z
  | _, _ => 0%Z
  end.
Definition exponent (m : Monomial) (i : N) : Z := exponent_in (m_vars m) (m_exps m) i.

(** Two terms denote the same product of powers *)
Definition same_powers (m1 m2 : Monomial) : Prop := forall i, exponent m1 i = exponent m2 i.

(** [m] denotes the product of powers of [m1] and [m2] *)
Definition product_powers (m1 m2 m : Monomial) : Prop :=
  forall i, exponent m i = (exponent m1 i + exponent m2 i)%Z.

Definition ids (m : Monomial) : list N := map v_id (m_vars m).

(** Two terms look alike: they have the same exponent list and the same set of variables (not necessarily in the
    same order) *)
Definition look_alike (m1 m2 : Monomial) : Prop :=
  m_exps m1 = m_exps m2 /\ length (m_vars m1) = length (m_vars m2)
  /\ (forall i, In i (ids m1) <-> In i (ids m2)).

(** A set of terms is unambiguous if terms that look alike really denote the same product of powers.
    [{x^2 y, y^2 x}] is not: both have the exponent list [2; 1] and the variables {x, y}. *)
Definition unambiguous (P : Monomial -> Prop) : Prop :=
  forall m1 m2, P m1 -> P m2 -> look_alike m1 m2 -> same_powers m1 m2.

(** ** Products of several terms *)

(** the exponents of the product of a list of terms *)
Fixpoint sum_exponents (l : list Monomial) (i : N) : Z :=
  match l with [] => 0%Z | m :: l' => (exponent m i + sum_exponents l' i)%Z end.

(** [f] is the exponent function of a product of at most [n] terms of [s] *)
Definition power_terms (s : scalar) (n : nat) (f : N -> Z) : Prop :=
  exists l, incl l (terms s) /\ length l <= n /\ forall i, f i = sum_exponents l i.

(** [l] is a choice of terms of [s] whose product may show up when [s^n] is multiplied out and cancelled. A constant, variable or
    monomial is never split: either all [n] copies occur or none. *)
Definition pick (n : nat) (s : scalar) (l : list Monomial) : Prop :=
  incl l (terms s) /\ length l <= n
  /\ match s with SP _ => True | _ => length l = n \/ l = [] end.

(** the exponent functions that may show up when each factor [v^e] of a term is replaced by [(image v)^e] and the product is
    multiplied out *)
Fixpoint image_terms (image : var -> scalar) (vs : list var) (es : list Z) (f : N -> Z) : Prop :=
  match vs, es with
  | v :: vs', e :: es' =>
      exists l g, pick (Z.to_nat e) (image v) l /\ image_terms image vs' es' g
        /\ forall i, f i = (sum_exponents l i + g i)%Z
  | _, _ => forall i, f i = 0%Z
  end.

Definition substituted_terms (image : var -> scalar) (s : scalar) (f : N -> Z) : Prop :=
  exists m, In m (terms s) /\ image_terms image (m_vars m) (m_exps m) f.

(** no two different exponent functions in the set can be listed so that they look alike *)
Definition unambiguous_exponents (F : (N -> Z) -> Prop) : Prop :=
  unambiguous (fun m => valid_mono m /\ exists f, F f /\ forall i, exponent m i = f i).

(** the exponent functions of products of a term of [a] and a term of [b] *)
Definition product_terms (a b : scalar) (f : N -> Z) : Prop :=
  exists m1 m2, In m1 (terms a) /\ In m2 (terms b) /\ forall i, f i = (exponent m1 i + exponent m2 i)%Z.

(** no two terms look alike: like terms have been collected *)
Definition collected (s : scalar) : Prop :=
  forall l1 m1 l2 m2 l3, terms s = l1 ++ m1 :: l2 ++ m2 :: l3 -> ~ look_alike m1 m2.

(** The normal form of simplified expressions: a monomial is neither constant, nor zero, nor a plain variable; a polynomial has at
    least two terms, none of them zero, a constant term can only come first, and like terms have been collected *)
Definition normal (s : scalar) : Prop :=
  match s with
  | SK _ | SV _ => True
  | SM m => m_vars m <> [] /\ (m_coeff m =? n0) = false /\ ~ ((m_coeff m =? n1) = true /\ m_exps m = [1%Z])
  | SP p => 2 <= length p /\ (forall m, In m p -> (m_coeff m =? n0) = false)
            /\ (forall l1 m l2, p = l1 ++ m :: l2 -> m_vars m = [] -> l1 = [])
            /\ collected (SP p)
  end.

(** All exponents of the term are equal, as in x, x^3, x y, x^2 y^2, x y z *)
Definition uniform (m : Monomial) : Prop := forall e1 e2, In e1 (m_exps m) -> In e2 (m_exps m) -> e1 = e2.

(** total degree of a term *)
Fixpoint sumZ (l : list Z) : Z := match l with [] => 0%Z | e :: l' => (e + sumZ l')%Z end.
Definition tdeg (m : Monomial) : Z := sumZ (m_exps m).

(** every term has total degree at most d *)
Definition degree_at_most (d : Z) (s : scalar) : Prop := Forall (fun m => (tdeg m <= d)%Z) (terms s).

(** every term involves no variable other than [x] *)
Definition only_variable (x : N) (s : scalar) : Prop :=
  Forall (fun m => forall i, In i (ids m) -> i = x) (terms s).

(** the variable [i] occurs in the expression *)
Definition occurs (i : N) (s : scalar) : Prop := exists m, In m (terms s) /\ In i (ids m).

(** ** Constraints *)

Definition holds (a : num) (s : sense) (b : num) : Prop :=
  match s with
  | SenseLe => nleb a b = true
  | SenseGe => nleb b a = true
  | SenseEq => a = b
  | SenseOther => False
  end.

(** The assignment satisfies the scalar constraint *)
Definition satisfies (r : assignment) (c : scalar_constraint) : Prop :=
  holds (eval r (sc_left c)) (sc_sense c) (eval r (sc_right c)).

Definition valid_constraint (c : scalar_constraint) : Prop :=
  valid (sc_left c) /\ valid (sc_right c) /\ sc_sense c <> SenseOther.

(** dot product of a coefficient list with the values of a variable list *)
Fixpoint dot (r : assignment) (cs : list num) (vs : list var) : num :=
  match cs, vs with
  | c :: cs', v :: vs' => c * r (v_id v) + dot r cs' vs'
  | _, _ => n0
  end.

(** ** Duplicates: keep every element whose key does not occur earlier in the list, delete the others *)
Fixpoint delete_later {A} (key : A -> N) (l : list A) : list A :=
  match l with
  | [] => []
  | a :: l' => a :: filter (fun b => negb (N.eqb (key b) (key a))) (delete_later key l')
  end.

(** ** Substitution *)

(** the variables of [s] with the ID of [v] live in the environment of [v] *)
Definition same_environment (v : var) (s : scalar) : Prop :=
  forall m w, In m (terms s) -> In w (m_vars m) -> v_id w = v_id v -> v_env w = v_env v.

(** the expression put in place of the variable [w] when [v] is replaced by [e] *)
Definition replacement (v : var) (e : scalar) (w : var) : scalar := if N.eqb (v_id w) (v_id v) then e else SV w.

(** A substitution map is a list of different keys (variables, compared with all their fields) with their images *)
Definition valid_map (sm : list (var * expr)) : Prop :=
  NoDup (map fst sm) /\ forall k e, In (k, e) sm -> valid_var k /\ exists s, e = ES s /\ valid s.

(** [r'] gives every variable of [s] the value at [r] of the expression it is mapped to, and its value at [r] if it is not mapped *)
Definition simultaneous (r : assignment) (sm : list (var * expr)) (s : scalar) (r' : assignment) : Prop :=
  forall m w, In m (terms s) -> In w (m_vars m) ->
    (forall e, In (w, ES e) sm -> r' (v_id w) = eval r e)
    /\ ((forall e, ~ In (w, e) sm) -> r' (v_id w) = r (v_id w)).

(** every variable of [s] is mapped to a number *)
Definition maps_to_numbers (sm : list (var * expr)) (s : scalar) : Prop :=
  forall m w, In m (terms s) -> In w (m_vars m) -> exists k, In (w, ES (SK k)) sm.

(** [r] agrees with the numbers in the map on the variables of [s] *)
Definition numbers_of (sm : list (var * expr)) (s : scalar) (r : assignment) : Prop :=
  forall m w k, In m (terms s) -> In w (m_vars m) -> In (w, ES (SK k)) sm -> r (v_id w) = k.

(** ** Conditions on pairs of expressions *)

(** the terms of two expressions *)
Definition in_either (a b : scalar) (m : Monomial) : Prop := In m (terms a) \/ In m (terms b).

(** all terms list their variables in increasing ID order *)
Definition sorted_terms (s : scalar) : Prop := Forall (fun m => StronglySorted N.lt (ids m)) (terms s).

(** ** Conditions on constraints *)

(** a linear constraint whose left hand side is in normal form and has no constant part, and whose right hand side has its like terms
    collected, as in 2x - y <= 3z + 4 *)
Definition plain (c : scalar_constraint) : Prop :=
  valid_constraint c /\ degree_at_most 1 (sc_left c) /\ degree_at_most 1 (sc_right c) /\ normal (sc_left c) /\ collected (sc_right c)
  /\ eval (fun _ => n0) (sc_left c) = n0.

(** an order in which a Go map with the given keys can be iterated over *)
Definition permutes (o : list var -> list var) : Prop := forall l, Permutation (o l) l.
(** the same for a sequence of calls *)
Definition permuting (o : nat -> list var -> list var) : Prop := forall n, permutes (o n).

(** an expression with a single term *)
Definition one_term (s : scalar) : Prop := exists m, terms s = [m].

End Spec.
