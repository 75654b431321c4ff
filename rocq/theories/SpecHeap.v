(** * Specification: expressions in memory, sharing, histories of calls *)

From Coq Require Import ZArith NArith Bool List Reals.
From Verif Require Import Num Syntax ModelScalar Spec NumR ModelHeap.
Import ListNotations.
Local Open Scope num_scope.

Section SpecHeap.
Context {NN : Num}.

(** ** Expressions whose slices lie inside the arrays they point to *)
Definition in_memory {A} (m : mem A) (s : slice) : Prop :=
  (s_len s <= s_cap s)%nat /\ ((0 < s_cap s)%nat -> (s_arr s < length m)%nat /\ (s_off s + s_cap s <= length (cells m (s_arr s)))%nat).
(** the monomials an expression consists of *)
Definition monomials (h : heap) (s : hscalar) : list hmono :=
  match s with HM m => [m] | HP p => view (hm h) p | _ => [] end.
Definition legal_mono (h : heap) (m : hmono) : Prop := in_memory (hi h) (h_exps m) /\ in_memory (hv h) (h_vars m).
Definition legal (h : heap) (s : hscalar) : Prop :=
  (forall p, s = HP p -> in_memory (hm h) p) /\ (forall m, In m (monomials h s) -> legal_mono h m).

(** ... for all expressions a program holds *)
Definition all_legal (h : heap) (roots : list hscalar) : Prop := forall s, In s roots -> legal h s.

(** ** Sharing of arrays of variables *)

(** cell [j] of array [a] belongs to the elements of the slice *)
Definition elements (s : slice) (a j : nat) : Prop := a = s_arr s /\ (s_off s <= j < s_off s + s_len s)%nat.
(** ... or to its unused capacity, which append may overwrite *)
Definition unused (s : slice) (a j : nat) : Prop := a = s_arr s /\ (s_off s + s_len s <= j < s_off s + s_cap s)%nat.
(** no monomial of one expression has unused capacity in which variables of another one live *)
Definition separate (h : heap) (roots : list hscalar) : Prop :=
  forall s t m m' a j, In s roots -> In t roots -> In m (monomials h s) -> In m' (monomials h t) ->
    unused (h_vars m) a j -> elements (h_vars m') a j -> False.

(** ** Calls and histories.  A call refers to earlier results by their position. *)
Inductive instr :=
| IConst (k : num)
| IVar (v : var)
| IMono (c : num) (es : list Z) (vs : list var)   (* the literal Monomial{c, es, vs} *)
| IPoly (ms : list nat)                            (* the literal Polynomial{...} of earlier monomials *)
| IPlus (i j : nat)
| IMinus (i j : nat)
| IMul (i j : nat)
| IPow (i : nat) (n : Z)
| ISimplify (i : nat)
| ISubst (i : nat) (v : var) (j : nat)
| IDeriv (i : nat) (v : var).

Definition arg {A} (l : list A) (i : nat) : res A := match nth_error l i with Some a => Ok a | None => Panic POther end.

(** the call on expressions in memory *)
Definition hmono_of (s : hscalar) : res hmono := match s with HM m => Ok m | _ => Panic POther end.
Definition exec {RT : Runtime} (roots : list hscalar) (i : instr) : M hscalar :=
  let a k := reads (fun _ => arg roots k) in
  match i with
  | IConst k => ret (HK k)
  | IVar v => ret (HV v)
  | IMono c es vs => m <~ new_mono c es vs ;; ret (HM m)
  | IPoly ms => l <~ reads (fun _ => mapM (fun k => s <- arg roots k ;; hmono_of s) ms) ;; p <~ make_monos l ;; ret (HP p)
  | IPlus i j => s <~ a i ;; t <~ a j ;; h_plus s t
  | IMinus i j => s <~ a i ;; t <~ a j ;; h_minus s t
  | IMul i j => s <~ a i ;; t <~ a j ;; h_mul s t
  | IPow i n => s <~ a i ;; h_power s n
  | ISimplify i => s <~ a i ;; h_simplified s
  | ISubst i v j => s <~ a i ;; t <~ a j ;; h_substitute s v t
  | IDeriv i v => s <~ a i ;; h_derivative s v
  end.

(** the same call on values *)
Definition mono_of (s : scalar) : res Monomial := match s with SM m => Ok m | _ => Panic POther end.
Definition exec_value (vals : list scalar) (i : instr) : res scalar :=
  match i with
  | IConst k => Ok (SK k)
  | IVar v => Ok (SV v)
  | IMono c es vs => Ok (SM (mkMono c es vs))
  | IPoly ms => l <- mapM (fun k => s <- arg vals k ;; mono_of s) ms ;; Ok (SP l)
  | IPlus i j => s <- arg vals i ;; t <- arg vals j ;; scalar_plus s t
  | IMinus i j => s <- arg vals i ;; t <- arg vals j ;; scalar_minus s t
  | IMul i j => s <- arg vals i ;; t <- arg vals j ;; scalar_mul s t
  | IPow i n => s <- arg vals i ;; scalar_power s n
  | ISimplify i => s <- arg vals i ;; scalar_simplified s
  | ISubst i v j => s <- arg vals i ;; t <- arg vals j ;; scalar_substitute s v t
  | IDeriv i v => s <- arg vals i ;; scalar_derivative s v
  end.

(** a history; the result of a call that panics is not available to later calls *)
Fixpoint history {RT : Runtime} (h : heap) (roots : list hscalar) (l : list instr) : heap * list hscalar :=
  match l with
  | [] => (h, roots)
  | i :: l' => let (r, h') := exec roots i h in history h' (match r with Ok t => roots ++ [t] | Panic _ => roots end) l'
  end.
Fixpoint history_values (vals : list scalar) (l : list instr) : list scalar :=
  match l with
  | [] => vals
  | i :: l' => history_values (match exec_value vals i with Ok t => vals ++ [t] | Panic _ => vals end) l'
  end.

(** what the caller of a method sees afterwards *)
Definition as_value (h : heap) (r : res hscalar) : res scalar := match r with Ok s => Ok (rd h s) | Panic p => Panic p end.

(** ** DerivativeWrt *)

(** the exponent of [v] in every term is 1, unless [v] does not occur *)
Definition at_most_linear_in (v : var) (s : scalar) : Prop :=
  forall m i u e, In m (terms s) -> nth_error (m_vars m) i = Some u -> v_id u = v_id v -> nth_error (m_exps m) i = Some e -> e = 1%Z.
(** the call is not DerivativeWrt, or it is and the receiver is at most linear in the variable *)
Definition harmless (vals : list scalar) (i : instr) : Prop :=
  match i with IDeriv k v => forall s, nth_error vals k = Some s -> at_most_linear_in v s | _ => True end.
Fixpoint harmless_history (vals : list scalar) (l : list instr) : Prop :=
  match l with
  | [] => True
  | i :: l' => harmless vals i /\ harmless_history (match exec_value vals i with Ok t => vals ++ [t] | Panic _ => vals end) l'
  end.
(** DerivativeWrt is not called *)
Definition not_derivative (i : instr) : Prop := match i with IDeriv _ _ => False | _ => True end.

(** [c] calls on the same receiver, with all their results *)
Fixpoint differentiate {RT : Runtime} (c : nat) (m : hmono) (v : var) (h : heap) : res (list hscalar) * heap :=
  match c with
  | O => (Ok [], h)
  | S c' => let (r, h') := h_mono_derivative m v h in
            match r with
            | Ok d => let (rs, h2) := differentiate c' m v h' in (match rs with Ok l => Ok (d :: l) | Panic p => Panic p end, h2)
            | Panic p => (Panic p, h')
            end
  end.

(** the variable occurs in a term whose coefficient is not zero *)
Definition mentions (v : var) (p : list Monomial) : Prop :=
  exists m u, In m p /\ m_coeff m =? n0 = false /\ In u (m_vars m) /\ v_id u = v_id v.

End SpecHeap.

(** over the real numbers: [d] is the partial derivative of [s], everywhere *)
Definition derivative_of (NN := RNum) (v : var) (s d : scalar) : Prop :=
  forall r : assignment, derivable_pt_lim (fun x : R => eval (update r (v_id v) x) s) (r (v_id v)) (eval r d).
