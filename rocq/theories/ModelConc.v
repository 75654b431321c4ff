(** * Model of concurrent calls: the code of ModelHeap.v split at its accesses to memory

    Files: as in ModelHeap.v.  A goroutine is a list of calls.  Every access to memory (a read of an element, a write of an element, an
    allocation, an append) is one step, and between two steps of a goroutine the others may make any number of steps.  The text below is
    that of ModelHeap.v in another monad; the theorems [c_..._run] of ConcRun.v show that a goroutine alone does exactly what ModelHeap.v says.

    Simplifications: (1) those of ModelHeap.v; in particular a read-only method such as Check is one step, and so is one append;
    (2) steps are sequentially consistent: with a data race the Go memory model gives no such guarantee. *)

From Coq Require Import ZArith NArith Bool List.
From Verif Require Import Num Syntax ModelScalar ModelHeap SpecHeap.
Import ListNotations.
Local Open Scope num_scope.

Section Proc.
Context {NN : Num}.

(** what remains to be done by a call: nothing, or a step on the memory followed by a rest that depends on what was read *)
Inductive proc (A : Type) : Type :=
| Done (r : res A)
| Act (f : heap -> heap) (k : heap -> proc A).
Global Arguments Done {A}.
Global Arguments Act {A}.

Fixpoint bindP {A B} (p : proc A) (f : A -> proc B) : proc B :=
  match p with
  | Done (Ok a) => f a
  | Done (Panic e) => Done (Panic e)
  | Act g k => Act g (fun h => bindP (k h) f)
  end.

(** one access to memory *)
Definition act {A} (x : M A) : proc A := Act (fun h => snd (x h)) (fun h => Done (fst (x h))).

Definition c_ret {A} (a : A) : proc A := Done (Ok a).
Definition c_fail {A} (p : panic) : proc A := Done (Panic p).
Definition c_reads {A} (f : heap -> res A) : proc A := act (reads f).
End Proc.
Notation "x <=~ e ;; f" := (bindP e (fun x => f)) (at level 100, e at next level, right associativity).

Section ModelConc.
Context {NN : Num} {RT : Runtime}.

Fixpoint c_forM {A S} (body : S -> A -> proc S) (l : list A) (acc : S) : proc S :=
  match l with [] => c_ret acc | a :: l' => acc' <=~ body acc a ;; c_forM body l' acc' end.

Definition c_make_ints (l : list Z) : proc slice := act (make_ints l).
Definition c_make_vars (l : list var) : proc slice := act (make_vars l).
Definition c_make_monos (l : list hmono) : proc slice := act (make_monos l).
Definition c_append_ints (s : slice) (xs : list Z) : proc slice := act (append_ints s xs).
Definition c_append_vars (s : slice) (xs : list var) : proc slice := act (append_vars s xs).
Definition c_append_monos (s : slice) (xs : list hmono) : proc slice := act (append_monos s xs).
Definition c_get_int (s : slice) (i : nat) : proc Z := act (get_int s i).
Definition c_get_var (s : slice) (i : nat) : proc var := act (get_var s i).
Definition c_get_mono (s : slice) (i : nat) : proc hmono := act (get_mono s i).
Definition c_put_int (s : slice) (i : nat) (x : Z) : proc unit := act (put_int s i x).
Definition c_put_mono (s : slice) (i : nat) (x : hmono) : proc unit := act (put_mono s i x).
Definition c_check_var (v : var) : proc unit := act (check_var v).
Definition c_check_mono (m : hmono) : proc unit := act (check_mono m).
Definition c_check_poly (p : slice) : proc unit := act (check_poly p).
Definition c_check_scalar (s : hscalar) : proc unit := act (check_scalar s).

(** ** Conversions and copies *)

(** the composite literal Monomial{c, es, vs} *)
Definition c_new_mono (c : num) (es : list Z) (vs : list var) : proc hmono :=
  v <=~ c_make_vars vs ;; e <=~ c_make_ints es ;; c_ret (mkHM c e v).
(** variable.go:446-452 *)
Definition cvar_to_mono (v : var) : proc hmono := c_new_mono n1 [1%Z] [v].
(** monomial.go:613-627 Copy *)
Definition cmono_copy (m : hmono) : proc hmono :=
  es <=~ c_reads (fun h => Ok (view (hi h) (h_exps m))) ;;
  vs <=~ c_reads (fun h => Ok (view (hv h) (h_vars m))) ;;
  e <=~ c_make_ints es ;; v <=~ c_make_vars vs ;; c_ret (mkHM (h_coeff m) e v).
(** polynomial.go:58-64 Copy: the monomials themselves are not copied *)
Definition cpoly_copy (p : slice) : proc slice :=
  ms <=~ c_reads (fun h => Ok (view (hm h) p)) ;; c_make_monos ms.
(** monomial.go:549-557 ToPolynomial *)
Definition cmono_to_poly (m : hmono) : proc slice := c <=~ cmono_copy m ;; c_make_monos [c].

(** ** Simplification *)

(** polynomial.go:490-505 *)
Definition c_add_like (acc : slice) (m : hmono) : proc slice :=
  i <=~ c_reads (fun h => first_index (fun e => mono_matches_form (rd_mono h e) (rd_mono h m)) (view (hm h) acc) 0) ;;
  match i with
  | Some i => e <=~ c_get_mono acc i ;; _ <=~ c_put_mono acc i (h_set_coeff e (h_coeff e + h_coeff m)) ;; c_ret acc
  | None => c_append_monos acc [m]
  end.

(** polynomial.go:472-530 Simplify.  The variables of the loop are constantMonomials.Coefficient and nonConstantMonomials. *)
Definition c_simplify (p : slice) : proc slice :=
  _ <=~ c_check_poly p ;;
  st <=~ c_forM (fun (st : num * slice) i =>
         m <=~ c_get_mono p i ;;
         c <=~ c_reads (fun h => mono_is_constant (rd_mono h m)) ;;
         if c : bool then c_ret (fst st + h_coeff m, snd st)
         else acc <=~ c_add_like (snd st) m ;; c_ret (fst st, acc))
       (indices p) (n0, nil_slice) ;;
  out <=~ (if fst st =? n0 then c_ret nil_slice else c_append_monos nil_slice [hk_to_mono (fst st)]) ;;
  out <=~ c_forM (fun out i =>
         m <=~ c_get_mono (snd st) i ;;
         if h_coeff m =? n0 then c_ret out else c_append_monos out [m])
       (indices (snd st)) out ;;
  if Nat.eqb (s_len out) 0 then c_append_monos out [hk_to_mono n0] else c_ret out.

(** monomial.go:728-764 AsSimplifiedExpression: the monomial itself is returned, not a copy *)
Definition c_mono_simplified (m : hmono) : proc hscalar :=
  r <=~ c_reads (fun h => mono_simplified (rd_mono h m)) ;;
  c_ret match r with SK k => HK k | SV v => HV v | _ => HM m end.

(** polynomial.go:534-557 AsSimplifiedExpression *)
Definition c_poly_simplified (p : slice) : proc hscalar :=
  pr <=~ c_simplify p ;;
  d <=~ c_reads (fun h => poly_degree (rd_poly h pr)) ;;
  if Z.eqb d 0 then c <=~ c_reads (fun h => poly_constant (rd_poly h pr)) ;; c_ret (HK c)
  else
    as_var <=~
      (if Z.eqb d 1 && Nat.eqb (s_len pr) 1 then
         m <=~ c_get_mono pr 0 ;;
         v0 <=~ c_reads (fun h => index (poly_variables (rd_poly h pr)) 0) ;;
         b <=~ c_reads (fun h => mono_is_variable (rd_mono h m) v0) ;;
         if b : bool then v <=~ c_reads (fun h => mono_to_variable (rd_mono h m)) ;; c_ret (Some v) else c_ret None
       else c_ret None) ;;
    match as_var with
    | Some v => c_ret (HV v)
    | None => if Nat.eqb (s_len pr) 1 then m <=~ c_get_mono pr 0 ;; c_ret (HM m) else c_ret (HP pr)
    end.

Definition c_simplified (s : hscalar) : proc hscalar :=
  match s with HK _ | HV _ => c_ret s | HM m => c_mono_simplified m | HP p => c_poly_simplified p end.

(** ** Plus *)

(** polynomial.go:92-109, 186 *)
Definition c_poly_plus_k (p : slice) (k : num) : proc hscalar :=
  _ <=~ c_check_poly p ;;
  c <=~ cpoly_copy p ;;
  i <=~ c_reads (fun h => poly_constant_index (rd_poly h c)) ;;
  out <=~ match i with
         | None => c_append_monos c [hk_to_mono k]
         | Some i => m <=~ c_get_mono c i ;; _ <=~ c_put_mono c i (h_set_coeff m (h_coeff m + k)) ;; c_ret c
         end ;;
  c_poly_simplified out.

(** polynomial.go:111-129, 186 *)
Definition c_poly_plus_var (p : slice) (v : var) : proc hscalar :=
  _ <=~ c_check_poly p ;;
  _ <=~ c_check_var v ;;
  c <=~ cpoly_copy p ;;
  i <=~ c_reads (fun h => poly_variable_index (rd_poly h c) v) ;;
  out <=~ match i with
         | None => m <=~ cvar_to_mono v ;; c_append_monos c [m]
         | Some i => m <=~ c_get_mono c i ;; _ <=~ c_put_mono c i (h_set_coeff m (h_coeff m + n1)) ;; c_ret c
         end ;;
  c_poly_simplified out.

(** polynomial.go:133-139, 186 *)
Definition c_poly_plus_poly (p q : slice) : proc hscalar :=
  _ <=~ c_check_poly p ;;
  _ <=~ c_check_poly q ;;
  c <=~ cpoly_copy p ;;
  ms <=~ c_reads (fun h => Ok (view (hm h) q)) ;;
  c <=~ c_append_monos c ms ;;
  out <=~ c_poly_simplified c ;;
  c_simplified out.

(** polynomial.go:131-132, 186 *)
Definition c_poly_plus_mono (p : slice) (m : hmono) : proc hscalar :=
  _ <=~ c_check_poly p ;;
  _ <=~ c_check_mono m ;;
  c <=~ cpoly_copy p ;;
  q <=~ cmono_to_poly m ;;
  out <=~ c_poly_plus_poly c q ;;
  c_simplified out.

(** monomial.go:78-85, 117 *)
Definition c_mono_plus_k (m : hmono) (k : num) : proc hscalar :=
  _ <=~ c_check_mono m ;;
  c <=~ c_reads (fun h => mono_is_constant (rd_mono h m)) ;;
  if c : bool then c_simplified (HK (h_coeff m + k))
  else mc <=~ cmono_copy m ;; p <=~ c_make_monos [mc; hk_to_mono k] ;; c_simplified (HP p).

(** monomial.go:86-95, 117 *)
Definition c_mono_plus_var (m : hmono) (v : var) : proc hscalar :=
  _ <=~ c_check_mono m ;;
  _ <=~ c_check_var v ;;
  b <=~ c_reads (fun h => mono_is_degree_one_in (rd_mono h m) v) ;;
  mc <=~ cmono_copy m ;;
  if b : bool then c_simplified (HM (h_set_coeff mc (h_coeff mc + n1)))
  else vm <=~ cvar_to_mono v ;; p <=~ c_make_monos [mc; vm] ;; c_simplified (HP p).

(** monomial.go:96-105, 117: the right operand is not copied *)
Definition c_mono_plus_mono (m r : hmono) : proc hscalar :=
  _ <=~ c_check_mono m ;;
  _ <=~ c_check_mono r ;;
  b <=~ c_reads (fun h => mono_matches_form (rd_mono h m) (rd_mono h r)) ;;
  mc <=~ cmono_copy m ;;
  if b : bool then c_simplified (HM (h_set_coeff mc (h_coeff mc + h_coeff r)))
  else p <=~ c_make_monos [mc; r] ;; c_simplified (HP p).

(** monomial.go:106-107, 117 *)
Definition c_mono_plus_poly (m : hmono) (p : slice) : proc hscalar :=
  _ <=~ c_check_mono m ;;
  _ <=~ c_check_poly p ;;
  mc <=~ cmono_copy m ;;
  out <=~ c_poly_plus_mono p mc ;;
  c_simplified out.

(** variable.go:87-93, 131 *)
Definition c_var_plus_k (v : var) (k : num) : proc hscalar :=
  _ <=~ c_check_var v ;;
  vm <=~ cvar_to_mono v ;; p <=~ c_make_monos [vm; hk_to_mono k] ;; c_poly_simplified p.

(** variable.go:94-108, 131 *)
Definition c_var_plus_var (v r : var) : proc hscalar :=
  _ <=~ c_check_var v ;;
  if same_id v r then m <=~ c_new_mono n2 [1%Z] [v] ;; c_simplified (HM m)
  else vm <=~ cvar_to_mono v ;; rm <=~ cvar_to_mono r ;; p <=~ c_make_monos [vm; rm] ;; c_simplified (HP p).

(** variable.go:109-110, 131 *)
Definition c_var_plus_mono (v : var) (m : hmono) : proc hscalar :=
  _ <=~ c_check_var v ;; out <=~ c_mono_plus_var m v ;; c_simplified out.
(** variable.go:111-112, 131 *)
Definition c_var_plus_poly (v : var) (p : slice) : proc hscalar :=
  _ <=~ c_check_var v ;; out <=~ c_poly_plus_var p v ;; c_simplified out.

(** constant.go:67-96 *)
Definition c_k_plus (c : num) (r : hscalar) : proc hscalar :=
  _ <=~ c_check_scalar r ;;
  match r with
  | HK k => c_ret (HK (c + k))
  | HV v => c_var_plus_k v c
  | HM m => c_mono_plus_k m c
  | HP p => c_poly_plus_k p c
  end.

(** the method Plus on scalars *)
Definition c_plus (s r : hscalar) : proc hscalar :=
  match s, r with
  | HK c, _ => c_k_plus c r
  | HV v, HK k => c_var_plus_k v k
  | HV v, HV w => c_var_plus_var v w
  | HV v, HM m => c_var_plus_mono v m
  | HV v, HP p => c_var_plus_poly v p
  | HM m, HK k => c_mono_plus_k m k
  | HM m, HV v => c_mono_plus_var m v
  | HM m, HM m' => c_mono_plus_mono m m'
  | HM m, HP p => c_mono_plus_poly m p
  | HP p, HK k => c_poly_plus_k p k
  | HP p, HV v => c_poly_plus_var p v
  | HP p, HM m => c_poly_plus_mono p m
  | HP p, HP q => c_poly_plus_poly p q
  end.

(** ** Multiply *)

(** monomial.go:183-187 *)
Definition c_mono_mul_k (m : hmono) (k : num) : proc hmono :=
  _ <=~ c_check_mono m ;; c <=~ cmono_copy m ;; c_ret (h_set_coeff c (h_coeff c * k)).

(** monomial.go:188-197 *)
Definition c_mono_mul_var (m : hmono) (v : var) : proc hmono :=
  _ <=~ c_check_mono m ;;
  _ <=~ c_check_var v ;;
  c <=~ cmono_copy m ;;
  i <=~ c_reads (fun h => Ok (find_var v (view (hv h) (h_vars m)))) ;;
  match i with
  | None => vs <=~ c_append_vars (h_vars c) [v] ;; es <=~ c_append_ints (h_exps c) [1%Z] ;; c_ret (mkHM (h_coeff c) es vs)
  | Some i => e <=~ c_get_int (h_exps c) i ;; _ <=~ c_put_int (h_exps c) i (e + 1)%Z ;; c_ret c
  end.

(** variable.go:258-271 UniqueVars, reading the argument and growing the result in memory *)
Definition c_unique (s : slice) : proc slice :=
  c_forM (fun out i =>
    v <=~ c_get_var s i ;;
    k <=~ c_reads (fun h => Ok (find_var v (view (hv h) out))) ;;
    match k with None => c_append_vars out [v] | Some _ => c_ret out end)
  (indices s) nil_slice.

(** monomial.go:207-212 and 215-220 *)
Definition c_degree_loop (vs es variables deg : slice) : proc unit :=
  c_forM (fun _ i =>
    v <=~ c_get_var vs i ;;
    k <=~ c_reads (fun h => Ok (find_var v (view (hv h) variables))) ;;
    match k with
    | None => c_fail PRuntime
    | Some k => e <=~ c_get_int es i ;; d <=~ c_get_int deg k ;; c_put_int deg k (d + e)%Z
    end)
  (indices vs) tt.

(** monomial.go:198-227: line 201 appends to the receiver's own slice *)
Definition c_mono_mul_mono (m r : hmono) : proc hmono :=
  _ <=~ c_check_mono m ;;
  _ <=~ c_check_mono r ;;
  rv <=~ c_reads (fun h => Ok (view (hv h) (h_vars r))) ;;
  all <=~ c_append_vars (h_vars m) rv ;;
  variables <=~ c_unique all ;;
  deg <=~ c_make_ints (repeat 0%Z (s_len variables)) ;;
  _ <=~ c_degree_loop (h_vars m) (h_exps m) variables deg ;;
  _ <=~ c_degree_loop (h_vars r) (h_exps r) variables deg ;;
  c_ret (mkHM (h_coeff m * h_coeff r) deg variables).

(** the loops of polynomial.go:321-324 and 328-331, which overwrite the copy *)
Definition c_map_in_place (f : hmono -> proc hmono) (c : slice) : proc unit :=
  c_forM (fun _ i => m <=~ c_get_mono c i ;; x <=~ f m ;; c_put_mono c i x) (indices c) tt.

(** polynomial.go:319-325, 375 *)
Definition c_poly_mul_k (p : slice) (k : num) : proc hscalar :=
  _ <=~ c_check_poly p ;;
  c <=~ cpoly_copy p ;; _ <=~ c_map_in_place (fun m => c_mono_mul_k m k) c ;; c_poly_simplified c.
(** polynomial.go:326-332, 375 *)
Definition c_poly_mul_var (p : slice) (v : var) : proc hscalar :=
  _ <=~ c_check_poly p ;;
  _ <=~ c_check_var v ;;
  c <=~ cpoly_copy p ;; _ <=~ c_map_in_place (fun m => c_mono_mul_var m v) c ;; c_poly_simplified c.
(** polynomial.go:333-342, 375 *)
Definition c_poly_mul_mono (p : slice) (r : hmono) : proc hscalar :=
  _ <=~ c_check_poly p ;;
  _ <=~ c_check_mono r ;;
  c <=~ cpoly_copy p ;;
  out <=~ c_forM (fun out i => m <=~ c_get_mono c i ;; x <=~ c_mono_mul_mono m r ;; c_append_monos out [x]) (indices c) nil_slice ;;
  c_poly_simplified out.
(** polynomial.go:343-355, 375 *)
Definition c_poly_mul_poly (p q : slice) : proc hscalar :=
  _ <=~ c_check_poly p ;;
  _ <=~ c_check_poly q ;;
  c <=~ cpoly_copy p ;;
  out <=~ c_forM (fun acc i => m <=~ c_get_mono q i ;; t <=~ c_poly_mul_mono c m ;; c_plus acc t) (indices q) (HK n0) ;;
  c_simplified out.

(** variable.go:301-308, 349 *)
Definition c_var_mul_k (v : var) (k : num) : proc hscalar :=
  _ <=~ c_check_var v ;; m <=~ c_new_mono k [1%Z] [v] ;; c_mono_simplified m.
(** variable.go:309-324, 349 *)
Definition c_var_mul_var (v r : var) : proc hscalar :=
  _ <=~ c_check_var v ;;
  _ <=~ c_check_var r ;;
  m <=~ (if same_id r v then c_new_mono n1 [2%Z] [v] else c_new_mono n1 [1%Z; 1%Z] [v; r]) ;;
  c_mono_simplified m.
(** variable.go:325-327, 349 *)
Definition c_var_mul_mono (v : var) (m : hmono) : proc hscalar :=
  _ <=~ c_check_var v ;; _ <=~ c_check_mono m ;; out <=~ c_mono_mul_var m v ;; c_mono_simplified out.
(** variable.go:328-330, 349 *)
Definition c_var_mul_poly (v : var) (p : slice) : proc hscalar :=
  _ <=~ c_check_var v ;; _ <=~ c_check_poly p ;; out <=~ c_poly_mul_var p v ;; c_simplified out.
(** monomial.go:228-229 *)
Definition c_mono_mul_poly (m : hmono) (p : slice) : proc hscalar :=
  _ <=~ c_check_mono m ;; _ <=~ c_check_poly p ;; c_poly_mul_mono p m.

Definition c_as_HM (x : proc hmono) : proc hscalar := m <=~ x ;; c_ret (HM m).

(** constant.go:245-278 *)
Definition c_k_mul (c : num) (r : hscalar) : proc hscalar :=
  _ <=~ c_check_scalar r ;;
  match r with
  | HK k => c_ret (HK (c * k))
  | HV v => c_var_mul_k v c
  | HM m => c_as_HM (c_mono_mul_k m c)
  | HP p => c_poly_mul_k p c
  end.

(** the method Multiply on scalars *)
Definition c_mul (s r : hscalar) : proc hscalar :=
  match s, r with
  | HK c, _ => c_k_mul c r
  | HV v, HK k => c_var_mul_k v k
  | HV v, HV w => c_var_mul_var v w
  | HV v, HM m => c_var_mul_mono v m
  | HV v, HP p => c_var_mul_poly v p
  | HM m, HK k => c_as_HM (c_mono_mul_k m k)
  | HM m, HV v => c_as_HM (c_mono_mul_var m v)
  | HM m, HM m' => c_as_HM (c_mono_mul_mono m m')
  | HM m, HP p => c_mono_mul_poly m p
  | HP p, HK k => c_poly_mul_k p k
  | HP p, HV v => c_poly_mul_var p v
  | HP p, HM m => c_poly_mul_mono p m
  | HP p, HP q => c_poly_mul_poly p q
  end.

(** the method Multiply with a float64, as scalar_mul_float in ModelScalar.v *)
Definition c_mul_float (s : hscalar) (f : num) : proc hscalar :=
  match s with
  | HK c => c_k_mul c (HK f)
  | HV v => out <=~ c_var_mul_k v f ;; c_simplified out
  | HM m => c_as_HM (c_mono_mul_k m f)
  | HP p => out <=~ c_poly_mul_k p f ;; c_simplified out
  end.

(** expression.go:119-123 and the Minus methods *)
Definition c_minus (s r : hscalar) : proc hscalar :=
  _ <=~ c_check_scalar s ;; _ <=~ c_check_scalar r ;; t <=~ c_mul_float r nm1 ;; c_plus s t.

(** scalar_expression.go:147-167 *)
Fixpoint c_power_loop (base : hscalar) (n : nat) (result : hscalar) : proc hscalar :=
  match n with O => c_ret result | S n' => r <=~ c_mul result base ;; c_power_loop base n' r end.
Definition c_power (base : hscalar) (exponent : Z) : proc hscalar :=
  _ <=~ c_check_scalar base ;;
  _ <=~ c_reads (fun _ => check (Z.leb 0 exponent) PNegExp) ;;
  c_power_loop base (Z.to_nat exponent) (HK n1).

(** ** Substitute *)

(** variable.go:495-523 *)
Definition c_var_substitute (v vIn : var) (e : hscalar) : proc hscalar :=
  _ <=~ c_check_var v ;; _ <=~ c_check_var vIn ;; _ <=~ c_check_scalar e ;;
  c_ret (if same_id v vIn && env_eqb (v_env v) (v_env vIn) then e else HV v).

(** monomial.go:659-661 *)
Definition c_subst_loop (sub : var -> proc hscalar) (m : hmono) : proc hscalar :=
  c_forM (fun prod i =>
    v <=~ c_get_var (h_vars m) i ;;
    b <=~ sub v ;;
    e <=~ c_get_int (h_exps m) i ;;
    pw <=~ c_power b e ;;
    c_mul prod pw)
  (indices (h_vars m)) (HK (h_coeff m)).

(** monomial.go:630-665: the monomial itself is returned if the variable does not occur *)
Definition c_mono_substitute (m : hmono) (vIn : var) (e : hscalar) : proc hscalar :=
  _ <=~ c_check_mono m ;; _ <=~ c_check_var vIn ;; _ <=~ c_check_scalar e ;;
  i <=~ c_reads (fun h => Ok (find_var vIn (view (hv h) (h_vars m)))) ;;
  match i with
  | None => c_ret (HM m)
  | Some _ => c_subst_loop (fun v => c_var_substitute v vIn e) m
  end.

(** polynomial.go:718-743 *)
Definition c_poly_substitute (p : slice) (vIn : var) (e : hscalar) : proc hscalar :=
  _ <=~ c_check_poly p ;; _ <=~ c_check_var vIn ;; _ <=~ c_check_scalar e ;;
  out <=~ c_forM (fun acc i => m <=~ c_get_mono p i ;; t <=~ c_mono_substitute m vIn e ;; c_plus acc t) (indices p) (HK n0) ;;
  c_simplified out.

(** the method Substitute on scalars; constant.go:331-333 *)
Definition c_substitute (s : hscalar) (vIn : var) (e : hscalar) : proc hscalar :=
  match s with
  | HK k => c_ret (HK k)
  | HV v => c_var_substitute v vIn e
  | HM m => c_mono_substitute m vIn e
  | HP p => c_poly_substitute p vIn e
  end.

(** ** DerivativeWrt *)

(** monomial.go:484-528.  Line 520 copies the header [m], so that the write in line 522 goes to the receiver's exponents. *)
Definition c_mono_derivative (m : hmono) (vIn : var) : proc hscalar :=
  _ <=~ c_check_mono m ;;
  _ <=~ c_check_var vIn ;;
  k <=~ c_reads (fun h => Ok (find_var vIn (view (hv h) (h_vars m)))) ;;
  match k with
  | None => c_ret (HK n0)
  | Some k =>
      e <=~ c_get_int (h_exps m) k ;;
      if Z.eqb e 1 && Nat.eqb (s_len (h_vars m)) 1 then c_ret (HK (h_coeff m))
      else if Z.eqb e 1 then
        st <=~ c_forM (fun (st : slice * slice) i =>
               v <=~ c_get_var (h_vars m) i ;;
               if Nat.eqb i k then c_ret st
               else
                 vs <=~ c_append_vars (fst st) [v] ;;
                 x <=~ c_get_int (h_exps m) i ;;
                 es <=~ c_append_ints (snd st) [x] ;;
                 c_ret (vs, es))
             (indices (h_vars m)) (nil_slice, nil_slice) ;;
        c_ret (HM (mkHM (h_coeff m) (snd st) (fst st)))
      else
        _ <=~ c_put_int (h_exps m) k (e - 1)%Z ;;
        c_ret (HM (h_set_coeff m (h_coeff m * nofZ e)))
  end.

(** polynomial.go:560-602 *)
Definition c_poly_derivative (p : slice) (vIn : var) : proc hscalar :=
  _ <=~ c_check_poly p ;;
  _ <=~ c_check_var vIn ;;
  out <=~ c_forM (fun out i =>
      m <=~ c_get_mono p i ;;
      c <=~ c_reads (fun h => mono_is_constant (rd_mono h m)) ;;
      if c : bool then c_ret out
      else
        d <=~ c_mono_derivative m vIn ;;
        match d with
        | HM dm => c_append_monos out [dm]
        | HK k => if k =? n0 then c_ret out else c_append_monos out [hk_to_mono k]
        | _ => c_fail POther
        end)
    (indices p) nil_slice ;;
  c_ret (if Nat.eqb (s_len out) 0 then HK n0 else HP out).

(** the method DerivativeWrt on scalars; constant.go:316-318, variable.go:464-482 *)
Definition c_derivative (s : hscalar) (vIn : var) : proc hscalar :=
  match s with
  | HK _ => c_ret (HK n0)
  | HV w => _ <=~ c_check_var w ;; _ <=~ c_check_var vIn ;; c_ret (HK (if same_id w vIn then n1 else n0))
  | HM m => c_mono_derivative m vIn
  | HP p => c_poly_derivative p vIn
  end.

(** ** Goroutines *)

(** one call, as [exec] in SpecHeap.v *)
Definition c_exec (roots : list hscalar) (i : instr) : proc hscalar :=
  let a k := c_reads (fun _ => arg roots k) in
  match i with
  | IConst k => c_ret (HK k)
  | IVar v => c_ret (HV v)
  | IMono c es vs => m <=~ c_new_mono c es vs ;; c_ret (HM m)
  | IPoly ms => l <=~ c_reads (fun _ => mapM (fun k => s <- arg roots k ;; hmono_of s) ms) ;; p <=~ c_make_monos l ;; c_ret (HP p)
  | IPlus i j => s <=~ a i ;; t <=~ a j ;; c_plus s t
  | IMinus i j => s <=~ a i ;; t <=~ a j ;; c_minus s t
  | IMul i j => s <=~ a i ;; t <=~ a j ;; c_mul s t
  | IPow i n => s <=~ a i ;; c_power s n
  | ISimplify i => s <=~ a i ;; c_simplified s
  | ISubst i v j => s <=~ a i ;; t <=~ a j ;; c_substitute s v t
  | IDeriv i v => s <=~ a i ;; c_derivative s v
  end.

(** a call whose panic is recovered *)
Fixpoint attempt {A} (p : proc A) : proc (option A) :=
  match p with
  | Done (Ok a) => Done (Ok (Some a))
  | Done (Panic _) => Done (Ok None)
  | Act f k => Act f (fun h => attempt (k h))
  end.

(** a goroutine: calls one after the other, as [history] in SpecHeap.v; [roots] are the expressions it can refer to *)
Fixpoint goroutine (roots : list hscalar) (l : list instr) : proc (list hscalar) :=
  match l with
  | [] => c_ret roots
  | i :: l' => o <=~ attempt (c_exec roots i) ;; goroutine (match o with Some t => roots ++ [t] | None => roots end) l'
  end.

(** the memory shared by all goroutines and what each of them still has to do *)
Definition cconfig := (heap * list (proc (list hscalar)))%type.
Definition cstep (c : cconfig) (t : nat) : cconfig :=
  match nth_error (snd c) t with
  | Some (Act f k) => (f (fst c), set_nth t (k (fst c)) (snd c))
  | _ => c
  end.
Definition run_steps (c : cconfig) (schedule : list nat) : cconfig := fold_left cstep schedule c.

(** all goroutines start with the same expressions *)
Definition launch (h : heap) (roots : list hscalar) (programs : list (list instr)) : cconfig := (h, map (goroutine roots) programs).

End ModelConc.
