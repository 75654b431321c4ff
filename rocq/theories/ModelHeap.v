(** * Model of the scalar expressions with memory: slices, backing arrays, append

    Files: monomial.go, polynomial.go, variable.go, constant.go, scalar_expression.go, and DerivativeWrt of monomial_vector.go,
    polynomial_vector.go, monomial_matrix.go, polynomial_matrix.go.

    Backing arrays live in four memories, one for each element type.  A slice is an address, an offset, a length and a
    capacity.  Simplifications: (1) code that only reads (Check, IsConstant, MatchesFormOf, Degree, Variables, Constant, ...) is the
    function of ModelScalar.v applied to the contents read at that moment; the scratch slices such code allocates are not
    modelled; (2) make followed by copy or by a composite literal is one allocation with the final contents; (3) slices of capacity 0
    need no array; (4) garbage is never collected. *)

From Coq Require Import ZArith NArith Bool List.
From Coq Require String.
From Verif Require Import Num Syntax ModelScalar ModelShape.
Import ListNotations.
Local Open Scope num_scope.

(** ** Slices (Go specification, "Slice types", "Appending to and copying slices") *)

Record slice := mkSlice { s_arr : nat; s_off : nat; s_len : nat; s_cap : nat }.
Definition nil_slice : slice := mkSlice 0 0 0 0.

Section Memory.
Context {A : Type}.
Definition mem := list (list A).
Definition cells (m : mem) (a : nat) : list A := nth a m [].
(** what a reader of the slice sees *)
Definition view (m : mem) (s : slice) : list A := firstn (s_len s) (skipn (s_off s) (cells m (s_arr s))).
(** store [xs] from position [i] of an array *)
Fixpoint overwrite (i : nat) (xs l : list A) : list A :=
  match xs with [] => l | x :: xs' => overwrite (S i) xs' (set_nth i x l) end.
Definition store_at (m : mem) (a i : nat) (xs : list A) : mem := set_nth a (overwrite i xs (cells m a)) m.
(** make, or a composite literal *)
Definition alloc (m : mem) (l : list A) : slice * mem := (mkSlice (length m) 0 (length l) (length l), m ++ [l]).
(** append(s, xs...): in place if the capacity suffices, otherwise into a new array.  [extra] is the spare capacity the runtime
    adds, given the old capacity and the needed length; [zero] fills it. *)
Definition append_slice (extra : nat -> nat -> nat) (zero : A) (m : mem) (s : slice) (xs : list A) : slice * mem :=
  let need := (s_len s + length xs)%nat in
  if Nat.leb need (s_cap s)
  then (mkSlice (s_arr s) (s_off s) need (s_cap s), store_at m (s_arr s) (s_off s + s_len s) xs)
  else
    let e := extra (s_cap s) need in
    (mkSlice (length m) 0 need (need + e), m ++ [view m s ++ xs ++ repeat zero e]).
End Memory.
Arguments mem : clear implicits.

(** The growth policy of append is not specified by Go and depends on the element size: one function per memory *)
Class Runtime := mkRuntime { grow_int : nat -> nat -> nat; grow_var : nat -> nat -> nat; grow_mono : nat -> nat -> nat }.

Section ModelHeap.
Context {NN : Num} {RT : Runtime}.

(** monomial.go:17-21 with its two slices *)
Record hmono := mkHM { h_coeff : num; h_exps : slice; h_vars : slice }.

(** arrays of int, Variable, Monomial and Polynomial; a Polynomial (polynomial.go:18-20) is the slice in its only field *)
Record heap := mkHeap { hi : mem Z; hv : mem var; hm : mem hmono; hp : mem slice }.
Definition empty_heap : heap := mkHeap [] [] [] [].

Inductive hscalar :=
| HK (k : num)
| HV (v : var)
| HM (m : hmono)
| HP (p : slice).

(** the value of an expression in a heap *)
Definition rd_mono (h : heap) (m : hmono) : Monomial := mkMono (h_coeff m) (view (hi h) (h_exps m)) (view (hv h) (h_vars m)).
Definition rd_poly (h : heap) (p : slice) : Polynomial := map (rd_mono h) (view (hm h) p).
Definition rd (h : heap) (s : hscalar) : scalar :=
  match s with HK k => SK k | HV v => SV v | HM m => SM (rd_mono h m) | HP p => SP (rd_poly h p) end.

(** ** Code: a state and panic monad; a panic keeps the writes made before it *)
Definition M (A : Type) := heap -> res A * heap.
Definition ret {A} (a : A) : M A := fun h => (Ok a, h).
Definition fail {A} (p : panic) : M A := fun h => (Panic p, h).
Definition bindM {A B} (x : M A) (f : A -> M B) : M B :=
  fun h => let (r, h') := x h in match r with Ok a => f a h' | Panic p => (Panic p, h') end.
(** code that only reads *)
Definition reads {A} (f : heap -> res A) : M A := fun h => (f h, h).
End ModelHeap.
Notation "x <~ e ;; f" := (bindM e (fun x => f)) (at level 100, e at next level, right associativity).

Section ModelHeap2.
Context {NN : Num} {RT : Runtime}.

(** a for loop with the variable [acc] *)
Fixpoint forM {A S} (body : S -> A -> M S) (l : list A) (acc : S) : M S :=
  match l with [] => ret acc | a :: l' => acc' <~ body acc a ;; forM body l' acc' end.
(** the indices of [for ii := range s] *)
Definition indices (s : slice) : list nat := seq 0 (s_len s).

Definition zero_var : var := mkVar 0 n0 n0 0 String.EmptyString None.
Definition zero_mono : hmono := mkHM n0 nil_slice nil_slice.

Definition with_ints (h : heap) (m : mem Z) : heap := mkHeap m (hv h) (hm h) (hp h).
Definition with_vars (h : heap) (m : mem var) : heap := mkHeap (hi h) m (hm h) (hp h).
Definition with_monos (h : heap) (m : mem hmono) : heap := mkHeap (hi h) (hv h) m (hp h).
Definition with_polys (h : heap) (m : mem slice) : heap := mkHeap (hi h) (hv h) (hm h) m.

Definition make_ints (l : list Z) : M slice := fun h => let (s, m) := alloc (hi h) l in (Ok s, with_ints h m).
Definition make_vars (l : list var) : M slice := fun h => let (s, m) := alloc (hv h) l in (Ok s, with_vars h m).
Definition make_monos (l : list hmono) : M slice := fun h => let (s, m) := alloc (hm h) l in (Ok s, with_monos h m).

Definition append_ints (s : slice) (xs : list Z) : M slice :=
  fun h => let (s', m) := append_slice grow_int 0%Z (hi h) s xs in (Ok s', with_ints h m).
Definition append_vars (s : slice) (xs : list var) : M slice :=
  fun h => let (s', m) := append_slice grow_var zero_var (hv h) s xs in (Ok s', with_vars h m).
Definition append_monos (s : slice) (xs : list hmono) : M slice :=
  fun h => let (s', m) := append_slice grow_mono zero_mono (hm h) s xs in (Ok s', with_monos h m).

(** s[i] *)
Definition get_int (s : slice) (i : nat) : M Z := reads (fun h => index (view (hi h) s) i).
Definition get_var (s : slice) (i : nat) : M var := reads (fun h => index (view (hv h) s) i).
Definition get_mono (s : slice) (i : nat) : M hmono := reads (fun h => index (view (hm h) s) i).
Definition get_poly (s : slice) (i : nat) : M slice := reads (fun h => index (view (hp h) s) i).
(** s[i] = x *)
Definition put_int (s : slice) (i : nat) (x : Z) : M unit :=
  fun h => if Nat.ltb i (s_len s) then (Ok tt, with_ints h (store_at (hi h) (s_arr s) (s_off s + i) [x])) else (Panic PRuntime, h).
Definition put_mono (s : slice) (i : nat) (x : hmono) : M unit :=
  fun h => if Nat.ltb i (s_len s) then (Ok tt, with_monos h (store_at (hm h) (s_arr s) (s_off s + i) [x])) else (Panic PRuntime, h).
Definition put_poly (s : slice) (i : nat) (x : slice) : M unit :=
  fun h => if Nat.ltb i (s_len s) then (Ok tt, with_polys h (store_at (hp h) (s_arr s) (s_off s + i) [x])) else (Panic PRuntime, h).

(** the checks at the start of the methods *)
Definition check_var (v : var) : M unit := reads (fun _ => check (var_check v) PCheck).
Definition check_mono (m : hmono) : M unit := reads (fun h => check (mono_check (rd_mono h m)) PCheck).
Definition check_poly (p : slice) : M unit := reads (fun h => check (poly_check (rd_poly h p)) PCheck).
Definition check_scalar (s : hscalar) : M unit := reads (fun h => check (scalar_check (rd h s)) PCheck).

Definition h_set_coeff (m : hmono) (c : num) : hmono := mkHM c (h_exps m) (h_vars m).

(** ** Conversions and copies *)

(** constant.go:300-306 *)
Definition hk_to_mono (k : num) : hmono := mkHM k nil_slice nil_slice.
(** the composite literal Monomial{c, es, vs} *)
Definition new_mono (c : num) (es : list Z) (vs : list var) : M hmono :=
  v <~ make_vars vs ;; e <~ make_ints es ;; ret (mkHM c e v).
(** variable.go:446-452 *)
Definition hvar_to_mono (v : var) : M hmono := new_mono n1 [1%Z] [v].
(** monomial.go:613-627 Copy *)
Definition hmono_copy (m : hmono) : M hmono :=
  es <~ reads (fun h => Ok (view (hi h) (h_exps m))) ;;
  vs <~ reads (fun h => Ok (view (hv h) (h_vars m))) ;;
  e <~ make_ints es ;; v <~ make_vars vs ;; ret (mkHM (h_coeff m) e v).
(** polynomial.go:58-64 Copy: the monomials themselves are not copied *)
Definition hpoly_copy (p : slice) : M slice :=
  ms <~ reads (fun h => Ok (view (hm h) p)) ;; make_monos ms.
(** monomial.go:549-557 ToPolynomial *)
Definition hmono_to_poly (m : hmono) : M slice := c <~ hmono_copy m ;; make_monos [c].

(** ** Simplification *)

(** polynomial.go:490-505 *)
Definition h_add_like (acc : slice) (m : hmono) : M slice :=
  i <~ reads (fun h => first_index (fun e => mono_matches_form (rd_mono h e) (rd_mono h m)) (view (hm h) acc) 0) ;;
  match i with
  | Some i => e <~ get_mono acc i ;; _ <~ put_mono acc i (h_set_coeff e (h_coeff e + h_coeff m)) ;; ret acc
  | None => append_monos acc [m]
  end.

(** polynomial.go:472-530 Simplify.  The variables of the loop are constantMonomials.Coefficient and nonConstantMonomials. *)
Definition h_simplify (p : slice) : M slice :=
  _ <~ check_poly p ;;
  st <~ forM (fun (st : num * slice) i =>
         m <~ get_mono p i ;;
         c <~ reads (fun h => mono_is_constant (rd_mono h m)) ;;
         if c : bool then ret (fst st + h_coeff m, snd st)
         else acc <~ h_add_like (snd st) m ;; ret (fst st, acc))
       (indices p) (n0, nil_slice) ;;
  out <~ (if fst st =? n0 then ret nil_slice else append_monos nil_slice [hk_to_mono (fst st)]) ;;
  out <~ forM (fun out i =>
         m <~ get_mono (snd st) i ;;
         if h_coeff m =? n0 then ret out else append_monos out [m])
       (indices (snd st)) out ;;
  if Nat.eqb (s_len out) 0 then append_monos out [hk_to_mono n0] else ret out.

(** monomial.go:728-764 AsSimplifiedExpression: the monomial itself is returned, not a copy *)
Definition h_mono_simplified (m : hmono) : M hscalar :=
  r <~ reads (fun h => mono_simplified (rd_mono h m)) ;;
  ret match r with SK k => HK k | SV v => HV v | _ => HM m end.

(** polynomial.go:534-557 AsSimplifiedExpression *)
Definition h_poly_simplified (p : slice) : M hscalar :=
  pr <~ h_simplify p ;;
  d <~ reads (fun h => poly_degree (rd_poly h pr)) ;;
  if Z.eqb d 0 then c <~ reads (fun h => poly_constant (rd_poly h pr)) ;; ret (HK c)
  else
    as_var <~
      (if Z.eqb d 1 && Nat.eqb (s_len pr) 1 then
         m <~ get_mono pr 0 ;;
         v0 <~ reads (fun h => index (poly_variables (rd_poly h pr)) 0) ;;
         b <~ reads (fun h => mono_is_variable (rd_mono h m) v0) ;;
         if b : bool then v <~ reads (fun h => mono_to_variable (rd_mono h m)) ;; ret (Some v) else ret None
       else ret None) ;;
    match as_var with
    | Some v => ret (HV v)
    | None => if Nat.eqb (s_len pr) 1 then m <~ get_mono pr 0 ;; ret (HM m) else ret (HP pr)
    end.

Definition h_simplified (s : hscalar) : M hscalar :=
  match s with HK _ | HV _ => ret s | HM m => h_mono_simplified m | HP p => h_poly_simplified p end.

(** ** Plus *)

(** polynomial.go:92-109, 186 *)
Definition h_poly_plus_k (p : slice) (k : num) : M hscalar :=
  _ <~ check_poly p ;;
  c <~ hpoly_copy p ;;
  i <~ reads (fun h => poly_constant_index (rd_poly h c)) ;;
  out <~ match i with
         | None => append_monos c [hk_to_mono k]
         | Some i => m <~ get_mono c i ;; _ <~ put_mono c i (h_set_coeff m (h_coeff m + k)) ;; ret c
         end ;;
  h_poly_simplified out.

(** polynomial.go:111-129, 186 *)
Definition h_poly_plus_var (p : slice) (v : var) : M hscalar :=
  _ <~ check_poly p ;;
  _ <~ check_var v ;;
  c <~ hpoly_copy p ;;
  i <~ reads (fun h => poly_variable_index (rd_poly h c) v) ;;
  out <~ match i with
         | None => m <~ hvar_to_mono v ;; append_monos c [m]
         | Some i => m <~ get_mono c i ;; _ <~ put_mono c i (h_set_coeff m (h_coeff m + n1)) ;; ret c
         end ;;
  h_poly_simplified out.

(** polynomial.go:133-139, 186 *)
Definition h_poly_plus_poly (p q : slice) : M hscalar :=
  _ <~ check_poly p ;;
  _ <~ check_poly q ;;
  c <~ hpoly_copy p ;;
  ms <~ reads (fun h => Ok (view (hm h) q)) ;;
  c <~ append_monos c ms ;;
  out <~ h_poly_simplified c ;;
  h_simplified out.

(** polynomial.go:131-132, 186 *)
Definition h_poly_plus_mono (p : slice) (m : hmono) : M hscalar :=
  _ <~ check_poly p ;;
  _ <~ check_mono m ;;
  c <~ hpoly_copy p ;;
  q <~ hmono_to_poly m ;;
  out <~ h_poly_plus_poly c q ;;
  h_simplified out.

(** monomial.go:78-85, 117 *)
Definition h_mono_plus_k (m : hmono) (k : num) : M hscalar :=
  _ <~ check_mono m ;;
  c <~ reads (fun h => mono_is_constant (rd_mono h m)) ;;
  if c : bool then h_simplified (HK (h_coeff m + k))
  else mc <~ hmono_copy m ;; p <~ make_monos [mc; hk_to_mono k] ;; h_simplified (HP p).

(** monomial.go:86-95, 117 *)
Definition h_mono_plus_var (m : hmono) (v : var) : M hscalar :=
  _ <~ check_mono m ;;
  _ <~ check_var v ;;
  b <~ reads (fun h => mono_is_degree_one_in (rd_mono h m) v) ;;
  mc <~ hmono_copy m ;;
  if b : bool then h_simplified (HM (h_set_coeff mc (h_coeff mc + n1)))
  else vm <~ hvar_to_mono v ;; p <~ make_monos [mc; vm] ;; h_simplified (HP p).

(** monomial.go:96-105, 117: the right operand is not copied *)
Definition h_mono_plus_mono (m r : hmono) : M hscalar :=
  _ <~ check_mono m ;;
  _ <~ check_mono r ;;
  b <~ reads (fun h => mono_matches_form (rd_mono h m) (rd_mono h r)) ;;
  mc <~ hmono_copy m ;;
  if b : bool then h_simplified (HM (h_set_coeff mc (h_coeff mc + h_coeff r)))
  else p <~ make_monos [mc; r] ;; h_simplified (HP p).

(** monomial.go:106-107, 117 *)
Definition h_mono_plus_poly (m : hmono) (p : slice) : M hscalar :=
  _ <~ check_mono m ;;
  _ <~ check_poly p ;;
  mc <~ hmono_copy m ;;
  out <~ h_poly_plus_mono p mc ;;
  h_simplified out.

(** variable.go:87-93, 131 *)
Definition h_var_plus_k (v : var) (k : num) : M hscalar :=
  _ <~ check_var v ;;
  vm <~ hvar_to_mono v ;; p <~ make_monos [vm; hk_to_mono k] ;; h_poly_simplified p.

(** variable.go:94-108, 131 *)
Definition h_var_plus_var (v r : var) : M hscalar :=
  _ <~ check_var v ;;
  if same_id v r then m <~ new_mono n2 [1%Z] [v] ;; h_simplified (HM m)
  else vm <~ hvar_to_mono v ;; rm <~ hvar_to_mono r ;; p <~ make_monos [vm; rm] ;; h_simplified (HP p).

(** variable.go:109-110, 131 *)
Definition h_var_plus_mono (v : var) (m : hmono) : M hscalar :=
  _ <~ check_var v ;; out <~ h_mono_plus_var m v ;; h_simplified out.
(** variable.go:111-112, 131 *)
Definition h_var_plus_poly (v : var) (p : slice) : M hscalar :=
  _ <~ check_var v ;; out <~ h_poly_plus_var p v ;; h_simplified out.

(** constant.go:67-96 *)
Definition h_k_plus (c : num) (r : hscalar) : M hscalar :=
  _ <~ check_scalar r ;;
  match r with
  | HK k => ret (HK (c + k))
  | HV v => h_var_plus_k v c
  | HM m => h_mono_plus_k m c
  | HP p => h_poly_plus_k p c
  end.

(** the method Plus on scalars *)
Definition h_plus (s r : hscalar) : M hscalar :=
  match s, r with
  | HK c, _ => h_k_plus c r
  | HV v, HK k => h_var_plus_k v k
  | HV v, HV w => h_var_plus_var v w
  | HV v, HM m => h_var_plus_mono v m
  | HV v, HP p => h_var_plus_poly v p
  | HM m, HK k => h_mono_plus_k m k
  | HM m, HV v => h_mono_plus_var m v
  | HM m, HM m' => h_mono_plus_mono m m'
  | HM m, HP p => h_mono_plus_poly m p
  | HP p, HK k => h_poly_plus_k p k
  | HP p, HV v => h_poly_plus_var p v
  | HP p, HM m => h_poly_plus_mono p m
  | HP p, HP q => h_poly_plus_poly p q
  end.

(** ** Multiply *)

(** monomial.go:183-187 *)
Definition h_mono_mul_k (m : hmono) (k : num) : M hmono :=
  _ <~ check_mono m ;; c <~ hmono_copy m ;; ret (h_set_coeff c (h_coeff c * k)).

(** monomial.go:188-197 *)
Definition h_mono_mul_var (m : hmono) (v : var) : M hmono :=
  _ <~ check_mono m ;;
  _ <~ check_var v ;;
  c <~ hmono_copy m ;;
  i <~ reads (fun h => Ok (find_var v (view (hv h) (h_vars m)))) ;;
  match i with
  | None => vs <~ append_vars (h_vars c) [v] ;; es <~ append_ints (h_exps c) [1%Z] ;; ret (mkHM (h_coeff c) es vs)
  | Some i => e <~ get_int (h_exps c) i ;; _ <~ put_int (h_exps c) i (e + 1)%Z ;; ret c
  end.

(** variable.go:258-271 UniqueVars, reading the argument and growing the result in memory *)
Definition h_unique (s : slice) : M slice :=
  forM (fun out i =>
    v <~ get_var s i ;;
    k <~ reads (fun h => Ok (find_var v (view (hv h) out))) ;;
    match k with None => append_vars out [v] | Some _ => ret out end)
  (indices s) nil_slice.

(** monomial.go:207-212 and 215-220 *)
Definition h_degree_loop (vs es variables deg : slice) : M unit :=
  forM (fun _ i =>
    v <~ get_var vs i ;;
    k <~ reads (fun h => Ok (find_var v (view (hv h) variables))) ;;
    match k with
    | None => fail PRuntime
    | Some k => e <~ get_int es i ;; d <~ get_int deg k ;; put_int deg k (d + e)%Z
    end)
  (indices vs) tt.

(** monomial.go:198-227: line 201 appends to the receiver's own slice *)
Definition h_mono_mul_mono (m r : hmono) : M hmono :=
  _ <~ check_mono m ;;
  _ <~ check_mono r ;;
  rv <~ reads (fun h => Ok (view (hv h) (h_vars r))) ;;
  all <~ append_vars (h_vars m) rv ;;
  variables <~ h_unique all ;;
  deg <~ make_ints (repeat 0%Z (s_len variables)) ;;
  _ <~ h_degree_loop (h_vars m) (h_exps m) variables deg ;;
  _ <~ h_degree_loop (h_vars r) (h_exps r) variables deg ;;
  ret (mkHM (h_coeff m * h_coeff r) deg variables).

(** the loops of polynomial.go:321-324 and 328-331, which overwrite the copy *)
Definition h_map_in_place (f : hmono -> M hmono) (c : slice) : M unit :=
  forM (fun _ i => m <~ get_mono c i ;; x <~ f m ;; put_mono c i x) (indices c) tt.

(** polynomial.go:319-325, 375 *)
Definition h_poly_mul_k (p : slice) (k : num) : M hscalar :=
  _ <~ check_poly p ;;
  c <~ hpoly_copy p ;; _ <~ h_map_in_place (fun m => h_mono_mul_k m k) c ;; h_poly_simplified c.
(** polynomial.go:326-332, 375 *)
Definition h_poly_mul_var (p : slice) (v : var) : M hscalar :=
  _ <~ check_poly p ;;
  _ <~ check_var v ;;
  c <~ hpoly_copy p ;; _ <~ h_map_in_place (fun m => h_mono_mul_var m v) c ;; h_poly_simplified c.
(** polynomial.go:333-342, 375 *)
Definition h_poly_mul_mono (p : slice) (r : hmono) : M hscalar :=
  _ <~ check_poly p ;;
  _ <~ check_mono r ;;
  c <~ hpoly_copy p ;;
  out <~ forM (fun out i => m <~ get_mono c i ;; x <~ h_mono_mul_mono m r ;; append_monos out [x]) (indices c) nil_slice ;;
  h_poly_simplified out.
(** polynomial.go:343-355, 375 *)
Definition h_poly_mul_poly (p q : slice) : M hscalar :=
  _ <~ check_poly p ;;
  _ <~ check_poly q ;;
  c <~ hpoly_copy p ;;
  out <~ forM (fun acc i => m <~ get_mono q i ;; t <~ h_poly_mul_mono c m ;; h_plus acc t) (indices q) (HK n0) ;;
  h_simplified out.

(** variable.go:301-308, 349 *)
Definition h_var_mul_k (v : var) (k : num) : M hscalar :=
  _ <~ check_var v ;; m <~ new_mono k [1%Z] [v] ;; h_mono_simplified m.
(** variable.go:309-324, 349 *)
Definition h_var_mul_var (v r : var) : M hscalar :=
  _ <~ check_var v ;;
  _ <~ check_var r ;;
  m <~ (if same_id r v then new_mono n1 [2%Z] [v] else new_mono n1 [1%Z; 1%Z] [v; r]) ;;
  h_mono_simplified m.
(** variable.go:325-327, 349 *)
Definition h_var_mul_mono (v : var) (m : hmono) : M hscalar :=
  _ <~ check_var v ;; _ <~ check_mono m ;; out <~ h_mono_mul_var m v ;; h_mono_simplified out.
(** variable.go:328-330, 349 *)
Definition h_var_mul_poly (v : var) (p : slice) : M hscalar :=
  _ <~ check_var v ;; _ <~ check_poly p ;; out <~ h_poly_mul_var p v ;; h_simplified out.
(** monomial.go:228-229 *)
Definition h_mono_mul_poly (m : hmono) (p : slice) : M hscalar :=
  _ <~ check_mono m ;; _ <~ check_poly p ;; h_poly_mul_mono p m.

Definition as_HM (x : M hmono) : M hscalar := m <~ x ;; ret (HM m).

(** constant.go:245-278 *)
Definition h_k_mul (c : num) (r : hscalar) : M hscalar :=
  _ <~ check_scalar r ;;
  match r with
  | HK k => ret (HK (c * k))
  | HV v => h_var_mul_k v c
  | HM m => as_HM (h_mono_mul_k m c)
  | HP p => h_poly_mul_k p c
  end.

(** the method Multiply on scalars *)
Definition h_mul (s r : hscalar) : M hscalar :=
  match s, r with
  | HK c, _ => h_k_mul c r
  | HV v, HK k => h_var_mul_k v k
  | HV v, HV w => h_var_mul_var v w
  | HV v, HM m => h_var_mul_mono v m
  | HV v, HP p => h_var_mul_poly v p
  | HM m, HK k => as_HM (h_mono_mul_k m k)
  | HM m, HV v => as_HM (h_mono_mul_var m v)
  | HM m, HM m' => as_HM (h_mono_mul_mono m m')
  | HM m, HP p => h_mono_mul_poly m p
  | HP p, HK k => h_poly_mul_k p k
  | HP p, HV v => h_poly_mul_var p v
  | HP p, HM m => h_poly_mul_mono p m
  | HP p, HP q => h_poly_mul_poly p q
  end.

(** the method Multiply with a float64, as scalar_mul_float in ModelScalar.v *)
Definition h_mul_float (s : hscalar) (f : num) : M hscalar :=
  match s with
  | HK c => h_k_mul c (HK f)
  | HV v => out <~ h_var_mul_k v f ;; h_simplified out
  | HM m => as_HM (h_mono_mul_k m f)
  | HP p => out <~ h_poly_mul_k p f ;; h_simplified out
  end.

(** expression.go:119-123 and the Minus methods *)
Definition h_minus (s r : hscalar) : M hscalar :=
  _ <~ check_scalar s ;; _ <~ check_scalar r ;; t <~ h_mul_float r nm1 ;; h_plus s t.

(** scalar_expression.go:147-167 *)
Fixpoint h_power_loop (base : hscalar) (n : nat) (result : hscalar) : M hscalar :=
  match n with O => ret result | S n' => r <~ h_mul result base ;; h_power_loop base n' r end.
Definition h_power (base : hscalar) (exponent : Z) : M hscalar :=
  _ <~ check_scalar base ;;
  _ <~ reads (fun _ => check (Z.leb 0 exponent) PNegExp) ;;
  h_power_loop base (Z.to_nat exponent) (HK n1).

(** ** Substitute *)

(** variable.go:495-523 *)
Definition h_var_substitute (v vIn : var) (e : hscalar) : M hscalar :=
  _ <~ check_var v ;; _ <~ check_var vIn ;; _ <~ check_scalar e ;;
  ret (if same_id v vIn && env_eqb (v_env v) (v_env vIn) then e else HV v).

(** monomial.go:659-661 *)
Definition h_subst_loop (sub : var -> M hscalar) (m : hmono) : M hscalar :=
  forM (fun prod i =>
    v <~ get_var (h_vars m) i ;;
    b <~ sub v ;;
    e <~ get_int (h_exps m) i ;;
    pw <~ h_power b e ;;
    h_mul prod pw)
  (indices (h_vars m)) (HK (h_coeff m)).

(** monomial.go:630-665: the monomial itself is returned if the variable does not occur *)
Definition h_mono_substitute (m : hmono) (vIn : var) (e : hscalar) : M hscalar :=
  _ <~ check_mono m ;; _ <~ check_var vIn ;; _ <~ check_scalar e ;;
  i <~ reads (fun h => Ok (find_var vIn (view (hv h) (h_vars m)))) ;;
  match i with
  | None => ret (HM m)
  | Some _ => h_subst_loop (fun v => h_var_substitute v vIn e) m
  end.

(** polynomial.go:718-743 *)
Definition h_poly_substitute (p : slice) (vIn : var) (e : hscalar) : M hscalar :=
  _ <~ check_poly p ;; _ <~ check_var vIn ;; _ <~ check_scalar e ;;
  out <~ forM (fun acc i => m <~ get_mono p i ;; t <~ h_mono_substitute m vIn e ;; h_plus acc t) (indices p) (HK n0) ;;
  h_simplified out.

(** the method Substitute on scalars; constant.go:331-333 *)
Definition h_substitute (s : hscalar) (vIn : var) (e : hscalar) : M hscalar :=
  match s with
  | HK k => ret (HK k)
  | HV v => h_var_substitute v vIn e
  | HM m => h_mono_substitute m vIn e
  | HP p => h_poly_substitute p vIn e
  end.

(** ** DerivativeWrt *)

(** monomial.go:484-528.  Line 520 copies the header [m], so that the write in line 522 goes to the receiver's exponents. *)
Definition h_mono_derivative (m : hmono) (vIn : var) : M hscalar :=
  _ <~ check_mono m ;;
  _ <~ check_var vIn ;;
  k <~ reads (fun h => Ok (find_var vIn (view (hv h) (h_vars m)))) ;;
  match k with
  | None => ret (HK n0)
  | Some k =>
      e <~ get_int (h_exps m) k ;;
      if Z.eqb e 1 && Nat.eqb (s_len (h_vars m)) 1 then ret (HK (h_coeff m))
      else if Z.eqb e 1 then
        st <~ forM (fun (st : slice * slice) i =>
               v <~ get_var (h_vars m) i ;;
               if Nat.eqb i k then ret st
               else
                 vs <~ append_vars (fst st) [v] ;;
                 x <~ get_int (h_exps m) i ;;
                 es <~ append_ints (snd st) [x] ;;
                 ret (vs, es))
             (indices (h_vars m)) (nil_slice, nil_slice) ;;
        ret (HM (mkHM (h_coeff m) (snd st) (fst st)))
      else
        _ <~ put_int (h_exps m) k (e - 1)%Z ;;
        ret (HM (h_set_coeff m (h_coeff m * nofZ e)))
  end.

(** polynomial.go:560-602 *)
Definition h_poly_derivative (p : slice) (vIn : var) : M hscalar :=
  _ <~ check_poly p ;;
  _ <~ check_var vIn ;;
  out <~ forM (fun out i =>
      m <~ get_mono p i ;;
      c <~ reads (fun h => mono_is_constant (rd_mono h m)) ;;
      if c : bool then ret out
      else
        d <~ h_mono_derivative m vIn ;;
        match d with
        | HM dm => append_monos out [dm]
        | HK k => if k =? n0 then ret out else append_monos out [hk_to_mono k]
        | _ => fail POther
        end)
    (indices p) nil_slice ;;
  ret (if Nat.eqb (s_len out) 0 then HK n0 else HP out).

(** the method DerivativeWrt on scalars; constant.go:316-318, variable.go:464-482 *)
Definition h_derivative (s : hscalar) (vIn : var) : M hscalar :=
  match s with
  | HK _ => ret (HK n0)
  | HV w => _ <~ check_var w ;; _ <~ check_var vIn ;; ret (HK (if same_id w vIn then n1 else n0))
  | HM m => h_mono_derivative m vIn
  | HP p => h_poly_derivative p vIn
  end.

(** ** DerivativeWrt of vectors and matrices *)

(** the vectors that occur as results: KVector, MonomialVector (a slice of Monomial), PolynomialVector (a slice of Polynomial) *)
Inductive hvector :=
| HVK (l : list num)
| HVM (s : slice)
| HVP (s : slice).
Definition rd_vec (h : heap) (x : hvector) : vector :=
  match x with
  | HVK l => VK l
  | HVM s => VM (map (rd_mono h) (view (hm h) s))
  | HVP s => VP (map (rd_poly h) (view (hp h) s))
  end.

(** monomial_vector.go:335-379: DerivativeWrt is called twice on every entry, lines 346 and 350.  The slice [ev] holds expression
    headers and never leaves the function; it is a list here. *)
Definition h_monovec_derivative (mv : slice) (v : var) : M hvector :=
  _ <~ reads (fun h => check (vec_check (rd_vec h (HVM mv))) PCheck) ;;
  st <~ forM (fun (st : bool * list hscalar) i =>
      m <~ get_mono mv i ;;
      d1 <~ h_mono_derivative m v ;;
      let present := match d1 with HM _ => true | _ => fst st end in
      d2 <~ h_mono_derivative m v ;;
      ret (present, snd st ++ [d2]))
    (indices mv) (false, []) ;;
  if fst st then
    out <~ forM (fun out d =>
        match d with
        | HM m => append_monos out [m]
        | HK k => append_monos out [hk_to_mono k]
        | _ => fail PUnsupported
        end)
      (snd st) nil_slice ;;
    ret (HVM out)
  else
    ks <~ forM (fun ks d => match d with HK k => ret (ks ++ [k]) | _ => fail PRuntime end) (snd st) [] ;;
    ret (HVK ks).

(** polynomial_vector.go:383-393: [derivative] is the receiver's own slice (line 385); there is no Check *)
Definition h_polyvec_derivative (pv : slice) (vIn : var) : M hvector :=
  _ <~ forM (fun _ i =>
      p <~ get_poly pv i ;;
      d <~ h_poly_derivative p vIn ;;
      match d with HP q => put_poly pv i q | _ => fail PRuntime end)
    (indices pv) tt ;;
  ret (HVP pv).

(** monomial_matrix.go:450-476.  A matrix is the list of its rows, the slice of rows itself is never written.  The result is given as the
    value at the time of the return (ConcretizeMatrixExpression copies headers, so it may share memory with the receiver). *)
Definition h_monomat_derivative (mm : list slice) (vIn : var) : M matrix :=
  _ <~ reads (fun h => check (mat_check (MM (map (fun r => map (rd_mono h) (view (hm h) r)) mm))) PCheck) ;;
  _ <~ check_var vIn ;;
  rows <~ forM (fun rows r =>
      row <~ forM (fun row i => m <~ get_mono r i ;; d <~ h_mono_derivative m vIn ;; ret (row ++ [d])) (indices r) [] ;;
      ret (rows ++ [row]))
    mm [] ;;
  reads (fun h => concretize_matrix (map (map (rd h)) rows)).

(** polynomial_matrix.go:419-445; the rows of the result are lists of Polynomial headers *)
Definition h_polymat_derivative (pm : list slice) (vIn : var) : M (list (list slice)) :=
  _ <~ reads (fun h => check (mat_check (MP (map (fun r => map (rd_poly h) (view (hp h) r)) pm))) PCheck) ;;
  _ <~ check_var vIn ;;
  forM (fun rows r =>
      row <~ forM (fun row i =>
               p <~ get_poly r i ;;
               d <~ h_poly_derivative p vIn ;;
               match d with HP q => ret (row ++ [q]) | _ => fail PRuntime end)
             (indices r) [] ;;
      ret (rows ++ [row]))
    pm [].

End ModelHeap2.
