(** * Model of constraints and of SubstituteAccordingTo with memory

    The functions of ModelSC.v and ModelConstr.v again, on sides that are expressions in the heap of ModelHeap.v.  A constraint holds its two
    sides, not copies of them; which calls make new sides and which take over memory is as in the code.

    Methods that only read (Check, Len, Dims, IsLinear, Degree, Constant, Variables, LinearCoeff) are their versions on values, applied to what
    the heap holds at the time of the call. *)

From Coq Require Import ZArith NArith Bool List.
From Verif Require Import Num Syntax ModelScalar ModelShape ModelArith ModelSC ModelConstr ModelHeap ModelHeapArr.
Import ListNotations.
Local Open Scope num_scope.

Section ModelHeapCon.
Context {NN : Num} {RT : Runtime}.

(** ** SubstituteAccordingTo *)

(** a map[Variable]Expression whose values are expressions in memory; its order is the iteration order, as for [submap] *)
Definition hsubmap := list (var * aexpr).
Definition rd_submap (h : heap) (sm : hsubmap) : submap := map (fun kv => (fst kv, rd_aexpr h (snd kv))) sm.
(** utils.go:151-189 *)
Definition check_hsubmap (sm : hsubmap) : M unit := reads (fun h => check (check_submap (rd_submap h sm)) PCheck).
(** subMap[v] *)
Fixpoint h_lookup (sm : hsubmap) (v : var) : option aexpr :=
  match sm with
  | [] => None
  | (k, e) :: sm' => if var_eqb v k then Some e else h_lookup sm' v
  end.
(** variable.go:526-544: the expression of the map itself is returned *)
Definition h_var_substitute_map (v : var) (sm : hsubmap) : M hscalar :=
  _ <~ check_var v ;;
  _ <~ check_hsubmap sm ;;
  match h_lookup sm v with
  | Some (AES s) => ret s
  | Some _ => fail PRuntime
  | None => ret (HV v)
  end.
(** monomial.go:668-693 *)
Definition h_mono_substitute_map (m : hmono) (sm : hsubmap) : M hscalar :=
  _ <~ check_mono m ;;
  _ <~ check_hsubmap sm ;;
  h_subst_loop (fun v => h_var_substitute_map v sm) m.
(** polynomial.go:746-766 *)
Definition h_poly_substitute_map (p : slice) (sm : hsubmap) : M hscalar :=
  _ <~ check_poly p ;;
  _ <~ check_hsubmap sm ;;
  forM (fun acc i => m <~ get_mono p i ;; t <~ h_mono_substitute_map m sm ;; h_plus acc t) (indices p) (HK n0).
(** constant.go:336-338 *)
Definition h_scalar_substitute_map (s : hscalar) (sm : hsubmap) : M hscalar :=
  match s with
  | HK k => ret (HK k)
  | HV v => h_var_substitute_map v sm
  | HM m => h_mono_substitute_map m sm
  | HP p => h_poly_substitute_map p sm
  end.
(** the assertion [expr.(ScalarExpression)] *)
Definition as_hscalar (e : aexpr) : M hscalar := match e with AES s => ret s | _ => fail PRuntime end.
(** variable_vector.go:466-487, monomial_vector.go:502-521, polynomial_vector.go:491-511, constant_vector.go:497-499 *)
Definition avec_substitute_map (v : avec) (sm : hsubmap) : M avec :=
  match v with
  | AVK _ => ret v
  | _ =>
      _ <~ check_avec v ;;
      _ <~ check_hsubmap sm ;;
      forM (fun out kv => s <~ as_hscalar (snd kv) ;; avec_substitute out (fst kv) s) sm v
  end.
(** variable_matrix.go:572-592, monomial_matrix.go:573-592, polynomial_matrix.go:579-599, constant_matrix.go:577-579 *)
Definition amat_substitute_map (m : amat) (sm : hsubmap) : M amat :=
  match m with
  | AMK _ => ret m
  | _ =>
      _ <~ check_amat m ;;
      _ <~ check_hsubmap sm ;;
      forM (fun out kv => s <~ as_hscalar (snd kv) ;; amat_substitute out (fst kv) s) sm m
  end.
Definition aexpr_substitute_map (e : aexpr) (sm : hsubmap) : M aexpr :=
  match e with
  | AES s => r <~ h_scalar_substitute_map s sm ;; ret (AES r)
  | AEV v => r <~ avec_substitute_map v sm ;; ret (AEV r)
  | AEM m => r <~ amat_substitute_map m sm ;; ret (AEM r)
  end.

(** ** Constraints: scalar_constraint.go:11-17, vector_constraint.go:11-16, matrix_constraint.go:10-15 *)
Record hsc := mkHSC { hs_left : hscalar; hs_right : hscalar; hs_sense : sense }.
Record hvc := mkHVC { hv_left : avec; hv_right : avec; hv_sense : sense }.
Record hmc := mkHMC { hm_left : amat; hm_right : amat; hm_sense : sense }.
Inductive acon := ACS (c : hsc) | ACV (c : hvc) | ACM (c : hmc).

(** their values in a heap *)
Definition rd_sc (h : heap) (c : hsc) : scalar_constraint := mkSC (rd h (hs_left c)) (rd h (hs_right c)) (hs_sense c).
Definition rd_vc (h : heap) (c : hvc) : vector_constraint := mkVC (rd_avec h (hv_left c)) (rd_avec h (hv_right c)) (hv_sense c).
Definition rd_mc (h : heap) (c : hmc) : matrix_constraint := mkMC (rd_amat h (hm_left c)) (rd_amat h (hm_right c)) (hm_sense c).
Definition rd_acon (h : heap) (c : acon) : constraint := match c with ACS c => CS (rd_sc h c) | ACV c => CV (rd_vc h c) | ACM c => CM (rd_mc h c) end.

(** Left and Right return the sides themselves: scalar_constraint.go:20-27, vector_constraint.go:84-91, matrix_constraint.go:18-25 *)
Definition acon_left (c : acon) : aexpr := match c with ACS c => AES (hs_left c) | ACV c => AEV (hv_left c) | ACM c => AEM (hm_left c) end.
Definition acon_right (c : acon) : aexpr := match c with ACS c => AES (hs_right c) | ACV c => AEV (hv_right c) | ACM c => AEM (hm_right c) end.

(** ** Comparison: both sides are taken over with their memory *)

(** utils.go:130-145 behind [if IsExpression(rightIn)]; it reads *)
Definition a_comparison_check (e : aexpr) (g : aval) (s : sense) : M unit := reads (fun h => comparison_check (rd_aexpr h e) (rd_aval h g) s).
(** constant.go:177-242 *)
Definition ak_comparison (c : num) (g : aval) (s : sense) : M acon :=
  _ <~ check_aval g ;;
  match g with
  | AFloat f => ret (ACS (mkHSC (HK c) (HK f) s))
  | AExpr (AES b) => ret (ACS (mkHSC (HK c) b s))
  | AVecDense l | AVecDenseP l | AExpr (AEV (AVK l)) => ret (ACV (mkHVC (AVK (repeat c (length l))) (AVK l) s))
  | AExpr (AEV (AVV l)) => ret (ACV (mkHVC (AVK (repeat c (length l))) (AVV l) s))
  | _ => fail PUnsupported
  end.
(** variable.go:196-242, monomial.go:271-316, polynomial.go:391-435 *)
Definition h_comparison (a : hscalar) (g : aval) (s : sense) : M acon :=
  match a with
  | HK c => ak_comparison c g s
  | _ =>
      _ <~ check_scalar a ;;
      _ <~ check_aval g ;;
      match g with
      | AFloat f => ret (ACS (mkHSC a (HK f) s))
      | AInt z => ret (ACS (mkHSC a (HK (nofZ z)) s))
      | AExpr (AES b) => ret (ACS (mkHSC a b s))
      | _ => fail (unsupported (match a with HV _ => false | _ => true end) s)
      end
  end.
(** constant_vector.go:236-271, variable_vector.go:268-291, monomial_vector.go:289-331, polynomial_vector.go:309-359 *)
Definition avec_comparison_right (v : avec) (g : aval) (s : sense) : M avec :=
  n <~ avec_len v ;;
  match v, g with
  | AVK _, AFloat f => l <~ pure (constant_vector n f) ;; ret (AVK l)
  | AVK _, AInt z => l <~ pure (constant_vector n (nofZ z)) ;; ret (AVK l)
  | AVK _, AExpr (AES (HK k)) => l <~ pure (constant_vector n k) ;; ret (AVK l)
  | AVK _, (AVecDense l | AVecDenseP l) => ret (AVK l)
  | AVK _, AExpr (AEV w) => ret w
  | AVV _, (AVecDense l | AVecDenseP l) => ret (AVK l)
  | AVV _, AExpr (AEV w) => ret w
  | AVM _, (AFloat k | AExpr (AES (HK k))) => l <~ pure (constant_vector n k) ;; ret (AVK l)
  | AVM _, AExpr (AEV (AVP _)) => fail (unsupported true s)
  | AVM _, AExpr (AEV w) => ret w
  | AVM _, _ => fail (unsupported true s)
  | AVP _, (AFloat k | AExpr (AES (HK k))) => l <~ pure (constant_vector n k) ;; ret (AVK l)
  | AVP _, (AVecDense l | AVecDenseP l) => ret (AVK l)
  | AVP _, AExpr (AEV w) => ret w
  | _, _ => fail PUnsupported
  end.
(** constant_vector.go:212-272, variable_vector.go:246-292, monomial_vector.go:267-332, polynomial_vector.go:289-360 *)
Definition avec_comparison (v : avec) (g : aval) (s : sense) : M acon :=
  _ <~ check_avec v ;;
  _ <~ a_comparison_check (AEV v) g s ;;
  w <~ avec_comparison_right v g s ;;
  ret (ACV (mkHVC v w s)).
(** constant_matrix.go:385-417, variable_matrix.go:362-393, monomial_matrix.go:380-429, polynomial_matrix.go:367-397 *)
Definition amat_comparison_right (m : amat) (g : aval) (s : sense) : M amat :=
  match m, g with
  | AMK _, AExpr (AES (HK k)) => d <~ amat_dims m ;; l <~ pure (constant_matrix d k) ;; ret (AMK l)
  | AMK _, (ADense l | ADenseP l) => ret (AMK l)
  | AMK _, AExpr (AEM w) => ret w
  | AMK _, _ => fail (unsupported true s)
  | AMV _, (AFloat k | AExpr (AES (HK k))) => d <~ amat_dims m ;; l <~ pure (constant_matrix d k) ;; ret (AMK l)
  | AMV _, ADense l => ret (AMK l)
  | AMV _, AExpr (AEM w) => ret w
  | AMV _, _ => fail (unsupported true s)
  | AMM _, (AFloat k | AExpr (AES (HK k))) => d <~ amat_dims m ;; l <~ pure (constant_matrix d k) ;; ret (AMK l)
  | AMM _, (ADense l | ADenseP l) => ret (AMK l)
  | AMM _, AExpr (AEM w) => ret w
  | AMM _, _ => fail (unsupported true s)
  | AMP _, (AFloat k | AExpr (AES (HK k))) => d <~ amat_dims m ;; l <~ pure (constant_matrix d k) ;; ret (AMK l)
  | AMP _, (ADense l | ADenseP l) => ret (AMK l)
  | AMP _, AExpr (AEM (AMK l)) => ret (AMK l)
  | AMP _, _ => fail PUnsupported
  end.
(** constant_matrix.go:362-419, variable_matrix.go:339-393, monomial_matrix.go:361-429, polynomial_matrix.go:343-397 *)
Definition amat_comparison (m : amat) (g : aval) (s : sense) : M acon :=
  _ <~ check_amat m ;;
  _ <~ a_comparison_check (AEM m) g s ;;
  w <~ amat_comparison_right m g s ;;
  ret (ACM (mkHMC m w s)).
(** the method Comparison, with LessEq, GreaterEq and Eq: the lines are those cited at expr_comparison in ModelConstr.v *)
Definition aexpr_comparison (e : aexpr) (g : aval) (s : sense) : M acon :=
  match e with AES a => h_comparison a g s | AEV v => avec_comparison v g s | AEM m => amat_comparison m g s end.

(** ** Scalar constraints *)

(** expression.go:119-123 behind the checks of constant.go:125-141, variable.go:136-158, monomial.go:121-143, polynomial.go:190-212 *)
Definition h_minus (s r : hscalar) : M hscalar :=
  _ <~ check_scalar s ;;
  _ <~ check_scalar r ;;
  t <~ h_mul_float r nm1 ;;
  h_plus s t.
(** scalar_constraint.go:65-86, 31-33, 99-113 *)
Definition h_sc_check (c : hsc) : M unit := reads (fun h => check (sc_check (rd_sc h c)) PCheck).
Definition h_sc_require_linear (c : hsc) : M unit := reads (fun h => sc_require_linear (rd_sc h c)).
(** scalar_constraint.go:37-57, 245-247: with a constant on the right the constraint itself is returned *)
Definition h_sc_simplify (c : hsc) : M hsc :=
  match hs_right c with
  | HK _ => ret c
  | r =>
      d <~ h_minus (hs_left c) r ;;
      k <~ reads (fun h => scalar_constant (rd h r)) ;;
      lhs <~ h_plus_float d k ;;
      k' <~ reads (fun h => scalar_constant (rd h r)) ;;
      ret (mkHSC lhs (HK k') (hs_sense c))
  end.
(** scalar_constraint.go:91-135 *)
Definition h_sc_linear_inequality (c : hsc) (wrt : list (list var)) : M (list num * num) :=
  _ <~ h_sc_check c ;;
  _ <~ h_sc_require_linear c ;;
  d <~ h_minus (hs_left c) (hs_right c) ;;
  a <~ reads (fun h => scalar_linear_coeff (rd h d) wrt) ;;
  let a := if sense_eqb (hs_sense c) SenseGe then map (fun x => nm1 * x) a else a in
  b <~ reads (fun h => sc_rhs (rd_sc h c)) ;;
  ret (a, if sense_eqb (hs_sense c) SenseGe then - b else b).
(** scalar_constraint.go:140-184 *)
Definition h_sc_linear_equality (c : hsc) (wrt : list (list var)) : M (list num * num) :=
  _ <~ h_sc_check c ;;
  _ <~ h_sc_require_linear c ;;
  _ <~ pure (check (sense_eqb (hs_sense c) SenseEq) PEqRequired) ;;
  d <~ h_minus (hs_left c) (hs_right c) ;;
  a <~ reads (fun h => scalar_linear_coeff (rd h d) wrt) ;;
  b <~ reads (fun h => sc_rhs (rd_sc h c)) ;;
  ret (a, b).
(** scalar_constraint.go:188-207 *)
Definition h_sc_substitute (c : hsc) (v : var) (e : hscalar) : M hsc :=
  _ <~ h_sc_check c ;;
  l <~ h_substitute (hs_left c) v e ;;
  r <~ h_substitute (hs_right c) v e ;;
  ret (mkHSC l r (hs_sense c)).
(** scalar_constraint.go:211-230 *)
Definition h_sc_substitute_map (c : hsc) (sm : hsubmap) : M hsc :=
  _ <~ h_sc_check c ;;
  l <~ h_scalar_substitute_map (hs_left c) sm ;;
  r <~ h_scalar_substitute_map (hs_right c) sm ;;
  ret (mkHSC l r (hs_sense c)).
(** scalar_constraint.go:256-285 *)
Definition h_sc_scale_by (c : hsc) (f : num) : M hsc :=
  _ <~ h_sc_check c ;;
  l <~ h_mul_float (hs_left c) f ;;
  r <~ h_mul_float (hs_right c) f ;;
  ret (mkHSC l r
         (if f <? n0
          then match hs_sense c with SenseLe => SenseGe | SenseGe => SenseLe | s => s end
          else hs_sense c)).
(** scalar_constraint.go:288-393 *)
Definition h_sc_implies (o : orders) (c other : hsc) : M bool :=
  _ <~ h_sc_check c ;;
  _ <~ h_sc_check other ;;
  c <~ h_sc_simplify c ;;
  other <~ h_sc_simplify other ;;
  v1 <~ reads (fun h => sc_variables (o 0) (rd_sc h c)) ;;
  one <~ (if Nat.eqb (length v1) 1
          then v2 <~ reads (fun h => sc_variables (o 1) (rd_sc h other)) ;; ret (Nat.eqb (length v2) 1)
          else ret false) ;;
  u1 <~ reads (fun h => sc_variables (o 2) (rd_sc h c)) ;;
  u2 <~ reads (fun h => sc_variables (o 3) (rd_sc h other)) ;;
  if one && Nat.eqb (length (union_of_variables [u1; u2])) 1 then
    w1 <~ reads (fun h => sc_variables (o 4) (rd_sc h c)) ;;
    a1 <~ reads (fun h => scalar_linear_coeff (rd h (hs_left c)) [w1]) ;;
    x1 <~ pure (index a1 0) ;;
    w2 <~ reads (fun h => sc_variables (o 5) (rd_sc h other)) ;;
    a2 <~ reads (fun h => scalar_linear_coeff (rd h (hs_left other)) [w2]) ;;
    x2 <~ pure (index a2 0) ;;
    c <~ h_sc_scale_by c (n1 / x1) ;;
    other <~ h_sc_scale_by other (n1 / x2) ;;
    if sense_eqb (hs_sense c) (hs_sense other) || sense_eqb (hs_sense c) SenseEq || sense_eqb (hs_sense other) SenseEq then
      b1 <~ reads (fun h => scalar_constant (rd h (hs_right c))) ;;
      b2 <~ reads (fun h => scalar_constant (rd h (hs_right other))) ;;
      pure (sc_compare_bounds (hs_sense c) (hs_sense other) b1 b2)
    else ret false
  else ret false.
(** scalar_constraint.go:398-448 *)
Definition h_sc_is_nonnegativity (o : orders) (c : hsc) : M bool :=
  _ <~ h_sc_check c ;;
  s <~ h_sc_simplify c ;;
  v <~ reads (fun h => sc_variables (o 0) (rd_sc h s)) ;;
  if negb (Nat.eqb (length v) 1) then ret false
  else
    d <~ reads (fun h => scalar_degree (rd h (hs_left s))) ;;
    if negb (Z.eqb d 1) then ret false
    else
      match hs_right s with
      | HK k =>
          if negb (k =? n0) then ret false
          else
            a <~ reads (fun h => scalar_linear_coeff (rd h (hs_left s)) []) ;;
            x <~ pure (index a 0) ;;
            ret (((n0 <? x) && sense_eqb (hs_sense s) SenseGe) || ((x <? n0) && sense_eqb (hs_sense s) SenseLe))
      | _ => fail PRuntime
      end.

(** ** Vector constraints *)

(** vector_constraint.go:52-79, 115-129 *)
Definition h_vc_check (c : hvc) : M unit := reads (fun h => vc_check (rd_vc h c)).
Definition h_vc_require_linear (c : hvc) : M unit := reads (fun h => vc_require_linear (rd_vc h c)).
(** vector_constraint.go:258-267 *)
Definition h_vc_len (c : hvc) : M nat := _ <~ h_vc_check c ;; avec_len (hv_left c).
(** vector_constraint.go:31-49: the entries themselves *)
Definition h_vc_at_vec (c : hvc) (i : Z) : M hsc :=
  _ <~ h_vc_check c ;;
  n <~ h_vc_len c ;;
  _ <~ pure (check (in_range i n) PIndex) ;;
  l <~ avec_at_vec (hv_left c) i ;;
  r <~ avec_at_vec (hv_right c) i ;;
  ret (mkHSC l r (hv_sense c)).
Definition as_avec (e : aexpr) : M avec := match e with AEV v => ret v | _ => fail PRuntime end.
(** x.Minus(x.Constant()) *)
Definition avec_without_constant (v : avec) : M aexpr :=
  k <~ reads (fun h => vec_constant (rd_avec h v)) ;; aexpr_minus (AEV v) (AVecDense k).
(** vector_constraint.go:140-144 and 205-209 *)
Definition h_vc_moved (c : hvc) : M avec :=
  r <~ avec_without_constant (hv_right c) ;;
  r <~ as_avec r ;;
  l <~ aexpr_minus (AEV (hv_left c)) (AExpr (AEV r)) ;;
  as_avec l.
(** vector_constraint.go:105-167; the matrix and the vector that Scale, SubVec and ScaleVec write are new *)
Definition h_vc_linear_inequality (c : hvc) (wrt : list (list var)) : M (list (list num) * list num) :=
  _ <~ h_vc_check c ;;
  _ <~ h_vc_require_linear c ;;
  _ <~ pure (check (negb (sense_eqb (hv_sense c) SenseEq)) PIneqRequired) ;;
  l <~ h_vc_moved c ;;
  A <~ reads (fun h => vec_linear_coeff (rd_avec h l) wrt) ;;
  let A := if sense_eqb (hv_sense c) SenseGe then map (map (fun x => nm1 * x)) A else A in
  b <~ reads (fun h => vc_constants (rd_vc h c)) ;;
  ret (A, if sense_eqb (hv_sense c) SenseGe then map (fun x => nm1 * x) b else b).
(** vector_constraint.go:172-223 *)
Definition h_vc_linear_equality (c : hvc) (wrt : list (list var)) : M (list (list num) * list num) :=
  _ <~ h_vc_check c ;;
  _ <~ h_vc_require_linear c ;;
  _ <~ pure (check (sense_eqb (hv_sense c) SenseEq) PEqRequired) ;;
  l <~ h_vc_moved c ;;
  A <~ reads (fun h => vec_linear_coeff (rd_avec h l) wrt) ;;
  b <~ reads (fun h => vc_constants (rd_vc h c)) ;;
  ret (A, b).
(** vector_constraint.go:226-239 *)
Definition h_vc_substitute (c : hvc) (x : var) (e : hscalar) : M hvc :=
  _ <~ h_vc_check c ;;
  l <~ avec_substitute (hv_left c) x e ;;
  r <~ avec_substitute (hv_right c) x e ;;
  ret (mkHVC l r (hv_sense c)).
(** vector_constraint.go:242-255 *)
Definition h_vc_substitute_map (c : hvc) (sm sm' : hsubmap) : M hvc :=
  _ <~ h_vc_check c ;;
  l <~ avec_substitute_map (hv_left c) sm ;;
  r <~ avec_substitute_map (hv_right c) sm' ;;
  ret (mkHVC l r (hv_sense c)).
(** vector_constraint.go:270-294 *)
Definition h_vc_simplified (c : hvc) : M hvc :=
  _ <~ h_vc_check c ;;
  l <~ avec_without_constant (hv_left c) ;;
  r <~ avec_without_constant (hv_right c) ;;
  lhs <~ aexpr_minus l (AExpr r) ;;
  rk <~ reads (fun h => vec_constant (rd_avec h (hv_right c))) ;;
  lk <~ reads (fun h => vec_constant (rd_avec h (hv_left c))) ;;
  rhs <~ aexpr_minus (AEV (AVK rk)) (AVecDense lk) ;;
  lhs <~ as_avec lhs ;;
  rhs <~ as_avec rhs ;;
  ret (mkHVC lhs rhs (hv_sense c)).

(** ** Matrix constraints *)

(** matrix_constraint.go:35-81 *)
Definition h_mc_check (c : hmc) : M unit := reads (fun h => mc_check (rd_mc h c)).
(** matrix_constraint.go:85-94 *)
Definition h_mc_dims (c : hmc) : M (nat * nat) := _ <~ h_mc_check c ;; amat_dims (hm_left c).
(** matrix_constraint.go:97-115 *)
Definition h_mc_at (c : hmc) (i j : Z) : M hsc :=
  _ <~ h_mc_check c ;;
  d <~ h_mc_dims c ;;
  _ <~ pure (check (in_range i (fst d) && in_range j (snd d)) PIndex) ;;
  l <~ amat_at (hm_left c) i j ;;
  r <~ amat_at (hm_right c) i j ;;
  ret (mkHSC l r (hm_sense c)).
(** matrix_constraint.go:124-138 *)
Definition h_mc_substitute (c : hmc) (x : var) (e : hscalar) : M hmc :=
  _ <~ h_mc_check c ;;
  l <~ amat_substitute (hm_left c) x e ;;
  r <~ amat_substitute (hm_right c) x e ;;
  ret (mkHMC l r (hm_sense c)).
(** matrix_constraint.go:142-156 *)
Definition h_mc_substitute_map (c : hmc) (sm sm' : hsubmap) : M hmc :=
  _ <~ h_mc_check c ;;
  l <~ amat_substitute_map (hm_left c) sm ;;
  r <~ amat_substitute_map (hm_right c) sm' ;;
  ret (mkHMC l r (hm_sense c)).
(** x.Minus(x.Constant()) *)
Definition amat_without_constant (m : amat) : M aexpr :=
  k <~ reads (fun h => mat_constant (rd_amat h m)) ;; aexpr_minus (AEM m) (ADense k).
(** matrix_constraint.go:159-177 *)
Definition h_mc_simplified (c : hmc) : M hmc :=
  l <~ amat_without_constant (hm_left c) ;;
  r <~ amat_without_constant (hm_right c) ;;
  lhs <~ aexpr_minus l (AExpr r) ;;
  rk <~ reads (fun h => mat_constant (rd_amat h (hm_right c))) ;;
  lk <~ reads (fun h => mat_constant (rd_amat h (hm_left c))) ;;
  rhs <~ aexpr_minus (AEM (AMK rk)) (ADense lk) ;;
  lhs <~ as_amat lhs ;;
  rhs <~ as_amat rhs ;;
  ret (mkHMC lhs rhs (hm_sense c)).

(** ** The Constraint interface *)

Definition acon_check (c : acon) : M unit := reads (fun h => con_check (rd_acon h c)).
(** constraint.go:55-82, vector_constraint.go:297-299, matrix_constraint.go:180-182, scalar_constraint.go:250-252 *)
Definition acon_variables (order : list var -> list var) (c : acon) : M (list var) := reads (fun h => con_variables order (rd_acon h c)).
(** scalar_constraint.go:31-33, vector_constraint.go:98-100, matrix_constraint.go:119-121 *)
Definition acon_is_linear (c : acon) : M bool := reads (fun h => con_is_linear (rd_acon h c)).
(** constraint.go:86-118 *)
Definition acon_scalars (c : acon) : M (list hsc) :=
  match c with
  | ACS c => ret [c]
  | ACV c => n <~ h_vc_len c ;; mapH (fun i => h_vc_at_vec c (Z.of_nat i)) (seq 0 n)
  | ACM c =>
      d <~ h_mc_dims c ;;
      rows <~ mapH (fun i => mapH (fun j => h_mc_at c (Z.of_nat i) (Z.of_nat j)) (seq 0 (snd d))) (seq 0 (fst d)) ;;
      ret (concat rows)
  end.
Definition a_compile_constraints (l : list acon) : M (list hsc) := parts <~ mapH acon_scalars l ;; ret (concat parts).
(** AsSimplifiedConstraint *)
Definition acon_simplified (c : acon) : M acon :=
  match c with
  | ACS c => c' <~ h_sc_simplify c ;; ret (ACS c')
  | ACV c => c' <~ h_vc_simplified c ;; ret (ACV c')
  | ACM c => c' <~ h_mc_simplified c ;; ret (ACM c')
  end.
Definition acon_substitute (c : acon) (x : var) (e : hscalar) : M acon :=
  match c with
  | ACS c => c' <~ h_sc_substitute c x e ;; ret (ACS c')
  | ACV c => c' <~ h_vc_substitute c x e ;; ret (ACV c')
  | ACM c => c' <~ h_mc_substitute c x e ;; ret (ACM c')
  end.
Definition acon_substitute_map (c : acon) (sm sm' : hsubmap) : M acon :=
  match c with
  | ACS c => c' <~ h_sc_substitute_map c sm ;; ret (ACS c')
  | ACV c => c' <~ h_vc_substitute_map c sm sm' ;; ret (ACV c')
  | ACM c => c' <~ h_mc_substitute_map c sm sm' ;; ret (ACM c')
  end.
(** a loop that returns true at the first entry for which [f] does *)
Fixpoint any_ofH {A} (f : A -> M bool) (l : list A) : M bool :=
  match l with
  | [] => ret false
  | a :: l' => b <~ f a ;; if b : bool then ret true else any_ofH f l'
  end.
(** scalar_constraint.go:287-393, vector_constraint.go:302-336, matrix_constraint.go:185-222 *)
Definition acon_implies (o : nat -> nat -> orders) (c other : acon) : M bool :=
  _ <~ acon_check c ;;
  _ <~ acon_check other ;;
  match c, other with
  | ACS c, ACS d => h_sc_implies (o O O) c d
  | ACS c, _ => _ <~ h_sc_simplify c ;; ret false
  | ACV c, ACS d =>
      n <~ h_vc_len c ;;
      any_ofH (fun i => s <~ h_vc_at_vec c (Z.of_nat i) ;; h_sc_implies (o i O) s d) (seq 0 n)
  | ACM c, ACS d =>
      dm <~ h_mc_dims c ;;
      any_ofH (fun i => any_ofH (fun j => s <~ h_mc_at c (Z.of_nat i) (Z.of_nat j) ;; h_sc_implies (o i j) s d) (seq 0 (snd dm))) (seq 0 (fst dm))
  | _, _ => ret false
  end.

End ModelHeapCon.
