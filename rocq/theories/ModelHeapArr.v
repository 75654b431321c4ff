(** * Model of the vector and matrix expressions with memory

    The methods of ModelShape.v and ModelArith.v again, on entries that are slices in the heap of ModelHeap.v: a Monomial is a pair of slices
    and a Polynomial a slice of Monomials, and copying such a struct copies the slice headers only.  Which entries of a result are new and
    which share memory with the operands is as in the code.

    Simplification: the slices that hold the entries themselves (KVector, VariableVector, MonomialVector, PolynomialVector and the rows of the
    matrices) are lists.  The methods modelled here write only into such slices that they have made themselves; PolynomialVector.DerivativeWrt,
    which does not, is modelled in ModelHeap.v with its container in memory. *)

From Coq Require Import ZArith NArith Bool List.
From Verif Require Import Num Syntax ModelScalar ModelShape ModelArith ModelHeap.
Import ListNotations.
Local Open Scope num_scope.

Section ModelHeapArr.
Context {NN : Num} {RT : Runtime}.

(** The implementations of VectorExpression and MatrixExpression (vector_expression.go:102-121, matrix_expression.go), with entries in memory *)
Inductive avec := AVK (l : list num) | AVV (l : list var) | AVM (l : list hmono) | AVP (l : list slice).
Inductive amat := AMK (l : list (list num)) | AMV (l : list (list var)) | AMM (l : list (list hmono)) | AMP (l : list (list slice)).
(** expression.go:12-73 *)
Inductive aexpr := AES (s : hscalar) | AEV (v : avec) | AEM (m : amat).
(** a value of type interface{}, as [goval] *)
Inductive aval :=
| AFloat (f : num) | AInt (z : Z) | AVecDense (l : list num) | AVecDenseP (l : list num) | ADense (l : list (list num)) | ADenseP (l : list (list num))
| AExpr (e : aexpr) | AOther.

(** their values in a heap *)
Definition rd_avec (h : heap) (v : avec) : vector :=
  match v with AVK l => VK l | AVV l => VV l | AVM l => VM (map (rd_mono h) l) | AVP l => VP (map (rd_poly h) l) end.
Definition rd_amat (h : heap) (m : amat) : matrix :=
  match m with AMK l => MK l | AMV l => MV l | AMM l => MM (map (map (rd_mono h)) l) | AMP l => MP (map (map (rd_poly h)) l) end.
Definition rd_aexpr (h : heap) (e : aexpr) : expr :=
  match e with AES s => ES (rd h s) | AEV v => EV (rd_avec h v) | AEM m => EM (rd_amat h m) end.
Definition rd_aval (h : heap) (g : aval) : goval :=
  match g with
  | AFloat f => GFloat f | AInt z => GInt z | AVecDense l => GVec l | AVecDenseP l => GVecP l | ADense l => GDense l | ADenseP l => GDenseP l
  | AExpr e => GExpr (rd_aexpr h e) | AOther => GOther
  end.

(** code that does not use the heap *)
Definition pure {A} (r : res A) : M A := reads (fun _ => r).
(** a loop over a slice that collects its results *)
Fixpoint mapH {A B} (f : A -> M B) (l : list A) : M (list B) :=
  match l with [] => ret [] | a :: l' => b <~ f a ;; bs <~ mapH f l' ;; ret (b :: bs) end.

(** ToScalarExpressions: constant_vector.go:512-518, variable_vector.go:500-506, monomial_vector.go:564-570, polynomial_vector.go:519-525; the
    entries are not copied *)
Definition av_entries (v : avec) : list hscalar :=
  match v with AVK l => map HK l | AVV l => map HV l | AVM l => map HM l | AVP l => map HP l end.
Definition am_rows (m : amat) : list (list hscalar) :=
  match m with AMK l => map (map HK) l | AMV l => map (map HV) l | AMM l => map (map HM) l | AMP l => map (map HP) l end.

(** ** Check, Len, Dims: they read only; the lines are those cited at vec_check, mat_check, vec_len, vec_dims, mat_dims in ModelShape.v *)
Definition check_avec (v : avec) : M unit := reads (fun h => check (vec_check (rd_avec h v)) PCheck).
Definition check_amat (m : amat) : M unit := reads (fun h => check (mat_check (rd_amat h m)) PCheck).
Definition check_aexpr (e : aexpr) : M unit := reads (fun h => check (expr_check (rd_aexpr h e)) PCheck).
Definition avec_len (v : avec) : M nat := reads (fun h => vec_len (rd_avec h v)).
Definition avec_dims (v : avec) : M (nat * nat) := reads (fun h => vec_dims (rd_avec h v)).
Definition amat_dims (m : amat) : M (nat * nat) := reads (fun h => mat_dims (rd_amat h m)).
Definition aexpr_dims (e : aexpr) : M (nat * nat) := reads (fun h => expr_dims (rd_aexpr h e)).
(** constant_vector.go:87-100 and the same lines of the other methods *)
Definition a_operand_check (dims : nat * nat -> nat * nat -> bool) (left : heap -> res (nat * nat)) (g : aval) : M unit :=
  reads (fun h => operand_check dims (left h) (rd_aval h g)).

(** ** Indexing: the entry itself is returned, not a copy *)

(** AtVec: constant_vector.go:49-61, variable_vector.go:55-66, monomial_vector.go:406-415, polynomial_vector.go:72-86 *)
Definition avec_at_vec (v : avec) (i : Z) : M hscalar :=
  match v with
  | AVK l => _ <~ pure (check (in_range i (length l)) PIndex) ;; k <~ pure (index_z l i) ;; ret (HK k)
  | AVV l => _ <~ pure (check (in_range i (length l)) PIndex) ;; x <~ pure (index_z l i) ;; ret (HV x)
  | AVM l => _ <~ check_avec v ;; m <~ pure (index_z l i) ;; ret (HM m)
  | AVP l => _ <~ check_avec v ;; _ <~ pure (check (in_range i (length l)) PIndex) ;; p <~ pure (index_z l i) ;; ret (HP p)
  end.
(** At: constant_vector.go:34-46, variable_vector.go:37-52, monomial_vector.go:386-403, polynomial_vector.go:55-69 *)
Definition avec_at (v : avec) (i j : Z) : M hscalar :=
  _ <~ reads (fun h => check (match v with AVK _ => true | _ => vec_check (rd_avec h v) end) PCheck) ;;
  n <~ avec_len v ;;
  _ <~ pure (check (in_range i n && in_range j 1) PIndex) ;;
  pure (index_z (av_entries v) i).
(** At: constant_matrix.go:422-425, variable_matrix.go:442-451, monomial_matrix.go:479-488, polynomial_matrix.go:448-465 *)
Definition amat_at (m : amat) (i j : Z) : M hscalar :=
  match m with
  | AMK l => d <~ pure (k_to_dense l) ;; x <~ pure (dense_at d i j) ;; ret (HK x)
  | AMV l => _ <~ check_amat m ;; x <~ pure (rows_index l i j) ;; ret (HV x)
  | AMM l => _ <~ check_amat m ;; x <~ pure (rows_index l i j) ;; ret (HM x)
  | AMP l =>
      _ <~ check_amat m ;;
      d <~ amat_dims m ;;
      _ <~ pure (check (in_range i (fst d) && in_range j (snd d)) PIndex) ;;
      x <~ pure (rows_index l i j) ;; ret (HP x)
  end.
(** constant.go:350-360, variable.go:555-572, monomial.go:702-716, polynomial.go:777-792 *)
Definition h_scalar_at (s : hscalar) (i j : Z) : M hscalar :=
  _ <~ check_scalar s ;; _ <~ pure (check (Z.eqb i 0 && Z.eqb j 0) PIndex) ;; ret s.
Definition aexpr_at (e : aexpr) (i j : Z) : M hscalar :=
  match e with AES s => h_scalar_at s i j | AEV v => avec_at v i j | AEM m => amat_at m i j end.
Definition avec_get (v : avec) (i : nat) : M hscalar := avec_at_vec v (Z.of_nat i).
Definition amat_get (m : amat) (i j : nat) : M hscalar := amat_at m (Z.of_nat i) (Z.of_nat j).

(** ** Concretisation *)

Definition h_is_k (s : hscalar) : bool := match s with HK _ => true | _ => false end.
Definition h_is_v (s : hscalar) : bool := match s with HV _ => true | _ => false end.
Definition h_is_m (s : hscalar) : bool := match s with HM _ => true | _ => false end.
Definition h_is_p (s : hscalar) : bool := match s with HP _ => true | _ => false end.

(** the conversions of vector_expression.go:202-218 and 227-241 with constant.go:309-313, variable.go:455-459, monomial.go:549-557 (which copies);
    a Polynomial or a Monomial that needs no conversion is taken over with its memory *)
Definition h_to_poly (s : hscalar) : M slice :=
  match s with
  | HK k => make_monos [hk_to_mono k]
  | HV v => m <~ hvar_to_mono v ;; make_monos [m]
  | HM m => hmono_to_poly m
  | HP p => ret p
  end.
Definition h_to_mono (s : hscalar) : M hmono :=
  match s with HK k => ret (hk_to_mono k) | HV v => hvar_to_mono v | HM m => ret m | HP _ => fail PUnsupported end.
Definition h_to_var (s : hscalar) : M var := match s with HV v => ret v | _ => fail PUnsupported end.
Definition h_to_k (s : hscalar) : M num := match s with HK k => ret k | _ => fail POther end.

(** vector_expression.go:156-299 ConcretizeVectorExpression *)
Definition a_concretize_vector (l : list hscalar) : M avec :=
  _ <~ pure (check (nonempty l) POther) ;;
  if existsb h_is_p l then ps <~ mapH h_to_poly l ;; ret (AVP ps)
  else if existsb h_is_m l || (existsb h_is_k l && existsb h_is_v l) then ms <~ mapH h_to_mono l ;; ret (AVM ms)
  else if forallb h_is_v l then vs <~ mapH h_to_var l ;; ret (AVV vs)
  else if existsb h_is_k l then ks <~ mapH h_to_k l ;; ret (AVK ks)
  else fail POther.

(** matrix_expression.go:304-488 ConcretizeMatrixExpression *)
Definition a_concretize_matrix (l : list (list hscalar)) : M amat :=
  match l with
  | [] => fail POther
  | r0 :: _ =>
      _ <~ pure (check (forallb (fun r => Nat.eqb (length r) (length r0)) l) POther) ;;
      let all := concat l in
      if existsb h_is_p all then ps <~ mapH (mapH h_to_poly) l ;; ret (AMP ps)
      else if existsb h_is_m all || (existsb h_is_k all && existsb h_is_v all) then ms <~ mapH (mapH h_to_mono) l ;; ret (AMM ms)
      else if forallb h_is_v all then vs <~ mapH (mapH h_to_var) l ;; ret (AMV vs)
      else if existsb h_is_k all then ks <~ mapH (mapH h_to_k) l ;; ret (AMK ks)
      else fail POther
  end.

(** expression.go:246-290 ConcretizeExpression on a []ScalarExpression (256-263) *)
Definition a_concretize_slice (l : list hscalar) : M aexpr :=
  v <~ a_concretize_vector l ;;
  d <~ avec_dims v ;;
  if Nat.eqb (fst d) 1 then s <~ avec_at v 0 0 ;; ret (AES s) else ret (AEV v).
(** expression.go:265-279, on a [][]ScalarExpression *)
Definition a_concretize_rows (l : list (list hscalar)) : M aexpr :=
  m <~ a_concretize_matrix l ;;
  d <~ amat_dims m ;;
  if Nat.eqb (fst d) 1 && Nat.eqb (snd d) 1 then s <~ amat_get m 0 0 ;; ret (AES s)
  else if Nat.eqb (snd d) 1 then
    col <~ mapH (fun i => amat_get m i 0) (seq 0 (fst d)) ;;
    v <~ a_concretize_vector col ;; ret (AEV v)
  else ret (AEM m).

(** ** AsSimplifiedExpression *)

(** constant_vector.go:507, variable_vector.go:495, monomial_vector.go:541-561, polynomial_vector.go:409-441 *)
Definition avec_simplified (v : avec) : M avec :=
  match v with
  | AVK _ | AVV _ => ret v
  | AVM _ | AVP _ => _ <~ check_avec v ;; l <~ mapH h_simplified (av_entries v) ;; a_concretize_vector l
  end.
(** constant_matrix.go:589, variable_matrix.go:600, monomial_matrix.go:600-627, polynomial_matrix.go:490-517 *)
Definition amat_simplified (m : amat) : M amat :=
  match m with
  | AMK _ | AMV _ => ret m
  | AMM _ | AMP _ => _ <~ check_amat m ;; l <~ mapH (mapH h_simplified) (am_rows m) ;; a_concretize_matrix l
  end.
Definition aexpr_simplified (e : aexpr) : M aexpr :=
  match e with
  | AES s => s' <~ h_simplified s ;; ret (AES s')
  | AEV v => v' <~ avec_simplified v ;; ret (AEV v')
  | AEM m => m' <~ amat_simplified m ;; ret (AEM m')
  end.
(** [out.AsSimplifiedExpression()] on the result of a call *)
Definition a_simplify_result (x : M aexpr) : M aexpr := out <~ x ;; aexpr_simplified out.

(** ** Transpose: the entries are moved, not copied *)

(** constant_vector.go:369-381, variable_vector.go:310-321, monomial_vector.go:233-249, polynomial_vector.go:266-280 *)
Definition avec_transpose (v : avec) : M amat :=
  match v with
  | AVK l => _ <~ pure (check (nonempty l) PGonum) ;; ret (AMK [l])
  | AVV l => _ <~ check_avec v ;; ret (AMV [l])
  | AVM l => _ <~ check_avec v ;; ret (AMM [l])
  | AVP l => _ <~ check_avec v ;; ret (AMP [l])
  end.
(** constant_matrix.go:318-338, variable_matrix.go:314-336, monomial_matrix.go:333-358, polynomial_matrix.go:316-340 *)
Definition amat_transpose (m : amat) : M amat :=
  match m with
  | AMK l => dd <~ pure (k_to_dense l) ;; d <~ pure (rows_dims dd) ;; t <~ pure (transpose_rows dd (snd d)) ;; ret (AMK t)
  | AMV l => d <~ amat_dims m ;; t <~ pure (transpose_rows l (snd d)) ;; ret (AMV t)
  | AMM l => d <~ amat_dims m ;; t <~ pure (transpose_rows l (snd d)) ;; ret (AMM t)
  | AMP l => d <~ amat_dims m ;; t <~ pure (transpose_rows l (snd d)) ;; ret (AMP t)
  end.
(** constant.go:295, variable.go:373, monomial.go:239-247, polynomial.go:379-387 *)
Definition h_transpose (s : hscalar) : M hscalar :=
  match s with HK _ | HV _ => ret s | HM m => _ <~ check_mono m ;; ret s | HP p => _ <~ check_poly p ;; ret s end.
Definition aexpr_transpose (e : aexpr) : M aexpr :=
  match e with
  | AES s => s' <~ h_transpose s ;; ret (AES s')
  | AEV v => m <~ avec_transpose v ;; ret (AEM m)
  | AEM m => m' <~ amat_transpose m ;; ret (AEM m')
  end.

(** ** Stacking *)

Definition aexpr_row (e : aexpr) (ncols : nat) (i : nat) : M (list hscalar) :=
  mapH (fun j => aexpr_at e (Z.of_nat i) (Z.of_nat j)) (seq 0 ncols).
(** expression.go:156-200 HStack *)
Definition a_hstack (es : list aexpr) : M aexpr :=
  _ <~ pure (check (nonempty es) POther) ;;
  ds <~ mapH aexpr_dims es ;;
  _ <~ pure (check (neighbours_eqb (map fst ds)) PDim) ;;
  d0 <~ pure (index ds 0) ;;
  rows <~ mapH (fun i =>
            parts <~ mapH (fun ed => aexpr_row (fst ed) (snd (snd ed)) i) (combine es ds) ;;
            ret (concat parts)) (seq 0 (fst d0)) ;;
  a_concretize_rows rows.
(** expression.go:203-243 VStack *)
Definition a_vstack (es : list aexpr) : M aexpr :=
  _ <~ pure (check (nonempty es) POther) ;;
  ds <~ mapH aexpr_dims es ;;
  _ <~ pure (check (neighbours_eqb (map snd ds)) PDim) ;;
  blocks <~ mapH (fun ed => mapH (fun i => aexpr_row (fst ed) (snd (snd ed)) i) (seq 0 (fst (snd ed)))) (combine es ds) ;;
  a_concretize_rows (concat blocks).

(** ** Substitute *)

(** vector_expression.go:302-328 VectorSubstituteTemplate; constant_vector.go:491-493 returns the receiver *)
Definition avec_substitute (v : avec) (x : var) (s : hscalar) : M avec :=
  match v with
  | AVK _ => ret v
  | _ =>
      _ <~ check_avec v ;;
      _ <~ check_var x ;;
      _ <~ check_scalar s ;;
      n <~ avec_len v ;;
      l <~ mapH (fun i => a <~ avec_get v i ;; h_substitute a x s) (seq 0 n) ;;
      a_concretize_vector l
  end.
(** matrix_expression.go:273-301 MatrixSubstituteTemplate; constant_matrix.go:571-573 returns the receiver *)
Definition amat_substitute (m : amat) (x : var) (s : hscalar) : M amat :=
  match m with
  | AMK _ => ret m
  | _ =>
      _ <~ check_amat m ;;
      _ <~ check_var x ;;
      _ <~ check_scalar s ;;
      d <~ amat_dims m ;;
      l <~ mapH (fun i => mapH (fun j => a <~ amat_get m i j ;; h_substitute a x s) (seq 0 (snd d))) (seq 0 (fst d)) ;;
      a_concretize_matrix l
  end.
Definition aexpr_substitute (e : aexpr) (x : var) (s : hscalar) : M aexpr :=
  match e with
  | AES a => r <~ h_substitute a x s ;; ret (AES r)
  | AEV v => r <~ avec_substitute v x s ;; ret (AEV r)
  | AEM m => r <~ amat_substitute m x s ;; ret (AEM r)
  end.

(** ** Plus *)

Definition as_AES (x : M hscalar) : M aexpr := s <~ x ;; ret (AES s).
Definition as_AEV (x : M avec) : M aexpr := v <~ x ;; ret (AEV v).
Definition as_AEM (x : M amat) : M aexpr := m <~ x ;; ret (AEM m).

(** the method Plus with a float64: constant.go:87, variable.go:83, monomial.go:76, polynomial.go:90 *)
Definition h_plus_float (s : hscalar) (f : num) : M hscalar :=
  match s with
  | HK c => h_k_plus c (HK f)
  | HV v => out <~ h_var_plus_k v f ;; h_simplified out
  | HM m => out <~ h_mono_plus_k m f ;; h_simplified out
  | HP p => out <~ h_poly_plus_k p f ;; h_simplified out
  end.

(** vector_expression.go:390-416 VectorPlusTemplate *)
Definition avec_plus_template (v : avec) (e : aexpr) : M aexpr :=
  match e with
  | AES s => l <~ mapH (fun a => h_plus a s) (av_entries v) ;; a_concretize_slice l
  | AEV w =>
      l <~ mapH (fun ia => b <~ avec_get w (fst ia) ;; h_plus (snd ia) b) (enum (av_entries v)) ;;
      a_concretize_slice l
  | AEM _ => fail PUnsupported
  end.
(** constant_vector.go:80-101, 121-122, 139; variable_vector.go:92-107, 116-117, 135; monomial_vector.go:100-117, 126-127, 140;
    polynomial_vector.go:125-142, 152-153, 165 *)
Definition avec_plus_expr (v : avec) (e : aexpr) : M aexpr :=
  _ <~ check_avec v ;;
  _ <~ a_operand_check dims_add (fun h => vec_dims (rd_avec h v)) (AExpr e) ;;
  a_simplify_result (avec_plus_template v e).
(** constant_vector.go:80-140, variable_vector.go:87-136, monomial_vector.go:98-141, polynomial_vector.go:123-167 *)
Definition avec_plus (v : avec) (g : aval) : M aexpr :=
  _ <~ check_avec v ;;
  _ <~ a_operand_check dims_add (fun h => vec_dims (rd_avec h v)) g ;;
  match g with
  | AExpr e => a_simplify_result (avec_plus_template v e)
  | AFloat f =>
      match v with
      | AVK l =>
          if Nat.eqb (length l) 1 then k <~ pure (index l 0) ;; ret (AES (HK (k + f)))
          else o <~ pure (ones_vector (length l)) ;; a_simplify_result (avec_plus_expr v (AEV (AVK (map (fun x => f * x) o))))
      | _ => a_simplify_result (avec_plus_expr v (AES (HK f)))
      end
  | AInt z =>
      match v with
      | AVV _ | AVM _ => a_simplify_result (avec_plus_expr v (AES (HK (nofZ z))))
      | _ => fail PUnsupported
      end
  | AVecDense r | AVecDenseP r =>
      match v with
      | AVK _ | AVV _ => a_simplify_result (avec_plus_expr v (AEV (AVK r)))
      | _ => fail PUnsupported
      end
  | _ => fail PUnsupported
  end.

(** matrix_expression.go:232-269 MatrixPlusTemplate *)
Definition amat_plus_template (m r : amat) : M amat :=
  _ <~ check_amat m ;;
  _ <~ check_amat r ;;
  dl <~ amat_dims m ;;
  dr <~ amat_dims r ;;
  _ <~ pure (check (dims_eqb dl dr) PDim) ;;
  l <~ mapH (fun i => mapH (fun j => a <~ amat_get m i j ;; b <~ amat_get r i j ;; h_plus a b) (seq 0 (snd dl)))
            (seq 0 (fst dl)) ;;
  a_concretize_matrix l.

(** expressions made of numbers, which are not in memory *)
Definition of_numbers (e : expr) : res aexpr :=
  match e with ES (SK k) => Ok (AES (HK k)) | EV (VK l) => Ok (AEV (AVK l)) | EM (MK l) => Ok (AEM (AMK l)) | _ => Panic PRuntime end.
Definition numbers_only (r : res expr) : M aexpr := pure (e <- r ;; of_numbers e).

(** constant_matrix.go:59-80, 121-122, 136 *)
Definition ak_mat_plus_mat (l : list (list num)) (r : amat) : M aexpr :=
  _ <~ a_operand_check dims_add (fun _ => mat_dims (MK l)) (AExpr (AEM r)) ;;
  a_simplify_result (as_AEM (amat_plus_template (AMK l) r)).
(** constant_matrix.go:59-137 *)
Definition ak_mat_plus (l : list (list num)) (g : aval) : M aexpr :=
  _ <~ a_operand_check dims_add (fun _ => mat_dims (MK l)) g ;;
  d <~ pure (rows_dims l) ;;
  match g with
  | AFloat f => a_simplify_result (numbers_only (k_mat_plus_float l f))
  | AExpr (AES (HK f)) => a_simplify_result (a_simplify_result (numbers_only (k_mat_plus_float l f)))
  | AExpr (AES (HV x)) => a_simplify_result (ak_mat_plus_mat l (AMV (repeat (repeat x (snd d)) (fst d))))
  | ADense r => a_simplify_result (ak_mat_plus_mat l (AMK r))
  | ADenseP r => a_simplify_result (a_simplify_result (ak_mat_plus_mat l (AMK r)))
  | AExpr (AEM r) => a_simplify_result (as_AEM (amat_plus_template (AMK l) r))
  | _ => fail PUnsupported
  end.

(** variable_matrix.go:139-149 *)
Definition avar_mat_plus_k (l : list (list var)) (r : list (list num)) : M aexpr :=
  rows <~ mapH (fun ir =>
            mapH (fun jx =>
              rr <~ pure (index r (fst ir)) ;; k <~ pure (index rr (fst jx)) ;;
              s <~ h_var_plus_k (snd jx) k ;;
              match s with HP p => ret p | _ => fail PRuntime end) (enum (snd ir))) (enum l) ;;
  ret (AEM (AMP rows)).
(** variable_matrix.go:104-160 *)
Definition avar_mat_plus (l : list (list var)) (g : aval) : M aexpr :=
  _ <~ check_amat (AMV l) ;;
  _ <~ a_operand_check dims_add (fun _ => mat_dims (MV l)) g ;;
  match g with
  | AFloat f | AExpr (AES (HK f)) =>
      d <~ pure (mat_dims (MV l)) ;;
      o <~ pure (ones_matrix (fst d) (snd d)) ;;
      avar_mat_plus_k l (map (map (fun x => f * x)) o)
  | AExpr (AEM (AMK r)) => avar_mat_plus_k l r
  | _ => fail PUnsupported
  end.

(** monomial_matrix.go:123-126, 138-141, 154-157: append(nil, monomial, right); the monomial of the matrix is not copied, and the result of
    Simplify is discarded *)
Definition amono_mat_plus_one (m r : hmono) : M slice :=
  p <~ append_monos nil_slice [m; r] ;; _ <~ h_simplify p ;; ret p.
(** monomial_matrix.go:171-175, 187-191: two appends; no monomial is copied *)
Definition amono_mat_plus_poly (m : hmono) (q : slice) : M slice :=
  p <~ append_monos nil_slice [m] ;; ms <~ reads (fun h => Ok (view (hm h) q)) ;; p <~ append_monos p ms ;; _ <~ h_simplify p ;; ret p.
(** monomial_matrix.go:97-206; right.ToMonomial() is called for every entry *)
Definition amono_mat_plus (l : list (list hmono)) (g : aval) : M aexpr :=
  _ <~ check_amat (AMM l) ;;
  _ <~ a_operand_check dims_add (fun h => mat_dims (rd_amat h (AMM l))) g ;;
  match g with
  | AFloat f | AExpr (AES (HK f)) => rows <~ mapH (mapH (fun m => amono_mat_plus_one m (hk_to_mono f))) l ;; ret (AEM (AMP rows))
  | AExpr (AES (HV x)) => rows <~ mapH (mapH (fun m => r <~ hvar_to_mono x ;; amono_mat_plus_one m r)) l ;; ret (AEM (AMP rows))
  | AExpr (AES (HM r)) => rows <~ mapH (mapH (fun m => amono_mat_plus_one m r)) l ;; ret (AEM (AMP rows))
  | AExpr (AES (HP q)) => rows <~ mapH (mapH (fun m => amono_mat_plus_poly m q)) l ;; ret (AEM (AMP rows))
  | AExpr (AEM (AMP r)) =>
      rows <~ mapH (fun ir =>
                mapH (fun jm =>
                  rr <~ pure (index r (fst ir)) ;; q <~ pure (index rr (fst jm)) ;;
                  amono_mat_plus_poly (snd jm) q) (enum (snd ir))) (enum l) ;;
      ret (AEM (AMP rows))
  | _ => fail PUnsupported
  end.

(** polynomial_matrix.go:123-134, 138-149 *)
Definition apoly_mat_plus_all (l : list (list slice)) (s : hscalar) : M aexpr :=
  rows <~ mapH (mapH (fun p => h_plus (HP p) s)) l ;; a_simplify_result (a_concretize_rows rows).
(** polynomial_matrix.go:93-187 *)
Definition apoly_mat_plus (l : list (list slice)) (g : aval) : M aexpr :=
  _ <~ check_amat (AMP l) ;;
  _ <~ a_operand_check dims_add (fun h => mat_dims (rd_amat h (AMP l))) g ;;
  match g with
  | AFloat f => a_simplify_result (apoly_mat_plus_all l (HK f))
  | AExpr (AES (HK f)) => apoly_mat_plus_all l (HK f)
  | AExpr (AES (HM m)) => p <~ hmono_to_poly m ;; a_simplify_result (apoly_mat_plus_all l (HP p))
  | AExpr (AES (HP p)) => apoly_mat_plus_all l (HP p)
  | AExpr (AEM (AMK r)) =>
      rows <~ mapH (fun ir =>
                mapH (fun jp => k <~ amat_get (AMK r) (fst ir) (fst jp) ;; h_plus (HP (snd jp)) k) (enum (snd ir))) (enum l) ;;
      a_simplify_result (a_concretize_rows rows)
  | AExpr (AEM (AMP r)) =>
      rows <~ mapH (fun ir =>
                mapH (fun jp => rr <~ pure (index r (fst ir)) ;; q <~ pure (index rr (fst jp)) ;; h_plus (HP (snd jp)) (HP q)) (enum (snd ir))) (enum l) ;;
      a_simplify_result (a_concretize_rows rows)
  | _ => fail PUnsupported
  end.

Definition amat_plus (m : amat) (g : aval) : M aexpr :=
  match m with
  | AMK l => ak_mat_plus l g
  | AMV l => avar_mat_plus l g
  | AMM l => amono_mat_plus l g
  | AMP l => apoly_mat_plus l g
  end.

(** [if IsExpression(e) { check it }], as in constant.go:67-84 *)
Definition check_aval (g : aval) : M unit :=
  reads (fun h => match as_expr (rd_aval h g) with Some e => check (expr_check e) PCheck | None => Ok tt end).

(** constant.go:67-122 *)
Definition ak_plus_any (c : num) (g : aval) : M aexpr :=
  _ <~ check_aval g ;;
  match g with
  | AInt z => as_AES (h_k_plus c (HK (nofZ z)))
  | AFloat f => as_AES (h_k_plus c (HK f))
  | AExpr (AES s) => as_AES (h_k_plus c s)
  | AVecDense l | AVecDenseP l => avec_plus (AVK l) (AExpr (AES (HK c)))
  | AExpr (AEV v) => avec_plus v (AExpr (AES (HK c)))
  | ADense l | ADenseP l => amat_plus (AMK l) (AExpr (AES (HK c)))
  | AExpr (AEM m) => amat_plus m (AExpr (AES (HK c)))
  | AOther => fail PUnsupported
  end.
(** variable.go:73-132 *)
Definition avar_plus_any (v : var) (g : aval) : M aexpr :=
  _ <~ check_var v ;;
  match g with
  | AFloat f => as_AES (h_plus_float (HV v) f)
  | AInt z => as_AES (h_plus_float (HV v) (nofZ z))
  | AExpr (AES s) => as_AES (h_plus (HV v) s)
  | AVecDense l | AVecDenseP l => a_simplify_result (a_simplify_result (avec_plus (AVK l) (AExpr (AES (HV v)))))
  | AExpr (AEV w) => a_simplify_result (avec_plus w (AExpr (AES (HV v))))
  | _ => fail PUnsupported
  end.
(** monomial.go:52-118 *)
Definition amono_plus_any (m : hmono) (g : aval) : M aexpr :=
  _ <~ check_mono m ;;
  _ <~ a_operand_check dims_add (fun _ => Ok (1%nat, 1%nat)) g ;;
  match g with
  | AFloat f => as_AES (h_plus_float (HM m) f)
  | AExpr (AES s) => as_AES (h_plus (HM m) s)
  | _ => fail PUnsupported
  end.
(** polynomial.go:67-187 *)
Definition apoly_plus_any (p : slice) (g : aval) : M aexpr :=
  _ <~ check_poly p ;;
  _ <~ check_aval g ;;
  match g with
  | AFloat f => as_AES (h_plus_float (HP p) f)
  | AExpr (AES s) => as_AES (h_plus (HP p) s)
  | AExpr (AEV v) =>
      n <~ avec_len v ;;
      if Nat.eqb n 1 then a_simplify_result (as_AES (s <~ avec_get v 0 ;; h_plus (HP p) s))
      else
        l <~ mapH (fun i => s <~ avec_get v i ;; h_plus (HP p) s) (seq 0 n) ;;
        a_simplify_result (a_concretize_slice l)
  | AExpr (AEM m) =>
      d <~ amat_dims m ;;
      if Nat.eqb (fst d) 1 && Nat.eqb (snd d) 1 then a_simplify_result (as_AES (s <~ amat_get m 0 0 ;; h_plus (HP p) s))
      else
        rows <~ mapH (fun i => mapH (fun j => s <~ amat_get m i j ;; h_plus (HP p) s) (seq 0 (snd d))) (seq 0 (fst d)) ;;
        a_simplify_result (a_concretize_rows rows)
  | _ => fail PUnsupported
  end.
(** The method Plus of every expression type *)
Definition aexpr_plus (e : aexpr) (g : aval) : M aexpr :=
  match e with
  | AES (HK c) => ak_plus_any c g
  | AES (HV v) => avar_plus_any v g
  | AES (HM m) => amono_plus_any m g
  | AES (HP p) => apoly_plus_any p g
  | AEV v => avec_plus v g
  | AEM m => amat_plus m g
  end.

(** ** Multiply *)

(** vector_expression.go:365-386 VectorMultiplyTemplate *)
Definition avec_mul_template (v : avec) (s : hscalar) : M aexpr :=
  l <~ mapH (fun a => h_mul a s) (av_entries v) ;; a_concretize_slice l.
(** constant_vector.go:306-338, variable_vector.go:203-204, monomial_vector.go:217-218, polynomial_vector.go:231-247.  The variable pvCopy of
    polynomial_vector.go:208-263 is the receiver itself, and is only read. *)
Definition avec_mul_scalar (v : avec) (s : hscalar) : M aexpr :=
  _ <~ check_avec v ;;
  _ <~ a_operand_check dims_mul (fun h => vec_dims (rd_avec h v)) (AExpr (AES s)) ;;
  match v, s with
  | AVP _, HV _ | AVP _, HM _ => fail PUnsupported
  | _, _ => a_simplify_result (avec_mul_template v s)
  end.
(** constant_vector.go:345-353 *)
Definition ak_vec_mul_vec (l r : list num) : M aexpr :=
  _ <~ a_operand_check dims_mul (fun _ => vec_dims (VK l)) (AExpr (AEV (AVK r))) ;;
  k <~ pure (index r 0) ;; a_simplify_result (avec_mul_scalar (AVK l) (HK k)).
(** constant_vector.go:275-366, variable_vector.go:178-223, monomial_vector.go:189-230, polynomial_vector.go:208-263 *)
Definition avec_mul (v : avec) (g : aval) : M aexpr :=
  _ <~ check_avec v ;;
  _ <~ a_operand_check dims_mul (fun h => vec_dims (rd_avec h v)) g ;;
  match v, g with
  | AVV _, AFloat f => avec_mul_scalar v (HK f)
  | _, AFloat f => a_simplify_result (avec_mul_scalar v (HK f))
  | _, AExpr (AES s) => avec_mul_scalar v s
  | AVK l, AVecDense r => a_simplify_result (ak_vec_mul_vec l r)
  | AVK l, AVecDenseP r => a_simplify_result (a_simplify_result (ak_vec_mul_vec l r))
  | AVK l, AExpr (AEV (AVK r)) => ak_vec_mul_vec l r
  | AVK l, AExpr (AEV (AVV r)) => x <~ pure (index r 0) ;; a_simplify_result (avec_mul_scalar v (HV x))
  | AVV _, AExpr (AEV w) => s <~ avec_get w 0 ;; a_simplify_result (avec_mul_scalar v s)
  | AVP _, AExpr (AEV (AVP r)) => q <~ pure (index r 0) ;; a_simplify_result (avec_mul_scalar v (HP q))
  | _, _ => fail PUnsupported
  end.
(** variable.go:338-340, 349 *)
Definition avar_mul_vec (x : var) (v : avec) : M aexpr :=
  _ <~ check_var x ;;
  _ <~ a_operand_check dims_mul (fun _ => Ok (1%nat, 1%nat)) (AExpr (AEV v)) ;;
  a_simplify_result (avec_mul_template v (HV x)).

(** matrix_expression.go:174-228 MatrixMultiplyTemplate *)
Definition amat_mul_entry (m r : amat) (n i j : nat) : M hscalar :=
  s <~ forM (fun acc k => a <~ amat_get m i k ;; b <~ amat_get r k j ;; t <~ h_mul a b ;; h_plus acc t) (seq 0 n) (HK n0) ;;
  h_simplified s.
Definition amat_mul_template (m r : amat) : M aexpr :=
  _ <~ check_amat m ;;
  _ <~ check_amat r ;;
  dl <~ amat_dims m ;;
  dr <~ amat_dims r ;;
  _ <~ pure (check (Nat.eqb (snd dl) (fst dr)) PDim) ;;
  l <~ mapH (fun i => mapH (fun j => amat_mul_entry m r (snd dl) i j) (seq 0 (snd dr))) (seq 0 (fst dl)) ;;
  a_concretize_rows l.

(** constant_matrix.go:223-235 *)
Definition ak_mat_mul_poly (l : list (list num)) (p : slice) : M aexpr :=
  d <~ pure (rows_dims l) ;;
  rows <~ mapH (fun i => mapH (fun j => r <~ pure (index l i) ;; k <~ pure (index r j) ;; q <~ make_monos [hk_to_mono k] ;; h_poly_mul_poly q p) (seq 0 (snd d)))
               (seq 0 (fst d)) ;;
  a_concretize_rows rows.
(** constant_matrix.go:253-274 *)
Definition ak_mat_mul_vars (l : list (list num)) (xs : list var) : M aexpr :=
  d <~ pure (rows_dims l) ;;
  if Nat.eqb (fst d) 1 then
    as_AES (forM (fun acc cx =>
              r <~ pure (index l 0) ;; k <~ pure (index r (fst cx)) ;; t <~ h_var_mul_k (snd cx) k ;; h_plus acc t) (enum xs) (HK n0))
  else
    z <~ pure (zeros_vector (fst d)) ;;
    forM (fun acc c =>
      a <~ pure (k_to_dense l) ;;
      col <~ pure (mapM (fun r => index r c) a) ;;
      x <~ pure (index xs c) ;;
      t <~ a_simplify_result (a_simplify_result (avar_mul_vec x (AVK col))) ;;
      aexpr_plus acc (AExpr t)) (seq 0 (snd d)) (AEV (AVK z)).
(** constant_matrix.go:188-314 *)
Definition ak_mat_mul (l : list (list num)) (g : aval) : M aexpr :=
  _ <~ a_operand_check dims_mul (fun _ => mat_dims (MK l)) g ;;
  match g with
  | AFloat f => a_simplify_result (numbers_only (k_mat_mul_float l f))
  | AExpr (AES (HK f)) => a_simplify_result (a_simplify_result (numbers_only (k_mat_mul_float l f)))
  | AExpr (AES (HP p)) => a_simplify_result (ak_mat_mul_poly l p)
  | AVecDenseP x => a_simplify_result (numbers_only (k_mat_mul_vec l x))
  | AExpr (AEV (AVV xs)) => a_simplify_result (ak_mat_mul_vars l xs)
  | ADenseP b => a_simplify_result (numbers_only (k_mat_mul_dense l b))
  | ADense b => a_simplify_result (a_simplify_result (numbers_only (k_mat_mul_dense l b)))
  | AExpr (AEM r) => a_simplify_result (amat_mul_template (AMK l) r)
  | _ => fail PUnsupported
  end.

(** variable_matrix.go:245-256 *)
Definition avar_mat_mul_k (l : list (list var)) (f : num) : M aexpr :=
  rows <~ mapH (mapH (fun x => s <~ h_var_mul_k x f ;; match s with HM m => ret m | _ => fail PRuntime end)) l ;;
  ret (AEM (AMM rows)).
(** variable_matrix.go:257-271 *)
Definition avar_mat_mul_kvec (l : list (list var)) (ks : list num) : M aexpr :=
  d <~ pure (mat_dims (MV l)) ;;
  p <~ mapH (fun r =>
         forM (fun acc j => x <~ pure (index r j) ;; k <~ pure (index ks j) ;; t <~ h_var_mul_k x k ;; h_plus acc t) (seq 0 (snd d)) (HK n0)) l ;;
  a_concretize_slice p.
(** variable_matrix.go:215-241, 257-271, 310 *)
Definition avar_mat_mul_kvec_call (l : list (list var)) (ks : list num) : M aexpr :=
  _ <~ check_amat (AMV l) ;;
  _ <~ a_operand_check dims_mul (fun _ => mat_dims (MV l)) (AExpr (AEV (AVK ks))) ;;
  a_simplify_result (avar_mat_mul_kvec l ks).
(** variable_matrix.go:278-292 *)
Definition avar_mat_mul_vars (l : list (list var)) (xs : list var) : M aexpr :=
  d <~ pure (mat_dims (MV l)) ;;
  forM (fun acc c =>
    col <~ pure (mapM (fun r => index r c) l) ;;
    x <~ pure (index xs c) ;;
    t <~ avec_mul (AVV col) (AExpr (AES (HV x))) ;;
    aexpr_plus acc (AExpr t)) (seq 0 (snd d)) (AES (HK n0)).
(** variable_matrix.go:299-300, 310 *)
Definition avar_mat_mul_mat (l : list (list var)) (r : amat) : M aexpr :=
  _ <~ check_amat (AMV l) ;;
  _ <~ a_operand_check dims_mul (fun _ => mat_dims (MV l)) (AExpr (AEM r)) ;;
  a_simplify_result (amat_mul_template (AMV l) r).
(** variable_matrix.go:215-311 *)
Definition avar_mat_mul (l : list (list var)) (g : aval) : M aexpr :=
  _ <~ check_amat (AMV l) ;;
  _ <~ a_operand_check dims_mul (fun _ => mat_dims (MV l)) g ;;
  match g with
  | AFloat f => a_simplify_result (a_simplify_result (avar_mat_mul_k l f))
  | AExpr (AES (HK f)) => a_simplify_result (avar_mat_mul_k l f)
  | AExpr (AEV (AVK ks)) => a_simplify_result (avar_mat_mul_kvec l ks)
  | AVecDense ks | AVecDenseP ks => a_simplify_result (avar_mat_mul_kvec_call l ks)
  | AExpr (AEV (AVV xs)) => a_simplify_result (avar_mat_mul_vars l xs)
  | ADense r | ADenseP r => a_simplify_result (avar_mat_mul_mat l (AMK r))
  | AExpr (AEM r) => a_simplify_result (amat_mul_template (AMV l) r)
  | _ => fail PUnsupported
  end.

(** monomial_matrix.go:278-310 *)
Definition amono_mat_mul_vars (l : list (list hmono)) (xs : list var) : M aexpr :=
  if Nat.eqb (length l) 1 then
    r <~ pure (index l 0) ;;
    s <~ forM (fun acc im =>
           x <~ pure (index xs (fst im)) ;; t <~ h_mono_mul_var (snd im) x ;; h_plus acc (HM t)) (enum r) (HK n0) ;;
    as_AES (h_simplified s)
  else
    p <~ mapH (fun r =>
           m0 <~ pure (index r 0) ;; x0 <~ pure (index xs 0) ;;
           p0 <~ hmono_to_poly m0 ;;
           s0 <~ h_poly_mul_var p0 x0 ;;
           forM (fun acc j =>
             m <~ pure (index r j) ;; x <~ pure (index xs j) ;;
             q <~ hmono_to_poly m ;;
             t <~ h_poly_mul_var q x ;;
             s <~ h_plus acc t ;;
             match s with HP _ => ret s | _ => fail PRuntime end) (seq 1 (length r - 1)) s0) l ;;
    as_AEV (a_concretize_vector p).
(** monomial_matrix.go:242-330 *)
Definition amono_mat_mul (l : list (list hmono)) (g : aval) : M aexpr :=
  _ <~ check_amat (AMM l) ;;
  _ <~ a_operand_check dims_mul (fun h => mat_dims (rd_amat h (AMM l))) g ;;
  match g with
  | AFloat f | AExpr (AES (HK f)) => rows <~ mapH (mapH (fun m => h_mono_mul_k m f)) l ;; ret (AEM (AMM rows))
  | AExpr (AEV (AVV xs)) => amono_mat_mul_vars l xs
  | AExpr (AEM r) => amat_mul_template (AMM l) r
  | _ => fail PUnsupported
  end.

(** polynomial_matrix.go:278-281, 291-293 *)
Definition apoly_row_mul_vars (r : list slice) (xs : list var) : M hscalar :=
  forM (fun acc jp => x <~ pure (index xs (fst jp)) ;; t <~ h_poly_mul_var (snd jp) x ;; h_plus acc t) (enum r) (HK n0).
(** polynomial_matrix.go:258-272: the slice of monomials is copied, not the monomials *)
Definition apoly_mat_mul_k (l : list (list slice)) (f : num) : M aexpr :=
  rows <~ mapH (mapH (fun p => ms <~ reads (fun h => Ok (view (hm h) p)) ;; c <~ make_monos ms ;; h_poly_mul_k c f)) l ;;
  a_simplify_result (a_concretize_rows rows).
(** polynomial_matrix.go:229-313 *)
Definition apoly_mat_mul (l : list (list slice)) (g : aval) : M aexpr :=
  _ <~ check_amat (AMP l) ;;
  _ <~ a_operand_check dims_mul (fun h => mat_dims (rd_amat h (AMP l))) g ;;
  match g with
  | AFloat f => a_simplify_result (apoly_mat_mul_k l f)
  | AExpr (AES (HK f)) => apoly_mat_mul_k l f
  | AExpr (AEV (AVV xs)) =>
      if Nat.eqb (length l) 1 then r <~ pure (index l 0) ;; a_simplify_result (as_AES (apoly_row_mul_vars r xs))
      else p <~ mapH (fun r => apoly_row_mul_vars r xs) l ;; a_concretize_slice p
  | AExpr (AEM r) => amat_mul_template (AMP l) r
  | _ => fail PUnsupported
  end.

Definition amat_mul (m : amat) (g : aval) : M aexpr :=
  match m with
  | AMK l => ak_mat_mul l g
  | AMV l => avar_mat_mul l g
  | AMM l => amono_mat_mul l g
  | AMP l => apoly_mat_mul l g
  end.

(** constant.go:245-287 *)
Definition ak_mul_any (c : num) (g : aval) : M aexpr :=
  _ <~ check_aval g ;;
  match g with
  | AFloat f => as_AES (h_k_mul c (HK f))
  | AInt z => as_AES (h_k_mul c (HK (nofZ z)))
  | AExpr (AES s) => as_AES (h_k_mul c s)
  | _ => fail PUnsupported
  end.
(** variable.go:274-351 *)
Definition avar_mul_any (v : var) (g : aval) : M aexpr :=
  _ <~ check_var v ;;
  _ <~ a_operand_check dims_mul (fun _ => Ok (1%nat, 1%nat)) g ;;
  match g with
  | AFloat f => as_AES (h_mul_float (HV v) f)
  | AInt z => as_AES (h_mul_float (HV v) (nofZ z))
  | AExpr (AES s) => as_AES (h_mul (HV v) s)
  | AVecDenseP l => a_simplify_result (a_simplify_result (avar_mul_vec v (AVK l)))
  | AVecDense l => a_simplify_result (avar_mul_vec v (AVK l))
  | AExpr (AEV w) => a_simplify_result (avec_mul_template w (HV v))
  | _ => fail PUnsupported
  end.
(** monomial.go:155-236 *)
Definition amono_mul_any (m : hmono) (g : aval) : M aexpr :=
  _ <~ check_mono m ;;
  _ <~ a_operand_check dims_mul (fun _ => Ok (1%nat, 1%nat)) g ;;
  match g with
  | AFloat f => as_AES (h_mul_float (HM m) f)
  | AInt z => as_AES (h_mul_float (HM m) (nofZ z))
  | AExpr (AES s) => as_AES (h_mul (HM m) s)
  | _ => fail PUnsupported
  end.
(** polynomial.go:294-376 *)
Definition apoly_mul_any (p : slice) (g : aval) : M aexpr :=
  _ <~ check_poly p ;;
  _ <~ check_aval g ;;
  match g with
  | AFloat f => as_AES (h_mul_float (HP p) f)
  | AExpr (AES s) => as_AES (h_mul (HP p) s)
  | AExpr (AEV v) => a_simplify_result (avec_mul v (AExpr (AES (HP p))))
  | AExpr (AEM m) => a_simplify_result (amat_mul m (AExpr (AES (HP p))))
  | _ => fail PUnsupported
  end.
(** The method Multiply of every expression type *)
Definition aexpr_mul (e : aexpr) (g : aval) : M aexpr :=
  match e with
  | AES (HK c) => ak_mul_any c g
  | AES (HV v) => avar_mul_any v g
  | AES (HM m) => amono_mul_any m g
  | AES (HP p) => apoly_mul_any p g
  | AEV v => avec_mul v g
  | AEM m => amat_mul m g
  end.

(** ** Minus: expression.go:119-123 and the methods cited at expr_minus in ModelArith.v *)
Definition a_minus (left right : aexpr) : M aexpr :=
  t <~ aexpr_mul right (AFloat nm1) ;; aexpr_plus left (AExpr t).
(** expression.go:99-116 ToExpression *)
Definition as_aexpr (g : aval) : option aexpr :=
  match g with
  | AFloat f => Some (AES (HK f))
  | AVecDense l | AVecDenseP l => Some (AEV (AVK l))
  | ADense l | ADenseP l => Some (AEM (AMK l))
  | AExpr e => Some e
  | AInt _ | AOther => None
  end.
Definition aexpr_minus (e : aexpr) (g : aval) : M aexpr :=
  _ <~ check_aexpr e ;;
  match as_aexpr g with
  | None => fail PUnsupported
  | Some r =>
      _ <~ (match e with
            | AES (HK _) | AES (HP _) => check_aexpr r
            | _ => a_operand_check dims_add (fun h => expr_dims (rd_aexpr h e)) (AExpr r)
            end) ;;
      match e, r with
      | AEV (AVK _), AEM _ => fail PUnsupported
      | _, _ => a_minus e r
      end
  end.

(** ** Power: vector_expression.go:331-361, matrix_expression.go:145-170 *)
Definition avec_power (v : avec) (exponent : Z) : M hscalar :=
  _ <~ check_avec v ;;
  _ <~ pure (check (Z.leb 0 exponent) PNegExp) ;;
  n <~ avec_len v ;;
  _ <~ pure (check (Nat.eqb n 1) POther) ;;
  b <~ avec_get v 0 ;;
  h_power_loop b (Z.to_nat exponent) (HK n1).
Definition as_amat (e : aexpr) : M amat := match e with AEM m => ret m | _ => fail PRuntime end.
Fixpoint amat_power_loop (me : amat) (n : nat) (out : amat) : M amat :=
  match n with
  | O => ret out
  | S n' => e <~ amat_mul out (AExpr (AEM me)) ;; out' <~ as_amat e ;; amat_power_loop me n' out'
  end.
Definition amat_power (me : amat) (exponent : Z) : M amat :=
  _ <~ check_amat me ;;
  d <~ amat_dims me ;;
  _ <~ pure (check (Nat.eqb (fst d) (snd d)) POther) ;;
  _ <~ pure (check (Z.leb 0 exponent) PNegExp) ;;
  i <~ pure (identity_matrix (fst d)) ;;
  e <~ ak_plus_any n0 (ADense i) ;;
  out <~ as_amat e ;;
  amat_power_loop me (Z.to_nat exponent) out.
Definition aexpr_power (e : aexpr) (exponent : Z) : M aexpr :=
  match e with
  | AES s => as_AES (h_power s exponent)
  | AEV v => as_AES (avec_power v exponent)
  | AEM m => as_AEM (amat_power m exponent)
  end.

End ModelHeapArr.
