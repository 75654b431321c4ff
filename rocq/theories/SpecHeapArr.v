(** * Specification: histories of calls on scalars, vectors and matrices in memory *)

From Coq Require Import ZArith NArith Bool List.
From Verif Require Import Num Syntax ModelScalar ModelShape ModelArith Spec SpecArr SpecAProg ModelHeap SpecHeap ModelHeapArr.
Import ListNotations.

Section SpecHeapArr.
Context {NN : Num}.

(** the entries of an expression in memory *)
Definition parts (e : aexpr) : list hscalar :=
  match e with AES s => [s] | AEV v => av_entries v | AEM m => concat (am_rows m) end.
(** their slices lie inside the arrays they point to *)
Definition all_legal_arrays (h : heap) (roots : list aexpr) : Prop := all_legal h (flat_map parts roots).
(** no entry has unused capacity in which variables of another one live *)
Definition separate_arrays (h : heap) (roots : list aexpr) : Prop := separate h (flat_map parts roots).

(** ** Calls.  A call refers to earlier results by their position. *)

(** the argument of Plus, Minus, Multiply *)
Inductive operand :=
| OFloat (f : num) | OInt (z : Z) | OVecDense (l : list num) | OVecDenseP (l : list num) | ODense (l : list (list num)) | ODenseP (l : list (list num))
| OResult (i : nat) | OOther.

Inductive ainstr :=
| JConst (k : num) | JVar (v : var)
| JMono (c : num) (es : list Z) (vs : list var)       (* the literal Monomial{c, es, vs} *)
| JPoly (ms : list nat)                                (* the literal Polynomial{...} of earlier monomials *)
| JKVector (l : list num) | JVVector (l : list var)
| JMVector (ms : list nat) | JPVector (ps : list nat)  (* the literals MonomialVector{...}, PolynomialVector{...} of earlier results *)
| JKMatrix (l : list (list num)) | JVMatrix (l : list (list var))
| JMMatrix (ms : list (list nat)) | JPMatrix (ps : list (list nat))
| JPlus (i : nat) (o : operand) | JMinus (i : nat) (o : operand) | JMultiply (i : nat) (o : operand)
| JPower (i : nat) (n : Z)
| JSimplify (i : nat) | JTranspose (i : nat)
| JHStack (is : list nat) | JVStack (is : list nat)
| JConcretize (is : list nat) | JConcretizeRows (is : list (list nat))
| JSubst (i : nat) (v : var) (j : nat)
| JAt (i : nat) (r c : Z)
| JDeriv (i : nat) (v : var).                          (* DerivativeWrt of a scalar *)

(** the call on expressions in memory *)
Definition ascalar_of (e : aexpr) : res hscalar := match e with AES s => Ok s | _ => Panic POther end.
Definition amono_of (e : aexpr) : res hmono := match e with AES (HM m) => Ok m | _ => Panic POther end.
Definition apoly_of (e : aexpr) : res slice := match e with AES (HP p) => Ok p | _ => Panic POther end.
Definition aoperand (roots : list aexpr) (o : operand) : res aval :=
  match o with
  | OFloat f => Ok (AFloat f) | OInt z => Ok (AInt z) | OVecDense l => Ok (AVecDense l) | OVecDenseP l => Ok (AVecDenseP l)
  | ODense l => Ok (ADense l) | ODenseP l => Ok (ADenseP l) | OResult i => e <- arg roots i ;; Ok (AExpr e) | OOther => Ok AOther
  end.
Definition aexec {RT : Runtime} (roots : list aexpr) (i : ainstr) : M aexpr :=
  let a k := arg roots k in
  match i with
  | JConst k => ret (AES (HK k))
  | JVar v => ret (AES (HV v))
  | JMono c es vs => m <~ new_mono c es vs ;; ret (AES (HM m))
  | JPoly ms => l <~ pure (mapM (fun k => e <- a k ;; amono_of e) ms) ;; p <~ make_monos l ;; ret (AES (HP p))
  | JKVector l => ret (AEV (AVK l))
  | JVVector l => ret (AEV (AVV l))
  | JMVector ms => l <~ pure (mapM (fun k => e <- a k ;; amono_of e) ms) ;; ret (AEV (AVM l))
  | JPVector ps => l <~ pure (mapM (fun k => e <- a k ;; apoly_of e) ps) ;; ret (AEV (AVP l))
  | JKMatrix l => ret (AEM (AMK l))
  | JVMatrix l => ret (AEM (AMV l))
  | JMMatrix ms => l <~ pure (mapM (mapM (fun k => e <- a k ;; amono_of e)) ms) ;; ret (AEM (AMM l))
  | JPMatrix ps => l <~ pure (mapM (mapM (fun k => e <- a k ;; apoly_of e)) ps) ;; ret (AEM (AMP l))
  | JPlus i o => e <~ pure (a i) ;; g <~ pure (aoperand roots o) ;; aexpr_plus e g
  | JMinus i o => e <~ pure (a i) ;; g <~ pure (aoperand roots o) ;; aexpr_minus e g
  | JMultiply i o => e <~ pure (a i) ;; g <~ pure (aoperand roots o) ;; aexpr_mul e g
  | JPower i n => e <~ pure (a i) ;; aexpr_power e n
  | JSimplify i => e <~ pure (a i) ;; aexpr_simplified e
  | JTranspose i => e <~ pure (a i) ;; aexpr_transpose e
  | JHStack is => es <~ pure (mapM a is) ;; a_hstack es
  | JVStack is => es <~ pure (mapM a is) ;; a_vstack es
  | JConcretize is => es <~ pure (mapM (fun k => e <- a k ;; ascalar_of e) is) ;; a_concretize_slice es
  | JConcretizeRows is => es <~ pure (mapM (mapM (fun k => e <- a k ;; ascalar_of e)) is) ;; a_concretize_rows es
  | JSubst i v j => e <~ pure (a i) ;; s <~ pure (f <- a j ;; ascalar_of f) ;; aexpr_substitute e v s
  | JAt i r c => e <~ pure (a i) ;; s <~ aexpr_at e r c ;; ret (AES s)
  | JDeriv i v => s <~ pure (e <- a i ;; ascalar_of e) ;; d <~ h_derivative s v ;; ret (AES d)
  end.

(** the same call on values *)
Definition scalar_of (e : expr) : res scalar := match e with ES s => Ok s | _ => Panic POther end.
Definition monomial_of (e : expr) : res Monomial := match e with ES (SM m) => Ok m | _ => Panic POther end.
Definition polynomial_of (e : expr) : res (list Monomial) := match e with ES (SP p) => Ok p | _ => Panic POther end.
Definition operand_value (vals : list expr) (o : operand) : res goval :=
  match o with
  | OFloat f => Ok (GFloat f) | OInt z => Ok (GInt z) | OVecDense l => Ok (GVec l) | OVecDenseP l => Ok (GVecP l)
  | ODense l => Ok (GDense l) | ODenseP l => Ok (GDenseP l) | OResult i => e <- arg vals i ;; Ok (GExpr e) | OOther => Ok GOther
  end.
Definition aexec_value (vals : list expr) (i : ainstr) : res expr :=
  let a k := arg vals k in
  match i with
  | JConst k => Ok (ES (SK k))
  | JVar v => Ok (ES (SV v))
  | JMono c es vs => Ok (ES (SM (mkMono c es vs)))
  | JPoly ms => l <- mapM (fun k => e <- a k ;; monomial_of e) ms ;; Ok (ES (SP l))
  | JKVector l => Ok (EV (VK l))
  | JVVector l => Ok (EV (VV l))
  | JMVector ms => l <- mapM (fun k => e <- a k ;; monomial_of e) ms ;; Ok (EV (VM l))
  | JPVector ps => l <- mapM (fun k => e <- a k ;; polynomial_of e) ps ;; Ok (EV (VP l))
  | JKMatrix l => Ok (EM (MK l))
  | JVMatrix l => Ok (EM (MV l))
  | JMMatrix ms => l <- mapM (mapM (fun k => e <- a k ;; monomial_of e)) ms ;; Ok (EM (MM l))
  | JPMatrix ps => l <- mapM (mapM (fun k => e <- a k ;; polynomial_of e)) ps ;; Ok (EM (MP l))
  | JPlus i o => e <- a i ;; g <- operand_value vals o ;; expr_plus e g
  | JMinus i o => e <- a i ;; g <- operand_value vals o ;; expr_minus e g
  | JMultiply i o => e <- a i ;; g <- operand_value vals o ;; expr_mul e g
  | JPower i n => e <- a i ;; expr_power e n
  | JSimplify i => e <- a i ;; expr_simplified e
  | JTranspose i => e <- a i ;; expr_transpose e
  | JHStack is => es <- mapM a is ;; hstack es
  | JVStack is => es <- mapM a is ;; vstack es
  | JConcretize is => es <- mapM (fun k => e <- a k ;; scalar_of e) is ;; concretize_slice es
  | JConcretizeRows is => es <- mapM (mapM (fun k => e <- a k ;; scalar_of e)) is ;; concretize_rows es
  | JSubst i v j => e <- a i ;; s <- (f <- a j ;; scalar_of f) ;; expr_substitute e v s
  | JAt i r c => e <- a i ;; s <- expr_at e r c ;; Ok (ES s)
  | JDeriv i v => s <- (e <- a i ;; scalar_of e) ;; d <- scalar_derivative s v ;; Ok (ES d)
  end.

(** a history; the result of a call that panics is not available to later calls *)
Fixpoint ahistory {RT : Runtime} (h : heap) (roots : list aexpr) (l : list ainstr) : heap * list aexpr :=
  match l with
  | [] => (h, roots)
  | i :: l' => let (r, h') := aexec roots i h in ahistory h' (match r with Ok t => roots ++ [t] | Panic _ => roots end) l'
  end.
Fixpoint ahistory_values (vals : list expr) (l : list ainstr) : list expr :=
  match l with
  | [] => vals
  | i :: l' => ahistory_values (match aexec_value vals i with Ok t => vals ++ [t] | Panic _ => vals end) l'
  end.
(** what the caller sees afterwards *)
Definition as_array_value (h : heap) (r : res aexpr) : res expr := match r with Ok e => Ok (rd_aexpr h e) | Panic p => Panic p end.

(** the call is not DerivativeWrt, or it is and the receiver is at most linear in the variable *)
Definition aharmless (vals : list expr) (i : ainstr) : Prop :=
  match i with JDeriv k v => forall s, nth_error vals k = Some (ES s) -> at_most_linear_in v s | _ => True end.
Fixpoint aharmless_history (vals : list expr) (l : list ainstr) : Prop :=
  match l with
  | [] => True
  | i :: l' => aharmless vals i /\ aharmless_history (match aexec_value vals i with Ok t => vals ++ [t] | Panic _ => vals end) l'
  end.
(** DerivativeWrt is not called *)
Definition no_derivative_call (i : ainstr) : Prop := match i with JDeriv _ _ => False | _ => True end.

(** ** The programs of SpecAProg.v, run in memory; a leaf is an expression in memory *)
Inductive mprog :=
| QLeaf (e : aexpr)
| QPlus (a b : mprog) | QMinus (a b : mprog) | QTimes (a b : mprog) | QPower (a : mprog) (n : nat) | QTransposed (a : mprog) | QSimplified (a : mprog)
| QBeside (a b : mprog) | QAbove (a b : mprog).

(** the same program on the values of its leaves *)
Fixpoint program_of (h : heap) (p : mprog) : aprog :=
  match p with
  | QLeaf e => ALeaf (rd_aexpr h e)
  | QPlus a b => APlus (program_of h a) (program_of h b)
  | QMinus a b => AMinus (program_of h a) (program_of h b)
  | QTimes a b => ATimes (program_of h a) (program_of h b)
  | QPower a n => APower (program_of h a) n
  | QTransposed a => ATransposed (program_of h a)
  | QSimplified a => ASimplified (program_of h a)
  | QBeside a b => ABeside (program_of h a) (program_of h b)
  | QAbove a b => AAbove (program_of h a) (program_of h b)
  end.
(** the leaves are among the expressions in use *)
Fixpoint leaves_in (roots : list aexpr) (p : mprog) : Prop :=
  match p with
  | QLeaf e => In e roots
  | QPlus a b | QMinus a b | QTimes a b | QBeside a b | QAbove a b => leaves_in roots a /\ leaves_in roots b
  | QPower a _ | QTransposed a | QSimplified a => leaves_in roots a
  end.
(** what a caller does: the calls in order, each on the results of the earlier ones *)
Fixpoint run_in_memory {RT : Runtime} (p : mprog) : M aexpr :=
  match p with
  | QLeaf e => ret e
  | QPlus a b => x <~ run_in_memory a ;; y <~ run_in_memory b ;; aexpr_plus x (AExpr y)
  | QMinus a b => x <~ run_in_memory a ;; y <~ run_in_memory b ;; aexpr_minus x (AExpr y)
  | QTimes a b => x <~ run_in_memory a ;; y <~ run_in_memory b ;; aexpr_mul x (AExpr y)
  | QPower a n => x <~ run_in_memory a ;; aexpr_power x (Z.of_nat n)
  | QTransposed a => x <~ run_in_memory a ;; aexpr_transpose x
  | QSimplified a => x <~ run_in_memory a ;; aexpr_simplified x
  | QBeside a b => x <~ run_in_memory a ;; y <~ run_in_memory b ;; a_hstack [x; y]
  | QAbove a b => x <~ run_in_memory a ;; y <~ run_in_memory b ;; a_vstack [x; y]
  end.

End SpecHeapArr.
