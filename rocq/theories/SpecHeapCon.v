(** * Specification: sessions with expressions and constraints in memory *)

From Coq Require Import ZArith NArith Bool List.
From Verif Require Import Num Syntax ModelScalar ModelShape ModelArith ModelSC ModelConstr Spec SpecArr SpecAProg SpecCon ModelHeap SpecHeap ModelHeapArr SpecHeapArr ModelHeapCon.
Import ListNotations.

Section SpecHeapCon.
Context {NN : Num}.

(** the two sides of a constraint in memory *)
Definition sides (c : acon) : list aexpr := [acon_left c; acon_right c].
(** everything a session refers to *)
Definition in_use (es : list aexpr) (cs : list acon) : list aexpr := es ++ flat_map sides cs.

(** ** Calls.  A call refers to earlier expressions and to earlier constraints by their positions. *)
Inductive cinstr :=
| IExpr (i : ainstr)                                            (* a call on expressions *)
| ISubstMap (i : nat) (sm : list (var * nat))                    (* SubstituteAccordingTo *)
| ICompare (i : nat) (o : operand) (s : sense)                   (* LessEq, GreaterEq, Eq, Comparison *)
| ILeft (c : nat) | IRight (c : nat)
| ISimplifyCon (c : nat)                                         (* AsSimplifiedConstraint *)
| IScale (c : nat) (f : num)                                     (* ScaleBy *)
| ISubstCon (c : nat) (x : var) (j : nat)
| ISubstMapCon (c : nat) (sm sm' : list (var * nat))             (* the map in the orders in which it is visited for the left and the right side *)
| IAtVec (c : nat) (i : Z) | IAtCon (c : nat) (i j : Z)
| ICompile (cs : list nat)                                       (* CompileConstraintsIntoScalarConstraints *)
| IInequality (c : nat) (wrt : list (list var)) | IEquality (c : nat) (wrt : list (list var))
| IImplies (o : nat -> nat -> orders) (c d : nat)                (* ImpliesThisIsAlsoSatisfied *)
| INonneg (o : orders) (c : nat)
| IVariables (order : list var -> list var) (c : nat)
| IIsLinear (c : nat) | ICheck (c : nat).

(** what a call returns besides expressions and constraints *)
Inductive data := DMatrix (A : list (list num)) (b : list num) | DRow (a : list num) (b : num) | DBool (b : bool) | DVars (l : list var) | DNothing.
Inductive outcome (E C : Type) := NewExpr (e : E) | NewCons (l : list C) | Answer (d : data).
Arguments NewExpr {E C}. Arguments NewCons {E C}. Arguments Answer {E C}.

(** the calls in memory; the methods that a type does not have cannot be called *)
Definition asc_of (c : acon) : res hsc := match c with ACS c => Ok c | _ => Panic POther end.
Definition avc_of (c : acon) : res hvc := match c with ACV c => Ok c | _ => Panic POther end.
Definition amc_of (c : acon) : res hmc := match c with ACM c => Ok c | _ => Panic POther end.
Definition amap_of (es : list aexpr) (sm : list (var * nat)) : res hsubmap := mapM (fun kv => e <- arg es (snd kv) ;; Ok (fst kv, e)) sm.
Definition cexec {RT : Runtime} (es : list aexpr) (cs : list acon) (i : cinstr) : M (outcome aexpr acon) :=
  match i with
  | IExpr i => e <~ aexec es i ;; ret (NewExpr e)
  | ISubstMap i sm => e <~ pure (arg es i) ;; m <~ pure (amap_of es sm) ;; r <~ aexpr_substitute_map e m ;; ret (NewExpr r)
  | ICompare i o s => e <~ pure (arg es i) ;; g <~ pure (aoperand es o) ;; c <~ aexpr_comparison e g s ;; ret (NewCons [c])
  | ILeft c => c <~ pure (arg cs c) ;; ret (NewExpr (acon_left c))
  | IRight c => c <~ pure (arg cs c) ;; ret (NewExpr (acon_right c))
  | ISimplifyCon c => c <~ pure (arg cs c) ;; d <~ acon_simplified c ;; ret (NewCons [d])
  | IScale c f => c <~ pure (d <- arg cs c ;; asc_of d) ;; d <~ h_sc_scale_by c f ;; ret (NewCons [ACS d])
  | ISubstCon c x j => c <~ pure (arg cs c) ;; s <~ pure (e <- arg es j ;; ascalar_of e) ;; d <~ acon_substitute c x s ;; ret (NewCons [d])
  | ISubstMapCon c sm sm' => c <~ pure (arg cs c) ;; m <~ pure (amap_of es sm) ;; m' <~ pure (amap_of es sm') ;; d <~ acon_substitute_map c m m' ;; ret (NewCons [d])
  | IAtVec c i => c <~ pure (d <- arg cs c ;; avc_of d) ;; d <~ h_vc_at_vec c i ;; ret (NewCons [ACS d])
  | IAtCon c i j => c <~ pure (d <- arg cs c ;; amc_of d) ;; d <~ h_mc_at c i j ;; ret (NewCons [ACS d])
  | ICompile l => l <~ pure (mapM (arg cs) l) ;; ds <~ a_compile_constraints l ;; ret (NewCons (map ACS ds))
  | IInequality c wrt =>
      c <~ pure (arg cs c) ;;
      match c with
      | ACS c => x <~ h_sc_linear_inequality c wrt ;; ret (Answer (DRow (fst x) (snd x)))
      | ACV c => x <~ h_vc_linear_inequality c wrt ;; ret (Answer (DMatrix (fst x) (snd x)))
      | ACM _ => fail POther
      end
  | IEquality c wrt =>
      c <~ pure (arg cs c) ;;
      match c with
      | ACS c => x <~ h_sc_linear_equality c wrt ;; ret (Answer (DRow (fst x) (snd x)))
      | ACV c => x <~ h_vc_linear_equality c wrt ;; ret (Answer (DMatrix (fst x) (snd x)))
      | ACM _ => fail POther
      end
  | IImplies o c d => c <~ pure (arg cs c) ;; d <~ pure (arg cs d) ;; b <~ acon_implies o c d ;; ret (Answer (DBool b))
  | INonneg o c => c <~ pure (d <- arg cs c ;; asc_of d) ;; b <~ h_sc_is_nonnegativity o c ;; ret (Answer (DBool b))
  | IVariables order c => c <~ pure (arg cs c) ;; l <~ acon_variables order c ;; ret (Answer (DVars l))
  | IIsLinear c => c <~ pure (arg cs c) ;; b <~ acon_is_linear c ;; ret (Answer (DBool b))
  | ICheck c => c <~ pure (arg cs c) ;; _ <~ acon_check c ;; ret (Answer DNothing)
  end.

(** the same calls on values *)
Definition sc_of (c : constraint) : res scalar_constraint := match c with CS c => Ok c | _ => Panic POther end.
Definition vc_of (c : constraint) : res vector_constraint := match c with CV c => Ok c | _ => Panic POther end.
Definition mc_of (c : constraint) : res matrix_constraint := match c with CM c => Ok c | _ => Panic POther end.
Definition map_of (es : list expr) (sm : list (var * nat)) : res submap := mapM (fun kv => e <- arg es (snd kv) ;; Ok (fst kv, e)) sm.
Definition cexec_value (es : list expr) (cs : list constraint) (i : cinstr) : res (outcome expr constraint) :=
  match i with
  | IExpr i => e <- aexec_value es i ;; Ok (NewExpr e)
  | ISubstMap i sm => e <- arg es i ;; m <- map_of es sm ;; r <- expr_substitute_map e m ;; Ok (NewExpr r)
  | ICompare i o s => e <- arg es i ;; g <- operand_value es o ;; c <- expr_comparison e g s ;; Ok (NewCons [c])
  | ILeft c => c <- arg cs c ;; Ok (NewExpr (con_left c))
  | IRight c => c <- arg cs c ;; Ok (NewExpr (con_right c))
  | ISimplifyCon c => c <- arg cs c ;; d <- con_simplified c ;; Ok (NewCons [d])
  | IScale c f => c <- (d <- arg cs c ;; sc_of d) ;; d <- sc_scale_by c f ;; Ok (NewCons [CS d])
  | ISubstCon c x j => c <- arg cs c ;; s <- (e <- arg es j ;; scalar_of e) ;; d <- con_substitute c x s ;; Ok (NewCons [d])
  | ISubstMapCon c sm sm' => c <- arg cs c ;; m <- map_of es sm ;; m' <- map_of es sm' ;; d <- con_substitute_map c m m' ;; Ok (NewCons [d])
  | IAtVec c i => c <- (d <- arg cs c ;; vc_of d) ;; d <- vc_at_vec c i ;; Ok (NewCons [CS d])
  | IAtCon c i j => c <- (d <- arg cs c ;; mc_of d) ;; d <- mc_at c i j ;; Ok (NewCons [CS d])
  | ICompile l => l <- mapM (arg cs) l ;; ds <- compile_constraints l ;; Ok (NewCons (map CS ds))
  | IInequality c wrt =>
      c <- arg cs c ;;
      match c with
      | CS c => x <- sc_linear_inequality c wrt ;; Ok (Answer (DRow (fst x) (snd x)))
      | CV c => x <- vc_linear_inequality c wrt ;; Ok (Answer (DMatrix (fst x) (snd x)))
      | CM _ => Panic POther
      end
  | IEquality c wrt =>
      c <- arg cs c ;;
      match c with
      | CS c => x <- sc_linear_equality c wrt ;; Ok (Answer (DRow (fst x) (snd x)))
      | CV c => x <- vc_linear_equality c wrt ;; Ok (Answer (DMatrix (fst x) (snd x)))
      | CM _ => Panic POther
      end
  | IImplies o c d => c <- arg cs c ;; d <- arg cs d ;; b <- con_implies o c d ;; Ok (Answer (DBool b))
  | INonneg o c => c <- (d <- arg cs c ;; sc_of d) ;; b <- sc_is_nonnegativity o c ;; Ok (Answer (DBool b))
  | IVariables order c => c <- arg cs c ;; l <- con_variables order c ;; Ok (Answer (DVars l))
  | IIsLinear c => c <- arg cs c ;; b <- con_is_linear c ;; Ok (Answer (DBool b))
  | ICheck c => c <- arg cs c ;; _ <- con_check c ;; Ok (Answer DNothing)
  end.

(** what the caller sees when the call returns *)
Definition shown (h : heap) (r : res (outcome aexpr acon)) : res (outcome expr constraint) :=
  match r with
  | Ok (NewExpr e) => Ok (NewExpr (rd_aexpr h e))
  | Ok (NewCons l) => Ok (NewCons (map (rd_acon h) l))
  | Ok (Answer d) => Ok (Answer d)
  | Panic p => Panic p
  end.
(** what later calls can refer to *)
Definition new_exprs {E C} (r : res (outcome E C)) : list E := match r with Ok (NewExpr e) => [e] | _ => [] end.
Definition new_cons {E C} (r : res (outcome E C)) : list C := match r with Ok (NewCons l) => l | _ => [] end.

(** ** Sessions: the memory, the expressions and the constraints at the end, and what the calls returned *)
Fixpoint session {RT : Runtime} (h : heap) (es : list aexpr) (cs : list acon) (l : list cinstr) : (heap * list aexpr * list acon) * list (res (outcome expr constraint)) :=
  match l with
  | [] => ((h, es, cs), [])
  | i :: l' => let (r, h') := cexec es cs i h in let (st, t) := session h' (es ++ new_exprs r) (cs ++ new_cons r) l' in (st, shown h' r :: t)
  end.
Fixpoint session_values (es : list expr) (cs : list constraint) (l : list cinstr) : (list expr * list constraint) * list (res (outcome expr constraint)) :=
  match l with
  | [] => ((es, cs), [])
  | i :: l' => let r := cexec_value es cs i in let (st, t) := session_values (es ++ new_exprs r) (cs ++ new_cons r) l' in (st, r :: t)
  end.
(** the values at the end of a session *)
Definition values_of (st : heap * list aexpr * list acon) : list expr * list constraint :=
  let '(h, es, cs) := st in (map (rd_aexpr h) es, map (rd_acon h) cs).

(** the call is not DerivativeWrt, or it is and the receiver is at most linear in the variable *)
Definition charmless (es : list expr) (i : cinstr) : Prop := match i with IExpr i => aharmless es i | _ => True end.
Fixpoint charmless_session (es : list expr) (cs : list constraint) (l : list cinstr) : Prop :=
  match l with
  | [] => True
  | i :: l' => charmless es i /\ charmless_session (es ++ new_exprs (cexec_value es cs i)) (cs ++ new_cons (cexec_value es cs i)) l'
  end.
(** DerivativeWrt is not called *)
Definition no_derivative_step (i : cinstr) : Prop := match i with IExpr i => no_derivative_call i | _ => True end.

(** ** The way from two programs to the matrices for a solver, in memory: compute both sides, simplify, compare, extract *)
Definition system_in_memory {RT : Runtime} (extract : hvc -> list (list var) -> M (list (list num) * list num)) (p q : mprog) (s : sense) (w : list var) :
  M (list (list num) * list num) :=
  x <~ run_in_memory (QSimplified p) ;;
  y <~ run_in_memory (QSimplified q) ;;
  c <~ aexpr_comparison x (AExpr y) s ;;
  match c with ACV c => extract c [w] | _ => fail POther end.

End SpecHeapCon.
Arguments NewExpr {NN E C}. Arguments NewCons {NN E C}. Arguments Answer {NN E C}.
