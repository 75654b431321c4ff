(** * C78: constraints that fail Check are rejected with the error of Check

    Each theorem is proved in another file; the identifiers are those of properties.jsonl. *)

From Coq Require Import ZArith NArith Bool List.
From Verif Require Import Num Syntax ModelScalar ModelShape ModelSC ModelArith ModelConstr ModelMeasure ModelHeap ModelHeapArr ModelHeapCon SpecArr SpecReject SpecRejectCon Witness RejectWit RejectHeap RejectArithHeap RejectCon RejectConHeap CheckExactCon.
Import ListNotations.

(** ** C78 the methods of the three types of constraints; p is the error of Check: of a side, of the dimensions or of the sense *)

(** Check accepts exactly the well-formed constraints *)
Theorem C78_check : forall {NN : Num} (c : constraint), con_check c = Ok tt <-> well_formed_con c.
Proof. exact @con_check_exact. Qed.
Print Assumptions C78_check.
Example C78_check_nonvacuous (NN := QNum) : well_formed_con (CS (mkSC (SV wx) (SK n1) SenseLe)) /\ ~ well_formed_con (CS (mkSC (SV wx) (SK n1) SenseOther)) /\ ~ well_formed_con (CS (mkSC (SV wx) (SV rj_var) SenseLe)).
Proof. exact wit_well_formed_con. Qed.

(** Variables, Substitute, SubstituteAccordingTo and ImpliesThisIsAlsoSatisfied, which checks its argument after its receiver *)
Theorem C78_constraint : forall {NN : Num} (c : constraint) (p : panic), con_check c = Panic p ->
  (forall order, con_variables order c = Panic p) /\ (forall x e, con_substitute c x e = Panic p) /\ (forall sm sm', con_substitute_map c sm sm' = Panic p)
  /\ (forall o d, con_implies o c d = Panic p) /\ (forall o d, con_check d = Ok tt -> con_implies o d c = Panic p)
  /\ (forall o d q, con_check d = Panic q -> con_implies o d c = Panic q).
Proof. exact @con_reject. Qed.
Print Assumptions C78_constraint.
(** LinearInequalityConstraintRepresentation, LinearEqualityConstraintRepresentation, ScaleBy, IsNonnegativityConstraint *)
Theorem C78_scalar : forall {NN : Num} (c : scalar_constraint), con_check (CS c) <> Ok tt ->
  con_check (CS c) = Panic PCheck /\ (forall w, sc_linear_inequality c w = Panic PCheck) /\ (forall w, sc_linear_equality c w = Panic PCheck) /\ (forall f, sc_scale_by c f = Panic PCheck)
  /\ (forall o, sc_is_nonnegativity o c = Panic PCheck) /\ (forall order, sc_variables order c = Panic PCheck) /\ (forall o d, sc_implies o c d = Panic PCheck /\ sc_implies o d c = Panic PCheck).
Proof. exact @sc_reject. Qed.
Print Assumptions C78_scalar.
(** Dims, Len, AtVec, the two linear representations, AsSimplifiedConstraint *)
Theorem C78_vector : forall {NN : Num} (c : vector_constraint) (p : panic), con_check (CV c) = Panic p ->
  vc_dims c = Panic p /\ vc_len c = Panic p /\ (forall i, vc_at_vec c i = Panic p) /\ (forall w, vc_linear_inequality c w = Panic p) /\ (forall w, vc_linear_equality c w = Panic p)
  /\ con_simplified (CV c) = Panic p /\ con_scalars (CV c) = Panic p.
Proof. exact @vc_reject. Qed.
Print Assumptions C78_vector.
Theorem C78_matrix : forall {NN : Num} (c : matrix_constraint) (p : panic), con_check (CM c) = Panic p -> mc_dims c = Panic p /\ (forall i j, mc_at c i j = Panic p) /\ con_scalars (CM c) = Panic p.
Proof. exact @mc_reject. Qed.
Print Assumptions C78_matrix.
(** CompileConstraintsIntoScalarConstraints, anywhere in the list.
    missing: scalar constraints, which are taken over as they are (C78_unchecked_refuted) *)
Theorem C78_compile_partial : forall {NN : Num} (l1 l2 : list constraint) (c : constraint) (p : panic) (parts : list (list scalar_constraint)),
  mapM con_scalars l1 = Ok parts -> con_check c = Panic p -> (forall s, c <> CS s) -> compile_constraints (l1 ++ c :: l2) = Panic p.
Proof. exact @compile_reject. Qed.
Print Assumptions C78_compile_partial.
(** a malformed term, two entries against three, an unknown sense *)
Example C78_nonvacuous (NN := QNum) : con_check (CS rc_sc) = Panic PCheck /\ con_check (CV rc_vc) = Panic PDim /\ con_check (CM rc_mc) = Panic POther /\ con_check (CS (mkSC (SV wx) (SK n1) SenseLe)) = Ok tt
  /\ exists parts, mapM con_scalars [CS rc_sc; CS rc_sc] = Ok parts.
Proof. exact wit_con_reject. Qed.
(** with memory: the rejected call leaves every slice as it was *)
Theorem C78_constraint_heap : forall {NN : Num} {RT : Runtime} (c : acon) (h : heap) (p : panic), con_check (rd_acon h c) = Panic p ->
  (forall x e, acon_substitute c x e h = (Panic p, h)) /\ (forall sm sm', acon_substitute_map c sm sm' h = (Panic p, h))
  /\ (forall o d, acon_implies o c d h = (Panic p, h)) /\ (forall o d, con_check (rd_acon h d) = Ok tt -> acon_implies o d c h = (Panic p, h)).
Proof. exact @hcon_reject. Qed.
Print Assumptions C78_constraint_heap.
Theorem C78_each_heap : forall {NN : Num} {RT : Runtime} (h : heap) (p : panic),
  (forall c, con_check (rd_acon h (ACS c)) = Panic p ->
     (forall w, h_sc_linear_inequality c w h = (Panic p, h)) /\ (forall w, h_sc_linear_equality c w h = (Panic p, h)) /\ (forall f, h_sc_scale_by c f h = (Panic p, h)))
  /\ (forall c, con_check (rd_acon h (ACV c)) = Panic p ->
     (forall i, h_vc_at_vec c i h = (Panic p, h)) /\ (forall w, h_vc_linear_inequality c w h = (Panic p, h)) /\ (forall w, h_vc_linear_equality c w h = (Panic p, h))
     /\ h_vc_simplified c h = (Panic p, h) /\ acon_scalars (ACV c) h = (Panic p, h))
  /\ (forall c, con_check (rd_acon h (ACM c)) = Panic p -> (forall i j, h_mc_at c i j h = (Panic p, h)) /\ acon_scalars (ACM c) h = (Panic p, h)).
Proof. exact @hcon_reject_each. Qed.
Print Assumptions C78_each_heap.
(** a constraint on a malformed Monomial in memory, vectors with two entries against three, a row against a column *)
Example C78_heap_nonvacuous (NN := QNum) : con_check (rd_acon rj_h (ACS (mkHSC (HM (mkHM n1 (mkSlice 0 0 1 1) (mkSlice 0 0 2 2))) (HK n1) SenseLe))) = Panic PCheck
  /\ con_check (rd_acon rj_h (ACV (mkHVC (AVV [wx; wy]) (AVK [n0; n0; n1]) SenseEq))) = Panic PDim /\ con_check (rd_acon rj_h (ACM (mkHMC (AMV [[wx; wy]]) (AMK [[n0]; [n1]]) SenseGe))) = Panic POther.
Proof. exact wit_con_heap. Qed.

(** Comparison, LessEq, GreaterEq and Eq write nothing, whether they return or panic *)
Theorem C70_comparison_memory : forall {NN : Num} (a : aexpr) (g : aval) (s : sense) (h : heap), snd (aexpr_comparison a g s h) = h.
Proof. exact @comparison_still. Qed.
Print Assumptions C70_comparison_memory.
(** and reject both sides *)
Theorem C77_comparison_heap : forall {NN : Num} (a b : aexpr) (g : aval) (s : sense) (h : heap),
  (expr_check (rd_aexpr h a) = false -> aexpr_comparison a g s h = (Panic PCheck, h)) /\ (expr_check (rd_aexpr h b) = false -> aexpr_comparison a (AExpr b) s h = (Panic PCheck, h)).
Proof. exact @hreject_comparison. Qed.
Print Assumptions C77_comparison_heap.
Example C77_comparison_nonvacuous (NN := QNum) : let s := mkSlice 0 0 1 1 in let m := mkHM n1 s (mkSlice 0 0 2 2) in
  expr_check (rd_aexpr rj_h (AES (HM m))) = false /\ expr_check (rd_aexpr rj_h (AES (HP s))) = false /\ expr_check (rd_aexpr rj_h (AEV (AVM [m; m]))) = false
  /\ expr_check (rd_aexpr rj_h (AEM (AMP [[s]]))) = false /\ expr_check (rd_aexpr rj_h (AES (HV rj_var))) = false.
Proof. exact wit_arith_heap. Qed.

(** AsSimplifiedConstraint of scalar and matrix constraints, CompileConstraintsIntoScalarConstraints of scalar constraints and IsLinear do not call Check *)
Theorem C78_unchecked_refuted : forall NN : Num, NN = F64Num \/ NN = QNum -> exists (c : scalar_constraint) (m : matrix_constraint) (m' : constraint) (b : bool),
  con_check (CS c) = Panic PCheck /\ con_simplified (CS c) = Ok (CS c) /\ con_scalars (CS c) = Ok [c] /\ con_check (CM m) = Panic POther /\ con_simplified (CM m) = Ok m' /\ con_is_linear (CM m) = Ok b.
Proof. exact con_reject_refuted. Qed.
Print Assumptions C78_unchecked_refuted.
