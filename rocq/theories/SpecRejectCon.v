(** * Specification: which constraints Check accepts *)

From Coq Require Import ZArith NArith Bool List.
From Verif Require Import Num Syntax ModelScalar ModelShape ModelSC ModelConstr SpecArr SpecCon SpecReject.

Section SpecRejectCon.
Context {NN : Num}.

(** both sides are well formed, the sense is one of the three, and the dimensions agree; one side of a vector constraint may have length 1 *)
Definition well_formed_con (c : constraint) : Prop :=
  well_formed (con_left c) /\ well_formed (con_right c) /\ con_sense c <> SenseOther /\
  exists dl dr, expr_dims (con_left c) = Ok dl /\ expr_dims (con_right c) = Ok dr /\ (dl = dr \/ match c with CV _ => dl = (1, 1)%nat \/ dr = (1, 1)%nat | _ => False end).

End SpecRejectCon.
