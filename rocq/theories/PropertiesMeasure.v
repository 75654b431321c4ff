(** * C72: Dims, Len, NumVariables, VariableIDs, Check of constraints and of substitution maps

    Each theorem is proved in another file; the identifiers are those of properties.jsonl. *)

From Coq Require Import ZArith NArith Bool List.
From Verif Require Import Num Syntax ModelScalar ModelShape ModelSC ModelConstr ModelMeasure Spec SpecArr SpecCon SpecMeasure MeasureProofs Witness ScalarWit ArrWit ConWit MeasureWit.
Import ListNotations.
Local Open Scope num_scope.

(** Check accepts every array whose entries are valid, and Dims is its numbers of rows and columns *)
Theorem C72_dims : forall {NN : Num} d (e : expr), valid_array d e -> expr_check e = true /\ expr_dims e = Ok d.
Proof. exact @dims_spec. Qed.
Print Assumptions C72_dims.
Theorem C72_len : forall {NN : Num} n (v : vector), valid_array (n, 1)%nat (EV v) -> vec_len v = Ok n.
Proof. exact @len_spec. Qed.
Print Assumptions C72_len.
Theorem C72_dims_invalid : forall {NN : Num} (m : matrix), mat_check m = false -> expr_dims (EM m) = Panic PCheck.
Proof. exact @dims_invalid. Qed.
Print Assumptions C72_dims_invalid.
Theorem C72_len_invalid : forall {NN : Num} (l : list Polynomial), vec_check (VP l) = false -> vec_len (VP l) = Panic PCheck.
Proof. exact @len_invalid. Qed.
Print Assumptions C72_len_invalid.
(** vectors of the other types have a length even if they fail Check *)
Theorem C72_len_unchecked : forall {NN : Num} (v : vector), match v with VP _ => False | _ => True end -> vec_len v = Ok (length (vec_entries v)).
Proof. exact @len_unchecked. Qed.
Print Assumptions C72_len_unchecked.
(** VariableIDs lists the IDs that occur, each once, and NumVariables is their number *)
Theorem C72_variable_ids : forall {NN : Num} (e : expr) d, valid_array d e -> exists l, variable_ids e = Ok l /\ NoDup l /\ (forall i, In i l <-> array_occurs i e) /\ num_variables e = Ok (length l).
Proof. exact @ids_spec. Qed.
Print Assumptions C72_variable_ids.
Theorem C72_constraint_dims : forall {NN : Num} d (c : constraint), valid_con d c -> con_check c = Ok tt /\ match c with CS _ => d = (1, 1)%nat | CV c => vc_dims c = Ok d /\ vc_len c = Ok (fst d) /\ snd d = 1%nat | CM c => mc_dims c = Ok d end.
Proof. exact @constraint_dims. Qed.
Print Assumptions C72_constraint_dims.
(** sides of different dimensions: Check reports an error, and Dims and Len panic with it *)
Theorem C72_constraint_mismatch : forall {NN : Num} dl dr (c : constraint), valid_array dl (con_left c) -> valid_array dr (con_right c) -> dl <> dr -> match c with CV _ => dl <> (1, 1)%nat /\ dr <> (1, 1)%nat | _ => True end ->
  exists p, con_check c = Panic p /\ match c with CS _ => False | CV c => vc_dims c = Panic p /\ vc_len c = Panic p | CM c => mc_dims c = Panic p end.
Proof. exact @constraint_mismatch. Qed.
Print Assumptions C72_constraint_mismatch.
(** two entries against three *)
Example C72_constraint_mismatch_nonvacuous (NN := QNum) : exists c, valid_array (2, 1)%nat (EV (vc_left c)) /\ valid_array (3, 1)%nat (EV (vc_right c)) /\ con_check (CV c) = Panic PDim.
Proof. exact wit_mismatch. Qed.
(** Check of a constraint accepts only constraints between two sides that pass Check, with one of the three senses and equal dimensions.
    missing: equal dimensions of vector constraints one of whose sides has length 1 (C72_constraint_check_refuted) *)
Theorem C72_constraint_check_partial : forall {NN : Num} (c : constraint), con_check c = Ok tt -> expr_check (con_left c) = true /\ expr_check (con_right c) = true /\ con_sense c <> SenseOther /\
  exists dl dr, expr_dims (con_left c) = Ok dl /\ expr_dims (con_right c) = Ok dr /\ (dl = dr \/ match c with CV _ => dl = (1, 1)%nat \/ dr = (1, 1)%nat | _ => False end).
Proof. exact @check_sound. Qed.
Print Assumptions C72_constraint_check_partial.
Theorem C72_constraint_check_refuted : forall NN, NN = F64Num \/ NN = QNum -> exists c : vector_constraint, valid_array (2, 1)%nat (EV (vc_left c)) /\ valid_array (1, 1)%nat (EV (vc_right c)) /\
  con_check (CV c) = Ok tt /\ vc_len c = Ok 2%nat /\ vc_at_vec c 1 = Panic PIndex.
Proof. exact constraint_check_refuted. Qed.
Print Assumptions C72_constraint_check_refuted.

(** CheckSubstitutionMap accepts exactly the maps from valid variables to scalars that pass Check *)
Theorem C72_submap : forall {NN : Num} (sm : list (var * expr)), check_submap sm = true <-> forall k e, In (k, e) sm -> valid_var k /\ exists s, e = ES s /\ scalar_check s = true.
Proof. exact @submap_spec. Qed.
Print Assumptions C72_submap.
Theorem C72_submap_valid : forall {NN : Num} (sm : list (var * expr)), valid_map sm -> check_submap sm = true.
Proof. exact @submap_check. Qed.
Print Assumptions C72_submap_valid.
(** a rejected map makes SubstituteAccordingTo panic, except on constants, which ignore it *)
Theorem C72_submap_rejected_scalar : forall {NN : Num} (s : scalar) (sm : list (var * expr)), bad_map sm -> valid s -> match s with SK _ => scalar_substitute_map s sm = Ok s | _ => scalar_substitute_map s sm = Panic PCheck end.
Proof. exact @submap_rejected_scalar. Qed.
Print Assumptions C72_submap_rejected_scalar.
Theorem C72_submap_rejected_vector : forall {NN : Num} d (v : vector) (sm : list (var * expr)), bad_map sm -> valid_array d (EV v) -> match v with VK _ => vec_substitute_map v sm = Ok v | _ => vec_substitute_map v sm = Panic PCheck end.
Proof. exact @submap_rejected_vector. Qed.
Print Assumptions C72_submap_rejected_vector.
Theorem C72_submap_rejected_matrix : forall {NN : Num} d (m : matrix) (sm : list (var * expr)), bad_map sm -> valid_array d (EM m) -> match m with MK _ => mat_substitute_map m sm = Ok m | _ => mat_substitute_map m sm = Panic PCheck end.
Proof. exact @submap_rejected_matrix. Qed.
Print Assumptions C72_submap_rejected_matrix.
(** a vector and a matrix of polynomials, a ragged matrix, two constraints, a map with a vector as value, a valid map *)
Example C72_nonvacuous (NN := QNum) : valid_array (2, 1)%nat w_pv /\ valid_array (2, 2)%nat w_pm /\ mat_check f_ragged = false /\ valid_con (2, 1)%nat (CV (w_vc SenseLe)) /\ valid_con (2, 2)%nat (CM (w_mc SenseEq)) /\ bad_map f_badmap /\ valid w_lin /\ check_submap w_arr_map = true.
Proof. exact wit_measure. Qed.
