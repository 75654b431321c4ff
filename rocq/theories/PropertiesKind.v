(** * C73: the kind of a result goes with its dimensions

    Each theorem is proved in another file; the identifiers are those of properties.jsonl. *)

From Coq Require Import ZArith NArith Bool List.
From Verif Require Import Num Syntax ModelScalar ModelShape ModelArith Spec SpecArr SpecKind KindProofs Witness ScalarWit ArrWit KindWit.
Import ListNotations.
Local Open Scope num_scope.

(** missing: matrices with one column times a number (C73_refuted) *)
Theorem C73_multiply_partial : forall {NN : Num} (a b : expr) (g : goval) (da db d : nat * nat) (e : expr), valid_array da a -> valid_array db b -> means g = Some b ->
  product_dims a b da db d -> (is_matrix a -> is_scalar b -> snd da <> 1%nat) -> expr_mul a g = Ok e -> natural d e.
Proof. exact @multiply_kind. Qed.
Print Assumptions C73_multiply_partial.
(** missing: operands that are matrices with one column (C73_refuted) *)
Theorem C73_plus_partial : forall {NN : Num} (a b : expr) (g : goval) (da db d : nat * nat) (e : expr), valid_array da a -> valid_array db b -> means g = Some b ->
  broadcast a b da db d -> (is_matrix a -> snd da <> 1%nat) -> (is_matrix b -> snd db <> 1%nat) -> expr_plus a g = Ok e -> natural d e.
Proof. exact @plus_kind. Qed.
Print Assumptions C73_plus_partial.
(** missing: operands that are matrices with one column (C73_refuted) *)
Theorem C73_minus_partial : forall {NN : Num} (a b : expr) (g : goval) (da db d : nat * nat) (e : expr), valid_array da a -> valid_array db b -> means g = Some b ->
  broadcast a b da db d -> (is_matrix a -> snd da <> 1%nat) -> (is_matrix b -> snd db <> 1%nat) -> expr_minus a g = Ok e -> natural d e.
Proof. exact @minus_kind. Qed.
Print Assumptions C73_minus_partial.
Theorem C73_hstack : forall {NN : Num} (n : nat) (ds : list (nat * nat)) (es : list expr) (e : expr), es <> [] -> Forall2 valid_array ds es -> Forall (fun d => fst d = n) ds -> hstack es = Ok e -> natural (n, list_sum (map snd ds)) e.
Proof. exact @hstack_kind. Qed.
Print Assumptions C73_hstack.
Theorem C73_vstack : forall {NN : Num} (c : nat) (ds : list (nat * nat)) (es : list expr) (e : expr), es <> [] -> Forall2 valid_array ds es -> Forall (fun d => snd d = c) ds -> vstack es = Ok e -> natural (list_sum (map fst ds), c) e.
Proof. exact @vstack_kind. Qed.
Print Assumptions C73_vstack.
(** the transpose of a matrix with one row remains a matrix *)
Theorem C73_transpose : forall {NN : Num} (d : nat * nat) (e t : expr), valid_array d e -> natural d e -> expr_transpose e = Ok t -> (natural (snd d, fst d) t <-> is_scalar e \/ fst d <> 1%nat).
Proof. exact @transpose_kind. Qed.
Print Assumptions C73_transpose.
Example C73_nonvacuous (NN := QNum) : valid_array (1, 2)%nat k_row /\ valid_array (2, 1)%nat w_vv /\ means (GExpr w_vv) = Some w_vv /\ product_dims k_row w_vv (1, 2)%nat (2, 1)%nat (1, 1)%nat /\ (exists e, expr_mul k_row (GExpr w_vv) = Ok e)
  /\ valid_array (1, 1)%nat (ES (SV wx)) /\ broadcast w_vv (ES (SV wx)) (2, 1)%nat (1, 1)%nat (2, 1)%nat /\ (exists e, expr_plus w_vv (GExpr (ES (SV wx))) = Ok e) /\ (exists e, expr_minus w_vv (GExpr (ES (SV wx))) = Ok e)
  /\ Forall2 valid_array [(2, 1)%nat; (2, 2)%nat] [w_vv; w_vm] /\ (exists e, hstack [w_vv; w_vm] = Ok e) /\ (exists e, vstack [w_vm; w_vm] = Ok e) /\ natural (2, 2)%nat w_vm /\ (exists t, expr_transpose w_vm = Ok t).
Proof. exact wit_kind. Qed.
Theorem C73_concretize_slice : forall {NN : Num} (l : list scalar) (e : expr), l <> [] -> Forall valid l -> concretize_slice l = Ok e -> natural (length l, 1%nat) e.
Proof. exact @slice_kind. Qed.
Print Assumptions C73_concretize_slice.
Theorem C73_concretize_rows : forall {NN : Num} (d : nat * nat) (R : list (list scalar)) (e : expr), (1 <= fst d)%nat -> (1 <= snd d)%nat -> length R = fst d -> Forall (fun r => length r = snd d) R -> Forall (Forall valid) R -> concretize_rows R = Ok e -> natural d e.
Proof. exact @rows_kind. Qed.
Print Assumptions C73_concretize_rows.
Example C73_concretize_nonvacuous (NN := QNum) : [SV wx; SK (nofZ 3); w_lin] <> [] /\ Forall valid [SV wx; SK (nofZ 3); w_lin] /\ (exists e, concretize_slice [SV wx; SK (nofZ 3); w_lin] = Ok e)
  /\ Forall (Forall valid) [[SV wx]; [w_lin]] /\ (exists e, concretize_rows [[SV wx]; [w_lin]] = Ok e).
Proof. exact wit_kind_rows. Qed.
(** a, b, c are a row of numbers, a column of numbers and a column of polynomials *)
Theorem C73_refuted : forall NN, NN = F64Num \/ NN = QNum -> exists a b c t e f u v : expr, valid_array (1, 2)%nat a /\ natural (1, 2)%nat a /\ expr_transpose a = Ok t /\ valid_array (2, 1)%nat t /\ is_matrix t
  /\ valid_array (2, 1)%nat b /\ valid_array (2, 1)%nat c /\ is_matrix b /\ is_matrix c /\ expr_mul b (GFloat (nofZ 2)) = Ok e /\ expr_mul c (GFloat (nofZ 2)) = Ok f /\ is_matrix e /\ is_vector f
  /\ expr_plus b (GFloat (nofZ 2)) = Ok u /\ expr_plus c (GFloat (nofZ 2)) = Ok v /\ is_matrix u /\ is_vector v.
Proof. exact kind_refuted. Qed.
Print Assumptions C73_refuted.
