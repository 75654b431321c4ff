(** * Witnesses for error messages *)

From Coq Require QArith.QArith_base QArith.Qcanon.
From Coq Require Import ZArith NArith Bool Ascii String List Lia.
From Verif Require Import Num Syntax ModelScalar Spec ModelShape ModelArith ModelConstr SpecArr Witness ScalarWit ArrWit ConWit ModelSC ModelString ModelErrors SpecErrors StringProofs ErrorProofs ErrorProofs2 ErrorProofs3.
Import ListNotations.

Definition w_error : sm_error := InvalidMatrixIndexError (-1) 2 (mkOperand "symbolic.PolynomialMatrix" (2, 3) None).
Lemma wit_error : Forall plain_name (type_names w_error) /\ numbers (error_text w_error) = [-1; 2; 2; 3]%Z.
Proof. split; [|vm_compute; reflexivity]. constructor; [|constructor]. intros c Hc K. cbn in Hc, K. intuition (subst; discriminate). Qed.

Definition w_op : sm_error := MatrixDimensionError "Plus" (mkOperand "symbolic.KMatrix" (12, 3) None) (mkOperand "symbolic.KVector" (4, 1) (Some 4)).
Lemma wit_op : (forall op, operation w_op = Some op -> numberless op) /\ Forall numberless (type_names w_op) /\ shown_object w_op = None
  /\ numbers (error_text w_op) = [12; 3; 4; 1]%Z.
Proof. split; [intros op E; injection E as <-; apply numberless_ok; reflexivity|]. split; [constructor|]. split; [reflexivity | vm_compute; reflexivity]. Qed.

(** a vector of the wrong length and a matrix with one column *)
Lemma wit_smerrors_panic : exists l r, check_comparison l r "<=" = Panic PRuntime.
Proof. exists (mkOperand "symbolic.KMatrix" (2, 1) None), (mkOperand "symbolic.KVector" (3, 1) (Some 3)). vm_compute. reflexivity. Qed.

(** vectors of lengths 2 and 3 *)
Lemma wit_vectors_mismatch (NN := QNum) : valid_array (2, 1) w_vv /\ valid_array (3, 1) (EV (VK [n1; n1; n1])) /\ ~ fit_for_sum (2, 1) (3, 1) /\ numberless "<=".
Proof.
  split; [apply arrayb_spec; vm_compute; reflexivity|]. split; [apply arrayb_spec; vm_compute; reflexivity|]. split; [unfold fit_for_sum, scalar_dims; intros [H|[H|H]]; discriminate H|].
  intros c [<-|[<-|[]]]; reflexivity.
Qed.

Lemma wit_mismatch_sum (NN := QNum) : valid_array (2, 2) w_vm /\ valid_array (2, 3) w_km3 /\ means (GExpr w_km3) = Some w_km3 /\ ~ fit_for_sum (2, 2) (2, 3).
Proof. destruct wit_arr_mismatch as (A & B & C & D & E & F). split; [exact A|]. split; [exact B|]. split; [exact C|]. unfold fit_for_sum, scalar_dims. tauto. Qed.
Lemma wit_mismatch_product (NN := QNum) : valid_array (2, 3) w_km3 /\ valid_array (2, 2) w_vm /\ means (GExpr w_vm) = Some w_vm /\ ~ fit_for_product (2, 3) (2, 2).
Proof. destruct wit_mul_mismatch as (A & B & C & D & E & F). split; [exact A|]. split; [exact B|]. split; [exact C|]. unfold fit_for_product, scalar_dims. tauto. Qed.
Lemma wit_mismatch_stack (NN := QNum) : Forall2 valid_array [(2, 1); (1, 1)] [w_pv; ES (SV wx)] /\ (exists d d', In d [(2, 1); (1, 1)] /\ In d' [(2, 1); (1, 1)] /\ fst d <> fst d')
  /\ Forall2 valid_array [(2, 3); (2, 2)] [w_km3; w_vm] /\ (exists d d', In d [(2, 3); (2, 2)] /\ In d' [(2, 3); (2, 2)] /\ snd d <> snd d').
Proof.
  destruct wit_stack_mismatch as (A & _ & _ & _ & B & _). split; [exact A|]. split; [exists (2, 1), (1, 1); cbn; intuition discriminate|].
  split; [exact B|]. exists (2, 3), (2, 2); cbn; intuition discriminate.
Qed.

Section Faulty.
Context {NN : Num}.
(** the second term of entry (1,0) has two exponents and one variable; a row that is too short; entries of rows in order *)
Definition w_bad_term : Monomial := mkMono n1 [1%Z; 2%Z] [wx].
Definition w_bad_matrix : expr := EM (MP [[[mkMono n1 [] []]; [mkMono n1 [] []]]; [[mkMono n1 [] []; w_bad_term]; []]]).
Definition w_bad_rows : expr := EM (MM [[w_bad_term; w_bad_term]; [w_bad_term; w_bad_term]; [w_bad_term]]).
Definition w_bad_vector : expr := EV (VM [mkMono n1 [] []; w_bad_term; w_bad_term]).
Lemma wit_faults : forall fmt, fault fmt w_bad_matrix [1; 0; 1; 2; 1]%Z /\ fault fmt w_bad_rows [2; 1; 2]%Z /\ fault fmt w_bad_vector [1; 2; 1]%Z.
Proof.
  intro fmt. split; [|split]; apply check_error_locates; eexists; (split; [reflexivity|]); vm_compute; reflexivity.
Qed.
End Faulty.
