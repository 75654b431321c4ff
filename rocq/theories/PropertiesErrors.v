(** * Properties of error messages *)

From Coq Require Import ZArith NArith Bool Ascii String List.
From Verif Require Import Num Syntax ModelScalar Spec ModelShape ModelArith ModelConstr SpecArr Witness ArrWit ConWit ModelSC ModelString ModelErrors SpecErrors ErrorProofs ErrorProofs2 ErrorProofs3 ErrorWit.
Import ListNotations.

(** ** C67 error messages identify the failure *)

(** two errors with the same message are of the same type and agree in the operation, the numbers, the types and the object they report *)
Theorem C67_identified : forall e e' : sm_error, Forall plain_name (type_names e) -> Forall plain_name (type_names e') -> error_text e = error_text e' ->
  error_type e = error_type e' /\ operation e = operation e' /\ quantities e = quantities e' /\ type_names e = type_names e' /\ shown_object e = shown_object e'.
Proof. exact error_identified. Qed.
Print Assumptions C67_identified.
Example C67_identified_nonvacuous : Forall plain_name (type_names w_error) /\ numbers (error_text w_error) = [-1; 2; 2; 3]%Z.
Proof. exact wit_error. Qed.

(** the numbers in the message are those of the error, in order *)
Theorem C67_numbers : forall e : sm_error, (forall op, operation e = Some op -> numberless op) -> Forall numberless (type_names e) -> shown_object e = None ->
  numbers (error_text e) = quantities e.
Proof. exact error_numbers. Qed.
Print Assumptions C67_numbers.
Example C67_numbers_nonvacuous : (forall op, operation w_op = Some op -> numberless op) /\ Forall numberless (type_names w_op) /\ shown_object w_op = None
  /\ numbers (error_text w_op) = [12; 3; 4; 1]%Z.
Proof. exact wit_op. Qed.
Theorem C67_mentions : forall (e : sm_error) (t : string), operation e = Some t \/ In t (type_names e) \/ shown_object e = Some t -> mentions (error_text e) t.
Proof. exact error_mentions. Qed.
Print Assumptions C67_mentions.
Theorem C67_type_names : forall {NN : Num} (e : expr), plain_name (type_name e) /\ numberless (type_name e).
Proof. exact (fun NN e => conj (type_name_plain e) (type_name_numberless e)). Qed.
Print Assumptions C67_type_names.
(** the names of two expressions are equal exactly if the expressions are of the same Go type *)
Theorem C67_types_told_apart : forall {NN : Num} (e e' : expr), type_name e = type_name e' <-> same_type e e'.
Proof. exact @type_name_same. Qed.
Print Assumptions C67_types_told_apart.

(** the checks of package smErrors return nil exactly if the operands fit, and otherwise report the operands *)
Theorem C67_addition : forall l r : operand, (check_addition l r = None <-> fit_for_sum (o_dims l) (o_dims r))
  /\ forall err, check_addition l r = Some err -> operation err = Some "Plus"%string /\ quantities err = dims_numbers (o_dims l) ++ dims_numbers (o_dims r).
Proof. exact addition_check. Qed.
Print Assumptions C67_addition.
Theorem C67_subtraction : forall l r : operand, (check_subtraction l r = None <-> fit_for_sum (o_dims l) (o_dims r))
  /\ forall err, check_subtraction l r = Some err -> operation err = Some "Minus"%string /\ quantities err = dims_numbers (o_dims l) ++ dims_numbers (o_dims r).
Proof. exact subtraction_check. Qed.
Print Assumptions C67_subtraction.
Theorem C67_multiplication : forall l r : operand, (check_multiplication l r = None <-> fit_for_product (o_dims l) (o_dims r))
  /\ forall err, check_multiplication l r = Some err -> operation err = Some "Multiply"%string /\ quantities err = dims_numbers (o_dims l) ++ dims_numbers (o_dims r).
Proof. exact multiplication_check. Qed.
Print Assumptions C67_multiplication.
Theorem C67_vector_index : forall (i : Z) (o : operand), (check_index_vector i o = None <-> (0 <= i < Z.of_nat (fst (o_dims o)))%Z)
  /\ forall err, check_index_vector i o = Some err -> quantities err = i :: dims_numbers (o_dims o) /\ type_names err = [o_type o].
Proof. exact index_vector_check. Qed.
Print Assumptions C67_vector_index.
Theorem C67_matrix_index : forall (i j : Z) (o : operand), (check_index_matrix i j o = None <-> (0 <= i < Z.of_nat (fst (o_dims o)))%Z /\ (0 <= j < Z.of_nat (snd (o_dims o)))%Z)
  /\ forall err, check_index_matrix i j o = Some err -> quantities err = i :: j :: dims_numbers (o_dims o) /\ type_names err = [o_type o].
Proof. exact index_matrix_check. Qed.
Print Assumptions C67_matrix_index.
Theorem C67_comparison : forall (l r : operand) (t : string),
  fit_for_sum (o_dims l) (o_dims r) \/ snd (o_dims l) <> 1 \/ snd (o_dims r) <> 1 \/ o_len l = Some (fst (o_dims l)) /\ o_len r = Some (fst (o_dims r)) ->
  exists o, check_comparison l r t = Ok o /\ (o = None <-> fit_for_sum (o_dims l) (o_dims r))
  /\ forall err, o = Some err -> mentions (error_text err) t /\ (quantities err = dims_numbers (o_dims l) ++ dims_numbers (o_dims r)
       \/ snd (o_dims l) = 1 /\ snd (o_dims r) = 1 /\ quantities err = [Z.of_nat (fst (o_dims l)); Z.of_nat (fst (o_dims r))]).
Proof. exact comparison_check. Qed.
Print Assumptions C67_comparison.
(** for two vectors the message names the comparison and the two lengths *)
Theorem C67_comparison_vectors : forall {NN : Num} (a b : expr) (da db : nat * nat) (t : string), valid_array da a -> valid_array db b -> is_vector a -> is_vector b ->
  ~ fit_for_sum da db -> numberless t ->
  exists err, check_comparison (operand_of a da) (operand_of b db) t = Ok (Some err) /\ mentions (error_text err) t
    /\ numbers (error_text err) = [Z.of_nat (fst da); Z.of_nat (fst db)].
Proof. exact @vectors_reported. Qed.
Print Assumptions C67_comparison_vectors.
Example C67_comparison_vectors_nonvacuous (NN := QNum) : valid_array (2, 1) w_vv /\ valid_array (3, 1) (EV (VK [n1; n1; n1])) /\ ~ fit_for_sum (2, 1) (3, 1) /\ numberless "<=".
Proof. exact wit_vectors_mismatch. Qed.
(** a matrix with one column and a vector of a different length make the check itself panic *)
Theorem C67_comparison_panics : forall (l r : operand) (t : string), check_comparison l r t = Panic PRuntime <->
  ~ fit_for_sum (o_dims l) (o_dims r) /\ snd (o_dims l) = 1 /\ snd (o_dims r) = 1 /\ (o_len l = None \/ o_len r = None).
Proof. exact comparison_check_panics. Qed.
Print Assumptions C67_comparison_panics.
Example C67_comparison_panics_nonvacuous : exists l r, check_comparison l r "<=" = Panic PRuntime.
Proof. exact wit_smerrors_panic. Qed.

(** a call with operands that do not fit panics with an error whose message names the call and both dimensions *)
Theorem C67_plus : forall {NN : Num} (a b : expr) (g : goval) (da db : nat * nat), valid_array da a -> valid_array db b -> means g = Some b -> ~ fit_for_sum da db ->
  expr_plus a g = Panic PDim /\ exists err, check_addition (operand_of a da) (operand_of b db) = Some err
    /\ mentions (error_text err) "Plus" /\ numbers (error_text err) = dims_numbers da ++ dims_numbers db.
Proof. exact @plus_reports. Qed.
Print Assumptions C67_plus.
Example C67_plus_nonvacuous (NN := QNum) : valid_array (2, 2) w_vm /\ valid_array (2, 3) w_km3 /\ means (GExpr w_km3) = Some w_km3 /\ ~ fit_for_sum (2, 2) (2, 3).
Proof. exact wit_mismatch_sum. Qed.
Theorem C67_minus : forall {NN : Num} (a b : expr) (g : goval) (da db : nat * nat), valid_array da a -> valid_array db b -> means g = Some b -> ~ fit_for_sum da db ->
  expr_minus a g = Panic PDim /\ exists err, check_subtraction (operand_of a da) (operand_of b db) = Some err
    /\ mentions (error_text err) "Minus" /\ numbers (error_text err) = dims_numbers da ++ dims_numbers db.
Proof. exact @minus_reports. Qed.
Print Assumptions C67_minus.
Theorem C67_multiply : forall {NN : Num} (a b : expr) (g : goval) (da db : nat * nat), valid_array da a -> valid_array db b -> means g = Some b -> ~ fit_for_product da db ->
  expr_mul a g = Panic PDim /\ exists err, check_multiplication (operand_of a da) (operand_of b db) = Some err
    /\ mentions (error_text err) "Multiply" /\ numbers (error_text err) = dims_numbers da ++ dims_numbers db.
Proof. exact @multiply_reports. Qed.
Print Assumptions C67_multiply.
Example C67_multiply_nonvacuous (NN := QNum) : valid_array (2, 3) w_km3 /\ valid_array (2, 2) w_vm /\ means (GExpr w_vm) = Some w_vm /\ ~ fit_for_product (2, 3) (2, 2).
Proof. exact wit_mismatch_product. Qed.
Theorem C67_compare : forall {NN : Num} (a b : expr) (g : goval) (da db : nat * nat) (s : sense), valid_array da a -> valid_array db b -> means g = Some b ->
  ~ is_scalar a -> ~ is_scalar b -> da <> db -> s <> SenseOther ->
  expr_comparison a g s = Panic PDim /\ exists err t, check_comparison_sense a b da db s = Ok (Some err) /\ sense_string s = Ok t
    /\ mentions (error_text err) t /\ numbers (error_text err) = dims_numbers da ++ dims_numbers db.
Proof. exact @comparison_reports. Qed.
Print Assumptions C67_compare.
Example C67_compare_nonvacuous (NN := QNum) : valid_array (2, 2) w_vm /\ valid_array (2, 3) w_km3 /\ means (GExpr w_km3) = Some w_km3 /\ ~ is_scalar w_vm /\ ~ is_scalar w_km3 /\ (2, 2) <> (2, 3).
Proof. exact wit_compare_mismatch. Qed.

(** HStack and VStack report the first two neighbours that do not fit *)
Theorem C67_hstack : forall {NN : Num} (ds : list (nat * nat)) (es : list expr), Forall2 valid_array ds es -> (exists d d', In d ds /\ In d' ds /\ fst d <> fst d') ->
  hstack es = Panic PDim /\ exists err i d d', check_hstack (operands ds es) = Some err /\ nth_error ds i = Some d /\ nth_error ds (S i) = Some d' /\ fst d <> fst d'
    /\ (forall k x, k <= i -> nth_error ds k = Some x -> fst x = fst d)
    /\ mentions (error_text err) "HStack" /\ numbers (error_text err) = dims_numbers d ++ dims_numbers d'.
Proof. exact @hstack_reports. Qed.
Print Assumptions C67_hstack.
Theorem C67_vstack : forall {NN : Num} (ds : list (nat * nat)) (es : list expr), Forall2 valid_array ds es -> (exists d d', In d ds /\ In d' ds /\ snd d <> snd d') ->
  vstack es = Panic PDim /\ exists err i d d', check_vstack (operands ds es) = Some err /\ nth_error ds i = Some d /\ nth_error ds (S i) = Some d' /\ snd d <> snd d'
    /\ (forall k x, k <= i -> nth_error ds k = Some x -> snd x = snd d)
    /\ mentions (error_text err) "VStack" /\ numbers (error_text err) = dims_numbers d ++ dims_numbers d'.
Proof. exact @vstack_reports. Qed.
Print Assumptions C67_vstack.
Example C67_stack_nonvacuous (NN := QNum) : Forall2 valid_array [(2, 1); (1, 1)] [w_pv; ES (SV wx)] /\ (exists d d', In d [(2, 1); (1, 1)] /\ In d' [(2, 1); (1, 1)] /\ fst d <> fst d')
  /\ Forall2 valid_array [(2, 3); (2, 2)] [w_km3; w_vm] /\ (exists d d', In d [(2, 3); (2, 2)] /\ In d' [(2, 3); (2, 2)] /\ snd d <> snd d').
Proof. exact wit_mismatch_stack. Qed.

(** ** C68 Check locates the first fault *)

(** the numbers in the message of Check are the position of the first faulty row, entry or term and what is wrong there *)
Theorem C68_locates : forall {NN : Num} (fmt : num -> string) (e : expr) (ns : list Z), fault fmt e ns <-> exists s, check_error fmt e = Some s /\ numbers s = ns.
Proof. exact @check_error_locates. Qed.
Print Assumptions C68_locates.
Example C68_locates_nonvacuous (NN := QNum) : forall fmt, fault fmt w_bad_matrix [1; 0; 1; 2; 1]%Z /\ fault fmt w_bad_rows [2; 1; 2]%Z /\ fault fmt w_bad_vector [1; 2; 1]%Z.
Proof. exact wit_faults. Qed.
Theorem C68_one_fault : forall {NN : Num} (fmt : num -> string) (e : expr) (ns ns' : list Z), fault fmt e ns -> fault fmt e ns' -> ns = ns'.
Proof. exact @expr_determined. Qed.
Print Assumptions C68_one_fault.
(** every call that starts with a check panics exactly if Check returns an error *)
Theorem C68_nil : forall {NN : Num} (fmt : num -> string) (e : expr), check_error fmt e = None <-> expr_check e = true.
Proof. exact @check_error_none. Qed.
Print Assumptions C68_nil.
