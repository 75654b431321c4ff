(** * Witnesses for products of matrices term by term *)

From Coq Require Import ZArith NArith Bool List Lia.
From Verif Require Import Num Syntax ModelScalar Spec SpecArr SpecEffect SpecCollect SpecSub SpecMat Base ScalarFacts Witness ScalarWit EffectWit CollectWit SubWit ModelShape ModelArith Arr ArrWit.
Import ListNotations.
Local Open Scope num_scope.

Section Q.
Let NN := QNum.
Existing Instance NN.

(** (x^2 y^2; 1 1) (y x; x y): entry (0, 0) is x^2 y + y^2 x, which is collected into one term; entry (0, 1) is x^3 + y^3 *)
Definition w_sqs : expr := EM (MM [[mkMono n1 [2%Z] [wx]; mkMono n1 [2%Z] [wy]]; [mkMono n1 [] []; mkMono n1 [] []]]).
Definition w_sym : expr := EM (MV [[wy; wx]; [wx; wy]]).
Definition w_two : expr := EV (VV [wx; wy]).

Lemma wit_product : valid_array (2, 2) w_sqs /\ valid_array (2, 2) w_sym /\ row_by_row w_sqs w_sym (2, 2) /\ valid_array (2, 2) (EM w_um) /\ valid_array (2, 1) w_two /\ row_by_row (EM w_um) w_two (2, 2)
  /\ map m_exps (terms (row_times_column w_sqs w_sym 2 0 1)) = [[3%Z]; [3%Z]] /\ length (terms (row_times_column w_sqs w_sym 2 0 0)) = 1 /\ length (row_column_terms w_sqs w_sym 2 0 0) = 2.
Proof.
  split; [apply arrayb_spec; vm_compute; reflexivity|]. split; [apply arrayb_spec; vm_compute; reflexivity|]. split; [exact I|]. split; [apply arrayb_spec; vm_compute; reflexivity|]. split; [apply arrayb_spec; vm_compute; reflexivity|]. split; [exact I|].
  repeat split; vm_compute; reflexivity.
Qed.
Lemma wit_product_when : (eval (at3 1 2 0) (row_times_column w_sqs w_sym 2 0 1) =? sum_to (fun k => value (at3 1 2 0) w_sqs 0 k * value (at3 1 2 0) w_sym k 1) 2) = true
  /\ (eval (at3 1 2 0) (row_times_column w_sqs w_sym 2 0 0) =? sum_to (fun k => value (at3 1 2 0) w_sqs 0 k * value (at3 1 2 0) w_sym k 0) 2) = false.
Proof. split; vm_compute; reflexivity. Qed.
Lemma wit_power_step : 2 <= 2 /\ valid_array (2, 2) w_sym /\ valid_array (2, 2) w_sqs /\ valid w_sq /\ (0 <= 2)%Z.
Proof. split; [lia|]. split; [apply wit_product|]. split; [apply wit_product|]. split; [exact (proj1 wit_sub_exact)|]. lia. Qed.
(** (x^2 y; y x) (x, y): the second row x y + x y is one monomial, so the call panics; (x^2 y; x y) (x, y) is x^3 + y^2, x^2 + y^2 *)
Definition w_ms : expr := EM (MM [[mkMono n1 [2%Z] [wx]; mkMono n1 [1%Z] [wy]]; [mkMono n1 [1%Z] [wy]; mkMono n1 [1%Z] [wx]]]).
Definition w_mt : expr := EM (MM [[mkMono n1 [2%Z] [wx]; mkMono n1 [1%Z] [wy]]; [mkMono n1 [1%Z] [wx]; mkMono n1 [1%Z] [wy]]]).
Lemma wit_monomials : valid_array (2, 2) w_ms /\ valid_array (2, 2) w_mt /\ valid_array (2, 1) w_two
  /\ is_polynomial (polynomial_row w_ms w_two 2 0) = true /\ is_polynomial (polynomial_row w_ms w_two 2 1) = false
  /\ is_polynomial (polynomial_row w_mt w_two 2 0) = true /\ is_polynomial (polynomial_row w_mt w_two 2 1) = true
  /\ map m_exps (terms (polynomial_row w_mt w_two 2 0)) = [[3%Z]; [2%Z]].
Proof.
  split; [apply arrayb_spec; vm_compute; reflexivity|]. split; [apply arrayb_spec; vm_compute; reflexivity|]. split; [apply wit_product|]. repeat split; vm_compute; reflexivity.
Qed.
(** x -> w_sum in the matrix (x^2 y^2; 1 1) *)
Lemma wit_sub_entries : valid_array (2, 2) w_sqs /\ valid_var wx /\ valid w_sum /\ same_environment wx (entry w_sqs 0 0)
  /\ map m_exps (terms (substituted wx w_sum (entry w_sqs 0 0))) = [[2%Z]; [1%Z; 1%Z]; [2%Z]] /\ terms (substituted wx w_sum (entry w_sqs 0 1)) = terms (entry w_sqs 0 1).
Proof.
  split; [apply wit_product|]. split; [apply varb_spec; vm_compute; reflexivity|]. split; [apply validb_spec; vm_compute; reflexivity|]. split.
  { intros m w Hm Hw _. cbn in Hm. destruct Hm as [<-|[]]. cbn in Hw. destruct Hw as [<-|[]]. reflexivity. }
  split; vm_compute; reflexivity.
Qed.
Lemma wit_steps : valid_array (2, 1) w_pv /\ ~ is_scalar w_pv /\ exists k t sm, w_arr_map = (k, ES t) :: sm /\ sm <> [] /\ valid_map ((k, ES t) :: sm).
Proof.
  destruct wit_arr_map as (V & S & M & _). split; [exact V|]. split; [exact S|]. do 3 eexists. split; [reflexivity|]. split; [discriminate | exact M].
Qed.
End Q.
