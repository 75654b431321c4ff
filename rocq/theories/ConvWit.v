(** * Witnesses and refutations for conversions, types, constants and equal functions *)

From Coq Require Import ZArith NArith Bool List Lia Ring_theory.
From Verif Require Import Num Syntax ModelScalar Spec SpecProg Programs Base ScalarOps Eval ModelShape ModelArith SpecArr Witness ScalarWit ArrWit ModelEnv ModelConv SpecConv Canon ConvProofs.
Import ListNotations.
Local Open Scope num_scope.

Section Q.
Local Existing Instance QNum.

Lemma wit_asked : asked [] 0 /\ asked [3%N] 3 /\ fst (run_calls empty_store [NewBinary [3%N]; NewVector 2 []]) = [binary 0 3; continuous 0 0; continuous 1 0].
Proof. split; [left; auto|]. split; [right; reflexivity | reflexivity]. Qed.
Lemma wit_array_derivatives : valid_var wx /\ valid_array (2, 1) (EV (VK [nofZ 2; nofZ 3])) /\ valid_array (2, 1) (EV (VV [wx; wy])) /\ valid_array (2, 2) (EM (MK [[nofZ 1; nofZ 2]; [nofZ 3; nofZ 4]]))
  /\ valid_array (2, 2) (EM (MV [[wx; wy]; [wz; wx]])) /\ var_mat_derivative [[wx; wy]; [wz; wx]] wx = Ok [[n1; n0]; [n0; n1]].
Proof. split; [apply varb_spec; vm_compute; reflexivity|]. do 4 (split; [ar|]). vm_compute; reflexivity. Qed.
Lemma wit_conversions : valid_array (2, 1) (EV (VK [nofZ 2; nofZ 3])) /\ valid_array (2, 1) (EV (VV [wx; wy])) /\ valid_array (2, 1) (EV (VM [mkMono (nofZ 2) [2%Z] [wx]; mkMono n1 [] []]))
  /\ valid_array (2, 3) (EM (MK [[nofZ 1; nofZ 2; nofZ 3]; [nofZ 4; nofZ 5; nofZ 6]])) /\ valid_array (2, 2) (EM (MV [[wx; wy]; [wz; wx]])).
Proof. do 4 (split; [ar|]). ar. Qed.
Lemma wit_types : to_scalar_expression (GFloat (nofZ 2)) = (SK (nofZ 2), true) /\ to_vector_expression (GVecP [nofZ 2]) = (VK [nofZ 2], true) /\ to_matrix_expression (GExpr w_vm) = (MV [[wx; wy]; [wz; wx]], true)
  /\ to_polynomial_like (GExpr (ES (SV wx))) = Ok (ES (SV wx), true) /\ to_polynomial_like (GInt 3) = Panic PUnsupported.
Proof. repeat split. Qed.
Lemma wit_constant : valid_mono (mkMono (nofZ 2) [2%Z] [wx]) /\ valid_poly (w_poly w_lin) /\ valid_array (2, 1) (EV (VP [w_poly w_lin; [mkMono (nofZ 5) [] []]])) /\ poly_is_constant [mkMono (nofZ 5) [] []] = Ok true
  /\ poly_is_constant (w_poly w_lin) = Ok false.
Proof. split; [apply (validb_spec (SM _)); vm_compute; reflexivity|]. split; [apply (validb_spec (SP _)); vm_compute; reflexivity|]. split; [ar|]. split; reflexivity. Qed.
Lemma wit_constant_terms : valid w_lin /\ different_powers w_lin /\ (forall m, In m (terms w_lin) -> m_coeff m <> n0) /\ degree_at_most 2 w_lin.
Proof.
  assert (V : valid w_lin) by (apply validb_spec; vm_compute; reflexivity). split; [exact V|]. split; [|split].
  - intros l1 m1 l2 m2 l3 E HP. cbn in E.
    destruct l1 as [|a [|b [|c l1]]]; cbn in E; [| | |destruct l1; discriminate E].
    + injection E as <- E. destruct l2 as [|d [|e l2]]; cbn in E.
      * injection E as <- _. specialize (HP 0%N). discriminate HP.
      * injection E as _ <- _. specialize (HP 1%N). discriminate HP.
      * injection E as _ _ E. destruct l2; discriminate E.
    + injection E as _ <- E. destruct l2 as [|d l2]; cbn in E; [injection E as <- _; specialize (HP 0%N); discriminate HP | injection E as _ E; destruct l2; discriminate E].
    + injection E as _ _ _ E. destruct l2; discriminate E.
  - intros m Hm. cbn in Hm. repeat (destruct Hm as [<-|Hm]; [discriminate|]). destruct Hm.
  - apply degree_test_spec; vm_compute; reflexivity.
Qed.
Lemma wit_listed : valid w_cubic /\ valid w_cubic2 /\ unambiguous (in_either w_cubic w_cubic2) /\ uniquely_listed (in_either w_cubic w_cubic2) /\ same_function w_twice (SM (mkMono (nofZ 2) [1%Z] [wx])).
Proof.
  destruct wit_cubic_valid as [V1 V2]. destruct wit_cubic_sorted as [S1 S2]. split; [exact V1|]. split; [exact V2|]. split; [exact wit_cubic_unambiguous|]. split; [apply sorted_either_listed; assumption|].
  assert (V : valid w_twice) by (apply validb_spec; vm_compute; reflexivity). assert (V' : valid (SM (mkMono (nofZ 2) [1%Z] [wx]))) by (apply validb_spec; vm_compute; reflexivity).
  assert (D : degree_at_most 2 w_twice) by (apply degree_test_spec; vm_compute; reflexivity). assert (D' : degree_at_most 2 (SM (mkMono (nofZ 2) [1%Z] [wx]))) by (apply degree_test_spec; vm_compute; reflexivity).
  destruct (@difference_degree2 QNum QNum_exact _ _ V V' D D') as (s & E & H). apply H. vm_compute in E. injection E as <-. reflexivity.
Qed.
End Q.

(** ** Refutations *)
Lemma two_environments_refuted : forall NN : Num, exists (envs : list N) (v : var) (st : store),
  run_call empty_store (NewContinuous envs) = ([v], st) /\ envs <> [] /\ v_env v = Some 0%N /\ ~ In 0%N envs.
Proof. intro NN. exists [1%N; 2%N], (continuous 0 0). eexists. split; [reflexivity|]. split; [discriminate|]. split; [reflexivity|]. cbn. intros [H|[H|[]]]; discriminate. Qed.
Lemma ragged_refuted : forall NN : Num, exists (l : list (list num)) (l' : list (list Monomial)),
  mat_check (MK l) = true /\ k_mat_to_monos l = Ok l' /\ length (concat l) = 3 /\ length (concat l') = 2.
Proof. intro NN. exists [[n1]; [n1; n1]]. eexists. split; [reflexivity|]. split; [reflexivity|]. split; reflexivity. Qed.
Lemma ragged_panic_refuted : forall NN : Num, exists (l : list (list num)) (p : panic), mat_check (MK l) = true /\ k_mat_to_monos l = Panic p.
Proof. intro NN. exists [[n1; n1]; [n1]]. eexists. split; reflexivity. Qed.
Lemma empty_vector_refuted : forall NN : Num, exists (l : list num) (p : panic), vec_check (VK l) = true /\ k_vec_to_polys l = Panic p.
Proof. intro NN. exists []. eexists. split; reflexivity. Qed.
Lemma polynomial_like_refuted : forall NN : Num, exists (g : goval) (e : expr),
  means g = Some e /\ is_vector_expression g = true /\ to_polynomial_like g = Panic PUnsupported.
Proof. intro NN. exists (GVecP [n1]). eexists. split; [reflexivity|]. split; reflexivity. Qed.
Lemma int_refuted : forall NN : Num, exists (g : goval) (s : scalar), means g = Some (ES s) /\ snd (to_scalar_expression g) = false.
Proof. intro NN. exists (GInt 3). eexists. split; reflexivity. Qed.

Section Zero.
Context {NN : Num} {EX : ExactNum NN}.
Add Ring numring3 : num_ring.
(** x - x *)
Definition r_cancel : Polynomial := [mkMono n1 [1%Z] [wx]; mkMono (- n1) [1%Z] [wx]].
Lemma cancel_constant : constant_function (SP r_cancel).
Proof. intros r r'. unfold eval, r_cancel, eval_poly, eval_mono. cbn [m_coeff m_exps m_vars eval_factors]. change (Z.to_nat 1) with 1. cbn [npow]. ring. Qed.
Lemma zero_constant : constant_function (SM (mkMono n0 [1%Z] [wx])).
Proof. intros r r'. unfold eval, r_cancel, eval_poly, eval_mono. cbn [m_coeff m_exps m_vars eval_factors]. change (Z.to_nat 1) with 1. cbn [npow]. ring. Qed.
(** x x y and y x x *)
Lemma swapped_same : same_function (SM (mkMono n1 [2%Z; 1%Z] [wx; wy])) (SM (mkMono n1 [1%Z; 2%Z] [wy; wx])).
Proof. intro r. unfold eval, eval_mono. cbn [m_coeff m_exps m_vars eval_factors]. change (Z.to_nat 1) with 1. change (Z.to_nat 2) with 2. cbn [npow]. ring. Qed.
End Zero.
Lemma constant_refuted : forall NN, NN = QNum -> exists (m : Monomial) (p : Polynomial), valid_mono m /\ valid_poly p /\ mono_is_constant m = Ok false /\ poly_is_constant p = Ok false
  /\ constant_function (SM m) /\ constant_function (SP p).
Proof.
  intros NN ->. exists (mkMono n0 [1%Z] [wx]), r_cancel. split; [apply (validb_spec (SM _)); vm_compute; reflexivity|]. split; [apply (validb_spec (SP _)); vm_compute; reflexivity|].
  split; [vm_compute; reflexivity|]. split; [vm_compute; reflexivity|]. split; [apply (@zero_constant QNum QNum_exact) | apply (@cancel_constant QNum QNum_exact)].
Qed.
Lemma difference_refuted : forall NN, NN = QNum -> exists (p q : prog) (a b s : scalar), well_formed p /\ well_formed q /\ run p = Ok a /\ run q = Ok b /\ same_function a b
  /\ scalar_minus a b = Ok s /\ length (terms s) = 2.
Proof.
  intros NN ->. exists (PMul (PMul (PVar wx) (PVar wx)) (PVar wy)), (PMul (PMul (PVar wy) (PVar wx)) (PVar wx)).
  exists (SM (mkMono n1 [2%Z; 1%Z] [wx; wy])), (SM (mkMono n1 [1%Z; 2%Z] [wy; wx])). eexists.
  split; [wf|]. split; [wf|]. split; [vm_compute; reflexivity|]. split; [vm_compute; reflexivity|]. split; [apply (@swapped_same QNum QNum_exact)|].
  split; vm_compute; reflexivity.
Qed.
