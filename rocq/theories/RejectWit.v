(** * Witnesses and refutations for the rejection of expressions that fail Check *)

From Coq Require Import ZArith NArith Bool List.
From Verif Require Import Num Syntax ModelScalar ModelShape SpecArr SpecReject CheckExact Witness.
Import ListNotations.

Section W.
Context {NN : Num}.
(** a Variable whose bounds are both 1, a Monomial with one exponent for two variables, a matrix with such an entry *)
Definition rj_var : var := mkVar 7 n1 n1 67 String.EmptyString None.
Definition rj_mono : Monomial := mkMono n1 [2%Z] [wx; wy].
Definition rj_mat : matrix := MP [[[mkMono n1 [1%Z] [wx]]; [mkMono n1 [1%Z] [wx]; rj_mono]]].
Definition rj_vec : vector := VM [mkMono n1 [1%Z] [wx]; rj_mono].
End W.

Lemma wit_reject (NN := QNum) : expr_check (ES (SV rj_var)) = false /\ expr_check (ES (SM rj_mono)) = false /\ expr_check (ES (SP [])) = false /\ expr_check (EV rj_vec) = false
  /\ expr_check (EV (VV [wx; rj_var])) = false /\ expr_check (EM rj_mat) = false /\ of_variables (EM rj_mat) = false /\ of_variables (EV rj_vec) = false.
Proof. vm_compute. repeat split. Qed.
Lemma wit_reject_argument (NN := QNum) : of_constants (ES w_cubic) = false /\ var_check rj_var = false /\ scalar_check (SM rj_mono) = false /\ faulty_map [(wx, ES w_lin); (wy, ES (SM rj_mono))]
  /\ faulty_map [(wx, EV (VV [wx]))] /\ faulty_map [(rj_var, ES w_lin)].
Proof.
  split; [reflexivity|]. split; [vm_compute; reflexivity|]. split; [vm_compute; reflexivity|]. split; [|split].
  - exists wy, (ES (SM rj_mono)). split; [right; left; reflexivity | right; vm_compute; reflexivity].
  - exists wx, (EV (VV [wx])). split; [left; reflexivity | right; exact I].
  - exists rj_var, (ES w_lin). split; [left; reflexivity | left; vm_compute; reflexivity].
Qed.
(** a Variable that fails Check has a degree and a simplification, and a Monomial that fails Check a constant *)
Lemma reject_refuted : forall NN : Num, NN = F64Num \/ NN = QNum -> exists (e : expr) (m : Monomial),
  expr_check e = false /\ expr_degree e = Ok 1%Z /\ expr_simplified e = Ok e /\ expr_transpose e = Ok e /\ mono_check m = false /\ exists c, scalar_constant (SM m) = Ok c.
Proof.
  intros NN [-> | ->]; exists (ES (SV rj_var)), rj_mono; (split; [vm_compute; reflexivity|]; repeat (split; [reflexivity|]); vm_compute; eexists; reflexivity).
Qed.
Lemma wit_reject_tests (NN := QNum) : var_check rj_var = false /\ mono_check rj_mono = false /\ poly_check [mkMono n1 [1%Z] [wx]; rj_mono] = false /\ vec_check (VP [[mkMono n1 [1%Z] [wx]]; []]) = false.
Proof. vm_compute. repeat split. Qed.
Lemma wit_reject_arith (NN := QNum) : expr_check (ES (SV rj_var)) = false /\ expr_check (EM rj_mat) = false /\ both_variables (ES (SV wx)) (EM rj_mat) <> true /\ expr_check (ES (SV wx)) = true.
Proof. split; [vm_compute; reflexivity|]. split; [vm_compute; reflexivity|]. split; [discriminate | vm_compute; reflexivity]. Qed.

Lemma wit_well_formed (NN := QNum) : well_formed (EM (MP [[[mkMono n1 [1%Z] [wx]]; [mkMono n1 [1%Z] [wx]]]])) /\ ~ well_formed (EM rj_mat) /\ ~ well_formed (EV (VV [wx; rj_var])).
Proof. rewrite <- !check_exact. split; [vm_compute; reflexivity|]. split; vm_compute; discriminate. Qed.
