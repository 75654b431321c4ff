(** * Witnesses for the exact effect of the operations *)

From Coq Require Import ZArith NArith Bool List Lia.
From Coq Require Import QArith Qcanon.
From Verif Require Import Num Syntax ModelScalar Spec SpecConv SpecEffect Base ScalarValid Witness ScalarWit.
Import ListNotations.
Local Open Scope num_scope.

Section W.
Context {NN : Num}.
(** 3 x^2 y + x, 5 y^2 x + 7 z and 5 y^2 x *)
Definition w_e1 : scalar := SP [mkMono (nofZ 3) [2%Z; 1%Z] [wx; wy]; mkMono n1 [1%Z] [wx]].
Definition w_e2 : scalar := SP [mkMono (nofZ 5) [2%Z; 1%Z] [wy; wx]; mkMono (nofZ 7) [1%Z] [wz]].
Definition w_e3 : scalar := SM (mkMono (nofZ 5) [2%Z; 1%Z] [wy; wx]).
(** 3 x^2 y + x + 5 y^2 x *)
Definition w_e4 : scalar := SP [mkMono (nofZ 3) [2%Z; 1%Z] [wx; wy]; mkMono n1 [1%Z] [wx]; mkMono (nofZ 5) [2%Z; 1%Z] [wy; wx]].
(** x + y and x y *)
Definition w_e5 : Polynomial := [mkMono n1 [1%Z] [wx]; mkMono n1 [1%Z] [wy]].
Definition w_xy : Monomial := mkMono n1 [1%Z; 1%Z] [wx; wy].
End W.

Lemma some_test {NN : Num} (x : res scalar) (t : scalar -> bool) : match x with Ok s => negb (t s) | _ => false end = true -> exists s, x = Ok s /\ t s = false.
Proof. destruct x as [s|]; [|discriminate]. intro H. exists s. split; [reflexivity | apply negb_true_iff; exact H]. Qed.

Section Q.
Let NN := QNum.
Existing Instance NN.

Lemma wit_effect_simplify : valid w_e4
  /\ regroup (terms w_e4) = [mkMono (nofZ 3) [2%Z; 1%Z] [wx; wy]; mkMono n1 [1%Z] [wx]; mkMono (nofZ 5) [2%Z; 1%Z] [wx; wy]]
  /\ exists s, scalar_simplified w_e4 = Ok s /\ (eval (at3 1 2 0) s =? eval (at3 1 2 0) w_e4) = false.
Proof. split; [wvalid|]. split; [reflexivity|]. apply some_test. vm_compute. reflexivity. Qed.

Lemma wit_effect_plus : valid w_e1 /\ valid w_e2 /\ valid w_e3
  /\ regroup (listed_sum w_e1 w_e2) = [mkMono (nofZ 3) [2%Z; 1%Z] [wx; wy]; mkMono n1 [1%Z] [wx]; mkMono (nofZ 5) [2%Z; 1%Z] [wx; wy]; mkMono (nofZ 7) [1%Z] [wz]]
  /\ listed_sum w_e3 w_e1 = terms w_e1 ++ terms w_e3 /\ listed_sum w_e1 w_e3 = terms w_e1 ++ terms w_e3
  /\ (exists s, scalar_plus w_e1 w_e2 = Ok s) /\ exists s, scalar_plus w_e3 w_e1 = Ok s.
Proof.
  split; [wvalid|]. split; [wvalid|]. split; [wvalid|]. split; [reflexivity|]. split; [reflexivity|]. split; [reflexivity|].
  split; [destruct (some_test (scalar_plus w_e1 w_e2) (fun _ => false)) as (s & E & _) | destruct (some_test (scalar_plus w_e3 w_e1) (fun _ => false)) as (s & E & _)];
    try (vm_compute; reflexivity); exists s; exact E.
Qed.

Lemma wit_effect_minus : valid w_e1 /\ valid w_e3 /\ normal w_e3
  /\ listed_difference w_e1 w_e3 = [mkMono (nofZ 3) [2%Z; 1%Z] [wx; wy]; mkMono n1 [1%Z] [wx]; mkMono (- nofZ 5) [2%Z; 1%Z] [wy; wx]]
  /\ exists s, scalar_minus w_e1 w_e3 = Ok s /\ (eval (at3 1 2 0) s =? eval (at3 1 2 0) w_e1 - eval (at3 1 2 0) w_e3) = false.
Proof.
  split; [wvalid|]. split; [wvalid|]. split; [|split; [reflexivity|]].
  - unfold normal, w_e3. cbn [m_vars m_coeff m_exps]. split; [discriminate|]. split; [vm_compute; reflexivity|]. intros [_ H]. discriminate.
  - apply some_test. vm_compute. reflexivity.
Qed.

Lemma wit_effect_multiply : valid (SP w_e5) /\ valid (SM w_xy) /\ (forall q, SM w_xy <> SP q) /\ terms (SM w_xy) = [w_xy]
  /\ map m_exps (map (fun m => product_term m w_xy) w_e5) = [[2%Z; 1%Z]; [2%Z; 1%Z]] /\ map m_vars (map (fun m => product_term m w_xy) w_e5) = [[wx; wy]; [wy; wx]]
  /\ exists s, scalar_mul (SP w_e5) (SM w_xy) = Ok s /\ (eval (at3 1 2 0) s =? eval (at3 1 2 0) (SP w_e5) * eval (at3 1 2 0) (SM w_xy)) = false.
Proof.
  split; [unfold w_e5; wvalid|]. split; [unfold w_xy; wvalid|]. split; [intros q; discriminate|]. split; [reflexivity|]. split; [reflexivity|]. split; [reflexivity|].
  apply some_test. vm_compute. reflexivity.
Qed.
End Q.
