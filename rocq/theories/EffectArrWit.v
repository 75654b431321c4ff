(** * Witnesses for the entrywise effect of Plus and simplification *)

From Coq Require Import ZArith NArith Bool List Lia.
From Coq Require Import QArith Qcanon.
From Verif Require Import Num Syntax ModelScalar Spec SpecConv SpecEffect ModelShape ModelArith SpecArr SpecEffectArr Base ScalarValid Witness ScalarWit ArrWit EffectWit.
Import ListNotations.
Local Open Scope num_scope.

Section W.
Context {NN : Num}.
(** (3 x^2 y + x, x) and (5 y^2 x + 7 z, z) *)
Definition w_ev1 : expr := EV (VP [terms w_e1; [var_to_mono wx]]).
Definition w_ev2 : expr := EV (VP [terms w_e2; [var_to_mono wz]]).
(** (3 x^2 y + x + 5 y^2 x, z) *)
Definition w_ev4 : expr := EV (VP [terms w_e4; [var_to_mono wz]]).
(** a row of 3 x^2 y and 5 y^2 x *)
Definition w_em : expr := EM (MM [[mkMono (nofZ 3) [2%Z; 1%Z] [wx; wy]; mkMono (nofZ 5) [2%Z; 1%Z] [wy; wx]]]).
End W.

Lemma some_array {NN : Num} (x : res expr) (t : expr -> bool) : match x with Ok e => t e | _ => false end = true -> exists e, x = Ok e /\ t e = true.
Proof. destruct x as [e|]; [|discriminate]. intro H. exists e. split; [reflexivity | exact H]. Qed.

Section Q.
Let NN := QNum.
Existing Instance NN.

Lemma wit_ea_plus : valid_array (2, 1)%nat w_ev1 /\ valid_array (2, 1)%nat w_ev2 /\ means (GExpr w_ev2) = Some w_ev2 /\ broadcast w_ev1 w_ev2 (2, 1)%nat (2, 1)%nat (2, 1)%nat
  /\ lists_only w_ev1 w_ev2 = false
  /\ regroup (listed_sum (bentry w_ev1 0 0) (bentry w_ev2 0 0))
     = [mkMono (nofZ 3) [2%Z; 1%Z] [wx; wy]; mkMono n1 [1%Z] [wx]; mkMono (nofZ 5) [2%Z; 1%Z] [wx; wy]; mkMono (nofZ 7) [1%Z] [wz]]
  /\ exists e, expr_plus w_ev1 (GExpr w_ev2) = Ok e
       /\ negb (value (at3 1 2 0) e 0 0 =? bvalue (at3 1 2 0) w_ev1 0 0 + bvalue (at3 1 2 0) w_ev2 0 0) && (value (at3 1 2 0) e 1 0 =? bvalue (at3 1 2 0) w_ev1 1 0 + bvalue (at3 1 2 0) w_ev2 1 0) = true.
Proof.
  split; [ar|]. split; [ar|]. split; [reflexivity|]. split; [left; split; reflexivity|]. split; [reflexivity|]. split; [reflexivity|].
  apply some_array. vm_compute. reflexivity.
Qed.

Lemma wit_ea_list : valid_array (1, 2)%nat w_em /\ valid_array (1, 1)%nat (ES w_e3) /\ means (GExpr (ES w_e3)) = Some (ES w_e3) /\ broadcast w_em (ES w_e3) (1, 2)%nat (1, 1)%nat (1, 2)%nat
  /\ lists_only w_em (ES w_e3) = true
  /\ exists e, expr_plus w_em (GExpr (ES w_e3)) = Ok e
       /\ (value (at3 1 2 0) e 0 0 =? bvalue (at3 1 2 0) w_em 0 0 + eval (at3 1 2 0) w_e3) && negb (value (at3 1 2 0) e 0 0 =? n0) = true.
Proof.
  split; [ar|]. split; [ar|]. split; [reflexivity|]. split; [right; right; split; [exact I | reflexivity]|]. split; [reflexivity|].
  apply some_array. vm_compute. reflexivity.
Qed.

Lemma wit_ea_simplify : valid_array (2, 1)%nat w_ev4
  /\ regroup (terms (entry w_ev4 0 0)) = [mkMono (nofZ 3) [2%Z; 1%Z] [wx; wy]; mkMono n1 [1%Z] [wx]; mkMono (nofZ 5) [2%Z; 1%Z] [wx; wy]]
  /\ exists e, expr_simplified w_ev4 = Ok e
       /\ negb (value (at3 1 2 0) e 0 0 =? value (at3 1 2 0) w_ev4 0 0) && (value (at3 1 2 3) e 1 0 =? value (at3 1 2 3) w_ev4 1 0) = true.
Proof. split; [ar|]. split; [reflexivity|]. apply some_array. vm_compute. reflexivity. Qed.
End Q.
