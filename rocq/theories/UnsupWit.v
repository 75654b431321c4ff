(** * Witnesses for type pairs that are not implemented *)

From Coq Require Import ZArith NArith Bool List.
From Verif Require Import Num Syntax ModelScalar ModelShape ModelArith Spec SpecArr SpecReject Witness ArrWit.
Import ListNotations.

Lemma wit_unsupported (NN := QNum) : valid_array (2, 2)%nat w_vm /\ fits eq (2, 2)%nat (GExpr w_pm) /\ plus_accepts w_vm (GExpr w_pm) = false
  /\ valid_array (2, 2)%nat w_pm /\ fits (fun d1 d2 => snd d1 = fst d2) (2, 2)%nat (GExpr w_pv) /\ multiply_accepts w_pm (GExpr w_pv) = false.
Proof.
  destruct wit_shapes as (H1 & H2 & _ & H4). split; [exact H4|]. split; [intros b E; injection E as <-; exists (2, 2)%nat; split; [exact H1 | left; reflexivity]|]. split; [reflexivity|].
  split; [exact H1|]. split; [intros b E; injection E as <-; exists (2, 1)%nat; split; [exact H2 | left; reflexivity] | reflexivity].
Qed.
