(** * Witnesses for the further properties *)

From Coq Require Import ZArith NArith Bool List Lia.
From Verif Require Import Num Syntax ModelScalar Spec SpecProg SpecMore Programs Base ScalarLin ScalarFacts Witness ScalarWit ArrWit.
Import ListNotations.
Local Open Scope num_scope.

Section Q.
Local Existing Instance QNum.

Lemma wit_linear_part : valid w_quad2 /\ collected w_quad2 /\ w_quad2 <> SK n0 /\ [wx; wz] <> [] /\ Forall valid_var [wx; wz] /\ NoDup (map v_id [wx; wz])
  /\ (forall i, occurs_linearly i w_quad2 -> In i (map v_id [wx; wz])) /\ length (higher_terms w_quad2) = 1%nat /\ length (terms w_quad2) = 2%nat.
Proof.
  assert (V : valid w_quad2) by (apply validb_spec; vm_compute; reflexivity).
  split; [exact V|]. split; [apply apart_s_collected; [exact V|]; cbn; repeat constructor|]. split; [discriminate|]. split; [discriminate|].
  split; [repeat constructor; apply varb_spec; vm_compute; reflexivity|]. split; [apply nodupb_spec; reflexivity|]. split; [|split; vm_compute; reflexivity].
  intros i (m & Hm & Hd & Hi). cbn in Hm. repeat (destruct Hm as [<-|Hm]; [vm_compute in Hi, Hd |- *; try discriminate Hd; intuition|]). destruct Hm.
Qed.
Lemma wit_linear_part_mono : let s := SM (mkMono (nofZ 3) [2%Z; 1%Z] [wx; wy]) in valid s /\ collected s /\ m_vars (mkMono (nofZ 3) [2%Z; 1%Z] [wx; wy]) <> [] /\ ~ degree_at_most 1 s
  /\ scalar_linear_coeff s [[wy; wx]] = Ok [n0; n0].
Proof.
  intro s. assert (V : valid s) by (apply validb_spec; vm_compute; reflexivity). split; [exact V|]. split; [apply apart_s_collected; [exact V | exact I]|]. split; [discriminate|].
  split; [|vm_compute; reflexivity]. intro H. inversion H as [|? ? H1 _]. vm_compute in H1. apply H1. reflexivity.
Qed.
End Q.
