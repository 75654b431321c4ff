(** * Witnesses and refutations for dimensions, numbers of variables and Check of constraints *)

From Coq Require Import ZArith NArith Bool List Lia.
From Verif Require Import Num Syntax ModelScalar ModelShape ModelConstr ModelMeasure Spec SpecArr SpecCon SpecMeasure Base ScalarValid Witness ScalarWit ArrWit SCWit ConWit.
Import ListNotations.
Local Open Scope num_scope.

Section W.
Context {NN : Num}.
(** a vector of length 2 compared with a vector of length 1 *)
Definition f_uneven : vector_constraint := mkVC (VV [wx; wy]) (VK [nofZ 3]) SenseLe.
Definition f_badmap : list (var * expr) := [(wx, ES (SK n1)); (wy, EV (VV [wx; wy]))].
Definition f_ragged : matrix := MV [[wx; wy]; [wz]].
End W.
Lemma wit_measure (NN := QNum) : valid_array (2, 1)%nat w_pv /\ valid_array (2, 2)%nat w_pm /\ mat_check f_ragged = false /\ valid_con (2, 1)%nat (CV (w_vc SenseLe)) /\ valid_con (2, 2)%nat (CM (w_mc SenseEq)) /\ bad_map f_badmap /\ valid w_lin /\ check_submap w_arr_map = true.
Proof.
  split; [apply arrayb_spec; vm_compute; reflexivity|]. split; [apply arrayb_spec; vm_compute; reflexivity|]. split; [reflexivity|].
  split; [split; [apply arrayb_spec; vm_compute; reflexivity | split; [apply arrayb_spec; vm_compute; reflexivity | discriminate]]|].
  split; [split; [apply arrayb_spec; vm_compute; reflexivity | split; [apply arrayb_spec; vm_compute; reflexivity | discriminate]]|].
  split; [exists wy, (EV (VV [wx; wy])); split; [right; left; reflexivity | right; left; intro H; exact H]|]. split; [apply validb_spec; vm_compute; reflexivity|]. vm_compute. reflexivity.
Qed.

Lemma wit_mismatch (NN := QNum) : exists c, valid_array (2, 1)%nat (EV (vc_left c)) /\ valid_array (3, 1)%nat (EV (vc_right c)) /\ con_check (CV c) = Panic PDim.
Proof.
  exists (mkVC (VV [wx; wy]) (VK [nofZ 3; nofZ 4; nofZ 5]) SenseLe). split; [apply arrayb_spec; vm_compute; reflexivity|]. split; [apply arrayb_spec; vm_compute; reflexivity | reflexivity].
Qed.

(** Check accepts x <= 3, y <= (nothing): Len is 2, but the constraint has no second entry *)
Lemma constraint_check_refuted : forall NN, NN = F64Num \/ NN = QNum -> exists c : vector_constraint, valid_array (2, 1)%nat (EV (vc_left c)) /\ valid_array (1, 1)%nat (EV (vc_right c)) /\
  con_check (CV c) = Ok tt /\ vc_len c = Ok 2%nat /\ vc_at_vec c 1 = Panic PIndex.
Proof.
  assert (T : forall NN : Num, arrayb (2, 1)%nat (EV (vc_left f_uneven)) && arrayb (1, 1)%nat (EV (vc_right f_uneven)) && match con_check (CV f_uneven), vc_len f_uneven, vc_at_vec f_uneven 1 with Ok tt, Ok 2%nat, Panic PIndex => true | _, _, _ => false end = true ->
    exists c : vector_constraint, valid_array (2, 1)%nat (EV (vc_left c)) /\ valid_array (1, 1)%nat (EV (vc_right c)) /\ con_check (CV c) = Ok tt /\ vc_len c = Ok 2%nat /\ vc_at_vec c 1 = Panic PIndex).
  { intros NN H. apply andb_prop in H as [H H3]. apply andb_prop in H as [H1 H2]. exists f_uneven. split; [apply arrayb_spec; exact H1|]. split; [apply arrayb_spec; exact H2|].
    destruct (con_check (CV f_uneven)) as [[]|]; [|discriminate]. destruct (vc_len f_uneven) as [[|[|[|n]]]|]; try discriminate. destruct (vc_at_vec f_uneven 1) as [|[]]; try discriminate. auto. }
  intros NN [-> | ->]; apply T; vm_compute; reflexivity.
Qed.
