(** * Methods of constraints reject constraints that fail Check, with the error of Check *)

From Coq Require Import ZArith NArith Bool List Lia.
From Verif Require Import Num Syntax ModelScalar ModelShape ModelSC ModelArith ModelConstr ModelMeasure SpecArr Witness RejectWit.
Import ListNotations.

Section RejectCon.
Context {NN : Num}.

Theorem con_reject (c : constraint) (p : panic) : con_check c = Panic p ->
  (forall order, con_variables order c = Panic p) /\ (forall x e, con_substitute c x e = Panic p) /\ (forall sm sm', con_substitute_map c sm sm' = Panic p)
  /\ (forall o d, con_implies o c d = Panic p) /\ (forall o d, con_check d = Ok tt -> con_implies o d c = Panic p)
  /\ (forall o d q, con_check d = Panic q -> con_implies o d c = Panic q).
Proof.
  intro H. assert (HS : forall s, c = CS s -> sc_check s = false /\ p = PCheck).
  { intros s ->. cbn [con_check] in H. destruct (sc_check s); [discriminate H|]. injection H as <-. split; reflexivity. }
  split; [intro order; unfold con_variables; rewrite H; reflexivity|]. split; [|split].
  - intros x e. destruct c as [c|c|c]; cbn [con_check] in H; cbn [con_substitute].
    + destruct (HS c eq_refl) as [E ->]. unfold sc_substitute. rewrite E. reflexivity.
    + unfold vc_substitute. rewrite H. reflexivity.
    + unfold mc_substitute. rewrite H. reflexivity.
  - intros sm sm'. destruct c as [c|c|c]; cbn [con_check] in H; cbn [con_substitute_map].
    + destruct (HS c eq_refl) as [E ->]. unfold sc_substitute_map. rewrite E. reflexivity.
    + unfold vc_substitute_map. rewrite H. reflexivity.
    + unfold mc_substitute_map. rewrite H. reflexivity.
  - split; [intros o d; unfold con_implies; rewrite H; reflexivity|]. split; [intros o d E; unfold con_implies; rewrite E; cbn [bind]; rewrite H; reflexivity|].
    intros o d q E. unfold con_implies. rewrite E. reflexivity.
Qed.
Theorem sc_reject (c : scalar_constraint) : con_check (CS c) <> Ok tt ->
  con_check (CS c) = Panic PCheck /\ (forall w, sc_linear_inequality c w = Panic PCheck) /\ (forall w, sc_linear_equality c w = Panic PCheck) /\ (forall f, sc_scale_by c f = Panic PCheck) /\ (forall o, sc_is_nonnegativity o c = Panic PCheck)
  /\ (forall order, sc_variables order c = Panic PCheck) /\ (forall o d, sc_implies o c d = Panic PCheck /\ sc_implies o d c = Panic PCheck).
Proof.
  cbn [con_check]. destruct (sc_check c) eqn:E; intro H; [exfalso; apply H; reflexivity|]. split; [reflexivity|].
  unfold sc_linear_inequality, sc_linear_equality, sc_scale_by, sc_is_nonnegativity, sc_variables, sc_implies. rewrite E. cbn [check bind].
  do 5 (split; [reflexivity|]). intros o d. split; [reflexivity|]. destruct (sc_check d); reflexivity.
Qed.
Theorem vc_reject (c : vector_constraint) (p : panic) : con_check (CV c) = Panic p ->
  vc_dims c = Panic p /\ vc_len c = Panic p /\ (forall i, vc_at_vec c i = Panic p) /\ (forall w, vc_linear_inequality c w = Panic p) /\ (forall w, vc_linear_equality c w = Panic p)
  /\ con_simplified (CV c) = Panic p /\ con_scalars (CV c) = Panic p.
Proof.
  cbn [con_check]. intro H. unfold vc_dims, vc_at_vec, vc_linear_inequality, vc_linear_equality. cbn [con_simplified con_scalars]. unfold vc_simplified, vc_len. rewrite H. repeat split.
Qed.
Theorem mc_reject (c : matrix_constraint) (p : panic) : con_check (CM c) = Panic p -> mc_dims c = Panic p /\ (forall i j, mc_at c i j = Panic p) /\ con_scalars (CM c) = Panic p.
Proof. cbn [con_check]. intro H. unfold mc_at. cbn [con_scalars]. unfold mc_dims. rewrite H. repeat split. Qed.
(** a list with one of these: the first vector or matrix constraint that fails decides *)
Theorem compile_reject (l1 l2 : list constraint) (c : constraint) (p : panic) (parts : list (list scalar_constraint)) :
  mapM con_scalars l1 = Ok parts -> con_check c = Panic p -> (forall s, c <> CS s) -> compile_constraints (l1 ++ c :: l2) = Panic p.
Proof.
  intros H1 H HS. assert (HC : con_scalars c = Panic p).
  { destruct c as [c|c|c]; [exfalso; apply (HS c); reflexivity | apply (vc_reject c p H) | apply (mc_reject c p H)]. }
  unfold compile_constraints. assert (HA : mapM con_scalars (l1 ++ c :: l2) = Panic p); [|rewrite HA; reflexivity].
  revert parts H1. induction l1 as [|a l1 IH]; cbn [app mapM]; intros parts H1; [rewrite HC; reflexivity|].
  destruct (con_scalars a) as [x|q]; [cbn [bind] in *|discriminate H1]. destruct (mapM con_scalars l1) as [y|q]; [|discriminate H1]. rewrite (IH y eq_refl). reflexivity.
Qed.
End RejectCon.

(** a malformed term, two entries against three, an unknown sense *)
Section W.
Context {NN : Num}.
Definition rc_sc : scalar_constraint := mkSC (SM rj_mono) (SK n1) SenseLe.
Definition rc_vc : vector_constraint := mkVC (VV [wx; wy]) (VK [n1; n1; n1]) SenseLe.
Definition rc_mc : matrix_constraint := mkMC (MK [[n1; n0]]) (MK [[n0; n0]]) SenseOther.
End W.
Lemma wit_con_reject (NN := QNum) : con_check (CS rc_sc) = Panic PCheck /\ con_check (CV rc_vc) = Panic PDim /\ con_check (CM rc_mc) = Panic POther /\ con_check (CS (mkSC (SV wx) (SK n1) SenseLe)) = Ok tt
  /\ exists parts, mapM con_scalars [CS rc_sc; CS rc_sc] = Ok parts.
Proof. split; [vm_compute; reflexivity|]. split; [vm_compute; reflexivity|]. split; [vm_compute; reflexivity|]. split; [vm_compute; reflexivity|]. eexists. reflexivity. Qed.
(** AsSimplifiedConstraint of scalar and matrix constraints and IsLinear do not call Check *)
Definition is_ok {A} (r : res A) : bool := match r with Ok _ => true | Panic _ => false end.
Lemma is_ok_ex {A} (r : res A) : is_ok r = true -> exists a, r = Ok a.
Proof. destruct r as [a|p]; intro H; [exists a; reflexivity | discriminate H]. Qed.
Lemma con_reject_refuted : forall NN : Num, NN = F64Num \/ NN = QNum -> exists (c : scalar_constraint) (m : matrix_constraint) (m' : constraint) (b : bool),
  con_check (CS c) = Panic PCheck /\ con_simplified (CS c) = Ok (CS c) /\ con_scalars (CS c) = Ok [c] /\ con_check (CM m) = Panic POther /\ con_simplified (CM m) = Ok m' /\ con_is_linear (CM m) = Ok b.
Proof.
  assert (T : forall NN : Num, con_check (CS rc_sc) = Panic PCheck -> con_check (CM rc_mc) = Panic POther -> is_ok (con_simplified (CM rc_mc)) = true -> is_ok (con_is_linear (CM rc_mc)) = true ->
    exists (c : scalar_constraint) (m : matrix_constraint) (m' : constraint) (b : bool),
    con_check (CS c) = Panic PCheck /\ con_simplified (CS c) = Ok (CS c) /\ con_scalars (CS c) = Ok [c] /\ con_check (CM m) = Panic POther /\ con_simplified (CM m) = Ok m' /\ con_is_linear (CM m) = Ok b).
  { intros NN H1 H2 H3 H4. destruct (is_ok_ex _ H3) as [m' E3]. destruct (is_ok_ex _ H4) as [b E4]. exists rc_sc, rc_mc, m', b. split; [exact H1|]. split; [reflexivity|]. split; [reflexivity|]. split; [exact H2|]. split; [exact E3 | exact E4]. }
  intros NN [-> | ->]; apply T; vm_compute; reflexivity.
Qed.
