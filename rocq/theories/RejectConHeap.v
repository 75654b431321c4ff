(** * Calls rejected by the Check of a constraint leave memory as it was *)

From Coq Require Import ZArith NArith Bool List Lia.
From Verif Require Import Num Syntax ModelScalar ModelShape ModelSC ModelArith ModelConstr ModelHeap ModelHeapArr ModelHeapCon SpecArr Witness RejectWit RejectArith RejectHeap.
Import ListNotations.

Section RejectConHeap.
Context {NN : Num} {RT : Runtime}.

Lemma acs_check (c : hsc) (h : heap) (p : panic) : con_check (rd_acon h (ACS c)) = Panic p -> h_sc_check c h = (Panic p, h).
Proof. cbn [rd_acon con_check]. intro H. unfold h_sc_check, reads. rewrite H. reflexivity. Qed.
Lemma acv_check (c : hvc) (h : heap) (p : panic) : con_check (rd_acon h (ACV c)) = Panic p -> h_vc_check c h = (Panic p, h).
Proof. cbn [rd_acon con_check]. intro H. unfold h_vc_check, reads. rewrite H. reflexivity. Qed.
Lemma acm_check (c : hmc) (h : heap) (p : panic) : con_check (rd_acon h (ACM c)) = Panic p -> h_mc_check c h = (Panic p, h).
Proof. cbn [rd_acon con_check]. intro H. unfold h_mc_check, reads. rewrite H. reflexivity. Qed.
Lemma acon_check_bad (c : acon) (h : heap) (p : panic) : con_check (rd_acon h c) = Panic p -> acon_check c h = (Panic p, h).
Proof. intro H. unfold acon_check, reads. rewrite H. reflexivity. Qed.
Lemma acon_check_good (c : acon) (h : heap) : con_check (rd_acon h c) = Ok tt -> acon_check c h = (Ok tt, h).
Proof. intro H. unfold acon_check, reads. rewrite H. reflexivity. Qed.

Theorem hcon_reject (c : acon) (h : heap) (p : panic) : con_check (rd_acon h c) = Panic p ->
  (forall x e, acon_substitute c x e h = (Panic p, h)) /\ (forall sm sm', acon_substitute_map c sm sm' h = (Panic p, h))
  /\ (forall o d, acon_implies o c d h = (Panic p, h)) /\ (forall o d, con_check (rd_acon h d) = Ok tt -> acon_implies o d c h = (Panic p, h)).
Proof.
  intro H. split; [|split; [|split]].
  - intros x e. destruct c as [c|c|c]; cbn [acon_substitute]; unfold bindM.
    + unfold h_sc_substitute, bindM. rewrite (acs_check _ _ _ H). reflexivity.
    + unfold h_vc_substitute, bindM. rewrite (acv_check _ _ _ H). reflexivity.
    + unfold h_mc_substitute, bindM. rewrite (acm_check _ _ _ H). reflexivity.
  - intros sm sm'. destruct c as [c|c|c]; cbn [acon_substitute_map]; unfold bindM.
    + unfold h_sc_substitute_map, bindM. rewrite (acs_check _ _ _ H). reflexivity.
    + unfold h_vc_substitute_map, bindM. rewrite (acv_check _ _ _ H). reflexivity.
    + unfold h_mc_substitute_map, bindM. rewrite (acm_check _ _ _ H). reflexivity.
  - intros o d. unfold acon_implies, bindM. rewrite (acon_check_bad _ _ _ H). reflexivity.
  - intros o d G. unfold acon_implies, bindM. rewrite (acon_check_good _ _ G), (acon_check_bad _ _ _ H). reflexivity.
Qed.

Theorem hcon_reject_each (h : heap) (p : panic) :
  (forall c, con_check (rd_acon h (ACS c)) = Panic p ->
     (forall w, h_sc_linear_inequality c w h = (Panic p, h)) /\ (forall w, h_sc_linear_equality c w h = (Panic p, h)) /\ (forall f, h_sc_scale_by c f h = (Panic p, h)))
  /\ (forall c, con_check (rd_acon h (ACV c)) = Panic p ->
     (forall i, h_vc_at_vec c i h = (Panic p, h)) /\ (forall w, h_vc_linear_inequality c w h = (Panic p, h)) /\ (forall w, h_vc_linear_equality c w h = (Panic p, h))
     /\ h_vc_simplified c h = (Panic p, h) /\ acon_scalars (ACV c) h = (Panic p, h))
  /\ (forall c, con_check (rd_acon h (ACM c)) = Panic p -> (forall i j, h_mc_at c i j h = (Panic p, h)) /\ acon_scalars (ACM c) h = (Panic p, h)).
Proof.
  split; [|split]; intros c H.
  - apply acs_check in H. unfold h_sc_linear_inequality, h_sc_linear_equality, h_sc_scale_by, bindM. rewrite H. do 2 (split; [reflexivity|]). reflexivity.
  - apply acv_check in H. unfold acon_scalars, h_vc_len, h_vc_at_vec, h_vc_linear_inequality, h_vc_linear_equality, h_vc_simplified, bindM. rewrite H. do 4 (split; [reflexivity|]). reflexivity.
  - apply acm_check in H. unfold acon_scalars, h_mc_dims, h_mc_at, bindM. rewrite H. split; reflexivity.
Qed.

(** Comparison writes nothing *)
Lemma bind_still {A B} (x : M A) (k : A -> M B) h : snd (x h) = h -> (forall a, snd (k a h) = h) -> snd (bindM x k h) = h.
Proof. intros H G. unfold bindM. destruct (x h) as [[a|p] h']; cbn [snd] in H; subst h'; [apply G | reflexivity]. Qed.
Lemma reads_still {A} (f : heap -> res A) h : snd (reads f h) = h.
Proof. reflexivity. Qed.
Ltac still := repeat first [reflexivity | apply bind_still; [|intro] | match goal with |- snd (match ?x with _ => _ end _) = _ => destruct x end].
Theorem comparison_still (a : aexpr) (g : aval) (s : sense) (h : heap) : snd (aexpr_comparison a g s h) = h.
Proof.
  destruct a as [[k|v|m|p]|v|m]; cbn [aexpr_comparison h_comparison].
  - unfold ak_comparison. still.
  - still.
  - still.
  - still.
  - unfold avec_comparison, avec_comparison_right. still.
  - unfold amat_comparison, amat_comparison_right. still.
Qed.
Theorem hreject_comparison (a b : aexpr) (g : aval) (s : sense) (h : heap) :
  (expr_check (rd_aexpr h a) = false -> aexpr_comparison a g s h = (Panic PCheck, h)) /\ (expr_check (rd_aexpr h b) = false -> aexpr_comparison a (AExpr b) s h = (Panic PCheck, h)).
Proof.
  split; intro H.
  - destruct a as [[k|v|m|p]|v|m]; cbn [rd_aexpr rd expr_check scalar_check] in H; [discriminate H| | | | |]; cbn [aexpr_comparison h_comparison];
      unfold avec_comparison, amat_comparison, check_scalar, check_avec, check_amat, bindM, reads; cbn [rd scalar_check]; rewrite H; reflexivity.
  - destruct a as [[k|v|m|p]|v|m]; cbn [aexpr_comparison h_comparison];
      unfold ak_comparison, avec_comparison, amat_comparison, check_aval, a_comparison_check, comparison_check, check_scalar, check_avec, check_amat, bindM, reads; cbn [rd_aval as_expr]; rewrite H;
      cbn [check bind]; try reflexivity; match goal with |- context [check ?x PCheck] => destruct x end; reflexivity.
Qed.

End RejectConHeap.

(** a constraint on a malformed Monomial in memory, and a vector constraint with two entries against three *)
Lemma wit_con_heap (NN := QNum) : con_check (rd_acon rj_h (ACS (mkHSC (HM (mkHM n1 (mkSlice 0 0 1 1) (mkSlice 0 0 2 2))) (HK n1) SenseLe))) = Panic PCheck
  /\ con_check (rd_acon rj_h (ACV (mkHVC (AVV [wx; wy]) (AVK [n0; n0; n1]) SenseEq))) = Panic PDim /\ con_check (rd_acon rj_h (ACM (mkHMC (AMV [[wx; wy]]) (AMK [[n0]; [n1]]) SenseGe))) = Panic POther.
Proof. vm_compute. repeat split. Qed.
