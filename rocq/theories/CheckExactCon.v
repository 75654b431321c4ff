(** * Check accepts exactly the well-formed constraints *)

From Coq Require Import ZArith NArith Bool List Lia.
From Verif Require Import Num Syntax ModelScalar ModelShape ModelSC ModelConstr ModelMeasure Spec SpecArr SpecCon SpecReject SpecRejectCon CheckExact MeasureProofs Witness RejectWit.
Import ListNotations.

Section CheckExactCon.
Context {NN : Num}.

Lemma con_check_exact (c : constraint) : con_check c = Ok tt <-> well_formed_con c.
Proof.
  unfold well_formed_con. split.
  - intro H. destruct (check_sound c H) as (L & R & S & dl & dr & Dl & Dr & D). rewrite <- !check_exact.
    do 3 (split; [assumption|]). exists dl, dr. do 2 (split; [assumption|]). exact D.
  - rewrite <- !check_exact. intros (L & R & S & dl & dr & Dl & Dr & D).
    destruct c as [[l r s]|[l r s]|[l r s]]; cbn [con_left con_right con_sense sc_left sc_right sc_sense vc_left vc_right vc_sense mc_left mc_right mc_sense expr_check expr_dims] in *.
    + unfold con_check, sc_check. cbn [sc_left sc_right sc_sense]. rewrite L, R. destruct s; [reflexivity|reflexivity|reflexivity|congruence].
    + unfold con_check, vc_check. cbn [vc_left vc_right vc_sense]. rewrite L, R, Dl, Dr.
      assert (G : dims_eqb dl dr || dims_scalar dl || dims_scalar dr = true).
      { destruct D as [<- | [-> | ->]].
        - unfold dims_eqb. rewrite !Nat.eqb_refl. reflexivity.
        - cbn. rewrite orb_true_r. reflexivity.
        - cbn. rewrite orb_true_r. reflexivity. }
      destruct s; cbn; rewrite ?G; try reflexivity. congruence.
    + unfold con_check, mc_check. cbn [mc_left mc_right mc_sense]. rewrite L, R, Dl, Dr. destruct D as [<- | []].
      assert (G : dims_eqb dl dl = true) by (unfold dims_eqb; rewrite !Nat.eqb_refl; reflexivity).
      destruct s; cbn; rewrite ?G; try reflexivity. congruence.
Qed.

End CheckExactCon.

Lemma wit_well_formed_con (NN := QNum) : well_formed_con (CS (mkSC (SV wx) (SK n1) SenseLe)) /\ ~ well_formed_con (CS (mkSC (SV wx) (SK n1) SenseOther)) /\ ~ well_formed_con (CS (mkSC (SV wx) (SV rj_var) SenseLe)).
Proof. rewrite <- !con_check_exact. split; [vm_compute; reflexivity|]. split; vm_compute; discriminate. Qed.
