(** * The real numbers as an instance of [Num] *)

From Coq Require Import Reals RealField Lra ZArith Bool.
From Verif Require Import Num.
Local Open Scope R_scope.

Definition R_eqb (x y : R) : bool := if Req_EM_T x y then true else false.
Definition R_leb (x y : R) : bool := if Rle_dec x y then true else false.

Definition RNum : Num := {|
  num  := R;
  n0   := 0;
  n1   := 1;
  nadd := Rplus;
  nsub := Rminus;
  nmul := Rmult;
  ndiv := Rdiv;
  nopp := Ropp;
  nabs := Rabs;
  neqb := R_eqb;
  nltb := fun x y => negb (R_leb y x);
  nleb := R_leb;
  nofZ := IZR
|}.

Lemma R_leb_iff x y : R_leb x y = true <-> x <= y.
Proof. unfold R_leb. destruct (Rle_dec x y); split; congruence || tauto. Qed.

#[global] Instance RNum_exact : ExactNum RNum.
Proof.
  constructor.
  - constructor.
    + exact RTheory.
    + exact R1_neq_R0.
    + intros p q. cbn. unfold Rdiv. ring.
    + intros p Hp. cbn in *. field. exact Hp.
  - intros x y; cbn. unfold R_eqb. destruct (Req_EM_T x y); split; congruence.
  - reflexivity.
  - intros x y H1 H2. apply R_leb_iff in H1. apply R_leb_iff in H2. apply Rle_antisym; assumption.
  - intros x y z H1 H2. apply R_leb_iff in H1. apply R_leb_iff in H2. apply R_leb_iff. eapply Rle_trans; eassumption.
  - intros x y. destruct (Rle_or_lt x y) as [H|H]; [left | right]; apply R_leb_iff; [exact H | apply Rlt_le; exact H].
  - intros x y z H. apply R_leb_iff in H. apply R_leb_iff. cbn. lra.
  - intros x y H1 H2. apply R_leb_iff in H1. apply R_leb_iff in H2. apply R_leb_iff. cbn in *. apply Rmult_le_pos; assumption.
  - reflexivity.
  - intros a b. cbn. apply plus_IZR.
  - intro x. cbn. unfold R_leb. destruct (Rle_dec 0 x) as [H|H].
    + apply Rabs_pos_eq. exact H.
    + apply Rabs_left. lra.
Qed.
