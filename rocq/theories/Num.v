(** * Numbers

    The Go code computes with [float64].  The model is parametrised by the record
    [Num] of exactly the operations the code uses:

    - [n0], [n1]      the literals 0.0 and 1.0
    - [nadd] ... [ndiv] the operators + - * /,  [nopp] unary minus, [nabs] math.Abs
    - [neqb], [nltb], [nleb] the operators ==, <, <=
    - [nofZ]          the conversion float64(int) and the other numeric literals (-1.0, 2.0, 1e100)

    Three instances exist: binary64 ([F64Num] below), canonical rationals ([QNum] below) and the reals
    ([RNum] in NumR.v). *)

From Coq Require Import ZArith NArith Bool Lia Field_theory Ring_theory.
From Coq Require Import QArith Qcanon.
From Coq.Floats Require Import SpecFloat.

Class Num := mkNum {
  num  : Type;
  n0   : num;
  n1   : num;
  nadd : num -> num -> num;
  nsub : num -> num -> num;
  nmul : num -> num -> num;
  ndiv : num -> num -> num;
  nopp : num -> num;
  nabs : num -> num;
  neqb : num -> num -> bool;
  nltb : num -> num -> bool;
  nleb : num -> num -> bool;
  nofZ : Z -> num
}.

Declare Scope num_scope.
Delimit Scope num_scope with num.
Infix "+" := nadd : num_scope.
Infix "-" := nsub : num_scope.
Infix "*" := nmul : num_scope.
Infix "/" := ndiv : num_scope.
Notation "- x" := (nopp x) : num_scope.
Notation "x =? y" := (neqb x y) : num_scope.
Notation "x <? y" := (nltb x y) : num_scope.
Notation "x <=? y" := (nleb x y) : num_scope.

(** The literal -1.0 *)
Definition nm1 `{Num} : num := nofZ (-1).
(** The literal 2.0 *)
Definition n2 `{Num} : num := nofZ 2.
(** constant.go:17 [Infinity = K(1e100)] *)
Definition ninfty `{Num} : num := nofZ (10 ^ 100)%Z.

(** The laws of exact arithmetic: an ordered field with decidable equality and order.
    [Qc] and [R] satisfy them, binary64 does not. *)
Class ExactNum (NN : Num) : Prop := mkExact {
  ex_field   : field_theory n0 n1 nadd nmul nsub nopp ndiv (fun x => ndiv n1 x) (@eq num);
  ex_eqb     : forall x y : num, neqb x y = true <-> x = y;
  ex_ltb     : forall x y : num, nltb x y = negb (nleb y x);
  ex_antisym : forall x y : num, nleb x y = true -> nleb y x = true -> x = y;
  ex_trans   : forall x y z : num, nleb x y = true -> nleb y z = true -> nleb x z = true;
  ex_total   : forall x y : num, nleb x y = true \/ nleb y x = true;
  ex_add_le  : forall x y z : num, nleb x y = true -> nleb (nadd x z) (nadd y z) = true;
  ex_mul_le  : forall x y : num, nleb n0 x = true -> nleb n0 y = true -> nleb n0 (nmul x y) = true;
  ex_ofZ1    : nofZ 1 = n1;
  ex_ofZadd  : forall a b : Z, nofZ (a + b) = nadd (nofZ a) (nofZ b);
  ex_abs     : forall x : num, nabs x = if nleb n0 x then x else nopp x
}.

(** ** IEEE-754 binary64, the float64 of Go: precision 53, emax 1024, round to nearest even
    (Coq.Floats.SpecFloat, executable and without axioms). *)
Definition F64Num : Num := {|
  num  := spec_float;
  n0   := S754_zero false;
  n1   := binary_normalize 53 1024 1 0 false;
  nadd := SFadd 53 1024;
  nsub := SFsub 53 1024;
  nmul := SFmul 53 1024;
  ndiv := SFdiv 53 1024;
  nopp := SFopp;
  nabs := SFabs;
  neqb := SFeqb;
  nltb := SFltb;
  nleb := SFleb;
  nofZ := fun z => binary_normalize 53 1024 z 0 false
|}.

(** ** Canonical rationals *)
Definition Qc_leb (x y : Qc) : bool := Qle_bool (this x) (this y).
Definition QNum : Num := {|
  num  := Qc;
  n0   := 0%Qc;
  n1   := 1%Qc;
  nadd := Qcplus;
  nsub := Qcminus;
  nmul := Qcmult;
  ndiv := Qcdiv;
  nopp := Qcopp;
  nabs := fun x => if Qc_leb 0%Qc x then x else Qcopp x;
  neqb := Qc_eq_bool;
  nltb := fun x y => negb (Qc_leb y x);
  nleb := Qc_leb;
  nofZ := fun z => Q2Qc (inject_Z z)
|}.

Lemma Qc_leb_iff (x y : Qc) : Qc_leb x y = true <-> Qcle x y.
Proof. unfold Qc_leb, Qcle. apply Qle_bool_iff. Qed.

#[global] Instance QNum_exact : ExactNum QNum.
Proof.
  constructor.
  - (* field *)
    constructor.
    + exact Qcrt.
    + intro H. discriminate H.
    + intros p q. cbn. unfold Qcdiv. rewrite Qcmult_1_l. reflexivity.
    + intros p Hp. cbn in *. unfold Qcdiv. rewrite Qcmult_1_l. apply Qcmult_inv_l. exact Hp.
  - intros x y; cbn. split.
    + apply Qc_eq_bool_correct.
    + intros ->. unfold Qc_eq_bool. destruct (Qc_eq_dec y y); congruence.
  - reflexivity.
  - intros x y H1 H2. apply Qcle_antisym; apply Qc_leb_iff; assumption.
  - intros x y z H1 H2. apply Qc_leb_iff. cbn in *.
    apply Qc_leb_iff in H1. apply Qc_leb_iff in H2. eapply Qcle_trans; eassumption.
  - intros x y. destruct (Qclt_le_dec x y) as [H|H].
    + left. apply Qc_leb_iff. apply Qclt_le_weak. exact H.
    + right. apply Qc_leb_iff. exact H.
  - intros x y z H. apply Qc_leb_iff. apply Qc_leb_iff in H.
    apply Qcplus_le_compat; [exact H | apply Qcle_refl].
  - intros x y H1 H2. apply Qc_leb_iff. apply Qc_leb_iff in H1. apply Qc_leb_iff in H2.
    cbn in *. replace 0%Qc with (0 * y)%Qc by apply Qcmult_0_l.
    apply Qcmult_le_compat_r; assumption.
  - reflexivity.
  - intros a b. cbn [nofZ nadd QNum num]. apply Qc_is_canon. unfold Qcplus. cbn [this Q2Qc].
    rewrite !Qred_correct. rewrite inject_Z_plus. reflexivity.
  - reflexivity.
Qed.
