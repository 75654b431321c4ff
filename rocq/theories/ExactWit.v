(** * Witnesses for the theorems on exact float64 arithmetic *)

From Coq Require Import ZArith NArith Bool List Lia.
From Coq Require Import QArith Qcanon.
From Coq.Floats Require Import SpecFloat.
From Verif Require Import Num Syntax ModelScalar ModelSC Spec SpecProg SpecExact Base ScalarValid Programs Degrees FloatProg FloatLin Witness.
Import ListNotations.
Local Open Scope Z_scope.

Section W.
Local Existing Instance F64Num.

(** 0.5, 0.25, 0.1, 0.2 *)
Definition w_half : spec_float := S754_finite false 4503599627370496 (-53).
Definition w_quarter : spec_float := S754_finite false 4503599627370496 (-54).
Definition w_tenth : spec_float := S754_finite false 7205759403792794 (-56).
Definition w_fifth : spec_float := S754_finite false 7205759403792794 (-55).

(** (0.5 x) (x + 3 y) *)
Definition w_e1 : prog := PMul (PMul (PConst w_half) (PVar wx)) (PPlus (PVar wx) (PMul (PConst (nofZ 3)) (PVar wy))).
(** d(y^3)/dy with y := x + 0.25 *)
Definition w_e2 : prog := PSubst (PDeriv (PPow (PVar wy) 3) wy) wy (PPlus (PVar wx) (PConst w_quarter)).
Definition w_e : prog := PMinus w_e1 w_e2.
(** (x + 0.5)^5 *)
Definition w_e5 : prog := PPow (PPlus (PVar wx) (PConst w_half)) 5.
(** 0.5 x + 3 y - 0.25 *)
Definition w_el : prog := PMinus (PPlus (PMul (PConst w_half) (PVar wx)) (PMul (PConst (nofZ 3)) (PVar wy))) (PConst w_quarter).
(** 7 - y *)
Definition w_er : prog := PMinus (PConst (nofZ 7)) (PVar wy).
(** 0.1 x and 0.2 x *)
Definition w_tenths1 : prog := PMul (PConst w_tenth) (PVar wx).
Definition w_tenths2 : prog := PMul (PConst w_fifth) (PVar wx).

Ltac wle := first [apply Z.leb_le; vm_compute; reflexivity | lia].
Ltac wnum := split; [vm_compute; reflexivity | vm_compute; discriminate].
Ltac wfits :=
  repeat match goal with
  | |- fits _ => cbn [fits w_e w_e1 w_e2 w_e5 w_el w_er w_tenths1 w_tenths2]
  | |- _ /\ _ => split
  | |- numeric _ => wnum
  | |- numeric_var _ => split; wnum
  | |- (_ <= _)%Z => wle
  | |- forall s, _ <> _ => intros ?; vm_compute; discriminate
  end.
Ltac wwf := cbn [well_formed w_e w_e1 w_e2 w_e5 w_el w_er w_tenths1 w_tenths2];
  repeat match goal with
  | |- valid_var _ => apply (proj1 (var_check_valid _)); vm_compute; reflexivity
  | |- _ /\ _ => split
  | |- True => exact I
  | |- (_ <= _)%Z => lia
  end.

Lemma wit_e1 : well_formed w_e1 /\ fits w_e1. Proof. split; [wwf | wfits]. Qed.
Lemma wit_e2 : well_formed w_e2 /\ fits w_e2. Proof. split; [wwf | wfits]. Qed.
Lemma wit_e : well_formed w_e /\ fits w_e. Proof. split; [wwf | wfits]. Qed.
Lemma wit_e1_degree2 : well_formed w_e1 /\ fits w_e1 /\ arithmetic w_e1 /\ degree_bounded 2 w_e1.
Proof. split; [apply wit_e1|]. split; [apply wit_e1|]. split; [cbn; tauto|]. cbn [degree_bounded w_e1]. repeat split; vm_compute; discriminate. Qed.
Lemma wit_e5 : well_formed w_e5 /\ fits w_e5 /\ arithmetic w_e5 /\ mentions_only 0 w_e5.
Proof. split; [wwf|]. split; [wfits|]. split; [cbn; tauto|]. cbn. repeat split. Qed.

(** operands of single calls: 0.5 x^2 + 1.5 x y and 0.5 x + 3 y - 0.25 *)
Lemma wit_el : well_formed w_el /\ fits w_el. Proof. split; [wwf | wfits]. Qed.
Lemma wit_operands : exists a b, run w_e1 = Ok a /\ run w_el = Ok b /\ valid a /\ short 1 4 a /\ degree_at_most 2 a /\ valid b /\ short 2 15 b.
Proof.
  destruct wit_e1 as [W1 F1]. destruct wit_el as [W2 F2]. destruct (run_exact w_e1 W1 F1) as (a & Ea & Va & Sa & _). destruct (run_exact w_el W2 F2) as (b & Eb & Vb & Sb & _).
  destruct (run_degree w_e1 W1) as (a' & Ea' & _ & Da). rewrite Ea in Ea'. injection Ea' as <-.
  exists a, b. split; [exact Ea|]. split; [exact Eb|]. split; [exact Va|]. split; [exact Sa|]. split; [exact Da|]. split; [exact Vb|]. exact Sb.
Qed.
Lemma wit_var : numeric_var wx.
Proof. split; wnum. Qed.

Definition occurs_in (w : list var) (s : scalar) : bool := forallb (fun m => forallb (fun i => existsb (N.eqb i) (map v_id w)) (ids m)) (terms s).
Lemma occurs_in_ok w s : occurs_in w s = true -> forall i, occurs i s -> In i (map v_id w).
Proof.
  intros H i (m & Hm & Hi). unfold occurs_in in H. rewrite forallb_forall in H. specialize (H m Hm). rewrite forallb_forall in H. specialize (H i Hi).
  apply existsb_exists in H. destruct H as (j & Hj & E). apply N.eqb_eq in E. subst. exact Hj.
Qed.
Lemma wit_linear_sides : well_formed w_el /\ well_formed w_er /\ arithmetic w_el /\ arithmetic w_er /\ degree_bounded 1 w_el /\ degree_bounded 1 w_er /\ fits (PMinus w_el w_er)
  /\ Forall valid_var [wy; wx] /\ Forall numeric_var [wy; wx] /\ NoDup (map v_id [wy; wx])
  /\ exists a b, run w_el = Ok a /\ run w_er = Ok b /\ forall i, occurs i a \/ occurs i b -> In i (map v_id [wy; wx]).
Proof.
  split; [wwf|]. split; [wwf|]. split; [cbn; tauto|]. split; [cbn; tauto|]. split; [cbn [degree_bounded w_el]; repeat split; vm_compute; discriminate|].
  split; [cbn [degree_bounded w_er]; repeat split; vm_compute; discriminate|]. split; [wfits|].
  split; [constructor; [|constructor; [|constructor]]; wwf|]. split; [constructor; [|constructor; [|constructor]]; split; wnum|].
  split; [repeat constructor; cbn; intuition discriminate|].
  assert (T : match run w_el, run w_er with Ok a, Ok b => occurs_in [wy; wx] a && occurs_in [wy; wx] b | _, _ => false end = true) by (vm_compute; reflexivity).
  destruct (run w_el) as [a|]; [|discriminate]. destruct (run w_er) as [b|]; [|discriminate]. apply andb_true_iff in T. destruct T as [T1 T2].
  exists a, b. split; [reflexivity|]. split; [reflexivity|]. intros i [H|H]; [apply (occurs_in_ok _ a T1 i H) | apply (occurs_in_ok _ b T2 i H)].
Qed.

(** 2^53 + 1 *)
Definition w_large : prog := PPlus (PConst (nofZ (2 ^ 53))) (PConst (nofZ 1)).
Lemma large_refuted : exists a b : prog, well_formed (PPlus a b) /\ fits a /\ fits b /\ fraction_bits (PPlus a b) = 0 /\ weight (PPlus a b) = 2 ^ 53 + 1
  /\ exists s t, run (PPlus a b) = Ok s /\ @run QNum (exact_prog (PPlus a b)) = Ok t /\ t <> exact_scalar s.
Proof.
  exists (PConst (nofZ (2 ^ 53))), (PConst (nofZ 1)). split; [cbn; tauto|]. split; [wfits|]. split; [wfits|]. split; [vm_compute; reflexivity|]. split; [vm_compute; reflexivity|].
  set (p := PPlus _ _).
  assert (T : match run p, @run QNum (exact_prog p) with Ok (SK s), Ok (SK t) => negb (Qc_eq_bool t (exactly s)) | _, _ => false end = true) by (vm_compute; reflexivity).
  destruct (run p) as [[s| | |]|]; try discriminate. destruct (@run QNum (exact_prog p)) as [[t| | |]|]; try discriminate.
  exists (SK s), (@SK QNum t). split; [reflexivity|]. split; [reflexivity|]. intro E. cbn in E. injection E as ->. unfold Qc_eq_bool in T. destruct (Qc_eq_dec _ _); [discriminate T | contradiction].
Qed.
(** 0.1 x + 0.2 x *)
Lemma tenths_refuted : exists (a b : prog) (x : N), well_formed (PPlus a b) /\ arithmetic (PPlus a b) /\ fits a /\ fits b /\ text_degree (PPlus a b) = 1 /\ mentions_only x (PPlus a b)
  /\ exists s, run (PPlus a b) = Ok s /\ exists r : @assignment QNum, @eval QNum r (exact_scalar s) <> @denote QNum r (exact_prog (PPlus a b)).
Proof.
  exists w_tenths1, w_tenths2, 0%N. split; [wwf|]. split; [cbn; tauto|]. split; [wfits|]. split; [wfits|].
  split; [reflexivity|]. split; [cbn; tauto|].
  set (p := PPlus _ _). set (r := (fun _ => 1%Qc) : @assignment QNum).
  assert (T : match run p with Ok s => negb (Qc_eq_bool (@eval QNum r (exact_scalar s)) (@denote QNum r (exact_prog p))) | _ => false end = true) by (vm_compute; reflexivity).
  destruct (run p) as [s|]; [|discriminate]. exists s. split; [reflexivity|]. exists r. intro E. rewrite E in T. unfold Qc_eq_bool in T. destruct (Qc_eq_dec _ _); [discriminate T | contradiction].
Qed.
End W.
