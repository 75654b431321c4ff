(** * Witnesses and refutations for tests on terms *)

From Coq Require Import ZArith NArith Bool List Lia Sorted.
From Coq Require Import QArith Qcanon.
From Verif Require Import Num Syntax ModelScalar Spec SpecArr SpecConv SpecForm Base ScalarValid Witness ScalarWit ArrWit SCWit.
Import ListNotations.
Local Open Scope num_scope.

Section W.
Context {NN : Num}.
(** 3x, xy, yx, x y^2, y x^2, x^2 y *)
Definition f_3x : Monomial := mkMono (nofZ 3) [1%Z] [wx].
Definition f_xy : Monomial := mkMono n1 [1; 1]%Z [wx; wy].
Definition f_yx : Monomial := mkMono (nofZ 2) [1; 1]%Z [wy; wx].
Definition f_xyy : Monomial := mkMono n1 [1; 2]%Z [wx; wy].
Definition f_yxx : Monomial := mkMono n1 [1; 2]%Z [wy; wx].
Definition f_xxy : Monomial := mkMono n1 [2; 1]%Z [wx; wy].
Definition f_poly : list Monomial := [f_xy; f_3x; mkMono (nofZ 5) [] []; f_yx; f_3x].
End W.
Lemma wit_forms (NN := QNum) : Forall valid_mono [f_3x; f_xy; f_yx; f_xyy; f_yxx; f_xxy] /\ valid_poly f_poly /\ degree_at_most 2 (SP f_poly) /\ valid_var wx /\ StronglySorted N.lt (ids f_xyy) /\ m_coeff f_3x <> n0.
Proof.
  assert (A : forall m, validb (SM m) = true -> valid_mono m) by (intros m H; exact (validb_spec (SM m) H)).
  split; [repeat (apply Forall_cons; [apply A; vm_compute; reflexivity|]); apply Forall_nil|].
  split; [apply (validb_spec (SP f_poly)); vm_compute; reflexivity|]. split; [unfold degree_at_most; cbn [terms f_poly]; repeat (apply Forall_cons; [vm_compute; discriminate|]); apply Forall_nil|].
  split; [apply varb_spec; vm_compute; reflexivity|]. split; [repeat constructor|]. intro E. apply (f_equal (fun q : Qc => Qnum (this q))) in E. vm_compute in E. discriminate E.
Qed.

(** x y^2 and y x^2 have the same form for MatchesFormOf, x^2 y and y x^2 do not *)
Lemma matches_refuted : forall NN, NN = F64Num \/ NN = QNum -> exists m1 m2 m3 : Monomial, valid_mono m1 /\ valid_mono m2 /\ valid_mono m3 /\
  mono_matches_form m1 m2 = Ok true /\ ~ same_powers m1 m2 /\ mono_matches_form m3 m2 = Ok false /\ same_powers m3 m2.
Proof.
  assert (T : forall NN : Num, validb (SM f_xyy) && validb (SM f_yxx) && validb (SM f_xxy) = true -> exists m1 m2 m3 : Monomial, valid_mono m1 /\ valid_mono m2 /\ valid_mono m3 /\
    mono_matches_form m1 m2 = Ok true /\ ~ same_powers m1 m2 /\ mono_matches_form m3 m2 = Ok false /\ same_powers m3 m2).
  { intros NN H. apply andb_prop in H as [H H3]. apply andb_prop in H as [H1 H2]. exists f_xyy, f_yxx, f_xxy. split; [exact (validb_spec _ H1)|]. split; [exact (validb_spec _ H2)|]. split; [exact (validb_spec _ H3)|].
    split; [reflexivity|]. split; [intro S; specialize (S (v_id wx)); vm_compute in S; discriminate S|]. split; [reflexivity|].
    intro i. unfold exponent, f_xxy, f_yxx. cbn [m_vars m_exps exponent_in]. destruct (N.eqb (v_id wx) i), (N.eqb (v_id wy) i); reflexivity. }
  intros NN [-> | ->]; apply T; vm_compute; reflexivity.
Qed.
(** ToVariable of 3x is x *)
Lemma to_variable_refuted : forall NN, NN = F64Num \/ NN = QNum -> exists (m : Monomial) (v : var) (r : assignment), valid_mono m /\ mono_to_variable m = Ok v /\ mono_is_variable m v = Ok false /\
  eval_mono r m =? r (v_id v) = false.
Proof.
  assert (T : forall NN : Num, validb (SM f_3x) && match mono_to_variable f_3x with Ok v => match mono_is_variable f_3x v with Ok b => negb b | _ => false end && negb (eval_mono (at3 1 0 0) f_3x =? at3 1 0 0 (v_id v)) | _ => false end = true ->
    exists (m : Monomial) (v : var) (r : assignment), valid_mono m /\ mono_to_variable m = Ok v /\ mono_is_variable m v = Ok false /\ eval_mono r m =? r (v_id v) = false).
  { intros NN H. apply andb_prop in H as [H1 H]. destruct (mono_to_variable f_3x) as [v|] eqn:E; [|discriminate H]. apply andb_prop in H as [H2 H3].
    exists f_3x, v, (at3 1 0 0). split; [exact (validb_spec _ H1)|]. split; [exact E|]. split; [destruct (mono_is_variable f_3x v) as [[]|]; (discriminate H2 || reflexivity)|]. apply negb_true_iff. exact H3. }
  intros NN [-> | ->]; apply T; vm_compute; reflexivity.
Qed.
Lemma wit_linear_when (NN := QNum) : valid (SM f_3x) /\ has_linear_variable (SM f_3x) [wy; wx] /\ ~ has_linear_variable (SM f_3x) [wy] /\ has_linear_variable (SM f_xyy) [wz]
  /\ valid_array (2, 1)%nat (EV (VM [f_3x; f_xyy])) /\ Forall valid_var [wy; wx].
Proof.
  split; [apply validb_spec; vm_compute; reflexivity|]. split; [intros _; exists wx, []; split; [reflexivity | right; left; reflexivity]|].
  split; [intro H; destruct H as (v & l & E & [G|[]]); [vm_compute; discriminate|]; injection E as <- <-; vm_compute in G; discriminate G|].
  split; [intro H; exfalso; apply H; vm_compute; reflexivity|]. split; [apply arrayb_spec; vm_compute; reflexivity|].
  repeat (apply Forall_cons; [apply varb_spec; vm_compute; reflexivity|]). apply Forall_nil.
Qed.
