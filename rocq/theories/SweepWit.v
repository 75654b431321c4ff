(** * Witnesses for DerivativeWrt of vectors and matrices, whatever the exponents *)

From Coq Require Import ZArith NArith Bool List Lia.
From Verif Require Import Num NumR Syntax ModelScalar ModelShape Spec SpecArr Base ScalarValid ModelHeap SpecHeap HeapMem SpecCopy HeapEffect Witness ScalarWit ArrWit HeapWit CopyWit SpecSweep.
Import ListNotations.
Local Open Scope num_scope.

Section Wit.
Context {NN : Num}.
(** 2 x^3 y, x^2, x, y; two polynomials and a third one that is y alone *)
Definition u_h : heap :=
  mkHeap [[3; 1]; [2]; [1]; [1]]%Z [[wx; wy]; [wx]; [wx]; [wy]]
    [[mkHM n2 (mkSlice 0 0 2 2) (mkSlice 0 0 2 2); mkHM n1 (mkSlice 1 0 1 1) (mkSlice 1 0 1 1); mkHM n1 (mkSlice 2 0 1 1) (mkSlice 2 0 1 1); mkHM n1 (mkSlice 3 0 1 1) (mkSlice 3 0 1 1)]]
    [[mkSlice 0 0 2 2; mkSlice 0 2 2 2]; [mkSlice 0 0 2 2; mkSlice 0 3 1 1]].
Definition u_mv : slice := mkSlice 0 0 4 4.
Definition u_mm : list slice := [mkSlice 0 0 2 2; mkSlice 0 2 2 2].
Definition u_pv : slice := mkSlice 0 0 2 2.
Definition u_bad : slice := mkSlice 1 0 2 2.
Definition u_pm : list slice := [mkSlice 0 0 2 2].

Context (Hv : forall i, valid_var (wvar i)) (H01 : n1 =? n0 = false) (H02 : n2 =? n0 = false).
Lemma u_monos : valid_mono (mkMono n2 [3; 1]%Z [wx; wy]) /\ valid_mono (mkMono n1 [2]%Z [wx]) /\ valid_mono (mkMono n1 [1]%Z [wx]) /\ valid_mono (mkMono n1 [1]%Z [wy]).
Proof.
  split; [apply (w_mono_valid Hv n2 [3; 1]%Z [0; 1]%N); [reflexivity | repeat constructor; lia | repeat constructor; cbn; intuition discriminate]|].
  split; [apply (w_mono_valid Hv n1 [2]%Z [0]%N); [reflexivity | repeat constructor; lia | repeat constructor; cbn; intuition discriminate]|].
  split; [apply (w_mono_valid Hv n1 [1]%Z [0]%N); [reflexivity | repeat constructor; lia | repeat constructor; cbn; intuition discriminate]|].
  apply (w_mono_valid Hv n1 [1]%Z [1]%N); [reflexivity | repeat constructor; lia | repeat constructor; cbn; intuition discriminate].
Qed.
Lemma u_in ms : ownb ms = true -> own_exponents_in u_h wx ms.
Proof. intros H i j m m' N Hi Hj _. exact (ownb_spec _ H i j m m' N Hi Hj). Qed.
Lemma u_legal ps : full u_h (map HP ps) = true -> Forall (fun p => legal u_h (HP p)) ps.
Proof. intro H. destruct (full_spec _ _ H) as [L _]. rewrite Forall_forall. intros p Hp. apply L. apply in_map. exact Hp. Qed.

Lemma wit_u_mv : legal u_h (HP u_mv) /\ own_exponents u_h wx (HP u_mv) /\ rd_poly u_h u_mv = [mkMono n2 [3; 1]%Z [wx; wy]; mkMono n1 [2]%Z [wx]; mkMono n1 [1]%Z [wx]; mkMono n1 [1]%Z [wy]] /\
  Forall valid_mono (rd_poly u_h u_mv) /\ valid_var wx.
Proof.
  destruct u_monos as (V1 & V2 & V3 & V4). split; [apply (Forall_inv (u_legal [u_mv] eq_refl))|]. split; [exact (u_in (view (hm u_h) u_mv) eq_refl)|]. split; [reflexivity|]. split; [falls; assumption | apply Hv].
Qed.
Lemma wit_u_mm : Forall (fun r => legal u_h (HP r)) u_mm /\ own_exponents_in u_h wx (monomials_in u_h u_mm) /\ mat_check (MM (map (rd_poly u_h) u_mm)) = true /\ Forall (Forall valid_mono) (map (rd_poly u_h) u_mm) /\ valid_var wx.
Proof.
  destruct u_monos as (V1 & V2 & V3 & V4). split; [apply u_legal; reflexivity|]. split; [apply u_in; reflexivity|]. split.
  - assert (C : forall m, valid_mono m -> mono_check m = true) by apply valid_mono_check. cbn. rewrite ?(C _ V1), ?(C _ V2), ?(C _ V3), ?(C _ V4); reflexivity.
  - split; [falls; assumption | apply Hv].
Qed.
Lemma u_polys : (valid_poly (rd_poly u_h (mkSlice 0 0 2 2)) /\ mentions wx (rd_poly u_h (mkSlice 0 0 2 2))) /\ (valid_poly (rd_poly u_h (mkSlice 0 2 2 2)) /\ mentions wx (rd_poly u_h (mkSlice 0 2 2 2))) /\ valid_poly (rd_poly u_h (mkSlice 0 3 1 1)).
Proof.
  destruct u_monos as (V1 & V2 & V3 & V4). split; [|split].
  - split; [split; [discriminate | falls; assumption]|]. exists (mkMono n1 [2]%Z [wx]), wx. split; [right; left; reflexivity|]. split; [exact H01|]. split; [left; reflexivity | reflexivity].
  - split; [split; [discriminate | falls; assumption]|]. exists (mkMono n1 [1]%Z [wx]), wx. split; [left; reflexivity|]. split; [exact H01|]. split; [left; reflexivity | reflexivity].
  - split; [discriminate | falls; assumption].
Qed.
Lemma wit_u_pv : in_memory (hp u_h) u_pv /\ Forall (fun p => legal u_h (HP p)) (view (hp u_h) u_pv) /\ own_exponents_in u_h wx (monomials_in u_h (view (hp u_h) u_pv)) /\
  Forall (fun p => valid_poly p /\ mentions wx p) (map (rd_poly u_h) (view (hp u_h) u_pv)) /\ valid_var wx.
Proof.
  destruct u_polys as (P1 & P2 & _). split; [apply in_memb_spec; reflexivity|]. split; [apply (u_legal (view (hp u_h) u_pv)); reflexivity|]. split; [apply u_in; reflexivity|]. split; [|apply Hv].
  constructor; [exact P1|]. constructor; [exact P2 | constructor].
Qed.
Lemma wit_u_pm : Forall (in_memory (hp u_h)) u_pm /\ Forall (fun p => legal u_h (HP p)) (flat_map (view (hp u_h)) u_pm) /\ own_exponents_in u_h wx (monomials_in u_h (flat_map (view (hp u_h)) u_pm)) /\
  mat_check (MP (map (fun r => map (rd_poly u_h) (view (hp u_h) r)) u_pm)) = true /\ valid_var wx /\ Forall (Forall (fun p => valid_poly p /\ mentions wx p)) (map (fun r => map (rd_poly u_h) (view (hp u_h) r)) u_pm).
Proof.
  destruct u_polys as (P1 & P2 & _). destruct u_monos as (V1 & V2 & V3 & V4). split; [constructor; [apply in_memb_spec; reflexivity | constructor]|]. split; [apply u_legal; reflexivity|]. split; [apply u_in; reflexivity|]. split.
  - assert (C : forall m, valid_mono m -> mono_check m = true) by apply valid_mono_check. cbn. rewrite ?(C _ V1), ?(C _ V2), ?(C _ V3), ?(C _ V4); reflexivity.
  - split; [apply Hv|]. constructor; [|constructor]. constructor; [exact P1|]. constructor; [exact P2 | constructor].
Qed.
End Wit.

Definition wit_u_mv_R := @wit_u_mv RNum wvar_valid_R.
Definition wit_u_mm_R := @wit_u_mm RNum wvar_valid_R.
Definition wit_u_pv_R := @wit_u_pv RNum wvar_valid_R r01.
Definition wit_u_pm_R := @wit_u_pm RNum wvar_valid_R r01.

Section Q.
Local Existing Instance QNum.
Lemma wit_u_bad : in_memory (hp u_h) u_bad /\ view (hp u_h) u_bad = [mkSlice 0 0 2 2; mkSlice 0 3 1 1] /\ Forall (fun p => legal u_h (HP p)) (view (hp u_h) u_bad) /\ own_exponents_in u_h wx (monomials_in u_h (view (hp u_h) u_bad)) /\
  (exists q, scalar_derivative (SP (rd_poly u_h (mkSlice 0 0 2 2))) wx = Ok (SP q)) /\ scalar_derivative (SP (rd_poly u_h (mkSlice 0 3 1 1))) wx = Ok (SK n0).
Proof.
  split; [apply in_memb_spec; reflexivity|]. split; [reflexivity|]. split; [apply (u_legal (view (hp u_h) u_bad)); reflexivity|]. split; [apply u_in; reflexivity|]. split; [|reflexivity].
  assert (E : match scalar_derivative (SP (rd_poly u_h (mkSlice 0 0 2 2))) wx with Ok (SP q) => true | _ => false end = true) by (vm_compute; reflexivity).
  destruct (scalar_derivative (SP (rd_poly u_h (mkSlice 0 0 2 2))) wx) as [[| | |q]|]; try discriminate E. exists q. reflexivity.
Qed.
Lemma wit_u_badmat : Forall (in_memory (hp u_h)) [u_bad] /\ mat_check (MP (map (fun r => map (rd_poly u_h) (view (hp u_h) r)) [u_bad])) = true /\ valid_var wx.
Proof. split; [constructor; [apply wit_u_bad | constructor]|]. split; [vm_compute; reflexivity | apply varb_spec; vm_compute; reflexivity]. Qed.
End Q.
