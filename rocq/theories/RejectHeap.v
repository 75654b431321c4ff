(** * Rejected calls leave memory as it was *)

From Coq Require Import ZArith NArith Bool List Lia.
From Verif Require Import Num Syntax ModelScalar ModelShape ModelHeap Witness RejectWit.
Import ListNotations.

Section RejectHeap.
Context {NN : Num} {RT : Runtime}.

Theorem hreject_derivative (s : hscalar) (v : var) (h : heap) : scalar_check (rd h s) = false \/ (forall k, s <> HK k) /\ var_check v = false -> h_derivative s v h = (Panic PCheck, h).
Proof.
  destruct s as [k|w|m|p]; cbn [rd scalar_check h_derivative].
  - intros [H|[H _]]; [discriminate H | exfalso; apply (H k); reflexivity].
  - unfold check_var, bindM, reads. intros [H|[_ H]]; rewrite H; [reflexivity|]. destruct (var_check w); reflexivity.
  - unfold h_mono_derivative, check_mono, check_var, bindM, reads. intros [H|[_ H]]; rewrite H; [reflexivity|]. destruct (mono_check (rd_mono h m)); reflexivity.
  - unfold h_poly_derivative, check_poly, check_var, bindM, reads. intros [H|[_ H]]; rewrite H; [reflexivity|]. destruct (poly_check (rd_poly h p)); reflexivity.
Qed.
Theorem hreject_substitute (s e : hscalar) (v : var) (h : heap) : scalar_check (rd h s) = false \/ (forall k, s <> HK k) /\ (var_check v = false \/ scalar_check (rd h e) = false) ->
  h_substitute s v e h = (Panic PCheck, h).
Proof.
  destruct s as [k|w|m|p]; cbn [rd scalar_check h_substitute].
  - intros [H|[H _]]; [discriminate H | exfalso; apply (H k); reflexivity].
  - unfold h_var_substitute, check_scalar, check_var, bindM, reads. intros [H|[_ [H|H]]]; rewrite H; [reflexivity| |]; destruct (var_check w); try reflexivity; destruct (var_check v); reflexivity.
  - unfold h_mono_substitute, check_scalar, check_mono, check_var, bindM, reads. intros [H|[_ [H|H]]]; rewrite H; [reflexivity| |]; destruct (mono_check (rd_mono h m)); try reflexivity; destruct (var_check v); reflexivity.
  - unfold h_poly_substitute, check_scalar, check_poly, check_var, bindM, reads. intros [H|[_ [H|H]]]; rewrite H; [reflexivity| |]; destruct (poly_check (rd_poly h p)); try reflexivity; destruct (var_check v); reflexivity.
Qed.
Theorem hreject_minus_power (s r : hscalar) (n : Z) (h : heap) :
  (scalar_check (rd h s) = false \/ scalar_check (rd h r) = false -> h_minus s r h = (Panic PCheck, h)) /\ (scalar_check (rd h s) = false -> h_power s n h = (Panic PCheck, h)).
Proof.
  split; unfold h_minus, h_power, check_scalar, bindM, reads; [intros [H|H]|intro H]; rewrite H; [reflexivity| |reflexivity]. destruct (scalar_check (rd h s)); reflexivity.
Qed.
Theorem hreject_monovec (l : slice) (v : var) (h : heap) : vec_check (rd_vec h (HVM l)) = false -> h_monovec_derivative l v h = (Panic PCheck, h).
Proof. intro H. unfold h_monovec_derivative, bindM, reads. rewrite H. reflexivity. Qed.
Theorem hreject_monomat (l : list slice) (v : var) (h : heap) : mat_check (MM (map (fun r => map (rd_mono h) (view (hm h) r)) l)) = false \/ var_check v = false -> h_monomat_derivative l v h = (Panic PCheck, h).
Proof.
  intro H. unfold h_monomat_derivative, check_var, bindM, reads. destruct H as [H|H]; rewrite H; [reflexivity|]. destruct (mat_check _); reflexivity.
Qed.
Theorem hreject_polymat (l : list slice) (v : var) (h : heap) : mat_check (MP (map (fun r => map (rd_poly h) (view (hp h) r)) l)) = false \/ var_check v = false -> h_polymat_derivative l v h = (Panic PCheck, h).
Proof.
  intro H. unfold h_polymat_derivative, check_var, bindM, reads. destruct H as [H|H]; rewrite H; [reflexivity|]. destruct (mat_check _); reflexivity.
Qed.
Theorem reject_var_arrays (x : var) : (forall l, vec_check (VV l) = false \/ var_check x = false -> var_vec_derivative l x = Panic PCheck) /\ (forall l, mat_check (MV l) = false -> var_mat_derivative l x = Panic PCheck).
Proof.
  split.
  - intros l H. unfold var_vec_derivative. destruct H as [H|H]; rewrite H; [reflexivity|]. destruct (vec_check (VV l)); reflexivity.
  - intros l H. unfold var_mat_derivative, mat_dims. rewrite H. reflexivity.
Qed.
End RejectHeap.

(** one Monomial with one exponent and two variables in memory, a slice that holds it, and a slice that holds that slice *)
Definition rj_h {NN : Num} : heap := mkHeap [[2%Z]] [[wx; wy]] [[mkHM n1 (mkSlice 0 0 1 1) (mkSlice 0 0 2 2)]] [[mkSlice 0 0 1 1]].
Lemma wit_reject_heap (NN := QNum) : let s := mkSlice 0 0 1 1 in
  scalar_check (rd rj_h (HM (mkHM n1 s (mkSlice 0 0 2 2)))) = false /\ scalar_check (rd rj_h (HP s)) = false /\ scalar_check (rd rj_h (HP (mkSlice 0 0 0 0))) = false
  /\ vec_check (rd_vec rj_h (HVM s)) = false /\ mat_check (MM (map (fun r => map (rd_mono rj_h) (view (hm rj_h) r)) [s])) = false
  /\ mat_check (MP (map (fun r => map (rd_poly rj_h) (view (hp rj_h) r)) [s])) = false /\ vec_check (VV [wx; rj_var]) = false /\ mat_check (MV [[wx]; [wx; wy]]) = false.
Proof. vm_compute. repeat split. Qed.
