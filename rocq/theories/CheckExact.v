(** * Check accepts exactly the well-formed expressions *)

From Coq Require Import ZArith NArith Bool List.
From Verif Require Import Num Syntax ModelScalar ModelShape Spec SpecArr SpecReject.
Import ListNotations.

Section CheckExact.
Context {NN : Num}.

Lemma good_var_iff x : var_check x = true <-> good_var x.
Proof. unfold var_check, good_var. rewrite negb_true_iff. reflexivity. Qed.

Lemma good_term_iff m : mono_check m = true <-> good_term m.
Proof. unfold mono_check, good_term. apply Nat.eqb_eq. Qed.

Lemma forallb_good {A} (f : A -> bool) (P : A -> Prop) : (forall a, f a = true <-> P a) -> forall l, forallb f l = true <-> Forall P l.
Proof.
  intros H l. rewrite forallb_forall, Forall_forall. split; intros G a Ha; apply H, G, Ha.
Qed.

Lemma nonempty_iff {A} (l : list A) : nonempty l = true <-> l <> [].
Proof. destruct l; cbn [nonempty]; split; intro H; congruence. Qed.

Lemma good_poly_iff p : poly_check p = true <-> good_poly p.
Proof.
  unfold good_poly. rewrite <- (forallb_good _ _ good_term_iff). destruct p as [|m p]; cbn [poly_check].
  - split; [discriminate|intros [H _]; congruence].
  - split; [intro H; split; [discriminate|exact H]|intros [_ H]; exact H].
Qed.

Lemma good_rows_iff {A} (f : A -> bool) (P : A -> Prop) : (forall a, f a = true <-> P a) -> forall l, rows_check f l = true <-> good_rows P l.
Proof.
  intros H l. unfold good_rows. destruct l as [|r0 l]; unfold rows_check.
  - split; [discriminate|intros [G _]; congruence].
  - rewrite andb_true_iff, !forallb_forall. split.
    + intros [E G]. split; [discriminate|]. split.
      * intros r r' Hr Hr'. apply E, Nat.eqb_eq in Hr. apply E, Nat.eqb_eq in Hr'. congruence.
      * intros r a Hr Ha. apply H. specialize (G r Hr). rewrite forallb_forall in G. exact (G a Ha).
    + intros (_ & E & G). split.
      * intros r Hr. apply Nat.eqb_eq, E; [exact Hr|left; reflexivity].
      * intros r Hr. rewrite forallb_forall. intros a Ha. apply H. exact (G r a Hr Ha).
Qed.

Lemma check_exact e : expr_check e = true <-> well_formed e.
Proof.
  destruct e as [[k|x|m|p]|[l|l|l|l]|[l|l|l|l]]; cbn [expr_check scalar_check vec_check mat_check well_formed].
  - tauto.
  - apply good_var_iff.
  - apply good_term_iff.
  - apply good_poly_iff.
  - tauto.
  - apply forallb_good, good_var_iff.
  - rewrite andb_true_iff, nonempty_iff, (forallb_good _ _ good_term_iff). reflexivity.
  - rewrite andb_true_iff, nonempty_iff, (forallb_good _ _ good_poly_iff). reflexivity.
  - tauto.
  - apply good_rows_iff, good_var_iff.
  - apply good_rows_iff, good_term_iff.
  - apply good_rows_iff, good_poly_iff.
Qed.

End CheckExact.
