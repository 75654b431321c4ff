(** * Consequences of the ordered field laws *)

From Coq Require Import ZArith NArith Bool List Lia Field_theory Ring_theory.
From Verif Require Import Num Syntax Spec Base Eval.
Import ListNotations.
Local Open Scope num_scope.

Section Order.
Context {NN : Num} {EX : ExactNum NN}.
Add Ring numring : num_ring.

Notation le a b := (nleb a b = true).

Lemma le_refl a : le a a.
Proof. destruct (ex_total a a); assumption. Qed.
Lemma le_add_iff a b c : le (a + c) (b + c) <-> le a b.
Proof.
  split; [|apply ex_add_le]. intro H. apply (ex_add_le _ _ (- c)) in H.
  replace (a + c + - c) with a in H by ring. replace (b + c + - c) with b in H by ring. exact H.
Qed.
Lemma le_sub_iff a b : le a b <-> le (a - b) n0.
Proof.
  rewrite <- (le_add_iff a b (- b)). replace (a + - b) with (a - b) by ring. replace (b + - b) with n0 by ring. reflexivity.
Qed.
Lemma le_sub_iff' a b : le a b <-> le n0 (b - a).
Proof.
  rewrite <- (le_add_iff a b (- a)). replace (b + - a) with (b - a) by ring. replace (a + - a) with n0 by ring. reflexivity.
Qed.
Lemma le_opp_iff a b : le (- a) (- b) <-> le b a.
Proof.
  rewrite (le_sub_iff' b a), (le_sub_iff' (- a) (- b)). replace (- b - - a) with (a - b) by ring. reflexivity.
Qed.
Lemma sub_eq_iff (a b : num) : a = b <-> a - b = n0.
Proof. split; [intros ->; ring|]. intro H. replace a with ((a - b) + b) by ring. rewrite H. ring. Qed.

(** a constraint only depends on the difference of its sides *)
Lemma holds_sub a s b : holds a s b <-> holds (a - b) s n0.
Proof. destruct s; cbn; [apply le_sub_iff | apply (le_sub_iff' b a) | apply sub_eq_iff | reflexivity]. Qed.
Lemma holds_diff a b a' b' s : a - b = a' - b' -> (holds a s b <-> holds a' s b').
Proof. intro H. rewrite (holds_sub a s b), (holds_sub a' s b'), H. reflexivity. Qed.

Lemma mul_nonneg a b : le n0 a -> le n0 b -> le n0 (a * b).
Proof. apply ex_mul_le. Qed.
Lemma mul_le_pos a b f : le n0 f -> le a b -> le (a * f) (b * f).
Proof.
  intros Hf H. apply le_sub_iff' in H. apply le_sub_iff'. replace (b * f - a * f) with ((b - a) * f) by ring. apply mul_nonneg; assumption.
Qed.
Lemma one_neq_zero : n1 <> n0.
Proof. exact (F_1_neq_0 ex_field). Qed.
Lemma inv_l (f : num) : f <> n0 -> n1 / f * f = n1.
Proof. intro H. exact (Finv_l ex_field f H). Qed.
Lemma inv_nonzero (f : num) : f <> n0 -> n1 / f <> n0.
Proof. intros H E. pose proof (inv_l f H) as L. rewrite E in L. apply one_neq_zero. rewrite <- L. ring. Qed.
Lemma square_nonneg a : le n0 (a * a).
Proof.
  destruct (ex_total n0 a) as [H|H]; [apply mul_nonneg; exact H|].
  replace (a * a) with (- a * - a) by ring. assert (le n0 (- a)). { rewrite <- le_opp_iff. replace (- - a) with a by ring. replace (- n0) with n0 by ring. exact H. }
  apply mul_nonneg; assumption.
Qed.
Lemma inv_nonneg f : f <> n0 -> le n0 f -> le n0 (n1 / f).
Proof.
  intros Hf H. replace (n1 / f) with (f * ((n1 / f) * (n1 / f))).
  - apply mul_nonneg; [exact H | apply square_nonneg].
  - transitivity ((n1 / f * f) * (n1 / f)); [ring|]. rewrite inv_l by exact Hf. ring.
Qed.
Lemma mul_le_iff a b f : f <> n0 -> le n0 f -> (le (a * f) (b * f) <-> le a b).
Proof.
  intros Hf H. split; [|apply mul_le_pos; exact H]. intro HL. apply (mul_le_pos _ _ (n1 / f)) in HL; [|apply inv_nonneg; assumption].
  replace (a * f * (n1 / f)) with (a * (n1 / f * f)) in HL by ring. replace (b * f * (n1 / f)) with (b * (n1 / f * f)) in HL by ring.
  rewrite inv_l in HL by exact Hf. replace (a * n1) with a in HL by ring. replace (b * n1) with b in HL by ring. exact HL.
Qed.
Lemma mul_cancel a b f : f <> n0 -> (a * f = b * f <-> a = b).
Proof.
  intro Hf. split; [|intros ->; reflexivity]. intro H. assert (E : a * f * (n1 / f) = b * f * (n1 / f)) by (rewrite H; reflexivity).
  replace (a * f * (n1 / f)) with (a * (n1 / f * f)) in E by ring. replace (b * f * (n1 / f)) with (b * (n1 / f * f)) in E by ring.
  rewrite inv_l in E by exact Hf. replace (a * n1) with a in E by ring. replace (b * n1) with b in E by ring. exact E.
Qed.
Lemma ltb_false_le a b : (a <? b) = false -> le b a.
Proof. rewrite ex_ltb. destruct (nleb b a); [reflexivity | discriminate]. Qed.
Lemma ltb_true_le a b : (a <? b) = true -> le a b.
Proof. rewrite ex_ltb. intro H. destruct (ex_total a b) as [E|E]; [exact E|]. rewrite E in H. discriminate. Qed.
Lemma ltb_true_neq a b : (a <? b) = true -> a <> b.
Proof. rewrite ex_ltb. intros H ->. rewrite le_refl in H. discriminate. Qed.

Definition flip (f : num) (s : sense) : sense :=
  if f <? n0 then match s with SenseLe => SenseGe | SenseGe => SenseLe | s => s end else s.
Lemma holds_scale a s b f : f <> n0 -> (holds (a * f) (flip f s) (b * f) <-> holds a s b).
Proof.
  intro Hf. unfold flip. destruct (f <? n0) eqn:E.
  - assert (Hp : le n0 (- f)). { rewrite <- le_opp_iff. replace (- - f) with f by ring. replace (- n0) with n0 by ring. apply ltb_true_le; exact E. }
    assert (Hn : - f <> n0). { intro H. apply Hf. replace f with (- - f) by ring. rewrite H. ring. }
    assert (HX : forall x y, le (x * f) (y * f) <-> le y x).
    { intros x y. rewrite <- (mul_le_iff y x (- f) Hn Hp). rewrite <- (le_opp_iff (y * f) (x * f)).
      replace (y * - f) with (- (y * f)) by ring. replace (x * - f) with (- (x * f)) by ring. reflexivity. }
    destruct s; cbn; [apply HX | apply HX | apply mul_cancel; exact Hf | reflexivity].
  - apply ltb_false_le in E. destruct s; cbn; [apply mul_le_iff; assumption | apply mul_le_iff; assumption | apply mul_cancel; exact Hf | reflexivity].
Qed.

End Order.
