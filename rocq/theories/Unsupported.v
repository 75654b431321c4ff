(** * Type pairs that are not implemented panic with the error that says so *)

From Coq Require Import ZArith NArith Bool List Lia.
From Verif Require Import Num Syntax ModelScalar ModelShape ModelArith Spec SpecArr SpecReject Base Arr ArrTop.
Import ListNotations.

Section Unsupported.
Context {NN : Num}.

Lemma operand_ok (rel : nat * nat -> nat * nat -> bool) left (da : nat * nat) g : left = Ok da ->
  (forall b, means g = Some b -> exists db, valid_array db b /\ rel da db = true) -> operand_check rel left g = Ok tt.
Proof.
  intros -> H. unfold operand_check. destruct g as [f|z|l|l|l|l|e|]; cbn [as_expr means] in *; try reflexivity;
    match goal with |- context [expr_check ?b] => destruct (H b eq_refl) as (db & V & R) end; destruct (valid_array_check _ _ V) as [C D]; rewrite C; cbn [check bind]; rewrite D; cbn [bind]; rewrite R; reflexivity.
Qed.
Lemma any_ok g : (forall b, means g = Some b -> exists db, valid_array db b) -> (match as_expr g with Some e => check (expr_check e) PCheck | None => Ok tt end) = Ok tt.
Proof.
  intro H. destruct g as [f|z|l|l|l|l|e|]; cbn [as_expr means] in *; try reflexivity; destruct (H _ eq_refl) as (db & V); destruct (valid_array_check _ _ V) as [C D]; rewrite C; reflexivity.
Qed.
Lemma add_rel (da db : nat * nat) : da = db \/ da = (1, 1)%nat \/ db = (1, 1)%nat -> dims_add da db = true.
Proof. unfold dims_add, dims_scalar, dims_eqb. intros [->|[->| ->]]; rewrite ?Nat.eqb_refl; cbn; rewrite ?orb_true_r; reflexivity. Qed.
Lemma mul_rel (da db : nat * nat) : snd da = fst db \/ da = (1, 1)%nat \/ db = (1, 1)%nat -> dims_mul da db = true.
Proof. unfold dims_mul, dims_scalar, dims_eqb. intros [->|[->| ->]]; rewrite ?Nat.eqb_refl; cbn; rewrite ?orb_true_r; reflexivity. Qed.
Lemma scalar_one (d : nat * nat) s : valid_array d (ES s) -> d = (1, 1)%nat.
Proof. intros V. destruct (valid_array_check _ _ V) as [_ D]. cbn in D. injection D as <-. reflexivity. Qed.

Theorem plus_unsupported_error (a : expr) (g : goval) (da : nat * nat) : valid_array da a -> fits eq da g -> plus_accepts a g = false -> expr_plus a g = Panic PUnsupported.
Proof.
  intros V F P. destruct (valid_array_check _ _ V) as [C D].
  assert (FA : (forall b, means g = Some b -> exists db, valid_array db b)) by (intros b E; destruct (F b E) as (db & Vb & _); eauto).
  pose proof (any_ok g FA) as OA.
  assert (OK : forall left, left = Ok da -> operand_check dims_add left g = Ok tt).
  { intros left EL. apply (operand_ok dims_add left da g EL). intros b E. destruct (F b E) as (db & Vb & R). exists db. split; [exact Vb | apply add_rel; exact R]. }
  destruct a as [[k|v|m|p]|v|[l|l|l|l]]; cbn [expr_check scalar_check] in C; cbn [expr_plus mat_plus]; try pose proof (scalar_one _ _ V) as ->.
  - unfold k_plus_any. rewrite OA. cbn [bind]. destruct g; try discriminate P. reflexivity.
  - unfold var_plus_any. rewrite C. cbn [check bind]. destruct g as [f|z|l|l|l|l|[s|w|w]|]; try discriminate P; reflexivity.
  - unfold mono_plus_any. rewrite C, OK by reflexivity. cbn [check bind]. destruct g as [f|z|l|l|l|l|[s|w|w]|]; try discriminate P; reflexivity.
  - unfold poly_plus_any. rewrite C, OA. cbn [check bind]. destruct g as [f|z|l|l|l|l|[s|w|w]|]; try discriminate P; reflexivity.
  - unfold vec_plus. rewrite C, OK by exact D. cbn [check bind]. destruct v as [x|x|x|x], g as [f|z|l|l|l|l|[s|w|w]|]; try discriminate P; reflexivity.
  - unfold k_mat_plus. rewrite OK by exact D. cbn [check bind]. cbn [expr_dims] in D. assert (RD : exists d, rows_dims l = Ok d). { cbn in D. unfold mat_dims in D. cbn in D. eauto. }
    destruct RD as [d ->]. cbn [bind]. destruct g as [f|z|x|x|x|x|[[?|?|?|?]|w|w]|]; try discriminate P; reflexivity.
  - unfold var_mat_plus. rewrite C, OK by exact D. cbn [check bind]. destruct g as [f|z|x|x|x|x|[[?|?|?|?]|w|[?|?|?|?]]|]; try discriminate P; reflexivity.
  - unfold mono_mat_plus. rewrite C, OK by exact D. cbn [check bind]. destruct g as [f|z|x|x|x|x|[[?|?|?|?]|w|[?|?|?|?]]|]; try discriminate P; reflexivity.
  - unfold poly_mat_plus. rewrite C, OK by exact D. cbn [check bind]. destruct g as [f|z|x|x|x|x|[[?|?|?|?]|w|[?|?|?|?]]|]; try discriminate P; reflexivity.
Qed.
Theorem multiply_unsupported_error (a : expr) (g : goval) (da : nat * nat) : valid_array da a -> fits (fun d1 d2 => snd d1 = fst d2) da g -> multiply_accepts a g = false -> expr_mul a g = Panic PUnsupported.
Proof.
  intros V F P. destruct (valid_array_check _ _ V) as [C D].
  assert (FA : (forall b, means g = Some b -> exists db, valid_array db b)) by (intros b E; destruct (F b E) as (db & Vb & _); eauto).
  pose proof (any_ok g FA) as OA.
  assert (OK : forall left, left = Ok da -> operand_check dims_mul left g = Ok tt).
  { intros left EL. apply (operand_ok dims_mul left da g EL). intros b E. destruct (F b E) as (db & Vb & R). exists db. split; [exact Vb | apply mul_rel; exact R]. }
  destruct a as [[k|v|m|p]|v|[l|l|l|l]]; cbn [expr_check scalar_check] in C; cbn [expr_mul mat_mul]; try pose proof (scalar_one _ _ V) as ->.
  - unfold k_mul_any. rewrite OA. cbn [bind]. destruct g as [f|z|l|l|l|l|[s|w|w]|]; try discriminate P; reflexivity.
  - unfold var_mul_any. rewrite C, OK by reflexivity. cbn [check bind]. destruct g as [f|z|l|l|l|l|[s|w|w]|]; try discriminate P; reflexivity.
  - unfold mono_mul_any. rewrite C, OK by reflexivity. cbn [check bind]. destruct g as [f|z|l|l|l|l|[s|w|w]|]; try discriminate P; reflexivity.
  - unfold poly_mul_any. rewrite C, OA. cbn [check bind]. destruct g as [f|z|x|x|x|x|[s|w|w]|]; try discriminate P; try reflexivity.
    destruct (FA _ eq_refl) as (db & Vb). destruct (valid_array_check _ _ Vb) as [Cb Db]. cbn [expr_check expr_dims] in Cb, Db.
    assert (OP : operand_check dims_mul (mat_dims w) (GExpr (ES (SP p))) = Ok tt).
    { apply (operand_ok dims_mul _ db _ Db). intros b E. injection E as <-. exists (1, 1)%nat. split; [exact V | apply mul_rel; right; right; reflexivity]. }
    destruct w as [l|l|l|l]; try discriminate P; cbn [mat_mul]; unfold var_mat_mul, mono_mat_mul, poly_mat_mul; rewrite Cb, OP; reflexivity.
  - unfold vec_mul. rewrite C, OK by exact D. cbn [check bind].
    destruct v as [x|x|x|x], g as [f|z|l|l|l|l|[[?|?|?|?]|[?|?|?|?]|w]|]; try discriminate P; try reflexivity; unfold vec_mul_scalar; rewrite C, OK by exact D; reflexivity.
  - unfold k_mat_mul. rewrite OK by exact D. cbn [check bind]. destruct g as [f|z|x|x|x|x|[[?|?|?|?]|[?|?|?|?]|w]|]; try discriminate P; reflexivity.
  - unfold var_mat_mul. rewrite C, OK by exact D. cbn [check bind]. destruct g as [f|z|x|x|x|x|[[?|?|?|?]|[?|?|?|?]|w]|]; try discriminate P; reflexivity.
  - unfold mono_mat_mul. rewrite C, OK by exact D. cbn [check bind]. destruct g as [f|z|x|x|x|x|[[?|?|?|?]|[?|?|?|?]|w]|]; try discriminate P; reflexivity.
  - unfold poly_mat_mul. rewrite C, OK by exact D. cbn [check bind]. destruct g as [f|z|x|x|x|x|[[?|?|?|?]|[?|?|?|?]|w]|]; try discriminate P; reflexivity.
Qed.
End Unsupported.
