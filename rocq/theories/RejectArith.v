(** * Arithmetic and comparisons reject expressions that fail Check with the error of Check *)

From Coq Require Import ZArith NArith Bool List Lia.
From Verif Require Import Num Syntax ModelScalar ModelShape ModelArith ModelConstr SpecArr.
Import ListNotations.

Section RejectArith.
Context {NN : Num}.

Lemma operand_check_bad dims left b : expr_check b = false -> operand_check dims left (GExpr b) = Panic PCheck.
Proof. intro H. unfold operand_check. cbn [as_expr]. rewrite H. reflexivity. Qed.

Theorem reject_receiver (a : expr) (g : goval) (z : Z) (s : sense) : expr_check a = false ->
  expr_plus a g = Panic PCheck /\ expr_minus a g = Panic PCheck /\ expr_mul a g = Panic PCheck /\ expr_power a z = Panic PCheck /\ expr_comparison a g s = Panic PCheck.
Proof.
  intro H0. assert (HM : expr_minus a g = Panic PCheck) by (unfold expr_minus; rewrite H0; reflexivity).
  destruct a as [[k|v|m|p]|[l|l|l|l]|[l|l|l|l]]; pose proof H0 as H; cbn [expr_check] in H; try discriminate H;
    (split; [|split; [exact HM|]; split; [|split]]).
  all: cbn [expr_plus expr_mul expr_power expr_comparison mat_plus mat_mul];
       unfold mat_comparison, vec_comparison, scalar_comparison, mat_power, vec_power, scalar_power; try (rewrite H; reflexivity).
  all: cbn [scalar_check] in H; unfold var_plus_any, mono_plus_any, poly_plus_any, vec_plus, var_mat_plus, mono_mat_plus, poly_mat_plus, var_mul_any, mono_mul_any, poly_mul_any, vec_mul, var_mat_mul, mono_mat_mul, poly_mat_mul; rewrite H; reflexivity.
Qed.

Theorem reject_operand (a b : expr) (s : sense) : expr_check b = false ->
  (both_variables a b <> true -> expr_plus a (GExpr b) = Panic (match a, b with ES (SV v), EM _ => if var_check v then PUnsupported else PCheck | _, _ => PCheck end))
  /\ expr_minus a (GExpr b) = Panic PCheck /\ expr_mul a (GExpr b) = Panic PCheck /\ expr_comparison a (GExpr b) s = Panic PCheck.
Proof.
  intro HB. destruct (expr_check a) eqn:HA.
  2:{ destruct (reject_receiver a (GExpr b) 0%Z s HA) as (H1 & H2 & H3 & _ & H5). split; [intros _; rewrite H1; destruct a as [[k|v|m|p]|v|m]; try reflexivity; destruct b; try reflexivity; cbn [expr_check scalar_check] in HA; rewrite HA; reflexivity|]. split; [exact H2|]. split; [exact H3 | exact H5]. }
  assert (HM : expr_minus a (GExpr b) = Panic PCheck).
  { unfold expr_minus. rewrite HA. cbn [check bind as_expr]. rewrite operand_check_bad by exact HB. rewrite HB. destruct a as [[k|v|m|p]|v|m]; reflexivity. }
  split; [|split; [exact HM|split]].
  - intro NB. destruct a as [[k|v|m|p]|v|[l|l|l|l]]; pose proof HA as HA'; cbn [expr_check scalar_check] in HA; cbn [expr_plus mat_plus].
    + unfold k_plus_any. cbn [as_expr]. rewrite HB. reflexivity.
    + unfold var_plus_any. rewrite HA. cbn [check bind]. destruct b as [[k|w|m|p]|w|w]; cbn [expr_check scalar_check] in HB.
      * discriminate HB.
      * exfalso. apply NB. reflexivity.
      * cbn [var_plus]. unfold var_plus_mono, mono_plus_var. rewrite HA, HB. reflexivity.
      * cbn [var_plus]. unfold var_plus_poly, poly_plus_var. rewrite HA, HB. reflexivity.
      * unfold vec_plus. rewrite HB. reflexivity.
      * reflexivity.
    + unfold mono_plus_any. rewrite HA, operand_check_bad by exact HB. reflexivity.
    + unfold poly_plus_any. cbn [as_expr]. rewrite HA, HB. reflexivity.
    + unfold vec_plus. rewrite HA, operand_check_bad by exact HB. reflexivity.
    + unfold k_mat_plus. rewrite operand_check_bad by exact HB. reflexivity.
    + unfold var_mat_plus. rewrite HA, operand_check_bad by exact HB. reflexivity.
    + unfold mono_mat_plus. rewrite HA, operand_check_bad by exact HB. reflexivity.
    + unfold poly_mat_plus. rewrite HA, operand_check_bad by exact HB. reflexivity.
  - destruct a as [[k|v|m|p]|v|[l|l|l|l]]; cbn [expr_check scalar_check] in HA; cbn [expr_mul mat_mul].
    + unfold k_mul_any. cbn [as_expr]. rewrite HB. reflexivity.
    + unfold var_mul_any. rewrite HA, operand_check_bad by exact HB. reflexivity.
    + unfold mono_mul_any. rewrite HA, operand_check_bad by exact HB. reflexivity.
    + unfold poly_mul_any. cbn [as_expr]. rewrite HA, HB. reflexivity.
    + unfold vec_mul. rewrite HA, operand_check_bad by exact HB. reflexivity.
    + unfold k_mat_mul. rewrite operand_check_bad by exact HB. reflexivity.
    + unfold var_mat_mul. rewrite HA, operand_check_bad by exact HB. reflexivity.
    + unfold mono_mat_mul. rewrite HA, operand_check_bad by exact HB. reflexivity.
    + unfold poly_mat_mul. rewrite HA, operand_check_bad by exact HB. reflexivity.
  - destruct a as [[k|v|m|p]|v|m]; cbn [expr_check] in HA; cbn [expr_comparison]; unfold scalar_comparison, vec_comparison, mat_comparison, k_comparison, comparison_check; cbn [as_expr]; rewrite HB, ?HA; reflexivity.
Qed.
End RejectArith.
