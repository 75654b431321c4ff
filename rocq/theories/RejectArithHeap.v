(** * Arithmetic that rejects an expression leaves memory as it was *)

From Coq Require Import ZArith NArith Bool List Lia.
From Verif Require Import Num Syntax ModelScalar ModelShape ModelArith ModelHeap ModelHeapArr Witness RejectWit RejectArith RejectHeap.
Import ListNotations.

Section RejectArithHeap.
Context {NN : Num} {RT : Runtime}.

Lemma bind_reads {A B} (f : heap -> res A) (k : A -> M B) h : bindM (reads f) k h = match f h with Ok a => k a h | Panic p => (Panic p, h) end.
Proof. reflexivity. Qed.
Lemma bind_bad {A B} (x : M A) (k : A -> M B) h p : x h = (Panic p, h) -> bindM x k h = (Panic p, h).
Proof. intro H. unfold bindM. rewrite H. reflexivity. Qed.
(** a test whatever its outcome, then one that fails *)
Lemma bind_two {A} (b : heap -> bool) (f : heap -> res unit) (k : unit -> M A) h : f h = Panic PCheck ->
  bindM (reads (fun h => check (b h) PCheck)) (fun _ => bindM (reads f) k) h = (Panic PCheck, h).
Proof. intro H. rewrite bind_reads. destruct (b h); [|reflexivity]. cbn [check]. rewrite bind_reads, H. reflexivity. Qed.
Lemma bind_one {A} (f : heap -> res unit) (k : unit -> M A) h : f h = Panic PCheck -> bindM (reads f) k h = (Panic PCheck, h).
Proof. intro H. rewrite bind_reads, H. reflexivity. Qed.

Theorem hreject_receiver (a : aexpr) (g : aval) (z : Z) (h : heap) : expr_check (rd_aexpr h a) = false ->
  aexpr_plus a g h = (Panic PCheck, h) /\ aexpr_minus a g h = (Panic PCheck, h) /\ aexpr_mul a g h = (Panic PCheck, h) /\ aexpr_power a z h = (Panic PCheck, h).
Proof.
  intro H0. assert (HC : forall b, b = false -> check b PCheck = Panic PCheck) by (intros b ->; reflexivity).
  assert (HM : aexpr_minus a g h = (Panic PCheck, h)) by (unfold aexpr_minus, check_aexpr; apply bind_one, HC, H0).
  split; [|split; [exact HM|split]].
  - destruct a as [[k|v|m|p]|v|[l|l|l|l]]; cbn [rd_aexpr rd rd_amat expr_check scalar_check mat_check] in H0; try discriminate H0; cbn [aexpr_plus amat_plus];
      unfold avar_plus_any, amono_plus_any, apoly_plus_any, avec_plus, avar_mat_plus, amono_mat_plus, apoly_mat_plus, check_var, check_mono, check_poly, check_avec, check_amat; apply bind_one, HC, H0.
  - destruct a as [[k|v|m|p]|v|[l|l|l|l]]; cbn [rd_aexpr rd rd_amat expr_check scalar_check mat_check] in H0; try discriminate H0; cbn [aexpr_mul amat_mul];
      unfold avar_mul_any, amono_mul_any, apoly_mul_any, avec_mul, avar_mat_mul, amono_mat_mul, apoly_mat_mul, check_var, check_mono, check_poly, check_avec, check_amat; apply bind_one, HC, H0.
  - destruct a as [s|v|m]; cbn [rd_aexpr expr_check] in H0; cbn [aexpr_power]; unfold as_AES, as_AEM; apply bind_bad.
    + apply (hreject_minus_power s s z h); exact H0.
    + unfold avec_power, check_avec. apply bind_one, HC, H0.
    + unfold amat_power, check_amat. apply bind_one, HC, H0.
Qed.

Theorem hreject_operand (a b : aexpr) (h : heap) : expr_check (rd_aexpr h b) = false ->
  ((forall v, a <> AES (HV v)) -> aexpr_plus a (AExpr b) h = (Panic PCheck, h)) /\ aexpr_minus a (AExpr b) h = (Panic PCheck, h) /\ aexpr_mul a (AExpr b) h = (Panic PCheck, h).
Proof.
  intro H. assert (HV : forall h', h' = h -> (match as_expr (rd_aval h' (AExpr b)) with Some e => check (expr_check e) PCheck | None => Ok tt end) = Panic PCheck).
  { intros h' ->. cbn [rd_aval as_expr]. rewrite H. reflexivity. }
  assert (HO : forall dims left, operand_check dims left (rd_aval h (AExpr b)) = Panic PCheck) by (intros dims left; apply operand_check_bad, H).
  split; [|split].
  - intro NV. destruct a as [[k|v|m|p]|v|[l|l|l|l]]; [| exfalso; apply (NV v); reflexivity | | | | | | |]; cbn [aexpr_plus amat_plus];
      unfold ak_plus_any, amono_plus_any, apoly_plus_any, avec_plus, ak_mat_plus, avar_mat_plus, amono_mat_plus, apoly_mat_plus, check_aval, check_mono, check_poly, check_avec, check_amat, a_operand_check;
      first [apply bind_one, HV, eq_refl | apply bind_one, HO | apply bind_two, HV, eq_refl | apply bind_two, HO].
  - unfold aexpr_minus, check_aexpr. cbn [as_aexpr]. rewrite bind_reads. destruct (expr_check (rd_aexpr h a)); [|reflexivity]. cbn [check].
    apply bind_bad. destruct a as [[k|v|m|p]|v|m]; unfold a_operand_check, reads; rewrite ?HO, ?H; reflexivity.
  - destruct a as [[k|v|m|p]|v|[l|l|l|l]]; cbn [aexpr_mul amat_mul];
      unfold ak_mul_any, avar_mul_any, amono_mul_any, apoly_mul_any, avec_mul, ak_mat_mul, avar_mat_mul, amono_mat_mul, apoly_mat_mul, check_aval, check_var, check_mono, check_poly, check_avec, check_amat, a_operand_check;
      first [apply bind_one, HV, eq_refl | apply bind_one, HO | apply bind_two, HV, eq_refl | apply bind_two, HO].
Qed.

(** Variable.Plus looks at its operand only in the methods it hands over to *)
Theorem hreject_operand_variable (v : var) (b : aexpr) (h : heap) : expr_check (rd_aexpr h b) = false ->
  match b with
  | AES (HV _) => True
  | AEM _ => exists p, aexpr_plus (AES (HV v)) (AExpr b) h = (Panic p, h)
  | _ => aexpr_plus (AES (HV v)) (AExpr b) h = (Panic PCheck, h)
  end.
Proof.
  intro H. assert (HC : forall b, b = false -> check b PCheck = Panic PCheck) by (intros x ->; reflexivity).
  destruct b as [[k|w|m|p]|w|m]; cbn [rd_aexpr rd expr_check scalar_check] in H; [discriminate H|exact I| | | |].
  all: cbn [aexpr_plus]; unfold avar_plus_any, check_var; rewrite bind_reads; destruct (var_check v) eqn:EV; cbn [check]; try reflexivity.
  - unfold as_AES. apply bind_bad. cbn [h_plus]. unfold h_var_plus_mono, check_var. rewrite bind_reads, EV. cbn [check]. apply bind_bad. unfold h_mono_plus_var, check_mono. apply bind_one, HC, H.
  - unfold as_AES. apply bind_bad. cbn [h_plus]. unfold h_var_plus_poly, check_var. rewrite bind_reads, EV. cbn [check]. apply bind_bad. unfold h_poly_plus_var, check_poly. apply bind_one, HC, H.
  - unfold a_simplify_result. apply bind_bad. unfold avec_plus, check_avec. apply bind_one, HC, H.
  - eexists. reflexivity.
  - eexists. reflexivity.
Qed.

End RejectArithHeap.

Lemma wit_arith_heap (NN := QNum) : let s := mkSlice 0 0 1 1 in let m := mkHM n1 s (mkSlice 0 0 2 2) in
  expr_check (rd_aexpr rj_h (AES (HM m))) = false /\ expr_check (rd_aexpr rj_h (AES (HP s))) = false /\ expr_check (rd_aexpr rj_h (AEV (AVM [m; m]))) = false
  /\ expr_check (rd_aexpr rj_h (AEM (AMP [[s]]))) = false /\ expr_check (rd_aexpr rj_h (AES (HV rj_var))) = false.
Proof. vm_compute. repeat split. Qed.
