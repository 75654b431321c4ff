(** * Witnesses for products of float64 matrices *)

From Coq Require Import ZArith NArith Bool List Lia Reals Floats.SpecFloat.
From Verif Require Import Num Syntax ModelScalar ModelShape ModelArith Spec SpecConv SpecEffect SpecArr SpecEffectArr SpecRound SpecPoint SpecMat SpecAccuracy Base ScalarValid Unamb ScalarFacts Witness ScalarWit ArrWit EffectArrWit Round RoundWit PointWit AccWit.
Import ListNotations.
Local Open Scope num_scope.

(** the column of 0.3 and 0.7 *)
Definition w_pg {NN : Num} : expr := EM (MK [[w_tenth 3]; [w_tenth 7]]).

Lemma wit_prod (NN := QNum) : valid_array (1, 2)%nat w_pd /\ valid_array (2, 1)%nat w_pg /\ row_by_row w_pd w_pg (1, 2)%nat
  /\ exists e, expr_mul w_pd (GExpr w_pg) = Ok e /\ Nat.eqb (length (terms (entry e 0 0))) 3 = true.
Proof. split; [ar|]. split; [ar|]. split; [exact I|]. apply some_array. vm_compute. reflexivity. Qed.

Section W.
Let NN := F64Num.
Existing Instance NN.
(** (0.1 x y + 1) 0.3 + (0.2 y x + x) 0.7: the coefficient of x y is not the number nearest to 0.17 *)
Lemma wit_prod64 : valid_array (1, 2)%nat w_pd /\ valid_array (2, 1)%nat w_pg /\ row_by_row w_pd w_pg (1, 2)%nat
  /\ exists e, expr_mul w_pd (GExpr w_pg) = Ok e /\ one_is (coefficients w_rm (entry e 0 0)) (w_tenth 1 * w_tenth 3 + w_tenth 2 * w_tenth 7) (nofZ 17 / nofZ 100) = true.
Proof. split; [ar|]. split; [ar|]. split; [exact I|]. apply some_array. vm_compute. reflexivity. Qed.
Lemma wit_acc_prod : valid_array (1, 2)%nat w_pd /\ valid_array (2, 1)%nat w_pg /\ row_by_row w_pd w_pg (1, 2)%nat /\ (forall k, k < 2 -> float64s (entry w_pd 0 k) /\ float64s (entry w_pg k 0))
  /\ unambiguous_exponents (fun f => exists k, k < 2 /\ product_terms (entry w_pd 0 k) (entry w_pg k 0) f)
  /\ exists e, expr_mul w_pd (GExpr w_pg) = Ok e /\ finite64s (entry e 0 0) /\ one_is (coefficients w_rm (entry e 0 0)) (w_tenth 1 * w_tenth 3 + w_tenth 2 * w_tenth 7) (nofZ 17 / nofZ 100) = true.
Proof.
  split; [ar|]. split; [ar|]. split; [exact I|].
  assert (HA : forall k, k < 2 -> valid (entry w_pd 0 k) /\ collected (entry w_pd 0 k) /\ float64s (entry w_pd 0 k) /\ degree_at_most 2 (entry w_pd 0 k)).
  { intros k Hk. apply (entries_fit (1, 2)%nat w_pd ltac:(vm_compute; reflexivity) 0 k (le_n 1) Hk). }
  assert (HB : forall k, k < 2 -> valid (entry w_pg k 0) /\ collected (entry w_pg k 0) /\ float64s (entry w_pg k 0) /\ degree_at_most 2 (entry w_pg k 0)).
  { intros k Hk. apply (entries_fit (2, 1)%nat w_pg ltac:(vm_compute; reflexivity) k 0 Hk (le_n 1)). }
  assert (HD : forall k, k < 2 -> degree_at_most 0 (entry w_pg k 0)).
  { intros k Hk. apply degree_test_spec. destruct k as [|[|k]]; [vm_compute; reflexivity | vm_compute; reflexivity | lia]. }
  split; [intros k Hk; split; [apply HA; exact Hk | apply HB; exact Hk]|].
  split. { apply degree_exponents. intros f (k & Hk & Hf) L HN. destruct (HA k Hk) as (Va & _ & _ & Da). destruct (HB k Hk) as (Vb & _). exact (product_terms_degree _ _ 2 0 Va Vb Da (HD k Hk) f Hf L HN). }
  destruct (some_array (expr_mul w_pd (GExpr w_pg)) (fun e => finite64sb (entry e 0 0) && one_is (coefficients w_rm (entry e 0 0)) (w_tenth 1 * w_tenth 3 + w_tenth 2 * w_tenth 7) (nofZ 17 / nofZ 100))) as (e & E & H); [vm_compute; reflexivity|].
  apply andb_true_iff in H as [H1 H2]. exists e. split; [exact E|]. split; [apply finite64sb_spec; exact H1 | exact H2].
Qed.
End W.
