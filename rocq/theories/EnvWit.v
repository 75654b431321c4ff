(** * Witnesses and refutations for environments *)

From Coq Require Import ZArith NArith Bool List Lia.
From Verif Require Import Num Syntax ModelScalar Spec Base ScalarOps Unamb ScalarFacts Witness ScalarWit ModelEnv SpecEnv EnvProofs ArrWit.
Import ListNotations.
Local Open Scope num_scope.

Section Q.
Local Existing Instance QNum.

(** two environments and the default one; the first variable of environment 1 is tracked again *)
Definition w_history : list call := [NewContinuous [1%N]; NewBinary [1%N]; NewVector 3 []; NewMatrix 2 2 [2%N]; Track 1 (continuous 0 1); NewContinuous [1%N]].
Lemma wit_history : tracks_own w_history.
Proof.
  intros pre e v post H. unfold w_history in H.
  destruct pre as [|c1 pre]; [discriminate H|]. injection H as <- H. destruct pre as [|c2 pre]; [discriminate H|]. injection H as <- H. destruct pre as [|c3 pre]; [discriminate H|]. injection H as <- H.
  destruct pre as [|c4 pre]; [discriminate H|]. injection H as <- H. destruct pre as [|c5 pre].
  - injection H as <- <- _. split; [left; reflexivity | reflexivity].
  - injection H as <- H. destruct pre as [|c6 pre]; [discriminate H|]. injection H as _ H. destruct pre; discriminate H.
Qed.
Lemma wit_history_ids : map key (fst (run_calls empty_store w_history)) =
  [(Some 1, 0); (Some 1, 1); (Some 0, 0); (Some 0, 1); (Some 0, 2); (Some 2, 0); (Some 2, 1); (Some 2, 2); (Some 2, 3); (Some 1, 2)]%N.
Proof. reflexivity. Qed.

Lemma exclusive_one (c : config) t0 : (forall u g, nth_error (snd c) u = Some g -> u <> t0 -> g_pc g = Idle) -> exclusive c.
Proof.
  intros H t u gt gu e Ht Hu [It _] [Iu _]. destruct (Nat.eq_dec t t0) as [->|Nt]; [|destruct (It (H t gt Ht Nt))]. destruct (Nat.eq_dec u t0) as [->|Nu]; [reflexivity | destruct (Iu (H u gu Hu Nu))].
Qed.
(** two goroutines creating in the default environment, one after the other *)
Lemma wit_exclusive : forall pre post, [0; 0; 0; 0; 1; 1; 1; 1]%nat = pre ++ post -> exclusive (run_schedule (start [[0%N]; [0%N]]) pre).
Proof.
  assert (T : forall c t0 t1, List.length (snd c) = 2 -> (t0 = 0 /\ t1 = 1 \/ t0 = 1 /\ t1 = 0) -> match nth_error (snd c) t1 with Some g => g_pc g = Idle | None => True end -> exclusive c).
  { intros c t0 t1 L D H. apply (exclusive_one c t0). intros u g Hu Nu. assert (u < 2) by (rewrite <- L; apply nth_error_Some; congruence).
    assert (u = t1) by lia. subst u. rewrite Hu in H. exact H. }
  intros pre post H. assert (E : pre = firstn (List.length pre) [0; 0; 0; 0; 1; 1; 1; 1]%nat) by (rewrite H, firstn_app, firstn_all, Nat.sub_diag, app_nil_r; reflexivity).
  assert (LE : List.length pre <= 8) by (apply (f_equal (@List.length nat)) in H; rewrite app_length in H; cbn in H; lia). rewrite E. clear E H.
  remember (List.length pre) as k. clear Heqk. destruct k as [|[|[|[|[|k]]]]]; [apply (T _ 0 1); [reflexivity | auto | reflexivity] .. |].
  destruct k as [|[|[|[|k]]]]; [apply (T _ 1 0); [reflexivity | auto | reflexivity] .. | lia].
Qed.
Lemma wit_exclusive_ids : map key (obtained (run_schedule (start [[0%N]; [0%N]]) [0; 0; 0; 0; 1; 1; 1; 1]%nat)) = [(Some 0, 0); (Some 0, 1)]%N.
Proof. reflexivity. Qed.
Lemma wit_separate : (forall t u p q e, nth_error [[0%N; 0%N]; [1%N]] t = Some p -> nth_error [[0%N; 0%N]; [1%N]] u = Some q -> In e p -> In e q -> t = u)
  /\ map key (obtained (run_schedule (start [[0%N; 0%N]; [1%N]]) [0; 1; 0; 1; 0; 1; 0; 1; 0; 0; 0; 0]%nat)) = [(Some 0, 0); (Some 0, 1); (Some 1, 0)]%N.
Proof.
  split; [|reflexivity]. intros t u p q e Ht Hu Hp Hq.
  destruct t as [|[|[|t]]]; cbn in Ht; try discriminate Ht; injection Ht as <-; destruct u as [|[|[|u]]]; cbn in Hu; try discriminate Hu; injection Hu as <-; try reflexivity; cbn in Hp, Hq; intuition congruence.
Qed.
(** 2x + 3y + 7 and z, all of environment 0 *)
Lemma wit_coherent : valid w_lin /\ valid (SV wz) /\ unambiguous (in_either w_lin (SV wz)) /\ unambiguous_exponents (product_terms w_lin (SV wz)) /\ coherent [w_lin; SV wz].
Proof.
  assert (V1 : valid w_lin) by (apply validb_spec; vm_compute; reflexivity). assert (V2 : valid (SV wz)) by (apply validb_spec; vm_compute; reflexivity).
  split; [exact V1|]. split; [exact V2|].
  split; [apply either_degree2; try assumption; apply degree_test_spec; vm_compute; reflexivity|].
  assert (D1 : degree_at_most 1 w_lin) by (apply degree_test_spec; vm_compute; reflexivity). assert (D2 : degree_at_most 1 (SV wz)) by (apply degree_test_spec; vm_compute; reflexivity).
  split; [apply degree_exponents; intros f Hf L HN; exact (product_terms_degree w_lin (SV wz) 1 1 V1 V2 D1 D2 f Hf L HN)|].
  assert (G : forall s v, In s [w_lin; SV wz] -> has_var v s -> v_env v = Some 0%N).
  { intros s v [<-|[<-|[]]] (m & Hm & Hv); cbn in Hm; repeat (destruct Hm as [<-|Hm]; [cbn in Hv; repeat (destruct Hv as [<-|Hv]; [reflexivity|]); destruct Hv|]); destruct Hm. }
  intros s t v w Hs Ht Hv Hw _. rewrite (G s v Hs Hv), (G t w Ht Hw). reflexivity.
Qed.
End Q.

(** ** Refutations *)

(** environment 1 makes x_0 and x_1; x_1 is tracked in the default environment, which then hands out the ID 1 for ever *)
Lemma track_refuted : forall NN, NN = F64Num \/ NN = QNum -> exists (cs : list call) (i : N),
  map key (fst (run_calls empty_store cs)) = [(Some 1, 0); (Some 1, 1); (Some 0, i); (Some 0, i)]%N.
Proof. intros NN _. exists [NewContinuous [1%N]; NewContinuous [1%N]; Track 0 (continuous 1 1); NewContinuous []; NewContinuous []], 1%N. reflexivity. Qed.

(** two goroutines that read the length before either has tracked its variable *)
Lemma race_refuted : forall NN, NN = F64Num \/ NN = QNum -> exists (ps : list (list N)) (sched : list nat) (k : option N * N),
  map key (obtained (run_schedule (start ps) sched)) = [k; k].
Proof. intros NN _. exists [[0%N]; [0%N]], [0; 1; 0; 1; 0; 1; 0; 1]%nat, (Some 0, 0)%N. reflexivity. Qed.
(** the second goroutine appends after the first: the environment lists the same ID twice *)
Lemma race_tracked_refuted : forall NN, NN = F64Num \/ NN = QNum -> exists (ps : list (list N)) (sched : list nat) (i : N),
  map v_id (fst (run_schedule (start ps) sched) 0%N) = [i; i].
Proof. intros NN _. exists [[0%N]; [0%N]], [0; 1; 0; 1; 0; 0; 1; 1]%nat, 0%N. reflexivity. Qed.

(** x_0 of environment 1 plus x_0 of environment 2 is 2 x_0 *)
Lemma worlds_refuted : forall NN, NN = F64Num \/ NN = QNum -> exists (x y : var) (st st' : store) (s : scalar) (r : world),
  new_variable continuous empty_store [1%N] = (x, st) /\ new_variable continuous st [2%N] = (y, st') /\ key x <> key y
  /\ scalar_plus (SV x) (SV y) = Ok s /\ (eval_in r s =? eval_in r (SV x) + eval_in r (SV y)) = false.
Proof.
  set (r := fun NN (e : option N) (i : N) => match e with Some 1%N => @nofZ NN 3 | _ => @nofZ NN 5 end).
  assert (T : forall NN, run_ok (scalar_plus (SV (@continuous NN 0 1)) (SV (continuous 0 2))) (fun s => negb (eval_in (r NN) s =? eval_in (r NN) (SV (continuous 0 1)) + eval_in (r NN) (SV (continuous 0 2)))) = true ->
    exists (x y : var) (st st' : store) (s : scalar) (r : world),
    new_variable continuous empty_store [1%N] = (x, st) /\ new_variable continuous st [2%N] = (y, st') /\ key x <> key y
    /\ scalar_plus (SV x) (SV y) = Ok s /\ (eval_in r s =? eval_in r (SV x) + eval_in r (SV y)) = false).
  { intros NN H. apply run_ok_spec in H as (s & E & H). apply negb_true_iff in H. exists (continuous 0 1), (continuous 0 2). eexists _, _. exists s, (r NN).
    split; [reflexivity|]. split; [reflexivity|]. split; [discriminate|]. split; [exact E | exact H]. }
  both2 T.
Qed.
