(** * Witnesses for the entrywise sums, differences and multiples of arrays *)

From Coq Require Import ZArith NArith Bool List Lia.
From Verif Require Import Num Syntax ModelScalar Spec SpecConv SpecEffect Base ScalarValid Witness ScalarWit ModelShape ModelArith SpecArr SpecEffectArr SpecRound SpecPoint ArrWit EffectWit EffectArrWit Round RoundWit ScalarOps.
Import ListNotations.
Local Open Scope num_scope.

Section W.
Context {NN : Num}.
Fixpoint unlike (l : list Monomial) : bool := match l with [] => true | m :: r => forallb (fun m' => negb (alike m m')) r && unlike r end.
Lemma unlike_spec l : Forall valid_mono l -> unlike l = true -> forall l1 m1 l2 m2 l3, l = l1 ++ m1 :: l2 ++ m2 :: l3 -> ~ look_alike m1 m2.
Proof.
  intros V H l1. revert l V H. induction l1 as [|x l1 IH]; intros l V H m1 l2 m2 l3 ->; cbn [app unlike] in *; apply andb_true_iff in H; destruct H as [H1 H2].
  - inversion V as [|? ? V1 V2]; subst. apply Forall_app in V2. destruct V2 as [_ V2]. inversion V2 as [|? ? V3 _]; subst.
    rewrite forallb_app in H1. apply andb_true_iff in H1. destruct H1 as [_ H1]. cbn [forallb] in H1. apply andb_true_iff in H1. destruct H1 as [H1 _].
    intro L. apply (Effect.alike_look m1 m2 V1 V3) in L. rewrite L in H1. discriminate H1.
  - inversion V as [|? ? V1 V2]; subst. exact (IH _ V2 H2 m1 l2 m2 l3 eq_refl).
Qed.
Lemma collectedb_spec s : valid s -> unlike (terms s) = true -> collected s.
Proof. intros V H. unfold collected. apply unlike_spec; [apply valid_terms_iff; exact V | exact H]. Qed.
Definition all_entries (d : nat * nat) (t : nat -> nat -> bool) : bool := forallb (fun i => forallb (t i) (seq 0 (snd d))) (seq 0 (fst d)).
Lemma all_entries_spec d t : all_entries d t = true -> forall i j, i < fst d -> j < snd d -> t i j = true.
Proof.
  intros H i j Hi Hj. unfold all_entries in H. rewrite forallb_forall in H. specialize (H i ltac:(apply in_seq; lia)). rewrite forallb_forall in H. apply H, in_seq. lia.
Qed.
Lemma entries_collected d e : valid_array d e -> all_entries d (fun i j => unlike (terms (entry e i j))) = true -> forall i j, i < fst d -> j < snd d -> collected (entry e i j).
Proof.
  intros (_ & _ & _ & V) H i j Hi Hj. apply collectedb_spec; [exact (V i j Hi Hj)|]. exact (all_entries_spec d (fun i j => unlike (terms (entry e i j))) H i j Hi Hj).
Qed.

(** (0.1 x y + 1, 0.2 y x + x), the same in the other order, and (0.3 x y, 0.1 x y + 1) *)
Definition w_pa : expr := EV (VP [terms w_r1; terms w_r2]).
Definition w_pb : expr := EV (VP [terms w_r2; terms w_r1]).
Definition w_pc : expr := EV (VP [terms w_r3; terms w_r1]).
(** the first as a row, and (0.1 x y + 0.2 y x + 0.3 x y, 0.3 x y) *)
Definition w_pd : expr := EM (MP [[terms w_r1; terms w_r2]]).
Definition w_pe : expr := EV (VP [terms w_r4; terms w_r3]).
(** a row of x and x *)
Definition w_pf : expr := EM (MM [[var_to_mono wx; var_to_mono wx]]).
End W.

Lemma wit_point_plus (NN := QNum) : valid_array (2, 1)%nat w_ev1 /\ valid_array (2, 1)%nat w_ev2 /\ means (GExpr w_ev2) = Some w_ev2 /\ broadcast w_ev1 w_ev2 (2, 1)%nat (2, 1)%nat (2, 1)%nat
  /\ lists_only w_ev1 w_ev2 = false /\ exists e, expr_plus w_ev1 (GExpr w_ev2) = Ok e /\ Nat.eqb (length (terms (entry e 0 0))) 3 = true.
Proof.
  split; [ar|]. split; [ar|]. split; [reflexivity|]. split; [left; split; reflexivity|]. split; [reflexivity|]. apply some_array. vm_compute. reflexivity.
Qed.

Lemma wit_point_plus64 (NN := F64Num) : valid_array (2, 1)%nat w_pa /\ valid_array (2, 1)%nat w_pb /\ means (GExpr w_pb) = Some w_pb /\ broadcast w_pa w_pb (2, 1)%nat (2, 1)%nat (2, 1)%nat
  /\ lists_only w_pa w_pb = false /\ number64 w_pa /\ number64 w_pb /\ valid_mono w_rm
  /\ (forall i j, i < 2 -> j < 1 -> collected (bentry w_pa i j) /\ collected (bentry w_pb i j))
  /\ exists e, expr_plus w_pa (GExpr w_pb) = Ok e /\ one_is (coefficients w_rm (entry e 0 0)) (w_tenth 1 + w_tenth 2) (w_tenth 3) = true.
Proof.
  assert (Va : valid_array (2, 1)%nat w_pa) by ar. assert (Vb : valid_array (2, 1)%nat w_pb) by ar.
  split; [exact Va|]. split; [exact Vb|]. split; [reflexivity|]. split; [left; split; reflexivity|]. split; [reflexivity|]. split; [exact I|]. split; [exact I|]. split; [exact w_rm_valid|].
  split; [|apply some_array; vm_compute; reflexivity].
  intros i j Hi Hj. split; [apply (entries_collected (2, 1)%nat w_pa Va); [vm_compute; reflexivity | exact Hi | exact Hj] | apply (entries_collected (2, 1)%nat w_pb Vb); [vm_compute; reflexivity | exact Hi | exact Hj]].
Qed.

Lemma wit_point_number64 (NN := F64Num) : valid_array (1, 1)%nat (ES (SK (w_tenth 2))) /\ broadcast (ES (SK (w_tenth 2))) w_pa (1, 1)%nat (2, 1)%nat (2, 1)%nat /\ number64 (ES (SK (w_tenth 2)))
  /\ lists_only (ES (SK (w_tenth 2))) w_pa = false /\ exists e, expr_plus (ES (SK (w_tenth 2))) (GExpr w_pa) = Ok e /\ one_is (coefficients w_rm (entry e 0 0)) (w_tenth 1) (w_tenth 3) = true.
Proof. split; [ar|]. split; [right; left; split; [exact I | reflexivity]|]. split; [vm_compute; reflexivity|]. split; [reflexivity|]. apply some_array. vm_compute. reflexivity. Qed.

Lemma wit_point_simplify (NN := F64Num) : valid_array (2, 1)%nat w_pe /\ valid_mono w_rm
  /\ exists e, expr_simplified w_pe = Ok e /\ one_is (coefficients w_rm (entry e 0 0)) (w_tenth 1 + w_tenth 2 + w_tenth 3) (w_tenth 1 + (w_tenth 2 + w_tenth 3)) = true.
Proof. split; [ar|]. split; [exact w_rm_valid|]. apply some_array. vm_compute. reflexivity. Qed.

Lemma wit_point_multiply (NN := F64Num) : finite64 (nofZ 3) /\ valid_array (1, 2)%nat w_pd /\ (forall i j, i < 1 -> j < 2 -> collected (entry w_pd i j))
  /\ means (GFloat (nofZ 3)) = Some (ES (SK (nofZ 3))) /\ valid_mono w_rm
  /\ exists e, expr_mul w_pd (GFloat (nofZ 3)) = Ok e /\ one_is (coefficients w_rm (entry e 0 0)) (w_tenth 1 * nofZ 3) (w_tenth 3) = true.
Proof.
  split; [split; [vm_compute; reflexivity | exact I]|]. assert (V : valid_array (1, 2)%nat w_pd) by ar. split; [exact V|].
  split; [intros i j Hi Hj; apply (entries_collected (1, 2)%nat w_pd V); [vm_compute; reflexivity | exact Hi | exact Hj]|]. split; [reflexivity|]. split; [exact w_rm_valid|].
  apply some_array. vm_compute. reflexivity.
Qed.

Lemma wit_point_minus (NN := F64Num) : valid_array (2, 1)%nat w_pc /\ valid_array (2, 1)%nat w_pb /\ means (GExpr w_pb) = Some w_pb /\ broadcast w_pc w_pb (2, 1)%nat (2, 1)%nat (2, 1)%nat
  /\ list_differences w_pc w_pb = false /\ number64 w_pc /\ (forall i j, i < 2 -> j < 1 -> collected (entry w_pb i j) /\ float64s (entry w_pb i j)) /\ valid_mono w_rm
  /\ (forall i j, i < 2 -> j < 1 -> collected (bentry w_pc i j)) /\ (exists e, minus w_pc w_pb = Ok e)
  /\ exists e, expr_minus w_pc (GExpr w_pb) = Ok e /\ one_is (coefficients w_rm (entry e 0 0)) (w_tenth 3 - w_tenth 2) (w_tenth 1) = true.
Proof.
  assert (Va : valid_array (2, 1)%nat w_pc) by ar. assert (Vb : valid_array (2, 1)%nat w_pb) by ar.
  split; [exact Va|]. split; [exact Vb|]. split; [reflexivity|]. split; [left; split; reflexivity|]. split; [reflexivity|]. split; [exact I|].
  split. { intros i j Hi Hj. split; [apply (entries_collected (2, 1)%nat w_pb Vb); [vm_compute; reflexivity | exact Hi | exact Hj]|]. apply float64b_spec.
    apply (all_entries_spec (2, 1)%nat (fun i j => float64b (entry w_pb i j))); [vm_compute; reflexivity | exact Hi | exact Hj]. }
  split; [exact w_rm_valid|]. split; [intros i j Hi Hj; apply (entries_collected (2, 1)%nat w_pc Va); [vm_compute; reflexivity | exact Hi | exact Hj]|].
  split; [destruct (some_array (minus w_pc w_pb) (fun _ => true)) as (e & E & _); [vm_compute; reflexivity | exists e; exact E]|]. apply some_array. vm_compute. reflexivity.
Qed.

Lemma point_refuted : forall NN, NN = F64Num \/ NN = QNum -> exists (a b e : expr) (s : scalar), valid_array (1, 2)%nat a /\ valid_array (1, 1)%nat b /\ broadcast a b (1, 2)%nat (1, 1)%nat (1, 2)%nat
  /\ expr_plus a (GExpr b) = Ok e /\ sum_of_entries a b 0 0 = Ok s /\ ~ same_terms (entry e 0 0) s.
Proof.
  assert (T : forall NN : Num, arrayb (1, 2)%nat w_pf && arrayb (1, 1)%nat (ES (SV wx)) && match expr_plus w_pf (GExpr (ES (SV wx))), sum_of_entries w_pf (ES (SV wx)) 0 0 with
      Ok e, Ok s => Nat.eqb (length (terms (entry e 0 0))) 2 && Nat.eqb (length (terms s)) 1 | _, _ => false end = true ->
    exists (a b e : expr) (s : scalar), valid_array (1, 2)%nat a /\ valid_array (1, 1)%nat b /\ broadcast a b (1, 2)%nat (1, 1)%nat (1, 2)%nat
    /\ expr_plus a (GExpr b) = Ok e /\ sum_of_entries a b 0 0 = Ok s /\ ~ same_terms (entry e 0 0) s).
  { intros NN H. apply andb_true_iff in H. destruct H as [H H3]. apply andb_true_iff in H. destruct H as [H1 H2]. exists w_pf, (ES (SV wx)).
    destruct (expr_plus w_pf (GExpr (ES (SV wx)))) as [e|]; [|discriminate H3]. destruct (sum_of_entries w_pf (ES (SV wx)) 0 0) as [s|]; [|discriminate H3].
    exists e, s. split; [apply arrayb_spec; exact H1|]. split; [apply arrayb_spec; exact H2|]. split; [right; right; split; [exact I | reflexivity]|]. split; [reflexivity|]. split; [reflexivity|].
    apply andb_true_iff in H3. destruct H3 as [L1 L2]. apply Nat.eqb_eq in L1, L2. intros [E|(c & d & E1 & E2 & _)]; [rewrite E in L1; congruence | rewrite E1 in L1; discriminate L1]. }
  intros NN [->| ->]; apply T; vm_compute; reflexivity.
Qed.
