(** * Witnesses and refutations for vectors and matrices in memory *)

From Coq Require Import ZArith NArith Bool List Lia.
From Verif Require Import Num Syntax ModelScalar ModelShape ModelArith Spec SpecArr SpecAProg ModelAProg Base Witness ScalarWit ArrWit AProgTop AProgWit ModelHeap SpecHeap ModelHeapArr SpecHeapArr HeapProofs HeapWit HeapArrProofs.
Import ListNotations.
Local Open Scope num_scope.

Section Tests.
Context {NN : Num}.
Definition aharmlessb (vals : list expr) (i : ainstr) : bool :=
  match i with JDeriv k v => match nth_error vals k with Some (ES s) => linb v s | _ => true end | _ => true end.
Lemma aharmlessb_spec vals i : aharmlessb vals i = true -> aharmless vals i.
Proof. destruct i; cbn; intro H; try exact I. intros s Hs. rewrite Hs in H. apply linb_spec. exact H. Qed.
Fixpoint ahistoryb (vals : list expr) (l : list ainstr) : bool :=
  match l with [] => true | i :: l' => aharmlessb vals i && ahistoryb (match aexec_value vals i with Ok t => vals ++ [t] | Panic _ => vals end) l' end.
Lemma ahistoryb_spec l : forall vals, ahistoryb vals l = true -> aharmless_history vals l.
Proof. induction l as [|i l IH]; intros vals H; cbn [ahistoryb aharmless_history] in *; [exact I|]. apply andb_prop in H as [H1 H2]. split; [apply aharmlessb_spec; exact H1 | apply IH; exact H2]. Qed.
Lemma areached {RT : Runtime} l : aharmless_history [] l -> let (h, roots) := ahistory empty_heap [] l in
  all_legal_arrays h roots /\ separate_arrays h roots /\ map (rd_aexpr h) roots = ahistory_values [] l.
Proof.
  intro H. destruct (ahistory empty_heap [] l) as [h roots] eqn:E. destruct empty_legal_arrays as [Le Se]. destruct (ahistory_spec l _ _ _ _ Le Se H E) as (V & _ & L & S). auto.
Qed.
End Tests.

Section W.
Context {NN : Num}.
(** 2xy, 3x, the matrix (2xy 3x; 3x 2xy), its sum with x, the transpose, ... *)
Definition w_acalls : list ainstr :=
  [JMono (nofZ 2) [1; 1]%Z [wx; wy]; JMono (nofZ 3) [1]%Z [wx]; JMMatrix [[0; 1]; [1; 0]]%nat; JVar wx; JPlus 2 (OResult 3); JTranspose 4;
   JKMatrix [[nofZ 1; nofZ 2]; [nofZ 3; nofZ 4]]; JMultiply 6 (OResult 5); JVVector [wx; wy]; JMultiply 4 (OResult 8); JMinus 4 (OResult 5); JPower 2 2;
   JHStack [4; 5]%nat; JAt 4 0 1; JDeriv 13 wx; JSubst 4 wy 3; JConcretize [0; 13]%nat; JMVector [0; 1]%nat; JPlus 17 (OResult 8); JMultiply 6 (OResult 8); JSimplify 4].
End W.

Lemma wit_acalls (NN := QNum) : aharmless_history [] w_acalls.
Proof. apply ahistoryb_spec. vm_compute. reflexivity. Qed.
Lemma wit_acalls_number (NN := QNum) : length (ahistory_values [] w_acalls) = 21%nat /\ In (JDeriv 13 wx) w_acalls.
Proof. split; [vm_compute; reflexivity|]. do 14 right. left. reflexivity. Qed.
Definition w_aheap (NN := QNum) (RT := doubling) : heap := fst (ahistory empty_heap [] w_acalls).
Definition w_aroots (NN := QNum) (RT := doubling) : list aexpr := snd (ahistory empty_heap [] w_acalls).
Lemma wit_acall (NN := QNum) (RT := doubling) : all_legal_arrays w_aheap w_aroots /\ separate_arrays w_aheap w_aroots /\
  aharmless (map (rd_aexpr w_aheap) w_aroots) (JMultiply 4 (OResult 8)).
Proof.
  pose proof (areached (NN := QNum) (RT := doubling) w_acalls wit_acalls) as R. unfold w_aheap, w_aroots. destruct (ahistory empty_heap [] w_acalls) as [h roots]. cbn [fst snd].
  destruct R as (R1 & R2 & _). split; [exact R1|]. split; [exact R2 | exact I].
Qed.
Lemma wit_plain (NN := QNum) : Forall no_derivative_call (firstn 14 w_acalls).
Proof. repeat constructor. Qed.

(** (x y) times its transpose, plus ... : a program on expressions in memory *)
Definition leaf_at (NN := QNum) (k : nat) : aexpr := nth k w_aroots (AES (HK n0)).
Definition w_mprog (NN := QNum) : mprog := QAbove (QTransposed (QPlus (QTimes (QLeaf (leaf_at 6)) (QLeaf (leaf_at 8))) (QLeaf (leaf_at 17)))) (QLeaf (leaf_at 6)).
Lemma leaf_in (NN := QNum) k : (k < 21)%nat -> In (leaf_at k) w_aroots.
Proof. intro H. unfold leaf_at. apply nth_In. replace (length w_aroots) with 21%nat; [exact H | vm_compute; reflexivity]. Qed.
Definition w_program (NN := QNum) : aprog := program_of w_aheap w_mprog.
Lemma wit_mprog (NN := QNum) (RT := doubling) : all_legal_arrays w_aheap w_aroots /\ separate_arrays w_aheap w_aroots /\ leaves_in w_aroots w_mprog /\
  proper_leaves (program_of w_aheap w_mprog) /\ (adegree (program_of w_aheap w_mprog) <= 2)%Z /\ exists e h', run_in_memory w_mprog w_aheap = (Ok e, h').
Proof.
  destruct wit_acall as (H1 & H2 & _). split; [exact H1|]. split; [exact H2|]. split; [|split; [|split]].
  - cbn [leaves_in w_mprog]. split; [split; [split|]|]; apply leaf_in; lia.
  - apply (everyb_spec leafb); [exact leafb_spec | vm_compute; reflexivity].
  - intro H. vm_compute in H. discriminate H.
  - assert (T : match fst (run_in_memory w_mprog w_aheap) with Ok _ => true | Panic _ => false end = true) by (vm_compute; reflexivity).
    destruct (run_in_memory w_mprog w_aheap) as [[e|] h']; [eauto | discriminate T].
Qed.

(** ** DerivativeWrt of an entry *)

(** calls before the derivative, the entry, the variable: the expression in position [k] has changed *)
Definition changesb {NN : Num} {RT : Runtime} (l : list ainstr) (i k : nat) : bool :=
  let st1 := ahistory empty_heap [] l in let st2 := ahistory empty_heap [] (l ++ [JDeriv i wx]) in
  Nat.eqb (length (snd st2)) (S (length (snd st1))) &&
  match nth_error (snd st1) k with Some e => arrayb (2, 2)%nat (rd_aexpr (fst st1) e) && negb (value (at3 3 0 0) (rd_aexpr (fst st2) e) 0 0 =? value (at3 3 0 0) (rd_aexpr (fst st1) e) 0 0) | None => false end.
Lemma changes {NN : Num} {RT : Runtime} l i k : changesb l i k = true -> exists (h1 h2 : heap) (roots1 roots2 : list aexpr) (e d : aexpr) (r : assignment),
  ahistory empty_heap [] l = (h1, roots1) /\ ahistory empty_heap [] (l ++ [JDeriv i wx]) = (h2, roots2) /\ length roots2 = S (length roots1) /\ nth_error roots1 k = Some e /\
  valid_array (2, 2)%nat (rd_aexpr h1 e) /\ value r (rd_aexpr h2 e) 0 0 =? value r (rd_aexpr h1 e) 0 0 = false.
Proof.
  unfold changesb. intro H. destruct (ahistory empty_heap [] l) as [h1 roots1], (ahistory empty_heap [] (l ++ [JDeriv i wx])) as [h2 roots2]. cbn [fst snd] in H.
  apply andb_prop in H as [H1 H2]. apply Nat.eqb_eq in H1. destruct (nth_error roots1 k) as [e|] eqn:E; [|discriminate H2]. apply andb_prop in H2 as [H2 H3].
  exists h1, h2, roots1, roots2, e, e, (at3 3 0 0). split; [reflexivity|]. split; [reflexivity|]. split; [exact H1|]. split; [exact E|]. split; [apply arrayb_spec; exact H2 | apply negb_true_iff; exact H3].
Qed.

(** M.Plus(1).At(0,0).DerivativeWrt(x) changes M *)
Lemma sum_entry_refuted : forall NN, NN = F64Num \/ NN = QNum -> exists (RT : Runtime) (v : var) (h1 h2 : heap) (roots1 roots2 : list aexpr) (e : aexpr) (r : assignment),
  let l := [JMono n1 [2]%Z [v]; JMMatrix [[0; 0]; [0; 0]]%nat; JPlus 1 (OFloat n1); JAt 2 0 0] in
  ahistory empty_heap [] l = (h1, roots1) /\ ahistory empty_heap [] (l ++ [JDeriv 3 v]) = (h2, roots2) /\ length roots2 = S (length roots1) /\ nth_error roots1 1 = Some e /\
  valid_array (2, 2)%nat (rd_aexpr h1 e) /\ value r (rd_aexpr h2 e) 0 0 =? value r (rd_aexpr h1 e) 0 0 = false.
Proof.
  assert (T : forall (NN : Num) (RT : Runtime), changesb [JMono n1 [2]%Z [wx]; JMMatrix [[0; 0]; [0; 0]]%nat; JPlus 1 (OFloat n1); JAt 2 0 0] 3 1 = true ->
    exists (RT : Runtime) (v : var) (h1 h2 : heap) (roots1 roots2 : list aexpr) (e : aexpr) (r : assignment),
    let l := [JMono n1 [2]%Z [v]; JMMatrix [[0; 0]; [0; 0]]%nat; JPlus 1 (OFloat n1); JAt 2 0 0] in
    ahistory empty_heap [] l = (h1, roots1) /\ ahistory empty_heap [] (l ++ [JDeriv 3 v]) = (h2, roots2) /\ length roots2 = S (length roots1) /\ nth_error roots1 1 = Some e /\
    valid_array (2, 2)%nat (rd_aexpr h1 e) /\ value r (rd_aexpr h2 e) 0 0 =? value r (rd_aexpr h1 e) 0 0 = false).
  { intros NN RT H. apply changes in H. destruct H as (h1 & h2 & roots1 & roots2 & e & _ & r & H). exists RT, wx, h1, h2, roots1, roots2, e, r. exact H. }
  intros NN [->| ->]; [apply (T F64Num doubling) | apply (T QNum doubling)]; vm_compute; reflexivity.
Qed.
(** M.Transpose().At(0,1).DerivativeWrt(x) changes M *)
Lemma transposed_entry_refuted : forall NN, NN = F64Num \/ NN = QNum -> forall RT : Runtime,
  exists (v : var) (h1 h2 : heap) (roots1 roots2 : list aexpr) (e : aexpr) (r : assignment),
  let l := [JMono n1 [2]%Z [v]; JMMatrix [[0; 0]; [0; 0]]%nat; JTranspose 1; JAt 2 0 1] in
  ahistory empty_heap [] l = (h1, roots1) /\ ahistory empty_heap [] (l ++ [JDeriv 3 v]) = (h2, roots2) /\ length roots2 = S (length roots1) /\ nth_error roots1 1 = Some e /\
  valid_array (2, 2)%nat (rd_aexpr h1 e) /\ value r (rd_aexpr h2 e) 0 0 =? value r (rd_aexpr h1 e) 0 0 = false.
Proof.
  assert (T : forall (NN : Num) (RT : Runtime), changesb [JMono n1 [2]%Z [wx]; JMMatrix [[0; 0]; [0; 0]]%nat; JTranspose 1; JAt 2 0 1] 3 1 = true ->
    exists (v : var) (h1 h2 : heap) (roots1 roots2 : list aexpr) (e : aexpr) (r : assignment),
    let l := [JMono n1 [2]%Z [v]; JMMatrix [[0; 0]; [0; 0]]%nat; JTranspose 1; JAt 2 0 1] in
    ahistory empty_heap [] l = (h1, roots1) /\ ahistory empty_heap [] (l ++ [JDeriv 3 v]) = (h2, roots2) /\ length roots2 = S (length roots1) /\ nth_error roots1 1 = Some e /\
    valid_array (2, 2)%nat (rd_aexpr h1 e) /\ value r (rd_aexpr h2 e) 0 0 =? value r (rd_aexpr h1 e) 0 0 = false).
  { intros NN RT H. apply changes in H. destruct H as (h1 & h2 & roots1 & roots2 & e & _ & r & H). exists wx, h1, h2, roots1, roots2, e, r. exact H. }
  intros NN [->| ->] RT; apply T; vm_compute; reflexivity.
Qed.

(** ** What programs compute *)
Theorem program_value_in_memory {NN : Num} {RT : Runtime} h roots p e h' : ExactNum NN -> all_legal_arrays h roots -> separate_arrays h roots -> leaves_in roots p ->
  proper_leaves (program_of h p) -> (adegree (program_of h p) <= 2)%Z -> run_in_memory p h = (Ok e, h') ->
  (forall o, In o roots -> rd_aexpr h' o = rd_aexpr h o) /\
  forall r i j, (i < fst (dims_of (program_of h p)))%nat -> (j < snd (dims_of (program_of h p)))%nat -> value r (rd_aexpr h' e) i j = meaning r (program_of h p) i j.
Proof.
  intros EX Le Se L P D X. destruct (program_in_memory h roots p (Ok e) h' Le Se L X) as (K & V & _). split; [exact K|].
  cbn [as_array_value] in V. symmetry in V. exact (arun_value_degree2 (program_of h p) (rd_aexpr h' e) EX P D V).
Qed.
