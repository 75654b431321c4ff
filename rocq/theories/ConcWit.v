(** * Witnesses and counterexamples for concurrent calls *)

From Coq Require Import ZArith NArith Bool List Lia.
From Verif Require Import Num Syntax ModelScalar Spec ModelHeap SpecHeap ModelConc SpecConc HeapProofs ConcTop Witness ScalarWit SCWit ArrWit HeapWit.
Import ListNotations.
Local Open Scope num_scope.

Definition finishedb {NN : Num} (c : cconfig) (t : nat) (f : list hscalar -> bool) : bool := match nth_error (snd c) t with Some (Done (Ok l)) => f l | _ => false end.
Lemma finishedb_spec {NN : Num} c t f : finishedb c t f = true -> exists l, finished c t (Ok l) /\ f l = true.
Proof. unfold finishedb, finished. destruct (nth_error (snd c) t) as [[[l|]|]|]; try discriminate. intro H. exists l. split; [reflexivity | exact H]. Qed.

Section W.
Local Existing Instance QNum.
Local Existing Instance doubling.

(** x*y, a literal 3 x^2 z, their sum; two goroutines work on all of them *)
Definition w_setup : list instr := [IVar wx; IVar wy; IMul 0 1; IMono (nofZ 3) [2; 1]%Z [wx; wz]; IPlus 2 3].
Definition w_programs : list (list instr) := [[IMul 2 3; IMul 4 5; IPlus 6 4]; [IMul 2 2; IMul 4 4; ISubst 6 wx 4]; [IMul 4 3; IPow 2 3]].
Definition w_turns : list nat := concat (repeat [0; 1; 2]%nat 4000).
Definition w_ch : heap := fst (history empty_heap [] w_setup).
Definition w_croots : list hscalar := snd (history empty_heap [] w_setup).

Lemma wit_setup : harmless_history [] w_setup.
Proof. cbn. tauto. Qed.
Lemma wit_setup_legal : all_legal w_ch w_croots /\ separate w_ch w_croots.
Proof.
  pose proof (reached w_setup wit_setup) as R. unfold w_ch, w_croots. destruct (history empty_heap [] w_setup) as [h roots]. cbn [fst snd].
  destruct R as (R1 & R2 & _). split; assumption.
Qed.
Definition no_spareb (h : heap) (roots : list hscalar) : bool := forallb (fun s => forallb (fun m => Nat.eqb (s_cap (h_vars m)) (s_len (h_vars m))) (monomials h s)) roots.
Lemma no_spareb_spec h roots : no_spareb h roots = true -> no_spare_variables h roots.
Proof.
  unfold no_spareb. intros H s m Hs Hm. rewrite forallb_forall in H. specialize (H s Hs). rewrite forallb_forall in H. apply Nat.eqb_eq. exact (H m Hm).
Qed.
Lemma wit_no_spare : no_spare_variables w_ch w_croots.
Proof. apply no_spareb_spec. vm_compute. reflexivity. Qed.
Lemma wit_programs : Forall (Forall not_derivative) w_programs.
Proof. repeat constructor. Qed.
Lemma wit_finish : forall t, (t < 3)%nat -> exists r, finished (run_steps (launch w_ch w_croots w_programs) w_turns) t (Ok r) /\ (6 < length r)%nat.
Proof.
  assert (K : forallb (fun t => finishedb (run_steps (launch w_ch w_croots w_programs) w_turns) t (fun l => Nat.ltb 6 (length l))) [0; 1; 2]%nat = true) by (vm_compute; reflexivity).
  rewrite forallb_forall in K. intros t Ht. assert (I : In t [0; 1; 2]%nat) by (cbn; lia). destruct (finishedb_spec _ _ _ (K t I)) as (l & H1 & H2). exists l. split; [exact H1 | apply Nat.ltb_lt; exact H2].
Qed.

(** (x y) z has spare capacity; sums of it *)
Definition w_spare : list instr := [IVar wx; IVar wy; IVar wz; IMul 0 1; IMul 3 2; IPlus 3 4].
Definition w_sums : list (list instr) := [[IPlus 4 5; IMinus 6 3; ISimplify 7]; [IMinus 5 4; IPlus 6 6]].
Lemma wit_sums : Forall (Forall additive) w_sums /\ harmless_history [] w_spare.
Proof. split; [repeat constructor | cbn; tauto]. Qed.
Lemma wit_sums_spare : let (h, roots) := history empty_heap [] w_spare in ~ no_spare_variables h roots.
Proof.
  destruct (history empty_heap [] w_spare) as [h roots] eqn:E. intro N.
  assert (K : forallb (fun s => forallb (fun m => Nat.eqb (s_cap (h_vars m)) (s_len (h_vars m))) (monomials (fst (history empty_heap [] w_spare)) s)) (snd (history empty_heap [] w_spare)) = false) by (vm_compute; reflexivity).
  rewrite E in K. cbn [fst snd] in K. apply not_true_iff_false in K. apply K. apply forallb_forall. intros s Hs. apply forallb_forall. intros m Hm. apply Nat.eqb_eq. exact (N s m Hs Hm).
Qed.
Lemma wit_sums_finish : let (h, roots) := history empty_heap [] w_spare in
  forall t, (t < 2)%nat -> exists r, finished (run_steps (launch h roots w_sums) (concat (repeat [0; 1; 1]%nat 500))) t (Ok r) /\ (7 < length r)%nat.
Proof.
  assert (K : forallb (fun t => finishedb (run_steps (launch (fst (history empty_heap [] w_spare)) (snd (history empty_heap [] w_spare)) w_sums) (concat (repeat [0; 1; 1]%nat 500))) t (fun l => Nat.ltb 7 (length l))) [0; 1]%nat = true) by (vm_compute; reflexivity).
  destruct (history empty_heap [] w_spare) as [h roots]. cbn [fst snd] in K.
  rewrite forallb_forall in K. intros t Ht. assert (I : In t [0; 1]%nat) by (cbn; lia). destruct (finishedb_spec _ _ _ (K t I)) as (l & H1 & H2). exists l. split; [exact H1 | apply Nat.ltb_lt; exact H2].
Qed.
End W.

(** the race: (x y) z has room for one more variable, which both goroutines use *)
Definition r_setup {NN : Num} : list instr := [IVar wx; IVar wy; IVar wz; IMul 0 1; IMul 3 2; IMono n1 [1]%Z [wvar 3]; IMono n1 [1]%Z [wvar 4]].
Definition r_programs {NN : Num} : list (list instr) := [[IMul 4 5]; [IMul 4 6]].
Definition r_turns : list nat := repeat 0%nat 6 ++ repeat 1%nat 6 ++ repeat 0%nat 60 ++ repeat 1%nat 60.


(** any runtime that grows slices of 0, 1 and 2 variables (64 bytes each) to capacity 1, 2 and 4, as Go's does *)
Definition go_growth (gi gv gm : nat -> nat -> nat) : Runtime :=
  mkRuntime gi (fun c n => match c, n with 0, 1 => 0 | 1, 2 => 0 | 2, 3 => 1 | _, _ => gv c n end)%nat gm.

Lemma race_refuted : forall NN, NN = F64Num \/ NN = QNum -> forall gi gv gm (RT := go_growth gi gv gm),
  exists (setup : list instr) (programs : list (list instr)) (h : heap) (roots roots' : list hscalar) (schedule : list nat) (t : nat) (l : list instr),
    history empty_heap [] setup = (h, roots) /\ Forall not_derivative setup /\ Forall (Forall not_derivative) programs /\ (forall s, In s roots -> valid (rd h s)) /\
    nth_error programs t = Some l /\ finished (run_steps (launch h roots programs) schedule) t (Ok roots') /\
    length roots' = length roots /\ length (history_values [] (setup ++ l)) = S (length roots).
Proof.
  assert (T : forall (NN : Num) (RT : Runtime), let st := history empty_heap [] r_setup in
    forallb (fun s => validb (rd (fst st) s)) (snd st) && finishedb (run_steps (launch (fst st) (snd st) r_programs) r_turns) 0 (fun l => Nat.eqb (length l) (length (snd st)))
    && Nat.eqb (length (history_values [] (r_setup ++ [IMul 4 5]))) (S (length (snd st))) = true ->
    exists (setup : list instr) (programs : list (list instr)) (h : heap) (roots roots' : list hscalar) (schedule : list nat) (t : nat) (l : list instr),
    history empty_heap [] setup = (h, roots) /\ Forall not_derivative setup /\ Forall (Forall not_derivative) programs /\ (forall s, In s roots -> valid (rd h s)) /\
    nth_error programs t = Some l /\ finished (run_steps (launch h roots programs) schedule) t (Ok roots') /\
    length roots' = length roots /\ length (history_values [] (setup ++ l)) = S (length roots)).
  { intros NN RT st H. apply andb_prop in H as [H H3]. apply andb_prop in H as [H1 H2]. destruct (finishedb_spec _ _ _ H2) as (roots' & F1 & F2).
    exists r_setup, r_programs, (fst st), (snd st), roots', r_turns, 0%nat, [IMul 4 5]. split; [unfold st; destruct (history empty_heap [] r_setup); reflexivity|].
    split; [repeat constructor|]. split; [repeat constructor|]. split; [intros s Hs; apply validb_spec; rewrite forallb_forall in H1; exact (H1 s Hs)|].
    split; [reflexivity|]. split; [exact F1|]. split; apply Nat.eqb_eq; assumption. }
  intros NN [->| ->] gi gv gm RT; apply (T _ RT); vm_compute; reflexivity.
Qed.
