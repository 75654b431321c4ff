(** * Theorems: calls of several goroutines on shared expressions *)

From Coq Require Import ZArith NArith Bool List.
From Verif Require Import Num Syntax ModelScalar Spec Witness ModelHeap SpecHeap ModelConc SpecConc HeapWit ConcTop ConcWit.
Import ListNotations.
Local Open Scope num_scope.

(** ** C44 concurrent calls on shared expressions give the results they give alone *)

(** whatever the schedule, the shared expressions keep their values, and every goroutine that has finished holds what its calls give on values.
    missing: shared monomials with spare capacity (C44_race_refuted), DerivativeWrt (C08_receiver_refuted) *)
Theorem C44_products_partial : forall {NN : Num} {RT : Runtime} (h : heap) (roots : list hscalar) (programs : list (list instr)),
  all_legal h roots -> no_spare_variables h roots -> Forall (Forall not_derivative) programs ->
  forall schedule, let c := run_steps (launch h roots programs) schedule in
    (forall s, In s roots -> rd (fst c) s = rd h s) /\
    forall t l x, nth_error programs t = Some l -> finished c t x ->
      exists roots', x = Ok roots' /\ map (rd (fst c)) roots' = history_values (map (rd h) roots) l.
Proof. exact @concurrent_products. Qed.
Print Assumptions C44_products_partial.
Example C44_products_nonvacuous (NN := QNum) (RT := doubling) : (all_legal w_ch w_croots /\ separate w_ch w_croots) /\ no_spare_variables w_ch w_croots /\ Forall (Forall not_derivative) w_programs.
Proof. exact (conj wit_setup_legal (conj wit_no_spare wit_programs)). Qed.
Example C44_products_finish (NN := QNum) (RT := doubling) :
  forall t, (t < 3)%nat -> exists r, finished (run_steps (launch w_ch w_croots w_programs) w_turns) t (Ok r) /\ (6 < length r)%nat.
Proof. exact wit_finish. Qed.

(** the same for expressions made by earlier calls *)
Theorem C44_products_after_calls_partial : forall {NN : Num} {RT : Runtime} (setup : list instr) (programs : list (list instr)) (h : heap) (roots : list hscalar),
  harmless_history [] setup -> history empty_heap [] setup = (h, roots) -> no_spare_variables h roots -> Forall (Forall not_derivative) programs ->
  forall schedule t l x, nth_error programs t = Some l -> finished (run_steps (launch h roots programs) schedule) t x ->
    exists roots', x = Ok roots' /\ map (rd (fst (run_steps (launch h roots programs) schedule))) roots' = history_values [] (setup ++ l).
Proof. exact @concurrent_products_after. Qed.
Print Assumptions C44_products_after_calls_partial.
Example C44_products_after_calls_nonvacuous (NN := QNum) : harmless_history [] w_setup.
Proof. exact wit_setup. Qed.

(** sums, differences and simplification need no condition on capacities *)
Theorem C44_sums : forall {NN : Num} {RT : Runtime} (setup : list instr) (programs : list (list instr)) (h : heap) (roots : list hscalar),
  harmless_history [] setup -> history empty_heap [] setup = (h, roots) -> Forall (Forall additive) programs ->
  forall schedule t l x, nth_error programs t = Some l -> finished (run_steps (launch h roots programs) schedule) t x ->
    exists roots', x = Ok roots' /\ map (rd (fst (run_steps (launch h roots programs) schedule))) roots' = history_values [] (setup ++ l).
Proof. exact @concurrent_sums_after. Qed.
Print Assumptions C44_sums.
Example C44_sums_nonvacuous (NN := QNum) : Forall (Forall additive) w_sums /\ harmless_history [] w_spare.
Proof. exact wit_sums. Qed.
Example C44_sums_spare (NN := QNum) (RT := doubling) : let (h, roots) := history empty_heap [] w_spare in ~ no_spare_variables h roots.
Proof. exact wit_sums_spare. Qed.
Example C44_sums_finish (NN := QNum) (RT := doubling) : let (h, roots) := history empty_heap [] w_spare in
  forall t, (t < 2)%nat -> exists r, finished (run_steps (launch h roots w_sums) (concat (repeat [0; 1; 1]%nat 500))) t (Ok r) /\ (7 < length r)%nat.
Proof. exact wit_sums_finish. Qed.
Theorem C44_sums_heap : forall {NN : Num} {RT : Runtime} (h : heap) (roots : list hscalar) (programs : list (list instr)),
  all_legal h roots -> separate h roots -> Forall (Forall additive) programs ->
  forall schedule, let c := run_steps (launch h roots programs) schedule in
    (forall s, In s roots -> rd (fst c) s = rd h s) /\
    forall t l x, nth_error programs t = Some l -> finished c t x ->
      exists roots', x = Ok roots' /\ map (rd (fst c)) roots' = history_values (map (rd h) roots) l.
Proof. exact @concurrent_sums. Qed.
Print Assumptions C44_sums_heap.
Example C44_sums_heap_nonvacuous (NN := QNum) (RT := doubling) : all_legal w_ch w_croots /\ separate w_ch w_croots.
Proof. exact wit_setup_legal. Qed.

(** a goroutine that gets enough turns finishes, whatever the others do *)
Theorem C44_finishes : forall {NN : Num} {RT : Runtime} (h : heap) (roots : list hscalar) (programs : list (list instr)),
  all_legal h roots -> (no_spare_variables h roots /\ Forall (Forall not_derivative) programs) \/ Forall (Forall additive) programs ->
  forall t, (t < length programs)%nat -> exists n, forall schedule, (n <= turns schedule t)%nat -> exists x, finished (run_steps (launch h roots programs) schedule) t x.
Proof. exact @concurrent_finishes. Qed.
Print Assumptions C44_finishes.
Example C44_finishes_nonvacuous (NN := QNum) (RT := doubling) : no_spare_variables w_ch w_croots /\ Forall (Forall not_derivative) w_programs.
Proof. exact (conj wit_no_spare wit_programs). Qed.

(** FALSE in general: two goroutines multiply the same monomial (x y) z by u and by w; one of the calls panics, alone both succeed *)
Theorem C44_race_refuted : forall NN, NN = F64Num \/ NN = QNum -> forall gi gv gm (RT := go_growth gi gv gm),
  exists (setup : list instr) (programs : list (list instr)) (h : heap) (roots roots' : list hscalar) (schedule : list nat) (t : nat) (l : list instr),
    history empty_heap [] setup = (h, roots) /\ Forall not_derivative setup /\ Forall (Forall not_derivative) programs /\ (forall s, In s roots -> valid (rd h s)) /\
    nth_error programs t = Some l /\ finished (run_steps (launch h roots programs) schedule) t (Ok roots') /\
    length roots' = length roots /\ length (history_values [] (setup ++ l)) = S (length roots).
Proof. exact race_refuted. Qed.
Print Assumptions C44_race_refuted.
