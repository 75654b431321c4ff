(** * Properties of environments and of the creation of variables *)

From Coq Require Import ZArith NArith Bool List.
From Verif Require Import Num Syntax ModelScalar Spec Witness ModelEnv SpecEnv EnvProofs EnvWit.
Import ListNotations.
Local Open Scope num_scope.

(** ** C39 distinct IDs *)

(** missing: TrackVariable with a variable of another environment, for which the claim is false (C39_track_refuted) *)
Theorem C39_distinct_partial : forall {NN : Num} (cs : list call), tracks_own cs -> NoDup (map key (fst (run_calls empty_store cs))).
Proof. exact @history_distinct. Qed.
Print Assumptions C39_distinct_partial.
Example C39_distinct_nonvacuous (NN := QNum) : tracks_own w_history.
Proof. exact wit_history. Qed.
Example C39_distinct_ids (NN := QNum) : map key (fst (run_calls empty_store w_history)) =
  [(Some 1, 0); (Some 1, 1); (Some 0, 0); (Some 0, 1); (Some 0, 2); (Some 2, 0); (Some 2, 1); (Some 2, 2); (Some 2, 3); (Some 1, 2)]%N.
Proof. exact wit_history_ids. Qed.

(** an environment tracks exactly the variables handed out for it, in order *)
Theorem C39_tracked_partial : forall {NN : Num} (cs : list call) (e : N), tracks_own cs ->
  snd (run_calls empty_store cs) e = filter (fun v => match v_env v with Some a => N.eqb a e | None => false end) (fst (run_calls empty_store cs)).
Proof. exact @history_tracked. Qed.
Print Assumptions C39_tracked_partial.

(** the k-th variable of an environment has the ID k *)
Theorem C39_numbered_partial : forall {NN : Num} (cs : list call) (e : N) (k : nat) (v : var), tracks_own cs ->
  nth_error (snd (run_calls empty_store cs) e) k = Some v -> v_id v = N.of_nat k /\ v_env v = Some e.
Proof. exact @history_numbered. Qed.
Print Assumptions C39_numbered_partial.

(** names identify the variables of an environment *)
Theorem C39_names_partial : forall {NN : Num} (cs : list call) (v w : var), tracks_own cs ->
  In v (fst (run_calls empty_store cs)) -> In w (fst (run_calls empty_store cs)) -> v_env v = v_env w -> v_name v = v_name w -> v = w.
Proof. exact @history_names. Qed.
Print Assumptions C39_names_partial.

Theorem C39_vector_length : forall {NN : Num} (n : Z) (st : store) (envs : list N), length (fst (new_vector n st envs)) = Z.to_nat n.
Proof. exact @new_vector_length. Qed.
Print Assumptions C39_vector_length.
Theorem C39_matrix_dims : forall {NN : Num} (r c : Z) (st : store) (envs : list N) (m : list (list var)) (st' : store),
  new_matrix r c st envs = (Ok m, st') -> length m = Z.to_nat r /\ Forall (fun row => length row = Z.to_nat c) m.
Proof. exact @new_matrix_dims. Qed.
Print Assumptions C39_matrix_dims.

Theorem C39_track_refuted : forall NN, NN = F64Num \/ NN = QNum -> exists (cs : list call) (i : N),
  map key (fst (run_calls empty_store cs)) = [(Some 1, 0); (Some 1, 1); (Some 0, i); (Some 0, i)]%N.
Proof. exact track_refuted. Qed.
Print Assumptions C39_track_refuted.

(** ** C40 concurrent creation *)

(** missing: schedules in which two goroutines are inside a creation call on one environment (C40_race_refuted) *)
Theorem C40_exclusive_partial : forall {NN : Num} (ps : list (list N)) (sched : list nat),
  (forall pre post, sched = pre ++ post -> exclusive (run_schedule (start ps) pre)) ->
  NoDup (map key (obtained (run_schedule (start ps) sched)))
  /\ forall v, In v (obtained (run_schedule (start ps) sched)) -> exists e, v_env v = Some e /\ In v (fst (run_schedule (start ps) sched) e).
Proof. exact @exclusive_distinct. Qed.
Print Assumptions C40_exclusive_partial.
Example C40_exclusive_nonvacuous (NN := QNum) : forall pre post, [0; 0; 0; 0; 1; 1; 1; 1]%nat = pre ++ post -> exclusive (run_schedule (start [[0%N]; [0%N]]) pre).
Proof. exact wit_exclusive. Qed.
Example C40_exclusive_ids (NN := QNum) : map key (obtained (run_schedule (start [[0%N]; [0%N]]) [0; 0; 0; 0; 1; 1; 1; 1]%nat)) = [(Some 0, 0); (Some 0, 1)]%N.
Proof. exact wit_exclusive_ids. Qed.

(** goroutines that use environments of their own, every interleaving *)
Theorem C40_separate_partial : forall {NN : Num} (ps : list (list N)) (sched : list nat),
  (forall t u p q e, nth_error ps t = Some p -> nth_error ps u = Some q -> In e p -> In e q -> t = u) ->
  NoDup (map key (obtained (run_schedule (start ps) sched)))
  /\ forall v, In v (obtained (run_schedule (start ps) sched)) -> exists e, v_env v = Some e /\ In v (fst (run_schedule (start ps) sched) e).
Proof. exact @separate_distinct. Qed.
Print Assumptions C40_separate_partial.
Example C40_separate_nonvacuous (NN := QNum) :
  (forall t u p q e, nth_error [[0%N; 0%N]; [1%N]] t = Some p -> nth_error [[0%N; 0%N]; [1%N]] u = Some q -> In e p -> In e q -> t = u)
  /\ map key (obtained (run_schedule (start [[0%N; 0%N]; [1%N]]) [0; 1; 0; 1; 0; 1; 0; 1; 0; 0; 0; 0]%nat)) = [(Some 0, 0); (Some 0, 1); (Some 1, 0)]%N.
Proof. exact wit_separate. Qed.

Theorem C40_race_refuted : forall NN, NN = F64Num \/ NN = QNum -> exists (ps : list (list N)) (sched : list nat) (k : option N * N),
  map key (obtained (run_schedule (start ps) sched)) = [k; k].
Proof. exact race_refuted. Qed.
Print Assumptions C40_race_refuted.
Theorem C40_race_tracked_refuted : forall NN, NN = F64Num \/ NN = QNum -> exists (ps : list (list N)) (sched : list nat) (i : N),
  map v_id (fst (run_schedule (start ps) sched) 0%N) = [i; i].
Proof. exact race_tracked_refuted. Qed.
Print Assumptions C40_race_tracked_refuted.

(** ** C41 variables of different environments *)

(** missing: expressions in which two variables of different environments share an ID (C41_worlds_refuted); look-alike terms (C01) *)
Theorem C41_plus_partial : forall {NN : Num} (a b : scalar), ExactNum NN -> valid a -> valid b -> unambiguous (in_either a b) -> coherent [a; b] ->
  exists s, scalar_plus a b = Ok s /\ forall r, eval_in r s = eval_in r a + eval_in r b.
Proof. exact @plus_worlds. Qed.
Print Assumptions C41_plus_partial.
Example C41_plus_nonvacuous (NN := QNum) : valid w_lin /\ valid (SV wz) /\ unambiguous (in_either w_lin (SV wz)) /\ unambiguous_exponents (product_terms w_lin (SV wz)) /\ coherent [w_lin; SV wz].
Proof. exact wit_coherent. Qed.
Theorem C41_multiply_partial : forall {NN : Num} (a b : scalar), ExactNum NN -> valid a -> valid b -> unambiguous_exponents (product_terms a b) -> coherent [a; b] ->
  exists s, scalar_mul a b = Ok s /\ forall r, eval_in r s = eval_in r a * eval_in r b.
Proof. exact @mul_worlds. Qed.
Print Assumptions C41_multiply_partial.

Theorem C41_worlds_refuted : forall NN, NN = F64Num \/ NN = QNum -> exists (x y : var) (st st' : store) (s : scalar) (r : world),
  new_variable continuous empty_store [1%N] = (x, st) /\ new_variable continuous st [2%N] = (y, st') /\ key x <> key y
  /\ scalar_plus (SV x) (SV y) = Ok s /\ (eval_in r s =? eval_in r (SV x) + eval_in r (SV y)) = false.
Proof. exact worlds_refuted. Qed.
Print Assumptions C41_worlds_refuted.
