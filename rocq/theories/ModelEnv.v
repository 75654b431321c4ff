(** * Model of environments and of the creation of variables

    Files: environment.go, basic_environment.go, variable.go (NewVariable, NewContinuousVariable, NewBinaryVariable), variable_vector.go
    (NewVariableVector), variable_matrix.go (NewVariableMatrix, NewVariableMatrixClassic).

    Every environment is a BasicEnvironment behind a pointer; other implementations of the interface are outside the model, and so are
    a nil Environment and writes to the exported field BasicEnvironment.Variables. *)

From Coq Require Import ZArith NArith Bool List String DecimalString.
From Verif Require Import Num Syntax.
Import ListNotations.

Section ModelEnv.
Context {NN : Num}.

(** The field Variables of the environment at every address.  The address 0 is &DefaultEnvironment (basic_environment.go:45).  An
    environment made by MakeBasicEnvironment (basic_environment.go:37-42) starts empty, hence so does every address.
    AllTrackedVariables (basic_environment.go:32-34) returns the list; GetName (basic_environment.go:11-13) is not used by any other function. *)
Definition store := N -> list var.
Definition empty_store : store := fun _ => [].
Definition set_env (st : store) (e : N) (l : list var) : store := fun a => if N.eqb a e then l else st a.

(** basic_environment.go:17-29 *)
Definition tracked (l : list var) (v : var) : bool := existsb (fun w => N.eqb (v_id w) (v_id v)) l.
Definition track (l : list var) (v : var) : bool * list var := if tracked l v then (false, l) else (true, l ++ [v]).

(** variable.go:388-392, variable_vector.go:379-383: one argument is the environment to use, otherwise the default *)
Definition current_env (envs : list N) : N := match envs with [e] => e | _ => 0%N end.

(** variable.go:403: fmt.Sprintf("x_%v", nextIdx) *)
Definition index_name (n : nat) : string := String.append "x_" (NilEmpty.string_of_uint (Nat.to_uint n)).

(** variable.go:398-405 and 429-436.  The length of a slice is below 2^63, so uint64(nextIdx) does not wrap. *)
Definition continuous (n : nat) (e : N) : var := mkVar (N.of_nat n) (nofZ (- 10 ^ 100)) (nofZ (10 ^ 100)) 67 (index_name n) (Some e).
Definition binary (n : nat) (e : N) : var := mkVar (N.of_nat n) n0 n1 66 (index_name n) (Some e).

(** variable.go:384-412 (mk = continuous), 415-443 (mk = binary); NewVariable, variable.go:379-381, is NewContinuousVariable *)
Definition new_variable (mk : nat -> N -> var) (st : store) (envs : list N) : var * store :=
  let e := current_env envs in
  let v := mk (List.length (st e)) e in
  (v, set_env st e (snd (track (st e) v))).

(** the loops of variable_vector.go:386-389 and variable_matrix.go:513-515 *)
Fixpoint new_variables (n : nat) (st : store) (e : N) : list var * store :=
  match n with
  | O => ([], st)
  | S n' =>
      let (v, st1) := new_variable continuous st [e] in
      let (vs, st2) := new_variables n' st1 e in
      (v :: vs, st2)
  end.

(** variable_vector.go:375-393 *)
Definition new_vector (n : Z) (st : store) (envs : list N) : list var * store := new_variables (Z.to_nat n) st (current_env envs).

Fixpoint new_rows (r c : nat) (st : store) (e : N) : list (list var) * store :=
  match r with
  | O => ([], st)
  | S r' =>
      let (row, st1) := new_variables c st e in
      let (rows, st2) := new_rows r' c st1 e in
      (row :: rows, st2)
  end.

(** variable_matrix.go:488-518; make([]Variable, nCols) panics if nCols < 0 and there is a row *)
Definition new_matrix (r c : Z) (st : store) (envs : list N) : res (list (list var)) * store :=
  match envs with
  | _ :: _ :: _ => (Panic POther, st)
  | _ =>
      if Z.ltb 0 r && Z.ltb c 0 then (Panic PRuntime, st)
      else let (m, st') := new_rows (Z.to_nat r) (Z.to_nat c) st (current_env envs) in (Ok m, st')
  end.

(** ** Histories of calls *)
Inductive call :=
  | NewContinuous (envs : list N)
  | NewBinary (envs : list N)
  | NewVector (n : Z) (envs : list N)
  | NewMatrix (r c : Z) (envs : list N)
  | Track (e : N) (v : var).

(** the variables a call returns; none if it panics *)
Definition run_call (st : store) (c : call) : list var * store :=
  match c with
  | NewContinuous envs => let (v, st') := new_variable continuous st envs in ([v], st')
  | NewBinary envs => let (v, st') := new_variable binary st envs in ([v], st')
  | NewVector n envs => new_vector n st envs
  | NewMatrix r c envs => match new_matrix r c st envs with (Ok m, st') => (List.concat m, st') | (Panic _, st') => ([], st') end
  | Track e v => ([], set_env st e (snd (track (st e) v)))
  end.
Fixpoint run_calls (st : store) (cs : list call) : list var * store :=
  match cs with
  | [] => ([], st)
  | c :: cs' => let (vs, st1) := run_call st c in let (ws, st2) := run_calls st1 cs' in (vs ++ ws, st2)
  end.

(** ** Interleavings

    A goroutine calls NewContinuousVariable once for each environment in a list.  One call is split at its accesses to the field
    Variables: the length (variable.go:395), the value over which TrackVariable iterates (basic_environment.go:19), the value to which
    it appends and the assignment of the result (basic_environment.go:27).  Simplification: these accesses are atomic and sequentially
    consistent; with the data race the Go memory model gives no such guarantee. *)
Inductive pc :=
  | Idle
  | HaveLen (n : nat)
  | NotFound (n : nat)
  | Loaded (n : nat) (l : list var).
Record goroutine := mkG { g_todo : list N; g_pc : pc; g_out : list var }.

Definition finish (g : goroutine) (v : var) : goroutine := mkG (tl (g_todo g)) Idle (g_out g ++ [v]).
Definition goto (g : goroutine) (p : pc) : goroutine := mkG (g_todo g) p (g_out g).

Definition step_g (st : store) (g : goroutine) : goroutine * store :=
  match g_todo g with
  | [] => (g, st)
  | e :: _ =>
      match g_pc g with
      | Idle => (goto g (HaveLen (List.length (st e))), st)
      | HaveLen n => if tracked (st e) (continuous n e) then (finish g (continuous n e), st) else (goto g (NotFound n), st)
      | NotFound n => (goto g (Loaded n (st e)), st)
      | Loaded n l => (finish g (continuous n e), set_env st e (l ++ [continuous n e]))
      end
  end.

(** goroutine [t] makes one step *)
Definition config := (store * list goroutine)%type.
Definition step (c : config) (t : nat) : config :=
  match nth_error (snd c) t with
  | None => c
  | Some g => let (g', st') := step_g (fst c) g in (st', set_nth t g' (snd c))
  end.
Definition run_schedule (c : config) (sched : list nat) : config := fold_left step sched c.

(** the goroutines before they start *)
Definition start (programs : list (list N)) : config := (empty_store, map (fun p => mkG p Idle []) programs).

End ModelEnv.
