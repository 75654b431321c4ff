(** * Specification: environments and variables of several environments *)

From Coq Require Import ZArith NArith Bool List.
From Verif Require Import Num Syntax Spec ModelEnv.
Import ListNotations.
Local Open Scope num_scope.

Section SpecEnv.
Context {NN : Num}.

(** what distinguishes two variables for the library: the environment and the ID *)
Definition key (v : var) : option N * N := (v_env v, v_id v).

(** every TrackVariable call is given a variable returned by an earlier call on the same environment *)
Definition tracks_own (cs : list call) : Prop :=
  forall pre e v post, cs = pre ++ Track e v :: post -> In v (fst (run_calls empty_store pre)) /\ v_env v = Some e.

(** the goroutine is inside a call on environment [e] *)
Definition inside (g : goroutine) (e : N) : Prop := g_pc g <> Idle /\ exists rest, g_todo g = e :: rest.
(** no two goroutines are inside calls on the same environment *)
Definition exclusive (c : config) : Prop :=
  forall t u gt gu e, nth_error (snd c) t = Some gt -> nth_error (snd c) u = Some gu -> inside gt e -> inside gu e -> t = u.

(** all variables obtained by all goroutines *)
Definition obtained (c : config) : list var := concat (map g_out (snd c)).

(** ** Values when every environment has its own variables *)
Definition world := option N -> N -> num.
Fixpoint factors_in (r : world) (vs : list var) (es : list Z) : num :=
  match vs, es with
  | v :: vs', e :: es' => npow (r (v_env v) (v_id v)) (Z.to_nat e) * factors_in r vs' es'
  | _, _ => n1
  end.
Definition mono_in (r : world) (m : Monomial) : num := m_coeff m * factors_in r (m_vars m) (m_exps m).
Fixpoint poly_in (r : world) (p : list Monomial) : num := match p with [] => n0 | m :: p' => mono_in r m + poly_in r p' end.
Definition eval_in (r : world) (s : scalar) : num :=
  match s with SK k => k | SV v => r (v_env v) (v_id v) | SM m => mono_in r m | SP p => poly_in r p end.

(** [v] is a factor of a term of [s] *)
Definition has_var (v : var) (s : scalar) : Prop := exists m, In m (terms s) /\ In v (m_vars m).
(** among the variables of the expressions, equal IDs mean equal environments *)
Definition coherent (ss : list scalar) : Prop :=
  forall s t v w, In s ss -> In t ss -> has_var v s -> has_var w t -> v_id v = v_id w -> v_env v = v_env w.

End SpecEnv.
