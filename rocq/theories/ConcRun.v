(** * A goroutine alone does what ModelHeap.v says *)

From Coq Require Import ZArith NArith Bool List Lia.
From Verif Require Import Num Syntax ModelScalar ModelHeap SpecHeap ModelConc.
Import ListNotations.
Local Open Scope num_scope.

Section ConcRun.
Context {NN : Num} {RT : Runtime}.

(** all steps, without interruption *)
Fixpoint run {A} (p : proc A) (h : heap) : res A * heap :=
  match p with Done r => (r, h) | Act f k => run (k h) (f h) end.

Definition same {A} (x : M A) (p : proc A) : Prop := forall h, run p h = x h.

Lemma run_bind {A B} (p : proc A) (f : A -> proc B) h :
  run (bindP p f) h = match run p h with (Ok a, h') => run (f a) h' | (Panic e, h') => (Panic e, h') end.
Proof.
  revert h. induction p as [r|g k IH]; intro h; cbn [bindP run].
  - destruct r as [a|e]; reflexivity.
  - apply IH.
Qed.
Lemma same_bind {A B} (x : M A) (p : proc A) (f : A -> M B) (g : A -> proc B) : same x p -> (forall a, same (f a) (g a)) -> same (bindM x f) (bindP p g).
Proof.
  intros H K h. rewrite run_bind, (H h). unfold bindM. destruct (x h) as [[a|e] h']; [apply K | reflexivity].
Qed.
Lemma same_act {A} (x : M A) : same x (act x).
Proof. intro h. cbn [act run]. destruct (x h). reflexivity. Qed.
Lemma same_ret {A} (a : A) : same (ret a) (c_ret a).
Proof. intro h. reflexivity. Qed.
Lemma same_fail {A} p : same (fail p : M A) (c_fail p).
Proof. intro h. reflexivity. Qed.
Lemma same_forM {A S} (b : S -> A -> M S) (b' : S -> A -> proc S) l : (forall s a, same (b s a) (b' s a)) -> forall s, same (forM b l s) (c_forM b' l s).
Proof.
  intro H. induction l as [|a l IH]; intro s; cbn [forM c_forM]; [apply same_ret|]. apply same_bind; [apply H | exact IH].
Qed.
End ConcRun.

Create HintDb same discriminated.
Ltac smatch :=
  match goal with
  | |- same (match ?x with _ => _ end) _ => destruct x
  | |- same (if ?x then _ else _) _ => destruct x
  end.
Ltac same_tac :=
  repeat (cbv beta; cbn match; first
    [ apply same_ret | apply same_fail | apply same_act
    | apply same_bind; [|intro] | apply same_forM; intros ? ?
    | solve [auto with same nocore] | smatch ]).

Section Functions.
Context {NN : Num} {RT : Runtime}.

Lemma new_mono_run c es vs : same (new_mono c es vs) (c_new_mono c es vs).
Proof. unfold new_mono, c_new_mono. same_tac. Qed.
Lemma copy_run m : same (hmono_copy m) (cmono_copy m).
Proof. unfold hmono_copy, cmono_copy. same_tac. Qed.
Lemma pcopy_run p : same (hpoly_copy p) (cpoly_copy p).
Proof. unfold hpoly_copy, cpoly_copy. same_tac. Qed.
Hint Resolve new_mono_run copy_run pcopy_run : same.
Lemma var_to_mono_run v : same (hvar_to_mono v) (cvar_to_mono v).
Proof. unfold hvar_to_mono, cvar_to_mono. same_tac. Qed.
Lemma to_poly_run m : same (hmono_to_poly m) (cmono_to_poly m).
Proof. unfold hmono_to_poly, cmono_to_poly. same_tac. Qed.
Hint Resolve var_to_mono_run to_poly_run : same.
Lemma add_like_run acc m : same (h_add_like acc m) (c_add_like acc m).
Proof. unfold h_add_like, c_add_like. same_tac. Qed.
Hint Resolve add_like_run : same.
Lemma simplify_run p : same (h_simplify p) (c_simplify p).
Proof. unfold h_simplify, c_simplify. same_tac. Qed.
Hint Resolve simplify_run : same.
Lemma mono_simplified_run m : same (h_mono_simplified m) (c_mono_simplified m).
Proof. unfold h_mono_simplified, c_mono_simplified. same_tac. Qed.
Lemma poly_simplified_run p : same (h_poly_simplified p) (c_poly_simplified p).
Proof. unfold h_poly_simplified, c_poly_simplified. same_tac. Qed.
Hint Resolve mono_simplified_run poly_simplified_run : same.
Lemma simplified_run s : same (h_simplified s) (c_simplified s).
Proof. unfold h_simplified, c_simplified. same_tac. Qed.
Hint Resolve simplified_run : same.
Ltac go f g := unfold f, g; same_tac.
Lemma poly_plus_k_run p k : same (h_poly_plus_k p k) (c_poly_plus_k p k).
Proof. go @h_poly_plus_k @c_poly_plus_k. Qed.
Lemma poly_plus_var_run p k : same (h_poly_plus_var p k) (c_poly_plus_var p k).
Proof. go @h_poly_plus_var @c_poly_plus_var. Qed.
Lemma poly_plus_poly_run p k : same (h_poly_plus_poly p k) (c_poly_plus_poly p k).
Proof. go @h_poly_plus_poly @c_poly_plus_poly. Qed.
Hint Resolve poly_plus_k_run poly_plus_var_run poly_plus_poly_run : same.
Lemma poly_plus_mono_run p k : same (h_poly_plus_mono p k) (c_poly_plus_mono p k).
Proof. go @h_poly_plus_mono @c_poly_plus_mono. Qed.
Hint Resolve poly_plus_mono_run : same.
Lemma mono_plus_k_run p k : same (h_mono_plus_k p k) (c_mono_plus_k p k).
Proof. go @h_mono_plus_k @c_mono_plus_k. Qed.
Lemma mono_plus_var_run p k : same (h_mono_plus_var p k) (c_mono_plus_var p k).
Proof. go @h_mono_plus_var @c_mono_plus_var. Qed.
Lemma mono_plus_mono_run p k : same (h_mono_plus_mono p k) (c_mono_plus_mono p k).
Proof. go @h_mono_plus_mono @c_mono_plus_mono. Qed.
Lemma mono_plus_poly_run p k : same (h_mono_plus_poly p k) (c_mono_plus_poly p k).
Proof. go @h_mono_plus_poly @c_mono_plus_poly. Qed.
Hint Resolve mono_plus_k_run mono_plus_var_run mono_plus_mono_run mono_plus_poly_run : same.
Lemma var_plus_k_run p k : same (h_var_plus_k p k) (c_var_plus_k p k).
Proof. go @h_var_plus_k @c_var_plus_k. Qed.
Lemma var_plus_var_run p k : same (h_var_plus_var p k) (c_var_plus_var p k).
Proof. go @h_var_plus_var @c_var_plus_var. Qed.
Lemma var_plus_mono_run p k : same (h_var_plus_mono p k) (c_var_plus_mono p k).
Proof. go @h_var_plus_mono @c_var_plus_mono. Qed.
Lemma var_plus_poly_run p k : same (h_var_plus_poly p k) (c_var_plus_poly p k).
Proof. go @h_var_plus_poly @c_var_plus_poly. Qed.
Hint Resolve var_plus_k_run var_plus_var_run var_plus_mono_run var_plus_poly_run : same.
Lemma k_plus_run p k : same (h_k_plus p k) (c_k_plus p k).
Proof. go @h_k_plus @c_k_plus. Qed.
Hint Resolve k_plus_run : same.
Lemma plus_run p k : same (h_plus p k) (c_plus p k).
Proof. go @h_plus @c_plus. Qed.
Hint Resolve plus_run : same.
Lemma mono_mul_k_run p k : same (h_mono_mul_k p k) (c_mono_mul_k p k).
Proof. go @h_mono_mul_k @c_mono_mul_k. Qed.
Lemma mono_mul_var_run p k : same (h_mono_mul_var p k) (c_mono_mul_var p k).
Proof. go @h_mono_mul_var @c_mono_mul_var. Qed.
Lemma unique_run s : same (h_unique s) (c_unique s).
Proof. go @h_unique @c_unique. Qed.
Lemma degree_loop_run a b c d : same (h_degree_loop a b c d) (c_degree_loop a b c d).
Proof. go @h_degree_loop @c_degree_loop. Qed.
Hint Resolve mono_mul_k_run mono_mul_var_run unique_run degree_loop_run : same.
Lemma mono_mul_mono_run p k : same (h_mono_mul_mono p k) (c_mono_mul_mono p k).
Proof. go @h_mono_mul_mono @c_mono_mul_mono. Qed.
Hint Resolve mono_mul_mono_run : same.
Lemma poly_mul_k_run p k : same (h_poly_mul_k p k) (c_poly_mul_k p k).
Proof. unfold h_poly_mul_k, c_poly_mul_k, h_map_in_place, c_map_in_place. same_tac. Qed.
Lemma poly_mul_var_run p k : same (h_poly_mul_var p k) (c_poly_mul_var p k).
Proof. unfold h_poly_mul_var, c_poly_mul_var, h_map_in_place, c_map_in_place. same_tac. Qed.
Lemma poly_mul_mono_run p k : same (h_poly_mul_mono p k) (c_poly_mul_mono p k).
Proof. go @h_poly_mul_mono @c_poly_mul_mono. Qed.
Hint Resolve poly_mul_k_run poly_mul_var_run poly_mul_mono_run : same.
Lemma poly_mul_poly_run p k : same (h_poly_mul_poly p k) (c_poly_mul_poly p k).
Proof. go @h_poly_mul_poly @c_poly_mul_poly. Qed.
Lemma var_mul_k_run p k : same (h_var_mul_k p k) (c_var_mul_k p k).
Proof. go @h_var_mul_k @c_var_mul_k. Qed.
Lemma var_mul_var_run p k : same (h_var_mul_var p k) (c_var_mul_var p k).
Proof. go @h_var_mul_var @c_var_mul_var. Qed.
Lemma var_mul_mono_run p k : same (h_var_mul_mono p k) (c_var_mul_mono p k).
Proof. go @h_var_mul_mono @c_var_mul_mono. Qed.
Lemma var_mul_poly_run p k : same (h_var_mul_poly p k) (c_var_mul_poly p k).
Proof. go @h_var_mul_poly @c_var_mul_poly. Qed.
Lemma mono_mul_poly_run p k : same (h_mono_mul_poly p k) (c_mono_mul_poly p k).
Proof. go @h_mono_mul_poly @c_mono_mul_poly. Qed.
Hint Resolve poly_mul_poly_run var_mul_k_run var_mul_var_run var_mul_mono_run var_mul_poly_run mono_mul_poly_run : same.
Lemma k_mul_run p k : same (h_k_mul p k) (c_k_mul p k).
Proof. unfold h_k_mul, c_k_mul, as_HM, c_as_HM. same_tac. Qed.
Hint Resolve k_mul_run : same.
Lemma mul_run p k : same (h_mul p k) (c_mul p k).
Proof. unfold h_mul, c_mul, as_HM, c_as_HM. same_tac. Qed.
Lemma mul_float_run p k : same (h_mul_float p k) (c_mul_float p k).
Proof. unfold h_mul_float, c_mul_float, as_HM, c_as_HM. same_tac. Qed.
Hint Resolve mul_run mul_float_run : same.
Lemma minus_run p k : same (h_minus p k) (c_minus p k).
Proof. go @h_minus @c_minus. Qed.
Lemma power_loop_run b n : forall r, same (h_power_loop b n r) (c_power_loop b n r).
Proof. induction n as [|n IH]; intro r; cbn [h_power_loop c_power_loop]; same_tac. Qed.
Hint Resolve minus_run power_loop_run : same.
Lemma power_run p k : same (h_power p k) (c_power p k).
Proof. go @h_power @c_power. Qed.
Hint Resolve power_run : same.
Lemma var_substitute_run a b c : same (h_var_substitute a b c) (c_var_substitute a b c).
Proof. go @h_var_substitute @c_var_substitute. Qed.
Hint Resolve var_substitute_run : same.
Lemma mono_substitute_run a b c : same (h_mono_substitute a b c) (c_mono_substitute a b c).
Proof. unfold h_mono_substitute, c_mono_substitute, h_subst_loop, c_subst_loop. same_tac. Qed.
Hint Resolve mono_substitute_run : same.
Lemma poly_substitute_run a b c : same (h_poly_substitute a b c) (c_poly_substitute a b c).
Proof. go @h_poly_substitute @c_poly_substitute. Qed.
Hint Resolve poly_substitute_run : same.
Lemma substitute_run a b c : same (h_substitute a b c) (c_substitute a b c).
Proof. go @h_substitute @c_substitute. Qed.
Lemma mono_derivative_run a b : same (h_mono_derivative a b) (c_mono_derivative a b).
Proof. go @h_mono_derivative @c_mono_derivative. Qed.
Hint Resolve substitute_run mono_derivative_run : same.
Lemma poly_derivative_run a b : same (h_poly_derivative a b) (c_poly_derivative a b).
Proof. go @h_poly_derivative @c_poly_derivative. Qed.
Hint Resolve poly_derivative_run : same.
Lemma derivative_run a b : same (h_derivative a b) (c_derivative a b).
Proof. go @h_derivative @c_derivative. Qed.
Hint Resolve derivative_run : same.

Lemma exec_run roots i : same (exec roots i) (c_exec roots i).
Proof. unfold exec, c_exec. destruct i; same_tac. Qed.

Lemma attempt_run {A} (p : proc A) h : run (attempt p) h = (Ok (match fst (run p h) with Ok a => Some a | Panic _ => None end), snd (run p h)).
Proof.
  revert h. induction p as [r|f k IH]; intro h; cbn [attempt run]; [destruct r; reflexivity | apply IH].
Qed.

Theorem goroutine_run l : forall roots h, run (goroutine roots l) h = (let (h', roots') := history h roots l in (Ok roots', h')).
Proof.
  induction l as [|i l IH]; intros roots h; cbn [goroutine history]; [reflexivity|].
  rewrite run_bind, attempt_run, exec_run. destruct (exec roots i h) as [[t|e] h']; cbn [fst snd]; apply IH.
Qed.

End Functions.
