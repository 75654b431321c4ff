(** * Specification: the kind of an expression that goes with its dimensions *)

From Coq Require Import List.
From Verif Require Import Num Syntax Spec SpecArr.

Section SpecKind.
Context {NN : Num}.
(** one entry: a scalar; one column: a vector; otherwise a matrix *)
Definition natural (d : nat * nat) (e : expr) : Prop :=
  match e with ES _ => d = (1, 1) | EV _ => snd d = 1 /\ fst d <> 1 | EM _ => snd d <> 1 end.
End SpecKind.
