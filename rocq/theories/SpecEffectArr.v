(** * What sums of vectors and matrices list, entry by entry *)

From Coq Require Import ZArith NArith Bool List.
From Verif Require Import Num Syntax Spec SpecEffect SpecArr.
Import ListNotations.

Section SpecEffectArr.
Context {NN : Num}.

(** the entry at (i,j), a scalar at every position *)
Definition bentry (e : expr) (i j : nat) : scalar := match e with ES s => s | _ => entry e i j end.

(** the sums in which the library leaves like terms as they are: those computed by a MonomialMatrix *)
Definition lists_only (a b : expr) : bool :=
  match a, b with
  | EM (MM _), _ => true
  | ES (SK _), EM (MM _) => true
  | _, _ => false
  end.

End SpecEffectArr.
