(** * Concrete variables and expressions used in the examples and refutations *)

From Coq Require Import ZArith NArith Bool List Sorted.
From Coq Require String.
From Verif Require Import Num Syntax Spec SpecProg.
Import ListNotations.

Section Witness.
Context {NN : Num}.

(** the variable number [i] of environment 0, as NewVariable makes it: bounds -1e100, 1e100, type 'C' *)
Definition wvar (i : N) : var :=
  mkVar i (nofZ (- 10 ^ 100)) (nofZ (10 ^ 100)) 67 String.EmptyString (Some 0%N).
Definition wx := wvar 0.
Definition wy := wvar 1.
Definition wz := wvar 2.

(** the assignment x = a, y = b, z = c, all others 0 *)
Definition at3 (a b c : Z) : assignment :=
  fun i => match i with 0%N => nofZ a | 1%N => nofZ b | 2%N => nofZ c | _ => n0 end.

Definition px := PVar wx.
Definition py := PVar wy.
Definition pz := PVar wz.

(** 3 x^2 y + x *)
Definition w_cubic : scalar := SP [mkMono (nofZ 3) [2%Z; 1%Z] [wx; wy]; mkMono n1 [1%Z] [wx]].
(** 2 x^2 y *)
Definition w_cubic2 : scalar := SM (mkMono (nofZ 2) [2%Z; 1%Z] [wx; wy]).
(** x y + 1 *)
Definition w_quad : scalar := SP [mkMono n1 [1%Z; 1%Z] [wx; wy]; mkMono n1 [] []].
(** 2 y x + 3 x *)
Definition w_quad2 : scalar := SP [mkMono (nofZ 2) [1%Z; 1%Z] [wy; wx]; mkMono (nofZ 3) [1%Z] [wx]].
(** x^3 + 5 *)
Definition w_uni : scalar := SP [mkMono n1 [3%Z] [wx]; mkMono (nofZ 5) [] []].
(** 2 x^2 *)
Definition w_uni2 : scalar := SM (mkMono (nofZ 2) [2%Z] [wx]).
(** 2 x + 3 y + 7 *)
Definition w_lin : scalar := SP [mkMono (nofZ 7) [] []; mkMono (nofZ 2) [1%Z] [wx]; mkMono (nofZ 3) [1%Z] [wy]].
(** x + x, not simplified *)
Definition w_twice : scalar := SP [mkMono n1 [1%Z] [wx]; mkMono n1 [1%Z] [wx]].

End Witness.

(** decides validity of concrete expressions *)
Ltac wvalid :=
  repeat match goal with
  | |- valid _ => cbn
  | |- valid_poly _ => split; [discriminate|]
  | |- valid_mono _ => unfold valid_mono; cbn [m_exps m_vars length map]
  | |- valid_var _ => vm_compute; reflexivity
  | |- _ /\ _ => split
  | |- Forall _ [] => constructor
  | |- Forall _ (_ :: _) => constructor
  | |- NoDup _ => repeat constructor; cbn; intuition discriminate
  | |- (_ <= _)%Z => vm_compute; discriminate
  | |- True => exact I
  | |- _ = _ => reflexivity
  end.

(** decides degree bounds and single-variable claims of concrete expressions *)
Ltac wdeg :=
  unfold degree_at_most, only_variable; vm_compute terms;
  repeat (apply Forall_cons || apply Forall_nil);
  first [ vm_compute; discriminate | intros i H; vm_compute in H; vm_compute; intuition congruence ].
