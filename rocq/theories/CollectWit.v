(** * Witnesses for sums, products and powers term by term *)

From Coq Require Import ZArith NArith Bool List.
From Verif Require Import Num Syntax ModelScalar Spec SpecEffect SpecCollect Witness EffectWit.
Import ListNotations.
Local Open Scope num_scope.

Section Q.
Let NN := QNum.
Existing Instance NN.

Definition the_coefficients (s : scalar) (l : list num) : bool := Nat.eqb (length (terms s)) (length l) && forallb (fun x => m_coeff (fst x) =? snd x) (combine (terms s) l).

(** x + y, x - y, x^2 - y x *)
Definition w_sum : scalar := SP [mkMono n1 [1%Z] [wx]; mkMono n1 [1%Z] [wy]].
Definition w_dif : scalar := SP [mkMono n1 [1%Z] [wx]; mkMono (- n1) [1%Z] [wy]].
Definition w_mix : scalar := SP [mkMono n1 [2%Z] [wx]; mkMono (- n1) [1%Z; 1%Z] [wy; wx]].

Lemma wit_exact_plus : valid w_sum /\ valid w_dif /\ summed w_sum w_dif = terms w_sum ++ terms w_dif
  /\ map m_vars (collect (summed w_sum w_dif)) = [[wx]] /\ the_coefficients (simplest (summed w_sum w_dif)) [nofZ 2] = true /\ the_coefficients (simplest (summed w_dif w_dif)) [nofZ 2; nofZ (-2)] = true.
Proof. split; [unfold w_sum; wvalid|]. split; [unfold w_dif; wvalid|]. repeat split; vm_compute; reflexivity. Qed.
Lemma wit_exact_minus : valid w_sum /\ valid w_dif /\ map m_vars (terms (subtracted w_sum w_dif)) = [[wy]] /\ the_coefficients (subtracted w_sum w_dif) [nofZ 2] = true.
Proof. split; [unfold w_sum; wvalid|]. split; [unfold w_dif; wvalid|]. split; vm_compute; reflexivity. Qed.
Lemma wit_exact_multiply : valid w_sum /\ valid w_dif /\ valid w_mix
  /\ map m_vars (terms (multiplied w_sum w_dif)) = [[wx]; [wy]] /\ map m_exps (terms (multiplied w_sum w_dif)) = [[2%Z]; [2%Z]] /\ the_coefficients (multiplied w_sum w_dif) [n1; - n1] = true
  /\ length (expanded w_sum w_dif) = 4
  /\ (eval (at3 1 2 0) (multiplied w_sum w_dif) =? eval (at3 1 2 0) w_sum * eval (at3 1 2 0) w_dif) = true
  /\ (eval (at3 1 2 0) (multiplied w_mix w_sum) =? eval (at3 1 2 0) w_mix * eval (at3 1 2 0) w_sum) = false.
Proof. split; [unfold w_sum; wvalid|]. split; [unfold w_dif; wvalid|]. split; [unfold w_mix; wvalid|]. repeat split; vm_compute; reflexivity. Qed.
Lemma wit_exact_power : valid w_sum /\ map m_vars (terms (powered w_sum 2)) = [[wx]; [wy; wx]; [wy]] /\ the_coefficients (powered w_sum 2) [n1; nofZ 2; n1] = true /\ length (expanded_power w_sum 2) = 4
  /\ (eval (at3 1 2 0) (powered w_sum 2) =? nofZ 9) = true /\ (eval (at3 1 2 0) (powered w_sum 3) =? nofZ 27) = false.
Proof. split; [unfold w_sum; wvalid|]. repeat split; vm_compute; reflexivity. Qed.
Lemma wit_exact_simplify : valid (SP (terms w_sum ++ terms w_dif)) /\ length (terms (SP (terms w_sum ++ terms w_dif))) = 4 /\ map m_vars (terms (simplest (terms w_sum ++ terms w_dif))) = [[wx]] /\ the_coefficients (simplest (terms w_sum ++ terms w_dif)) [nofZ 2] = true.
Proof. split; [unfold w_sum, w_dif; cbn [terms app]; wvalid|]. repeat split; vm_compute; reflexivity. Qed.
End Q.
