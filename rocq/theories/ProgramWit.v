(** * A program for the theorems about programs with DerivativeWrt *)

From Coq Require Import ZArith NArith Bool List.
From Verif Require Import Num Syntax ModelScalar Spec Witness ScalarWit ModelHeap SpecHeap SpecCopy SpecProgram HeapWit.
Import ListNotations.
Local Open Scope num_scope.

Section ProgramWit.
Local Existing Instance QNum.
(** x, y, x y, x y + x, (x y + x)^3, its first and second derivative by x, (x y + x)^2, and a sum *)
Definition w_prog : list instr := [IVar wx; IVar wy; IMul 0 1; IPlus 2 0; IPow 3 3; IDeriv 4 wx; IDeriv 5 wx; IMul 3 3; IPlus 6 7].
(** the cube and its first derivative are given up, everything else is known *)
Definition w_vals : list (option scalar) := match program_values [] w_prog with Some l => l | None => [] end.
Lemma wit_prog : exists vals, program_values [] w_prog = Some vals /\ map (fun o => match o with Some _ => true | None => false end) vals = [true; true; true; true; false; false; true; true; true] /\
  nth_error vals 6 = Some (Some (SP [mkMono (nofZ 6) [1; 3]%Z [wx; wy]; mkMono (nofZ 18) [1; 2]%Z [wx; wy]; mkMono (nofZ 18) [1; 1]%Z [wx; wy]; mkMono (nofZ 6) [1]%Z [wx]])).
Proof.
  exists w_vals. split; [|split; vm_compute; reflexivity].
  assert (E : (match program_values [] w_prog with Some _ => true | None => false end) = true) by (vm_compute; reflexivity).
  unfold w_vals. destruct (program_values [] w_prog); [reflexivity | discriminate E].
Qed.
Definition w_cube : scalar := nth 4 (history_values [] (firstn 5 w_prog)) (SK n0).
Lemma wit_prog_cube : exists s, nth_error (history_values [] (firstn 5 w_prog)) 4 = Some s /\ repeated wx (monomials_of s) = false /\ existsb (nonlinear wx) (monomials_of s) = true /\
  map (endangered wx s) (history_values [] (firstn 5 w_prog)) = [false; false; false; false; true].
Proof.
  exists w_cube. split; [|split; [vm_compute; reflexivity | split; vm_compute; reflexivity]].
  apply nth_error_nth'. assert (E : Nat.ltb 4 (length (history_values [] (firstn 5 w_prog))) = true) by (vm_compute; reflexivity). apply Nat.ltb_lt. exact E.
Qed.
(** the cube and its derivative share terms *)
Lemma wit_prog_shared (RT := doubling) : let (h, roots) := history empty_heap [] w_prog in
  length roots = 9%nat /\ exists s t m m', nth_error roots 4 = Some s /\ nth_error roots 5 = Some t /\ In m (monomials h s) /\ In m' (monomials h t) /\ share_exponents m m'.
Proof.
  pose (H := (length (snd (history empty_heap [] w_prog)) =? 9)%nat &&
    match nth_error (snd (history empty_heap [] w_prog)) 4, nth_error (snd (history empty_heap [] w_prog)) 5 with
    | Some s, Some t => existsb (fun m => existsb (fun m' => Nat.eqb (s_arr (h_exps m)) (s_arr (h_exps m')) && Nat.eqb (s_off (h_exps m)) (s_off (h_exps m')) && Nat.ltb 0 (s_len (h_exps m)) && Nat.ltb 0 (s_len (h_exps m')))
        (monomials (fst (history empty_heap [] w_prog)) t)) (monomials (fst (history empty_heap [] w_prog)) s)
    | _, _ => false
    end).
  assert (E : H = true) by (vm_compute; reflexivity). unfold H in E. clear H. destruct (history empty_heap [] w_prog) as [h roots]. cbn [fst snd] in E.
  apply andb_true_iff in E. destruct E as (E1 & E). split; [apply Nat.eqb_eq; exact E1|]. destruct (nth_error roots 4) as [s|]; [|discriminate E]. destruct (nth_error roots 5) as [t|]; [|discriminate E].
  apply existsb_exists in E. destruct E as (m & Hm & E). apply existsb_exists in E. destruct E as (m' & Hm' & E). exists s, t, m, m'. repeat (split; [first [reflexivity | assumption]|]).
  apply andb_true_iff in E. destruct E as (E & L'). apply andb_true_iff in E. destruct E as (E & L). apply andb_true_iff in E. destruct E as (A & O).
  apply Nat.eqb_eq in A. apply Nat.eqb_eq in O. apply Nat.ltb_lt in L. apply Nat.ltb_lt in L'. exists (s_arr (h_exps m)), (s_off (h_exps m)). split; (split; [assumption || reflexivity | Lia.lia]).
Qed.
End ProgramWit.
