(** * Witnesses for substitution term by term *)

From Coq Require Import ZArith NArith Bool List.
From Verif Require Import Num Syntax ModelScalar Spec SpecEffect SpecCollect SpecSub Base ScalarFacts Witness ScalarWit EffectWit CollectWit.
Import ListNotations.
Local Open Scope num_scope.

Section Q.
Let NN := QNum.
Existing Instance NN.

(** a variable with the ID of x that belongs to another environment, and one that belongs to none *)
Definition w_other : var := mkVar (v_id wx) (v_lower wx) (v_upper wx) (v_type wx) (v_name wx) (Some 7%N).
Definition w_free : var := mkVar (v_id wx) (v_lower wx) (v_upper wx) (v_type wx) (v_name wx) None.
(** x^2 + 3 y, x^3 *)
Definition w_sq : scalar := SP [mkMono n1 [2%Z] [wx]; mkMono (nofZ 3) [1%Z] [wy]].
Definition w_cube : scalar := SM (mkMono n1 [3%Z] [wx]).
Definition w_swapped (w : var) : scalar := if var_eqb w wx then SV wy else if var_eqb w wy then SV wx else SV w.

Lemma wit_sub_exact : valid w_sq /\ valid_var wx /\ valid w_sum /\ same_environment wx w_sq
  /\ map m_vars (terms (substituted wx w_sum w_sq)) = [[wx]; [wy; wx]; [wy]; [wy]] /\ the_coefficients (substituted wx w_sum w_sq) [n1; nofZ 2; n1; nofZ 3] = true
  /\ replaced wx w_sum w_other = SV w_other /\ replaced wx w_sum w_free = SV w_free /\ replaced w_free w_sum wx = SV wx /\ replaced wx w_sum wx = w_sum.
Proof.
  split; [unfold w_sq; wvalid|]. split; [wvalid|]. split; [unfold w_sum; wvalid|]. split; [|repeat split; vm_compute; reflexivity].
  intros m w Hm Hw _. cbn [terms w_sq] in Hm. destruct Hm as [<-|[<-|[]]]; destruct Hw as [<-|[]]; reflexivity.
Qed.
Lemma wit_sub_when : valid w_cube /\ same_environment wx w_cube /\ length (expansion (replaced wx w_sum) w_sq) = 5 /\ length (expansion (replaced wx w_sum) w_cube) = 8
  /\ (eval (at3 1 2 0) (substituted wx w_sum w_sq) =? nofZ 15) = true /\ (eval (at3 1 2 0) (substituted wx w_sum w_cube) =? nofZ 27) = false.
Proof.
  split; [unfold w_cube; wvalid|]. split; [|repeat split; vm_compute; reflexivity]. intros m w Hm Hw _. destruct Hm as [<-|[]]; destruct Hw as [<-|[]]; reflexivity.
Qed.
Lemma if2 {A} (b c : bool) (x y z : A) : b = false -> c = false -> (if b then x else if c then y else z) = z.
Proof. intros -> ->. reflexivity. Qed.
Lemma wit_map_exact : valid w_sq /\ valid_map w_swap /\ (forall w e, In (w, ES e) w_swap -> w_swapped w = e) /\ (forall w, (forall e, ~ In (w, e) w_swap) -> w_swapped w = SV w)
  /\ map m_vars (terms (mapped w_swapped w_sq)) = [[wy]; [wx]] /\ map m_exps (terms (mapped w_swapped w_sq)) = [[2%Z]; [1%Z]] /\ the_coefficients (mapped w_swapped w_sq) [n1; nofZ 3] = true
  /\ consistent w_swapped w_sq /\ length (expansion w_swapped w_sq) = 2.
Proof.
  split; [unfold w_sq; wvalid|]. split; [exact (proj1 (proj2 wit_swap))|]. split.
  { intros w e [H|[H|[]]]; injection H as <- <-; vm_compute; reflexivity. }
  split.
  { intros w H. unfold w_swapped. destruct (var_eqb w wx) eqn:E1; [apply (var_eqb_eq w wx _) in E1; subst w; destruct (H (ES (SV wy)) (or_introl eq_refl))|].
    destruct (var_eqb w wy) eqn:E2; [apply (var_eqb_eq w wy _) in E2; subst w; destruct (H (ES (SV wx)) (or_intror (or_introl eq_refl)))|]. exact (if2 _ _ _ _ _ E1 E2). }
  split; [vm_compute; reflexivity|]. split; [vm_compute; reflexivity|]. split; [vm_compute; reflexivity|]. split; [|vm_compute; reflexivity].
  intros m w m' w' Hm Hw Hm' Hw' E. destruct Hm as [<-|[<-|[]]]; destruct Hw as [<-|[]]; destruct Hm' as [<-|[<-|[]]]; destruct Hw' as [<-|[]]; (reflexivity || discriminate E).
Qed.
End Q.
