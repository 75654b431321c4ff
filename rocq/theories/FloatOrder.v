(** * Sums of products of short numbers do not depend on the order of summation *)

From Coq Require Import ZArith NArith Bool List Lia Permutation.
From Coq Require Import QArith Qcanon.
From Coq.Floats Require Import SpecFloat.
From Verif Require Import Num Syntax ModelScalar Spec SpecProg SpecExact FloatExact FloatSim FloatRun FloatProg ModelArith SpecExactArr FloatArr FloatArrMul.
Import ListNotations.
Local Open Scope Z_scope.

Definition dot (l : list (@num F * @num F)) : Qc := fold_right (fun p acc => (exactly (fst p) * exactly (snd p) + acc)%Qc) 0%Qc l.
Lemma dot_app l l' : dot (l ++ l') = (dot l + dot l')%Qc.
Proof.
  induction l as [|p l IH].
  - change (dot l' = (0 + dot l')%Qc). ring.
  - change ((exactly (fst p) * exactly (snd p) + dot (l ++ l'))%Qc = ((exactly (fst p) * exactly (snd p) + dot l) + dot l')%Qc). rewrite IH. ring.
Qed.
Lemma dot_perm l l' : Permutation l l' -> dot l = dot l'.
Proof.
  induction 1 as [|p l l' H IH|p q l|l l' l'' H1 IH1 H2 IH2]; [reflexivity | | | congruence].
  - change ((exactly (fst p) * exactly (snd p) + dot l)%Qc = (exactly (fst p) * exactly (snd p) + dot l')%Qc). rewrite IH. reflexivity.
  - change ((exactly (fst q) * exactly (snd q) + (exactly (fst p) * exactly (snd p) + dot l))%Qc = (exactly (fst p) * exactly (snd p) + (exactly (fst q) * exactly (snd q) + dot l))%Qc). ring.
Qed.

Definition ok_pair (ka na kb nb : Z) (p : @num F * @num F) : Prop := cs ka na (fst p) /\ cs kb nb (snd p).
Lemma add_up_exact ka na kb nb t : 0 <= ka -> 0 <= kb -> ka + kb <= 1000 -> 0 <= na -> 0 <= nb ->
  Forall (ok_pair ka na kb nb) (products t) -> Z.of_nat (length (products t)) * (na * nb) <= 2 ^ 53 ->
  (exists z, grid (ka + kb) z (add_up t) /\ Z.abs z <= Z.of_nat (length (products t)) * (na * nb)) /\ exactly (add_up t) = dot (products t).
Proof.
  intros Hka Hkb Hk Na Nb. assert (N : 0 <= na * nb) by nia. induction t as [|x y|a IHa b IHb]; cbn [products add_up length app]; intros H L.
  - split; [exists 0; split; [reflexivity | lia] | reflexivity].
  - apply Forall_inv in H. destruct H as [(zx & Gx & Bx) (zy & Gy & By)]. cbn [fst snd] in *. assert (B : Z.abs (zx * zy) <= na * nb) by (rewrite Z.abs_mul; nia).
    cbn [length products] in L. split; [exists (zx * zy); split; [apply mul_exact; try assumption; lia | lia]|].
    change (@nmul F x y) with (SFmul 53 1024 x y). rewrite (rd_mul ka kb zx zy x y) by (assumption || lia). change ((exactly x * exactly y)%Qc = (exactly x * exactly y + 0)%Qc). ring.
  - apply Forall_app in H as [Ha Hb]. rewrite app_length in *. destruct (IHa Ha) as [(za & Ga & Ba) Ea]; [nia|]. destruct (IHb Hb) as [(zb & Gb & Bb) Eb]; [nia|].
    assert (B : Z.abs (za + zb) <= Z.of_nat (length (products a) + length (products b)) * (na * nb)) by nia.
    split; [exists (za + zb); split; [apply add_exact; try assumption; lia | exact B]|].
    change (@nadd F (add_up a) (add_up b)) with (SFadd 53 1024 (add_up a) (add_up b)). rewrite (rd_add (ka + kb) za zb) by (assumption || lia). rewrite dot_app, Ea, Eb. reflexivity.
Qed.

Fixpoint left_to_right (acc : summation) (l : list (@num F * @num F)) : summation := match l with [] => acc | p :: l' => left_to_right (Together acc (Product (fst p) (snd p))) l' end.
Lemma left_to_right_products l : forall acc, products (left_to_right acc l) = products acc ++ l.
Proof. induction l as [|[x y] l IH]; intro acc; cbn [left_to_right]; [rewrite app_nil_r; reflexivity|]. rewrite IH. cbn [products fst snd]. rewrite <- app_assoc. reflexivity. Qed.
Lemma left_to_right_sum l : forall acc, add_up (left_to_right acc l) = fold_left (fun a xy => @nadd F a (@nmul F (fst xy) (snd xy))) l (add_up acc).
Proof. induction l as [|p l IH]; intro acc; [reflexivity|]. cbn [left_to_right fold_left]. rewrite IH. reflexivity. Qed.

Lemma ok_pairs ka na kb nb r c : Forall (cs ka na) r -> Forall (cs kb nb) c -> Forall (ok_pair ka na kb nb) (combine r c).
Proof.
  intros Hr. revert c. induction Hr as [|x r Hx Hr IH]; intros [|y c] Hc; try constructor; [split; [exact Hx | exact (Forall_inv Hc)] | apply IH; exact (Forall_inv_tail Hc)].
Qed.

(** any order of summation gives the number that the model computes from left to right *)
Lemma any_order_exact ka na kb nb r c t : 0 <= ka -> 0 <= kb -> ka + kb <= 1000 -> 0 <= na <= 2 ^ 53 -> 0 <= nb <= 2 ^ 53 ->
  Forall (fun x => short ka na (SK x)) r -> Forall (fun x => short kb nb (SK x)) c -> Z.of_nat (length r) * (na * nb) <= 2 ^ 53 ->
  Permutation (products t) (combine r c) -> exactly (add_up t) = exactly (@sum_products F r c).
Proof.
  intros Hka Hkb Hk Na Nb Hr Hc L P.
  assert (Pr : Forall (ok_pair ka na kb nb) (combine r c)).
  { apply ok_pairs; eapply Forall_impl; [|exact Hr| |exact Hc]; intros x; apply short_sc; lia. }
  assert (LL : Z.of_nat (length (combine r c)) * (na * nb) <= 2 ^ 53) by (rewrite combine_length; assert (Z.of_nat (Nat.min (length r) (length c)) <= Z.of_nat (length r)) by lia; assert (0 <= na * nb) by nia; nia).
  destruct (add_up_exact ka na kb nb t) as [_ E]; try lia; [eapply Permutation_Forall; [apply Permutation_sym; exact P | exact Pr] | rewrite (Permutation_length P); exact LL|].
  destruct (add_up_exact ka na kb nb (left_to_right Nothing (combine r c))) as [_ E']; try lia; [rewrite left_to_right_products; exact Pr | rewrite left_to_right_products; exact LL|].
  rewrite left_to_right_products in E'. rewrite left_to_right_sum in E'. unfold sum_products. rewrite E. cbn [add_up products app] in E'. rewrite E'. apply dot_perm. exact P.
Qed.
