(** * UniqueVars, Unique, UnionOfVariables and FindInSlice *)

From Coq Require Import ZArith NArith Bool List Lia.
From Verif Require Import Num Syntax ModelScalar Spec Base.
Import ListNotations.

Section ListFacts.
Context {NN : Num}.

Section Key.
Context {A : Type} (key : A -> N).

Fixpoint firsts_k (seen : list N) (l : list A) : list A :=
  match l with
  | [] => []
  | v :: l' => if in_dec N.eq_dec (key v) seen then firsts_k seen l' else v :: firsts_k (key v :: seen) l'
  end.

Lemma firsts_k_filter seen l :
  firsts_k seen l = filter (fun a => if in_dec N.eq_dec (key a) seen then false else true) (delete_later key l).
Proof.
  revert seen. induction l as [|a l IH]; intro seen; cbn; [reflexivity|].
  destruct (in_dec N.eq_dec (key a) seen) as [H|H].
  - rewrite IH. clear IH. induction (delete_later key l) as [|b q IHq]; cbn; [reflexivity|].
    destruct (N.eqb_spec (key b) (key a)) as [E|E]; cbn.
    + destruct (in_dec N.eq_dec (key b) seen) as [H'|H']; [exact IHq|]. exfalso. apply H'. rewrite E. exact H.
    + destruct (in_dec N.eq_dec (key b) seen) as [H'|H']; [exact IHq | f_equal; exact IHq].
  - f_equal. rewrite IH. clear IH. induction (delete_later key l) as [|b q IHq]; [reflexivity|]. cbn [filter].
    destruct (in_dec N.eq_dec (key b) (key a :: seen)) as [H'|H'].
    + destruct (N.eqb_spec (key b) (key a)) as [E|E]; cbn [negb]; [exact IHq|]. cbn [filter].
      destruct (in_dec N.eq_dec (key b) seen) as [H2|H2]; [exact IHq|]. exfalso. destruct H' as [H'|H']; congruence.
    + destruct (N.eqb_spec (key b) (key a)) as [E|E]; cbn [negb]; [exfalso; apply H'; left; congruence|]. cbn [filter].
      destruct (in_dec N.eq_dec (key b) seen) as [H2|H2]; [exfalso; apply H'; right; exact H2|]. f_equal. exact IHq.
Qed.

Lemma firsts_k_nil l : firsts_k [] l = delete_later key l.
Proof.
  rewrite firsts_k_filter. cbn. induction (delete_later key l) as [|b q IHq]; cbn; [reflexivity | f_equal; exact IHq].
Qed.

Lemma delete_later_in l i : In i (map key (delete_later key l)) <-> In i (map key l).
Proof.
  induction l as [|a l IH]; cbn; [tauto|]. split.
  - intros [H|H]; [left; exact H|]. right. apply IH. apply in_map_iff in H. destruct H as (b & <- & Hb). apply filter_In in Hb.
    apply in_map, Hb.
  - intros [H|H]; [left; exact H|]. destruct (N.eq_dec (key a) i) as [E|E]; [left; exact E|right]. apply IH in H.
    apply in_map_iff in H. destruct H as (b & <- & Hb). apply in_map. apply filter_In. split; [exact Hb|].
    destruct (N.eqb_spec (key b) (key a)); [congruence | reflexivity].
Qed.

Lemma delete_later_nodup l : NoDup (map key (delete_later key l)).
Proof.
  induction l as [|a l IH]; cbn; [constructor|]. constructor.
  - intro C. apply in_map_iff in C. destruct C as (b & E & Hb). apply filter_In in Hb. destruct Hb as [_ Hb]. rewrite E, N.eqb_refl in Hb. discriminate.
  - clear - IH. induction (delete_later key l) as [|b q IHq]; cbn in *; [constructor|]. inversion IH as [|? ? H1 H2]; subst.
    destruct (negb _); cbn; [constructor|]; auto. intro C. apply H1. apply in_map_iff in C. destruct C as (c & E & Hc). apply filter_In in Hc.
    rewrite <- E. apply in_map, Hc.
Qed.

Lemma delete_later_id l : NoDup (map key l) -> delete_later key l = l.
Proof.
  induction l as [|a l IH]; intro H; cbn; [reflexivity|]. inversion H as [|? ? H1 H2]; subst. rewrite IH by exact H2. f_equal.
  clear - H1. induction l as [|b l IH]; cbn; [reflexivity|]. cbn in H1. destruct (N.eqb_spec (key b) (key a)) as [E|E].
  - exfalso. apply H1. left. exact E.
  - cbn. f_equal. apply IH. tauto.
Qed.
End Key.

Lemma firsts_same seen l : firsts seen l = firsts_k v_id seen l.
Proof. revert seen. induction l as [|v l IH]; intro seen; cbn; [reflexivity|]. rewrite !IH. reflexivity. Qed.

Lemma unique_vars_spec l : unique_vars l = delete_later v_id l.
Proof. rewrite unique_vars_firsts, firsts_same. apply firsts_k_nil. Qed.

Lemma unique_ids_loop_firsts l out : unique_ids_loop l out = out ++ firsts_k (fun x => x) out l.
Proof.
  revert out. induction l as [|v l IH]; intro out; cbn.
  - rewrite app_nil_r. reflexivity.
  - destruct (find_in_slice N.eqb v out) as [i|] eqn:E.
    + destruct (in_dec N.eq_dec v out) as [H|H]; [apply IH|]. apply find_in_slice_some in E. destruct E as (y & H1 & H2 & _).
      apply N.eqb_eq in H2. subst y. exfalso. apply H. eapply nth_error_In. exact H1.
    + destruct (in_dec N.eq_dec v out) as [H|H].
      { pose proof (proj1 (find_in_slice_none N.eqb v out) E v H) as C. rewrite N.eqb_refl in C. discriminate. }
      rewrite IH, <- app_assoc. cbn. do 2 f_equal.
      assert (HX : forall s1 s2, (forall i, In i s1 <-> In i s2) -> firsts_k (fun x => x) s1 l = firsts_k (fun x => x) s2 l).
      { clear. induction l as [|a l IH]; intros s1 s2 Hs; cbn; [reflexivity|].
        destruct (in_dec N.eq_dec a s1) as [H1|H1], (in_dec N.eq_dec a s2) as [H2|H2].
        - apply IH; exact Hs.
        - exfalso. apply H2, Hs, H1.
        - exfalso. apply H1, Hs, H2.
        - f_equal. apply IH. intro i. cbn. rewrite Hs. tauto. }
      apply HX. intro i. rewrite in_app_iff. cbn. tauto.
Qed.

Lemma unique_ids_spec l : unique_ids l = delete_later (fun x => x) l.
Proof.
  destruct l as [|x l]; [reflexivity|]. unfold unique_ids. rewrite unique_ids_loop_firsts. rewrite <- firsts_k_nil. cbn. reflexivity.
Qed.

Lemma unique_vars_facts l :
  unique_vars l = delete_later v_id l /\ NoDup (map v_id (unique_vars l))
  /\ (forall i, In i (map v_id (unique_vars l)) <-> In i (map v_id l))
  /\ unique_vars (unique_vars l) = unique_vars l.
Proof.
  split; [apply unique_vars_spec|]. split; [apply unique_vars_nodup|]. split; [intro; apply unique_vars_in|].
  apply unique_vars_id, unique_vars_nodup.
Qed.

Lemma unique_ids_facts l :
  unique_ids l = delete_later (fun x => x) l /\ NoDup (unique_ids l)
  /\ (forall i, In i (unique_ids l) <-> In i l) /\ unique_ids (unique_ids l) = unique_ids l.
Proof.
  rewrite !unique_ids_spec. split; [reflexivity|].
  assert (HN : NoDup (delete_later (fun x : N => x) l)).
  { rewrite <- (map_id (delete_later _ l)). apply (delete_later_nodup (fun x => x)). }
  split; [exact HN|]. split.
  - intro i. pose proof (delete_later_in (fun x => x) l i) as H. rewrite !map_id in H. exact H.
  - apply delete_later_id. rewrite map_id. exact HN.
Qed.

Lemma union_facts ls :
  union_of_variables ls = delete_later v_id (List.concat ls) /\ NoDup (map v_id (union_of_variables ls))
  /\ (forall i, In i (map v_id (union_of_variables ls)) <-> exists l, In l ls /\ In i (map v_id l)).
Proof.
  unfold union_of_variables. destruct (unique_vars_facts (List.concat ls)) as (H1 & H2 & H3 & _). split; [exact H1|]. split; [exact H2|].
  intro i. rewrite H3. rewrite concat_map, in_concat. split.
  - intros (x & Hx & Hi). apply in_map_iff in Hx. destruct Hx as (l & <- & Hl). eauto.
  - intros (l & Hl & Hi). exists (map v_id l). split; [apply in_map; exact Hl | exact Hi].
Qed.

Lemma find_in_slice_facts {A} (eqb : A -> A -> bool) (x : A) (l : list A) :
  (find_in_slice eqb x l = None <-> forall y, In y l -> eqb x y = false)
  /\ forall i, find_in_slice eqb x l = Some i -> exists y, nth_error l i = Some y /\ eqb x y = true.
Proof.
  split; [apply find_in_slice_none|]. intros i H. destruct (find_in_slice_some eqb x l i H) as (y & H1 & H2 & _). eauto.
Qed.

End ListFacts.
