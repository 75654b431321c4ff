(** * Basic lemmas: list search, deduplication, checks *)

From Coq Require Import ZArith NArith Bool List Lia.
From Verif Require Import Num Syntax ModelScalar Spec.
Import ListNotations.

Section Lists.

Lemma find_loop_none {A} (hit : A -> bool) l ix loc :
  find_loop hit l ix loc = None <-> loc = None /\ forall y, In y l -> hit y = false.
Proof.
  revert ix loc. induction l as [|y l IH]; intros ix loc; cbn [find_loop].
  - split; [intros ->; split; [reflexivity | intros y []] | intros [H _]; exact H].
  - rewrite IH. split.
    + intros [H1 H2]. destruct (hit y) eqn:E; [discriminate|].
      split; [exact H1|]. intros z [<-|Hz]; [exact E | apply H2; exact Hz].
    + intros [-> H]. rewrite (H y) by (left; reflexivity).
      split; [reflexivity|]. intros z Hz. apply H. right. exact Hz.
Qed.

Lemma find_loop_some {A} (hit : A -> bool) l ix loc i :
  find_loop hit l ix loc = Some i ->
  (loc = Some i /\ forall y, In y l -> hit y = false)
  \/ (ix <= i /\ exists y, nth_error l (i - ix) = Some y /\ hit y = true
      /\ forall j z, i - ix < j -> nth_error l j = Some z -> hit z = false).
Proof.
  revert ix loc. induction l as [|y l IH]; intros ix loc; cbn [find_loop]; intro H.
  - left. split; [exact H | intros y []].
  - apply IH in H. destruct H as [[H1 H2]|[H1 (z & H2 & H3 & H4)]].
    + destruct (hit y) eqn:E.
      * injection H1 as <-. right. split; [lia|]. exists y. replace (ix - ix) with 0 by lia.
        split; [reflexivity|]. split; [exact E|]. intros j z Hj Hn.
        destruct j as [|j]; [lia|]. cbn in Hn. apply H2. eapply nth_error_In; exact Hn.
      * left. split; [exact H1|]. intros z [<-|Hz]; [exact E | apply H2; exact Hz].
    + right. split; [lia|]. exists z. replace (i - ix) with (S (i - S ix)) by lia. cbn [nth_error].
      split; [exact H2|]. split; [exact H3|]. intros j w Hj Hn.
      destruct j as [|j]; [lia|]. cbn in Hn. apply (H4 j w); [lia | exact Hn].
Qed.

Lemma find_in_slice_none {A} (eqb : A -> A -> bool) x l :
  find_in_slice eqb x l = None <-> forall y, In y l -> eqb x y = false.
Proof.
  unfold find_in_slice. rewrite find_loop_none. split; [intros [_ H]; exact H | intros H; split; [reflexivity | exact H]].
Qed.

Lemma find_in_slice_some {A} (eqb : A -> A -> bool) x l i :
  find_in_slice eqb x l = Some i ->
  exists y, nth_error l i = Some y /\ eqb x y = true
    /\ forall j z, i < j -> nth_error l j = Some z -> eqb x z = false.
Proof.
  intro H. apply find_loop_some in H. destruct H as [[H _]|[_ (y & H1 & H2 & H3)]]; [discriminate|].
  exists y. replace (i - 0) with i in H1 by lia. split; [exact H1|]. split; [exact H2|].
  intros j z Hj. apply H3. lia.
Qed.

Lemma set_nth_length {A} i (x : A) l : length (set_nth i x l) = length l.
Proof. revert i. induction l as [|a l IH]; intros [|i]; cbn; [reflexivity..|]. f_equal. apply IH. Qed.

Lemma nth_error_split_at {A} (l : list A) i x :
  nth_error l i = Some x -> exists l1 l2, l = l1 ++ x :: l2 /\ length l1 = i.
Proof. apply nth_error_split. Qed.

Lemma set_nth_split {A} (l1 l2 : list A) x y : set_nth (length l1) y (l1 ++ x :: l2) = l1 ++ y :: l2.
Proof. induction l1 as [|a l1 IH]; cbn; [reflexivity|]. f_equal. exact IH. Qed.

Lemma remove_nth_split {A} (l1 l2 : list A) x : remove_nth (length l1) (l1 ++ x :: l2) = l1 ++ l2.
Proof. induction l1 as [|a l1 IH]; cbn; [reflexivity|]. f_equal. exact IH. Qed.

Lemma mapM_map {A B} (f : A -> res B) (g : A -> B) l :
  (forall a, In a l -> f a = Ok (g a)) -> mapM f l = Ok (map g l).
Proof.
  induction l as [|a l IH]; intro H; cbn; [reflexivity|].
  rewrite H by (left; reflexivity). cbn. rewrite IH; [reflexivity|]. intros b Hb. apply H. right; exact Hb.
Qed.

Lemma mapM_Forall2 {A B} (f : A -> res B) l bs :
  mapM f l = Ok bs <-> Forall2 (fun a b => f a = Ok b) l bs.
Proof.
  revert bs. induction l as [|a l IH]; intros bs; cbn.
  - split; [intros [= <-]; constructor | intro H; inversion H; reflexivity].
  - split.
    + destruct (f a) as [b|] eqn:E; cbn; [|discriminate].
      destruct (mapM f l) as [bs'|] eqn:E'; cbn; [|discriminate]. intros [= <-].
      constructor; [exact E | apply IH; reflexivity].
    + intro H. inversion H as [|a' b l' bs' H1 H2 E1 E2]; subst. rewrite H1. cbn.
      apply IH in H2. rewrite H2. reflexivity.
Qed.

Lemma mapM_length {A B} (f : A -> res B) l bs : mapM f l = Ok bs -> length bs = length l.
Proof. intro H. apply mapM_Forall2 in H. induction H; cbn; congruence. Qed.

End Lists.

Section Base.
Context {NN : Num}.

Lemma same_id_iff (v w : var) : same_id v w = true <-> v_id v = v_id w.
Proof. unfold same_id. apply N.eqb_eq. Qed.
Lemma same_id_false (v w : var) : same_id v w = false <-> v_id v <> v_id w.
Proof. unfold same_id. apply N.eqb_neq. Qed.

Lemma find_var_none (v : var) l : find_var v l = None <-> ~ In (v_id v) (map v_id l).
Proof.
  unfold find_var. rewrite find_in_slice_none. split.
  - intros H Hin. apply in_map_iff in Hin. destruct Hin as (w & Hw & Hin). specialize (H w Hin).
    apply same_id_false in H. congruence.
  - intros H w Hw. apply same_id_false. intro E. apply H. rewrite E. apply in_map. exact Hw.
Qed.

Lemma find_var_some (v : var) l i :
  find_var v l = Some i -> exists w, nth_error l i = Some w /\ v_id w = v_id v.
Proof.
  intro H. apply find_in_slice_some in H. destruct H as (w & H1 & H2 & _). exists w.
  split; [exact H1|]. apply same_id_iff in H2. congruence.
Qed.

Lemma find_var_in (v : var) l : In (v_id v) (map v_id l) -> exists i, find_var v l = Some i.
Proof.
  intro H. destruct (find_var v l) as [i|] eqn:E; [exists i; reflexivity|].
  apply find_var_none in E. contradiction.
Qed.

(** ** unique_vars keeps the first occurrence of every ID *)
Fixpoint firsts (seen : list N) (l : list var) : list var :=
  match l with
  | [] => []
  | v :: l' => if in_dec N.eq_dec (v_id v) seen then firsts seen l' else v :: firsts (v_id v :: seen) l'
  end.

Lemma firsts_ext seen1 seen2 l : (forall i, In i seen1 <-> In i seen2) -> firsts seen1 l = firsts seen2 l.
Proof.
  revert seen1 seen2. induction l as [|v l IH]; intros s1 s2 H; cbn; [reflexivity|].
  destruct (in_dec N.eq_dec (v_id v) s1) as [H1|H1], (in_dec N.eq_dec (v_id v) s2) as [H2|H2].
  - apply IH; exact H.
  - exfalso. apply H2. apply H. exact H1.
  - exfalso. apply H1. apply H. exact H2.
  - f_equal. apply IH. intro i. cbn. rewrite H. tauto.
Qed.

Lemma unique_vars_loop_firsts l out :
  unique_vars_loop l out = out ++ firsts (map v_id out) l.
Proof.
  revert out. induction l as [|v l IH]; intro out; cbn.
  - rewrite app_nil_r. reflexivity.
  - destruct (find_var v out) as [i|] eqn:E.
    + destruct (in_dec N.eq_dec (v_id v) (map v_id out)) as [H|H]; [apply IH|].
      apply find_var_none in H. congruence.
    + destruct (in_dec N.eq_dec (v_id v) (map v_id out)) as [H|H].
      { apply find_var_none in E. contradiction. }
      rewrite IH, <- app_assoc. cbn. do 2 f_equal. apply firsts_ext. intro i.
      rewrite map_app, in_app_iff. cbn. tauto.
Qed.

Lemma unique_vars_firsts l : unique_vars l = firsts [] l.
Proof. unfold unique_vars. rewrite unique_vars_loop_firsts. reflexivity. Qed.

Lemma firsts_in seen l i :
  In i (map v_id (firsts seen l)) <-> In i (map v_id l) /\ ~ In i seen.
Proof.
  revert seen. induction l as [|v l IH]; intro seen; cbn; [tauto|].
  destruct (in_dec N.eq_dec (v_id v) seen) as [H|H].
  - rewrite IH. split; [tauto|]. intros [[<-|H1] H2]; tauto.
  - cbn. rewrite IH. cbn. split.
    + intros [<-|[H1 H2]]; [tauto|]. split; [tauto|]. intro; apply H2; right; assumption.
    + intros [[<-|H1] H2]; [tauto|]. destruct (N.eq_dec (v_id v) i) as [<-|Hne]; [tauto|].
      right. split; [exact H1|]. intros [E|E]; congruence || contradiction.
Qed.

Lemma firsts_nodup seen l : NoDup (map v_id (firsts seen l)).
Proof.
  revert seen. induction l as [|v l IH]; intro seen; cbn; [constructor|].
  destruct (in_dec N.eq_dec (v_id v) seen) as [H|H]; [apply IH|].
  cbn. constructor; [|apply IH]. rewrite firsts_in. cbn. tauto.
Qed.

Lemma firsts_incl seen l v : In v (firsts seen l) -> In v l.
Proof.
  revert seen. induction l as [|w l IH]; intro seen; cbn; [tauto|].
  destruct (in_dec N.eq_dec (v_id w) seen); [intro H; right; eapply IH; exact H|].
  intros [<-|H]; [left; reflexivity | right; eapply IH; exact H].
Qed.

Lemma firsts_nodup_id seen l :
  NoDup (map v_id l) -> (forall i, In i (map v_id l) -> ~ In i seen) -> firsts seen l = l.
Proof.
  revert seen. induction l as [|v l IH]; intros seen Hn Hs; cbn; [reflexivity|].
  inversion Hn as [|i l' H1 H2]; subst.
  destruct (in_dec N.eq_dec (v_id v) seen) as [H|H].
  - exfalso. apply (Hs (v_id v)); [left; reflexivity | exact H].
  - f_equal. apply IH; [exact H2|]. intros i Hi [<-|Hi']; [contradiction|].
    apply (Hs i); [right; exact Hi | exact Hi'].
Qed.

Lemma unique_vars_in l i : In i (map v_id (unique_vars l)) <-> In i (map v_id l).
Proof. rewrite unique_vars_firsts, firsts_in. cbn. tauto. Qed.
Lemma unique_vars_nodup l : NoDup (map v_id (unique_vars l)).
Proof. rewrite unique_vars_firsts. apply firsts_nodup. Qed.
Lemma unique_vars_incl l v : In v (unique_vars l) -> In v l.
Proof. rewrite unique_vars_firsts. apply firsts_incl. Qed.
Lemma unique_vars_id l : NoDup (map v_id l) -> unique_vars l = l.
Proof. intro H. rewrite unique_vars_firsts. apply firsts_nodup_id; [exact H | intros i _ []]. Qed.

(** ** Checks *)

Lemma var_check_valid v : var_check v = true <-> valid_var v.
Proof. unfold var_check, valid_var. destruct (nleb _ _); cbn; split; congruence. Qed.

Lemma mono_check_iff m : mono_check m = true <-> length (m_exps m) = length (m_vars m).
Proof. apply Nat.eqb_eq. Qed.

Lemma valid_mono_check m : valid_mono m -> mono_check m = true.
Proof. intros [H _]. apply mono_check_iff. exact H. Qed.

Lemma poly_check_iff p : poly_check p = true <-> p <> [] /\ Forall (fun m => mono_check m = true) p.
Proof.
  unfold poly_check. destruct p as [|m p]; [split; [discriminate | intros [H _]; congruence]|].
  rewrite forallb_forall, Forall_forall. split; [intro H; split; [discriminate | exact H] | intros [_ H]; exact H].
Qed.

Lemma valid_poly_check p : valid_poly p -> poly_check p = true.
Proof.
  intros [H1 H2]. apply poly_check_iff. split; [exact H1|].
  eapply Forall_impl; [|exact H2]. intros m. apply valid_mono_check.
Qed.

Lemma valid_check s : valid s -> scalar_check s = true.
Proof.
  destruct s as [k|v|m|p]; cbn [valid scalar_check]; intro H.
  - reflexivity.
  - apply var_check_valid. exact H.
  - apply valid_mono_check. exact H.
  - apply valid_poly_check. exact H.
Qed.

Lemma valid_mono_k k : valid_mono (mkMono k [] []).
Proof. repeat split; cbn; constructor. Qed.
Lemma valid_mono_var c v e : valid_var v -> (1 <= e)%Z -> valid_mono (mkMono c [e] [v]).
Proof.
  intros H1 H2. split; [reflexivity|]. split; [constructor; [exact H2 | constructor]|].
  split; cbn; [constructor; [intros [] | constructor]|]. constructor; [exact H1 | constructor].
Qed.
Lemma valid_set_coeff m c : valid_mono m -> valid_mono (set_coeff m c).
Proof. intro H. exact H. Qed.

Lemma valid_terms s : valid s -> Forall valid_mono (terms s).
Proof.
  destruct s as [k|v|m|p]; cbn [valid terms]; intro H.
  - constructor; [apply valid_mono_k | constructor].
  - constructor; [apply valid_mono_var; [exact H | lia] | constructor].
  - constructor; [exact H | constructor].
  - apply H.
Qed.

(** the pure content of the predicates on checked monomials *)
Definition is_const (m : Monomial) : bool := match m_vars m with [] => true | _ => false end.

Lemma mono_is_constant_ok m : mono_check m = true -> mono_is_constant m = Ok (is_const m).
Proof. intro H. unfold mono_is_constant. rewrite H. reflexivity. Qed.

Definition eq_exps (l1 l2 : list Z) : bool := if list_eq_dec Z.eq_dec l1 l2 then true else false.
Lemma eq_exps_iff l1 l2 : eq_exps l1 l2 = true <-> l1 = l2.
Proof. unfold eq_exps. destruct (list_eq_dec Z.eq_dec l1 l2); split; congruence. Qed.

Definition matchb (m1 m2 : Monomial) : bool :=
  Nat.eqb (length (m_vars m1)) (length (m_vars m2))
  && forallb (fun v => match find_var v (m_vars m2) with Some _ => true | None => false end) (m_vars m1)
  && eq_exps (m_exps m1) (m_exps m2).

Lemma matches_loop_ok vs es es' w :
  length es = length vs -> length es' = length vs ->
  matches_loop vs es es' w =
  Ok (forallb (fun v => match find_var v w with Some _ => true | None => false end) vs && eq_exps es es').
Proof.
  revert es es'. induction vs as [|v vs IH]; intros es es' H1 H2; cbn.
  - destruct es; [|discriminate]. destruct es'; [|discriminate]. reflexivity.
  - destruct es as [|e es]; [discriminate|]. destruct es' as [|e' es']; [discriminate|].
    cbn in H1, H2. destruct (find_var v w); [|reflexivity].
    destruct (Z.eqb_spec e e') as [<-|Hne].
    + rewrite IH by lia. f_equal. cbn [andb]. f_equal. unfold eq_exps.
      destruct (list_eq_dec Z.eq_dec es es') as [<-|H]; destruct (list_eq_dec Z.eq_dec (e :: es) _) as [H'|H']; congruence.
    + cbn [andb]. unfold eq_exps. destruct (list_eq_dec Z.eq_dec (e :: es) (e' :: es')); [congruence|].
      rewrite andb_false_r. reflexivity.
Qed.

Lemma mono_matches_form_ok m1 m2 :
  mono_check m1 = true -> mono_check m2 = true -> mono_matches_form m1 m2 = Ok (matchb m1 m2).
Proof.
  intros H1 H2. unfold mono_matches_form. rewrite H1, H2. cbn [check bind]. unfold matchb.
  apply mono_check_iff in H1. apply mono_check_iff in H2.
  destruct (Nat.eqb_spec (length (m_vars m1)) (length (m_vars m2))) as [E|E]; [|reflexivity].
  rewrite matches_loop_ok by congruence. reflexivity.
Qed.

(** on valid terms the library's test for like terms is exactly [look_alike] *)
Lemma matchb_look_alike m1 m2 :
  valid_mono m1 -> valid_mono m2 -> (matchb m1 m2 = true <-> look_alike m1 m2).
Proof.
  intros (L1 & _ & N1 & _) (L2 & _ & N2 & _). unfold matchb, look_alike, ids.
  rewrite !andb_true_iff, Nat.eqb_eq, forallb_forall, eq_exps_iff. split.
  - intros [[H1 H2] H3]. split; [exact H3|]. split; [exact H1|].
    assert (Hincl : incl (map v_id (m_vars m1)) (map v_id (m_vars m2))).
    { intros i Hi. apply in_map_iff in Hi. destruct Hi as (v & <- & Hv). specialize (H2 v Hv).
      destruct (find_var v (m_vars m2)) as [k|] eqn:E; [|discriminate].
      apply find_var_some in E. destruct E as (w & Hw & <-). apply in_map. eapply nth_error_In; exact Hw. }
    intro i. split; [apply Hincl|]. apply NoDup_length_incl; [exact N1 | rewrite !map_length; lia | exact Hincl].
  - intros (H1 & H2 & H3). split; [split; [exact H2|] | exact H1]. intros v Hv.
    destruct (find_var v (m_vars m2)) eqn:E; [reflexivity|]. apply find_var_none in E. exfalso. apply E.
    apply H3. apply in_map. exact Hv.
Qed.

End Base.
