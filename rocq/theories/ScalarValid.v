(** * Totality and validity of the scalar operations, for every [Num] *)

From Coq Require Import ZArith NArith Bool List Lia.
From Verif Require Import Num Syntax ModelScalar Spec Base.
Import ListNotations.

Section ScalarValid.
Context {NN : Num}.
Local Open Scope num_scope.

Ltac cb := cbn [bind check].

(** ** Pure content of simplification *)

Fixpoint add_pure (acc : list Monomial) (m : Monomial) : list Monomial :=
  match acc with
  | [] => [m]
  | e :: acc' => if matchb e m then set_coeff e (m_coeff e + m_coeff m) :: acc' else e :: add_pure acc' m
  end.

Fixpoint simp_pure (p : list Monomial) (c : num) (acc : list Monomial) : num * list Monomial :=
  match p with
  | [] => (c, acc)
  | m :: p' => if is_const m then simp_pure p' (c + m_coeff m) acc else simp_pure p' c (add_pure acc m)
  end.

Definition nonzero (m : Monomial) : bool := negb (m_coeff m =? n0).

Definition psimp (p : Polynomial) : Polynomial :=
  let '(c, nc) := simp_pure p n0 [] in
  let out := (if c =? n0 then [] else [k_to_mono c]) ++ filter nonzero nc in
  match out with [] => [k_to_mono n0] | _ => out end.

Definition chk (m : Monomial) : Prop := mono_check m = true.

Lemma add_pure_chk acc m : Forall chk acc -> chk m -> Forall chk (add_pure acc m).
Proof.
  induction acc as [|e acc IH]; intros Ha Hm; cbn; [constructor; [exact Hm | constructor]|].
  inversion Ha as [|? ? H1 H2]; subst. destruct (matchb e m).
  - constructor; [exact H1 | exact H2].
  - constructor; [exact H1 | apply IH; assumption].
Qed.

Lemma add_like_term_ok acc m : Forall chk acc -> chk m -> add_like_term acc m = Ok (add_pure acc m).
Proof.
  induction acc as [|e acc IH]; intros Ha Hm; cbn; [reflexivity|].
  inversion Ha as [|? ? H1 H2]; subst. rewrite mono_matches_form_ok by assumption. cb.
  destruct (matchb e m); [reflexivity|]. rewrite IH by assumption. reflexivity.
Qed.

Lemma simplify_loop_ok p c acc :
  Forall chk p -> Forall chk acc -> simplify_loop p c acc = Ok (simp_pure p c acc).
Proof.
  revert c acc. induction p as [|m p IH]; intros c acc Hp Ha; cbn; [reflexivity|].
  inversion Hp as [|? ? H1 H2]; subst. rewrite mono_is_constant_ok by exact H1. cb.
  destruct (is_const m); [apply IH; assumption|].
  rewrite add_like_term_ok by assumption. cb. apply IH; [assumption|]. apply add_pure_chk; assumption.
Qed.

Lemma poly_simplify_ok p : poly_check p = true -> poly_simplify p = Ok (psimp p).
Proof.
  intro H. unfold poly_simplify. rewrite H. cb. apply poly_check_iff in H. destruct H as [_ H].
  rewrite simplify_loop_ok by (assumption || constructor). cb. unfold psimp, nonzero.
  destruct (simp_pure p n0 []) as [c nc]. reflexivity.
Qed.

(** a predicate on terms that does not look at the coefficient *)
Definition form_pred (P : Monomial -> Prop) : Prop := forall m c, P m -> P (set_coeff m c).

Lemma add_pure_Forall (P : Monomial -> Prop) acc m :
  form_pred P -> Forall P acc -> P m -> Forall P (add_pure acc m).
Proof.
  intros HP. induction acc as [|e acc IH]; intros Ha Hm; cbn; [constructor; [exact Hm | constructor]|].
  inversion Ha as [|? ? H1 H2]; subst. destruct (matchb e m).
  - constructor; [apply HP; exact H1 | exact H2].
  - constructor; [exact H1 | apply IH; assumption].
Qed.

Lemma simp_pure_Forall (P : Monomial -> Prop) p c acc :
  form_pred P -> Forall (fun m => is_const m = false -> P m) p -> Forall P acc ->
  Forall P (snd (simp_pure p c acc)).
Proof.
  intros HP. revert c acc. induction p as [|m p IH]; intros c acc Hp Ha; cbn; [exact Ha|].
  inversion Hp as [|? ? H1 H2]; subst. destruct (is_const m).
  - apply IH; assumption.
  - apply IH; [exact H2|]. apply add_pure_Forall; auto.
Qed.

Lemma add_pure_nonconst acc m :
  Forall (fun m => is_const m = false) acc -> is_const m = false ->
  Forall (fun m => is_const m = false) (add_pure acc m).
Proof. apply (add_pure_Forall (fun m => is_const m = false)). intros x c H; exact H. Qed.

Lemma valid_form_pred : form_pred valid_mono.
Proof. intros m c H. exact H. Qed.

(** the shape of a simplified term list *)
Definition simp_shape (pr : list Monomial) : Prop :=
  exists k nc, Forall (fun m => is_const m = false /\ nonzero m = true) nc
    /\ ((k = [] /\ nc <> []) \/ exists c, k = [k_to_mono c] /\ ((c =? n0) = false \/ (c = n0 /\ nc = [])))
    /\ pr = k ++ nc.

Lemma psimp_shape p : simp_shape (psimp p).
Proof.
  unfold psimp. destruct (simp_pure p n0 []) as [c nc] eqn:E.
  assert (Hnc : Forall (fun m => is_const m = false) nc).
  { change nc with (snd (c, nc)). rewrite <- E. apply simp_pure_Forall.
    - intros m x H; exact H.
    - apply Forall_forall. intros m _ H; exact H.
    - constructor. }
  assert (Hf : Forall (fun m => is_const m = false /\ nonzero m = true) (filter nonzero nc)).
  { apply Forall_forall. intros m Hm. apply filter_In in Hm. destruct Hm as [H1 H2].
    split; [|exact H2]. rewrite Forall_forall in Hnc. apply Hnc. exact H1. }
  destruct (c =? n0) eqn:Ec; cbn [app].
  - destruct (filter nonzero nc) as [|m l] eqn:Ef.
    + exists [k_to_mono n0], []. split; [constructor|]. split; [right; exists n0; auto | reflexivity].
    + exists [], (m :: l). split; [exact Hf|]. split; [left; split; [reflexivity | discriminate] | reflexivity].
  - exists [k_to_mono c], (filter nonzero nc). split; [exact Hf|]. split; [right; exists c; auto | reflexivity].
Qed.

Lemma psimp_nonempty p : psimp p <> [].
Proof.
  destruct (psimp_shape p) as (k & nc & _ & [[-> H]|(c & -> & _)] & ->); [exact H | discriminate].
Qed.

Lemma psimp_Forall (P : Monomial -> Prop) p :
  form_pred P -> Forall (fun m => is_const m = false -> P m) p ->
  Forall (fun m => is_const m = false -> P m) (psimp p).
Proof.
  intros HP H. unfold psimp. destruct (simp_pure p n0 []) as [c nc] eqn:E.
  assert (Hnc : Forall P nc).
  { change nc with (snd (c, nc)). rewrite <- E. apply simp_pure_Forall; [exact HP | exact H | constructor]. }
  assert (Hout : Forall (fun m => is_const m = false -> P m)
    ((if c =? n0 then [] else [k_to_mono c]) ++ filter nonzero nc)).
  { apply Forall_app. split.
    - destruct (c =? n0); constructor; [discriminate | constructor].
    - apply Forall_forall. intros m Hm _. apply filter_In in Hm. rewrite Forall_forall in Hnc. apply Hnc, Hm. }
  destruct ((if c =? n0 then [] else [k_to_mono c]) ++ filter nonzero nc); [|exact Hout].
  constructor; [discriminate | constructor].
Qed.

Lemma psimp_valid p : Forall valid_mono p -> valid_poly (psimp p).
Proof.
  intro H. split; [apply psimp_nonempty|].
  assert (H1 : Forall (fun m => is_const m = false -> valid_mono m) (psimp p)).
  { apply psimp_Forall; [exact valid_form_pred|]. eapply Forall_impl; [|exact H]. auto. }
  apply Forall_forall. intros m Hm. rewrite Forall_forall in H1.
  destruct (is_const m) eqn:E; [|apply H1; assumption].
  destruct (psimp_shape p) as (k & nc & Hnc & Hk & Hp). rewrite Hp in Hm. apply in_app_iff in Hm.
  destruct Hm as [Hm|Hm].
  - destruct Hk as [[-> _]|(c & -> & _)]; [destruct Hm|]. destruct Hm as [<-|[]]. apply valid_mono_k.
  - rewrite Forall_forall in Hnc. apply Hnc in Hm. destruct Hm; congruence.
Qed.

(** ** Degree *)

Lemma sumZ_app l1 l2 : sumZ (l1 ++ l2) = (sumZ l1 + sumZ l2)%Z.
Proof. induction l1 as [|a l1 IH]; cbn; [reflexivity|]. rewrite IH. lia. Qed.

Lemma fold_add_sumZ l a : fold_left Z.add l a = (a + sumZ l)%Z.
Proof. revert a. induction l as [|x l IH]; intro a; cbn; [lia|]. rewrite IH. lia. Qed.

Lemma mono_degree_ok m : mono_check m = true -> mono_degree m = Ok (tdeg m).
Proof. intro H. unfold mono_degree. rewrite H. cb. rewrite fold_add_sumZ. reflexivity. Qed.

Fixpoint pdeg (p : list Monomial) : Z :=
  match p with [] => 0%Z | m :: p' => Z.max (tdeg m) (pdeg p') end.

Lemma pdeg_nonneg p : (0 <= pdeg p)%Z.
Proof. induction p; cbn; lia. Qed.

Lemma poly_degree_fold p d :
  Forall chk p -> (0 <= d)%Z ->
  foldM (fun d m => dm <- mono_degree m ;; Ok (if Z.ltb d dm then dm else d)) d p = Ok (Z.max d (pdeg p)).
Proof.
  revert d. induction p as [|m p IH]; intros d Hp Hd; cbn [foldM pdeg].
  - f_equal. lia.
  - inversion Hp as [|? ? H1 H2]; subst. rewrite mono_degree_ok by exact H1. cb.
    rewrite IH; [|exact H2|]; destruct (Z.ltb_spec d (tdeg m)); try lia.
    + f_equal. pose proof (pdeg_nonneg p). lia.
    + f_equal. pose proof (pdeg_nonneg p). lia.
Qed.

Lemma poly_degree_ok p : poly_check p = true -> poly_degree p = Ok (pdeg p).
Proof.
  intro H. unfold poly_degree. rewrite H. cb. apply poly_check_iff in H.
  rewrite poly_degree_fold; [|apply H|lia]. f_equal. pose proof (pdeg_nonneg p). lia.
Qed.

Lemma sumZ_pos l : Forall (fun e => (1 <= e)%Z) l -> (Z.of_nat (length l) <= sumZ l)%Z.
Proof. induction 1 as [|e l H1 H2 IH]; cbn [length sumZ]; [lia|]. lia. Qed.

Lemma tdeg_const_iff m : valid_mono m -> (tdeg m = 0%Z <-> is_const m = true).
Proof.
  intros (H1 & H2 & _). unfold tdeg, is_const. pose proof (sumZ_pos _ H2) as H3.
  destruct (m_vars m) as [|v vs]; cbn in H1.
  - destruct (m_exps m); [cbn; tauto | discriminate].
  - destruct (m_exps m); [discriminate|]. cbn [length] in H3. split; [lia | discriminate].
Qed.

Lemma tdeg_nonneg m : valid_mono m -> (0 <= tdeg m)%Z.
Proof. intros (_ & H2 & _). unfold tdeg. pose proof (sumZ_pos _ H2). lia. Qed.

Lemma pdeg_zero p : Forall valid_mono p -> (pdeg p = 0%Z <-> Forall (fun m => is_const m = true) p).
Proof.
  induction 1 as [|m p H1 H2 IH]; cbn; [split; [constructor | reflexivity]|].
  pose proof (tdeg_nonneg m H1). pose proof (pdeg_nonneg p). pose proof (tdeg_const_iff m H1) as Hc. split.
  - intro E. constructor; [apply Hc; lia | apply IH; lia].
  - intro E. inversion E; subst. apply Hc in H5. apply IH in H6. lia.
Qed.

Lemma tdeg_one m : valid_mono m -> tdeg m = 1%Z -> exists v, m_exps m = [1%Z] /\ m_vars m = [v].
Proof.
  intros (H1 & H2 & _). unfold tdeg. pose proof (sumZ_pos _ H2) as H3. intro E.
  destruct (m_exps m) as [|e [|e' es]]; cbn [length] in *; [cbn in E; lia | | lia].
  destruct (m_vars m) as [|v [|w vs]]; cbn in H1; try lia. exists v. cbn in E. split; [f_equal; lia | reflexivity].
Qed.

(** ** Constant of a term list *)

Fixpoint first_const (p : list Monomial) : option num :=
  match p with [] => None | m :: p' => if is_const m then Some (m_coeff m) else first_const p' end.
Definition pconst (p : list Monomial) : num := match first_const p with Some c => c | None => n0 end.

Lemma first_index_ok {A} (f : A -> res bool) (g : A -> bool) l ix :
  (forall a, In a l -> f a = Ok (g a)) ->
  exists o, first_index f l ix = Ok o /\
  match o with
  | None => forall a, In a l -> g a = false
  | Some i => exists l1 a l2, l = l1 ++ a :: l2 /\ i = (ix + length l1)%nat /\ g a = true /\ forall b, In b l1 -> g b = false
  end.
Proof.
  revert ix. induction l as [|a l IH]; intros ix H; cbn.
  - exists None. split; [reflexivity | intros b []].
  - rewrite H by (left; reflexivity). cb. destruct (g a) eqn:E.
    + exists (Some ix). split; [reflexivity|]. exists [], a, l. repeat split; [cbn; lia | exact E | intros b []].
    + destruct (IH (S ix)) as (o & Ho & Hs); [intros b Hb; apply H; right; exact Hb|].
      exists o. split; [exact Ho|]. destruct o as [i|].
      * destruct Hs as (l1 & b & l2 & -> & -> & H1 & H2). exists (a :: l1), b, l2.
        split; [reflexivity|]. split; [cbn; lia|]. split; [exact H1|].
        intros c [<-|Hc]; [exact E | apply H2; exact Hc].
      * intros b [<-|Hb]; [exact E | apply Hs; exact Hb].
Qed.

Lemma poly_constant_index_ok p : poly_check p = true ->
  exists o, poly_constant_index p = Ok o /\
  match o with
  | None => forall a, In a p -> is_const a = false
  | Some i => exists l1 a l2, p = l1 ++ a :: l2 /\ i = length l1 /\ is_const a = true
               /\ forall b, In b l1 -> is_const b = false
  end.
Proof.
  intro H. unfold poly_constant_index. rewrite H. cb. apply poly_check_iff in H. destruct H as [_ H].
  destruct (first_index_ok mono_is_constant is_const p 0) as (o & H1 & H2).
  - intros a Ha. apply mono_is_constant_ok. rewrite Forall_forall in H. apply H. exact Ha.
  - exists o. split; [exact H1|]. exact H2.
Qed.

Lemma index_split {A} (l1 l2 : list A) a : index (l1 ++ a :: l2) (length l1) = Ok a.
Proof. unfold index. rewrite nth_error_app2 by lia. rewrite Nat.sub_diag. reflexivity. Qed.

Lemma first_const_none p : (forall a, In a p -> is_const a = false) -> first_const p = None.
Proof.
  induction p as [|m p IH]; intro H; cbn; [reflexivity|].
  rewrite H by (left; reflexivity). apply IH. intros a Ha; apply H; right; exact Ha.
Qed.
Lemma first_const_split l1 a l2 :
  is_const a = true -> (forall b, In b l1 -> is_const b = false) -> first_const (l1 ++ a :: l2) = Some (m_coeff a).
Proof.
  intros Ha. induction l1 as [|m l1 IH]; intro H; cbn; [rewrite Ha; reflexivity|].
  rewrite H by (left; reflexivity). apply IH. intros b Hb; apply H; right; exact Hb.
Qed.

Lemma poly_constant_ok p : poly_check p = true -> poly_constant p = Ok (pconst p).
Proof.
  intro H. unfold poly_constant. rewrite H. cb. destruct (poly_constant_index_ok p H) as (o & -> & Ho). cb.
  unfold pconst. destruct o as [i|].
  - destruct Ho as (l1 & a & l2 & -> & -> & Ha & Hb). rewrite index_split. cb. rewrite first_const_split; auto.
  - rewrite first_const_none; auto.
Qed.

(** ** AsSimplifiedExpression *)

Definition is_plain_var (m : Monomial) : bool :=
  (m_coeff m =? n1) && Nat.eqb (length (m_vars m)) 1 && match m_exps m with e :: _ => Z.eqb e 1 | [] => false end.

Definition msimplified (m : Monomial) : scalar :=
  match m_vars m with
  | [] => SK (m_coeff m)
  | v0 :: _ => if m_coeff m =? n0 then SK n0 else if is_plain_var m then SV v0 else SM m
  end.

Lemma mono_simplified_ok m : valid_mono m -> mono_simplified m = Ok (msimplified m).
Proof.
  intro H. unfold mono_simplified. rewrite (valid_mono_check m H). cb.
  rewrite mono_is_constant_ok by (apply valid_mono_check; exact H). cb. unfold is_const, msimplified, is_plain_var.
  destruct H as (H1 & H2 & _). destruct (m_vars m) as [|v vs] eqn:Ev; [reflexivity|].
  destruct (m_coeff m =? n0); [reflexivity|].
  destruct (m_exps m) as [|e es] eqn:Ee; [discriminate|]. cbn [index nth_error bind].
  destruct ((m_coeff m =? n1) && Nat.eqb (length (v :: vs)) 1 && Z.eqb e 1) eqn:E; [reflexivity|].
  cbn [forallb]. inversion H2; subst. destruct (Z.eqb_spec e 0); [lia|]. reflexivity.
Qed.

Definition psimplified (p : Polynomial) : scalar :=
  let pr := psimp p in
  match pr with
  | [m] => if is_const m then SK (m_coeff m)
           else if is_plain_var m then match m_vars m with v :: _ => SV v | [] => SM m end
           else SM m
  | _ => SP pr
  end.

Lemma poly_variables_single m : valid_mono m -> poly_variables [m] = m_vars m.
Proof.
  intros (_ & _ & H & _). unfold poly_variables. cbn. rewrite app_nil_r. apply unique_vars_id. exact H.
Qed.

Lemma mono_degree_one_ok m v : valid_mono m -> valid_var v ->
  mono_is_degree_one_in m v =
  Ok (match m_vars m, m_exps m with [w], [e] => same_id w v && Z.eqb e 1 | _, _ => false end).
Proof.
  intros H Hv. unfold mono_is_degree_one_in. rewrite (valid_mono_check m H).
  apply var_check_valid in Hv. rewrite Hv. cb. rewrite mono_is_constant_ok by (apply valid_mono_check; exact H). cb.
  destruct H as (H1 & _). unfold is_const. destruct (m_vars m) as [|w [|w' ws]]; [reflexivity|..].
  - destruct (m_exps m) as [|e [|e' es]]; try discriminate. reflexivity.
  - destruct (m_exps m) as [|e [|e' es]]; try discriminate. reflexivity.
Qed.

(** the terms of a simplified list with at least two entries include a non-constant one *)
Lemma shape_two pr m1 m2 l : simp_shape pr -> pr = m1 :: m2 :: l -> exists m, In m pr /\ is_const m = false.
Proof.
  intros (k & nc & Hnc & Hk & ->) E. destruct nc as [|m nc].
  - rewrite app_nil_r in E. subst k. destruct Hk as [[_ H]|(c & H & _)]; [congruence | discriminate].
  - exists m. split; [apply in_app_iff; right; left; reflexivity|]. inversion Hnc; tauto.
Qed.

Lemma poly_simplified_ok p : valid_poly p -> poly_simplified p = Ok (psimplified p).
Proof.
  intro H. unfold poly_simplified. rewrite poly_simplify_ok by (apply valid_poly_check; exact H). cb.
  assert (Hv : valid_poly (psimp p)) by (apply psimp_valid; apply H).
  rewrite poly_degree_ok by (apply valid_poly_check; exact Hv). cb.
  unfold psimplified. pose proof (psimp_shape p) as Hs. destruct Hv as [Hne Hv].
  destruct (psimp p) as [|m [|m2 l]] eqn:Ep; [congruence| |].
  - inversion Hv as [|? ? Hm _]; subst.
    destruct (Z.eqb_spec (pdeg [m]) 0) as [E|E].
    + apply (pdeg_zero [m] Hv) in E. inversion E as [|? ? Hc _]; subst. rewrite Hc.
      rewrite poly_constant_ok by (apply valid_poly_check; split; assumption). unfold pconst. cbn. rewrite Hc. reflexivity.
    + destruct (is_const m) eqn:Hc.
      { exfalso. apply E. apply pdeg_zero; [exact Hv|]. constructor; [exact Hc | constructor]. }
      rewrite poly_variables_single by exact Hm.
      destruct (Z.eqb_spec (pdeg [m]) 1) as [E1|E1].
      * cbn in E1. pose proof (tdeg_nonneg m Hm). destruct (tdeg_one m Hm) as (v & He & Hvs); [lia|].
        rewrite Hvs. cbn [index nth_error bind].
        assert (Hvv : valid_var v). { destruct Hm as (_ & _ & _ & Hm). rewrite Hvs in Hm. inversion Hm; assumption. }
        unfold mono_is_variable. rewrite (valid_mono_check m Hm). pose proof Hvv as Hvv'. apply var_check_valid in Hvv'.
        rewrite Hvv'. cb. rewrite mono_degree_one_ok by assumption. rewrite He, Hvs. cb.
        replace (same_id v v) with true by (symmetry; apply same_id_iff; reflexivity). cbn [andb Z.eqb Pos.eqb].
        unfold is_plain_var. rewrite He, Hvs. cbn [length Nat.eqb]. rewrite andb_true_r. cbn [Z.eqb Pos.eqb].
        rewrite andb_true_r. destruct (m_coeff m =? n1); [|reflexivity].
        unfold mono_to_variable. rewrite (valid_mono_check m Hm). cb. rewrite Hvs.
        rewrite mono_degree_one_ok by assumption. rewrite He, Hvs. cb.
        replace (same_id v v) with true by (symmetry; apply same_id_iff; reflexivity). reflexivity.
      * cb. destruct (is_plain_var m) eqn:Epv; [|reflexivity]. exfalso. unfold is_plain_var in Epv.
        apply andb_true_iff in Epv. destruct Epv as [Epv E2]. apply andb_true_iff in Epv. destruct Epv as [_ E3].
        apply Nat.eqb_eq in E3. destruct Hm as (Hl & Hpos & _). rewrite E3 in Hl.
        destruct (m_exps m) as [|e [|e' es]] eqn:Ee; try discriminate. apply Z.eqb_eq in E2. subst e.
        apply E1. cbn [pdeg]. unfold tdeg. rewrite Ee. cbn. lia.
  - destruct (Z.eqb_spec (pdeg (m :: m2 :: l)) 0) as [E|E].
    { apply (pdeg_zero _ Hv) in E. destruct (shape_two _ m m2 l Hs eq_refl) as (x & Hx & Hc).
      rewrite Forall_forall in E. rewrite E in Hc by exact Hx. discriminate. }
    destruct (Z.eqb (pdeg (m :: m2 :: l)) 1); reflexivity.
Qed.

Lemma msimplified_valid m : valid_mono m -> valid (msimplified m).
Proof.
  intro H. unfold msimplified. destruct (m_vars m) as [|v vs] eqn:E; [exact I|].
  destruct (m_coeff m =? n0); [exact I|]. destruct (is_plain_var m); [|exact H].
  destruct H as (_ & _ & _ & H). rewrite E in H. inversion H; assumption.
Qed.

Lemma psimplified_valid p : Forall valid_mono p -> valid (psimplified p).
Proof.
  intro H. pose proof (psimp_valid p H) as Hv. unfold psimplified.
  destruct (psimp p) as [|m [|m2 l]] eqn:E; [exact Hv| |exact Hv].
  destruct Hv as [_ Hv]. inversion Hv as [|? ? Hm _]; subst.
  destruct (is_const m); [exact I|]. destruct (is_plain_var m); [|exact Hm].
  destruct Hm as (H1 & H2 & H3 & H4). destruct (m_vars m) as [|v vs] eqn:Ev.
  - cbn. unfold valid_mono. rewrite Ev. auto.
  - inversion H4; assumption.
Qed.

Definition ssimplified (s : scalar) : scalar :=
  match s with SM m => msimplified m | SP p => psimplified p | _ => s end.

Lemma scalar_simplified_ok s : valid s -> scalar_simplified s = Ok (ssimplified s).
Proof.
  destruct s as [k|v|m|p]; cbn [valid scalar_simplified ssimplified]; intro H; try reflexivity.
  - apply mono_simplified_ok; exact H.
  - apply poly_simplified_ok; exact H.
Qed.

Lemma ssimplified_valid s : valid s -> valid (ssimplified s).
Proof.
  destruct s as [k|v|m|p]; cbn [ssimplified]; intro H; try exact H.
  - apply msimplified_valid; exact H.
  - apply psimplified_valid; apply H.
Qed.

End ScalarValid.
