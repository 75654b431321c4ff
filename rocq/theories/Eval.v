(** * Values: lemmas about [eval] in exact arithmetic *)

From Coq Require Import ZArith NArith Bool List Lia Field.
From Verif Require Import Num Syntax ModelScalar Spec Base ScalarValid.
Import ListNotations.

Section Exponents.
Context {NN : Num}.

Lemma exponent_in_nonneg vs es i : Forall (fun e => (0 <= e)%Z) es -> (0 <= exponent_in vs es i)%Z.
Proof.
  intro H. revert vs. induction H as [|e es He Hes IH]; intros [|v vs]; cbn; try lia.
  specialize (IH vs). destruct (N.eqb (v_id v) i); lia.
Qed.

Lemma exponent_in_notin vs es i : ~ In i (map v_id vs) -> exponent_in vs es i = 0%Z.
Proof.
  revert es. induction vs as [|v vs IH]; intros [|e es] H; cbn; try reflexivity.
  destruct (N.eqb_spec (v_id v) i) as [E|E]; [exfalso; apply H; left; exact E|].
  rewrite IH; [reflexivity|]. intro Hin. apply H. right. exact Hin.
Qed.

Lemma exponent_in_app vs1 vs2 es1 es2 i :
  length es1 = length vs1 -> exponent_in (vs1 ++ vs2) (es1 ++ es2) i = (exponent_in vs1 es1 i + exponent_in vs2 es2 i)%Z.
Proof.
  revert es1. induction vs1 as [|v vs1 IH]; intros [|e es1] H; try discriminate; cbn; [reflexivity|].
  cbn in H. rewrite IH by lia. lia.
Qed.

Lemma exponent_nonneg m i : valid_mono m -> (0 <= exponent m i)%Z.
Proof. intros (_ & H & _). apply exponent_in_nonneg. eapply Forall_impl; [|exact H]. intros; cbn in *; lia. Qed.

(** with distinct IDs the exponent of a listed variable is the one at its position *)
Lemma exponent_in_nth vs es k v e :
  NoDup (map v_id vs) -> nth_error vs k = Some v -> nth_error es k = Some e -> exponent_in vs es (v_id v) = e.
Proof.
  revert es k. induction vs as [|w vs IH]; intros es k Hn Hv He; [destruct k; discriminate|].
  inversion Hn as [|? ? H1 H2]; subst. destruct es as [|e0 es]; [destruct k; discriminate|].
  destruct k as [|k]; cbn in Hv, He.
  - injection Hv as ->. injection He as ->. cbn. rewrite N.eqb_refl, exponent_in_notin by exact H1. lia.
  - cbn. destruct (N.eqb_spec (v_id w) (v_id v)) as [E|E].
    + exfalso. apply H1. rewrite E. apply in_map. eapply nth_error_In; exact Hv.
    + rewrite (IH es k) by assumption. lia.
Qed.

Lemma exponent_pos m i : valid_mono m -> (In i (ids m) <-> (1 <= exponent m i)%Z).
Proof.
  intros (H1 & H2 & H3 & _). unfold ids, exponent. split.
  - intro H. apply in_map_iff in H. destruct H as (v & <- & Hv). apply In_nth_error in Hv. destruct Hv as (k & Hk).
    assert (Hlt : k < length (m_exps m)) by (rewrite H1; apply nth_error_Some; congruence).
    apply nth_error_Some in Hlt. destruct (nth_error (m_exps m) k) as [e|] eqn:He; [|congruence].
    rewrite (exponent_in_nth _ _ k v e H3 Hk He). rewrite Forall_forall in H2. apply H2. eapply nth_error_In; exact He.
  - intro H. destruct (in_dec N.eq_dec i (map v_id (m_vars m))) as [Hi|Hi]; [exact Hi|].
    rewrite exponent_in_notin in H by exact Hi. lia.
Qed.

Lemma exponent_zero m i : valid_mono m -> ~ In i (ids m) -> exponent m i = 0%Z.
Proof. intros _ H. apply exponent_in_notin. exact H. Qed.

Lemma is_const_exponent m : valid_mono m -> (is_const m = true <-> forall i, exponent m i = 0%Z).
Proof.
  intro H. unfold is_const. destruct (m_vars m) as [|v vs] eqn:E; split; intro K; try reflexivity; try discriminate.
  - intro i. unfold exponent. rewrite E. reflexivity.
  - exfalso. assert (Hin : In (v_id v) (ids m)) by (unfold ids; rewrite E; left; reflexivity).
    apply (exponent_pos m _ H) in Hin. rewrite K in Hin. lia.
Qed.

(** sum of the exponents over a duplicate-free superset of the IDs is the total degree *)
Fixpoint sumL (L : list N) (f : N -> Z) : Z := match L with [] => 0%Z | i :: L' => (f i + sumL L' f)%Z end.

Lemma sumL_ext L f g : (forall i, In i L -> f i = g i) -> sumL L f = sumL L g.
Proof.
  induction L as [|a L IH]; intro H; cbn; [reflexivity|].
  rewrite (H a) by (left; reflexivity). rewrite IH; [reflexivity|]. intros i Hi. apply H. right. exact Hi.
Qed.
Lemma sumL_add L f g : sumL L (fun i => (f i + g i)%Z) = (sumL L f + sumL L g)%Z.
Proof. induction L as [|a L IH]; cbn; [reflexivity|]. rewrite IH. lia. Qed.
Lemma sumL_le L f g : (forall i, In i L -> (f i <= g i)%Z) -> (sumL L f <= sumL L g)%Z.
Proof.
  induction L as [|a L IH]; intro H; cbn; [lia|].
  pose proof (H a (or_introl eq_refl)). specialize (IH (fun i Hi => H i (or_intror Hi))). lia.
Qed.
Lemma sumL_zero L f : (forall i, In i L -> f i = 0%Z) -> sumL L f = 0%Z.
Proof.
  induction L as [|a L IH]; intro H; cbn; [reflexivity|].
  rewrite (H a) by (left; reflexivity). rewrite IH; [reflexivity|]. intros i Hi. apply H. right. exact Hi.
Qed.

Lemma sumL_point L j e f : NoDup L -> In j L ->
  sumL L (fun i => ((if N.eqb j i then e else 0) + f i)%Z) = (e + sumL L f)%Z.
Proof.
  induction L as [|a L IH]; intros Hn Hj; [destruct Hj|]. inversion Hn as [|? ? H1 H2]; subst. cbn.
  destruct (N.eqb_spec j a) as [<-|Hne].
  - rewrite (sumL_ext L _ f); [lia|]. intros i Hi. destruct (N.eqb_spec j i) as [<-|]; [contradiction | lia].
  - rewrite IH; [lia | exact H2|]. destruct Hj as [E|Hj]; [congruence | exact Hj].
Qed.

Lemma sumL_exponent vs es L :
  length es = length vs -> NoDup L -> incl (map v_id vs) L -> sumL L (exponent_in vs es) = sumZ es.
Proof.
  revert es. induction vs as [|v vs IH]; intros [|e es] Hl Hn Hi; try discriminate.
  - apply sumL_zero. reflexivity.
  - cbn [exponent_in sumZ]. rewrite sumL_point; [|exact Hn|apply Hi; left; reflexivity].
    rewrite IH; [reflexivity | cbn in Hl; lia | exact Hn|]. intros i H. apply Hi. right. exact H.
Qed.

Lemma tdeg_sumL m L : valid_mono m -> NoDup L -> incl (ids m) L -> sumL L (exponent m) = tdeg m.
Proof. intros (H1 & _) Hn Hi. apply sumL_exponent; assumption. Qed.

Lemma tdeg_product m1 m2 m : valid_mono m1 -> valid_mono m2 -> valid_mono m -> product_powers m1 m2 m ->
  tdeg m = (tdeg m1 + tdeg m2)%Z.
Proof.
  intros V1 V2 V H. set (L := nodup N.eq_dec (ids m1 ++ ids m2 ++ ids m)).
  assert (HN : NoDup L) by apply NoDup_nodup.
  rewrite <- (tdeg_sumL m1 L), <- (tdeg_sumL m2 L), <- (tdeg_sumL m L);
    try assumption; try (intros i Hi; apply nodup_In; rewrite !in_app_iff; tauto).
  rewrite <- sumL_add. apply sumL_ext. intros i _. apply H.
Qed.

End Exponents.

Section Eval.
Context {NN : Num} {EX : ExactNum NN}.
Local Open Scope num_scope.

Lemma num_ring : ring_theory n0 n1 nadd nmul nsub nopp (@eq num).
Proof. exact (F_R ex_field). Qed.
Add Ring numring : num_ring.

Lemma npow_add x a b : npow x (a + b) = npow x a * npow x b.
Proof. induction a as [|a IH]; cbn; [ring|]. rewrite IH. ring. Qed.

Lemma npow_mul x y a : npow (x * y) a = npow x a * npow y a.
Proof. induction a as [|a IH]; cbn; [ring|]. rewrite IH. ring. Qed.

Lemma npow_one a : npow n1 a = n1.
Proof. induction a as [|a IH]; cbn; [reflexivity|]. rewrite IH. ring. Qed.

Fixpoint prodL (L : list N) (f : N -> num) : num := match L with [] => n1 | i :: L' => f i * prodL L' f end.

Lemma prodL_ext L f g : (forall i, In i L -> f i = g i) -> prodL L f = prodL L g.
Proof.
  induction L as [|a L IH]; intro H; cbn; [reflexivity|].
  rewrite (H a) by (left; reflexivity). rewrite IH; [reflexivity|]. intros i Hi. apply H. right. exact Hi.
Qed.
Lemma prodL_mul L f g : prodL L (fun i => f i * g i) = prodL L f * prodL L g.
Proof. induction L as [|a L IH]; cbn; [ring|]. rewrite IH. ring. Qed.
Lemma prodL_one L f : (forall i, In i L -> f i = n1) -> prodL L f = n1.
Proof.
  induction L as [|a L IH]; intro H; cbn; [reflexivity|].
  rewrite (H a) by (left; reflexivity). rewrite IH; [ring|]. intros i Hi. apply H. right. exact Hi.
Qed.
Lemma prodL_point L j x f : NoDup L -> In j L ->
  prodL L (fun i => (if N.eqb j i then x else n1) * f i) = x * prodL L f.
Proof.
  induction L as [|a L IH]; intros Hn Hj; [destruct Hj|]. inversion Hn as [|? ? H1 H2]; subst. cbn.
  destruct (N.eqb_spec j a) as [<-|Hne].
  - rewrite (prodL_ext L _ f); [ring|]. intros i Hi. destruct (N.eqb_spec j i) as [<-|]; [contradiction | ring].
  - rewrite IH; [ring | exact H2|]. destruct Hj as [E|Hj]; [congruence | exact Hj].
Qed.

Lemma eval_factors_prod r vs es L :
  length es = length vs -> Forall (fun e => (0 <= e)%Z) es -> NoDup L -> incl (map v_id vs) L ->
  eval_factors r vs es = prodL L (fun i => npow (r i) (Z.to_nat (exponent_in vs es i))).
Proof.
  revert es. induction vs as [|v vs IH]; intros [|e es] Hl He Hn Hi; try discriminate.
  - cbn. symmetry. apply prodL_one. reflexivity.
  - inversion He as [|? ? He1 He2]; subst. cbn [eval_factors exponent_in].
    rewrite (IH es); [|cbn in Hl; lia | exact He2 | exact Hn | intros i H; apply Hi; right; exact H].
    rewrite <- (prodL_point L (v_id v)); [|exact Hn|apply Hi; left; reflexivity].
    apply prodL_ext. intros i _. pose proof (exponent_in_nonneg vs es i He2).
    rewrite Z2Nat.inj_add by (destruct (N.eqb (v_id v) i); lia). rewrite npow_add.
    destruct (N.eqb_spec (v_id v) i) as [<-|]; reflexivity.
Qed.

Lemma eval_mono_prod r m L : valid_mono m -> NoDup L -> incl (ids m) L ->
  eval_mono r m = m_coeff m * prodL L (fun i => npow (r i) (Z.to_nat (exponent m i))).
Proof.
  intros (H1 & H2 & _) Hn Hi. unfold eval_mono. rewrite (eval_factors_prod r _ _ L); try assumption; [reflexivity|].
  eapply Forall_impl; [|exact H2]. intros; cbn in *; lia.
Qed.

Lemma factors_same_powers r m1 m2 : valid_mono m1 -> valid_mono m2 -> same_powers m1 m2 ->
  eval_factors r (m_vars m1) (m_exps m1) = eval_factors r (m_vars m2) (m_exps m2).
Proof.
  intros V1 V2 H. set (L := nodup N.eq_dec (ids m1 ++ ids m2)).
  assert (Hn : NoDup L) by apply NoDup_nodup.
  destruct V1 as (A1 & A2 & _). destruct V2 as (B1 & B2 & _).
  rewrite (eval_factors_prod r _ (m_exps m1) L), (eval_factors_prod r _ (m_exps m2) L); try assumption.
  - apply prodL_ext. intros i _. specialize (H i). unfold exponent in H. rewrite H. reflexivity.
  - eapply Forall_impl; [|exact B2]. intros; cbn in *; lia.
  - intros i Hi. apply nodup_In. apply in_app_iff. right. exact Hi.
  - eapply Forall_impl; [|exact A2]. intros; cbn in *; lia.
  - intros i Hi. apply nodup_In. apply in_app_iff. left. exact Hi.
Qed.

Lemma eval_product r m1 m2 m : valid_mono m1 -> valid_mono m2 -> valid_mono m -> product_powers m1 m2 m ->
  m_coeff m = m_coeff m1 * m_coeff m2 -> eval_mono r m = eval_mono r m1 * eval_mono r m2.
Proof.
  intros V1 V2 V H Hc. set (L := nodup N.eq_dec (ids m1 ++ ids m2 ++ ids m)).
  assert (HN : NoDup L) by apply NoDup_nodup.
  rewrite (eval_mono_prod r m L), (eval_mono_prod r m1 L), (eval_mono_prod r m2 L);
    try assumption; try (intros i Hi; apply nodup_In; rewrite !in_app_iff; tauto).
  rewrite Hc. transitivity (m_coeff m1 * m_coeff m2 * (prodL L (fun i => npow (r i) (Z.to_nat (exponent m1 i)))
    * prodL L (fun i => npow (r i) (Z.to_nat (exponent m2 i))))); [|ring].
  rewrite <- prodL_mul. f_equal. apply prodL_ext. intros i _. rewrite H, <- npow_add, <- Z2Nat.inj_add;
    [reflexivity | apply exponent_nonneg; assumption | apply exponent_nonneg; assumption].
Qed.

Lemma eval_poly_app r p q : eval_poly r (p ++ q) = eval_poly r p + eval_poly r q.
Proof. induction p as [|m p IH]; cbn; [ring|]. rewrite IH. ring. Qed.

Lemma eval_terms r s : eval_poly r (terms s) = eval r s.
Proof. destruct s as [k|v|m|p]; cbn [eval terms eval_poly]; [| | |reflexivity].
  - unfold eval_mono; cbn. ring.
  - unfold eval_mono; cbn. change (Pos.to_nat 1) with 1%nat. cbn. ring.
  - ring. Qed.

Lemma eval_k r k : eval_mono r (k_to_mono k) = k.
Proof. unfold eval_mono; cbn; ring. Qed.
Lemma eval_const r m : is_const m = true -> eval_mono r m = m_coeff m.
Proof. unfold is_const, eval_mono. destruct (m_vars m); [|discriminate]. intros _. cbn. ring. Qed.
Lemma eval_set_coeff r m c : eval_mono r (set_coeff m c) = c * eval_factors r (m_vars m) (m_exps m).
Proof. reflexivity. Qed.

Definition coherent (L : list Monomial) : Prop :=
  forall m1 m2, In m1 L -> In m2 L -> look_alike m1 m2 -> same_powers m1 m2.

(** the same exponents and variables, up to the coefficient *)
Definition same_form (m m0 : Monomial) : Prop := m_exps m = m_exps m0 /\ m_vars m = m_vars m0.

Lemma add_pure_value r acc m :
  Forall valid_mono acc -> valid_mono m ->
  (forall e, In e acc -> look_alike e m -> same_powers e m) ->
  eval_poly r (add_pure acc m) = eval_poly r acc + eval_mono r m.
Proof.
  induction acc as [|e acc IH]; intros Ha Hm Hc; cbn; [ring|].
  inversion Ha as [|? ? H1 H2]; subst. destruct (matchb e m) eqn:E; cbn [eval_poly].
  - apply matchb_look_alike in E; try assumption. apply (Hc e) in E; [|left; reflexivity].
    rewrite eval_set_coeff. unfold eval_mono. rewrite (factors_same_powers r e m) by assumption. ring.
  - rewrite IH; [ring | assumption | assumption|]. intros e' He'. apply Hc. right. exact He'.
Qed.

Lemma eqb0 (c : num) : (c =? n0) = true -> c = n0.
Proof. apply ex_eqb. Qed.
Lemma eqb_refl_num (c : num) : (c =? c) = true.
Proof. apply ex_eqb. reflexivity. Qed.

Lemma filter_nonzero_value r l : eval_poly r (filter nonzero l) = eval_poly r l.
Proof.
  induction l as [|m l IH]; cbn; [reflexivity|]. unfold nonzero at 1. destruct (m_coeff m =? n0) eqn:E; cbn; rewrite IH.
  - apply eqb0 in E. unfold eval_mono. rewrite E. ring.
  - reflexivity.
Qed.

(** terms whose form comes from [L] *)
Definition formed (L : list Monomial) (m : Monomial) : Prop := exists m0, In m0 L /\ same_form m m0.

Lemma formed_form_pred L : form_pred (formed L).
Proof. intros m c (m0 & H1 & H2). exists m0. split; [exact H1 | exact H2]. Qed.

Lemma look_alike_form m1 m2 a b : same_form m1 a -> same_form m2 b -> look_alike m1 m2 -> look_alike a b.
Proof.
  intros [A1 A2] [B1 B2]. unfold look_alike, ids. rewrite A1, A2, B1, B2. tauto.
Qed.
Lemma same_powers_form m1 m2 a b : same_form m1 a -> same_form m2 b -> same_powers a b -> same_powers m1 m2.
Proof.
  intros [A1 A2] [B1 B2] H i. specialize (H i). unfold exponent in *. rewrite A1, A2, B1, B2. exact H.
Qed.

Lemma simp_pure_value r L p c acc :
  coherent L -> incl p L -> Forall valid_mono p -> Forall valid_mono acc -> Forall (formed L) acc ->
  fst (simp_pure p c acc) + eval_poly r (snd (simp_pure p c acc)) = c + eval_poly r acc + eval_poly r p.
Proof.
  intros HL. revert c acc. induction p as [|m p IH]; intros c acc Hi Hp Ha Hf; cbn [simp_pure eval_poly fst snd]; [ring|].
  inversion Hp as [|? ? H1 H2]; subst. assert (Hm : In m L) by (apply Hi; left; reflexivity).
  assert (Hi' : incl p L) by (intros x Hx; apply Hi; right; exact Hx).
  destruct (is_const m) eqn:E.
  - rewrite IH by assumption. rewrite (eval_const r m E). ring.
  - rewrite IH; try assumption.
    + rewrite add_pure_value; [ring | assumption | assumption|]. intros e He Hla.
      rewrite Forall_forall in Hf. destruct (Hf e He) as (e0 & He0 & Hsf).
      assert (Hmm : same_form m m) by (split; reflexivity).
      apply (same_powers_form e m e0 m Hsf Hmm). apply HL; [assumption | assumption|].
      exact (look_alike_form e m e0 m Hsf Hmm Hla).
    + apply add_pure_Forall; [exact valid_form_pred | assumption | assumption].
    + apply add_pure_Forall; [apply formed_form_pred | assumption|]. exists m. split; [exact Hm | split; reflexivity].
Qed.

Lemma psimp_value r p : Forall valid_mono p -> coherent p -> eval_poly r (psimp p) = eval_poly r p.
Proof.
  intros Hv Hc. pose proof (simp_pure_value r p p n0 [] Hc (incl_refl p) Hv (Forall_nil _) (Forall_nil _)) as H.
  unfold psimp. destruct (simp_pure p n0 []) as [c nc]. cbn [fst snd eval_poly] in H.
  assert (Hout : eval_poly r ((if c =? n0 then [] else [k_to_mono c]) ++ filter nonzero nc) = eval_poly r p).
  { rewrite eval_poly_app, filter_nonzero_value. transitivity (c + eval_poly r nc); [|rewrite H; ring].
    f_equal. destruct (c =? n0) eqn:E; cbn [eval_poly]; [symmetry; apply eqb0; exact E|]. rewrite eval_k. ring. }
  destruct ((if c =? n0 then [] else [k_to_mono c]) ++ filter nonzero nc); [|exact Hout].
  cbn [eval_poly] in *. rewrite eval_k, <- Hout. ring.
Qed.

Lemma is_plain_var_value r m v : valid_mono m -> is_plain_var m = true -> m_vars m = [v] -> eval_mono r m = r (v_id v).
Proof.
  intros (Hl & _) H Hv. unfold is_plain_var in H. apply andb_true_iff in H. destruct H as [H H1].
  apply andb_true_iff in H. destruct H as [H _]. apply ex_eqb in H. rewrite Hv in Hl.
  destruct (m_exps m) as [|e [|e' es]] eqn:E; try discriminate. apply Z.eqb_eq in H1. subst e.
  unfold eval_mono. rewrite H, E, Hv. cbn. change (Pos.to_nat 1) with 1%nat. cbn. ring.
Qed.

Lemma plain_var_single m v vs : is_plain_var m = true -> m_vars m = v :: vs -> m_vars m = [v].
Proof.
  unfold is_plain_var. intros H E. rewrite E in *. apply andb_true_iff in H. destruct H as [H _].
  apply andb_true_iff in H. destruct H as [_ H]. destruct vs; [reflexivity | discriminate].
Qed.

Lemma msimplified_value r m : valid_mono m -> eval r (msimplified m) = eval_mono r m.
Proof.
  intro V. unfold msimplified. destruct (m_vars m) as [|v vs] eqn:Ev.
  - cbn. unfold eval_mono. rewrite Ev. cbn. ring.
  - destruct (m_coeff m =? n0) eqn:E0.
    + apply eqb0 in E0. cbn. unfold eval_mono. rewrite E0. ring.
    + destruct (is_plain_var m) eqn:Ep; [|reflexivity]. cbn. symmetry. apply is_plain_var_value; [exact V | exact Ep|].
      eapply plain_var_single; eassumption.
Qed.

Lemma psimplified_value r p : Forall valid_mono p -> coherent p -> eval r (psimplified p) = eval_poly r p.
Proof.
  intros V Hc. rewrite <- psimp_value by assumption. pose proof (psimp_valid p V) as [_ Hv]. unfold psimplified.
  destruct (psimp p) as [|m [|m2 l]] eqn:E; try reflexivity.
  inversion Hv as [|? ? Hm _]; subst. cbn [eval_poly].
  destruct (is_const m) eqn:Hk; [cbn; rewrite eval_const by exact Hk; ring|].
  destruct (is_plain_var m) eqn:Ep; [|cbn; ring].
  destruct (m_vars m) as [|v vs] eqn:Ev; [cbn; ring|]. cbn [eval].
  rewrite (is_plain_var_value r m v Hm Ep); [ring|]. eapply plain_var_single; eassumption.
Qed.

End Eval.
