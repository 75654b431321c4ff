(** * Plus, Multiply, Minus: totality, validity and value, from one reduction relation on term lists *)

From Coq Require Import ZArith NArith Bool List Lia Field Permutation.
From Verif Require Import Num Syntax ModelScalar Spec Base ScalarValid Eval.
Import ListNotations.

Section Value.
Context {NN : Num} {EX : ExactNum NN}.
Local Open Scope num_scope.
Add Ring numring : num_ring.

Lemma eval_poly_perm r p q : Permutation p q -> eval_poly r p = eval_poly r q.
Proof. induction 1; cbn; try congruence. ring. Qed.

Lemma eval_poly_mid r l1 m l2 : eval_poly r (l1 ++ m :: l2) = eval_mono r m + eval_poly r (l1 ++ l2).
Proof. rewrite !eval_poly_app. cbn. ring. Qed.

Lemma eval_merge r m m' : valid_mono m -> valid_mono m' -> same_powers m m' ->
  eval_mono r (set_coeff m (m_coeff m + m_coeff m')) = eval_mono r m + eval_mono r m'.
Proof. intros V V' H. unfold eval_mono. cbn. rewrite (factors_same_powers r m m') by assumption. ring. Qed.

Lemma eval_poly_single r m : eval_poly r [m] = eval_mono r m.
Proof. cbn. ring. Qed.

Lemma eval_poly_cons0 r p : eval_poly r (k_to_mono n0 :: p) = eval_poly r p.
Proof. cbn [eval_poly]. rewrite eval_k. ring. Qed.

End Value.

Section Ops.
Context {NN : Num}.
Local Open Scope num_scope.
Ltac cb := cbn [bind check].

(** [L'] is obtained from [L] by merging like terms and dropping zeros *)
Definition lred (L L' : list Monomial) : Prop :=
  valid_poly L' /\ (forall m, In m L' -> is_const m = true \/ formed L m)
  /\ (ExactNum NN -> coherent L -> forall r, eval_poly r L' = eval_poly r L).

Lemma valid_terms_iff s : valid s <-> valid_poly (terms s).
Proof.
  split; [intro H; split; [|apply valid_terms; exact H]|].
  - destruct s; cbn; try discriminate. apply H.
  - destruct s as [k|v|m|p]; cbn; intros [H1 H2]; [exact I| | |split; assumption].
    + inversion H2 as [|? ? H3 _]; subst. destruct H3 as (_ & _ & _ & H3). cbn in H3. inversion H3; assumption.
    + inversion H2; assumption.
Qed.

Lemma same_form_refl m : same_form m m.
Proof. split; reflexivity. Qed.
Lemma formed_in L m : In m L -> formed L m.
Proof. intro H. exists m. split; [exact H | apply same_form_refl]. Qed.
Lemma formed_trans L L' m : formed L' m -> (forall m0, In m0 L' -> is_const m0 = true \/ formed L m0) ->
  is_const m = true \/ formed L m.
Proof.
  intros (m0 & H1 & [E1 E2]) H. destruct (H m0 H1) as [Hc|(m1 & H2 & [E3 E4])].
  - left. unfold is_const in *. rewrite E2. exact Hc.
  - right. exists m1. split; [exact H2|]. split; congruence.
Qed.

Lemma const_like m1 m2 : look_alike m1 m2 -> is_const m1 = is_const m2.
Proof. intros (_ & H & _). unfold is_const. destruct (m_vars m1), (m_vars m2); try reflexivity; discriminate. Qed.

Lemma const_powers m1 m2 : is_const m1 = true -> is_const m2 = true -> same_powers m1 m2.
Proof.
  unfold is_const, same_powers, exponent. destruct (m_vars m1), (m_vars m2); try discriminate. reflexivity.
Qed.

Lemma coherent_forms L L' :
  coherent L -> (forall m, In m L' -> is_const m = true \/ formed L m) -> coherent L'.
Proof.
  intros HL H m1 m2 H1 H2 Hla. pose proof (const_like _ _ Hla) as Hk.
  destruct (H m1 H1) as [C1|(a & A1 & A2)], (H m2 H2) as [C2|(b & B1 & B2)].
  - apply const_powers; assumption.
  - apply const_powers; congruence.
  - apply const_powers; congruence.
  - apply (same_powers_form m1 m2 a b A2 B2). apply HL; try assumption. exact (look_alike_form m1 m2 a b A2 B2 Hla).
Qed.

Lemma lred_refl L : valid_poly L -> lred L L.
Proof. intro H. split; [exact H|]. split; [intros m Hm; right; apply formed_in; exact Hm | reflexivity]. Qed.

Lemma lred_trans L1 L2 L3 : lred L1 L2 -> lred L2 L3 -> lred L1 L3.
Proof.
  intros (A1 & A2 & A3) (B1 & B2 & B3). split; [exact B1|]. split.
  - intros m Hm. destruct (B2 m Hm) as [C|C]; [left; exact C|]. eapply formed_trans; eassumption.
  - intros EX HL r. rewrite B3; [apply A3; assumption | exact EX|]. eapply coherent_forms; eassumption.
Qed.

Lemma lred_perm L L' : valid_poly L -> Permutation L L' -> lred L L'.
Proof.
  intros [H1 H2] HP. split.
  - split; [intros ->; apply Permutation_sym, Permutation_nil in HP; congruence|].
    eapply Permutation_Forall; eassumption.
  - split; [|intros EX _ r; symmetry; apply eval_poly_perm; exact HP].
    intros m Hm. right. apply formed_in. eapply Permutation_in; [apply Permutation_sym; exact HP | exact Hm].
Qed.

Lemma lred_perm_l L1 L2 L3 : valid_poly L1 -> Permutation L1 L2 -> lred L2 L3 -> lred L1 L3.
Proof. intros V P H. eapply lred_trans; [apply lred_perm; eassumption | exact H]. Qed.

Lemma coherent_incl L L' : incl L' L -> coherent L -> coherent L'.
Proof. intros H HL m1 m2 H1 H2. apply HL; apply H; assumption. Qed.

Lemma lred_app A A' B B' : lred A A' -> lred B B' -> lred (A ++ B) (A' ++ B').
Proof.
  intros ([A0 A1] & A2 & A3) ([B0 B1] & B2 & B3). split; [split|split].
  - destruct A'; [congruence | discriminate].
  - apply Forall_app; split; assumption.
  - intros m Hm. apply in_app_iff in Hm. destruct Hm as [Hm|Hm].
    + destruct (A2 m Hm) as [C|(m0 & C1 & C2)]; [left; exact C|]. right. exists m0. split; [apply in_app_iff; auto | exact C2].
    + destruct (B2 m Hm) as [C|(m0 & C1 & C2)]; [left; exact C|]. right. exists m0. split; [apply in_app_iff; auto | exact C2].
  - intros EX HL r. rewrite !eval_poly_app, A3, B3; try reflexivity; try assumption;
      (eapply coherent_incl; [|exact HL]; intros x Hx; apply in_app_iff; auto).
Qed.

Lemma lred_simplified s : valid s -> lred (terms s) (terms (ssimplified s)).
Proof.
  intro V. pose proof (ssimplified_valid s V) as V'. split; [apply valid_terms_iff; exact V'|]. split.
  - destruct s as [k|v|m|p]; cbn [ssimplified].
    + intros m Hm; right; apply formed_in; exact Hm.
    + intros m Hm; right; apply formed_in; exact Hm.
    + unfold msimplified. destruct (m_vars m) as [|v vs] eqn:Ev; [intros x [<-|[]]; left; reflexivity|].
      destruct (m_coeff m =? n0); [intros x [<-|[]]; left; reflexivity|].
      destruct (is_plain_var m) eqn:Ep.
      * intros x [<-|[]]. right. exists m. split; [left; reflexivity|]. pose proof (plain_var_single m v vs Ep Ev) as E1.
        destruct V as (V1 & _). unfold is_plain_var in Ep. rewrite E1 in *.
        apply andb_true_iff in Ep. destruct Ep as [_ Ep]. destruct (m_exps m) as [|e [|e' es]] eqn:Ee; try discriminate.
        apply Z.eqb_eq in Ep. subst e. split; cbn; congruence.
      * intros x Hx. right. apply formed_in. exact Hx.
    + assert (HF : forall x, In x (psimp p) -> is_const x = true \/ formed p x).
      { assert (HF : Forall (fun x => is_const x = false -> formed p x) (psimp p)).
        { apply psimp_Forall; [apply formed_form_pred|]. apply Forall_forall. intros x Hx _. apply formed_in. exact Hx. }
        intros x Hx. rewrite Forall_forall in HF. specialize (HF x Hx). destruct (is_const x); auto. }
      destruct V as [_ V]. pose proof (psimp_valid p V) as [_ Vp]. unfold psimplified. cbn [terms] in *.
      destruct (psimp p) as [|m [|m2 l]] eqn:E; try exact HF.
      destruct (is_const m) eqn:Ec; [intros x [<-|[]]; left; reflexivity|].
      destruct (is_plain_var m) eqn:Ep; [|exact HF].
      destruct (m_vars m) as [|v vs] eqn:Ev; [exact HF|]. intros x [<-|[]]. right.
      destruct (HF m (or_introl eq_refl)) as [C|(m0 & C1 & C2)]; [congruence|]. exists m0. split; [exact C1|].
      pose proof (plain_var_single m v vs Ep Ev) as E1.
      inversion Vp as [|? ? Vm _]; subst. destruct Vm as (V1 & _). unfold is_plain_var in Ep. rewrite E1 in *.
      apply andb_true_iff in Ep. destruct Ep as [_ Ep]. destruct (m_exps m) as [|e [|e' es]] eqn:Ee; try discriminate.
      apply Z.eqb_eq in Ep. subst e. destruct C2 as [C2 C3]. split; cbn; congruence.
  - intros EX Hc r. rewrite !eval_terms. destruct s as [k|v|m|p]; cbn [ssimplified]; try reflexivity.
    + cbn. apply msimplified_value. exact V.
    + cbn. apply psimplified_value; [apply V | exact Hc].
Qed.

Lemma lred_merge l1 m l2 m' :
  valid_poly (l1 ++ m :: l2) -> valid_mono m' -> look_alike m m' ->
  lred ((l1 ++ m :: l2) ++ [m']) (l1 ++ set_coeff m (m_coeff m + m_coeff m') :: l2).
Proof.
  intros [V0 V] Vm Hla. apply Forall_app in V. destruct V as [V1 V2]. inversion V2 as [|? ? V3 V4]; subst.
  split; [split|split].
  - destruct l1; discriminate.
  - apply Forall_app. split; [exact V1|]. constructor; [exact V3 | exact V4].
  - intros x Hx. right. apply in_app_iff in Hx. destruct Hx as [Hx|[<-|Hx]].
    + apply formed_in. rewrite !in_app_iff. auto.
    + exists m. split; [rewrite !in_app_iff; cbn; auto | split; reflexivity].
    + apply formed_in. rewrite !in_app_iff. cbn. auto.
  - intros EX HL r. assert (Hs : same_powers m m').
    { apply HL; [rewrite !in_app_iff; cbn; auto | rewrite !in_app_iff; cbn; auto | exact Hla]. }
    rewrite (eval_poly_app r (l1 ++ m :: l2)), !eval_poly_mid, eval_merge by assumption. rewrite eval_poly_single.
    rewrite <- (Radd_assoc num_ring), (Radd_comm num_ring (eval_mono r m') _), (Radd_assoc num_ring). reflexivity.
Qed.

(** ** Plus *)

(** the result of an operation: it returns a simplified expression that reduces the given term list *)
Definition plus_spec (L : list Monomial) (x : res scalar) : Prop :=
  exists s, valid s /\ x = Ok (ssimplified s) /\ lred L (terms s).

Lemma plus_spec_simp L s : valid s -> lred L (terms s) -> plus_spec L (scalar_simplified s).
Proof. intros V H. exists s. split; [exact V|]. split; [apply scalar_simplified_ok; exact V | exact H]. Qed.

Lemma plus_spec_again L x : plus_spec L x -> plus_spec L (out <- x ;; scalar_simplified out).
Proof.
  intros (s & V & -> & H). cb. apply plus_spec_simp; [apply ssimplified_valid; exact V|].
  eapply lred_trans; [exact H | apply lred_simplified; exact V].
Qed.

Lemma plus_spec_perm L L' x : valid_poly L -> Permutation L L' -> plus_spec L' x -> plus_spec L x.
Proof. intros V P (s & V' & -> & H). exists s. split; [exact V'|]. split; [reflexivity|]. eapply lred_perm_l; eassumption. Qed.

Lemma valid_poly_app p q : valid_poly p -> valid_poly q -> valid_poly (p ++ q).
Proof. intros [H1 H2] [_ H4]. split; [destruct p; [congruence | discriminate] | apply Forall_app; split; assumption]. Qed.
Lemma valid_poly_single m : valid_mono m -> valid_poly [m].
Proof. intro H. split; [discriminate | constructor; [exact H | constructor]]. Qed.
Lemma valid_mono_of_var v : valid_var v -> valid_mono (var_to_mono v).
Proof. intro H. apply valid_mono_var; [exact H | lia]. Qed.
Hint Resolve valid_poly_app valid_poly_single valid_mono_of_var valid_mono_k valid_mono_check valid_poly_check : core.

Lemma poly_plus_k_spec p k : valid_poly p -> plus_spec (p ++ [k_to_mono k]) (poly_plus_k p k).
Proof.
  intro V. unfold poly_plus_k. rewrite (valid_poly_check p V). cb.
  destruct (poly_constant_index_ok p (valid_poly_check p V)) as (o & -> & Ho). cb.
  assert (Vk : valid_mono (k_to_mono k)) by apply valid_mono_k.
  destruct o as [i|].
  - destruct Ho as (l1 & m & l2 & -> & -> & Hc & _). rewrite index_split. cb. rewrite set_nth_split.
    assert (HR : lred ((l1 ++ m :: l2) ++ [k_to_mono k]) (l1 ++ set_coeff m (m_coeff m + k) :: l2)).
    { apply (lred_merge l1 m l2 (k_to_mono k)); try assumption.
      destruct V as [_ V]. apply Forall_app in V. destruct V as [_ V]. inversion V as [|? ? [V1 _] _]; subst.
      unfold is_const in Hc. unfold look_alike, ids. destruct (m_vars m); [|discriminate].
      destruct (m_exps m); [|discriminate]. cbn. repeat split; tauto. }
    apply (plus_spec_simp _ (SP _)); [apply HR | exact HR].
  - apply (plus_spec_simp _ (SP _)); [cbn; auto | apply lred_refl; cbn; auto].
Qed.

Lemma poly_variable_index_ok p v : valid_poly p -> valid_var v ->
  exists o, poly_variable_index p v = Ok o /\
  match o with
  | None => forall a, In a p -> match m_vars a, m_exps a with [w], [e] => same_id w v && Z.eqb e 1 | _, _ => false end = false
  | Some i => exists l1 a l2, p = l1 ++ a :: l2 /\ i = length l1
               /\ (exists w, m_vars a = [w] /\ m_exps a = [1%Z] /\ v_id w = v_id v)
               /\ forall b, In b l1 -> match m_vars b, m_exps b with [w], [e] => same_id w v && Z.eqb e 1 | _, _ => false end = false
  end.
Proof.
  intros V Vv. unfold poly_variable_index. rewrite (valid_poly_check p V). pose proof Vv as Hv.
  apply var_check_valid in Hv. rewrite Hv. cb.
  destruct (first_index_ok (fun m => mono_is_degree_one_in m v)
    (fun a => match m_vars a, m_exps a with [w], [e] => same_id w v && Z.eqb e 1 | _, _ => false end) p 0) as (o & H1 & H2).
  - intros a Ha. apply mono_degree_one_ok; [|exact Vv]. destruct V as [_ V]. rewrite Forall_forall in V. apply V. exact Ha.
  - exists o. split; [exact H1|]. destruct o as [i|]; [|exact H2].
    destruct H2 as (l1 & a & l2 & E1 & E2 & E3 & E4). exists l1, a, l2. split; [exact E1|]. split; [exact E2|]. split; [|exact E4].
    destruct (m_vars a) as [|w [|w' ws]]; try discriminate. destruct (m_exps a) as [|e [|e' es]]; try discriminate.
    apply andb_true_iff in E3. destruct E3 as [E5 E6]. apply same_id_iff in E5. apply Z.eqb_eq in E6. exists w. subst. auto.
Qed.

Lemma like_var a v w : m_vars a = [w] -> m_exps a = [1%Z] -> v_id w = v_id v -> look_alike a (var_to_mono v).
Proof. intros H1 H2 H3. unfold look_alike, ids. rewrite H1, H2. cbn. rewrite H3. repeat split; tauto. Qed.

Lemma poly_plus_var_spec p v : valid_poly p -> valid_var v -> plus_spec (p ++ [var_to_mono v]) (poly_plus_var p v).
Proof.
  intros V Vv. unfold poly_plus_var. rewrite (valid_poly_check p V). pose proof Vv as Hv.
  apply var_check_valid in Hv. rewrite Hv. cb.
  destruct (poly_variable_index_ok p v V Vv) as (o & -> & Ho). cb.
  destruct o as [i|].
  - destruct Ho as (l1 & m & l2 & -> & -> & (w & H1 & H2 & H3) & _). rewrite index_split. cb. rewrite set_nth_split.
    assert (HR : lred ((l1 ++ m :: l2) ++ [var_to_mono v]) (l1 ++ set_coeff m (m_coeff m + n1) :: l2)).
    { apply (lred_merge l1 m l2 (var_to_mono v)); auto. eapply like_var; eassumption. }
    apply (plus_spec_simp _ (SP _)); [apply HR | exact HR].
  - apply (plus_spec_simp _ (SP _)); [cbn; auto | apply lred_refl; cbn; auto].
Qed.

Lemma poly_plus_poly_spec p q : valid_poly p -> valid_poly q -> plus_spec (p ++ q) (poly_plus_poly p q).
Proof.
  intros V W. unfold poly_plus_poly. rewrite (valid_poly_check p V), (valid_poly_check q W). cb.
  apply plus_spec_again. apply (plus_spec_simp _ (SP _)); [cbn; auto | apply lred_refl; cbn; auto].
Qed.

Lemma poly_plus_mono_spec p m : valid_poly p -> valid_mono m -> plus_spec (p ++ [m]) (poly_plus_mono p m).
Proof.
  intros V W. unfold poly_plus_mono. rewrite (valid_poly_check p V), (valid_mono_check m W). cb.
  apply plus_spec_again. apply poly_plus_poly_spec; [exact V | apply valid_poly_single; exact W].
Qed.

Lemma mono_plus_k_spec m k : valid_mono m -> plus_spec [m; k_to_mono k] (mono_plus_k m k).
Proof.
  intro V. unfold mono_plus_k. rewrite (valid_mono_check m V). cb.
  rewrite mono_is_constant_ok by auto. cb. assert (Vk : valid_mono (k_to_mono k)) by apply valid_mono_k.
  destruct (is_const m) eqn:E.
  - assert (Hla : look_alike m (k_to_mono k)).
    { destruct V as [V1 _]. unfold is_const in E. unfold look_alike, ids. destruct (m_vars m); [|discriminate].
      destruct (m_exps m); [|discriminate]. cbn. repeat split; tauto. }
    pose proof (lred_merge [] m [] (k_to_mono k) (valid_poly_single m V) Vk Hla) as HR. cbn [app] in HR.
    apply plus_spec_simp; [exact I|]. eapply lred_trans; [exact HR|]. cbn [m_coeff k_to_mono].
    assert (E2 : set_coeff m (m_coeff m + k) = k_to_mono (m_coeff m + k)).
    { destruct V as [V1 _]. unfold is_const in E. unfold set_coeff, k_to_mono. destruct (m_vars m); [|discriminate].
      destruct (m_exps m); [reflexivity | discriminate]. }
    rewrite E2. apply lred_refl. apply valid_poly_single. apply valid_mono_k.
  - apply plus_spec_simp; [|apply lred_refl]; cbn; (split; [discriminate|]); constructor; auto.
Qed.

Lemma valid_poly_two m m' : valid_mono m -> valid_mono m' -> valid_poly [m; m'].
Proof. intros H1 H2. split; [discriminate|]. constructor; [exact H1|]. constructor; [exact H2 | constructor]. Qed.
Hint Resolve valid_poly_two : core.

Lemma mono_plus_var_spec m v : valid_mono m -> valid_var v -> plus_spec [m; var_to_mono v] (mono_plus_var m v).
Proof.
  intros V Vv. unfold mono_plus_var. rewrite (valid_mono_check m V). pose proof Vv as Hv. apply var_check_valid in Hv.
  rewrite Hv. cb. rewrite mono_degree_one_ok by assumption. cb.
  destruct (match m_vars m, m_exps m with [w], [e] => same_id w v && Z.eqb e 1 | _, _ => false end) eqn:E.
  - assert (Hla : look_alike m (var_to_mono v)).
    { destruct (m_vars m) as [|w [|w' ws]] eqn:E1; try discriminate. destruct (m_exps m) as [|e [|e' es]] eqn:E2; try discriminate.
      apply andb_true_iff in E. destruct E as [E3 E4]. apply same_id_iff in E3. apply Z.eqb_eq in E4. subst e.
      eapply like_var; eassumption. }
    pose proof (lred_merge [] m [] (var_to_mono v) (valid_poly_single m V) (valid_mono_of_var v Vv) Hla) as HR. cbn [app] in HR.
    apply plus_spec_simp; [exact V | exact HR].
  - apply plus_spec_simp; [|apply lred_refl]; cbn; auto.
Qed.

Lemma mono_plus_mono_spec m m' : valid_mono m -> valid_mono m' -> plus_spec [m; m'] (mono_plus_mono m m').
Proof.
  intros V V'. unfold mono_plus_mono. rewrite (valid_mono_check m V), (valid_mono_check m' V'). cb.
  rewrite mono_matches_form_ok by auto. cb. destruct (matchb m m') eqn:E.
  - apply matchb_look_alike in E; try assumption.
    pose proof (lred_merge [] m [] m' (valid_poly_single m V) V' E) as HR. cbn [app] in HR.
    apply plus_spec_simp; [exact V | exact HR].
  - apply plus_spec_simp; [|apply lred_refl]; cbn; auto.
Qed.

Lemma mono_plus_poly_spec m p : valid_mono m -> valid_poly p -> plus_spec (m :: p) (mono_plus_poly m p).
Proof.
  intros V W. unfold mono_plus_poly. rewrite (valid_mono_check m V), (valid_poly_check p W). cb.
  apply plus_spec_again. eapply plus_spec_perm; [|apply Permutation_cons_append|apply poly_plus_mono_spec; assumption].
  change (m :: p) with ([m] ++ p). auto.
Qed.

Lemma var_plus_k_spec v k : valid_var v -> plus_spec [var_to_mono v; k_to_mono k] (var_plus_k v k).
Proof.
  intro Vv. unfold var_plus_k. pose proof Vv as Hv. apply var_check_valid in Hv. rewrite Hv. cb.
  assert (Vk : valid_mono (k_to_mono k)) by apply valid_mono_k.
  apply (plus_spec_simp _ (SP _)); [|apply lred_refl]; cbn; auto.
Qed.

Lemma n2_exact : ExactNum NN -> n1 + n1 = n2.
Proof. intro EX. unfold n2. change 2%Z with (1 + 1)%Z. rewrite ex_ofZadd, ex_ofZ1. reflexivity. Qed.

Lemma var_plus_var_spec v w : valid_var v -> valid_var w -> plus_spec [var_to_mono v; var_to_mono w] (var_plus_var v w).
Proof.
  intros Vv Vw. unfold var_plus_var. pose proof Vv as Hv. apply var_check_valid in Hv. rewrite Hv. cb.
  destruct (same_id v w) eqn:E.
  - apply same_id_iff in E. apply plus_spec_simp; [apply valid_mono_var; [exact Vv | lia]|].
    split; [apply valid_poly_single, valid_mono_var; [exact Vv | lia]|]. split.
    + intros m [<-|[]]. right. exists (var_to_mono v). split; [left; reflexivity | split; reflexivity].
    + intros EX HL r. cbn [terms]. rewrite eval_poly_single. cbn [eval_poly]. rewrite (Radd_comm num_ring (eval_mono r (var_to_mono w)) n0).
      rewrite (Radd_0_l num_ring). rewrite <- eval_merge; auto.
      * cbn [m_coeff var_to_mono]. rewrite n2_exact by exact EX. reflexivity.
      * intro i. cbn. rewrite E. reflexivity.
  - apply plus_spec_simp; [|apply lred_refl]; cbn; auto.
Qed.

Lemma var_plus_mono_spec v m : valid_var v -> valid_mono m -> plus_spec [var_to_mono v; m] (var_plus_mono v m).
Proof.
  intros Vv V. unfold var_plus_mono. pose proof Vv as Hv. apply var_check_valid in Hv. rewrite Hv. cb.
  apply plus_spec_again. eapply plus_spec_perm; [auto | apply perm_swap | apply mono_plus_var_spec; assumption].
Qed.

Lemma var_plus_poly_spec v p : valid_var v -> valid_poly p -> plus_spec (var_to_mono v :: p) (var_plus_poly v p).
Proof.
  intros Vv V. unfold var_plus_poly. pose proof Vv as Hv. apply var_check_valid in Hv. rewrite Hv. cb.
  apply plus_spec_again. eapply plus_spec_perm; [|apply Permutation_cons_append|apply poly_plus_var_spec; assumption].
  change (var_to_mono v :: p) with ([var_to_mono v] ++ p). auto.
Qed.

Lemma valid_check' s : valid s -> scalar_check s = true.
Proof. apply valid_check. Qed.

Lemma scalar_plus_spec a b : valid a -> valid b -> plus_spec (terms a ++ terms b) (scalar_plus a b).
Proof.
  intros Va Vb. destruct a as [k|v|m|p]; cbn [scalar_plus].
  - unfold k_plus. rewrite (valid_check b Vb). cb. assert (Vk : valid_mono (k_to_mono k)) by apply valid_mono_k.
    destruct b as [k'|v|m|p]; cbn [terms app].
    + change (Ok (SK (k + k'))) with (scalar_simplified (SK (k + k'))). apply plus_spec_simp; [exact I|].
      assert (HR : lred ([k_to_mono k] ++ [k_to_mono k']) [k_to_mono (k + k')]).
      { apply (lred_merge [] (k_to_mono k) [] (k_to_mono k')).
        + apply valid_poly_single; exact Vk.
        + apply valid_mono_k.
        + unfold look_alike; cbn; repeat split; tauto. }
      exact HR.
    + eapply plus_spec_perm; [|apply perm_swap|apply var_plus_k_spec; exact Vb].
      apply valid_poly_two; [exact Vk | apply valid_mono_of_var; exact Vb].
    + eapply plus_spec_perm; [|apply perm_swap|apply mono_plus_k_spec; exact Vb].
      apply valid_poly_two; [exact Vk | exact Vb].
    + eapply plus_spec_perm; [|apply Permutation_cons_append|apply poly_plus_k_spec; exact Vb].
      change (mkMono k [] [] :: p) with ([k_to_mono k] ++ p). apply valid_poly_app; [apply valid_poly_single; exact Vk | exact Vb].
  - destruct b as [k'|w|m|p]; cbn [terms app var_plus].
    + apply var_plus_k_spec; exact Va.
    + apply var_plus_var_spec; assumption.
    + apply var_plus_mono_spec; assumption.
    + apply var_plus_poly_spec; assumption.
  - destruct b as [k'|w|m'|p]; cbn [terms app mono_plus].
    + apply mono_plus_k_spec; exact Va.
    + apply mono_plus_var_spec; assumption.
    + apply mono_plus_mono_spec; assumption.
    + apply mono_plus_poly_spec; assumption.
  - destruct b as [k'|w|m'|q]; cbn [terms poly_plus].
    + apply poly_plus_k_spec; exact Va.
    + apply poly_plus_var_spec; assumption.
    + apply poly_plus_mono_spec; assumption.
    + apply poly_plus_poly_spec; assumption.
Qed.

Lemma plus_spec_result L x : plus_spec L x -> exists s, x = Ok s /\ valid s /\ lred L (terms s).
Proof.
  intros (s & V & -> & H). exists (ssimplified s). split; [reflexivity|]. split; [apply ssimplified_valid; exact V|].
  eapply lred_trans; [exact H | apply lred_simplified; exact V].
Qed.

Lemma scalar_plus_lred a b : valid a -> valid b ->
  exists s, scalar_plus a b = Ok s /\ valid s /\ lred (terms a ++ terms b) (terms s).
Proof. intros Va Vb. apply plus_spec_result. apply scalar_plus_spec; assumption. Qed.

Lemma scalar_plus_float_spec a f : valid a -> plus_spec (terms a ++ [k_to_mono f]) (scalar_plus_float a f).
Proof.
  intro Va. destruct a as [k|v|m|p]; cbn [scalar_plus_float].
  - exact (scalar_plus_spec (SK k) (SK f) I I).
  - apply plus_spec_again. apply var_plus_k_spec; exact Va.
  - apply plus_spec_again. apply mono_plus_k_spec; exact Va.
  - apply plus_spec_again. apply poly_plus_k_spec; exact Va.
Qed.

(** ** Multiply *)

Lemma add_at_length i d l : length (add_at i d l) = length l.
Proof. unfold add_at. destruct (nth_error l i); [apply set_nth_length | reflexivity]. Qed.

Lemma exponent_add_at vs es k w d i :
  NoDup (map v_id vs) -> length es = length vs -> nth_error vs k = Some w ->
  exponent_in vs (add_at k d es) i = (exponent_in vs es i + (if N.eqb (v_id w) i then d else 0))%Z.
Proof.
  revert es k. induction vs as [|v vs IH]; intros es k Hn Hl Hk; [destruct k; discriminate|].
  destruct es as [|e es]; [discriminate|]. inversion Hn as [|? ? H1 H2]; subst. cbn in Hl.
  destruct k as [|k].
  - cbn in Hk. injection Hk as ->. cbn. destruct (N.eqb (v_id w) i); lia.
  - cbn in Hk. specialize (IH es k H2 ltac:(lia) Hk).
    assert (Ea : add_at (S k) d (e :: es) = e :: add_at k d es).
    { unfold add_at. cbn. destruct (nth_error es k); reflexivity. }
    rewrite Ea. cbn [exponent_in]. rewrite IH. lia.
Qed.

Lemma degree_loop_ok vs es variables deg :
  length es = length vs -> NoDup (map v_id variables) -> length deg = length variables ->
  incl (map v_id vs) (map v_id variables) ->
  exists out, degree_loop vs es variables deg = Ok out /\ length out = length variables
    /\ forall i, exponent_in variables out i = (exponent_in variables deg i + exponent_in vs es i)%Z.
Proof.
  revert es deg. induction vs as [|v vs IH]; intros es deg Hl Hn Hd Hi; cbn [degree_loop].
  - exists deg. split; [reflexivity|]. split; [exact Hd|]. intro i. cbn. lia.
  - destruct (find_var_in v variables) as (k & Hk); [apply Hi; left; reflexivity|]. rewrite Hk.
    destruct es as [|e es]; [discriminate|]. apply find_var_some in Hk. destruct Hk as (w & Hw & Ew).
    destruct (IH es (add_at k e deg)) as (out & H1 & H2 & H3); [cbn in Hl; lia | exact Hn | rewrite add_at_length; exact Hd | |].
    { intros i H. apply Hi. right. exact H. }
    exists out. split; [exact H1|]. split; [exact H2|]. intro i. rewrite H3, (exponent_add_at _ _ _ w) by assumption.
    cbn [exponent_in]. rewrite Ew. lia.
Qed.

Lemma exponent_zeros (vs : list var) i : exponent_in vs (map (fun _ => 0%Z) vs) i = 0%Z.
Proof. induction vs as [|v vs IH]; cbn; [reflexivity|]. rewrite IH. destruct (N.eqb _ _); reflexivity. Qed.

(** exponents are positive at every position if they are positive as a function on the listed IDs *)
Lemma exps_positive vs es :
  NoDup (map v_id vs) -> length es = length vs -> (forall i, In i (map v_id vs) -> (1 <= exponent_in vs es i)%Z) ->
  Forall (fun e => (1 <= e)%Z) es.
Proof.
  intros Hn Hl H. apply Forall_forall. intros e He. apply In_nth_error in He. destruct He as (k & Hk).
  assert (Hlt : k < length vs) by (rewrite <- Hl; apply nth_error_Some; congruence).
  apply nth_error_Some in Hlt. destruct (nth_error vs k) as [v|] eqn:Hv; [|congruence].
  rewrite <- (exponent_in_nth vs es k v e Hn Hv Hk). apply H. apply in_map. eapply nth_error_In; exact Hv.
Qed.

Lemma mono_mul_mono_ok m r : valid_mono m -> valid_mono r ->
  exists q, mono_mul_mono m r = Ok q /\ valid_mono q /\ product_powers m r q /\ m_coeff q = m_coeff m * m_coeff r.
Proof.
  intros V W. unfold mono_mul_mono. rewrite (valid_mono_check m V), (valid_mono_check r W). cb.
  set (vs := unique_vars (m_vars m ++ m_vars r)).
  assert (Hn : NoDup (map v_id vs)) by apply unique_vars_nodup.
  assert (Hi : forall i, In i (map v_id vs) <-> In i (ids m) \/ In i (ids r)).
  { intro i. unfold vs. rewrite unique_vars_in, map_app, in_app_iff. reflexivity. }
  destruct (degree_loop_ok (m_vars m) (m_exps m) vs (map (fun _ => 0%Z) vs)) as (d1 & -> & L1 & E1);
    [apply V | exact Hn | apply map_length | intros i H; apply Hi; left; exact H|]. cb.
  destruct (degree_loop_ok (m_vars r) (m_exps r) vs d1) as (d2 & -> & L2 & E2);
    [apply W | exact Hn | exact L1 | intros i H; apply Hi; right; exact H|]. cb.
  assert (HE : forall i, exponent_in vs d2 i = (exponent m i + exponent r i)%Z).
  { intro i. rewrite E2, E1, exponent_zeros. reflexivity. }
  eexists. split; [reflexivity|]. split; [|split; [exact HE | reflexivity]].
  split; [exact L2|]. cbn [m_exps m_vars]. split; [|split; [exact Hn|]].
  - apply (exps_positive vs); [exact Hn | exact L2|]. intros i H. rewrite HE. apply Hi in H.
    pose proof (exponent_nonneg m i V). pose proof (exponent_nonneg r i W).
    destruct H as [H|H]; apply exponent_pos in H; try assumption; lia.
  - apply Forall_forall. intros v Hv. apply unique_vars_incl in Hv. apply in_app_iff in Hv.
    destruct V as (_ & _ & _ & V). destruct W as (_ & _ & _ & W). rewrite Forall_forall in V, W.
    destruct Hv as [Hv|Hv]; auto.
Qed.

Lemma mono_mul_var_ok m v : valid_mono m -> valid_var v ->
  exists q, mono_mul_var m v = Ok q /\ valid_mono q /\ product_powers m (var_to_mono v) q /\ m_coeff q = m_coeff m.
Proof.
  intros V Vv. unfold mono_mul_var. rewrite (valid_mono_check m V). pose proof Vv as Hv. apply var_check_valid in Hv.
  rewrite Hv. cb. destruct V as (V1 & V2 & V3 & V4). destruct (find_var v (m_vars m)) as [k|] eqn:E.
  - apply find_var_some in E. destruct E as (w & Hw & Ew). eexists. split; [reflexivity|].
    assert (HE : forall i, exponent_in (m_vars m) (add_at k 1 (m_exps m)) i
      = (exponent m i + exponent (var_to_mono v) i)%Z).
    { intro i. rewrite (exponent_add_at _ _ _ w) by assumption. cbn. rewrite Ew. unfold exponent. lia. }
    split; [|split; [exact HE | reflexivity]].
    split; [cbn; rewrite add_at_length; exact V1|]. cbn [m_exps m_vars]. split; [|split; assumption].
    apply (exps_positive (m_vars m)); [exact V3 | rewrite add_at_length; exact V1|]. intros i H. rewrite HE.
    assert (H' : (1 <= exponent m i)%Z) by (apply exponent_pos; [repeat split; assumption | exact H]).
    pose proof (exponent_nonneg (var_to_mono v) i (valid_mono_of_var v Vv)). lia.
  - apply find_var_none in E. eexists. split; [reflexivity|]. split; [|split; [|reflexivity]].
    + split; [cbn; rewrite !app_length; cbn; lia|]. cbn [m_exps m_vars]. split; [|split].
      * apply Forall_app. split; [exact V2|]. constructor; [lia | constructor].
      * rewrite map_app. cbn. apply NoDup_Add with (a := v_id v) (l := map v_id (m_vars m)); [|split; assumption].
        rewrite <- (app_nil_r (map v_id (m_vars m))) at 1. apply Add_app.
      * apply Forall_app. split; [exact V4|]. constructor; [exact Vv | constructor].
    + intro i. unfold exponent. cbn [m_exps m_vars]. rewrite exponent_in_app by exact V1. reflexivity.
Qed.

(** the product of two expressions: it returns a valid expression that reduces a list of products of terms *)
Definition product_of (A B : list Monomial) (m : Monomial) : Prop :=
  valid_mono m /\ exists m1 m2, In m1 A /\ In m2 B /\ product_powers m1 m2 m.

Definition mul_spec (A B : list Monomial) (x : res scalar) : Prop :=
  exists s L, x = Ok s /\ valid s /\ lred L (terms s)
    /\ (forall m, In m L -> (valid_mono m /\ is_const m = true) \/ product_of A B m)
    /\ (ExactNum NN -> forall r, eval_poly r L = eval_poly r A * eval_poly r B).

Lemma mul_spec_simp A B s L : valid s -> lred L (terms s) ->
  (forall m, In m L -> (valid_mono m /\ is_const m = true) \/ product_of A B m) ->
  (ExactNum NN -> forall r, eval_poly r L = eval_poly r A * eval_poly r B) ->
  mul_spec A B (scalar_simplified s).
Proof.
  intros V H1 H2 H3. exists (ssimplified s), L. split; [apply scalar_simplified_ok; exact V|].
  split; [apply ssimplified_valid; exact V|]. split; [eapply lred_trans; [exact H1 | apply lred_simplified; exact V]|].
  split; assumption.
Qed.

Lemma mul_spec_again A B x : mul_spec A B x -> mul_spec A B (out <- x ;; scalar_simplified out).
Proof. intros (s & L & -> & V & H1 & H2 & H3). cb. eapply mul_spec_simp; eassumption. Qed.

Lemma mul_spec_swap A B x : mul_spec B A x -> mul_spec A B x.
Proof.
  intros (s & L & -> & V & H1 & H2 & H3). exists s, L. split; [reflexivity|]. split; [exact V|]. split; [exact H1|]. split.
  - intros m Hm. destruct (H2 m Hm) as [C|(C & m1 & m2 & D1 & D2 & D3)]; [left; exact C|]. right. split; [exact C|].
    exists m2, m1. split; [exact D2|]. split; [exact D1|]. intro i. rewrite D3. lia.
  - intros EX r. rewrite H3 by exact EX. apply (Rmul_comm num_ring).
Qed.

(** single products *)
Lemma mul_spec_mono A B m m1 m2 : A = [m1] -> B = [m2] -> valid_mono m1 -> valid_mono m2 -> valid_mono m ->
  product_powers m1 m2 m -> (ExactNum NN -> m_coeff m = m_coeff m1 * m_coeff m2) ->
  mul_spec A B (Ok (SM m)).
Proof.
  intros -> -> V1 V2 V HP HC. exists (SM m), [m]. split; [reflexivity|]. split; [exact V|].
  split; [apply lred_refl; apply valid_poly_single; exact V|]. split.
  - intros x [<-|[]]. right. split; [exact V|]. exists m1, m2. split; [left; reflexivity|]. split; [left; reflexivity | exact HP].
  - intros EX r. rewrite !eval_poly_single. apply eval_product; auto.
Qed.

Lemma exact_mul_1_r : ExactNum NN -> forall x : num, x * n1 = x.
Proof. intros EX x. rewrite (Rmul_comm num_ring). apply (Rmul_1_l num_ring). Qed.

Lemma product_powers_k m k c : product_powers m (k_to_mono k) (set_coeff m c).
Proof. intro i. unfold exponent; cbn. lia. Qed.

Lemma mono_mul_k_spec m k : valid_mono m -> mul_spec [m] [k_to_mono k] (as_SM (mono_mul_k m k)).
Proof.
  intro V. unfold as_SM, mono_mul_k. rewrite (valid_mono_check m V). cb.
  eapply mul_spec_mono; [reflexivity | reflexivity | exact V | apply valid_mono_k | exact V | apply product_powers_k | reflexivity].
Qed.

Lemma mono_mul_var_spec m v : valid_mono m -> valid_var v -> mul_spec [m] [var_to_mono v] (as_SM (mono_mul_var m v)).
Proof.
  intros V Vv. destruct (mono_mul_var_ok m v V Vv) as (q & -> & Vq & HP & HC). unfold as_SM. cb.
  eapply mul_spec_mono; [reflexivity | reflexivity | exact V | auto | exact Vq | exact HP|].
  intro EX. rewrite HC. cbn. rewrite exact_mul_1_r by exact EX. reflexivity.
Qed.

Lemma mono_mul_mono_spec m m' : valid_mono m -> valid_mono m' -> mul_spec [m] [m'] (as_SM (mono_mul_mono m m')).
Proof.
  intros V Vv. destruct (mono_mul_mono_ok m m' V Vv) as (q & -> & Vq & HP & HC). unfold as_SM. cb.
  eapply mul_spec_mono; [reflexivity | reflexivity | exact V | exact Vv | exact Vq | exact HP | intro EX; exact HC].
Qed.

Lemma mapM_exists {A B} (f : A -> res B) (R : A -> B -> Prop) l :
  (forall a, In a l -> exists b, f a = Ok b /\ R a b) -> exists bs, mapM f l = Ok bs /\ Forall2 R l bs.
Proof.
  induction l as [|a l IH]; intro H; cbn.
  - exists []. split; [reflexivity | constructor].
  - destruct (H a (or_introl eq_refl)) as (b & -> & Hb). cb.
    destruct IH as (bs & -> & Hbs); [intros x Hx; apply H; right; exact Hx|]. exists (b :: bs). split; [reflexivity|].
    constructor; assumption.
Qed.

Lemma Forall2_in_r {A B} (R : A -> B -> Prop) l bs b : Forall2 R l bs -> In b bs -> exists a, In a l /\ R a b.
Proof.
  induction 1 as [|x y l bs H1 H2 IH]; [intros []|]. intros [<-|Hb]; [exists x; split; [left; reflexivity | exact H1]|].
  destruct (IH Hb) as (a & Ha & HR). exists a. split; [right; exact Ha | exact HR].
Qed.

Lemma eval_mul_0_r : ExactNum NN -> forall x : num, x * n0 = n0.
Proof.
  intros EX x. pose proof (@num_ring NN EX) as T. transitivity (x * n0 + (x * n0 + - (x * n0))).
  - rewrite (Ropp_def T), (Radd_comm T), (Radd_0_l T). reflexivity.
  - rewrite (Radd_assoc T). rewrite (Rmul_comm T), <- (Rdistr_l T), (Radd_0_l T). apply (Ropp_def T).
Qed.

(** multiply every term by one term *)
Lemma poly_scale p m' (f : Monomial -> res Monomial) :
  valid_poly p -> valid_mono m' ->
  (forall m, valid_mono m -> exists q, f m = Ok q /\ valid_mono q /\ product_powers m m' q
      /\ (ExactNum NN -> m_coeff q = m_coeff m * m_coeff m')) ->
  mul_spec p [m'] (q <- mapM f p ;; poly_simplified q).
Proof.
  intros [V0 V] Vm Hf.
  destruct (mapM_exists f (fun m q => In m p /\ valid_mono q /\ product_powers m m' q
      /\ (ExactNum NN -> m_coeff q = m_coeff m * m_coeff m')) p) as (qs & -> & Hq).
  { intros m Hm. rewrite Forall_forall in V. destruct (Hf m (V m Hm)) as (q & E & H). exists q. split; [exact E|]. split; assumption. }
  cb. assert (Vq : valid_poly qs).
  { split; [intros ->; inversion Hq; subst; congruence|]. apply Forall_forall. intros q Hin.
    destruct (Forall2_in_r _ _ _ _ Hq Hin) as (m & _ & _ & H & _). exact H. }
  apply (mul_spec_simp p [m'] (SP qs) qs); [exact Vq | apply lred_refl; exact Vq | |].
  - intros q Hin. right. destruct (Forall2_in_r _ _ _ _ Hq Hin) as (m & Hm & _ & H & HP & _). split; [exact H|].
    exists m, m'. split; [exact Hm|]. split; [left; reflexivity | exact HP].
  - intros EX r. rewrite eval_poly_single. rewrite Forall_forall in V. 
    clear - Hq V EX Vm.
    assert (V' : forall x, In x p -> valid_mono x) by exact V. clear V.
    assert (HG : forall p0, (forall x, In x p0 -> valid_mono x) ->
      Forall2 (fun m q => In m p /\ valid_mono q /\ product_powers m m' q
      /\ (ExactNum NN -> m_coeff q = m_coeff m * m_coeff m')) p0 qs -> 
      valid_mono m' -> eval_poly r qs = eval_poly r p0 * eval_mono r m').
    { clear Hq V'. intros p0 V HF _. induction HF as [|m q p0 qs (H1 & H2 & H3 & H4) HF IH]; cbn [eval_poly].
      - symmetry. rewrite (Rmul_comm num_ring). apply eval_mul_0_r. exact EX.
      - rewrite IH by (intros x Hx; apply V; right; exact Hx). rewrite (Rdistr_l num_ring). f_equal.
        apply eval_product; auto. apply V. left. reflexivity. }
    apply HG; assumption.
Qed.

Lemma poly_mul_k_spec p k : valid_poly p -> mul_spec p [k_to_mono k] (poly_mul_k p k).
Proof.
  intro V. unfold poly_mul_k. rewrite (valid_poly_check p V). cb. apply poly_scale; [exact V | apply valid_mono_k|].
  intros m Vm. unfold mono_mul_k. rewrite (valid_mono_check m Vm). cb. eexists. split; [reflexivity|].
  split; [exact Vm|]. split; [apply product_powers_k | reflexivity].
Qed.

Lemma poly_mul_var_spec p v : valid_poly p -> valid_var v -> mul_spec p [var_to_mono v] (poly_mul_var p v).
Proof.
  intros V Vv. unfold poly_mul_var. rewrite (valid_poly_check p V). pose proof Vv as Hv. apply var_check_valid in Hv.
  rewrite Hv. cb. apply poly_scale; [exact V | auto|]. intros m Vm.
  destruct (mono_mul_var_ok m v Vm Vv) as (q & E & Vq & HP & HC). exists q. split; [exact E|]. split; [exact Vq|].
  split; [exact HP|]. intro EX. rewrite HC. cbn. rewrite exact_mul_1_r by exact EX. reflexivity.
Qed.

Lemma poly_mul_mono_spec p m' : valid_poly p -> valid_mono m' -> mul_spec p [m'] (poly_mul_mono p m').
Proof.
  intros V Vv. unfold poly_mul_mono. rewrite (valid_poly_check p V), (valid_mono_check m' Vv). cb.
  apply poly_scale; [exact V | exact Vv|]. intros m Vm.
  destruct (mono_mul_mono_ok m m' Vm Vv) as (q & E & Vq & HP & HC). exists q. split; [exact E|]. split; [exact Vq|].
  split; [exact HP|]. intros _. exact HC.
Qed.

Lemma product_of_incl A A' B B' m : incl A A' -> incl B B' -> product_of A B m -> product_of A' B' m.
Proof.
  intros H1 H2 (V & m1 & m2 & D1 & D2 & D3). split; [exact V|]. exists m1, m2. split; [apply H1; exact D1|].
  split; [apply H2; exact D2 | exact D3].
Qed.

Lemma poly_mul_poly_loop p q acc LA qdone :
  valid_poly p -> Forall valid_mono q -> valid acc -> lred LA (terms acc) ->
  (forall m, In m LA -> (valid_mono m /\ is_const m = true) \/ product_of p qdone m) ->
  (ExactNum NN -> forall r, eval_poly r LA = eval_poly r p * eval_poly r qdone) ->
  exists s L, foldM (fun acc m => t <- poly_mul_mono p m ;; scalar_plus acc t) acc q = Ok s
    /\ valid s /\ lred L (terms s)
    /\ (forall m, In m L -> (valid_mono m /\ is_const m = true) \/ product_of p (qdone ++ q) m)
    /\ (ExactNum NN -> forall r, eval_poly r L = eval_poly r p * eval_poly r (qdone ++ q)).
Proof.
  intro Vp. revert acc LA qdone. induction q as [|m q IH]; intros acc LA qdone Vq Va HR HL HV.
  - exists acc, LA. rewrite app_nil_r. repeat split; try assumption; apply HR.
  - inversion Vq as [|? ? Vm Vq']; subst. cbn [foldM].
    destruct (poly_mul_mono_spec p m Vp Vm) as (t & Lt & -> & Vt & Rt & Ht & Et). cb.
    destruct (scalar_plus_lred acc t Va Vt) as (s & -> & Vs & Rs). cb.
    destruct (IH s (LA ++ Lt) (qdone ++ [m])) as (s' & L' & E' & V' & R' & H' & X'); try assumption.
    + eapply lred_trans; [|exact Rs]. apply lred_app; assumption.
    + intros x Hx. apply in_app_iff in Hx. destruct Hx as [Hx|Hx].
      * destruct (HL x Hx) as [C|C]; [left; exact C|]. right. eapply product_of_incl; [apply incl_refl|apply incl_appl, incl_refl|exact C].
      * destruct (Ht x Hx) as [C|C]; [left; exact C|]. right. eapply product_of_incl; [apply incl_refl|apply incl_appr, incl_refl|exact C].
    + intros EX r. rewrite !eval_poly_app, HV, Et by exact EX.
      rewrite !(Rmul_comm num_ring (eval_poly r p)). rewrite (Rdistr_l num_ring). reflexivity.
    + exists s', L'. rewrite <- app_assoc in H', X'. repeat split; try assumption; apply R'.
Qed.

Lemma poly_mul_poly_spec p q : valid_poly p -> valid_poly q -> mul_spec p q (poly_mul_poly p q).
Proof.
  intros Vp Vq. unfold poly_mul_poly. rewrite (valid_poly_check p Vp), (valid_poly_check q Vq). cb.
  apply mul_spec_again.
  destruct (poly_mul_poly_loop p q (SK n0) [k_to_mono n0] [] Vp) as (s & L & E & V & R & H & X).
  - apply Vq.
  - exact I.
  - apply lred_refl. apply valid_poly_single, valid_mono_k.
  - intros m [<-|[]]. left. split; [apply valid_mono_k | reflexivity].
  - intros EX r. rewrite eval_poly_single, eval_k. cbn [eval_poly]. symmetry. apply eval_mul_0_r. exact EX.
  - exists s, L. auto.
Qed.

Lemma var_mul_k_spec v k : valid_var v -> mul_spec [var_to_mono v] [k_to_mono k] (var_mul_k v k).
Proof.
  intro Vv. unfold var_mul_k. pose proof Vv as Hv. apply var_check_valid in Hv. rewrite Hv. cb.
  assert (V : valid_mono (mkMono k [1%Z] [v])) by (apply valid_mono_var; [exact Vv | lia]).
  destruct (mul_spec_mono [var_to_mono v] [k_to_mono k] (mkMono k [1%Z] [v]) (var_to_mono v) (k_to_mono k)) as (s & L & E & A1 & A2 & A3 & A4);
    auto.
  - apply valid_mono_k.
  - intro i. unfold exponent; cbn. lia.
  - intro EX. cbn. symmetry. apply (Rmul_1_l num_ring).
  - injection E as <-. apply (mul_spec_simp _ _ (SM (mkMono k [1%Z] [v])) L); assumption.
Qed.

Lemma var_mul_var_spec v w : valid_var v -> valid_var w -> mul_spec [var_to_mono v] [var_to_mono w] (var_mul_var v w).
Proof.
  intros Vv Vw. unfold var_mul_var. pose proof Vv as Hv. apply var_check_valid in Hv. pose proof Vw as Hw.
  apply var_check_valid in Hw. rewrite Hv, Hw. cb. destruct (same_id w v) eqn:E.
  - apply same_id_iff in E. assert (V : valid_mono (mkMono n1 [2%Z] [v])) by (apply valid_mono_var; [exact Vv | lia]).
    destruct (mul_spec_mono [var_to_mono v] [var_to_mono w] (mkMono n1 [2%Z] [v]) (var_to_mono v) (var_to_mono w)) as (s & L & E' & A1 & A2 & A3 & A4);
      auto.
    + intro i. unfold exponent; cbn. rewrite E. destruct (N.eqb _ _); lia.
    + intro EX. cbn. symmetry. apply (Rmul_1_l num_ring).
    + injection E' as <-. apply (mul_spec_simp _ _ (SM (mkMono n1 [2%Z] [v])) L); assumption.
  - apply same_id_false in E. assert (V : valid_mono (mkMono n1 [1%Z; 1%Z] [v; w])).
    { split; [reflexivity|]. cbn. split; [repeat constructor; lia|]. split.
      - constructor; [intros [H|[]]; congruence|]. constructor; [intros [] | constructor].
      - constructor; [exact Vv|]. constructor; [exact Vw | constructor]. }
    destruct (mul_spec_mono [var_to_mono v] [var_to_mono w] (mkMono n1 [1%Z; 1%Z] [v; w]) (var_to_mono v) (var_to_mono w)) as (s & L & E' & A1 & A2 & A3 & A4);
      auto.
    + intro i. unfold exponent; cbn. lia.
    + intro EX. cbn. symmetry. apply (Rmul_1_l num_ring).
    + injection E' as <-. apply (mul_spec_simp _ _ (SM (mkMono n1 [1%Z; 1%Z] [v; w])) L); assumption.
Qed.

Lemma scalar_mul_spec a b : valid a -> valid b -> mul_spec (terms a) (terms b) (scalar_mul a b).
Proof.
  intros Va Vb. destruct a as [k|v|m|p]; cbn [scalar_mul].
  - unfold k_mul. rewrite (valid_check b Vb). cb. destruct b as [k'|v|m|p]; cbn [terms].
    + pose proof (mul_spec_mono [k_to_mono k] [k_to_mono k'] (k_to_mono (k * k')) (k_to_mono k) (k_to_mono k') eq_refl eq_refl
        (valid_mono_k k) (valid_mono_k k') (valid_mono_k _)) as H.
      destruct H as (s & L & E & A1 & A2 & A3 & A4); [intro i; reflexivity | reflexivity|].
      injection E as <-. exists (SK (k * k')), L. split; [reflexivity|]. split; [exact I|]. split; [exact A2|]. split; assumption.
    + apply mul_spec_swap. apply var_mul_k_spec; exact Vb.
    + apply mul_spec_swap. apply mono_mul_k_spec; exact Vb.
    + apply mul_spec_swap. apply poly_mul_k_spec; exact Vb.
  - destruct b as [k'|w|m|p]; cbn [terms var_mul].
    + apply var_mul_k_spec; exact Va.
    + apply var_mul_var_spec; assumption.
    + apply mul_spec_swap. unfold var_mul_mono. pose proof Va as Hv. apply var_check_valid in Hv. rewrite Hv, (valid_mono_check m Vb). cb.
      pose proof (mul_spec_again _ _ _ (mono_mul_var_spec m v Vb Va)) as H. unfold as_SM in H.
      destruct (mono_mul_var m v); exact H.
    + apply mul_spec_swap. unfold var_mul_poly. pose proof Va as Hv. apply var_check_valid in Hv. rewrite Hv, (valid_poly_check p Vb). cb.
      apply mul_spec_again. apply poly_mul_var_spec; assumption.
  - destruct b as [k'|w|m'|p]; cbn [terms mono_mul].
    + apply mono_mul_k_spec; exact Va.
    + apply mono_mul_var_spec; assumption.
    + apply mono_mul_mono_spec; assumption.
    + apply mul_spec_swap. unfold mono_mul_poly. rewrite (valid_mono_check m Va), (valid_poly_check p Vb). cb.
      apply poly_mul_mono_spec; assumption.
  - destruct b as [k'|w|m'|q]; cbn [terms poly_mul].
    + apply poly_mul_k_spec; exact Va.
    + apply poly_mul_var_spec; assumption.
    + apply poly_mul_mono_spec; assumption.
    + apply poly_mul_poly_spec; assumption.
Qed.

Lemma scalar_mul_float_spec a f : valid a -> mul_spec (terms a) [k_to_mono f] (scalar_mul_float a f).
Proof.
  intro Va. destruct a as [k|v|m|p]; cbn [scalar_mul_float terms].
  - exact (scalar_mul_spec (SK k) (SK f) I I).
  - apply mul_spec_again. apply var_mul_k_spec; exact Va.
  - apply mono_mul_k_spec; exact Va.
  - apply mul_spec_again. apply poly_mul_k_spec; exact Va.
Qed.

End Ops.
