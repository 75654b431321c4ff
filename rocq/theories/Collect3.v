(** * Substitution term by term *)

From Coq Require Import ZArith NArith Bool List Lia Field Permutation.
From Verif Require Import Num Syntax ModelScalar Spec SpecConv SpecEffect SpecCollect SpecSub Base ScalarValid Eval ScalarOps ScalarMore ScalarNorm ScalarFacts Order Canon Arr ArrFacts Effect Effect2 Collect Collect2.
Import ListNotations.

Section Collect3.
Context {NN : Num} {EX : ExactNum NN}.
Local Open Scope num_scope.
Ltac cb := cbn [bind check].
Add Ring numring_co3 : num_ring.

Lemma replaced_image v e w : sub_image v e w = replaced v e w.
Proof. reflexivity. Qed.

Definition facs (vs : list var) (es : list Z) : list (var * nat) := map (fun x => (fst x, Z.to_nat (snd x))) (combine vs es).
Lemma subst_loop_exact sub image vs : forall es prod, (forall v, In v vs -> sub v = Ok (image v) /\ valid (image v)) ->
  length es = length vs -> Forall (fun e => (0 <= e)%Z) es -> valid prod ->
  subst_loop sub vs es prod = Ok (fold_left (fun s x => multiplied s (powered (image (fst x)) (snd x))) (facs vs es) prod)
  /\ valid (fold_left (fun s x => multiplied s (powered (image (fst x)) (snd x))) (facs vs es) prod).
Proof.
  induction vs as [|v vs IH]; intros es prod H L He Vp; [split; [reflexivity | exact Vp]|]. destruct es as [|e es]; [discriminate|]. apply Forall_cons_iff in He as [E0 He].
  destruct (H v (or_introl eq_refl)) as [E1 V1]. cbn [subst_loop]. rewrite E1. cb.
  assert (E2 : scalar_power (image v) e = Ok (powered (image v) (Z.to_nat e))) by (rewrite <- (Z2Nat.id e E0) at 1; apply power_exact; exact V1). rewrite E2. cb.
  rewrite multiply_exact by (try apply powered_valid; assumption). cb. unfold facs. cbn [combine map fold_left fst snd]. apply IH; [intros w Hw; apply H; right; exact Hw | cbn in L; lia | exact He|].
  apply multiplied_valid; [exact Vp | apply powered_valid; exact V1].
Qed.
Lemma term_image_loop sub image m : valid_mono m -> (forall v, In v (m_vars m) -> sub v = Ok (image v) /\ valid (image v)) ->
  subst_loop sub (m_vars m) (m_exps m) (SK (m_coeff m)) = Ok (term_image image m) /\ valid (term_image image m).
Proof.
  intros (A1 & A2 & _ & _) H. apply (subst_loop_exact sub image); [exact H | exact A1 | | exact I]. eapply Forall_impl; [|exact A2]. intros; cbn in *; lia.
Qed.
Lemma found v l : existsb (fun w => N.eqb (v_id w) (v_id v)) l = match find_var v l with Some _ => true | None => false end.
Proof.
  destruct (find_var v l) as [k|] eqn:E.
  - apply find_var_some in E as (w & Hw & E). apply existsb_exists. exists w. split; [eapply nth_error_In; exact Hw | apply N.eqb_eq; exact E].
  - apply find_var_none in E. apply not_true_is_false. intro X. apply existsb_exists in X as (w & Hw & X). apply N.eqb_eq in X. apply E. rewrite <- X. apply in_map. exact Hw.
Qed.
Lemma mono_substitute_exact m v e : valid_mono m -> valid_var v -> valid e -> mono_substitute m v e = Ok (term_substituted v e m) /\ valid (term_substituted v e m).
Proof.
  intros V V2 V3. unfold mono_substitute, term_substituted. rewrite (valid_mono_check m V). pose proof V2 as H2. apply var_check_valid in H2.
  rewrite H2, (valid_check e V3). cb. rewrite found. destruct (find_var v (m_vars m)); [|split; [reflexivity | exact V]].
  apply (term_image_loop (fun w => var_substitute w v e) (replaced v e) m V). intros w Hw. destruct V as (_ & _ & _ & A4). rewrite Forall_forall in A4. exact (var_substitute_ok w v e (A4 w Hw) V2 V3).
Qed.
Lemma added_exact (f : Monomial -> res scalar) g p : (forall m, In m p -> f m = Ok (g m) /\ valid (g m)) -> forall s, valid s -> normal s ->
  let out := fold_left (fun s t => simplest (summed s t)) (map g p) s in
  foldM (fun acc m => t <- f m ;; scalar_plus acc t) s p = Ok out /\ valid out /\ normal out.
Proof.
  induction p as [|m p IH]; intros H s Vs Ns; [repeat split; assumption|]. destruct (H m (or_introl eq_refl)) as [E V]. cbn [foldM map fold_left]. rewrite E. cb.
  destruct (exa_ok _ _ (scalar_plus_exa s (g m) Vs V)) as (E1 & V1 & N1). rewrite E1. cb. apply IH; [intros x Hx; apply H; right; exact Hx | exact V1 | exact N1].
Qed.
Lemma substitute_exa s v e : valid s -> valid_var v -> valid e -> scalar_substitute s v e = Ok (substituted v e s) /\ valid (substituted v e s).
Proof.
  intros V V2 V3. destruct s as [k|w|m|p]; cbn [scalar_substitute substituted].
  - split; [reflexivity | exact I].
  - exact (var_substitute_ok w v e V V2 V3).
  - apply mono_substitute_exact; assumption.
  - unfold poly_substitute. rewrite (valid_poly_check p V). pose proof V2 as H2. apply var_check_valid in H2. rewrite H2, (valid_check e V3). cb.
    destruct (added_exact (fun m => mono_substitute m v e) (term_substituted v e) p) with (s := SK n0) as (E & VO & NO); [|exact I|exact I|].
    + intros m Hm. destruct V as [_ V]. rewrite Forall_forall in V. apply mono_substitute_exact; auto.
    + rewrite E. cb. change (fold_left _ _ _) with (added (map (term_substituted v e) p)) in *. split; [|exact VO]. rewrite scalar_simplified_ok by exact VO. f_equal. apply ssimplified_id; [apply zero_laws_exact; exact EX | exact VO | exact NO].
Qed.
Lemma substitute_exact s v e : valid s -> valid_var v -> valid e -> scalar_substitute s v e = Ok (substituted v e s).
Proof. intros. apply substitute_exa; assumption. Qed.

Definition image_of (sm : list (var * expr)) (image : var -> scalar) : Prop := (forall w e, In (w, ES e) sm -> image w = e) /\ (forall w, (forall e, ~ In (w, e) sm) -> image w = SV w).
Lemma image_lookup sm image w : valid_map sm -> image_of sm image -> map_image sm w = image w.
Proof.
  intros [HN HV] [I1 I2]. unfold map_image. destruct (lookup sm w) as [e|] eqn:El.
  - apply lookup_iff in El; [|exact EX|exact HN]. destruct (HV w e El) as (_ & t & -> & _). symmetry. apply I1. exact El.
  - symmetry. apply I2. exact (proj1 (lookup_none_iff sm w EX HN) El).
Qed.
Lemma var_map_exact w sm image : valid_var w -> valid_map sm -> image_of sm image -> var_substitute_map w sm = Ok (image w) /\ valid (image w).
Proof. intros V H HI. rewrite <- (image_lookup sm image w H HI). apply var_substitute_map_ok; [exact V | apply valid_map_ok; exact H]. Qed.
Lemma mono_map_exact m sm image : valid_mono m -> valid_map sm -> image_of sm image -> mono_substitute_map m sm = Ok (term_image image m) /\ valid (term_image image m).
Proof.
  intros V H HI. unfold mono_substitute_map. rewrite (valid_mono_check m V), (valid_map_check sm (valid_map_ok sm H)). cb.
  apply (term_image_loop (fun w => var_substitute_map w sm) image m V). intros w Hw. destruct V as (_ & _ & _ & A4). rewrite Forall_forall in A4. apply var_map_exact; auto.
Qed.
Lemma substitute_map_exa s sm image : valid s -> valid_map sm -> image_of sm image -> scalar_substitute_map s sm = Ok (mapped image s) /\ valid (mapped image s).
Proof.
  intros V H HI. destruct s as [k|w|m|p]; cbn [scalar_substitute_map mapped].
  - split; [reflexivity | exact I].
  - apply var_map_exact; assumption.
  - apply mono_map_exact; assumption.
  - unfold poly_substitute_map. rewrite (valid_poly_check p V), (valid_map_check sm (valid_map_ok sm H)). cb.
    destruct (added_exact (fun m => mono_substitute_map m sm) (term_image image) p) with (s := SK n0) as (E & VO & NO); [|exact I|exact I|split; [exact E | exact VO]].
    intros m Hm. destruct V as [_ V]. rewrite Forall_forall in V. apply mono_map_exact; auto.
Qed.
Lemma substitute_map_exact s sm (image : var -> scalar) : valid s -> valid_map sm -> (forall w e, In (w, ES e) sm -> image w = e) -> (forall w, (forall e, ~ In (w, e) sm) -> image w = SV w) ->
  scalar_substitute_map s sm = Ok (mapped image s).
Proof. intros V H I1 I2. apply substitute_map_exa; [exact V | exact H | split; assumption]. Qed.

(** ** when it is right *)
Definition good (image : var -> scalar) (vs : list var) := forall w, In w vs -> valid (image w).
Lemma expansion_fold r r' image vs : forall es l, good image vs -> (forall w, In w vs -> r' (v_id w) = eval r (image w)) -> valid_poly l ->
  let out := fold_left (fun l x => expanded (SP l) (SP (expanded_power (image (fst x)) (snd x)))) (facs vs es) l in
  valid_poly out /\ eval_poly r out = eval_poly r l * eval_factors r' vs es.
Proof.
  induction vs as [|v vs IH]; intros es l H Hr V; [cbn; split; [exact V | destruct es; cbn; ring]|]. destruct es as [|e es]; [cbn; split; [exact V | ring]|].
  unfold facs. cbn [combine map fold_left fst snd eval_factors]. destruct (expanded_power_ok (image v) (Z.to_nat e) (H v (or_introl eq_refl))) as (VE & EE).
  destruct (IH es (expanded (SP l) (SP (expanded_power (image v) (Z.to_nat e))))) as (V1 & E1).
  - intros w Hw. apply H. right. exact Hw.
  - intros w Hw. apply Hr. right. exact Hw.
  - exact (expanded_valid (SP l) (SP _) V VE).
  - split; [exact V1|]. etransitivity; [exact E1|]. rewrite (expanded_value r (SP l) (SP _) V VE). cbn [eval]. rewrite EE, <- (Hr v) by (left; reflexivity). ring.
Qed.
Lemma term_expansion_ok r r' image m : valid_mono m -> good image (m_vars m) -> (forall w, In w (m_vars m) -> r' (v_id w) = eval r (image w)) ->
  valid_poly (term_expansion image m) /\ eval_poly r (term_expansion image m) = eval_mono r' m.
Proof.
  intros V H Hr. destruct (expansion_fold r r' image (m_vars m) (m_exps m) [mkMono (m_coeff m) [] []] H Hr) as (V1 & E1); [apply valid_poly_single; apply valid_mono_k|].
  split; [exact V1|]. etransitivity; [exact E1|]. rewrite eval_poly_single. change (mkMono (m_coeff m) [] []) with (k_to_mono (m_coeff m)). rewrite eval_k. reflexivity.
Qed.
Lemma expansion_list r r' image p : Forall valid_mono p -> (forall m w, In m p -> In w (m_vars m) -> valid (image w) /\ r' (v_id w) = eval r (image w)) ->
  Forall valid_mono (flat_map (term_expansion image) p) /\ eval_poly r (flat_map (term_expansion image) p) = eval_poly r' p.
Proof.
  intros V. induction V as [|m p Vm V IH]; intro H; [split; [constructor | reflexivity]|]. cbn [flat_map eval_poly].
  destruct (term_expansion_ok r r' image m Vm) as (V1 & E1); [intros w Hw; apply (H m w); [left; reflexivity | exact Hw] | intros w Hw; apply (H m w); [left; reflexivity | exact Hw]|].
  destruct IH as (V2 & E2); [intros x w Hx; apply H; right; exact Hx|]. split; [apply Forall_app; split; [exact (proj2 V1) | exact V2]|]. rewrite eval_poly_app, E1, E2. reflexivity.
Qed.
Lemma expansion_ok r r' image s : valid s -> (forall m w, In m (terms s) -> In w (m_vars m) -> valid (image w) /\ r' (v_id w) = eval r (image w)) ->
  valid_poly (expansion image s) /\ eval_poly r (expansion image s) = eval r' s.
Proof.
  intros V H. destruct (expansion_list r r' image (terms s) (valid_terms s V) H) as (V1 & E1). unfold expansion. split; [|rewrite E1; apply eval_terms]. split; [|exact V1].
  pose proof (as_poly s V) as [NE VP]. destruct (terms s) as [|m l]; [congruence|]. cbn [flat_map].
  destruct (term_expansion_ok r r' image m) as ((N1 & _) & _); [rewrite Forall_forall in VP; apply VP; left; reflexivity | intros w Hw; apply (H m w); [left; reflexivity | exact Hw] | intros w Hw; apply (H m w); [left; reflexivity | exact Hw]|].
  destruct (term_expansion image m); [congruence | discriminate].
Qed.
Lemma replaced_value r v e w : (v_id w = v_id v -> v_env w = v_env v) -> update r (v_id v) (eval r e) (v_id w) = eval r (replaced v e w).
Proof.
  intro H. unfold update, replaced, environments_agree. destruct (N.eqb_spec (v_id w) (v_id v)) as [E|E]; [|reflexivity]. rewrite (H E). cbn [andb]. destruct (v_env v); [rewrite N.eqb_refl|]; reflexivity.
Qed.
Lemma valid_var_in s m w : valid s -> In m (terms s) -> In w (m_vars m) -> valid_var w.
Proof. intros V Hm Hw. pose proof (valid_terms s V) as HV. rewrite Forall_forall in HV. destruct (HV m Hm) as (_ & _ & _ & H4). rewrite Forall_forall in H4. exact (H4 w Hw). Qed.
Lemma substitute_when s v e s' : valid s -> valid_var v -> valid e -> same_environment v s -> scalar_substitute s v e = Ok s' ->
  ((forall r, eval r s' = eval (update r (v_id v) (eval r e)) s) <-> forall m, valid_mono m -> coefficient m (substituted v e s) = coefficient m (SP (expansion (replaced v e) s))).
Proof.
  intros V V2 V3 HE E. destruct (substitute_exa s v e V V2 V3) as (E1 & V1). rewrite E1 in E. injection E as <-.
  assert (HX : forall r, valid_poly (expansion (replaced v e) s) /\ eval_poly r (expansion (replaced v e) s) = eval (update r (v_id v) (eval r e)) s).
  { intro r. apply expansion_ok; [exact V|]. intros m w Hm Hw. split; [|apply replaced_value; exact (HE m w Hm Hw)].
    exact (proj2 (var_substitute_ok w v e (valid_var_in s m w V Hm Hw) V2 V3)). }
  rewrite <- functions_determined; [|exact V1 | exact (proj1 (HX (fun _ => n0)))]. unfold same_function. cbn [eval]. split; intros H r; specialize (H r); rewrite (proj2 (HX r)) in *; exact H.
Qed.

(** an assignment that gives every variable of [s] the value of its image *)
Definition vars_in (s : scalar) : list var := flat_map m_vars (terms s).
Definition assigned (r : assignment) (image : var -> scalar) (s : scalar) : assignment :=
  fun i => match find (fun w => N.eqb (v_id w) i) (vars_in s) with Some w => eval r (image w) | None => r i end.
Lemma in_vars_in s w : In w (vars_in s) <-> exists m, In m (terms s) /\ In w (m_vars m).
Proof. unfold vars_in. rewrite in_flat_map. reflexivity. Qed.
Lemma assigned_at r image s m w : consistent image s -> In m (terms s) -> In w (m_vars m) -> assigned r image s (v_id w) = eval r (image w).
Proof.
  intros C Hm Hw. unfold assigned. destruct (find _ _) as [x|] eqn:F.
  - apply find_some in F as [Hx E]. apply N.eqb_eq in E. apply in_vars_in in Hx as (m' & Hm' & Hx). f_equal. exact (C m' x m w Hm' Hx Hm Hw E).
  - exfalso. apply find_none with (x := w) in F; [rewrite N.eqb_refl in F; discriminate|]. apply in_vars_in. exists m. split; assumption.
Qed.
Lemma substitute_map_when s sm (image : var -> scalar) s' : valid s -> valid_map sm -> (forall w e, In (w, ES e) sm -> image w = e) -> (forall w, (forall e, ~ In (w, e) sm) -> image w = SV w) ->
  consistent image s -> scalar_substitute_map s sm = Ok s' ->
  ((forall r r', simultaneous r sm s r' -> eval r s' = eval r' s) <-> forall m, valid_mono m -> coefficient m (mapped image s) = coefficient m (SP (expansion image s))).
Proof.
  intros V H I1 I2 C E. destruct (substitute_map_exa s sm image V H (conj I1 I2)) as (E1 & V1). rewrite E1 in E. injection E as <-.
  assert (HI : forall m w, In m (terms s) -> In w (m_vars m) -> valid (image w)) by (intros m w Hm Hw; exact (proj2 (var_map_exact w sm image (valid_var_in s m w V Hm Hw) H (conj I1 I2)))).
  assert (HX : forall r r', simultaneous r sm s r' -> valid_poly (expansion image s) /\ eval_poly r (expansion image s) = eval r' s).
  { intros r r' HS. apply expansion_ok; [exact V|]. intros m w Hm Hw. split; [exact (HI m w Hm Hw)|]. rewrite (map_image_simultaneous r sm s r' m w EX H HS Hm Hw). rewrite (image_lookup sm image w H (conj I1 I2)). reflexivity. }
  assert (HA : forall r, simultaneous r sm s (assigned r image s)).
  { intros r m w Hm Hw. rewrite (assigned_at r image s m w C Hm Hw). split; [intros e He; rewrite (I1 w e He); reflexivity | intro N; rewrite (I2 w N); reflexivity]. }
  rewrite <- functions_determined; [|exact V1 | exact (proj1 (HX (fun _ => n0) _ (HA _)))]. unfold same_function. cbn [eval]. split.
  - intros K r. rewrite (proj2 (HX r _ (HA r))). apply K, HA.
  - intros K r r' HS. rewrite K. exact (proj2 (HX r r' HS)).
Qed.
End Collect3.

Lemma variable_exact {NN : Num} (w v : var) (e : scalar) : valid_var w -> valid_var v -> valid e -> scalar_substitute (SV w) v e = Ok (replaced v e w).
Proof. intros V1 V2 V3. exact (proj1 (var_substitute_ok w v e V1 V2 V3)). Qed.
