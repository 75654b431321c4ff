(** * The scalar properties in their final form *)

From Coq Require Import ZArith NArith Bool List Lia Sorted.
From Coq Require String.
From Verif Require Import Num Syntax ModelScalar Spec SpecProg Base ScalarValid Eval ScalarOps ScalarMore ScalarNorm Unamb ScalarLin Deriv Programs.
Import ListNotations.
Local Open Scope num_scope.

Section Facts.
Context {NN : Num}.
Ltac cb := cbn [bind check].

Lemma either_coherent a b : unambiguous (in_either a b) -> coherent (terms a ++ terms b).
Proof. intros H x y Hx Hy HL. apply in_app_iff in Hx. apply in_app_iff in Hy. apply H; assumption. Qed.

Lemma either_degree2 a b : valid a -> valid b -> degree_at_most 2 a -> degree_at_most 2 b -> unambiguous (in_either a b).
Proof.
  intros Va Vb Da Db. apply uniform_unambiguous. intros m [Hm|Hm].
  - destruct (degree_terms a 2 Va Da m Hm). split; [assumption | apply degree2_uniform; assumption].
  - destruct (degree_terms b 2 Vb Db m Hm). split; [assumption | apply degree2_uniform; assumption].
Qed.

Lemma either_one_variable x a b : valid a -> valid b -> only_variable x a -> only_variable x b -> unambiguous (in_either a b).
Proof.
  intros Va Vb Da Db. pose proof (valid_terms a Va) as HVa. pose proof (valid_terms b Vb) as HVb.
  unfold only_variable in *. rewrite Forall_forall in *. apply uniform_unambiguous. intros m [Hm|Hm].
  - split; [auto|]. apply (single_var_uniform m x); [auto|]. intros i Hi. exact (Da m Hm i Hi).
  - split; [auto|]. apply (single_var_uniform m x); [auto|]. intros i Hi. exact (Db m Hm i Hi).
Qed.

(** *** C01, C02 *)
Lemma plus_total a b : valid a -> valid b -> exists s, scalar_plus a b = Ok s /\ valid s /\ normal s.
Proof.
  intros Va Vb. destruct (scalar_plus_sum a b Va Vb) as (s & E & V & _). exists s. split; [exact E|]. split; [exact V|].
  exact (scalar_plus_normal a b s Va Vb E).
Qed.
Lemma minus_total a b : valid a -> valid b -> exists s, scalar_minus a b = Ok s /\ valid s /\ normal s.
Proof.
  intros Va Vb. destruct (scalar_minus_sum a b Va Vb) as (s & E & V & _). exists s. split; [exact E|]. split; [exact V|].
  exact (scalar_minus_normal a b s Va Vb E).
Qed.

Lemma plus_value a b : ExactNum NN -> valid a -> valid b -> unambiguous (in_either a b) ->
  exists s, scalar_plus a b = Ok s /\ forall r, eval r s = eval r a + eval r b.
Proof.
  intros EX Va Vb HU. destruct (scalar_plus_sum a b Va Vb) as (s & E & V & _ & _ & X). exists s. split; [exact E|].
  apply X; [exact EX | apply either_coherent; exact HU].
Qed.
Lemma minus_value_u a b : ExactNum NN -> valid a -> valid b -> unambiguous (in_either a b) ->
  exists s, scalar_minus a b = Ok s /\ forall r, eval r s = eval r a - eval r b.
Proof.
  intros EX Va Vb HU. destruct (scalar_minus_sum a b Va Vb) as (s & E & V & _ & _ & X). exists s. split; [exact E|].
  apply X; [exact EX | apply either_coherent; exact HU].
Qed.

Lemma plus_degree2 a b : ExactNum NN -> valid a -> valid b -> degree_at_most 2 a -> degree_at_most 2 b ->
  exists s, scalar_plus a b = Ok s /\ forall r, eval r s = eval r a + eval r b.
Proof. intros EX Va Vb Da Db. apply plus_value; try assumption. apply either_degree2; assumption. Qed.
Lemma minus_degree2 a b : ExactNum NN -> valid a -> valid b -> degree_at_most 2 a -> degree_at_most 2 b ->
  exists s, scalar_minus a b = Ok s /\ forall r, eval r s = eval r a - eval r b.
Proof. intros EX Va Vb Da Db. apply minus_value_u; try assumption. apply either_degree2; assumption. Qed.

Lemma plus_one_variable x a b : ExactNum NN -> valid a -> valid b -> only_variable x a -> only_variable x b ->
  exists s, scalar_plus a b = Ok s /\ forall r, eval r s = eval r a + eval r b.
Proof. intros EX Va Vb Da Db. apply plus_value; try assumption. apply (either_one_variable x); assumption. Qed.
Lemma minus_one_variable x a b : ExactNum NN -> valid a -> valid b -> only_variable x a -> only_variable x b ->
  exists s, scalar_minus a b = Ok s /\ forall r, eval r s = eval r a - eval r b.
Proof. intros EX Va Vb Da Db. apply minus_value_u; try assumption. apply (either_one_variable x); assumption. Qed.

Lemma plus_sorted a b : ExactNum NN -> valid a -> valid b -> sorted_terms a -> sorted_terms b ->
  exists s, scalar_plus a b = Ok s /\ forall r, eval r s = eval r a + eval r b.
Proof.
  intros EX Va Vb Da Db. apply plus_value; try assumption. apply sorted_unambiguous. unfold sorted_terms in *. rewrite Forall_forall in *.
  intros m [Hm|Hm]; auto.
Qed.
Lemma minus_sorted a b : ExactNum NN -> valid a -> valid b -> sorted_terms a -> sorted_terms b ->
  exists s, scalar_minus a b = Ok s /\ forall r, eval r s = eval r a - eval r b.
Proof.
  intros EX Va Vb Da Db. apply minus_value_u; try assumption. apply sorted_unambiguous. unfold sorted_terms in *. rewrite Forall_forall in *.
  intros m [Hm|Hm]; auto.
Qed.

(** *** C03 *)
Lemma mul_total a b : valid a -> valid b -> exists s, scalar_mul a b = Ok s /\ valid s /\ collected s.
Proof.
  intros Va Vb. destruct (scalar_mul_value a b Va Vb) as (s & E & V & _). exists s. split; [exact E|]. split; [exact V|].
  apply apart_s_collected; [exact V|]. exact (scalar_mul_apart a b s E).
Qed.
Lemma mul_value a b : ExactNum NN -> valid a -> valid b -> unambiguous_exponents (product_terms a b) ->
  exists s, scalar_mul a b = Ok s /\ forall r, eval r s = eval r a * eval r b.
Proof.
  intros EX Va Vb HU. destruct (scalar_mul_value a b Va Vb) as (s & E & V & _ & X). exists s. split; [exact E|]. exact (X EX HU).
Qed.
Lemma mul_degree2 a b da db : ExactNum NN -> valid a -> valid b -> degree_at_most da a -> degree_at_most db b -> (da + db <= 2)%Z ->
  exists s, scalar_mul a b = Ok s /\ forall r, eval r s = eval r a * eval r b.
Proof.
  intros EX Va Vb Da Db Hd. apply mul_value; try assumption. apply degree_exponents. intros f Hf L HN.
  pose proof (product_terms_degree a b da db Va Vb Da Db f Hf L HN). lia.
Qed.
Lemma mul_one_variable x a b : ExactNum NN -> valid a -> valid b -> only_variable x a -> only_variable x b ->
  exists s, scalar_mul a b = Ok s /\ forall r, eval r s = eval r a * eval r b.
Proof. intros EX Va Vb Da Db. apply mul_value; try assumption. apply (product_terms_one_variable a b x); assumption. Qed.

Lemma mul_one_term a b : ExactNum NN -> valid a -> valid b -> one_term a -> one_term b ->
  exists s, scalar_mul a b = Ok s /\ forall r, eval r s = eval r a * eval r b.
Proof.
  intros EX Va Vb (m1 & E1) (m2 & E2). apply mul_value; try assumption.
  intros x y (_ & f & (a1 & a2 & A1 & A2 & Hf) & Ex) (_ & g & (b1 & b2 & B1 & B2 & Hg) & Ey) _ i.
  rewrite E1 in A1, B1. rewrite E2 in A2, B2. destruct A1 as [<-|[]], A2 as [<-|[]], B1 as [<-|[]], B2 as [<-|[]].
  rewrite Ex, Ey, Hf, Hg. reflexivity.
Qed.

(** *** C04 *)
Lemma power_total a n : valid a -> (0 <= n)%Z -> exists s, scalar_power a n = Ok s /\ valid s /\ collected s.
Proof.
  intros Va Hn. destruct (scalar_power_ok a n Va Hn) as (s & E & V & _). exists s. split; [exact E|]. split; [exact V|].
  apply apart_s_collected; [exact V|]. exact (scalar_power_apart a n s E).
Qed.
Lemma power_zero a : valid a -> scalar_power a 0 = Ok (SK n1).
Proof. intro Va. unfold scalar_power. rewrite (valid_check a Va). reflexivity. Qed.
Lemma power_negative a n : valid a -> (n < 0)%Z -> scalar_power a n = Panic PNegExp.
Proof. intros Va Hn. unfold scalar_power. rewrite (valid_check a Va). cb. destruct (Z.leb_spec 0 n); [lia | reflexivity]. Qed.
Lemma power_value a n : ExactNum NN -> valid a -> (0 <= n)%Z -> unambiguous_exponents (power_terms a (Z.to_nat n)) ->
  exists s, scalar_power a n = Ok s /\ forall r, eval r s = npow (eval r a) (Z.to_nat n).
Proof. intros EX Va Hn HU. destruct (scalar_power_ok a n Va Hn) as (s & E & V & _ & X). exists s. split; [exact E | exact (X EX HU)]. Qed.
Lemma power_not_polynomial a n : ExactNum NN -> valid a -> (forall p, a <> SP p) -> (0 <= n)%Z ->
  exists s, scalar_power a n = Ok s /\ forall r, eval r s = npow (eval r a) (Z.to_nat n).
Proof.
  intros EX Va Hs Hn. destruct (power_single a n EX Va) as (s & E & _ & _ & X); [|exact Hn|eauto].
  destruct a; try exact I. exfalso. eapply Hs. reflexivity.
Qed.
Lemma power_degree2 a n d : ExactNum NN -> valid a -> (0 <= n)%Z -> degree_at_most d a -> (n * d <= 2)%Z ->
  exists s, scalar_power a n = Ok s /\ forall r, eval r s = npow (eval r a) (Z.to_nat n).
Proof.
  intros EX Va Hn Hd Hb. apply power_value; try assumption. apply degree_exponents. intros f Hf L HN.
  pose proof (power_terms_degree a (Z.to_nat n) d Va (degree_nonneg a d Va Hd) Hd f Hf L HN) as H. rewrite Z2Nat.id in H by exact Hn. lia.
Qed.
Lemma power_one_variable x a n : ExactNum NN -> valid a -> (0 <= n)%Z -> only_variable x a ->
  exists s, scalar_power a n = Ok s /\ forall r, eval r s = npow (eval r a) (Z.to_nat n).
Proof. intros EX Va Hn Ho. apply power_value; try assumption. apply (power_terms_one_variable a _ x); assumption. Qed.

(** *** C05 *)
Lemma simplify_value a : ExactNum NN -> valid a -> unambiguous (fun m => In m (terms a)) ->
  exists s, scalar_simplified a = Ok s /\ forall r, eval r s = eval r a.
Proof. intros EX Va HU. apply simplified_value; assumption. Qed.
Lemma simplify_degree2 a : ExactNum NN -> valid a -> degree_at_most 2 a ->
  exists s, scalar_simplified a = Ok s /\ forall r, eval r s = eval r a.
Proof.
  intros EX Va Da. apply simplify_value; try assumption. intros x y Hx Hy. apply (either_degree2 a a Va Va Da Da); left; assumption.
Qed.
Lemma simplify_one_variable x a : ExactNum NN -> valid a -> only_variable x a ->
  exists s, scalar_simplified a = Ok s /\ forall r, eval r s = eval r a.
Proof.
  intros EX Va Da. apply simplify_value; try assumption. intros y z Hx Hy. apply (either_one_variable x a a Va Va Da Da); left; assumption.
Qed.

(** *** C11 *)
Lemma plus_degree_law a b s da db : valid a -> valid b -> scalar_plus a b = Ok s -> scalar_degree a = Ok da -> scalar_degree b = Ok db ->
  exists d, scalar_degree s = Ok d /\ (d <= Z.max da db)%Z.
Proof.
  intros Va Vb E Ea Eb. pose proof (scalar_plus_sum a b Va Vb) as HS. rewrite E in HS.
  destruct (sum_degree a b _ _ (Z.max da db) Va Vb HS) as (s' & E' & D).
  - apply (scalar_degree_le a da (Z.max da db) Va Ea). lia.
  - apply (scalar_degree_le b db (Z.max da db) Vb Eb). lia.
  - injection E' as <-. destruct HS as (s' & E' & V & _). injection E' as <-. destruct (scalar_degree_ok s V) as (d & Ed & _).
    exists d. split; [exact Ed|]. apply (scalar_degree_le s d _ V Ed). exact D.
Qed.
Lemma mul_degree_law a b s da db : valid a -> valid b -> scalar_mul a b = Ok s -> scalar_degree a = Ok da -> scalar_degree b = Ok db ->
  exists d, scalar_degree s = Ok d /\ (d <= da + db)%Z.
Proof.
  intros Va Vb E Ea Eb. destruct (mul_total a b Va Vb) as (s' & E' & V & _). rewrite E in E'. injection E' as <-.
  destruct (scalar_degree_ok s V) as (d & Ed & _). exists d. split; [exact Ed|]. apply (scalar_degree_le s d _ V Ed).
  apply (mul_degree a b s da db Va Vb E); [apply (scalar_degree_le a da da Va Ea); lia | apply (scalar_degree_le b db db Vb Eb); lia].
Qed.
Lemma power_degree_law a n s da : valid a -> (0 <= n)%Z -> scalar_power a n = Ok s -> scalar_degree a = Ok da ->
  exists d, scalar_degree s = Ok d /\ (d <= n * da)%Z.
Proof.
  intros Va Hn E Ea. destruct (power_total a n Va Hn) as (s' & E' & V & _). rewrite E in E'. injection E' as <-.
  destruct (scalar_degree_ok s V) as (d & Ed & _). exists d. split; [exact Ed|]. apply (scalar_degree_le s d _ V Ed).
  apply (power_degree a n s da Va Hn E). apply (scalar_degree_le a da da Va Ea). lia.
Qed.
Lemma mono_degree_law m1 m2 : valid_mono m1 -> valid_mono m2 ->
  exists m, scalar_mul (SM m1) (SM m2) = Ok (SM m) /\ scalar_degree (SM m) = Ok (tdeg m1 + tdeg m2)%Z.
Proof.
  intros V1 V2. cbn [scalar_mul mono_mul as_SM].
  destruct (mono_mul_mono_ok m1 m2 V1 V2) as (m & E & V & HP & _). rewrite E. unfold as_SM. cb. exists m. split; [reflexivity|].
  cbn [scalar_degree]. rewrite mono_degree_ok by (apply valid_mono_check; exact V). f_equal. apply tdeg_product; assumption.
Qed.
Lemma is_linear_iff s : valid s ->
  exists b, scalar_is_linear s = Ok b /\ (b = true <-> degree_at_most 1 s).
Proof.
  intro V. destruct (scalar_degree_ok s V) as (d & E & _). unfold scalar_is_linear. rewrite E. cb. exists (Z.leb d 1). split; [reflexivity|].
  rewrite (scalar_degree_le s d 1 V E). apply Z.leb_le.
Qed.
Lemma is_quadratic_iff s : valid s ->
  exists b, scalar_is_quadratic s = Ok b /\ (b = true <-> degree_at_most 2 s).
Proof.
  intro V. destruct (scalar_degree_ok s V) as (d & E & _). unfold scalar_is_quadratic. rewrite E. cb. exists (Z.leb d 2). split; [reflexivity|].
  rewrite (scalar_degree_le s d 2 V E). apply Z.leb_le.
Qed.

(** *** C12 *)
Lemma variables_facts s : valid s ->
  NoDup (map v_id (scalar_variables s)) /\ (forall i, In i (map v_id (scalar_variables s)) <-> occurs i s)
  /\ forall r r', (forall v, In v (scalar_variables s) -> r (v_id v) = r' (v_id v)) -> eval r s = eval r' s.
Proof.
  intro V. split; [apply scalar_variables_nodup; exact V|]. split; [intro; apply scalar_variables_occurs; exact V|].
  intros r r' H. apply eval_ext. intros i Hi. apply scalar_variables_occurs in Hi; [|exact V]. apply in_map_iff in Hi.
  destruct Hi as (v & <- & Hv). apply H. exact Hv.
Qed.

(** *** C15 *)
Lemma image_terms_image image image' vs es f : (forall v, In v vs -> image v = image' v) -> image_terms image vs es f -> image_terms image' vs es f.
Proof.
  revert es f. induction vs as [|v vs IH]; intros es f H Hf; [exact Hf|]. destruct es as [|e es]; [exact Hf|].
  destruct Hf as (l & g & P & Hg & E). exists l, g. split; [rewrite <- (H v) by (left; reflexivity); exact P|].
  split; [|exact E]. apply IH; [|exact Hg]. intros w Hw. apply H. right. exact Hw.
Qed.

Lemma substitute_value s v e : ExactNum NN -> valid s -> valid_var v -> valid e -> same_environment v s ->
  unambiguous_exponents (substituted_terms (replacement v e) s) ->
  exists s', scalar_substitute s v e = Ok s' /\ forall r, eval r s' = eval (update r (v_id v) (eval r e)) s.
Proof.
  intros EX V Vv Ve HE HU. destruct (scalar_substitute_value s v e EX V Vv Ve HE) as (s' & E & _ & X); [|eauto].
  eapply unambiguous_sub; [|exact HU]. intros f (m & Hm & Hf). exists m. split; [exact Hm|].
  eapply image_terms_image; [|exact Hf]. intros w Hw. unfold sub_image, replacement, same_id.
  destruct (N.eqb_spec (v_id w) (v_id v)) as [Ei|Ei]; [|reflexivity]. cbn [andb]. rewrite (HE m w Hm Hw Ei).
  replace (env_eqb (v_env v) (v_env v)) with true; [reflexivity|]. symmetry. unfold env_eqb. destruct (v_env v); [apply N.eqb_refl | reflexivity].
Qed.

Lemma substitute_degree2 s v e d D : ExactNum NN -> valid s -> valid_var v -> valid e -> same_environment v s ->
  degree_at_most d s -> degree_at_most D e -> (1 <= D)%Z -> (d * D <= 2)%Z ->
  exists s', scalar_substitute s v e = Ok s' /\ forall r, eval r s' = eval (update r (v_id v) (eval r e)) s.
Proof.
  intros EX V Vv Ve HE Hd HD H1 Hb. apply substitute_value; try assumption.
  apply (substituted_terms_degree _ s d D V); [lia | exact Hd | | exact Hb]. intros m w Hm Hw. unfold replacement.
  destruct (N.eqb _ _); [split; assumption|]. split.
  - pose proof (valid_terms s V) as HV. rewrite Forall_forall in HV. destruct (HV m Hm) as (_ & _ & _ & H4). rewrite Forall_forall in H4. exact (H4 w Hw).
  - constructor; [cbn; lia | constructor].
Qed.
Lemma substitute_one_variable s v e x : ExactNum NN -> valid s -> valid_var v -> valid e -> same_environment v s ->
  only_variable (v_id v) s -> only_variable x e ->
  exists s', scalar_substitute s v e = Ok s' /\ forall r, eval r s' = eval (update r (v_id v) (eval r e)) s.
Proof.
  intros EX V Vv Ve HE Hs He. apply substitute_value; try assumption. apply (substituted_terms_one_variable _ s x).
  intros m w Hm Hw. unfold only_variable in Hs. rewrite Forall_forall in Hs. unfold replacement.
  rewrite (Hs m Hm (v_id w)) by (apply in_map; exact Hw). rewrite N.eqb_refl. split; assumption.
Qed.

(** *** C16 *)
Lemma var_eqb_eq v w : ExactNum NN -> var_eqb v w = true <-> v = w.
Proof.
  intro EX. destruct v as [i l u t n e], w as [i' l' u' t' n' e']. unfold var_eqb. cbn [v_id v_lower v_upper v_type v_name v_env].
  rewrite !andb_true_iff, !N.eqb_eq, !ex_eqb, String.eqb_eq. split.
  - intros (((((-> & ->) & ->) & ->) & ->) & H). f_equal. destruct e, e'; try discriminate; [apply N.eqb_eq in H; congruence | reflexivity].
  - intros [= -> -> -> -> -> ->]. repeat split. destruct e'; [apply N.eqb_refl | reflexivity].
Qed.
Lemma lookup_iff sm w e : ExactNum NN -> NoDup (map fst sm) -> (lookup sm w = Some e <-> In (w, e) sm).
Proof.
  intros EX HN. induction sm as [|[k x] sm IH]; cbn; [split; [discriminate | intros []]|]. inversion HN as [|? ? H1 H2]; subst.
  destruct (var_eqb w k) eqn:E.
  - apply var_eqb_eq in E; [|exact EX]. subst k. split; [intros [= ->]; left; reflexivity|]. intros [H|H]; [congruence|].
    exfalso. apply H1. apply (in_map fst) in H. exact H.
  - rewrite IH by exact H2. split; [intro H; right; exact H|]. intros [H|H]; [|exact H]. exfalso. injection H as -> ->.
    assert (var_eqb w w = true) by (apply var_eqb_eq; [exact EX | reflexivity]). congruence.
Qed.
Lemma lookup_none_iff sm w : ExactNum NN -> NoDup (map fst sm) -> (lookup sm w = None <-> forall e, ~ In (w, e) sm).
Proof.
  intros EX HN. split.
  - intros H e He. apply lookup_iff in He; [congruence | exact EX | exact HN].
  - intro H. destruct (lookup sm w) as [e|] eqn:E; [|reflexivity]. apply lookup_iff in E; [|exact EX|exact HN]. destruct (H e E).
Qed.
Lemma valid_map_ok sm : valid_map sm -> ok_map sm.
Proof. intros [_ H]. exact H. Qed.

Lemma map_image_simultaneous r sm s r' m w : ExactNum NN -> valid_map sm -> simultaneous r sm s r' -> In m (terms s) -> In w (m_vars m) ->
  r' (v_id w) = eval r (map_image sm w).
Proof.
  intros EX (HN & HV) HS Hm Hw. destruct (HS m w Hm Hw) as [S1 S2]. unfold map_image. destruct (lookup sm w) as [e|] eqn:E.
  - apply lookup_iff in E; [|exact EX|exact HN]. destruct (HV w e E) as (_ & t & -> & _). apply S1. exact E.
  - apply S2. exact (proj1 (lookup_none_iff sm w EX HN) E).
Qed.

(** the expression that replaces [w] *)
Lemma substitute_map_value s sm (image : var -> scalar) : ExactNum NN -> valid s -> valid_map sm ->
  (forall w e, In (w, ES e) sm -> image w = e) -> (forall w, (forall e, ~ In (w, e) sm) -> image w = SV w) ->
  unambiguous_exponents (substituted_terms image s) ->
  exists s', scalar_substitute_map s sm = Ok s' /\ forall r r', simultaneous r sm s r' -> eval r s' = eval r' s.
Proof.
  intros EX V HM I1 I2 HU. destruct (scalar_substitute_map_value s sm EX V (valid_map_ok sm HM)) as (s' & E & _ & X).
  - eapply unambiguous_sub; [|exact HU]. intros f (m & Hm & Hf). exists m. split; [exact Hm|]. eapply image_terms_image; [|exact Hf].
    intros w Hw. unfold map_image. destruct HM as [HN HV]. destruct (lookup sm w) as [e|] eqn:El.
    + apply lookup_iff in El; [|exact EX|exact HN]. destruct (HV w e El) as (_ & t & -> & _). symmetry. apply I1. exact El.
    + symmetry. apply I2. exact (proj1 (lookup_none_iff sm w EX HN) El).
  - exists s'. split; [exact E|]. intros r r' HS. apply X. intros m w Hm Hw. apply (map_image_simultaneous r sm s r' m w); assumption.
Qed.

Lemma substitute_map_degree2 s sm d D : ExactNum NN -> valid s -> valid_map sm ->
  degree_at_most d s -> (forall k e, In (k, ES e) sm -> degree_at_most D e) -> (1 <= D)%Z -> (d * D <= 2)%Z ->
  exists s', scalar_substitute_map s sm = Ok s' /\ forall r r', simultaneous r sm s r' -> eval r s' = eval r' s.
Proof.
  intros EX V HM Hd HD H1 Hb. destruct (scalar_substitute_map_value s sm EX V (valid_map_ok sm HM)) as (s' & E & _ & X).
  - apply (substituted_terms_degree _ s d D V); [lia | exact Hd | | exact Hb]. intros m w Hm Hw. unfold map_image.
    destruct (lookup sm w) as [e|] eqn:El.
    + apply lookup_in in El. destruct El as (k & Hin & _). destruct (valid_map_ok sm HM k e Hin) as (_ & t & -> & Vt). split; [exact Vt|]. exact (HD k t Hin).
    + split.
      * pose proof (valid_terms s V) as HV. rewrite Forall_forall in HV. destruct (HV m Hm) as (_ & _ & _ & H4). rewrite Forall_forall in H4. exact (H4 w Hw).
      * constructor; [cbn; lia | constructor].
  - exists s'. split; [exact E|]. intros r r' HS. apply X. intros m w Hm Hw. apply (map_image_simultaneous r sm s r' m w); assumption.
Qed.

Lemma power_loop_const k n c : exists c', power_loop (SK k) n (SK c) = Ok (SK c').
Proof. revert c. induction n as [|n IH]; intro c; cbn [power_loop]; [eauto|]. cbn. apply IH. Qed.
Lemma subst_loop_const sub vs es c : (forall v, In v vs -> exists k, sub v = Ok (SK k)) -> length es = length vs ->
  Forall (fun e => (0 <= e)%Z) es -> exists c', subst_loop sub vs es (SK c) = Ok (SK c').
Proof.
  revert es c. induction vs as [|v vs IH]; intros es c H HL He; cbn [subst_loop]; [eauto|]. destruct es as [|e es]; [discriminate|].
  destruct (H v (or_introl eq_refl)) as (k & ->). cb. inversion He as [|? ? He1 He2]; subst. unfold scalar_power. cbn [scalar_check]. cb.
  destruct (Z.leb_spec 0 e); [|lia]. cb. destruct (power_loop_const k (Z.to_nat e) n1) as (q & ->). cb.
  cbn [scalar_mul k_mul]. unfold k_mul. cbn [scalar_check]. cb. apply IH; [intros w Hw; apply H; right; exact Hw | cbn in HL; lia | exact He2].
Qed.

Lemma substitute_map_total s sm : valid s -> valid_map sm -> exists s', scalar_substitute_map s sm = Ok s' /\ valid s'.
Proof. intros V HM. apply scalar_substitute_map_valid; [exact V | apply valid_map_ok; exact HM]. Qed.

Lemma substitute_map_const s sm : valid s -> ok_map sm ->
  (forall m w, In m (terms s) -> In w (m_vars m) -> exists k, lookup sm w = Some (ES (SK k))) ->
  exists c, scalar_substitute_map s sm = Ok (SK c).
Proof.
  intros V HM HN. pose proof (valid_map_check sm HM) as HC.
  assert (HV : forall w, valid_var w -> (exists k, lookup sm w = Some (ES (SK k))) -> exists k, var_substitute_map w sm = Ok (SK k)).
  { intros w Vw (k & Hk). unfold var_substitute_map. apply var_check_valid in Vw. rewrite Vw, HC. cb. rewrite Hk. eauto. }
  assert (HMo : forall m, valid_mono m -> In m (terms s) -> exists c, mono_substitute_map m sm = Ok (SK c)).
  { intros m Vm Hm. unfold mono_substitute_map. rewrite (valid_mono_check m Vm), HC. cb. destruct Vm as (V1 & V2 & V3 & V4). rewrite Forall_forall in V4.
    apply subst_loop_const; [|exact V1|eapply Forall_impl; [|exact V2]; intros; cbn in *; lia].
    intros w Hw. apply HV; [auto|]. exact (HN m w Hm Hw). }
  destruct s as [k|v|m|p]; cbn [scalar_substitute_map].
  - eauto.
  - apply HV; [exact V|]. apply (HN (var_to_mono v) v); left; reflexivity.
  - apply HMo; [exact V | left; reflexivity].
  - unfold poly_substitute_map. rewrite (valid_poly_check p V), HC. cb. destruct V as [_ V]. cbn [terms] in HMo. clear HN.
    generalize n0 as acc. induction p as [|m p IH]; intro acc; cbn [foldM]; [eauto|]. inversion V as [|? ? V1 V2]; subst.
    destruct (HMo m V1 (or_introl eq_refl)) as (c & ->). cb. cbn [scalar_plus]. unfold k_plus. cbn [scalar_check]. cb.
    apply IH; [exact V2|]. intros x Vx Hx. apply HMo; [exact Vx | right; exact Hx].
Qed.

Lemma substitute_map_numbers s sm : ExactNum NN -> valid s -> valid_map sm -> maps_to_numbers sm s ->
  exists c, scalar_substitute_map s sm = Ok (SK c) /\ forall r, numbers_of sm s r -> c = eval r s.
Proof.
  intros EX V HM HN. pose proof HM as (HD & _).
  assert (HL : forall m w, In m (terms s) -> In w (m_vars m) -> exists k, lookup sm w = Some (ES (SK k))).
  { intros m w Hm Hw. destruct (HN m w Hm Hw) as (k & Hk). exists k. apply lookup_iff; assumption. }
  destruct (substitute_map_const s sm V (valid_map_ok sm HM) HL) as (c & E). exists c. split; [exact E|]. intros r' Hr.
  destruct (scalar_substitute_map_value s sm EX V (valid_map_ok sm HM)) as (s' & E' & _ & X).
  - apply substituted_terms_constant. intros m w Hm Hw. destruct (HL m w Hm Hw) as (k & Hk). exists k. unfold map_image. rewrite Hk. reflexivity.
  - rewrite E in E'. injection E' as <-. apply (X r' r'). intros m w Hm Hw. destruct (HL m w Hm Hw) as (k & Hk). unfold map_image. rewrite Hk.
    cbn. apply (Hr m w k Hm Hw). apply lookup_iff; assumption.
Qed.

(** *** C46 *)
Lemma run_constant p : ExactNum NN -> well_formed p -> no_derivative p ->
  exists s, run p = Ok s /\ scalar_constant s = Ok (eval (fun _ => n0) s).
Proof.
  intros EX W N. destruct (run_valid p W) as (s & E & V). exists s. split; [exact E|]. apply constant_value; [exact V|].
  apply apart_s_collected; [exact V|]. exact (run_apart p s W N E).
Qed.

(** ** LinearCoeff *)
Lemma nth_error_map_some {A B} (f : A -> B) l i x : nth_error l i = Some x -> nth_error (map f l) i = Some (f x).
Proof. revert i. induction l as [|a l IH]; intros [|i] H; cbn in *; try discriminate; [injection H as <-; reflexivity | apply IH; exact H]. Qed.

Lemma idempotent_exact s s' : ExactNum NN -> valid s -> scalar_simplified s = Ok s' -> scalar_simplified s' = Ok s'.
Proof. intros EX. apply simplified_idempotent, zero_laws_exact, EX. Qed.

Lemma linear_coeff_total s w : valid s -> (forall m, s <> SM m) -> w <> [] -> Forall valid_var w ->
  exists cs, scalar_linear_coeff s [w] = Ok cs /\ length cs = length w
    /\ forall i x c, nth_error w i = Some x -> nth_error cs i = Some c -> ~ occurs (v_id x) s -> c = n0.
Proof.
  intros V HM Hw Vw. destruct s as [k|v|m|p]; [| |exfalso; apply (HM m); reflexivity|].
  - cbn. destruct w as [|y w]; [congruence|]. cbn [length zeros_vector]. eexists. split; [reflexivity|]. split; [rewrite repeat_length; reflexivity|].
    intros i x c _ Hc _. apply nth_error_In in Hc. apply repeat_spec in Hc. exact Hc.
  - cbn [scalar_linear_coeff]. unfold var_linear_coeff. cbn in V. apply var_check_valid in V. rewrite V. cbn [check bind wrt_vars].
    destruct w as [|y w]; [congruence|]. eexists. split; [reflexivity|]. split; [rewrite map_length; reflexivity|].
    intros i x c Hx Hc HO. rewrite (nth_error_map_some _ _ _ _ Hx) in Hc. injection Hc as <-.
    destruct (same_id v x) eqn:E; [|reflexivity]. exfalso. apply HO. unfold same_id in E. apply N.eqb_eq in E.
    eexists. split; [left; reflexivity|]. left. exact E.
  - cbn [scalar_linear_coeff]. rewrite (poly_linear_coeff_ok p w V Hw Vw). eexists. split; [reflexivity|]. split; [apply map_length|].
    intros i x c Hx Hc HO. rewrite (nth_error_map_some _ _ _ _ Hx) in Hc. injection Hc as <-.
    unfold lc. destruct (find (lin_in x) p) as [m|] eqn:E; [|reflexivity]. exfalso. apply HO. apply find_some in E. destruct E as [E1 E2].
    exists m. split; [exact E1|]. unfold lin_in in E2. unfold ids. destruct (m_vars m) as [|u [|]]; try discriminate. destruct (m_exps m) as [|e [|]]; try discriminate.
    apply andb_true_iff in E2. destruct E2 as [E2 _]. left. unfold same_id in E2. apply N.eqb_eq in E2. exact E2.
Qed.

End Facts.

Lemma idempotent_binary64 (s s' : @scalar F64Num) : valid s -> scalar_simplified s = Ok s' -> scalar_simplified s' = Ok s'.
Proof. apply simplified_idempotent, zero_laws_F64. Qed.
