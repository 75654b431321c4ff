(** * Tests on terms and searches for terms *)

From Coq Require Import ZArith NArith Bool List Lia Sorted Field_theory Ring_theory.
From Verif Require Import Num Syntax ModelScalar ModelShape Spec SpecArr SpecConv SpecForm Base Eval Order ScalarValid Unamb PolyZero Canon.
Import ListNotations.
Local Open Scope num_scope.

Section FormProofs.
Context {NN : Num}.

Lemma just_valid v : valid_var v -> valid_mono (just v).
Proof. intro V. split; [reflexivity|]. split; [constructor; [lia | constructor]|]. split; [constructor; [intros [] | constructor] | constructor; [exact V | constructor]]. Qed.
Lemma first_index_found (f : Monomial -> res bool) (P : Monomial -> Prop) p : (forall m, In m p -> answers (f m) (P m)) ->
  forall ix, exists o, first_index f p ix = Ok (match o with Some i => Some (ix + i)%nat | None => None end) /\ found P p o.
Proof.
  induction p as [|m p IH]; intros H ix; cbn [first_index]; [exists None; split; [reflexivity | intros m []]|]. destruct (H m (or_introl eq_refl)) as (b & -> & Hb). cbn [bind]. destruct b.
  - exists (Some 0%nat). split; [rewrite Nat.add_0_r; reflexivity|]. exists m. split; [reflexivity|]. split; [apply Hb; reflexivity|]. intros j m' Hj. lia.
  - assert (Hn : ~ P m) by (intro Q; apply Hb in Q; discriminate Q). destruct (IH (fun m' Hm' => H m' (or_intror Hm')) (S ix)) as (o & E & F). rewrite E. destruct o as [i|].
    + exists (Some (S i)). split; [do 2 f_equal; lia|]. destruct F as (m' & F1 & F2 & F3). exists m'. split; [exact F1|]. split; [exact F2|]. intros [|j] m2 Hj E2; cbn in E2; [congruence|]. apply (F3 j); [lia | exact E2].
    + exists None. split; [reflexivity|]. intros m' [<-|Hm']; [exact Hn | apply F; exact Hm'].
Qed.
Lemma searched (f : Monomial -> res bool) (P : Monomial -> Prop) p : (forall m, In m p -> answers (f m) (P m)) -> exists o, first_index f p 0 = Ok o /\ found P p o.
Proof. intro H. destruct (first_index_found f P p H 0) as (o & E & F). exists o. split; [rewrite E; destruct o; reflexivity | exact F]. Qed.

(** ** Tests *)
Lemma degree_one_exponents m v : valid_mono m -> same_powers m (just v) <-> exists w, m_vars m = [w] /\ v_id w = v_id v /\ m_exps m = [1%Z].
Proof.
  intros (L & P & N & V). split.
  - intro S. destruct m as [c es vs]. cbn [m_vars m_exps] in *. destruct vs as [|w vs].
    + specialize (S (v_id v)). unfold exponent, just in S. cbn [m_vars m_exps exponent_in] in S. rewrite N.eqb_refl in S. discriminate S.
    + destruct es as [|e es]; [discriminate L|]. assert (U : forall i, i <> v_id v -> exponent_in (w :: vs) (e :: es) i = 0%Z).
      { intros i Hi. specialize (S i). unfold exponent, just in S. cbn [m_vars m_exps] in S. rewrite S. cbn. destruct (N.eqb_spec (v_id v) i); [congruence | reflexivity]. }
      assert (K : forall vs0 es0 i, Forall (fun e => (1 <= e)%Z) es0 -> length es0 = length vs0 -> (0 <= exponent_in vs0 es0 i)%Z).
      { clear. induction vs0 as [|x vs0 IH]; intros [|e es0] i F Le; cbn in *; try lia. inversion F; subst. specialize (IH es0 i H2 ltac:(lia)). destruct (v_id x =? i)%N; lia. }
      inversion P as [|? ? Pe Pes]; subst. assert (Lv : length es = length vs) by (cbn in L; lia). assert (W : v_id w = v_id v).
      { destruct (N.eq_dec (v_id w) (v_id v)) as [E|E]; [exact E|]. specialize (U _ E). cbn [exponent_in] in U. rewrite N.eqb_refl in U. specialize (K vs es (v_id w) Pes Lv). lia. }
      destruct vs as [|x vs].
      * destruct es; [|discriminate Lv]. exists w. split; [reflexivity|]. split; [exact W|]. specialize (S (v_id v)). unfold exponent, just in S. cbn in S. rewrite W, N.eqb_refl in S. f_equal. lia.
      * exfalso. destruct es as [|e2 es]; [discriminate Lv|]. inversion Pes as [|? ? Pe2 Pes2]; subst. inversion N as [|? ? N1 N2]; subst. assert (X : v_id x <> v_id v) by (intro E; apply N1; left; congruence).
        specialize (U _ X). cbn [exponent_in] in U. rewrite N.eqb_refl in U. specialize (K vs es (v_id x) Pes2 ltac:(cbn in Lv; lia)). destruct (N.eqb_spec (v_id w) (v_id x)); lia.
  - intros (w & Ev & Ei & Ee) i. unfold exponent, just. rewrite Ev, Ee. cbn. rewrite Ei. reflexivity.
Qed.
Theorem degree_one_spec m v : valid_mono m -> valid_var v -> answers (mono_is_degree_one_in m v) (same_powers m (just v)).
Proof.
  intros Vm Vv. pose proof (degree_one_exponents m v Vm) as D. unfold mono_is_degree_one_in, mono_is_constant. rewrite (valid_mono_check m Vm), (proj2 (var_check_valid v) Vv). cbn [check bind].
  destruct Vm as (L & _). destruct m as [c es vs]. cbn [m_vars m_exps] in *. destruct vs as [|w vs]; cbn [bind].
  - exists false. split; [reflexivity|]. split; [discriminate|]. intro S. apply D in S. destruct S as (w & E & _). discriminate E.
  - destruct es as [|e es]; [discriminate L|]. cbn [index nth_error bind]. eexists. split; [reflexivity|]. rewrite D. unfold same_id. rewrite !andb_true_iff, Nat.eqb_eq, Z.eqb_eq, N.eqb_eq. split.
    + intros [[A B] C]. destruct vs; [|discriminate A]. destruct es; [|discriminate L]. exists w. subst e. auto.
    + intros (w' & E1 & E2 & E3). injection E1 as <- ->. injection E3 as -> ->. auto.
Qed.
Theorem matches_spec m1 m2 : valid_mono m1 -> valid_mono m2 -> answers (mono_matches_form m1 m2) (look_alike m1 m2).
Proof. intros V1 V2. exists (matchb m1 m2). split; [apply mono_matches_form_ok; apply valid_mono_check; assumption | apply matchb_look_alike; assumption]. Qed.
Lemma look_alike_sym m1 m2 : look_alike m1 m2 -> look_alike m2 m1.
Proof. intros (A & B & C). split; [congruence|]. split; [congruence|]. intro i. rewrite C. reflexivity. Qed.
Theorem matches_symmetric m1 m2 : valid_mono m1 -> valid_mono m2 -> mono_matches_form m1 m2 = mono_matches_form m2 m1.
Proof.
  intros V1 V2. destruct (matches_spec m1 m2 V1 V2) as (b & -> & H1). destruct (matches_spec m2 m1 V2 V1) as (b' & -> & H2). f_equal. destruct b, b'; try reflexivity.
  - symmetry. apply H2. apply look_alike_sym. apply H1. reflexivity.
  - apply H1. apply look_alike_sym. apply H2. reflexivity.
Qed.
Lemma answers_iff r (P Q : Prop) : answers r P -> (P <-> Q) -> answers r Q.
Proof. intros (b & E & H) PQ. exists b. split; [exact E|]. rewrite H. exact PQ. Qed.
Lemma degree2_form m1 m2 : valid_mono m1 -> valid_mono m2 -> (tdeg m1 <= 2)%Z -> (tdeg m2 <= 2)%Z -> (look_alike m1 m2 <-> same_powers m1 m2).
Proof.
  intros V1 V2 D1 D2. split.
  - apply (uniform_unambiguous (fun m => m = m1 \/ m = m2)); [intros m [-> | ->]; (split; [assumption | apply degree2_uniform; assumption]) | left; reflexivity | right; reflexivity].
  - apply uniform_listed; try assumption; apply degree2_uniform; assumption.
Qed.
Theorem matches_degree2 m1 m2 : valid_mono m1 -> valid_mono m2 -> (tdeg m1 <= 2)%Z -> (tdeg m2 <= 2)%Z -> answers (mono_matches_form m1 m2) (same_powers m1 m2).
Proof. intros V1 V2 D1 D2. eapply answers_iff; [apply matches_spec; assumption | apply degree2_form; assumption]. Qed.
Lemma sorted_form m1 m2 : valid_mono m1 -> valid_mono m2 -> StronglySorted N.lt (ids m1) -> StronglySorted N.lt (ids m2) -> (look_alike m1 m2 <-> same_powers m1 m2).
Proof.
  intros V1 V2 S1 S2. split; [|apply sorted_listed; assumption].
  assert (U : unambiguous (in_either (SM m1) (SM m2))) by (apply sorted_either_unambiguous; (constructor; [assumption | constructor])). apply U; [left; left; reflexivity | right; left; reflexivity].
Qed.
Theorem matches_sorted m1 m2 : valid_mono m1 -> valid_mono m2 -> StronglySorted N.lt (ids m1) -> StronglySorted N.lt (ids m2) -> answers (mono_matches_form m1 m2) (same_powers m1 m2).
Proof. intros V1 V2 D1 D2. eapply answers_iff; [apply matches_spec; assumption | apply sorted_form; assumption]. Qed.

(** ** Searches *)
Theorem constant_index_spec p : valid_poly p -> exists o, poly_constant_index p = Ok o /\ found (fun m => m_vars m = []) p o.
Proof.
  intro V. unfold poly_constant_index. rewrite (valid_poly_check p V). cbn [check bind]. apply searched. intros m Hm. destruct V as [_ V]. rewrite Forall_forall in V.
  exists (is_const m). split; [apply mono_is_constant_ok; apply valid_mono_check; apply V; exact Hm|]. unfold is_const. destruct (m_vars m); split; congruence.
Qed.
Theorem variable_index_spec p v : valid_poly p -> valid_var v -> exists o, poly_variable_index p v = Ok o /\ found (fun m => same_powers m (just v)) p o.
Proof.
  intros V Vv. unfold poly_variable_index. rewrite (valid_poly_check p V), (proj2 (var_check_valid v) Vv). cbn [check bind]. apply (searched (fun m => mono_is_degree_one_in m v)). intros m Hm. destruct V as [_ V]. rewrite Forall_forall in V.
  apply degree_one_spec; [apply V; exact Hm | exact Vv].
Qed.
Theorem monomial_index_spec p q : valid_poly p -> valid_mono q -> exists o, poly_monomial_index p q = Ok o /\ found (fun m => look_alike m q) p o.
Proof.
  intros V Vq. unfold poly_monomial_index. rewrite (valid_poly_check p V), (valid_mono_check q Vq). cbn [check bind]. apply (searched (fun m => mono_matches_form m q)). intros m Hm. destruct V as [_ V]. rewrite Forall_forall in V.
  apply matches_spec; [apply V; exact Hm | exact Vq].
Qed.
Theorem monomial_index_degree2 p q : valid_poly p -> valid_mono q -> degree_at_most 2 (SP p) -> (tdeg q <= 2)%Z -> exists o, poly_monomial_index p q = Ok o /\ found (fun m => same_powers m q) p o.
Proof.
  intros V Vq D Dq. unfold poly_monomial_index. rewrite (valid_poly_check p V), (valid_mono_check q Vq). cbn [check bind]. apply (searched (fun m => mono_matches_form m q)). intros m Hm. destruct V as [_ V]. rewrite Forall_forall in V.
  unfold degree_at_most in D. cbn [terms] in D. rewrite Forall_forall in D. apply matches_degree2; [apply V; exact Hm | exact Vq | apply D; exact Hm | exact Dq].
Qed.

(** ** ToVariable *)
Theorem to_variable_spec m : valid_mono m -> (forall v, mono_to_variable m = Ok v -> m_vars m = [v] /\ same_powers m (just v)) /\ ((exists v, same_powers m (just v)) -> exists v, mono_to_variable m = Ok v).
Proof.
  intro V. assert (K : forall w, In w (m_vars m) -> valid_var w) by (destruct V as (_ & _ & _ & V); rewrite Forall_forall in V; exact V).
  unfold mono_to_variable. rewrite (valid_mono_check m V). cbn [check bind]. split.
  - intros v E. destruct (m_vars m) as [|w vs] eqn:Ev; [discriminate E|]. destruct (degree_one_spec m w V (K w (or_introl eq_refl))) as (b & Eb & Hb). rewrite Eb in E. cbn [bind] in E. destruct b; [|discriminate E].
    injection E as <-. assert (S : same_powers m (just w)) by (apply Hb; reflexivity). split; [|exact S]. apply (proj1 (degree_one_exponents m w V)) in S. destruct S as (x & Ex & _). congruence.
  - intros (v & S). pose proof S as S'. apply (proj1 (degree_one_exponents m v V)) in S. destruct S as (w & Ew & Ei & Ee). rewrite Ew. assert (Hw : valid_var w) by (apply K; rewrite Ew; left; reflexivity).
    destruct (degree_one_spec m w V Hw) as (b & Eb & Hb). rewrite Eb. cbn [bind]. assert (T : b = true) by (apply Hb; apply (degree_one_exponents m w V); exists w; auto). rewrite T. eauto.
Qed.
Theorem tests_reject m v : mono_check m = false -> (mono_is_zero m = Panic PCheck /\ mono_is_degree_one_in m v = Panic PCheck /\ mono_is_variable m v = Panic PCheck /\ mono_to_variable m = Panic PCheck) /\ (forall m', mono_matches_form m m' = Panic PCheck) /\ (forall m', mono_check m' = true -> mono_matches_form m' m = Panic PCheck).
Proof.
  intro H. unfold mono_is_zero, mono_is_degree_one_in, mono_is_variable, mono_to_variable, mono_matches_form. rewrite H. cbn [check bind]. split; [auto|]. split; [reflexivity|]. intros m' ->. reflexivity.
Qed.

(** ** LinearCoeff with several lists, or with none *)
Theorem several_lists s w1 w2 ws : valid s -> match s with SK _ => scalar_linear_coeff s (w1 :: w2 :: ws) = scalar_linear_coeff s [w1] | _ => exists p, scalar_linear_coeff s (w1 :: w2 :: ws) = Panic p end.
Proof.
  destruct s as [k|v|m|p]; cbn [scalar_linear_coeff]; [reflexivity| | |].
  - unfold var_linear_coeff. destruct (var_check v); cbn; eauto.
  - unfold mono_linear_coeff. destruct (mono_check m); cbn; eauto.
  - unfold poly_linear_coeff. destruct (poly_check p); cbn; eauto.
Qed.
Theorem no_list s : scalar_linear_coeff s [] = scalar_linear_coeff s [scalar_variables s].
Proof. destruct s as [k|v|m|p]; reflexivity. Qed.
Theorem vector_lists v w1 w2 ws : exists p, vec_linear_coeff v (w1 :: w2 :: ws) = Panic p.
Proof. unfold vec_linear_coeff. destruct (vec_check v); cbn; eauto. Qed.
Theorem vector_no_list v ws : vec_variables v = Ok ws -> vec_linear_coeff v [] = vec_linear_coeff v [ws].
Proof. intro E. unfold vec_linear_coeff. destruct (vec_check v); cbn [check bind]; [rewrite E|]; reflexivity. Qed.
End FormProofs.

Section Exact.
Context {NN : Num} {EX : ExactNum NN}.
Add Ring numring : num_ring.
Lemma eval_just r v : eval_mono r (just v) = r (v_id v).
Proof. unfold eval_mono, just. cbn [m_vars m_exps m_coeff eval_factors]. change (Z.to_nat 1) with 1%nat. cbn [npow]. ring. Qed.
Lemma one_of_form m v : valid_mono m -> same_powers m (just v) -> forall r, eval_mono r m = m_coeff m * r (v_id v).
Proof. intros V S r. apply (proj1 (degree_one_exponents m v V)) in S. destruct S as (w & Ev & Ei & Ee). unfold eval_mono. rewrite Ev, Ee. cbn [eval_factors]. change (Z.to_nat 1) with 1%nat. cbn [npow]. rewrite Ei. ring. Qed.
Lemma ones_value vs es : eval_factors (fun _ => n1) vs es = n1.
Proof.
  revert es. induction vs as [|v vs IH]; intros [|e es]; cbn; try reflexivity. rewrite IH. assert (K : forall k, npow n1 k = n1) by (induction k as [|k IHk]; cbn; [reflexivity | rewrite IHk; ring]). rewrite K. ring.
Qed.
Theorem is_zero_spec m : valid_mono m -> answers (mono_is_zero m) (forall r, eval_mono r m = n0).
Proof.
  intro V. unfold mono_is_zero. rewrite (valid_mono_check m V). cbn [check bind]. eexists. split; [reflexivity|]. split.
  - intros E r. apply ex_eqb in E. unfold eval_mono. rewrite E. ring.
  - intro H. specialize (H (fun _ => n1)). unfold eval_mono in H. rewrite ones_value in H. apply ex_eqb. rewrite <- H. ring.
Qed.
Theorem is_variable_spec m v : valid_mono m -> valid_var v -> answers (mono_is_variable m v) (forall r, eval_mono r m = r (v_id v)).
Proof.
  intros V Vv. unfold mono_is_variable. rewrite (valid_mono_check m V), (proj2 (var_check_valid v) Vv). cbn [check bind]. destruct (degree_one_spec m v V Vv) as (b & -> & Hb). cbn [bind].
  eexists. split; [reflexivity|]. rewrite andb_true_iff, ex_eqb, Hb. split.
  - intros [S C] r. rewrite (one_of_form m v V S), C. ring.
  - intro H. assert (E : coefficient_in (just v) [m] = coefficient_in (just v) [just v]).
    { apply coefficients_determine; [constructor; [exact V | constructor] | constructor; [apply just_valid; exact Vv | constructor] | | apply just_valid; exact Vv].
      intro r. cbn [eval_poly]. rewrite H, eval_just. reflexivity. }
    cbn [coefficient_in] in E. rewrite (powers_refl (just v) (just_valid v Vv)) in E. change (m_coeff (just v)) with n1 in E. destruct (powers_eqb m (just v)) eqn:P.
    + apply (powers_eqb_spec m (just v) V (just_valid v Vv)) in P. split; [exact P|]. transitivity (m_coeff m + n0); [ring|]. rewrite E. ring.
    + exfalso. apply one_neq_zero. transitivity (n1 + n0); [ring|]. symmetry. exact E.
Qed.
Theorem to_variable_value m v : valid_mono m -> mono_to_variable m = Ok v -> forall r, eval_mono r m = m_coeff m * r (v_id v).
Proof. intros V E. apply one_of_form; [exact V|]. destruct (to_variable_spec m V) as [H _]. apply H. exact E. Qed.
Theorem same_powers_meaning m1 m2 : valid_mono m1 -> valid_mono m2 -> m_coeff m1 <> n0 -> m_coeff m2 <> n0 ->
  (same_powers m1 m2 <-> exists c, forall r, eval_mono r m1 = c * eval_mono r m2).
Proof.
  intros V1 V2 C1 C2. split.
  - intro S. exists (m_coeff m1 / m_coeff m2). intro r. assert (E : eval_factors r (m_vars m1) (m_exps m1) = eval_factors r (m_vars m2) (m_exps m2)) by (apply factors_same_powers; assumption).
    unfold eval_mono. rewrite E. replace (m_coeff m1) with (m_coeff m1 / m_coeff m2 * m_coeff m2) at 1; [ring|]. rewrite (Fdiv_def ex_field). transitivity (m_coeff m1 * (n1 / m_coeff m2 * m_coeff m2)); [ring|]. rewrite (inv_l _ C2). ring.
  - intros (c & H). assert (E : coefficient_in m1 [m1] = coefficient_in m1 (scale c [m2])).
    { apply coefficients_determine; [constructor; [exact V1 | constructor] | apply scale_valid; constructor; [exact V2 | constructor] | | exact V1]. intro r. rewrite eval_scale. cbn [eval_poly]. rewrite H. ring. }
    rewrite coefficient_scale in E. cbn [coefficient_in] in E. rewrite (powers_refl m1 V1) in E. destruct (powers_eqb m2 m1) eqn:P.
    + apply (powers_eqb_spec m2 m1 V2 V1) in P. intro i. symmetry. apply P.
    + exfalso. apply C1. transitivity (m_coeff m1 + n0); [ring|]. rewrite E. ring.
Qed.
Theorem scalar_conversions r : (forall k, eval_mono r (k_to_mono k) = k /\ eval_poly r (k_to_poly k) = k) /\ (forall v, eval_mono r (var_to_mono v) = r (v_id v) /\ eval_poly r (var_to_poly v) = r (v_id v)) /\ (forall m, eval_poly r (mono_to_poly m) = eval_mono r m).
Proof.
  assert (K : forall k, eval_mono r (k_to_mono k) = k) by (intro k; unfold eval_mono, k_to_mono; cbn [m_vars m_exps m_coeff eval_factors]; ring).
  assert (V : forall v, eval_mono r (var_to_mono v) = r (v_id v)) by (intro v; exact (eval_just r v)).
  unfold k_to_poly, var_to_poly, mono_to_poly. cbn [eval_poly]. split; [|split].
  - intro k. rewrite K. split; [reflexivity | ring].
  - intro v. rewrite V. split; [reflexivity | ring].
  - intro m. ring.
Qed.
End Exact.
