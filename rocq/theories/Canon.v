(** * Simplified expressions are determined by their values *)

From Coq Require Import ZArith NArith Bool List Lia Permutation Sorted Field_theory Ring_theory.
From Verif Require Import Num Syntax ModelScalar Spec Base ScalarValid Eval ScalarOps ScalarMore ScalarNorm Unamb Order ScalarFacts SCProofs SpecArr SpecConv PolyZero.
Import ListNotations.
Local Open Scope num_scope.

(** ** Listing of terms *)
Section Listing.
Context {NN : Num}.

Lemma same_powers_ids m1 m2 : valid_mono m1 -> valid_mono m2 -> same_powers m1 m2 -> forall i, In i (ids m1) <-> In i (ids m2).
Proof. intros V1 V2 H i. rewrite (exponent_pos m1 i V1), (exponent_pos m2 i V2), (H i). reflexivity. Qed.
Lemma same_powers_length m1 m2 : valid_mono m1 -> valid_mono m2 -> same_powers m1 m2 -> length (m_vars m1) = length (m_vars m2).
Proof.
  intros V1 V2 H. pose proof (same_powers_ids m1 m2 V1 V2 H) as HI. rewrite <- (map_length v_id (m_vars m1)), <- (map_length v_id (m_vars m2)).
  destruct V1 as (_ & _ & N1 & _). destruct V2 as (_ & _ & N2 & _). apply Nat.le_antisymm; apply NoDup_incl_length; try assumption; intros i Hi; apply HI; exact Hi.
Qed.
Lemma repeat_of (e : Z) (l : list Z) : (forall x, In x l -> x = e) -> l = repeat e (length l).
Proof. induction l as [|a l IH]; intro H; cbn; [reflexivity|]. rewrite (H a) by (left; reflexivity). rewrite <- IH; [reflexivity|]. intros x Hx. apply H. right; exact Hx. Qed.
Lemma uniform_listed m1 m2 : valid_mono m1 -> valid_mono m2 -> uniform m1 -> uniform m2 -> same_powers m1 m2 -> look_alike m1 m2.
Proof.
  intros V1 V2 U1 U2 H. pose proof (same_powers_ids m1 m2 V1 V2 H) as HI. pose proof (same_powers_length m1 m2 V1 V2 H) as HL.
  split; [|split; [exact HL | exact HI]]. pose proof V1 as (L1 & P1 & N1 & _). pose proof V2 as (L2 & P2 & N2 & _).
  destruct (m_exps m1) as [|e es] eqn:E1.
  - destruct (m_exps m2); [reflexivity | cbn in *; lia].
  - destruct (m_exps m2) as [|e' es'] eqn:E2; [cbn in *; lia|].
    assert (Ev : exists v, In v (m_vars m1)) by (destruct (m_vars m1) as [|v l]; [cbn in *; lia | exists v; left; reflexivity]).
    destruct Ev as (v & Hv). assert (Hi : In (v_id v) (ids m1)) by (apply in_map; exact Hv).
    assert (Ee : e = e').
    { transitivity (exponent m1 (v_id v)); [symmetry; apply exponent_uniform; try assumption; rewrite E1; left; reflexivity|].
      rewrite (H (v_id v)). apply exponent_uniform; try assumption; [apply HI; exact Hi | rewrite E2; left; reflexivity]. }
    subst e'. rewrite (repeat_of e (e :: es)), (repeat_of e (e :: es')).
    + f_equal. cbn [length] in *. lia.
    + intros x Hx. apply U2; rewrite E2; [exact Hx | left; reflexivity].
    + intros x Hx. apply U1; rewrite E1; [exact Hx | left; reflexivity].
Qed.
Lemma exps_determined vs es es' : NoDup (map v_id vs) -> length es = length vs -> length es' = length vs ->
  (forall i, exponent_in vs es i = exponent_in vs es' i) -> es = es'.
Proof.
  revert es es'. induction vs as [|v vs IH]; intros [|e es] [|e' es'] HN L L' H; try discriminate; [reflexivity|]. inversion HN as [|? ? H1 H2]; subst.
  assert (Ee : e = e').
  { specialize (H (v_id v)). cbn in H. rewrite N.eqb_refl in H. rewrite !(exponent_in_notin vs) in H by exact H1. lia. }
  subst e'. f_equal. apply IH; [exact H2 | cbn in L; lia | cbn in L'; lia|]. intro i. specialize (H i). cbn in H. lia.
Qed.
Lemma sorted_listed m1 m2 : valid_mono m1 -> valid_mono m2 -> StronglySorted N.lt (ids m1) -> StronglySorted N.lt (ids m2) -> same_powers m1 m2 -> look_alike m1 m2.
Proof.
  intros V1 V2 S1 S2 H. pose proof (same_powers_ids m1 m2 V1 V2 H) as HI. split; [|split; [apply same_powers_length; assumption | exact HI]].
  assert (EI : ids m1 = ids m2) by (apply sorted_same; assumption). destruct V1 as (L1 & _ & N1 & _). destruct V2 as (L2 & _ & N2 & _).
  apply (exps_determined (m_vars m1)); [exact N1 | exact L1 | | ].
  - rewrite L2. rewrite <- (map_length v_id (m_vars m2)), <- (map_length v_id (m_vars m1)). unfold ids in EI. rewrite EI. reflexivity.
  - intro i. specialize (H i). unfold exponent in H. rewrite H. apply exponent_in_ids. symmetry. exact EI.
Qed.

Lemma degree2_listed a b : valid a -> valid b -> degree_at_most 2 a -> degree_at_most 2 b -> uniquely_listed (in_either a b).
Proof.
  intros Va Vb Da Db m1 m2 H1 H2.
  assert (G : forall m, in_either a b m -> valid_mono m /\ uniform m).
  { intros m [Hm|Hm]; [destruct (degree_terms a 2 Va Da m Hm) as [V D] | destruct (degree_terms b 2 Vb Db m Hm) as [V D]]; (split; [exact V | apply degree2_uniform; assumption]). }
  destruct (G m1 H1), (G m2 H2). apply uniform_listed; assumption.
Qed.
Lemma one_variable_listed x a b : valid a -> valid b -> only_variable x a -> only_variable x b -> uniquely_listed (in_either a b).
Proof.
  intros Va Vb Da Db m1 m2 H1 H2. pose proof (valid_terms a Va) as HVa. pose proof (valid_terms b Vb) as HVb.
  unfold only_variable in *. rewrite Forall_forall in *.
  assert (G : forall m, in_either a b m -> valid_mono m /\ uniform m).
  { intros m [Hm|Hm]; (split; [auto|]); apply (single_var_uniform m x); auto; intros i Hi; [exact (Da m Hm i Hi) | exact (Db m Hm i Hi)]. }
  destruct (G m1 H1), (G m2 H2). apply uniform_listed; assumption.
Qed.
Lemma sorted_either_listed a b : valid a -> valid b -> sorted_terms a -> sorted_terms b -> uniquely_listed (in_either a b).
Proof.
  intros Va Vb Da Db m1 m2 H1 H2. pose proof (valid_terms a Va) as HVa. pose proof (valid_terms b Vb) as HVb.
  unfold sorted_terms in *. rewrite Forall_forall in *. apply sorted_listed; destruct H1, H2; auto.
Qed.
Lemma sorted_either_unambiguous a b : sorted_terms a -> sorted_terms b -> unambiguous (in_either a b).
Proof. intros Da Db. apply sorted_unambiguous. unfold sorted_terms in *. rewrite Forall_forall in *. intros m [H|H]; auto. Qed.

(** no two terms of a collected expression have the same powers, if the terms are uniquely listed *)
Lemma collected_different L s : Forall valid_mono L -> valid s -> collected s -> (forall m, In m (terms s) -> is_const m = true \/ formed L m) ->
  uniquely_listed (fun m => In m L) -> different_powers s.
Proof.
  intros VL Vs HC HF HU l1 m1 l2 m2 l3 E HP. apply (HC l1 m1 l2 m2 l3 E). pose proof (valid_terms s Vs) as VT. rewrite Forall_forall in VT, VL.
  assert (I1 : In m1 (terms s)) by (rewrite E; apply in_or_app; right; left; reflexivity).
  assert (I2 : In m2 (terms s)) by (rewrite E; apply in_or_app; right; right; apply in_or_app; right; left; reflexivity).
  pose proof (VT m1 I1) as V1. pose proof (VT m2 I2) as V2.
  assert (C : forall m m', valid_mono m -> valid_mono m' -> is_const m = true -> same_powers m m' -> look_alike m m').
  { intros m m' V V' Cm HPm. assert (Cm' : is_const m' = true). { apply is_const_exponent; [exact V'|]. intro i. rewrite <- (HPm i). apply is_const_exponent; assumption. }
    destruct V as (La & _). destruct V' as (Lb & _). unfold is_const in Cm, Cm'. unfold look_alike, ids.
    destruct (m_vars m); [|discriminate]. destruct (m_vars m'); [|discriminate]. destruct (m_exps m); [|discriminate]. destruct (m_exps m'); [|discriminate].
    repeat split; auto. }
  destruct (HF m1 I1) as [C1|(a1 & A1 & F1)]; [apply C; assumption|]. destruct (HF m2 I2) as [C2|(a2 & A2 & F2)].
  - assert (C1 : is_const m1 = true). { apply is_const_exponent; [exact V1|]. intro i. rewrite (HP i). apply is_const_exponent; assumption. } apply C; assumption.
  - assert (G : forall m a, same_form m a -> same_form a m) by (intros m a [F G']; split; symmetry; assumption).
    apply (look_alike_form a1 a2); [apply G; exact F1 | apply G; exact F2|]. apply HU; try assumption. apply (same_powers_form a1 a2 m1 m2); auto.
Qed.

End Listing.

(** ** Values determine terms *)
Section Canon.
Context {NN : Num} {EX : ExactNum NN}.
Add Ring numring : num_ring.

Definition diff_l (l : list Monomial) : Prop := forall l1 m1 l2 m2 l3, l = l1 ++ m1 :: l2 ++ m2 :: l3 -> ~ same_powers m1 m2.
Lemma diff_cons m l : diff_l (m :: l) -> (forall t, In t l -> ~ same_powers m t) /\ diff_l l.
Proof.
  intro H. split.
  - intros t Ht. apply in_split in Ht as (l1 & l2 & ->). exact (H [] m l1 t l2 eq_refl).
  - intros l1 m1 l2 m2 l3 ->. exact (H (m :: l1) m1 l2 m2 l3 eq_refl).
Qed.
Lemma diff_remove l1 m l2 : diff_l (l1 ++ m :: l2) -> (forall t, In t (l1 ++ l2) -> ~ same_powers t m) /\ diff_l (l1 ++ l2).
Proof.
  intro H. split.
  - intros t Ht HP. apply in_app_iff in Ht as [Ht|Ht]; apply in_split in Ht as (a & b & ->).
    + rewrite <- app_assoc in H. exact (H a t b m l2 eq_refl HP).
    + apply (H l1 m a t b eq_refl). intro i. symmetry. apply HP.
  - intros a m1 b m2 c E HP. revert l1 H E. intros l1. revert a. induction l1 as [|x l1 IH]; intros a H E; cbn in *.
    + subst l2. exact (H (m :: a) m1 b m2 c eq_refl HP).
    + destruct a as [|y a]; cbn in E; injection E as -> E.
      * destruct (diff_cons _ _ H) as [H1 _]. apply (H1 m2); [|exact HP].
        assert (Hin : In m2 (l1 ++ l2)) by (rewrite E; apply in_or_app; right; left; reflexivity).
        apply in_app_iff in Hin. apply in_or_app. cbn. tauto.
      * destruct (diff_cons _ _ H) as [_ H2]. exact (IH a H2 E).
Qed.
Lemma coefficient_none m l : valid_mono m -> Forall valid_mono l -> (forall t, In t l -> ~ same_powers t m) -> coefficient_in m l = n0.
Proof.
  intros Vm HV H. induction l as [|t l IH]; [reflexivity|]. inversion HV as [|? ? Vt HV']; subst. cbn [coefficient_in].
  destruct (powers_eqb t m) eqn:E.
  - apply powers_eqb_spec in E; [|exact Vt | exact Vm]. exfalso. exact (H t (or_introl eq_refl) E).
  - apply IH; [exact HV'|]. intros x Hx. apply H. right. exact Hx.
Qed.
Lemma coefficient_some m l : valid_mono m -> Forall valid_mono l -> coefficient_in m l <> n0 -> exists t, In t l /\ same_powers t m.
Proof.
  intros Vm HV H. induction l as [|t l IH]; [cbn in H; congruence|]. inversion HV as [|? ? Vt HV']; subst. cbn [coefficient_in] in H.
  destruct (powers_eqb t m) eqn:E.
  - exists t. split; [left; reflexivity | apply powers_eqb_spec in E; assumption].
  - destruct (IH HV' H) as (x & Hx & HP). exists x. split; [right; exact Hx | exact HP].
Qed.
Lemma powers_refl m : valid_mono m -> powers_eqb m m = true.
Proof. intro V. apply powers_eqb_spec; [exact V | exact V | intro; reflexivity]. Qed.
Lemma coefficient_head m l : valid_mono m -> Forall valid_mono l -> (forall t, In t l -> ~ same_powers t m) -> coefficient_in m (m :: l) = m_coeff m.
Proof. intros V HV H. cbn [coefficient_in]. rewrite powers_refl by exact V. rewrite coefficient_none by assumption. ring. Qed.
Lemma coefficient_mid m l1 t l2 : coefficient_in m (l1 ++ t :: l2) = coefficient_in m (t :: l1 ++ l2).
Proof. rewrite coefficient_app. cbn [coefficient_in]. rewrite coefficient_app. destruct (powers_eqb t m); ring. Qed.
Lemma coefficient_same m m' l : valid_mono m -> valid_mono m' -> Forall valid_mono l -> same_powers m m' -> coefficient_in m l = coefficient_in m' l.
Proof.
  intros V V' HV H. induction l as [|t l IH]; [reflexivity|]. inversion HV as [|? ? Vt HV']; subst. cbn [coefficient_in].
  replace (powers_eqb t m') with (powers_eqb t m); [rewrite IH by exact HV'; reflexivity|].
  apply eq_true_iff_eq. rewrite !powers_eqb_spec by assumption. split; intros HP i; [rewrite <- (H i) | rewrite (H i)]; apply HP.
Qed.

Lemma lists_determined p : forall q, Forall valid_mono p -> Forall valid_mono q -> diff_l p -> diff_l q ->
  (forall m, In m p -> m_coeff m <> n0) -> (forall m, In m q -> m_coeff m <> n0) ->
  (forall m, valid_mono m -> coefficient_in m p = coefficient_in m q) -> same_multiples p q.
Proof.
  induction p as [|m p IH]; intros q Vp Vq Dp Dq Zp Zq HC.
  - destruct q as [|t q]; [exists []; split; constructor|]. exfalso. inversion Vq as [|? ? Vt Vq']; subst. destruct (diff_cons _ _ Dq) as [D1 _].
    apply (Zq t (or_introl eq_refl)). rewrite <- (coefficient_head t q); [symmetry; apply HC; exact Vt | exact Vt | exact Vq' |].
    intros x Hx HP. apply (D1 x Hx). intro i. symmetry. apply HP.
  - inversion Vp as [|? ? Vm Vp']; subst. destruct (diff_cons _ _ Dp) as [D1 D2].
    assert (D1' : forall t, In t p -> ~ same_powers t m) by (intros t Ht HP; apply (D1 t Ht); intro i; symmetry; apply HP).
    pose proof (HC m Vm) as E. rewrite coefficient_head in E by assumption.
    destruct (coefficient_some m q Vm Vq) as (t & Ht & HP); [rewrite <- E; apply Zp; left; reflexivity|].
    apply in_split in Ht as (q1 & q2 & ->). pose proof Vq as Vq0. apply Forall_app in Vq0 as [Vq1 Vq0]. inversion Vq0 as [|? ? Vt Vq2]; subst.
    assert (Vq12 : Forall valid_mono (q1 ++ q2)) by (apply Forall_app; split; assumption).
    destruct (diff_remove _ _ _ Dq) as [D3 D4].
    assert (Et : m_coeff m = m_coeff t).
    { rewrite E, coefficient_mid, (coefficient_same m t); [apply coefficient_head; assumption | exact Vm | exact Vt | constructor; assumption | intro i; symmetry; apply HP]. }
    destruct (IH (q1 ++ q2)) as (l & HPm & HF); try assumption.
    + intros x Hx. apply Zp. right. exact Hx.
    + intros x Hx. apply Zq. apply in_app_iff in Hx. apply in_or_app. cbn. tauto.
    + intros x Vx. specialize (HC x Vx). rewrite coefficient_mid in HC. cbn [coefficient_in] in HC.
      replace (powers_eqb t x) with (powers_eqb m x) in HC.
      * destruct (powers_eqb m x); [|exact HC]. rewrite Et in HC. transitivity ((m_coeff t + coefficient_in x p) - m_coeff t); [ring|]. rewrite HC. ring.
      * apply eq_true_iff_eq. rewrite !powers_eqb_spec by assumption. split; intros H i; [rewrite (HP i) | rewrite <- (HP i)]; apply H.
    + exists (t :: l). split; [|constructor; [split; [exact Et | intro i; symmetry; apply HP] | exact HF]].
      apply Permutation_cons_app. exact HPm.
Qed.

(** the non-zero terms *)
Definition nzt (s : scalar) : list Monomial := match s with SK k => if k =? n0 then [] else terms s | _ => terms s end.
Lemma nzt_incl s : incl (nzt s) (terms s).
Proof. destruct s as [k|v|m|p]; try apply incl_refl. cbn. destruct (k =? n0); [intros x [] | apply incl_refl]. Qed.
Lemma eqb_neq (c : num) : (c =? n0) = false -> c <> n0.
Proof. intros H E. apply ex_eqb in E. congruence. Qed.
Lemma nzt_nonzero s : normal s -> forall m, In m (nzt s) -> m_coeff m <> n0.
Proof.
  destruct s as [k|v|m|p]; cbn [nzt terms normal].
  - intros _ m Hm. destruct (k =? n0) eqn:E; [destruct Hm|]. destruct Hm as [<-|[]]. cbn. apply eqb_neq. exact E.
  - intros _ m [<-|[]]. cbn. apply one_neq_zero.
  - intros (_ & H & _) t [<-|[]]. apply eqb_neq. exact H.
  - intros (_ & H & _) t Ht. apply eqb_neq, H, Ht.
Qed.
Lemma nzt_coefficient m s : coefficient_in m (nzt s) = coefficient_in m (terms s).
Proof.
  destruct s as [k|v|t|p]; try reflexivity. cbn [nzt]. destruct (k =? n0) eqn:E; [|reflexivity]. apply ex_eqb in E. subst k.
  cbn [terms coefficient_in]. match goal with |- context [powers_eqb ?a ?b] => destruct (powers_eqb a b) end; cbn [m_coeff]; [ring | reflexivity].
Qed.
Lemma nzt_diff s : different_powers s -> diff_l (nzt s).
Proof.
  destruct s as [k|v|t|p]; intro H; try exact H. cbn [nzt]. destruct (k =? n0); [|exact H]. intros l1 m1 l2 m2 l3 E. destruct l1; discriminate.
Qed.
Lemma nzt_nil s : valid s -> nzt s = [] -> s = SK n0.
Proof.
  destruct s as [k|v|t|p]; cbn [nzt terms]; intros V E; try discriminate.
  - destruct (k =? n0) eqn:Ek; [|discriminate]. apply ex_eqb in Ek. subst k. reflexivity.
  - subst p. destruct V as [V _]. congruence.
Qed.

Lemma functions_determined s t : valid s -> valid t -> (same_function s t <-> forall m, valid_mono m -> coefficient m s = coefficient m t).
Proof.
  intros Vs Vt. unfold same_function, coefficient. rewrite <- coefficients_determine by (apply valid_terms; assumption).
  split; intros H r; specialize (H r); rewrite ?eval_terms in *; exact H.
Qed.

Lemma normal_determined s t : valid s -> valid t -> normal s -> normal t -> different_powers s -> different_powers t ->
  same_function s t -> same_multiples (terms s) (terms t).
Proof.
  intros Vs Vt Ns Nt Ds Dt H. pose proof (proj1 (functions_determined s t Vs Vt) H) as HC.
  assert (G : same_multiples (nzt s) (nzt t)).
  { apply lists_determined.
    - apply Forall_forall. intros m Hm. pose proof (valid_terms s Vs) as V. rewrite Forall_forall in V. apply V, nzt_incl, Hm.
    - apply Forall_forall. intros m Hm. pose proof (valid_terms t Vt) as V. rewrite Forall_forall in V. apply V, nzt_incl, Hm.
    - apply nzt_diff; exact Ds.
    - apply nzt_diff; exact Dt.
    - apply nzt_nonzero; exact Ns.
    - apply nzt_nonzero; exact Nt.
    - intros m Vm. rewrite !nzt_coefficient. apply HC, Vm. }
  destruct (nzt s) as [|m l] eqn:E.
  - destruct G as (l & HP & HF). inversion HF; subst. apply Permutation_nil in HP. apply nzt_nil in E; [|exact Vs]. apply nzt_nil in HP; [|exact Vt]. subst s t.
    exists (terms (SK n0)). split; [apply Permutation_refl|]. constructor; [split; [reflexivity | intro; reflexivity] | constructor].
  - assert (Es : nzt s = terms s) by (destruct s as [k|v|t0|p]; try reflexivity; cbn [nzt] in *; destruct (k =? n0); [discriminate | reflexivity]).
    assert (Et : nzt t = terms t).
    { destruct G as (l' & HP & HF). inversion HF as [|? y ? l0 ? ? E1]; subst. destruct t as [k|v|t0|p]; try reflexivity. cbn [nzt] in *. destruct (k =? n0); [|reflexivity].
      apply Permutation_length in HP. discriminate. }
    rewrite <- Es, <- Et, E. exact G.
Qed.

Lemma multiples_function s t : valid s -> valid t -> same_multiples (terms s) (terms t) -> same_function s t.
Proof.
  intros Vs Vt (l & HP & HF) r. rewrite <- !eval_terms. transitivity (eval_poly r l).
  - assert (Vl : Forall valid_mono l). { apply valid_terms in Vt. eapply Permutation_Forall; [apply Permutation_sym; exact HP | exact Vt]. }
    apply valid_terms in Vs. revert Vl Vs. clear - HF EX. induction HF as [|m m' p q [H1 H2] HF IH]; intros Vl Vs; [reflexivity|].
    inversion Vl; subst. inversion Vs; subst. cbn [eval_poly]. rewrite IH by assumption. f_equal. unfold eval_mono. rewrite H1. f_equal. apply factors_same_powers; assumption.
  - clear - HP EX. induction HP as [|m p q HP IH|m1 m2 p|p q q' H1 IH1 H2 IH2]; cbn; [reflexivity | rewrite IH; reflexivity | ring | congruence].
Qed.

(** ** Simplified expressions *)
Lemma simplified_different a s : valid a -> uniquely_listed (fun m => In m (terms a)) -> scalar_simplified a = Ok s -> valid s /\ normal s /\ different_powers s.
Proof.
  intros V HU E. rewrite scalar_simplified_ok in E by exact V. injection E as <-. pose proof (ssimplified_valid a V) as V'. pose proof (ssimplified_normal a V) as N'.
  split; [exact V'|]. split; [exact N'|]. destruct (lred_simplified a V) as (_ & HF & _).
  apply (collected_different (terms a)); [apply valid_terms; exact V | exact V' | apply normal_collected; exact N' | exact HF | exact HU].
Qed.

Lemma simplify_canonical a b : valid a -> valid b ->
  unambiguous (fun m => In m (terms a)) -> unambiguous (fun m => In m (terms b)) ->
  uniquely_listed (fun m => In m (terms a)) -> uniquely_listed (fun m => In m (terms b)) ->
  exists s t, scalar_simplified a = Ok s /\ scalar_simplified b = Ok t /\ (same_function a b <-> same_multiples (terms s) (terms t)).
Proof.
  intros Va Vb Ua Ub La Lb. destruct (simplify_value a EX Va Ua) as (s & Es & Hs). destruct (simplify_value b EX Vb Ub) as (t & Et & Ht).
  exists s, t. split; [exact Es|]. split; [exact Et|].
  destruct (simplified_different a s Va La Es) as (Vs & Ns & Ds). destruct (simplified_different b t Vb Lb Et) as (Vt & Nt & Dt). split.
  - intro H. apply normal_determined; try assumption. intro r. rewrite Hs, Ht. apply H.
  - intros H r. rewrite <- Hs, <- Ht. revert r. apply multiples_function; assumption.
Qed.

Lemma listed_sub (P Q : Monomial -> Prop) : (forall m, Q m -> P m) -> uniquely_listed P -> uniquely_listed Q.
Proof. intros H HU m1 m2 H1 H2. apply HU; auto. Qed.

Lemma difference_zero a b : valid a -> valid b -> unambiguous (in_either a b) -> uniquely_listed (in_either a b) ->
  exists s, scalar_minus a b = Ok s /\ (same_function a b <-> s = SK n0).
Proof.
  intros Va Vb HU HL. destruct (scalar_minus_sum a b Va Vb) as (s & E & V & HF & HN & X). exists s. split; [exact E|].
  assert (HV : forall r, eval r s = eval r a - eval r b). { destruct (minus_value_u a b EX Va Vb HU) as (s' & E' & HV'). rewrite E in E'. injection E' as <-. exact HV'. }
  pose proof (scalar_minus_normal a b s Va Vb E) as Ns. split.
  - intro H. assert (Ds : different_powers s).
    { apply (collected_different (terms a ++ terms b)); [apply Forall_app; split; apply valid_terms; assumption | exact V | apply normal_collected; exact Ns | exact HF |].
      eapply listed_sub; [|exact HL]. intros m Hm. apply in_app_iff in Hm. exact Hm. }
    assert (G : same_multiples (terms s) (terms (SK n0))).
    { apply normal_determined; try assumption; try exact I.
      - intros l1 m1 l2 m2 l3 E3. cbn in E3. destruct l1 as [|x [|y l1]]; cbn in E3; try discriminate. injection E3 as _ E3. destruct l2; discriminate.
      - intro r. rewrite HV, (H r). cbn. ring. }
    destruct G as (l & HP & HF2). apply Permutation_sym, Permutation_length_1_inv in HP. subst l. inversion HF2 as [|m m' p q [H1 H2] H3 E1 E2]; subst. inversion H3; subst. symmetry in E1. cbn in H1.
    destruct s as [k|v|t0|p]; cbn [terms] in E1; cbn in Ns.
    + injection E1 as <-. cbn in H1. subst k. reflexivity.
    + injection E1 as <-. exfalso. apply one_neq_zero. exact H1.
    + injection E1 as ->. exfalso. destruct Ns as (_ & C & _). apply eqb_neq in C. contradiction.
    + subst p. exfalso. destruct Ns as (C & _). cbn in C. lia.
  - intros -> r. apply sub_eq_iff. rewrite <- HV. reflexivity.
Qed.

(** ** Constant functions *)
Lemma constant_normal s : valid s -> normal s -> different_powers s -> (constant_function s <-> exists k, s = SK k).
Proof.
  intros V N0 D. split; [|intros (k & ->) r r'; reflexivity]. intro H.
  assert (G : same_multiples (terms s) (terms (SK (eval (fun _ => n0) s)))).
  { apply normal_determined; try assumption; try exact I.
    - intros l1 m1 l2 m2 l3 E3. cbn in E3. destruct l1 as [|x [|y l1]]; cbn in E3; try discriminate. injection E3 as _ E3. destruct l2; discriminate.
    - intro r. cbn. apply H. }
  destruct G as (l & HP & HF2). apply Permutation_sym, Permutation_length_1_inv in HP. subst l. inversion HF2 as [|m m' p q [H1 H2] H3 E1 E2]; subst. inversion H3; subst. symmetry in E1.
  assert (HI : forall i, exponent m i = 0%Z) by (intro i; rewrite (H2 i); reflexivity).
  destruct s as [k|v|t0|p]; cbn [terms] in E1; cbn in N0, V.
  - exists k. reflexivity.
  - injection E1 as <-. specialize (HI (v_id v)). cbn in HI. rewrite N.eqb_refl in HI. discriminate.
  - injection E1 as ->. apply is_const_exponent in HI; [|exact V]. unfold is_const in HI. destruct N0 as (C & _). destruct (m_vars m); [congruence | discriminate].
  - subst p. destruct N0 as (C & _). cbn in C. lia.
Qed.
Lemma constant_simplified a : valid a -> unambiguous (fun m => In m (terms a)) -> uniquely_listed (fun m => In m (terms a)) ->
  exists s, scalar_simplified a = Ok s /\ (constant_function a <-> exists k, s = SK k).
Proof.
  intros Va Ua La. destruct (simplify_value a EX Va Ua) as (s & Es & Hs). exists s. split; [exact Es|].
  destruct (simplified_different a s Va La Es) as (Vs & Ns & Ds). rewrite <- (constant_normal s Vs Ns Ds). unfold constant_function.
  split; intros H r r'; specialize (H r r'); rewrite ?Hs in *; exact H.
Qed.

Lemma difference_degree2 a b : valid a -> valid b -> degree_at_most 2 a -> degree_at_most 2 b -> exists s, scalar_minus a b = Ok s /\ (same_function a b <-> s = SK n0).
Proof. intros Va Vb Da Db. apply difference_zero; try assumption; [apply either_degree2 | apply degree2_listed]; assumption. Qed.
Lemma difference_one_variable x a b : valid a -> valid b -> only_variable x a -> only_variable x b -> exists s, scalar_minus a b = Ok s /\ (same_function a b <-> s = SK n0).
Proof. intros Va Vb Da Db. apply difference_zero; try assumption; [apply (either_one_variable x) | apply (one_variable_listed x)]; assumption. Qed.
Lemma difference_sorted a b : valid a -> valid b -> sorted_terms a -> sorted_terms b -> exists s, scalar_minus a b = Ok s /\ (same_function a b <-> s = SK n0).
Proof. intros Va Vb Da Db. apply difference_zero; try assumption; [apply sorted_either_unambiguous | apply sorted_either_listed]; assumption. Qed.
Lemma self_either (P : (Monomial -> Prop) -> Prop) a : (forall Q R : Monomial -> Prop, (forall m, R m -> Q m) -> P Q -> P R) -> P (in_either a a) -> P (fun m => In m (terms a)).
Proof. intros H. apply H. intros m Hm. left. exact Hm. Qed.
Lemma canonical_degree2 a b : valid a -> valid b -> degree_at_most 2 a -> degree_at_most 2 b ->
  exists s t, scalar_simplified a = Ok s /\ scalar_simplified b = Ok t /\ (same_function a b <-> same_multiples (terms s) (terms t)).
Proof.
  intros Va Vb Da Db. apply simplify_canonical; try assumption; try (apply self_degree2; assumption);
    (apply (self_either uniquely_listed); [intros Q R; apply listed_sub | apply degree2_listed; assumption]).
Qed.
Lemma canonical_one_variable x a b : valid a -> valid b -> only_variable x a -> only_variable x b ->
  exists s t, scalar_simplified a = Ok s /\ scalar_simplified b = Ok t /\ (same_function a b <-> same_multiples (terms s) (terms t)).
Proof.
  intros Va Vb Da Db. apply simplify_canonical; try assumption; try (apply (self_one_variable x); assumption);
    (apply (self_either uniquely_listed); [intros Q R; apply listed_sub | apply (one_variable_listed x); assumption]).
Qed.
Lemma constant_degree2 a : valid a -> degree_at_most 2 a -> exists s, scalar_simplified a = Ok s /\ (constant_function a <-> exists k, s = SK k).
Proof.
  intros Va Da. apply constant_simplified; [exact Va | apply self_degree2; assumption|].
  apply (self_either uniquely_listed); [intros Q R; apply listed_sub | apply degree2_listed; assumption].
Qed.

End Canon.
