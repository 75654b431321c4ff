(** * Simplified expressions are in normal form *)

From Coq Require Import ZArith NArith Bool List Lia.
From Coq.Floats Require SpecFloat.
From Verif Require Import Num Syntax ModelScalar Spec Base ScalarValid Eval ScalarOps ScalarMore.
Import ListNotations.
Local Open Scope num_scope.

Section Norm.
Context {NN : Num}.
Ltac cb := cbn [bind check].

Definition apart (l : list Monomial) : Prop := ForallOrdPairs (fun a b => matchb a b = false) l.

Lemma apart_app l1 l2 : apart (l1 ++ l2) <-> apart l1 /\ apart l2 /\ forall a b, In a l1 -> In b l2 -> matchb a b = false.
Proof.
  unfold apart. induction l1 as [|x l1 IH]; cbn.
  - split; [intro H; split; [constructor|]; split; [exact H | intros a b []] | intros (_ & H & _); exact H].
  - split.
    + intro H. inversion H as [|? ? H1 H2]; subst. apply IH in H2. destruct H2 as (A1 & A2 & A3). apply Forall_app in H1. destruct H1 as [B1 B2].
      split; [constructor; assumption|]. split; [exact A2|]. rewrite Forall_forall in B2. intros a b [<-|Ha] Hb; auto.
    + intros (H1 & H2 & H3). inversion H1 as [|? ? A1 A2]; subst. constructor.
      * apply Forall_app. split; [exact A1|]. apply Forall_forall. intros b Hb. apply H3; [left; reflexivity | exact Hb].
      * apply IH. split; [exact A2|]. split; [exact H2|]. intros a b Ha Hb. apply H3; [right; exact Ha | exact Hb].
Qed.

Lemma add_pure_apart acc m : apart acc -> apart (add_pure acc m).
Proof.
  unfold apart. induction acc as [|e acc IH]; intro H; cbn.
  - constructor; constructor.
  - inversion H as [|? ? H1 H2]; subst. destruct (matchb e m) eqn:E.
    + constructor; [exact H1 | exact H2].
    + constructor; [|apply IH; exact H2]. apply add_pure_Forall; [|exact H1|exact E]. intros x c Hx. exact Hx.
Qed.

Lemma simp_pure_apart p c acc : apart acc -> apart (snd (simp_pure p c acc)).
Proof.
  revert c acc. induction p as [|m p IH]; intros c acc H; cbn; [exact H|]. destruct (is_const m); apply IH; [exact H|].
  apply add_pure_apart. exact H.
Qed.

Lemma apart_filter f l : apart l -> apart (filter f l).
Proof.
  unfold apart. induction l as [|m l IH]; intro H; cbn; [constructor|]. inversion H as [|? ? H1 H2]; subst.
  destruct (f m); [|apply IH; exact H2]. constructor; [|apply IH; exact H2]. apply Forall_forall. intros b Hb.
  apply filter_In in Hb. rewrite Forall_forall in H1. apply H1, Hb.
Qed.

Lemma matchb_const a b : is_const a = true -> is_const b = false -> matchb a b = false.
Proof. unfold is_const, matchb. destruct (m_vars a); [|discriminate]. destruct (m_vars b); [discriminate|]. reflexivity. Qed.

Lemma psimp_apart p : apart (psimp p).
Proof.
  unfold psimp. destruct (simp_pure p n0 []) as [c nc] eqn:E.
  assert (Hnc : Forall (fun m => is_const m = false) nc).
  { change nc with (snd (c, nc)). rewrite <- E. apply simp_pure_Forall.
    - intros m x H; exact H.
    - apply Forall_forall. intros m _ H; exact H.
    - constructor. }
  assert (HA : apart nc).
  { change nc with (snd (c, nc)). rewrite <- E. apply simp_pure_apart. constructor. }
  destruct (c =? n0); cbn [app].
  - destruct (filter nonzero nc) as [|m l] eqn:Ef; [constructor; constructor|]. rewrite <- Ef. apply apart_filter. exact HA.
  - constructor; [|apply apart_filter; exact HA]. apply Forall_forall. intros b Hb. apply filter_In in Hb. rewrite Forall_forall in Hnc.
    apply matchb_const; [reflexivity | apply Hnc, Hb].
Qed.

Lemma apart_collected l : Forall valid_mono l -> apart l ->
  forall l1 m1 l2 m2 l3, l = l1 ++ m1 :: l2 ++ m2 :: l3 -> ~ look_alike m1 m2.
Proof.
  intros HV HA l1 m1 l2 m2 l3 -> HL. rewrite Forall_forall in HV. apply matchb_look_alike in HL.
  - apply apart_app in HA. destruct HA as (_ & HA & _). inversion HA as [|? ? H1 _]; subst. rewrite Forall_forall in H1.
    rewrite (H1 m2) in HL; [discriminate|]. apply in_app_iff. right. left. reflexivity.
  - apply HV. apply in_app_iff. right. left. reflexivity.
  - apply HV. apply in_app_iff. right. right. apply in_app_iff. right. left. reflexivity.
Qed.

Lemma collected_apart l : Forall valid_mono l ->
  (forall l1 m1 l2 m2 l3, l = l1 ++ m1 :: l2 ++ m2 :: l3 -> ~ look_alike m1 m2) -> apart l.
Proof.
  unfold apart. induction l as [|m l IH]; intros HV HC; [constructor|]. inversion HV as [|? ? V1 V2]; subst. constructor.
  - apply Forall_forall. intros b Hb. destruct (matchb m b) eqn:E; [|reflexivity]. exfalso.
    apply in_split in Hb. destruct Hb as (l2 & l3 & ->). apply (HC [] m l2 b l3 eq_refl). apply matchb_look_alike; [exact V1| |exact E].
    rewrite Forall_forall in V2. apply V2. apply in_app_iff. right. left. reflexivity.
  - apply IH; [exact V2|]. intros l1 m1 l2 m2 l3 ->. exact (HC (m :: l1) m1 l2 m2 l3 eq_refl).
Qed.

Lemma collected_single m : forall l1 m1 l2 m2 l3, [m] = l1 ++ m1 :: l2 ++ m2 :: l3 -> ~ look_alike m1 m2.
Proof.
  intros l1 m1 l2 m2 l3 E. exfalso. apply (f_equal (@length Monomial)) in E. rewrite app_length in E. cbn in E.
  rewrite app_length in E. cbn in E. lia.
Qed.

Lemma collected_not_poly s : match s with SP _ => False | _ => True end -> collected s.
Proof. destruct s; intro H; try (intros l1 m1 l2 m2 l3 E; exact (collected_single _ l1 m1 l2 m2 l3 E)). destruct H. Qed.

Lemma psimplified_normal p : Forall valid_mono p -> normal (psimplified p).
Proof.
  intro HV. unfold psimplified. pose proof (psimp_shape p) as HS. pose proof (psimp_apart p) as HA.
  pose proof (psimp_valid p HV) as [HN HV']. destruct (psimp p) as [|m [|m2 l]] eqn:E; [congruence| |].
  - destruct (is_const m) eqn:Ec; [exact I|].
    assert (Hm : normal (SM m) \/ is_plain_var m = true).
    { destruct (is_plain_var m) eqn:Epv; [right; reflexivity|left]. cbn. split; [|split].
      - unfold is_const in Ec. destruct (m_vars m); congruence.
      - destruct HS as (k & nc & Hnc & Hk & Hp). destruct Hk as [[-> _]|(c & -> & _)].
        + cbn in Hp. subst nc. inversion Hnc as [|? ? [_ H] _]; subst. unfold nonzero in H. destruct (m_coeff m =? n0); [discriminate | reflexivity].
        + injection Hp as -> _. discriminate Ec.
      - intros [H1 H2]. inversion HV' as [|? ? (V1 & _) _]; subst. unfold is_plain_var in Epv. rewrite H1, H2, <- V1, H2 in Epv. discriminate. }
    destruct (is_plain_var m); [|destruct Hm as [Hm|Hm]; [exact Hm | discriminate]].
    unfold is_const in Ec. destruct (m_vars m); [discriminate | exact I].
  - destruct HS as (k & nc & Hnc & Hk & Hp). split; [cbn; lia|]. split; [|split].
    + intros x Hx. rewrite Hp in Hx. apply in_app_iff in Hx. destruct Hx as [Hx|Hx].
      * destruct Hk as [[-> _]|(c & -> & [Hc|[-> ->]])]; [destruct Hx| |].
        -- destruct Hx as [<-|[]]. exact Hc.
        -- cbn in Hp. discriminate.
      * rewrite Forall_forall in Hnc. destruct (Hnc x Hx) as [_ H]. unfold nonzero in H. destruct (m_coeff x =? n0); [discriminate | reflexivity].
    + intros l1 x l2 E2 Hx. rewrite Hp in E2. destruct l1 as [|y l1]; [reflexivity|]. exfalso.
      assert (Hin : In x nc).
      { destruct Hk as [[-> _]|(c & -> & _)].
        - cbn in E2. rewrite E2. right. apply in_app_iff. right. left. reflexivity.
        - cbn in E2. injection E2 as _ E2. rewrite E2. apply in_app_iff. right. left. reflexivity. }
      rewrite Forall_forall in Hnc. destruct (Hnc x Hin) as [H _]. unfold is_const in H. rewrite Hx in H. discriminate.
    + intros l1 m1 l2 x l3 E2. cbn [terms] in E2. exact (apart_collected _ HV' HA l1 m1 l2 x l3 E2).
Qed.

Lemma msimplified_normal m : valid_mono m -> normal (msimplified m).
Proof.
  intro V. unfold msimplified. destruct (m_vars m) as [|v vs] eqn:Ev; [exact I|]. destruct (m_coeff m =? n0) eqn:E0; [exact I|].
  destruct (is_plain_var m) eqn:Ep; [exact I|]. cbn. rewrite Ev. split; [discriminate|]. split; [exact E0|]. intros [H1 H2].
  destruct V as (V1 & _). unfold is_plain_var in Ep. rewrite H1, H2, <- V1, H2 in Ep. discriminate.
Qed.

Lemma ssimplified_normal s : valid s -> normal (ssimplified s).
Proof.
  intro V. destruct s as [k|v|m|p]; cbn [ssimplified]; try exact I; [apply msimplified_normal; exact V|].
  apply psimplified_normal, V.
Qed.

Lemma normal_collected s : normal s -> collected s.
Proof. destruct s as [k|v|m|p]; intro H; try (apply collected_not_poly; exact I). apply H. Qed.

(** ** Idempotence.  Needs 0 + c = c for nonzero c, which exact numbers and binary64 satisfy. *)
Lemma add_pure_append acc m : (forall e, In e acc -> matchb e m = false) -> add_pure acc m = acc ++ [m].
Proof.
  induction acc as [|e acc IH]; intro H; cbn; [reflexivity|]. rewrite (H e) by (left; reflexivity). f_equal. apply IH.
  intros x Hx. apply H. right. exact Hx.
Qed.

Lemma simp_pure_id nc c acc : Forall (fun m => is_const m = false) nc -> apart (acc ++ nc) ->
  simp_pure nc c acc = (c, acc ++ nc).
Proof.
  revert acc. induction nc as [|m nc IH]; intros acc Hn HA; cbn; [rewrite app_nil_r; reflexivity|].
  inversion Hn as [|? ? H1 H2]; subst. rewrite H1. rewrite add_pure_append.
  - rewrite IH; [rewrite <- app_assoc; reflexivity | exact H2|]. rewrite <- app_assoc. exact HA.
  - intros e He. apply apart_app in HA. destruct HA as (_ & _ & HA). apply HA; [exact He | left; reflexivity].
Qed.

Lemma filter_all {A} (f : A -> bool) l : (forall a, In a l -> f a = true) -> filter f l = l.
Proof.
  induction l as [|a l IH]; intro H; cbn; [reflexivity|]. rewrite (H a) by (left; reflexivity). f_equal. apply IH.
  intros x Hx. apply H. right. exact Hx.
Qed.

Lemma const_mono m : valid_mono m -> is_const m = true -> m = k_to_mono (m_coeff m).
Proof.
  intros (V1 & _) H. unfold is_const in H. destruct m as [c es vs]. cbn in *. destruct vs; [|discriminate].
  destruct es; [reflexivity | discriminate].
Qed.

Definition zero_laws : Prop := (n0 =? n0) = true /\ forall c : num, (c =? n0) = false -> n0 + c = c.

Lemma psimp_id p : zero_laws -> valid_poly p -> normal (SP p) -> psimp p = p.
Proof.
  intros [HZ0 HZ] [V0 V] (N1 & N2 & N3 & N4). assert (HA : apart p) by (apply collected_apart; [exact V | exact N4]).
  destruct p as [|m p]; [congruence|]. unfold psimp.
  assert (Hp : Forall (fun x => is_const x = false) p).
  { apply Forall_forall. intros x Hx. destruct (is_const x) eqn:E; [|reflexivity]. exfalso. apply in_split in Hx.
    destruct Hx as (l1 & l2 & ->). specialize (N3 (m :: l1) x l2 eq_refl). unfold is_const in E. destruct (m_vars x); [|discriminate].
    discriminate (N3 eq_refl). }
  assert (Hnz : forall x, In x (m :: p) -> nonzero x = true) by (intros x Hx; unfold nonzero; rewrite N2 by exact Hx; reflexivity).
  inversion HA as [|? ? A1 A2]; subst. cbn [simp_pure]. destruct (is_const m) eqn:Ec.
  - assert (Hc : (m_coeff m =? n0) = false) by (apply N2; left; reflexivity). rewrite HZ by exact Hc.
    rewrite (simp_pure_id p (m_coeff m) []) by assumption. cbn [app]. rewrite Hc. cbn [app].
    rewrite filter_all by (intros x Hx; apply Hnz; right; exact Hx). f_equal. symmetry. apply const_mono; [|exact Ec]. inversion V; assumption.
  - rewrite (simp_pure_id p n0 (add_pure [] m)) by assumption. cbn [add_pure app].
    rewrite filter_all by exact Hnz. rewrite HZ0. reflexivity.
Qed.

Lemma ssimplified_id s : zero_laws -> valid s -> normal s -> ssimplified s = s.
Proof.
  intros HZ V Hn. destruct s as [k|v|m|p]; cbn [ssimplified]; try reflexivity.
  - destruct Hn as (H1 & H2 & H3). unfold msimplified. destruct (m_vars m) as [|v vs] eqn:Ev; [congruence|]. rewrite H2.
    destruct (is_plain_var m) eqn:Ep; [|reflexivity]. exfalso. apply H3. unfold is_plain_var in Ep. apply andb_true_iff in Ep.
    destruct Ep as [Ep E3]. apply andb_true_iff in Ep. destruct Ep as [E1 E2]. split; [exact E1|]. apply Nat.eqb_eq in E2.
    destruct V as (V1 & _). rewrite E2 in V1. destruct (m_exps m) as [|e [|e' es]]; try discriminate. apply Z.eqb_eq in E3. subst e. reflexivity.
  - unfold psimplified. rewrite psimp_id by assumption. destruct Hn as (H1 & _). destruct p as [|m [|m2 l]]; cbn in H1; try lia. reflexivity.
Qed.

Lemma simplified_normal s : valid s -> exists s', scalar_simplified s = Ok s' /\ valid s' /\ normal s'.
Proof.
  intro V. exists (ssimplified s). split; [apply scalar_simplified_ok; exact V|].
  split; [apply ssimplified_valid; exact V | apply ssimplified_normal; exact V].
Qed.

Lemma simplified_idempotent s s' : zero_laws -> valid s -> scalar_simplified s = Ok s' -> scalar_simplified s' = Ok s'.
Proof.
  intros HZ V E. rewrite scalar_simplified_ok in E by exact V. injection E as <-.
  rewrite scalar_simplified_ok by (apply ssimplified_valid; exact V). f_equal.
  apply ssimplified_id; [exact HZ | apply ssimplified_valid; exact V | apply ssimplified_normal; exact V].
Qed.

Lemma simplified_value s : ExactNum NN -> valid s -> coherent (terms s) ->
  exists s', scalar_simplified s = Ok s' /\ forall r, eval r s' = eval r s.
Proof.
  intros EX V HC. exists (ssimplified s). split; [apply scalar_simplified_ok; exact V|]. intro r.
  destruct (lred_simplified s V) as (_ & _ & H). rewrite <- eval_terms, H, eval_terms by assumption. reflexivity.
Qed.

(** results of Plus, Minus are normal; results of Multiply are collected *)
Lemma scalar_plus_normal a b s : valid a -> valid b -> scalar_plus a b = Ok s -> normal s.
Proof.
  intros Va Vb E. destruct (scalar_plus_sum a b Va Vb) as (s' & E' & _ & _ & (s0 & V0 & H0) & _). rewrite E in E'.
  injection E' as <-. rewrite H0. apply ssimplified_normal. exact V0.
Qed.
Lemma scalar_minus_normal a b s : valid a -> valid b -> scalar_minus a b = Ok s -> normal s.
Proof.
  intros Va Vb E. destruct (scalar_minus_sum a b Va Vb) as (s' & E' & _ & _ & (s0 & V0 & H0) & _). rewrite E in E'.
  injection E' as <-. rewrite H0. apply ssimplified_normal. exact V0.
Qed.

End Norm.

Lemma zero_laws_exact {NN : Num} : ExactNum NN -> @zero_laws NN.
Proof. intro EX. split; [apply eqb_refl_num | intros c _; apply ring_a0_l]. Qed.

Lemma zero_laws_F64 : @zero_laws F64Num.
Proof. split; [reflexivity|]. intros [b|b| |b m e] H; cbn in *; try discriminate; reflexivity. Qed.
