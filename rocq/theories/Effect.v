(** * Exact effect of Simplify, Plus, Minus and of products with one term, on all expressions *)

From Coq Require Import ZArith NArith Bool List Lia Field Permutation.
From Verif Require Import Num Syntax ModelScalar Spec SpecConv SpecEffect Base ScalarValid Eval ScalarOps ScalarNorm Canon.
Import ListNotations.

Section Effect.
Context {NN : Num}.
Local Open Scope num_scope.
Ltac cb := cbn [bind check].

Lemma alike_look m1 m2 : valid_mono m1 -> valid_mono m2 -> (alike m1 m2 = true <-> look_alike m1 m2).
Proof.
  intros (L1 & _ & N1 & _) (L2 & _ & N2 & _). unfold alike, look_alike. rewrite !andb_true_iff, Nat.eqb_eq, forallb_forall.
  destruct (list_eq_dec Z.eq_dec (m_exps m1) (m_exps m2)) as [E|E].
  - split.
    + intros [[_ H1] H2]. split; [exact E|]. split; [exact H1|].
      assert (HI : incl (ids m1) (ids m2)).
      { intros i Hi. specialize (H2 i Hi). apply existsb_exists in H2. destruct H2 as (j & Hj & Eij). apply N.eqb_eq in Eij. subst. exact Hj. }
      intro i. split; [apply HI|]. apply NoDup_length_incl; [exact N1 | unfold ids; rewrite !map_length; lia | exact HI].
    + intros (_ & H1 & H2). split; [split; [reflexivity | exact H1]|]. intros i Hi. apply existsb_exists. exists i. split; [apply H2; exact Hi | apply N.eqb_refl].
  - split; [intros [[H _] _]; discriminate | intros [H _]; contradiction].
Qed.

Lemma alike_matchb m1 m2 : valid_mono m1 -> valid_mono m2 -> alike m1 m2 = matchb m1 m2.
Proof.
  intros V1 V2. apply eq_true_iff_eq. rewrite alike_look by assumption. rewrite matchb_look_alike by assumption. reflexivity.
Qed.

Lemma look_refl m : look_alike m m.
Proof. unfold look_alike. repeat split; tauto. Qed.
Lemma look_sym a b : look_alike a b -> look_alike b a.
Proof. intros (H1 & H2 & H3). unfold look_alike. repeat split; try congruence; apply H3. Qed.
Lemma look_trans a b c : look_alike a b -> look_alike b c -> look_alike a c.
Proof.
  intros (H1 & H2 & H3) (H4 & H5 & H6). unfold look_alike. split; [congruence|]. split; [congruence|]. intro i. rewrite H3. apply H6.
Qed.

(** the leader is a term of the list that looks like [m], or [m] itself *)
Lemma leader_spec l m : Forall valid_mono l -> valid_mono m ->
  (exists l1 e l2, l = l1 ++ e :: l2 /\ leader l m = e /\ look_alike e m /\ forall d, In d l1 -> ~ look_alike d m)
  \/ (leader l m = m /\ forall d, In d l -> ~ look_alike d m).
Proof.
  intros Vl Vm. induction l as [|e l IH]; cbn [leader]; [right; split; [reflexivity | intros d []]|].
  inversion Vl as [|? ? Ve Vl']; subst. destruct (alike e m) eqn:E.
  - left. exists [], e, l. split; [reflexivity|]. split; [reflexivity|]. split; [apply alike_look; assumption | intros d []].
  - assert (NE : ~ look_alike e m) by (intro H; apply alike_look in H; congruence).
    destruct (IH Vl') as [(l1 & d & l2 & -> & H1 & H2 & H3)|[H1 H2]].
    + left. exists (e :: l1), d, l2. split; [reflexivity|]. split; [exact H1|]. split; [exact H2|]. intros x [<-|Hx]; auto.
    + right. split; [exact H1|]. intros x [<-|Hx]; auto.
Qed.

Lemma leader_valid l m : Forall valid_mono l -> valid_mono m -> valid_mono (leader l m).
Proof.
  intros Vl Vm. destruct (leader_spec l m Vl Vm) as [(l1 & e & l2 & -> & -> & _)|[-> _]]; [|exact Vm].
  rewrite Forall_forall in Vl. apply Vl. apply in_elt.
Qed.
Lemma leader_look l m : Forall valid_mono l -> valid_mono m -> look_alike (leader l m) m.
Proof.
  intros Vl Vm. destruct (leader_spec l m Vl Vm) as [(l1 & e & l2 & -> & -> & H & _)|[-> _]]; [exact H | apply look_refl].
Qed.

Lemma leader_app_found l l' m : (exists e, In e l /\ alike e m = true) -> leader (l ++ l') m = leader l m.
Proof.
  intros (e & He & A). induction l as [|d l IH]; [contradiction|]. cbn [app leader]. destruct (alike d m) eqn:E; [reflexivity|].
  apply IH. destruct He as [<-|He]; [congruence | exact He].
Qed.
Lemma leader_app_none l l' m : (forall e, In e l -> alike e m = false) -> leader (l ++ l') m = leader l' m.
Proof.
  intro H. induction l as [|d l IH]; [reflexivity|]. cbn [app leader]. rewrite (H d (or_introl eq_refl)). apply IH. intros e He. apply H. right. exact He.
Qed.
Lemma leader_split l m : (exists e, In e l /\ alike e m = true) \/ (forall e, In e l -> alike e m = false).
Proof.
  induction l as [|d l IH]; [right; intros e []|]. destruct (alike d m) eqn:E; [left; exists d; split; [left; reflexivity | exact E]|].
  destruct IH as [(e & He & A)|H]; [left; exists e; split; [right; exact He | exact A] | right; intros e [<-|He]; auto].
Qed.
Lemma alike_refl m : valid_mono m -> alike m m = true.
Proof. intro V. apply alike_look; [exact V | exact V | apply look_refl]. Qed.

(** the factors of the leader *)
Definition lfac (r : assignment) (L : list Monomial) (m : Monomial) : num :=
  eval_factors r (m_vars (leader L m)) (m_exps (leader L m)).
Definition reg (r : assignment) (L : list Monomial) (p : list Monomial) : num :=
  fold_right (fun m s => m_coeff m * lfac r L m + s) n0 p.

Lemma regroup_reg r L : eval_poly r (regroup L) = reg r L L.
Proof.
  unfold regroup. assert (G : forall K l, eval_poly r (map (fun m => mkMono (m_coeff m) (m_exps (leader K m)) (m_vars (leader K m))) l) = reg r K l).
  { intros K l. induction l as [|m l IH]; [reflexivity|]. cbn [map eval_poly]. rewrite IH. reflexivity. }
  apply G.
Qed.

Lemma alike_form a b m : same_form a b -> alike a m = alike b m.
Proof. intros [H1 H2]. unfold alike, ids. rewrite H1, H2. reflexivity. Qed.

(** the factors depend only on the forms *)
Lemma lfac_forms r L L' m : Forall2 same_form L L' -> lfac r L m = lfac r L' m.
Proof.
  unfold lfac. induction 1 as [|a b L L' [H1 H2] _ IH]; cbn [leader]; [reflexivity|]. rewrite (alike_form a b m (conj H1 H2)).
  destruct (alike b m); [rewrite H1, H2; reflexivity | exact IH].
Qed.
Lemma reg_ext r L L' p : (forall m, In m p -> lfac r L m = lfac r L' m) -> reg r L p = reg r L' p.
Proof.
  intro H. induction p as [|m p IH]; cbn [reg fold_right]; [reflexivity|]. rewrite (H m (or_introl eq_refl)).
  unfold reg in IH. rewrite IH; [reflexivity|]. intros x Hx. apply H. right. exact Hx.
Qed.

Context {EX : ExactNum NN}.
Add Ring numring_e : num_ring.

Lemma reg_app r L p q : reg r L (p ++ q) = reg r L p + reg r L q.
Proof.
  induction p as [|m p IH]; [change (reg r L q = n0 + reg r L q); ring|].
  change (m_coeff m * lfac r L m + reg r L (p ++ q) = m_coeff m * lfac r L m + reg r L p + reg r L q). rewrite IH. ring.
Qed.
Lemma reg_cons r L m p : reg r L (m :: p) = m_coeff m * lfac r L m + reg r L p.
Proof. reflexivity. Qed.

Lemma forms_refl L : Forall2 same_form L L.
Proof. induction L; constructor; [apply same_form_refl | assumption]. Qed.

(** ** The loop of Simplify *)

Lemma add_pure_found r acc m : (exists e, In e acc /\ matchb e m = true) -> valid_mono m -> Forall valid_mono acc ->
  Forall2 same_form (add_pure acc m) acc /\ eval_poly r (add_pure acc m) = eval_poly r acc + m_coeff m * lfac r acc m.
Proof.
  intros HE Vm. induction acc as [|d acc IH]; intro Va; [destruct HE as (e & [] & _)|]. inversion Va as [|? ? Vd Va']; subst.
  cbn [add_pure]. unfold lfac. cbn [leader]. rewrite (alike_matchb d m Vd Vm). destruct (matchb d m) eqn:E.
  - split; [constructor; [split; reflexivity | apply forms_refl]|]. cbn [eval_poly]. unfold eval_mono. cbn [m_coeff m_vars m_exps set_coeff]. ring.
  - destruct IH as [H1 H2]; [|exact Va'|].
    + destruct HE as (e & [<-|He] & Hm); [congruence | exists e; auto].
    + split; [constructor; [apply same_form_refl | exact H1]|]. cbn [eval_poly]. rewrite H2. unfold lfac. ring.
Qed.
Lemma add_pure_none acc m : (forall e, In e acc -> matchb e m = false) -> add_pure acc m = acc ++ [m].
Proof.
  induction acc as [|d acc IH]; intro H; [reflexivity|]. cbn [add_pure app]. rewrite (H d (or_introl eq_refl)). f_equal. apply IH. intros e He. apply H. right. exact He.
Qed.

Lemma const_alike a m : valid_mono a -> valid_mono m -> is_const a = true -> is_const m = false -> alike a m = false.
Proof.
  intros Va Vm Ha Hm. destruct (alike a m) eqn:E; [|reflexivity]. apply alike_look in E; try assumption. apply const_like in E. congruence.
Qed.
Lemma lfac_const r L m : Forall valid_mono L -> valid_mono m -> is_const m = true -> lfac r L m = n1.
Proof.
  intros VL Vm Hm. pose proof (leader_look L m VL Vm) as H. apply const_like in H. rewrite Hm in H. unfold lfac.
  unfold is_const in H. destruct (m_vars (leader L m)); [reflexivity | discriminate].
Qed.

(** the terms other than constants *)
Definition ncs (p : list Monomial) : list Monomial := filter (fun m => negb (is_const m)) p.
Definition csum (p : list Monomial) : num := fold_right (fun m s => (if is_const m then m_coeff m else n0) + s) n0 p.

Lemma simp_pure_reg r p c acc : Forall valid_mono p -> Forall valid_mono acc ->
  let '(c', acc') := simp_pure p c acc in
  c' + eval_poly r acc' = c + csum p + eval_poly r acc + reg r (acc ++ ncs p) (ncs p).
Proof.
  revert c acc. induction p as [|m p IH]; intros c acc Vp Va.
  - cbn. unfold reg. cbn. ring.
  - inversion Vp as [|? ? Vm Vp']; subst. cbn [simp_pure ncs filter csum fold_right]. destruct (is_const m) eqn:Ec; cbn [negb].
    + specialize (IH (c + m_coeff m) acc Vp' Va). destruct (simp_pure p (c + m_coeff m) acc) as [c' acc']. rewrite IH. unfold csum, ncs. ring.
    + assert (Va' : Forall valid_mono (add_pure acc m)) by (apply add_pure_Forall; [apply valid_form_pred | exact Va | exact Vm]).
      specialize (IH c (add_pure acc m) Vp' Va'). destruct (simp_pure p c (add_pure acc m)) as [c' acc']. rewrite IH. clear IH c' acc'.
      fold (ncs p). fold (csum p). rewrite reg_cons.
      assert (Vn : Forall valid_mono (ncs p)) by (apply Forall_forall; intros x Hx; apply filter_In in Hx; rewrite Forall_forall in Vp'; apply Vp', Hx).
      destruct (leader_split acc m) as [HF|HN].
      * assert (HF' : exists e, In e acc /\ matchb e m = true).
        { destruct HF as (e & He & A). exists e. split; [exact He|]. rewrite <- alike_matchb; [exact A | | exact Vm]. rewrite Forall_forall in Va. apply Va, He. }
        destruct (add_pure_found r acc m HF' Vm Va) as [H1 H2]. rewrite H2.
        assert (E1 : lfac r (acc ++ m :: ncs p) m = lfac r acc m) by (unfold lfac; rewrite leader_app_found by exact HF; reflexivity).
        rewrite E1.
        assert (E2 : reg r (add_pure acc m ++ ncs p) (ncs p) = reg r (acc ++ m :: ncs p) (ncs p)).
        { apply reg_ext. intros x Hx. rewrite (lfac_forms r _ (acc ++ ncs p) x) by (apply Forall2_app; [exact H1 | apply forms_refl]).
          unfold lfac. destruct (leader_split acc x) as [HX|HX]; [rewrite !leader_app_found by exact HX; reflexivity|].
          rewrite !leader_app_none by exact HX. cbn [leader]. destruct (alike m x) eqn:Emx; [|reflexivity]. exfalso.
          destruct HF as (e & He & A). assert (Ve : valid_mono e) by (rewrite Forall_forall in Va; apply Va, He).
          assert (Vx : valid_mono x) by (rewrite Forall_forall in Vn; apply Vn, Hx).
          apply alike_look in A; try assumption. apply alike_look in Emx; try assumption. pose proof (look_trans _ _ _ A Emx) as T.
          apply alike_look in T; try assumption. rewrite (HX e He) in T. discriminate. }
        rewrite E2. ring.
      * rewrite add_pure_none by (intros e He; rewrite <- alike_matchb; [apply HN, He | rewrite Forall_forall in Va; apply Va, He | exact Vm]).
        rewrite eval_poly_app. cbn [eval_poly]. rewrite <- app_assoc. cbn [app].
        assert (E1 : lfac r (acc ++ m :: ncs p) m = eval_factors r (m_vars m) (m_exps m)).
        { unfold lfac. rewrite leader_app_none by exact HN. cbn [leader]. rewrite alike_refl by exact Vm. reflexivity. }
        rewrite E1. unfold eval_mono. ring.
Qed.

Lemma reg_const r p : Forall valid_mono p -> reg r p p = csum p + reg r (ncs p) (ncs p).
Proof.
  intro V.
  assert (E : reg r p (ncs p) = reg r (ncs p) (ncs p)).
  { apply reg_ext. intros m Hm. apply filter_In in Hm. destruct Hm as [Hm Hc]. apply negb_true_iff in Hc.
    assert (Vm : valid_mono m) by (rewrite Forall_forall in V; apply V, Hm). unfold lfac. f_equal; f_equal; clear Hm.
    all: induction p as [|d p IH]; [reflexivity|]; inversion V as [|? ? Vd V']; subst; cbn [leader ncs filter]; destruct (is_const d) eqn:Ed; cbn [negb leader];
      [rewrite const_alike by assumption; apply IH, V' | destruct (alike d m); [reflexivity | apply IH, V']]. }
  rewrite <- E. clear E. assert (G : forall q, incl q p -> reg r p q = csum q + reg r p (ncs q)).
  { induction q as [|m q IH]; intro HI; [cbn; ring|]. rewrite reg_cons, IH by (intros x Hx; apply HI; right; exact Hx).
    cbn [csum fold_right ncs filter]. fold (csum q). destruct (is_const m) eqn:Ec; cbn [negb].
    - rewrite lfac_const; [unfold ncs; ring | exact V | rewrite Forall_forall in V; apply V, HI; left; reflexivity | exact Ec].
    - rewrite reg_cons. unfold ncs. ring. }
  apply G. apply incl_refl.
Qed.

Lemma psimp_reg r p : Forall valid_mono p -> eval_poly r (psimp p) = reg r p p.
Proof.
  intro V. unfold psimp. pose proof (simp_pure_reg r p n0 [] V (Forall_nil _)) as H. cbn [app] in H.
  destruct (simp_pure p n0 []) as [c nc]. rewrite reg_const by exact V.
  assert (E : eval_poly r ((if c =? n0 then [] else [k_to_mono c]) ++ filter nonzero nc) = c + eval_poly r nc).
  { rewrite eval_poly_app, filter_nonzero_value. destruct (c =? n0) eqn:E0; [apply eqb0 in E0; subst c; cbn [eval_poly]; ring|].
    rewrite eval_poly_single, eval_k. reflexivity. }
  rewrite H in E. cbn [eval_poly] in E.
  destruct ((if c =? n0 then [] else [k_to_mono c]) ++ filter nonzero nc) as [|a l] eqn:Eo.
  - rewrite eval_poly_single, eval_k. cbn [eval_poly] in E. transitivity (n0 + csum p + n0 + reg r (ncs p) (ncs p)); [exact E | ring].
  - rewrite E. ring.
Qed.

Lemma psimplified_psimp r p : Forall valid_mono p -> eval r (psimplified p) = eval_poly r (psimp p).
Proof.
  intro V. pose proof (psimp_valid p V) as [_ Hv]. unfold psimplified.
  destruct (psimp p) as [|m [|m2 l]] eqn:E; try reflexivity.
  inversion Hv as [|? ? Hm _]; subst. cbn [eval_poly].
  destruct (is_const m) eqn:Hk; [cbn; rewrite eval_const by exact Hk; ring|].
  destruct (is_plain_var m) eqn:Ep; [|cbn; ring].
  destruct (m_vars m) as [|v vs] eqn:Ev; [cbn; ring|]. cbn [eval].
  rewrite (is_plain_var_value r m v Hm Ep); [ring|]. eapply plain_var_single; eassumption.
Qed.

(** ** Lists on which regrouping changes nothing *)

Lemma lfac_same r L m : Forall valid_mono L -> valid_mono m -> same_powers (leader L m) m -> lfac r L m = eval_factors r (m_vars m) (m_exps m).
Proof. intros VL Vm H. apply factors_same_powers; [apply leader_valid; assumption | exact Vm | exact H]. Qed.

Lemma reg_coherent r L : Forall valid_mono L -> coherent L -> reg r L L = eval_poly r L.
Proof.
  intros V C. rewrite <- psimp_reg by exact V. apply psimp_value; assumption.
Qed.

Lemma single_reg r m : valid_mono m -> reg r [m] [m] = eval_mono r m.
Proof. intro V. unfold reg, lfac. cbn [fold_right leader]. rewrite alike_refl by exact V. unfold eval_mono. ring. Qed.

(** the value of the simplified expression, for every valid expression *)
Lemma ssimplified_reg r s : valid s -> eval r (ssimplified s) = reg r (terms s) (terms s).
Proof.
  intro V. destruct s as [k|v|m|p]; cbn [ssimplified terms].
  - rewrite single_reg by apply valid_mono_k. symmetry. apply eval_k.
  - rewrite single_reg by (apply valid_mono_of_var; exact V). rewrite <- (eval_poly_single r). symmetry. apply (eval_terms r (SV v)).
  - rewrite single_reg by exact V. apply msimplified_value. exact V.
  - destruct V as [_ V]. rewrite psimplified_psimp by exact V. apply psimp_reg. exact V.
Qed.

Lemma simplify_effect (s s' : scalar) : valid s -> scalar_simplified s = Ok s' -> forall r, eval r s' = eval_poly r (regroup (terms s)).
Proof. intros V E r. rewrite scalar_simplified_ok in E by exact V. injection E as <-. rewrite regroup_reg. apply ssimplified_reg. exact V. Qed.

(** ** Terms that no look-alike misrepresents *)

Definition rigid (m : Monomial) : Prop := forall d, valid_mono d -> look_alike d m -> same_powers d m.

Lemma rigid_k k : rigid (k_to_mono k).
Proof. intros d Vd H. apply const_powers; [apply const_like in H; rewrite H; reflexivity | reflexivity]. Qed.
Lemma rigid_var c v : rigid (mkMono c [1%Z] [v]).
Proof.
  intros d (V1 & _) (H1 & H2 & H3) i. unfold exponent. cbn [m_exps m_vars] in *. rewrite H1 in *.
  destruct (m_vars d) as [|w [|w' ws]] eqn:E; try discriminate. cbn. assert (Ew : v_id w = v_id v).
  { destruct (proj1 (H3 (v_id w))) as [X|[]]; [unfold ids; rewrite E; left; reflexivity | cbn in X; congruence]. }
  rewrite Ew. reflexivity.
Qed.

Lemma same_powers_trans a b c : same_powers a b -> same_powers b c -> same_powers a c.
Proof. intros H1 H2 i. rewrite H1. apply H2. Qed.
Lemma same_powers_sym a b : same_powers a b -> same_powers b a.
Proof. intros H i. symmetry. apply H. Qed.

Lemma rigid_look a m : valid_mono a -> rigid m -> look_alike a m -> rigid a.
Proof.
  intros Va R H d Vd Hd. eapply same_powers_trans; [apply R; [exact Vd | eapply look_trans; eassumption]|].
  apply same_powers_sym. apply R; assumption.
Qed.

(** a rigid term can be moved anywhere *)
Lemma reg_rigid r l1 x l2 : Forall valid_mono (l1 ++ x :: l2) -> rigid x ->
  reg r (l1 ++ x :: l2) (l1 ++ x :: l2) = reg r (l1 ++ l2) (l1 ++ l2) + eval_mono r x.
Proof.
  intros V R. assert (Vx : valid_mono x) by (rewrite Forall_forall in V; apply V, in_elt).
  assert (V' : Forall valid_mono (l1 ++ l2)).
  { apply Forall_forall. intros d Hd. rewrite Forall_forall in V. apply V. apply in_app_iff in Hd. apply in_app_iff. cbn. tauto. }
  assert (E : forall m, valid_mono m -> lfac r (l1 ++ x :: l2) m = lfac r (l1 ++ l2) m).
  { intros m Vm. unfold lfac. destruct (leader_split l1 m) as [H|H]; [rewrite !leader_app_found by exact H; reflexivity|].
    rewrite (leader_app_none l1 (x :: l2) m H). cbn [leader]. destruct (alike x m) eqn:A; [|rewrite leader_app_none by exact H; reflexivity].
    apply alike_look in A; try assumption.
    assert (Rm : rigid m) by (apply (rigid_look m x); [exact Vm | exact R | apply look_sym; exact A]).
    apply factors_same_powers; [exact Vx | apply leader_valid; assumption|].
    eapply same_powers_trans; [apply Rm; [exact Vx | exact A]|]. apply same_powers_sym. apply Rm; [apply leader_valid; assumption | apply leader_look; assumption]. }
  assert (E2 : forall q, incl q (l1 ++ x :: l2) -> reg r (l1 ++ x :: l2) q = reg r (l1 ++ l2) q).
  { intros q Hq. apply reg_ext. intros m Hm. apply E. rewrite Forall_forall in V. apply V, Hq, Hm. }
  rewrite E2 by apply incl_refl. rewrite !reg_app, reg_cons. rewrite (lfac_same r (l1 ++ l2) x V' Vx).
  - unfold eval_mono. ring.
  - apply R; [apply leader_valid; assumption | apply leader_look; assumption].
Qed.

Lemma reg_last r l x : Forall valid_mono (l ++ [x]) -> rigid x -> reg r (l ++ [x]) (l ++ [x]) = reg r l l + eval_mono r x.
Proof. intros V R. rewrite reg_rigid by assumption. rewrite app_nil_r. reflexivity. Qed.
Lemma reg_first r l x : Forall valid_mono (x :: l) -> rigid x -> reg r (x :: l) (x :: l) = reg r l l + eval_mono r x.
Proof. intros V R. apply (reg_rigid r [] x l); assumption. Qed.

(** changing the coefficient of a rigid term *)
Lemma reg_coeff r l1 m l2 k : Forall valid_mono (l1 ++ m :: l2) -> rigid m ->
  reg r (l1 ++ set_coeff m (m_coeff m + k) :: l2) (l1 ++ set_coeff m (m_coeff m + k) :: l2)
  = reg r (l1 ++ m :: l2) (l1 ++ m :: l2) + k * eval_factors r (m_vars m) (m_exps m).
Proof.
  intros V R. rewrite (reg_rigid r l1 m l2 V R). rewrite reg_rigid.
  - rewrite eval_set_coeff. unfold eval_mono. ring.
  - apply Forall_app in V. destruct V as [V1 V2]. inversion V2 as [|? ? V3 V4]; subst. apply Forall_app. split; [exact V1|]. constructor; [exact V3 | exact V4].
  - exact R.
Qed.

(** ** Plus *)

Definition eff (L : list Monomial) (x : res scalar) : Prop :=
  exists s, valid s /\ x = Ok (ssimplified s) /\ forall r, reg r (terms s) (terms s) = reg r L L.

Lemma eff_simp L s : valid s -> (forall r, reg r (terms s) (terms s) = reg r L L) -> eff L (scalar_simplified s).
Proof. intros V H. exists s. split; [exact V|]. split; [apply scalar_simplified_ok; exact V | exact H]. Qed.
Lemma eff_again L x : eff L x -> eff L (out <- x ;; scalar_simplified out).
Proof.
  intros (s & V & -> & H). cbn [bind]. exists (ssimplified s). pose proof (ssimplified_valid s V) as V'. split; [exact V'|].
  split; [apply scalar_simplified_ok; exact V'|]. intro r. rewrite <- H, <- !ssimplified_reg by assumption.
  rewrite (ssimplified_id (ssimplified s)); [reflexivity | apply zero_laws_exact; exact EX | exact V' | apply ssimplified_normal; exact V].
Qed.
Lemma eff_eq L L' x : (forall r, reg r L L = reg r L' L') -> eff L x -> eff L' x.
Proof. intros H (s & V & E & Hs). exists s. split; [exact V|]. split; [exact E|]. intro r. rewrite Hs. apply H. Qed.
Lemma eff_value L x s : eff L x -> x = Ok s -> forall r, eval r s = eval_poly r (regroup L).
Proof. intros (s0 & V & E & H) E' r. rewrite E in E'. injection E' as <-. rewrite regroup_reg, <- H. apply ssimplified_reg. exact V. Qed.

Lemma const_rigid m : valid_mono m -> is_const m = true -> rigid m.
Proof. intros V H. rewrite (const_mono m V H). apply rigid_k. Qed.
Lemma lin_rigid m w : m_vars m = [w] -> m_exps m = [1%Z] -> rigid m.
Proof. intros H1 H2. destruct m as [c es vs]. cbn in *. subst. apply rigid_var. Qed.
Lemma var_rigid v : rigid (var_to_mono v).
Proof. apply rigid_var. Qed.
Lemma eval_v r v : eval_mono r (var_to_mono v) = r (v_id v).
Proof. rewrite <- (eval_poly_single r). apply (eval_terms r (SV v)). Qed.
Lemma eval_lin r v w : v_id w = v_id v -> eval_factors r [w] [1%Z] = r (v_id v).
Proof. intro H. rewrite <- eval_v. unfold eval_mono. cbn [var_to_mono m_coeff m_vars m_exps]. cbn [eval_factors]. rewrite H. ring. Qed.

Lemma fapp {A} (P : A -> Prop) l l' : Forall P l -> Forall P l' -> Forall P (l ++ l').
Proof. intros H1 H2. apply Forall_app. split; assumption. Qed.
Lemma fone {A} (P : A -> Prop) a : P a -> Forall P [a].
Proof. intro H. constructor; [exact H | constructor]. Qed.
Lemma vk k : valid_mono (k_to_mono k).
Proof. apply valid_mono_k. Qed.
Hint Resolve fapp fone vk valid_mono_k valid_mono_of_var var_rigid rigid_k valid_poly_app valid_poly_single valid_poly_two valid_mono_check valid_poly_check : eff.

Lemma vpoly p : valid_poly p -> Forall valid_mono p.
Proof. intros [_ H]. exact H. Qed.
Hint Resolve vpoly : eff.

Lemma poly_plus_k_eff p k : valid_poly p -> eff (p ++ [k_to_mono k]) (poly_plus_k p k).
Proof.
  intro V. unfold poly_plus_k. rewrite (valid_poly_check p V). cb.
  destruct (poly_constant_index_ok p (valid_poly_check p V)) as (o & -> & Ho). cb.
  assert (Vk : valid_mono (k_to_mono k)) by apply valid_mono_k.
  destruct o as [i|].
  - destruct Ho as (l1 & m & l2 & -> & -> & Hc & _). rewrite index_split. cb. rewrite set_nth_split.
    assert (Vm : valid_mono m) by (destruct V as [_ V]; rewrite Forall_forall in V; apply V, in_elt).
    apply (eff_simp _ (SP _)).
    + destruct V as [_ V]. split; [destruct l1; discriminate|]. apply Forall_app in V. destruct V as [V1 V2]. inversion V2; subst. apply fapp; [exact V1 | constructor; assumption].
    + intro r. cbn [terms]. rewrite reg_coeff by (auto using const_rigid with eff). rewrite reg_last by (auto with eff). rewrite eval_k.
      rewrite (const_mono m Vm Hc). cbn [k_to_mono m_vars m_exps eval_factors]. ring.
  - apply (eff_simp _ (SP _)); [cbn [valid]; auto with eff | reflexivity].
Qed.

Lemma poly_plus_var_eff p v : valid_poly p -> valid_var v -> eff (p ++ [var_to_mono v]) (poly_plus_var p v).
Proof.
  intros V Vv. unfold poly_plus_var. rewrite (valid_poly_check p V). pose proof Vv as Hv.
  apply (proj1 (var_check_valid v)) in Hv || apply (proj2 (var_check_valid v)) in Hv. rewrite Hv. cb.
  destruct (poly_variable_index_ok p v V Vv) as (o & -> & Ho). cb.
  destruct o as [i|].
  - destruct Ho as (l1 & m & l2 & -> & -> & (w & H1 & H2 & H3) & _). rewrite index_split. cb. rewrite set_nth_split.
    assert (Vm : valid_mono m) by (destruct V as [_ V]; rewrite Forall_forall in V; apply V, in_elt).
    apply (eff_simp _ (SP _)).
    + destruct V as [_ V]. split; [destruct l1; discriminate|]. apply Forall_app in V. destruct V as [V1 V2]. inversion V2; subst. apply fapp; [exact V1 | constructor; assumption].
    + intro r. cbn [terms]. rewrite reg_coeff by (eauto using lin_rigid with eff). rewrite reg_last by (auto with eff). rewrite eval_v.
      rewrite H1, H2, (eval_lin r v w H3). ring.
  - apply (eff_simp _ (SP _)); [cbn [valid]; auto with eff | reflexivity].
Qed.

Lemma poly_plus_poly_eff p q : valid_poly p -> valid_poly q -> eff (p ++ q) (poly_plus_poly p q).
Proof.
  intros V W. unfold poly_plus_poly. rewrite (valid_poly_check p V), (valid_poly_check q W). cb.
  apply eff_again. apply (eff_simp _ (SP _)); [cbn [valid]; auto with eff | reflexivity].
Qed.

Lemma poly_plus_mono_eff p m : valid_poly p -> valid_mono m -> eff (p ++ [m]) (poly_plus_mono p m).
Proof.
  intros V W. unfold poly_plus_mono. rewrite (valid_poly_check p V), (valid_mono_check m W). cb.
  apply eff_again. apply poly_plus_poly_eff; [exact V | apply valid_poly_single; exact W].
Qed.

Lemma reg_two r m x : valid_mono m -> valid_mono x -> rigid x -> reg r [m; x] [m; x] = eval_mono r m + eval_mono r x.
Proof. intros V Vx R. change [m; x] with ([m] ++ [x]). rewrite reg_last by (auto with eff). rewrite single_reg by exact V. reflexivity. Qed.

Lemma mono_plus_k_eff m k : valid_mono m -> eff [m; k_to_mono k] (mono_plus_k m k).
Proof.
  intro V. unfold mono_plus_k. rewrite (valid_mono_check m V). cb.
  rewrite mono_is_constant_ok by auto with eff. cb. assert (Vk : valid_mono (k_to_mono k)) by apply valid_mono_k.
  destruct (is_const m) eqn:E.
  - apply eff_simp; [exact I|]. intro r. cbn [terms]. rewrite single_reg by apply valid_mono_k. rewrite (reg_two r m (k_to_mono k)) by (auto with eff).
    rewrite (eval_k r k), (eval_const r m E). apply eval_k.
  - apply (eff_simp _ (SP _)); [cbn [valid]; auto with eff | reflexivity].
Qed.

Lemma merge_two r m m' : valid_mono m -> valid_mono m' -> look_alike m m' ->
  reg r [set_coeff m (m_coeff m + m_coeff m')] [set_coeff m (m_coeff m + m_coeff m')] = reg r [m; m'] [m; m'].
Proof.
  intros V V' H. rewrite single_reg by exact V. unfold reg, lfac. cbn [fold_right leader]. rewrite alike_refl by exact V.
  apply alike_look in H; try assumption. rewrite H. rewrite eval_set_coeff. ring.
Qed.

Lemma mono_plus_var_eff m v : valid_mono m -> valid_var v -> eff [m; var_to_mono v] (mono_plus_var m v).
Proof.
  intros V Vv. unfold mono_plus_var. rewrite (valid_mono_check m V). pose proof Vv as Hv. apply (proj1 (var_check_valid v)) in Hv || apply (proj2 (var_check_valid v)) in Hv.
  rewrite Hv. cb. rewrite mono_degree_one_ok by assumption. cb.
  destruct (match m_vars m, m_exps m with [w], [e] => same_id w v && Z.eqb e 1 | _, _ => false end) eqn:E.
  - assert (Hla : look_alike m (var_to_mono v)).
    { destruct (m_vars m) as [|w [|w' ws]] eqn:E1; try discriminate. destruct (m_exps m) as [|e [|e' es]] eqn:E2; try discriminate.
      apply andb_true_iff in E. destruct E as [E3 E4]. apply same_id_iff in E3. apply Z.eqb_eq in E4. subst e.
      eapply like_var; eassumption. }
    apply eff_simp; [exact V|]. intro r. cbn [terms]. exact (merge_two r m (var_to_mono v) V (valid_mono_of_var v Vv) Hla).
  - apply (eff_simp _ (SP _)); [cbn [valid]; auto with eff | reflexivity].
Qed.

Lemma mono_plus_mono_eff m m' : valid_mono m -> valid_mono m' -> eff [m; m'] (mono_plus_mono m m').
Proof.
  intros V V'. unfold mono_plus_mono. rewrite (valid_mono_check m V), (valid_mono_check m' V'). cb.
  rewrite mono_matches_form_ok by auto with eff. cb. destruct (matchb m m') eqn:E.
  - apply matchb_look_alike in E; try assumption. apply eff_simp; [exact V|]. intro r. exact (merge_two r m m' V V' E).
  - apply (eff_simp _ (SP _)); [cbn [valid]; auto with eff | reflexivity].
Qed.

Lemma mono_plus_poly_eff m p : valid_mono m -> valid_poly p -> eff (p ++ [m]) (mono_plus_poly m p).
Proof.
  intros V W. unfold mono_plus_poly. rewrite (valid_mono_check m V), (valid_poly_check p W). cb.
  apply eff_again. apply poly_plus_mono_eff; assumption.
Qed.

Lemma var_plus_k_eff v k : valid_var v -> eff [var_to_mono v; k_to_mono k] (var_plus_k v k).
Proof.
  intro Vv. unfold var_plus_k. pose proof Vv as Hv. apply (proj1 (var_check_valid v)) in Hv || apply (proj2 (var_check_valid v)) in Hv. rewrite Hv. cb.
  apply (eff_simp _ (SP _)); [cbn [valid]; auto with eff | reflexivity].
Qed.

Lemma var_plus_var_eff v w : valid_var v -> valid_var w -> eff [var_to_mono v; var_to_mono w] (var_plus_var v w).
Proof.
  intros Vv Vw. unfold var_plus_var. pose proof Vv as Hv. apply (proj1 (var_check_valid v)) in Hv || apply (proj2 (var_check_valid v)) in Hv. rewrite Hv. cb.
  destruct (same_id v w) eqn:E.
  - apply same_id_iff in E. apply eff_simp; [apply valid_mono_var; [exact Vv | lia]|]. intro r. cbn [terms].
    rewrite single_reg by (apply valid_mono_var; [exact Vv | lia]). rewrite (reg_two r (var_to_mono v) (var_to_mono w)) by (auto with eff).
    rewrite !eval_v, <- E. unfold eval_mono. cbn [m_coeff m_vars m_exps]. rewrite (eval_lin r v v eq_refl), <- (n2_exact EX). ring.
  - apply (eff_simp _ (SP _)); [cbn [valid]; auto with eff | reflexivity].
Qed.

Lemma swap_rigid r x m : valid_mono x -> valid_mono m -> rigid x -> reg r [m; x] [m; x] = reg r [x; m] [x; m].
Proof.
  intros Vx Vm R. rewrite (reg_two r m x) by assumption. rewrite (reg_first r [m] x); [rewrite single_reg by exact Vm; reflexivity | constructor; auto with eff | exact R].
Qed.
Lemma rotate_rigid r x l : valid_mono x -> Forall valid_mono l -> rigid x -> reg r (l ++ [x]) (l ++ [x]) = reg r (x :: l) (x :: l).
Proof. intros Vx Vl R. rewrite reg_last by (auto with eff). rewrite reg_first; [reflexivity | constructor; assumption | exact R]. Qed.

Lemma var_plus_mono_eff v m : valid_var v -> valid_mono m -> eff [var_to_mono v; m] (var_plus_mono v m).
Proof.
  intros Vv V. unfold var_plus_mono. pose proof Vv as Hv. apply (proj1 (var_check_valid v)) in Hv || apply (proj2 (var_check_valid v)) in Hv. rewrite Hv. cb.
  apply eff_again. eapply eff_eq; [|apply mono_plus_var_eff; assumption]. intro r. apply swap_rigid; auto with eff.
Qed.

Lemma var_plus_poly_eff v p : valid_var v -> valid_poly p -> eff (var_to_mono v :: p) (var_plus_poly v p).
Proof.
  intros Vv V. unfold var_plus_poly. pose proof Vv as Hv. apply (proj1 (var_check_valid v)) in Hv || apply (proj2 (var_check_valid v)) in Hv. rewrite Hv. cb.
  apply eff_again. eapply eff_eq; [|apply poly_plus_var_eff; assumption]. intro r. apply rotate_rigid; auto with eff.
Qed.

Lemma scalar_plus_eff a b : valid a -> valid b -> eff (listed_sum a b) (scalar_plus a b).
Proof.
  intros Va Vb. destruct a as [k|v|m|p]; cbn [scalar_plus].
  - unfold k_plus. rewrite (valid_check b Vb). cb. assert (Vk : valid_mono (k_to_mono k)) by apply valid_mono_k.
    destruct b as [k'|v|m|p]; cbn [terms app listed_sum].
    + change (Ok (SK (k + k'))) with (scalar_simplified (SK (k + k'))). apply eff_simp; [exact I|].
      intro r. cbn [terms]. rewrite single_reg by apply valid_mono_k. change (mkMono k' [] []) with (k_to_mono k').
      change (mkMono k [] []) with (k_to_mono k). rewrite (reg_two r (k_to_mono k) (k_to_mono k')) by (auto with eff).
      rewrite !eval_k. apply eval_k.
    + eapply eff_eq; [|apply var_plus_k_eff; exact Vb]. intro r. apply (swap_rigid r (k_to_mono k) (var_to_mono v)); auto with eff.
    + eapply eff_eq; [|apply mono_plus_k_eff; exact Vb]. intro r. apply (swap_rigid r (k_to_mono k) m); auto with eff.
    + eapply eff_eq; [|apply poly_plus_k_eff; exact Vb]. intro r. apply (rotate_rigid r (k_to_mono k) p); auto with eff.
  - destruct b as [k'|w|m|p]; cbn [terms app var_plus listed_sum].
    + apply var_plus_k_eff; exact Va.
    + apply var_plus_var_eff; assumption.
    + apply var_plus_mono_eff; assumption.
    + apply var_plus_poly_eff; assumption.
  - destruct b as [k'|w|m'|p]; cbn [terms app mono_plus listed_sum].
    + apply mono_plus_k_eff; exact Va.
    + apply mono_plus_var_eff; assumption.
    + apply mono_plus_mono_eff; assumption.
    + apply mono_plus_poly_eff; assumption.
  - destruct b as [k'|w|m'|q]; cbn [terms poly_plus listed_sum].
    + apply poly_plus_k_eff; exact Va.
    + apply poly_plus_var_eff; assumption.
    + apply poly_plus_mono_eff; assumption.
    + apply poly_plus_poly_eff; assumption.
Qed.

Lemma plus_effect (a b s : scalar) : valid a -> valid b -> scalar_plus a b = Ok s -> forall r, eval r s = eval_poly r (regroup (listed_sum a b)).
Proof. intros Va Vb E. exact (eff_value _ _ s (scalar_plus_eff a b Va Vb) E). Qed.

(** ** When the result is right *)

Lemma regroup_valid L : valid_poly L -> valid_poly (regroup L).
Proof.
  intros [H1 H2]. split; [destruct L; [congruence | discriminate]|]. unfold regroup. apply Forall_map. apply Forall_forall. intros m Hm.
  assert (Vm : valid_mono m) by (rewrite Forall_forall in H2; apply H2, Hm). exact (leader_valid L m H2 Vm).
Qed.

Lemma listed_sum_valid a b : valid a -> valid b -> valid_poly (listed_sum a b).
Proof.
  intros Va Vb. apply valid_terms_iff in Va. apply valid_terms_iff in Vb. unfold listed_sum.
  destruct a as [k|v|m|p]; destruct b as [k'|w|m'|q]; apply valid_poly_app; assumption.
Qed.

Lemma listed_sum_value r a b : eval_poly r (listed_sum a b) = eval r a + eval r b.
Proof.
  rewrite <- !eval_terms. unfold listed_sum. destruct a as [k|v|m|p]; destruct b as [k'|w|m'|q]; rewrite eval_poly_app; try reflexivity. ring.
Qed.

Lemma simplify_exactly_when (s s' : scalar) : valid s -> scalar_simplified s = Ok s' ->
  ((forall r, eval r s' = eval r s) <-> forall m, valid_mono m -> coefficient m (SP (regroup (terms s))) = coefficient m s).
Proof.
  intros V E. pose proof (simplify_effect s s' V E) as H. pose proof (proj1 (valid_terms_iff s) V) as VT.
  rewrite <- (functions_determined (SP (regroup (terms s))) s (regroup_valid _ VT) V). unfold same_function.
  split; intros G r; [rewrite <- G, H; reflexivity | rewrite H; apply G].
Qed.

Lemma plus_exactly_when (a b s : scalar) : valid a -> valid b -> scalar_plus a b = Ok s ->
  ((forall r, eval r s = eval r a + eval r b)
   <-> forall m, valid_mono m -> coefficient m (SP (regroup (listed_sum a b))) = coefficient m (SP (listed_sum a b))).
Proof.
  intros Va Vb E. pose proof (plus_effect a b s Va Vb E) as H. pose proof (listed_sum_valid a b Va Vb) as VT.
  rewrite <- (functions_determined (SP (regroup (listed_sum a b))) (SP (listed_sum a b)) (regroup_valid _ VT) VT). unfold same_function. cbn [eval].
  split; intros G r; [rewrite listed_sum_value, <- G, H; reflexivity | rewrite H, G; apply listed_sum_value].
Qed.

End Effect.
