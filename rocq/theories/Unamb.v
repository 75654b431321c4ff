(** * Classes of expressions on which comparing exponents by position is harmless *)

From Coq Require Import ZArith NArith Bool List Lia Sorted.
From Verif Require Import Num Syntax ModelScalar Spec Base ScalarValid Eval ScalarOps ScalarMore.
Import ListNotations.

Section Unamb.
Context {NN : Num}.

Lemma exponent_uniform m i e : valid_mono m -> uniform m -> In i (ids m) -> In e (m_exps m) -> exponent m i = e.
Proof.
  intros V U Hi He. unfold exponent. destruct V as (V1 & _ & V3 & _).
  unfold ids in Hi. apply in_map_iff in Hi. destruct Hi as (v & <- & Hv). apply In_nth_error in Hv. destruct Hv as (k & Hk).
  assert (HL : (k < length (m_exps m))%nat) by (rewrite V1; apply nth_error_Some; congruence).
  destruct (nth_error (m_exps m) k) as [e'|] eqn:Ek; [|apply nth_error_Some in HL; congruence].
  rewrite (exponent_in_nth (m_vars m) (m_exps m) k v e') by assumption. apply U; [eapply nth_error_In; exact Ek | exact He].
Qed.

Lemma uniform_like m1 m2 : valid_mono m1 -> valid_mono m2 -> uniform m1 -> uniform m2 -> look_alike m1 m2 -> same_powers m1 m2.
Proof.
  intros V1 V2 U1 U2 (HE & HL & HI) i. destruct (in_dec N.eq_dec i (ids m1)) as [H|H].
  - assert (H' := H). unfold ids in H'. apply in_map_iff in H'. destruct H' as (v & _ & Hv).
    assert (HX : exists e, In e (m_exps m1)).
    { destruct V1 as (A & _). destruct (m_vars m1); [destruct Hv|]. destruct (m_exps m1); [discriminate|]. eexists. left. reflexivity. }
    destruct HX as (e & He). rewrite (exponent_uniform m1 i e) by assumption. symmetry. apply exponent_uniform; [exact V2 | exact U2| |].
    + apply HI. exact H.
    + rewrite <- HE. exact He.
  - rewrite (exponent_zero m1 i) by assumption. rewrite (exponent_zero m2 i); [reflexivity | exact V2|]. intro C. apply H, HI, C.
Qed.

Lemma uniform_unambiguous (P : Monomial -> Prop) : (forall m, P m -> valid_mono m /\ uniform m) -> unambiguous P.
Proof. intros H m1 m2 H1 H2 HL. destruct (H m1 H1), (H m2 H2). apply uniform_like; assumption. Qed.

Lemma degree2_uniform m : valid_mono m -> (tdeg m <= 2)%Z -> uniform m.
Proof.
  intros (_ & V2 & _) Hd e1 e2 H1 H2. unfold tdeg in Hd.
  assert (HS : (Z.of_nat (length (m_exps m)) <= sumZ (m_exps m))%Z) by (apply sumZ_pos; exact V2).
  destruct (m_exps m) as [|a [|b [|c l]]]; cbn in *; try lia.
  inversion V2 as [|? ? A1 A2]; subst. inversion A2 as [|? ? A3 _]; subst. destruct H1 as [<-|[<-|[]]], H2 as [<-|[<-|[]]]; lia.
Qed.

Lemma single_var_uniform m x : valid_mono m -> (forall i, In i (ids m) -> i = x) -> uniform m.
Proof.
  intros (V1 & _ & V3 & _) H e1 e2 H1 H2. unfold ids in H.
  assert (HL : (length (m_vars m) <= 1)%nat).
  { destruct (m_vars m) as [|a [|b l]]; cbn; try lia. exfalso. cbn in *. inversion V3 as [|? ? C _]; subst. apply C. left.
    rewrite (H (v_id a)), (H (v_id b)); auto. }
  destruct (m_exps m) as [|a [|b l]]; cbn [In length] in *; [destruct H1| |lia]. destruct H1 as [<-|[]], H2 as [<-|[]]. reflexivity.
Qed.

(** *** sorted variable lists *)
Lemma sorted_same (l1 l2 : list N) : StronglySorted N.lt l1 -> StronglySorted N.lt l2 -> (forall i, In i l1 <-> In i l2) -> l1 = l2.
Proof.
  revert l2. induction l1 as [|a l1 IH]; intros l2 S1 S2 H.
  - destruct l2 as [|b l2]; [reflexivity|]. exfalso. apply (H b). left. reflexivity.
  - destruct l2 as [|b l2]; [exfalso; apply (H a); left; reflexivity|].
    inversion S1 as [|? ? A1 A2]; subst. inversion S2 as [|? ? B1 B2]; subst. rewrite Forall_forall in A2, B2.
    assert (E : a = b).
    { destruct (proj1 (H a) (or_introl eq_refl)) as [E|E]; [auto|]. destruct (proj2 (H b) (or_introl eq_refl)) as [E'|E']; [auto|].
      pose proof (A2 b E'). pose proof (B2 a E). lia. }
    subst b. f_equal. apply IH; [exact A1 | exact B1|]. intro i. split; intro Hi.
    + destruct (proj1 (H i) (or_intror Hi)) as [<-|C]; [|exact C]. pose proof (A2 a Hi). lia.
    + destruct (proj2 (H i) (or_intror Hi)) as [<-|C]; [|exact C]. pose proof (B2 a Hi). lia.
Qed.

Lemma exponent_in_ids vs vs' es i : map v_id vs = map v_id vs' -> exponent_in vs es i = exponent_in vs' es i.
Proof.
  revert vs' es. induction vs as [|v vs IH]; intros [|v' vs'] es H; try discriminate; [reflexivity|]. cbn in H.
  injection H as H1 H2. destruct es as [|e es]; cbn; [reflexivity|]. rewrite H1, (IH vs' es H2). reflexivity.
Qed.

Lemma sorted_unambiguous (P : Monomial -> Prop) : (forall m, P m -> StronglySorted N.lt (ids m)) -> unambiguous P.
Proof.
  intros H m1 m2 H1 H2 (HE & _ & HI) i. unfold exponent. rewrite HE. apply exponent_in_ids.
  apply sorted_same; [apply H; exact H1 | apply H; exact H2 | exact HI].
Qed.

(** *** sets of exponent functions *)
Lemma uniform_exponents (F : (N -> Z) -> Prop) :
  (forall f, F f -> exists e, forall i, f i = 0%Z \/ f i = e) -> unambiguous_exponents F.
Proof.
  intro H. apply uniform_unambiguous. intros m (V & f & Hf & E). split; [exact V|]. destruct (H f Hf) as (e & He).
  assert (HU : forall e', In e' (m_exps m) -> e' = e).
  { intros e' H'. pose proof V as (V1 & V2 & V3 & _). apply In_nth_error in H'. destruct H' as (k & Hk).
    assert (HL : (k < length (m_vars m))%nat) by (rewrite <- V1; apply nth_error_Some; congruence).
    destruct (nth_error (m_vars m) k) as [v|] eqn:Ev; [|apply nth_error_Some in HL; congruence].
    pose proof (exponent_in_nth (m_vars m) (m_exps m) k v e' V3 Ev Hk) as HX. specialize (He (v_id v)). rewrite <- E in He.
    unfold exponent in He. rewrite HX in He. rewrite Forall_forall in V2. pose proof (V2 e' (nth_error_In _ _ Hk)).
    destruct He; lia. }
  intros e1 e2 H1 H2. rewrite (HU e1 H1), (HU e2 H2). reflexivity.
Qed.

Lemma one_variable_exponents (F : (N -> Z) -> Prop) x :
  (forall f i, F f -> i <> x -> f i = 0%Z) -> unambiguous_exponents F.
Proof.
  intro H. apply uniform_exponents. intros f Hf. exists (f x). intro i. destruct (N.eq_dec i x) as [->|E]; [right; reflexivity|].
  left. apply H; assumption.
Qed.

Lemma zero_exponents (F : (N -> Z) -> Prop) : (forall f i, F f -> f i = 0%Z) -> unambiguous_exponents F.
Proof. intro H. apply uniform_exponents. intros f Hf. exists 0%Z. intro i. left. apply H. exact Hf. Qed.

(** the total degree of a set of exponent functions *)
Definition degree_fn (F : (N -> Z) -> Prop) (d : Z) : Prop :=
  forall f, F f -> forall L, NoDup L -> (sumL L f <= d)%Z.

Lemma degree_exponents F : degree_fn F 2 -> unambiguous_exponents F.
Proof.
  intro H. apply uniform_unambiguous. intros m (V & f & Hf & E). split; [exact V|]. apply degree2_uniform; [exact V|].
  rewrite <- (tdeg_sumL m (ids m)); [| exact V | apply V | apply incl_refl].
  rewrite (sumL_ext _ (exponent m) f) by (intros; apply E). apply H; [exact Hf | apply V].
Qed.

Lemma sumL_exponent_le m L : valid_mono m -> NoDup L -> (sumL L (exponent m) <= tdeg m)%Z.
Proof.
  intros V HN. set (R := filter (fun i => negb (existsb (N.eqb i) L)) (ids m)).
  assert (HR : NoDup (L ++ R)).
  { assert (HNR : NoDup R) by (apply NoDup_filter, V).
    assert (HD : forall i, In i L -> ~ In i R).
    { intros i H1 H2. apply filter_In in H2. destruct H2 as [_ H2]. apply negb_true_iff in H2.
      assert (existsb (N.eqb i) L = true); [|congruence]. apply existsb_exists. exists i. split; [exact H1 | apply N.eqb_refl]. }
    clear - HN HNR HD. clearbody R. induction L as [|a L IH]; cbn; [exact HNR|]. inversion HN as [|? ? A1 A2]; subst. constructor.
    - rewrite in_app_iff. intros [C|C]; [contradiction|]. apply (HD a); [left; reflexivity | exact C].
    - apply IH; [exact A2|]. intros i Hi. apply HD. right. exact Hi. }
  assert (HI : incl (ids m) (L ++ R)).
  { intros i Hi. apply in_app_iff. destruct (in_dec N.eq_dec i L) as [H|H]; [left; exact H|right]. apply filter_In. split; [exact Hi|].
    apply negb_true_iff. destruct (existsb (N.eqb i) L) eqn:E; [|reflexivity]. apply existsb_exists in E. destruct E as (j & H1 & H2).
    apply N.eqb_eq in H2. subst j. contradiction. }
  rewrite <- (tdeg_sumL m (L ++ R) V HR HI).
  assert (HA : forall l1 l2 f, sumL (l1 ++ l2) f = (sumL l1 f + sumL l2 f)%Z).
  { intros l1 l2 f. induction l1 as [|a l1 IH]; cbn; [reflexivity|]. rewrite IH. lia. }
  rewrite HA. assert (0 <= sumL R (exponent m))%Z; [|lia].
  rewrite <- (sumL_zero R (fun _ => 0%Z)) by reflexivity. apply sumL_le. intros i _. apply exponent_nonneg. exact V.
Qed.

Lemma sumL_sum_exponents l L d : (forall m, In m l -> valid_mono m /\ (tdeg m <= d)%Z) -> NoDup L ->
  (sumL L (sum_exponents l) <= Z.of_nat (length l) * d)%Z.
Proof.
  intros H HN. induction l as [|m l IH]; cbn [length].
  - rewrite sumL_zero by reflexivity. lia.
  - rewrite (sumL_ext L _ (fun i => (exponent m i + sum_exponents l i)%Z)) by reflexivity. rewrite sumL_add.
    destruct (H m (or_introl eq_refl)) as [V Hd]. pose proof (sumL_exponent_le m L V HN).
    specialize (IH (fun x Hx => H x (or_intror Hx))). lia.
Qed.

Lemma degree_terms s d : valid s -> degree_at_most d s -> forall m, In m (terms s) -> valid_mono m /\ (tdeg m <= d)%Z.
Proof.
  intros V H m Hm. pose proof (valid_terms s V) as HV. rewrite Forall_forall in HV. unfold degree_at_most in H.
  rewrite Forall_forall in H. auto.
Qed.

(** products of two expressions *)
Lemma product_terms_degree a b da db : valid a -> valid b -> degree_at_most da a -> degree_at_most db b ->
  degree_fn (product_terms a b) (da + db).
Proof.
  intros Va Vb Ha Hb f (m1 & m2 & H1 & H2 & E) L HN. rewrite (sumL_ext L f (fun i => (exponent m1 i + exponent m2 i)%Z)) by (intros; apply E).
  rewrite sumL_add. destruct (degree_terms a da Va Ha m1 H1) as [V1 D1]. destruct (degree_terms b db Vb Hb m2 H2) as [V2 D2].
  pose proof (sumL_exponent_le m1 L V1 HN). pose proof (sumL_exponent_le m2 L V2 HN). lia.
Qed.

Lemma only_variable_exponent x s m i : only_variable x s -> valid s -> In m (terms s) -> i <> x -> exponent m i = 0%Z.
Proof.
  intros H V Hm Hi. pose proof (valid_terms s V) as HV. rewrite Forall_forall in HV. unfold only_variable in H. rewrite Forall_forall in H.
  apply exponent_zero; [apply HV; exact Hm|]. intro C. apply Hi. exact (H m Hm i C).
Qed.

Lemma product_terms_one_variable a b x : valid a -> valid b -> only_variable x a -> only_variable x b ->
  unambiguous_exponents (product_terms a b).
Proof.
  intros Va Vb Ha Hb. apply (one_variable_exponents _ x). intros f i (m1 & m2 & H1 & H2 & E) Hi.
  rewrite E, (only_variable_exponent x a m1 i), (only_variable_exponent x b m2 i) by assumption. reflexivity.
Qed.

(** powers *)
Lemma power_terms_degree a n d : valid a -> (0 <= d)%Z -> degree_at_most d a -> degree_fn (power_terms a n) (Z.of_nat n * d).
Proof.
  intros V Hd H f (l & H1 & H2 & E) L HN. rewrite (sumL_ext L f (sum_exponents l)) by (intros; apply E).
  pose proof (sumL_sum_exponents l L d (fun m Hm => degree_terms a d V H m (H1 m Hm)) HN).
  assert (Z.of_nat (length l) * d <= Z.of_nat n * d)%Z by (apply Z.mul_le_mono_nonneg_r; lia). lia.
Qed.

Lemma sum_exponents_zero l i : (forall m, In m l -> exponent m i = 0%Z) -> sum_exponents l i = 0%Z.
Proof.
  induction l as [|m l IH]; intro H; cbn; [reflexivity|]. rewrite (H m), IH; [reflexivity| |left; reflexivity].
  intros x Hx. apply H. right. exact Hx.
Qed.

Lemma power_terms_one_variable a n x : valid a -> only_variable x a -> unambiguous_exponents (power_terms a n).
Proof.
  intros V H. apply (one_variable_exponents _ x). intros f i (l & H1 & _ & E) Hi. rewrite E. apply sum_exponents_zero.
  intros m Hm. apply (only_variable_exponent x a); auto.
Qed.

(** substitution *)
Lemma image_terms_degree image vs es D : (0 <= D)%Z -> Forall (fun e => (0 <= e)%Z) es ->
  (forall v, In v vs -> valid (image v) /\ degree_at_most D (image v)) ->
  degree_fn (image_terms image vs es) (sumZ es * D).
Proof.
  intro HD. revert es. induction vs as [|v vs IH]; intros es He Hi f Hf L HN.
  - cbn in Hf. rewrite sumL_zero by (intros; apply Hf). assert (0 <= sumZ es)%Z; [|nia]. clear - He.
    induction es; cbn; [lia|]. inversion He; subst. specialize (IHes H2). lia.
  - destruct es as [|e es].
    { cbn in Hf. rewrite sumL_zero by (intros; apply Hf). cbn. lia. }
    destruct Hf as (l & g & (P1 & P2 & _) & Hg & E). inversion He as [|? ? He1 He2]; subst.
    rewrite (sumL_ext L f (fun i => (sum_exponents l i + g i)%Z)) by (intros; apply E). rewrite sumL_add.
    destruct (Hi v (or_introl eq_refl)) as [Vi Di].
    pose proof (sumL_sum_exponents l L D (fun m Hm => degree_terms (image v) D Vi Di m (P1 m Hm)) HN).
    specialize (IH es He2 (fun w Hw => Hi w (or_intror Hw)) g Hg L HN). cbn [sumZ]. nia.
Qed.

Lemma substituted_terms_degree image s d D : valid s -> (0 <= D)%Z -> degree_at_most d s ->
  (forall m v, In m (terms s) -> In v (m_vars m) -> valid (image v) /\ degree_at_most D (image v)) ->
  (d * D <= 2)%Z -> unambiguous_exponents (substituted_terms image s).
Proof.
  intros V HD Hs Hi Hb. apply degree_exponents. intros f (m & Hm & Hf) L HN.
  destruct (degree_terms s d V Hs m Hm) as [Vm Dm].
  assert (HE : Forall (fun e => (0 <= e)%Z) (m_exps m)).
  { destruct Vm as (_ & V2 & _). eapply Forall_impl; [|exact V2]. intros; cbn in *; lia. }
  pose proof (image_terms_degree image (m_vars m) (m_exps m) D HD HE (fun v Hv => Hi m v Hm Hv) f Hf L HN) as HX.
  unfold tdeg in Dm. nia.
Qed.

Lemma image_terms_zero_at image vs es f i : (forall v m, In v vs -> In m (terms (image v)) -> exponent m i = 0%Z) ->
  image_terms image vs es f -> f i = 0%Z.
Proof.
  revert es f. induction vs as [|v vs IH]; intros es f H Hf; [apply Hf|]. destruct es as [|e es]; [apply Hf|].
  destruct Hf as (l & g & (P1 & _) & Hg & E). rewrite E, (IH es g); [|intros w m Hw Hm; apply (H w m); [right; exact Hw | exact Hm] | exact Hg].
  rewrite sum_exponents_zero; [reflexivity|]. intros m Hm. apply (H v m); [left; reflexivity | apply P1; exact Hm].
Qed.

Lemma substituted_terms_one_variable image s x :
  (forall m v, In m (terms s) -> In v (m_vars m) -> valid (image v) /\ only_variable x (image v)) ->
  unambiguous_exponents (substituted_terms image s).
Proof.
  intro H. apply (one_variable_exponents _ x). intros f i (m & Hm & Hf) Hi. apply (image_terms_zero_at image (m_vars m) (m_exps m)); [|exact Hf].
  intros v t Hv Ht. destruct (H m v Hm Hv) as [V O]. apply (only_variable_exponent x (image v)); assumption.
Qed.

Lemma substituted_terms_constant image s :
  (forall m v, In m (terms s) -> In v (m_vars m) -> exists k, image v = SK k) ->
  unambiguous_exponents (substituted_terms image s).
Proof.
  intro H. apply zero_exponents. intros f i (m & Hm & Hf). apply (image_terms_zero_at image (m_vars m) (m_exps m)); [|exact Hf].
  intros v t Hv Ht. destruct (H m v Hm Hv) as [k E]. rewrite E in Ht. destruct Ht as [<-|[]]. reflexivity.
Qed.

End Unamb.
