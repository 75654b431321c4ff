(** * Multiply in terms of products of terms; degrees; variables; linear coefficients *)

From Coq Require Import ZArith NArith Bool List Lia Ring_theory.
From Verif Require Import Num Syntax ModelScalar Spec Base ScalarValid Eval ScalarOps ScalarMore ScalarNorm Unamb.
Import ListNotations.
Local Open Scope num_scope.

Section Lin.
Context {NN : Num}.
Ltac cb := cbn [bind check].

(** ** Multiply *)
Lemma scalar_mul_value a b : valid a -> valid b ->
  exists s, scalar_mul a b = Ok s /\ valid s
    /\ (forall m, In m (terms s) -> is_const m = true \/ exists m1 m2, In m1 (terms a) /\ In m2 (terms b) /\ product_powers m1 m2 m)
    /\ (ExactNum NN -> unambiguous_exponents (product_terms a b) -> forall r, eval r s = eval r a * eval r b).
Proof.
  intros Va Vb. destruct (scalar_mul_spec a b Va Vb) as (s & L & -> & V & (H1 & H2 & H3) & H4 & H5). exists s.
  split; [reflexivity|]. split; [exact V|]. split.
  - intros m Hm. destruct (H2 m Hm) as [C|(m0 & C1 & C2 & C3)]; [left; exact C|].
    destruct (H4 m0 C1) as [[_ D]|(_ & m1 & m2 & D1 & D2 & D3)].
    + left. unfold is_const in *. rewrite C3. exact D.
    + right. exists m1, m2. split; [exact D1|]. split; [exact D2|]. intro i. rewrite <- D3. unfold exponent. rewrite C2, C3. reflexivity.
  - intros EX HU r. rewrite <- eval_terms, H3, H5, !eval_terms; try assumption; [reflexivity|].
    intros x y Hx Hy HL. destruct (is_const x) eqn:Ex.
    { apply const_powers; [exact Ex|]. rewrite <- (const_like x y HL). exact Ex. }
    assert (Ey : is_const y = false) by (rewrite <- (const_like x y HL); exact Ex).
    destruct (H4 x Hx) as [[_ C]|(Vx & x1 & x2 & X1 & X2 & X3)]; [congruence|].
    destruct (H4 y Hy) as [[_ C]|(Vy & y1 & y2 & Y1 & Y2 & Y3)]; [congruence|].
    apply HU; [| |exact HL]; split; try assumption.
    + exists (exponent x). split; [|reflexivity]. exists x1, x2. auto.
    + exists (exponent y). split; [|reflexivity]. exists y1, y2. auto.
Qed.

(** ** Which results have collected terms *)
Definition apart_s (s : scalar) : Prop := match s with SP p => apart p | _ => True end.

Lemma apart_s_collected s : valid s -> apart_s s -> collected s.
Proof.
  intros V H. destruct s as [k|v|m|p]; try (apply collected_not_poly; exact I).
  intros l1 m1 l2 m2 l3 E. destruct V as [_ V]. exact (apart_collected p V H l1 m1 l2 m2 l3 E).
Qed.
Lemma collected_apart_s s : valid s -> collected s -> apart_s s.
Proof. intros V H. destruct s as [k|v|m|p]; try exact I. destruct V as [_ V]. apply collected_apart; [exact V | exact H]. Qed.

Lemma poly_simplified_apart q s : poly_simplified q = Ok s -> apart_s s.
Proof.
  unfold poly_simplified. destruct (poly_check q) eqn:E.
  2:{ unfold poly_simplify. rewrite E. discriminate. }
  rewrite (poly_simplify_ok q E). cb. destruct (poly_degree (psimp q)) as [d|]; cb; [|discriminate].
  destruct (Z.eqb d 0).
  - destruct (poly_constant (psimp q)); cb; [|discriminate]. intros [= <-]. exact I.
  - match goal with |- (bind ?x _ = _ -> _) => destruct x as [[v|]|]; cb; [| |discriminate] end.
    + intros [= <-]. exact I.
    + pose proof (psimp_apart q) as HA. destruct (psimp q) as [|m [|m2 l]]; intros [= <-]; try exact I; exact HA.
Qed.

Lemma mono_simplified_apart q s : mono_simplified q = Ok s -> apart_s s.
Proof.
  unfold mono_simplified, mono_is_constant. destruct (mono_check q); cb; [|discriminate].
  destruct (m_vars q) as [|v vs]; [intros [= <-]; exact I|]. destruct (m_coeff q =? n0); [intros [= <-]; exact I|].
  destruct (index (m_exps q) 0); cb; [|discriminate]. cbn [index nth_error]. cb.
  destruct (_ && _); [intros [= <-]; exact I|]. destruct (forallb _ _); intros [= <-]; exact I.
Qed.

Lemma scalar_simplified_apart q s : scalar_simplified q = Ok s -> apart_s s.
Proof.
  destruct q; cbn; [intros [= <-]; exact I | intros [= <-]; exact I | apply mono_simplified_apart | apply poly_simplified_apart].
Qed.

Ltac dbind H := match type of H with bind ?x _ = Ok _ => destruct x eqn:?; cbn [bind] in H; [|discriminate H] end.

Lemma scalar_mul_apart a b s : scalar_mul a b = Ok s -> apart_s s.
Proof.
  intro H.
  assert (HM : forall x, as_SM x = Ok s -> apart_s s).
  { intros x Hx. unfold as_SM in Hx. dbind Hx. injection Hx as <-. exact I. }
  assert (HPK : forall p k, poly_mul_k p k = Ok s -> apart_s s).
  { intros p k Hx. unfold poly_mul_k in Hx. dbind Hx. dbind Hx. eapply poly_simplified_apart; exact Hx. }
  assert (HPM : forall p k, poly_mul_mono p k = Ok s -> apart_s s).
  { intros p k Hx. unfold poly_mul_mono in Hx. dbind Hx. dbind Hx. dbind Hx. eapply poly_simplified_apart; exact Hx. }
  destruct a as [k|v|m|p], b as [k'|v'|m'|p']; cbn [scalar_mul k_mul var_mul mono_mul poly_mul scalar_check] in H;
    unfold k_mul in H; cbn [scalar_check] in H; try (eapply HM; exact H); try (eapply HPK; exact H); try (eapply HPM; exact H).
  - injection H as <-. exact I.
  - dbind H. unfold var_mul_k in H. dbind H. eapply mono_simplified_apart; exact H.
  - dbind H. eapply HM; exact H.
  - dbind H. eapply HPK; exact H.
  - unfold var_mul_k in H. dbind H. eapply mono_simplified_apart; exact H.
  - unfold var_mul_var in H. dbind H. dbind H. eapply mono_simplified_apart; exact H.
  - unfold var_mul_mono in H. dbind H. dbind H. dbind H. eapply mono_simplified_apart; exact H.
  - unfold var_mul_poly in H. dbind H. dbind H. dbind H. eapply scalar_simplified_apart; exact H.
  - unfold mono_mul_poly in H. dbind H. dbind H. eapply HPM; exact H.
  - unfold poly_mul_var in H. dbind H. dbind H. dbind H. eapply poly_simplified_apart; exact H.
  - unfold poly_mul_poly in H. dbind H. dbind H. dbind H. eapply scalar_simplified_apart; exact H.
Qed.

Lemma power_loop_apart b n r s : apart_s r -> power_loop b n r = Ok s -> apart_s s.
Proof.
  revert r. induction n as [|n IH]; intros r Hr H; cbn in H; [injection H as <-; exact Hr|].
  dbind H. eapply IH; [|exact H]. eapply scalar_mul_apart. eassumption.
Qed.

Lemma scalar_power_apart b n s : scalar_power b n = Ok s -> apart_s s.
Proof. unfold scalar_power. intro H. dbind H. dbind H. eapply power_loop_apart; [|exact H]. exact I. Qed.

Lemma subst_loop_apart sub vs es p s : apart_s p -> subst_loop sub vs es p = Ok s -> apart_s s.
Proof.
  revert es p. induction vs as [|v vs IH]; intros es p Hp H; cbn in H; [injection H as <-; exact Hp|].
  destruct es as [|e es]; [discriminate|]. dbind H. dbind H. dbind H. eapply IH; [|exact H]. eapply scalar_mul_apart. eassumption.
Qed.

Lemma normal_apart s : valid s -> normal s -> apart_s s.
Proof. intros V H. apply collected_apart_s; [exact V|]. apply normal_collected. exact H. Qed.

(** ** Degree *)
Lemma pdeg_attained p : p <> [] -> Forall valid_mono p -> exists m, In m p /\ tdeg m = pdeg p.
Proof.
  induction p as [|m p IH]; intros H V; [congruence|]. inversion V as [|? ? V1 V2]; subst. cbn [pdeg].
  pose proof (tdeg_nonneg m V1). destruct p as [|m2 p].
  - exists m. split; [left; reflexivity|]. cbn. lia.
  - destruct IH as (x & Hx & Ex); [discriminate | exact V2|]. destruct (Z_le_gt_dec (pdeg (m2 :: p)) (tdeg m)) as [C|C].
    + exists m. split; [left; reflexivity|]. lia.
    + exists x. split; [right; exact Hx|]. lia.
Qed.
Lemma pdeg_bound p m : In m p -> (tdeg m <= pdeg p)%Z.
Proof. induction p as [|x p IH]; intros []; cbn [pdeg]; [subst; lia|]. specialize (IH H). lia. Qed.

Lemma scalar_degree_ok s : valid s ->
  exists d, scalar_degree s = Ok d /\ (forall m, In m (terms s) -> (tdeg m <= d)%Z) /\ exists m, In m (terms s) /\ tdeg m = d.
Proof.
  intro V. destruct s as [k|v|m|p]; cbn [scalar_degree terms].
  - exists 0%Z. split; [reflexivity|]. split; [intros m [<-|[]]; cbn; lia | eexists; split; [left; reflexivity | reflexivity]].
  - exists 1%Z. split; [reflexivity|]. split; [intros m [<-|[]]; cbn; lia | eexists; split; [left; reflexivity | reflexivity]].
  - exists (tdeg m). split; [apply mono_degree_ok, valid_mono_check; exact V|]. split; [intros x [<-|[]]; lia | exists m; split; [left|]; reflexivity].
  - exists (pdeg p). split; [apply poly_degree_ok, valid_poly_check; exact V|]. split; [apply pdeg_bound|]. destruct V. apply pdeg_attained; assumption.
Qed.

Lemma scalar_degree_le s d d' : valid s -> scalar_degree s = Ok d -> (degree_at_most d' s <-> (d <= d')%Z).
Proof.
  intros V E. destruct (scalar_degree_ok s V) as (x & E' & H1 & (m & H2 & H3)). rewrite E in E'. injection E' as <-.
  unfold degree_at_most. rewrite Forall_forall. split.
  - intro H. specialize (H m H2). lia.
  - intros H y Hy. specialize (H1 y Hy). lia.
Qed.

Lemma degree_nonneg s d : valid s -> degree_at_most d s -> (0 <= d)%Z.
Proof.
  intros V H. destruct (scalar_degree_ok s V) as (x & E & H1 & (m & H2 & H3)). pose proof (valid_terms s V) as HV.
  rewrite Forall_forall in HV. unfold degree_at_most in H. rewrite Forall_forall in H. pose proof (tdeg_nonneg m (HV m H2)). specialize (H m H2). lia.
Qed.

Lemma const_tdeg m : valid_mono m -> is_const m = true -> tdeg m = 0%Z.
Proof. intros V H. apply tdeg_const_iff; assumption. Qed.
Lemma formed_tdeg L m : formed L m -> exists m0, In m0 L /\ tdeg m = tdeg m0.
Proof. intros (m0 & H1 & H2 & _). exists m0. split; [exact H1|]. unfold tdeg. rewrite H2. reflexivity. Qed.

Lemma sum_degree a b x val d : valid a -> valid b -> sum_spec (terms a) (terms b) x val ->
  degree_at_most d a -> degree_at_most d b -> exists s, x = Ok s /\ degree_at_most d s.
Proof.
  intros Va Vb (s & -> & V & H & _) Ha Hb. exists s. split; [reflexivity|]. apply Forall_forall. intros m Hm.
  pose proof (degree_nonneg a d Va Ha). pose proof (valid_terms s V) as HV. rewrite Forall_forall in HV.
  destruct (H m Hm) as [C|C]; [rewrite const_tdeg; auto|]. apply formed_tdeg in C. destruct C as (m0 & H1 & ->).
  unfold degree_at_most in *. rewrite Forall_forall in Ha, Hb. apply in_app_iff in H1. destruct H1; auto.
Qed.

Lemma mul_degree a b s da db : valid a -> valid b -> scalar_mul a b = Ok s ->
  degree_at_most da a -> degree_at_most db b -> degree_at_most (da + db) s.
Proof.
  intros Va Vb E Ha Hb. destruct (scalar_mul_value a b Va Vb) as (s' & E' & V & H & _). rewrite E in E'. injection E' as <-.
  apply Forall_forall. intros m Hm. pose proof (degree_nonneg a da Va Ha). pose proof (degree_nonneg b db Vb Hb).
  pose proof (valid_terms s V) as HV. rewrite Forall_forall in HV. destruct (H m Hm) as [C|(m1 & m2 & D1 & D2 & D3)].
  - rewrite const_tdeg by auto. lia.
  - destruct (degree_terms a da Va Ha m1 D1) as [V1 B1]. destruct (degree_terms b db Vb Hb m2 D2) as [V2 B2].
    rewrite (tdeg_product m1 m2 m); auto. lia.
Qed.

Lemma power_degree a n s d : valid a -> (0 <= n)%Z -> scalar_power a n = Ok s -> degree_at_most d a -> degree_at_most (n * d) s.
Proof.
  intros V Hn E Ha. destruct (scalar_power_ok a n V Hn) as (s' & E' & Vs & W & _). rewrite E in E'. injection E' as <-.
  apply Forall_forall. intros m Hm. pose proof (degree_nonneg a d V Ha) as Hd. destruct (W m Hm) as (f & Hf & Ef).
  pose proof (power_terms_degree a (Z.to_nat n) d V Hd Ha f Hf) as HD.
  pose proof (valid_terms s Vs) as HV. rewrite Forall_forall in HV. specialize (HV m Hm).
  rewrite <- (tdeg_sumL m (ids m) HV); [|apply HV|apply incl_refl]. rewrite (sumL_ext _ _ f) by (intros; apply Ef).
  specialize (HD (ids m) ltac:(apply HV)). lia.
Qed.

(** ** Variables *)
Lemma scalar_variables_occurs s i : valid s -> (In i (map v_id (scalar_variables s)) <-> occurs i s).
Proof.
  intro V. unfold occurs. destruct s as [k|v|m|p]; cbn [scalar_variables terms].
  - split; [intros [] | intros (m & [<-|[]] & [])].
  - split; [intro H; eexists; split; [left; reflexivity | exact H] | intros (m & [<-|[]] & H); exact H].
  - split; [intro H; exists m; split; [left; reflexivity | exact H] | intros (x & [<-|[]] & H); exact H].
  - unfold poly_variables. rewrite unique_vars_in. rewrite in_map_iff. split.
    + intros (v & <- & Hv). apply in_flat_map in Hv. destruct Hv as (m & H1 & H2). exists m. split; [exact H1|]. apply in_map. exact H2.
    + intros (m & H1 & H2). unfold ids in H2. apply in_map_iff in H2. destruct H2 as (v & <- & Hv). exists v. split; [reflexivity|].
      apply in_flat_map. exists m. auto.
Qed.

Lemma scalar_variables_nodup s : valid s -> NoDup (map v_id (scalar_variables s)).
Proof.
  intro V. destruct s as [k|v|m|p]; cbn [scalar_variables].
  - constructor.
  - constructor; [intros [] | constructor].
  - apply V.
  - apply unique_vars_nodup.
Qed.

Lemma scalar_variables_from s v : In v (scalar_variables s) -> exists m, In m (terms s) /\ In v (m_vars m).
Proof.
  destruct s as [k|w|m|p]; cbn [scalar_variables terms].
  - intros [].
  - intros [<-|[]]. eexists. split; [left; reflexivity | left; reflexivity].
  - intro H. exists m. split; [left; reflexivity | exact H].
  - intro H. apply unique_vars_incl in H. apply in_flat_map in H. exact H.
Qed.

Lemma scalar_variables_valid s : valid s -> Forall valid_var (scalar_variables s).
Proof.
  intro V. apply Forall_forall. intros v Hv. apply scalar_variables_from in Hv. destruct Hv as (m & H1 & H2).
  pose proof (valid_terms s V) as HV. rewrite Forall_forall in HV. destruct (HV m H1) as (_ & _ & _ & H). rewrite Forall_forall in H. auto.
Qed.

Lemma eval_factors_ext' (r r' : assignment) vs es :
  (forall v, In v vs -> r (v_id v) = r' (v_id v)) -> eval_factors r vs es = eval_factors r' vs es.
Proof.
  revert es. induction vs as [|v vs IH]; intros [|e es] H; cbn; try reflexivity.
  rewrite (H v) by (left; reflexivity). rewrite (IH es); [reflexivity|]. intros w Hw. apply H. right. exact Hw.
Qed.

Lemma eval_ext (r r' : assignment) s : (forall i, occurs i s -> r i = r' i) -> eval r s = eval r' s.
Proof.
  intro H.
  assert (HM : forall m, In m (terms s) -> eval_mono r m = eval_mono r' m).
  { intros m Hm. unfold eval_mono. f_equal. apply eval_factors_ext'. intros v Hv. apply H. exists m. split; [exact Hm|]. apply in_map. exact Hv. }
  destruct s as [k|v|m|p]; cbn [eval terms] in *.
  - reflexivity.
  - apply H. eexists. split; [left; reflexivity | left; reflexivity].
  - apply HM. left. reflexivity.
  - clear H. induction p as [|m p IH]; cbn; [reflexivity|]. rewrite (HM m) by (left; reflexivity). rewrite IH; [reflexivity|].
    intros x Hx. apply HM. right. exact Hx.
Qed.

(** no operation invents a variable *)
Lemma sum_occurs a b x val i s : sum_spec (terms a) (terms b) x val -> x = Ok s -> occurs i s -> occurs i a \/ occurs i b.
Proof.
  intros (s' & E & V & H & _) Es (m & H1 & H2). rewrite E in Es. injection Es as ->. destruct (H m H1) as [C|(m0 & C1 & C2 & C3)].
  - unfold is_const in C. unfold ids in H2. destruct (m_vars m); [destruct H2 | discriminate].
  - unfold ids in H2. rewrite C3 in H2. apply in_app_iff in C1. destruct C1 as [C1|C1]; [left|right]; exists m0; split; assumption.
Qed.
Lemma mul_occurs a b i s : valid a -> valid b -> scalar_mul a b = Ok s -> occurs i s -> occurs i a \/ occurs i b.
Proof.
  intros Va Vb E (m & H1 & H2). destruct (scalar_mul_value a b Va Vb) as (s' & E' & V & H & _). rewrite E in E'. injection E' as <-.
  pose proof (valid_terms s V) as HV. rewrite Forall_forall in HV.
  pose proof (valid_terms a Va) as HVa. rewrite Forall_forall in HVa. pose proof (valid_terms b Vb) as HVb. rewrite Forall_forall in HVb.
  destruct (H m H1) as [C|(m1 & m2 & D1 & D2 & D3)].
  - unfold is_const in C. unfold ids in H2. destruct (m_vars m); [destruct H2 | discriminate].
  - apply exponent_pos in H2; [|auto]. rewrite D3 in H2. destruct (Z_le_gt_dec 1 (exponent m1 i)) as [C|C].
    + left. exists m1. split; [exact D1|]. apply exponent_pos; auto.
    + right. exists m2. split; [exact D2|]. apply exponent_pos; auto. lia.
Qed.

(** ** LinearCoeff and Constant *)
Definition lin_in (x : var) (m : Monomial) : bool :=
  match m_vars m, m_exps m with [w], [e] => same_id w x && Z.eqb e 1 | _, _ => false end.
Definition lc (p : list Monomial) (x : var) : num :=
  match find (lin_in x) p with Some m => m_coeff m | None => n0 end.

Lemma find_none_all {A} (f : A -> bool) l : (forall a, In a l -> f a = false) -> find f l = None.
Proof. induction l as [|a l IH]; intro H; cbn; [reflexivity|]. rewrite (H a) by (left; reflexivity). apply IH. intros; apply H; right; assumption. Qed.
Lemma find_split {A} (f : A -> bool) l1 a l2 : f a = true -> (forall b, In b l1 -> f b = false) -> find f (l1 ++ a :: l2) = Some a.
Proof.
  intros Ha. induction l1 as [|x l1 IH]; intro H; cbn; [rewrite Ha; reflexivity|]. rewrite (H x) by (left; reflexivity). apply IH.
  intros; apply H; right; assumption.
Qed.

Lemma poly_linear_coeff_at_ok p x : valid_poly p -> valid_var x -> poly_linear_coeff_at p x = Ok (lc p x).
Proof.
  intros V Vx. unfold poly_linear_coeff_at, poly_variable_index. rewrite (valid_poly_check p V). pose proof Vx as Hx.
  apply var_check_valid in Hx. rewrite Hx. cb.
  destruct (first_index_ok (fun m => mono_is_degree_one_in m x) (lin_in x) p 0) as (o & -> & Ho).
  { intros m Hm. destruct V as [_ V]. rewrite Forall_forall in V. unfold lin_in. rewrite mono_degree_one_ok by auto.
    destruct (m_vars m) as [|? [|]]; [reflexivity| |reflexivity]. destruct (m_exps m) as [|? [|]]; reflexivity. }
  cb. unfold lc. destruct o as [i|].
  - destruct Ho as (l1 & a & l2 & -> & -> & Ha & Hb). cbn [plus]. rewrite index_split. cb. rewrite find_split; auto.
  - rewrite find_none_all; auto.
Qed.

Lemma poly_linear_coeff_ok p w : valid_poly p -> w <> [] -> Forall valid_var w -> poly_linear_coeff p [w] = Ok (map (lc p) w).
Proof.
  intros V Hw Vw. unfold poly_linear_coeff. rewrite (valid_poly_check p V). cbn [check bind wrt_vars]. destruct w as [|x w]; [congruence|].
  apply (mapM_map (poly_linear_coeff_at p) (lc p)). intros y Hy. rewrite Forall_forall in Vw. apply poly_linear_coeff_at_ok; auto.
Qed.

End Lin.

Section LinVal.
Context {NN : Num} {EX : ExactNum NN}.
Add Ring numring : num_ring.

Lemma dot_zero r f w : (forall x : var, In x w -> f x = n0) -> dot r (map f w) w = n0.
Proof.
  induction w as [|x w IH]; intro H; cbn; [reflexivity|]. rewrite (H x), IH; [ring| |left; reflexivity]. intros; apply H; right; assumption.
Qed.
Lemma dot_ext r f g w : (forall x : var, In x w -> f x = g x) -> dot r (map f w) w = dot r (map g w) w.
Proof.
  induction w as [|x w IH]; intro H; cbn; [reflexivity|]. rewrite (H x), IH; [ring| |left; reflexivity]. intros; apply H; right; assumption.
Qed.
Lemma dot_add r f g w : dot r (map (fun x => f x + g x) w) w = dot r (map f w) w + dot r (map g w) w.
Proof. induction w as [|x w IH]; cbn; [ring|]. rewrite IH. ring. Qed.
Lemma dot_point r (v : var) c w : NoDup (map v_id w) -> In (v_id v) (map v_id w) ->
  dot r (map (fun x => if same_id v x then c else n0) w) w = c * r (v_id v).
Proof.
  induction w as [|x w IH]; intros HN HI; [destruct HI|]. cbn in HN, HI. inversion HN as [|? ? H1 H2]; subst. cbn [map dot].
  destruct (same_id v x) eqn:E.
  - apply same_id_iff in E. rewrite dot_zero; [rewrite E; ring|]. intros y Hy. replace (same_id v y) with false; [reflexivity|].
    symmetry. apply same_id_false. rewrite E. intro C. apply H1. rewrite C. apply in_map. exact Hy.
  - apply same_id_false in E. destruct HI as [HI|HI]; [congruence|]. rewrite IH by assumption. ring.
Qed.

(** a valid term of degree at most one *)
Lemma linear_term m : valid_mono m -> (tdeg m <= 1)%Z ->
  (exists c, m = k_to_mono c) \/ exists c v, m = mkMono c [1%Z] [v].
Proof.
  intros V H. pose proof (tdeg_nonneg m V). destruct (Z.eq_dec (tdeg m) 0) as [E|E].
  - left. exists (m_coeff m). apply const_mono; [exact V|]. apply tdeg_const_iff; assumption.
  - right. destruct (tdeg_one m V) as (v & H1 & H2); [lia|]. exists (m_coeff m), v. destruct m as [c es vs]; cbn in *. subst. reflexivity.
Qed.

Lemma lin_poly_value p w : Forall valid_mono p -> Forall (fun m => (tdeg m <= 1)%Z) p -> apart p ->
  NoDup (map v_id w) -> (forall m i, In m p -> In i (ids m) -> In i (map v_id w)) ->
  forall r, eval_poly r p = dot r (map (lc p) w) w + pconst p.
Proof.
  intros V D A HN. induction p as [|m p IH]; intros HC r.
  - cbn. rewrite dot_zero by reflexivity. unfold pconst. cbn. ring.
  - inversion V as [|? ? V1 V2]; subst. inversion D as [|? ? D1 D2]; subst. inversion A as [|? ? A1 A2]; subst.
    specialize (IH V2 D2 A2 (fun x i Hx => HC x i (or_intror Hx)) r). cbn [eval_poly]. rewrite IH.
    rewrite Forall_forall in A1. destruct (linear_term m V1 D1) as [(c & E)|(c & v & E)]; subst m.
    + assert (Hc : first_const p = None).
      { apply first_const_none. intros a Ha. destruct (is_const a) eqn:Ec; [|reflexivity]. exfalso.
        rewrite Forall_forall in V2. specialize (A1 a Ha). rewrite (const_mono a (V2 a Ha) Ec) in A1. discriminate A1. }
      unfold pconst. rewrite Hc. cbn [first_const]. cbn [is_const k_to_mono m_vars m_coeff].
      change (lc (mkMono c [] [] :: p)) with (lc p). change (mkMono c [] []) with (k_to_mono c).
      rewrite eval_k. change (lc (k_to_mono c :: p)) with (lc p). ring.
    + change (pconst (mkMono c [1%Z] [v] :: p)) with (pconst p).
      assert (Hv : In (v_id v) (map v_id w)).
      { apply (HC (mkMono c [1%Z] [v])); left; reflexivity. }
      assert (HX : forall x, In x w -> lc (mkMono c [1%Z] [v] :: p) x = (if same_id v x then c else n0) + lc p x).
      { intros x _. unfold lc. cbn [find]. unfold lin_in at 1. cbn [m_vars m_exps m_coeff Z.eqb Pos.eqb]. rewrite andb_true_r.
        destruct (same_id v x) eqn:Es; [|ring]. rewrite find_none_all; [cbn; ring|]. intros a Ha. destruct (lin_in x a) eqn:El; [|reflexivity].
        exfalso. specialize (A1 a Ha). unfold lin_in in El. destruct (m_vars a) as [|u [|]] eqn:Ea; try discriminate.
        destruct (m_exps a) as [|e [|]] eqn:Ee; try discriminate. apply andb_true_iff in El. destruct El as [El1 El2].
        apply Z.eqb_eq in El2. subst e. rewrite Forall_forall in V2. assert (HL : look_alike (mkMono c [1%Z] [v]) a).
        { unfold look_alike, ids. rewrite Ea, Ee. cbn. split; [reflexivity|]. split; [reflexivity|].
          apply same_id_iff in El1. apply same_id_iff in Es. intro i. rewrite Es, El1. reflexivity. }
        apply matchb_look_alike in HL; [congruence | exact V1 | apply V2; exact Ha]. }
      rewrite (dot_ext r _ _ w HX), dot_add, dot_point by assumption.
      unfold eval_mono. cbn [m_coeff m_exps m_vars eval_factors]. change (Z.to_nat 1) with 1%nat. cbn [npow]. ring.
Qed.

Lemma set_zero_value r (w : list var) i c x : NoDup (map v_id w) -> nth_error w i = Some x ->
  dot r (set_nth i c (repeat n0 (length w))) w = c * r (v_id x).
Proof.
  revert i. induction w as [|y w IH]; intros i HN H; [destruct i; discriminate|]. inversion HN as [|? ? H1 H2]; subst.
  assert (HZ : forall l : list var, dot r (repeat n0 (length l)) l = n0).
  { clear - EX. induction l as [|a l IH]; cbn; [reflexivity|]. rewrite IH. ring. }
  destruct i as [|i]; cbn in H |- *.
  - injection H as ->. rewrite HZ. ring.
  - rewrite IH by assumption. ring.
Qed.

Lemma linear_decomposition s w : valid s -> degree_at_most 1 s -> collected s ->
  (match s with SM m => m_vars m <> [] | _ => True end) ->
  w <> [] -> Forall valid_var w -> NoDup (map v_id w) -> (forall i, occurs i s -> In i (map v_id w)) ->
  exists cs c, scalar_linear_coeff s [w] = Ok cs /\ scalar_constant s = Ok c /\ length cs = length w
    /\ forall r, eval r s = dot r cs w + c.
Proof.
  intros V D C HK Hw Vw HN HC. destruct s as [k|v|m|p]; cbn [scalar_linear_coeff scalar_constant].
  - exists (repeat n0 (length w)), k. unfold k_linear_coeff. destruct w as [|x w]; [congruence|]. split; [reflexivity|]. split; [reflexivity|].
    split; [apply repeat_length|]. intro r.
    assert (HZ : forall l : list var, dot r (repeat n0 (length l)) l = n0).
    { clear - EX. induction l as [|a l IH]; cbn; [reflexivity|]. rewrite IH. ring. }
    rewrite HZ. cbn. ring.
  - exists (map (fun x => if same_id v x then n1 else n0) w), n0. unfold var_linear_coeff. pose proof V as Hv. apply var_check_valid in Hv.
    rewrite Hv. cbn [check bind wrt_vars]. destruct w as [|x w]; [congruence|]. split; [reflexivity|]. split; [reflexivity|].
    split; [apply map_length|]. intro r. rewrite dot_point; [cbn; ring | exact HN|]. apply HC. eexists. split; [left; reflexivity | left; reflexivity].
  - unfold degree_at_most in D. inversion D as [|? ? D1 _]; subst. destruct (linear_term m V D1) as [(c & E)|(c & v & E)]; subst m.
    { exfalso. apply HK. reflexivity. }
    unfold mono_linear_coeff. rewrite (valid_mono_check _ V). cbn [check bind wrt_vars].
    assert (Hin : In (v_id v) (map v_id w)).
    { apply HC. eexists. split; [left; reflexivity | left; reflexivity]. }
    destruct (find_var_in v w Hin) as (i & Hi). pose proof (find_var_some _ _ _ Hi) as (x & Hx & Ex).
    exists (set_nth i c (repeat n0 (length w))), n0. split; [|split; [reflexivity|split]].
    + destruct w as [|y w]; [congruence|]. cbn [zeros_vector length bind]. unfold scalar_is_linear. cbn [scalar_degree].
      rewrite mono_degree_ok by (apply valid_mono_check; exact V). cbn [bind m_vars index nth_error m_coeff]. destruct (Z.leb_spec (tdeg (mkMono c [1%Z] [v])) 1); [|lia].
      rewrite Hi. reflexivity.
    + rewrite set_nth_length. apply repeat_length.
    + intro r. rewrite (set_zero_value r w i c x) by assumption. cbn [eval]. rewrite Ex.
      unfold eval_mono. cbn [m_coeff m_exps m_vars eval_factors]. change (Z.to_nat 1) with 1%nat. cbn [npow]. ring.
  - exists (map (lc p) w), (pconst p). split; [apply poly_linear_coeff_ok; assumption|].
    split; [apply poly_constant_ok, valid_poly_check; exact V|]. split; [apply map_length|]. intro r. cbn [eval]. destruct V as [V0 V].
    apply lin_poly_value; [exact V | exact D | apply collected_apart; [exact V | exact C] | exact HN|].
    intros m i Hm Hi. apply HC. exists m. auto.
Qed.

(** Constant *)
Lemma factors_zero (vs : list var) es : length es = length vs -> Forall (fun e => (1 <= e)%Z) es -> vs <> [] ->
  eval_factors (fun _ => n0) vs es = n0.
Proof.
  destruct vs as [|v vs]; [congruence|]. destruct es as [|e es]; [discriminate|]. intros _ H _. inversion H; subst. cbn.
  destruct (Z.to_nat e) as [|k] eqn:E; [lia|]. cbn. ring.
Qed.

Lemma constant_value s : valid s -> collected s -> scalar_constant s = Ok (eval (fun _ => n0) s).
Proof.
  intros V C. destruct s as [k|v|m|p]; cbn [scalar_constant eval]; try reflexivity.
  - f_equal. unfold mono_constant, eval_mono. destruct V as (V1 & V2 & _). destruct (m_vars m) as [|v vs] eqn:Ev; [cbn; ring|].
    rewrite factors_zero; [ring | exact V1 | exact V2 | discriminate].
  - rewrite poly_constant_ok by (apply valid_poly_check; exact V). f_equal. destruct V as [_ V].
    assert (A : apart p) by (apply collected_apart; [exact V | exact C]). clear C. induction p as [|m p IH]; [reflexivity|].
    inversion V as [|? ? V1 V2]; subst. inversion A as [|? ? A1 A2]; subst. specialize (IH V2 A2). cbn [eval_poly].
    unfold pconst in *. cbn [first_const]. destruct (is_const m) eqn:Ec.
    + rewrite <- IH. rewrite first_const_none; [rewrite eval_const by exact Ec; ring|]. intros a Ha. destruct (is_const a) eqn:Ea; [|reflexivity].
      exfalso. rewrite Forall_forall in A1, V2. specialize (A1 a Ha). rewrite (const_mono m V1 Ec), (const_mono a (V2 a Ha) Ea) in A1. discriminate A1.
    + rewrite <- IH. unfold eval_mono. destruct V1 as (B1 & B2 & _). rewrite factors_zero; [ring | exact B1 | exact B2|].
      unfold is_const in Ec. destruct (m_vars m); congruence.
Qed.

End LinVal.
