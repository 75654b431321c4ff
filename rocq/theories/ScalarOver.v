(** * The variables of results come from the operands; substitution with its terms *)

From Coq Require Import ZArith NArith Bool List Lia Ring Field.
From Verif Require Import Num Syntax ModelScalar Spec Base ScalarValid Eval ScalarOps ScalarMore Unamb.
Import ListNotations.
Local Open Scope num_scope.

Section Over.
Context {NN : Num}.
Ltac cb := cbn [bind check].

(** every variable in every term of [s] satisfies [P] *)
Definition over (P : var -> Prop) (s : scalar) : Prop := forall m w, In m (terms s) -> In w (m_vars m) -> P w.
Definition overl (P : var -> Prop) (L : list Monomial) : Prop := forall m w, In m L -> In w (m_vars m) -> P w.

Lemma overl_formed P L L' : overl P L -> (forall m, In m L' -> is_const m = true \/ formed L m) -> overl P L'.
Proof.
  intros H HF m w Hm Hw. destruct (HF m Hm) as [C|(m0 & H0 & [_ E])].
  - unfold is_const in C. destruct (m_vars m); [destruct Hw | discriminate].
  - rewrite E in Hw. exact (H m0 w H0 Hw).
Qed.

Lemma over_simplified P s s' : valid s -> over P s -> scalar_simplified s = Ok s' -> valid s' /\ over P s'.
Proof.
  intros V H E. rewrite scalar_simplified_ok in E by exact V. injection E as <-. split; [apply ssimplified_valid; exact V|].
  destruct (lred_simplified s V) as (_ & F & _). exact (overl_formed P _ _ H F).
Qed.

Lemma over_plus P a b s : valid a -> valid b -> over P a -> over P b -> scalar_plus a b = Ok s -> over P s.
Proof.
  intros Va Vb Ha Hb E. destruct (scalar_plus_sum a b Va Vb) as (s' & E' & _ & F & _). rewrite E in E'. injection E' as <-.
  apply (overl_formed P (terms a ++ terms b)); [|exact F]. intros m w Hm Hw. apply in_app_iff in Hm. destruct Hm; eauto.
Qed.

Definition mover (P : var -> Prop) (m : Monomial) : Prop := forall w, In w (m_vars m) -> P w.

Lemma mover_mul_k P m k q : mover P m -> mono_mul_k m k = Ok q -> mover P q.
Proof. intros H E. unfold mono_mul_k in E. destruct (mono_check m); [|discriminate]. injection E as <-. exact H. Qed.
Lemma mover_mul_var P m v q : mover P m -> P v -> mono_mul_var m v = Ok q -> mover P q.
Proof.
  intros H Hv E. unfold mono_mul_var in E. destruct (mono_check m); [|discriminate]. destruct (var_check v); [|discriminate]. cbn [bind check] in E.
  destruct (find_var v (m_vars m)); injection E as <-; [exact H|]. intros w Hw. cbn in Hw. apply in_app_iff in Hw. destruct Hw as [Hw|[<-|[]]]; auto.
Qed.
Lemma mover_mul_mono P m m' q : mover P m -> mover P m' -> mono_mul_mono m m' = Ok q -> mover P q.
Proof.
  intros H H' E. unfold mono_mul_mono in E. destruct (mono_check m); [|discriminate]. destruct (mono_check m'); [|discriminate]. cbn [bind check] in E.
  destruct (degree_loop _ _ _ _) as [d1|]; [|discriminate]. cbn [bind] in E. destruct (degree_loop _ _ _ d1) as [d2|]; [|discriminate]. injection E as <-.
  intros w Hw. cbn in Hw. apply unique_vars_incl in Hw. apply in_app_iff in Hw. destruct Hw; auto.
Qed.

Lemma over_SM P m : over P (SM m) <-> mover P m.
Proof. split; [intros H w Hw; exact (H m w (or_introl eq_refl) Hw) | intros H x w [<-|[]] Hw; exact (H w Hw)]. Qed.
Lemma over_SV P v : over P (SV v) <-> P v.
Proof. split; [intro H; exact (H (var_to_mono v) v (or_introl eq_refl) (or_introl eq_refl)) | intros H x w [<-|[]] [<-|[]]; exact H]. Qed.
Lemma over_SK P k : over P (SK k).
Proof. intros x w [<-|[]] []. Qed.

Lemma mapM_over P (f : Monomial -> res Monomial) p q :
  (forall m, In m p -> exists m', f m = Ok m' /\ valid_mono m' /\ mover P m') -> mapM f p = Ok q -> Forall valid_mono q /\ overl P q.
Proof.
  revert q. induction p as [|m p IH]; cbn; intros q H E.
  - injection E as <-. split; [constructor | intros m w []].
  - destruct (H m (or_introl eq_refl)) as (m' & E1 & V1 & O1). rewrite E1 in E. cbn [bind] in E. destruct (mapM f p) as [q'|] eqn:E2; [|discriminate]. injection E as <-.
    destruct (IH q' (fun x Hx => H x (or_intror Hx)) eq_refl) as [A B]. split; [constructor; assumption|]. intros x w [<-|Hx] Hw; [exact (O1 w Hw) | exact (B x w Hx Hw)].
Qed.

Lemma poly_scale_over P (f : Monomial -> res Monomial) p s : valid_poly p ->
  (forall m, In m p -> exists m', f m = Ok m' /\ valid_mono m' /\ mover P m') -> (q <- mapM f p ;; poly_simplified q) = Ok s -> over P s.
Proof.
  intros [V0 V] H E. destruct (mapM f p) as [q|] eqn:Eq; [|discriminate]. cbn [bind] in E. destruct (mapM_over P f p q H Eq) as [A B].
  assert (Vq : valid (SP q)). { split; [|exact A]. intros ->. destruct p as [|m p]; [congruence|]. cbn in Eq. destruct (f m); [|discriminate]. cbn [bind] in Eq. destruct (mapM f p); discriminate. }
  apply (over_simplified P (SP q) s Vq B). exact E.
Qed.

Lemma over_poly_mul_mono P p m s : valid_poly p -> valid_mono m -> overl P p -> mover P m -> poly_mul_mono p m = Ok s -> over P s.
Proof.
  intros V Vm H Hm E. unfold poly_mul_mono in E. rewrite (valid_poly_check p V), (valid_mono_check m Vm) in E. cbn [bind check] in E.
  apply (poly_scale_over P _ p s V) in E; [exact E|]. intros x Hx. pose proof V as [_ V']. rewrite Forall_forall in V'.
  destruct (mono_mul_mono_ok x m (V' x Hx) Vm) as (q & Eq & Vq & _). exists q. split; [exact Eq|]. split; [exact Vq|].
  exact (mover_mul_mono P x m q (fun w => H x w Hx) Hm Eq).
Qed.
Lemma over_poly_mul_var P p v s : valid_poly p -> valid_var v -> overl P p -> P v -> poly_mul_var p v = Ok s -> over P s.
Proof.
  intros V Vv H Hv E. unfold poly_mul_var in E. rewrite (valid_poly_check p V) in E. pose proof Vv as C. apply var_check_valid in C. rewrite C in E. cbn [bind check] in E.
  apply (poly_scale_over P _ p s V) in E; [exact E|]. intros x Hx. pose proof V as [_ V']. rewrite Forall_forall in V'.
  destruct (mono_mul_var_ok x v (V' x Hx) Vv) as (q & Eq & Vq & _). exists q. split; [exact Eq|]. split; [exact Vq|].
  exact (mover_mul_var P x v q (fun w => H x w Hx) Hv Eq).
Qed.
Lemma over_poly_mul_k P p k s : valid_poly p -> overl P p -> poly_mul_k p k = Ok s -> over P s.
Proof.
  intros V H E. unfold poly_mul_k in E. rewrite (valid_poly_check p V) in E. cbn [bind check] in E.
  apply (poly_scale_over P _ p s V) in E; [exact E|]. intros x Hx. pose proof V as [_ V']. rewrite Forall_forall in V'.
  unfold mono_mul_k. rewrite (valid_mono_check x (V' x Hx)). eexists. split; [reflexivity|]. split; [exact (V' x Hx) | exact (fun w => H x w Hx)].
Qed.

Lemma over_poly_mul_poly_loop P p q acc s : valid_poly p -> Forall valid_mono q -> valid acc -> overl P p -> overl P q -> over P acc ->
  foldM (fun acc m => t <- poly_mul_mono p m ;; scalar_plus acc t) acc q = Ok s -> valid s /\ over P s.
Proof.
  intros Vp Vq Va Hp. revert acc Va. induction q as [|m q IH]; cbn; intros acc Va Hq Ha E.
  - injection E as <-. auto.
  - inversion Vq as [|? ? Vm Vq']; subst. destruct (poly_mul_mono_spec p m Vp Vm) as (t & L & Et & Vt & _). rewrite Et in E. cbn [bind] in E.
    destruct (scalar_plus_lred acc t Va Vt) as (u & Eu & Vu & _). rewrite Eu in E. cbn [bind] in E.
    apply (IH Vq' u Vu); [intros x w Hx; apply Hq; right; exact Hx | | exact E].
    apply (over_plus P acc t u Va Vt Ha); [|exact Eu]. exact (over_poly_mul_mono P p m t Vp Vm Hp (fun w => Hq m w (or_introl eq_refl)) Et).
Qed.

Lemma over_mul P a b s : valid a -> valid b -> over P a -> over P b -> scalar_mul a b = Ok s -> over P s.
Proof.
  intros Va Vb Ha Hb E. destruct a as [k|v|m|p]; cbn [scalar_mul] in E.
  - unfold k_mul in E. rewrite (valid_check b Vb) in E. cbn [bind check] in E. destruct b as [k'|v|m|p].
    + injection E as <-. apply over_SK.
    + unfold var_mul_k in E. pose proof Vb as C. apply var_check_valid in C. rewrite C in E. cbn [bind check] in E.
      apply (over_simplified P (SM (mkMono k [1%Z] [v])) s); [apply valid_mono_var; [exact Vb | lia] | apply over_SM; intros w [<-|[]]; apply over_SV; exact Hb | exact E].
    + unfold as_SM in E. destruct (mono_mul_k m k) as [q|] eqn:Eq; [|discriminate]. injection E as <-. apply over_SM. apply (mover_mul_k P m k q); [apply over_SM; exact Hb | exact Eq].
    + exact (over_poly_mul_k P p k s Vb Hb E).
  - pose proof Va as C. apply var_check_valid in C. apply over_SV in Ha. destruct b as [k'|w|m|p]; cbn [var_mul] in E.
    + unfold var_mul_k in E. rewrite C in E. cbn [bind check] in E.
      apply (over_simplified P (SM (mkMono k' [1%Z] [v])) s); [apply valid_mono_var; [exact Va | lia] | apply over_SM; intros w [<-|[]]; exact Ha | exact E].
    + apply over_SV in Hb. pose proof Vb as Cw. apply var_check_valid in Cw. unfold var_mul_var in E. rewrite C, Cw in E. cbn [bind check] in E.
      destruct (same_id w v) eqn:S.
      * apply (over_simplified P (SM (mkMono n1 [2%Z] [v])) s); [apply valid_mono_var; [exact Va | lia] | apply over_SM; intros x [<-|[]]; exact Ha | exact E].
      * apply same_id_false in S. apply (over_simplified P (SM (mkMono n1 [1%Z; 1%Z] [v; w])) s); [| apply over_SM; intros x [<-|[<-|[]]]; assumption | exact E].
        split; [reflexivity|]. cbn. split; [repeat constructor; lia|]. split; [constructor; [intros [H|[]]; congruence|]; constructor; [intros [] | constructor]|].
        constructor; [exact Va|]. constructor; [exact Vb | constructor].
    + unfold var_mul_mono in E. rewrite C, (valid_mono_check m Vb) in E. cbn [bind check] in E. destruct (mono_mul_var_ok m v Vb Va) as (q & Eq & Vq & _). rewrite Eq in E. cbn [bind] in E.
      apply (over_simplified P (SM q) s Vq); [|exact E]. apply over_SM. apply (mover_mul_var P m v q); [apply over_SM; exact Hb | exact Ha | exact Eq].
    + unfold var_mul_poly in E. rewrite C, (valid_poly_check p Vb) in E. cbn [bind check] in E. destruct (poly_mul_var_spec p v Vb Va) as (t & L & Et & Vt & _). rewrite Et in E. cbn [bind] in E.
      apply (over_simplified P t s Vt); [exact (over_poly_mul_var P p v t Vb Va Hb Ha Et) | exact E].
  - apply over_SM in Ha. destruct b as [k'|w|m'|p]; cbn [mono_mul] in E.
    + unfold as_SM in E. destruct (mono_mul_k m k') as [q|] eqn:Eq; [|discriminate]. injection E as <-. apply over_SM. exact (mover_mul_k P m k' q Ha Eq).
    + unfold as_SM in E. destruct (mono_mul_var m w) as [q|] eqn:Eq; [|discriminate]. injection E as <-. apply over_SM. apply over_SV in Hb. exact (mover_mul_var P m w q Ha Hb Eq).
    + unfold as_SM in E. destruct (mono_mul_mono m m') as [q|] eqn:Eq; [|discriminate]. injection E as <-. apply over_SM. apply over_SM in Hb. exact (mover_mul_mono P m m' q Ha Hb Eq).
    + unfold mono_mul_poly in E. rewrite (valid_mono_check m Va), (valid_poly_check p Vb) in E. cbn [bind check] in E. exact (over_poly_mul_mono P p m s Vb Va Hb Ha E).
  - destruct b as [k'|w|m'|q]; cbn [poly_mul] in E.
    + exact (over_poly_mul_k P p k' s Va Ha E).
    + apply over_SV in Hb. exact (over_poly_mul_var P p w s Va Vb Ha Hb E).
    + apply over_SM in Hb. exact (over_poly_mul_mono P p m' s Va Vb Ha Hb E).
    + unfold poly_mul_poly in E. rewrite (valid_poly_check p Va), (valid_poly_check q Vb) in E. cbn [bind check] in E.
      destruct (foldM _ _ q) as [t|] eqn:Et; [|discriminate]. cbn [bind] in E.
      destruct (over_poly_mul_poly_loop P p q (SK n0) t Va (proj2 Vb) I Ha Hb (over_SK P n0) Et) as [Vt Ot].
      apply (over_simplified P t s Vt Ot E).
Qed.

Lemma over_power_loop P base n result s : valid base -> valid result -> over P base -> over P result -> power_loop base n result = Ok s -> over P s.
Proof.
  intros Vb Vr Hb. revert result Vr. induction n as [|n IH]; cbn; intros result Vr Hr E.
  - injection E as <-. exact Hr.
  - destruct (scalar_mul_spec result base Vr Vb) as (t & L & Et & Vt & _). rewrite Et in E. cbn [bind] in E.
    apply (IH t Vt); [exact (over_mul P result base t Vr Vb Hr Hb Et) | exact E].
Qed.

Lemma over_power P a n s : valid a -> over P a -> scalar_power a n = Ok s -> over P s.
Proof.
  intros V H E. unfold scalar_power in E. destruct (scalar_check a); [|discriminate]. destruct (Z.leb 0 n); [|discriminate]. cbn [bind check] in E.
  exact (over_power_loop P a (Z.to_nat n) (SK n1) s V I H (over_SK P n1) E).
Qed.

Lemma over_subst_loop P sub image vs es prod s :
  (forall v, In v vs -> sub v = Ok (image v) /\ valid (image v) /\ over P (image v)) ->
  Forall (fun e => (0 <= e)%Z) es -> valid prod -> over P prod -> subst_loop sub vs es prod = Ok s -> over P s.
Proof.
  revert es prod. induction vs as [|v vs IH]; intros es prod Hs He Vp Hp E; cbn [subst_loop] in E.
  - injection E as <-. exact Hp.
  - destruct es as [|e es]; [discriminate|]. inversion He as [|? ? He1 He2]; subst. destruct (Hs v (or_introl eq_refl)) as (Ei & Vi & Oi). rewrite Ei in E. cbn [bind] in E.
    destruct (scalar_power_ok (image v) e Vi He1) as (pw & Epw & Vpw & _). rewrite Epw in E. cbn [bind] in E.
    destruct (scalar_mul_spec prod pw Vp Vpw) as (t & L & Et & Vt & _). rewrite Et in E. cbn [bind] in E.
    apply (IH es t); [intros w Hw; apply Hs; right; exact Hw | exact He2 | exact Vt | | exact E].
    exact (over_mul P prod pw t Vp Vpw Hp (over_power P (image v) e pw Vi Oi Epw) Et).
Qed.

Lemma over_mono_substitute P m x e s : valid_mono m -> valid_var x -> valid e -> mover P m -> over P e -> mono_substitute m x e = Ok s -> over P s.
Proof.
  intros V Vx Ve Hm He E. unfold mono_substitute in E. rewrite (valid_mono_check m V), (valid_check e Ve) in E. pose proof Vx as C. apply var_check_valid in C. rewrite C in E. cbn [bind check] in E.
  destruct (find_var x (m_vars m)); [|injection E as <-; apply over_SM; exact Hm]. destruct V as (A1 & A2 & _ & A4). rewrite Forall_forall in A4.
  apply (over_subst_loop P (fun v => var_substitute v x e) (sub_image x e) (m_vars m) (m_exps m) (SK (m_coeff m)) s); [| |exact I | apply over_SK | exact E].
  - intros w Hw. destruct (var_substitute_ok w x e (A4 w Hw) Vx Ve) as [B1 B2]. split; [exact B1|]. split; [exact B2|]. unfold sub_image. destruct (_ && _); [exact He | apply over_SV; exact (Hm w Hw)].
  - eapply Forall_impl; [|exact A2]. intros; cbn in *; lia.
Qed.

Lemma over_substitute P s x e s' : valid s -> valid_var x -> valid e -> over P s -> over P e -> scalar_substitute s x e = Ok s' -> over P s'.
Proof.
  intros V Vx Ve Hs He E. destruct s as [k|v|m|p]; cbn [scalar_substitute] in E.
  - injection E as <-. exact Hs.
  - destruct (var_substitute_ok v x e V Vx Ve) as [B _]. rewrite B in E. injection E as <-. unfold sub_image. destruct (_ && _); assumption.
  - apply over_SM in Hs. exact (over_mono_substitute P m x e s' V Vx Ve Hs He E).
  - unfold poly_substitute in E. rewrite (valid_poly_check p V), (valid_check e Ve) in E. pose proof Vx as C. apply var_check_valid in C. rewrite C in E. cbn [bind check] in E.
    destruct (foldM _ _ p) as [t|] eqn:Et; [|discriminate]. cbn [bind] in E.
    assert (G : forall q acc t, (forall m, In m q -> In m p) -> valid acc -> over P acc -> foldM (fun acc m => t <- mono_substitute m x e ;; scalar_plus acc t) acc q = Ok t -> valid t /\ over P t).
    { clear - V Vx Ve Hs He. induction q as [|m q IH]; cbn; intros acc t Hq Va Ha E; [injection E as <-; auto|].
      pose proof V as [_ V']. rewrite Forall_forall in V'. assert (Hm : In m p) by (apply Hq; left; reflexivity).
      destruct (mono_substitute_valid m x e (V' m Hm) Vx Ve) as (u & Eu & Vu). rewrite Eu in E. cbn [bind] in E.
      destruct (scalar_plus_lred acc u Va Vu) as (z & Ez & Vz & _). rewrite Ez in E. cbn [bind] in E.
      apply (IH z t); [intros y Hy; apply Hq; right; exact Hy | exact Vz | | exact E].
      apply (over_plus P acc u z Va Vu Ha); [|exact Ez]. exact (over_mono_substitute P m x e u (V' m Hm) Vx Ve (fun w => Hs m w Hm) He Eu). }
    destruct (G p (SK n0) t (fun m H => H) I (over_SK P n0) Et) as [Vt Ot]. apply (over_simplified P t s' Vt Ot E).
Qed.

(** ** Substitute, with the terms of the result *)
Lemma scalar_substitute_within s vIn e : ExactNum NN -> valid s -> valid_var vIn -> valid e ->
  (forall m w, In m (terms s) -> In w (m_vars m) -> v_id w = v_id vIn -> v_env w = v_env vIn) ->
  unambiguous_exponents (substituted_terms (sub_image vIn e) s) ->
  exists s', scalar_substitute s vIn e = Ok s' /\ valid s' /\ within (substituted_terms (sub_image vIn e) s) (terms s')
    /\ forall r, eval r s' = eval (update r (v_id vIn) (eval r e)) s.
Proof.
  intros EX V V2 V3 HE HU. destruct (scalar_substitute_value s vIn e EX V V2 V3 HE HU) as (s' & E & V' & X). exists s'. split; [exact E|]. split; [exact V'|]. split; [|exact X].
  clear X. destruct s as [k|v|m|p]; cbn [scalar_substitute] in E.
  - injection E as <-. intros x [<-|[]]. exists (fun _ => 0%Z). split; [|reflexivity]. exists (k_to_mono k). split; [left; reflexivity|]. intro; reflexivity.
  - destruct (var_substitute_ok v vIn e V V2 V3) as [B _]. rewrite B in E. injection E as <-.
    intros x Hx. exists (exponent x). split; [|reflexivity]. exists (var_to_mono v). split; [left; reflexivity|]. exists [x], (fun _ => 0%Z).
    split; [|split; [intro; reflexivity | intro i; cbn; lia]]. split; [intros y [<-|[]]; exact Hx|]. split; [cbn; lia|].
    destruct (sub_image vIn e v) eqn:Es; auto; cbn [Z.to_nat Pos.to_nat Pos.iter_op length]; left; cbn; reflexivity.
  - destruct (mono_substitute_value m vIn e EX V V2 V3) as (t & Et & _ & Wt & _); [intros w Hw; apply (HE m w); [left; reflexivity | exact Hw]|].
    rewrite E in Et. injection Et as <-. eapply within_incl; [|exact Wt]. intros f Hf. exists m. split; [left; reflexivity | exact Hf].
  - unfold poly_substitute in E. rewrite (valid_poly_check p V) in E. pose proof V2 as H2. apply var_check_valid in H2. rewrite H2, (valid_check e V3) in E. cbn [bind check] in E.
    assert (HZ : has_zero (substituted_terms (sub_image vIn e) (SP p))).
    { destruct V as [V0 _]. destruct p as [|m p]; [congruence|]. destruct (image_terms_zero (sub_image vIn e) (m_vars m) (m_exps m)) as (z & Hz & Ez). exists z. split; [|exact Ez].
      exists m. split; [left; reflexivity | exact Hz]. }
    destruct (subst_fold_value (fun m => mono_substitute m vIn e) (fun r m => eval_mono (update r (v_id vIn) (eval r e)) m)
      (substituted_terms (sub_image vIn e) (SP p)) p (SK n0) EX HZ HU) as (t & Et & Vt & Wt & _).
    + intros m Hm. destruct V as [_ V]. rewrite Forall_forall in V.
      destruct (mono_substitute_value m vIn e EX (V m Hm) V2 V3) as (t & Et & Vt & Wt & Xt); [intros w Hw; apply (HE m w); [exact Hm | exact Hw]|].
      assert (HS : forall f, image_terms (sub_image vIn e) (m_vars m) (m_exps m) f -> substituted_terms (sub_image vIn e) (SP p) f) by (intros f Hf; exists m; split; [exact Hm | exact Hf]).
      exists t. split; [exact Et|]. split; [exact Vt|]. split; [eapply within_incl; [exact HS | exact Wt]|]. apply Xt. eapply unambiguous_sub; [exact HS | exact HU].
    + exact I.
    + intros x [<-|[]]. destruct HZ as (z & Hz & Ez). exists z. split; [exact Hz|]. intro i. rewrite Ez. reflexivity.
    + rewrite Et in E. cbn [bind] in E. rewrite scalar_simplified_ok in E by exact Vt. injection E as <-. destruct (lred_simplified t Vt) as (_ & F & _).
      exact (within_forms _ _ _ HZ Wt F).
Qed.

End Over.
