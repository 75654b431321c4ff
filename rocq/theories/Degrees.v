(** * Degrees of derivatives, of substitutions and of whole programs *)

From Coq Require Import ZArith NArith Bool List Lia.
From Verif Require Import Num Syntax ModelScalar Spec SpecProg Base ScalarValid Eval ScalarOps ScalarMore ScalarNorm Unamb ScalarLin Deriv ScalarFacts Programs.
Import ListNotations.
Local Open Scope Z_scope.

Section Degrees.
Context {NN : Num}.
Ltac cb := cbn [bind check].

Lemma degree_le d d' x : d <= d' -> degree_at_most d x -> degree_at_most d' x.
Proof. intros Hd H. eapply Forall_impl; [|exact H]. cbn. intros; lia. Qed.

Lemma sum_exps_app l1 l2 : fold_right Z.add 0 (l1 ++ l2) = fold_right Z.add 0 l1 + fold_right Z.add 0 l2.
Proof. induction l1 as [|a l IH]; cbn [app fold_right]; [reflexivity|]. rewrite IH. lia. Qed.

(** ** DerivativeWrt *)
Lemma mono_der_degree m v d : valid_mono m -> mono_der m v d -> degree_at_most (Z.max 0 (tdeg m - 1)) d.
Proof.
  intros V H. destruct H as [Ha|w H1 H2 H3|l1 w l2 e1 e2 H1 H2 H3 H4 H5|l1 w l2 e1 e e2 H1 H2 H3 H4 H5]; unfold degree_at_most; cbn [terms].
  - constructor; [cbn; lia | constructor].
  - constructor; [cbn; lia | constructor].
  - constructor; [|constructor]. unfold tdeg. cbn [m_exps]. rewrite H2, !sum_exps_app. cbn [fold_right]. lia.
  - constructor; [|constructor]. unfold tdeg. cbn [m_exps]. rewrite H2, !sum_exps_app. cbn [fold_right]. lia.
Qed.

Lemma derivative_loop_degree p v g q : Forall valid_mono p -> valid_var v -> Forall (fun m => tdeg m <= g) p -> derivative_loop p v = Ok q ->
  Forall (fun m => tdeg m <= Z.max 0 (g - 1)) q.
Proof.
  intros V Vv. revert q. induction p as [|m p IH]; intros q D; cbn [derivative_loop]; [intros [= <-]; constructor|].
  inversion V as [|? ? V1 V2]; subst. inversion D as [|? ? D1 D2]; subst. rewrite mono_is_constant_ok by (apply valid_mono_check; exact V1). cb.
  destruct (is_const m); [apply IH; assumption|]. destruct (mono_derivative_ok m v V1 Vv) as (d & -> & Hd). cb.
  pose proof (mono_der_degree m v d V1 Hd) as Gd. destruct d as [k|w|dm|dp]; try discriminate.
  - destruct (neqb k n0); [apply IH; assumption|]. destruct (derivative_loop p v) as [r|]; cb; [|discriminate]. intros [= <-]. constructor; [cbn; lia | apply IH; auto].
  - destruct (derivative_loop p v) as [r|]; cb; [|discriminate]. intros [= <-]. unfold degree_at_most in Gd. inversion Gd as [|? ? G1 _]; subst. constructor; [lia | apply IH; auto].
Qed.

Lemma derivative_degree s v d g : valid s -> valid_var v -> scalar_derivative s v = Ok d -> degree_at_most g s -> degree_at_most (Z.max 0 (g - 1)) d.
Proof.
  intros V Vv E D. assert (Z0 : forall k, degree_at_most (Z.max 0 (g - 1)) (SK k)) by (intro k; constructor; [cbn; lia | constructor]).
  destruct s as [k|w|m|p]; cbn [scalar_derivative] in E.
  - injection E as <-. apply Z0.
  - unfold var_derivative in E. destruct (check (var_check w) PCheck); cbn [bind] in E; [|discriminate]. destruct (check (var_check v) PCheck); cbn [bind] in E; [|discriminate].
    injection E as <-. apply Z0.
  - destruct (mono_derivative_ok m v V Vv) as (d' & E' & Hd). rewrite E in E'. injection E' as <-. eapply degree_le; [|eapply mono_der_degree; eassumption].
    unfold degree_at_most in D. inversion D as [|? ? D1 _]; subst. lia.
  - unfold poly_derivative in E. destruct (check (poly_check p) PCheck); cbn [bind] in E; [|discriminate]. destruct (check (var_check v) PCheck); cbn [bind] in E; [|discriminate].
    destruct (derivative_loop p v) as [q|] eqn:Eq; cbn [bind] in E; [|discriminate]. injection E as <-.
    pose proof (derivative_loop_degree p v g q (proj2 V) Vv D Eq) as Dq. destruct q; [apply Z0 | exact Dq].
Qed.

Lemma derivative_degree_law s v d g : valid s -> valid_var v -> scalar_derivative s v = Ok d -> scalar_degree s = Ok g ->
  exists g', scalar_degree d = Ok g' /\ g' <= Z.max 0 (g - 1).
Proof.
  intros V Vv E Eg. destruct (scalar_derivative_valid s v V Vv) as (d' & E' & Vd). rewrite E in E'. injection E' as <-.
  destruct (scalar_degree_ok d Vd) as (g' & Eg' & _). exists g'. split; [exact Eg'|]. apply (scalar_degree_le d g' _ Vd Eg').
  apply (derivative_degree s v d g V Vv E). apply (scalar_degree_le s g g V Eg). lia.
Qed.

(** ** Substitute *)
Lemma subst_loop_degree sub image D vs es prod g s : 0 <= D ->
  (forall v, In v vs -> sub v = Ok (image v) /\ valid (image v) /\ degree_at_most D (image v)) ->
  length es = length vs -> Forall (fun e => 1 <= e) es -> valid prod -> degree_at_most g prod -> subst_loop sub vs es prod = Ok s ->
  degree_at_most (g + fold_right Z.add 0 es * D) s.
Proof.
  intro HD. revert es prod g s. induction vs as [|v vs IH]; intros es prod g s Hs Hl He Vp Gp; cbn [subst_loop].
  - intros [= <-]. destruct es; [|discriminate]. cbn [fold_right]. eapply degree_le; [|exact Gp]. lia.
  - destruct es as [|e es]; [discriminate|]. inversion He as [|? ? He1 He2]; subst. destruct (Hs v (or_introl eq_refl)) as (-> & Vi & Di). cb.
    destruct (scalar_power_ok (image v) e Vi ltac:(lia)) as (pw & Ep & Vpw & _). rewrite Ep. cb.
    pose proof (power_degree (image v) e pw D Vi ltac:(lia) Ep Di) as Dp.
    destruct (scalar_mul_value prod pw Vp Vpw) as (t & Et & Vt & _). rewrite Et. cb. intro E.
    eapply degree_le; [|eapply (IH es t (g + e * D) s); [intros w Hw; apply Hs; right; exact Hw | cbn in Hl; lia | exact He2 | exact Vt | exact (mul_degree prod pw t _ _ Vp Vpw Et Gp Dp) | exact E]].
    cbn [fold_right]. lia.
Qed.

Lemma sub_image_degree v e w D : degree_at_most D e -> degree_at_most (Z.max 1 D) (sub_image v e w).
Proof. intro H. unfold sub_image. destruct (same_id w v && env_eqb (v_env w) (v_env v)); [eapply degree_le; [|exact H]; lia | constructor; [cbn; lia | constructor]]. Qed.

Lemma mono_substitute_degree m v e D s : valid_mono m -> valid_var v -> valid e -> degree_at_most D e -> mono_substitute m v e = Ok s ->
  degree_at_most (tdeg m * Z.max 1 D) s.
Proof.
  intros Vm Vv Ve De. unfold mono_substitute. pose proof (tdeg_nonneg m Vm) as T.
  destruct (check (mono_check m) PCheck); cb; [|discriminate]. destruct (check (var_check v) PCheck); cb; [|discriminate]. destruct (check (scalar_check e) PCheck); cb; [|discriminate].
  destruct (find_var v (m_vars m)).
  - pose proof Vm as (V1 & V2 & _ & V4). intro E. change (tdeg m) with (0 + fold_right Z.add 0 (m_exps m)).
    eapply degree_le; [|eapply (subst_loop_degree _ (sub_image v e) (Z.max 1 D) (m_vars m) (m_exps m) (SK (m_coeff m)) 0 s)]; try eassumption.
    + lia.
    + lia.
    + intros w Hw. rewrite Forall_forall in V4. destruct (var_substitute_ok w v e (V4 w Hw) Vv Ve) as [X1 X2]. split; [exact X1|]. split; [exact X2 | apply sub_image_degree; exact De].
    + exact I.
    + constructor; [cbn; lia | constructor].
  - intros [= <-]. constructor; [nia | constructor].
Qed.

Lemma substitute_degree s v e t g D : valid s -> valid_var v -> valid e -> scalar_substitute s v e = Ok t -> degree_at_most g s -> degree_at_most D e ->
  degree_at_most (g * Z.max 1 D) t.
Proof.
  intros V Vv Ve E Gs De. pose proof (degree_nonneg s g V Gs) as Hg. destruct s as [k|w|m|p]; cbn [scalar_substitute] in E.
  - injection E as <-. constructor; [cbn; nia | constructor].
  - rewrite (proj1 (var_substitute_ok w v e V Vv Ve)) in E. injection E as <-. unfold degree_at_most in Gs. inversion Gs as [|? ? G1 _]; subst. cbn in G1.
    eapply degree_le; [|apply sub_image_degree; exact De]. nia.
  - unfold degree_at_most in Gs. inversion Gs as [|? ? G1 _]; subst. eapply degree_le; [|eapply mono_substitute_degree; eassumption]. nia.
  - unfold poly_substitute in E. destruct (check (poly_check p) PCheck); cbn [bind] in E; [|discriminate]. destruct (check (var_check v) PCheck); cbn [bind] in E; [|discriminate].
    destruct (check (scalar_check e) PCheck); cbn [bind] in E; [|discriminate].
    assert (F : forall q acc o, Forall valid_mono q -> Forall (fun m => tdeg m <= g) q -> valid acc -> degree_at_most (g * Z.max 1 D) acc ->
      foldM (fun acc m => t <- mono_substitute m v e ;; scalar_plus acc t) acc q = Ok o -> valid o /\ degree_at_most (g * Z.max 1 D) o).
    { induction q as [|m q IH]; intros acc o Vq Gq Va Ga; cbn [foldM]; [intros [= <-]; auto|]. inversion Vq as [|? ? Q1 Q2]; subst. inversion Gq as [|? ? Q3 Q4]; subst.
      destruct (scalar_substitute_valid (SM m) v e Q1 Vv Ve) as (x & Ex & Vx). cbn [scalar_substitute] in Ex. rewrite Ex. cb.
      assert (Dx : degree_at_most (g * Z.max 1 D) x) by (eapply degree_le; [|eapply (mono_substitute_degree m v e D x); eassumption]; nia).
      pose proof (scalar_plus_sum acc x Va Vx) as HS. destruct (sum_degree acc x _ _ _ Va Vx HS Ga Dx) as (y & Ey & Dy).
      destruct HS as (y' & Ey' & Vy & _). rewrite Ey in Ey'. injection Ey' as <-. rewrite Ey. cb. apply IH; assumption. }
    destruct (foldM _ (SK n0) p) as [o|] eqn:Eo; cbn [bind] in E; [|discriminate].
    destruct (F p (SK n0) o (proj2 V) Gs I) as [Vo Do]; [constructor; [cbn; nia | constructor] | exact Eo |].
    rewrite (scalar_simplified_ok o Vo) in E. injection E as <-. pose proof (ssimplified_valid o Vo) as Vs. destruct (lred_simplified o Vo) as (_ & HF & _).
    apply Forall_forall. intros m Hm. pose proof (valid_terms _ Vs) as HV. rewrite Forall_forall in HV.
    destruct (HF m Hm) as [C|C]; [rewrite const_tdeg; auto; nia|]. apply formed_tdeg in C. destruct C as (m0 & H1 & ->). unfold degree_at_most in Do. rewrite Forall_forall in Do. auto.
Qed.

Lemma substitute_degree_law s v e t g D : valid s -> valid_var v -> valid e -> scalar_substitute s v e = Ok t -> scalar_degree s = Ok g -> scalar_degree e = Ok D ->
  exists g', scalar_degree t = Ok g' /\ g' <= g * Z.max 1 D.
Proof.
  intros V Vv Ve E Eg Ed. destruct (scalar_substitute_valid s v e V Vv Ve) as (t' & E' & Vt). rewrite E in E'. injection E' as <-.
  destruct (scalar_degree_ok t Vt) as (g' & Eg' & _). exists g'. split; [exact Eg'|]. apply (scalar_degree_le t g' _ Vt Eg').
  apply (substitute_degree s v e t g D V Vv Ve E); [apply (scalar_degree_le s g g V Eg) | apply (scalar_degree_le e D D Ve Ed)]; lia.
Qed.

Lemma simplified_degree x s d : valid x -> scalar_simplified x = Ok s -> degree_at_most d x -> degree_at_most d s.
Proof.
  intros Vx E D. rewrite (scalar_simplified_ok x Vx) in E. injection E as <-. pose proof (ssimplified_valid x Vx) as Vs. destruct (lred_simplified x Vx) as (_ & HF & _).
  apply Forall_forall. intros m Hm. pose proof (degree_nonneg x _ Vx D). pose proof (valid_terms _ Vs) as HV. rewrite Forall_forall in HV.
  destruct (HF m Hm) as [C|C]; [rewrite const_tdeg; auto|]. apply formed_tdeg in C. destruct C as (m0 & H1 & ->). unfold degree_at_most in D. rewrite Forall_forall in D. auto.
Qed.

(** ** Programs *)
Lemma run_degree p : well_formed p -> exists s, run p = Ok s /\ valid s /\ degree_at_most (text_degree p) s.
Proof.
  induction p as [k|v|a IHa b IHb|a IHa b IHb|a IHa b IHb|a IHa n|a IHa|a IHa v|a IHa v e IHe]; cbn [well_formed run text_degree]; intro W.
  - exists (SK k). split; [reflexivity|]. split; [exact I|]. constructor; [cbn; lia | constructor].
  - exists (SV v). split; [reflexivity|]. split; [exact W|]. constructor; [cbn; lia | constructor].
  - destruct W as [W1 W2]. destruct (IHa W1) as (x & -> & Vx & Dx). destruct (IHb W2) as (y & -> & Vy & Dy). cb.
    apply (degree_le _ (Z.max (text_degree a) (text_degree b))) in Dx; [|lia]. apply (degree_le _ (Z.max (text_degree a) (text_degree b))) in Dy; [|lia].
    pose proof (scalar_plus_sum x y Vx Vy) as HS. destruct (sum_degree x y _ _ _ Vx Vy HS Dx Dy) as (s & Es & Ds). destruct HS as (s' & E' & V & _). rewrite Es in E'. injection E' as <-. exists s; auto.
  - destruct W as [W1 W2]. destruct (IHa W1) as (x & -> & Vx & Dx). destruct (IHb W2) as (y & -> & Vy & Dy). cb.
    apply (degree_le _ (Z.max (text_degree a) (text_degree b))) in Dx; [|lia]. apply (degree_le _ (Z.max (text_degree a) (text_degree b))) in Dy; [|lia].
    pose proof (scalar_minus_sum x y Vx Vy) as HS. destruct (sum_degree x y _ _ _ Vx Vy HS Dx Dy) as (s & Es & Ds). destruct HS as (s' & E' & V & _). rewrite Es in E'. injection E' as <-. exists s; auto.
  - destruct W as [W1 W2]. destruct (IHa W1) as (x & -> & Vx & Dx). destruct (IHb W2) as (y & -> & Vy & Dy). cb.
    destruct (scalar_mul_value x y Vx Vy) as (s & E & V & _). exists s. split; [exact E|]. split; [exact V|]. exact (mul_degree x y s _ _ Vx Vy E Dx Dy).
  - destruct W as [W1 W2]. destruct (IHa W1) as (x & -> & Vx & Dx). cb. destruct (scalar_power_ok x n Vx W2) as (s & E & V & _). exists s. split; [exact E|]. split; [exact V|].
    exact (power_degree x n s _ Vx W2 E Dx).
  - destruct (IHa W) as (x & -> & Vx & Dx). cb. destruct (simplified_normal x Vx) as (s & E & V & _). exists s. split; [exact E|]. split; [exact V|]. exact (simplified_degree x s _ Vx E Dx).
  - destruct W as [W1 W2]. destruct (IHa W1) as (x & -> & Vx & Dx). cb. destruct (scalar_derivative_valid x v Vx W2) as (s & E & V). exists s. split; [exact E|]. split; [exact V|].
    pose proof (degree_nonneg x _ Vx Dx). eapply degree_le; [|apply (derivative_degree x v s _ Vx W2 E Dx)]. lia.
  - destruct W as (W1 & W2 & W3). destruct (IHa W1) as (x & -> & Vx & Dx). destruct (IHe W3) as (y & -> & Vy & Dy). cb.
    destruct (scalar_substitute_valid x v y Vx W2 Vy) as (s & E & V). exists s. split; [exact E|]. split; [exact V|]. exact (substitute_degree x v y s _ _ Vx W2 Vy E Dx Dy).
Qed.

Lemma run_degree_law p : well_formed p -> exists s d, run p = Ok s /\ scalar_degree s = Ok d /\ 0 <= d <= text_degree p.
Proof.
  intro W. destruct (run_degree p W) as (s & E & V & D). destruct (scalar_degree_ok s V) as (d & Ed & H1 & (m & H2 & H3)). exists s, d. split; [exact E|]. split; [exact Ed|].
  split; [|apply (scalar_degree_le s d _ V Ed); exact D]. subst d. apply tdeg_nonneg. pose proof (valid_terms s V) as HV. rewrite Forall_forall in HV. auto.
Qed.

End Degrees.
