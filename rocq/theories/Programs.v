(** * Running programs on the model *)

From Coq Require Import ZArith NArith Bool List Lia Ring_theory.
From Verif Require Import Num Syntax ModelScalar Spec SpecProg Base ScalarValid Eval ScalarOps ScalarMore ScalarNorm Unamb ScalarLin Deriv.
Import ListNotations.
Local Open Scope num_scope.

Section Programs.
Context {NN : Num}.
Ltac cb := cbn [bind check].
Ltac dbind H := match type of H with bind ?x _ = Ok _ => destruct x eqn:?; cbn [bind] in H; [|discriminate H] end.

(** the method calls of a program, in order *)
Fixpoint run (p : prog) : res scalar :=
  match p with
  | PConst k => Ok (SK k)
  | PVar v => Ok (SV v)
  | PPlus a b => x <- run a ;; y <- run b ;; scalar_plus x y
  | PMinus a b => x <- run a ;; y <- run b ;; scalar_minus x y
  | PMul a b => x <- run a ;; y <- run b ;; scalar_mul x y
  | PPow a n => x <- run a ;; scalar_power x n
  | PSimplify a => x <- run a ;; scalar_simplified x
  | PDeriv a v => x <- run a ;; scalar_derivative x v
  | PSubst a v e => x <- run a ;; y <- run e ;; scalar_substitute x v y
  end.

Lemma run_valid p : well_formed p -> exists s, run p = Ok s /\ valid s.
Proof.
  induction p as [k|v|a IHa b IHb|a IHa b IHb|a IHa b IHb|a IHa n|a IHa|a IHa v|a IHa v e IHe]; cbn [well_formed run]; intro W.
  - exists (SK k). split; [reflexivity | exact I].
  - exists (SV v). split; [reflexivity | exact W].
  - destruct W as [W1 W2]. destruct (IHa W1) as (x & -> & Vx). destruct (IHb W2) as (y & -> & Vy). cb.
    destruct (scalar_plus_sum x y Vx Vy) as (s & -> & V & _). eauto.
  - destruct W as [W1 W2]. destruct (IHa W1) as (x & -> & Vx). destruct (IHb W2) as (y & -> & Vy). cb.
    destruct (scalar_minus_sum x y Vx Vy) as (s & -> & V & _). eauto.
  - destruct W as [W1 W2]. destruct (IHa W1) as (x & -> & Vx). destruct (IHb W2) as (y & -> & Vy). cb.
    destruct (scalar_mul_value x y Vx Vy) as (s & -> & V & _). eauto.
  - destruct W as [W1 W2]. destruct (IHa W1) as (x & -> & Vx). cb. destruct (scalar_power_ok x n Vx W2) as (s & -> & V & _). eauto.
  - destruct (IHa W) as (x & -> & Vx). cb. destruct (simplified_normal x Vx) as (s & -> & V & _). eauto.
  - destruct W as [W1 W2]. destruct (IHa W1) as (x & -> & Vx). cb. apply scalar_derivative_valid; assumption.
  - destruct W as (W1 & W2 & W3). destruct (IHa W1) as (x & -> & Vx). destruct (IHe W3) as (y & -> & Vy). cb.
    apply scalar_substitute_valid; assumption.
Qed.

(** ** no constant monomials are ever produced *)
Definition proper (s : scalar) : Prop := match s with SM m => m_vars m <> [] | _ => True end.

Lemma mono_simplified_proper q s : mono_simplified q = Ok s -> proper s.
Proof.
  unfold mono_simplified, mono_is_constant. destruct (mono_check q); cb; [|discriminate].
  destruct (m_vars q) as [|v vs] eqn:E; [intros [= <-]; exact I|]. destruct (m_coeff q =? n0); [intros [= <-]; exact I|].
  destruct (index (m_exps q) 0); cb; [|discriminate]. cbn [index nth_error]. cb.
  destruct (_ && _); [intros [= <-]; exact I|]. destruct (forallb _ _); intros [= <-]; cbn; [exact I|]. rewrite E. discriminate.
Qed.

Lemma poly_simplified_proper q s : poly_simplified q = Ok s -> proper s.
Proof.
  unfold poly_simplified. destruct (poly_check q) eqn:E.
  2:{ unfold poly_simplify. rewrite E. discriminate. }
  rewrite (poly_simplify_ok q E). cb. unfold poly_degree. destruct (poly_check (psimp q)) eqn:Ec; cb; [|discriminate].
  pose proof (poly_degree_ok (psimp q) Ec) as Hd. unfold poly_degree in Hd. rewrite Ec in Hd. cbn [check bind] in Hd. rewrite Hd. cb.
  destruct (Z.eqb_spec (pdeg (psimp q)) 0) as [E0|E0].
  - destruct (poly_constant (psimp q)); cb; [|discriminate]. intros [= <-]. exact I.
  - match goal with |- (bind ?x _ = _ -> _) => destruct x as [[v|]|]; cb; [| |discriminate] end.
    + intros [= <-]. exact I.
    + destruct (psimp q) as [|m [|m2 l]]; intros [= <-]; try exact I. cbn. intro C. apply E0.
      apply poly_check_iff in Ec. destruct Ec as [_ Ec]. inversion Ec as [|? ? Em _]; subst. apply mono_check_iff in Em. rewrite C in Em.
      destruct m as [c es vs]. cbn in *. destruct es; [|discriminate]. reflexivity.
Qed.

Lemma scalar_simplified_proper q s : scalar_simplified q = Ok s -> proper s.
Proof. destruct q; cbn; [intros [= <-]; exact I | intros [= <-]; exact I | apply mono_simplified_proper | apply poly_simplified_proper]. Qed.

Lemma scalar_mul_proper a b s : proper a -> proper b -> scalar_mul a b = Ok s -> proper s.
Proof.
  intros Pa Pb H.
  assert (HPK : forall p k, poly_mul_k p k = Ok s -> proper s).
  { intros p k Hx. unfold poly_mul_k in Hx. dbind Hx. dbind Hx. eapply poly_simplified_proper; exact Hx. }
  assert (HPM : forall p k, poly_mul_mono p k = Ok s -> proper s).
  { intros p k Hx. unfold poly_mul_mono in Hx. dbind Hx. dbind Hx. dbind Hx. eapply poly_simplified_proper; exact Hx. }
  assert (HMK : forall m k, m_vars m <> [] -> as_SM (mono_mul_k m k) = Ok s -> proper s).
  { intros m k Hm Hx. unfold as_SM, mono_mul_k in Hx. destruct (mono_check m); [|discriminate]. cbn in Hx. injection Hx as <-. exact Hm. }
  destruct a as [k|v|m|p], b as [k'|v'|m'|p']; cbn [scalar_mul k_mul var_mul mono_mul poly_mul scalar_check] in H;
    unfold k_mul in H; cbn [scalar_check] in H; try (eapply HPK; exact H); try (eapply HPM; exact H).
  - injection H as <-. exact I.
  - dbind H. unfold var_mul_k in H. dbind H. eapply mono_simplified_proper; exact H.
  - dbind H. eapply HMK; [exact Pb | exact H].
  - dbind H. eapply HPK; exact H.
  - unfold var_mul_k in H. dbind H. eapply mono_simplified_proper; exact H.
  - unfold var_mul_var in H. dbind H. dbind H. eapply mono_simplified_proper; exact H.
  - unfold var_mul_mono in H. dbind H. dbind H. dbind H. eapply mono_simplified_proper; exact H.
  - unfold var_mul_poly in H. dbind H. dbind H. dbind H. eapply scalar_simplified_proper; exact H.
  - eapply HMK; [exact Pa | exact H].
  - unfold as_SM, mono_mul_var in H. destruct (mono_check m); [|discriminate]. destruct (var_check v'); [|discriminate]. cbn [check bind] in H.
    destruct (find_var v' (m_vars m)); cbn in H; injection H as <-; cbn; [exact Pa|]. intro C. apply app_eq_nil in C. destruct C. discriminate.
  - unfold as_SM, mono_mul_mono in H. destruct (mono_check m); [|discriminate]. destruct (mono_check m'); [|discriminate]. cbn [check bind] in H.
    destruct (degree_loop _ _ _ _) in H; [|discriminate]. cbn [bind] in H. destruct (degree_loop _ _ _ _) in H; [|discriminate]. cbn [bind] in H.
    injection H as <-. cbn in Pa |- *. intro C. destruct (m_vars m) as [|v vs]; [congruence|].
    assert (HI : In (v_id v) (map v_id (unique_vars ((v :: vs) ++ m_vars m')))) by (apply unique_vars_in; left; reflexivity).
    rewrite C in HI. destruct HI.
  - unfold mono_mul_poly in H. dbind H. dbind H. eapply HPM; exact H.
  - unfold poly_mul_var in H. dbind H. dbind H. dbind H. eapply poly_simplified_proper; exact H.
  - unfold poly_mul_poly in H. dbind H. dbind H. dbind H. eapply scalar_simplified_proper; exact H.
Qed.

Lemma normal_proper s : normal s -> proper s.
Proof. destruct s; cbn; try (intros; exact I). intros [H _]. exact H. Qed.

Lemma power_loop_proper b n r s : proper b -> proper r -> power_loop b n r = Ok s -> proper s.
Proof.
  intro Pb. revert r. induction n as [|n IH]; intros r Pr H; cbn in H; [injection H as <-; exact Pr|].
  dbind H. eapply IH; [|exact H]. eapply scalar_mul_proper; [exact Pr | exact Pb | eassumption].
Qed.
Lemma scalar_power_proper b n s : proper b -> scalar_power b n = Ok s -> proper s.
Proof. intro Pb. unfold scalar_power. intro H. dbind H. dbind H. eapply power_loop_proper; [exact Pb | | exact H]. exact I. Qed.

Lemma subst_loop_proper sub vs es p s : (forall v x, sub v = Ok x -> proper x) -> proper p -> subst_loop sub vs es p = Ok s -> proper s.
Proof.
  intro Hs. revert es p. induction vs as [|v vs IH]; intros es p Pp H; cbn in H; [injection H as <-; exact Pp|].
  destruct es as [|e es]; [discriminate|]. dbind H. dbind H. dbind H. eapply IH; [|exact H].
  eapply scalar_mul_proper; [exact Pp | | eassumption]. eapply scalar_power_proper; [|eassumption]. eapply Hs. eassumption.
Qed.

Lemma var_substitute_proper v w e x : proper e -> var_substitute v w e = Ok x -> proper x.
Proof. unfold var_substitute. intros Pe H. dbind H. dbind H. dbind H. injection H as <-. destruct (_ && _); [exact Pe | exact I]. Qed.

Lemma scalar_substitute_proper s v e x : proper s -> proper e -> scalar_substitute s v e = Ok x -> proper x.
Proof.
  intros Ps Pe H. destruct s as [k|w|m|p]; cbn [scalar_substitute] in H.
  - injection H as <-. exact I.
  - eapply var_substitute_proper; eassumption.
  - unfold mono_substitute in H. dbind H. dbind H. dbind H. destruct (find_var v (m_vars m)); [|injection H as <-; exact Ps].
    refine (subst_loop_proper _ _ _ _ _ _ _ H); [|exact I]. intros w y Hy. eapply var_substitute_proper; eassumption.
  - unfold poly_substitute in H. dbind H. dbind H. dbind H. dbind H. eapply scalar_simplified_proper; exact H.
Qed.

Lemma scalar_substitute_apart s v e x : apart_s e -> scalar_substitute s v e = Ok x -> apart_s x.
Proof.
  intros Pe H. destruct s as [k|w|m|p]; cbn [scalar_substitute] in H.
  - injection H as <-. exact I.
  - unfold var_substitute in H. dbind H. dbind H. dbind H. injection H as <-. destruct (_ && _); [exact Pe | exact I].
  - unfold mono_substitute in H. dbind H. dbind H. dbind H. destruct (find_var v (m_vars m)); [|injection H as <-; exact I].
    eapply subst_loop_apart; [|exact H]. exact I.
  - unfold poly_substitute in H. dbind H. dbind H. dbind H. dbind H. eapply scalar_simplified_apart; exact H.
Qed.

Lemma run_proper p s : well_formed p -> run p = Ok s -> proper s.
Proof.
  revert s. induction p as [k|v|a IHa b IHb|a IHa b IHb|a IHa b IHb|a IHa n|a IHa|a IHa v|a IHa v e IHe]; intros s; cbn [well_formed run]; intros W H.
  - injection H as <-. exact I.
  - injection H as <-. exact I.
  - destruct W as [W1 W2]. destruct (run_valid a W1) as (x & Ex & Vx). destruct (run_valid b W2) as (y & Ey & Vy).
    rewrite Ex, Ey in H. cbn [bind] in H. apply normal_proper. exact (scalar_plus_normal x y s Vx Vy H).
  - destruct W as [W1 W2]. destruct (run_valid a W1) as (x & Ex & Vx). destruct (run_valid b W2) as (y & Ey & Vy).
    rewrite Ex, Ey in H. cbn [bind] in H. apply normal_proper. exact (scalar_minus_normal x y s Vx Vy H).
  - destruct W as [W1 W2]. destruct (run_valid a W1) as (x & Ex & Vx). destruct (run_valid b W2) as (y & Ey & Vy).
    rewrite Ex, Ey in H. cbn [bind] in H. eapply scalar_mul_proper; [apply IHa | apply IHb | exact H]; assumption.
  - destruct W as [W1 W2]. dbind H. eapply scalar_power_proper; [|exact H]. apply IHa; [exact W1 | reflexivity].
  - dbind H. eapply scalar_simplified_proper. exact H.
  - destruct W as [W1 W2]. destruct (run_valid a W1) as (x & Ex & Vx). rewrite Ex in H. cbn [bind] in H.
    destruct x as [k|w|m|q]; cbn [scalar_derivative] in H.
    + injection H as <-. exact I.
    + unfold var_derivative in H. dbind H. dbind H. injection H as <-. exact I.
    + destruct (mono_derivative_ok m v Vx W2) as (d & E & Hd). rewrite H in E. injection E as <-.
      destruct Hd as [| |l1 w l2 e1 e2 H1 H2 H3 H4 H5|l1 w l2 e1 e e2 H1 H2 H3 H4 H5]; try exact I; cbn.
      * rewrite H1, app_length in H5. cbn in H5. intro C. apply app_eq_nil in C. destruct C as [-> ->]. cbn in H5. lia.
      * intro C. apply app_eq_nil in C. destruct C. discriminate.
    + unfold poly_derivative in H. dbind H. dbind H. dbind H. injection H as <-. match goal with |- proper (match ?x with _ => _ end) => destruct x; exact I end.
  - destruct W as (W1 & W2 & W3). dbind H. dbind H. eapply scalar_substitute_proper; [| |exact H]; [apply IHa | apply IHe]; auto.
Qed.

Lemma run_apart p s : well_formed p -> no_derivative p -> run p = Ok s -> apart_s s.
Proof.
  revert s. induction p as [k|v|a IHa b IHb|a IHa b IHb|a IHa b IHb|a IHa n|a IHa|a IHa v|a IHa v e IHe]; intros s; cbn [well_formed no_derivative run]; intros W N H.
  - injection H as <-. exact I.
  - injection H as <-. exact I.
  - destruct W as [W1 W2]. destruct (run_valid a W1) as (x & Ex & Vx). destruct (run_valid b W2) as (y & Ey & Vy).
    rewrite Ex, Ey in H. cbn [bind] in H. destruct (scalar_plus_sum x y Vx Vy) as (s' & E' & V' & _). rewrite H in E'. injection E' as <-.
    apply normal_apart; [exact V'|]. exact (scalar_plus_normal x y s Vx Vy H).
  - destruct W as [W1 W2]. destruct (run_valid a W1) as (x & Ex & Vx). destruct (run_valid b W2) as (y & Ey & Vy).
    rewrite Ex, Ey in H. cbn [bind] in H. destruct (scalar_minus_sum x y Vx Vy) as (s' & E' & V' & _). rewrite H in E'. injection E' as <-.
    apply normal_apart; [exact V'|]. exact (scalar_minus_normal x y s Vx Vy H).
  - dbind H. dbind H. eapply scalar_mul_apart; exact H.
  - dbind H. eapply scalar_power_apart; exact H.
  - dbind H. eapply scalar_simplified_apart; exact H.
  - destruct N.
  - destruct W as (W1 & W2 & W3). destruct N as [N1 N2]. dbind H. dbind H. eapply scalar_substitute_apart; [|exact H]. apply IHe; auto.
Qed.

(** ** Values of arithmetic programs *)
Lemma run_value_degree p : ExactNum NN -> well_formed p -> arithmetic p -> degree_bounded 2 p ->
  exists s, run p = Ok s /\ valid s /\ degree_at_most (text_degree p) s /\ forall r, eval r s = denote r p.
Proof.
  intro EX.
  assert (HU2 : forall x y d, valid x -> valid y -> degree_at_most d x -> degree_at_most d y -> (d <= 2)%Z -> coherent (terms x ++ terms y)).
  { intros x y d Vx Vy Dx Dy Hd. apply (uniform_unambiguous (fun m => In m (terms x ++ terms y))). intros m Hm. apply in_app_iff in Hm.
    assert (HV : valid_mono m /\ (tdeg m <= d)%Z).
    { destruct Hm as [Hm|Hm]; [exact (degree_terms x d Vx Dx m Hm) | exact (degree_terms y d Vy Dy m Hm)]. }
    split; [apply HV|]. apply degree2_uniform; [apply HV | lia]. }
  assert (HM : forall d d' x, (d <= d')%Z -> degree_at_most d x -> degree_at_most d' x).
  { intros d d' x Hd H. eapply Forall_impl; [|exact H]. cbn. intros; lia. }
  induction p as [k|v|a IHa b IHb|a IHa b IHb|a IHa b IHb|a IHa n|a IHa|a IHa v|a IHa v e IHe]; cbn [well_formed arithmetic degree_bounded run text_degree denote]; intros W A D.
  - exists (SK k). split; [reflexivity|]. split; [exact I|]. split; [constructor; [cbn; lia | constructor] | reflexivity].
  - exists (SV v). split; [reflexivity|]. split; [exact W|]. split; [constructor; [cbn; lia | constructor] | reflexivity].
  - destruct W as [W1 W2], A as [A1 A2], D as (D0 & D1 & D2). destruct (IHa W1 A1 D1) as (x & -> & Vx & Dx & Ex).
    destruct (IHb W2 A2 D2) as (y & -> & Vy & Dy & Ey). cb.
    apply (HM _ (Z.max (text_degree a) (text_degree b))) in Dx; [|lia]. apply (HM _ (Z.max (text_degree a) (text_degree b))) in Dy; [|lia].
    pose proof (scalar_plus_sum x y Vx Vy) as HS. destruct (sum_degree x y _ _ _ Vx Vy HS Dx Dy) as (s & Es & Ds).
    destruct HS as (s' & E' & V & _ & _ & X). rewrite Es in E'. injection E' as <-. exists s.
    split; [exact Es|]. split; [exact V|]. split; [exact Ds|]. intro r. rewrite X, Ex, Ey; [reflexivity | exact EX|].
    exact (HU2 x y _ Vx Vy Dx Dy D0).
  - destruct W as [W1 W2], A as [A1 A2], D as (D0 & D1 & D2). destruct (IHa W1 A1 D1) as (x & -> & Vx & Dx & Ex).
    destruct (IHb W2 A2 D2) as (y & -> & Vy & Dy & Ey). cb.
    apply (HM _ (Z.max (text_degree a) (text_degree b))) in Dx; [|lia]. apply (HM _ (Z.max (text_degree a) (text_degree b))) in Dy; [|lia].
    pose proof (scalar_minus_sum x y Vx Vy) as HS. destruct (sum_degree x y _ _ _ Vx Vy HS Dx Dy) as (s & Es & Ds).
    destruct HS as (s' & E' & V & _ & _ & X). rewrite Es in E'. injection E' as <-. exists s.
    split; [exact Es|]. split; [exact V|]. split; [exact Ds|]. intro r. rewrite X, Ex, Ey; [reflexivity | exact EX|].
    exact (HU2 x y _ Vx Vy Dx Dy D0).
  - destruct W as [W1 W2], A as [A1 A2], D as (D0 & D1 & D2). destruct (IHa W1 A1 D1) as (x & -> & Vx & Dx & Ex).
    destruct (IHb W2 A2 D2) as (y & -> & Vy & Dy & Ey). cb.
    destruct (scalar_mul_value x y Vx Vy) as (s & E & V & _ & X). exists s. split; [exact E|]. split; [exact V|].
    split; [exact (mul_degree x y s _ _ Vx Vy E Dx Dy)|]. intro r. rewrite X, Ex, Ey; [reflexivity | exact EX|].
    apply degree_exponents. intros f Hf L HN. pose proof (product_terms_degree x y _ _ Vx Vy Dx Dy f Hf L HN). lia.
  - destruct W as [W1 W2], D as (D0 & D1). destruct (IHa W1 A D1) as (x & -> & Vx & Dx & Ex). cb.
    destruct (scalar_power_ok x n Vx W2) as (s & E & V & _ & X). exists s. split; [exact E|]. split; [exact V|].
    split; [exact (power_degree x n s _ Vx W2 E Dx)|]. intro r. rewrite X, Ex; [reflexivity | exact EX|].
    apply degree_exponents. intros f Hf L HN. pose proof (degree_nonneg x _ Vx Dx) as Hnn.
    pose proof (power_terms_degree x (Z.to_nat n) _ Vx Hnn Dx f Hf L HN). rewrite Z2Nat.id in H by exact W2. lia.
  - destruct D as (D0 & D1). destruct (IHa W A D1) as (x & -> & Vx & Dx & Ex). cb. exists (ssimplified x).
    split; [apply scalar_simplified_ok; exact Vx|]. pose proof (ssimplified_valid x Vx) as Vs. split; [exact Vs|].
    destruct (lred_simplified x Vx) as (_ & HF & X). split.
    + apply Forall_forall. intros m Hm. pose proof (degree_nonneg x _ Vx Dx). pose proof (valid_terms _ Vs) as HV. rewrite Forall_forall in HV.
      destruct (HF m Hm) as [C|C]; [rewrite const_tdeg; auto|]. apply formed_tdeg in C. destruct C as (m0 & H1 & ->).
      unfold degree_at_most in Dx. rewrite Forall_forall in Dx. auto.
    + intro r. rewrite <- eval_terms, X, eval_terms; [apply Ex | exact EX|].
      eapply coherent_incl; [|exact (HU2 x x _ Vx Vx Dx Dx D0)]. apply incl_appl, incl_refl.
  - destruct A.
  - destruct A.
Qed.

Lemma run_value_one_variable x p : ExactNum NN -> well_formed p -> arithmetic p -> mentions_only x p ->
  exists s, run p = Ok s /\ valid s /\ only_variable x s /\ forall r, eval r s = denote r p.
Proof.
  intro EX.
  assert (HO : forall a, valid a -> (forall i, occurs i a -> i = x) -> only_variable x a).
  { intros a Va H. apply Forall_forall. intros m Hm i Hi. apply H. exists m. auto. }
  assert (HO' : forall a i, only_variable x a -> occurs i a -> i = x).
  { intros a i H (m & H1 & H2). unfold only_variable in H. rewrite Forall_forall in H. exact (H m H1 i H2). }
  assert (HC : forall a b, valid a -> valid b -> only_variable x a -> only_variable x b -> coherent (terms a ++ terms b)).
  { intros a b Va Vb Oa Ob. apply (uniform_unambiguous (fun m => In m (terms a ++ terms b))). intros m Hm. apply in_app_iff in Hm.
    pose proof (valid_terms a Va) as HVa. pose proof (valid_terms b Vb) as HVb. rewrite Forall_forall in HVa, HVb.
    unfold only_variable in Oa, Ob. rewrite Forall_forall in Oa, Ob.
    destruct Hm as [Hm|Hm]; (split; [auto|]); (apply (single_var_uniform m x); [auto|]); intros i Hi; eauto. }
  induction p as [k|v|a IHa b IHb|a IHa b IHb|a IHa b IHb|a IHa n|a IHa|a IHa v|a IHa v e IHe]; cbn [well_formed arithmetic mentions_only run denote]; intros W A D.
  - exists (SK k). split; [reflexivity|]. split; [exact I|]. split; [constructor; [intros i [] | constructor] | reflexivity].
  - exists (SV v). split; [reflexivity|]. split; [exact W|]. split; [constructor; [intros i [<-|[]]; exact D | constructor] | reflexivity].
  - destruct W as [W1 W2], A as [A1 A2], D as (D1 & D2). destruct (IHa W1 A1 D1) as (y & -> & Vy & Oy & Ey).
    destruct (IHb W2 A2 D2) as (z & -> & Vz & Oz & Ez). cb.
    pose proof (scalar_plus_sum y z Vy Vz) as HS. pose proof HS as (s & E & V & _ & _ & X). exists s. split; [exact E|]. split; [exact V|].
    split; [apply HO; [exact V|]; intros i Hi; destruct (sum_occurs y z _ _ i s HS E Hi); (eapply HO'; [|eassumption]; assumption)|].
    intro r. rewrite X, Ey, Ez; auto.
  - destruct W as [W1 W2], A as [A1 A2], D as (D1 & D2). destruct (IHa W1 A1 D1) as (y & -> & Vy & Oy & Ey).
    destruct (IHb W2 A2 D2) as (z & -> & Vz & Oz & Ez). cb.
    pose proof (scalar_minus_sum y z Vy Vz) as HS. pose proof HS as (s & E & V & _ & _ & X). exists s. split; [exact E|]. split; [exact V|].
    split; [apply HO; [exact V|]; intros i Hi; destruct (sum_occurs y z _ _ i s HS E Hi); (eapply HO'; [|eassumption]; assumption)|].
    intro r. rewrite X, Ey, Ez; auto.
  - destruct W as [W1 W2], A as [A1 A2], D as (D1 & D2). destruct (IHa W1 A1 D1) as (y & -> & Vy & Oy & Ey).
    destruct (IHb W2 A2 D2) as (z & -> & Vz & Oz & Ez). cb.
    destruct (scalar_mul_value y z Vy Vz) as (s & E & V & _ & X). exists s. split; [exact E|]. split; [exact V|].
    split; [apply HO; [exact V|]; intros i Hi; destruct (mul_occurs y z i s Vy Vz E Hi); (eapply HO'; [|eassumption]; assumption)|].
    intro r. rewrite X, Ey, Ez; [reflexivity | exact EX|]. apply (product_terms_one_variable y z x); assumption.
  - destruct W as [W1 W2]. destruct (IHa W1 A D) as (y & -> & Vy & Oy & Ey). cb.
    destruct (scalar_power_ok y n Vy W2) as (s & E & V & HW & X). exists s. split; [exact E|]. split; [exact V|].
    split.
    + apply HO; [exact V|]. intros i (m & H1 & H2). destruct (N.eq_dec i x) as [C|C]; [exact C|exfalso].
      pose proof (valid_terms s V) as HV. rewrite Forall_forall in HV. apply exponent_pos in H2; [|auto].
      destruct (HW m H1) as (f & (l & L1 & _ & L3) & Ef). rewrite Ef, L3 in H2. rewrite sum_exponents_zero in H2; [lia|].
      intros t Ht. apply (only_variable_exponent x y); auto.
    + intro r. rewrite X, Ey; [reflexivity | exact EX|]. apply (power_terms_one_variable y _ x); assumption.
  - destruct (IHa W A D) as (y & -> & Vy & Oy & Ey). cb. exists (ssimplified y).
    split; [apply scalar_simplified_ok; exact Vy|]. pose proof (ssimplified_valid y Vy) as Vs. split; [exact Vs|].
    destruct (lred_simplified y Vy) as (_ & HF & X). split.
    + apply HO; [exact Vs|]. intros i (m & H1 & H2). destruct (HF m H1) as [C|(m0 & C1 & C2 & C3)].
      * unfold is_const in C. unfold ids in H2. destruct (m_vars m); [destruct H2 | discriminate].
      * apply (HO' y); [exact Oy|]. exists m0. split; [exact C1|]. unfold ids in *. rewrite <- C3. exact H2.
    + intro r. rewrite <- eval_terms, X, eval_terms; [apply Ey | exact EX|].
      eapply coherent_incl; [|exact (HC y y Vy Vy Oy Oy)]. apply incl_appl, incl_refl.
  - destruct A.
  - destruct A.
Qed.

(** ** Linear representation of expressions built with the API *)
Lemma run_linear p w : ExactNum NN -> well_formed p -> no_derivative p ->
  exists s, run p = Ok s /\
   (degree_at_most 1 s -> w <> [] -> Forall valid_var w -> NoDup (map v_id w) -> (forall i, occurs i s -> In i (map v_id w)) ->
    exists cs c, scalar_linear_coeff s [w] = Ok cs /\ scalar_constant s = Ok c /\ length cs = length w
      /\ forall r, eval r s = dot r cs w + c).
Proof.
  intros EX W N. destruct (run_valid p W) as (s & E & V). exists s. split; [exact E|]. intros D Hw Vw HN HC.
  apply linear_decomposition; try assumption.
  - apply apart_s_collected; [exact V|]. exact (run_apart p s W N E).
  - exact (run_proper p s W E).
Qed.

End Programs.
