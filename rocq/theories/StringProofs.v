(** * Proofs about printing *)

From Coq Require Import ZArith NArith Bool Ascii String DecimalString DecimalZ DecimalNat List Lia.
From Verif Require Import Num Eval Syntax ModelScalar Spec Base ScalarValid Order ModelShape ModelSC SpecArr Arr ArrTop ArrShape ArrMisc ModelEnv ModelString SpecString.
Import ListNotations.
Local Open Scope num_scope.

Notation L := list_ascii_of_string.
Lemma L_app a b : L (String.append a b) = (L a ++ L b)%list.
Proof. induction a as [|c a IH]; cbn; [reflexivity | rewrite IH; reflexivity]. Qed.
Lemma L_inj a b : L a = L b -> a = b.
Proof. intro H. rewrite <- (string_of_list_ascii_of_string a), <- (string_of_list_ascii_of_string b), H. reflexivity. Qed.

(** two words followed by something that is not part of a word *)
Definition ends (P : ascii -> bool) (u : list ascii) : Prop := match u with [] => True | c :: _ => P c = false end.
Lemma span (P : ascii -> bool) (a b u v : list ascii) : Forall (fun c => P c = true) a -> Forall (fun c => P c = true) b -> ends P u -> ends P v -> (a ++ u = b ++ v)%list -> a = b /\ u = v.
Proof.
  intros Ha Hb Hu Hv. revert b Hb. induction Ha as [|c a Hc Ha IH]; intros b Hb E.
  - destruct Hb as [|d b Hd Hb]; [auto|]. cbn in E. subst u. cbn in Hu. congruence.
  - destruct Hb as [|d b Hd Hb]; cbn in E.
    + subst v. cbn in Hv. congruence.
    + injection E as <- E. destruct (IH b Hb E) as [-> ->]. auto.
Qed.

Definition digit (c : ascii) : bool := existsb (Ascii.eqb c) ["0"; "1"; "2"; "3"; "4"; "5"; "6"; "7"; "8"; "9"]%char.
Definition stop (c : ascii) : bool := existsb (Ascii.eqb c) [" "; ","; "]"]%char.
Definition word (c : ascii) : bool := negb (stop c).
Lemma uint_digits d : Forall (fun c => digit c = true) (L (NilEmpty.string_of_uint d)).
Proof. induction d; cbn; constructor; auto. Qed.
Lemma digit_word c : digit c = true -> word c = true.
Proof. intro H. unfold digit in H. apply existsb_exists in H as (d & Hd & E). apply Ascii.eqb_eq in E. subst d. cbn in Hd. repeat (destruct Hd as [<-|Hd]; [reflexivity|]). destruct Hd. Qed.
Definition is_x (c : ascii) : bool := Ascii.eqb c "x".

Lemma print_int_digits e : (1 <= e)%Z -> Forall (fun c => digit c = true) (L (print_int e)).
Proof. intro H. destruct e as [|p|p]; try lia. cbn. apply uint_digits. Qed.
Lemma print_int_inj a b : print_int a = print_int b -> a = b.
Proof.
  unfold print_int. intro H. apply (f_equal NilEmpty.int_of_string) in H. rewrite !NilEmpty.isi in H. injection H as H. apply to_int_inj. exact H.
Qed.
Lemma name_inj a b : NilEmpty.string_of_uint (Nat.to_uint (N.to_nat a)) = NilEmpty.string_of_uint (Nat.to_uint (N.to_nat b)) -> a = b.
Proof.
  intro H. apply (f_equal NilEmpty.uint_of_string) in H. rewrite !NilEmpty.usu in H. injection H as H. apply Unsigned.to_uint_inj in H. apply N2Nat.inj. exact H.
Qed.

(** what printing needs of the numbers *)
Definition plain {NN : Num} (c : num) : Prop := c = - n0 -> c = n0.
Definition printable (NN : Num) : Prop :=
  (forall c : num, (c =? n1) = true -> c = n1) /\ (n1 =? n1) = true /\ forall c d : num, plain c -> plain d -> (n0 <=? c) = (n0 <=? d) -> nabs c = nabs d -> c = d.
Section Neg.
Context {NN : Num} {EX : ExactNum NN}.
Add Ring stringring : (@num_ring NN EX).
Lemma neg_neg (c : num) : - (- c) = c.
Proof. ring. Qed.
Lemma exact_printable : printable NN.
Proof.
  split; [intros c H; apply ex_eqb; exact H|]. split; [apply ex_eqb; reflexivity|]. intros c d _ _ H E. rewrite !ex_abs in E. rewrite H in E. destruct (n0 <=? d); [exact E|].
  rewrite <- (neg_neg c), <- (neg_neg d), E. reflexivity.
Qed.
Lemma exact_no_negative_zero s : no_negative_zero s.
Proof. intros m _ ->. ring. Qed.
Lemma same_terms_value (r : assignment) p p' : Forall2 same_term p p' -> eval_poly r p = eval_poly r p'.
Proof.
  induction 1 as [|m m' p p' (E1 & E2 & E3) _ IH]; [reflexivity|]. unfold eval_poly in *. cbn [fold_right map]. rewrite IH. f_equal. unfold eval_mono. rewrite E1, E2. f_equal.
  clear - E3. unfold ids in E3. revert E3. generalize (m_vars m), (m_vars m'), (m_exps m'). intro vs. induction vs as [|v vs IHv]; intros [|v' vs'] es E; try discriminate; [reflexivity|].
  cbn in E. injection E as E0 E. destruct es as [|e es]; [reflexivity|]. cbn [eval_factors]. rewrite E0, (IHv vs' es E). reflexivity.
Qed.
Lemma same_printed_value (r : assignment) s t : same_printed s t -> eval r s = eval r t.
Proof. intro H. rewrite <- !eval_terms. apply same_terms_value. exact H. Qed.
End Neg.
Lemma float_printable : printable F64Num.
Proof.
  split; [|split; [reflexivity|]].
  - intros c H. destruct c as [[]|[]| |[] m e]; try discriminate H.
    change (SpecFloat.SFeqb (SpecFloat.S754_finite false m e) (SpecFloat.S754_finite false 4503599627370496 (-52)) = true) in H. unfold SpecFloat.SFeqb, SpecFloat.SFcompare in H.
    destruct (Z.compare e (-52)) eqn:D; try discriminate H. apply Z.compare_eq in D. subst e. destruct (Pos.compare_cont Eq m 4503599627370496) eqn:C; try discriminate H. apply Pos.compare_eq in C. subst m. reflexivity.
  - intros c d Pc Pd H E. unfold plain in *. destruct c as [[]|[]| |[] m e], d as [[]|[]| |[] m' e']; cbn in *; try discriminate H; try discriminate E; try reflexivity;
      try (specialize (Pc eq_refl); discriminate Pc); try (specialize (Pd eq_refl); discriminate Pd); injection E as -> ->; reflexivity.
Qed.

Section Print.
Context {NN : Num}.

(** ** Factors *)
Definition digits_of (v : var) : list ascii := L (NilEmpty.string_of_uint (Nat.to_uint (N.to_nat (v_id v)))).
Definition exp_of (e : Z) : list ascii := if Z.eqb e 1 then [] else "^"%char :: L (print_int e).
Fixpoint flist (vs : list var) (es : list Z) : list ascii :=
  match vs, es with v :: vs', e :: es' => "x"%char :: "_"%char :: digits_of v ++ exp_of e ++ flist vs' es' | _, _ => [] end.
Lemma factors_flist vs : forall es, length es = length vs -> Forall default_name vs -> exists s, factors_string vs es = Ok s /\ L s = flist vs es.
Proof.
  induction vs as [|v vs IH]; intros [|e es] Le HN; try discriminate; cbn [factors_string flist].
  - exists ""%string. auto.
  - inversion HN as [|? ? Nv HN']; subst. destruct (IH es) as (s & E & Hs); [cbn in Le; lia | exact HN'|]. rewrite E. cbn [bind]. eexists. split; [reflexivity|].
    rewrite !L_app, Hs, Nv. cbn. unfold digits_of, exp_of. destruct (Z.eqb e 1); reflexivity.
Qed.
Lemma flist_word vs : forall es, Forall (fun e => (1 <= e)%Z) es -> Forall (fun c => word c = true) (flist vs es).
Proof.
  induction vs as [|v vs IH]; intros [|e es] He; cbn; try constructor; [reflexivity|]. inversion He as [|? ? H1 H2]; subst. constructor; [reflexivity|].
  apply Forall_app. split; [eapply Forall_impl; [|apply uint_digits]; intros c; apply digit_word|]. apply Forall_app. split; [|apply IH; exact H2].
  unfold exp_of. destruct (Z.eqb e 1); [constructor|]. constructor; [reflexivity|]. eapply Forall_impl; [|apply print_int_digits; exact H1]. intros c; apply digit_word.
Qed.
Lemma flist_ends vs es : ends digit (flist vs es).
Proof. destruct vs, es; cbn; auto. Qed.
Lemma exp_ends e vs es : ends digit (exp_of e ++ flist vs es).
Proof. unfold exp_of. destruct (Z.eqb e 1); [apply flist_ends | reflexivity]. Qed.
Lemma exp_inj e e' vs es vs' es' : (1 <= e)%Z -> (1 <= e')%Z -> (exp_of e ++ flist vs es = exp_of e' ++ flist vs' es')%list -> e = e' /\ flist vs es = flist vs' es'.
Proof.
  intros H H' E. unfold exp_of in E. destruct (Z.eqb_spec e 1) as [->|D], (Z.eqb_spec e' 1) as [->|D']; cbn [app] in E.
  - auto.
  - destruct vs, es; cbn in E; try discriminate E.
  - destruct vs', es'; cbn in E; try discriminate E.
  - injection E as E. apply (span digit) in E as [E1 E2]; [|apply print_int_digits; assumption|apply print_int_digits; assumption|apply flist_ends|apply flist_ends].
    split; [apply print_int_inj, L_inj; exact E1 | exact E2].
Qed.
Lemma flist_inj vs : forall es vs' es', length es = length vs -> length es' = length vs' -> Forall (fun e => (1 <= e)%Z) es -> Forall (fun e => (1 <= e)%Z) es' ->
  flist vs es = flist vs' es' -> map v_id vs = map v_id vs' /\ es = es'.
Proof.
  induction vs as [|v vs IH]; intros [|e es] [|v' vs'] [|e' es'] H1 H2 P1 P2 E; try discriminate; [auto|].
  cbn [flist] in E. injection E as E. inversion P1 as [|? ? Q1 R1]; subst. inversion P2 as [|? ? Q2 R2]; subst.
  apply (span digit) in E as [E1 E2]; [|apply uint_digits|apply uint_digits|apply exp_ends|apply exp_ends].
  apply exp_inj in E2 as [-> E2]; [|assumption|assumption]. destruct (IH es vs' es') as [HI ->]; try assumption; [cbn in H1; lia | cbn in H2; lia|].
  cbn. rewrite HI. apply L_inj, name_inj in E1. rewrite E1. auto.
Qed.

Context (PR : printable NN) (fmt : num -> string) (FM : identifies fmt).
Notation W c := (L (fmt c)).
Lemma W_word c : Forall (fun x => word x = true) (W c).
Proof.
  destruct FM as [_ H]. destruct (H c) as [_ H2]. apply Forall_forall. intros x Hx. unfold word. apply negb_true_iff, not_true_iff_false. intro S. apply (H2 x Hx). left.
  unfold stop in S. apply existsb_exists in S as (d & Hd & E). apply Ascii.eqb_eq in E. subst d. cbn in Hd |- *. tauto.
Qed.
Lemma W_head c : exists x l, W c = x :: l /\ x <> "x"%char /\ x <> "["%char /\ x <> "P"%char /\ x <> "M"%char /\ x <> "V"%char /\ x <> "]"%char.
Proof.
  destruct FM as [_ H]. destruct (H c) as [H1 H2]. destruct (fmt c) as [|x s] eqn:E; [congruence|]. exists x, (L s). split; [reflexivity|].
  specialize (H2 x (or_introl eq_refl)). repeat split; intros ->; apply H2; left; cbn; tauto.
Qed.
Lemma W_inj c d : W c = W d -> c = d.
Proof. intro H. apply FM. apply L_inj. exact H. Qed.

(** ** Terms *)
Inductive form (m : Monomial) : list ascii -> Prop :=
| form_const : m_vars m = [] -> m_exps m = [] -> form m (W (m_coeff m))
| form_one : m_vars m <> [] -> m_coeff m = n1 -> form m (flist (m_vars m) (m_exps m))
| form_coeff : m_vars m <> [] -> m_coeff m <> n1 -> form m (W (m_coeff m) ++ " "%char :: flist (m_vars m) (m_exps m)).
Definition names (m : Monomial) : Prop := Forall default_name (m_vars m).
Lemma mono_form m : valid_mono m -> names m -> exists s, mono_string fmt m = Ok s /\ form m (L s).
Proof.
  intros V HN. unfold mono_string. rewrite (valid_mono_check m V). cbn [check bind]. destruct V as (Le & Pe & _).
  destruct (factors_flist (m_vars m) (m_exps m) Le HN) as (s & E & Hs). rewrite E. cbn [bind]. eexists. split; [reflexivity|].
  destruct (m_vars m) as [|v vs] eqn:Ev; cbn [nonempty negb].
  - rewrite orb_true_r. assert (Ee : m_exps m = []) by (destruct (m_exps m); [reflexivity | discriminate]). rewrite !L_app, Hs. cbn. rewrite !app_nil_r. apply form_const; assumption.
  - rewrite orb_false_r. destruct (m_coeff m =? n1) eqn:Ec; cbn [negb].
    + cbn. rewrite Hs. rewrite <- Ev. apply form_one; [congruence | apply (proj1 PR); exact Ec].
    + rewrite !L_app, Hs. cbn [L]. rewrite <- app_assoc. cbn [app]. rewrite <- Ev. apply form_coeff; [congruence|]. intro X. rewrite X in Ec. destruct PR as (_ & R1 & _). congruence.
Qed.

(** what may follow a term, and an expression *)
Definition rest1 (u : list ascii) : Prop := match u with [] => True | c :: u' => stop c = true /\ (c = " "%char -> match u' with [] => False | d :: _ => d <> "x"%char end) end.
Definition rest2 (u : list ascii) : Prop :=
  match u with [] => True | c :: u' => stop c = true /\ (c = " "%char -> match u' with [] => False | d :: _ => d <> "x"%char /\ d <> "+"%char /\ d <> "-"%char end) end.
Lemma rest1_ends u : rest1 u -> ends word u.
Proof. destruct u; cbn [rest1 ends]; [auto|]. intros [H _]. unfold word. rewrite H. reflexivity. Qed.
Lemma rest21 u : rest2 u -> rest1 u.
Proof. destruct u as [|c u]; cbn [rest1 rest2]; [auto|]. intros [H1 H2]. split; [exact H1|]. intro E. specialize (H2 E). destruct u; [exact H2 | apply H2]. Qed.
Lemma flist_x vs es : vs <> [] -> length es = length vs -> exists l, flist vs es = "x"%char :: l.
Proof. destruct vs as [|v vs], es as [|e es]; intros H1 H2; try discriminate; [congruence|]. eexists. reflexivity. Qed.
Lemma W_not_F c u vs es v : vs <> [] -> length es = length vs -> (W c ++ u = flist vs es ++ v)%list -> False.
Proof.
  intros H1 H2 E. destruct (flist_x vs es H1 H2) as (l & F). rewrite F in E. destruct (W_head c) as (x & l' & E' & Hx & _). rewrite E' in E. cbn in E. congruence.
Qed.
Lemma space_rest vs es u v : vs <> [] -> length es = length vs -> rest1 u -> u = (" "%char :: flist vs es ++ v)%list -> False.
Proof. intros H1 H2 R ->. destruct (flist_x vs es H1 H2) as (l & F). rewrite F in R. destruct R as [_ R]. apply (R eq_refl). reflexivity. Qed.

Lemma form_inj m m' s s' u u' : valid_mono m -> valid_mono m' -> form m s -> form m' s' -> rest1 u -> rest1 u' -> (s ++ u = s' ++ u')%list -> same_term m m' /\ u = u'.
Proof.
  intros (Le & Pe & _) (Le' & Pe' & _) F F' R R' E. pose proof (flist_word (m_vars m) _ Pe) as WF. pose proof (flist_word (m_vars m') _ Pe') as WF'.
  pose proof (rest1_ends u R) as N1. pose proof (rest1_ends u' R') as N2.
  assert (SP : forall v, ends word (" "%char :: v)) by reflexivity.
  destruct F as [Hv He|Hv Hc|Hv Hc], F' as [Hv' He'|Hv' Hc'|Hv' Hc']; rewrite <- ?app_assoc in E; cbn [app] in E.
  - apply (span word) in E as [E1 E2]; auto using W_word. split; [|exact E2]. split; [apply W_inj; exact E1|]. unfold ids. rewrite He, He', Hv, Hv'. auto.
  - exfalso. exact (W_not_F _ _ _ _ _ Hv' Le' E).
  - exfalso. apply (span word) in E as [_ E]; auto using W_word. exact (space_rest _ _ _ _ Hv' Le' R E).
  - exfalso. symmetry in E. exact (W_not_F _ _ _ _ _ Hv Le E).
  - apply (span word) in E as [E1 E2]; auto. split; [|exact E2]. apply flist_inj in E1 as [E3 E4]; auto. split; [congruence|]. auto.
  - exfalso. symmetry in E. exact (W_not_F _ _ _ _ _ Hv Le E).
  - exfalso. apply (span word) in E as [_ E]; auto using W_word. symmetry in E. exact (space_rest _ _ _ _ Hv Le R' E).
  - exfalso. exact (W_not_F _ _ _ _ _ Hv' Le' E).
  - apply (span word) in E as [E1 E2]; auto using W_word. injection E2 as E2. apply (span word) in E2 as [E3 E4]; auto. split; [|exact E4].
    apply flist_inj in E3 as [E5 E6]; auto. split; [apply W_inj; exact E1|]. auto.
Qed.

(** ** Polynomials *)
Inductive forms : list Monomial -> list ascii -> Prop :=
| forms_nil : forms [] []
| forms_cons m p s l (o : ascii) : o = (if n0 <=? m_coeff m then "+"%char else "-"%char) -> form (mkMono (nabs (m_coeff m)) (m_exps m) (m_vars m)) s -> forms p l ->
    forms (m :: p) (" "%char :: o :: " "%char :: s ++ l).
Lemma more_forms p : Forall valid_mono p -> Forall names p -> exists s, more_string fmt p = Ok s /\ forms p (L s).
Proof.
  intros HV HN. induction p as [|m p IH]; cbn [more_string].
  - exists ""%string. split; [reflexivity | constructor].
  - inversion HV as [|? ? V HV']; subst. inversion HN as [|? ? N1 HN']; subst. destruct (IH HV' HN') as (r & Er & Hr).
    destruct (mono_form (mkMono (nabs (m_coeff m)) (m_exps m) (m_vars m)) V N1) as (s & Es & Hs). rewrite Es. cbn [bind]. rewrite Er. cbn [bind]. eexists. split; [reflexivity|].
    rewrite !L_app. cbn [L app]. destruct (n0 <=? m_coeff m) eqn:E; cbn [L app]; constructor; auto; rewrite E; reflexivity.
Qed.
Lemma forms_rest1 p l u : forms p l -> rest2 u -> rest1 (l ++ u).
Proof.
  intros F R. destruct F as [|m p s l o Ho F Fs]; cbn [app]; [apply rest21; exact R|]. split; [reflexivity|]. intros _. cbn. rewrite Ho. destruct (n0 <=? m_coeff m); discriminate.
Qed.
Definition plains (p : list Monomial) : Prop := Forall (fun m => plain (m_coeff m)) p.
Lemma forms_inj p : forall p' l l' u u', Forall valid_mono p -> Forall valid_mono p' -> plains p -> plains p' -> forms p l -> forms p' l' -> rest2 u -> rest2 u' -> (l ++ u = l' ++ u')%list -> Forall2 same_term p p' /\ u = u'.
Proof.
  assert (Q : forall m p l u u', forms (m :: p) l -> rest2 u -> (l ++ u')%list = u -> False).
  { clear p. intros m p l u u' F R E. inversion F as [|? ? s l0 o Ho Fm Fs]; subst. cbn in R. destruct R as [_ R]. specialize (R eq_refl). destruct (n0 <=? m_coeff m); destruct R as (_ & R1 & R2); congruence. }
  induction p as [|m p IH]; intros [|m' p'] l l' u u' HV HV' HP HP' F F' R R' E.
  - inversion F; subst. inversion F'; subst. auto.
  - exfalso. inversion F; subst. cbn in E. symmetry in E. exact (Q _ _ _ _ _ F' R E).
  - exfalso. inversion F'; subst. cbn in E. exact (Q _ _ _ _ _ F R' E).
  - inversion F as [|? ? s l0 o Ho Fm Fs]; subst. inversion F' as [|? ? s' l0' o' Ho' Fm' Fs']; subst. inversion HV as [|? ? V HVp]; subst. inversion HV' as [|? ? V' HVp']; subst. inversion HP as [|? ? Pm HPp]; subst. inversion HP' as [|? ? Pm' HPp']; subst.
    cbn [app] in E. injection E as E1 E. rewrite <- !app_assoc in E.
    pose proof (V : valid_mono (mkMono (nabs (m_coeff m)) (m_exps m) (m_vars m))) as Va. pose proof (V' : valid_mono (mkMono (nabs (m_coeff m')) (m_exps m') (m_vars m'))) as Va'.
    apply (form_inj _ _ _ _ _ _ Va Va' Fm Fm') in E as [(A1 & A2 & A3) E]; [|apply (forms_rest1 p); assumption|apply (forms_rest1 p'); assumption].
    apply (IH p') in E as [E2 E3]; try assumption. split; [|exact E3]. constructor; [|exact E2]. split; [|split; [exact A2 | exact A3]].
    apply (proj2 (proj2 PR)); [exact Pm | exact Pm' | | exact A1]. destruct (n0 <=? m_coeff m), (n0 <=? m_coeff m'); (reflexivity || discriminate).
Qed.

(** ** Scalar expressions *)
Inductive sform : list Monomial -> list ascii -> Prop := sform_intro m p s l : form m s -> forms p l -> sform (m :: p) (s ++ l).
Lemma scalar_form t : valid t -> default_names t -> exists s, scalar_string fmt t = Ok s /\ sform (terms t) (L s).
Proof.
  intros V HN. destruct t as [k|v|m|p]; cbn [scalar_string terms].
  - eexists. split; [reflexivity|]. rewrite <- (app_nil_r (W k)). constructor; [apply (form_const (mkMono k [] [])); reflexivity | constructor].
  - eexists. split; [reflexivity|]. rewrite <- (app_nil_r (L (v_name v))). constructor; [|constructor].
    assert (N1 : default_name v) by (apply (HN (mkMono n1 [1%Z] [v])); left; reflexivity). rewrite N1, L_app. cbn.
    pose proof (form_one (mkMono n1 [1%Z] [v])) as H. cbn in H. rewrite app_nil_r in H. apply H; [discriminate | reflexivity].
  - destruct (mono_form m V) as (s & E & F); [apply Forall_forall; intros v Hv; apply (HN m); [left; reflexivity | exact Hv]|]. exists s. split; [exact E|].
    rewrite <- (app_nil_r (L s)). constructor; [exact F | constructor].
  - unfold poly_string. rewrite (valid_poly_check p V). cbn [check bind]. destruct V as [V1 V2]. destruct p as [|m p]; [congruence|]. inversion V2 as [|? ? Vm Vp]; subst.
    assert (HN' : forall x, In x (m :: p) -> names x) by (intros x Hx; apply Forall_forall; intros v Hv; apply (HN x); assumption).
    destruct (mono_form m Vm (HN' m (or_introl eq_refl))) as (s & E & F). rewrite E. cbn [bind].
    destruct (more_forms p Vp) as (r & E2 & F2); [apply Forall_forall; intros x Hx; apply HN'; right; exact Hx|]. rewrite E2. cbn [bind]. eexists. split; [reflexivity|].
    rewrite L_app. constructor; assumption.
Qed.
Lemma sform_inj p p' s s' u u' : Forall valid_mono p -> Forall valid_mono p' -> plains (tl p) -> plains (tl p') -> sform p s -> sform p' s' -> rest2 u -> rest2 u' -> (s ++ u = s' ++ u')%list -> Forall2 same_term p p' /\ u = u'.
Proof.
  intros V V' P P' F F' R R' E. destruct F as [m p a l Fm Fp], F' as [m' p' a' l' Fm' Fp']. rewrite <- !app_assoc in E. inversion V as [|? ? Vm Vp]; subst. inversion V' as [|? ? Vm' Vp']; subst.
  apply (form_inj _ _ _ _ _ _ Vm Vm' Fm Fm') in E as [S E]; [|eapply forms_rest1; eassumption|eapply forms_rest1; eassumption].
  cbn [tl] in P, P'. apply (forms_inj p) with (p' := p') in E as [Sp Eu]; try assumption. split; [constructor; assumption | exact Eu].
Qed.
Lemma plains_iff s : no_negative_zero s <-> plains (tl (terms s)).
Proof. unfold no_negative_zero, plains. rewrite Forall_forall. reflexivity. Qed.
Lemma scalar_faithful s t a : valid s -> valid t -> no_negative_zero s -> no_negative_zero t -> default_names s -> default_names t -> scalar_string fmt s = Ok a -> scalar_string fmt t = Ok a -> same_printed s t.
Proof.
  intros Vs Vt Ps Pt Ns Nt Es Et. apply plains_iff in Ps, Pt. destruct (scalar_form s Vs Ns) as (b & Eb & Fb). destruct (scalar_form t Vt Nt) as (c & Ec & Fc).
  rewrite Es in Eb. injection Eb as <-. rewrite Et in Ec. injection Ec as <-. unfold same_printed.
  destruct (sform_inj (terms s) (terms t) (L a) (L a) [] []) as [H _]; auto; try exact I; apply valid_terms; assumption.
Qed.

(** ** Rows *)
Definition good (s : scalar) : Prop := valid s /\ default_names s /\ no_negative_zero s.
Inductive lform (sp : list ascii) : list scalar -> list ascii -> Prop :=
| lform_one s a : sform (terms s) a -> lform sp [s] a
| lform_more s l a b : sform (terms s) a -> lform sp l b -> lform sp (s :: l) (a ++ ","%char :: sp ++ b).
Lemma row_form sep sp l : L sep = ","%char :: sp -> l <> [] -> Forall good l -> forall n i, n = (i + length l)%nat ->
  exists s, print_list (scalar_string fmt) sep "" n i l = Ok s /\ lform sp l (L s).
Proof.
  intros Hsep. induction l as [|t l IH]; intros Hne HG n i Hn; [congruence|]. inversion HG as [|? ? (Vt & Nt & _) HG']; subst. destruct (scalar_form t Vt Nt) as (s & Es & Fs). cbn [print_list]. rewrite Es. cbn [bind].
  destruct l as [|t' l].
  - cbn [print_list bind length]. destruct (Nat.eqb_spec (S i) (i + 1)%nat) as [_|D]; [|lia]. eexists. split; [reflexivity|]. rewrite !L_app. cbn [L]. rewrite !app_nil_r. constructor. exact Fs.
  - destruct (IH ltac:(discriminate) HG' (i + length (t :: t' :: l))%nat (S i)) as (r & Er & Fr); [cbn; lia|]. rewrite Er. cbn [bind].
    destruct (Nat.eqb_spec (S i) (i + length (t :: t' :: l))%nat) as [D|_]; [cbn in D; lia|]. eexists. split; [reflexivity|]. rewrite !L_app, Hsep. cbn [app]. constructor; assumption.
Qed.
Lemma comma_rest2 u : rest2 (","%char :: u).
Proof. split; [reflexivity | discriminate]. Qed.
Lemma close_rest2 u : rest2 ("]"%char :: u).
Proof. split; [reflexivity | discriminate]. Qed.
Lemma lform_inj sp l : forall l' a a' u u', Forall good l -> Forall good l' -> lform sp l a -> lform sp l' a' -> (a ++ "]"%char :: u = a' ++ "]"%char :: u')%list -> Forall2 same_printed l l' /\ u = u'.
Proof.
  assert (VT : forall s, good s -> Forall valid_mono (terms s)) by (intros s [V _]; apply valid_terms; exact V). assert (PT : forall s, good s -> plains (tl (terms s))) by (intros s (_ & _ & P); apply plains_iff; exact P).
  induction l as [|s l IH]; intros l' a a' u u' G G' F F' E; [inversion F|]. inversion G as [|? ? Gs Gl]; subst.
  inversion F as [s0 a0 Fs|s0 l0 a0 b Fs Fl]; inversion F' as [s0' a0' Fs'|s0' l0' a0' b' Fs' Fl']; subst; inversion G' as [|? ? Gs' Gl']; subst; rewrite <- ?app_assoc in E; cbn [app] in E;
    apply (sform_inj (terms s) (terms s0')) in E as [E1 E2]; auto using comma_rest2, close_rest2; try discriminate E2.
  - injection E2 as E2. split; [constructor; [exact E1 | constructor] | exact E2].
  - injection E2 as E2. rewrite <- !app_assoc in E2. apply app_inv_head in E2. apply (IH l0') in E2 as [E2 E3]; try assumption. split; [constructor; assumption | exact E3].
Qed.

(** rows, each between [o] and "]" [c], with [sep] between them and [fin] after the last *)
Inductive rform (sp o c sep fin : list ascii) : list (list scalar) -> list ascii -> Prop :=
| rform_one l a : lform sp l a -> rform sp o c sep fin [l] (o ++ a ++ "]"%char :: c ++ fin)
| rform_more l r a b : lform sp l a -> rform sp o c sep fin r b -> rform sp o c sep fin (l :: r) (o ++ a ++ "]"%char :: c ++ sep ++ b).
Lemma rows_form (f : list scalar -> res string) sp o c sep fin after rs : rs <> [] ->
  (forall row, In row rs -> exists s a, f row = Ok s /\ L s = (o ++ a ++ "]"%char :: c)%list /\ lform sp row a) -> forall n i, n = (i + length rs)%nat ->
  exists s, print_list f sep fin n i rs = Ok s /\ rform sp o c (L sep) (L fin ++ after) rs (L s ++ after).
Proof.
  intros Hne Hf. induction rs as [|row rs IH]; intros n i Hn; [congruence|]. destruct (Hf row (or_introl eq_refl)) as (s & a & Es & Hs & Fa). cbn [print_list]. rewrite Es. cbn [bind].
  destruct rs as [|row' rs].
  - cbn [print_list bind length] in *. destruct (Nat.eqb_spec (S i) n) as [_|D]; [|lia]. eexists. split; [reflexivity|]. rewrite !L_app, Hs. cbn [L]. rewrite app_nil_r, <- !app_assoc. cbn [app].
    rewrite <- ?app_assoc. constructor. exact Fa.
  - destruct (IH ltac:(discriminate) (fun r Hr => Hf r (or_intror Hr)) n (S i)) as (r & Er & Fr); [cbn in Hn |- *; lia|]. rewrite Er. cbn [bind].
    destruct (Nat.eqb_spec (S i) n) as [D|_]; [cbn in Hn; lia|]. eexists. split; [reflexivity|]. rewrite !L_app, Hs, <- !app_assoc. cbn [app]. rewrite <- ?app_assoc. constructor; assumption.
Qed.
Definition head_differs (a b : list ascii) : Prop := match a, b with x :: _, y :: _ => x <> y | _, _ => False end.
Lemma head_differs_app a b u v : head_differs a b -> (a ++ u = b ++ v)%list -> False.
Proof. destruct a, b; cbn; try tauto. intros H E. congruence. Qed.
Lemma rform_inj sp o c sep fin r : head_differs sep fin -> forall r' b b', Forall (Forall good) r -> Forall (Forall good) r' -> rform sp o c sep fin r b -> rform sp o c sep fin r' b' -> b = b' -> Forall2 (Forall2 same_printed) r r'.
Proof.
  intro HD. induction r as [|l r IH]; intros r' b b' G G' F F' E; [inversion F|]. inversion G as [|? ? Gl Gr]; subst.
  assert (HD' : forall u, fin = (sep ++ u)%list -> False) by (intros u X; apply (head_differs_app sep fin u [] HD); rewrite app_nil_r; auto).
  assert (X : forall (a a' u u' : list ascii) l', Forall good l' -> lform sp l a -> lform sp l' a' -> (o ++ a ++ "]"%char :: c ++ u = o ++ a' ++ "]"%char :: c ++ u')%list -> Forall2 same_printed l l' /\ u = u').
  { intros a a' u u' l' Gl' Fa Fa' X. apply app_inv_head in X. apply (lform_inj sp l l') in X as [E1 E2]; [|assumption..]. apply app_inv_head in E2. auto. }
  destruct F' as [l' a' Fa'|l' r' a' b0' Fa' Fb']; inversion G' as [|? ? Gl' Gr']; subst; inversion F as [l0 a Fa E0|l0 r0 a b0 Fa Fb E0]; subst;
    match goal with E0 : (o ++ _ = o ++ _)%list |- _ => apply (X _ _ _ _ l') in E0 as [E1 E2]; [|assumption..] end.
  - constructor; [exact E1 | constructor].
  - exfalso. eapply HD'. first [exact E2 | symmetry; exact E2].
  - exfalso. eapply HD'. first [exact E2 | symmetry; exact E2].
  - apply app_inv_head in E2. constructor; [exact E1|]. eapply IH; eauto.
Qed.

(** ** Expressions *)
Lemma print_list_via {A B} (f : A -> res string) (g : B -> res string) (h : A -> B) sep fin n l : (forall a, f a = g (h a)) -> forall i, print_list f sep fin n i l = print_list g sep fin n i (map h l).
Proof. intros H. induction l as [|a l IH]; intro i; cbn [print_list map]; [reflexivity|]. rewrite H. destruct (g (h a)); cbn [bind]; [|reflexivity]. rewrite IH. reflexivity. Qed.

Definition vprefix (v : vector) : string := match v with VK _ => "[" | VV _ => "VariableVector = [" | VM _ => "MonomialVector = [" | VP _ => "PolynomialVector = [" end.
Definition mprefix (m : matrix) : string :=
  match m with MK _ => "[" | MV _ => "[" | MM _ => "MonomialMatrix =" ++ newline ++ "[ " | MP _ => "PolynomialMatrix =" ++ newline ++ "[" end.
Definition mform (m : matrix) : list (list scalar) -> list ascii -> Prop :=
  match m with
  | MK _ => rform [] ["["%char] [] (L ("," ++ newline ++ " [")) (L ("]" ++ newline))
  | MV _ => rform [" "%char] ["["%char] [] (L ", ") (L "]")
  | MM _ => rform [" "%char] (L "[ ") [","%char] (L ("," ++ newline ++ " ")) (L " ]")
  | MP _ => rform [" "%char] ["["%char] [] (L ("," ++ newline)) (L "]")
  end.
Definition eform (e : expr) (l : list ascii) : Prop :=
  match e with
  | ES s => sform (terms s) l
  | EV v => exists a, l = (L (vprefix v) ++ a ++ ["]"%char])%list /\ lform [" "%char] (vec_entries v) a
  | EM m => exists b, l = (L (mprefix m) ++ b)%list /\ mform m (mat_rows m) b
  end.
Lemma good_rows d e : valid_array d e -> array_names d e -> array_no_negative_zero d e -> Forall (Forall good) (rows e).
Proof.
  intros V N Z. pose proof V as (H1 & H2 & (S1 & S2) & HV). apply Forall_forall. intros row Hrow. apply Forall_forall. intros s Hs.
  apply In_nth_error in Hrow as (i & Hi). apply In_nth_error in Hs as (j & Hj).
  assert (Li : i < fst d) by (rewrite <- S1; eapply nth_error_bound; exact Hi).
  assert (Lj : j < snd d). { rewrite Forall_forall in S2. rewrite <- (S2 row); [eapply nth_error_bound; exact Hj | eapply nth_error_In; exact Hi]. }
  assert (E : entry e i j = s) by (unfold entry; rewrite (nth_error_nth_eq _ _ _ _ Hi), (nth_error_nth_eq _ _ _ _ Hj); reflexivity).
  rewrite <- E. split; [apply HV | split; [apply N | apply Z]]; assumption.
Qed.
Lemma enclosed o c row r sep sp n : L sep = ","%char :: sp -> row <> [] -> Forall good row -> n = length row -> r = print_list (scalar_string fmt) sep "" n 0 row ->
  exists s a, enclose o (String "]" c) r = Ok s /\ L s = (L o ++ a ++ "]"%char :: L c)%list /\ lform sp row a.
Proof.
  intros Hs Hne G -> ->. destruct (row_form sep sp row Hs Hne G (length row) 0 eq_refl) as (s & E & F). rewrite E. cbn [enclose bind]. exists (o ++ s ++ String "]" c)%string, (L s). rewrite !L_app. auto.
Qed.
Lemma vec_form d v : valid_array d (EV v) -> array_names d (EV v) -> array_no_negative_zero d (EV v) -> exists s, vec_string fmt v = Ok s /\ eform (EV v) (L s).
Proof.
  intros V N NZ. pose proof (good_rows _ _ V N NZ) as G. rewrite rows_EV in G. apply (proj1 (Forall_map _ _ _)) in G.
  assert (G' : Forall good (vec_entries v)). { eapply Forall_impl; [|exact G]. intros s H. inversion H; assumption. } clear G.
  assert (C : expr_check (EV v) = true). { apply valid_array_check in V as [X _]. exact X. } cbn [expr_check] in C.
  destruct V as (H1 & _ & (S1 & _) & _). rewrite rows_EV, map_length in S1.
  assert (Hne : vec_entries v <> []) by (intro X; rewrite X in S1; cbn in S1; lia).
  assert (K : forall r, r = print_list (scalar_string fmt) ", " "" (length (vec_entries v)) 0 (vec_entries v) -> exists s, enclose (vprefix v) "]" r = Ok s /\ eform (EV v) (L s)).
  { intros r Hr. destruct (enclosed (vprefix v) "" (vec_entries v) r ", " [" "%char] (length (vec_entries v)) eq_refl Hne G' eq_refl Hr) as (s & a & E & Es & F). exists s. split; [exact E|]. exists a. auto. }
  destruct v as [l|l|l|l]; cbn [vec_string vprefix vec_entries] in *; rewrite ?C; cbn [check bind]; apply K; rewrite map_length; apply print_list_via; reflexivity.
Qed.
Lemma mat_form d m : valid_array d (EM m) -> array_names d (EM m) -> array_no_negative_zero d (EM m) -> exists s, mat_string fmt m = Ok s /\ eform (EM m) (L s).
Proof.
  intros V N NZ. pose proof (good_rows _ _ V N NZ) as G. rewrite rows_EM in G.
  assert (C : expr_check (EM m) = true) by (apply valid_array_check in V as [X _]; exact X). cbn [expr_check] in C.
  assert (D : mat_dims m = Ok d) by (apply (valid_array_check d (EM m)) in V as [_ X]; exact X).
  destruct V as (H1 & H2 & (S1 & S2) & _). rewrite rows_EM in S1, S2.
  assert (Hne : mat_rows m <> []) by (intro X; rewrite X in S1; cbn in S1; lia).
  assert (Hr : forall row, In row (mat_rows m) -> row <> [] /\ Forall good row /\ length row = snd d).
  { intros row Hrow. rewrite Forall_forall in S2, G. repeat split; [|apply G; exact Hrow|apply S2; exact Hrow]. intro X. specialize (S2 row Hrow). rewrite X in S2. cbn in S2. lia. }
  assert (K : forall o c sep1 sp sep fin after r, L sep1 = ","%char :: sp ->
    r = print_list (fun row => enclose o (String "]" c) (print_list (scalar_string fmt) sep1 "" (length row) 0 row)) sep fin (length (mat_rows m)) 0 (mat_rows m) ->
    exists s, enclose (mprefix m) after r = Ok s /\ exists b, L s = (L (mprefix m) ++ b)%list /\ rform sp (L o) (L c) (L sep) (L fin ++ L after) (mat_rows m) b).
  { intros o c sep1 sp sep fin after r Hs ->.
    destruct (rows_form (fun row => enclose o (String "]" c) (print_list (scalar_string fmt) sep1 "" (length row) 0 row)) sp (L o) (L c) sep fin (L after) (mat_rows m) Hne) with (n := length (mat_rows m)) (i := 0)
      as (s & E & F); [|reflexivity|].
    - intros row Hrow. destruct (Hr row Hrow) as (R1 & R2 & _). exact (enclosed o c row _ sep1 sp _ Hs R1 R2 eq_refl eq_refl).
    - rewrite E. cbn [enclose bind]. eexists. split; [reflexivity|]. exists (L s ++ L after)%list. split; [rewrite !L_app; reflexivity | exact F]. }
  assert (Q : forall (A : Type) (h : A -> scalar) (f : A -> res string) (l : list (list A)) o c sep1 (n : list A -> nat) sep fin k, mat_rows m = map (map h) l -> (forall a, f a = scalar_string fmt (h a)) -> (forall row, In row l -> n row = length row) ->
     k = length l ->
     print_list (fun row => enclose o (String "]" c) (print_list f sep1 "" (n row) 0 row)) sep fin k 0 l =
     print_list (fun row => enclose o (String "]" c) (print_list (scalar_string fmt) sep1 "" (length row) 0 row)) sep fin (length (mat_rows m)) 0 (mat_rows m)).
  { intros A h f l o c sep1 n sep fin k Em Hf Hn ->. rewrite Em, map_length. clear - Hf Hn. generalize (length l), 0 at 2 4. induction l as [|row l IH]; intros k i; cbn [print_list map]; [reflexivity|].
    rewrite (Hn row (or_introl eq_refl)), map_length, <- (print_list_via f (scalar_string fmt) h _ _ _ _ Hf). rewrite IH; [reflexivity|]. intros r Hr. apply Hn. right. exact Hr. }
  assert (Z : forall (A : Type) (h : A -> scalar) (l : list (list A)), mat_rows m = map (map h) l -> fst d = length l /\ forall row, In row l -> snd d = length row).
  { intros A h l Em. rewrite Em in S1, Hr. rewrite map_length in S1. split; [auto|]. intros row Hrow. destruct (Hr (map h row)) as (_ & _ & X); [apply in_map; exact Hrow|]. rewrite map_length in X. auto. }
  destruct m as [l|l|l|l]; cbn [mat_string] in *; rewrite ?D, ?C; cbn [check bind].
  - destruct (Z num SK l eq_refl) as [Z1 Z2]. apply (K "[" "" "," [] ("," ++ newline ++ " [") ("]" ++ newline) "")%string; [reflexivity|]. apply (Q num SK); auto.
  - apply (K "[" "" ", " [" "%char] ", " "" "]")%string; [reflexivity|]. apply (Q var SV); auto.
  - destruct (Z Monomial SM l eq_refl) as [Z1 Z2]. apply (K "[ " "," ", " [" "%char] ("," ++ newline ++ " ") "" " ]")%string; [reflexivity|]. apply (Q Monomial SM); auto.
  - destruct (Z Polynomial SP l eq_refl) as [Z1 Z2]. apply (K "[" "" ", " [" "%char] ("," ++ newline) "" "]")%string; [reflexivity|]. apply (Q Polynomial SP); auto.
Qed.
Lemma expr_form d e : valid_array d e -> array_names d e -> array_no_negative_zero d e -> exists s, expr_string fmt e = Ok s /\ eform e (L s).
Proof.
  intros V N NZ. destruct e as [s|v|m]; [|apply (vec_form d); assumption|apply (mat_form d); assumption].
  pose proof (good_rows _ _ V N NZ) as G. inversion G as [|? ? G1 _]; subst. inversion G1 as [|? ? (G2 & G3 & _) _]; subst. exact (scalar_form s G2 G3).
Qed.

(** ** The kind of an expression can be read from its first characters *)
Definition kindof (e : expr) : nat :=
  match e with ES _ => 0 | EV (VK _) => 1 | EV (VV _) => 2 | EV (VM _) => 3 | EV (VP _) => 4 | EM (MK _) => 5 | EM (MV _) => 6 | EM (MM _) => 7 | EM (MP _) => 8 end.
Definition is_at (c : ascii) (k : nat) (l : list ascii) : bool := match nth_error l k with Some x => Ascii.eqb x c | None => false end.
Definition read_kind (l : list ascii) : nat :=
  if is_at "V" 0 l then 2
  else if is_at "M" 0 l then (if is_at "V" 8 l then 3 else 7)
  else if is_at "P" 0 l then (if is_at "V" 10 l then 4 else 8)
  else if is_at "[" 0 l then (if is_at "[" 1 l then (if is_at "x" 2 l then 6 else 5) else 1)
  else 0.
Lemma form_head m s : valid_mono m -> form m s -> exists x l, s = x :: l /\ x <> "["%char /\ x <> "P"%char /\ x <> "M"%char /\ x <> "V"%char.
Proof.
  intros (Le & _) F. destruct (W_head (m_coeff m)) as (x & l & E & Q). destruct F as [Hv He|Hv Hc|Hv Hc].
  - exists x, l. tauto.
  - destruct (flist_x (m_vars m) (m_exps m) Hv Le) as (k & ->). exists "x"%char, k. repeat split; discriminate.
  - rewrite E. eexists x, _. cbn. split; [reflexivity|]. tauto.
Qed.
Lemma sform_head p s : Forall valid_mono p -> sform p s -> exists x l, s = x :: l /\ x <> "["%char /\ x <> "P"%char /\ x <> "M"%char /\ x <> "V"%char.
Proof. intros V F. destruct F as [m p a l Fm _]. inversion V as [|? ? Vm _]; subst. destruct (form_head m a Vm Fm) as (x & k & -> & Q). exists x, (k ++ l)%list. auto. Qed.
Lemma lform_head sp l a : lform sp l a -> exists s l' b c, l = s :: l' /\ a = (b ++ c)%list /\ sform (terms s) b.
Proof. intro F. destruct F as [s a F|s l a b F _]; [exists s, [], a, [] | exists s, l, a, (","%char :: sp ++ b)%list]; rewrite ?app_nil_r; auto. Qed.
Lemma rform_head sp o c sep fin r b : rform sp o c sep fin r b -> exists row r' a k, r = row :: r' /\ b = (o ++ a ++ k)%list /\ lform sp row a.
Proof. intro F. destruct F as [l a F|l r a b F _]; [exists l, [], a | exists l, r, a]; eexists; split; try reflexivity; split; try reflexivity; exact F. Qed.
Lemma k_head k s : sform (terms (SK k)) s -> exists x l, s = x :: l /\ x <> "["%char /\ x <> "x"%char.
Proof.
  intro F. inversion F as [m p a l Fm Fp]; subst. inversion Fm as [Hv He Hs|Hv Hc Hs|Hv Hc Hs]; cbn in Hv; try congruence.
  destruct (W_head k) as (x & k' & E & Q). cbn [m_coeff]. rewrite E. exists x. eexists. split; [reflexivity|]. tauto.
Qed.
Lemma v_head v s : sform (terms (SV v)) s -> exists l, s = "x"%char :: l.
Proof.
  intro F. inversion F as [m p a l Fm Fp]; subst. inversion Fm as [Hv He Hs|Hv Hc Hs|Hv Hc Hs]; cbn in Hv; try congruence; [|cbn in Hc; congruence].
  destruct (flist_x [v] [1%Z] Hv eq_refl) as (k & E). cbn [m_vars m_exps]. rewrite E. eexists. reflexivity.
Qed.
Lemma eqb_diff (x c : ascii) : x <> c -> Ascii.eqb x c = false.
Proof. intro H. apply Ascii.eqb_neq. exact H. Qed.
Lemma kind_read e l : Forall (Forall good) (rows e) -> eform e l -> read_kind l = kindof e.
Proof.
  intros G F. destruct e as [s|v|m]; cbn [eform] in F.
  - inversion G as [|? ? G1 _]; subst. inversion G1 as [|? ? [G2 _] _]; subst. destruct (sform_head _ _ (valid_terms s G2) F) as (x & k & -> & Q1 & Q2 & Q3 & Q4).
    unfold read_kind, is_at. cbn [nth_error]. rewrite (eqb_diff _ _ Q1), (eqb_diff _ _ Q2), (eqb_diff _ _ Q3), (eqb_diff _ _ Q4). reflexivity.
  - destruct F as (a & -> & F). destruct v as [k|k|k|k]; try reflexivity. apply lform_head in F as (s & l' & b & c & E & -> & F).
    destruct k as [|k0 k]; cbn in E; [discriminate|]. injection E as <- <-. destruct (k_head _ _ F) as (x & b' & -> & Q1 & _).
    unfold read_kind, is_at. cbn [vprefix list_ascii_of_string app nth_error]. rewrite (eqb_diff _ _ Q1). reflexivity.
  - destruct F as (b & -> & F). destruct m as [k|k|k|k]; try reflexivity; cbn [mform] in F; apply rform_head in F as (row & r & a & u & E & -> & F); apply lform_head in F as (s & l' & c & u' & -> & -> & F);
      destruct k as [|[|k0 k1] k]; cbn in E; try discriminate; injection E as <- <- <-.
    + destruct (k_head _ _ F) as (x & b' & -> & _ & Q1). unfold read_kind, is_at. cbn [mprefix list_ascii_of_string app nth_error]. rewrite (eqb_diff _ _ Q1). reflexivity.
    + destruct (v_head _ _ F) as (b' & ->). reflexivity.
Qed.

Definition same_rows (e e' : expr) : Prop := Forall2 (Forall2 same_printed) (rows e) (rows e').
Lemma column_same l l' : Forall2 same_printed l l' -> Forall2 (Forall2 same_printed) (map (fun s => [s]) l) (map (fun s => [s]) l').
Proof. induction 1; cbn; constructor; [repeat constructor; assumption | assumption]. Qed.
Lemma eform_inj e e' l : Forall (Forall good) (rows e) -> Forall (Forall good) (rows e') -> eform e l -> eform e' l -> same_rows e e' /\ kindof e = kindof e'.
Proof.
  intros G G' F F'. assert (K : kindof e = kindof e') by (rewrite <- (kind_read e l G F), <- (kind_read e' l G' F'); reflexivity). split; [|exact K]. unfold same_rows.
  assert (GV : forall v, Forall (Forall good) (rows (EV v)) -> Forall good (vec_entries v)).
  { intros v X. rewrite rows_EV in X. apply (proj1 (Forall_map _ _ _)) in X. eapply Forall_impl; [|exact X]. intros s H. inversion H; assumption. }
  destruct e as [s|v|m], e' as [s'|v'|m']; try (exfalso; clear - K; destruct v || destruct m; try destruct v' || destruct m'; cbn in K; discriminate);
    try (exfalso; clear - K; destruct v' || destruct m'; cbn in K; discriminate).
  - cbn [eform] in F, F'. constructor; [|constructor]. constructor; [|constructor]. inversion G as [|? ? G1 _]; subst. inversion G1 as [|? ? (G2 & _ & P) _]; subst. inversion G' as [|? ? G1' _]; subst. inversion G1' as [|? ? (G2' & _ & P') _]; subst. apply plains_iff in P, P'.
    destruct (sform_inj (terms s) (terms s') l l [] []) as [H _]; auto; try exact I; apply valid_terms; assumption.
  - cbn [eform] in F, F'. destruct F as (a & -> & F), F' as (a' & E & F'). rewrite !rows_EV. apply column_same.
    assert (P : vprefix v = vprefix v') by (destruct v, v'; cbn in K; try discriminate; reflexivity). rewrite P in E. apply app_inv_head in E.
    apply (lform_inj [" "%char] (vec_entries v) (vec_entries v')) in E as [E _]; auto.
  - cbn [eform] in F, F'. destruct F as (b & -> & F), F' as (b' & E & F'). rewrite !rows_EM in *.
    destruct m as [k|k|k|k], m' as [k'|k'|k'|k']; cbn [kindof] in K; try discriminate; cbn [mprefix] in E; apply app_inv_head in E; cbn [mform] in F, F'; eapply rform_inj; try eassumption; cbn; discriminate.
Qed.
Lemma Forall2_len {A B} (R : A -> B -> Prop) l l' : Forall2 R l l' -> length l = length l'.
Proof. induction 1; cbn; auto. Qed.
Lemma same_rows_entries d d' e e' : valid_array d e -> valid_array d' e' -> same_rows e e' -> d = d' /\ forall i j, i < fst d -> j < snd d -> same_printed (entry e i j) (entry e' i j).
Proof.
  intros (H1 & H2 & (S1 & S2) & _) (H1' & H2' & (S1' & S2') & _) F. unfold same_rows in F.
  assert (E : forall i, i < fst d -> exists row row', nth_error (rows e) i = Some row /\ nth_error (rows e') i = Some row' /\ Forall2 same_printed row row' /\ length row = snd d /\ length row' = snd d').
  { intros i Hi. destruct (nth_error_lt (rows e) i) as (row & Er); [lia|]. destruct (Forall2_nth _ _ _ _ _ F Er) as (row' & Er' & HR). exists row, row'. repeat split; auto.
    - rewrite Forall_forall in S2. apply S2. eapply nth_error_In; exact Er.
    - rewrite Forall_forall in S2'. apply S2'. eapply nth_error_In; exact Er'. }
  assert (D : d = d').
  { destruct d as [a b], d' as [a' b']. cbn [fst snd] in *. f_equal; [rewrite <- S1, <- S1'; eapply Forall2_len; exact F|]. destruct (E 0 ltac:(lia)) as (row & row' & _ & _ & HR & L1 & L2). rewrite <- L1, <- L2. eapply Forall2_len; exact HR. }
  split; [exact D|]. intros i j Hi Hj. destruct (E i Hi) as (row & row' & Er & Er' & HR & L1 & L2). destruct (nth_error_lt row j) as (s & Es); [lia|]. destruct (Forall2_nth _ _ _ _ _ HR Es) as (s' & Es' & HS).
  unfold entry. rewrite (nth_error_nth_eq _ _ _ _ Er), (nth_error_nth_eq _ _ _ _ Er'), (nth_error_nth_eq _ _ _ _ Es), (nth_error_nth_eq _ _ _ _ Es'). exact HS.
Qed.
Lemma expr_faithful d d' e e' a : valid_array d e -> valid_array d' e' -> array_names d e -> array_names d' e' -> array_no_negative_zero d e -> array_no_negative_zero d' e' -> expr_string fmt e = Ok a -> expr_string fmt e' = Ok a ->
  d = d' /\ (is_scalar e <-> is_scalar e') /\ (is_vector e <-> is_vector e') /\ forall i j, i < fst d -> j < snd d -> same_printed (entry e i j) (entry e' i j).
Proof.
  intros V V' N N' NZ NZ' E E'. destruct (expr_form d e V N NZ) as (b & Eb & F). rewrite E in Eb. injection Eb as <-. destruct (expr_form d' e' V' N' NZ') as (b & Eb & F'). rewrite E' in Eb. injection Eb as <-.
  destruct (eform_inj e e' (L a) (good_rows _ _ V N NZ) (good_rows _ _ V' N' NZ') F F') as [HR K]. destruct (same_rows_entries d d' e e' V V' HR) as [D H].
  split; [exact D|]. split; [|split; [|exact H]]; (destruct e as [s|v|m]; [|destruct v|destruct m]; (destruct e' as [s'|v'|m']; [|destruct v'|destruct m']); cbn in K |- *; try discriminate; tauto).
Qed.

(** ** Scalar constraints *)
Lemma sc_form c : valid (sc_left c) -> valid (sc_right c) -> sc_sense c <> SenseOther -> default_names (sc_left c) -> default_names (sc_right c) ->
  exists s, sc_string fmt c = Ok s /\ exists a b o, L s = (a ++ " "%char :: o ++ " "%char :: b)%list /\ sform (terms (sc_left c)) a /\ sform (terms (sc_right c)) b /\
    o = match sc_sense c with SenseEq => ["="] | SenseLe => ["<"; "="] | SenseGe => [">"; "="] | SenseOther => [] end%char.
Proof.
  intros V1 V2 HS N1 N2. unfold sc_string.
  assert (C : sc_check c = true). { unfold sc_check. rewrite (valid_check _ V1), (valid_check _ V2). destruct (sc_sense c); cbn; congruence. }
  rewrite C. cbn [check bind]. destruct (scalar_form _ V1 N1) as (a & Ea & Fa). destruct (scalar_form _ V2 N2) as (b & Eb & Fb). rewrite Ea. cbn [bind].
  destruct (sc_sense c); cbn [sense_string bind]; try congruence; rewrite Eb; cbn [bind]; eexists; (split; [reflexivity|]); exists (L a), (L b); eexists; rewrite !L_app; cbn [list_ascii_of_string app]; (split; [|split; [exact Fa | split; [exact Fb | reflexivity]]]); reflexivity.
Qed.
Lemma sc_faithful c c' a : no_negative_zero (sc_left c) -> no_negative_zero (sc_right c) -> no_negative_zero (sc_left c') -> no_negative_zero (sc_right c') -> valid (sc_left c) -> valid (sc_right c) -> sc_sense c <> SenseOther -> default_names (sc_left c) -> default_names (sc_right c) ->
  valid (sc_left c') -> valid (sc_right c') -> sc_sense c' <> SenseOther -> default_names (sc_left c') -> default_names (sc_right c') ->
  sc_string fmt c = Ok a -> sc_string fmt c' = Ok a -> same_printed (sc_left c) (sc_left c') /\ same_printed (sc_right c) (sc_right c') /\ sc_sense c = sc_sense c'.
Proof.
  intros P1 P2 P1' P2' V1 V2 HS N1 N2 V1' V2' HS' N1' N2' E E'. apply plains_iff in P1, P2, P1', P2'. destruct (sc_form c V1 V2 HS N1 N2) as (s & Es & x & y & o & Ex & F1 & F2 & Ho). rewrite E in Es. injection Es as <-.
  destruct (sc_form c' V1' V2' HS' N1' N2') as (s & Es & x' & y' & o' & Ex' & F1' & F2' & Ho'). rewrite E' in Es. injection Es as <-. rewrite Ex in Ex'.
  assert (R : forall u d, d <> SenseOther -> rest2 (" "%char :: match d with SenseEq => ["="] | SenseLe => ["<"; "="] | SenseGe => [">"; "="] | SenseOther => [] end%char ++ u)).
  { intros u d Hd. split; [reflexivity|]. intros _. destruct d; cbn; try congruence; repeat split; discriminate. }
  rewrite Ho, Ho' in Ex'.
  apply (sform_inj (terms (sc_left c)) (terms (sc_left c'))) in Ex' as [Q1 Q2]; auto using valid_terms.
  assert (Q3 : sc_sense c = sc_sense c') by (destruct (sc_sense c), (sc_sense c'); cbn in Q2; congruence). rewrite Q3 in Q2. injection Q2 as Q2. apply app_inv_head in Q2. injection Q2 as Q2.
  split; [exact Q1|]. split; [|exact Q3]. destruct (sform_inj (terms (sc_right c)) (terms (sc_right c')) y y' [] []) as [H _]; auto using valid_terms; try exact I. rewrite !app_nil_r. exact Q2.
Qed.

End Print.

Lemma printable_of (NN : Num) : ExactNum NN \/ NN = F64Num -> printable NN.
Proof. intros [H| ->]; [apply exact_printable | apply float_printable]. Qed.

(** ** Printing does not panic *)
Section Total.
Context {NN : Num} (fmt : num -> string).
Definition fine (r : res string) : Prop := exists s, r = Ok s.
Lemma factors_fine vs : forall es, length es = length vs -> fine (factors_string vs es).
Proof. induction vs as [|v vs IH]; intros [|e es] Le; try discriminate; cbn [factors_string]; [eexists; reflexivity|]. destruct (IH es) as (s & ->); [cbn in Le; lia|]. eexists. reflexivity. Qed.
Lemma mono_fine m : valid_mono m -> fine (mono_string fmt m).
Proof. intros V. unfold mono_string. rewrite (valid_mono_check m V). cbn [check bind]. destruct V as (Le & _). destruct (factors_fine (m_vars m) (m_exps m) Le) as (s & ->). eexists. reflexivity. Qed.
Lemma more_fine p : Forall valid_mono p -> fine (more_string fmt p).
Proof.
  induction 1 as [|m p V _ IH]; cbn [more_string]; [eexists; reflexivity|]. destruct (mono_fine (mkMono (nabs (m_coeff m)) (m_exps m) (m_vars m)) V) as (s & ->). cbn [bind]. destruct IH as (r & ->). eexists. reflexivity.
Qed.
Lemma scalar_fine s : valid s -> fine (scalar_string fmt s).
Proof.
  destruct s as [k|v|m|p]; cbn [scalar_string]; intro V; try (eexists; reflexivity); [apply mono_fine; exact V|]. unfold poly_string. rewrite (valid_poly_check p V). cbn [check bind]. destruct V as [_ V].
  destruct V as [|m p Vm Vp]; [eexists; reflexivity|]. destruct (mono_fine m Vm) as (s & ->). cbn [bind]. destruct (more_fine p Vp) as (r & ->). eexists. reflexivity.
Qed.
Lemma print_list_fine {A} (f : A -> res string) sep fin n l : (forall a, In a l -> fine (f a)) -> forall i, fine (print_list f sep fin n i l).
Proof.
  induction l as [|a l IH]; intros H i; cbn [print_list]; [eexists; reflexivity|]. destruct (H a (or_introl eq_refl)) as (s & ->). cbn [bind].
  destruct (IH (fun b Hb => H b (or_intror Hb)) (S i)) as (r & ->). eexists. reflexivity.
Qed.
Lemma enclose_fine a b r : fine r -> fine (enclose a b r).
Proof. intros (s & ->). eexists. reflexivity. Qed.
Lemma expr_fine d e : valid_array d e -> fine (expr_string fmt e).
Proof.
  intro V. assert (HV : forall row s, In row (rows e) -> In s row -> valid s).
  { intros row s Hr Hs. apply In_nth_error in Hr as (i & Hi). apply In_nth_error in Hs as (j & Hj). destruct V as (_ & _ & (S1 & S2) & HV). rewrite Forall_forall in S2.
    specialize (HV i j). unfold entry in HV. rewrite (nth_error_nth_eq _ _ _ _ Hi), (nth_error_nth_eq _ _ _ _ Hj) in HV. apply HV; [rewrite <- S1; eapply nth_error_bound; exact Hi|].
    rewrite <- (S2 row); [eapply nth_error_bound; exact Hj | eapply nth_error_In; exact Hi]. }
  destruct (valid_array_check d e V) as [C D]. destruct e as [s|v|m]; cbn [expr_string].
  - apply scalar_fine. apply (HV [s]); left; reflexivity.
  - cbn [expr_check] in C. destruct v as [l|l|l|l]; cbn [vec_string]; rewrite ?C; cbn [check bind]; apply enclose_fine, print_list_fine; intros a Ha; try (eexists; reflexivity).
    + apply (scalar_fine (SM a)). apply (HV [SM a]); [cbn; apply in_map_iff; exists a; auto | left; reflexivity].
    + apply (scalar_fine (SP a)). apply (HV [SP a]); [cbn; apply in_map_iff; exists a; auto | left; reflexivity].
  - cbn [expr_check expr_dims] in C, D. destruct m as [l|l|l|l]; cbn [mat_string]; rewrite ?D, ?C; cbn [check bind]; apply enclose_fine, print_list_fine; intros row Hr; apply enclose_fine, print_list_fine; intros a Ha; try (eexists; reflexivity).
    + apply (scalar_fine (SM a)). apply (HV (map SM row)); [cbn; apply in_map; exact Hr | apply in_map; exact Ha].
    + apply (scalar_fine (SP a)). apply (HV (map SP row)); [cbn; apply in_map; exact Hr | apply in_map; exact Ha].
Qed.
Lemma sc_fine c : valid (sc_left c) -> valid (sc_right c) -> sc_sense c <> SenseOther -> fine (sc_string fmt c).
Proof.
  intros V1 V2 HS. unfold sc_string. assert (C : sc_check c = true). { unfold sc_check. rewrite (valid_check _ V1), (valid_check _ V2). destruct (sc_sense c); cbn; congruence. }
  rewrite C. cbn [check bind]. destruct (scalar_fine _ V1) as (a & ->), (scalar_fine _ V2) as (b & ->). destruct (sc_sense c); try congruence; eexists; reflexivity.
Qed.
End Total.

(** ** The names of new variables *)
Section Names.
Context {NN : Num}.
Lemma continuous_name n e : default_name (continuous n e).
Proof. unfold default_name. cbn [continuous v_name v_id]. rewrite Nat2N.id. reflexivity. Qed.
Lemma binary_name n e : default_name (binary n e).
Proof. unfold default_name. cbn [binary v_name v_id]. rewrite Nat2N.id. reflexivity. Qed.
Lemma new_variables_names n : forall st e v, In v (fst (new_variables n st e)) -> default_name v.
Proof.
  induction n as [|n IH]; intros st e v; cbn [new_variables]; [intros []|]. unfold new_variable. specialize (IH (set_env st (current_env [e]) (snd (track (st (current_env [e])) (continuous (length (st (current_env [e]))) (current_env [e]))))) e v).
  destruct (new_variables n _ e) as [vs st2]. cbn [fst] in *. intros [<-|Hv]; [apply continuous_name | apply IH; exact Hv].
Qed.
Lemma new_rows_names r c : forall st e v, In v (concat (fst (new_rows r c st e))) -> default_name v.
Proof.
  induction r as [|r IH]; intros st e v; cbn [new_rows]; [intros []|].
  pose proof (new_variables_names c st e v) as H. destruct (new_variables c st e) as [row st1]. specialize (IH st1 e v). destruct (new_rows r c st1 e) as [m st2]. cbn [fst concat] in *.
  intro Hv. apply in_app_iff in Hv as [Hv|Hv]; auto.
Qed.
Lemma history_default_names cs v : In v (fst (run_calls empty_store cs)) -> default_name v.
Proof.
  generalize empty_store as st. induction cs as [|c cs IH]; intros st; cbn [run_calls]; [intros []|].
  assert (H : In v (fst (run_call st c)) -> default_name v).
  { destruct c as [envs|envs|n envs|r c envs|e w]; cbn [run_call].
    - unfold new_variable. intros [<-|[]]. apply continuous_name.
    - unfold new_variable. intros [<-|[]]. apply binary_name.
    - intro Hv. unfold new_vector in Hv. apply new_variables_names in Hv. exact Hv.
    - unfold new_matrix. intro Hv. destruct envs as [|e1 [|e2 envs]]; [| |destruct Hv];
        (destruct (Z.ltb 0 r && Z.ltb c 0); [destruct Hv|]);
        (match type of Hv with context [new_rows ?a ?b ?s ?x] => pose proof (new_rows_names a b s x v) as H; destruct (new_rows a b s x) as [m st'] end; apply H; exact Hv).
    - intros []. }
  destruct (run_call st c) as [vs st1]. specialize (IH st1). destruct (run_calls st1 cs) as [ws st2]. cbn [fst] in *. intro Hv. apply in_app_iff in Hv as [Hv|Hv]; auto.
Qed.
End Names.
Lemma expr_values {NN : Num} {EX : ExactNum NN} fmt d d' e e' a : identifies fmt -> valid_array d e -> valid_array d' e' ->
  array_names d e -> array_names d' e' -> expr_string fmt e = Ok a -> expr_string fmt e' = Ok a -> forall r i j, i < fst d -> j < snd d -> value r e i j = value r e' i j.
Proof.
  intros HI V V' N N' E E' r i j Hi Hj. destruct (expr_faithful exact_printable fmt HI d d' e e' a) as (_ & _ & _ & H); auto; try (intros x y _ _; apply exact_no_negative_zero).
  unfold value. apply same_printed_value. apply H; assumption.
Qed.
