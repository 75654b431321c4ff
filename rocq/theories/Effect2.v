(** * Exact effect of Minus and of products with one term *)

From Coq Require Import ZArith NArith Bool List Lia Field Permutation.
From Verif Require Import Num Syntax ModelScalar Spec SpecConv SpecEffect Base ScalarValid Eval ScalarOps ScalarMore ScalarNorm Order Canon Arr Effect.
Import ListNotations.

Section Effect2.
Context {NN : Num} {EX : ExactNum NN}.
Local Open Scope num_scope.
Ltac cb := cbn [bind check].
Add Ring numring_e2 : num_ring.

Definition neg (m : Monomial) : Monomial := mkMono (- m_coeff m) (m_exps m) (m_vars m).

Lemma times_nm1 (c : num) : c * nm1 = - c.
Proof. rewrite nm1_exact. ring. Qed.
Lemma set_neg m : set_coeff m (m_coeff m * nm1) = neg m.
Proof. rewrite times_nm1. reflexivity. Qed.
Lemma neg_zero (c : num) : (- c =? n0) = (c =? n0).
Proof.
  apply eq_true_iff_eq. rewrite !ex_eqb. split; intro H; [|rewrite H; ring]. transitivity (- - c); [ring | rewrite H; ring].
Qed.
Lemma neg_const m : is_const (neg m) = is_const m.
Proof. reflexivity. Qed.
Lemma neg_matchb a b : matchb (neg a) (neg b) = matchb a b.
Proof. reflexivity. Qed.
Lemma neg_valid m : valid_mono m -> valid_mono (neg m).
Proof. intro H. exact H. Qed.

Lemma add_pure_neg acc m : add_pure (map neg acc) (neg m) = map neg (add_pure acc m).
Proof.
  induction acc as [|e acc IH]; [reflexivity|]. cbn [map add_pure]. rewrite neg_matchb. destruct (matchb e m); cbn [map].
  - f_equal. unfold neg, set_coeff. cbn [m_coeff m_exps m_vars]. f_equal. ring.
  - rewrite IH. reflexivity.
Qed.
Lemma simp_pure_neg p c acc : simp_pure (map neg p) (- c) (map neg acc) = (let '(c', acc') := simp_pure p c acc in (- c', map neg acc')).
Proof.
  revert c acc. induction p as [|m p IH]; intros c acc; [reflexivity|]. cbn [map simp_pure]. rewrite neg_const. destruct (is_const m).
  - replace (- c + m_coeff (neg m)) with (- (c + m_coeff m)) by (cbn [neg m_coeff]; ring). apply IH.
  - rewrite add_pure_neg. apply IH.
Qed.
Lemma filter_neg l : filter nonzero (map neg l) = map neg (filter nonzero l).
Proof.
  induction l as [|m l IH]; [reflexivity|]. cbn [map filter]. rewrite IH. unfold nonzero. cbn [neg m_coeff]. rewrite neg_zero.
  destruct (m_coeff m =? n0); reflexivity.
Qed.
Lemma psimp_neg p : psimp (map neg p) = map neg (psimp p).
Proof.
  unfold psimp. pose proof (simp_pure_neg p n0 []) as H. cbn [map] in H. replace (- n0) with n0 in H by ring. rewrite H. clear H.
  destruct (simp_pure p n0 []) as [c nc]. rewrite neg_zero, filter_neg.
  assert (E : (if c =? n0 then [] else [k_to_mono (- c)]) ++ map neg (filter nonzero nc)
            = map neg ((if c =? n0 then [] else [k_to_mono c]) ++ filter nonzero nc)) by (rewrite map_app; destruct (c =? n0); reflexivity).
  rewrite E. destruct ((if c =? n0 then [] else [k_to_mono c]) ++ filter nonzero nc); [|reflexivity].
  cbn [map]. unfold neg, k_to_mono. cbn [m_coeff m_exps m_vars]. do 2 f_equal. ring.
Qed.

Lemma plain_terms m v vs : valid_mono m -> is_plain_var m = true -> m_vars m = v :: vs -> terms (SV v) = [m].
Proof.
  intros (V1 & _) H E. pose proof (plain_var_single m v vs H E) as E1. unfold is_plain_var in H. apply andb_true_iff in H. destruct H as [H H3].
  apply andb_true_iff in H. destruct H as [H1 _]. apply ex_eqb in H1. destruct m as [c es ws]. cbn [m_coeff m_exps m_vars] in *. subst c ws. rewrite E1 in V1.
  destruct es as [|e [|e' es]]; try discriminate. apply Z.eqb_eq in H3. subst e. rewrite E1. reflexivity.
Qed.

(** the terms of a simplified polynomial *)
Lemma psimplified_terms p : Forall valid_mono p -> terms (psimplified p) = psimp p.
Proof.
  intro V. pose proof (psimp_valid p V) as [_ Hv]. unfold psimplified. destruct (psimp p) as [|m [|m2 l]] eqn:E; try reflexivity.
  inversion Hv as [|? ? Hm _]; subst. destruct (is_const m) eqn:Hk; [rewrite (const_mono m Hm Hk) at 2; reflexivity|].
  destruct (is_plain_var m) eqn:Ep; [|reflexivity]. destruct (m_vars m) as [|v vs] eqn:Ev; [reflexivity|]. eapply plain_terms; eassumption.
Qed.
Lemma psimplified_sp p : (exists q, psimplified p = SP q) <-> length (psimp p) <> 1.
Proof.
  unfold psimplified. destruct (psimp p) as [|m [|m2 l]]; cbn [length].
  - split; [discriminate | intros _; eauto].
  - split; [|lia]. intros (q & H). exfalso. destruct (is_const m); [discriminate|]. destruct (is_plain_var m); [destruct (m_vars m)|]; discriminate.
  - split; [lia | intros _; eauto].
Qed.

Definition is_sp (s : scalar) : bool := match s with SP _ => true | _ => false end.

Lemma listed_by a b : listed_sum a b = match a, is_sp b with SM _, true => terms b ++ terms a | _, _ => terms a ++ terms b end.
Proof. destruct a, b; reflexivity. Qed.
Lemma difference_by a b : listed_difference a b = match a, is_sp b with SM _, true => map neg (terms b) ++ terms a | _, _ => terms a ++ map neg (terms b) end.
Proof. destruct a, b; reflexivity. Qed.

Lemma scale_ok p k : valid_poly p -> mapM (fun m => mono_mul_k m k) p = Ok (map (fun m => set_coeff m (m_coeff m * k)) p).
Proof.
  intros [_ V]. induction V as [|m p Vm V IH]; [reflexivity|]. cbn [mapM map]. unfold mono_mul_k at 1. rewrite (valid_mono_check m Vm). cb. rewrite IH. reflexivity.
Qed.

Lemma is_sp_psimplified p : is_sp (psimplified p) = negb (Nat.eqb (length (psimp p)) 1).
Proof.
  apply eq_true_iff_eq. rewrite negb_true_iff, Nat.eqb_neq, <- psimplified_sp. destruct (psimplified p); cbn; split; intro H; try discriminate; try (destruct H; discriminate); eauto.
Qed.

(** Multiply(-1) lists the terms of the simplified expression with the opposite sign *)
Lemma mul_nm1_terms b b' : valid b -> scalar_simplified b = Ok b' -> (match b with SM m => msimplified m = SM m | _ => True end) ->
  exists t, scalar_mul_float b nm1 = Ok t /\ valid t /\ terms t = map neg (terms b') /\ is_sp t = is_sp b'.
Proof.
  intros V E HM. rewrite scalar_simplified_ok in E by exact V. injection E as <-. destruct b as [k|v|m|p]; cbn [scalar_mul_float ssimplified].
  - exists (SK (k * nm1)). split; [reflexivity|]. split; [exact I|]. split; [|reflexivity]. cbn [terms map neg m_coeff m_exps m_vars]. rewrite times_nm1. reflexivity.
  - unfold var_mul_k. rewrite (proj2 (var_check_valid v) V) || rewrite (proj1 (var_check_valid v) V). cb.
    assert (Vm : valid_mono (mkMono nm1 [1%Z] [v])) by (apply valid_mono_var; [exact V | lia]).
    rewrite mono_simplified_ok by exact Vm. cb. pose proof (msimplified_valid _ Vm) as Vt. pose proof (msimplified_normal _ Vm) as Nt.
    rewrite scalar_simplified_ok by exact Vt. rewrite ssimplified_id by (try apply zero_laws_exact; assumption).
    eexists. split; [reflexivity|]. split; [exact Vt|]. unfold msimplified. cbn [m_vars m_coeff].
    assert (E0 : (nm1 =? n0) = false).
    { destruct (nm1 =? n0) eqn:E; [|reflexivity]. exfalso. rewrite nm1_exact, neg_zero in E. apply ex_eqb in E. exact (one_neq_zero E). }
    rewrite E0. destruct (is_plain_var (mkMono nm1 [1%Z] [v])) eqn:Ep.
    + split; [|reflexivity]. transitivity [mkMono nm1 [1%Z] [v]]; [exact (plain_terms (mkMono nm1 [1%Z] [v]) v [] Vm Ep eq_refl)|]. rewrite nm1_exact. reflexivity.
    + split; [|reflexivity]. cbn [terms map]. unfold neg. cbn [m_coeff m_exps m_vars]. rewrite nm1_exact. reflexivity.
  - unfold mono_mul_k. rewrite (valid_mono_check m V). cb. exists (SM (neg m)). unfold as_SM. cb. rewrite set_neg. split; [reflexivity|]. split; [exact V|]. rewrite HM. split; reflexivity.
  - unfold poly_mul_k. rewrite (valid_poly_check p V). cb. rewrite scale_ok by exact V. cb.
    assert (EQ : map (fun m => set_coeff m (m_coeff m * nm1)) p = map neg p) by (apply map_ext; intro m; apply set_neg).
    rewrite EQ. assert (Vn : valid_poly (map neg p)).
    { destruct V as [V0 V]. split; [destruct p; [congruence | discriminate]|]. apply Forall_map. eapply Forall_impl; [|exact V]. intros m Hm. exact Hm. }
    rewrite poly_simplified_ok by exact Vn. cb. pose proof (psimplified_valid _ (proj2 Vn)) as Vt. pose proof (psimplified_normal _ (proj2 Vn)) as Nt.
    rewrite scalar_simplified_ok by exact Vt. rewrite ssimplified_id by (try apply zero_laws_exact; assumption).
    eexists. split; [reflexivity|]. split; [exact Vt|]. rewrite !psimplified_terms by apply Vn || apply V. rewrite psimp_neg. split; [reflexivity|].
    rewrite !is_sp_psimplified, psimp_neg, map_length. reflexivity.
Qed.

Lemma minus_effect (a b b' s : scalar) : valid a -> valid b -> scalar_simplified b = Ok b' -> scalar_minus a b = Ok s ->
  forall r, eval r s = eval_poly r (regroup (listed_difference a b')).
Proof.
  intros Va Vb Eb E r. unfold scalar_minus in E. rewrite (valid_check a Va), (valid_check b Vb) in E. cbn [check bind] in E.
  assert (G : (match b with SM m => msimplified m = SM m | _ => True end) -> eval r s = eval_poly r (regroup (listed_difference a b'))).
  { intro HM. destruct (mul_nm1_terms b b' Vb Eb HM) as (t & Et & Vt & Tt & St). rewrite Et in E. cbn [bind] in E.
    rewrite (plus_effect a t s Va Vt E r). rewrite listed_by, difference_by, Tt, St. reflexivity. }
  destruct b as [k|v|m|p]; try (apply G; exact I). rewrite scalar_simplified_ok in Eb by exact Vb. cbn [ssimplified] in Eb. injection Eb as <-.
  cbn [valid] in Vb. assert (HC : msimplified m = SM m \/ msimplified m <> SM m).
  { unfold msimplified. destruct (m_vars m); [right; discriminate|]. destruct (m_coeff m =? n0); [right; discriminate|]. destruct (is_plain_var m); [right; discriminate | left; reflexivity]. }
  destruct HC as [HM|HN]; [apply G; exact HM|]. cbn [scalar_mul_float] in E. unfold mono_mul_k in E. rewrite (valid_mono_check m Vb) in E. cbn [check bind as_SM] in E. rewrite set_neg in E.
  rewrite (plus_effect a (SM (neg m)) s Va Vb E r). rewrite listed_by, difference_by. cbn [is_sp terms].
  assert (S0 : is_sp (msimplified m) = false) by (unfold msimplified; destruct (m_vars m); [reflexivity|]; destruct (m_coeff m =? n0); [reflexivity|]; destruct (is_plain_var m); reflexivity).
  rewrite S0. assert (L : forall l : list Monomial, (match a with SM _ | _ => l end) = l) by (intro l; destruct a; reflexivity). rewrite !L. clear L S0 E G HN.
  unfold msimplified. destruct (m_vars m) as [|v vs] eqn:Ev.
  - assert (E1 : m = k_to_mono (m_coeff m)) by (apply const_mono; [exact Vb | unfold is_const; rewrite Ev; reflexivity]). rewrite E1 at 1. reflexivity.
  - destruct (m_coeff m =? n0) eqn:E0.
    + apply ex_eqb in E0. pose proof (valid_terms a Va) as VT. rewrite !regroup_reg. cbn [terms map]. change (neg (mkMono n0 [] [])) with (k_to_mono (- n0)).
      rewrite (reg_last r (terms a) (k_to_mono (- n0))); [|apply Forall_app; split; [exact VT | constructor; [apply vk | constructor]] | apply rigid_k]. rewrite eval_k.
      rewrite reg_app, reg_cons. cbn [neg m_coeff]. rewrite E0.
      assert (EQ : reg r (terms a ++ [neg m]) (terms a) = reg r (terms a) (terms a)).
      { apply reg_ext. intros x Hx. unfold lfac. rewrite leader_app_found; [reflexivity|]. exists x. split; [exact Hx|]. apply alike_refl. rewrite Forall_forall in VT. apply VT, Hx. }
      rewrite EQ. change (reg r (terms a ++ [neg m]) []) with n0. ring.
    + destruct (is_plain_var m) eqn:Ep; [|reflexivity]. rewrite (plain_terms m v vs Vb Ep Ev). reflexivity.
Qed.

Lemma listed_difference_value r a b : eval_poly r (listed_difference a b) = eval r a - eval r b.
Proof.
  assert (Hn : forall l, eval_poly r (map neg l) = - eval_poly r l).
  { induction l as [|m l IH]; cbn [map eval_poly]; [ring|]. rewrite IH. unfold eval_mono. cbn [neg m_coeff m_exps m_vars]. ring. }
  rewrite difference_by, <- !eval_terms. destruct a as [k|v|m|p]; destruct (is_sp b); rewrite eval_poly_app, Hn; ring.
Qed.
Lemma listed_difference_valid a b : valid a -> valid b -> valid_poly (listed_difference a b).
Proof.
  intros Va Vb. rewrite difference_by. apply valid_terms_iff in Va. apply valid_terms_iff in Vb.
  assert (Vn : valid_poly (map neg (terms b))).
  { destruct Vb as [V0 V]. split; [destruct (terms b); [congruence | discriminate]|]. apply Forall_map. eapply Forall_impl; [|exact V]. intros m Hm. exact Hm. }
  destruct a as [k|v|m|p]; destruct (is_sp b); apply valid_poly_app; assumption.
Qed.

(** for an operand whose like terms are collected, the difference is right exactly when regrouping changes no coefficient *)
Lemma minus_exactly_when (a b s : scalar) : valid a -> valid b -> normal b -> scalar_minus a b = Ok s ->
  ((forall r, eval r s = eval r a - eval r b)
   <-> forall m, valid_mono m -> coefficient m (SP (regroup (listed_difference a b))) = coefficient m (SP (listed_difference a b))).
Proof.
  intros Va Vb Nb E. assert (Eb : scalar_simplified b = Ok b).
  { rewrite scalar_simplified_ok by exact Vb. f_equal. apply ssimplified_id; [apply zero_laws_exact; exact EX | exact Vb | exact Nb]. }
  pose proof (minus_effect a b b s Va Vb Eb E) as H. pose proof (listed_difference_valid a b Va Vb) as VT.
  rewrite <- (functions_determined (SP (regroup (listed_difference a b))) (SP (listed_difference a b)) (regroup_valid _ VT) VT). unfold same_function. cbn [eval].
  split; intros G r; [rewrite listed_difference_value, <- G, H; reflexivity | rewrite H, G; apply listed_difference_value].
Qed.

(** ** Products with one term *)

Lemma firsts_filter seen l : NoDup (map v_id l) -> firsts seen l = filter (fun v => negb (existsb (N.eqb (v_id v)) seen)) l.
Proof.
  revert seen. induction l as [|v l IH]; intros seen H; [reflexivity|]. inversion H as [|? ? H1 H2]; subst. cbn [firsts filter].
  destruct (in_dec N.eq_dec (v_id v) seen) as [Hi|Hi].
  - assert (EB : existsb (N.eqb (v_id v)) seen = true) by (apply existsb_exists; exists (v_id v); split; [exact Hi | apply N.eqb_refl]). rewrite EB. apply IH. exact H2.
  - assert (EB : existsb (N.eqb (v_id v)) seen = false).
    { destruct (existsb (N.eqb (v_id v)) seen) eqn:EB; [|reflexivity]. apply existsb_exists in EB. destruct EB as (j & Hj & Ej). apply N.eqb_eq in Ej. subst. contradiction. }
    rewrite EB. cbn [negb]. f_equal. rewrite IH by exact H2. apply filter_ext_in. intros w Hw. cbn [existsb].
    destruct (N.eqb_spec (v_id w) (v_id v)) as [Ew|]; [|reflexivity]. exfalso. apply H1. rewrite <- Ew. apply in_map. exact Hw.
Qed.
Lemma firsts_app seen l1 l2 : NoDup (map v_id l1) -> (forall i, In i (map v_id l1) -> ~ In i seen) ->
  firsts seen (l1 ++ l2) = l1 ++ firsts (map v_id l1 ++ seen) l2.
Proof.
  revert seen. induction l1 as [|v l1 IH]; intros seen Hn Hs; [reflexivity|]. inversion Hn as [|? ? H1 H2]; subst. cbn [app firsts map].
  destruct (in_dec N.eq_dec (v_id v) seen) as [H|H]; [exfalso; exact (Hs (v_id v) (or_introl eq_refl) H)|]. f_equal. rewrite IH.
  - f_equal. apply firsts_ext. intro i. cbn. rewrite !in_app_iff. cbn. tauto.
  - exact H2.
  - intros i Hi [<-|Hi']; [contradiction | exact (Hs i (or_intror Hi) Hi')].
Qed.

Lemma exps_by_exponent vs es : NoDup (map v_id vs) -> length es = length vs -> es = map (fun v => exponent_in vs es (v_id v)) vs.
Proof.
  intros Hn Hl. apply nth_ext with (d := 0%Z) (d' := 0%Z); [rewrite map_length; exact Hl|]. intros n Hlt.
  destruct (nth_error vs n) as [v|] eqn:Ev; [|apply nth_error_None in Ev; lia]. destruct (nth_error es n) as [e|] eqn:Ee; [|apply nth_error_None in Ee; lia].
  rewrite (nth_error_nth es n 0%Z Ee). symmetry. apply nth_error_nth. rewrite nth_error_map, Ev. cbn [option_map]. f_equal. apply (exponent_in_nth vs es n v e Hn Ev Ee).
Qed.

Lemma product_vars m m' : valid_mono m -> valid_mono m' -> unique_vars (m_vars m ++ m_vars m') = m_vars (product_term m m').
Proof.
  intros (_ & _ & N1 & _) (_ & _ & N2 & _). rewrite unique_vars_firsts, firsts_app; [|exact N1 | intros i _ []].
  rewrite app_nil_r, firsts_filter by exact N2. reflexivity.
Qed.

Lemma mono_mul_mono_product m m' : valid_mono m -> valid_mono m' -> mono_mul_mono m m' = Ok (product_term m m') /\ valid_mono (product_term m m').
Proof.
  intros V V'. destruct (mono_mul_mono_ok m m' V V') as (q & E & Vq & HP & HC).
  assert (EV : m_vars q = m_vars (product_term m m')).
  { rewrite <- product_vars by assumption. unfold mono_mul_mono in E. rewrite (valid_mono_check m V), (valid_mono_check m' V') in E. cbn [check bind] in E.
    destruct (degree_loop _ _ _ _); [|discriminate]. cbn [bind] in E. destruct (degree_loop _ _ _ _); [|discriminate]. cbn [bind] in E. injection E as <-. reflexivity. }
  assert (EQ : q = product_term m m').
  { destruct q as [c es vs]. cbn [m_vars m_exps m_coeff] in *. subst c vs. unfold product_term. f_equal. destruct Vq as (L & _ & Nq & _). cbn [m_vars m_exps] in *.
    rewrite (exps_by_exponent _ _ Nq L) at 1. apply map_ext. intro v. exact (HP (v_id v)). }
  rewrite <- EQ. split; assumption.
Qed.

Lemma filter_single_in v l : In (v_id v) (map v_id l) -> filter (fun w => negb (existsb (N.eqb (v_id w)) (map v_id l))) [v] = [].
Proof.
  intro H. cbn [filter]. assert (EB : existsb (N.eqb (v_id v)) (map v_id l) = true) by (apply existsb_exists; exists (v_id v); split; [exact H | apply N.eqb_refl]). rewrite EB. reflexivity.
Qed.
Lemma filter_single_out v l : ~ In (v_id v) (map v_id l) -> filter (fun w => negb (existsb (N.eqb (v_id w)) (map v_id l))) [v] = [v].
Proof.
  intro H. cbn [filter]. destruct (existsb (N.eqb (v_id v)) (map v_id l)) eqn:EB; [|reflexivity].
  exfalso. apply existsb_exists in EB. destruct EB as (j & Hj & Ej). apply N.eqb_eq in Ej. subst. contradiction.
Qed.

Lemma mono_mul_var_product m v : valid_mono m -> valid_var v -> mono_mul_var m v = Ok (product_term m (var_to_mono v)).
Proof.
  intros V Vv. destruct (mono_mul_var_ok m v V Vv) as (q & E & Vq & HP & HC). rewrite E. f_equal.
  assert (EV : m_vars q = m_vars (product_term m (var_to_mono v))).
  { unfold mono_mul_var in E. rewrite (valid_mono_check m V) in E. rewrite (proj2 (var_check_valid v) Vv) in E || rewrite (proj1 (var_check_valid v) Vv) in E. cbn [check bind] in E.
    unfold product_term. cbn [m_vars var_to_mono]. destruct (find_var v (m_vars m)) as [k|] eqn:Ef; injection E as <-; cbn [m_vars].
    - apply find_var_some in Ef. destruct Ef as (w & Hw & Ew). unfold ids. rewrite filter_single_in; [rewrite app_nil_r; reflexivity|]. rewrite <- Ew. apply in_map. eapply nth_error_In; exact Hw.
    - apply find_var_none in Ef. unfold ids. rewrite filter_single_out by exact Ef. reflexivity. }
  destruct q as [c es vs]. cbn [m_vars m_exps m_coeff] in *. subst c vs. unfold product_term. cbn [m_coeff var_to_mono]. f_equal; [ring|].
  destruct Vq as (L & _ & Nq & _). cbn [m_vars m_exps] in *. rewrite (exps_by_exponent _ _ Nq L) at 1. apply map_ext. intro w. exact (HP (v_id w)).
Qed.

Lemma product_k m k : valid_mono m -> product_term m (k_to_mono k) = set_coeff m (m_coeff m * k).
Proof.
  intros (L & _ & Nd & _). unfold product_term. cbn [k_to_mono m_vars m_coeff filter]. rewrite app_nil_r. unfold set_coeff. f_equal.
  rewrite (exps_by_exponent _ _ Nd L) at 1. apply map_ext. intro v. unfold exponent. cbn. lia.
Qed.

Lemma mapM_map {A B} (f : A -> res B) (g : A -> B) l : (forall a, In a l -> f a = Ok (g a)) -> mapM f l = Ok (map g l).
Proof.
  induction l as [|a l IH]; intro H; [reflexivity|]. cbn [mapM map]. rewrite (H a (or_introl eq_refl)). cb. rewrite IH; [reflexivity|]. intros x Hx. apply H. right. exact Hx.
Qed.

Definition products (p : list Monomial) (t : Monomial) : list Monomial := map (fun m => product_term m t) p.

Lemma products_valid p t : valid_poly p -> valid_mono t -> valid_poly (products p t).
Proof.
  intros [V0 V] Vt. split; [destruct p; [congruence | discriminate]|]. unfold products. apply Forall_map. eapply Forall_impl; [|exact V]. intros m Vm. apply mono_mul_mono_product; assumption.
Qed.

Lemma poly_mul_one_eff p b t : valid_poly p -> valid b -> is_sp b = false -> terms b = [t] -> eff (products p t) (poly_mul p b).
Proof.
  intros V Vb HB HT. assert (Vt : valid_mono t) by (pose proof (valid_terms b Vb) as H; rewrite HT in H; inversion H; assumption).
  pose proof (products_valid p t V Vt) as VP. assert (VF : forall m, In m p -> valid_mono m) by (destruct V as [_ V]; rewrite Forall_forall in V; exact V).
  destruct b as [k|v|m|q]; [| | |discriminate]; cbn [terms] in HT; injection HT as <-; cbn [poly_mul].
  - unfold poly_mul_k. rewrite (valid_poly_check p V). cb. rewrite (mapM_map _ (fun m => product_term m (k_to_mono k))); [exact (eff_simp _ (SP _) VP (fun r => eq_refl))|].
    intros m Hm. rewrite product_k by (apply VF, Hm). unfold mono_mul_k. rewrite (valid_mono_check m (VF m Hm)). reflexivity.
  - unfold poly_mul_var. rewrite (valid_poly_check p V). cbn [valid] in Vb. rewrite (proj2 (var_check_valid v) Vb) || rewrite (proj1 (var_check_valid v) Vb). cb.
    rewrite (mapM_map _ (fun m => product_term m (var_to_mono v))); [exact (eff_simp _ (SP _) VP (fun r => eq_refl))|].
    intros m Hm. apply mono_mul_var_product; [apply VF, Hm | exact Vb].
  - unfold poly_mul_mono. rewrite (valid_poly_check p V), (valid_mono_check m Vb). cb. rewrite (mapM_map _ (fun x => product_term x m)); [exact (eff_simp _ (SP _) VP (fun r => eq_refl))|].
    intros x Hx. apply mono_mul_mono_product; [apply VF, Hx | exact Vb].
Qed.

Lemma one_mul_poly_eff p b t : valid_poly p -> valid b -> is_sp b = false -> terms b = [t] -> eff (products p t) (scalar_mul b (SP p)).
Proof.
  intros V Vb HB HT. pose proof (poly_mul_one_eff p b t V Vb HB HT) as H. destruct b as [k|v|m|q]; [| | |discriminate]; cbn [scalar_mul poly_mul] in *.
  - unfold k_mul. rewrite (valid_check (SP p) V). cb. exact H.
  - cbn [var_mul]. unfold var_mul_poly. rewrite (valid_poly_check p V). cbn [valid] in Vb. rewrite (proj2 (var_check_valid v) Vb) || rewrite (proj1 (var_check_valid v) Vb). cb.
    apply eff_again. exact H.
  - cbn [mono_mul]. unfold mono_mul_poly. rewrite (valid_poly_check p V), (valid_mono_check m Vb). cb. exact H.
Qed.

(** the product of a polynomial and a constant, variable or monomial, in either order *)
Lemma multiply_effect (p : Polynomial) (b s : scalar) (t : Monomial) : valid (SP p) -> valid b -> (forall q, b <> SP q) -> terms b = [t] ->
  scalar_mul (SP p) b = Ok s \/ scalar_mul b (SP p) = Ok s ->
  forall r, eval r s = eval_poly r (regroup (map (fun m => product_term m t) p)).
Proof.
  intros V Vb HB HT H. assert (SB : is_sp b = false) by (destruct b as [k|v|m|q]; [reflexivity | reflexivity | reflexivity | exfalso; exact (HB q eq_refl)]).
  destruct H as [E|E]; [exact (eff_value _ _ s (poly_mul_one_eff p b t V Vb SB HT) E) | exact (eff_value _ _ s (one_mul_poly_eff p b t V Vb SB HT) E)].
Qed.

Lemma products_value r p t : valid_poly p -> valid_mono t -> eval_poly r (products p t) = eval_poly r p * eval_mono r t.
Proof.
  intros [_ V] Vt. induction V as [|m p Vm V IH]; cbn [products map eval_poly]; [ring|]. fold (products p t). rewrite IH.
  destruct (mono_mul_mono_ok m t Vm Vt) as (q & E & Vq & HP & HC). destruct (mono_mul_mono_product m t Vm Vt) as [E' _]. rewrite E in E'. injection E' as <-.
  rewrite (eval_product r m t q Vm Vt Vq HP HC). ring.
Qed.

Lemma multiply_exactly_when (p : Polynomial) (b s : scalar) (t : Monomial) : valid (SP p) -> valid b -> (forall q, b <> SP q) -> terms b = [t] ->
  scalar_mul (SP p) b = Ok s \/ scalar_mul b (SP p) = Ok s ->
  ((forall r, eval r s = eval r (SP p) * eval r b)
   <-> forall m, valid_mono m -> coefficient m (SP (regroup (map (fun x => product_term x t) p))) = coefficient m (SP (map (fun x => product_term x t) p))).
Proof.
  intros V Vb HB HT E. pose proof (multiply_effect p b s t V Vb HB HT E) as H.
  assert (Vt : valid_mono t) by (pose proof (valid_terms b Vb) as G; rewrite HT in G; inversion G; assumption).
  pose proof (products_valid p t V Vt) as VP. fold (products p t) in H. fold (products p t).
  rewrite <- (functions_determined (SP (regroup (products p t))) (SP (products p t)) (regroup_valid _ VP) VP). unfold same_function. cbn [eval].
  assert (EB : forall r, eval r b = eval_mono r t) by (intro r; rewrite <- eval_terms, HT; apply eval_poly_single).
  split; intros G r.
  - rewrite products_value by assumption. rewrite <- H, <- EB. apply G.
  - rewrite H, G. rewrite products_value by assumption. rewrite EB. reflexivity.
Qed.

End Effect2.
