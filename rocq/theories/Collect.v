(** * Sums, products and powers, term by term *)

From Coq Require Import ZArith NArith Bool List Lia Field Permutation.
From Verif Require Import Num Syntax ModelScalar Spec SpecConv SpecEffect SpecCollect Base ScalarValid Eval ScalarOps ScalarMore ScalarNorm Order Canon Arr ArrFacts Effect Effect2.
Import ListNotations.

Section Collect.
Context {NN : Num}.
Local Open Scope num_scope.
Ltac cb := cbn [bind check].

Lemma alike_form2 a b m : same_form a b -> alike m a = alike m b.
Proof. intros [H1 H2]. unfold alike, ids. rewrite H1, H2. reflexivity. Qed.
Lemma alike_sym a b : valid_mono a -> valid_mono b -> alike a b = alike b a.
Proof.
  intros Va Vb. apply eq_true_iff_eq. rewrite !alike_look by assumption. split; apply look_sym.
Qed.
Lemma alike_trans a b c : valid_mono a -> valid_mono b -> valid_mono c -> alike a b = true -> alike b c = true -> alike a c = true.
Proof. intros Va Vb Vc. rewrite !alike_look by assumption. apply look_trans. Qed.
Lemma alike_right e a b : valid_mono e -> valid_mono a -> valid_mono b -> alike a b = true -> alike e a = alike e b.
Proof.
  intros Ve Va Vb H. apply eq_true_iff_eq. split; intro E; [exact (alike_trans e a b Ve Va Vb E H)|].
  apply (alike_trans e b a Ve Vb Va E). rewrite alike_sym by assumption. exact H.
Qed.

(** ** leaders *)
Lemma leaders_in l e : In e (leaders l) -> In e l.
Proof. induction l as [|m l IH]; [intros []|]. cbn [leaders]. intros [<-|H]; [left; reflexivity|]. apply filter_In in H as [H _]. right. exact (IH H). Qed.
Lemma leaders_covers l m : Forall valid_mono l -> valid_mono m -> (exists e, In e l /\ alike e m = true) -> exists e, In e (leaders l) /\ alike e m = true.
Proof.
  induction l as [|d l IH]; intros V Vm (e & He & A); [contradiction|]. apply Forall_cons_iff in V as [Vd V]. cbn [leaders]. destruct (alike d m) eqn:Ed; [exists d; split; [left; reflexivity | exact Ed]|].
  destruct He as [<-|He]; [congruence|]. destruct (IH V Vm (ex_intro _ e (conj He A))) as (f & Hf & Af). exists f. split; [|exact Af]. right. apply filter_In. split; [exact Hf|].
  destruct (alike d f) eqn:Edf; [|reflexivity]. exfalso. rewrite Forall_forall in V. rewrite (alike_trans d f m Vd (V f (leaders_in l f Hf)) Vm Edf Af) in Ed. discriminate Ed.
Qed.
Lemma leaders_found l m : (exists e, In e l /\ alike e m = true) -> leaders (l ++ [m]) = leaders l.
Proof.
  induction l as [|d l IH]; intros (e & He & A); [contradiction|]. cbn [app leaders]. f_equal. destruct (leader_split l m) as [F|F]; [rewrite IH by exact F; reflexivity|].
  destruct He as [<-|He]; [|rewrite (F e He) in A; discriminate A].
  assert (LN : forall l, (forall e, In e l -> alike e m = false) -> leaders (l ++ [m]) = leaders l ++ [m]).
  { clear. induction l as [|d l IH]; intro F; [reflexivity|]. cbn [app leaders]. rewrite IH by (intros e He; apply F; right; exact He). rewrite filter_app. cbn [filter]. rewrite (F d (or_introl eq_refl)). reflexivity. }
  rewrite LN by exact F. rewrite filter_app. cbn [filter]. rewrite A. cbn [negb]. apply app_nil_r.
Qed.
Lemma leaders_none l m : (forall e, In e l -> alike e m = false) -> leaders (l ++ [m]) = leaders l ++ [m].
Proof. induction l as [|d l IH]; intro F; [reflexivity|]. cbn [app leaders]. rewrite IH by (intros e He; apply F; right; exact He). rewrite filter_app. cbn [filter]. rewrite (F d (or_introl eq_refl)). reflexivity. Qed.
Lemma filter_forms a b l l' : same_form a b -> Forall2 same_form l l' -> Forall2 same_form (filter (fun x => negb (alike a x)) l) (filter (fun x => negb (alike b x)) l').
Proof.
  intros H F. induction F as [|x y l l' Hxy F IH]; [constructor|]. cbn [filter]. rewrite (alike_form a b x H), (alike_form2 x y b Hxy). destruct (alike b y); cbn [negb]; [exact IH | constructor; assumption].
Qed.
Lemma leaders_forms l l' : Forall2 same_form l l' -> Forall2 same_form (leaders l) (leaders l').
Proof. intro F. induction F as [|x y l l' Hxy F IH]; [constructor|]. cbn [leaders]. constructor; [exact Hxy | apply filter_forms; assumption]. Qed.

Definition G (l : list Monomial) (e : Monomial) : Monomial := mkMono (gathered l e) (m_exps e) (m_vars e).
Lemma gathered_cons l x e : gathered (x :: l) e = (if alike e x then m_coeff x else n0) + gathered l e.
Proof. reflexivity. Qed.
Lemma gathered_form l a b : same_form a b -> gathered l a = gathered l b.
Proof. intro H. induction l as [|x l IH]; [reflexivity|]. rewrite !gathered_cons, IH, (alike_form a b x H). reflexivity. Qed.

Context {EX : ExactNum NN}.
Add Ring numring_co : num_ring.

Lemma gathered_app l l' e : gathered (l ++ l') e = gathered l e + gathered l' e.
Proof. induction l as [|x l IH]; [cbn [app]; unfold gathered at 2; cbn [fold_right]; ring|]. cbn [app]. rewrite !gathered_cons, IH. ring. Qed.
Lemma gathered_none l e : (forall x, In x l -> alike e x = false) -> gathered l e = n0.
Proof. induction l as [|x l IH]; intro H; [reflexivity|]. rewrite gathered_cons, (H x (or_introl eq_refl)), IH by (intros y Hy; apply H; right; exact Hy). ring. Qed.
Lemma gathered_last l m e : gathered (l ++ [m]) e = gathered l e + (if alike e m then m_coeff m else n0).
Proof. rewrite gathered_app. unfold gathered at 2. cbn [fold_right]. ring. Qed.
Lemma G_valid l e : valid_mono e -> valid_mono (G l e).
Proof. intro V. exact V. Qed.

Definition apart (L : list Monomial) : Prop := ForallOrdPairs (fun a b => alike a b = false) L.
Lemma leaders_apart l : apart (leaders l).
Proof.
  unfold apart. induction l as [|m l IH]; [constructor|]. cbn [leaders]. constructor.
  - apply Forall_forall. intros x Hx. apply filter_In in Hx as [_ Hx]. apply negb_true_iff in Hx. exact Hx.
  - clear -IH. induction IH as [|a L Ha _ IH]; [constructor|]. cbn [filter]. destruct (negb (alike m a)); [|exact IH]. constructor; [|exact IH].
    apply Forall_forall. intros x Hx. apply filter_In in Hx as [Hx _]. rewrite Forall_forall in Ha. exact (Ha x Hx).
Qed.
Lemma add_found l m L : valid_mono m -> Forall valid_mono L -> apart L -> (exists e, In e L /\ alike e m = true) -> add_pure (map (G l) L) m = map (G (l ++ [m])) L.
Proof.
  intros Vm. induction L as [|e L IH]; intros VL A (x & Hx & Ax); [contradiction|]. apply Forall_cons_iff in VL as [Ve VL]. inversion A as [|? ? A1 A2]; subst. cbn [map add_pure].
  rewrite <- (alike_matchb (G l e) m (G_valid l e Ve) Vm). assert (AG : alike (G l e) m = alike e m) by (apply alike_form; split; reflexivity). rewrite AG. destruct (alike e m) eqn:Ee.
  - f_equal; [unfold G, set_coeff; cbn [m_coeff m_exps m_vars]; rewrite gathered_last, Ee; reflexivity|]. apply map_ext_in. intros f Hf. unfold G. rewrite gathered_last. rewrite Forall_forall in A1, VL.
    assert (Ef : alike f m = false). { destruct (alike f m) eqn:Ef; [|reflexivity]. rewrite <- (A1 f Hf). symmetry. rewrite (alike_right e f m Ve (VL f Hf) Vm Ef). exact Ee. }
    rewrite Ef. f_equal. ring.
  - f_equal; [unfold G; rewrite gathered_last, Ee; f_equal; ring|]. apply IH; [exact VL | exact A2|]. destruct Hx as [<-|Hx]; [congruence|]. exists x. split; assumption.
Qed.
Lemma fold_add l : Forall valid_mono l -> fold_left add_pure l [] = map (G l) (leaders l).
Proof.
  induction l as [|m l IH] using rev_ind; intro V; [reflexivity|]. apply Forall_app in V as [V Vm]. apply Forall_cons_iff in Vm as [Vm _]. rewrite fold_left_app. cbn [fold_left]. rewrite IH by exact V.
  assert (VL : Forall valid_mono (leaders l)) by (apply Forall_forall; intros e He; rewrite Forall_forall in V; apply V, leaders_in, He).
  destruct (leader_split l m) as [F|F].
  - rewrite leaders_found by exact F. apply add_found; [exact Vm | exact VL | apply leaders_apart | apply leaders_covers; assumption].
  - rewrite leaders_none, map_app by exact F. cbn [map]. rewrite add_pure_none.
    + f_equal; [|f_equal].
      * apply map_ext_in. intros e He. unfold G. rewrite gathered_last, (F e (leaders_in l e He)). f_equal. ring.
      * unfold G. rewrite gathered_last, alike_refl by exact Vm. rewrite gathered_none; [destruct m as [c es vs]; cbn [m_coeff m_exps m_vars]; f_equal; ring|].
        intros x Hx. rewrite Forall_forall in V. rewrite (alike_sym m x Vm (V x Hx)). exact (F x Hx).
    + intros g Hg. apply in_map_iff in Hg as (e & <- & He). rewrite Forall_forall in VL. rewrite <- (alike_matchb (G l e) m (G_valid l e (VL e He)) Vm).
      assert (AG : alike (G l e) m = alike e m) by (apply alike_form; split; reflexivity). rewrite AG. exact (F e (leaders_in l e He)).
Qed.

(** ** collecting *)
Definition kc (l : list Monomial) : num := fold_right (fun m s => m_coeff m + s) n0 (filter constant_term l).
Lemma simp_pure_fold p : forall c acc, simp_pure p c acc = (c + kc p, fold_left add_pure (ncs p) acc).
Proof.
  induction p as [|m p IH]; intros c acc; [cbn; f_equal; unfold kc; cbn; ring|]. cbn [simp_pure ncs filter]. unfold kc. cbn [filter]. change (constant_term m) with (is_const m). destruct (is_const m); cbn [negb fold_left fold_right].
  - rewrite IH. f_equal. unfold kc. ring.
  - rewrite IH. reflexivity.
Qed.
Definition out (c : num) (l : list Monomial) : list Monomial :=
  match (if c =? n0 then [] else [mkMono c [] []]) ++ filter (fun m => negb (m_coeff m =? n0)) l with [] => [mkMono n0 [] []] | o => o end.
Lemma out_is c l : out c l = let o := (if c =? n0 then [] else [mkMono c [] []]) ++ filter (fun m => negb (m_coeff m =? n0)) l in match o with [] => [mkMono n0 [] []] | _ => o end.
Proof. unfold out. cbv zeta. destruct (_ ++ _); reflexivity. Qed.
Lemma collect_out l : collect l = out (kc l) (map (G (ncs l)) (leaders (ncs l))).
Proof. rewrite out_is. reflexivity. Qed.
Lemma ncs_valid l : Forall valid_mono l -> Forall valid_mono (ncs l).
Proof. intro V. apply Forall_forall. intros x Hx. apply filter_In in Hx as [Hx _]. rewrite Forall_forall in V. exact (V x Hx). Qed.
Lemma psimp_collect p : Forall valid_mono p -> psimp p = collect p.
Proof.
  intro V. rewrite collect_out. unfold psimp. rewrite simp_pure_fold, fold_add by (apply ncs_valid; exact V). assert (E : n0 + kc p = kc p) by ring. rewrite E, out_is. reflexivity.
Qed.

Lemma narrow_valid m : valid_mono m -> narrowest [m] = if is_const m then SK (m_coeff m) else if is_plain_var m then match m_vars m with v :: _ => SV v | [] => SM m end else SM m.
Proof.
  intros (L & E & _). unfold narrowest, is_const, is_plain_var. destruct m as [c es vs]. cbn [m_coeff m_exps m_vars] in *. destruct vs as [|v vs]; [destruct es; [reflexivity | discriminate L]|].
  destruct es as [|e es]; [discriminate L|]. destruct vs as [|w vs]; destruct es as [|e' es]; try discriminate L; cbn [length Nat.eqb].
  - rewrite andb_true_r. destruct (Z.eqb_spec e 1) as [->|NE]; [rewrite andb_true_r; reflexivity|]. rewrite andb_false_r. destruct e as [|[p|p|]|p]; try reflexivity. congruence.
  - rewrite andb_false_r. cbn [andb]. destruct e as [|[p|p|]|p]; reflexivity.
Qed.
Lemma psimplified_simplest p : Forall valid_mono p -> psimplified p = simplest p.
Proof.
  intro V. pose proof (psimp_valid p V) as [_ VP]. unfold psimplified, simplest. rewrite <- psimp_collect by exact V. destruct (psimp p) as [|m [|m' l]]; try reflexivity.
  apply Forall_cons_iff in VP as [Vm _]. rewrite narrow_valid by exact Vm. reflexivity.
Qed.
Lemma eqb_zero c : (c =? n0) = true -> c = n0.
Proof. apply ex_eqb. Qed.
Lemma eqb_zero0 : (n0 =? n0) = true.
Proof. apply ex_eqb. reflexivity. Qed.
Lemma collect_one m : valid_mono m -> collect [m] = if m_coeff m =? n0 then [mkMono n0 [] []] else [m].
Proof.
  intro V. rewrite collect_out. unfold kc, ncs. cbn [filter]. change (constant_term m) with (is_const m). destruct (is_const m) eqn:Ec; cbn [negb fold_right leaders map filter].
  - unfold out. assert (E : m_coeff m + n0 = m_coeff m) by ring. rewrite E. cbn [filter]. rewrite app_nil_r. destruct (m_coeff m =? n0); [reflexivity|]. f_equal. symmetry. exact (const_mono m V Ec).
  - unfold out. rewrite eqb_zero0. cbn [app]. assert (E : G [m] m = m) by (unfold G, gathered; cbn [fold_right]; rewrite alike_refl by exact V; destruct m as [c es vs]; cbn [m_coeff m_exps m_vars]; f_equal; ring).
    rewrite E. cbn [filter]. destruct (m_coeff m =? n0); reflexivity.
Qed.
Lemma narrow_zero : narrowest [mkMono n0 [] []] = SK n0.
Proof. reflexivity. Qed.
Lemma ssimplified_simplest s : valid s -> ssimplified s = simplest (terms s).
Proof.
  destruct s as [k|v|m|p]; cbn [valid ssimplified terms]; intro V.
  - unfold simplest. rewrite collect_one by apply valid_mono_k. cbn [m_coeff]. destruct (k =? n0) eqn:E; [apply eqb_zero in E; subst k|]; reflexivity.
  - unfold simplest. change (mkMono n1 [1%Z] [v]) with (var_to_mono v). rewrite (collect_one (var_to_mono v)) by (apply valid_mono_of_var; exact V). cbn [var_to_mono m_coeff]. rewrite one_not_zero. assert (E1 : (n1 =? n1) = true) by (apply ex_eqb; reflexivity). unfold narrowest, var_to_mono. cbn [m_exps m_vars m_coeff]. rewrite E1. reflexivity.
  - unfold simplest. rewrite collect_one by exact V. unfold msimplified. destruct (m_coeff m =? n0) eqn:E.
    + destruct (m_vars m); [apply eqb_zero in E; rewrite E|]; reflexivity.
    + rewrite narrow_valid by exact V. unfold is_const. destruct (m_vars m); reflexivity.
  - apply psimplified_simplest. exact (proj2 V).
Qed.

(** ** lists that collect alike *)
Lemma kc_app l l' : kc (l ++ l') = kc l + kc l'.
Proof.
  unfold kc. induction l as [|x l IH]; [cbn; ring|]. cbn [app filter]. destruct (constant_term x); cbn [fold_right]; [rewrite IH; ring | exact IH].
Qed.
Lemma kc_one m : kc [m] = if is_const m then m_coeff m else n0.
Proof. unfold kc. cbn [filter]. change (constant_term m) with (is_const m). destruct (is_const m); cbn [fold_right]; ring. Qed.
Lemma ncs_app l l' : ncs (l ++ l') = ncs l ++ ncs l'.
Proof. apply filter_app. Qed.
Lemma ncs_one m : ncs [m] = if is_const m then [] else [m].
Proof. unfold ncs. cbn [filter]. destruct (is_const m); reflexivity. Qed.

Lemma collect_const_last k l : is_const k = true -> collect (k :: l) = collect (l ++ [k]).
Proof.
  intro C. rewrite !collect_out. change (k :: l) with ([k] ++ l). rewrite !kc_app, !ncs_app, ncs_one, C. cbn [app]. rewrite app_nil_r. f_equal. ring.
Qed.
Lemma alike_const a b : alike a b = true -> is_const a = is_const b.
Proof.
  intro H. unfold alike in H. apply andb_true_iff in H as [H _]. apply andb_true_iff in H as [_ H]. apply Nat.eqb_eq in H. unfold is_const. destruct (m_vars a), (m_vars b); try reflexivity; discriminate H.
Qed.
Lemma map_forms A B L L' : (forall e, In e L -> gathered A e = gathered B e) -> Forall2 same_form L L' -> map (G A) L = map (G B) L'.
Proof.
  intros H F. induction F as [|x y L L' Hxy F IH]; [reflexivity|]. cbn [map]. f_equal; [|apply IH; intros e He; apply H; right; exact He].
  unfold G. rewrite (H x (or_introl eq_refl)), (gathered_form B x y Hxy). destruct Hxy as [-> ->]. reflexivity.
Qed.
Lemma forms_mid l1 a b l2 : same_form a b -> Forall2 same_form (l1 ++ a :: l2) (l1 ++ b :: l2).
Proof. intro H. apply Forall2_app; [apply forms_refl | constructor; [exact H | apply forms_refl]]. Qed.
Lemma collect_merge l1 m l2 x : Forall valid_mono (l1 ++ m :: l2) -> valid_mono x -> alike m x = true ->
  collect (l1 ++ set_coeff m (m_coeff m + m_coeff x) :: l2) = collect ((l1 ++ m :: l2) ++ [x]).
Proof.
  intros V Vx A. assert (Vm : valid_mono m) by (rewrite Forall_forall in V; apply V, in_elt). rewrite !collect_out.
  set (m' := set_coeff m (m_coeff m + m_coeff x)). assert (Cm : is_const m' = is_const m) by reflexivity. pose proof (alike_const m x A) as Cx.
  change (m' :: l2) with ([m'] ++ l2). change (m :: l2) with ([m] ++ l2). rewrite !kc_app, !ncs_app, !kc_one, !ncs_one, Cm, <- Cx. destruct (is_const m) eqn:C.
  - rewrite app_nil_r. f_equal. unfold m'. cbn [set_coeff m_coeff]. ring.
  - f_equal; [ring|]. cbn [app]. pose proof (ncs_valid _ V) as VN. change (m :: l2) with ([m] ++ l2) in VN. rewrite !ncs_app, ncs_one, C in VN. cbn [app] in VN.
    rewrite leaders_found by (exists m; split; [apply in_elt | exact A]). apply map_forms; [|apply leaders_forms, forms_mid; split; reflexivity].
    intros e He. assert (Ve : valid_mono e). { apply leaders_in in He. rewrite Forall_forall in VN. apply in_app_iff in He as [He|[<-|He]]; [apply VN, in_app_iff; left; exact He | exact Vm | apply VN, in_app_iff; right; right; exact He]. }
    rewrite gathered_last, !gathered_app, !gathered_cons. rewrite (alike_form2 m' m e) by (split; reflexivity). rewrite (alike_right e m x Ve Vm Vx A).
    destruct (alike e x); unfold m'; cbn [set_coeff m_coeff]; ring.
Qed.

(** ** sums *)
Definition exa (L : list Monomial) (x : res scalar) : Prop :=
  exists s, valid s /\ x = Ok (ssimplified s) /\ collect (terms s) = collect L.
Lemma exa_simp L s : valid s -> collect (terms s) = collect L -> exa L (scalar_simplified s).
Proof. intros V H. exists s. split; [exact V|]. split; [apply scalar_simplified_ok; exact V | exact H]. Qed.
Lemma exa_again L x : exa L x -> exa L (out <- x ;; scalar_simplified out).
Proof.
  intros (s & V & -> & H). cbn [bind]. exists s. split; [exact V|]. split; [|exact H]. pose proof (ssimplified_valid s V) as V'. rewrite scalar_simplified_ok by exact V'. f_equal.
  apply ssimplified_id; [apply zero_laws_exact; exact EX | exact V' | apply ssimplified_normal; exact V].
Qed.
Lemma exa_eq L L' x : collect L = collect L' -> exa L x -> exa L' x.
Proof. intros H (s & V & E & Hs). exists s. split; [exact V|]. split; [exact E | congruence]. Qed.
Lemma exa_ok L x : exa L x -> x = Ok (simplest L) /\ valid (simplest L) /\ normal (simplest L).
Proof.
  intros (s & V & -> & H). assert (E : ssimplified s = simplest L) by (rewrite ssimplified_simplest by exact V; unfold simplest; rewrite H; reflexivity). rewrite E.
  split; [reflexivity|]. rewrite <- E. split; [apply ssimplified_valid; exact V | apply ssimplified_normal; exact V].
Qed.
Hint Resolve fapp fone vk valid_mono_k valid_mono_of_var valid_poly_app valid_poly_single valid_poly_two valid_mono_check valid_poly_check vpoly : exa.

Lemma poly_plus_k_exa p k : valid_poly p -> exa (p ++ [k_to_mono k]) (poly_plus_k p k).
Proof.
  intro V. unfold poly_plus_k. rewrite (valid_poly_check p V). cb. destruct (poly_constant_index_ok p (valid_poly_check p V)) as (o & -> & Ho). cb. destruct o as [i|].
  - destruct Ho as (l1 & m & l2 & -> & -> & Hc & _). rewrite index_split. cb. rewrite set_nth_split.
    assert (Vm : valid_mono m) by (destruct V as [_ V]; rewrite Forall_forall in V; apply V, in_elt).
    apply (exa_simp _ (SP _)).
    + destruct V as [_ V]. split; [destruct l1; discriminate|]. apply Forall_app in V. destruct V as [V1 V2]. inversion V2; subst. apply fapp; [exact V1 | constructor; assumption].
    + cbn [terms]. apply (collect_merge l1 m l2 (k_to_mono k)); [exact (proj2 V) | apply valid_mono_k|]. rewrite (const_mono m Vm Hc). reflexivity.
  - apply (exa_simp _ (SP _)); [cbn [valid]; auto with exa | reflexivity].
Qed.
Lemma lin_alike m v w : m_vars m = [w] -> m_exps m = [1%Z] -> v_id w = v_id v -> alike m (var_to_mono v) = true.
Proof. intros H1 H2 H3. unfold alike, ids. rewrite H1, H2. cbn [var_to_mono m_exps m_vars map length forallb existsb]. rewrite H3, N.eqb_refl. reflexivity. Qed.
Lemma poly_plus_var_exa p v : valid_poly p -> valid_var v -> exa (p ++ [var_to_mono v]) (poly_plus_var p v).
Proof.
  intros V Vv. unfold poly_plus_var. rewrite (valid_poly_check p V). pose proof Vv as Hv.
  apply (proj1 (var_check_valid v)) in Hv || apply (proj2 (var_check_valid v)) in Hv. rewrite Hv. cb.
  destruct (poly_variable_index_ok p v V Vv) as (o & -> & Ho). cb. destruct o as [i|].
  - destruct Ho as (l1 & m & l2 & -> & -> & (w & H1 & H2 & H3) & _). rewrite index_split. cb. rewrite set_nth_split.
    assert (Vm : valid_mono m) by (destruct V as [_ V]; rewrite Forall_forall in V; apply V, in_elt).
    apply (exa_simp _ (SP _)).
    + destruct V as [_ V]. split; [destruct l1; discriminate|]. apply Forall_app in V. destruct V as [V1 V2]. inversion V2; subst. apply fapp; [exact V1 | constructor; assumption].
    + cbn [terms]. apply (collect_merge l1 m l2 (var_to_mono v)); [exact (proj2 V) | apply valid_mono_of_var; exact Vv | exact (lin_alike m v w H1 H2 H3)].
  - apply (exa_simp _ (SP _)); [cbn [valid]; auto with exa | reflexivity].
Qed.
Lemma poly_plus_poly_exa p q : valid_poly p -> valid_poly q -> exa (p ++ q) (poly_plus_poly p q).
Proof.
  intros V W. unfold poly_plus_poly. rewrite (valid_poly_check p V), (valid_poly_check q W). cb. apply exa_again. apply (exa_simp _ (SP _)); [cbn [valid]; auto with exa | reflexivity].
Qed.
Lemma poly_plus_mono_exa p m : valid_poly p -> valid_mono m -> exa (p ++ [m]) (poly_plus_mono p m).
Proof.
  intros V W. unfold poly_plus_mono. rewrite (valid_poly_check p V), (valid_mono_check m W). cb. apply exa_again. apply poly_plus_poly_exa; [exact V | apply valid_poly_single; exact W].
Qed.
Lemma merge_pair m x : valid_mono m -> valid_mono x -> alike m x = true -> collect [set_coeff m (m_coeff m + m_coeff x)] = collect [m; x].
Proof. intros V Vx A. exact (collect_merge [] m [] x (fone _ _ V) Vx A). Qed.
Lemma mono_plus_k_exa m k : valid_mono m -> exa [m; k_to_mono k] (mono_plus_k m k).
Proof.
  intro V. unfold mono_plus_k. rewrite (valid_mono_check m V). cb. rewrite mono_is_constant_ok by auto with exa. cb. destruct (is_const m) eqn:E.
  - apply exa_simp; [exact I|]. cbn [terms]. rewrite <- (merge_pair m (k_to_mono k) V (valid_mono_k k)) by (rewrite (const_mono m V E); reflexivity).
    rewrite (const_mono m V E) at 2. reflexivity.
  - apply (exa_simp _ (SP _)); [cbn [valid]; auto with exa | reflexivity].
Qed.
Lemma mono_plus_var_exa m v : valid_mono m -> valid_var v -> exa [m; var_to_mono v] (mono_plus_var m v).
Proof.
  intros V Vv. unfold mono_plus_var. rewrite (valid_mono_check m V). pose proof Vv as Hv. apply (proj1 (var_check_valid v)) in Hv || apply (proj2 (var_check_valid v)) in Hv.
  rewrite Hv. cb. rewrite mono_degree_one_ok by assumption. cb.
  destruct (match m_vars m, m_exps m with [w], [e] => same_id w v && Z.eqb e 1 | _, _ => false end) eqn:E.
  - assert (A : alike m (var_to_mono v) = true).
    { destruct (m_vars m) as [|w [|w' ws]] eqn:E1; try discriminate. destruct (m_exps m) as [|e [|e' es]] eqn:E2; try discriminate.
      apply andb_true_iff in E. destruct E as [E3 E4]. apply same_id_iff in E3. apply Z.eqb_eq in E4. subst e. exact (lin_alike m v w E1 E2 E3). }
    apply exa_simp; [exact V|]. exact (merge_pair m (var_to_mono v) V (valid_mono_of_var v Vv) A).
  - apply (exa_simp _ (SP _)); [cbn [valid]; auto with exa | reflexivity].
Qed.
Lemma mono_plus_mono_exa m m' : valid_mono m -> valid_mono m' -> exa [m; m'] (mono_plus_mono m m').
Proof.
  intros V V'. unfold mono_plus_mono. rewrite (valid_mono_check m V), (valid_mono_check m' V'). cb. rewrite mono_matches_form_ok by auto with exa. cb. destruct (matchb m m') eqn:E.
  - rewrite <- alike_matchb in E by assumption. apply exa_simp; [exact V|]. exact (merge_pair m m' V V' E).
  - apply (exa_simp _ (SP _)); [cbn [valid]; auto with exa | reflexivity].
Qed.
Lemma mono_plus_poly_exa m p : valid_mono m -> valid_poly p -> exa (p ++ [m]) (mono_plus_poly m p).
Proof. intros V W. unfold mono_plus_poly. rewrite (valid_mono_check m V), (valid_poly_check p W). cb. apply exa_again. apply poly_plus_mono_exa; assumption. Qed.
Lemma var_plus_k_exa v k : valid_var v -> exa [var_to_mono v; k_to_mono k] (var_plus_k v k).
Proof.
  intro Vv. unfold var_plus_k. pose proof Vv as Hv. apply (proj1 (var_check_valid v)) in Hv || apply (proj2 (var_check_valid v)) in Hv. rewrite Hv. cb.
  apply (exa_simp _ (SP _)); [cbn [valid]; auto with exa | reflexivity].
Qed.
Lemma var_plus_var_exa v w : valid_var v -> valid_var w -> exa [var_to_mono v; var_to_mono w] (var_plus_var v w).
Proof.
  intros Vv Vw. unfold var_plus_var. pose proof Vv as Hv. apply (proj1 (var_check_valid v)) in Hv || apply (proj2 (var_check_valid v)) in Hv. rewrite Hv. cb. destruct (same_id v w) eqn:E.
  - apply same_id_iff in E. apply exa_simp; [apply valid_mono_var; [exact Vv | lia]|]. cbn [terms].
    rewrite <- (merge_pair (var_to_mono v) (var_to_mono w) (valid_mono_of_var v Vv) (valid_mono_of_var w Vw)) by (exact (lin_alike (var_to_mono v) w v eq_refl eq_refl E)).
    unfold set_coeff. cbn [var_to_mono m_coeff m_exps m_vars]. rewrite (n2_exact EX). reflexivity.
  - apply (exa_simp _ (SP _)); [cbn [valid]; auto with exa | reflexivity].
Qed.
Lemma var_plus_mono_exa v m : valid_var v -> valid_mono m -> exa [m; var_to_mono v] (var_plus_mono v m).
Proof.
  intros Vv V. unfold var_plus_mono. pose proof Vv as Hv. apply (proj1 (var_check_valid v)) in Hv || apply (proj2 (var_check_valid v)) in Hv. rewrite Hv. cb. apply exa_again. apply mono_plus_var_exa; assumption.
Qed.
Lemma var_plus_poly_exa v p : valid_var v -> valid_poly p -> exa (p ++ [var_to_mono v]) (var_plus_poly v p).
Proof.
  intros Vv V. unfold var_plus_poly. pose proof Vv as Hv. apply (proj1 (var_check_valid v)) in Hv || apply (proj2 (var_check_valid v)) in Hv. rewrite Hv. cb. apply exa_again. apply poly_plus_var_exa; assumption.
Qed.
Lemma scalar_plus_exa a b : valid a -> valid b -> exa (summed a b) (scalar_plus a b).
Proof.
  intros Va Vb. destruct a as [k|v|m|p]; cbn [scalar_plus].
  - unfold k_plus. rewrite (valid_check b Vb). cb. destruct b as [k'|v|m|p]; cbn [terms app summed].
    + change (Ok (SK (k + k'))) with (scalar_simplified (SK (k + k'))). apply exa_simp; [exact I|]. cbn [terms]. exact (merge_pair (k_to_mono k) (k_to_mono k') (valid_mono_k k) (valid_mono_k k') eq_refl).
    + eapply exa_eq; [|apply var_plus_k_exa; exact Vb]. symmetry. apply (collect_const_last (k_to_mono k) [var_to_mono v] eq_refl).
    + eapply exa_eq; [|apply mono_plus_k_exa; exact Vb]. symmetry. apply (collect_const_last (k_to_mono k) [m] eq_refl).
    + eapply exa_eq; [|apply poly_plus_k_exa; exact Vb]. symmetry. apply (collect_const_last (k_to_mono k) p eq_refl).
  - destruct b as [k'|w|m|p]; cbn [terms app var_plus summed].
    + apply var_plus_k_exa; exact Va.
    + apply var_plus_var_exa; assumption.
    + apply var_plus_mono_exa; assumption.
    + apply var_plus_poly_exa; assumption.
  - destruct b as [k'|w|m'|p]; cbn [terms app mono_plus summed].
    + apply mono_plus_k_exa; exact Va.
    + apply mono_plus_var_exa; assumption.
    + apply mono_plus_mono_exa; assumption.
    + apply mono_plus_poly_exa; assumption.
  - destruct b as [k'|w|m'|q]; cbn [terms poly_plus summed].
    + apply poly_plus_k_exa; exact Va.
    + apply poly_plus_var_exa; assumption.
    + apply poly_plus_mono_exa; assumption.
    + apply poly_plus_poly_exa; assumption.
Qed.
Lemma plus_exact a b : valid a -> valid b -> scalar_plus a b = Ok (simplest (summed a b)).
Proof. intros Va Vb. exact (proj1 (exa_ok _ _ (scalar_plus_exa a b Va Vb))). Qed.
Lemma simplify_exact s : valid s -> scalar_simplified s = Ok (simplest (terms s)).
Proof. intro V. rewrite scalar_simplified_ok, ssimplified_simplest by exact V. reflexivity. Qed.

(** ** products *)
Lemma simplest_one m : valid_mono m -> mono_simplified m = Ok (simplest [m]).
Proof. intro V. exact (simplify_exact (SM m) V). Qed.
Lemma poly_mul_one_exa p b : valid_poly p -> valid b -> is_sp b = false -> exa (times p (as_term b)) (poly_mul p b).
Proof.
  intros V Vb HB. assert (VF : forall m, In m p -> valid_mono m) by (destruct V as [_ V]; rewrite Forall_forall in V; exact V).
  destruct b as [k|v|m|q]; [| | |discriminate]; cbn [poly_mul as_term].
  - pose proof (products_valid p (k_to_mono k) V (valid_mono_k k)) as VP. unfold poly_mul_k. rewrite (valid_poly_check p V). cb. rewrite (mapM_map _ (fun m => product_term m (k_to_mono k))); [exact (exa_simp _ (SP _) VP eq_refl)|].
    intros m Hm. rewrite product_k by (apply VF, Hm). unfold mono_mul_k. rewrite (valid_mono_check m (VF m Hm)). reflexivity.
  - pose proof (products_valid p (var_to_mono v) V (valid_mono_of_var v Vb)) as VP. unfold poly_mul_var. rewrite (valid_poly_check p V). cbn [valid] in Vb. rewrite (proj2 (var_check_valid v) Vb) || rewrite (proj1 (var_check_valid v) Vb). cb.
    rewrite (mapM_map _ (fun m => product_term m (var_to_mono v))); [exact (exa_simp _ (SP _) VP eq_refl)|].
    intros m Hm. apply mono_mul_var_product; [apply VF, Hm | exact Vb].
  - pose proof (products_valid p m V Vb) as VP. unfold poly_mul_mono. rewrite (valid_poly_check p V), (valid_mono_check m Vb). cb. rewrite (mapM_map _ (fun x => product_term x m)); [exact (exa_simp _ (SP _) VP eq_refl)|].
    intros x Hx. apply mono_mul_mono_product; [apply VF, Hx | exact Vb].
Qed.
Definition step (p : Polynomial) (s : scalar) (t : Monomial) : scalar := simplest (summed s (simplest (times p t))).
Lemma step_ok p s t : valid_poly p -> valid s -> valid_mono t -> (x <- poly_mul_mono p t ;; scalar_plus s x) = Ok (step p s t) /\ valid (step p s t) /\ normal (step p s t).
Proof.
  intros V Vs Vt. destruct (exa_ok _ _ (poly_mul_one_exa p (SM t) V Vt eq_refl)) as (E & V1 & _). cbn [poly_mul as_term] in E, V1. rewrite E. cb. exact (exa_ok _ _ (scalar_plus_exa s (simplest (times p t)) Vs V1)).
Qed.
Lemma steps_ok p q : valid_poly p -> Forall valid_mono q -> forall s, valid s -> normal s ->
  foldM (fun acc m => t <- poly_mul_mono p m ;; scalar_plus acc t) s q = Ok (fold_left (step p) q s) /\ valid (fold_left (step p) q s) /\ normal (fold_left (step p) q s).
Proof.
  intros V Vq. induction q as [|t q IH]; intros s Vs Ns; [repeat split; assumption|]. apply Forall_cons_iff in Vq as [Vt Vq]. cbn [foldM fold_left].
  destruct (step_ok p s t V Vs Vt) as (E & V1 & N1). rewrite E. cb. apply IH; assumption.
Qed.
Lemma poly_mul_poly_exact p q : valid_poly p -> valid_poly q -> poly_mul_poly p q = Ok (multiplied (SP p) (SP q)).
Proof.
  intros V W. unfold poly_mul_poly. rewrite (valid_poly_check p V), (valid_poly_check q W). cb.
  destruct (steps_ok p q V (proj2 W) (SK n0) I I) as (E & V1 & N1). rewrite E. cb. rewrite scalar_simplified_ok by exact V1.
  f_equal. apply ssimplified_id; [apply zero_laws_exact; exact EX | exact V1 | exact N1].
Qed.
Lemma product_kv k v : valid_var v -> product_term (k_to_mono k) (var_to_mono v) = mkMono k [1%Z] [v].
Proof.
  intro Vv. unfold product_term, ids. cbn [k_to_mono var_to_mono m_vars m_coeff map existsb filter negb app]. f_equal; [ring|]. unfold exponent. cbn [map k_to_mono var_to_mono m_vars m_exps exponent_in]. rewrite N.eqb_refl. reflexivity.
Qed.
Lemma product_vk k v : product_term (var_to_mono v) (k_to_mono k) = mkMono k [1%Z] [v].
Proof.
  unfold product_term, ids. cbn [k_to_mono var_to_mono m_vars m_coeff map filter app]. f_equal; [ring|]. unfold exponent. cbn [map k_to_mono var_to_mono m_vars m_exps exponent_in]. rewrite N.eqb_refl. reflexivity.
Qed.
Lemma multiply_exact a b : valid a -> valid b -> scalar_mul a b = Ok (multiplied a b).
Proof.
  intros Va Vb. destruct a as [k|v|m|p].
  - cbn [scalar_mul]. unfold k_mul. rewrite (valid_check b Vb). cb. destruct b as [k'|v|m|p]; cbn [multiplied as_term].
    + change (mkMono k [] []) with (k_to_mono k). change (mkMono k' [] []) with (k_to_mono k'). rewrite product_k by apply valid_mono_k. exact (simplify_exact (SK (k * k')) I).
    + unfold var_mul_k. rewrite (proj2 (var_check_valid v) Vb) || rewrite (proj1 (var_check_valid v) Vb). cb. change (mkMono k [] []) with (k_to_mono k). change (mkMono n1 [1%Z] [v]) with (var_to_mono v). rewrite product_kv by exact Vb.
      apply simplest_one. apply valid_mono_var; [exact Vb | lia].
    + unfold as_SM, mono_mul_k. rewrite (valid_mono_check m Vb). cb. change (mkMono k [] []) with (k_to_mono k). rewrite product_k by exact Vb. reflexivity.
    + exact (proj1 (exa_ok _ _ (poly_mul_one_exa p (SK k) Vb I eq_refl))).
  - cbn [scalar_mul]. destruct b as [k'|w|m|p]; cbn [var_mul multiplied as_term].
    + unfold var_mul_k. rewrite (proj2 (var_check_valid v) Va) || rewrite (proj1 (var_check_valid v) Va). cb. change (mkMono k' [] []) with (k_to_mono k'). change (mkMono n1 [1%Z] [v]) with (var_to_mono v). rewrite product_vk.
      apply simplest_one. apply valid_mono_var; [exact Va | lia].
    + unfold var_mul_var. rewrite (proj2 (var_check_valid v) Va) || rewrite (proj1 (var_check_valid v) Va). rewrite (proj2 (var_check_valid w) Vb) || rewrite (proj1 (var_check_valid w) Vb). cb.
      destruct (mono_mul_mono_product (var_to_mono v) (var_to_mono w) (valid_mono_of_var v Va) (valid_mono_of_var w Vb)) as [_ VP].
      assert (E : product_term (var_to_mono v) (var_to_mono w) = if same_id w v then mkMono n1 [2%Z] [v] else mkMono n1 [1%Z; 1%Z] [v; w]).
      { unfold product_term, ids, same_id. cbn [var_to_mono m_vars m_coeff map existsb filter]. rewrite orb_false_r. destruct (N.eqb_spec (v_id w) (v_id v)) as [Ei|Ei]; cbn [negb app map]; unfold exponent; cbn [var_to_mono m_vars m_exps exponent_in].
        - rewrite <- Ei, !N.eqb_refl. f_equal. ring.
        - rewrite !N.eqb_refl. assert (E1 : N.eqb (v_id w) (v_id v) = false) by (apply N.eqb_neq; exact Ei). assert (E2 : N.eqb (v_id v) (v_id w) = false) by (apply N.eqb_neq; congruence). rewrite E1, E2. f_equal. ring. }
      change (mkMono n1 [1%Z] [v]) with (var_to_mono v). change (mkMono n1 [1%Z] [w]) with (var_to_mono w). rewrite E in VP |- *. apply simplest_one. exact VP.
    + unfold var_mul_mono. rewrite (proj2 (var_check_valid v) Va) || rewrite (proj1 (var_check_valid v) Va). rewrite (valid_mono_check m Vb). cb. rewrite mono_mul_var_product by assumption. cb.
      apply simplest_one. exact (proj2 (mono_mul_mono_product m (var_to_mono v) Vb (valid_mono_of_var v Va))).
    + unfold var_mul_poly. rewrite (proj2 (var_check_valid v) Va) || rewrite (proj1 (var_check_valid v) Va). rewrite (valid_poly_check p Vb). cb.
      exact (proj1 (exa_ok _ _ (exa_again _ _ (poly_mul_one_exa p (SV v) Vb Va eq_refl)))).
  - cbn [scalar_mul]. destruct b as [k'|w|m'|p]; cbn [mono_mul multiplied as_term].
    + unfold as_SM, mono_mul_k. rewrite (valid_mono_check m Va). cb. change (mkMono k' [] []) with (k_to_mono k'). rewrite product_k by exact Va. reflexivity.
    + rewrite mono_mul_var_product by assumption. reflexivity.
    + rewrite (proj1 (mono_mul_mono_product m m' Va Vb)). reflexivity.
    + unfold mono_mul_poly. rewrite (valid_mono_check m Va), (valid_poly_check p Vb). cb. exact (proj1 (exa_ok _ _ (poly_mul_one_exa p (SM m) Vb Va eq_refl))).
  - cbn [scalar_mul]. destruct b as [k'|w|m'|q].
    + exact (proj1 (exa_ok _ _ (poly_mul_one_exa p (SK k') Va I eq_refl))).
    + exact (proj1 (exa_ok _ _ (poly_mul_one_exa p (SV w) Va Vb eq_refl))).
    + exact (proj1 (exa_ok _ _ (poly_mul_one_exa p (SM m') Va Vb eq_refl))).
    + apply poly_mul_poly_exact; assumption.
Qed.
End Collect.
