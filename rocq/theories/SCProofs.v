(** * Proofs about scalar constraints *)

From Coq Require Import ZArith NArith Bool List Lia Permutation Field_theory Ring_theory.
From Verif Require Import Num Syntax ModelScalar ModelSC Spec SpecProg Base ScalarValid Eval ScalarOps ScalarMore ScalarNorm Unamb ScalarLin Programs ListFacts ScalarFacts Order.
Import ListNotations.
Local Open Scope num_scope.

Section SC.
Context {NN : Num}.
Ltac cb := cbn [bind check].
Ltac dbind H := match type of H with bind ?x _ = Ok _ => let E := fresh "E" in destruct x eqn:E; cbn [bind] in H; [|discriminate H] end.

Lemma valid_sc_check c : valid_constraint c -> sc_check c = true.
Proof.
  intros (H1 & H2 & H3). unfold sc_check. rewrite (valid_check _ H1), (valid_check _ H2). destruct (sc_sense c); try reflexivity. congruence.
Qed.

(** ** linearity *)
Lemma linear_test s : valid s -> exists b, scalar_is_linear s = Ok b /\ (b = true <-> degree_at_most 1 s).
Proof. apply is_linear_iff. Qed.

Lemma sc_require_linear_ok c : valid (sc_left c) -> valid (sc_right c) -> degree_at_most 1 (sc_left c) -> degree_at_most 1 (sc_right c) ->
  sc_require_linear c = Ok tt.
Proof.
  intros V1 V2 D1 D2. unfold sc_require_linear, sc_is_linear. destruct (linear_test _ V1) as (b1 & E1 & H1). destruct (linear_test _ V2) as (b2 & E2 & H2).
  rewrite E2, E1. cb. rewrite (proj2 H2 D2), (proj2 H1 D1). reflexivity.
Qed.
Lemma sc_require_linear_fail c : valid (sc_left c) -> valid (sc_right c) -> (~ degree_at_most 1 (sc_left c) \/ ~ degree_at_most 1 (sc_right c)) ->
  sc_require_linear c = Panic PLinearRequired.
Proof.
  intros V1 V2 D. unfold sc_require_linear, sc_is_linear. destruct (linear_test _ V1) as (b1 & E1 & H1). destruct (linear_test _ V2) as (b2 & E2 & H2).
  rewrite E2, E1. cb. destruct b2; [destruct b1|]; cb.
  - exfalso. destruct D as [D|D]; apply D; [apply H1 | apply H2]; reflexivity.
  - reflexivity.
  - destruct b1; reflexivity.
Qed.

Lemma inequality_nonlinear c w : valid_constraint c -> (~ degree_at_most 1 (sc_left c) \/ ~ degree_at_most 1 (sc_right c)) ->
  sc_linear_inequality c w = Panic PLinearRequired.
Proof.
  intros V D. unfold sc_linear_inequality. rewrite (valid_sc_check c V). cb. destruct V as (V1 & V2 & _). rewrite sc_require_linear_fail by assumption. reflexivity.
Qed.
Lemma equality_nonlinear c w : valid_constraint c -> (~ degree_at_most 1 (sc_left c) \/ ~ degree_at_most 1 (sc_right c)) ->
  sc_linear_equality c w = Panic PLinearRequired.
Proof.
  intros V D. unfold sc_linear_equality. rewrite (valid_sc_check c V). cb. destruct V as (V1 & V2 & _). rewrite sc_require_linear_fail by assumption. reflexivity.
Qed.
Lemma equality_sense c w : valid_constraint c -> degree_at_most 1 (sc_left c) -> degree_at_most 1 (sc_right c) -> sc_sense c <> SenseEq ->
  sc_linear_equality c w = Panic PEqRequired.
Proof.
  intros V D1 D2 H. unfold sc_linear_equality. rewrite (valid_sc_check c V). cb. destruct V as (V1 & V2 & _). rewrite sc_require_linear_ok by assumption. cb.
  destruct (sc_sense c); try reflexivity; congruence.
Qed.

(** ** the difference of two linear sides *)
Lemma minus_linear a b : valid a -> valid b -> degree_at_most 1 a -> degree_at_most 1 b ->
  exists d, scalar_minus a b = Ok d /\ valid d /\ normal d /\ degree_at_most 1 d /\ (forall i, occurs i d -> occurs i a \/ occurs i b)
    /\ (ExactNum NN -> forall r, eval r d = eval r a - eval r b).
Proof.
  intros Va Vb Da Db. pose proof (scalar_minus_sum a b Va Vb) as HS.
  destruct (sum_degree a b _ _ 1 Va Vb HS Da Db) as (d & E & Dd).
  destruct (minus_total a b Va Vb) as (d' & E' & Vd & Nd). rewrite E in E'. injection E' as <-.
  exists d. split; [exact E|]. split; [exact Vd|]. split; [exact Nd|]. split; [exact Dd|]. split.
  - intros i Hi. exact (sum_occurs a b _ _ i d HS E Hi).
  - intro EX. destruct (minus_degree2 a b EX Va Vb) as (d' & E' & Hd).
    + eapply Forall_impl; [|exact Da]. cbn. intros; lia.
    + eapply Forall_impl; [|exact Db]. cbn. intros; lia.
    + rewrite E in E'. injection E' as <-. exact Hd.
Qed.

Section Exact.
Context {EX : ExactNum NN}.
Add Ring numring2 : (@num_ring NN EX).

Lemma dot_scale r f l w : dot r (map (fun x => f * x) l) w = f * dot r l w.
Proof. revert w. induction l as [|c l IH]; intros [|v w]; cbn; try ring. rewrite IH. ring. Qed.
Lemma dot_at_zero l w : dot (fun _ => n0) l w = n0.
Proof. revert w. induction l as [|c l IH]; intros [|v w]; cbn; try ring. rewrite IH. ring. Qed.

Lemma sc_rhs_ok c : valid_constraint c -> collected (sc_left c) -> collected (sc_right c) ->
  sc_rhs c = Ok (eval (fun _ => n0) (sc_right c) - eval (fun _ => n0) (sc_left c)).
Proof.
  intros (V1 & V2 & _) C1 C2. unfold sc_rhs. rewrite !constant_value by assumption. reflexivity.
Qed.

(** the common part of the two representations *)
Lemma representation c w : valid_constraint c -> degree_at_most 1 (sc_left c) -> degree_at_most 1 (sc_right c) ->
  collected (sc_left c) -> collected (sc_right c) ->
  w <> [] -> Forall valid_var w -> NoDup (map v_id w) -> (forall i, occurs i (sc_left c) \/ occurs i (sc_right c) -> In i (map v_id w)) ->
  exists d a b, scalar_minus (sc_left c) (sc_right c) = Ok d /\ scalar_linear_coeff d [w] = Ok a /\ sc_rhs c = Ok b /\ length a = length w
    /\ forall r, dot r a w - b = eval r (sc_left c) - eval r (sc_right c).
Proof.
  intros V D1 D2 C1 C2 Hw Vw HN HC. pose proof V as (V1 & V2 & _). destruct (minus_linear _ _ V1 V2 D1 D2) as (d & Ed & Vd & Nd & Dd & Od & Hd).
  destruct (linear_decomposition d w Vd Dd (normal_collected d Nd)) as (a & k & Ea & Ek & La & Ha).
  { apply normal_proper in Nd. destruct d; exact Nd. }
  { exact Hw. } { exact Vw. } { exact HN. } { intros i Hi. apply HC, Od, Hi. }
  eexists d, a, _. split; [exact Ed|]. split; [exact Ea|]. split; [apply sc_rhs_ok; assumption|]. split; [exact La|]. intro r.
  pose proof (Ha r) as H1. pose proof (Ha (fun _ => n0)) as H0. rewrite (Hd EX) in H1. rewrite (Hd EX) in H0. rewrite dot_at_zero in H0.
  rewrite H1. replace k with (n0 + k) by ring. rewrite <- H0. ring.
Qed.

Lemma inequality_repr c w : valid_constraint c -> (sc_sense c = SenseLe \/ sc_sense c = SenseGe) ->
  degree_at_most 1 (sc_left c) -> degree_at_most 1 (sc_right c) -> collected (sc_left c) -> collected (sc_right c) ->
  w <> [] -> Forall valid_var w -> NoDup (map v_id w) -> (forall i, occurs i (sc_left c) \/ occurs i (sc_right c) -> In i (map v_id w)) ->
  exists A b, sc_linear_inequality c [w] = Ok (A, b) /\ length A = length w
    /\ forall r, nleb (dot r A w) b = true <-> satisfies r c.
Proof.
  intros V HS D1 D2 C1 C2 Hw Vw HN HC. destruct (representation c w V D1 D2 C1 C2 Hw Vw HN HC) as (d & a & b & Ed & Ea & Eb & La & Hr).
  unfold sc_linear_inequality. rewrite (valid_sc_check c V). cb. destruct V as (V1 & V2 & _). rewrite sc_require_linear_ok by assumption. cb.
  rewrite Ed. cb. rewrite Ea. cb. rewrite Eb. cb. eexists _, _. split; [reflexivity|]. unfold satisfies. destruct HS as [HS|HS]; rewrite HS; cbn [sense_eqb].
  - split; [exact La|]. intro r. apply (holds_diff _ _ _ _ SenseLe). exact (Hr r).
  - split; [rewrite map_length; exact La|]. intro r. rewrite dot_scale, nm1_exact. replace (- n1 * dot r a w) with (- dot r a w) by ring.
    rewrite le_opp_iff. apply (holds_diff _ _ _ _ SenseGe). exact (Hr r).
Qed.

Lemma equality_repr c w : valid_constraint c -> sc_sense c = SenseEq ->
  degree_at_most 1 (sc_left c) -> degree_at_most 1 (sc_right c) -> collected (sc_left c) -> collected (sc_right c) ->
  w <> [] -> Forall valid_var w -> NoDup (map v_id w) -> (forall i, occurs i (sc_left c) \/ occurs i (sc_right c) -> In i (map v_id w)) ->
  exists C d, sc_linear_equality c [w] = Ok (C, d) /\ length C = length w
    /\ forall r, dot r C w = d <-> satisfies r c.
Proof.
  intros V HS D1 D2 C1 C2 Hw Vw HN HC. destruct (representation c w V D1 D2 C1 C2 Hw Vw HN HC) as (d & a & b & Ed & Ea & Eb & La & Hr).
  unfold sc_linear_equality. rewrite (valid_sc_check c V). cb. destruct V as (V1 & V2 & _). rewrite sc_require_linear_ok by assumption. cb.
  rewrite HS. cbn [sense_eqb check bind]. rewrite Ed. cb. rewrite Ea. cb. rewrite Eb. cb. eexists _, _. split; [reflexivity|].
  split; [exact La|]. intro r. unfold satisfies. rewrite HS. apply (holds_diff _ _ _ _ SenseEq). exact (Hr r).
Qed.
End Exact.

(** ** Simplify *)
Lemma const_mono_formed k : is_const (k_to_mono k) = true.
Proof. reflexivity. Qed.

Lemma simplify_spec c : valid_constraint c ->
  exists c', sc_simplify c = Ok c' /\ valid_constraint c' /\ sc_sense c' = sc_sense c
    /\ (exists k, sc_right c' = SK k)
    /\ (c' = c \/ normal (sc_left c'))
    /\ ((exists k, sc_right c = SK k) -> c' = c)
    /\ (forall m, In m (terms (sc_left c')) -> is_const m = true \/ formed (terms (sc_left c) ++ terms (sc_right c)) m)
    /\ (ExactNum NN -> unambiguous (in_either (sc_left c) (sc_right c)) ->
        (forall r, eval r (sc_left c') - eval r (sc_right c') = eval r (sc_left c) - eval r (sc_right c))
        /\ (collected (sc_right c) -> eval (fun _ => n0) (sc_left c') = eval (fun _ => n0) (sc_left c))).
Proof.
  intro V. pose proof V as (V1 & V2 & V3). destruct c as [l r s]. cbn [sc_left sc_right sc_sense] in *.
  assert (HK : (exists k, r = SK k) \/ forall k, r <> SK k).
  { destruct r; [left; eexists; reflexivity | right; discriminate | right; discriminate | right; discriminate]. }
  destruct HK as [(k & ->)|HK].
  { exists (mkSC l (SK k) s). split; [reflexivity|]. split; [exact V|]. split; [reflexivity|]. split; [exists k; reflexivity|].
    split; [left; reflexivity|]. split; [reflexivity|]. split.
    - intros m Hm. right. exists m. split; [apply in_app_iff; left; exact Hm | split; reflexivity].
    - intros EX HU. split; [intro; reflexivity | intro; reflexivity]. }
  assert (HE : sc_simplify (mkSC l r s) = (d <- scalar_minus l r ;; k <- scalar_constant r ;; lhs <- scalar_plus_float d k ;;
                 k' <- scalar_constant r ;; Ok (mkSC lhs (SK k') s))).
  { unfold sc_simplify. cbn [sc_left sc_right sc_sense]. destruct r as [k| | |]; [exfalso; apply (HK k); reflexivity| | |]; reflexivity. }
  rewrite HE. destruct (scalar_minus_sum l r V1 V2) as (d & Ed & Vd & Fd & _ & Hd). rewrite Ed. cb.
  assert (HC : exists k, scalar_constant r = Ok k).
  { destruct r; cbn; try (eexists; reflexivity). rewrite poly_constant_ok by (apply valid_poly_check; exact V2). eexists; reflexivity. }
  destruct HC as (k & Ek). rewrite Ek. cb. destruct (scalar_plus_float_spec d k Vd) as (x & Vx & Ex & Rx). rewrite Ex. cb.
  pose proof (lred_trans _ _ _ Rx (lred_simplified x Vx)) as (_ & R2 & R3).
  exists (mkSC (ssimplified x) (SK k) s). cbn [sc_left sc_right sc_sense]. split; [reflexivity|].
  split; [split; [apply ssimplified_valid; exact Vx | split; [exact I | exact V3]]|]. split; [reflexivity|]. split; [exists k; reflexivity|].
  split; [right; apply ssimplified_normal; exact Vx|]. split; [intros (k0 & H0); exfalso; exact (HK k0 H0)|].
  assert (FD : forall m, In m (terms d ++ [k_to_mono k]) -> is_const m = true \/ formed (terms l ++ terms r) m).
  { intros m Hm. apply in_app_iff in Hm. destruct Hm as [Hm|[<-|[]]]; [exact (Fd m Hm) | left; reflexivity]. }
  split.
  - intros m Hm. destruct (R2 m Hm) as [C|C]; [left; exact C|]. eapply formed_trans; [exact C | exact FD].
  - intros EX HU. assert (HL : forall a, eval a (ssimplified x) = eval a l - eval a r + k).
    { intro a. rewrite <- eval_terms, R3; [|exact EX|].
      - rewrite (eval_poly_app a (terms d) [k_to_mono k]), eval_terms, eval_poly_single, eval_k. rewrite Hd; [reflexivity | exact EX | apply either_coherent; exact HU].
      - eapply coherent_forms; [apply either_coherent; exact HU | exact FD]. }
    pose proof (@num_ring NN EX) as RT. split.
    + intro a. rewrite HL. cbn [eval]. rewrite !(Rsub_def RT). rewrite <- (Radd_assoc RT). rewrite (Ropp_def RT), (Radd_comm RT). apply (Radd_0_l RT).
    + intro C. rewrite HL. rewrite (constant_value r V2 C) in Ek. injection Ek as <-. rewrite (Rsub_def RT), <- (Radd_assoc RT), (Radd_comm RT (- _)), (Ropp_def RT), (Radd_comm RT). apply (Radd_0_l RT).
Qed.

Lemma simplify_keeps c : ExactNum NN -> valid_constraint c -> unambiguous (in_either (sc_left c) (sc_right c)) ->
  exists c', sc_simplify c = Ok c' /\ valid_constraint c' /\ sc_sense c' = sc_sense c /\ (exists k, sc_right c' = SK k)
    /\ forall r, satisfies r c' <-> satisfies r c.
Proof.
  intros EX V HU. destruct (simplify_spec c V) as (c' & E & V' & S & K & _ & _ & _ & H). exists c'.
  split; [exact E|]. split; [exact V'|]. split; [exact S|]. split; [exact K|]. intro r. unfold satisfies. rewrite S.
  apply holds_diff. apply H; assumption.
Qed.
Lemma simplify_shape c : valid_constraint c ->
  exists c', sc_simplify c = Ok c' /\ valid_constraint c' /\ sc_sense c' = sc_sense c /\ (exists k, sc_right c' = SK k).
Proof.
  intro V. destruct (simplify_spec c V) as (c' & E & V' & S & K & _). exists c'. auto.
Qed.

(** ** ScaleBy *)
Lemma self_coherent a : unambiguous (fun m => In m (terms a)) -> coherent (terms a).
Proof. intros H x y Hx Hy. apply H; assumption. Qed.

Lemma scale_by_spec c f : valid_constraint c ->
  exists c', sc_scale_by c f = Ok c' /\ valid_constraint c' /\ sc_sense c' = flip f (sc_sense c)
    /\ (forall k, sc_right c = SK k -> sc_right c' = SK (k * f))
    /\ (ExactNum NN -> unambiguous (fun m => In m (terms (sc_left c))) -> forall r, eval r (sc_left c') = eval r (sc_left c) * f)
    /\ (ExactNum NN -> unambiguous (fun m => In m (terms (sc_right c))) -> forall r, eval r (sc_right c') = eval r (sc_right c) * f).
Proof.
  intro V. unfold sc_scale_by. rewrite (valid_sc_check c V). cb. destruct V as (V1 & V2 & V3).
  destruct (scale_forms _ _ _ (scalar_mul_float_scale (sc_left c) f V1)) as (l & -> & Vl & _ & Hl). cb.
  destruct (scale_forms _ _ _ (scalar_mul_float_scale (sc_right c) f V2)) as (t & Et & Vt & _ & Ht). rewrite Et. cb.
  eexists. split; [reflexivity|]. cbn [sc_left sc_right sc_sense]. split; [split; [exact Vl|]; split; [exact Vt|]|].
  { cbn [sc_sense]. destruct (f <? n0); destruct (sc_sense c); congruence. }
  split; [unfold flip; destruct (f <? n0), (sc_sense c); reflexivity|]. split.
  { intros k Hk. rewrite Hk in Et. cbn in Et. injection Et as <-. reflexivity. }
  split; intros EX HU r.
  - rewrite Hl; [rewrite eval_terms; reflexivity | exact EX | apply self_coherent; exact HU].
  - rewrite Ht; [rewrite eval_terms; reflexivity | exact EX | apply self_coherent; exact HU].
Qed.
Lemma scale_by_value c f : ExactNum NN -> valid_constraint c -> f <> n0 ->
  unambiguous (fun m => In m (terms (sc_left c))) -> unambiguous (fun m => In m (terms (sc_right c))) ->
  exists c', sc_scale_by c f = Ok c' /\ valid_constraint c' /\ forall r, satisfies r c' <-> satisfies r c.
Proof.
  intros EX V Hf U1 U2. destruct (scale_by_spec c f V) as (c' & E & V' & S & _ & H1 & H2). exists c'. split; [exact E|]. split; [exact V'|].
  intro r. unfold satisfies. rewrite S, (H1 EX U1), (H2 EX U2). apply holds_scale. exact Hf.
Qed.
Lemma scale_by_total c f : valid_constraint c -> exists c', sc_scale_by c f = Ok c' /\ valid_constraint c'.
Proof. intros V. destruct (scale_by_spec c f V) as (c' & E & V' & _). eauto. Qed.

Lemma self_degree2 a : valid a -> degree_at_most 2 a -> unambiguous (fun m => In m (terms a)).
Proof. intros V D m1 m2 H1 H2. apply (either_degree2 a a V V D D); left; assumption. Qed.
Lemma self_one_variable x a : valid a -> only_variable x a -> unambiguous (fun m => In m (terms a)).
Proof. intros V D m1 m2 H1 H2. apply (either_one_variable x a a V V D D); left; assumption. Qed.
Lemma degree_le d d' a : (d <= d')%Z -> degree_at_most d a -> degree_at_most d' a.
Proof. intros H D. eapply Forall_impl; [|exact D]. cbn. intros; lia. Qed.

(** ** Substitution *)
Lemma sc_substitute_value c v e : ExactNum NN -> valid_constraint c -> valid_var v -> valid e ->
  same_environment v (sc_left c) -> same_environment v (sc_right c) ->
  unambiguous_exponents (substituted_terms (replacement v e) (sc_left c)) ->
  unambiguous_exponents (substituted_terms (replacement v e) (sc_right c)) ->
  exists c', sc_substitute c v e = Ok c' /\ valid_constraint c' /\ forall r, satisfies r c' <-> satisfies (update r (v_id v) (eval r e)) c.
Proof.
  intros EX V Vv Ve S1 S2 U1 U2. unfold sc_substitute. rewrite (valid_sc_check c V). cb. destruct V as (V1 & V2 & V3).
  destruct (substitute_value _ v e EX V1 Vv Ve S1 U1) as (l & El & Hl). destruct (substitute_value _ v e EX V2 Vv Ve S2 U2) as (t & Et & Ht).
  destruct (scalar_substitute_valid _ v e V1 Vv Ve) as (l' & El' & Vl). rewrite El in El'. injection El' as <-.
  destruct (scalar_substitute_valid _ v e V2 Vv Ve) as (t' & Et' & Vt). rewrite Et in Et'. injection Et' as <-.
  rewrite El. cb. rewrite Et. cb. eexists. split; [reflexivity|]. split; [split; [exact Vl | split; [exact Vt | exact V3]]|].
  intro r. unfold satisfies. cbn [sc_left sc_right sc_sense]. rewrite Hl, Ht. reflexivity.
Qed.
Lemma sc_substitute_total c v e : valid_constraint c -> valid_var v -> valid e ->
  exists c', sc_substitute c v e = Ok c' /\ valid_constraint c' /\ sc_sense c' = sc_sense c.
Proof.
  intros V Vv Ve. unfold sc_substitute. rewrite (valid_sc_check c V). cb. destruct V as (V1 & V2 & V3).
  destruct (scalar_substitute_valid _ v e V1 Vv Ve) as (l & El & Vl). destruct (scalar_substitute_valid _ v e V2 Vv Ve) as (t & Et & Vt).
  rewrite El. cb. rewrite Et. cb. eexists. split; [reflexivity|]. split; [split; [exact Vl | split; [exact Vt | exact V3]] | reflexivity].
Qed.
Lemma sc_substitute_degree2 c v e d D : ExactNum NN -> valid_constraint c -> valid_var v -> valid e ->
  same_environment v (sc_left c) -> same_environment v (sc_right c) ->
  degree_at_most d (sc_left c) -> degree_at_most d (sc_right c) -> degree_at_most D e -> (1 <= D)%Z -> (d * D <= 2)%Z ->
  exists c', sc_substitute c v e = Ok c' /\ valid_constraint c' /\ forall r, satisfies r c' <-> satisfies (update r (v_id v) (eval r e)) c.
Proof.
  intros EX V Vv Ve S1 S2 D1 D2 De H1 H2. destruct (sc_substitute_total c v e V Vv Ve) as (c' & E & V' & Sn). exists c'. split; [exact E|]. split; [exact V'|].
  unfold sc_substitute in E. rewrite (valid_sc_check c V) in E. cbn [check bind] in E. destruct V as (V1 & V2 & V3).
  destruct (substitute_degree2 _ v e d D EX V1 Vv Ve S1 D1 De H1 H2) as (l & El & Hl).
  destruct (substitute_degree2 _ v e d D EX V2 Vv Ve S2 D2 De H1 H2) as (t & Et & Ht).
  rewrite El in E. cbn [bind] in E. rewrite Et in E. cbn [bind] in E. injection E as <-. intro r. unfold satisfies. cbn [sc_left sc_right sc_sense].
  rewrite Hl, Ht. reflexivity.
Qed.
Lemma sc_substitute_map_degree2 c sm d D : ExactNum NN -> valid_constraint c -> valid_map sm ->
  degree_at_most d (sc_left c) -> degree_at_most d (sc_right c) -> (forall k e, In (k, ES e) sm -> degree_at_most D e) -> (1 <= D)%Z -> (d * D <= 2)%Z ->
  exists c', sc_substitute_map c sm = Ok c' /\ sc_sense c' = sc_sense c
    /\ forall r r', simultaneous r sm (sc_left c) r' -> simultaneous r sm (sc_right c) r' -> (satisfies r c' <-> satisfies r' c).
Proof.
  intros EX V Vm D1 D2 De H1 H2. unfold sc_substitute_map. rewrite (valid_sc_check c V). cb. destruct V as (V1 & V2 & V3).
  destruct (substitute_map_degree2 _ sm d D EX V1 Vm D1 De H1 H2) as (l & El & Hl).
  destruct (substitute_map_degree2 _ sm d D EX V2 Vm D2 De H1 H2) as (t & Et & Ht).
  rewrite El. cb. rewrite Et. cb. eexists. split; [reflexivity|]. split; [reflexivity|].
  intros r r' S1 S2. unfold satisfies. cbn [sc_left sc_right sc_sense]. rewrite (Hl r r' S1), (Ht r r' S2). reflexivity.
Qed.
Lemma sc_substitute_map_numbers c sm : ExactNum NN -> valid_constraint c -> valid_map sm ->
  maps_to_numbers sm (sc_left c) -> maps_to_numbers sm (sc_right c) ->
  exists a b, sc_substitute_map c sm = Ok (mkSC (SK a) (SK b) (sc_sense c))
    /\ forall r, numbers_of sm (sc_left c) r -> numbers_of sm (sc_right c) r -> (holds a (sc_sense c) b <-> satisfies r c).
Proof.
  intros EX V Vm M1 M2. unfold sc_substitute_map. rewrite (valid_sc_check c V). cb. destruct V as (V1 & V2 & V3).
  destruct (substitute_map_numbers _ sm EX V1 Vm M1) as (a & Ea & Ha). destruct (substitute_map_numbers _ sm EX V2 Vm M2) as (b & Eb & Hb).
  rewrite Ea. cb. rewrite Eb. cb. exists a, b. split; [reflexivity|]. intros r N1 N2. unfold satisfies. rewrite (Ha r N1), (Hb r N2). reflexivity.
Qed.

End SC.
