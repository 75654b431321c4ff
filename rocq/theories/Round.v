(** * Coefficients of sums, differences and multiples with float64 arithmetic: one rounding each *)

From Coq Require Import ZArith NArith Bool List Lia.
From Coq Require Import Floats.SpecFloat.
From Verif Require Import Num Syntax ModelScalar Spec SpecEffect SpecRound Base ScalarValid Eval Canon ScalarOps ScalarMore ScalarNorm Effect FloatExact.
Import ListNotations.

Section Round.
Context {NN : Num}.
Local Open Scope num_scope.
Ltac cb := cbn [bind check].

Definition float_laws : Prop :=
  zero_laws /\ (forall c d, (c =? n0) = true -> (d =? n0) = true -> (c + d =? n0) = true) /\ (forall x y : num, x + y = y + x)
  /\ n1 + n1 = n2 /\ (forall c, (c =? n1) = true -> c = n1) /\ (forall c d, (c =? n0) = true -> (d =? n0) = false -> c + d = d).
Context (FL : float_laws).
Let ZL : zero_laws := proj1 FL.

Definition nz (l : list num) : list num := filter (fun c => negb (c =? n0)) l.
Definition cs (m : Monomial) (l : list Monomial) : list num := map m_coeff (filter (fun t => alike t m) l).

Lemma nz_app l l' : nz (l ++ l') = nz l ++ nz l'.
Proof. apply filter_app. Qed.
Lemma nz_nz l : nz (nz l) = nz l.
Proof. unfold nz. apply filter_all. intros a Ha. apply filter_In in Ha. apply Ha. Qed.
Lemma cs_app m l l' : cs m (l ++ l') = cs m l ++ cs m l'.
Proof. unfold cs. rewrite filter_app, map_app. reflexivity. Qed.
Lemma cs_cons m t l : cs m (t :: l) = (if alike t m then [m_coeff t] else []) ++ cs m l.
Proof. unfold cs. cbn [filter]. destruct (alike t m); reflexivity. Qed.
Lemma cs_one m t : cs m [t] = if alike t m then [m_coeff t] else [].
Proof. rewrite cs_cons. apply app_nil_r. Qed.
Lemma nz_zero : nz [n0] = [].
Proof. unfold nz. cbn [filter]. rewrite (proj1 ZL). reflexivity. Qed.
Lemma cs_set m t c l : cs m (set_coeff t c :: l) = (if alike t m then [c] else []) ++ cs m l.
Proof. rewrite cs_cons. rewrite (alike_form (set_coeff t c) t m) by (split; reflexivity). reflexivity. Qed.

(** forms that look alike have the same coefficients *)
Lemma alike_through t e m : valid_mono t -> valid_mono e -> valid_mono m -> alike e t = true -> alike e m = alike t m.
Proof.
  intros Vt Ve Vm H. apply alike_look in H; try assumption. apply eq_true_iff_eq. rewrite !alike_look by assumption.
  split; intro K; [eapply look_trans; [apply look_sym; exact H | exact K] | eapply look_trans; eassumption].
Qed.
Lemma alike_const_eq t m : valid_mono t -> valid_mono m -> is_const m = true -> alike t m = is_const t.
Proof.
  intros Vt Vm Hm. destruct (is_const t) eqn:E.
  - apply alike_look; try assumption. rewrite (const_mono t Vt E), (const_mono m Vm Hm). unfold look_alike. cbn. repeat split; tauto.
  - destruct (alike t m) eqn:A; [|reflexivity]. apply alike_look in A; try assumption. apply const_like in A. congruence.
Qed.

Definition addf (l : list num) (x : num) : list num := match l with [] => [x] | c :: r => (c + x) :: r end.

Lemma cs_add_pure acc t m : Forall valid_mono acc -> valid_mono t -> valid_mono m ->
  cs m (add_pure acc t) = if alike t m then addf (cs m acc) (m_coeff t) else cs m acc.
Proof.
  intros Va Vt Vm. induction Va as [|e acc Ve Va IH]; cbn [add_pure].
  - rewrite cs_one. destruct (alike t m); reflexivity.
  - rewrite <- (alike_matchb e t) by assumption. destruct (alike e t) eqn:E.
    + rewrite cs_set, cs_cons. rewrite (alike_through t e m) by assumption. destruct (alike t m); reflexivity.
    + rewrite !cs_cons, IH. destruct (alike t m) eqn:T; [|reflexivity]. destruct (alike e m) eqn:Em; [|reflexivity]. exfalso.
      apply alike_look in T; try assumption. apply alike_look in Em; try assumption.
      assert (K : look_alike e t) by (eapply look_trans; [exact Em | apply look_sym; exact T]). apply alike_look in K; try assumption. congruence.
Qed.

Lemma simp_pure_cs p c acc m : Forall valid_mono p -> Forall valid_mono acc -> valid_mono m ->
  let '(c', acc') := simp_pure p c acc in
  if is_const m then c' = fold_left nadd (cs m p) c else cs m acc' = fold_left addf (cs m p) (cs m acc).
Proof.
  intros Vp Va Vm. revert c acc Va. induction Vp as [|t p Vt Vp IH]; intros c acc Va.
  - cbn. destruct (is_const m); reflexivity.
  - cbn [simp_pure]. rewrite cs_cons. destruct (is_const t) eqn:Et.
    + specialize (IH (c + m_coeff t) acc Va). destruct (simp_pure p (c + m_coeff t) acc) as [c' acc'].
      destruct (is_const m) eqn:Em; [rewrite alike_const_eq, Et by assumption; exact IH|].
      rewrite const_alike by assumption. exact IH.
    + assert (Va' : Forall valid_mono (add_pure acc t)) by (apply add_pure_Forall; [apply valid_form_pred | exact Va | exact Vt]).
      specialize (IH c (add_pure acc t) Va'). destruct (simp_pure p c (add_pure acc t)) as [c' acc'].
      destruct (is_const m) eqn:Em; [rewrite alike_const_eq, Et by assumption; exact IH|].
      rewrite IH, cs_add_pure by assumption. destruct (alike t m); reflexivity.
Qed.

Lemma simp_pure_nonconst p c acc : Forall (fun t => is_const t = false) acc -> Forall (fun t => is_const t = false) (snd (simp_pure p c acc)).
Proof.
  revert c acc. induction p as [|t p IH]; intros c acc Ha; [exact Ha|]. cbn [simp_pure]. destruct (is_const t) eqn:E; apply IH; [exact Ha|].
  apply add_pure_Forall; [intros x k Hx; exact Hx | exact Ha | exact E].
Qed.
Lemma simp_pure_valid p c acc : Forall valid_mono p -> Forall valid_mono acc -> Forall valid_mono (snd (simp_pure p c acc)).
Proof.
  intro Vp. revert c acc. induction Vp as [|t p Vt Vp IH]; intros c acc Ha; [exact Ha|]. cbn [simp_pure]. destruct (is_const t) eqn:E; apply IH; [exact Ha|].
  apply add_pure_Forall; [apply valid_form_pred | exact Ha | exact Vt].
Qed.
Lemma cs_nonconst l m : Forall valid_mono l -> Forall (fun t => is_const t = false) l -> valid_mono m -> is_const m = true -> cs m l = [].
Proof.
  intros V N Vm Hm. induction V as [|t l Vt V IH]; [reflexivity|]. inversion N as [|? ? N1 N2]; subst. rewrite cs_cons, alike_const_eq, N1 by assumption. apply IH, N2.
Qed.
Lemma cs_filter l m : cs m (filter nonzero l) = nz (cs m l).
Proof.
  induction l as [|t l IH]; [reflexivity|]. cbn [filter]. rewrite cs_cons, nz_app, <- IH. unfold nonzero at 1. destruct (m_coeff t =? n0) eqn:E; cbn [negb].
  - destruct (alike t m); cbn [nz filter app]; [rewrite E|]; reflexivity.
  - rewrite cs_cons. destruct (alike t m); cbn [nz filter app]; [rewrite E|]; reflexivity.
Qed.

Definition collect (m : Monomial) (l : list num) : list num := if is_const m then [fold_left nadd l n0] else fold_left addf l [].

Lemma psimp_cs p m : Forall valid_mono p -> valid_mono m -> nz (cs m (psimp p)) = nz (collect m (cs m p)).
Proof.
  intros Vp Vm. unfold psimp, collect. pose proof (simp_pure_cs p n0 [] m Vp (Forall_nil _) Vm) as H.
  pose proof (simp_pure_nonconst p n0 [] (Forall_nil _)) as Hn. pose proof (simp_pure_valid p n0 [] Vp (Forall_nil _)) as Hv.
  destruct (simp_pure p n0 []) as [c nc]. cbn [snd] in *.
  assert (G : nz (cs m ((if c =? n0 then [] else [k_to_mono c]) ++ filter nonzero nc)) = nz (if is_const m then [c] else cs m nc)).
  { rewrite cs_app, nz_app, cs_filter, nz_nz. destruct (is_const m) eqn:Em.
    - rewrite (cs_nonconst nc m) by assumption. destruct (c =? n0) eqn:E0; [cbn [cs filter map nz app]; rewrite E0; reflexivity|].
      rewrite cs_one, alike_const_eq by (try assumption; apply valid_mono_k). cbn [is_const k_to_mono m_vars m_coeff]. apply app_nil_r.
    - destruct (c =? n0); [reflexivity|]. rewrite cs_one, const_alike by (try assumption; try reflexivity; apply valid_mono_k). reflexivity. }
  assert (K : forall o, nz (cs m (match o with [] => [k_to_mono n0] | _ => o end)) = nz (cs m o)).
  { intros [|t o]; [|reflexivity]. rewrite cs_one. destruct (alike (k_to_mono n0) m); [apply nz_zero | reflexivity]. }
  rewrite K, G. destruct (is_const m); [rewrite H; reflexivity|]. cbn [cs filter map] in H. rewrite H. reflexivity.
Qed.

Lemma zero_add c : nz [n0 + c] = nz [c].
Proof.
  pose proof (proj2 ZL) as Z2. pose proof FL as FL2; destruct FL2 as (_ & Z3 & _). unfold nz. cbn [filter]. destruct (c =? n0) eqn:E; [rewrite (Z3 n0 c (proj1 ZL) E); reflexivity|]. rewrite (Z2 c E), E. reflexivity.
Qed.

(** a single coefficient survives as it is, two are added once *)
Lemma collect_one m l : length l <= 1 -> nz (collect m l) = nz l.
Proof.
  intro H. destruct l as [|x [|y l]]; [| |cbn in H; lia]; unfold collect; destruct (is_const m); cbn [fold_left addf]; try reflexivity; [apply nz_zero | apply zero_add].
Qed.
Lemma collect_two m x y : nz (collect m [x; y]) = nz [x + y].
Proof.
  pose proof FL as (_ & Z2 & _ & _ & _ & Z1). unfold collect. destruct (is_const m); cbn [fold_left addf]; [|reflexivity].
  destruct (x =? n0) eqn:Ex; [|rewrite (proj2 ZL x Ex); reflexivity]. pose proof (Z2 n0 x (proj1 ZL) Ex) as E0.
  destruct (y =? n0) eqn:Ey; [unfold nz; cbn [filter]; rewrite (Z2 _ y E0 Ey), (Z2 x y Ex Ey); reflexivity|].
  rewrite (Z1 _ y E0 Ey), (Z1 x y Ex Ey). reflexivity.
Qed.

Definition sum (l l' : list num) : list num := match l, l' with [x], [y] => [x + y] | _, _ => l ++ l' end.

Lemma collect_sum m l l' : length l <= 1 -> length l' <= 1 -> nz (collect m (l ++ l')) = nz (sum l l').
Proof.
  intros H H'. destruct l as [|x [|x' l]]; [apply collect_one; exact H' | | cbn in H; lia].
  destruct l' as [|y [|y' l']]; [apply collect_one; exact H | | cbn in H'; lia]. apply collect_two.
Qed.
Lemma sum_comm l l' : length l <= 1 -> length l' <= 1 -> sum l l' = sum l' l.
Proof.
  intros H H'. pose proof FL as FL2; destruct FL2 as (_ & _ & C & _). destruct l as [|x [|x' l]], l' as [|y [|y' l']]; cbn in H, H'; try lia; try reflexivity. cbn. rewrite C. reflexivity.
Qed.

(** ** Simplification *)

Lemma plain_terms_f m v vs : valid_mono m -> is_plain_var m = true -> m_vars m = v :: vs -> terms (SV v) = [m].
Proof.
  intros (V1 & _) H E. pose proof (plain_var_single m v vs H E) as E1. unfold is_plain_var in H. apply andb_true_iff in H. destruct H as [H H3].
  apply andb_true_iff in H. destruct H as [H1 _]. pose proof FL as FL2; destruct FL2 as (_ & _ & _ & _ & F1 & _). apply F1 in H1. destruct m as [c es ws]. cbn [m_coeff m_exps m_vars] in *. subst c ws. rewrite E1 in V1.
  destruct es as [|e [|e' es]]; try discriminate. apply Z.eqb_eq in H3. subst e. rewrite E1. reflexivity.
Qed.
Lemma psimplified_terms_f p : Forall valid_mono p -> terms (psimplified p) = psimp p.
Proof.
  intro V. pose proof (psimp_valid p V) as [_ Hv]. unfold psimplified. destruct (psimp p) as [|m [|m2 l]] eqn:E; try reflexivity.
  inversion Hv as [|? ? Hm _]; subst. destruct (is_const m) eqn:Hk; [rewrite (const_mono m Hm Hk) at 2; reflexivity|].
  destruct (is_plain_var m) eqn:Ep; [|reflexivity]. destruct (m_vars m) as [|v vs] eqn:Ev; [reflexivity|]. eapply plain_terms_f; eassumption.
Qed.
Lemma msimplified_cs t m : valid_mono t -> nz (cs m (terms (msimplified t))) = nz (cs m [t]).
Proof.
  intro V. unfold msimplified. destruct (m_vars t) as [|v vs] eqn:Ev.
  - cbn [terms]. change (mkMono (m_coeff t) [] []) with (k_to_mono (m_coeff t)). rewrite <- (const_mono t V); [reflexivity|]. unfold is_const. rewrite Ev. reflexivity.
  - destruct (m_coeff t =? n0) eqn:E0.
    + cbn [terms]. rewrite !cs_one. cbn [m_coeff].
      transitivity (@nil num); [destruct (alike (mkMono n0 [] []) m); [apply nz_zero | reflexivity]|].
      destruct (alike t m); [|reflexivity]. unfold nz. cbn [filter]. rewrite E0. reflexivity.
    + destruct (is_plain_var t) eqn:Ep; [|reflexivity]. rewrite (plain_terms_f t v vs V Ep Ev). reflexivity.
Qed.

Lemma ssimplified_cs s m : valid s -> valid_mono m -> length (cs m (terms s)) <= 1 -> nz (cs m (terms (ssimplified s))) = nz (cs m (terms s)).
Proof.
  intros V Vm H. destruct s as [k|v|t|p]; cbn [ssimplified]; try reflexivity; [apply msimplified_cs; exact V|].
  rewrite psimplified_terms_f by apply V. rewrite psimp_cs by (try apply V; assumption). apply collect_one. exact H.
Qed.

(** ** Plus *)

(** the call returns the simplification of some expression, whose coefficients are those listed by [F] *)
Definition ec (F : Monomial -> list num) (x : res scalar) : Prop :=
  exists s, valid s /\ x = Ok (ssimplified s) /\ forall m, valid_mono m -> nz (cs m (terms (ssimplified s))) = nz (F m).

Lemma ec_simp F s : valid s -> (forall m, valid_mono m -> nz (cs m (terms (ssimplified s))) = nz (F m)) -> ec F (scalar_simplified s).
Proof. intros V H. exists s. split; [exact V|]. split; [apply scalar_simplified_ok; exact V | exact H]. Qed.
Lemma ec_again F x : ec F x -> ec F (out <- x ;; scalar_simplified out).
Proof.
  intros (s & V & -> & H). cb. exists (ssimplified s). pose proof (ssimplified_valid s V) as V'. split; [exact V'|].
  split; [apply scalar_simplified_ok; exact V'|]. intros m Vm. rewrite (ssimplified_id (ssimplified s)); [apply H, Vm | exact ZL | exact V' | apply ssimplified_normal; exact V].
Qed.
Lemma ec_eq F F' x : (forall m, valid_mono m -> F m = F' m) -> ec F x -> ec F' x.
Proof. intros H (s & V & E & Hs). exists s. split; [exact V|]. split; [exact E|]. intros m Vm. rewrite <- H by exact Vm. apply Hs, Vm. Qed.

Lemma normal_cs s m : valid s -> collected s -> valid_mono m -> length (cs m (terms s)) <= 1.
Proof.
  intros V N Vm. destruct s as [k|v|t|p]; try (cbn [terms]; rewrite cs_one; match goal with |- context [if ?b then _ else _] => destruct b end; cbn; lia).
  destruct V as [_ V]. cbn [terms].
  unfold cs. rewrite map_length. destruct (filter (fun t => alike t m) p) as [|a [|b l]] eqn:E; [cbn; lia | cbn; lia|]. exfalso.
  assert (X : exists l1 l2 l3, p = l1 ++ a :: l2 ++ b :: l3).
  { clear - E. revert E. induction p as [|x p IH]; intro E; [discriminate|]. cbn [filter] in E. destruct (alike x m).
    - injection E as -> E. assert (Hb : In b (filter (fun t => alike t m) p)) by (rewrite E; left; reflexivity). apply filter_In in Hb. destruct Hb as [Hb _].
      apply in_split in Hb. destruct Hb as (l2 & l3 & ->). exists [], l2, l3. reflexivity.
    - destruct (IH E) as (l1 & l2 & l3 & ->). exists (x :: l1), l2, l3. reflexivity. }
  destruct X as (l1 & l2 & l3 & X). apply (N l1 a l2 b l3 X).
  assert (Ha : In a (filter (fun t => alike t m) p)) by (rewrite E; left; reflexivity). assert (Hb : In b (filter (fun t => alike t m) p)) by (rewrite E; right; left; reflexivity).
  apply filter_In in Ha. apply filter_In in Hb. rewrite Forall_forall in V. destruct Ha as [Ha1 Ha2], Hb as [Hb1 Hb2].
  apply alike_look in Ha2; [|apply V; assumption | exact Vm]. apply alike_look in Hb2; [|apply V; assumption | exact Vm].
  eapply look_trans; [exact Ha2 | apply look_sym; exact Hb2].
Qed.
Ltac vv Vv v := pose proof Vv as Hv; (apply (proj1 (var_check_valid v)) in Hv || apply (proj2 (var_check_valid v)) in Hv); rewrite Hv; clear Hv.

(** appending to a polynomial in normal form *)
Lemma append_ec p q : valid_poly p -> collected (SP p) -> Forall valid_mono q -> (forall m, valid_mono m -> length (cs m q) <= 1) ->
  ec (fun m => sum (cs m p) (cs m q)) (scalar_simplified (SP (p ++ q))).
Proof.
  intros V N W L. assert (VV : valid_poly (p ++ q)) by (destruct V as [V0 V]; split; [destruct p; [congruence | discriminate] | apply Forall_app; split; assumption]).
  apply ec_simp; [exact VV|]. intros m Vm. cbn [ssimplified]. rewrite psimplified_terms_f by apply VV. rewrite psimp_cs by (try apply VV; assumption).
  rewrite cs_app. apply collect_sum; [exact (normal_cs (SP p) m V N Vm) | apply L, Vm].
Qed.
Lemma one_cs m t : length (cs m [t]) <= 1.
Proof. rewrite cs_one. destruct (alike t m); cbn; lia. Qed.

(** changing the coefficient of one term of a polynomial in normal form *)
Lemma change_ec l1 t l2 u : valid_poly (l1 ++ t :: l2) -> collected (SP (l1 ++ t :: l2)) -> valid_mono u -> look_alike t u ->
  ec (fun m => sum (cs m (l1 ++ t :: l2)) (cs m [u])) (scalar_simplified (SP (l1 ++ set_coeff t (m_coeff t + m_coeff u) :: l2))).
Proof.
  intros V N Vu HL. assert (Vt : valid_mono t) by (destruct V as [_ V]; rewrite Forall_forall in V; apply V, in_elt).
  assert (VV : valid_poly (l1 ++ set_coeff t (m_coeff t + m_coeff u) :: l2)).
  { destruct V as [_ V]. split; [destruct l1; discriminate|]. apply Forall_app in V. destruct V as [V1 V2]. inversion V2; subst. apply fapp; [exact V1 | constructor; assumption]. }
  apply ec_simp; [exact VV|]. intros m Vm. cbn [ssimplified]. rewrite psimplified_terms_f by apply VV. rewrite psimp_cs by (try apply VV; assumption).
  pose proof (normal_cs (SP (l1 ++ t :: l2)) m V N Vm) as L. cbn [terms] in L. rewrite cs_app, cs_cons in L. rewrite !cs_app, cs_set, cs_cons, cs_one.
  apply alike_look in HL; try assumption. rewrite <- (alike_through u t m) by assumption.
  destruct (alike t m) eqn:A.
  - rewrite !app_length in L. cbn [length] in L. destruct (cs m l1); [|cbn in L; lia]. destruct (cs m l2); [|cbn in L; lia]. apply collect_one. cbn. lia.
  - cbn [app] in *. unfold sum. destruct (cs m l1 ++ cs m l2) as [|x [|y l]]; cbn in L; try lia; apply collect_one; cbn; lia.
Qed.

Lemma poly_plus_k_ec p k : valid_poly p -> collected (SP p) -> ec (fun m => sum (cs m p) (cs m [k_to_mono k])) (poly_plus_k p k).
Proof.
  intros V N. unfold poly_plus_k. rewrite (valid_poly_check p V). cb.
  destruct (poly_constant_index_ok p (valid_poly_check p V)) as (o & -> & Ho). cb.
  destruct o as [i|].
  - destruct Ho as (l1 & t & l2 & -> & -> & Hc & _). rewrite index_split. cb. rewrite set_nth_split.
    assert (Vt : valid_mono t) by (destruct V as [_ V]; rewrite Forall_forall in V; apply V, in_elt).
    apply (change_ec l1 t l2 (k_to_mono k) V N (valid_mono_k k)). rewrite (const_mono t Vt Hc). unfold look_alike. cbn. repeat split; tauto.
  - apply append_ec; [exact V | exact N | apply fone, valid_mono_k | intros; apply one_cs].
Qed.
Lemma poly_plus_var_ec p v : valid_poly p -> collected (SP p) -> valid_var v -> ec (fun m => sum (cs m p) (cs m [var_to_mono v])) (poly_plus_var p v).
Proof.
  intros V N Vv. unfold poly_plus_var. rewrite (valid_poly_check p V). vv Vv v. cb.
  destruct (poly_variable_index_ok p v V Vv) as (o & -> & Ho). cb.
  destruct o as [i|].
  - destruct Ho as (l1 & t & l2 & -> & -> & (w & H1 & H2 & H3) & _). rewrite index_split. cb. rewrite set_nth_split.
    apply (change_ec l1 t l2 (var_to_mono v) V N (valid_mono_of_var v Vv)). eapply like_var; eassumption.
  - apply append_ec; [exact V | exact N | apply fone, valid_mono_of_var; exact Vv | intros; apply one_cs].
Qed.
Lemma poly_plus_poly_ec p q : valid_poly p -> collected (SP p) -> valid_poly q -> (forall m, valid_mono m -> length (cs m q) <= 1) ->
  ec (fun m => sum (cs m p) (cs m q)) (poly_plus_poly p q).
Proof.
  intros V N W L. unfold poly_plus_poly. rewrite (valid_poly_check p V), (valid_poly_check q W). cb. apply ec_again. apply append_ec; [exact V | exact N | apply W | exact L].
Qed.
Lemma poly_plus_mono_ec p t : valid_poly p -> collected (SP p) -> valid_mono t -> ec (fun m => sum (cs m p) (cs m [t])) (poly_plus_mono p t).
Proof.
  intros V N W. unfold poly_plus_mono. rewrite (valid_poly_check p V), (valid_mono_check t W). cb.
  apply ec_again. apply poly_plus_poly_ec; [exact V | exact N | apply valid_poly_single; exact W | intros; apply one_cs].
Qed.

(** two terms *)
Lemma two_ec t u : valid_mono t -> valid_mono u ->
  ec (fun m => sum (cs m [t]) (cs m [u])) (scalar_simplified (SP [t; u])).
Proof.
  intros V W. assert (VV : valid_poly [t; u]) by (apply valid_poly_two; assumption). apply ec_simp; [exact VV|].
  intros m Vm. cbn [ssimplified]. rewrite psimplified_terms_f by apply VV. rewrite psimp_cs by (try apply VV; assumption).
  rewrite cs_cons, !cs_one. destruct (alike t m) eqn:A; destruct (alike u m) eqn:B; cbn [app sum]; try (apply collect_one; cbn; lia).
  apply collect_two.
Qed.
Lemma merge_ec t u : valid_mono t -> valid_mono u -> look_alike t u ->
  ec (fun m => sum (cs m [t]) (cs m [u])) (scalar_simplified (SM (set_coeff t (m_coeff t + m_coeff u)))).
Proof.
  intros V W H. apply ec_simp; [exact V|]. intros m Vm. cbn [ssimplified]. rewrite msimplified_cs by exact V. rewrite cs_set, !cs_one.
  apply alike_look in H; try assumption. rewrite <- (alike_through u t m) by assumption. destruct (alike t m); reflexivity.
Qed.
Lemma mono_plus_k_ec t k : valid_mono t -> ec (fun m => sum (cs m [t]) (cs m [k_to_mono k])) (mono_plus_k t k).
Proof.
  intro V. unfold mono_plus_k. rewrite (valid_mono_check t V). cb. rewrite mono_is_constant_ok by (apply valid_mono_check; exact V). cb.
  destruct (is_const t) eqn:E.
  - apply ec_simp; [exact I|]. intros m Vm. cbn [ssimplified terms]. rewrite !cs_one. change (mkMono (m_coeff t + k) [] []) with (k_to_mono (m_coeff t + k)).
    rewrite (alike_form t (k_to_mono k) m) by (rewrite (const_mono t V E); split; reflexivity).
    rewrite (alike_form (k_to_mono (m_coeff t + k)) (k_to_mono k) m) by (split; reflexivity). destruct (alike (k_to_mono k) m); reflexivity.
  - apply two_ec; [exact V | apply valid_mono_k].
Qed.
Lemma mono_plus_var_ec t v : valid_mono t -> valid_var v -> ec (fun m => sum (cs m [t]) (cs m [var_to_mono v])) (mono_plus_var t v).
Proof.
  intros V Vv. unfold mono_plus_var. rewrite (valid_mono_check t V). vv Vv v. cb. rewrite mono_degree_one_ok by assumption. cb.
  destruct (match m_vars t, m_exps t with [w], [e] => same_id w v && Z.eqb e 1 | _, _ => false end) eqn:E.
  - apply (merge_ec t (var_to_mono v) V (valid_mono_of_var v Vv)).
    destruct (m_vars t) as [|w [|w' ws]] eqn:E1; try discriminate. destruct (m_exps t) as [|e [|e' es]] eqn:E2; try discriminate.
    apply andb_true_iff in E. destruct E as [E3 E4]. apply same_id_iff in E3. apply Z.eqb_eq in E4. subst e. eapply like_var; eassumption.
  - apply two_ec; [exact V | apply valid_mono_of_var; exact Vv].
Qed.
Lemma mono_plus_mono_ec t u : valid_mono t -> valid_mono u -> ec (fun m => sum (cs m [t]) (cs m [u])) (mono_plus_mono t u).
Proof.
  intros V W. unfold mono_plus_mono. rewrite (valid_mono_check t V), (valid_mono_check u W). cb.
  rewrite mono_matches_form_ok by (apply valid_mono_check; assumption). cb. destruct (matchb t u) eqn:E.
  - apply merge_ec; try assumption. apply matchb_look_alike; assumption.
  - apply two_ec; [exact V | exact W].
Qed.
Lemma var_plus_k_ec v k : valid_var v -> ec (fun m => sum (cs m [var_to_mono v]) (cs m [k_to_mono k])) (var_plus_k v k).
Proof.
  intro Vv. unfold var_plus_k. vv Vv v. cb. apply (two_ec (var_to_mono v) (k_to_mono k)); [apply valid_mono_of_var; exact Vv | apply valid_mono_k].
Qed.
Lemma var_plus_var_ec v w : valid_var v -> valid_var w -> ec (fun m => sum (cs m [var_to_mono v]) (cs m [var_to_mono w])) (var_plus_var v w).
Proof.
  intros Vv Vw. unfold var_plus_var. vv Vv v. cb. destruct (same_id v w) eqn:E.
  - assert (L : look_alike (var_to_mono v) (var_to_mono w)).
    { apply same_id_iff in E. eapply like_var; [reflexivity | reflexivity | exact E]. }
    pose proof (merge_ec (var_to_mono v) (var_to_mono w) (valid_mono_of_var v Vv) (valid_mono_of_var w Vw) L) as M.
    cbn [var_to_mono m_coeff] in M. unfold set_coeff in M. cbn [m_exps m_vars] in M. pose proof FL as FL2; destruct FL2 as (_ & _ & _ & F2 & _). rewrite F2 in M. exact M.
  - apply (two_ec (var_to_mono v) (var_to_mono w)); apply valid_mono_of_var; assumption.
Qed.

Lemma scalar_plus_ec a b : valid a -> valid b -> collected a -> collected b -> ec (fun m => sum (cs m (terms a)) (cs m (terms b))) (scalar_plus a b).
Proof.
  intros Va Vb Na Nb.
  assert (SW : forall x, ec (fun m => sum (cs m (terms b)) (cs m (terms a))) x -> ec (fun m => sum (cs m (terms a)) (cs m (terms b))) x).
  { intros x H. eapply ec_eq; [|exact H]. intros m Vm. apply sum_comm; apply normal_cs; assumption. }
  destruct a as [k|v|t|p]; cbn [scalar_plus].
  - unfold k_plus. rewrite (valid_check b Vb). cb. destruct b as [k'|v|t|p].
    + change (Ok (SK (k + k'))) with (scalar_simplified (SK (k + k'))). apply ec_simp; [exact I|].
      intros m Vm. cbn [ssimplified terms]. rewrite !cs_one. cbn [m_coeff].
      rewrite (alike_form (mkMono (k + k') [] []) (mkMono k [] []) m) by (split; reflexivity).
      rewrite (alike_form (mkMono k' [] []) (mkMono k [] []) m) by (split; reflexivity). destruct (alike (mkMono k [] []) m); reflexivity.
    + apply SW. apply var_plus_k_ec; exact Vb.
    + apply SW. apply mono_plus_k_ec; exact Vb.
    + apply SW. apply poly_plus_k_ec; assumption.
  - destruct b as [k'|w|t|p]; cbn [var_plus].
    + apply var_plus_k_ec; exact Va.
    + apply var_plus_var_ec; assumption.
    + apply SW. unfold var_plus_mono. vv Va v. cb. apply ec_again. apply mono_plus_var_ec; [exact Vb | exact Va].
    + apply SW. unfold var_plus_poly. vv Va v. cb. apply ec_again. apply poly_plus_var_ec; assumption.
  - destruct b as [k'|w|u|p]; cbn [mono_plus].
    + apply mono_plus_k_ec; exact Va.
    + apply mono_plus_var_ec; [exact Va | exact Vb].
    + apply mono_plus_mono_ec; assumption.
    + apply SW. unfold mono_plus_poly. rewrite (valid_mono_check t Va), (valid_poly_check p Vb). cb. apply ec_again. apply poly_plus_mono_ec; assumption.
  - destruct b as [k'|w|u|q]; cbn [poly_plus].
    + apply poly_plus_k_ec; assumption.
    + apply poly_plus_var_ec; assumption.
    + apply poly_plus_mono_ec; assumption.
    + apply poly_plus_poly_ec; try assumption. intros m Vm. exact (normal_cs (SP q) m Vb Nb Vm).
Qed.

Lemma coefficients_nz m s : coefficients m s = nz (cs m (terms s)).
Proof. reflexivity. Qed.

Lemma nz_one c : nz [c] = if c =? n0 then [] else [c].
Proof. unfold nz. cbn [filter]. destruct (c =? n0); reflexivity. Qed.
Lemma nz_sum l l' : length l <= 1 -> length l' <= 1 -> nz (sum (nz l) (nz l')) = nz (sum l l').
Proof.
  intros H H'. pose proof FL as (_ & Z2 & C & _ & _ & Z1). destruct l as [|x [|x' l]], l' as [|y [|y' l']]; cbn in H, H'; try lia.
  - reflexivity.
  - change (nz []) with (@nil num). cbn [sum app]. apply nz_nz.
  - change (nz []) with (@nil num). transitivity (nz (nz [x])); [destruct (nz [x]) as [|? [|? ?]]; cbn [sum]; rewrite ?app_nil_r; reflexivity | apply nz_nz].
  - cbn [sum]. rewrite (nz_one x), (nz_one y). destruct (x =? n0) eqn:Ex, (y =? n0) eqn:Ey; cbn [sum app].
    + rewrite nz_one, (Z2 x y Ex Ey). reflexivity.
    + rewrite (Z1 x y Ex Ey). reflexivity.
    + rewrite (C x y), (Z1 y x Ey Ex). reflexivity.
    + reflexivity.
Qed.

Lemma plus_coefficients a b s m : valid a -> valid b -> collected a -> collected b -> scalar_plus a b = Ok s -> valid_mono m ->
  coefficients m s = added (coefficients m a) (coefficients m b).
Proof.
  intros Va Vb Ta Tb E Vm. destruct (scalar_plus_ec a b Va Vb Ta Tb) as (s0 & _ & E0 & H). rewrite E0 in E. injection E as <-.
  rewrite coefficients_nz, (H m Vm). symmetry. exact (nz_sum _ _ (normal_cs a m Va Ta Vm) (normal_cs b m Vb Tb Vm)).
Qed.
Lemma added_comm l l' : length l <= 1 -> length l' <= 1 -> added l l' = added l' l.
Proof. intros H H'. unfold added. f_equal. exact (sum_comm l l' H H'). Qed.
Lemma nz_length l : length (nz l) <= length l.
Proof. induction l as [|c l IH]; [cbn; lia|]. unfold nz in *. cbn [filter]. destruct (negb (c =? n0)); cbn [length]; lia. Qed.
Lemma coefficients_one a m : valid a -> collected a -> valid_mono m -> length (coefficients m a) <= 1.
Proof. intros V N Vm. rewrite coefficients_nz. pose proof (nz_length (cs m (terms a))). pose proof (normal_cs a m V N Vm). lia. Qed.
Lemma plus_both_ways a b s s' m : valid a -> valid b -> collected a -> collected b -> scalar_plus a b = Ok s -> scalar_plus b a = Ok s' -> valid_mono m ->
  coefficients m s = coefficients m s'.
Proof.
  intros Va Vb Na Nb E E' Vm. rewrite (plus_coefficients a b s m), (plus_coefficients b a s' m) by assumption.
  apply added_comm; apply coefficients_one; assumption.
Qed.

(** ** Simplify adds the coefficients of like terms from left to right *)

Definition like0 (a b : num) : Prop := a = b \/ ((a =? n0) = true /\ (b =? n0) = true).
Lemma like0_nz a b : like0 a b -> nz [a] = nz [b].
Proof. intros [<-|[Ha Hb]]; [reflexivity|]. rewrite !nz_one, Ha, Hb. reflexivity. Qed.
Lemma fold_like0 l a b : like0 a b -> like0 (fold_left nadd l a) (fold_left nadd (nz l) b).
Proof.
  pose proof FL as (_ & Z2 & C & _ & _ & Z1). revert a b. induction l as [|x l IH]; intros a b H; [exact H|].
  unfold nz in *. cbn [fold_left filter]. destruct (x =? n0) eqn:E; cbn [negb fold_left]; apply IH.
  - destruct H as [<-|[Ha Hb]]; [|right; split; [apply Z2; assumption | exact Hb]].
    destruct (a =? n0) eqn:Ea; [right; split; [apply Z2; assumption | exact Ea] | left; rewrite (C a x); apply Z1; assumption].
  - destruct H as [<-|[Ha Hb]]; [left; reflexivity|]. left. rewrite !Z1 by assumption. reflexivity.
Qed.
Lemma from_zero l a : (a =? n0) = true -> nz [fold_left nadd l a] = left_to_right_sum (nz l).
Proof.
  intro Ha. pose proof FL as (_ & _ & _ & _ & _ & Z1). rewrite (like0_nz _ (fold_left nadd (nz l) a)) by (apply fold_like0; left; reflexivity).
  destruct (nz l) as [|x r] eqn:E; [cbn [fold_left]; rewrite nz_one, Ha; reflexivity|]. cbn [fold_left].
  assert (Hx : (x =? n0) = false) by (assert (H : In x (nz l)) by (rewrite E; left; reflexivity); apply filter_In in H; destruct H as [_ H]; apply negb_true_iff in H; exact H).
  rewrite (Z1 a x Ha Hx). reflexivity.
Qed.
Lemma addf_fold l x : fold_left addf l [x] = [fold_left nadd l x].
Proof. revert x. induction l as [|y l IH]; intro x; [reflexivity|]. cbn [fold_left addf]. apply IH. Qed.
Lemma collect_ltr m l : nz (collect m l) = left_to_right_sum (nz l).
Proof.
  unfold collect. destruct (is_const m); [apply from_zero, (proj1 ZL)|]. destruct l as [|x l]; [reflexivity|]. cbn [fold_left addf]. rewrite addf_fold.
  destruct (x =? n0) eqn:E.
  - rewrite from_zero by exact E. unfold nz. cbn [filter]. rewrite E. reflexivity.
  - change (nz (x :: l)) with (nz ([x] ++ l)). rewrite nz_app, (nz_one x), E. cbn [app]. apply like0_nz. apply fold_like0. left. reflexivity.
Qed.
Lemma ltr_one c : nz [c] = left_to_right_sum (nz [c]).
Proof. rewrite nz_one. destruct (c =? n0) eqn:E; [reflexivity|]. unfold left_to_right_sum. cbn [fold_left filter]. rewrite E. reflexivity. Qed.
Lemma simplify_coefficients s s' m : valid s -> scalar_simplified s = Ok s' -> valid_mono m -> coefficients m s' = left_to_right_sum (coefficients m s).
Proof.
  intros V E Vm. rewrite scalar_simplified_ok in E by exact V. injection E as <-. rewrite !coefficients_nz.
  assert (O : forall t, nz (cs m [t]) = left_to_right_sum (nz (cs m [t]))) by (intro t; rewrite cs_one; destruct (alike t m); [apply ltr_one | reflexivity]).
  destruct s as [k|v|t|p]; cbn [ssimplified].
  - apply O.
  - apply O.
  - rewrite msimplified_cs by exact V. apply O.
  - rewrite psimplified_terms_f by apply V. rewrite psimp_cs by (try apply V; assumption). apply collect_ltr.
Qed.

(** ** Multiplication by a number, and Minus *)

Lemma scale_ok_f p k : Forall valid_mono p -> mapM (fun m => mono_mul_k m k) p = Ok (map (fun m => set_coeff m (m_coeff m * k)) p).
Proof.
  intro V. induction V as [|m p Vm V IH]; [reflexivity|]. cbn [mapM map]. unfold mono_mul_k at 1. rewrite (valid_mono_check m Vm). cb. rewrite IH. reflexivity.
Qed.
Lemma cs_scale p k m : cs m (map (fun t => set_coeff t (m_coeff t * k)) p) = map (fun c => c * k) (cs m p).
Proof. induction p as [|t p IH]; [reflexivity|]. cbn [map]. rewrite cs_set, cs_cons, map_app, IH. destruct (alike t m); reflexivity. Qed.

Lemma mul_float_cs s f : valid s -> collected s -> n1 * f = f ->
  exists t, scalar_mul_float s f = Ok t /\ valid t /\ (forall m, valid_mono m -> nz (cs m (terms t)) = nz (map (fun c => c * f) (cs m (terms s))))
  /\ (match s with SM u => t = SM (set_coeff u (m_coeff u * f)) | _ => normal t end).
Proof.
  intros V T F1. destruct s as [k|v|u|p]; cbn [scalar_mul_float].
  - exists (SK (k * f)). split; [reflexivity|]. split; [exact I|]. split; [|exact I]. intros m Vm. cbn [terms]. rewrite !cs_one.
    rewrite (alike_form (mkMono (k * f) [] []) (mkMono k [] []) m) by (split; reflexivity). destruct (alike (mkMono k [] []) m); reflexivity.
  - unfold var_mul_k. vv V v. cb. assert (Vm : valid_mono (mkMono f [1%Z] [v])) by (apply valid_mono_var; [exact V | lia]).
    rewrite mono_simplified_ok by exact Vm. cb. pose proof (msimplified_valid _ Vm) as Vt. pose proof (msimplified_normal _ Vm) as Nt.
    rewrite scalar_simplified_ok by exact Vt. rewrite ssimplified_id by (try exact ZL; assumption). eexists. split; [reflexivity|]. split; [exact Vt|]. split; [|exact Nt].
    intros m Vm'. rewrite msimplified_cs by exact Vm. cbn [terms]. rewrite !cs_one. rewrite (alike_form (mkMono f [1%Z] [v]) (mkMono n1 [1%Z] [v]) m) by (split; reflexivity).
    destruct (alike (mkMono n1 [1%Z] [v]) m); cbn [map m_coeff]; [rewrite F1|]; reflexivity.
  - unfold mono_mul_k. rewrite (valid_mono_check u V). cb. exists (SM (set_coeff u (m_coeff u * f))). split; [reflexivity|]. split; [exact V|]. split; [|reflexivity].
    intros m Vm. cbn [terms]. f_equal. exact (cs_scale [u] f m).
  - unfold poly_mul_k. rewrite (valid_poly_check p V). cb. rewrite scale_ok_f by apply V. cb.
    set (q := map (fun m => set_coeff m (m_coeff m * f)) p). assert (Vq : valid_poly q).
    { destruct V as [V0 V]. split; [destruct p; [congruence | discriminate]|]. apply Forall_map. eapply Forall_impl; [|exact V]. intros m Hm. exact Hm. }
    rewrite poly_simplified_ok by exact Vq. cb. pose proof (psimplified_valid _ (proj2 Vq)) as Vt. pose proof (psimplified_normal _ (proj2 Vq)) as Nt.
    rewrite scalar_simplified_ok by exact Vt. rewrite ssimplified_id by (try exact ZL; assumption). eexists. split; [reflexivity|]. split; [exact Vt|]. split; [|exact Nt].
    intros m Vm. rewrite psimplified_terms_f by apply Vq. rewrite psimp_cs by (try apply Vq; assumption). unfold q. rewrite cs_scale. cbn [terms].
    apply collect_one. rewrite map_length. exact (normal_cs (SP p) m V T Vm).
Qed.

(** the numbers on which multiplying by -1 changes the sign and nothing else *)
Context (P : num -> Prop).
Definition sign_laws : Prop :=
  (forall c, P c -> c * nm1 = - c) /\ (forall c, P c -> n1 * c = c) /\ P n1 /\ P nm1 /\ (forall c : num, (- c =? n0) = (c =? n0)) /\ (forall x y : num, x + - y = x - y).

Context (SL : sign_laws).

Lemma nz_opp l : nz (map nopp l) = map nopp (nz l).
Proof.
  pose proof SL as (_ & _ & _ & _ & N & _). induction l as [|c l IH]; [reflexivity|]. unfold nz in *. cbn [map filter]. rewrite N, IH. destruct (c =? n0); reflexivity.
Qed.
Lemma cs_P p m : Forall (fun t => P (m_coeff t)) p -> map (fun c => c * nm1) (cs m p) = map nopp (cs m p).
Proof.
  intro H. pose proof SL as (S1 & _). apply map_ext_in. intros c Hc. apply S1. unfold cs in Hc. apply in_map_iff in Hc. destruct Hc as (t & <- & Ht). apply filter_In in Ht.
  rewrite Forall_forall in H. apply H, Ht.
Qed.

Lemma minus_coefficients a b s m : valid a -> valid b -> collected a -> collected b -> Forall (fun t => P (m_coeff t)) (terms b) -> scalar_minus a b = Ok s -> valid_mono m ->
  coefficients m s = subtracted (coefficients m a) (coefficients m b).
Proof.
  intros Va Vb Ta Tb HP E Vm. unfold scalar_minus in E. rewrite (valid_check a Va), (valid_check b Vb) in E. cbn [check bind] in E.
  pose proof SL as (S1 & S2 & S3 & S4 & S5 & S6).
  destruct (mul_float_cs b nm1 Vb Tb (S2 nm1 S4)) as (t & Et & Vt & Ht & Kt). rewrite Et in E. cbn [bind] in E.
  assert (Tt : collected t).
  { destruct b as [k|v|u|p]; try (apply normal_collected; exact Kt). subst t. apply collected_not_poly. exact I. }
  rewrite (plus_coefficients a t s m) by assumption. unfold added, subtracted. f_equal.
  assert (X : coefficients m t = map nopp (coefficients m b)) by (rewrite !coefficients_nz, (Ht m Vm), cs_P by exact HP; apply nz_opp).
  rewrite X. destruct (coefficients m a) as [|x [|x' l]]; [reflexivity | | reflexivity]. destruct (coefficients m b) as [|y [|y' l']]; [reflexivity | | reflexivity].
  cbn [map]. rewrite S6. reflexivity.
Qed.

(** each coefficient times the number, zeros dropped *)
Lemma mul_float_coefficients s f t m : valid s -> collected s -> P f -> (forall c, (c =? n0) = true -> (c * f =? n0) = true) -> scalar_mul_float s f = Ok t -> valid_mono m ->
  coefficients m t = multiplied (coefficients m s) f.
Proof.
  intros V T HP Z E Vm. pose proof SL as (S1 & S2 & _). destruct (mul_float_cs s f V T (S2 f HP)) as (t' & E' & _ & H & _). rewrite E' in E. injection E as <-.
  rewrite !coefficients_nz, (H m Vm). unfold multiplied. fold (nz (map (fun c => c * f) (nz (cs m (terms s))))).
  induction (cs m (terms s)) as [|c l IH]; [reflexivity|]. unfold nz in *. cbn [map filter]. destruct (c =? n0) eqn:E0; cbn [negb map filter].
  - rewrite (Z c E0). cbn [negb]. exact IH.
  - destruct (negb (c * f =? n0)); [f_equal|]; exact IH.
Qed.
End Round.

(** ** float64 *)

Lemma SFadd_comm x y : SFadd 53 1024 x y = SFadd 53 1024 y x.
Proof.
  destruct x as [a|a| |a m e], y as [b|b| |b n d]; try reflexivity; try (destruct a, b; reflexivity).
  cbn [SFadd]. rewrite (Z.min_comm e d). f_equal. apply Z.add_comm.
Qed.

Lemma SFeqb_finite c n d : SFeqb c (S754_finite false n d) = true -> c = S754_finite false n d.
Proof.
  unfold SFeqb, SFcompare. destruct c as [a|a| |a m e]; intro H; try discriminate; destruct a; try discriminate.
  destruct (Z.compare e d) eqn:Ee; try discriminate. apply Z.compare_eq in Ee. subst e.
  destruct (Pos.compare_cont Eq m n) eqn:Em; try discriminate. apply Pos.compare_eq in Em. subst m. reflexivity.
Qed.

Lemma float_laws_F64 : @float_laws F64Num.
Proof.
  split; [exact zero_laws_F64|]. split.
  { intros [a|a| |a m e] [b|b| |b n d] H H'; cbn in H, H'; try discriminate; try (destruct a; discriminate); try (destruct b; discriminate). destruct a, b; reflexivity. }
  split; [exact SFadd_comm|]. split; [vm_compute; reflexivity|]. split.
  - intros c H. change (@n1 F64Num) with (S754_finite false 4503599627370496 (-52)) in *. apply SFeqb_finite. exact H.
  - intros [a|a| |a m e] [b|b| |b n d] H H'; cbn in H, H'; try discriminate; try (destruct a; discriminate); reflexivity.
Qed.

Local Open Scope Z_scope.

Lemma canonical_mantissa_iff m e : canonical_mantissa 53 1024 m e = true <-> fexp 53 1024 (Zpos (digits2_pos m) + e) = e.
Proof. unfold canonical_mantissa. rewrite <- Zeq_is_eq_bool. reflexivity. Qed.

(** a mantissa and exponent that are in canonical form already, scaled by a power of two and back *)
Lemma round_canonical s m e n : 0 <= n -> float64 (S754_finite s m e) -> forall p, Zpos p = Zpos m * 2 ^ n ->
  binary_round_aux 53 1024 s (Zpos p) (e - n) loc_Exact = S754_finite s m e.
Proof.
  intros Hn H p Hp. unfold float64, valid_binary, bounded in H. apply andb_true_iff in H. destruct H as [H1 H2]. apply canonical_mantissa_iff in H1.
  assert (D : Zpos (digits2_pos p) = Zpos (digits2_pos m) + n).
  { pose proof (digits_bounds m) as [L U]. assert (P2 : 0 < 2 ^ n) by (apply Z.pow_pos_nonneg; lia). apply digits_unique; [lia|]. rewrite Hp. split.
    - replace (Zpos (digits2_pos m) + n - 1) with (Zpos (digits2_pos m) - 1 + n) by lia. rewrite Z.pow_add_r by lia. apply Z.mul_le_mono_pos_r; assumption.
    - rewrite Z.pow_add_r by lia. apply Z.mul_lt_mono_pos_r; assumption. }
  unfold binary_round_aux.
  assert (E1 : shr_fexp 53 1024 (Zpos p) (e - n) loc_Exact = (Build_shr_record (Zpos m) false false, e)).
  { unfold shr_fexp. cbn [Zdigits2 shr_record_of_loc]. rewrite D. replace (Zpos (digits2_pos m) + n + (e - n)) with (Zpos (digits2_pos m) + e) by lia. rewrite H1.
    replace (e - (e - n)) with n by lia. rewrite Hp, shr_zero_exact by exact Hn. f_equal. lia. }
  rewrite E1. cbn [shr_m loc_of_shr_record round_nearest_even].
  assert (E2 : shr_fexp 53 1024 (Zpos m) e loc_Exact = (Build_shr_record (Zpos m) false false, e)).
  { unfold shr_fexp. cbn [Zdigits2 shr_record_of_loc]. rewrite H1, Z.sub_diag. reflexivity. }
  rewrite E2. cbn [shr_m]. rewrite H2. reflexivity.
Qed.

Lemma mul_unit c s : float64 c -> SFmul 53 1024 c (S754_finite s 4503599627370496 (-52)) = (if s then SFopp c else c).
Proof.
  intro H. destruct c as [b|b| |b m e].
  - destruct b, s; reflexivity.
  - destruct b, s; reflexivity.
  - destruct s; reflexivity.
  - cbn [SFmul]. change (e + -52) with (e - 52). rewrite (round_canonical (xorb b s) m e 52); [| lia | exact H | reflexivity].
    destruct b, s; reflexivity.
Qed.
Lemma mul_unit_l c : float64 c -> SFmul 53 1024 (S754_finite false 4503599627370496 (-52)) c = c.
Proof.
  intro H. destruct c as [b|b| |b m e].
  - destruct b; reflexivity.
  - destruct b; reflexivity.
  - reflexivity.
  - cbn [SFmul]. replace (-52 + e) with (e - 52) by lia. replace (xorb false b) with b by (destruct b; reflexivity). apply round_canonical; [lia | exact H | rewrite Pos2Z.inj_mul, Z.mul_comm; reflexivity].
Qed.
Lemma sign_laws_F64 : @sign_laws F64Num float64.
Proof.
  split; [|split; [|split; [|split; [|split]]]].
  - intros c H. change (@nm1 F64Num) with (S754_finite true 4503599627370496 (-52)). exact (mul_unit c true H).
  - intros c H. change (@n1 F64Num) with (S754_finite false 4503599627370496 (-52)). exact (mul_unit_l c H).
  - vm_compute. reflexivity.
  - vm_compute. reflexivity.
  - intros [b|b| |b m e]; try (destruct b; reflexivity). reflexivity.
  - intros x y. destruct x as [a|a| |a m e], y as [b|b| |b n d]; try reflexivity; destruct a, b; try reflexivity.
Qed.

Section F64.
Let NN := F64Num.
Existing Instance NN.
Lemma f64_simplify (s s' : scalar) (m : Monomial) : valid s -> scalar_simplified s = Ok s' -> valid_mono m -> coefficients m s' = left_to_right_sum (coefficients m s).
Proof. exact (simplify_coefficients float_laws_F64 s s' m). Qed.
Lemma f64_plus (a b s : scalar) (m : Monomial) : valid a -> valid b -> collected a -> collected b -> scalar_plus a b = Ok s -> valid_mono m ->
  coefficients m s = added (coefficients m a) (coefficients m b).
Proof. intros Va Vb Na Nb. exact (plus_coefficients float_laws_F64 a b s m Va Vb Na Nb). Qed.
Lemma f64_plus_both_ways (a b s s' : scalar) (m : Monomial) : valid a -> valid b -> collected a -> collected b -> scalar_plus a b = Ok s -> scalar_plus b a = Ok s' -> valid_mono m ->
  coefficients m s = coefficients m s'.
Proof. exact (plus_both_ways float_laws_F64 a b s s' m). Qed.
Lemma f64_minus (a b s : scalar) (m : Monomial) : valid a -> valid b -> collected a -> collected b -> float64s b -> scalar_minus a b = Ok s -> valid_mono m ->
  coefficients m s = subtracted (coefficients m a) (coefficients m b).
Proof. intros Va Vb Na Nb. exact (minus_coefficients float_laws_F64 float64 sign_laws_F64 a b s m Va Vb Na Nb). Qed.
Lemma f64_multiply (s t : scalar) (f : num) (m : Monomial) : valid s -> collected s -> finite64 f -> scalar_mul_float s f = Ok t -> valid_mono m ->
  coefficients m t = multiplied (coefficients m s) f.
Proof.
  intros V N [F1 F2]. refine (mul_float_coefficients float_laws_F64 float64 sign_laws_F64 s f t m V N F1 _).
  intros c Hc. destruct c as [b|b| |b p e]; try discriminate Hc; try (destruct b; discriminate Hc).
  destruct f as [b'|b'| |b' p' e']; try contradiction; destruct b, b'; reflexivity.
Qed.
Lemma f64_one (a : scalar) (m : Monomial) : valid a -> collected a -> valid_mono m -> (length (coefficients m a) <= 1)%nat.
Proof. exact (coefficients_one a m). Qed.
End F64.
