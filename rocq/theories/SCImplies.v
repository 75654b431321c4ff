(** * Proofs about VariablesInThisConstraint, ImpliesThisIsAlsoSatisfied and IsNonnegativityConstraint on scalar constraints *)

From Coq Require Import ZArith NArith Bool List Lia Permutation Field_theory Ring_theory.
From Verif Require Import Num Syntax ModelScalar ModelSC Spec SpecProg Base ScalarValid Eval ScalarOps ScalarMore ScalarNorm Unamb ScalarLin Programs ListFacts ScalarFacts Order SCProofs.
Import ListNotations.
Local Open Scope num_scope.

Section Vars.
Context {NN : Num}.
Ltac cb := cbn [bind check].

Lemma var_eqb_id v w : var_eqb v w = true -> v_id v = v_id w.
Proof. unfold var_eqb. intro H. repeat (apply andb_prop in H; destruct H as [H ?]). apply N.eqb_eq. exact H. Qed.

Lemma insert_keys_ids l keys i : In i (map v_id (insert_keys l keys)) <-> In i (map v_id l) \/ In i (map v_id keys).
Proof.
  revert keys. induction l as [|v l IH]; intro keys; cbn [insert_keys map].
  - split; [intro; right; assumption | intros [[]|H]; exact H].
  - rewrite IH. destruct (existsb (var_eqb v) keys) eqn:E.
    + split; [intros [H|H]; [left; right; exact H | right; exact H]|]. intros [[<-|H]|H]; [right | left; exact H | right; exact H].
      apply existsb_exists in E. destruct E as (w & Hw & E). rewrite (var_eqb_id v w E). apply in_map. exact Hw.
    + rewrite map_app, in_app_iff. cbn. tauto.
Qed.

Lemma insert_keys_incl l keys v : In v (insert_keys l keys) -> In v l \/ In v keys.
Proof.
  revert keys. induction l as [|w l IH]; intro keys; cbn [insert_keys]; [intro; right; assumption|].
  intro H. apply IH in H. destruct H as [H|H]; [left; right; exact H|]. destruct (existsb (var_eqb w) keys); [right; exact H|].
  apply in_app_iff in H. destruct H as [H|[<-|[]]]; [right; exact H | left; left; reflexivity].
Qed.

Lemma insert_keys_nodup l keys : ExactNum NN -> NoDup keys -> NoDup (insert_keys l keys).
Proof.
  intro EX. revert keys. induction l as [|v l IH]; intros keys H; cbn [insert_keys]; [exact H|]. apply IH.
  destruct (existsb (var_eqb v) keys) eqn:E; [exact H|]. eapply Permutation_NoDup; [apply Permutation_cons_append|]. constructor; [|exact H].
  intro Hv. assert (HT : existsb (var_eqb v) keys = true); [|congruence]. apply existsb_exists. exists v. split; [exact Hv|]. apply var_eqb_eq; [exact EX | reflexivity].
Qed.

Lemma insert_keys_fresh l keys : NoDup (map v_id (keys ++ l)) -> insert_keys l keys = keys ++ l.
Proof.
  revert keys. induction l as [|v l IH]; intros keys H; cbn [insert_keys]; [rewrite app_nil_r; reflexivity|].
  assert (E : existsb (var_eqb v) keys = false).
  { destruct (existsb (var_eqb v) keys) eqn:E; [|reflexivity]. exfalso. apply existsb_exists in E. destruct E as (w & Hw & E). apply var_eqb_id in E.
    rewrite map_app in H. cbn in H. apply NoDup_remove_2 in H. apply H. apply in_app_iff. left. rewrite E. apply in_map. exact Hw. }
  rewrite E, IH; rewrite <- app_assoc; [reflexivity | exact H].
Qed.

Lemma sc_variables_facts o c : valid_constraint c -> permutes o ->
  exists l, sc_variables o c = Ok l
    /\ (forall i, In i (map v_id l) <-> occurs i (sc_left c) \/ occurs i (sc_right c))
    /\ (forall v, In v l -> exists m, (In m (terms (sc_left c)) \/ In m (terms (sc_right c))) /\ In v (m_vars m))
    /\ (ExactNum NN -> NoDup l).
Proof.
  intros V Ho. unfold sc_variables. rewrite (valid_sc_check c V). cb. eexists. split; [reflexivity|]. destruct V as (V1 & V2 & _).
  set (K := insert_keys _ _). split; [|split].
  - intro i. rewrite <- (scalar_variables_occurs _ i V1), <- (scalar_variables_occurs _ i V2).
    assert (HP : In i (map v_id (o K)) <-> In i (map v_id K)).
    { split; apply Permutation_in, Permutation_map; [apply Ho | apply Permutation_sym, Ho]. }
    rewrite HP. unfold K. rewrite !insert_keys_ids. cbn. tauto.
  - intros v Hv. apply (Permutation_in _ (Ho K)) in Hv. unfold K in Hv. apply insert_keys_incl in Hv. destruct Hv as [Hv|Hv].
    + destruct (scalar_variables_from _ _ Hv) as (m & H1 & H2). eauto.
    + apply insert_keys_incl in Hv. destruct Hv as [Hv|[]]. destruct (scalar_variables_from _ _ Hv) as (m & H1 & H2). eauto.
  - intro EX. eapply Permutation_NoDup; [apply Permutation_sym, Ho|]. apply insert_keys_nodup; [exact EX|]. apply insert_keys_nodup; [exact EX | constructor].
Qed.

Lemma sc_variables_k o c k : valid_constraint c -> permutes o -> sc_right c = SK k ->
  exists l, sc_variables o c = Ok l /\ Permutation l (scalar_variables (sc_left c)).
Proof.
  intros V Ho Hk. unfold sc_variables. rewrite (valid_sc_check c V). cb. eexists. split; [reflexivity|]. rewrite Hk. cbn [scalar_variables insert_keys].
  rewrite insert_keys_fresh; [apply Ho|]. cbn [app]. apply scalar_variables_nodup. apply V.
Qed.
Lemma sc_variables_single o c k v : valid_constraint c -> permutes o -> sc_right c = SK k -> scalar_variables (sc_left c) = [v] ->
  sc_variables o c = Ok [v].
Proof.
  intros V Ho Hk Hv. destruct (sc_variables_k o c k V Ho Hk) as (l & -> & P). rewrite Hv in P. apply Permutation_sym, Permutation_length_1_inv in P. rewrite P. reflexivity.
Qed.

Lemma union_one (v w : var) : length (union_of_variables [[v]; [w]]) = 1 <-> v_id v = v_id w.
Proof.
  unfold union_of_variables. cbn. unfold unique_vars. cbn. unfold find_var, find_in_slice. cbn. unfold same_id.
  destruct (N.eqb_spec (v_id w) (v_id v)) as [E|E]; cbn; split; intro H; try lia; congruence.
Qed.
End Vars.

Section Implies.
Context {NN : Num} {EX : ExactNum NN}.
Add Ring numring3 : num_ring.
Local Notation le a b := (nleb a b = true) (only parsing).
Ltac cb := cbn [bind check].

(** a normal linear expression in one variable that vanishes at zero *)
Lemma single_linear s v : valid s -> degree_at_most 1 s -> normal s -> eval (fun _ => n0) s = n0 -> scalar_variables s = [v] ->
  exists a, scalar_linear_coeff s [[v]] = Ok [a] /\ a <> n0 /\ forall r, eval r s = a * r (v_id v).
Proof.
  intros V D Nm Hz Hv. pose proof (scalar_variables_valid s V) as Vv. rewrite Hv in Vv.
  destruct (linear_decomposition s [v] V D (normal_collected s Nm)) as (a & k & Ea & Ek & La & Ha).
  { apply normal_proper in Nm. destruct s; exact Nm. } { discriminate. } { exact Vv. } { constructor; [intros [] | constructor]. }
  { intros i Hi. apply (scalar_variables_occurs s i V) in Hi. rewrite Hv in Hi. exact Hi. }
  destruct a as [|a [|a' l]]; try discriminate La. exists a. split; [exact Ea|].
  assert (Hk : k = n0). { pose proof (Ha (fun _ => n0)) as H. rewrite Hz in H. cbn [dot] in H. rewrite H. ring. }
  split.
  - intros ->. destruct s as [c|w|m|p].
    + discriminate Hv.
    + cbn [scalar_variables] in Hv. injection Hv as ->. cbn in Ea. apply var_check_valid in V. unfold var_linear_coeff in Ea. rewrite V in Ea. cbn in Ea.
      unfold same_id in Ea. rewrite N.eqb_refl in Ea. injection Ea as Ea. exact (one_neq_zero Ea).
    + destruct Nm as (N1 & N2 & _). destruct (linear_term m V) as [(c & ->)|(c & w & ->)].
      { unfold degree_at_most in D. cbn [terms] in D. inversion D. assumption. }
      { apply N1. reflexivity. }
      cbn in Hv. injection Hv as ->. pose proof (Ha (fun _ => n1)) as H. rewrite Hk in H.
      cbn [dot eval] in H. unfold eval_mono in H. cbn [m_coeff m_exps m_vars eval_factors] in H. change (Z.to_nat 1) with 1%nat in H. cbn [npow] in H.
      assert (Hc : c = n0). { transitivity (c * (n1 * n1 * n1)); [ring|]. rewrite H. ring. }
      cbn in N2. rewrite Hc in N2. rewrite (proj2 (ex_eqb n0 n0) eq_refl) in N2. discriminate.
    + cbn [scalar_linear_coeff] in Ea. rewrite poly_linear_coeff_ok in Ea; [|exact V | discriminate | exact Vv]. injection Ea as Ea. destruct Nm as (N1 & N2 & N3 & _).
      destruct p as [|m1 [|m2 p]]; cbn [length] in N1; try lia.
      assert (Hm : m_vars m2 <> []). { intro H. pose proof (N3 [m1] m2 p eq_refl H) as HH. discriminate HH. }
      unfold degree_at_most in D. cbn [terms] in D. inversion D as [|? ? _ D']. inversion D' as [|? ? D2 _].
      destruct V as (_ & V). inversion V as [|? ? _ V']. inversion V' as [|? ? V2 _].
      destruct (linear_term m2 V2 D2) as [(c & ->)|(c & w & ->)]; [apply Hm; reflexivity|].
      assert (Hw : v_id w = v_id v).
      { assert (HO : occurs (v_id w) (SP (m1 :: mkMono c [1%Z] [w] :: p))) by (eexists; split; [right; left; reflexivity | left; reflexivity]).
        apply scalar_variables_occurs in HO; [|split; [discriminate | exact V]]. rewrite Hv in HO. destruct HO as [<-|[]]. reflexivity. }
      unfold lc in Ea. destruct (find (lin_in v) _) as [m|] eqn:F.
      * apply find_some in F. destruct F as (F & _). apply N2 in F. rewrite Ea, (proj2 (ex_eqb n0 n0) eq_refl) in F. discriminate.
      * pose proof (find_none _ _ F (mkMono c [1%Z] [w]) (or_intror (or_introl eq_refl))) as F2. cbn in F2. rename F2 into F'. clear F. rename F' into F. unfold same_id in F. rewrite Hw, N.eqb_refl in F. discriminate.
  - intro r. rewrite (Ha r), Hk. cbn [dot]. ring.
Qed.

Lemma simplify_plain c : plain c ->
  exists c' k, sc_simplify c = Ok c' /\ valid_constraint c' /\ sc_sense c' = sc_sense c /\ sc_right c' = SK k
    /\ degree_at_most 1 (sc_left c') /\ normal (sc_left c') /\ eval (fun _ => n0) (sc_left c') = n0
    /\ (forall r, satisfies r c' <-> satisfies r c).
Proof.
  intros (V & D1 & D2 & Nm & C & Z0). destruct (simplify_spec c V) as (c' & E & V' & S & (k & K) & HN & _ & F & H).
  pose proof V as (V1 & V2 & _). assert (HU : unambiguous (in_either (sc_left c) (sc_right c))).
  { apply either_degree2; try assumption; apply (degree_le 1); try assumption; lia. }
  destruct (H EX HU) as (H1 & H2). exists c', k. split; [exact E|]. split; [exact V'|]. split; [exact S|]. split; [exact K|]. split; [|split; [|split]].
  - apply Forall_forall. intros m Hm. destruct (F m Hm) as [Hc|Hf].
    + rewrite const_tdeg; [lia | | exact Hc]. pose proof (valid_terms _ (proj1 V')) as HV. rewrite Forall_forall in HV. auto.
    + destruct (formed_tdeg _ _ Hf) as (m0 & Hm0 & ->). unfold degree_at_most in D1, D2. rewrite Forall_forall in D1, D2. apply in_app_iff in Hm0. destruct Hm0; auto.
  - destruct HN as [->|HN]; assumption.
  - rewrite (H2 C). exact Z0.
  - intro r. unfold satisfies. rewrite S. apply holds_diff, H1.
Qed.

(** scaling a one-variable constraint by the inverse of its coefficient *)
Lemma scale_single c k v a : valid_constraint c -> sc_right c = SK k -> degree_at_most 1 (sc_left c) -> a <> n0 ->
  (forall r, eval r (sc_left c) = a * r (v_id v)) ->
  exists c', sc_scale_by c (n1 / a) = Ok c' /\ sc_sense c' = flip (n1 / a) (sc_sense c) /\ sc_sense c' <> SenseOther /\ sc_right c' = SK (k * (n1 / a))
    /\ forall r, holds (r (v_id v)) (sc_sense c') (k * (n1 / a)) <-> satisfies r c.
Proof.
  intros V K D Ha Hv. destruct (scale_by_spec c (n1 / a) V) as (c' & E & V' & S & HK & H1 & _).
  pose proof V as (V1 & V2 & _). exists c'. split; [exact E|]. split; [exact S|]. split; [apply V'|]. split; [apply HK, K|].
  intro r. rewrite S. unfold satisfies. rewrite K. cbn [eval]. rewrite <- (holds_scale (eval r (sc_left c)) (sc_sense c) k (n1 / a)) by (apply inv_nonzero; exact Ha).
  rewrite Hv. replace (a * r (v_id v) * (n1 / a)) with (r (v_id v)); [reflexivity|].
  transitivity (n1 / a * a * r (v_id v)); [rewrite inv_l by exact Ha; ring | ring].
Qed.

Lemma compare_bounds_iff s1 s2 b1 b2 : s1 <> SenseOther -> s2 <> SenseOther ->
  exists b, (if sense_eqb s1 s2 || sense_eqb s1 SenseEq || sense_eqb s2 SenseEq then sc_compare_bounds s1 s2 b1 b2 else Ok false) = Ok b
    /\ (b = true <-> forall x, holds x s1 b1 -> holds x s2 b2).
Proof.
  intros H1 H2. assert (HNle : forall x, ~ x + n1 = x).
  { intros x H. apply one_neq_zero. transitivity (x + n1 - x); [ring|]. rewrite H. ring. }
  assert (H01 : le n0 n1). { replace n1 with (n1 * n1) by ring. apply square_nonneg. }
  assert (Hup : forall x, le x (x + n1)). { intro x. apply le_sub_iff'. replace (x + n1 - x) with n1 by ring. exact H01. }
  assert (Hdn : forall x, le (x - n1) x). { intro x. apply le_sub_iff'. replace (x - (x - n1)) with n1 by ring. exact H01. }
  assert (Hlow : forall x y, exists z, le z x /\ ~ le y z).
  { intros x y. destruct (ex_total x y) as [Hxy|Hxy].
    - exists (x - n1). split; [apply Hdn|]. intro H. apply (HNle (x - n1)). replace (x - n1 + n1) with x by ring. apply ex_antisym; [|apply Hdn]. eapply ex_trans; [exact Hxy | exact H].
    - exists (y - n1). split; [eapply ex_trans; [apply Hdn | exact Hxy]|]. intro H. apply (HNle (y - n1)). replace (y - n1 + n1) with y by ring. apply ex_antisym; [exact H | apply Hdn]. }
  assert (Hhigh : forall x y, exists z, le x z /\ ~ le z y).
  { intros x y. destruct (Hlow (- x) (- y)) as (z & Hz1 & Hz2). exists (- z). split.
    - apply le_opp_iff. replace (- - z) with z by ring. exact Hz1.
    - intro H. apply Hz2. apply le_opp_iff. replace (- - y) with y by ring. exact H. }
  destruct s1; try congruence; destruct s2; try congruence; cbn [sense_eqb orb sc_compare_bounds holds]; eexists; (split; [reflexivity|]).
  - split; [intros H x Hx; eapply ex_trans; [exact Hx | exact H] | intro H; apply H, le_refl].
  - split; [discriminate|]. intro H. exfalso. destruct (Hlow b1 b2) as (z & Hz1 & Hz2). exact (Hz2 (H z Hz1)).
  - split; [discriminate|]. intro H. exfalso. pose proof (H b1 (le_refl b1)) as E1. pose proof (H (b1 - n1) (Hdn b1)) as E2. apply (HNle (b1 - n1)).
    replace (b1 - n1 + n1) with b1 by ring. congruence.
  - split; [discriminate|]. intro H. exfalso. destruct (Hhigh b1 b2) as (z & Hz1 & Hz2). exact (Hz2 (H z Hz1)).
  - split; [intros H x Hx; eapply ex_trans; [exact H | exact Hx] | intro H; apply H, le_refl].
  - split; [discriminate|]. intro H. exfalso. pose proof (H b1 (le_refl b1)) as E1. pose proof (H (b1 + n1) (Hup b1)) as E2. apply (HNle b1). congruence.
  - split; [intros H x ->; exact H | intro H; apply H; reflexivity].
  - split; [intros H x ->; exact H | intro H; apply H; reflexivity].
  - rewrite ex_eqb. split; [intros -> x Hx; exact Hx | intro H; apply H; reflexivity].
Qed.

Lemma single_length (l : list var) : Nat.eqb (length l) 1 = true -> exists v, l = [v].
Proof. destruct l as [|v [|w l]]; try discriminate. intros _. exists v. reflexivity. Qed.

Lemma implies_plain o c d : plain c -> plain d -> permuting o ->
  exists b, sc_implies o c d = Ok b
    /\ (b = true -> forall r, satisfies r c -> satisfies r d)
    /\ (forall v w c' d', sc_simplify c = Ok c' -> sc_simplify d = Ok d' -> scalar_variables (sc_left c') = [v] -> scalar_variables (sc_left d') = [w] -> v_id v = v_id w ->
          (forall r, satisfies r c -> satisfies r d) -> b = true).
Proof.
  intros Pc Pd Ho. pose proof Pc as (Vc & _). pose proof Pd as (Vd & _).
  destruct (simplify_plain c Pc) as (c' & k & E & V' & S & K & D & Nm & Z0 & Hc).
  destruct (simplify_plain d Pd) as (d' & k' & E' & V'' & S' & K' & D' & Nm' & Z0' & Hd).
  unfold sc_implies. rewrite (valid_sc_check c Vc), (valid_sc_check d Vd). cb. rewrite E, E'. cb.
  destruct (sc_variables_k (o 0%nat) c' k V' (Ho 0%nat) K) as (l0 & -> & P0). cb.
  destruct (sc_variables_k (o 2%nat) c' k V' (Ho 2%nat) K) as (l2 & E2 & P2). rewrite E2.
  destruct (sc_variables_k (o 3%nat) d' k' V'' (Ho 3%nat) K') as (l3 & E3 & P3). rewrite E3.
  destruct (sc_variables_k (o 1%nat) d' k' V'' (Ho 1%nat) K') as (l1 & E1 & P1). rewrite E1.
  destruct (Nat.eqb (length l0) 1) eqn:L0; cb.
  2:{ exists false. split; [reflexivity|]. split; [discriminate|]. intros v w x y Ex Ey Hv Hw. injection Ex as <-. injection Ey as <-. exfalso.
      apply Permutation_length in P0. rewrite Hv in P0. rewrite P0 in L0. discriminate. }
  destruct (Nat.eqb (length l1) 1) eqn:L1; cb.
  2:{ exists false. split; [reflexivity|]. split; [discriminate|]. intros v w x y Ex Ey Hv Hw. injection Ex as <-. injection Ey as <-. exfalso.
      apply Permutation_length in P1. rewrite Hw in P1. rewrite P1 in L1. discriminate. }
  apply single_length in L0. destruct L0 as (v & ->). apply single_length in L1. destruct L1 as (w & ->).
  apply Permutation_length_1_inv in P0. apply Permutation_length_1_inv in P1. rewrite P0 in P2. rewrite P1 in P3.
  apply Permutation_sym, Permutation_length_1_inv in P2. apply Permutation_sym, Permutation_length_1_inv in P3. subst l2 l3. cbn [andb].
  destruct (Nat.eqb (length (union_of_variables [[v]; [w]])) 1) eqn:U.
  2:{ exists false. split; [reflexivity|]. split; [discriminate|]. intros v0 w0 x y Ex Ey Hv Hw Hi. injection Ex as <-. injection Ey as <-. exfalso.
      rewrite P0 in Hv. rewrite P1 in Hw. injection Hv as <-. injection Hw as <-. apply union_one in Hi. rewrite Hi in U. discriminate. }
  apply Nat.eqb_eq, union_one in U.
  rewrite (sc_variables_single (o 4%nat) c' k v V' (Ho 4%nat) K P0), (sc_variables_single (o 5%nat) d' k' w V'' (Ho 5%nat) K' P1). cb.
  destruct (single_linear (sc_left c') v (proj1 V') D Nm Z0 P0) as (a & -> & Ha & HL).
  destruct (single_linear (sc_left d') w (proj1 V'') D' Nm' Z0' P1) as (a' & -> & Ha' & HL'). cb. unfold index. cbn [nth_error bind].
  destruct (scale_single c' k v a V' K D Ha HL) as (c2 & -> & _ & Sc & Kc & Hc2). destruct (scale_single d' k' w a' V'' K' D' Ha' HL') as (d2 & -> & _ & Sd & Kd & Hd2). cb.
  rewrite Kc, Kd. cbn [scalar_constant bind].
  destruct (compare_bounds_iff (sc_sense c2) (sc_sense d2) (k * (n1 / a)) (k' * (n1 / a')) Sc Sd) as (b & -> & Hb).
  exists b. split; [reflexivity|]. split.
  - intros Hbt r Hr. apply Hd, Hd2. apply Hc, Hc2 in Hr. rewrite <- U. revert Hr. apply Hb. exact Hbt.
  - intros v0 w0 x y Ex Ey Hv Hw _ HI. apply Hb. intros x0 Hx. pose (r := fun _ : N => x0).
    change x0 with (r (v_id w)). apply Hd2, Hd, HI, Hc, Hc2. exact Hx.
Qed.
Lemma implies_sound o c d : plain c -> plain d -> permuting o -> 
  exists b, sc_implies o c d = Ok b /\ (b = true -> forall r, satisfies r c -> satisfies r d).
Proof. intros H1 H2 H3. destruct (implies_plain o c d H1 H2 H3) as (b & E & H & _). eauto. Qed.

(** written as "a x <sense> constant" on both sides of the question, the answer is exact *)
Lemma implies_exact o c d v w k k' : plain c -> plain d -> permuting o ->
  sc_right c = SK k -> sc_right d = SK k' -> scalar_variables (sc_left c) = [v] -> scalar_variables (sc_left d) = [w] -> v_id v = v_id w ->
  exists b, sc_implies o c d = Ok b /\ (b = true <-> forall r, satisfies r c -> satisfies r d).
Proof.
  intros H1 H2 H3 K K' Hv Hw Hi. destruct (implies_plain o c d H1 H2 H3) as (b & E & H & HC). exists b. split; [exact E|]. split; [exact H|].
  apply (HC v w c d); try assumption; unfold sc_simplify; [rewrite K | rewrite K']; reflexivity.
Qed.

Lemma nonneg_plain o c : plain c -> permuting o ->
  exists b, sc_is_nonnegativity o c = Ok b
    /\ (b = true -> exists x, (forall r, satisfies r c <-> nleb n0 (r x) = true) /\ (occurs x (sc_left c) \/ occurs x (sc_right c)))
    /\ (forall v c', sc_simplify c = Ok c' -> scalar_variables (sc_left c') = [v] -> (forall r, satisfies r c <-> nleb n0 (r (v_id v)) = true) -> b = true).
Proof.
  intros Pc Ho. pose proof Pc as (Vc & DL & DR & _ & CR & ZL). destruct (simplify_plain c Pc) as (c' & k & E & V' & S & K & D & Nm & Z0 & Hc).
  assert (HOC : forall i, occurs i (sc_left c') -> occurs i (sc_left c) \/ occurs i (sc_right c)).
  { destruct (simplify_spec c Vc) as (c1 & E1 & _ & _ & _ & _ & _ & F & _). rewrite E in E1. injection E1 as <-.
    intros i (m & Hm & Hi). destruct (F m Hm) as [Hk|Hk].
    - unfold is_const in Hk. unfold ids in Hi. destruct (m_vars m); [destruct Hi | discriminate].
    - destruct Hk as (m0 & Hm0 & _ & Hv). unfold ids in Hi. rewrite Hv in Hi. apply in_app_iff in Hm0. destruct Hm0; [left | right]; exists m0; auto. }
  unfold sc_is_nonnegativity. rewrite (valid_sc_check c Vc). cb. rewrite E. cb.
  destruct (sc_variables_k (o 0%nat) c' k V' (Ho 0%nat) K) as (l0 & -> & P0). cb.
  destruct (Nat.eqb (length l0) 1) eqn:L0; cbn [negb].
  2:{ exists false. split; [reflexivity|]. split; [discriminate|]. intros v x Ex Hv. injection Ex as <-. exfalso.
      apply Permutation_length in P0. rewrite Hv in P0. rewrite P0 in L0. discriminate. }
  apply single_length in L0. destruct L0 as (v & ->). apply Permutation_length_1_inv in P0.
  assert (HOv : occurs (v_id v) (sc_left c')). { apply scalar_variables_occurs; [apply V'|]. rewrite P0. left. reflexivity. }
  destruct (scalar_degree_ok (sc_left c') (proj1 V')) as (dg & Edg & H1 & (m & Hm & H2)). rewrite Edg. cb.
  assert (Hdg : dg = 1%Z).
  { unfold degree_at_most in D. rewrite Forall_forall in D. pose proof (D m Hm) as HD. destruct HOv as (m' & Hm' & Hi). pose proof (H1 m' Hm') as HD'.
    assert (0 < tdeg m')%Z; [|lia]. pose proof (valid_terms _ (proj1 V')) as HV. rewrite Forall_forall in HV. pose proof (HV m' Hm') as Vm'.
    pose proof (tdeg_nonneg m' Vm'). destruct (Z.eq_dec (tdeg m') 0) as [T0|]; [|lia]. apply tdeg_const_iff in T0; [|exact Vm']. unfold is_const in T0.
    unfold ids in Hi. destruct (m_vars m'); [destruct Hi | discriminate]. }
  rewrite Hdg. cbn [Z.eqb Pos.eqb negb]. rewrite K.
  destruct (single_linear (sc_left c') v (proj1 V') D Nm Z0 P0) as (a & Ea & Ha & HL).
  assert (Ea' : scalar_linear_coeff (sc_left c') [] = Ok [a]).
  { rewrite <- Ea. destruct (sc_left c') as [q|q|q|q]; cbn [scalar_variables] in P0; [discriminate P0| | |]; cbn [scalar_linear_coeff].
    - injection P0 as ->. reflexivity.
    - unfold mono_linear_coeff. cbn [wrt_vars]. rewrite P0. reflexivity.
    - unfold poly_linear_coeff. cbn [wrt_vars]. rewrite P0. reflexivity. }
  rewrite Ea'. cb. unfold index. cbn [nth_error bind].
  destruct (scale_single c' k v a V' K D Ha HL) as (c2 & _ & Sc & Sn & _ & Hc2).
  assert (Hfin : forall r, satisfies r c <-> holds (r (v_id v)) (sc_sense c2) (k * (n1 / a))). { intro r. rewrite Hc2. symmetry. apply Hc. }
  assert (Hk0 : k = n0 <-> k * (n1 / a) = n0).
  { split; [intros ->; ring|]. intro H. transitivity (k * (n1 / a) * a); [|rewrite H; ring]. transitivity (k * (n1 / a * a)); [rewrite inv_l by exact Ha; ring | ring]. }
  assert (Hsign : (n1 / a <? n0) = (a <? n0)).
  { assert (HP : forall z, z <> n0 -> (z <? n0) = false -> (n1 / z <? n0) = false).
    { intros z Hz Hn. apply ltb_false_le in Hn. destruct (n1 / z <? n0) eqn:Q; [|reflexivity]. exfalso. pose proof (ltb_true_neq _ _ Q) as Q2. apply ltb_true_le in Q. apply Q2. apply ex_antisym; [exact Q|]. apply inv_nonneg; assumption. }
    destruct (a <? n0) eqn:Q.
    - destruct (n1 / a <? n0) eqn:Q2; [reflexivity|]. exfalso. assert (Q3 : (n1 / (n1 / a) <? n0) = false) by (apply HP; [apply inv_nonzero; exact Ha | exact Q2]).
      replace (n1 / (n1 / a)) with a in Q3; [congruence|]. transitivity (n1 / (n1 / a) * (n1 / a) * a); [rewrite inv_l by (apply inv_nonzero; exact Ha); ring|].
      transitivity (n1 / (n1 / a) * (n1 / a * a)); [ring|]. rewrite inv_l by exact Ha. ring.
    - apply HP; assumption. }
  assert (Hpos : (n0 <? a) = negb (a <? n0)).
  { destruct (a <? n0) eqn:Q; cbn.
    - destruct (n0 <? a) eqn:Q2; [|reflexivity]. exfalso. apply Ha. apply ltb_true_le in Q, Q2. apply ex_antisym; assumption.
    - rewrite ex_ltb. apply negb_true_iff. destruct (nleb a n0) eqn:Q2; [|reflexivity]. exfalso. apply ltb_false_le in Q. apply Ha. apply ex_antisym; assumption. }
  exists (if k =? n0 then ((n0 <? a) && sense_eqb (sc_sense c') SenseGe) || ((a <? n0) && sense_eqb (sc_sense c') SenseLe) else false).
  split; [destruct (k =? n0); reflexivity|].
  assert (HB : ((n0 <? a) && sense_eqb (sc_sense c') SenseGe) || ((a <? n0) && sense_eqb (sc_sense c') SenseLe) = sense_eqb (sc_sense c2) SenseGe).
  { rewrite Sc. unfold flip. rewrite Hsign, Hpos. destruct (a <? n0), (sc_sense c'); reflexivity. }
  rewrite HB. split.
  - destruct (k =? n0) eqn:Q; [|discriminate]. apply ex_eqb in Q. intro HS. assert (HS' : sc_sense c2 = SenseGe) by (destruct (sc_sense c2); (reflexivity || discriminate)).
    exists (v_id v). split; [|apply HOC, HOv]. intro r. rewrite Hfin, HS', (proj1 Hk0 Q). reflexivity.
  - intros v0 x Ex Hv HI. injection Ex as <-. rewrite P0 in Hv. injection Hv as <-.
    assert (H3 : forall x, holds x SenseGe n0 -> holds x (sc_sense c2) (k * (n1 / a))).
    { intros x Hx. change x with ((fun _ : N => x) (v_id v)). apply Hfin, HI. exact Hx. }
    assert (H4 : forall x, holds x (sc_sense c2) (k * (n1 / a)) -> holds x SenseGe n0).
    { intros x Hx. change x with ((fun _ : N => x) (v_id v)) in Hx. apply Hfin, HI in Hx. exact Hx. }
    destruct (compare_bounds_iff SenseGe (sc_sense c2) n0 (k * (n1 / a))) as (b1 & B1 & I1); [discriminate | exact Sn|]. apply I1 in H3. subst b1.
    destruct (compare_bounds_iff (sc_sense c2) SenseGe (k * (n1 / a)) n0) as (b2 & B2 & I2); [exact Sn | discriminate|]. apply I2 in H4. subst b2.
    destruct (sc_sense c2); cbn in B1; try discriminate B1. cbn in B2. injection B1 as B1. injection B2 as B2.
    rewrite (proj2 (ex_eqb k n0)); [reflexivity|]. apply Hk0. apply ex_antisym; assumption.
Qed.
Lemma nonneg_sound o c : plain c -> permuting o ->
  exists b, sc_is_nonnegativity o c = Ok b
    /\ (b = true -> exists x, (forall r, satisfies r c <-> nleb n0 (r x) = true) /\ (occurs x (sc_left c) \/ occurs x (sc_right c))).
Proof. intros H1 H2. destruct (nonneg_plain o c H1 H2) as (b & E & H & _). eauto. Qed.
Lemma nonneg_exact o c v k : plain c -> permuting o -> sc_right c = SK k -> scalar_variables (sc_left c) = [v] ->
  exists b, sc_is_nonnegativity o c = Ok b /\ (b = true <-> forall r, satisfies r c <-> nleb n0 (r (v_id v)) = true).
Proof.
  intros H1 H2 K Hv. destruct (nonneg_plain o c H1 H2) as (b & E & H & HC). exists b. split; [exact E|].
  assert (ES : sc_simplify c = Ok c) by (unfold sc_simplify; rewrite K; reflexivity).
  split; [|exact (HC v c ES Hv)]. intros Hb. destruct (H Hb) as (x & Hx & Ho). destruct H1 as ((V1 & V2 & _) & _).
  assert (x = v_id v); [|subst x; exact Hx]. destruct Ho as [Ho|Ho].
  - apply scalar_variables_occurs in Ho; [|exact V1]. rewrite Hv in Ho. destruct Ho as [<-|[]]. reflexivity.
  - rewrite K in Ho. destruct Ho as (m & [<-|[]] & []).
Qed.

End Implies.

(** ** Constraints between expressions built by the API without DerivativeWrt *)
Section ConstraintPrograms.
Context {NN : Num}.
Lemma run_collected p : well_formed p -> no_derivative p -> exists s, run p = Ok s /\ valid s /\ collected s.
Proof.
  intros W N. destruct (run_valid p W) as (s & E & V). exists s. split; [exact E|]. split; [exact V|].
  apply apart_s_collected; [exact V|]. exact (run_apart p s W N E).
Qed.
Lemma inequality_programs p q s w : ExactNum NN -> well_formed p -> well_formed q -> no_derivative p -> no_derivative q -> s = SenseLe \/ s = SenseGe ->
  w <> [] -> Forall valid_var w -> NoDup (map v_id w) ->
  exists a b, run p = Ok a /\ run q = Ok b /\
    (degree_at_most 1 a -> degree_at_most 1 b -> (forall i, occurs i a \/ occurs i b -> In i (map v_id w)) ->
     exists A k, sc_linear_inequality (mkSC a b s) [w] = Ok (A, k) /\ length A = length w
       /\ forall r, nleb (dot r A w) k = true <-> satisfies r (mkSC a b s)).
Proof.
  intros EX Wp Wq Np Nq Hs Hw Vw HN. destruct (run_collected p Wp Np) as (a & Ea & Va & Ca). destruct (run_collected q Wq Nq) as (b & Eb & Vb & Cb).
  exists a, b. split; [exact Ea|]. split; [exact Eb|]. intros Da Db HC. apply inequality_repr; cbn [sc_left sc_right sc_sense]; try assumption.
  split; [exact Va|]. split; [exact Vb|]. cbn. destruct Hs as [->| ->]; discriminate.
Qed.
Lemma equality_programs p q w : ExactNum NN -> well_formed p -> well_formed q -> no_derivative p -> no_derivative q ->
  w <> [] -> Forall valid_var w -> NoDup (map v_id w) ->
  exists a b, run p = Ok a /\ run q = Ok b /\
    (degree_at_most 1 a -> degree_at_most 1 b -> (forall i, occurs i a \/ occurs i b -> In i (map v_id w)) ->
     exists C d, sc_linear_equality (mkSC a b SenseEq) [w] = Ok (C, d) /\ length C = length w
       /\ forall r, dot r C w = d <-> satisfies r (mkSC a b SenseEq)).
Proof.
  intros EX Wp Wq Np Nq Hw Vw HN. destruct (run_collected p Wp Np) as (a & Ea & Va & Ca). destruct (run_collected q Wq Nq) as (b & Eb & Vb & Cb).
  exists a, b. split; [exact Ea|]. split; [exact Eb|]. intros Da Db HC. apply equality_repr; cbn [sc_left sc_right sc_sense]; try assumption; [|reflexivity].
  split; [exact Va|]. split; [exact Vb|]. cbn. discriminate.
Qed.
End ConstraintPrograms.
