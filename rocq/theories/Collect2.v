(** * Differences and powers term by term; when products and powers are right *)

From Coq Require Import ZArith NArith Bool List Lia Field Permutation.
From Verif Require Import Num Syntax ModelScalar Spec SpecConv SpecEffect SpecCollect Base ScalarValid Eval ScalarOps ScalarMore ScalarNorm ScalarFacts Order Canon Arr ArrFacts Effect Effect2 Collect.
Import ListNotations.

Section Collect2.
Context {NN : Num} {EX : ExactNum NN}.
Local Open Scope num_scope.
Ltac cb := cbn [bind check].
Add Ring numring_co2 : num_ring.

Lemma multiplied_valid a b : valid a -> valid b -> valid (multiplied a b).
Proof. intros Va Vb. destruct (mul_total a b Va Vb) as (s & E & V & _). rewrite (multiply_exact a b Va Vb) in E. injection E as <-. exact V. Qed.
Lemma again s : valid s -> scalar_simplified (ssimplified s) = Ok (ssimplified s).
Proof.
  intro V. pose proof (ssimplified_valid s V) as V'. rewrite scalar_simplified_ok by exact V'. f_equal. apply ssimplified_id; [apply zero_laws_exact; exact EX | exact V' | apply ssimplified_normal; exact V].
Qed.
Lemma mul_float_exact s f : valid s -> scalar_mul_float s f = Ok (multiplied s (SK f)).
Proof.
  intro V. destruct s as [k|v|m|p]; cbn [scalar_mul_float].
  - exact (multiply_exact (SK k) (SK f) V I).
  - pose proof (multiply_exact (SV v) (SK f) V I) as E. cbn [scalar_mul var_mul] in E. rewrite E. cb. cbn [multiplied as_term].
    change (mkMono n1 [1%Z] [v]) with (var_to_mono v). change (mkMono f [] []) with (k_to_mono f). rewrite product_vk. assert (Vm : valid_mono (mkMono f [1%Z] [v])) by (apply valid_mono_var; [exact V | lia]).
    pose proof (ssimplified_simplest (SM (mkMono f [1%Z] [v])) Vm) as E2. cbn [terms] in E2. rewrite <- E2. apply again. exact Vm.
  - exact (multiply_exact (SM m) (SK f) V I).
  - exact (proj1 (exa_ok _ _ (exa_again _ _ (poly_mul_one_exa p (SK f) V I eq_refl)))).
Qed.
Lemma minus_exact a b : valid a -> valid b -> scalar_minus a b = Ok (subtracted a b).
Proof.
  intros Va Vb. unfold scalar_minus. rewrite (valid_check a Va), (valid_check b Vb). cb. rewrite mul_float_exact by exact Vb. cb. apply plus_exact; [exact Va | apply multiplied_valid; [exact Vb | exact I]].
Qed.

Lemma powered_valid a n : valid a -> valid (powered a n).
Proof. intro V. induction n as [|n IH]; [exact I|]. cbn [powered]. apply multiplied_valid; assumption. Qed.
Lemma power_loop_exact a n : valid a -> forall i, power_loop a n (powered a i) = Ok (powered a (n + i)).
Proof.
  intro V. induction n as [|n IH]; intro i; [reflexivity|]. cbn [power_loop]. rewrite multiply_exact by (try apply powered_valid; exact V). cb.
  change (multiplied (powered a i) a) with (powered a (S i)). rewrite IH. f_equal. f_equal. lia.
Qed.
Lemma power_exact a n : valid a -> scalar_power a (Z.of_nat n) = Ok (powered a n).
Proof.
  intro V. unfold scalar_power. rewrite (valid_check a V). cb. assert (E : Z.leb 0 (Z.of_nat n) = true) by (apply Z.leb_le; lia). rewrite E. cb. rewrite Nat2Z.id.
  rewrite (power_loop_exact a n V 0 : power_loop a n (SK n1) = _). f_equal. f_equal. lia.
Qed.

(** ** when they are right *)
Lemma as_poly s : valid s -> valid_poly (terms s).
Proof. intro V. exact (proj1 (valid_terms_iff s) V). Qed.
Lemma expanded_list_value r l b : valid_poly l -> Forall valid_mono b -> eval_poly r (flat_map (times l) b) = eval_poly r l * eval_poly r b.
Proof.
  intros V W. induction W as [|t b Vt W IH]; cbn [flat_map]; [cbn [eval_poly]; ring|]. rewrite eval_poly_app. rewrite IH. change (times l t) with (products l t). rewrite products_value by assumption. cbn [eval_poly]. ring.
Qed.
Lemma expanded_value r a b : valid a -> valid b -> eval_poly r (expanded a b) = eval r a * eval r b.
Proof. intros Va Vb. unfold expanded. rewrite expanded_list_value; [rewrite !eval_terms; reflexivity | apply as_poly; exact Va | exact (proj2 (as_poly b Vb))]. Qed.
Lemma expanded_valid a b : valid a -> valid b -> valid_poly (expanded a b).
Proof.
  intros Va Vb. apply as_poly in Va. apply as_poly in Vb. destruct Vb as [N Vb]. split.
  - unfold expanded. destruct (terms b) as [|t l]; [congruence|]. destruct Va as [Na _]. destruct (terms a); [congruence | discriminate].
  - unfold expanded. apply Forall_forall. intros x Hx. apply in_flat_map in Hx as (t & Ht & Hx). rewrite Forall_forall in Vb. pose proof (products_valid (terms a) t Va (Vb t Ht)) as [_ VP]. rewrite Forall_forall in VP. apply VP. exact Hx.
Qed.
Lemma multiply_when (a b s : scalar) : valid a -> valid b -> scalar_mul a b = Ok s ->
  ((forall r, eval r s = eval r a * eval r b) <-> forall m, valid_mono m -> coefficient m (multiplied a b) = coefficient m (SP (expanded a b))).
Proof.
  intros Va Vb E. rewrite (multiply_exact a b Va Vb) in E. injection E as <-. rewrite <- functions_determined; [|apply multiplied_valid; assumption | exact (expanded_valid a b Va Vb)].
  unfold same_function. cbn [eval]. split; intros H r; specialize (H r); rewrite (expanded_value r a b Va Vb) in *; exact H.
Qed.
Lemma expanded_power_ok a n : valid a -> valid_poly (expanded_power a n) /\ forall r, eval_poly r (expanded_power a n) = npow (eval r a) n.
Proof.
  intro V. induction n as [|n (IV & IE)]; cbn [expanded_power npow].
  - split; [apply valid_poly_single; apply valid_mono_k|]. intro r. rewrite eval_poly_single. apply eval_k.
  - split; [exact (expanded_valid (SP _) a IV V)|]. intro r. rewrite (expanded_value r (SP _) a IV V). cbn [eval]. rewrite IE. ring.
Qed.
Lemma power_when (a s : scalar) (n : nat) : valid a -> scalar_power a (Z.of_nat n) = Ok s ->
  ((forall r, eval r s = npow (eval r a) n) <-> forall m, valid_mono m -> coefficient m (powered a n) = coefficient m (SP (expanded_power a n))).
Proof.
  intros V E. rewrite power_exact in E by exact V. injection E as <-. destruct (expanded_power_ok a n V) as (VE & EE).
  rewrite <- functions_determined; [|apply powered_valid; exact V | exact VE].
  unfold same_function. cbn [eval]. split; intros H r; specialize (H r); rewrite EE in *; exact H.
Qed.
End Collect2.
