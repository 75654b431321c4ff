(** * The value of a float64 sum, difference, multiple or simplification, against the exact one: expressions *)

From Coq Require Import ZArith NArith Bool List Lia Reals Lra.
From Verif Require Import Num NumR Syntax ModelScalar Spec SpecEffect SpecRound SpecAccuracy Base ScalarValid Eval ScalarOps ScalarMore ScalarFacts Effect FloatExact Round AccFloat Accuracy.
Import ListNotations.
Local Open Scope R_scope.

Section Acc.
Let NN := F64Num.
Existing Instance NN.

Lemma coefficients_all (P : num -> Prop) m s : Forall (fun t => P (m_coeff t)) (terms s) -> Forall P (coefficients m s).
Proof.
  intro H. apply Forall_forall. intros c Hc. apply filter_In in Hc as [Hc _]. apply in_map_iff in Hc as (t & <- & Ht). apply filter_In in Ht as [Ht _].
  rewrite Forall_forall in H. apply H. exact Ht.
Qed.

(** terms formed from those of [L] have the same values as theirs *)
Lemma formed_values r L K : Forall valid_mono L -> Forall valid_mono K -> coherent L -> (forall m, In m K -> is_const m = true \/ formed L m) ->
  forall x y, In x (L ++ K) -> In y (L ++ K) -> alike x y = true -> factors64 r x = factors64 r y.
Proof.
  intros VL VK HC HK. assert (V : Forall valid_mono (L ++ K)) by (apply Forall_app; split; assumption).
  assert (HC' : coherent (L ++ K)).
  { apply (coherent_forms L); [exact HC|]. intros m Hm. apply in_app_iff in Hm as [Hm|Hm]; [right; exists m; split; [exact Hm | split; reflexivity] | apply HK; exact Hm]. }
  intros x y Hx Hy E. rewrite Forall_forall in V. pose proof (V x Hx) as Vx. pose proof (V y Hy) as Vy. apply alike_look in E; try assumption.
  apply factors64_same; try assumption. apply HC'; assumption.
Qed.

Lemma sumR_cs m s : total (map real64 (cs m (terms s))) = sumR (coefficients m s).
Proof. symmetry. apply sumR_nz. Qed.
Lemma sumA_cs m s : total (map (fun c => Rabs (real64 c)) (cs m (terms s))) = sumA (coefficients m s).
Proof. symmetry. apply sumA_nz. Qed.

Lemma bound2 r a b s sg : valid a -> valid b -> valid s -> coherent (terms a ++ terms b) -> (forall m, In m (terms s) -> is_const m = true \/ formed (terms a ++ terms b) m) ->
  (forall m, valid_mono m -> Rabs (sumR (coefficients m s) - (sumR (coefficients m a) + sg * sumR (coefficients m b))) <= unit64 * (sumA (coefficients m a) + sumA (coefficients m b))) ->
  Rabs (value64 r s - (value64 r a + sg * value64 r b)) <= unit64 * (size64 r a + size64 r b).
Proof.
  intros Va Vb Vs HC HF H.
  assert (VL : Forall valid_mono (terms a ++ terms b)) by (apply Forall_app; split; apply valid_terms; assumption). pose proof (valid_terms s Vs) as VK.
  pose proof (class_bound r ((terms a ++ terms b) ++ terms s) (terms s) (terms a) (terms b) 1 sg unit64 0) as B.
  assert (E : unit64 * (size64 r a + size64 r b) + 0 * total (map (fun t => Rabs (factors64 r t)) (terms a)) = unit64 * (size64 r a + size64 r b)) by ring.
  rewrite <- E. rewrite <- (Rmult_1_l (value64 r a)). apply B; clear B E.
  - apply Forall_app. split; assumption.
  - apply formed_values; assumption.
  - apply incl_appr, incl_refl.
  - apply incl_appl, incl_appl, incl_refl.
  - apply incl_appl, incl_appr, incl_refl.
  - intros m Hm. rewrite !sumR_cs, !sumA_cs, Rmult_1_l, Rmult_0_l, Rplus_0_r. apply H.
    assert (V : Forall valid_mono ((terms a ++ terms b) ++ terms s)) by (apply Forall_app; split; assumption). rewrite Forall_forall in V. apply V. exact Hm.
Qed.

Lemma bound1 r a s k al be : 0 <= be -> valid a -> valid s -> coherent (terms a) -> (forall m, In m (terms s) -> is_const m = true \/ formed (terms a) m) ->
  (forall m, valid_mono m -> Rabs (sumR (coefficients m s) - k * sumR (coefficients m a)) <= al * sumA (coefficients m a) + be * total (map (fun _ => 1) (coefficients m a))) ->
  Rabs (value64 r s - k * value64 r a) <= al * size64 r a + be * spread64 r a.
Proof.
  intros Pb Va Vs HC HF H. pose proof (valid_terms a Va) as VL. pose proof (valid_terms s Vs) as VK.
  pose proof (class_bound r (terms a ++ terms s) (terms s) (terms a) [] k 0 al be) as B. cbn [map total] in B. rewrite Rmult_0_r, !Rplus_0_r in B. apply B; clear B.
  - apply Forall_app. split; assumption.
  - apply formed_values; assumption.
  - apply incl_appr, incl_refl.
  - apply incl_appl, incl_refl.
  - intros x [].
  - intros m Hm. assert (Vm : valid_mono m). { assert (V : Forall valid_mono (terms a ++ terms s)) by (apply Forall_app; split; assumption). rewrite Forall_forall in V. apply V. exact Hm. }
    change (cs m []) with (@nil num). cbn [map total]. rewrite !sumR_cs, !sumA_cs, Rmult_0_r, !Rplus_0_r. eapply Rle_trans; [apply H; exact Vm|].
    apply Rplus_le_compat_l. apply Rmult_le_compat_l; [exact Pb|]. unfold coefficients. change (map m_coeff (filter (fun t => alike t m) (terms a))) with (cs m (terms a)).
    generalize (cs m (terms a)). intro l. induction l as [|c l IH]; cbn [filter map total]; [lra|]. destruct (negb (c =? n0)%num); cbn [map total]; lra.
Qed.

Theorem acc_plus r (a b s : scalar) : valid a -> valid b -> collected a -> collected b -> float64s a -> float64s b -> unambiguous (in_either a b) ->
  scalar_plus a b = Ok s -> finite64s s -> Rabs (value64 r s - (value64 r a + value64 r b)) <= unit64 * (size64 r a + size64 r b).
Proof.
  intros Va Vb Ca Cb Fa Fb HU E HF. destruct (scalar_plus_sum a b Va Vb) as (s' & E' & Vs & HS & _). assert (s' = s) by congruence. subst s'.
  replace (value64 r a + value64 r b) with (value64 r a + 1 * value64 r b) by ring. apply bound2; try assumption; [apply either_coherent; exact HU|].
  intros m Vm. rewrite Rmult_1_l. assert (P : coefficients m s = added (coefficients m a) (coefficients m b)) by exact (f64_plus a b s m Va Vb Ca Cb E Vm). assert (G : Forall finite64 (coefficients m s)) by exact (coefficients_all finite64 m s HF). rewrite P in G |- *.
  apply sum_added; try exact G; try (apply coefficients_all; assumption); apply f64_one; assumption.
Qed.

Theorem acc_minus r (a b s : scalar) : valid a -> valid b -> collected a -> collected b -> float64s a -> float64s b -> unambiguous (in_either a b) ->
  scalar_minus a b = Ok s -> finite64s s -> Rabs (value64 r s - (value64 r a - value64 r b)) <= unit64 * (size64 r a + size64 r b).
Proof.
  intros Va Vb Ca Cb Fa Fb HU E HF. destruct (scalar_minus_sum a b Va Vb) as (s' & E' & Vs & HS & _). assert (s' = s) by congruence. subst s'.
  replace (value64 r a - value64 r b) with (value64 r a + -1 * value64 r b) by ring. apply bound2; try assumption; [apply either_coherent; exact HU|].
  intros m Vm. assert (P : coefficients m s = subtracted (coefficients m a) (coefficients m b)) by exact (f64_minus a b s m Va Vb Ca Cb Fb E Vm). assert (G : Forall finite64 (coefficients m s)) by exact (coefficients_all finite64 m s HF). rewrite P in G |- *.
  apply sum_subtracted; try exact G; try (apply coefficients_all; assumption); apply f64_one; assumption.
Qed.

Theorem acc_multiply r (a s : scalar) (f : num) : valid a -> collected a -> float64s a -> finite64 f -> unambiguous (fun m => In m (terms a)) ->
  scalar_mul_float a f = Ok s -> finite64s s -> Rabs (value64 r s - real64 f * value64 r a) <= unit64 * Rabs (real64 f) * size64 r a + tiny64 * spread64 r a.
Proof.
  intros Va Ca Fa Ff HU E HF. destruct (scale_forms _ _ _ (scalar_mul_float_scale a f Va)) as (s' & E' & Vs & HS & _). assert (s' = s) by congruence. subst s'.
  apply bound1; try assumption; [apply tiny64_pos|]. intros m Vm. assert (P : coefficients m s = multiplied (coefficients m a) f) by exact (f64_multiply a s f m Va Ca Ff E Vm). assert (G : Forall finite64 (coefficients m s)) by exact (coefficients_all finite64 m s HF). rewrite P in G |- *.
  apply sum_multiplied; try exact G; [apply coefficients_all; assumption | apply Ff].
Qed.

Lemma filter_le {A} (p : A -> bool) l : (length (filter p l) <= length l)%nat.
Proof. induction l as [|x l IH]; cbn; [lia|]. destruct (p x); cbn; lia. Qed.
Lemma coefficients_length m s : (length (coefficients m s) <= length (terms s))%nat.
Proof.
  unfold coefficients. transitivity (length (map m_coeff (filter (fun t => alike t m) (terms s)))); [apply filter_le|]. rewrite map_length. apply filter_le.
Qed.

Theorem acc_simplify r (a s : scalar) : valid a -> float64s a -> unambiguous (fun m => In m (terms a)) -> scalar_simplified a = Ok s -> finite64s s ->
  Rabs (value64 r s - value64 r a) <= ((1 + unit64) ^ (length (terms a) - 1) - 1) * size64 r a.
Proof.
  intros Va Fa HU E HF. assert (E' : s = ssimplified a) by (rewrite (scalar_simplified_ok a Va) in E; congruence).
  destruct (lred_simplified a Va) as (_ & HS & _). rewrite <- E' in HS. assert (Vs : valid s) by (subst s; apply ssimplified_valid; exact Va).
  replace (value64 r s - value64 r a) with (value64 r s - 1 * value64 r a) by ring.
  rewrite <- (Rplus_0_r (((1 + unit64) ^ (length (terms a) - 1) - 1) * size64 r a)). rewrite <- (Rmult_0_l (spread64 r a)).
  apply bound1; try assumption; [lra|]. intros m Vm. assert (P : coefficients m s = left_to_right_sum (coefficients m a)) by exact (f64_simplify a s m Va E Vm). assert (G : Forall finite64 (coefficients m s)) by exact (coefficients_all finite64 m s HF). rewrite P in G |- *.
  rewrite Rmult_1_l, Rmult_0_l, Rplus_0_r. apply sum_left_to_right; [apply coefficients_all; assumption | | exact G]. eapply Nat.le_trans; [exact (coefficients_length m a)|]. generalize (length (terms a)). intro n. lia.
Qed.
End Acc.
