(** * The values of the entries of float64 sums, differences, multiples and simplifications of arrays, against the exact ones *)

From Coq Require Import ZArith NArith Bool List Lia Reals Lra.
From Verif Require Import Num NumR Syntax ModelScalar ModelShape ModelArith Spec SpecConv SpecEffect SpecArr SpecEffectArr SpecRound SpecPoint SpecAccuracy Base ScalarValid Eval ScalarOps ScalarMore ScalarFacts ArrTop Effect FloatExact Round EffectArr EffectArr2 ArrPow PointPlus2 PointMul2 AccFloat Accuracy Accuracy2.
Import ListNotations.
Local Open Scope R_scope.

Section Acc.
Let NN := F64Num.
Existing Instance NN.

Lemma same_terms_value r s t : same_terms s t -> value64 r s = value64 r t.
Proof.
  intros [H|(c & d & H1 & H2 & Hc & Hd)]; unfold value64; [rewrite H; reflexivity|]. rewrite H1, H2. cbn [map total m_coeff]. rewrite (zero64_real c Hc), (zero64_real d Hd). unfold factors64. cbn. ring.
Qed.
Lemma same_terms_finite s t : same_terms s t -> finite64s s -> finite64s t.
Proof.
  intros [H|(c & d & H1 & H2 & Hc & Hd)]; unfold finite64s; [rewrite H; tauto|]. rewrite H2. intros _. constructor; [|constructor]. cbn [m_coeff].
  destruct d as [b|b| |b m e]; try discriminate Hd; try (destruct b; discriminate Hd). split; [reflexivity | exact I].
Qed.
Lemma unambiguous_swap (a b : scalar) : unambiguous (in_either a b) -> unambiguous (in_either b a).
Proof. intros H x y Hx Hy. apply H; unfold in_either in *; tauto. Qed.

Theorem acc_plus_array r (a b : expr) (g : goval) (da db d : (nat * nat)%type) (e : expr) :
  valid_array da a -> valid_array db b -> means g = Some b -> broadcast a b da db d -> lists_only a b = false -> number64 a -> number64 b -> expr_plus a g = Ok e ->
  forall i j, (i < fst d)%nat -> (j < snd d)%nat -> collected (bentry a i j) -> collected (bentry b i j) -> float64s (bentry a i j) -> float64s (bentry b i j) ->
  unambiguous (in_either (bentry a i j) (bentry b i j)) -> finite64s (entry e i j) ->
  Rabs (value64 r (entry e i j) - (value64 r (bentry a i j) + value64 r (bentry b i j))) <= unit64 * (size64 r (bentry a i j) + size64 r (bentry b i j)).
Proof.
  intros Va Vb Hg HB HL Na Nb E i j Hi Hj Ca Cb Fa Fb HU HF. destruct (f64_plus_entries a b g da db d e Va Vb Hg HB HL Na Nb E i j Hi Hj) as (s & Es & S).
  assert (EQ : value64 r (entry e i j) = value64 r s) by exact (same_terms_value r _ _ S). rewrite EQ. apply (same_terms_finite _ _ S) in HF. destruct (bentry_valid a b da db d i j Va Vb HB Hi Hj) as [Wa Wb].
  assert (G1 : scalar_plus (bentry a i j) (bentry b i j) = Ok s -> Rabs (value64 r s - (value64 r (bentry a i j) + value64 r (bentry b i j))) <= unit64 * (size64 r (bentry a i j) + size64 r (bentry b i j))).
  { intro X. apply acc_plus; assumption. }
  assert (G2 : scalar_plus (bentry b i j) (bentry a i j) = Ok s -> Rabs (value64 r s - (value64 r (bentry a i j) + value64 r (bentry b i j))) <= unit64 * (size64 r (bentry a i j) + size64 r (bentry b i j))).
  { intro X. rewrite (Rplus_comm (value64 r (bentry a i j))), (Rplus_comm (size64 r (bentry a i j))). apply acc_plus; try assumption. apply unambiguous_swap. exact HU. }
  unfold sum_of_entries in Es. destruct a as [[k|v|t|p]|v|x]; try (exact (G1 Es)); destruct b as [s0|v0|m0]; (exact (G1 Es) || exact (G2 Es)).
Qed.

Theorem acc_minus_function r (a b : expr) (da db d : (nat * nat)%type) (e : expr) :
  valid_array da a -> valid_array db b -> broadcast a b da db d -> list_differences a b = false -> number64 a ->
  (forall i j, (i < fst db)%nat -> (j < snd db)%nat -> collected (entry b i j) /\ float64s (entry b i j)) -> minus a b = Ok e ->
  forall i j, (i < fst d)%nat -> (j < snd d)%nat -> collected (bentry a i j) -> float64s (bentry a i j) ->
  unambiguous (in_either (bentry a i j) (bentry b i j)) -> finite64s (entry e i j) ->
  Rabs (value64 r (entry e i j) - (value64 r (bentry a i j) - value64 r (bentry b i j))) <= unit64 * (size64 r (bentry a i j) + size64 r (bentry b i j)).
Proof.
  intros Va Vb HB HL Na HC E i j Hi Hj Ca Fa HU HF. destruct (f64_minus_terms a b da db d e Va Vb HB HL Na HC E i j Hi Hj Ca) as (P & Ve & K).
  destruct (bentry_valid a b da db d i j Va Vb HB Hi Hj) as [Wa Wb].
  assert (Cb : collected (bentry b i j) /\ float64s (bentry b i j)).
  { destruct b as [s|v|x]; cbn [bentry]; [|apply HC..]; [|destruct HB as [[-> ->]|[[_ ->]|[[] _]]]; assumption..].
    destruct (HC 0%nat 0%nat) as [C0 F0]; [apply Vb | apply Vb | split; assumption]. }
  destruct Cb as [Cb Fb].
  replace (value64 r (bentry a i j) - value64 r (bentry b i j)) with (value64 r (bentry a i j) + -1 * value64 r (bentry b i j)) by ring.
  apply bound2; try assumption; [apply either_coherent; exact HU|]. intros m Vm.
  assert (P' : coefficients m (entry e i j) = subtracted (coefficients m (bentry a i j)) (coefficients m (bentry b i j))) by exact (P m Vm).
  assert (G : Forall finite64 (coefficients m (entry e i j))) by exact (coefficients_all finite64 m _ HF). rewrite P' in G |- *.
  apply sum_subtracted; try exact G; try (apply coefficients_all; assumption); apply f64_one; assumption.
Qed.
Theorem acc_minus_method r (a b : expr) (g : goval) (da db d : (nat * nat)%type) (e : expr) :
  valid_array da a -> valid_array db b -> means g = Some b -> broadcast a b da db d -> list_differences a b = false -> number64 a ->
  (forall i j, (i < fst db)%nat -> (j < snd db)%nat -> collected (entry b i j) /\ float64s (entry b i j)) -> expr_minus a g = Ok e ->
  forall i j, (i < fst d)%nat -> (j < snd d)%nat -> collected (bentry a i j) -> float64s (bentry a i j) ->
  unambiguous (in_either (bentry a i j) (bentry b i j)) -> finite64s (entry e i j) ->
  Rabs (value64 r (entry e i j) - (value64 r (bentry a i j) - value64 r (bentry b i j))) <= unit64 * (size64 r (bentry a i j) + size64 r (bentry b i j)).
Proof. intros Va Vb Hg HB HL Na HC E. apply (acc_minus_function r a b da db d e Va Vb HB HL Na HC). exact (expr_minus_minus a g b e E Hg). Qed.

Theorem acc_multiply_array r (e : expr) (f : num) (g : goval) (d : (nat * nat)%type) (e' : expr) : finite64 f ->
  valid_array d e -> (forall i j, (i < fst d)%nat -> (j < snd d)%nat -> collected (entry e i j)) -> means g = Some (ES (SK f)) -> expr_mul e g = Ok e' ->
  forall i j, (i < fst d)%nat -> (j < snd d)%nat -> float64s (entry e i j) -> unambiguous (fun m => In m (terms (entry e i j))) -> finite64s (entry e' i j) ->
  Rabs (value64 r (entry e' i j) - real64 f * value64 r (entry e i j)) <= unit64 * Rabs (real64 f) * size64 r (entry e i j) + tiny64 * spread64 r (entry e i j).
Proof.
  intros Ff V C Hg E i j Hi Hj Fe HU HF. destruct (f64_multiply_forms e f g d e' (proj1 Ff) V C Hg E i j Hi Hj) as [Ve K].
  assert (Vi : valid (entry e i j)) by (destruct V as (_ & _ & _ & W); apply W; assumption).
  apply bound1; try assumption; [apply tiny64_pos|]. intros m Vm.
  assert (P : coefficients m (entry e' i j) = multiplied (coefficients m (entry e i j)) f) by exact (f64_multiply_array e f g d e' m Ff V C Hg E Vm i j Hi Hj).
  assert (G : Forall finite64 (coefficients m (entry e' i j))) by exact (coefficients_all finite64 m _ HF). rewrite P in G |- *.
  apply sum_multiplied; try exact G; [apply coefficients_all; assumption | apply Ff].
Qed.

Theorem acc_simplify_array r (e e' : expr) (d : (nat * nat)%type) : valid_array d e -> expr_simplified e = Ok e' ->
  forall i j, (i < fst d)%nat -> (j < snd d)%nat -> float64s (entry e i j) -> unambiguous (fun m => In m (terms (entry e i j))) -> finite64s (entry e' i j) ->
  Rabs (value64 r (entry e' i j) - value64 r (entry e i j)) <= ((1 + unit64) ^ (length (terms (entry e i j)) - 1) - 1) * size64 r (entry e i j).
Proof.
  intros V E i j Hi Hj Fe HU HF. destruct (simplify_point e e' d V E i j Hi Hj) as (s & Es & Hs).
  assert (Vi : valid (entry e i j)) by (destruct V as (_ & _ & _ & W); apply W; assumption).
  assert (S : same_terms (entry e' i j) s) by (left; exact Hs). assert (EQ : value64 r (entry e' i j) = value64 r s) by exact (same_terms_value r _ _ S). rewrite EQ. apply (same_terms_finite _ _ S) in HF. apply acc_simplify; assumption.
Qed.
End Acc.
