(** * Plus and simplification of arrays agree with those of scalars, for exact numbers and for float64 *)

From Coq Require Import ZArith NArith Bool List Lia.
From Coq Require Import Floats.SpecFloat.
From Verif Require Import Num Syntax ModelScalar Spec SpecConv SpecEffect Base ScalarValid Eval ScalarOps ScalarMore ScalarNorm ScalarFacts ModelShape ModelArith SpecArr SpecEffectArr SpecPoint Arr ArrPlus EffectArr EffectArr2 SpecRound Round PointPlus.
Import ListNotations.
Local Open Scope num_scope.

Section PointPlus2.
Context {NN : Num} (FL : float_laws) (ONE : (n1 =? n0) = false).
Local Notation den d A := (arr d (pt A)) (only parsing).

Lemma expr_plus_rgp (a b : expr) (g : goval) (da db d : nat * nat) : (forall f, a = ES (SK f) \/ b = ES (SK f) -> f * n1 = f) ->
  valid_array da a -> valid_array db b -> means g = Some b -> broadcast a b da db d ->
  lists_only a b = false -> rgp d (sum_of_entries a b) (expr_plus a g).
Proof.
  intros HF Va Vb Hg HB HL. pose proof (valid_array_pt da a Va) as Pa. pose proof (valid_array_pt db b Vb) as Pb.
  assert (EB : forall i j, bA b (entry b) i j = bentry b i j) by (intros i j; exact (bA_bentry db b i j Vb)).
  destruct Va as (A1 & A2 & Sa & Wa). destruct Vb as (B1 & B2 & Sb & Wb).
  destruct (plus_accepts a g) eqn:HT; [|intros e E; exfalso; exact (expr_plus_unsupported a g HT e E)].
  destruct a as [s|v|m].
  - assert (d = db). { destruct HB as [[H1 H2]|[[_ H]|[H1 H2]]]; [congruence | exact H|]. destruct b; try destruct H1.
      rewrite (arr_ES_dims _ _ _ A1 Pa) in H2. rewrite (arr_ES_dims _ _ _ B1 Pb). exact H2. }
    subst d. apply (rgp_ext db (fun i j => ord s b s (bA b (entry b) i j))); [intros i j _ _; rewrite EB; destruct s, b; reflexivity|].
    apply plus_scalar_rgp; try assumption; try reflexivity.
    + intros f ->. apply HF. left. reflexivity.
    + exact (Wa 0 0 A1 A2).
    + destruct s; try exact I. destruct b as [|v|[l|l|l|l]]; try exact I. discriminate HL.
  - assert (d = da /\ (db = da \/ is_scalar b)) as [-> Hd]. { destruct HB as [[H1 H2]|[[[] _]|[H1 H2]]]; auto. }
    pose proof (arr_EV_cols _ _ _ A1 Pa) as E2. destruct da as [n c]. cbn in E2. subst c. cbn [expr_plus].
    apply (rgp_ext (n, 1)%nat (fun i j => scalar_plus (entry (EV v) i j) (bA b (entry b) i j))); [intros i j _ _; rewrite EB; reflexivity|].
    apply gp_rgp. apply (vec_plus_gp FL ONE n db (entry (EV v)) (entry b) v g b (fun f E => HF f (or_intror E))); try assumption; destruct v; destruct g as [f|z|l0|l0|l0|l0|[[k|x|mo|p]|v0|[lk|lv|lm|lp]]|]; (exact HT || reflexivity).
  - assert (d = da /\ (db = da \/ is_scalar b)) as [-> Hd]. { destruct HB as [[H1 H2]|[[[] _]|[H1 H2]]]; auto. }
    cbn [expr_plus].
    apply (rgp_ext da (fun i j => scalar_plus (entry (EM m) i j) (bA b (entry b) i j))); [intros i j _ _; rewrite EB; reflexivity|].
    apply (mat_plus_rgp FL ONE da db (entry (EM m)) (entry b) m g b (fun f E => HF f (or_intror E))); try assumption.
Qed.

Lemma plus_point (a b : expr) (g : goval) (da db d : nat * nat) (e : expr) : (forall f, a = ES (SK f) \/ b = ES (SK f) -> f * n1 = f) ->
  valid_array da a -> valid_array db b -> means g = Some b -> broadcast a b da db d ->
  lists_only a b = false -> expr_plus a g = Ok e ->
  forall i j, i < fst d -> j < snd d -> exists s, sum_of_entries a b i j = Ok s /\ same_terms (entry e i j) s.
Proof.
  intros HF Va Vb Hg HB HL E i j Hi Hj. pose proof (expr_plus_rgp a b g da db d HF Va Vb Hg HB HL e E) as A.
  destruct (arr_entry _ _ _ _ _ A Hi Hj) as (_ & s & Es & _ & _ & H). exists s. auto.
Qed.

Lemma simplify_point (e e' : expr) (d : nat * nat) : valid_array d e -> expr_simplified e = Ok e' ->
  forall i j, i < fst d -> j < snd d -> exists s, scalar_simplified (entry e i j) = Ok s /\ terms (entry e' i j) = terms s.
Proof.
  intros V E i j Hi Hj. pose proof (valid_array_pt d e V) as P. destruct V as (A1 & A2 & _ & W).
  destruct (expr_simplified_gen d (pt (entry e)) (fun i j s => exists t, scalar_simplified (entry e i j) = Ok t /\ terms s = terms t) e A1 A2) as (e1 & E1 & H1).
  - intros i0 j0 s [H _]. exact H.
  - intros i0 j0 a b H (t & Et & Ht). exists t. split; [exact Et | congruence].
  - intros i0 j0 s [H ->]. exists (ssimplified (entry e i0 j0)). split; [apply scalar_simplified_ok; exact H|]. exists (ssimplified (entry e i0 j0)).
    split; [apply scalar_simplified_ok; exact H | reflexivity].
  - exact P.
  - assert (e1 = e') by congruence. subst e1. exact (arr_entry _ _ _ _ _ H1 Hi Hj).
Qed.

Lemma same_terms_coefficients s t m : same_terms s t -> coefficients m s = coefficients m t.
Proof.
  intros [H|(c & d & H1 & H2 & Hc & Hd)]; unfold coefficients; [rewrite H; reflexivity|]. rewrite H1, H2. cbn [filter].
  rewrite (Effect.alike_form (mkMono c [] []) (mkMono d [] []) m) by (split; reflexivity). destruct (alike (mkMono d [] []) m); [|reflexivity].
  cbn [map filter m_coeff]. rewrite Hc, Hd. reflexivity.
Qed.

Lemma plus_array_coefficients (a b : expr) (g : goval) (da db d : nat * nat) (e : expr) (m : Monomial) : (forall f, a = ES (SK f) \/ b = ES (SK f) -> f * n1 = f) ->
  valid_array da a -> valid_array db b -> means g = Some b -> broadcast a b da db d ->
  lists_only a b = false -> expr_plus a g = Ok e -> valid_mono m ->
  forall i j, i < fst d -> j < snd d -> collected (bentry a i j) -> collected (bentry b i j) ->
  coefficients m (entry e i j) = added (coefficients m (bentry a i j)) (coefficients m (bentry b i j)).
Proof.
  intros HF Va Vb Hg HB HL E Vm i j Hi Hj Na Nb. destruct (plus_point a b g da db d e HF Va Vb Hg HB HL E i j Hi Hj) as (s & Es & S).
  rewrite (same_terms_coefficients _ _ m S). destruct (bentry_valid a b da db d i j Va Vb HB Hi Hj) as [Wa Wb].
  assert (G1 : scalar_plus (bentry a i j) (bentry b i j) = Ok s -> coefficients m s = added (coefficients m (bentry a i j)) (coefficients m (bentry b i j))).
  { intro X. apply (plus_coefficients FL); assumption. }
  assert (G2 : scalar_plus (bentry b i j) (bentry a i j) = Ok s -> coefficients m s = added (coefficients m (bentry a i j)) (coefficients m (bentry b i j))).
  { intro X. rewrite (plus_coefficients FL (bentry b i j) (bentry a i j) s m) by assumption.
    apply (added_comm FL); apply coefficients_one; assumption. }
  unfold sum_of_entries in Es. destruct a as [[k|v|t|p]|v|x]; try (exact (G1 Es)); destruct b as [s0|v0|m0]; (exact (G1 Es) || exact (G2 Es)).
Qed.

Lemma same_terms_forms s t L : same_terms s t -> valid t -> (forall x, In x (terms t) -> is_const x = true \/ formed L x) ->
  valid s /\ forall x, In x (terms s) -> is_const x = true \/ formed L x.
Proof.
  intros [H|(c & d & H1 & H2 & _)] V F.
  - split; [apply valid_terms_iff; rewrite H; apply valid_terms_iff; exact V | rewrite H; exact F].
  - split; [apply valid_terms_iff; rewrite H1; split; [discriminate | constructor; [|constructor]; repeat split; constructor]|]. rewrite H1. intros x [<-|[]]. left. reflexivity.
Qed.

(** the powers of the entries of a sum are those of the entries of the operands *)
Lemma plus_array_forms (a b : expr) (g : goval) (da db d : nat * nat) (e : expr) : (forall f, a = ES (SK f) \/ b = ES (SK f) -> f * n1 = f) ->
  valid_array da a -> valid_array db b -> means g = Some b -> broadcast a b da db d -> lists_only a b = false -> expr_plus a g = Ok e ->
  forall i j, i < fst d -> j < snd d ->
  valid (entry e i j) /\ forall x, In x (terms (entry e i j)) -> is_const x = true \/ formed (terms (bentry a i j) ++ terms (bentry b i j)) x.
Proof.
  intros HF Va Vb Hg HB HL E i j Hi Hj. destruct (plus_point a b g da db d e HF Va Vb Hg HB HL E i j Hi Hj) as (s & Es & S).
  destruct (bentry_valid a b da db d i j Va Vb HB Hi Hj) as [Wa Wb].
  assert (G : forall p q, valid p -> valid q -> scalar_plus p q = Ok s -> valid s /\ forall x, In x (terms s) -> is_const x = true \/ formed (terms p ++ terms q) x).
  { intros p q Vp Vq X. destruct (scalar_plus_sum p q Vp Vq) as (s' & E' & Vs & HS & _). assert (s' = s) by congruence. subst s'. auto. }
  assert (G1 : scalar_plus (bentry a i j) (bentry b i j) = Ok s -> valid s /\ forall x, In x (terms s) -> is_const x = true \/ formed (terms (bentry a i j) ++ terms (bentry b i j)) x) by (apply G; assumption).
  assert (G2 : scalar_plus (bentry b i j) (bentry a i j) = Ok s -> valid s /\ forall x, In x (terms s) -> is_const x = true \/ formed (terms (bentry a i j) ++ terms (bentry b i j)) x).
  { intro X. destruct (G _ _ Wb Wa X) as [Vs K]. split; [exact Vs|]. intros x Hx. destruct (K x Hx) as [C|(x0 & I0 & F0)]; [left; exact C|]. right. exists x0. split; [|exact F0].
    apply in_app_iff. apply in_app_iff in I0. tauto. }
  assert (R : valid s /\ forall x, In x (terms s) -> is_const x = true \/ formed (terms (bentry a i j) ++ terms (bentry b i j)) x).
  { unfold sum_of_entries in Es. destruct a as [[k|v|t|p]|v|x]; try (exact (G1 Es)); destruct b as [s0|v0|m0]; (exact (G1 Es) || exact (G2 Es)). }
  destruct R as [Vs K]. exact (same_terms_forms _ _ _ S Vs K).
Qed.
End PointPlus2.

Section Exact.
Context {NN : Num} {EX : ExactNum NN}.
Add Ring numring_pp : num_ring.
Lemma float_laws_exact : float_laws.
Proof.
  split; [apply zero_laws_exact; exact EX|]. split; [intros c d Hc Hd; apply ex_eqb in Hc; apply ex_eqb in Hd; apply ex_eqb; subst; ring|].
  split; [intros; ring|]. split; [unfold n2; rewrite <- ex_ofZ1, <- ex_ofZadd; reflexivity|]. split; [intros c H; apply ex_eqb; exact H|].
  intros c d Hc _. apply ex_eqb in Hc. subst. ring.
Qed.
Lemma one_zero_exact : (n1 =? n0) = false.
Proof. apply eqb_false_iff. apply n1_neq_n0. Qed.
Lemma mul_one_exact (f : num) : f * n1 = f.
Proof. ring. Qed.

Theorem plus_entries (a b : expr) (g : goval) (da db d : nat * nat) (e : expr) :
  valid_array da a -> valid_array db b -> means g = Some b -> broadcast a b da db d -> lists_only a b = false -> expr_plus a g = Ok e ->
  forall i j, i < fst d -> j < snd d -> exists s, sum_of_entries a b i j = Ok s /\ same_terms (entry e i j) s.
Proof. intros. eapply plus_point; eauto using float_laws_exact, one_zero_exact, mul_one_exact. Qed.
End Exact.

Section F64.
Let NN := F64Num.
Existing Instance NN.
Lemma one_zero_F64 : (n1 =? n0) = false.
Proof. vm_compute. reflexivity. Qed.
Lemma mul_one_F64 (f : num) : float64 f -> f * n1 = f.
Proof. intro H. change (@n1 F64Num) with (S754_finite false 4503599627370496 (-52)). exact (mul_unit f false H). Qed.
Lemma numbers_F64 (a b : expr) : number64 a -> number64 b -> forall f, a = ES (SK f) \/ b = ES (SK f) -> f * n1 = f.
Proof. intros Ha Hb f H. apply mul_one_F64. destruct H as [-> | ->]; assumption. Qed.

Theorem f64_plus_entries (a b : expr) (g : goval) (da db d : nat * nat) (e : expr) :
  valid_array da a -> valid_array db b -> means g = Some b -> broadcast a b da db d -> lists_only a b = false -> number64 a -> number64 b -> expr_plus a g = Ok e ->
  forall i j, i < fst d -> j < snd d -> exists s, sum_of_entries a b i j = Ok s /\ same_terms (entry e i j) s.
Proof. intros. eapply (plus_point float_laws_F64 one_zero_F64 a b g da db d e (numbers_F64 a b ltac:(assumption) ltac:(assumption))); assumption. Qed.
Theorem f64_plus_array (a b : expr) (g : goval) (da db d : nat * nat) (e : expr) (m : Monomial) :
  valid_array da a -> valid_array db b -> means g = Some b -> broadcast a b da db d -> lists_only a b = false -> number64 a -> number64 b -> expr_plus a g = Ok e -> valid_mono m ->
  forall i j, i < fst d -> j < snd d -> collected (bentry a i j) -> collected (bentry b i j) ->
  coefficients m (entry e i j) = added (coefficients m (bentry a i j)) (coefficients m (bentry b i j)).
Proof. intros. eapply (plus_array_coefficients float_laws_F64 one_zero_F64 a b g da db d e m (numbers_F64 a b ltac:(assumption) ltac:(assumption))); assumption. Qed.
Theorem f64_simplify_array (e e' : expr) (d : nat * nat) (m : Monomial) : valid_array d e -> expr_simplified e = Ok e' -> valid_mono m ->
  forall i j, i < fst d -> j < snd d -> coefficients m (entry e' i j) = left_to_right_sum (coefficients m (entry e i j)).
Proof.
  intros V E Vm i j Hi Hj. destruct (simplify_point e e' d V E i j Hi Hj) as (s & Es & Hs). transitivity (coefficients m s); [unfold coefficients; rewrite Hs; reflexivity|].
  apply f64_simplify; try assumption. destruct V as (_ & _ & _ & W). apply W; assumption.
Qed.
End F64.
