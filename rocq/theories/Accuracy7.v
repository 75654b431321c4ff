(** * The value of a product of float64 expressions, against the exact one: all pairs of kinds *)

From Coq Require Import ZArith NArith Bool List Lia Reals Lra Floats.SpecFloat.
From Verif Require Import Num NumR Syntax ModelScalar Spec SpecEffect SpecRound SpecAccuracy Base ScalarValid Eval ScalarOps ScalarMore ScalarNorm ScalarFacts Effect FloatExact Round AccFloat Accuracy Accuracy2 Accuracy4 Accuracy5 Accuracy6.
Import ListNotations.
Local Open Scope R_scope.

Section Acc.
Let NN := F64Num.
Existing Instance NN.

Lemma one_near r x y q : valid_mono x -> valid_mono y -> term_product x y q -> product_near r [x] [y] 1 (SM q).
Proof.
  intros Vx Vy H. assert (VA : valid_poly [x]) by (split; [discriminate | constructor; [exact Vx | constructor]]).
  assert (H2 : Forall2 (fun x q => term_product x y q) [x] [q]) by (constructor; [exact H | constructor]).
  destruct (list_near r [x] y [q] VA Vy H2) as (_ & F & K & W). split; [exact (proj1 H)|]. exact (conj F (conj K W)).
Qed.
Lemma one_near_k r x y (k : num) : valid_mono x -> valid_mono y -> term_product x y (k_to_mono k) -> product_near r [x] [y] 1 (SK k).
Proof. intros Vx Vy H. destruct (one_near r x y (k_to_mono k) Vx Vy H) as (_ & F & K & W). split; [exact I|]. exact (conj F (conj K W)). Qed.
Lemma one_simplified r x y q s : valid_mono x -> valid_mono y -> term_product x y q -> unambiguous (product_of [x] [y]) -> mono_simplified q = Ok s -> product_near r [x] [y] 1 s.
Proof.
  intros Vx Vy H HU E. destruct (near_simplify r [x] [y] 1 0 (SM q) s HU (one_near r x y q Vx Vy H)) as [N _]; [|exact E | exact N].
  intros m _. exact (coefficients_length m (SM q)).
Qed.

(** the terms of a factor, with its validity and its float64 coefficients *)
Lemma k_exact v (k : num) : valid_var v -> float64 k -> term_product (var_to_mono v) (k_to_mono k) (mkMono k [1%Z] [v]).
Proof.
  intros Vv Fk. apply product_exact; [apply valid_mono_var; [exact Vv | lia] | intro i; unfold exponent; cbn; lia | exact Fk|].
  cbn [var_to_mono k_to_mono m_coeff]. etransitivity; [symmetry; apply Rmult_1_l|]. f_equal. symmetry. exact one64_real.
Qed.
Lemma one_float : float64 n1.
Proof. reflexivity. Qed.
Lemma one_one : real64 n1 = real64 n1 * real64 n1.
Proof. etransitivity; [symmetry; apply Rmult_1_l|]. f_equal. symmetry. exact one64_real. Qed.
Lemma var_var v w : valid_var v -> valid_var w -> term_product (var_to_mono v) (var_to_mono w) (if same_id w v then mkMono n1 [2%Z] [v] else mkMono n1 [1%Z; 1%Z] [v; w]).
Proof.
  intros Vv Vw. destruct (same_id w v) eqn:E.
  - apply same_id_iff in E. apply product_exact; [apply valid_mono_var; [exact Vv | lia] | | exact one_float | exact one_one].
    intro i. unfold exponent; cbn. rewrite E. destruct (N.eqb _ _); lia.
  - apply same_id_false in E. apply product_exact; [| | exact one_float | exact one_one].
    + split; [reflexivity|]. cbn. split; [repeat constructor; lia|]. split.
      * constructor; [intros [H|[]]; congruence|]. constructor; [intros [] | constructor].
      * constructor; [exact Vv|]. constructor; [exact Vw | constructor].
    + intro i. unfold exponent; cbn. lia.
Qed.

Lemma unambiguous_swap A B : unambiguous (product_of A B) -> unambiguous (product_of B A).
Proof.
  intros H m1 m2 H1 H2. apply H; [destruct H1 as (V & x & y & D1 & D2 & D3) | destruct H2 as (V & x & y & D1 & D2 & D3)];
    (split; [exact V|]; exists y, x; split; [exact D2|]; split; [exact D1|]; intro i; rewrite D3; lia).
Qed.

Lemma poly_k r p (k : num) s : valid_poly p -> float64s (SP p) -> float64 k -> unambiguous (product_of p [k_to_mono k]) -> poly_mul_k p k = Ok s -> product_near r p [k_to_mono k] (length p) s /\ collected s.
Proof.
  intros Vp Fp Fk HU E. unfold poly_mul_k in E. rewrite (valid_poly_check p Vp) in E. cbn [check bind] in E. apply (scale_near r p (k_to_mono k) (fun m => mono_mul_k m k)); [exact Vp | apply valid_mono_k | | exact HU | exact E].
  unfold float64s in Fp. cbn [terms] in Fp. rewrite Forall_forall in Fp. destruct Vp as [_ Vp]. rewrite Forall_forall in Vp. intros x Hx. apply k_product; [apply Vp; exact Hx | apply Fp; exact Hx | exact Fk].
Qed.
Lemma poly_var r p v s : valid_poly p -> float64s (SP p) -> valid_var v -> unambiguous (product_of p [var_to_mono v]) -> poly_mul_var p v = Ok s -> product_near r p [var_to_mono v] (length p) s /\ collected s.
Proof.
  intros Vp Fp Vv HU E. unfold poly_mul_var in E. pose proof Vv as Hv. apply var_check_valid in Hv. rewrite (valid_poly_check p Vp), Hv in E. cbn [check bind] in E.
  apply (scale_near r p (var_to_mono v) (fun m => mono_mul_var m v)); [exact Vp | apply valid_mono_var; [exact Vv | lia] | | exact HU | exact E].
  unfold float64s in Fp. cbn [terms] in Fp. rewrite Forall_forall in Fp. destruct Vp as [_ Vp]. rewrite Forall_forall in Vp. intros x Hx. apply var_product; [apply Vp; exact Hx | exact Vv | apply Fp; exact Hx].
Qed.
Lemma poly_mono r (p : Polynomial) (m : Monomial) (s : scalar) : valid_poly p -> float64s (SP p) -> valid_mono m -> float64 (m_coeff m) -> unambiguous (product_of p [m]) -> poly_mul_mono p m = Ok s -> product_near r p [m] (length p) s /\ collected s.
Proof.
  intros Vp Fp Vm Fm HU E. unfold poly_mul_mono in E. rewrite (valid_poly_check p Vp) in E. cbn [check bind] in E. pose proof (valid_mono_check m Vm) as HM. rewrite HM in E. cbn [check bind] in E.
  apply (scale_near r p m (fun x => mono_mul_mono x m)); [exact Vp | exact Vm | | exact HU | exact E].
  unfold float64s in Fp. cbn [terms] in Fp. rewrite Forall_forall in Fp. destruct Vp as [_ Vp]. rewrite Forall_forall in Vp. intros x Hx. apply mono_product; [apply Vp; exact Hx | exact Vm | apply Fp; exact Hx | exact Fm].
Qed.

Lemma float_one (m : Monomial) : Forall (fun t => float64 (m_coeff t)) [m] -> float64 (m_coeff m).
Proof. intro H. apply Forall_cons_iff in H. tauto. Qed.

Lemma product_of_near r a b s : valid a -> valid b -> float64s a -> float64s b -> unambiguous (product_of (terms a) (terms b)) -> scalar_mul a b = Ok s ->
  product_near r (terms a) (terms b) (length (terms a) + length (terms b)) s.
Proof.
  intros Va Vb Fa Fb HU E. destruct a as [c|v|m|p]; cbn [scalar_mul] in E.
  - unfold k_mul in E. rewrite (valid_check b Vb) in E. cbn [check bind] in E. assert (Fc : float64 c) by exact (float_one _ Fa). destruct b as [k|w|m|q].
    + injection E as <-. apply (near_more r _ _ 1); [cbn; lia|]. apply one_near_k; [apply valid_mono_k | apply valid_mono_k|].
      apply product_rounded; [apply valid_mono_k | intro i; reflexivity | exact Fc | exact (float_one _ Fb) | reflexivity].
    + unfold var_mul_k in E. pose proof Vb as Hw. apply var_check_valid in Hw. rewrite Hw in E. cbn [check bind] in E. apply (near_more r _ _ 1); [cbn; lia|]. apply near_swap.
      apply (one_simplified r (var_to_mono w) (k_to_mono c) (mkMono c [1%Z] [w]) s); [apply valid_mono_var; [exact Vb | lia] | apply valid_mono_k | apply k_exact; [exact Vb | exact Fc] | apply unambiguous_swap; exact HU | exact E].
    + destruct (k_product m c Vb (float_one _ Fb) Fc) as (q & Eq & T). rewrite Eq in E. injection E as <-. apply (near_more r _ _ 1); [cbn; lia|]. apply near_swap. apply one_near; [exact Vb | apply valid_mono_k | exact T].
    + apply (near_more r _ _ (length q)); [cbn; lia|]. apply near_swap. apply (poly_k r q c s Vb Fb Fc); [apply unambiguous_swap; exact HU | exact E].
  - pose proof Va as Hv. apply var_check_valid in Hv. assert (Vm : valid_mono (var_to_mono v)) by (apply valid_mono_var; [exact Va | lia]). destruct b as [k|w|m|q]; cbn [var_mul] in E.
    + unfold var_mul_k in E. rewrite Hv in E. cbn [check bind] in E. apply (near_more r _ _ 1); [cbn; lia|].
      apply (one_simplified r (var_to_mono v) (k_to_mono k) (mkMono k [1%Z] [v]) s); [exact Vm | apply valid_mono_k | apply k_exact; [exact Va | exact (float_one _ Fb)] | exact HU | exact E].
    + unfold var_mul_var in E. pose proof Vb as Hw. apply var_check_valid in Hw. rewrite Hv, Hw in E. cbn [check bind] in E. apply (near_more r _ _ 1); [cbn; lia|].
      apply (one_simplified r (var_to_mono v) (var_to_mono w) (if same_id w v then mkMono n1 [2%Z] [v] else mkMono n1 [1%Z; 1%Z] [v; w]) s Vm); [apply valid_mono_var; [exact Vb | lia] | apply var_var; assumption | exact HU | exact E].
    + unfold var_mul_mono in E. rewrite Hv, (valid_mono_check m Vb) in E. cbn [check bind] in E. destruct (var_product m v Vb Va (float_one _ Fb)) as (q & Eq & T). rewrite Eq in E. cbn [bind] in E.
      apply (near_more r _ _ 1); [cbn; lia|]. apply near_swap. apply (one_simplified r m (var_to_mono v) q s Vb Vm T); [apply unambiguous_swap; exact HU | exact E].
    + unfold var_mul_poly in E. rewrite Hv, (valid_poly_check q Vb) in E. cbn [check bind] in E. destruct (poly_mul_var q v) as [out|] eqn:Eo; [|discriminate E]. cbn [bind] in E.
      destruct (poly_var r q v out Vb Fb Va (unambiguous_swap _ _ HU) Eo) as [N C]. apply (near_more r _ _ (length q + 0)); [cbn; lia|]. apply near_swap.
      apply (near_simplify r q [var_to_mono v] (length q) 0 out s (unambiguous_swap _ _ HU) N); [|exact E]. intros m0 Vm0. apply f64_one; [exact (proj1 N) | exact C | exact Vm0].
  - assert (Fm : float64 (m_coeff m)) by exact (float_one _ Fa). destruct b as [k|w|n|q]; cbn [mono_mul] in E.
    + destruct (k_product m k Va Fm (float_one _ Fb)) as (q & Eq & T). rewrite Eq in E. injection E as <-. apply (near_more r _ _ 1); [cbn; lia|]. apply one_near; [exact Va | apply valid_mono_k | exact T].
    + destruct (var_product m w Va Vb Fm) as (q & Eq & T). rewrite Eq in E. injection E as <-. apply (near_more r _ _ 1); [cbn; lia|]. apply one_near; [exact Va | apply valid_mono_var; [exact Vb | lia] | exact T].
    + destruct (mono_product m n Va Vb Fm (float_one _ Fb)) as (q & Eq & T). rewrite Eq in E. injection E as <-. apply (near_more r _ _ 1); [cbn; lia|]. apply one_near; [exact Va | exact Vb | exact T].
    + unfold mono_mul_poly in E. rewrite (valid_mono_check m Va), (valid_poly_check q Vb) in E. cbn [check bind] in E. apply (near_more r _ _ (length q)); [cbn; lia|]. apply near_swap.
      apply (poly_mono r q m s Vb Fb Va Fm); [apply unambiguous_swap; exact HU | exact E].
  - destruct b as [k|w|n|q]; cbn [poly_mul] in E.
    + apply (near_more r _ _ (length p)); [cbn; lia|]. apply (poly_k r p k s Va Fa (float_one _ Fb)); [exact HU | exact E].
    + apply (near_more r _ _ (length p)); [cbn; lia|]. apply (poly_var r p w s Va Fa Vb); [exact HU | exact E].
    + apply (near_more r _ _ (length p)); [cbn; lia|]. apply (poly_mono r p n s Va Fa Vb (float_one _ Fb)); [exact HU | exact E].
    + apply poly_poly_near; assumption.
Qed.

Lemma product_terms_unambiguous a b : unambiguous_exponents (product_terms a b) -> unambiguous (product_of (terms a) (terms b)).
Proof.
  intros H m1 m2 (V1 & x1 & y1 & D1 & D2 & D3) (V2 & x2 & y2 & G1 & G2 & G3). apply H; (split; [assumption|]).
  - exists (fun i => (exponent x1 i + exponent y1 i)%Z). split; [exists x1, y1; auto | exact D3].
  - exists (fun i => (exponent x2 i + exponent y2 i)%Z). split; [exists x2, y2; auto | exact G3].
Qed.

Lemma acc_product r a b s : valid a -> valid b -> float64s a -> float64s b -> unambiguous_exponents (product_terms a b) -> scalar_mul a b = Ok s -> finite64s s ->
  Rabs (value64 r s - value64 r a * value64 r b)
  <= ((1 + unit64) ^ (length (terms a) + length (terms b)) - 1) * (size64 r a * size64 r b) + (1 + unit64) ^ (length (terms a) + length (terms b)) * tiny64 * (spread64 r a * spread64 r b).
Proof.
  intros Va Vb Fa Fb HU E HF. destruct (product_of_near r a b s Va Vb Fa Fb (product_terms_unambiguous a b HU) E) as (_ & _ & _ & W). exact (proj1 (W HF)).
Qed.
End Acc.
