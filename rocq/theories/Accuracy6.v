(** * The value of a product of float64 expressions, against the exact one *)

From Coq Require Import ZArith NArith Bool List Lia Reals Lra Floats.SpecFloat.
From Verif Require Import Num NumR Syntax ModelScalar Spec SpecEffect SpecRound SpecAccuracy Base ScalarValid Eval ScalarOps ScalarMore ScalarNorm ScalarFacts Effect FloatExact Round AccFloat Accuracy Accuracy2 Accuracy4 Accuracy5.
Import ListNotations.
Local Open Scope R_scope.

Lemma pairs_length {A B} (P : A -> B -> Prop) l l' : Forall2 P l l' -> length l = length l'.
Proof. induction 1 as [|x y l l' H1 H2 IH]; cbn; congruence. Qed.

Lemma zero_sum1 (x a b c s y : R) : a = 0 -> s = 0 -> Rabs (x - (a + b)) <= y * (s + c) -> Rabs (x - b) <= y * c.
Proof. intros -> ->. rewrite !Rplus_0_l. exact (fun H => H). Qed.
Lemma zero_sum2 (x s y c : R) : s = 0 -> x <= y * (s + c) -> x <= y * c.
Proof. intros ->. rewrite Rplus_0_l. exact (fun H => H). Qed.

Section Acc.
Let NN := F64Num.
Existing Instance NN.

Lemma one64_real : real64 n1 = 1.
Proof.
  assert (E : n1 = S754_finite false 4503599627370496 (-52)) by (vm_compute; reflexivity). transitivity (real64 (S754_finite false 4503599627370496 (-52))); [exact (f_equal real64 E)|].
  unfold real64. change (powerRZ 2 (-52)) with (/ 2 ^ 52). rewrite (pow_IZR 2 52). change (2 ^ Z.of_nat 52)%Z with 4503599627370496%Z. field.
Qed.

(** ** products with one term *)
Lemma no_error (c d : R) : c = d -> Rabs (c - d) <= unit64 * Rabs d + tiny64.
Proof.
  intros ->. unfold Rminus. rewrite Rplus_opp_r, Rabs_R0. pose proof unit64_pos. pose proof tiny64_pos. assert (0 <= unit64 * Rabs d) by (apply Rmult_le_pos; [assumption | apply Rabs_pos]). lra.
Qed.
Lemma product_exact x y q : valid_mono q -> product_powers x y q -> float64 (m_coeff q) -> real64 (m_coeff q) = real64 (m_coeff x) * real64 (m_coeff y) -> term_product x y q.
Proof.
  intros V P F E. split; [exact V|]. split; [exact P|]. split; [exact F|]. intros _. exact (no_error _ _ E).
Qed.
Lemma rounded_bound (c a b : num) : float64 a -> float64 b -> c = (a * b)%num -> float64 c /\ (finite64 c -> Rabs (real64 c - real64 a * real64 b) <= unit64 * Rabs (real64 a * real64 b) + tiny64).
Proof. intros Fa Fb ->. split; [apply mul64_float; assumption|]. intro HF. exact (mul64_real a b Fa Fb HF). Qed.
Lemma product_rounded x y q : valid_mono q -> product_powers x y q -> float64 (m_coeff x) -> float64 (m_coeff y) -> m_coeff q = (m_coeff x * m_coeff y)%num -> term_product x y q.
Proof. intros V P Fx Fy E. split; [exact V|]. split; [exact P|]. exact (rounded_bound _ _ _ Fx Fy E). Qed.
Lemma product_swap x y q : term_product x y q -> term_product y x q.
Proof.
  intros (V & P & F & H). split; [exact V|]. split; [intro i; rewrite P; lia|]. split; [exact F|]. intro HF. rewrite (Rmult_comm (real64 (m_coeff y))). exact (H HF).
Qed.

Lemma list_within r y A qs : Forall valid_mono A -> valid_mono y -> Forall2 (fun x q => term_product x y q) A qs -> finite64s (SP qs) ->
  Rabs (lvalue r qs - lvalue r A * (real64 (m_coeff y) * factors64 r y)) <= unit64 * (lsize r A * Rabs (real64 (m_coeff y) * factors64 r y)) + tiny64 * (lspread r A * Rabs (factors64 r y)).
Proof.
  intros VA Vy H. revert VA. induction H as [|x q A qs Hq H IH]; intros VA HF.
  - unfold lvalue, lsize, lspread. cbn. rewrite !Rmult_0_l, Rminus_0_r, Rabs_R0, !Rmult_0_r. lra.
  - apply Forall_cons_iff in VA as [Vx VA]. unfold finite64s in HF. cbn [terms] in HF. apply Forall_cons_iff in HF as [Fq HF]. specialize (IH VA HF).
    pose proof (term_near r x y q Vx Vy Hq Fq) as T. unfold lvalue, lsize, lspread in *. cbn [map total].
    set (V := total (map _ qs)) in *. set (VA' := total (map (fun t => real64 (m_coeff t) * factors64 r t) A)) in *. set (SA := total (map (fun t => Rabs (real64 (m_coeff t) * factors64 r t)) A)) in *.
    set (PA := total (map (fun t => Rabs (factors64 r t)) A)) in *. set (wq := real64 (m_coeff q) * factors64 r q) in *. set (wx := real64 (m_coeff x) * factors64 r x) in *. set (wy := real64 (m_coeff y) * factors64 r y) in *.
    replace (wq + V - (wx + VA') * wy) with ((wq - wx * wy) + (V - VA' * wy)) by ring. eapply Rle_trans; [apply Rabs_triang|]. lra.
Qed.

Lemma lvalue_one r y : lvalue r [y] = real64 (m_coeff y) * factors64 r y.
Proof. unfold lvalue. cbn. ring. Qed.
Lemma lsize_one r y : lsize r [y] = Rabs (real64 (m_coeff y) * factors64 r y).
Proof. unfold lsize. cbn. ring. Qed.
Lemma lspread_one r y : lspread r [y] = Rabs (factors64 r y).
Proof. unfold lspread. cbn. ring. Qed.
Lemma value_size r s : Rabs (value64 r s) <= size64 r s.
Proof. apply total_abs. Qed.

(** the size of a list of products *)
Lemma list_size r y A qs : Forall valid_mono A -> valid_mono y -> Forall2 (fun x q => term_product x y q) A qs -> finite64s (SP qs) ->
  lsize r qs <= (1 + unit64) * (lsize r A * Rabs (real64 (m_coeff y) * factors64 r y)) + tiny64 * (lspread r A * Rabs (factors64 r y)).
Proof.
  intros VA Vy H. revert VA. induction H as [|x q A qs Hq H IH]; intros VA HF.
  - unfold lsize, lspread. cbn. rewrite !Rmult_0_l, !Rmult_0_r. lra.
  - apply Forall_cons_iff in VA as [Vx VA]. unfold finite64s in HF. cbn [terms] in HF. apply Forall_cons_iff in HF as [Fq HF]. specialize (IH VA HF).
    pose proof (term_near r x y q Vx Vy Hq Fq) as T. unfold lsize, lspread in *. cbn [map total].
    set (V := total (map _ qs)) in *. set (SA := total (map (fun t => Rabs (real64 (m_coeff t) * factors64 r t)) A)) in *.
    set (PA := total (map (fun t => Rabs (factors64 r t)) A)) in *. set (wq := real64 (m_coeff q) * factors64 r q) in *. set (wx := real64 (m_coeff x) * factors64 r x) in *. set (wy := real64 (m_coeff y) * factors64 r y) in *.
    pose proof (Rabs_triang (wq - wx * wy) (wx * wy)) as T2. replace (wq - wx * wy + wx * wy) with wq in T2 by ring. rewrite (Rabs_mult wx wy) in T2. lra.
Qed.

Lemma list_near r A y qs : valid_poly A -> valid_mono y -> Forall2 (fun x q => term_product x y q) A qs -> product_near r A [y] 1 (SP qs).
Proof.
  intros [N0 VA] Vy H.
  assert (K : forall q, In q qs -> exists x, In x A /\ term_product x y q) by (intros q Hq; exact (Forall2_in_r _ _ _ _ H Hq)).
  split; [|split; [|split]].
  - split; [intros ->; inversion H; subst; congruence|]. apply Forall_forall. intros q Hq. destruct (K q Hq) as (x & _ & V & _). exact V.
  - apply Forall_forall. intros q Hq. destruct (K q Hq) as (x & _ & _ & _ & F & _). exact F.
  - intros q Hq. destruct (K q Hq) as (x & Hx & V & P & _). right. split; [exact V|]. exists x, y. split; [exact Hx|]. split; [left; reflexivity | exact P].
  - intro HF. pose proof (list_within r y A qs VA Vy H HF) as W1. pose proof (list_size r y A qs VA Vy H HF) as W2. unfold within. rewrite lvalue_one, lsize_one, lspread_one, pow_1.
    change (value64 r (SP qs)) with (lvalue r qs). change (size64 r (SP qs)) with (lsize r qs). pose proof unit64_pos as U. pose proof tiny64_pos as T.
    assert (Q : 0 <= unit64 * (tiny64 * (lspread r A * Rabs (factors64 r y)))) by (apply Rmult_le_pos; [exact U|]; apply Rmult_le_pos; [exact T|]; apply Rmult_le_pos; [apply lspread_pos | apply Rabs_pos]).
    split; [eapply Rle_trans; [exact W1|]; lra | eapply Rle_trans; [exact W2|]; lra].
Qed.

Lemma scale_near r A y (f : Monomial -> res Monomial) s : valid_poly A -> valid_mono y -> (forall x, In x A -> exists q, f x = Ok q /\ term_product x y q) -> unambiguous (product_of A [y]) ->
  bind (mapM f A) poly_simplified = Ok s -> product_near r A [y] (length A) s /\ collected s.
Proof.
  intros VA Vy Hf HU E. destruct (mapM_exists f (fun x q => term_product x y q) A Hf) as (qs & Eq & H). rewrite Eq in E. cbn [bind] in E.
  pose proof (list_near r A y qs VA Vy H) as HN. assert (L : length qs = length A) by (symmetry; exact (pairs_length _ _ _ H)).
  destruct VA as [N0 _]. assert (L0 : (1 + (length A - 1))%nat = length A) by (destruct A; [congruence | cbn; lia]).
  rewrite <- L0. apply (near_simplify r A [y] 1 (length A - 1) (SP qs) s HU HN); [|exact E].
  intros m _. eapply Nat.le_trans; [exact (coefficients_length m (SP qs))|]. eapply Nat.le_trans; [exact (Nat.eq_le_incl _ _ L)|]. revert L0. generalize (length A). intros n L0. lia.
Qed.

Lemma k_product x k : valid_mono x -> float64 (m_coeff x) -> float64 k -> exists q, mono_mul_k x k = Ok q /\ term_product x (k_to_mono k) q.
Proof.
  intros V F Fk. unfold mono_mul_k. rewrite (valid_mono_check x V). cbn [check bind]. eexists. split; [reflexivity|]. apply product_rounded; [exact V | apply product_powers_k | exact F | exact Fk | reflexivity].
Qed.
Lemma var_product x v : valid_mono x -> valid_var v -> float64 (m_coeff x) -> exists q, mono_mul_var x v = Ok q /\ term_product x (var_to_mono v) q.
Proof.
  intros V Vv F. destruct (mono_mul_var_ok x v V Vv) as (q & E & Vq & P & C). exists q. split; [exact E|]. apply product_exact; [exact Vq | exact P | rewrite C; exact F|].
  rewrite C. cbn [var_to_mono m_coeff]. etransitivity; [symmetry; apply Rmult_1_r|]. f_equal. symmetry. exact one64_real.
Qed.
Lemma mono_product x y : valid_mono x -> valid_mono y -> float64 (m_coeff x) -> float64 (m_coeff y) -> exists q, mono_mul_mono x y = Ok q /\ term_product x y q.
Proof. intros V W F G. destruct (mono_mul_mono_ok x y V W) as (q & E & Vq & P & C). exists q. split; [exact E|]. apply product_rounded; assumption. Qed.

(** ** sums of products *)
Definition usable (A B : list Monomial) (x : scalar) : Prop := valid x /\ collected x /\ float64s x /\ forall m, In m (terms x) -> from A B m.

Lemma finite_back_r (a b s : scalar) : valid a -> valid b -> collected a -> collected b -> float64s a -> float64s b -> scalar_plus a b = Ok s -> finite64s s -> finite64s b.
Proof.
  intros Va Vb Ca Cb Fa Fb E HF. apply Forall_forall. intros t Ht. pose proof (valid_terms b Vb) as VT. assert (Vt : valid_mono t) by (rewrite Forall_forall in VT; apply VT; exact Ht).
  destruct (m_coeff t =? n0)%num eqn:Z; [apply zero64_finite; exact Z|].
  assert (P : coefficients t s = added (coefficients t a) (coefficients t b)) by exact (f64_plus a b s t Va Vb Ca Cb E Vt).
  assert (G : Forall finite64 (coefficients t s)) by exact (coefficients_all finite64 t s HF). rewrite P in G.
  assert (I0 : In (m_coeff t) (coefficients t b)) by exact (in_coefficients t b Vt Ht Z).
  assert (La : (length (coefficients t a) <= 1)%nat) by (apply f64_one; assumption). assert (Lb : (length (coefficients t b) <= 1)%nat) by (apply f64_one; assumption).
  assert (Ga : Forall float64 (coefficients t a)) by (apply coefficients_all; exact Fa). assert (Gb : Forall float64 (coefficients t b)) by (apply coefficients_all; exact Fb).
  revert I0 G La Lb Ga Gb. generalize (coefficients t a) (coefficients t b). clear - Z. intros l l' I0 G La Lb Ga Gb.
  destruct l' as [|y [|? ?]]; [destruct I0 | | cbn in Lb; lia]. destruct I0 as [->|[]]. destruct l as [|x [|? ?]]; [| |cbn in La; lia].
  - change (added [] [m_coeff t]) with (nz [m_coeff t]) in G. apply Forall_cons_iff in Gb as [Gy _]. apply finite_nz in G; assumption.
  - change (added [x] [m_coeff t]) with (nz [(x + m_coeff t)%num]) in G. apply Forall_cons_iff in Ga as [Gx _]. apply Forall_cons_iff in Gb as [Gy _].
    apply finite_nz in G; [|apply add64_float; assumption]. apply add64_finite in G; tauto.
Qed.

Lemma plus_usable A B a b s : unambiguous (product_of A B) -> usable A B a -> usable A B b -> scalar_plus a b = Ok s -> usable A B s /\ coherent (terms a ++ terms b).
Proof.
  intros HU (Va & Ca & Fa & Ha) (Vb & Cb & Fb & Hb) E. destruct (plus_total a b Va Vb) as (s' & E' & Vs & Ns). assert (s' = s) by congruence. subst s'.
  destruct (scalar_plus_sum a b Va Vb) as (s' & E2 & _ & HS & _). assert (s' = s) by congruence. subst s'.
  assert (HL : forall m, In m (terms a ++ terms b) -> from A B m) by (intros m Hm; apply in_app_iff in Hm as [Hm|Hm]; auto).
  split; [|apply (from_coherent A B); assumption]. split; [exact Vs|]. split; [apply normal_collected; exact Ns|]. split; [apply (float_sum a b s); assumption|].
  intros m Hm. pose proof (valid_terms s Vs) as VS. rewrite Forall_forall in VS. apply (from_formed A B (terms a ++ terms b)); [apply VS; exact Hm | exact HL | apply HS; exact Hm].
Qed.

Lemma sum_all r A B l : unambiguous (product_of A B) -> forall a s, usable A B a -> Forall (usable A B) l -> sum_up a l = Ok s ->
  usable A B s /\ (finite64s s -> Forall finite64s (a :: l) /\ Rabs (value64 r s - (value64 r a + values r l)) <= ((1 + unit64) ^ length l - 1) * (size64 r a + sizes r l)
    /\ size64 r s <= (1 + unit64) ^ length l * (size64 r a + sizes r l)).
Proof.
  intro HU. induction l as [|x l IH]; intros a s Ha Hl E; cbn [sum_up] in E.
  - injection E as ->. split; [exact Ha|]. intro HF. split; [constructor; [exact HF | constructor]|]. unfold values, sizes. cbn. rewrite !Rplus_0_r. unfold Rminus. rewrite !Rplus_opp_r, Rabs_R0. lra.
  - apply Forall_cons_iff in Hl as [Hx Hl]. destruct (scalar_plus a x) as [b|] eqn:Eb; [|discriminate]. cbn [bind] in E.
    destruct (plus_usable A B a x b HU Ha Hx Eb) as [Hb HC]. destruct (IH b s Hb Hl E) as [Hs W]. split; [exact Hs|]. intro HF. destruct (W HF) as (F1 & W1 & W2). clear W IH.
    apply Forall_cons_iff in F1 as [Fb F1]. destruct Ha as (Va & Ca & Fa & _). destruct Hx as (Vx & Cx & Fx & _).
    assert (A0 : Rabs (value64 r b - (value64 r a + value64 r x)) <= unit64 * (size64 r a + size64 r x)).
    { apply acc_plus; try assumption. intros p q Hp Hq. apply HC; apply in_app_iff; assumption. }
    assert (Z : size64 r b <= (1 + unit64) * (size64 r a + size64 r x)) by (apply size_plus; assumption).
    pose proof unit64_pos as U. pose proof (size_pos r a) as Pa. pose proof (size_pos r x) as Px. pose proof (sizes_pos r l) as PL.
    split; [constructor; [exact (finite_back a x b Va Vx Ca Cx Fa Fx Eb Fb)|]; constructor; [exact (finite_back_r a x b Va Vx Ca Cx Fa Fx Eb Fb) | exact F1]|].
    change (values r (x :: l)) with (value64 r x + values r l). change (sizes r (x :: l)) with (size64 r x + sizes r l). cbn [length pow].
    assert (P : 1 <= (1 + unit64) ^ length l) by (apply pow_R1_Rle; lra). split; [apply (step_bound _ _ _ (value64 r b) _ _ _ _ _ (size64 r b)); assumption|].
    eapply Rle_trans; [exact W2|]. rewrite (Rmult_comm (1 + unit64)), Rmult_assoc. apply Rmult_le_compat_l; [lra|]. assert (0 <= unit64 * sizes r l) by (apply Rmult_le_pos; assumption). lra.
Qed.

Lemma fold_sum p q : forall acc out, foldM (fun acc m => bind (poly_mul_mono p m) (fun t => scalar_plus acc t)) acc q = Ok out ->
  exists ts, Forall2 (fun m t => poly_mul_mono p m = Ok t) q ts /\ sum_up acc ts = Ok out.
Proof.
  induction q as [|m q IH]; intros acc out E; cbn [foldM] in E.
  - exists []. split; [constructor | exact E].
  - destruct (poly_mul_mono p m) as [t|] eqn:Et; [|discriminate E]. cbn [bind] in E. destruct (scalar_plus acc t) as [b|] eqn:Eb; [|discriminate E]. cbn [bind] in E.
    destruct (IH b out E) as (ts & H1 & H2). exists (t :: ts). split; [constructor; assumption|]. cbn [sum_up]. rewrite Eb. exact H2.
Qed.

Lemma parts_within r p q ts : Forall2 (fun m t => finite64s t -> within r p [m] (length p) t) q ts -> Forall finite64s ts ->
  Rabs (values r ts - lvalue r p * lvalue r q) <= ((1 + unit64) ^ length p - 1) * (lsize r p * lsize r q) + (1 + unit64) ^ length p * tiny64 * (lspread r p * lspread r q)
  /\ sizes r ts <= (1 + unit64) ^ length p * (lsize r p * lsize r q) + (1 + unit64) ^ length p * tiny64 * (lspread r p * lspread r q).
Proof.
  induction 1 as [|m t q ts Ht H IH]; intro HF.
  - change (values r []) with 0. change (sizes r []) with 0. change (lvalue r []) with 0. change (lsize r []) with 0. change (lspread r []) with 0. rewrite !Rmult_0_r, Rminus_0_r, Rabs_R0. lra.
  - apply Forall_cons_iff in HF as [Ft HF]. destruct (IH HF) as [I1 I2]. destruct (Ht Ft) as [W1 W2]. rewrite lvalue_one, lsize_one, lspread_one in *.
    change (values r (t :: ts)) with (value64 r t + values r ts). change (sizes r (t :: ts)) with (size64 r t + sizes r ts).
    change (lvalue r (m :: q)) with (real64 (m_coeff m) * factors64 r m + lvalue r q). change (lsize r (m :: q)) with (Rabs (real64 (m_coeff m) * factors64 r m) + lsize r q).
    change (lspread r (m :: q)) with (Rabs (factors64 r m) + lspread r q). set (w := real64 (m_coeff m) * factors64 r m) in *. set (P := (1 + unit64) ^ length p) in *.
    split; [|lra]. replace (value64 r t + values r ts - lvalue r p * (w + lvalue r q)) with ((value64 r t - lvalue r p * w) + (values r ts - lvalue r p * lvalue r q)) by ring.
    eapply Rle_trans; [apply Rabs_triang|]. lra.
Qed.

Lemma from_incl A A' B B' m : incl A A' -> incl B B' -> from A B m -> from A' B' m.
Proof. intros H1 H2 [C|C]; [left; exact C | right; exact (product_of_incl A A' B B' m H1 H2 C)]. Qed.

Lemma poly_poly_near r p q s : valid_poly p -> valid_poly q -> float64s (SP p) -> float64s (SP q) -> unambiguous (product_of p q) -> poly_mul_poly p q = Ok s ->
  product_near r p q (length p + length q) s.
Proof.
  intros Vp Vq Fp Fq HU E. unfold poly_mul_poly in E. rewrite (valid_poly_check p Vp), (valid_poly_check q Vq) in E. cbn [check bind] in E.
  destruct (foldM _ (SK n0) q) as [out|] eqn:Eo; [|discriminate E]. cbn [bind] in E. apply fold_sum in Eo as (ts & H1 & H2).
  assert (HM : forall m, In m q -> unambiguous (product_of p [m])).
  { intros m Hm x y Hx Hy. apply HU; eapply product_of_incl; try eassumption; try apply incl_refl; intros z [<-|[]]; exact Hm. }
  assert (HT : Forall2 (fun m t => product_near r p [m] (length p) t /\ collected t /\ In m q) q ts).
  { unfold float64s in Fp, Fq. cbn [terms] in Fp, Fq. rewrite Forall_forall in Fp, Fq. destruct Vq as [_ Vq]. rewrite Forall_forall in Vq. destruct Vp as [Np Vp]. pose proof Vp as Vp'. rewrite Forall_forall in Vp.
    assert (G : forall q0, incl q0 q -> forall ts0, Forall2 (fun m t => poly_mul_mono p m = Ok t) q0 ts0 -> Forall2 (fun m t => product_near r p [m] (length p) t /\ collected t /\ In m q) q0 ts0).
    { intros q0 I0 ts0 H0. induction H0 as [|m t q0 ts0 Em H0 IH]; constructor; [|apply IH; intros z Hz; apply I0; right; exact Hz].
      assert (Hm : In m q) by (apply I0; left; reflexivity). pose proof (Vq m Hm) as Vm. unfold poly_mul_mono in Em. rewrite (valid_poly_check p (conj Np Vp')), (valid_mono_check m Vm) in Em. cbn [check bind] in Em.
      destruct (scale_near r p m (fun x => mono_mul_mono x m) t (conj Np Vp') Vm) as [N1 N2]; [|apply HM; exact Hm | exact Em | split; [exact N1|]; split; [exact N2 | exact Hm]].
      intros x Hx. apply mono_product; [apply Vp; exact Hx | exact Vm | apply Fp; exact Hx | apply Fq; exact Hm]. }
    apply (G q (incl_refl q) ts H1). }
  assert (HA : usable p q (SK n0)).
  { split; [exact I|]. split; [apply normal_collected; exact I|]. split; [constructor; [reflexivity | constructor]|]. intros m [<-|[]]. left. split; [apply valid_mono_k | reflexivity]. }
  assert (HL : Forall (usable p q) ts).
  { apply Forall_forall. intros t Ht. destruct (Forall2_in_r _ _ _ _ HT Ht) as (m & _ & (V & F & H & _) & C & Hm). split; [exact V|]. split; [exact C|]. split; [exact F|].
    intros x Hx. apply (from_incl p p [m] q x); [apply incl_refl | intros z [<-|[]]; exact Hm | apply H; exact Hx]. }
  destruct (sum_all r p q ts HU (SK n0) out HA HL H2) as [(Vo & Co & Fo & Ho) W].
  assert (NO : product_near r p q (length p + length q) out).
  { split; [exact Vo|]. split; [exact Fo|]. split; [exact Ho|]. intro HF. destruct (W HF) as (FF & W1 & W2). apply Forall_cons_iff in FF as [_ FF].
    assert (HW : Forall2 (fun m t => finite64s t -> within r p [m] (length p) t) q ts).
    { clear - HT. induction HT as [|m t q0 ts0 ((_ & _ & _ & H) & _) H0 IH]; constructor; assumption. }
    destruct (parts_within r p q ts HW FF) as [P1 P2]. assert (L : length ts = length q) by (symmetry; exact (pairs_length _ _ _ H1)). rewrite L in W1, W2.
    assert (Z1 : value64 r (SK n0) = 0) by (unfold value64; cbn; ring). assert (Z2 : size64 r (SK n0) = 0) by (unfold size64; cbn; rewrite Rmult_0_l, Rabs_R0; ring).
    apply (zero_sum1 _ _ _ _ _ _ Z1 Z2) in W1. apply (zero_sum2 _ _ _ _ Z2) in W2. clear Z1 Z2. unfold within. rewrite pow_add.
    pose proof (pow_unit (length p)) as Pn. pose proof (pow_unit (length q)) as Pk.
    set (x := (1 + unit64) ^ length p) in *. set (y := (1 + unit64) ^ length q) in *. set (SS := lsize r p * lsize r q) in *. set (QQ := lspread r p * lspread r q) in *.
    assert (I1 : (y - 1) * sizes r ts <= (y - 1) * (x * SS + x * tiny64 * QQ)) by (apply Rmult_le_compat_l; [lra | exact P2]).
    assert (I2 : y * sizes r ts <= y * (x * SS + x * tiny64 * QQ)) by (apply Rmult_le_compat_l; [lra | exact P2]).
    split; [|lra]. replace (value64 r out - lvalue r p * lvalue r q) with ((value64 r out - values r ts) + (values r ts - lvalue r p * lvalue r q)) by ring.
    eapply Rle_trans; [apply Rabs_triang|]. lra. }
  assert (L1 : forall m, valid_mono m -> (length (coefficients m out) <= 1)%nat) by (intros m Vm; apply f64_one; assumption).
  destruct (near_simplify r p q (length p + length q) 0 out s HU NO L1 E) as [N _]. rewrite Nat.add_0_r in N. exact N.
Qed.

(** ** all pairs of expressions *)
End Acc.
