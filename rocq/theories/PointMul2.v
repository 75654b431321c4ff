(** * An array times a number, and the difference of two arrays, for float64 *)

From Coq Require Import ZArith NArith Bool List Lia.
From Coq Require Import Floats.SpecFloat.
From Verif Require Import Num Syntax ModelScalar Spec SpecConv SpecEffect Base ScalarValid Eval ScalarOps ScalarMore ScalarNorm ScalarFacts ModelShape ModelArith SpecArr SpecEffectArr SpecPoint Arr ArrPlus ArrMul ArrMulAll ArrTop ArrPow EffectArr EffectArr2 SpecRound Round PointPlus PointPlus2 PointMul SpecKind KindProofs.
Import ListNotations.
Local Open Scope num_scope.

Section PointMul2.
Context {NN : Num} (FL : float_laws) (ONE : (n1 =? n0) = false) (MC : forall x y : num, x * y = y * x).

Lemma valid_array_ptc d e : valid_array d e -> (forall i j, i < fst d -> j < snd d -> collected (entry e i j)) -> arr d (ptc (entry e)) e.
Proof. intros V C. eapply arr_impl; [|exact (valid_array_arr d e V)]. intros i j s Hi Hj [<- Vs]. split; [exact Vs|]. split; [exact (C i j Hi Hj) | reflexivity]. Qed.

Lemma mul_array (f : num) (e : expr) (g : goval) (d : nat * nat) (e' : expr) : n1 * f = f -> valid_array d e -> (forall i j, i < fst d -> j < snd d -> collected (entry e i j)) ->
  means g = Some (ES (SK f)) -> expr_mul e g = Ok e' -> arr d (fun i j => mulc f (entry e i j)) e'.
Proof. intros F1 V C Hg E. pose proof V as (D1 & D2 & _). exact (expr_mul_rm FL MC f F1 d (entry e) e g D1 D2 (valid_array_ptc d e V C) Hg e' E). Qed.

Lemma nz_mul (f : num) l : (forall c, (c =? n0) = true -> (c * f =? n0) = true) -> nz (map (fun c => c * f) l) = nz (map (fun c => c * f) (nz l)).
Proof.
  intro Z. induction l as [|c l IH]; [reflexivity|]. unfold nz in *. cbn [map filter]. destruct (c =? n0) eqn:E0; cbn [negb map filter].
  - rewrite (Z c E0). cbn [negb]. exact IH.
  - destruct (negb (c * f =? n0)); [f_equal|]; exact IH.
Qed.

Lemma mul_array_coefficients (f : num) (e : expr) (g : goval) (d : nat * nat) (e' : expr) (m : Monomial) : n1 * f = f -> (forall c, (c =? n0) = true -> (c * f =? n0) = true) ->
  valid_array d e -> (forall i j, i < fst d -> j < snd d -> collected (entry e i j)) ->
  means g = Some (ES (SK f)) -> expr_mul e g = Ok e' -> valid_mono m ->
  forall i j, i < fst d -> j < snd d -> coefficients m (entry e' i j) = multiplied (coefficients m (entry e i j)) f.
Proof.
  intros F1 Z V C Hg E Vm i j Hi Hj. pose proof (mul_array f e g d e' F1 V C Hg E) as A. destruct (arr_entry _ _ _ _ _ A Hi Hj) as (_ & _ & H).
  rewrite !coefficients_nz, (H m Vm). apply nz_mul. exact Z.
Qed.

Context (P : num -> Prop) (SL : sign_laws P) (PO : forall c, P c -> P (- c)) (PZ : forall c, (c =? n0) = true -> P c) (PM : forall c, P c -> c * n1 = c).

Lemma minus_array_terms (a b : expr) (da db d : nat * nat) (e : expr) :
  (match a with ES (SK f) => P f | _ => True end) ->
  valid_array da a -> valid_array db b -> broadcast a b da db d -> list_differences a b = false ->
  (forall i j, i < fst db -> j < snd db -> collected (entry b i j) /\ Forall (fun t => P (m_coeff t)) (terms (entry b i j))) ->
  minus a b = Ok e ->
  forall i j, i < fst d -> j < snd d -> collected (bentry a i j) ->
  (forall m, valid_mono m -> coefficients m (entry e i j) = subtracted (coefficients m (bentry a i j)) (coefficients m (bentry b i j)))
  /\ valid (entry e i j) /\ forall x, In x (terms (entry e i j)) -> is_const x = true \/ formed (terms (bentry a i j) ++ terms (bentry b i j)) x.
Proof.
  intros Na Va Vb HB HL HC E i j Hi Hj Ca. pose proof SL as (S1 & S2 & S3 & S4 & S5 & S6). unfold minus in E.
  destruct (expr_mul b (GFloat nm1)) as [t|] eqn:Et; [|discriminate]. cbn [bind] in E.
  pose proof (mul_array nm1 b (GFloat nm1) db t (S2 nm1 S4) Vb (fun i j Hi Hj => proj1 (HC i j Hi Hj)) eq_refl Et) as At.
  pose proof Vb as (B1 & B2 & _). pose proof (arr_valid db _ t B1 B2 At (fun i j s H => proj1 H)) as Vt.
  assert (HT : is_scalar b -> is_scalar t) by (intro X; destruct b; try destruct X; exact (mul_float_scalar _ _ _ Et)).
  assert (HB' : broadcast a t da db d). { destruct HB as [X|[X|[X ->]]]; [left; exact X | right; left; exact X|]. right. right. split; [exact (HT X) | reflexivity]. }
  assert (R : exists i' j', i' < fst db /\ j' < snd db /\ bentry t i j = entry t i' j' /\ bentry b i j = entry b i' j').
  { destruct t as [t|v|x].
    - pose proof (arr_ES_dims _ _ _ B1 At) as ->. exists 0, 0. split; [exact (le_n 1)|]. split; [exact (le_n 1)|]. split; [reflexivity|].
      destruct b as [b|v|x]; [reflexivity| |]; (destruct HB as [[-> ->]|[[_ ->]|[[] _]]]; cbn in Hi, Hj; replace i with 0 by lia; replace j with 0 by lia; reflexivity).
    - destruct b as [b|w|y]; [destruct (HT I)| |]; (exists i, j; destruct HB as [[-> ->]|[[_ ->]|[[] _]]]; auto).
    - destruct b as [b|w|y]; [destruct (HT I)| |]; (exists i, j; destruct HB as [[-> ->]|[[_ ->]|[[] _]]]; auto). }
  destruct R as (i' & j' & Hi' & Hj' & Rt & Rb). destruct (arr_entry _ _ _ _ _ At Hi' Hj') as (_ & [Ct Kt] & Ht). destruct (HC i' j' Hi' Hj') as [Cb Pb].
  assert (NF : forall f, a = ES (SK f) \/ t = ES (SK f) -> f * n1 = f).
  { intros f [-> | ->]; apply PM; [exact Na|]. destruct (f =? n0) eqn:Ef; [apply PZ; exact Ef|]. cbn [bentry] in Rt. rewrite <- Rt in Ht.
    assert (V0 : valid_mono (mkMono f [] [])) by (repeat split; constructor). specialize (Ht _ V0). rewrite (cs_P P SL _ _ Pb) in Ht. cbn [terms] in Ht. rewrite cs_one in Ht.
    rewrite (Effect.alike_refl _ V0) in Ht. cbn [m_coeff] in Ht. unfold nz in Ht at 1. cbn [filter] in Ht. rewrite Ef in Ht. cbn [negb] in Ht.
    assert (HI : In f (nz (map nopp (cs (mkMono f [] []) (terms (entry b i' j')))))) by (rewrite <- Ht; left; reflexivity).
    unfold nz in HI. apply filter_In in HI. destruct HI as [HI _]. apply in_map_iff in HI. destruct HI as (c & <- & Hc). apply PO.
    unfold cs in Hc. apply in_map_iff in Hc. destruct Hc as (u & <- & Hu). apply filter_In in Hu. rewrite Forall_forall in Pb. apply Pb, Hu. }
  assert (HL' : lists_only a t = false).
  { destruct a as [[k|v|u|p]|v|[l|l|l|l]]; try reflexivity; try discriminate HL. destruct t as [t|v|[l|l|l|l]]; try reflexivity. exfalso.
    destruct b as [b|v|[l0|l0|l0|l0]]; try discriminate HL; [destruct (HT I)| |].
    - pose proof (arr_EV_cols _ _ _ B1 (valid_array_arr _ _ Vb)) as Ec.
      assert (K : natural db (EM (MM l))).
      { apply (multiply_kind (EV v) (ES (SK nm1)) (GFloat nm1) db (1, 1)%nat db); try reflexivity; try assumption; [apply (arr_valid (1, 1)%nat (fun _ _ s => valid s)); [exact (le_n 1) | exact (le_n 1) | apply arr_ES; exact I | auto] | | intros []].
        right. left. split; [exact I | reflexivity]. }
      exact (K Ec).
    - cbn [expr_mul mat_mul] in Et. unfold k_mat_mul, k_mat_mul_float in Et. repeat match type of Et with bind ?x _ = Ok _ => destruct x; [cbn [bind] in Et | discriminate Et] end.
      destruct (k_to_dense l0); [|discriminate Et]. cbn in Et. discriminate Et. }
  split; [|destruct (plus_array_forms FL ONE a t (GExpr t) da db d e NF Va Vt eq_refl HB' HL' E i j Hi Hj) as [Ve Ke]; split; [exact Ve|]; intros x Hx; destruct (Ke x Hx) as [K|(x0 & I0 & F0)]; [left; exact K|];
    rewrite Rt in I0; rewrite Rb; apply in_app_iff in I0; destruct I0 as [I0|I0]; [right; exists x0; split; [apply in_app_iff; left; exact I0 | exact F0]|];
    destruct (formed_trans (terms (entry b i' j')) (terms (entry t i' j')) x (ex_intro _ x0 (conj I0 F0)) Kt) as [K|(x1 & I1 & F1)]; [left; exact K | right; exists x1; split; [apply in_app_iff; right; exact I1 | exact F1]]].
  intros m Vm.
  rewrite (plus_array_coefficients FL ONE a t (GExpr t) da db d e m NF Va Vt eq_refl HB' HL' E Vm i j Hi Hj Ca) by (rewrite Rt; exact Ct).
  rewrite Rt, Rb. unfold added, subtracted. f_equal.
  assert (X : coefficients m (entry t i' j') = map nopp (coefficients m (entry b i' j'))) by (rewrite !coefficients_nz, (Ht m Vm), (cs_P P SL) by exact Pb; apply (nz_opp P SL)).
  rewrite X. destruct (coefficients m (bentry a i j)) as [|x [|x' l]]; [reflexivity | | reflexivity]. destruct (coefficients m (entry b i' j')) as [|y [|y' l']]; [reflexivity | | reflexivity].
  cbn [map]. rewrite S6. reflexivity.
Qed.
Lemma minus_array_coefficients (a b : expr) (da db d : nat * nat) (e : expr) (m : Monomial) :
  (match a with ES (SK f) => P f | _ => True end) ->
  valid_array da a -> valid_array db b -> broadcast a b da db d -> list_differences a b = false ->
  (forall i j, i < fst db -> j < snd db -> collected (entry b i j) /\ Forall (fun t => P (m_coeff t)) (terms (entry b i j))) ->
  minus a b = Ok e -> valid_mono m ->
  forall i j, i < fst d -> j < snd d -> collected (bentry a i j) ->
  coefficients m (entry e i j) = subtracted (coefficients m (bentry a i j)) (coefficients m (bentry b i j)).
Proof. intros Na Va Vb HB HL HC E Vm i j Hi Hj Ca. apply (minus_array_terms a b da db d e Na Va Vb HB HL HC E i j Hi Hj Ca). exact Vm. Qed.
End PointMul2.

Section F64.
Let NN := F64Num.
Existing Instance NN.

Lemma SFmul_comm (x y : num) : x * y = y * x.
Proof.
  change (SFmul 53 1024 x y = SFmul 53 1024 y x). destruct x as [a|a| |a m e], y as [b|b| |b n d]; try reflexivity; try (destruct a, b; reflexivity).
  cbn [SFmul]. rewrite (xorb_comm b a), (Pos.mul_comm n m), (Z.add_comm d e). reflexivity.
Qed.
Lemma mul_one_l_F64 (f : num) : float64 f -> n1 * f = f.
Proof. intro H. pose proof sign_laws_F64 as (_ & X & _). exact (X f H). Qed.
Lemma zero_mul_F64 (f : num) : finite64 f -> forall c : num, (c =? n0) = true -> (c * f =? n0) = true.
Proof.
  intros [F1 F2] c Hc. destruct c as [b|b| |b p e]; try discriminate Hc; try (destruct b; discriminate Hc).
  destruct f as [b'|b'| |b' p' e']; try contradiction; destruct b, b'; reflexivity.
Qed.
Lemma opp_F64 (c : num) : float64 c -> float64 (- c).
Proof. change (- c) with (SFopp c). destruct c; exact (fun H => H). Qed.
Lemma zero_F64 (c : num) : (c =? n0) = true -> float64 c.
Proof. destruct c as [b|b| |b p e]; intro H; try discriminate H; try (destruct b; discriminate H). reflexivity. Qed.

Theorem f64_multiply_array (e : expr) (f : num) (g : goval) (d : nat * nat) (e' : expr) (m : Monomial) : finite64 f ->
  valid_array d e -> (forall i j, i < fst d -> j < snd d -> collected (entry e i j)) ->
  means g = Some (ES (SK f)) -> expr_mul e g = Ok e' -> valid_mono m ->
  forall i j, i < fst d -> j < snd d -> coefficients m (entry e' i j) = multiplied (coefficients m (entry e i j)) f.
Proof. intro F. exact (mul_array_coefficients float_laws_F64 SFmul_comm f e g d e' m (mul_one_l_F64 f (proj1 F)) (zero_mul_F64 f F)). Qed.

Theorem f64_minus_array (a b : expr) (da db d : nat * nat) (e : expr) (m : Monomial) :
  valid_array da a -> valid_array db b -> broadcast a b da db d -> list_differences a b = false -> number64 a ->
  (forall i j, i < fst db -> j < snd db -> collected (entry b i j) /\ float64s (entry b i j)) ->
  minus a b = Ok e -> valid_mono m ->
  forall i j, i < fst d -> j < snd d -> collected (bentry a i j) ->
  coefficients m (entry e i j) = subtracted (coefficients m (bentry a i j)) (coefficients m (bentry b i j)).
Proof.
  intros Va Vb HB HL Na HC E Vm. refine (minus_array_coefficients float_laws_F64 one_zero_F64 SFmul_comm float64 sign_laws_F64 opp_F64 zero_F64 mul_one_F64 a b da db d e m _ Va Vb HB HL HC E Vm).
  destruct a as [[k|v|u|p]|v|x]; exact Na || exact I.
Qed.
Theorem f64_minus_method (a b : expr) (g : goval) (da db d : nat * nat) (e : expr) (m : Monomial) :
  valid_array da a -> valid_array db b -> means g = Some b -> broadcast a b da db d -> list_differences a b = false -> number64 a ->
  (forall i j, i < fst db -> j < snd db -> collected (entry b i j) /\ float64s (entry b i j)) ->
  expr_minus a g = Ok e -> valid_mono m ->
  forall i j, i < fst d -> j < snd d -> collected (bentry a i j) ->
  coefficients m (entry e i j) = subtracted (coefficients m (bentry a i j)) (coefficients m (bentry b i j)).
Proof. intros Va Vb Hg HB HL Na HC E. apply (f64_minus_array a b da db d e m Va Vb HB HL Na HC). exact (expr_minus_minus a g b e E Hg). Qed.
Lemma f64_minus_terms (a b : expr) (da db d : nat * nat) (e : expr) :
  valid_array da a -> valid_array db b -> broadcast a b da db d -> list_differences a b = false -> number64 a ->
  (forall i j, i < fst db -> j < snd db -> collected (entry b i j) /\ float64s (entry b i j)) ->
  minus a b = Ok e ->
  forall i j, i < fst d -> j < snd d -> collected (bentry a i j) ->
  (forall m, valid_mono m -> coefficients m (entry e i j) = subtracted (coefficients m (bentry a i j)) (coefficients m (bentry b i j)))
  /\ valid (entry e i j) /\ forall x, In x (terms (entry e i j)) -> is_const x = true \/ formed (terms (bentry a i j) ++ terms (bentry b i j)) x.
Proof.
  intros Va Vb HB HL Na HC E. refine (minus_array_terms float_laws_F64 one_zero_F64 SFmul_comm float64 sign_laws_F64 opp_F64 zero_F64 mul_one_F64 a b da db d e _ Va Vb HB HL HC E).
  destruct a as [[k|v|u|p]|v|x]; exact Na || exact I.
Qed.
Lemma f64_multiply_forms (e : expr) (f : num) (g : goval) (d : nat * nat) (e' : expr) : float64 f ->
  valid_array d e -> (forall i j, i < fst d -> j < snd d -> collected (entry e i j)) -> means g = Some (ES (SK f)) -> expr_mul e g = Ok e' ->
  forall i j, i < fst d -> j < snd d -> valid (entry e' i j) /\ forall x, In x (terms (entry e' i j)) -> is_const x = true \/ formed (terms (entry e i j)) x.
Proof.
  intros F V C Hg E i j Hi Hj. pose proof (mul_array float_laws_F64 SFmul_comm f e g d e' (mul_one_l_F64 f F) V C Hg E) as A. destruct (arr_entry _ _ _ _ _ A Hi Hj) as (Ve & [_ K] & _).
  split; assumption.
Qed.
End F64.
