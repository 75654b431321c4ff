(** * The values of the entries of products of float64 matrices, against the exact ones *)

From Coq Require Import ZArith NArith Bool List Lia Reals Lra Floats.SpecFloat.
From Verif Require Import Num NumR Syntax ModelScalar ModelShape ModelArith Spec SpecConv SpecEffect SpecArr SpecEffectArr SpecRound SpecPoint SpecMat SpecAccuracy Base ScalarValid Eval ScalarOps ScalarMore ScalarNorm ScalarFacts Arr ArrFacts Effect FloatExact Round PointProd AccFloat Accuracy Accuracy2 Accuracy3 Accuracy4 Accuracy5 Accuracy6 Accuracy7.
Import ListNotations.
Local Open Scope R_scope.

Section Acc.
Let NN := F64Num.
Existing Instance NN.

Lemma parts_finite l : forall a s, valid a -> collected a -> float64s a -> Forall valid l -> Forall collected l -> Forall float64s l -> sum_up a l = Ok s -> finite64s s -> Forall finite64s l.
Proof.
  induction l as [|x l IH]; intros a s Va Ca Fa Vl Cl Fl E HF; [constructor|]. cbn [sum_up] in E.
  apply Forall_cons_iff in Vl as [Vx Vl]. apply Forall_cons_iff in Cl as [Cx Cl]. apply Forall_cons_iff in Fl as [Fx Fl].
  destruct (scalar_plus a x) as [b|] eqn:Eb; [|discriminate]. cbn [bind] in E.
  destruct (plus_total a x Va Vx) as (b' & E' & Vb & Nb). assert (b' = b) by congruence. subst b'.
  assert (Cb : collected b) by (apply normal_collected; exact Nb). assert (Fb : float64s b) by (apply (float_sum a x b); assumption).
  constructor; [|exact (IH b s Vb Cb Fb Vl Cl Fl E HF)]. apply (finite_back_r a x b); try assumption. exact (sum_finite l b s Vb Cb Fb Vl Cl Fl E HF).
Qed.

Lemma total_le {A} (f g : A -> R) l : (forall x, In x l -> f x <= g x) -> total (map f l) <= total (map g l).
Proof. induction l as [|x l IH]; intro H; cbn [map total]; [lra|]. assert (f x <= g x) by (apply H; left; reflexivity). assert (total (map f l) <= total (map g l)) by (apply IH; intros y Hy; apply H; right; exact Hy). lra. Qed.
Lemma total_nth (g : scalar -> R) (ts : list scalar) : total (map g ts) = total (map (fun k => g (nth k ts (SK n0))) (seq 0 (length ts))).
Proof.
  induction ts as [|t ts IH]; [reflexivity|]. cbn [length seq map total nth]. rewrite <- seq_shift, map_map. f_equal. exact IH.
Qed.
Lemma sum_nth r p F (ts : list scalar) n : length ts = n -> Rabs (F - (0 + values r ts)) <= (p ^ length ts - 1) * (0 + sizes r ts) ->
  Rabs (F - total (map (fun k => value64 r (nth k ts (SK n0))) (seq 0 n))) <= (p ^ n - 1) * total (map (fun k => size64 r (nth k ts (SK n0))) (seq 0 n)).
Proof. intros <- H. rewrite !Rplus_0_l in H. unfold values, sizes in H. rewrite !total_nth in H. exact H. Qed.

(** [n] parts, each near its exact value: so is their sum *)
Lemma parts_bound (p : R) (l : list nat) (v e s m q : nat -> R) F x : 1 <= p -> (forall k, In k l -> 1 <= x k /\ Rabs (v k - e k) <= (x k - 1) * m k + x k * tiny64 * q k /\ s k <= x k * m k + x k * tiny64 * q k) ->
  Rabs (F - total (map v l)) <= (p - 1) * total (map s l) ->
  Rabs (F - total (map e l)) <= total (map (fun k => (p * x k - 1) * m k + p * x k * tiny64 * q k) l).
Proof.
  intros Hp H HF.
  assert (G : Rabs (total (map v l) - total (map e l)) + (p - 1) * total (map s l) <= total (map (fun k => (p * x k - 1) * m k + p * x k * tiny64 * q k) l)).
  { clear HF. induction l as [|k l IH]; cbn [map total]; [unfold Rminus; rewrite Rplus_opp_r, Rabs_R0; lra|].
    destruct (H k) as (X & W1 & W2); [left; reflexivity|]. assert (I := IH (fun y Hy => H y (or_intror Hy))).
    replace (v k + total (map v l) - (e k + total (map e l))) with ((v k - e k) + (total (map v l) - total (map e l))) by ring.
    pose proof (Rabs_triang (v k - e k) (total (map v l) - total (map e l))) as T.
    assert (I1 : (p - 1) * s k <= (p - 1) * (x k * m k + x k * tiny64 * q k)) by (apply Rmult_le_compat_l; [lra | exact W2]).
    assert (I2 : (x k - 1) * m k + x k * tiny64 * q k + (p - 1) * (x k * m k + x k * tiny64 * q k) = (p * x k - 1) * m k + p * x k * tiny64 * q k) by ring. lra. }
  replace (F - total (map e l)) with ((F - total (map v l)) + (total (map v l) - total (map e l))) by ring.
  pose proof (Rabs_triang (F - total (map v l)) (total (map v l) - total (map e l))) as T. lra.
Qed.

Theorem acc_product_array r (a b e : expr) (da db : (nat * nat)%type) (i j : nat) : valid_array da a -> valid_array db b -> snd da = fst db -> row_by_row a b da -> expr_mul a (GExpr b) = Ok e ->
  (i < fst da)%nat -> (j < snd db)%nat -> (forall k, (k < snd da)%nat -> float64s (entry a i k) /\ float64s (entry b k j)) ->
  unambiguous_exponents (fun f => exists k, (k < snd da)%nat /\ product_terms (entry a i k) (entry b k j) f) -> finite64s (entry e i j) ->
  Rabs (value64 r (entry e i j) - total (map (fun k => value64 r (entry a i k) * value64 r (entry b k j)) (seq 0 (snd da))))
  <= total (map (fun k => ((1 + unit64) ^ (snd da + (length (terms (entry a i k)) + length (terms (entry b k j)))) - 1) * (size64 r (entry a i k) * size64 r (entry b k j))
                        + (1 + unit64) ^ (snd da + (length (terms (entry a i k)) + length (terms (entry b k j)))) * tiny64 * (spread64 r (entry a i k) * spread64 r (entry b k j))) (seq 0 (snd da))).
Proof.
  intros Va Vb E HR Ee Hi Hj HF HU Hfin. destruct (f64_product_entries a b da db Va Vb E HR) as (e' & Ee' & _ & HP). assert (X0 : Ok e = Ok e') by exact (eq_trans (eq_sym Ee) Ee'). injection X0 as X0. subst e'.
  destruct (HP i j Hi Hj) as (ts & s & Lt & Ht & Es & S). assert (EQ : value64 r (entry e i j) = value64 r s) by exact (same_terms_value r _ _ S). rewrite EQ. clear EQ. apply (same_terms_finite _ _ S) in Hfin. clear S HP.
  pose proof (valid_array_arr da _ Va) as Ha. pose proof (valid_array_arr db _ Vb) as Hb. set (n := snd da) in *.
  assert (HV : forall k, (k < n)%nat -> valid (entry a i k) /\ valid (entry b k j)).
  { intros k Hk. split; [exact (proj2 (arr_entry _ _ a i k Ha Hi Hk)) | refine (proj2 (arr_entry _ _ b k j Hb _ Hj)); subst n; lia]. }
  clear Ha Hb Va Vb HR Ee. set (A := fun k => entry a i k) in *. set (B := fun k => entry b k j) in *.
  assert (N : forall k, (k < n)%nat -> collected (nth k ts (SK n0)) /\ product_near r (terms (A k)) (terms (B k)) (length (terms (A k)) + length (terms (B k))) (nth k ts (SK n0))).
  { intros k Hk. destruct (HV k Hk) as [V1 V2]. destruct (HF k Hk) as [F1 F2]. specialize (Ht k Hk). split.
    - destruct (mul_total _ _ V1 V2) as (t & Et & _ & C). assert (X : Ok t = Ok (nth k ts (SK n0))) by exact (eq_trans (eq_sym Et) Ht). injection X as X1. exact (eq_ind t (fun z => collected z) C _ X1).
    - apply product_of_near; try assumption. apply product_terms_unambiguous. intros m1 m2 (G1 & f1 & G2 & G3) (G4 & f2 & G5 & G6). apply HU; (split; [assumption|]); [exists f1 | exists f2]; (split; [exists k; split; assumption | assumption]). }
  assert (NL : forall t, In t ts -> exists k, (k < n)%nat /\ t = nth k ts (SK n0)).
  { intros t It. apply (In_nth ts t (SK n0)) in It as (k & Hk & <-). exists k. split; [lia | reflexivity]. }
  assert (Vl : Forall valid ts) by (apply Forall_forall; intros t It; destruct (NL t It) as (k & Hk & ->); apply (N k Hk)).
  assert (Cl : Forall collected ts) by (apply Forall_forall; intros t It; destruct (NL t It) as (k & Hk & ->); apply (N k Hk)).
  assert (Fl : Forall float64s ts) by (apply Forall_forall; intros t It; destruct (NL t It) as (k & Hk & ->); apply (N k Hk)).
  assert (V0 : valid (SK n0)) by exact I. assert (F0 : float64s (SK n0)) by (constructor; [reflexivity | constructor]).
  assert (C0 : collected (SK n0)) by (apply normal_collected; exact I).
  assert (HC : coherent (terms (SK n0) ++ concat (map terms ts))).
  { assert (Z : forall m, In m (terms (SK n0) ++ concat (map terms ts)) -> (valid_mono m /\ is_const m = true) \/ exists k, (k < n)%nat /\ product_of (terms (A k)) (terms (B k)) m).
    { intros m Hm. apply in_app_iff in Hm as [[<-|[]]|Hm]; [left; split; [apply valid_mono_k | reflexivity]|]. apply in_concat in Hm as (l & Hl & Hm). apply in_map_iff in Hl as (t & <- & It).
      destruct (NL t It) as (k & Hk & ->). destruct (N k Hk) as (_ & _ & _ & Q & _). destruct (Q m Hm) as [C|C]; [left; exact C | right; exists k; split; assumption]. }
    intros m1 m2 H1 H2 HL. pose proof (const_like _ _ HL) as K. destruct (Z m1 H1) as [[_ C1]|(k1 & K1 & G1 & x1 & y1 & D1 & D2 & D3)], (Z m2 H2) as [[_ C2]|(k2 & K2 & G2 & x2 & y2 & D4 & D5 & D6)];
      try (apply const_powers; congruence).
    apply HU; try assumption; (split; [assumption|]).
    - exists (fun u => (exponent x1 u + exponent y1 u)%Z). split; [exists k1; split; [exact K1|]; exists x1, y1; auto | exact D3].
    - exists (fun u => (exponent x2 u + exponent y2 u)%Z). split; [exists k2; split; [exact K2|]; exists x2, y2; auto | exact D6]. }
  assert (HFt : Forall finite64s ts) by exact (parts_finite ts (SK n0) s V0 C0 F0 Vl Cl Fl Es Hfin).
  pose proof (acc_sum_coherent r ts (SK n0) s V0 C0 F0 Vl Cl Fl HC Es Hfin) as W.
  assert (Z1 : value64 r (SK n0) = 0) by (unfold value64; cbn; unfold real64; cbn; ring). assert (Z2 : size64 r (SK n0) = 0) by (unfold size64; cbn; unfold real64; cbn; rewrite Rmult_0_l, Rabs_R0; ring).
  rewrite Z1, Z2 in W. apply (sum_nth r (1 + unit64) (value64 r s) ts n Lt) in W.
  pose proof (parts_bound ((1 + unit64) ^ n) (seq 0 n) (fun k => value64 r (nth k ts (SK n0))) (fun k => value64 r (A k) * value64 r (B k)) (fun k => size64 r (nth k ts (SK n0)))
    (fun k => size64 r (A k) * size64 r (B k)) (fun k => spread64 r (A k) * spread64 r (B k)) (value64 r s) (fun k => (1 + unit64) ^ (length (terms (A k)) + length (terms (B k)))) (pow_unit n)) as P.
  eapply Rle_trans; [apply P; [|exact W]|].
  - intros k Hk. apply in_seq in Hk. assert (Hk' : (k < n)%nat) by lia. split; [apply pow_unit|]. destruct (N k Hk') as (_ & _ & _ & _ & Q). apply Q.
    rewrite Forall_forall in HFt. apply HFt. apply nth_In. lia.
  - apply total_le. intros k _. rewrite (pow_add (1 + unit64) n). apply Rle_refl.
Qed.
End Acc.
