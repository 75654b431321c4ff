(** * Runs of programs over vectors and matrices with short coefficients *)

From Coq Require Import ZArith NArith Bool List Lia.
From Coq Require Import QArith Qcanon.
From Coq.Floats Require Import SpecFloat.
From Verif Require Import Num Syntax ModelScalar Spec Base SpecProg SpecExact FloatExact FloatSim FloatRun FloatOps FloatLin FloatProg ModelShape ModelArith SpecArr Arr ArrMulTop ArrTop ArrPow ArrFacts SpecAProg ModelAProg AProgProofs AProgTop
  SpecExactArr FloatArr FloatArrPlus FloatArrMul FloatAProg.
Import ListNotations.
Local Open Scope Z_scope.

(** ** Arrays in the words of the specification *)
Lemma ax_rows k n e : ax k n e <-> Forall (Forall (sc k n)) (rows e).
Proof.
  destruct e as [s|v|m]; cbn [ax].
  - cbn [rows]. split; [intro H; repeat constructor; exact H | intro H; inversion H as [|? ? H1 _]; subst; inversion H1; assumption].
  - unfold av. rewrite rows_EV, Forall_map. split; intro H; (eapply Forall_impl; [|exact H]); cbn beta; intros s Hs; [repeat constructor; exact Hs | inversion Hs; assumption].
  - destruct m; reflexivity.
Qed.
Lemma short_array_ax k n e : 0 <= k <= 1000 -> n <= 2 ^ 53 -> short_array k n e -> ax k n e.
Proof. intros Hk Hn H. apply ax_rows. eapply Forall_impl; [|exact H]. intros r Hr. eapply Forall_impl; [|exact Hr]. intros s. apply short_sc; assumption. Qed.
Lemma ax_short_array k n e : 0 <= k -> ax k n e -> short_array k n e.
Proof. intros Hk H. apply ax_rows in H. eapply Forall_impl; [|exact H]. intros r Hr. eapply Forall_impl; [|exact Hr]. intros s. apply sc_short; assumption. Qed.
Lemma sim_same_array k n x y : 0 <= k -> sim rx (ax k n) x y -> same_array k n x y.
Proof. intros Hk H. destruct x as [s|p]; [|exact H]. destruct H as [H E]. split; [apply ax_short_array; assumption | exact E]. Qed.

Lemma ax_to k n e k' : 0 <= k -> k <= k' -> ax k n e -> ax k' (n * 2 ^ (k' - k)) e.
Proof. intros Hk Hk' H. replace k' with (k + (k' - k)) at 1 by lia. apply ax_regrid; [lia | lia | exact H]. Qed.

(** ** Leaves *)
Lemma written_nonneg c : 0 <= fst (written c) /\ 0 <= snd (written c).
Proof. destruct c as [s|s| |s m e]; cbn [written fst snd]; try lia. pose proof (shortest_value m e) as H. destruct (shortest m e) as [z k]. cbn [fst snd]. lia. Qed.
Lemma fold_max_in l x : In x l -> x <= fold_right Z.max 0 l.
Proof. induction l as [|y l IH]; intros []; cbn [fold_right]; [lia | specialize (IH H); lia]. Qed.
Lemma fold_max_nonneg l : 0 <= fold_right Z.max 0 l.
Proof. induction l; cbn [fold_right]; lia. Qed.

Lemma leaf_scalar k s : k <= 1000 -> scalar_bits s <= k -> scalar_weight k s <= top -> finite_numeric s -> sc k (scalar_weight k s) s.
Proof.
  intros Hk Hb Hw HF. assert (0 <= k) by (eapply Z.le_trans; [apply fold_max_nonneg | exact Hb]). apply sc_pol; [assumption|]. unfold scalar_bits, scalar_weight, finite_numeric in *. rewrite top_eq in Hw.
  induction (terms s) as [|m l IH]; cbn [map fold_right] in *; [apply pol_nil; lia|].
  assert (N : 0 <= fold_right Z.add 0 (map (fun m0 : @Monomial F64Num => fst (written (m_coeff m0)) * 2 ^ (k - snd (written (m_coeff m0)))) l)).
  { clear. induction l as [|x l IH]; cbn [map fold_right]; [lia|]. pose proof (written_nonneg (m_coeff x)). assert (0 <= 2 ^ (k - snd (written (m_coeff x)))) by (apply Z.pow_nonneg; lia). nia. }
  destruct (HF m (or_introl eq_refl)) as (H1 & H2 & H3). destruct (written_nonneg (m_coeff m)) as [W1 W2].
  set (z := fst (written (m_coeff m))) in *. set (j := snd (written (m_coeff m))) in *. set (rest := fold_right Z.add 0 _) in *. set (rb := fold_right Z.max 0 _) in *.
  assert (P : 1 <= 2 ^ (k - j)) by (change 1 with (Z.succ 0); apply Z.le_succ_l; apply Z.pow_pos_nonneg; lia).
  assert (S : sc j z (@SK F (m_coeff m))) by (apply written_short; [exact H2 | exact H3 | lia | change (z <= 2 ^ 53); nia]).
  apply (sc_to j z _ k) in S; [|lia|lia]. destruct S as (y & Gy & Ly).
  eapply (pol_cons k m y l rest); [split; assumption | apply IH; [lia | nia | intros m0 Hm0; apply HF; right; exact Hm0] | lia].
Qed.

Lemma leaf_ax e : leaf_bits e <= 1000 -> leaf_weight e <= 2 ^ 53 -> Forall (Forall finite_numeric) (rows e) -> ax (leaf_bits e) (leaf_weight e) e.
Proof.
  intros Hb Hw HF. apply ax_rows. apply Forall_forall. intros row Hr. apply Forall_forall. intros s Hs. rewrite Forall_forall in HF. specialize (HF row Hr). rewrite Forall_forall in HF. specialize (HF s Hs).
  assert (C : In s (concat (rows e))) by (apply in_concat; eauto).
  assert (B : scalar_bits s <= leaf_bits e) by (apply fold_max_in, in_map, C). assert (W : scalar_weight (leaf_bits e) s <= leaf_weight e) by (apply fold_max_in; apply (in_map (scalar_weight (leaf_bits e))); exact C).
  apply (sc_raise _ (scalar_weight (leaf_bits e) s)); [exact W|]. apply leaf_scalar; [exact Hb | exact B | rewrite top_eq; lia | exact HF].
Qed.

(** ** Programs *)
Lemma abits_nonneg p : 0 <= abits p.
Proof. induction p; cbn [abits]; try lia. - apply fold_max_nonneg. Qed.
Lemma aweight_nonneg p : 0 <= aweight p.
Proof.
  assert (P : forall x, 0 <= 2 ^ x) by (intro; apply Z.pow_nonneg; lia).
  induction p; cbn [aweight]; try assumption.
  - apply fold_max_nonneg.
  - apply Z.add_nonneg_nonneg; apply Z.mul_nonneg_nonneg; auto.
  - apply Z.add_nonneg_nonneg; apply Z.mul_nonneg_nonneg; auto.
  - apply Z.mul_nonneg_nonneg; [unfold inner; destruct (_ || _); lia | apply Z.mul_nonneg_nonneg; assumption].
  - apply Z.pow_nonneg. lia.
  - apply Z.max_le_iff. left. apply Z.mul_nonneg_nonneg; auto.
  - apply Z.max_le_iff. left. apply Z.mul_nonneg_nonneg; auto.
Qed.
Lemma afits_head p : afits p -> 0 <= abits p <= 1000 /\ 0 <= aweight p <= top.
Proof. intro H. pose proof (everywhere_here _ _ H) as (H1 & H2 & _). pose proof (abits_nonneg p). pose proof (aweight_nonneg p). rewrite top_eq. lia. Qed.

Lemma scalar_dims_one d : scalar_dims d = true -> d = one_one.
Proof. unfold scalar_dims, same_dims. intro H. apply andb_true_iff in H. destruct H as [A B]. apply Nat.eqb_eq in A, B. destruct d. cbn in *. unfold one_one. congruence. Qed.

Lemma arun_power_sim k nb d n e : 0 <= k -> ax k nb e -> 0 <= nb <= top -> @valid_array F d e -> (d = one_one -> is_scalar e) -> Z.of_nat n * k <= 1000 -> (Z.of_nat (fst d) * nb) ^ Z.of_nat n <= top ->
  sim rx (ax (Z.of_nat n * k) ((Z.of_nat (fst d) * nb) ^ Z.of_nat n)) (@expr_power F e (Z.of_nat n)) (@expr_power G (rx e) (Z.of_nat n)).
Proof.
  intros Hk He Hnb V S Hs Ht. pose proof V as (D1 & D2 & _). destruct e as [s|v|m]; cbn [expr_power exact_expr ax] in *.
  - rewrite (valid_array_ES _ _ V) in *. cbn [fst] in *. change (Z.of_nat 1) with 1 in *. rewrite Z.mul_1_l in *. apply sim_as_ES. apply power_sim; try assumption; lia.
  - apply sim_as_ES. assert (L : nb ^ Z.of_nat n <= (Z.of_nat (fst d) * nb) ^ Z.of_nat n) by (apply Z.pow_le_mono_l; nia).
    eapply sim_weak; [intros s Hs'; exact (sc_raise _ _ _ _ L Hs')|]. apply vec_power_sim; try assumption; lia.
  - apply sim_as_EM. destruct d as [a b]. cbn [fst snd] in *. destruct (Nat.eq_dec a b) as [<-|N].
    + apply mat_power_sim; try assumption. destruct (Nat.eq_dec a 1) as [->|]; [destruct (S eq_refl) | lia].
    + destruct (valid_array_check _ _ V) as [C D]. cbn [expr_check expr_dims] in C, D. unfold mat_power. rewrite (mat_check_sim k nb m He), (mat_dims_sim k nb m He), C, D. cbn [check bind fst snd].
      destruct (Nat.eqb_spec a b); [contradiction | reflexivity].
Qed.

Lemma arun_sim p : @proper_leaves F p -> afits p -> sim rx (ax (abits p) (aweight p)) (@arun F p) (@arun G (exact_aprog p)).
Proof.
  induction p as [e|a IHa b IHb|a IHa b IHb|a IHa b IHb|a IHa n|a IHa|a IHa|a IHa b IHb|a IHa b IHb]; intros W FI; pose proof (afits_head _ FI) as [K B]; cbn [arun exact_aprog];
    unfold proper_leaves, afits in W, FI; cbn [everywhere] in W, FI; destruct W as [W0 W], FI as [F0 FI]; unfold afits_here in F0; cbn [abits aweight] in *.
  - destruct F0 as (F1 & F2 & F3). apply sim_ok; [|reflexivity]. apply leaf_ax; assumption.
  - destruct FI as [F1 F2], W as [W1 W2]. destruct (afits_head _ F1) as [Ka Ba], (afits_head _ F2) as [Kb Bb]. set (k := Z.max (abits a) (abits b)) in *.
    assert (0 <= 2 ^ (k - abits a)) by (apply Z.pow_nonneg; lia). assert (0 <= 2 ^ (k - abits b)) by (apply Z.pow_nonneg; lia).
    eapply sim_bind; [apply IHa; assumption|]. intros x Hx. cbn beta. eapply sim_bind; [apply IHb; assumption|]. intros y Hy. cbn beta.
    apply expr_plus_sim with (g := GExpr y); [exact K | nia | nia | apply B | apply ax_to; [lia | lia | exact Hx] | apply ax_to; [lia | lia | exact Hy]].
  - destruct FI as [F1 F2], W as [W1 W2]. destruct (afits_head _ F1) as [Ka Ba], (afits_head _ F2) as [Kb Bb]. set (k := Z.max (abits a) (abits b)) in *.
    assert (0 <= 2 ^ (k - abits a)) by (apply Z.pow_nonneg; lia). assert (0 <= 2 ^ (k - abits b)) by (apply Z.pow_nonneg; lia).
    eapply sim_bind; [apply IHa; assumption|]. intros x Hx. cbn beta. eapply sim_bind; [apply IHb; assumption|]. intros y Hy. cbn beta.
    apply expr_minus_sim with (g := GExpr y); [exact K | nia | nia | apply B | apply ax_to; [lia | lia | exact Hx] | apply ax_to; [lia | lia | exact Hy]].
  - destruct FI as [F1 F2], W as [W1 W2]. destruct (afits_head _ F1) as [Ka Ba], (afits_head _ F2) as [Kb Bb].
    eapply sim_bind; [apply sim_keep, IHa; assumption|]. intros x [Hx Ex]. cbn beta. eapply sim_bind; [apply sim_keep, IHb; assumption|]. intros y [Hy Ey]. cbn beta.
    destruct (@arun_dims F a x W1 Ex) as (da & Da & Va & Sa). destruct (@arun_dims F b y W2 Ey) as (db & Db & Vb & Sb).
    unfold inner, dims_of in *. rewrite Da, Db in *. set (w := if scalar_dims da || scalar_dims db then 1 else Z.of_nat (snd da)) in *.
    assert (Hw : 1 <= w) by (unfold w; destruct (_ || _); [lia | destruct Va as (_ & D2 & _); lia]).
    apply (expr_mul_sim (abits a) (aweight a) (abits b) (aweight b) w) with (g := GExpr y); try lia; try assumption.
    intro AY. destruct x as [s|v|m]; try exact I. intros d Ed. destruct (valid_array_check _ _ Va) as [_ D]. cbn [expr_dims] in D. rewrite D in Ed. injection Ed as <-.
    unfold w. destruct (scalar_dims da) eqn:Xa; [apply scalar_dims_one in Xa; destruct (Sa Xa)|]. destruct (scalar_dims db) eqn:Xb; [|cbn [orb]; lia].
    apply scalar_dims_one in Xb. destruct y; [discriminate | destruct (Sb Xb) | destruct (Sb Xb)].
  - destruct (afits_head _ FI) as [Ka Ba]. eapply sim_bind; [apply sim_keep, IHa; assumption|]. intros x [Hx Ex]. cbn beta. destruct (@arun_dims F a x W Ex) as (da & Da & Va & Sa).
    unfold dims_of in *. rewrite Da in *. apply arun_power_sim; try assumption; lia.
  - eapply sim_bind; [apply IHa; assumption|]. intros x Hx. cbn beta. apply expr_transpose_sim. exact Hx.
  - eapply sim_bind; [apply IHa; assumption|]. intros x Hx. cbn beta. apply expr_simplified_sim; [exact K | apply B | exact Hx].
  - destruct FI as [F1 F2], W as [W1 W2]. destruct (afits_head _ F1) as [Ka Ba], (afits_head _ F2) as [Kb Bb]. set (k := Z.max (abits a) (abits b)) in *.
    eapply sim_bind; [apply IHa; assumption|]. intros x Hx. cbn beta. eapply sim_bind; [apply IHb; assumption|]. intros y Hy. cbn beta.
    apply (hstack_sim k _ [x; y]); [lia|]. repeat constructor; (eapply ax_le; [apply ax_to; [| |eassumption]; lia | lia]).
  - destruct FI as [F1 F2], W as [W1 W2]. destruct (afits_head _ F1) as [Ka Ba], (afits_head _ F2) as [Kb Bb]. set (k := Z.max (abits a) (abits b)) in *.
    eapply sim_bind; [apply IHa; assumption|]. intros x Hx. cbn beta. eapply sim_bind; [apply IHb; assumption|]. intros y Hy. cbn beta.
    apply (vstack_sim k _ [x; y]); [lia|]. repeat constructor; (eapply ax_le; [apply ax_to; [| |eassumption]; lia | lia]).
Qed.
