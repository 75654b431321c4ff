(** * The derivative of a float64 expression, against the exact one *)

From Coq Require Import ZArith NArith Bool List Lia Reals Lra Floats.SpecFloat.
From Flocq Require Import Core.Core IEEE754.BinarySingleNaN Relative.
From Verif Require Import Num NumR Syntax ModelScalar Spec SpecEffect SpecRound SpecAccuracy Base ScalarValid Eval AccFloat Accuracy Accuracy2 Accuracy5 Accuracy6.
Import ListNotations.
Local Open Scope R_scope.

(** ** conversion of an integer *)
Lemma nofZ_float (z : Z) : float64 (@nofZ F64Num z).
Proof. cbn [nofZ F64Num]. change 53%Z with prec64. change 1024%Z with emax64. rewrite normalize_equiv. apply valid_binary_B2SF. Qed.
Lemma nofZ_real (z : Z) : finite64 (@nofZ F64Num z) -> Rabs (real64 (@nofZ F64Num z) - IZR z) <= unit64 * Rabs (IZR z).
Proof.
  intro HF. cbn [nofZ F64Num] in *. change 53%Z with prec64 in *. change 1024%Z with emax64 in *. rewrite normalize_equiv in HF |- *.
  pose proof (binary_normalize_correct prec64 emax64 Hprec64 Hemax64 mode_NE z 0 false) as C. cbv zeta in C. rewrite B2SF_real.
  assert (FR : F2R (Float radix2 z 0) = IZR z) by (unfold F2R; cbn; ring). rewrite FR in C. destruct (Rlt_bool (Rabs _) (bpow radix2 emax64)) in C.
  - destruct C as (C & _ & _). eapply Rle_trans; [apply Req_le; apply (f_equal (fun x => Rabs (x - IZR z))); exact C|].
    destruct (Z.eq_dec z 0) as [->|NZ]; [rewrite round_0 by apply valid_rnd_round_mode; unfold Rminus; rewrite Rplus_opp_r, !Rabs_R0, Rmult_0_r; apply Rle_refl|].
    rewrite unit64_u. change (round radix2 (SpecFloat.fexp prec64 emax64) (round_mode mode_NE) (IZR z)) with (round radix2 (FLT_exp (SpecFloat.emin prec64 emax64) prec64) (Znearest (fun z => negb (Z.even z))) (IZR z)).
    apply (relative_error_N_FLT radix2 (SpecFloat.emin prec64 emax64) prec64 eq_refl).
    rewrite <- abs_IZR. apply Rle_trans with 1; [change 1 with (bpow radix2 0); apply bpow_le; cbn; lia | apply IZR_le; lia].
  - exfalso. rewrite C in HF. exact (proj2 HF).
Qed.

Section Acc.
Let NN := F64Num.
Existing Instance NN.

(** ** the slope is the derivative *)
Lemma at64_same r i : forall j, at64 r i (r i) j = r j.
Proof. intro j. unfold at64. destruct (N.eqb_spec j i) as [->|]; reflexivity. Qed.
Lemma powers64_ext r r' vs : (forall j, r j = r' j) -> forall es, powers64 r vs es = powers64 r' vs es.
Proof. intro H. induction vs as [|v vs IH]; intros [|e es]; cbn [powers64]; try reflexivity. rewrite IH, H. reflexivity. Qed.
Lemma slopes_limit r i vs : forall es, derivable_pt_lim (fun x => powers64 (at64 r i x) vs es) (r i) (slopes64 r i vs es).
Proof.
  induction vs as [|v vs IH]; intros [|e es]; cbn [powers64 slopes64]; try apply derivable_pt_lim_const.
  assert (D : derivable_pt_lim (fun x : R => at64 r i x (v_id v) ^ Z.to_nat e)%R (r i) (if N.eqb (v_id v) i then INR (Z.to_nat e) * r (v_id v) ^ Nat.pred (Z.to_nat e) else 0)).
  { unfold at64. destruct (N.eqb_spec (v_id v) i) as [->|]; [apply derivable_pt_lim_pow | apply derivable_pt_lim_const]. }
  pose proof (derivable_pt_lim_mult _ _ _ _ _ D (IH es)) as M. cbv beta in M. pose proof (at64_same r i (v_id v)) as A. rewrite A in M.
  rewrite (powers64_ext (at64 r i (r i)) r vs (at64_same r i) es) in M. exact M.
Qed.
Lemma slope_limit r i t (c : R) : derivable_pt_lim (fun x => c * factors64 (at64 r i x) t) (r i) (c * slope64 r i t).
Proof. apply derivable_pt_lim_scal. apply slopes_limit. Qed.
Lemma value_limit r i s : derivable_pt_lim (fun x => value64 (at64 r i x) s) (r i) (total (map (fun t => real64 (m_coeff t) * slope64 r i t) (terms s))).
Proof.
  unfold value64. induction (terms s) as [|t l IH]; cbn [map total]; [apply derivable_pt_lim_const|].
  apply (derivable_pt_lim_plus (fun x => real64 (m_coeff t) * factors64 (at64 r i x) t)); [apply slope_limit | exact IH].
Qed.

(** ** one term *)
Lemma slopes_absent r i vs : ~ In i (map v_id vs) -> forall es, slopes64 r i vs es = 0.
Proof.
  induction vs as [|v vs IH]; intros H [|e es]; cbn [slopes64]; try reflexivity. cbn in H.
  rewrite IH by tauto. destruct (N.eqb_spec (v_id v) i); [tauto|]. ring.
Qed.
Lemma slopes_at r vs : forall es k x e, NoDup (map v_id vs) -> nth_error vs k = Some x -> nth_error es k = Some e ->
  slopes64 r (v_id x) vs es = INR (Z.to_nat e) * r (v_id x) ^ Nat.pred (Z.to_nat e) * powers64 r (remove_nth k vs) (remove_nth k es).
Proof.
  induction vs as [|v vs IH]; intros es k x e ND Hx He; [destruct k; discriminate|]. destruct es as [|e0 es]; [destruct k; discriminate|].
  cbn in ND. apply NoDup_cons_iff in ND as [N1 ND]. destruct k as [|k]; cbn [nth_error] in Hx, He.
  - injection Hx as ->. injection He as ->. cbn [slopes64 remove_nth]. rewrite N.eqb_refl, slopes_absent by exact N1. ring.
  - cbn [slopes64 remove_nth powers64]. rewrite (IH es k x e ND Hx He). destruct (N.eqb_spec (v_id v) (v_id x)) as [E|]; [|ring].
    exfalso. apply N1. rewrite E. apply in_map. exact (nth_error_In _ _ Hx).
Qed.
Lemma powers_set r vs : forall es k x e e', nth_error vs k = Some x -> nth_error es k = Some e ->
  powers64 r vs (set_nth k e' es) = r (v_id x) ^ Z.to_nat e' * powers64 r (remove_nth k vs) (remove_nth k es).
Proof.
  induction vs as [|v vs IH]; intros es k x e e' Hx He; [destruct k; discriminate|]. destruct es as [|e0 es]; [destruct k; discriminate|].
  destruct k as [|k]; cbn [nth_error] in Hx, He; cbn [set_nth powers64 remove_nth].
  - injection Hx as ->. reflexivity.
  - rewrite (IH es k x e e' Hx He). ring.
Qed.

Definition twice64 : R := (1 + unit64) ^ 2 - 1.
Lemma twice64_pos : 0 <= twice64.
Proof. unfold twice64. pose proof (pow_unit 2). lra. Qed.
Lemma product_bound (q c E ce : R) : Rabs (ce - E) <= unit64 * Rabs E -> Rabs (q - c * ce) <= unit64 * Rabs (c * ce) + tiny64 -> Rabs (q - c * E) <= twice64 * Rabs (c * E) + tiny64.
Proof.
  intros H1 H2. pose proof unit64_pos as U. replace (q - c * E) with ((q - c * ce) + c * (ce - E)) by ring. eapply Rle_trans; [apply Rabs_triang|]. rewrite Rabs_mult.
  assert (B : Rabs (c * ce) <= (1 + unit64) * Rabs (c * E)).
  { rewrite !Rabs_mult. assert (T : Rabs ce <= (1 + unit64) * Rabs E). { pose proof (Rabs_triang (ce - E) E) as T. replace (ce - E + E) with ce in T by ring. lra. }
    replace ((1 + unit64) * (Rabs c * Rabs E)) with (Rabs c * ((1 + unit64) * Rabs E)) by ring. apply Rmult_le_compat_l; [apply Rabs_pos | exact T]. }
  assert (B1 : unit64 * Rabs (c * ce) <= unit64 * ((1 + unit64) * Rabs (c * E))) by (apply Rmult_le_compat_l; assumption).
  assert (B2 : Rabs c * Rabs (ce - E) <= unit64 * Rabs (c * E)).
  { rewrite Rabs_mult. replace (unit64 * (Rabs c * Rabs E)) with (Rabs c * (unit64 * Rabs E)) by ring. apply Rmult_le_compat_l; [apply Rabs_pos | exact H1]. }
  unfold twice64. replace ((1 + unit64) ^ 2 - 1) with (unit64 * (1 + unit64) + unit64) by ring. lra.
Qed.
Lemma scale_bound (q c E f : R) : 1 <= E -> Rabs (q - c * E) <= twice64 * Rabs (c * E) + tiny64 -> Rabs (q * f - c * (E * f)) <= twice64 * Rabs (c * (E * f)) + tiny64 * Rabs (E * f).
Proof.
  intros E1 B. replace (q * f - c * (E * f)) with ((q - c * E) * f) by ring. rewrite Rabs_mult.
  replace (c * (E * f)) with ((c * E) * f) by ring. rewrite (Rabs_mult (c * E) f), (Rabs_mult E f).
  assert (E2 : 1 <= Rabs E) by (rewrite Rabs_pos_eq; lra).
  assert (B3 : Rabs (q - c * E) * Rabs f <= (twice64 * Rabs (c * E) + tiny64) * Rabs f) by (apply Rmult_le_compat_r; [apply Rabs_pos | exact B]).
  assert (B4 : tiny64 * Rabs f <= tiny64 * (Rabs E * Rabs f)).
  { apply Rmult_le_compat_l; [apply tiny64_pos|]. rewrite <- (Rmult_1_l (Rabs f)) at 1. apply Rmult_le_compat_r; [apply Rabs_pos | exact E2]. }
  lra.
Qed.
Lemma exact_bound (a b : R) (t : R) : 0 <= t -> a = b -> Rabs (a - b) <= twice64 * Rabs b + t.
Proof. intros H ->. unfold Rminus. rewrite Rplus_opp_r, Rabs_R0. pose proof twice64_pos. assert (0 <= twice64 * Rabs b) by (apply Rmult_le_pos; [assumption | apply Rabs_pos]). lra. Qed.

Definition near_slope (r : N -> R) (i : N) (m : Monomial) (d : scalar) : Prop :=
  finite64s d -> Rabs (value64 r d - real64 (m_coeff m) * slope64 r i m) <= twice64 * Rabs (real64 (m_coeff m) * slope64 r i m) + tiny64 * Rabs (slope64 r i m).

Lemma tiny_pos (x : R) : 0 <= tiny64 * Rabs x.
Proof. apply Rmult_le_pos; [apply tiny64_pos | apply Rabs_pos]. Qed.
Lemma value_k r (k : num) : value64 r (SK k) = real64 k.
Proof. unfold value64. cbn [terms map total m_coeff]. unfold factors64. cbn [m_vars m_exps powers64]. ring. Qed.
Lemma value_m r (m : Monomial) : value64 r (SM m) = real64 (m_coeff m) * factors64 r m.
Proof. exact (Rplus_0_r _). Qed.
Lemma real_zero : real64 n0 = 0.
Proof. reflexivity. Qed.
Lemma value_zero r : value64 r (SK n0) = 0.
Proof. exact (eq_trans (value_k r n0) real_zero). Qed.

Lemma mono_slope r m v d : valid_mono m -> float64 (m_coeff m) -> mono_derivative m v = Ok d -> near_slope r (v_id v) m d.
Proof.
  intros (LE & HE & ND & _) Fm E HF. unfold mono_derivative in E. destruct (check (mono_check m) PCheck) as [[]|]; [|discriminate E]. destruct (check (var_check v) PCheck) as [[]|]; [|discriminate E]. cbn [bind] in E.
  destruct (find_var v (m_vars m)) as [k|] eqn:Ek.
  - apply find_var_some in Ek as (x & Hx & Ex). unfold index in E. destruct (nth_error (m_exps m) k) as [e|] eqn:He; [|discriminate E]. cbn [bind] in E.
    assert (SL : slope64 r (v_id v) m = INR (Z.to_nat e) * r (v_id x) ^ Nat.pred (Z.to_nat e) * powers64 r (remove_nth k (m_vars m)) (remove_nth k (m_exps m))) by (rewrite <- Ex; apply slopes_at; assumption).
    assert (E1 : (1 <= e)%Z) by (rewrite Forall_forall in HE; apply HE; exact (nth_error_In _ _ He)).
    destruct (Z.eqb_spec e 1) as [->|NE]; cbn [andb] in E.
    + change (Z.to_nat 1) with 1%nat in SL. cbn [INR Nat.pred pow] in SL. rewrite !Rmult_1_l in SL.
      destruct (Nat.eqb_spec (length (m_vars m)) 1) as [L|L]; injection E as <-.
      * rewrite value_k. apply exact_bound; [apply tiny_pos|]. assert (S1 : slope64 r (v_id v) m = 1).
        { rewrite SL. revert L Hx. destruct (m_vars m) as [|y [|? ?]]; cbn [length]; intros L Hx; try discriminate L. destruct k as [|k]; [reflexivity | destruct k; discriminate Hx]. }
        rewrite S1. symmetry. apply Rmult_1_r.
      * rewrite value_m. apply exact_bound; [apply tiny_pos|]. rewrite SL. reflexivity.
    + injection E as <-. rewrite value_m. unfold factors64. cbn [m_coeff m_vars m_exps] in *. rewrite (powers_set r (m_vars m) (m_exps m) k x e (e - 1)%Z Hx He).
      set (P := powers64 r (remove_nth k (m_vars m)) (remove_nth k (m_exps m))) in *. assert (PE : Z.to_nat (e - 1) = Nat.pred (Z.to_nat e)) by lia. rewrite PE. set (f := r (v_id x) ^ Nat.pred (Z.to_nat e) * P).
      rewrite SL. replace (INR (Z.to_nat e) * r (v_id x) ^ Nat.pred (Z.to_nat e) * P) with (IZR e * f) by (unfold f; rewrite INR_IZR_INZ, Z2Nat.id by lia; ring).
      unfold finite64s in HF. cbn [terms] in HF. apply Forall_cons_iff in HF as [HF _]. cbn [m_coeff] in HF.
      pose proof (mul64_finite (m_coeff m) (nofZ e) Fm (nofZ_float e) HF) as [_ FZ]. pose proof (mul64_real (m_coeff m) (nofZ e) Fm (nofZ_float e) HF) as B2. pose proof (nofZ_real e FZ) as B1.
      exact (scale_bound _ _ _ _ (IZR_le 1 e E1) (product_bound _ _ _ _ B1 B2)).
  - injection E as <-. apply find_var_none in Ek. assert (S0 : slope64 r (v_id v) m = 0) by (apply slopes_absent; exact Ek). rewrite S0. apply exact_bound; [apply tiny_pos|]. etransitivity; [exact (value_zero r)|]. symmetry. apply Rmult_0_r.
Qed.

Lemma zero_slope (a : R) (x y : R) : a = 0 -> x = 0 -> y = 0 -> Rabs (a - x) <= twice64 * Rabs x + tiny64 * Rabs y.
Proof. intros -> -> ->. unfold Rminus. rewrite Rplus_opp_r, Rabs_R0. lra. Qed.
Lemma slope_no_vars r i (m : Monomial) : m_vars m = [] -> slope64 r i m = 0.
Proof. destruct m as [c es vs]. cbn [m_vars]. intros ->. reflexivity. Qed.
Lemma combine (a cs b S1 S2 S3 t v : R) : Rabs (a - cs) <= twice64 * Rabs cs + tiny64 * t -> Rabs (b - S1) <= twice64 * S2 + tiny64 * S3 -> v = a + b -> Rabs (v - (cs + S1)) <= twice64 * (Rabs cs + S2) + tiny64 * (t + S3).
Proof. intros H1 H2 ->. replace (a + b - (cs + S1)) with ((a - cs) + (b - S1)) by ring. eapply Rle_trans; [apply Rabs_triang|]. lra. Qed.
Lemma loop_slope r v p : forall d, Forall valid_mono p -> Forall (fun t => float64 (m_coeff t)) p -> derivative_loop p v = Ok d -> finite64s (SP d) ->
  Rabs (value64 r (SP d) - total (map (fun t => real64 (m_coeff t) * slope64 r (v_id v) t) p)) <= twice64 * total (map (fun t => Rabs (real64 (m_coeff t) * slope64 r (v_id v) t)) p) + tiny64 * total (map (fun t => Rabs (slope64 r (v_id v) t)) p).
Proof.
  induction p as [|m p IH]; intros d VP FP E HF; cbn [derivative_loop] in E.
  - injection E as <-. unfold value64. cbn [terms map total]. rewrite Rminus_0_r, Rabs_R0, !Rmult_0_r. lra.
  - apply Forall_cons_iff in VP as [Vm VP]. apply Forall_cons_iff in FP as [Fm FP]. cbn [map total].
    set (cs := real64 (m_coeff m) * slope64 r (v_id v) m). set (S1 := total (map (fun t => real64 (m_coeff t) * slope64 r (v_id v) t) p)). set (S2 := total (map (fun t => Rabs (real64 (m_coeff t) * slope64 r (v_id v) t)) p)). set (S3 := total (map (fun t => Rabs (slope64 r (v_id v) t)) p)).
    assert (SKIP : forall d', Rabs (value64 r (SP d') - S1) <= twice64 * S2 + tiny64 * S3 -> cs = 0 -> Rabs (value64 r (SP d') - (cs + S1)) <= twice64 * (Rabs cs + S2) + tiny64 * (Rabs (slope64 r (v_id v) m) + S3)).
    { intros d' B ->. rewrite Rplus_0_l, Rabs_R0, Rplus_0_l. pose proof (tiny_pos (slope64 r (v_id v) m)). lra. }
    assert (ADD : forall dm d', near_slope r (v_id v) m dm -> finite64s dm -> value64 r (SP d) = value64 r dm + value64 r (SP d') -> Rabs (value64 r (SP d') - S1) <= twice64 * S2 + tiny64 * S3 ->
      Rabs (value64 r (SP d) - (cs + S1)) <= twice64 * (Rabs cs + S2) + tiny64 * (Rabs (slope64 r (v_id v) m) + S3)).
    { intros dm d' B0 F0 EV B. specialize (B0 F0). fold cs in B0. rewrite EV. replace (value64 r dm + value64 r (SP d') - (cs + S1)) with ((value64 r dm - cs) + (value64 r (SP d') - S1)) by ring.
      eapply Rle_trans; [apply Rabs_triang|]. lra. }
    destruct (mono_is_constant m) as [b|] eqn:Eb; [|discriminate E]. cbn [bind] in E. destruct b.
    + apply SKIP; [exact (IH d VP FP E HF)|]. unfold mono_is_constant in Eb. destruct (check (mono_check m) PCheck); [|discriminate Eb]. cbn [bind] in Eb. assert (S0 : slope64 r (v_id v) m = 0) by (apply slope_no_vars; destruct (m_vars m); [reflexivity | discriminate Eb]). unfold cs. rewrite S0. apply Rmult_0_r.
    + destruct (mono_derivative m v) as [dm|] eqn:Ed; [|discriminate E]. cbn [bind] in E. pose proof (mono_slope r m v dm Vm Fm Ed) as B0. destruct dm as [k|w|q|q]; try discriminate E.
      * destruct (k =? n0)%num eqn:Z.
        -- assert (FK : finite64s (SK k)) by (constructor; [exact (zero64_finite k Z) | constructor]). specialize (B0 FK). rewrite value_k, (zero64_real k Z) in B0. pose proof (IH d VP FP E HF) as B. fold S1 S2 S3 in B. fold cs in B0.
           exact (combine 0 cs (value64 r (SP d)) S1 S2 S3 (Rabs (slope64 r (v_id v) m)) (value64 r (SP d)) B0 B (eq_sym (Rplus_0_l _))).
        -- destruct (derivative_loop p v) as [d'|] eqn:El; [|discriminate E]. cbn [bind] in E. injection E as <-. unfold finite64s in HF. cbn [terms] in HF. apply Forall_cons_iff in HF as [F1 F2].
           apply (ADD (SK k) d'); [exact B0 | constructor; [exact F1 | constructor] | | exact (IH d' VP FP eq_refl F2)]. rewrite value_k. unfold value64 at 1. cbn [terms map total]. f_equal. unfold factors64. cbn [k_to_mono m_coeff m_vars m_exps powers64]. ring.
      * destruct (derivative_loop p v) as [d'|] eqn:El; [|discriminate E]. cbn [bind] in E. injection E as <-. unfold finite64s in HF. cbn [terms] in HF. apply Forall_cons_iff in HF as [F1 F2].
        apply (ADD (SM q) d'); [exact B0 | constructor; [exact F1 | constructor] | | exact (IH d' VP FP eq_refl F2)]. rewrite value_m. reflexivity.
Qed.

Lemma acc_slope r s v s' : valid s -> float64s s -> scalar_derivative s v = Ok s' -> finite64s s' ->
  Rabs (value64 r s' - total (map (fun t => real64 (m_coeff t) * slope64 r (v_id v) t) (terms s)))
  <= twice64 * total (map (fun t => Rabs (real64 (m_coeff t) * slope64 r (v_id v) t)) (terms s)) + tiny64 * total (map (fun t => Rabs (slope64 r (v_id v) t)) (terms s)).
Proof.
  intros V F E HF. destruct s as [k|w|m|p]; cbn [scalar_derivative terms] in *.
  - injection E as <-. cbn [map total]. rewrite !Rplus_0_r. apply zero_slope; [exact (value_zero r) | apply Rmult_0_r | reflexivity].
  - unfold var_derivative in E. destruct (check (var_check w) PCheck); [|discriminate E]. destruct (check (var_check v) PCheck); [|discriminate E]. cbn [bind] in E. injection E as <-. rewrite value_k. cbn [map total]. rewrite !Rplus_0_r.
    apply exact_bound; [apply tiny_pos|]. unfold slope64. cbn [m_vars m_exps m_coeff slopes64 powers64]. change (Z.to_nat 1) with 1%nat. cbn [INR Nat.pred pow].
    unfold same_id. destruct (N.eqb_spec (v_id w) (v_id v)) as [Ei|Ei]; [|etransitivity; [exact real_zero|]; ring]. etransitivity; [symmetry; apply Rmult_1_r|]. f_equal. ring.
  - pose proof (mono_slope r m v s' V) as B. cbn [map total]. rewrite !Rplus_0_r. apply Forall_cons_iff in F as [F _]. apply B; assumption.
  - unfold poly_derivative in E. destruct (check (poly_check p) PCheck); [|discriminate E]. destruct (check (var_check v) PCheck); [|discriminate E]. cbn [bind] in E.
    destruct (derivative_loop p v) as [d|] eqn:El; [|discriminate E]. cbn [bind] in E. injection E as <-. destruct V as [_ V]. destruct d as [|t d].
    + assert (HF' : finite64s (SP [])) by constructor. pose proof (loop_slope r v p [] V F El HF') as B. pose proof (value_zero r : value64 r (SK n0) = value64 r (SP [])) as Z. eapply Rle_trans; [apply Req_le; exact (f_equal (fun x => Rabs (x - total (map (fun t => real64 (m_coeff t) * slope64 r (v_id v) t) p))) Z) | exact B].
    + exact (loop_slope r v p (t :: d) V F El HF).
Qed.

Lemma acc_derivative r s v s' d : valid s -> float64s s -> scalar_derivative s v = Ok s' -> finite64s s' -> derivable_pt_lim (fun x => value64 (at64 r (v_id v) x) s) (r (v_id v)) d ->
  Rabs (value64 r s' - d)
  <= ((1 + unit64) ^ 2 - 1) * total (map (fun t => Rabs (real64 (m_coeff t) * slope64 r (v_id v) t)) (terms s)) + tiny64 * total (map (fun t => Rabs (slope64 r (v_id v) t)) (terms s)).
Proof.
  intros V F E HF D. rewrite (uniqueness_limite _ _ _ _ D (value_limit r (v_id v) s)). exact (acc_slope r s v s' V F E HF).
Qed.
End Acc.
