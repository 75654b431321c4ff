(** * The value of a float64 sum, difference, multiple or simplification, against the exact one *)

From Coq Require Import ZArith NArith Bool List Lia Reals Lra.
From Verif Require Import Num NumR Syntax ModelScalar Spec SpecEffect SpecRound SpecAccuracy Base ScalarValid Eval ScalarOps ScalarMore ScalarFacts Effect FloatExact Round AccFloat.
Import ListNotations.
Local Open Scope R_scope.

(** ** the values of powers depend on the exponents only *)
Definition to_rvar (v : @var F64Num) : @var RNum := @mkVar RNum (v_id v) 0 1 (v_type v) (v_name v) (v_env v).
Definition to_rmono (m : @Monomial F64Num) : @Monomial RNum := @mkMono RNum 1 (m_exps m) (map to_rvar (m_vars m)).

Lemma rvar_ids (l : list (@var F64Num)) : map (@v_id RNum) (map to_rvar l) = map (@v_id F64Num) l.
Proof. rewrite map_map. reflexivity. Qed.
Lemma rmono_valid m : @valid_mono F64Num m -> @valid_mono RNum (to_rmono m).
Proof.
  intros (H1 & H2 & H3 & _). split; [|split; [|split]]; cbn [m_exps m_vars to_rmono].
  - rewrite map_length. exact H1.
  - exact H2.
  - rewrite rvar_ids. exact H3.
  - apply Forall_forall. intros v Hv. apply in_map_iff in Hv as (w & <- & _). unfold valid_var. cbn. unfold R_leb. destruct (Rle_dec 1 0); [lra | reflexivity].
Qed.
Lemma rmono_exponent m i : @exponent RNum (to_rmono m) i = @exponent F64Num m i.
Proof.
  unfold exponent. cbn [m_vars m_exps to_rmono]. generalize (m_exps m). induction (m_vars m) as [|v l IH]; intros [|e es]; cbn; try reflexivity.
  rewrite IH. reflexivity.
Qed.
Lemma npow_pow (x : R) n : @npow RNum x n = x ^ n.
Proof. induction n as [|n IH]; cbn; [reflexivity|]. rewrite IH. reflexivity. Qed.
Lemma rmono_factors r m : @eval_factors RNum r (m_vars (to_rmono m)) (m_exps (to_rmono m)) = factors64 r m.
Proof.
  unfold factors64. cbn [m_vars m_exps to_rmono]. generalize (m_exps m). induction (m_vars m) as [|v l IH]; intros [|e es]; cbn [map eval_factors powers64]; try reflexivity.
  rewrite IH, npow_pow. reflexivity.
Qed.
Lemma factors64_same r m1 m2 : @valid_mono F64Num m1 -> @valid_mono F64Num m2 -> @same_powers F64Num m1 m2 -> factors64 r m1 = factors64 r m2.
Proof.
  intros V1 V2 H. rewrite <- !rmono_factors. apply (@factors_same_powers RNum RNum_exact); try (apply rmono_valid; assumption).
  intro i. rewrite !rmono_exponent. apply H.
Qed.

(** ** totals *)
Lemma total_app l l' : total (l ++ l') = total l + total l'.
Proof. induction l as [|x l IH]; cbn; [ring|]. rewrite IH. ring. Qed.
Lemma total_plus {A} (f g : A -> R) l : total (map (fun x => f x + g x) l) = total (map f l) + total (map g l).
Proof. induction l as [|x l IH]; cbn; [ring|]. rewrite IH. ring. Qed.
Lemma total_scale {A} (k : R) (f : A -> R) l : total (map (fun x => k * f x) l) = k * total (map f l).
Proof. induction l as [|x l IH]; cbn; [ring|]. rewrite IH. ring. Qed.
Lemma total_le {A} (f g : A -> R) l : (forall x, In x l -> f x <= g x) -> total (map f l) <= total (map g l).
Proof.
  induction l as [|x l IH]; intro H; cbn; [lra|]. apply Rplus_le_compat; [apply H; left; reflexivity | apply IH; intros y Hy; apply H; right; exact Hy].
Qed.
Lemma total_ext {A} (f g : A -> R) l : (forall x, In x l -> f x = g x) -> total (map f l) = total (map g l).
Proof.
  induction l as [|x l IH]; intro H; cbn; [reflexivity|]. f_equal; [apply H; left; reflexivity | apply IH; intros y Hy; apply H; right; exact Hy].
Qed.
Lemma total_abs {A} (f : A -> R) l : Rabs (total (map f l)) <= total (map (fun x => Rabs (f x)) l).
Proof.
  induction l as [|x l IH]; cbn; [rewrite Rabs_R0; lra|]. eapply Rle_trans; [apply Rabs_triang|]. lra.
Qed.
Lemma total_zero {A} (f : A -> R) l : (forall x, In x l -> f x = 0) -> total (map f l) = 0.
Proof.
  induction l as [|x l IH]; intro H; cbn; [reflexivity|]. rewrite (H x) by (left; reflexivity). rewrite IH; [ring|]. intros y Hy. apply H. right. exact Hy.
Qed.
Lemma total_pos {A} (f : A -> R) l : (forall x, In x l -> 0 <= f x) -> 0 <= total (map f l).
Proof.
  induction l as [|x l IH]; intro H; cbn; [lra|]. pose proof (H x (or_introl eq_refl)). assert (0 <= total (map f l)) by (apply IH; intros y Hy; apply H; right; exact Hy). lra.
Qed.

Lemma combined {A} (VS VA VB UA UB CA g : A -> R) l k sg al be : (forall m, In m l -> Rabs (VS m - (k * VA m + sg * VB m)) <= al * (UA m + UB m) + be * CA m) ->
  Rabs (total (map (fun m => VS m * g m) l) - (k * total (map (fun m => VA m * g m) l) + sg * total (map (fun m => VB m * g m) l)))
  <= al * (total (map (fun m => UA m * Rabs (g m)) l) + total (map (fun m => UB m * Rabs (g m)) l)) + be * total (map (fun m => CA m * Rabs (g m)) l).
Proof.
  intro H.
  replace (total (map (fun m => VS m * g m) l) - (k * total (map (fun m => VA m * g m) l) + sg * total (map (fun m => VB m * g m) l)))
    with (total (map (fun m => (VS m - (k * VA m + sg * VB m)) * g m) l)).
  2: { clear H. induction l as [|x l IH]; cbn [map total]; [ring|]. rewrite IH. ring. }
  eapply Rle_trans; [apply total_abs|].
  replace (al * (total (map (fun m => UA m * Rabs (g m)) l) + total (map (fun m => UB m * Rabs (g m)) l)) + be * total (map (fun m => CA m * Rabs (g m)) l))
    with (total (map (fun m => (al * (UA m + UB m) + be * CA m) * Rabs (g m)) l)).
  2: { clear H. induction l as [|x l IH]; cbn [map total]; [ring|]. rewrite IH. ring. }
  apply total_le. intros m Hm. rewrite Rabs_mult. apply Rmult_le_compat_r; [apply Rabs_pos|]. apply H. exact Hm.
Qed.

(** ** one representative for each kind of term *)
Section Classes.
Let NN := F64Num.
Existing Instance NN.

Fixpoint reps (l : list Monomial) : list Monomial :=
  match l with [] => [] | t :: r => t :: filter (fun m => negb (alike t m)) (reps r) end.
Lemma reps_incl l : incl (reps l) l.
Proof.
  induction l as [|t l IH]; cbn [reps]; [intros x []|]. intros x [->|Hx]; [left; reflexivity|]. apply filter_In in Hx as [Hx _]. right. apply IH. exact Hx.
Qed.

Lemma alike_sym a b : valid_mono a -> valid_mono b -> alike a b = true -> alike b a = true.
Proof. intros Va Vb H. apply alike_look in H; try assumption. apply alike_look; try assumption. apply look_sym. exact H. Qed.
Lemma alike_trans a b c : valid_mono a -> valid_mono b -> valid_mono c -> alike a b = true -> alike b c = true -> alike a c = true.
Proof. intros Va Vb Vc H K. apply alike_look in H; try assumption. apply alike_look in K; try assumption. apply alike_look; try assumption. eapply look_trans; eassumption. Qed.

Lemma total_filter {A} (f : A -> R) (p : A -> bool) l : (forall x, In x l -> p x = false -> f x = 0) -> total (map f (filter p l)) = total (map f l).
Proof.
  induction l as [|x l IH]; intro H; cbn [filter map total]; [reflexivity|]. assert (IH' := IH (fun y Hy => H y (or_intror Hy))).
  destruct (p x) eqn:E; cbn [map total]; rewrite IH'; [reflexivity|]. rewrite (H x (or_introl eq_refl) E). ring.
Qed.

Lemma reps_one (g : Monomial -> R) all t x : Forall valid_mono all -> (forall a b, In a all -> In b all -> alike a b = true -> g a = g b) -> In t all ->
  total (map (fun m => (if alike t m then x else 0) * g m) (reps all)) = x * g t.
Proof.
  induction all as [|h all IH]; intros V Hg Ht; [destruct Ht|]. inversion V as [|? ? Vh V']; subst.
  assert (Vt : valid_mono t) by (rewrite Forall_forall in V; apply V; exact Ht). cbn [reps map total].
  assert (VR : forall m, In m (reps all) -> valid_mono m) by (intros m Hm; rewrite Forall_forall in V'; apply V', reps_incl; exact Hm).
  destruct (alike t h) eqn:E.
  - rewrite (Hg t h Ht (or_introl eq_refl) E). rewrite total_zero; [ring|]. intros m Hm. apply filter_In in Hm as [Hm N]. apply negb_true_iff in N.
    destruct (alike t m) eqn:F; [|ring]. exfalso. assert (alike h m = true); [|congruence].
    apply (alike_trans h t m); try assumption; [apply VR; exact Hm | apply alike_sym; assumption].
  - destruct Ht as [->|Ht]; [rewrite alike_refl in E by assumption; discriminate|]. rewrite total_filter; [rewrite IH; try assumption; [ring|]|].
    + intros a b Ha Hb. apply Hg; right; assumption.
    + intros m Hm N. apply negb_false_iff in N. destruct (alike t m) eqn:F; [|ring]. exfalso. assert (alike t h = true); [|congruence].
      apply (alike_trans t m h); try assumption; [apply VR; exact Hm | apply alike_sym; try assumption; apply VR; exact Hm].
Qed.

Lemma decomposed (g : Monomial -> R) (w : num -> R) all l : Forall valid_mono all -> (forall a b, In a all -> In b all -> alike a b = true -> g a = g b) -> incl l all ->
  total (map (fun t => w (m_coeff t) * g t) l) = total (map (fun m => total (map w (cs m l)) * g m) (reps all)).
Proof.
  intros V Hg. induction l as [|t l IH]; intro HI; cbn [map total].
  - symmetry. apply total_zero. intros. unfold cs. cbn. ring.
  - rewrite IH by (intros x Hx; apply HI; right; exact Hx).
    rewrite <- (reps_one g all t (w (m_coeff t))); try assumption; [|apply HI; left; reflexivity]. rewrite <- total_plus. apply total_ext. intros m _.
    rewrite cs_cons, map_app, total_app. destruct (alike t m); cbn; ring.
Qed.

(** the errors of the single coefficients add up *)
Lemma class_bound r all S A B (k sg al be : R) : Forall valid_mono all -> (forall a b, In a all -> In b all -> alike a b = true -> factors64 r a = factors64 r b) ->
  incl S all -> incl A all -> incl B all ->
  (forall m, In m all -> Rabs (total (map real64 (cs m S)) - (k * total (map real64 (cs m A)) + sg * total (map real64 (cs m B))))
     <= al * (total (map (fun c => Rabs (real64 c)) (cs m A)) + total (map (fun c => Rabs (real64 c)) (cs m B))) + be * total (map (fun _ => 1) (cs m A))) ->
  Rabs (total (map (fun t => real64 (m_coeff t) * factors64 r t) S)
        - (k * total (map (fun t => real64 (m_coeff t) * factors64 r t) A) + sg * total (map (fun t => real64 (m_coeff t) * factors64 r t) B)))
  <= al * (total (map (fun t => Rabs (real64 (m_coeff t) * factors64 r t)) A) + total (map (fun t => Rabs (real64 (m_coeff t) * factors64 r t)) B))
     + be * total (map (fun t => Rabs (factors64 r t)) A).
Proof.
  intros V Hg IS IA IB H.
  assert (Hg' : forall a b, In a all -> In b all -> alike a b = true -> Rabs (factors64 r a) = Rabs (factors64 r b)) by (intros a b Ha Hb E; rewrite (Hg a b Ha Hb E); reflexivity).
  assert (AB : forall l, incl l all -> total (map (fun t => Rabs (real64 (m_coeff t) * factors64 r t)) l)
    = total (map (fun m => total (map (fun c => Rabs (real64 c)) (cs m l)) * Rabs (factors64 r m)) (reps all))).
  { intros l Il. etransitivity; [|exact (decomposed (fun m => Rabs (factors64 r m)) (fun c => Rabs (real64 c)) all l V Hg' Il)]. apply total_ext. intros t _. apply Rabs_mult. }
  assert (ON : total (map (fun t => Rabs (factors64 r t)) A) = total (map (fun m => total (map (fun _ => 1) (cs m A)) * Rabs (factors64 r m)) (reps all))).
  { etransitivity; [|exact (decomposed (fun m => Rabs (factors64 r m)) (fun _ => 1) all A V Hg' IA)]. apply total_ext. intros t _. ring. }
  assert (VV : forall l, incl l all -> total (map (fun t => real64 (m_coeff t) * factors64 r t) l) = total (map (fun m => total (map real64 (cs m l)) * factors64 r m) (reps all))).
  { intros l Il. exact (decomposed (factors64 r) real64 all l V Hg Il). }
  rewrite (AB A IA), (AB B IB), ON, (VV S IS), (VV A IA), (VV B IB).
  apply (combined (fun m => total (map real64 (cs m S))) (fun m => total (map real64 (cs m A))) (fun m => total (map real64 (cs m B)))
    (fun m => total (map (fun c => Rabs (real64 c)) (cs m A))) (fun m => total (map (fun c => Rabs (real64 c)) (cs m B))) (fun m => total (map (fun _ => 1) (cs m A))) (factors64 r)).
  intros m Hm. apply H. apply reps_incl. exact Hm.
Qed.

(** zeros do not count *)
Lemma total_nz (w : num -> R) l : (forall c, neqb c n0 = true -> w c = 0) -> total (map w (nz l)) = total (map w l).
Proof. intro H. unfold nz. apply total_filter. intros c _ E. apply H. apply negb_false_iff in E. exact E. Qed.

(** ** lists of coefficients *)
Definition sumR (l : list num) : R := total (map real64 l).
Definition sumA (l : list num) : R := total (map (fun c => Rabs (real64 c)) l).

Lemma sumR_nz l : sumR (nz l) = sumR l.
Proof. apply total_nz. exact zero64_real. Qed.
Lemma sumA_nz l : sumA (nz l) = sumA l.
Proof. apply total_nz. intros c H. rewrite zero64_real by exact H. apply Rabs_R0. Qed.
Lemma sumA_pos l : 0 <= sumA l.
Proof. apply total_pos. intros. apply Rabs_pos. Qed.

Lemma finite_nz (x : num) : (Forall finite64 (nz [x]) -> float64 x -> finite64 x).
Proof.
  unfold nz. cbn [filter]. destruct (x =? n0)%num eqn:E; cbn [negb].
  - intros _ Hx. split; [exact Hx|]. destruct x as [s|s| |s m e]; try exact I; try discriminate E; destruct s; discriminate E.
  - intros H _. inversion H; assumption.
Qed.

Lemma sum_added (l l' : list num) : Forall float64 l -> Forall float64 l' -> (length l <= 1)%nat -> (length l' <= 1)%nat -> Forall finite64 (added l l') ->
  Rabs (sumR (added l l') - (sumR l + sumR l')) <= unit64 * (sumA l + sumA l').
Proof.
  intros Fl Fl' H1 H2 HF. pose proof unit64_pos as U.
  assert (Z : forall k, sumR k = sumR l + sumR l' -> added l l' = nz k -> Rabs (sumR (added l l') - (sumR l + sumR l')) <= unit64 * (sumA l + sumA l')).
  { intros k Ek E. rewrite E, sumR_nz, Ek. replace (sumR l + sumR l' - (sumR l + sumR l')) with 0 by ring. rewrite Rabs_R0. apply Rmult_le_pos; [exact U|]. pose proof (sumA_pos l). pose proof (sumA_pos l'). lra. }
  destruct l as [|x [|? ?]]; [|destruct l' as [|y [|? ?]]|cbn in H1; lia].
  - apply (Z l'); [unfold sumR at 2; cbn; ring | reflexivity].
  - apply (Z [x]); [unfold sumR; cbn; ring | reflexivity].
  - change (added [x] [y]) with (nz [(x + y)%num]) in *. rewrite sumR_nz. inversion Fl as [|? ? Fx _]; subst. inversion Fl' as [|? ? Fy _]; subst.
    assert (Fs : finite64 (x + y)%num) by (apply finite_nz; [exact HF | apply add64_float; assumption]).
    unfold sumR, sumA. cbn [map total]. rewrite !Rplus_0_r. eapply Rle_trans; [apply add64_real; assumption|]. apply Rmult_le_compat_l; [exact U | apply Rabs_triang].
  - cbn in H2. lia.
Qed.

Lemma sum_subtracted (l l' : list num) : Forall float64 l -> Forall float64 l' -> (length l <= 1)%nat -> (length l' <= 1)%nat -> Forall finite64 (subtracted l l') ->
  Rabs (sumR (subtracted l l') - (sumR l + -1 * sumR l')) <= unit64 * (sumA l + sumA l').
Proof.
  intros Fl Fl' H1 H2 HF. pose proof unit64_pos as U.
  assert (Z : forall k, sumR k = sumR l + -1 * sumR l' -> subtracted l l' = nz k -> Rabs (sumR (subtracted l l') - (sumR l + -1 * sumR l')) <= unit64 * (sumA l + sumA l')).
  { intros k Ek E. rewrite E, sumR_nz, Ek. replace (sumR l + -1 * sumR l' - (sumR l + -1 * sumR l')) with 0 by ring. rewrite Rabs_R0. apply Rmult_le_pos; [exact U|]. pose proof (sumA_pos l). pose proof (sumA_pos l'). lra. }
  assert (O : sumR (map nopp l') = -1 * sumR l').
  { unfold sumR. rewrite map_map, <- total_scale. apply total_ext. intros c _. rewrite opp64_real. ring. }
  destruct l as [|x [|? ?]]; [|destruct l' as [|y [|? ?]]|cbn in H1; lia].
  - apply (Z (map nopp l')); [rewrite O; unfold sumR at 2; cbn; ring | reflexivity].
  - apply (Z [x]); [unfold sumR; cbn; ring | reflexivity].
  - change (subtracted [x] [y]) with (nz [(x - y)%num]) in *. rewrite sumR_nz. inversion Fl as [|? ? Fx _]; subst. inversion Fl' as [|? ? Fy _]; subst.
    rewrite sub64_add in HF |- *.
    assert (Fo : float64 (nopp y)) by (destruct y; exact Fy).
    assert (Fs : finite64 (nadd x (nopp y))) by (apply finite_nz; [exact HF | apply add64_float; assumption]).
    unfold sumR, sumA. cbn [map total]. rewrite !Rplus_0_r. replace (-1 * real64 y) with (real64 (nopp y)) by (rewrite opp64_real; ring).
    eapply Rle_trans; [apply add64_real; assumption|]. apply Rmult_le_compat_l; [exact U|]. eapply Rle_trans; [apply Rabs_triang|]. rewrite opp64_real, Rabs_Ropp. lra.
  - cbn in H2. lia.
Qed.

Lemma sum_multiplied (l : list num) (f : num) : Forall float64 l -> float64 f -> Forall finite64 (multiplied l f) ->
  Rabs (sumR (multiplied l f) - real64 f * sumR l) <= unit64 * Rabs (real64 f) * sumA l + tiny64 * total (map (fun _ => 1) l).
Proof.
  intros Fl Ff HF. change (multiplied l f) with (nz (map (fun c => c * f)%num l)) in *. rewrite sumR_nz.
  pose proof tiny64_pos as T. revert Fl HF. induction l as [|c l IH]; intros Fl HF.
  - unfold sumR, sumA. cbn. rewrite !Rmult_0_r, Rminus_0_r, Rabs_R0. lra.
  - apply Forall_cons_iff in Fl as [Fc Fl]. assert (HF' : Forall finite64 (nz [(c * f)%num]) /\ Forall finite64 (nz (map (fun c => c * f)%num l))).
    { cbn [map] in HF. change (c * f :: map (fun c => c * f) l)%num with ([c * f]%num ++ map (fun c => c * f) l)%num in HF. rewrite nz_app in HF. apply Forall_app in HF. exact HF. }
    destruct HF' as [H1 H2]. specialize (IH Fl H2). assert (Fs : finite64 (c * f)%num) by (apply finite_nz; [exact H1 | apply mul64_float; assumption]).
    pose proof (mul64_real c f Fc Ff Fs) as M. rewrite Rabs_mult in M.
    change (sumR (map (fun c0 => c0 * f)%num (c :: l))) with (real64 (c * f)%num + sumR (map (fun c0 => c0 * f)%num l)).
    change (sumR (c :: l)) with (real64 c + sumR l). change (sumA (c :: l)) with (Rabs (real64 c) + sumA l). change (total (map (fun _ => 1) (c :: l))) with (1 + total (map (fun _ => 1) l)).
    set (P := real64 (c * f)%num) in *. change (@nmul F64Num c f) with (c * f)%num in M. fold P in M.
    set (Q := sumR (map _ l)) in *. set (K := total _) in *. generalize dependent (sumA l). generalize dependent (sumR l). intros a b' IH.
    replace (P + Q - real64 f * (real64 c + a)) with ((P - real64 c * real64 f) + (Q - real64 f * a)) by ring.
    eapply Rle_trans; [apply Rabs_triang|]. lra.
Qed.

(** adding from left to right *)
Lemma fold_float (x : num) (l : list num) : float64 x -> Forall float64 l -> float64 (fold_left nadd l x).
Proof. revert x. induction l as [|y l IH]; intros x Hx Hl; cbn [fold_left]; [exact Hx|]. apply Forall_cons_iff in Hl as [Hy Hl]. apply IH; [apply add64_float; assumption | exact Hl]. Qed.
Lemma fold_finite (x : num) (l : list num) : float64 x -> Forall float64 l -> finite64 (fold_left nadd l x) -> finite64 x.
Proof.
  revert x. induction l as [|y l IH]; intros x Hx Hl; cbn [fold_left]; [tauto|]. apply Forall_cons_iff in Hl as [Hy Hl]. intro H. apply IH in H; [|apply add64_float; assumption | exact Hl].
  apply add64_finite in H; tauto.
Qed.
Lemma fold_bound (x : num) (l : list num) : float64 x -> Forall float64 l -> finite64 (fold_left nadd l x) ->
  Rabs (real64 (fold_left nadd l x) - (real64 x + sumR l)) <= ((1 + unit64) ^ length l - 1) * (Rabs (real64 x) + sumA l).
Proof.
  revert x. induction l as [|y l IH]; intros x Hx Hl HF; cbn [fold_left length pow].
  - unfold sumR, sumA. cbn. rewrite Rplus_0_r. replace (real64 x - real64 x) with 0 by ring. rewrite Rabs_R0. lra.
  - apply Forall_cons_iff in Hl as [Hy Hl]. assert (Fxy : float64 (nadd x y)) by (apply add64_float; assumption). cbn [fold_left] in HF. specialize (IH (nadd x y) Fxy Hl HF).
    assert (Fs : finite64 (nadd x y)) by (eapply fold_finite; eassumption).
    assert (A : Rabs (real64 (nadd x y) - (real64 x + real64 y)) <= unit64 * Rabs (real64 x + real64 y)) by exact (add64_real x y Hx Hy Fs). pose proof unit64_pos as U. pose proof (sumA_pos l) as PA. pose proof (Rabs_triang (real64 x) (real64 y)) as TX.
    assert (P : 1 <= (1 + unit64) ^ length l) by (apply pow_R1_Rle; lra). set (p := (1 + unit64) ^ length l) in *. set (u := unit64) in *.
    change (sumR (y :: l)) with (real64 y + sumR l). change (sumA (y :: l)) with (Rabs (real64 y) + sumA l).
    set (z := real64 (nadd x y)) in *. set (F := real64 (fold_left nadd l (nadd x y))) in *. set (a := Rabs (real64 x)) in *. set (b := Rabs (real64 y)) in *.
    assert (Z : Rabs z <= (1 + u) * (a + b)).
    { replace z with ((z - (real64 x + real64 y)) + (real64 x + real64 y)) by ring. eapply Rle_trans; [apply Rabs_triang|].
      assert (u * Rabs (real64 x + real64 y) <= u * (a + b)) by (apply Rmult_le_compat_l; [exact U | exact TX]). lra. }
    assert (A' : Rabs (z - (real64 x + real64 y)) <= u * (a + b)) by (eapply Rle_trans; [exact A | apply Rmult_le_compat_l; [exact U | exact TX]]).
    replace (F - (real64 x + (real64 y + sumR l))) with ((F - (z + sumR l)) + (z - (real64 x + real64 y))) by ring.
    eapply Rle_trans; [apply Rabs_triang|]. 
    assert (I1 : (p - 1) * (Rabs z + sumA l) <= (p - 1) * ((1 + u) * (a + b) + sumA l)) by (apply Rmult_le_compat_l; lra).
    assert (I2 : 0 <= u * p * sumA l) by (apply Rmult_le_pos; [apply Rmult_le_pos; lra | exact PA]).
    apply Rle_trans with ((p - 1) * ((1 + u) * (a + b) + sumA l) + u * (a + b)); [lra|].
    replace (((1 + u) * p - 1) * (a + (b + sumA l))) with ((p - 1) * ((1 + u) * (a + b) + sumA l) + u * (a + b) + u * p * sumA l) by ring. lra.
Qed.

Lemma sum_left_to_right (l : list num) n : Forall float64 l -> (length l <= S n)%nat -> Forall finite64 (left_to_right_sum l) ->
  Rabs (sumR (left_to_right_sum l) - sumR l) <= ((1 + unit64) ^ n - 1) * sumA l.
Proof.
  intros Fl Hn HF. pose proof unit64_pos as U. assert (P : 1 <= (1 + unit64) ^ n) by (apply pow_R1_Rle; lra).
  destruct l as [|x l].
  - unfold left_to_right_sum, sumR, sumA. cbn. rewrite Rminus_0_r, Rabs_R0. lra.
  - apply Forall_cons_iff in Fl as [Hx Hl]. change (left_to_right_sum (x :: l)) with (nz [fold_left nadd l x]) in *. rewrite sumR_nz.
    assert (Fs : finite64 (fold_left nadd l x)) by (apply finite_nz; [exact HF | apply fold_float; assumption]).
    pose proof (fold_bound x l Hx Hl Fs) as B. change (sumR [fold_left nadd l x]) with (real64 (fold_left nadd l x) + 0). rewrite Rplus_0_r.
    change (sumR (x :: l)) with (real64 x + sumR l). change (sumA (x :: l)) with (Rabs (real64 x) + sumA l). eapply Rle_trans; [exact B|].
    apply Rmult_le_compat_r; [pose proof (sumA_pos l); pose proof (Rabs_pos (real64 x)); lra|]. apply Rplus_le_compat_r. apply Rle_pow; [clear - U; lra | apply le_S_n; exact Hn].
Qed.
End Classes.
