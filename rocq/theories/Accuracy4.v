(** * The value of a sum of many float64 expressions, against the exact one *)

From Coq Require Import ZArith NArith Bool List Lia Reals Lra.
From Verif Require Import Num NumR Syntax ModelScalar Spec SpecEffect SpecRound SpecAccuracy Base ScalarValid Eval ScalarOps ScalarMore ScalarNorm ScalarFacts Effect FloatExact Round AccFloat Accuracy Accuracy2.
Import ListNotations.
Local Open Scope R_scope.

Section Acc.
Let NN := F64Num.
Existing Instance NN.

Lemma size_added (l l' : list num) : Forall float64 l -> Forall float64 l' -> (length l <= 1)%nat -> (length l' <= 1)%nat -> Forall finite64 (added l l') ->
  sumA (added l l') <= (1 + unit64) * (sumA l + sumA l').
Proof.
  intros Fl Fl' H1 H2 HF. pose proof unit64_pos as U.
  assert (Z : forall k, sumA k = sumA l + sumA l' -> added l l' = nz k -> sumA (added l l') <= (1 + unit64) * (sumA l + sumA l')).
  { intros k Ek E. rewrite E, sumA_nz, Ek. assert (0 <= unit64 * (sumA l + sumA l')) by (apply Rmult_le_pos; [exact U|]; pose proof (sumA_pos l); pose proof (sumA_pos l'); lra). lra. }
  destruct l as [|x [|? ?]]; [|destruct l' as [|y [|? ?]]|cbn in H1; lia].
  - apply (Z l'); [unfold sumA at 2; cbn; ring | reflexivity].
  - apply (Z [x]); [unfold sumA; cbn; ring | reflexivity].
  - pose proof (sum_added [x] [y] Fl Fl' H1 H2 HF) as B. change (added [x] [y]) with (nz [(x + y)%num]) in *. rewrite sumR_nz in B. rewrite sumA_nz.
    unfold sumR, sumA in *. cbn [map total] in *. rewrite !Rplus_0_r in *. set (z := real64 (x + y)%num) in *.
    pose proof (Rabs_triang (z - (real64 x + real64 y)) (real64 x + real64 y)) as T. replace (z - (real64 x + real64 y) + (real64 x + real64 y)) with z in T by ring.
    pose proof (Rabs_triang (real64 x) (real64 y)). lra.
  - cbn in H2. lia.
Qed.

Lemma size_plus r (a b s : scalar) : valid a -> valid b -> collected a -> collected b -> float64s a -> float64s b -> coherent (terms a ++ terms b) ->
  scalar_plus a b = Ok s -> finite64s s -> size64 r s <= (1 + unit64) * (size64 r a + size64 r b).
Proof.
  intros Va Vb Ca Cb Fa Fb HC E HF. destruct (scalar_plus_sum a b Va Vb) as (s' & E' & Vs & HS & _). assert (s' = s) by congruence. subst s'.
  assert (VL : Forall valid_mono (terms a ++ terms b)) by (apply Forall_app; split; apply valid_terms; assumption). pose proof (valid_terms s Vs) as VK.
  set (all := (terms a ++ terms b) ++ terms s). assert (V : Forall valid_mono all) by (apply Forall_app; split; assumption).
  assert (Hg : forall x y, In x all -> In y all -> alike x y = true -> Rabs (factors64 r x) = Rabs (factors64 r y)).
  { intros x y Hx Hy A. f_equal. exact (formed_values r (terms a ++ terms b) (terms s) VL VK HC HS x y Hx Hy A). }
  assert (AB : forall t, incl (terms t) all -> size64 r t = total (map (fun m => sumA (coefficients m t) * Rabs (factors64 r m)) (reps all))).
  { intros t It. unfold size64. etransitivity; [|etransitivity; [exact (decomposed (fun m => Rabs (factors64 r m)) (fun c => Rabs (real64 c)) all (terms t) V Hg It)|]].
    - apply total_ext. intros u _. apply Rabs_mult.
    - apply total_ext. intros m _. rewrite sumA_cs. reflexivity. }
  rewrite (AB s), (AB a), (AB b); [|apply incl_appl, incl_appr, incl_refl | apply incl_appl, incl_appl, incl_refl | apply incl_appr, incl_refl].
  rewrite <- total_plus, <- total_scale. apply total_le. intros m Hm. rewrite <- Rmult_plus_distr_r, <- Rmult_assoc. apply Rmult_le_compat_r; [apply Rabs_pos|].
  assert (Vm : valid_mono m) by (rewrite Forall_forall in V; apply V, reps_incl; exact Hm).
  assert (P : coefficients m s = added (coefficients m a) (coefficients m b)) by exact (f64_plus a b s m Va Vb Ca Cb E Vm).
  assert (G : Forall finite64 (coefficients m s)) by exact (coefficients_all finite64 m s HF). rewrite P in G |- *.
  apply size_added; try exact G; try (apply coefficients_all; assumption); apply f64_one; assumption.
Qed.

(** infinities and NaN never disappear from a sum *)
Lemma added_finite (l l' : list num) : Forall float64 l -> Forall float64 l' -> (length l <= 1)%nat -> (length l' <= 1)%nat -> Forall finite64 (added l l') -> Forall finite64 (nz l).
Proof.
  intros Fl Fl' H1 H2 HF. destruct l as [|x [|? ?]]; [constructor|destruct l' as [|y [|? ?]]|cbn in H1; lia].
  - exact HF.
  - apply Forall_cons_iff in Fl as [Fx _]. apply Forall_cons_iff in Fl' as [Fy _]. change (added [x] [y]) with (nz [(x + y)%num]) in HF.
    assert (Fs : finite64 (x + y)%num) by (apply finite_nz; [exact HF | apply add64_float; assumption]). apply add64_finite in Fs; try assumption.
    unfold nz. cbn [filter]. destruct (negb (x =? n0)%num); [constructor; [apply Fs | constructor] | constructor].
  - cbn in H2. lia.
Qed.
Lemma finite_back (a b s : scalar) : valid a -> valid b -> collected a -> collected b -> float64s a -> float64s b -> scalar_plus a b = Ok s -> finite64s s -> finite64s a.
Proof.
  intros Va Vb Ca Cb Fa Fb E HF. apply Forall_forall. intros t Ht. pose proof (valid_terms a Va) as VT. assert (Vt : valid_mono t) by (rewrite Forall_forall in VT; apply VT; exact Ht).
  assert (Ft : float64 (m_coeff t)) by (unfold float64s in Fa; rewrite Forall_forall in Fa; apply Fa; exact Ht).
  assert (P : coefficients t s = added (coefficients t a) (coefficients t b)) by exact (f64_plus a b s t Va Vb Ca Cb E Vt).
  assert (G : Forall finite64 (coefficients t s)) by exact (coefficients_all finite64 t s HF). rewrite P in G.
  apply added_finite in G; try (apply coefficients_all; assumption); try (apply f64_one; assumption).
  apply finite_nz; [|exact Ft]. unfold nz. cbn [filter]. destruct (negb (m_coeff t =? n0)%num) eqn:N; [|constructor]. constructor; [|constructor].
  rewrite Forall_forall in G. apply G. unfold nz. apply filter_In. split; [|exact N]. unfold coefficients. apply filter_In. split; [|exact N]. apply in_map_iff. exists t. split; [reflexivity|].
  apply filter_In. split; [exact Ht | apply Effect.alike_refl; exact Vt].
Qed.
Lemma float_sum (a b s : scalar) : valid a -> valid b -> collected a -> collected b -> float64s a -> float64s b -> scalar_plus a b = Ok s -> float64s s.
Proof.
  intros Va Vb Ca Cb Fa Fb E. destruct (scalar_plus_sum a b Va Vb) as (s' & E' & Vs & _). assert (s' = s) by congruence. subst s'.
  apply Forall_forall. intros t Ht. pose proof (valid_terms s Vs) as VT. assert (Vt : valid_mono t) by (rewrite Forall_forall in VT; apply VT; exact Ht).
  assert (P : coefficients t s = added (coefficients t a) (coefficients t b)) by exact (f64_plus a b s t Va Vb Ca Cb E Vt).
  destruct (m_coeff t =? n0)%num eqn:Z; [destruct (m_coeff t) as [q|q| |q m e]; try reflexivity; try discriminate Z; destruct q; discriminate Z|].
  assert (I0 : In (m_coeff t) (coefficients t s)).
  { unfold coefficients. apply filter_In. rewrite Z. split; [|reflexivity]. apply in_map_iff. exists t. split; [reflexivity|]. apply filter_In. split; [exact Ht | apply Effect.alike_refl; exact Vt]. }
  rewrite P in I0. apply filter_In in I0 as [I0 _].
  assert (Pa : Forall float64 (coefficients t a)) by (apply coefficients_all; exact Fa). assert (Pb : Forall float64 (coefficients t b)) by (apply coefficients_all; exact Fb).
  assert (J : Forall float64 (coefficients t a ++ coefficients t b)) by (apply Forall_app; split; assumption). rewrite Forall_forall in J.
  destruct (coefficients t a) as [|x [|x' l]]; [exact (J _ I0) | | exact (J _ I0)]. destruct (coefficients t b) as [|y [|y' l']]; [exact (J _ I0) | | exact (J _ I0)].
  destruct I0 as [<-|[]]. apply add64_float; apply J; [left | right; left]; reflexivity.
Qed.

Definition values (r : N -> R) (l : list scalar) : R := total (map (value64 r) l).
Definition sizes (r : N -> R) (l : list scalar) : R := total (map (size64 r) l).
Lemma size_pos r s : 0 <= size64 r s.
Proof. apply total_pos. intros. apply Rabs_pos. Qed.
Lemma sizes_pos r l : 0 <= sizes r l.
Proof. apply total_pos. intros. apply size_pos. Qed.

Lemma sum_finite l : forall a s, valid a -> collected a -> float64s a -> Forall valid l -> Forall collected l -> Forall float64s l -> sum_up a l = Ok s -> finite64s s -> finite64s a.
Proof.
  induction l as [|x l IH]; intros a s Va Ca Fa Vl Cl Fl E HF; cbn [sum_up] in E; [congruence|].
  apply Forall_cons_iff in Vl as [Vx Vl]. apply Forall_cons_iff in Cl as [Cx Cl]. apply Forall_cons_iff in Fl as [Fx Fl].
  destruct (scalar_plus a x) as [b|] eqn:Eb; [|discriminate]. cbn [bind] in E.
  destruct (plus_total a x Va Vx) as (b' & E' & Vb & Nb). assert (b' = b) by congruence. subst b'.
  apply (finite_back a x b); try assumption. apply (IH b s); try assumption; [apply normal_collected; exact Nb | apply (float_sum a x b); assumption].
Qed.

Lemma step_bound p u F vb va vx vl sa sx sb sl : 0 <= u -> 1 <= p -> 0 <= sa -> 0 <= sx -> 0 <= sl -> Rabs (F - (vb + vl)) <= (p - 1) * (sb + sl) -> Rabs (vb - (va + vx)) <= u * (sa + sx) ->
  sb <= (1 + u) * (sa + sx) -> Rabs (F - (va + (vx + vl))) <= ((1 + u) * p - 1) * (sa + (sx + sl)).
Proof.
  intros U P Pa Px Pl H A Z. replace (F - (va + (vx + vl))) with ((F - (vb + vl)) + (vb - (va + vx))) by ring. eapply Rle_trans; [apply Rabs_triang|].
  assert (I1 : (p - 1) * (sb + sl) <= (p - 1) * ((1 + u) * (sa + sx) + sl)) by (apply Rmult_le_compat_l; lra).
  assert (I2 : 0 <= u * p * sl) by (apply Rmult_le_pos; [apply Rmult_le_pos; lra | exact Pl]).
  apply Rle_trans with ((p - 1) * ((1 + u) * (sa + sx) + sl) + u * (sa + sx)); [lra|].
  replace (((1 + u) * p - 1) * (sa + (sx + sl))) with ((p - 1) * ((1 + u) * (sa + sx) + sl) + u * (sa + sx) + u * p * sl) by ring. lra.
Qed.

Lemma acc_sum_coherent r l : forall a s, valid a -> collected a -> float64s a -> Forall valid l -> Forall collected l -> Forall float64s l ->
  coherent (terms a ++ concat (map terms l)) -> sum_up a l = Ok s -> finite64s s ->
  Rabs (value64 r s - (value64 r a + values r l)) <= ((1 + unit64) ^ length l - 1) * (size64 r a + sizes r l).
Proof.
  induction l as [|x l IH]; intros a s Va Ca Fa Vl Cl Fl HC E HF; cbn [sum_up] in E.
  - injection E as ->. unfold values, sizes. cbn. replace (value64 r s - (value64 r s + 0)) with 0 by ring. rewrite Rabs_R0. lra.
  - apply Forall_cons_iff in Vl as [Vx Vl]. apply Forall_cons_iff in Cl as [Cx Cl]. apply Forall_cons_iff in Fl as [Fx Fl].
    destruct (scalar_plus a x) as [b|] eqn:Eb; [|discriminate]. cbn [bind] in E.
    destruct (plus_total a x Va Vx) as (b' & E' & Vb & Nb). assert (b' = b) by congruence. subst b'.
    destruct (scalar_plus_sum a x Va Vx) as (b' & E2 & _ & HS & _). assert (b' = b) by congruence. subst b'. clear E' E2.
    assert (Cb : collected b) by (apply normal_collected; exact Nb). assert (Fb : float64s b) by (apply (float_sum a x b); assumption).
    assert (Hb : finite64s b) by (apply (sum_finite l b s); assumption).
    cbn [map concat] in HC. rewrite app_assoc in HC.
    assert (C1 : coherent (terms a ++ terms x)) by (intros p q Hp Hq; apply HC; apply in_app_iff; left; assumption).
    assert (C2 : coherent (terms b ++ concat (map terms l))).
    { apply (coherent_forms _ _ HC). intros m Hm. apply in_app_iff in Hm as [Hm|Hm].
      - destruct (HS m Hm) as [K|(m0 & I0 & F0)]; [left; exact K|]. right. exists m0. split; [apply in_app_iff; left; exact I0 | exact F0].
      - right. exists m. split; [apply in_app_iff; right; exact Hm | split; reflexivity]. }
    specialize (IH b s Vb Cb Fb Vl Cl Fl C2 E HF).
    assert (A : Rabs (value64 r b - (value64 r a + value64 r x)) <= unit64 * (size64 r a + size64 r x)).
    { apply acc_plus; try assumption. intros p q Hp Hq. apply C1; apply in_app_iff; assumption. }
    assert (Z : size64 r b <= (1 + unit64) * (size64 r a + size64 r x)) by (apply size_plus; assumption).
    pose proof unit64_pos as U. pose proof (size_pos r a) as Pa. pose proof (size_pos r x) as Px. pose proof (sizes_pos r l) as PL.
    change (values r (x :: l)) with (value64 r x + values r l). change (sizes r (x :: l)) with (size64 r x + sizes r l). cbn [length pow].
    assert (P : 1 <= (1 + unit64) ^ length l) by (apply pow_R1_Rle; lra).
    apply (step_bound _ _ _ (value64 r b) _ _ _ _ _ (size64 r b)); assumption.
Qed.

Theorem acc_sum r (a : scalar) (l : list scalar) (s : scalar) : Forall (fun x => valid x /\ collected x /\ float64s x) (a :: l) ->
  unambiguous (fun m => exists x, In x (a :: l) /\ In m (terms x)) -> sum_up a l = Ok s -> finite64s s ->
  Rabs (value64 r s - total (map (value64 r) (a :: l))) <= ((1 + unit64) ^ length l - 1) * total (map (size64 r) (a :: l)).
Proof.
  intros H HU E HF. apply Forall_cons_iff in H as [(Va & Ca & Fa) H]. change (total (map (value64 r) (a :: l))) with (value64 r a + values r l). change (total (map (size64 r) (a :: l))) with (size64 r a + sizes r l).
  apply acc_sum_coherent; try assumption; try (eapply Forall_impl; [|exact H]; cbn; tauto).
  assert (Z : forall m, In m (terms a ++ concat (map terms l)) -> exists x, In x (a :: l) /\ In m (terms x)).
  { intros m Hm. apply in_app_iff in Hm as [Hm|Hm]; [exists a; split; [left; reflexivity | exact Hm]|]. apply in_concat in Hm as (t & Ht & Hm). apply in_map_iff in Ht as (x & <- & Hx). exists x. split; [right; exact Hx | exact Hm]. }
  intros p q Hp Hq. apply HU; apply Z; assumption.
Qed.
End Acc.
