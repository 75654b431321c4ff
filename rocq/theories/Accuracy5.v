(** * The value of a product of float64 expressions, against the exact one: single terms and simplification *)

From Coq Require Import ZArith NArith Bool List Lia Reals Lra.
From Verif Require Import Num NumR Syntax ModelScalar Spec SpecEffect SpecRound SpecAccuracy Base ScalarValid Eval ScalarOps ScalarMore ScalarNorm ScalarFacts Effect FloatExact Round AccFloat Accuracy Accuracy2 Accuracy4.
Import ListNotations.
Local Open Scope R_scope.

Lemma factors64_product r x y q : @valid_mono F64Num x -> @valid_mono F64Num y -> @valid_mono F64Num q -> @product_powers F64Num x y q -> factors64 r q = factors64 r x * factors64 r y.
Proof.
  intros Vx Vy Vq H. pose proof (@eval_product RNum RNum_exact r (to_rmono x) (to_rmono y) (to_rmono q) (rmono_valid x Vx) (rmono_valid y Vy) (rmono_valid q Vq)) as E.
  assert (P : @product_powers RNum (to_rmono x) (to_rmono y) (to_rmono q)) by (intro i; rewrite !rmono_exponent; apply H).
  specialize (E P). assert (C : @m_coeff RNum (to_rmono q) = (@m_coeff RNum (to_rmono x) * @m_coeff RNum (to_rmono y))%num) by (cbn; ring). specialize (E C).
  unfold eval_mono in E. rewrite !rmono_factors in E. cbn in E. lra.
Qed.

Section Acc.
Let NN := F64Num.
Existing Instance NN.

Lemma fold_finite_all (x : num) (l : list num) : float64 x -> Forall float64 l -> finite64 (fold_left nadd l x) -> Forall finite64 (x :: l).
Proof.
  revert x. induction l as [|y l IH]; intros x Hx Hl H; cbn [fold_left] in H; [constructor; [exact H | constructor]|].
  apply Forall_cons_iff in Hl as [Hy Hl]. assert (G : Forall finite64 ((x + y)%num :: l)) by (apply IH; [apply add64_float; assumption | exact Hl | exact H]).
  apply Forall_cons_iff in G as [G1 G2]. apply add64_finite in G1; try assumption. constructor; [apply G1|]. constructor; [apply G1 | exact G2].
Qed.
Lemma in_coefficients (t : Monomial) (s : scalar) : valid_mono t -> In t (terms s) -> (m_coeff t =? n0)%num = false -> In (m_coeff t) (coefficients t s).
Proof.
  intros Vt Ht Z. unfold coefficients. apply filter_In. rewrite Z. split; [|reflexivity]. apply in_map_iff. exists t. split; [reflexivity|]. apply filter_In. split; [exact Ht | apply Effect.alike_refl; exact Vt].
Qed.
Lemma zero64_finite (c : num) : (c =? n0)%num = true -> finite64 c.
Proof. intro Z. destruct c as [q|q| |q m e]; try discriminate Z; try (destruct q; discriminate Z). split; [reflexivity | exact I]. Qed.

Lemma lr_float (l : list num) c : In c (left_to_right_sum l) -> Forall float64 l -> float64 c.
Proof. intros I0 F. apply filter_In in I0 as [I0 _]. destruct l as [|x l]; [destruct I0|]. destruct I0 as [<-|[]]. apply Forall_cons_iff in F as [Fx Fl]. apply fold_float; assumption. Qed.
Lemma lr_finite (l : list num) c : Forall finite64 (left_to_right_sum l) -> Forall float64 l -> In c l -> finite64 c.
Proof.
  intros G F I0. destruct l as [|x l]; [destruct I0|]. apply Forall_cons_iff in F as [Fx Fl]. change (left_to_right_sum (x :: l)) with (nz [fold_left nadd l x]) in G.
  apply finite_nz in G; [|apply fold_float; assumption]. apply fold_finite_all in G; try assumption. rewrite Forall_forall in G. apply G. exact I0.
Qed.

(** what simplifying does, when at most [S n] terms are alike *)
Lemma simplify_n r (a s : scalar) n : valid a -> float64s a -> coherent (terms a) -> (forall m, valid_mono m -> (length (coefficients m a) <= S n)%nat) -> scalar_simplified a = Ok s ->
  valid s /\ collected s /\ float64s s /\ (forall m, In m (terms s) -> is_const m = true \/ formed (terms a) m)
  /\ (finite64s s -> finite64s a /\ Rabs (value64 r s - value64 r a) <= ((1 + unit64) ^ n - 1) * size64 r a /\ size64 r s <= (1 + unit64) ^ n * size64 r a).
Proof.
  intros Va Fa HU HN E. assert (E' : s = ssimplified a) by (rewrite (scalar_simplified_ok a Va) in E; congruence).
  destruct (lred_simplified a Va) as (_ & HS & _). rewrite <- E' in HS. assert (Vs : valid s) by (subst s; apply ssimplified_valid; exact Va).
  assert (Ns : normal s) by (subst s; apply ssimplified_normal; exact Va). clear E'.
  assert (P : forall m, valid_mono m -> coefficients m s = left_to_right_sum (coefficients m a)) by (intros m Vm; exact (f64_simplify a s m Va E Vm)).
  pose proof (valid_terms a Va) as VA. pose proof (valid_terms s Vs) as VS.
  assert (FA : forall m, Forall float64 (coefficients m a)) by (intro m; apply coefficients_all; exact Fa).
  split; [exact Vs|]. split; [apply normal_collected; exact Ns|]. split; [|split; [exact HS|]].
  { apply Forall_forall. intros t Ht. assert (Vt : valid_mono t) by (rewrite Forall_forall in VS; apply VS; exact Ht). destruct (m_coeff t =? n0)%num eqn:Z; [apply zero64_finite; exact Z|].
    pose proof (in_coefficients t s Vt Ht Z) as I0. rewrite (P t Vt) in I0. exact (lr_float _ _ I0 (FA t)). }
  intro HF. split; [|split].
  - apply Forall_forall. intros t Ht. assert (Vt : valid_mono t) by (rewrite Forall_forall in VA; apply VA; exact Ht). destruct (m_coeff t =? n0)%num eqn:Z; [apply zero64_finite; exact Z|].
    pose proof (in_coefficients t a Vt Ht Z) as I0. assert (G : Forall finite64 (coefficients t s)) by exact (coefficients_all finite64 t s HF). assert (P0 : coefficients t s = left_to_right_sum (coefficients t a)) by exact (P t Vt). rewrite P0 in G. exact (lr_finite _ _ G (FA t) I0).
  - replace (value64 r s - value64 r a) with (value64 r s - 1 * value64 r a) by ring.
    rewrite <- (Rplus_0_r (((1 + unit64) ^ n - 1) * size64 r a)). rewrite <- (Rmult_0_l (spread64 r a)).
    apply bound1; try assumption; [lra|]. intros m Vm. assert (G : Forall finite64 (coefficients m s)) by exact (coefficients_all finite64 m s HF). assert (P0 : coefficients m s = left_to_right_sum (coefficients m a)) by exact (P m Vm). rewrite P0 in G |- *.
    rewrite Rmult_1_l, Rmult_0_l, Rplus_0_r. apply sum_left_to_right; [apply FA | apply HN; exact Vm | exact G].
  - set (all := terms a ++ terms s). assert (V : Forall valid_mono all) by (apply Forall_app; split; assumption).
    assert (Hg : forall x y, In x all -> In y all -> alike x y = true -> Rabs (factors64 r x) = Rabs (factors64 r y)).
    { intros x y Hx Hy A. f_equal. exact (formed_values r (terms a) (terms s) VA VS HU HS x y Hx Hy A). }
    assert (AB : forall t, incl (terms t) all -> size64 r t = total (map (fun m => sumA (coefficients m t) * Rabs (factors64 r m)) (reps all))).
    { intros t It. unfold size64. etransitivity; [|etransitivity; [exact (decomposed (fun m => Rabs (factors64 r m)) (fun c => Rabs (real64 c)) all (terms t) V Hg It)|]].
      - apply total_ext. intros u _. apply Rabs_mult.
      - apply total_ext. intros m _. rewrite sumA_cs. reflexivity. }
    rewrite (AB s), (AB a); [|apply incl_appl, incl_refl | apply incl_appr, incl_refl].
    rewrite <- total_scale. apply total_le. intros m Hm. rewrite <- Rmult_assoc. apply Rmult_le_compat_r; [apply Rabs_pos|].
    assert (Vm : valid_mono m) by (rewrite Forall_forall in V; apply V, reps_incl; exact Hm).
    assert (G : Forall finite64 (coefficients m s)) by exact (coefficients_all finite64 m s HF). assert (P0 : coefficients m s = left_to_right_sum (coefficients m a)) by exact (P m Vm). rewrite P0 in G |- *.
    pose proof (sum_left_to_right (coefficients m a) n (FA m) (HN m Vm) G) as B. revert G B. generalize (FA m) (coefficients m a). clear.
    intros _ l _ B. destruct l as [|x l].
    + unfold left_to_right_sum, sumA. cbn. rewrite Rmult_0_r. lra.
    + change (left_to_right_sum (x :: l)) with (nz [fold_left nadd l x]) in *. rewrite sumR_nz in B. rewrite sumA_nz. set (z := fold_left nadd l x) in *.
      unfold sumA at 1. cbn [map total]. change (sumR [z]) with (real64 z + 0) in B. rewrite Rplus_0_r in *.
      assert (S : Rabs (sumR (x :: l)) <= sumA (x :: l)) by (unfold sumR, sumA; apply total_abs).
      pose proof (Rabs_triang (real64 z - sumR (x :: l)) (sumR (x :: l))) as T. replace (real64 z - sumR (x :: l) + sumR (x :: l)) with (real64 z) in T by ring. lra.
Qed.

(** ** results of products *)
Definition lvalue (r : N -> R) (L : list Monomial) : R := total (map (fun t => real64 (m_coeff t) * factors64 r t) L).
Definition lsize (r : N -> R) (L : list Monomial) : R := total (map (fun t => Rabs (real64 (m_coeff t) * factors64 r t)) L).
Definition lspread (r : N -> R) (L : list Monomial) : R := total (map (fun t => Rabs (factors64 r t)) L).

Definition from (A B : list Monomial) (m : Monomial) : Prop := (valid_mono m /\ is_const m = true) \/ product_of A B m.
Definition within (r : N -> R) (A B : list Monomial) (n : nat) (s : scalar) : Prop :=
  Rabs (value64 r s - lvalue r A * lvalue r B) <= ((1 + unit64) ^ n - 1) * (lsize r A * lsize r B) + (1 + unit64) ^ n * tiny64 * (lspread r A * lspread r B)
  /\ size64 r s <= (1 + unit64) ^ n * (lsize r A * lsize r B) + (1 + unit64) ^ n * tiny64 * (lspread r A * lspread r B).
Definition product_near (r : N -> R) (A B : list Monomial) (n : nat) (s : scalar) : Prop :=
  valid s /\ float64s s /\ (forall m, In m (terms s) -> from A B m) /\ (finite64s s -> within r A B n s).

Lemma lsize_pos r L : 0 <= lsize r L.
Proof. apply total_pos. intros. apply Rabs_pos. Qed.
Lemma lspread_pos r L : 0 <= lspread r L.
Proof. apply total_pos. intros. apply Rabs_pos. Qed.
Lemma pow_unit n : 1 <= (1 + unit64) ^ n.
Proof. apply pow_R1_Rle. pose proof unit64_pos. lra. Qed.

Lemma near_swap r A B n s : product_near r B A n s -> product_near r A B n s.
Proof.
  intros (V & F & H & W). split; [exact V|]. split; [exact F|]. split.
  - intros m Hm. destruct (H m Hm) as [C|(C & m1 & m2 & D1 & D2 & D3)]; [left; exact C|]. right. split; [exact C|]. exists m2, m1. split; [exact D2|]. split; [exact D1|]. intro i. rewrite D3. lia.
  - intro HF. destruct (W HF) as [W1 W2]. split.
    + rewrite (Rmult_comm (lvalue r A)), (Rmult_comm (lsize r A)), (Rmult_comm (lspread r A)). exact W1.
    + rewrite (Rmult_comm (lsize r A)), (Rmult_comm (lspread r A)). exact W2.
Qed.
Lemma near_more r A B n n' s : (n <= n')%nat -> product_near r A B n s -> product_near r A B n' s.
Proof.
  intros Hn (V & F & H & W). split; [exact V|]. split; [exact F|]. split; [exact H|]. intro HF. destruct (W HF) as [W1 W2]. pose proof unit64_pos as U. pose proof tiny64_pos as T.
  assert (P : (1 + unit64) ^ n <= (1 + unit64) ^ n') by (apply Rle_pow; [clear - U; lra | exact Hn]).
  assert (S0 : 0 <= lsize r A * lsize r B) by (apply Rmult_le_pos; apply lsize_pos). assert (Q0 : 0 <= tiny64 * (lspread r A * lspread r B)) by (apply Rmult_le_pos; [exact T | apply Rmult_le_pos; apply lspread_pos]).
  assert (I1 : (1 + unit64) ^ n * (lsize r A * lsize r B) <= (1 + unit64) ^ n' * (lsize r A * lsize r B)) by (apply Rmult_le_compat_r; assumption).
  assert (I2 : (1 + unit64) ^ n * (tiny64 * (lspread r A * lspread r B)) <= (1 + unit64) ^ n' * (tiny64 * (lspread r A * lspread r B))) by (apply Rmult_le_compat_r; assumption).
  split; [eapply Rle_trans; [exact W1|]; lra | eapply Rle_trans; [exact W2|]; lra].
Qed.

(** products of terms are coherent with each other and with constants *)
Lemma from_coherent A B L : unambiguous (product_of A B) -> (forall m, In m L -> from A B m) -> coherent L.
Proof.
  intros HU H m1 m2 H1 H2 HL. pose proof (const_like _ _ HL) as K. destruct (H m1 H1) as [[_ C1]|P1], (H m2 H2) as [[_ C2]|P2].
  - apply const_powers; assumption.
  - apply const_powers; congruence.
  - apply const_powers; congruence.
  - apply HU; assumption.
Qed.
Lemma from_formed A B L m : valid_mono m -> (forall x, In x L -> from A B x) -> is_const m = true \/ formed L m -> from A B m.
Proof.
  intros Vm HL [C|(m0 & I0 & F1 & F2)]; [left; split; assumption|]. destruct (HL m0 I0) as [[_ C]|(_ & m1 & m2 & D1 & D2 & D3)].
  - left. split; [exact Vm|]. unfold is_const in *. rewrite F2. exact C.
  - right. split; [exact Vm|]. exists m1, m2. split; [exact D1|]. split; [exact D2|]. intro i. rewrite <- D3. unfold exponent. rewrite F1, F2. reflexivity.
Qed.

Lemma near_simplify r A B n k a s : unambiguous (product_of A B) -> product_near r A B n a -> (forall m, valid_mono m -> (length (coefficients m a) <= S k)%nat) -> scalar_simplified a = Ok s ->
  product_near r A B (n + k) s /\ collected s.
Proof.
  intros HU (V & F & H & W) HK E. assert (HC : coherent (terms a)) by (apply (from_coherent A B); assumption).
  destruct (simplify_n r a s k V F HC HK E) as (Vs & Cs & Fs & Hs & B0). split; [|exact Cs]. split; [exact Vs|]. split; [exact Fs|]. split.
  - intros m Hm. pose proof (valid_terms s Vs) as VS. rewrite Forall_forall in VS. apply (from_formed A B (terms a)); [apply VS; exact Hm | exact H | apply Hs; exact Hm].
  - intro HF. destruct (B0 HF) as (FA & B1 & B2). destruct (W FA) as [W1 W2]. unfold within. rewrite pow_add. pose proof (pow_unit n) as Pn. pose proof (pow_unit k) as Pk.
    set (x := (1 + unit64) ^ n) in *. set (y := (1 + unit64) ^ k) in *. set (SS := lsize r A * lsize r B) in *. set (QQ := lspread r A * lspread r B) in *.
    assert (I1 : (y - 1) * size64 r a <= (y - 1) * (x * SS + x * tiny64 * QQ)) by (apply Rmult_le_compat_l; [lra | exact W2]).
    assert (I2 : y * size64 r a <= y * (x * SS + x * tiny64 * QQ)) by (apply Rmult_le_compat_l; [lra | exact W2]).
    split; [|lra]. replace (value64 r s - lvalue r A * lvalue r B) with ((value64 r s - value64 r a) + (value64 r a - lvalue r A * lvalue r B)) by ring.
    eapply Rle_trans; [apply Rabs_triang|]. lra.
Qed.

(** ** products of two terms *)
Definition term_product (x y q : Monomial) : Prop :=
  valid_mono q /\ product_powers x y q /\ float64 (m_coeff q)
  /\ (finite64 (m_coeff q) -> Rabs (real64 (m_coeff q) - real64 (m_coeff x) * real64 (m_coeff y)) <= unit64 * Rabs (real64 (m_coeff x) * real64 (m_coeff y)) + tiny64).

Lemma term_near r x y q : valid_mono x -> valid_mono y -> term_product x y q -> finite64 (m_coeff q) ->
  Rabs (real64 (m_coeff q) * factors64 r q - (real64 (m_coeff x) * factors64 r x) * (real64 (m_coeff y) * factors64 r y))
  <= unit64 * (Rabs (real64 (m_coeff x) * factors64 r x) * Rabs (real64 (m_coeff y) * factors64 r y)) + tiny64 * (Rabs (factors64 r x) * Rabs (factors64 r y)).
Proof.
  intros Vx Vy (Vq & HP & Fq & HB) HF. specialize (HB HF). rewrite (factors64_product r x y q Vx Vy Vq HP).
  set (c := real64 (m_coeff q)) in *. set (a := real64 (m_coeff x)) in *. set (b := real64 (m_coeff y)) in *. set (f := factors64 r x). set (g := factors64 r y).
  replace (c * (f * g) - a * f * (b * g)) with ((c - a * b) * (f * g)) by ring. rewrite Rabs_mult.
  replace (unit64 * (Rabs (a * f) * Rabs (b * g)) + tiny64 * (Rabs f * Rabs g)) with ((unit64 * Rabs (a * b) + tiny64) * Rabs (f * g)) by (rewrite !Rabs_mult; ring).
  apply Rmult_le_compat_r; [apply Rabs_pos | exact HB].
Qed.
End Acc.
