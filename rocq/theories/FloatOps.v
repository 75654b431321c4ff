(** * Plus, Minus, Multiply, Power, DerivativeWrt and Substitute on short coefficients *)

From Coq Require Import ZArith NArith Bool List Lia.
From Coq Require Import QArith Qcanon.
From Coq.Floats Require Import SpecFloat.
From Verif Require Import Num Syntax ModelScalar Spec SpecProg SpecExact FloatExact FloatSim FloatRun.
Import ListNotations.
Local Open Scope Z_scope.

(** ** Other scales *)

Lemma mon_regrid k j m z : 0 <= j -> mon k m z -> mon (k + j) m (z * 2 ^ j).
Proof. intros Hj [H K]. split; [exact H | apply grid_regrid; assumption]. Qed.
Lemma abs_pow2 z j n : 0 <= j -> Z.abs z <= n -> Z.abs (z * 2 ^ j) <= n * 2 ^ j.
Proof. intros Hj H. assert (0 < 2 ^ j) by (apply Z.pow_pos_nonneg; lia). rewrite Z.abs_mul, (Z.abs_eq (2 ^ j)) by lia. apply Z.mul_le_mono_nonneg_r; lia. Qed.
Lemma pol_regrid k j l n : 0 <= j -> pol k l n -> pol (k + j) l (n * 2 ^ j).
Proof.
  intro Hj. assert (0 < 2 ^ j) by (apply Z.pow_pos_nonneg; lia). induction 1 as [n Hn|m z l n n' Hm Hl IH L].
  - apply pol_nil. nia.
  - eapply pol_cons; [apply mon_regrid; eassumption | exact IH |]. pose proof (abs_pow2 z j _ Hj (Z.le_refl _)). nia.
Qed.
Lemma sc_regrid k j s n : 0 <= k -> 0 <= j -> sc k n s -> sc (k + j) (n * 2 ^ j) s.
Proof.
  intros Hk Hj H. destruct s as [c|v|m|p]; cbn [sc] in *.
  - destruct H as (z & H & L). exists (z * 2 ^ j). split; [apply grid_regrid; assumption | apply abs_pow2; assumption].
  - destruct H as [Hv L]. split; [exact Hv|]. rewrite Z.pow_add_r by lia. apply Z.mul_le_mono_nonneg_r; [apply Z.pow_nonneg; lia | exact L].
  - destruct H as (z & H & L). exists (z * 2 ^ j). split; [apply mon_regrid; assumption | apply abs_pow2; assumption].
  - apply pol_regrid; assumption.
Qed.

(** ** Plus *)

Lemma set_nth_map {A B} (f : A -> B) i x l : set_nth i (f x) (map f l) = map f (set_nth i x l).
Proof. revert i; induction l as [|a l IH]; intros [|i]; cbn [set_nth map]; try reflexivity. rewrite IH. reflexivity. Qed.

Lemma pol_set_nth k l n i m z c zc : pol k l n -> nth_error l i = Some m -> grid k z (m_coeff m) -> Z.abs z <= n -> grid k zc c ->
  forall (Hu : forall z', grid k z' (m_coeff m) -> z' = z), pol k (set_nth i (set_coeff m c) l) (n - Z.abs z + Z.abs zc).
Proof.
  intros H. revert i. induction H as [n Hn|m0 z0 l n n' Hm Hl IH L]; intros i E Gm Lz Gc Hu; [destruct i; discriminate|].
  destruct i as [|i]; cbn [nth_error set_nth] in *.
  - injection E as ->. rewrite <- (Hu _ (proj2 Hm)) in *. eapply pol_cons; [eapply mon_set; [exact Hm | exact Gc] | exact Hl | lia].
  - assert (Lz' : Z.abs z <= n).
    { destruct (pol_in _ _ _ _ Hl (nth_error_In _ _ E)) as (z' & [_ G'] & L'). rewrite (Hu _ G') in L'. exact L'. }
    eapply pol_cons; [exact Hm | apply (IH i E Gm Lz' Gc Hu) | lia].
Qed.
Lemma grid_unique k z z' f : grid k z f -> grid k z' f -> z' = z.
Proof.
  destruct f as [s|s| |s m e]; cbn [grid]; try contradiction.
  - intros -> ->. reflexivity.
  - intros (_ & _ & H) (_ & _ & H'). rewrite H in H'. apply dy_eq_iff in H'. symmetry. exact H'.
Qed.

(** the position found by a search, its coefficient increased by [x] *)
Lemma increase_sim k p n x zx i : 0 <= k <= 1000 -> pol k p n -> grid k zx x -> n + Z.abs zx <= top ->
  sim rs (sc k (n + Z.abs zx))
    (m <- @index (@Monomial F) p i ;; @poly_simplified F (set_nth i (set_coeff m (@nadd F (m_coeff m) x)) p))
    (m <- @index (@Monomial G) (map rm p) i ;; @poly_simplified G (set_nth i (set_coeff m (@nadd G (m_coeff m) (exactly x))) (map rm p))).
Proof.
  intros Hk H Hx Ht. unfold index at 1 2. rewrite nth_error_map. destruct (nth_error p i) as [m|] eqn:E; cbn [option_map bind]; [|reflexivity].
  destruct (pol_in _ _ _ _ H (nth_error_In _ _ E)) as (z & [Hv Gz] & L).
  assert (Gs : grid k (z + zx) (@nadd F (m_coeff m) x)) by (apply add_exact; [exact Hk | exact Gz | exact Hx | rewrite <- top_eq; lia]).
  assert (R : @nadd G (@m_coeff G (rm m)) (exactly x) = exactly (@nadd F (m_coeff m) x)).
  { cbn [m_coeff exact_mono nadd QNum F64Num]. symmetry. apply (rd_add k z zx); [exact Hk | exact Gz | exact Hx | rewrite <- top_eq; lia]. }
  rewrite R, <- rm_set_coeff, set_nth_map. apply poly_simplified_sim; [exact Hk | | exact Ht].
  eapply pol_le; [eapply (pol_set_nth k p n i m z); try eassumption; intros z' G'; eapply grid_unique; eassumption | lia].
Qed.

Lemma poly_plus_k_sim k p n c z : 0 <= k <= 1000 -> pol k p n -> grid k z c -> n + Z.abs z <= top ->
  sim rs (sc k (n + Z.abs z)) (@poly_plus_k F p c) (@poly_plus_k G (map rm p) (exactly c)).
Proof.
  intros Hk H Hc Ht. unfold poly_plus_k. apply sim_check; [apply poly_check_sim|]. intros _. eapply sim_bind; [apply sim_same; apply constant_index_sim|].
  intros [i|] _; cbn beta iota.
  - apply increase_sim; assumption.
  - change [@k_to_mono G (exactly c)] with (map rm [@k_to_mono F c]). rewrite <- map_app. apply poly_simplified_sim; [exact Hk | | exact Ht].
    apply pol_app; [exact H|]. eapply pol_single; [apply mon_const; exact Hc | lia].
Qed.
Lemma mon_var k v : 0 <= k -> numeric_var v -> mon k (@var_to_mono F v) (2 ^ k).
Proof. intros Hk Hv. split; [intros w [<-|[]]; exact Hv | apply grid_one; exact Hk]. Qed.
Lemma rm_var v : rm (@var_to_mono F v) = @var_to_mono G (rv v).
Proof. unfold exact_mono, var_to_mono. cbn [m_coeff m_exps m_vars map]. rewrite rd_one. reflexivity. Qed.
Lemma abs_2k k : 0 <= k -> Z.abs (2 ^ k) = 2 ^ k.
Proof. intro H. apply Z.abs_eq. apply Z.pow_nonneg. lia. Qed.

Lemma poly_plus_var_sim k p n v : 0 <= k <= 1000 -> pol k p n -> numeric_var v -> n + 2 ^ k <= top ->
  sim rs (sc k (n + 2 ^ k)) (@poly_plus_var F p v) (@poly_plus_var G (map rm p) (rv v)).
Proof.
  intros Hk H Hv Ht. unfold poly_plus_var. apply sim_check; [apply poly_check_sim|]. intros _. apply sim_check; [apply var_check_sim; exact Hv|]. intros _.
  eapply sim_bind; [apply sim_same; apply variable_index_sim; exact Hv|]. intros [i|] _; cbn beta iota.
  - rewrite <- (abs_2k k) by lia. rewrite <- rd_one. apply increase_sim; [exact Hk | exact H | apply grid_one; lia | rewrite abs_2k; lia].
  - rewrite <- rm_var. change [rm (@var_to_mono F v)] with (map rm [@var_to_mono F v]). rewrite <- map_app. apply poly_simplified_sim; [exact Hk | | exact Ht].
    apply pol_app; [exact H|]. eapply pol_single; [apply mon_var; [lia | exact Hv] | rewrite abs_2k; lia].
Qed.
Lemma poly_plus_poly_sim k p n q n' : 0 <= k <= 1000 -> pol k p n -> pol k q n' -> n + n' <= top ->
  sim rs (sc k (n + n')) (@poly_plus_poly F p q) (@poly_plus_poly G (map rm p) (map rm q)).
Proof.
  intros Hk H H' Ht. unfold poly_plus_poly. apply sim_check; [apply poly_check_sim|]. intros _. apply sim_check; [apply poly_check_sim|]. intros _.
  rewrite <- map_app. eapply sim_bind; [apply (poly_simplified_sim k (p ++ q) (n + n')); [exact Hk | apply pol_app; assumption | exact Ht]|].
  intros s Hs. apply simplified_sim; assumption.
Qed.
Lemma poly_plus_mono_sim k p n m z : 0 <= k <= 1000 -> pol k p n -> mon k m z -> n + Z.abs z <= top ->
  sim rs (sc k (n + Z.abs z)) (@poly_plus_mono F p m) (@poly_plus_mono G (map rm p) (rm m)).
Proof.
  intros Hk H H' Ht. unfold poly_plus_mono. apply sim_check; [apply poly_check_sim|]. intros _. apply sim_check; [apply mono_check_sim|]. intros _.
  change (@mono_to_poly G (rm m)) with (map rm [m]). eapply sim_bind; [apply (poly_plus_poly_sim k p n [m] (Z.abs z)); [exact Hk | exact H | eapply pol_single; [exact H' | lia] | exact Ht]|].
  intros s Hs. apply simplified_sim; assumption.
Qed.
Lemma mono_plus_k_sim k m z c zc : 0 <= k <= 1000 -> mon k m z -> grid k zc c -> Z.abs z + Z.abs zc <= top ->
  sim rs (sc k (Z.abs z + Z.abs zc)) (@mono_plus_k F m c) (@mono_plus_k G (rm m) (exactly c)).
Proof.
  intros Hk Hm Hc Ht. unfold mono_plus_k. apply sim_check; [apply mono_check_sim|]. intros _. eapply sim_bind; [apply sim_same; apply is_constant_sim|]. intros b _. cbn beta.
  assert (Gs : grid k (z + zc) (@nadd F (m_coeff m) c)) by (apply add_exact; [exact Hk | apply Hm | exact Hc | rewrite <- top_eq; lia]).
  assert (R : @nadd G (@m_coeff G (rm m)) (exactly c) = exactly (@nadd F (m_coeff m) c)).
  { cbn [m_coeff exact_mono nadd QNum F64Num]. symmetry. apply (rd_add k z zc); [exact Hk | apply Hm | exact Hc | rewrite <- top_eq; lia]. }
  rewrite R.
  assert (E : (if b then @SK G (exactly (@nadd F (m_coeff m) c)) else @SP G [rm m; @k_to_mono G (exactly c)]) = rs (if b then @SK F (@nadd F (m_coeff m) c) else @SP F [m; @k_to_mono F c])) by (destruct b; reflexivity).
  rewrite E. apply simplified_sim; [exact Hk | | exact Ht]. destruct b; cbn [sc].
  - exists (z + zc). split; [exact Gs | lia].
  - eapply pol_cons; [exact Hm | eapply pol_single; [apply mon_const; exact Hc | apply Z.le_refl] | lia].
Qed.
Lemma mono_plus_var_sim k m z v : 0 <= k <= 1000 -> mon k m z -> numeric_var v -> Z.abs z + 2 ^ k <= top ->
  sim rs (sc k (Z.abs z + 2 ^ k)) (@mono_plus_var F m v) (@mono_plus_var G (rm m) (rv v)).
Proof.
  intros Hk Hm Hv Ht. unfold mono_plus_var. apply sim_check; [apply mono_check_sim|]. intros _. apply sim_check; [apply var_check_sim; exact Hv|]. intros _.
  eapply sim_bind; [apply sim_same; apply degree_one_sim; exact Hv|]. intros b _. cbn beta.
  assert (G1 : grid k (2 ^ k) (@n1 F)) by (apply grid_one; lia). assert (A1 := abs_2k k (proj1 Hk)).
  assert (Gs : grid k (z + 2 ^ k) (@nadd F (m_coeff m) (@n1 F))) by (apply add_exact; [exact Hk | apply Hm | exact G1 | rewrite <- top_eq; lia]).
  assert (R : @nadd G (@m_coeff G (rm m)) (@n1 G) = exactly (@nadd F (m_coeff m) (@n1 F))).
  { rewrite <- rd_one. cbn [m_coeff exact_mono nadd QNum F64Num]. symmetry. apply (rd_add k z (2 ^ k)); [exact Hk | apply Hm | exact G1 | rewrite <- top_eq; lia]. }
  rewrite R, <- rm_set_coeff, <- rm_var.
  assert (E : (if b then @SM G (rm (set_coeff m (@nadd F (m_coeff m) (@n1 F)))) else @SP G [rm m; rm (@var_to_mono F v)]) = rs (if b then @SM F (set_coeff m (@nadd F (m_coeff m) (@n1 F))) else @SP F [m; @var_to_mono F v])) by (destruct b; reflexivity).
  rewrite E. apply simplified_sim; [exact Hk | | exact Ht]. destruct b; cbn [sc].
  - exists (z + 2 ^ k). split; [eapply mon_set; [exact Hm | exact Gs] | lia].
  - eapply pol_cons; [exact Hm | eapply pol_single; [apply mon_var; [lia | exact Hv] | apply Z.le_refl] | lia].
Qed.
Lemma mono_plus_mono_sim k m z m' z' : 0 <= k <= 1000 -> mon k m z -> mon k m' z' -> Z.abs z + Z.abs z' <= top ->
  sim rs (sc k (Z.abs z + Z.abs z')) (@mono_plus_mono F m m') (@mono_plus_mono G (rm m) (rm m')).
Proof.
  intros Hk Hm Hm' Ht. unfold mono_plus_mono. apply sim_check; [apply mono_check_sim|]. intros _. apply sim_check; [apply mono_check_sim|]. intros _.
  eapply sim_bind; [apply sim_same; apply matches_sim|]. intros b _. cbn beta.
  assert (Gs : grid k (z + z') (@nadd F (m_coeff m) (m_coeff m'))) by (apply add_exact; [exact Hk | apply Hm | apply Hm' | rewrite <- top_eq; lia]).
  assert (R : @nadd G (@m_coeff G (rm m)) (@m_coeff G (rm m')) = exactly (@nadd F (m_coeff m) (m_coeff m'))).
  { cbn [m_coeff exact_mono nadd QNum F64Num]. symmetry. apply (rd_add k z z'); [exact Hk | apply Hm | apply Hm' | rewrite <- top_eq; lia]. }
  rewrite R, <- rm_set_coeff.
  assert (E : (if b then @SM G (rm (set_coeff m (@nadd F (m_coeff m) (m_coeff m')))) else @SP G [rm m; rm m']) = rs (if b then @SM F (set_coeff m (@nadd F (m_coeff m) (m_coeff m'))) else @SP F [m; m'])) by (destruct b; reflexivity).
  rewrite E. apply simplified_sim; [exact Hk | | exact Ht]. destruct b; cbn [sc].
  - exists (z + z'). split; [eapply mon_set; [exact Hm | exact Gs] | lia].
  - eapply pol_cons; [exact Hm | eapply pol_single; [exact Hm' | apply Z.le_refl] | lia].
Qed.
Lemma var_plus_k_sim k v c z : 0 <= k <= 1000 -> numeric_var v -> grid k z c -> 2 ^ k + Z.abs z <= top ->
  sim rs (sc k (2 ^ k + Z.abs z)) (@var_plus_k F v c) (@var_plus_k G (rv v) (exactly c)).
Proof.
  intros Hk Hv Hc Ht. unfold var_plus_k. apply sim_check; [apply var_check_sim; exact Hv|]. intros _. rewrite <- rm_var.
  change [rm (@var_to_mono F v); @k_to_mono G (exactly c)] with (map rm [@var_to_mono F v; @k_to_mono F c]). apply poly_simplified_sim; [exact Hk | | exact Ht].
  eapply pol_cons; [apply mon_var; [lia | exact Hv] | eapply pol_single; [apply mon_const; exact Hc | apply Z.le_refl] | rewrite abs_2k; lia].
Qed.
Lemma var_plus_var_sim k v w : 0 <= k <= 1000 -> numeric_var v -> numeric_var w -> 2 ^ k + 2 ^ k <= top ->
  sim rs (sc k (2 ^ k + 2 ^ k)) (@var_plus_var F v w) (@var_plus_var G (rv v) (rv w)).
Proof.
  intros Hk Hv Hw Ht. unfold var_plus_var. apply sim_check; [apply var_check_sim; exact Hv|]. intros _. rewrite <- !rm_var. change (@same_id G (rv v) (rv w)) with (@same_id F v w).
  assert (E2 : exactly (@n2 F) = @n2 G) by (apply rd_ofZ; lia).
  assert (G2 : grid k (2 ^ k + 2 ^ k) (@n2 F)).
  { replace (2 ^ k + 2 ^ k) with (2 * 2 ^ k) by lia. replace k with (0 + k) at 1 by lia. apply grid_regrid; [lia|]. apply ofZ_exact. lia. }
  assert (P : 0 < 2 ^ k) by (apply Z.pow_pos_nonneg; lia).
  assert (E : (if @same_id F v w then @SM G (@mkMono G (@n2 G) [1] [rv v]) else @SP G [rm (@var_to_mono F v); rm (@var_to_mono F w)]) = rs (if @same_id F v w then @SM F (@mkMono F (@n2 F) [1] [v]) else @SP F [@var_to_mono F v; @var_to_mono F w])).
  { destruct (@same_id F v w); [|reflexivity]. cbn [exact_scalar]. unfold exact_mono. cbn [m_coeff m_exps m_vars map]. rewrite E2. reflexivity. }
  rewrite E. apply simplified_sim; [exact Hk | | exact Ht]. destruct (@same_id F v w); cbn [sc].
  - exists (2 ^ k + 2 ^ k). split; [|lia]. split; [intros x [<-|[]]; exact Hv | exact G2].
  - eapply pol_cons; [apply mon_var; [lia | exact Hv] | eapply pol_single; [apply mon_var; [lia | exact Hw] | apply Z.le_refl] | rewrite !abs_2k; lia].
Qed.

Lemma scalar_check_sim k n s : sc k n s -> @scalar_check G (rs s) = @scalar_check F s.
Proof.
  destruct s as [c|v|m|p]; cbn [sc scalar_check exact_scalar]; intro H; [reflexivity | apply var_check_sim; apply H | apply mono_check_sim | apply poly_check_sim].
Qed.

(** the result of a sum simplified once more *)
Lemma again k n x y : 0 <= k <= 1000 -> n <= top -> sim rs (sc k n) x y ->
  sim rs (sc k n) (o <- x ;; @scalar_simplified F o) (o <- y ;; @scalar_simplified G o).
Proof. intros Hk Ht H. eapply sim_bind; [exact H|]. intros a Ha. apply simplified_sim; assumption. Qed.

Lemma plus_sim k a na b nb : 0 <= k <= 1000 -> sc k na a -> sc k nb b -> na + nb <= top ->
  sim rs (sc k (na + nb)) (@scalar_plus F a b) (@scalar_plus G (rs a) (rs b)).
Proof.
  intros Hk Ha Hb Ht. pose proof (sc_nonneg _ _ _ Ha). pose proof (sc_nonneg _ _ _ Hb). assert (P : 0 < 2 ^ k) by (apply Z.pow_pos_nonneg; lia).
  assert (W : forall n x y, n <= na + nb -> sim rs (sc k n) x y -> sim rs (sc k (na + nb)) x y).
  { intros n x y L. apply sim_weak. intros s Hs. eapply sc_le; eassumption. }
  destruct a as [c|v|m|p]; cbn [scalar_plus exact_scalar sc] in *.
  - destruct Ha as (z & Gc & L). unfold k_plus. apply sim_check; [eapply scalar_check_sim; exact Hb|]. intros _. destruct b as [c'|w|m'|q]; cbn [exact_scalar sc] in *.
    + destruct Hb as (z' & Gc' & L'). apply sim_ok.
      * exists (z + z'). split; [apply add_exact; [exact Hk | exact Gc | exact Gc' | rewrite <- top_eq; lia] | lia].
      * cbn [exact_scalar nadd QNum F64Num]. f_equal. symmetry. apply (rd_add k z z'); [exact Hk | exact Gc | exact Gc' | rewrite <- top_eq; lia].
    + destruct Hb as [Hw L']. apply (W (2 ^ k + Z.abs z)); [lia|]. apply var_plus_k_sim; [exact Hk | exact Hw | exact Gc | lia].
    + destruct Hb as (z' & Hm & L'). apply (W (Z.abs z' + Z.abs z)); [lia|]. apply mono_plus_k_sim; [exact Hk | exact Hm | exact Gc | lia].
    + apply (W (nb + Z.abs z)); [lia|]. apply poly_plus_k_sim; [exact Hk | exact Hb | exact Gc | lia].
  - destruct Ha as [Hv L]. destruct b as [c'|w|m'|q]; cbn [var_plus exact_scalar sc] in *.
    + destruct Hb as (z' & Gc' & L'). apply (W (2 ^ k + Z.abs z')); [lia|]. apply var_plus_k_sim; [exact Hk | exact Hv | exact Gc' | lia].
    + destruct Hb as [Hw L']. apply (W (2 ^ k + 2 ^ k)); [lia|]. apply var_plus_var_sim; [exact Hk | exact Hv | exact Hw | lia].
    + destruct Hb as (z' & Hm & L'). apply (W (Z.abs z' + 2 ^ k)); [lia|]. unfold var_plus_mono. apply sim_check; [apply var_check_sim; exact Hv|]. intros _.
      apply again; [exact Hk | lia |]. apply mono_plus_var_sim; [exact Hk | exact Hm | exact Hv | lia].
    + apply (W (nb + 2 ^ k)); [lia|]. unfold var_plus_poly. apply sim_check; [apply var_check_sim; exact Hv|]. intros _.
      apply again; [exact Hk | lia |]. apply poly_plus_var_sim; [exact Hk | exact Hb | exact Hv | lia].
  - destruct Ha as (z & Hm & L). destruct b as [c'|w|m'|q]; cbn [mono_plus exact_scalar sc] in *.
    + destruct Hb as (z' & Gc' & L'). apply (W (Z.abs z + Z.abs z')); [lia|]. apply mono_plus_k_sim; [exact Hk | exact Hm | exact Gc' | lia].
    + destruct Hb as [Hw L']. apply (W (Z.abs z + 2 ^ k)); [lia|]. apply mono_plus_var_sim; [exact Hk | exact Hm | exact Hw | lia].
    + destruct Hb as (z' & Hm' & L'). apply (W (Z.abs z + Z.abs z')); [lia|]. apply mono_plus_mono_sim; [exact Hk | exact Hm | exact Hm' | lia].
    + apply (W (nb + Z.abs z)); [lia|]. unfold mono_plus_poly. apply sim_check; [apply mono_check_sim|]. intros _. apply sim_check; [apply poly_check_sim|]. intros _.
      apply again; [exact Hk | lia |]. apply poly_plus_mono_sim; [exact Hk | exact Hb | exact Hm | lia].
  - destruct b as [c'|w|m'|q]; cbn [poly_plus exact_scalar sc] in *.
    + destruct Hb as (z' & Gc' & L'). apply (W (na + Z.abs z')); [lia|]. apply poly_plus_k_sim; [exact Hk | exact Ha | exact Gc' | lia].
    + destruct Hb as [Hw L']. apply (W (na + 2 ^ k)); [lia|]. apply poly_plus_var_sim; [exact Hk | exact Ha | exact Hw | lia].
    + destruct Hb as (z' & Hm' & L'). apply (W (na + Z.abs z')); [lia|]. apply poly_plus_mono_sim; [exact Hk | exact Ha | exact Hm' | lia].
    + apply poly_plus_poly_sim; assumption.
Qed.

(** ** Multiply *)

Definition ms (k n : Z) (m : @Monomial F) : Prop := exists z, mon k m z /\ Z.abs z <= n.

Lemma abs_mul_le a b x y : Z.abs a <= x -> Z.abs b <= y -> Z.abs (a * b) <= x * y.
Proof. intros H1 H2. rewrite Z.abs_mul. apply Z.mul_le_mono_nonneg; lia. Qed.

Lemma mul_k_sim k m z k' c zc : 0 <= k -> 0 <= k' -> k + k' <= 1000 -> mon k m z -> grid k' zc c -> Z.abs (z * zc) <= top ->
  sim rm (fun q => mon (k + k') q (z * zc)) (@mono_mul_k F m c) (@mono_mul_k G (rm m) (exactly c)).
Proof.
  intros Hk Hk' Hs Hm Hc Ht. unfold mono_mul_k. apply sim_check; [apply mono_check_sim|]. intros _. apply sim_ok.
  - split; [apply (proj1 Hm)|]. apply mul_exact; [lia | lia | exact Hs | apply Hm | exact Hc | rewrite <- top_eq; exact Ht].
  - rewrite rm_set_coeff. f_equal. cbn [m_coeff exact_mono nmul QNum F64Num]. symmetry. apply (rd_mul k k' z zc); [lia | lia | exact Hs | apply Hm | exact Hc | rewrite <- top_eq; exact Ht].
Qed.
Lemma mul_var_sim k m z v : mon k m z -> numeric_var v -> sim rm (fun q => mon k q z) (@mono_mul_var F m v) (@mono_mul_var G (rm m) (rv v)).
Proof.
  intros Hm Hv. unfold mono_mul_var. apply sim_check; [apply mono_check_sim|]. intros _. apply sim_check; [apply var_check_sim; exact Hv|]. intros _.
  cbn [m_vars m_exps exact_mono]. rewrite find_var_sim. destruct (find_var v (m_vars m)); apply sim_ok.
  - exact Hm.
  - reflexivity.
  - split; [|apply Hm]. cbn [m_vars]. intros w Hw. apply in_app_or in Hw. destruct Hw as [Hw|[<-|[]]]; [apply (proj1 Hm); exact Hw | exact Hv].
  - unfold exact_mono. cbn [m_coeff m_vars m_exps]. rewrite map_app. reflexivity.
Qed.
Lemma degree_loop_sim vs es vars deg : @degree_loop G (map rv vs) es (map rv vars) deg = @degree_loop F vs es vars deg.
Proof.
  revert es deg; induction vs as [|v vs IH]; intros es deg; cbn [degree_loop map]; [reflexivity|]. rewrite find_var_sim.
  destruct (find_var v vars); [|reflexivity]. destruct es; [reflexivity|]. apply IH.
Qed.
Lemma unique_loop_in (l : list (@var F)) out w : In w (unique_vars_loop l out) -> In w l \/ In w out.
Proof.
  revert out; induction l as [|v l IH]; intros out Hw; cbn [unique_vars_loop] in Hw; [right; exact Hw|].
  destruct (find_var v out); [destruct (IH _ Hw); [left; right; assumption | right; assumption]|].
  destruct (IH _ Hw) as [K|K]; [left; right; exact K|]. apply in_app_or in K. destruct K as [K|[->|[]]]; [right; exact K | left; left; reflexivity].
Qed.
Lemma mul_mono_sim k m z k' m' z' : 0 <= k -> 0 <= k' -> k + k' <= 1000 -> mon k m z -> mon k' m' z' -> Z.abs (z * z') <= top ->
  sim rm (fun q => mon (k + k') q (z * z')) (@mono_mul_mono F m m') (@mono_mul_mono G (rm m) (rm m')).
Proof.
  intros Hk Hk' Hs Hm Hm' Ht. unfold mono_mul_mono. apply sim_check; [apply mono_check_sim|]. intros _. apply sim_check; [apply mono_check_sim|]. intros _.
  cbn [m_vars m_exps exact_mono]. rewrite <- map_app, unique_sim, map_map.
  eapply sim_bind; [apply sim_same; apply degree_loop_sim|]. intros d1 _. cbn beta. eapply sim_bind; [apply sim_same; apply degree_loop_sim|]. intros d2 _. cbn beta. apply sim_ok.
  - split; [cbn [m_vars]; intros w Hw; apply unique_loop_in in Hw; destruct Hw as [Hw|[]]; apply in_app_or in Hw; destruct Hw as [Hw|Hw]; [apply (proj1 Hm) | apply (proj1 Hm')]; exact Hw|].
    apply mul_exact; [lia | lia | exact Hs | apply Hm | apply Hm' | rewrite <- top_eq; exact Ht].
  - unfold exact_mono. cbn [m_coeff m_vars m_exps]. f_equal. cbn [nmul QNum F64Num]. symmetry. apply (rd_mul k k' z z'); [lia | lia | exact Hs | apply Hm | apply Hm' | rewrite <- top_eq; exact Ht].
Qed.

(** multiply every term *)
Lemma scale_sim k p n k' x (f : @Monomial F -> res (@Monomial F)) (g : @Monomial G -> res (@Monomial G)) : 0 <= x -> pol k p n -> n * x <= top ->
  (forall m z, In m p -> mon k m z -> Z.abs z * x <= top -> sim rm (fun q => exists z', mon k' q z' /\ Z.abs z' <= Z.abs z * x) (f m) (g (rm m))) ->
  sim (map rm) (fun q => pol k' q (n * x)) (mapM f p) (mapM g (map rm p)).
Proof.
  intros Hx H. induction H as [n Hn|m z l n n' Hm Hl IH L]; intros Ht Hf; cbn [mapM map].
  - apply sim_ok; [|reflexivity]. apply pol_nil. nia.
  - pose proof (pol_nonneg _ _ _ Hl). eapply sim_bind; [apply (Hf m z); [left; reflexivity | exact Hm | nia]|]. intros q (z' & Hq & Lq). cbn beta.
    eapply sim_bind; [apply IH; [nia | intros m0 z0 H0; apply Hf; right; exact H0]|]. intros qs Hqs. apply sim_ok; [|reflexivity].
    eapply pol_cons; [exact Hq | exact Hqs | nia].
Qed.
Lemma poly_mul_k_sim k p n k' c zc : 0 <= k -> 0 <= k' -> k + k' <= 1000 -> pol k p n -> grid k' zc c -> n * Z.abs zc <= top ->
  sim rs (sc (k + k') (n * Z.abs zc)) (@poly_mul_k F p c) (@poly_mul_k G (map rm p) (exactly c)).
Proof.
  intros Hk Hk' Hs H Hc Ht. unfold poly_mul_k. apply sim_check; [apply poly_check_sim|]. intros _.
  eapply sim_bind; [apply (scale_sim k p n (k + k') (Z.abs zc)); [lia | exact H | exact Ht |]|].
  - intros m z _ Hm Hz. eapply sim_weak; [|apply (mul_k_sim k m z k' c zc); [lia | lia | exact Hs | exact Hm | exact Hc | rewrite Z.abs_mul; exact Hz]].
    intros q Hq. exists (z * zc). split; [exact Hq | rewrite Z.abs_mul; lia].
  - intros q Hq. apply poly_simplified_sim; [lia | exact Hq | exact Ht].
Qed.
Lemma poly_mul_var_sim k p n v : 0 <= k <= 1000 -> pol k p n -> numeric_var v -> n <= top ->
  sim rs (sc k n) (@poly_mul_var F p v) (@poly_mul_var G (map rm p) (rv v)).
Proof.
  intros Hk H Hv Ht. unfold poly_mul_var. apply sim_check; [apply poly_check_sim|]. intros _. apply sim_check; [apply var_check_sim; exact Hv|]. intros _.
  eapply sim_bind; [apply (scale_sim k p n k 1); [lia | exact H | lia |]|].
  - intros m z _ Hm Hz. eapply sim_weak; [|apply (mul_var_sim k m z v Hm Hv)]. intros q Hq. exists z. split; [exact Hq | lia].
  - intros q Hq. cbn beta in Hq. rewrite Z.mul_1_r in Hq. apply poly_simplified_sim; [exact Hk | exact Hq | exact Ht].
Qed.
Lemma poly_mul_mono_sim k p n k' m' z' : 0 <= k -> 0 <= k' -> k + k' <= 1000 -> pol k p n -> mon k' m' z' -> n * Z.abs z' <= top ->
  sim rs (sc (k + k') (n * Z.abs z')) (@poly_mul_mono F p m') (@poly_mul_mono G (map rm p) (rm m')).
Proof.
  intros Hk Hk' Hs H Hm' Ht. unfold poly_mul_mono. apply sim_check; [apply poly_check_sim|]. intros _. apply sim_check; [apply mono_check_sim|]. intros _.
  eapply sim_bind; [apply (scale_sim k p n (k + k') (Z.abs z')); [lia | exact H | exact Ht |]|].
  - intros m z _ Hm Hz. eapply sim_weak; [|apply (mul_mono_sim k m z k' m' z'); [lia | lia | exact Hs | exact Hm | exact Hm' | rewrite Z.abs_mul; exact Hz]].
    intros q Hq. exists (z * z'). split; [exact Hq | rewrite Z.abs_mul; lia].
  - intros q Hq. apply poly_simplified_sim; [lia | exact Hq | exact Ht].
Qed.
Lemma poly_mul_loop_sim k p n k' : 0 <= k -> 0 <= k' -> k + k' <= 1000 -> pol k p n -> forall q nq, pol k' q nq -> forall acc na, sc (k + k') na acc -> na + n * nq <= top ->
  sim rs (sc (k + k') (na + n * nq)) (foldM (fun acc m => t <- @poly_mul_mono F p m ;; @scalar_plus F acc t) acc q)
    (foldM (fun acc m => t <- @poly_mul_mono G (map rm p) m ;; @scalar_plus G acc t) (rs acc) (map rm q)).
Proof.
  intros Hk Hk' Hs H q nq Hq. pose proof (pol_nonneg _ _ _ H). induction Hq as [nq Hn|m z l nq n' Hm Hl IH L]; intros acc na Ha Ht; cbn [foldM map].
  - apply sim_ok; [|reflexivity]. eapply sc_le; [exact Ha | nia].
  - pose proof (pol_nonneg _ _ _ Hl). pose proof (sc_nonneg _ _ _ Ha). assert (B : n * Z.abs z + n * nq <= n * n') by nia. assert (0 <= n * nq) by nia.
    eapply (sim_bind rs rs (sc (k + k') (na + n * Z.abs z))).
    + eapply sim_bind; [apply (poly_mul_mono_sim k p n k' m z); [lia | lia | exact Hs | exact H | exact Hm | lia]|]. intros t Hte. cbn beta. apply plus_sim; [lia | exact Ha | exact Hte | lia].
    + intros acc' Ha'. cbn beta. eapply sim_weak; [|apply (IH acc' (na + n * Z.abs z) Ha'); lia]. intros s Hs'. eapply sc_le; [exact Hs' | lia].
Qed.
Lemma poly_mul_poly_sim k p n k' q nq : 0 <= k -> 0 <= k' -> k + k' <= 1000 -> pol k p n -> pol k' q nq -> n * nq <= top ->
  sim rs (sc (k + k') (n * nq)) (@poly_mul_poly F p q) (@poly_mul_poly G (map rm p) (map rm q)).
Proof.
  intros Hk Hk' Hs H Hq Ht. unfold poly_mul_poly. apply sim_check; [apply poly_check_sim|]. intros _. apply sim_check; [apply poly_check_sim|]. intros _.
  apply again; [lia | exact Ht |]. change (@SK G (@n0 G)) with (rs (@SK F (@n0 F))).
  apply (poly_mul_loop_sim k p n k' Hk Hk' Hs H q nq Hq (@SK F (@n0 F)) 0); [|lia]. exists 0. split; [reflexivity | cbn [Z.abs]; lia].
Qed.
Lemma var_mul_k_sim v k' c zc : 0 <= k' <= 1000 -> numeric_var v -> grid k' zc c -> Z.abs zc <= top ->
  sim rs (sc k' (Z.abs zc)) (@var_mul_k F v c) (@var_mul_k G (rv v) (exactly c)).
Proof.
  intros Hk Hv Hc Ht. unfold var_mul_k. apply sim_check; [apply var_check_sim; exact Hv|]. intros _.
  change (@mkMono G (exactly c) [1] [rv v]) with (rm (@mkMono F c [1] [v])). apply (mono_simplified_sim k' zc); [exact Hk | | lia].
  split; [intros w [<-|[]]; exact Hv | exact Hc].
Qed.
Lemma var_mul_var_sim v w : numeric_var v -> numeric_var w -> sim rs (sc 0 1) (@var_mul_var F v w) (@var_mul_var G (rv v) (rv w)).
Proof.
  intros Hv Hw. unfold var_mul_var. apply sim_check; [apply var_check_sim; exact Hv|]. intros _. apply sim_check; [apply var_check_sim; exact Hw|]. intros _.
  change (@same_id G (rv w) (rv v)) with (@same_id F w v).
  assert (E : (if @same_id F w v then @mkMono G (@n1 G) [2] [rv v] else @mkMono G (@n1 G) [1; 1] [rv v; rv w]) = rm (if @same_id F w v then @mkMono F (@n1 F) [2] [v] else @mkMono F (@n1 F) [1; 1] [v; w])).
  { destruct (@same_id F w v); unfold exact_mono; cbn [m_coeff m_exps m_vars map]; rewrite rd_one; reflexivity. }
  rewrite E. apply (mono_simplified_sim 0 1); [lia | | lia]. split.
  - destruct (@same_id F w v); cbn [m_vars]; [intros x [<-|[]]; exact Hv | intros x [<-|[<-|[]]]; assumption].
  - assert (K : grid 0 (2 ^ 0) (@n1 F)) by (apply grid_one; lia). destruct (@same_id F w v); exact K.
Qed.

Lemma as_SM_sim k n x y : sim rm (ms k n) x y -> sim rs (sc k n) (@as_SM F x) (@as_SM G y).
Proof. intro H. unfold as_SM. eapply sim_bind; [exact H|]. intros m Hm. apply sim_ok; [exact Hm | reflexivity]. Qed.

Lemma down k n s : 0 <= k -> sc 0 1 s -> 2 ^ k <= n -> sc k n s.
Proof. intros Hk H L. apply (sc_regrid 0 k) in H; [|lia|lia]. cbn [Z.add] in H. eapply sc_le; [exact H | lia]. Qed.

Lemma mul_sim ka a na kb b nb : 0 <= ka -> 0 <= kb -> ka + kb <= 1000 -> sc ka na a -> sc kb nb b -> na <= top -> nb <= top -> na * nb <= top ->
  sim rs (sc (ka + kb) (na * nb)) (@scalar_mul F a b) (@scalar_mul G (rs a) (rs b)).
Proof.
  intros Hka Hkb Hs Ha Hb Hta Htb Ht. pose proof (sc_nonneg _ _ _ Ha) as Na. pose proof (sc_nonneg _ _ _ Hb) as Nb.
  assert (Pa : 0 < 2 ^ ka) by (apply Z.pow_pos_nonneg; lia). assert (Pb : 0 < 2 ^ kb) by (apply Z.pow_pos_nonneg; lia).
  assert (W : forall n x y, n <= na * nb -> sim rs (sc (ka + kb) n) x y -> sim rs (sc (ka + kb) (na * nb)) x y).
  { intros n x y L. apply sim_weak. intros s Hs'. eapply sc_le; eassumption. }
  assert (Rb : forall n x y, n * 2 ^ kb <= na * nb -> sim rs (sc ka n) x y -> sim rs (sc (ka + kb) (na * nb)) x y).
  { intros n x y L. apply sim_weak. intros s Hs'. apply (sc_regrid ka kb) in Hs'; [|lia|lia]. eapply sc_le; eassumption. }
  assert (Ra : forall n x y, n * 2 ^ ka <= na * nb -> sim rs (sc kb n) x y -> sim rs (sc (ka + kb) (na * nb)) x y).
  { intros n x y L. apply sim_weak. intros s Hs'. apply (sc_regrid kb ka) in Hs'; [|lia|lia]. rewrite (Z.add_comm ka). eapply sc_le; eassumption. }
  destruct a as [c|v|m|p]; cbn [scalar_mul exact_scalar sc] in *.
  - destruct Ha as (z & Gc & L). unfold k_mul. apply sim_check; [eapply scalar_check_sim; exact Hb|]. intros _. destruct b as [c'|w|m'|q]; cbn [exact_scalar sc] in *.
    + destruct Hb as (z' & Gc' & L'). pose proof (abs_mul_le _ _ _ _ L L') as Lm. apply sim_ok.
      * exists (z * z'). split; [apply mul_exact; [lia | lia | exact Hs | exact Gc | exact Gc' | rewrite <- top_eq; lia] | lia].
      * cbn [exact_scalar nmul QNum F64Num]. f_equal. symmetry. apply (rd_mul ka kb z z'); [lia | lia | exact Hs | exact Gc | exact Gc' | rewrite <- top_eq; lia].
    + destruct Hb as [Hw L']. apply (Rb (Z.abs z)); [nia|]. apply var_mul_k_sim; [lia | exact Hw | exact Gc | lia].
    + destruct Hb as (z' & Hm & L'). pose proof (abs_mul_le _ _ _ _ L' L) as Lm. rewrite (Z.add_comm ka). apply as_SM_sim.
      eapply sim_weak; [|apply (mul_k_sim kb m' z' ka c z); [lia | lia | lia | exact Hm | exact Gc | lia]]. intros q Hq. exists (z' * z). split; [exact Hq | lia].
    + rewrite (Z.add_comm ka), (Z.mul_comm na). eapply sim_weak; [|apply (poly_mul_k_sim kb q nb ka c z); [lia | lia | lia | exact Hb | exact Gc | nia]].
      intros s Hs'. eapply sc_le; [exact Hs' | nia].
  - destruct Ha as [Hv L]. destruct b as [c'|w|m'|q]; cbn [var_mul exact_scalar sc] in *.
    + destruct Hb as (z' & Gc' & L'). apply (Ra (Z.abs z')); [nia|]. apply var_mul_k_sim; [lia | exact Hv | exact Gc' | lia].
    + destruct Hb as [Hw L']. eapply sim_weak; [|apply var_mul_var_sim; assumption]. intros s Hs'. apply down; [lia | exact Hs' | rewrite Z.pow_add_r by lia; nia].
    + destruct Hb as (z' & Hm & L'). apply (Ra (Z.abs z')); [nia|]. unfold var_mul_mono. apply sim_check; [apply var_check_sim; exact Hv|]. intros _. apply sim_check; [apply mono_check_sim|]. intros _.
      eapply sim_bind; [apply (mul_var_sim kb m' z' v Hm Hv)|]. intros q Hq. apply (mono_simplified_sim kb z'); [lia | exact Hq | lia].
    + apply (Ra nb); [nia|]. unfold var_mul_poly. apply sim_check; [apply var_check_sim; exact Hv|]. intros _. apply sim_check; [apply poly_check_sim|]. intros _.
      apply again; [lia | exact Htb |]. apply poly_mul_var_sim; [lia | exact Hb | exact Hv | exact Htb].
  - destruct Ha as (z & Hm & L). destruct b as [c'|w|m'|q]; cbn [mono_mul exact_scalar sc] in *.
    + destruct Hb as (z' & Gc' & L'). pose proof (abs_mul_le _ _ _ _ L L') as Lm. apply as_SM_sim.
      eapply sim_weak; [|apply (mul_k_sim ka m z kb c' z'); [lia | lia | lia | exact Hm | exact Gc' | lia]]. intros q Hq. exists (z * z'). split; [exact Hq | lia].
    + destruct Hb as [Hw L']. apply (Rb (Z.abs z)); [nia|]. apply as_SM_sim. eapply sim_weak; [|apply (mul_var_sim ka m z w Hm Hw)]. intros q Hq. exists z. split; [exact Hq | lia].
    + destruct Hb as (z' & Hm' & L'). pose proof (abs_mul_le _ _ _ _ L L') as Lm. apply as_SM_sim.
      eapply sim_weak; [|apply (mul_mono_sim ka m z kb m' z'); [lia | lia | lia | exact Hm | exact Hm' | lia]]. intros q Hq. exists (z * z'). split; [exact Hq | lia].
    + unfold mono_mul_poly. apply sim_check; [apply mono_check_sim|]. intros _. apply sim_check; [apply poly_check_sim|]. intros _.
      rewrite (Z.add_comm ka), (Z.mul_comm na). eapply sim_weak; [|apply (poly_mul_mono_sim kb q nb ka m z); [lia | lia | lia | exact Hb | exact Hm | nia]].
      intros s Hs'. eapply sc_le; [exact Hs' | nia].
  - destruct b as [c'|w|m'|q]; cbn [poly_mul exact_scalar sc] in *.
    + destruct Hb as (z' & Gc' & L'). eapply sim_weak; [|apply (poly_mul_k_sim ka p na kb c' z'); [lia | lia | lia | exact Ha | exact Gc' | nia]]. intros s Hs'. eapply sc_le; [exact Hs' | nia].
    + destruct Hb as [Hw L']. apply (Rb na); [nia|]. apply poly_mul_var_sim; [lia | exact Ha | exact Hw | exact Hta].
    + destruct Hb as (z' & Hm' & L'). eapply sim_weak; [|apply (poly_mul_mono_sim ka p na kb m' z'); [lia | lia | lia | exact Ha | exact Hm' | nia]]. intros s Hs'. eapply sc_le; [exact Hs' | nia].
    + apply poly_mul_poly_sim; assumption.
Qed.

Lemma mul_float_sim ka a na c zc : 0 <= ka <= 1000 -> sc ka na a -> grid 0 zc c -> na <= top -> na * Z.abs zc <= top -> Z.abs zc <= top ->
  sim rs (sc ka (na * Z.abs zc)) (@scalar_mul_float F a c) (@scalar_mul_float G (rs a) (exactly c)).
Proof.
  intros Hk Ha Hc Hta Ht Htc. pose proof (sc_nonneg _ _ _ Ha) as Na. assert (Pa : 0 < 2 ^ ka) by (apply Z.pow_pos_nonneg; lia).
  destruct a as [c0|v|m|p]; cbn [scalar_mul_float exact_scalar sc] in *.
  - destruct Ha as (z & Gc & L). assert (Lm : Z.abs (z * zc) <= na * Z.abs zc) by (apply abs_mul_le; lia). unfold k_mul. apply sim_check; [reflexivity|]. intros _. apply sim_ok.
    + exists (z * zc). split; [|lia]. replace ka with (ka + 0) by lia. apply mul_exact; [lia | lia | lia | exact Gc | exact Hc | rewrite <- top_eq; lia].
    + cbn [exact_scalar nmul QNum F64Num]. f_equal. symmetry. apply (rd_mul ka 0 z zc); [lia | lia | lia | exact Gc | exact Hc | rewrite <- top_eq; lia].
  - destruct Ha as [Hv L]. eapply sim_weak; [|apply (again 0 (Z.abs zc)); [lia | exact Htc | apply var_mul_k_sim; [lia | exact Hv | exact Hc | exact Htc]]].
    intros s Hs. apply (sc_regrid 0 ka) in Hs; [|lia|lia]. cbn [Z.add] in Hs. eapply sc_le; [exact Hs | nia].
  - destruct Ha as (z & Hm & L). assert (Lm : Z.abs (z * zc) <= na * Z.abs zc) by (apply abs_mul_le; lia). apply as_SM_sim. replace ka with (ka + 0) by lia.
    eapply sim_weak; [|apply (mul_k_sim ka m z 0 c zc); [lia | lia | lia | exact Hm | exact Hc | lia]]. intros q Hq. exists (z * zc). split; [exact Hq | lia].
  - apply again; [exact Hk | exact Ht |]. replace ka with (ka + 0) by lia. apply poly_mul_k_sim; [lia | lia | lia | exact Ha | exact Hc | exact Ht].
Qed.

(** ** Minus *)
Lemma minus_sim k a na b nb : 0 <= k <= 1000 -> sc k na a -> sc k nb b -> na + nb <= top ->
  sim rs (sc k (na + nb)) (@scalar_minus F a b) (@scalar_minus G (rs a) (rs b)).
Proof.
  intros Hk Ha Hb Ht. pose proof (sc_nonneg _ _ _ Ha). pose proof (sc_nonneg _ _ _ Hb). pose proof top_pos. unfold scalar_minus.
  apply sim_check; [eapply scalar_check_sim; exact Ha|]. intros _. apply sim_check; [eapply scalar_check_sim; exact Hb|]. intros _.
  assert (E : @nm1 G = exactly (@nm1 F)) by (symmetry; apply rd_ofZ; lia). rewrite E.
  assert (Gm : grid 0 (-1) (@nm1 F)) by (apply ofZ_exact; lia).
  eapply sim_bind; [apply (mul_float_sim k b nb (@nm1 F) (-1)); [exact Hk | exact Hb | exact Gm | lia | cbn [Z.abs]; lia | cbn [Z.abs]; lia]|].
  intros t Hs. cbn beta. cbn [Z.abs] in Hs. rewrite Z.mul_1_r in Hs. apply plus_sim; assumption.
Qed.

(** ** Power *)
Lemma power_loop_sim k b nb : 0 <= k -> sc k nb b -> nb <= top -> forall n kr r nr, 0 <= kr -> kr + Z.of_nat n * k <= 1000 -> sc kr nr r -> nr <= top -> nr * nb ^ Z.of_nat n <= top ->
  sim rs (sc (kr + Z.of_nat n * k) (nr * nb ^ Z.of_nat n)) (@power_loop F b n r) (@power_loop G (rs b) n (rs r)).
Proof.
  intros Hk Hb Htb. pose proof (sc_nonneg _ _ _ Hb) as Nb. induction n as [|n IH]; intros kr r nr Hkr Hs Hr Htr Ht; cbn [power_loop].
  - apply sim_ok; [|reflexivity]. change (Z.of_nat 0) with 0. replace (kr + 0 * k) with kr by lia. rewrite Z.pow_0_r. eapply sc_le; [exact Hr | lia].
  - pose proof (sc_nonneg _ _ _ Hr) as Nr. rewrite Nat2Z.inj_succ in *. rewrite Z.pow_succ_r in * by lia.
    assert (Hn : 0 <= nb ^ Z.of_nat n) by (apply Z.pow_nonneg; lia).
    destruct (Z.eq_dec nb 0) as [E|E].
    + (* the base is zero *)
      assert (T1 : nr * nb <= top) by (pose proof top_pos; nia).
      eapply sim_bind; [apply (mul_sim kr r nr k b nb); [lia | lia | nia | exact Hr | exact Hb | exact Htr | exact Htb | exact T1]|].
      intros r' Hr'. cbn beta. eapply sim_weak; [|apply (IH (kr + k) r' (nr * nb)); [lia | nia | exact Hr' | exact T1 | nia]].
      intros s Hs'. replace (kr + Z.succ (Z.of_nat n) * k) with (kr + k + Z.of_nat n * k) by lia. eapply sc_le; [exact Hs' | nia].
    + assert (1 <= nb ^ Z.of_nat n) by (change 1 with (Z.succ 0); apply Z.le_succ_l; apply Z.pow_pos_nonneg; lia).
      assert (T1 : nr * nb <= top) by nia.
      eapply sim_bind; [apply (mul_sim kr r nr k b nb); [lia | lia | nia | exact Hr | exact Hb | exact Htr | exact Htb | exact T1]|].
      intros r' Hr'. cbn beta. eapply sim_weak; [|apply (IH (kr + k) r' (nr * nb)); [lia | nia | exact Hr' | exact T1 | nia]].
      intros s Hs'. replace (kr + Z.succ (Z.of_nat n) * k) with (kr + k + Z.of_nat n * k) by lia. eapply sc_le; [exact Hs' | nia].
Qed.
Lemma power_sim k b nb n : 0 <= k -> sc k nb b -> nb <= top -> n * k <= 1000 -> nb ^ n <= top ->
  sim rs (sc (n * k) (nb ^ n)) (@scalar_power F b n) (@scalar_power G (rs b) n).
Proof.
  intros Hk Hb Htb Hs Ht. unfold scalar_power. apply sim_check; [eapply scalar_check_sim; exact Hb|]. intros _. apply sim_check; [reflexivity|]. intro Hn. apply Z.leb_le in Hn.
  rewrite <- rd_one. change (@SK G (exactly (@n1 F))) with (rs (@SK F (@n1 F))). pose proof top_pos.
  eapply sim_weak; [|apply (power_loop_sim k b nb Hk Hb Htb (Z.to_nat n) 0 (@SK F (@n1 F)) 1); rewrite ?Z2Nat.id by lia; try lia].
  - intros s Hs'. rewrite Z2Nat.id in Hs' by lia. cbn [Z.add] in Hs'. rewrite Z.mul_1_l in Hs'. exact Hs'.
  - exists 1. split; [apply (grid_one 0); lia | cbn [Z.abs]; lia].
Qed.
