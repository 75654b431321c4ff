(** * DerivativeWrt, Substitute and whole programs on short coefficients *)

From Coq Require Import ZArith NArith Bool List Lia.
From Coq Require Import QArith Qcanon.
From Coq.Floats Require Import SpecFloat.
From Verif Require Import Num Syntax ModelScalar Spec SpecProg SpecExact FloatExact FloatSim FloatRun FloatOps.
Import ListNotations.
Local Open Scope Z_scope.

(** ** DerivativeWrt *)

Lemma remove_nth_map {A B} (f : A -> B) i l : remove_nth i (map f l) = map f (remove_nth i l).
Proof. revert i; induction l as [|a l IH]; intros [|i]; cbn [remove_nth map]; try reflexivity. rewrite IH. reflexivity. Qed.
Lemma remove_nth_in {A} (a : A) i l : In a (remove_nth i l) -> In a l.
Proof. revert i; induction l as [|b l IH]; intros [|i]; cbn [remove_nth]; auto; [intro; right; assumption|]. intros [->|H]; [left; reflexivity | right; eapply IH; exact H]. Qed.

Lemma sc_k0 k n : 0 <= n -> sc k n (@SK F (@n0 F)).
Proof. intro H. exists 0. split; [reflexivity | cbn [Z.abs]; exact H]. Qed.

(** every exponent of the term is between 0 and [d] *)
Definition exps_below (d : Z) (m : @Monomial F) : Prop := forall e, In e (m_exps m) -> 0 <= e <= d.

Lemma exps_of_degree d (m : @Monomial F) : valid_mono m -> tdeg m <= d -> exps_below d m.
Proof.
  intros (_ & H & _) T. unfold exps_below, tdeg in *. revert T. induction H as [|e es He Hes IH]; cbn [sumZ fold_right]; intros T x []; subst.
  - assert (0 <= sumZ es) by (clear - Hes; induction Hes; cbn [sumZ fold_right]; cbn beta in *; lia). lia.
  - apply IH; [lia | assumption].
Qed.

Lemma mono_derivative_sim k m z d v : 0 <= k <= 1000 -> mon k m z -> numeric_var v -> exps_below d m -> 0 <= d <= top -> Z.abs z * Z.max 1 d <= top ->
  sim rs (sc k (Z.abs z * Z.max 1 d)) (@mono_derivative F m v) (@mono_derivative G (rm m) (rv v)).
Proof.
  intros Hk Hm Hv He Hd Ht. unfold mono_derivative. apply sim_check; [apply mono_check_sim|]. intros _. apply sim_check; [apply var_check_sim; exact Hv|]. intros _.
  cbn [m_vars m_exps m_coeff exact_mono]. rewrite find_var_sim, map_length. destruct (find_var v (m_vars m)) as [i|].
  2:{ apply sim_ok; [apply sc_k0; nia | reflexivity]. }
  assert (Le : sim (fun e => e) (fun e => 0 <= e <= d) (index (m_exps m) i) (index (m_exps m) i)).
  { unfold index. destruct (nth_error (m_exps m) i) eqn:E; [|reflexivity]. split; [|reflexivity]. apply He. eapply nth_error_In. exact E. }
  eapply sim_bind; [exact Le|]. intros e Hee. cbn beta in Hee |- *. destruct (e =? 1) eqn:E1; cbn [andb].
  - destruct (Nat.eqb (length (m_vars m)) 1); apply sim_ok.
    + exists z. split; [apply Hm | nia].
    + reflexivity.
    + exists z. split; [|nia]. split; [cbn [m_vars]; intros w Hw; apply (proj1 Hm); eapply remove_nth_in; exact Hw | apply Hm].
    + cbn [exact_scalar]. unfold exact_mono. cbn [m_coeff m_exps m_vars]. rewrite remove_nth_map. reflexivity.
  - assert (Ge : grid 0 e (@nofZ F e)) by (apply ofZ_exact; rewrite <- top_eq; lia).
    assert (Lz : Z.abs (z * e) <= Z.abs z * Z.max 1 d) by (apply abs_mul_le; lia).
    apply sim_ok.
    + exists (z * e). split; [|lia]. split; [apply (proj1 Hm)|]. cbn [m_coeff]. replace k with (k + 0) by lia.
      apply mul_exact; [lia | lia | lia | apply Hm | exact Ge | rewrite <- top_eq; lia].
    + cbn [exact_scalar]. unfold exact_mono. cbn [m_coeff m_exps m_vars]. f_equal. f_equal.
      assert (E : exactly (@nofZ F e) = @nofZ G e) by (apply rd_ofZ; rewrite <- top_eq; lia). rewrite <- E. cbn [nmul QNum F64Num]. symmetry.
      apply (rd_mul k 0 z e); [lia | lia | lia | apply Hm | exact Ge | rewrite <- top_eq; lia].
Qed.

Lemma derivative_loop_sim k d v : 0 <= k <= 1000 -> numeric_var v -> 0 <= d <= top -> forall p n, pol k p n -> Forall (exps_below d) p -> n * Z.max 1 d <= top ->
  sim (map rm) (fun q => pol k q (n * Z.max 1 d)) (@derivative_loop F p v) (@derivative_loop G (map rm p) (rv v)).
Proof.
  intros Hk Hv Hd p n H. induction H as [n Hn|m z l n n' Hm Hl IH L]; intros He Ht; cbn [derivative_loop map].
  - apply sim_ok; [apply pol_nil; nia | reflexivity].
  - inversion He as [|? ? He1 He2]; subst. pose proof (pol_nonneg _ _ _ Hl) as Nn. assert (B : Z.abs z * Z.max 1 d + n * Z.max 1 d <= n' * Z.max 1 d) by nia.
    assert (0 <= Z.abs z * Z.max 1 d) by nia. assert (0 <= n * Z.max 1 d) by nia.
    assert (IH' : sim (map rm) (fun q => pol k q (n * Z.max 1 d)) (@derivative_loop F l v) (@derivative_loop G (map rm l) (rv v))) by (apply IH; [exact He2 | lia]).
    eapply sim_bind; [apply sim_same; apply is_constant_sim|]. intros [|] _; cbn beta iota.
    + eapply sim_weak; [|exact IH']. intros q Hq. eapply pol_le; [exact Hq | lia].
    + eapply sim_bind; [apply (mono_derivative_sim k m z d v Hk Hm Hv He1 Hd); lia|]. intros [c|w|dm|dp] Hs; cbn [exact_scalar]; try reflexivity.
      * destruct Hs as (zc & Gc & Lc). rewrite (rd_eq0 k zc c Gc). destruct (@neqb F c (@n0 F)).
        -- eapply sim_weak; [|exact IH']. intros q Hq. eapply pol_le; [exact Hq | lia].
        -- eapply sim_bind; [exact IH'|]. intros r Hr. apply sim_ok; [|reflexivity]. eapply pol_cons; [apply mon_const; exact Gc | exact Hr | lia].
      * destruct Hs as (zc & Gc & Lc). eapply sim_bind; [exact IH'|]. intros r Hr. apply sim_ok; [|reflexivity]. eapply pol_cons; [exact Gc | exact Hr | lia].
Qed.

Lemma derivative_sim k s n d v : 0 <= k <= 1000 -> sc k n s -> numeric_var v -> @valid F s -> degree_at_most d s -> 0 <= d <= top -> n * Z.max 1 d <= top ->
  sim rs (sc k (n * Z.max 1 d)) (@scalar_derivative F s v) (@scalar_derivative G (rs s) (rv v)).
Proof.
  intros Hk Hs Hv V D Hd Ht. pose proof (sc_nonneg _ _ _ Hs) as Nn. destruct s as [c|w|m|p]; cbn [scalar_derivative exact_scalar].
  - apply sim_ok; [apply sc_k0; nia | reflexivity].
  - destruct Hs as [Hw L]. unfold var_derivative. apply sim_check; [apply var_check_sim; exact Hw|]. intros _. apply sim_check; [apply var_check_sim; exact Hv|]. intros _.
    change (@same_id G (rv w) (rv v)) with (@same_id F w v). assert (0 <= 2 ^ k) by (apply Z.pow_nonneg; lia). apply sim_ok.
    + destruct (@same_id F w v); [|apply sc_k0; nia]. exists (2 ^ k). split; [apply grid_one; lia | rewrite abs_2k by lia; nia].
    + destruct (@same_id F w v); cbn [exact_scalar]; [rewrite rd_one; reflexivity | reflexivity].
  - destruct Hs as (z & Hm & L). assert (Z.abs z * Z.max 1 d <= n * Z.max 1 d) by nia. unfold degree_at_most in D. inversion D as [|? ? D1 _]; subst.
    eapply sim_weak; [|apply (mono_derivative_sim k m z d v Hk Hm Hv); [apply exps_of_degree; [exact V | exact D1] | exact Hd | lia]]. intros x Hx. eapply sc_le; [exact Hx | lia].
  - unfold poly_derivative. apply sim_check; [apply poly_check_sim|]. intros _. apply sim_check; [apply var_check_sim; exact Hv|]. intros _.
    eapply sim_bind; [apply (derivative_loop_sim k d v Hk Hv Hd p n Hs); [|exact Ht]|].
    + apply Forall_forall. intros m Hm. destruct V as [_ V]. rewrite Forall_forall in V. unfold degree_at_most in D. cbn [terms] in D. rewrite Forall_forall in D. apply exps_of_degree; auto.
    + intros q Hq. destruct q as [|m q]; cbn [map]; apply sim_ok; try reflexivity; [apply sc_k0; nia | exact Hq].
Qed.

(** ** Substitute *)

Lemma env_eqb_sim v w : env_eqb (v_env (rv v)) (v_env (rv w)) = env_eqb (v_env v) (v_env w). Proof. reflexivity. Qed.

(** an upper bound of the coefficients of the expressions put in for variables *)
Lemma var_substitute_sim k n w v e : 0 <= k -> numeric_var w -> numeric_var v -> sc k n e -> 2 ^ k <= n ->
  sim rs (sc k n) (@var_substitute F w v e) (@var_substitute G (rv w) (rv v) (rs e)).
Proof.
  intros Hk Hw Hv He Hn. unfold var_substitute. apply sim_check; [apply var_check_sim; exact Hw|]. intros _. apply sim_check; [apply var_check_sim; exact Hv|]. intros _.
  apply sim_check; [eapply scalar_check_sim; exact He|]. intros _. change (@same_id G (rv w) (rv v)) with (@same_id F w v). rewrite env_eqb_sim.
  apply sim_ok; [|destruct (_ && _); reflexivity]. destruct (_ && _); [exact He | split; assumption].
Qed.

Lemma pow_ge_1 M j : 1 <= M -> 0 <= j -> 1 <= M ^ j.
Proof. intros H Hj. change 1 with (Z.succ 0). apply Z.le_succ_l. apply Z.pow_pos_nonneg; lia. Qed.
Lemma pow_le_top M i j : 1 <= M -> 0 <= i <= j -> M ^ i <= M ^ j.
Proof. intros H Hi. apply Z.pow_le_mono_r; lia. Qed.

Lemma mul2_le a b c : 0 <= a -> 1 <= b -> a * b <= c -> a <= c.
Proof. intros. nia. Qed.
Lemma mul3_le a b x c : 1 <= x -> 1 <= b /\ 0 <= a -> x * (a * b) <= c -> a <= c.
Proof. intros Hx [Hb Ha] H. assert (a * b <= c) by (assert (0 <= a * b) by nia; nia). nia. Qed.

Lemma subst_loop_sim (sub : @var F -> res (@scalar F)) (sub' : @var G -> res (@scalar G)) ke M : 0 <= ke -> 1 <= M -> forall vs es kp prod np, 0 <= kp ->
  (forall w, In w vs -> sim rs (sc ke M) (sub w) (sub' (rv w))) ->
  Forall (fun e => 0 <= e) es -> kp + sumZ es * ke <= 1000 -> sc kp np prod -> np <= top -> Z.max 1 np * M ^ sumZ es <= top ->
  length es = length vs -> (vs <> [] -> M <= top) ->
  sim rs (sc (kp + sumZ es * ke) (np * M ^ sumZ es)) (@subst_loop F sub vs es prod) (@subst_loop G sub' (map rv vs) es (rs prod)).
Proof.
  intros Hke HM. induction vs as [|v vs IH]; intros es kp prod np Hkp Hsub Hes Hs Hp Htp Ht Hl HMt; cbn [subst_loop map].
  - destruct es; [|discriminate]. cbn [sumZ fold_right]. rewrite Z.pow_0_r. replace (kp + 0 * ke) with kp by lia. apply sim_ok; [|reflexivity]. eapply sc_le; [exact Hp | lia].
  - destruct es as [|e es]; [discriminate|]. cbn [sumZ fold_right] in *. inversion Hes as [|? ? He1 He2]; subst.
    assert (S0 : 0 <= sumZ es) by (clear - He2; induction He2; cbn [sumZ fold_right]; cbn beta in *; lia). set (t := sumZ es) in *.
    assert (MT : M <= top) by (apply HMt; discriminate). pose proof (sc_nonneg _ _ _ Hp) as Np. rewrite Z.pow_add_r in * by lia.
    pose proof (pow_ge_1 M e HM He1) as Pe. pose proof (pow_ge_1 M t HM S0) as Pt.
    assert (B1 : M ^ e <= top) by (eapply mul3_le; [| | exact Ht]; lia).
    assert (B2 : Z.max 1 np * M ^ e <= top) by (rewrite Z.mul_assoc in Ht; eapply mul2_le; [| | exact Ht]; nia).
    assert (B2' : np * M ^ e <= top) by nia. assert (B3 : 0 <= np * M ^ e) by nia.
    eapply sim_bind; [apply Hsub; left; reflexivity|]. intros b Hb. cbn beta.
    eapply sim_bind; [apply (power_sim ke b M e); [lia | exact Hb | exact MT | nia | exact B1]|]. intros pw Hpw. cbn beta.
    eapply sim_bind; [apply (mul_sim kp prod np (e * ke) pw (M ^ e)); [lia | nia | nia | exact Hp | exact Hpw | exact Htp | exact B1 | exact B2']|]. intros pr Hpr. cbn beta.
    eapply sim_weak; [|apply (IH es (kp + e * ke) pr (np * M ^ e)); [nia | intros w Hw; apply Hsub; right; exact Hw | exact He2 | fold t; nia | exact Hpr | exact B2' | fold t | cbn in Hl; lia | intros _; exact MT]].
    + intros s Hs'. fold t in Hs'. replace (kp + (e + t) * ke) with (kp + e * ke + t * ke) by lia. eapply sc_le; [exact Hs' | nia].
    + assert (Z.max 1 (np * M ^ e) <= Z.max 1 np * M ^ e) by nia. rewrite Z.mul_assoc in Ht. eapply Z.le_trans; [|exact Ht]. apply Z.mul_le_mono_nonneg_r; [lia | assumption].
Qed.

Lemma mono_substitute_sim k m z ke we e v d : 0 <= k -> 0 <= ke -> k + d * ke <= 1000 -> mon k m z -> @valid_mono F m -> tdeg m <= d -> numeric_var v -> sc ke we e -> 2 ^ ke <= we -> Z.abs z <= top ->
  Z.max 1 (Z.abs z) * we ^ d <= top ->
  sim rs (sc (k + d * ke) (Z.abs z * we ^ d)) (@mono_substitute F m v e) (@mono_substitute G (rm m) (rv v) (rs e)).
Proof.
  intros Hk Hke Hs Hm Vm Hd Hv He L2 Htz Ht. assert (P2 : 0 < 2 ^ ke) by (apply Z.pow_pos_nonneg; lia). unfold mono_substitute.
  assert (Htw : 1 <= d -> we <= top).
  { intro D1. pose proof (pow_le_top we 1 d ltac:(lia) ltac:(lia)) as P. rewrite Z.pow_1_r in P. nia. }
  apply sim_check; [apply mono_check_sim|]. intros _. apply sim_check; [apply var_check_sim; exact Hv|]. intros _. apply sim_check; [eapply scalar_check_sim; exact He|]. intros _.
  cbn [m_vars m_exps m_coeff exact_mono]. rewrite find_var_sim. destruct Vm as (V1 & V2 & _).
  assert (T0 : 0 <= tdeg m) by (unfold tdeg; clear - V2; induction V2; cbn [sumZ fold_right]; cbn beta in *; lia).
  assert (R : forall j, 0 <= j -> (2 ^ ke) ^ j <= we ^ j) by (intros j Hj; apply Z.pow_le_mono_l; lia).
  destruct (find_var v (m_vars m)).
  - eapply sim_weak; [|apply (subst_loop_sim _ (fun w => @var_substitute G w (rv v) (rs e)) ke we Hke ltac:(lia) (m_vars m) (m_exps m) k (@SK F (m_coeff m)) (Z.abs z))]; try assumption.
    + change (sumZ (m_exps m)) with (tdeg m). intros s Hs'. apply (sc_regrid _ ((d - tdeg m) * ke)) in Hs'; [|nia|nia].
      replace (k + d * ke) with (k + tdeg m * ke + (d - tdeg m) * ke) by lia. eapply sc_le; [exact Hs'|].
      rewrite (Z.mul_comm (d - tdeg m)), Z.pow_mul_r by lia. specialize (R (d - tdeg m) ltac:(lia)). replace (we ^ d) with (we ^ tdeg m * we ^ (d - tdeg m)) by (rewrite <- Z.pow_add_r by lia; f_equal; lia).
      assert (0 <= we ^ tdeg m) by (apply Z.pow_nonneg; lia). rewrite Z.mul_assoc. apply Z.mul_le_mono_nonneg_l; [nia | exact R].
    + intros w Hw. apply var_substitute_sim; [lia | apply (proj1 Hm); exact Hw | exact Hv | exact He | exact L2].
    + eapply Forall_impl; [|exact V2]. intros; cbn in *; lia.
    + change (sumZ (m_exps m)) with (tdeg m). nia.
    + exists z. split; [apply Hm | lia].
    + change (sumZ (m_exps m)) with (tdeg m). pose proof (pow_le_top we (tdeg m) d ltac:(lia) ltac:(lia)). nia.
    + intro Nv. apply Htw. destruct (m_vars m) as [|w ws]; [congruence|]. unfold tdeg in *. destruct (m_exps m) as [|x es]; [discriminate|]. inversion V2 as [|? ? V2a V2b]; subst. cbn [sumZ] in *.
      assert (0 <= sumZ es) by (clear - V2b; induction V2b; cbn [sumZ]; cbn beta in *; lia). lia.
  - apply sim_ok; [|reflexivity]. assert (Hz : sc k (Z.abs z) (@SM F m)) by (exists z; split; [exact Hm | lia]).
    apply (sc_regrid k (d * ke)) in Hz; [|lia|nia]. eapply sc_le; [exact Hz|]. rewrite (Z.mul_comm d), Z.pow_mul_r by lia. apply Z.mul_le_mono_nonneg_l; [lia | apply R; lia].
Qed.

Lemma substitute_sim k s n ke we e v d : 0 <= k -> 0 <= ke -> k + d * ke <= 1000 -> sc k n s -> @valid F s -> degree_at_most d s -> 0 <= d -> numeric_var v -> sc ke we e -> 2 ^ ke <= we -> n <= top ->
  Z.max 1 n * we ^ d <= top ->
  sim rs (sc (k + d * ke) (n * we ^ d)) (@scalar_substitute F s v e) (@scalar_substitute G (rs s) (rv v) (rs e)).
Proof.
  intros Hk Hke Hs Hn V D Hd Hv He L2 Htn Ht. assert (P2 : 0 < 2 ^ ke) by (apply Z.pow_pos_nonneg; lia). pose proof (sc_nonneg _ _ _ Hn) as Nn.
  assert (R : forall j, 0 <= j -> (2 ^ ke) ^ j <= we ^ j) by (intros j Hj; apply Z.pow_le_mono_l; lia). pose proof (pow_ge_1 we d ltac:(lia) Hd) as Pd.
  destruct s as [c|w|m|p]; cbn [scalar_substitute exact_scalar].
  - apply sim_ok; [|reflexivity]. apply (sc_regrid k (d * ke)) in Hn; [|lia|nia]. eapply sc_le; [exact Hn|]. rewrite (Z.mul_comm d), Z.pow_mul_r by lia. apply Z.mul_le_mono_nonneg_l; [lia | apply R; lia].
  - unfold degree_at_most in D. inversion D as [|? ? D1 _]; subst. cbn in D1. destruct Hn as [Hw L]. eapply sim_weak; [|apply (var_substitute_sim ke we w v e); assumption].
    intros x Hx. apply (sc_regrid ke (k + (d - 1) * ke)) in Hx; [|lia|nia]. replace (k + d * ke) with (ke + (k + (d - 1) * ke)) by lia. eapply sc_le; [exact Hx|].
    rewrite Z.pow_add_r by nia. rewrite (Z.mul_comm (d - 1)), Z.pow_mul_r by lia. specialize (R (d - 1) ltac:(lia)). replace (we ^ d) with (we * we ^ (d - 1)) by (rewrite <- Z.pow_succ_r by lia; f_equal; lia).
    assert (0 < 2 ^ k) by (apply Z.pow_pos_nonneg; lia). assert (0 <= (2 ^ ke) ^ (d - 1)) by (apply Z.pow_nonneg; lia).
    replace (we * (2 ^ k * (2 ^ ke) ^ (d - 1))) with (2 ^ k * (we * (2 ^ ke) ^ (d - 1))) by ring. apply Z.mul_le_mono_nonneg; [lia | exact L | nia | apply Z.mul_le_mono_nonneg_l; lia].
  - unfold degree_at_most in D. inversion D as [|? ? D1 _]; subst. destruct Hn as (z & Hm & L). eapply sim_weak; [|apply (mono_substitute_sim k m z ke we e v d); try assumption; nia].
    intros x Hx. eapply sc_le; [exact Hx | nia].
  - unfold poly_substitute. apply sim_check; [apply poly_check_sim|]. intros _. apply sim_check; [apply var_check_sim; exact Hv|]. intros _. apply sim_check; [eapply scalar_check_sim; exact He|]. intros _.
    apply again; [nia | nia |]. destruct V as [_ V]. unfold degree_at_most in D. cbn [terms] in D. cbn [sc] in Hn.
    assert (FO : forall q nq, pol k q nq -> Forall valid_mono q -> Forall (fun m => tdeg m <= d) q -> Z.max 1 nq * we ^ d <= top -> forall acc na, sc (k + d * ke) na acc -> na + nq * we ^ d <= top ->
       sim rs (sc (k + d * ke) (na + nq * we ^ d)) (foldM (fun acc m => t <- @mono_substitute F m v e ;; @scalar_plus F acc t) acc q)
         (foldM (fun acc m => t <- @mono_substitute G m (rv v) (rs e) ;; @scalar_plus G acc t) (rs acc) (map rm q))).
    { intros q nq Hq. induction Hq as [nq H0|m z l nq n' Hm Hl IH L]; intros Vq Dq Hmx acc na Ha Hta; cbn [foldM map].
      - apply sim_ok; [|reflexivity]. eapply sc_le; [exact Ha | nia].
      - inversion Vq as [|? ? Q1 Q2]; subst. inversion Dq as [|? ? Q3 Q4]; subst. pose proof (pol_nonneg _ _ _ Hl). pose proof (sc_nonneg _ _ _ Ha).
        assert (B : Z.abs z * we ^ d + nq * we ^ d <= n' * we ^ d) by nia. assert (0 <= nq * we ^ d) by nia.
        assert (M1 : Z.max 1 (Z.abs z) * we ^ d <= top) by nia. assert (M2 : Z.max 1 nq * we ^ d <= top) by nia. assert (n' <= top) by nia.
        eapply (sim_bind rs rs (sc (k + d * ke) (na + Z.abs z * we ^ d))).
        + eapply sim_bind; [apply (mono_substitute_sim k m z ke we e v d); try assumption; lia|]. intros t Hte. cbn beta. apply plus_sim; [nia | exact Ha | exact Hte | lia].
        + intros acc' Ha'. cbn beta. eapply sim_weak; [|apply (IH Q2 Q4 M2 acc' (na + Z.abs z * we ^ d) Ha'); lia]. intros s Hs'. eapply sc_le; [exact Hs' | lia]. }
    change (@SK G (@n0 G)) with (rs (@SK F (@n0 F))). eapply sim_weak; [|apply (FO p n Hn V D Ht (@SK F (@n0 F)) 0); [apply sc_k0; lia | nia]]. intros s Hs'. eapply sc_le; [exact Hs' | lia].
Qed.
