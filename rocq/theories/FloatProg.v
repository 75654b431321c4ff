(** * Programs on short coefficients run the same way in binary64 and in rational numbers *)

From Coq Require Import ZArith NArith Bool List Lia.
From Coq Require Import QArith Qcanon.
From Coq.Floats Require Import SpecFloat.
From Verif Require Import Num Syntax ModelScalar Spec SpecProg SpecExact Base ScalarValid Unamb ScalarLin Programs Degrees FloatExact FloatSim FloatRun FloatOps FloatSub.
Import ListNotations.
Local Open Scope Z_scope.

(** ** Short coefficients in the words of the specification *)

Lemma grid_units k z f : grid k z f -> in_units k f z.
Proof.
  intro H. split; [|split].
  - split; [|destruct f; try contradiction; discriminate]. destruct f as [s|s| |s m e]; try contradiction; [reflexivity|].
    destruct H as (D & E & _). cbn [valid_binary]. unfold bounded, canonical_mantissa. apply andb_true_iff. split; [apply Zeq_is_eq_bool; rewrite D; unfold fexp, emin; lia | apply Z.leb_le; lia].
  - intros s ->. contradiction.
  - apply grid_value. exact H.
Qed.

Lemma units_grid k z f : 0 <= k <= 1000 -> Z.abs z <= top -> in_units k f z -> grid k z f.
Proof.
  intros Hk Ht ((V & N) & NI & E). rewrite top_eq in Ht. destruct f as [s|s| |s m e]; [| exfalso; apply (NI s); reflexivity | congruence |].
  - cbn [grid]. cbn [exactly] in E. change 0%Qc with (Q2Qc 0) in E. apply Q2Qc_inj in E. symmetry in E. apply dy_zero_iff in E. exact E.
  - cbn [exactly] in E. rewrite cond_neg in E. apply Q2Qc_inj in E. change scaled with dy in E. cbn [valid_binary] in V. destruct (finite_bounds _ _ V) as (D & R & C).
    assert (E' : (dy (Zpos m) e == dy (Z.abs z) (- k))%Q).
    { destruct s; cbn [cond_Zopp] in E.
      - change (Zneg m) with (- Zpos m) in E. rewrite dy_opp in E. assert (E2 : (dy (Zpos m) e == dy (- z) (- k))%Q) by (rewrite dy_opp, <- E, Qopp_involutive; reflexivity).
        assert (0 <= - z) by (apply (dy_le_iff 0 (- z) (- k)); rewrite <- E2; assert (Z0 : (dy 0 (- k) == 0)%Q) by (apply dy_zero_iff; reflexivity); rewrite Z0; apply Qlt_le_weak, dy_pos; reflexivity).
        rewrite Z.abs_neq by lia. exact E2.
      - assert (0 <= z) by (apply (dy_le_iff 0 z (- k)); rewrite <- E; assert (Z0 : (dy 0 (- k) == 0)%Q) by (apply dy_zero_iff; reflexivity); rewrite Z0; apply Qlt_le_weak, dy_pos; reflexivity).
        rewrite Z.abs_eq by lia. exact E. }
    assert (Zp : 1 <= Z.abs z).
    { destruct (Z.eq_dec (Z.abs z) 0) as [Z0|Z0]; [|lia]. rewrite Z0 in E'. assert (X : (dy (Zpos m) e == 0)%Q) by (rewrite E'; apply dy_zero_iff; reflexivity). apply dy_zero_iff in X. discriminate. }
    pose proof (digits_bounds m) as [L U]. set (b := Z.min e (- k)). apply (dy_align _ _ _ _ b) in E'; [|lia|lia].
    assert (U1 : Zpos m < 2 ^ 53) by (eapply Z.lt_le_trans; [exact U | apply Z.pow_le_mono_r; lia]).
    assert (P1 : 0 < 2 ^ (e - b)) by (apply Z.pow_pos_nonneg; lia). assert (P2 : 0 < 2 ^ (- k - b)) by (apply Z.pow_pos_nonneg; lia).
    assert (E1 : -1074 < e).
    { assert (X : 2 ^ (- k - b) < 2 ^ (53 + (e - b))) by (rewrite Z.pow_add_r by lia; nia). apply Z.pow_lt_mono_r_iff in X; lia. }
    specialize (C E1). cbn [grid]. split; [exact C|]. split; [|exact E]. split; [lia|]. rewrite C in L. change (53 - 1) with 52 in L.
    assert (X : 2 ^ (52 + (e - b)) <= 2 ^ (53 + (- k - b))) by (rewrite !Z.pow_add_r by lia; nia). apply Z.pow_le_mono_r_iff in X; lia.
Qed.

Lemma pol_short k l n : pol k l n <-> (forall m w, In m l -> In w (m_vars m) -> numeric_var w) /\ exists zs, Forall2 (fun (m : @Monomial F) z => grid k z (m_coeff m)) l zs /\ sum_abs zs <= n.
Proof.
  split.
  - intro H. split; [intros m w; apply (pol_vars k l n m w H)|]. induction H as [n Hn|m z l n n' [_ Hm] Hl (zs & H1 & H2) L]; [exists []; split; [constructor | exact Hn]|].
    exists (z :: zs). split; [constructor; assumption | cbn [sum_abs]; lia].
  - intros (Hv & zs & H1 & H2). revert n H2 Hv. induction H1 as [|m z l zs Hm Hl IH]; intros n H2 Hv; cbn [sum_abs] in H2; [apply pol_nil; exact H2|].
    eapply (pol_cons k m z l (sum_abs zs)); [split; [intros w Hw; apply (Hv m); [left; reflexivity | exact Hw] | exact Hm] | apply IH; [lia | intros m0 w H0; apply Hv; right; exact H0] | lia].
Qed.

Lemma sc_pol k n s : 0 <= k -> (sc k n s <-> pol k (terms s) n).
Proof.
  intro Hk. destruct s as [c|v|m|p]; cbn [sc terms].
  - split.
    + intros (z & G & L). eapply pol_single; [apply mon_const; exact G | exact L].
    + intro H. apply pol_single_inv in H. destruct H as (z & [_ G] & L). exists z. auto.
  - split.
    + intros [Hv L]. eapply pol_single; [apply mon_var; [exact Hk | exact Hv] | rewrite abs_2k by lia; exact L].
    + intro H. apply pol_single_inv in H. destruct H as (z & [Hv G] & L). split; [apply Hv; left; reflexivity|]. cbn [m_coeff var_to_mono] in G.
      rewrite <- (abs_2k k Hk). replace (2 ^ k) with z; [exact L|]. eapply grid_unique; [|exact G]. apply grid_one; exact Hk.
  - split.
    + intros (z & G & L). eapply pol_single; eassumption.
    + apply pol_single_inv.
  - reflexivity.
Qed.

Lemma sum_abs_nonneg zs : 0 <= sum_abs zs.
Proof. induction zs; cbn [sum_abs]; lia. Qed.
Lemma short_sc k n s : 0 <= k <= 1000 -> n <= 2 ^ 53 -> short k n s -> sc k n s.
Proof.
  intros Hk Hn (Hv & zs & H1 & H2). apply sc_pol; [lia|]. apply pol_short. split; [exact Hv|]. exists zs. split; [|exact H2]. rewrite <- top_eq in Hn.
  assert (B : sum_abs zs <= top) by lia. clear - H1 B Hk. induction H1 as [|m z l zs Hm Hl IH]; [constructor|]. cbn [sum_abs] in B. pose proof (sum_abs_nonneg zs).
  constructor; [apply units_grid; [exact Hk | lia | exact Hm] | apply IH; lia].
Qed.
Lemma sc_short k n s : 0 <= k -> sc k n s -> short k n s.
Proof.
  intros Hk H. apply sc_pol in H; [|exact Hk]. apply pol_short in H. destruct H as (Hv & zs & H1 & H2). split; [exact Hv|]. exists zs. split; [|exact H2].
  clear - H1. induction H1; constructor; [apply grid_units; assumption | assumption].
Qed.

Lemma short_nonneg {k n s} : short k n s -> 0 <= n.
Proof. intros (_ & zs & _ & H). pose proof (sum_abs_nonneg zs). lia. Qed.
Lemma sim_same_exactly k n x y : 0 <= k -> sim rs (sc k n) x y -> same_exactly k n x y.
Proof. intros Hk H. destruct x as [s|p]; [|exact H]. destruct H as [H E]. split; [apply sc_short; assumption | exact E]. Qed.

(** ** One call *)

Lemma exact_plus k na nb a b : 0 <= k <= 1000 -> short k na a -> short k nb b -> na + nb <= 2 ^ 53 ->
  same_exactly k (na + nb) (@scalar_plus F a b) (@scalar_plus G (rs a) (rs b)).
Proof.
  intros Hk Ha Hb Ht. pose proof (short_nonneg Ha). pose proof (short_nonneg Hb). apply sim_same_exactly; [lia|].
  apply plus_sim; [exact Hk | apply short_sc; [exact Hk | lia | exact Ha] | apply short_sc; [exact Hk | lia | exact Hb] | rewrite top_eq; exact Ht].
Qed.
Lemma exact_minus k na nb a b : 0 <= k <= 1000 -> short k na a -> short k nb b -> na + nb <= 2 ^ 53 ->
  same_exactly k (na + nb) (@scalar_minus F a b) (@scalar_minus G (rs a) (rs b)).
Proof.
  intros Hk Ha Hb Ht. pose proof (short_nonneg Ha). pose proof (short_nonneg Hb). apply sim_same_exactly; [lia|].
  apply minus_sim; [exact Hk | apply short_sc; [exact Hk | lia | exact Ha] | apply short_sc; [exact Hk | lia | exact Hb] | rewrite top_eq; exact Ht].
Qed.
Lemma exact_mul ka kb na nb a b : 0 <= ka -> 0 <= kb -> ka + kb <= 1000 -> short ka na a -> short kb nb b -> na <= 2 ^ 53 -> nb <= 2 ^ 53 -> na * nb <= 2 ^ 53 ->
  same_exactly (ka + kb) (na * nb) (@scalar_mul F a b) (@scalar_mul G (rs a) (rs b)).
Proof.
  intros Hka Hkb Hs Ha Hb Hta Htb Ht. apply sim_same_exactly; [lia|]. assert (sc ka na a) by (apply short_sc; [lia | exact Hta | exact Ha]). assert (sc kb nb b) by (apply short_sc; [lia | exact Htb | exact Hb]).
  apply mul_sim; rewrite ?top_eq; assumption.
Qed.
Lemma exact_power k n a e : 0 <= k <= 1000 -> 0 <= e -> e * k <= 1000 -> short k n a -> n <= 2 ^ 53 -> n ^ e <= 2 ^ 53 ->
  same_exactly (e * k) (n ^ e) (@scalar_power F a e) (@scalar_power G (rs a) e).
Proof.
  intros Hk He Hs Ha Hta Ht. apply sim_same_exactly; [nia|]. apply power_sim; [lia | apply short_sc; assumption | rewrite top_eq; exact Hta | exact Hs | rewrite top_eq; exact Ht].
Qed.
Lemma exact_simplified k n a : 0 <= k <= 1000 -> short k n a -> n <= 2 ^ 53 -> same_exactly k n (@scalar_simplified F a) (@scalar_simplified G (rs a)).
Proof. intros Hk Ha Ht. apply sim_same_exactly; [lia|]. apply simplified_sim; [exact Hk | apply short_sc; assumption | rewrite top_eq; exact Ht]. Qed.
Lemma exact_derivative k n a d v : 0 <= k <= 1000 -> short k n a -> numeric_var v -> @valid F a -> degree_at_most d a -> 0 <= d <= 2 ^ 53 -> n * Z.max 1 d <= 2 ^ 53 ->
  same_exactly k (n * Z.max 1 d) (@scalar_derivative F a v) (@scalar_derivative G (rs a) (rv v)).
Proof.
  intros Hk Ha Hv V D Hd Ht. pose proof (short_nonneg Ha). apply sim_same_exactly; [lia|].
  apply derivative_sim; [exact Hk | apply short_sc; [exact Hk | nia | exact Ha] | exact Hv | exact V | exact D | rewrite top_eq; exact Hd | rewrite top_eq; exact Ht].
Qed.
Lemma sc_raise k n n' s : n <= n' -> sc k n s -> sc k n' s.
Proof. intros L H. eapply sc_le; eassumption. Qed.
Lemma exact_substitute k n a ke ne e v d : 0 <= k -> 0 <= ke -> k + d * ke <= 1000 -> ke <= 1000 -> short k n a -> short ke ne e -> numeric_var v -> @valid F a -> degree_at_most d a -> 0 <= d ->
  n <= 2 ^ 53 -> ne <= 2 ^ 53 -> Z.max 1 n * Z.max (2 ^ ke) ne ^ d <= 2 ^ 53 ->
  same_exactly (k + d * ke) (n * Z.max (2 ^ ke) ne ^ d) (@scalar_substitute F a v e) (@scalar_substitute G (rs a) (rv v) (rs e)).
Proof.
  intros Hk Hke Hs Hke' Ha He Hv V D Hd Hn Hne Ht. apply sim_same_exactly; [nia|].
  apply substitute_sim; [exact Hk | exact Hke | exact Hs | apply short_sc; [nia | exact Hn | exact Ha] | exact V | exact D | exact Hd | exact Hv | | lia | rewrite top_eq; exact Hn | rewrite top_eq; exact Ht].
  apply (sc_raise ke ne); [lia | apply short_sc; [lia | exact Hne | exact He]].
Qed.

(** ** Whole programs *)

Lemma shortest_value m e : let '(z, k) := shortest m e in 0 <= k /\ 0 < z /\ (dy (Zpos m) e == dy z (- k))%Q.
Proof.
  revert e. induction m as [m IH|m IH|]; intro e; cbn [shortest].
  - destruct (Z.ltb_spec e 0); [split; [lia|]; split; [lia|]; rewrite Z.opp_involutive; reflexivity|]. split; [lia|]. split; [apply Z.mul_pos_pos; [lia | apply Z.pow_pos_nonneg; lia]|]. rewrite (dy_shift _ e e) by lia. rewrite Z.sub_diag. reflexivity.
  - destruct (Z.ltb_spec e 0).
    + specialize (IH (e + 1)). destruct (shortest m (e + 1)) as [z k]. destruct IH as (H1 & H2 & H3). split; [exact H1|]. split; [exact H2|]. rewrite <- H3, (dy_shift (Zpos m) (e + 1) 1) by lia.
      replace (e + 1 - 1) with e by lia. change (Zpos (xO m)) with (2 * Zpos m). change (2 ^ 1) with 2. rewrite Z.mul_comm. reflexivity.
    + split; [lia|]. split; [apply Z.mul_pos_pos; [lia | apply Z.pow_pos_nonneg; lia]|]. rewrite (dy_shift _ e e) by lia. rewrite Z.sub_diag. reflexivity.
  - destruct (Z.ltb_spec e 0); [split; [lia|]; split; [lia|]; rewrite Z.opp_involutive; reflexivity|]. split; [lia|]. split; [apply Z.mul_pos_pos; [lia | apply Z.pow_pos_nonneg; lia]|]. rewrite (dy_shift _ e e) by lia. rewrite Z.sub_diag. reflexivity.
Qed.

Lemma written_short c : numeric c -> (forall s, c <> S754_infinity s) -> 0 <= snd (written c) <= 1000 -> fst (written c) <= 2 ^ 53 -> sc (snd (written c)) (fst (written c)) (@SK F c).
Proof.
  intros N NI Hk Hz. destruct c as [s|s| |s m e]; [exists 0; split; [reflexivity | cbn; lia] | exfalso; apply (NI s); reflexivity | destruct N; congruence |].
  cbn [written] in *. pose proof (shortest_value m e) as H. destruct (shortest m e) as [z k]. destruct H as (H1 & H2 & H3). cbn [fst snd] in *. cbn [sc].
  exists (cond_Zopp s z). split; [|destruct s; cbn [cond_Zopp]; lia]. apply units_grid; [exact Hk | rewrite top_eq; destruct s; cbn [cond_Zopp]; lia |].
  split; [exact N|]. split; [exact NI|]. cbn [exactly]. rewrite cond_neg. apply Q2Qc_inj. change scaled with dy. destruct s; cbn [cond_Zopp]; [|exact H3].
  change (Zneg m) with (- Zpos m). rewrite !dy_opp, H3. reflexivity.
Qed.

Lemma sc_to k n s k' : 0 <= k -> k <= k' -> sc k n s -> sc k' (n * 2 ^ (k' - k)) s.
Proof. intros Hk Hk' H. replace k' with (k + (k' - k)) at 1 by lia. apply sc_regrid; [lia | lia | exact H]. Qed.

Lemma fits_head p : fits p -> 0 <= fraction_bits p <= 1000 /\ weight p <= 2 ^ 53.
Proof. destruct p; cbn [fits]; intros (H1 & H2 & _); split; assumption. Qed.

Lemma run_sim p : @well_formed F p -> fits p -> sim rs (sc (fraction_bits p) (weight p)) (@run F p) (@run G (exact_prog p)).
Proof.
  induction p as [c|v|a IHa b IHb|a IHa b IHb|a IHa b IHb|a IHa n|a IHa|a IHa v|a IHa v e IHe]; intros W FI; pose proof (fits_head _ FI) as [K B]; cbn [fits] in FI; destruct FI as (_ & _ & FI);
    cbn [well_formed] in W; cbn [run exact_prog].
  - destruct FI as [N NI]. apply sim_ok; [|reflexivity]. cbn [fraction_bits weight] in *. apply written_short; assumption.
  - apply sim_ok; [|reflexivity]. split; [exact FI | reflexivity].
  - destruct FI as [F1 F2], W as [W1 W2]. destruct (fits_head _ F1) as [Ka Ba], (fits_head _ F2) as [Kb Bb]. cbn [fraction_bits weight] in *. set (k := Z.max (fraction_bits a) (fraction_bits b)) in *.
    eapply sim_bind; [apply IHa; assumption|]. intros x Hx. cbn beta. eapply sim_bind; [apply IHb; assumption|]. intros y Hy. cbn beta.
    apply plus_sim; [exact K | apply sc_to; [lia | lia | exact Hx] | apply sc_to; [lia | lia | exact Hy] | rewrite top_eq; exact B].
  - destruct FI as [F1 F2], W as [W1 W2]. destruct (fits_head _ F1) as [Ka Ba], (fits_head _ F2) as [Kb Bb]. cbn [fraction_bits weight] in *. set (k := Z.max (fraction_bits a) (fraction_bits b)) in *.
    eapply sim_bind; [apply IHa; assumption|]. intros x Hx. cbn beta. eapply sim_bind; [apply IHb; assumption|]. intros y Hy. cbn beta.
    apply minus_sim; [exact K | apply sc_to; [lia | lia | exact Hx] | apply sc_to; [lia | lia | exact Hy] | rewrite top_eq; exact B].
  - destruct FI as [F1 F2], W as [W1 W2]. destruct (fits_head _ F1) as [Ka Ba], (fits_head _ F2) as [Kb Bb]. cbn [fraction_bits weight] in *.
    eapply sim_bind; [apply IHa; assumption|]. intros x Hx. cbn beta. eapply sim_bind; [apply IHb; assumption|]. intros y Hy. cbn beta.
    apply mul_sim; rewrite ?top_eq; try assumption; lia.
  - destruct W as [W1 W2]. destruct (fits_head _ FI) as [Ka Ba]. cbn [fraction_bits weight] in *. eapply sim_bind; [apply IHa; assumption|]. intros x Hx. cbn beta.
    apply power_sim; rewrite ?top_eq; try assumption; lia.
  - destruct (fits_head _ FI) as [Ka Ba]. cbn [fraction_bits weight] in *. eapply sim_bind; [apply IHa; assumption|]. intros x Hx. cbn beta. apply simplified_sim; rewrite ?top_eq; assumption.
  - destruct FI as (F1 & Hv & Hd), W as [W1 W2]. destruct (fits_head _ F1) as [Ka Ba]. cbn [fraction_bits weight] in *. destruct (run_degree a W1) as (x0 & E0 & V0 & D0). specialize (IHa W1 F1). rewrite E0 in *.
    destruct IHa as [Hx ->]. cbn [bind]. apply derivative_sim; rewrite ?top_eq; try assumption. pose proof (degree_nonneg x0 _ V0 D0). lia.
  - destruct FI as (F1 & Hv & F2), W as (W1 & W2 & W3). destruct (fits_head _ F1) as [Ka Ba], (fits_head _ F2) as [Kb Bb]. cbn [fraction_bits weight] in *.
    destruct (run_degree a W1) as (x0 & E0 & V0 & D0). specialize (IHa W1 F1). rewrite E0 in *. destruct IHa as [Hx ->]. cbn [bind]. pose proof (degree_nonneg x0 _ V0 D0) as Hd.
    eapply sim_bind; [apply IHe; assumption|]. intros y Hy. cbn beta. rewrite (Z.mul_comm (fraction_bits e)) in *. assert (0 < 2 ^ fraction_bits e) by (apply Z.pow_pos_nonneg; lia).
    assert (0 <= Z.max (2 ^ fraction_bits e) (weight e) ^ text_degree a) by (apply Z.pow_nonneg; lia).
    eapply sim_weak; [|apply (substitute_sim (fraction_bits a) x0 (weight a) (fraction_bits e) (Z.max (2 ^ fraction_bits e) (weight e)) y v (text_degree a)); rewrite ?top_eq; try assumption; try lia].
    + intros s Hs. eapply sc_le; [exact Hs|]. apply Z.mul_le_mono_nonneg_r; lia.
    + apply (sc_raise _ (weight e)); [lia | exact Hy].
Qed.

Lemma exact_valid_var v : numeric_var v -> @valid_var F v -> @valid_var G (rv v).
Proof.
  intros N V. apply var_check_valid. rewrite var_check_sim by exact N. apply var_check_valid. exact V.
Qed.
Lemma exact_well_formed p : @well_formed F p -> fits p -> @well_formed G (exact_prog p).
Proof.
  induction p as [c|v|a IHa b IHb|a IHa b IHb|a IHa b IHb|a IHa n|a IHa|a IHa v|a IHa v e IHe]; cbn [well_formed exact_prog fits]; intros W (_ & _ & FI).
  - exact I.
  - apply exact_valid_var; assumption.
  - split; [apply IHa | apply IHb]; tauto.
  - split; [apply IHa | apply IHb]; tauto.
  - split; [apply IHa | apply IHb]; tauto.
  - split; [apply IHa | ]; tauto.
  - apply IHa; tauto.
  - split; [apply IHa; tauto|]. apply exact_valid_var; tauto.
  - split; [apply IHa; tauto|]. split; [apply exact_valid_var; tauto | apply IHe; tauto].
Qed.
Lemma exact_arithmetic p : @arithmetic F p -> @arithmetic G (exact_prog p).
Proof. induction p; cbn [arithmetic exact_prog]; tauto. Qed.
Lemma exact_text_degree p : @text_degree G (exact_prog p) = @text_degree F p.
Proof. induction p; cbn [text_degree exact_prog]; congruence. Qed.
Lemma exact_degree_bounded d p : @degree_bounded F d p -> @degree_bounded G d (exact_prog p).
Proof.
  induction p as [c|v|a IHa b IHb|a IHa b IHb|a IHa b IHb|a IHa n|a IHa|a IHa v|a IHa v e IHe]; cbn [degree_bounded exact_prog]; intros [H1 H2]; (split; [rewrite <- H1; cbn [text_degree]; rewrite ?exact_text_degree; reflexivity|]); tauto.
Qed.
Lemma exact_mentions x p : @mentions_only F x p -> @mentions_only G x (exact_prog p).
Proof. induction p; cbn [mentions_only exact_prog]; tauto. Qed.

Lemma run_exact p : @well_formed F p -> fits p -> exists s, @run F p = Ok s /\ @valid F s /\ short (fraction_bits p) (weight p) s /\ @run G (exact_prog p) = Ok (rs s).
Proof.
  intros W FI. pose proof (run_sim p W FI) as H. destruct (run_valid p W) as (s & E & V). rewrite E in *. destruct H as [H1 H2]. exists s. split; [reflexivity|]. split; [exact V|]. split; [|exact H2].
  apply sc_short; [apply (fits_head p FI) | exact H1].
Qed.

Lemma run_exact_degree2 p : @well_formed F p -> fits p -> @arithmetic F p -> @degree_bounded F 2 p ->
  exists s, @run F p = Ok s /\ @valid F s /\ forall r : @assignment G, @eval G r (rs s) = @denote G r (exact_prog p).
Proof.
  intros W FI A D. destruct (run_exact p W FI) as (s & E & V & _ & E'). exists s. split; [exact E|]. split; [exact V|].
  destruct (@run_value_degree G (exact_prog p) QNum_exact (exact_well_formed p W FI) (exact_arithmetic p A) (exact_degree_bounded 2 p D)) as (s' & E2 & _ & _ & X). rewrite E' in E2. injection E2 as <-. exact X.
Qed.
Lemma run_exact_one_variable x p : @well_formed F p -> fits p -> @arithmetic F p -> @mentions_only F x p ->
  exists s, @run F p = Ok s /\ @valid F s /\ forall r : @assignment G, @eval G r (rs s) = @denote G r (exact_prog p).
Proof.
  intros W FI A D. destruct (run_exact p W FI) as (s & E & V & _ & E'). exists s. split; [exact E|]. split; [exact V|].
  destruct (@run_value_one_variable G x (exact_prog p) QNum_exact (exact_well_formed p W FI) (exact_arithmetic p A) (exact_mentions x p D)) as (s' & E2 & _ & _ & X). rewrite E' in E2. injection E2 as <-. exact X.
Qed.
