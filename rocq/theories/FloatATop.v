(** * Vectors and matrices with short coefficients: the statements of the properties *)

From Coq Require Import ZArith NArith Bool List Lia.
From Coq Require Import QArith Qcanon.
From Coq.Floats Require Import SpecFloat.
From Verif Require Import Num Syntax ModelScalar ModelSC Spec Base SpecProg SpecExact ScalarValid FloatExact FloatSim FloatRun FloatOps FloatLin FloatProg ModelShape ModelArith SpecArr Arr ArrMulTop ArrTop ArrPow ArrFacts ModelConstr SpecAProg ModelAProg AProgProofs AProgTop AProgWit
  SpecExactArr FloatArr FloatArrPlus FloatArrMul FloatAProg FloatARun FloatACon.
Import ListNotations.
Local Open Scope Z_scope.

(** ** One call *)
Lemma short_row k n l : 0 <= k <= 1000 -> n <= 2 ^ 53 -> Forall (fun c => short k n (SK c)) l -> Forall (sc k n) (map (@SK F) l).
Proof. intros Hk Hn H. rewrite Forall_map. eapply Forall_impl; [|exact H]. intros c. apply short_sc; assumption. Qed.
Lemma short_rows k n l : 0 <= k <= 1000 -> n <= 2 ^ 53 -> Forall (Forall (fun c => short k n (SK c))) l -> Forall (Forall (sc k n)) (map (map (@SK F)) l).
Proof. intros Hk Hn H. rewrite Forall_map. eapply Forall_impl; [|exact H]. intros r. apply short_row; assumption. Qed.
Lemma short_operand_ag k n g : 0 <= k <= 1000 -> n <= 2 ^ 53 -> short_operand k n g -> ag k n g.
Proof.
  intros Hk Hn. destruct g; cbn [short_operand ag]; intro H; try exact H.
  - apply short_sc; assumption.
  - exact (short_row k n l Hk Hn H).
  - exact (short_row k n l Hk Hn H).
  - exact (short_rows k n l Hk Hn H).
  - exact (short_rows k n l Hk Hn H).
  - apply short_array_ax; assumption.
Qed.

Lemma array_plus_exact k na nb e g : 0 <= k <= 1000 -> 0 <= na -> 0 <= nb -> na + nb <= 2 ^ 53 -> short_array k na e -> short_operand k nb g ->
  same_array k (na + nb) (@expr_plus F e g) (@expr_plus G (rx e) (rg g)).
Proof.
  intros Hk Na Nb Ht He Hg. apply sim_same_array; [lia|].
  apply expr_plus_sim; try assumption; [apply short_array_ax; [exact Hk | lia | exact He] | apply short_operand_ag; [exact Hk | lia | exact Hg]].
Qed.
Lemma array_minus_exact k na nb e g : 0 <= k <= 1000 -> 0 <= na -> 0 <= nb -> na + nb <= 2 ^ 53 -> short_array k na e -> short_operand k nb g ->
  same_array k (na + nb) (@expr_minus F e g) (@expr_minus G (rx e) (rg g)).
Proof.
  intros Hk Na Nb Ht He Hg. apply sim_same_array; [lia|].
  apply expr_minus_sim; try assumption; [apply short_array_ax; [exact Hk | lia | exact He] | apply short_operand_ag; [exact Hk | lia | exact Hg]].
Qed.
(** [w] products are added up in one entry *)
Lemma array_multiply_exact ka na kb nb w d e g : 0 <= ka -> 0 <= kb -> ka + kb <= 1000 -> 0 <= na -> 0 <= nb -> na <= 2 ^ 53 -> nb <= 2 ^ 53 ->
  @valid_array F d e -> w = Z.of_nat (snd d) -> w * (na * nb) <= 2 ^ 53 -> short_array ka na e -> short_operand kb nb g ->
  same_array (ka + kb) (w * (na * nb)) (@expr_mul F e g) (@expr_mul G (rx e) (rg g)).
Proof.
  intros Hka Hkb Hs Na Nb Ta Tb V W Ht He Hg. apply sim_same_array; [lia|]. rewrite <- top_eq in *.
  apply expr_mul_sim; try assumption; [subst w; destruct V as (_ & D2 & _); lia | apply short_array_ax; [lia | rewrite <- top_eq; exact Ta | exact He] | apply short_operand_ag; [lia | rewrite <- top_eq; exact Tb | exact Hg] |].
  intros _. destruct e as [s|v|m]; try exact I. intros d' Ed. destruct (valid_array_check _ _ V) as [_ D]. cbn [expr_dims] in D. rewrite D in Ed. injection Ed as <-. lia.
Qed.
Lemma array_simplified_exact k n e : 0 <= k <= 1000 -> n <= 2 ^ 53 -> short_array k n e -> same_array k n (@expr_simplified F e) (@expr_simplified G (rx e)).
Proof. intros Hk Hn He. apply sim_same_array; [lia|]. apply expr_simplified_sim; [exact Hk | rewrite top_eq; exact Hn | apply short_array_ax; assumption]. Qed.

(** ** Programs *)
Lemma rows_rx e : @rows G (rx e) = map (map rs) (@rows F e).
Proof. destruct e as [s|[l|l|l|l]|[l|l|l|l]]; cbn [rows exact_expr exact_vector exact_matrix map]; try reflexivity; rewrite !map_map; apply map_ext; intro x; try reflexivity; rewrite !map_map; reflexivity. Qed.
Lemma leaf_dims_rx e : @leaf_dims G (rx e) = @leaf_dims F e.
Proof. unfold leaf_dims. rewrite rows_rx, map_length. f_equal. destruct (rows e); [reflexivity|]. cbn [map hd]. apply map_length. Qed.
Lemma adims_exact p : @adims G (exact_aprog p) = @adims F p.
Proof. induction p as [e|a IHa b IHb|a IHa b IHb|a IHa b IHb|a IHa n|a IHa|a IHa|a IHa b IHb|a IHa b IHb]; cbn [adims exact_aprog]; rewrite ?leaf_dims_rx, ?IHa, ?IHb; reflexivity. Qed.
Lemma dims_of_exact p : @dims_of G (exact_aprog p) = @dims_of F p.
Proof. unfold dims_of. rewrite adims_exact. reflexivity. Qed.
Lemma leaf_degree_rx e : @leaf_degree G (rx e) = @leaf_degree F e.
Proof.
  unfold leaf_degree. rewrite rows_rx, concat_map_map. f_equal. generalize (concat (rows e)). intro l. induction l as [|s l IH]; cbn [flat_map map]; [reflexivity|].
  rewrite !map_app, IH, exact_terms, map_map. reflexivity.
Qed.
Lemma adegree_exact p : @adegree G (exact_aprog p) = @adegree F p.
Proof. induction p; cbn [adegree exact_aprog]; rewrite ?leaf_degree_rx; congruence. Qed.
Lemma leaves_only_exact x p : @leaves_only F x p -> @leaves_only G x (exact_aprog p).
Proof.
  unfold leaves_only. induction p as [e|a IHa b IHb|a IHa b IHb|a IHa b IHb|a IHa n|a IHa|a IHa|a IHa b IHb|a IHa b IHb]; cbn [everywhere exact_aprog]; try (intros [_ H]; split; [exact I | tauto]).
  intros [H _]. split; [|exact I]. intros row s Hr Hs. rewrite rows_rx in Hr. apply in_map_iff in Hr. destruct Hr as (r & <- & Hr). apply in_map_iff in Hs. destruct Hs as (t & <- & Ht). specialize (H r t Hr Ht).
  unfold only_variable in *. rewrite exact_terms, Forall_map. eapply Forall_impl; [|exact H]. cbn beta. intros m Hm. rewrite exact_ids. exact Hm.
Qed.

Lemma exact_valid_mono m : (forall w, In w (m_vars m) -> numeric_var w) -> @valid_mono F m -> @valid_mono G (rm m).
Proof.
  intros Hn (H1 & H2 & H3 & H4). unfold valid_mono. cbn [m_exps m_vars exact_mono]. rewrite map_length. split; [exact H1|]. split; [exact H2|]. split; [rewrite map_map; exact H3|].
  rewrite Forall_map. rewrite Forall_forall in *. intros v Hv. apply exact_valid_var; auto.
Qed.
Lemma exact_valid s : (forall m w, In m (terms s) -> In w (m_vars m) -> numeric_var w) -> @valid F s -> @valid G (rs s).
Proof.
  intros Hn V. destruct s as [c|v|m|p]; cbn [valid exact_scalar terms] in *.
  - exact I.
  - apply exact_valid_var; [apply (Hn _ v (or_introl eq_refl)); left; reflexivity | exact V].
  - apply exact_valid_mono; [intros w; apply (Hn m); left; reflexivity | exact V].
  - destruct V as [N V]. split; [destruct p; [congruence | discriminate]|]. rewrite Forall_map. rewrite Forall_forall in *. intros m Hm. apply exact_valid_mono; [intros w; apply Hn; exact Hm | apply V; exact Hm].
Qed.
Lemma exact_valid_array d e : (forall row s, In row (rows e) -> In s row -> forall m w, In m (terms s) -> In w (m_vars m) -> numeric_var w) -> @valid_array F d e -> @valid_array G d (rx e).
Proof.
  intros Hn V. destruct V as (D1 & D2 & [S1 S2] & V). split; [exact D1|]. split; [exact D2|]. split.
  - split; [rewrite rows_rx, map_length; exact S1|]. rewrite rows_rx, Forall_map. eapply Forall_impl; [|exact S2]. intros r Hr. rewrite map_length. exact Hr.
  - intros i j Hi Hj. specialize (V i j Hi Hj). unfold entry in *. rewrite rows_rx. destruct (nth_error (rows e) i) as [row|] eqn:Er.
    + rewrite (nth_error_nth _ i [] (map_nth_error (map rs) i _ Er)). rewrite (nth_error_nth _ i [] Er) in V. destruct (nth_error row j) as [s|] eqn:Es.
      * rewrite (nth_error_nth _ j _ (map_nth_error rs j _ Es)). rewrite (nth_error_nth _ j _ Es) in V. apply exact_valid; [|exact V]. apply (Hn row s); [exact (nth_error_In _ _ Er) | exact (nth_error_In _ _ Es)].
      * exfalso. apply nth_error_None in Es. rewrite Forall_forall in S2. rewrite (S2 row (nth_error_In _ _ Er)) in Es. lia.
    + exfalso. apply nth_error_None in Er. lia.
Qed.
Lemma proper_exact p : @proper_leaves F p -> afits p -> @proper_leaves G (exact_aprog p).
Proof.
  unfold proper_leaves, afits. induction p as [e|a IHa b IHb|a IHa b IHb|a IHa b IHb|a IHa n|a IHa|a IHa|a IHa b IHb|a IHa b IHb]; cbn [everywhere exact_aprog]; intros [H0 H] [F0 FI]; try (split; [exact I | tauto]).
  split; [|exact I]. cbn [proper_leaf] in *. destruct H0 as [V S], F0 as (_ & _ & NF). rewrite leaf_dims_rx. split.
  - apply exact_valid_array; [|exact V]. intros row s Hr Hs m w Hm Hw. rewrite Forall_forall in NF. specialize (NF row Hr). rewrite Forall_forall in NF. apply (NF s Hs m Hm). exact Hw.
  - intro E. specialize (S E). destruct e; [exact I | destruct S | destruct S].
Qed.

Lemma aprogram_exact p : @proper_leaves F p -> afits p -> same_array (abits p) (aweight p) (@arun F p) (@arun G (exact_aprog p)).
Proof. intros W FI. apply sim_same_array; [apply abits_nonneg | apply arun_sim; assumption]. Qed.

Lemma avalue_degree2_exact p e : @proper_leaves F p -> afits p -> adegree p <= 2 -> @arun F p = Ok e ->
  forall (r : @assignment G) i j, (i < fst (dims_of p))%nat -> (j < snd (dims_of p))%nat -> @value G r (rx e) i j = @meaning G r (exact_aprog p) i j.
Proof.
  intros W FI D E r i j Hi Hj. pose proof (arun_sim p W FI) as H. rewrite E in H. destruct H as [_ H].
  apply (@arun_value_degree2 G (exact_aprog p) (rx e) QNum_exact (proper_exact p W FI)); [rewrite adegree_exact; exact D | exact H | rewrite dims_of_exact; exact Hi | rewrite dims_of_exact; exact Hj].
Qed.
Lemma avalue_variable_exact x p e : @proper_leaves F p -> afits p -> @leaves_only F x p -> @arun F p = Ok e ->
  forall (r : @assignment G) i j, (i < fst (dims_of p))%nat -> (j < snd (dims_of p))%nat -> @value G r (rx e) i j = @meaning G r (exact_aprog p) i j.
Proof.
  intros W FI D E r i j Hi Hj. pose proof (arun_sim p W FI) as H. rewrite E in H. destruct H as [_ H].
  apply (@arun_value_variable G x (exact_aprog p) (rx e) QNum_exact (proper_exact p W FI)); [apply leaves_only_exact; exact D | exact H | rewrite dims_of_exact; exact Hi | rewrite dims_of_exact; exact Hj].
Qed.

(** ** Quadratic forms, linear maps and linear constraints on matrices of short numbers *)
Lemma exact_dense_shape d A : @dense_shape F d A -> @dense_shape G d (map (map exactly) A).
Proof. intros [H1 H2]. split; [rewrite map_length; exact H1|]. rewrite Forall_map. eapply Forall_impl; [|exact H2]. intros r Hr. rewrite map_length. exact Hr. Qed.
Lemma vars_ax k xs : 0 <= k -> Forall numeric_var xs -> ax k (2 ^ k) (@EV F (VV xs)).
Proof. intros Hk H. unfold ax, av. cbn [vec_entries]. rewrite Forall_map. eapply Forall_impl; [|exact H]. intros v Hv. split; [exact Hv | lia]. Qed.

Lemma quadratic_exact n k w xs Q : (2 <= n)%nat -> length xs = n -> Forall (@valid_var F) xs -> Forall numeric_var xs -> @dense_shape F (n, n) Q ->
  0 <= k <= 1000 -> 0 <= w -> Forall (Forall (fun c => short k w (SK c))) Q -> Z.of_nat n * (Z.of_nat n * w) <= 2 ^ 53 ->
  exists s, @arun F (quadratic_form xs Q) = Ok (ES s) /\ @valid F s
   /\ forall r : @assignment G, @eval G r (rs s) = @sum_to G (fun i => @sum_to G (fun j => @nmul G (@nmul G (exactly (at_ij Q i j)) (var_at r (map exact_var xs) i)) (var_at r (map exact_var xs) j)) n) n.
Proof.
  intros Hn L HV HN HQ Hk Hw HS Ht. rewrite <- top_eq in Ht. pose proof top_pos.
  destruct (@quadratic_form_ok F n xs Q Hn L HV HQ) as (s & E & V & _ & _). exists s. split; [exact E|]. split; [exact V|].
  assert (HV' : Forall (@valid_var G) (map exact_var xs)) by (apply exact_w; assumption).
  assert (Lx : length (map exact_var xs) = n) by (rewrite map_length; exact L).
  destruct (@quadratic_form_ok G n (map exact_var xs) (map (map exactly) Q) Hn Lx HV' (exact_dense_shape _ _ HQ)) as (t & Et & _ & _ & X).
  assert (S : sim rx (ax k (Z.of_nat n * (Z.of_nat n * w))) (@arun F (quadratic_form xs Q)) (@arun G (quadratic_form (map exact_var xs) (map (map exactly) Q)))).
  { unfold quadratic_form. cbn [arun bind]. assert (Z2 : 2 <= Z.of_nat n) by lia. assert (W1 : w <= Z.of_nat n * w) by nia. assert (W2 : Z.of_nat n * w <= Z.of_nat n * (Z.of_nat n * w)) by nia. assert (Wt : w <= top) by lia.
    assert (AQ : ax k w (@EM F (MK Q))) by (cbn [ax]; unfold am; cbn [mat_rows]; apply short_rows; [exact Hk | rewrite <- top_eq; exact Wt | exact HS]).
    assert (AX : ax 0 1 (@EV F (VV xs))) by (apply (vars_ax 0); [lia | exact HN]).
    pose proof (vars_array n xs (ltac:(lia)) L HV) as Vx. pose proof (numbers_array (n, n) Q (ltac:(cbn; lia)) (ltac:(cbn; lia)) HQ) as VQ.
    set (one := 1) in AX. eapply (sim_bind rx rx (fun y => ax k (Z.of_nat n * w) y /\ @valid_array F (1%nat, n) y)).
    - eapply sim_bind; [apply sim_keep; apply (expr_transpose_sim 0 one (EV (VV xs)) AX)|]. intros y [Hy Ey]. cbn beta.
      destruct (@ArrShape.array_transpose F _ _ Vx) as (y0 & Ey0 & Vy & _). rewrite Ey in Ey0. injection Ey0 as <-. cbn [fst snd] in Vy.
      assert (HM : sim rx (fun z => ax (0 + k) (Z.of_nat n * (one * w)) z) (@expr_mul F y (GExpr (EM (MK Q)))) (@expr_mul G (rx y) (rg (@GExpr F (EM (MK Q)))))).
      { apply (expr_mul_sim 0 one k w (Z.of_nat n)) with (g := @GExpr F (EM (MK Q))); try assumption; unfold one; try lia; try nia.
        intros _. destruct y as [?|?|m]; try exact I. intros d Ed. destruct (valid_array_check _ _ Vy) as [_ D]. cbn [expr_dims] in D. rewrite D in Ed. injection Ed as <-. cbn [snd]. lia. }
      apply sim_keep in HM. eapply sim_weak; [|exact HM]. intros z [Hz Ez]. split; [replace (Z.of_nat n * (one * w)) with (Z.of_nat n * w) in Hz by (unfold one; lia); exact Hz|].
      assert (Ny : ~ is_scalar y) by (intro Sy; destruct y as [?|?|?]; try destruct Sy; pose proof (ArrTop.valid_array_ES _ _ Vy) as Q1; injection Q1 as Q1; lia).
      apply (@ArrTop.array_multiply_shape F y (EM (MK Q)) (GExpr (EM (MK Q))) (1%nat, n) (n, n) (1%nat, n) z Vy VQ eq_refl); [right; right; repeat split; [exact Ny | intros []] | exact Ez].
    - intros y [Hy Vy]. cbn beta. replace (Z.of_nat n * (Z.of_nat n * w)) with (Z.of_nat n * (Z.of_nat n * w * one)) by (unfold one; lia). replace k with (k + 0) at 1 by lia.
      apply (expr_mul_sim k (Z.of_nat n * w) 0 one (Z.of_nat n)) with (g := @GExpr F (EV (VV xs))); try assumption; unfold one; try lia; try nia.
      intros _. destruct y as [?|?|m]; try exact I. intros d Ed. destruct (valid_array_check _ _ Vy) as [_ D]. cbn [expr_dims] in D. rewrite D in Ed. injection Ed as <-. cbn [snd]. lia. }
  rewrite E in S. destruct S as [_ S]. rewrite Et in S. injection S as ->. intro r. rewrite (X QNum_exact r).
  apply AProgProofs.sum_to_ext. intros i Hi. apply AProgProofs.sum_to_ext. intros j Hj. repeat f_equal. unfold at_ij. change (@nil (@num G)) with (map exactly []). rewrite map_nth. exact (map_nth exactly (nth i Q []) (@n0 F) j).
Qed.

Lemma sim_inv {A B} (rd : A -> B) P x y z : sim rd P x y -> y = Ok z -> exists a, x = Ok a /\ z = rd a /\ P a.
Proof. intros H E. destruct x as [a|p]; [|cbn in H; congruence]. destruct H as [H1 H2]. exists a. rewrite E in H2. injection H2 as ->. auto. Qed.

Lemma linear_constraint_exact m n k w A xs b s : (2 <= m)%nat -> @dense_shape F (m, n) A -> length xs = n -> Forall (@valid_var F) xs -> Forall numeric_var xs -> NoDup (map v_id xs) ->
  @no_zero_row G m n (map (map exactly) A) -> length b = m -> s <> SenseOther ->
  0 <= k <= 1000 -> 0 <= w -> Forall (Forall (fun c => short k w (SK c))) A -> Forall (fun c => short k w (SK c)) b -> Z.of_nat (n + 2) * w <= 2 ^ 53 ->
  exists v c A' b', @expr_mul F (EM (MK A)) (GExpr (EV (VV xs))) = Ok (EV v) /\ @expr_comparison F (EV v) (GExpr (EV (VK b))) s = Ok (CV c) /\
   match s with
   | SenseLe => @vc_linear_inequality F c [xs] = Ok (A', b') /\ map (map exactly) A' = map (map exactly) A /\ map exactly b' = map exactly b
   | SenseGe => @vc_linear_inequality F c [xs] = Ok (A', b') /\ map (map exactly) A' = map (map opposite) A /\ map exactly b' = map opposite b
   | _ => @vc_linear_equality F c [xs] = Ok (A', b') /\ map (map exactly) A' = map (map exactly) A /\ map exactly b' = map exactly b
   end.
Proof.
  intros Hm HA L HV HNV HN HZ Lb HS Hk Hw SA SB Ht. rewrite <- top_eq in Ht.
  assert (Hn : (1 <= n)%nat) by (destruct (HZ 0%nat) as (j & Hj & _); lia).
  assert (HV' : Forall (@valid_var G) (map exact_var xs)) by (apply exact_w; assumption).
  assert (Lx : length (map exact_var xs) = n) by (rewrite map_length; exact L).
  assert (HN' : NoDup (map v_id (map exact_var xs))) by (rewrite exact_ids_w; exact HN).
  assert (Lb' : @length (@num G) (map exactly b) = m) by (rewrite <- Lb; exact (map_length exactly b)).
  destruct (@linear_constraint G QNum_exact m n (map (map exactly) A) (map exact_var xs) (map exactly b) s Hm (exact_dense_shape _ _ HA) Lx HV' HN' HZ Lb' HS) as (v' & c' & E1 & E2 & R).
  assert (W3 : 3 * w <= top) by nia.
  assert (AA : ax k w (@EM F (MK A))) by (cbn [ax]; unfold am; cbn [mat_rows]; apply short_rows; [exact Hk | rewrite <- top_eq; lia | exact SA]).
  assert (AB : av k w (@VK F b)) by (unfold av; cbn [vec_entries]; apply short_row; [exact Hk | rewrite <- top_eq; lia | exact SB]).
  assert (S1 : sim rx (ax k (Z.of_nat n * w)) (@expr_mul F (EM (MK A)) (GExpr (EV (VV xs)))) (@expr_mul G (EM (@MK G (map (map exactly) A))) (GExpr (EV (VV (map exact_var xs)))))).
  { replace (Z.of_nat n * w) with (Z.of_nat n * (w * 1)) by lia. replace k with (k + 0) at 1 by lia. pose proof top_pos.
    apply (expr_mul_sim k w 0 1 (Z.of_nat n)) with (e := @EM F (MK A)) (g := @GExpr F (EV (VV xs))); try lia; try assumption; [exact (vars_ax 0 xs (Z.le_refl 0) HNV)|].
    intros _ d Ed. assert (VA : @valid_array F (m, n) (EM (MK A))) by (apply (@numbers_array F (m, n) A); [cbn; lia | cbn; lia | exact HA]). destruct (@valid_array_check F _ _ VA) as [_ D]. cbn [expr_dims] in D. rewrite D in Ed. injection Ed as <-. cbn [snd]. lia. }
  destruct (sim_inv _ _ _ _ _ S1 E1) as (e & X1 & Y1 & P1). destruct e as [?|v|?]; try discriminate. cbn [exact_expr] in Y1. injection Y1 as ->. cbn [ax] in P1.
  pose proof (vec_compare_sim k (Z.of_nat n * w) w v (VK b) s P1 AB) as S2.
  destruct (sim_inv _ _ _ _ _ S2 E2) as (c & X2 & Y2 & P2). subst c. cbn [exact_con exact_vc vc_left vc_right vc_sense] in Y2. injection Y2 as ->.
  assert (HW : numeric_lists [xs]) by (intros l x [<-|[]] Hx; rewrite Forall_forall in HNV; auto).
  assert (T : Z.of_nat n * w + 2 * w <= top) by nia. assert (N1 : 0 <= Z.of_nat n * w) by nia.
  pose proof (vc_inequality_sim k (Z.of_nat n * w) w Hk N1 Hw T v (VK b) s P1 AB [xs] HW) as S3. pose proof (vc_equality_sim k (Z.of_nat n * w) w Hk N1 Hw T v (VK b) s P1 AB [xs] HW) as S4.
  exists v, (mkVC v (VK b) s). destruct s; [| | |congruence].
  - destruct (sim_inv _ _ _ _ _ S3 R) as ([A' b'] & X3 & Y3 & _). injection Y3 as Y3 Y4. exists A', b'. auto.
  - destruct (sim_inv _ _ _ _ _ S3 R) as ([A' b'] & X3 & Y3 & _). injection Y3 as Y3 Y4. exists A', b'. split; [exact X1|]. split; [exact X2|]. split; [exact X3|].
    split; [|rewrite <- Y4, map_map; reflexivity]. rewrite <- Y3, map_map. apply map_ext. intro r. rewrite map_map. reflexivity.
  - destruct (sim_inv _ _ _ _ _ S4 R) as ([A' b'] & X3 & Y3 & _). injection Y3 as Y3 Y4. exists A', b'. auto.
Qed.

Lemma array_inequality_exact k na nb c wrt : 0 <= k <= 1000 -> 0 <= na -> 0 <= nb -> na + 2 * nb <= 2 ^ 53 -> short_array k na (EV (vc_left c)) -> short_array k nb (EV (vc_right c)) -> numeric_lists wrt ->
  same_system (@vc_linear_inequality F c wrt) (@vc_linear_inequality G (exact_vc c) (map (map exact_var) wrt)).
Proof.
  intros Hk Na Nb Ht Ha Hb Hw. destruct c as [a b s]. cbn [vc_left vc_right] in *. apply short_array_ax in Ha; [|exact Hk | lia]. apply short_array_ax in Hb; [|exact Hk | lia].
  pose proof (vc_inequality_sim k na nb Hk Na Nb Ht a b s Ha Hb wrt Hw) as S. unfold exact_vc. cbn [vc_left vc_right vc_sense].
  destruct (@vc_linear_inequality F (mkVC a b s) wrt); [destruct S as [_ S]|]; exact S.
Qed.
Lemma array_equality_exact k na nb c wrt : 0 <= k <= 1000 -> 0 <= na -> 0 <= nb -> na + 2 * nb <= 2 ^ 53 -> short_array k na (EV (vc_left c)) -> short_array k nb (EV (vc_right c)) -> numeric_lists wrt ->
  same_system (@vc_linear_equality F c wrt) (@vc_linear_equality G (exact_vc c) (map (map exact_var) wrt)).
Proof.
  intros Hk Na Nb Ht Ha Hb Hw. destruct c as [a b s]. cbn [vc_left vc_right] in *. apply short_array_ax in Ha; [|exact Hk | lia]. apply short_array_ax in Hb; [|exact Hk | lia].
  pose proof (vc_equality_sim k na nb Hk Na Nb Ht a b s Ha Hb wrt Hw) as S. unfold exact_vc. cbn [vc_left vc_right vc_sense].
  destruct (@vc_linear_equality F (mkVC a b s) wrt); [destruct S as [_ S]|]; exact S.
Qed.
