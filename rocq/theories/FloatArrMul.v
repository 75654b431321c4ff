(** * Products of vectors and matrices with short coefficients, in binary64 and in rational numbers side by side *)

From Coq Require Import ZArith NArith Bool List Lia.
From Coq Require Import QArith Qcanon.
From Coq.Floats Require Import SpecFloat.
From Verif Require Import Num Syntax ModelScalar Spec Base SpecProg SpecExact FloatExact FloatSim FloatRun FloatOps FloatLin ModelShape ModelArith SpecArr SpecAProg SpecExactArr FloatArr FloatArrPlus.
Import ListNotations.
Local Open Scope Z_scope.

(** ** Loops that count their steps *)
Lemma loop_sim {A B C D} (rd : A -> B) (rc : C -> D) (P : Z -> A -> Prop) f g l : forall j acc,
  (forall c a p, nth_error l p = Some c -> P (j + Z.of_nat p) a -> sim rd (P (j + Z.of_nat p + 1)) (f a c) (g (rd a) (rc c))) -> P j acc ->
  sim rd (P (j + Z.of_nat (length l))) (foldM f acc l) (foldM g (rd acc) (map rc l)).
Proof.
  induction l as [|c l IH]; intros j acc H HP; cbn [foldM map length].
  - apply sim_ok; [|reflexivity]. change (Z.of_nat 0) with 0. rewrite Z.add_0_r. exact HP.
  - eapply sim_bind; [apply (H c acc O eq_refl); change (Z.of_nat 0) with 0; rewrite Z.add_0_r; exact HP|]. intros a Ha. change (Z.of_nat 0) with 0 in Ha. rewrite Z.add_0_r in Ha.
    replace (j + Z.of_nat (S (length l))) with (j + 1 + Z.of_nat (length l)) by lia. apply IH; [|exact Ha].
    intros c' a' p Hp Hp'. specialize (H c' a' (S p) Hp). replace (j + Z.of_nat (S p)) with (j + 1 + Z.of_nat p) in H by lia. exact (H Hp').
Qed.
Lemma loop_sim_same {A B C} (rd : A -> B) (P : Z -> A -> Prop) (f : A -> C -> res A) (g : B -> C -> res B) l j acc :
  (forall c a p, nth_error l p = Some c -> P (j + Z.of_nat p) a -> sim rd (P (j + Z.of_nat p + 1)) (f a c) (g (rd a) c)) -> P j acc ->
  sim rd (P (j + Z.of_nat (length l))) (foldM f acc l) (foldM g (rd acc) l).
Proof. intros H K. rewrite <- (map_id l) at 3. apply loop_sim; assumption. Qed.
Lemma nth_seq i n p c : nth_error (seq i n) p = Some c -> c = (i + p)%nat /\ (p < n)%nat.
Proof.
  revert i p. induction n as [|n IH]; intros i [|p]; cbn [seq nth_error]; try discriminate; [intros [= <-]; lia|]. intro H. apply IH in H. lia.
Qed.
Lemma nth_enum {A} (l : list A) p c : nth_error (enum l) p = Some c -> fst c = p /\ nth_error l p = Some (snd c).
Proof.
  unfold enum. intro H. assert (K : forall i (l : list A) p c, nth_error (combine (seq i (length l)) l) p = Some c -> fst c = (i + p)%nat /\ nth_error l p = Some (snd c)).
  { intros i l0. revert i. induction l0 as [|a l0 IH]; intros i [|q] c0; cbn [length seq combine nth_error]; try discriminate; [intros [= <-]; cbn [fst snd]; split; [lia | reflexivity]|].
    intro E. apply IH in E. split; [lia | apply E]. }
  apply K in H. exact H.
Qed.
Lemma nth_lt {A} (l : list A) p c : nth_error l p = Some c -> (p < length l)%nat.
Proof. intro H. apply nth_error_Some. congruence. Qed.

(** the product of every two entries, of a short one by a short one *)
Definition arrayish {NN : Num} (g : goval) : bool := match g with GFloat _ | GInt _ | GOther | GExpr (ES _) => false | _ => true end.

Section Mul.
Context (ka na kb nb w : Z) (Ka : 0 <= ka) (Kb : 0 <= kb) (Ks : ka + kb <= 1000) (Na : 0 <= na) (Nb : 0 <= nb) (Ta : na <= top) (Tb : nb <= top)
  (W1 : 1 <= w) (Ht : w * (na * nb) <= top).

Notation kk := (ka + kb).
Notation nn := (na * nb).
Notation all := (w * (na * nb)).

Local Lemma Np : 0 <= nn. Proof. nia. Qed.
Local Lemma Tp : nn <= top. Proof. pose proof Np. nia. Qed.
Local Lemma Lp : nn <= all. Proof. pose proof Np. nia. Qed.
Local Lemma Hk : 0 <= kk <= 1000. Proof. lia. Qed.
Local Lemma Zp : 0 <= all. Proof. pose proof Np. nia. Qed.

Ltac sr := apply simplify_result_sim; [exact Hk | solve [exact Ht | exact Tp] |].

Lemma wide x y : sim rx (ax kk nn) x y -> sim rx (ax kk all) x y.
Proof. apply sim_weak. intros e He. eapply ax_le; [exact He | exact Lp]. Qed.
Lemma prod_sim a b : sc ka na a -> sc kb nb b -> sim rs (sc kk nn) (@scalar_mul F a b) (@scalar_mul G (rs a) (rs b)).
Proof. intros H1 H2. apply mul_sim; try assumption. exact Tp. Qed.
Lemma prod_float_sim a c : sc ka na a -> cs kb nb c -> sim rs (sc kk nn) (@scalar_mul_float F a c) (@scalar_mul_float G (rs a) (exactly c)).
Proof.
  intros Ha Hc. pose proof (prod_sim a (SK c) Ha Hc) as S. destruct a; cbn [scalar_mul_float exact_scalar scalar_mul] in *; [exact S | | exact S |]; (apply again; [exact Hk | exact Tp | exact S]).
Qed.
Lemma num_prod c d : cs ka na c -> cs kb nb d -> cs kk nn (@nmul F c d) /\ @nmul G (exactly c) (exactly d) = exactly (@nmul F c d).
Proof.
  intros (z & Hz & L) (z' & Hz' & L'). assert (B : Z.abs (z * z') <= nn) by (apply abs_mul_le; lia). pose proof Tp. split.
  - exists (z * z'). split; [|exact B]. apply mul_exact; [lia | lia | lia | exact Hz | exact Hz' | rewrite <- top_eq; lia].
  - symmetry. apply (rd_mul ka kb z z'); [lia | lia | lia | exact Hz | exact Hz' | rewrite <- top_eq; lia].
Qed.
Lemma num_prod_r c d : cs ka na c -> cs kb nb d -> cs kk nn (@nmul F d c) /\ @nmul G (exactly d) (exactly c) = exactly (@nmul F d c).
Proof.
  intros (z & Hz & L) (z' & Hz' & L'). assert (B : Z.abs (z' * z) <= nn) by (rewrite Z.mul_comm; apply abs_mul_le; lia). pose proof Tp. split.
  - exists (z' * z). split; [|exact B]. rewrite (Z.add_comm ka). apply mul_exact; [lia | lia | lia | exact Hz' | exact Hz | rewrite <- top_eq; lia].
  - symmetry. apply (rd_mul kb ka z' z); [lia | lia | lia | exact Hz' | exact Hz | rewrite <- top_eq; lia].
Qed.

Lemma var_k_sim x c : sc kb nb (SV x) -> cs ka na c -> sim rs (sc kk nn) (@var_mul_k F x c) (@var_mul_k G (rv x) (exactly c)).
Proof.
  intros [Hx L] (z & Hz & Lz). eapply sim_weak; [|apply (var_mul_k_sim x ka c z); [lia | exact Hx | exact Hz | lia]]. intros s Hs. apply (sc_regrid ka kb) in Hs; [|lia|lia].
  eapply sc_le; [exact Hs|]. assert (0 <= 2 ^ kb) by (apply Z.pow_nonneg; lia). nia.
Qed.

(** ** Vectors *)
Lemma vec_mul_template_sim v s : av ka na v -> sc kb nb s -> sim rx (ax kk nn) (@vec_mul_template F v s) (@vec_mul_template G (ra v) (rs s)).
Proof.
  intros Hv Hs. unfold vec_mul_template. rewrite entries_exact.
  eapply sim_bind; [apply (sim_mapM rs rs (sc kk nn)); intros a Ha; apply prod_sim; [exact (Forall_in _ _ _ Hv Ha) | exact Hs]|]. intros l Hl. apply concretize_slice_sim; [lia | exact Hl].
Qed.
Lemma vec_mul_scalar_sim v s : av ka na v -> sc kb nb s -> sim rx (ax kk nn) (@vec_mul_scalar F v s) (@vec_mul_scalar G (ra v) (rs s)).
Proof.
  intros Hv Hs. unfold vec_mul_scalar. apply sim_check; [apply (vec_check_sim ka na v Hv)|]. intros _.
  apply sim_eq; [apply (expr_operand_check_sim kb nb dims_mul _ _ (ES s)); [exact Hs | apply (vec_dims_sim ka na v Hv)]|]. intros _ _.
  pose proof (vec_mul_template_sim v s Hv Hs) as T. destruct v, s; cbn [exact_vector exact_scalar] in *; try reflexivity; sr; exact T.
Qed.
Lemma k_vec_mul_vec_sim l r : av ka na (VK l) -> Forall (cs kb nb) r -> sim rx (ax kk nn) (@k_vec_mul_vec F l r) (@k_vec_mul_vec G (map exactly l) (map exactly r)).
Proof.
  intros Hl Hr. unfold k_vec_mul_vec. apply sim_eq; [apply (expr_operand_check_sim kb nb dims_mul _ _ (EV (VK r))); [exact (proj2 (Forall_map SK (sc kb nb) r) Hr) | apply (vec_dims_sim ka na (VK l) Hl)]|]. intros _ _.
  eapply sim_bind; [apply (sim_index_F exactly (cs kb nb) r 0 Hr)|]. intros c Hc. sr. apply (vec_mul_scalar_sim (VK l) (SK c)); assumption.
Qed.

Lemma vec_mul_sim v g : av ka na v -> ag kb nb g -> sim rx (ax kk nn) (@vec_mul F v g) (@vec_mul G (ra v) (rg g)).
Proof.
  intros Hv Hg. unfold vec_mul. apply sim_check; [apply (vec_check_sim ka na v Hv)|]. intros _. apply sim_eq; [apply (operand_check_sim kb nb); [exact Hg | apply (vec_dims_sim ka na v Hv)]|]. intros _ _.
  assert (VS : forall s, sc kb nb s -> sim rx (ax kk nn) (@vec_mul_scalar F v s) (@vec_mul_scalar G (ra v) (rs s))) by (intros s Hs; apply vec_mul_scalar_sim; assumption).
  destruct g as [f|z|l|l|l|l|e|]; cbn [exact_operand ag] in *.
  - pose proof (VS (SK f) Hg) as S. destruct v; cbn [exact_vector] in *; [sr; exact S | exact S | sr; exact S | sr; exact S].
  - destruct v; reflexivity.
  - apply av_inv in Hg. destruct v; cbn [exact_vector] in *; try reflexivity. sr. apply k_vec_mul_vec_sim; assumption.
  - apply av_inv in Hg. destruct v; cbn [exact_vector] in *; try reflexivity. sr. sr. apply k_vec_mul_vec_sim; assumption.
  - destruct v; reflexivity.
  - destruct v; reflexivity.
  - destruct e as [s|u|m]; cbn [exact_expr ax] in *.
    + specialize (VS s Hg). destruct v; exact VS.
    + assert (IX : forall (A B : Type) (f : A -> @scalar F) (f' : B -> @scalar G) (rd : A -> B) (r : list A), (forall a, f' (rd a) = rs (f a)) -> Forall (fun a => sc kb nb (f a)) r ->
        sim rx (ax kk nn) (q <- index r 0 ;; simplify_result (@vec_mul_scalar F v (f q))) (q <- index (map rd r) 0 ;; simplify_result (@vec_mul_scalar G (ra v) (f' q)))).
      { intros A B f f' rd r E Hr. eapply sim_bind; [apply (sim_index_F rd _ r 0 Hr)|]. intros q Hq. cbn beta. rewrite E. sr. apply VS. exact Hq. }
      destruct v as [l|l|l|l]; cbn [exact_vector] in *.
      * destruct u as [r|r|r|r]; cbn [exact_vector] in *; try reflexivity; unfold av in Hg; cbn [vec_entries] in Hg; apply av_inv in Hg.
        -- apply k_vec_mul_vec_sim; assumption.
        -- apply (IX _ _ SV SV rv r); [reflexivity | exact Hg].
      * eapply sim_bind; [apply (vec_get_sim kb nb u 0 Hg)|]. intros s Hs. sr. apply VS. exact Hs.
      * reflexivity.
      * destruct u as [r|r|r|r]; cbn [exact_vector] in *; try reflexivity; unfold av in Hg; cbn [vec_entries] in Hg; apply av_inv in Hg.
        apply (IX _ _ SP SP (map rm) r); [reflexivity | exact Hg].
    + destruct v; reflexivity.
  - destruct v; reflexivity.
Qed.

(** ** Sums of products *)
Definition bounded (i : Z) (s : @scalar F) : Prop := 0 <= i <= w /\ sc kk (i * nn) s.
Lemma bounded0 : bounded 0 (SK (@n0 F)).
Proof. split; [lia|]. exists 0. split; [reflexivity | cbn [Z.abs]; lia]. Qed.
Lemma bounded_sc i s : bounded i s -> sc kk all s.
Proof. intros [H1 H2]. eapply sc_le; [exact H2|]. pose proof Np. nia. Qed.
Lemma bounded_plus i a t : bounded i a -> sc kk nn t -> i + 1 <= w -> sim rs (bounded (i + 1)) (@scalar_plus F a t) (@scalar_plus G (rs a) (rs t)).
Proof.
  intros [H1 H2] Hs L. eapply sim_weak; [|apply (plus_sim kk a (i * nn) t nn Hk H2 Hs); pose proof Np; nia]. intros s Hs'. split; [lia|]. replace ((i + 1) * nn) with (i * nn + nn) by lia. exact Hs'.
Qed.
Definition ebounded (i : Z) (e : @expr F) : Prop := 0 <= i <= w /\ ax kk (i * nn) e.
Lemma ebounded_plus i a t : ebounded i a -> ax kk nn t -> i + 1 <= w -> sim rx (ebounded (i + 1)) (@expr_plus F a (GExpr t)) (@expr_plus G (rx a) (@GExpr G (rx t))).
Proof.
  intros [H1 H2] Hs L. pose proof Np. eapply sim_weak; [|apply (expr_plus_sim kk (i * nn) nn Hk ltac:(nia) Np ltac:(nia) a (GExpr t) H2 Hs)]. intros s Hs'. split; [lia|]. replace ((i + 1) * nn) with (i * nn + nn) by lia. exact Hs'.
Qed.
Lemma ebounded_ax i s : ebounded i s -> ax kk all s.
Proof. intros [H1 H2]. eapply ax_le; [exact H2|]. pose proof Np. nia. Qed.

Lemma bounded_sim i x y : sim rs (bounded i) x y -> sim rs (sc kk all) x y.
Proof. apply sim_weak. intros s Hs. exact (bounded_sc _ _ Hs). Qed.
Lemma ebounded_sim i x y : sim rx (ebounded i) x y -> sim rx (ax kk all) x y.
Proof. apply sim_weak. intros s Hs. exact (ebounded_ax _ _ Hs). Qed.

Lemma sum_products_sim a b : Forall (cs ka na) a -> Forall (cs kb nb) b -> Z.of_nat (length (combine a b)) <= w ->
  cs kk all (@sum_products F a b) /\ @sum_products G (map exactly a) (map exactly b) = exactly (@sum_products F a b).
Proof.
  intros Ha Hb HL. unfold sum_products. rewrite combine_map_l, combine_map_r.
  assert (H : Forall (fun xy => cs ka na (fst xy) /\ cs kb nb (snd xy)) (combine a b)).
  { apply Forall_forall. intros [x y] Hxy. split; [exact (Forall_in _ _ _ Ha (in_combine_l _ _ _ _ Hxy)) | exact (Forall_in _ _ _ Hb (in_combine_r _ _ _ _ Hxy))]. }
  rewrite map_map. cbn [fst snd].
  assert (K : forall l acc i, Forall (fun xy => cs ka na (fst xy) /\ cs kb nb (snd xy)) l -> 0 <= i -> cs kk (i * nn) acc -> i + Z.of_nat (length l) <= w ->
    cs kk all (fold_left (fun s xy => @nadd F s (@nmul F (fst xy) (snd xy))) l acc) /\
    fold_left (fun s xy => @nadd G s (@nmul G (fst xy) (snd xy))) (map (fun xy => (exactly (fst xy), exactly (snd xy))) l) (exactly acc) = exactly (fold_left (fun s xy => @nadd F s (@nmul F (fst xy) (snd xy))) l acc)).
  { induction l as [|[x y] l IH]; intros acc i Hl Hi Hacc Hw; cbn [fold_left map length fst snd] in *.
    - split; [|reflexivity]. eapply sc_le; [exact Hacc|]. pose proof Np. nia.
    - inversion Hl as [|? ? [Hx Hy] Hl']. subst. cbn [fst snd] in *. destruct (num_prod x y Hx Hy) as [P1 P2]. pose proof Np.
      destruct (plus_two kk (i * nn) nn acc (@nmul F x y) Hk ltac:(nia) Hacc P1) as [Q1 Q2]. rewrite P2, Q2. apply (IH _ (i + 1) Hl'); [lia | | lia].
      replace ((i + 1) * nn) with (i * nn + nn) by lia. exact Q1. }
  apply (K _ (@n0 F) 0 H); [lia | | lia]. exists 0. split; [reflexivity | cbn [Z.abs]; lia].
Qed.

(** ** Matrices *)
Definition narrow (m : @matrix F) : Prop := forall d, mat_dims m = Ok d -> Z.of_nat (snd d) <= w.

Lemma mat_mul_entry_sim m r n i j : am ka na m -> am kb nb r -> Z.of_nat n <= w -> sim rs (sc kk all) (@mat_mul_entry F m r n i j) (@mat_mul_entry G (ro m) (ro r) n i j).
Proof.
  intros Hm Hr Hn. unfold mat_mul_entry. eapply sim_bind.
  - change (@SK G (@n0 G)) with (rs (@SK F (@n0 F))). apply (loop_sim_same rs bounded _ _ (seq 0 n) 0); [|exact bounded0].
    intros c a p Hp Ha. apply nth_seq in Hp. destruct Hp as [-> Hp].
    eapply sim_bind; [apply (mat_get_sim ka na m i _ Hm)|]. intros x Hx. eapply sim_bind; [apply (mat_get_sim kb nb r _ j Hr)|]. intros y Hy.
    eapply sim_bind; [apply prod_sim; eassumption|]. intros t Ht'. apply bounded_plus; [exact Ha | exact Ht' | lia].
  - intros s Hs. apply simplified_sim; [exact Hk | exact (bounded_sc _ _ Hs) | exact Ht].
Qed.

Lemma mat_mul_template_sim m r : am ka na m -> am kb nb r -> narrow m -> sim rx (ax kk all) (@mat_mul_template F m r) (@mat_mul_template G (ro m) (ro r)).
Proof.
  intros Hm Hr HN. unfold mat_mul_template. apply sim_check; [apply (mat_check_sim ka na m Hm)|]. intros _. apply sim_check; [apply (mat_check_sim kb nb r Hr)|]. intros _.
  apply sim_eq; [apply (mat_dims_sim ka na m Hm)|]. intros dl Edl. apply sim_eq; [apply (mat_dims_sim kb nb r Hr)|]. intros dr _. apply sim_check; [reflexivity|]. intros _.
  eapply sim_bind.
  - apply (sim_mapM_same (map rs) (Forall (sc kk all))). intros i _. apply sim_mapM_same. intros j _. apply mat_mul_entry_sim; [exact Hm | exact Hr | exact (HN dl Edl)].
  - intros l Hl. apply concretize_rows_sim; [lia | exact Hl].
Qed.

Lemma k_to_dense_dims (l a : list (list (@num F))) : k_to_dense l = Ok a -> exists d, mat_dims (MK l) = Ok d /\ forall r, In r a -> length r = snd d.
Proof.
  unfold k_to_dense. cbn [mat_dims mat_check check bind]. destruct (rows_dims l) as [d|] eqn:E; cbn [bind]; [|discriminate]. destruct (negb _); cbn [check bind]; [|discriminate].
  intro H. exists d. split; [reflexivity|]. apply mapM_Forall2 in H. intros r Hr. clear E. induction H as [|x y l' a' Hxy H IH]; [destruct Hr|].
  destruct Hr as [<-|Hr]; [|exact (IH Hr)]. destruct (Nat.leb (snd d) (length x)) eqn:El; cbn [check bind] in Hxy; [|discriminate]. injection Hxy as <-. apply firstn_length_le. apply Nat.leb_le. exact El.
Qed.
Lemma rows_dims_inv {A} (l : list (list A)) d : rows_dims l = Ok d -> exists r, In r l /\ length r = snd d.
Proof. unfold rows_dims, index. destruct l as [|r l]; cbn [nth_error bind]; [discriminate|]. intros [= <-]. exists r. split; [left; reflexivity | reflexivity]. Qed.
Lemma dense_narrow l a d : narrow (MK l) -> @k_to_dense F l = Ok a -> rows_dims a = Ok d -> Z.of_nat (snd d) <= w.
Proof.
  intros HN Ea Ed. destruct (k_to_dense_dims l a Ea) as (d0 & E0 & H0). destruct (rows_dims_inv a d Ed) as (r & Hr & <-). rewrite (H0 r Hr). exact (HN d0 E0).
Qed.

Lemma sim_keep {A B} (rd : A -> B) P x y : sim rd P x y -> sim rd (fun a => P a /\ x = Ok a) x y.
Proof. unfold sim. destruct x as [a|p]; intro H; [|exact H]. split; [split; [apply H | reflexivity] | apply H]. Qed.

Lemma k_mat_mul_float_sim l f : am ka na (MK l) -> cs kb nb f -> sim rx (ax kk nn) (@k_mat_mul_float F l f) (@k_mat_mul_float G (map (map exactly) l) (exactly f)).
Proof.
  intros Hl Hf. apply am_inv in Hl. unfold k_mat_mul_float. eapply sim_bind; [apply (k_to_dense_sim ka na l Hl)|]. intros a Ha. cbn beta. apply sim_ok.
  - cbn [ax]. apply (am_intro SK). rewrite Forall_map. eapply Forall_impl; [|exact Ha]. intros r Hr. rewrite Forall_map. eapply Forall_impl; [|exact Hr]. intros c Hc. apply (num_prod_r c f); assumption.
  - cbn [exact_expr exact_matrix]. do 2 f_equal. rewrite !map_map. f_equal. apply map_ext_in. intros r Hr. rewrite !map_map. apply map_ext_in. intros c Hc. apply num_prod_r; [|exact Hf]. exact (Forall2_in _ _ _ _ Ha Hr Hc).
Qed.

Lemma k_mat_mul_poly_sim l p : am ka na (MK l) -> sc kb nb (SP p) -> sim rx (ax kk nn) (@k_mat_mul_poly F l p) (@k_mat_mul_poly G (map (map exactly) l) (map rm p)).
Proof.
  intros Hl Hp. apply am_inv in Hl. unfold k_mat_mul_poly. apply sim_eq; [exact (@rows_dims_map (@num F) (@num G) exactly l)|]. intros d _. eapply sim_bind.
  - apply (sim_mapM_same (map rs) (Forall (sc kk nn))). intros i _. apply sim_mapM_same. intros j _.
    eapply sim_bind; [apply (sim_index_F (map exactly) (Forall (cs ka na)) l i Hl)|]. intros r Hr. cbn beta. eapply sim_bind; [apply (sim_index_F exactly (cs ka na) r j Hr)|]. intros c Hc. cbn beta.
    apply (prod_sim (SP (k_to_poly c)) (SP p)); [apply (to_poly_sc ka na (SK c) Ka Hc) | exact Hp].
  - intros rows Hrows. apply concretize_rows_sim; [lia | exact Hrows].
Qed.

Lemma k_mat_mul_vec_sim l x : am ka na (MK l) -> narrow (MK l) -> Forall (cs kb nb) x -> sim rx (ax kk all) (@k_mat_mul_vec F l x) (@k_mat_mul_vec G (map (map exactly) l) (map exactly x)).
Proof.
  intros Hl HN Hx. apply am_inv in Hl. unfold k_mat_mul_vec. eapply sim_bind; [apply sim_keep; apply (k_to_dense_sim ka na l Hl)|]. intros a [Ha Ea]. cbn beta.
  eapply (sim_bind (map exactly)).
  - unfold dense_mul_vec. apply sim_eq; [exact (@rows_dims_map (@num F) (@num G) exactly a)|]. intros d Ed. rewrite map_length. apply sim_check; [reflexivity|]. intro El. apply Nat.eqb_eq in El.
    pose proof (dense_narrow l a d HN Ea Ed) as B.
    assert (Q : forall r, In r a -> cs kk all (@sum_products F r x) /\ @sum_products G (map exactly r) (map exactly x) = exactly (@sum_products F r x)).
    { intros r Hr. apply sum_products_sim; [exact (Forall_in _ _ _ Ha Hr) | exact Hx|]. rewrite combine_length. lia. }
    apply (sim_ok (map exactly) (Forall (cs kk all))).
    + rewrite Forall_map. apply Forall_forall. intros r Hr. apply Q. exact Hr.
    + rewrite !map_map. apply map_ext_in. intros r Hr. apply Q. exact Hr.
  - intros y Hy. cbn beta. assert (HV : av kk all (@VK F y)) by exact (proj2 (Forall_map SK (sc kk all) y) Hy).
    destruct y as [|c [|c' y]]; cbn [map]; apply sim_ok; try reflexivity; try exact HV. cbn [ax]. inversion Hy. assumption.
Qed.

Lemma col_sim {A B} (rd : A -> B) (P : A -> Prop) l c : Forall (Forall P) l -> sim (map rd) (Forall P) (mapM (fun r => index r c) l) (mapM (fun r => index r c) (map (map rd) l)).
Proof. intro H. apply (sim_mapM (map rd) rd P). intros r Hr. apply sim_index_F. exact (Forall_in _ _ _ H Hr). Qed.

Lemma var_mul_vec_sim x v : sc kb nb (SV x) -> av ka na v -> sim rx (ax kk nn) (@var_mul_vec F x v) (@var_mul_vec G (rv x) (ra v)).
Proof.
  intros Hx Hv. unfold var_mul_vec. apply sim_check; [apply (scalar_check_sim kb nb (SV x) Hx)|]. intros _. apply sim_eq; [apply (expr_operand_check_sim ka na dims_mul _ _ (EV v)); [exact Hv | reflexivity]|]. intros _ _.
  sr. apply (vec_mul_template_sim v (SV x)); assumption.
Qed.

Lemma k_mat_mul_vars_sim l xs : am ka na (MK l) -> narrow (MK l) -> Forall (vsc kb nb) xs -> sim rx (ax kk all) (@k_mat_mul_vars F l xs) (@k_mat_mul_vars G (map (map exactly) l) (map rv xs)).
Proof.
  intros Hl HN Hx. apply am_inv in Hl. unfold k_mat_mul_vars. apply sim_eq; [exact (@rows_dims_map (@num F) (@num G) exactly l)|]. intros d Ed.
  assert (B : Z.of_nat (snd d) <= w) by (apply HN; cbn [mat_dims mat_check check bind]; exact Ed).
  destruct (Nat.eqb (fst d) 1).
  - apply sim_as_ES. eapply bounded_sim. rewrite enum_map. change (@SK G (@n0 G)) with (rs (@SK F (@n0 F))).
    apply (loop_sim rs (fun ix => (fst ix, rv (snd ix))) bounded _ _ (enum xs) 0); [|exact bounded0]. intros [i x] a p Hp Ha. cbn [fst snd]. apply nth_enum in Hp. cbn [fst snd] in Hp. destruct Hp as [-> Hp].
    eapply sim_bind; [apply sim_keep; apply (sim_index_F (map exactly) (Forall (cs ka na)) l 0 Hl)|]. intros r [Hr Er]. cbn beta.
    eapply sim_bind; [apply sim_keep; apply (sim_index_F exactly (cs ka na) r p Hr)|]. intros c [Hc Ec]. cbn beta.
    assert (L : (p < snd d)%nat). { unfold rows_dims in Ed. rewrite Er in Ed. cbn [bind] in Ed. injection Ed as <-. cbn [snd]. unfold index in Ec. destruct (nth_error r p) eqn:En; [|discriminate]. exact (nth_lt _ _ _ En). }
    eapply sim_bind; [apply (var_k_sim x c); [exact (Forall_in _ _ _ Hx (nth_error_In _ _ Hp)) | exact Hc]|]. intros t Ht'. apply bounded_plus; [exact Ha | exact Ht' | lia].
  - eapply sim_bind; [apply (zeros_sim kk 0 (fst d)); lia|]. intros z Hz. cbn beta. change (@EV G (@VK G (map exactly z))) with (rx (@EV F (VK z))).
    eapply ebounded_sim. apply (loop_sim_same rx ebounded _ _ (seq 0 (snd d)) 0).
    + intros c a p Hp Ha. apply nth_seq in Hp. destruct Hp as [-> Hp]. eapply sim_bind; [apply (k_to_dense_sim ka na l Hl)|]. intros q Hq. cbn beta.
      eapply sim_bind; [apply (@col_sim (@num F) (@num G) exactly (cs ka na) q); exact Hq|]. intros col Hcol. cbn beta.
      eapply sim_bind; [apply (sim_index_F rv (vsc kb nb) xs _ Hx)|]. intros x Hx'. cbn beta.
      eapply sim_bind; [apply (simplify_result_sim kk nn); [exact Hk | exact Tp |]; sr; apply (var_mul_vec_sim x (VK col)); [exact Hx' | exact (proj2 (Forall_map SK (sc ka na) col) Hcol)]|]. intros t Ht'. apply ebounded_plus; [exact Ha | exact Ht' | lia].
    + split; [lia|]. cbn [ax]. unfold av. cbn [vec_entries]. rewrite Z.mul_0_l. exact (proj2 (Forall_map SK (sc kk 0) z) Hz).
Qed.

Lemma dense_mul_sim l a b : narrow (MK l) -> @k_to_dense F l = Ok a -> Forall (Forall (cs ka na)) a -> Forall (Forall (cs kb nb)) b ->
  sim (map (map exactly)) (Forall (Forall (cs kk all))) (@dense_mul F a b) (@dense_mul G (map (map exactly) a) (map (map exactly) b)).
Proof.
  intros HN Ea Ha Hb. unfold dense_mul. apply sim_eq; [exact (@rows_dims_map (@num F) (@num G) exactly a)|]. intros da Eda. apply sim_eq; [exact (@rows_dims_map (@num F) (@num G) exactly b)|]. intros db Edb.
  apply sim_check; [reflexivity|]. intro El. apply Nat.eqb_eq in El. pose proof (dense_narrow l a da HN Ea Eda) as B.
  assert (Lb : fst db = length b). { unfold rows_dims in Edb. destruct (index b 0); cbn [bind] in Edb; [|discriminate]. injection Edb as <-. reflexivity. }
  eapply sim_bind; [apply sim_keep; apply (@transpose_rows_sim (@num F) (@num G) exactly (cs kb nb) b (snd db) Hb)|]. intros bt [Hbt Ebt]. cbn beta.
  assert (Lc : forall c, In c bt -> length c = length b).
  { intros c Hc. unfold transpose_rows in Ebt. apply mapM_Forall2 in Ebt. revert Ebt. generalize (seq 0 (snd db)). intro js. intro H. clear - H Hc. induction H as [|j c0 js bt Hj H IH]; [destruct Hc|].
    destruct Hc as [<-|Hc]; [exact (mapM_length _ _ _ Hj) | exact (IH Hc)]. }
  assert (Q : forall r c, In r a -> In c bt -> cs kk all (@sum_products F r c) /\ @sum_products G (map exactly r) (map exactly c) = exactly (@sum_products F r c)).
  { intros r c Hr Hc. apply sum_products_sim; [exact (Forall_in _ _ _ Ha Hr) | exact (Forall_in _ _ _ Hbt Hc)|]. rewrite combine_length, (Lc c Hc), <- Lb, <- El. lia. }
  apply sim_ok.
  - rewrite Forall_map. apply Forall_forall. intros r Hr. rewrite Forall_map. apply Forall_forall. intros c Hc. apply Q; assumption.
  - rewrite !map_map. apply map_ext_in. intros r Hr. rewrite !map_map. apply map_ext_in. intros c Hc. apply Q; assumption.
Qed.

Lemma k_mat_mul_dense_sim l b : am ka na (MK l) -> narrow (MK l) -> Forall (Forall (cs kb nb)) b -> sim rx (ax kk all) (@k_mat_mul_dense F l b) (@k_mat_mul_dense G (map (map exactly) l) (map (map exactly) b)).
Proof.
  intros Hl HN Hb. apply am_inv in Hl. unfold k_mat_mul_dense. eapply sim_bind; [apply sim_keep; apply (k_to_dense_sim ka na l Hl)|]. intros a [Ha Ea]. cbn beta.
  eapply sim_bind; [apply (dense_mul_sim l a b HN Ea Ha Hb)|]. intros y Hy. cbn beta.
  assert (R : sim rx (ax kk all) (d <- rows_dims y ;; (if Nat.eqb (snd d) 1 then c <- mapM (fun r => index r 0) y ;; Ok (@EV F (@VK F c)) else Ok (@EM F (@MK F y))))
    (d <- rows_dims (map (map exactly) y) ;; (if Nat.eqb (snd d) 1 then c <- mapM (fun r => index r 0) (map (map exactly) y) ;; Ok (@EV G (@VK G c)) else Ok (@EM G (@MK G (map (map exactly) y)))))).
  { apply sim_eq; [exact (@rows_dims_map (@num F) (@num G) exactly y)|]. intros d _. destruct (Nat.eqb (snd d) 1).
    - eapply sim_bind; [apply (@col_sim (@num F) (@num G) exactly (cs kk all) y); exact Hy|]. intros c Hc. cbn beta. apply sim_ok; [exact (proj2 (Forall_map SK (sc kk all) c) Hc) | reflexivity].
    - apply sim_ok; [exact (am_intro SK kk all y Hy) | reflexivity]. }
  destruct y as [|[|c [|c' r]] [|r' y]]; try exact R. apply sim_ok; [|reflexivity]. cbn [ax]. inversion Hy as [|? ? Hr _]. inversion Hr. assumption.
Qed.

Lemma k_mat_mul_sim l g : am ka na (MK l) -> ag kb nb g -> (arrayish g = true -> narrow (MK l)) -> sim rx (ax kk all) (@k_mat_mul F l g) (@k_mat_mul G (map (map exactly) l) (rg g)).
Proof.
  intros Hl Hg HN. unfold k_mat_mul. apply sim_eq; [apply (operand_check_sim kb nb); [exact Hg | apply (mat_dims_sim ka na (MK l) Hl)]|]. intros _ _.
  destruct g as [f|z|r|r|r|r|e|]; cbn [exact_operand ag arrayish] in *; try specialize (HN eq_refl); try reflexivity.
  - sr. apply wide. apply k_mat_mul_float_sim; assumption.
  - apply av_inv in Hg. sr. apply k_mat_mul_vec_sim; assumption.
  - apply (am_inv SK) in Hg. sr. sr. apply k_mat_mul_dense_sim; assumption.
  - apply (am_inv SK) in Hg. sr. apply k_mat_mul_dense_sim; assumption.
  - destruct e as [[c|x|m|p]|[v|v|v|v]|m]; cbn [exact_expr exact_scalar exact_vector ax] in *; try specialize (HN eq_refl); try reflexivity.
    + sr. sr. apply wide. apply k_mat_mul_float_sim; assumption.
    + sr. apply wide. apply k_mat_mul_poly_sim; assumption.
    + unfold av in Hg. cbn [vec_entries] in Hg. apply av_inv in Hg. sr. apply k_mat_mul_vars_sim; assumption.
    + sr. apply (mat_mul_template_sim (MK l) m); assumption.
Qed.

Lemma var_mat_mul_k_sim l f : am ka na (MV l) -> cs kb nb f -> sim rx (ax kk nn) (@var_mat_mul_k F l f) (@var_mat_mul_k G (map (map rv) l) (exactly f)).
Proof.
  intros Hl Hf. apply am_inv in Hl. unfold var_mat_mul_k. eapply sim_bind.
  - apply (sim_mapM2 rv rm (msc kk nn)). intros r x Hr Hx. eapply sim_bind; [apply (prod_sim (SV x) (SK f)); [exact (Forall2_in _ _ _ _ Hl Hr Hx) | exact Hf]|].
    intros s Hs. destruct s; cbn [exact_scalar]; try reflexivity. apply sim_ok; [exact Hs | reflexivity].
  - intros rows Hrows. apply sim_ok; [exact (am_intro SM kk nn rows Hrows) | reflexivity].
Qed.

Lemma var_mat_mul_kvec_sim l ks : am ka na (MV l) -> narrow (MV l) -> Forall (cs kb nb) ks -> sim rx (ax kk all) (@var_mat_mul_kvec F l ks) (@var_mat_mul_kvec G (map (map rv) l) (map exactly ks)).
Proof.
  intros Hl HN Hks. unfold var_mat_mul_kvec. apply sim_eq; [apply (mat_dims_sim ka na (MV l) Hl)|]. intros d Ed. specialize (HN d Ed). apply am_inv in Hl. eapply sim_bind.
  - apply (sim_mapM (map rv) rs (sc kk all)). intros r Hr. pose proof (Forall_in _ _ _ Hl Hr) as Hr'. eapply bounded_sim. change (@SK G (@n0 G)) with (rs (@SK F (@n0 F))).
    apply (loop_sim_same rs bounded _ _ (seq 0 (snd d)) 0); [|exact bounded0]. intros c a p Hp Ha. apply nth_seq in Hp. destruct Hp as [-> Hp].
    eapply sim_bind; [apply (sim_index_F rv _ r _ Hr')|]. intros x Hx. cbn beta. eapply sim_bind; [apply (sim_index_F exactly (cs kb nb) ks _ Hks)|]. intros q Hq. cbn beta.
    eapply sim_bind; [apply (prod_sim (SV x) (SK q)); assumption|]. intros t Ht'. apply bounded_plus; [exact Ha | exact Ht' | lia].
  - intros p Hp. apply concretize_slice_sim; [lia | exact Hp].
Qed.
Lemma var_mat_mul_kvec_call_sim l ks : am ka na (MV l) -> narrow (MV l) -> Forall (cs kb nb) ks -> sim rx (ax kk all) (@var_mat_mul_kvec_call F l ks) (@var_mat_mul_kvec_call G (map (map rv) l) (map exactly ks)).
Proof.
  intros Hl HN Hks. unfold var_mat_mul_kvec_call. apply sim_check; [apply (mat_check_sim ka na (MV l) Hl)|]. intros _.
  apply sim_eq; [apply (expr_operand_check_sim kb nb dims_mul _ _ (EV (VK ks))); [exact (proj2 (Forall_map SK (sc kb nb) ks) Hks) | apply (mat_dims_sim ka na (MV l) Hl)]|]. intros _ _. sr. apply var_mat_mul_kvec_sim; assumption.
Qed.
Lemma var_mat_mul_vars_sim l xs : am ka na (MV l) -> narrow (MV l) -> Forall (vsc kb nb) xs -> sim rx (ax kk all) (@var_mat_mul_vars F l xs) (@var_mat_mul_vars G (map (map rv) l) (map rv xs)).
Proof.
  intros Hl HN Hxs. unfold var_mat_mul_vars. apply sim_eq; [apply (mat_dims_sim ka na (MV l) Hl)|]. intros d Ed. specialize (HN d Ed). apply am_inv in Hl.
  eapply ebounded_sim. change (@ES G (SK (@n0 G))) with (rx (@ES F (SK (@n0 F)))). apply (loop_sim_same rx ebounded _ _ (seq 0 (snd d)) 0); [|exact bounded0].
  intros c a p Hp Ha. apply nth_seq in Hp. destruct Hp as [-> Hp]. eapply sim_bind; [apply (col_sim rv (vsc ka na) l); exact Hl|]. intros col Hcol. cbn beta.
  eapply sim_bind; [apply (sim_index_F rv (vsc kb nb) xs _ Hxs)|]. intros x Hx'. cbn beta.
  eapply sim_bind; [apply (vec_mul_sim (VV col) (GExpr (ES (SV x)))); [exact (proj2 (Forall_map SV (sc ka na) col) Hcol) | exact Hx']|]. intros t Ht'. apply ebounded_plus; [exact Ha | exact Ht' | lia].
Qed.
Lemma var_mat_mul_mat_sim l r : am ka na (MV l) -> narrow (MV l) -> am kb nb r -> sim rx (ax kk all) (@var_mat_mul_mat F l r) (@var_mat_mul_mat G (map (map rv) l) (ro r)).
Proof.
  intros Hl HN Hr. unfold var_mat_mul_mat. apply sim_check; [apply (mat_check_sim ka na (MV l) Hl)|]. intros _.
  apply sim_eq; [apply (expr_operand_check_sim kb nb dims_mul _ _ (EM r)); [exact Hr | apply (mat_dims_sim ka na (MV l) Hl)]|]. intros _ _. sr. apply (mat_mul_template_sim (MV l) r); assumption.
Qed.

Lemma var_mat_mul_sim l g : am ka na (MV l) -> ag kb nb g -> (arrayish g = true -> narrow (MV l)) -> sim rx (ax kk all) (@var_mat_mul F l g) (@var_mat_mul G (map (map rv) l) (rg g)).
Proof.
  intros Hl Hg HN. unfold var_mat_mul. apply sim_check; [apply (mat_check_sim ka na (MV l) Hl)|]. intros _. apply sim_eq; [apply (operand_check_sim kb nb); [exact Hg | apply (mat_dims_sim ka na (MV l) Hl)]|]. intros _ _.
  destruct g as [f|z|r|r|r|r|e|]; cbn [exact_operand ag arrayish] in *; try specialize (HN eq_refl); try reflexivity.
  - sr. sr. apply wide. apply var_mat_mul_k_sim; assumption.
  - apply av_inv in Hg. sr. apply var_mat_mul_kvec_call_sim; assumption.
  - apply av_inv in Hg. sr. apply var_mat_mul_kvec_call_sim; assumption.
  - sr. apply (var_mat_mul_mat_sim l (MK r)); assumption.
  - sr. apply (var_mat_mul_mat_sim l (MK r)); assumption.
  - destruct e as [[c|x|m|p]|[v|v|v|v]|m]; cbn [exact_expr exact_scalar exact_vector ax] in *; try specialize (HN eq_refl); try reflexivity.
    + sr. apply wide. apply var_mat_mul_k_sim; assumption.
    + unfold av in Hg. cbn [vec_entries] in Hg. apply av_inv in Hg. sr. apply var_mat_mul_kvec_sim; assumption.
    + unfold av in Hg. cbn [vec_entries] in Hg. apply av_inv in Hg. sr. apply var_mat_mul_vars_sim; assumption.
    + sr. apply (mat_mul_template_sim (MV l) m); assumption.
Qed.

(** every row of a matrix that passes its check has the length of the first *)
Lemma rows_narrow {A} (ok : A -> bool) (l : list (list A)) : rows_check ok l = true -> (forall d, rows_dims l = Ok d -> Z.of_nat (snd d) <= w) -> forall r, In r l -> Z.of_nat (length r) <= w.
Proof.
  intros HC HN r Hr. destruct l as [|r0 l]; [destruct Hr|]. cbn [rows_check] in HC. apply andb_true_iff in HC. destruct HC as [HC _]. rewrite forallb_forall in HC. specialize (HC r Hr). apply Nat.eqb_eq in HC. rewrite HC.
  apply (HN (length (r0 :: l), length r0)). reflexivity.
Qed.

Lemma mono_mat_mul_vars_sim l xs : am ka na (MM l) -> (forall r, In r l -> Z.of_nat (length r) <= w) -> Forall (vsc kb nb) xs ->
  sim rx (ax kk all) (@mono_mat_mul_vars F l xs) (@mono_mat_mul_vars G (map (map rm) l) (map rv xs)).
Proof.
  intros Hl HN Hxs. apply am_inv in Hl. unfold mono_mat_mul_vars. rewrite map_length. destruct (Nat.eqb (length l) 1).
  - eapply sim_bind; [apply sim_keep; apply (sim_index_F (map rm) (Forall (msc ka na)) l 0 Hl)|]. intros r [Hr Er]. cbn beta.
    assert (B : Z.of_nat (length r) <= w). { apply HN. unfold index in Er. destruct (nth_error l 0) eqn:En; [|discriminate]. injection Er as ->. exact (nth_error_In _ _ En). }
    eapply sim_bind.
    + rewrite enum_map. change (@SK G (@n0 G)) with (rs (@SK F (@n0 F))). apply (loop_sim rs (fun im => (fst im, rm (snd im))) bounded _ _ (enum r) 0); [|exact bounded0].
      intros [i m] a p Hp Ha. cbn [fst snd]. apply nth_enum in Hp. cbn [fst snd] in Hp. destruct Hp as [-> Hp]. pose proof (nth_lt _ _ _ Hp) as L.
      eapply sim_bind; [apply (sim_index_F rv (vsc kb nb) xs _ Hxs)|]. intros x Hx. cbn beta.
      pose proof (Forall_in _ _ _ Hr (nth_error_In _ _ Hp)) as (z & Hm & Lz). destruct Hx as [Hx Lx].
      eapply sim_bind; [apply (mul_var_sim ka m z x Hm Hx)|]. intros t Ht'. cbn beta. apply (bounded_plus _ a (SM t)); [exact Ha | | lia].
      assert (S : sc ka (Z.abs z) (SM t)) by (exists z; split; [exact Ht' | lia]). apply (sc_regrid ka kb) in S; [|lia|lia]. eapply sc_le; [exact S|]. assert (0 <= 2 ^ kb) by (apply Z.pow_nonneg; lia). nia.
    + intros s Hs. apply sim_as_ES. apply simplified_sim; [exact Hk | exact (bounded_sc _ _ Hs) | exact Ht].
  - eapply sim_bind.
    + apply (sim_mapM (map rm) rs (sc kk all)). intros r Hr. specialize (HN r Hr). pose proof (Forall_in _ _ _ Hl Hr) as Hr'. rewrite map_length.
      eapply sim_bind; [apply sim_keep; apply (sim_index_F rm _ r 0 Hr')|]. intros m0 [Hm0 Em0]. cbn beta. eapply sim_bind; [apply (sim_index_F rv (vsc kb nb) xs 0 Hxs)|]. intros x0 Hx0. cbn beta.
      assert (L : (0 < length r)%nat). { unfold index in Em0. destruct (nth_error r 0) eqn:En; [|discriminate]. exact (nth_lt _ _ _ En). }
      eapply sim_bind; [apply (prod_sim (SP (mono_to_poly m0)) (SV x0)); [apply (to_poly_sc ka na (SM m0) Ka Hm0) | exact Hx0]|]. intros s0 Hs0.
      eapply bounded_sim. apply (loop_sim_same rs bounded _ _ (seq 1 (length r - 1)) 1); [|split; [lia | rewrite Z.mul_1_l; exact Hs0]].
      intros c a p Hp Ha. apply nth_seq in Hp. destruct Hp as [-> Hp].
      eapply sim_bind; [apply (sim_index_F rm _ r _ Hr')|]. intros m Hm. cbn beta. eapply sim_bind; [apply (sim_index_F rv (vsc kb nb) xs _ Hxs)|]. intros x Hx. cbn beta.
      eapply sim_bind; [apply (prod_sim (SP (mono_to_poly m)) (SV x)); [apply (to_poly_sc ka na (SM m) Ka Hm) | exact Hx]|]. intros t Ht'.
      eapply sim_bind; [apply (bounded_plus _ a t Ha Ht'); lia|]. intros s Hs. destruct s; cbn [exact_scalar]; try reflexivity. apply sim_ok; [exact Hs | reflexivity].
    + intros p Hp. apply sim_as_EV. apply concretize_vector_sim; [lia | exact Hp].
Qed.

Lemma mono_mat_mul_sim l g : am ka na (MM l) -> ag kb nb g -> (arrayish g = true -> narrow (MM l)) -> sim rx (ax kk all) (@mono_mat_mul F l g) (@mono_mat_mul G (map (map rm) l) (rg g)).
Proof.
  intros Hl Hg HN. unfold mono_mat_mul. apply sim_check; [apply (mat_check_sim ka na (MM l) Hl)|]. intro HC. apply sim_eq; [apply (operand_check_sim kb nb); [exact Hg | apply (mat_dims_sim ka na (MM l) Hl)]|]. intros _ _.
  assert (MF : forall f, cs kb nb f -> sim rx (ax kk all) (rows <- mapM (mapM (fun m => @mono_mul_k F m f)) l ;; Ok (EM (MM rows))) (rows <- mapM (mapM (fun m => @mono_mul_k G m (exactly f))) (map (map rm) l) ;; Ok (EM (MM rows)))).
  { intros f (z & Hf & Lf). apply am_inv in Hl. apply wide. eapply sim_bind.
    - apply (sim_mapM2 rm rm (msc kk nn)). intros r m Hr Hm. destruct (Forall2_in _ _ _ _ Hl Hr Hm) as (zm & Hzm & Lm). assert (B : Z.abs (zm * z) <= nn) by (apply abs_mul_le; lia). pose proof Tp.
      eapply sim_weak; [|apply (mul_k_sim ka m zm kb f z); [lia | lia | lia | exact Hzm | exact Hf | lia]]. intros q Hq. exists (zm * z). split; [exact Hq | lia].
    - intros rows Hrows. apply sim_ok; [exact (am_intro SM kk nn rows Hrows) | reflexivity]. }
  destruct g as [f|z|r|r|r|r|e|]; cbn [exact_operand ag arrayish] in *; try reflexivity.
  - apply MF. exact Hg.
  - destruct e as [[c|x|m|p]|[v|v|v|v]|m]; cbn [exact_expr exact_scalar exact_vector ax] in *; try specialize (HN eq_refl); try reflexivity.
    + apply MF. exact Hg.
    + unfold av in Hg. cbn [vec_entries] in Hg. apply av_inv in Hg. apply mono_mat_mul_vars_sim; [exact Hl | | exact Hg]. apply (rows_narrow _ _ HC). intros d Ed. apply HN. unfold mat_dims. unfold check. rewrite HC. exact Ed.
    + apply (mat_mul_template_sim (MM l) m); assumption.
Qed.

Lemma poly_row_mul_vars_sim r xs : Forall (psc ka na) r -> Z.of_nat (length r) <= w -> Forall (vsc kb nb) xs -> sim rs (sc kk all) (@poly_row_mul_vars F r xs) (@poly_row_mul_vars G (map (map rm) r) (map rv xs)).
Proof.
  intros Hr HN Hxs. unfold poly_row_mul_vars. eapply bounded_sim. rewrite enum_map. change (@SK G (@n0 G)) with (rs (@SK F (@n0 F))).
  apply (loop_sim rs (fun im => (fst im, map rm (snd im))) bounded _ _ (enum r) 0); [|exact bounded0].
  intros [i m] a p Hp Ha. cbn [fst snd]. apply nth_enum in Hp. cbn [fst snd] in Hp. destruct Hp as [-> Hp]. assert (L : (p < @length (@Polynomial F) r)%nat) by exact (nth_lt _ _ _ Hp). change (@length (list (@Monomial F)) r) with (@length (@Polynomial F) r) in *.
  eapply sim_bind; [apply (sim_index_F rv (vsc kb nb) xs _ Hxs)|]. intros x Hx. cbn beta.
  eapply sim_bind; [apply (prod_sim (SP m) (SV x)); [exact (Forall_in _ _ _ Hr (nth_error_In _ _ Hp)) | exact Hx]|]. intros t Ht'. apply bounded_plus; [exact Ha | exact Ht' | lia].
Qed.

Lemma poly_mat_mul_k_sim l f : am ka na (MP l) -> cs kb nb f -> sim rx (ax kk nn) (@poly_mat_mul_k F l f) (@poly_mat_mul_k G (map (map (map rm)) l) (exactly f)).
Proof.
  intros Hl Hf. apply am_inv in Hl. unfold poly_mat_mul_k. eapply sim_bind.
  - apply (sim_mapM2 (map rm) rs (sc kk nn)). intros r p Hr Hp. apply (prod_sim (SP p) (SK f)); [exact (Forall2_in _ _ _ _ Hl Hr Hp) | exact Hf].
  - intros rows Hrows. sr. apply concretize_rows_sim; [lia | exact Hrows].
Qed.

Lemma poly_mat_mul_sim l g : am ka na (MP l) -> ag kb nb g -> (arrayish g = true -> narrow (MP l)) -> sim rx (ax kk all) (@poly_mat_mul F l g) (@poly_mat_mul G (map (map (map rm)) l) (rg g)).
Proof.
  intros Hl Hg HN. unfold poly_mat_mul. apply sim_check; [apply (mat_check_sim ka na (MP l) Hl)|]. intro HC. apply sim_eq; [apply (operand_check_sim kb nb); [exact Hg | apply (mat_dims_sim ka na (MP l) Hl)]|]. intros _ _.
  destruct g as [f|z|r|r|r|r|e|]; cbn [exact_operand ag arrayish] in *; try reflexivity.
  - sr. apply wide. apply poly_mat_mul_k_sim; assumption.
  - destruct e as [[c|x|m|p]|[v|v|v|v]|m]; cbn [exact_expr exact_scalar exact_vector ax] in *; try specialize (HN eq_refl); try reflexivity.
    + apply wide. apply poly_mat_mul_k_sim; assumption.
    + unfold av in Hg. cbn [vec_entries] in Hg. apply av_inv in Hg. apply am_inv in Hl.
      assert (RN : forall r, In r l -> Z.of_nat (length r) <= w). { apply (rows_narrow _ _ HC). intros d Ed. apply HN. unfold mat_dims. unfold check. rewrite HC. exact Ed. }
      replace (@length (list (@Polynomial G)) (map (map (map rm)) l)) with (@length (list (@Polynomial F)) l) by (symmetry; apply map_length). destruct (Nat.eqb (@length (list (@Polynomial F)) l) 1).
      * eapply sim_bind; [apply sim_keep; apply (sim_index_F (map (map rm)) (Forall (psc ka na)) l 0 Hl)|]. intros r [Hr Er]. cbn beta. sr. apply sim_as_ES. apply poly_row_mul_vars_sim; [exact Hr | | exact Hg].
        apply RN. unfold index in Er. destruct (nth_error l 0) eqn:En; [|discriminate]. injection Er as ->. exact (nth_error_In _ _ En).
      * eapply sim_bind; [apply (sim_mapM (map (map rm)) rs (sc kk all)); intros r Hr; apply poly_row_mul_vars_sim; [exact (Forall_in _ _ _ Hl Hr) | exact (RN r Hr) | exact Hg]|].
        intros p Hp. apply concretize_slice_sim; [lia | exact Hp].
    + apply (mat_mul_template_sim (MP l) m); assumption.
Qed.

Lemma mat_mul_sim m g : am ka na m -> ag kb nb g -> (arrayish g = true -> narrow m) -> sim rx (ax kk all) (@mat_mul F m g) (@mat_mul G (ro m) (rg g)).
Proof. destruct m; cbn [mat_mul exact_matrix]; [apply k_mat_mul_sim | apply var_mat_mul_sim | apply mono_mat_mul_sim | apply poly_mat_mul_sim]. Qed.

(** ** Scalars *)
Lemma k_mul_any_sim c g : cs ka na c -> ag kb nb g -> sim rx (ax kk nn) (@k_mul_any F c g) (@k_mul_any G (exactly c) (rg g)).
Proof.
  intros Hc Hg. unfold k_mul_any. pose proof (as_expr_sim kb nb g Hg) as A.
  apply sim_eq. { destruct (@as_expr F g) as [e|]; [destruct A as [-> He]; rewrite (expr_check_sim kb nb e He); reflexivity | rewrite A; reflexivity]. }
  intros _ _. destruct g as [f|z|l|l|l|l|e|]; cbn [exact_operand ag] in *; try reflexivity.
  - apply sim_as_ES. apply (prod_sim (SK c) (SK f)); assumption.
  - destruct (int_sc kb 0 nb ltac:(lia) ltac:(lia) Nb ltac:(lia) z Hg) as [P E]. rewrite E. apply sim_as_ES. apply (prod_sim (SK c) (SK (@nofZ F z))); assumption.
  - destruct e as [s|v|m]; cbn [exact_expr ax] in *; try reflexivity. apply sim_as_ES. apply (prod_sim (SK c) s); assumption.
Qed.

Lemma mono_mul_any_sim m g : sc ka na (SM m) -> ag kb nb g -> sim rx (ax kk nn) (@mono_mul_any F m g) (@mono_mul_any G (rm m) (rg g)).
Proof.
  intros Hm Hg. unfold mono_mul_any. apply sim_check; [apply mono_check_sim|]. intros _. apply sim_eq; [apply (operand_check_sim kb nb); [exact Hg | reflexivity]|]. intros _ _.
  destruct g as [f|z|l|l|l|l|e|]; cbn [exact_operand ag] in *; try reflexivity.
  - apply sim_as_ES. apply (prod_float_sim (SM m) f); assumption.
  - destruct (int_sc kb 0 nb ltac:(lia) ltac:(lia) Nb ltac:(lia) z Hg) as [P E]. rewrite E. apply sim_as_ES. apply (prod_float_sim (SM m)); assumption.
  - destruct e as [s|v|r]; cbn [exact_expr ax] in *; try reflexivity. apply sim_as_ES. apply (prod_sim (SM m) s); assumption.
Qed.

End Mul.

Section MulAny.
Context (ka na kb nb w : Z) (Ka : 0 <= ka) (Kb : 0 <= kb) (Ks : ka + kb <= 1000) (Na : 0 <= na) (Nb : 0 <= nb) (Ta : na <= top) (Tb : nb <= top)
  (W1 : 1 <= w) (Ht : w * (na * nb) <= top).
Notation kk := (ka + kb).
Notation nn := (na * nb).
Notation all := (w * (na * nb)).
Ltac tp := assert (Tp0 : nn <= top) by (assert (0 <= nn) by nia; nia).
Ltac sr := apply simplify_result_sim; [lia | lia |].

Lemma var_mul_any_sim x g : sc ka na (SV x) -> ag kb nb g -> sim rx (ax kk nn) (@var_mul_any F x g) (@var_mul_any G (rv x) (rg g)).
Proof.
  tp. assert (Tq : 1 * (nb * na) <= top) by lia.
  intros Hx Hg. unfold var_mul_any. apply sim_check; [apply (scalar_check_sim ka na (SV x) Hx)|]. intros _. apply sim_eq; [apply (operand_check_sim kb nb); [exact Hg | reflexivity]|]. intros _ _.
  assert (VT : forall v, av kb nb v -> sim rx (ax kk nn) (@vec_mul_template F v (SV x)) (@vec_mul_template G (ra v) (@SV G (rv x)))).
  { intros v Hv. rewrite (Z.add_comm ka), (Z.mul_comm na). apply (vec_mul_template_sim kb nb ka na 1 Kb Ka) with (s := SV x); try assumption; lia. }
  assert (VV : forall v, av kb nb v -> sim rx (ax kk nn) (@var_mul_vec F x v) (@var_mul_vec G (rv x) (ra v))).
  { intros v Hv. rewrite (Z.add_comm ka), (Z.mul_comm na). apply (var_mul_vec_sim kb nb ka na 1 Kb Ka); try assumption; lia. }
  destruct g as [f|z|l|l|l|l|e|]; cbn [exact_operand ag] in *; try reflexivity.
  - apply sim_as_ES. apply (prod_float_sim ka na kb nb w) with (a := SV x); assumption.
  - destruct (int_sc kb 0 nb ltac:(lia) ltac:(lia) Nb ltac:(lia) z Hg) as [P E]. rewrite E. apply sim_as_ES. apply (prod_float_sim ka na kb nb w) with (a := SV x); assumption.
  - sr. apply (VV (VK l)). exact Hg.
  - sr. sr. apply (VV (VK l)). exact Hg.
  - destruct e as [s|v|m]; cbn [exact_expr ax] in *; [| |reflexivity].
    + apply sim_as_ES. apply (prod_sim ka na kb nb w) with (a := SV x); assumption.
    + sr. apply VT. exact Hg.
Qed.

Lemma poly_mul_any_sim p g : sc ka na (SP p) -> ag kb nb g -> sim rx (ax kk all) (@poly_mul_any F p g) (@poly_mul_any G (map rm p) (rg g)).
Proof.
  tp. assert (Tq : w * (nb * na) <= top) by lia.
  intros Hp Hg. unfold poly_mul_any. pose proof (as_expr_sim kb nb g Hg) as A. apply sim_check; [apply poly_check_sim|]. intros _.
  apply sim_eq. { destruct (@as_expr F g) as [e|]; [destruct A as [-> He]; rewrite (expr_check_sim kb nb e He); reflexivity | rewrite A; reflexivity]. }
  intros _ _. destruct g as [f|z|l|l|l|l|e|]; cbn [exact_operand ag] in *; try reflexivity.
  - apply wide; try assumption. apply sim_as_ES. apply (prod_float_sim ka na kb nb w) with (a := SP p); assumption.
  - destruct e as [s|v|m]; cbn [exact_expr ax] in *.
    + apply wide; try assumption. apply sim_as_ES. apply (prod_sim ka na kb nb w) with (a := SP p); assumption.
    + sr. apply wide; try assumption. rewrite (Z.add_comm ka), (Z.mul_comm na). apply (vec_mul_sim kb nb ka na w) with (g := GExpr (ES (SP p))); try assumption; lia.
    + sr. rewrite (Z.add_comm ka), (Z.mul_comm na). apply (mat_mul_sim kb nb ka na w) with (g := GExpr (ES (SP p))); try assumption; try lia. discriminate.
Qed.

Theorem expr_mul_sim e g : ax ka na e -> ag kb nb g -> (arrayish g = true -> match e with EM m => narrow w m | _ => True end) ->
  sim rx (ax kk all) (@expr_mul F e g) (@expr_mul G (rx e) (rg g)).
Proof.
  destruct e as [[c|x|m|p]|v|m]; cbn [expr_mul exact_expr exact_scalar ax]; intros He Hg HN.
  - apply wide; try assumption. apply (k_mul_any_sim ka na kb nb w); assumption.
  - apply wide; try assumption. apply var_mul_any_sim; assumption.
  - apply wide; try assumption. apply (mono_mul_any_sim ka na kb nb w); assumption.
  - apply poly_mul_any_sim; assumption.
  - apply wide; try assumption. apply (vec_mul_sim ka na kb nb w); assumption.
  - apply mat_mul_sim; assumption.
Qed.

End MulAny.
