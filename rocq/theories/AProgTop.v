(** * Programs over vectors and matrices: the statements of the properties *)

From Coq Require Import ZArith NArith Bool List Lia Ring Field.
From Verif Require Import Num Syntax ModelScalar Spec Base ScalarValid Eval ScalarOps ScalarMore Unamb ModelShape ModelArith SpecArr Arr ArrPlus ArrMul ArrMulMat ArrMulAll ArrMulTop ArrTop ArrPow ArrShape ArrSub ArrFacts ArrOne SpecAProg ModelAProg AProgProofs.
Import ListNotations.
Local Open Scope num_scope.

Section AProgTop.
Context {NN : Num}.

Lemma everywhere_and (P Q R : aprog -> Prop) p : (forall q, P q -> Q q -> R q) -> everywhere P p -> everywhere Q p -> everywhere R p.
Proof. intro H. induction p; cbn [everywhere]; intuition. Qed.
Lemma everywhere_impl (P Q : aprog -> Prop) p : (forall q, P q -> Q q) -> everywhere P p -> everywhere Q p.
Proof. intro H. induction p; cbn [everywhere]; intuition. Qed.

(** ** Dimensions *)

Lemma arun_dims p e : proper_leaves p -> arun p = Ok e -> exists d, adims p = Some d /\ valid_array d e /\ (d = one_one -> is_scalar e).
Proof.
  intros HP E. destruct (arun_holds (fun _ _ => True)) with (p := p) (e := e) as (d & D & V & S & _); auto.
  - eapply everywhere_impl; [|exact HP]. intros [] _; auto.
  - exists d. auto.
Qed.

Lemma arun_mismatch p : proper_leaves p -> adims p = None -> exists x, arun p = Panic x.
Proof. intros HP HD. destruct (arun p) as [e|x] eqn:E; [|eauto]. destruct (arun_dims p e HP E) as (d & D & _). congruence. Qed.

(** ** Degrees *)

Definition of_degree (k : Z) (f : N -> Z) : Prop := forall L, NoDup L -> (sumL L f <= k)%Z.

Lemma leaf_degree_le e row s m : In row (rows e) -> In s row -> In m (terms s) -> (tdeg m <= leaf_degree e)%Z.
Proof.
  intros H1 H2 H3. unfold leaf_degree. assert (In (tdeg m) (map tdeg (flat_map terms (concat (rows e))))) as H.
  { apply in_map, in_flat_map. exists s. split; [|exact H3]. apply in_concat. eauto. }
  revert H. generalize (map tdeg (flat_map terms (concat (rows e)))). intro l. induction l as [|x l IH]; intros []; cbn [fold_right]; [lia|]. specialize (IH H). lia.
Qed.

Lemma leaf_array_degree e : array_degree (leaf_degree e) e.
Proof. intros row s H1 H2. apply Forall_forall. intros m Hm. exact (leaf_degree_le e row s m H1 H2 Hm). Qed.

Lemma arun_of_degree p e : proper_leaves p -> arun p = Ok e -> exists d, adims p = Some d /\ holds of_degree d (adegree p) (fun i j r => meaning r p i j) e.
Proof.
  intros HP E. apply arun_holds; [| | | | exact HP | | exact E].
  - intros k f g H X L HN. rewrite (sumL_ext L g f) by (intros; apply X). exact (H L HN).
  - intros k f Hk X L HN. rewrite (sumL_zero L f) by (intros; apply X). exact Hk.
  - intros k k' f Hk H L HN. specialize (H L HN). lia.
  - intros k k' f g h Hf Hg X L HN. rewrite (sumL_ext L h (fun i => (f i + g i)%Z)) by (intros; apply X). rewrite sumL_add. specialize (Hf L HN). specialize (Hg L HN). lia.
  - eapply everywhere_impl; [|exact HP]. intros [l| | | | | | | |] H; try exact I. destruct H as [V _]. intros f Hf. exact (has_term_degree _ l _ V (leaf_array_degree l) f Hf).
Qed.

Lemma arun_degree p e : proper_leaves p -> arun p = Ok e -> array_degree (adegree p) e.
Proof.
  intros HP E. destruct (arun_of_degree p e HP E) as (d & D & V & _ & HT & _). intros row s R1 R2. apply Forall_forall. intros m Hm.
  pose proof (valid_terms s (valid_array_entry _ e row s V R1 R2)) as HV. rewrite Forall_forall in HV. specialize (HV m Hm).
  rewrite <- (tdeg_sumL m (ids m)); [| exact HV | apply HV | apply incl_refl]. apply (HT (exponent m)); [exists row, s, m; auto | apply HV].
Qed.

(** ** Values *)

Lemma arun_value_degree2 p e : ExactNum NN -> proper_leaves p -> (adegree p <= 2)%Z -> arun p = Ok e ->
  forall r i j, i < fst (dims_of p) -> j < snd (dims_of p) -> value r e i j = meaning r p i j.
Proof.
  intros EX HP HD E. destruct (arun_of_degree p e HP E) as (d & D & _ & _ & _ & H). unfold dims_of. rewrite D. apply (H EX).
  apply degree_exponents. intros f Hf L HN. specialize (Hf L HN). lia.
Qed.

Lemma arun_value_variable x p e : ExactNum NN -> proper_leaves p -> leaves_only x p -> arun p = Ok e ->
  forall r i j, i < fst (dims_of p) -> j < snd (dims_of p) -> value r e i j = meaning r p i j.
Proof.
  intros EX HP HX E.
  assert (G : exists d, adims p = Some d /\ holds (fun _ f => forall i, i <> x -> f i = 0%Z) d (adegree p) (fun i j r => meaning r p i j) e).
  { apply arun_holds; [| | | | exact HP | | exact E].
    - intros k f g H X i Hi. rewrite X. exact (H i Hi).
    - intros k f _ X i _. apply X.
    - intros k k' f _ H. exact H.
    - intros k k' f g h Hf Hg X i Hi. rewrite X, (Hf i Hi), (Hg i Hi). reflexivity.
    - refine (everywhere_and _ _ _ p _ HP HX). intros [l| | | | | | | |] H1 H2; try exact I. destruct H1 as [V _]. intros f Hf i Hi. exact (has_term_variable _ l x f i V H2 Hf Hi). }
  destruct G as (d & D & _ & _ & _ & H). unfold dims_of. rewrite D. apply (H EX). apply (one_variable_exponents _ x). intros f i Hf Hi. exact (Hf i Hi).
Qed.

(** ** Quadratic forms *)

Lemma vars_array n xs : 1 <= n -> length xs = n -> Forall valid_var xs -> valid_array (n, 1) (EV (VV xs)).
Proof.
  intros Hn L HV. rewrite Forall_forall in HV. split; [exact Hn|]. split; [exact (le_n 1)|]. split.
  - split; [cbn [rows]; rewrite map_length; exact L|]. apply Forall_forall. cbn [rows]. intros row Hr. apply in_map_iff in Hr. destruct Hr as (x & <- & _). reflexivity.
  - intros i j Hi Hj. cbn in Hi, Hj. assert (j = 0%nat) by lia. subst j. unfold entry. cbn [rows].
    destruct (nth_error_lt xs i) as [x E]; [lia|]. rewrite (nth_error_nth _ i [] (map_nth_error (fun x => [SV x]) i xs E)). cbn. apply HV. exact (nth_error_In _ _ E).
Qed.

Lemma numbers_array d Q : 1 <= fst d -> 1 <= snd d -> dense_shape d Q -> valid_array d (EM (MK Q)).
Proof.
  intros D1 D2 [L H]. rewrite Forall_forall in H. split; [exact D1|]. split; [exact D2|]. split.
  - split; [cbn [rows]; rewrite map_length; exact L|]. apply Forall_forall. cbn [rows]. intros row Hr. apply in_map_iff in Hr. destruct Hr as (x & <- & Hx). rewrite map_length. exact (H x Hx).
  - intros i j Hi Hj. unfold entry. cbn [rows]. destruct (nth_error_lt Q i) as [row E]; [lia|]. rewrite (nth_error_nth _ i [] (map_nth_error (map SK) i Q E)).
    destruct (nth_error_lt row j) as [k Ek]; [rewrite (H row (nth_error_In _ _ E)); exact Hj|]. rewrite (nth_error_nth _ j _ (map_nth_error SK j row Ek)). exact I.
Qed.

Lemma numbers_value r Q i j : value r (EM (MK Q)) i j = at_ij Q i j.
Proof.
  unfold value, entry, at_ij. cbn [rows]. replace (nth i (map (map SK) Q) []) with (map SK (nth i Q [])) by (symmetry; exact (map_nth (map SK) Q [] i)).
  rewrite (map_nth SK (nth i Q []) n0 j). reflexivity.
Qed.

Lemma vars_value r xs i : i < length xs -> value r (EV (VV xs)) i 0 = var_at r xs i.
Proof.
  intro Hi. unfold value, entry, var_at. cbn [rows]. destruct (nth_error_lt xs i Hi) as [x E]. rewrite (nth_error_nth _ i [] (map_nth_error (fun x => [SV x]) i xs E)). cbn [nth].
  rewrite (nth_error_nth _ i n0 (map_nth_error (fun x => r (v_id x)) i xs E)). reflexivity.
Qed.

Lemma vars_leaf_degree xs : Forall valid_var xs -> (leaf_degree (EV (VV xs)) <= 1)%Z.
Proof.
  intro H. unfold leaf_degree. cbn [rows]. induction H as [|x l Hx Hl IH]; cbn [map concat app flat_map fold_right]; [lia|]. cbn. lia.
Qed.

Lemma numbers_leaf_degree Q : (leaf_degree (EM (MK Q)) <= 0)%Z.
Proof.
  unfold leaf_degree. cbn [rows]. set (l := concat (map (map SK) Q)).
  assert (H : forall s, In s l -> exists k, s = SK k). { intros s Hs. apply in_concat in Hs. destruct Hs as (row & R1 & R2). apply in_map_iff in R1. destruct R1 as (r & <- & _). apply in_map_iff in R2. destruct R2 as (k & <- & _). eauto. }
  clearbody l. induction l as [|s l IH]; cbn [flat_map map fold_right]; [lia|]. destruct (H s (or_introl eq_refl)) as [k ->]. rewrite map_app, fold_right_app. cbn [terms map fold_right].
  specialize (IH (fun s Hs => H s (or_intror Hs))). cbn. lia.
Qed.

Lemma vars_leaf_dims n xs : 1 <= n -> length xs = n -> leaf_dims (EV (VV xs)) = (n, 1)%nat.
Proof. intros Hn L. unfold leaf_dims. cbn [rows]. rewrite map_length, L. destruct xs; [cbn in L; lia | reflexivity]. Qed.

Lemma numbers_leaf_dims d Q : 1 <= fst d -> dense_shape d Q -> leaf_dims (EM (MK Q)) = d.
Proof.
  intros D1 [L H]. unfold leaf_dims. cbn [rows]. rewrite map_length, L. destruct Q as [|q Q]; [cbn in L; lia|]. cbn [map hd]. inversion H; subst. rewrite map_length. destruct d; cbn in *; congruence.
Qed.

Lemma wide_is_matrix n e : 2 <= n -> valid_array (1, n) e -> exists m, e = EM m.
Proof.
  intros Hn V. destruct e as [s|v|m]; [| |eauto].
  - pose proof (valid_array_ES _ _ V) as E. injection E as E. lia.
  - pose proof (arr_EV_cols _ _ _ (proj1 V) (valid_array_arr _ _ V)) as E. cbn in E. lia.
Qed.

Lemma one_row_length m n : valid_array (1, n) (EM m) -> match m with MM l => length l = 1%nat | _ => True end.
Proof. intros (_ & _ & [L _] & _). destruct m; try exact I. cbn [rows] in L. rewrite map_length in L. exact L. Qed.

Lemma quadratic_proper n xs Q : 2 <= n -> length xs = n -> Forall valid_var xs -> dense_shape (n, n) Q -> proper_leaves (quadratic_form xs Q).
Proof.
  intros Hn L HV HQ. pose proof (vars_array n xs (ltac:(lia)) L HV) as Vx. pose proof (numbers_array (n, n) Q (ltac:(cbn; lia)) (ltac:(cbn; lia)) HQ) as VQ.
  assert (X : proper_leaf (ALeaf (EV (VV xs)))). { cbn [proper_leaf]. rewrite (vars_leaf_dims n) by (assumption || lia). split; [exact Vx|]. intro E. injection E as E. lia. }
  assert (Y : proper_leaf (ALeaf (EM (MK Q)))). { cbn [proper_leaf]. rewrite (numbers_leaf_dims (n, n)) by (assumption || (cbn; lia)). split; [exact VQ|]. intro E. injection E as E. lia. }
  unfold proper_leaves, quadratic_form. cbn [everywhere proper_leaf] in *. tauto.
Qed.

Lemma quadratic_dims n xs Q : 2 <= n -> length xs = n -> dense_shape (n, n) Q -> adims (quadratic_form xs Q) = Some (1, 1)%nat.
Proof.
  intros Hn L HQ. unfold quadratic_form. cbn [adims]. rewrite (vars_leaf_dims n) by (assumption || lia). rewrite (numbers_leaf_dims (n, n)) by (assumption || (cbn; lia)).
  cbn [both fst snd]. unfold mul_dims at 2. unfold scalar_dims, same_dims, one_one. cbn [fst snd]. destruct (Nat.eqb_spec n 1) as [?|N1]; [lia|]. cbn [andb Nat.eqb fst snd both].
  rewrite Nat.eqb_refl. cbn [both]. unfold mul_dims, scalar_dims, same_dims. cbn [fst snd one_one]. destruct (Nat.eqb_spec n 1) as [?|_]; [lia|]. cbn [andb Nat.eqb]. rewrite Nat.eqb_refl. reflexivity.
Qed.

Lemma quadratic_runs n xs Q : 2 <= n -> length xs = n -> Forall valid_var xs -> dense_shape (n, n) Q -> exists e, arun (quadratic_form xs Q) = Ok e.
Proof.
  intros Hn L HV HQ. pose proof (vars_array n xs (ltac:(lia)) L HV) as Vx. pose proof (numbers_array (n, n) Q (ltac:(cbn; lia)) (ltac:(cbn; lia)) HQ) as VQ.
  unfold quadratic_form. cbn [arun bind]. destruct (array_transpose _ _ Vx) as (t & Et & Vt & _). rewrite Et. cbn [fst snd] in Vt.
  assert (T : t = EM (MV [xs])). { cbn [expr_transpose vec_transpose] in Et. destruct (check _ _); [|discriminate]. cbn [bind] in Et. injection Et as <-. reflexivity. } subst t. cbn [bind].
  destruct (array_multiply_total (EM (MV [xs])) (EM (MK Q)) (GExpr (EM (MK Q))) (1, n)%nat (n, n) (1, n)%nat Vt VQ eq_refl) as (y & Ey); try reflexivity.
  { right. right. repeat split; auto. }
  rewrite Ey. cbn [bind]. pose proof (array_multiply_shape (EM (MV [xs])) (EM (MK Q)) (GExpr (EM (MK Q))) (1, n)%nat (n, n) (1, n)%nat y Vt VQ eq_refl (or_intror (or_intror (conj (fun x => x) (conj (fun x => x) (conj eq_refl eq_refl))))) Ey) as Vy.
  destruct (wide_is_matrix n y Hn Vy) as [m ->]. pose proof (one_row_length m n Vy) as Lm.
  apply (array_multiply_total (EM m) (EV (VV xs)) (GExpr (EV (VV xs))) (1, n)%nat (n, 1)%nat (1, 1)%nat Vy Vx eq_refl).
  - right. right. repeat split; auto.
  - destruct m; reflexivity.
  - destruct m; reflexivity.
  - destruct m; try reflexivity. cbn [monomial_matrix_times_variables]. rewrite Lm. reflexivity.
Qed.

Section Exact.
Context (EX : ExactNum NN).
Add Ring qfring : (@num_ring NN EX).

Lemma sum_to_add f g n : sum_to (fun k => f k + g k) n = sum_to f n + sum_to g n.
Proof. induction n as [|n IH]; cbn [sum_to]; [ring|]. rewrite IH. ring. Qed.
Lemma sum_to_zero n : sum_to (fun _ => n0) n = n0.
Proof. induction n as [|n IH]; cbn [sum_to]; [reflexivity|]. rewrite IH. ring. Qed.
Lemma sum_to_mul_r f c n : sum_to f n * c = sum_to (fun k => f k * c) n.
Proof. induction n as [|n IH]; cbn [sum_to]; [ring|]. rewrite <- IH. ring. Qed.
Lemma sum_to_swap f m n : sum_to (fun i => sum_to (fun j => f i j) n) m = sum_to (fun j => sum_to (fun i => f i j) m) n.
Proof. induction m as [|m IH]; cbn [sum_to]; [symmetry; apply sum_to_zero|]. rewrite IH, <- sum_to_add. reflexivity. Qed.

Lemma quadratic_meaning r n xs Q : 2 <= n -> length xs = n -> dense_shape (n, n) Q ->
  meaning r (quadratic_form xs Q) 0 0 = sum_to (fun i => sum_to (fun j => at_ij Q i j * var_at r xs i * var_at r xs j) n) n.
Proof.
  intros Hn L HQ. unfold quadratic_form. cbn [meaning]. unfold dims_of. cbn [adims]. rewrite (vars_leaf_dims n) by (assumption || lia). rewrite (numbers_leaf_dims (n, n)) by (assumption || (cbn; lia)).
  cbn [both fst snd]. unfold mul_dims, scalar_dims, same_dims, one_one. cbn [fst snd]. destruct (Nat.eqb_spec n 1) as [?|N1]; [lia|]. cbn [andb orb Nat.eqb fst snd both]. rewrite Nat.eqb_refl. cbn [fst snd].
  destruct (Nat.eqb_spec n 1) as [?|_]; [lia|]. cbn [andb orb].
  rewrite sum_to_swap. apply sum_to_ext. intros j Hj. rewrite sum_to_mul_r. apply sum_to_ext. intros i Hi.
  rewrite numbers_value. rewrite (vars_value r xs i) by lia. rewrite (vars_value r xs j) by lia. ring.
Qed.
End Exact.

Lemma quadratic_degree xs Q : Forall valid_var xs -> (adegree (quadratic_form xs Q) <= 2)%Z.
Proof. intro HV. unfold quadratic_form. cbn [adegree]. pose proof (vars_leaf_degree xs HV). pose proof (numbers_leaf_degree Q). lia. Qed.

Lemma quadratic_form_ok n xs Q : 2 <= n -> length xs = n -> Forall valid_var xs -> dense_shape (n, n) Q ->
  exists s, arun (quadratic_form xs Q) = Ok (ES s) /\ valid s /\ degree_at_most 2 s
   /\ (ExactNum NN -> forall r, eval r s = sum_to (fun i => sum_to (fun j => at_ij Q i j * var_at r xs i * var_at r xs j) n) n).
Proof.
  intros Hn L HV HQ. pose proof (quadratic_proper n xs Q Hn L HV HQ) as HP. pose proof (quadratic_degree xs Q HV) as HD. destruct (quadratic_runs n xs Q Hn L HV HQ) as (e & E).
  pose proof (quadratic_dims n xs Q Hn L HQ) as D. destruct (arun_dims _ e HP E) as (d & D' & V & S). rewrite D in D'. injection D' as <-. specialize (S eq_refl).
  destruct e as [s| |]; try destruct S. exists s. split; [exact E|]. split; [exact (proj2 (proj2 (proj2 V)) 0%nat 0%nat (le_n 1) (le_n 1))|]. split.
  - pose proof (arun_degree _ _ HP E [s] s (or_introl eq_refl) (or_introl eq_refl)) as X. eapply Forall_impl; [|exact X]. cbn beta. intros m Hm. lia.
  - intros EX r. rewrite <- (quadratic_meaning EX r n xs Q Hn L HQ). pose proof (arun_value_degree2 _ _ EX HP HD E r 0%nat 0%nat) as X. unfold dims_of in X. rewrite D in X. exact (X (le_n 1) (le_n 1)).
Qed.

End AProgTop.
