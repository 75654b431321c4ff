(** * Proofs about conversions, tests and new variables *)

From Coq Require Import ZArith NArith Bool List Lia Permutation Field_theory Ring_theory.
From Verif Require Import Num Syntax ModelScalar Spec Base ScalarValid Eval ScalarOps ScalarMore ScalarNorm Order ModelShape ModelArith SpecArr Arr ArrTop ArrPow ArrShape ArrMisc ArrMulMat
  ModelEnv SpecEnv EnvProofs ModelConv SpecConv PolyZero Canon.
Import ListNotations.
Local Open Scope num_scope.

Section Rates.
Context {NN : Num} {EX : ExactNum NN}.
Add Ring numring : num_ring.
Lemma rate_zero (k t u : num) : k = k + n0 * (t - u).
Proof. ring. Qed.
Lemma rate_one (t u : num) : t = u + n1 * (t - u).
Proof. ring. Qed.
End Rates.

Section Conv.
Context {NN : Num}.

(** ** Rows with the same terms *)
Lemma Forall2_nth_rel {A B} (R : A -> B -> Prop) l l' i a b : Forall2 R l l' -> i < length l -> R (nth i l a) (nth i l' b).
Proof. intro H. revert i. induction H as [|x y l l' Hxy H IH]; intros i Hi; [cbn in Hi; lia|]. destruct i; cbn; [exact Hxy|]. apply IH. cbn in Hi. lia. Qed.
Lemma Forall2_len {A B} (R : A -> B -> Prop) l l' : Forall2 R l l' -> length l = length l'.
Proof. induction 1; cbn; congruence. Qed.
Lemma converted_rows d e e' : valid_array d e -> Forall2 (Forall2 same_terms) (rows e) (rows e') -> converted d e e'.
Proof.
  intros (D1 & D2 & (L & F) & V) H.
  assert (ET : forall i j, i < fst d -> j < snd d -> terms (entry e' i j) = terms (entry e i j)).
  { intros i j Hi Hj. unfold entry. rewrite <- L in Hi. pose proof (Forall2_nth_rel _ _ _ i [] [] H Hi) as Hr.
    apply (Forall2_nth_rel same_terms _ _ j (SK n0) (SK n0) Hr). rewrite Forall_forall in F. rewrite (F (nth i (rows e) [])); [exact Hj | apply nth_In; exact Hi]. }
  split; [|exact ET]. split; [exact D1|]. split; [exact D2|]. split.
  - split; [rewrite <- (Forall2_len _ _ _ H); exact L|]. clear - F H. induction H as [|a b l l' Hab H IH]; [constructor|]. inversion F as [|? ? F1 F2]; subst.
    constructor; [rewrite <- (Forall2_len _ _ _ Hab); exact F1 | apply IH; exact F2].
  - intros i j Hi Hj. apply valid_terms_iff. rewrite ET by assumption. apply valid_terms_iff. apply V; assumption.
Qed.
Lemma same_column {A B} (f : A -> scalar) (g : B -> scalar) (h : A -> B) l : (forall a, terms (g (h a)) = terms (f a)) ->
  Forall2 (Forall2 same_terms) (map (fun a => [f a]) l) (map (fun b => [g b]) (map h l)).
Proof. intro H. induction l as [|a l IH]; cbn; constructor; [|exact IH]. constructor; [exact (H a) | constructor]. Qed.
Lemma same_grid {A B} (f : A -> scalar) (g : B -> scalar) (h : A -> B) l : (forall a, terms (g (h a)) = terms (f a)) ->
  Forall2 (Forall2 same_terms) (map (map f) l) (map (map g) (map (map h) l)).
Proof. intro H. induction l as [|row l IH]; cbn; constructor; [|exact IH]. induction row as [|a row IHr]; cbn; constructor; [exact (H a) | exact IHr]. Qed.

(** ** Loops over indices *)
Lemma index_loop_shift {A B} (f : A -> B) (l0 l : list A) : mapM (fun i => a <- index (l0 ++ l) i ;; Ok (f a)) (seq (length l0) (length l)) = Ok (map f l).
Proof.
  revert l0. induction l as [|a l IH]; intro l0; [reflexivity|]. cbn [length seq mapM].
  assert (E : index (l0 ++ a :: l) (length l0) = Ok a). { apply index_nth. rewrite nth_error_app2 by lia. rewrite Nat.sub_diag. reflexivity. }
  rewrite E. cbn [bind]. specialize (IH (l0 ++ [a])). rewrite <- app_assoc in IH. cbn [app] in IH. rewrite app_length in IH. cbn [length] in IH.
  replace (length l0 + 1)%nat with (S (length l0)) in IH by lia. rewrite IH. reflexivity.
Qed.
Lemma index_loop {A B} (f : A -> B) (l : list A) : mapM (fun i => a <- index l i ;; Ok (f a)) (seq 0 (length l)) = Ok (map f l).
Proof. exact (index_loop_shift f [] l). Qed.
Lemma mapM_fun_ext {A B} (f g : A -> res B) l : (forall a, In a l -> f a = g a) -> mapM f l = mapM g l.
Proof. induction l as [|a l IH]; intro H; cbn; [reflexivity|]. rewrite (H a) by (left; reflexivity). rewrite IH; [reflexivity|]. intros x Hx. apply H. right; exact Hx. Qed.
Lemma index_loop_id {A} (l : list A) : mapM (fun i => index l i) (seq 0 (length l)) = Ok l.
Proof.
  rewrite (mapM_fun_ext _ (fun i => a <- index l i ;; Ok a)); [rewrite index_loop, map_id; reflexivity|].
  intros i _. destruct (index l i); reflexivity.
Qed.
Lemma index_grid {A B} (f : A -> B) (l : list (list A)) c : Forall (fun row => length row = c) l ->
  mapM (fun i => mapM (fun j => row <- index l i ;; k <- index row j ;; Ok (f k)) (seq 0 c)) (seq 0 (length l)) = Ok (map (map f) l).
Proof.
  intro H. rewrite <- (index_loop (map f) l). apply mapM_fun_ext. intros i Hi. apply in_seq in Hi.
  destruct (nth_error_lt l i) as [row E]; [lia|]. rewrite (index_nth _ _ _ E). cbn [bind].
  rewrite Forall_forall in H. rewrite <- (H row (nth_error_In _ _ E)). apply index_loop.
Qed.
Lemma index_grid_id {A} (l : list (list A)) c : Forall (fun row => length row = c) l ->
  mapM (fun i => mapM (fun j => row <- index l i ;; index row j) (seq 0 c)) (seq 0 (length l)) = Ok l.
Proof.
  intro H. rewrite (mapM_fun_ext _ (fun i => mapM (fun j => row <- index l i ;; k <- index row j ;; Ok k) (seq 0 c))).
  - rewrite (index_grid (fun a => a) l c H). rewrite (map_ext (map (fun a : A => a)) (fun x => x)) by (intro; apply map_id). rewrite map_id. reflexivity.
  - intros i _. apply mapM_fun_ext. intros j _. destruct (index l i) as [row|]; [|reflexivity]. cbn. destruct (index row j); reflexivity.
Qed.

(** ** Conversions *)
Lemma vector_checked n v : valid_array (n, 1) (EV v) -> vec_check v = true.
Proof. intro V. exact (proj1 (valid_array_check _ _ V)). Qed.
Lemma matrix_checked d m : valid_array d (EM m) -> mat_check m = true /\ mat_dims m = Ok d.
Proof. intro V. exact (valid_array_check _ _ V). Qed.

Lemma vector_conversions n :
  (forall l, valid_array (n, 1) (EV (VK l)) -> exists m, k_vec_to_monos l = Ok m /\ converted (n, 1) (EV (VK l)) (EV (VM m)))
  /\ (forall l, valid_array (n, 1) (EV (VK l)) -> exists p, k_vec_to_polys l = Ok p /\ converted (n, 1) (EV (VK l)) (EV (VP p)))
  /\ (forall l, valid_array (n, 1) (EV (VV l)) -> exists m, var_vec_to_monos l = Ok m /\ converted (n, 1) (EV (VV l)) (EV (VM m)))
  /\ (forall l, valid_array (n, 1) (EV (VV l)) -> exists p, var_vec_to_polys l = Ok p /\ converted (n, 1) (EV (VV l)) (EV (VP p)))
  /\ (forall l, valid_array (n, 1) (EV (VM l)) -> exists p, mono_vec_to_polys l = Ok p /\ converted (n, 1) (EV (VM l)) (EV (VP p))).
Proof.
  assert (K : forall l, valid_array (n, 1) (EV (VK l)) -> exists m, k_vec_to_monos l = Ok m /\ converted (n, 1) (EV (VK l)) (EV (VM m))).
  { intros l V. exists (map k_to_mono l). split; [reflexivity|]. apply converted_rows; [exact V|]. apply same_column. reflexivity. }
  assert (M : forall l, valid_array (n, 1) (EV (VM l)) -> exists p, mono_vec_to_polys l = Ok p /\ converted (n, 1) (EV (VM l)) (EV (VP p))).
  { intros l V. exists (map mono_to_poly l). unfold mono_vec_to_polys. rewrite (vector_checked n _ V). split; [reflexivity|]. apply converted_rows; [exact V|]. apply same_column. reflexivity. }
  split; [exact K|]. split.
  { intros l V. destruct (K l V) as (m & E & C). pose proof C as (Vm & T). destruct (M m Vm) as (p & E2 & C2). exists p. unfold k_vec_to_polys. rewrite E. cbn [bind]. split; [exact E2|].
    split; [apply C2|]. intros i j Hi Hj. destruct C2 as (_ & T2). rewrite T2, T by assumption. reflexivity. }
  split.
  { intros l V. exists (map var_to_mono l). unfold var_vec_to_monos. rewrite (vector_checked n _ V). split; [reflexivity|]. apply converted_rows; [exact V|]. apply same_column. reflexivity. }
  split; [|exact M].
  intros l V. exists (map var_to_poly l). unfold var_vec_to_polys. rewrite (vector_checked n _ V). split; [reflexivity|]. apply converted_rows; [exact V|]. apply same_column. reflexivity.
Qed.

Lemma k_rows_shape d l : valid_array d (EM (MK l)) -> length l = fst d /\ Forall (fun row => length row = snd d) l.
Proof.
  intros (_ & _ & (L & F) & _). cbn [rows] in *. rewrite map_length in L. split; [exact L|]. clear L. induction l as [|row l IH]; [constructor|].
  cbn in F. inversion F as [|? ? F1 F2]; subst. constructor; [rewrite <- F1, map_length; reflexivity | apply IH; exact F2].
Qed.
Lemma k_mat_convert_ok {A} (f : num -> A) d l : valid_array d (EM (MK l)) -> k_mat_convert f l = Ok (map (map f) l).
Proof.
  intro V. destruct (matrix_checked d _ V) as [_ D]. destruct (k_rows_shape d l V) as [L F]. unfold k_mat_convert. rewrite D. cbn [bind]. rewrite <- L. apply index_grid. exact F.
Qed.
Lemma matrix_conversions d :
  (forall l, valid_array d (EM (MK l)) -> exists m, k_mat_to_monos l = Ok m /\ converted d (EM (MK l)) (EM (MM m)))
  /\ (forall l, valid_array d (EM (MK l)) -> exists p, k_mat_to_polys l = Ok p /\ converted d (EM (MK l)) (EM (MP p)))
  /\ (forall l, valid_array d (EM (MV l)) -> exists m, var_mat_to_monos l = Ok m /\ converted d (EM (MV l)) (EM (MM m)))
  /\ (forall l, valid_array d (EM (MV l)) -> exists p, var_mat_to_polys l = Ok p /\ converted d (EM (MV l)) (EM (MP p))).
Proof.
  split; [|split; [|split]].
  - intros l V. exists (map (map k_to_mono) l). split; [apply (k_mat_convert_ok _ d); exact V|]. apply converted_rows; [exact V|]. apply same_grid. reflexivity.
  - intros l V. exists (map (map k_to_poly) l). split; [apply (k_mat_convert_ok _ d); exact V|]. apply converted_rows; [exact V|]. apply same_grid. reflexivity.
  - intros l V. exists (map (map var_to_mono) l). unfold var_mat_to_monos. rewrite (proj1 (matrix_checked d _ V)). split; [reflexivity|]. apply converted_rows; [exact V|]. apply same_grid. reflexivity.
  - intros l V. exists (map (map var_to_poly) l). unfold var_mat_to_polys. rewrite (proj1 (matrix_checked d _ V)). split; [reflexivity|]. apply converted_rows; [exact V|]. apply same_grid. reflexivity.
Qed.
Lemma converted_value d e e' : ExactNum NN -> converted d e e' -> forall r i j, i < fst d -> j < snd d -> value r e' i j = value r e i j.
Proof. intros EX (_ & T) r i j Hi Hj. unfold value. apply same_terms_eval; [exact EX|]. exact (T i j Hi Hj). Qed.

(** numeric types *)
Lemma dense_round_trips :
  (forall l, l <> [] -> k_to_vec_dense l = Ok l) /\ (k_to_vec_dense [] = Panic PGonum) /\ (forall l, vec_dense_to_k l = Ok l)
  /\ (forall d l, length l = fst d -> Forall (fun row => length row = snd d) l -> dense_to_k d l = Ok l).
Proof.
  split; [intros [|a l] H; [congruence|]; unfold k_to_vec_dense; cbn [nonempty check bind]; rewrite map_id; reflexivity|]. split; [reflexivity|].
  split; [intro l; apply index_loop_id|]. intros d l L F. unfold dense_to_k. rewrite <- L. apply index_grid_id. exact F.
Qed.
Lemma variable_copy l : var_vec_copy l = Ok l.
Proof. unfold var_vec_copy. cbn [vec_len bind]. apply index_loop_id. Qed.
Lemma square_test d m : valid_array d (EM m) -> is_square m = Ok (Nat.eqb (fst d) (snd d)).
Proof. intro V. unfold is_square. rewrite (proj2 (matrix_checked d m V)). reflexivity. Qed.

(** ** Types *)
Lemma scalar_type g s : to_scalar_expression g = (s, true) <-> means g = Some (ES s) /\ ~ is_int g.
Proof.
  destruct g as [f|z|l|l|l|l|[t|v|m]|]; cbn; (split; [intro H; solve [discriminate | injection H as <-; split; [reflexivity | exact (fun c => c)]]
    | intros [H C]; solve [discriminate | exfalso; apply C; exact I | injection H as <-; reflexivity]]).
Qed.
Lemma vector_type g v : to_vector_expression g = (v, true) <-> means g = Some (EV v).
Proof. destruct g as [f|z|l|l|l|l|[t|w|m]|]; cbn; split; intros H; try discriminate; injection H as <-; reflexivity. Qed.
Lemma matrix_type g m : to_matrix_expression g = (m, true) <-> means g = Some (EM m).
Proof. destruct g as [f|z|l|l|l|l|[t|w|w]|]; cbn; split; intros H; try discriminate; injection H as <-; reflexivity. Qed.
Lemma type_tests g : is_scalar_expression g = snd (to_scalar_expression g) /\ is_vector_expression g = snd (to_vector_expression g)
  /\ is_matrix_expression g = snd (to_matrix_expression g) /\ is_polynomial_like_scalar g = snd (to_polynomial_like_scalar g)
  /\ is_polynomial_like_vector g = snd (to_polynomial_like_vector g) /\ is_polynomial_like_matrix g = snd (to_polynomial_like_matrix g).
Proof. destruct g as [f|z|l|l|l|l|[t|w|w]|]; cbn; repeat split. Qed.
Lemma failed_types g : (snd (to_scalar_expression g) = false -> fst (to_scalar_expression g) = SK n1)
  /\ (snd (to_vector_expression g) = false -> fst (to_vector_expression g) = VK [n1])
  /\ (snd (to_matrix_expression g) = false -> fst (to_matrix_expression g) = MK [[n0]]).
Proof. destruct g as [f|z|l|l|l|l|[t|w|w]|]; cbn; repeat split; intro H; try discriminate; reflexivity. Qed.
Lemma polynomial_like_type g e : to_polynomial_like g = Ok (e, true) <-> means g = Some e /\ ~ is_int g /\ ~ is_pointer g.
Proof.
  destruct g as [f|z|l|l|l|l|[t|w|w]|]; cbn; (split; [intro H; solve [discriminate | injection H as <-; split; [reflexivity | split; exact (fun c => c)]]
    | intros (H & C1 & C2); solve [discriminate | exfalso; apply C1; exact I | exfalso; apply C2; exact I | injection H as <-; reflexivity]]).
Qed.
Lemma polynomial_like_panics g : is_polynomial_like g = false -> to_polynomial_like g = Panic PUnsupported.
Proof. destruct g as [f|z|l|l|l|l|[t|w|w]|]; cbn; intro H; try discriminate; reflexivity. Qed.
Lemma polynomial_like_never_fails g e : to_polynomial_like g <> Ok (e, false).
Proof. destruct g as [f|z|l|l|l|l|[t|w|w]|]; cbn; intro H; discriminate. Qed.
Lemma polynomial_like_test g : is_polynomial_like g = true <-> exists e, to_polynomial_like g = Ok (e, true).
Proof. destruct g as [f|z|l|l|l|l|[t|w|w]|]; cbn; split; intro H; try discriminate; try (destruct H; discriminate); try reflexivity; eauto. Qed.

(** ** Constants *)
Lemma no_variables_constant s : (forall i, ~ occurs i s) -> constant_function s.
Proof.
  intros H r r'. assert (G : forall p, (forall m, In m p -> m_vars m = []) -> eval_poly r p = eval_poly r' p).
  { induction p as [|m p IH]; intro Hp; [reflexivity|]. cbn [eval_poly]. rewrite IH by (intros; apply Hp; right; assumption).
    unfold eval_mono. rewrite (Hp m) by (left; reflexivity). reflexivity. }
  assert (HV : forall m, In m (terms s) -> m_vars m = []).
  { intros m Hm. destruct (m_vars m) as [|v l] eqn:E; [reflexivity|]. exfalso. apply (H (v_id v)). exists m. split; [exact Hm|]. unfold ids. rewrite E. left. reflexivity. }
  destruct s as [k|v|m|p]; cbn [eval terms] in *; [reflexivity | specialize (HV _ (or_introl eq_refl)); discriminate | | apply G; exact HV].
  unfold eval_mono. rewrite (HV m) by (left; reflexivity). reflexivity.
Qed.
Lemma mono_constant_test m : valid_mono m -> exists b, mono_is_constant m = Ok b /\ (b = true <-> forall i, ~ occurs i (SM m)).
Proof.
  intro V. exists (is_const m). split; [apply mono_is_constant_ok, valid_mono_check, V|]. unfold is_const. split.
  - intros H i (t & [<-|[]] & Hi). unfold ids in Hi. destruct (m_vars m); [destruct Hi | discriminate].
  - intro H. destruct (m_vars m) as [|v l] eqn:E; [reflexivity|]. exfalso. apply (H (v_id v)). exists m. split; [left; reflexivity|]. unfold ids. rewrite E. left. reflexivity.
Qed.
Lemma poly_constant_test p : valid_poly p -> exists b, poly_is_constant p = Ok b /\ (b = true <-> forall i, ~ occurs i (SP p)).
Proof.
  intro V. unfold poly_is_constant. rewrite (valid_poly_check p V). cbn [check bind]. eexists. split; [reflexivity|]. split.
  - intros H i (m & Hm & Hi). cbn in Hm. assert (G : In i (map v_id (poly_variables p))).
    { unfold poly_variables. apply unique_vars_in. unfold ids in Hi. apply in_map_iff in Hi as (v & <- & Hv). apply in_map. apply in_flat_map. exists m. auto. }
    destruct (poly_variables p); [destruct G | discriminate].
  - intro H. destruct (poly_variables p) as [|v l] eqn:E; [reflexivity|]. exfalso. assert (G : In v (poly_variables p)) by (rewrite E; left; reflexivity).
    apply unique_vars_incl in G. apply in_flat_map in G as (m & Hm & Hv). apply (H (v_id v)). exists m. split; [exact Hm|]. apply in_map. exact Hv.
Qed.
Lemma all_constant_spec {A} (f : A -> res bool) (P : A -> Prop) l : (forall a, In a l -> exists b, f a = Ok b /\ (b = true <-> P a)) ->
  exists b, all_constant f l = Ok b /\ (b = true <-> forall a, In a l -> P a).
Proof.
  induction l as [|a l IH]; intro H; cbn [all_constant].
  - exists true. split; [reflexivity|]. split; [intros _ a [] | reflexivity].
  - destruct (H a (or_introl eq_refl)) as (b & E & Hb). rewrite E. cbn [bind]. destruct b.
    + destruct IH as (c & Ec & Hc); [intros x Hx; apply H; right; exact Hx|]. exists c. split; [exact Ec|]. rewrite Hc. split.
      * intros G x [<-|Hx]; [apply Hb; reflexivity | apply G; exact Hx].
      * intros G x Hx. apply G. right. exact Hx.
    + exists false. split; [reflexivity|]. split; [discriminate|]. intro G. apply Hb. apply G. left. reflexivity.
Qed.
Lemma column_entries {A} (f : A -> scalar) (Q : scalar -> Prop) (e : expr) l n : rows e = map (fun a => [f a]) l -> length l = n ->
  ((forall a, In a l -> Q (f a)) <-> forall i, i < n -> Q (entry e i 0)).
Proof.
  intros E L. unfold entry. rewrite E. split.
  - intros H i Hi. rewrite <- L in Hi. destruct (nth_error_lt l i Hi) as [a Ea].
    rewrite (nth_error_nth_eq _ _ [f a]); [apply H; eapply nth_error_In; exact Ea|]. rewrite nth_error_map, Ea. reflexivity.
  - intros H a Ha. apply In_nth_error in Ha as [i Hi]. assert (Li : i < n) by (rewrite <- L; eapply nth_error_bound; exact Hi). specialize (H i Li).
    rewrite (nth_error_nth_eq _ _ [f a]) in H; [exact H|]. rewrite nth_error_map, Hi. reflexivity.
Qed.
Lemma vector_constant_tests n :
  (forall l, valid_array (n, 1) (EV (VM l)) -> exists b, mono_vec_is_constant l = Ok b /\ (b = true <-> forall i x, i < n -> ~ occurs x (entry (EV (VM l)) i 0)))
  /\ (forall l, valid_array (n, 1) (EV (VP l)) -> exists b, poly_vec_is_constant l = Ok b /\ (b = true <-> forall i x, i < n -> ~ occurs x (entry (EV (VP l)) i 0))).
Proof.
  split; intros l V.
  - assert (L : length l = n) by (destruct V as (_ & _ & (L & _) & _); cbn in L; rewrite map_length in L; exact L).
    destruct (all_constant_spec mono_is_constant (fun m => forall x, ~ occurs x (SM m)) l) as (b & E & Hb).
    { intros m Hm. apply mono_constant_test. apply (valid_array_entry _ _ [SM m] (SM m) V); [cbn; apply in_map_iff; exists m; auto | left; reflexivity]. }
    exists b. unfold mono_vec_is_constant. rewrite (vector_checked n _ V). split; [exact E|]. rewrite Hb.
    rewrite (column_entries SM (fun s => forall x, ~ occurs x s) (EV (VM l)) l n eq_refl L). split; intros G i; [intros x Hi; apply G; exact Hi | intros Hi x; apply G; exact Hi].
  - assert (L : length l = n) by (destruct V as (_ & _ & (L & _) & _); cbn in L; rewrite map_length in L; exact L).
    destruct (all_constant_spec poly_is_constant (fun p => forall x, ~ occurs x (SP p)) l) as (b & E & Hb).
    { intros p Hp. apply poly_constant_test. apply (valid_array_entry _ _ [SP p] (SP p) V); [cbn; apply in_map_iff; exists p; auto | left; reflexivity]. }
    exists b. split; [exact E|]. rewrite Hb.
    rewrite (column_entries SP (fun s => forall x, ~ occurs x s) (EV (VP l)) l n eq_refl L). split; intros G i; [intros x Hi; apply G; exact Hi | intros Hi x; apply G; exact Hi].
Qed.

(** an expression whose terms have different powers and non-zero coefficients *)
Lemma constant_terms s : ExactNum NN -> valid s -> different_powers s -> (forall m, In m (terms s) -> m_coeff m <> n0) ->
  (constant_function s <-> forall i, ~ occurs i s).
Proof.
  intros EX V D Z. split; [|apply no_variables_constant]. intros H i (m & Hm & Hi). pose proof (valid_terms s V) as VT.
  assert (Vm : valid_mono m) by (rewrite Forall_forall in VT; auto). set (c := eval (fun _ => n0) s).
  assert (F : same_function s (SK c)) by (intro r; apply H). apply (proj1 (functions_determined s (SK c) V I)) with (m := m) in F; [|exact Vm]. apply (Z m Hm).
  unfold coefficient in F. apply in_split in Hm as (l1 & l2 & E). rewrite E in F, VT. unfold different_powers in D. rewrite E in D.
  destruct (diff_remove l1 m l2) as [D1 D2]; [exact D|].
  apply Forall_app in VT as [VT1 VT2]. inversion VT2 as [|? ? _ VT3]; subst. rewrite coefficient_mid, coefficient_head in F; [|exact Vm | apply Forall_app; split; assumption | exact D1].
  rewrite F. apply coefficient_none; [exact Vm | constructor; [apply valid_mono_k | constructor] |].
  intros t [<-|[]] HP. apply exponent_pos in Hi; [|exact Vm]. specialize (HP i). change (0%Z = exponent m i) in HP. lia.
Qed.

(** ** Derivatives of constant and variable arrays *)
Definition rate (x : var) (s : scalar) : scalar := match s with SV v => SK (if N.eqb (v_id v) (v_id x) then n1 else n0) | _ => SK n0 end.
Definition affine (s : scalar) : Prop := match s with SK _ | SV _ => True | _ => False end.

Lemma nth_map_in {A B} (f : A -> B) l i a b : i < length l -> nth i (map f l) b = f (nth i l a).
Proof. intro H. rewrite (nth_indep _ b (f a)) by (rewrite map_length; exact H). apply map_nth. Qed.
Lemma rate_entry d x e e' i j : shape d e -> rows e' = map (map (rate x)) (rows e) -> i < fst d -> j < snd d -> entry e' i j = rate x (entry e i j).
Proof.
  intros (L & F) E Hi Hj. rewrite <- L in Hi. unfold entry. rewrite E. rewrite (nth_map_in (map (rate x)) (rows e) i [] []) by exact Hi.
  apply nth_map_in. rewrite Forall_forall in F. rewrite (F (nth i (rows e) [])); [exact Hj | apply nth_In; exact Hi].
Qed.
Lemma rate_valid d x e e' : valid_array d e -> rows e' = map (map (rate x)) (rows e) -> valid_array d e'.
Proof.
  intros (D1 & D2 & S & V) E. split; [exact D1|]. split; [exact D2|]. split.
  - destruct S as (L & F). split; [rewrite E, map_length; exact L|]. rewrite E. apply Forall_forall. intros row Hr. apply in_map_iff in Hr as (row' & <- & Hr').
    rewrite map_length. rewrite Forall_forall in F. apply F, Hr'.
  - intros i j Hi Hj. rewrite (rate_entry d x e e') by assumption. destruct (entry e i j); exact I.
Qed.
Lemma rate_rates d x e e' : ExactNum NN -> valid_array d e -> (forall row s, In row (rows e) -> In s row -> affine s) -> rows e' = map (map (rate x)) (rows e) -> rates d (v_id x) e e'.
Proof.
  intros EX (D1 & D2 & S & V) HA E r t i j Hi Hj. unfold value. rewrite (rate_entry d x e e') by assumption.
  assert (A : affine (entry e i j)).
  { destruct S as (L & F). assert (Hr : In (nth i (rows e) []) (rows e)) by (apply nth_In; lia). apply (HA _ _ Hr). apply nth_In. rewrite Forall_forall in F. rewrite (F _ Hr). exact Hj. }
  destruct (entry e i j) as [k|v|m|p]; try destruct A; cbn [eval rate].
  - apply rate_zero.
  - unfold update. destruct (N.eqb_spec (v_id v) (v_id x)) as [->|Hne]; [apply rate_one | apply rate_zero].
Qed.

Lemma derivative_arrays d x : valid_var x ->
  (forall l, valid_array d (EV (VK l)) -> exists l', k_vec_derivative l = Ok l' /\ rows (EV (VK l')) = map (map (rate x)) (rows (EV (VK l))))
  /\ (forall l, valid_array d (EV (VV l)) -> exists l', var_vec_derivative l x = Ok l' /\ rows (EV (VK l')) = map (map (rate x)) (rows (EV (VV l))))
  /\ (forall l, valid_array d (EM (MK l)) -> exists l', k_mat_derivative l = Ok l' /\ rows (EM (MK l')) = map (map (rate x)) (rows (EM (MK l))))
  /\ (forall l, valid_array d (EM (MV l)) -> exists l', var_mat_derivative l x = Ok l' /\ rows (EM (MK l')) = map (map (rate x)) (rows (EM (MV l)))).
Proof.
  intro Vx. split; [|split; [|split]]; intros l V.
  - assert (L : length l <> 0). { destruct V as (D1 & _ & (L & _) & _). cbn in L. rewrite map_length in L. lia. }
    exists (repeat n0 (length l)). split; [unfold k_vec_derivative; apply zeros_vector_ok; lia|]. cbn [rows]. rewrite map_map. clear. induction l as [|a l IH]; cbn; [reflexivity|]. f_equal. exact IH.
  - assert (L : length l <> 0). { destruct V as (D1 & _ & (L & _) & _). cbn in L. rewrite map_length in L. lia. }
    exists (map (fun v => if same_id v x then n1 else n0) l). unfold var_vec_derivative. rewrite (proj1 (valid_array_check _ _ V) : vec_check (VV l) = true), (proj2 (var_check_valid x) Vx).
    cbn [check bind]. rewrite zeros_vector_ok by lia. split; [reflexivity|]. cbn [rows]. rewrite !map_map. apply map_ext. reflexivity.
  - destruct (k_rows_shape d l V) as [L F]. destruct V as (D1 & D2 & _). unfold k_mat_derivative.
    assert (R : rows_dims l = Ok d). { destruct l as [|r0 l]; [cbn in L; lia|]. cbn. inversion F as [|? ? F1 F2]; subst. rewrite F1. change (S (length l)) with (length (r0 :: l)). rewrite L. destruct d; reflexivity. }
    rewrite R. cbn [bind]. unfold zeros_matrix. destruct (Nat.eqb_spec (fst d) 0) as [C1|C1]; [lia|]. destruct (Nat.eqb_spec (snd d) 0) as [C2|C2]; [lia|]. cbn [orb].
    exists (repeat (repeat n0 (snd d)) (fst d)). split; [reflexivity|]. rewrite <- L. cbn [rows]. clear - F. induction l as [|row l IH]; [reflexivity|]. inversion F as [|? ? F1 F2]; subst.
    cbn [length repeat map]. rewrite <- (IH F2). f_equal. rewrite <- F1. clear. induction row as [|a row IH]; cbn; [reflexivity|]. f_equal. exact IH.
  - pose proof (proj2 (valid_array_check _ _ V) : mat_dims (MV l) = Ok d) as D. destruct V as (D1 & D2 & _). unfold var_mat_derivative. rewrite D. cbn [bind].
    unfold zeros_matrix. destruct (Nat.eqb_spec (fst d) 0) as [C1|C1]; [lia|]. destruct (Nat.eqb_spec (snd d) 0) as [C2|C2]; [lia|]. cbn [orb bind].
    eexists. split; [reflexivity|]. cbn [rows]. rewrite !map_map. apply map_ext. intro row. rewrite !map_map. apply map_ext. reflexivity.
Qed.
Lemma affine_arrays : (forall l row s, In row (rows (EV (VK l))) -> In s row -> affine s) /\ (forall l row s, In row (rows (EV (VV l))) -> In s row -> affine s)
  /\ (forall l row s, In row (rows (EM (MK l))) -> In s row -> affine s) /\ (forall l row s, In row (rows (EM (MV l))) -> In s row -> affine s).
Proof.
  split; [|split; [|split]]; intros l row s Hr Hs; cbn in Hr; apply in_map_iff in Hr as (a & <- & Ha).
  - destruct Hs as [<-|[]]. exact I.
  - destruct Hs as [<-|[]]. exact I.
  - apply in_map_iff in Hs as (b & <- & _). exact I.
  - apply in_map_iff in Hs as (b & <- & _). exact I.
Qed.

Lemma unit_rate d x e e' : valid_array d e -> rows e' = map (map (rate x)) (rows e) -> unit_array d x e e'.
Proof.
  intros V E. split; [eapply rate_valid; eassumption|]. intros i j Hi Hj. rewrite (rate_entry d x e e' i j (proj1 (proj2 (proj2 V))) E Hi Hj). split.
  - intros k ->. reflexivity.
  - intros v ->. cbn. destruct (N.eqb_spec (v_id v) (v_id x)); split; intro; try reflexivity; contradiction.
Qed.

Lemma array_derivatives d x : valid_var x ->
  (forall l, valid_array d (EV (VK l)) -> exists l', k_vec_derivative l = Ok l' /\ unit_array d x (EV (VK l)) (EV (VK l')) /\ (ExactNum NN -> rates d (v_id x) (EV (VK l)) (EV (VK l'))))
  /\ (forall l, valid_array d (EV (VV l)) -> exists l', var_vec_derivative l x = Ok l' /\ unit_array d x (EV (VV l)) (EV (VK l')) /\ (ExactNum NN -> rates d (v_id x) (EV (VV l)) (EV (VK l'))))
  /\ (forall l, valid_array d (EM (MK l)) -> exists l', k_mat_derivative l = Ok l' /\ unit_array d x (EM (MK l)) (EM (MK l')) /\ (ExactNum NN -> rates d (v_id x) (EM (MK l)) (EM (MK l'))))
  /\ (forall l, valid_array d (EM (MV l)) -> exists l', var_mat_derivative l x = Ok l' /\ unit_array d x (EM (MV l)) (EM (MK l')) /\ (ExactNum NN -> rates d (v_id x) (EM (MV l)) (EM (MK l')))).
Proof.
  intro Vx. destruct (derivative_arrays d x Vx) as (H1 & H2 & H3 & H4). destruct affine_arrays as (A1 & A2 & A3 & A4).
  split; [|split; [|split]]; intros l V; [destruct (H1 l V) as (l' & E & R) | destruct (H2 l V) as (l' & E & R) | destruct (H3 l V) as (l' & E & R) | destruct (H4 l V) as (l' & E & R)];
    exists l'; (split; [exact E|]); (split; [apply unit_rate; assumption|]); intro EX; apply rate_rates; auto.
  - exact (A1 l).
  - exact (A2 l).
  - exact (A3 l).
  - exact (A4 l).
Qed.

Lemma k_vec_derivative_units d x l : valid_var x -> valid_array d (EV (VK l)) -> exists l', k_vec_derivative l = Ok l' /\ unit_array d x (EV (VK l)) (EV (VK l'))
  /\ (ExactNum NN -> rates d (v_id x) (EV (VK l)) (EV (VK l'))).
Proof. intro V. exact (proj1 (array_derivatives d x V) l). Qed.
Lemma var_vec_derivative_units d x l : valid_var x -> valid_array d (EV (VV l)) -> exists l', var_vec_derivative l x = Ok l' /\ unit_array d x (EV (VV l)) (EV (VK l'))
  /\ (ExactNum NN -> rates d (v_id x) (EV (VV l)) (EV (VK l'))).
Proof. intro V. exact (proj1 (proj2 (array_derivatives d x V)) l). Qed.
Lemma k_mat_derivative_units d x l : valid_var x -> valid_array d (EM (MK l)) -> exists l', k_mat_derivative l = Ok l' /\ unit_array d x (EM (MK l)) (EM (MK l'))
  /\ (ExactNum NN -> rates d (v_id x) (EM (MK l)) (EM (MK l'))).
Proof. intro V. exact (proj1 (proj2 (proj2 (array_derivatives d x V))) l). Qed.
Lemma var_mat_derivative_units d x l : valid_var x -> valid_array d (EM (MV l)) -> exists l', var_mat_derivative l x = Ok l' /\ unit_array d x (EM (MV l)) (EM (MK l'))
  /\ (ExactNum NN -> rates d (v_id x) (EM (MV l)) (EM (MK l'))).
Proof. intro V. exact (proj2 (proj2 (proj2 (array_derivatives d x V))) l). Qed.

(** ** New variables *)
Lemma asked_current envs e : asked envs e -> current_env envs = e.
Proof. intros [[-> ->]| ->]; reflexivity. Qed.
Lemma track_has l v : exists w, In w (snd (track l v)) /\ v_id w = v_id v.
Proof.
  unfold track. destruct (tracked l v) eqn:E; cbn [snd].
  - apply existsb_exists in E as (w & Hw & Ew). exists w. split; [exact Hw | apply N.eqb_eq; exact Ew].
  - exists v. split; [apply in_or_app; right; left; reflexivity | reflexivity].
Qed.
Lemma new_variable_facts mk st envs e : asked envs e -> let (v, st') := new_variable mk st envs in
  v = mk (length (st e)) e /\ (exists w, In w (st' e) /\ v_id w = v_id v) /\ incl (st e) (st' e) /\ (forall a, a <> e -> st' a = st a).
Proof.
  intro HA. apply asked_current in HA. unfold new_variable. rewrite HA. split; [reflexivity|]. rewrite set_env_same. split; [apply track_has|]. split.
  - intros w Hw. unfold track. destruct (tracked (st e) _); cbn [snd]; [exact Hw | apply in_or_app; left; exact Hw].
  - intros a Ha. apply set_env_other. exact Ha.
Qed.
Lemma continuous_facts st envs e : asked envs e -> exists v st', run_call st (NewContinuous envs) = ([v], st') /\ is_continuous v /\ v_env v = Some e /\ v_name v = index_name (length (st e))
  /\ (exists w, In w (st' e) /\ v_id w = v_id v) /\ incl (st e) (st' e) /\ (forall a, a <> e -> st' a = st a).
Proof.
  intro HA. pose proof (new_variable_facts continuous st envs e HA) as H. cbn [run_call]. destruct (new_variable continuous st envs) as [v st']. destruct H as (-> & H). exists (continuous (length (st e)) e), st'.
  split; [reflexivity|]. split; [repeat split|]. split; [reflexivity|]. split; [reflexivity | exact H].
Qed.
Lemma binary_facts st envs e : asked envs e -> exists v st', run_call st (NewBinary envs) = ([v], st') /\ is_binary v /\ v_env v = Some e /\ v_name v = index_name (length (st e))
  /\ (exists w, In w (st' e) /\ v_id w = v_id v) /\ incl (st e) (st' e) /\ (forall a, a <> e -> st' a = st a).
Proof.
  intro HA. pose proof (new_variable_facts binary st envs e HA) as H. cbn [run_call]. destruct (new_variable binary st envs) as [v st']. destruct H as (-> & H). exists (binary (length (st e)) e), st'.
  split; [reflexivity|]. split; [repeat split|]. split; [reflexivity|]. split; [reflexivity | exact H].
Qed.
Lemma new_variables_facts n : forall st e v, In v (fst (new_variables n st e)) -> is_continuous v /\ v_env v = Some e.
Proof.
  induction n as [|n IH]; intros st e v; cbn [new_variables]; [intros []|].
  pose proof (new_variable_facts continuous st [e] e (or_intror eq_refl)) as H. destruct (new_variable continuous st [e]) as [w st1]. destruct H as (-> & _).
  specialize (IH st1 e v). destruct (new_variables n st1 e) as [vs st2]. cbn [fst] in *. intros [<-|Hv]; [repeat split | apply IH; exact Hv].
Qed.
Lemma new_rows_facts r c : forall st e v, In v (concat (fst (new_rows r c st e))) -> is_continuous v /\ v_env v = Some e.
Proof.
  induction r as [|r IH]; intros st e v; cbn [new_rows]; [intros []|].
  pose proof (new_variables_facts c st e v) as H. destruct (new_variables c st e) as [row st1]. specialize (IH st1 e v). destruct (new_rows r c st1 e) as [m st2]. cbn [fst concat] in *.
  intro Hv. apply in_app_iff in Hv as [Hv|Hv]; auto.
Qed.
Lemma array_variables_facts st envs e v : asked envs e ->
  (forall n, In v (fst (run_call st (NewVector n envs))) -> is_continuous v /\ v_env v = Some e)
  /\ (forall r c, In v (fst (run_call st (NewMatrix r c envs))) -> is_continuous v /\ v_env v = Some e).
Proof.
  intro HA. split.
  - intros n. cbn [run_call]. unfold new_vector. rewrite (asked_current envs e HA). apply new_variables_facts.
  - intros r c. cbn [run_call]. unfold new_matrix. rewrite (asked_current envs e HA).
    destruct HA as [[-> ->]| ->]; (destruct (Z.ltb 0 r && Z.ltb c 0); [intros []|]);
      match goal with |- context [new_rows ?a ?b ?s ?x] => pose proof (new_rows_facts a b s x v) as H; destruct (new_rows a b s x) as [m st'] end; exact H.
Qed.

(** every variable of every history *)
Definition kinds_ok : Prop := nleb (nofZ (10 ^ 100)) (nofZ (- 10 ^ 100)) = false /\ nleb n1 n0 = false.
Lemma kinds_valid v : kinds_ok -> is_continuous v \/ is_binary v -> valid_var v.
Proof. intros [K1 K2] [(L & U & _)|(L & U & _)]; unfold valid_var; rewrite L, U; assumption. Qed.
Lemma new_variable_kind mk st envs : (exists e n, fst (new_variable mk st envs) = mk n e).
Proof. unfold new_variable. cbn. eauto. Qed.
Lemma calls_kinds cs : forall st v, In v (fst (run_calls st cs)) -> is_continuous v \/ is_binary v.
Proof.
  induction cs as [|c cs IH]; intros st v; cbn [run_calls]; [intros []|].
  assert (H : In v (fst (run_call st c)) -> is_continuous v \/ is_binary v).
  { destruct c as [envs|envs|n envs|r c envs|e w]; cbn [run_call].
    - destruct (new_variable_kind continuous st envs) as (e & n & E). destruct (new_variable continuous st envs) as [x st']. cbn in *. subst x. intros [<-|[]]. left. repeat split.
    - destruct (new_variable_kind binary st envs) as (e & n & E). destruct (new_variable binary st envs) as [x st']. cbn in *. subst x. intros [<-|[]]. right. repeat split.
    - intro Hv. left. unfold new_vector in Hv. apply new_variables_facts in Hv. apply Hv.
    - unfold new_matrix. intro Hv. left. destruct envs as [|e1 [|e2 envs]]; [| |destruct Hv];
        (destruct (Z.ltb 0 r && Z.ltb c 0); [destruct Hv|]);
        (match type of Hv with context [new_rows ?a ?b ?s ?x] => pose proof (new_rows_facts a b s x v) as H; destruct (new_rows a b s x) as [m st'] end; apply H; exact Hv).
    - intros []. }
  destruct (run_call st c) as [vs st1]. specialize (IH st1 v). destruct (run_calls st1 cs) as [ws st2]. cbn [fst] in *. intro Hv. apply in_app_iff in Hv as [Hv|Hv]; auto.
Qed.

End Conv.

Section Kinds.
Context {NN : Num} {EX : ExactNum NN}.
Add Ring numring2 : num_ring.
Lemma ofZ_nat n : nofZ (Z.of_nat n) = pt n.
Proof.
  assert (Z0 : nofZ 0 = n0). { pose proof (ex_ofZadd 0 0) as H. cbn in H. transitivity (nofZ 0 + nofZ 0 - nofZ 0); [ring | rewrite <- H; ring]. }
  induction n as [|n IH]; [exact Z0|]. rewrite Nat2Z.inj_succ. unfold Z.succ. rewrite ex_ofZadd, ex_ofZ1, IH. reflexivity.
Qed.
Lemma ofZ_pos z : (0 < z)%Z -> nleb (nofZ z) n0 = false.
Proof.
  intro Hz. apply not_true_iff_false. intro C. rewrite <- (Z2Nat.id z) in C by lia. rewrite ofZ_nat in C.
  assert (E : pt (Z.to_nat z) = n0) by (apply ex_antisym; [exact C | apply pt_nonneg]).
  destruct (Z.to_nat z) as [|n] eqn:En; [|exact (pt_S n E)]. apply (f_equal Z.of_nat) in En. rewrite Z2Nat.id in En by lia. cbn in En. lia.
Qed.
Lemma ofZ_neg z : nofZ (- z) = - nofZ z.
Proof.
  pose proof (ex_ofZadd z (- z)) as H. rewrite Z.add_opp_diag_r in H. pose proof (ofZ_nat 0) as Z0. cbn in Z0. rewrite Z0 in H.
  transitivity (nofZ z + nofZ (- z) - nofZ z); [ring|]. rewrite <- H. ring.
Qed.
Lemma ofZ_lt z : (0 < z)%Z -> nleb (nofZ z) (nofZ (- z)) = false.
Proof.
  intro Hz. apply not_true_iff_false. intro C. pose proof (ofZ_pos z Hz) as H. apply not_true_iff_false in H. apply H.
  destruct (ex_total (nofZ z) n0) as [Hc|Hc]; [exact Hc|]. apply (ex_trans _ (nofZ (- z))); [exact C|]. rewrite ofZ_neg. apply le_opp_iff. replace (- - nofZ z) with (nofZ z) by ring. replace (- n0) with n0 by ring. exact Hc.
Qed.
Lemma kinds_exact : kinds_ok.
Proof.
  split; [apply ofZ_lt; apply Z.pow_pos_nonneg; lia|]. apply not_true_iff_false. intro C. apply one_neq_zero. apply ex_antisym; [exact C|].
  replace n1 with (n1 * n1) by ring. apply square_nonneg.
Qed.
End Kinds.
Lemma kinds_F64 : @kinds_ok F64Num.
Proof. split; vm_compute; reflexivity. Qed.

Lemma history_valid {NN : Num} cs v : ExactNum NN \/ NN = F64Num -> In v (fst (run_calls empty_store cs)) -> valid_var v.
Proof.
  intros H Hv. apply kinds_valid; [|eapply calls_kinds; exact Hv]. destruct H as [EX| ->]; [apply kinds_exact | apply kinds_F64].
Qed.
