(** * Which kind of expression the operations on arrays return *)

From Coq Require Import ZArith NArith Bool List Lia.
From Verif Require Import Num Syntax ModelScalar ModelShape ModelArith Spec SpecArr SpecKind Base Arr ArrShape ArrTop ArrPow ArrFacts ArrMisc ConProofs.
Import ListNotations.


Section KindProofs.
Context {NN : Num}.

(** a scalar, a vector of length other than 1, or a matrix whose first row has length other than 1 *)
Definition fit (e : expr) : Prop := match e with ES _ => True | EV v => length (rows (EV v)) <> 1 | EM m => length (hd [] (rows (EM m))) <> 1 end.
Definition kd (r : res expr) : Prop := forall e, r = Ok e -> fit e.
(** ... and no matrix *)
Definition flat (e : expr) : Prop := match e with ES _ => True | EV v => length (rows (EV v)) <> 1 | EM _ => False end.
Definition kf (r : res expr) : Prop := forall e, r = Ok e -> flat e.
Lemma flat_fit e : flat e -> fit e. Proof. destruct e; cbn; tauto. Qed.
Lemma kf_kd r : kf r -> kd r. Proof. intros H e E. apply flat_fit, H, E. Qed.

Lemma kd_bind {A} (r : res A) k : (forall a, r = Ok a -> kd (k a)) -> kd (bind r k).
Proof. intros H e E. destruct r as [a|]; [|discriminate]. exact (H a eq_refl e E). Qed.
Lemma kf_bind {A} (r : res A) k : (forall a, r = Ok a -> kf (k a)) -> kf (bind r k).
Proof. intros H e E. destruct r as [a|]; [|discriminate]. exact (H a eq_refl e E). Qed.
Lemma kd_panic p : kd (Panic p). Proof. intros e E. discriminate. Qed.
Lemma kf_panic p : kf (Panic p). Proof. intros e E. discriminate. Qed.
Lemma kf_ES r : kf (as_ES r). Proof. intros e E. unfold as_ES in E. destruct r; [|discriminate]. injection E as <-. exact I. Qed.

Lemma vec_rows_length v : length (rows (EV v)) = length (vec_entries v).
Proof. destruct v; cbn; rewrite ?map_length; reflexivity. Qed.
Lemma concretize_vector_length l v : concretize_vector l = Ok v -> length (rows (EV v)) = length l.
Proof.
  unfold concretize_vector. destruct (nonempty l); [|discriminate]. cbn [check bind]. rewrite vec_rows_length.
  destruct (existsb is_p l); [intro E; injection E as <-; cbn; rewrite !map_length; reflexivity|].
  destruct (existsb is_m l || existsb is_k l && existsb is_v l).
  { destruct (mapM to_mono l) eqn:M; [|discriminate]. intro E; injection E as <-. cbn. rewrite map_length. apply (mapM_length _ _ _ M). }
  destruct (forallb is_v l).
  { destruct (mapM to_var l) eqn:M; [|discriminate]. intro E; injection E as <-. cbn. rewrite map_length. apply (mapM_length _ _ _ M). }
  destruct (existsb is_k l); [|discriminate].
  destruct (mapM to_k l) eqn:M; [|discriminate]. intro E; injection E as <-. cbn. rewrite map_length. apply (mapM_length _ _ _ M).
Qed.
Lemma mapM_hd {A B} (f : list A -> res (list B)) (l : list (list A)) l' : (forall r r', f r = Ok r' -> length r' = length r) -> mapM f l = Ok l' -> length (hd [] l') = length (hd [] l).
Proof.
  intro H. destruct l as [|r l]; cbn [mapM]; [intro E; injection E as <-; reflexivity|]. destruct (f r) eqn:F; [|discriminate]. cbn [bind]. destruct (mapM f l); [|discriminate]. cbn [bind]. intro E; injection E as <-. cbn [hd]. apply H. exact F.
Qed.
Lemma hd_map {A B} (f : A -> B) (l : list (list A)) : length (hd [] (map (map f) l)) = length (hd [] l).
Proof. destruct l; cbn; rewrite ?map_length; reflexivity. Qed.
Lemma mat_rows_hd m : length (hd [] (rows (EM m))) = match m with MK l => length (hd [] l) | MV l => length (hd [] l) | MM l => length (hd [] l) | MP l => length (hd [] l) end.
Proof. destruct m; cbn [rows]; apply hd_map. Qed.
Lemma concretize_matrix_hd l m : concretize_matrix l = Ok m -> length (hd [] (rows (EM m))) = length (hd [] l).
Proof.
  unfold concretize_matrix. destruct l as [|r0 l0] eqn:L; [discriminate|]. rewrite <- L. clear L. destruct (forallb _ l); [|discriminate]. cbn [check bind]. rewrite mat_rows_hd.
  assert (M : forall B (f : scalar -> res B) l', mapM (mapM f) l = Ok l' -> length (hd [] l') = length (hd [] l)) by (intros B f l' E; apply (mapM_hd _ _ _ (fun r r' => mapM_length f r r') E)).
  destruct (existsb is_p _); [intro E; injection E as <-; apply hd_map|].
  destruct (_ || _); [destruct (mapM (mapM to_mono) l) eqn:E1; [|discriminate]; intro E; injection E as <-; exact (M _ _ _ E1)|].
  destruct (forallb is_v _); [destruct (mapM (mapM to_var) l) eqn:E1; [|discriminate]; intro E; injection E as <-; exact (M _ _ _ E1)|].
  destruct (existsb is_k _); [|discriminate]. destruct (mapM (mapM to_k) l) eqn:E1; [|discriminate]; intro E; injection E as <-; exact (M _ _ _ E1).
Qed.
Lemma vec_dims_length v d : vec_dims v = Ok d -> fst d = length (rows (EV v)).
Proof. rewrite vec_rows_length. unfold vec_dims, vec_len. destruct v; cbn [bind vec_entries]; try (destruct (check _ _); [|discriminate]; cbn [bind]); intro E; injection E as <-; cbn [fst]; rewrite ?map_length; reflexivity. Qed.
Lemma mat_dims_hd m d : mat_dims m = Ok d -> snd d = length (hd [] (rows (EM m))).
Proof.
  rewrite mat_rows_hd. unfold mat_dims. destruct (check _ _); [|discriminate]. cbn [bind]. unfold rows_dims, index. destruct m as [l|l|l|l]; destruct l; cbn [nth_error bind hd]; try discriminate; intro E; injection E as <-; reflexivity.
Qed.
Lemma kf_slice l : kf (concretize_slice l).
Proof.
  unfold concretize_slice. apply kf_bind. intros v Ev. apply kf_bind. intros d Ed. destruct (Nat.eqb (fst d) 1) eqn:N.
  - apply kf_bind. intros s _ e E. injection E as <-. exact I.
  - intros e E. injection E as <-. cbn [flat]. apply Nat.eqb_neq in N. rewrite <- (vec_dims_length _ _ Ed). exact N.
Qed.
Lemma kd_rows l : kd (concretize_rows l).
Proof.
  unfold concretize_rows. apply kd_bind. intros m Em. apply kd_bind. intros d Ed. destruct (Nat.eqb (fst d) 1) eqn:N1, (Nat.eqb (snd d) 1) eqn:N2; cbn [andb].
  - apply kd_bind. intros s _ e E. injection E as <-. exact I.
  - intros e E. injection E as <-. cbn [fit]. apply Nat.eqb_neq in N2. rewrite <- (mat_dims_hd _ _ Ed). exact N2.
  - apply kd_bind. intros col Ec. apply kd_bind. intros v Ev e E. injection E as <-. cbn [fit]. rewrite (concretize_vector_length _ _ Ev), (mapM_length _ _ _ Ec), seq_length. apply Nat.eqb_neq. exact N1.
  - intros e E. injection E as <-. cbn [fit]. apply Nat.eqb_neq in N2. rewrite <- (mat_dims_hd _ _ Ed). exact N2.
Qed.
Lemma vec_simplified_length v v' : vec_simplified v = Ok v' -> length (rows (EV v')) = length (rows (EV v)).
Proof.
  rewrite (vec_rows_length v). unfold vec_simplified. destruct v as [l|l|l|l]; try (intro E; injection E as <-; apply vec_rows_length).
  all: destruct (check _ _); [|discriminate]; cbn [bind]; destruct (mapM _ _) eqn:M; [|discriminate]; cbn [bind]; intro E; rewrite (concretize_vector_length _ _ E); apply (mapM_length _ _ _ M).
Qed.
Lemma mat_simplified_hd m m' : mat_simplified m = Ok m' -> length (hd [] (rows (EM m'))) = length (hd [] (rows (EM m))).
Proof.
  unfold mat_simplified. destruct m as [l|l|l|l]; try (intro E; injection E as <-; reflexivity).
  all: destruct (check _ _); [|discriminate]; cbn [bind]; destruct (mapM _ _) eqn:M; [|discriminate]; cbn [bind]; intro E; rewrite (concretize_matrix_hd _ _ E); apply (mapM_hd _ _ _ (fun r r' => mapM_length _ r r') M).
Qed.
Lemma kd_simplify r : kd r -> kd (simplify_result r).
Proof.
  intros H. unfold simplify_result. apply kd_bind. intros e E. specialize (H e E). destruct e as [s|v|m]; cbn [expr_simplified]; apply kd_bind; intros x Ex e' E'; injection E' as <-; cbn [fit] in *; [exact I | rewrite (vec_simplified_length _ _ Ex); exact H | rewrite (mat_simplified_hd _ _ Ex); exact H].
Qed.
Lemma kf_simplify r : kf r -> kf (simplify_result r).
Proof.
  intros H. unfold simplify_result. apply kf_bind. intros e E. specialize (H e E). destruct e as [s|v|m]; cbn [expr_simplified]; apply kf_bind; intros x Ex e' E'; injection E' as <-; cbn [flat] in *; [exact I | rewrite (vec_simplified_length _ _ Ex); exact H | exact H].
Qed.
Lemma kf_plus_template v e : kf (vec_plus_template v e).
Proof. destruct e; cbn [vec_plus_template]; [apply kf_bind; intros l _; apply kf_slice | apply kf_bind; intros l _; apply kf_slice | apply kf_panic]. Qed.
Lemma kf_plus_expr v e : kf (vec_plus_expr v e).
Proof. unfold vec_plus_expr. apply kf_bind; intros _ _. apply kf_bind; intros _ _. apply kf_simplify, kf_plus_template. Qed.
Lemma kf_vec_plus v g : kf (vec_plus v g).
Proof.
  unfold vec_plus. apply kf_bind; intros _ _. apply kf_bind; intros _ _. destruct g as [f|z|l|l|l|l|e|]; try apply kf_panic.
  - destruct v; try apply kf_simplify, kf_plus_expr. destruct (Nat.eqb _ _); [apply kf_bind; intros k _ e E; injection E as <-; exact I | apply kf_bind; intros o _; apply kf_simplify, kf_plus_expr].
  - destruct v; try apply kf_panic; apply kf_simplify, kf_plus_expr.
  - destruct v; try apply kf_panic; apply kf_simplify, kf_plus_expr.
  - destruct v; try apply kf_panic; apply kf_simplify, kf_plus_expr.
  - apply kf_simplify, kf_plus_template.
Qed.
Lemma kf_expr_plus a b : match a with EM _ => False | _ => True end -> match b with EM _ => False | _ => True end -> kf (expr_plus a (GExpr b)).
Proof.
  intros Ha Hb. destruct a as [s|v|m]; [|apply kf_vec_plus|destruct Ha]. destruct b as [t|w|m]; [| |destruct Hb]; destruct s; cbn [expr_plus].
  - unfold k_plus_any. apply kf_bind; intros _ _. apply kf_ES.
  - unfold var_plus_any. apply kf_bind; intros _ _. apply kf_ES.
  - unfold mono_plus_any. apply kf_bind; intros _ _. apply kf_bind; intros _ _. apply kf_ES.
  - unfold poly_plus_any. apply kf_bind; intros _ _. apply kf_bind; intros _ _. apply kf_ES.
  - unfold k_plus_any. apply kf_bind; intros _ _. apply kf_vec_plus.
  - unfold var_plus_any. apply kf_bind; intros _ _. apply kf_simplify, kf_vec_plus.
  - unfold mono_plus_any. apply kf_bind; intros _ _. apply kf_bind; intros _ _. apply kf_panic.
  - unfold poly_plus_any. apply kf_bind; intros _ _. apply kf_bind; intros _ _. apply kf_bind; intros n _. destruct (Nat.eqb n 1); [apply kf_simplify, kf_ES | apply kf_bind; intros l _; apply kf_simplify, kf_slice].
Qed.
Lemma kf_mul_template v s : kf (vec_mul_template v s).
Proof. unfold vec_mul_template. apply kf_bind; intros l _. apply kf_slice. Qed.
Lemma kf_mul_scalar v s : kf (vec_mul_scalar v s).
Proof. unfold vec_mul_scalar. apply kf_bind; intros _ _. apply kf_bind; intros _ _. destruct v, s; try apply kf_panic; apply kf_simplify, kf_mul_template. Qed.
Lemma kf_k_vec_mul l r : kf (k_vec_mul_vec l r).
Proof. unfold k_vec_mul_vec. apply kf_bind; intros _ _. apply kf_bind; intros k _. apply kf_simplify, kf_mul_scalar. Qed.
Lemma kf_vec_mul v g : kf (vec_mul v g).
Proof.
  unfold vec_mul. apply kf_bind; intros _ _. apply kf_bind; intros _ _.
  destruct g as [f|z|l|l|l|l|[s|w|m]|]; destruct v; try apply kf_panic; try apply kf_mul_scalar; try apply kf_simplify, kf_mul_scalar; try apply kf_simplify, kf_k_vec_mul; try apply kf_simplify, kf_simplify, kf_k_vec_mul;
  try (destruct w; try apply kf_panic; try apply kf_k_vec_mul; apply kf_bind; intros ? _; apply kf_simplify, kf_mul_scalar).
Qed.
Lemma foldM_keep {A B} (P : A -> Prop) (f : A -> B -> res A) l : (forall a b a', P a -> f a b = Ok a' -> P a') -> forall a a', P a -> foldM f a l = Ok a' -> P a'.
Proof.
  intros H. induction l as [|b l IH]; intros a a' Pa; cbn [foldM]; [intro E; injection E as <-; exact Pa|]. destruct (f a b) eqn:F; [|discriminate]. cbn [bind]. apply IH. exact (H _ _ _ Pa F).
Qed.
Lemma kd_template m r : kd (mat_mul_template m r).
Proof. unfold mat_mul_template. apply kd_bind; intros _ _. apply kd_bind; intros _ _. apply kd_bind; intros dl _. apply kd_bind; intros dr _. apply kd_bind; intros _ _. apply kd_bind; intros l _. apply kd_rows. Qed.
Lemma flat_nm e : flat e -> match e with EM _ => False | _ => True end. Proof. destruct e; cbn; tauto. Qed.

Lemma kd_dense l b : kd (k_mat_mul_dense l b).
Proof.
  unfold k_mat_mul_dense. apply kd_bind; intros a _. apply kd_bind; intros y _.
  assert (G : kd (d <- rows_dims y ;; if Nat.eqb (snd d) 1 then c <- mapM (fun r => index r 0) y ;; Ok (EV (VK c)) else Ok (EM (MK y))) \/ exists k, y = [[k]]).
  { destruct (Nat.eqb (length y) 1 && Nat.eqb (length (hd [] y)) 1) eqn:S.
    - right. apply andb_prop in S as [S1 S2]. apply Nat.eqb_eq in S1, S2. destruct y as [|[|k [|]] [|]]; try discriminate. exists k. reflexivity.
    - left. apply kd_bind; intros d Ed. unfold rows_dims in Ed. destruct y as [|r0 y']; [discriminate|]. cbn in Ed. injection Ed as <-. cbn [snd hd] in *. destruct (Nat.eqb (length r0) 1) eqn:N.
      + apply kd_bind; intros c Ec e E. injection E as <-. cbn [fit]. rewrite vec_rows_length. cbn [vec_entries]. rewrite map_length, (mapM_length _ _ _ Ec). rewrite andb_true_r in S. apply Nat.eqb_neq. exact S.
      + intros e E. injection E as <-. cbn [fit]. rewrite mat_rows_hd. cbn [hd]. apply Nat.eqb_neq. exact N. }
  destruct G as [G|[k ->]]; [|intros e E; injection E as <-; exact I]. destruct y as [|[|k [|]] [|]]; try exact G. intros e E; injection E as <-; exact I.
Qed.
(** products of a matrix with anything but a number *)
Definition number (g : goval) : bool := match g with GFloat _ | GInt _ | GExpr (ES (SK _)) => true | _ => false end.
Lemma kd_mat_mul m g : number g = false -> kd (mat_mul m g).
Proof.
  intro Hg. destruct m as [l|l|l|l]; cbn [mat_mul].
  - unfold k_mat_mul. apply kd_bind; intros _ _. destruct g as [f|z|x|x|b|b|[[k|x|x|p]|[x|xs|x|x]|r]|]; try discriminate; try apply kd_panic.
    + apply kd_simplify. unfold k_mat_mul_vec. apply kd_bind; intros a _. apply kd_bind; intros y _. destruct y as [|k [|k2 y]]; intros e E; injection E as <-; cbn; try exact I; try lia; rewrite ?map_length; try (destruct y; cbn; lia). 
    + apply kd_simplify, kd_simplify, kd_dense.
    + apply kd_simplify, kd_dense.
    + apply kd_simplify. unfold k_mat_mul_poly. apply kd_bind; intros d _. apply kd_bind; intros rows _. apply kd_rows.
    + apply kd_simplify. unfold k_mat_mul_vars. apply kd_bind; intros d Ed. destruct (Nat.eqb (fst d) 1) eqn:N; [apply kf_kd, kf_ES|]. apply kd_bind; intros z Ez e E. apply flat_fit.
      refine (foldM_keep flat _ _ _ _ _ _ E).
      * clear. intros a c a' Fa. destruct (k_to_dense l); [|discriminate]. cbn [bind]. destruct (mapM _ _); [|discriminate]. cbn [bind]. destruct (index _ _); [|discriminate]. cbn [bind]. match goal with |- context [simplify_result (simplify_result ?r)] => destruct (simplify_result (simplify_result r)) as [t|] eqn:T end; [|discriminate]. cbn [bind].
        apply kf_expr_plus; [apply flat_nm; exact Fa|]. apply flat_nm. revert T. apply (kf_simplify _ (kf_simplify _ (kf_bind _ _ (fun _ _ => kf_bind _ _ (fun _ _ => kf_simplify _ (kf_mul_template _ _)))))).
      * cbn [flat rows]. unfold zeros_vector in Ez. destruct (fst d) as [|n] eqn:D; [discriminate|]. injection Ez as <-. cbn. rewrite !map_length, repeat_length. apply Nat.eqb_neq in N. exact N.
    + apply kd_simplify, kd_template.
  - unfold var_mat_mul. apply kd_bind; intros _ _. apply kd_bind; intros _ _. 
    assert (KV : forall ks, kd (var_mat_mul_kvec l ks)) by (intro ks; unfold var_mat_mul_kvec; apply kd_bind; intros d _; apply kd_bind; intros p _; apply kf_kd, kf_slice).
    assert (KC : forall ks, kd (var_mat_mul_kvec_call l ks)) by (intro ks; unfold var_mat_mul_kvec_call; apply kd_bind; intros _ _; apply kd_bind; intros _ _; apply kd_simplify, KV).
    assert (KM : forall r, kd (var_mat_mul_mat l r)) by (intro r; unfold var_mat_mul_mat; apply kd_bind; intros _ _; apply kd_bind; intros _ _; apply kd_simplify, kd_template).
    destruct g as [f|z|x|x|b|b|[[k|x|x|p]|[x|xs|x|x]|r]|]; try discriminate; try apply kd_panic; apply kd_simplify; try apply KV; try apply KC; try apply KM; try apply kd_template.
    unfold var_mat_mul_vars. apply kd_bind; intros d _ e E. apply flat_fit. refine (foldM_keep flat _ _ _ _ _ _ E); [|exact I].
    clear. intros a c a' Fa. destruct (mapM _ _); [|discriminate]. cbn [bind]. destruct (index _ _); [|discriminate]. cbn [bind]. match goal with |- context [vec_mul ?v ?g] => destruct (vec_mul v g) as [t|] eqn:T end; [|discriminate]. cbn [bind].
    apply kf_expr_plus; [apply flat_nm; exact Fa|]. apply flat_nm. exact (kf_vec_mul _ _ _ T).
  - unfold mono_mat_mul. apply kd_bind; intros _ _. apply kd_bind; intros _ _. destruct g as [f|z|x|x|b|b|[[k|x|x|p]|[x|xs|x|x]|r]|]; try discriminate; try apply kd_panic; [|apply kd_template].
    unfold mono_mat_mul_vars. destruct (Nat.eqb (length l) 1) eqn:N; [apply kd_bind; intros r _; apply kd_bind; intros s _; apply kf_kd, kf_ES|]. apply kd_bind; intros p Ep. unfold as_EV. apply kd_bind; intros v Ev e E. injection E as <-. cbn [fit]. rewrite (concretize_vector_length _ _ Ev), (mapM_length _ _ _ Ep). apply Nat.eqb_neq. exact N.
  - unfold poly_mat_mul. apply kd_bind; intros _ _. apply kd_bind; intros _ _. destruct g as [f|z|x|x|b|b|[[k|x|x|p]|[x|xs|x|x]|r]|]; try discriminate; try apply kd_panic; [|apply kd_template].
    destruct (Nat.eqb (length l) 1); [apply kd_bind; intros r _; apply kd_simplify, kf_kd, kf_ES | apply kd_bind; intros p _; apply kf_kd, kf_slice].
Qed.

Lemma fit_natural d e : valid_array d e -> fit e -> natural d e.
Proof.
  intros V F. pose proof V as (_ & _ & [L W] & _). destruct e as [s|v|m]; cbn [fit natural] in *.
  - apply (scalar_dims _ _ V).
  - pose proof (valid_vec_cols _ _ V) as E. split; [rewrite E; reflexivity|]. rewrite <- L. exact F.
  - destruct V as (D & _). destruct (rows (EM m)) as [|r0 R]; [cbn in L; lia|]. cbn [hd] in F. inversion W; subst. congruence.
Qed.
Lemma natural_wide d e : valid_array d e -> snd d <> 1 -> natural d e.
Proof.
  intros V N. destruct e as [s|v|m]; cbn [natural]; [apply (scalar_dims _ _ V)| |exact N]. exfalso. apply N. rewrite (valid_vec_cols _ _ V). reflexivity.
Qed.

(** ** Multiply *)
Lemma number_means g b : means g = Some b -> number g = true -> is_scalar b.
Proof. destruct g as [f|z|x|x|y|y|[[k|x|x|p]|w|m]|]; cbn; intro E; try discriminate; intros _; injection E as <-; exact I. Qed.
Theorem multiply_kind a b g da db d e : valid_array da a -> valid_array db b -> means g = Some b -> product_dims a b da db d -> (is_matrix a -> is_scalar b -> snd da <> 1) -> expr_mul a g = Ok e -> natural d e.
Proof.
  intros Va Vb Hg HD HN E. pose proof (array_multiply_shape _ _ _ _ _ _ _ Va Vb Hg HD E) as Ve.
  destruct a as [s|v|m].
  - apply fit_natural; [exact Ve|]. revert e E Ve. intros e E _. revert e E. change (kd (expr_mul (ES s) g)). destruct s; cbn [expr_mul].
    + unfold k_mul_any. apply kd_bind; intros _ _. destruct g as [f|z|x|x|y|y|[t|w|m]|]; try apply kd_panic; apply kf_kd, kf_ES.
    + assert (KV : forall x w, kf (var_mul_vec x w)) by (intros x w; unfold var_mul_vec; apply kf_bind; intros _ _; apply kf_bind; intros _ _; apply kf_simplify, kf_mul_template).
      unfold var_mul_any. apply kd_bind; intros _ _. apply kd_bind; intros _ _. apply kf_kd. destruct g as [f|z|x|x|y|y|[t|w|m]|]; try apply kf_panic; try apply kf_ES; [apply kf_simplify, KV | apply kf_simplify, kf_simplify, KV | apply kf_simplify, kf_mul_template].
    + unfold mono_mul_any. apply kd_bind; intros _ _. apply kd_bind; intros _ _. apply kf_kd. destruct g as [f|z|x|x|y|y|[t|w|m']|]; try apply kf_panic; apply kf_ES.
    + unfold poly_mul_any. apply kd_bind; intros _ _. apply kd_bind; intros _ _. destruct g as [f|z|x|x|y|y|[t|w|m]|]; try apply kd_panic; try apply kf_kd, kf_ES; [apply kf_kd, kf_simplify, kf_vec_mul | apply kd_simplify, kd_mat_mul; reflexivity].
  - apply fit_natural; [exact Ve|]. apply flat_fit. exact (kf_vec_mul _ _ _ E).
  - destruct (number g) eqn:Ng.
    + pose proof (number_means _ _ Hg Ng) as Sb. destruct HD as [[[] _]|[[_ ->]|[_ [N _]]]]; [|contradiction]. apply natural_wide; [exact Ve|]. apply HN; [exact I | exact Sb].
    + apply fit_natural; [exact Ve|]. exact (kd_mat_mul _ _ Ng _ E).
Qed.

(** ** Plus and Minus *)
Theorem plus_kind a b g da db d e : valid_array da a -> valid_array db b -> means g = Some b -> broadcast a b da db d -> (is_matrix a -> snd da <> 1) -> (is_matrix b -> snd db <> 1) -> expr_plus a g = Ok e -> natural d e.
Proof.
  intros Va Vb Hg HD Ha Hb E. pose proof (array_plus_shape _ _ _ _ _ _ _ Va Vb Hg HD E) as Ve.
  assert (WA : is_matrix a -> natural d e).
  { intro Ma. specialize (Ha Ma). apply natural_wide; [exact Ve|]. destruct HD as [[_ ->]|[[S _]|[_ ->]]]; try exact Ha. destruct a; destruct Ma; destruct S. }
  assert (WB : is_matrix b -> natural d e).
  { intro Mb. specialize (Hb Mb). apply natural_wide; [exact Ve|]. destruct HD as [[<- ->]|[[_ ->]|[S _]]]; try exact Hb. destruct b; destruct Mb; destruct S. }
  destruct a as [s|v|m]; [| |apply WA; exact I].
  - destruct b as [t|w|m]; [| |apply WB; exact I].
    + apply fit_natural; [exact Ve|]. revert e E Ve WA WB. intros e E _ _ _. revert e E. change (kd (expr_plus (ES s) g)). apply kf_kd. destruct g as [f|z|x|x|y|y|e0|]; try discriminate; [| |injection Hg as ->; apply kf_expr_plus; exact I]; destruct s; cbn [expr_plus]; unfold k_plus_any, var_plus_any, mono_plus_any, poly_plus_any; repeat (apply kf_bind; intros _ _); try apply kf_ES; apply kf_panic.
    + apply fit_natural; [exact Ve|]. apply flat_fit. revert e E Ve WA WB. intros e E _ _ _. revert e E. change (kf (expr_plus (ES s) g)). destruct g as [f|z|x|x|y|y|e0|]; try discriminate; [| |injection Hg as ->; apply kf_expr_plus; exact I]; destruct s; cbn [expr_plus]; unfold k_plus_any, var_plus_any, mono_plus_any, poly_plus_any; repeat first [apply kf_panic | apply kf_vec_plus | apply kf_simplify | apply kf_bind; intros _ _].
  - apply fit_natural; [exact Ve|]. apply flat_fit. exact (kf_vec_plus _ _ _ E).
Qed.
Lemma means_as_expr g b r : means g = Some b -> as_expr g = Some r -> r = b.
Proof. destruct g; cbn; congruence. Qed.
Theorem minus_kind a b g da db d e : valid_array da a -> valid_array db b -> means g = Some b -> broadcast a b da db d -> (is_matrix a -> snd da <> 1) -> (is_matrix b -> snd db <> 1) -> expr_minus a g = Ok e -> natural d e.
Proof.
  intros Va Vb Hg HD Ha Hb E. unfold expr_minus in E. destruct (check _ _); [|discriminate]. cbn [bind] in E. destruct (as_expr g) as [r|] eqn:R; [|discriminate]. rewrite (means_as_expr _ _ _ Hg R) in E. clear r R Hg.
  assert (E' : minus a b = Ok e). { destruct (match a with ES (SK _) | ES (SP _) => _ | _ => _ end); [|discriminate]. cbn [bind] in E. destruct a as [s|[]|m]; try exact E. destruct b; [exact E|exact E|discriminate]. }
  clear E. unfold minus in E'. destruct (expr_mul b (GFloat nm1)) as [t|] eqn:T; [|discriminate]. cbn [bind] in E'.
  assert (VK1 : valid_array (1, 1) (ES (SK nm1))).
  { split; [cbn; lia|]. split; [cbn; lia|]. split; [split; [reflexivity | repeat constructor]|]. intros i j Hi Hj. cbn in Hi, Hj. destruct i; [|lia]. destruct j; [|lia]. exact I. }
  assert (PD : product_dims b (ES (SK nm1)) db (1, 1) db) by (right; left; split; [exact I | reflexivity]).
  pose proof (array_multiply_shape _ _ (GFloat nm1) _ _ _ _ Vb VK1 eq_refl PD T) as Vt.
  assert (Nt : natural db t) by (apply (multiply_kind _ _ (GFloat nm1) _ _ _ _ Vb VK1 eq_refl PD); [intros M _; exact (Hb M) | exact T]).
  apply (plus_kind a t (GExpr t) da db d e Va Vt eq_refl); [|exact Ha|intro M; destruct t; [destruct M | destruct M | exact Nt]|exact E'].
  destruct HD as [H|[H|[S ->]]]; [left; exact H | right; left; exact H | right; right]. split; [|reflexivity].
  destruct b as [s|v|m]; try destruct S. pose proof (scalar_dims _ _ Vb) as D. rewrite D in Nt. destruct t; [exact I | destruct Nt as [_ N]; exfalso; apply N; reflexivity | exfalso; apply Nt; reflexivity].
Qed.

(** ** Concretize, stacking, transposing *)
Theorem slice_kind l e : l <> [] -> Forall valid l -> concretize_slice l = Ok e -> natural (length l, 1) e.
Proof.
  intros N V E. destruct (concretize_slice_spec l N V) as (e' & E' & Ve & _). rewrite E in E'. injection E' as <-. apply fit_natural; [exact Ve|]. apply flat_fit. exact (kf_slice _ _ E).
Qed.
Theorem rows_kind d R e : 1 <= fst d -> 1 <= snd d -> length R = fst d -> Forall (fun r => length r = snd d) R -> Forall (Forall valid) R -> concretize_rows R = Ok e -> natural d e.
Proof.
  intros D1 D2 L W V E. destruct (concretize_rows_spec d R D1 D2 L W V) as (e' & E' & Ve & _). rewrite E in E'. injection E' as <-. apply fit_natural; [exact Ve|]. exact (kd_rows _ _ E).
Qed.
Theorem hstack_kind n ds es e : es <> [] -> Forall2 valid_array ds es -> Forall (fun d => fst d = n) ds -> hstack es = Ok e -> natural (n, list_sum (map snd ds)) e.
Proof.
  intros N V D E. destruct (hstack_spec n ds es N V D) as (e' & E' & Ve & _). rewrite E in E'. injection E' as <-. apply fit_natural; [exact Ve|]. revert e E Ve. intros e E _. revert e E. change (kd (hstack es)). unfold hstack. apply kd_bind; intros _ _. apply kd_bind; intros ds' _. apply kd_bind; intros _ _. apply kd_bind; intros d0 _. apply kd_bind; intros R _. apply kd_rows.
Qed.
Theorem vstack_kind c ds es e : es <> [] -> Forall2 valid_array ds es -> Forall (fun d => snd d = c) ds -> vstack es = Ok e -> natural (list_sum (map fst ds), c) e.
Proof.
  intros N V D E. destruct (vstack_spec c ds es N V D) as (e' & E' & Ve & _). rewrite E in E'. injection E' as <-. apply fit_natural; [exact Ve|]. revert e E Ve. intros e E _. revert e E. change (kd (vstack es)). unfold vstack. apply kd_bind; intros _ _. apply kd_bind; intros ds' _. apply kd_bind; intros _ _. apply kd_bind; intros R _. apply kd_rows.
Qed.
Theorem transpose_kind d e t : valid_array d e -> natural d e -> expr_transpose e = Ok t -> (natural (snd d, fst d) t <-> is_scalar e \/ fst d <> 1).
Proof.
  intros V N E. destruct e as [s|v|m]; cbn [expr_transpose] in E.
  - destruct (scalar_transpose s); [|discriminate]. injection E as <-. cbn [natural] in *. split; [left; exact I | intros _; rewrite N; reflexivity].
  - destruct (vec_transpose v); [|discriminate]. injection E as <-. cbn [natural is_scalar snd fst] in *. tauto.
  - destruct (mat_transpose m); [|discriminate]. injection E as <-. cbn [natural is_scalar snd fst] in *. tauto.
Qed.
End KindProofs.
