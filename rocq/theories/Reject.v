(** * Methods reject expressions that fail Check *)

From Coq Require Import ZArith NArith Bool List Lia.
From Verif Require Import Num Syntax ModelScalar ModelShape SpecReject.
Import ListNotations.

Section Reject.
Context {NN : Num}.

Ltac rej := repeat match goal with |- bind (bind (check ?b _) _) _ = _ => destruct b; cbn [check bind]; [|reflexivity] | |- bind (check ?b _) _ = _ => destruct b; cbn [check bind]; [|reflexivity] end.

Lemma faulty_map_check sm : faulty_map sm <-> check_submap sm = false.
Proof.
  unfold check_submap. split.
  - intros (x & v & Hi & H). destruct (forallb _ sm) eqn:E; [|reflexivity]. rewrite forallb_forall in E. specialize (E (x, v) Hi). cbn [fst snd] in E. apply andb_true_iff in E as [E1 E2].
    destruct H as [H|H]; [congruence|]. destruct v; congruence.
  - induction sm as [|[x v] sm IH]; cbn [forallb fst snd]; intro E; [discriminate E|]. apply andb_false_iff in E as [E|E].
    + exists x, v. split; [left; reflexivity|]. apply andb_false_iff in E as [E|E]; [left; exact E|]. right. destruct v; [exact E | exact I | exact I].
    + destruct (IH E) as (y & w & Hi & H). exists y, w. split; [right; exact Hi | exact H].
Qed.

Theorem reject_substitute (e : expr) (x : var) (s : scalar) : expr_check e = false -> expr_substitute e x s = Panic PCheck.
Proof.
  destruct e as [[k|v|m|p]|[l|l|l|l]|[l|l|l|l]]; cbn [expr_check scalar_check vec_check mat_check]; intro H; try discriminate H; cbn [expr_substitute scalar_substitute vec_substitute mat_substitute];
    unfold var_substitute, mono_substitute, poly_substitute; cbn [vec_check mat_check]; rewrite H; reflexivity.
Qed.
Theorem reject_substitute_map (e : expr) (sm : submap) : expr_check e = false -> expr_substitute_map e sm = Panic PCheck.
Proof.
  destruct e as [[k|v|m|p]|[l|l|l|l]|[l|l|l|l]]; cbn [expr_check scalar_check vec_check mat_check]; intro H; try discriminate H; cbn [expr_substitute_map scalar_substitute_map vec_substitute_map mat_substitute_map];
    unfold var_substitute_map, mono_substitute_map, poly_substitute_map; cbn [vec_check mat_check]; rewrite H; reflexivity.
Qed.
Theorem reject_argument (e : expr) (x : var) (s : scalar) : of_constants e = false -> var_check x = false \/ scalar_check s = false -> expr_substitute e x s = Panic PCheck.
Proof.
  destruct e as [[k|v|m|p]|[l|l|l|l]|[l|l|l|l]]; cbn [of_constants]; intros H HA; try discriminate H; cbn [expr_substitute scalar_substitute vec_substitute mat_substitute];
    unfold var_substitute, mono_substitute, poly_substitute; rej; destruct HA; congruence.
Qed.
Theorem reject_map (e : expr) (sm : submap) : of_constants e = false -> faulty_map sm -> expr_substitute_map e sm = Panic PCheck.
Proof.
  intros H HB. apply faulty_map_check in HB. revert H. destruct e as [[k|v|m|p]|[l|l|l|l]|[l|l|l|l]]; cbn [of_constants]; intro H; try discriminate H; cbn [expr_substitute_map scalar_substitute_map vec_substitute_map mat_substitute_map];
    unfold var_substitute_map, mono_substitute_map, poly_substitute_map; rej; congruence.
Qed.
Theorem constants_ignore (e : expr) (x : var) (s : scalar) (sm : submap) : of_constants e = true -> expr_substitute e x s = Ok e /\ expr_substitute_map e sm = Ok e.
Proof. destruct e as [[k|v|m|p]|[l|l|l|l]|[l|l|l|l]]; cbn [of_constants]; intro H; try discriminate H; split; reflexivity. Qed.

Theorem reject_derivative (s : scalar) (v : var) : scalar_check s = false \/ (forall k, s <> SK k) /\ var_check v = false -> scalar_derivative s v = Panic PCheck.
Proof.
  destruct s as [k|w|m|p]; cbn [scalar_check scalar_derivative].
  - intros [H|[H _]]; [discriminate H | exfalso; apply (H k); reflexivity].
  - unfold var_derivative. intros [H|[_ H]]; rewrite H; [reflexivity|]. destruct (var_check w); reflexivity.
  - unfold mono_derivative. intros [H|[_ H]]; rewrite H; [reflexivity|]. destruct (mono_check m); reflexivity.
  - unfold poly_derivative. intros [H|[_ H]]; rewrite H; [reflexivity|]. destruct (poly_check p); reflexivity.
Qed.
Theorem reject_at (i j : Z) : (forall s, scalar_check s = false -> scalar_at s i j = Panic PCheck) /\ (forall v, vec_check v = false -> vec_at v i j = Panic PCheck) /\ (forall m, mat_check m = false -> mat_at m i j = Panic PCheck).
Proof.
  split; [intros s H; unfold scalar_at; rewrite H; reflexivity|]. split.
  - intros [l|l|l|l] H; [discriminate H| | |]; unfold vec_at; rewrite H; reflexivity.
  - intros [l|l|l|l] H; [discriminate H| | |]; cbn [mat_at]; rewrite H; reflexivity.
Qed.
Theorem reject_linear_coeff (w : list (list var)) : (forall s, scalar_check s = false -> scalar_linear_coeff s w = Panic PCheck) /\ (forall v, vec_check v = false -> vec_linear_coeff v w = Panic PCheck).
Proof.
  split; [|intros v H; unfold vec_linear_coeff; rewrite H; reflexivity].
  intros [k|v|m|p] H; [discriminate H| | |]; cbn [scalar_check] in H; cbn [scalar_linear_coeff]; unfold var_linear_coeff, mono_linear_coeff, poly_linear_coeff; rewrite H; reflexivity.
Qed.

Theorem reject_transpose (e : expr) : expr_check e = false -> (forall v, e <> ES (SV v)) -> expr_transpose e = Panic PCheck.
Proof.
  destruct e as [[k|v|m|p]|[l|l|l|l]|[l|l|l|l]]; cbn [expr_check]; intros H HV; try discriminate H; [exfalso; apply (HV v); reflexivity | | | | | | | |];
    cbn [expr_transpose scalar_transpose vec_transpose mat_transpose]; unfold mat_dims; rewrite ?H; cbn [scalar_check] in H; rewrite ?H; reflexivity.
Qed.
Theorem reject_simplified (e : expr) : expr_check e = false -> of_variables e = false -> expr_simplified e = Panic PCheck.
Proof.
  destruct e as [[k|v|m|p]|[l|l|l|l]|[l|l|l|l]]; cbn [expr_check of_variables]; intros H HV; try discriminate H; try discriminate HV;
    cbn [expr_simplified scalar_simplified vec_simplified mat_simplified]; unfold mono_simplified, poly_simplified, poly_simplify; rewrite ?H; cbn [scalar_check] in H; rewrite ?H; reflexivity.
Qed.
Theorem reject_degree (e : expr) : expr_check e = false -> of_variables e = false -> expr_degree e = Panic PCheck /\ expr_is_linear e = Panic PCheck.
Proof.
  intros H HV. assert (D : expr_degree e = Panic PCheck).
  { destruct e as [[k|v|m|p]|[l|l|l|l]|[l|l|l|l]]; cbn [expr_check of_variables] in H, HV; try discriminate H; try discriminate HV;
      cbn [expr_degree scalar_degree vec_degree mat_degree]; unfold mono_degree, poly_degree; rewrite ?H; cbn [scalar_check] in H; rewrite ?H; reflexivity. }
  split; [exact D|]. unfold expr_is_linear. rewrite D. reflexivity.
Qed.
Theorem variables_unchecked (e : expr) : of_variables e = true -> expr_simplified e = Ok e /\ expr_degree e = Ok 1%Z.
Proof. destruct e as [[k|v|m|p]|[l|l|l|l]|[l|l|l|l]]; cbn [of_variables]; intro H; try discriminate H; split; reflexivity. Qed.
Theorem reject_constant : (forall p, poly_check p = false -> scalar_constant (SP p) = Panic PCheck) /\ (forall v, vec_check v = false -> of_variables (EV v) = false -> vec_constant v = Panic PCheck)
  /\ (forall m, mat_check m = false -> mat_constant m = Panic PCheck).
Proof.
  split; [intros p H; cbn [scalar_constant]; unfold poly_constant; rewrite H; reflexivity|]. split.
  - intros [l|l|l|l] H HV; try discriminate H; try discriminate HV; cbn [vec_constant]; rewrite H; reflexivity.
  - intros [l|l|l|l] H; try discriminate H; cbn [mat_constant]; unfold mat_dims; rewrite H; reflexivity.
Qed.
Theorem reject_variables : (forall l, vec_check (VM l) = false -> vec_variables (VM l) = Panic PCheck) /\ (forall m, mat_check m = false -> mat_variables m = Panic PCheck).
Proof. split; [intros l H; cbn [vec_variables]; rewrite H; reflexivity|]. intros [l|l|l|l] H; try discriminate H; cbn [mat_variables]; rewrite H; reflexivity. Qed.
(** ** Tests and searches *)
Theorem reject_monomial_tests (m : Monomial) : mono_check m = false ->
  mono_is_constant m = Panic PCheck /\ mono_is_zero m = Panic PCheck /\ mono_to_variable m = Panic PCheck
  /\ (forall v, mono_is_degree_one_in m v = Panic PCheck /\ mono_is_variable m v = Panic PCheck) /\ (forall m', mono_matches_form m m' = Panic PCheck /\ mono_matches_form m' m = Panic PCheck)
  /\ (forall p, poly_monomial_index p m = Panic PCheck).
Proof.
  intro H. unfold mono_is_constant, mono_is_zero, mono_to_variable, mono_is_variable, mono_is_degree_one_in, mono_matches_form, poly_monomial_index. rewrite H. cbn [check bind].
  repeat split; [destruct (mono_check m'); reflexivity|]. intro p. destruct (poly_check p); reflexivity.
Qed.
Theorem reject_variable_tests (v : var) : var_check v = false ->
  (forall m, mono_is_degree_one_in m v = Panic PCheck /\ mono_is_variable m v = Panic PCheck) /\ (forall p, poly_variable_index p v = Panic PCheck).
Proof.
  intro H. unfold mono_is_variable, mono_is_degree_one_in, poly_variable_index. rewrite H. cbn [check bind]. repeat split; [| |intro p; destruct (poly_check p); reflexivity]; destruct (mono_check m); reflexivity.
Qed.
Theorem reject_polynomial_tests (p : Polynomial) : poly_check p = false ->
  poly_is_constant p = Panic PCheck /\ poly_constant_index p = Panic PCheck /\ (forall v, poly_variable_index p v = Panic PCheck) /\ (forall m, poly_monomial_index p m = Panic PCheck).
Proof. intro H. unfold poly_is_constant, poly_constant_index, poly_variable_index, poly_monomial_index. rewrite H. cbn [check bind]. repeat split. Qed.
Theorem reject_vector_access (v : vector) : vec_check v = false -> of_variables (EV v) = false -> (forall i, vec_at_vec v i = Panic PCheck) /\ (forall l, v = VP l -> vec_len v = Panic PCheck).
Proof.
  intros H HV. split.
  - intro i. destruct v as [l|l|l|l]; try discriminate H; try discriminate HV; cbn [vec_at_vec]; rewrite H; reflexivity.
  - intros l ->. cbn [vec_len]. rewrite H. reflexivity.
Qed.
End Reject.
