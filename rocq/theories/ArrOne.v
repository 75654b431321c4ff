(** * Results with one row and one column are scalars *)

From Coq Require Import ZArith NArith Bool List Lia.
From Verif Require Import Num Syntax ModelScalar Spec Base ScalarValid Eval ScalarOps ScalarMore Unamb ModelShape ModelArith SpecArr Arr ArrPlus ArrMul ArrMulMat ArrMulAll ArrMulTop ArrTop ArrPow ArrShape.
Import ListNotations.
Local Open Scope num_scope.

Section ArrOne.
Context {NN : Num}.

Lemma simplify_scalar x e : simplify_result x = Ok e -> (forall e0, x = Ok e0 -> is_scalar e0) -> is_scalar e.
Proof.
  unfold simplify_result. destruct x as [e0|]; [|discriminate]. cbn [bind]. intros E H. specialize (H e0 eq_refl). pose proof (simplified_kind e0 e E) as K.
  destruct e0; try destruct H. exact K.
Qed.

Lemma as_ES_scalar x e : as_ES x = Ok e -> is_scalar e.
Proof. unfold as_ES. destruct x; [|discriminate]. intros [= <-]. exact I. Qed.

Lemma Forall2_len {A B} (R : A -> B -> Prop) l1 l2 : Forall2 R l1 l2 -> length l1 = length l2.
Proof. intro H. induction H; cbn; congruence. Qed.

Lemma concretize_vector_len l v : concretize_vector l = Ok v -> l <> [] -> length (vec_entries v) = length l.
Proof.
  intros E Hl. destruct (concretize_vector_spec l Hl) as (v' & E' & F & _). rewrite E in E'. injection E' as <-. rewrite rows_EV in F.
  apply Forall2_len in F. rewrite !map_length in F. symmetry. exact F.
Qed.

(** ** Multiply *)

(** a scalar by a scalar *)
Lemma mul_scalars s t e : expr_mul (ES s) (GExpr (ES t)) = Ok e -> is_scalar e.
Proof.
  destruct s as [k|v|m|p]; cbn [expr_mul]; unfold k_mul_any, var_mul_any, mono_mul_any, poly_mul_any; cbn [as_expr];
    repeat match goal with |- (_ <- ?c ;; _) = _ -> _ => destruct c; [|discriminate]; cbn [bind] end; apply as_ES_scalar.
Qed.

Lemma plus_scalars s t e : expr_plus (ES s) (GExpr (ES t)) = Ok e -> is_scalar e.
Proof.
  destruct s as [k|v|m|p]; cbn [expr_plus]; unfold k_plus_any, var_plus_any, mono_plus_any, poly_plus_any; cbn [as_expr];
    repeat match goal with |- (_ <- ?c ;; _) = _ -> _ => destruct c; [|discriminate]; cbn [bind] end; apply as_ES_scalar.
Qed.

Lemma minus_scalars s t e : expr_minus (ES s) (GExpr (ES t)) = Ok e -> is_scalar e.
Proof.
  unfold expr_minus. cbn [as_expr]. repeat match goal with |- (_ <- ?c ;; _) = _ -> _ => destruct c eqn:?; [|discriminate]; cbn [bind] end.
  unfold minus. destruct (expr_mul (ES t) (GFloat nm1)) as [u|] eqn:E; [|discriminate]. cbn [bind]. pose proof (mul_float_scalar t nm1 u E) as U.
  destruct u as [u| |]; try destruct U. apply plus_scalars.
Qed.

Lemma concretize_slice_one s e : concretize_slice [s] = Ok e -> is_scalar e.
Proof.
  unfold concretize_slice. destruct (concretize_vector [s]) as [v|] eqn:E; [|discriminate]. cbn [bind].
  assert (L : length (vec_entries v) = 1%nat) by (rewrite (concretize_vector_len _ _ E) by discriminate; reflexivity).
  destruct (vec_dims v) as [d|] eqn:D; [|discriminate]. cbn [bind].
  assert (fst d = 1%nat) as ->.
  { destruct v as [l|l|l|l]; cbn [vec_entries] in L; rewrite map_length in L; unfold vec_dims, vec_len in D; cbn [bind] in D;
      repeat match type of D with context [check ?b ?p] => destruct (check b p); cbn [bind] in D; [|discriminate D] end; injection D as <-; exact L. }
  cbn [Nat.eqb]. destruct (vec_at v 0 0); [|discriminate]. intros [= <-]. exact I.
Qed.

Lemma concretize_rows_one s e : concretize_rows [[s]] = Ok e -> is_scalar e.
Proof.
  unfold concretize_rows. destruct (concretize_matrix [[s]]) as [m|] eqn:E; [|discriminate]. cbn [bind].
  assert (R : exists a, rows (EM m) = [[a]]).
  { destruct (concretize_matrix_spec [[s]] 1) as (m' & E' & F & _); [discriminate | apply le_n | repeat constructor|]. rewrite E in E'. injection E' as <-.
    inversion F as [|? ? ? ? F1 F2 E1 E2]; subst. inversion F2; subst. inversion F1 as [|? ? ? ? F3 F4]; subst. inversion F4; subst. eauto. }
  destruct R as (a & R). destruct (mat_dims m) as [d|] eqn:D; [|discriminate]. cbn [bind].
  assert (d = (1, 1)%nat) as ->.
  { unfold mat_dims in D. destruct (check (mat_check m) PCheck); [|discriminate]. cbn [bind] in D.
    destruct m as [l|l|l|l]; cbn [rows] in R; (destruct l as [|[|? [|]] [|]]; try discriminate R); injection D as <-; reflexivity. }
  cbn [fst snd Nat.eqb andb]. destruct (mat_get m 0 0); [|discriminate]. intros [= <-]. exact I.
Qed.

Lemma mapM_one {A B} (f : A -> res B) a l : mapM f [a] = Ok l -> exists b, l = [b] /\ f a = Ok b.
Proof. cbn [mapM]. destruct (f a) as [b|]; [|discriminate]. cbn [bind]. intros [= <-]. exists b. auto. Qed.

Lemma mat_mul_template_one m r e n : mat_dims m = Ok (1, n)%nat -> mat_dims r = Ok (n, 1)%nat -> mat_mul_template m r = Ok e -> is_scalar e.
Proof.
  intros Dm Dr. unfold mat_mul_template. repeat (match goal with |- (_ <- check ?b ?p ;; _) = _ -> _ => destruct (check b p); [|discriminate]; cbn [bind] end).
  rewrite Dm. cbn [bind]. rewrite Dr. cbn [bind fst snd]. destruct (check _ _); [|discriminate]. cbn [bind seq].
  match goal with |- (_ <- ?c ;; _) = _ -> _ => destruct c as [l|] eqn:El; [|discriminate] end. cbn [bind].
  apply mapM_one in El. destruct El as (row & -> & Er). apply mapM_one in Er. destruct Er as (s & -> & _). apply concretize_rows_one.
Qed.

Lemma vec_mul_scalar_one x s e : vec_mul_scalar (VV [x]) s = Ok e -> is_scalar e.
Proof.
  unfold vec_mul_scalar. repeat (match goal with |- (_ <- ?c ;; _) = _ -> _ => destruct c; [|discriminate]; cbn [bind] end). intro E.
  apply (simplify_scalar _ _ E). intros e0. unfold vec_mul_template. cbn [vec_entries map].
  match goal with |- (_ <- ?c ;; _) = _ -> _ => destruct c as [l|] eqn:El; [|discriminate] end. cbn [bind].
  apply mapM_one in El. destruct El as (b & -> & _). apply concretize_slice_one.
Qed.

Lemma vec_mul_one x y e : vec_mul (VV [x]) (GExpr (ES (SV y))) = Ok e -> is_scalar e.
Proof.
  unfold vec_mul. repeat (match goal with |- (_ <- ?c ;; _) = _ -> _ => destruct c; [|discriminate]; cbn [bind] end). apply vec_mul_scalar_one.
Qed.

Lemma var_mat_mul_vars_one row xs e : var_mat_mul_vars [row] xs = Ok e -> is_scalar e.
Proof.
  unfold var_mat_mul_vars. destruct (mat_dims (MV [row])) as [d|]; [|discriminate]. cbn [bind]. generalize (seq 0 (snd d)) as ks.
  assert (G : forall ks acc, is_scalar acc -> foldM (fun acc c => col <- mapM (fun r => index r c) [row];; x <- index xs c;; t <- vec_mul (VV col) (GExpr (ES (SV x)));; expr_plus acc (GExpr t)) acc ks = Ok e -> is_scalar e).
  { induction ks as [|k ks IH]; intros acc Ha; cbn [foldM]; [intros [= <-]; exact Ha|].
    destruct (mapM (fun r => index r k) [row]) as [c|] eqn:Ec; [|discriminate]. cbn [bind]. apply mapM_one in Ec. destruct Ec as (y & -> & _).
    destruct (index xs k) as [x|]; [|discriminate]. cbn [bind]. destruct (vec_mul (VV [y]) (GExpr (ES (SV x)))) as [t|] eqn:Et; [|discriminate]. cbn [bind].
    apply vec_mul_one in Et. destruct (expr_plus acc (GExpr t)) as [acc'|] eqn:Ea; [|discriminate]. cbn [bind]. apply IH.
    destruct acc; try destruct Ha. destruct t; try destruct Et. exact (plus_scalars _ _ _ Ea). }
  intro ks. apply G. exact I.
Qed.

(** a row times a column, of at least two entries *)
Lemma row_times_column m b n e : 2 <= n -> valid_array (1, n) (EM m) -> valid_array (n, 1) b -> expr_mul (EM m) (GExpr b) = Ok e -> is_scalar e.
Proof.
  intros Hn Vm Vb E.
  pose proof (valid_array_check _ _ Vm) as [_ Dm]. cbn [expr_dims] in Dm.
  destruct b as [s|v|r]; [pose proof (valid_array_ES _ _ Vb) as X; injection X as ->; lia| |].
  - cbn [expr_mul] in E.
    assert (L : forall A (f : A -> scalar) (l : list (list A)), rows (EM m) = map (map f) l -> exists row, l = [row]).
    { intros A f l R. destruct Vm as (_ & _ & [Lm _] & _). rewrite R, map_length in Lm. destruct l as [|row [|]]; try discriminate Lm. eauto. }
    destruct m as [l|l|l|l]; cbn [mat_mul] in E; unfold k_mat_mul, var_mat_mul, mono_mat_mul, poly_mat_mul in E;
      repeat (match type of E with (_ <- ?c ;; _) = _ => destruct c; [|discriminate E]; cbn [bind] in E end); destruct v as [ks|xs|ms|ps]; try discriminate E;
      destruct (L _ _ l eq_refl) as (row & ->).
    + apply (simplify_scalar _ _ E). intro e0. unfold k_mat_mul_vars. cbn [rows_dims index nth_error bind length fst Nat.eqb]. apply as_ES_scalar.
    + apply (simplify_scalar _ _ E). intro e0. unfold var_mat_mul_kvec. destruct (mat_dims (MV [row])); [|discriminate]. cbn [bind].
      match goal with |- (_ <- ?c ;; _) = _ -> _ => destruct c as [p|] eqn:Ep; [|discriminate] end. cbn [bind].
      apply mapM_one in Ep. destruct Ep as (s & -> & _). apply concretize_slice_one.
    + apply (simplify_scalar _ _ E). intro e0. apply var_mat_mul_vars_one.
    + unfold mono_mat_mul_vars in E. cbn [length Nat.eqb index nth_error bind] in E.
      match type of E with (_ <- ?c ;; _) = _ => destruct c as [s|]; [|discriminate E]; cbn [bind] in E end. exact (as_ES_scalar _ _ E).
    + cbn [length Nat.eqb index nth_error bind] in E. apply (simplify_scalar _ _ E). intro e0. apply as_ES_scalar.
  - cbn [expr_mul] in E. pose proof (valid_array_check _ _ Vb) as [_ Dr]. cbn [expr_dims] in Dr.
    destruct m as [l|l|l|l]; cbn [mat_mul] in E; unfold k_mat_mul, var_mat_mul, mono_mat_mul, poly_mat_mul in E;
      repeat (match type of E with (_ <- check ?b ?p ;; _) = _ => destruct (check b p); [|discriminate E]; cbn [bind] in E end);
      (match type of E with (_ <- ?c ;; _) = _ => destruct c; [|discriminate E]; cbn [bind] in E end).
    + apply (simplify_scalar _ _ E). intro e0. exact (mat_mul_template_one _ _ _ n Dm Dr).
    + apply (simplify_scalar _ _ E). intro e0. exact (mat_mul_template_one _ _ _ n Dm Dr).
    + exact (mat_mul_template_one _ _ _ n Dm Dr E).
    + exact (mat_mul_template_one _ _ _ n Dm Dr E).
Qed.

End ArrOne.
