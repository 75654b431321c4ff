(** * A MonomialMatrix of several rows times a VariableVector *)

From Coq Require Import ZArith NArith Bool List Lia Field.
From Verif Require Import Num Syntax ModelScalar Spec SpecConv SpecArr SpecEffect SpecCollect SpecSub SpecMat Base ScalarValid Eval ScalarOps ScalarMore ScalarNorm ScalarFacts Order Canon ModelShape ModelArith Arr ArrPlus ArrMul ArrMulAll ArrFacts Effect Effect2 Collect Collect2 Collect3 CollectMat.
Import ListNotations.

Section CollectMono.
Context {NN : Num} {EX : ExactNum NN}.
Local Open Scope num_scope.
Ltac cb := cbn [bind check].
Add Ring numring_cmo : num_ring.

Lemma forallb_map {A B} (f : A -> B) p l : forallb p (map f l) = forallb (fun x => p (f x)) l.
Proof. induction l as [|x l IH]; [reflexivity|]. cbn [map forallb]. rewrite IH. reflexivity. Qed.
Lemma collect_zero l : collect (mkMono n0 [] [] :: l) = collect l.
Proof. unfold collect. cbn [filter constant_term m_vars negb fold_right m_coeff]. replace (n0 + fold_right (fun m s => m_coeff m + s) n0 (filter constant_term l)) with (fold_right (fun m s => m_coeff m + s) n0 (filter constant_term l)) by ring. reflexivity. Qed.
Lemma first_summand t : valid t -> normal t -> simplest (summed (SK n0) t) = t.
Proof.
  intros V N. assert (E : summed (SK n0) t = mkMono n0 [] [] :: terms t) by (destruct t; reflexivity). rewrite E. unfold simplest. rewrite collect_zero. change (narrowest (collect (terms t))) with (simplest (terms t)).
  rewrite <- ssimplified_simplest by exact V. apply ssimplified_id; [apply zero_laws_exact; exact EX | exact V | exact N].
Qed.

Context (a b : expr) (n i : nat).
Let P (k : nat) : scalar := polynomial_row a b k i.
Lemma P_S k : P (S k) = simplest (summed (P k) (multiplied (SP (terms (entry a i k))) (entry b k 0))).
Proof. unfold P, polynomial_row, added. rewrite seq_S, map_app, fold_left_app. reflexivity. Qed.

Context (row : list Monomial) (xs : list var).
Context (Hrow : col n (fun j m => at_ (entry a) i j (SM m)) row) (Hxs : col n (fun k x => at_ (entry b) k 0 (SV x)) xs) (Hn : 1 <= n).

Lemma factor k : k < n -> exists m x t, nth_error row k = Some m /\ nth_error xs k = Some x /\ t = multiplied (SP (terms (entry a i k))) (entry b k 0) /\ poly_mul_var (mono_to_poly m) x = Ok t /\ valid t /\ normal t.
Proof.
  intro Hk. destruct (proj2 Hrow k Hk) as (m & Em & Am & Vm). destruct (proj2 Hxs k Hk) as (x & Ex & Ax & Vx). rewrite Am, Ax. exists m, x. eexists. split; [exact Em|]. split; [exact Ex|]. split; [reflexivity|].
  assert (VP : valid_poly (mono_to_poly m)) by (apply valid_poly_single; exact Vm). pose proof (exa_ok _ _ (poly_mul_one_exa (mono_to_poly m) (SV x) VP Vx eq_refl)) as (E1 & V1 & N1).
  cbn [poly_mul] in E1. rewrite E1. cbn [multiplied terms]. split; [reflexivity|]. split; assumption.
Qed.
Lemma P_ok k : k <= n -> valid (P k) /\ normal (P k).
Proof.
  induction k as [|k IH]; intro Hk; [split; exact I|]. destruct IH as (V & N); [lia|]. destruct (factor k Hk) as (m & x & t & _ & _ & Et & _ & Vt & Nt). rewrite P_S, <- Et.
  destruct (exa_ok _ _ (scalar_plus_exa (P k) t V Vt)) as (_ & V1 & N1). split; assumption.
Qed.

Definition row_run (row : list Monomial) (xs : list var) : res scalar :=
  m0 <- index row 0 ;; x0 <- index xs 0 ;;
  s0 <- poly_mul_var (mono_to_poly m0) x0 ;;
  foldM (fun acc j =>
    m <- index row j ;; x <- index xs j ;;
    t <- poly_mul_var (mono_to_poly m) x ;;
    s <- scalar_plus acc t ;;
    match s with SP _ => Ok s | _ => Panic PRuntime end) s0 (seq 1 (length row - 1)).

Lemma row_loop c : forall s, s + c <= n ->
  foldM (fun acc j =>
    m <- index row j ;; x <- index xs j ;;
    t <- poly_mul_var (mono_to_poly m) x ;;
    s <- scalar_plus acc t ;;
    match s with SP _ => Ok s | _ => Panic PRuntime end) (P s) (seq s c)
  = if forallb (fun k => is_polynomial (P (S k))) (seq s c) then Ok (P (s + c)) else Panic PRuntime.
Proof.
  induction c as [|c IH]; intros s Hs; [cbn; rewrite Nat.add_0_r; reflexivity|]. cbn [seq foldM forallb]. assert (Hk : s < n) by lia.
  destruct (factor s Hk) as (m & x & t & Em & Ex & Et & Emul & Vt & Nt). rewrite (index_nth _ _ _ Em), (index_nth _ _ _ Ex). cb. rewrite Emul. cb.
  destruct (P_ok s) as (V & N); [lia|]. rewrite (plus_exact (P s) t V Vt). cb. rewrite Et, <- P_S. replace (s + S c)%nat with (S s + c)%nat by lia. specialize (IH (S s) ltac:(lia)).
  destruct (P (S s)) as [k|w|w|p] eqn:EP; cbn [bind is_polynomial andb]; try reflexivity. exact IH.
Qed.
Lemma row_result : row_run row xs = if forallb (fun k => is_polynomial (P k)) (seq 2 (n - 1)) then Ok (P n) else Panic PRuntime.
Proof.
  unfold row_run. destruct (factor 0) as (m & x & t & Em & Ex & Et & Emul & Vt & Nt); [lia|]. rewrite (index_nth _ _ _ Em), (index_nth _ _ _ Ex). cb. rewrite Emul. cb.
  assert (E1 : t = P 1) by (rewrite P_S, <- Et; symmetry; exact (first_summand t Vt Nt)). rewrite E1. destruct Hrow as [L _]. rewrite L, row_loop by lia.
  replace (1 + (n - 1))%nat with n by lia. rewrite <- (seq_shift (n - 1) 1). rewrite forallb_map. reflexivity.
Qed.
End CollectMono.

Section CollectMono2.
Context {NN : Num} {EX : ExactNum NN}.
Ltac cb := cbn [bind check].

Lemma monomials_product (l : list (list Monomial)) (xs : list var) (da db : nat * nat) (a b : expr) : a = EM (MM l) -> b = EV (VV xs) -> valid_array da a -> valid_array db b -> snd da = fst db -> fst da <> 1 ->
  expr_mul a (GExpr b) = (p <- mapM (fun r => row_run r xs) l ;; as_EV (concretize_vector p))
  /\ grid da (fun i j m => at_ (entry a) i j (SM m)) l /\ col (snd da) (fun k x => at_ (entry b) k 0 (SV x)) xs /\ 1 <= fst da /\ 1 <= snd da.
Proof.
  intros -> -> Va Vb E H1. pose proof (valid_array_arr da _ Va) as Ha. pose proof (valid_array_arr db _ Vb) as Hb. destruct Va as (A1 & A2 & _). destruct Vb as (B1 & B2 & _).
  set (a := EM (MM l)) in *. set (b := EV (VV xs)) in *.
  change (arr da (at_ (entry a)) a) in Ha. change (arr db (at_ (entry b)) b) in Hb. pose proof (proj1 (arr_EM _ _ _) Ha) as Gm.
  assert (O : operand_check dims_mul (mat_dims (MM l)) (GExpr b) = Ok tt).
  { apply (operand_check_ok dims_mul _ da (GExpr b) b db (at_ (entry b)) (mat_dims_grid da _ (MM l) A1 (at_valid _) Gm) eq_refl B1 B2 (at_valid _) Hb). unfold dims_mul. rewrite E, Nat.eqb_refl. reflexivity. }
  pose proof (mat_check_grid da _ (MM l) A1 (at_valid _) Gm) as C. pose proof (arr_EV_cols _ _ _ B1 Hb) as E2.
  assert (Hx : col (snd da) (fun l x => at_ (entry b) l 0 (SV x)) xs).
  { rewrite E. assert (X : arr (fst db, 1) (at_ (entry b)) b) by (rewrite <- E2; destruct db; exact Hb). apply arr_EV in X. cbn [vec_entries] in X. apply col_map in X. exact X. }
  cbn [mat_rows] in Gm. rewrite grid_map in Gm. split; [|auto].
  unfold a at 1. cbn [expr_mul mat_mul]. unfold mono_mat_mul. rewrite C, O. cb. unfold b at 1, mono_mat_mul_vars. destruct (Nat.eqb_spec (length l) 1) as [L|_]; [destruct Gm; lia|]. reflexivity.
Qed.

Lemma monomials_exact (l : list (list Monomial)) (xs : list var) (da db : nat * nat) (a b e : expr) : a = EM (MM l) -> b = EV (VV xs) -> valid_array da a -> valid_array db b -> snd da = fst db -> fst da <> 1 ->
  expr_mul a (GExpr b) = Ok e -> valid_array (fst da, 1) e /\ forall i, i < fst da -> terms (entry e i 0) = terms (polynomial_row a b (snd da) i).
Proof.
  intros Ea Eb Va Vb E H1 Ee. destruct (monomials_product l xs da db a b Ea Eb Va Vb E H1) as (R & Gm & Hx & A1 & A2). rewrite R in Ee.
  destruct (mapM (fun r => row_run r xs) l) as [p|] eqn:Ep; [|discriminate]. cbn [bind] in Ee.
  assert (Hp : col (fst da) (fun i => has (polynomial_row a b (snd da) i)) p).
  { eapply mapM_inv_col; [|exact Gm | exact Ep]. intros i row s Hrow Es. cbn beta in Es. rewrite (row_result a b (snd da) i row xs Hrow Hx A2) in Es.
    destruct (forallb _ _); [|discriminate]. injection Es as <-. destruct (P_ok a b (snd da) i row xs Hrow Hx A2 (snd da) (le_n _)) as (V & N). repeat split; assumption. }
  destruct (concretize_vector_arr (fst da) (fun i j => has (polynomial_row a b (snd da) i)) p A1 (has_by_terms (fun i j => polynomial_row a b (snd da) i)) Hp) as (v & Ev & Hv).
  rewrite Ev in Ee. cbn [as_EV bind] in Ee. injection Ee as <-.
  split; [exact (arr_valid (fst da, 1) _ (EV v) A1 (le_n 1) Hv (has_valid (fun i j => polynomial_row a b (snd da) i)))|].
  intros i Hi. pose proof (arr_entry _ _ (EV v) i 0 Hv Hi (le_n 1)) as (_ & _ & _ & X). exact X.
Qed.

Lemma monomials_panic (l : list (list Monomial)) (xs : list var) (da db : nat * nat) (a b : expr) : a = EM (MM l) -> b = EV (VV xs) -> valid_array da a -> valid_array db b -> snd da = fst db -> fst da <> 1 ->
  ((exists e, expr_mul a (GExpr b) = Ok e) <-> forall i k, i < fst da -> 2 <= k <= snd da -> is_polynomial (polynomial_row a b k i) = true).
Proof.
  intros Ea Eb Va Vb E H1. destruct (monomials_product l xs da db a b Ea Eb Va Vb E H1) as (R & Gm & Hx & A1 & A2). rewrite R. split.
  - intros [e Ee] i k Hi Hk. destruct (mapM (fun r => row_run r xs) l) as [p|] eqn:Ep; [|discriminate]. destruct (proj2 Gm i Hi) as (row & Er & Hrow).
    destruct (proj2 (mapM_inv _ _ _ Ep) i row Er) as (s & _ & Es). cbn beta in Es. rewrite (row_result a b (snd da) i row xs Hrow Hx A2) in Es.
    destruct (forallb (fun k => is_polynomial (polynomial_row a b k i)) (seq 2 (snd da - 1))) eqn:F; [|discriminate].
    rewrite forallb_forall in F. apply F. apply in_seq. lia.
  - intro H. destruct (mapM_col (fst da) (fun i => col (snd da) (fun j m => at_ (entry a) i j (SM m))) (fun i => has (polynomial_row a b (snd da) i)) (fun r => row_run r xs) l) as (p & Ep & Hp).
    + intros i row Hi Hrow. rewrite (row_result a b (snd da) i row xs Hrow Hx A2).
      assert (F : forallb (fun k => is_polynomial (polynomial_row a b k i)) (seq 2 (snd da - 1)) = true) by (apply forallb_forall; intros k Hk; apply in_seq in Hk; apply H; [exact Hi | lia]).
      rewrite F. eexists. split; [reflexivity|]. destruct (P_ok a b (snd da) i row xs Hrow Hx A2 (snd da) (le_n _)) as (V & N). repeat split; assumption.
    + exact Gm.
    + rewrite Ep. cbn [bind].
      destruct (concretize_vector_arr (fst da) (fun i j => has (polynomial_row a b (snd da) i)) p A1 (has_by_terms (fun i j => polynomial_row a b (snd da) i)) Hp) as (v & Ev & Hv).
      rewrite Ev. eexists. reflexivity.
Qed.

Lemma monomials_when (l : list (list Monomial)) (xs : list var) (da db : nat * nat) (a b e : expr) (i : nat) : a = EM (MM l) -> b = EV (VV xs) -> valid_array da a -> valid_array db b -> snd da = fst db -> fst da <> 1 ->
  expr_mul a (GExpr b) = Ok e -> i < fst da ->
  ((forall r, value r e i 0 = (sum_to (fun k => value r a i k * value r b k 0) (snd da))%num)
   <-> forall m, valid_mono m -> coefficient m (polynomial_row a b (snd da) i) = coefficient m (SP (row_column_terms a b (snd da) i 0))).
Proof.
  intros Ea Eb Va Vb E H1 Ee Hi. destruct (monomials_exact l xs da db a b e Ea Eb Va Vb E H1 Ee) as (_ & X). specialize (X i Hi).
  destruct (monomials_product l xs da db a b Ea Eb Va Vb E H1) as (_ & Gm & Hx & A1 & A2). destruct (proj2 Gm i Hi) as (row & _ & Hrow).
  destruct (P_ok a b (snd da) i row xs Hrow Hx A2 (snd da) (le_n _)) as (Vt & _).
  assert (HV : forall k, k < snd da -> valid (entry a i k) /\ valid (entry b k 0)).
  { intros k Hk. destruct (proj2 Hrow k Hk) as (m & _ & -> & Vm). destruct (proj2 Hx k Hk) as (x & _ & -> & Vx). split; assumption. }
  assert (VP : valid (SP (row_column_terms a b (snd da) i 0))).
  { split; [|exact (proj1 (row_column_value (fun _ => n0) a b (snd da) i 0 HV))]. unfold row_column_terms. destruct (snd da) as [|n]; [lia|]. cbn [seq flat_map].
    destruct (HV 0) as (V1 & V2); [lia|]. destruct (expanded_valid _ _ V1 V2) as [N1 _]. destruct (expanded (entry a i 0) (entry b 0 0)); [congruence | discriminate]. }
  rewrite <- functions_determined by assumption. unfold same_function. cbn [eval].
  assert (Y : forall r, value r e i 0 = eval r (polynomial_row a b (snd da) i)) by (intro r; unfold value; rewrite <- (eval_terms r (entry e i 0)), X; apply eval_terms).
  split; intros H r; specialize (H r); rewrite ?Y, (proj2 (row_column_value r a b (snd da) i 0 HV)) in *; exact H.
Qed.
End CollectMono2.
