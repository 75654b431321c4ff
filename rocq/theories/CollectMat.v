(** * Products of matrices term by term *)

From Coq Require Import ZArith NArith Bool List Lia Field.
From Verif Require Import Num Syntax ModelScalar Spec SpecConv SpecArr SpecEffect SpecCollect SpecSub SpecMat Base ScalarValid Eval ScalarOps ScalarMore ScalarNorm ScalarFacts Order Canon ModelShape ModelArith Arr ArrPlus ArrMul ArrFacts Effect Effect2 Collect Collect2 Collect3.
Import ListNotations.

Section CollectMat.
Context {NN : Num} {EX : ExactNum NN}.
Local Open Scope num_scope.
Ltac cb := cbn [bind check].
Add Ring numring_cm : num_ring.

(** the scalar has the terms of [t], which is simplified *)
Definition has (t s : scalar) : Prop := valid s /\ valid t /\ normal t /\ terms s = terms t.
Lemma has_valid (T : nat -> nat -> scalar) i j s : has (T i j) s -> valid s.
Proof. intros [V _]. exact V. Qed.
Lemma has_by_terms (T : nat -> nat -> scalar) : by_terms (fun i j => has (T i j)).
Proof.
  intros i j a b H (V & Vt & Nt & E). unfold same_terms in H. split; [apply valid_terms_iff; rewrite H; apply valid_terms_iff; exact V|]. split; [exact Vt|]. split; [exact Nt|]. rewrite H. exact E.
Qed.
Lemma has_simplified t s : has t s -> exists s', scalar_simplified s = Ok s' /\ has t s'.
Proof.
  intros (V & Vt & Nt & E). exists t. split; [|repeat split; assumption]. rewrite scalar_simplified_ok by exact V. f_equal.
  rewrite ssimplified_simplest, E, <- ssimplified_simplest by assumption. apply ssimplified_id; [apply zero_laws_exact; exact EX | exact Vt | exact Nt].
Qed.

Definition gm (d : nat * nat) (T : nat -> nat -> scalar) (x : res expr) : Prop := exists e, x = Ok e /\ arr d (fun i j => has (T i j)) e.
Lemma gm_simplify d T x : 1 <= fst d -> 1 <= snd d -> gm d T x -> gm d T (simplify_result x).
Proof.
  intros D1 D2 (e & -> & H). unfold simplify_result. cb.
  apply (expr_simplified_gen d (fun i j => has (T i j)) (fun i j => has (T i j)) e D1 D2 (has_by_terms T) (has_valid T)); [|exact H].
  intros i j s _ _. apply has_simplified.
Qed.

Definition at_ (A : nat -> nat -> scalar) (i j : nat) (s : scalar) : Prop := A i j = s /\ valid s.
Lemma at_valid A i j s : at_ A i j s -> valid s.
Proof. intros [_ V]. exact V. Qed.

Lemma entry_product a b da db m r i j : a = EM m -> b = EM r -> 1 <= fst da -> 1 <= snd da -> 1 <= fst db -> 1 <= snd db -> snd da = fst db ->
  arr da (at_ (entry a)) a -> arr db (at_ (entry b)) b -> i < fst da -> j < snd db ->
  exists s, mat_mul_entry m r (snd da) i j = Ok s /\ has (row_times_column a b (snd da) i j) s.
Proof.
  intros Ea Eb A1 A2 B1 B2 E Hm Hr Hi Hj. rewrite Ea in Hm at 2. rewrite Eb in Hr at 2. apply arr_EM in Hm. apply arr_EM in Hr. unfold mat_mul_entry.
  match goal with |- context [foldM ?g _ _] =>
    destruct (foldM_nth g (seq 0 (snd da)) (SK n0) (fun k acc => acc = row_times_column a b k i j /\ valid acc /\ normal acc)) as (out & -> & Ho)
  end.
  - intros k x acc Hk (Ha & Va & Na). assert (Hk' : k < snd da) by (apply nth_error_bound in Hk; rewrite seq_length in Hk; exact Hk).
    rewrite nth_error_seq_at in Hk by exact Hk'. injection Hk as <-. cbn [Nat.add].
    destruct (mat_get_grid da _ m i k A1 A2 (at_valid (entry a)) Hm Hi Hk') as (s & -> & Es & Vs). cb.
    destruct (mat_get_grid db _ r k j B1 B2 (at_valid (entry b)) Hr) as (t & -> & Et & Vt); [lia | exact Hj|]. cb.
    rewrite multiply_exact by assumption. cb. assert (Vm : valid (multiplied s t)) by (apply multiplied_valid; assumption).
    destruct (exa_ok _ _ (scalar_plus_exa acc _ Va Vm)) as (E1 & V1 & N1). rewrite E1. eexists. split; [reflexivity|]. split; [|split; assumption].
    unfold row_times_column, added. rewrite seq_S, map_app, fold_left_app. cbn [map fold_left Nat.add]. rewrite Es, Et. rewrite Ha. reflexivity.
  - split; [reflexivity|]. split; exact I.
  - cb. rewrite seq_length in Ho. destruct Ho as (<- & Vo & No). apply has_simplified. repeat split; assumption.
Qed.

Lemma template_product a b da db m r : a = EM m -> b = EM r -> 1 <= fst da -> 1 <= snd da -> 1 <= fst db -> 1 <= snd db -> snd da = fst db ->
  arr da (at_ (entry a)) a -> arr db (at_ (entry b)) b -> gm (fst da, snd db) (row_times_column a b (snd da)) (mat_mul_template m r).
Proof.
  intros Ea Eb A1 A2 B1 B2 E Ha Hb. pose proof Ha as Gm. rewrite Ea in Gm at 2. apply arr_EM in Gm. pose proof Hb as Gr. rewrite Eb in Gr at 2. apply arr_EM in Gr. unfold mat_mul_template.
  rewrite (mat_check_grid da _ m A1 (at_valid (entry a)) Gm), (mat_check_grid db _ r B1 (at_valid (entry b)) Gr). cb.
  rewrite (mat_dims_grid da _ m A1 (at_valid (entry a)) Gm), (mat_dims_grid db _ r B1 (at_valid (entry b)) Gr). cb.
  rewrite E, Nat.eqb_refl. cb. rewrite <- E.
  destruct (mapM_seq (fun i => mapM (fun j => mat_mul_entry m r (snd da) i j) (seq 0 (snd db))) (fst da) (fun i => col (snd db) (fun j => has (row_times_column a b (snd da) i j)))) as (l & -> & L & Hl).
  - intros i Hi. destruct (mapM_seq (fun j => mat_mul_entry m r (snd da) i j) (snd db) (fun j => has (row_times_column a b (snd da) i j))) as (row & Er & Lr & Hrow).
    + intros j Hj. apply (entry_product a b da db m r i j Ea Eb); assumption.
    + exists row. split; [exact Er|]. split; assumption.
  - cb. apply (concretize_rows_arr (fst da, snd db) (fun i j => has (row_times_column a b (snd da) i j)) l A1 B2 (has_by_terms _) (has_valid _)). split; assumption.
Qed.

Lemma matrix_product (m r : matrix) (da db : nat * nat) : valid_array da (EM m) -> valid_array db (EM r) -> snd da = fst db ->
  gm (fst da, snd db) (row_times_column (EM m) (EM r) (snd da)) (expr_mul (EM m) (GExpr (EM r))).
Proof.
  intros Va Vb E. pose proof (valid_array_arr da _ Va) as Ha. pose proof (valid_array_arr db _ Vb) as Hb. destruct Va as (A1 & A2 & _). destruct Vb as (B1 & B2 & _).
  change (arr da (at_ (entry (EM m))) (EM m)) in Ha. change (arr db (at_ (entry (EM r))) (EM r)) in Hb.
  pose proof (template_product (EM m) (EM r) da db m r eq_refl eq_refl A1 A2 B1 B2 E Ha Hb) as T. pose proof (proj1 (arr_EM _ _ _) Ha) as Gm.
  assert (O : operand_check dims_mul (mat_dims m) (GExpr (EM r)) = Ok tt).
  { apply (operand_check_ok dims_mul _ da (GExpr (EM r)) (EM r) db (at_ (entry (EM r))) (mat_dims_grid da _ m A1 (at_valid _) Gm) eq_refl B1 B2 (at_valid _) Hb). unfold dims_mul. rewrite E, Nat.eqb_refl. reflexivity. }
  pose proof (mat_check_grid da _ m A1 (at_valid _) Gm) as C.
  cbn [expr_mul]. destruct m as [l|l|l|l]; cbn [mat_mul]; unfold k_mat_mul, var_mat_mul, mono_mat_mul, poly_mat_mul; rewrite ?C, O; cb; try exact T; apply gm_simplify; assumption.
Qed.

(** ** a row times a column of variables *)
Lemma row_exact {T} n a b i (f : T -> scalar) (row : list T) (xs : list var) (g : scalar -> nat * T -> res scalar) :
  col n (fun l t => at_ (entry a) i l (f t)) row -> col n (fun l x => at_ (entry b) l 0 (SV x)) xs ->
  (forall acc l x t y, nth_error row l = Some y -> nth_error xs l = Some x -> scalar_mul (f y) (SV x) = Ok t -> g acc (l, y) = scalar_plus acc t) ->
  exists s, foldM g (SK n0) (enum row) = Ok s /\ has (row_times_column a b n i 0) s.
Proof.
  intros [Lr Hr] [Lx Hx] Hg.
  destruct (foldM_nth g (enum row) (SK n0) (fun k acc => acc = row_times_column a b k i 0 /\ valid acc /\ normal acc)) as (out & E & Ho).
  - intros k ct acc Ek (Ha & Va & Na). assert (Hk : k < n) by (apply nth_error_bound in Ek; rewrite enum_length in Ek; lia).
    destruct (Hr k Hk) as (t & Et & Ht & Vt). destruct (Hx k Hk) as (x & Ex & Sx & Vx).
    apply nth_error_enum in Ek. destruct ct as [k' t']. cbn in Ek. destruct Ek as [-> Ek]. rewrite Et in Ek. injection Ek as <-.
    rewrite (Hg acc k x _ t Et Ex (multiply_exact (f t) (SV x) Vt Vx)). assert (Vm : valid (multiplied (f t) (SV x))) by (apply multiplied_valid; assumption).
    destruct (exa_ok _ _ (scalar_plus_exa acc _ Va Vm)) as (E1 & V1 & N1). rewrite E1. eexists. split; [reflexivity|]. split; [|split; assumption].
    unfold row_times_column, added. rewrite seq_S, map_app, fold_left_app. cbn [map fold_left Nat.add]. rewrite Ht, Sx, Ha. reflexivity.
  - split; [reflexivity|]. split; exact I.
  - exists out. split; [exact E|]. rewrite enum_length, Lr in Ho. destruct Ho as (<- & Vo & No). repeat split; assumption.
Qed.
Lemma gm_row T (x : res scalar) : (exists s, x = Ok s /\ has (T 0 0) s) -> gm (1, 1) T (as_ES x).
Proof. intros (s & -> & Hs). exists (ES s). split; [reflexivity|]. apply arr_ES. exact Hs. Qed.

Lemma variables_product (m : matrix) (xs : list var) (da db : nat * nat) : valid_array da (EM m) -> valid_array db (EV (VV xs)) -> snd da = fst db -> row_by_row (EM m) (EV (VV xs)) da ->
  gm (fst da, snd db) (row_times_column (EM m) (EV (VV xs)) (snd da)) (expr_mul (EM m) (GExpr (EV (VV xs)))).
Proof.
  intros Va Vb E HR. pose proof (valid_array_arr da _ Va) as Ha. pose proof (valid_array_arr db _ Vb) as Hb. destruct Va as (A1 & A2 & _). destruct Vb as (B1 & B2 & _).
  change (arr da (at_ (entry (EM m))) (EM m)) in Ha. change (arr db (at_ (entry (EV (VV xs)))) (EV (VV xs))) in Hb. pose proof (proj1 (arr_EM _ _ _) Ha) as Gm.
  assert (O : operand_check dims_mul (mat_dims m) (GExpr (EV (VV xs))) = Ok tt).
  { apply (operand_check_ok dims_mul _ da (GExpr (EV (VV xs))) (EV (VV xs)) db (at_ (entry (EV (VV xs)))) (mat_dims_grid da _ m A1 (at_valid _) Gm) eq_refl B1 B2 (at_valid _) Hb). unfold dims_mul. rewrite E, Nat.eqb_refl. reflexivity. }
  pose proof (mat_check_grid da _ m A1 (at_valid _) Gm) as C. pose proof (arr_EV_cols _ _ _ B1 Hb) as E2.
  assert (Hx : col (snd da) (fun l x => at_ (entry (EV (VV xs))) l 0 (SV x)) xs).
  { rewrite E. assert (X : arr (fst db, 1) (at_ (entry (EV (VV xs)))) (EV (VV xs))) by (rewrite <- E2; destruct db; exact Hb). apply arr_EV in X. cbn [vec_entries] in X. apply col_map in X. exact X. }
  rewrite E2. cbn [expr_mul]. destruct m as [l|l|l|l]; cbn [row_by_row] in HR; try contradiction; cbn [mat_mul]; unfold mono_mat_mul, poly_mat_mul; rewrite C, O; cb; cbn [mat_rows] in Gm; rewrite grid_map in Gm.
  - unfold mono_mat_mul_vars. destruct (proj2 Gm 0 A1) as (row & Er & Hrow). assert (L1 : length l = 1) by (destruct Gm as [L0 _]; rewrite <- HR; exact L0). rewrite L1, Nat.eqb_refl, HR, (index_nth _ _ _ Er). cb.
    match goal with |- context [foldM ?g _ _] => destruct (row_exact (snd da) (EM (MM l)) (EV (VV xs)) 0 SM row xs g Hrow Hx) as (s & -> & Hs) end.
    + intros acc k x t y Ey Ex Et. cbn [fst snd]. rewrite (index_nth _ _ _ Ex). cb. cbn [scalar_mul mono_mul] in Et. unfold as_SM in Et.
      destruct (mono_mul_var y x) as [z|]; [|discriminate Et]. cbn [bind] in Et |- *. injection Et as <-. reflexivity.
    + cb. apply gm_row. apply has_simplified. exact Hs.
  - assert (P : forall i row, col (snd da) (fun j b => at_ (entry (EM (MP l))) i j (SP b)) row -> exists s, poly_row_mul_vars row xs = Ok s /\ has (row_times_column (EM (MP l)) (EV (VV xs)) (snd da) i 0) s).
    { intros i row Hrow. unfold poly_row_mul_vars. apply (row_exact (snd da) (EM (MP l)) (EV (VV xs)) i SP row xs); [exact Hrow | exact Hx|].
      intros acc k x t y Ey Ex Et. cbn [fst snd]. rewrite (index_nth _ _ _ Ex). cb. cbn [scalar_mul poly_mul] in Et. rewrite Et. reflexivity. }
    destruct (Nat.eqb_spec (length l) 1) as [L1|L1].
    + destruct (proj2 Gm 0 A1) as (row & Er & Hrow). rewrite (index_nth _ _ _ Er). cb. assert (E1 : fst da = 1) by (destruct Gm; lia). rewrite E1.
      apply gm_simplify; [apply le_n | apply le_n|]. apply gm_row. apply P. exact Hrow.
    + destruct (mapM_col (fst da) (fun i => col (snd da) (fun j b => at_ (entry (EM (MP l))) i j (SP b))) (fun i => has (row_times_column (EM (MP l)) (EV (VV xs)) (snd da) i 0)) (fun r => poly_row_mul_vars r xs) l) as (p & -> & Hp).
      * intros i row _ Hrow. apply P. exact Hrow.
      * exact Gm.
      * cb. apply (concretize_slice_arr (fst da) (fun i j => has (row_times_column (EM (MP l)) (EV (VV xs)) (snd da) i j)) p A1 (has_by_terms _) (has_valid _) Hp).
Qed.

Lemma array_product (a b : expr) (da db : nat * nat) : valid_array da a -> valid_array db b -> snd da = fst db -> row_by_row a b da ->
  gm (fst da, snd db) (row_times_column a b (snd da)) (expr_mul a (GExpr b)).
Proof.
  intros Va Vb E HR. destruct a as [s|v|m]; [destruct HR | destruct HR|]. destruct b as [s|[l|l|l|l]|r].
  2,4,5: destruct m; destruct HR. 1: destruct m; destruct HR.
  - apply variables_product; assumption.
  - apply matrix_product; assumption.
Qed.
Lemma product_exact (a b : expr) (da db : nat * nat) : valid_array da a -> valid_array db b -> snd da = fst db -> row_by_row a b da ->
  exists e, expr_mul a (GExpr b) = Ok e /\ valid_array (fst da, snd db) e
   /\ forall i j, i < fst da -> j < snd db -> terms (entry e i j) = terms (row_times_column a b (snd da) i j).
Proof.
  intros Va Vb E HR. destruct (array_product a b da db Va Vb E HR) as (e & Ee & He). exists e. split; [exact Ee|]. destruct Va as (A1 & A2 & _). destruct Vb as (B1 & B2 & _).
  split; [exact (arr_valid (fst da, snd db) _ e A1 B2 He (has_valid _))|]. intros i j Hi Hj. pose proof (arr_entry _ _ e i j He Hi Hj) as (_ & _ & _ & X). exact X.
Qed.

(** ** when it is right *)
Lemma row_column_value r (a b : expr) n i j : (forall k, k < n -> valid (entry a i k) /\ valid (entry b k j)) ->
  Forall valid_mono (row_column_terms a b n i j) /\ eval_poly r (row_column_terms a b n i j) = sum_to (fun k => value r a i k * value r b k j) n.
Proof.
  induction n as [|n IH]; intro H; [split; [constructor | reflexivity]|]. destruct (H n) as (V1 & V2); [lia|]. destruct IH as (V & E); [intros k Hk; apply H; lia|].
  unfold row_column_terms in *. rewrite seq_S, flat_map_app. cbn [flat_map Nat.add]. rewrite app_nil_r. split; [apply Forall_app; split; [exact V | apply (expanded_valid _ _ V1 V2)]|].
  rewrite eval_poly_app, E, expanded_value by assumption. reflexivity.
Qed.
Lemma product_when (a b e : expr) (da db : nat * nat) (i j : nat) : valid_array da a -> valid_array db b -> snd da = fst db -> row_by_row a b da -> expr_mul a (GExpr b) = Ok e ->
  i < fst da -> j < snd db ->
  ((forall r, value r e i j = sum_to (fun k => value r a i k * value r b k j) (snd da))
   <-> forall m, valid_mono m -> coefficient m (row_times_column a b (snd da) i j) = coefficient m (SP (row_column_terms a b (snd da) i j))).
Proof.
  intros Va Vb E HR Ee Hi Hj. destruct (array_product a b da db Va Vb E HR) as (e' & Ee' & He). rewrite Ee in Ee'. injection Ee' as <-.
  pose proof (arr_entry _ _ e i j He Hi Hj) as (Ve & Vt & _ & X).
  pose proof (valid_array_arr da _ Va) as Ha. pose proof (valid_array_arr db _ Vb) as Hb. destruct Va as (A1 & A2 & _). destruct Vb as (B1 & B2 & _).
  assert (HV : forall k, k < snd da -> valid (entry a i k) /\ valid (entry b k j)).
  { intros k Hk. split; [exact (proj2 (arr_entry _ _ a i k Ha Hi Hk)) | refine (proj2 (arr_entry _ _ b k j Hb _ Hj)); lia]. }
  assert (VP : valid (SP (row_column_terms a b (snd da) i j))).
  { split; [|exact (proj1 (row_column_value (fun _ => n0) a b (snd da) i j HV))]. unfold row_column_terms. destruct (snd da) as [|n]; [lia|]. cbn [seq flat_map].
    destruct (HV 0) as (V1 & V2); [lia|]. destruct (expanded_valid _ _ V1 V2) as [N1 _]. destruct (expanded (entry a i 0) (entry b 0 j)); [congruence | discriminate]. }
  rewrite <- functions_determined by assumption. unfold same_function. cbn [eval].
  assert (Y : forall r, value r e i j = eval r (row_times_column a b (snd da) i j)) by (intro r; unfold value; rewrite <- (eval_terms r (entry e i j)), X; apply eval_terms).
  split; intros H r; specialize (H r); rewrite ?Y, (proj2 (row_column_value r a b (snd da) i j HV)) in *; exact H.
Qed.
End CollectMat.
