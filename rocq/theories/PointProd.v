(** * Products of matrices agree with sums of products of scalars, for exact numbers and for float64 *)

From Coq Require Import ZArith NArith Bool List Lia.
From Coq Require Import Floats.SpecFloat.
From Verif Require Import Num Syntax ModelScalar Spec SpecConv SpecEffect Base ScalarValid Eval ScalarOps ScalarMore ScalarNorm ScalarFacts ModelShape ModelArith SpecArr SpecEffectArr Arr ArrPlus ArrMul ArrFacts EffectArr SpecPoint SpecRound Round PointPlus PointPlus2 SpecAccuracy SpecMat.
Import ListNotations.

Section PointMul.
Context {NN : Num} (FL : float_laws) (ONE : (n1 =? n0)%num = false).
Local Open Scope num_scope.
Ltac cb := cbn [bind check].

(** the products of the entries of row [i] and column [j], added one after the other *)
Fixpoint prods (a b : expr) (n i j : nat) : res scalar :=
  match n with O => Ok (SK n0) | S k => bind (prods a b k i j) (fun acc => bind (scalar_mul (entry a i k) (entry b k j)) (scalar_plus acc)) end.

Lemma sum_up_app l x : forall a, sum_up a (l ++ [x]) = bind (sum_up a l) (fun b => scalar_plus b x).
Proof. induction l as [|y l IH]; intro a; cbn [app sum_up bind]; [destruct (scalar_plus a x); reflexivity|]. destruct (scalar_plus a y); cbn [bind]; [apply IH | reflexivity]. Qed.
Lemma prods_sum a b n i j s : prods a b n i j = Ok s -> exists ts, length ts = n /\ (forall k, k < n -> scalar_mul (entry a i k) (entry b k j) = Ok (nth k ts (SK n0))) /\ sum_up (SK n0) ts = Ok s.
Proof.
  revert s. induction n as [|n IH]; intros s E; cbn [prods] in E.
  - injection E as <-. exists []. split; [reflexivity|]. split; [intros k Hk; lia | reflexivity].
  - destruct (prods a b n i j) as [acc|]; [|discriminate E]. cbn [bind] in E. destruct (scalar_mul (entry a i n) (entry b n j)) as [t|] eqn:Et; [|discriminate E]. cbn [bind] in E.
    destruct (IH acc eq_refl) as (ts & L & H & S). exists (ts ++ [t]). split; [rewrite app_length, L; cbn; lia|]. split; [|rewrite sum_up_app, S; exact E].
    intros k Hk. destruct (Nat.eq_dec k n) as [->|Hn]; [rewrite app_nth2, L, Nat.sub_diag by lia; exact Et | rewrite app_nth1 by lia; apply H; lia].
Qed.

Lemma rows_by_terms (L : nat -> nat -> res scalar) : by_terms (fun i j => lsame (L i j)).
Proof. exact (lsame_by_terms L). Qed.
Lemma rows_valid (L : nat -> nat -> res scalar) i j s : lsame (L i j) s -> valid s.
Proof. apply lsame_valid. Qed.

Definition gm (d : nat * nat) (T : nat -> nat -> res scalar) (x : res expr) : Prop := exists e, x = Ok e /\ arr d (fun i j => lsame (T i j)) e.
Lemma gm_simplify d T x : 1 <= fst d -> 1 <= snd d -> gm d T x -> gm d T (simplify_result x).
Proof.
  intros D1 D2 (e & -> & H). unfold simplify_result. cb.
  apply (ArrFacts.expr_simplified_gen d (fun i j => lsame (T i j)) (fun i j => lsame (T i j)) e D1 D2 (rows_by_terms T) (rows_valid T)); [|exact H].
  intros i j s _ _. apply (lsame_simplified FL ONE).
Qed.

Definition at_ (A : nat -> nat -> scalar) (i j : nat) (s : scalar) : Prop := A i j = s /\ valid s.
Lemma at_valid A i j s : at_ A i j s -> valid s.
Proof. intros [_ V]. exact V. Qed.

Lemma entry_product a b da db m r i j : a = EM m -> b = EM r -> 1 <= fst da -> 1 <= snd da -> 1 <= fst db -> 1 <= snd db -> snd da = fst db ->
  arr da (at_ (entry a)) a -> arr db (at_ (entry b)) b -> i < fst da -> j < snd db ->
  exists s, mat_mul_entry m r (snd da) i j = Ok s /\ lsame (prods a b (snd da) i j) s.
Proof.
  intros Ea Eb A1 A2 B1 B2 E Hm Hr Hi Hj. rewrite Ea in Hm at 2. rewrite Eb in Hr at 2. apply arr_EM in Hm. apply arr_EM in Hr. unfold mat_mul_entry.
  match goal with |- context [foldM ?g _ _] =>
    destruct (foldM_nth g (seq 0 (snd da)) (SK n0) (fun k acc => prods a b k i j = Ok acc /\ valid acc /\ normal acc)) as (out & -> & Ho)
  end.
  - intros k x acc Hk (Ha & Va & Na). assert (Hk' : k < snd da) by (apply nth_error_bound in Hk; rewrite seq_length in Hk; exact Hk).
    rewrite nth_error_seq_at in Hk by exact Hk'. injection Hk as <-. cbn [Nat.add].
    destruct (mat_get_grid da _ m i k A1 A2 (at_valid (entry a)) Hm Hi Hk') as (s & -> & Es & Vs). cb.
    destruct (mat_get_grid db _ r k j B1 B2 (at_valid (entry b)) Hr) as (t & -> & Et & Vt); [lia | exact Hj|]. cb.
    destruct (mul_total s t Vs Vt) as (u & Eu & Vu & _). rewrite Eu. cb. destruct (plus_total acc u Va Vu) as (w & Ew & Vw & Nw). rewrite Ew. exists w. split; [reflexivity|]. split; [|split; assumption].
    cbn [prods]. rewrite Ha. cb. rewrite Es, Et, Eu. cb. exact Ew.
  - split; [reflexivity|]. split; exact I.
  - cb. rewrite seq_length in Ho. destruct Ho as (Eo & Vo & No). apply (lsame_simplified FL ONE). split; [exact Vo|]. exists out. repeat split; try assumption. left. reflexivity.
Qed.

Lemma template_product a b da db m r : a = EM m -> b = EM r -> 1 <= fst da -> 1 <= snd da -> 1 <= fst db -> 1 <= snd db -> snd da = fst db ->
  arr da (at_ (entry a)) a -> arr db (at_ (entry b)) b -> gm (fst da, snd db) (prods a b (snd da)) (mat_mul_template m r).
Proof.
  intros Ea Eb A1 A2 B1 B2 E Ha Hb. pose proof Ha as Gm. rewrite Ea in Gm at 2. apply arr_EM in Gm. pose proof Hb as Gr. rewrite Eb in Gr at 2. apply arr_EM in Gr. unfold mat_mul_template.
  rewrite (mat_check_grid da _ m A1 (at_valid (entry a)) Gm), (mat_check_grid db _ r B1 (at_valid (entry b)) Gr). cb.
  rewrite (mat_dims_grid da _ m A1 (at_valid (entry a)) Gm), (mat_dims_grid db _ r B1 (at_valid (entry b)) Gr). cb.
  rewrite E, Nat.eqb_refl. cb. rewrite <- E.
  destruct (mapM_seq (fun i => mapM (fun j => mat_mul_entry m r (snd da) i j) (seq 0 (snd db))) (fst da) (fun i => col (snd db) (fun j => lsame (prods a b (snd da) i j)))) as (l & -> & L & Hl).
  - intros i Hi. destruct (mapM_seq (fun j => mat_mul_entry m r (snd da) i j) (snd db) (fun j => lsame (prods a b (snd da) i j))) as (row & Er & Lr & Hrow).
    + intros j Hj. apply (entry_product a b da db m r i j Ea Eb); assumption.
    + exists row. split; [exact Er|]. split; assumption.
  - cb. apply (concretize_rows_arr (fst da, snd db) (fun i j => lsame (prods a b (snd da) i j)) l A1 B2 (rows_by_terms _) (rows_valid _)). split; assumption.
Qed.

Lemma matrix_product (m r : matrix) (da db : nat * nat) : valid_array da (EM m) -> valid_array db (EM r) -> snd da = fst db ->
  gm (fst da, snd db) (prods (EM m) (EM r) (snd da)) (expr_mul (EM m) (GExpr (EM r))).
Proof.
  intros Va Vb E. pose proof (valid_array_arr da _ Va) as Ha. pose proof (valid_array_arr db _ Vb) as Hb. destruct Va as (A1 & A2 & _). destruct Vb as (B1 & B2 & _).
  change (arr da (at_ (entry (EM m))) (EM m)) in Ha. change (arr db (at_ (entry (EM r))) (EM r)) in Hb.
  pose proof (template_product (EM m) (EM r) da db m r eq_refl eq_refl A1 A2 B1 B2 E Ha Hb) as T. pose proof (proj1 (arr_EM _ _ _) Ha) as Gm.
  assert (O : operand_check dims_mul (mat_dims m) (GExpr (EM r)) = Ok tt).
  { apply (operand_check_ok dims_mul _ da (GExpr (EM r)) (EM r) db (at_ (entry (EM r))) (mat_dims_grid da _ m A1 (at_valid _) Gm) eq_refl B1 B2 (at_valid _) Hb). unfold dims_mul. rewrite E, Nat.eqb_refl. reflexivity. }
  pose proof (mat_check_grid da _ m A1 (at_valid _) Gm) as C.
  cbn [expr_mul]. destruct m as [l|l|l|l]; cbn [mat_mul]; unfold k_mat_mul, var_mat_mul, mono_mat_mul, poly_mat_mul; rewrite ?C, O; cb; try exact T; apply gm_simplify; assumption.
Qed.

(** ** a row times a column of variables *)
Lemma row_exact {T} n a b i (f : T -> scalar) (row : list T) (xs : list var) (g : scalar -> nat * T -> res scalar) :
  col n (fun l t => at_ (entry a) i l (f t)) row -> col n (fun l x => at_ (entry b) l 0 (SV x)) xs ->
  (forall acc l x t y, nth_error row l = Some y -> nth_error xs l = Some x -> scalar_mul (f y) (SV x) = Ok t -> g acc (l, y) = scalar_plus acc t) ->
  exists s, foldM g (SK n0) (enum row) = Ok s /\ lsame (prods a b n i 0) s.
Proof.
  intros [Lr Hr] [Lx Hx] Hg.
  destruct (foldM_nth g (enum row) (SK n0) (fun k acc => prods a b k i 0 = Ok acc /\ valid acc /\ normal acc)) as (out & E & Ho).
  - intros k ct acc Ek (Ha & Va & Na). assert (Hk : k < n) by (apply nth_error_bound in Ek; rewrite enum_length in Ek; lia).
    destruct (Hr k Hk) as (t & Et & Ht & Vt). destruct (Hx k Hk) as (x & Ex & Sx & Vx).
    apply nth_error_enum in Ek. destruct ct as [k' t']. cbn in Ek. destruct Ek as [-> Ek]. rewrite Et in Ek. injection Ek as <-.
    destruct (mul_total (f t) (SV x) Vt Vx) as (u & Eu & Vu & _). rewrite (Hg acc k x _ t Et Ex Eu). destruct (plus_total acc u Va Vu) as (w & Ew & Vw & Nw). exists w. split; [exact Ew|]. split; [|split; assumption].
    cbn [prods]. rewrite Ha. cb. rewrite Ht, Sx, Eu. cb. exact Ew.
  - split; [reflexivity|]. split; exact I.
  - exists out. split; [exact E|]. rewrite enum_length, Lr in Ho. destruct Ho as (Eo & Vo & No). split; [exact Vo|]. exists out. repeat split; try assumption. left. reflexivity.
Qed.
Lemma gm_row T (x : res scalar) : (exists s, x = Ok s /\ lsame (T 0 0) s) -> gm (1, 1) T (as_ES x).
Proof. intros (s & -> & Hs). exists (ES s). split; [reflexivity|]. apply arr_ES. exact Hs. Qed.

Lemma variables_product (m : matrix) (xs : list var) (da db : nat * nat) : valid_array da (EM m) -> valid_array db (EV (VV xs)) -> snd da = fst db -> row_by_row (EM m) (EV (VV xs)) da ->
  gm (fst da, snd db) (prods (EM m) (EV (VV xs)) (snd da)) (expr_mul (EM m) (GExpr (EV (VV xs)))).
Proof.
  intros Va Vb E HR. pose proof (valid_array_arr da _ Va) as Ha. pose proof (valid_array_arr db _ Vb) as Hb. destruct Va as (A1 & A2 & _). destruct Vb as (B1 & B2 & _).
  change (arr da (at_ (entry (EM m))) (EM m)) in Ha. change (arr db (at_ (entry (EV (VV xs)))) (EV (VV xs))) in Hb. pose proof (proj1 (arr_EM _ _ _) Ha) as Gm.
  assert (O : operand_check dims_mul (mat_dims m) (GExpr (EV (VV xs))) = Ok tt).
  { apply (operand_check_ok dims_mul _ da (GExpr (EV (VV xs))) (EV (VV xs)) db (at_ (entry (EV (VV xs)))) (mat_dims_grid da _ m A1 (at_valid _) Gm) eq_refl B1 B2 (at_valid _) Hb). unfold dims_mul. rewrite E, Nat.eqb_refl. reflexivity. }
  pose proof (mat_check_grid da _ m A1 (at_valid _) Gm) as C. pose proof (arr_EV_cols _ _ _ B1 Hb) as E2.
  assert (Hx : col (snd da) (fun l x => at_ (entry (EV (VV xs))) l 0 (SV x)) xs).
  { rewrite E. assert (X : arr (fst db, 1) (at_ (entry (EV (VV xs)))) (EV (VV xs))) by (rewrite <- E2; destruct db; exact Hb). apply arr_EV in X. cbn [vec_entries] in X. apply col_map in X. exact X. }
  rewrite E2. cbn [expr_mul]. destruct m as [l|l|l|l]; cbn [row_by_row] in HR; try contradiction; cbn [mat_mul]; unfold mono_mat_mul, poly_mat_mul; rewrite C, O; cb; cbn [mat_rows] in Gm; rewrite grid_map in Gm.
  - unfold mono_mat_mul_vars. destruct (proj2 Gm 0 A1) as (row & Er & Hrow). assert (L1 : length l = 1) by (destruct Gm as [L0 _]; rewrite <- HR; exact L0). rewrite L1, Nat.eqb_refl, HR, (index_nth _ _ _ Er). cb.
    match goal with |- context [foldM ?g _ _] => destruct (row_exact (snd da) (EM (MM l)) (EV (VV xs)) 0 SM row xs g Hrow Hx) as (s & -> & Hs) end.
    + intros acc k x t y Ey Ex Et. cbn [fst snd]. rewrite (index_nth _ _ _ Ex). cb. cbn [scalar_mul mono_mul] in Et. unfold as_SM in Et.
      destruct (mono_mul_var y x) as [z|]; [|discriminate Et]. cbn [bind] in Et |- *. injection Et as <-. reflexivity.
    + cb. apply gm_row. apply (lsame_simplified FL ONE). exact Hs.
  - assert (P : forall i row, col (snd da) (fun j b => at_ (entry (EM (MP l))) i j (SP b)) row -> exists s, poly_row_mul_vars row xs = Ok s /\ lsame (prods (EM (MP l)) (EV (VV xs)) (snd da) i 0) s).
    { intros i row Hrow. unfold poly_row_mul_vars. apply (row_exact (snd da) (EM (MP l)) (EV (VV xs)) i SP row xs); [exact Hrow | exact Hx|].
      intros acc k x t y Ey Ex Et. cbn [fst snd]. rewrite (index_nth _ _ _ Ex). cb. cbn [scalar_mul poly_mul] in Et. rewrite Et. reflexivity. }
    destruct (Nat.eqb_spec (length l) 1) as [L1|L1].
    + destruct (proj2 Gm 0 A1) as (row & Er & Hrow). rewrite (index_nth _ _ _ Er). cb. assert (E1 : fst da = 1) by (destruct Gm; lia). rewrite E1.
      apply gm_simplify; [apply le_n | apply le_n|]. apply gm_row. apply P. exact Hrow.
    + destruct (mapM_col (fst da) (fun i => col (snd da) (fun j b => at_ (entry (EM (MP l))) i j (SP b))) (fun i => lsame (prods (EM (MP l)) (EV (VV xs)) (snd da) i 0)) (fun r => poly_row_mul_vars r xs) l) as (p & -> & Hp).
      * intros i row _ Hrow. apply P. exact Hrow.
      * exact Gm.
      * cb. apply (concretize_slice_arr (fst da) (fun i j => lsame (prods (EM (MP l)) (EV (VV xs)) (snd da) i j)) p A1 (rows_by_terms _) (rows_valid _) Hp).
Qed.

Lemma array_product (a b : expr) (da db : nat * nat) : valid_array da a -> valid_array db b -> snd da = fst db -> row_by_row a b da ->
  gm (fst da, snd db) (prods a b (snd da)) (expr_mul a (GExpr b)).
Proof.
  intros Va Vb E HR. destruct a as [s|v|m]; [destruct HR | destruct HR|]. destruct b as [s|[l|l|l|l]|r].
  2,4,5: destruct m; destruct HR. 1: destruct m; destruct HR.
  - apply variables_product; assumption.
  - apply matrix_product; assumption.
Qed.
Lemma product_point (a b : expr) (da db : nat * nat) : valid_array da a -> valid_array db b -> snd da = fst db -> row_by_row a b da ->
  exists e, expr_mul a (GExpr b) = Ok e /\ valid_array (fst da, snd db) e
   /\ forall i j, i < fst da -> j < snd db -> exists ts s, length ts = snd da /\ (forall k, k < snd da -> scalar_mul (entry a i k) (entry b k j) = Ok (nth k ts (SK n0)))
      /\ sum_up (SK n0) ts = Ok s /\ same_terms (entry e i j) s.
Proof.
  intros Va Vb E HR. destruct (array_product a b da db Va Vb E HR) as (e & Ee & He). exists e. split; [exact Ee|]. destruct Va as (A1 & A2 & _). destruct Vb as (B1 & B2 & _).
  split; [exact (arr_valid (fst da, snd db) _ e A1 B2 He (rows_valid _))|]. intros i j Hi Hj. destruct (arr_entry _ _ e i j He Hi Hj) as (_ & t & Et & _ & _ & X).
  destruct (prods_sum _ _ _ _ _ _ Et) as (ts & H1 & H2 & H3). exists ts, t. split; [exact H1|]. split; [exact H2|]. split; [exact H3 | exact X].
Qed.
End PointMul.

Section Exact.
Context {NN : Num} {EX : ExactNum NN}.
Theorem product_entries (a b : expr) (da db : nat * nat) : valid_array da a -> valid_array db b -> snd da = fst db -> row_by_row a b da ->
  exists e, expr_mul a (GExpr b) = Ok e /\ valid_array (fst da, snd db) e
   /\ forall i j, i < fst da -> j < snd db -> exists ts s, length ts = snd da /\ (forall k, k < snd da -> scalar_mul (entry a i k) (entry b k j) = Ok (nth k ts (SK n0)))
      /\ sum_up (SK n0) ts = Ok s /\ same_terms (entry e i j) s.
Proof. exact (product_point float_laws_exact one_zero_exact a b da db). Qed.
End Exact.

Section F64.
Let NN := F64Num.
Existing Instance NN.
Theorem f64_product_entries (a b : expr) (da db : nat * nat) : valid_array da a -> valid_array db b -> snd da = fst db -> row_by_row a b da ->
  exists e, expr_mul a (GExpr b) = Ok e /\ valid_array (fst da, snd db) e
   /\ forall i j, i < fst da -> j < snd db -> exists ts s, length ts = snd da /\ (forall k, k < snd da -> scalar_mul (entry a i k) (entry b k j) = Ok (nth k ts (SK n0)))
      /\ sum_up (SK n0) ts = Ok s /\ same_terms (entry e i j) s.
Proof. exact (product_point float_laws_F64 one_zero_F64 a b da db). Qed.
End F64.
