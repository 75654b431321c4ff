(** * What Plus and simplification compute entry by entry on vectors and matrices *)

From Coq Require Import ZArith NArith Bool List Lia Ring Field.
From Verif Require Import Num Syntax ModelScalar Spec SpecConv SpecEffect Base ScalarValid Eval ScalarOps ScalarMore ScalarNorm ModelShape ModelArith SpecArr Arr ArrPlus Effect.
Import ListNotations.
Local Open Scope num_scope.

Section EffectArr.
Context {NN : Num} {EX : ExactNum NN}.
Add Ring numring_ea : num_ring.

(** the scalar has the value of [L] regrouped, and keeps it when it is simplified again *)
Definition lreg (L : list Monomial) (s : scalar) : Prop :=
  valid s /\ (forall r, reg r (terms s) (terms s) = reg r L L) /\ forall r, eval r s = reg r L L.

Lemma lreg_valid L s : lreg L s -> valid s.
Proof. intros [H _]. exact H. Qed.
Lemma lreg_ext L L' s : (forall r, reg r L L = reg r L' L') -> lreg L s -> lreg L' s.
Proof. intros H (V & R & E). split; [exact V|]. split; intro r; rewrite <- H; auto. Qed.
Lemma lreg_terms L a b : terms b = terms a -> lreg L a -> lreg L b.
Proof.
  intros H (V & R & E). split; [apply valid_terms_iff; rewrite H; apply valid_terms_iff; exact V|].
  split; [rewrite H; exact R|]. intro r. rewrite <- E, <- !eval_terms, H. reflexivity.
Qed.
Lemma lreg_by_terms (L : nat -> nat -> list Monomial) : by_terms (fun i j => lreg (L i j)).
Proof. intros i j a b H. apply lreg_terms. exact H. Qed.

Lemma lreg_simp L s : valid s -> (forall r, reg r (terms s) (terms s) = reg r L L) -> lreg L (ssimplified s).
Proof.
  intros V R. pose proof (ssimplified_valid s V) as V'. split; [exact V'|]. split; intro r.
  - rewrite <- R, <- !ssimplified_reg by assumption.
    rewrite (ssimplified_id (ssimplified s)); [reflexivity | apply zero_laws_exact; exact EX | exact V' | apply ssimplified_normal; exact V].
  - rewrite <- R. apply ssimplified_reg. exact V.
Qed.
Lemma lreg_simplified L s : lreg L s -> exists s', scalar_simplified s = Ok s' /\ lreg L s'.
Proof. intros (V & R & E). exists (ssimplified s). split; [apply scalar_simplified_ok; exact V | apply lreg_simp; assumption]. Qed.
Lemma lreg_eff L x : eff L x -> exists s, x = Ok s /\ lreg L s.
Proof. intros (s & V & -> & R). exists (ssimplified s). split; [reflexivity | apply lreg_simp; assumption]. Qed.
Lemma lreg_plus a b : valid a -> valid b -> exists s, scalar_plus a b = Ok s /\ lreg (listed_sum a b) s.
Proof. intros Va Vb. apply lreg_eff. apply scalar_plus_eff; assumption. Qed.

(** the entry is [A i j] *)
Definition pt (A : nat -> nat -> scalar) (i j : nat) (s : scalar) : Prop := valid s /\ s = A i j.
Local Notation den d A := (arr d (pt A)) (only parsing).
Local Notation lden d L := (arr d (fun i j => lreg (L i j))) (only parsing).

Lemma pt_valid A : forall i j s, pt A i j s -> valid s.
Proof. intros i j s [H _]. exact H. Qed.
Lemma pt_valid0 A : forall i s, pt A i 0 s -> valid s.
Proof. intros i s [H _]. exact H. Qed.
Lemma pt_plus A B i j i' j' a b : pt A i j a -> pt B i' j' b -> exists s, scalar_plus a b = Ok s /\ lreg (listed_sum (A i j) (B i' j')) s.
Proof. intros [Va <-] [Vb <-]. apply lreg_plus; assumption. Qed.

(** ** Simplification *)

Lemma expr_simplified_gen d (P Q : nat -> nat -> scalar -> Prop) e : 1 <= fst d -> 1 <= snd d -> (forall i j s, P i j s -> valid s) -> by_terms Q ->
  (forall i j s, P i j s -> exists s', scalar_simplified s = Ok s' /\ Q i j s') ->
  arr d P e -> exists e', expr_simplified e = Ok e' /\ arr d Q e'.
Proof.
  intros Hn Hc HV HT HS H.
  assert (HKV : forall i j s, P i j s -> (match s with SK _ | SV _ => True | _ => False end) -> Q i j s).
  { intros i j s Hs T. destruct (HS i j s Hs) as (s' & E & Hq). rewrite scalar_simplified_ok in E by (exact (HV _ _ _ Hs)).
    destruct s; try destruct T; cbn [ssimplified] in E; injection E as <-; exact Hq. }
  destruct e as [s|v|m]; cbn [expr_simplified].
  - pose proof (arr_ES_dims _ _ _ Hn H) as ->. apply arr_ES in H. destruct (HS 0 0 s H) as (s' & -> & Hs). cbn.
    exists (ES s'). split; [reflexivity | apply arr_ES; exact Hs].
  - pose proof (arr_EV_cols _ _ _ Hn H) as Hs. destruct d as [n c]. cbn in Hs. subst c. cbn [fst snd] in *. pose proof H as H0. apply arr_EV in H.
    assert (C : vec_check v = true). { eapply vec_check_col; [exact Hn | | exact H]. intros i s. apply HV. }
    destruct (mapM_col n (fun i => P i 0) (fun i => Q i 0) scalar_simplified (vec_entries v)) as (l & El & Hl); [intros i a _; apply HS | exact H|].
    destruct (concretize_vector_arr n Q l Hn HT Hl) as (v' & Ev & Hv').
    destruct v as [l0|l0|l0|l0]; unfold vec_simplified; cbn [vec_entries] in H;
      try (eexists; split; [reflexivity | apply arr_EV; cbn [vec_entries]; apply col_map; apply col_map in H;
             eapply col_impl; [|exact H]; intros i a _ Ha; exact (HKV _ _ _ Ha I)]);
      rewrite C; cbn [check bind]; rewrite El; cbn [bind]; rewrite Ev; cbn [bind]; eexists; (split; [reflexivity | exact Hv']).
  - pose proof H as H0. apply arr_EM in H. pose proof (mat_check_grid d P m Hn HV H) as C.
    destruct (mapM_col (fst d) (fun i => col (snd d) (P i)) (fun i => col (snd d) (Q i)) (mapM scalar_simplified) (mat_rows m)) as (l & El & Hl).
    { intros i r _. apply mapM_col. intros j a _. apply HS. }
    { exact H. }
    destruct (concretize_matrix_arr d Q l Hn HT Hl) as (m' & Em & Hm').
    destruct m as [l0|l0|l0|l0]; unfold mat_simplified; cbn [mat_rows] in H;
      try (eexists; split; [reflexivity | apply arr_EM; cbn [mat_rows]; apply grid_map; apply (proj1 (grid_map _ _ _ _)) in H;
             revert H; apply grid_impl; intros i j a _ _ Ha; exact (HKV _ _ _ Ha I)]);
      rewrite C; cbn [check bind]; rewrite El; cbn [bind]; rewrite Em; cbn [bind]; eexists; (split; [reflexivity | exact Hm']).
Qed.

Definition gd (d : nat * nat) (L : nat -> nat -> list Monomial) (x : res expr) : Prop := exists e, x = Ok e /\ lden d L e.

Lemma gd_ext d L L' x : (forall i j r, i < fst d -> j < snd d -> reg r (L i j) (L i j) = reg r (L' i j) (L' i j)) -> gd d L x -> gd d L' x.
Proof.
  intros H (e & E & He). exists e. split; [exact E|]. eapply arr_impl; [|exact He]. intros i j a Hi Hj. apply lreg_ext. intro r. apply H; assumption.
Qed.
Lemma gd_simplify d L x : 1 <= fst d -> 1 <= snd d -> gd d L x -> gd d L (simplify_result x).
Proof.
  intros H1 H2 (e & -> & H).
  destruct (expr_simplified_gen d (fun i j => lreg (L i j)) (fun i j => lreg (L i j)) e H1 H2) as (e' & E & H');
    [intros i j s; apply lreg_valid | apply lreg_by_terms | intros i j s; apply lreg_simplified | exact H|].
  exists e'. auto.
Qed.
Lemma gd_ES L x : (exists s, x = Ok s /\ lreg L s) -> gd (1, 1) (fun _ _ => L) (as_ES x).
Proof. intros (s & -> & H). exists (ES s). split; [reflexivity|]. apply arr_ES. exact H. Qed.

Definition bA (e : expr) (A : nat -> nat -> scalar) (i j : nat) : scalar := match e with ES _ => A 0 0 | _ => A i j end.

(** ** Vectors *)

Lemma vec_plus_template_gd n db A B v e : 1 <= n -> den (n, 1) A (EV v) -> den db B e ->
  1 <= fst db -> not_matrix e -> (db = (n, 1) \/ is_scalar e) ->
  gd (n, 1) (fun i j => listed_sum (A i j) (bA e B i j)) (vec_plus_template v e).
Proof.
  intros Hn Hv He Hb NM H. destruct e as [s|w|m]; [| |destruct NM].
  - pose proof (arr_ES_dims _ _ _ Hb He) as ->. apply arr_ES in He. cbn [bA]. apply arr_EV in Hv. cbn [vec_plus_template].
    destruct (mapM_col n _ (fun i => lreg (listed_sum (A i 0) (B 0 0))) (fun a => scalar_plus a s) _
              (fun i a _ Ha => pt_plus A B i 0 0 0 a s Ha He) Hv) as (l & -> & Hl). cbn.
    apply (concretize_slice_arr n (fun i j => lreg (listed_sum (A i j) (B 0 0)))); [exact Hn | apply lreg_by_terms | | exact Hl].
    intros i j a. apply lreg_valid.
  - destruct H as [->|[]]. apply arr_EV in Hv. apply arr_EV in He. cbn [vec_plus_template bA].
    destruct (mapM_enum (fun ia => b <- vec_get w (fst ia) ;; scalar_plus (snd ia) b) (vec_entries v)
              (fun i => lreg (listed_sum (A i 0) (B i 0)))) as (l & -> & L & Hl).
    + intros i a Ha. cbn [fst snd]. assert (Hi : i < n) by (destruct Hv as [<- _]; eapply nth_error_bound; exact Ha).
      destruct (vec_get_col n _ w i Hn (pt_valid0 B) He Hi) as (b & -> & _ & Hb'). cbn.
      exact (pt_plus A B i 0 i 0 _ _ (col_nth _ _ _ _ _ Hv Ha) Hb').
    + cbn. destruct Hv as [Lv _]. rewrite Lv in L, Hl.
      apply (concretize_slice_arr n (fun i j => lreg (listed_sum (A i j) (B i j))));
        [exact Hn | apply lreg_by_terms | | split; [exact L | exact Hl]].
      intros i j a. apply lreg_valid.
Qed.

Lemma vec_plus_expr_gd n db A B v e : 1 <= n -> den (n, 1) A (EV v) -> den db B e ->
  1 <= fst db -> not_matrix e -> (db = (n, 1) \/ is_scalar e) ->
  gd (n, 1) (fun i j => listed_sum (A i j) (bA e B i j)) (vec_plus_expr v e).
Proof.
  intros Hn Hv He Hb NM H. unfold vec_plus_expr.
  rewrite (vec_check_col n _ v Hn (pt_valid0 A) (proj1 (arr_EV _ _ _) Hv)). cbn [check bind].
  assert (H2 : 1 <= snd db) by (destruct e as [s|w|m]; [rewrite (arr_ES_dims _ _ _ Hb He); cbn; lia | rewrite (arr_EV_cols _ _ _ Hb He); lia | destruct NM]).
  rewrite (operand_check_ok dims_add _ (n, 1) (GExpr e) e db _ (vec_dims_col n _ v Hn (pt_valid0 A) (proj1 (arr_EV _ _ _) Hv)) eq_refl Hb H2
             (pt_valid B) He).
  2:{ destruct H as [->|H]; [apply dims_add_same|]. destruct e; try destruct H. rewrite (arr_ES_dims _ _ _ Hb He). apply dims_add_l. }
  cbn [bind]. apply gd_simplify; [exact Hn | cbn; lia |].
  apply (vec_plus_template_gd n db); assumption.
Qed.

Lemma f_one (f : num) : f * n1 = f.
Proof. ring. Qed.
Lemma swap_k k s : valid s -> forall r, reg r (listed_sum s (SK k)) (listed_sum s (SK k)) = reg r (listed_sum (SK k) s) (listed_sum (SK k) s).
Proof.
  intros V r. pose proof (valid_terms s V) as VT. transitivity (reg r (terms s ++ [k_to_mono k]) (terms s ++ [k_to_mono k])); [destruct s; reflexivity|].
  rewrite (rotate_rigid r (k_to_mono k) (terms s) (vk k) VT (rigid_k k)). reflexivity.
Qed.
Lemma swap_v x s : valid_var x -> valid s -> forall r, reg r (listed_sum s (SV x)) (listed_sum s (SV x)) = reg r (listed_sum (SV x) s) (listed_sum (SV x) s).
Proof.
  intros Vx V r. pose proof (valid_terms s V) as VT. transitivity (reg r (terms s ++ [var_to_mono x]) (terms s ++ [var_to_mono x])); [destruct s; reflexivity|].
  rewrite (rotate_rigid r (var_to_mono x) (terms s)); [reflexivity | | exact VT | apply var_rigid].
  pose proof (valid_terms (SV x) Vx) as H. inversion H; assumption.
Qed.

Lemma vec_plus_gd n db A B v g e : 1 <= n -> den (n, 1) A (EV v) -> means g = Some e -> den db B e ->
  1 <= fst db -> (db = (n, 1) \/ is_scalar e) -> vec_plus_type v g = true ->
  gd (n, 1) (fun i j => listed_sum (A i j) (bA e B i j)) (vec_plus v g).
Proof.
  intros Hn Hv Hm He Hb H HT. unfold vec_plus.
  assert (NM : not_matrix e).
  { destruct e as [s|w|m]; try exact I. destruct g as [f|z|l|l|l|l|[]|]; try discriminate Hm; discriminate HT. }
  rewrite (vec_check_col n _ v Hn (pt_valid0 A) (proj1 (arr_EV _ _ _) Hv)). cbn [check bind].
  assert (H2 : 1 <= snd db) by (destruct e as [s|w|m]; [rewrite (arr_ES_dims _ _ _ Hb He); cbn; lia | rewrite (arr_EV_cols _ _ _ Hb He); lia | destruct NM]).
  assert (HC : operand_check dims_add (vec_dims v) g = Ok tt).
  { destruct (means_as_expr g e Hm) as [Eg|(z & -> & _)]; [|reflexivity].
    apply (operand_check_ok dims_add _ (n, 1) _ e db _ (vec_dims_col n _ v Hn (pt_valid0 A) (proj1 (arr_EV _ _ _) Hv)) Eg Hb H2
             (pt_valid B) He).
    destruct H as [->|H]; [apply dims_add_same|]. destruct e; try destruct H. rewrite (arr_ES_dims _ _ _ Hb He). apply dims_add_l. }
  rewrite HC. cbn [bind].
  assert (HE : gd (n, 1) (fun i j => listed_sum (A i j) (bA e B i j)) (vec_plus_expr v e)) by (apply (vec_plus_expr_gd n db); assumption).
  assert (HE' : gd (n, 1) (fun i j => listed_sum (A i j) (bA e B i j)) (simplify_result (vec_plus_expr v e)))
    by (apply gd_simplify; [exact Hn | cbn; lia | exact HE]).
  destruct g as [f|z|l|l|l|l|e'|]; cbn in Hm; try discriminate; injection Hm as <-.
  - (* float64 *) destruct v as [l|l|l|l]; try exact HE'.
    pose proof (arr_ES_dims _ _ _ Hb He) as ->. apply arr_ES in He. destruct He as [_ EB]. cbn [bA] in *.
    pose proof (proj1 (arr_EV _ _ _) Hv) as [Ll Hl]. cbn [vec_entries] in Ll, Hl. rewrite map_length in Ll.
    destruct (Nat.eqb_spec (length l) 1) as [E1|E1].
    + rewrite <- Ll, E1 in *. destruct l as [|k [|]]; try discriminate. cbn. exists (ES (SK (k + f))). split; [reflexivity|]. apply arr_ES.
      destruct (Hl 0) as (s & Es & Vs & Hs); [lia|]. cbn in Es. injection Es as <-. rewrite <- Hs, <- EB.
      destruct (lreg_plus (SK k) (SK f) I I) as (s & Es & Gs). cbn in Es. injection Es as <-. exact Gs.
    + rewrite Ll. destruct n as [|n']; [lia|]. cbn [ones_vector bind].
      apply gd_simplify; [exact Hn | cbn; lia|].
      assert (HK : den (S n', 1) (fun _ _ => B 0 0) (EV (VK (map (fun x => f * x) (repeat n1 (S n')))))).
      { apply arr_EV. cbn [vec_entries]. apply col_map. split; [rewrite map_length; apply repeat_length|]. intros i Hi.
        exists (f * n1). split.
        - rewrite nth_error_map. rewrite (nth_error_nth' _ n0) by (rewrite repeat_length; exact Hi). cbn [option_map]. f_equal. f_equal.
          apply (nth_repeat_lt n0 n1). exact Hi.
        - rewrite f_one. split; [exact I | exact EB]. }
      exact (vec_plus_expr_gd (S n') (S n', 1) A (fun _ _ => B 0 0) (VK l) (EV (VK (map (fun x => f * x) (repeat n1 (S n'))))) Hn Hv HK Hn I (or_introl eq_refl)).
  - (* int *) destruct v as [l|l|l|l]; try discriminate HT; exact HE'.
  - (* mat.VecDense *) destruct v as [l0|l0|l0|l0]; try discriminate HT; exact HE'.
  - destruct v as [l0|l0|l0|l0]; try discriminate HT; exact HE'.
  - (* an expression *) apply gd_simplify; [exact Hn | cbn; lia|]. apply (vec_plus_template_gd n db); assumption.
Qed.

(** ** Matrices *)

Lemma mat_plus_template_gd d A B m r : 1 <= fst d -> 1 <= snd d -> den d A (EM m) -> den d B (EM r) ->
  gd d (fun i j => listed_sum (A i j) (B i j)) (as_EM (mat_plus_template m r)).
Proof.
  intros H1 H2 Hm Hr. apply arr_EM in Hm. apply arr_EM in Hr. unfold mat_plus_template.
  rewrite (mat_check_grid d _ m H1 (pt_valid A) Hm), (mat_check_grid d _ r H1 (pt_valid B) Hr). cbn [check bind].
  rewrite (mat_dims_grid d _ m H1 (pt_valid A) Hm), (mat_dims_grid d _ r H1 (pt_valid B) Hr). cbn [bind].
  unfold dims_eqb. rewrite !Nat.eqb_refl. cbn [andb check bind].
  destruct (mapM_seq (fun i => mapM (fun j => a <- mat_get m i j ;; b <- mat_get r i j ;; scalar_plus a b) (seq 0 (snd d))) (fst d)
              (fun i => col (snd d) (fun j => lreg (listed_sum (A i j) (B i j))))) as (l & -> & Ll & Hl).
  - intros i Hi.
    destruct (mapM_seq (fun j => a <- mat_get m i j ;; b <- mat_get r i j ;; scalar_plus a b) (snd d)
                (fun j => lreg (listed_sum (A i j) (B i j)))) as (l & -> & Ll & Hl).
    + intros j Hj. destruct (mat_get_grid d _ m i j H1 H2 (pt_valid A) Hm Hi Hj) as (a & -> & Ha). cbn.
      destruct (mat_get_grid d _ r i j H1 H2 (pt_valid B) Hr Hi Hj) as (b & -> & Hb). cbn. exact (pt_plus A B i j i j a b Ha Hb).
    + exists l. split; [reflexivity|]. split; assumption.
  - cbn [bind]. destruct (concretize_matrix_arr d (fun i j => lreg (listed_sum (A i j) (B i j))) l) as (e & -> & He);
      [exact H1 | apply lreg_by_terms | split; assumption|].
    exists (EM e). split; [reflexivity | exact He].
Qed.

Lemma k_mat_plus_float_gd d A B l f : 1 <= fst d -> 1 <= snd d -> den d A (EM (MK l)) -> pt B 0 0 (SK f) ->
  gd d (fun i j => listed_sum (A i j) (B 0 0)) (k_mat_plus_float l f).
Proof.
  intros H1 H2 Hl [_ EB]. apply arr_EM in Hl. cbn [mat_rows] in Hl. apply (proj1 (grid_map _ _ _ _)) in Hl. unfold k_mat_plus_float.
  rewrite (rows_dims_grid d _ l H1 Hl). cbn [bind]. rewrite (ones_matrix_ok d H1 H2). cbn [bind].
  rewrite (k_to_dense_grid d _ l H1 H2 Hl). cbn [bind]. eexists. split; [reflexivity|]. apply arr_EM. cbn [mat_rows]. apply grid_map.
  pose proof (grid_repeat d (fun _ _ x => x = n1) n1 (fun _ _ _ _ => eq_refl)) as Ho.
  set (o := repeat (repeat n1 (snd d)) (fst d)) in *. clearbody o.
  destruct Hl as [Ll Hl]. destruct Ho as [Lo Ho]. split; [rewrite map_length, combine_length; lia|]. intros i Hi.
  destruct (Hl i Hi) as (row & Er & Lr & Hr). destruct (Ho i Hi) as (orow & Eo & Lor & Hor).
  eexists. split; [rewrite nth_error_map, nth_error_combine, Eo, Er; reflexivity|]. cbn [fst snd].
  split; [rewrite map_length, combine_length; lia|]. intros j Hj. destruct (Hr j Hj) as (k & Ek & Vk & Hk). destruct (Hor j Hj) as (o1 & Eo1 & ->).
  eexists. split; [rewrite nth_error_map, nth_error_combine, Eo1, Ek; reflexivity|]. cbn [fst snd].
  rewrite <- Hk, <- EB. destruct (lreg_plus (SK k) (SK f) I I) as (s & Es & Gs). cbn in Es. injection Es as <-.
  replace (f * n1 + k) with (k + f) by ring. exact Gs.
Qed.

Lemma k_mat_plus_mat_gd d A B l r : 1 <= fst d -> 1 <= snd d -> den d A (EM (MK l)) -> den d B (EM r) ->
  gd d (fun i j => listed_sum (A i j) (B i j)) (k_mat_plus_mat l r).
Proof.
  intros H1 H2 Hl Hr. unfold k_mat_plus_mat.
  rewrite (operand_check_ok dims_add _ d (GExpr (EM r)) (EM r) d _ (mat_dims_grid d _ (MK l) H1 (pt_valid A) (proj1 (arr_EM _ _ _) Hl)) eq_refl H1 H2
             (pt_valid B) Hr (dims_add_same d)). cbn [bind].
  apply gd_simplify; try assumption. apply mat_plus_template_gd; assumption.
Qed.

Lemma mat_operand_pt d db A B m g e : 1 <= fst d -> 1 <= snd d -> den d A (EM m) -> means g = Some e -> den db B e ->
  1 <= fst db -> 1 <= snd db -> (db = d \/ is_scalar e) -> operand_check dims_add (mat_dims m) g = Ok tt.
Proof.
  intros H1 H2 Hm Hg He B1 B2 H. destruct (means_as_expr g e Hg) as [Eg|(z & -> & _)]; [|reflexivity].
  apply (operand_check_ok dims_add _ d g e db _ (mat_dims_grid d _ m H1 (pt_valid A) (proj1 (arr_EM _ _ _) Hm)) Eg B1 B2 (pt_valid B) He).
  destruct H as [->|H]; [apply dims_add_same|]. destruct e; try destruct H. rewrite (arr_ES_dims _ _ _ B1 He). apply dims_add_l.
Qed.

Lemma k_mat_plus_gd d db A B l g e : 1 <= fst d -> 1 <= snd d -> den d A (EM (MK l)) -> means g = Some e -> den db B e ->
  1 <= fst db -> 1 <= snd db -> (db = d \/ is_scalar e) -> k_mat_plus_type g = true ->
  gd d (fun i j => listed_sum (A i j) (bA e B i j)) (k_mat_plus l g).
Proof.
  intros H1 H2 Hl Hg He B1 B2 H HT. unfold k_mat_plus. rewrite (mat_operand_pt d db A B (MK l) g e H1 H2 Hl Hg He B1 B2 H). cbn [bind].
  pose proof (proj1 (arr_EM _ _ _) Hl) as Hg'. cbn [mat_rows] in Hg'. apply (proj1 (grid_map _ _ _ _)) in Hg'. rewrite (rows_dims_grid d _ l H1 Hg'). cbn [bind].
  assert (HS : forall s, e = ES s -> pt B 0 0 s). { intros s ->. rewrite (arr_ES_dims _ _ _ B1 He) in He. apply arr_ES in He. exact He. }
  assert (HM : forall m, e = EM m -> den d B (EM m)). { intros m ->. destruct H as [->|[]]. exact He. }
  destruct g as [f|z|l0|l0|l0|l0|[[k|x|mo|p]|v|m]|]; cbn in Hg; try discriminate Hg; try discriminate HT; injection Hg as <-; cbn [bA];
    repeat (apply gd_simplify; [assumption|assumption|]).
  - apply k_mat_plus_float_gd; auto.
  - apply k_mat_plus_mat_gd; auto.
  - apply k_mat_plus_mat_gd; auto.
  - apply k_mat_plus_float_gd; auto.
  - apply (k_mat_plus_mat_gd d A (fun _ _ => B 0 0)); try assumption. apply arr_EM. cbn [mat_rows]. apply grid_map. apply grid_repeat. intros i j _ _.
    exact (HS _ eq_refl).
  - apply mat_plus_template_gd; auto.
Qed.

(** ** VariableMatrix *)

Definition rgd (d : nat * nat) (L : nat -> nat -> list Monomial) (x : res expr) : Prop := forall e, x = Ok e -> lden d L e.
Lemma gd_rgd d L x : gd d L x -> rgd d L x.
Proof. intros (e & E & H) e' E'. congruence. Qed.

Lemma var_mat_plus_k_rgd d A B l r : den d A (EM (MV l)) -> den d B (EM (MK r)) ->
  rgd d (fun i j => listed_sum (A i j) (B i j)) (var_mat_plus_k l r).
Proof.
  intros Hl Hr e E. apply arr_EM in Hl. apply arr_EM in Hr. cbn [mat_rows] in Hl, Hr. apply (proj1 (grid_map _ _ _ _)) in Hl. apply (proj1 (grid_map _ _ _ _)) in Hr.
  unfold var_mat_plus_k in E. match type of E with (x <- ?t ;; _) = _ => destruct t as [rows|] eqn:Erows; [|discriminate] end.
  cbn in E. injection E as <-. apply arr_EM. cbn [mat_rows]. apply grid_map. apply mapM_inv in Erows. destruct Erows as [L H]. rewrite enum_length in L.
  destruct Hl as [Ll Hl]. split; [lia|]. intros i Hi. destruct (Hl i Hi) as (row & Er & Lr & Hrow).
  destruct (H i (i, row)) as (row' & Erow' & E).
  { unfold enum. rewrite nth_error_combine, Er. rewrite (nth_error_nth' (seq 0 (length l)) 0) by (rewrite seq_length; lia). rewrite seq_nth by lia. reflexivity. }
  exists row'. split; [exact Erow'|]. apply mapM_inv in E. destruct E as [L' H']. cbn [snd] in L'. rewrite enum_length in L'. split; [lia|].
  intros j Hj. destruct (Hrow j Hj) as (x & Ex & Hx). destruct (H' j (j, x)) as (p & Ep & E).
  { unfold enum. cbn [snd]. rewrite nth_error_combine, Ex. rewrite (nth_error_nth' (seq 0 (length row)) 0) by (rewrite seq_length; lia). rewrite seq_nth by lia. reflexivity. }
  exists p. split; [exact Ep|]. cbn [fst snd] in E. destruct Hr as [Lr' Hr]. destruct (Hr i Hi) as (krow & Ekr & Lkr & Hkrow). destruct (Hkrow j Hj) as (k & Ek & Hk).
  rewrite (index_nth _ _ _ Ekr) in E. cbn in E. rewrite (index_nth _ _ _ Ek) in E. cbn [bind] in E.
  destruct (pt_plus A B i j i j _ _ Hx Hk) as (s & Es & Hs). cbn [scalar_plus var_plus] in Es. rewrite Es in E. cbn in E.
  destruct s; try discriminate. injection E as <-. exact Hs.
Qed.

Lemma var_mat_plus_rgd d db A B l g e : 1 <= fst d -> 1 <= snd d -> den d A (EM (MV l)) -> means g = Some e -> den db B e ->
  1 <= fst db -> 1 <= snd db -> (db = d \/ is_scalar e) ->
  rgd d (fun i j => listed_sum (A i j) (bA e B i j)) (var_mat_plus l g).
Proof.
  intros H1 H2 Hl Hg He B1 B2 H. unfold var_mat_plus. rewrite (mat_operand_pt d db A B (MV l) g e H1 H2 Hl Hg He B1 B2 H).
  rewrite (mat_check_grid d _ _ H1 (pt_valid A) (proj1 (arr_EM _ _ _) Hl)), (mat_dims_grid d _ _ H1 (pt_valid A) (proj1 (arr_EM _ _ _) Hl)). cbn [check bind].
  rewrite (ones_matrix_ok d H1 H2). cbn [bind].
  assert (HS : forall f, e = ES (SK f) -> den d (fun _ _ => B 0 0) (EM (MK (map (map (fun x => f * x)) (repeat (repeat n1 (snd d)) (fst d)))))).
  { intros s ->. rewrite (arr_ES_dims _ _ _ B1 He) in He. apply arr_ES in He. apply arr_EM. cbn [mat_rows]. apply grid_map. apply grid_map.
    apply grid_repeat. intros i j _ _. rewrite f_one. exact He. }
  assert (HM : forall m, e = EM m -> den d B (EM m)). { intros m ->. destruct H as [->|[]]. exact He. }
  destruct g as [f|z|l0|l0|l0|l0|[[k|x|mo|p]|v|[lk|lv|lm|lp]]|]; cbn in Hg; try discriminate Hg; injection Hg as <-; cbn [bA]; intros out E; try discriminate E.
  - exact (var_mat_plus_k_rgd d A (fun _ _ => B 0 0) l _ Hl (HS f eq_refl) out E).
  - exact (var_mat_plus_k_rgd d A (fun _ _ => B 0 0) l _ Hl (HS k eq_refl) out E).
  - exact (var_mat_plus_k_rgd d A B l _ Hl (HM _ eq_refl) out E).
Qed.

(** ** PolynomialMatrix *)

Lemma concretize_rows_gd d L rows : 1 <= fst d -> 1 <= snd d -> grid d (fun i j => lreg (L i j)) rows -> gd d L (concretize_rows rows).
Proof.
  intros H1 H2 H. apply (concretize_rows_arr d (fun i j => lreg (L i j))); [exact H1 | exact H2 | apply lreg_by_terms | | exact H].
  intros i j s. apply lreg_valid.
Qed.

Lemma poly_mat_plus_all_gd d A b l s : 1 <= fst d -> 1 <= snd d -> den d A (EM (MP l)) -> valid s ->
  (forall p, terms s = terms b /\ listed_sum (SP p) s = listed_sum (SP p) b) ->
  gd d (fun i j => listed_sum (A i j) b) (poly_mat_plus_all l s).
Proof.
  intros H1 H2 Hl Vs Hb. apply arr_EM in Hl. cbn [mat_rows] in Hl. apply (proj1 (grid_map _ _ _ _)) in Hl. unfold poly_mat_plus_all.
  destruct (mapM_col (fst d) (fun i => col (snd d) (fun j p => pt A i j (SP p))) (fun i => col (snd d) (fun j => lreg (listed_sum (A i j) b)))
              (mapM (fun p => poly_plus p s)) l) as (rows & -> & Hrows).
  - intros i r _. apply mapM_col. intros j p _ [Vp Ep]. rewrite <- Ep, <- (proj2 (Hb p)). exact (lreg_plus (SP p) s Vp Vs).
  - exact Hl.
  - cbn [bind]. apply gd_simplify; try assumption. apply concretize_rows_gd; assumption.
Qed.

Lemma poly_mat_plus_gd d db A B l g e : 1 <= fst d -> 1 <= snd d -> den d A (EM (MP l)) -> means g = Some e -> den db B e ->
  1 <= fst db -> 1 <= snd db -> (db = d \/ is_scalar e) -> poly_mat_plus_type g = true ->
  gd d (fun i j => listed_sum (A i j) (bA e B i j)) (poly_mat_plus l g).
Proof.
  intros H1 H2 Hl Hg He B1 B2 H HT. unfold poly_mat_plus. rewrite (mat_operand_pt d db A B (MP l) g e H1 H2 Hl Hg He B1 B2 H).
  rewrite (mat_check_grid d _ _ H1 (pt_valid A) (proj1 (arr_EM _ _ _) Hl)). cbn [check bind].
  assert (HS : forall s, e = ES s -> pt B 0 0 s). { intros s ->. rewrite (arr_ES_dims _ _ _ B1 He) in He. apply arr_ES in He. exact He. }
  assert (HM : forall m, e = EM m -> den d B (EM m)). { intros m ->. destruct H as [->|[]]. exact He. }
  assert (Hl' := Hl). apply arr_EM in Hl'. cbn [mat_rows] in Hl'. apply (proj1 (grid_map _ _ _ _)) in Hl'.
  assert (HA : forall s, e = ES s -> gd d (fun i j => listed_sum (A i j) (B 0 0)) (poly_mat_plus_all l s)).
  { intros s Es. destruct (HS s Es) as [Vs <-]. apply poly_mat_plus_all_gd; try assumption. intro p. split; reflexivity. }
  destruct g as [f|z|l0|l0|l0|l0|[[k|x|mo|p]|v|[lk|lv|lm|lp]]|]; cbn in Hg; try discriminate Hg; try discriminate HT; injection Hg as <-; cbn [bA];
    repeat (apply gd_simplify; [assumption|assumption|]).
  - apply HA. reflexivity.
  - apply HA. reflexivity.
  - destruct (HS _ eq_refl) as [Vs <-]. apply (poly_mat_plus_all_gd d A (SM mo) l (SP [mo])); try assumption.
    + split; [discriminate | constructor; [exact Vs | constructor]].
    + intro p. split; reflexivity.
  - apply HA. reflexivity.
  - pose proof (HM _ eq_refl) as Hk. assert (Hk' := Hk). apply arr_EM in Hk'.
    destruct (mapM_enum (fun ir => mapM (fun jp => k <- mat_get (MK lk) (fst ir) (fst jp) ;; poly_plus (snd jp) k) (enum (snd ir))) l
                (fun i => col (snd d) (fun j => lreg (listed_sum (A i j) (B i j))))) as (rows & -> & L & Hrows).
    + intros i row Erow. cbn [fst snd]. destruct Hl' as [Ll Hll]. assert (Hi : i < fst d) by (rewrite <- Ll; eapply nth_error_bound; exact Erow).
      destruct (Hll i Hi) as (row0 & Er0 & Lrow & Hrow). assert (row0 = row) by congruence. subst row0.
      destruct (mapM_enum (fun jp => k <- mat_get (MK lk) i (fst jp) ;; poly_plus (snd jp) k) row (fun j => lreg (listed_sum (A i j) (B i j)))) as (row' & -> & L' & Hrow').
      * intros j p Ep. cbn [fst snd]. assert (Hj : j < snd d) by (rewrite <- Lrow; eapply nth_error_bound; exact Ep).
        destruct (Hrow j Hj) as (p0 & Ep0 & Hp). assert (p0 = p) by congruence. subst p0.
        destruct (mat_get_grid d _ (MK lk) i j H1 H2 (pt_valid B) Hk' Hi Hj) as (b & -> & Hb). cbn [bind].
        exact (pt_plus A B i j i j (SP p) b Hp Hb).
      * exists row'. split; [reflexivity|]. split; [lia|]. rewrite <- Lrow. exact Hrow'.
    + cbn [bind]. apply gd_simplify; try assumption. apply concretize_rows_gd; try assumption. destruct Hl' as [Ll Hll]. split; [lia|]. rewrite <- Ll. exact Hrows.
  - pose proof (HM _ eq_refl) as Hp. apply arr_EM in Hp. cbn [mat_rows] in Hp. apply (proj1 (grid_map _ _ _ _)) in Hp.
    destruct (enum_rows_good d _ _ (fun i j => lreg (listed_sum (A i j) (B i j))) l lp (fun p q => poly_plus p (SP q))
                (fun i j p q Hpp Hq => pt_plus A B i j i j (SP p) (SP q) Hpp Hq) Hl' Hp) as (rows & -> & Hrows).
    cbn [bind]. apply gd_simplify; try assumption. apply concretize_rows_gd; assumption.
Qed.

(** ** Every receiver but MonomialMatrix *)

Definition is_mono_matrix (e : expr) : bool := match e with EM (MM _) => true | _ => false end.

Lemma mat_plus_rgd d db A B m g e : 1 <= fst d -> 1 <= snd d -> den d A (EM m) -> means g = Some e -> den db B e ->
  1 <= fst db -> 1 <= snd db -> (db = d \/ is_scalar e) -> plus_accepts (EM m) g = true -> is_mono_matrix (EM m) = false ->
  rgd d (fun i j => listed_sum (A i j) (bA e B i j)) (mat_plus m g).
Proof.
  intros H1 H2 Hm Hg He B1 B2 H HT HV. destruct m as [l|l|l|l]; cbn [mat_plus]; [| |discriminate HV|].
  - apply gd_rgd. apply (k_mat_plus_gd d db); try assumption; destruct g as [f|z|l0|l0|l0|l0|[[k|x|mo|p]|v0|[lk|lv|lm|lp]]|]; (exact HT || reflexivity).
  - apply (var_mat_plus_rgd d db); assumption.
  - apply gd_rgd. apply (poly_mat_plus_gd d db); try assumption; destruct g as [f|z|l0|l0|l0|l0|[[k|x|mo|p]|v0|[lk|lv|lm|lp]]|]; (exact HT || reflexivity).
Qed.

(** a polynomial and an array *)
Lemma poly_plus_vec_gd n a B p v : 1 <= n -> valid (SP p) -> a = SP p -> den (n, 1) B (EV v) ->
  gd (n, 1) (fun i j => listed_sum a (B i j)) (poly_plus_any p (GExpr (EV v))).
Proof.
  intros Hn Hp -> Hv. pose proof (proj1 (arr_EV _ _ _) Hv) as Hv'. unfold poly_plus_any. rewrite (valid_poly_check p Hp). cbn [check bind as_expr expr_check].
  rewrite (vec_check_col n _ v Hn (pt_valid0 B) Hv'). cbn [check bind]. rewrite (vec_len_col n _ v Hn (pt_valid0 B) Hv'). cbn [bind].
  assert (PL : forall i j b, pt B i j b -> exists s, poly_plus p b = Ok s /\ lreg (listed_sum (SP p) (B i j)) s).
  { intros i j b [Vb <-]. exact (lreg_plus (SP p) b Hp Vb). }
  destruct (Nat.eqb_spec n 1) as [->|_].
  - apply gd_simplify; [exact Hn | cbn; lia|]. destruct (vec_get_col 1 _ v 0 Hn (pt_valid0 B) Hv') as (b & -> & _ & Hb); [lia|]. cbn [bind].
    destruct (PL 0 0 b Hb) as (s & E & Hs). rewrite E. exists (ES s). split; [reflexivity|]. apply arr_ES. exact Hs.
  - destruct (mapM_seq (fun i => s <- vec_get v i ;; poly_plus p s) n (fun i => lreg (listed_sum (SP p) (B i 0)))) as (l & -> & L & Hl).
    + intros i Hi. destruct (vec_get_col n _ v i Hn (pt_valid0 B) Hv' Hi) as (b & -> & _ & Hb). cbn [bind]. exact (PL i 0 b Hb).
    + cbn [bind]. apply gd_simplify; [exact Hn | cbn; lia|].
      apply (concretize_slice_arr n (fun i j => lreg (listed_sum (SP p) (B i j)))); [exact Hn | apply lreg_by_terms | | split; assumption].
      intros i j s. apply lreg_valid.
Qed.

Lemma poly_plus_mat_gd d a B p m : 1 <= fst d -> 1 <= snd d -> valid (SP p) -> a = SP p -> den d B (EM m) ->
  gd d (fun i j => listed_sum a (B i j)) (poly_plus_any p (GExpr (EM m))).
Proof.
  intros H1 H2 Hp -> Hm. pose proof (proj1 (arr_EM _ _ _) Hm) as Hm'. unfold poly_plus_any. rewrite (valid_poly_check p Hp). cbn [check bind as_expr expr_check].
  rewrite (mat_check_grid d _ m H1 (pt_valid B) Hm'). cbn [check bind]. rewrite (mat_dims_grid d _ m H1 (pt_valid B) Hm'). cbn [bind].
  assert (PL : forall i j b, pt B i j b -> exists s, poly_plus p b = Ok s /\ lreg (listed_sum (SP p) (B i j)) s).
  { intros i j b [Vb <-]. exact (lreg_plus (SP p) b Hp Vb). }
  destruct (Nat.eqb_spec (fst d) 1) as [E1|E1]; destruct (Nat.eqb_spec (snd d) 1) as [E2|E2]; cbn [andb].
  { destruct d as [d1 d2]. cbn in E1, E2. subst d1 d2.
    apply gd_simplify; [cbn; lia | cbn; lia|]. destruct (mat_get_grid (1, 1) _ m 0 0 H1 H2 (pt_valid B) Hm') as (b & -> & Hb); [cbn; lia | cbn; lia|]. cbn [bind].
    destruct (PL 0 0 b Hb) as (s & E & Hs). rewrite E. exists (ES s). split; [reflexivity|]. apply arr_ES. exact Hs. }
  all: destruct (mapM_seq (fun i => mapM (fun j => s <- mat_get m i j ;; poly_plus p s) (seq 0 (snd d))) (fst d)
              (fun i => col (snd d) (fun j => lreg (listed_sum (SP p) (B i j))))) as (rows & -> & L & Hrows);
    [intros i Hi; destruct (mapM_seq (fun j => s <- mat_get m i j ;; poly_plus p s) (snd d) (fun j => lreg (listed_sum (SP p) (B i j)))) as (l & -> & L & Hl);
      [intros j Hj; destruct (mat_get_grid d _ m i j H1 H2 (pt_valid B) Hm' Hi Hj) as (b & -> & Hb); cbn [bind]; exact (PL i j b Hb)
      | exists l; split; [reflexivity | split; assumption]]
    | cbn [bind]; apply gd_simplify; try assumption; apply (concretize_rows_gd d (fun i j => listed_sum (SP p) (B i j))); [assumption | assumption | split; assumption]].
Qed.

Lemma scalar_plus_float_gd a s f : valid s -> a = s -> exists out, scalar_plus_float s f = Ok out /\ lreg (listed_sum a (SK f)) out.
Proof.
  intros Hs ->. destruct (lreg_plus s (SK f) Hs I) as (out & E & Ho).
  destruct (lreg_simplified _ out Ho) as (out' & E' & Ho').
  destruct s; cbn [scalar_plus_float]; cbn [scalar_plus var_plus mono_plus poly_plus] in E; try rewrite E; cbn [bind]; eauto.
Qed.

(** K or a variable, added to an array by the array *)
Definition light (a : scalar) : Prop := match a with SK _ | SV _ => True | _ => False end.
Lemma swap_light a b r : light a -> valid a -> valid b -> reg r (listed_sum b a) (listed_sum b a) = reg r (listed_sum a b) (listed_sum a b).
Proof. intros H Va Vb. destruct a; try destruct H; [apply swap_k; exact Vb | apply swap_v; assumption]. Qed.

Lemma rgd_ext d L L' x : (forall i j r, i < fst d -> j < snd d -> reg r (L i j) (L i j) = reg r (L' i j) (L' i j)) -> rgd d L x -> rgd d L' x.
Proof.
  intros H G e E. eapply arr_impl; [|exact (G e E)]. intros i j a Hi Hj. apply lreg_ext. intro r. apply H; assumption.
Qed.
Lemma rgd_simplify d L x : 1 <= fst d -> 1 <= snd d -> rgd d L x -> rgd d L (simplify_result x).
Proof.
  intros H1 H2 G. destruct x as [e|p]; [|intros e' E; discriminate E]. apply gd_rgd. apply gd_simplify; [exact H1 | exact H2|].
  exists e. split; [reflexivity | exact (G e eq_refl)].
Qed.
Lemma arr_pt_nth d B e i j : i < fst d -> j < snd d -> den d B e -> valid (B i j).
Proof. intros Hi Hj [L H]. destruct (H i Hi) as (row & _ & _ & Hr). destruct (Hr j Hj) as (s & _ & Vs & <-). exact Vs. Qed.

Lemma plus_scalar_rgd A db B a g b : valid a -> A = a -> means g = Some b -> den db B b -> 1 <= fst db -> 1 <= snd db ->
  plus_accepts (ES a) g = true -> (match a, b with SK _, EM (MM _) => False | _, _ => True end) ->
  rgd db (fun i j => listed_sum A (bA b B i j)) (expr_plus (ES a) g).
Proof.
  intros Ha -> Hg Hb B1 B2 HT HV. pose proof (expr_check_arr _ _ _ B1 B2 (pt_valid B) Hb) as Cb.
  assert (DA : den (1, 1) (fun _ _ => a) (ES a)) by (apply arr_ES; split; [exact Ha | reflexivity]).
  assert (DS : forall s, b = ES s -> valid s /\ s = B 0 0 /\ db = (1, 1)).
  { intros s ->. pose proof (arr_ES_dims _ _ _ B1 Hb) as E. rewrite E in Hb. apply arr_ES in Hb. destruct Hb. auto. }
  assert (SS : forall x, (exists s, b = ES s /\ scalar_plus a s = x) -> rgd db (fun i j => listed_sum a (bA b B i j)) (as_ES x)).
  { intros x (s & E & <-). destruct (DS s E) as (Vs & EB & ->). apply gd_rgd. rewrite E. cbn [bA]. apply gd_ES. rewrite <- EB. apply lreg_plus; assumption. }
  assert (SF : forall f, b = ES (SK f) -> rgd db (fun i j => listed_sum a (bA b B i j)) (as_ES (scalar_plus_float a f))).
  { intros f E. destruct (DS _ E) as (Vs & EB & ->). apply gd_rgd. rewrite E. cbn [bA]. apply gd_ES. rewrite <- EB. apply scalar_plus_float_gd; [assumption | reflexivity]. }
  assert (VE : forall v g', light a -> b = EV v -> means g' = Some (ES a) -> vec_plus_type v g' = true ->
             rgd db (fun i j => listed_sum a (bA b B i j)) (vec_plus v g')).
  { intros v g' HL -> Hg' HT'. pose proof (arr_EV_cols _ _ _ B1 Hb) as E2. destruct db as [n c]. cbn in E2. subst c. cbn [fst snd] in *.
    apply (rgd_ext (n, 1) (fun i j => listed_sum (B i j) a)).
    { intros i j r Hi Hj. apply swap_light; [exact HL | exact Ha | exact (arr_pt_nth (n, 1) B _ i j Hi Hj Hb)]. }
    apply gd_rgd. apply (vec_plus_gd n (1, 1) B (fun _ _ => a) v g' (ES a)); try assumption; try (cbn; lia); right; exact I. }
  assert (ME : forall m, light a -> b = EM m -> plus_accepts (EM m) (GExpr (ES a)) = true -> is_mono_matrix (EM m) = false ->
             rgd db (fun i j => listed_sum a (bA b B i j)) (mat_plus m (GExpr (ES a)))).
  { intros m HL -> HT' HV'. apply (rgd_ext db (fun i j => listed_sum (B i j) a)).
    { intros i j r Hi Hj. apply swap_light; [exact HL | exact Ha | exact (arr_pt_nth db B _ i j Hi Hj Hb)]. }
    apply (mat_plus_rgd db (1, 1) B (fun _ _ => a) m (GExpr (ES a)) (ES a)); try assumption; try reflexivity; try (cbn; lia); right; exact I. }
  destruct a as [c|x|mo|p].
  - (* K *) cbn [expr_plus]. unfold k_plus_any.
    destruct g as [f|z|l|l|l|l|e|]; cbn in Hg; try discriminate Hg; injection Hg as <-; cbn [as_expr expr_check]; rewrite ?Cb; cbn [check bind scalar_check vec_check mat_check].
    + apply SS. exists (SK f). auto.
    + apply SS. exists (SK (nofZ z)). auto.
    + apply VE; (exact I || reflexivity).
    + apply VE; (exact I || reflexivity).
    + apply ME; (exact I || reflexivity).
    + apply ME; (exact I || reflexivity).
    + destruct e as [s|v|m]; [apply SS; exists s; auto | apply VE; (exact I || reflexivity) |].
      apply ME; [exact I | reflexivity | destruct m; reflexivity |]. destruct m; try reflexivity. destruct HV.
  - (* Variable *) cbn [expr_plus]. unfold var_plus_any. pose proof Ha as Vx. apply var_check_valid in Vx. rewrite Vx. cbn [check bind].
    destruct g as [f|z|l|l|l|l|[s|v|m]|]; try discriminate HT; cbn in Hg; injection Hg as <-.
    + apply SF. reflexivity.
    + apply SF. reflexivity.
    + repeat (apply rgd_simplify; [assumption|assumption|]). apply VE; (exact I || reflexivity).
    + repeat (apply rgd_simplify; [assumption|assumption|]). apply VE; (exact I || reflexivity).
    + apply SS. exists s. auto.
    + apply rgd_simplify; [assumption|assumption|]. apply VE; (exact I || reflexivity).
  - (* Monomial *) cbn [expr_plus]. unfold mono_plus_any. rewrite (valid_mono_check mo Ha). cbn [check bind].
    destruct g as [f|z|l|l|l|l|[s|v|m]|]; try discriminate HT; cbn in Hg; injection Hg as <-.
    + cbn. apply SF. reflexivity.
    + unfold operand_check. cbn [as_expr]. rewrite Cb. cbn. apply SS. exists s. auto.
  - (* Polynomial *) cbn [expr_plus].
    destruct g as [f|z|l|l|l|l|[s|v|m]|]; try discriminate HT; cbn in Hg; injection Hg as <-.
    + unfold poly_plus_any. rewrite (valid_poly_check p Ha). cbn. apply SF. reflexivity.
    + unfold poly_plus_any. rewrite (valid_poly_check p Ha). cbn [as_expr check bind]. rewrite Cb. cbn [check bind]. apply SS. exists s. auto.
    + pose proof (arr_EV_cols _ _ _ B1 Hb) as E2. destruct db as [n c]. cbn in E2. subst c. apply gd_rgd. apply poly_plus_vec_gd; (assumption || reflexivity).
    + apply gd_rgd. apply poly_plus_mat_gd; (assumption || reflexivity).
Qed.

End EffectArr.
