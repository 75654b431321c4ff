(** * Plus on vectors and matrices adds the entries as Plus on scalars does *)

From Coq Require Import ZArith NArith Bool List Lia.
From Verif Require Import Num Syntax ModelScalar Spec SpecConv SpecEffect Base ScalarValid Eval ScalarOps ScalarMore ScalarNorm ScalarFacts ModelShape ModelArith SpecArr SpecEffectArr SpecPoint Arr ArrPlus EffectArr SpecRound Round.
Import ListNotations.
Local Open Scope num_scope.

Section PointPlus.
Context {NN : Num} (FL : float_laws).
Let ZL : zero_laws := proj1 FL.
Lemma add_comm_f (x y : num) : x + y = y + x.
Proof. apply FL. Qed.

Context (ONE : (n1 =? n0) = false).

(** the scalar has the terms of the result [R], and keeps them when it is simplified again *)
Definition lsame (R : res scalar) (s : scalar) : Prop :=
  valid s /\ exists t, R = Ok t /\ valid t /\ normal t /\ same_terms s t.

Lemma lsame_valid R s : lsame R s -> valid s.
Proof. intros [H _]. exact H. Qed.
Lemma lsame_terms R a b : terms b = terms a -> lsame R a -> lsame R b.
Proof.
  intros H (V & t & E & Vt & Nt & S). split; [apply valid_terms_iff; rewrite H; apply valid_terms_iff; exact V|].
  exists t. split; [exact E|]. split; [exact Vt|]. split; [exact Nt|]. unfold same_terms in *. rewrite H. exact S.
Qed.
Lemma lsame_by_terms (L : nat -> nat -> res scalar) : by_terms (fun i j => lsame (L i j)).
Proof. intros i j a b H. apply lsame_terms. exact H. Qed.

Lemma psimp_const c : psimp [mkMono c [] []] = [mkMono (if c =? n0 then n0 else c) [] []].
Proof.
  unfold psimp. cbn [simp_pure is_const m_vars m_coeff filter app]. destruct (c =? n0) eqn:E.
  - pose proof FL as (_ & Z2 & _). rewrite (Z2 n0 c (proj1 ZL) E). reflexivity.
  - rewrite (proj2 ZL c E), E. reflexivity.
Qed.
Lemma psimp_one t : is_const t = false -> (m_coeff t =? n0) = false -> psimp [t] = [t].
Proof.
  intros H1 H2. unfold psimp. cbn [simp_pure]. rewrite H1. cbn [add_pure simp_pure]. rewrite (proj1 ZL). cbn [app filter]. unfold nonzero. rewrite H2. reflexivity.
Qed.
Lemma same_simp s t : valid s -> valid t -> normal t -> same_terms s t -> same_terms (ssimplified s) t.
Proof.
  intros Vs Vt Nt [H|(c & d & H1 & H2 & Hc & Hd)].
  - destruct s as [k|v|m|p]; cbn [ssimplified]; try (left; exact H).
    + cbn [terms] in H. unfold msimplified. destruct t as [k|v|m'|p]; cbn [terms] in H.
      * injection H as ->. left. reflexivity.
      * injection H as ->. cbn [m_vars m_coeff]. rewrite ONE. left. destruct (is_plain_var _); reflexivity.
      * injection H as <-. destruct Nt as (N1 & N2 & N3). left. pose proof (ssimplified_id (SM m) ZL Vt (conj N1 (conj N2 N3))) as E. cbn [ssimplified] in E. unfold msimplified in E. rewrite E. reflexivity.
      * destruct Nt as (N1 & _). rewrite <- H in N1. cbn in N1. lia.
    + cbn [terms] in H. destruct t as [k|v|m'|q]; cbn [terms] in H; subst p.
      * destruct (k =? n0) eqn:E.
        -- right. exists n0, k. rewrite (psimplified_terms_f FL) by apply Vs. rewrite psimp_const, E. repeat split. apply (proj1 ZL).
        -- left. rewrite (psimplified_terms_f FL) by apply Vs. rewrite psimp_const, E. reflexivity.
      * left. rewrite (psimplified_terms_f FL) by apply Vs. apply psimp_one; [reflexivity | exact ONE].
      * destruct Nt as (N1 & N2 & _). left. rewrite (psimplified_terms_f FL) by apply Vs. apply psimp_one; [|exact N2]. unfold is_const. destruct (m_vars m'); [congruence | reflexivity].
      * left. rewrite (psimplified_terms_f FL) by apply Vs. cbn [terms]. rewrite psimp_id by assumption. reflexivity.
  - assert (G : terms (ssimplified s) = [mkMono c [] []] \/ terms (ssimplified s) = [mkMono n0 [] []]).
    { destruct s as [k|v|m|p]; cbn [terms] in H1; cbn [ssimplified].
      - left. exact H1.
      - discriminate H1.
      - injection H1 as ->. left. reflexivity.
      - subst p. rewrite (psimplified_terms_f FL) by apply Vs. rewrite psimp_const, Hc. right. reflexivity. }
    right. destruct G as [->| ->]; eexists; exists d; repeat split; try eassumption. apply (proj1 ZL).
Qed.
Lemma lsame_simp R s : lsame R s -> lsame R (ssimplified s).
Proof.
  intros (V & t & E & Vt & Nt & S). split; [apply ssimplified_valid; exact V|]. exists t. split; [exact E|]. split; [exact Vt|]. split; [exact Nt|]. apply same_simp; assumption.
Qed.
Lemma lsame_simplified L s : lsame L s -> exists s', scalar_simplified s = Ok s' /\ lsame L s'.
Proof. intro H. exists (ssimplified s). split; [apply scalar_simplified_ok; apply H | apply lsame_simp; exact H]. Qed.
Lemma lsame_plus a b : valid a -> valid b -> exists s, scalar_plus a b = Ok s /\ lsame (scalar_plus a b) s.
Proof.
  intros Va Vb. destruct (plus_total a b Va Vb) as (s & E & V & N). exists s. split; [exact E|]. split; [exact V|]. exists s. repeat split; try assumption. left. reflexivity.
Qed.

Local Notation den d A := (arr d (pt A)) (only parsing).
Local Notation lden d L := (arr d (fun i j => lsame (L i j))) (only parsing).

Lemma pt_same A B i j i' j' a b : pt A i j a -> pt B i' j' b -> exists s, scalar_plus a b = Ok s /\ lsame (scalar_plus (A i j) (B i' j')) s.
Proof. intros [Va <-] [Vb <-]. apply lsame_plus; assumption. Qed.

Definition gp (d : nat * nat) (L : nat -> nat -> res scalar) (x : res expr) : Prop := exists e, x = Ok e /\ lden d L e.

Lemma gp_ext d L L' x : (forall i j, i < fst d -> j < snd d -> L i j = L' i j) -> gp d L x -> gp d L' x.
Proof.
  intros H (e & E & He). exists e. split; [exact E|]. eapply arr_impl; [|exact He]. intros i j a Hi Hj. cbv beta. rewrite (H i j Hi Hj). intro X. exact X.
Qed.
Lemma gp_simplify d L x : 1 <= fst d -> 1 <= snd d -> gp d L x -> gp d L (simplify_result x).
Proof.
  intros H1 H2 (e & -> & H).
  destruct (expr_simplified_gen d (fun i j => lsame (L i j)) (fun i j => lsame (L i j)) e H1 H2) as (e' & E & H');
    [intros i j s; apply lsame_valid | apply lsame_by_terms | intros i j s; apply lsame_simplified | exact H|].
  exists e'. auto.
Qed.
Lemma gp_ES L x : (exists s, x = Ok s /\ lsame L s) -> gp (1, 1) (fun _ _ => L) (as_ES x).
Proof. intros (s & -> & H). exists (ES s). split; [reflexivity|]. apply arr_ES. exact H. Qed.


(** ** Vectors *)

Lemma vec_plus_template_gp n db A B v e : 1 <= n -> den (n, 1) A (EV v) -> den db B e ->
  1 <= fst db -> not_matrix e -> (db = (n, 1) \/ is_scalar e) ->
  gp (n, 1) (fun i j => scalar_plus (A i j) (bA e B i j)) (vec_plus_template v e).
Proof.
  intros Hn Hv He Hb NM H. destruct e as [s|w|m]; [| |destruct NM].
  - pose proof (arr_ES_dims _ _ _ Hb He) as ->. apply arr_ES in He. cbn [bA]. apply arr_EV in Hv. cbn [vec_plus_template].
    destruct (mapM_col n _ (fun i => lsame (scalar_plus (A i 0) (B 0 0))) (fun a => scalar_plus a s) _
              (fun i a _ Ha => pt_same A B i 0 0 0 a s Ha He) Hv) as (l & -> & Hl). cbn.
    apply (concretize_slice_arr n (fun i j => lsame (scalar_plus (A i j) (B 0 0)))); [exact Hn | apply lsame_by_terms | | exact Hl].
    intros i j a. apply lsame_valid.
  - destruct H as [->|[]]. apply arr_EV in Hv. apply arr_EV in He. cbn [vec_plus_template bA].
    destruct (mapM_enum (fun ia => b <- vec_get w (fst ia) ;; scalar_plus (snd ia) b) (vec_entries v)
              (fun i => lsame (scalar_plus (A i 0) (B i 0)))) as (l & -> & L & Hl).
    + intros i a Ha. cbn [fst snd]. assert (Hi : i < n) by (destruct Hv as [<- _]; eapply nth_error_bound; exact Ha).
      destruct (vec_get_col n _ w i Hn (pt_valid0 B) He Hi) as (b & -> & _ & Hb'). cbn.
      exact (pt_same A B i 0 i 0 _ _ (col_nth _ _ _ _ _ Hv Ha) Hb').
    + cbn. destruct Hv as [Lv _]. rewrite Lv in L, Hl.
      apply (concretize_slice_arr n (fun i j => lsame (scalar_plus (A i j) (B i j))));
        [exact Hn | apply lsame_by_terms | | split; [exact L | exact Hl]].
      intros i j a. apply lsame_valid.
Qed.

Lemma vec_plus_expr_gp n db A B v e : 1 <= n -> den (n, 1) A (EV v) -> den db B e ->
  1 <= fst db -> not_matrix e -> (db = (n, 1) \/ is_scalar e) ->
  gp (n, 1) (fun i j => scalar_plus (A i j) (bA e B i j)) (vec_plus_expr v e).
Proof.
  intros Hn Hv He Hb NM H. unfold vec_plus_expr.
  rewrite (vec_check_col n _ v Hn (pt_valid0 A) (proj1 (arr_EV _ _ _) Hv)). cbn [check bind].
  assert (H2 : 1 <= snd db) by (destruct e as [s|w|m]; [rewrite (arr_ES_dims _ _ _ Hb He); cbn; lia | rewrite (arr_EV_cols _ _ _ Hb He); lia | destruct NM]).
  rewrite (operand_check_ok dims_add _ (n, 1) (GExpr e) e db _ (vec_dims_col n _ v Hn (pt_valid0 A) (proj1 (arr_EV _ _ _) Hv)) eq_refl Hb H2
             (pt_valid B) He).
  2:{ destruct H as [->|H]; [apply dims_add_same|]. destruct e; try destruct H. rewrite (arr_ES_dims _ _ _ Hb He). apply dims_add_l. }
  cbn [bind]. apply gp_simplify; [exact Hn | cbn; lia |].
  apply (vec_plus_template_gp n db); assumption.
Qed.


Lemma vec_plus_gp n db A B v g e : (forall f, e = ES (SK f) -> f * n1 = f) -> 1 <= n -> den (n, 1) A (EV v) -> means g = Some e -> den db B e ->
  1 <= fst db -> (db = (n, 1) \/ is_scalar e) -> vec_plus_type v g = true ->
  gp (n, 1) (fun i j => scalar_plus (A i j) (bA e B i j)) (vec_plus v g).
Proof.
  intros H1 Hn Hv Hm He Hb H HT. unfold vec_plus.
  assert (NM : not_matrix e).
  { destruct e as [s|w|m]; try exact I. destruct g as [f|z|l|l|l|l|[]|]; try discriminate Hm; discriminate HT. }
  rewrite (vec_check_col n _ v Hn (pt_valid0 A) (proj1 (arr_EV _ _ _) Hv)). cbn [check bind].
  assert (H2 : 1 <= snd db) by (destruct e as [s|w|m]; [rewrite (arr_ES_dims _ _ _ Hb He); cbn; lia | rewrite (arr_EV_cols _ _ _ Hb He); lia | destruct NM]).
  assert (HC : operand_check dims_add (vec_dims v) g = Ok tt).
  { destruct (means_as_expr g e Hm) as [Eg|(z & -> & _)]; [|reflexivity].
    apply (operand_check_ok dims_add _ (n, 1) _ e db _ (vec_dims_col n _ v Hn (pt_valid0 A) (proj1 (arr_EV _ _ _) Hv)) Eg Hb H2
             (pt_valid B) He).
    destruct H as [->|H]; [apply dims_add_same|]. destruct e; try destruct H. rewrite (arr_ES_dims _ _ _ Hb He). apply dims_add_l. }
  rewrite HC. cbn [bind].
  assert (HE : gp (n, 1) (fun i j => scalar_plus (A i j) (bA e B i j)) (vec_plus_expr v e)) by (apply (vec_plus_expr_gp n db); assumption).
  assert (HE' : gp (n, 1) (fun i j => scalar_plus (A i j) (bA e B i j)) (simplify_result (vec_plus_expr v e)))
    by (apply gp_simplify; [exact Hn | cbn; lia | exact HE]).
  destruct g as [f|z|l|l|l|l|e'|]; cbn in Hm; try discriminate; injection Hm as <-.
  - (* float64 *) destruct v as [l|l|l|l]; try exact HE'.
    pose proof (arr_ES_dims _ _ _ Hb He) as ->. apply arr_ES in He. destruct He as [_ EB]. cbn [bA] in *.
    pose proof (proj1 (arr_EV _ _ _) Hv) as [Ll Hl]. cbn [vec_entries] in Ll, Hl. rewrite map_length in Ll.
    destruct (Nat.eqb_spec (length l) 1) as [E1|E1].
    + rewrite <- Ll, E1 in *. destruct l as [|k [|]]; try discriminate. cbn. exists (ES (SK (k + f))). split; [reflexivity|]. apply arr_ES.
      destruct (Hl 0) as (s & Es & Vs & Hs); [lia|]. cbn in Es. injection Es as <-. rewrite <- Hs, <- EB.
      destruct (lsame_plus (SK k) (SK f) I I) as (s & Es & Gs). cbn in Es. injection Es as <-. exact Gs.
    + rewrite Ll. destruct n as [|n']; [lia|]. cbn [ones_vector bind].
      apply gp_simplify; [exact Hn | cbn; lia|].
      assert (HK : den (S n', 1) (fun _ _ => B 0 0) (EV (VK (map (fun x => f * x) (repeat n1 (S n')))))).
      { apply arr_EV. cbn [vec_entries]. apply col_map. split; [rewrite map_length; apply repeat_length|]. intros i Hi.
        exists (f * n1). split.
        - rewrite nth_error_map. rewrite (nth_error_nth' _ n0) by (rewrite repeat_length; exact Hi). cbn [option_map]. f_equal. f_equal.
          apply (nth_repeat_lt n0 n1). exact Hi.
        - rewrite (H1 f eq_refl). split; [exact I | exact EB]. }
      exact (vec_plus_expr_gp (S n') (S n', 1) A (fun _ _ => B 0 0) (VK l) (EV (VK (map (fun x => f * x) (repeat n1 (S n'))))) Hn Hv HK Hn I (or_introl eq_refl)).
  - (* int *) destruct v as [l|l|l|l]; try discriminate HT; exact HE'.
  - (* mat.VecDense *) destruct v as [l0|l0|l0|l0]; try discriminate HT; exact HE'.
  - destruct v as [l0|l0|l0|l0]; try discriminate HT; exact HE'.
  - (* an expression *) apply gp_simplify; [exact Hn | cbn; lia|]. apply (vec_plus_template_gp n db); assumption.
Qed.

(** ** Matrices *)

Lemma mat_plus_template_gp d A B m r : 1 <= fst d -> 1 <= snd d -> den d A (EM m) -> den d B (EM r) ->
  gp d (fun i j => scalar_plus (A i j) (B i j)) (as_EM (mat_plus_template m r)).
Proof.
  intros H1 H2 Hm Hr. apply arr_EM in Hm. apply arr_EM in Hr. unfold mat_plus_template.
  rewrite (mat_check_grid d _ m H1 (pt_valid A) Hm), (mat_check_grid d _ r H1 (pt_valid B) Hr). cbn [check bind].
  rewrite (mat_dims_grid d _ m H1 (pt_valid A) Hm), (mat_dims_grid d _ r H1 (pt_valid B) Hr). cbn [bind].
  unfold dims_eqb. rewrite !Nat.eqb_refl. cbn [andb check bind].
  destruct (mapM_seq (fun i => mapM (fun j => a <- mat_get m i j ;; b <- mat_get r i j ;; scalar_plus a b) (seq 0 (snd d))) (fst d)
              (fun i => col (snd d) (fun j => lsame (scalar_plus (A i j) (B i j))))) as (l & -> & Ll & Hl).
  - intros i Hi.
    destruct (mapM_seq (fun j => a <- mat_get m i j ;; b <- mat_get r i j ;; scalar_plus a b) (snd d)
                (fun j => lsame (scalar_plus (A i j) (B i j)))) as (l & -> & Ll & Hl).
    + intros j Hj. destruct (mat_get_grid d _ m i j H1 H2 (pt_valid A) Hm Hi Hj) as (a & -> & Ha). cbn.
      destruct (mat_get_grid d _ r i j H1 H2 (pt_valid B) Hr Hi Hj) as (b & -> & Hb). cbn. exact (pt_same A B i j i j a b Ha Hb).
    + exists l. split; [reflexivity|]. split; assumption.
  - cbn [bind]. destruct (concretize_matrix_arr d (fun i j => lsame (scalar_plus (A i j) (B i j))) l) as (e & -> & He);
      [exact H1 | apply lsame_by_terms | split; assumption|].
    exists (EM e). split; [reflexivity | exact He].
Qed.

Lemma k_mat_plus_float_gp d A B l f : 1 <= fst d -> 1 <= snd d -> den d A (EM (MK l)) -> pt B 0 0 (SK f) -> f * n1 = f ->
  gp d (fun i j => scalar_plus (A i j) (B 0 0)) (k_mat_plus_float l f).
Proof.
  intros H1 H2 Hl [_ EB] F1. apply arr_EM in Hl. cbn [mat_rows] in Hl. apply (proj1 (grid_map _ _ _ _)) in Hl. unfold k_mat_plus_float.
  rewrite (rows_dims_grid d _ l H1 Hl). cbn [bind]. rewrite (ones_matrix_ok d H1 H2). cbn [bind].
  rewrite (k_to_dense_grid d _ l H1 H2 Hl). cbn [bind]. eexists. split; [reflexivity|]. apply arr_EM. cbn [mat_rows]. apply grid_map.
  pose proof (grid_repeat d (fun _ _ x => x = n1) n1 (fun _ _ _ _ => eq_refl)) as Ho.
  set (o := repeat (repeat n1 (snd d)) (fst d)) in *. clearbody o.
  destruct Hl as [Ll Hl]. destruct Ho as [Lo Ho]. split; [rewrite map_length, combine_length; lia|]. intros i Hi.
  destruct (Hl i Hi) as (row & Er & Lr & Hr). destruct (Ho i Hi) as (orow & Eo & Lor & Hor).
  eexists. split; [rewrite nth_error_map, nth_error_combine, Eo, Er; reflexivity|]. cbn [fst snd].
  split; [rewrite map_length, combine_length; lia|]. intros j Hj. destruct (Hr j Hj) as (k & Ek & Vk & Hk). destruct (Hor j Hj) as (o1 & Eo1 & ->).
  eexists. split; [rewrite nth_error_map, nth_error_combine, Eo1, Ek; reflexivity|]. cbn [fst snd].
  rewrite <- Hk, <- EB. destruct (lsame_plus (SK k) (SK f) I I) as (s & Es & Gs). cbn in Es. injection Es as <-.
  rewrite F1, (add_comm_f f k). exact Gs.
Qed.

Lemma k_mat_plus_mat_gp d A B l r : 1 <= fst d -> 1 <= snd d -> den d A (EM (MK l)) -> den d B (EM r) ->
  gp d (fun i j => scalar_plus (A i j) (B i j)) (k_mat_plus_mat l r).
Proof.
  intros H1 H2 Hl Hr. unfold k_mat_plus_mat.
  rewrite (operand_check_ok dims_add _ d (GExpr (EM r)) (EM r) d _ (mat_dims_grid d _ (MK l) H1 (pt_valid A) (proj1 (arr_EM _ _ _) Hl)) eq_refl H1 H2
             (pt_valid B) Hr (dims_add_same d)). cbn [bind].
  apply gp_simplify; try assumption. apply mat_plus_template_gp; assumption.
Qed.


Lemma k_mat_plus_gp d db A B l g e : (forall f, e = ES (SK f) -> f * n1 = f) -> 1 <= fst d -> 1 <= snd d -> den d A (EM (MK l)) -> means g = Some e -> den db B e ->
  1 <= fst db -> 1 <= snd db -> (db = d \/ is_scalar e) -> k_mat_plus_type g = true ->
  gp d (fun i j => scalar_plus (A i j) (bA e B i j)) (k_mat_plus l g).
Proof.
  intros HF H1 H2 Hl Hg He B1 B2 H HT. unfold k_mat_plus. rewrite (mat_operand_pt d db A B (MK l) g e H1 H2 Hl Hg He B1 B2 H). cbn [bind].
  pose proof (proj1 (arr_EM _ _ _) Hl) as Hg'. cbn [mat_rows] in Hg'. apply (proj1 (grid_map _ _ _ _)) in Hg'. rewrite (rows_dims_grid d _ l H1 Hg'). cbn [bind].
  assert (HS : forall s, e = ES s -> pt B 0 0 s). { intros s ->. rewrite (arr_ES_dims _ _ _ B1 He) in He. apply arr_ES in He. exact He. }
  assert (HM : forall m, e = EM m -> den d B (EM m)). { intros m ->. destruct H as [->|[]]. exact He. }
  destruct g as [f|z|l0|l0|l0|l0|[[k|x|mo|p]|v|m]|]; cbn in Hg; try discriminate Hg; try discriminate HT; injection Hg as <-; cbn [bA];
    repeat (apply gp_simplify; [assumption|assumption|]).
  - apply k_mat_plus_float_gp; auto.
  - apply k_mat_plus_mat_gp; auto.
  - apply k_mat_plus_mat_gp; auto.
  - apply k_mat_plus_float_gp; auto.
  - apply (k_mat_plus_mat_gp d A (fun _ _ => B 0 0)); try assumption. apply arr_EM. cbn [mat_rows]. apply grid_map. apply grid_repeat. intros i j _ _.
    exact (HS _ eq_refl).
  - apply mat_plus_template_gp; auto.
Qed.

(** ** VariableMatrix *)

Definition rgp (d : nat * nat) (L : nat -> nat -> res scalar) (x : res expr) : Prop := forall e, x = Ok e -> lden d L e.
Lemma gp_rgp d L x : gp d L x -> rgp d L x.
Proof. intros (e & E & H) e' E'. congruence. Qed.

Lemma var_mat_plus_k_rgp d A B l r : den d A (EM (MV l)) -> den d B (EM (MK r)) ->
  rgp d (fun i j => scalar_plus (A i j) (B i j)) (var_mat_plus_k l r).
Proof.
  intros Hl Hr e E. apply arr_EM in Hl. apply arr_EM in Hr. cbn [mat_rows] in Hl, Hr. apply (proj1 (grid_map _ _ _ _)) in Hl. apply (proj1 (grid_map _ _ _ _)) in Hr.
  unfold var_mat_plus_k in E. match type of E with (x <- ?t ;; _) = _ => destruct t as [rows|] eqn:Erows; [|discriminate] end.
  cbn in E. injection E as <-. apply arr_EM. cbn [mat_rows]. apply grid_map. apply mapM_inv in Erows. destruct Erows as [L H]. rewrite enum_length in L.
  destruct Hl as [Ll Hl]. split; [lia|]. intros i Hi. destruct (Hl i Hi) as (row & Er & Lr & Hrow).
  destruct (H i (i, row)) as (row' & Erow' & E).
  { unfold enum. rewrite nth_error_combine, Er. rewrite (nth_error_nth' (seq 0 (length l)) 0) by (rewrite seq_length; lia). rewrite seq_nth by lia. reflexivity. }
  exists row'. split; [exact Erow'|]. apply mapM_inv in E. destruct E as [L' H']. cbn [snd] in L'. rewrite enum_length in L'. split; [lia|].
  intros j Hj. destruct (Hrow j Hj) as (x & Ex & Hx). destruct (H' j (j, x)) as (p & Ep & E).
  { unfold enum. cbn [snd]. rewrite nth_error_combine, Ex. rewrite (nth_error_nth' (seq 0 (length row)) 0) by (rewrite seq_length; lia). rewrite seq_nth by lia. reflexivity. }
  exists p. split; [exact Ep|]. cbn [fst snd] in E. destruct Hr as [Lr' Hr]. destruct (Hr i Hi) as (krow & Ekr & Lkr & Hkrow). destruct (Hkrow j Hj) as (k & Ek & Hk).
  rewrite (index_nth _ _ _ Ekr) in E. cbn in E. rewrite (index_nth _ _ _ Ek) in E. cbn [bind] in E.
  destruct (pt_same A B i j i j _ _ Hx Hk) as (s & Es & Hs). cbn [scalar_plus var_plus] in Es. rewrite Es in E. cbn in E.
  destruct s; try discriminate. injection E as <-. exact Hs.
Qed.

Lemma var_mat_plus_rgp d db A B l g e : (forall f, e = ES (SK f) -> f * n1 = f) -> 1 <= fst d -> 1 <= snd d -> den d A (EM (MV l)) -> means g = Some e -> den db B e ->
  1 <= fst db -> 1 <= snd db -> (db = d \/ is_scalar e) ->
  rgp d (fun i j => scalar_plus (A i j) (bA e B i j)) (var_mat_plus l g).
Proof.
  intros HF H1 H2 Hl Hg He B1 B2 H. unfold var_mat_plus. rewrite (mat_operand_pt d db A B (MV l) g e H1 H2 Hl Hg He B1 B2 H).
  rewrite (mat_check_grid d _ _ H1 (pt_valid A) (proj1 (arr_EM _ _ _) Hl)), (mat_dims_grid d _ _ H1 (pt_valid A) (proj1 (arr_EM _ _ _) Hl)). cbn [check bind].
  rewrite (ones_matrix_ok d H1 H2). cbn [bind].
  assert (HS : forall f, e = ES (SK f) -> den d (fun _ _ => B 0 0) (EM (MK (map (map (fun x => f * x)) (repeat (repeat n1 (snd d)) (fst d)))))).
  { intros s ->. rewrite (arr_ES_dims _ _ _ B1 He) in He. apply arr_ES in He. apply arr_EM. cbn [mat_rows]. apply grid_map. apply grid_map.
    apply grid_repeat. intros i j _ _. rewrite (HF s eq_refl). exact He. }
  assert (HM : forall m, e = EM m -> den d B (EM m)). { intros m ->. destruct H as [->|[]]. exact He. }
  destruct g as [f|z|l0|l0|l0|l0|[[k|x|mo|p]|v|[lk|lv|lm|lp]]|]; cbn in Hg; try discriminate Hg; injection Hg as <-; cbn [bA]; intros out E; try discriminate E.
  - exact (var_mat_plus_k_rgp d A (fun _ _ => B 0 0) l _ Hl (HS f eq_refl) out E).
  - exact (var_mat_plus_k_rgp d A (fun _ _ => B 0 0) l _ Hl (HS k eq_refl) out E).
  - exact (var_mat_plus_k_rgp d A B l _ Hl (HM _ eq_refl) out E).
Qed.

(** ** PolynomialMatrix *)

Lemma concretize_rows_gp d L rows : 1 <= fst d -> 1 <= snd d -> grid d (fun i j => lsame (L i j)) rows -> gp d L (concretize_rows rows).
Proof.
  intros H1 H2 H. apply (concretize_rows_arr d (fun i j => lsame (L i j))); [exact H1 | exact H2 | apply lsame_by_terms | | exact H].
  intros i j s. apply lsame_valid.
Qed.

Lemma poly_plus_mono_poly p t : valid (SP p) -> valid_mono t -> poly_plus p (SM t) = poly_plus p (SP [t]).
Proof.
  intros Vp Vt. cbn [poly_plus]. unfold poly_plus_mono. rewrite (valid_poly_check p Vp), (valid_mono_check t Vt). cbn [check bind].
  assert (Vq : valid (SP [t])) by (split; [discriminate | constructor; [exact Vt | constructor]]).
  destruct (plus_total (SP p) (SP [t]) Vp Vq) as (s & E & V & N). cbn [scalar_plus poly_plus] in E. unfold mono_to_poly. rewrite E. cbn [bind].
  rewrite scalar_simplified_ok by exact V. rewrite ssimplified_id by assumption. reflexivity.
Qed.

Lemma poly_mat_plus_all_gp d A b l s : 1 <= fst d -> 1 <= snd d -> den d A (EM (MP l)) -> valid s ->
  (forall p, valid (SP p) -> scalar_plus (SP p) s = scalar_plus (SP p) b) ->
  gp d (fun i j => scalar_plus (A i j) b) (poly_mat_plus_all l s).
Proof.
  intros H1 H2 Hl Vs Hb. apply arr_EM in Hl. cbn [mat_rows] in Hl. apply (proj1 (grid_map _ _ _ _)) in Hl. unfold poly_mat_plus_all.
  destruct (mapM_col (fst d) (fun i => col (snd d) (fun j p => pt A i j (SP p))) (fun i => col (snd d) (fun j => lsame (scalar_plus (A i j) b)))
              (mapM (fun p => poly_plus p s)) l) as (rows & -> & Hrows).
  - intros i r _. apply mapM_col. intros j p _ [Vp Ep]. rewrite <- Ep, <- (Hb p Vp). exact (lsame_plus (SP p) s Vp Vs).
  - exact Hl.
  - cbn [bind]. apply gp_simplify; try assumption. apply concretize_rows_gp; assumption.
Qed.

Lemma poly_mat_plus_gp d db A B l g e : 1 <= fst d -> 1 <= snd d -> den d A (EM (MP l)) -> means g = Some e -> den db B e ->
  1 <= fst db -> 1 <= snd db -> (db = d \/ is_scalar e) -> poly_mat_plus_type g = true ->
  gp d (fun i j => scalar_plus (A i j) (bA e B i j)) (poly_mat_plus l g).
Proof.
  intros H1 H2 Hl Hg He B1 B2 H HT. unfold poly_mat_plus. rewrite (mat_operand_pt d db A B (MP l) g e H1 H2 Hl Hg He B1 B2 H).
  rewrite (mat_check_grid d _ _ H1 (pt_valid A) (proj1 (arr_EM _ _ _) Hl)). cbn [check bind].
  assert (HS : forall s, e = ES s -> pt B 0 0 s). { intros s ->. rewrite (arr_ES_dims _ _ _ B1 He) in He. apply arr_ES in He. exact He. }
  assert (HM : forall m, e = EM m -> den d B (EM m)). { intros m ->. destruct H as [->|[]]. exact He. }
  assert (Hl' := Hl). apply arr_EM in Hl'. cbn [mat_rows] in Hl'. apply (proj1 (grid_map _ _ _ _)) in Hl'.
  assert (HA : forall s, e = ES s -> gp d (fun i j => scalar_plus (A i j) (B 0 0)) (poly_mat_plus_all l s)).
  { intros s Es. destruct (HS s Es) as [Vs <-]. apply poly_mat_plus_all_gp; try assumption. intros p _. reflexivity. }
  destruct g as [f|z|l0|l0|l0|l0|[[k|x|mo|p]|v|[lk|lv|lm|lp]]|]; cbn in Hg; try discriminate Hg; try discriminate HT; injection Hg as <-; cbn [bA];
    repeat (apply gp_simplify; [assumption|assumption|]).
  - apply HA. reflexivity.
  - apply HA. reflexivity.
  - destruct (HS _ eq_refl) as [Vs <-]. apply (poly_mat_plus_all_gp d A (SM mo) l (SP [mo])); try assumption.
    + split; [discriminate | constructor; [exact Vs | constructor]].
    + intros p Vp. symmetry. apply poly_plus_mono_poly; assumption.
  - apply HA. reflexivity.
  - pose proof (HM _ eq_refl) as Hk. assert (Hk' := Hk). apply arr_EM in Hk'.
    destruct (mapM_enum (fun ir => mapM (fun jp => k <- mat_get (MK lk) (fst ir) (fst jp) ;; poly_plus (snd jp) k) (enum (snd ir))) l
                (fun i => col (snd d) (fun j => lsame (scalar_plus (A i j) (B i j))))) as (rows & -> & L & Hrows).
    + intros i row Erow. cbn [fst snd]. destruct Hl' as [Ll Hll]. assert (Hi : i < fst d) by (rewrite <- Ll; eapply nth_error_bound; exact Erow).
      destruct (Hll i Hi) as (row0 & Er0 & Lrow & Hrow). assert (row0 = row) by congruence. subst row0.
      destruct (mapM_enum (fun jp => k <- mat_get (MK lk) i (fst jp) ;; poly_plus (snd jp) k) row (fun j => lsame (scalar_plus (A i j) (B i j)))) as (row' & -> & L' & Hrow').
      * intros j p Ep. cbn [fst snd]. assert (Hj : j < snd d) by (rewrite <- Lrow; eapply nth_error_bound; exact Ep).
        destruct (Hrow j Hj) as (p0 & Ep0 & Hp). assert (p0 = p) by congruence. subst p0.
        destruct (mat_get_grid d _ (MK lk) i j H1 H2 (pt_valid B) Hk' Hi Hj) as (b & -> & Hb). cbn [bind].
        exact (pt_same A B i j i j (SP p) b Hp Hb).
      * exists row'. split; [reflexivity|]. split; [lia|]. rewrite <- Lrow. exact Hrow'.
    + cbn [bind]. apply gp_simplify; try assumption. apply concretize_rows_gp; try assumption. destruct Hl' as [Ll Hll]. split; [lia|]. rewrite <- Ll. exact Hrows.
  - pose proof (HM _ eq_refl) as Hp. apply arr_EM in Hp. cbn [mat_rows] in Hp. apply (proj1 (grid_map _ _ _ _)) in Hp.
    destruct (enum_rows_good d _ _ (fun i j => lsame (scalar_plus (A i j) (B i j))) l lp (fun p q => poly_plus p (SP q))
                (fun i j p q Hpp Hq => pt_same A B i j i j (SP p) (SP q) Hpp Hq) Hl' Hp) as (rows & -> & Hrows).
    cbn [bind]. apply gp_simplify; try assumption. apply concretize_rows_gp; assumption.
Qed.

(** ** Every receiver but MonomialMatrix *)


Lemma mat_plus_rgp d db A B m g e : (forall f, e = ES (SK f) -> f * n1 = f) -> 1 <= fst d -> 1 <= snd d -> den d A (EM m) -> means g = Some e -> den db B e ->
  1 <= fst db -> 1 <= snd db -> (db = d \/ is_scalar e) -> plus_accepts (EM m) g = true -> is_mono_matrix (EM m) = false ->
  rgp d (fun i j => scalar_plus (A i j) (bA e B i j)) (mat_plus m g).
Proof.
  intros HF H1 H2 Hm Hg He B1 B2 H HT HV. destruct m as [l|l|l|l]; cbn [mat_plus]; [| |discriminate HV|].
  - apply gp_rgp. apply (k_mat_plus_gp d db A B l g e HF); try assumption; destruct g as [f|z|l0|l0|l0|l0|[[k|x|mo|p]|v0|[lk|lv|lm|lp]]|]; (exact HT || reflexivity).
  - apply (var_mat_plus_rgp d db A B l g e HF); assumption.
  - apply gp_rgp. apply (poly_mat_plus_gp d db); try assumption; destruct g as [f|z|l0|l0|l0|l0|[[k|x|mo|p]|v0|[lk|lv|lm|lp]]|]; (exact HT || reflexivity).
Qed.

(** a polynomial and an array *)
Lemma poly_plus_vec_gp n a B p v : 1 <= n -> valid (SP p) -> a = SP p -> den (n, 1) B (EV v) ->
  gp (n, 1) (fun i j => scalar_plus a (B i j)) (poly_plus_any p (GExpr (EV v))).
Proof.
  intros Hn Hp -> Hv. pose proof (proj1 (arr_EV _ _ _) Hv) as Hv'. unfold poly_plus_any. rewrite (valid_poly_check p Hp). cbn [check bind as_expr expr_check].
  rewrite (vec_check_col n _ v Hn (pt_valid0 B) Hv'). cbn [check bind]. rewrite (vec_len_col n _ v Hn (pt_valid0 B) Hv'). cbn [bind].
  assert (PL : forall i j b, pt B i j b -> exists s, poly_plus p b = Ok s /\ lsame (scalar_plus (SP p) (B i j)) s).
  { intros i j b [Vb <-]. exact (lsame_plus (SP p) b Hp Vb). }
  destruct (Nat.eqb_spec n 1) as [->|_].
  - apply gp_simplify; [exact Hn | cbn; lia|]. destruct (vec_get_col 1 _ v 0 Hn (pt_valid0 B) Hv') as (b & -> & _ & Hb); [lia|]. cbn [bind].
    destruct (PL 0 0 b Hb) as (s & E & Hs). rewrite E. exists (ES s). split; [reflexivity|]. apply arr_ES. exact Hs.
  - destruct (mapM_seq (fun i => s <- vec_get v i ;; poly_plus p s) n (fun i => lsame (scalar_plus (SP p) (B i 0)))) as (l & -> & L & Hl).
    + intros i Hi. destruct (vec_get_col n _ v i Hn (pt_valid0 B) Hv' Hi) as (b & -> & _ & Hb). cbn [bind]. exact (PL i 0 b Hb).
    + cbn [bind]. apply gp_simplify; [exact Hn | cbn; lia|].
      apply (concretize_slice_arr n (fun i j => lsame (scalar_plus (SP p) (B i j)))); [exact Hn | apply lsame_by_terms | | split; assumption].
      intros i j s. apply lsame_valid.
Qed.

Lemma poly_plus_mat_gp d a B p m : 1 <= fst d -> 1 <= snd d -> valid (SP p) -> a = SP p -> den d B (EM m) ->
  gp d (fun i j => scalar_plus a (B i j)) (poly_plus_any p (GExpr (EM m))).
Proof.
  intros H1 H2 Hp -> Hm. pose proof (proj1 (arr_EM _ _ _) Hm) as Hm'. unfold poly_plus_any. rewrite (valid_poly_check p Hp). cbn [check bind as_expr expr_check].
  rewrite (mat_check_grid d _ m H1 (pt_valid B) Hm'). cbn [check bind]. rewrite (mat_dims_grid d _ m H1 (pt_valid B) Hm'). cbn [bind].
  assert (PL : forall i j b, pt B i j b -> exists s, poly_plus p b = Ok s /\ lsame (scalar_plus (SP p) (B i j)) s).
  { intros i j b [Vb <-]. exact (lsame_plus (SP p) b Hp Vb). }
  destruct (Nat.eqb_spec (fst d) 1) as [E1|E1]; destruct (Nat.eqb_spec (snd d) 1) as [E2|E2]; cbn [andb].
  { destruct d as [d1 d2]. cbn in E1, E2. subst d1 d2.
    apply gp_simplify; [cbn; lia | cbn; lia|]. destruct (mat_get_grid (1, 1) _ m 0 0 H1 H2 (pt_valid B) Hm') as (b & -> & Hb); [cbn; lia | cbn; lia|]. cbn [bind].
    destruct (PL 0 0 b Hb) as (s & E & Hs). rewrite E. exists (ES s). split; [reflexivity|]. apply arr_ES. exact Hs. }
  all: destruct (mapM_seq (fun i => mapM (fun j => s <- mat_get m i j ;; poly_plus p s) (seq 0 (snd d))) (fst d)
              (fun i => col (snd d) (fun j => lsame (scalar_plus (SP p) (B i j))))) as (rows & -> & L & Hrows);
    [intros i Hi; destruct (mapM_seq (fun j => s <- mat_get m i j ;; poly_plus p s) (snd d) (fun j => lsame (scalar_plus (SP p) (B i j)))) as (l & -> & L & Hl);
      [intros j Hj; destruct (mat_get_grid d _ m i j H1 H2 (pt_valid B) Hm' Hi Hj) as (b & -> & Hb); cbn [bind]; exact (PL i j b Hb)
      | exists l; split; [reflexivity | split; assumption]]
    | cbn [bind]; apply gp_simplify; try assumption; apply (concretize_rows_gp d (fun i j => scalar_plus (SP p) (B i j))); [assumption | assumption | split; assumption]].
Qed.

Lemma scalar_plus_float_gp a s f : valid s -> a = s -> exists out, scalar_plus_float s f = Ok out /\ lsame (scalar_plus a (SK f)) out.
Proof.
  intros Hs ->. destruct (lsame_plus s (SK f) Hs I) as (out & E & Ho).
  destruct (lsame_simplified _ out Ho) as (out' & E' & Ho').
  destruct s; cbn [scalar_plus_float]; cbn [scalar_plus var_plus mono_plus poly_plus] in E; try rewrite E; cbn [bind]; eauto.
Qed.

(** K or a variable, added to an array by the array *)

Lemma rgp_ext d L L' x : (forall i j, i < fst d -> j < snd d -> L i j = L' i j) -> rgp d L x -> rgp d L' x.
Proof.
  intros H G e E. eapply arr_impl; [|exact (G e E)]. intros i j a Hi Hj. cbv beta. rewrite (H i j Hi Hj). intro X. exact X.
Qed.
Lemma rgp_simplify d L x : 1 <= fst d -> 1 <= snd d -> rgp d L x -> rgp d L (simplify_result x).
Proof.
  intros H1 H2 G. destruct x as [e|p]; [|intros e' E; discriminate E]. apply gp_rgp. apply gp_simplify; [exact H1 | exact H2|].
  exists e. split; [reflexivity | exact (G e eq_refl)].
Qed.

Definition ord (a : scalar) (b : expr) (x y : scalar) : res scalar :=
  match a, b with SK _, EV _ | SK _, EM _ | SV _, EV _ | SV _, EM _ => scalar_plus y x | _, _ => scalar_plus x y end.
Lemma ord_scalar a s x y : ord a (ES s) x y = scalar_plus x y.
Proof. destruct a; reflexivity. Qed.
Lemma ord_vec a v x y : light a -> ord a (EV v) x y = scalar_plus y x.
Proof. intro H. destruct a; try destruct H; reflexivity. Qed.
Lemma ord_mat a m x y : light a -> ord a (EM m) x y = scalar_plus y x.
Proof. intro H. destruct a; try destruct H; reflexivity. Qed.

Lemma plus_scalar_rgp A db B a g b : (forall f, a = SK f -> f * n1 = f) -> valid a -> A = a -> means g = Some b -> den db B b -> 1 <= fst db -> 1 <= snd db ->
  plus_accepts (ES a) g = true -> (match a, b with SK _, EM (MM _) => False | _, _ => True end) ->
  rgp db (fun i j => ord a b A (bA b B i j)) (expr_plus (ES a) g).
Proof.
  intros HF Ha -> Hg Hb B1 B2 HT HV. pose proof (expr_check_arr _ _ _ B1 B2 (pt_valid B) Hb) as Cb.
  assert (DA : den (1, 1) (fun _ _ => a) (ES a)) by (apply arr_ES; split; [exact Ha | reflexivity]).
  assert (DS : forall s, b = ES s -> valid s /\ s = B 0 0 /\ db = (1, 1)).
  { intros s ->. pose proof (arr_ES_dims _ _ _ B1 Hb) as E. rewrite E in Hb. apply arr_ES in Hb. destruct Hb. auto. }
  assert (SS : forall x, (exists s, b = ES s /\ scalar_plus a s = x) -> rgp db (fun i j => ord a b a (bA b B i j)) (as_ES x)).
  { intros x (s & E & <-). destruct (DS s E) as (Vs & EB & ->). apply gp_rgp. rewrite E. apply (gp_ext (1, 1) (fun _ _ => scalar_plus a s)); [intros i j _ _; rewrite ord_scalar, EB; reflexivity|]. apply gp_ES. apply lsame_plus; assumption. }
  assert (SF : forall f, b = ES (SK f) -> rgp db (fun i j => ord a b a (bA b B i j)) (as_ES (scalar_plus_float a f))).
  { intros f E. destruct (DS _ E) as (Vs & EB & ->). apply gp_rgp. rewrite E. apply (gp_ext (1, 1) (fun _ _ => scalar_plus a (SK f))); [intros i j _ _; rewrite ord_scalar; cbn [bA]; rewrite <- EB; reflexivity|]. apply gp_ES. apply scalar_plus_float_gp; [assumption | reflexivity]. }
  assert (VE : forall v g', light a -> b = EV v -> means g' = Some (ES a) -> vec_plus_type v g' = true ->
             rgp db (fun i j => ord a b a (bA b B i j)) (vec_plus v g')).
  { intros v g' HL -> Hg' HT'. pose proof (arr_EV_cols _ _ _ B1 Hb) as E2. destruct db as [n c]. cbn in E2. subst c. cbn [fst snd] in *.
    apply (rgp_ext (n, 1) (fun i j => scalar_plus (B i j) a)).
    { intros i j Hi Hj. symmetry. apply ord_vec. exact HL. }
    apply gp_rgp. apply (vec_plus_gp n (1, 1) B (fun _ _ => a) v g' (ES a) (fun f E => HF f (f_equal (fun x => match x with ES y => y | _ => a end) E))); try assumption; try (cbn; lia); right; exact I. }
  assert (ME : forall m, light a -> b = EM m -> plus_accepts (EM m) (GExpr (ES a)) = true -> is_mono_matrix (EM m) = false ->
             rgp db (fun i j => ord a b a (bA b B i j)) (mat_plus m (GExpr (ES a)))).
  { intros m HL -> HT' HV'. apply (rgp_ext db (fun i j => scalar_plus (B i j) a)).
    { intros i j Hi Hj. symmetry. apply ord_mat. exact HL. }
    apply (mat_plus_rgp db (1, 1) B (fun _ _ => a) m (GExpr (ES a)) (ES a) (fun f E => HF f (f_equal (fun x => match x with ES y => y | _ => a end) E))); try assumption; try reflexivity; try (cbn; lia); right; exact I. }
  destruct a as [c|x|mo|p].
  - (* K *) cbn [expr_plus]. unfold k_plus_any.
    destruct g as [f|z|l|l|l|l|e|]; cbn in Hg; try discriminate Hg; injection Hg as <-; cbn [as_expr expr_check]; rewrite ?Cb; cbn [check bind scalar_check vec_check mat_check].
    + apply SS. exists (SK f). auto.
    + apply SS. exists (SK (nofZ z)). auto.
    + apply VE; (exact I || reflexivity).
    + apply VE; (exact I || reflexivity).
    + apply ME; (exact I || reflexivity).
    + apply ME; (exact I || reflexivity).
    + destruct e as [s|v|m]; [apply SS; exists s; auto | apply VE; (exact I || reflexivity) |].
      apply ME; [exact I | reflexivity | destruct m; reflexivity |]. destruct m; try reflexivity. destruct HV.
  - (* Variable *) cbn [expr_plus]. unfold var_plus_any. pose proof Ha as Vx. apply var_check_valid in Vx. rewrite Vx. cbn [check bind].
    destruct g as [f|z|l|l|l|l|[s|v|m]|]; try discriminate HT; cbn in Hg; injection Hg as <-.
    + apply SF. reflexivity.
    + apply SF. reflexivity.
    + repeat (apply rgp_simplify; [assumption|assumption|]). apply VE; (exact I || reflexivity).
    + repeat (apply rgp_simplify; [assumption|assumption|]). apply VE; (exact I || reflexivity).
    + apply SS. exists s. auto.
    + apply rgp_simplify; [assumption|assumption|]. apply VE; (exact I || reflexivity).
  - (* Monomial *) cbn [expr_plus]. unfold mono_plus_any. rewrite (valid_mono_check mo Ha). cbn [check bind].
    destruct g as [f|z|l|l|l|l|[s|v|m]|]; try discriminate HT; cbn in Hg; injection Hg as <-.
    + cbn. apply SF. reflexivity.
    + unfold operand_check. cbn [as_expr]. rewrite Cb. cbn. apply SS. exists s. auto.
  - (* Polynomial *) cbn [expr_plus].
    destruct g as [f|z|l|l|l|l|[s|v|m]|]; try discriminate HT; cbn in Hg; injection Hg as <-.
    + unfold poly_plus_any. rewrite (valid_poly_check p Ha). cbn. apply SF. reflexivity.
    + unfold poly_plus_any. rewrite (valid_poly_check p Ha). cbn [as_expr check bind]. rewrite Cb. cbn [check bind]. apply SS. exists s. auto.
    + pose proof (arr_EV_cols _ _ _ B1 Hb) as E2. destruct db as [n c]. cbn in E2. subst c. apply gp_rgp. apply poly_plus_vec_gp; (assumption || reflexivity).
    + apply gp_rgp. apply poly_plus_mat_gp; (assumption || reflexivity).
Qed.

End PointPlus.
