(** * Plus on vectors and matrices *)

From Coq Require Import ZArith NArith Bool List Lia Ring Field.
From Verif Require Import Num Syntax ModelScalar Spec Base ScalarValid Eval ScalarOps ScalarMore ModelShape ModelArith SpecArr Arr.
Import ListNotations.
Local Open Scope num_scope.

Lemma nth_repeat_lt {A} (d a : A) n i : i < n -> nth i (repeat a n) d = a.
Proof. revert i. induction n as [|n IH]; intros [|i] H; cbn; try lia; [reflexivity | apply IH; lia]. Qed.

Section ArrPlus.
Context {NN : Num}.

Local Notation den d F phi := (arr d (fun i j => sden F (phi i j))) (only parsing).

Lemma den_valid F (phi : nat -> nat -> assignment -> num) : forall i j s, sden F (phi i j) s -> valid s.
Proof. intros i j s. apply sden_valid. Qed.
Lemma den_valid0 F (phi : nat -> nat -> assignment -> num) : forall i s, sden F (phi i 0) s -> valid s.
Proof. intros i s. apply sden_valid. Qed.

Lemma good_ext d F phi psi x : (ExactNum NN -> forall i j r, phi i j r = psi i j r) -> good d F phi x -> good d F psi x.
Proof.
  intros H (e & E & He). exists e. split; [exact E|]. eapply arr_impl; [|exact He]. intros i j a _ _. apply sden_ext.
  intros EX r. apply H. exact EX.
Qed.

Lemma good_ext_in d F phi psi x : (ExactNum NN -> forall i j r, i < fst d -> j < snd d -> phi i j r = psi i j r) -> good d F phi x -> good d F psi x.
Proof.
  intros H (e & E & He). exists e. split; [exact E|]. eapply arr_impl; [|exact He]. intros i j a Hi Hj. apply sden_ext.
  intros EX r. apply H; assumption.
Qed.

Lemma good_ES F phi x : (exists s, x = Ok s /\ sden F phi s) -> good (1, 1) F (fun _ _ => phi) (as_ES x).
Proof.
  intros (s & -> & H). exists (ES s). split; [reflexivity|]. apply arr_ES. exact H.
Qed.

(** ** The checks *)

Lemma dims_add_broadcast a b da db d (P Q : nat -> nat -> scalar -> Prop) :
  1 <= fst da -> 1 <= fst db -> arr da P a -> arr db Q b -> broadcast a b da db d -> dims_add da db = true.
Proof.
  intros Ha Hb Aa Ab H. unfold dims_add, dims_scalar, dims_eqb. destruct H as [[-> _]|[[H _]|[H _]]].
  - rewrite !Nat.eqb_refl. reflexivity.
  - destruct a; try destruct H. rewrite (arr_ES_dims _ _ _ Ha Aa). cbn. rewrite orb_true_r. reflexivity.
  - destruct b; try destruct H. rewrite (arr_ES_dims _ _ _ Hb Ab). cbn. rewrite orb_true_r. reflexivity.
Qed.

Lemma operand_check_ok dims left da g b db (Q : nat -> nat -> scalar -> Prop) :
  left = Ok da -> as_expr g = Some b -> 1 <= fst db -> 1 <= snd db -> (forall i j s, Q i j s -> valid s) -> arr db Q b ->
  dims da db = true -> operand_check dims left g = Ok tt.
Proof.
  intros El Eg H1 H2 HV A D. unfold operand_check. rewrite Eg, (expr_check_arr _ _ _ H1 H2 HV A). cbn.
  rewrite El. cbn. rewrite (expr_dims_arr _ _ _ H1 H2 HV A). cbn. rewrite D. reflexivity.
Qed.

Lemma means_as_expr g b : means g = Some b -> as_expr g = Some b \/ exists z, g = GInt z /\ b = ES (SK (nofZ z)).
Proof. destruct g; cbn; intro H; try discriminate; injection H as <-; eauto. Qed.

Lemma dims_add_l d : dims_add d (1, 1) = true.
Proof. unfold dims_add, dims_scalar, dims_eqb. cbn. rewrite orb_true_r. reflexivity. Qed.
Lemma dims_add_r d : dims_add (1, 1) d = true.
Proof. unfold dims_add, dims_scalar, dims_eqb. cbn. rewrite orb_true_r. reflexivity. Qed.
Lemma dims_add_same d : dims_add d d = true.
Proof. unfold dims_add, dims_eqb. rewrite !Nat.eqb_refl. reflexivity. Qed.

Variable F : (N -> Z) -> Prop.
Hypothesis HZ : has_zero F.

(** ** Vectors *)

Lemma vec_plus_template_scalar n phi psi v s : 1 <= n -> den (n, 1) F phi (EV v) -> sden F psi s ->
  good (n, 1) F (fun i j r => phi i j r + psi r) (vec_plus_template v (ES s)).
Proof.
  intros Hn Hv Hs. apply arr_EV in Hv. cbn [vec_plus_template].
  destruct (mapM_col n _ (fun i => sden F (fun r => phi i 0 r + psi r)) (fun a => scalar_plus a s) _
              (fun i a _ Ha => sden_plus F _ _ a s HZ Ha Hs) Hv) as (l & -> & Hl). cbn.
  apply (concretize_slice_arr n (fun i j => sden F (fun r => phi i j r + psi r))); [exact Hn | apply sden_by_terms | | exact Hl].
  intros i j a. apply sden_valid.
Qed.

Lemma vec_plus_template_vector n phi psi v w : 1 <= n -> den (n, 1) F phi (EV v) -> den (n, 1) F psi (EV w) ->
  good (n, 1) F (fun i j r => phi i j r + psi i j r) (vec_plus_template v (EV w)).
Proof.
  intros Hn Hv Hw. apply arr_EV in Hv. apply arr_EV in Hw. cbn [vec_plus_template].
  destruct (mapM_enum (fun ia => b <- vec_get w (fst ia) ;; scalar_plus (snd ia) b) (vec_entries v)
              (fun i => sden F (fun r => phi i 0 r + psi i 0 r))) as (l & -> & L & Hl).
  - intros i a Ha. cbn [fst snd]. assert (Hi : i < n) by (destruct Hv as [<- _]; eapply nth_error_bound; exact Ha).
    destruct (vec_get_col n _ w i Hn (den_valid0 F psi) Hw Hi) as (b & -> & _ & Hb). cbn.
    apply sden_plus; [exact HZ | exact (col_nth _ _ _ _ _ Hv Ha) | exact Hb].
  - cbn. destruct Hv as [Lv _]. rewrite Lv in L, Hl.
    apply (concretize_slice_arr n (fun i j => sden F (fun r => phi i j r + psi i j r)));
      [exact Hn | apply sden_by_terms | | split; [exact L | exact Hl]].
    intros i j a. apply sden_valid.
Qed.

Definition bphi (e : expr) (psi : nat -> nat -> assignment -> num) (i j : nat) : assignment -> num :=
  match e with ES _ => psi 0 0 | _ => psi i j end.

Definition not_matrix (e : expr) : Prop := match e with EM _ => False | _ => True end.

Lemma vec_plus_template_good n db phi psi v e : 1 <= n -> den (n, 1) F phi (EV v) -> den db F psi e ->
  1 <= fst db -> not_matrix e -> (db = (n, 1) \/ is_scalar e) ->
  good (n, 1) F (fun i j r => phi i j r + bphi e psi i j r) (vec_plus_template v e).
Proof.
  intros Hn Hv He Hb NM H. destruct e as [s|w|m]; [| |destruct NM].
  - pose proof (arr_ES_dims _ _ _ Hb He) as ->. apply arr_ES in He. cbn [bphi]. apply vec_plus_template_scalar; assumption.
  - destruct H as [->|[]]. apply vec_plus_template_vector; assumption.
Qed.

Lemma vec_plus_expr_good n db phi psi v e : 1 <= n -> den (n, 1) F phi (EV v) -> den db F psi e ->
  1 <= fst db -> not_matrix e -> (db = (n, 1) \/ is_scalar e) ->
  good (n, 1) F (fun i j r => phi i j r + bphi e psi i j r) (vec_plus_expr v e).
Proof.
  intros Hn Hv He Hb NM H. unfold vec_plus_expr.
  rewrite (vec_check_col n _ v Hn (den_valid0 F phi) (proj1 (arr_EV _ _ _) Hv)). cbn [check bind].
  assert (H2 : 1 <= snd db) by (destruct e as [s|w|m]; [rewrite (arr_ES_dims _ _ _ Hb He); cbn; lia | rewrite (arr_EV_cols _ _ _ Hb He); lia | destruct NM]).
  rewrite (operand_check_ok dims_add _ (n, 1) (GExpr e) e db _ (vec_dims_col n _ v Hn (den_valid0 F phi) (proj1 (arr_EV _ _ _) Hv)) eq_refl Hb H2
             (den_valid F psi) He).
  2:{ destruct H as [->|H]; [apply dims_add_same|]. destruct e; try destruct H. rewrite (arr_ES_dims _ _ _ Hb He). apply dims_add_l. }
  cbn [bind]. apply good_simplify; [exact Hn | cbn; lia | exact HZ|].
  apply (vec_plus_template_good n db); assumption.
Qed.

Lemma den_const_vec (l : list num) : den (length l, 1) F (fun i _ _ => nth i l n0) (EV (VK l)).
Proof.
  apply arr_EV. cbn [vec_entries]. apply col_map. split; [reflexivity|]. intros i Hi. destruct (nth_error_lt l i Hi) as [k E].
  exists k. split; [exact E|]. rewrite (nth_error_nth_eq _ _ _ n0 E). apply sden_const. exact HZ.
Qed.

(** the type pairs for which Plus of a vector is implemented *)
Definition vec_plus_type (v : vector) (g : goval) : bool :=
  match g with
  | GExpr (ES _) | GExpr (EV _) | GFloat _ => true
  | GInt _ => match v with VV _ | VM _ => true | _ => false end
  | GVec _ | GVecP _ => match v with VK _ | VV _ => true | _ => false end
  | _ => false
  end.

Lemma vec_plus_good n db phi psi v g e : 1 <= n -> den (n, 1) F phi (EV v) -> means g = Some e -> den db F psi e ->
  1 <= fst db -> (db = (n, 1) \/ is_scalar e) -> vec_plus_type v g = true ->
  good (n, 1) F (fun i j r => phi i j r + bphi e psi i j r) (vec_plus v g).
Proof.
  intros Hn Hv Hm He Hb H HT. unfold vec_plus.
  assert (NM : not_matrix e).
  { destruct e as [s|w|m]; try exact I. destruct g as [f|z|l|l|l|l|[]|]; try discriminate Hm; discriminate HT. }
  rewrite (vec_check_col n _ v Hn (den_valid0 F phi) (proj1 (arr_EV _ _ _) Hv)). cbn [check bind].
  assert (H2 : 1 <= snd db) by (destruct e as [s|w|m]; [rewrite (arr_ES_dims _ _ _ Hb He); cbn; lia | rewrite (arr_EV_cols _ _ _ Hb He); lia | destruct NM]).
  assert (HC : operand_check dims_add (vec_dims v) g = Ok tt).
  { destruct (means_as_expr g e Hm) as [Eg|(z & -> & _)]; [|reflexivity].
    apply (operand_check_ok dims_add _ (n, 1) _ e db _ (vec_dims_col n _ v Hn (den_valid0 F phi) (proj1 (arr_EV _ _ _) Hv)) Eg Hb H2
             (den_valid F psi) He).
    destruct H as [->|H]; [apply dims_add_same|]. destruct e; try destruct H. rewrite (arr_ES_dims _ _ _ Hb He). apply dims_add_l. }
  rewrite HC. cbn [bind].
  assert (HE : good (n, 1) F (fun i j r => phi i j r + bphi e psi i j r) (vec_plus_expr v e)) by (apply (vec_plus_expr_good n db); assumption).
  assert (HE' : good (n, 1) F (fun i j r => phi i j r + bphi e psi i j r) (simplify_result (vec_plus_expr v e)))
    by (apply good_simplify; [exact Hn | cbn; lia | exact HZ | exact HE]).
  destruct g as [f|z|l|l|l|l|e'|]; cbn in Hm; try discriminate; injection Hm as <-.
  - (* float64 *) destruct v as [l|l|l|l]; try exact HE'.
    pose proof (arr_ES_dims _ _ _ Hb He) as ->. apply arr_ES in He. cbn [bphi].
    pose proof (proj1 (arr_EV _ _ _) Hv) as [Ll Hl]. cbn [vec_entries] in Ll, Hl. rewrite map_length in Ll.
    destruct (Nat.eqb_spec (length l) 1) as [E1|E1].
    + rewrite <- Ll, E1 in *. destruct l as [|k [|]]; try discriminate. cbn. exists (ES (SK (k + f))). split; [reflexivity|]. apply arr_ES.
      destruct (Hl 0) as (s & Es & Hs); [lia|]. cbn in Es. injection Es as <-.
      split; [exact I|]. split; [apply within_const; exact HZ|]. intros EX HU r. destruct Hs as (_ & _ & Hs). destruct He as (_ & _ & Hf).
      rewrite <- (Hs EX HU r), <- (Hf EX HU r). reflexivity.
    + rewrite Ll. destruct n as [|n']; [lia|]. cbn [ones_vector bind].
      apply good_simplify; [exact Hn | cbn; lia | exact HZ|].
      assert (HK : den (S n', 1) F (fun _ _ => psi 0 0) (EV (VK (map (fun x => f * x) (repeat n1 (S n')))))).
      { apply arr_EV. cbn [vec_entries]. apply col_map. split; [rewrite map_length; apply repeat_length|]. intros i Hi.
        exists (f * n1). split.
        - rewrite nth_error_map. rewrite (nth_error_nth' _ n0) by (rewrite repeat_length; exact Hi). cbn [option_map]. f_equal. f_equal.
          apply (nth_repeat_lt n0 n1). exact Hi.
        - destruct He as (_ & _ & Hf). split; [exact I|]. split; [apply within_const; exact HZ|]. intros EX HU r.
          rewrite <- (Hf EX HU r). cbn [eval]. apply ring_1_r. }
      apply (good_ext (S n', 1) F (fun i j r => phi i j r + bphi (EV (VK (map (fun x => f * x) (repeat n1 (S n'))))) (fun _ _ => psi 0 0) i j r)); [reflexivity|].
      apply (vec_plus_expr_good (S n') (S n', 1)); try assumption; try exact I. left. reflexivity.
  - (* int *) destruct v as [l|l|l|l]; try discriminate HT; exact HE'.
  - (* mat.VecDense *) destruct v as [l0|l0|l0|l0]; try discriminate HT; exact HE'.
  - destruct v as [l0|l0|l0|l0]; try discriminate HT; exact HE'.
  - (* an expression *) apply good_simplify; [exact Hn | cbn; lia | exact HZ|]. apply (vec_plus_template_good n db); assumption.
Qed.

(** ** Matrices *)

Lemma mat_plus_template_good d phi psi m r : 1 <= fst d -> 1 <= snd d -> den d F phi (EM m) -> den d F psi (EM r) ->
  good d F (fun i j r => phi i j r + psi i j r) (as_EM (mat_plus_template m r)).
Proof.
  intros H1 H2 Hm Hr. apply arr_EM in Hm. apply arr_EM in Hr. unfold mat_plus_template.
  rewrite (mat_check_grid d _ m H1 (den_valid F phi) Hm), (mat_check_grid d _ r H1 (den_valid F psi) Hr). cbn [check bind].
  rewrite (mat_dims_grid d _ m H1 (den_valid F phi) Hm), (mat_dims_grid d _ r H1 (den_valid F psi) Hr). cbn [bind].
  unfold dims_eqb. rewrite !Nat.eqb_refl. cbn [andb check bind].
  destruct (mapM_seq (fun i => mapM (fun j => a <- mat_get m i j ;; b <- mat_get r i j ;; scalar_plus a b) (seq 0 (snd d))) (fst d)
              (fun i => col (snd d) (fun j => sden F (fun r => phi i j r + psi i j r)))) as (l & -> & Ll & Hl).
  - intros i Hi.
    destruct (mapM_seq (fun j => a <- mat_get m i j ;; b <- mat_get r i j ;; scalar_plus a b) (snd d)
                (fun j => sden F (fun r => phi i j r + psi i j r))) as (l & -> & Ll & Hl).
    + intros j Hj. destruct (mat_get_grid d _ m i j H1 H2 (den_valid F phi) Hm Hi Hj) as (a & -> & Ha). cbn.
      destruct (mat_get_grid d _ r i j H1 H2 (den_valid F psi) Hr Hi Hj) as (b & -> & Hb). cbn. apply sden_plus; assumption.
    + exists l. split; [reflexivity|]. split; assumption.
  - cbn [bind]. destruct (concretize_matrix_arr d (fun i j => sden F (fun r => phi i j r + psi i j r)) l) as (e & -> & He);
      [exact H1 | apply sden_by_terms | split; assumption|].
    exists (EM e). split; [reflexivity | exact He].
Qed.

Lemma grid_repeat {A} d (P : nat -> nat -> A -> Prop) a : (forall i j, i < fst d -> j < snd d -> P i j a) -> grid d P (repeat (repeat a (snd d)) (fst d)).
Proof.
  intro H. split; [apply repeat_length|]. intros i Hi. exists (repeat a (snd d)).
  split; [rewrite (nth_error_nth' _ []) by (rewrite repeat_length; exact Hi); f_equal; apply nth_repeat_lt; exact Hi|].
  split; [apply repeat_length|]. intros j Hj. exists a.
  split; [rewrite (nth_error_nth' _ a) by (rewrite repeat_length; exact Hj); f_equal; apply nth_repeat_lt; exact Hj | apply H; assumption].
Qed.

Lemma ones_matrix_ok d : 1 <= fst d -> 1 <= snd d -> ones_matrix (fst d) (snd d) = Ok (repeat (repeat n1 (snd d)) (fst d)).
Proof.
  intros H1 H2. unfold ones_matrix. destruct (Nat.eqb_spec (fst d) 0); [lia|]. destruct (Nat.eqb_spec (snd d) 0); [lia|]. reflexivity.
Qed.

Lemma k_mat_plus_float_good d phi psi l f : 1 <= fst d -> 1 <= snd d -> den d F phi (EM (MK l)) -> sden F psi (SK f) ->
  good d F (fun i j r => phi i j r + psi r) (k_mat_plus_float l f).
Proof.
  intros H1 H2 Hl Hf. apply arr_EM in Hl. cbn [mat_rows] in Hl. apply grid_map in Hl. unfold k_mat_plus_float.
  rewrite (rows_dims_grid d _ l H1 Hl). cbn [bind]. rewrite (ones_matrix_ok d H1 H2). cbn [bind].
  rewrite (k_to_dense_grid d _ l H1 H2 Hl). cbn [bind]. eexists. split; [reflexivity|]. apply arr_EM. cbn [mat_rows]. apply grid_map.
  pose proof (grid_repeat d (fun _ _ x => x = n1) n1 (fun _ _ _ _ => eq_refl)) as Ho.
  set (o := repeat (repeat n1 (snd d)) (fst d)) in *. clearbody o.
  destruct Hl as [Ll Hl]. destruct Ho as [Lo Ho]. split; [rewrite map_length, combine_length; lia|]. intros i Hi.
  destruct (Hl i Hi) as (row & Er & Lr & Hr). destruct (Ho i Hi) as (orow & Eo & Lor & Hor).
  eexists. split; [rewrite nth_error_map, nth_error_combine, Eo, Er; reflexivity|]. cbn [fst snd].
  split; [rewrite map_length, combine_length; lia|]. intros j Hj. destruct (Hr j Hj) as (k & Ek & Hk). destruct (Hor j Hj) as (o1 & Eo1 & ->).
  eexists. split; [rewrite nth_error_map, nth_error_combine, Eo1, Ek; reflexivity|]. cbn [fst snd].
  split; [exact I|]. split; [apply within_const; exact HZ|]. intros EX HU r. destruct Hk as (_ & _ & Hk). destruct Hf as (_ & _ & Hf).
  rewrite <- (Hk EX HU r), <- (Hf EX HU r). cbn [eval]. pose proof (@ex_field NN EX) as EF. clear - EF.
  transitivity (f + k); [|apply (Radd_comm (F_R EF))]. f_equal. rewrite (Rmul_comm (F_R EF)). apply (Rmul_1_l (F_R EF)).
Qed.

Lemma k_mat_plus_mat_good d phi psi l r : 1 <= fst d -> 1 <= snd d -> den d F phi (EM (MK l)) -> den d F psi (EM r) ->
  good d F (fun i j r => phi i j r + psi i j r) (k_mat_plus_mat l r).
Proof.
  intros H1 H2 Hl Hr. unfold k_mat_plus_mat.
  rewrite (operand_check_ok dims_add _ d (GExpr (EM r)) (EM r) d _ (mat_dims_grid d _ (MK l) H1 (den_valid F phi) (proj1 (arr_EM _ _ _) Hl)) eq_refl H1 H2
             (den_valid F psi) Hr (dims_add_same d)). cbn [bind].
  apply good_simplify; try assumption. apply mat_plus_template_good; assumption.
Qed.

Lemma mat_operand_ok d db phi psi m g e : 1 <= fst d -> 1 <= snd d -> den d F phi (EM m) -> means g = Some e -> den db F psi e ->
  1 <= fst db -> 1 <= snd db -> (db = d \/ is_scalar e) -> operand_check dims_add (mat_dims m) g = Ok tt.
Proof.
  intros H1 H2 Hm Hg He B1 B2 H. destruct (means_as_expr g e Hg) as [Eg|(z & -> & _)]; [|reflexivity].
  apply (operand_check_ok dims_add _ d g e db _ (mat_dims_grid d _ m H1 (den_valid F phi) (proj1 (arr_EM _ _ _) Hm)) Eg B1 B2 (den_valid F psi) He).
  destruct H as [->|H]; [apply dims_add_same|]. destruct e; try destruct H. rewrite (arr_ES_dims _ _ _ B1 He). apply dims_add_l.
Qed.

Definition k_mat_plus_type (g : goval) : bool :=
  match g with
  | GFloat _ | GExpr (ES (SK _)) | GExpr (ES (SV _)) | GDense _ | GDenseP _ | GExpr (EM _) => true
  | _ => false
  end.

Lemma k_mat_plus_good d db phi psi l g e : 1 <= fst d -> 1 <= snd d -> den d F phi (EM (MK l)) -> means g = Some e -> den db F psi e ->
  1 <= fst db -> 1 <= snd db -> (db = d \/ is_scalar e) -> k_mat_plus_type g = true ->
  good d F (fun i j r => phi i j r + bphi e psi i j r) (k_mat_plus l g).
Proof.
  intros H1 H2 Hl Hg He B1 B2 H HT. unfold k_mat_plus. rewrite (mat_operand_ok d db phi psi (MK l) g e H1 H2 Hl Hg He B1 B2 H). cbn [bind].
  pose proof (proj1 (arr_EM _ _ _) Hl) as Hg'. cbn [mat_rows] in Hg'. apply grid_map in Hg'. rewrite (rows_dims_grid d _ l H1 Hg'). cbn [bind].
  assert (HS : forall s, e = ES s -> sden F (psi 0 0) s). { intros s ->. rewrite (arr_ES_dims _ _ _ B1 He) in He. apply arr_ES in He. exact He. }
  assert (HM : forall m, e = EM m -> den d F psi (EM m)). { intros m ->. destruct H as [->|[]]. exact He. }
  destruct g as [f|z|l0|l0|l0|l0|[[k|x|mo|p]|v|m]|]; cbn in Hg; try discriminate Hg; try discriminate HT; injection Hg as <-; cbn [bphi];
    repeat (apply good_simplify; [assumption|assumption|assumption|]).
  - apply k_mat_plus_float_good; auto.
  - apply k_mat_plus_mat_good; auto.
  - apply k_mat_plus_mat_good; auto.
  - apply k_mat_plus_float_good; auto.
  - apply (k_mat_plus_mat_good d phi (fun _ _ => psi 0 0)); try assumption. apply arr_EM. cbn [mat_rows]. apply grid_map. apply grid_repeat. intros i j _ _. apply HS. reflexivity.
  - apply mat_plus_template_good; auto.
Qed.

(** ** VariableMatrix *)

(** when the call returns *)
Definition rgood (d : nat * nat) (G : (N -> Z) -> Prop) (phi : nat -> nat -> assignment -> num) (x : res expr) : Prop :=
  forall e, x = Ok e -> den d G phi e.

Lemma good_rgood d phi x : good d F phi x -> rgood d F phi x.
Proof. intros (e & E & H) e' E'. congruence. Qed.

Lemma var_mat_plus_k_rgood d phi psi l r : den d F phi (EM (MV l)) -> den d F psi (EM (MK r)) ->
  rgood d F (fun i j r => phi i j r + psi i j r) (var_mat_plus_k l r).
Proof.
  intros Hl Hr e E. apply arr_EM in Hl. apply arr_EM in Hr. cbn [mat_rows] in Hl, Hr. apply grid_map in Hl. apply grid_map in Hr.
  unfold var_mat_plus_k in E. match type of E with (x <- ?t ;; _) = _ => destruct t as [rows|] eqn:Erows; [|discriminate] end.
  cbn in E. injection E as <-. apply arr_EM. cbn [mat_rows]. apply grid_map. apply mapM_inv in Erows. destruct Erows as [L H]. rewrite enum_length in L.
  destruct Hl as [Ll Hl]. split; [lia|]. intros i Hi. destruct (Hl i Hi) as (row & Er & Lr & Hrow).
  destruct (H i (i, row)) as (row' & Erow' & E).
  { unfold enum. rewrite nth_error_combine, Er. rewrite (nth_error_nth' (seq 0 (length l)) 0) by (rewrite seq_length; lia). rewrite seq_nth by lia. reflexivity. }
  exists row'. split; [exact Erow'|]. apply mapM_inv in E. destruct E as [L' H']. cbn [snd] in L'. rewrite enum_length in L'. split; [lia|].
  intros j Hj. destruct (Hrow j Hj) as (x & Ex & Hx). destruct (H' j (j, x)) as (p & Ep & E).
  { unfold enum. cbn [snd]. rewrite nth_error_combine, Ex. rewrite (nth_error_nth' (seq 0 (length row)) 0) by (rewrite seq_length; lia). rewrite seq_nth by lia. reflexivity. }
  exists p. split; [exact Ep|]. cbn [fst snd] in E. destruct Hr as [Lr' Hr]. destruct (Hr i Hi) as (krow & Ekr & Lkr & Hkrow). destruct (Hkrow j Hj) as (k & Ek & Hk).
  rewrite (index_nth _ _ _ Ekr) in E. cbn in E. rewrite (index_nth _ _ _ Ek) in E. cbn [bind] in E.
  destruct (sden_plus F _ _ _ _ HZ Hx Hk) as (s & Es & Hs). cbn [scalar_plus var_plus] in Es. rewrite Es in E. cbn in E.
  destruct s; try discriminate. injection E as <-. exact Hs.
Qed.

Definition var_mat_plus_type (g : goval) : bool :=
  match g with GFloat _ | GExpr (ES (SK _)) | GExpr (EM (MK _)) => true | _ => false end.

Lemma var_mat_plus_rgood d db phi psi l g e : 1 <= fst d -> 1 <= snd d -> den d F phi (EM (MV l)) -> means g = Some e -> den db F psi e ->
  1 <= fst db -> 1 <= snd db -> (db = d \/ is_scalar e) ->
  rgood d F (fun i j r => phi i j r + bphi e psi i j r) (var_mat_plus l g).
Proof.
  intros H1 H2 Hl Hg He B1 B2 H. unfold var_mat_plus. rewrite (mat_operand_ok d db phi psi (MV l) g e H1 H2 Hl Hg He B1 B2 H).
  rewrite (mat_check_grid d _ _ H1 (den_valid F phi) (proj1 (arr_EM _ _ _) Hl)), (mat_dims_grid d _ _ H1 (den_valid F phi) (proj1 (arr_EM _ _ _) Hl)). cbn [check bind].
  rewrite (ones_matrix_ok d H1 H2). cbn [bind].
  assert (HS : forall f, e = ES (SK f) -> den d F (fun _ _ => psi 0 0) (EM (MK (map (map (fun x => f * x)) (repeat (repeat n1 (snd d)) (fst d)))))).
  { intros s ->. rewrite (arr_ES_dims _ _ _ B1 He) in He. apply arr_ES in He. apply arr_EM. cbn [mat_rows]. apply grid_map. apply grid_map.
    apply grid_repeat. intros i j _ _. destruct He as (_ & _ & Hf). split; [exact I|]. split; [apply within_const; exact HZ|]. intros EX HU r.
    rewrite <- (Hf EX HU r). cbn [eval]. apply ring_1_r. }
  assert (HM : forall m, e = EM m -> den d F psi (EM m)). { intros m ->. destruct H as [->|[]]. exact He. }
  destruct g as [f|z|l0|l0|l0|l0|[[k|x|mo|p]|v|[lk|lv|lm|lp]]|]; cbn in Hg; try discriminate Hg; injection Hg as <-; cbn [bphi]; intros out E; try discriminate E.
  - exact (var_mat_plus_k_rgood d phi (fun _ _ => psi 0 0) l _ Hl (HS f eq_refl) out E).
  - exact (var_mat_plus_k_rgood d phi (fun _ _ => psi 0 0) l _ Hl (HS k eq_refl) out E).
  - exact (var_mat_plus_k_rgood d phi psi l _ Hl (HM _ eq_refl) out E).
Qed.

(** ** MonomialMatrix *)

Lemma sden_cons phi psi m s : sden F phi (SM m) -> sden F psi s -> sden F (fun r => phi r + psi r) (SP (m :: terms s)).
Proof.
  intros (Vm & Wm & Em) (Vs & Ws & Es). split; [split; [discriminate | constructor; [exact Vm | apply valid_terms; exact Vs]]|]. split.
  - intros m' [<-|Hm]; [apply Wm; left; reflexivity | apply Ws; exact Hm].
  - intros EX HU r. rewrite <- (Em EX HU r), <- (Es EX HU r). rewrite <- (eval_terms r s). reflexivity.
Qed.

Lemma mono_mat_plus_entry_good phi psi m s : sden F phi (SM m) -> sden F psi s ->
  exists p, mono_mat_plus_entry m (terms s) = Ok p /\ sden F (fun r => phi r + psi r) (SP p).
Proof.
  intros Hm Hs. pose proof (sden_cons phi psi m s Hm Hs) as H. exists (m :: terms s). split; [|exact H].
  unfold mono_mat_plus_entry. rewrite (poly_simplify_ok (m :: terms s)); [reflexivity|]. apply valid_poly_check. exact (sden_valid _ _ _ H).
Qed.

Lemma mono_mat_plus_all_good d phi psi l s : den d F phi (EM (MM l)) -> sden F psi s ->
  good d F (fun i j r => phi i j r + psi r) (mono_mat_plus_all l (terms s)).
Proof.
  intros Hl Hs. apply arr_EM in Hl. cbn [mat_rows] in Hl. apply grid_map in Hl. unfold mono_mat_plus_all.
  destruct (mapM_col (fst d) (fun i => col (snd d) (fun j b => sden F (phi i j) (SM b))) (fun i => col (snd d) (fun j b => sden F (fun r => phi i j r + psi r) (SP b)))
              (mapM (fun m => mono_mat_plus_entry m (terms s))) l) as (rows & -> & Hrows).
  - intros i r _. apply mapM_col. intros j m _ Hm. apply mono_mat_plus_entry_good; assumption.
  - exact Hl.
  - cbn. exists (EM (MP rows)). split; [reflexivity|]. apply arr_EM. cbn [mat_rows]. apply grid_map. exact Hrows.
Qed.

(** adding entry by entry an array of the same size *)
Lemma enum_rows_good {A B C} d (P : nat -> nat -> A -> Prop) (Q : nat -> nat -> B -> Prop) (R : nat -> nat -> C -> Prop) (l : list (list A)) (r : list (list B)) (f : A -> B -> res C) :
  (forall i j a b, P i j a -> Q i j b -> exists c, f a b = Ok c /\ R i j c) -> grid d P l -> grid d Q r ->
  exists rows, mapM (fun ir => mapM (fun ja => rr <- index r (fst ir) ;; b <- index rr (fst ja) ;; f (snd ja) b) (enum (snd ir))) (enum l) = Ok rows /\ grid d R rows.
Proof.
  intros H [Ll Hl] [Lr Hr].
  destruct (mapM_enum (fun ir => mapM (fun ja => rr <- index r (fst ir) ;; b <- index rr (fst ja) ;; f (snd ja) b) (enum (snd ir))) l
              (fun i => col (snd d) (R i))) as (rows & E & L & Hrows).
  - intros i row Erow. assert (Hi : i < fst d) by (rewrite <- Ll; eapply nth_error_bound; exact Erow).
    destruct (Hl i Hi) as (row0 & Er0 & Lrow & Hrow). assert (row0 = row) by congruence. subst row0.
    destruct (Hr i Hi) as (brow & Ebr & Lbr & Hbrow). cbn [fst snd].
    destruct (mapM_enum (fun ja => rr <- index r i ;; b <- index rr (fst ja) ;; f (snd ja) b) row (R i)) as (row' & E & L & Hrow').
    + intros j a Ea. assert (Hj : j < snd d) by (rewrite <- Lrow; eapply nth_error_bound; exact Ea).
      destruct (Hrow j Hj) as (a0 & Ea0 & Ha). assert (a0 = a) by congruence. subst a0. destruct (Hbrow j Hj) as (b & Eb & Hb).
      cbn [fst snd]. rewrite (index_nth _ _ _ Ebr). cbn [bind]. rewrite (index_nth _ _ _ Eb). cbn [bind]. apply (H i j); assumption.
    + exists row'. split; [exact E|]. split; [lia|]. rewrite <- Lrow. exact Hrow'.
  - exists rows. split; [exact E|]. split; [lia|]. rewrite <- Ll. exact Hrows.
Qed.

Definition mono_mat_plus_type (g : goval) : bool :=
  match g with GFloat _ | GExpr (ES _) | GExpr (EM (MP _)) => true | _ => false end.

Lemma mono_mat_plus_good d db phi psi l g e : 1 <= fst d -> 1 <= snd d -> den d F phi (EM (MM l)) -> means g = Some e -> den db F psi e ->
  1 <= fst db -> 1 <= snd db -> (db = d \/ is_scalar e) -> mono_mat_plus_type g = true ->
  good d F (fun i j r => phi i j r + bphi e psi i j r) (mono_mat_plus l g).
Proof.
  intros H1 H2 Hl Hg He B1 B2 H HT. unfold mono_mat_plus. rewrite (mat_operand_ok d db phi psi (MM l) g e H1 H2 Hl Hg He B1 B2 H).
  rewrite (mat_check_grid d _ _ H1 (den_valid F phi) (proj1 (arr_EM _ _ _) Hl)). cbn [check bind].
  assert (HS : forall s, e = ES s -> sden F (psi 0 0) s). { intros s ->. rewrite (arr_ES_dims _ _ _ B1 He) in He. apply arr_ES in He. exact He. }
  assert (HM : forall m, e = EM m -> den d F psi (EM m)). { intros m ->. destruct H as [->|[]]. exact He. }
  destruct g as [f|z|l0|l0|l0|l0|[[k|x|mo|p]|v|[lk|lv|lm|lp]]|]; cbn in Hg; try discriminate Hg; try discriminate HT; injection Hg as <-; cbn [bphi].
  - exact (mono_mat_plus_all_good d phi (psi 0 0) l (SK f) Hl (HS _ eq_refl)).
  - exact (mono_mat_plus_all_good d phi (psi 0 0) l (SK k) Hl (HS _ eq_refl)).
  - exact (mono_mat_plus_all_good d phi (psi 0 0) l (SV x) Hl (HS _ eq_refl)).
  - exact (mono_mat_plus_all_good d phi (psi 0 0) l (SM mo) Hl (HS _ eq_refl)).
  - exact (mono_mat_plus_all_good d phi (psi 0 0) l (SP p) Hl (HS _ eq_refl)).
  - pose proof (HM _ eq_refl) as Hp. apply arr_EM in Hp. apply arr_EM in Hl. cbn [mat_rows] in Hp, Hl. apply grid_map in Hp. apply grid_map in Hl.
    destruct (enum_rows_good d _ _ (fun i j p => sden F (fun r => phi i j r + psi i j r) (SP p)) l lp mono_mat_plus_entry
                (fun i j m p Hm Hpp => mono_mat_plus_entry_good _ _ m (SP p) Hm Hpp) Hl Hp) as (rows & -> & Hrows).
    cbn. exists (EM (MP rows)). split; [reflexivity|]. apply arr_EM. cbn [mat_rows]. apply grid_map. exact Hrows.
Qed.

(** ** PolynomialMatrix *)

Lemma concretize_rows_good d phi rows : 1 <= fst d -> 1 <= snd d -> grid d (fun i j => sden F (phi i j)) rows -> good d F phi (concretize_rows rows).
Proof. intros H1 H2 H. apply concretize_rows_arr; [exact H1 | exact H2 | apply sden_by_terms | apply den_valid | exact H]. Qed.

Lemma poly_mat_plus_all_good d phi psi l s : 1 <= fst d -> 1 <= snd d -> den d F phi (EM (MP l)) -> sden F psi s ->
  good d F (fun i j r => phi i j r + psi r) (poly_mat_plus_all l s).
Proof.
  intros H1 H2 Hl Hs. apply arr_EM in Hl. cbn [mat_rows] in Hl. apply grid_map in Hl. unfold poly_mat_plus_all.
  destruct (mapM_col (fst d) (fun i => col (snd d) (fun j b => sden F (phi i j) (SP b))) (fun i => col (snd d) (fun j => sden F (fun r => phi i j r + psi r)))
              (mapM (fun p => poly_plus p s)) l) as (rows & -> & Hrows).
  - intros i r _. apply mapM_col. intros j p _ Hp. exact (sden_plus F _ _ (SP p) s HZ Hp Hs).
  - exact Hl.
  - cbn [bind]. apply good_simplify; try assumption. apply concretize_rows_good; assumption.
Qed.

Definition poly_mat_plus_type (g : goval) : bool :=
  match g with GFloat _ | GExpr (ES (SK _)) | GExpr (ES (SM _)) | GExpr (ES (SP _)) | GExpr (EM (MK _)) | GExpr (EM (MP _)) => true | _ => false end.

Lemma poly_mat_plus_good d db phi psi l g e : 1 <= fst d -> 1 <= snd d -> den d F phi (EM (MP l)) -> means g = Some e -> den db F psi e ->
  1 <= fst db -> 1 <= snd db -> (db = d \/ is_scalar e) -> poly_mat_plus_type g = true ->
  good d F (fun i j r => phi i j r + bphi e psi i j r) (poly_mat_plus l g).
Proof.
  intros H1 H2 Hl Hg He B1 B2 H HT. unfold poly_mat_plus. rewrite (mat_operand_ok d db phi psi (MP l) g e H1 H2 Hl Hg He B1 B2 H).
  rewrite (mat_check_grid d _ _ H1 (den_valid F phi) (proj1 (arr_EM _ _ _) Hl)). cbn [check bind].
  assert (HS : forall s, e = ES s -> sden F (psi 0 0) s). { intros s ->. rewrite (arr_ES_dims _ _ _ B1 He) in He. apply arr_ES in He. exact He. }
  assert (HM : forall m, e = EM m -> den d F psi (EM m)). { intros m ->. destruct H as [->|[]]. exact He. }
  assert (Hl' := Hl). apply arr_EM in Hl'. cbn [mat_rows] in Hl'. apply grid_map in Hl'.
  destruct g as [f|z|l0|l0|l0|l0|[[k|x|mo|p]|v|[lk|lv|lm|lp]]|]; cbn in Hg; try discriminate Hg; try discriminate HT; injection Hg as <-; cbn [bphi];
    repeat (apply good_simplify; [assumption|assumption|assumption|]).
  - apply poly_mat_plus_all_good; auto.
  - apply poly_mat_plus_all_good; auto.
  - apply poly_mat_plus_all_good; try assumption. apply (sden_terms F _ (SM mo)); [reflexivity | auto].
  - apply poly_mat_plus_all_good; auto.
  - pose proof (HM _ eq_refl) as Hk. assert (Hk' := Hk). apply arr_EM in Hk'.
    destruct (mapM_enum (fun ir => mapM (fun jp => k <- mat_get (MK lk) (fst ir) (fst jp) ;; poly_plus (snd jp) k) (enum (snd ir))) l
                (fun i => col (snd d) (fun j => sden F (fun r => phi i j r + psi i j r)))) as (rows & -> & L & Hrows).
    + intros i row Erow. cbn [fst snd]. destruct Hl' as [Ll Hll]. assert (Hi : i < fst d) by (rewrite <- Ll; eapply nth_error_bound; exact Erow).
      destruct (Hll i Hi) as (row0 & Er0 & Lrow & Hrow). assert (row0 = row) by congruence. subst row0.
      destruct (mapM_enum (fun jp => k <- mat_get (MK lk) i (fst jp) ;; poly_plus (snd jp) k) row (fun j => sden F (fun r => phi i j r + psi i j r))) as (row' & -> & L' & Hrow').
      * intros j p Ep. cbn [fst snd]. assert (Hj : j < snd d) by (rewrite <- Lrow; eapply nth_error_bound; exact Ep).
        destruct (Hrow j Hj) as (p0 & Ep0 & Hp). assert (p0 = p) by congruence. subst p0.
        destruct (mat_get_grid d _ (MK lk) i j H1 H2 (den_valid F psi) Hk' Hi Hj) as (b & -> & Hb). cbn [bind].
        exact (sden_plus F _ _ (SP p) b HZ Hp Hb).
      * exists row'. split; [reflexivity|]. split; [lia|]. rewrite <- Lrow. exact Hrow'.
    + cbn [bind]. apply good_simplify; try assumption. apply concretize_rows_good; try assumption. destruct Hl' as [Ll Hll]. split; [lia|]. rewrite <- Ll. exact Hrows.
  - pose proof (HM _ eq_refl) as Hp. apply arr_EM in Hp. cbn [mat_rows] in Hp. apply grid_map in Hp.
    destruct (enum_rows_good d _ _ (fun i j => sden F (fun r => phi i j r + psi i j r)) l lp (fun p q => poly_plus p (SP q))
                (fun i j p q Hpp Hq => sden_plus F _ _ (SP p) (SP q) HZ Hpp Hq) Hl' Hp) as (rows & -> & Hrows).
    cbn [bind]. apply good_simplify; try assumption. apply concretize_rows_good; assumption.
Qed.

(** ** VariableMatrix, totality *)

Lemma var_plus_k_poly x k : ExactNum NN -> valid_var x -> k <> n0 -> exists p, var_plus_k x k = Ok (SP p).
Proof.
  intros EX Hx Hk. unfold var_plus_k. pose proof Hx as Cx. apply var_check_valid in Cx. rewrite Cx. cbn [check bind].
  assert (E : poly_simplify [var_to_mono x; k_to_mono k] = Ok [k_to_mono k; var_to_mono x]).
  { unfold poly_simplify. cbn. replace (n0 + k) with k by (symmetry; apply ring_a0_l).
    assert (E1 : (k =? n0) = false) by (apply eqb_false_iff; exact Hk). rewrite E1. cbn.
    assert (E2 : (n1 =? n0) = false) by (apply eqb_false_iff; apply n1_neq_n0). rewrite E2. reflexivity. }
  unfold poly_simplified. rewrite E. cbn. eexists. reflexivity.
Qed.

Lemma var_mat_plus_k_total d phi psi l r : ExactNum NN -> den d F phi (EM (MV l)) -> den d F psi (EM (MK r)) ->
  no_zero (EM (MK r)) -> exists e, var_mat_plus_k l r = Ok e.
Proof.
  intros EX Hl Hr HN. apply arr_EM in Hl. apply arr_EM in Hr. cbn [mat_rows] in Hl, Hr. apply grid_map in Hl. apply grid_map in Hr.
  assert (Hr' : grid d (fun _ _ k => k <> n0) r).
  { destruct Hr as [L Hr]. split; [exact L|]. intros i Hi. destruct (Hr i Hi) as (row & Er & Lr & Hrow). exists row. split; [exact Er|]. split; [exact Lr|].
    intros j Hj. destruct (Hrow j Hj) as (k & Ek & _). exists k. split; [exact Ek|]. intros ->.
    apply (HN (map SK row)); [cbn; apply in_map; eapply nth_error_In; exact Er | apply (in_map SK); eapply nth_error_In; exact Ek]. }
  unfold var_mat_plus_k.
  destruct (enum_rows_good d (fun (i j : nat) (b : var) => sden F (phi i j) (SV b)) (fun (_ _ : nat) (k : num) => k <> n0) (fun _ _ _ => True) l r
              (fun x k => s <- var_plus_k x k ;; match s with SP p => Ok p | _ => Panic PRuntime end)) as (rows & E & _).
  2: exact Hl. 2: exact Hr'. 2: rewrite E.
  - intros i j x k Hx Hk. destruct (var_plus_k_poly x k EX (sden_valid _ _ _ Hx) Hk) as (p & ->). exists p. split; [reflexivity | exact I].
  - cbn. eexists. reflexivity.
Qed.

Lemma var_mat_plus_total d db phi psi l g e : ExactNum NN -> 1 <= fst d -> 1 <= snd d -> den d F phi (EM (MV l)) -> means g = Some e -> den db F psi e ->
  1 <= fst db -> 1 <= snd db -> (db = d \/ is_scalar e) -> var_mat_plus_type g = true -> no_zero e ->
  exists out, var_mat_plus l g = Ok out.
Proof.
  intros EX H1 H2 Hl Hg He B1 B2 H HT HN. unfold var_mat_plus. rewrite (mat_operand_ok d db phi psi (MV l) g e H1 H2 Hl Hg He B1 B2 H).
  rewrite (mat_check_grid d _ _ H1 (den_valid F phi) (proj1 (arr_EM _ _ _) Hl)), (mat_dims_grid d _ _ H1 (den_valid F phi) (proj1 (arr_EM _ _ _) Hl)). cbn [check bind].
  rewrite (ones_matrix_ok d H1 H2). cbn [bind].
  assert (HS : forall f, e = ES (SK f) -> den d F (fun _ _ _ => f * n1) (EM (MK (map (map (fun x => f * x)) (repeat (repeat n1 (snd d)) (fst d))))) /\
                 no_zero (EM (MK (map (map (fun x => f * x)) (repeat (repeat n1 (snd d)) (fst d)))))).
  { intros s ->. split.
    - apply arr_EM. cbn [mat_rows]. apply grid_map. apply grid_map. apply grid_repeat. intros i j _ _. apply sden_const. exact HZ.
    - intros row Hrow Hin. cbn [rows] in Hrow. apply in_map_iff in Hrow. destruct Hrow as (r1 & <- & Hr1). apply in_map_iff in Hr1. destruct Hr1 as (r2 & <- & Hr2).
      apply repeat_spec in Hr2. subst r2. rewrite map_map in Hin. apply in_map_iff in Hin. destruct Hin as (o & E & Ho). apply repeat_spec in Ho. subst o.
      injection E as E. apply (HN [SK s]); [left; reflexivity|]. left. f_equal. rewrite <- E. symmetry. apply ring_1_r. }
  assert (HM : forall m, e = EM m -> den d F psi (EM m)). { intros m ->. destruct H as [->|[]]. exact He. }
  destruct g as [f|z|l0|l0|l0|l0|[[k|x|mo|p]|v|[lk|lv|lm|lp]]|]; cbn in Hg; try discriminate Hg; try discriminate HT; injection Hg as <-.
  - destruct (HS f eq_refl) as [S1 S2]. exact (var_mat_plus_k_total d phi _ l _ EX Hl S1 S2).
  - destruct (HS k eq_refl) as [S1 S2]. exact (var_mat_plus_k_total d phi _ l _ EX Hl S1 S2).
  - eapply var_mat_plus_k_total; [exact EX | exact Hl | exact (HM _ eq_refl) | exact HN].
Qed.

(** ** Any receiver, any operand *)

Lemma good_comm d phi psi x : good d F (fun i j r => phi i j r + psi i j r) x -> good d F (fun i j r => psi i j r + phi i j r) x.
Proof. apply good_ext. intros EX i j r. exact (Radd_comm (F_R (@ex_field NN EX)) _ _). Qed.
Lemma rgood_comm d phi psi x : rgood d F (fun i j r => phi i j r + psi i j r) x -> rgood d F (fun i j r => psi i j r + phi i j r) x.
Proof.
  intros H e E. eapply arr_impl; [|exact (H e E)]. intros i j a _ _. apply sden_ext. intros EX r. exact (Radd_comm (F_R (@ex_field NN EX)) _ _).
Qed.

Lemma scalar_plus_float_good phi psi s f : sden F phi s -> sden F psi (SK f) ->
  exists out, scalar_plus_float s f = Ok out /\ sden F (fun r => phi r + psi r) out.
Proof.
  intros Hs Hf. destruct (sden_plus F _ _ s (SK f) HZ Hs Hf) as (out & E & Ho).
  destruct (sden_simplified F _ out HZ Ho) as (out' & E' & Ho').
  destruct s; cbn [scalar_plus_float]; cbn [scalar_plus var_plus mono_plus poly_plus] in E; try rewrite E; cbn [bind]; eauto.
Qed.

Lemma bphi_scalar s psi i j : bphi (ES s) psi i j = psi 0 0. Proof. reflexivity. Qed.

Lemma den_ES psi s d : 1 <= fst d -> den d F psi (ES s) -> sden F (psi 0 0) s.
Proof. intros H1 H. rewrite (arr_ES_dims _ _ _ H1 H) in H. apply arr_ES in H. exact H. Qed.

Lemma den_ES_intro psi s : sden F psi s -> den (1, 1) F (fun _ _ => psi) (ES s).
Proof. intro H. apply arr_ES. exact H. Qed.

(** a scalar receiver and a scalar operand *)
Lemma good_scalar phi psi a b x : sden F phi a -> sden F psi b -> (exists s, x = Ok s /\ sden F (fun r => phi r + psi r) s) ->
  good (1, 1) F (fun i j r => phi r + psi r) (as_ES x).
Proof. intros _ _ H. apply (good_ES F (fun r => phi r + psi r)). exact H. Qed.

Lemma mat_plus_good d db phi psi m g e : 1 <= fst d -> 1 <= snd d -> den d F phi (EM m) -> means g = Some e -> den db F psi e ->
  1 <= fst db -> 1 <= snd db -> (db = d \/ is_scalar e) -> plus_accepts (EM m) g = true -> is_variable_matrix (EM m) = false ->
  good d F (fun i j r => phi i j r + bphi e psi i j r) (mat_plus m g).
Proof.
  intros H1 H2 Hm Hg He B1 B2 H HT HV. destruct m as [l|l|l|l]; cbn [mat_plus]; [|discriminate HV| |].
  - apply (k_mat_plus_good d db); try assumption; destruct g as [f|z|l0|l0|l0|l0|[[k|x|mo|p]|v0|[lk|lv|lm|lp]]|]; (exact HT || reflexivity).
  - apply (mono_mat_plus_good d db); try assumption; destruct g as [f|z|l0|l0|l0|l0|[[k|x|mo|p]|v0|[lk|lv|lm|lp]]|]; (exact HT || reflexivity).
  - apply (poly_mat_plus_good d db); try assumption; destruct g as [f|z|l0|l0|l0|l0|[[k|x|mo|p]|v0|[lk|lv|lm|lp]]|]; (exact HT || reflexivity).
Qed.

Lemma mat_plus_rgood d db phi psi m g e : 1 <= fst d -> 1 <= snd d -> den d F phi (EM m) -> means g = Some e -> den db F psi e ->
  1 <= fst db -> 1 <= snd db -> (db = d \/ is_scalar e) ->
  plus_accepts (EM m) g = true ->
  rgood d F (fun i j r => phi i j r + bphi e psi i j r) (mat_plus m g).
Proof.
  intros H1 H2 Hm Hg He B1 B2 H HT. destruct (is_variable_matrix (EM m)) eqn:HV.
  - destruct m as [l|l|l|l]; try discriminate. cbn [mat_plus]. apply (var_mat_plus_rgood d db); assumption.
  - apply good_rgood. apply (mat_plus_good d db); assumption.
Qed.

(** a polynomial and an array *)
Lemma poly_plus_vec_good n phi psi p v : 1 <= n -> sden F phi (SP p) -> den (n, 1) F psi (EV v) ->
  good (n, 1) F (fun i j r => phi r + psi i j r) (poly_plus_any p (GExpr (EV v))).
Proof.
  intros Hn Hp Hv. pose proof (proj1 (arr_EV _ _ _) Hv) as Hv'. unfold poly_plus_any. rewrite (valid_poly_check p (sden_valid _ _ _ Hp)). cbn [check bind as_expr expr_check].
  rewrite (vec_check_col n _ v Hn (den_valid0 F psi) Hv'). cbn [check bind]. rewrite (vec_len_col n _ v Hn (den_valid0 F psi) Hv'). cbn [bind].
  destruct (Nat.eqb_spec n 1) as [->|_].
  - apply good_simplify; [exact Hn | cbn; lia | exact HZ|]. destruct (vec_get_col 1 _ v 0 Hn (den_valid0 F psi) Hv') as (b & -> & _ & Hb); [lia|]. cbn [bind].
    destruct (sden_plus F _ _ (SP p) b HZ Hp Hb) as (s & E & Hs). cbn [scalar_plus] in E. rewrite E. exists (ES s). split; [reflexivity|]. apply arr_ES. exact Hs.
  - destruct (mapM_seq (fun i => s <- vec_get v i ;; poly_plus p s) n (fun i => sden F (fun r => phi r + psi i 0 r))) as (l & -> & L & Hl).
    + intros i Hi. destruct (vec_get_col n _ v i Hn (den_valid0 F psi) Hv' Hi) as (b & -> & _ & Hb). cbn [bind]. exact (sden_plus F _ _ (SP p) b HZ Hp Hb).
    + cbn [bind]. apply good_simplify; [exact Hn | cbn; lia | exact HZ|].
      apply (concretize_slice_arr n (fun i j => sden F (fun r => phi r + psi i j r))); [exact Hn | apply sden_by_terms | | split; assumption].
      intros i j a. apply sden_valid.
Qed.

Lemma poly_plus_mat_good d phi psi p m : 1 <= fst d -> 1 <= snd d -> sden F phi (SP p) -> den d F psi (EM m) ->
  good d F (fun i j r => phi r + psi i j r) (poly_plus_any p (GExpr (EM m))).
Proof.
  intros H1 H2 Hp Hm. pose proof (proj1 (arr_EM _ _ _) Hm) as Hm'. unfold poly_plus_any. rewrite (valid_poly_check p (sden_valid _ _ _ Hp)). cbn [check bind as_expr expr_check].
  rewrite (mat_check_grid d _ m H1 (den_valid F psi) Hm'). cbn [check bind]. rewrite (mat_dims_grid d _ m H1 (den_valid F psi) Hm'). cbn [bind].
  destruct (Nat.eqb_spec (fst d) 1) as [E1|E1]; destruct (Nat.eqb_spec (snd d) 1) as [E2|E2]; cbn [andb].
  { destruct d as [d1 d2]. cbn in E1, E2. subst d1 d2.
    apply good_simplify; [cbn; lia | cbn; lia | exact HZ|]. destruct (mat_get_grid (1, 1) _ m 0 0 H1 H2 (den_valid F psi) Hm') as (b & -> & Hb); [cbn; lia | cbn; lia|]. cbn [bind].
    destruct (sden_plus F _ _ (SP p) b HZ Hp Hb) as (s & E & Hs). cbn [scalar_plus] in E. rewrite E. exists (ES s). split; [reflexivity|]. apply arr_ES. exact Hs. }
  all: destruct (mapM_seq (fun i => mapM (fun j => s <- mat_get m i j ;; poly_plus p s) (seq 0 (snd d))) (fst d)
              (fun i => col (snd d) (fun j => sden F (fun r => phi r + psi i j r)))) as (rows & -> & L & Hrows);
    [intros i Hi; destruct (mapM_seq (fun j => s <- mat_get m i j ;; poly_plus p s) (snd d) (fun j => sden F (fun r => phi r + psi i j r))) as (l & -> & L & Hl);
      [intros j Hj; destruct (mat_get_grid d _ m i j H1 H2 (den_valid F psi) Hm' Hi Hj) as (b & -> & Hb); cbn [bind]; exact (sden_plus F _ _ (SP p) b HZ Hp Hb)
      | exists l; split; [reflexivity | split; assumption]]
    | cbn [bind]; apply good_simplify; try assumption; apply (concretize_rows_good d (fun i j r => phi r + psi i j r)); [assumption | assumption | split; assumption]].
Qed.

Definition array_of (e : expr) : bool := match e with ES _ => false | _ => true end.

(** the scalar receivers *)
Lemma plus_scalar_good phi db psi a g b : sden F phi a -> means g = Some b -> den db F psi b -> 1 <= fst db -> 1 <= snd db ->
  plus_accepts (ES a) g = true -> variable_matrix_and_numbers (ES a) b = false ->
  good db F (fun i j r => phi r + bphi b psi i j r) (expr_plus (ES a) g).
Proof.
  intros Ha Hg Hb B1 B2 HT HV. pose proof (expr_check_arr _ _ _ B1 B2 (den_valid F psi) Hb) as Cb.
  assert (DA : den (1, 1) F (fun _ _ => phi) (ES a)) by (apply den_ES_intro; exact Ha).
  assert (SS : forall x, (exists s, b = ES s /\ scalar_plus a s = x) -> good db F (fun i j r => phi r + bphi b psi i j r) (as_ES x)).
  { intros x (s & -> & <-). rewrite (arr_ES_dims _ _ _ B1 Hb). apply (good_ES F (fun r => phi r + psi 0 0 r)).
    apply sden_plus; [exact HZ | exact Ha | eapply den_ES; [exact B1 | exact Hb]]. }
  assert (SF : forall f, b = ES (SK f) -> good db F (fun i j r => phi r + bphi b psi i j r) (as_ES (scalar_plus_float a f))).
  { intros f ->. rewrite (arr_ES_dims _ _ _ B1 Hb). apply (good_ES F (fun r => phi r + psi 0 0 r)).
    apply scalar_plus_float_good; [exact Ha | eapply den_ES; [exact B1 | exact Hb]]. }
  assert (VE : forall v g', b = EV v -> means g' = Some (ES a) -> vec_plus_type v g' = true ->
             good db F (fun i j r => phi r + bphi b psi i j r) (vec_plus v g')).
  { intros v g' -> Hg' HT'. pose proof (arr_EV_cols _ _ _ B1 Hb) as E2. destruct db as [n c]. cbn in E2. subst c. cbn [fst snd] in *.
    apply (good_comm (n, 1) (fun i j => psi i j) (fun i j => phi)).
    apply (vec_plus_good n (1, 1) psi (fun _ _ => phi) v g' (ES a)); try assumption; try (cbn; lia); right; exact I. }
  assert (ME : forall m, b = EM m -> plus_accepts (EM m) (GExpr (ES a)) = true -> is_variable_matrix (EM m) = false ->
             good db F (fun i j r => phi r + bphi b psi i j r) (mat_plus m (GExpr (ES a)))).
  { intros m -> HT' HV'. apply (good_comm db (fun i j => psi i j) (fun i j => phi)).
    apply (mat_plus_good db (1, 1) psi (fun _ _ => phi) m (GExpr (ES a)) (ES a)); try assumption; try reflexivity; try (cbn; lia); right; exact I. }
  destruct a as [c|x|mo|p].
  - (* K *) cbn [expr_plus]. unfold k_plus_any.
    destruct g as [f|z|l|l|l|l|e|]; cbn in Hg; try discriminate Hg; injection Hg as <-; cbn [as_expr expr_check]; rewrite ?Cb; cbn [check bind scalar_check vec_check mat_check].
    + apply SS. exists (SK f). auto.
    + apply SS. exists (SK (nofZ z)). auto.
    + apply VE; reflexivity.
    + apply VE; reflexivity.
    + apply ME; reflexivity.
    + apply ME; reflexivity.
    + destruct e as [s|v|m]; [apply SS; exists s; auto | apply VE; reflexivity |].
      apply ME; [reflexivity | destruct m; reflexivity |]. destruct m; try reflexivity. discriminate HV.
  - (* Variable *) cbn [expr_plus]. unfold var_plus_any. pose proof (sden_valid _ _ _ Ha) as Vx. apply var_check_valid in Vx. rewrite Vx. cbn [check bind].
    destruct g as [f|z|l|l|l|l|[s|v|m]|]; try discriminate HT; cbn in Hg; injection Hg as <-.
    + apply SF. reflexivity.
    + apply SF. reflexivity.
    + repeat (apply good_simplify; [assumption|assumption|assumption|]). apply VE; reflexivity.
    + repeat (apply good_simplify; [assumption|assumption|assumption|]). apply VE; reflexivity.
    + apply SS. exists s. auto.
    + apply good_simplify; [assumption|assumption|assumption|]. apply VE; reflexivity.
  - (* Monomial *) cbn [expr_plus]. unfold mono_plus_any. rewrite (valid_mono_check mo (sden_valid _ _ _ Ha)). cbn [check bind].
    destruct g as [f|z|l|l|l|l|[s|v|m]|]; try discriminate HT; cbn in Hg; injection Hg as <-.
    + cbn. apply SF. reflexivity.
    + unfold operand_check. cbn [as_expr]. rewrite Cb. cbn. apply SS. exists s. auto.
  - (* Polynomial *) cbn [expr_plus].
    destruct g as [f|z|l|l|l|l|[s|v|m]|]; try discriminate HT; cbn in Hg; injection Hg as <-.
    + unfold poly_plus_any. rewrite (valid_poly_check p (sden_valid _ _ _ Ha)). cbn. apply SF. reflexivity.
    + unfold poly_plus_any. rewrite (valid_poly_check p (sden_valid _ _ _ Ha)). cbn [as_expr check bind]. rewrite Cb. cbn [check bind]. apply SS. exists s. auto.
    + pose proof (arr_EV_cols _ _ _ B1 Hb) as E2. destruct db as [n c]. cbn in E2. subst c. apply poly_plus_vec_good; assumption.
    + apply poly_plus_mat_good; assumption.
Qed.

Lemma expr_plus_good da db d phi psi a g b : 1 <= fst da -> 1 <= snd da -> 1 <= fst db -> 1 <= snd db ->
  den da F phi a -> means g = Some b -> den db F psi b -> broadcast a b da db d ->
  plus_accepts a g = true -> variable_matrix_and_numbers a b = false ->
  good d F (fun i j r => bphi a phi i j r + bphi b psi i j r) (expr_plus a g).
Proof.
  intros A1 A2 B1 B2 Ha Hg Hb HB HT HV. destruct a as [a|v|m].
  - assert (d = db). { destruct HB as [[H1 H2]|[[_ H]|[H1 H2]]]; [congruence | exact H|]. destruct b; try destruct H1.
      rewrite (arr_ES_dims _ _ _ A1 Ha) in H2. rewrite (arr_ES_dims _ _ _ B1 Hb). exact H2. }
    subst d. cbn [bphi]. apply plus_scalar_good; try assumption. exact (den_ES phi a da A1 Ha).
  - assert (d = da /\ (db = da \/ is_scalar b)) as [-> Hd]. { destruct HB as [[H1 H2]|[[[] _]|[H1 H2]]]; auto. }
    pose proof (arr_EV_cols _ _ _ A1 Ha) as E2. destruct da as [n c]. cbn in E2. subst c. cbn [bphi expr_plus].
    apply (vec_plus_good n db); try assumption; destruct v; destruct g as [f|z|l0|l0|l0|l0|[[k|x|mo|p]|v0|[lk|lv|lm|lp]]|]; (exact HT || reflexivity).
  - assert (d = da /\ (db = da \/ is_scalar b)) as [-> Hd]. { destruct HB as [[H1 H2]|[[[] _]|[H1 H2]]]; auto. }
    cbn [bphi expr_plus]. destruct (is_variable_matrix (EM m)) eqn:EV.
    + exfalso. destruct m as [l|l|l|l]; try discriminate EV. cbn [variable_matrix_and_numbers is_variable_matrix andb] in HV.
      destruct g as [f|z|l0|l0|l0|l0|[[k|x|mo|p]|v|[lk|lv|lm|lp]]|]; try discriminate HT; cbn in Hg; injection Hg as <-; discriminate HV.
    + apply (mat_plus_good da db); assumption.
Qed.

Lemma expr_plus_unsupported a g : plus_accepts a g = false -> forall e, expr_plus a g <> Ok e.
Proof.
  assert (B : forall {A B} (x : res A) (f : A -> res B) e, (forall y, x = Ok y -> f y <> Ok e) -> bind x f <> Ok e).
  { intros A B [y|p] f e H; cbn; [apply H; reflexivity | discriminate]. }
  intros HT e. destruct a as [[c|x|mo|p]|[l|l|l|l]|[l|l|l|l]];
    destruct g as [f|z|l0|l0|l0|l0|[[k|x0|mo0|p0]|[lk0|lv0|lm0|lp0]|[lk|lv|lm|lp]]|]; try discriminate HT;
    cbn [expr_plus]; unfold k_plus_any, var_plus_any, mono_plus_any, poly_plus_any, vec_plus, mat_plus, k_mat_plus, var_mat_plus, mono_mat_plus, poly_mat_plus;
    repeat first [ discriminate | (cbn [simplify_result bind vec_plus_template]; discriminate) | (apply B; intros ? _) ].
Qed.

Lemma expr_plus_rgood da db d phi psi a g b : 1 <= fst da -> 1 <= snd da -> 1 <= fst db -> 1 <= snd db ->
  den da F phi a -> means g = Some b -> den db F psi b -> broadcast a b da db d ->
  rgood d F (fun i j r => bphi a phi i j r + bphi b psi i j r) (expr_plus a g).
Proof.
  intros A1 A2 B1 B2 Ha Hg Hb HB. destruct (plus_accepts a g) eqn:HT.
  2:{ intros e E. destruct (expr_plus_unsupported a g HT e E). }
  destruct (variable_matrix_and_numbers a b) eqn:HV.
  2:{ apply good_rgood. apply (expr_plus_good da db); assumption. }
  destruct a as [a|v|[l|l|l|l]]; try discriminate HV.
  - destruct a as [c|x|mo|p]; try discriminate HV. destruct b as [s|v|[l|l|l|l]]; try discriminate HV.
    destruct g as [f|z|l0|l0|l0|l0|e|]; try discriminate Hg. cbn in Hg. injection Hg as ->.
    assert (d = db). { destruct HB as [[H1 H2]|[[_ H]|[[] H2]]]; congruence. } subst d.
    cbn [expr_plus]. unfold k_plus_any. cbn [as_expr]. rewrite (expr_check_arr _ _ _ B1 B2 (den_valid F psi) Hb). cbn [check bind bphi].
    apply (rgood_comm db (fun i j => psi i j) (fun i j => phi 0 0)).
    apply (mat_plus_rgood db (1, 1) psi (fun _ _ => phi 0 0) (MV l) (GExpr (ES (SK c))) (ES (SK c))); try assumption; try (cbn; lia); try reflexivity; try (right; exact I).
    apply den_ES_intro. exact (den_ES phi _ da A1 Ha).
  - assert (d = da /\ (db = da \/ is_scalar b)) as [-> Hd]. { destruct HB as [[H1 H2]|[[[] _]|[H1 H2]]]; auto. }
    cbn [expr_plus bphi]. apply (mat_plus_rgood da db); assumption.
Qed.

(** VariableMatrix and numbers *)
Lemma expr_plus_var_mat_total da db d phi psi a g b : ExactNum NN -> 1 <= fst da -> 1 <= snd da -> 1 <= fst db -> 1 <= snd db ->
  den da F phi a -> means g = Some b -> den db F psi b -> broadcast a b da db d ->
  plus_accepts a g = true -> variable_matrix_and_numbers a b = true -> no_zero a -> no_zero b -> exists e, expr_plus a g = Ok e.
Proof.
  intros EX A1 A2 B1 B2 Ha Hg Hb HB HT HV Na Nb. destruct a as [a|v|[l|l|l|l]]; try discriminate HV.
  - destruct a as [c|x|mo|p]; try discriminate HV. destruct b as [s|v|[l|l|l|l]]; try discriminate HV.
    destruct g as [f|z|l0|l0|l0|l0|e|]; try discriminate Hg. cbn in Hg. injection Hg as ->.
    cbn [expr_plus]. unfold k_plus_any. cbn [as_expr]. rewrite (expr_check_arr _ _ _ B1 B2 (den_valid F psi) Hb). cbn [check bind bphi mat_plus].
    apply (var_mat_plus_total db (1, 1) psi (fun _ _ => phi 0 0) l (GExpr (ES (SK c))) (ES (SK c))); try assumption; try (cbn; lia); try reflexivity; try (right; exact I).
    apply den_ES_intro. exact (den_ES phi _ da A1 Ha).
  - assert (d = da /\ (db = da \/ is_scalar b)) as [-> Hd]. { destruct HB as [[H1 H2]|[[[] _]|[H1 H2]]]; auto. }
    cbn [expr_plus mat_plus]. apply (var_mat_plus_total da db phi psi l g b); try assumption;
    destruct g as [f|z|l0|l0|l0|l0|[[k|x|mo|p]|v|[lk|lv|lm|lp]]|]; (discriminate HT || reflexivity).
Qed.

End ArrPlus.
