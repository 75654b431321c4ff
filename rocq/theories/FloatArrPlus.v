(** * Sums of vectors and matrices with short coefficients, in binary64 and in rational numbers side by side *)

From Coq Require Import ZArith NArith Bool List Lia.
From Coq Require Import QArith Qcanon.
From Coq.Floats Require Import SpecFloat.
From Verif Require Import Num Syntax ModelScalar Spec SpecProg SpecExact FloatExact FloatSim FloatRun FloatOps ModelShape ModelArith SpecArr SpecAProg SpecExactArr FloatArr.
Import ListNotations.
Local Open Scope Z_scope.

Lemma combine_map_r {A B C} (f : A -> B) (l : list C) l' : combine l (map f l') = map (fun xy => (fst xy, f (snd xy))) (combine l l').
Proof. revert l'. induction l as [|a l IH]; intros [|c l']; cbn [map combine fst snd]; try reflexivity. rewrite IH. reflexivity. Qed.
Lemma enum_map {A B} (f : A -> B) l : enum (map f l) = map (fun ia => (fst ia, f (snd ia))) (enum l).
Proof. unfold enum. rewrite map_length, combine_map_r. reflexivity. Qed.
Lemma enum_in {A} (l : list A) ia : In ia (enum l) -> In (snd ia) l.
Proof. destruct ia as [i a]. intro H. exact (in_combine_r _ _ _ _ H). Qed.

Lemma map_repeat {A B} (f : A -> B) a n : map f (repeat a n) = repeat (f a) n.
Proof. induction n as [|n IH]; cbn [repeat map]; [reflexivity | rewrite IH; reflexivity]. Qed.
Lemma Forall_in {A} (P : A -> Prop) l a : Forall P l -> In a l -> P a.
Proof. intros H K. rewrite Forall_forall in H. exact (H a K). Qed.
Lemma Forall2_in {A} (P : A -> Prop) (l : list (list A)) r a : Forall (Forall P) l -> In r l -> In a r -> P a.
Proof. intros H K L. exact (Forall_in P r a (Forall_in _ l r H K) L). Qed.

Lemma sim_as_ES k n x y : sim rs (sc k n) x y -> sim rx (ax k n) (@as_ES F x) (@as_ES G y).
Proof. intro H. unfold as_ES. eapply sim_bind; [exact H|]. intros s Hs. apply sim_ok; [exact Hs | reflexivity]. Qed.
Lemma sim_as_EV k n x y : sim ra (av k n) x y -> sim rx (ax k n) (@as_EV F x) (@as_EV G y).
Proof. intro H. unfold as_EV. eapply sim_bind; [exact H|]. intros s Hs. apply sim_ok; [exact Hs | reflexivity]. Qed.
Lemma sim_as_EM k n x y : sim ro (am k n) x y -> sim rx (ax k n) (@as_EM F x) (@as_EM G y).
Proof. intro H. unfold as_EM. eapply sim_bind; [exact H|]. intros s Hs. apply sim_ok; [exact Hs | reflexivity]. Qed.

Lemma ones_sim j : @ones_vector G j = match @ones_vector F j with Ok o => Ok (map exactly o) | Panic p => Panic p end.
Proof. destruct j; [reflexivity|]. unfold ones_vector. rewrite map_repeat, rd_one. reflexivity. Qed.
Lemma times_one k n f : 0 <= k <= 1000 -> n <= top -> cs k n f -> cs k n (@nmul F f (@n1 F)) /\ @nmul G (exactly f) (@n1 G) = exactly (@nmul F f (@n1 F)).
Proof.
  intros Hk Ht (z & Hz & L). assert (E : z * 1 = z) by lia. split.
  - exists (z * 1). rewrite E. split; [|exact L]. rewrite <- E. replace k with (k + 0) by lia. apply mul_exact; [lia | lia | lia | exact Hz | apply (grid_one 0); lia | rewrite <- top_eq; lia].
  - rewrite <- rd_one. symmetry. apply (rd_mul k 0 z 1); [lia | lia | lia | exact Hz | apply (grid_one 0); lia | rewrite <- top_eq; lia].
Qed.
Lemma plus_two k na nb f g : 0 <= k <= 1000 -> na + nb <= top -> cs k na f -> cs k nb g -> cs k (na + nb) (@nadd F f g) /\ @nadd G (exactly f) (exactly g) = exactly (@nadd F f g).
Proof.
  intros Hk Ht (z & Hz & L) (z' & Hz' & L'). split.
  - exists (z + z'). split; [|lia]. apply add_exact; [exact Hk | exact Hz | exact Hz' | rewrite <- top_eq; lia].
  - symmetry. apply (rd_add k z z'); [exact Hk | exact Hz | exact Hz' | rewrite <- top_eq; lia].
Qed.

Section Plus.
Context (k na nb : Z) (Hk : 0 <= k <= 1000) (Na : 0 <= na) (Nb : 0 <= nb) (Ht : na + nb <= top).

Ltac sr := apply simplify_result_sim; [exact Hk | exact Ht |].
Ltac oc := apply sim_eq; [eapply operand_check_sim; [eassumption|]|intros _ _].

Lemma sums_sim a b : sc k na a -> sc k nb b -> sim rs (sc k (na + nb)) (@scalar_plus F a b) (@scalar_plus G (rs a) (rs b)).
Proof. intros H1 H2. apply plus_sim; assumption. Qed.

Lemma vec_plus_template_sim v e : av k na v -> ax k nb e -> sim rx (ax k (na + nb)) (@vec_plus_template F v e) (@vec_plus_template G (ra v) (rx e)).
Proof.
  intros Hv He. unfold vec_plus_template. rewrite entries_exact. destruct e as [s|w|m]; cbn [exact_expr ax] in *.
  - eapply sim_bind; [apply (sim_mapM rs rs (sc k (na + nb))); intros a Ha; apply sums_sim; [exact (Forall_in _ _ _ Hv Ha) | exact He]|]. intros l Hl. apply concretize_slice_sim; [lia | exact Hl].
  - rewrite enum_map. eapply sim_bind.
    + apply (sim_mapM (fun ia => (fst ia, rs (snd ia))) rs (sc k (na + nb))). intros [i a] Hia. cbn [fst snd].
      eapply sim_bind; [apply (vec_get_sim k nb w i He)|]. intros b Hb. apply sums_sim; [exact (Forall_in _ _ _ Hv (enum_in _ _ Hia)) | exact Hb].
    + intros l Hl. apply concretize_slice_sim; [lia | exact Hl].
  - reflexivity.
Qed.

Lemma vec_plus_expr_sim v e : av k na v -> ax k nb e -> sim rx (ax k (na + nb)) (@vec_plus_expr F v e) (@vec_plus_expr G (ra v) (rx e)).
Proof.
  intros Hv He. unfold vec_plus_expr. apply sim_check; [apply (vec_check_sim k na v Hv)|]. intros _.
  apply sim_eq; [apply (expr_operand_check_sim k nb); [exact He | apply (vec_dims_sim k na v Hv)]|]. intros _ _. sr. apply vec_plus_template_sim; assumption.
Qed.

Lemma int_sc z : Z.abs z * 2 ^ k <= nb -> sc k nb (SK (@nofZ F z)) /\ @nofZ G z = exactly (@nofZ F z).
Proof.
  intro L. assert (P : 0 < 2 ^ k) by (apply Z.pow_pos_nonneg; lia). assert (B : Z.abs z <= 2 ^ 53) by (rewrite <- top_eq; nia). split.
  - exists (z * 2 ^ k). split; [|rewrite Z.abs_mul, abs_2k by lia; exact L]. replace k with (0 + k) at 1 by lia. apply grid_regrid; [lia|]. apply ofZ_exact. exact B.
  - symmetry. apply rd_ofZ. exact B.
Qed.

Lemma vec_plus_sim v g : av k na v -> ag k nb g -> sim rx (ax k (na + nb)) (@vec_plus F v g) (@vec_plus G (ra v) (rg g)).
Proof.
  intros Hv Hg. unfold vec_plus. apply sim_check; [apply (vec_check_sim k na v Hv)|]. intros _. apply sim_eq; [apply (operand_check_sim k nb); [exact Hg | apply (vec_dims_sim k na v Hv)]|]. intros _ _.
  destruct g as [f|z|l|l|l|l|e|]; cbn [exact_operand ag] in *; try reflexivity.
  - assert (S : sim rx (ax k (na + nb)) (simplify_result (@vec_plus_expr F v (ES (SK f)))) (simplify_result (@vec_plus_expr G (ra v) (rx (ES (SK f)))))).
    { sr. apply vec_plus_expr_sim; assumption. }
    destruct v as [l|l|l|l]; cbn [exact_vector] in *; try exact S. clear S. replace (@length (@num G) (map exactly l)) with (@length (@num F) l) by (symmetry; apply map_length). destruct (Nat.eqb (@length (@num F) l) 1).
    + eapply sim_bind; [apply (sim_index_F exactly (cs k na)); apply (proj1 (Forall_map SK (sc k na) l)); exact Hv|]. intros c Hc. cbn beta.
      destruct (plus_two k na nb c f Hk Ht Hc Hg) as [P E]. apply sim_ok; [exact P | cbn [exact_expr exact_scalar]; rewrite <- E; reflexivity].
    + rewrite ones_sim. destruct (@ones_vector F (length l)) as [o|p] eqn:Eo; cbn [bind]; [|reflexivity]. sr.
      assert (Eo' : o = repeat (@n1 F) (length l)). { unfold ones_vector in Eo. destruct (length l); [discriminate|]. injection Eo as <-. reflexivity. }
      assert (M : map (fun x => @nmul G (exactly f) x) (map exactly o) = map exactly (map (fun x => @nmul F f x) o)).
      { rewrite Eo', !map_repeat. f_equal. rewrite rd_one. apply (times_one k nb f Hk); [lia | exact Hg]. }
      rewrite M. apply (vec_plus_expr_sim (VK l) (EV (VK (map (fun x => @nmul F f x) o))) Hv). cbn [ax]. unfold av. cbn [vec_entries]. rewrite Forall_map. rewrite Eo', map_repeat.
      apply Forall_forall. intros x Hx. apply repeat_spec in Hx. subst x. apply (times_one k nb f Hk); [lia | exact Hg].
  - destruct (int_sc z Hg) as [P E]. destruct v as [l|l|l|l]; cbn [exact_vector] in *; try reflexivity; sr; rewrite E; [apply (vec_plus_expr_sim (VV l) (ES (SK (@nofZ F z)))) | apply (vec_plus_expr_sim (VM l) (ES (SK (@nofZ F z))))]; assumption.
  - destruct v as [l'|l'|l'|l']; cbn [exact_vector] in *; try reflexivity; sr; [apply (vec_plus_expr_sim (VK l') (EV (VK l))) | apply (vec_plus_expr_sim (VV l') (EV (VK l)))]; assumption.
  - destruct v as [l'|l'|l'|l']; cbn [exact_vector] in *; try reflexivity; sr; [apply (vec_plus_expr_sim (VK l') (EV (VK l))) | apply (vec_plus_expr_sim (VV l') (EV (VK l)))]; assumption.
  - sr. apply vec_plus_template_sim; assumption.
Qed.

Lemma mat_plus_template_sim m r : am k na m -> am k nb r -> sim ro (am k (na + nb)) (@mat_plus_template F m r) (@mat_plus_template G (ro m) (ro r)).
Proof.
  intros Hm Hr. unfold mat_plus_template. apply sim_check; [apply (mat_check_sim k na m Hm)|]. intros _. apply sim_check; [apply (mat_check_sim k nb r Hr)|]. intros _.
  apply sim_eq; [apply (mat_dims_sim k na m Hm)|]. intros dl _. apply sim_eq; [apply (mat_dims_sim k nb r Hr)|]. intros dr _. apply sim_check; [reflexivity|]. intros _.
  eapply sim_bind.
  - apply (sim_mapM_same (map rs) (Forall (sc k (na + nb)))). intros i _. apply sim_mapM_same. intros j _.
    eapply sim_bind; [apply (mat_get_sim k na m i j Hm)|]. intros a Ha. eapply sim_bind; [apply (mat_get_sim k nb r i j Hr)|]. intros b Hb. apply sums_sim; assumption.
  - intros l Hl. apply concretize_matrix_sim; [lia | exact Hl].
Qed.

Lemma k_mat_plus_float_sim l f : am k na (MK l) -> cs k nb f -> sim rx (ax k (na + nb)) (@k_mat_plus_float F l f) (@k_mat_plus_float G (map (map exactly) l) (exactly f)).
Proof.
  intros Hl Hf. unfold k_mat_plus_float. apply am_inv in Hl. apply sim_eq; [exact (@rows_dims_map (@num F) (@num G) exactly l)|]. intros d _.
  assert (O : @ones_matrix G (fst d) (snd d) = match @ones_matrix F (fst d) (snd d) with Ok o => Ok (map (map exactly) o) | Panic p => Panic p end).
  { unfold ones_matrix. destruct (_ || _); [reflexivity|]. rewrite map_repeat. change (@num F) with spec_float. rewrite (map_repeat exactly). f_equal. f_equal. f_equal. symmetry. exact rd_one. }
  rewrite O. destruct (@ones_matrix F (fst d) (snd d)) as [o|p] eqn:Eo; cbn [bind]; [|reflexivity].
  assert (Eo' : o = repeat (repeat (@n1 F) (snd d)) (fst d)). { unfold ones_matrix in Eo. destruct (_ || _); [discriminate|]. injection Eo as <-. reflexivity. }
  eapply sim_bind; [apply (k_to_dense_sim k na l Hl)|]. intros a Ha. cbn beta.
  destruct (times_one k nb f Hk ltac:(lia) Hf) as [T1 T2].
  assert (Q : forall c, cs k na c -> cs k (na + nb) (@nadd F (@nmul F f (@n1 F)) c) /\ @nadd G (@nmul G (exactly f) (@n1 G)) (exactly c) = exactly (@nadd F (@nmul F f (@n1 F)) c)).
  { intros c Hc. rewrite T2. destruct (plus_two k nb na (@nmul F f (@n1 F)) c Hk ltac:(lia) T1 Hc) as [A B]. rewrite (Z.add_comm na). split; assumption. }
  assert (R : forall or, In or (combine o a) -> (forall ox, In ox (combine (fst or) (snd or)) -> fst ox = @n1 F /\ cs k na (snd ox))).
  { intros [r1 r2] Hor [x1 x2] Hox. cbn [fst snd] in *. split.
    - pose proof (in_combine_l _ _ _ _ Hor) as I1. rewrite Eo' in I1. apply repeat_spec in I1. subst r1. exact (repeat_spec _ _ _ (in_combine_l _ _ _ _ Hox)).
    - exact (Forall2_in _ _ _ _ Ha (in_combine_r _ _ _ _ Hor) (in_combine_r _ _ _ _ Hox)). }
  apply sim_ok.
  - cbn [ax]. apply am_intro. rewrite Forall_map. apply Forall_forall. intros or Hor. rewrite Forall_map. apply Forall_forall. intros ox Hox. destruct (R or Hor ox Hox) as [E1 E2]. rewrite E1. exact (proj1 (Q _ E2)).
  - cbn [exact_expr exact_matrix]. do 2 f_equal. rewrite combine_map_l, combine_map_r, !map_map. f_equal. apply map_ext_in. intros or Hor. cbn [fst snd]. rewrite combine_map_l, combine_map_r, !map_map.
    apply map_ext_in. intros [o1 o2] Hox. destruct (R or Hor (o1, o2) Hox) as [E1 E2]. cbn [fst snd] in *. subst o1. rewrite <- rd_one in Q. exact (proj2 (Q _ E2)).
Qed.

Lemma k_mat_plus_mat_sim l r : am k na (MK l) -> am k nb r -> sim rx (ax k (na + nb)) (@k_mat_plus_mat F l r) (@k_mat_plus_mat G (map (map exactly) l) (ro r)).
Proof.
  intros Hl Hr. unfold k_mat_plus_mat. apply sim_eq; [apply (expr_operand_check_sim k nb dims_add _ _ (EM r)); [exact Hr | apply (mat_dims_sim k na (MK l) Hl)]|]. intros _ _.
  sr. apply sim_as_EM. apply (mat_plus_template_sim (MK l) r); assumption.
Qed.

Lemma repeat_var_sim x d : sc k nb (SV x) -> am k nb (MV (repeat (repeat x (snd d)) (fst d))).
Proof.
  intro H. apply (am_intro SV). apply Forall_forall. intros r Hr. apply repeat_spec in Hr. subst r. apply Forall_forall. intros y Hy. apply repeat_spec in Hy. subst y. exact H.
Qed.

Lemma k_mat_plus_sim l g : am k na (MK l) -> ag k nb g -> sim rx (ax k (na + nb)) (@k_mat_plus F l g) (@k_mat_plus G (map (map exactly) l) (rg g)).
Proof.
  intros Hl Hg. unfold k_mat_plus. apply sim_eq; [apply (operand_check_sim k nb); [exact Hg | apply (mat_dims_sim k na (MK l) Hl)]|]. intros _ _.
  apply sim_eq; [exact (@rows_dims_map (@num F) (@num G) exactly l)|]. intros d _.
  destruct g as [f|z|r|r|r|r|e|]; cbn [exact_operand ag] in *; try reflexivity.
  - sr. apply k_mat_plus_float_sim; assumption.
  - sr. apply (k_mat_plus_mat_sim l (MK r)); assumption.
  - sr. sr. apply (k_mat_plus_mat_sim l (MK r)); assumption.
  - destruct e as [[c|x|m|p]|v|m]; cbn [exact_expr exact_scalar ax] in *; try reflexivity.
    + sr. sr. apply k_mat_plus_float_sim; assumption.
    + sr. change (repeat (repeat (rv x) (snd d)) (fst d)) with (repeat (repeat (rv x) (snd d)) (fst d)). rewrite <- (map_repeat rv), <- (map_repeat (map rv)).
      apply (k_mat_plus_mat_sim l (MV (repeat (repeat x (snd d)) (fst d)))); [exact Hl | apply repeat_var_sim; exact Hg].
    + sr. apply sim_as_EM. apply (mat_plus_template_sim (MK l) m); assumption.
Qed.

Lemma var_mat_plus_k_sim l r : am k na (MV l) -> Forall (Forall (cs k nb)) r -> sim rx (ax k (na + nb)) (@var_mat_plus_k F l r) (@var_mat_plus_k G (map (map rv) l) (map (map exactly) r)).
Proof.
  intros Hl Hr. apply am_inv in Hl. unfold var_mat_plus_k. rewrite enum_map. eapply sim_bind.
  - apply (sim_mapM (fun ia => (fst ia, map rv (snd ia))) (map (map rm)) (Forall (psc k (na + nb)))). intros [i row] Hir. cbn [fst snd]. rewrite enum_map.
    apply (sim_mapM (fun ia => (fst ia, rv (snd ia))) (map rm) (psc k (na + nb))). intros [j x] Hjx. cbn [fst snd].
    eapply sim_bind; [apply (sim_index_F (map exactly) (Forall (cs k nb)) r i Hr)|]. intros rr Hrr. cbn beta. eapply sim_bind; [apply (sim_index_F exactly (cs k nb) rr j Hrr)|]. intros c Hc. cbn beta.
    pose proof (Forall2_in _ _ _ _ Hl (enum_in _ _ Hir) (enum_in _ _ Hjx)) as Hx. cbn [snd] in Hx.
    eapply sim_bind; [apply (sums_sim (SV x) (SK c) Hx Hc)|]. intros s Hs. destruct s; cbn [exact_scalar]; try reflexivity. apply sim_ok; [exact Hs | reflexivity].
  - intros rows Hrows. apply sim_ok; [apply (am_intro SP); exact Hrows | reflexivity].
Qed.

Lemma scaled_ones f d o : cs k nb f -> @ones_matrix F (fst d) (snd d) = Ok o ->
  Forall (Forall (cs k nb)) (map (map (fun x => @nmul F f x)) o) /\ exists o', @ones_matrix G (fst d) (snd d) = Ok o' /\ map (map (fun x => @nmul G (exactly f) x)) o' = map (map exactly) (map (map (fun x => @nmul F f x)) o).
Proof.
  intros Hf. unfold ones_matrix. destruct (_ || _); [discriminate|]. intros [= <-]. destruct (times_one k nb f Hk ltac:(lia) Hf) as [T1 T2]. rewrite !map_repeat. split.
  - apply Forall_forall. intros r Hr. apply repeat_spec in Hr. subst r. apply Forall_forall. intros x Hx. apply repeat_spec in Hx. subst x. exact T1.
  - eexists. split; [reflexivity|]. rewrite !map_repeat. f_equal. f_equal. exact T2.
Qed.

Lemma var_mat_plus_float_sim l f d : am k na (MV l) -> cs k nb f -> sim rx (ax k (na + nb)) (o <- @ones_matrix F (fst d) (snd d) ;; @var_mat_plus_k F l (map (map (fun x => @nmul F f x)) o))
   (o <- @ones_matrix G (fst d) (snd d) ;; @var_mat_plus_k G (map (map rv) l) (map (map (fun x => @nmul G (exactly f) x)) o)).
Proof.
  intros Hl Hf. destruct (@ones_matrix F (fst d) (snd d)) as [o|p] eqn:Eo; cbn [bind].
  - destruct (scaled_ones f d o Hf Eo) as (T1 & o' & -> & T2). cbn [bind]. rewrite T2. apply var_mat_plus_k_sim; assumption.
  - unfold ones_matrix in *. destruct (_ || _); [|discriminate]. injection Eo as <-. reflexivity.
Qed.

Lemma var_mat_plus_sim l g : am k na (MV l) -> ag k nb g -> sim rx (ax k (na + nb)) (@var_mat_plus F l g) (@var_mat_plus G (map (map rv) l) (rg g)).
Proof.
  intros Hl Hg. unfold var_mat_plus. apply sim_check; [apply (mat_check_sim k na (MV l) Hl)|]. intros _. apply sim_eq; [apply (operand_check_sim k nb); [exact Hg | apply (mat_dims_sim k na (MV l) Hl)]|]. intros _ _.
  destruct g as [f|z|r|r|r|r|e|]; cbn [exact_operand ag] in *; try reflexivity.
  - apply sim_eq; [apply (mat_dims_sim k na (MV l) Hl)|]. intros d _. apply var_mat_plus_float_sim; assumption.
  - destruct e as [[c|x|m|p]|v|m]; cbn [exact_expr exact_scalar ax] in *; try reflexivity.
    + apply sim_eq; [apply (mat_dims_sim k na (MV l) Hl)|]. intros d _. apply var_mat_plus_float_sim; assumption.
    + destruct m as [r|r|r|r]; cbn [exact_matrix]; try reflexivity. apply var_mat_plus_k_sim; [exact Hl | apply (am_inv SK) in Hg; exact Hg].
Qed.

Lemma mono_entry_sim m add : sc k na (SM m) -> sc k nb (SP add) -> sim (map rm) (psc k (na + nb)) (@mono_mat_plus_entry F m add) (@mono_mat_plus_entry G (rm m) (map rm add)).
Proof.
  intros (z & Hm & L) Hp. unfold mono_mat_plus_entry. change (rm m :: map rm add) with (map rm (m :: add)).
  assert (P : pol k (m :: add) (na + nb)) by (eapply pol_cons; [exact Hm | exact Hp | lia]).
  eapply sim_bind; [apply (simplify_sim k (m :: add) (na + nb) Hk P Ht)|]. intros _ _. apply sim_ok; [exact P | reflexivity].
Qed.
Lemma mono_mat_plus_all_sim l s : am k na (MM l) -> sc k nb s -> sim rx (ax k (na + nb)) (@mono_mat_plus_all F l (to_poly s)) (@mono_mat_plus_all G (map (map rm) l) (map rm (to_poly s))).
Proof.
  intros Hl Hs. apply am_inv in Hl. unfold mono_mat_plus_all. eapply sim_bind.
  - apply (sim_mapM2 rm (map rm) (psc k (na + nb))). intros r m Hr Hm. apply mono_entry_sim; [exact (Forall2_in _ _ _ _ Hl Hr Hm) | apply to_poly_sc; [lia | exact Hs]].
  - intros rows Hrows. apply sim_ok; [apply (am_intro SP); exact Hrows | reflexivity].
Qed.

Lemma mono_mat_plus_sim l g : am k na (MM l) -> ag k nb g -> sim rx (ax k (na + nb)) (@mono_mat_plus F l g) (@mono_mat_plus G (map (map rm) l) (rg g)).
Proof.
  intros Hl Hg. unfold mono_mat_plus. apply sim_check; [apply (mat_check_sim k na (MM l) Hl)|]. intros _. apply sim_eq; [apply (operand_check_sim k nb); [exact Hg | apply (mat_dims_sim k na (MM l) Hl)]|]. intros _ _.
  destruct g as [f|z|r|r|r|r|e|]; cbn [exact_operand ag] in *; try reflexivity.
  - apply (mono_mat_plus_all_sim l (SK f)); assumption.
  - destruct e as [[c|x|m|p]|v|m]; cbn [exact_expr exact_scalar ax] in *; try reflexivity.
    + apply (mono_mat_plus_all_sim l (SK c)); assumption.
    + rewrite <- rm_var. apply (mono_mat_plus_all_sim l (SV x)); assumption.
    + apply (mono_mat_plus_all_sim l (SM m)); assumption.
    + apply (mono_mat_plus_all_sim l (SP p)); assumption.
    + destruct m as [r|r|r|r]; cbn [exact_matrix]; try reflexivity. apply am_inv in Hl. apply (am_inv SP) in Hg. rewrite enum_map. eapply sim_bind.
      * apply (sim_mapM (fun ia => (fst ia, map rm (snd ia))) (map (map rm)) (Forall (psc k (na + nb)))). intros [i row] Hir. cbn [fst snd]. rewrite enum_map.
        apply (sim_mapM (fun ia => (fst ia, rm (snd ia))) (map rm) (psc k (na + nb))). intros [j m] Hjm. cbn [fst snd].
        eapply sim_bind; [apply (sim_index_F (map (map rm)) (Forall (psc k nb)) r i Hg)|]. intros rr Hrr. cbn beta. eapply sim_bind; [apply (sim_index_F (map rm) (psc k nb) rr j Hrr)|]. intros p Hp. cbn beta.
        apply mono_entry_sim; [exact (Forall2_in _ _ _ _ Hl (enum_in _ _ Hir) (enum_in _ _ Hjm)) | exact Hp].
      * intros rows Hrows. apply sim_ok; [apply (am_intro SP); exact Hrows | reflexivity].
Qed.

Lemma poly_mat_plus_all_sim l s : am k na (MP l) -> sc k nb s -> sim rx (ax k (na + nb)) (@poly_mat_plus_all F l s) (@poly_mat_plus_all G (map (map (map rm)) l) (rs s)).
Proof.
  intros Hl Hs. apply am_inv in Hl. unfold poly_mat_plus_all. eapply sim_bind.
  - apply (sim_mapM2 (map rm) rs (sc k (na + nb))). intros r p Hr Hp. apply (sums_sim (SP p) s); [exact (Forall2_in _ _ _ _ Hl Hr Hp) | exact Hs].
  - intros rows Hrows. sr. apply concretize_rows_sim; [lia | exact Hrows].
Qed.

Lemma poly_mat_plus_sim l g : am k na (MP l) -> ag k nb g -> sim rx (ax k (na + nb)) (@poly_mat_plus F l g) (@poly_mat_plus G (map (map (map rm)) l) (rg g)).
Proof.
  intros Hl Hg. unfold poly_mat_plus. apply sim_check; [apply (mat_check_sim k na (MP l) Hl)|]. intros _. apply sim_eq; [apply (operand_check_sim k nb); [exact Hg | apply (mat_dims_sim k na (MP l) Hl)]|]. intros _ _.
  destruct g as [f|z|r|r|r|r|e|]; cbn [exact_operand ag] in *; try reflexivity.
  - sr. apply (poly_mat_plus_all_sim l (SK f)); assumption.
  - destruct e as [[c|x|m|p]|v|m]; cbn [exact_expr exact_scalar ax] in *; try reflexivity.
    + apply (poly_mat_plus_all_sim l (SK c)); assumption.
    + sr. apply (poly_mat_plus_all_sim l (SP (mono_to_poly m))); [exact Hl | apply (to_poly_sc k nb (SM m)); [lia | exact Hg]].
    + apply (poly_mat_plus_all_sim l (SP p)); assumption.
    + destruct m as [r|r|r|r]; cbn [exact_matrix]; try reflexivity; apply am_inv in Hl.
      * rewrite enum_map. eapply sim_bind.
        -- apply (sim_mapM (fun ia => (fst ia, map (map rm) (snd ia))) (map rs) (Forall (sc k (na + nb)))). intros [i row] Hir. cbn [fst snd]. rewrite enum_map.
           apply (sim_mapM (fun ia => (fst ia, map rm (snd ia))) rs (sc k (na + nb))). intros [j p] Hjp. cbn [fst snd].
           eapply sim_bind; [apply (mat_get_sim k nb (MK r) i j Hg)|]. intros s Hs. apply (sums_sim (SP p) s); [exact (Forall2_in _ _ _ _ Hl (enum_in _ _ Hir) (enum_in _ _ Hjp)) | exact Hs].
        -- intros rows Hrows. sr. apply concretize_rows_sim; [lia | exact Hrows].
      * apply (am_inv SP) in Hg. rewrite enum_map. eapply sim_bind.
        -- apply (sim_mapM (fun ia => (fst ia, map (map rm) (snd ia))) (map rs) (Forall (sc k (na + nb)))). intros [i row] Hir. cbn [fst snd]. rewrite enum_map.
           apply (sim_mapM (fun ia => (fst ia, map rm (snd ia))) rs (sc k (na + nb))). intros [j p] Hjp. cbn [fst snd].
           eapply sim_bind; [apply (sim_index_F (map (map rm)) (Forall (psc k nb)) r i Hg)|]. intros rr Hrr. cbn beta. eapply sim_bind; [apply (sim_index_F (map rm) (psc k nb) rr j Hrr)|]. intros q Hq. cbn beta.
           apply (sums_sim (SP p) (SP q)); [exact (Forall2_in _ _ _ _ Hl (enum_in _ _ Hir) (enum_in _ _ Hjp)) | exact Hq].
        -- intros rows Hrows. sr. apply concretize_rows_sim; [lia | exact Hrows].
Qed.

Lemma mat_plus_sim m g : am k na m -> ag k nb g -> sim rx (ax k (na + nb)) (@mat_plus F m g) (@mat_plus G (ro m) (rg g)).
Proof. destruct m; cbn [mat_plus exact_matrix]; [apply k_mat_plus_sim | apply var_mat_plus_sim | apply mono_mat_plus_sim | apply poly_mat_plus_sim]. Qed.

Lemma plus_float_sim a c : sc k na a -> cs k nb c -> sim rs (sc k (na + nb)) (@scalar_plus_float F a c) (@scalar_plus_float G (rs a) (exactly c)).
Proof.
  intros Ha Hc. pose proof (sums_sim a (SK c) Ha Hc) as S. destruct a; cbn [scalar_plus_float exact_scalar scalar_plus] in *; [exact S | | |]; (apply again; [exact Hk | exact Ht | exact S]).
Qed.

End Plus.

Section PlusAny.
Context (k na nb : Z) (Hk : 0 <= k <= 1000) (Na : 0 <= na) (Nb : 0 <= nb) (Ht : na + nb <= top).
Ltac sr := apply simplify_result_sim; [exact Hk | exact Ht |].
Ltac flip := rewrite (Z.add_comm na nb) in *.

Lemma k_plus_any_sim c g : cs k na c -> ag k nb g -> sim rx (ax k (na + nb)) (@k_plus_any F c g) (@k_plus_any G (exactly c) (rg g)).
Proof.
  intros Hc Hg. unfold k_plus_any. pose proof (as_expr_sim k nb g Hg) as A.
  apply sim_eq. { destruct (@as_expr F g) as [e|]; [destruct A as [-> He]; rewrite (expr_check_sim k nb e He); reflexivity | rewrite A; reflexivity]. }
  intros _ _. destruct g as [f|z|l|l|l|l|e|]; cbn [exact_operand ag] in *; try reflexivity.
  - apply sim_as_ES. apply (plus_sim k (SK c) na (SK f) nb); assumption.
  - destruct (int_sc k na nb Hk Na Nb Ht z Hg) as [P E]. rewrite E. apply sim_as_ES. apply (plus_sim k (SK c) na (SK (@nofZ F z)) nb); assumption.
  - flip. apply (vec_plus_sim k nb na Hk Nb Na Ht (VK l) (GExpr (ES (SK c)))); assumption.
  - flip. apply (vec_plus_sim k nb na Hk Nb Na Ht (VK l) (GExpr (ES (SK c)))); assumption.
  - flip. apply (mat_plus_sim k nb na Hk Nb Ht (MK l) (GExpr (ES (SK c)))); assumption.
  - flip. apply (mat_plus_sim k nb na Hk Nb Ht (MK l) (GExpr (ES (SK c)))); assumption.
  - destruct e as [s|v|m]; cbn [exact_expr ax] in *.
    + apply sim_as_ES. apply (plus_sim k (SK c) na s nb); assumption.
    + flip. apply (vec_plus_sim k nb na Hk Nb Na Ht v (GExpr (ES (SK c)))); assumption.
    + flip. apply (mat_plus_sim k nb na Hk Nb Ht m (GExpr (ES (SK c)))); assumption.
Qed.

Lemma var_plus_any_sim x g : sc k na (SV x) -> ag k nb g -> sim rx (ax k (na + nb)) (@var_plus_any F x g) (@var_plus_any G (rv x) (rg g)).
Proof.
  intros Hx Hg. unfold var_plus_any. apply sim_check; [apply (scalar_check_sim k na (SV x) Hx)|]. intros _. destruct g as [f|z|l|l|l|l|e|]; cbn [exact_operand ag] in *; try reflexivity.
  - apply sim_as_ES. apply (plus_float_sim k na nb Hk Ht (SV x) f); assumption.
  - destruct (int_sc k na nb Hk Na Nb Ht z Hg) as [P E]. rewrite E. apply sim_as_ES. apply (plus_float_sim k na nb Hk Ht (SV x)); assumption.
  - sr. sr. flip. apply (vec_plus_sim k nb na Hk Nb Na Ht (VK l) (GExpr (ES (SV x)))); assumption.
  - sr. sr. flip. apply (vec_plus_sim k nb na Hk Nb Na Ht (VK l) (GExpr (ES (SV x)))); assumption.
  - destruct e as [s|v|m]; cbn [exact_expr ax] in *; [| |reflexivity].
    + apply sim_as_ES. apply (plus_sim k (SV x) na s nb); assumption.
    + sr. flip. apply (vec_plus_sim k nb na Hk Nb Na Ht v (GExpr (ES (SV x)))); assumption.
Qed.

Lemma mono_plus_any_sim m g : sc k na (SM m) -> ag k nb g -> sim rx (ax k (na + nb)) (@mono_plus_any F m g) (@mono_plus_any G (rm m) (rg g)).
Proof.
  intros Hm Hg. unfold mono_plus_any. apply sim_check; [apply mono_check_sim|]. intros _. apply sim_eq; [apply (operand_check_sim k nb); [exact Hg | reflexivity]|]. intros _ _.
  destruct g as [f|z|l|l|l|l|e|]; cbn [exact_operand ag] in *; try reflexivity.
  - apply sim_as_ES. apply (plus_float_sim k na nb Hk Ht (SM m) f); assumption.
  - destruct e as [s|v|r]; cbn [exact_expr ax] in *; try reflexivity. apply sim_as_ES. apply (plus_sim k (SM m) na s nb); assumption.
Qed.

Lemma poly_plus_any_sim p g : sc k na (SP p) -> ag k nb g -> sim rx (ax k (na + nb)) (@poly_plus_any F p g) (@poly_plus_any G (map rm p) (rg g)).
Proof.
  intros Hp Hg. unfold poly_plus_any. pose proof (as_expr_sim k nb g Hg) as A. apply sim_check; [apply poly_check_sim|]. intros _.
  apply sim_eq. { destruct (@as_expr F g) as [e|]; [destruct A as [-> He]; rewrite (expr_check_sim k nb e He); reflexivity | rewrite A; reflexivity]. }
  intros _ _. assert (PS : forall s, sc k nb s -> sim rs (sc k (na + nb)) (@poly_plus F p s) (@poly_plus G (map rm p) (rs s))) by (intros s Hs; apply (plus_sim k (SP p) na s nb); assumption).
  destruct g as [f|z|l|l|l|l|e|]; cbn [exact_operand ag] in *; try reflexivity.
  - apply sim_as_ES. apply (plus_float_sim k na nb Hk Ht (SP p) f); assumption.
  - destruct e as [s|v|m]; cbn [exact_expr ax] in *.
    + apply sim_as_ES. apply PS. exact Hg.
    + apply sim_eq; [apply (vec_len_sim v k nb Hg)|]. intros n _. destruct (Nat.eqb n 1).
      * sr. apply sim_as_ES. eapply sim_bind; [apply (vec_get_sim k nb v 0 Hg)|]. intros s Hs. apply PS. exact Hs.
      * eapply sim_bind; [apply (sim_mapM_same rs (sc k (na + nb))); intros i _; eapply sim_bind; [apply (vec_get_sim k nb v i Hg)|]; intros s Hs; apply PS; exact Hs|].
        intros l Hl. sr. apply concretize_slice_sim; [lia | exact Hl].
    + apply sim_eq; [apply (mat_dims_sim k nb m Hg)|]. intros d _. destruct (_ && _).
      * sr. apply sim_as_ES. eapply sim_bind; [apply (mat_get_sim k nb m 0 0 Hg)|]. intros s Hs. apply PS. exact Hs.
      * eapply sim_bind; [apply (sim_mapM_same (map rs) (Forall (sc k (na + nb)))); intros i _; apply sim_mapM_same; intros j _; eapply sim_bind; [apply (mat_get_sim k nb m i j Hg)|]; intros s Hs; apply PS; exact Hs|].
        intros l Hl. sr. apply concretize_rows_sim; [lia | exact Hl].
Qed.

Theorem expr_plus_sim e g : ax k na e -> ag k nb g -> sim rx (ax k (na + nb)) (@expr_plus F e g) (@expr_plus G (rx e) (rg g)).
Proof.
  destruct e as [[c|x|m|p]|v|m]; cbn [expr_plus exact_expr exact_scalar ax].
  - apply k_plus_any_sim.
  - apply var_plus_any_sim.
  - apply mono_plus_any_sim.
  - apply poly_plus_any_sim.
  - apply vec_plus_sim; assumption.
  - apply mat_plus_sim; assumption.
Qed.

End PlusAny.
