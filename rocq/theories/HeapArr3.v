(** * Plus of vectors and matrices in memory refines the pure model *)

From Coq Require Import ZArith NArith Bool List Lia.
From Verif Require Import Num Syntax ModelScalar ModelShape ModelArith ModelHeap ModelHeapArr HeapMem HeapRef HeapOps HeapOps2 HeapArr HeapArr2.
Import ListNotations.
Local Open Scope num_scope.

Section Plus.
Context {NN : Num} {RT : Runtime}.

Lemma as_ES0 w x y : refines 0 Rs w x y -> refines 0 Re w (as_AES x) (as_ES y).
Proof. intro H. unfold as_AES, as_ES. bnd; [exact H|]. apply refines_ret. constructor. assumption. Qed.
Lemma as_EV0 w x y : refines 0 Rv w x y -> refines 0 Re w (as_AEV x) (as_EV y).
Proof. intro H. unfold as_AEV, as_EV. bnd; [exact H|]. apply refines_ret. constructor. assumption. Qed.
Lemma as_EM0 w x y : refines 0 RM w x y -> refines 0 Re w (as_AEM x) (as_EM y).
Proof. intro H. unfold as_AEM, as_EM. bnd; [exact H|]. apply refines_ret. constructor. assumption. Qed.

Definition Ri {A B} (P : world -> A -> B -> Prop) (w : world) (x : nat * A) (y : nat * B) : Prop := fst x = fst y /\ P w (snd x) (snd y).
Lemma Ri_ext {A B} (P : world -> A -> B -> Prop) : stable P -> stable (Ri P).
Proof. intros H n w w' a b E [H1 H2]. split; [exact H1 | eapply H; eassumption]. Qed.
Lemma RL_enum {A B} (P : world -> A -> B -> Prop) w l l' : RL P w l l' -> RL (Ri P) w (enum l) (enum l').
Proof.
  intro F. unfold enum. rewrite <- (RL_len _ _ _ _ F). generalize 0%nat. unfold RL in F.
  induction F as [|a b l l' H _ IH]; intro n; cbn; constructor; [split; [reflexivity | exact H] | apply IH].
Qed.

Lemma vec_plus_template0 w v x e y : Rv w v x -> Re w e y -> refines 0 Re w (avec_plus_template v e) (vec_plus_template x y).
Proof.
  intros R Re0. destruct Re0 as [s a H|u a H|m a H]; cbn [avec_plus_template vec_plus_template].
  - bnd; [|apply concretize_slice0; eassumption]. eapply (mapH_refines Rs Rs); [stb | stb | apply Rv_entries; exact R|]. intros w' b c E Q. adv E. apply plus0; assumption.
  - bnd; [|apply concretize_slice0; eassumption]. eapply (mapH_refines (Ri Rs) Rs); [apply Ri_ext; stb | stb | apply RL_enum, Rv_entries; exact R|].
    intros w' b c E [Q1 Q2]. adv E. rewrite Q1. bnd; [apply vec_get0; eassumption|]. apply plus0; assumption.
  - apply refines_fail.
Qed.
Lemma vec_plus_expr0 w v x e y : Rv w v x -> Re w e y -> refines 0 Re w (avec_plus_expr v e) (vec_plus_expr x y).
Proof.
  intros R Re0. unfold avec_plus_expr, vec_plus_expr. apply st_check_vec; [exact R|]. apply st_operand; [constructor; exact Re0 | rewrite (Rv_rd _ _ _ R); reflexivity|].
  apply simplify_result0. apply vec_plus_template0; assumption.
Qed.
Lemma vec_plus0 w v x g y : Rv w v x -> Rg w g y -> refines 0 Re w (avec_plus v g) (vec_plus x y).
Proof.
  intros R R1. unfold avec_plus, vec_plus. apply st_check_vec; [exact R|]. apply st_operand; [exact R1 | rewrite (Rv_rd _ _ _ R); reflexivity|].
  destruct R1 as [f|z|l|l|l|l|e a H|]; try apply refines_fail.
  - pose proof R as R0. destruct R; try (apply simplify_result0; apply vec_plus_expr0; [exact R0 | constructor; apply Rs_HK]).
    apply refines_if; [apply st_pure; intro k; apply refines_ret; constructor; apply Rs_HK|]. apply st_pure. intro o.
    apply simplify_result0. apply vec_plus_expr0; [exact R0 | constructor; constructor].
  - pose proof R as R0. destruct R; try apply refines_fail; (apply simplify_result0; apply vec_plus_expr0; [exact R0 | constructor; apply Rs_HK]).
  - pose proof R as R0. destruct R; try apply refines_fail; (apply simplify_result0; apply vec_plus_expr0; [exact R0 | constructor; constructor]).
  - pose proof R as R0. destruct R; try apply refines_fail; (apply simplify_result0; apply vec_plus_expr0; [exact R0 | constructor; constructor]).
  - apply simplify_result0. apply vec_plus_template0; assumption.
Qed.

Lemma mat_plus_template0 w m x r y : RM w m x -> RM w r y -> refines 0 RM w (amat_plus_template m r) (mat_plus_template x y).
Proof.
  intros R R1. unfold amat_plus_template, mat_plus_template. apply st_check_mat; [exact R|]. apply st_check_mat; [exact R1|].
  apply st_mdims; [exact R|]. intro dl. apply st_mdims; [exact R1|]. intro dr. apply st_pure. intros [].
  bnd; [|apply concretize_matrix0; eassumption]. apply (over (RL Rs)); [stb|]. intros w1 i E1. adv E1. apply (over Rs); [stb|]. intros w2 j E2. adv E2.
  bnd; [apply mat_get0; eassumption|]. bnd; [apply mat_get0; eassumption|]. apply plus0; assumption.
Qed.
Lemma of_numbers_Re w e e' : of_numbers e = Ok e' -> Re w e' e.
Proof.
  intro H. destruct e as [[k|v|m|p]|[l|l|l|l]|[l|l|l|l]]; cbn in H; try discriminate; injection H as <-; constructor; first [apply Rs_HK | constructor].
Qed.
Definition numeric_result (r : res expr) : Prop := forall e, r = Ok e -> exists e', of_numbers e = Ok e'.
Lemma numbers_only0 w r : numeric_result r -> refines 0 Re w (numbers_only r) r.
Proof.
  intro H. apply refines_rr. destruct r as [e|p]; cbn [bind]; [|reflexivity]. destruct (H e eq_refl) as [e' He]. rewrite He. cbn [rr]. apply of_numbers_Re. exact He.
Qed.
Lemma k_plus_float_num l f : numeric_result (k_mat_plus_float l f).
Proof.
  intros e H. unfold k_mat_plus_float in H. destruct (rows_dims l); cbn [bind] in H; [|discriminate]. destruct (ones_matrix _ _); cbn [bind] in H; [|discriminate].
  destruct (k_to_dense l); cbn [bind] in H; [|discriminate]. injection H as <-. eexists. reflexivity.
Qed.
Lemma ak_mat_plus_mat0 w l r y : RM w r y -> refines 0 Re w (ak_mat_plus_mat l r) (k_mat_plus_mat l y).
Proof.
  intro R. unfold ak_mat_plus_mat, k_mat_plus_mat. apply st_operand; [constructor; constructor; exact R | reflexivity|].
  apply simplify_result0. apply as_EM0. apply mat_plus_template0; [constructor | exact R].
Qed.
Lemma k_mat_plus0 w l g y : Rg w g y -> refines 0 Re w (ak_mat_plus l g) (k_mat_plus l y).
Proof.
  intro R1. unfold ak_mat_plus, k_mat_plus. apply st_operand; [exact R1 | reflexivity|]. apply st_pure. intro d.
  destruct R1 as [f|z|v|v|v|v|e a H|]; try apply refines_fail.
  - apply simplify_result0. apply numbers_only0. apply k_plus_float_num.
  - apply simplify_result0. apply ak_mat_plus_mat0. constructor.
  - apply simplify_result0. apply simplify_result0. apply ak_mat_plus_mat0. constructor.
  - destruct H as [s a R|u a R|m a R]; [|apply refines_fail|].
    + destruct s as [k|v|m|p].
      * destruct R as [_ <-]. cbn [rd]. apply simplify_result0. apply simplify_result0. apply numbers_only0. apply k_plus_float_num.
      * destruct R as [_ <-]. cbn [rd]. apply simplify_result0. apply ak_mat_plus_mat0. constructor.
      * apply Rs_M in R. destruct R as (b & -> & R). apply refines_fail.
      * apply Rs_P in R. destruct R as (b & -> & R). apply refines_fail.
    + apply simplify_result0. apply as_EM0. apply mat_plus_template0; [constructor | exact R].
Qed.

Lemma var_mat_plus_k0 w l r : refines 0 Re w (avar_mat_plus_k l r) (var_mat_plus_k l r).
Proof.
  unfold avar_mat_plus_k, var_mat_plus_k. bnd; [|apply refines_ret; constructor; constructor; eassumption].
  eapply (mapH_refines Req (RL Rp)); [stb | stb | apply RL_refl|]. intros w1 x y E1 Hxy. unfold Req in Hxy. subst y.
  eapply (mapH_refines Req Rp); [stb | stb | apply RL_refl|]. intros w2 x' y' E2 Hxy. unfold Req in Hxy. subst y'.
  apply st_pure. intro rr0. apply st_pure. intro k. bnd; [apply var_plus_k_refines; lia|].
  destruct a as [k'|v'|m'|p'].
  - destruct R as [_ <-]. apply refines_fail.
  - destruct R as [_ <-]. apply refines_fail.
  - apply Rs_M in R. destruct R as (b' & -> & R). apply refines_fail.
  - apply Rs_P in R. destruct R as (b' & -> & R). apply refines_ret. exact R.
Qed.
Lemma var_mat_plus0 w l g y : Rg w g y -> refines 0 Re w (avar_mat_plus l g) (var_mat_plus l y).
Proof.
  intro R1. unfold avar_mat_plus, var_mat_plus. apply st_check_mat; [constructor|]. apply st_operand; [exact R1 | reflexivity|].
  destruct R1 as [f|z|v|v|v|v|e a H|]; try apply refines_fail.
  - apply st_pure. intro d. apply st_pure. intro o. apply var_mat_plus_k0.
  - destruct H as [s a R|u a R|m a R]; [|apply refines_fail|].
    + destruct s as [k|v|m|p].
      * destruct R as [_ <-]. cbn [rd]. apply st_pure. intro d. apply st_pure. intro o. apply var_mat_plus_k0.
      * destruct R as [_ <-]. apply refines_fail.
      * apply Rs_M in R. destruct R as (b & -> & R). apply refines_fail.
      * apply Rs_P in R. destruct R as (b & -> & R). apply refines_fail.
    + destruct R; try apply refines_fail. apply var_mat_plus_k0.
Qed.

(** the entries of a MonomialMatrix sum share the monomials with the operands *)
Lemma append_new0 w ms l : RL Rm w ms l -> refines 0 (fun w' s l' => Bm 0 w' s l') w (append_monos nil_slice ms) (Ok l).
Proof.
  intro F. apply Forall_Rm in F. destruct F as [F <-]. apply refines_bind_ret. eapply build_append_m; [apply (Bm_nil 0) | exact F | lia | lia|].
  intros s' m B E L. apply refines_ret. exact B.
Qed.
Lemma mono_plus_one0 w m b r c : Rm w m b -> Rm w r c -> refines 0 Rp w (amono_mat_plus_one m r) (mono_mat_plus_entry b [c]).
Proof.
  intros R R1. unfold amono_mat_plus_one, mono_mat_plus_entry.
  eapply refines_step; [apply (append_new0 w [m; r] [b; c]); constructor; [exact R | constructor; [exact R1 | constructor]]|]. intros w1 p E1 B.
  eapply publish_m; [exact B|]. intros w2 E2 _ R2. eapply refines_bind; [apply simplify_refines; [exact R2 | lia]|]. intros w3 q q' E3 _.
  apply refines_ret. eapply Rp_ext; eassumption.
Qed.
Lemma mono_plus_poly0 w m b q l : Rm w m b -> Rp w q l -> refines 0 Rp w (amono_mat_plus_poly m q) (mono_mat_plus_entry b l).
Proof.
  intros R R1. unfold amono_mat_plus_poly, mono_mat_plus_entry.
  eapply refines_step; [apply (append_new0 w [m] [b]); constructor; [exact R | constructor]|]. intros w1 p E1 B. adv E1.
  eapply refines_know; [reflexivity|]. pose proof R1 as [F1 V1].
  eapply build_append_m; [exact B | apply Forall_view_fit; exact F1 | lia | lia|]. intros s' mm B' E' _.
  change (map (rd_mono (wh w1)) (view (hm (wh w1)) q)) with (rd_poly (wh w1) q) in B'. rewrite V1 in B'. cbn [app] in B'.
  eapply publish_m; [exact B'|]. intros w2 E2 _ R2. eapply refines_bind; [apply simplify_refines; [exact R2 | lia]|]. intros w3 z z' E3 _.
  apply refines_ret. eapply Rp_ext; eassumption.
Qed.
Lemma mono_mat_all0 w l l' f add : RL (RL Rm) w l l' -> (forall w' m b, ext 0 w w' -> Rm w' m b -> refines 0 Rp w' (f m) (mono_mat_plus_entry b add)) ->
  refines 0 Re w (rows <~ mapH (mapH f) l ;; ret (AEM (AMP rows))) (mono_mat_plus_all l' add).
Proof.
  intros F H. unfold mono_mat_plus_all. bnd; [|apply refines_ret; constructor; constructor; eassumption].
  eapply (mapH_refines (RL Rm) (RL Rp)); [stb | stb | exact F|]. intros w1 a b E1 R1. eapply (mapH_refines Rm Rp); [stb | stb | exact R1|].
  intros w2 m c E2 R2. apply H; [eapply ext_trans; eassumption | exact R2].
Qed.
Lemma mono_mat_plus0 w l l' g y : RL (RL Rm) w l l' -> Rg w g y -> refines 0 Re w (amono_mat_plus l g) (mono_mat_plus l' y).
Proof.
  intros F R1. unfold amono_mat_plus, mono_mat_plus. assert (RM w (AMM l) (MM l')) as R by (constructor; exact F).
  apply st_check_mat; [exact R|]. apply st_operand; [exact R1 | rewrite (RM_rd _ _ _ R); reflexivity|].
  destruct R1 as [f|z|v|v|v|v|e a H|]; try apply refines_fail.
  - apply mono_mat_all0; [exact F|]. intros w' m b E Q. apply mono_plus_one0; [exact Q | apply hk_to_mono_ok].
  - destruct H as [s a R'|u a R'|m a R']; [|apply refines_fail|].
    + destruct s as [k|v|m|p].
      * destruct R' as [_ <-]. cbn [rd]. apply mono_mat_all0; [exact F|]. intros w' m b E Q. apply mono_plus_one0; [exact Q | apply hk_to_mono_ok].
      * destruct R' as [_ <-]. cbn [rd]. apply mono_mat_all0; [exact F|]. intros w' m b E Q. stp; [apply hvar_to_mono_refines|]. apply mono_plus_one0; assumption.
      * apply Rs_M in R'. destruct R' as (b & -> & R'). apply mono_mat_all0; [exact F|]. intros w' m' b' E Q. adv E. apply mono_plus_one0; assumption.
      * apply Rs_P in R'. destruct R' as (b & -> & R'). apply mono_mat_all0; [exact F|]. intros w' m' b' E Q. adv E. apply mono_plus_poly0; assumption.
    + destruct R' as [r|r|r r' Q|r r' Q]; try apply refines_fail.
      bnd; [|apply refines_ret; constructor; constructor; eassumption].
      eapply (mapH_refines (Ri (RL Rm)) (RL Rp)); [apply Ri_ext; stb | stb | apply RL_enum; exact F|]. intros w1 [i x] [i' x'] E1 [H1 H2]. cbn [fst snd] in *. subst i'. adv E1.
      eapply (mapH_refines (Ri Rm) Rp); [apply Ri_ext; stb | stb | apply RL_enum; exact H2|]. intros w2 [j m] [j' b] E2 [H3 H4]. cbn [fst snd] in *. subst j'. adv E2.
      eapply (st_rr (RL Rp)); [apply (rr_index (RL Rp)); exact Q|]. intros a b0 Rab. eapply (st_rr Rp); [apply (rr_index Rp); exact Rab|]. intros q q' Rq.
      apply mono_plus_poly0; assumption.
Qed.

Lemma poly_mat_all0 w l l' s a : RL (RL Rp) w l l' -> Rs w s a -> refines 0 Re w (apoly_mat_plus_all l s) (poly_mat_plus_all l' a).
Proof.
  intros F R. unfold apoly_mat_plus_all, poly_mat_plus_all. bnd; [|apply simplify_result0; apply concretize_rows0; eassumption].
  eapply (mapH_refines (RL Rp) (RL Rs)); [stb | stb | exact F|]. intros w1 x y E1 R1. adv E1. eapply (mapH_refines Rp Rs); [stb | stb | exact R1|].
  intros w2 m c E2 R2. adv E2. apply (plus0 w2 (HP m) s (SP c) a); [apply Rs_HP; assumption | assumption].
Qed.
Lemma poly_mat_plus0 w l l' g y : RL (RL Rp) w l l' -> Rg w g y -> refines 0 Re w (apoly_mat_plus l g) (poly_mat_plus l' y).
Proof.
  intros F R1. unfold apoly_mat_plus, poly_mat_plus. assert (RM w (AMP l) (MP l')) as R by (constructor; exact F).
  apply st_check_mat; [exact R|]. apply st_operand; [exact R1 | rewrite (RM_rd _ _ _ R); reflexivity|].
  destruct R1 as [f|z|v|v|v|v|e a H|]; try apply refines_fail.
  - apply simplify_result0. apply poly_mat_all0; [exact F | apply Rs_HK].
  - destruct H as [s a R'|u a R'|m a R']; [|apply refines_fail|].
    + destruct s as [k|v|m|p].
      * destruct R' as [_ <-]. apply poly_mat_all0; [exact F | apply Rs_HK].
      * destruct R' as [_ <-]. apply refines_fail.
      * apply Rs_M in R'. destruct R' as (b & -> & R'). stp; [apply mono_to_poly0; exact R'|]. apply simplify_result0. apply poly_mat_all0; [exact F | apply Rs_HP; assumption].
      * apply Rs_P in R'. destruct R' as (b & -> & R'). apply poly_mat_all0; [exact F | apply Rs_HP; assumption].
    + destruct R' as [r|r|r r' Q|r r' Q]; try apply refines_fail.
      * bnd; [|apply simplify_result0; apply concretize_rows0; eassumption].
        eapply (mapH_refines (Ri (RL Rp)) (RL Rs)); [apply Ri_ext; stb | stb | apply RL_enum; exact F|]. intros w1 [i x] [i' x'] E1 [H1 H2]. cbn [fst snd] in *. subst i'. adv E1.
        eapply (mapH_refines (Ri Rp) Rs); [apply Ri_ext; stb | stb | apply RL_enum; exact H2|]. intros w2 [j m] [j' b] E2 [H3 H4]. cbn [fst snd] in *. subst j'. adv E2.
        bnd; [apply mat_get0; constructor|]. apply (plus0 w0 (HP m) a (SP b) b0); [apply Rs_HP; assumption | assumption].
      * bnd; [|apply simplify_result0; apply concretize_rows0; eassumption].
        eapply (mapH_refines (Ri (RL Rp)) (RL Rs)); [apply Ri_ext; stb | stb | apply RL_enum; exact F|]. intros w1 [i x] [i' x'] E1 [H1 H2]. cbn [fst snd] in *. subst i'. adv E1.
        eapply (mapH_refines (Ri Rp) Rs); [apply Ri_ext; stb | stb | apply RL_enum; exact H2|]. intros w2 [j m] [j' b] E2 [H3 H4]. cbn [fst snd] in *. subst j'. adv E2.
        eapply (st_rr (RL Rp)); [apply (rr_index (RL Rp)); exact Q|]. intros a b0 Rab. eapply (st_rr Rp); [apply (rr_index Rp); exact Rab|]. intros q q' Rq.
        apply (plus0 w2 (HP m) (HP q) (SP b) (SP q')); apply Rs_HP; assumption.
Qed.
Lemma mat_plus0 w m x g y : RM w m x -> Rg w g y -> refines 0 Re w (amat_plus m g) (mat_plus x y).
Proof. intros R R1. destruct R; cbn [amat_plus mat_plus]; [apply k_mat_plus0 | apply var_mat_plus0 | apply mono_mat_plus0 | apply poly_mat_plus0]; assumption. Qed.

(** ** Plus on scalars, with any operand *)
Lemma Re_sk w c : Re w (AES (HK c)) (ES (SK c)).
Proof. constructor. apply Rs_HK. Qed.
Lemma Re_sv w c : Re w (AES (HV c)) (ES (SV c)).
Proof. constructor. apply Rs_HV. Qed.
Lemma k_plus_any0 w c g y : Rg w g y -> refines 0 Re w (ak_plus_any c g) (k_plus_any c y).
Proof.
  intro R1. unfold ak_plus_any, k_plus_any. apply st_check_val; [exact R1|]. destruct R1 as [f|z|v|v|v|v|e a H|]; try apply refines_fail.
  - apply as_ES0. apply k_plus0. apply Rs_HK.
  - apply as_ES0. apply k_plus0. apply Rs_HK.
  - apply vec_plus0; [constructor | constructor; apply Re_sk].
  - apply vec_plus0; [constructor | constructor; apply Re_sk].
  - apply mat_plus0; [constructor | constructor; apply Re_sk].
  - apply mat_plus0; [constructor | constructor; apply Re_sk].
  - destruct H as [s a R'|u a R'|m a R'].
    + apply as_ES0. apply k_plus0. exact R'.
    + apply vec_plus0; [exact R' | constructor; apply Re_sk].
    + apply mat_plus0; [exact R' | constructor; apply Re_sk].
Qed.
Lemma var_plus_any0 w v g y : Rg w g y -> refines 0 Re w (avar_plus_any v g) (var_plus_any v y).
Proof.
  intro R1. unfold avar_plus_any, var_plus_any. apply refines_check_var. destruct R1 as [f|z|u|u|u|u|e a H|]; try apply refines_fail.
  - apply as_ES0. apply plus_float0. apply Rs_HV.
  - apply as_ES0. apply plus_float0. apply Rs_HV.
  - do 2 apply simplify_result0. apply vec_plus0; [constructor | constructor; apply Re_sv].
  - do 2 apply simplify_result0. apply vec_plus0; [constructor | constructor; apply Re_sv].
  - destruct H as [s a R'|u a R'|m a R'].
    + apply as_ES0. apply (plus0 w (HV v) s (SV v) a); [apply Rs_HV | exact R'].
    + apply simplify_result0. apply vec_plus0; [exact R' | constructor; apply Re_sv].
    + apply refines_fail.
Qed.
Lemma mono_plus_any0 w m b g y : Rm w m b -> Rg w g y -> refines 0 Re w (amono_plus_any m g) (mono_plus_any b y).
Proof.
  intros R R1. unfold amono_plus_any, mono_plus_any. apply refines_check_mono; [exact R|]. apply st_operand; [exact R1 | reflexivity|].
  destruct R1 as [f|z|u|u|u|u|e a H|]; try apply refines_fail.
  - apply as_ES0. apply (plus_float0 w (HM m) (SM b)). apply Rs_HM. exact R.
  - destruct H as [s a R'|u a R'|m' a R']; try apply refines_fail. apply as_ES0. apply (plus0 w (HM m) s (SM b) a); [apply Rs_HM; exact R | exact R'].
Qed.
Lemma poly_plus_s0 w p l s a : Rp w p l -> Rs w s a -> refines 0 Rs w (h_plus (HP p) s) (poly_plus l a).
Proof. intros R R'. apply (plus0 w (HP p) s (SP l) a); [apply Rs_HP; exact R | exact R']. Qed.
Lemma poly_plus_any0 w p l g y : Rp w p l -> Rg w g y -> refines 0 Re w (apoly_plus_any p g) (poly_plus_any l y).
Proof.
  intros R R1. unfold apoly_plus_any, poly_plus_any. apply refines_check_poly; [exact R|]. apply st_check_val; [exact R1|].
  destruct R1 as [f|z|u|u|u|u|e a H|]; try apply refines_fail.
  - apply as_ES0. apply (plus_float0 w (HP p) (SP l)). apply Rs_HP. exact R.
  - destruct H as [s a R'|u a R'|m' a R'].
    + apply as_ES0. apply poly_plus_s0; assumption.
    + apply st_vlen; [exact R'|]. intro n. apply refines_if.
      * apply simplify_result0. apply as_ES0. bnd; [apply vec_get0; eassumption|]. apply poly_plus_s0; assumption.
      * bnd; [|apply simplify_result0; apply concretize_slice0; eassumption]. apply (over Rs); [stb|]. intros w1 i E1. adv E1. bnd; [apply vec_get0; eassumption|]. apply poly_plus_s0; assumption.
    + apply st_mdims; [exact R'|]. intro d. apply refines_if.
      * apply simplify_result0. apply as_ES0. bnd; [apply mat_get0; eassumption|]. apply poly_plus_s0; assumption.
      * bnd; [|apply simplify_result0; apply concretize_rows0; eassumption]. apply (over (RL Rs)); [stb|]. intros w1 i E1. adv E1.
        apply (over Rs); [stb|]. intros w2 j E2. adv E2. bnd; [apply mat_get0; eassumption|]. apply poly_plus_s0; assumption.
Qed.
Lemma expr_plus0 w e x g y : Re w e x -> Rg w g y -> refines 0 Re w (aexpr_plus e g) (expr_plus x y).
Proof.
  intros R R1. destruct R as [s a R|u a R|m a R]; cbn [aexpr_plus expr_plus].
  - destruct s as [k|v|m|p].
    + destruct R as [_ <-]. apply k_plus_any0. exact R1.
    + destruct R as [_ <-]. apply var_plus_any0. exact R1.
    + apply Rs_M in R. destruct R as (b & -> & R). apply mono_plus_any0; assumption.
    + apply Rs_P in R. destruct R as (b & -> & R). apply poly_plus_any0; assumption.
  - apply vec_plus0; assumption.
  - apply mat_plus0; assumption.
Qed.

End Plus.
