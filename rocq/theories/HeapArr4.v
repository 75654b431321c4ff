(** * Multiply, Minus and Power of vectors and matrices in memory refine the pure model *)

From Coq Require Import ZArith NArith Bool List Lia.
From Verif Require Import Num Syntax ModelScalar ModelShape ModelArith ModelHeap ModelHeapArr HeapMem HeapRef HeapOps HeapOps2 HeapArr HeapArr2 HeapArr3.
Import ListNotations.
Local Open Scope num_scope.

Section Times.
Context {NN : Num} {RT : Runtime}.

Lemma vec_mul_template0 w v x s a : Rv w v x -> Rs w s a -> refines 0 Re w (avec_mul_template v s) (vec_mul_template x a).
Proof.
  intros R R1. unfold avec_mul_template, vec_mul_template. bnd; [|apply concretize_slice0; eassumption].
  eapply (mapH_refines Rs Rs); [stb | stb | apply Rv_entries; exact R|]. intros w' b c E Q. adv E. apply mul0; assumption.
Qed.
Lemma vec_mul_scalar0 w v x s a : Rv w v x -> Rs w s a -> refines 0 Re w (avec_mul_scalar v s) (vec_mul_scalar x a).
Proof.
  intros R R1. unfold avec_mul_scalar, vec_mul_scalar. apply st_check_vec; [exact R|].
  apply st_operand; [constructor; constructor; exact R1 | rewrite (Rv_rd _ _ _ R); reflexivity|].
  pose proof R as R0. pose proof R1 as R2. destruct R as [l|l|l l' H|l l' H]; try (apply simplify_result0; apply vec_mul_template0; [exact R0 | exact R1]).
  destruct R1 as [_ <-]. destruct s; try apply refines_fail; (apply simplify_result0; apply vec_mul_template0; [exact R0 | exact R2]).
Qed.
Lemma k_vec_mul_vec0 w l r : refines 0 Re w (ak_vec_mul_vec l r) (k_vec_mul_vec l r).
Proof.
  unfold ak_vec_mul_vec, k_vec_mul_vec. apply st_operand; [constructor; constructor; constructor | reflexivity|]. apply st_pure. intro k.
  apply simplify_result0. apply vec_mul_scalar0; [constructor | apply Rs_HK].
Qed.
Lemma vec_mul0 w v x g y : Rv w v x -> Rg w g y -> refines 0 Re w (avec_mul v g) (vec_mul x y).
Proof.
  intros R R1. unfold avec_mul, vec_mul. apply st_check_vec; [exact R|]. apply st_operand; [exact R1 | rewrite (Rv_rd _ _ _ R); reflexivity|].
  pose proof R as R0. destruct R1 as [f|z|u|u|u|u|e a H|].
  - destruct R as [l|l|l l' H|l l' H]; try apply simplify_result0; (apply vec_mul_scalar0; [exact R0 | apply Rs_HK]).
  - destruct R; apply refines_fail.
  - destruct R; try apply refines_fail. apply simplify_result0. apply k_vec_mul_vec0.
  - destruct R; try apply refines_fail. do 2 apply simplify_result0. apply k_vec_mul_vec0.
  - destruct R; apply refines_fail.
  - destruct R; apply refines_fail.
  - destruct H as [s a Q|u a Q|m a Q].
    + destruct R; (apply vec_mul_scalar0; [exact R0 | exact Q]).
    + destruct R as [l|l|l l' H|l l' H].
      * destruct Q; try apply refines_fail; [apply k_vec_mul_vec0|]. apply st_pure. intro k. apply simplify_result0. apply vec_mul_scalar0; [exact R0 | apply Rs_HV].
      * assert (T : refines 0 Re w (s <~ avec_get u 0 ;; a_simplify_result (avec_mul_scalar (AVV l) s)) (s <- vec_get a 0 ;; simplify_result (vec_mul_scalar (VV l) s))).
        { bnd; [apply vec_get0; exact Q|]. apply simplify_result0. apply vec_mul_scalar0; [constructor | assumption]. }
        destruct Q; exact T.
      * destruct Q; apply refines_fail.
      * destruct Q as [k|k|k k' H'|k k' H']; try apply refines_fail. eapply (st_rr Rp); [apply rr_index; exact H'|]. intros q q' Rq.
        apply simplify_result0. apply vec_mul_scalar0; [exact R0 | apply Rs_HP; exact Rq].
    + destruct R; apply refines_fail.
  - destruct R; apply refines_fail.
Qed.
Lemma var_mul_vec0 w x v a : Rv w v a -> refines 0 Re w (avar_mul_vec x v) (var_mul_vec x a).
Proof.
  intro R. unfold avar_mul_vec, var_mul_vec. apply refines_check_var. apply st_operand; [constructor; constructor; exact R | reflexivity|].
  apply simplify_result0. apply vec_mul_template0; [exact R | apply Rs_HV].
Qed.

(** ** Matrices *)
Lemma loop_over {C D} (R : world -> C -> D -> Prop) f g w (l : list nat) acc accp : R w acc accp ->
  (forall w' i c d, ext 0 w w' -> R w' c d -> refines 0 R w' (f c i) (g d i)) -> refines 0 R w (forM f l acc) (foldM g accp l).
Proof. intros J H. eapply (forM_refines Req R); [stb | apply RL_refl | exact J|]. intros w' a b c d E Q Rcd. unfold Req in Q. subst b. apply H; assumption. Qed.
Lemma mat_mul_entry0 w m x r y n i j : RM w m x -> RM w r y -> refines 0 Rs w (amat_mul_entry m r n i j) (mat_mul_entry x y n i j).
Proof.
  intros R R1. unfold amat_mul_entry, mat_mul_entry. bnd; [|apply simplified0; eassumption]. apply (loop_over Rs); [apply Rs_HK|].
  intros w' k c d E J. adv E. bnd; [apply mat_get0; eassumption|]. bnd; [apply mat_get0; eassumption|]. bnd; [apply mul0; eassumption|]. apply plus0; assumption.
Qed.
Lemma mat_mul_template0 w m x r y : RM w m x -> RM w r y -> refines 0 Re w (amat_mul_template m r) (mat_mul_template x y).
Proof.
  intros R R1. unfold amat_mul_template, mat_mul_template. apply st_check_mat; [exact R|]. apply st_check_mat; [exact R1|].
  apply st_mdims; [exact R|]. intro dl. apply st_mdims; [exact R1|]. intro dr. apply st_pure. intros [].
  bnd; [|apply concretize_rows0; eassumption]. apply (over (RL Rs)); [stb|]. intros w1 i E1. adv E1. apply (over Rs); [stb|]. intros w2 j E2. adv E2.
  apply mat_mul_entry0; assumption.
Qed.

Lemma k_mul_float_num l f : numeric_result (k_mat_mul_float l f).
Proof. intros e H. unfold k_mat_mul_float in H. destruct (k_to_dense l); cbn [bind] in H; [|discriminate]. injection H as <-. eexists. reflexivity. Qed.
Lemma k_mul_vec_num l f : numeric_result (k_mat_mul_vec l f).
Proof.
  intros e H. unfold k_mat_mul_vec in H. destruct (k_to_dense l); cbn [bind] in H; [|discriminate]. destruct (dense_mul_vec _ _) as [y|]; cbn [bind] in H; [|discriminate].
  destruct y as [|k [|k' y]]; injection H as <-; eexists; reflexivity.
Qed.
Lemma k_mul_dense_num l f : numeric_result (k_mat_mul_dense l f).
Proof.
  intros e H. unfold k_mat_mul_dense in H. destruct (k_to_dense l); cbn [bind] in H; [|discriminate]. destruct (dense_mul _ _) as [y|]; cbn [bind] in H; [|discriminate].
  assert (T : (d <- rows_dims y ;; if Nat.eqb (snd d) 1 then c <- mapM (fun r => index r 0) y ;; Ok (EV (VK c)) else Ok (EM (MK y))) = Ok e -> exists e', of_numbers e = Ok e').
  { intro K. destruct (rows_dims y); cbn [bind] in K; [|discriminate]. destruct (Nat.eqb _ _).
    - destruct (mapM _ y); cbn [bind] in K; [|discriminate]. injection K as <-. eexists. reflexivity.
    - injection K as <-. eexists. reflexivity. }
  destruct y as [|[|k [|k' r]] [|r' y]]; try (apply T; exact H). injection H as <-. eexists. reflexivity.
Qed.
Lemma k_mat_mul_poly0 w l p q : Rp w p q -> refines 0 Re w (ak_mat_mul_poly l p) (k_mat_mul_poly l q).
Proof.
  intro R. unfold ak_mat_mul_poly, k_mat_mul_poly. apply st_pure. intro d. bnd; [|apply concretize_rows0; eassumption].
  apply (over (RL Rs)); [stb|]. intros w1 i E1. adv E1. apply (over Rs); [stb|]. intros w2 j E2. adv E2.
  apply st_pure. intro r. apply st_pure. intro k. stp; [apply (make0 w2 [hk_to_mono k] [k_to_mono k]); constructor; [apply hk_to_mono_ok | constructor]|].
  apply poly_mul_poly_refines; [assumption | assumption | lia].
Qed.
Lemma k_mat_mul_vars0 w l xs : refines 0 Re w (ak_mat_mul_vars l xs) (k_mat_mul_vars l xs).
Proof.
  unfold ak_mat_mul_vars, k_mat_mul_vars. apply st_pure. intro d. apply refines_if.
  - apply as_ES0. eapply (forM_refines Req Rs); [stb | apply RL_refl | apply Rs_HK|]. intros w' a b c e E Q J. unfold Req in Q. subst b.
    apply st_pure. intro r. apply st_pure. intro k. bnd; [apply var_mul_k_refines|]. apply plus0; assumption.
  - apply st_pure. intro z. apply (loop_over Re); [constructor; constructor|]. intros w' i c e E J. apply st_pure. intro a. apply st_pure. intro col. apply st_pure. intro x.
    bnd; [do 2 apply simplify_result0; apply var_mul_vec0; constructor|]. apply expr_plus0; [assumption | constructor; assumption].
Qed.
Lemma k_mat_mul0 w l g y : Rg w g y -> refines 0 Re w (ak_mat_mul l g) (k_mat_mul l y).
Proof.
  intro R1. unfold ak_mat_mul, k_mat_mul. apply st_operand; [exact R1 | reflexivity|].
  destruct R1 as [f|z|v|v|v|v|e a H|]; try apply refines_fail.
  - apply simplify_result0. apply numbers_only0. apply k_mul_float_num.
  - apply simplify_result0. apply numbers_only0. apply k_mul_vec_num.
  - do 2 apply simplify_result0. apply numbers_only0. apply k_mul_dense_num.
  - apply simplify_result0. apply numbers_only0. apply k_mul_dense_num.
  - destruct H as [s a R|u a R|m a R].
    + destruct s as [k|v|m|p].
      * destruct R as [_ <-]. do 2 apply simplify_result0. apply numbers_only0. apply k_mul_float_num.
      * destruct R as [_ <-]. apply refines_fail.
      * apply Rs_M in R. destruct R as (b & -> & R). apply refines_fail.
      * apply Rs_P in R. destruct R as (b & -> & R). apply simplify_result0. apply k_mat_mul_poly0. exact R.
    + destruct R; try apply refines_fail. apply simplify_result0. apply k_mat_mul_vars0.
    + apply simplify_result0. apply mat_mul_template0; [constructor | exact R].
Qed.

Lemma var_mat_mul_k0 w l f : refines 0 Re w (avar_mat_mul_k l f) (var_mat_mul_k l f).
Proof.
  unfold avar_mat_mul_k, var_mat_mul_k. bnd; [|apply refines_ret; constructor; constructor; eassumption].
  eapply (mapH_refines Req (RL Rm)); [stb | stb | apply RL_refl|]. intros w1 x y E1 Hxy. unfold Req in Hxy. subst y.
  eapply (mapH_refines Req Rm); [stb | stb | apply RL_refl|]. intros w2 x' y' E2 Hxy. unfold Req in Hxy. subst y'.
  bnd; [apply var_mul_k_refines|]. destruct a as [k'|v'|m'|p'].
  - destruct R as [_ <-]. apply refines_fail.
  - destruct R as [_ <-]. apply refines_fail.
  - apply Rs_M in R. destruct R as (b' & -> & R). apply refines_ret. exact R.
  - apply Rs_P in R. destruct R as (b' & -> & R). apply refines_fail.
Qed.
Lemma var_mat_mul_kvec0 w l ks : refines 0 Re w (avar_mat_mul_kvec l ks) (var_mat_mul_kvec l ks).
Proof.
  unfold avar_mat_mul_kvec, var_mat_mul_kvec. apply st_pure. intro d. bnd; [|apply concretize_slice0; eassumption].
  eapply (mapH_refines Req Rs); [stb | stb | apply RL_refl|]. intros w1 x y E1 Hxy. unfold Req in Hxy. subst y.
  apply (loop_over Rs); [apply Rs_HK|]. intros w2 j c e E2 J. apply st_pure. intro x0. apply st_pure. intro k. bnd; [apply var_mul_k_refines|]. apply plus0; assumption.
Qed.
Lemma var_mat_mul_kvec_call0 w l ks : refines 0 Re w (avar_mat_mul_kvec_call l ks) (var_mat_mul_kvec_call l ks).
Proof.
  unfold avar_mat_mul_kvec_call, var_mat_mul_kvec_call. apply st_check_mat; [constructor|]. apply st_operand; [constructor; constructor; constructor | reflexivity|].
  apply simplify_result0. apply var_mat_mul_kvec0.
Qed.
Lemma var_mat_mul_vars0 w l xs : refines 0 Re w (avar_mat_mul_vars l xs) (var_mat_mul_vars l xs).
Proof.
  unfold avar_mat_mul_vars, var_mat_mul_vars. apply st_pure. intro d. apply (loop_over Re); [apply Re_sk|]. intros w' i c e E J.
  apply st_pure. intro col. apply st_pure. intro x. bnd; [apply vec_mul0; [constructor | constructor; apply Re_sv]|]. apply expr_plus0; [assumption | constructor; assumption].
Qed.
Lemma var_mat_mul_mat0 w l r y : RM w r y -> refines 0 Re w (avar_mat_mul_mat l r) (var_mat_mul_mat l y).
Proof.
  intro R. unfold avar_mat_mul_mat, var_mat_mul_mat. apply st_check_mat; [constructor|]. apply st_operand; [constructor; constructor; exact R | reflexivity|].
  apply simplify_result0. apply mat_mul_template0; [constructor | exact R].
Qed.
Lemma var_mat_mul0 w l g y : Rg w g y -> refines 0 Re w (avar_mat_mul l g) (var_mat_mul l y).
Proof.
  intro R1. unfold avar_mat_mul, var_mat_mul. apply st_check_mat; [constructor|]. apply st_operand; [exact R1 | reflexivity|].
  destruct R1 as [f|z|v|v|v|v|e a H|]; try apply refines_fail.
  - do 2 apply simplify_result0. apply var_mat_mul_k0.
  - apply simplify_result0. apply var_mat_mul_kvec_call0.
  - apply simplify_result0. apply var_mat_mul_kvec_call0.
  - apply simplify_result0. apply var_mat_mul_mat0. constructor.
  - apply simplify_result0. apply var_mat_mul_mat0. constructor.
  - destruct H as [s a R|u a R|m a R].
    + destruct s as [k|v|m|p].
      * destruct R as [_ <-]. apply simplify_result0. apply var_mat_mul_k0.
      * destruct R as [_ <-]. apply refines_fail.
      * apply Rs_M in R. destruct R as (b & -> & R). apply refines_fail.
      * apply Rs_P in R. destruct R as (b & -> & R). apply refines_fail.
    + destruct R; try apply refines_fail; apply simplify_result0; [apply var_mat_mul_kvec0 | apply var_mat_mul_vars0].
    + apply simplify_result0. apply mat_mul_template0; [constructor | exact R].
Qed.

Lemma mono_mul_k0 w m b k : Rm w m b -> refines 0 Rm w (h_mono_mul_k m k) (mono_mul_k b k).
Proof. apply mono_mul_k_refines. Qed.
Lemma mono_mul_var0 w m b v : Rm w m b -> refines 0 Rm w (h_mono_mul_var m v) (mono_mul_var b v).
Proof. apply mono_mul_var_refines. Qed.
Lemma poly_mul_var0 w p l v : Rp w p l -> refines 0 Rs w (h_poly_mul_var p v) (poly_mul_var l v).
Proof. intro R. apply poly_mul_var_refines; [exact R | lia]. Qed.
Lemma mono_mat_mul_vars0 w l l' xs : RL (RL Rm) w l l' -> refines 0 Re w (amono_mat_mul_vars l xs) (mono_mat_mul_vars l' xs).
Proof.
  intro F. unfold amono_mat_mul_vars, mono_mat_mul_vars. rewrite (RL_len _ _ _ _ F). apply refines_if.
  - eapply (st_rr (RL Rm)); [apply (rr_index (RL Rm)); exact F|]. intros r r' Rr. bnd; [|apply as_ES0; apply simplified0; eassumption].
    eapply (forM_refines (Ri Rm) Rs); [apply Ri_ext; stb | apply RL_enum; exact Rr | apply Rs_HK|]. intros w1 [i m] [i' b] c d E1 [H1 H2] J. cbn [fst snd] in *. subst i'.
    apply st_pure. intro x. bnd; [apply mono_mul_var0; exact H2|]. apply plus0; [assumption | apply Rs_HM; assumption].
  - bnd; [|apply as_EV0; apply concretize_vector0; eassumption]. eapply (mapH_refines (RL Rm) Rs); [stb | stb | exact F|]. intros w1 r r' E1 Rr.
    eapply (st_rr Rm); [apply rr_index; exact Rr|]. intros m0 b0 R0. apply st_pure. intro x0. stp; [apply mono_to_poly0; exact R0|].
    bnd; [apply poly_mul_var0; eassumption|]. rewrite (RL_len _ _ _ _ Rr). apply (loop_over Rs); [assumption|]. intros w4 j c d E4 J. adv E4.
    eapply (st_rr Rm); [apply rr_index; exact Rr|]. intros m1 b1 R3. apply st_pure. intro x1. stp; [apply mono_to_poly0; exact R3|].
    bnd; [apply poly_mul_var0; eassumption|]. eapply refines_bind; [apply plus0; eassumption|]. intros w9 z z' E9 R9. destruct z as [k'|v'|m'|p'].
    + destruct R9 as [_ <-]. apply refines_fail.
    + destruct R9 as [_ <-]. apply refines_fail.
    + apply Rs_M in R9. destruct R9 as (q & -> & R9). apply refines_fail.
    + apply Rs_P in R9. destruct R9 as (q & -> & R9). apply refines_ret. apply Rs_HP. exact R9.
Qed.
Lemma mono_mat_mul_k0 w l l' f : RL (RL Rm) w l l' ->
  refines 0 Re w (rows <~ mapH (mapH (fun m => h_mono_mul_k m f)) l ;; ret (AEM (AMM rows))) (rows <- mapM (mapM (fun m => mono_mul_k m f)) l' ;; Ok (EM (MM rows))).
Proof.
  intro F. bnd; [|apply refines_ret; constructor; constructor; eassumption]. eapply (mapH_refines (RL Rm) (RL Rm)); [stb | stb | exact F|]. intros w1 a b E1 R1.
  eapply (mapH_refines Rm Rm); [stb | stb | exact R1|]. intros w2 m c E2 R2. apply mono_mul_k0. exact R2.
Qed.
Lemma mono_mat_mul0 w l l' g y : RL (RL Rm) w l l' -> Rg w g y -> refines 0 Re w (amono_mat_mul l g) (mono_mat_mul l' y).
Proof.
  intros F R1. unfold amono_mat_mul, mono_mat_mul. assert (RM w (AMM l) (MM l')) as R by (constructor; exact F).
  apply st_check_mat; [exact R|]. apply st_operand; [exact R1 | rewrite (RM_rd _ _ _ R); reflexivity|].
  destruct R1 as [f|z|v|v|v|v|e a H|]; try apply refines_fail.
  - apply mono_mat_mul_k0. exact F.
  - destruct H as [s a R'|u a R'|m a R'].
    + destruct s as [k|v|m|p].
      * destruct R' as [_ <-]. apply mono_mat_mul_k0. exact F.
      * destruct R' as [_ <-]. apply refines_fail.
      * apply Rs_M in R'. destruct R' as (b & -> & R'). apply refines_fail.
      * apply Rs_P in R'. destruct R' as (b & -> & R'). apply refines_fail.
    + destruct R'; try apply refines_fail. apply mono_mat_mul_vars0. exact F.
    + apply mat_mul_template0; assumption.
Qed.

Lemma poly_row0 w r r' xs : RL Rp w r r' -> refines 0 Rs w (apoly_row_mul_vars r xs) (poly_row_mul_vars r' xs).
Proof.
  intro F. unfold apoly_row_mul_vars, poly_row_mul_vars. eapply (forM_refines (Ri Rp) Rs); [apply Ri_ext; stb | apply RL_enum; exact F | apply Rs_HK|].
  intros w1 [i m] [i' b] c d E1 [H1 H2] J. cbn [fst snd] in *. subst i'. apply st_pure. intro x. bnd; [apply poly_mul_var0; exact H2|]. apply plus0; assumption.
Qed.
Lemma view_RL w p l : Rp w p l -> RL Rm w (view (hm (wh w)) p) l.
Proof.
  intros [F <-]. apply Forall_view_fit in F. unfold rd_poly, RL. induction F as [|m ms Fm _ IH]; cbn [map]; constructor; [split; [exact Fm | reflexivity] | exact IH].
Qed.
Lemma poly_mat_mul_k0 w l l' f : RL (RL Rp) w l l' -> refines 0 Re w (apoly_mat_mul_k l f) (poly_mat_mul_k l' f).
Proof.
  intro F. unfold apoly_mat_mul_k, poly_mat_mul_k. bnd; [|apply simplify_result0; apply concretize_rows0; eassumption].
  eapply (mapH_refines (RL Rp) (RL Rs)); [stb | stb | exact F|]. intros w1 a b E1 R1. eapply (mapH_refines Rp Rs); [stb | stb | exact R1|]. intros w2 m c E2 R2.
  eapply refines_know; [reflexivity|]. stp; [apply make0; apply view_RL; exact R2|]. apply poly_mul_k_refines; [assumption | lia].
Qed.
Lemma poly_mat_mul0 w l l' g y : RL (RL Rp) w l l' -> Rg w g y -> refines 0 Re w (apoly_mat_mul l g) (poly_mat_mul l' y).
Proof.
  intros F R1. unfold apoly_mat_mul, poly_mat_mul. assert (RM w (AMP l) (MP l')) as R by (constructor; exact F).
  apply st_check_mat; [exact R|]. apply st_operand; [exact R1 | rewrite (RM_rd _ _ _ R); reflexivity|].
  destruct R1 as [f|z|v|v|v|v|e a H|]; try apply refines_fail.
  - apply simplify_result0. apply poly_mat_mul_k0. exact F.
  - destruct H as [s a R'|u a R'|m a R'].
    + destruct s as [k|v|m|p].
      * destruct R' as [_ <-]. apply poly_mat_mul_k0. exact F.
      * destruct R' as [_ <-]. apply refines_fail.
      * apply Rs_M in R'. destruct R' as (b & -> & R'). apply refines_fail.
      * apply Rs_P in R'. destruct R' as (b & -> & R'). apply refines_fail.
    + destruct R'; try apply refines_fail. rewrite (RL_len _ _ _ _ F). apply refines_if.
      * eapply (st_rr (RL Rp)); [apply (rr_index (RL Rp)); exact F|]. intros r r' Rr. apply simplify_result0. apply as_ES0. apply poly_row0. exact Rr.
      * bnd; [|apply concretize_slice0; eassumption]. eapply (mapH_refines (RL Rp) Rs); [stb | stb | exact F|]. intros w1 r r' E1 Rr. apply poly_row0. exact Rr.
    + apply mat_mul_template0; assumption.
Qed.
Lemma mat_mul0 w m x g y : RM w m x -> Rg w g y -> refines 0 Re w (amat_mul m g) (mat_mul x y).
Proof. intros R R1. destruct R; cbn [amat_mul mat_mul]; [apply k_mat_mul0 | apply var_mat_mul0 | apply mono_mat_mul0 | apply poly_mat_mul0]; assumption. Qed.

(** ** Scalars with any operand *)
Lemma k_mul_any0 w c g y : Rg w g y -> refines 0 Re w (ak_mul_any c g) (k_mul_any c y).
Proof.
  intro R1. unfold ak_mul_any, k_mul_any. apply st_check_val; [exact R1|]. destruct R1 as [f|z|v|v|v|v|e a H|]; try apply refines_fail.
  - apply as_ES0. apply k_mul0. apply Rs_HK.
  - apply as_ES0. apply k_mul0. apply Rs_HK.
  - destruct H; try apply refines_fail. apply as_ES0. apply k_mul0. assumption.
Qed.
Lemma var_mul_any0 w v g y : Rg w g y -> refines 0 Re w (avar_mul_any v g) (var_mul_any v y).
Proof.
  intro R1. unfold avar_mul_any, var_mul_any. apply refines_check_var. apply st_operand; [exact R1 | reflexivity|].
  destruct R1 as [f|z|u|u|u|u|e a H|]; try apply refines_fail.
  - apply as_ES0. apply mul_float0. apply Rs_HV.
  - apply as_ES0. apply mul_float0. apply Rs_HV.
  - apply simplify_result0. apply var_mul_vec0. constructor.
  - do 2 apply simplify_result0. apply var_mul_vec0. constructor.
  - destruct H as [s a R'|u a R'|m a R']; try apply refines_fail.
    + apply as_ES0. apply (mul0 w (HV v) s (SV v) a); [apply Rs_HV | exact R'].
    + apply simplify_result0. apply vec_mul_template0; [exact R' | apply Rs_HV].
Qed.
Lemma mono_mul_any0 w m b g y : Rm w m b -> Rg w g y -> refines 0 Re w (amono_mul_any m g) (mono_mul_any b y).
Proof.
  intros R R1. unfold amono_mul_any, mono_mul_any. apply refines_check_mono; [exact R|]. apply st_operand; [exact R1 | reflexivity|].
  destruct R1 as [f|z|u|u|u|u|e a H|]; try apply refines_fail.
  - apply as_ES0. apply (mul_float0 w (HM m) (SM b)). apply Rs_HM. exact R.
  - apply as_ES0. apply (mul_float0 w (HM m) (SM b)). apply Rs_HM. exact R.
  - destruct H as [s a R'|u a R'|m' a R']; try apply refines_fail. apply as_ES0. apply (mul0 w (HM m) s (SM b) a); [apply Rs_HM; exact R | exact R'].
Qed.
Lemma poly_mul_any0 w p l g y : Rp w p l -> Rg w g y -> refines 0 Re w (apoly_mul_any p g) (poly_mul_any l y).
Proof.
  intros R R1. unfold apoly_mul_any, poly_mul_any. apply refines_check_poly; [exact R|]. apply st_check_val; [exact R1|].
  destruct R1 as [f|z|u|u|u|u|e a H|]; try apply refines_fail.
  - apply as_ES0. apply (mul_float0 w (HP p) (SP l)). apply Rs_HP. exact R.
  - destruct H as [s a R'|u a R'|m' a R'].
    + apply as_ES0. apply (mul0 w (HP p) s (SP l) a); [apply Rs_HP; exact R | exact R'].
    + apply simplify_result0. apply vec_mul0; [exact R' | constructor; constructor; apply Rs_HP; exact R].
    + apply simplify_result0. apply mat_mul0; [exact R' | constructor; constructor; apply Rs_HP; exact R].
Qed.
Lemma expr_mul0 w e x g y : Re w e x -> Rg w g y -> refines 0 Re w (aexpr_mul e g) (expr_mul x y).
Proof.
  intros R R1. destruct R as [s a R|u a R|m a R]; cbn [aexpr_mul expr_mul].
  - destruct s as [k|v|m|p].
    + destruct R as [_ <-]. apply k_mul_any0. exact R1.
    + destruct R as [_ <-]. apply var_mul_any0. exact R1.
    + apply Rs_M in R. destruct R as (b & -> & R). apply mono_mul_any0; assumption.
    + apply Rs_P in R. destruct R as (b & -> & R). apply poly_mul_any0; assumption.
  - apply vec_mul0; assumption.
  - apply mat_mul0; assumption.
Qed.

(** ** Minus *)
Lemma minus0 w e x r y : Re w e x -> Re w r y -> refines 0 Re w (a_minus e r) (minus x y).
Proof.
  intros R R1. unfold a_minus, minus. bnd; [apply expr_mul0; [exact R1 | constructor]|]. apply expr_plus0; [assumption | constructor; assumption].
Qed.
Lemma as_aexpr0 w g y : Rg w g y -> match as_aexpr g, as_expr y with Some e, Some x => Re w e x | None, None => True | _, _ => False end.
Proof. intro R. destruct R; cbn [as_aexpr as_expr]; first [exact I | apply Re_sk | assumption | constructor; constructor]. Qed.
Lemma expr_minus0 w e x g y : Re w e x -> Rg w g y -> refines 0 Re w (aexpr_minus e g) (expr_minus x y).
Proof.
  intros R R1. unfold aexpr_minus, expr_minus. apply st_check_expr; [exact R|]. pose proof (as_aexpr0 _ _ _ R1) as A.
  destruct (as_aexpr g) as [r|], (as_expr y) as [r'|]; try contradiction; [|apply refines_fail].
  assert (T1 : forall (f : unit -> M aexpr) (k : unit -> res expr), refines 0 Re w (f tt) (k tt) ->
    refines 0 Re w (bindM (a_operand_check dims_add (fun h => expr_dims (rd_aexpr h e)) (AExpr r)) f) (bind (operand_check dims_add (expr_dims x) (GExpr r')) k)).
  { intros f k H. apply st_operand; [constructor; exact A | rewrite (Re_rd _ _ _ R); reflexivity | exact H]. }
  assert (T2 : forall (f : unit -> M aexpr) (k : unit -> res expr), refines 0 Re w (f tt) (k tt) -> refines 0 Re w (bindM (check_aexpr r) f) (bind (check (expr_check r') PCheck) k)).
  { intros f k H. apply st_check_expr; assumption. }
  pose proof (minus0 _ _ _ _ _ R A) as T3. destruct R as [s a R|u a R|m a R].
  - destruct s as [k|v|m|p].
    + destruct R as [_ <-]. apply T2. exact T3.
    + destruct R as [_ <-]. apply T1. exact T3.
    + apply Rs_M in R. destruct R as (b & -> & R). apply T1. exact T3.
    + apply Rs_P in R. destruct R as (b & -> & R). apply T2. exact T3.
  - destruct R; apply T1; try exact T3. destruct A; try exact T3. apply refines_fail.
  - apply T1. exact T3.
Qed.

(** ** Power *)
Lemma vec_power0 w v x k : Rv w v x -> refines 0 Rs w (avec_power v k) (vec_power x k).
Proof.
  intro R. unfold avec_power, vec_power. apply st_check_vec; [exact R|]. apply st_pure. intros []. apply st_vlen; [exact R|]. intro n. apply st_pure. intros [].
  bnd; [apply vec_get0; exact R|]. apply power_loop0; [assumption | apply Rs_HK].
Qed.
Lemma as_amat0 w e x : Re w e x -> refines 0 RM w (as_amat e) (as_matrix x).
Proof. intro R. destruct R; first [apply refines_fail | apply refines_ret; assumption]. Qed.
Lemma mat_power_loop0 n : forall w me x out y, RM w me x -> RM w out y -> refines 0 RM w (amat_power_loop me n out) (mat_power_loop x n y).
Proof.
  induction n as [|n IH]; intros w me x out y R R1; cbn [amat_power_loop mat_power_loop]; [apply refines_ret; exact R1|].
  bnd; [apply mat_mul0; [exact R1 | constructor; constructor; exact R]|]. bnd; [apply as_amat0; eassumption|]. apply IH; assumption.
Qed.
Lemma mat_power0 w m x k : RM w m x -> refines 0 RM w (amat_power m k) (mat_power x k).
Proof.
  intro R. unfold amat_power, mat_power. apply st_check_mat; [exact R|]. apply st_mdims; [exact R|]. intro d. apply st_pure. intros []. apply st_pure. intros [].
  apply st_pure. intro i. bnd; [apply k_plus_any0; constructor|]. bnd; [apply as_amat0; eassumption|]. apply mat_power_loop0; assumption.
Qed.
Lemma expr_power0 w e x k : Re w e x -> refines 0 Re w (aexpr_power e k) (expr_power x k).
Proof.
  intro R. destruct R as [s a R|u a R|m a R]; cbn [aexpr_power expr_power].
  - apply as_ES0. apply power0. exact R.
  - apply as_ES0. apply vec_power0. exact R.
  - apply as_EM0. apply mat_power0. exact R.
Qed.

End Times.
