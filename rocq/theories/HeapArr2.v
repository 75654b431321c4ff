(** * Shape: indexing, concretisation, simplification, transposition, stacking and substitution in memory refine the pure model *)

From Coq Require Import ZArith NArith Bool List Lia.
From Verif Require Import Num Syntax ModelScalar ModelShape ModelArith ModelHeap ModelHeapArr HeapMem HeapRef HeapOps HeapOps2 HeapArr.
Import ListNotations.
Local Open Scope num_scope.

Section Shape.
Context {NN : Num} {RT : Runtime}.

(** ** Indexing *)
Lemma at_vec0 w v x i : Rv w v x -> refines 0 Rs w (avec_at_vec v i) (vec_at_vec x i).
Proof.
  intro R. pose proof R as R0. destruct R as [l|l|l l' H|l l' H]; cbn [avec_at_vec vec_at_vec].
  - apply st_pure. intros []. apply st_pure. intro k. apply refines_ret. apply Rs_HK.
  - apply st_pure. intros []. apply st_pure. intro k. apply refines_ret. apply Rs_HV.
  - apply st_check_vec; [exact R0|]. eapply (st_rr Rm); [apply rr_index_z; exact H|]. intros a b Q. apply refines_ret. apply Rs_HM. exact Q.
  - apply st_check_vec; [exact R0|]. rewrite (RL_len _ _ _ _ H). apply st_pure. intros []. eapply (st_rr Rp); [apply rr_index_z; exact H|]. intros a b Q. apply refines_ret. apply Rs_HP. exact Q.
Qed.
Lemma bind_ok {A} (r : res A) : bind r (fun s => Ok s) = r.
Proof. destruct r; reflexivity. Qed.
Lemma vec_at0 w v x i j : Rv w v x -> refines 0 Rs w (avec_at v i j) (vec_at x i j).
Proof.
  intro R. unfold avec_at, vec_at. apply refines_reads.
  { rewrite (Rv_rd _ _ _ R). destruct R; reflexivity. }
  intros [] _. apply st_vlen; [exact R|]. intro n. apply st_pure. intros []. try rewrite bind_ok. apply refines_rr. apply rr_index_z. apply Rv_entries. exact R.
Qed.
Lemma mat_at0 w m x i j : RM w m x -> refines 0 Rs w (amat_at m i j) (mat_at x i j).
Proof.
  intro R. pose proof R as R0. destruct R as [l|l|l l' H|l l' H]; cbn [amat_at mat_at].
  - apply st_pure. intro d. apply st_pure. intro k. apply refines_ret. apply Rs_HK.
  - apply st_check_mat; [exact R0|]. apply st_pure. intro k. apply refines_ret. apply Rs_HV.
  - apply st_check_mat; [exact R0|]. eapply (st_rr Rm); [apply rr_rows; exact H|]. intros a b Q. apply refines_ret. apply Rs_HM. exact Q.
  - apply st_check_mat; [exact R0|]. apply st_mdims; [exact R0|]. intro d. apply st_pure. intros [].
    eapply (st_rr Rp); [apply rr_rows; exact H|]. intros a b Q. apply refines_ret. apply Rs_HP. exact Q.
Qed.
Lemma scalar_at0 w s a i j : Rs w s a -> refines 0 Rs w (h_scalar_at s i j) (scalar_at a i j).
Proof.
  intro R. unfold h_scalar_at, scalar_at. apply refines_check_scalar; [exact R|]. apply st_pure. intros []. apply refines_ret. exact R.
Qed.
Lemma expr_at0 w e a i j : Re w e a -> refines 0 Rs w (aexpr_at e i j) (expr_at a i j).
Proof. intro R. destruct R; cbn [aexpr_at expr_at]; [apply scalar_at0 | apply vec_at0 | apply mat_at0]; assumption. Qed.
Lemma vec_get0 w v x i : Rv w v x -> refines 0 Rs w (avec_get v i) (vec_get x i).
Proof. apply at_vec0. Qed.
Lemma mat_get0 w v x i j : RM w v x -> refines 0 Rs w (amat_get v i j) (mat_get x i j).
Proof. apply mat_at0. Qed.

(** ** Concretisation *)
Lemma kinds w s a : Rs w s a -> h_is_k s = is_k a /\ h_is_v s = is_v a /\ h_is_m s = is_m a /\ h_is_p s = is_p a.
Proof. intros [_ <-]. destruct s; repeat split. Qed.
Lemma RL_existsb {A B} (P : world -> A -> B -> Prop) w f g l l' : RL P w l l' -> (forall a b, P w a b -> f a = g b) -> existsb f l = existsb g l'.
Proof. intros F H. unfold RL in F. induction F as [|a b l l' Hab _ IH]; cbn; [reflexivity|]. rewrite IH, (H _ _ Hab). reflexivity. Qed.
Lemma RL_forallb {A B} (P : world -> A -> B -> Prop) w f g l l' : RL P w l l' -> (forall a b, P w a b -> f a = g b) -> forallb f l = forallb g l'.
Proof. intros F H. unfold RL in F. induction F as [|a b l l' Hab _ IH]; cbn; [reflexivity|]. rewrite IH, (H _ _ Hab). reflexivity. Qed.
Lemma RL_concat {A B} (P : world -> A -> B -> Prop) w l l' : RL (RL P) w l l' -> RL P w (concat l) (concat l').
Proof. intros F. unfold RL in *. induction F as [|a b l l' Hab _ IH]; cbn; [constructor|]. apply Forall2_app; assumption. Qed.
Lemma ex_k w l l' : RL Rs w l l' -> existsb h_is_k l = existsb is_k l'.
Proof. intro H. eapply RL_existsb; [exact H|]. intros a b R. apply (kinds _ _ _ R). Qed.
Lemma ex_v w l l' : RL Rs w l l' -> existsb h_is_v l = existsb is_v l'.
Proof. intro H. eapply RL_existsb; [exact H|]. intros a b R. apply (kinds _ _ _ R). Qed.
Lemma ex_m w l l' : RL Rs w l l' -> existsb h_is_m l = existsb is_m l'.
Proof. intro H. eapply RL_existsb; [exact H|]. intros a b R. apply (kinds _ _ _ R). Qed.
Lemma ex_p w l l' : RL Rs w l l' -> existsb h_is_p l = existsb is_p l'.
Proof. intro H. eapply RL_existsb; [exact H|]. intros a b R. apply (kinds _ _ _ R). Qed.
Lemma all_v w l l' : RL Rs w l l' -> forallb h_is_v l = forallb is_v l'.
Proof. intro H. eapply RL_forallb; [exact H|]. intros a b R. apply (kinds _ _ _ R). Qed.
Lemma RL_nonempty {A B} (P : world -> A -> B -> Prop) w l l' : RL P w l l' -> nonempty l = nonempty l'.
Proof. intro F. destruct F; reflexivity. Qed.

Lemma to_poly0 w s a : Rs w s a -> refines 0 Rp w (h_to_poly s) (Ok (to_poly a)).
Proof.
  intro R. destruct s as [k|v|m|p]; cbn [h_to_poly].
  - destruct R as [_ <-]. apply make0. constructor; [apply hk_to_mono_ok | constructor].
  - destruct R as [_ <-]. stp; [apply hvar_to_mono_refines|]. apply make0. constructor; [eassumption | constructor].
  - apply Rs_M in R. destruct R as (b & -> & R). apply mono_to_poly0. exact R.
  - apply Rs_P in R. destruct R as (b & -> & R). apply refines_ret. exact R.
Qed.
Lemma to_mono0 w s a : Rs w s a -> refines 0 Rm w (h_to_mono s) (to_mono a).
Proof.
  intro R. destruct s as [k|v|m|p]; cbn [h_to_mono].
  - destruct R as [_ <-]. apply refines_ret. apply hk_to_mono_ok.
  - destruct R as [_ <-]. apply hvar_to_mono_refines.
  - apply Rs_M in R. destruct R as (b & -> & R). apply refines_ret. exact R.
  - apply Rs_P in R. destruct R as (b & -> & R). apply refines_fail.
Qed.
Lemma to_var0 w s a : Rs w s a -> refines 0 Req w (h_to_var s) (to_var a).
Proof. intros [_ <-]. destruct s; first [apply refines_fail | apply refines_ret; reflexivity]. Qed.
Lemma to_k0 w s a : Rs w s a -> refines 0 Req w (h_to_k s) (to_k a).
Proof. intros [_ <-]. destruct s; first [apply refines_fail | apply refines_ret; reflexivity]. Qed.
Lemma mapM_ok {A B} (f : A -> B) l : mapM (fun a => Ok (f a)) l = Ok (map f l).
Proof. induction l as [|a l IH]; cbn [mapM map]; [reflexivity|]. cbn [bind]. rewrite IH. reflexivity. Qed.
Lemma RL_Req {A} w (l l' : list A) : RL Req w l l' -> l = l'.
Proof. intro F. unfold RL in F. induction F as [|a b l l' -> _ ->]; reflexivity. Qed.
Lemma RLL_Req {A} w (l l' : list (list A)) : RL (RL Req) w l l' -> l = l'.
Proof. intro F. unfold RL in F at 1. induction F as [|a b l l' H _ ->]; [reflexivity|]. apply RL_Req in H. congruence. Qed.

Lemma map0 {C D} (R : world -> C -> D -> Prop) f g w l l' : stable R -> (forall w s a, Rs w s a -> refines 0 R w (f s) (g a)) -> RL Rs w l l' -> refines 0 (RL R) w (mapH f l) (mapM g l').
Proof. intros SR H F. eapply mapH_refines; [apply Rs_st | exact SR | exact F|]. intros. apply H. assumption. Qed.
Lemma map00 {C D} (R : world -> C -> D -> Prop) f g w l l' : stable R -> (forall w s a, Rs w s a -> refines 0 R w (f s) (g a)) -> RL (RL Rs) w l l' -> refines 0 (RL (RL R)) w (mapH (mapH f) l) (mapM (mapM g) l').
Proof. intros SR H F. eapply (mapH_refines (RL Rs) (RL R)); [stb | apply RL_ext; exact SR | exact F|]. intros. apply map0; assumption. Qed.

Lemma concretize_vector0 w l l' : RL Rs w l l' -> refines 0 Rv w (a_concretize_vector l) (concretize_vector l').
Proof.
  intro F. unfold a_concretize_vector, concretize_vector. rewrite (RL_nonempty _ _ _ _ F), (ex_p _ _ _ F), (ex_m _ _ _ F), (ex_k _ _ _ F), (ex_v _ _ _ F), (all_v _ _ _ F).
  apply st_pure. intros []. repeat apply refines_if.
  - eapply (refines_step 0 (RL Rp)); [rewrite <- (mapM_ok to_poly); apply map0; [stb | apply to_poly0 | exact F]|]. intros w1 a E R. apply refines_ret. constructor. exact R.
  - bnd; [apply (map0 Rm); [stb | apply to_mono0 | exact F]|]. apply refines_ret. constructor. assumption.
  - bnd; [apply (map0 Req); [stb | apply to_var0 | exact F]|]. apply refines_ret. apply RL_Req in R. subst. constructor.
  - bnd; [apply (map0 Req); [stb | apply to_k0 | exact F]|]. apply refines_ret. apply RL_Req in R. subst. constructor.
  - apply refines_fail.
Qed.
Lemma mapM_ok2 {A B} (f : A -> B) l : mapM (mapM (fun a => Ok (f a))) l = Ok (map (map f) l).
Proof. induction l as [|a l IH]; cbn [mapM map]; [reflexivity|]. rewrite mapM_ok. cbn [bind]. rewrite IH. reflexivity. Qed.
Lemma concretize_matrix0 w l l' : RL (RL Rs) w l l' -> refines 0 RM w (a_concretize_matrix l) (concretize_matrix l').
Proof.
  intro F. pose proof (RL_concat _ _ _ _ F) as Fc. unfold a_concretize_matrix, concretize_matrix.
  destruct F as [|r0 r0' t t' H0 Ft]; [apply refines_fail|]. assert (F : RL (RL Rs) w (r0 :: t) (r0' :: t')) by (constructor; assumption).
  set (l := r0 :: t) in *. set (l' := r0' :: t') in *. rewrite (ex_p _ _ _ Fc), (ex_m _ _ _ Fc), (ex_k _ _ _ Fc), (ex_v _ _ _ Fc), (all_v _ _ _ Fc).
  rewrite (RL_forallb (RL Rs) w (fun r => Nat.eqb (length r) (length r0)) (fun r => Nat.eqb (length r) (length r0')) _ _ F).
  2:{ intros a b R. rewrite (RL_len _ _ _ _ R), (RL_len _ _ _ _ H0). reflexivity. }
  apply st_pure. intros []. repeat apply refines_if.
  - eapply (refines_step 0 (RL (RL Rp))); [rewrite <- (mapM_ok2 to_poly); apply map00; [stb | apply to_poly0 | exact F]|]. intros w1 a E R. apply refines_ret. constructor. exact R.
  - bnd; [apply (map00 Rm); [stb | apply to_mono0 | exact F]|]. apply refines_ret. constructor. assumption.
  - bnd; [apply (map00 Req); [stb | apply to_var0 | exact F]|]. apply refines_ret. apply RLL_Req in R. subst. constructor.
  - bnd; [apply (map00 Req); [stb | apply to_k0 | exact F]|]. apply refines_ret. apply RLL_Req in R. subst. constructor.
  - apply refines_fail.
Qed.
Lemma concretize_slice0 w l l' : RL Rs w l l' -> refines 0 Re w (a_concretize_slice l) (concretize_slice l').
Proof.
  intro F. unfold a_concretize_slice, concretize_slice. bnd; [apply concretize_vector0; exact F|]. apply st_vdims; [eassumption|]. intro d. apply refines_if.
  - bnd; [apply vec_at0; eassumption|]. apply refines_ret. constructor. assumption.
  - apply refines_ret. constructor. assumption.
Qed.
Lemma RL_seq w n k : RL Req w (seq n k) (seq n k).
Proof. apply RL_refl. Qed.
Lemma over {C D} (R : world -> C -> D -> Prop) f g w (l : list nat) : stable R -> (forall w' i, ext 0 w w' -> refines 0 R w' (f i) (g i)) -> refines 0 (RL R) w (mapH f l) (mapM g l).
Proof. intros SR H. eapply mapH_refines; [apply Req_ext | exact SR | apply RL_refl|]. intros w' a b E ->. apply H. exact E. Qed.
Lemma concretize_rows0 w l l' : RL (RL Rs) w l l' -> refines 0 Re w (a_concretize_rows l) (concretize_rows l').
Proof.
  intro F. unfold a_concretize_rows, concretize_rows. bnd; [apply concretize_matrix0; exact F|]. apply st_mdims; [eassumption|]. intro d. apply refines_if; [|apply refines_if].
  - bnd; [apply mat_get0; eassumption|]. apply refines_ret. constructor. assumption.
  - bnd; [apply (over Rs); [apply Rs_st|]; intros w' i E'; adv E'; apply mat_get0; eassumption|]. bnd; [apply concretize_vector0; eassumption|].
    apply refines_ret. constructor. assumption.
  - apply refines_ret. constructor. assumption.
Qed.

(** ** AsSimplifiedExpression *)
Lemma vec_simplified0 w v x : Rv w v x -> refines 0 Rv w (avec_simplified v) (vec_simplified x).
Proof.
  intro R. pose proof R as R0. destruct R as [l|l|l l' H|l l' H]; cbn [avec_simplified vec_simplified]; try (apply refines_ret; constructor).
  - apply st_check_vec; [exact R0|]. bnd; [apply (map0 Rs); [stb | intros; apply simplified0; assumption | apply (Rv_entries _ _ _ R0)]|]. apply concretize_vector0. assumption.
  - apply st_check_vec; [exact R0|]. bnd; [apply (map0 Rs); [stb | intros; apply simplified0; assumption | apply (Rv_entries _ _ _ R0)]|]. apply concretize_vector0. assumption.
Qed.
Lemma mat_simplified0 w v x : RM w v x -> refines 0 RM w (amat_simplified v) (mat_simplified x).
Proof.
  intro R. pose proof R as R0. destruct R as [l|l|l l' H|l l' H]; cbn [amat_simplified mat_simplified]; try (apply refines_ret; constructor).
  - apply st_check_mat; [exact R0|]. bnd; [apply (map00 Rs); [stb | intros; apply simplified0; assumption | apply (RM_rows _ _ _ R0)]|]. apply concretize_matrix0. assumption.
  - apply st_check_mat; [exact R0|]. bnd; [apply (map00 Rs); [stb | intros; apply simplified0; assumption | apply (RM_rows _ _ _ R0)]|]. apply concretize_matrix0. assumption.
Qed.
Lemma expr_simplified0 w e x : Re w e x -> refines 0 Re w (aexpr_simplified e) (expr_simplified x).
Proof.
  intro R. destruct R; cbn [aexpr_simplified expr_simplified]; bnd;
    try (apply simplified0; eassumption); try (apply vec_simplified0; eassumption); try (apply mat_simplified0; eassumption); apply refines_ret; constructor; assumption.
Qed.
Lemma simplify_result0 w x y : refines 0 Re w x y -> refines 0 Re w (a_simplify_result x) (simplify_result y).
Proof. intro H. unfold a_simplify_result, simplify_result. bnd; [exact H|]. apply expr_simplified0. assumption. Qed.

(** ** Transpose *)
Lemma vec_transpose0 w v x : Rv w v x -> refines 0 RM w (avec_transpose v) (vec_transpose x).
Proof.
  intro R. pose proof R as R0. destruct R as [l|l|l l' H|l l' H]; cbn [avec_transpose vec_transpose].
  - apply st_pure. intros []. apply refines_ret. constructor.
  - apply st_check_vec; [exact R0|]. apply refines_ret. constructor.
  - apply st_check_vec; [exact R0|]. apply refines_ret. constructor. constructor; [exact H | constructor].
  - apply st_check_vec; [exact R0|]. apply refines_ret. constructor. constructor; [exact H | constructor].
Qed.
Lemma mat_transpose0 w v x : RM w v x -> refines 0 RM w (amat_transpose v) (mat_transpose x).
Proof.
  intro R. pose proof R as R0. destruct R as [l|l|l l' H|l l' H]; cbn [amat_transpose mat_transpose].
  - apply st_pure. intro d. apply st_pure. intro d'. apply st_pure. intro t. apply refines_ret. constructor.
  - apply st_mdims; [exact R0|]. intro d. apply st_pure. intro t. apply refines_ret. constructor.
  - apply st_mdims; [exact R0|]. intro d. eapply (st_rr (RL (RL Rm))); [apply rr_transpose; exact H|]. intros a b Q. apply refines_ret. constructor. exact Q.
  - apply st_mdims; [exact R0|]. intro d. eapply (st_rr (RL (RL Rp))); [apply rr_transpose; exact H|]. intros a b Q. apply refines_ret. constructor. exact Q.
Qed.
Lemma scalar_transpose0 w s a : Rs w s a -> refines 0 Rs w (h_transpose s) (scalar_transpose a).
Proof.
  intro R. pose proof R as R0. destruct s as [k|v|m|p].
  - destruct R as [_ <-]. apply refines_ret. exact R0.
  - destruct R as [_ <-]. apply refines_ret. exact R0.
  - apply Rs_M in R. destruct R as (b & -> & R). cbn [h_transpose scalar_transpose]. apply refines_check_mono; [exact R|]. apply refines_ret. exact R0.
  - apply Rs_P in R. destruct R as (b & -> & R). cbn [h_transpose scalar_transpose]. apply refines_check_poly; [exact R|]. apply refines_ret. exact R0.
Qed.
Lemma expr_transpose0 w e x : Re w e x -> refines 0 Re w (aexpr_transpose e) (expr_transpose x).
Proof.
  intro R. destruct R; cbn [aexpr_transpose expr_transpose]; bnd;
    try (apply scalar_transpose0; eassumption); try (apply vec_transpose0; eassumption); try (apply mat_transpose0; eassumption); apply refines_ret; constructor; assumption.
Qed.

(** ** Stacking *)
Lemma expr_row0 w e a n i : Re w e a -> refines 0 (RL Rs) w (aexpr_row e n i) (expr_row a n i).
Proof. intro R. unfold aexpr_row, expr_row. apply (over Rs); [stb|]. intros w' j E. adv E. apply expr_at0. assumption. Qed.
Definition Red (w : world) (x : aexpr * (nat * nat)) (y : expr * (nat * nat)) : Prop := Re w (fst x) (fst y) /\ snd x = snd y.
Lemma Red_ext : stable Red.
Proof. intros n w w' a b E [H1 H2]. split; [eapply Re_ext; eassumption | exact H2]. Qed.
Lemma RL_combine w es es' ds : RL Re w es es' -> RL Red w (combine es ds) (combine es' ds).
Proof. intro F. unfold RL in F. revert ds. induction F as [|a b l l' H _ IH]; intros [|d ds]; cbn; constructor; [split; [exact H | reflexivity] | apply IH]. Qed.
Lemma hstack0 w es es' : RL Re w es es' -> refines 0 Re w (a_hstack es) (hstack es').
Proof.
  intro F. unfold a_hstack, hstack. rewrite (RL_nonempty _ _ _ _ F). apply st_pure. intros [].
  bnd; [eapply (mapH_refines Re Req); [stb | apply Req_ext | exact F | intros; apply edims_refines; assumption]|]. apply RL_Req in R. subst.
  apply st_pure. intros []. apply st_pure. intro d0. bnd; [|apply concretize_rows0; eassumption].
  apply over; [stb|]. intros w' i E'. adv E'. bnd; [|apply refines_ret; apply RL_concat; eassumption].
  eapply (mapH_refines Red (RL Rs)); [apply Red_ext | stb | apply RL_combine; exact F|]. intros w2 x y E2 [H ->]. apply expr_row0. exact H.
Qed.
Lemma vstack0 w es es' : RL Re w es es' -> refines 0 Re w (a_vstack es) (vstack es').
Proof.
  intro F. unfold a_vstack, vstack. rewrite (RL_nonempty _ _ _ _ F). apply st_pure. intros [].
  bnd; [eapply (mapH_refines Re Req); [stb | apply Req_ext | exact F | intros; apply edims_refines; assumption]|]. apply RL_Req in R. subst.
  apply st_pure. intros []. bnd; [|apply concretize_rows0; apply RL_concat; eassumption].
  eapply (mapH_refines Red (RL (RL Rs))); [apply Red_ext | stb | apply RL_combine; exact F|]. intros w2 x y E2 [H ->]. apply (over (RL Rs)); [stb|]. intros w3 i E3. adv E3. apply expr_row0. assumption.
Qed.

(** ** Substitute *)
Lemma vec_substitute0 w v x y s a : Rv w v x -> Rs w s a -> refines 0 Rv w (avec_substitute v y s) (vec_substitute x y a).
Proof.
  intros R Rs0.
  assert (T : refines 0 Rv w
    (_ <~ check_avec v ;; _ <~ check_var y ;; _ <~ check_scalar s ;; n <~ avec_len v ;; l <~ mapH (fun i => a <~ avec_get v i ;; h_substitute a y s) (seq 0 n) ;; a_concretize_vector l)
    (_ <- check (vec_check x) PCheck ;; _ <- check (var_check y) PCheck ;; _ <- check (scalar_check a) PCheck ;; n <- vec_len x ;;
     l <- mapM (fun i => b <- vec_get x i ;; scalar_substitute b y a) (seq 0 n) ;; concretize_vector l)).
  { apply st_check_vec; [exact R|]. apply refines_check_var. apply refines_check_scalar; [exact Rs0|]. apply st_vlen; [exact R|]. intro n.
    bnd; [|apply concretize_vector0; eassumption]. apply over; [stb|]. intros w' i E'. adv E'. bnd; [apply vec_get0; eassumption|]. apply substitute0; assumption. }
  destruct R; cbn [avec_substitute vec_substitute]; try exact T. apply refines_ret. constructor.
Qed.
Lemma mat_substitute0 w v x y s a : RM w v x -> Rs w s a -> refines 0 RM w (amat_substitute v y s) (mat_substitute x y a).
Proof.
  intros R Rs0.
  assert (T : refines 0 RM w
    (_ <~ check_amat v ;; _ <~ check_var y ;; _ <~ check_scalar s ;; d <~ amat_dims v ;;
     l <~ mapH (fun i => mapH (fun j => a <~ amat_get v i j ;; h_substitute a y s) (seq 0 (snd d))) (seq 0 (fst d)) ;; a_concretize_matrix l)
    (_ <- check (mat_check x) PCheck ;; _ <- check (var_check y) PCheck ;; _ <- check (scalar_check a) PCheck ;; d <- mat_dims x ;;
     l <- mapM (fun i => mapM (fun j => b <- mat_get x i j ;; scalar_substitute b y a) (seq 0 (snd d))) (seq 0 (fst d)) ;; concretize_matrix l)).
  { apply st_check_mat; [exact R|]. apply refines_check_var. apply refines_check_scalar; [exact Rs0|]. apply st_mdims; [exact R|]. intro n.
    bnd; [|apply concretize_matrix0; eassumption]. apply over; [stb|]. intros w' i E'. adv E'. apply over; [stb|]. intros w2 j E2. adv E2.
    bnd; [apply mat_get0; eassumption|]. apply substitute0; assumption. }
  destruct R; cbn [amat_substitute mat_substitute]; try exact T. apply refines_ret. constructor.
Qed.
Lemma expr_substitute0 w e x y s a : Re w e x -> Rs w s a -> refines 0 Re w (aexpr_substitute e y s) (expr_substitute x y a).
Proof.
  intros R Rs0. destruct R; cbn [aexpr_substitute expr_substitute]; bnd;
    try (apply substitute0; eassumption); try (eapply vec_substitute0; eassumption); try (eapply mat_substitute0; eassumption); apply refines_ret; constructor; assumption.
Qed.

End Shape.
#[export] Hint Resolve vec_get0 mat_get0 expr_at0 vec_at0 mat_at0 concretize_vector0 concretize_matrix0 concretize_slice0 concretize_rows0 vec_simplified0 mat_simplified0 expr_simplified0 simplify_result0 : href.
