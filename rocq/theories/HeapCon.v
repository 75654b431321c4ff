(** * The functions on constraints in memory refine the functions on values *)

From Coq Require Import ZArith NArith Bool List Lia.
From Verif Require Import Num Syntax ModelScalar ModelShape ModelArith ModelSC ModelConstr ModelHeap ModelHeapArr ModelHeapCon HeapMem HeapRef HeapOps HeapOps2 HeapArr HeapArr2 HeapArr3 HeapArr4.
Import ListNotations.
Local Open Scope num_scope.

Section Con.
Context {NN : Num} {RT : Runtime}.

(** ** Relations *)
Inductive Rsc (w : world) : hsc -> scalar_constraint -> Prop := Rsc_i l l' r r' s : Rs w l l' -> Rs w r r' -> Rsc w (mkHSC l r s) (mkSC l' r' s).
Inductive Rvc (w : world) : hvc -> vector_constraint -> Prop := Rvc_i l l' r r' s : Rv w l l' -> Rv w r r' -> Rvc w (mkHVC l r s) (mkVC l' r' s).
Inductive Rmc (w : world) : hmc -> matrix_constraint -> Prop := Rmc_i l l' r r' s : RM w l l' -> RM w r r' -> Rmc w (mkHMC l r s) (mkMC l' r' s).
Inductive Rc (w : world) : acon -> constraint -> Prop :=
| Rc_S c d : Rsc w c d -> Rc w (ACS c) (CS d)
| Rc_V c d : Rvc w c d -> Rc w (ACV c) (CV d)
| Rc_M c d : Rmc w c d -> Rc w (ACM c) (CM d).
Definition Rkv (w : world) (x : var * aexpr) (y : var * expr) : Prop := fst x = fst y /\ Re w (snd x) (snd y).

Lemma Rsc_st : stable Rsc.
Proof. intros n w w' a b E R. destruct R. constructor; eapply Rs_ext; eassumption. Qed.
Lemma Rvc_st : stable Rvc.
Proof. intros n w w' a b E R. destruct R. constructor; eapply Rv_ext; eassumption. Qed.
Lemma Rmc_st : stable Rmc.
Proof. intros n w w' a b E R. destruct R. constructor; eapply RM_ext; eassumption. Qed.
Lemma Rc_st : stable Rc.
Proof. intros n w w' a b E R. destruct R; constructor; [eapply Rsc_st | eapply Rvc_st | eapply Rmc_st]; eassumption. Qed.
Lemma Rkv_st : stable Rkv.
Proof. intros n w w' a b E [H R]. split; [exact H | eapply Re_ext; eassumption]. Qed.

Lemma Rsc_rd w c d : Rsc w c d -> rd_sc (wh w) c = d.
Proof. intros []. unfold rd_sc. cbn. f_equal; apply Rs_rd; assumption. Qed.
Lemma Rvc_rd w c d : Rvc w c d -> rd_vc (wh w) c = d.
Proof. intros []. unfold rd_vc. cbn. f_equal; apply Rv_rd; assumption. Qed.
Lemma Rmc_rd w c d : Rmc w c d -> rd_mc (wh w) c = d.
Proof. intros []. unfold rd_mc. cbn. f_equal; apply RM_rd; assumption. Qed.
Lemma Rc_rd w c d : Rc w c d -> rd_acon (wh w) c = d.
Proof. intros []; cbn; f_equal; [apply Rsc_rd | apply Rvc_rd | apply Rmc_rd]; assumption. Qed.
Lemma Rsm_rd w sm sm' : RL Rkv w sm sm' -> rd_submap (wh w) sm = sm'.
Proof.
  intro F. unfold RL in F. unfold rd_submap. induction F as [|[k e] [k' x] l l' [H R] F IH]; cbn [map fst snd]; [reflexivity|]. cbn in H, R. subst k'.
  rewrite IH, (Re_rd _ _ _ R). reflexivity.
Qed.

End Con.

Ltac advc E :=
  adv E;
  match type of E with ext _ ?w _ =>
    repeat match goal with
           | H : Rsc w _ _ |- _ => apply (Rsc_st _ _ _ _ _ E) in H
           | H : Rvc w _ _ |- _ => apply (Rvc_st _ _ _ _ _ E) in H
           | H : Rmc w _ _ |- _ => apply (Rmc_st _ _ _ _ _ E) in H
           | H : Rc w _ _ |- _ => apply (Rc_st _ _ _ _ _ E) in H
           | H : RL Rc w _ _ |- _ => apply (RL_ext _ Rc_st _ _ _ _ _ E) in H
           | H : RL Rkv w _ _ |- _ => apply (RL_ext _ Rkv_st _ _ _ _ _ E) in H
           end
  end.
Ltac bnc := let w := fresh "w" in let a := fresh "a" in let b := fresh "b" in let E := fresh "E" in let R := fresh "R" in
  eapply refines_bind; [|intros w a b E R; advc E].

Section Con2.
Context {NN : Num} {RT : Runtime}.

(** ** Reading *)
Lemma st_map {C D} (S : world -> C -> D -> Prop) w sm sm' (f : unit -> M C) (g : unit -> res D) :
  RL Rkv w sm sm' -> refines 0 S w (f tt) (g tt) -> refines 0 S w (bindM (check_hsubmap sm) f) (bind (check (check_submap sm') PCheck) g).
Proof. intros R H. apply refines_reads; [rewrite (Rsm_rd _ _ _ R); reflexivity|]. intros [] _. exact H. Qed.
Lemma st_sc {A C D} (S : world -> C -> D -> Prop) (q : scalar_constraint -> res A) w c d (f : A -> M C) (g : A -> res D) :
  Rsc w c d -> (forall a, refines 0 S w (f a) (g a)) -> refines 0 S w (bindM (reads (fun h => q (rd_sc h c))) f) (bind (q d) g).
Proof. intros R H. apply refines_reads; [rewrite (Rsc_rd _ _ _ R); reflexivity|]. intros a _. apply H. Qed.
Lemma st_vc {A C D} (S : world -> C -> D -> Prop) (q : vector_constraint -> res A) w c d (f : A -> M C) (g : A -> res D) :
  Rvc w c d -> (forall a, refines 0 S w (f a) (g a)) -> refines 0 S w (bindM (reads (fun h => q (rd_vc h c))) f) (bind (q d) g).
Proof. intros R H. apply refines_reads; [rewrite (Rvc_rd _ _ _ R); reflexivity|]. intros a _. apply H. Qed.
Lemma st_mc {A C D} (S : world -> C -> D -> Prop) (q : matrix_constraint -> res A) w c d (f : A -> M C) (g : A -> res D) :
  Rmc w c d -> (forall a, refines 0 S w (f a) (g a)) -> refines 0 S w (bindM (reads (fun h => q (rd_mc h c))) f) (bind (q d) g).
Proof. intros R H. apply refines_reads; [rewrite (Rmc_rd _ _ _ R); reflexivity|]. intros a _. apply H. Qed.
Lemma st_con {A C D} (S : world -> C -> D -> Prop) (q : constraint -> res A) w c d (f : A -> M C) (g : A -> res D) :
  Rc w c d -> (forall a, refines 0 S w (f a) (g a)) -> refines 0 S w (bindM (reads (fun h => q (rd_acon h c))) f) (bind (q d) g).
Proof. intros R H. apply refines_reads; [rewrite (Rc_rd _ _ _ R); reflexivity|]. intros a _. apply H. Qed.
Lemma st_s {A C D} (S : world -> C -> D -> Prop) (q : scalar -> res A) w c d (f : A -> M C) (g : A -> res D) :
  Rs w c d -> (forall a, refines 0 S w (f a) (g a)) -> refines 0 S w (bindM (reads (fun h => q (rd h c))) f) (bind (q d) g).
Proof. intros R H. apply refines_reads; [rewrite (Rs_rd _ _ _ R); reflexivity|]. intros a _. apply H. Qed.
Lemma st_v {A C D} (S : world -> C -> D -> Prop) (q : vector -> res A) w c d (f : A -> M C) (g : A -> res D) :
  Rv w c d -> (forall a, refines 0 S w (f a) (g a)) -> refines 0 S w (bindM (reads (fun h => q (rd_avec h c))) f) (bind (q d) g).
Proof. intros R H. apply refines_reads; [rewrite (Rv_rd _ _ _ R); reflexivity|]. intros a _. apply H. Qed.
Lemma st_m {A C D} (S : world -> C -> D -> Prop) (q : matrix -> res A) w c d (f : A -> M C) (g : A -> res D) :
  RM w c d -> (forall a, refines 0 S w (f a) (g a)) -> refines 0 S w (bindM (reads (fun h => q (rd_amat h c))) f) (bind (q d) g).
Proof. intros R H. apply refines_reads; [rewrite (RM_rd _ _ _ R); reflexivity|]. intros a _. apply H. Qed.

(** ** SubstituteAccordingTo *)
Lemma lookup0 w sm sm' v : RL Rkv w sm sm' -> match h_lookup sm v, lookup sm' v with Some e, Some x => Re w e x | None, None => True | _, _ => False end.
Proof.
  intro F. unfold RL in F. induction F as [|[k e] [k' x] l l' [H R] F IH]; cbn [h_lookup lookup]; [exact I|]. cbn in H, R. subst k'. destruct (var_eqb v k); [exact R | exact IH].
Qed.
Lemma var_map0 w v sm sm' : RL Rkv w sm sm' -> refines 0 Rs w (h_var_substitute_map v sm) (var_substitute_map v sm').
Proof.
  intro F. unfold h_var_substitute_map, var_substitute_map. apply refines_check_var. apply st_map; [exact F|]. pose proof (lookup0 _ _ _ v F) as L.
  destruct (h_lookup sm v) as [e|], (lookup sm' v) as [x|]; try contradiction; [|apply refines_ret; apply Rs_HV]. destruct L; [apply refines_ret; assumption | apply refines_fail | apply refines_fail].
Qed.
Lemma mono_map0 w m b sm sm' : Rm w m b -> RL Rkv w sm sm' -> refines 0 Rs w (h_mono_substitute_map m sm) (mono_substitute_map b sm').
Proof.
  intros R F. unfold h_mono_substitute_map, mono_substitute_map. apply refines_reads; [destruct R as [_ <-]; reflexivity|]. intros [] Hc.
  assert (Ck : mono_check b = true). { destruct R as [_ Rb]. rewrite Rb in Hc. unfold check in Hc. destruct (mono_check b); [reflexivity | discriminate]. }
  apply st_map; [exact F|]. apply subst_loop_refines; [exact R | exact Ck | lia|]. intros w' v E. apply var_map0. eapply (RL_ext _ Rkv_st); eassumption.
Qed.
Lemma poly_map0 w p l sm sm' : Rp w p l -> RL Rkv w sm sm' -> refines 0 Rs w (h_poly_substitute_map p sm) (poly_substitute_map l sm').
Proof.
  intros R F. unfold h_poly_substitute_map, poly_substitute_map. apply refines_check_poly; [exact R|]. apply st_map; [exact F|].
  apply loop_p; [exact R | apply Rs_HK|]. intros w2 a ab m bm E2 J2 Rm2. bnc; [apply mono_map0; [exact Rm2 | eapply (RL_ext _ Rkv_st); eassumption]|]. apply plus0; assumption.
Qed.
Lemma scalar_map0 w s a sm sm' : Rs w s a -> RL Rkv w sm sm' -> refines 0 Rs w (h_scalar_substitute_map s sm) (scalar_substitute_map a sm').
Proof.
  intros R F. destruct s as [c|x|m|p].
  - destruct R as [_ <-]. apply refines_ret. apply Rs_HK.
  - destruct R as [_ <-]. apply var_map0. exact F.
  - apply Rs_M in R. destruct R as (a' & -> & R). apply mono_map0; assumption.
  - apply Rs_P in R. destruct R as (a' & -> & R). apply poly_map0; assumption.
Qed.
Lemma as_hscalar0 w e x : Re w e x -> refines 0 Rs w (as_hscalar e) (as_scalar x).
Proof. intro R. destruct R; cbn; [apply refines_ret; assumption | apply refines_fail | apply refines_fail]. Qed.
Lemma vec_map0 w v x sm sm' : Rv w v x -> RL Rkv w sm sm' -> refines 0 Rv w (avec_substitute_map v sm) (vec_substitute_map x sm').
Proof.
  intros R F.
  assert (T : refines 0 Rv w (_ <~ check_avec v ;; _ <~ check_hsubmap sm ;; forM (fun out kv => s <~ as_hscalar (snd kv) ;; avec_substitute out (fst kv) s) sm v)
    (_ <- check (vec_check x) PCheck ;; _ <- check (check_submap sm') PCheck ;; foldM (fun out kv => s <- as_scalar (snd kv) ;; vec_substitute out (fst kv) s) x sm')).
  { apply st_check_vec; [exact R|]. apply st_map; [exact F|]. apply (forM_refines Rkv); [apply Rkv_st | exact F | exact R|]. intros w' [k e] [k' y] c d E [H Q] J. cbn [fst snd] in *. subst k'.
    bnc; [apply as_hscalar0; exact Q|]. apply vec_substitute0; assumption. }
  destruct R; cbn [avec_substitute_map vec_substitute_map]; try exact T. apply refines_ret. constructor.
Qed.
Lemma mat_map0 w v x sm sm' : RM w v x -> RL Rkv w sm sm' -> refines 0 RM w (amat_substitute_map v sm) (mat_substitute_map x sm').
Proof.
  intros R F.
  assert (T : refines 0 RM w (_ <~ check_amat v ;; _ <~ check_hsubmap sm ;; forM (fun out kv => s <~ as_hscalar (snd kv) ;; amat_substitute out (fst kv) s) sm v)
    (_ <- check (mat_check x) PCheck ;; _ <- check (check_submap sm') PCheck ;; foldM (fun out kv => s <- as_scalar (snd kv) ;; mat_substitute out (fst kv) s) x sm')).
  { apply st_check_mat; [exact R|]. apply st_map; [exact F|]. apply (forM_refines Rkv); [apply Rkv_st | exact F | exact R|]. intros w' [k e] [k' y] c d E [H Q] J. cbn [fst snd] in *. subst k'.
    bnc; [apply as_hscalar0; exact Q|]. apply mat_substitute0; assumption. }
  destruct R; cbn [amat_substitute_map mat_substitute_map]; try exact T. apply refines_ret. constructor.
Qed.
Lemma expr_map0 w e x sm sm' : Re w e x -> RL Rkv w sm sm' -> refines 0 Re w (aexpr_substitute_map e sm) (expr_substitute_map x sm').
Proof.
  intros R F. destruct R; cbn [aexpr_substitute_map expr_substitute_map]; bnc; try (apply refines_ret; constructor; eassumption); [apply scalar_map0 | apply vec_map0 | apply mat_map0]; assumption.
Qed.

(** ** Comparison *)
Lemma k_comparison0 w c g y s : Rg w g y -> refines 0 Rc w (ak_comparison c g s) (k_comparison c y s).
Proof.
  intro R. unfold ak_comparison, k_comparison. 
  replace (match as_expr y with None => Ok tt | Some b => check (expr_check b) PCheck end) with (match as_expr y with Some e => check (expr_check e) PCheck | None => Ok tt end) by (destruct (as_expr y); reflexivity).
  apply st_check_val; [exact R|].
  destruct R as [| | | | | |e a R|]; try apply refines_fail; try (apply refines_ret; constructor; constructor; first [apply Rs_HK | constructor]).
  destruct R as [b a R|v a R|m a R]; [|destruct R; try apply refines_fail|apply refines_fail]; apply refines_ret; constructor; constructor; first [apply Rs_HK | assumption | constructor].
Qed.
Lemma scalar_comparison0 w a b g y s : Rs w a b -> Rg w g y -> refines 0 Rc w (h_comparison a g s) (scalar_comparison b y s).
Proof.
  intros R Rgy.
  assert (T : forall p, refines 0 Rc w
    (_ <~ check_scalar a ;; _ <~ check_aval g ;; match g with AFloat f => ret (ACS (mkHSC a (HK f) s)) | AInt z => ret (ACS (mkHSC a (HK (nofZ z)) s)) | AExpr (AES b) => ret (ACS (mkHSC a b s)) | _ => fail p end)
    (_ <- check (scalar_check b) PCheck ;; _ <- (match as_expr y with None => Ok tt | Some b => check (expr_check b) PCheck end) ;;
     match y with GFloat f => Ok (CS (mkSC b (SK f) s)) | GInt z => Ok (CS (mkSC b (SK (nofZ z)) s)) | GExpr (ES c) => Ok (CS (mkSC b c s)) | _ => Panic p end)).
  { intro p. apply refines_check_scalar; [exact R|].
    replace (match as_expr y with None => Ok tt | Some b => check (expr_check b) PCheck end) with (match as_expr y with Some e => check (expr_check e) PCheck | None => Ok tt end) by (destruct (as_expr y); reflexivity).
    apply st_check_val; [exact Rgy|]. destruct Rgy as [| | | | | |e x Re0|]; try apply refines_fail; try (apply refines_ret; constructor; constructor; first [apply Rs_HK | exact R]).
    destruct Re0; try apply refines_fail. apply refines_ret. constructor. constructor; assumption. }
  destruct a as [c|v|m|p].
  - destruct R as [_ <-]. apply k_comparison0. exact Rgy.
  - destruct R as [F <-]. apply T.
  - destruct R as [F <-]. apply T.
  - destruct R as [F <-]. apply T.
Qed.
Lemma constant0 {C D} (S : world -> C -> D -> Prop) w (r : res (list num)) f g : (forall l, refines 0 S w (f l) (g l)) -> refines 0 S w (l <~ pure r ;; f l) (l <- r ;; g l).
Proof. apply st_pure. Qed.
Lemma Rs_num w b a : Rs w b a -> match b, a with HK k, SK k' => k = k' | HK _, _ | _, SK _ => False | _, _ => True end.
Proof. intro R. destruct b; destruct R as [_ <-]; cbn; auto. Qed.
Ltac pick := first [apply refines_fail | apply refines_ret; first [assumption | constructor; assumption | constructor] | apply st_pure; intro; apply refines_ret; constructor].
Ltac numbers Rs0 := let K := fresh "K" in pose proof (Rs_num _ _ _ Rs0) as K; match type of Rs0 with Rs _ ?b ?a => destruct b, a; try contradiction; try subst end.
Lemma vec_right0 w v x g y s : Rv w v x -> Rg w g y -> refines 0 Rv w (avec_comparison_right v g s) (vec_comparison_right x y s).
Proof.
  intros R Rgy. unfold avec_comparison_right, vec_comparison_right. apply st_vlen; [exact R|]. intro n.
  destruct R; (destruct Rgy as [| | | | | |e a Re0|]; [pick|pick|pick|pick|pick|pick| |pick]; destruct Re0 as [b a Rs0|u a Rv0|m a Rm0]; [numbers Rs0; pick | destruct Rv0; pick | pick]).
Qed.
Lemma mat_right0 w v x g y s : RM w v x -> Rg w g y -> refines 0 RM w (amat_comparison_right v g s) (mat_comparison_right x y s).
Proof.
  intros R Rgy. unfold amat_comparison_right, mat_comparison_right.
  destruct R as [l|l|l l' R|l l' R];
  (destruct Rgy as [| | | | | |e a Re0|]; [pick||idtac|pick||idtac|pick|pick|pick||idtac|pick||idtac| |pick||idtac]; try (apply st_mdims; [constructor; assumption || constructor|]; intro; pick);
   destruct Re0 as [b a Rs0|u a Rv0|m a Rm0]; [numbers Rs0; first [pick | apply st_mdims; [constructor; assumption || constructor|]; intro; pick] | pick | destruct Rm0; pick]).
Qed.
Lemma comparison_check0 {C D} (S : world -> C -> D -> Prop) w e x g y s (f : unit -> M C) (k : unit -> res D) : Re w e x -> Rg w g y ->
  refines 0 S w (f tt) (k tt) -> refines 0 S w (bindM (a_comparison_check e g s) f) (bind (comparison_check x y s) k).
Proof. intros R R' H. apply refines_reads; [rewrite (Re_rd _ _ _ R), (Rg_rd _ _ _ R'); reflexivity|]. intros [] _. exact H. Qed.
Lemma comparison0 w e x g y s : Re w e x -> Rg w g y -> refines 0 Rc w (aexpr_comparison e g s) (expr_comparison x y s).
Proof.
  intros R Rgy. pose proof R as R0. destruct R as [a b R|v x R|m x R]; cbn [aexpr_comparison expr_comparison].
  - apply scalar_comparison0; assumption.
  - unfold avec_comparison, vec_comparison. apply st_check_vec; [exact R|]. apply comparison_check0; [exact R0 | exact Rgy|]. bnc; [apply vec_right0; assumption|]. apply refines_ret. constructor. constructor; assumption.
  - unfold amat_comparison, mat_comparison. apply st_check_mat; [exact R|]. apply comparison_check0; [exact R0 | exact Rgy|]. bnc; [apply mat_right0; assumption|]. apply refines_ret. constructor. constructor; assumption.
Qed.

(** ** Scalar constraints *)
Lemma h_minus0 w s a r b : Rs w s a -> Rs w r b -> refines 0 Rs w (h_minus s r) (scalar_minus a b).
Proof.
  intros R R1. unfold h_minus, scalar_minus. apply refines_check_scalar; [exact R|]. apply refines_check_scalar; [exact R1|]. bnc; [apply mul_float0; exact R1|]. apply plus0; assumption.
Qed.
Lemma sc_simplify0 w c d : Rsc w c d -> refines 0 Rsc w (h_sc_simplify c) (sc_simplify d).
Proof.
  intros [l l' r r' s R1 R2]. unfold h_sc_simplify, sc_simplify. cbn [hs_right sc_right hs_left sc_left hs_sense sc_sense].
  assert (T : refines 0 Rsc w
    (d <~ h_minus l r ;; k <~ reads (fun h => scalar_constant (rd h r)) ;; lhs <~ h_plus_float d k ;; k' <~ reads (fun h => scalar_constant (rd h r)) ;; ret (mkHSC lhs (HK k') s))
    (d <- scalar_minus l' r' ;; k <- scalar_constant r' ;; lhs <- scalar_plus_float d k ;; k' <- scalar_constant r' ;; Ok (mkSC lhs (SK k') s))).
  { bnc; [apply h_minus0; assumption|]. apply st_s; [assumption|]. intro k. bnc; [apply plus_float0; assumption|]. apply st_s; [assumption|]. intro k'. apply refines_ret. constructor; [assumption | apply Rs_HK]. }
  destruct r; destruct R2 as [F <-]; try exact T. apply refines_ret. constructor; [exact R1 | apply Rs_HK].
Qed.
Lemma sc_inequality0 w c d wrt : Rsc w c d -> refines 0 Req w (h_sc_linear_inequality c wrt) (sc_linear_inequality d wrt).
Proof.
  intro R. unfold h_sc_linear_inequality, sc_linear_inequality, h_sc_check, h_sc_require_linear. apply (st_sc _ (fun c => check (sc_check c) PCheck)); [exact R|]. intros _. apply (st_sc _ sc_require_linear); [exact R|]. intros _.
  pose proof R as R'. destruct R' as [l l' r r' s R1 R2]. cbn [hs_left hs_right hs_sense sc_left sc_right sc_sense].
  bnc; [apply h_minus0; assumption|]. apply (st_s _ (fun x => scalar_linear_coeff x wrt)); [assumption|]. intro A. apply (st_sc _ sc_rhs); [assumption|]. intro k. apply refines_ret. reflexivity.
Qed.
Lemma sc_equality0 w c d wrt : Rsc w c d -> refines 0 Req w (h_sc_linear_equality c wrt) (sc_linear_equality d wrt).
Proof.
  intro R. unfold h_sc_linear_equality, sc_linear_equality, h_sc_check, h_sc_require_linear. apply (st_sc _ (fun c => check (sc_check c) PCheck)); [exact R|]. intros _. apply (st_sc _ sc_require_linear); [exact R|]. intros _.
  pose proof R as R'. destruct R' as [l l' r r' s R1 R2]. cbn [hs_left hs_right hs_sense sc_left sc_right sc_sense]. apply st_pure. intros _.
  bnc; [apply h_minus0; assumption|]. apply (st_s _ (fun x => scalar_linear_coeff x wrt)); [assumption|]. intro A. apply (st_sc _ sc_rhs); [assumption|]. intro k. apply refines_ret. reflexivity.
Qed.
Lemma sc_substitute0 w c d v e x : Rsc w c d -> Rs w e x -> refines 0 Rsc w (h_sc_substitute c v e) (sc_substitute d v x).
Proof.
  intros R Q. unfold h_sc_substitute, sc_substitute, h_sc_check. apply (st_sc _ (fun c => check (sc_check c) PCheck)); [exact R|]. intros _.
  destruct R as [l l' r r' s R1 R2]. cbn [hs_left hs_right hs_sense sc_left sc_right sc_sense].
  bnc; [apply substitute0; assumption|]. bnc; [apply substitute0; assumption|]. apply refines_ret. constructor; assumption.
Qed.
Lemma sc_map0 w c d sm sm' : Rsc w c d -> RL Rkv w sm sm' -> refines 0 Rsc w (h_sc_substitute_map c sm) (sc_substitute_map d sm').
Proof.
  intros R Q. unfold h_sc_substitute_map, sc_substitute_map, h_sc_check. apply (st_sc _ (fun c => check (sc_check c) PCheck)); [exact R|]. intros _.
  destruct R as [l l' r r' s R1 R2]. cbn [hs_left hs_right hs_sense sc_left sc_right sc_sense].
  bnc; [apply scalar_map0; eassumption|]. bnc; [apply scalar_map0; eassumption|]. apply refines_ret. constructor; assumption.
Qed.
Lemma sc_scale0 w c d f : Rsc w c d -> refines 0 Rsc w (h_sc_scale_by c f) (sc_scale_by d f).
Proof.
  intros R. unfold h_sc_scale_by, sc_scale_by, h_sc_check. apply (st_sc _ (fun c => check (sc_check c) PCheck)); [exact R|]. intros _.
  destruct R as [l l' r r' s R1 R2]. cbn [hs_left hs_right hs_sense sc_left sc_right sc_sense].
  bnc; [apply mul_float0; eassumption|]. bnc; [apply mul_float0; eassumption|]. apply refines_ret. constructor; assumption.
Qed.
Lemma Rsc_parts w c d : Rsc w c d -> Rs w (hs_left c) (sc_left d) /\ Rs w (hs_right c) (sc_right d) /\ hs_sense c = sc_sense d.
Proof. intros []. cbn. auto. Qed.
Lemma sc_implies0 w o c d c' d' : Rsc w c d -> Rsc w c' d' -> refines 0 Req w (h_sc_implies o c c') (sc_implies o d d').
Proof.
  intros R R'. unfold h_sc_implies, sc_implies, h_sc_check. apply (st_sc _ (fun c => check (sc_check c) PCheck)); [exact R|]. intros _.
  apply (st_sc _ (fun c => check (sc_check c) PCheck)); [exact R'|]. intros _. bnc; [apply sc_simplify0; exact R|]. bnc; [apply sc_simplify0; exact R'|].
  clear dependent w. clear E0 w0. apply (st_sc _ (sc_variables (o 0%nat))); [assumption|]. intro v1.
  eapply (refines_bind 0 Req).
  { destruct (Nat.eqb (length v1) 1); [|apply refines_ret; reflexivity]. apply (st_sc _ (sc_variables (o 1%nat))); [assumption|]. intro v2. apply refines_ret. reflexivity. }
  intros w2 one one' E2 Q. unfold Req in Q. subst one'. advc E2.
  apply (st_sc _ (sc_variables (o 2%nat))); [assumption|]. intro u1. apply (st_sc _ (sc_variables (o 3%nat))); [assumption|]. intro u2.
  destruct (one && _); [|apply refines_ret; reflexivity].
  apply (st_sc _ (sc_variables (o 4%nat))); [assumption|]. intro w1'. apply (st_s _ (fun x => scalar_linear_coeff x [w1'])); [apply Rsc_parts; assumption|]. intro a1. apply st_pure. intro x1.
  apply (st_sc _ (sc_variables (o 5%nat))); [assumption|]. intro w2'. apply (st_s _ (fun x => scalar_linear_coeff x [w2'])); [apply Rsc_parts; assumption|]. intro a2. apply st_pure. intro x2.
  bnc; [apply sc_scale0; eassumption|]. bnc; [apply sc_scale0; eassumption|].
  match goal with |- refines 0 Req ?w4 (if sense_eqb (hs_sense ?x) (hs_sense ?y) || _ || _ then _ else _) (if sense_eqb (sc_sense ?x') (sc_sense ?y') || _ || _ then _ else _) =>
    assert (P1 : Rsc w4 x x') by assumption; assert (P2 : Rsc w4 y y') by assumption end.
  apply Rsc_parts in P1. apply Rsc_parts in P2. destruct P1 as (_ & A1 & ->), P2 as (_ & A2 & ->).
  destruct (_ || _); [|apply refines_ret; reflexivity]. apply (st_s _ scalar_constant); [assumption|]. intro k1. apply (st_s _ scalar_constant); [assumption|]. intro k2. apply refines_rr. apply rr_refl.
Qed.
Lemma sc_nonneg0 w o c d : Rsc w c d -> refines 0 Req w (h_sc_is_nonnegativity o c) (sc_is_nonnegativity o d).
Proof.
  intros R. unfold h_sc_is_nonnegativity, sc_is_nonnegativity, h_sc_check. apply (st_sc _ (fun c => check (sc_check c) PCheck)); [exact R|]. intros _. bnc; [apply sc_simplify0; exact R|].
  apply (st_sc _ (sc_variables (o 0%nat))); [assumption|]. intro v1. destruct (negb _); [apply refines_ret; reflexivity|]. match goal with H : Rsc w0 a b |- _ => apply Rsc_parts in H; destruct H as (A1 & A2 & ->) end.
  apply (st_s _ scalar_degree); [assumption|]. intro z. destruct (negb _); [apply refines_ret; reflexivity|].
  destruct (hs_right a); destruct A2 as [F A2]; rewrite <- A2; cbn [rd]; try apply refines_fail. destruct (negb _); [apply refines_ret; reflexivity|].
  apply (st_s _ (fun x => scalar_linear_coeff x [])); [assumption|]. intro q. apply st_pure. intro x. apply refines_ret. reflexivity.
Qed.

(** ** Vector constraints *)
Lemma vc_len0 {C D} (S : world -> C -> D -> Prop) w c d (f : nat -> M C) (g : nat -> res D) :
  Rvc w c d -> (forall n, refines 0 S w (f n) (g n)) -> refines 0 S w (bindM (h_vc_len c) f) (bind (vc_len d) g).
Proof.
  intros R H. eapply refines_bind with (R := fun w' a b => w' = w /\ a = b).
  2:{ intros w' a b _ [-> ->]. apply H. }
  unfold h_vc_len, vc_len. intro G. unfold h_vc_check, bindM, reads, avec_len. rewrite (Rvc_rd _ _ _ R). destruct (vc_check d); cbn [bind].
  - exists w. split; [apply ext_refl|]. split; [exact G|]. destruct R as [l l' r r' s R1 R2]. cbn. rewrite (Rv_rd _ _ _ R1). split; [reflexivity|]. destruct (vec_len l'); auto.
  - exists w. split; [apply ext_refl|]. split; [exact G|]. split; reflexivity.
Qed.
Lemma vc_at0 w c d i : Rvc w c d -> refines 0 Rsc w (h_vc_at_vec c i) (vc_at_vec d i).
Proof.
  intro R. unfold h_vc_at_vec, vc_at_vec, h_vc_check. apply (st_vc _ vc_check); [exact R|]. intros _. apply vc_len0; [exact R|]. intro n. apply st_pure. intros _.
  destruct R as [l l' r r' s R1 R2]. cbn [hv_left hv_right hv_sense vc_left vc_right vc_sense]. bnc; [apply at_vec0; eassumption|]. bnc; [apply at_vec0; eassumption|]. apply refines_ret. constructor; assumption.
Qed.
Lemma as_avec0 w e x : Re w e x -> refines 0 Rv w (as_avec e) (as_vector x).
Proof. intro R. destruct R; cbn; [apply refines_fail | apply refines_ret; assumption | apply refines_fail]. Qed.
Lemma vec_without0 w v x : Rv w v x -> refines 0 Re w (avec_without_constant v) (vec_without_constant x).
Proof. intro R. unfold avec_without_constant, vec_without_constant. apply (st_v _ vec_constant); [exact R|]. intro k. apply expr_minus0; constructor; assumption. Qed.
Lemma vc_moved0 w c d : Rvc w c d -> refines 0 Rv w (h_vc_moved c) (vc_moved d).
Proof.
  intros [l l' r r' s R1 R2]. unfold h_vc_moved, vc_moved. cbn [hv_left hv_right vc_left vc_right]. bnc; [apply vec_without0; eassumption|]. bnc; [apply as_avec0; eassumption|].
  bnc; [apply expr_minus0; constructor; [eassumption | constructor; eassumption]|]. apply as_avec0. assumption.
Qed.
Lemma vc_inequality0 w c d wrt : Rvc w c d -> refines 0 Req w (h_vc_linear_inequality c wrt) (vc_linear_inequality d wrt).
Proof.
  intro R. unfold h_vc_linear_inequality, vc_linear_inequality, h_vc_check, h_vc_require_linear. apply (st_vc _ vc_check); [exact R|]. intros _. apply (st_vc _ vc_require_linear); [exact R|]. intros _.
  assert (S : hv_sense c = vc_sense d) by (destruct R; reflexivity). rewrite S. apply st_pure. intros _. bnc; [apply vc_moved0; exact R|].
  apply (st_v _ (fun x => vec_linear_coeff x wrt)); [assumption|]. intro A. apply (st_vc _ vc_constants); [assumption|]. intro k. apply refines_ret. reflexivity.
Qed.
Lemma vc_equality0 w c d wrt : Rvc w c d -> refines 0 Req w (h_vc_linear_equality c wrt) (vc_linear_equality d wrt).
Proof.
  intro R. unfold h_vc_linear_equality, vc_linear_equality, h_vc_check, h_vc_require_linear. apply (st_vc _ vc_check); [exact R|]. intros _. apply (st_vc _ vc_require_linear); [exact R|]. intros _.
  assert (S : hv_sense c = vc_sense d) by (destruct R; reflexivity). rewrite S. apply st_pure. intros _. bnc; [apply vc_moved0; exact R|].
  apply (st_v _ (fun x => vec_linear_coeff x wrt)); [assumption|]. intro A. apply (st_vc _ vc_constants); [assumption|]. intro k. apply refines_ret. reflexivity.
Qed.
Lemma vc_substitute0 w c d v e x : Rvc w c d -> Rs w e x -> refines 0 Rvc w (h_vc_substitute c v e) (vc_substitute d v x).
Proof.
  intros R Q. unfold h_vc_substitute, vc_substitute, h_vc_check. apply (st_vc _ vc_check); [exact R|]. intros _.
  destruct R as [l l' r r' s R1 R2]. cbn [hv_left hv_right hv_sense vc_left vc_right vc_sense].
  bnc; [apply vec_substitute0; eassumption|]. bnc; [apply vec_substitute0; eassumption|]. apply refines_ret. constructor; assumption.
Qed.
Lemma vc_map0 w c d sm1 sm1' sm2 sm2' : Rvc w c d -> RL Rkv w sm1 sm1' -> RL Rkv w sm2 sm2' -> refines 0 Rvc w (h_vc_substitute_map c sm1 sm2) (vc_substitute_map d sm1' sm2').
Proof.
  intros R Q1 Q2. unfold h_vc_substitute_map, vc_substitute_map, h_vc_check. apply (st_vc _ vc_check); [exact R|]. intros _.
  destruct R as [l l' r r' s R1 R2]. cbn [hv_left hv_right hv_sense vc_left vc_right vc_sense].
  bnc; [apply vec_map0; eassumption|]. bnc; [apply vec_map0; eassumption|]. apply refines_ret. constructor; assumption.
Qed.
Lemma vc_simplified0 w c d : Rvc w c d -> refines 0 Rvc w (h_vc_simplified c) (vc_simplified d).
Proof.
  intros R. unfold h_vc_simplified, vc_simplified, h_vc_check. apply (st_vc _ vc_check); [exact R|]. intros _.
  destruct R as [l l' r r' s R1 R2]. cbn [hv_left hv_right hv_sense vc_left vc_right vc_sense].
  bnc; [apply vec_without0; eassumption|]. bnc; [apply vec_without0; eassumption|]. bnc; [apply expr_minus0; [eassumption | constructor; eassumption]|].
  apply (st_v _ vec_constant); [assumption|]. intro rk. apply (st_v _ vec_constant); [assumption|]. intro lk. bnc; [apply expr_minus0; repeat constructor|].
  bnc; [apply as_avec0; eassumption|]. bnc; [apply as_avec0; eassumption|]. apply refines_ret. constructor; assumption.
Qed.

(** ** Matrix constraints *)
Lemma mc_dims0 {C D} (S : world -> C -> D -> Prop) w c d (f : nat * nat -> M C) (g : nat * nat -> res D) :
  Rmc w c d -> (forall n, refines 0 S w (f n) (g n)) -> refines 0 S w (bindM (h_mc_dims c) f) (bind (mc_dims d) g).
Proof.
  intros R H. eapply refines_bind with (R := fun w' a b => w' = w /\ a = b).
  2:{ intros w' a b _ [-> ->]. apply H. }
  unfold h_mc_dims, mc_dims. intro G. unfold h_mc_check, bindM, reads, amat_dims. rewrite (Rmc_rd _ _ _ R). destruct (mc_check d); cbn [bind].
  - exists w. split; [apply ext_refl|]. split; [exact G|]. destruct R as [l l' r r' s R1 R2]. cbn -[mat_dims rd_amat]. rewrite (RM_rd _ _ _ R1). split; [reflexivity|]. destruct (mat_dims l'); auto.
  - exists w. split; [apply ext_refl|]. split; [exact G|]. split; reflexivity.
Qed.
Lemma mc_at0 w c d i j : Rmc w c d -> refines 0 Rsc w (h_mc_at c i j) (mc_at d i j).
Proof.
  intro R. unfold h_mc_at, mc_at, h_mc_check. apply (st_mc _ mc_check); [exact R|]. intros _. apply mc_dims0; [exact R|]. intro n. apply st_pure. intros _.
  destruct R as [l l' r r' s R1 R2]. cbn [hm_left hm_right hm_sense mc_left mc_right mc_sense]. bnc; [apply mat_at0; eassumption|]. bnc; [apply mat_at0; eassumption|]. apply refines_ret. constructor; assumption.
Qed.
Lemma mat_without0 w v x : RM w v x -> refines 0 Re w (amat_without_constant v) (mat_without_constant x).
Proof. intro R. unfold amat_without_constant, mat_without_constant. apply (st_m _ mat_constant); [exact R|]. intro k. apply expr_minus0; constructor; assumption. Qed.
Lemma mc_substitute0 w c d v e x : Rmc w c d -> Rs w e x -> refines 0 Rmc w (h_mc_substitute c v e) (mc_substitute d v x).
Proof.
  intros R Q. unfold h_mc_substitute, mc_substitute, h_mc_check. apply (st_mc _ mc_check); [exact R|]. intros _.
  destruct R as [l l' r r' s R1 R2]. cbn [hm_left hm_right hm_sense mc_left mc_right mc_sense].
  bnc; [apply mat_substitute0; eassumption|]. bnc; [apply mat_substitute0; eassumption|]. apply refines_ret. constructor; assumption.
Qed.
Lemma mc_map0 w c d sm1 sm1' sm2 sm2' : Rmc w c d -> RL Rkv w sm1 sm1' -> RL Rkv w sm2 sm2' -> refines 0 Rmc w (h_mc_substitute_map c sm1 sm2) (mc_substitute_map d sm1' sm2').
Proof.
  intros R Q1 Q2. unfold h_mc_substitute_map, mc_substitute_map, h_mc_check. apply (st_mc _ mc_check); [exact R|]. intros _.
  destruct R as [l l' r r' s R1 R2]. cbn [hm_left hm_right hm_sense mc_left mc_right mc_sense].
  bnc; [apply mat_map0; eassumption|]. bnc; [apply mat_map0; eassumption|]. apply refines_ret. constructor; assumption.
Qed.
Lemma mc_simplified0 w c d : Rmc w c d -> refines 0 Rmc w (h_mc_simplified c) (mc_simplified d).
Proof.
  intros R. unfold h_mc_simplified, mc_simplified.
  destruct R as [l l' r r' s R1 R2]. cbn [hm_left hm_right hm_sense mc_left mc_right mc_sense].
  bnc; [apply mat_without0; eassumption|]. bnc; [apply mat_without0; eassumption|]. bnc; [apply expr_minus0; [eassumption | constructor; eassumption]|].
  apply (st_m _ mat_constant); [assumption|]. intro rk. apply (st_m _ mat_constant); [assumption|]. intro lk. bnc; [apply expr_minus0; repeat constructor|].
  bnc; [apply as_amat0; eassumption|]. bnc; [apply as_amat0; eassumption|]. apply refines_ret. constructor; assumption.
Qed.

(** ** The interface *)
Lemma overc {C D} (R : world -> C -> D -> Prop) f g w (l : list nat) : stable R -> (forall w' i, ext 0 w w' -> refines 0 R w' (f i) (g i)) -> refines 0 (RL R) w (mapH f l) (mapM g l).
Proof. apply over. Qed.
Lemma scalars0 w c d : Rc w c d -> refines 0 (RL Rsc) w (acon_scalars c) (con_scalars d).
Proof.
  intros [c0 d0 R|c0 d0 R|c0 d0 R]; cbn [acon_scalars con_scalars].
  - apply refines_ret. constructor; [exact R | constructor].
  - apply vc_len0; [exact R|]. intro n. apply over; [apply Rsc_st|]. intros w' i E. apply vc_at0. eapply Rvc_st; eassumption.
  - apply mc_dims0; [exact R|]. intro n. eapply (refines_bind 0 (RL (RL Rsc))).
    + apply over; [apply RL_ext; apply Rsc_st|]. intros w' i E. apply over; [apply Rsc_st|]. intros w2 j E2. apply mc_at0. eapply Rmc_st; [exact E2|]. eapply Rmc_st; eassumption.
    + intros w' a b E Q. apply refines_ret. apply RL_concat. exact Q.
Qed.
Lemma compile0 w l l' : RL Rc w l l' -> refines 0 (RL Rsc) w (a_compile_constraints l) (compile_constraints l').
Proof.
  intro F. unfold a_compile_constraints, compile_constraints. eapply (refines_bind 0 (RL (RL Rsc))).
  - apply (mapH_refines Rc); [apply Rc_st | apply RL_ext; apply Rsc_st | exact F|]. intros w' a b E R. apply scalars0. exact R.
  - intros w' a b E Q. apply refines_ret. apply RL_concat. exact Q.
Qed.
Lemma con_simplified0 w c d : Rc w c d -> refines 0 Rc w (acon_simplified c) (con_simplified d).
Proof.
  intros [c0 d0 R|c0 d0 R|c0 d0 R]; cbn [acon_simplified con_simplified]; bnc; try (apply refines_ret; constructor; eassumption); [apply sc_simplify0 | apply vc_simplified0 | apply mc_simplified0]; exact R.
Qed.
Lemma con_substitute0 w c d v e x : Rc w c d -> Rs w e x -> refines 0 Rc w (acon_substitute c v e) (con_substitute d v x).
Proof.
  intros [c0 d0 R|c0 d0 R|c0 d0 R] Q; cbn [acon_substitute con_substitute]; bnc; try (apply refines_ret; constructor; eassumption); [apply sc_substitute0 | apply vc_substitute0 | apply mc_substitute0]; assumption.
Qed.
Lemma con_map0 w c d sm1 sm1' sm2 sm2' : Rc w c d -> RL Rkv w sm1 sm1' -> RL Rkv w sm2 sm2' -> refines 0 Rc w (acon_substitute_map c sm1 sm2) (con_substitute_map d sm1' sm2').
Proof.
  intros [c0 d0 R|c0 d0 R|c0 d0 R] Q1 Q2; cbn [acon_substitute_map con_substitute_map]; bnc; try (apply refines_ret; constructor; eassumption); [apply sc_map0 | apply vc_map0 | apply mc_map0]; assumption.
Qed.
Lemma any0 w (f : nat -> M bool) g (l : list nat) : (forall w' i, ext 0 w w' -> refines 0 Req w' (f i) (g i)) -> refines 0 Req w (any_ofH f l) (any_of g l).
Proof.
  revert w. induction l as [|i l IH]; intros w H; cbn [any_ofH any_of]; [apply refines_ret; reflexivity|]. eapply (refines_bind 0 Req); [apply H; apply ext_refl|].
  intros w' a b E Q. unfold Req in Q. subst b. destruct a; [apply refines_ret; reflexivity|]. apply IH. intros w2 j E2. apply H. eapply ext_trans; eassumption.
Qed.
Lemma con_implies0 w o c d c' d' : Rc w c d -> Rc w c' d' -> refines 0 Req w (acon_implies o c c') (con_implies o d d').
Proof.
  intros R R'. unfold acon_implies, con_implies, acon_check. apply (st_con _ con_check); [exact R|]. intros _. apply (st_con _ con_check); [exact R'|]. intros _.
  destruct R as [c0 d0 R|c0 d0 R|c0 d0 R], R' as [c1 d1 R'|c1 d1 R'|c1 d1 R']; try (apply refines_ret; reflexivity).
  - apply sc_implies0; assumption.
  - bnc; [apply sc_simplify0; exact R|]. apply refines_ret. reflexivity.
  - bnc; [apply sc_simplify0; exact R|]. apply refines_ret. reflexivity.
  - apply vc_len0; [exact R|]. intro n. apply any0. intros w' i E. advc E. bnc; [apply vc_at0; eassumption|]. apply sc_implies0; assumption.
  - apply mc_dims0; [exact R|]. intro n. apply any0. intros w' i E. advc E. apply any0. intros w2 j E2. advc E2. bnc; [apply mc_at0; eassumption|]. apply sc_implies0; assumption.
Qed.

End Con2.
