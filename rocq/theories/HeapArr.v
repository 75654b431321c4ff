(** * The vector and matrix methods in memory refine the pure model *)

From Coq Require Import ZArith NArith Bool List Lia.
From Verif Require Import Num Syntax ModelScalar ModelShape ModelArith ModelHeap ModelHeapArr HeapMem HeapRef HeapOps HeapOps2.
Import ListNotations.
Local Open Scope num_scope.

Section Relations.
Context {NN : Num} {RT : Runtime}.

Definition stable {A B} (P : world -> A -> B -> Prop) : Prop := forall n w w' a b, ext n w w' -> P w a b -> P w' a b.
Definition Req {A} (_ : world) (a b : A) : Prop := a = b.
Definition RL {A B} (P : world -> A -> B -> Prop) (w : world) : list A -> list B -> Prop := Forall2 (P w).
Lemma RL_ext {A B} (P : world -> A -> B -> Prop) : stable P -> stable (RL P).
Proof. intros H n w w' l l' E F. unfold RL in *. induction F as [|a b l l' Hab _ IH]; constructor; [eapply H; eassumption | exact IH]. Qed.
Lemma Req_ext {A} : stable (@Req A).
Proof. intros n w w' a b _ H. exact H. Qed.
Lemma Rm_st : stable Rm. Proof. intros n w w' a b. apply Rm_ext. Qed.
Lemma Rp_st : stable Rp. Proof. intros n w w' a b. apply Rp_ext. Qed.
Lemma Rs_st : stable Rs. Proof. intros n w w' a b. apply Rs_ext. Qed.

Inductive Rv (w : world) : avec -> vector -> Prop :=
| Rv_K l : Rv w (AVK l) (VK l)
| Rv_V l : Rv w (AVV l) (VV l)
| Rv_M l l' : RL Rm w l l' -> Rv w (AVM l) (VM l')
| Rv_P l l' : RL Rp w l l' -> Rv w (AVP l) (VP l').
Inductive RM (w : world) : amat -> matrix -> Prop :=
| RM_K l : RM w (AMK l) (MK l)
| RM_V l : RM w (AMV l) (MV l)
| RM_M l l' : RL (RL Rm) w l l' -> RM w (AMM l) (MM l')
| RM_P l l' : RL (RL Rp) w l l' -> RM w (AMP l) (MP l').
Inductive Re (w : world) : aexpr -> expr -> Prop :=
| Re_S s a : Rs w s a -> Re w (AES s) (ES a)
| Re_V v a : Rv w v a -> Re w (AEV v) (EV a)
| Re_M m a : RM w m a -> Re w (AEM m) (EM a).
Inductive Rg (w : world) : aval -> goval -> Prop :=
| Rg_F f : Rg w (AFloat f) (GFloat f) | Rg_I z : Rg w (AInt z) (GInt z)
| Rg_v l : Rg w (AVecDense l) (GVec l) | Rg_vp l : Rg w (AVecDenseP l) (GVecP l)
| Rg_d l : Rg w (ADense l) (GDense l) | Rg_dp l : Rg w (ADenseP l) (GDenseP l)
| Rg_E e a : Re w e a -> Rg w (AExpr e) (GExpr a) | Rg_O : Rg w AOther GOther.

Lemma Rv_ext : stable Rv.
Proof. intros n w w' v x E R. destruct R; constructor; try (eapply RL_ext; [|exact E|eassumption]); first [apply Rm_st | apply Rp_st]. Qed.
Lemma RM_ext : stable RM.
Proof. intros n w w' v x E R. destruct R; constructor; try (eapply RL_ext; [|exact E|eassumption]); apply RL_ext; first [apply Rm_st | apply Rp_st]. Qed.
Lemma Re_ext : stable Re.
Proof. intros n w w' v x E R. destruct R; constructor; [eapply Rs_ext | eapply Rv_ext | eapply RM_ext]; eassumption. Qed.
Lemma Rg_ext : stable Rg.
Proof. intros n w w' v x E R. destruct R; constructor. eapply Re_ext; eassumption. Qed.

Lemma RL_m w l l' : RL Rm w l l' -> map (rd_mono (wh w)) l = l'.
Proof. intro F. unfold RL in F. induction F as [|a b l l' [_ <-] _ IH]; cbn [map]; [reflexivity|]. rewrite IH. reflexivity. Qed.
Lemma RL_p w l l' : RL Rp w l l' -> map (rd_poly (wh w)) l = l'.
Proof. intro F. unfold RL in F. induction F as [|a b l l' [_ <-] _ IH]; cbn [map]; [reflexivity|]. rewrite IH. reflexivity. Qed.
Lemma RLL_m w l l' : RL (RL Rm) w l l' -> map (map (rd_mono (wh w))) l = l'.
Proof. intro F. unfold RL in F at 1. induction F as [|a b l l' H _ IH]; cbn [map]; [reflexivity|]. rewrite IH, (RL_m _ _ _ H). reflexivity. Qed.
Lemma RLL_p w l l' : RL (RL Rp) w l l' -> map (map (rd_poly (wh w))) l = l'.
Proof. intro F. unfold RL in F at 1. induction F as [|a b l l' H _ IH]; cbn [map]; [reflexivity|]. rewrite IH, (RL_p _ _ _ H). reflexivity. Qed.
Lemma Rv_rd w v x : Rv w v x -> rd_avec (wh w) v = x.
Proof. intro R. destruct R as [l|l|l l' H|l l' H]; cbn [rd_avec]; [reflexivity | reflexivity | rewrite (RL_m _ _ _ H); reflexivity | rewrite (RL_p _ _ _ H); reflexivity]. Qed.
Lemma RM_rd w v x : RM w v x -> rd_amat (wh w) v = x.
Proof. intro R. destruct R as [l|l|l l' H|l l' H]; cbn [rd_amat]; [reflexivity | reflexivity | rewrite (RLL_m _ _ _ H); reflexivity | rewrite (RLL_p _ _ _ H); reflexivity]. Qed.
Lemma Rs_rd w v x : Rs w v x -> rd (wh w) v = x.
Proof. intros [_ H]. exact H. Qed.
Lemma Re_rd w v x : Re w v x -> rd_aexpr (wh w) v = x.
Proof. intro R. destruct R as [s a H|v a H|m a H]; cbn [rd_aexpr]; [rewrite (Rs_rd _ _ _ H) | rewrite (Rv_rd _ _ _ H) | rewrite (RM_rd _ _ _ H)]; reflexivity. Qed.
Lemma Rg_rd w v x : Rg w v x -> rd_aval (wh w) v = x.
Proof. intro R. destruct R; cbn [rd_aval]; try reflexivity. rewrite (Re_rd _ _ _ H). reflexivity. Qed.

Lemma RL_map {A B C D} (P : world -> A -> B -> Prop) (Q : world -> C -> D -> Prop) f g w : (forall a b, P w a b -> Q w (f a) (g b)) ->
  forall l l', RL P w l l' -> RL Q w (map f l) (map g l').
Proof. intros H l l' F. unfold RL in *. induction F as [|a b l l' Hab _ IH]; cbn [map]; constructor; [apply H; exact Hab | exact IH]. Qed.
Lemma RL_refl {A} w (l : list A) : RL Req w l l.
Proof. induction l; constructor; [reflexivity | assumption]. Qed.
Lemma RL_len {A B} (P : world -> A -> B -> Prop) w l l' : RL P w l l' -> length l = length l'.
Proof. intro F. unfold RL in F. induction F; cbn; congruence. Qed.

Lemma Rv_entries w v x : Rv w v x -> RL Rs w (av_entries v) (vec_entries x).
Proof.
  intro R. destruct R as [l|l|l l' H|l l' H]; cbn [av_entries vec_entries].
  - apply (RL_map Req); [intros a b ->; apply Rs_HK | apply RL_refl].
  - apply (RL_map Req); [intros a b ->; apply Rs_HV | apply RL_refl].
  - apply (RL_map Rm); [intros a b; apply Rs_HM | exact H].
  - apply (RL_map Rp); [intros a b; apply Rs_HP | exact H].
Qed.
Lemma RM_rows w v x : RM w v x -> RL (RL Rs) w (am_rows v) (mat_rows x).
Proof.
  intro R. destruct R as [l|l|l l' H|l l' H]; cbn [am_rows mat_rows].
  - apply (RL_map Req); [intros a b ->; apply (RL_map Req); [intros c d ->; apply Rs_HK | apply RL_refl] | apply RL_refl].
  - apply (RL_map Req); [intros a b ->; apply (RL_map Req); [intros c d ->; apply Rs_HV | apply RL_refl] | apply RL_refl].
  - apply (RL_map (RL Rm)); [intros a b; apply RL_map; intros c d; apply Rs_HM | exact H].
  - apply (RL_map (RL Rp)); [intros a b; apply RL_map; intros c d; apply Rs_HP | exact H].
Qed.

(** ** Rules *)
Lemma mapH_refines {A B C D} (P : world -> A -> B -> Prop) (R : world -> C -> D -> Prop) (f : A -> M C) (g : B -> res D) l l' w :
  stable P -> stable R -> RL P w l l' -> (forall w' a b, ext 0 w w' -> P w' a b -> refines 0 R w' (f a) (g b)) -> refines 0 (RL R) w (mapH f l) (mapM g l').
Proof.
  intros SP SR F. unfold RL in F. revert w F. enough (K : forall l l' w, Forall2 (P w) l l' -> (forall w' a b, ext 0 w w' -> P w' a b -> refines 0 R w' (f a) (g b)) -> refines 0 (RL R) w (mapH f l) (mapM g l')) by (intros w F; apply K; exact F).
  clear l l'. induction l as [|a l IH]; intros l' w F H; inversion F as [|? b ? k Hab Fk]; subst; cbn [mapH mapM].
  - apply refines_ret. constructor.
  - eapply refines_bind; [apply H; [apply ext_refl | exact Hab]|]. intros w1 c d E1 R1.
    eapply refines_bind; [apply IH|].
    + eapply (RL_ext P SP); eassumption.
    + intros w2 x y E2 Q. apply H; [eapply ext_trans; eassumption | exact Q].
    + intros w2 cs ds E2 R2. apply refines_ret. constructor; [eapply SR; eassumption | exact R2].
Qed.
Lemma forM_refines {A B C D} (P : world -> A -> B -> Prop) (R : world -> C -> D -> Prop) (f : C -> A -> M C) (g : D -> B -> res D) l l' w acc accp :
  stable P -> RL P w l l' -> R w acc accp -> (forall w' a b c d, ext 0 w w' -> P w' a b -> R w' c d -> refines 0 R w' (f c a) (g d b)) ->
  refines 0 R w (forM f l acc) (foldM g accp l').
Proof.
  intros SP F. unfold RL in F. revert l' w acc accp F. induction l as [|a l IH]; intros l' w acc accp F J H; inversion F as [|? b ? k Hab Fk]; subst; cbn [forM foldM].
  - apply refines_ret. exact J.
  - eapply refines_bind; [apply H; [apply ext_refl | exact Hab | exact J]|]. intros w1 c d E1 R1. apply IH; [|exact R1|].
    + eapply (RL_ext P SP); eassumption.
    + intros w2 x y c2 d2 E2 Q. apply H; [eapply ext_trans; eassumption | exact Q].
Qed.

Lemma st_pure {A C D} (S : world -> C -> D -> Prop) w (r : res A) (f : A -> M C) (g : A -> res D) :
  (forall a, refines 0 S w (f a) (g a)) -> refines 0 S w (bindM (pure r) f) (bind r g).
Proof. intro H. apply refines_reads; [reflexivity|]. intros a _. apply H. Qed.
(** results of code that does not use the heap *)
Definition rr {A B} (P : A -> B -> Prop) (r : res A) (r' : res B) : Prop :=
  match r, r' with Ok a, Ok b => P a b | Panic p, Panic q => p = q | _, _ => False end.
Lemma refines_rr {A B} (P : world -> A -> B -> Prop) w r r' : rr (P w) r r' -> refines 0 P w (pure r) r'.
Proof. intros H G. exists w. split; [apply ext_refl|]. split; [exact G|]. split; [reflexivity | exact H]. Qed.
Lemma rr_bind {A B C D} (P : A -> B -> Prop) (Q : C -> D -> Prop) r r' f g : rr P r r' -> (forall a b, P a b -> rr Q (f a) (g b)) -> rr Q (bind r f) (bind r' g).
Proof. intros H K. destruct r, r'; cbn in *; try contradiction; [apply K; exact H | exact H]. Qed.
Lemma rr_refl {A} (r : res A) : rr eq r r.
Proof. destruct r; reflexivity. Qed.
Lemma rr_index {A B} (P : world -> A -> B -> Prop) w l l' i : RL P w l l' -> rr (P w) (index l i) (index l' i).
Proof. intro F. unfold RL in F. unfold index. revert i. induction F as [|a b l l' Hab F IH]; intros [|i]; cbn; try reflexivity; [exact Hab | apply IH]. Qed.
Lemma rr_index_z {A B} (P : world -> A -> B -> Prop) w l l' i : RL P w l l' -> rr (P w) (index_z l i) (index_z l' i).
Proof. intro F. unfold index_z. destruct (Z.ltb i 0); [reflexivity | apply rr_index; exact F]. Qed.
Lemma rr_rows {A B} (P : world -> A -> B -> Prop) w l l' i j : RL (RL P) w l l' -> rr (P w) (rows_index l i j) (rows_index l' i j).
Proof. intro F. unfold rows_index. eapply rr_bind; [apply (rr_index_z (RL P)); exact F|]. intros a b R. apply rr_index_z. exact R. Qed.
Lemma rr_mapM {A B C D} (P : A -> B -> Prop) (R : C -> D -> Prop) f g l l' : Forall2 P l l' -> (forall a b, P a b -> rr R (f a) (g b)) -> rr (Forall2 R) (mapM f l) (mapM g l').
Proof.
  intros F H. induction F as [|a b l l' Hab F IH]; cbn [mapM]; [constructor|]. eapply rr_bind; [apply H; exact Hab|]. intros c d Rcd.
  eapply rr_bind; [exact IH|]. intros cs ds Rs'. constructor; assumption.
Qed.
Lemma rr_transpose {A B} (P : world -> A -> B -> Prop) w l l' n : RL (RL P) w l l' -> rr (RL (RL P) w) (transpose_rows l n) (transpose_rows l' n).
Proof.
  intro F. unfold transpose_rows. apply (rr_mapM eq (RL P w)); [induction (seq 0 n); constructor; auto|]. intros i j ->.
  apply (rr_mapM (RL P w) (P w)); [exact F|]. intros a b R. apply rr_index. exact R.
Qed.
Lemma st_rr {A B C D} (P : world -> A -> B -> Prop) (S : world -> C -> D -> Prop) w r r' (f : A -> M C) (g : B -> res D) :
  rr (P w) r r' -> (forall a b, P w a b -> refines 0 S w (f a) (g b)) -> refines 0 S w (bindM (pure r) f) (bind r' g).
Proof.
  intros H K. unfold bindM, pure, reads. destruct r as [a|p], r' as [b|q]; cbn in H; try contradiction; cbn [bind].
  - apply K. exact H.
  - subst q. apply refines_fail.
Qed.

(** reading *)
Lemma st_check_vec {C D} (S : world -> C -> D -> Prop) w v x (f : unit -> M C) (g : unit -> res D) :
  Rv w v x -> refines 0 S w (f tt) (g tt) -> refines 0 S w (bindM (check_avec v) f) (bind (check (vec_check x) PCheck) g).
Proof. intros R H. apply refines_reads; [rewrite (Rv_rd _ _ _ R); reflexivity|]. intros [] _. exact H. Qed.
Lemma st_check_mat {C D} (S : world -> C -> D -> Prop) w v x (f : unit -> M C) (g : unit -> res D) :
  RM w v x -> refines 0 S w (f tt) (g tt) -> refines 0 S w (bindM (check_amat v) f) (bind (check (mat_check x) PCheck) g).
Proof. intros R H. apply refines_reads; [rewrite (RM_rd _ _ _ R); reflexivity|]. intros [] _. exact H. Qed.
Lemma st_check_expr {C D} (S : world -> C -> D -> Prop) w v x (f : unit -> M C) (g : unit -> res D) :
  Re w v x -> refines 0 S w (f tt) (g tt) -> refines 0 S w (bindM (check_aexpr v) f) (bind (check (expr_check x) PCheck) g).
Proof. intros R H. apply refines_reads; [rewrite (Re_rd _ _ _ R); reflexivity|]. intros [] _. exact H. Qed.
Lemma st_vlen {C D} (S : world -> C -> D -> Prop) w v x (f : nat -> M C) (g : nat -> res D) :
  Rv w v x -> (forall n, refines 0 S w (f n) (g n)) -> refines 0 S w (bindM (avec_len v) f) (bind (vec_len x) g).
Proof. intros R H. apply refines_reads; [rewrite (Rv_rd _ _ _ R); reflexivity|]. intros a _. apply H. Qed.
Lemma st_vdims {C D} (S : world -> C -> D -> Prop) w v x (f : nat * nat -> M C) (g : nat * nat -> res D) :
  Rv w v x -> (forall n, refines 0 S w (f n) (g n)) -> refines 0 S w (bindM (avec_dims v) f) (bind (vec_dims x) g).
Proof. intros R H. apply refines_reads; [rewrite (Rv_rd _ _ _ R); reflexivity|]. intros a _. apply H. Qed.
Lemma st_mdims {C D} (S : world -> C -> D -> Prop) w v x (f : nat * nat -> M C) (g : nat * nat -> res D) :
  RM w v x -> (forall n, refines 0 S w (f n) (g n)) -> refines 0 S w (bindM (amat_dims v) f) (bind (mat_dims x) g).
Proof. intros R H. apply refines_reads; [rewrite (RM_rd _ _ _ R); reflexivity|]. intros a _. apply H. Qed.
Lemma edims_refines w v x : Re w v x -> refines 0 Req w (aexpr_dims v) (expr_dims x).
Proof. intros R. apply refines_reads_only. rewrite (Re_rd _ _ _ R). reflexivity. Qed.
Lemma st_operand {C D} (S : world -> C -> D -> Prop) w dims left y g g' (f : unit -> M C) (k : unit -> res D) :
  Rg w g g' -> left (wh w) = y -> refines 0 S w (f tt) (k tt) -> refines 0 S w (bindM (a_operand_check dims left g) f) (bind (operand_check dims y g') k).
Proof. intros R <- H. apply refines_reads; [rewrite (Rg_rd _ _ _ R); reflexivity|]. intros [] _. exact H. Qed.
Lemma st_check_val {C D} (S : world -> C -> D -> Prop) w g g' (f : unit -> M C) (k : unit -> res D) :
  Rg w g g' -> refines 0 S w (f tt) (k tt) ->
  refines 0 S w (bindM (check_aval g) f) (bind (match as_expr g' with Some e => check (expr_check e) PCheck | None => Ok tt end) k).
Proof. intros R H. apply refines_reads; [rewrite (Rg_rd _ _ _ R); reflexivity|]. intros [] _. exact H. Qed.

End Relations.

(** moving what is known to a later world *)
Ltac adv E :=
  match type of E with ext _ ?w _ =>
    repeat match goal with
           | H : Rm w _ _ |- _ => apply (Rm_st _ _ _ _ _ E) in H
           | H : Rp w _ _ |- _ => apply (Rp_st _ _ _ _ _ E) in H
           | H : Rs w _ _ |- _ => apply (Rs_st _ _ _ _ _ E) in H
           | H : Rv w _ _ |- _ => apply (Rv_ext _ _ _ _ _ E) in H
           | H : RM w _ _ |- _ => apply (RM_ext _ _ _ _ _ E) in H
           | H : Re w _ _ |- _ => apply (Re_ext _ _ _ _ _ E) in H
           | H : Rg w _ _ |- _ => apply (Rg_ext _ _ _ _ _ E) in H
           | H : RL Rm w _ _ |- _ => apply (RL_ext _ Rm_st _ _ _ _ _ E) in H
           | H : RL Rp w _ _ |- _ => apply (RL_ext _ Rp_st _ _ _ _ _ E) in H
           | H : RL Rs w _ _ |- _ => apply (RL_ext _ Rs_st _ _ _ _ _ E) in H
           | H : RL Re w _ _ |- _ => apply (RL_ext _ Re_ext _ _ _ _ _ E) in H
           | H : RL (RL Rm) w _ _ |- _ => apply (RL_ext _ (RL_ext _ Rm_st) _ _ _ _ _ E) in H
           | H : RL (RL Rp) w _ _ |- _ => apply (RL_ext _ (RL_ext _ Rp_st) _ _ _ _ _ E) in H
           | H : RL (RL Rs) w _ _ |- _ => apply (RL_ext _ (RL_ext _ Rs_st) _ _ _ _ _ E) in H
           end
  end.
Ltac stb := first [apply Req_ext | apply Rm_st | apply Rp_st | apply Rs_st | apply Rv_ext | apply RM_ext | apply Re_ext | apply Rg_ext | apply RL_ext; stb].
Ltac bnd := let w := fresh "w" in let a := fresh "a" in let b := fresh "b" in let E := fresh "E" in let R := fresh "R" in
  eapply refines_bind; [|intros w a b E R; adv E].

Section Scalars.
Context {NN : Num} {RT : Runtime}.
Lemma plus0 w s r a b : Rs w s a -> Rs w r b -> refines 0 Rs w (h_plus s r) (scalar_plus a b).
Proof. intros. apply plus_refines; [assumption | assumption | lia]. Qed.
Lemma mul0 w s r a b : Rs w s a -> Rs w r b -> refines 0 Rs w (h_mul s r) (scalar_mul a b).
Proof. intros. apply mul_refines; [assumption | assumption | lia]. Qed.
Lemma simplified0 w s a : Rs w s a -> refines 0 Rs w (h_simplified s) (scalar_simplified a).
Proof. intros. apply simplified_refines; [assumption | lia]. Qed.
Lemma substitute0 w s a x e eb : Rs w s a -> Rs w e eb -> refines 0 Rs w (h_substitute s x e) (scalar_substitute a x eb).
Proof. intros. apply substitute_refines; [assumption | assumption | lia]. Qed.
Lemma mul_float0 w s a f : Rs w s a -> refines 0 Rs w (h_mul_float s f) (scalar_mul_float a f).
Proof. intros. apply mul_float_refines; [assumption | lia]. Qed.
Lemma k_plus0 w c r b : Rs w r b -> refines 0 Rs w (h_k_plus c r) (k_plus c b).
Proof. intros. apply k_plus_refines; [assumption | lia]. Qed.
Lemma k_mul0 w c r b : Rs w r b -> refines 0 Rs w (h_k_mul c r) (k_mul c b).
Proof. intros. apply k_mul_refines; [assumption | lia]. Qed.
Lemma plus_float0 w s a f : Rs w s a -> refines 0 Rs w (h_plus_float s f) (scalar_plus_float a f).
Proof.
  intro R. destruct s as [c|v|m|p].
  - destruct R as [_ <-]. apply k_plus0. apply Rs_HK.
  - destruct R as [_ <-]. cbn [h_plus_float rd scalar_plus_float]. bnd; [apply var_plus_k_refines; lia | apply simplified0; assumption].
  - apply Rs_M in R. destruct R as (b & -> & R). cbn [h_plus_float scalar_plus_float]. bnd; [apply mono_plus_k_refines; [eassumption | lia] | apply simplified0; assumption].
  - apply Rs_P in R. destruct R as (b & -> & R). cbn [h_plus_float scalar_plus_float]. bnd; [apply poly_plus_k_refines; [eassumption | lia] | apply simplified0; assumption].
Qed.
Lemma power_loop0 w base bb k r rb : Rs w base bb -> Rs w r rb -> refines 0 Rs w (h_power_loop base k r) (power_loop bb k rb).
Proof. intros. apply power_loop_refines; [assumption | assumption | lia]. Qed.
Lemma power0 w s a e : Rs w s a -> refines 0 Rs w (h_power s e) (scalar_power a e).
Proof. intros. apply power_refines; [assumption | lia]. Qed.
Lemma make0 w ms l : RL Rm w ms l -> refines 0 Rp w (make_monos ms) (Ok l).
Proof. intro H. apply refines_bind_ret. eapply make_refines; [exact H | lia|]. intros w1 p E R _. apply refines_ret. exact R. Qed.
Lemma mono_to_poly0 w m b : Rm w m b -> refines 0 Rp w (hmono_to_poly m) (Ok (mono_to_poly b)).
Proof. intro R. apply refines_bind_ret. eapply mono_to_poly_refines; [exact R | lia|]. intros w1 p E R1. apply refines_ret. exact R1. Qed.
Lemma step0 {A B C D} (R : world -> A -> B -> Prop) (S : world -> C -> D -> Prop) w x b f (y : res D) :
  refines 0 R w x (Ok b) -> (forall w' a, ext 0 w w' -> R w' a b -> refines 0 S w' (f a) y) -> refines 0 S w (bindM x f) y.
Proof. apply refines_step. Qed.
End Scalars.
Ltac stp := let w := fresh "w" in let a := fresh "a" in let E := fresh "E" in let R := fresh "R" in
  eapply refines_step; [|intros w a E R; adv E].
Create HintDb href.
#[export] Hint Resolve plus0 mul0 simplified0 substitute0 mul_float0 k_plus0 k_mul0 plus_float0 power_loop0 power0 make0 mono_to_poly0 Rs_HK Rs_HV Rs_HM Rs_HP refines_fail edims_refines : href.
#[export] Hint Constructors Rv RM Re Rg : href.
#[export] Hint Extern 1 (refines _ _ _ (ret _) (Ok _)) => apply refines_ret : href.
