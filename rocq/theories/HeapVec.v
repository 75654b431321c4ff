(** * DerivativeWrt of vectors and matrices with memory *)

From Coq Require Import ZArith NArith Bool List Lia.
From Verif Require Import Num Syntax ModelScalar ModelShape Spec SpecArr Base ScalarValid Deriv Arr ModelHeap SpecHeap HeapMem HeapRef HeapOps HeapOps2 HeapDeriv HeapProofs.
Import ListNotations.
Local Open Scope num_scope.

Section HeapVec.
Context {NN : Num} {RT : Runtime}.

Lemma F2_length {A B} (R : A -> B -> Prop) l1 l2 : Forall2 R l1 l2 -> length l1 = length l2.
Proof. intro F. induction F; cbn; congruence. Qed.

(** ** Monomial vectors *)
Definition isM (d : scalar) : bool := match d with SM _ => true | _ => false end.
Definition mv_result (ds : list scalar) : res vector :=
  if existsb isM ds
  then ms <- mapM (fun d => match d with SM m => Ok m | SK k => Ok (k_to_mono k) | _ => Panic PUnsupported end) ds ;; Ok (VM ms)
  else ks <- mapM (fun d => match d with SK k => Ok k | _ => Panic PRuntime end) ds ;; Ok (VK ks).

Definition Rvec (w : world) (x : hvector) (v : vector) : Prop :=
  match x with HVK l => v = VK l | HVM s => exists l, Rp w s l /\ v = VM l | HVP _ => False end.
Lemma Rvec_value w x v : Rvec w x v -> rd_vec (wh w) x = v.
Proof. destruct x as [l|s|s]; cbn [Rvec rd_vec]; [congruence | | contradiction]. intros (l & [_ <-] & ->). reflexivity. Qed.

Definition Jmv (w : world) (st : bool * list hscalar) (ds : list scalar) : Prop := fst st = existsb isM ds /\ Forall2 (Rs w) (snd st) ds.

Lemma Forall2_Rs_ext n w w' ss ds : ext n w w' -> Forall2 (Rs w) ss ds -> Forall2 (Rs w') ss ds.
Proof. intros E F. induction F; constructor; [eapply Rs_ext; eassumption | assumption]. Qed.

Lemma loop_list {S B X Y} n w (l : list X) (lp : list Y) (R : world -> X -> Y -> Prop) (J : world -> S -> B -> Prop) (body : S -> X -> M S) (g : B -> Y -> res B) acc accp :
  Forall2 (R w) l lp -> (forall w' x y, ext n w w' -> R w x y -> R w' x y) -> J w acc accp ->
  (forall w' acc accp x y, ext n w w' -> J w' acc accp -> R w' x y -> refines n J w' (body acc x) (g accp y)) ->
  refines n J w (forM body l acc) (foldM g accp lp).
Proof.
  intros F Hext HJ Hb. enough (K : forall w1 acc accp, ext n w w1 -> J w1 acc accp -> refines n J w1 (forM body l acc) (foldM g accp lp)) by (apply K; [apply ext_refl | exact HJ]).
  induction F as [|x y l lp Hxy F IH]; intros w1 acc1 accp1 E J1; cbn [forM foldM]; [apply refines_ret; exact J1|].
  eapply refines_bind; [apply Hb; [exact E | exact J1 | apply Hext; assumption]|]. intros w2 acc2 accp2 E2 J2. apply IH; [eapply ext_trans; eassumption | exact J2].
Qed.

Lemma bind_panic {A B C D} n (R : world -> A -> B -> Prop) (S : world -> C -> D -> Prop) w x p f :
  refines n R w x (Panic p) -> refines n S w (bindM x f) (Panic p).
Proof.
  intros H G. destruct (H G) as (w1 & E1 & G1 & Hh & Hr). unfold bindM. destruct (x (wh w)) as [r h1]. cbn [fst snd] in *.
  destruct r as [a|q]; [contradiction|]. exists w1. auto.
Qed.
Lemma existsb_snoc {A} (f : A -> bool) l x : existsb f (l ++ [x]) = existsb f l || f x.
Proof. rewrite existsb_app. cbn. rewrite orb_false_r. reflexivity. Qed.

Lemma monovec_refines n w mv l v : Rp w mv l -> Forall (mild_mono v) l -> (n <= lm w)%nat ->
  refines n Rvec w (h_monovec_derivative mv v)
    (_ <- check (vec_check (VM l)) PCheck ;; ds <- mapM (fun m => mono_derivative m v) l ;; mv_result ds).
Proof.
  intros R Mi L. unfold h_monovec_derivative. apply refines_reads; [destruct R as [_ <-]; reflexivity|]. intros [] _. rewrite mapM_fold0. unfold indices.
  eapply (refines_bind n Jmv).
  - apply (loop_idx n w l (fun _ => Jmv)); [apply (Rp_len _ _ _ R) | split; [reflexivity | constructor]|].
    intros w1 st ds i x E [J1 J2] Hx. pose proof (Rp_ext _ _ _ _ _ E R) as R1. destruct (Rp_get _ _ _ _ _ R1 Hx) as (m & Hm & Rx).
    eapply refines_know; [exact Hm|]. assert (Mx : mild_mono v x) by (eapply Forall_nth_loop; eassumption).
    pose proof (fun w2 E2 => mono_derivative_refines n w2 m x v (Rm_ext n w1 w2 _ _ E2 Rx) Mx) as H2.
    destruct (mono_derivative x v) as [db|p].
    + eapply refines_step; [apply H2; apply ext_refl|]. intros w2 d1 E2 R2. cbv zeta. eapply refines_step; [apply H2; exact E2|]. intros w3 d2 E3 R3.
      apply refines_ret. split; cbn [fst snd].
      * rewrite existsb_snoc, J1. destruct d1; destruct R2 as [_ <-]; cbn; rewrite ?orb_false_r, ?orb_true_r; reflexivity.
      * apply Forall2_app; [eapply Forall2_Rs_ext; [exact E3|]; eapply Forall2_Rs_ext; eassumption | constructor; [exact R3 | constructor]].
    + cbn [bind]. eapply bind_panic. apply H2. apply ext_refl.
  - intros w1 [pr ss] ds E1 [J1 J2]. cbn [fst snd] in *. subst pr. unfold mv_result. destruct (existsb isM ds).
    + rewrite mapM_fold0. eapply (refines_bind n (Jb n)).
      * eapply (loop_list n w1 ss ds Rs); [exact J2 | intros; eapply Rs_ext; eassumption | split; [apply Bm_nil | lms]|].
        intros w2 out outp d db E2 [B2 L2] Rd. destruct d as [k|u|dm|q].
        -- destruct Rd as [_ <-]. apply refines_bind_ret. eapply append1; [exact B2 | apply hk_to_mono_ok | exact L2|]. intros s' w' E' B' L'. apply refines_ret. split; assumption.
        -- destruct Rd as [_ <-]. apply refines_fail.
        -- apply Rs_M in Rd. destruct Rd as (b' & -> & Rd). apply refines_bind_ret. eapply append1; [exact B2 | exact Rd | exact L2|]. intros s' w' E' B' L'. apply refines_ret. split; assumption.
        -- apply Rs_P in Rd. destruct Rd as (b' & -> & Rd). apply refines_fail.
      * intros w2 out outp E2 [B2 L2]. eapply publish_m; [exact B2|]. intros w3 E3 Hh R3. apply refines_ret. exists outp. split; [exact R3 | reflexivity].
    + rewrite mapM_fold0. eapply (refines_bind n (fun _ a b => a = b)).
      * eapply (loop_list n w1 ss ds Rs); [exact J2 | intros; eapply Rs_ext; eassumption | reflexivity|].
        intros w2 out outp d db E2 -> Rd. destruct d as [k|u|dm|q]; destruct Rd as [_ <-]; [apply refines_ret; reflexivity | apply refines_fail..].
      * intros w2 out outp E2 ->. apply refines_ret. reflexivity.
Qed.

Lemma mono_derivative_kinds m v d : mono_derivative m v = Ok d -> (exists k, d = SK k) \/ (exists m', d = SM m').
Proof.
  unfold mono_derivative. destruct (check (mono_check m) PCheck); cbn [bind]; [|discriminate]. destruct (check (var_check v) PCheck); cbn [bind]; [|discriminate].
  destruct (find_var v (m_vars m)) as [k|]; [|intros [= <-]; left; eauto]. destruct (index (m_exps m) k) as [z|]; cbn [bind]; [|discriminate].
  destruct (_ && _); [intros [= <-]; left; eauto|]. destruct (Z.eqb z 1); intros [= <-]; right; eauto.
Qed.

Lemma mv_result_terms ds : Forall (fun d => (exists k, d = SK k) \/ (exists m, d = SM m)) ds -> exists x, mv_result ds = Ok x /\ Forall2 same_terms ds (vec_entries x).
Proof.
  intro F. unfold mv_result. destruct (existsb isM ds) eqn:Em.
  - assert (K : exists ms, mapM (fun d => match d with SM m => Ok m | SK k => Ok (k_to_mono k) | _ => Panic PUnsupported end) ds = Ok ms /\ Forall2 same_terms ds (map SM ms)).
    { clear Em. induction F as [|d ds [[k ->]|[m ->]] F (ms & IH1 & IH2)]; [exists []; split; [reflexivity | constructor]| |]; cbn; rewrite IH1; cbn; eexists; (split; [reflexivity|]); cbn; constructor; try exact IH2; reflexivity. }
    destruct K as (ms & -> & K). cbn. eexists. split; [reflexivity | exact K].
  - assert (K : exists ks, mapM (fun d => match d with SK k => Ok k | _ => Panic PRuntime end) ds = Ok ks /\ Forall2 same_terms ds (map SK ks)).
    { induction F as [|d ds [[k ->]|[m ->]] F IH]; [exists []; split; [reflexivity | constructor]| |discriminate].
      destruct (IH Em) as (ks & IH1 & IH2). cbn. rewrite IH1. cbn. eexists. split; [reflexivity|]. cbn. constructor; [reflexivity | exact IH2]. }
    destruct K as (ks & -> & K). cbn. eexists. split; [reflexivity | exact K].
Qed.

Lemma linear_mild_mono v l : Forall (fun m => at_most_linear_in v (SM m)) l -> Forall (mild_mono v) l.
Proof. intro F. eapply Forall_impl; [|exact F]. intros m Hm. exact (linear_mild v (SM m) Hm). Qed.

Lemma mapM_total {A B} (f : A -> res B) (P : B -> Prop) l : (forall a, In a l -> exists b, f a = Ok b /\ P b) -> exists bs, mapM f l = Ok bs /\ Forall P bs.
Proof.
  induction l as [|a l IH]; intro H; [exists []; split; [reflexivity | constructor]|]. destruct (H a (or_introl eq_refl)) as (b & Hb & Pb).
  destruct IH as (bs & Hbs & Pbs); [intros x Hx; apply H; right; exact Hx|]. exists (b :: bs). cbn. rewrite Hb. cbn. rewrite Hbs. split; [reflexivity | constructor; assumption].
Qed.
Lemma mapM_forall2 {A B} (f : A -> res B) l bs : mapM f l = Ok bs -> Forall2 (fun a b => f a = Ok b) l bs.
Proof.
  revert bs. induction l as [|a l IH]; intros bs H; cbn in H; [injection H as <-; constructor|]. destruct (f a) as [b|] eqn:E; cbn in H; [|discriminate].
  destruct (mapM f l); cbn in H; [|discriminate]. injection H as <-. constructor; [exact E | apply IH; reflexivity].
Qed.

Theorem monovec_derivative h roots mv v : all_legal h (HP mv :: roots) -> separate h (HP mv :: roots) ->
  rd_poly h mv <> [] -> Forall valid_mono (rd_poly h mv) -> valid_var v -> Forall (fun m => at_most_linear_in v (SM m)) (rd_poly h mv) ->
  exists x h', h_monovec_derivative mv v h = (Ok x, h') /\
    Forall2 (fun m e => exists d, mono_derivative m v = Ok d /\ same_terms d e) (rd_poly h mv) (vec_entries (rd_vec h' x)) /\
    rd_poly h' mv = rd_poly h mv /\ (forall s, In s roots -> rd h' s = rd h s).
Proof.
  intros Le Se Ne Va Vv Li. set (w := world_of h (HP mv :: roots)).
  assert (R : Rp w mv (rd_poly h mv)) by (split; [exact (world_fit h (HP mv :: roots) (HP mv) Le (or_introl eq_refl)) | reflexivity]).
  destruct (monovec_refines 0 w mv _ v R (linear_mild_mono v _ Li) ltac:(lia) (world_good _ _ Le Se)) as (w' & E & G & Hh & Hr).
  assert (Ck : vec_check (VM (rd_poly h mv)) = true).
  { cbn. destruct (rd_poly h mv) as [|m l] eqn:El; [congruence|]. cbn [nonempty andb]. apply forallb_forall. intros x Hx. apply valid_mono_check. eapply Forall_forall in Va; eassumption. }
  rewrite Ck in Hr. cbn [check bind] in Hr.
  destruct (mapM_total (fun m => mono_derivative m v) (fun d => (exists k, d = SK k) \/ (exists m, d = SM m)) (rd_poly h mv)) as (ds & Hds & Kd).
  { intros m Hm. eapply Forall_forall in Va; [|exact Hm]. destruct (mono_derivative_ok m v Va Vv) as (d & Hd & _). exists d. split; [exact Hd | eapply mono_derivative_kinds; exact Hd]. }
  rewrite Hds in Hr. cbn [bind] in Hr. destruct (mv_result_terms ds Kd) as (x & Hx & Tx). rewrite Hx in Hr.
  change (wh w) with h in *. destruct (h_monovec_derivative mv v h) as [[y|p] h'] eqn:Ey; cbn [fst snd] in *; [|contradiction]. subst h'.
  exists y, (wh w'). split; [reflexivity|]. split; [|split].
  - rewrite (Rvec_value _ _ _ Hr). apply mapM_forall2 in Hds. clear - Hds Tx. revert Tx. generalize (vec_entries x). induction Hds as [|m d l ds Hd F IH]; intros es T; inversion T; subst; constructor; [eauto | apply IH; assumption].
  - apply (Rp_ext _ _ _ _ _ E R).
  - intros s Hs. apply (fit_ext 0 w w' s E). apply world_fit; [exact Le | right; exact Hs].
Qed.

(** ** Monomial matrices *)
Lemma monomat_row n w r l v : Rp w r l -> Forall (mild_mono v) l -> (n <= lm w)%nat ->
  refines n (fun w' => Forall2 (Rs w')) w (forM (fun row i => m <~ get_mono r i ;; d <~ h_mono_derivative m v ;; ret (row ++ [d])) (indices r) [])
    (mapM (fun m => mono_derivative m v) l).
Proof.
  intros R Mi L. rewrite mapM_fold0. unfold indices.
  apply (loop_idx n w l (fun _ w' => Forall2 (Rs w'))); [apply (Rp_len _ _ _ R) | constructor|].
  intros w1 st ds i x E J Hx. pose proof (Rp_ext _ _ _ _ _ E R) as R1. destruct (Rp_get _ _ _ _ _ R1 Hx) as (m & Hm & Rx).
  eapply refines_know; [exact Hm|]. eapply refines_bind; [apply mono_derivative_refines; [exact Rx | eapply Forall_nth_loop; eassumption]|].
  intros w2 d db E2 R2. apply refines_ret. apply Forall2_app; [eapply Forall2_Rs_ext; eassumption | constructor; [exact R2 | constructor]].
Qed.
Lemma Forall2_map_eq w ss ds : Forall2 (Rs w) ss ds -> map (rd (wh w)) ss = ds.
Proof. intro F. induction F as [|s d ss ds [_ <-] F IH]; [reflexivity|]. cbn. rewrite IH. reflexivity. Qed.

Lemma monomat_refines n w mm ll v : Forall2 (Rp w) mm ll -> Forall (Forall (mild_mono v)) ll -> (n <= lm w)%nat ->
  refines n (fun _ a b => a = b) w (h_monomat_derivative mm v)
    (_ <- check (mat_check (MM ll)) PCheck ;; _ <- check (var_check v) PCheck ;; rows <- mapM (mapM (fun m => mono_derivative m v)) ll ;; concretize_matrix rows).
Proof.
  intros R Mi L. unfold h_monomat_derivative.
  assert (Er : map (fun r => map (rd_mono (wh w)) (view (hm (wh w)) r)) mm = ll).
  { clear - R. induction R as [|r l mm ll [_ <-] R IH]; [reflexivity|]. cbn [map]. rewrite IH. reflexivity. }
  apply refines_reads; [rewrite Er; reflexivity|]. intros [] _. apply refines_check_var. rewrite (mapM_fold0 (mapM _)).
  eapply (refines_bind n (fun w' => Forall2 (Forall2 (Rs w')))).
  - assert (R' : Forall2 (fun r l => Rp w r l /\ Forall (mild_mono v) l) mm ll).
    { clear - R Mi. induction R as [|r l mm ll Rr R IH]; [constructor|]. inversion Mi; subst. constructor; [split; assumption | apply IH; assumption]. }
    eapply (loop_list n w mm ll (fun w r l => Rp w r l /\ Forall (mild_mono v) l)); [exact R' | intros w' x y E [H1 H2]; split; [eapply Rp_ext; eassumption | exact H2] | constructor|].
    intros w1 rows rowsp r l E J [Rr Ml]. eapply refines_bind; [apply monomat_row; [exact Rr | exact Ml | lms]|]. intros w2 row rowp E2 R2. apply refines_ret.
    apply Forall2_app; [|constructor; [exact R2 | constructor]]. clear - J E2. induction J; constructor; [eapply Forall2_Rs_ext; eassumption | assumption].
  - intros w1 rows rowsp E J. apply refines_reads_only. f_equal. clear - J. induction J as [|ss ds rows rowsp J1 J IH]; [reflexivity|]. cbn [map]. rewrite IH. f_equal. apply Forall2_map_eq. exact J1.
Qed.

Theorem monomat_derivative h roots mm v : all_legal h (map HP mm ++ roots) -> separate h (map HP mm ++ roots) ->
  mat_check (MM (map (rd_poly h) mm)) = true -> Forall (Forall valid_mono) (map (rd_poly h) mm) -> valid_var v ->
  Forall (Forall (fun m => at_most_linear_in v (SM m))) (map (rd_poly h) mm) ->
  exists x h', h_monomat_derivative mm v h = (Ok x, h') /\
    Forall2 (Forall2 (fun m e => exists d, mono_derivative m v = Ok d /\ same_terms d e)) (map (rd_poly h) mm) (mat_rows x) /\
    (forall r, In r mm -> rd_poly h' r = rd_poly h r) /\ (forall s, In s roots -> rd h' s = rd h s).
Proof.
  intros Le Se Ck Va Vv Li. set (w := world_of h (map HP mm ++ roots)). set (ll := map (rd_poly h) mm) in *.
  assert (R1 : forall r, In r mm -> Rp w r (rd_poly h r)).
  { intros r Hr. split; [|reflexivity]. apply (world_fit h (map HP mm ++ roots) (HP r) Le). apply in_or_app. left. apply in_map. exact Hr. }
  assert (R : Forall2 (Rp w) mm ll).
  { unfold ll. clear - R1. revert R1. generalize w. intros w0 R1. induction mm as [|r mm IH]; cbn; constructor; [apply R1; left; reflexivity | apply IH; intros; apply R1; right; assumption]. }
  assert (Mi : Forall (Forall (mild_mono v)) ll) by (eapply Forall_impl; [|exact Li]; intros l Hl; apply linear_mild_mono; exact Hl).
  destruct (monomat_refines 0 w mm ll v R Mi ltac:(lia) (world_good _ _ Le Se)) as (w' & E & G & Hh & Hr).
  rewrite Ck, (proj2 (var_check_valid v) Vv) in Hr. cbn [check bind] in Hr.
  destruct (mapM_total (mapM (fun m => mono_derivative m v)) (fun _ => True) ll) as (rows & Hrows & _).
  { intros l Hl. destruct (mapM_total (fun m => mono_derivative m v) (fun _ => True) l) as (ds & Hds & _); [|eauto].
    intros m Hm. eapply Forall_forall in Va; [|exact Hl]. eapply Forall_forall in Va; [|exact Hm]. destruct (mono_derivative_ok m v Va Vv) as (d & Hd & _). eauto. }
  rewrite Hrows in Hr. cbn [bind] in Hr.
  assert (F : Forall2 (Forall2 (fun m d => mono_derivative m v = Ok d)) ll rows).
  { apply mapM_forall2 in Hrows. clear - Hrows. induction Hrows; constructor; [apply mapM_forall2; assumption | assumption]. }
  assert (X : exists x, concretize_matrix rows = Ok x /\ Forall2 (Forall2 same_terms) rows (mat_rows x)).
  { cbn [mat_check] in Ck. destruct ll as [|l0 ll'] eqn:El; [discriminate|]. cbn [rows_check] in Ck. apply andb_true_iff in Ck. destruct Ck as [Ck _].
    apply (concretize_matrix_terms rows (length l0)); [intros ->; inversion F|]. rewrite forallb_forall in Ck. clear - F Ck. remember (l0 :: ll') as l1. clear Heql1.
    induction F as [|a b l1 rows H F IH]; [constructor|]. constructor; [|apply IH; intros; apply Ck; right; assumption].
    rewrite <- (F2_length _ _ _ H). apply Nat.eqb_eq. apply Ck. left. reflexivity. }
  destruct X as (x & Hx & Tx). rewrite Hx in Hr. change (wh w) with h in *.
  destruct (h_monomat_derivative mm v h) as [[y|p] h'] eqn:Ey; cbn [fst snd] in *; [|contradiction]. subst h' y. exists x, (wh w'). split; [reflexivity|]. split; [|split].
  - clear - F Tx. revert Tx. generalize (mat_rows x). induction F as [|l ds ll rows Hd F IH]; intros es T; inversion T as [|? e ? es' H1 H2]; subst; constructor; [|apply IH; assumption].
    clear - Hd H1. revert e H1. induction Hd as [|m d l ds Hmd F IH]; intros es T; inversion T; subst; constructor; [eauto | apply IH; assumption].
  - intros r Hr. apply (Rp_ext _ _ _ _ _ E (R1 r Hr)).
  - intros s Hs. apply (fit_ext 0 w w' s E). apply world_fit; [exact Le | apply in_or_app; right; exact Hs].
Qed.

(** ** Polynomial matrices *)
Definition polys_of (d : scalar) : res Polynomial := match d with SP q => Ok q | _ => Panic PRuntime end.
Lemma polymat_row n w r ps l v : inb (hp (wh w)) r -> view (hp (wh w)) r = ps -> Forall2 (Rp w) ps l -> Forall (Forall (mild_mono v)) l -> (n <= lm w)%nat ->
  refines n (fun w' => Forall2 (Rp w')) w
    (forM (fun row i => p <~ get_poly r i ;; d <~ h_poly_derivative p v ;; match d with HP q => ret (row ++ [q]) | _ => fail PRuntime end) (indices r) [])
    (mapM (fun p => d <- poly_derivative p v ;; polys_of d) l).
Proof.
  intros B V R Mi L. rewrite mapM_fold0. unfold indices.
  assert (Ll : s_len r = length l) by (rewrite <- (F2_length _ _ _ R), <- V, view_length by exact B; reflexivity).
  apply (loop_idx n w l (fun _ w' => Forall2 (Rp w'))); [exact Ll | constructor|].
  intros w1 row rowp i x E J Hx. assert (Vp : view (hp (wh w1)) r = ps) by (destruct E as (_ & _ & _ & _ & -> & _); exact V).
  assert (Hp : exists p, nth_error ps i = Some p /\ Rp w p x).
  { clear - R Hx. revert i Hx. induction R as [|p y ps l H R IH]; intros [|i] Hx; cbn in *; try discriminate; [injection Hx as <-; eauto | apply IH; exact Hx]. }
  destruct Hp as (p & Hp & Rpx). eapply refines_know; [rewrite Vp; unfold index; rewrite Hp; reflexivity|]. rewrite bind_assoc.
  eapply refines_bind; [apply poly_derivative_refines; [eapply Rp_ext; eassumption | eapply Forall_nth_loop; [exact Mi | exact Hx] | lms]|].
  intros w2 d db E2 R2. destruct d as [k|u|dm|q].
  - destruct R2 as [_ <-]. apply refines_fail.
  - destruct R2 as [_ <-]. apply refines_fail.
  - apply Rs_M in R2. destruct R2 as (b & -> & _). apply refines_fail.
  - apply Rs_P in R2. destruct R2 as (b & -> & R2). apply refines_ret. apply Forall2_app; [|constructor; [exact R2 | constructor]].
    clear - J E2. induction J; constructor; [eapply Rp_ext; eassumption | assumption].
Qed.

(** ** Polynomial vectors: the receiver's own slice is overwritten *)
Definition on_p (w : world) (m : mem slice) : world := mkW (with_polys (wh w) m) (pi w) (pv w) (qv w) (pm w).

Lemma polyvec_loop pv v : forall rest pre w lrest qrest, good w -> inb (hp (wh w)) pv -> view (hp (wh w)) pv = pre ++ rest -> Forall2 (Rp w) rest lrest ->
  Forall (Forall (mild_mono v)) lrest -> Forall2 (fun l q => poly_derivative l v = Ok (SP q)) lrest qrest ->
  exists w' new,
    forM (fun (_ : unit) i => p <~ get_poly pv i ;; d <~ h_poly_derivative p v ;; match d with HP q => put_poly pv i q | _ => fail PRuntime end)
      (seq (length pre) (length rest)) tt (wh w) = (Ok tt, wh w') /\
    ext 0 w (on_p w' (hp (wh w))) /\ good w' /\ view (hp (wh w')) pv = pre ++ new /\ Forall2 (Rp w') new qrest.
Proof.
  induction rest as [|p rest IH]; intros pre w lrest qrest G B V R Mi D.
  - exists w, []. inversion R; subst. inversion D; subst. split; [reflexivity|]. split; [|split; [exact G|split; [exact V | constructor]]].
    destruct (ext_refl 0 w) as (E1 & E2 & E3 & E4 & E5 & E6). split; [exact E1|]. split; [exact E2|]. split; [exact E3|]. split; [exact E4|]. split; [reflexivity | exact E6].
  - inversion R as [|? l ? lrest' Rp1 R1]; subst. inversion Mi as [|? ? Mi1 Mi2]; subst. inversion D as [|? q ? qrest' Dq D2]; subst.
    destruct (poly_derivative_refines 0 w p l v Rp1 Mi1 ltac:(lia) G) as (w1 & E1 & G1 & Hh1 & Hr1). rewrite Dq in Hr1.
    destruct (h_poly_derivative p v (wh w)) as [[d|?] h1] eqn:Ed; cbn [fst snd] in *; [|contradiction]. subst h1.
    destruct d as [k|u|dm|qs]; destruct Hr1 as [F1 R1']; cbn [rd] in R1'; try discriminate. injection R1' as R1'.
    assert (Hp1 : hp (wh w1) = hp (wh w)) by apply E1.
    assert (Lp : (length pre < s_len pv)%nat) by (rewrite <- (view_length _ _ B), V, app_length; cbn; lia).
    set (w2 := on_p w1 (store_at (hp (wh w1)) (s_arr pv) (s_off pv + length pre) [qs])).
    assert (V2 : view (hp (wh w2)) pv = (pre ++ [qs]) ++ rest).
    { cbn [w2 on_p wh with_polys hp]. rewrite Hp1. rewrite put_view by assumption. rewrite V, set_nth_mid, <- app_assoc. reflexivity. }
    assert (B2 : inb (hp (wh w2)) pv).
    { cbn [w2 on_p wh with_polys hp]. rewrite Hp1. destruct B as [B1 B2]. split; [exact B1|]. intro C. rewrite store_length, store_cells_length. apply B2. exact C. }
    assert (E12 : forall x y, Rp w x y -> Rp w2 x y) by (intros x y Hxy; exact (Rp_ext 0 w w1 x y E1 Hxy)).
    destruct (IH (pre ++ [qs]) w2 lrest' qrest') as (w' & new & X & E2 & G2 & V' & R'); [exact G1 | exact B2 | exact V2| | exact Mi2 | exact D2|].
    { clear - R1 E12. induction R1; constructor; [apply E12; assumption | assumption]. }
    exists w', (qs :: new). split; [|split; [|split; [exact G2|split]]].
    + cbn [seq length forM]. unfold bindM at 1 2 3. unfold get_poly at 1, reads at 1. unfold index. rewrite V, nth_error_app2, Nat.sub_diag by lia. cbn [nth_error].
      rewrite Ed. unfold put_poly at 1. destruct (Nat.ltb_spec (length pre) (s_len pv)); [|lia]. rewrite app_length, Nat.add_1_r in X. exact X.
    + assert (E3 : ext 0 w1 (on_p w' (hp (wh w1)))).
      { destruct E2 as (A1 & A2 & A3 & A4 & A5 & A6). split; [exact A1|]. split; [exact A2|]. split; [exact A3|]. split; [exact A4|]. split; [reflexivity | intros a Ha; lia]. }
      rewrite <- Hp1. eapply ext_trans; [exact E1 | exact E3].
    + rewrite V', <- app_assoc. reflexivity.
    + constructor; [|exact R']. assert (Rq : Rp w2 qs q) by (split; assumption). exact (Rp_ext 0 w2 _ qs q E2 Rq).
Qed.

Theorem polyvec_derivative h roots pv v qs : all_legal h (map HP (view (hp h) pv) ++ roots) -> separate h (map HP (view (hp h) pv) ++ roots) ->
  in_memory (hp h) pv ->
  Forall (fun p => at_most_linear_in v (SP p)) (map (rd_poly h) (view (hp h) pv)) ->
  Forall2 (fun l q => poly_derivative l v = Ok (SP q)) (map (rd_poly h) (view (hp h) pv)) qs ->
  exists h', h_polyvec_derivative pv v h = (Ok (HVP pv), h') /\ rd_vec h' (HVP pv) = VP qs /\
    (forall p, In p (view (hp h) pv) -> rd_poly h' p = rd_poly h p) /\ (forall s, In s roots -> rd h' s = rd h s).
Proof.
  intros Le Se B Li D. set (ps := view (hp h) pv) in *. set (w := world_of h (map HP ps ++ roots)).
  assert (R1 : forall r, In r ps -> Rp w r (rd_poly h r)).
  { intros r Hr. split; [|reflexivity]. apply (world_fit h (map HP ps ++ roots) (HP r) Le). apply in_or_app. left. apply in_map. exact Hr. }
  assert (R : Forall2 (Rp w) ps (map (rd_poly h) ps)).
  { clear - R1. revert R1. generalize w. intros w0 R1. induction ps as [|r ps IH]; cbn; constructor; [apply R1; left; reflexivity | apply IH; intros; apply R1; right; assumption]. }
  assert (Mi : Forall (Forall (mild_mono v)) (map (rd_poly h) ps)).
  { eapply Forall_impl; [|exact Li]. intros l Hl. exact (linear_mild v (SP l) Hl). }
  destruct (polyvec_loop pv v ps [] w _ qs (world_good _ _ Le Se) B eq_refl R Mi D) as (w' & new & X & E & G & V & F).
  exists (wh w'). split; [|split; [|split]].
  - unfold h_polyvec_derivative, indices. unfold bindM at 1. rewrite <- (view_length _ _ B). fold ps. cbn [length] in X. change (wh w) with h in X. rewrite X. reflexivity.
  - cbn [rd_vec]. rewrite V. cbn [app]. f_equal. clear - F. induction F as [|q b new qs [_ <-] F IH]; [reflexivity|]. cbn. rewrite IH. reflexivity.
  - intros p Hp. destruct (Rp_ext 0 w _ p _ E (R1 p Hp)) as [_ H]. exact H.
  - intros s Hs. destruct (fit_ext 0 w _ s E) as [_ H]; [apply world_fit; [exact Le | apply in_or_app; right; exact Hs]|]. destruct s; exact H.
Qed.

(** the panic of PolynomialVector.DerivativeWrt, and what it leaves behind *)
Theorem polyvec_panics h pv v p q k : view (hp h) pv = p :: q -> in_memory (hp h) pv -> fst (h_poly_derivative p v h) = Ok (HK k) ->
  fst (h_polyvec_derivative pv v h) = Panic PRuntime.
Proof.
  intros V B D. unfold h_polyvec_derivative, indices. rewrite <- (view_length _ _ B), V. cbn [length seq forM]. unfold bindM, get_poly, reads, index. rewrite V. cbn [nth_error].
  destruct (h_poly_derivative p v h) as [r h1]. cbn [fst] in D. subst r. reflexivity.
Qed.

End HeapVec.
