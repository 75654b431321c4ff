(** * The code with memory refines the pure model *)

From Coq Require Import ZArith NArith Bool List Lia.
From Verif Require Import Num Syntax ModelScalar ModelHeap HeapMem HeapRef.
Import ListNotations.
Local Open Scope num_scope.

Section HeapOps.
Context {NN : Num} {RT : Runtime}.

(** ** Structural rules *)
Lemma refines_assoc {A B C D} n (S : world -> C -> D -> Prop) w (x : M A) (g : A -> M B) (f : B -> M C) (y : res D) :
  refines n S w (bindM x (fun a => bindM (g a) f)) y -> refines n S w (bindM (bindM x g) f) y.
Proof.
  intros H G. specialize (H G). unfold bindM in *. destruct (x (wh w)) as [[a|p] h]; exact H.
Qed.
Lemma refines_ret_bind {A C D} n (S : world -> C -> D -> Prop) w (a : A) (f : A -> M C) (y : res D) :
  refines n S w (f a) y -> refines n S w (bindM (ret a) f) y.
Proof. intros H. exact H. Qed.
Lemma refines_bind_ret {A D} n (S : world -> A -> D -> Prop) w (x : M A) (y : res D) :
  refines n S w (bindM x (fun a => ret a)) y -> refines n S w x y.
Proof. intros H G. specialize (H G). unfold bindM, ret in H. destruct (x (wh w)) as [[a|p] h]; exact H. Qed.
Lemma refines_strict {A B C D} n (R : world -> A -> B -> Prop) (S : world -> C -> D -> Prop) w x y f g :
  refines (lm w) R w x y -> (n <= lm w)%nat ->
  (forall w' a b, ext (lm w) w w' -> R w' a b -> refines n S w' (f a) (g b)) -> refines n S w (bindM x f) (bind y g).
Proof.
  intros H L K G. destruct (H G) as (w1 & E1 & G1 & Hh & Hr). unfold bindM. destruct (x (wh w)) as [r h1]. cbn [fst snd] in *.
  destruct r as [a|p], y as [b|q]; try contradiction; cbn [bind].
  - destruct (K w1 a b E1 Hr G1) as (w2 & E2 & G2 & Hh2 & Hr2). rewrite Hh in *. exists w2.
    split; [eapply ext_trans; [eapply ext_le; eassumption | exact E2]|]. auto.
  - exists w1. split; [eapply ext_le; eassumption|]. split; [exact G1|]. split; [exact Hh | exact Hr].
Qed.
Lemma refines_if {A B} n (R : world -> A -> B -> Prop) w (b : bool) x1 x2 y1 y2 :
  refines n R w x1 y1 -> refines n R w x2 y2 -> refines n R w (if b then x1 else x2) (if b then y1 else y2).
Proof. intros H1 H2. destruct b; assumption. Qed.
Lemma refines_eq {A B} n (R : world -> A -> B -> Prop) w x y y' : y = y' -> refines n R w x y' -> refines n R w x y.
Proof. intros ->. exact (fun H => H). Qed.
Lemma refines_post {A B} n (R R' : world -> A -> B -> Prop) w x y : (forall w' a b, R w' a b -> R' w' a b) -> refines n R w x y -> refines n R' w x y.
Proof.
  intros H K G. destruct (K G) as (w' & E & G' & Hh & Hr). exists w'. split; [exact E|]. split; [exact G'|]. split; [exact Hh|].
  destruct (fst (x (wh w))), y; auto.
Qed.

Lemma bind_assoc {A B C} (x : res A) (f : A -> res B) (g : B -> res C) : bind (bind x f) g = bind x (fun a => bind (f a) g).
Proof. destruct x; reflexivity. Qed.

(** a loop over a protected slice of monomials *)
Lemma loop_p {S B} n w p l (J : world -> S -> B -> Prop) (body : S -> hmono -> M S) (g : B -> Monomial -> res B) acc accp :
  Rp w p l -> J w acc accp ->
  (forall w' acc accp m b, ext n w w' -> J w' acc accp -> Rm w' m b -> refines n J w' (body acc m) (g accp b)) ->
  refines n J w (forM (fun acc i => bindM (get_mono p i) (body acc)) (indices p) acc) (foldM g accp l).
Proof.
  intros R HJ Hb. pose proof R as [F El]. pose proof F as (B1 & _ & Fm).
  enough (K : forall rest pre w1 acc accp, ext n w w1 -> view (hm (wh w)) p = pre ++ rest -> J w1 acc accp ->
    refines n J w1 (forM (fun acc i => bindM (get_mono p i) (body acc)) (seq (length pre) (length rest)) acc) (foldM g accp (map (rd_mono (wh w)) rest))).
  { specialize (K (view (hm (wh w)) p) [] w acc accp (ext_refl _ _) eq_refl HJ). rewrite <- El. unfold rd_poly, indices.
    rewrite <- (view_length _ _ B1). exact K. }
  induction rest as [|m rest IH]; intros pre w1 acc1 accp1 E V J1.
  - apply refines_ret. exact J1.
  - cbn [seq length forM map foldM]. apply refines_assoc. destruct (fit_p_ext n w w1 p E F) as (F1 & R1 & V1).
    assert (Hm : Rm w1 m (rd_mono (wh w) m)).
    { rewrite V in Fm. apply Forall_app in Fm. destruct Fm as [_ Fm]. inversion Fm as [|? ? Fm1 _]; subst. apply (fit_m_ext n w w1 m E Fm1). }
    apply (refines_know _ _ _ _ m).
    { rewrite V1, V. unfold index. rewrite nth_error_app2, Nat.sub_diag by lia. reflexivity. }
    eapply refines_bind; [apply Hb; [exact E | exact J1 | exact Hm]|].
    intros w2 acc2 accp2 E2 J2. specialize (IH (pre ++ [m]) w2 acc2 accp2). rewrite app_length, Nat.add_1_r in IH. apply IH; [|rewrite <- app_assoc; exact V|exact J2].
    eapply ext_trans; eassumption.
Qed.

(** ** Copies and new values *)
Lemma copy_build {C D} n (S : world -> C -> D -> Prop) w m b (f : hmono -> M C) (y : res D) : Rm w m b ->
  (forall es vs mi mv, let w' := on_v (on_i w mi) mv in
     Bi w' es (m_exps b) -> Bv (length (hv (wh w))) w' vs (m_vars b) -> ext n w w' -> (length (hv (wh w)) <= length mv)%nat -> refines n S w' (f (mkHM (m_coeff b) es vs)) y) ->
  refines n S w (bindM (hmono_copy m) f) y.
Proof.
  intros [F <-] H. unfold hmono_copy. cbn [rd_mono m_exps m_vars m_coeff] in H.
  apply refines_assoc. eapply refines_know; [reflexivity|]. apply refines_assoc. eapply refines_know; [reflexivity|].
  apply refines_assoc. apply build_make_i. intros es mi Be E1.
  apply refines_assoc. apply build_make_v. intros vs mv Bs E2. apply refines_ret_bind.
  apply H; [exact Be | exact Bs | eapply ext_trans; eassumption|]. destruct E2 as (_ & (_ & L & _) & _). exact L.
Qed.
Lemma copy_refines n w m b : Rm w m b -> refines n Rm w (hmono_copy m) (Ok b).
Proof.
  intro H. apply refines_bind_ret. eapply copy_build; [exact H|]. intros es vs mi mv w' Be Bs _ _.
  destruct b as [c e v]. cbn in *. eapply publish_mono; eassumption.
Qed.
Lemma new_mono_refines n w c es vs : refines n Rm w (new_mono c es vs) (Ok (mkMono c es vs)).
Proof.
  unfold new_mono. apply build_make_v. intros s mv Bs E1. apply build_make_i. intros e mi Be E2.
  eapply publish_mono; [exact Be|]. exact Bs.
Qed.
Lemma hvar_to_mono_refines n w v : refines n Rm w (hvar_to_mono v) (Ok (var_to_mono v)).
Proof. apply new_mono_refines. Qed.
Lemma nil_fit_i w : fit_i w nil_slice.
Proof. split; [split; cbn; lia|]. intros a j [_ H]. cbn in H. lia. Qed.
Lemma nil_fit_v w : fit_v w nil_slice.
Proof. split; [split; cbn; lia|]. split; intros a j [_ H]; cbn in H; lia. Qed.
Lemma hk_to_mono_ok w k : Rm w (hk_to_mono k) (k_to_mono k).
Proof.
  split; [split; [apply nil_fit_i | apply nil_fit_v]|]. unfold rd_mono, hk_to_mono. cbn [h_coeff h_exps h_vars].
  rewrite !view_zero by reflexivity. reflexivity.
Qed.
Lemma set_coeff_ok w m b c : Rm w m b -> Rm w (h_set_coeff m c) (set_coeff b c).
Proof. intros [F <-]. split; [exact F | reflexivity]. Qed.
Lemma coeff_ok w m b : Rm w m b -> h_coeff m = m_coeff b.
Proof. intros [_ <-]. reflexivity. Qed.

(** a slice of monomials made from protected monomials *)
Lemma Forall_Rm w ms l : Forall2 (Rm w) ms l -> Forall (fit_m w) ms /\ map (rd_mono (wh w)) ms = l.
Proof. intro H. induction H as [|m b ms l [F R] _ [IH1 IH2]]; [split; [constructor|reflexivity]|]. cbn. rewrite R, IH2. split; [constructor; assumption | reflexivity]. Qed.
Lemma make_refines {C D} n (S : world -> C -> D -> Prop) w ms l (f : slice -> M C) (y : res D) : Forall2 (Rm w) ms l -> (n <= lm w)%nat ->
  (forall w' p, ext n w w' -> Rp w' p l -> (lm w <= lm w')%nat -> refines n S w' (f p) y) -> refines n S w (bindM (make_monos ms) f) y.
Proof.
  intros H L K. apply Forall_Rm in H. destruct H as [F R]. apply build_make_m; [exact F | exact L|]. intros s m B E Lm. rewrite R in B.
  apply (publish_m n S _ s l). { eapply Bm_le; [exact B | exact L]. }
  intros w' E' Hh Rp'. apply K; [eapply ext_trans; eassumption | exact Rp'|]. unfold lm at 2. rewrite Hh. exact Lm.
Qed.

(** Polynomial.Copy, as a slice under construction *)
Lemma pcopy_build {C D} n (S : world -> C -> D -> Prop) w p l (f : slice -> M C) (y : res D) : Rp w p l -> (n <= lm w)%nat ->
  (forall s m, Bm n (on_m w m) s l -> ext n w (on_m w m) -> (lm w <= length m)%nat -> refines n S (on_m w m) (f s) y) ->
  refines n S w (bindM (hpoly_copy p) f) y.
Proof.
  intros [F R] L H. unfold hpoly_copy. apply refines_assoc. eapply refines_know; [reflexivity|]. apply build_make_m; [apply F | exact L|].
  intros s m B E Lm. apply H; [|exact E|exact Lm]. unfold rd_poly in R. rewrite R in B. eapply Bm_le; [exact B | exact L].
Qed.
Lemma pcopy_publish {C D} n (S : world -> C -> D -> Prop) w p l (f : slice -> M C) (y : res D) : Rp w p l -> (n <= lm w)%nat ->
  (forall w' c, ext n w w' -> Rp w' c l -> (lm w <= lm w')%nat -> refines n S w' (f c) y) -> refines n S w (bindM (hpoly_copy p) f) y.
Proof.
  intros R L H. eapply pcopy_build; [exact R | exact L|]. intros s m B E Lm. eapply publish_m; [exact B|]. intros w' E' Hh Rp'.
  apply H; [eapply ext_trans; eassumption | exact Rp'|]. unfold lm at 2. rewrite Hh. exact Lm.
Qed.

(** reading a slice under construction *)
Lemma Bm_get nb w s l i b : Bm nb w s l -> nth_error l i = Some b -> exists m, index (view (hm (wh w)) s) i = Ok m /\ Rm w m b.
Proof.
  intros (ms & (B & V & O) & F & R) H. rewrite V. rewrite <- R, nth_error_map in H. destruct (nth_error ms i) as [m|] eqn:E; [|discriminate].
  cbn in H. injection H as <-. exists m. unfold index. rewrite E. split; [reflexivity|]. split; [|reflexivity].
  eapply Forall_forall in F; [exact F|]. eapply nth_error_In; exact E.
Qed.
Lemma Bm_rd nb w s l : Bm nb w s l -> rd_poly (wh w) s = l.
Proof. intros (ms & (B & V & O) & F & R). unfold rd_poly. rewrite V. exact R. Qed.

(** ** Simplification *)
Lemma first_index_shift {A} (f : A -> res bool) l k : first_index f l (S k) = (i <- first_index f l k ;; Ok (option_map S i)).
Proof.
  revert k. induction l as [|a l IH]; intro k; cbn; [reflexivity|]. destruct (f a) as [[|]|]; cbn; try reflexivity. apply IH.
Qed.
Lemma first_index_map {A B} (g : A -> B) (f : B -> res bool) l k : first_index (fun a => f (g a)) l k = first_index f (map g l) k.
Proof. revert k. induction l as [|a l IH]; intro k; cbn; [reflexivity|]. destruct (f (g a)) as [[|]|]; cbn; try reflexivity. apply IH. Qed.
Lemma first_index_some {A} (f : A -> res bool) l k i : first_index f l k = Ok (Some i) -> (k <= i)%nat /\ exists a, nth_error l (i - k) = Some a.
Proof.
  revert k. induction l as [|a l IH]; intros k H; cbn in H; [discriminate|]. destruct (f a) as [[|]|]; cbn in H; try discriminate.
  - injection H as <-. split; [lia|]. rewrite Nat.sub_diag. exists a. reflexivity.
  - destruct (IH (S k) H) as [L [x Hx]]. split; [lia|]. exists x. replace (i - k)%nat with (S (i - S k)) by lia. exact Hx.
Qed.
Lemma add_like_first acc m :
  add_like_term acc m =
  (i <- first_index (fun e => mono_matches_form e m) acc 0 ;;
   match i with
   | Some i => e <- index acc i ;; Ok (set_nth i (set_coeff e (m_coeff e + m_coeff m)) acc)
   | None => Ok (acc ++ [m])
   end).
Proof.
  induction acc as [|e acc IH]; cbn; [reflexivity|]. destruct (mono_matches_form e m) as [[|]|]; cbn; try reflexivity.
  rewrite IH, first_index_shift. destruct (first_index (fun e0 => mono_matches_form e0 m) acc 0) as [[i|]|]; cbn; try reflexivity.
  unfold index. cbn. destruct (nth_error acc i); reflexivity.
Qed.
Lemma simplify_loop_fold p c acc :
  simplify_loop p c acc =
  foldM (fun st m => b <- mono_is_constant m ;;
           if b then Ok (fst st + m_coeff m, snd st) else acc' <- add_like_term (snd st) m ;; Ok (fst st, acc')) (c, acc) p.
Proof.
  revert c acc. induction p as [|m p IH]; intros c acc; cbn; [reflexivity|]. destruct (mono_is_constant m) as [[|]|]; cbn; try reflexivity; [apply IH|].
  destruct (add_like_term acc m); cbn; [apply IH | reflexivity].
Qed.
Lemma filter_fold (l out : list Monomial) :
  foldM (fun out m => Ok (if m_coeff m =? n0 then out else out ++ [m])) out l = Ok (out ++ filter (fun m => negb (m_coeff m =? n0)) l).
Proof.
  revert out. induction l as [|m l IH]; intro out; cbn; [rewrite app_nil_r; reflexivity|]. rewrite IH. destruct (m_coeff m =? n0); cbn; [reflexivity|].
  rewrite <- app_assoc. reflexivity.
Qed.

Lemma append1 {C D} n (S : world -> C -> D -> Prop) w s l m b (f : slice -> M C) (y : res D) : Bm n w s l -> Rm w m b -> (n <= lm w)%nat ->
  (forall s' w', ext n w w' -> Bm n w' s' (l ++ [b]) -> (n <= lm w')%nat -> refines n S w' (f s') y) -> refines n S w (bindM (append_monos s [m]) f) y.
Proof.
  intros B [F <-] L H. eapply build_append_m; [exact B | constructor; [exact F | constructor] | apply Nat.le_refl | exact L|].
  intros s' mm B' E' Lm. apply H; [exact E' | exact B'|]. unfold lm in *. cbn. lia.
Qed.

Definition Jsimp (n : nat) (w : world) (st : num * slice) (stp : num * list Monomial) : Prop := fst st = fst stp /\ Bm n w (snd st) (snd stp) /\ (n <= lm w)%nat.
Definition Jb (n : nat) (w : world) (s : slice) (l : list Monomial) : Prop := Bm n w s l /\ (n <= lm w)%nat.

Lemma add_like_refines n w acc l m b : Jb n w acc l -> Rm w m b -> refines n (Jb n) w (h_add_like acc m) (add_like_term l b).
Proof.
  intros [B L] R. rewrite add_like_first. unfold h_add_like. apply refines_reads.
  - pose proof (Bm_rd _ _ _ _ B) as E. unfold rd_poly in E. rewrite <- E. rewrite <- first_index_map. destruct R as [_ <-]. reflexivity.
  - intros [i|] Hi.
    + assert (Hb : exists e, nth_error l i = Some e).
      { pose proof (Bm_rd _ _ _ _ B) as E. unfold rd_poly in E.
        rewrite (first_index_map (rd_mono (wh w)) (fun x => mono_matches_form x (rd_mono (wh w) m))) in Hi. rewrite E in Hi.
        apply first_index_some in Hi. destruct Hi as [_ [e He]]. rewrite Nat.sub_0_r in He. eauto. }
      destruct Hb as [e He]. destruct (Bm_get _ _ _ _ _ _ B He) as (em & Em & Re). unfold index at 1. rewrite He. cbn [bind].
      eapply refines_know; [exact Em|]. rewrite (coeff_ok _ _ _ Re), (coeff_ok _ _ _ R).
      pose proof (set_coeff_ok w em e (m_coeff e + m_coeff b) Re) as [Fs Rs'].
      eapply build_put_m; [exact B | exact Fs | lia | apply nth_error_Some; congruence|]. intros mm B' E' Lm. apply refines_ret. rewrite Rs' in B'. split; [exact B'|].
      unfold lm in *. cbn. lia.
    + apply refines_bind_ret. eapply append1; [exact B | exact R | exact L|]. intros s' w' E' B' L'. apply refines_ret. split; assumption.
Qed.

Lemma simplify_refines n w p l : Rp w p l -> (n <= lm w)%nat -> refines n Rp w (h_simplify p) (poly_simplify l).
Proof.
  intros R L. unfold h_simplify, poly_simplify. apply refines_check_poly; [exact R|]. rewrite simplify_loop_fold.
  apply (refines_bind n (Jsimp n) Rp).
  - apply loop_p; [exact R | split; [reflexivity | split; [apply Bm_nil | exact L]]|]. intros w1 st stp m b E (J1 & J2 & J3) Rb.
    apply refines_reads; [destruct Rb as [_ <-]; reflexivity|]. intros [|] _.
    + apply refines_ret. split; [cbn; rewrite J1, (coeff_ok _ _ _ Rb); reflexivity | split; assumption].
    + eapply refines_bind; [apply add_like_refines; [split; [exact J2 | exact J3] | exact Rb]|]. intros w2 acc acc' E2 [B2 L2].
      apply refines_ret. split; [exact J1 | split; assumption].
  - intros w1 [c nc] [c' ncp] E1 (J1 & J2 & J3). cbn [fst snd] in *. subst c'.
    eapply publish_m; [exact J2|]. intros w2 E2 Hh2 Rn. assert (L2 : (n <= lm w2)%nat) by (unfold lm in *; rewrite Hh2; exact J3).
    set (pre := if c =? n0 then [] else [k_to_mono c]).
    apply (refines_step n (Jb n) Rp _ _ pre).
    { unfold pre. destruct (c =? n0).
      - apply refines_ret. split; [apply Bm_nil | exact L2].
      - apply refines_bind_ret. eapply append1; [apply Bm_nil | apply hk_to_mono_ok | exact L2|]. intros s' w' E' B' L'. apply refines_ret. split; assumption. }
    intros w3 out E3 [B3 L3]. apply (refines_step n (Jb n) Rp _ _ (pre ++ filter (fun m => negb (m_coeff m =? n0)) ncp)).
    { rewrite <- filter_fold. apply loop_p; [eapply Rp_ext; [exact E3 | exact Rn] | split; assumption|]. intros w4 o op m b E4 [B4 L4] Rb.
      rewrite (coeff_ok _ _ _ Rb). destruct (m_coeff b =? n0); [apply refines_ret; split; assumption|].
      apply refines_bind_ret. eapply append1; [exact B4 | exact Rb | exact L4|]. intros s' w' E' B' L'. apply refines_ret. split; assumption. }
    intros w5 out5 E5 [B5 L5]. rewrite (Bm_len _ _ _ _ B5). fold pre.
    destruct (pre ++ filter (fun m => negb (m_coeff m =? n0)) ncp) as [|x xs] eqn:Ex; cbn [length Nat.eqb].
    + apply refines_bind_ret. eapply append1; [exact B5 | apply hk_to_mono_ok | exact L5|]. intros s' w' E' B' L'. eapply publish_m; [exact B'|]. intros w6 _ _ R6. apply refines_ret. exact R6.
    + eapply publish_m; [exact B5|]. intros w6 _ _ R6. apply refines_ret. exact R6.
Qed.

Lemma mono_simplified_refines n w m b : Rm w m b -> refines n Rs w (h_mono_simplified m) (mono_simplified b).
Proof.
  intros [F <-]. unfold h_mono_simplified. intro G. exists w. split; [apply ext_refl|]. split; [exact G|]. split; [unfold bindM, reads; destruct (mono_simplified _); reflexivity|].
  unfold bindM, reads, ret. destruct (mono_simplified (rd_mono (wh w) m)) as [s|p] eqn:E; cbn [fst]; [|reflexivity].
  unfold mono_simplified, mono_is_constant in E. destruct (mono_check (rd_mono (wh w) m)); cbn [check bind] in E; [|discriminate].
  destruct (m_vars (rd_mono (wh w) m)) as [|v vs] eqn:Ev; [injection E as <-; split; [exact I | reflexivity]|].
  destruct (m_coeff (rd_mono (wh w) m) =? n0); [injection E as <-; split; [exact I | reflexivity]|].
  destruct (index (m_exps (rd_mono (wh w) m)) 0); cbn [bind] in E; [|discriminate]. cbn [index nth_error bind] in E.
  destruct (_ && _); [injection E as <-; split; [exact I | reflexivity]|].
  destruct (forallb _ _); injection E as <-; (split; [try exact I; exact F | reflexivity]).
Qed.

Lemma Rp_get w p l i b : Rp w p l -> nth_error l i = Some b -> exists m, index (view (hm (wh w)) p) i = Ok m /\ Rm w m b.
Proof.
  intros [(B & V & F) <-] H. unfold rd_poly in H. rewrite nth_error_map in H. destruct (nth_error (view (hm (wh w)) p) i) as [m|] eqn:E; [|discriminate].
  cbn in H. injection H as <-. exists m. unfold index. rewrite E. split; [reflexivity|]. split; [|reflexivity].
  eapply Forall_forall in F; [exact F|]. eapply nth_error_In; exact E.
Qed.
Lemma Rp_len w p l : Rp w p l -> s_len p = length l.
Proof. intros [(B & _) <-]. unfold rd_poly. rewrite map_length, view_length by exact B. reflexivity. Qed.

Lemma poly_simplified_refines n w p l : Rp w p l -> (n <= lm w)%nat -> refines n Rs w (h_poly_simplified p) (poly_simplified l).
Proof.
  intros R L. unfold h_poly_simplified, poly_simplified. eapply refines_bind; [apply simplify_refines; eassumption|].
  intros w1 pr q E1 R1. apply refines_reads; [destruct R1 as [_ <-]; reflexivity|]. intros d _.
  destruct (Z.eqb d 0).
  { apply refines_reads; [destruct R1 as [_ <-]; reflexivity|]. intros c _. apply refines_ret. split; [exact I | reflexivity]. }
  rewrite (Rp_len _ _ _ R1). eapply (refines_bind n (fun _ (a b : option var) => a = b)).
  - destruct (Z.eqb d 1); cbn [andb]; [|apply refines_ret; reflexivity].
    destruct q as [|m [|m2 q]]; cbn [length Nat.eqb]; try (apply refines_ret; reflexivity).
    destruct (Rp_get _ _ _ 0 m R1 eq_refl) as (hm0 & Hm & Rm0). eapply refines_know; [exact Hm|].
    apply refines_reads; [destruct R1 as [_ <-]; reflexivity|]. intros v0 _.
    apply refines_reads; [destruct Rm0 as [_ <-]; reflexivity|]. intros [|] _; [|apply refines_ret; reflexivity].
    apply refines_reads; [destruct Rm0 as [_ <-]; reflexivity|]. intros v _. apply refines_ret. reflexivity.
  - intros w2 ov b E2 <-. destruct ov as [v|]; [apply refines_ret; split; [exact I | reflexivity]|].
    assert (R2 : Rp w2 pr q) by (eapply Rp_ext; eassumption).
    destruct q as [|m [|m2 q]]; cbn [length Nat.eqb].
    + apply refines_ret. destruct R2 as [F2 R2]. split; [exact F2 | cbn; rewrite R2; reflexivity].
    + destruct (Rp_get _ _ _ 0 m R2 eq_refl) as (hm0 & Hm & Rm0). eapply refines_know; [exact Hm|]. apply refines_ret.
      destruct Rm0 as [F3 R3]. split; [exact F3 | cbn; rewrite R3; reflexivity].
    + apply refines_ret. destruct R2 as [F2 R2]. split; [exact F2 | cbn; rewrite R2; reflexivity].
Qed.

Lemma Rs_HM w m b : Rm w m b -> Rs w (HM m) (SM b).
Proof. intros [F <-]. split; [exact F | reflexivity]. Qed.
Lemma Rs_HP w m b : Rp w m b -> Rs w (HP m) (SP b).
Proof. intros [F <-]. split; [exact F | reflexivity]. Qed.

Lemma simplified_refines n w s b : Rs w s b -> (n <= lm w)%nat -> refines n Rs w (h_simplified s) (scalar_simplified b).
Proof.
  intros [F <-] L. destruct s as [k|v|m|p]; cbn [h_simplified scalar_simplified rd].
  - apply refines_ret. split; [exact I | reflexivity].
  - apply refines_ret. split; [exact I | reflexivity].
  - apply mono_simplified_refines. split; [exact F | reflexivity].
  - apply poly_simplified_refines; [split; [exact F | reflexivity] | exact L].
Qed.

End HeapOps.
