(** * The code with memory refines the pure model: sums, products, differences, powers and substitution *)

From Coq Require Import ZArith NArith Bool List Lia.
From Verif Require Import Num Syntax ModelScalar Base ModelHeap HeapMem HeapRef HeapOps.
Import ListNotations.
Local Open Scope num_scope.

Ltac lms := repeat match goal with H : ext _ _ _ |- _ => apply ext_lm in H end; unfold lm in *; lia.

Section HeapOps2.
Context {NN : Num} {RT : Runtime}.

Lemma step_strict {A B C D} n (R : world -> A -> B -> Prop) (S : world -> C -> D -> Prop) w x b f (y : res D) :
  refines (lm w) R w x (Ok b) -> (n <= lm w)%nat ->
  (forall w' a, ext (lm w) w w' -> R w' a b -> refines n S w' (f a) y) -> refines n S w (bindM x f) y.
Proof.
  intros H L K G. destruct (H G) as (w1 & E1 & G1 & Hh & Hr). unfold bindM. destruct (x (wh w)) as [r h1]. cbn [fst snd] in *.
  destruct r as [a|p]; [|contradiction]. destruct (K w1 a E1 Hr G1) as (w2 & E2 & G2 & Hh2 & Hr2). rewrite Hh in *. exists w2.
  split; [eapply ext_trans; [eapply ext_le; eassumption | exact E2]|]. auto.
Qed.

(** ** Plus *)
Lemma poly_plus_k_refines n w p l k : Rp w p l -> (n <= lm w)%nat -> refines n Rs w (h_poly_plus_k p k) (poly_plus_k l k).
Proof.
  intros R L. unfold h_poly_plus_k, poly_plus_k. apply refines_check_poly; [exact R|]. eapply pcopy_build; [exact R | exact L|]. intros c m B E Lm.
  apply refines_reads; [rewrite (Bm_rd _ _ _ _ B); reflexivity|]. rewrite (Bm_rd _ _ _ _ B).
  intros [i|] Hi.
  - destruct (nth_error l i) as [b|] eqn:Hb.
    + destruct (Bm_get _ _ _ _ _ _ B Hb) as (mi & Hm & Rmi). unfold index at 1. rewrite Hb. cbn [bind].
      apply refines_assoc. eapply refines_know; [exact Hm|]. apply refines_assoc. rewrite (coeff_ok _ _ _ Rmi).
      pose proof (set_coeff_ok _ mi b (m_coeff b + k) Rmi) as [Fs Rs'].
      eapply build_put_m; [exact B | exact Fs | lia | apply nth_error_Some; congruence|]. rewrite Rs'. intros mm B' E' Lm'. apply refines_ret_bind.
      eapply publish_m; [exact B'|]. intros w' E'' Hh R'. apply poly_simplified_refines; [exact R' | lms].
    + exfalso. unfold poly_constant_index in Hi. destruct (check _ _); cbn [bind] in Hi; [|discriminate].
      apply first_index_some in Hi. destruct Hi as [_ [z Hz]]. rewrite Nat.sub_0_r in Hz. congruence.
  - eapply append1; [exact B | apply hk_to_mono_ok | lms|]. intros s' w' E' B' L'. eapply publish_m; [exact B'|]. intros w2 E2 Hh R'.
    apply poly_simplified_refines; [exact R' | lms].
Qed.

Lemma poly_plus_var_refines n w p l v : Rp w p l -> (n <= lm w)%nat -> refines n Rs w (h_poly_plus_var p v) (poly_plus_var l v).
Proof.
  intros R L. unfold h_poly_plus_var, poly_plus_var. apply refines_check_poly; [exact R|]. apply refines_check_var.
  eapply pcopy_build; [exact R | exact L|]. intros c m B E Lm.
  apply refines_reads; [rewrite (Bm_rd _ _ _ _ B); reflexivity|]. rewrite (Bm_rd _ _ _ _ B).
  intros [i|] Hi.
  - destruct (nth_error l i) as [b|] eqn:Hb.
    + destruct (Bm_get _ _ _ _ _ _ B Hb) as (mi & Hm & Rmi). unfold index at 1. rewrite Hb. cbn [bind].
      apply refines_assoc. eapply refines_know; [exact Hm|]. apply refines_assoc. rewrite (coeff_ok _ _ _ Rmi).
      pose proof (set_coeff_ok _ mi b (m_coeff b + n1) Rmi) as [Fs Rs'].
      eapply build_put_m; [exact B | exact Fs | lia | apply nth_error_Some; congruence|]. rewrite Rs'. intros mm B' E' Lm'. apply refines_ret_bind.
      eapply publish_m; [exact B'|]. intros w' E'' Hh R'. apply poly_simplified_refines; [exact R' | lms].
    + exfalso. unfold poly_variable_index in Hi. repeat (destruct (check _ _); cbn [bind] in Hi; [|discriminate]).
      apply first_index_some in Hi. destruct Hi as [_ [z Hz]]. rewrite Nat.sub_0_r in Hz. congruence.
  - apply refines_assoc. eapply step_strict; [apply hvar_to_mono_refines | lms|]. intros w1 vm E1 Rv.
    eapply append1; [eapply Bm_ext; [exact E1 | reflexivity | exact B] | exact Rv | lms|]. intros s' w' E' B' L'.
    eapply publish_m; [exact B'|]. intros w2 E2 Hh R'. apply poly_simplified_refines; [exact R' | lms].
Qed.

Lemma Forall_view_fit w p : fit_p w p -> Forall (fit_m w) (view (hm (wh w)) p).
Proof. intros (_ & _ & F). exact F. Qed.
Lemma poly_plus_poly_refines n w p q l l' : Rp w p l -> Rp w q l' -> (n <= lm w)%nat -> refines n Rs w (h_poly_plus_poly p q) (poly_plus_poly l l').
Proof.
  intros R R' L. unfold h_poly_plus_poly, poly_plus_poly. apply refines_check_poly; [exact R|]. apply refines_check_poly; [exact R'|].
  eapply pcopy_build; [exact R | exact L|]. intros c m B E Lm. pose proof (Rp_ext _ _ _ _ _ E R') as R1.
  eapply refines_know; [reflexivity|]. eapply build_append_m; [exact B | apply Forall_view_fit; apply R1 | lia | lms|]. intros s' mm B' E' Lm'.
  change (map (rd_mono (wh (on_m w m))) (view (hm (wh (on_m w m))) q)) with (rd_poly (wh (on_m w m)) q) in B'.
  destruct R1 as [_ R1]. rewrite R1 in B'. eapply publish_m; [exact B'|]. intros w2 E2 Hh R2.
  eapply refines_bind; [apply poly_simplified_refines; [exact R2 | lms]|]. intros w3 a b E3 R3. apply simplified_refines; [exact R3 | lms].
Qed.
Lemma mono_to_poly_refines {C D} n (S : world -> C -> D -> Prop) w m b (f : slice -> M C) (y : res D) : Rm w m b -> (n <= lm w)%nat ->
  (forall w' p, ext n w w' -> Rp w' p (mono_to_poly b) -> refines n S w' (f p) y) -> refines n S w (bindM (hmono_to_poly m) f) y.
Proof.
  intros R L H. unfold hmono_to_poly. apply refines_assoc. eapply refines_step; [apply copy_refines; exact R|]. intros w1 c E1 R1.
  eapply (make_refines n S w1 [c] [b]); [constructor; [exact R1 | constructor] | lms|]. intros w2 p E2 R2 L2. apply H; [eapply ext_trans; eassumption | exact R2].
Qed.
Lemma poly_plus_mono_refines n w p l m b : Rp w p l -> Rm w m b -> (n <= lm w)%nat -> refines n Rs w (h_poly_plus_mono p m) (poly_plus_mono l b).
Proof.
  intros R R' L. unfold h_poly_plus_mono, poly_plus_mono. apply refines_check_poly; [exact R|]. apply refines_check_mono; [exact R'|].
  eapply pcopy_publish; [exact R | exact L|]. intros w1 c E1 R1 L1. eapply mono_to_poly_refines; [eapply Rm_ext; eassumption | lms|].
  intros w2 q E2 R2. eapply refines_bind; [apply poly_plus_poly_refines; [eapply Rp_ext; eassumption | exact R2 | lms]|].
  intros w3 a x E3 R3. apply simplified_refines; [exact R3 | lms].
Qed.

Lemma Rs_HK w k : Rs w (HK k) (SK k).
Proof. split; [exact I | reflexivity]. Qed.
Lemma Rs_HV w v : Rs w (HV v) (SV v).
Proof. split; [exact I | reflexivity]. Qed.
Lemma simplified_two n w m m' b b' : Rm w m b -> Rm w m' b' -> (n <= lm w)%nat ->
  refines n Rs w (bindM (make_monos [m; m']) (fun p => h_simplified (HP p))) (scalar_simplified (SP [b; b'])).
Proof.
  intros R R' L. eapply (make_refines n Rs w [m; m'] [b; b']); [repeat (constructor; [assumption|]); constructor | exact L|].
  intros w1 p E1 R1 L1. apply simplified_refines; [apply Rs_HP; exact R1 | lms].
Qed.

Lemma mono_plus_k_refines n w m b k : Rm w m b -> (n <= lm w)%nat -> refines n Rs w (h_mono_plus_k m k) (mono_plus_k b k).
Proof.
  intros R L. unfold h_mono_plus_k, mono_plus_k. apply refines_check_mono; [exact R|]. apply refines_reads; [destruct R as [_ <-]; reflexivity|].
  intros [|] _.
  - rewrite (coeff_ok _ _ _ R). apply simplified_refines; [apply Rs_HK | exact L].
  - eapply refines_step; [apply copy_refines; exact R|]. intros w1 c E1 R1. apply simplified_two; [exact R1 | apply hk_to_mono_ok | lms].
Qed.
Lemma mono_plus_var_refines n w m b v : Rm w m b -> (n <= lm w)%nat -> refines n Rs w (h_mono_plus_var m v) (mono_plus_var b v).
Proof.
  intros R L. unfold h_mono_plus_var, mono_plus_var. apply refines_check_mono; [exact R|]. apply refines_check_var.
  apply refines_reads; [destruct R as [_ <-]; reflexivity|]. intros t _. eapply refines_step; [apply copy_refines; exact R|]. intros w1 c E1 R1.
  destruct t.
  - rewrite (coeff_ok _ _ _ R1). apply simplified_refines; [apply Rs_HM; apply set_coeff_ok; exact R1 | lms].
  - eapply refines_step; [apply hvar_to_mono_refines|]. intros w2 vm E2 R2. apply simplified_two; [eapply Rm_ext; eassumption | exact R2 | lms].
Qed.
Lemma mono_plus_mono_refines n w m b m' b' : Rm w m b -> Rm w m' b' -> (n <= lm w)%nat -> refines n Rs w (h_mono_plus_mono m m') (mono_plus_mono b b').
Proof.
  intros R R' L. unfold h_mono_plus_mono, mono_plus_mono. apply refines_check_mono; [exact R|]. apply refines_check_mono; [exact R'|].
  apply refines_reads; [destruct R as [_ <-], R' as [_ <-]; reflexivity|]. intros t _. eapply refines_step; [apply copy_refines; exact R|]. intros w1 c E1 R1.
  destruct t.
  - rewrite (coeff_ok _ _ _ R1), (coeff_ok _ _ _ R'). apply simplified_refines; [apply Rs_HM; apply set_coeff_ok; exact R1 | lms].
  - apply simplified_two; [exact R1 | eapply Rm_ext; eassumption | lms].
Qed.
Lemma mono_plus_poly_refines n w m b p l : Rm w m b -> Rp w p l -> (n <= lm w)%nat -> refines n Rs w (h_mono_plus_poly m p) (mono_plus_poly b l).
Proof.
  intros R R' L. unfold h_mono_plus_poly, mono_plus_poly. apply refines_check_mono; [exact R|]. apply refines_check_poly; [exact R'|].
  eapply refines_step; [apply copy_refines; exact R|]. intros w1 c E1 R1.
  eapply refines_bind; [apply poly_plus_mono_refines; [eapply Rp_ext; eassumption | exact R1 | lms]|]. intros w2 a x E2 R2.
  apply simplified_refines; [exact R2 | lms].
Qed.
Lemma var_plus_k_refines n w v k : (n <= lm w)%nat -> refines n Rs w (h_var_plus_k v k) (var_plus_k v k).
Proof.
  intro L. unfold h_var_plus_k, var_plus_k. apply refines_check_var. eapply refines_step; [apply hvar_to_mono_refines|]. intros w1 vm E1 R1.
  apply (simplified_two n w1 vm (hk_to_mono k) _ _ R1 (hk_to_mono_ok _ _)). lms.
Qed.
Lemma var_plus_var_refines n w v r : (n <= lm w)%nat -> refines n Rs w (h_var_plus_var v r) (var_plus_var v r).
Proof.
  intro L. unfold h_var_plus_var, var_plus_var. apply refines_check_var. destruct (same_id v r).
  - eapply refines_step; [apply new_mono_refines|]. intros w1 m E1 R1. apply simplified_refines; [apply Rs_HM; exact R1 | lms].
  - eapply refines_step; [apply hvar_to_mono_refines|]. intros w1 m E1 R1. eapply refines_step; [apply hvar_to_mono_refines|]. intros w2 m2 E2 R2.
    apply simplified_two; [eapply Rm_ext; eassumption | exact R2 | lms].
Qed.
Lemma var_plus_mono_refines n w v m b : Rm w m b -> (n <= lm w)%nat -> refines n Rs w (h_var_plus_mono v m) (var_plus_mono v b).
Proof.
  intros R L. unfold h_var_plus_mono, var_plus_mono. apply refines_check_var.
  eapply refines_bind; [apply mono_plus_var_refines; [exact R | lms]|]. intros w2 a x E2 R2. apply simplified_refines; [exact R2 | lms].
Qed.
Lemma var_plus_poly_refines n w v p l : Rp w p l -> (n <= lm w)%nat -> refines n Rs w (h_var_plus_poly v p) (var_plus_poly v l).
Proof.
  intros R L. unfold h_var_plus_poly, var_plus_poly. apply refines_check_var.
  eapply refines_bind; [apply poly_plus_var_refines; [exact R | lms]|]. intros w2 a x E2 R2. apply simplified_refines; [exact R2 | lms].
Qed.
Lemma Rs_M w m b : Rs w (HM m) b -> exists b', b = SM b' /\ Rm w m b'.
Proof. intros [F <-]. eexists. split; [reflexivity|]. split; [exact F | reflexivity]. Qed.
Lemma Rs_P w m b : Rs w (HP m) b -> exists b', b = SP b' /\ Rp w m b'.
Proof. intros [F <-]. eexists. split; [reflexivity|]. split; [exact F | reflexivity]. Qed.
Lemma k_plus_refines n w c r b : Rs w r b -> (n <= lm w)%nat -> refines n Rs w (h_k_plus c r) (k_plus c b).
Proof.
  intros R L. unfold h_k_plus, k_plus. apply refines_check_scalar; [exact R|]. destruct r as [k|v|m|p].
  - destruct R as [_ <-]. apply refines_ret. apply Rs_HK.
  - destruct R as [_ <-]. apply var_plus_k_refines. exact L.
  - apply Rs_M in R. destruct R as (b' & -> & R). apply mono_plus_k_refines; assumption.
  - apply Rs_P in R. destruct R as (b' & -> & R). apply poly_plus_k_refines; assumption.
Qed.
Lemma plus_refines n w s r a b : Rs w s a -> Rs w r b -> (n <= lm w)%nat -> refines n Rs w (h_plus s r) (scalar_plus a b).
Proof.
  intros Ra Rb L. destruct s as [c|x|m|p].
  - destruct Ra as [_ <-]. apply k_plus_refines; assumption.
  - destruct Ra as [_ <-]. destruct r as [k|v|m'|p'].
    + destruct Rb as [_ <-]. apply var_plus_k_refines. exact L.
    + destruct Rb as [_ <-]. apply var_plus_var_refines. exact L.
    + apply Rs_M in Rb. destruct Rb as (b' & -> & Rb). apply var_plus_mono_refines; assumption.
    + apply Rs_P in Rb. destruct Rb as (b' & -> & Rb). apply var_plus_poly_refines; assumption.
  - apply Rs_M in Ra. destruct Ra as (a' & -> & Ra). destruct r as [k|v|m'|p'].
    + destruct Rb as [_ <-]. apply mono_plus_k_refines; assumption.
    + destruct Rb as [_ <-]. apply mono_plus_var_refines; assumption.
    + apply Rs_M in Rb. destruct Rb as (b' & -> & Rb). apply mono_plus_mono_refines; assumption.
    + apply Rs_P in Rb. destruct Rb as (b' & -> & Rb). apply mono_plus_poly_refines; assumption.
  - apply Rs_P in Ra. destruct Ra as (a' & -> & Ra). destruct r as [k|v|m'|p'].
    + destruct Rb as [_ <-]. apply poly_plus_k_refines; assumption.
    + destruct Rb as [_ <-]. apply poly_plus_var_refines; assumption.
    + apply Rs_M in Rb. destruct Rb as (b' & -> & Rb). apply poly_plus_mono_refines; assumption.
    + apply Rs_P in Rb. destruct Rb as (b' & -> & Rb). apply poly_plus_poly_refines; assumption.
Qed.

(** ** Loops over indices *)
Lemma loop_idx {S B X} n w (l : list X) (J : nat -> world -> S -> B -> Prop) (body : S -> nat -> M S) (g : B -> X -> res B) acc accp len :
  len = length l -> J 0%nat w acc accp ->
  (forall w' acc accp i x, ext n w w' -> J i w' acc accp -> nth_error l i = Some x -> refines n (J (Datatypes.S i)) w' (body acc i) (g accp x)) ->
  refines n (J len) w (forM body (seq 0 len) acc) (foldM g accp l).
Proof.
  intros -> HJ Hb.
  enough (K : forall rest pre w1 acc accp, ext n w w1 -> l = pre ++ rest -> J (length pre) w1 acc accp ->
    refines n (J (length l)) w1 (forM body (seq (length pre) (length rest)) acc) (foldM g accp rest)).
  { exact (K l [] w acc accp (ext_refl _ _) eq_refl HJ). }
  induction rest as [|x rest IH]; intros pre w1 acc1 accp1 E V J1.
  - apply refines_ret. rewrite V, app_nil_r. exact J1.
  - cbn [seq length forM foldM]. eapply refines_bind; [apply Hb; [exact E | exact J1 |]|].
    { rewrite V, nth_error_app2, Nat.sub_diag by lia. reflexivity. }
    intros w2 acc2 accp2 E2 J2. specialize (IH (pre ++ [x]) w2 acc2 accp2). rewrite app_length, Nat.add_1_r in IH. apply IH; [|rewrite <- app_assoc; exact V|exact J2].
    eapply ext_trans; eassumption.
Qed.
Lemma mapM_fold {X Y} (f : X -> res Y) l q : foldM (fun q m => x <- f m ;; Ok (q ++ [x])) q l = (r <- mapM f l ;; Ok (q ++ r)).
Proof.
  revert q. induction l as [|a l IH]; intro q; cbn; [rewrite app_nil_r; reflexivity|]. destruct (f a) as [x|]; cbn; [|reflexivity]. rewrite IH.
  destruct (mapM f l); cbn; [|reflexivity]. rewrite <- app_assoc. reflexivity.
Qed.
Lemma mapM_fold0 {X Y} (f : X -> res Y) l : mapM f l = foldM (fun q m => x <- f m ;; Ok (q ++ [x])) [] l.
Proof. rewrite mapM_fold. destruct (mapM f l); reflexivity. Qed.

(** ** Multiply *)
Lemma mono_mul_k_refines n w m b k : Rm w m b -> refines n Rm w (h_mono_mul_k m k) (mono_mul_k b k).
Proof.
  intros R. unfold h_mono_mul_k, mono_mul_k. apply refines_check_mono; [exact R|]. eapply refines_step; [apply copy_refines; exact R|]. intros w1 c E1 R1.
  apply refines_ret. rewrite (coeff_ok _ _ _ R1). apply set_coeff_ok. exact R1.
Qed.

Lemma Bi_get w s l i : Bi w s l -> index (view (hi (wh w)) s) i = index l i.
Proof. intros (_ & -> & _). reflexivity. Qed.

Lemma mono_mul_var_refines n w m b v : Rm w m b -> refines n Rm w (h_mono_mul_var m v) (mono_mul_var b v).
Proof.
  intros R. unfold h_mono_mul_var, mono_mul_var. apply refines_reads; [destruct R as [_ <-]; reflexivity|]. intros [] Hc. apply refines_check_var.
  assert (Len : length (m_exps b) = length (m_vars b)).
  { destruct R as [_ Rb]. rewrite Rb in Hc. unfold check, mono_check in Hc. destruct (Nat.eqb_spec (length (m_exps b)) (length (m_vars b))); [assumption | discriminate]. }
  eapply copy_build; [exact R|]. intros es vs mi mv w' Be Bs E' Lv.
  eapply refines_know. { destruct R as [[_ F] <-]. destruct (fit_v_ext n w w' _ E' F) as [_ V]. rewrite V. reflexivity. }
  replace (view (hv (wh w)) (h_vars m)) with (m_vars b) by (destruct R as [_ <-]; reflexivity). cbn [h_vars h_exps h_coeff].
  destruct (find_var v (m_vars b)) as [i|] eqn:Hi.
  - assert (Li : (i < length (m_exps b))%nat).
    { apply find_var_some in Hi. destruct Hi as (u & Hu & _). rewrite Len. apply nth_error_Some. congruence. }
    destruct (nth_error (m_exps b) i) as [e|] eqn:He; [|apply nth_error_None in He; lia].
    eapply refines_know; [rewrite (Bi_get _ _ _ i Be); unfold index; rewrite He; reflexivity|].
    eapply build_put_i; [exact Be | exact Li|]. intros mi2 Be2 E2. unfold add_at. rewrite He. eapply publish_mono; [exact Be2 | exact Bs].
  - eapply build_append_v; [exact Bs | exact Lv|]. intros s' m' Bs' E2 _ _. eapply build_append_i; [exact Be|]. intros s2 m2 Be' E3.
    eapply publish_mono; [exact Be' | exact Bs'].
Qed.

Lemma unique_fold l out : foldM (fun out v => Ok (match find_var v out with None => out ++ [v] | Some _ => out end)) out l = Ok (unique_vars_loop l out).
Proof. revert out. induction l as [|v l IH]; intro out; cbn; [reflexivity|]. rewrite IH. destruct (find_var v out); reflexivity. Qed.

Definition Juniq (w0 : world) (w : world) (s : slice) (l : list var) : Prop :=
  Bv (length (hv (wh w0))) w s l /\ (length (hv (wh w0)) <= length (hv (wh w)))%nat /\ (forall a, (a < length (hv (wh w0)))%nat -> cells (hv (wh w)) a = cells (hv (wh w0)) a).
Lemma unique_refines n w s l : inb (hv (wh w)) s -> view (hv (wh w)) s = l -> refines n (Juniq w) w (h_unique s) (Ok (unique_vars l)).
Proof.
  intros B V. unfold h_unique, unique_vars. rewrite <- unique_fold. unfold indices.
  apply (loop_idx n w l (fun _ => Juniq w)).
  - rewrite <- V. symmetry. apply view_length. exact B.
  - split; [apply built_nil|]. split; [apply Nat.le_refl | reflexivity].
  - intros w1 out outp i x E (J1 & J2 & J3) Hx.
    assert (V1 : view (hv (wh w1)) s = l).
    { rewrite <- V. destruct B as [B1 B2]. destruct (Nat.eq_dec (s_len s) 0) as [Z|Z]; [rewrite !view_zero by exact Z; reflexivity|].
      apply view_same. intros j Hj. unfold cell. rewrite J3; [reflexivity|]. apply B2. lia. }
    eapply refines_know; [rewrite V1; unfold index; rewrite Hx; reflexivity|].
    eapply refines_know; [destruct J1 as (_ & V2 & _); rewrite V2; reflexivity|].
    destruct (find_var x outp).
    + apply refines_ret. split; [exact J1 | split; assumption].
    + apply refines_bind_ret. eapply build_append_v; [exact J1 | exact J2|]. intros s' m' B' E' Q' L'. apply refines_ret.
      split; [exact B'|]. split; [cbn; lia|]. intros z Hz. change (cells m' z = cells (hv (wh w)) z). rewrite Q' by exact Hz. apply J3. exact Hz.
Qed.

Lemma degree_fold vs es variables deg :
  degree_loop vs es variables deg =
  (r <- foldM (fun st v => match find_var v variables, snd st with Some i, e :: es' => Ok (add_at i e (fst st), es') | _, _ => Panic PRuntime end) (deg, es) vs ;;
   Ok (fst r)).
Proof.
  revert es deg. induction vs as [|v vs IH]; intros es deg; cbn; [reflexivity|]. destruct (find_var v variables); [|reflexivity].
  destruct es; [reflexivity|]. apply IH.
Qed.
Lemma add_at_length i d l : length (add_at i d l) = length l.
Proof. unfold add_at. destruct (nth_error l i); [apply set_nth_length | reflexivity]. Qed.

Definition Jdeg nb vs vl (ds : slice) (w : world) (d : list Z) : Prop :=
  Bv nb w vs vl /\ Bi w ds d /\ length d = length vl.
Lemma degree_refines n w m b nb vs vl ds d :
  Rm w m b -> Jdeg nb vs vl ds w d ->
  refines n (fun w' (_ : unit) d' => Jdeg nb vs vl ds w' d') w (h_degree_loop (h_vars m) (h_exps m) vs ds) (degree_loop (m_vars b) (m_exps b) vl d).
Proof.
  intros R J. rewrite degree_fold. unfold h_degree_loop, indices. apply refines_bind_ret.
  eapply (refines_bind n (fun w' (_ : unit) st => Jdeg nb vs vl ds w' (fst st))); [|intros w' a st _ Hs; apply refines_ret; exact Hs].
  pose proof R as [[F1 F2] Rb]. eapply refines_post;
    [|apply (loop_idx n w (m_vars b) (fun i w' (_ : unit) st => Jdeg nb vs vl ds w' (fst st) /\ snd st = skipn i (m_exps b)) _ _ tt (d, m_exps b) (s_len (h_vars m)))].
  - intros w' a st [H _]. exact H.
  - rewrite <- Rb. cbn. symmetry. apply view_length. apply F2.
  - split; [exact J | reflexivity].
  - intros w1 [] [dd es] i x E [(J1 & J2 & J3) Hs] Hx. cbn [fst snd] in *.
    destruct (fit_v_ext n w w1 _ E F2) as [_ Vv]. destruct (fit_i_ext n w w1 _ E F1) as [_ Ve].
    assert (Ev : view (hv (wh w1)) (h_vars m) = m_vars b) by (rewrite Vv, <- Rb; reflexivity).
    assert (Ee : view (hi (wh w1)) (h_exps m) = m_exps b) by (rewrite Ve, <- Rb; reflexivity).
    eapply refines_know; [rewrite Ev; unfold index; rewrite Hx; reflexivity|].
    eapply refines_know; [destruct J1 as (_ & V2 & _); rewrite V2; reflexivity|].
    destruct (find_var x vl) as [k|] eqn:Hk; [|apply refines_fail].
    assert (Lk : (k < length dd)%nat). { apply find_var_some in Hk. destruct Hk as (u & Hu & _). rewrite J3. apply nth_error_Some. congruence. }
    destruct (nth_error (m_exps b) i) as [e|] eqn:He.
    + assert (Sk : skipn i (m_exps b) = e :: skipn (S i) (m_exps b)).
      { clear - He. revert i He. induction (m_exps b) as [|a l IH]; intros [|i] He; cbn in *; try discriminate; [congruence|]. apply IH. exact He. }
      rewrite Hs, Sk. eapply refines_know; [rewrite Ee; unfold index; rewrite He; reflexivity|].
      destruct (nth_error dd k) as [dk|] eqn:Hd; [|apply nth_error_None in Hd; lia].
      eapply refines_know; [rewrite (Bi_get _ _ _ k J2); unfold index; rewrite Hd; reflexivity|].
      apply refines_bind_ret. eapply build_put_i; [exact J2 | exact Lk|]. intros mi2 B2 E2. apply refines_ret. cbn [fst snd]. split; [|reflexivity].
      split; [exact J1|]. unfold add_at. rewrite Hd. split; [exact B2 | rewrite set_nth_length; exact J3].
    + assert (Sk : skipn i (m_exps b) = []) by (apply skipn_all2; apply nth_error_None; exact He).
      rewrite Hs, Sk. intro G. exists w1. split; [apply ext_refl|]. split; [exact G|]. unfold bindM, get_int, reads. rewrite Ee. unfold index. rewrite He. split; reflexivity.
Qed.

Lemma map_repeat {X Y} (y : Y) (l : list X) : map (fun _ => y) l = repeat y (length l).
Proof. induction l as [|x l IH]; cbn; [reflexivity | rewrite IH; reflexivity]. Qed.

Lemma mono_mul_mono_refines n w m r b b' : Rm w m b -> Rm w r b' -> refines n Rm w (h_mono_mul_mono m r) (mono_mul_mono b b').
Proof.
  intros R R'. unfold h_mono_mul_mono, mono_mul_mono. apply refines_check_mono; [exact R|]. apply refines_check_mono; [exact R'|].
  eapply refines_know; [reflexivity|]. eapply append_fit_v; [apply R|]. intros all mv Ia Va E1.
  replace (view (hv (wh w)) (h_vars m) ++ view (hv (wh w)) (h_vars r)) with (m_vars b ++ m_vars b') in Va by (destruct R as [_ <-], R' as [_ <-]; reflexivity).
  eapply refines_step; [apply (unique_refines n _ all (m_vars b ++ m_vars b')); [exact Ia | exact Va]|]. intros w2 vs E2 (B2 & L2 & _).
  apply build_make_i. intros deg mi Bd E3. set (variables := unique_vars (m_vars b ++ m_vars b')) in *.
  assert (Ls : s_len vs = length variables) by (eapply built_len; exact B2). rewrite Ls, <- map_repeat in Bd.
  assert (E : ext n w (on_i w2 mi)) by (eapply ext_trans; [exact E1 | eapply ext_trans; [exact E2 | exact E3]]).
  eapply refines_bind; [eapply (degree_refines n _ m b); [eapply Rm_ext; eassumption|]; split; [exact B2 | split; [exact Bd | apply map_length]]|].
  intros w4 [] d1 E4 J4. eapply refines_bind; [eapply (degree_refines n _ r b'); [|exact J4]|].
  { eapply Rm_ext; [exact E4|]. eapply Rm_ext; [exact E | exact R']. }
  intros w5 [] d2 E5 (J5 & J6 & _). rewrite (coeff_ok _ _ _ R), (coeff_ok _ _ _ R'). eapply publish_mono; [exact J6 | exact J5].
Qed.

Lemma set_nth_mid {X} (l : list X) x y r : set_nth (length l) x (l ++ y :: r) = l ++ x :: r.
Proof. induction l as [|a l IH]; cbn; [reflexivity | rewrite IH; reflexivity]. Qed.
Lemma skipn_nth {X} (l : list X) i x : nth_error l i = Some x -> skipn i l = x :: skipn (S i) l.
Proof. revert i. induction l as [|a l IH]; intros [|i] H; cbn in *; try discriminate; [congruence|]. apply IH. exact H. Qed.

(** the loop that overwrites a copy *)
Lemma map_in_place_refines n w c l (f : hmono -> M hmono) (g : Monomial -> res Monomial) :
  Jb n w c l ->
  (forall n w m b, Rm w m b -> refines n Rm w (f m) (g b)) ->
  refines n (fun w' (_ : unit) q => Jb n w' c q) w (h_map_in_place f c) (mapM g l).
Proof.
  intros [B L] H. rewrite mapM_fold0. unfold h_map_in_place, indices.
  eapply refines_post; [|apply (loop_idx n w l (fun i w' (_ : unit) q => Jb n w' c (q ++ skipn i l) /\ length q = i) _ _ tt [] (s_len c))].
  - intros w' [] q [J Lq]. rewrite (Bm_len _ _ _ _ B), skipn_all, app_nil_r in J. exact J.
  - exact (Bm_len _ _ _ _ B).
  - split; [split; assumption | reflexivity].
  - intros w1 [] q i x E [[B1 L1] Lq] Hx. rewrite (skipn_nth _ _ _ Hx) in B1.
    assert (Hn : nth_error (q ++ x :: skipn (S i) l) i = Some x) by (rewrite nth_error_app2, Lq, Nat.sub_diag by lia; reflexivity).
    destruct (Bm_get _ _ _ _ _ _ B1 Hn) as (m & Hm & Rx). eapply refines_know; [exact Hm|].
    eapply refines_strict; [apply H; exact Rx | exact L1|]. intros w2 a b E2 [F2 R2].
    apply refines_bind_ret. eapply build_put_m; [eapply Bm_ext; [exact E2 | reflexivity | exact B1] | exact F2 | lia | apply nth_error_Some; congruence|].
    intros mm B3 E3 L3. apply refines_ret. rewrite R2 in B3. rewrite <- Lq, set_nth_mid in B3.
    split; [|rewrite app_length; cbn; lia]. rewrite <- app_assoc. rewrite <- Lq. split; [exact B3|]. lms.
Qed.

Lemma poly_mul_k_refines n w p l k : Rp w p l -> (n <= lm w)%nat -> refines n Rs w (h_poly_mul_k p k) (poly_mul_k l k).
Proof.
  intros R L. unfold h_poly_mul_k, poly_mul_k. apply refines_check_poly; [exact R|]. eapply pcopy_build; [exact R | exact L|]. intros c m B E Lm.
  eapply refines_bind; [apply (map_in_place_refines n _ c l); [split; [exact B | lms]|]; intros; apply mono_mul_k_refines; assumption|].
  intros w2 [] q E2 [B2 L2]. eapply publish_m; [exact B2|]. intros w3 E3 Hh R3. apply poly_simplified_refines; [exact R3 | lms].
Qed.
Lemma poly_mul_var_refines n w p l v : Rp w p l -> (n <= lm w)%nat -> refines n Rs w (h_poly_mul_var p v) (poly_mul_var l v).
Proof.
  intros R L. unfold h_poly_mul_var, poly_mul_var. apply refines_check_poly; [exact R|]. apply refines_check_var.
  eapply pcopy_build; [exact R | exact L|]. intros c m B E Lm.
  eapply refines_bind; [apply (map_in_place_refines n _ c l); [split; [exact B | lms]|]; intros; apply mono_mul_var_refines; assumption|].
  intros w2 [] q E2 [B2 L2]. eapply publish_m; [exact B2|]. intros w3 E3 Hh R3. apply poly_simplified_refines; [exact R3 | lms].
Qed.
Lemma poly_mul_mono_refines n w p l r b : Rp w p l -> Rm w r b -> (n <= lm w)%nat -> refines n Rs w (h_poly_mul_mono p r) (poly_mul_mono l b).
Proof.
  intros R R' L. unfold h_poly_mul_mono, poly_mul_mono. apply refines_check_poly; [exact R|]. apply refines_check_mono; [exact R'|].
  eapply pcopy_publish; [exact R | exact L|]. intros w1 c E1 R1 L1. rewrite mapM_fold0.
  eapply (refines_bind n (Jb n)).
  - apply loop_p; [exact R1 | split; [apply Bm_nil | lms]|]. intros w2 o op m bm E2 [B2 L2] Rm2.
    eapply refines_strict; [apply mono_mul_mono_refines; [exact Rm2|] | exact L2|].
    { eapply Rm_ext; [exact E2|]. eapply Rm_ext; [exact E1 | exact R']. }
    intros w3 x xb E3 R3. apply refines_bind_ret. eapply append1; [eapply Bm_ext; [exact E3 | reflexivity | exact B2] | exact R3 | lms|].
    intros s' w' E' B' L'. apply refines_ret. split; assumption.
  - intros w2 o op E2 [B2 L2]. eapply publish_m; [exact B2|]. intros w3 E3 Hh R3. apply poly_simplified_refines; [exact R3 | lms].
Qed.
Lemma poly_mul_poly_refines n w p q l l' : Rp w p l -> Rp w q l' -> (n <= lm w)%nat -> refines n Rs w (h_poly_mul_poly p q) (poly_mul_poly l l').
Proof.
  intros R R' L. unfold h_poly_mul_poly, poly_mul_poly. apply refines_check_poly; [exact R|]. apply refines_check_poly; [exact R'|].
  eapply pcopy_publish; [exact R | exact L|]. intros w1 c E1 R1 L1. eapply (refines_bind n Rs).
  - apply loop_p; [eapply Rp_ext; eassumption | apply Rs_HK|]. intros w2 a ab m bm E2 J2 Rm2.
    eapply refines_bind; [apply poly_mul_mono_refines; [eapply Rp_ext; eassumption | exact Rm2 | lms]|]. intros w3 t tb E3 R3.
    apply plus_refines; [eapply Rs_ext; eassumption | exact R3 | lms].
  - intros w2 a ab E2 R2. apply simplified_refines; [exact R2 | lms].
Qed.

Lemma var_mul_k_refines n w v k : refines n Rs w (h_var_mul_k v k) (var_mul_k v k).
Proof.
  unfold h_var_mul_k, var_mul_k. apply refines_check_var. eapply refines_step; [apply new_mono_refines|]. intros w1 m E1 R1. apply mono_simplified_refines. exact R1.
Qed.
Lemma var_mul_var_refines n w v r : refines n Rs w (h_var_mul_var v r) (var_mul_var v r).
Proof.
  unfold h_var_mul_var, var_mul_var. apply refines_check_var. apply refines_check_var. destruct (same_id r v);
    (eapply refines_step; [apply new_mono_refines|]; intros w1 m E1 R1; apply mono_simplified_refines; exact R1).
Qed.
Lemma var_mul_mono_refines n w v m b : Rm w m b -> refines n Rs w (h_var_mul_mono v m) (var_mul_mono v b).
Proof.
  intro R. unfold h_var_mul_mono, var_mul_mono. apply refines_check_var. apply refines_check_mono; [exact R|].
  eapply refines_bind; [apply mono_mul_var_refines; exact R|]. intros w1 a x E1 R1. apply mono_simplified_refines. exact R1.
Qed.
Lemma var_mul_poly_refines n w v p l : Rp w p l -> (n <= lm w)%nat -> refines n Rs w (h_var_mul_poly v p) (var_mul_poly v l).
Proof.
  intros R L. unfold h_var_mul_poly, var_mul_poly. apply refines_check_var. apply refines_check_poly; [exact R|].
  eapply refines_bind; [apply poly_mul_var_refines; assumption|]. intros w1 a x E1 R1. apply simplified_refines; [exact R1 | lms].
Qed.
Lemma mono_mul_poly_refines n w m b p l : Rm w m b -> Rp w p l -> (n <= lm w)%nat -> refines n Rs w (h_mono_mul_poly m p) (mono_mul_poly b l).
Proof.
  intros R R' L. unfold h_mono_mul_poly, mono_mul_poly. apply refines_check_mono; [exact R|]. apply refines_check_poly; [exact R'|].
  apply poly_mul_mono_refines; assumption.
Qed.
Lemma as_HM_refines n w x y : refines n Rm w x y -> refines n Rs w (as_HM x) (as_SM y).
Proof. intro H. unfold as_HM, as_SM. eapply refines_bind; [exact H|]. intros w1 a b E R. apply refines_ret. apply Rs_HM. exact R. Qed.
Lemma k_mul_refines n w c r b : Rs w r b -> (n <= lm w)%nat -> refines n Rs w (h_k_mul c r) (k_mul c b).
Proof.
  intros R L. unfold h_k_mul, k_mul. apply refines_check_scalar; [exact R|]. destruct r as [k|v|m|p].
  - destruct R as [_ <-]. apply refines_ret. apply Rs_HK.
  - destruct R as [_ <-]. apply var_mul_k_refines.
  - apply Rs_M in R. destruct R as (b' & -> & R). apply as_HM_refines. apply mono_mul_k_refines; assumption.
  - apply Rs_P in R. destruct R as (b' & -> & R). apply poly_mul_k_refines; assumption.
Qed.
Lemma mul_refines n w s r a b : Rs w s a -> Rs w r b -> (n <= lm w)%nat -> refines n Rs w (h_mul s r) (scalar_mul a b).
Proof.
  intros Ra Rb L. destruct s as [c|x|m|p].
  - destruct Ra as [_ <-]. apply k_mul_refines; assumption.
  - destruct Ra as [_ <-]. destruct r as [k|v|m'|p'].
    + destruct Rb as [_ <-]. apply var_mul_k_refines.
    + destruct Rb as [_ <-]. apply var_mul_var_refines.
    + apply Rs_M in Rb. destruct Rb as (b' & -> & Rb). apply var_mul_mono_refines; assumption.
    + apply Rs_P in Rb. destruct Rb as (b' & -> & Rb). apply var_mul_poly_refines; assumption.
  - apply Rs_M in Ra. destruct Ra as (a' & -> & Ra). destruct r as [k|v|m'|p'].
    + destruct Rb as [_ <-]. apply as_HM_refines. apply mono_mul_k_refines; assumption.
    + destruct Rb as [_ <-]. apply as_HM_refines. apply mono_mul_var_refines; assumption.
    + apply Rs_M in Rb. destruct Rb as (b' & -> & Rb). apply as_HM_refines. apply mono_mul_mono_refines; assumption.
    + apply Rs_P in Rb. destruct Rb as (b' & -> & Rb). apply mono_mul_poly_refines; assumption.
  - apply Rs_P in Ra. destruct Ra as (a' & -> & Ra). destruct r as [k|v|m'|p'].
    + destruct Rb as [_ <-]. apply poly_mul_k_refines; assumption.
    + destruct Rb as [_ <-]. apply poly_mul_var_refines; assumption.
    + apply Rs_M in Rb. destruct Rb as (b' & -> & Rb). apply poly_mul_mono_refines; assumption.
    + apply Rs_P in Rb. destruct Rb as (b' & -> & Rb). apply poly_mul_poly_refines; assumption.
Qed.
Lemma mul_float_refines n w s a f : Rs w s a -> (n <= lm w)%nat -> refines n Rs w (h_mul_float s f) (scalar_mul_float a f).
Proof.
  intros Ra L. destruct s as [c|x|m|p].
  - destruct Ra as [_ <-]. apply k_mul_refines; [apply Rs_HK | exact L].
  - destruct Ra as [_ <-]. cbn [h_mul_float scalar_mul_float rd]. eapply refines_bind; [apply var_mul_k_refines|]. intros w1 y b E R. apply simplified_refines; [exact R | lms].
  - apply Rs_M in Ra. destruct Ra as (a' & -> & Ra). apply as_HM_refines. apply mono_mul_k_refines. exact Ra.
  - apply Rs_P in Ra. destruct Ra as (a' & -> & Ra). cbn [h_mul_float scalar_mul_float]. eapply refines_bind; [apply poly_mul_k_refines; assumption|].
    intros w1 y b E R. apply simplified_refines; [exact R | lms].
Qed.
Lemma minus_refines n w s r a b : Rs w s a -> Rs w r b -> (n <= lm w)%nat -> refines n Rs w (h_minus s r) (scalar_minus a b).
Proof.
  intros Ra Rb L. unfold h_minus, scalar_minus. apply refines_check_scalar; [exact Ra|]. apply refines_check_scalar; [exact Rb|].
  eapply refines_bind; [apply mul_float_refines; assumption|]. intros w1 t tb E R. apply plus_refines; [eapply Rs_ext; eassumption | exact R | lms].
Qed.
Lemma power_loop_refines n base bb k : forall w r rb, Rs w base bb -> Rs w r rb -> (n <= lm w)%nat -> refines n Rs w (h_power_loop base k r) (power_loop bb k rb).
Proof.
  induction k as [|k IH]; intros w r rb Rb Rr L; cbn [h_power_loop power_loop]; [apply refines_ret; exact Rr|].
  eapply refines_bind; [apply mul_refines; [exact Rr | exact Rb | exact L]|]. intros w1 t tb E R. apply IH; [eapply Rs_ext; eassumption | exact R | lms].
Qed.
Lemma power_refines n w s a e : Rs w s a -> (n <= lm w)%nat -> refines n Rs w (h_power s e) (scalar_power a e).
Proof.
  intros Ra L. unfold h_power, scalar_power. apply refines_check_scalar; [exact Ra|]. apply refines_reads; [reflexivity|]. intros [] _.
  apply power_loop_refines; [exact Ra | apply Rs_HK | exact L].
Qed.

(** ** Substitute *)
Lemma var_substitute_refines n w v vIn e eb : Rs w e eb -> refines n Rs w (h_var_substitute v vIn e) (var_substitute v vIn eb).
Proof.
  intro R. unfold h_var_substitute, var_substitute. apply refines_check_var. apply refines_check_var. apply refines_check_scalar; [exact R|].
  apply refines_ret. destruct (_ && _); [exact R | apply Rs_HV].
Qed.
Lemma subst_fold sub vs es prod :
  subst_loop sub vs es prod =
  (r <- foldM (fun st v => match snd st with
                           | e :: es' => b <- sub v ;; pw <- scalar_power b e ;; p <- scalar_mul (fst st) pw ;; Ok (p, es')
                           | [] => Panic PRuntime end) (prod, es) vs ;;
   Ok (fst r)).
Proof.
  revert es prod. induction vs as [|v vs IH]; intros es prod; cbn; [reflexivity|]. destruct es as [|e es]; [reflexivity|]. destruct (sub v); cbn; [|reflexivity].
  destruct (scalar_power _ e); cbn; [|reflexivity]. destruct (scalar_mul prod _); cbn; [|reflexivity]. apply IH.
Qed.
Lemma subst_loop_refines n w (sub : var -> M hscalar) (subp : var -> res scalar) m b : Rm w m b -> mono_check b = true -> (n <= lm w)%nat ->
  (forall w' v, ext n w w' -> refines n Rs w' (sub v) (subp v)) ->
  refines n Rs w (h_subst_loop sub m) (subst_loop subp (m_vars b) (m_exps b) (SK (m_coeff b))).
Proof.
  intros R Ck L Hs. rewrite subst_fold. unfold h_subst_loop, indices. apply refines_bind_ret.
  eapply (refines_bind n (fun w' p st => Rs w' p (fst st))); [|intros w' a st _ Hp; apply refines_ret; exact Hp].
  pose proof R as [[F1 F2] Rb]. rewrite (coeff_ok _ _ _ R). apply Nat.eqb_eq in Ck. eapply refines_post;
    [|apply (loop_idx n w (m_vars b) (fun i w' p st => Rs w' p (fst st) /\ snd st = skipn i (m_exps b)) _ _ (HK (m_coeff b)) (SK (m_coeff b), m_exps b) (s_len (h_vars m)))].
  - intros w' a st [H _]. exact H.
  - rewrite <- Rb. cbn. symmetry. apply view_length. apply F2.
  - split; [apply Rs_HK | reflexivity].
  - intros w1 p [pb es] i x E [J1 J2] Hx. cbn [fst snd] in *.
    destruct (fit_v_ext n w w1 _ E F2) as [_ Vv].
    eapply refines_know; [rewrite Vv; change (view (hv (wh w)) (h_vars m)) with (m_vars (rd_mono (wh w) m)); rewrite Rb; unfold index; rewrite Hx; reflexivity|].
    destruct (nth_error (m_exps b) i) as [e|] eqn:He.
    2:{ apply nth_error_None in He. assert ((i < length (m_vars b))%nat) by (apply nth_error_Some; congruence). lia. }
    rewrite J2, (skipn_nth _ _ _ He). eapply refines_bind; [apply Hs; exact E|]. intros w2 t tb E2 R2.
    assert (E02 : ext n w w2) by (eapply ext_trans; eassumption). destruct (fit_i_ext n w w2 _ E02 F1) as [_ Ve].
    eapply refines_know; [rewrite Ve; change (view (hi (wh w)) (h_exps m)) with (m_exps (rd_mono (wh w) m)); rewrite Rb; unfold index; rewrite He; reflexivity|].
    eapply refines_bind; [apply power_refines; [exact R2 | lms]|]. intros w3 q qb E3 R3. apply refines_bind_ret.
    eapply refines_bind; [apply mul_refines; [|exact R3|lms]|].
    { eapply Rs_ext; [exact E3|]. eapply Rs_ext; [exact E2 | exact J1]. }
    intros w4 z zb E4 R4. apply refines_ret. split; [exact R4 | reflexivity].
Qed.
Lemma mono_substitute_refines n w m b vIn e eb : Rm w m b -> Rs w e eb -> (n <= lm w)%nat ->
  refines n Rs w (h_mono_substitute m vIn e) (mono_substitute b vIn eb).
Proof.
  intros R Re L. unfold h_mono_substitute, mono_substitute. apply refines_reads; [destruct R as [_ <-]; reflexivity|]. intros [] Hc.
  assert (Ck : mono_check b = true). { destruct R as [_ Rb]. rewrite Rb in Hc. unfold check in Hc. destruct (mono_check b); [reflexivity | discriminate]. }
  apply refines_check_var. apply refines_check_scalar; [exact Re|]. eapply refines_know; [reflexivity|].
  change (view (hv (wh w)) (h_vars m)) with (m_vars (rd_mono (wh w) m)). pose proof R as [_ Rb]. rewrite Rb. destruct (find_var vIn (m_vars b)).
  - apply subst_loop_refines; [exact R | exact Ck | exact L|]. intros w' v E. apply var_substitute_refines. eapply Rs_ext; eassumption.
  - apply refines_ret. apply Rs_HM. exact R.
Qed.
Lemma poly_substitute_refines n w p l vIn e eb : Rp w p l -> Rs w e eb -> (n <= lm w)%nat ->
  refines n Rs w (h_poly_substitute p vIn e) (poly_substitute l vIn eb).
Proof.
  intros R Re L. unfold h_poly_substitute, poly_substitute. apply refines_check_poly; [exact R|]. apply refines_check_var. apply refines_check_scalar; [exact Re|].
  eapply (refines_bind n Rs).
  - apply loop_p; [exact R | apply Rs_HK|]. intros w2 a ab m bm E2 J2 Rm2.
    eapply refines_bind; [apply mono_substitute_refines; [exact Rm2 | eapply Rs_ext; eassumption | lms]|]. intros w3 t tb E3 R3.
    apply plus_refines; [eapply Rs_ext; eassumption | exact R3 | lms].
  - intros w2 a ab E2 R2. apply simplified_refines; [exact R2 | lms].
Qed.
Lemma substitute_refines n w s a vIn e eb : Rs w s a -> Rs w e eb -> (n <= lm w)%nat -> refines n Rs w (h_substitute s vIn e) (scalar_substitute a vIn eb).
Proof.
  intros Ra Re L. destruct s as [c|x|m|p].
  - destruct Ra as [_ <-]. apply refines_ret. apply Rs_HK.
  - destruct Ra as [_ <-]. apply var_substitute_refines. exact Re.
  - apply Rs_M in Ra. destruct Ra as (a' & -> & Ra). apply mono_substitute_refines; assumption.
  - apply Rs_P in Ra. destruct Ra as (a' & -> & Ra). apply poly_substitute_refines; assumption.
Qed.

End HeapOps2.
