(** * DerivativeWrt with memory: when the exponent of the variable is 1 nothing is overwritten *)

From Coq Require Import ZArith NArith Bool List Lia.
From Verif Require Import Num Syntax ModelScalar Base ModelHeap HeapMem HeapRef HeapOps HeapOps2.
Import ListNotations.
Local Open Scope num_scope.

Section HeapDeriv.
Context {NN : Num} {RT : Runtime}.

(** the exponent of [v], if [v] occurs, is 1 *)
Definition mild_mono (v : var) (b : Monomial) : Prop := forall k e, find_var v (m_vars b) = Some k -> nth_error (m_exps b) k = Some e -> e = 1%Z.
Definition mild (v : var) (s : scalar) : Prop :=
  match s with SM m => mild_mono v m | SP p => Forall (mild_mono v) p | _ => True end.

Lemma remove_firstn_hit {A} k (l : list A) : (k < length l)%nat -> remove_nth k (firstn (S k) l) = remove_nth k (firstn k l).
Proof.
  revert k. induction l as [|a l IH]; intros [|k] H; cbn in *; try lia; [reflexivity|]. f_equal. apply IH. lia.
Qed.
Lemma remove_nth_all {A} k (l : list A) : (length l <= k)%nat -> remove_nth k l = l.
Proof. revert k. induction l as [|a l IH]; intros [|k] H; cbn in *; try reflexivity; [lia|]. f_equal. apply IH. lia. Qed.
Lemma remove_nth_snoc {A} k (l : list A) x : (k < length l)%nat -> remove_nth k (l ++ [x]) = remove_nth k l ++ [x].
Proof. revert k. induction l as [|a l IH]; intros [|k] H; cbn in *; try lia; [reflexivity|]. f_equal. apply IH. lia. Qed.
Lemma firstn_snoc {A} i (l : list A) x : nth_error l i = Some x -> firstn (S i) l = firstn i l ++ [x].
Proof. revert i. induction l as [|a l IH]; intros [|i] H; cbn in *; try discriminate; [congruence|]. f_equal. apply IH. exact H. Qed.
Lemma remove_firstn_miss {A} k i (l : list A) x : nth_error l i = Some x -> i <> k -> remove_nth k (firstn (S i) l) = remove_nth k (firstn i l) ++ [x].
Proof.
  intros H N. rewrite (firstn_snoc _ _ _ H). assert (L : length (firstn i l) = i).
  { apply firstn_length_le. apply Nat.lt_le_incl. apply nth_error_Some. congruence. }
  destruct (Nat.lt_ge_cases k i).
  - apply remove_nth_snoc. lia.
  - rewrite !remove_nth_all; [reflexivity| |]; rewrite ?app_length, ?L; cbn; lia.
Qed.
Lemma fold_unit {A B} (l : list A) (u : B) : foldM (fun u _ => Ok u) u l = Ok u.
Proof. induction l as [|a l IH]; [reflexivity | exact IH]. Qed.

Lemma mono_derivative_refines n w m b v : Rm w m b -> mild_mono v b -> refines n Rs w (h_mono_derivative m v) (mono_derivative b v).
Proof.
  intros R Mi. unfold h_mono_derivative, mono_derivative. apply refines_reads; [destruct R as [_ <-]; reflexivity|]. intros [] Hc.
  assert (Len : length (m_exps b) = length (m_vars b)).
  { destruct R as [_ Rb]. rewrite Rb in Hc. unfold check, mono_check in Hc. destruct (Nat.eqb_spec (length (m_exps b)) (length (m_vars b))); [assumption | discriminate]. }
  apply refines_check_var. pose proof R as [[F1 F2] Rb].
  assert (Ev : view (hv (wh w)) (h_vars m) = m_vars b) by (rewrite <- Rb; reflexivity).
  assert (Ee : view (hi (wh w)) (h_exps m) = m_exps b) by (rewrite <- Rb; reflexivity).
  assert (Lv : s_len (h_vars m) = length (m_vars b)) by (rewrite <- Ev; symmetry; apply view_length; apply F2).
  eapply refines_know; [rewrite Ev; reflexivity|]. destruct (find_var v (m_vars b)) as [k|] eqn:Hk; [|apply refines_ret; apply Rs_HK].
  assert (Lk : (k < length (m_vars b))%nat). { pose proof Hk as Hk'. apply find_var_some in Hk'. destruct Hk' as (u & Hu & _). apply nth_error_Some. congruence. }
  destruct (nth_error (m_exps b) k) as [e|] eqn:Mk; [|apply nth_error_None in Mk; lia]. specialize (Mi k e Hk Mk). subst e. rename Mk into Mi.
  eapply refines_know; [rewrite Ee; unfold index; rewrite Mi; reflexivity|]. unfold index. rewrite Mi. cbn [bind]. rewrite Lv, Z.eqb_refl. cbn [andb].
  rewrite (coeff_ok _ _ _ R). destruct (Nat.eqb (length (m_vars b)) 1); [apply refines_ret; apply Rs_HK|].
  set (nb := length (hv (wh w))).
  set (J := fun i w' (st : slice * slice) (_ : unit) =>
    Bv nb w' (fst st) (remove_nth k (firstn i (m_vars b))) /\ Bi w' (snd st) (remove_nth k (firstn i (m_exps b))) /\ (nb <= length (hv (wh w')))%nat).
  apply (refines_step n (J (length (m_vars b))) Rs _ _ tt).
  - rewrite <- (fold_unit (m_vars b) tt). unfold indices. rewrite Lv. apply loop_idx; [reflexivity| |].
    + split; [destruct k; apply built_nil|]. split; [destruct k; apply built_nil | apply Nat.le_refl].
    + intros w1 st [] i x E (J1 & J2 & J3) Hx.
      destruct (fit_v_ext n w w1 _ E F2) as [_ Vv]. destruct (fit_i_ext n w w1 _ E F1) as [_ Ve].
      eapply refines_know; [rewrite Vv, Ev; unfold index; rewrite Hx; reflexivity|].
      destruct (Nat.eqb_spec i k) as [->|Nk].
      * apply refines_ret. split; [rewrite remove_firstn_hit by exact Lk; exact J1|]. split; [rewrite remove_firstn_hit by lia; exact J2 | exact J3].
      * destruct (nth_error (m_exps b) i) as [e|] eqn:He.
        2:{ apply nth_error_None in He. assert ((i < length (m_vars b))%nat) by (apply nth_error_Some; congruence). lia. }
        eapply build_append_v; [exact J1 | exact J3|]. intros s' mv B' E' _ L'.
        eapply refines_know; [cbn [wh on_v with_vars hi]; rewrite Ve, Ee; unfold index; rewrite He; reflexivity|].
        eapply build_append_i; [exact J2|]. intros s2 mi B2 E2. apply refines_ret.
        split; [rewrite (remove_firstn_miss _ _ _ _ Hx Nk); exact B'|]. split; [rewrite (remove_firstn_miss _ _ _ _ He Nk); exact B2 | cbn; lia].
  - intros w1 [vs es] E (J1 & J2 & _). cbn [fst snd] in *. rewrite firstn_all in J1. rewrite <- Len, firstn_all in J2.
    change (Ok (SM (mkMono (m_coeff b) (remove_nth k (m_exps b)) (remove_nth k (m_vars b))))) with
      (as_SM (Ok (mkMono (m_coeff b) (remove_nth k (m_exps b)) (remove_nth k (m_vars b))))).
    change (ret (HM (mkHM (m_coeff b) es vs))) with (as_HM (ret (mkHM (m_coeff b) es vs))). apply as_HM_refines. eapply publish_mono; [exact J2 | exact J1].
Qed.

Lemma derivative_fold p v out :
  (r <- derivative_loop p v ;; Ok (out ++ r)) =
  foldM (fun out m => c <- mono_is_constant m ;;
           if c then Ok out else d <- mono_derivative m v ;;
             match d with SM dm => Ok (out ++ [dm]) | SK k => if k =? n0 then Ok out else Ok (out ++ [k_to_mono k]) | _ => Panic POther end) out p.
Proof.
  revert out. induction p as [|m p IH]; intro out; cbn; [rewrite app_nil_r; reflexivity|]. destruct (mono_is_constant m) as [[|]|]; cbn; [apply IH | | reflexivity].
  destruct (mono_derivative m v) as [[k|u|dm|q]|]; cbn; try reflexivity.
  - destruct (k =? n0); [apply IH|]. cbn [bind]. rewrite <- IH. destruct (derivative_loop p v); cbn; [rewrite <- app_assoc|]; reflexivity.
  - rewrite <- IH. destruct (derivative_loop p v); cbn; [rewrite <- app_assoc|]; reflexivity.
Qed.

Lemma Forall_nth_loop {X} (P : X -> Prop) l i x : Forall P l -> nth_error l i = Some x -> P x.
Proof. intros F H. eapply Forall_forall in F; [exact F | eapply nth_error_In; exact H]. Qed.

Lemma poly_derivative_refines n w p l v : Rp w p l -> Forall (mild_mono v) l -> (n <= lm w)%nat -> refines n Rs w (h_poly_derivative p v) (poly_derivative l v).
Proof.
  intros R Mi L. unfold h_poly_derivative, poly_derivative. apply refines_check_poly; [exact R|]. apply refines_check_var.
  replace (derivative_loop l v) with (r <- derivative_loop l v ;; Ok ([] ++ r)) by (destruct (derivative_loop l v); reflexivity).
  rewrite derivative_fold. unfold indices.
  eapply (refines_bind n (Jb n)).
  - apply (loop_idx n w l (fun _ => Jb n)); [apply (Rp_len _ _ _ R) | split; [apply Bm_nil | exact L]|].
    intros w1 out outp i x E [B1 L1] Hx. pose proof (Rp_ext _ _ _ _ _ E R) as R1. destruct (Rp_get _ _ _ _ _ R1 Hx) as (m & Hm & Rx).
    eapply refines_know; [exact Hm|]. apply refines_reads; [destruct Rx as [_ <-]; reflexivity|]. intros [|] _; [apply refines_ret; split; assumption|].
    eapply refines_strict; [apply mono_derivative_refines; [exact Rx | eapply Forall_nth_loop; eassumption] | exact L1|]. intros w2 d db E2 R2.
    assert (B2 : Bm n w2 out outp) by (eapply Bm_ext; [exact E2 | reflexivity | exact B1]). assert (L2 : (n <= lm w2)%nat) by lms.
    destruct d as [k|u|dm|q].
    + destruct R2 as [_ <-]. cbn [rd]. destruct (k =? n0); [apply refines_ret; split; assumption|]. apply refines_bind_ret.
      eapply append1; [exact B2 | apply hk_to_mono_ok | exact L2|]. intros s' w' E' B' L'. apply refines_ret. split; assumption.
    + destruct R2 as [_ <-]. apply refines_fail.
    + apply Rs_M in R2. destruct R2 as (b' & -> & R2). apply refines_bind_ret.
      eapply append1; [exact B2 | exact R2 | exact L2|]. intros s' w' E' B' L'. apply refines_ret. split; assumption.
    + apply Rs_P in R2. destruct R2 as (b' & -> & R2). apply refines_fail.
  - intros w1 out outp E [B1 L1]. rewrite (Bm_len _ _ _ _ B1). eapply publish_m; [exact B1|]. intros w2 E2 Hh R2. apply refines_ret.
    destruct outp as [|x xs]; cbn [length Nat.eqb]; [apply Rs_HK | apply Rs_HP; exact R2].
Qed.

Lemma derivative_refines n w s a v : Rs w s a -> mild v a -> (n <= lm w)%nat -> refines n Rs w (h_derivative s v) (scalar_derivative a v).
Proof.
  intros Ra Mi L. destruct s as [c|x|m|p].
  - destruct Ra as [_ <-]. apply refines_ret. apply Rs_HK.
  - destruct Ra as [_ <-]. cbn [h_derivative scalar_derivative rd]. unfold var_derivative. apply refines_check_var. apply refines_check_var. apply refines_ret. apply Rs_HK.
  - apply Rs_M in Ra. destruct Ra as (a' & -> & Ra). apply mono_derivative_refines; assumption.
  - apply Rs_P in Ra. destruct Ra as (a' & -> & Ra). apply poly_derivative_refines; assumption.
Qed.

End HeapDeriv.
