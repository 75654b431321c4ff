(** * DerivativeWrt *)

From Coq Require Import ZArith NArith Bool List Lia Reals Lra Ring_theory.
From Verif Require Import Num NumR Syntax ModelScalar Spec Base ScalarValid Eval ScalarOps ScalarMore.
Import ListNotations.

Section RingFacts.
Context {NN : Num} {EX : ExactNum NN}.
Local Open Scope num_scope.
Add Ring numring : num_ring.
Lemma der_ring c k a x b : c * k * (a * (x * b)) = c * (a * b) * (k * x). Proof. ring. Qed.
End RingFacts.

Section Valid.
Context {NN : Num}.
Local Open Scope num_scope.
Ltac cb := cbn [bind check].

Lemma NoDup_app_remove {A} (l1 l2 : list A) x : NoDup (l1 ++ x :: l2) -> NoDup (l1 ++ l2).
Proof. apply NoDup_remove_1. Qed.

(** the factor that is differentiated *)
Lemma find_var_split v vs (es : list Z) k : length es = length vs -> find_var v vs = Some k ->
  exists l1 w l2 e1 e e2, vs = l1 ++ w :: l2 /\ es = e1 ++ e :: e2 /\ length e1 = length l1 /\ length l1 = k /\ v_id w = v_id v.
Proof.
  intros HL HF. apply find_var_some in HF. destruct HF as (w & Hw & Ew).
  destruct (nth_error_split vs k Hw) as (l1 & l2 & -> & H1).
  assert (HK : (k < length es)%nat) by (rewrite HL, app_length; cbn; lia).
  destruct (nth_error es k) as [e|] eqn:Ee; [|apply nth_error_Some in HK; congruence].
  destruct (nth_error_split es k Ee) as (e1 & e2 & -> & H2).
  exists l1, w, l2, e1, e, e2. split; [reflexivity|]. split; [reflexivity|]. split; [lia|]. split; [exact H1|]. symmetry; congruence.
Qed.

Lemma index_mid {A} (l1 l2 : list A) a k : length l1 = k -> index (l1 ++ a :: l2) k = Ok a.
Proof. intros <-. apply index_split. Qed.

Inductive mono_der (m : Monomial) (v : var) : scalar -> Prop :=
| der_absent : ~ In (v_id v) (ids m) -> mono_der m v (SK n0)
| der_last w : m_vars m = [w] -> m_exps m = [1%Z] -> v_id w = v_id v -> mono_der m v (SK (m_coeff m))
| der_drop l1 w l2 e1 e2 : m_vars m = l1 ++ w :: l2 -> m_exps m = e1 ++ 1%Z :: e2 -> length e1 = length l1 -> v_id w = v_id v ->
    (1 < length (m_vars m))%nat ->
    mono_der m v (SM (mkMono (m_coeff m) (e1 ++ e2) (l1 ++ l2)))
| der_pow l1 w l2 e1 e e2 : m_vars m = l1 ++ w :: l2 -> m_exps m = e1 ++ e :: e2 -> length e1 = length l1 -> v_id w = v_id v ->
    (2 <= e)%Z ->
    mono_der m v (SM (mkMono (m_coeff m * nofZ e) (e1 ++ (e - 1)%Z :: e2) (l1 ++ w :: l2))).

Lemma mono_derivative_ok m v : valid_mono m -> valid_var v ->
  exists d, mono_derivative m v = Ok d /\ mono_der m v d.
Proof.
  intros V Vv. unfold mono_derivative. rewrite (valid_mono_check m V). pose proof Vv as Hv. apply var_check_valid in Hv. rewrite Hv. cb.
  pose proof V as (V1 & V2 & V3 & V4). destruct (find_var v (m_vars m)) as [k|] eqn:E.
  - destruct (find_var_split v _ _ k V1 E) as (l1 & w & l2 & e1 & e & e2 & H1 & H2 & H3 & H4 & H5).
    rewrite H2, index_mid by lia. cb. assert (He : (1 <= e)%Z).
    { rewrite Forall_forall in V2. apply V2. rewrite H2. apply in_app_iff. right. left. reflexivity. }
    destruct (Z.eqb_spec e 1) as [->|Hne]; cbn [andb].
    + destruct (Nat.eqb_spec (length (m_vars m)) 1) as [HL|HL].
      * exists (SK (m_coeff m)). split; [reflexivity|]. rewrite H1, app_length in HL. cbn in HL. destruct l1; [|cbn in HL; lia].
        destruct l2; [|cbn in HL; lia]. apply (der_last m v w); [exact H1| |exact H5].
        rewrite H2. destruct e1; [|discriminate]. rewrite H1, H2 in V1. destruct e2; [reflexivity | discriminate].
      * exists (SM (mkMono (m_coeff m) (e1 ++ e2) (l1 ++ l2))). split.
        -- rewrite H1. rewrite <- H4, <- H3 at 1. rewrite remove_nth_split. rewrite <- H4, remove_nth_split. reflexivity.
        -- eapply der_drop; try eassumption. rewrite H1, app_length in HL |- *. cbn in *. lia.
    + exists (SM (mkMono (m_coeff m * nofZ e) (e1 ++ (e - 1)%Z :: e2) (l1 ++ w :: l2))). split.
      * rewrite H1, <- H4, <- H3, set_nth_split. reflexivity.
      * apply der_pow; try assumption. lia.
  - exists (SK n0). split; [reflexivity|]. apply der_absent. apply find_var_none in E. exact E.
Qed.

Lemma mono_der_valid m v d : valid_mono m -> mono_der m v d -> valid d.
Proof.
  intros (V1 & V2 & V3 & V4) H. destruct H as [| |l1 w l2 e1 e2 H1 H2 H3 H4 H5|l1 w l2 e1 e e2 H1 H2 H3 H4 H5]; try exact I;
    unfold valid, valid_mono; cbn [m_vars m_exps]; rewrite H1, H2 in *.
  - rewrite !app_length in *. cbn in V1. split; [lia|]. apply Forall_app in V2. destruct V2 as [A1 A2]. inversion A2 as [|? ? A3 A4]; subst.
    apply Forall_app in V4. destruct V4 as [B1 B2]. inversion B2 as [|? ? B3 B4]; subst.
    split; [apply Forall_app; auto|]. split; [|apply Forall_app; auto].
    rewrite map_app in *. cbn in V3. apply NoDup_app_remove in V3. exact V3.
  - rewrite !app_length in *. cbn in V1 |- *. split; [lia|]. apply Forall_app in V2. destruct V2 as [A1 A2]. inversion A2 as [|? ? A3 A4]; subst.
    split; [apply Forall_app; split; [exact A1|]; constructor; [lia | exact A4]|]. split; assumption.
Qed.

Lemma derivative_loop_ok p v : Forall valid_mono p -> valid_var v ->
  exists q, derivative_loop p v = Ok q /\ Forall valid_mono q.
Proof.
  intros V Vv. induction p as [|m p IH]; cbn [derivative_loop]; [exists []; auto|]. inversion V as [|? ? V1 V2]; subst.
  rewrite mono_is_constant_ok by (apply valid_mono_check; exact V1). cb. destruct (IH V2) as (q & Eq & Vq).
  destruct (is_const m); [exists q; auto|]. destruct (mono_derivative_ok m v V1 Vv) as (d & -> & Hd). cb.
  pose proof (mono_der_valid m v d V1 Hd) as Vd. rewrite Eq. destruct Hd; cb.
  - destruct (n0 =? n0); [exists q; auto|]. eexists. split; [reflexivity|]. constructor; [apply valid_mono_k | exact Vq].
  - destruct (m_coeff m =? n0); [exists q; auto|]. eexists. split; [reflexivity|]. constructor; [apply valid_mono_k | exact Vq].
  - eexists. split; [reflexivity|]. constructor; assumption.
  - eexists. split; [reflexivity|]. constructor; assumption.
Qed.

Lemma scalar_derivative_valid s v : valid s -> valid_var v -> exists d, scalar_derivative s v = Ok d /\ valid d.
Proof.
  intros V Vv. pose proof Vv as Hv. apply var_check_valid in Hv. destruct s as [k|w|m|p]; cbn [scalar_derivative].
  - exists (SK n0). auto.
  - unfold var_derivative. pose proof V as Hw. apply var_check_valid in Hw. rewrite Hw, Hv. cb. eexists. split; [reflexivity | exact I].
  - destruct (mono_derivative_ok m v V Vv) as (d & E & Hd). exists d. split; [exact E|]. eapply mono_der_valid; eassumption.
  - unfold poly_derivative. rewrite (valid_poly_check p V), Hv. cb. destruct V as [_ V].
    destruct (derivative_loop_ok p v V Vv) as (q & -> & Vq). cb. eexists. split; [reflexivity|]. destruct q as [|m q]; [exact I|].
    split; [discriminate | exact Vq].
Qed.

Lemma eval_factors_app r l1 l2 (e1 e2 : list Z) : ExactNum NN -> length e1 = length l1 ->
  eval_factors r (l1 ++ l2) (e1 ++ e2) = eval_factors r l1 e1 * eval_factors r l2 e2.
Proof.
  intro EX. revert e1. induction l1 as [|v l1 IH]; intros [|e e1] H; try discriminate; cbn.
  - rewrite ring_1_l. reflexivity.
  - rewrite IH by (cbn in H; lia). apply (Rmul_assoc num_ring).
Qed.

Lemma eval_factors_update (r : assignment) vs es i x : ~ In i (map v_id vs) -> eval_factors (update r i x) vs es = eval_factors r vs es.
Proof.
  revert es. induction vs as [|v vs IH]; intros [|e es] H; cbn; try reflexivity. cbn in H. unfold update at 1.
  destruct (N.eqb_spec (v_id v) i); [tauto|]. rewrite IH by tauto. reflexivity.
Qed.

(** the power rule: as a function of variable [i] the term is c x^n, and the result is c n x^(n-1) *)
Lemma mono_der_rule m v d (r : assignment) : ExactNum NN -> valid_mono m -> mono_der m v d ->
  exists c n, (forall x, eval_mono (update r (v_id v) x) m = c * npow x n)
    /\ eval r d = c * (nofZ (Z.of_nat n) * npow (r (v_id v)) (pred n)).
Proof.
  intros EX V Hd.
  assert (HG : forall l1 w l2 e1 e e2, m_vars m = l1 ++ w :: l2 -> m_exps m = e1 ++ e :: e2 -> length e1 = length l1 -> v_id w = v_id v ->
    forall x, eval_mono (update r (v_id v) x) m = m_coeff m * (eval_factors r l1 e1 * eval_factors r l2 e2) * npow x (Z.to_nat e)).
  { intros l1 w l2 e1 e e2 H1 H2 H3 H4 x. unfold eval_mono. rewrite H1, H2, eval_factors_app by assumption. cbn [eval_factors].
    destruct V as (_ & _ & V3 & _). rewrite H1, map_app in V3. cbn in V3. apply NoDup_remove_2 in V3. rewrite H4, in_app_iff in V3.
    rewrite !eval_factors_update by tauto. unfold update. rewrite H4, N.eqb_refl.
    rewrite <- !(Rmul_assoc num_ring). do 2 f_equal. apply (Rmul_comm num_ring). }
  destruct Hd as [H|w H1 H2 H3|l1 w l2 e1 e2 H1 H2 H3 H4 H5|l1 w l2 e1 e e2 H1 H2 H3 H4 H5].
  - exists (eval_mono r m), O. split.
    + intro x. cbn. rewrite ring_1_r. unfold eval_mono. rewrite eval_factors_update by exact H. reflexivity.
    + change (Z.of_nat 0) with 0%Z. cbn [eval]. rewrite nofZ_0, ring_0_l. symmetry. apply eval_mul_0_r. exact EX.
  - exists (m_coeff m), 1%nat. split.
    + intro x. rewrite (HG [] w [] [] 1%Z []) by auto. cbn [eval_factors]. rewrite !ring_1_r. reflexivity.
    + change (Z.of_nat 1) with 1%Z. cbn [eval npow pred]. rewrite ex_ofZ1, !ring_1_r. reflexivity.
  - exists (m_coeff m * (eval_factors r l1 e1 * eval_factors r l2 e2)), 1%nat. split; [intro x; exact (HG l1 w l2 e1 1%Z e2 H1 H2 H3 H4 x)|].
    change (Z.of_nat 1) with 1%Z. cbn [eval npow pred]. rewrite ex_ofZ1, !ring_1_r. unfold eval_mono. cbn [m_coeff m_vars m_exps].
    rewrite eval_factors_app by assumption. reflexivity.
  - exists (m_coeff m * (eval_factors r l1 e1 * eval_factors r l2 e2)), (Z.to_nat e). split; [intro x; exact (HG l1 w l2 e1 e e2 H1 H2 H3 H4 x)|].
    cbn [eval]. unfold eval_mono. cbn [m_coeff m_vars m_exps]. rewrite eval_factors_app by assumption. cbn [eval_factors]. rewrite H4.
    rewrite Z2Nat.id by lia. replace (pred (Z.to_nat e)) with (Z.to_nat (e - 1)) by lia.
    apply der_ring.
Qed.

End Valid.

(** ** The result is the partial derivative *)
Section Real.
#[local] Existing Instance RNum.
Local Open Scope R_scope.

Lemma npow_pow (x : R) n : npow x n = pow x n.
Proof. induction n as [|n IH]; cbn; [reflexivity|]. rewrite IH. reflexivity. Qed.

Lemma derivable_pt_lim_ext' f g x l : (forall t, f t = g t) -> derivable_pt_lim f x l -> derivable_pt_lim g x l.
Proof.
  intros E H eps He. destruct (H eps He) as (d & Hd). exists d. intros h Hh1 Hh2. rewrite <- !E. apply Hd; assumption.
Qed.

Lemma mono_der_derivable m v d (r : assignment) : valid_mono m -> mono_der m v d ->
  derivable_pt_lim (fun x => eval_mono (update r (v_id v) x) m) (r (v_id v)) (eval r d).
Proof.
  intros V Hd. destruct (mono_der_rule m v d r RNum_exact V Hd) as (c & n & H1 & ->). cbn in c.
  eapply derivable_pt_lim_ext'; [intro t; symmetry; apply H1|]. cbn [nmul nofZ RNum].
  apply (derivable_pt_lim_ext' (mult_real_fct c (fun x => x ^ n))).
  - intro t. reflexivity.
  - rewrite npow_pow, <- INR_IZR_INZ. apply derivable_pt_lim_scal. apply derivable_pt_lim_pow.
Qed.

Lemma derivative_loop_derivable p v q (r : assignment) : Forall valid_mono p -> valid_var v -> derivative_loop p v = Ok q ->
  derivable_pt_lim (fun x => eval_poly (update r (v_id v) x) p) (r (v_id v)) (eval_poly r q).
Proof.
  intros V Vv. revert q. induction p as [|m p IH]; intros q Hq; cbn [derivative_loop] in Hq.
  - injection Hq as <-. cbn. apply derivable_pt_lim_const.
  - inversion V as [|? ? V1 V2]; subst. rewrite mono_is_constant_ok in Hq by (apply valid_mono_check; exact V1). cbn [bind] in Hq.
    destruct (derivative_loop_ok p v V2 Vv) as (q0 & E0 & _). rewrite E0 in Hq. specialize (IH V2 q0 E0).
    assert (HS : forall d, derivable_pt_lim (fun x => eval_mono (update r (v_id v) x) m) (r (v_id v)) d ->
      derivable_pt_lim (fun x => eval_poly (update r (v_id v) x) (m :: p)) (r (v_id v)) (d + eval_poly r q0)).
    { intros d Hd. apply (derivable_pt_lim_plus _ _ _ _ _ Hd IH). }
    destruct (is_const m) eqn:Ec.
    + injection Hq as <-. rewrite <- (Rplus_0_l (eval_poly r q0)). apply HS.
      apply (derivable_pt_lim_ext' (fun _ => m_coeff m)); [|apply derivable_pt_lim_const]. intro t. symmetry. apply (@eval_const RNum RNum_exact). exact Ec.
    + destruct (mono_derivative_ok m v V1 Vv) as (d & E & Hd). rewrite E in Hq. cbn [bind] in Hq.
      pose proof (HS _ (mono_der_derivable m v d r V1 Hd)) as HD.
      assert (HK : forall k, d = SK k -> (if (k =? n0)%num then Ok q0 else Ok (k_to_mono k :: q0)) = Ok q ->
        derivable_pt_lim (fun x => eval_poly (update r (v_id v) x) (m :: p)) (r (v_id v)) (eval_poly r q)).
      { intros k -> Hk. cbn [eval] in HD. destruct (k =? n0)%num eqn:Ek; injection Hk as <-.
        - apply ex_eqb in Ek. rewrite Ek in HD. cbn [n0 RNum] in HD. rewrite Rplus_0_l in HD. exact HD.
        - cbn [eval_poly]. rewrite (@eval_k RNum RNum_exact). exact HD. }
      destruct Hd.
      * apply (HK n0); [reflexivity|]. exact Hq.
      * apply (HK (m_coeff m)); [reflexivity|]. exact Hq.
      * injection Hq as <-. exact HD.
      * injection Hq as <-. exact HD.
Qed.

Lemma scalar_derivative_derivable s v (r : assignment) : valid s -> valid_var v ->
  exists d, scalar_derivative s v = Ok d /\ valid d
    /\ derivable_pt_lim (fun x => eval (update r (v_id v) x) s) (r (v_id v)) (eval r d).
Proof.
  intros V Vv. destruct (scalar_derivative_valid s v V Vv) as (d & E & Vd). exists d. split; [exact E|]. split; [exact Vd|].
  pose proof Vv as Hv. apply var_check_valid in Hv. destruct s as [k|w|m|p]; cbn [scalar_derivative] in E.
  - injection E as <-. cbn. apply derivable_pt_lim_const.
  - unfold var_derivative in E. pose proof V as Hw. apply var_check_valid in Hw. rewrite Hw, Hv in E. cbn in E. injection E as <-.
    cbn [eval]. unfold update, same_id. destruct (N.eqb (v_id w) (v_id v)); [apply derivable_pt_lim_id | apply derivable_pt_lim_const].
  - destruct (mono_derivative_ok m v V Vv) as (d' & E' & Hd). rewrite E in E'. injection E' as <-. apply mono_der_derivable; assumption.
  - unfold poly_derivative in E. rewrite (valid_poly_check p V), Hv in E. cbn [check bind] in E. destruct V as [_ V].
    destruct (derivative_loop_ok p v V Vv) as (q & Eq & _). rewrite Eq in E. cbn [bind] in E.
    pose proof (derivative_loop_derivable p v q r V Vv Eq) as HD. injection E as <-. destruct q as [|x q]; exact HD.
Qed.

End Real.
