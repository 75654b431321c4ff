(** * Minus, Power, Substitute: totality, validity and value *)

From Coq Require Import ZArith NArith Bool List Lia Field Permutation.
From Verif Require Import Num Syntax ModelScalar Spec Base ScalarValid Eval ScalarOps.
Import ListNotations.

Section RingFacts.
Context {NN : Num} {EX : ExactNum NN}.
Local Open Scope num_scope.
Add Ring numring : num_ring.

Lemma ring_1_l (x : num) : n1 * x = x. Proof. ring. Qed.
Lemma ring_1_r (x : num) : x * n1 = x. Proof. ring. Qed.
Lemma ring_0_l (x : num) : n0 * x = n0. Proof. ring. Qed.
Lemma ring_a0_l (x : num) : n0 + x = x. Proof. ring. Qed.
Lemma ring_a0_r (x : num) : x + n0 = x. Proof. ring. Qed.
Lemma nofZ_0 : nofZ 0 = n0.
Proof.
  assert (H : nofZ (0 + 0) = nofZ 0 + nofZ 0) by apply ex_ofZadd. cbn [Z.add] in H.
  transitivity (nofZ 0 + nofZ 0 - nofZ 0); [ring|]. rewrite <- H. ring.
Qed.
Lemma nofZ_opp z : nofZ (- z) = - nofZ z.
Proof.
  assert (H : nofZ (z + - z) = nofZ z + nofZ (- z)) by apply ex_ofZadd. rewrite Z.add_opp_diag_r, nofZ_0 in H.
  transitivity (nofZ z + nofZ (- z) - nofZ z); [ring|]. rewrite <- H. ring.
Qed.
Lemma nm1_exact : nm1 = - n1.
Proof. unfold nm1. change (-1)%Z with (- (1))%Z. rewrite nofZ_opp, ex_ofZ1. reflexivity. Qed.
Lemma minus_value (a b : num) : a + b * nm1 = a - b.
Proof. rewrite nm1_exact. ring. Qed.
Lemma n1_neq_n0 : n1 <> n0.
Proof. exact (F_1_neq_0 ex_field). Qed.
Lemma eqb_false_iff (x y : num) : (x =? y) = false <-> x <> y.
Proof.
  destruct (x =? y) eqn:E; split; try congruence.
  - apply ex_eqb in E. congruence.
  - intros _ ->. rewrite eqb_refl_num in E. discriminate.
Qed.
Lemma map_scale_value r f p : eval_poly r (map (fun m => set_coeff m (m_coeff m * f)) p) = eval_poly r p * f.
Proof. induction p as [|m p IH]; cbn [map eval_poly]; [ring|]. rewrite IH. unfold eval_mono; cbn. ring. Qed.
Lemma eval_factors_ext r r' vs es : (forall v, In v vs -> r (v_id v) = r' (v_id v)) -> eval_factors r vs es = eval_factors r' vs es.
Proof.
  revert es. induction vs as [|v vs IH]; intros [|e es] H; cbn; try reflexivity.
  rewrite (H v) by (left; reflexivity). rewrite (IH es); [reflexivity|]. intros w Hw. apply H. right. exact Hw.
Qed.
Lemma mul_step c x rest : c * x * rest = c * (x * rest). Proof. ring. Qed.
Lemma npow_S x n : npow x (S n) = x * npow x n. Proof. reflexivity. Qed.
Lemma npow_S_r x n : npow x (S n) = npow x n * x. Proof. cbn. ring. Qed.
End RingFacts.

Section More.
Context {NN : Num}.
Local Open Scope num_scope.
Ltac cb := cbn [bind check].

(** ** Scaling by a number keeps the form of every term *)
Definition scale_spec (A : list Monomial) (f : num) (x : res scalar) : Prop :=
  exists s L, x = Ok s /\ valid s /\ lred L (terms s)
    /\ (forall m, In m L -> valid_mono m /\ formed A m)
    /\ (ExactNum NN -> forall r, eval_poly r L = eval_poly r A * f).

Lemma scale_spec_again A f x : scale_spec A f x -> scale_spec A f (out <- x ;; scalar_simplified out).
Proof.
  intros (s & L & -> & V & H1 & H2 & H3). cb. exists (ssimplified s), L. split; [apply scalar_simplified_ok; exact V|].
  split; [apply ssimplified_valid; exact V|]. split; [eapply lred_trans; [exact H1 | apply lred_simplified; exact V]|].
  split; assumption.
Qed.

Lemma var_mul_k_scale v f : valid_var v -> scale_spec [var_to_mono v] f (var_mul_k v f).
Proof.
  intro Vv. unfold var_mul_k. pose proof Vv as Hv. apply var_check_valid in Hv. rewrite Hv. cb.
  assert (V : valid_mono (mkMono f [1%Z] [v])) by (apply valid_mono_var; [exact Vv | lia]).
  apply (scale_spec_again [var_to_mono v] f (Ok (SM (mkMono f [1%Z] [v])))).
  exists (SM (mkMono f [1%Z] [v])), [mkMono f [1%Z] [v]]. split; [reflexivity|]. split; [exact V|].
  split; [apply lred_refl, valid_poly_single; exact V|]. split.
  - intros m [<-|[]]. split; [exact V|]. exists (var_to_mono v). split; [left; reflexivity | split; reflexivity].
  - intros EX r. rewrite !eval_poly_single. unfold eval_mono. cbn [m_coeff m_exps m_vars var_to_mono].
    rewrite ring_1_l. apply (Rmul_comm num_ring).
Qed.

Lemma mono_mul_k_scale m f : valid_mono m -> scale_spec [m] f (as_SM (mono_mul_k m f)).
Proof.
  intro V. unfold as_SM, mono_mul_k. rewrite (valid_mono_check m V). cb.
  exists (SM (set_coeff m (m_coeff m * f))), [set_coeff m (m_coeff m * f)]. split; [reflexivity|]. split; [exact V|].
  split; [apply lred_refl; apply (valid_poly_single (set_coeff m (m_coeff m * f))); exact V|]. split.
  - intros x [<-|[]]. split; [exact V|]. exists m. split; [left; reflexivity | split; reflexivity].
  - intros EX r. apply (map_scale_value r f [m]).
Qed.

Lemma poly_mul_k_scale p f : valid_poly p -> scale_spec p f (poly_mul_k p f).
Proof.
  intros [V0 V]. unfold poly_mul_k. rewrite (valid_poly_check p (conj V0 V)). cb.
  rewrite (mapM_map _ (fun m => set_coeff m (m_coeff m * f))).
  2:{ intros m Hm. unfold mono_mul_k. rewrite Forall_forall in V. rewrite (valid_mono_check m (V m Hm)). reflexivity. }
  cb. set (q := map (fun m => set_coeff m (m_coeff m * f)) p).
  assert (Vq : valid_poly q).
  { split; [unfold q; destruct p; [congruence | discriminate]|]. apply Forall_forall. intros x Hx. apply in_map_iff in Hx.
    destruct Hx as (m & <- & Hm). rewrite Forall_forall in V. exact (V m Hm). }
  apply (scale_spec_again p f (Ok (SP q))). exists (SP q), q. split; [reflexivity|]. split; [exact Vq|].
  split; [apply lred_refl; exact Vq|]. split.
  - intros x Hx. split; [destruct Vq as [_ Vq]; rewrite Forall_forall in Vq; apply Vq; exact Hx|].
    apply in_map_iff in Hx. destruct Hx as (m & <- & Hm). exists m. split; [exact Hm | split; reflexivity].
  - intros EX r. apply map_scale_value.
Qed.

Lemma scalar_mul_float_scale a f : valid a -> scale_spec (terms a) f (scalar_mul_float a f).
Proof.
  intro V. destruct a as [k|v|m|p]; cbn [scalar_mul_float terms].
  - exists (SK (k * f)), [k_to_mono (k * f)]. split; [reflexivity|]. split; [exact I|].
    split; [apply lred_refl, valid_poly_single, valid_mono_k|]. split.
    + intros m [<-|[]]. split; [apply valid_mono_k|]. exists (k_to_mono k). split; [left; reflexivity | split; reflexivity].
    + intros EX r. rewrite !eval_poly_single, eval_k. change (mkMono k [] []) with (k_to_mono k). rewrite eval_k. reflexivity.
  - apply scale_spec_again. apply var_mul_k_scale; exact V.
  - apply mono_mul_k_scale; exact V.
  - apply scale_spec_again. apply poly_mul_k_scale; exact V.
Qed.

Lemma scalar_mul_k_scale a f : valid a -> scale_spec (terms a) f (scalar_mul a (SK f)).
Proof.
  intro V. destruct a as [k|v|m|p]; cbn [scalar_mul var_mul mono_mul poly_mul terms].
  - exact (scalar_mul_float_scale (SK k) f I).
  - apply var_mul_k_scale; exact V.
  - apply mono_mul_k_scale; exact V.
  - apply poly_mul_k_scale; exact V.
Qed.

Lemma scale_forms A f x : scale_spec A f x ->
  exists s, x = Ok s /\ valid s /\ (forall m, In m (terms s) -> is_const m = true \/ formed A m)
    /\ (ExactNum NN -> coherent A -> forall r, eval r s = eval_poly r A * f).
Proof.
  intros (s & L & -> & V & (H1 & H2 & H3) & H4 & H5). exists s. split; [reflexivity|]. split; [exact V|].
  assert (HF : forall m, In m L -> is_const m = true \/ formed A m) by (intros m Hm; right; apply H4; exact Hm). split.
  - intros m Hm. destruct (H2 m Hm) as [C|C]; [left; exact C|]. eapply formed_trans; eassumption.
  - intros EX HA r. rewrite <- eval_terms, H3, H5; try assumption; [reflexivity|]. eapply coherent_forms; eassumption.
Qed.

(** ** Minus *)
Definition sum_spec (A B : list Monomial) (x : res scalar) (val : assignment -> num) : Prop :=
  exists s, x = Ok s /\ valid s /\ (forall m, In m (terms s) -> is_const m = true \/ formed (A ++ B) m)
    /\ (exists s0, valid s0 /\ s = ssimplified s0)
    /\ (ExactNum NN -> coherent (A ++ B) -> forall r, eval r s = val r).

Lemma scalar_plus_sum a b : valid a -> valid b ->
  sum_spec (terms a) (terms b) (scalar_plus a b) (fun r => eval r a + eval r b).
Proof.
  intros Va Vb. destruct (scalar_plus_spec a b Va Vb) as (s & V & -> & HR). exists (ssimplified s).
  pose proof (lred_trans _ _ _ HR (lred_simplified s V)) as HR'.
  split; [reflexivity|]. split; [apply ssimplified_valid; exact V|]. split; [apply HR'|]. split; [exists s; auto|].
  intros EX HC r. rewrite <- eval_terms. destruct HR' as (_ & _ & HR'). rewrite HR' by assumption.
  rewrite eval_poly_app, !eval_terms. reflexivity.
Qed.

Lemma scalar_minus_sum a b : valid a -> valid b ->
  sum_spec (terms a) (terms b) (scalar_minus a b) (fun r => eval r a - eval r b).
Proof.
  intros Va Vb. unfold scalar_minus. rewrite (valid_check a Va), (valid_check b Vb). cb.
  destruct (scale_forms _ _ _ (scalar_mul_float_scale b nm1 Vb)) as (t & -> & Vt & Ht & Et). cb.
  destruct (scalar_plus_sum a t Va Vt) as (s & -> & Vs & Hs & HS & Es). exists s.
  assert (HF : forall m, In m (terms a ++ terms t) -> is_const m = true \/ formed (terms a ++ terms b) m).
  { intros m Hm. apply in_app_iff in Hm. destruct Hm as [Hm|Hm].
    - right. apply formed_in. apply in_app_iff. left. exact Hm.
    - destruct (Ht m Hm) as [C|(m0 & C1 & C2)]; [left; exact C|]. right. exists m0. split; [apply in_app_iff; right; exact C1 | exact C2]. }
  split; [reflexivity|]. split; [exact Vs|]. split; [|split; [exact HS|]].
  - intros m Hm. destruct (Hs m Hm) as [C|C]; [left; exact C|]. eapply formed_trans; eassumption.
  - intros EX HC r. rewrite Es; [|exact EX|eapply coherent_forms; eassumption]. rewrite Et; [|exact EX|].
    + rewrite eval_terms. apply minus_value.
    + eapply coherent_incl; [|exact HC]. apply incl_appr, incl_refl.
Qed.

(** ** Tracking exponents *)

(** every term of [s] has an exponent function in [F] *)
Definition within (F : (N -> Z) -> Prop) (L : list Monomial) : Prop :=
  forall m, In m L -> exists f, F f /\ forall i, exponent m i = f i.
Definition has_zero (F : (N -> Z) -> Prop) : Prop := exists f, F f /\ forall i, f i = 0%Z.
Definition fsum (F G : (N -> Z) -> Prop) (f : N -> Z) : Prop :=
  exists g h, F g /\ G h /\ forall i, f i = (g i + h i)%Z.

Lemma const_exponent m i : is_const m = true -> exponent m i = 0%Z.
Proof. unfold is_const, exponent. destruct (m_vars m); [reflexivity | discriminate]. Qed.

Lemma within_forms F A L : has_zero F -> within F A ->
  (forall m, In m L -> is_const m = true \/ formed A m) -> within F L.
Proof.
  intros (z & Hz & Ez) HA H m Hm. destruct (H m Hm) as [C|(m0 & C1 & [C2 C3])].
  - exists z. split; [exact Hz|]. intro i. rewrite Ez. apply const_exponent. exact C.
  - destruct (HA m0 C1) as (f & Hf & Ef). exists f. split; [exact Hf|]. intro i. rewrite <- Ef.
    unfold exponent. rewrite C2, C3. reflexivity.
Qed.

Lemma within_incl (F G : (N -> Z) -> Prop) L : (forall f, F f -> G f) -> within F L -> within G L.
Proof. intros H HL m Hm. destruct (HL m Hm) as (f & Hf & E). exists f. split; [apply H; exact Hf | exact E]. Qed.

Lemma within_coherent F L : unambiguous_exponents F -> within F L -> Forall valid_mono L -> coherent L.
Proof.
  intros HU HW HV m1 m2 H1 H2. rewrite Forall_forall in HV. apply HU; split; auto.
Qed.

Lemma scalar_mul_within a b F G : valid a -> valid b -> within F (terms a) -> within G (terms b) ->
  has_zero F -> has_zero G ->
  exists s, scalar_mul a b = Ok s /\ valid s /\ within (fsum F G) (terms s)
    /\ (ExactNum NN -> unambiguous_exponents (fsum F G) -> forall r, eval r s = eval r a * eval r b).
Proof.
  intros Va Vb HA HB (z1 & Z1 & E1) (z2 & Z2 & E2).
  destruct (scalar_mul_spec a b Va Vb) as (s & L & -> & V & (H1 & H2 & H3) & H4 & H5). exists s.
  split; [reflexivity|]. split; [exact V|].
  assert (HZ : has_zero (fsum F G)).
  { exists (fun _ => 0%Z). split; [|reflexivity]. exists z1, z2. split; [exact Z1|]. split; [exact Z2|]. intro i. rewrite E1, E2. reflexivity. }
  assert (HL : within (fsum F G) L).
  { intros m Hm. destruct (H4 m Hm) as [[_ C]|(Vm & m1 & m2 & D1 & D2 & D3)].
    - destruct HZ as (z & Hz & Ez). exists z. split; [exact Hz|]. intro i. rewrite Ez. apply const_exponent. exact C.
    - destruct (HA m1 D1) as (f1 & Hf1 & Ef1). destruct (HB m2 D2) as (f2 & Hf2 & Ef2).
      exists (fun i => (f1 i + f2 i)%Z). split; [exists f1, f2; auto|]. intro i. rewrite D3, Ef1, Ef2. reflexivity. }
  split; [apply (within_forms _ L); assumption|].
  intros EX HU r. rewrite <- eval_terms, H3, H5, !eval_terms; try assumption; [reflexivity|].
  apply (within_coherent (fsum F G)); [exact HU | exact HL|]. apply Forall_forall. intros m Hm.
  destruct (H4 m Hm) as [[C _]|[C _]]; exact C.
Qed.

Lemma scalar_plus_within a b F : valid a -> valid b -> within F (terms a) -> within F (terms b) -> has_zero F ->
  exists s, scalar_plus a b = Ok s /\ valid s /\ within F (terms s)
    /\ (ExactNum NN -> unambiguous_exponents F -> forall r, eval r s = eval r a + eval r b).
Proof.
  intros Va Vb HA HB HZ. destruct (scalar_plus_sum a b Va Vb) as (s & -> & V & Hs & _ & Es). exists s.
  split; [reflexivity|]. split; [exact V|].
  assert (HW : within F (terms a ++ terms b)).
  { intros m Hm. apply in_app_iff in Hm. destruct Hm; auto. }
  split; [eapply within_forms; eassumption|].
  intros EX HU r. apply Es; [exact EX|]. eapply within_coherent; [exact HU | exact HW|].
  apply Forall_app. split; apply valid_terms; assumption.
Qed.

(** ** Power *)
Lemma power_terms_zero a n : has_zero (power_terms a n).
Proof. exists (fun _ => 0%Z). split; [|reflexivity]. exists []. split; [intros x []|]. split; [cbn; lia | reflexivity]. Qed.

Lemma power_terms_mono a n n' f : n <= n' -> power_terms a n f -> power_terms a n' f.
Proof. intros H (l & H1 & H2 & H3). exists l. split; [exact H1|]. split; [lia | exact H3]. Qed.

Lemma unambiguous_sub (F G : (N -> Z) -> Prop) : (forall f, F f -> G f) -> unambiguous_exponents G -> unambiguous_exponents F.
Proof. intros H HG m1 m2 (V1 & f1 & A1 & B1) (V2 & f2 & A2 & B2). apply HG; split; eauto. Qed.

Lemma sum_exponents_app l l' i : sum_exponents (l ++ l') i = (sum_exponents l i + sum_exponents l' i)%Z.
Proof. induction l as [|m l IH]; cbn; [reflexivity|]. rewrite IH. lia. Qed.

Lemma power_terms_self a : within (power_terms a 1) (terms a).
Proof.
  intros m Hm. exists (exponent m). split; [|reflexivity]. exists [m]. split; [intros x [<-|[]]; exact Hm|].
  split; [cbn; lia|]. intro i. cbn. lia.
Qed.

Lemma power_terms_sum a n f : fsum (power_terms a n) (power_terms a 1) f -> power_terms a (S n) f.
Proof.
  intros (g & h & (l & A1 & A2 & A3) & (l' & B1 & B2 & B3) & E). exists (l ++ l'). split; [apply incl_app; assumption|].
  split; [rewrite app_length; lia|]. intro i. rewrite E, A3, B3, sum_exponents_app. reflexivity.
Qed.

Lemma power_loop_ok base n k result : valid base -> valid result -> within (power_terms base k) (terms result) ->
  exists s, power_loop base n result = Ok s /\ valid s /\ within (power_terms base (k + n)) (terms s)
    /\ (ExactNum NN -> unambiguous_exponents (power_terms base (k + n)) ->
        forall r, eval r s = eval r result * npow (eval r base) n).
Proof.
  intro Vb. revert k result. induction n as [|n IH]; intros k result Vr HW; cbn [power_loop].
  - exists result. rewrite Nat.add_0_r. split; [reflexivity|]. split; [exact Vr|]. split; [exact HW|].
    intros EX _ r. cbn. rewrite ring_1_r. reflexivity.
  - destruct (scalar_mul_within result base (power_terms base k) (power_terms base 1)) as (t & -> & Vt & Wt & Et);
      try assumption; [apply power_terms_self | apply power_terms_zero | apply power_terms_zero|]. cb.
    destruct (IH (S k) t Vt) as (s & -> & Vs & Ws & Es); [apply (within_incl _ _ _ (power_terms_sum base k)); exact Wt|].
    exists s. replace (k + S n)%nat with (S k + n)%nat by lia. split; [reflexivity|]. split; [exact Vs|]. split; [exact Ws|].
    intros EX HU r. rewrite Es by assumption. rewrite Et; [|exact EX|].
    + rewrite mul_step, npow_S. reflexivity.
    + eapply unambiguous_sub; [|exact HU]. intros f Hf. apply power_terms_sum in Hf. eapply power_terms_mono; [|exact Hf]. lia.
Qed.

Lemma scalar_power_ok a n : valid a -> (0 <= n)%Z ->
  exists s, scalar_power a n = Ok s /\ valid s /\ within (power_terms a (Z.to_nat n)) (terms s)
    /\ (ExactNum NN -> unambiguous_exponents (power_terms a (Z.to_nat n)) ->
        forall r, eval r s = npow (eval r a) (Z.to_nat n)).
Proof.
  intros V Hn. unfold scalar_power. rewrite (valid_check a V). cb. destruct (Z.leb_spec 0 n); [|lia]. cb.
  destruct (power_loop_ok a (Z.to_nat n) 0 (SK n1)) as (s & -> & Vs & Ws & Es); [exact V | exact I | |].
  - intros m [<-|[]]. destruct (power_terms_zero a 0) as (z & Hz & Ez). exists z. split; [exact Hz|]. intro i. rewrite Ez. reflexivity.
  - exists s. cbn in Ws, Es. split; [reflexivity|]. split; [exact Vs|]. split; [exact Ws|].
    intros EX HU r. rewrite Es by assumption. cbn. apply ring_1_l.
Qed.

(** *** powers of expressions that are not polynomials have one term, and no condition is needed *)
Lemma sum_exponents_repeat m k i : sum_exponents (repeat m k) i = (Z.of_nat k * exponent m i)%Z.
Proof. induction k as [|k IH]; cbn [repeat sum_exponents]; [lia|]. rewrite IH. lia. Qed.

Lemma power_loop_SM m0 n k q : ExactNum NN -> valid_mono m0 -> valid_mono q ->
  (forall i, exponent q i = Z.of_nat k * exponent m0 i)%Z ->
  exists q', power_loop (SM m0) n (SM q) = Ok (SM q') /\ valid_mono q'
    /\ (forall i, exponent q' i = Z.of_nat (k + n) * exponent m0 i)%Z
    /\ forall r, eval_mono r q' = eval_mono r q * npow (eval_mono r m0) n.
Proof.
  intros EX V0. revert k q. induction n as [|n IH]; intros k q Vq Hq; cbn [power_loop].
  - exists q. rewrite Nat.add_0_r. split; [reflexivity|]. split; [exact Vq|]. split; [exact Hq|]. intro r. cbn.
    rewrite ring_1_r. reflexivity.
  - cbn [scalar_mul mono_mul]. destruct (mono_mul_mono_ok q m0 Vq V0) as (t & -> & Vt & Pt & Ct). unfold as_SM. cb.
    destruct (IH (S k) t Vt) as (q' & E & V' & H' & X'); [intro i; rewrite Pt, Hq; lia|].
    exists q'. split; [exact E|]. split; [exact V'|]. split; [intro i; rewrite H'; f_equal; lia|].
    intro r. rewrite X', (eval_product r q m0 t), npow_S by assumption. apply mul_step.
Qed.

Lemma power_loop_SV v n k q : ExactNum NN -> valid_var v -> valid_mono q ->
  (forall i, exponent q i = Z.of_nat k * exponent (var_to_mono v) i)%Z ->
  exists q', power_loop (SV v) n (SM q) = Ok (SM q') /\ valid_mono q'
    /\ (forall i, exponent q' i = Z.of_nat (k + n) * exponent (var_to_mono v) i)%Z
    /\ forall r, eval_mono r q' = eval_mono r q * npow (eval r (SV v)) n.
Proof.
  intros EX Vv. revert k q. induction n as [|n IH]; intros k q Vq Hq; cbn [power_loop].
  - exists q. rewrite Nat.add_0_r. split; [reflexivity|]. split; [exact Vq|]. split; [exact Hq|]. intro r. cbn.
    rewrite ring_1_r. reflexivity.
  - cbn [scalar_mul mono_mul]. destruct (mono_mul_var_ok q v Vq Vv) as (t & -> & Vt & Pt & Ct). unfold as_SM. cb.
    destruct (IH (S k) t Vt) as (q' & E & V' & H' & X'); [intro i; rewrite Pt, Hq; lia|].
    exists q'. split; [exact E|]. split; [exact V'|]. split; [intro i; rewrite H'; f_equal; lia|].
    intro r. rewrite X'. rewrite (eval_product r q (var_to_mono v) t); try assumption.
    + rewrite npow_S, mul_step. do 2 f_equal. symmetry. rewrite <- (eval_terms r (SV v)). apply eval_poly_single.
    + apply valid_mono_of_var; exact Vv.
    + cbn. rewrite ring_1_r. exact Ct.
Qed.

Definition single (s : scalar) : Prop := match s with SP _ => False | _ => True end.

Lemma power_loop_SK k n c : ExactNum NN ->
  exists q, power_loop (SK k) n (SK c) = Ok (SK q) /\ q = c * npow k n.
Proof.
  intro EX. revert c. induction n as [|n IH]; intro c; cbn [power_loop].
  - exists c. split; [reflexivity|]. cbn. rewrite ring_1_r. reflexivity.
  - cbn [scalar_mul]. unfold k_mul. cbn [scalar_check check bind]. destruct (IH (c * k)) as (q & E & Hq).
    exists q. split; [exact E|]. rewrite Hq, npow_S. apply mul_step.
Qed.

Lemma power_single a n : ExactNum NN -> valid a -> single a -> (0 <= n)%Z ->
  exists s, scalar_power a n = Ok s /\ valid s
    /\ (forall m, In m (terms s) -> exists m0, In m0 (terms a) /\ forall i, exponent m i = (Z.of_nat (Z.to_nat n) * exponent m0 i)%Z)
    /\ forall r, eval r s = npow (eval r a) (Z.to_nat n).
Proof.
  intros EX V Sg Hn. unfold scalar_power. rewrite (valid_check a V). cb. destruct (Z.leb_spec 0 n); [|lia]. cb.
  generalize (Z.to_nat n) as k. clear n Hn H. intro k. destruct a as [c|v|m|p]; [| | |destruct Sg].
  - destruct (power_loop_SK c k n1 EX) as (q & -> & Hq). exists (SK q). split; [reflexivity|]. split; [exact I|]. split.
    + intros m [<-|[]]. exists (k_to_mono c). split; [left; reflexivity|]. intro i. unfold exponent; cbn. lia.
    + intro r. cbn. rewrite Hq. apply ring_1_l.
  - assert (E10 : (n1 =? n0) = false) by (apply eqb_false_iff, n1_neq_n0).
    pose proof V as Hv. apply var_check_valid in Hv.
    destruct k as [|[|k]].
    + exists (SK n1). split; [reflexivity|]. split; [exact I|]. split; [|reflexivity].
      intros m [<-|[]]. exists (var_to_mono v). split; [left; reflexivity|]. intro i. unfold exponent; cbn. lia.
    + exists (SV v). split.
      { cbn [power_loop scalar_mul]. unfold k_mul. cbn [scalar_check]. rewrite Hv. cb. unfold var_mul_k. rewrite Hv. cb.
        rewrite mono_simplified_ok by (apply valid_mono_var; [exact V | lia]). unfold msimplified, is_plain_var. cbn.
        rewrite E10, eqb_refl_num. reflexivity. }
      split; [exact V|]. split.
      * intros m [<-|[]]. exists (var_to_mono v). split; [left; reflexivity|]. intro i. change (Z.of_nat 1) with 1%Z. rewrite Z.mul_1_l. reflexivity.
      * intro r. cbn. rewrite ring_1_r. reflexivity.
    + assert (E2 : power_loop (SV v) (S (S k)) (SK n1) = power_loop (SV v) k (SM (mkMono n1 [2%Z] [v]))).
      { cbn [power_loop scalar_mul]. unfold k_mul. cbn [scalar_check]. rewrite Hv. cb. unfold var_mul_k. rewrite Hv. cb.
        rewrite mono_simplified_ok by (apply valid_mono_var; [exact V | lia]). unfold msimplified at 1, is_plain_var. cbn [m_vars m_coeff m_exps length Nat.eqb Z.eqb Pos.eqb].
        rewrite E10, eqb_refl_num. cbn [andb]. cb. cbn [scalar_mul var_mul]. unfold var_mul_var. rewrite Hv. cb.
        replace (same_id v v) with true by (symmetry; apply same_id_iff; reflexivity).
        rewrite mono_simplified_ok by (apply valid_mono_var; [exact V | lia]). unfold msimplified, is_plain_var.
        cbn [m_vars m_coeff m_exps length Nat.eqb Z.eqb Pos.eqb]. rewrite E10, andb_false_r. reflexivity. }
      rewrite E2.
      destruct (power_loop_SV v k 2 (mkMono n1 [2%Z] [v]) EX V) as (q & -> & Vq & Hq & Xq).
      * apply valid_mono_var; [exact V | lia].
      * intro i. unfold exponent, var_to_mono; cbn [m_vars m_exps exponent_in]. destruct (N.eqb _ _); lia.
      * exists (SM q). split; [reflexivity|]. split; [exact Vq|]. split.
        -- intros m [<-|[]]. exists (var_to_mono v). split; [left; reflexivity|]. intro i. rewrite Hq. reflexivity.
        -- intro r. cbn [eval]. rewrite Xq, !npow_S. unfold eval_mono. cbn [m_coeff m_exps m_vars eval_factors].
           change (Z.to_nat 2) with 2%nat. cbn [npow eval]. rewrite !ring_1_r, ring_1_l. apply mul_step.
  - destruct k as [|k].
    + exists (SK n1). split; [reflexivity|]. split; [exact I|]. split; [|reflexivity].
      intros x [<-|[]]. exists m. split; [left; reflexivity|]. intro i. unfold exponent; cbn. lia.
    + cbn [power_loop scalar_mul]. unfold k_mul. cbn [scalar_check]. rewrite (valid_mono_check m V). cb.
      unfold mono_mul_k. rewrite (valid_mono_check m V). unfold as_SM. cb.
      destruct (power_loop_SM m k 1 (set_coeff m (m_coeff m * n1)) EX V) as (q & -> & Vq & Hq & Xq).
      * exact V.
      * intro i. change (Z.of_nat 1) with 1%Z. rewrite Z.mul_1_l. reflexivity.
      * exists (SM q). split; [reflexivity|]. split; [exact Vq|]. split.
        -- intros x [<-|[]]. exists m. split; [left; reflexivity|]. intro i. rewrite Hq. reflexivity.
        -- intro r. cbn [eval]. rewrite Xq, npow_S. f_equal. unfold eval_mono; cbn. rewrite ring_1_r. reflexivity.
Qed.

(** ** Substitution of every factor by its image *)
Definition picks (n : nat) (s : scalar) (f : N -> Z) : Prop :=
  exists l, pick n s l /\ forall i, f i = sum_exponents l i.

Lemma pick_nil n s : pick n s [].
Proof. split; [intros x []|]. split; [cbn; lia|]. destruct s; auto. Qed.
Lemma picks_zero n s : has_zero (picks n s).
Proof. exists (fun _ => 0%Z). split; [|reflexivity]. exists []. split; [apply pick_nil | reflexivity]. Qed.

Lemma power_picks a e : ExactNum NN -> valid a -> (0 <= e)%Z ->
  exists s, scalar_power a e = Ok s /\ valid s /\ within (picks (Z.to_nat e) a) (terms s)
    /\ (unambiguous_exponents (picks (Z.to_nat e) a) -> forall r, eval r s = npow (eval r a) (Z.to_nat e)).
Proof.
  intros EX V He. destruct a as [c|v|m|p] eqn:Ea.
  4:{ destruct (scalar_power_ok (SP p) e V He) as (s & E & Vs & W & X). exists s. split; [exact E|]. split; [exact Vs|].
      assert (HP : forall f, power_terms (SP p) (Z.to_nat e) f <-> picks (Z.to_nat e) (SP p) f).
      { intro f. split; [intros (l & A1 & A2 & A3); exists l; repeat split; assumption | intros (l & (A1 & A2 & _) & A3); exists l; auto]. }
      split; [eapply within_incl; [|exact W]; intros f Hf; apply HP; exact Hf|].
      intro HU. apply X; [exact EX|]. eapply unambiguous_sub; [|exact HU]. intros f Hf; apply HP; exact Hf. }
  all: rewrite <- Ea in *; destruct (power_single a e EX V) as (s & E & Vs & W & X); [rewrite Ea; exact I | exact He|];
    exists s; (split; [exact E|]); (split; [exact Vs|]); (split; [|intros _; exact X]);
    intros x Hx; destruct (W x Hx) as (m0 & H1 & H2);
    exists (exponent x); (split; [|reflexivity]); exists (repeat m0 (Z.to_nat e));
    (split; [|intro i; rewrite sum_exponents_repeat; apply H2]);
    (split; [intros y Hy; apply repeat_spec in Hy; subst y; exact H1|]);
    rewrite repeat_length; (split; [lia|]); rewrite Ea; left; reflexivity.
Qed.

Fixpoint eval_image (r : assignment) (image : var -> scalar) (vs : list var) (es : list Z) : num :=
  match vs, es with
  | v :: vs', e :: es' => npow (eval r (image v)) (Z.to_nat e) * eval_image r image vs' es'
  | _, _ => n1
  end.

Lemma eval_image_factors r r' image vs es :
  (forall v, In v vs -> r' (v_id v) = eval r (image v)) -> eval_image r image vs es = eval_factors r' vs es.
Proof.
  revert es. induction vs as [|v vs IH]; intros [|e es] H; cbn; try reflexivity.
  rewrite (H v) by (left; reflexivity). rewrite (IH es); [reflexivity|]. intros w Hw. apply H. right. exact Hw.
Qed.

Lemma image_terms_ext image vs es f g : (forall i, f i = g i) -> image_terms image vs es f -> image_terms image vs es g.
Proof.
  intro E. destruct vs as [|v vs]; [intros H i; rewrite <- E; apply H|].
  destruct es as [|e es]; [intros H i; rewrite <- E; apply H|].
  intros (l & h & H1 & H2 & H3). exists l, h. split; [exact H1|]. split; [exact H2|]. intro i. rewrite <- E. apply H3.
Qed.

Lemma image_terms_zero image vs es : has_zero (image_terms image vs es).
Proof.
  exists (fun _ => 0%Z). split; [|reflexivity]. revert es. induction vs as [|v vs IH]; intros [|e es]; cbn; try reflexivity.
  exists [], (fun _ => 0%Z). split; [apply pick_nil|]. split; [apply IH | reflexivity].
Qed.

Lemma subst_loop_valid sub image vs es prod :
  (forall v, In v vs -> sub v = Ok (image v) /\ valid (image v)) ->
  length es = length vs -> Forall (fun e => (0 <= e)%Z) es -> valid prod ->
  exists s, subst_loop sub vs es prod = Ok s /\ valid s.
Proof.
  revert es prod. induction vs as [|v vs IH]; intros es prod Hs Hl He Vp; cbn [subst_loop].
  - exists prod. auto.
  - destruct es as [|e es]; [discriminate|]. inversion He as [|? ? He1 He2]; subst.
    destruct (Hs v (or_introl eq_refl)) as [-> Vi]. cb.
    destruct (scalar_power_ok (image v) e Vi He1) as (pw & -> & Vpw & _). cb.
    destruct (scalar_mul_spec prod pw Vp Vpw) as (t & L & -> & Vt & _). cb.
    apply IH; [intros w Hw; apply Hs; right; exact Hw | cbn in Hl; lia | exact He2 | exact Vt].
Qed.

Lemma subst_loop_value sub image vs es prod F :
  ExactNum NN ->
  (forall v, In v vs -> sub v = Ok (image v) /\ valid (image v)) ->
  length es = length vs -> Forall (fun e => (0 <= e)%Z) es -> valid prod -> within F (terms prod) -> has_zero F ->
  exists s, subst_loop sub vs es prod = Ok s /\ valid s
    /\ within (fsum F (image_terms image vs es)) (terms s)
    /\ (unambiguous_exponents (fsum F (image_terms image vs es)) ->
        forall r, eval r s = eval r prod * eval_image r image vs es).
Proof.
  intro EX. revert es prod F. induction vs as [|v vs IH]; intros es prod F Hs Hl He Vp HW HZ; cbn [subst_loop].
  - exists prod. destruct es; [|discriminate]. split; [reflexivity|]. split; [exact Vp|]. split.
    + intros m Hm. destruct (HW m Hm) as (f & Hf & Ef). exists f. split; [|exact Ef]. exists f, (fun _ => 0%Z). split; [exact Hf|].
      split; [intro; reflexivity | intro; lia].
    + intros _ r. cbn. rewrite ring_1_r. reflexivity.
  - destruct es as [|e es]; [discriminate|]. inversion He as [|? ? He1 He2]; subst.
    destruct (Hs v (or_introl eq_refl)) as [-> Vi]. cb.
    destruct (power_picks (image v) e EX Vi He1) as (pw & -> & Vpw & Wpw & Xpw). cb.
    destruct (scalar_mul_within prod pw F (picks (Z.to_nat e) (image v)) Vp Vpw HW Wpw HZ (picks_zero _ _)) as (t & -> & Vt & Wt & Xt). cb.
    assert (HZ' : has_zero (fsum F (picks (Z.to_nat e) (image v)))).
    { destruct HZ as (z & Hz & Ez). destruct (picks_zero (Z.to_nat e) (image v)) as (z' & Hz' & Ez').
      exists (fun _ => 0%Z). split; [|reflexivity]. exists z, z'. split; [exact Hz|]. split; [exact Hz'|]. intro i. rewrite Ez, Ez'. reflexivity. }
    destruct (IH es t (fsum F (picks (Z.to_nat e) (image v)))) as (s & -> & Vs & Ws & Xs);
      [intros w Hw; apply Hs; right; exact Hw | cbn in Hl; lia | exact He2 | exact Vt | exact Wt | exact HZ' |].
    assert (HS : forall f, fsum (fsum F (picks (Z.to_nat e) (image v))) (image_terms image vs es) f ->
                           fsum F (image_terms image (v :: vs) (e :: es)) f).
    { intros f (g & h & (g1 & g2 & A1 & (l & A2 & A3) & A4) & A5 & A6). exists g1, (fun i => (g2 i + h i)%Z).
      split; [exact A1|]. split; [|intro i; rewrite A6, A4; lia]. exists l, h. split; [exact A2|]. split; [exact A5|].
      intro i. rewrite A3. reflexivity. }
    assert (HS2 : forall f, fsum F (picks (Z.to_nat e) (image v)) f -> fsum F (image_terms image (v :: vs) (e :: es)) f).
    { intros f Hf. apply HS. destruct (image_terms_zero image vs es) as (z & Hz & Ez). exists f, z. split; [exact Hf|].
      split; [exact Hz|]. intro i. rewrite Ez. lia. }
    exists s. split; [reflexivity|]. split; [exact Vs|]. split; [eapply within_incl; [exact HS | exact Ws]|].
    intros HU r. rewrite Xs by (eapply unambiguous_sub; [exact HS | exact HU]).
    rewrite Xt; [|exact EX|eapply unambiguous_sub; [exact HS2 | exact HU]].
    rewrite Xpw.
    + cbn [eval_image]. apply mul_step.
    + eapply unambiguous_sub; [|exact HU]. intros f Hf. apply HS2. destruct HZ as (z & Hz & Ez). exists z, f.
      split; [exact Hz|]. split; [exact Hf|]. intro i. rewrite Ez. reflexivity.
Qed.

Definition zero_fn (f : N -> Z) : Prop := forall i, f i = 0%Z.

Lemma subst_mono_value sub image m :
  ExactNum NN -> valid_mono m -> (forall v, In v (m_vars m) -> sub v = Ok (image v) /\ valid (image v)) ->
  exists s, subst_loop sub (m_vars m) (m_exps m) (SK (m_coeff m)) = Ok s /\ valid s
    /\ within (image_terms image (m_vars m) (m_exps m)) (terms s)
    /\ (unambiguous_exponents (image_terms image (m_vars m) (m_exps m)) ->
        forall r, eval r s = m_coeff m * eval_image r image (m_vars m) (m_exps m)).
Proof.
  intros EX (V1 & V2 & _) Hs.
  destruct (subst_loop_value sub image (m_vars m) (m_exps m) (SK (m_coeff m)) zero_fn EX Hs V1) as (s & E & Vs & W & X).
  - eapply Forall_impl; [|exact V2]. intros; cbn in *; lia.
  - exact I.
  - intros x [<-|[]]. exists (fun _ => 0%Z). split; [intro; reflexivity|]. reflexivity.
  - exists (fun _ => 0%Z). split; intro; reflexivity.
  - assert (HS : forall f, fsum zero_fn (image_terms image (m_vars m) (m_exps m)) f -> image_terms image (m_vars m) (m_exps m) f).
    { intros f (g & h & A1 & A2 & A3). eapply image_terms_ext; [|exact A2]. intro i. rewrite A3, A1. reflexivity. }
    exists s. split; [exact E|]. split; [exact Vs|]. split; [eapply within_incl; [exact HS | exact W]|].
    intros HU r. apply X. eapply unambiguous_sub; [exact HS | exact HU].
Qed.

(** the fold over the terms of a polynomial *)
Lemma subst_fold_valid (g : Monomial -> res scalar) p acc :
  (forall m, In m p -> exists t, g m = Ok t /\ valid t) -> valid acc ->
  exists s, foldM (fun acc m => t <- g m ;; scalar_plus acc t) acc p = Ok s /\ valid s.
Proof.
  revert acc. induction p as [|m p IH]; intros acc Hg Va; cbn [foldM]; [exists acc; auto|].
  destruct (Hg m (or_introl eq_refl)) as (t & -> & Vt). cb.
  destruct (scalar_plus_lred acc t Va Vt) as (s & -> & Vs & _). cb. apply IH; [|exact Vs].
  intros x Hx. apply Hg. right. exact Hx.
Qed.

Lemma subst_fold_value (g : Monomial -> res scalar) (val : assignment -> Monomial -> num) F p acc :
  ExactNum NN -> has_zero F -> unambiguous_exponents F ->
  (forall m, In m p -> exists t, g m = Ok t /\ valid t /\ within F (terms t) /\ forall r, eval r t = val r m) ->
  valid acc -> within F (terms acc) ->
  exists s, foldM (fun acc m => t <- g m ;; scalar_plus acc t) acc p = Ok s /\ valid s /\ within F (terms s)
    /\ forall r, eval r s = eval r acc + fold_right (fun m v => val r m + v) n0 p.
Proof.
  intros EX HZ HU. revert acc. induction p as [|m p IH]; intros acc Hg Va HW; cbn [foldM fold_right].
  - exists acc. split; [reflexivity|]. split; [exact Va|]. split; [exact HW|]. intro r. rewrite ring_a0_r. reflexivity.
  - destruct (Hg m (or_introl eq_refl)) as (t & -> & Vt & Wt & Xt). cb.
    destruct (scalar_plus_within acc t F Va Vt HW Wt HZ) as (s & -> & Vs & Ws & Xs). cb.
    destruct (IH s) as (s' & -> & V' & W' & X'); [intros x Hx; apply Hg; right; exact Hx | exact Vs | exact Ws|].
    exists s'. split; [reflexivity|]. split; [exact V'|]. split; [exact W'|]. intro r. rewrite X', Xs, Xt by assumption.
    symmetry. apply (Radd_assoc num_ring).
Qed.

Lemma fold_val_poly r' p : forall r : assignment,
  fold_right (fun m v => eval_mono r' m + v) n0 p = eval_poly r' p.
Proof. intros _. induction p as [|m p IH]; cbn; [reflexivity|]. rewrite IH. reflexivity. Qed.

Lemma simplified_within F s : valid s -> within F (terms s) -> ExactNum NN -> unambiguous_exponents F ->
  exists s', scalar_simplified s = Ok s' /\ valid s' /\ forall r, eval r s' = eval r s.
Proof.
  intros V W EX HU. exists (ssimplified s). split; [apply scalar_simplified_ok; exact V|].
  split; [apply ssimplified_valid; exact V|]. intro r. destruct (lred_simplified s V) as (_ & _ & H).
  rewrite <- eval_terms, H, eval_terms; [reflexivity | exact EX|]. eapply within_coherent; [exact HU | exact W|].
  apply valid_terms; exact V.
Qed.

(** *** Substitute *)

(** the expression a variable is replaced with *)
Definition sub_image (vIn : var) (e : scalar) (w : var) : scalar :=
  if same_id w vIn && env_eqb (v_env w) (v_env vIn) then e else SV w.

Lemma var_substitute_ok w vIn e : valid_var w -> valid_var vIn -> valid e ->
  var_substitute w vIn e = Ok (sub_image vIn e w) /\ valid (sub_image vIn e w).
Proof.
  intros V1 V2 V3. unfold var_substitute, sub_image. pose proof V1 as H1. apply var_check_valid in H1. rewrite H1.
  pose proof V2 as H2. apply var_check_valid in H2. rewrite H2. rewrite (valid_check e V3). cb. split; [reflexivity|].
  destruct (_ && _); assumption.
Qed.

Lemma mono_substitute_valid m vIn e : valid_mono m -> valid_var vIn -> valid e ->
  exists s, mono_substitute m vIn e = Ok s /\ valid s.
Proof.
  intros V V2 V3. unfold mono_substitute. rewrite (valid_mono_check m V). pose proof V2 as H2. apply var_check_valid in H2.
  rewrite H2, (valid_check e V3). cb. destruct (find_var vIn (m_vars m)); [|exists (SM m); auto].
  destruct V as (A1 & A2 & _ & A4). apply (subst_loop_valid _ (sub_image vIn e)); [|exact A1| |exact I].
  - intros v Hv. rewrite Forall_forall in A4. apply var_substitute_ok; auto.
  - eapply Forall_impl; [|exact A2]. intros; cbn in *; lia.
Qed.

Lemma scalar_substitute_valid s vIn e : valid s -> valid_var vIn -> valid e ->
  exists s', scalar_substitute s vIn e = Ok s' /\ valid s'.
Proof.
  intros V V2 V3. destruct s as [k|v|m|p]; cbn [scalar_substitute].
  - exists (SK k). auto.
  - destruct (var_substitute_ok v vIn e V V2 V3) as [-> H]. eauto.
  - apply mono_substitute_valid; assumption.
  - unfold poly_substitute. rewrite (valid_poly_check p V). pose proof V2 as H2. apply var_check_valid in H2.
    rewrite H2, (valid_check e V3). cb.
    destruct (subst_fold_valid (fun m => mono_substitute m vIn e) p (SK n0)) as (t & -> & Vt); [|exact I|].
    + intros m Hm. apply mono_substitute_valid; try assumption. destruct V as [_ V]. rewrite Forall_forall in V. auto.
    + cb. exists (ssimplified t). split; [apply scalar_simplified_ok; exact Vt | apply ssimplified_valid; exact Vt].
Qed.

Lemma image_terms_self image vs es : length es = length vs -> Forall (fun e => (0 <= e)%Z) es ->
  (forall v, In v vs -> image v = SV v) -> image_terms image vs es (exponent_in vs es).
Proof.
  revert es. induction vs as [|v vs IH]; intros [|e es] Hl He Hi; try discriminate; cbn; [reflexivity|].
  inversion He as [|? ? He1 He2]; subst.
  exists (repeat (var_to_mono v) (Z.to_nat e)), (exponent_in vs es). split; [|split].
  - rewrite (Hi v) by (left; reflexivity). split; [intros x Hx; apply repeat_spec in Hx; subst x; left; reflexivity|].
    rewrite repeat_length. split; [lia | left; reflexivity].
  - apply IH; [cbn in Hl; lia | exact He2|]. intros w Hw. apply Hi. right. exact Hw.
  - intro i. rewrite sum_exponents_repeat. unfold exponent. cbn. destruct (N.eqb _ _); lia.
Qed.

Lemma mono_substitute_value m vIn e : ExactNum NN -> valid_mono m -> valid_var vIn -> valid e ->
  (forall w, In w (m_vars m) -> v_id w = v_id vIn -> v_env w = v_env vIn) ->
  exists s, mono_substitute m vIn e = Ok s /\ valid s
    /\ within (image_terms (sub_image vIn e) (m_vars m) (m_exps m)) (terms s)
    /\ (unambiguous_exponents (image_terms (sub_image vIn e) (m_vars m) (m_exps m)) ->
        forall r, eval r s = eval_mono (update r (v_id vIn) (eval r e)) m).
Proof.
  intros EX V V2 V3 HE. unfold mono_substitute. rewrite (valid_mono_check m V). pose proof V2 as H2. apply var_check_valid in H2.
  rewrite H2, (valid_check e V3). cb.
  assert (HI : forall r w, In w (m_vars m) -> update r (v_id vIn) (eval r e) (v_id w) = eval r (sub_image vIn e w)).
  { intros r w Hw. unfold update, sub_image, same_id. destruct (N.eqb_spec (v_id w) (v_id vIn)) as [E|E]; [|reflexivity].
    rewrite (HE w Hw E). cbn [andb]. replace (env_eqb (v_env vIn) (v_env vIn)) with true; [reflexivity|].
    symmetry. unfold env_eqb. destruct (v_env vIn); [apply N.eqb_refl | reflexivity]. }
  destruct (find_var vIn (m_vars m)) as [k|] eqn:Ef.
  - destruct (subst_mono_value (fun v => var_substitute v vIn e) (sub_image vIn e) m EX V) as (s & E & Vs & W & X).
    + intros w Hw. destruct V as (_ & _ & _ & V4). rewrite Forall_forall in V4. apply var_substitute_ok; auto.
    + exists s. split; [exact E|]. split; [exact Vs|]. split; [exact W|]. intros HU r. rewrite X by exact HU.
      unfold eval_mono. f_equal. apply eval_image_factors. intros w Hw. apply HI. exact Hw.
  - apply find_var_none in Ef. exists (SM m). split; [reflexivity|]. split; [exact V|]. split.
    + intros x [<-|[]]. exists (exponent m). split; [|reflexivity]. destruct V as (A1 & A2 & _). apply image_terms_self; [exact A1| |].
      * eapply Forall_impl; [|exact A2]. intros; cbn in *; lia.
      * intros w Hw. unfold sub_image. replace (same_id w vIn) with false; [reflexivity|]. symmetry. apply same_id_false.
        intro E. apply Ef. rewrite <- E. apply in_map. exact Hw.
    + intros _ r. cbn. unfold eval_mono. f_equal. apply eval_factors_ext. intros w Hw. unfold update.
      destruct (N.eqb_spec (v_id w) (v_id vIn)) as [E|E]; [|reflexivity]. exfalso. apply Ef. rewrite <- E. apply in_map. exact Hw.
Qed.

Lemma scalar_substitute_value s vIn e : ExactNum NN -> valid s -> valid_var vIn -> valid e ->
  (forall m w, In m (terms s) -> In w (m_vars m) -> v_id w = v_id vIn -> v_env w = v_env vIn) ->
  unambiguous_exponents (substituted_terms (sub_image vIn e) s) ->
  exists s', scalar_substitute s vIn e = Ok s' /\ valid s'
    /\ forall r, eval r s' = eval (update r (v_id vIn) (eval r e)) s.
Proof.
  intros EX V V2 V3 HE HU. destruct s as [k|v|m|p]; cbn [scalar_substitute].
  - exists (SK k). auto.
  - destruct (var_substitute_ok v vIn e V V2 V3) as [-> H]. eexists. split; [reflexivity|]. split; [exact H|]. intro r.
    cbn. unfold update, sub_image, same_id. destruct (N.eqb_spec (v_id v) (v_id vIn)) as [E|E]; [|reflexivity].
    rewrite (HE (var_to_mono v) v) by (try exact E; left; reflexivity). cbn [andb].
    replace (env_eqb (v_env vIn) (v_env vIn)) with true; [reflexivity|].
    symmetry. unfold env_eqb. destruct (v_env vIn); [apply N.eqb_refl | reflexivity].
  - destruct (mono_substitute_value m vIn e EX V V2 V3) as (t & E & Vt & Wt & Xt);
      [intros w Hw; apply (HE m w); [left; reflexivity | exact Hw]|].
    exists t. split; [exact E|]. split; [exact Vt|]. apply Xt. eapply unambiguous_sub; [|exact HU].
    intros f Hf. exists m. split; [left; reflexivity | exact Hf].
  - unfold poly_substitute. rewrite (valid_poly_check p V). pose proof V2 as H2. apply var_check_valid in H2.
    rewrite H2, (valid_check e V3). cb.
    assert (HZ : has_zero (substituted_terms (sub_image vIn e) (SP p))).
    { destruct V as [V0 _]. destruct p as [|m p]; [congruence|].
      destruct (image_terms_zero (sub_image vIn e) (m_vars m) (m_exps m)) as (z & Hz & Ez). exists z. split; [|exact Ez].
      exists m. split; [left; reflexivity | exact Hz]. }
    destruct (subst_fold_value (fun m => mono_substitute m vIn e) (fun r m => eval_mono (update r (v_id vIn) (eval r e)) m)
      (substituted_terms (sub_image vIn e) (SP p)) p (SK n0) EX HZ HU) as (t & -> & Vt & Wt & Xt).
    + intros m Hm. destruct V as [_ V]. rewrite Forall_forall in V.
      destruct (mono_substitute_value m vIn e EX (V m Hm) V2 V3) as (t & E & Vt & Wt & Xt);
        [intros w Hw; apply (HE m w); [exact Hm | exact Hw]|].
      assert (HS : forall f, image_terms (sub_image vIn e) (m_vars m) (m_exps m) f -> substituted_terms (sub_image vIn e) (SP p) f).
      { intros f Hf. exists m. split; [exact Hm | exact Hf]. }
      exists t. split; [exact E|]. split; [exact Vt|]. split; [eapply within_incl; [exact HS | exact Wt]|].
      apply Xt. eapply unambiguous_sub; [exact HS | exact HU].
    + exact I.
    + intros x [<-|[]]. destruct HZ as (z & Hz & Ez). exists z. split; [exact Hz|]. intro i. rewrite Ez. reflexivity.
    + cb. destruct (simplified_within _ t Vt Wt EX HU) as (t' & E' & V' & X'). exists t'. split; [exact E'|]. split; [exact V'|].
      intro r. rewrite X', Xt. cbn [eval]. rewrite ring_a0_l. apply fold_val_poly. exact r.
Qed.

(** *** SubstituteAccordingTo *)
Definition map_image (sm : submap) (w : var) : scalar :=
  match lookup sm w with Some (ES s) => s | _ => SV w end.

Definition ok_map (sm : submap) : Prop :=
  forall k e, In (k, e) sm -> valid_var k /\ exists s, e = ES s /\ valid s.

Lemma valid_map_check sm : ok_map sm -> check_submap sm = true.
Proof.
  intro H. unfold check_submap. apply forallb_forall. intros [k e] Hin. destruct (H k e Hin) as (Hk & s & -> & Vs). cbn.
  apply var_check_valid in Hk. rewrite Hk. apply valid_check. exact Vs.
Qed.

Lemma lookup_in sm v e : lookup sm v = Some e -> exists k, In (k, e) sm /\ var_eqb v k = true.
Proof.
  induction sm as [|[k e'] sm IH]; cbn; [discriminate|]. destruct (var_eqb v k) eqn:E.
  - intros [= ->]. exists k. split; [left; reflexivity | exact E].
  - intro H. destruct (IH H) as (k' & H1 & H2). exists k'. split; [right; exact H1 | exact H2].
Qed.

Lemma var_substitute_map_ok w sm : valid_var w -> ok_map sm ->
  var_substitute_map w sm = Ok (map_image sm w) /\ valid (map_image sm w).
Proof.
  intros V H. unfold var_substitute_map, map_image. pose proof V as H1. apply var_check_valid in H1. rewrite H1.
  rewrite (valid_map_check sm H). cb. destruct (lookup sm w) as [e|] eqn:E; [|auto].
  apply lookup_in in E. destruct E as (k & Hin & _). destruct (H k e Hin) as (_ & s & -> & Vs). auto.
Qed.

Lemma scalar_substitute_map_valid s sm : valid s -> ok_map sm ->
  exists s', scalar_substitute_map s sm = Ok s' /\ valid s'.
Proof.
  intros V H.
  assert (HM : forall m, valid_mono m -> exists t, mono_substitute_map m sm = Ok t /\ valid t).
  { intros m (A1 & A2 & A3 & A4). unfold mono_substitute_map. rewrite (valid_mono_check m) by (repeat split; assumption).
    rewrite (valid_map_check sm H). cb. apply (subst_loop_valid _ (map_image sm)); [|exact A1| |exact I].
    - intros v Hv. rewrite Forall_forall in A4. apply var_substitute_map_ok; auto.
    - eapply Forall_impl; [|exact A2]. intros; cbn in *; lia. }
  destruct s as [k|v|m|p]; cbn [scalar_substitute_map].
  - exists (SK k). auto.
  - destruct (var_substitute_map_ok v sm V H) as [-> H']. eauto.
  - apply HM. exact V.
  - unfold poly_substitute_map. rewrite (valid_poly_check p V), (valid_map_check sm H). cb.
    apply subst_fold_valid; [|exact I]. intros m Hm. apply HM. destruct V as [_ V]. rewrite Forall_forall in V. auto.
Qed.

Lemma scalar_substitute_map_value s sm : ExactNum NN -> valid s -> ok_map sm ->
  unambiguous_exponents (substituted_terms (map_image sm) s) ->
  exists s', scalar_substitute_map s sm = Ok s' /\ valid s'
    /\ forall r r', (forall m w, In m (terms s) -> In w (m_vars m) -> r' (v_id w) = eval r (map_image sm w)) ->
       eval r s' = eval r' s.
Proof.
  intros EX V H HU.
  assert (HM : forall m, valid_mono m -> exists t, mono_substitute_map m sm = Ok t /\ valid t
    /\ within (image_terms (map_image sm) (m_vars m) (m_exps m)) (terms t)
    /\ (unambiguous_exponents (image_terms (map_image sm) (m_vars m) (m_exps m)) ->
        forall r, eval r t = m_coeff m * eval_image r (map_image sm) (m_vars m) (m_exps m))).
  { intros m Vm. unfold mono_substitute_map. rewrite (valid_mono_check m Vm), (valid_map_check sm H). cb.
    apply subst_mono_value; [exact EX | exact Vm|]. intros v Hv. destruct Vm as (_ & _ & _ & A4). rewrite Forall_forall in A4.
    apply var_substitute_map_ok; auto. }
  destruct s as [k|v|m|p]; cbn [scalar_substitute_map].
  - exists (SK k). split; [reflexivity|]. split; [exact I | reflexivity].
  - destruct (var_substitute_map_ok v sm V H) as [-> H']. eexists. split; [reflexivity|]. split; [exact H'|].
    intros r r' Hr. cbn. symmetry. apply (Hr (var_to_mono v) v); left; reflexivity.
  - destruct (HM m V) as (t & E & Vt & Wt & Xt). exists t. split; [exact E|]. split; [exact Vt|]. intros r r' Hr.
    rewrite Xt; [|eapply unambiguous_sub; [|exact HU]; intros f Hf; exists m; split; [left; reflexivity | exact Hf]].
    cbn. unfold eval_mono. f_equal. apply eval_image_factors. intros w Hw. apply (Hr m w); [left; reflexivity | exact Hw].
  - unfold poly_substitute_map. rewrite (valid_poly_check p V), (valid_map_check sm H). cb.
    assert (HZ : has_zero (substituted_terms (map_image sm) (SP p))).
    { destruct V as [V0 _]. destruct p as [|m p]; [congruence|].
      destruct (image_terms_zero (map_image sm) (m_vars m) (m_exps m)) as (z & Hz & Ez). exists z. split; [|exact Ez].
      exists m. split; [left; reflexivity | exact Hz]. }
    destruct (subst_fold_value (fun m => mono_substitute_map m sm)
      (fun r m => m_coeff m * eval_image r (map_image sm) (m_vars m) (m_exps m))
      (substituted_terms (map_image sm) (SP p)) p (SK n0) EX HZ HU) as (t & -> & Vt & Wt & Xt).
    + intros m Hm. destruct V as [_ V]. rewrite Forall_forall in V.
      destruct (HM m (V m Hm)) as (t & E & Vt & Wt & Xt).
      assert (HS : forall f, image_terms (map_image sm) (m_vars m) (m_exps m) f -> substituted_terms (map_image sm) (SP p) f).
      { intros f Hf. exists m. split; [exact Hm | exact Hf]. }
      exists t. split; [exact E|]. split; [exact Vt|]. split; [eapply within_incl; [exact HS | exact Wt]|].
      apply Xt. eapply unambiguous_sub; [exact HS | exact HU].
    + exact I.
    + intros x [<-|[]]. destruct HZ as (z & Hz & Ez). exists z. split; [exact Hz|]. intro i. rewrite Ez. reflexivity.
    + exists t. split; [reflexivity|]. split; [exact Vt|]. intros r r' Hr. rewrite Xt. cbn [eval]. rewrite ring_a0_l.
      rewrite <- (fold_val_poly r' p r). clear - Hr EX.
      assert (HG : forall q, incl q p -> fold_right (fun m v => m_coeff m * eval_image r (map_image sm) (m_vars m) (m_exps m) + v) n0 q
        = fold_right (fun m v => eval_mono r' m + v) n0 q).
      { induction q as [|m q IH]; intro Hq; cbn; [reflexivity|]. rewrite IH by (intros x Hx; apply Hq; right; exact Hx).
        f_equal. unfold eval_mono. f_equal. apply eval_image_factors. intros w Hw. apply (Hr m w); [|exact Hw].
        apply Hq. left. reflexivity. }
      apply HG. apply incl_refl.
Qed.

End More.
