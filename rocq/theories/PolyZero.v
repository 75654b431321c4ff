(** * A polynomial whose value is zero everywhere has only zero coefficients *)

From Coq Require Import ZArith NArith Bool List Lia Permutation Field_theory Ring_theory.
From Verif Require Import Num Syntax ModelScalar Spec Base Eval Order SpecArr SpecConv.
Import ListNotations.
Local Open Scope num_scope.

Section PolyZero.
Context {NN : Num} {EX : ExactNum NN}.
Add Ring numring : num_ring.

Lemma mul_zero (a b : num) : a * b = n0 -> a <> n0 -> b = n0.
Proof.
  intros H Ha. transitivity ((n1 / a * a) * b); [rewrite (inv_l a Ha); ring|].
  replace (n1 / a * a * b) with (n1 / a * (a * b)) by ring. rewrite H. ring.
Qed.

(** ** One variable: coefficient lists *)
Fixpoint hor (l : list num) (t : num) : num := match l with [] => n0 | a :: l' => a + t * hor l' t end.
Fixpoint quot (l : list num) (a : num) : list num :=
  match l with [] => [] | _ :: l' => match l' with [] => [] | _ => hor l' a :: quot l' a end end.

Lemma quot_cons c l a : l <> [] -> quot (c :: l) a = hor l a :: quot l a.
Proof. destruct l; [congruence | reflexivity]. Qed.
Lemma quot_length l a : length (quot l a) = pred (length l).
Proof.
  induction l as [|c l IH]; [reflexivity|]. destruct l as [|c' l]; [reflexivity|].
  rewrite quot_cons by discriminate. cbn [length]. rewrite IH. reflexivity.
Qed.
Lemma hor_quot l a t : hor l t = hor l a + (t - a) * hor (quot l a) t.
Proof.
  induction l as [|c l IH]; [cbn; ring|]. destruct l as [|c' l]; [cbn; ring|].
  rewrite quot_cons by discriminate.
  change (hor (c :: c' :: l) t) with (c + t * hor (c' :: l) t). change (hor (c :: c' :: l) a) with (c + a * hor (c' :: l) a).
  cbn [hor] in IH |- *. fold (hor l t) (hor l a) in *. rewrite IH. ring.
Qed.
Lemma quot_zero l a : hor l a = n0 -> Forall (fun c => c = n0) (quot l a) -> Forall (fun c => c = n0) l.
Proof.
  induction l as [|c l IH]; intros H1 H2; [constructor|]. destruct l as [|c' l].
  - cbn in H1. constructor; [|constructor]. rewrite <- H1. ring.
  - rewrite quot_cons in H2 by discriminate. inversion H2 as [|? ? H3 H4]; subst. constructor.
    + cbn [hor] in H1, H3. rewrite H3 in H1. rewrite <- H1. ring.
    + apply IH; assumption.
Qed.
Lemma hor_zero pts : forall l, NoDup pts -> length l <= length pts -> (forall t, In t pts -> hor l t = n0) -> Forall (fun c => c = n0) l.
Proof.
  induction pts as [|a pts IH]; intros l HN HL HZ.
  - destruct l; [constructor | cbn in HL; lia].
  - inversion HN as [|? ? Ha HN']; subst. apply (quot_zero l a); [apply HZ; left; reflexivity|].
    apply IH; [exact HN' | rewrite quot_length; cbn in HL; lia|]. intros t Ht.
    pose proof (hor_quot l a t) as E. rewrite (HZ t), (HZ a) in E by (cbn; auto). apply (mul_zero (t - a)).
    + transitivity (n0 + (t - a) * hor (quot l a) t); [ring | symmetry; exact E].
    + intro C. apply sub_eq_iff in C. subst t. contradiction.
Qed.

(** infinitely many numbers *)
Fixpoint pt (n : nat) : num := match n with O => n0 | S n' => pt n' + n1 end.
Lemma pt_nonneg n : nleb n0 (pt n) = true.
Proof.
  induction n as [|n IH]; cbn; [apply le_refl|]. apply (ex_trans _ (pt n)); [exact IH|]. apply le_sub_iff'.
  replace (pt n + n1 - pt n) with (n1 * n1) by ring. apply square_nonneg.
Qed.
Lemma pt_add a b : pt (a + b) = pt a + pt b.
Proof. induction a as [|a IH]; cbn; [ring|]. rewrite IH. ring. Qed.
Lemma pt_S n : pt (S n) <> n0.
Proof.
  intro H. apply one_neq_zero. apply ex_antisym.
  - rewrite <- H. apply le_sub_iff'. cbn [pt]. replace (pt n + n1 - n1) with (pt n) by ring. apply pt_nonneg.
  - replace n1 with (n1 * n1) by ring. apply square_nonneg.
Qed.
Lemma pt_inj a b : pt a = pt b -> a = b.
Proof.
  assert (W : forall a b, a <= b -> pt a = pt b -> a = b).
  { clear a b. intros a b Hl E. destruct (Nat.eq_dec a b) as [|Hne]; [assumption|]. exfalso. apply (pt_S (b - a - 1)).
    replace (S (b - a - 1)) with (b - a)%nat by lia. replace b with (a + (b - a))%nat in E by lia. rewrite pt_add in E.
    replace (pt (b - a)) with ((pt a + pt (b - a)) - pt a) by ring. rewrite <- E. ring. }
  intro E. destruct (Nat.le_ge_cases a b); [apply W | symmetry; apply W]; auto.
Qed.
Lemma pts_nodup n : NoDup (map pt (seq 0 n)).
Proof.
  assert (G : forall l, NoDup l -> NoDup (map pt l)).
  { induction l as [|a l IH]; intro H; cbn; constructor; inversion H as [|? ? H1 H2]; subst; [|apply IH; exact H2].
    intro C. apply in_map_iff in C as (b & E & Hb). apply pt_inj in E. congruence. }
  apply G, seq_NoDup.
Qed.
Lemma hor_all_zero l : (forall t, hor l t = n0) -> Forall (fun c => c = n0) l.
Proof. intro H. apply (hor_zero (map pt (seq 0 (length l)))); [apply pts_nodup | rewrite map_length, seq_length; lia | auto]. Qed.

(** ** One variable: lists of terms *)
Fixpoint ssum (l : list (num * nat)) (t : num) : num := match l with [] => n0 | (a, k) :: l' => a * npow t k + ssum l' t end.
Fixpoint group (k : nat) (l : list (num * nat)) : num :=
  match l with [] => n0 | (a, k') :: l' => if Nat.eqb k' k then a + group k l' else group k l' end.

Lemma hor_add (f g : nat -> num) L t : hor (map (fun k => f k + g k) L) t = hor (map f L) t + hor (map g L) t.
Proof. induction L as [|k L IH]; cbn; [ring|]. rewrite IH. ring. Qed.
Lemma hor_nil n t s : hor (map (fun _ => n0) (seq s n)) t = n0.
Proof. revert s. induction n as [|n IH]; intro s; cbn; [reflexivity|]. rewrite IH. ring. Qed.
Lemma hor_point a k0 t n : forall s, s <= k0 < s + n -> hor (map (fun k => if Nat.eqb k0 k then a else n0) (seq s n)) t = a * npow t (k0 - s).
Proof.
  induction n as [|n IH]; intros s H; [lia|]. cbn [seq map hor]. destruct (Nat.eqb_spec k0 s) as [->|Hne].
  - rewrite Nat.sub_diag. cbn [npow]. rewrite (map_ext_in _ (fun _ => n0)), hor_nil; [ring|].
    intros k Hk. apply in_seq in Hk. destruct (Nat.eqb_spec s k); [lia | reflexivity].
  - rewrite IH by lia. replace (k0 - s)%nat with (S (k0 - S s)) by lia. cbn [npow]. ring.
Qed.
Lemma ssum_hor l t n : Forall (fun p => snd p < n) l -> ssum l t = hor (map (fun k => group k l) (seq 0 n)) t.
Proof.
  induction l as [|[a k0] l IH]; intro H; cbn [ssum group].
  - rewrite hor_nil. reflexivity.
  - inversion H as [|? ? H1 H2]; subst. cbn in H1. rewrite IH by exact H2.
    rewrite (map_ext (fun k => if Nat.eqb k0 k then a + group k l else group k l) (fun k => (if Nat.eqb k0 k then a else n0) + group k l)).
    + rewrite hor_add, hor_point by lia. rewrite Nat.sub_0_r. reflexivity.
    + intro k. destruct (Nat.eqb k0 k); ring.
Qed.
Lemma ssum_zero l : (forall t, ssum l t = n0) -> forall k, group k l = n0.
Proof.
  intros H k.
  assert (B : exists n, k < n /\ Forall (fun p => snd p < n) l).
  { clear H. induction l as [|[a k0] l (n & Hn & IH)]; [exists (S k); split; [lia | constructor]|].
    exists (n + S k0)%nat. split; [lia|]. constructor; [cbn; lia|]. eapply Forall_impl; [|exact IH]. cbn. intros; lia. }
  destruct B as (n & Hn & HF). assert (Z : Forall (fun c => c = n0) (map (fun k => group k l) (seq 0 n))).
  { apply hor_all_zero. intro t. rewrite <- ssum_hor by exact HF. apply H. }
  rewrite Forall_forall in Z. apply Z. apply in_map_iff. exists k. split; [reflexivity|]. apply in_seq. lia.
Qed.

(** ** Several variables *)
Notation mterm := (num * (N -> nat))%type.
Definition weight (L : list N) (r : assignment) (f : N -> nat) : num := prodL L (fun i => npow (r i) (f i)).
Fixpoint msum (L : list N) (l : list mterm) (r : assignment) : num :=
  match l with [] => n0 | (c, f) :: l' => c * weight L r f + msum L l' r end.
Definition agree (L : list N) (f g : N -> nat) : bool := forallb (fun i => Nat.eqb (f i) (g i)) L.
Fixpoint gsum (L : list N) (g : N -> nat) (l : list mterm) : num :=
  match l with [] => n0 | (c, f) :: l' => if agree L f g then c + gsum L g l' else gsum L g l' end.

Lemma msum_split x L l r t : ~ In x L -> msum (x :: L) l (update r x t) = ssum (map (fun p => (fst p * weight L r (snd p), snd p x)) l) t.
Proof.
  intro Hx. induction l as [|[c f] l IH]; [reflexivity|]. cbn [msum map ssum fst snd]. rewrite IH. f_equal.
  unfold weight. cbn [prodL]. unfold update at 1. rewrite N.eqb_refl. rewrite (prodL_ext L _ (fun i => npow (r i) (f i))); [ring|].
  intros i Hi. unfold update. destruct (N.eqb_spec i x) as [->|]; [contradiction | reflexivity].
Qed.
Lemma group_msum x L l r k : group k (map (fun p => (fst p * weight L r (snd p), snd p x)) l)
  = msum L (filter (fun p : mterm => Nat.eqb (snd p x) k) l) r.
Proof.
  induction l as [|[c f] l IH]; [reflexivity|]. cbn [map group filter fst snd]. destruct (Nat.eqb (f x) k); cbn [msum]; rewrite IH; reflexivity.
Qed.
Lemma gsum_split x L g l : gsum (x :: L) g l = gsum L g (filter (fun p : mterm => Nat.eqb (snd p x) (g x)) l).
Proof.
  induction l as [|[c f] l IH]; [reflexivity|]. cbn [gsum filter snd]. unfold agree at 1. cbn [forallb]. fold (agree L f g).
  destruct (Nat.eqb (f x) (g x)); cbn [andb gsum]; rewrite IH; reflexivity.
Qed.
Lemma msum_zero L : NoDup L -> forall l, (forall r, msum L l r = n0) -> forall g, gsum L g l = n0.
Proof.
  induction L as [|x L IH]; intros HN l H g.
  - specialize (H (fun _ => n0)). rewrite <- H. clear H. induction l as [|[c f] l IH]; [reflexivity|]. cbn. rewrite IH. unfold weight. cbn. ring.
  - inversion HN as [|? ? Hx HN']; subst. rewrite gsum_split. apply IH; [exact HN'|]. intro r. rewrite <- group_msum. apply ssum_zero.
    intro t. rewrite <- msum_split by exact Hx. apply H.
Qed.

(** ** Polynomials *)
Definition as_mterm (m : Monomial) : mterm := (m_coeff m, fun i => Z.to_nat (exponent m i)).
Lemma eval_msum p L r : Forall valid_mono p -> NoDup L -> (forall m, In m p -> incl (ids m) L) -> eval_poly r p = msum L (map as_mterm p) r.
Proof.
  intros HV HN HL. induction p as [|m p IH]; [reflexivity|]. inversion HV as [|? ? V HV']; subst. cbn [eval_poly map msum as_mterm].
  rewrite IH; [|exact HV' | intros; apply HL; right; assumption]. rewrite (eval_mono_prod r m L); [reflexivity | exact V | exact HN | apply HL; left; reflexivity].
Qed.
Lemma powers_eqb_spec m1 m2 : valid_mono m1 -> valid_mono m2 -> (powers_eqb m1 m2 = true <-> same_powers m1 m2).
Proof.
  intros V1 V2. unfold powers_eqb. rewrite forallb_forall. split; intros H i.
  - destruct (in_dec N.eq_dec i (ids m1 ++ ids m2)) as [Hi|Hi]; [apply Z.eqb_eq, H, Hi|]. rewrite in_app_iff in Hi.
    rewrite (exponent_zero m1), (exponent_zero m2) by tauto. reflexivity.
  - intros _. apply Z.eqb_eq, H.
Qed.
Lemma coefficient_gsum m p L : valid_mono m -> Forall valid_mono p -> incl (ids m) L -> (forall t, In t p -> incl (ids t) L) ->
  coefficient_in m p = gsum L (snd (as_mterm m)) (map as_mterm p).
Proof.
  intros Vm HV Hm HL. induction p as [|t p IH]; [reflexivity|]. inversion HV as [|? ? V HV']; subst. cbn [coefficient_in map gsum as_mterm].
  rewrite IH; [|exact HV' | intros; apply HL; right; assumption].
  replace (agree L (fun i => Z.to_nat (exponent t i)) (snd (as_mterm m))) with (powers_eqb t m); [reflexivity|].
  apply eq_true_iff_eq. rewrite powers_eqb_spec by assumption. unfold agree. rewrite forallb_forall. cbn [as_mterm snd]. split.
  - intros H i _. apply Nat.eqb_eq. rewrite (H i). reflexivity.
  - intros H i. destruct (in_dec N.eq_dec i L) as [Hi|Hi].
    + specialize (H i Hi). apply Nat.eqb_eq in H. pose proof (exponent_nonneg t i V). pose proof (exponent_nonneg m i Vm). lia.
    + rewrite (exponent_zero t), (exponent_zero m); [reflexivity | exact Vm | intro C; apply Hi, Hm, C | exact V | intro C; apply Hi, (HL t (or_introl eq_refl)), C].
Qed.
Definition all_ids (p : list Monomial) : list N := nodup N.eq_dec (concat (map ids p)).
Lemma all_ids_nodup p : NoDup (all_ids p).
Proof. apply NoDup_nodup. Qed.
Lemma all_ids_incl p m : In m p -> incl (ids m) (all_ids p).
Proof. intros Hm i Hi. apply nodup_In. apply in_concat. exists (ids m). split; [apply in_map; exact Hm | exact Hi]. Qed.

Lemma eval_zero_coefficients p : Forall valid_mono p -> (forall r, eval_poly r p = n0) -> forall m, valid_mono m -> coefficient_in m p = n0.
Proof.
  intros HV HZ m Vm. set (L := all_ids (m :: p)).
  assert (HL : forall t, In t (m :: p) -> incl (ids t) L) by (intros t Ht; apply all_ids_incl; exact Ht).
  rewrite (coefficient_gsum m p L); [|exact Vm | exact HV | apply HL; left; reflexivity | intros; apply HL; right; assumption].
  apply msum_zero; [apply all_ids_nodup|]. intro r. rewrite <- eval_msum; [apply HZ | exact HV | apply all_ids_nodup | intros; apply HL; right; assumption].
Qed.

Definition scale (c : num) (p : list Monomial) : list Monomial := map (fun m => set_coeff m (c * m_coeff m)) p.
Lemma scale_valid c p : Forall valid_mono p -> Forall valid_mono (scale c p).
Proof. intro H. apply Forall_forall. intros m Hm. apply in_map_iff in Hm as (t & <- & Ht). rewrite Forall_forall in H. apply valid_set_coeff, H, Ht. Qed.
Lemma eval_scale r c p : eval_poly r (scale c p) = c * eval_poly r p.
Proof. induction p as [|m p IH]; cbn; [ring|]. unfold scale in IH. rewrite IH. rewrite eval_set_coeff. unfold eval_mono. ring. Qed.
Lemma coefficient_scale m c p : coefficient_in m (scale c p) = c * coefficient_in m p.
Proof.
  induction p as [|t p IH]; cbn [scale map coefficient_in]; [ring|]. fold (scale c p). rewrite IH.
  change (powers_eqb (set_coeff t (c * m_coeff t)) m) with (powers_eqb t m). destruct (powers_eqb t m); cbn [set_coeff m_coeff]; ring.
Qed.
Lemma coefficient_app m p q : coefficient_in m (p ++ q) = coefficient_in m p + coefficient_in m q.
Proof. induction p as [|t p IH]; cbn; [ring|]. destruct (powers_eqb t m); rewrite IH; ring. Qed.

Lemma filter_le {A} (f : A -> bool) l : length (filter f l) <= length l.
Proof. induction l as [|a l IH]; cbn; [lia|]. destruct (f a); cbn; lia. Qed.

(** every group of terms with the same powers *)
Lemma coefficients_determine p q : Forall valid_mono p -> Forall valid_mono q ->
  ((forall r, eval_poly r p = eval_poly r q) <-> forall m, valid_mono m -> coefficient_in m p = coefficient_in m q).
Proof.
  intros Vp Vq. split.
  - intros H m Vm. assert (E : coefficient_in m (p ++ scale (- n1) q) = n0).
    { apply eval_zero_coefficients; [apply Forall_app; split; [exact Vp | apply scale_valid; exact Vq] | | exact Vm].
      intro r. rewrite eval_poly_app, eval_scale, H. ring. }
    rewrite coefficient_app, coefficient_scale in E. transitivity (coefficient_in m p + - n1 * coefficient_in m q + coefficient_in m q); [ring|]. rewrite E. ring.
  - intros H r.
    enough (E : forall n p, length p <= n -> Forall valid_mono p -> (forall m, valid_mono m -> coefficient_in m p = n0) -> eval_poly r p = n0).
    { assert (E2 : eval_poly r (p ++ scale (- n1) q) = n0).
      { apply (E _ _ (Nat.le_refl _)); [apply Forall_app; split; [exact Vp | apply scale_valid; exact Vq]|].
        intros m Vm. rewrite coefficient_app, coefficient_scale, H by exact Vm. ring. }
      rewrite eval_poly_app, eval_scale in E2. transitivity (eval_poly r p + - n1 * eval_poly r q + eval_poly r q); [ring|]. rewrite E2. ring. }
    clear p q Vp Vq H. induction n as [|n IH]; intros p Hl HV HC; [destruct p; [reflexivity | cbn in Hl; lia]|].
    destruct p as [|m p]; [reflexivity|]. inversion HV as [|? ? Vm HV']; subst.
    set (same := filter (fun t => powers_eqb t m) p). set (other := filter (fun t => negb (powers_eqb t m)) p).
    assert (E1 : eval_poly r (m :: p) = coefficient_in m (m :: p) * eval_factors r (m_vars m) (m_exps m) + eval_poly r other).
    { assert (R : powers_eqb m m = true) by (apply powers_eqb_spec; [exact Vm | exact Vm | intro; reflexivity]).
      cbn [eval_poly coefficient_in]. rewrite R.
      assert (E2 : eval_poly r p = coefficient_in m p * eval_factors r (m_vars m) (m_exps m) + eval_poly r other).
      { unfold other. clear - HV' Vm EX. induction p as [|t p IH]; [cbn; ring|]. inversion HV' as [|? ? Vt HV2]; subst. cbn [eval_poly coefficient_in filter].
        destruct (powers_eqb t m) eqn:E; cbn [negb eval_poly]; rewrite IH by exact HV2; [|ring].
        apply powers_eqb_spec in E; [|exact Vt | exact Vm]. unfold eval_mono. rewrite (factors_same_powers r t m Vt Vm E). ring. }
      rewrite E2. unfold eval_mono. ring. }
    rewrite E1, (HC m Vm). rewrite IH; [ring | | |].
    + unfold other. pose proof (filter_le (fun t => negb (powers_eqb t m)) p). cbn in Hl. lia.
    + unfold other. apply Forall_forall. intros t Ht. apply filter_In in Ht as [Ht _]. rewrite Forall_forall in HV'. apply HV', Ht.
    + intros m' Vm'. unfold other. specialize (HC m' Vm'). destruct (powers_eqb m' m) eqn:E.
      * apply powers_eqb_spec in E; [|exact Vm' | exact Vm]. clear - HV' Vm Vm' E EX. induction p as [|t p IH]; [reflexivity|]. inversion HV' as [|? ? Vt HV2]; subst.
        cbn [filter]. destruct (powers_eqb t m) eqn:E2; cbn [negb]; [apply IH; exact HV2|]. cbn [coefficient_in].
        assert (powers_eqb t m' = false); [|rewrite H; apply IH; exact HV2]. apply not_true_iff_false. intro C. apply powers_eqb_spec in C; [|exact Vt | exact Vm'].
        apply not_true_iff_false in E2. apply E2. apply powers_eqb_spec; [exact Vt | exact Vm|]. intro i. rewrite (C i). apply E.
      * cbn [coefficient_in] in HC. assert (E0 : powers_eqb m m' = false).
        { apply not_true_iff_false. intro C. apply powers_eqb_spec in C; [|exact Vm | exact Vm']. apply not_true_iff_false in E. apply E. apply powers_eqb_spec; [exact Vm' | exact Vm|]. intro i. symmetry. apply C. }
        rewrite E0 in HC. rewrite <- HC. clear - HV' Vm Vm' E EX. induction p as [|t p IH]; [reflexivity|]. inversion HV' as [|? ? Vt HV2]; subst.
        cbn [filter coefficient_in]. destruct (powers_eqb t m) eqn:E2; cbn [negb coefficient_in].
        -- assert (E3 : powers_eqb t m' = false); [|rewrite E3; apply IH; exact HV2]. apply not_true_iff_false. intro C. apply powers_eqb_spec in C; [|exact Vt | exact Vm'].
           apply powers_eqb_spec in E2; [|exact Vt | exact Vm]. apply not_true_iff_false in E. apply E. apply powers_eqb_spec; [exact Vm' | exact Vm|]. intro i. rewrite <- (C i). apply E2.
        -- destruct (powers_eqb t m'); rewrite IH by exact HV2; reflexivity.
Qed.

End PolyZero.
