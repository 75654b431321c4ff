(** * Arithmetic of binary64 that needs no rounding *)

From Coq Require Import ZArith NArith Bool List Lia.
From Coq Require Import QArith Qcanon Qpower.
From Coq.Floats Require Import SpecFloat.
From Verif Require Import Num.
Import ListNotations.
Local Open Scope Z_scope.

(** ** Numbers m * 2^e *)

Definition dy (m e : Z) : Q := (inject_Z m * Qpower 2 e)%Q.

Lemma two_nz : ~ (2 == 0)%Q. Proof. discriminate. Qed.

Lemma pow2_pos e : (0 < Qpower 2 e)%Q.
Proof. apply Qpower_0_lt. reflexivity. Qed.

Lemma pow2_Z j : 0 <= j -> (inject_Z (2 ^ j) == Qpower 2 j)%Q.
Proof. intro H. apply (Zpower_Qpower 2 j H). Qed.

Lemma dy_shift m e j : 0 <= j -> (dy m e == dy (m * 2 ^ j) (e - j))%Q.
Proof.
  intro H. unfold dy. rewrite inject_Z_mult, (pow2_Z j H).
  rewrite <- Qmult_assoc, <- Qpower_plus by exact two_nz. replace (j + (e - j)) with e by lia. reflexivity.
Qed.

Lemma dy_le_iff m m' e : (dy m e <= dy m' e)%Q <-> m <= m'.
Proof.
  unfold dy. rewrite Qmult_le_r by apply pow2_pos. rewrite <- Zle_Qle. reflexivity.
Qed.
Lemma dy_eq_iff m m' e : (dy m e == dy m' e)%Q <-> m = m'.
Proof.
  split.
  - intro H. apply Z.le_antisymm; apply (dy_le_iff _ _ e); rewrite H; apply Qle_refl.
  - intros ->. reflexivity.
Qed.
Lemma dy_align m e m' e' b : b <= e -> b <= e' -> (dy m e == dy m' e')%Q <-> m * 2 ^ (e - b) = m' * 2 ^ (e' - b).
Proof.
  intros H H'. rewrite (dy_shift m e (e - b)), (dy_shift m' e' (e' - b)) by lia.
  replace (e - (e - b)) with b by lia. replace (e' - (e' - b)) with b by lia. apply dy_eq_iff.
Qed.
Lemma dy_align_le m e m' e' b : b <= e -> b <= e' -> (dy m e <= dy m' e')%Q <-> m * 2 ^ (e - b) <= m' * 2 ^ (e' - b).
Proof.
  intros H H'. rewrite (dy_shift m e (e - b)), (dy_shift m' e' (e' - b)) by lia.
  replace (e - (e - b)) with b by lia. replace (e' - (e' - b)) with b by lia. apply dy_le_iff.
Qed.
Lemma dy_add m m' e : (dy m e + dy m' e == dy (m + m') e)%Q.
Proof. unfold dy. rewrite inject_Z_plus. ring. Qed.
Lemma dy_mul m e m' e' : (dy m e * dy m' e' == dy (m * m') (e + e'))%Q.
Proof. unfold dy. rewrite inject_Z_mult, Qpower_plus by exact two_nz. ring. Qed.
Lemma dy_opp m e : (dy (- m) e == - dy m e)%Q.
Proof. unfold dy. rewrite inject_Z_opp. ring. Qed.

(** ** Digits *)

Lemma digits_log2 p : Zpos (digits2_pos p) = Z.log2 (Zpos p) + 1.
Proof.
  assert (E : digits2_pos p = Pos.size p) by (induction p as [p IH|p IH|]; cbn; rewrite ?IH; reflexivity).
  rewrite E. destruct p; cbn; lia.
Qed.
Lemma digits_bounds p : 2 ^ (Zpos (digits2_pos p) - 1) <= Zpos p < 2 ^ Zpos (digits2_pos p).
Proof. rewrite digits_log2. replace (Z.log2 (Zpos p) + 1 - 1) with (Z.log2 (Zpos p)) by lia. rewrite Z.add_1_r. apply Z.log2_spec. reflexivity. Qed.
Lemma digits_unique p d : 0 < d -> 2 ^ (d - 1) <= Zpos p < 2 ^ d -> Zpos (digits2_pos p) = d.
Proof.
  intros Hd [H1 H2]. rewrite digits_log2. enough (Z.log2 (Zpos p) = d - 1) by lia.
  apply Z.log2_unique; [lia|]. replace (Z.succ (d - 1)) with d by lia. split; assumption.
Qed.

(** ** Shifts *)

Lemma shift_pos_mul d m : Zpos (shift_pos d m) = Zpos m * 2 ^ Zpos d.
Proof. rewrite shift_pos_correct, Z.pow_pos_fold. rewrite two_power_pos_equiv || idtac. lia. Qed.

Lemma iter_pos_iter {A} (f : A -> A) n x : iter_pos f n x = Pos.iter f x n.
Proof.
  revert x; induction n as [n IH|n IH|]; intro x; cbn [iter_pos Pos.iter].
  - rewrite !IH. rewrite <- !Pos.iter_swap. reflexivity.
  - rewrite !IH. reflexivity.
  - reflexivity.
Qed.

Lemma shr_1_even m : shr_1 (Build_shr_record (2 * m) false false) = Build_shr_record m false false.
Proof. destruct m; reflexivity. Qed.

Lemma shr_exact p m : iter_pos shr_1 p (Build_shr_record (m * 2 ^ Zpos p) false false) = Build_shr_record m false false.
Proof.
  rewrite iter_pos_iter. revert m. induction p as [|p IH] using Pos.peano_ind; intro m.
  - cbn [Pos.iter]. rewrite Z.pow_1_r, Z.mul_comm. apply shr_1_even.
  - rewrite Pos.iter_succ_r. rewrite Pos2Z.inj_succ, Z.pow_succ_r by lia.
    replace (m * (2 * 2 ^ Zpos p)) with (2 * (m * 2 ^ Zpos p)) by ring. rewrite shr_1_even. apply IH.
Qed.

Lemma shr_zero_exact m e n : 0 <= n -> shr (Build_shr_record (m * 2 ^ n) false false) e n = (Build_shr_record m false false, e + n).
Proof.
  intro H. destruct n as [|p|p]; [|..].
  - cbn [shr]. rewrite Z.pow_0_r, Z.mul_1_r, Z.add_0_r. reflexivity.
  - cbn [shr]. rewrite shr_exact. reflexivity.
  - lia.
Qed.

(** ** Rounding a number that is representable *)

(** [f] is z * 2^-k *)
Definition grid (k z : Z) (f : spec_float) : Prop :=
  match f with
  | S754_zero _ => z = 0
  | S754_finite s m e => Zpos (digits2_pos m) = 53 /\ (-1074 <= e <= 53) /\ (dy (cond_Zopp s (Zpos m)) e == dy z (- k))%Q
  | _ => False
  end.

Lemma fexp_normal d e : -1074 <= d + e - 53 -> fexp 53 1024 (d + e) - e = d - 53.
Proof. intro H. unfold fexp, emin. lia. Qed.

Lemma split_top k z m e : 0 <= k -> 0 < z <= 2 ^ 53 -> 53 <= Zpos (digits2_pos m) -> (dy (Zpos m) e == dy z (- k))%Q ->
  - k < Zpos (digits2_pos m) + e <= 54 - k /\ exists m', Zpos m = Zpos m' * 2 ^ (Zpos (digits2_pos m) - 53) /\ Zpos (digits2_pos m') = 53.
Proof.
  intros Hk Hz Hd H. pose proof (digits_bounds m) as [L U]. set (D := Zpos (digits2_pos m)) in *.
  set (b := Z.min e (- k)). assert (Hb : b <= e /\ b <= - k) by lia. destruct Hb as [Hb1 Hb2].
  apply (dy_align _ _ _ _ b Hb1 Hb2) in H.
  assert (P1 : 0 < 2 ^ (e - b)) by (apply Z.pow_pos_nonneg; lia).
  assert (P2 : 0 < 2 ^ (- k - b)) by (apply Z.pow_pos_nonneg; lia).
  assert (B1 : 2 ^ (D - 1 + (e - b)) <= z * 2 ^ (- k - b)).
  { rewrite Z.pow_add_r by lia. rewrite <- H. apply Z.mul_le_mono_nonneg_r; lia. }
  assert (B2 : z * 2 ^ (- k - b) < 2 ^ (D + (e - b))).
  { rewrite Z.pow_add_r by lia. rewrite <- H. apply Z.mul_lt_mono_pos_r; lia. }
  assert (B3 : z * 2 ^ (- k - b) <= 2 ^ (53 + (- k - b))).
  { rewrite Z.pow_add_r by lia. apply Z.mul_le_mono_nonneg_r; lia. }
  assert (B4 : 2 ^ (- k - b) <= z * 2 ^ (- k - b)) by nia.
  assert (I1 : D - 1 + (e - b) <= 53 + (- k - b)).
  { apply Z.pow_le_mono_r_iff with (a := 2); lia. }
  assert (I2 : - k - b < D + (e - b)).
  { apply Z.pow_lt_mono_r_iff with (a := 2); lia. }
  split; [lia|].
  assert (Q : exists q, Zpos m = q * 2 ^ (D - 53)).
  { destruct (Z.eq_dec (D - 1 + (e - b)) (53 + (- k - b))) as [E|E].
    - rewrite <- E in B3. assert (F : Zpos m * 2 ^ (e - b) = 2 ^ (D - 1) * 2 ^ (e - b)) by (rewrite <- Z.pow_add_r by lia; lia).
      apply Z.mul_reg_r in F; [|lia]. exists (2 ^ 52). rewrite F. rewrite <- Z.pow_add_r by lia. f_equal. lia.
    - assert (b = e) by lia. subst b. rewrite H0 in *. rewrite Z.sub_diag, Z.pow_0_r, Z.mul_1_r in H.
      exists (z * 2 ^ (- k - e - (D - 53))). rewrite H. rewrite <- Z.mul_assoc, <- Z.pow_add_r by lia. f_equal. f_equal. lia. }
  destruct Q as [q Q]. assert (P3 : 0 < 2 ^ (D - 53)) by (apply Z.pow_pos_nonneg; lia).
  destruct q as [|q|q]; [lia | | lia]. exists q. split; [exact Q|]. apply digits_unique; [lia|].
  replace (2 ^ (D - 1)) with (2 ^ 52 * 2 ^ (D - 53)) in L by (rewrite <- Z.pow_add_r by lia; f_equal; lia).
  replace (2 ^ D) with (2 ^ 53 * 2 ^ (D - 53)) in U by (rewrite <- Z.pow_add_r by lia; f_equal; lia).
  rewrite Q in L, U. split; [apply Z.mul_le_mono_pos_r in L | apply Z.mul_lt_mono_pos_r in U]; try lia; assumption.
Qed.

Lemma round_aux_exact k z s m e : 0 <= k <= 1000 -> 0 < z <= 2 ^ 53 -> 53 <= Zpos (digits2_pos m) -> (dy (Zpos m) e == dy z (- k))%Q ->
  grid k (cond_Zopp s z) (binary_round_aux 53 1024 s (Zpos m) e loc_Exact).
Proof.
  intros Hk Hz Hd H. destruct (split_top k z m e (proj1 Hk) Hz Hd H) as [R [m' [E D']]].
  set (D := Zpos (digits2_pos m)) in *. unfold binary_round_aux.
  assert (E1 : shr_fexp 53 1024 (Zpos m) e loc_Exact = (Build_shr_record (Zpos m') false false, e + (D - 53))).
  { unfold shr_fexp. cbn [Zdigits2 shr_record_of_loc]. fold D. rewrite fexp_normal by lia. rewrite E. apply shr_zero_exact. lia. }
  rewrite E1. cbn [shr_m loc_of_shr_record round_nearest_even].
  assert (E2 : shr_fexp 53 1024 (Zpos m') (e + (D - 53)) loc_Exact = (Build_shr_record (Zpos m') false false, e + (D - 53))).
  { unfold shr_fexp. cbn [Zdigits2 shr_record_of_loc]. rewrite fexp_normal by lia. rewrite D'. reflexivity. }
  rewrite E2. cbn [shr_m]. replace (Zle_bool (e + (D - 53)) (1024 - 53)) with true by (symmetry; apply Z.leb_le; lia).
  cbn [grid]. split; [exact D'|]. split; [lia|].
  assert (V : (dy (Zpos m') (e + (D - 53)) == dy z (- k))%Q).
  { rewrite (dy_shift _ _ (D - 53)) by lia. rewrite <- E. replace (e + (D - 53) - (D - 53)) with e by lia. exact H. }
  destruct s; cbn [cond_Zopp]; [|exact V]. rewrite !dy_opp, V. reflexivity.
Qed.

Lemma normalize_exact k z m e b : 0 <= k <= 1000 -> Z.abs z <= 2 ^ 53 -> (dy m e == dy z (- k))%Q -> grid k z (binary_normalize 53 1024 m e b).
Proof.
  assert (P : forall s z m e, 0 <= k <= 1000 -> 0 < z <= 2 ^ 53 -> (dy (Zpos m) e == dy z (- k))%Q -> grid k (cond_Zopp s z) (binary_round 53 1024 s m e)).
  { clear. intros s z m e Hk Hz H. unfold binary_round. destruct (Z.ltb_spec (Zpos (digits2_pos m)) 53) as [L|L].
    - assert (R : - k < Zpos (digits2_pos m) + e).
      { pose proof (digits_bounds m) as [_ U]. set (D := Zpos (digits2_pos m)) in *.
        set (b := Z.min e (- k)). assert (Hb : b <= e /\ b <= - k) by lia. destruct Hb as [Hb1 Hb2].
        apply (dy_align _ _ _ _ b Hb1 Hb2) in H.
        assert (P1 : 0 < 2 ^ (e - b)) by (apply Z.pow_pos_nonneg; lia).
        assert (P2 : 0 < 2 ^ (- k - b)) by (apply Z.pow_pos_nonneg; lia).
        assert (B2 : z * 2 ^ (- k - b) < 2 ^ (D + (e - b))).
        { rewrite Z.pow_add_r by lia. rewrite <- H. apply Z.mul_lt_mono_pos_r; lia. }
        assert (B4 : 2 ^ (- k - b) <= z * 2 ^ (- k - b)) by nia.
        assert (I2 : - k - b < D + (e - b)) by (apply Z.pow_lt_mono_r_iff with (a := 2); lia). lia. }
      assert (A : shl_align m e (fexp 53 1024 (Zpos (digits2_pos m) + e)) = (shift_pos (Z.to_pos (53 - Zpos (digits2_pos m))) m, e - (53 - Zpos (digits2_pos m)))).
      { unfold shl_align. rewrite fexp_normal by lia. pose proof (fexp_normal (Zpos (digits2_pos m)) e ltac:(lia)) as F.
        destruct (Zpos (digits2_pos m) - 53) as [|p|p] eqn:Ep; try lia. f_equal; [f_equal; lia | lia]. }
      rewrite A. set (j := 53 - Zpos (digits2_pos m)) in *. assert (Hj : 0 < j) by lia.
      assert (V : Zpos (shift_pos (Z.to_pos j) m) = Zpos m * 2 ^ j) by (rewrite shift_pos_mul, Z2Pos.id by lia; reflexivity).
      apply round_aux_exact; try assumption.
      + apply Z.eq_le_incl. symmetry. apply digits_unique; [lia|]. rewrite V. pose proof (digits_bounds m) as [L1 U1].
        replace (2 ^ (53 - 1)) with (2 ^ (Zpos (digits2_pos m) - 1) * 2 ^ j) by (rewrite <- Z.pow_add_r by lia; f_equal; lia).
        replace (2 ^ 53) with (2 ^ (Zpos (digits2_pos m)) * 2 ^ j) by (rewrite <- Z.pow_add_r by lia; f_equal; lia).
        assert (0 < 2 ^ j) by (apply Z.pow_pos_nonneg; lia). split; [apply Z.mul_le_mono_nonneg_r | apply Z.mul_lt_mono_pos_r]; lia.
      + rewrite V. rewrite <- H. symmetry. rewrite (dy_shift _ e j) by lia. reflexivity.
    - destruct (split_top k z m e (proj1 Hk) Hz L H) as [R _].
      assert (A : shl_align m e (fexp 53 1024 (Zpos (digits2_pos m) + e)) = (m, e)).
      { unfold shl_align. rewrite fexp_normal by lia. destruct (Zpos (digits2_pos m) - 53) as [|p|p] eqn:Ep; try reflexivity; lia. }
      rewrite A. apply round_aux_exact; assumption. }
  intros Hk Hz H. destruct m as [|m|m]; cbn [binary_normalize].
  - cbn [grid]. unfold dy in H. cbn [inject_Z] in H. rewrite Qmult_0_l in H. symmetry in H. apply Qmult_integral in H. destruct H as [H|H].
    + unfold inject_Z, Qeq in H; cbn [Qnum Qden] in H; lia.
    + exfalso. pose proof (pow2_pos (- k)) as Hp. rewrite H in Hp. discriminate Hp.
  - assert (0 < z).
    { set (b0 := Z.min e (- k)). assert (Hb : b0 <= e /\ b0 <= - k) by lia. destruct Hb as [Hb1 Hb2].
      apply (dy_align _ _ _ _ b0 Hb1 Hb2) in H. assert (P1 : 0 < 2 ^ (e - b0)) by (apply Z.pow_pos_nonneg; lia).
      assert (P2 : 0 < 2 ^ (- k - b0)) by (apply Z.pow_pos_nonneg; lia). nia. }
    apply (P false); lia || assumption.
  - assert (H0 : z < 0).
    { set (b0 := Z.min e (- k)). assert (Hb : b0 <= e /\ b0 <= - k) by lia. destruct Hb as [Hb1 Hb2].
      apply (dy_align _ _ _ _ b0 Hb1 Hb2) in H. assert (P1 : 0 < 2 ^ (e - b0)) by (apply Z.pow_pos_nonneg; lia).
      assert (P2 : 0 < 2 ^ (- k - b0)) by (apply Z.pow_pos_nonneg; lia). nia. }
    replace z with (cond_Zopp true (- z)) by (cbn; lia). apply P; [exact Hk | lia |].
    rewrite dy_opp, <- H. rewrite <- dy_opp. reflexivity.
Qed.

Lemma shl_align_min mx ex ez : ez <= ex -> Zpos (fst (shl_align mx ex ez)) = Zpos mx * 2 ^ (ex - ez).
Proof.
  intro H. unfold shl_align. destruct (ez - ex) as [|p|p] eqn:E; cbn [fst].
  - replace (ex - ez) with 0 by lia. lia.
  - lia.
  - rewrite shift_pos_mul. f_equal. f_equal. lia.
Qed.

Lemma cond_Zopp_mul s a b : cond_Zopp s (a * b) = cond_Zopp s a * b.
Proof. destruct s; cbn; ring. Qed.

Lemma add_exact k a b f g : 0 <= k <= 1000 -> grid k a f -> grid k b g -> Z.abs (a + b) <= 2 ^ 53 -> grid k (a + b) (SFadd 53 1024 f g).
Proof.
  intros Hk Hf Hg Hs. destruct f as [sf|sf| |sf mf ef], g as [sg|sg| |sg mg eg]; try contradiction.
  - cbn [grid] in *. subst. cbn [SFadd]. destruct (Bool.eqb sf sg); reflexivity.
  - cbn [SFadd]. cbn [grid] in Hf. subst a. exact Hg.
  - cbn [SFadd]. cbn [grid] in Hg. subst b. rewrite Z.add_0_r. exact Hf.
  - cbn [SFadd]. destruct Hf as [Df [Ef Vf]], Hg as [Dg [Eg Vg]]. apply normalize_exact; [exact Hk | exact Hs |].
    rewrite !shl_align_min by lia. rewrite <- dy_add, <- dy_add. rewrite !cond_Zopp_mul.
    rewrite <- Vf, <- Vg. set (ez := Z.min ef eg).
    rewrite (dy_shift (cond_Zopp sf (Zpos mf)) ef (ef - ez)) by lia. rewrite (dy_shift (cond_Zopp sg (Zpos mg)) eg (eg - ez)) by lia.
    replace (ef - (ef - ez)) with ez by lia. replace (eg - (eg - ez)) with ez by lia. reflexivity.
Qed.

Lemma dy_zero_iff m e : (dy m e == 0)%Q <-> m = 0.
Proof.
  split.
  - intro H. apply (dy_eq_iff _ _ e). rewrite H. unfold dy. cbn [inject_Z]. ring.
  - intros ->. unfold dy. ring.
Qed.

Lemma grid_zero k f : grid k 0 f -> exists s, f = S754_zero s.
Proof.
  destruct f as [s|s| |s m e]; intro H; try contradiction; [exists s; reflexivity|].
  destruct H as [_ [_ H]]. exfalso. assert (Z0 : (dy 0 (- k) == 0)%Q) by (apply dy_zero_iff; reflexivity). rewrite Z0 in H.
  apply dy_zero_iff in H. destruct s; cbn in H; lia.
Qed.

Lemma digits_mul m1 m2 : Zpos (digits2_pos m1) = 53 -> Zpos (digits2_pos m2) = 53 -> 53 <= Zpos (digits2_pos (m1 * m2)).
Proof.
  intros H1 H2. pose proof (digits_bounds m1) as [L1 _]. pose proof (digits_bounds m2) as [L2 _]. rewrite H1 in L1. rewrite H2 in L2.
  pose proof (digits_bounds (m1 * m2)) as [_ U]. rewrite Pos2Z.inj_mul in U.
  assert (2 ^ 52 < 2 ^ Zpos (digits2_pos (m1 * m2))).
  { eapply Z.le_lt_trans; [|exact U]. change (2 ^ (53 - 1)) with (2 ^ 52) in *. nia. }
  apply Z.pow_lt_mono_r_iff in H; lia.
Qed.

Lemma mul_exact k k' a b f g : 0 <= k -> 0 <= k' -> k + k' <= 1000 -> grid k a f -> grid k' b g -> Z.abs (a * b) <= 2 ^ 53 ->
  grid (k + k') (a * b) (SFmul 53 1024 f g).
Proof.
  intros Hk Hk' Hs Hf Hg Hb. destruct f as [sf|sf| |sf mf ef], g as [sg|sg| |sg mg eg]; try contradiction; cbn [SFmul].
  - cbn [grid] in *. lia.
  - cbn [grid] in *. lia.
  - cbn [grid] in *. lia.
  - destruct Hf as [Df [Ef Vf]], Hg as [Dg [Eg Vg]].
    assert (V : (dy (Zpos (mf * mg)) (ef + eg) == dy (cond_Zopp (xorb sf sg) (a * b)) (- (k + k')))%Q).
    { replace (- (k + k')) with (- k + - k') by lia. rewrite Pos2Z.inj_mul, <- dy_mul.
      assert (O : forall s m e z c, (dy (cond_Zopp s m) e == dy z c)%Q -> (dy m e == dy (cond_Zopp s z) c)%Q).
      { intros s m e z c H. destruct s; cbn [cond_Zopp] in *; [|exact H]. rewrite dy_opp in *. rewrite <- H. ring. }
      apply O in Vf. apply O in Vg. rewrite Vf, Vg, dy_mul. destruct sf, sg; cbn [xorb cond_Zopp]; apply dy_eq_iff; ring. }
    assert (Pz : 0 < cond_Zopp (xorb sf sg) (a * b) <= 2 ^ 53).
    { set (c := cond_Zopp (xorb sf sg) (a * b)) in *.
      assert (Hc : Z.abs c <= 2 ^ 53) by (unfold c; destruct (xorb sf sg); cbn [cond_Zopp]; lia). split; [|lia].
      set (e := ef + eg) in *. set (kk := - (k + k')) in *. set (b0 := Z.min e kk). assert (Hbb : b0 <= e /\ b0 <= kk) by lia. destruct Hbb as [Hb1 Hb2].
      apply (dy_align _ _ _ _ b0 Hb1 Hb2) in V. assert (P1 : 0 < 2 ^ (e - b0)) by (apply Z.pow_pos_nonneg; lia).
      assert (P2 : 0 < 2 ^ (kk - b0)) by (apply Z.pow_pos_nonneg; lia). nia. }
    replace (a * b) with (cond_Zopp (xorb sf sg) (cond_Zopp (xorb sf sg) (a * b))) by (destruct (xorb sf sg); cbn [cond_Zopp]; lia).
    apply round_aux_exact; [lia | exact Pz | apply digits_mul; assumption | exact V].
Qed.

Lemma ofZ_exact z : Z.abs z <= 2 ^ 53 -> grid 0 z (binary_normalize 53 1024 z 0 false).
Proof. intro H. apply normalize_exact; [lia | exact H | reflexivity]. Qed.
