(** * Runs of the model in binary64 and in rational numbers side by side *)

From Coq Require Import ZArith NArith Bool List Lia.
From Coq Require Import QArith Qcanon Lqa.
From Coq.Floats Require Import SpecFloat.
From Verif Require Import Num Syntax ModelScalar Spec SpecProg SpecExact FloatExact.
Import ListNotations.
Local Open Scope Z_scope.

Notation F := F64Num.
Notation G := QNum.
Notation rv := exact_var.
Notation rm := exact_mono.
Notation rs := exact_scalar.

(** ** Numbers *)

Lemma cond_neg (s : bool) p : (if s then Zneg p else Zpos p) = cond_Zopp s (Zpos p).
Proof. destruct s; reflexivity. Qed.

Lemma grid_value k z f : grid k z f -> exactly f = Q2Qc (scaled z (- k)).
Proof.
  destruct f as [s|s| |s m e]; cbn [grid]; try contradiction.
  - intros ->. cbn [exactly]. apply Qc_is_canon. cbn [this Q2Qc]. rewrite !Qred_correct. unfold scaled. ring.
  - intros (_ & _ & H). cbn [exactly]. apply Qc_is_canon. cbn [this Q2Qc]. rewrite !Qred_correct. rewrite cond_neg. exact H.
Qed.

Lemma scaled_dy z e : scaled z e = dy z e. Proof. reflexivity. Qed.

Lemma rd_add k a b f g : 0 <= k <= 1000 -> grid k a f -> grid k b g -> Z.abs (a + b) <= 2 ^ 53 ->
  exactly (SFadd 53 1024 f g) = (exactly f + exactly g)%Qc.
Proof.
  intros Hk Hf Hg Hs. rewrite (grid_value k (a + b)) by (apply add_exact; assumption). rewrite (grid_value _ _ _ Hf), (grid_value _ _ _ Hg).
  apply Qc_is_canon. unfold Qcplus. cbn [this Q2Qc]. rewrite !Qred_correct. rewrite !scaled_dy. symmetry. apply dy_add.
Qed.
Lemma rd_mul k k' a b f g : 0 <= k -> 0 <= k' -> k + k' <= 1000 -> grid k a f -> grid k' b g -> Z.abs (a * b) <= 2 ^ 53 ->
  exactly (SFmul 53 1024 f g) = (exactly f * exactly g)%Qc.
Proof.
  intros Hk Hk' Hkk Hf Hg Hs. rewrite (grid_value (k + k') (a * b)) by (apply mul_exact; assumption). rewrite (grid_value _ _ _ Hf), (grid_value _ _ _ Hg).
  apply Qc_is_canon. unfold Qcmult. cbn [this Q2Qc]. rewrite !Qred_correct. rewrite !scaled_dy, dy_mul. replace (- k + - k') with (- (k + k')) by lia. reflexivity.
Qed.
Lemma rd_ofZ z : Z.abs z <= 2 ^ 53 -> exactly (@nofZ F z) = @nofZ G z.
Proof.
  intro H. cbn [nofZ F64Num QNum]. rewrite (grid_value 0 z) by (apply ofZ_exact; exact H).
  apply Qc_is_canon. cbn [this Q2Qc]. rewrite !Qred_correct. unfold scaled. cbn [Z.opp Qpower]. ring.
Qed.

Lemma grid_one k : 0 <= k -> grid k (2 ^ k) (@n1 F).
Proof.
  intro H. change (@n1 F) with (S754_finite false 4503599627370496 (-52)). cbn [grid]. split; [reflexivity|]. split; [lia|].
  cbn [cond_Zopp]. change 4503599627370496 with (1 * 2 ^ 52). rewrite <- (dy_shift 1 0 52) by lia.
  rewrite (dy_shift 1 0 k) by lia. rewrite Z.mul_1_l. replace (0 - k) with (- k) by lia. reflexivity.
Qed.
Lemma rd_one : exactly (@n1 F) = @n1 G.
Proof. cbn [n1 QNum]. apply Qc_is_canon. vm_compute. reflexivity. Qed.
Lemma rd_zero : exactly (@n0 F) = @n0 G. Proof. reflexivity. Qed.
Lemma grid_n0 k : grid k 0 (@n0 F). Proof. reflexivity. Qed.

Lemma Qc_eqb_iff (x y : Qc) : Qc_eq_bool x y = true <-> x = y.
Proof. split; [apply Qc_eq_bool_correct|]. intros ->. unfold Qc_eq_bool. destruct (Qc_eq_dec y y); congruence. Qed.

Lemma Q2Qc_inj x y : Q2Qc x = Q2Qc y <-> (x == y)%Q.
Proof.
  split.
  - intro H. assert (H' : this (Q2Qc x) = this (Q2Qc y)) by (rewrite H; reflexivity). cbn [this Q2Qc] in H'.
    rewrite <- (Qred_correct x), H', Qred_correct. reflexivity.
  - intro H. apply Qc_is_canon. cbn [this Q2Qc]. rewrite !Qred_correct. exact H.
Qed.

Lemma rd_eq0 k z f : grid k z f -> @neqb G (exactly f) (@n0 G) = @neqb F f (@n0 F).
Proof.
  intro H. cbn [neqb QNum F64Num n0]. destruct f as [s|s| |s m e]; try contradiction.
  - destruct s; reflexivity.
  - assert (L : SFeqb (S754_finite s m e) (S754_zero false) = false) by (destruct s; reflexivity). rewrite L.
    destruct (Qc_eq_bool (exactly (S754_finite s m e)) 0%Qc) eqn:E; [|reflexivity]. exfalso. apply Qc_eqb_iff in E.
    cbn [exactly] in E. change 0%Qc with (Q2Qc 0) in E. apply Q2Qc_inj in E. rewrite scaled_dy in E. apply dy_zero_iff in E. destruct s; discriminate.
Qed.

Lemma grid_zero_val k z f : grid k z f -> (@neqb F f (@n0 F) = true <-> z = 0).
Proof.
  intro H. cbn [neqb F64Num n0]. destruct f as [s|s| |s m e]; try contradiction.
  - cbn [grid] in H. subst z. split; [reflexivity|]. intros _. destruct s; reflexivity.
  - split; [destruct s; discriminate|]. intros ->. destruct (grid_zero _ _ H) as [s' E]. discriminate E.
Qed.

Lemma one_unique k f : 0 <= k -> grid k (2 ^ k) f -> f = @n1 F.
Proof.
  intros Hk H. change (@n1 F) with (S754_finite false 4503599627370496 (-52)). destruct f as [s|s| |s m e]; try contradiction.
  - cbn [grid] in H. exfalso. assert (0 < 2 ^ k) by (apply Z.pow_pos_nonneg; lia). lia.
  - destruct H as (D & E & V). assert (V1 : (dy (cond_Zopp s (Zpos m)) e == dy 1 0)%Q).
    { rewrite V. symmetry. rewrite (dy_shift 1 0 k) by lia. rewrite Z.mul_1_l. replace (0 - k) with (- k) by lia. reflexivity. }
    clear V. pose proof (digits_bounds m) as [L U]. rewrite D in L, U.
    set (b := Z.min e 0). apply (dy_align _ _ _ _ b) in V1; [|lia|lia]. rewrite Z.mul_1_l in V1.
    assert (P1 : 0 < 2 ^ (e - b)) by (apply Z.pow_pos_nonneg; lia). assert (P2 : 0 < 2 ^ (0 - b)) by (apply Z.pow_pos_nonneg; lia).
    destruct s; cbn [cond_Zopp] in V1; [nia|].
    assert (I1 : 2 ^ (52 + (e - b)) <= 2 ^ (0 - b)) by (rewrite Z.pow_add_r by lia; rewrite <- V1; apply Z.mul_le_mono_nonneg_r; lia).
    assert (I2 : 2 ^ (0 - b) < 2 ^ (53 + (e - b))) by (rewrite Z.pow_add_r by lia; rewrite <- V1; apply Z.mul_lt_mono_pos_r; lia).
    apply Z.pow_le_mono_r_iff in I1; [|lia|lia]. apply Z.pow_lt_mono_r_iff in I2; [|lia|lia].
    assert (e = -52) by lia. subst e. assert (b = -52) by lia. rewrite H in V1. change (-52 - -52) with 0 in V1. change (0 - -52) with 52 in V1.
    change (2 ^ 0) with 1 in V1. change (2 ^ 52) with 4503599627370496 in V1. f_equal. lia.
Qed.

Lemma rd_eq1 k z f : 0 <= k -> grid k z f -> @neqb G (exactly f) (@n1 G) = @neqb F f (@n1 F) /\ (@neqb F f (@n1 F) = true -> z = 2 ^ k).
Proof.
  intros Hk H. destruct (Z.eq_dec z (2 ^ k)) as [->|N].
  - rewrite (one_unique k f Hk H). split; [reflexivity|]. reflexivity.
  - assert (A : @neqb G (exactly f) (@n1 G) = false).
    { cbn [neqb QNum]. destruct (Qc_eq_bool (exactly f) (@n1 G)) eqn:E; [|reflexivity]. exfalso. apply N. apply Qc_eqb_iff in E.
      rewrite (grid_value _ _ _ H), <- rd_one, (grid_value k (2 ^ k) _ (grid_one k Hk)) in E. apply Q2Qc_inj in E. apply dy_eq_iff in E. exact E. }
    rewrite A. assert (B : @neqb F f (@n1 F) = false).
    { destruct (@neqb F f (@n1 F)) eqn:E; [|reflexivity]. exfalso. cbn [neqb F64Num] in E. change (@n1 F) with (S754_finite false 4503599627370496 (-52)) in E.
      destruct f as [s|s| |s m e]; try contradiction; try discriminate. unfold SFeqb in E. cbn [SFcompare] in E. destruct s; [discriminate|].
      destruct (Z.compare_spec e (-52)) as [Ee|Ee|Ee]; try discriminate. destruct (Pos.compare_cont Eq m 4503599627370496) eqn:Em; try discriminate.
      apply Pos.compare_eq in Em. subst. apply N. destruct H as (_ & _ & V). cbn [cond_Zopp] in V.
      destruct (grid_one k Hk) as (_ & _ & V'). cbn [cond_Zopp] in V'. rewrite V' in V. apply dy_eq_iff in V. lia. }
    rewrite B. split; [reflexivity|discriminate].
Qed.

Lemma grid_regrid k j z f : 0 <= j -> grid k z f -> grid (k + j) (z * 2 ^ j) f.
Proof.
  intros Hj H. destruct f as [s|s| |s m e]; try contradiction.
  - cbn [grid] in *. subst. reflexivity.
  - destruct H as (D & E & V). split; [exact D|]. split; [exact E|]. rewrite V, (dy_shift z (- k) j) by lia. replace (- k - j) with (- (k + j)) by lia. reflexivity.
Qed.

(** ** Bounds of variables *)

Lemma finite_bounds m e : bounded 53 1024 m e = true -> Zpos (digits2_pos m) <= 53 /\ -1074 <= e <= 971 /\ (-1074 < e -> Zpos (digits2_pos m) = 53).
Proof.
  unfold bounded, canonical_mantissa. rewrite andb_true_iff. intros [H1 H2]. apply Zeq_bool_eq in H1. apply Z.leb_le in H2. unfold fexp, emin in H1. lia.
Qed.

Lemma pos_exp_lt m1 e1 m2 e2 : bounded 53 1024 m1 e1 = true -> bounded 53 1024 m2 e2 = true -> e1 < e2 -> (dy (Zpos m1) e1 < dy (Zpos m2) e2)%Q.
Proof.
  intros H1 H2 L. destruct (finite_bounds _ _ H1) as (D1 & R1 & _), (finite_bounds _ _ H2) as (_ & R2 & C2). specialize (C2 ltac:(lia)).
  apply Qnot_le_lt. intro K. apply (dy_align_le _ _ _ _ e1) in K; [|lia|lia]. rewrite Z.sub_diag, Z.pow_0_r, Z.mul_1_r in K.
  pose proof (digits_bounds m1) as [_ U]. pose proof (digits_bounds m2) as [L2 _]. rewrite C2 in L2. change (53 - 1) with 52 in L2.
  assert (U1 : Zpos m1 < 2 ^ 53) by (eapply Z.lt_le_trans; [exact U|]; apply Z.pow_le_mono_r; lia).
  assert (2 ^ 1 <= 2 ^ (e2 - e1)) by (apply Z.pow_le_mono_r; lia). nia.
Qed.

Definition cmpQ (x y : Q) := Qcompare x y.

Lemma pos_compare m1 e1 m2 e2 : bounded 53 1024 m1 e1 = true -> bounded 53 1024 m2 e2 = true ->
  match e1 ?= e2 with Lt => Lt | Gt => Gt | Eq => Pos.compare_cont Eq m1 m2 end = Qcompare (dy (Zpos m1) e1) (dy (Zpos m2) e2).
Proof.
  intros H1 H2. destruct (Z.compare_spec e1 e2) as [E|E|E].
  - subst e2. symmetry. change (Pos.compare_cont Eq m1 m2) with (Zpos m1 ?= Zpos m2). destruct (Z.compare_spec (Zpos m1) (Zpos m2)) as [K|K|K].
    + rewrite K. rewrite <- Qeq_alt. reflexivity.
    + rewrite <- Qlt_alt. apply Qnot_le_lt. rewrite dy_le_iff. lia.
    + rewrite <- Qgt_alt. apply Qnot_le_lt. rewrite dy_le_iff. lia.
  - symmetry. rewrite <- Qlt_alt. apply pos_exp_lt; assumption.
  - symmetry. rewrite <- Qgt_alt. apply pos_exp_lt; assumption.
Qed.

Definition qval (f : spec_float) : Q := match f with
  | S754_zero _ => 0 | S754_finite s m e => dy (cond_Zopp s (Zpos m)) e | S754_infinity s => dy (cond_Zopp s 1) 1024 | S754_nan => 0 end.

Lemma exactly_qval f : exactly f = Q2Qc (qval f).
Proof. destruct f as [s|s| |s m e]; try reflexivity; cbn [exactly qval]; rewrite ?cond_neg; destruct s; reflexivity. Qed.

Lemma dy_pos m e : 0 < m -> (0 < dy m e)%Q.
Proof. intro H. apply Qnot_le_lt. intro K. assert (Z0 : (0 == dy 0 e)%Q) by (symmetry; apply dy_zero_iff; reflexivity). rewrite Z0 in K. apply dy_le_iff in K. lia. Qed.
Lemma dy_below m e : bounded 53 1024 m e = true -> (dy (Zpos m) e < dy 1 1024)%Q.
Proof.
  intro H. destruct (finite_bounds _ _ H) as (D & R & _). apply Qnot_le_lt. intro K. apply (dy_align_le _ _ _ _ e) in K; [|lia|lia].
  rewrite Z.sub_diag, Z.pow_0_r, Z.mul_1_r, Z.mul_1_l in K. pose proof (digits_bounds m) as [_ U].
  assert (2 ^ Zpos (digits2_pos m) <= 2 ^ (1024 - e)) by (apply Z.pow_le_mono_r; lia). lia.
Qed.

Lemma Qcompare_opp x y : Qcompare (- x) (- y) = CompOpp (Qcompare x y).
Proof. unfold Qcompare, Qopp. cbn [Qnum Qden]. rewrite !Z.mul_opp_l. rewrite <- Z.compare_opp, !Z.opp_involutive. apply Z.compare_antisym. Qed.

Lemma compare_exact f g : numeric f -> numeric g -> SFcompare f g = Some (Qcompare (qval f) (qval g)).
Proof.
  intros [Vf Nf] [Vg Ng]. destruct f as [s1|s1| |s1 m1 e1]; [| |congruence|]; (destruct g as [s2|s2| |s2 m2 e2]; [| |congruence|]); cbn [SFcompare qval cond_Zopp]; f_equal; cbn [valid_binary] in *.
  all: try (destruct s1); try (destruct s2); cbn [cond_Zopp]; try reflexivity.
  all: change (-1) with (- (1)); rewrite ?dy_opp.
  all: try (pose proof (dy_below _ _ Vf) as Bf); try (pose proof (dy_below _ _ Vg) as Bg).
  all: try (pose proof (dy_pos (Zpos m1) e1 eq_refl) as Pf); try (pose proof (dy_pos (Zpos m2) e2 eq_refl) as Pg); pose proof (dy_pos 1 1024 eq_refl) as P1.
  all: try (symmetry; rewrite <- Qlt_alt; lra).
  all: try (symmetry; rewrite <- Qgt_alt; lra).
  all: try (symmetry; rewrite <- Qeq_alt; reflexivity).
  all: rewrite ?Qcompare_opp.
  all: rewrite <- pos_compare by assumption; destruct (e1 ?= e2); reflexivity.
Qed.
