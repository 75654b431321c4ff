(** * One float64 addition or multiplication, against the real numbers *)

From Coq Require Import ZArith Reals Lra Lia Bool Floats.SpecFloat.
From Flocq Require Import Core.Core Calc.Bracket Calc.Round IEEE754.BinarySingleNaN Relative Plus_error.
From Verif Require Import Num Syntax SpecRound SpecAccuracy.
Local Open Scope R_scope.

Definition prec64 : Z := 53.
Definition emax64 : Z := 1024.
#[local] Instance Hprec64 : FLX.Prec_gt_0 prec64 := eq_refl.
#[local] Instance Hemax64 : Prec_lt_emax prec64 emax64 := eq_refl.

(** ** the operations of the standard library are those of Flocq *)
Lemma rne_equiv s m l : round_nearest_even m l = choice_mode mode_NE s m l.
Proof.
  case l; [reflexivity|intro c]. case c; [ | reflexivity..]. now simpl; unfold Round.cond_incr; case Z.even.
Qed.
Lemma round_aux_equiv sx mx ex lx :
  SpecFloat.binary_round_aux prec64 emax64 sx mx ex lx = binary_round_aux prec64 emax64 mode_NE sx mx ex lx.
Proof.
  unfold SpecFloat.binary_round_aux, binary_round_aux. set (mrse' := shr_fexp _ _ _).
  case mrse'; intros mrs' e'; simpl. now rewrite (rne_equiv sx).
Qed.
Lemma round_equiv s m e : SpecFloat.binary_round prec64 emax64 s m e = binary_round prec64 emax64 mode_NE s m e.
Proof.
  unfold SpecFloat.binary_round, binary_round, shl_align_fexp. set (mez := shl_align _ _ _); case mez as [mz ez]. apply round_aux_equiv.
Qed.
Lemma normalize_equiv m e szero :
  SpecFloat.binary_normalize prec64 emax64 m e szero = B2SF (binary_normalize prec64 emax64 Hprec64 Hemax64 mode_NE m e szero).
Proof.
  case m as [ | p | p]; [now simpl | |]; simpl; rewrite B2SF_SF2B; apply round_equiv.
Qed.
Lemma plus_equiv (x y : binary_float prec64 emax64) : SFadd prec64 emax64 (B2SF x) (B2SF y) = B2SF (Bplus mode_NE x y).
Proof.
  case x as [sx|sx| |sx mx ex Bx]; case y as [sy|sy| |sy my ey By]; [now (trivial || simpl; case Bool.eqb).. | ]. apply normalize_equiv.
Qed.
Lemma mult_equiv (x y : binary_float prec64 emax64) : SFmul prec64 emax64 (B2SF x) (B2SF y) = B2SF (Bmult mode_NE x y).
Proof.
  case x as [sx|sx| |sx mx ex Bx]; case y as [sy|sy| |sy my ey By]; [now trivial.. | ]. simpl. rewrite B2SF_SF2B. apply round_aux_equiv.
Qed.

(** ** the real number of a float64 value *)
Lemma real64_SF2R c : real64 c = SF2R radix2 c.
Proof.
  destruct c as [s|s| |s m e]; try reflexivity. unfold real64, SF2R, F2R. cbn [Fnum Fexp]. rewrite bpow_powerRZ.
  replace (IZR (cond_Zopp s (Zpos m))) with ((if s then -1 else 1) * IZR (Zpos m)); [reflexivity|].
  destruct s; cbn [cond_Zopp]; [rewrite opp_IZR; ring | ring].
Qed.

Definition to_b (c : spec_float) (H : float64 c) : binary_float prec64 emax64 := SF2B c H.
Lemma to_b_SF c H : B2SF (to_b c H) = c.
Proof. apply B2SF_SF2B. Qed.
Lemma to_b_R c H : B2R (to_b c H) = real64 c.
Proof. unfold to_b. rewrite B2R_SF2B, real64_SF2R. reflexivity. Qed.
Lemma finite_B2SF (x : binary_float prec64 emax64) : finite64 (B2SF x) <-> is_finite x = true.
Proof.
  split.
  - intros (_ & H). destruct x; cbn in *; [reflexivity | contradiction | contradiction | reflexivity].
  - intro H. split; [apply valid_binary_B2SF | destruct x; cbn in *; exact I || discriminate].
Qed.
Lemma to_b_finite c H : finite64 c -> is_finite (to_b c H) = true.
Proof. intro F. apply finite_B2SF. rewrite to_b_SF. exact F. Qed.
Lemma B2SF_real (x : binary_float prec64 emax64) : real64 (B2SF x) = B2R x.
Proof. rewrite real64_SF2R. destruct x; reflexivity. Qed.

Lemma half_pow n : / 2 ^ S n = / 2 * bpow radix2 (- Z.of_nat n).
Proof. rewrite bpow_opp, bpow_powerRZ, <- pow_powerRZ. cbn [pow]. rewrite Rinv_mult. reflexivity. Qed.
Lemma unit64_u : unit64 = / 2 * bpow radix2 (- prec64 + 1).
Proof. exact (half_pow 52). Qed.
Lemma tiny64_u : tiny64 = / 2 * bpow radix2 (SpecFloat.emin prec64 emax64).
Proof. exact (half_pow 1074). Qed.
Lemma unit64_pos : 0 <= unit64.
Proof. unfold unit64. apply Rlt_le, Rinv_0_lt_compat, pow_lt. lra. Qed.
Lemma tiny64_pos : 0 <= tiny64.
Proof. unfold tiny64. apply Rlt_le, Rinv_0_lt_compat, pow_lt. lra. Qed.

(** ** one addition *)
Lemma overflow_infinite s : match binary_overflow prec64 emax64 mode_NE s with S754_zero _ | S754_finite _ _ _ => False | _ => True end.
Proof. exact I. Qed.

Lemma add64_finite (x y : @num F64Num) : float64 x -> float64 y -> finite64 (nadd x y) -> finite64 x /\ finite64 y.
Proof.
  intros Hx Hy (_ & H). unfold finite64. destruct x as [sx|sx| |sx mx ex], y as [sy|sy| |sy my ey]; cbn in H; try destruct H; auto. destruct (eqb sx sy); destruct H.
Qed.
Lemma mul64_finite (x y : @num F64Num) : float64 x -> float64 y -> finite64 (nmul x y) -> finite64 x /\ finite64 y.
Proof.
  intros Hx Hy (_ & H). unfold finite64. destruct x as [sx|sx| |sx mx ex], y as [sy|sy| |sy my ey]; cbn in H; try destruct H; auto.
Qed.

Lemma add64_real (x y : @num F64Num) : float64 x -> float64 y -> finite64 (nadd x y) ->
  Rabs (real64 (nadd x y) - (real64 x + real64 y)) <= unit64 * Rabs (real64 x + real64 y).
Proof.
  intros Hx Hy HF. destruct (add64_finite x y Hx Hy HF) as [Fx Fy]. cbn [nadd F64Num] in *.
  rewrite <- (to_b_SF x Hx), <- (to_b_SF y Hy) in HF |- *. change 53%Z with prec64 in *. change 1024%Z with emax64 in *. rewrite plus_equiv in HF |- *.
  pose proof (Bplus_correct prec64 emax64 Hprec64 Hemax64 mode_NE (to_b x Hx) (to_b y Hy) (to_b_finite x Hx Fx) (to_b_finite y Hy Fy)) as C.
  rewrite !B2SF_real. destruct (Rlt_bool _ _) in C.
  - destruct C as (C & _ & _). rewrite C.
    destruct (FLT_plus_error_N_ex radix2 (SpecFloat.emin prec64 emax64) prec64 (fun z => negb (Z.even z)) (B2R (to_b x Hx)) (B2R (to_b y Hy))
      (generic_format_B2R prec64 emax64 _) (generic_format_B2R prec64 emax64 _)) as (eps & He & E).
    change (round radix2 (FLT_exp (SpecFloat.emin prec64 emax64) prec64) (Znearest (fun z => negb (Z.even z))) (B2R (to_b x Hx) + B2R (to_b y Hy)))
      with (round radix2 (SpecFloat.fexp prec64 emax64) (round_mode mode_NE) (B2R (to_b x Hx) + B2R (to_b y Hy))) in E.
    rewrite E. set (z := (B2R (to_b x Hx) + B2R (to_b y Hy))). replace (z * (1 + eps) - z) with (eps * z) by ring. rewrite Rabs_mult.
    apply Rmult_le_compat_r; [apply Rabs_pos|]. rewrite unit64_u. eapply Rle_trans; [exact He | apply u_rod1pu_ro_le_u_ro].
  - exfalso. destruct C as (C & _). rewrite C in HF. exact (proj2 HF).
Qed.

(** ** one multiplication *)
Lemma mul64_real (x y : @num F64Num) : float64 x -> float64 y -> finite64 (nmul x y) ->
  Rabs (real64 (nmul x y) - real64 x * real64 y) <= unit64 * Rabs (real64 x * real64 y) + tiny64.
Proof.
  intros Hx Hy HF. destruct (mul64_finite x y Hx Hy HF) as [Fx Fy]. cbn [nmul F64Num] in *.
  rewrite <- (to_b_SF x Hx), <- (to_b_SF y Hy) in HF |- *. change 53%Z with prec64 in *. change 1024%Z with emax64 in *. rewrite mult_equiv in HF |- *.
  pose proof (Bmult_correct prec64 emax64 Hprec64 Hemax64 mode_NE (to_b x Hx) (to_b y Hy)) as C.
  rewrite !B2SF_real. destruct (Rlt_bool _ _) in C.
  - destruct C as (C & _ & _). rewrite C.
    destruct (error_N_FLT radix2 (SpecFloat.emin prec64 emax64) prec64 eq_refl (fun z => negb (Z.even z)) (B2R (to_b x Hx) * B2R (to_b y Hy))) as (eps & eta & He & Ht & _ & E).
    change (round radix2 (FLT_exp (SpecFloat.emin prec64 emax64) prec64) (Znearest (fun z => negb (Z.even z))) (B2R (to_b x Hx) * B2R (to_b y Hy)))
      with (round radix2 (SpecFloat.fexp prec64 emax64) (round_mode mode_NE) (B2R (to_b x Hx) * B2R (to_b y Hy))) in E.
    rewrite E. set (z := (B2R (to_b x Hx) * B2R (to_b y Hy))). replace (z * (1 + eps) + eta - z) with (eps * z + eta) by ring.
    eapply Rle_trans; [apply Rabs_triang|]. rewrite Rabs_mult, unit64_u, tiny64_u. apply Rplus_le_compat; [|exact Ht]. apply Rmult_le_compat_r; [apply Rabs_pos | exact He].
  - exfalso. rewrite C in HF. exact (proj2 HF).
Qed.

(** ** sign, equality with 0, validity of the results *)
Lemma opp64_real (x : @num F64Num) : real64 (nopp x) = - real64 x.
Proof. destruct x as [s|s| |s m e]; cbn; try ring. destruct s; cbn [negb]; ring. Qed.
Lemma zero64_real (x : @num F64Num) : neqb x n0 = true -> real64 x = 0.
Proof. destruct x as [s|s| |s m e]; cbn; intro H; try reflexivity. destruct s; discriminate. Qed.
Lemma add64_float (x y : @num F64Num) : float64 x -> float64 y -> float64 (nadd x y).
Proof.
  intros Hx Hy. cbn [nadd F64Num]. rewrite <- (to_b_SF x Hx), <- (to_b_SF y Hy). change 53%Z with prec64. change 1024%Z with emax64. rewrite plus_equiv. apply valid_binary_B2SF.
Qed.
Lemma mul64_float (x y : @num F64Num) : float64 x -> float64 y -> float64 (nmul x y).
Proof.
  intros Hx Hy. cbn [nmul F64Num]. rewrite <- (to_b_SF x Hx), <- (to_b_SF y Hy). change 53%Z with prec64. change 1024%Z with emax64. rewrite mult_equiv. apply valid_binary_B2SF.
Qed.
Lemma sub64_add (x y : @num F64Num) : nsub x y = nadd x (nopp y).
Proof. destruct x as [sx|sx| |sx mx ex], y as [sy|sy| |sy my ey]; cbn; try reflexivity; destruct sx, sy; reflexivity. Qed.
