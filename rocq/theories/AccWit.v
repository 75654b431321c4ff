(** * Witnesses for the accuracy of float64 results *)

From Coq Require Import ZArith NArith Bool List Lia Reals Lra Floats.SpecFloat.
From Verif Require Import Num Syntax ModelScalar ModelShape ModelArith Spec SpecConv SpecEffect SpecArr SpecEffectArr SpecRound SpecPoint SpecAccuracy Base ScalarValid Unamb ScalarFacts Witness ScalarWit ArrWit EffectArrWit Round RoundWit PointWit Accuracy8.
Import ListNotations.
Local Open Scope num_scope.

Section W.
Let NN := F64Num.
Existing Instance NN.

Definition finite64b (c : num) : bool := match c : spec_float with S754_infinity _ | S754_nan => false | _ => valid_binary 53 1024 c end.
Lemma finite64b_spec c : finite64b c = true -> finite64 c.
Proof. intro H. destruct c as [b|b| |b m e]; try discriminate H; split; solve [exact H | exact I]. Qed.
Definition finite64sb (s : scalar) : bool := forallb (fun t => finite64b (m_coeff t)) (terms s).
Lemma finite64sb_spec s : finite64sb s = true -> finite64s s.
Proof. intro H. unfold finite64sb in H. rewrite forallb_forall in H. apply Forall_forall. intros t Ht. apply finite64b_spec. exact (H t Ht). Qed.
Lemma deg2_unambiguous s : valid s -> degree_test 2 s = true -> unambiguous (fun m => In m (terms s)).
Proof. intros V H. intros x y Hx Hy. apply (either_degree2 s s V V); try (apply degree_test_spec; exact H); left; assumption. Qed.
Lemma deg2_either a b : valid a -> valid b -> degree_test 2 a && degree_test 2 b = true -> unambiguous (in_either a b).
Proof. intros Va Vb H. apply andb_true_iff in H as [H1 H2]. apply either_degree2; try assumption; apply degree_test_spec; assumption. Qed.

(** what the theorems ask of an operand, as a test *)
Definition fit (s : scalar) : bool := validb s && unlike (terms s) && float64b s && degree_test 2 s.
Lemma fit_spec s : fit s = true -> valid s /\ collected s /\ float64s s /\ degree_at_most 2 s.
Proof.
  intro H. unfold fit in H. apply andb_true_iff in H as [H D]. apply andb_true_iff in H as [H F]. apply andb_true_iff in H as [V C]. apply validb_spec in V.
  split; [exact V|]. split; [apply collectedb_spec; assumption|]. split; [apply float64b_spec; exact F | apply degree_test_spec; exact D].
Qed.
Definition fits (s : scalar) : bool := fit s && finite64sb s.

Lemma wit_acc_plus : exists a b s, valid a /\ valid b /\ collected a /\ collected b /\ float64s a /\ float64s b /\ unambiguous (in_either a b) /\ scalar_plus a b = Ok s /\ finite64s s
  /\ one_is (coefficients w_rm s) (w_tenth 1 + w_tenth 2) (w_tenth 3) = true.
Proof.
  assert (Ha : fit w_r1 = true) by (vm_compute; reflexivity). assert (Hb : fit w_r2 = true) by (vm_compute; reflexivity).
  apply fit_spec in Ha as (Va & Ca & Fa & Da). apply fit_spec in Hb as (Vb & Cb & Fb & Db).
  destruct (ok1_ex (scalar_plus w_r1 w_r2) (fun s => finite64sb s && one_is (coefficients w_rm s) (w_tenth 1 + w_tenth 2) (w_tenth 3))) as (s & Es & H); [vm_compute; reflexivity|].
  apply andb_true_iff in H as [H1 H2]. exists w_r1, w_r2, s. repeat (split; [first [assumption | apply finite64sb_spec; assumption | apply either_degree2; assumption]|]). exact H2.
Qed.
Lemma wit_acc_minus : exists a b s, valid a /\ valid b /\ collected a /\ collected b /\ float64s a /\ float64s b /\ unambiguous (in_either a b) /\ scalar_minus a b = Ok s /\ finite64s s
  /\ one_is (coefficients w_rm s) (w_tenth 3 - w_tenth 2) (w_tenth 1) = true.
Proof.
  assert (Ha : fit w_r3 = true) by (vm_compute; reflexivity). assert (Hb : fit w_r2 = true) by (vm_compute; reflexivity).
  apply fit_spec in Ha as (Va & Ca & Fa & Da). apply fit_spec in Hb as (Vb & Cb & Fb & Db).
  destruct (ok1_ex (scalar_minus w_r3 w_r2) (fun s => finite64sb s && one_is (coefficients w_rm s) (w_tenth 3 - w_tenth 2) (w_tenth 1))) as (s & Es & H); [vm_compute; reflexivity|].
  apply andb_true_iff in H as [H1 H2]. exists w_r3, w_r2, s. repeat (split; [first [assumption | apply finite64sb_spec; assumption | apply either_degree2; assumption]|]). exact H2.
Qed.
Lemma wit_acc_multiply : exists a s f, valid a /\ collected a /\ float64s a /\ finite64 f /\ unambiguous (fun m => In m (terms a)) /\ scalar_mul_float a f = Ok s /\ finite64s s
  /\ one_is (coefficients w_rm s) (w_tenth 1 * nofZ 3) (w_tenth 3) = true.
Proof.
  assert (Ha : fit w_r1 = true) by (vm_compute; reflexivity). apply fit_spec in Ha as (Va & Ca & Fa & Da).
  destruct (ok1_ex (scalar_mul_float w_r1 (nofZ 3)) (fun s => finite64sb s && one_is (coefficients w_rm s) (w_tenth 1 * nofZ 3) (w_tenth 3))) as (s & Es & H); [vm_compute; reflexivity|].
  apply andb_true_iff in H as [H1 H2]. exists w_r1, s, (nofZ 3). repeat (split; [first [assumption | apply finite64sb_spec; assumption | apply deg2_unambiguous; [assumption | vm_compute; reflexivity] | apply finite64b_spec; vm_compute; reflexivity]|]). exact H2.
Qed.
Lemma wit_acc_simplify : exists a s, valid a /\ float64s a /\ unambiguous (fun m => In m (terms a)) /\ scalar_simplified a = Ok s /\ finite64s s /\ length (terms a) = 3
  /\ one_is (coefficients w_rm s) (w_tenth 1 + w_tenth 2 + w_tenth 3) (w_tenth 1 + (w_tenth 2 + w_tenth 3)) = true.
Proof.
  assert (Va : valid w_r4) by (apply validb_spec; vm_compute; reflexivity). assert (Fa : float64s w_r4) by (apply float64b_spec; vm_compute; reflexivity).
  destruct (ok1_ex (scalar_simplified w_r4) (fun s => finite64sb s && one_is (coefficients w_rm s) (w_tenth 1 + w_tenth 2 + w_tenth 3) (w_tenth 1 + (w_tenth 2 + w_tenth 3)))) as (s & Es & H); [vm_compute; reflexivity|].
  apply andb_true_iff in H as [H1 H2]. exists w_r4, s. repeat (split; [first [assumption | apply finite64sb_spec; assumption | apply deg2_unambiguous; [assumption | vm_compute; reflexivity] | reflexivity]|]). exact H2.
Qed.
Lemma wit_acc_sum : exists a l s, length l = 3 /\ Forall (fun x => valid x /\ collected x /\ float64s x) (a :: l) /\ unambiguous (fun m => exists x, In x (a :: l) /\ In m (terms x))
  /\ sum_up a l = Ok s /\ finite64s s /\ one_is (coefficients w_rm s) (w_tenth 1 + w_tenth 2 + w_tenth 3 + w_tenth 1) (w_tenth 7) = true.
Proof.
  assert (HF : forall x, In x [w_r1; w_r2; w_r3; w_r1] -> valid x /\ collected x /\ float64s x /\ degree_at_most 2 x).
  { intros x Hx. apply fit_spec. assert (B : forallb fit [w_r1; w_r2; w_r3; w_r1] = true) by (vm_compute; reflexivity). rewrite forallb_forall in B. exact (B x Hx). }
  destruct (ok1_ex (sum_up w_r1 [w_r2; w_r3; w_r1]) (fun s => finite64sb s && one_is (coefficients w_rm s) (w_tenth 1 + w_tenth 2 + w_tenth 3 + w_tenth 1) (w_tenth 7))) as (s & Es & H); [vm_compute; reflexivity|].
  apply andb_true_iff in H as [H1 H2]. exists w_r1, [w_r2; w_r3; w_r1], s. split; [reflexivity|].
  split; [apply Forall_forall; intros x Hx; destruct (HF x Hx) as (? & ? & ? & ?); auto|].
  split. { intros m1 m2 (x & Hx & M1) (y & Hy & M2). destruct (HF x Hx) as (Vx & _ & _ & Dx). destruct (HF y Hy) as (Vy & _ & _ & Dy). apply (either_degree2 x y Vx Vy Dx Dy); [left; exact M1 | right; exact M2]. }
  split; [exact Es|]. split; [apply finite64sb_spec; exact H1 | exact H2].
Qed.

Lemma entries_fit d (e : expr) : all_entries d (fun i j => fit (entry e i j)) = true -> forall i j, i < fst d -> j < snd d -> valid (entry e i j) /\ collected (entry e i j) /\ float64s (entry e i j) /\ degree_at_most 2 (entry e i j).
Proof. intros H i j Hi Hj. apply fit_spec. exact (all_entries_spec d (fun i j => fit (entry e i j)) H i j Hi Hj). Qed.
Lemma entries_finite d (e : expr) : all_entries d (fun i j => finite64sb (entry e i j)) = true -> forall i j, i < fst d -> j < snd d -> finite64s (entry e i j).
Proof. intros H i j Hi Hj. apply finite64sb_spec. exact (all_entries_spec d (fun i j => finite64sb (entry e i j)) H i j Hi Hj). Qed.

Lemma wit_acc_plus_array : valid_array (2, 1)%nat w_pa /\ valid_array (2, 1)%nat w_pb /\ means (GExpr w_pb) = Some w_pb /\ broadcast w_pa w_pb (2, 1)%nat (2, 1)%nat (2, 1)%nat
  /\ lists_only w_pa w_pb = false /\ number64 w_pa /\ number64 w_pb
  /\ (forall i j, i < 2 -> j < 1 -> collected (bentry w_pa i j) /\ collected (bentry w_pb i j) /\ float64s (bentry w_pa i j) /\ float64s (bentry w_pb i j) /\ unambiguous (in_either (bentry w_pa i j) (bentry w_pb i j)))
  /\ exists e, expr_plus w_pa (GExpr w_pb) = Ok e /\ (forall i j, i < 2 -> j < 1 -> finite64s (entry e i j)) /\ one_is (coefficients w_rm (entry e 0 0)) (w_tenth 1 + w_tenth 2) (w_tenth 3) = true.
Proof.
  split; [ar|]. split; [ar|]. split; [reflexivity|]. split; [left; split; reflexivity|]. split; [reflexivity|]. split; [exact I|]. split; [exact I|].
  split. { intros i j Hi Hj. destruct (entries_fit (2, 1)%nat w_pa ltac:(vm_compute; reflexivity) i j Hi Hj) as (Va & Ca & Fa & Da). destruct (entries_fit (2, 1)%nat w_pb ltac:(vm_compute; reflexivity) i j Hi Hj) as (Vb & Cb & Fb & Db).
    repeat (split; [assumption|]). apply (either_degree2 _ _ Va Vb Da Db). }
  destruct (some_array (expr_plus w_pa (GExpr w_pb)) (fun e => all_entries (2, 1)%nat (fun i j => finite64sb (entry e i j)) && one_is (coefficients w_rm (entry e 0 0)) (w_tenth 1 + w_tenth 2) (w_tenth 3))) as (e & E & H); [vm_compute; reflexivity|].
  apply andb_true_iff in H as [H1 H2]. exists e. split; [exact E|]. split; [exact (entries_finite (2, 1)%nat e H1) | exact H2].
Qed.
Lemma wit_acc_minus_array : valid_array (2, 1)%nat w_pc /\ valid_array (2, 1)%nat w_pb /\ means (GExpr w_pb) = Some w_pb /\ broadcast w_pc w_pb (2, 1)%nat (2, 1)%nat (2, 1)%nat
  /\ list_differences w_pc w_pb = false /\ number64 w_pc /\ (forall i j, i < 2 -> j < 1 -> collected (entry w_pb i j) /\ float64s (entry w_pb i j))
  /\ (forall i j, i < 2 -> j < 1 -> collected (bentry w_pc i j) /\ float64s (bentry w_pc i j) /\ unambiguous (in_either (bentry w_pc i j) (bentry w_pb i j))) /\ (exists e, minus w_pc w_pb = Ok e)
  /\ exists e, expr_minus w_pc (GExpr w_pb) = Ok e /\ (forall i j, i < 2 -> j < 1 -> finite64s (entry e i j)) /\ one_is (coefficients w_rm (entry e 0 0)) (w_tenth 3 - w_tenth 2) (w_tenth 1) = true.
Proof.
  assert (FB : forall i j, i < 2 -> j < 1 -> valid (entry w_pb i j) /\ collected (entry w_pb i j) /\ float64s (entry w_pb i j) /\ degree_at_most 2 (entry w_pb i j)) by (apply (entries_fit (2, 1)%nat w_pb); vm_compute; reflexivity).
  assert (FC : forall i j, i < 2 -> j < 1 -> valid (entry w_pc i j) /\ collected (entry w_pc i j) /\ float64s (entry w_pc i j) /\ degree_at_most 2 (entry w_pc i j)) by (apply (entries_fit (2, 1)%nat w_pc); vm_compute; reflexivity).
  split; [ar|]. split; [ar|]. split; [reflexivity|]. split; [left; split; reflexivity|]. split; [reflexivity|]. split; [exact I|].
  split; [intros i j Hi Hj; destruct (FB i j Hi Hj) as (? & ? & ? & ?); split; assumption|].
  split. { intros i j Hi Hj. destruct (FC i j Hi Hj) as (Va & Ca & Fa & Da). destruct (FB i j Hi Hj) as (Vb & Cb & Fb & Db). split; [exact Ca|]. split; [exact Fa|]. apply (either_degree2 _ _ Va Vb Da Db). }
  split; [destruct (some_array (minus w_pc w_pb) (fun _ => true)) as (e & E & _); [vm_compute; reflexivity | exists e; exact E]|].
  destruct (some_array (expr_minus w_pc (GExpr w_pb)) (fun e => all_entries (2, 1)%nat (fun i j => finite64sb (entry e i j)) && one_is (coefficients w_rm (entry e 0 0)) (w_tenth 3 - w_tenth 2) (w_tenth 1))) as (e & E & H); [vm_compute; reflexivity|].
  apply andb_true_iff in H as [H1 H2]. exists e. split; [exact E|]. split; [exact (entries_finite (2, 1)%nat e H1) | exact H2].
Qed.
Lemma wit_acc_multiply_array : finite64 (nofZ 3) /\ valid_array (1, 2)%nat w_pd /\ (forall i j, i < 1 -> j < 2 -> collected (entry w_pd i j)) /\ means (GFloat (nofZ 3)) = Some (ES (SK (nofZ 3)))
  /\ (forall i j, i < 1 -> j < 2 -> float64s (entry w_pd i j) /\ unambiguous (fun m => In m (terms (entry w_pd i j))))
  /\ exists e, expr_mul w_pd (GFloat (nofZ 3)) = Ok e /\ (forall i j, i < 1 -> j < 2 -> finite64s (entry e i j)) /\ one_is (coefficients w_rm (entry e 0 0)) (w_tenth 1 * nofZ 3) (w_tenth 3) = true.
Proof.
  assert (FD : forall i j, i < 1 -> j < 2 -> valid (entry w_pd i j) /\ collected (entry w_pd i j) /\ float64s (entry w_pd i j) /\ degree_at_most 2 (entry w_pd i j)) by (apply (entries_fit (1, 2)%nat w_pd); vm_compute; reflexivity).
  split; [apply finite64b_spec; vm_compute; reflexivity|]. split; [ar|]. split; [intros i j Hi Hj; apply (FD i j Hi Hj)|]. split; [reflexivity|].
  split. { intros i j Hi Hj. destruct (FD i j Hi Hj) as (V & C & F & D). split; [exact F|]. intros x y Hx Hy. apply (either_degree2 _ _ V V D D); left; assumption. }
  destruct (some_array (expr_mul w_pd (GFloat (nofZ 3))) (fun e => all_entries (1, 2)%nat (fun i j => finite64sb (entry e i j)) && one_is (coefficients w_rm (entry e 0 0)) (w_tenth 1 * nofZ 3) (w_tenth 3))) as (e & E & H); [vm_compute; reflexivity|].
  apply andb_true_iff in H as [H1 H2]. exists e. split; [exact E|]. split; [exact (entries_finite (1, 2)%nat e H1) | exact H2].
Qed.
Lemma wit_acc_simplify_array : valid_array (2, 1)%nat w_pe /\ (forall i j, i < 2 -> j < 1 -> float64s (entry w_pe i j) /\ unambiguous (fun m => In m (terms (entry w_pe i j))))
  /\ exists e, expr_simplified w_pe = Ok e /\ (forall i j, i < 2 -> j < 1 -> finite64s (entry e i j)) /\ one_is (coefficients w_rm (entry e 0 0)) (w_tenth 1 + w_tenth 2 + w_tenth 3) (w_tenth 1 + (w_tenth 2 + w_tenth 3)) = true.
Proof.
  assert (VA : valid_array (2, 1)%nat w_pe) by ar. split; [exact VA|].
  split. { intros i j Hi Hj. assert (V : valid (entry w_pe i j)) by (destruct VA as (_ & _ & _ & W); apply W; assumption). split; [apply float64b_spec; apply (all_entries_spec (2, 1)%nat (fun i j => float64b (entry w_pe i j))); [vm_compute; reflexivity | exact Hi | exact Hj]|].
    apply deg2_unambiguous; [exact V|]. apply (all_entries_spec (2, 1)%nat (fun i j => degree_test 2 (entry w_pe i j))); [vm_compute; reflexivity | exact Hi | exact Hj]. }
  destruct (some_array (expr_simplified w_pe) (fun e => all_entries (2, 1)%nat (fun i j => finite64sb (entry e i j)) && one_is (coefficients w_rm (entry e 0 0)) (w_tenth 1 + w_tenth 2 + w_tenth 3) (w_tenth 1 + (w_tenth 2 + w_tenth 3)))) as (e & E & H); [vm_compute; reflexivity|].
  apply andb_true_iff in H as [H1 H2]. exists e. split; [exact E|]. split; [exact (entries_finite (2, 1)%nat e H1) | exact H2].
Qed.

(** 2^53 x + x, whose coefficient does not fit *)
Definition w_big : scalar := SM (mkMono (nofZ 9007199254740992) [1%Z] [wx]).
Definition w_one : scalar := SM (mkMono n1 [1%Z] [wx]).
Lemma value_x (c : spec_float) v : value64 (fun _ => 1%R) (SM (mkMono c [1%Z] [v])) = real64 c.
Proof.
  unfold value64, factors64. cbn [terms map total m_coeff m_vars m_exps powers64]. change (Z.to_nat 1) with 1. rewrite pow1, !Rmult_1_r, Rplus_0_r. reflexivity.
Qed.
Definition is_x (s : scalar) (m : positive) (e : Z) : bool :=
  match s with SM (mkMono (S754_finite false m' e') [1%Z] [v]) => Pos.eqb m' m && Z.eqb e' e | _ => false end.
Lemma is_x_value s m e : is_x s m e = true -> value64 (fun _ => 1%R) s = real64 (S754_finite false m e).
Proof.
  destruct s as [|v|[c es vs]|]; try discriminate. cbn [is_x]. destruct c as [| | |[|] m' e']; try discriminate. destruct es as [|[|[| |]|] [|]]; try discriminate. destruct vs as [|v [|]]; try discriminate.
  intro H. apply andb_true_iff in H as [H1 H2]. apply Pos.eqb_eq in H1. apply Z.eqb_eq in H2. subst. apply value_x.
Qed.
Lemma acc_refuted : exists r a b s, valid a /\ valid b /\ collected a /\ collected b /\ float64s a /\ float64s b /\ unambiguous (in_either a b) /\ scalar_plus a b = Ok s /\ finite64s s
  /\ value64 r s <> (value64 r a + value64 r b)%R.
Proof.
  assert (Ha : fit w_big = true) by (vm_compute; reflexivity). assert (Hb : fit w_one = true) by (vm_compute; reflexivity).
  apply fit_spec in Ha as (Va & Ca & Fa & Da). apply fit_spec in Hb as (Vb & Cb & Fb & Db).
  assert (X1 : is_x w_big 4503599627370496 1 = true) by (vm_compute; reflexivity). assert (X2 : is_x w_one 4503599627370496 (-52) = true) by (vm_compute; reflexivity).
  destruct (ok1_ex (scalar_plus w_big w_one) (fun s => finite64sb s && is_x s 4503599627370496 1)) as (s & Es & H); [vm_compute; reflexivity|]. apply andb_true_iff in H as [H1 H2].
  exists (fun _ => 1%R), w_big, w_one, s. split; [exact Va|]. split; [exact Vb|]. split; [exact Ca|]. split; [exact Cb|]. split; [exact Fa|]. split; [exact Fb|]. split; [apply either_degree2; assumption|].
  split; [exact Es|]. split; [apply finite64sb_spec; exact H1|].
  apply is_x_value in X1, X2, H2. intro X.
  assert (Y : real64 (S754_finite false 4503599627370496 (-52)) = 0%R).
  { assert (E : (value64 (fun _ => 1%R) s = real64 (S754_finite false 4503599627370496 1) -> value64 (fun _ => 1%R) w_big = real64 (S754_finite false 4503599627370496 1) -> value64 (fun _ => 1%R) w_one = real64 (S754_finite false 4503599627370496 (-52)) -> real64 (S754_finite false 4503599627370496 (-52)) = 0)%R); [|exact (E H2 X1 X2)].
    revert X. generalize (value64 (fun _ => 1%R) s) (value64 (fun _ => 1%R) w_big) (value64 (fun _ => 1%R) w_one). intros. lra. }
  unfold real64 in Y. assert (P : (0 < powerRZ 2 (-52))%R) by (apply powerRZ_lt; lra). revert P Y. generalize (powerRZ 2 (-52)). intros. lra.
Qed.

(** (0.7 x + 0.3 y) (0.3 x + 0.1 y) *)
Definition w_l1 : scalar := SP [mkMono (w_tenth 7) [1%Z] [wx]; mkMono (w_tenth 3) [1%Z] [wy]].
Definition w_l2 : scalar := SP [mkMono (w_tenth 3) [1%Z] [wx]; mkMono (w_tenth 1) [1%Z] [wy]].
Lemma wit_acc_product : exists a b s, valid a /\ valid b /\ float64s a /\ float64s b /\ unambiguous_exponents (product_terms a b) /\ scalar_mul a b = Ok s /\ finite64s s
  /\ length (terms a) = 2 /\ length (terms b) = 2 /\ one_is (coefficients w_rm s) (w_tenth 3 * w_tenth 3 + w_tenth 7 * w_tenth 1) (nofZ 16 / nofZ 100) = true.
Proof.
  assert (Va : valid w_l1) by (apply validb_spec; vm_compute; reflexivity). assert (Vb : valid w_l2) by (apply validb_spec; vm_compute; reflexivity).
  assert (Fa : float64s w_l1) by (apply float64b_spec; vm_compute; reflexivity). assert (Fb : float64s w_l2) by (apply float64b_spec; vm_compute; reflexivity).
  assert (Da : degree_at_most 1 w_l1) by (apply degree_test_spec; vm_compute; reflexivity). assert (Db : degree_at_most 1 w_l2) by (apply degree_test_spec; vm_compute; reflexivity).
  destruct (ok1_ex (scalar_mul w_l1 w_l2) (fun s => finite64sb s && one_is (coefficients w_rm s) (w_tenth 3 * w_tenth 3 + w_tenth 7 * w_tenth 1) (nofZ 16 / nofZ 100))) as (s & Es & H); [vm_compute; reflexivity|].
  apply andb_true_iff in H as [H1 H2]. exists w_l1, w_l2, s. split; [exact Va|]. split; [exact Vb|]. split; [exact Fa|]. split; [exact Fb|].
  split; [apply degree_exponents; intros f Hf L HN; exact (product_terms_degree w_l1 w_l2 1 1 Va Vb Da Db f Hf L HN)|].
  split; [exact Es|]. split; [apply finite64sb_spec; exact H1|]. split; [reflexivity|]. split; [reflexivity | exact H2].
Qed.

(** the derivative of 0.1 x^3 + 0.3 y: 0.1 * 3 rounds *)
Definition w_cube : scalar := SP [mkMono (w_tenth 1) [3%Z] [wx]; mkMono (w_tenth 3) [1%Z] [wy]].
Definition w_square : Monomial := mkMono n1 [2%Z] [wx].
Lemma wit_acc_derivative : exists s s', valid s /\ float64s s /\ scalar_derivative s wx = Ok s' /\ finite64s s' /\ (forall r, exists d, derivable_pt_lim (fun x => value64 (at64 r (v_id wx) x) s) (r (v_id wx)) d)
  /\ one_is (coefficients w_square s') (w_tenth 1 * nofZ 3) (w_tenth 3) = true.
Proof.
  assert (Va : valid w_cube) by (apply validb_spec; vm_compute; reflexivity). assert (Fa : float64s w_cube) by (apply float64b_spec; vm_compute; reflexivity).
  destruct (ok1_ex (scalar_derivative w_cube wx) (fun s => finite64sb s && one_is (coefficients w_square s) (w_tenth 1 * nofZ 3) (w_tenth 3))) as (s & Es & H); [vm_compute; reflexivity|].
  apply andb_true_iff in H as [H1 H2]. exists w_cube, s. split; [exact Va|]. split; [exact Fa|]. split; [exact Es|]. split; [apply finite64sb_spec; exact H1|]. split; [|exact H2].
  intro r. eexists. apply value_limit.
Qed.
End W.
