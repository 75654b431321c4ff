(** * Witnesses and refutations for printing *)

From Coq Require QArith.QArith_base QArith.Qcanon.
From Coq Require Import ZArith NArith Bool Ascii String DecimalString SpecFloat List Lia.
From Verif Require Import Num Syntax ModelScalar Spec Base ModelShape ModelSC SpecArr ArrTop Witness ScalarWit ArrWit ModelEnv ModelString SpecString StringProofs.
Import ListNotations.
Local Open Scope num_scope.

(** ** Formatters that identify the numbers *)
Definition safe (c : ascii) : bool := existsb (Ascii.eqb c) (list_ascii_of_string "-/0123456789finzZ").
Lemma safe_sep c : safe c = true -> ~ separator c.
Proof.
  intro H. unfold safe in H. apply existsb_exists in H as (d & Hd & E). apply Ascii.eqb_eq in E. subst d. intros [S|S].
  - cbn in Hd, S. repeat (destruct Hd as [<-|Hd]; [repeat (destruct S as [S|S]; [discriminate S|]); destruct S|]). destruct Hd.
  - subst c. cbn in Hd. repeat (destruct Hd as [Hd|Hd]; [discriminate Hd|]). destruct Hd.
Qed.
Definition dash_digit (c : ascii) : bool := digit c || Ascii.eqb c "-".
Lemma int_chars z : Forall (fun c => dash_digit c = true) (L (print_int z)).
Proof.
  assert (H : forall d, Forall (fun c => dash_digit c = true) (L (NilEmpty.string_of_uint d))) by (intro d; eapply Forall_impl; [|apply uint_digits]; intros c Hc; unfold dash_digit; rewrite Hc; reflexivity).
  unfold print_int. destruct (Z.to_int z) as [d|d]; cbn; [apply H|]. constructor; [reflexivity | apply H].
Qed.
Lemma dash_digit_safe c : dash_digit c = true -> safe c = true.
Proof.
  unfold dash_digit. rewrite orb_true_iff. intros [H|H].
  - unfold digit in H. apply existsb_exists in H as (d & Hd & E). apply Ascii.eqb_eq in E. subst d. cbn in Hd. repeat (destruct Hd as [<-|Hd]; [reflexivity|]). destruct Hd.
  - apply Ascii.eqb_eq in H. subst c. reflexivity.
Qed.
Definition two_ints (a b : Z) : string := print_int a ++ "/" ++ print_int b.
Lemma L_two_ints a b : L (two_ints a b) = (L (print_int a) ++ "/"%char :: L (print_int b))%list.
Proof. unfold two_ints. rewrite !L_app. reflexivity. Qed.
Lemma two_ints_inj a b a' b' : two_ints a b = two_ints a' b' -> a = a' /\ b = b'.
Proof.
  intro H. apply (f_equal L) in H. rewrite !L_two_ints in H. apply (span dash_digit) in H as [H1 H2]; auto using int_chars; try reflexivity. injection H2 as H2. split; apply print_int_inj, L_inj; assumption.
Qed.
Lemma two_ints_safe a b : Forall (fun c => safe c = true) (L (two_ints a b)).
Proof.
  rewrite L_two_ints. apply Forall_app. split; [|constructor; [reflexivity|]]; (eapply Forall_impl; [|apply int_chars]; intros c; apply dash_digit_safe).
Qed.
Lemma two_ints_nonempty a b : two_ints a b <> EmptyString.
Proof. intro H. apply (f_equal L) in H. rewrite L_two_ints in H. destruct (L (print_int a)); discriminate H. Qed.

Definition print_fraction (q : Qcanon.Qc) : string := two_ints (QArith_base.Qnum (Qcanon.this q)) (Zpos (QArith_base.Qden (Qcanon.this q))).
Lemma fraction_identifies : @identifies QNum print_fraction.
Proof.
  split.
  - intros a b H. unfold print_fraction in H. apply two_ints_inj in H as [H1 H2]. injection H2 as H2. apply Qcanon.Qc_is_canon. destruct a as [[an ad] Ha], b as [[bn bd] Hb]. cbn in *. subst. reflexivity.
  - intros a. split; [apply two_ints_nonempty|]. intros c Hc. apply safe_sep. pose proof (two_ints_safe (QArith_base.Qnum (Qcanon.this a)) (Zpos (QArith_base.Qden (Qcanon.this a)))) as H. rewrite Forall_forall in H. apply H. exact Hc.
Qed.
(** the sign, the significand and the exponent of a float64 *)
Definition print_float (f : spec_float) : string :=
  match f with
  | S754_zero false => "z" | S754_zero true => "Z"
  | S754_infinity false => "i" | S754_infinity true => "-i"
  | S754_nan => "n"
  | S754_finite s m e => String "f" (two_ints (if s then Zneg m else Zpos m) e)
  end.
Lemma float_identifies : @identifies F64Num print_float.
Proof.
  split.
  - intros a b H. destruct a as [[]|[]| |s m e], b as [[]|[]| |s' m' e']; cbn [print_float] in H; try discriminate H; try reflexivity. injection H as H. apply two_ints_inj in H as [H1 H2]. subst e'.
    destruct s, s'; try discriminate H1; injection H1 as ->; reflexivity.
  - intros a. split; [destruct a as [[]|[]| |s m e]; discriminate|]. intros c Hc. apply safe_sep.
    destruct a as [[]|[]| |s m e]; cbn [print_float list_ascii_of_string] in Hc; try (cbn in Hc; repeat (destruct Hc as [<-|Hc]; [reflexivity|]); destruct Hc).
    destruct Hc as [<-|Hc]; [reflexivity|]. pose proof (two_ints_safe (if s then Zneg m else Zpos m) e) as H. rewrite Forall_forall in H. apply H. exact Hc.
Qed.

(** ** Expressions with the library's names *)
Section Exprs.
Context {NN : Num}.
Definition cx : var := continuous 0 0.
Definition cy : var := continuous 1 0.
(** 2 x_0^2 x_1 - 3 x_0 + 7 *)
Definition w_named : list Monomial := [mkMono (nofZ 2) [2; 1]%Z [cx; cy]; mkMono (nofZ (-3)) [1%Z] [cx]; mkMono (nofZ 7) [] []].
Definition w_named_vector : expr := EV (VP [w_named; [mkMono n1 [1%Z] [cy]]]).
Definition w_named_matrix : expr := EM (MK [[nofZ 1; nofZ 2]; [nofZ 3; nofZ 4]]).
End Exprs.
Definition namesb {NN : Num} (s : scalar) : bool :=
  forallb (fun m => forallb (fun v => String.eqb (v_name v) (index_name (N.to_nat (v_id v)))) (m_vars m)) (terms s).
Lemma namesb_spec {NN : Num} s : namesb s = true -> default_names s.
Proof.
  intros H m v Hm Hv. unfold namesb in H. rewrite forallb_forall in H. specialize (H m Hm). rewrite forallb_forall in H. specialize (H v Hv). apply String.eqb_eq in H. exact H.
Qed.
Lemma array_namesb_spec {NN : Num} d e : Forall (fun row => length row = snd d) (rows e) -> forallb (forallb namesb) (rows e) = true -> length (rows e) = fst d -> array_names d e.
Proof.
  intros Hr H L1 i j Hi Hj. apply namesb_spec. rewrite forallb_forall in H. rewrite Forall_forall in Hr. unfold entry.
  assert (I1 : In (nth i (rows e) []) (rows e)) by (apply nth_In; lia). specialize (H _ I1). rewrite forallb_forall in H. apply H. apply nth_In. rewrite (Hr _ I1). exact Hj.
Qed.
Definition plainb (s : scalar (NN := F64Num)) : bool := forallb (fun m : Monomial (NN := F64Num) => match (m_coeff m : spec_float) with S754_zero true => false | _ => true end) (tl (terms s)).
Lemma plainb_spec s : plainb s = true -> no_negative_zero s.
Proof. intros H m Hm E. unfold plainb in H. rewrite forallb_forall in H. specialize (H m Hm). rewrite E in H. discriminate H. Qed.

Section Q.
Local Existing Instance QNum.
Lemma wit_print_scalars : identifies print_fraction /\ valid (SP w_named) /\ default_names (SP w_named) /\ no_negative_zero (SP w_named)
  /\ exists s, scalar_string print_fraction (SP w_named) = Ok s /\ s = "2/1 x_0^2x_1 - 3/1 x_0 + 7/1"%string.
Proof.
  split; [exact fraction_identifies|]. split; [apply validb_spec; vm_compute; reflexivity|]. split; [apply namesb_spec; vm_compute; reflexivity|]. split; [apply exact_no_negative_zero|].
  eexists. split; [vm_compute; reflexivity | reflexivity].
Qed.
Lemma wit_print_arrays : identifies print_fraction /\ valid_array (2, 1) w_named_vector /\ array_names (2, 1) w_named_vector /\ array_no_negative_zero (2, 1) w_named_vector
  /\ valid_array (2, 2) w_named_matrix /\ array_names (2, 2) w_named_matrix /\ array_no_negative_zero (2, 2) w_named_matrix
  /\ expr_string print_fraction w_named_vector = Ok "PolynomialVector = [2/1 x_0^2x_1 - 3/1 x_0 + 7/1, x_1]"%string.
Proof.
  split; [exact fraction_identifies|]. split; [ar|]. split; [apply array_namesb_spec; [repeat constructor | vm_compute; reflexivity | reflexivity]|].
  split; [intros i j _ _; apply exact_no_negative_zero|]. split; [ar|]. split; [apply array_namesb_spec; [repeat constructor | vm_compute; reflexivity | reflexivity]|].
  split; [intros i j _ _; apply exact_no_negative_zero|]. vm_compute; reflexivity.
Qed.
Lemma wit_print_constraints : let c := mkSC (SP w_named) (SV cy) SenseLe in valid (sc_left c) /\ valid (sc_right c) /\ sc_sense c <> SenseOther /\ default_names (sc_left c) /\ default_names (sc_right c)
  /\ no_negative_zero (sc_left c) /\ no_negative_zero (sc_right c) /\ sc_string print_fraction c = Ok "2/1 x_0^2x_1 - 3/1 x_0 + 7/1 <= x_1"%string.
Proof.
  intro c. split; [apply validb_spec; vm_compute; reflexivity|]. split; [apply validb_spec; vm_compute; reflexivity|]. split; [discriminate|]. split; [apply namesb_spec; vm_compute; reflexivity|].
  split; [apply namesb_spec; vm_compute; reflexivity|]. split; [apply exact_no_negative_zero|]. split; [apply exact_no_negative_zero|]. vm_compute; reflexivity.
Qed.
End Q.
Lemma wit_print_float (NN := F64Num) : identifies print_float /\ valid (SP w_named) /\ default_names (SP w_named) /\ no_negative_zero (SP w_named).
Proof.
  split; [exact float_identifies|]. split; [apply validb_spec; vm_compute; reflexivity|]. split; [apply namesb_spec; vm_compute; reflexivity|]. apply plainb_spec. vm_compute. reflexivity.
Qed.

(** ** Refutations *)
Definition named_var {NN : Num} (n : nat) (s : string) : var := mkVar (N.of_nat n) n0 n1 67 s None.
(** a factor named "a" and a factor named "b", a variable named "ab" *)
Lemma names_refuted (NN : Num) (fmt : num -> string) : NN = F64Num \/ NN = QNum -> exists s t a, valid s /\ valid t /\ scalar_string fmt s = Ok a /\ scalar_string fmt t = Ok a /\ ~ same_printed s t.
Proof.
  intro H. exists (SM (mkMono n1 [1; 1]%Z [named_var 0 "a"; named_var 1 "b"])), (SV (named_var 2 "ab")), "ab"%string.
  assert (E : valid (SM (mkMono n1 [1; 1]%Z [named_var 0 "a"; named_var 1 "b"])) /\ valid (SV (named_var 2 "ab")) /\ (n1 =? n1) = true).
  { destruct H as [-> | ->]; (split; [apply validb_spec; vm_compute; reflexivity|]); (split; [apply validb_spec; vm_compute; reflexivity|]); vm_compute; reflexivity. }
  destruct E as (E1 & E2 & E3). split; [exact E1|]. split; [exact E2|]. split; [|split; [reflexivity|]].
  - cbn [scalar_string]. unfold mono_string. rewrite (valid_mono_check _ E1). cbn. rewrite E3. reflexivity.
  - intro C. inversion C as [|? ? ? ? (_ & C1 & _) _]; subst. discriminate C1.
Qed.
(** the first variables of two environments *)
Lemma environments_refuted (NN : Num) (fmt : num -> string) : exists v w, In v (fst (run_calls empty_store [NewContinuous [0%N]; NewContinuous [1%N]])) /\ In w (fst (run_calls empty_store [NewContinuous [0%N]; NewContinuous [1%N]]))
  /\ v_env v <> v_env w /\ scalar_string fmt (SV v) = scalar_string fmt (SV w).
Proof. exists (continuous 0 0), (continuous 0 1). split; [left; reflexivity|]. split; [right; left; reflexivity|]. split; [discriminate | reflexivity]. Qed.
(** x_0 + 0 x_1 and x_0 + (-0) x_1 *)
Lemma negative_zero_refuted (NN := F64Num) (fmt : num -> string) : exists s t a, valid s /\ valid t /\ default_names s /\ default_names t /\ scalar_string fmt s = Ok a /\ scalar_string fmt t = Ok a /\ ~ same_printed s t.
Proof.
  exists (SP [mkMono n1 [1%Z] [cx]; mkMono n0 [1%Z] [cy]]), (SP [mkMono n1 [1%Z] [cx]; mkMono (- n0) [1%Z] [cy]]).
  eexists. split; [apply validb_spec; vm_compute; reflexivity|]. split; [apply validb_spec; vm_compute; reflexivity|]. split; [apply namesb_spec; vm_compute; reflexivity|]. split; [apply namesb_spec; vm_compute; reflexivity|].
  split; [vm_compute; reflexivity|]. split; [vm_compute; reflexivity|]. intro C. inversion C as [|? ? ? ? _ C1]; subst. inversion C1 as [|? ? ? ? (C2 & _) _]; subst. discriminate C2.
Qed.
(** every matrix of numbers with at least two rows *)
Lemma no_bracket {NN : Num} (fmt : num -> string) : identifies fmt -> forall k, count_occ ascii_dec (L (fmt k)) "["%char = 0%nat /\ count_occ ascii_dec (L (fmt k)) "]"%char = 0%nat.
Proof. intros [_ H] k. destruct (H k) as [_ H2]. split; apply count_occ_not_In; intro C; apply (H2 _ C); left; cbn; tauto. Qed.
Lemma count_row {NN : Num} (fmt : num -> string) n l : identifies fmt -> forall i, exists s, print_list (fun k => Ok (fmt k)) "," "" n i l = Ok s /\ occurrences "[" s = 0%nat /\ occurrences "]" s = 0%nat.
Proof.
  intros HI. induction l as [|k l IH]; intros i; cbn [print_list bind]; [exists ""%string; repeat split|].
  destruct (IH (S i)) as (r & -> & H1 & H2). cbn [bind]. eexists. split; [reflexivity|].
  unfold occurrences in *. rewrite !L_app, !count_occ_app, H1, H2. destruct (no_bracket fmt HI k) as [-> ->]. destruct (Nat.eqb (S i) n); split; reflexivity.
Qed.
Lemma count_rows {NN : Num} (fmt : num -> string) c n l : identifies fmt -> l <> [] -> forall i, n = (i + length l)%nat ->
  exists s, print_list (fun row => enclose "[" "]" (print_list (fun k => Ok (fmt k)) "," "" c 0 row)) ("," ++ newline ++ " [") ("]" ++ newline) n i l = Ok s
  /\ S (occurrences "[" s) = (2 * length l)%nat /\ occurrences "]" s = S (length l).
Proof.
  intros HI. induction l as [|row l IH]; intros Hne i Hn; [congruence|]. cbn [print_list]. destruct (count_row fmt c row HI 0) as (s & Es & H1 & H2). rewrite Es. cbn [enclose bind]. destruct l as [|row' l].
  - cbn [print_list bind length] in *. destruct (Nat.eqb_spec (S i) n) as [_|D]; [|lia]. eexists. split; [reflexivity|]. unfold occurrences in *. rewrite !L_app, !count_occ_app, H1, H2. split; reflexivity.
  - destruct (IH ltac:(discriminate) (S i)) as (r & Er & H3 & H4); [cbn in Hn |- *; lia|]. rewrite Er. cbn [bind]. destruct (Nat.eqb_spec (S i) n) as [D|_]; [cbn in Hn; lia|]. eexists. split; [reflexivity|].
    unfold occurrences in *. rewrite !L_app, !count_occ_app, H1, H2, H4. cbn [length] in *.
    split; [|cbn; lia]. change (S (1 + (1 + (0 + (0 + count_occ ascii_dec (L r) "["%char)))) = (2 * S (S (length l)))%nat)%nat. lia.
Qed.
Lemma brackets {NN : Num} (fmt : num -> string) d l : identifies fmt -> valid_array d (EM (MK l)) ->
  exists s, expr_string fmt (EM (MK l)) = Ok s /\ occurrences "[" s = (2 * fst d)%nat /\ occurrences "]" s = S (fst d).
Proof.
  intros HI V. destruct (valid_array_check d _ V) as [_ D]. cbn [expr_dims] in D. cbn [expr_string mat_string]. rewrite D. cbn [bind]. destruct V as (H1 & _ & (S1 & _) & _). cbn [rows] in S1. rewrite map_length in S1.
  destruct (count_rows fmt (snd d) (fst d) l HI) with (i := 0%nat) as (s & E & H2 & H3); [intro X; subst l; cbn in S1; lia | lia|]. rewrite E. cbn [enclose bind]. eexists. split; [reflexivity|].
  unfold occurrences in *. rewrite !L_app, !count_occ_app, H3. cbn [list_ascii_of_string]. split.
  - change (1 + (count_occ ascii_dec (L s) "["%char + 0) = 2 * fst d)%nat. lia.
  - change (0 + (S (length l) + 0) = S (fst d))%nat. lia.
Qed.
Lemma brackets_refuted (NN : Num) : NN = F64Num \/ NN = QNum -> exists (fmt : num -> string) e s, identifies fmt /\ valid_array (2, 2) e /\ expr_string fmt e = Ok s /\ occurrences "[" s <> occurrences "]" s.
Proof.
  intro H. assert (F : exists fmt : num -> string, identifies fmt) by (destruct H as [-> | ->]; [exists print_float; exact float_identifies | exists print_fraction; exact fraction_identifies]).
  destruct F as (fmt & F). assert (V : valid_array (2, 2) w_named_matrix) by (destruct H as [-> | ->]; ar). destruct (brackets fmt _ _ F V) as (s & E & H1 & H2). exists fmt, w_named_matrix, s.
  split; [exact F|]. split; [exact V|]. split; [exact E|]. rewrite H1, H2. discriminate.
Qed.
