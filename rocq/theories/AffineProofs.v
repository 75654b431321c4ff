(** * Linear and affine maps: building them, comparing them and reading the coefficients back *)

From Coq Require Import ZArith NArith Bool List Lia Ring Field.
From Verif Require Import Num Syntax ModelScalar Spec Base ScalarValid Eval ScalarOps ScalarMore Unamb ModelShape ModelArith SpecArr Arr ArrPlus ArrMul ArrMulMat ArrMulAll ArrMulTop ArrTop ArrPow ArrShape ArrSub ArrFacts ArrOne SpecAProg ModelAProg AProgTop ModelConstr SpecCon SCProofs ConProofs ConVec.
Import ListNotations.
Local Open Scope num_scope.

Ltac cb := cbn [bind check].

Section Affine.
Context {NN : Num}.

Lemma plus_not_matrix a b e : not_matrix a -> not_matrix b -> expr_plus a (GExpr b) = Ok e -> not_matrix e.
Proof.
  assert (SE : forall x e, as_ES x = Ok e -> not_matrix e) by (intros x e0 E; pose proof (as_ES_scalar _ _ E); destruct e0; try exact I; contradiction).
  intros Na Nb E. destruct a as [s|v|m]; [| |destruct Na].
  - destruct b as [t|w|m]; [| |destruct Nb].
    + pose proof (plus_scalars _ _ _ E). destruct e; try exact I; contradiction.
    + destruct s as [k|x|m|p]; cbn [expr_plus] in E; unfold k_plus_any, var_plus_any, mono_plus_any, poly_plus_any in E; cbn [as_expr] in E;
        repeat match type of E with (_ <- ?c ;; _) = _ => destruct c; [|discriminate]; cbn [bind] in E end.
      * exact (vec_plus_not_matrix _ _ _ E).
      * apply (simplified_not_matrix _ _ E). intros e0 E0. exact (vec_plus_not_matrix _ _ _ E0).
      * discriminate.
      * destruct (Nat.eqb _ 1); [apply (simplified_not_matrix _ _ E); intros e0 E0; exact (SE _ _ E0)|]. destruct (mapM _ _); [|discriminate]. cbn [bind] in E.
        apply (simplified_not_matrix _ _ E). intros e0 E0. exact (concretize_slice_not_matrix _ _ E0).
  - exact (vec_plus_not_matrix _ _ _ E).
Qed.

Lemma fold_not_matrix {B} (f : expr -> B -> res expr) l : forall acc e, not_matrix acc -> (forall a x e, not_matrix a -> f a x = Ok e -> not_matrix e) -> foldM f acc l = Ok e -> not_matrix e.
Proof.
  induction l as [|x l IH]; intros acc e HA HF E; cbn [foldM] in E; [injection E as <-; exact HA|]. destruct (f acc x) as [a|] eqn:Ea; [|discriminate]. cbn [bind] in E. exact (IH a e (HF acc x a HA Ea) HF E).
Qed.

Lemma k_mat_mul_vars_not_matrix l xs e : k_mat_mul_vars l xs = Ok e -> not_matrix e.
Proof.
  unfold k_mat_mul_vars. destruct (rows_dims l) as [d|]; [|discriminate]. cbn [bind]. destruct (Nat.eqb (fst d) 1).
  - intro E. pose proof (as_ES_scalar _ _ E). destruct e; try exact I; contradiction.
  - destruct (zeros_vector (fst d)) as [z|]; [|discriminate]. cbn [bind]. apply fold_not_matrix; [exact I|]. intros a c e' Ha E.
    repeat match type of E with (_ <- ?c ;; _) = _ => destruct c eqn:?; [|discriminate]; cbn [bind] in E end.
    apply (plus_not_matrix a _ _ Ha) in E; [exact E|].
    match goal with H : simplify_result (simplify_result _) = Ok _ |- _ => apply (simplified_not_matrix _ _ H); intros e0 E0; apply (simplified_not_matrix _ _ E0); clear; intros e0 E0 end.
    unfold var_mul_vec in E0. repeat match type of E0 with (_ <- ?c ;; _) = _ => destruct c eqn:?; [|discriminate]; cbn [bind] in E0 end.
    apply (simplified_not_matrix _ _ E0). clear. intros e0 E0. unfold vec_mul_template in E0. destruct (mapM _ _); [|discriminate]. exact (concretize_slice_not_matrix _ _ E0).
Qed.

Lemma tall_is_vector m e : 2 <= m -> not_matrix e -> valid_array (m, 1) e -> exists v, e = EV v.
Proof. intros Hm N V. destruct e as [s|v|w]; [| eauto | destruct N]. pose proof (valid_array_ES _ _ V) as E. injection E as E. lia. Qed.

Lemma simplify_collected d x e : simplify_result x = Ok e -> (forall e0, x = Ok e0 -> valid_array d e0) -> array_collected e.
Proof.
  unfold simplify_result. destruct x as [e0|]; [|discriminate]. cbn [bind]. intros E H. pose proof (simplified_collected d e0 e (H e0 eq_refl) E) as A.
  intros row s R1 R2. destruct A as [L A]. destruct (In_nth_error _ _ R1) as (i & Ei). assert (Hi : i < fst d). { rewrite <- L. apply nth_error_Some. congruence. }
  destruct (A i Hi) as (row' & Er & Lr & HR). rewrite Ei in Er. injection Er as <-. destruct (In_nth_error _ _ R2) as (j & Ej). assert (Hj : j < snd d). { rewrite <- Lr. apply nth_error_Some. congruence. }
  destruct (HR j Hj) as (s' & Es & _ & C). rewrite Ej in Es. injection Es as <-. exact C.
Qed.

Lemma linear_map_ok m n A xs : 2 <= m -> 1 <= n -> dense_shape (m, n) A -> length xs = n -> Forall valid_var xs ->
  exists v, expr_mul (EM (MK A)) (GExpr (EV (VV xs))) = Ok (EV v) /\ valid_array (m, 1) (EV v) /\ array_degree 1 (EV v) /\ array_collected (EV v) /\ occurs_in xs (EV v)
   /\ (ExactNum NN -> forall r i, i < m -> value r (EV v) i 0 = sum_to (fun j => at_ij A i j * var_at r xs j) n).
Proof.
  intros Hm Hn HA L HV. pose proof (vars_array n xs Hn L HV) as Vx. assert (VA : valid_array (m, n) (EM (MK A))) by (apply numbers_array; [cbn; lia | cbn; lia | exact HA]).
  set (a := EM (MK A)) in *. set (b := EV (VV xs)) in *.
  assert (HB : product_dims a b (m, n) (n, 1)%nat (m, 1)%nat) by (right; right; repeat split; auto).
  destruct (array_multiply_total a b (GExpr b) (m, n) (n, 1)%nat (m, 1)%nat VA Vx eq_refl HB eq_refl eq_refl eq_refl) as (e & E).
  pose proof (array_multiply_shape a b (GExpr b) (m, n) (n, 1)%nat (m, 1)%nat e VA Vx eq_refl HB E) as Ve.
  pose proof (k_mat_mul_vars_good _ _ _ (plus_zero_zero _) (product_HP a b) (m, n) _ _ A xs (ltac:(cbn; lia)) Hn (valid_array_cden _ a _ VA) (valid_array_cden _ b _ Vx)) as (e0 & E0 & G0). cbn [fst snd] in G0.
  assert (V0 : valid_array (m, 1) e0) by (apply (arr_valid (m, 1)%nat _ e0 (ltac:(cbn; lia)) (le_n 1) G0); intros i j s (X & _); exact X).
  assert (ES0 : simplify_result (Ok e0) = Ok e). { subst a b. cbn [expr_mul mat_mul] in E. unfold k_mat_mul in E. destruct (operand_check _ _ _); [|discriminate]. cbn [bind] in E. rewrite E0 in E. exact E. }
  assert (NM : not_matrix e) by (apply (simplified_not_matrix _ _ ES0); intros e1 [= <-]; exact (k_mat_mul_vars_not_matrix _ _ _ E0)).
  destruct (tall_is_vector m e Hm NM Ve) as (v & ->). exists v. split; [exact E|]. split; [exact Ve|].
  pose proof (multiply_rgood a b (GExpr b) (m, n) (n, 1)%nat (m, 1)%nat VA Vx eq_refl HB _ E) as GR.
  assert (TM : forall f, has_term (EV v) f -> plus_zero (product_exps a b) f). { intros f Hf. destruct (arr_has_term _ _ _ _ f GR Hf) as (g & Hg & Efg). apply (plus_zero_ext _ f g); [|exact Hg|exact Efg]. intros f1 f2 (x & y & X & Y & Z) Q. exists x, y. split; [exact X|]. split; [exact Y|]. intro i. rewrite Q. apply Z. }
  assert (Na : forall f i, has_term a f -> f i = 0%Z).
  { intros f i (row & s & mm & R1 & R2 & R3 & R4). rewrite R4. subst a. cbn [rows] in R1. apply in_map_iff in R1. destruct R1 as (q & <- & _). apply in_map_iff in R2. destruct R2 as (k & <- & _). destruct R3 as [<-|[]]. reflexivity. }
  assert (Nb : forall f, has_term b f -> exists x, In x xs /\ forall i, f i = if N.eqb (v_id x) i then 1%Z else 0%Z).
  { intros f (row & s & mm & R1 & R2 & R3 & R4). subst b. cbn [rows] in R1. apply in_map_iff in R1. destruct R1 as (q & <- & Hq). destruct R2 as [<-|[]]. destruct R3 as [<-|[]]. exists q. split; [exact Hq|].
    intro i. rewrite R4. unfold exponent. cbn. destruct (N.eqb (v_id q) i); reflexivity. }
  assert (DF : degree_fn (product_exps a b) 1).
  { intros f (g & h & Hg & Hh & Ef) Ls HN. destruct (Nb h Hh) as (x & _ & Hx). rewrite (sumL_ext Ls f h) by (intros i _; rewrite Ef, (Na g i Hg); lia).
    assert (D1 : array_degree 1 b). { intros row s R1 R2. subst b. cbn [rows] in R1. apply in_map_iff in R1. destruct R1 as (q & <- & Hq). destruct R2 as [<-|[]]. repeat constructor; cbn; lia. }
    exact (has_term_degree _ b 1 Vx D1 h Hh Ls HN). }
  split; [exact (terms_degree (EV v) m 1 _ Ve TM DF)|]. split.
  { apply (simplify_collected (m, 1)%nat _ _ ES0). intros e1 [= <-]. exact V0. }
  split.
  { unfold occurs_in. apply (terms_occurs (EV v) m 1 _ _ Ve TM). intros f i (g & h & Hg & Hh & Ef) Hi. destruct (Nb h Hh) as (x & Hx & Hf). rewrite Ef, (Na g i Hg), Hf in Hi.
    destruct (N.eqb_spec (v_id x) i) as [<-|]; [apply in_map; exact Hx | lia]. }
  intros EX r i Hi. assert (HU : unambiguous_exponents (product_exps a b)). { apply degree_exponents. intros f Hf Ls HN. specialize (DF f Hf Ls HN). lia. }
  rewrite (array_multiply_value a b (GExpr b) (m, n) (n, 1)%nat (m, 1)%nat _ EX VA Vx eq_refl HB HU E r i 0%nat Hi (le_n 1)). cbn [product_value a b fst snd]. apply sum_to_ext. intros k Hk.
  subst a b. rewrite numbers_value, vars_value by lia. reflexivity.
Qed.

(** the constants of an affine map *)
Lemma affine_plus_ok m xs v b (phi : assignment -> nat -> num) : 2 <= m -> length b = m -> valid_array (m, 1) (EV v) -> array_degree 1 (EV v) -> occurs_in xs (EV v) ->
  (ExactNum NN -> forall r i, i < m -> value r (EV v) i 0 = phi r i) ->
  exists w, expr_plus (EV v) (GExpr (EV (VK b))) = Ok (EV w) /\ valid_array (m, 1) (EV w) /\ array_degree 1 (EV w) /\ array_collected (EV w) /\ occurs_in xs (EV w)
   /\ (ExactNum NN -> forall r i, i < m -> value r (EV w) i 0 = phi r i + nth i b n0).
Proof.
  intros Hm Lb Vv Dv Ov HP. assert (Vb : valid_array (m, 1) (EV (VK b))) by (apply const_vec_valid; [lia | exact Lb]).
  assert (HB : broadcast (EV v) (EV (VK b)) (m, 1)%nat (m, 1)%nat (m, 1)%nat) by (left; split; reflexivity).
  destruct (array_plus_total (EV v) (EV (VK b)) (GExpr (EV (VK b))) _ _ _ Vv Vb eq_refl HB) as (e & E); [destruct v; reflexivity | destruct v; reflexivity|].
  pose proof (array_plus_shape (EV v) (EV (VK b)) (GExpr (EV (VK b))) _ _ _ e Vv Vb eq_refl HB E) as Ve.
  pose proof (plus_not_matrix (EV v) (EV (VK b)) e I I E) as NM. destruct (tall_is_vector m e Hm NM Ve) as (w & ->). exists w. split; [exact E|]. split; [exact Ve|].
  pose proof (plus_rgood (EV v) (EV (VK b)) (GExpr (EV (VK b))) _ _ _ Vv Vb eq_refl HB _ E) as GR.
  assert (TM : forall f, has_term (EV w) f -> plus_zero (sum_exps (EV v) (EV (VK b))) f). { intros f Hf. destruct (arr_has_term _ _ _ _ f GR Hf) as (g & Hg & Efg). apply (plus_zero_ext _ f g); [|exact Hg|exact Efg].
    intros f1 f2 [X|X] Q; [left | right]; eapply has_term_ext; eassumption. }
  assert (DF : degree_fn (sum_exps (EV v) (EV (VK b))) 1). { intros f [X|X] Ls HN; [exact (has_term_degree _ _ 1 Vv Dv f X Ls HN)|]. rewrite sumL_zero by (intros; apply (const_vec_term _ _ X)). lia. }
  split; [exact (terms_degree (EV w) m 1 _ Ve TM DF)|]. split.
  { cbn [expr_plus] in E. unfold vec_plus in E. destruct (check (vec_check v) PCheck); [|discriminate]. cbn [bind] in E. destruct (operand_check _ _ _); [|discriminate]. cbn [bind] in E.
    apply (simplify_collected (m, 1)%nat _ _ E). intros e0 E0.
    pose proof (vec_plus_template_good _ (plus_zero_zero _) m (m, 1)%nat (fun i j r => value r (EV v) i j) (fun i j r => value r (EV (VK b)) i j) v (EV (VK b)) (ltac:(lia))
      (valid_array_den _ _ _ Vv (fun f X => or_introl (or_introl X))) (valid_array_den _ _ _ Vb (fun f X => or_introl (or_intror X))) (ltac:(cbn; lia)) I (or_introl eq_refl)) as (e1 & E1 & G1).
    rewrite E0 in E1. injection E1 as <-. apply (arr_valid (m, 1)%nat _ e0 (ltac:(cbn; lia)) (le_n 1) G1). intros i j s (X & _). exact X. }
  split.
  { unfold occurs_in. apply (terms_occurs (EV w) m 1 _ _ Ve TM). intros f i [X|X] Hi; [exact (Ov i (has_term_occurs _ _ f i Vv X Hi))|]. rewrite (const_vec_term _ _ X i) in Hi. lia. }
  intros EX r i Hi. assert (HU : unambiguous_exponents (sum_exps (EV v) (EV (VK b)))). { apply degree_exponents. intros f Hf Ls HN. specialize (DF f Hf Ls HN). lia. }
  rewrite (array_plus_value (EV v) (EV (VK b)) (GExpr (EV (VK b))) _ _ _ _ EX Vv Vb eq_refl HB HU E r i 0%nat Hi (le_n 1)). cbn [bvalue]. rewrite (HP EX r i Hi), const_vec_value by lia. reflexivity.
Qed.

(** ** Reading the coefficients back *)

Section Exact.
Context {EX : ExactNum NN}.
Add Ring afring : (@num_ring NN EX).

Lemma dot_sum r : forall l w n, length l = n -> length w = n -> dot r l w = sum_to (fun j => nth j l n0 * var_at r w j) n.
Proof.
  assert (S0 : forall f n, sum_to f (S n) = f 0%nat + sum_to (fun k => f (S k)) n). { intros f n. induction n as [|n IH]; cbn [sum_to]; [ring|]. cbn [sum_to] in IH. rewrite IH. ring. }
  induction l as [|c l IH]; intros w n Ll Lw; destruct w as [|x w]; cbn [length] in *; try lia; [subst n; reflexivity|]. destruct n as [|n]; [lia|]. cbn [dot]. rewrite S0. rewrite (IH w n) by lia. reflexivity.
Qed.

Definition at_one (i : N) : assignment := fun k => if N.eqb k i then n1 else n0.

Lemma var_at_one w j k : NoDup (map v_id w) -> j < length w -> k < length w -> var_at (at_one (nth j (map v_id w) 0%N)) w k = if Nat.eqb k j then n1 else n0.
Proof.
  intros HN Hj Hk. unfold var_at, at_one. destruct (nth_error_lt w k Hk) as [x Ex]. rewrite (nth_error_nth _ k n0 (map_nth_error (fun x => if N.eqb (v_id x) (nth j (map v_id w) 0%N) then n1 else n0) k w Ex)).
  pose proof (nth_error_nth _ k 0%N (map_nth_error v_id k w Ex)) as Ek. rewrite <- Ek. destruct (Nat.eqb_spec k j) as [->|NE]; [rewrite N.eqb_refl; reflexivity|].
  destruct (N.eqb_spec (nth k (map v_id w) 0%N) (nth j (map v_id w) 0%N)) as [Q|]; [|reflexivity]. exfalso. apply NE. apply (proj1 (NoDup_nth _ 0%N) HN) in Q; rewrite ?map_length; assumption.
Qed.

Lemma sum_at_one w n j f : NoDup (map v_id w) -> length w = n -> j < n -> sum_to (fun k => f k * var_at (at_one (nth j (map v_id w) 0%N)) w k) n = f j.
Proof.
  intros HN L Hj. rewrite (sum_to_ext _ (fun k => f k * (if Nat.eqb k j then n1 else n0))) by (intros k Hk; rewrite var_at_one by (assumption || lia); reflexivity).
  rewrite (ArrMisc.sum_to_pick_r EX). destruct (Nat.ltb_spec j n); [reflexivity | lia].
Qed.

Lemma sum_at_zero w n f : sum_to (fun k => f k * var_at (fun _ => n0) w k) n = n0.
Proof.
  rewrite (sum_to_ext _ (fun _ => n0)); [apply (sum_to_zero EX)|]. intros k _. replace (var_at (fun _ => n0) w k) with n0; [ring|]. unfold var_at. revert k. induction w as [|x w IH]; intros [|k]; cbn; auto.
Qed.

Lemma matrix_eq m n (A B : list (list num)) : dense_shape (m, n) A -> dense_shape (m, n) B -> (forall i j, i < m -> j < n -> at_ij A i j = at_ij B i j) -> A = B.
Proof.
  intros [LA HA] [LB HB] H. cbn [fst snd] in *. apply (nth_ext _ _ [] []); [lia|]. intros i Hi. apply (nth_ext _ _ n0 n0).
  - rewrite Forall_forall in HA, HB. rewrite (HA (nth i A [])) by (apply nth_In; lia). rewrite (HB (nth i B [])) by (apply nth_In; lia). reflexivity.
  - intros j Hj. apply H; [lia|]. rewrite Forall_forall in HA. rewrite (HA (nth i A [])) in Hj by (apply nth_In; lia). exact Hj.
Qed.

(** two affine systems with equal values have equal coefficients *)
Lemma coefficients_unique m w A b M q : NoDup (map v_id w) -> dense_shape (m, length w) A -> length b = m -> dense_shape (m, length w) M -> length q = m ->
  (forall r i, i < m -> dot r (nth i A []) w - nth i b n0 = sum_to (fun j => at_ij M i j * var_at r w j) (length w) - nth i q n0) -> A = M /\ b = q.
Proof.
  intros HN HA Lb HM Lq H.
  assert (HD : forall r i, i < m -> dot r (nth i A []) w = sum_to (fun j => at_ij A i j * var_at r w j) (length w)).
  { intros r i Hi. apply dot_sum; [|reflexivity]. destruct HA as [LA HA]. cbn [fst snd] in *. rewrite Forall_forall in HA. apply HA, nth_In. lia. }
  assert (Hb : forall i, i < m -> nth i b n0 = nth i q n0).
  { intros i Hi. pose proof (H (fun _ => n0) i Hi) as X. rewrite HD in X by exact Hi. rewrite !sum_at_zero in X. replace (nth i b n0) with (n0 - (n0 - nth i b n0)) by ring. rewrite X. ring. }
  split.
  - apply (matrix_eq m (length w)); try assumption. intros i j Hi Hj. pose proof (H (at_one (nth j (map v_id w) 0%N)) i Hi) as X. rewrite HD in X by exact Hi.
    rewrite !sum_at_one in X by (reflexivity || assumption). rewrite (Hb i Hi) in X. replace (at_ij A i j) with (at_ij A i j - nth i q n0 + nth i q n0) by ring. rewrite X. ring.
  - apply (nth_ext _ _ n0 n0); [lia|]. intros i Hi. apply Hb. lia.
Qed.

Section Con.
Variables (m : nat) (c : vector_constraint) (w : list var) (M : list (list num)) (q : list num).
Context (Hm : 2 <= m) (V : valid_con (m, 1) (CV c)) (HS : vc_sense c <> SenseOther).
Context (D1 : array_degree 1 (EV (vc_left c))) (D2 : array_degree 1 (EV (vc_right c))) (C1 : array_collected (EV (vc_left c))) (C2 : array_collected (EV (vc_right c))).
Context (Vw : Forall valid_var w) (HN : NoDup (map v_id w)) (O1 : occurs_in w (EV (vc_left c))) (O2 : occurs_in w (EV (vc_right c))).
Context (HM : dense_shape (m, length w) M) (Lq : length q = m) (HZ : no_zero_row m (length w) M).
Context (HV : forall r i, i < m -> value r (EV (vc_left c)) i 0 - value r (EV (vc_right c)) i 0 = sum_to (fun j => at_ij M i j * var_at r w j) (length w) - nth i q n0).

Lemma rows_involve_variables : involves_variables (m, 1) (CV c).
Proof.
  intros i Hi. cbn [con_left con_right fst] in *. destruct (HZ i Hi) as (j & Hj & NZ). exists (at_one (nth j (map v_id w) 0%N)), (fun _ => n0). rewrite !HV by exact Hi.
  rewrite sum_at_zero, sum_at_one by (reflexivity || assumption). intro Q. apply NZ. replace (at_ij M i j) with (at_ij M i j - nth i q n0 + nth i q n0) by ring. rewrite Q. ring.
Qed.

Lemma coefficients_read : exists u, vc_moved c = Ok u /\ vec_linear_coeff u [w] = Ok M /\ vc_constants c = Ok q.
Proof.
  assert (Nw : w <> []). { destruct (HZ 0%nat) as (j & Hj & _); [lia|]. destruct w; [cbn in Hj; lia | discriminate]. }
  destruct (vec_representation m c w Hm V D1 D2 C1 C2 Nw Vw HN) as (u & b & Eu & Vu & Eb & Lb & HA & HI); [intros i [X|X]; [exact (O1 i X) | exact (O2 i X)]|].
  destruct (HA (HI rows_involve_variables)) as (A & EA & SA & H). destruct (coefficients_unique m w A b M q HN SA Lb HM Lq) as [-> ->]; [intros r i Hi; rewrite H by exact Hi; exact (HV r i Hi)|].
  eauto.
Qed.

Lemma exact_inequality : vc_sense c = SenseLe -> vc_linear_inequality c [w] = Ok (M, q).
Proof.
  intro E. unfold vc_linear_inequality. rewrite (vc_check_ok m c V). cb. rewrite (vc_require_linear_ok m c V D1 D2). cb. rewrite E. cb. destruct coefficients_read as (u & Eu & EA & Eb). rewrite Eu. cb. rewrite EA. cb. rewrite Eb. reflexivity.
Qed.
Lemma exact_inequality_ge : vc_sense c = SenseGe -> vc_linear_inequality c [w] = Ok (map (map (fun x => - x)) M, map (fun x => - x) q).
Proof.
  intro E. unfold vc_linear_inequality. rewrite (vc_check_ok m c V). cb. rewrite (vc_require_linear_ok m c V D1 D2). cb. rewrite E. cb. destruct coefficients_read as (u & Eu & EA & Eb). rewrite Eu. cb. rewrite EA. cb. rewrite Eb. cb.
  assert (Q : forall x : num, nm1 * x = - x) by (intro x; rewrite (nm1_exact (EX := EX)); ring).
  rewrite (map_ext _ (map (fun x => - x)) (fun l => map_ext _ _ Q l)), (map_ext _ (fun x => - x) Q). reflexivity.
Qed.
Lemma exact_equality : vc_sense c = SenseEq -> vc_linear_equality c [w] = Ok (M, q).
Proof.
  intro E. unfold vc_linear_equality. rewrite (vc_check_ok m c V). cb. rewrite (vc_require_linear_ok m c V D1 D2). cb. rewrite E. cb. destruct coefficients_read as (u & Eu & EA & Eb). rewrite Eu. cb. rewrite EA. cb. rewrite Eb. reflexivity.
Qed.
End Con.
End Exact.

End Affine.
