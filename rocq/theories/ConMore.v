(** * Matrix constraints, substitution, variables and implication *)

From Coq Require Import ZArith NArith Bool List Lia Ring Permutation.
From Verif Require Import Num Syntax ModelScalar Spec Base ScalarValid Eval ScalarOps ScalarMore ScalarNorm Unamb ScalarLin SpecProg Programs
  ListFacts ScalarFacts ModelSC Order SCProofs SCImplies ModelShape ModelArith SpecArr Arr ArrPlus ArrMul ArrMulMat ArrMulAll ArrMulTop ArrTop ArrPow ArrShape
  ScalarOver ArrMisc ArrSub ArrFacts ModelConstr SpecCon ConProofs ConVec.
Import ListNotations.
Local Open Scope num_scope.

Section ConMore.
Context {NN : Num}.

Ltac cb := cbn [bind check].

(** ** AsSimplifiedConstraint on matrix constraints *)

Lemma mat_constant_total d m : valid_array d (EM m) -> exists k, mat_constant m = Ok k /\ dense_shape d k.
Proof.
  intro V. destruct (valid_array_check _ _ V) as [C D]. cbn [expr_check expr_dims] in C, D.
  destruct V as (D1 & D2 & [L F] & _). rewrite rows_EM in L, F.
  assert (Z : zeros_matrix (fst d) (snd d) = Ok (repeat (repeat n0 (snd d)) (fst d))).
  { unfold zeros_matrix. destruct (fst d) as [|a]; [lia|]. destruct (snd d) as [|b]; [lia|]. reflexivity. }
  assert (SH : forall A (f : A -> num) (g : A -> scalar) (l : list (list A)), length (map (map g) l) = fst d -> Forall (fun row => length row = snd d) (map (map g) l) ->
             dense_shape d (map (map f) l)).
  { intros A f g l HL HF. rewrite map_length in HL. split; [rewrite map_length; exact HL|]. rewrite Forall_forall in *. intros r Hr. apply in_map_iff in Hr. destruct Hr as (r0 & <- & Hr).
    rewrite map_length. rewrite <- (map_length g). apply HF. apply in_map. exact Hr. }
  destruct m as [l|l|l|l]; cbn [mat_constant mat_rows] in *.
  - rewrite (k_to_dense_grid d (fun _ _ _ => True) l D1 D2).
    + exists l. split; [reflexivity|]. rewrite <- (map_id l). rewrite <- (map_ext (map (fun x => x)) (fun x => x)) by (intro; apply map_id). apply (SH _ _ SK); assumption.
    + rewrite map_length in L. split; [exact L|]. intros i Hi. destruct (nth_error l i) as [r|] eqn:E; [|apply nth_error_None in E; lia]. exists r. split; [reflexivity|].
      assert (Lr : length r = snd d). { rewrite Forall_forall in F. rewrite <- (map_length SK r). apply F. apply in_map. eapply nth_error_In. exact E. }
      split; [exact Lr|]. intros j Hj. destruct (nth_error r j) as [a|] eqn:Ea; [|apply nth_error_None in Ea; lia]. exists a. auto.
  - rewrite D. cb. rewrite Z. eexists. split; [reflexivity|]. split; [apply repeat_length|]. apply Forall_forall. intros r Hr. apply repeat_spec in Hr. subst. apply repeat_length.
  - rewrite D. cb. rewrite Z. cb. eexists. split; [reflexivity|]. apply (SH _ _ SM); assumption.
  - rewrite D. cb. rewrite Z. cb. assert (C' : forallb (forallb poly_check) l = true) by (cbn [mat_check] in C; unfold rows_check in C; destruct l; [discriminate|]; apply andb_true_iff in C; exact (proj2 C)). clear C. rename C' into C.
    rewrite (mapM_map (mapM poly_constant) (map pconst)).
    + eexists. split; [reflexivity|]. apply (SH _ _ SP); assumption.
    + intros r Hr. apply mapM_map. intros p Hp. apply poly_constant_ok. rewrite forallb_forall in C. specialize (C r Hr). rewrite forallb_forall in C. exact (C p Hp).
Qed.

Lemma bvalue_value d e r i j : valid_array d e -> i < fst d -> j < snd d -> bvalue r e i j = value r e i j.
Proof. intros V Hi Hj. destruct e as [s|v|m]; [|reflexivity|reflexivity]. rewrite (valid_array_ES _ _ V) in Hi, Hj. cbn in Hi, Hj. destruct i, j; try lia. reflexivity. Qed.

Lemma minus_facts d a b g e : valid_array d a -> valid_array d b -> means g = Some b -> expr_minus a g = Ok e ->
  valid_array d e /\ (forall f, has_term e f -> plus_zero (sum_exps a b) f)
  /\ (ExactNum NN -> unambiguous_exponents (sum_exps a b) -> forall r i j, i < fst d -> j < snd d -> value r e i j = value r a i j - value r b i j).
Proof.
  intros Va Vb M E. assert (HB : broadcast a b d d d) by (left; auto). split; [exact (array_minus_shape _ _ g _ _ _ e Va Vb M HB E)|]. split.
  - intros f Hf. pose proof (minus_rgood _ _ g _ _ _ Va Vb M HB e E) as G. destruct (arr_has_term _ _ _ _ _ G Hf) as (h & Hh & Eh). eapply plus_zero_ext; [|exact Hh|exact Eh].
    intros f1 g1 [X|X] Y; [left|right]; eapply has_term_ext; eassumption.
  - intros EX HU r i j Hi Hj. rewrite (array_minus_value _ _ g _ _ _ e EX Va Vb M HB HU E r i j Hi Hj). rewrite (bvalue_value d a), (bvalue_value d b) by assumption. reflexivity.
Qed.

Lemma const_mat_term l f : has_term (EM (MK l)) f -> forall i, f i = 0%Z.
Proof.
  intros (row & s & m & H1 & H2 & H3 & H4) i. cbn in H1. apply in_map_iff in H1. destruct H1 as (k & <- & _). apply in_map_iff in H2. destruct H2 as (x & <- & _).
  destruct H3 as [<-|[]]. rewrite H4. reflexivity.
Qed.

Lemma mat_without_constant_facts d m e : valid_array d (EM m) -> mat_without_constant m = Ok e -> exists k, mat_constant m = Ok k /\ dense_shape d k /\ valid_array d e
  /\ (forall f, has_term e f -> plus_zero (has_term (EM m)) f)
  /\ (ExactNum NN -> unambiguous_exponents (has_term (EM m)) -> forall r i j, i < fst d -> j < snd d -> value r e i j = value r (EM m) i j - dense_entry k i j).
Proof.
  intros V E. destruct (mat_constant_total d m V) as (k & Ek & Sk). exists k. split; [exact Ek|]. split; [exact Sk|].
  unfold mat_without_constant in E. rewrite Ek in E. cbn [bind] in E. pose proof V as (D1 & D2 & _). pose proof (dense_valid d k D1 D2 Sk) as Vk.
  destruct (minus_facts d _ (EM (MK k)) (GDense k) e V Vk eq_refl E) as (Ve & HT & HV).
  assert (SUB : forall f, sum_exps (EM m) (EM (MK k)) f -> plus_zero (has_term (EM m)) f).
  { intros f [H|H]; [left; exact H | right; exact (const_mat_term k f H)]. }
  split; [exact Ve|]. split.
  - intros f Hf. destruct (HT f Hf) as [X|X]; [exact (SUB f X) | right; exact X].
  - intros EX HU r i j Hi Hj. rewrite HV; [rewrite dense_value; reflexivity | exact EX | | exact Hi | exact Hj].
    refine (unambiguous_sub _ (plus_zero (has_term (EM m))) SUB _). apply plus_zero_unambiguous. exact HU.
Qed.

(** whenever it returns *)
Lemma mc_simplified_core d c c' : valid_con d (CM c) -> mc_simplified c = Ok c' ->
  valid_con d (CM c') /\ mc_sense c' = mc_sense c
  /\ (ExactNum NN -> unambiguous_exponents (sum_exps (EM (mc_left c)) (EM (mc_right c))) -> forall r i j, i < fst d -> j < snd d ->
      value r (EM (mc_left c')) i j - value r (EM (mc_right c')) i j = value r (EM (mc_left c)) i j - value r (EM (mc_right c)) i j).
Proof.
  intros (V1 & V2 & SO) E. cbn [con_left con_right con_sense] in V1, V2, SO. unfold mc_simplified in E.
  destruct (mat_without_constant (mc_left c)) as [l|] eqn:El; [|discriminate]. destruct (mat_without_constant (mc_right c)) as [rt|] eqn:Er; [|discriminate]. cbn [bind] in E.
  destruct (mat_without_constant_facts d _ _ V1 El) as (kl & Ekl & Skl & Vl & Tl & Hl). destruct (mat_without_constant_facts d _ _ V2 Er) as (kr & Ekr & Skr & Vr & Tr & Hr).
  destruct (expr_minus l (GExpr rt)) as [lhs|] eqn:Elhs; [|discriminate]. cbn [bind] in E. rewrite Ekr, Ekl in E. cbn [bind] in E.
  destruct (expr_minus (EM (MK kr)) (GDense kl)) as [rhs|] eqn:Erhs; [|discriminate]. cbn [bind] in E.
  pose proof V1 as (D1 & D2 & _). pose proof (dense_valid d kr D1 D2 Skr) as Vkr. pose proof (dense_valid d kl D1 D2 Skl) as Vkl.
  destruct (minus_facts d _ _ (GExpr rt) _ Vl Vr eq_refl Elhs) as (Vlhs & _ & Hlhs). destruct (minus_facts d _ (EM (MK kl)) (GDense kl) _ Vkr Vkl eq_refl Erhs) as (Vrhs & _ & Hrhs).
  destruct lhs as [?|?|lm]; try discriminate. destruct rhs as [?|?|rm]; try discriminate. injection E as <-. cbn [mc_left mc_right mc_sense con_left con_right].
  split; [split; [exact Vlhs|]; split; [exact Vrhs | exact SO]|]. split; [reflexivity|]. intros EX HU r i j Hi Hj.
  set (S := sum_exps (EM (mc_left c)) (EM (mc_right c))) in *.
  assert (SUB : forall f, sum_exps l rt f -> plus_zero S f).
  { intros f [H|H]; [destruct (Tl f H) as [X|X]; [left; left; exact X | right; exact X] | destruct (Tr f H) as [X|X]; [left; right; exact X | right; exact X]]. }
  assert (HL : unambiguous_exponents (has_term (EM (mc_left c)))) by (refine (unambiguous_sub _ S _ HU); intros f X; left; exact X).
  assert (HR : unambiguous_exponents (has_term (EM (mc_right c)))) by (refine (unambiguous_sub _ S _ HU); intros f X; right; exact X).
  rewrite (Hlhs EX (unambiguous_sub _ _ SUB (plus_zero_unambiguous S HU)) r i j Hi Hj), (Hl EX HL r i j Hi Hj), (Hr EX HR r i j Hi Hj).
  rewrite Hrhs; [|exact EX| |exact Hi|exact Hj].
  - rewrite !dense_value. exact (sub_sub_sub EX _ _ _ _).
  - refine (unambiguous_sub _ (plus_zero (fun _ => False)) _ _).
    + intros f [X|X]; right; exact (const_mat_term _ f X).
    + apply plus_zero_unambiguous. intros m1 m2 (_ & f & [] & _).
Qed.

(** vectors and matrices: whenever AsSimplifiedConstraint returns *)
Lemma con_simplified_sat d c c' : ExactNum NN -> valid_con d c -> unambiguous_exponents (sum_exps (con_left c) (con_right c)) -> con_simplified c = Ok c' ->
  (match c with CS _ => False | _ => True end) -> valid_con d c' /\ con_sense c' = con_sense c /\ forall r, con_sat r d c' <-> con_sat r d c.
Proof.
  intros EX V HU E HK. destruct c as [c|c|c]; [destruct HK| |]; cbn [con_simplified] in E.
  - pose proof (valid_vec_cols _ _ (proj1 V)) as Hc. destruct d as [n k]. cbn in Hc. injection Hc as ->.
    destruct (vc_simplified c) as [c1|] eqn:E1; [|discriminate]. injection E as <-. assert (Hn : 2 <= n).
    { pose proof V as (V1 & _). pose proof V1 as (H1 & _). cbn in H1. destruct (Nat.eq_dec n 1) as [->|]; [|lia]. destruct (vc_simplified_one c V) as (p & Ep). congruence. }
    destruct (vc_simplified_core n c Hn V) as (c2 & E2 & V' & S' & _). rewrite E1 in E2. injection E2 as <-. split; [exact V'|]. split; [exact S'|].
    exact (vc_simplified_sat n c c1 V HU E1).
  - destruct (mc_simplified c) as [c1|] eqn:E1; [|discriminate]. injection E as <-. destruct (mc_simplified_core d c c1 V E1) as (V' & S' & H). split; [exact V'|]. split; [exact S'|].
    intro r. unfold con_sat. cbn [con_left con_right con_sense]. rewrite S'.
    split; intros X i j Hi Hj; [apply (proj1 (holds_diff _ _ _ _ (mc_sense c) (H EX HU r i j Hi Hj))) | apply (proj2 (holds_diff _ _ _ _ (mc_sense c) (H EX HU r i j Hi Hj)))]; exact (X i j Hi Hj).
Qed.

(** *** Which matrix constraints panic *)

Lemma dense_grid d l : valid_array d (EM (MK l)) -> grid d (fun _ _ _ => True) l.
Proof.
  intros (_ & _ & [L F] & _). rewrite rows_EM in L, F. cbn [mat_rows] in L, F. rewrite map_length in L. split; [exact L|].
  intros i Hi. destruct (nth_error l i) as [r|] eqn:E; [|apply nth_error_None in E; lia]. exists r. split; [reflexivity|].
  assert (Lr : length r = snd d). { rewrite Forall_forall in F. rewrite <- (map_length SK r). apply F. apply in_map. eapply nth_error_In. exact E. }
  split; [exact Lr|]. intros j Hj. destruct (nth_error r j) as [a|] eqn:Ea; [|apply nth_error_None in Ea; lia]. exists a. auto.
Qed.

Lemma dims_mul_float d : dims_mul d (1%nat, 1%nat) = true.
Proof. unfold dims_mul, dims_scalar. rewrite orb_true_r. reflexivity. Qed.

Lemma k_times d l : valid_array d (EM (MK l)) -> expr_mul (EM (MK l)) (GFloat nm1) = Ok (EM (MK (map (map (fun x => nm1 * x)) l))).
Proof.
  intro V. destruct (valid_array_check _ _ V) as [C D]. cbn [expr_check expr_dims] in C, D. pose proof V as (D1 & D2 & _). cbn [expr_mul mat_mul]. unfold k_mat_mul, operand_check. cbn [as_expr].
  cbn [expr_check scalar_check check bind expr_dims]. rewrite D. cb. rewrite dims_mul_float. cb. unfold k_mat_mul_float. rewrite (k_to_dense_grid d _ l D1 D2 (dense_grid d l V)). reflexivity.
Qed.

Lemma dense_scaled d l f : dense_shape d l -> dense_shape d (map (map f) l).
Proof.
  intros [L F]. split; [rewrite map_length; exact L|]. rewrite Forall_forall in *. intros r Hr. apply in_map_iff in Hr. destruct Hr as (r0 & <- & Hr). rewrite map_length. exact (F r0 Hr).
Qed.

Lemma minus_dense d m k e : valid_array d (EM m) -> dense_shape d k -> expr_minus (EM m) (GDense k) = Ok e ->
  mat_plus m (GExpr (EM (MK (map (map (fun x => nm1 * x)) k)))) = Ok e.
Proof.
  intros V Sk E. pose proof (expr_minus_minus _ (GDense k) (EM (MK k)) _ E eq_refl) as X. unfold minus in X. pose proof V as (D1 & D2 & _).
  rewrite (k_times d k (dense_valid d k D1 D2 Sk)) in X. exact X.
Qed.

Lemma monomial_without_constant d l e : valid_array d (EM (MM l)) -> mat_without_constant (MM l) = Ok e -> False.
Proof.
  intros V E. destruct (mat_constant_total d _ V) as (k & Ek & Sk). unfold mat_without_constant in E. rewrite Ek in E. cbn [bind] in E.
  apply (minus_dense d _ _ _ V Sk) in E. cbn [mat_plus] in E. unfold mono_mat_plus in E. destruct (check (mat_check (MM l)) PCheck); [|discriminate]. cbn [bind] in E.
  destruct (operand_check _ _ _); discriminate.
Qed.

Lemma var_plus_zero_not_poly x k p : (n0 + k =? n0) = true -> var_plus_k x k = Ok (SP p) -> False.
Proof.
  intros Hk E. unfold var_plus_k in E. destruct (var_check x) eqn:Cx; [|discriminate]. cbn [check bind] in E. unfold poly_simplified in E.
  destruct (poly_simplify [var_to_mono x; k_to_mono k]) as [q|] eqn:EP; [|discriminate].
  assert (Q : exists m, q = [m]).
  { unfold poly_simplify in EP. destruct (poly_check _); [|discriminate]. cbn in EP. rewrite Hk in EP. cbn in EP. destruct (n1 =? n0); cbn in EP; injection EP as <-; eauto. }
  destruct Q as (m & ->). cbn [bind] in E. destruct (poly_degree [m]) as [dg|]; [|discriminate]. cbn [bind] in E.
  destruct (Z.eqb dg 0). { destruct (poly_constant [m]); discriminate. }
  match type of E with bind ?x _ = _ => destruct x as [[v|]|]; discriminate end.
Qed.

Lemma variable_without_constant d l e : (n0 + nm1 * n0 =? n0) = true -> valid_array d (EM (MV l)) -> mat_without_constant (MV l) = Ok e -> False.
Proof.
  intros HZ V E. destruct (mat_constant_total d _ V) as (k & Ek & Sk). unfold mat_without_constant in E. rewrite Ek in E. cbn [bind] in E.
  assert (Kz : k = repeat (repeat n0 (snd d)) (fst d)).
  { cbn [mat_constant] in Ek. destruct (valid_array_check _ _ V) as [_ D]. cbn [expr_dims] in D. rewrite D in Ek. cbn [bind] in Ek. unfold zeros_matrix in Ek.
    destruct V as (D1 & D2 & _). destruct (fst d) as [|a]; [lia|]. destruct (snd d) as [|b]; [lia|]. cbn in Ek. injection Ek as <-. reflexivity. }
  apply (minus_dense d _ _ _ V Sk) in E. cbn [mat_plus] in E. unfold var_mat_plus in E. destruct (check (mat_check (MV l)) PCheck); [|discriminate]. cbn [bind] in E.
  destruct (operand_check _ _ _); [|discriminate]. cbn [bind] in E. subst k. unfold var_mat_plus_k in E.
  destruct V as (D1 & D2 & [L F] & VE). rewrite rows_EM in L, F. cbn [mat_rows] in L, F. rewrite map_length in L.
  destruct l as [|row l]; [cbn in L; lia|]. cbn [map] in F. apply Forall_inv in F. rewrite map_length in F. destruct row as [|x row]; [cbn in F; lia|].
  destruct (fst d) as [|a1]; [lia|]. destruct (snd d) as [|b1]; [lia|]. cbn in E.
  destruct (var_plus_k x (nm1 * n0)) as [s|] eqn:Es; [|discriminate]. cbn in E. destruct s; try discriminate. exact (var_plus_zero_not_poly _ _ _ HZ Es).
Qed.

(** a VariableMatrix or a MonomialMatrix on either side *)
Lemma mc_simplified_panics d c : valid_con d (CM c) -> (n0 + nm1 * n0 =? n0) = true ->
  (exists s, (s = EM (mc_left c) \/ s = EM (mc_right c)) /\ (is_variable_matrix s = true \/ is_monomial_matrix s = true)) -> exists p, mc_simplified c = Panic p.
Proof.
  intros (V1 & V2 & _) HZ (s & Hs & HK). cbn [con_left con_right] in V1, V2.
  assert (X : forall m e, valid_array d (EM m) -> (is_variable_matrix (EM m) = true \/ is_monomial_matrix (EM m) = true) -> mat_without_constant m = Ok e -> False).
  { intros m e V [K|K] E; destruct m; try discriminate; [exact (variable_without_constant _ _ _ HZ V E) | exact (monomial_without_constant _ _ _ V E)]. }
  unfold mc_simplified. destruct (mat_without_constant (mc_left c)) as [l|p] eqn:El; cb; [|eauto]. destruct (mat_without_constant (mc_right c)) as [r|p] eqn:Er; cb; [|eauto].
  exfalso. destruct Hs as [->| ->]; [exact (X _ _ V1 HK El) | exact (X _ _ V2 HK Er)].
Qed.

(** *** Matrices of numbers *)

Lemma mapM_Forall {A B} (f : A -> res B) (P : B -> Prop) l l' : (forall a b, f a = Ok b -> P b) -> mapM f l = Ok l' -> Forall P l'.
Proof.
  intro H. revert l'. induction l as [|a l IH]; intros l' E; cbn in E; [injection E as <-; constructor|]. destruct (f a) eqn:Ef; [|discriminate]. cbn in E.
  destruct (mapM f l) as [m|]; [|discriminate]. cbn in E. injection E as <-. constructor; eauto.
Qed.

Definition number (s : scalar) : Prop := exists k, s = SK k.

Lemma concretize_numbers l m : concat l <> [] -> Forall (Forall number) l -> concretize_matrix l = Ok m -> exists ks, m = MK ks.
Proof.
  intros NE F E. unfold concretize_matrix in E. destruct l as [|r0 l]; [discriminate|]. destruct (check _ _) as [u|]; [|discriminate]. cbn [bind] in E.
  assert (A : forall s, In s (concat (r0 :: l)) -> number s). { intros s Hs. apply in_concat in Hs. destruct Hs as (r & H1 & H2). rewrite Forall_forall in F. specialize (F r H1). rewrite Forall_forall in F. exact (F s H2). }
  set (all := concat (r0 :: l)) in *. clearbody all.
  assert (NP : existsb is_p all = false) by (apply not_true_iff_false; intro H; apply existsb_exists in H; destruct H as (s & H1 & H2); destruct (A s H1) as (k & ->); discriminate).
  assert (NM : existsb is_m all = false) by (apply not_true_iff_false; intro H; apply existsb_exists in H; destruct H as (s & H1 & H2); destruct (A s H1) as (k & ->); discriminate).
  assert (NV : existsb is_v all = false) by (apply not_true_iff_false; intro H; apply existsb_exists in H; destruct H as (s & H1 & H2); destruct (A s H1) as (k & ->); discriminate).
  rewrite NP, NM, NV in E. rewrite andb_false_r in E. cbn [orb] in E. destruct all as [|s all]; [congruence|].
  destruct (A s (or_introl eq_refl)) as (k & ->). cbn [forallb is_v andb existsb is_k orb] in E.
  destruct (mapM (mapM to_k) (r0 :: l)) as [ks|]; [|discriminate]. cbn [bind] in E. injection E as <-. eauto.
Qed.

Lemma k_minus d l k g : valid_array d (EM (MK l)) -> valid_array d (EM (MK k)) -> (g = GDense k \/ g = GExpr (EM (MK k))) -> exists ks, expr_minus (EM (MK l)) g = Ok (EM (MK ks)).
Proof.
  intros Vl Vk Hg. destruct (valid_array_check _ _ Vl) as [Cl Dl]. destruct (valid_array_check _ _ Vk) as [Ck Dk]. pose proof Vl as (D1 & D2 & _).
  unfold expr_minus. rewrite Cl. cb. assert (Ag : as_expr g = Some (EM (MK k))) by (destruct Hg as [->| ->]; reflexivity). rewrite Ag. clear Hg Ag g.
  unfold operand_check at 1. cbn [as_expr]. rewrite Ck. cb. rewrite Dl. cb. rewrite Dk. cb. unfold dims_add at 1. rewrite dims_eqb_refl. cbn [orb check bind]. unfold minus. rewrite (k_times d k Vk). cb.
  cbn [expr_plus mat_plus]. unfold k_mat_plus.
  set (t := MK (map (map (fun x => nm1 * x)) k)). assert (Vt : valid_array d (EM t)).
  { apply dense_valid; try assumption. apply dense_scaled. destruct Vk as (_ & _ & [L F] & _). rewrite rows_EM in L, F. cbn [mat_rows] in L, F. rewrite map_length in L. split; [exact L|].
    rewrite Forall_forall in *. intros r Hr. rewrite <- (map_length SK r). apply F. apply in_map. exact Hr. }
  destruct (valid_array_check _ _ Vt) as [Ct Dt]. cbn [expr_check expr_dims] in Cl, Dl, Ct, Dt.
  unfold operand_check. cbn [as_expr expr_check expr_dims]. rewrite Ct. cb. rewrite Dl. cb. rewrite Dt. cb. unfold dims_add. rewrite dims_eqb_refl. cbn [orb check bind].
  rewrite (rows_dims_grid d _ l D1 (dense_grid d l Vl)). cb.
  destruct (mat_plus_template_good (plus_zero (sum_exps (EM (MK l)) (EM t))) (plus_zero_zero _) d (fun i j r => value r (EM (MK l)) i j) (fun i j r => value r (EM t) i j) (MK l) t D1 D2) as (e & E & _).
  { apply (plus_dens _ _ _ _ Vl Vt). } { apply (plus_dens _ _ _ _ Vl Vt). }
  unfold simplify_result. rewrite E. cb. destruct (mat_plus_template (MK l) t) as [m|] eqn:Em; [|discriminate]. cbn in E. injection E as <-.
  assert (K : exists ks, m = MK ks).
  { unfold mat_plus_template in Em. rewrite Cl, Ct in Em. cbn [check bind] in Em. rewrite Dl, Dt in Em. cbn [bind] in Em. rewrite dims_eqb_refl in Em. cbn [check bind] in Em.
    destruct (mapM _ _) as [rows|] eqn:Er; [|discriminate]. cbn [bind] in Em. apply (concretize_numbers rows m); [| |exact Em].
    - destruct (fst d) as [|a]; [lia|]. cbn [seq mapM] in Er. destruct (snd d) as [|b]; [lia|]. cbn [seq mapM] in Er. clear - Er. 
      intro X. 
      match type of Er with bind (bind ?u _) _ = _ => destruct u; [|discriminate] end. cbn [bind] in Er.
      match type of Er with bind (bind ?u _) _ = _ => destruct u; [|discriminate] end. cbn [bind] in Er.
      match type of Er with bind ?u _ = _ => destruct u; [|discriminate] end. cbn [bind] in Er. injection Er as <-. discriminate.
    - refine (mapM_Forall _ _ _ _ _ Er). intros i row Erow. refine (mapM_Forall _ _ _ _ _ Erow). intros j s Es. clear - Es.
      assert (N : forall l i j a, mat_get (MK l) i j = Ok a -> number a).
      { clear. intros l i j a E. cbn in E. 
        destruct (k_to_dense l); [|discriminate]. cbn in E. destruct (dense_at _ _ _); [|discriminate]. injection E as <-. eexists. reflexivity. }
      unfold t in Es.
      destruct (mat_get (MK l) i j) as [a|] eqn:Ea; [|discriminate]. cbn [bind] in Es. destruct (mat_get (MK (map _ _)) i j) as [b|] eqn:Eb; [|discriminate]. cbn [bind] in Es.
      destruct (N _ _ _ _ Ea) as (x & ->). destruct (N _ _ _ _ Eb) as (y & ->). cbn in Es. injection Es as <-. eexists. reflexivity. }
  destruct K as (ks & ->). exists ks. reflexivity.
Qed.

Lemma mc_simplified_numbers d l r s : valid_con d (CM (mkMC (MK l) (MK r) s)) -> exists l' r', mc_simplified (mkMC (MK l) (MK r) s) = Ok (mkMC (MK l') (MK r') s).
Proof.
  intros (V1 & V2 & _). cbn [con_left con_right mc_left mc_right] in V1, V2. unfold mc_simplified. cbn [mc_left mc_right mc_sense]. unfold mat_without_constant.
  destruct (mat_constant_total d _ V1) as (kl & El & Sl). destruct (mat_constant_total d _ V2) as (kr & Er & Sr). pose proof V1 as (D1 & D2 & _).
  pose proof (dense_valid d kl D1 D2 Sl) as Vkl. pose proof (dense_valid d kr D1 D2 Sr) as Vkr. rewrite El. cb.
  destruct (k_minus d l kl _ V1 Vkl (or_introl eq_refl)) as (a & Ea). rewrite Ea. cb. rewrite Er. cb.
  destruct (k_minus d r kr _ V2 Vkr (or_introl eq_refl)) as (b & Eb). rewrite Eb. cb.
  pose proof (array_minus_shape _ _ _ _ _ _ _ V1 Vkl (eq_refl : means (GDense kl) = _) (or_introl (conj eq_refl eq_refl)) Ea) as Va.
  pose proof (array_minus_shape _ _ _ _ _ _ _ V2 Vkr (eq_refl : means (GDense kr) = _) (or_introl (conj eq_refl eq_refl)) Eb) as Vb.
  destruct (k_minus d a b _ Va Vb (or_intror eq_refl)) as (x & Ex). rewrite Ex. cb.
  destruct (k_minus d kr kl _ Vkr Vkl (or_introl eq_refl)) as (y & Ey). rewrite Ey. cbn [bind as_matrix]. eauto.
Qed.

(** ** Substitute *)

Lemma con_substitute_sides d c x t l r : valid_con d c -> expr_substitute (con_left c) x t = Ok l -> expr_substitute (con_right c) x t = Ok r ->
  exists c', con_substitute c x t = Ok c' /\ con_left c' = l /\ con_right c' = r /\ con_sense c' = con_sense c.
Proof.
  intros V El Er. pose proof (valid_con_check d c V) as C. destruct c as [c|c|c]; cbn [con_check con_left con_right expr_substitute con_substitute con_sense] in *.
  - unfold sc_substitute. rewrite C. cb. destruct (scalar_substitute (sc_left c) x t); [|discriminate]. destruct (scalar_substitute (sc_right c) x t); [|discriminate]. cbn in *.
    injection El as <-. injection Er as <-. eexists. repeat split; reflexivity.
  - unfold vc_substitute. rewrite C. cb. destruct (vec_substitute (vc_left c) x t); [|discriminate]. destruct (vec_substitute (vc_right c) x t); [|discriminate]. cbn in *.
    injection El as <-. injection Er as <-. eexists. repeat split; reflexivity.
  - unfold mc_substitute. rewrite C. cb. destruct (mat_substitute (mc_left c) x t); [|discriminate]. destruct (mat_substitute (mc_right c) x t); [|discriminate]. cbn in *.
    injection El as <-. injection Er as <-. eexists. repeat split; reflexivity.
Qed.

Lemma con_substitute_total d c x t : valid_con d c -> valid_var x -> valid t -> exists c', con_substitute c x t = Ok c' /\ valid_con d c' /\ con_sense c' = con_sense c.
Proof.
  intros V Vx Vt. pose proof V as (V1 & V2 & S). destruct (array_substitute_total _ d x t V1 Vx Vt) as (l & El & Vl). destruct (array_substitute_total _ d x t V2 Vx Vt) as (r & Er & Vr).
  destruct (con_substitute_sides d c x t l r V El Er) as (c' & E & L & R & S'). exists c'. split; [exact E|]. split; [|exact S']. unfold valid_con. rewrite L, R, S'. auto.
Qed.

Lemma con_substitute_value d c x t : ExactNum NN -> valid_con d c -> valid_var x -> valid t ->
  (forall s, In s (entry_constraints d c) -> same_environment x (sc_left s) /\ same_environment x (sc_right s)
     /\ unambiguous_exponents (substituted_terms (replacement x t) (sc_left s)) /\ unambiguous_exponents (substituted_terms (replacement x t) (sc_right s))) ->
  exists c', con_substitute c x t = Ok c' /\ valid_con d c' /\ con_sense c' = con_sense c
    /\ forall r, con_sat r d c' <-> con_sat (update r (v_id x) (eval r t)) d c.
Proof.
  intros EX V Vx Vt H. pose proof V as (V1 & V2 & S).
  assert (HE : forall i j, i < fst d -> j < snd d -> In (mkSC (entry (con_left c) i j) (entry (con_right c) i j) (con_sense c)) (entry_constraints d c)) by (intros i j Hi Hj; apply entry_constraints_in; exists i, j; auto).
  destruct (array_substitute_value _ d x t EX V1 Vx Vt) as (l & El & Vl & Hl).
  { intros i j Hi Hj. destruct (H _ (HE i j Hi Hj)) as (A & _ & B & _). split; assumption. }
  destruct (array_substitute_value _ d x t EX V2 Vx Vt) as (r & Er & Vr & Hr).
  { intros i j Hi Hj. destruct (H _ (HE i j Hi Hj)) as (_ & A & _ & B). split; assumption. }
  destruct (con_substitute_sides d c x t l r V El Er) as (c' & E & L & R & S'). exists c'. split; [exact E|]. split; [unfold valid_con; rewrite L, R, S'; auto|]. split; [exact S'|].
  intro a. unfold con_sat. rewrite L, R, S'. split; intros X i j Hi Hj; specialize (X i j Hi Hj); [rewrite <- Hl, <- Hr by assumption | rewrite Hl, Hr by assumption]; exact X.
Qed.

Lemma con_substitute_degree2 d c x t dd D : ExactNum NN -> valid_con d c -> valid_var x -> valid t ->
  (forall s, In s (entry_constraints d c) -> same_environment x (sc_left s) /\ same_environment x (sc_right s)) ->
  array_degree dd (con_left c) -> array_degree dd (con_right c) -> degree_at_most D t -> (1 <= D)%Z -> (dd * D <= 2)%Z ->
  exists c', con_substitute c x t = Ok c' /\ valid_con d c' /\ con_sense c' = con_sense c
    /\ forall r, con_sat r d c' <-> con_sat (update r (v_id x) (eval r t)) d c.
Proof.
  intros EX V Vx Vt H Dl Dr DD D1 D2. pose proof V as (V1 & V2 & S).
  assert (HE : forall i j, i < fst d -> j < snd d -> In (mkSC (entry (con_left c) i j) (entry (con_right c) i j) (con_sense c)) (entry_constraints d c)) by (intros i j Hi Hj; apply entry_constraints_in; exists i, j; auto).
  destruct (array_substitute_degree2 _ d x t dd D EX V1 Vx Vt) as (l & El & Vl & Hl); try assumption.
  { intros i j Hi Hj. exact (proj1 (H _ (HE i j Hi Hj))). }
  destruct (array_substitute_degree2 _ d x t dd D EX V2 Vx Vt) as (r & Er & Vr & Hr); try assumption.
  { intros i j Hi Hj. exact (proj2 (H _ (HE i j Hi Hj))). }
  destruct (con_substitute_sides d c x t l r V El Er) as (c' & E & L & R & S'). exists c'. split; [exact E|]. split; [unfold valid_con; rewrite L, R, S'; auto|]. split; [exact S'|].
  intro a. unfold con_sat. rewrite L, R, S'. split; intros X i j Hi Hj; specialize (X i j Hi Hj); [rewrite <- Hl, <- Hr by assumption | rewrite Hl, Hr by assumption]; exact X.
Qed.

(** SubstituteAccordingTo on vectors and matrices; the two sides may visit the map in different orders *)
Lemma con_substitute_map_value d c sm sm' : ExactNum NN -> valid_con d c -> (match c with CS _ => False | _ => True end) -> valid_map sm -> Permutation sm sm' ->
  array_degree 2 (con_left c) -> array_degree 2 (con_right c) ->
  (forall k t, In (k, ES t) sm -> degree_at_most 1 t) ->
  (forall w, array_var w (con_left c) \/ array_var w (con_right c) \/ map_var w sm -> forall k, In k (map fst sm) -> v_id w = v_id k -> w = k) ->
  (forall k t k', In (k, ES t) sm -> In k' (map fst sm) -> ~ occurs (v_id k') t) ->
  exists c', con_substitute_map c sm sm' = Ok c' /\ valid_con d c' /\ con_sense c' = con_sense c
    /\ forall r r', (forall s, In s (entry_constraints d c) -> simultaneous r sm (sc_left s) r' /\ simultaneous r sm (sc_right s) r') -> (con_sat r d c' <-> con_sat r' d c).
Proof.
  intros EX V NS HM HP Dl Dr H1 HA HF. pose proof V as (V1 & V2 & S).
  assert (NSl : ~ is_scalar (con_left c)) by (destruct c; [destruct NS| |]; cbn; tauto). assert (NSr : ~ is_scalar (con_right c)) by (destruct c; [destruct NS| |]; cbn; tauto).
  destruct (array_substitute_map_value _ d sm EX V1 NSl HM Dl H1) as (l & El & Vl & Hl); [intros w [X|X]; apply HA; tauto | exact HF |].
  destruct (array_substitute_map_value _ d sm EX V2 NSr HM Dr H1) as (r0 & Er0 & Vr0 & Hr0); [intros w [X|X]; apply HA; tauto | exact HF |].
  destruct (array_substitute_map_order _ d sm sm' EX V2 NSr HM Dr H1) as (e1 & r & E1 & Er & Hr); [intros w [X|X]; apply HA; tauto | exact HF | exact HP |].
  rewrite Er0 in E1. injection E1 as <-.
  assert (Vr : valid_array d r).
  { assert (HM' : valid_map sm'). { clear - HM HP. unfold valid_map in *. repeat match goal with H : _ /\ _ |- _ => destruct H end. split.
      - eapply Permutation_NoDup; [apply Permutation_map, HP | assumption].
      - intros k e Hk. match goal with H : forall k e, In (k, e) sm -> _ |- _ => apply H end. eapply Permutation_in; [apply Permutation_sym, HP | exact Hk]. }
    destruct (array_substitute_map_total _ d sm' V2 NSr HM') as (r2 & E2 & V2'). rewrite Er in E2. injection E2 as <-. exact V2'. }
  assert (CC : exists c', con_substitute_map c sm sm' = Ok c' /\ con_left c' = l /\ con_right c' = r /\ con_sense c' = con_sense c).
  { pose proof (valid_con_check d c V) as C. destruct c as [c|c|c]; [destruct NS| |]; cbn [con_check con_left con_right expr_substitute_map con_substitute_map con_sense] in *.
    - unfold vc_substitute_map. rewrite C. cb. destruct (vec_substitute_map (vc_left c) sm); [|discriminate]. destruct (vec_substitute_map (vc_right c) sm'); [|discriminate]. cbn in *.
      injection El as <-. injection Er as <-. eexists. repeat split; reflexivity.
    - unfold mc_substitute_map. rewrite C. cb. destruct (mat_substitute_map (mc_left c) sm); [|discriminate]. destruct (mat_substitute_map (mc_right c) sm'); [|discriminate]. cbn in *.
      injection El as <-. injection Er as <-. eexists. repeat split; reflexivity. }
  destruct CC as (c' & E & L & R & S'). exists c'. split; [exact E|]. split; [unfold valid_con; rewrite L, R, S'; auto|]. split; [exact S'|].
  intros a a' HS. unfold con_sat. rewrite L, R, S'.
  assert (HE : forall i j, i < fst d -> j < snd d -> value a l i j = value a' (con_left c) i j /\ value a r i j = value a' (con_right c) i j).
  { intros i j Hi Hj. destruct (HS (mkSC (entry (con_left c) i j) (entry (con_right c) i j) (con_sense c))) as [A B]; [apply entry_constraints_in; exists i, j; auto|].
    split; [exact (Hl a a' i j Hi Hj A)|]. rewrite <- (Hr a i j Hi Hj). exact (Hr0 a a' i j Hi Hj B). }
  split; intros X i j Hi Hj; specialize (X i j Hi Hj); destruct (HE i j Hi Hj) as [A B]; [rewrite <- A, <- B | rewrite A, B]; exact X.
Qed.

(** ** VariablesInThisConstraint *)

Lemma con_variables_facts o d c : valid_con d c -> permutes o ->
  exists l, con_variables o c = Ok l
    /\ (forall i, In i (map v_id l) <-> array_occurs i (con_left c) \/ array_occurs i (con_right c))
    /\ (forall w, In w l -> array_var w (con_left c) \/ array_var w (con_right c))
    /\ (ExactNum NN -> NoDup l).
Proof.
  intros V Ho. unfold con_variables. rewrite (valid_con_check d c V). cb. destruct V as (V1 & V2 & _).
  destruct (array_variables _ d V1) as (l & El & _ & Ol & Al & _). destruct (array_variables _ d V2) as (r & Er & _ & Or & Ar & _).
  assert (X : match c with CS c => Ok (scalar_variables (sc_left c)) | CV c => vec_variables (vc_left c) | CM c => mat_variables (mc_left c) end = Ok l) by (destruct c; exact El).
  assert (Y : match c with CS c => Ok (scalar_variables (sc_right c)) | CV c => vec_variables (vc_right c) | CM c => mat_variables (mc_right c) end = Ok r) by (destruct c; exact Er).
  rewrite X, Y. cb. eexists. split; [reflexivity|]. set (K := insert_keys r (insert_keys l [])). split; [|split].
  - intro i. rewrite <- Ol, <- Or. assert (HP : In i (map v_id (o K)) <-> In i (map v_id K)) by (split; apply Permutation_in, Permutation_map; [apply Ho | apply Permutation_sym, Ho]).
    rewrite HP. unfold K. rewrite !insert_keys_ids. cbn. tauto.
  - intros w Hw. apply (Permutation_in _ (Ho K)) in Hw. unfold K in Hw. apply insert_keys_incl in Hw. destruct Hw as [Hw|Hw]; [right; exact (Ar w Hw)|].
    apply insert_keys_incl in Hw. destruct Hw as [Hw|[]]. left. exact (Al w Hw).
  - intro EX. eapply Permutation_NoDup; [apply Permutation_sym, Ho|]. apply insert_keys_nodup; [exact EX|]. apply insert_keys_nodup; [exact EX | constructor].
Qed.

Lemma con_variables_ids o d c : ExactNum NN -> valid_con d c -> permutes o ->
  (forall v w, (array_var v (con_left c) \/ array_var v (con_right c)) -> (array_var w (con_left c) \/ array_var w (con_right c)) -> v_id v = v_id w -> v = w) ->
  exists l, con_variables o c = Ok l /\ NoDup (map v_id l).
Proof.
  intros EX V Ho HE. destruct (con_variables_facts o d c V Ho) as (l & E & _ & A & N). exists l. split; [exact E|]. specialize (N EX). clear E.
  induction l as [|v l IH]; [constructor|]. inversion N as [|? ? N1 N2]; subst. cbn [map]. constructor; [|apply IH; [intros w Hw; apply A; right; exact Hw | exact N2]].
  intro Hi. apply in_map_iff in Hi. destruct Hi as (w & Ew & Hw). assert (w = v) by (apply HE; [apply A; right; exact Hw | apply A; left; reflexivity | exact Ew]). subst w. exact (N1 Hw).
Qed.

(** ** IsLinear *)

Lemma con_is_linear_ok d c : valid_con d c -> exists b, con_is_linear c = Ok b /\ (b = true <-> array_degree 1 (con_left c) /\ array_degree 1 (con_right c)).
Proof.
  intros (V1 & V2 & _). destruct (array_is_linear _ _ V1) as (b1 & E1 & H1). destruct (array_is_linear _ _ V2) as (b2 & E2 & H2).
  assert (G : exists b, (r <- expr_is_linear (con_right c) ;; if r : bool then expr_is_linear (con_left c) else Ok false) = Ok b /\ (b = true <-> array_degree 1 (con_left c) /\ array_degree 1 (con_right c))).
  { rewrite E2. cb. destruct b2; [rewrite E1; exists b1; split; [reflexivity|]; tauto|]. exists false. split; [reflexivity|]. split; [discriminate|]. intros [_ X]. exact (proj2 H2 X). }
  destruct c; exact G.
Qed.

(** ** ImpliesThisIsAlsoSatisfied *)

Lemma any_of_spec {A} (f : A -> res bool) l : (forall a, In a l -> exists b, f a = Ok b) -> exists b, any_of f l = Ok b /\ (b = true -> exists a, In a l /\ f a = Ok true).
Proof.
  induction l as [|a l IH]; intro H; cbn [any_of]; [exists false; split; [reflexivity | discriminate]|].
  destruct (H a (or_introl eq_refl)) as (b & E). rewrite E. cb. destruct b; [exists true; split; [reflexivity|]; intros _; exists a; split; [left; reflexivity | exact E]|].
  destruct IH as (b & Eb & Hb); [intros x Hx; apply H; right; exact Hx|]. exists b. split; [exact Eb|]. intro Hb1. destruct (Hb Hb1) as (x & H1 & H2). exists x. split; [right; exact H1 | exact H2].
Qed.

Lemma con_implies_sound {EX : ExactNum NN} (o : nat -> nat -> orders) d d' c other : valid_con d c -> valid_con d' other -> plain_con d c -> plain_con d' other ->
  (forall i j, permuting (o i j)) -> exists b, con_implies o c other = Ok b /\ (b = true -> forall r, con_sat r d c -> con_sat r d' other).
Proof.
  intros V V' HP HP' Ho. unfold con_implies. rewrite (valid_con_check d c V), (valid_con_check d' other V'). cb.
  assert (OS : forall s, other = CS s -> plain s /\ (forall r, satisfies r s -> con_sat r d' other)).
  { intros s ->. destruct V' as (V1 & _). pose proof (valid_array_ES _ _ V1) as ->. split.
    - apply HP'. apply entry_constraints_in. exists 0%nat, 0%nat. split; [exact (le_n 1)|]. split; [exact (le_n 1)|]. destruct s; reflexivity.
    - intros r Hs i j Hi Hj. cbn in Hi, Hj. destruct i, j; try lia. exact Hs. }
  assert (SUB : forall s, In s (entry_constraints d c) -> forall r, con_sat r d c -> satisfies r s).
  { intros s Hs r Hr. apply entry_constraints_sat in Hr. rewrite Forall_forall in Hr. exact (Hr s Hs). }
  destruct c as [c|c|c].
  - pose proof V as (V1 & V2 & SO). pose proof (valid_array_ES _ _ V1) as ->.
    assert (IN : In c (entry_constraints (1%nat, 1%nat) (CS c))) by (apply entry_constraints_in; exists 0%nat, 0%nat; split; [exact (le_n 1)|]; split; [exact (le_n 1)|]; destruct c; reflexivity).
    destruct other as [s|s|s].
    + destruct (OS s eq_refl) as [PS SS]. destruct (implies_sound (o 0%nat 0%nat) c s (HP c IN) PS (Ho 0%nat 0%nat)) as (b & E & H). exists b. split; [exact E|]. intros Hb r Hr. apply SS, (H Hb). exact (SUB c IN r Hr).
    + destruct (simplify_shape c (proj1 (HP c IN))) as (c1 & -> & _). cb. exists false. split; [reflexivity | discriminate].
    + destruct (simplify_shape c (proj1 (HP c IN))) as (c1 & -> & _). cb. exists false. split; [reflexivity | discriminate].
  - destruct other as [s|s|s]; try (exists false; split; [reflexivity | discriminate]). destruct (OS s eq_refl) as [PS SS].
    pose proof (valid_vec_cols _ _ (proj1 V)) as Ed. set (n := fst d) in Ed. clearbody n. subst d.
    unfold vc_len. rewrite (vc_check_ok n c V). cb. destruct (valid_vec_dims _ _ (proj1 V)) as (_ & L & _). rewrite L. cb.
    destruct (any_of_spec (fun i => s0 <- vc_at_vec c (Z.of_nat i);; sc_implies (o i 0%nat) s0 s) (seq 0 n)) as (b & E & H).
    + intros i Hi. apply in_seq in Hi. rewrite (vc_at_vec_ok n c i V) by lia. cb. refine (let '(ex_intro _ b (conj E _)) := implies_sound (o i 0%nat) _ s _ PS (Ho i 0%nat) in ex_intro _ b E).
      apply HP. apply entry_constraints_in. exists i, 0%nat. cbn [fst snd]. repeat split; lia.
    + exists b. split; [exact E|]. intros Hb r Hr. destruct (H Hb) as (i & Hi & X). apply in_seq in Hi. rewrite (vc_at_vec_ok n c i V) in X by lia. cbn [bind] in X.
      match type of X with sc_implies _ ?q _ = _ => assert (IN : In q (entry_constraints (n, 1%nat) (CV c))) by (apply entry_constraints_in; exists i, 0%nat; cbn [fst snd]; repeat split; lia) end.
      destruct (implies_sound (o i 0%nat) _ s (HP _ IN) PS (Ho i 0%nat)) as (b' & E' & H'). rewrite X in E'. injection E' as <-. apply SS, (H' eq_refl). exact (SUB _ IN r Hr).
  - destruct other as [s|s|s]; try (exists false; split; [reflexivity | discriminate]). destruct (OS s eq_refl) as [PS SS].
    unfold mc_dims. rewrite (mc_check_ok d c V). cb. destruct (valid_mat_dims _ _ (proj1 V)) as (_ & L). rewrite L. cb.
    set (f := fun i j => s0 <- mc_at c (Z.of_nat i) (Z.of_nat j);; sc_implies (o i j) s0 s).
    assert (F1 : forall i j, i < fst d -> j < snd d -> exists q b, In q (entry_constraints d (CM c)) /\ f i j = Ok b /\ (b = true -> forall r, satisfies r q -> satisfies r s)).
    { intros i j Hi Hj. unfold f. rewrite (mc_at_ok d c i j V Hi Hj). cb.
      match goal with |- context [sc_implies _ ?q _] => assert (IN : In q (entry_constraints d (CM c))) by (apply entry_constraints_in; exists i, j; repeat split; assumption); exists q end.
      destruct (implies_sound (o i j) _ s (HP _ IN) PS (Ho i j)) as (b & E & H). exists b. auto. }
    assert (F2 : forall i, i < fst d -> exists b, any_of (f i) (seq 0 (snd d)) = Ok b /\ (b = true -> exists j, In j (seq 0 (snd d)) /\ f i j = Ok true)).
    { intros i Hi. apply any_of_spec. intros j Hj. apply in_seq in Hj. destruct (F1 i j Hi) as (q & b & _ & E & _); [lia|]. eauto. }
    destruct (any_of_spec (fun i => any_of (f i) (seq 0 (snd d))) (seq 0 (fst d))) as (b & E & H).
    + intros i Hi. apply in_seq in Hi. destruct (F2 i) as (b & E & _); [lia|]. eauto.
    + exists b. split; [exact E|]. intros Hb r Hr. destruct (H Hb) as (i & Hi & X). apply in_seq in Hi. destruct (F2 i) as (b1 & E1 & H1); [lia|]. rewrite X in E1. injection E1 as <-.
      destruct (H1 eq_refl) as (j & Hj & Y). apply in_seq in Hj. destruct (F1 i j) as (q & b2 & IN & E2 & H2); [lia|lia|]. rewrite Y in E2. injection E2 as <-.
      apply SS, (H2 eq_refl). exact (SUB _ IN r Hr).
Qed.

End ConMore.
