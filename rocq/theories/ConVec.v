(** * Linear representations and simplification of vector constraints *)

From Coq Require Import ZArith NArith Bool List Lia Ring.
From Verif Require Import Num Syntax ModelScalar Spec Base ScalarValid Eval ScalarOps ScalarMore ScalarNorm Unamb ScalarLin SpecProg Programs
  ListFacts ScalarFacts ModelSC Order SCProofs SCImplies ModelShape ModelArith SpecArr Arr ArrPlus ArrMul ArrMulMat ArrMulAll ArrMulTop ArrTop ArrPow ArrShape
  ScalarOver ArrMisc ArrSub ArrFacts ModelConstr SpecCon ConProofs.
Import ListNotations.
Local Open Scope num_scope.

Section ConVec.
Context {NN : Num}.

Ltac cb := cbn [bind check].

(** ** The difference of two vectors *)

Lemma arr_has_term d F phi e f : arr d (fun i j => sden F (phi i j)) e -> has_term e f -> exists g, F g /\ forall i, f i = g i.
Proof.
  intros A (row & s & m & H1 & H2 & H3 & H4). destruct (col_in _ _ _ _ A H1) as (i & Hi & C). destruct (col_in _ _ _ _ C H2) as (j & Hj & (_ & W & _)).
  destruct (W m H3) as (g & Hg & Eg). exists g. split; [exact Hg|]. intro k. rewrite H4, Eg. reflexivity.
Qed.

Lemma plus_zero_ext (F : (N -> Z) -> Prop) f g : (forall f g, F g -> (forall i, f i = g i) -> F f) -> plus_zero F g -> (forall i : N, f i = g i) -> plus_zero F f.
Proof. intros HF [H|H] E; [left; eapply HF; eassumption | right; intro i; rewrite E; apply H]. Qed.

Lemma has_term_ext e f g : has_term e g -> (forall i, f i = g i) -> has_term e f.
Proof. intros (row & s & m & H1 & H2 & H3 & H4) E. exists row, s, m. repeat split; try assumption. intro i. rewrite E. apply H4. Qed.

Lemma Forall2_same_length {A B} (R : A -> B -> Prop) l1 l2 : Forall2 R l1 l2 -> length l1 = length l2.
Proof. induction 1; cbn; congruence. Qed.

Section Ring.
Context (EX : ExactNum NN).
Add Ring conring : (@num_ring NN EX).
Lemma sub_sub_sub (a b x y : num) : a - x - (b - y) - (y - x) = a - b.
Proof. ring. Qed.
End Ring.

Lemma simplified_collected d e e' : valid_array d e -> expr_simplified e = Ok e' -> arr d (fun _ _ s => valid s /\ collected s) e'.
Proof.
  intros V E. pose proof V as (D1 & D2 & _).
  destruct (expr_simplified_gen d (fun i j s => entry e i j = s /\ valid s) (fun _ _ s => valid s /\ collected s) e D1 D2) as (e1 & E1 & H).
  - intros i j a b HT [Va Ca]. split; [apply valid_terms_iff; rewrite HT; apply valid_terms_iff; exact Va|]. unfold collected. rewrite HT. exact Ca.
  - intros i j s H. exact (proj2 H).
  - intros i j s _ _ [_ Vs]. exists (ssimplified s). split; [apply scalar_simplified_ok; exact Vs|]. split; [apply ssimplified_valid; exact Vs|].
    apply normal_collected, ssimplified_normal, Vs.
  - exact (valid_array_arr d e V).
  - rewrite E in E1. injection E1 as <-. exact H.
Qed.

Lemma concretize_slice_scalar (l : list scalar) e : length l = 1%nat -> concretize_slice l = Ok e -> is_scalar e.
Proof.
  intros L E. unfold concretize_slice in E. destruct (concretize_vector l) as [v|] eqn:Ev; [|discriminate]. cbn [bind] in E.
  destruct (vec_dims v) as [d|] eqn:Ed; [|discriminate]. cbn [bind] in E. destruct (Nat.eqb_spec (fst d) 1) as [_|N].
  - destruct (vec_at v 0 0); [|discriminate]. cbn in E. injection E as <-. exact I.
  - exfalso. apply N. clear E N. destruct (concretize_vector_terms l) as (v' & Ev' & F2); [intros ->; discriminate|]. rewrite Ev in Ev'. injection Ev' as <-.
    assert (LV : length (vec_entries v) = 1%nat) by (rewrite <- (Forall2_same_length _ _ _ F2); exact L).
    unfold vec_dims in Ed. destruct (vec_len v) as [k|] eqn:Ek; [|discriminate]. cbn in Ed. injection Ed as <-. cbn.
    destruct v as [l0|l0|l0|l0]; cbn [vec_len vec_entries] in Ek, LV; rewrite map_length in LV.
    + injection Ek as <-. exact LV.
    + injection Ek as <-. exact LV.
    + injection Ek as <-. exact LV.
    + match type of Ek with context [check ?x _] => destruct x; [|discriminate] end. injection Ek as <-. exact LV.
Qed.

Lemma mapM_len {A B} (f : A -> res B) l l' : mapM f l = Ok l' -> length l' = length l.
Proof.
  revert l'. induction l as [|a l IH]; intros l' E; cbn in E; [injection E as <-; reflexivity|]. destruct (f a); [|discriminate]. cbn in E.
  destruct (mapM f l) as [m|]; [|discriminate]. cbn in E. injection E as <-. cbn. rewrite (IH m eq_refl). reflexivity.
Qed.

Lemma vec_plus_template_scalar1 v t e : length (vec_entries v) = 1%nat -> vec_plus_template v t = Ok e -> is_scalar e.
Proof.
  intros L E. destruct t as [s|w|m]; cbn [vec_plus_template] in E; [| |discriminate].
  - destruct (mapM _ _) as [l|] eqn:El; [|discriminate]. cbn [bind] in E. apply (concretize_slice_scalar l e); [|exact E]. rewrite (mapM_len _ _ _ El). exact L.
  - destruct (mapM _ _) as [l|] eqn:El; [|discriminate]. cbn [bind] in E. apply (concretize_slice_scalar l e); [|exact E]. rewrite (mapM_len _ _ _ El).
    unfold enum. rewrite combine_length, seq_length. lia.
Qed.

Lemma vec_minus_core n v w g : valid_array (n, 1) (EV v) -> valid_array (n, 1) (EV w) -> (g = GExpr (EV w) \/ exists l, w = VK l /\ g = GVec l) ->
  exists e, expr_minus (EV v) g = Ok e /\ valid_array (n, 1) e
    /\ (forall i, i < n -> collected (entry e i 0)) /\ (n = 1 -> is_scalar e) /\ (2 <= n -> is_vector e)
    /\ (forall f, has_term e f -> plus_zero (sum_exps (EV v) (EV w)) f)
    /\ (ExactNum NN -> unambiguous_exponents (sum_exps (EV v) (EV w)) -> forall r i, i < n -> value r e i 0 = value r (EV v) i 0 - value r (EV w) i 0).
Proof.
  intros Vv Vw Hg. assert (M : means g = Some (EV w)) by (destruct Hg as [->|(l & -> & ->)]; reflexivity).
  assert (AC : minus_accepts (EV v) g = true) by (destruct Hg as [->|(l & -> & ->)]; reflexivity). clear Hg.
  assert (HB : broadcast (EV v) (EV w) (n, 1) (n, 1) (n, 1)) by (left; auto).
  destruct (array_minus_total _ _ g _ _ _ Vv Vw M HB AC) as (e & E). exists e. split; [exact E|].
  pose proof (minus_rgood _ _ g _ _ _ Vv Vw M HB e E) as G. pose proof (array_minus_shape _ _ g _ _ _ e Vv Vw M HB E) as Ve. split; [exact Ve|].
  pose proof (expr_minus_minus _ _ _ _ E M) as EM. unfold minus in EM. destruct (expr_mul (EV w) (GFloat nm1)) as [t|] eqn:Et; [|discriminate]. cbn [bind expr_plus] in EM.
  pose proof (vec_plus_not_matrix _ _ _ EM) as NM.
  assert (ER : simplify_result (vec_plus_template v t) = Ok e).
  { unfold vec_plus in EM. destruct (check (vec_check v) PCheck); [|discriminate]. cbn [bind] in EM. destruct (operand_check _ _ _); [|discriminate]. exact EM. }
  assert (LV : length (vec_entries v) = n). { destruct Vv as (_ & _ & [L _] & _). rewrite rows_EV, map_length in L. exact L. }
  pose proof Vv as (H1 & _). cbn in H1. pose proof (vec_times_float_not_matrix _ _ _ Et) as NT.
  pose proof (times_minus_one (EV v) (EV w) (n, 1) Vw t Et) as Ht. destruct (plus_dens _ _ _ _ Vv Vw) as [Hv _].
  destruct (vec_plus_template_good _ (plus_zero_zero _) n (n, 1) _ _ v t H1 Hv Ht H1 NT (or_introl eq_refl)) as (e0 & E0 & A0).
  rewrite E0 in ER. cbn [simplify_result bind] in ER.
  assert (V0 : valid_array (n, 1) e0) by (apply (arr_valid (n, 1) _ e0 H1 (le_n 1) A0); intros i j s Hs; apply Hs).
  split; [|split; [|split; [|split]]].
  - intros i Hi. exact (proj2 (arr_entry (n, 1) _ e i 0 (simplified_collected _ _ _ V0 ER) Hi (le_n 1))).
  - intros ->. pose proof (vec_plus_template_scalar1 v t e0 LV E0) as IS. pose proof (simplified_kind _ _ ER) as K. destruct e0; try destruct IS. exact K.
  - intro H2. destruct e as [s|u|m]; [|exact I|destruct NM]. pose proof (valid_array_ES _ _ Ve) as X. injection X as ->. lia.
  - intros f Hf. destruct (arr_has_term _ _ _ _ _ G Hf) as (h & Hh & Eh). eapply plus_zero_ext; [|exact Hh|exact Eh].
    intros f1 g1 [X|X] Y; [left|right]; eapply has_term_ext; eassumption.
  - intros EX HU r i Hi. exact (array_minus_value _ _ g _ _ _ e EX Vv Vw M HB HU E r i 0 Hi (le_n 1)).
Qed.

(** ** The constant vector *)

Lemma vec_constant_total n v : valid_array (n, 1) (EV v) -> exists k, vec_constant v = Ok k /\ length k = n.
Proof.
  intro V. destruct (valid_array_check _ _ V) as [C _]. cbn [expr_check] in C.
  assert (LV : length (vec_entries v) = n). { destruct V as (_ & _ & [L _] & _). rewrite rows_EV, map_length in L. exact L. }
  destruct V as (D1 & _). cbn in D1. destruct v as [l|l|l|l]; cbn [vec_constant vec_entries] in *; rewrite map_length in LV.
  - destruct l as [|k l]; [cbn in LV; lia|]. exists (k :: l). auto.
  - unfold zeros_vector. rewrite LV. destruct n; [lia|]. eexists. split; [reflexivity|]. apply repeat_length.
  - rewrite C. cb. eexists. split; [reflexivity|]. rewrite map_length. exact LV.
  - rewrite C. cb. rewrite (mapM_map poly_constant pconst).
    + eexists. split; [reflexivity|]. rewrite map_length. exact LV.
    + intros p Hp. apply poly_constant_ok. cbn in C. apply andb_true_iff in C. destruct C as [_ C]. rewrite forallb_forall in C. exact (C p Hp).
Qed.

Lemma const_vec_valid n l : 1 <= n -> length l = n -> valid_array (n, 1) (EV (VK l)).
Proof.
  intros Hn L. split; [exact Hn|]. split; [exact (le_n 1)|]. split.
  - split; cbn; [rewrite map_length; exact L|]. apply Forall_forall. intros row Hr. apply in_map_iff in Hr. destruct Hr as (x & <- & _). reflexivity.
  - cbn [fst snd]. intros i j Hi Hj. unfold entry. cbn [rows]. destruct (nth_error_lt l i) as [k E]; [lia|].
    rewrite (nth_error_nth_eq _ i [SK k]); [|rewrite nth_error_map, E; reflexivity]. destruct j; [exact I|lia].
Qed.
Lemma const_vec_value r (l : list num) i : i < length l -> value r (EV (VK l)) i 0 = nth i l n0.
Proof.
  intro Hi. unfold value, entry. cbn [rows]. destruct (nth_error_lt l i) as [k E]; [lia|].
  rewrite (nth_error_nth_eq _ i [SK k]); [|rewrite nth_error_map, E; reflexivity]. cbn. symmetry. apply nth_error_nth_eq. exact E.
Qed.
Lemma const_vec_term l f : has_term (EV (VK l)) f -> forall i, f i = 0%Z.
Proof.
  intros (row & s & m & H1 & H2 & H3 & H4) i. cbn in H1. apply in_map_iff in H1. destruct H1 as (k & <- & _). destruct H2 as [<-|[]]. destruct H3 as [<-|[]]. rewrite H4. reflexivity.
Qed.

(** the left and right hand side without their constants *)
Lemma without_constant n v : valid_array (n, 1) (EV v) -> exists k e, vec_constant v = Ok k /\ length k = n /\ vec_without_constant v = Ok e /\ valid_array (n, 1) e
    /\ (n = 1 -> is_scalar e) /\ (2 <= n -> is_vector e)
    /\ (forall f, has_term e f -> plus_zero (has_term (EV v)) f)
    /\ (ExactNum NN -> unambiguous_exponents (has_term (EV v)) -> forall r i, i < n -> value r e i 0 = value r (EV v) i 0 - nth i k n0).
Proof.
  intro V. destruct (vec_constant_total n v V) as (k & Ek & Lk). pose proof V as (H1 & _). cbn in H1.
  destruct (vec_minus_core n v (VK k) (GVec k) V (const_vec_valid n k H1 Lk)) as (e & E & Ve & _ & IS & IV & HT & HV); [right; eauto|].
  assert (SUB : forall f, sum_exps (EV v) (EV (VK k)) f -> plus_zero (has_term (EV v)) f).
  { intros f [H|H]; [left; exact H | right; exact (const_vec_term k f H)]. }
  exists k, e. split; [exact Ek|]. split; [exact Lk|]. split; [unfold vec_without_constant; rewrite Ek; exact E|]. split; [exact Ve|]. split; [exact IS|]. split; [exact IV|]. split.
  - intros f Hf. destruct (HT f Hf) as [X|X]; [exact (SUB f X) | right; exact X].
  - intros EX HU r i Hi. rewrite HV; [rewrite const_vec_value by lia; reflexivity | exact EX | | exact Hi].
    refine (unambiguous_sub _ (plus_zero (has_term (EV v))) SUB _). apply plus_zero_unambiguous. exact HU.
Qed.

Lemma plus_zero_idem F f : plus_zero (plus_zero F) f -> plus_zero F f.
Proof. intros [H|H]; [exact H | right; exact H]. Qed.

(** ** AsSimplifiedConstraint *)

Lemma vc_simplified_one c : valid_con (1, 1) (CV c) -> exists p, vc_simplified c = Panic p.
Proof.
  intros V. unfold vc_simplified. rewrite (vc_check_ok 1 c V). cb. destruct V as (V1 & V2 & _). cbn [con_left con_right] in V1, V2.
  destruct (without_constant 1 _ V1) as (kl & l & El & Ll & EL & Vl & ISl & _). destruct (without_constant 1 _ V2) as (kr & r & Er & Lr & ER & Vr & ISr & _).
  rewrite EL. cb. rewrite ER. cb. specialize (ISl eq_refl). specialize (ISr eq_refl). destruct l as [l|l|l]; try destruct ISl. destruct r as [r|r|r]; try destruct ISr.
  destruct (expr_minus (ES l) (GExpr (ES r))) as [lhs|] eqn:Elhs; cb; [|eauto]. rewrite Er. cb. rewrite El. cb.
  destruct (vec_minus_core 1 (VK kr) (VK kl) (GVec kl)) as (rhs & Erhs & _ & _ & ISrhs & _); [apply const_vec_valid; auto | apply const_vec_valid; auto | right; eauto|].
  rewrite Erhs. cb. specialize (ISrhs eq_refl). destruct (as_vector lhs); cb; [|eauto]. destruct rhs; try destruct ISrhs. cbn. eauto.
Qed.

Lemma vc_simplified_core n c : 2 <= n -> valid_con (n, 1) (CV c) ->
  exists c', vc_simplified c = Ok c' /\ valid_con (n, 1) (CV c') /\ vc_sense c' = vc_sense c
    /\ (forall f, has_term (EV (vc_left c')) f -> plus_zero (sum_exps (EV (vc_left c)) (EV (vc_right c))) f)
    /\ (ExactNum NN -> unambiguous_exponents (sum_exps (EV (vc_left c)) (EV (vc_right c))) -> forall r i, i < n ->
        value r (EV (vc_left c')) i 0 - value r (EV (vc_right c')) i 0 = value r (EV (vc_left c)) i 0 - value r (EV (vc_right c)) i 0).
Proof.
  intros Hn V. unfold vc_simplified. rewrite (vc_check_ok n c V). cb. destruct V as (V1 & V2 & SO). cbn [con_left con_right con_sense] in V1, V2, SO.
  destruct (without_constant n _ V1) as (kl & l & El & Ll & EL & Vl & _ & IVl & Tl & Hl). destruct (without_constant n _ V2) as (kr & rt & Er & Lr & ER & Vr & _ & IVr & Tr & Hr).
  rewrite EL. cb. rewrite ER. cb. specialize (IVl Hn). specialize (IVr Hn). destruct l as [l|l|l]; try destruct IVl. destruct rt as [rt|rt|rt]; try destruct IVr.
  destruct (vec_minus_core n l rt (GExpr (EV rt)) Vl Vr (or_introl eq_refl)) as (lhs & Elhs & Vlhs & _ & _ & IVlhs & Tlhs & Hlhs). rewrite Elhs. cb. rewrite Er. cb. rewrite El. cb.
  assert (Hn1 : 1 <= n) by lia.
  destruct (vec_minus_core n (VK kr) (VK kl) (GVec kl)) as (rhs & Erhs & Vrhs & _ & _ & IVrhs & Trhs & Hrhs); [apply const_vec_valid; auto | apply const_vec_valid; auto | right; eauto|].
  rewrite Erhs. cb. specialize (IVlhs Hn). specialize (IVrhs Hn). destruct lhs as [lhs|lhs|lhs]; try destruct IVlhs. destruct rhs as [rhs|rhs|rhs]; try destruct IVrhs. cbn [as_vector bind].
  eexists. split; [reflexivity|]. cbn [vc_left vc_right vc_sense]. split; [split; [exact Vlhs|]; split; [exact Vrhs | exact SO]|]. split; [reflexivity|].
  set (S := sum_exps (EV (vc_left c)) (EV (vc_right c))).
  assert (SUB : forall f, sum_exps (EV l) (EV rt) f -> plus_zero S f).
  { intros f [H|H]; [destruct (Tl f H) as [X|X]; [left; left; exact X | right; exact X] | destruct (Tr f H) as [X|X]; [left; right; exact X | right; exact X]]. }
  split.
  - intros f Hf. destruct (Tlhs f Hf) as [X|X]; [exact (SUB f X) | right; exact X].
  - intros EX HU r i Hi.
    assert (HL : unambiguous_exponents (has_term (EV (vc_left c)))) by (refine (unambiguous_sub _ S _ HU); intros f X; left; exact X).
    assert (HR : unambiguous_exponents (has_term (EV (vc_right c)))) by (refine (unambiguous_sub _ S _ HU); intros f X; right; exact X).
    rewrite (Hlhs EX (unambiguous_sub _ _ SUB (plus_zero_unambiguous S HU)) r i Hi), (Hl EX HL r i Hi), (Hr EX HR r i Hi).
    rewrite Hrhs; [|exact EX| |exact Hi].
    + rewrite !const_vec_value by lia. exact (sub_sub_sub EX _ _ _ _).
    + refine (unambiguous_sub _ (plus_zero (fun _ => False)) _ _).
      * intros f [X|X]; right; exact (const_vec_term _ f X).
      * apply plus_zero_unambiguous. intros m1 m2 (_ & f & [] & _).
Qed.

(** ** Linear representations *)

Lemma vc_is_linear_ok n c : valid_con (n, 1) (CV c) -> exists b, vc_is_linear c = Ok b /\ (b = true <-> array_degree 1 (EV (vc_left c)) /\ array_degree 1 (EV (vc_right c))).
Proof.
  intros (V1 & V2 & _). cbn [con_left con_right] in V1, V2. unfold vc_is_linear. destruct (array_is_linear _ _ V1) as (b1 & E1 & H1). destruct (array_is_linear _ _ V2) as (b2 & E2 & H2).
  assert (L1 : vec_is_linear (vc_left c) = Ok b1) by exact E1. assert (L2 : vec_is_linear (vc_right c) = Ok b2) by exact E2.
  rewrite L2. cb. destruct b2; [rewrite L1; exists b1; split; [reflexivity|]; tauto|]. exists false. split; [reflexivity|]. split; [discriminate|]. intros [_ X]. exact (proj2 H2 X).
Qed.

Lemma vc_require_linear_ok n c : valid_con (n, 1) (CV c) -> array_degree 1 (EV (vc_left c)) -> array_degree 1 (EV (vc_right c)) -> vc_require_linear c = Ok tt.
Proof.
  intros V D1 D2. destruct (vc_is_linear_ok n c V) as (b & E & H). unfold vc_require_linear. rewrite E. cb. rewrite (proj2 H (conj D1 D2)). reflexivity.
Qed.

Lemma vc_require_linear_fail n c : valid_con (n, 1) (CV c) -> ~ (array_degree 1 (EV (vc_left c)) /\ array_degree 1 (EV (vc_right c))) -> vc_require_linear c = Panic PLinearRequired.
Proof.
  intros V D. destruct (vc_is_linear_ok n c V) as (b & E & H). unfold vc_require_linear. rewrite E. cb. destruct b; [destruct D; apply H; reflexivity|].
  destruct V as (V1 & V2 & _). cbn [con_left con_right] in V1, V2. destruct (array_is_linear _ _ V1) as (b1 & E1 & H1). destruct (array_is_linear _ _ V2) as (b2 & E2 & H2).
  assert (L1 : vec_is_linear (vc_left c) = Ok b1) by exact E1. assert (L2 : vec_is_linear (vc_right c) = Ok b2) by exact E2. rewrite L1. cb.
  destruct b1; [|reflexivity]. cb. rewrite L2. cb. destruct b2; [destruct D; split; [apply H1 | apply H2]; reflexivity | reflexivity].
Qed.

Lemma vc_moved_one c : valid_con (1, 1) (CV c) -> vc_moved c = Panic PRuntime.
Proof.
  intros (V1 & V2 & _). cbn [con_left con_right] in V1, V2. unfold vc_moved. destruct (without_constant 1 _ V2) as (kr & r & Er & Lr & ER & Vr & ISr & _). rewrite ER. cb.
  specialize (ISr eq_refl). destruct r; try destruct ISr. reflexivity.
Qed.

Lemma vc_moved_ok n c : 2 <= n -> valid_con (n, 1) (CV c) -> exists k u, vec_constant (vc_right c) = Ok k /\ length k = n /\ vc_moved c = Ok u /\ valid_array (n, 1) (EV u)
  /\ (forall i, i < n -> collected (entry (EV u) i 0))
  /\ (forall f, has_term (EV u) f -> plus_zero (sum_exps (EV (vc_left c)) (EV (vc_right c))) f)
  /\ (ExactNum NN -> unambiguous_exponents (sum_exps (EV (vc_left c)) (EV (vc_right c))) -> forall r i, i < n ->
      value r (EV u) i 0 = value r (EV (vc_left c)) i 0 - (value r (EV (vc_right c)) i 0 - nth i k n0)).
Proof.
  intros Hn (V1 & V2 & _). cbn [con_left con_right] in V1, V2. unfold vc_moved. destruct (without_constant n _ V2) as (kr & r & Er & Lr & ER & Vr & _ & IVr & Tr & Hr). rewrite ER. cb.
  specialize (IVr Hn). destruct r as [r|r|r]; try destruct IVr. cbn [as_vector bind].
  destruct (vec_minus_core n _ r (GExpr (EV r)) V1 Vr (or_introl eq_refl)) as (u & Eu & Vu & Cu & _ & IVu & Tu & Hu). rewrite Eu. cb. specialize (IVu Hn). destruct u as [u|u|u]; try destruct IVu.
  cbn [as_vector]. exists kr, u. split; [exact Er|]. split; [exact Lr|]. split; [reflexivity|]. split; [exact Vu|]. split; [exact Cu|].
  set (S := sum_exps (EV (vc_left c)) (EV (vc_right c))).
  assert (SUB : forall f, sum_exps (EV (vc_left c)) (EV r) f -> plus_zero S f).
  { intros f [H|H]; [left; left; exact H | destruct (Tr f H) as [X|X]; [left; right; exact X | right; exact X]]. }
  split.
  - intros f Hf. destruct (Tu f Hf) as [X|X]; [exact (SUB f X) | right; exact X].
  - intros EX HU r' i Hi. assert (HR : unambiguous_exponents (has_term (EV (vc_right c)))) by (refine (unambiguous_sub _ S _ HU); intros f X; right; exact X).
    rewrite (Hu EX (unambiguous_sub _ _ SUB (plus_zero_unambiguous S HU)) r' i Hi), (Hr EX HR r' i Hi). reflexivity.
Qed.

Lemma terms_degree e n d F : valid_array (n, d) e -> (forall f, has_term e f -> plus_zero F f) -> degree_fn F 1 -> array_degree 1 e.
Proof.
  intros V HT HF row s R1 R2. apply Forall_forall. intros m Hm. pose proof (valid_terms s (valid_array_entry _ e row s V R1 R2)) as HV. rewrite Forall_forall in HV. specialize (HV m Hm).
  rewrite <- (tdeg_sumL m (ids m)); [| exact HV | apply HV | apply incl_refl].
  destruct (HT (exponent m)) as [X|X]; [exists row, s, m; auto | apply HF; [exact X | apply HV]|]. rewrite sumL_zero by (intros; apply X). lia.
Qed.

Lemma terms_occurs e n d F (P : N -> Prop) : valid_array (n, d) e -> (forall f, has_term e f -> plus_zero F f) -> (forall f i, F f -> (1 <= f i)%Z -> P i) ->
  forall i, array_occurs i e -> P i.
Proof.
  intros V HT HF i (row & s & R1 & R2 & m & Hm & Hi). pose proof (valid_terms s (valid_array_entry _ e row s V R1 R2)) as HV. rewrite Forall_forall in HV. specialize (HV m Hm).
  apply (exponent_pos m i HV) in Hi. destruct (HT (exponent m)) as [X|X]; [exists row, s, m; auto | exact (HF _ i X Hi)|]. rewrite X in Hi. lia.
Qed.

Lemma has_term_occurs d e f i : valid_array d e -> has_term e f -> (1 <= f i)%Z -> array_occurs i e.
Proof.
  intros V (row & s & m & H1 & H2 & H3 & H4) Hi. exists row, s. split; [exact H1|]. split; [exact H2|]. exists m. split; [exact H3|].
  pose proof (valid_terms s (valid_array_entry _ e row s V H1 H2)) as HV. rewrite Forall_forall in HV. apply (exponent_pos m i (HV m H3)). rewrite <- H4. exact Hi.
Qed.

Lemma linear_coeff_const_mono m w x : valid_mono m -> m_vars m = [] -> mono_linear_coeff m w = Ok x -> False.
Proof.
  intros V Hv E. unfold mono_linear_coeff in E. rewrite (valid_mono_check m V) in E. cbn [check bind] in E. destruct (wrt_vars (m_vars m) w) as [w'|]; [|discriminate]. cbn [bind] in E.
  destruct w' as [|y w']; [discriminate|]. cbn [zeros_vector length bind] in E. destruct m as [k es vs]. cbn [m_vars] in Hv. subst vs. destruct V as (L & _). cbn in L. destruct es; [|discriminate].
  cbn in E. discriminate.
Qed.

Lemma vec_linear_coeff_ok_proper n v w A : valid_array (n, 1) (EV v) -> vec_linear_coeff v [w] = Ok A -> forall i, i < n -> match entry (EV v) i 0 with SM m => m_vars m <> [] | _ => True end.
Proof.
  intros V E i Hi. pose proof V as (D1 & _). cbn in D1. pose proof (valid_array_arr _ _ V) as A0. apply arr_EV in A0.
  assert (HV : forall (i : nat) s, entry (EV v) i 0 = s /\ valid s -> valid s) by (intros i' s H; exact (proj2 H)).
  pose proof (vec_check_col n _ v D1 HV A0) as C. pose proof (vec_len_col n _ v D1 HV A0) as L. unfold vec_linear_coeff in E. rewrite C in E. cbn [check bind] in E.
  destruct (check (nonempty w) PNoLinearCoeff); [|discriminate]. cbn [bind] in E. rewrite L in E. cbn [bind] in E. destruct (check (negb (Nat.eqb n 0)) PGonum); [|discriminate]. cbn [bind] in E.
  destruct (vec_get_col n _ v i D1 HV A0 Hi) as (sa & Ea & _ & Xa & Va). rewrite Xa. destruct sa as [?|?|m|?]; try exact I. intro Hm.
  assert (G : forall l l', mapM (fun i => a <- vec_get v i ;; scalar_linear_coeff a [w]) l = Ok l' -> In i l -> exists x, (a <- vec_get v i ;; scalar_linear_coeff a [w]) = Ok x).
  { clear. induction l as [|j l IH]; intros l' H HI; [destruct HI|]. cbn in H. destruct (vec_get v j) as [b|] eqn:Eb; [|discriminate]. cbn in H. destruct (scalar_linear_coeff b [w]) as [x|] eqn:Ex; [|discriminate].
    cbn in H. destruct (mapM _ l) as [l1|] eqn:El; [|discriminate]. destruct HI as [->|HI]; [exists x; rewrite Eb; exact Ex | exact (IH l1 eq_refl HI)]. }
  destruct (G _ _ E) as (x & Ex); [apply in_seq; lia|]. rewrite Ea in Ex. cbn [bind scalar_linear_coeff] in Ex. exact (linear_coeff_const_mono m _ x Va Hm Ex).
Qed.

Section Exact.
Context {EX : ExactNum NN}.
Add Ring conring2 : (@num_ring NN EX).

Lemma array_collected_at d e i j : valid_array d e -> array_collected e -> i < fst d -> j < snd d -> collected (entry e i j).
Proof. intros (_ & _ & HS & _) HC Hi Hj. destruct (entry_in d e i j HS Hi Hj) as (row & R1 & R2). exact (HC row _ R1 R2). Qed.

Lemma vc_constants_ok n c : valid_con (n, 1) (CV c) -> array_collected (EV (vc_left c)) -> array_collected (EV (vc_right c)) ->
  exists b, vc_constants c = Ok b /\ length b = n /\ forall i, i < n -> nth i b n0 = value (fun _ => n0) (EV (vc_right c)) i 0 - value (fun _ => n0) (EV (vc_left c)) i 0.
Proof.
  intros (V1 & V2 & _) C1 C2. cbn [con_left con_right] in V1, V2. pose proof V1 as (H1 & _). cbn in H1.
  destruct (vector_constant (vc_left c) n V1) as (l & El & Ll & Hl); [intros i Hi; exact (array_collected_at _ _ i 0 V1 C1 Hi (le_n 1))|].
  destruct (vector_constant (vc_right c) n V2) as (r & Er & Lr & Hr); [intros i Hi; exact (array_collected_at _ _ i 0 V2 C2 Hi (le_n 1))|].
  unfold vc_constants. destruct (valid_vec_dims _ _ V1) as (_ & L & _). rewrite L. cb. destruct (Nat.eqb_spec n 0) as [?|NZ]; [lia|]. cbn [negb check bind]. rewrite Er. cb. rewrite El. cb.
  unfold sub_vec. rewrite Lr, Ll, Nat.eqb_refl. cb. eexists. split; [reflexivity|]. rewrite map_length, combine_length, Lr, Ll, Nat.min_id. split; [reflexivity|].
  intros i Hi. rewrite (nth_indep _ n0 (fst (n0, n0) - snd (n0, n0))) by (rewrite map_length, combine_length; lia).
  rewrite (map_nth (fun xy => fst xy - snd xy) (combine r l) (n0, n0) i). rewrite combine_nth by lia. cbn [fst snd]. rewrite (Hr i Hi), (Hl i Hi). reflexivity.
Qed.

Lemma vec_representation n c w : 2 <= n -> valid_con (n, 1) (CV c) -> array_degree 1 (EV (vc_left c)) -> array_degree 1 (EV (vc_right c)) ->
  array_collected (EV (vc_left c)) -> array_collected (EV (vc_right c)) ->
  w <> [] -> Forall valid_var w -> NoDup (map v_id w) -> (forall i, array_occurs i (EV (vc_left c)) \/ array_occurs i (EV (vc_right c)) -> In i (map v_id w)) ->
  exists u b, vc_moved c = Ok u /\ valid_array (n, 1) (EV u) /\ vc_constants c = Ok b /\ length b = n
    /\ ((forall i, i < n -> match entry (EV u) i 0 with SM m => m_vars m <> [] | _ => True end) ->
        exists A, vec_linear_coeff u [w] = Ok A /\ dense_shape (n, length w) A
         /\ forall r i, i < n -> dot r (nth i A []) w - nth i b n0 = value r (EV (vc_left c)) i 0 - value r (EV (vc_right c)) i 0)
    /\ (involves_variables (n, 1) (CV c) -> forall i, i < n -> match entry (EV u) i 0 with SM m => m_vars m <> [] | _ => True end).
Proof.
  intros Hn V D1 D2 C1 C2 Hw Vw HN HC. destruct (vc_moved_ok n c Hn V) as (k & u & Ek & Lk & Eu & Vu & Cu & Tu & Hu). destruct (vc_constants_ok n c V C1 C2) as (b & Eb & Lb & Hb).
  exists u, b. split; [exact Eu|]. split; [exact Vu|]. split; [exact Eb|]. split; [exact Lb|]. destruct V as (V1 & V2 & _). cbn [con_left con_right] in V1, V2.
  assert (HU : unambiguous_exponents (sum_exps (EV (vc_left c)) (EV (vc_right c)))).
  { apply (sum_exps_degree2 (n, 1) (n, 1)); try assumption; intros row s R1 R2; (eapply Forall_impl; [|first [exact (D1 row s R1 R2) | exact (D2 row s R1 R2)]]); cbn; intros; lia. }
  assert (HUV : forall r i, i < n -> value r (EV u) i 0 = value r (EV (vc_left c)) i 0 - (value r (EV (vc_right c)) i 0 - nth i k n0)) by exact (Hu EX HU).
  split.
  - intro HP.
    assert (Du : array_degree 1 (EV u)).
    { apply (terms_degree (EV u) n 1 _ Vu Tu). intros f [X|X]; [exact (has_term_degree _ _ 1 V1 D1 f X) | exact (has_term_degree _ _ 1 V2 D2 f X)]. }
    assert (Ou : forall i, array_occurs i (EV u) -> In i (map v_id w)).
    { intros i Hi. apply HC. revert i Hi. apply (terms_occurs (EV u) n 1 _ _ Vu Tu). intros f i [X|X] Hf; [left|right]; eapply has_term_occurs; eassumption. }
    destruct (vector_linear_decomposition u n w Vu Du (fun i Hi => conj (Cu i Hi) (HP i Hi)) Hw Vw HN Ou) as (A & bu & EA & Ebu & SA & Lbu & HA).
    exists A. split; [exact EA|]. split; [exact SA|]. intros r i Hi.
    pose proof (HA r i Hi) as X1. pose proof (HA (fun _ => n0) i Hi) as X0. rewrite dot_at_zero in X0. rewrite HUV in X1 by exact Hi. rewrite HUV in X0 by exact Hi.
    rewrite (Hb i Hi). pose proof (vector_constant (vc_right c) n V2 (fun i Hi => array_collected_at _ _ i 0 V2 C2 Hi (le_n 1))) as (k' & Ek' & _ & Hk'). rewrite Ek in Ek'. injection Ek' as <-.
    rewrite (Hk' i Hi) in X1, X0.
    set (L := value r (EV (vc_left c)) i 0) in *. set (R := value r (EV (vc_right c)) i 0) in *.
    set (L0 := value (fun _ => n0) (EV (vc_left c)) i 0) in *. set (R0 := value (fun _ => n0) (EV (vc_right c)) i 0) in *.
    replace (dot r (nth i A []) w) with (L - (R - R0) - nth i bu n0) by (rewrite X1; ring). replace (nth i bu n0) with L0; [ring|]. replace (nth i bu n0) with (n0 + nth i bu n0) by ring. rewrite <- X0. ring.
  - intros HI i Hi. destruct (entry (EV u) i 0) as [a|a|m|a] eqn:Ee; try exact I. intro Hm. destruct (HI i Hi) as (r & r' & HD). cbn [con_left con_right] in HD. apply HD.
    pose proof (HUV r i Hi) as X. pose proof (HUV r' i Hi) as X'.
    assert (ER : value r (EV u) i 0 = value r' (EV u) i 0). { unfold value. rewrite Ee. cbn. unfold eval_mono. rewrite Hm. destruct (m_exps m); reflexivity. }
    set (L := value r (EV (vc_left c)) i 0) in *. set (R := value r (EV (vc_right c)) i 0) in *.
    set (L' := value r' (EV (vc_left c)) i 0) in *. set (R' := value r' (EV (vc_right c)) i 0) in *.
    rewrite X, X' in ER. replace (L - R) with (L - (R - nth i k n0) - nth i k n0) by ring. rewrite ER. ring.
Qed.

Lemma nth_map_rows (f : list num -> list num) (A : list (list num)) i : f [] = [] -> nth i (map f A) [] = f (nth i A []).
Proof. intro H. rewrite <- H at 1. apply map_nth. Qed.

Lemma system_le_iff n c A b w : (vc_sense c = SenseLe \/ vc_sense c = SenseGe) -> length b = n ->
  (forall r i, i < n -> dot r (nth i A []) w - nth i b n0 = value r (EV (vc_left c)) i 0 - value r (EV (vc_right c)) i 0) ->
  forall r, system_le r (if sense_eqb (vc_sense c) SenseGe then map (map (fun x => nm1 * x)) A else A) w (if sense_eqb (vc_sense c) SenseGe then map (fun x => nm1 * x) b else b)
    <-> con_sat r (n, 1) (CV c).
Proof.
  intros HS Lb H r. unfold system_le, con_sat. cbn [fst snd con_left con_right con_sense].
  assert (G : forall i, i < n -> nleb (dot r (nth i (if sense_eqb (vc_sense c) SenseGe then map (map (fun x => nm1 * x)) A else A) []) w)
       (nth i (if sense_eqb (vc_sense c) SenseGe then map (fun x => nm1 * x) b else b) n0) = true
     <-> holds (value r (EV (vc_left c)) i 0) (vc_sense c) (value r (EV (vc_right c)) i 0)).
  { intros i Hi. destruct HS as [HS|HS]; rewrite HS; cbn [sense_eqb].
    - apply (holds_diff _ _ _ _ SenseLe). exact (H r i Hi).
    - rewrite (nth_map_rows (map (fun x => nm1 * x))) by reflexivity. rewrite dot_scale.
      rewrite (nth_indep _ n0 (nm1 * n0)) by (rewrite map_length; lia). rewrite (map_nth (fun x => nm1 * x)). rewrite nm1_exact.
      replace (- n1 * dot r (nth i A []) w) with (- dot r (nth i A []) w) by ring. replace (- n1 * nth i b n0) with (- nth i b n0) by ring.
      rewrite le_opp_iff. apply (holds_diff _ _ _ _ SenseGe). exact (H r i Hi). }
  assert (LB : length (if sense_eqb (vc_sense c) SenseGe then map (fun x => nm1 * x) b else b) = n) by (destruct (sense_eqb _ _); rewrite ?map_length; exact Lb).
  rewrite LB. split.
  - intros X i j Hi Hj. assert (j = 0%nat) by lia. subst j. apply G; auto.
  - intros X i Hi. apply G; auto.
Qed.

Definition repr_hyps (n : nat) (c : vector_constraint) (w : list var) : Prop :=
  valid_con (n, 1) (CV c) /\ array_degree 1 (EV (vc_left c)) /\ array_degree 1 (EV (vc_right c)) /\
  array_collected (EV (vc_left c)) /\ array_collected (EV (vc_right c)) /\
  w <> [] /\ Forall valid_var w /\ NoDup (map v_id w) /\ (forall i, array_occurs i (EV (vc_left c)) \/ array_occurs i (EV (vc_right c)) -> In i (map v_id w)).

Lemma vec_moved_pos n c u : valid_con (n, 1) (CV c) -> vc_moved c = Ok u -> 2 <= n.
Proof.
  intros V E. pose proof V as (V1 & _). pose proof V1 as (H1 & _). cbn in H1. destruct (Nat.eq_dec n 1) as [->|]; [|lia]. rewrite (vc_moved_one c V) in E. discriminate.
Qed.

Lemma scaled_shape d (A : list (list num)) s : dense_shape d A -> dense_shape d (if sense_eqb s SenseGe then map (map (fun x => nm1 * x)) A else A).
Proof.
  intros [H1 H2]. destruct (sense_eqb _ _); [|split; assumption]. split; [rewrite map_length; exact H1|]. apply Forall_forall. intros r Hr. apply in_map_iff in Hr. destruct Hr as (r0 & <- & Hr).
  rewrite map_length. rewrite Forall_forall in H2. exact (H2 r0 Hr).
Qed.

Lemma vc_inequality_ok n c w : repr_hyps n c w -> (vc_sense c = SenseLe \/ vc_sense c = SenseGe) ->
  (forall A b, vc_linear_inequality c [w] = Ok (A, b) -> dense_shape (n, length w) A /\ length b = n /\ forall r, system_le r A w b <-> con_sat r (n, 1) (CV c))
  /\ (2 <= n -> involves_variables (n, 1) (CV c) -> exists A b, vc_linear_inequality c [w] = Ok (A, b)).
Proof.
  intros (V & D1 & D2 & C1 & C2 & Hw & Vw & HN & HC) HS.
  assert (U : vc_linear_inequality c [w] =
    (l <- vc_moved c ;; A <- vec_linear_coeff l [w] ;;
     let A := if sense_eqb (vc_sense c) SenseGe then map (map (fun x => nm1 * x)) A else A in
     b <- vc_constants c ;; Ok (A, if sense_eqb (vc_sense c) SenseGe then map (fun x => nm1 * x) b else b))).
  { unfold vc_linear_inequality. rewrite (vc_check_ok n c V). cb. rewrite (vc_require_linear_ok n c V D1 D2). cb. destruct HS as [-> | ->]; reflexivity. }
  rewrite U. split.
  - intros A b E. destruct (vc_moved c) as [u|] eqn:Eu; [|discriminate]. cbn [bind] in E. pose proof (vec_moved_pos n c u V Eu) as Hn.
    destruct (vec_representation n c w Hn V D1 D2 C1 C2 Hw Vw HN HC) as (u' & b0 & Eu' & Vu & Eb & Lb & HA & _). rewrite Eu in Eu'. injection Eu' as <-.
    destruct (vec_linear_coeff u [w]) as [A0|] eqn:EA; [|discriminate]. cbn [bind] in E. rewrite Eb in E. cbn [bind] in E. injection E as <- <-.
    destruct (HA (vec_linear_coeff_ok_proper n u w A0 Vu EA)) as (A1 & EA1 & SA & H). injection EA1 as <-.
    split; [apply scaled_shape; exact SA|]. split; [destruct (sense_eqb _ _); rewrite ?map_length; exact Lb|]. apply system_le_iff; assumption.
  - intros Hn HI. destruct (vec_representation n c w Hn V D1 D2 C1 C2 Hw Vw HN HC) as (u & b0 & Eu & Vu & Eb & Lb & HA & HP). rewrite Eu. cb.
    destruct (HA (HP HI)) as (A1 & EA1 & SA & H). rewrite EA1. cb. rewrite Eb. cb. eauto.
Qed.

Lemma vc_equality_ok n c w : repr_hyps n c w -> vc_sense c = SenseEq ->
  (forall A b, vc_linear_equality c [w] = Ok (A, b) -> dense_shape (n, length w) A /\ length b = n /\ forall r, system_eq r A w b <-> con_sat r (n, 1) (CV c))
  /\ (2 <= n -> involves_variables (n, 1) (CV c) -> exists A b, vc_linear_equality c [w] = Ok (A, b)).
Proof.
  intros (V & D1 & D2 & C1 & C2 & Hw & Vw & HN & HC) HS.
  assert (U : vc_linear_equality c [w] = (l <- vc_moved c ;; A <- vec_linear_coeff l [w] ;; b <- vc_constants c ;; Ok (A, b))).
  { unfold vc_linear_equality. rewrite (vc_check_ok n c V). cb. rewrite (vc_require_linear_ok n c V D1 D2). cb. rewrite HS. reflexivity. }
  rewrite U. split.
  - intros A b E. destruct (vc_moved c) as [u|] eqn:Eu; [|discriminate]. cbn [bind] in E. pose proof (vec_moved_pos n c u V Eu) as Hn.
    destruct (vec_representation n c w Hn V D1 D2 C1 C2 Hw Vw HN HC) as (u' & b0 & Eu' & Vu & Eb & Lb & HA & _). rewrite Eu in Eu'. injection Eu' as <-.
    destruct (vec_linear_coeff u [w]) as [A0|] eqn:EA; [|discriminate]. cbn [bind] in E. rewrite Eb in E. cbn [bind] in E. injection E as <- <-.
    destruct (HA (vec_linear_coeff_ok_proper n u w A0 Vu EA)) as (A1 & EA1 & SA & H). injection EA1 as <-.
    split; [exact SA|]. split; [exact Lb|]. intro r. unfold system_eq, con_sat. cbn [fst snd con_left con_right con_sense]. rewrite Lb, HS. split.
    + intros X i j Hi Hj. assert (j = 0%nat) by lia. subst j. apply (proj1 (holds_diff _ _ _ _ SenseEq (H r i Hi))). exact (X i Hi).
    + intros X i Hi. exact (proj2 (holds_diff _ _ _ _ SenseEq (H r i Hi)) (X i 0%nat Hi (le_n 1))).
  - intros Hn HI. destruct (vec_representation n c w Hn V D1 D2 C1 C2 Hw Vw HN HC) as (u & b0 & Eu & Vu & Eb & Lb & HA & HP). rewrite Eu. cb.
    destruct (HA (HP HI)) as (A1 & EA1 & SA & H). rewrite EA1. cb. rewrite Eb. cb. eauto.
Qed.

Lemma vc_simplified_sat n c c' : valid_con (n, 1) (CV c) -> unambiguous_exponents (sum_exps (EV (vc_left c)) (EV (vc_right c))) -> vc_simplified c = Ok c' ->
  forall r, con_sat r (n, 1) (CV c') <-> con_sat r (n, 1) (CV c).
Proof.
  intros V HU E r. assert (Hn : 2 <= n).
  { pose proof V as (V1 & _). pose proof V1 as (H1 & _). cbn in H1. destruct (Nat.eq_dec n 1) as [->|]; [|lia]. destruct (vc_simplified_one c V) as (p & Ep). congruence. }
  destruct (vc_simplified_core n c Hn V) as (c1 & E1 & V' & S' & _ & H). rewrite E in E1. injection E1 as <-. unfold con_sat. cbn [fst snd con_left con_right con_sense]. rewrite S'.
  assert (G : forall i, i < n -> holds (value r (EV (vc_left c')) i 0) (vc_sense c) (value r (EV (vc_right c')) i 0) <-> holds (value r (EV (vc_left c)) i 0) (vc_sense c) (value r (EV (vc_right c)) i 0)).
  { intros i Hi. apply holds_diff. exact (H EX HU r i Hi). }
  split; intros X i j Hi Hj; (assert (j = 0%nat) by lia; subst j); apply G; auto.
Qed.
End Exact.

(** ** rejections, without exact arithmetic *)

Lemma vc_inequality_one c w : valid_con (1, 1) (CV c) -> array_degree 1 (EV (vc_left c)) -> array_degree 1 (EV (vc_right c)) -> vc_sense c <> SenseEq -> vc_linear_inequality c w = Panic PRuntime.
Proof.
  intros V D1 D2 HS. unfold vc_linear_inequality. rewrite (vc_check_ok 1 c V). cb. rewrite (vc_require_linear_ok 1 c V D1 D2). cb.
  assert (X : sense_eqb (vc_sense c) SenseEq = false) by (destruct (vc_sense c); congruence || reflexivity). rewrite X. cbn [negb check bind]. rewrite (vc_moved_one c V). reflexivity.
Qed.
Lemma vc_equality_one c w : valid_con (1, 1) (CV c) -> array_degree 1 (EV (vc_left c)) -> array_degree 1 (EV (vc_right c)) -> vc_sense c = SenseEq -> vc_linear_equality c w = Panic PRuntime.
Proof.
  intros V D1 D2 HS. unfold vc_linear_equality. rewrite (vc_check_ok 1 c V). cb. rewrite (vc_require_linear_ok 1 c V D1 D2). cb. rewrite HS. cbn [sense_eqb check bind]. rewrite (vc_moved_one c V). reflexivity.
Qed.
Lemma vc_inequality_nonlinear n c w : valid_con (n, 1) (CV c) -> ~ (array_degree 1 (EV (vc_left c)) /\ array_degree 1 (EV (vc_right c))) -> vc_linear_inequality c w = Panic PLinearRequired.
Proof. intros V D. unfold vc_linear_inequality. rewrite (vc_check_ok n c V). cb. rewrite (vc_require_linear_fail n c V D). reflexivity. Qed.
Lemma vc_equality_nonlinear n c w : valid_con (n, 1) (CV c) -> ~ (array_degree 1 (EV (vc_left c)) /\ array_degree 1 (EV (vc_right c))) -> vc_linear_equality c w = Panic PLinearRequired.
Proof. intros V D. unfold vc_linear_equality. rewrite (vc_check_ok n c V). cb. rewrite (vc_require_linear_fail n c V D). reflexivity. Qed.
Lemma vc_inequality_sense n c w : valid_con (n, 1) (CV c) -> array_degree 1 (EV (vc_left c)) -> array_degree 1 (EV (vc_right c)) -> vc_sense c = SenseEq -> vc_linear_inequality c w = Panic PIneqRequired.
Proof. intros V D1 D2 HS. unfold vc_linear_inequality. rewrite (vc_check_ok n c V). cb. rewrite (vc_require_linear_ok n c V D1 D2). cb. rewrite HS. reflexivity. Qed.
Lemma vc_equality_sense n c w : valid_con (n, 1) (CV c) -> array_degree 1 (EV (vc_left c)) -> array_degree 1 (EV (vc_right c)) -> vc_sense c <> SenseEq -> vc_linear_equality c w = Panic PEqRequired.
Proof.
  intros V D1 D2 HS. unfold vc_linear_equality. rewrite (vc_check_ok n c V). cb. rewrite (vc_require_linear_ok n c V D1 D2). cb.
  assert (X : sense_eqb (vc_sense c) SenseEq = false) by (destruct (vc_sense c); congruence || reflexivity). rewrite X. reflexivity.
Qed.

End ConVec.
