(** * Linear constraints between programs over vectors *)

From Coq Require Import ZArith NArith Bool List Lia Ring.
From Verif Require Import Num Syntax ModelScalar Spec Base ScalarValid Eval ScalarOps ScalarMore ScalarNorm Unamb ModelShape ModelArith SpecArr Arr ArrPlus ArrMul ArrMulTop ArrTop ArrPow ArrShape
  ArrSub ArrFacts ArrOne ModelConstr SpecCon ConProofs ConVec SpecAProg ModelAProg AProgProofs AProgTop.
Import ListNotations.
Local Open Scope num_scope.

Section AProgCon.
Context {NN : Num}.

(** ** Variables of results *)
Lemma arun_occurs p e xs : proper_leaves p -> leaves_among xs p -> arun p = Ok e -> occurs_in xs e.
Proof.
  intros HP HX E.
  assert (G : exists d, adims p = Some d /\ AProgProofs.holds (fun _ f => forall i, (1 <= f i)%Z -> In i (map v_id xs)) d (adegree p) (fun i j r => meaning r p i j) e).
  { apply arun_holds; [| | | | exact HP | | exact E].
    - intros k f g H X i Hi. rewrite X in Hi. exact (H i Hi).
    - intros k f _ X i Hi. rewrite X in Hi. lia.
    - intros k k' f _ H. exact H.
    - intros k k' f g h Hf Hg X i Hi. rewrite X in Hi. destruct (Z_le_gt_dec 1 (f i)) as [L|L]; [exact (Hf i L)|]. apply Hg. lia.
    - refine (everywhere_and _ _ _ p _ HP HX). intros [l| | | | | | | |] H1 H2; try exact I. destruct H1 as [V _]. intros f Hf i Hi. apply H2. exact (has_term_occurs _ l f i V Hf Hi). }
  destruct G as (d & D & V & _ & HT & _). intros i (row & s & R1 & R2 & m & Hm & Hi).
  pose proof (valid_terms s (valid_array_entry _ e row s V R1 R2)) as HV. rewrite Forall_forall in HV. specialize (HV m Hm).
  apply (exponent_pos m i HV) in Hi. apply (HT (exponent m)); [exists row, s, m; auto | exact Hi].
Qed.

(** ** Simplified results are collected *)
Lemma simplified_collected d e e' : valid_array d e -> expr_simplified e = Ok e' -> array_collected e'.
Proof.
  intros V E0. pose proof V as (D1 & D2 & HS & VE).
  destruct (expr_simplified_gen d (fun i j s => entry e i j = s /\ valid s) (fun i j s => valid s /\ collected s) e D1 D2) as (e2 & E & H).
  - intros i j a b HT [Va Ho]. split; [apply valid_terms_iff; rewrite HT; apply valid_terms_iff; exact Va|]. unfold collected in *. rewrite HT. exact Ho.
  - intros i j s H. exact (proj2 H).
  - intros i j s Hi Hj [<- Vs]. exists (ssimplified (entry e i j)). split; [apply scalar_simplified_ok; exact Vs|]. split; [apply ssimplified_valid; exact Vs|].
    apply normal_collected, ssimplified_normal. exact Vs.
  - exact (valid_array_arr d e V).
  - rewrite E0 in E. injection E as <-. intros row s R1 R2. destruct H as [L H]. apply In_nth_error in R1. destruct R1 as (i & Ei). assert (Hi : i < fst d) by (rewrite <- L; apply nth_error_Some; congruence).
    destruct (H i Hi) as (row' & E' & Lr & Hr). assert (row' = row) by congruence. subst row'.
    apply In_nth_error in R2. destruct R2 as (j & Ej). assert (Hj : j < snd d) by (rewrite <- Lr; apply nth_error_Some; congruence).
    destruct (Hr j Hj) as (s' & Es & Hs). assert (s' = s) by congruence. subst s'. exact (proj2 Hs).
Qed.

Lemma vec_comparison_inv v u s c : expr_comparison (EV v) (GExpr (EV u)) s = Ok c -> c = CV (mkVC v u s).
Proof.
  cbn [expr_comparison]. unfold vec_comparison. destruct (check _ _); [|discriminate]. cbn [bind]. destruct (comparison_check _ _ _); [|discriminate]. cbn [bind].
  unfold vec_comparison_right. destruct (vec_len v); [|discriminate]. cbn [bind]. destruct v, u; cbn [bind]; intro E; try discriminate; injection E as <-; reflexivity.
Qed.
Lemma comparison_vectors a b s c : expr_comparison a (GExpr b) s = Ok (CV c) -> ~ is_scalar a -> ~ is_scalar b -> exists v u, a = EV v /\ b = EV u /\ c = mkVC v u s.
Proof.
  intros E Na Nb. destruct a as [x|v|m]; [destruct (Na I)| |].
  - destruct b as [y|u|m]; [destruct (Nb I)| |].
    + exists v, u. split; [reflexivity|]. split; [reflexivity|]. apply vec_comparison_inv in E. congruence.
    + exfalso. cbn [expr_comparison] in E. unfold vec_comparison in E. destruct (check _ _); [|discriminate]. cbn [bind] in E. destruct (comparison_check _ _ _); [|discriminate]. cbn [bind] in E.
      unfold vec_comparison_right in E. destruct (vec_len v); [|discriminate]. cbn [bind] in E. destruct v; discriminate.
  - exfalso. cbn [expr_comparison] in E. unfold mat_comparison in E. destruct (check _ _); [|discriminate]. cbn [bind] in E. destruct (comparison_check _ _ _); [|discriminate]. cbn [bind] in E.
    destruct (mat_comparison_right _ _ _); discriminate.
Qed.

(** ** The constraint between the simplified results *)
Lemma ready_result n w p e : linear_vector n w p -> arun (ASimplified p) = Ok e ->
  valid_array (n, 1)%nat e /\ array_degree 1 e /\ array_collected e /\ occurs_in w e /\ (ExactNum NN -> forall r i, i < n -> value r e i 0 = meaning r p i 0).
Proof.
  intros (HP & D & DG & HL) E.
  assert (HP' : proper_leaves (ASimplified p)) by (split; [exact I | exact HP]). assert (HL' : leaves_among w (ASimplified p)) by (split; [exact I | exact HL]).
  destruct (arun_dims _ e HP' E) as (d & D' & V & _). cbn [adims] in D'. rewrite D in D'. injection D' as <-.
  split; [exact V|]. split; [|split; [|split]].
  - intros row s R1 R2. eapply Forall_impl; [|exact (arun_degree _ e HP' E row s R1 R2)]. cbn [adegree]. intros m Hm. lia.
  - cbn [arun] in E. destruct (arun p) as [x|] eqn:Ex; [|discriminate]. cbn [bind] in E. destruct (arun_dims p x HP Ex) as (d & _ & Vx & _). exact (simplified_collected d x e Vx E).
  - exact (arun_occurs _ e w HP' HL' E).
  - intros EX r i Hi. pose proof (arun_value_degree2 (ASimplified p) e EX HP') as X. cbn [adegree] in X. specialize (X ltac:(lia) E r i 0%nat).
    unfold dims_of in X. cbn [adims] in X. rewrite D in X. cbn [fst snd] in X. exact (X Hi (le_n 1)).
Qed.

Lemma column_not_scalar n e : 2 <= n -> valid_array (n, 1)%nat e -> ~ is_scalar e.
Proof. intros Hn V S. destruct e; try destruct S. pose proof (valid_array_ES _ _ V) as E. injection E as E. lia. Qed.

(** the comparison of the results *)
Lemma program_compared n w p q s v u : linear_vector n w p -> linear_vector n w q -> arun (ASimplified p) = Ok (EV v) -> arun (ASimplified q) = Ok (EV u) ->
  comparison_accepts (EV v) (GExpr (EV u)) = true -> expr_comparison (EV v) (GExpr (EV u)) s = Ok (CV (mkVC v u s)).
Proof.
  intros Hp Hq Ea Eb HA. destruct (ready_result n w p _ Hp Ea) as (V1 & _). destruct (ready_result n w q _ Hq Eb) as (V2 & _).
  cbn [expr_comparison]. unfold vec_comparison. rewrite (proj1 (valid_array_check _ _ V1) : vec_check v = true). cbn [bind check].
  rewrite (comparison_check_ok (EV v) (GExpr (EV u)) (EV u) _ _ s V1 V2 eq_refl (or_introl eq_refl)). cbn [bind check]. unfold vec_comparison_right.
  destruct (valid_vec_dims _ _ V1) as (_ & L & _). rewrite L. cbn [bind check]. destruct v, u; try discriminate; reflexivity.
Qed.

Section Exact.
Context {EX : ExactNum NN}.
Add Ring apconring : (@num_ring NN EX).

Context (n : nat) (w : list var) (p q : aprog) (s : sense) (a b : expr) (c : vector_constraint).
Context (Hn : 2 <= n) (Hp : linear_vector n w p) (Hq : linear_vector n w q) (Hw : w <> []) (Vw : Forall valid_var w) (HN : NoDup (map v_id w)).
Context (Ea : arun (ASimplified p) = Ok a) (Eb : arun (ASimplified q) = Ok b) (Ec : expr_comparison a (GExpr b) s = Ok (CV c)).

Lemma program_repr : s <> SenseOther -> repr_hyps n c w /\ vc_sense c = s
  /\ (forall r, con_sat r (n, 1)%nat (CV c) <-> forall i, i < n -> Spec.holds (meaning r p i 0) s (meaning r q i 0))
  /\ (rows_vary n p q -> involves_variables (n, 1)%nat (CV c)).
Proof.
  intro HS. destruct (ready_result n w p a Hp Ea) as (V1 & D1 & C1 & O1 & X1). destruct (ready_result n w q b Hq Eb) as (V2 & D2 & C2 & O2 & X2). specialize (X1 EX). specialize (X2 EX).
  destruct (comparison_vectors a b s c Ec (column_not_scalar n a Hn V1) (column_not_scalar n b Hn V2)) as (v & u & -> & -> & ->).
  split; [|split; [reflexivity|split]].
  - unfold repr_hyps. cbn [vc_left vc_right]. split; [split; [exact V1|split; [exact V2 | exact HS]]|]. split; [exact D1|]. split; [exact D2|]. split; [exact C1|]. split; [exact C2|].
    split; [exact Hw|]. split; [exact Vw|]. split; [exact HN|]. intros i [H|H]; [exact (O1 i H) | exact (O2 i H)].
  - intro r. unfold con_sat. cbn [fst snd con_left con_right con_sense vc_left vc_right vc_sense]. split.
    + intros H i Hi. specialize (H i 0%nat Hi (le_n 1)). rewrite (X1 r i Hi), (X2 r i Hi) in H. exact H.
    + intros H i j Hi Hj. assert (j = 0%nat) by lia. subst j. rewrite (X1 r i Hi), (X2 r i Hi). exact (H i Hi).
  - intros H i Hi. destruct (H i Hi) as (r & r' & N). exists r, r'. cbn [con_left con_right vc_left vc_right fst] in *. rewrite (X1 r i Hi), (X2 r i Hi), (X1 r' i Hi), (X2 r' i Hi). exact N.
Qed.

Lemma program_inequality A rhs : s = SenseLe \/ s = SenseGe -> vc_linear_inequality c [w] = Ok (A, rhs) ->
  dense_shape (n, length w) A /\ length rhs = n /\ forall r, system_le r A w rhs <-> forall i, i < n -> Spec.holds (meaning r p i 0) s (meaning r q i 0).
Proof.
  intros HS E. destruct program_repr as (R & S & HC & _); [destruct HS as [-> | ->]; discriminate|]. rewrite <- S in HS. destruct (vc_inequality_ok n c w R HS) as [H _].
  destruct (H A rhs E) as (H1 & H2 & H3). split; [exact H1|]. split; [exact H2|]. intro r. rewrite H3. apply HC.
Qed.
Lemma program_equality A rhs : s = SenseEq -> vc_linear_equality c [w] = Ok (A, rhs) ->
  dense_shape (n, length w) A /\ length rhs = n /\ forall r, system_eq r A w rhs <-> forall i, i < n -> Spec.holds (meaning r p i 0) s (meaning r q i 0).
Proof.
  intros HS E. destruct program_repr as (R & S & HC & _); [rewrite HS; discriminate|]. rewrite <- S in HS. destruct (vc_equality_ok n c w R HS) as [H _].
  destruct (H A rhs E) as (H1 & H2 & H3). split; [exact H1|]. split; [exact H2|]. intro r. rewrite H3. apply HC.
Qed.
Lemma program_inequality_total : s = SenseLe \/ s = SenseGe -> rows_vary n p q -> exists A rhs, vc_linear_inequality c [w] = Ok (A, rhs).
Proof.
  intros HS HR. destruct program_repr as (R & S & _ & HI); [destruct HS as [-> | ->]; discriminate|]. rewrite <- S in HS. destruct (vc_inequality_ok n c w R HS) as [_ H]. exact (H Hn (HI HR)).
Qed.
Lemma program_equality_total : s = SenseEq -> rows_vary n p q -> exists A rhs, vc_linear_equality c [w] = Ok (A, rhs).
Proof.
  intros HS HR. destruct program_repr as (R & S & _ & HI); [rewrite HS; discriminate|]. rewrite <- S in HS. destruct (vc_equality_ok n c w R HS) as [_ H]. exact (H Hn (HI HR)).
Qed.
End Exact.
End AProgCon.
