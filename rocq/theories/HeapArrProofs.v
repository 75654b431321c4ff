(** * Calls, histories and programs on vectors and matrices in memory *)

From Coq Require Import ZArith NArith Bool List Lia.
From Verif Require Import Num Syntax ModelScalar ModelShape ModelArith Spec SpecArr SpecAProg ModelAProg Base ModelHeap SpecHeap ModelHeapArr SpecHeapArr HeapMem HeapRef HeapOps HeapOps2 HeapDeriv HeapProofs HeapArr HeapArr2 HeapArr3 HeapArr4.
Import ListNotations.
Local Open Scope num_scope.

Section HeapArrProofs.
Context {NN : Num} {RT : Runtime}.

(** ** One call *)
Lemma arg_rr {A B} (P : world -> A -> B -> Prop) w roots vals k : RL P w roots vals -> rr (P w) (arg roots k) (arg vals k).
Proof. unfold arg, RL. intro H. revert k. induction H as [|s b roots vals R H IH]; intros [|k]; cbn; try reflexivity; [exact R | apply IH]. Qed.
Lemma mapM_rr {X A B} (R : A -> B -> Prop) (f : X -> res A) (g : X -> res B) l : (forall x, rr R (f x) (g x)) -> rr (Forall2 R) (mapM f l) (mapM g l).
Proof. intro H. apply (mapM_rel R f g l H). Qed.
Lemma scalar_of_rr w e x : Re w e x -> rr (Rs w) (ascalar_of e) (scalar_of x).
Proof. intro R. destruct R; cbn; [assumption | reflexivity | reflexivity]. Qed.
Lemma mono_of_rr w e x : Re w e x -> rr (Rm w) (amono_of e) (monomial_of x).
Proof. intro R. destruct R as [s a R| |]; [|reflexivity|reflexivity]. destruct s; destruct R as [F <-]; cbn; try reflexivity. split; [exact F | reflexivity]. Qed.
Lemma poly_of_rr w e x : Re w e x -> rr (Rp w) (apoly_of e) (polynomial_of x).
Proof. intro R. destruct R as [s a R| |]; [|reflexivity|reflexivity]. destruct s; destruct R as [F <-]; cbn; try reflexivity. split; [exact F | reflexivity]. Qed.
Lemma operand_rr w roots vals o : RL Re w roots vals -> rr (Rg w) (aoperand roots o) (operand_value vals o).
Proof.
  intro F. destruct o; cbn [aoperand operand_value rr]; try constructor.
  eapply rr_bind; [apply (arg_rr Re); exact F|]. intros a b R. constructor. exact R.
Qed.

Lemma aexec_refines w roots vals i : RL Re w roots vals -> aharmless vals i -> refines 0 Re w (aexec roots i) (aexec_value vals i).
Proof.
  intros F Ha. pose proof (arg_rr Re w roots vals) as A. 
  assert (AS : forall k, rr (Rs w) (e <- arg roots k ;; ascalar_of e) (e <- arg vals k ;; scalar_of e)) by (intro k; eapply rr_bind; [apply A; exact F | apply scalar_of_rr]).
  assert (AM : forall k, rr (Rm w) (e <- arg roots k ;; amono_of e) (e <- arg vals k ;; monomial_of e)) by (intro k; eapply rr_bind; [apply A; exact F | apply mono_of_rr]).
  assert (AP : forall k, rr (Rp w) (e <- arg roots k ;; apoly_of e) (e <- arg vals k ;; polynomial_of e)) by (intro k; eapply rr_bind; [apply A; exact F | apply poly_of_rr]).
  destruct i; cbn [aexec aexec_value].
  - apply refines_ret. constructor. apply Rs_HK.
  - apply refines_ret. constructor. apply Rs_HV.
  - eapply refines_step; [apply new_mono_refines|]. intros w1 m E R. apply refines_ret. constructor. apply Rs_HM. exact R.
  - apply (st_rr (RL Rm)); [apply mapM_rr; exact AM|]. intros l lb Q. eapply make_refines; [exact Q | lia|]. intros w1 p E R _. apply refines_ret. constructor. apply Rs_HP. exact R.
  - apply refines_ret. repeat constructor.
  - apply refines_ret. repeat constructor.
  - apply (st_rr (RL Rm)); [apply mapM_rr; exact AM|]. intros l lb Q. apply refines_ret. constructor. constructor. exact Q.
  - apply (st_rr (RL Rp)); [apply mapM_rr; exact AP|]. intros l lb Q. apply refines_ret. constructor. constructor. exact Q.
  - apply refines_ret. repeat constructor.
  - apply refines_ret. repeat constructor.
  - apply (st_rr (RL (RL Rm))); [apply mapM_rr; intro; apply mapM_rr; exact AM|]. intros l lb Q. apply refines_ret. constructor. constructor. exact Q.
  - apply (st_rr (RL (RL Rp))); [apply mapM_rr; intro; apply mapM_rr; exact AP|]. intros l lb Q. apply refines_ret. constructor. constructor. exact Q.
  - apply (st_rr Re); [apply A; exact F|]. intros e x R. apply (st_rr Rg); [apply operand_rr; exact F|]. intros g y Rgy. apply expr_plus0; assumption.
  - apply (st_rr Re); [apply A; exact F|]. intros e x R. apply (st_rr Rg); [apply operand_rr; exact F|]. intros g y Rgy. apply expr_minus0; assumption.
  - apply (st_rr Re); [apply A; exact F|]. intros e x R. apply (st_rr Rg); [apply operand_rr; exact F|]. intros g y Rgy. apply expr_mul0; assumption.
  - apply (st_rr Re); [apply A; exact F|]. intros e x R. apply expr_power0; assumption.
  - apply (st_rr Re); [apply A; exact F|]. intros e x R. apply expr_simplified0; assumption.
  - apply (st_rr Re); [apply A; exact F|]. intros e x R. apply expr_transpose0; assumption.
  - apply (st_rr (RL Re)); [apply mapM_rr; intro; apply A; exact F|]. intros l lb Q. apply hstack0. exact Q.
  - apply (st_rr (RL Re)); [apply mapM_rr; intro; apply A; exact F|]. intros l lb Q. apply vstack0. exact Q.
  - apply (st_rr (RL Rs)); [apply mapM_rr; exact AS|]. intros l lb Q. apply concretize_slice0. exact Q.
  - apply (st_rr (RL (RL Rs))); [apply mapM_rr; intro; apply mapM_rr; exact AS|]. intros l lb Q. apply concretize_rows0. exact Q.
  - apply (st_rr Re); [apply A; exact F|]. intros e x R. apply (st_rr Rs); [apply AS|]. intros s a Rsa. apply expr_substitute0; assumption.
  - apply (st_rr Re); [apply A; exact F|]. intros e x R. eapply refines_bind; [apply expr_at0; exact R|]. intros w1 s a E Rsa. apply refines_ret. constructor. exact Rsa.
  - cbn [aharmless] in Ha. apply (st_rr (fun w s a => Rs w s a /\ nth_error vals i = Some (ES a))).
    + specialize (A i F). unfold arg in *. destruct (nth_error roots i) as [e|], (nth_error vals i) as [x|]; cbn in A |- *; try contradiction; try reflexivity.
      destruct A; cbn; try reflexivity. split; [assumption | reflexivity].
    + intros s a [R Hn]. eapply refines_bind; [apply derivative_refines; [exact R | apply linear_mild; apply Ha; exact Hn | lia]|]. intros w1 d b E Rd. apply refines_ret. constructor. exact Rd.
Qed.

(** ** Entries that fit *)
Lemma RL_self {A B} (P : world -> A -> B -> Prop) (f : A -> B) w l : (forall a, In a l -> P w a (f a)) -> RL P w l (map f l).
Proof. intro H. induction l as [|a l IH]; cbn [map]; constructor; [apply H; left; reflexivity|]. apply IH. intros b Hb. apply H. right. exact Hb. Qed.
Lemma fit_Re w e : (forall s, In s (parts e) -> fit w s) -> Re w e (rd_aexpr (wh w) e).
Proof.
  intro H. destruct e as [s|v|m]; cbn [rd_aexpr].
  - constructor. split; [apply H; left; reflexivity | reflexivity].
  - constructor. cbn [parts] in H. destruct v as [l|l|l|l]; cbn [rd_avec av_entries] in *; constructor.
    + apply (RL_self Rm). intros m Hm. split; [|reflexivity]. apply (H (HM m)). apply in_map. exact Hm.
    + apply (RL_self Rp). intros p Hp. split; [|reflexivity]. apply (H (HP p)). apply in_map. exact Hp.
  - constructor. cbn [parts] in H. destruct m as [l|l|l|l]; cbn [rd_amat am_rows] in *; constructor.
    + apply (RL_self (RL Rm)). intros r Hr. apply (RL_self Rm). intros m Hm. split; [|reflexivity]. apply (H (HM m)). apply in_concat. exists (map HM r). split; apply in_map; assumption.
    + apply (RL_self (RL Rp)). intros r Hr. apply (RL_self Rp). intros p Hp. split; [|reflexivity]. apply (H (HP p)). apply in_concat. exists (map HP r). split; apply in_map; assumption.
Qed.
Lemma RL_in {A B} (P : world -> A -> B -> Prop) w l l' a : RL P w l l' -> In a l -> exists b, P w a b.
Proof. intros F Ha. unfold RL in F. induction F as [|x y l l' H F IH]; [contradiction|]. destruct Ha as [->|Ha]; [eauto | apply IH; exact Ha]. Qed.
Lemma Re_fit w e x : Re w e x -> forall s, In s (parts e) -> fit w s.
Proof.
  intros R s Hs. destruct R as [t a R|v a R|m a R]; cbn [parts] in Hs.
  - destruct Hs as [<-|[]]. apply R.
  - destruct (RL_in Rs w _ _ s (Rv_entries _ _ _ R) Hs) as (b & Q). apply Q.
  - apply in_concat in Hs. destruct Hs as (r & Hr & Hs). destruct (RL_in (RL Rs) w _ _ r (RM_rows _ _ _ R) Hr) as (b & Q).
    destruct (RL_in Rs w _ _ s Q Hs) as (c & Qc). apply Qc.
Qed.

Definition aworld (h : heap) (roots : list aexpr) : world := world_of h (flat_map parts roots).
Lemma aworld_rel h roots : all_legal_arrays h roots -> forall e, In e roots -> Re (aworld h roots) e (rd_aexpr h e).
Proof.
  intros Le e He. apply (fit_Re (aworld h roots)). intros s Hs. apply world_fit; [exact Le|]. apply in_flat_map. exists e. split; assumption.
Qed.
Lemma aworld_good h roots : all_legal_arrays h roots -> separate_arrays h roots -> good (aworld h roots).
Proof. intros. apply world_good; assumption. Qed.

(** what a refinement of a call says to its caller *)
Lemma refined_call h roots (x : M aexpr) y r h' : all_legal_arrays h roots -> separate_arrays h roots -> refines 0 Re (aworld h roots) x y -> x h = (r, h') ->
  (forall e, In e roots -> rd_aexpr h' e = rd_aexpr h e) /\ as_array_value h' r = y /\
  (let roots' := match r with Ok t => roots ++ [t] | Panic _ => roots end in all_legal_arrays h' roots' /\ separate_arrays h' roots').
Proof.
  intros Le Se H X. set (w := aworld h roots). destruct (H (aworld_good h roots Le Se)) as (w' & E & G' & Hh & Hr).
  change (wh (aworld h roots)) with h in *. rewrite X in Hh, Hr. cbn [fst snd] in *. subst h'.
  assert (K : forall e, In e roots -> Re w' e (rd_aexpr h e)) by (intros e He; eapply Re_ext; [exact E|]; apply aworld_rel; assumption).
  split; [intros e He; apply Re_rd; apply K; exact He|]. split.
  - destruct r as [t|p], y as [b|q]; try contradiction; cbn [as_array_value]; [rewrite (Re_rd _ _ _ Hr); reflexivity | congruence].
  - assert (Q : forall s, In s (flat_map parts (match r with Ok t => roots ++ [t] | Panic _ => roots end)) -> fit w' s).
    { intros s Hs. apply in_flat_map in Hs. destruct Hs as (e & He & Hs). assert (Ke : exists x, Re w' e x).
      { destruct r as [t|p]; [|eexists; apply K; exact He]. apply in_app_or in He. destruct He as [He|[<-|[]]]; [eexists; apply K; exact He|].
        destruct y as [b|]; [eauto | contradiction]. }
      destruct Ke as (v & Ke). eapply Re_fit; eassumption. }
    split; [intros s Hs; apply fit_legal; apply Q; exact Hs | apply fit_separate; assumption].
Qed.

Theorem acall_spec h roots i r h' : all_legal_arrays h roots -> separate_arrays h roots -> aharmless (map (rd_aexpr h) roots) i -> aexec roots i h = (r, h') ->
  (forall e, In e roots -> rd_aexpr h' e = rd_aexpr h e) /\
  as_array_value h' r = aexec_value (map (rd_aexpr h) roots) i /\
  (let roots' := match r with Ok t => roots ++ [t] | Panic _ => roots end in all_legal_arrays h' roots' /\ separate_arrays h' roots').
Proof.
  intros Le Se Ha X. apply (refined_call h roots (aexec roots i)); [exact Le | exact Se | | exact X].
  apply aexec_refines; [|exact Ha]. apply (RL_self Re). intros e He. apply aworld_rel; assumption.
Qed.

(** ** Histories *)
Lemma ahistory_spec l : forall h roots h' roots', all_legal_arrays h roots -> separate_arrays h roots -> aharmless_history (map (rd_aexpr h) roots) l ->
  ahistory h roots l = (h', roots') ->
  map (rd_aexpr h') roots' = ahistory_values (map (rd_aexpr h) roots) l /\ (forall e, In e roots -> rd_aexpr h' e = rd_aexpr h e) /\
  all_legal_arrays h' roots' /\ separate_arrays h' roots'.
Proof.
  induction l as [|i l IH]; intros h roots h' roots' Le Se Ha X; cbn [ahistory ahistory_values aharmless_history] in *.
  - injection X as <- <-. split; [reflexivity|]. split; [reflexivity|]. split; [exact Le | exact Se].
  - destruct Ha as [Ha Hl]. destruct (aexec roots i h) as [r h1] eqn:Ex. destruct (acall_spec h roots i r h1 Le Se Ha Ex) as (K & V & Le1 & Se1).
    set (roots1 := match r with Ok t => roots ++ [t] | Panic _ => roots end) in *.
    assert (Km : map (rd_aexpr h1) roots = map (rd_aexpr h) roots) by (apply map_ext_in; exact K).
    assert (M1 : map (rd_aexpr h1) roots1 = match aexec_value (map (rd_aexpr h) roots) i with Ok t => map (rd_aexpr h) roots ++ [t] | Panic _ => map (rd_aexpr h) roots end).
    { rewrite <- V. unfold roots1. destruct r as [t|p]; cbn [as_array_value]; [rewrite map_app, Km; reflexivity | exact Km]. }
    rewrite <- M1 in Hl. destruct (IH h1 roots1 h' roots' Le1 Se1 Hl X) as (I1 & I2 & I3 & I4). split; [rewrite I1, M1; reflexivity|]. split; [|split; [exact I3 | exact I4]].
    intros e He. rewrite I2; [apply K; exact He|]. unfold roots1. destruct r; [apply in_or_app; left; exact He | exact He].
Qed.
Lemma no_call_harmless l : Forall no_derivative_call l -> forall vals, aharmless_history vals l.
Proof. intro F. induction F as [|i l Hi F IH]; intro vals; cbn; [exact I|]. split; [|apply IH]. destruct i; try exact I. contradiction. Qed.
Lemma empty_legal_arrays : all_legal_arrays empty_heap [] /\ separate_arrays empty_heap [].
Proof. exact empty_legal. Qed.
Lemma ahistory_app l1 : forall l2 h roots, ahistory h roots (l1 ++ l2) = (let (h1, r1) := ahistory h roots l1 in ahistory h1 r1 l2).
Proof. induction l1 as [|i l1 IH]; intros l2 h roots; cbn [ahistory app]; [reflexivity|]. destruct (aexec roots i h). apply IH. Qed.
Lemma aharmless_app l1 : forall l2 vals, aharmless_history vals (l1 ++ l2) -> aharmless_history vals l1 /\ aharmless_history (ahistory_values vals l1) l2.
Proof. induction l1 as [|i l1 IH]; intros l2 vals H; cbn [ahistory_values aharmless_history app] in *; [split; [exact I | exact H]|]. destruct H as [H1 H2]. apply IH in H2. tauto. Qed.

Theorem array_history_correct l h roots : aharmless_history [] l -> ahistory empty_heap [] l = (h, roots) -> map (rd_aexpr h) roots = ahistory_values [] l.
Proof. intros Ha X. destruct empty_legal_arrays as [Le Se]. destruct (ahistory_spec l _ _ _ _ Le Se Ha X) as (V & _). exact V. Qed.
Theorem array_history_kept l1 l2 h1 roots1 h2 roots2 : aharmless_history [] (l1 ++ l2) ->
  ahistory empty_heap [] l1 = (h1, roots1) -> ahistory empty_heap [] (l1 ++ l2) = (h2, roots2) -> forall e, In e roots1 -> rd_aexpr h2 e = rd_aexpr h1 e.
Proof.
  intros Ha X1 X2. rewrite ahistory_app, X1 in X2. destruct empty_legal_arrays as [Le Se]. apply aharmless_app in Ha. destruct Ha as [Ha Hb].
  destruct (ahistory_spec l1 _ _ _ _ Le Se Ha X1) as (V & _ & Le1 & Se1). cbn [map] in V. rewrite <- V in Hb.
  destruct (ahistory_spec l2 _ _ _ _ Le1 Se1 Hb X2) as (_ & K & _). exact K.
Qed.
Theorem array_arithmetic_keeps l1 l2 h1 roots1 h2 roots2 : Forall no_derivative_call (l1 ++ l2) ->
  ahistory empty_heap [] l1 = (h1, roots1) -> ahistory empty_heap [] (l1 ++ l2) = (h2, roots2) ->
  (forall e, In e roots1 -> rd_aexpr h2 e = rd_aexpr h1 e) /\ map (rd_aexpr h2) roots2 = ahistory_values [] (l1 ++ l2).
Proof.
  intros F X1 X2. pose proof (no_call_harmless _ F []) as Ha. split; [eapply array_history_kept; eassumption | eapply array_history_correct; eassumption].
Qed.

(** ** Programs *)
Lemma run_refines p : forall w roots, (forall e, In e roots -> Re w e (rd_aexpr (wh w) e)) -> leaves_in roots p -> forall w', ext 0 w w' ->
  refines 0 Re w' (run_in_memory p) (arun (program_of (wh w) p)).
Proof.
  induction p as [e|a IHa b IHb|a IHa b IHb|a IHa b IHb|a IHa n|a IHa|a IHa|a IHa b IHb|a IHa b IHb]; intros w roots F L w' E; cbn [leaves_in run_in_memory program_of arun] in *.
  - apply refines_ret. eapply Re_ext; [exact E | apply F; exact L].
  - destruct L as [L1 L2]. eapply refines_bind; [eapply IHa; eassumption|]. intros w1 x u E1 R1. eapply refines_bind; [eapply IHb; [exact F | exact L2 | eapply ext_trans; eassumption]|].
    intros w2 y v E2 R2. apply expr_plus0; [eapply Re_ext; eassumption | constructor; exact R2].
  - destruct L as [L1 L2]. eapply refines_bind; [eapply IHa; eassumption|]. intros w1 x u E1 R1. eapply refines_bind; [eapply IHb; [exact F | exact L2 | eapply ext_trans; eassumption]|].
    intros w2 y v E2 R2. apply expr_minus0; [eapply Re_ext; eassumption | constructor; exact R2].
  - destruct L as [L1 L2]. eapply refines_bind; [eapply IHa; eassumption|]. intros w1 x u E1 R1. eapply refines_bind; [eapply IHb; [exact F | exact L2 | eapply ext_trans; eassumption]|].
    intros w2 y v E2 R2. apply expr_mul0; [eapply Re_ext; eassumption | constructor; exact R2].
  - eapply refines_bind; [eapply IHa; eassumption|]. intros w1 x u E1 R1. apply expr_power0. exact R1.
  - eapply refines_bind; [eapply IHa; eassumption|]. intros w1 x u E1 R1. apply expr_transpose0. exact R1.
  - eapply refines_bind; [eapply IHa; eassumption|]. intros w1 x u E1 R1. apply expr_simplified0. exact R1.
  - destruct L as [L1 L2]. eapply refines_bind; [eapply IHa; eassumption|]. intros w1 x u E1 R1. eapply refines_bind; [eapply IHb; [exact F | exact L2 | eapply ext_trans; eassumption]|].
    intros w2 y v E2 R2. apply hstack0. constructor; [eapply Re_ext; eassumption|]. constructor; [exact R2 | constructor].
  - destruct L as [L1 L2]. eapply refines_bind; [eapply IHa; eassumption|]. intros w1 x u E1 R1. eapply refines_bind; [eapply IHb; [exact F | exact L2 | eapply ext_trans; eassumption]|].
    intros w2 y v E2 R2. apply vstack0. constructor; [eapply Re_ext; eassumption|]. constructor; [exact R2 | constructor].
Qed.
Theorem program_in_memory h roots p r h' : all_legal_arrays h roots -> separate_arrays h roots -> leaves_in roots p -> run_in_memory p h = (r, h') ->
  (forall e, In e roots -> rd_aexpr h' e = rd_aexpr h e) /\ as_array_value h' r = arun (program_of h p) /\
  (let roots' := match r with Ok t => roots ++ [t] | Panic _ => roots end in all_legal_arrays h' roots' /\ separate_arrays h' roots').
Proof.
  intros Le Se L X. apply (refined_call h roots (run_in_memory p)); [exact Le | exact Se | | exact X].
  change h with (wh (aworld h roots)) at 2. apply (run_refines p (aworld h roots) roots); [|exact L | apply ext_refl]. intros e He. apply aworld_rel; assumption.
Qed.

End HeapArrProofs.
