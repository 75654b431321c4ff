(** * Sessions with expressions and constraints in memory *)

From Coq Require Import ZArith NArith Bool List Lia.
From Verif Require Import Num Syntax ModelScalar ModelShape ModelArith ModelSC ModelConstr Spec SpecArr SpecCon SpecAProg ModelAProg Base ModelHeap SpecHeap ModelHeapArr SpecHeapArr
  ModelHeapCon SpecHeapCon HeapMem HeapRef HeapOps HeapOps2 HeapProofs HeapArr HeapArr2 HeapArr3 HeapArr4 HeapArrProofs HeapCon AProgCon.
Import ListNotations.
Local Open Scope num_scope.

Section HeapConProofs.
Context {NN : Num} {RT : Runtime}.

(** ** One call *)
Inductive Ro (w : world) : outcome aexpr acon -> outcome expr constraint -> Prop :=
| Ro_E e x : Re w e x -> Ro w (NewExpr e) (NewExpr x)
| Ro_C l l' : RL Rc w l l' -> Ro w (NewCons l) (NewCons l')
| Ro_A d : Ro w (Answer d) (Answer d).

Lemma Rc_left w c d : Rc w c d -> Re w (acon_left c) (con_left d).
Proof. intros [c0 d0 []|c0 d0 []|c0 d0 []]; cbn; constructor; assumption. Qed.
Lemma Rc_right w c d : Rc w c d -> Re w (acon_right c) (con_right d).
Proof. intros [c0 d0 []|c0 d0 []|c0 d0 []]; cbn; constructor; assumption. Qed.
Lemma sc_of_rr w c d : Rc w c d -> rr (Rsc w) (asc_of c) (sc_of d).
Proof. intros []; cbn; [assumption | reflexivity | reflexivity]. Qed.
Lemma vc_of_rr w c d : Rc w c d -> rr (Rvc w) (avc_of c) (vc_of d).
Proof. intros []; cbn; [reflexivity | assumption | reflexivity]. Qed.
Lemma mc_of_rr w c d : Rc w c d -> rr (Rmc w) (amc_of c) (mc_of d).
Proof. intros []; cbn; [reflexivity | reflexivity | assumption]. Qed.
Lemma map_of_rr w es vals sm : RL Re w es vals -> rr (RL Rkv w) (amap_of es sm) (map_of vals sm).
Proof.
  intro F. apply (mapM_rr (Rkv w)). intros [k j]. cbn [fst snd]. eapply rr_bind; [apply (arg_rr Re); exact F|]. intros e x R. split; [reflexivity | exact R].
Qed.
Lemma one_con w c d : Rc w c d -> Ro w (NewCons [c]) (NewCons [d]).
Proof. intro R. constructor. constructor; [exact R | constructor]. Qed.

Lemma cexec_refines w es vals cs cons i : RL Re w es vals -> RL Rc w cs cons -> charmless vals i -> refines 0 Ro w (cexec es cs i) (cexec_value vals cons i).
Proof.
  intros F G Ha. pose proof (fun k => arg_rr Re w es vals k F) as A. pose proof (fun k => arg_rr Rc w cs cons k G) as B.
  destruct i; cbn [cexec cexec_value charmless] in *.
  - bnc; [apply aexec_refines; eassumption|]. apply refines_ret. constructor. assumption.
  - apply (st_rr Re); [apply A|]. intros e x R. apply (st_rr (RL Rkv)); [apply map_of_rr; exact F|]. intros m m' Q. bnc; [apply expr_map0; eassumption|]. apply refines_ret. constructor. assumption.
  - apply (st_rr Re); [apply A|]. intros e x R. apply (st_rr Rg); [apply operand_rr; exact F|]. intros g y Q. bnc; [apply comparison0; eassumption|]. apply refines_ret. apply one_con. assumption.
  - apply (st_rr Rc); [apply B|]. intros c' d R. apply refines_ret. constructor. apply Rc_left. exact R.
  - apply (st_rr Rc); [apply B|]. intros c' d R. apply refines_ret. constructor. apply Rc_right. exact R.
  - apply (st_rr Rc); [apply B|]. intros c' d R. bnc; [apply con_simplified0; eassumption|]. apply refines_ret. apply one_con. assumption.
  - apply (st_rr Rsc); [eapply rr_bind; [apply B | apply sc_of_rr]|]. intros c' d R. bnc; [apply sc_scale0; eassumption|]. apply refines_ret. apply one_con. constructor. assumption.
  - apply (st_rr Rc); [apply B|]. intros c' d R. apply (st_rr Rs); [eapply rr_bind; [apply A | apply scalar_of_rr]|]. intros s t Q. bnc; [apply con_substitute0; eassumption|]. apply refines_ret. apply one_con. assumption.
  - apply (st_rr Rc); [apply B|]. intros c' d R. apply (st_rr (RL Rkv)); [apply map_of_rr; exact F|]. intros m1 m1' Q1. apply (st_rr (RL Rkv)); [apply map_of_rr; exact F|]. intros m2 m2' Q2.
    bnc; [apply con_map0; eassumption|]. apply refines_ret. apply one_con. assumption.
  - apply (st_rr Rvc); [eapply rr_bind; [apply B | apply vc_of_rr]|]. intros c' d R. bnc; [apply vc_at0; eassumption|]. apply refines_ret. apply one_con. constructor. assumption.
  - apply (st_rr Rmc); [eapply rr_bind; [apply B | apply mc_of_rr]|]. intros c' d R. bnc; [apply mc_at0; eassumption|]. apply refines_ret. apply one_con. constructor. assumption.
  - apply (st_rr (RL Rc)); [apply mapM_rr; exact B|]. intros l l' Q. bnc; [apply compile0; eassumption|]. apply refines_ret. constructor. eapply RL_map; [|eassumption]. intros; constructor; assumption.
  - apply (st_rr Rc); [apply B|]. intros c' d R. destruct R as [c0 d0 R|c0 d0 R|c0 d0 R]; [| |apply refines_fail].
    + eapply (refines_bind 0 Req); [apply sc_inequality0; exact R|]. intros w1 x y E Q. unfold Req in Q. subst y. apply refines_ret. constructor.
    + eapply (refines_bind 0 Req); [apply vc_inequality0; exact R|]. intros w1 x y E Q. unfold Req in Q. subst y. apply refines_ret. constructor.
  - apply (st_rr Rc); [apply B|]. intros c' d R. destruct R as [c0 d0 R|c0 d0 R|c0 d0 R]; [| |apply refines_fail].
    + eapply (refines_bind 0 Req); [apply sc_equality0; exact R|]. intros w1 x y E Q. unfold Req in Q. subst y. apply refines_ret. constructor.
    + eapply (refines_bind 0 Req); [apply vc_equality0; exact R|]. intros w1 x y E Q. unfold Req in Q. subst y. apply refines_ret. constructor.
  - apply (st_rr Rc); [apply B|]. intros c1 d1 R1. apply (st_rr Rc); [apply B|]. intros c2 d2 R2. eapply (refines_bind 0 Req); [apply con_implies0; eassumption|]. intros w1 x y E Q. unfold Req in Q. subst y. apply refines_ret. constructor.
  - apply (st_rr Rsc); [eapply rr_bind; [apply B | apply sc_of_rr]|]. intros c' d R. eapply (refines_bind 0 Req); [apply sc_nonneg0; eassumption|]. intros w1 x y E Q. unfold Req in Q. subst y. apply refines_ret. constructor.
  - apply (st_rr Rc); [apply B|]. intros c' d R. apply (st_con _ (con_variables order)); [exact R|]. intro l. apply refines_ret. constructor.
  - apply (st_rr Rc); [apply B|]. intros c' d R. apply (st_con _ con_is_linear); [exact R|]. intro b. apply refines_ret. constructor.
  - apply (st_rr Rc); [apply B|]. intros c' d R. apply (st_con _ con_check); [exact R|]. intros _. apply refines_ret. constructor.
Qed.

(** ** Constraints that fit *)
Lemma fit_Rc w c : (forall s, In s (flat_map parts (sides c)) -> fit w s) -> Rc w c (rd_acon (wh w) c).
Proof.
  intro H. assert (L : Re w (acon_left c) (rd_aexpr (wh w) (acon_left c))) by (apply fit_Re; intros s Hs; apply H; apply in_flat_map; exists (acon_left c); split; [left; reflexivity | exact Hs]).
  assert (R : Re w (acon_right c) (rd_aexpr (wh w) (acon_right c))) by (apply fit_Re; intros s Hs; apply H; apply in_flat_map; exists (acon_right c); split; [right; left; reflexivity | exact Hs]).
  destruct c as [[l r s]|[l r s]|[l r s]]; cbn in L, R |- *; constructor; constructor; inversion L; inversion R; subst; assumption.
Qed.
Lemma Rc_fit w c d : Rc w c d -> forall s, In s (flat_map parts (sides c)) -> fit w s.
Proof.
  intros R s Hs. apply in_flat_map in Hs. destruct Hs as (e & [<-|[<-|[]]] & Hs); [apply (Re_fit w _ _ (Rc_left _ _ _ R)) | apply (Re_fit w _ _ (Rc_right _ _ _ R))]; exact Hs.
Qed.
Lemma in_use_expr es cs e : In e es -> In e (in_use es cs).
Proof. intro H. unfold in_use. apply in_or_app. left. exact H. Qed.
Lemma cworld_con h es cs c : all_legal_arrays h (in_use es cs) -> In c cs -> Rc (aworld h (in_use es cs)) c (rd_acon h c).
Proof.
  intros Le Hc. apply (fit_Rc (aworld h (in_use es cs))). intros s Hs. apply world_fit; [exact Le|]. apply in_flat_map in Hs. destruct Hs as (e & He & Hs). apply in_flat_map. exists e. split; [|exact Hs].
  unfold in_use. apply in_or_app. right. apply in_flat_map. exists c. split; assumption.
Qed.

Theorem ccall_spec h es cs i r h' : all_legal_arrays h (in_use es cs) -> separate_arrays h (in_use es cs) -> charmless (map (rd_aexpr h) es) i -> cexec es cs i h = (r, h') ->
  (forall e, In e es -> rd_aexpr h' e = rd_aexpr h e) /\ (forall c, In c cs -> rd_acon h' c = rd_acon h c) /\
  shown h' r = cexec_value (map (rd_aexpr h) es) (map (rd_acon h) cs) i /\
  (let u := in_use (es ++ new_exprs r) (cs ++ new_cons r) in all_legal_arrays h' u /\ separate_arrays h' u).
Proof.
  intros Le Se Ha X. set (u0 := in_use es cs) in *.
  assert (F : RL Re (aworld h u0) es (map (rd_aexpr h) es)) by (apply (RL_self Re); intros e He; apply aworld_rel; [exact Le | apply in_use_expr; exact He]).
  assert (G : RL Rc (aworld h u0) cs (map (rd_acon h) cs)) by (apply (RL_self Rc); intros c Hc; apply cworld_con; [exact Le | exact Hc]).
  destruct (cexec_refines _ _ _ _ _ i F G Ha (aworld_good h u0 Le Se)) as (w' & E & G' & Hh & Hr). change (wh (aworld h u0)) with h in *. rewrite X in Hh, Hr. cbn [fst snd] in *. subst h'.
  assert (KE : forall e, In e es -> Re w' e (rd_aexpr h e)) by (intros e He; eapply Re_ext; [exact E|]; apply aworld_rel; [exact Le | apply in_use_expr; exact He]).
  assert (KC : forall c, In c cs -> Rc w' c (rd_acon h c)) by (intros c Hc; eapply Rc_st; [exact E|]; apply cworld_con; [exact Le | exact Hc]).
  split; [intros e He; apply Re_rd; apply KE; exact He|]. split; [intros c Hc; apply Rc_rd; apply KC; exact Hc|].
  set (y := cexec_value (map (rd_aexpr h) es) (map (rd_acon h) cs) i) in *. clearbody y.
  assert (NE : forall e, In e (new_exprs r) -> exists x, Re w' e x).
  { intros e He. destruct r as [[e0|l|d]|p]; cbn in He; try contradiction. destruct He as [<-|[]]. destruct y as [b|]; [|contradiction]. inversion Hr; subst. eauto. }
  assert (NC : forall c, In c (new_cons r) -> exists d, Rc w' c d).
  { intros c Hc. destruct r as [[e0|l|d]|p]; cbn in Hc; try contradiction. destruct y as [b|]; [|contradiction]. inversion Hr as [|? ? Q|]; subst. exact (RL_in Rc w' _ _ c Q Hc). }
  split.
  - destruct r as [o|p], y as [b|q]; try contradiction; cbn [shown]; [|congruence]. destruct Hr as [e x R|l l' Q|d]; [rewrite (Re_rd _ _ _ R); reflexivity| |reflexivity].
    assert (M : map (rd_acon (wh w')) l = l'); [|rewrite M; reflexivity]. unfold RL in Q. clear - Q. induction Q as [|c d l l' R Q IH]; cbn [map]; [reflexivity|]. rewrite IH, (Rc_rd _ _ _ R). reflexivity.
  - assert (Q : forall s, In s (flat_map parts (in_use (es ++ new_exprs r) (cs ++ new_cons r))) -> fit w' s).
    { intros s Hs. apply in_flat_map in Hs. destruct Hs as (e & He & Hs). unfold in_use in He. apply in_app_or in He. destruct He as [He|He].
      - apply in_app_or in He. destruct He as [He|He]; [eapply Re_fit; [apply KE; exact He | exact Hs]|]. destruct (NE e He) as (x & R). eapply Re_fit; eassumption.
      - apply in_flat_map in He. destruct He as (c & Hc & He). assert (Kc : exists d, Rc w' c d) by (apply in_app_or in Hc; destruct Hc as [Hc|Hc]; [eexists; apply KC; exact Hc | apply NC; exact Hc]).
        destruct Kc as (d & R). apply (Rc_fit _ _ _ R). apply in_flat_map. exists e. split; assumption. }
    split; [intros s Hs; apply fit_legal; apply Q; exact Hs | apply fit_separate; assumption].
Qed.

(** ** Sessions *)
Lemma session_spec l : forall h es cs h' es' cs' t, all_legal_arrays h (in_use es cs) -> separate_arrays h (in_use es cs) -> charmless_session (map (rd_aexpr h) es) (map (rd_acon h) cs) l ->
  session h es cs l = ((h', es', cs'), t) ->
  (values_of (h', es', cs'), t) = session_values (map (rd_aexpr h) es) (map (rd_acon h) cs) l /\
  (forall e, In e es -> rd_aexpr h' e = rd_aexpr h e) /\ (forall c, In c cs -> rd_acon h' c = rd_acon h c) /\
  all_legal_arrays h' (in_use es' cs') /\ separate_arrays h' (in_use es' cs').
Proof.
  induction l as [|i l IH]; intros h es cs h' es' cs' t Le Se Ha X; cbn [session session_values charmless_session] in *.
  - injection X as <- <- <- <-. split; [reflexivity|]. split; [reflexivity|]. split; [reflexivity|]. split; [exact Le | exact Se].
  - destruct Ha as [Ha Hl]. destruct (cexec es cs i h) as [r h1] eqn:Ex. destruct (ccall_spec h es cs i r h1 Le Se Ha Ex) as (KE & KC & V & Le1 & Se1).
    destruct (session h1 (es ++ new_exprs r) (cs ++ new_cons r) l) as [st t1] eqn:Xs. injection X as -> <-.
    assert (ME : map (rd_aexpr h1) es = map (rd_aexpr h) es) by (apply map_ext_in; exact KE).
    assert (MC : map (rd_acon h1) cs = map (rd_acon h) cs) by (apply map_ext_in; exact KC).
    assert (M1 : map (rd_aexpr h1) (es ++ new_exprs r) = map (rd_aexpr h) es ++ new_exprs (cexec_value (map (rd_aexpr h) es) (map (rd_acon h) cs) i)).
    { rewrite <- V, map_app, ME. f_equal. destruct r as [[e0|l0|d]|p]; reflexivity. }
    assert (M2 : map (rd_acon h1) (cs ++ new_cons r) = map (rd_acon h) cs ++ new_cons (cexec_value (map (rd_aexpr h) es) (map (rd_acon h) cs) i)).
    { rewrite <- V, map_app, MC. f_equal. destruct r as [[e0|l0|d]|p]; reflexivity. }
    rewrite <- M1, <- M2 in Hl. destruct (IH h1 _ _ h' es' cs' t1 Le1 Se1 Hl Xs) as (I1 & I2 & I3 & I4 & I5). rewrite M1, M2 in I1. split; [|split; [|split; [|split; [exact I4 | exact I5]]]].
    + rewrite <- I1, V. reflexivity.
    + intros e He. rewrite I2; [apply KE; exact He | apply in_or_app; left; exact He].
    + intros c Hc. rewrite I3; [apply KC; exact Hc | apply in_or_app; left; exact Hc].
Qed.
Lemma empty_legal_session : all_legal_arrays empty_heap (in_use [] []) /\ separate_arrays empty_heap (in_use [] []).
Proof. exact empty_legal. Qed.
Lemma no_step_harmless l : Forall no_derivative_step l -> forall vals cons, charmless_session vals cons l.
Proof. intro F. induction F as [|i l Hi F IH]; intros vals cons; cbn; [exact I|]. split; [|apply IH]. destruct i as [i| | | | | | | | | | | | | | | | | |]; try exact I. destruct i; try exact I. contradiction. Qed.
Lemma session_app l1 : forall l2 h es cs, session h es cs (l1 ++ l2) =
  (let '((h1, es1, cs1), t1) := session h es cs l1 in let (st, t2) := session h1 es1 cs1 l2 in (st, t1 ++ t2)).
Proof.
  induction l1 as [|i l1 IH]; intros l2 h es cs; cbn [session app]; [destruct (session h es cs l2); reflexivity|]. destruct (cexec es cs i h) as [r h1]. rewrite IH.
  destruct (session h1 _ _ l1) as [[[h2 es2] cs2] t1]. destruct (session h2 es2 cs2 l2) as [st t2]. reflexivity.
Qed.
Lemma charmless_app l1 : forall l2 vals cons, charmless_session vals cons (l1 ++ l2) ->
  charmless_session vals cons l1 /\ charmless_session (fst (fst (session_values vals cons l1))) (snd (fst (session_values vals cons l1))) l2.
Proof.
  induction l1 as [|i l1 IH]; intros l2 vals cons H; cbn [session_values charmless_session app fst snd] in *; [split; [exact I | exact H]|]. destruct H as [H1 H2]. apply IH in H2.
  destruct (session_values (vals ++ _) _ l1) as [st t]. cbn [fst snd] in *. tauto.
Qed.

Theorem session_correct l st t : charmless_session [] [] l -> session empty_heap [] [] l = (st, t) -> (values_of st, t) = session_values [] [] l.
Proof.
  intros Ha X. destruct st as [[h es] cs]. destruct empty_legal_session as [Le Se]. destruct (session_spec l _ _ _ _ _ _ _ Le Se Ha X) as (V & _). exact V.
Qed.
Theorem session_kept l1 l2 h1 es1 cs1 t1 h2 es2 cs2 t2 : charmless_session [] [] (l1 ++ l2) ->
  session empty_heap [] [] l1 = ((h1, es1, cs1), t1) -> session empty_heap [] [] (l1 ++ l2) = ((h2, es2, cs2), t2) ->
  (forall e, In e es1 -> rd_aexpr h2 e = rd_aexpr h1 e) /\ (forall c, In c cs1 -> rd_acon h2 c = rd_acon h1 c).
Proof.
  intros Ha X1 X2. rewrite session_app, X1 in X2. destruct (session h1 es1 cs1 l2) as [st t] eqn:X. injection X2 as -> _. destruct empty_legal_session as [Le Se].
  apply charmless_app in Ha. destruct Ha as [Ha Hb]. destruct (session_spec l1 _ _ _ _ _ _ _ Le Se Ha X1) as (V & _ & _ & Le1 & Se1). cbn [map] in V. rewrite <- V in Hb. cbn [fst snd values_of] in Hb.
  destruct (session_spec l2 _ _ _ _ _ _ _ Le1 Se1 Hb X) as (_ & KE & KC & _). split; assumption.
Qed.
Theorem session_plain l1 l2 h1 es1 cs1 t1 h2 es2 cs2 t2 : Forall no_derivative_step (l1 ++ l2) ->
  session empty_heap [] [] l1 = ((h1, es1, cs1), t1) -> session empty_heap [] [] (l1 ++ l2) = ((h2, es2, cs2), t2) ->
  (forall e, In e es1 -> rd_aexpr h2 e = rd_aexpr h1 e) /\ (forall c, In c cs1 -> rd_acon h2 c = rd_acon h1 c) /\
  (values_of (h2, es2, cs2), t2) = session_values [] [] (l1 ++ l2).
Proof.
  intros F X1 X2. pose proof (no_step_harmless _ F [] []) as Ha. destruct (session_kept _ _ _ _ _ _ _ _ _ _ Ha X1 X2) as [KE KC]. split; [exact KE|]. split; [exact KC|]. apply session_correct; assumption.
Qed.

(** ** From programs to solver matrices *)
Section System.
Context (extract : hvc -> list (list var) -> M (list (list num) * list num)) (extractv : vector_constraint -> list (list var) -> res (list (list num) * list num)).
Context (EX : forall w c d wrt, Rvc w c d -> refines 0 Req w (extract c wrt) (extractv d wrt)).
Lemma system_refines w roots p q s xs : (forall e, In e roots -> Re w e (rd_aexpr (wh w) e)) -> leaves_in roots p -> leaves_in roots q ->
  refines 0 Req w (system_in_memory extract p q s xs)
    (x <- arun (ASimplified (program_of (wh w) p)) ;; y <- arun (ASimplified (program_of (wh w) q)) ;; c <- expr_comparison x (GExpr y) s ;;
     match c with CV c => extractv c [xs] | _ => Panic POther end).
Proof.
  intros F Lp Lq. unfold system_in_memory. eapply refines_bind; [apply (run_refines (QSimplified p) w roots F Lp w (ext_refl _ _))|]. intros w1 x u E1 R1.
  eapply refines_bind; [apply (run_refines (QSimplified q) w roots F Lq w1 E1)|]. intros w2 y v E2 R2.
  eapply (refines_bind 0 Rc); [apply comparison0; [eapply Re_ext; eassumption | constructor; exact R2]|]. intros w3 c d E3 R3.
  destruct R3 as [c0 d0 R|c0 d0 R|c0 d0 R]; [apply refines_fail | apply EX; exact R | apply refines_fail].
Qed.
Lemma system_call h roots p q s xs r h' : all_legal_arrays h roots -> separate_arrays h roots -> leaves_in roots p -> leaves_in roots q -> system_in_memory extract p q s xs h = (r, h') ->
  (forall e, In e roots -> rd_aexpr h' e = rd_aexpr h e) /\
  r = (x <- arun (ASimplified (program_of h p)) ;; y <- arun (ASimplified (program_of h q)) ;; c <- expr_comparison x (GExpr y) s ;; match c with CV c => extractv c [xs] | _ => Panic POther end).
Proof.
  intros Le Se Lp Lq X. assert (F : forall e, In e roots -> Re (aworld h roots) e (rd_aexpr (wh (aworld h roots)) e)) by (intros e He; apply aworld_rel; assumption).
  destruct (system_refines (aworld h roots) roots p q s xs F Lp Lq (aworld_good h roots Le Se)) as (w' & E & _ & Hh & Hr). change (wh (aworld h roots)) with h in *. rewrite X in Hh, Hr. cbn [fst snd] in *. subst h'.
  split; [intros e He; apply Re_rd; eapply Re_ext; [exact E | apply F; exact He]|].
  match type of Hr with match r with Ok _ => match ?y with _ => _ end | Panic _ => _ end => destruct r as [a|p0], y as [b|q0]; try contradiction; unfold Req in *; congruence end.
Qed.
End System.

Theorem inequality_in_memory (EX : ExactNum NN) n h roots w p q s A b h' : (2 <= n)%nat -> all_legal_arrays h roots -> separate_arrays h roots -> leaves_in roots p -> leaves_in roots q ->
  linear_vector n w (program_of h p) -> linear_vector n w (program_of h q) -> w <> [] -> Forall valid_var w -> NoDup (map v_id w) -> s = SenseLe \/ s = SenseGe ->
  system_in_memory h_vc_linear_inequality p q s w h = (Ok (A, b), h') ->
  (forall e, In e roots -> rd_aexpr h' e = rd_aexpr h e) /\ dense_shape (n, length w) A /\ length b = n /\
  forall r, system_le r A w b <-> forall i, (i < n)%nat -> holds (meaning r (program_of h p) i 0) s (meaning r (program_of h q) i 0).
Proof.
  intros N Le Se Lp Lq P Q W Vw Nw S X. destruct (system_call h_vc_linear_inequality vc_linear_inequality vc_inequality0 _ _ _ _ _ _ _ _ Le Se Lp Lq X) as [K V]. split; [exact K|]. symmetry in V.
  destruct (arun (ASimplified (program_of h p))) as [x|] eqn:E1; [|discriminate V]. destruct (arun (ASimplified (program_of h q))) as [y|] eqn:E2; [|discriminate V]. cbn [bind] in V.
  destruct (expr_comparison x (GExpr y) s) as [c|] eqn:E3; [|discriminate V]. cbn [bind] in V. destruct c as [c|c|c]; [discriminate V | | discriminate V].
  exact (program_inequality n w _ _ s x y c N P Q W Vw Nw E1 E2 E3 A b S V).
Qed.
Theorem equality_in_memory (EX : ExactNum NN) n h roots w p q s A b h' : (2 <= n)%nat -> all_legal_arrays h roots -> separate_arrays h roots -> leaves_in roots p -> leaves_in roots q ->
  linear_vector n w (program_of h p) -> linear_vector n w (program_of h q) -> w <> [] -> Forall valid_var w -> NoDup (map v_id w) -> s = SenseEq ->
  system_in_memory h_vc_linear_equality p q s w h = (Ok (A, b), h') ->
  (forall e, In e roots -> rd_aexpr h' e = rd_aexpr h e) /\ dense_shape (n, length w) A /\ length b = n /\
  forall r, system_eq r A w b <-> forall i, (i < n)%nat -> holds (meaning r (program_of h p) i 0) s (meaning r (program_of h q) i 0).
Proof.
  intros N Le Se Lp Lq P Q W Vw Nw S X. destruct (system_call h_vc_linear_equality vc_linear_equality vc_equality0 _ _ _ _ _ _ _ _ Le Se Lp Lq X) as [K V]. split; [exact K|]. symmetry in V.
  destruct (arun (ASimplified (program_of h p))) as [x|] eqn:E1; [|discriminate V]. destruct (arun (ASimplified (program_of h q))) as [y|] eqn:E2; [|discriminate V]. cbn [bind] in V.
  destruct (expr_comparison x (GExpr y) s) as [c|] eqn:E3; [|discriminate V]. cbn [bind] in V. destruct c as [c|c|c]; [discriminate V | | discriminate V].
  exact (program_equality n w _ _ s x y c N P Q W Vw Nw E1 E2 E3 A b S V).
Qed.

(** the memory calls return what the calls on values return *)
Theorem system_values h roots p q s w : all_legal_arrays h roots -> separate_arrays h roots -> leaves_in roots p -> leaves_in roots q ->
  forall a b c, arun (ASimplified (program_of h p)) = Ok a -> arun (ASimplified (program_of h q)) = Ok b -> expr_comparison a (GExpr b) s = Ok (CV c) ->
  fst (system_in_memory h_vc_linear_inequality p q s w h) = vc_linear_inequality c [w] /\ fst (system_in_memory h_vc_linear_equality p q s w h) = vc_linear_equality c [w].
Proof.
  intros Le Se Lp Lq a b c Ea Eb Ec. destruct (system_in_memory h_vc_linear_inequality p q s w h) as [r1 h1] eqn:X1. destruct (system_in_memory h_vc_linear_equality p q s w h) as [r2 h2] eqn:X2. cbn [fst].
  destruct (system_call h_vc_linear_inequality vc_linear_inequality vc_inequality0 _ _ _ _ _ _ _ _ Le Se Lp Lq X1) as [_ V1].
  destruct (system_call h_vc_linear_equality vc_linear_equality vc_equality0 _ _ _ _ _ _ _ _ Le Se Lp Lq X2) as [_ V2]. rewrite Ea, Eb in V1, V2. cbn [bind] in V1, V2. rewrite Ec in V1, V2. cbn [bind] in V1, V2. split; assumption.
Qed.

End HeapConProofs.
