(** * Calls and histories with memory *)

From Coq Require Import ZArith NArith Bool List Lia.
From Verif Require Import Num Syntax ModelScalar Spec Base ModelHeap SpecHeap HeapMem HeapRef HeapOps HeapOps2 HeapDeriv.
Import ListNotations.
Local Open Scope num_scope.

Section HeapProofs.
Context {NN : Num} {RT : Runtime}.

(** ** One call *)
Lemma linear_mild v s : at_most_linear_in v s -> mild v s.
Proof.
  intro H. destruct s as [k|u|m|p]; cbn [mild]; try exact I.
  - intros k e Hk He. apply find_var_some in Hk. destruct Hk as (u & Hu & Id). eapply H; [left; reflexivity | exact Hu | congruence | exact He].
  - apply Forall_forall. intros m Hm k e Hk He. apply find_var_some in Hk. destruct Hk as (u & Hu & Id). eapply H; [exact Hm | exact Hu | congruence | exact He].
Qed.

Lemma arg_rel w roots vals k : Forall2 (Rs w) roots vals ->
  match arg roots k, arg vals k with Ok s, Ok b => Rs w s b | Panic p, Panic q => p = q | _, _ => False end.
Proof.
  unfold arg. intro H. revert k. induction H as [|s b roots vals R H IH]; intros [|k]; cbn; try reflexivity; [exact R | apply IH].
Qed.
Lemma arg_refines {C D} n (S : world -> C -> D -> Prop) w roots vals k (f : hscalar -> M C) (g : scalar -> res D) : Forall2 (Rs w) roots vals ->
  (forall s b, Rs w s b -> refines n S w (f s) (g b)) -> refines n S w (bindM (reads (fun _ => arg roots k)) f) (bind (arg vals k) g).
Proof.
  intros F H. pose proof (arg_rel w roots vals k F) as A. intro G. unfold bindM, reads. destruct (arg roots k) as [s|p], (arg vals k) as [b|q]; try contradiction; cbn [bind].
  - exact (H s b A G).
  - exists w. split; [apply ext_refl|]. split; [exact G|]. split; [reflexivity | exact A].
Qed.
Lemma rel_refines {A B C D} n (R : A -> B -> Prop) (S : world -> C -> D -> Prop) w (x : res A) (y : res B) (f : A -> M C) (g : B -> res D) :
  match x, y with Ok a, Ok b => R a b | Panic p, Panic q => p = q | _, _ => False end ->
  (forall a b, R a b -> refines n S w (f a) (g b)) -> refines n S w (bindM (reads (fun _ => x)) f) (bind y g).
Proof.
  intros A0 H G. unfold bindM, reads. destruct x as [s|p], y as [b|q]; try contradiction; cbn [bind].
  - exact (H s b A0 G).
  - exists w. split; [apply ext_refl|]. split; [exact G|]. split; [reflexivity | exact A0].
Qed.
Lemma mapM_rel {X A B} (R : A -> B -> Prop) (f : X -> res A) (g : X -> res B) l :
  (forall x, match f x, g x with Ok a, Ok b => R a b | Panic p, Panic q => p = q | _, _ => False end) ->
  match mapM f l, mapM g l with Ok a, Ok b => Forall2 R a b | Panic p, Panic q => p = q | _, _ => False end.
Proof.
  intro H. induction l as [|x l IH]; cbn; [constructor|]. specialize (H x). destruct (f x) as [a|p], (g x) as [b|q]; cbn; try contradiction; [|exact H].
  destruct (mapM f l), (mapM g l); cbn; try contradiction; [constructor; assumption | exact IH].
Qed.

Lemma exec_refines w roots vals i : Forall2 (Rs w) roots vals -> harmless vals i -> refines 0 Rs w (exec roots i) (exec_value vals i).
Proof.
  intros F Ha. destruct i as [k|v|c es vs|ms|a b|a b|a b|a e|a|a v b|a v]; cbn [exec exec_value].
  - apply refines_ret. apply Rs_HK.
  - apply refines_ret. apply Rs_HV.
  - eapply refines_step; [apply new_mono_refines|]. intros w1 m E R. apply refines_ret. apply Rs_HM. exact R.
  - eapply rel_refines; [apply (mapM_rel (Rm w))|].
    + intro x. pose proof (arg_rel w roots vals x F) as A. destruct (arg roots x) as [s|p], (arg vals x) as [b|q]; cbn; try contradiction; [|exact A].
      destruct s; destruct A as [A1 <-]; cbn; try reflexivity. split; [exact A1 | reflexivity].
    + intros l lb Q. eapply make_refines; [exact Q | lia|]. intros w1 p E R _. apply refines_ret. apply Rs_HP. exact R.
  - apply (arg_refines 0 Rs w roots vals); [exact F|]. intros s sb Rsb. apply (arg_refines 0 Rs w roots vals); [exact F|]. intros t tb Rt. apply plus_refines; [assumption..|lia].
  - apply (arg_refines 0 Rs w roots vals); [exact F|]. intros s sb Rsb. apply (arg_refines 0 Rs w roots vals); [exact F|]. intros t tb Rt. apply minus_refines; [assumption..|lia].
  - apply (arg_refines 0 Rs w roots vals); [exact F|]. intros s sb Rsb. apply (arg_refines 0 Rs w roots vals); [exact F|]. intros t tb Rt. apply mul_refines; [assumption..|lia].
  - apply (arg_refines 0 Rs w roots vals); [exact F|]. intros s sb Rsb. apply power_refines; [assumption|lia].
  - apply (arg_refines 0 Rs w roots vals); [exact F|]. intros s sb Rsb. apply simplified_refines; [assumption|lia].
  - apply (arg_refines 0 Rs w roots vals); [exact F|]. intros s sb Rsb. apply (arg_refines 0 Rs w roots vals); [exact F|]. intros t tb Rt. apply substitute_refines; [assumption..|lia].
  - cbn [harmless] in Ha. apply (rel_refines 0 (fun s b => Rs w s b /\ nth_error vals a = Some b)).
    + pose proof (arg_rel w roots vals a F) as A. unfold arg in *. destruct (nth_error roots a), (nth_error vals a); try contradiction; try reflexivity. split; [exact A | reflexivity].
    + intros s b [Rsb Hs]. apply derivative_refines; [exact Rsb | apply linear_mild; apply Ha; exact Hs | lia].
Qed.

(** ** The cells of the expressions that are in use *)
Definition world_of (h : heap) (roots : list hscalar) : world :=
  mkW h (fun a j => exists s m, In s roots /\ In m (monomials h s) /\ elements (h_exps m) a j)
        (fun a j => exists s m, In s roots /\ In m (monomials h s) /\ elements (h_vars m) a j)
        (fun a j => exists s m, In s roots /\ In m (monomials h s) /\ unused (h_vars m) a j)
        (fun a j => exists p, In (HP p) roots /\ elements p a j).

Lemma world_good h roots : all_legal h roots -> separate h roots -> good (world_of h roots).
Proof.
  intros Le Se. split; [|split; [|split]].
  - intros a j (s & m & Hs & Hm & He). destruct (Le s Hs) as [_ L]. destruct (L m Hm) as [L1 _]. exact (vis_arr _ _ _ _ L1 He).
  - intros a j [(s & m & Hs & Hm & He)|(s & m & Hs & Hm & He)]; destruct (Le s Hs) as [_ L]; destruct (L m Hm) as [_ L1];
      [exact (vis_arr _ _ _ _ L1 He) | exact (spare_arr _ _ _ _ L1 He)].
  - intros a j (p & Hp & He). destruct (Le (HP p) Hp) as [L _]. exact (vis_arr _ _ _ _ (L p eq_refl) He).
  - intros a j (s & m & Hs & Hm & He) (t & m' & Ht & Hm' & He'). exact (Se t s m' m a j Ht Hs Hm' Hm He' He).
Qed.
Lemma world_fit h roots s : all_legal h roots -> In s roots -> fit (world_of h roots) s.
Proof.
  intros Le Hs. pose proof (Le s Hs) as [Lp Lm]. assert (Fm : forall m, In m (monomials h s) -> fit_m (world_of h roots) m).
  { intros m Hm. destruct (Lm m Hm) as [L1 L2]. split; [split; [exact L1|]; intros a j He; exists s, m; auto|].
    split; [exact L2|]. split; intros a j He; exists s, m; auto. }
  destruct s as [k|v|m|p]; cbn [fit]; try exact I.
  - apply Fm. left. reflexivity.
  - split; [exact (Lp p eq_refl)|]. split; [intros a j He; exists p; auto|]. apply Forall_forall. exact Fm.
Qed.
Lemma world_rel h roots : all_legal h roots -> Forall2 (Rs (world_of h roots)) roots (map (rd h) roots).
Proof.
  intro Le. assert (H : forall s, In s roots -> Rs (world_of h roots) s (rd h s)) by (intros s Hs; split; [apply world_fit; assumption | reflexivity]).
  clear Le. revert H. generalize (world_of h roots). intro w. induction roots as [|s roots IH]; cbn [map]; intro H; constructor; [apply H; left; reflexivity|].
  apply IH. intros t Ht. apply H. right. exact Ht.
Qed.

(** the converse: what fits in a good world is legal and separate *)
Lemma fit_legal w s : fit w s -> legal (wh w) s.
Proof.
  intro F. destruct s as [k|v|m|p]; (split; [intros q E; try discriminate|intros m' Hm]); cbn [fit monomials] in *; try contradiction.
  - destruct Hm as [<-|[]]. destruct F as [[F1 _] [F2 _]]. split; assumption.
  - injection E as <-. destruct F as (F & _). exact F.
  - destruct F as (_ & _ & F). eapply Forall_forall in F; [|exact Hm]. destruct F as [[F1 _] [F2 _]]. split; assumption.
Qed.
Lemma fit_mono w s m : fit w s -> In m (monomials (wh w) s) -> fit_m w m.
Proof.
  intros F Hm. destruct s as [k|v|m'|p]; cbn [fit monomials] in *; try contradiction.
  - destruct Hm as [<-|[]]. exact F.
  - destruct F as (_ & _ & F). eapply Forall_forall in F; [|exact Hm]. exact F.
Qed.
Lemma fit_separate w roots : good w -> (forall s, In s roots -> fit w s) -> separate (wh w) roots.
Proof.
  intros (_ & _ & _ & G) F s t m m' a j Hs Ht Hm Hm' U V.
  destruct (fit_mono w s m (F s Hs) Hm) as [_ (_ & _ & Q)]. destruct (fit_mono w t m' (F t Ht) Hm') as [_ (_ & P & _)].
  exact (G a j (P a j V) (Q a j U)).
Qed.


Theorem call_spec h roots i r h' : all_legal h roots -> separate h roots -> harmless (map (rd h) roots) i -> exec roots i h = (r, h') ->
  (forall s, In s roots -> rd h' s = rd h s) /\
  as_value h' r = exec_value (map (rd h) roots) i /\
  (let roots' := match r with Ok t => roots ++ [t] | Panic _ => roots end in all_legal h' roots' /\ separate h' roots').
Proof.
  intros Le Se Ha X. set (w := world_of h roots).
  destruct (exec_refines w roots (map (rd h) roots) i (world_rel h roots Le) Ha (world_good h roots Le Se)) as (w' & E & G' & Hh & Hr).
  change (wh w) with h in *. rewrite X in Hh, Hr. cbn [fst snd] in *. subst h'.
  assert (K : forall s, In s roots -> fit w' s /\ rd (wh w') s = rd h s) by (intros s Hs; apply (fit_ext 0 w w' s E); apply world_fit; assumption).
  assert (V : as_value (wh w') r = exec_value (map (rd h) roots) i).
  { destruct r as [t|p], (exec_value (map (rd h) roots) i) as [b|q]; try contradiction; cbn [as_value]; [destruct Hr as [_ <-]; reflexivity | congruence]. }
  split; [|split; [exact V|]].
  - intros s Hs. apply K. exact Hs.
  - assert (F : forall s, In s (match r with Ok t => roots ++ [t] | Panic _ => roots end) -> fit w' s).
    { intros s Hs. destruct r as [t|p]; [|apply K; exact Hs]. apply in_app_or in Hs. destruct Hs as [Hs|[<-|[]]]; [apply K; exact Hs|].
      destruct (exec_value (map (rd h) roots) i); [|contradiction]. apply Hr. }
    split; [|apply fit_separate; assumption]. intros s Hs. apply fit_legal. apply F. exact Hs.
Qed.

(** ** Histories *)
Lemma history_spec l : forall h roots h' roots', all_legal h roots -> separate h roots -> harmless_history (map (rd h) roots) l ->
  history h roots l = (h', roots') ->
  map (rd h') roots' = history_values (map (rd h) roots) l /\ (forall s, In s roots -> rd h' s = rd h s) /\ all_legal h' roots' /\ separate h' roots' /\
  exists new, roots' = roots ++ new.
Proof.
  induction l as [|i l IH]; intros h roots h' roots' Le Se Ha X; cbn [history history_values harmless_history] in *.
  - injection X as <- <-. split; [reflexivity|]. split; [reflexivity|]. split; [exact Le|]. split; [exact Se|]. exists []. rewrite app_nil_r. reflexivity.
  - destruct Ha as [Ha Hl]. destruct (exec roots i h) as [r h1] eqn:Ex. destruct (call_spec h roots i r h1 Le Se Ha Ex) as (K & V & Le1 & Se1).
    set (roots1 := match r with Ok t => roots ++ [t] | Panic _ => roots end) in *.
    assert (Km : map (rd h1) roots = map (rd h) roots) by (apply map_ext_in; exact K).
    assert (M1 : map (rd h1) roots1 = match exec_value (map (rd h) roots) i with Ok t => map (rd h) roots ++ [t] | Panic _ => map (rd h) roots end).
    { rewrite <- V. unfold roots1. destruct r as [t|p]; cbn [as_value]; [rewrite map_app, Km; reflexivity | exact Km]. }
    rewrite <- M1 in Hl. destruct (IH h1 roots1 h' roots' Le1 Se1 Hl X) as (I1 & I2 & I3 & I4 & new & I5). split; [rewrite I1, M1; reflexivity|]. split; [|split; [exact I3|split; [exact I4|]]].
    + intros s Hs. rewrite I2; [apply K; exact Hs|]. unfold roots1. destruct r; [apply in_or_app; left; exact Hs | exact Hs].
    + unfold roots1 in I5. destruct r as [t|p]; [|exists new; exact I5]. exists (t :: new). rewrite I5, <- app_assoc. reflexivity.
Qed.
Lemma no_derivative_harmless l : Forall not_derivative l -> forall vals, harmless_history vals l.
Proof.
  intro F. induction F as [|i l Hi F IH]; intro vals; cbn; [exact I|]. split; [|apply IH]. destruct i; try exact I. contradiction.
Qed.
Lemma empty_legal : all_legal empty_heap [] /\ separate empty_heap [].
Proof. split; [intros s []|]. intros s t m m' a j []. Qed.

Lemma history_app l1 : forall l2 h roots, history h roots (l1 ++ l2) = (let (h1, r1) := history h roots l1 in history h1 r1 l2).
Proof. induction l1 as [|i l1 IH]; intros l2 h roots; cbn; [reflexivity|]. destruct (exec roots i h). apply IH. Qed.
Lemma harmless_app l1 : forall l2 vals, harmless_history vals (l1 ++ l2) -> harmless_history vals l1 /\ harmless_history (history_values vals l1) l2.
Proof. induction l1 as [|i l1 IH]; intros l2 vals H; cbn in *; [split; [exact I | exact H]|]. destruct H as [H1 H2]. apply IH in H2. tauto. Qed.

Theorem history_values_kept l1 l2 h1 roots1 h2 roots2 : harmless_history [] (l1 ++ l2) ->
  history empty_heap [] l1 = (h1, roots1) -> history empty_heap [] (l1 ++ l2) = (h2, roots2) ->
  forall s, In s roots1 -> rd h2 s = rd h1 s.
Proof.
  intros Ha X1 X2. rewrite history_app, X1 in X2. destruct empty_legal as [Le Se]. apply harmless_app in Ha. destruct Ha as [Ha Hb].
  destruct (history_spec l1 _ _ _ _ Le Se Ha X1) as (V & _ & Le1 & Se1 & _). cbn [map] in V. rewrite <- V in Hb.
  destruct (history_spec l2 _ _ _ _ Le1 Se1 Hb X2) as (_ & K & _). exact K.
Qed.
Theorem history_correct l h roots : harmless_history [] l -> history empty_heap [] l = (h, roots) -> map (rd h) roots = history_values [] l.
Proof. intros Ha X. destruct empty_legal as [Le Se]. destruct (history_spec l _ _ _ _ Le Se Ha X) as (V & _). exact V. Qed.

(** ** Calling DerivativeWrt twice *)
Theorem derivative_twice h roots i v s r1 h1 r2 h2 : all_legal h roots -> separate h roots -> nth_error roots i = Some s -> at_most_linear_in v (rd h s) ->
  h_derivative s v h = (r1, h1) -> h_derivative s v h1 = (r2, h2) ->
  as_value h2 r2 = as_value h1 r1 /\ as_value h2 r2 = scalar_derivative (rd h s) v /\ (forall t, In t roots -> rd h2 t = rd h t).
Proof.
  intros Le Se Hi Hl X1 X2. assert (E1 : exec roots (IDeriv i v) h = (r1, h1)) by (cbn [exec]; unfold bindM, reads, arg; rewrite Hi; exact X1).
  assert (Hn : nth_error (map (rd h) roots) i = Some (rd h s)) by (apply map_nth_error; exact Hi).
  destruct (call_spec h roots (IDeriv i v) r1 h1 Le Se) with (2 := E1) as (K1 & V1 & Le1 & Se1). { cbn. intros t Ht. rewrite Hn in Ht. injection Ht as <-. exact Hl. }
  set (roots1 := match r1 with Ok t => roots ++ [t] | Panic _ => roots end) in *. assert (Hi1 : nth_error roots1 i = Some s).
  { unfold roots1. destruct r1; [|exact Hi]. rewrite nth_error_app1; [exact Hi|]. apply nth_error_Some. congruence. }
  assert (Hs : In s roots) by (eapply nth_error_In; exact Hi).
  assert (E2 : exec roots1 (IDeriv i v) h1 = (r2, h2)) by (cbn [exec]; unfold bindM, reads, arg; rewrite Hi1; exact X2).
  assert (Hn1 : nth_error (map (rd h1) roots1) i = Some (rd h s)) by (rewrite <- (K1 s Hs); apply map_nth_error; exact Hi1).
  destruct (call_spec h1 roots1 (IDeriv i v) r2 h2 Le1 Se1) with (2 := E2) as (K2 & V2 & _). { cbn. intros t Ht. rewrite Hn1 in Ht. injection Ht as <-. exact Hl. }
  assert (D1 : as_value h1 r1 = scalar_derivative (rd h s) v) by (rewrite V1; cbn [exec_value]; unfold arg; rewrite Hn; reflexivity).
  assert (D2 : as_value h2 r2 = scalar_derivative (rd h s) v) by (rewrite V2; cbn [exec_value]; unfold arg; rewrite Hn1; reflexivity).
  split; [congruence|]. split; [exact D2|]. intros t Ht. rewrite K2; [apply K1; exact Ht|]. unfold roots1. destruct r1; [apply in_or_app; left; exact Ht | exact Ht].
Qed.

Lemma set_nth_twice {A} k (x y : A) l : set_nth k x (set_nth k y l) = set_nth k x l.
Proof. revert k. induction l as [|a l IH]; intros [|k]; cbn; try reflexivity. rewrite IH. reflexivity. Qed.
Lemma set_nth_hit {A} k (x y : A) l : nth_error l k = Some y -> nth_error (set_nth k x l) k = Some x.
Proof. revert k. induction l as [|a l IH]; intros [|k] H; cbn in *; try discriminate; [reflexivity | apply IH; exact H]. Qed.

(** ** The effect of DerivativeWrt when the exponent is not 1 *)
Theorem derivative_effect h m v k e : legal_mono h m -> mono_check (rd_mono h m) = true -> var_check v = true ->
  find_var v (m_vars (rd_mono h m)) = Some k -> nth_error (m_exps (rd_mono h m)) k = Some e -> e <> 1%Z ->
  exists d h', h_mono_derivative m v h = (Ok (HM d), h') /\
    (* the result is the derivative, and shares both slices with the receiver *)
    SM (rd_mono h' d) = SM (mkMono (m_coeff (rd_mono h m) * nofZ e) (set_nth k (e - 1)%Z (m_exps (rd_mono h m))) (m_vars (rd_mono h m))) /\
    h_exps d = h_exps m /\ h_vars d = h_vars m /\
    (* the receiver has lost one power of the variable *)
    rd_mono h' m = mkMono (m_coeff (rd_mono h m)) (set_nth k (e - 1)%Z (m_exps (rd_mono h m))) (m_vars (rd_mono h m)) /\
    (* exactly one cell of memory has changed *)
    hv h' = hv h /\ hm h' = hm h /\ hp h' = hp h /\
    (forall a j, nth_error (cells (hi h') a) j = if Nat.eqb a (s_arr (h_exps m)) && Nat.eqb j (s_off (h_exps m) + k) then Some (e - 1)%Z else nth_error (cells (hi h) a) j) /\
    legal_mono h' m.
Proof.
  intros [B1 B2] C1 C2 Hk He Ne. cbn [rd_mono m_vars m_exps m_coeff] in *.
  assert (Lk : (k < s_len (h_exps m))%nat). { rewrite <- (view_length _ _ B1). apply nth_error_Some. congruence. }
  assert (Lk' : (k < length (view (hi h) (h_exps m)))%nat) by (rewrite view_length; assumption).
  exists (mkHM (h_coeff m * nofZ e) (h_exps m) (h_vars m)), (with_ints h (store_at (hi h) (s_arr (h_exps m)) (s_off (h_exps m) + k) [(e - 1)%Z])).
  assert (Vi : view (store_at (hi h) (s_arr (h_exps m)) (s_off (h_exps m) + k) [(e - 1)%Z]) (h_exps m) = set_nth k (e - 1)%Z (view (hi h) (h_exps m))) by (apply put_view; assumption).
  split; [|split; [|split; [reflexivity|split; [reflexivity|split; [|split; [reflexivity|split; [reflexivity|split; [reflexivity|split]]]]]]]].
  - unfold h_mono_derivative, bindM, check_mono, check_var, get_int, put_int, reads, index. rewrite C1, C2. cbn [check]. rewrite Hk, He.
    destruct (Z.eqb_spec e 1); [contradiction|]. cbn [andb]. destruct (Nat.ltb_spec k (s_len (h_exps m))); [|lia]. reflexivity.
  - unfold rd_mono. cbn [h_coeff h_exps h_vars with_ints hi hv]. rewrite Vi. reflexivity.
  - unfold rd_mono. cbn [h_coeff h_exps h_vars with_ints hi hv]. rewrite Vi. reflexivity.
  - intros a j. cbn [with_ints hi]. destruct (Nat.eqb_spec a (s_arr (h_exps m))) as [->|Na]; cbn [andb].
    + destruct (Nat.eqb_spec j (s_off (h_exps m) + k)) as [->|Nj].
      * pose proof (view_nth (store_at (hi h) (s_arr (h_exps m)) (s_off (h_exps m) + k) [(e - 1)%Z]) (h_exps m) k) as Q. rewrite Vi in Q.
        destruct (Nat.ltb_spec k (s_len (h_exps m))); [|lia]. unfold cell in Q. rewrite <- Q. eapply set_nth_hit. exact He.
      * apply put_other. intros [_ Hj]. exact (Nj Hj).
    + apply put_other. intros [Ha _]. exact (Na Ha).
  - split; [|exact B2]. destruct B1 as [B3 B4]. split; [exact B3|]. intro C. cbn [with_ints hi]. rewrite store_length, store_cells_length. apply B4. exact C.
Qed.


Theorem repeated_calls c : forall h m v k e, legal_mono h m -> mono_check (rd_mono h m) = true -> var_check v = true ->
  find_var v (m_vars (rd_mono h m)) = Some k -> nth_error (m_exps (rd_mono h m)) k = Some e -> (1 < e - Z.of_nat c + 1)%Z ->
  exists ds h', differentiate c m v h = (Ok ds, h') /\
    map (rd h') ds =
      map (fun i => SM (mkMono (h_coeff m * nofZ (e - Z.of_nat i)) (set_nth k (e - Z.of_nat c)%Z (m_exps (rd_mono h m))) (m_vars (rd_mono h m)))) (seq 0 c) /\
    rd_mono h' m = mkMono (h_coeff m) (set_nth k (e - Z.of_nat c)%Z (m_exps (rd_mono h m))) (m_vars (rd_mono h m)).
Proof.
  enough (K : forall c h m v k e, legal_mono h m -> mono_check (rd_mono h m) = true -> var_check v = true ->
    find_var v (m_vars (rd_mono h m)) = Some k -> nth_error (m_exps (rd_mono h m)) k = Some e -> (1 < e - Z.of_nat c + 1)%Z ->
    exists ds h', differentiate c m v h = (Ok (map HM ds), h') /\
      Forall2 (fun i d => d = mkHM (h_coeff m * nofZ (e - Z.of_nat i)) (h_exps m) (h_vars m)) (seq 0 c) ds /\
      rd_mono h' m = mkMono (h_coeff m) (set_nth k (e - Z.of_nat c)%Z (m_exps (rd_mono h m))) (m_vars (rd_mono h m))).
  { intros h m v k e H1 H2 H3 H4 H5 H6. destruct (K c h m v k e H1 H2 H3 H4 H5 H6) as (ds & h' & E & F & R). exists (map HM ds), h'.
    split; [exact E|]. split; [|exact R]. clear E. revert F. generalize (seq 0 c) as is. intros is F. induction F as [|i d is ds -> F IH]; [reflexivity|].
    cbn [map rd]. f_equal; [|exact IH]. unfold rd_mono in *. cbn [h_coeff h_exps h_vars] in *. injection R as -> ->. reflexivity. }
  clear c. induction c as [|c IH]; intros h m v k e H1 H2 H3 H4 H5 H6.
  - exists [], h. split; [reflexivity|]. split; [constructor|]. rewrite Z.sub_0_r. unfold rd_mono. cbn [m_exps m_vars]. f_equal.
    clear - H5. cbn [rd_mono m_exps] in H5. revert k H5. generalize (view (hi h) (h_exps m)). intros l. induction l as [|a l IH]; intros [|k] H; cbn in *; try discriminate; [congruence|]. f_equal. apply IH. exact H.
  - destruct (derivative_effect h m v k e H1 H2 H3 H4 H5 ltac:(lia)) as (d & h1 & E1 & V1 & S1 & S2 & R1 & _ & _ & _ & _ & L1).
    assert (Q : exists ds h', differentiate c m v h1 = (Ok (map HM ds), h') /\
      Forall2 (fun i d => d = mkHM (h_coeff m * nofZ (e - 1 - Z.of_nat i)) (h_exps m) (h_vars m)) (seq 0 c) ds /\
      rd_mono h' m = mkMono (h_coeff m) (set_nth k (e - 1 - Z.of_nat c)%Z (m_exps (rd_mono h1 m))) (m_vars (rd_mono h1 m))).
    { apply (IH h1 m v k (e - 1)%Z); [exact L1| |exact H3| | |lia].
      - rewrite R1. unfold mono_check in *. cbn [m_exps m_vars]. rewrite set_nth_length. exact H2.
      - rewrite R1. exact H4.
      - rewrite R1. cbn [m_exps]. eapply set_nth_hit. exact H5. }
    destruct Q as (ds & h' & E & F & R). exists (d :: ds), h'. cbn [differentiate]. rewrite E1, E. split; [reflexivity|]. split.
    + cbn [seq]. constructor.
      * destruct d as [dc de dv]. cbn [h_exps h_vars] in S1, S2. subst de dv. unfold rd_mono in V1. injection V1 as V1 _ _. cbn [h_coeff] in V1. rewrite V1. cbn [m_coeff]. f_equal. f_equal. f_equal. lia.
      * clear - F. rewrite <- seq_shift. revert F. generalize (seq 0 c). intros is F. induction F as [|i d is ds -> F IH]; [constructor|]. cbn [map]. constructor; [|exact IH].
        f_equal. f_equal. f_equal. lia.
    + rewrite R, R1. cbn [m_exps m_vars]. rewrite set_nth_twice. f_equal. f_equal. lia.
Qed.

End HeapProofs.
