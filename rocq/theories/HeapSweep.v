(** * DerivativeWrt of vectors and matrices, whatever the exponents *)

From Coq Require Import ZArith NArith Bool List Lia.
From Verif Require Import Num Syntax ModelScalar ModelShape Spec SpecArr Base ScalarValid Deriv Arr ModelHeap SpecHeap HeapMem HeapRef HeapOps HeapOps2 HeapDeriv HeapProofs HeapVec SpecCopy HeapEffect SpecSweep.
Import ListNotations.
Local Open Scope num_scope.

Section Sweep.
Context {NN : Num} {RT : Runtime}.

Lemma F2_impl {A B} (P Q : A -> B -> Prop) l l' : (forall a b, P a b -> Q a b) -> Forall2 P l l' -> Forall2 Q l l'.
Proof. intros H F. induction F; constructor; auto. Qed.

(** ** Values *)
Lemma hits_lower v m : hits v (lower v m) -> hits v m.
Proof.
  unfold lower, hits. intros (k & e & Hk & He & Ne). destruct (find_var v (m_vars m)) as [j|] eqn:Ej; [|exists k, e; rewrite Ej in *; auto].
  destruct (nth_error (m_exps m) j) as [x|] eqn:Ex; [|exists k, e; rewrite Ej in *; auto].
  destruct (Z.eqb_spec x 1) as [->|Nx]; [exists k, e; rewrite Ej in *; auto|]. exists j, x. auto.
Qed.
Lemma valid_lowered v m : valid_mono m -> valid_mono (lowered v m).
Proof.
  intros (L & E & Nd & Fv). unfold lowered. destruct m as [c es us]. cbn [m_coeff m_exps m_vars] in *. split; [|split; [|split; assumption]]; cbn [m_exps m_vars].
  - rewrite map_length, combine_length. lia.
  - apply Forall_map. rewrite Forall_forall in *. intros [u e] Hin. cbn [fst snd]. specialize (E e (in_combine_r _ _ _ _ Hin)).
    destruct (same_id u v && negb (Z.eqb e 1)) eqn:B; [|exact E]. apply andb_prop in B as [_ B]. apply negb_true_iff, Z.eqb_neq in B. lia.
Qed.
Lemma not_hit_lower v m : ~ hits v m -> lower v m = m.
Proof.
  unfold lower, hits. intro H. destruct (find_var v (m_vars m)) as [k|] eqn:E; [|reflexivity]. destruct (nth_error (m_exps m) k) as [e|] eqn:Ee; [|reflexivity].
  destruct (Z.eqb_spec e 1) as [->|Ne]; [reflexivity|]. exfalso. apply H. exists k, e. auto.
Qed.
Lemma number_not_hit v m k : mono_derivative m v = Ok (SK k) -> ~ hits v m.
Proof.
  unfold mono_derivative. destruct (check (mono_check m) PCheck); cbn [bind]; [|discriminate]. destruct (check (var_check v) PCheck); cbn [bind]; [|discriminate].
  intros H (j & e & Hj & He & Ne). rewrite Hj in H. unfold index in H. rewrite He in H. cbn [bind] in H. apply Z.eqb_neq in Ne. rewrite Ne in H. cbn [andb] in H. discriminate H.
Qed.

(** ** What a call on some monomials of a list leaves alone *)
Definition touched (v : var) (h : heap) (l : list hmono) : nat -> nat -> Prop := fun a j => exists t, In t l /\ cells_hit v h t a j.
Definition from (v : var) (h : heap) (l : list hmono) (d : hmono) : Prop :=
  s_cap (h_exps d) = 0%nat \/ (length (hi h) <= s_arr (h_exps d))%nat \/ exists t, In t l /\ hits v (rd_mono h t) /\ h_exps d = h_exps t.

Record moved (v : var) (h : heap) (c : list hmono) (h1 h2 : heap) : Prop := mkMoved {
  mv_m : grown (hm h1) (hm h2);
  mv_v : grown (hv h1) (hv h2);
  mv_i : stored (touched v h c) (hi h1) (hi h2) }.

Lemma moved_refl v h c h1 : moved v h c h1 h1.
Proof. split; [apply grown_refl | apply grown_refl | apply grown_stored; apply grown_refl]. Qed.
Lemma moved_app v h c c' h1 h2 h3 : moved v h c h1 h2 -> moved v h c' h2 h3 -> moved v h (c ++ c') h1 h3.
Proof.
  intros [A1 A2 A3] [B1 B2 B3]. split; [eapply grown_trans; eassumption | eapply grown_trans; eassumption|]. eapply stored_weak; [|eapply stored_trans; eassumption].
  intros a j [(t & T1 & T2)|(t & T1 & T2)]; exists t; (split; [apply in_or_app; auto | exact T2]).
Qed.
Lemma moved_in v h c c' h1 h2 : (forall t, In t c -> In t c') -> moved v h c h1 h2 -> moved v h c' h1 h2.
Proof. intros H [A1 A2 A3]. split; try assumption. eapply stored_weak; [|exact A3]. intros a j (t & T1 & T2). exists t. auto. Qed.
Lemma moved_twice v h c h1 h2 h3 : moved v h c h1 h2 -> moved v h c h2 h3 -> moved v h c h1 h3.
Proof. intros A B. eapply moved_in; [|eapply moved_app; eassumption]. intros t H. apply in_app_or in H. tauto. Qed.
(** the sequence of a part that does nothing to the three memories *)
Lemma from_in v h c c' d : (forall t, In t c -> In t c') -> from v h c d -> from v h c' d.
Proof. intros H [F|[F|(t & F1 & F2)]]; [left; exact F | right; left; exact F | right; right; exists t; auto]. Qed.

Lemma apart_two v h l1 l2 l3 : apart v h (l1 ++ l2 ++ l3) -> forall m m', In m l1 -> In m' l2 -> forall a c, vis (h_exps m) a c -> vis (h_exps m') a c -> (hits v (rd_mono h m) \/ hits v (rd_mono h m')) -> False.
Proof.
  intros Ap m m' Hm Hm' a c Ha Hc. apply In_nth_error in Hm as [i Hi]. apply In_nth_error in Hm' as [j Hj].
  assert (Li : (i < length l1)%nat) by (apply nth_error_Some; congruence). assert (Lj : (j < length l2)%nat) by (apply nth_error_Some; congruence).
  assert (Hi' : nth_error (l1 ++ l2 ++ l3) i = Some m) by (rewrite nth_error_app1 by exact Li; exact Hi).
  assert (Hj' : nth_error (l1 ++ l2 ++ l3) (length l1 + j) = Some m') by (rewrite nth_error_app2, Nat.add_comm, Nat.add_sub, nth_error_app1 by lia; exact Hj).
  intros [H|H]; [apply (Ap (length l1 + j)%nat i m' m ltac:(lia) Hj' Hi' H a c Hc Ha) | apply (Ap i (length l1 + j)%nat m m' ltac:(lia) Hi' Hj' H a c Ha Hc)].
Qed.

Section Base.
Context (v : var) (h : heap) (ms : list hmono).
Context (Ap : apart v h ms) (Lg : forall m, In m ms -> legal_mono h m).

Definition kept (h1 : heap) (l : list hmono) (s : hscalar) (x : scalar) : Prop := rd h1 s = x /\ legal h1 s /\ Forall (from v h l) (monomials h1 s).

Lemma moved_legal c h1 h2 m : moved v h c h1 h2 -> legal_mono h1 m -> legal_mono h2 m.
Proof. intros [A1 A2 A3] [L1 L2]. split; [eapply stored_inb; eassumption | eapply grown_inb; eassumption]. Qed.
Lemma moved_mono c h1 h2 m : moved v h c h1 h2 -> legal_mono h1 m -> (forall t a j, In t c -> hits v (rd_mono h t) -> vis (h_exps m) a j -> vis (h_exps t) a j -> False) -> rd_mono h2 m = rd_mono h1 m.
Proof.
  intros [A1 A2 A3] [L1 L2] D. unfold rd_mono. rewrite (grown_view _ _ _ A2 L2), (stored_view _ _ _ _ A3 L1); [reflexivity|].
  intros a j Hv (t & T1 & T2 & T3). exact (D t a j T1 T2 Hv T3).
Qed.
(** a monomial of the rest of the list *)
Lemma rest_same pre rest h1 t : ms = pre ++ rest -> moved v h pre h h1 -> In t rest -> rd_mono h1 t = rd_mono h t /\ legal_mono h1 t.
Proof.
  intros E M Ht. assert (Lt : legal_mono h t) by (apply Lg; rewrite E; apply in_or_app; right; exact Ht). split; [|eapply moved_legal; eassumption].
  eapply moved_mono; [exact M | exact Lt|]. intros u a j Hu Hh Hv Hw. pose proof Ap as Ap'. rewrite E in Ap'. rewrite <- (app_nil_r rest) in Ap'. exact (apart_two v h pre rest [] Ap' u t Hu Ht a j Hw Hv (or_introl Hh)).
Qed.
(** a monomial of the part before *)
Lemma pre_same pre c post h1 h2 t : ms = pre ++ c ++ post -> moved v h c h1 h2 -> In t pre -> legal_mono h1 t -> rd_mono h2 t = rd_mono h1 t.
Proof.
  intros E M Ht Lt. eapply moved_mono; [exact M | exact Lt|]. intros u a j Hu Hh Hv Hw. pose proof Ap as Ap'. rewrite E in Ap'. exact (apart_two v h pre c post Ap' t u Ht Hu a j Hv Hw (or_intror Hh)).
Qed.
(** a result made before *)
Lemma from_same pre c post h1 h2 d : ms = pre ++ c ++ post -> moved v h pre h h1 -> moved v h c h1 h2 -> from v h pre d -> legal_mono h1 d -> rd_mono h2 d = rd_mono h1 d.
Proof.
  intros E M0 M F Ld. eapply moved_mono; [exact M | exact Ld|]. intros u a j Hu Hh Hv Hw. destruct F as [F|[F|(t & F1 & F2 & F3)]].
  - destruct Ld as [[Ld _] _]. destruct Hv as [_ Hv]. lia.
  - assert (Lu : legal_mono h u) by (apply Lg; rewrite E; apply in_or_app; right; apply in_or_app; left; exact Hu). destruct Lu as [[Lu1 Lu2] _], Hv as [Hv1 Hv2], Hw as [Hw1 Hw2]. specialize (Lu2 ltac:(lia)). lia.
  - rewrite F3 in Hv. pose proof Ap as Ap'. rewrite E in Ap'. exact (apart_two v h pre c post Ap' t u F1 Hu a j Hv Hw (or_intror Hh)).
Qed.
Lemma kept_step pre c post h1 h2 s x : ms = pre ++ c ++ post -> moved v h pre h h1 -> moved v h c h1 h2 -> kept h1 pre s x -> kept h2 (pre ++ c) s x.
Proof.
  intros E M0 M (K1 & [K2 K3] & K4). assert (Em : monomials h2 s = monomials h1 s).
  { destruct s; cbn [monomials]; try reflexivity. apply grown_view; [apply M | apply K2; reflexivity]. }
  rewrite Forall_forall in K4. split; [|split].
  - rewrite <- K1. destruct s as [k|u|m|p]; cbn [rd]; [reflexivity | reflexivity | |].
    + f_equal. eapply from_same; [exact E | exact M0 | exact M | apply K4; left; reflexivity | apply K3; left; reflexivity].
    + f_equal. unfold rd_poly. cbn [monomials] in *. rewrite Em. apply map_ext_in. intros d Hd. eapply from_same; [exact E | exact M0 | exact M | apply K4; exact Hd | apply K3; exact Hd].
  - split; [intros p ->; eapply grown_inb; [apply M | apply K2; reflexivity]|]. intros m Hm. rewrite Em in Hm. eapply moved_legal; [exact M | apply K3; exact Hm].
  - rewrite Em. rewrite Forall_forall. intros d Hd. eapply from_in; [|apply K4; exact Hd]. intros t Ht. apply in_or_app. left. exact Ht.
Qed.

(** one call on a monomial *)
Lemma call_mono h1 t : legal_mono h1 t -> (hits v (rd_mono h1 t) -> hits v (rd_mono h t)) -> (length (hi h) <= length (hi h1))%nat ->
  exists r h2, h_mono_derivative t v h1 = (r, h2) /\ as_value h2 r = mono_derivative (rd_mono h1 t) v /\ hm h2 = hm h1 /\ hp h2 = hp h1 /\ moved v h [t] h1 h2 /\
    (mono_check (rd_mono h1 t) = true -> var_check v = true -> rd_mono h2 t = lower v (rd_mono h1 t)) /\
    (forall d, r = Ok d -> legal h2 d /\ Forall (from v h [t]) (monomials h2 d)).
Proof.
  intros Lt Hh Le. destruct (mono_effect h1 t v Lt) as (r & h2 & R & V & E1 & E2 & G & St & Lo & Res). exists r, h2. split; [exact R|]. split; [exact V|]. split; [exact E1|]. split; [exact E2|]. split; [|split; [exact Lo|]].
  - split; [rewrite E1; apply grown_refl | exact G|]. eapply stored_weak; [|exact St]. intros a j [H1 H2]. exists t. split; [left; reflexivity|]. split; [apply Hh; exact H1 | exact H2].
  - intros d ->. assert (Kd : (exists k, rd h2 d = SK k) \/ (exists m, rd h2 d = SM m)) by (apply (mono_derivative_kinds _ _ _ (eq_sym V))).
    destruct d as [k|u|d|q]; [split; [split; [intros p X; discriminate X | intros m []] | constructor] | exfalso; destruct Kd as [[? X]|[? X]]; discriminate X | | exfalso; destruct Kd as [[? X]|[? X]]; discriminate X].
    destruct (Res d eq_refl) as [Ld F]. split; [split; [intros p X; discriminate X | intros m [<-|[]]; exact Ld]|]. cbn [monomials]. constructor; [|constructor].
    destruct F as [[F1 F2]|[F|F]]; [right; right; exists t; split; [left; reflexivity|]; split; [apply Hh; exact F1 | exact F2] | left; exact F | right; left; lia].
Qed.

(** ** MonomialVector: two calls on every entry *)
Definition mv_body (mv : slice) (st : bool * list hscalar) (i : nat) : M (bool * list hscalar) :=
  m <~ get_mono mv i ;;
  d1 <~ h_mono_derivative m v ;;
  let present := match d1 with HM _ => true | _ => fst st end in
  d2 <~ h_mono_derivative m v ;;
  ret (present, snd st ++ [d2]).
(** the values of the two calls *)
Definition twice (t : hmono) (d1 d2 : scalar) : Prop := mono_derivative (rd_mono h t) v = Ok d1 /\ mono_derivative (lower v (rd_mono h t)) v = Ok d2.
Definition good_entry (t : hmono) : Prop := valid_mono (rd_mono h t).

Lemma mono_check_lower m : mono_check m = true -> mono_check (lower v m) = true.
Proof.
  unfold mono_check, lower. intro H. destruct (find_var v (m_vars m)) as [k|]; [|exact H]. destruct (nth_error (m_exps m) k); [|exact H]. destruct (Z.eqb z 1); [exact H|]. cbn [m_exps m_vars].
  apply Nat.eqb_eq in H. apply Nat.eqb_eq. rewrite set_nth_length. exact H.
Qed.

Lemma mv_loop mv (Vv : valid_var v) : inb (hm h) mv -> forall rest pre h1 b ss xs, view (hm h) mv = ms -> ms = pre ++ rest -> Forall good_entry rest -> hm h1 = hm h -> hp h1 = hp h ->
  moved v h pre h h1 -> Forall2 (kept h1 pre) ss xs ->
  exists h2 b' ss' d1s d2s, forM (mv_body mv) (seq (length pre) (length rest)) (b, ss) h1 = (Ok (b', ss'), h2) /\ hm h2 = hm h /\ hp h2 = hp h /\
    moved v h (pre ++ rest) h h2 /\ Forall2 (kept h2 (pre ++ rest)) ss' (xs ++ d2s) /\ b' = b || existsb isM d1s /\ Forall2 (fun t d => twice t (fst d) (snd d)) rest (combine d1s d2s) /\ length d1s = length d2s /\
    (forall t, In t rest -> rd_mono h2 t = lower v (lower v (rd_mono h t))) /\ (forall t, In t pre -> rd_mono h2 t = rd_mono h1 t).
Proof.
  intros B. induction rest as [|t rest IH]; intros pre h1 b ss xs V E Va Em Ep M0 K.
  - exists h1, b, ss, [], []. rewrite !app_nil_r, orb_false_r. cbn [combine existsb]. split; [reflexivity|]. split; [exact Em|]. split; [exact Ep|]. split; [exact M0|]. split; [exact K|]. split; [reflexivity|]. split; [constructor|]. split; [reflexivity|]. split; [intros t [] | reflexivity].
  - pose proof (Forall_inv Va) as Vt. pose proof (Forall_inv_tail Va) as Va'.
    destruct (rest_same pre (t :: rest) h1 t E M0 (or_introl eq_refl)) as [Rt Lt].
    assert (Le : (length (hi h) <= length (hi h1))%nat) by apply M0.
    pose proof (valid_mono_check _ Vt) as Ct. pose proof (proj2 (var_check_valid v) Vv) as Cv.
    destruct (call_mono h1 t Lt ltac:(rewrite Rt; auto) Le) as (r1 & h2 & R1 & V1 & E1 & P1 & M1 & Lo1 & Res1). rewrite Rt in V1, Lo1. specialize (Lo1 Ct Cv).
    assert (Lt2 : legal_mono h2 t) by (eapply moved_legal; eassumption).
    assert (Le2 : (length (hi h) <= length (hi h2))%nat) by (destruct M1 as [_ _ [X _]]; lia).
    destruct (call_mono h2 t Lt2 ltac:(rewrite Lo1; apply hits_lower) Le2) as (r2 & h3 & R2 & V2 & E2 & P2 & M2 & Lo2 & Res2). rewrite Lo1 in V2, Lo2. specialize (Lo2 (mono_check_lower _ Ct) Cv).
    destruct (mono_derivative_ok _ v Vt Vv) as (x1 & X1 & _). destruct (mono_derivative_ok _ v (valid_lowered v _ Vt) Vv) as (x2 & X2 & _). rewrite <- lower_lowered in X2 by exact Vt.
    rewrite X1 in V1. rewrite X2 in V2. destruct r1 as [d1|]; [|discriminate V1]. destruct r2 as [d2|]; [|discriminate V2]. cbn [as_value] in V1, V2. injection V1 as V1. injection V2 as V2.
    assert (M12 : moved v h [t] h1 h3) by (eapply moved_twice; eassumption).
    assert (E' : ms = (pre ++ [t]) ++ rest) by (rewrite <- app_assoc; exact E).
    assert (M3 : moved v h (pre ++ [t]) h h3) by (eapply moved_app; eassumption).
    set (b2 := match d1 with HM _ => true | _ => b end).
    destruct (IH (pre ++ [t]) h3 b2 (ss ++ [d2]) (xs ++ [x2])) as (h4 & b' & ss' & d1s & d2s & X & Hm & Hp & M4 & K4 & Hb & T & Ln & Lo & Pre); [exact V | exact E' | exact Va' | congruence | congruence | exact M3 | |].
    { apply Forall2_app.
      - eapply F2_impl; [|exact K]. intros s x Hk. eapply (kept_step pre [t] rest h1 h3); [exact E | exact M0 | exact M12 | exact Hk].
      - constructor; [|constructor]. destruct (Res2 d2 eq_refl) as [L2 F2]. split; [exact V2|]. split; [exact L2|]. eapply Forall_impl; [|exact F2]. intros d. apply from_in. intros u Hu. apply in_or_app. right. exact Hu. }
    exists h4, b', ss', (x1 :: d1s), (x2 :: d2s). rewrite <- app_assoc in K4, M4. cbn [app] in K4, M4. rewrite <- app_assoc in K4. cbn [app] in K4.
    split; [|split; [exact Hm|split; [exact Hp|split; [exact M4|split; [exact K4|]]]]].
    + cbn [length seq forM]. unfold bindM at 1. unfold mv_body at 1. unfold bindM at 1. unfold get_mono, reads, index. rewrite Em, V, E, nth_error_app2, Nat.sub_diag by lia. cbn [nth_error].
      unfold bindM at 1. rewrite R1. cbv zeta. unfold bindM at 1. rewrite R2. cbn [fst snd ret]. fold b2. rewrite app_length, Nat.add_1_r in X. exact X.
    + split; [|split; [|split; [|split]]].
      * rewrite Hb. cbn [existsb]. unfold b2. rewrite <- V1. destruct d1; cbn [rd isM]; cbn [orb]; rewrite ?orb_true_r; reflexivity.
      * cbn [combine]. constructor; [split; assumption | exact T].
      * cbn [length]. congruence.
      * intros u [<-|Hu]; [|apply Lo; exact Hu]. rewrite (Pre t); [exact Lo2 | apply in_or_app; right; left; reflexivity].
      * intros u Hu. rewrite (Pre u) by (apply in_or_app; left; exact Hu). eapply (pre_same pre [t] rest); [exact E | exact M12 | exact Hu|]. eapply moved_legal; [exact M0|]. apply Lg. rewrite E. apply in_or_app. left. exact Hu.
Qed.

(** ** MonomialMatrix: one call on every entry *)
Definition row_body (r : slice) (row : list hscalar) (i : nat) : M (list hscalar) :=
  m <~ get_mono r i ;; d <~ h_mono_derivative m v ;; ret (row ++ [d]).

Lemma row_loop r (Vv : valid_var v) : forall rest done pre post h1 ss, view (hm h) r = done ++ rest -> ms = pre ++ rest ++ post -> Forall good_entry rest -> hm h1 = hm h -> hp h1 = hp h -> moved v h pre h h1 ->
  exists h2 ss' ds, forM (row_body r) (seq (length done) (length rest)) ss h1 = (Ok (ss ++ ss'), h2) /\ hm h2 = hm h /\ hp h2 = hp h /\ moved v h rest h1 h2 /\
    Forall2 (kept h2 (pre ++ rest)) ss' ds /\ Forall2 (fun t d => mono_derivative (rd_mono h t) v = Ok d) rest ds /\ (forall t, In t rest -> rd_mono h2 t = lower v (rd_mono h t)).
Proof.
  induction rest as [|t rest IH]; intros done pre post h1 ss V E Va Em Ep M0.
  - exists h1, [], []. rewrite !app_nil_r. split; [reflexivity|]. split; [exact Em|]. split; [exact Ep|]. split; [apply moved_refl|]. split; [constructor|]. split; [constructor | intros t []].
  - pose proof (Forall_inv Va) as Vt. pose proof (Forall_inv_tail Va) as Va'.
    destruct (rest_same pre ((t :: rest) ++ post) h1 t E M0 (or_introl eq_refl)) as [Rt Lt].
    assert (Le : (length (hi h) <= length (hi h1))%nat) by apply M0.
    pose proof (valid_mono_check _ Vt) as Ct. pose proof (proj2 (var_check_valid v) Vv) as Cv.
    destruct (call_mono h1 t Lt ltac:(rewrite Rt; auto) Le) as (r1 & h2 & R1 & V1 & E1 & P1 & M1 & Lo1 & Res1). rewrite Rt in V1, Lo1. specialize (Lo1 Ct Cv).
    destruct (mono_derivative_ok _ v Vt Vv) as (x1 & X1 & _). rewrite X1 in V1. destruct r1 as [d1|]; [|discriminate V1]. cbn [as_value] in V1. injection V1 as V1.
    assert (E' : ms = (pre ++ [t]) ++ rest ++ post) by (rewrite <- app_assoc; exact E).
    assert (M2 : moved v h (pre ++ [t]) h h2) by (eapply moved_app; eassumption).
    assert (K1 : kept h2 (pre ++ [t]) d1 x1).
    { destruct (Res1 d1 eq_refl) as [L2 F2]. split; [exact V1|]. split; [exact L2|]. eapply Forall_impl; [|exact F2]. intros d. apply from_in. intros u Hu. apply in_or_app. right. exact Hu. }
    destruct (IH (done ++ [t]) (pre ++ [t]) post h2 (ss ++ [d1])) as (h3 & ss' & ds & X & Hm & Hp & M3 & K3 & D3 & Lo3); [rewrite <- app_assoc; exact V | exact E' | exact Va' | congruence | congruence | exact M2|].
    exists h3, (d1 :: ss'), (x1 :: ds). split; [|split; [exact Hm|split; [exact Hp|split; [|split; [|split]]]]].
    + cbn [length seq forM]. unfold bindM at 1. unfold row_body at 1. unfold bindM at 1. unfold get_mono, reads, index. rewrite Em, V, nth_error_app2, Nat.sub_diag by lia. cbn [nth_error].
      unfold bindM at 1. rewrite R1. cbn [ret]. rewrite app_length, Nat.add_1_r, <- app_assoc in X. exact X.
    + change (t :: rest) with ([t] ++ rest). eapply moved_app; eassumption.
    + rewrite <- app_assoc in K3. constructor; [|exact K3]. pose proof (kept_step (pre ++ [t]) rest post h2 h3 d1 x1 E' M2 M3 K1) as K4. rewrite <- app_assoc in K4. exact K4.
    + constructor; assumption.
    + intros u [<-|Hu]; [|apply Lo3; exact Hu]. rewrite <- Lo1. eapply (pre_same (pre ++ [t]) rest post); [exact E' | exact M3 | apply in_or_app; right; left; reflexivity | exact (moved_legal _ _ _ _ M1 Lt)].
Qed.

Definition rows_body (rows : list (list hscalar)) (r : slice) : M (list (list hscalar)) := row <~ forM (row_body r) (indices r) [] ;; ret (rows ++ [row]).
Lemma rows_loop (Vv : valid_var v) : forall rest pre post h1 rows, Forall (inb (hm h)) rest -> ms = pre ++ flat_map (view (hm h)) rest ++ post -> Forall (fun r => Forall good_entry (view (hm h) r)) rest -> hm h1 = hm h -> hp h1 = hp h -> moved v h pre h h1 ->
  exists h2 rows' dss, forM rows_body rest rows h1 = (Ok (rows ++ rows'), h2) /\ hm h2 = hm h /\ hp h2 = hp h /\ moved v h (flat_map (view (hm h)) rest) h1 h2 /\
    Forall2 (Forall2 (kept h2 (pre ++ flat_map (view (hm h)) rest))) rows' dss /\ Forall2 (fun r ds => Forall2 (fun t d => mono_derivative (rd_mono h t) v = Ok d) (view (hm h) r) ds) rest dss /\
    (forall t, In t (flat_map (view (hm h)) rest) -> rd_mono h2 t = lower v (rd_mono h t)).
Proof.
  induction rest as [|r rest IH]; intros pre post h1 rows B E Va Em Ep M0; cbn [flat_map] in *.
  - exists h1, [], []. rewrite !app_nil_r. split; [reflexivity|]. split; [exact Em|]. split; [exact Ep|]. split; [apply moved_refl|]. split; [constructor|]. split; [constructor | intros t []].
  - pose proof (Forall_inv Va) as Vr. pose proof (Forall_inv_tail Va) as Va'. pose proof (Forall_inv B) as Br. pose proof (Forall_inv_tail B) as B'.
    rewrite <- app_assoc in E.
    destruct (row_loop r Vv (view (hm h) r) [] pre (flat_map (view (hm h)) rest ++ post) h1 [] eq_refl E Vr Em Ep M0) as (h2 & ss & ds & X & Hm & Hp & M1 & K1 & D1 & Lo1).
    assert (E' : ms = (pre ++ view (hm h) r) ++ flat_map (view (hm h)) rest ++ post) by (rewrite <- app_assoc; exact E).
    assert (M2 : moved v h (pre ++ view (hm h) r) h h2) by (eapply moved_app; eassumption).
    destruct (IH (pre ++ view (hm h) r) post h2 (rows ++ [ss]) B' E' Va' Hm Hp M2) as (h3 & rows' & dss & X3 & Hm3 & Hp3 & M3 & K3 & D3 & Lo3).
    exists h3, (ss :: rows'), (ds :: dss). split; [|split; [exact Hm3|split; [exact Hp3|split; [|split; [|split]]]]].
    + cbn [forM]. unfold bindM at 1. unfold rows_body at 1. unfold bindM at 1. unfold indices. rewrite <- (view_length _ _ Br). cbn [length] in X. rewrite X. cbn [app ret]. rewrite <- app_assoc in X3. exact X3.
    + eapply moved_app; eassumption.
    + rewrite <- app_assoc in K3. constructor; [|exact K3]. eapply F2_impl; [|exact K1]. intros s x K. pose proof (kept_step (pre ++ view (hm h) r) _ post h2 h3 s x E' M2 M3 K) as K4. rewrite <- app_assoc in K4. exact K4.
    + constructor; assumption.
    + intros t Ht. apply in_app_or in Ht as [Ht|Ht]; [|apply Lo3; exact Ht]. rewrite <- (Lo1 t Ht). eapply (pre_same (pre ++ view (hm h) r) _ post); [exact E' | exact M3 | apply in_or_app; right; exact Ht|].
      eapply moved_legal; [exact M2|]. apply Lg. rewrite E'. apply in_or_app. left. apply in_or_app. right. exact Ht.
Qed.

(** ** Polynomials *)
Lemma call_poly pre post h1 p : inb (hm h) p -> ms = pre ++ view (hm h) p ++ post -> moved v h pre h h1 ->
  exists r h2, h_poly_derivative p v h1 = (r, h2) /\ as_value h2 r = poly_derivative (rd_poly h p) v /\ hp h2 = hp h1 /\ moved v h (view (hm h) p) h1 h2 /\
    (forall d x, r = Ok d -> rd h2 d = x -> kept h2 (pre ++ view (hm h) p) d x) /\
    ((exists d, r = Ok d) -> forall t, In t (view (hm h) p) -> rd_mono h2 t = lower v (rd_mono h t)).
Proof.
  intros B E M0. assert (Vp : view (hm h1) p = view (hm h) p) by (apply grown_view; [apply M0 | exact B]).
  assert (Same : forall t, In t (view (hm h) p) -> rd_mono h1 t = rd_mono h t /\ legal_mono h1 t).
  { intros t Ht. apply (rest_same pre (view (hm h) p ++ post) h1 t E M0). apply in_or_app. left. exact Ht. }
  assert (Rp : rd_poly h1 p = rd_poly h p) by (unfold rd_poly; rewrite Vp; apply map_ext_in; intros t Ht; apply Same; exact Ht).
  assert (L1 : legal h1 (HP p)). { split; [intros q [= <-]; eapply grown_inb; [apply M0 | exact B]|]. cbn [monomials]. rewrite Vp. intros t Ht. apply Same. exact Ht. }
  assert (A1 : apart v h1 (view (hm h1) p)).
  { rewrite Vp. intros i j m m' N Hi Hj Hh a c Ha Hc. pose proof (nth_error_In _ _ Hj) as Hin. rewrite (proj1 (Same m' Hin)) in Hh.
    assert (Li : (i < length (view (hm h) p))%nat) by (apply nth_error_Some; congruence). assert (Lj : (j < length (view (hm h) p))%nat) by (apply nth_error_Some; congruence).
    apply (Ap (length pre + i)%nat (length pre + j)%nat m m' ltac:(lia)) with (a := a) (c := c); try assumption; rewrite E, nth_error_app2, Nat.add_comm, Nat.add_sub, nth_error_app1 by lia; assumption. }
  destruct (poly_effect h1 p v L1 A1) as (r & h2 & R & V & [F1 F2 F3 F4] & Res & Lo). rewrite Rp in V, Lo. rewrite Vp in F4, Res, Lo.
  exists r, h2. split; [exact R|]. split; [exact V|]. split; [exact F3|].
  assert (M1 : moved v h (view (hm h) p) h1 h2).
  { split; [exact F1 | exact F2|]. eapply stored_weak; [|exact F4]. intros a j (t & T1 & T2 & T3). rewrite firstn_all in T1. exists t. split; [exact T1|]. split; [|exact T3]. rewrite (proj1 (Same t T1)) in T2. exact T2. }
  split; [exact M1|]. split.
  - intros d x -> Hx. destruct (Res d eq_refl) as (R1 & R2 & R3). split; [exact Hx|]. split; [exact R1|]. eapply Forall_impl; [|exact R3]. intros m [F|[F|(t & T1 & T2 & T3)]]; [left; exact F | right; left; destruct M0 as [_ _ [X _]]; lia|].
    rewrite firstn_all in T1. right; right. exists t. split; [apply in_or_app; right; exact T1|]. split; [rewrite (proj1 (Same t T1)) in T2; exact T2 | exact T3].
  - intros Hd. specialize (Lo Hd). assert (C : forall t, In t (view (hm h) p) -> mono_is_constant (rd_mono h1 t) = Ok true -> find_var v (m_vars (rd_mono h1 t)) = None) by (intros t _ Hc; apply constant_none; exact Hc).
    specialize (Lo C). unfold rd_poly in Lo. rewrite (grown_view _ _ _ F1 (grown_inb _ _ _ (mv_m _ _ _ _ _ M0) B)), Vp, map_map in Lo. intros t Ht. apply In_nth_error in Ht as [i Hi].
    assert (X : nth_error (map (rd_mono h2) (view (hm h) p)) i = nth_error (map (fun x => lower v (rd_mono h x)) (view (hm h) p)) i) by (rewrite Lo; reflexivity).
    rewrite !nth_error_map, Hi in X. cbn [option_map] in X. congruence.
Qed.

(** PolynomialVector: the receiver's own slice is overwritten *)
Definition pv_body (pv : slice) (_ : unit) (i : nat) : M unit :=
  p <~ get_poly pv i ;; d <~ h_poly_derivative p v ;; match d with HP q => put_poly pv i q | _ => fail PRuntime end.
Lemma pv_loop pv : forall rest later done pre post h1 qs, inb (hp h1) pv -> view (hp h1) pv = done ++ rest ++ later -> Forall (inb (hm h)) rest -> ms = pre ++ flat_map (view (hm h)) rest ++ post -> moved v h pre h h1 ->
  Forall2 (fun p q => poly_derivative (rd_poly h p) v = Ok (SP q)) rest qs ->
  exists h2 new, forM (pv_body pv) (seq (length done) (length rest)) tt h1 = (Ok tt, h2) /\ inb (hp h2) pv /\ view (hp h2) pv = done ++ new ++ later /\ moved v h (flat_map (view (hm h)) rest) h1 h2 /\
    Forall2 (kept h2 (pre ++ flat_map (view (hm h)) rest)) (map HP new) (map SP qs) /\
    (forall t, In t (flat_map (view (hm h)) rest) -> rd_mono h2 t = lower v (rd_mono h t)).
Proof.
  induction rest as [|p rest IH]; intros later done pre post h1 qs Bp V B E M0 D; cbn [flat_map] in *.
  - exists h1, []. inversion D; subst qs. rewrite !app_nil_r. split; [reflexivity|]. split; [exact Bp|]. split; [exact V|]. split; [apply moved_refl|]. split; [constructor | intros t []].
  - pose proof (Forall_inv B) as Br. pose proof (Forall_inv_tail B) as B'. inversion D as [|? q ? qs' Dq D']; subst qs. clear D.
    rewrite <- app_assoc in E. destruct (call_poly pre (flat_map (view (hm h)) rest ++ post) h1 p Br E M0) as (r & h2 & R & Vr & Hp & M1 & K1 & Lo1). rewrite Dq in Vr.
    destruct r as [d|]; [|discriminate Vr]. cbn [as_value] in Vr. injection Vr as Vr. destruct d as [k|u|m|s]; cbn [rd] in Vr; try discriminate Vr.
    specialize (Lo1 (ex_intro _ _ eq_refl)). specialize (K1 (HP s) (SP q) eq_refl Vr).
    assert (Ld : (length done < s_len pv)%nat) by (rewrite <- (view_length _ _ Bp), V, !app_length; cbn; lia).
    set (h3 := with_polys h2 (store_at (hp h2) (s_arr pv) (s_off pv + length done) [s])).
    assert (B3 : inb (hp h3) pv). { cbn [h3 with_polys hp]. rewrite Hp. destruct Bp as [B1 B2]. split; [exact B1|]. intro C. rewrite store_length, store_cells_length. apply B2. exact C. }
    assert (V3 : view (hp h3) pv = (done ++ [s]) ++ rest ++ later).
    { cbn [h3 with_polys hp]. rewrite Hp. rewrite put_view by assumption. rewrite V. cbn [app]. rewrite set_nth_mid, <- app_assoc. reflexivity. }
    assert (M13 : moved v h (view (hm h) p) h1 h3) by (destruct M1 as [A1 A2 A3]; split; assumption).
    assert (E' : ms = (pre ++ view (hm h) p) ++ flat_map (view (hm h)) rest ++ post) by (rewrite <- app_assoc; exact E).
    assert (M3 : moved v h (pre ++ view (hm h) p) h h3) by (eapply moved_app; eassumption).
    destruct (IH later (done ++ [s]) (pre ++ view (hm h) p) post h3 qs' B3 V3 B' E' M3 D') as (h4 & new & X & B4 & V4 & M4 & K4 & Lo4).
    exists h4, (s :: new). split; [|split; [exact B4|split; [|split; [|split]]]].
    + cbn [length seq forM]. unfold bindM at 1. unfold pv_body at 1. unfold bindM at 1. unfold get_poly, reads, index. rewrite V. rewrite nth_error_app2, Nat.sub_diag by lia. cbn [app nth_error].
      unfold bindM at 1. rewrite R. unfold put_poly. destruct (Nat.ltb_spec (length done) (s_len pv)); [|lia]. fold h3. rewrite app_length, Nat.add_1_r in X. exact X.
    + rewrite V4, <- app_assoc. reflexivity.
    + eapply moved_app; eassumption.
    + rewrite <- app_assoc in K4. cbn [map]. constructor; [|exact K4]. assert (K3 : kept h3 (pre ++ view (hm h) p) (HP s) (SP q)) by exact K1.
      pose proof (kept_step _ _ post h3 h4 _ _ E' M3 M4 K3) as K5. rewrite <- app_assoc in K5. exact K5.
    + intros t Ht. apply in_app_or in Ht as [Ht|Ht]; [|apply Lo4; exact Ht]. rewrite <- (Lo1 t Ht). change (rd_mono h2 t) with (rd_mono h3 t). eapply (pre_same (pre ++ view (hm h) p) _ post); [exact E' | exact M4 | apply in_or_app; right; exact Ht|].
      eapply moved_legal; [exact M3|]. apply Lg. rewrite E'. apply in_or_app. left. apply in_or_app. right. exact Ht.
Qed.

(** PolynomialMatrix *)
Definition prow_body (r : slice) (row : list slice) (i : nat) : M (list slice) :=
  p <~ get_poly r i ;; d <~ h_poly_derivative p v ;; match d with HP q => ret (row ++ [q]) | _ => fail PRuntime end.
Lemma prow_loop r : forall rest later done pre post h1 row qs, view (hp h1) r = done ++ rest ++ later -> Forall (inb (hm h)) rest -> ms = pre ++ flat_map (view (hm h)) rest ++ post -> moved v h pre h h1 ->
  Forall2 (fun p q => poly_derivative (rd_poly h p) v = Ok (SP q)) rest qs ->
  exists h2 new, forM (prow_body r) (seq (length done) (length rest)) row h1 = (Ok (row ++ new), h2) /\ hp h2 = hp h1 /\ moved v h (flat_map (view (hm h)) rest) h1 h2 /\
    Forall2 (kept h2 (pre ++ flat_map (view (hm h)) rest)) (map HP new) (map SP qs) /\
    (forall t, In t (flat_map (view (hm h)) rest) -> rd_mono h2 t = lower v (rd_mono h t)).
Proof.
  induction rest as [|p rest IH]; intros later done pre post h1 row qs V B E M0 D; cbn [flat_map] in *.
  - exists h1, []. inversion D; subst qs. rewrite !app_nil_r. split; [reflexivity|]. split; [reflexivity|]. split; [apply moved_refl|]. split; [constructor | intros t []].
  - pose proof (Forall_inv B) as Br. pose proof (Forall_inv_tail B) as B'. inversion D as [|? q ? qs' Dq D']; subst qs. clear D.
    rewrite <- app_assoc in E. destruct (call_poly pre (flat_map (view (hm h)) rest ++ post) h1 p Br E M0) as (rr & h2 & R & Vr & Hp & M1 & K1 & Lo1). rewrite Dq in Vr.
    destruct rr as [d|]; [|discriminate Vr]. cbn [as_value] in Vr. injection Vr as Vr. destruct d as [k|u|m|s]; cbn [rd] in Vr; try discriminate Vr.
    specialize (Lo1 (ex_intro _ _ eq_refl)). specialize (K1 (HP s) (SP q) eq_refl Vr).
    assert (E' : ms = (pre ++ view (hm h) p) ++ flat_map (view (hm h)) rest ++ post) by (rewrite <- app_assoc; exact E).
    assert (M3 : moved v h (pre ++ view (hm h) p) h h2) by (eapply moved_app; eassumption).
    assert (V3 : view (hp h2) r = (done ++ [p]) ++ rest ++ later) by (rewrite Hp, V, <- app_assoc; reflexivity).
    destruct (IH later (done ++ [p]) (pre ++ view (hm h) p) post h2 (row ++ [s]) qs' V3 B' E' M3 D') as (h4 & new & X & Hp4 & M4 & K4 & Lo4).
    exists h4, (s :: new). split; [|split; [congruence|split; [|split]]].
    + cbn [length seq forM]. unfold bindM at 1. unfold prow_body at 1. unfold bindM at 1. unfold get_poly, reads, index. rewrite V. rewrite nth_error_app2, Nat.sub_diag by lia. cbn [app nth_error].
      unfold bindM at 1. rewrite R. cbn [ret]. rewrite app_length, Nat.add_1_r, <- app_assoc in X. exact X.
    + eapply moved_app; eassumption.
    + rewrite <- app_assoc in K4. cbn [map]. constructor; [|exact K4].
      pose proof (kept_step _ _ post h2 h4 _ _ E' M3 M4 K1) as K5. rewrite <- app_assoc in K5. exact K5.
    + intros t Ht. apply in_app_or in Ht as [Ht|Ht]; [|apply Lo4; exact Ht]. rewrite <- (Lo1 t Ht). eapply (pre_same (pre ++ view (hm h) p) _ post); [exact E' | exact M4 | apply in_or_app; right; exact Ht|].
      eapply moved_legal; [exact M3|]. apply Lg. rewrite E'. apply in_or_app. left. apply in_or_app. right. exact Ht.
Qed.
Definition prows_body (rows : list (list slice)) (r : slice) : M (list (list slice)) := row <~ forM (prow_body r) (indices r) [] ;; ret (rows ++ [row]).
Lemma prows_loop : forall rest pre post h1 rows qss, Forall (inb (hp h1)) rest -> Forall (inb (hm h)) (flat_map (view (hp h1)) rest) -> ms = pre ++ flat_map (view (hm h)) (flat_map (view (hp h1)) rest) ++ post -> moved v h pre h h1 ->
  Forall2 (fun r qs => Forall2 (fun p q => poly_derivative (rd_poly h p) v = Ok (SP q)) (view (hp h1) r) qs) rest qss ->
  exists h2 new, forM prows_body rest rows h1 = (Ok (rows ++ new), h2) /\ hp h2 = hp h1 /\ moved v h (flat_map (view (hm h)) (flat_map (view (hp h1)) rest)) h1 h2 /\
    Forall2 (fun l qs => Forall2 (kept h2 (pre ++ flat_map (view (hm h)) (flat_map (view (hp h1)) rest))) (map HP l) (map SP qs)) new qss /\
    (forall t, In t (flat_map (view (hm h)) (flat_map (view (hp h1)) rest)) -> rd_mono h2 t = lower v (rd_mono h t)).
Proof.
  induction rest as [|r rest IH]; intros pre post h1 rows qss Bp B E M0 D; cbn [flat_map] in *.
  - exists h1, []. inversion D; subst qss. rewrite !app_nil_r. split; [reflexivity|]. split; [reflexivity|]. split; [apply moved_refl|]. split; [constructor | intros t []].
  - pose proof (Forall_inv Bp) as Br. pose proof (Forall_inv_tail Bp) as Bp'. apply Forall_app in B as [B1 B2]. inversion D as [|? qs ? qss' Dq D']; subst qss. clear D. rewrite flat_map_app in *.
    rewrite <- app_assoc in E.
    destruct (prow_loop r (view (hp h1) r) [] [] pre (flat_map (view (hm h)) (flat_map (view (hp h1)) rest) ++ post) h1 [] qs) as (h2 & new & X & Hp & M1 & K1 & Lo1); [rewrite app_nil_r; reflexivity | exact B1 | exact E | exact M0 | exact Dq|].
    set (c := flat_map (view (hm h)) (view (hp h1) r)) in *.
    assert (E' : ms = (pre ++ c) ++ flat_map (view (hm h)) (flat_map (view (hp h1)) rest) ++ post) by (rewrite <- app_assoc; exact E).
    assert (M3 : moved v h (pre ++ c) h h2) by (eapply moved_app; eassumption).
    rewrite <- Hp in Bp', B2, E', D'.
    destruct (IH (pre ++ c) post h2 (rows ++ [new]) qss' Bp' B2 E' M3 D') as (h4 & new4 & X4 & Hp4 & M4 & K4 & Lo4). rewrite Hp in M4, K4, Lo4, E'.
    exists h4, (new :: new4). split; [|split; [congruence|split; [|split]]].
    + cbn [forM]. unfold bindM at 1. unfold prows_body at 1. unfold bindM at 1. unfold indices. rewrite <- (view_length _ _ Br). cbn [length] in X. rewrite X. cbn [app ret]. rewrite <- app_assoc in X4. exact X4.
    + eapply moved_app; eassumption.
    + rewrite <- app_assoc in K4. constructor; [|exact K4]. eapply F2_impl; [|exact K1]. intros s0 x0 K. pose proof (kept_step _ _ post h2 h4 _ _ E' M3 M4 K) as K5. rewrite <- app_assoc in K5. exact K5.
    + intros t Ht. apply in_app_or in Ht as [Ht|Ht]; [|apply Lo4; exact Ht]. rewrite <- (Lo1 t Ht). eapply (pre_same (pre ++ c) _ post); [exact E' | exact M4 | apply in_or_app; right; exact Ht|].
      eapply moved_legal; [exact M3|]. apply Lg. rewrite E'. apply in_or_app. left. apply in_or_app. right. exact Ht.
Qed.
End Base.
End Sweep.
