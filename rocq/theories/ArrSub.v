(** * Substitution, Variables, Constant and Degree of arrays *)

From Coq Require Import ZArith NArith Bool List Lia Ring Field Permutation.
From Verif Require Import Num Syntax ModelScalar Spec Base ScalarValid Eval ScalarOps ScalarMore ScalarNorm ScalarLin ScalarFacts Unamb ScalarOver ModelShape ModelArith SpecArr Arr ArrPlus ArrTop ArrShape.
Import ListNotations.
Local Open Scope num_scope.

Section ArrSub.
Context {NN : Num}.

(** ** Substitute *)

Definition same_class (a b : expr) : Prop := match a, b with ES _, ES _ | EV _, EV _ | EM _, EM _ => True | _, _ => False end.

Lemma col_map_id n (P Q : nat -> scalar -> Prop) (f : scalar -> res scalar) l :
  (forall i s, i < n -> P i s -> exists s', f s = Ok s' /\ Q i s') -> (forall s, In s l -> f s = Ok s) -> col n P l -> col n Q l.
Proof.
  intros H Hf [L HC]. split; [exact L|]. intros i Hi. destruct (HC i Hi) as (s & E & Ps). exists s. split; [exact E|].
  destruct (H i s Hi Ps) as (s' & E' & Qs). rewrite (Hf s (nth_error_In _ _ E)) in E'. injection E' as <-. exact Qs.
Qed.

Lemma expr_substitute_arr d (P Q : nat -> nat -> scalar -> Prop) e x t : 1 <= fst d -> 1 <= snd d -> by_terms Q ->
  (forall i j s, P i j s -> valid s) -> valid_var x -> valid t ->
  (forall i j s, i < fst d -> j < snd d -> P i j s -> exists s', scalar_substitute s x t = Ok s' /\ Q i j s') ->
  arr d P e -> exists e', expr_substitute e x t = Ok e' /\ arr d Q e' /\ same_class e e'.
Proof.
  intros Hn Hc HT HV Vx Vt HS H. pose proof Vx as Cx. apply var_check_valid in Cx. pose proof (valid_check t Vt) as Ct.
  destruct e as [s|v|m]; cbn [expr_substitute].
  - pose proof (arr_ES_dims _ _ _ Hn H) as ->. apply arr_ES in H. destruct (HS 0 0 s Hn Hc H) as (s' & -> & Hs). cbn.
    exists (ES s'). split; [reflexivity | split; [apply arr_ES; exact Hs | exact I]].
  - pose proof (arr_EV_cols _ _ _ Hn H) as Hs. destruct d as [n c]. cbn in Hs. subst c. cbn [fst snd] in *. apply arr_EV in H.
    assert (C : vec_check v = true) by (eapply vec_check_col; [exact Hn | | exact H]; intros i s; apply HV).
    assert (L : vec_len v = Ok n) by (eapply vec_len_col; [exact Hn | | exact H]; intros i s; apply HV).
    destruct (mapM_seq (fun i => a <- vec_get v i ;; scalar_substitute a x t) n (fun i s => Q i 0 s)) as (l & El & Ll & Hl).
    { intros i Hi. destruct (vec_get_col n (fun i => P i 0) v i Hn) as (a & Ea & _ & Pa); [intros k s; apply HV | exact H | exact Hi|]. rewrite Ea. cbn [bind]. exact (HS i 0 a Hi Hc Pa). }
    destruct (concretize_vector_arr n Q l Hn HT (conj Ll Hl)) as (v' & Ev & Hv').
    destruct v as [l0|l0|l0|l0]; unfold vec_substitute;
      [| rewrite C, Cx, Ct; cbn [check bind]; rewrite L; cbn [bind]; rewrite El; cbn [bind]; rewrite Ev; cbn [bind]; exists (EV v'); split; [reflexivity | split; [exact Hv' | exact I]] ..].
    cbn [bind]. exists (EV (VK l0)). split; [reflexivity|]. split; [|exact I]. apply arr_EV.
    apply (col_map_id n (fun i => P i 0) (fun i => Q i 0) (fun a => scalar_substitute a x t)); [intros i s Hi; exact (HS i 0 s Hi Hc) | | exact H].
    intros s Hs. cbn in Hs. apply in_map_iff in Hs. destruct Hs as (k & <- & _). reflexivity.
  - apply (proj1 (arr_EM _ _ _)) in H. pose proof (mat_check_grid d P m Hn HV H) as C. pose proof (mat_dims_grid d P m Hn HV H) as D.
    destruct (mapM_seq (fun i => mapM (fun j => a <- mat_get m i j ;; scalar_substitute a x t) (seq 0 (snd d))) (fst d) (fun i r => col (snd d) (Q i) r)) as (l & El & Ll & Hl).
    { intros i Hi. destruct (mapM_seq (fun j => a <- mat_get m i j ;; scalar_substitute a x t) (snd d) (fun j s => Q i j s)) as (r & Er & Lr & Hr).
      - intros j Hj. destruct (mat_get_grid d P m i j Hn Hc HV H Hi Hj) as (a & Ea & Pa). rewrite Ea. cbn [bind]. exact (HS i j a Hi Hj Pa).
      - exists r. split; [exact Er | split; [exact Lr | exact Hr]]. }
    destruct (concretize_matrix_arr d Q l Hn HT (conj Ll Hl)) as (m' & Em & Hm').
    destruct m as [l0|l0|l0|l0]; unfold mat_substitute;
      [| rewrite C, Cx, Ct; cbn [check bind]; rewrite D; cbn [bind]; rewrite El; cbn [bind]; rewrite Em; cbn [bind]; exists (EM m'); split; [reflexivity | split; [exact Hm' | exact I]] ..].
    cbn [bind]. exists (EM (MK l0)). split; [reflexivity|]. split; [|exact I]. apply arr_EM.
    destruct H as [L H]. split; [exact L|]. intros i Hi. destruct (H i Hi) as (row & E & HC). exists row. split; [exact E|].
    apply (col_map_id (snd d) (P i) (Q i) (fun a => scalar_substitute a x t)); [intros j s Hj; exact (HS i j s Hi Hj) | | exact HC].
    intros s Hs. apply nth_error_In in E. cbn in E. apply in_map_iff in E. destruct E as (ks & <- & _). apply in_map_iff in Hs. destruct Hs as (k & <- & _). reflexivity.
Qed.

Lemma array_substitute_total e d x t : valid_array d e -> valid_var x -> valid t -> exists e', expr_substitute e x t = Ok e' /\ valid_array d e'.
Proof.
  intros V Vx Vt. pose proof V as (D1 & D2 & _).
  destruct (expr_substitute_arr d (fun i j s => entry e i j = s /\ valid s) (fun _ _ s => valid s) e x t D1 D2) as (e' & E & H & _).
  - intros i j a b HT Va. apply valid_terms_iff. rewrite HT. apply valid_terms_iff. exact Va.
  - intros i j s H. exact (proj2 H).
  - exact Vx.
  - exact Vt.
  - intros i j s _ _ [_ Vs]. exact (scalar_substitute_valid s x t Vs Vx Vt).
  - exact (valid_array_arr d e V).
  - exists e'. split; [exact E|]. apply (arr_valid d _ e' D1 D2 H). auto.
Qed.

Lemma array_substitute_value e d x t : ExactNum NN -> valid_array d e -> valid_var x -> valid t ->
  (forall i j, i < fst d -> j < snd d -> same_environment x (entry e i j) /\ unambiguous_exponents (substituted_terms (replacement x t) (entry e i j))) ->
  exists e', expr_substitute e x t = Ok e' /\ valid_array d e'
    /\ forall r i j, i < fst d -> j < snd d -> value r e' i j = value (update r (v_id x) (eval r t)) e i j.
Proof.
  intros EX V Vx Vt HU. pose proof V as (D1 & D2 & _).
  destruct (expr_substitute_arr d (fun i j s => entry e i j = s /\ valid s)
    (fun i j s => valid s /\ forall r, eval r s = eval (update r (v_id x) (eval r t)) (entry e i j)) e x t D1 D2) as (e' & E & H & _).
  - intros i j a b HT [Va Ha]. split; [apply valid_terms_iff; rewrite HT; apply valid_terms_iff; exact Va|]. intro r. rewrite <- Ha, <- !eval_terms, HT. reflexivity.
  - intros i j s H. exact (proj2 H).
  - exact Vx.
  - exact Vt.
  - intros i j s Hi Hj [<- Vs]. destruct (HU i j Hi Hj) as [H1 H2]. destruct (substitute_value (entry e i j) x t EX Vs Vx Vt H1 H2) as (s' & Es & Xs).
    exists s'. split; [exact Es|]. split; [|exact Xs]. destruct (scalar_substitute_valid (entry e i j) x t Vs Vx Vt) as (s2 & E2 & V2). rewrite Es in E2. injection E2 as <-. exact V2.
  - exact (valid_array_arr d e V).
  - exists e'. split; [exact E|]. split; [apply (arr_valid d _ e' D1 D2 H); intros i j s [Hs _]; exact Hs|].
    intros r i j Hi Hj. apply (arr_entry d _ e' i j H Hi Hj).
Qed.

Lemma entry_in d e i j : shape d e -> i < fst d -> j < snd d -> exists row, In row (rows e) /\ In (entry e i j) row.
Proof.
  intros [L F] Hi Hj. assert (Hr : i < length (rows e)) by lia. exists (nth i (rows e) []). split; [apply nth_In; exact Hr|]. apply nth_In. rewrite Forall_forall in F. rewrite (F (nth i (rows e) [])); [exact Hj | apply nth_In; exact Hr].
Qed.

Lemma array_substitute_degree2 e d x t dd D : ExactNum NN -> valid_array d e -> valid_var x -> valid t ->
  (forall i j, i < fst d -> j < snd d -> same_environment x (entry e i j)) -> array_degree dd e -> degree_at_most D t -> (1 <= D)%Z -> (dd * D <= 2)%Z ->
  exists e', expr_substitute e x t = Ok e' /\ valid_array d e'
    /\ forall r i j, i < fst d -> j < snd d -> value r e' i j = value (update r (v_id x) (eval r t)) e i j.
Proof.
  intros EX V Vx Vt HE Hd HD H1 Hb. apply array_substitute_value; try assumption. intros i j Hi Hj. split; [exact (HE i j Hi Hj)|].
  pose proof V as (_ & _ & HS & VE). destruct (entry_in d e i j HS Hi Hj) as (row & R1 & R2). pose proof (Hd row _ R1 R2) as Hdd. pose proof (VE i j Hi Hj) as Vs.
  apply (substituted_terms_degree _ (entry e i j) dd D Vs); [lia | exact Hdd | | exact Hb]. intros m w Hm Hw. unfold replacement.
  destruct (N.eqb _ _); [split; assumption|]. split.
  - pose proof (valid_terms _ Vs) as HV. rewrite Forall_forall in HV. destruct (HV m Hm) as (_ & _ & _ & H4). rewrite Forall_forall in H4. exact (H4 w Hw).
  - constructor; [cbn; lia | constructor].
Qed.

(** ** SubstituteAccordingTo: one substitution after the other *)

Fixpoint seq_assign (r : assignment) (sm : submap) : assignment :=
  match sm with
  | (k, ES t) :: sm' => let r1 := seq_assign r sm' in update r1 (v_id k) (eval r1 t)
  | (_, _) :: sm' => seq_assign r sm'
  | [] => r
  end.

Definition step (out : expr) (kv : var * expr) : res expr := s <- as_scalar (snd kv) ;; expr_substitute out (fst kv) s.

Lemma vec_fold sm v : (forall kv, In kv sm -> exists s, snd kv = ES s) -> forall e', foldM step (EV v) sm = Ok e' ->
  exists v', e' = EV v' /\ foldM (fun out kv => s <- as_scalar (snd kv) ;; vec_substitute out (fst kv) s) v sm = Ok v'.
Proof.
  revert v. induction sm as [|kv sm IH]; intros v H e' E; cbn [foldM] in *.
  - injection E as <-. exists v. auto.
  - destruct (H kv (or_introl eq_refl)) as [s Es]. unfold step in E at 1. rewrite Es in *. cbn [as_scalar bind expr_substitute] in *.
    destruct (vec_substitute v (fst kv) s) as [v1|]; [|discriminate E]. cbn [bind] in *. apply IH; [intros x Hx; apply H; right; exact Hx | exact E].
Qed.
Lemma mat_fold sm v : (forall kv, In kv sm -> exists s, snd kv = ES s) -> forall e', foldM step (EM v) sm = Ok e' ->
  exists v', e' = EM v' /\ foldM (fun out kv => s <- as_scalar (snd kv) ;; mat_substitute out (fst kv) s) v sm = Ok v'.
Proof.
  revert v. induction sm as [|kv sm IH]; intros v H e' E; cbn [foldM] in *.
  - injection E as <-. exists v. auto.
  - destruct (H kv (or_introl eq_refl)) as [s Es]. unfold step in E at 1. rewrite Es in *. cbn [as_scalar bind expr_substitute] in *.
    destruct (mat_substitute v (fst kv) s) as [v1|]; [|discriminate E]. cbn [bind] in *. apply IH; [intros x Hx; apply H; right; exact Hx | exact E].
Qed.

Lemma vk_fold sm l : (forall kv, In kv sm -> exists s, snd kv = ES s) -> foldM (fun out kv => s <- as_scalar (snd kv) ;; vec_substitute out (fst kv) s) (VK l) sm = Ok (VK l).
Proof.
  induction sm as [|kv sm IH]; intro H; cbn [foldM]; [reflexivity|]. destruct (H kv (or_introl eq_refl)) as [s ->]. cbn [as_scalar bind vec_substitute]. apply IH. intros x Hx. apply H. right. exact Hx.
Qed.
Lemma mk_fold sm l : (forall kv, In kv sm -> exists s, snd kv = ES s) -> foldM (fun out kv => s <- as_scalar (snd kv) ;; mat_substitute out (fst kv) s) (MK l) sm = Ok (MK l).
Proof.
  induction sm as [|kv sm IH]; intro H; cbn [foldM]; [reflexivity|]. destruct (H kv (or_introl eq_refl)) as [s ->]. cbn [as_scalar bind mat_substitute]. apply IH. intros x Hx. apply H. right. exact Hx.
Qed.

Lemma substitute_map_fold e d sm e' : valid_array d e -> ~ is_scalar e -> ok_map sm -> foldM step e sm = Ok e' -> expr_substitute_map e sm = Ok e'.
Proof.
  intros V NS HM E. pose proof (valid_map_check sm HM) as CM. destruct (valid_array_check d e V) as [C _].
  assert (HK : forall kv, In kv sm -> exists s, snd kv = ES s). { intros [k x] Hk. destruct (HM k x Hk) as (_ & s & -> & _). exists s. reflexivity. }
  destruct e as [s|v|m]; [destruct NS; exact I | |]; cbn [expr_substitute_map].
  - destruct (vec_fold sm v HK e' E) as (v' & -> & F). destruct v as [l|l|l|l]; unfold vec_substitute_map.
    + rewrite (vk_fold sm l HK) in F. injection F as <-. reflexivity.
    + cbn [expr_check] in C. rewrite C, CM. cbn [check bind]. rewrite F. reflexivity.
    + cbn [expr_check] in C. rewrite C, CM. cbn [check bind]. rewrite F. reflexivity.
    + cbn [expr_check] in C. rewrite C, CM. cbn [check bind]. rewrite F. reflexivity.
  - destruct (mat_fold sm m HK e' E) as (v' & -> & F). destruct m as [l|l|l|l]; unfold mat_substitute_map.
    + rewrite (mk_fold sm l HK) in F. injection F as <-. reflexivity.
    + cbn [expr_check] in C. rewrite C, CM. cbn [check bind]. rewrite F. reflexivity.
    + cbn [expr_check] in C. rewrite C, CM. cbn [check bind]. rewrite F. reflexivity.
    + cbn [expr_check] in C. rewrite C, CM. cbn [check bind]. rewrite F. reflexivity.
Qed.

Lemma array_substitute_map_total e d sm : valid_array d e -> ~ is_scalar e -> valid_map sm -> exists e', expr_substitute_map e sm = Ok e' /\ valid_array d e'.
Proof.
  intros V NS HM. assert (G : forall sm e, ok_map sm -> valid_array d e -> exists e', foldM step e sm = Ok e' /\ valid_array d e').
  { clear. induction sm as [|[k x] sm IH]; intros e HM V; cbn [foldM]; [eauto|]. destruct (HM k x (or_introl eq_refl)) as (Vk & t & -> & Vt).
    unfold step at 1. cbn [snd fst as_scalar bind]. destruct (array_substitute_total e d k t V Vk Vt) as (e1 & E1 & V1). rewrite E1. cbn [bind].
    apply IH; [intros k' x' H'; apply HM; right; exact H' | exact V1]. }
  destruct (G sm e (valid_map_ok sm HM) V) as (e' & E & V'). exists e'. split; [|exact V']. exact (substitute_map_fold e d sm e' V NS (valid_map_ok sm HM) E).
Qed.

(** entries of degree at most 2 whose variables satisfy [W], denoting [phi] *)
Definition quad (W : var -> Prop) (phi : assignment -> num) (s : scalar) : Prop := valid s /\ degree_at_most 2 s /\ over W s /\ forall r, eval r s = phi r.

Lemma quad_by_terms (W : var -> Prop) (phi : nat -> nat -> assignment -> num) : ExactNum NN -> by_terms (fun i j => quad W (phi i j)).
Proof.
  intros EX i j a b HT (Va & Da & Oa & Xa). split; [apply valid_terms_iff; rewrite HT; apply valid_terms_iff; exact Va|].
  unfold degree_at_most, over in *. rewrite HT. split; [exact Da|]. split; [exact Oa|]. intro r. rewrite <- Xa, <- !eval_terms, HT. reflexivity.
Qed.

Lemma quad_step (W : var -> Prop) phi s k t : ExactNum NN -> quad W phi s -> valid_var k -> valid t -> degree_at_most 1 t -> over W t ->
  (forall w, W w -> v_id w = v_id k -> v_env w = v_env k) ->
  exists s', scalar_substitute s k t = Ok s' /\ quad W (fun r => phi (update r (v_id k) (eval r t))) s'.
Proof.
  intros EX (V & D & O & X) Vk Vt Dt Ot HW.
  assert (HI : forall m v, In m (terms s) -> In v (m_vars m) -> valid (sub_image k t v) /\ degree_at_most 1 (sub_image k t v)).
  { intros m v Hm Hv. unfold sub_image. destruct (_ && _); [split; assumption|]. split; [|constructor; [cbn; lia | constructor]].
    pose proof (valid_terms s V) as HV. rewrite Forall_forall in HV. destruct (HV m Hm) as (_ & _ & _ & H4). rewrite Forall_forall in H4. exact (H4 v Hv). }
  destruct (scalar_substitute_within s k t EX V Vk Vt) as (s' & E & V' & Ws & X').
  - intros m w Hm Hw. apply HW. exact (O m w Hm Hw).
  - apply (substituted_terms_degree _ s 2 1 V); [lia | exact D | exact HI | lia].
  - exists s'. split; [exact E|]. split; [exact V'|]. split; [|split; [exact (over_substitute W s k t s' V Vk Vt O Ot E) | intro r; rewrite X', X; reflexivity]].
    apply Forall_forall. intros m' Hm'. destruct (Ws m' Hm') as (f & (m & Hm & Hf) & Ef).
    pose proof (valid_terms s' V') as HV'. rewrite Forall_forall in HV'. pose proof (HV' m' Hm') as Vm'.
    rewrite <- (tdeg_sumL m' (ids m') Vm'); [|apply Vm' | apply incl_refl]. rewrite (sumL_ext _ (exponent m') f) by (intros; apply Ef).
    destruct (degree_terms s 2 V D m Hm) as [Vm Dm].
    assert (HE : Forall (fun e => (0 <= e)%Z) (m_exps m)) by (destruct Vm as (_ & V2 & _); eapply Forall_impl; [|exact V2]; intros; cbn in *; lia).
    pose proof (image_terms_degree (sub_image k t) (m_vars m) (m_exps m) 1 ltac:(lia) HE (fun v Hv => HI m v Hm Hv) f Hf (ids m') ltac:(apply Vm')) as HX.
    unfold tdeg in Dm. lia.
Qed.

Lemma quad_fold (W : var -> Prop) d sm : ExactNum NN -> 1 <= fst d -> 1 <= snd d -> ok_map sm ->
  (forall k t, In (k, ES t) sm -> degree_at_most 1 t /\ over W t /\ forall w, W w -> v_id w = v_id k -> v_env w = v_env k) ->
  forall e phi, arr d (fun i j => quad W (phi i j)) e ->
  exists e', foldM step e sm = Ok e' /\ arr d (fun i j => quad W (fun r => phi i j (seq_assign r sm))) e'.
Proof.
  intros EX D1 D2. induction sm as [|[k x] sm IH]; intros HM HI e phi HA; cbn [foldM seq_assign]; [eauto|].
  destruct (HM k x (or_introl eq_refl)) as (Vk & t & -> & Vt). destruct (HI k t (or_introl eq_refl)) as (Dt & Ot & HW).
  unfold step at 1. cbn [snd fst as_scalar bind].
  destruct (expr_substitute_arr d (fun i j => quad W (phi i j)) (fun i j => quad W (fun r => phi i j (update r (v_id k) (eval r t)))) e k t D1 D2) as (e1 & E1 & A1 & _).
  - apply quad_by_terms. exact EX.
  - intros i j s Hs. exact (proj1 Hs).
  - exact Vk.
  - exact Vt.
  - intros i j s _ _ Hs. exact (quad_step W (phi i j) s k t EX Hs Vk Vt Dt Ot HW).
  - exact HA.
  - rewrite E1. cbn [bind].
    destruct (IH (fun k' x' H' => HM k' x' (or_intror H')) (fun k' t' H' => HI k' t' (or_intror H')) e1 (fun i j r => phi i j (update r (v_id k) (eval r t))) A1) as (e' & E' & A').
    exists e'. split; [exact E' | exact A'].
Qed.

Lemma seq_assign_other r sm i : (forall k, In k (map fst sm) -> v_id k <> i) -> seq_assign r sm i = r i.
Proof.
  induction sm as [|[k [t| |]] sm IH]; cbn; intro H; [reflexivity | | apply IH; intros; apply H; right; assumption ..].
  unfold update. destruct (N.eqb_spec i (v_id k)) as [E|E]; [exfalso; apply (H k (or_introl eq_refl)); congruence|]. apply IH. intros; apply H; right; assumption.
Qed.

Lemma seq_assign_key r sm k t : NoDup (map (fun kv => v_id (fst kv)) sm) ->
  (forall k t k', In (k, ES t) sm -> In k' (map fst sm) -> ~ occurs (v_id k') t) -> In (k, ES t) sm -> seq_assign r sm (v_id k) = eval r t.
Proof.
  induction sm as [|[k0 x] sm IH]; intros HN HF Hin; [destruct Hin|]. inversion HN as [|? ? N1 N2]; subst. cbn [fst] in N1.
  assert (HT : forall t0, x = ES t0 -> eval (seq_assign r sm) t0 = eval r t0).
  { intros t0 ->. apply eval_ext. intros i Hi. apply seq_assign_other. intros k' Hk' <-. apply (HF k0 t0 k' (or_introl eq_refl)); [right; exact Hk' | exact Hi]. }
  destruct Hin as [Hin|Hin].
  - injection Hin as -> ->. cbn [seq_assign]. unfold update. rewrite N.eqb_refl. apply HT. reflexivity.
  - assert (NE : v_id k <> v_id k0). { intro E. apply N1. rewrite <- E. apply in_map_iff. exists (k, ES t). auto. }
    assert (R : seq_assign r sm (v_id k) = eval r t). { apply IH; [exact N2 | intros a b c Ha Hc; apply (HF a b c); [right; exact Ha | right; exact Hc] | exact Hin]. }
    cbn [seq_assign]. destruct x as [t0| |]; [|exact R ..]. unfold update. destruct (N.eqb_spec (v_id k) (v_id k0)); [congruence | exact R].
Qed.

Lemma array_substitute_map_value e d sm : ExactNum NN -> valid_array d e -> ~ is_scalar e -> valid_map sm -> array_degree 2 e ->
  (forall k t, In (k, ES t) sm -> degree_at_most 1 t) ->
  (forall w, array_var w e \/ map_var w sm -> forall k, In k (map fst sm) -> v_id w = v_id k -> w = k) ->
  (forall k t k', In (k, ES t) sm -> In k' (map fst sm) -> ~ occurs (v_id k') t) ->
  exists e', expr_substitute_map e sm = Ok e' /\ valid_array d e'
    /\ forall r r' i j, i < fst d -> j < snd d -> simultaneous r sm (entry e i j) r' -> value r e' i j = value r' e i j.
Proof.
  intros EX V NS HM HD H1 HA HF. pose proof V as (D1 & D2 & HS & VE). pose proof (valid_map_ok sm HM) as OK.
  set (W := fun w => array_var w e \/ map_var w sm).
  assert (A0 : arr d (fun i j => quad W (fun r => eval r (entry e i j))) e).
  { eapply arr_impl; [|exact (valid_array_arr d e V)]. intros i j s Hi Hj [E Vs]. destruct (entry_in d e i j HS Hi Hj) as (row & R1 & R2). rewrite E in *. 
    split; [exact Vs|]. split; [exact (HD row s R1 R2)|]. split; [|intro r; reflexivity]. intros m w Hm Hw. left. exists row, s, m. auto. }
  destruct (quad_fold W d sm EX D1 D2 OK) with (e := e) (phi := fun i j r => eval r (entry e i j)) as (e' & E & A').
  - intros k t Hk. split; [exact (H1 k t Hk)|]. split.
    + intros m w Hm Hw. right. right. exists k, t, m. auto.
    + intros w Hw Ei. assert (Hk' : In k (map fst sm)) by (apply in_map_iff; exists (k, ES t); auto). rewrite (HA w Hw k Hk' Ei). reflexivity.
  - exact A0.
  - exists e'. split; [exact (substitute_map_fold e d sm e' V NS OK E)|]. split; [apply (arr_valid d _ e' D1 D2 A'); intros i j s Hs; exact (proj1 Hs)|].
    intros r r' i j Hi Hj Hsim. destruct (arr_entry d _ e' i j A' Hi Hj) as (_ & _ & _ & X). unfold value. rewrite X.
    apply eval_ext. intros q (m & Hm & Hq). apply in_map_iff in Hq. destruct Hq as (w & <- & Hw). destruct (Hsim m w Hm Hw) as [S1 S2].
    destruct (entry_in d e i j HS Hi Hj) as (row & R1 & R2).
    assert (HW : W w) by (left; exists row, (entry e i j), m; auto).
    destruct (in_dec (fun a b : N => N.eq_dec a b) (v_id w) (map (fun kv => v_id (fst kv)) sm)) as [Hin|Hout].
    + apply in_map_iff in Hin. destruct Hin as ([k x] & Ek & Hin). cbn in Ek. destruct (OK k x Hin) as (_ & t & -> & _).
      assert (w = k) by (apply (HA w HW); [apply in_map_iff; exists (k, ES t); auto | congruence]). subst k.
      rewrite (S1 t Hin). apply seq_assign_key; [|exact HF | exact Hin].
      destruct HM as [HN _]. assert (HK : forall k, In k (map fst sm) -> W k) by (intros k Hk; right; left; exact Hk). clear - HN HK HA.
      assert (HA' : forall a b, In a (map fst sm) -> In b (map fst sm) -> v_id a = v_id b -> a = b) by (intros a b Ha Hb; exact (HA a (HK a Ha) b Hb)). clear HA HK.
      induction sm as [|[k x] sm IH]; cbn in *; [constructor|]. inversion HN as [|? ? N1 N2]; subst. constructor.
      * intro Hc. apply in_map_iff in Hc. destruct Hc as ([k' x'] & Ek & Hc). cbn in Ek. apply N1. assert (k' = k) by (apply HA'; [right; apply in_map_iff; exists (k', x'); auto | left; reflexivity | exact Ek]).
        subst k'. apply in_map_iff. exists (k, x'). auto.
      * apply IH; [exact N2|]. intros a b Ha Hb. apply HA'; right; assumption.
    + rewrite seq_assign_other; [symmetry; apply S2 |].
      * intros x Hx. apply Hout. apply in_map_iff. exists (w, x). auto.
      * intros k Hk Ek. apply Hout. rewrite <- Ek. apply in_map_iff in Hk. destruct Hk as (kv & <- & Hk). apply in_map_iff. exists kv. auto.
Qed.

(** every map that agrees on shared variables has a simultaneous assignment *)
Lemma simultaneous_exists e d sm r i j : valid_map sm -> valid_array d e -> i < fst d -> j < snd d ->
  (forall w, array_var w e \/ map_var w sm -> forall k, In k (map fst sm) -> v_id w = v_id k -> w = k) ->
  exists r', forall sm', Permutation sm sm' -> simultaneous r sm' (entry e i j) r'.
Proof.
  intros [HN HV] V Hi Hj HA. pose proof V as (_ & _ & HS & _). destruct (entry_in d e i j HS Hi Hj) as (row & R1 & R2).
  exists (fun q => match find (fun kv => N.eqb (v_id (fst kv)) q) sm with Some (_, ES t) => eval r t | _ => r q end).
  intros sm' HP m w Hm Hw. assert (HW : array_var w e) by (exists row, (entry e i j), m; auto).
  destruct (find (fun kv => N.eqb (v_id (fst kv)) (v_id w)) sm) as [[k x]|] eqn:F.
  - apply find_some in F as [F1 F2]. apply N.eqb_eq in F2. cbn in F2. assert (w = k) by (apply (HA w (or_introl HW)); [apply in_map_iff; exists (k, x); auto | congruence]). subst k.
    split.
    + intros t Ht. assert (H' : In (w, ES t) sm) by (apply (Permutation_in _ (Permutation_sym HP)); exact Ht).
      assert (x = ES t). { clear - HN F1 H'. induction sm as [|[k y] sm IH]; [destruct F1|]. cbn in HN. inversion HN as [|? ? N1 N2]; subst.
        destruct F1 as [F1|F1], H' as [H'|H']; [congruence | | | exact (IH N2 F1 H')].
        - injection F1 as -> ->. destruct N1. apply in_map_iff. exists (w, ES t). auto.
        - injection H' as -> ->. destruct N1. apply in_map_iff. exists (w, x). auto. }
      subst x. reflexivity.
    + intro H'. destruct (H' x). apply (Permutation_in _ HP). exact F1.
  - split; [|intros _; reflexivity]. intros t Ht. apply (Permutation_in _ (Permutation_sym HP)) in Ht. pose proof (find_none _ _ F _ Ht) as HF. cbn in HF. rewrite N.eqb_refl in HF. discriminate.
Qed.

Lemma array_substitute_map_order e d sm sm' : ExactNum NN -> valid_array d e -> ~ is_scalar e -> valid_map sm -> array_degree 2 e ->
  (forall k t, In (k, ES t) sm -> degree_at_most 1 t) ->
  (forall w, array_var w e \/ map_var w sm -> forall k, In k (map fst sm) -> v_id w = v_id k -> w = k) ->
  (forall k t k', In (k, ES t) sm -> In k' (map fst sm) -> ~ occurs (v_id k') t) -> Permutation sm sm' ->
  exists e1 e2, expr_substitute_map e sm = Ok e1 /\ expr_substitute_map e sm' = Ok e2
    /\ forall r i j, i < fst d -> j < snd d -> value r e1 i j = value r e2 i j.
Proof.
  intros EX V NS HM HD H1 HA HF HP. destruct (array_substitute_map_value e d sm EX V NS HM HD H1 HA HF) as (e1 & E1 & _ & X1).
  assert (PI : forall k x, In (k, x) sm' -> In (k, x) sm) by (intros k x Hk; exact (Permutation_in _ (Permutation_sym HP) Hk)).
  assert (PK : forall k, In k (map fst sm') -> In k (map fst sm)) by (intros k Hk; exact (Permutation_in _ (Permutation_sym (Permutation_map fst HP)) Hk)).
  assert (HM' : valid_map sm'). { destruct HM as [HN HV]. split; [exact (Permutation_NoDup (Permutation_map fst HP) HN)|]. intros k x Hk. exact (HV k x (PI k x Hk)). }
  destruct (array_substitute_map_value e d sm' EX V NS HM' HD) as (e2 & E2 & _ & X2).
  - intros k t Hk. exact (H1 k t (PI _ _ Hk)).
  - intros w [Hw|[Hw|(k & t & m & Hk & Hm & Hw)]] k' Hk'; apply (HA w); auto; right; [left; auto | right; exists k, t, m; auto].
  - intros k t k' Hk Hk'. exact (HF k t k' (PI _ _ Hk) (PK _ Hk')).
  - exists e1, e2. split; [exact E1|]. split; [exact E2|]. intros r i j Hi Hj.
    destruct (simultaneous_exists e d sm r i j HM V Hi Hj HA) as (r' & R). rewrite (X1 r r' i j Hi Hj (R sm (Permutation_refl _))). symmetry. apply X2; [exact Hi | exact Hj | exact (R sm' HP)].
Qed.

End ArrSub.
