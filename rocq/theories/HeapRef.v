(** * A logic for the code with memory: protected cells, slices under construction, refinement of the pure model *)

From Coq Require Import ZArith NArith Bool List Lia.
From Verif Require Import Num Syntax ModelScalar ModelHeap HeapMem.
Import ListNotations.
Local Open Scope num_scope.

(** ** One memory *)
Section One.
Context {A : Type}.
Definition prot := nat -> nat -> Prop.
Implicit Types (P Q : prot) (m : mem A).

(** protected cells stay protected and keep their content *)
Definition kept P P' m m' : Prop :=
  (forall a j, P a j -> P' a j /\ cell m' a j = cell m a j) /\ (length m <= length m')%nat /\
  (forall a, (a < length m)%nat -> length (cells m' a) = length (cells m a)).
Lemma kept_refl P m : kept P P m m.
Proof. split; [|split]; auto. Qed.
Lemma kept_trans P P' P'' m m' m'' : kept P P' m m' -> kept P' P'' m' m'' -> kept P P'' m m''.
Proof.
  intros (H1 & H2 & H3) (K1 & K2 & K3). split; [|split].
  - intros a j H. destruct (H1 a j H) as [Ha Hb]. destruct (K1 a j Ha) as [Ka Kb]. split; [exact Ka | congruence].
  - lia.
  - intros a H. rewrite K3 by lia. apply H3. exact H.
Qed.
Definition bounded P m : Prop := forall a j, P a j -> (a < length m)%nat.

(** a slice under construction: its array, at or above [nb], is not protected *)
Definition built P (nb : nat) m s (l : list A) : Prop :=
  inb m s /\ view m s = l /\ (s_cap s = 0%nat \/ ((nb <= s_arr s)%nat /\ forall j, ~ P (s_arr s) j)).

Lemma built_len P nb m s l : built P nb m s l -> s_len s = length l.
Proof. intros (B & <- & _). symmetry. apply view_length. exact B. Qed.
Lemma built_nil P nb m : built P nb m nil_slice [].
Proof. split; [|split; [apply view_zero; reflexivity | left; reflexivity]]. split; cbn; lia. Qed.

Lemma inb_kept P P' m m' s : kept P P' m m' -> inb m s -> inb m' s.
Proof. intros (_ & K2 & K3) [B1 B2]. split; [exact B1|]. intro C. destruct (B2 C) as [B3 B4]. rewrite K3 by exact B3. lia. Qed.

Lemma kept_app P m l : bounded P m -> kept P P m (m ++ [l]).
Proof.
  intro B. split; [|split].
  - intros a j H. split; [exact H|]. unfold cell. rewrite cells_app. destruct (Nat.ltb_spec a (length m)); [reflexivity|].
    specialize (B a j H). lia.
  - rewrite app_length. lia.
  - intros a H. rewrite cells_app. destruct (Nat.ltb_spec a (length m)); [reflexivity | lia].
Qed.
Lemma cells_app_old m l a : (a < length m)%nat -> cells (m ++ [l]) a = cells m a.
Proof. intro H. rewrite cells_app. destruct (Nat.ltb_spec a (length m)); [reflexivity | lia]. Qed.

Lemma built_append P nb extra zero m s l xs : built P nb m s l -> bounded P m -> (nb <= length m)%nat ->
  let r := append_slice extra zero m s xs in
  built P nb (snd r) (fst r) (l ++ xs) /\ kept P P m (snd r) /\ (forall a, (a < nb)%nat -> cells (snd r) a = cells m a).
Proof.
  intros (B & V & O) Bd N r. destruct (append_cases extra zero m s xs B) as (C & B' & V'). fold r in C, B', V'. rewrite V in V'.
  clearbody r. destruct r as [s' mr]. cbn [fst snd] in *. destruct C as [m' H1 H2 H3 H4 H5|e l' H1 H2].
  - split; [|split].
    + split; [exact B' | split; [exact V'|]]. cbn [s_cap s_arr]. exact O.
    + split; [|split; [lia|intros; apply H3]]. intros a j Hp. split; [exact Hp|]. apply H4. intros [-> Hj].
      destruct O as [O|[_ O]]; [lia | exact (O j Hp)].
    + intros a Ha. destruct O as [O|[O _]].
      * destruct (Nat.eq_dec a (s_arr s)) as [->|Na]; [|apply H5; exact Na]. apply nth_error_ext. intro j. apply H4. intros [_ Hj]. lia.
      * apply H5. lia.
  - split; [|split].
    + split; [exact B' | split; [exact V'|]]. cbn [s_cap s_arr]. right. split; [exact N|]. intros j Hp. specialize (Bd _ _ Hp). lia.
    + apply kept_app. exact Bd.
    + intros a Ha. apply cells_app_old. lia.
Qed.

Lemma built_put P nb m s l i x : built P nb m s l -> (i < length l)%nat ->
  let m' := store_at m (s_arr s) (s_off s + i) [x] in
  built P nb m' s (set_nth i x l) /\ kept P P m m' /\ (forall a, (a < nb)%nat -> cells m' a = cells m a).
Proof.
  intros W H m'. pose proof (built_len _ _ _ _ _ W) as L. destruct W as (B & V & O). rewrite <- L in H. destruct O as [O|[O1 O2]].
  { destruct B as [B _]. lia. }
  split; [|split].
  - split; [|split; [|right; split; assumption]].
    + split; [apply B|]. intro C. unfold m'. rewrite store_length, store_cells_length. apply B. exact C.
    + unfold m'. rewrite put_view by assumption. rewrite V. reflexivity.
  - split; [|split].
    + intros a j Hp. split; [exact Hp|]. apply put_other. intros [-> _]. exact (O2 j Hp).
    + unfold m'. rewrite store_length. lia.
    + intros a _. apply store_cells_length.
  - intros a Ha. apply store_cells_other. lia.
Qed.

Lemma built_alloc P m l : bounded P m -> built P (length m) (m ++ [l]) (mkSlice (length m) 0 (length l) (length l)) l.
Proof.
  intro B. split; [apply alloc_inb | split; [apply alloc_view | right]]. split; [reflexivity|]. cbn [s_arr]. intros j H. specialize (B _ _ H). lia.
Qed.

(** adding the cells of a slice to the protected ones *)
Definition plus_vis P s : prot := fun a j => P a j \/ vis s a j.
Definition plus_spare P s : prot := fun a j => P a j \/ spare s a j.
Lemma vis_arr m s a j : inb m s -> vis s a j -> (a < length m)%nat.
Proof. intros [B1 B2] [-> H]. apply B2. lia. Qed.
Lemma spare_arr m s a j : inb m s -> spare s a j -> (a < length m)%nat.
Proof. intros [B1 B2] [-> H]. apply B2. lia. Qed.
End One.

(** ** All memories *)
Section Worlds.
Context {NN : Num} {RT : Runtime}.

(** the heap, the protected cells, and the cells of variable arrays that appends may overwrite *)
Record world := mkW { wh : heap; pi : prot; pv : prot; qv : prot; pm : prot }.
Definition pqv (w : world) : prot := fun a j => pv w a j \/ qv w a j.

Definition good (w : world) : Prop :=
  bounded (pi w) (hi (wh w)) /\ bounded (pqv w) (hv (wh w)) /\ bounded (pm w) (hm (wh w)) /\ (forall a j, pv w a j -> qv w a j -> False).

(** the new world keeps all protected cells; arrays of monomials below [n] do not change at all *)
Definition ext (n : nat) (w w' : world) : Prop :=
  kept (pi w) (pi w') (hi (wh w)) (hi (wh w')) /\
  kept (pv w) (pv w') (hv (wh w)) (hv (wh w')) /\
  kept (pm w) (pm w') (hm (wh w)) (hm (wh w')) /\
  (forall a j, qv w a j -> qv w' a j) /\
  hp (wh w') = hp (wh w) /\
  (forall a, (a < n)%nat -> cells (hm (wh w')) a = cells (hm (wh w)) a /\ forall j, pm w' a j -> pm w a j).

Lemma ext_refl n w : ext n w w.
Proof. repeat split; auto. Qed.
Lemma ext_trans n w w' w'' : ext n w w' -> ext n w' w'' -> ext n w w''.
Proof.
  intros (H1 & H2 & H3 & H4 & H5 & H6) (K1 & K2 & K3 & K4 & K5 & K6). split; [|split; [|split; [|split; [|split]]]].
  - eapply kept_trans; eassumption.
  - eapply kept_trans; eassumption.
  - eapply kept_trans; eassumption.
  - auto.
  - congruence.
  - intros a Ha. destruct (H6 a Ha) as [Ha1 Ha2], (K6 a Ha) as [Ka1 Ka2]. split; [congruence | auto].
Qed.
Lemma ext_le n n' w w' : ext n w w' -> (n' <= n)%nat -> ext n' w w'.
Proof.
  intros (H1 & H2 & H3 & H4 & H5 & H6) L. split; [exact H1|]. split; [exact H2|]. split; [exact H3|]. split; [exact H4|]. split; [exact H5|].
  intros a Ha. apply H6. lia.
Qed.
Lemma ext_lm n w w' : ext n w w' -> (length (hm (wh w)) <= length (hm (wh w')))%nat.
Proof. intros (_ & _ & H & _). apply H. Qed.

(** ** Values that are completely protected *)
Definition fit_i (w : world) (s : slice) : Prop := inb (hi (wh w)) s /\ forall a j, vis s a j -> pi w a j.
Definition fit_v (w : world) (s : slice) : Prop :=
  inb (hv (wh w)) s /\ (forall a j, vis s a j -> pv w a j) /\ (forall a j, spare s a j -> qv w a j).
Definition fit_m (w : world) (m : hmono) : Prop := fit_i w (h_exps m) /\ fit_v w (h_vars m).
Definition fit_p (w : world) (p : slice) : Prop :=
  inb (hm (wh w)) p /\ (forall a j, vis p a j -> pm w a j) /\ Forall (fit_m w) (view (hm (wh w)) p).
Definition fit (w : world) (s : hscalar) : Prop :=
  match s with HM m => fit_m w m | HP p => fit_p w p | _ => True end.

Lemma view_kept {A} (P P' : prot) (m m' : mem A) s : kept P P' m m' -> (forall a j, vis s a j -> P a j) -> view m' s = view m s.
Proof. intros (K & _) V. apply view_same. intros j H. apply K. apply V. exact H. Qed.

Lemma fit_i_ext n w w' s : ext n w w' -> fit_i w s -> fit_i w' s /\ view (hi (wh w')) s = view (hi (wh w)) s.
Proof.
  intros (H & _) [B V]. split; [split|].
  - eapply inb_kept; eassumption.
  - intros a j Hj. apply H. apply V. exact Hj.
  - eapply view_kept; eassumption.
Qed.
Lemma fit_v_ext n w w' s : ext n w w' -> fit_v w s -> fit_v w' s /\ view (hv (wh w')) s = view (hv (wh w)) s.
Proof.
  intros (_ & H & _ & Q & _) (B & V & Sp). split; [split; [|split]|].
  - eapply inb_kept; eassumption.
  - intros a j Hj. apply H. apply V. exact Hj.
  - intros a j Hj. apply Q. apply Sp. exact Hj.
  - eapply view_kept; eassumption.
Qed.
Lemma fit_m_ext n w w' m : ext n w w' -> fit_m w m -> fit_m w' m /\ rd_mono (wh w') m = rd_mono (wh w) m.
Proof.
  intros E [F1 F2]. destruct (fit_i_ext n w w' _ E F1) as [G1 V1], (fit_v_ext n w w' _ E F2) as [G2 V2].
  split; [split; assumption|]. unfold rd_mono. rewrite V1, V2. reflexivity.
Qed.
Lemma fit_ms_ext n w w' ms : ext n w w' -> Forall (fit_m w) ms -> Forall (fit_m w') ms /\ map (rd_mono (wh w')) ms = map (rd_mono (wh w)) ms.
Proof.
  intros E F. induction F as [|m ms F Fs [IH1 IH2]]; [split; [constructor | reflexivity]|].
  destruct (fit_m_ext n w w' m E F) as [G V]. cbn [map]. rewrite V, IH2. split; [constructor; assumption | reflexivity].
Qed.
Lemma fit_p_ext n w w' p : ext n w w' -> fit_p w p -> fit_p w' p /\ rd_poly (wh w') p = rd_poly (wh w) p /\ view (hm (wh w')) p = view (hm (wh w)) p.
Proof.
  intros E (B & V & F). pose proof E as (_ & _ & H & _). assert (Vw : view (hm (wh w')) p = view (hm (wh w)) p) by (eapply view_kept; eassumption).
  destruct (fit_ms_ext n w w' _ E F) as [G R]. split; [split; [|split]|split].
  - eapply inb_kept; eassumption.
  - intros a j Hj. apply H. apply V. exact Hj.
  - rewrite Vw. exact G.
  - unfold rd_poly. rewrite Vw. exact R.
  - exact Vw.
Qed.
Lemma fit_ext n w w' s : ext n w w' -> fit w s -> fit w' s /\ rd (wh w') s = rd (wh w) s.
Proof.
  intros E F. destruct s as [k|v|m|p]; cbn [fit rd] in *; try (split; [exact I | reflexivity]).
  - destruct (fit_m_ext n w w' m E F) as [G ->]. split; [exact G | reflexivity].
  - destruct (fit_p_ext n w w' p E F) as (G & -> & _). split; [exact G | reflexivity].
Qed.

(** ** Refinement of a pure computation *)
Definition refines {A B} (n : nat) (R : world -> A -> B -> Prop) (w : world) (x : M A) (y : res B) : Prop :=
  good w ->
  exists w', ext n w w' /\ good w' /\ wh w' = snd (x (wh w)) /\
    match fst (x (wh w)), y with
    | Ok a, Ok b => R w' a b
    | Panic p, Panic q => p = q
    | _, _ => False
    end.

(** the strict form: no array of monomials that exists is changed *)
Definition lm (w : world) : nat := length (hm (wh w)).

Lemma refines_le {A B} n n' (R : world -> A -> B -> Prop) w x y : refines n R w x y -> (n' <= n)%nat -> refines n' R w x y.
Proof. intros H L G. destruct (H G) as (w' & E & G' & Hh & Hr). exists w'. split; [eapply ext_le; eassumption|]. auto. Qed.

Lemma refines_ret {A B} n (R : world -> A -> B -> Prop) w a b : R w a b -> refines n R w (ret a) (Ok b).
Proof. intros H G. exists w. split; [apply ext_refl|]. split; [exact G|]. split; [reflexivity | exact H]. Qed.
Lemma refines_fail {A B} n (R : world -> A -> B -> Prop) w p : refines n R w (fail p) (Panic p).
Proof. intros G. exists w. split; [apply ext_refl|]. split; [exact G|]. split; reflexivity. Qed.

Lemma refines_bind {A B C D} n (R : world -> A -> B -> Prop) (S : world -> C -> D -> Prop) w x y f g :
  refines n R w x y -> (forall w' a b, ext n w w' -> R w' a b -> refines n S w' (f a) (g b)) -> refines n S w (bindM x f) (bind y g).
Proof.
  intros H K G. destruct (H G) as (w1 & E1 & G1 & Hh & Hr). unfold bindM. destruct (x (wh w)) as [r h1]. cbn [fst snd] in *.
  destruct r as [a|p], y as [b|q]; try contradiction; cbn [bind].
  - destruct (K w1 a b E1 Hr G1) as (w2 & E2 & G2 & Hh2 & Hr2). rewrite Hh in *. exists w2. split; [eapply ext_trans; eassumption|]. auto.
  - exists w1. split; [exact E1|]. split; [exact G1|]. split; [exact Hh | exact Hr].
Qed.
Lemma refines_step {A B C D} n (R : world -> A -> B -> Prop) (S : world -> C -> D -> Prop) w x b f (y : res D) :
  refines n R w x (Ok b) -> (forall w' a, ext n w w' -> R w' a b -> refines n S w' (f a) y) -> refines n S w (bindM x f) y.
Proof.
  intros H K. change y with (bind (Ok b) (fun _ : B => y)). apply (refines_bind n (fun w' a b' => R w' a b' /\ b' = b) S w x (Ok b)).
  - intro G. destruct (H G) as (w' & E & G' & Hh & Hr). exists w'. split; [exact E|]. split; [exact G'|]. split; [exact Hh|].
    destruct (fst (x (wh w))); [|exact Hr]. split; [exact Hr | reflexivity].
  - intros w' a b' E [Hr ->]. apply K; assumption.
Qed.

(** reading *)
Lemma refines_reads {A C D} n (S : world -> C -> D -> Prop) w (r : heap -> res A) (y : res A) (f : A -> M C) (g : A -> res D) :
  r (wh w) = y -> (forall a, r (wh w) = Ok a -> refines n S w (f a) (g a)) -> refines n S w (bindM (reads r) f) (bind y g).
Proof.
  intros <- H G. unfold bindM, reads. cbn [fst snd]. destruct (r (wh w)) as [a|p] eqn:E; cbn [bind].
  - apply H; [reflexivity | exact G].
  - exists w. split; [apply ext_refl|]. split; [exact G|]. split; reflexivity.
Qed.
Lemma refines_reads_only {A} n w (r : heap -> res A) (y : res A) : r (wh w) = y -> refines n (fun _ a b => a = b) w (reads r) y.
Proof.
  intros <- G. exists w. split; [apply ext_refl|]. split; [exact G|]. split; [reflexivity|]. unfold reads. cbn [fst].
  destruct (r (wh w)); reflexivity.
Qed.
Lemma refines_know {A C D} n (S : world -> C -> D -> Prop) w (r : heap -> res A) a (f : A -> M C) (y : res D) :
  r (wh w) = Ok a -> refines n S w (f a) y -> refines n S w (bindM (reads r) f) y.
Proof. intros E H G. unfold bindM, reads. rewrite E. apply H. exact G. Qed.

(** relations between what the code returns and the value of the pure model *)
Definition Rm (w : world) (m : hmono) (b : Monomial) : Prop := fit_m w m /\ rd_mono (wh w) m = b.
Definition Rp (w : world) (p : slice) (b : Polynomial) : Prop := fit_p w p /\ rd_poly (wh w) p = b.
Definition Rs (w : world) (s : hscalar) (b : scalar) : Prop := fit w s /\ rd (wh w) s = b.

Lemma Rm_ext n w w' m b : ext n w w' -> Rm w m b -> Rm w' m b.
Proof. intros E [F <-]. apply (fit_m_ext n w w' m E F). Qed.
Lemma Rp_ext n w w' p b : ext n w w' -> Rp w p b -> Rp w' p b.
Proof. intros E [F <-]. destruct (fit_p_ext n w w' p E F) as (G & R & _). split; assumption. Qed.
Lemma Rs_ext n w w' s b : ext n w w' -> Rs w s b -> Rs w' s b.
Proof. intros E [F <-]. apply (fit_ext n w w' s E F). Qed.

(** the checks *)
Lemma refines_check_var {C D} n (S : world -> C -> D -> Prop) w v (f : unit -> M C) (g : unit -> res D) :
  refines n S w (f tt) (g tt) -> refines n S w (bindM (check_var v) f) (bind (check (var_check v) PCheck) g).
Proof. intro H. apply refines_reads; [reflexivity|]. intros [] _. exact H. Qed.
Lemma refines_check_mono {C D} n (S : world -> C -> D -> Prop) w m b (f : unit -> M C) (g : unit -> res D) :
  Rm w m b -> refines n S w (f tt) (g tt) -> refines n S w (bindM (check_mono m) f) (bind (check (mono_check b) PCheck) g).
Proof. intros [_ <-] H. apply refines_reads; [reflexivity|]. intros [] _. exact H. Qed.
Lemma refines_check_poly {C D} n (S : world -> C -> D -> Prop) w p b (f : unit -> M C) (g : unit -> res D) :
  Rp w p b -> refines n S w (f tt) (g tt) -> refines n S w (bindM (check_poly p) f) (bind (check (poly_check b) PCheck) g).
Proof. intros [_ <-] H. apply refines_reads; [reflexivity|]. intros [] _. exact H. Qed.
Lemma refines_check_scalar {C D} n (S : world -> C -> D -> Prop) w p b (f : unit -> M C) (g : unit -> res D) :
  Rs w p b -> refines n S w (f tt) (g tt) -> refines n S w (bindM (check_scalar p) f) (bind (check (scalar_check b) PCheck) g).
Proof. intros [_ <-] H. apply refines_reads; [reflexivity|]. intros [] _. exact H. Qed.

(** ** Steps on one memory with unchanged protection *)
Definition on_i (w : world) (m : mem Z) : world := mkW (with_ints (wh w) m) (pi w) (pv w) (qv w) (pm w).
Definition on_v (w : world) (m : mem var) : world := mkW (with_vars (wh w) m) (pi w) (pv w) (qv w) (pm w).
Definition on_m (w : world) (m : mem hmono) : world := mkW (with_monos (wh w) m) (pi w) (pv w) (qv w) (pm w).

Lemma bounded_kept {A} (P P' : prot) (m m' : mem A) : kept P P' m m' -> bounded P m -> bounded P m'.
Proof. intros (_ & H & _) B a j Hp. specialize (B a j Hp). lia. Qed.

Lemma on_i_ext n w m : kept (pi w) (pi w) (hi (wh w)) m -> ext n w (on_i w m).
Proof.
  intro K. split; [exact K|]. split; [apply kept_refl|]. split; [apply kept_refl|]. split; [auto|]. split; [reflexivity|]. intros a _. split; [reflexivity | auto].
Qed.
Lemma on_i_good w m : kept (pi w) (pi w) (hi (wh w)) m -> good w -> good (on_i w m).
Proof. intros K (G1 & G2 & G3 & G4). split; [exact (bounded_kept _ _ _ _ K G1)|]. split; [exact G2|]. split; [exact G3 | exact G4]. Qed.
Lemma kept_pqv w m : kept (pqv w) (pqv w) (hv (wh w)) m -> kept (pv w) (pv w) (hv (wh w)) m.
Proof. intros (K1 & K2 & K3). split; [|split; assumption]. intros a j H. split; [exact H|]. apply K1. left. exact H. Qed.
Lemma on_v_ext n w m : kept (pv w) (pv w) (hv (wh w)) m -> ext n w (on_v w m).
Proof.
  intro K. split; [apply kept_refl|]. split; [exact K|]. split; [apply kept_refl|]. split; [auto|]. split; [reflexivity|]. intros a _. split; [reflexivity | auto].
Qed.
Lemma on_v_good w m : kept (pv w) (pv w) (hv (wh w)) m -> good w -> good (on_v w m).
Proof.
  intros K (G1 & G2 & G3 & G4). split; [exact G1|]. split; [|split; [exact G3 | exact G4]].
  destruct K as (_ & K & _). intros a j H. specialize (G2 a j H). cbn. lia.
Qed.
Lemma on_m_ext n w m : kept (pm w) (pm w) (hm (wh w)) m -> (forall a, (a < n)%nat -> cells m a = cells (hm (wh w)) a) -> ext n w (on_m w m).
Proof.
  intros K Q. split; [apply kept_refl|]. split; [apply kept_refl|]. split; [exact K|]. split; [auto|]. split; [reflexivity|].
  intros a Ha. split; [apply Q; exact Ha | auto].
Qed.
Lemma on_m_good w m : kept (pm w) (pm w) (hm (wh w)) m -> good w -> good (on_m w m).
Proof. intros K (G1 & G2 & G3 & G4). split; [exact G1|]. split; [exact G2|]. split; [exact (bounded_kept _ _ _ _ K G3) | exact G4]. Qed.

(** running a step *)
Lemma refines_run {A C D} n (S : world -> C -> D -> Prop) w w' (x : M A) a (f : A -> M C) (y : res D) :
  x (wh w) = (Ok a, wh w') -> ext n w w' -> (good w -> good w') -> refines n S w' (f a) y -> refines n S w (bindM x f) y.
Proof.
  intros X E Gw H G. destruct (H (Gw G)) as (w2 & E2 & G2 & Hh & Hr). unfold bindM. rewrite X. exists w2.
  split; [eapply ext_trans; eassumption|]. auto.
Qed.
Lemma refines_with_good {A B} n (R : world -> A -> B -> Prop) w x y : (good w -> refines n R w x y) -> refines n R w x y.
Proof. intros H G. exact (H G G). Qed.

(** *** integers *)
Definition Bi (w : world) (s : slice) (l : list Z) : Prop := built (pi w) 0 (hi (wh w)) s l.
Lemma build_make_i {C D} n (S : world -> C -> D -> Prop) w l (f : slice -> M C) (y : res D) :
  (forall s m, Bi (on_i w m) s l -> ext n w (on_i w m) -> refines n S (on_i w m) (f s) y) -> refines n S w (bindM (make_ints l) f) y.
Proof.
  intro H. apply refines_with_good. intro G. pose proof G as (G1 & _). pose proof (kept_app _ _ l G1) as K.
  apply (refines_run n S w (on_i w (hi (wh w) ++ [l])) _ (mkSlice (length (hi (wh w))) 0 (length l) (length l)));
    [reflexivity | apply on_i_ext; exact K | apply on_i_good; exact K |].
  apply H; [|apply on_i_ext; exact K]. destruct (built_alloc (pi w) _ l G1) as (B & V & O). split; [exact B | split; [exact V|]].
  destruct O as [O|[_ O]]; [left; exact O | right; split; [lia | exact O]].
Qed.
Lemma build_append_i {C D} n (S : world -> C -> D -> Prop) w s l xs (f : slice -> M C) (y : res D) : Bi w s l ->
  (forall s' m, Bi (on_i w m) s' (l ++ xs) -> ext n w (on_i w m) -> refines n S (on_i w m) (f s') y) -> refines n S w (bindM (append_ints s xs) f) y.
Proof.
  intros B H. apply refines_with_good. intros (G1 & _).
  destruct (built_append (pi w) 0 grow_int 0%Z _ s l xs B G1 (Nat.le_0_l _)) as (B' & K & _).
  apply (refines_run n S w (on_i w (snd (append_slice grow_int 0%Z (hi (wh w)) s xs))) _ (fst (append_slice grow_int 0%Z (hi (wh w)) s xs)));
    [|apply on_i_ext; exact K|apply on_i_good; exact K|].
  - unfold append_ints. destruct (append_slice grow_int 0%Z (hi (wh w)) s xs). reflexivity.
  - apply H; [exact B' | apply on_i_ext; exact K].
Qed.
Lemma build_put_i {C D} n (S : world -> C -> D -> Prop) w s l i x (f : unit -> M C) (y : res D) : Bi w s l -> (i < length l)%nat ->
  (forall m, Bi (on_i w m) s (set_nth i x l) -> ext n w (on_i w m) -> refines n S (on_i w m) (f tt) y) -> refines n S w (bindM (put_int s i x) f) y.
Proof.
  intros B L H. destruct (built_put (pi w) 0 _ s l i x B L) as (B' & K & _).
  apply (refines_run n S w (on_i w (store_at (hi (wh w)) (s_arr s) (s_off s + i) [x])) _ tt);
    [|apply on_i_ext; exact K|apply on_i_good; exact K|].
  - unfold put_int. rewrite (built_len _ _ _ _ _ B). destruct (Nat.ltb_spec i (length l)); [reflexivity | lia].
  - apply H; [exact B' | apply on_i_ext; exact K].
Qed.

(** *** variables *)
Definition Bv (nb : nat) (w : world) (s : slice) (l : list var) : Prop := built (pqv w) nb (hv (wh w)) s l.
Lemma build_make_v {C D} n (S : world -> C -> D -> Prop) w l (f : slice -> M C) (y : res D) :
  (forall s m, Bv (length (hv (wh w))) (on_v w m) s l -> ext n w (on_v w m) -> refines n S (on_v w m) (f s) y) -> refines n S w (bindM (make_vars l) f) y.
Proof.
  intro H. apply refines_with_good. intro G. pose proof G as (_ & G1 & _). pose proof (kept_app _ _ l G1) as K. apply kept_pqv in K.
  apply (refines_run n S w (on_v w (hv (wh w) ++ [l])) _ (mkSlice (length (hv (wh w))) 0 (length l) (length l)));
    [reflexivity | apply on_v_ext; exact K | apply on_v_good; exact K |].
  apply H; [|apply on_v_ext; exact K]. exact (built_alloc (pqv w) _ l G1).
Qed.
Lemma build_append_v {C D} n (S : world -> C -> D -> Prop) nb w s l xs (f : slice -> M C) (y : res D) : Bv nb w s l -> (nb <= length (hv (wh w)))%nat ->
  (forall s' m, Bv nb (on_v w m) s' (l ++ xs) -> ext n w (on_v w m) -> (forall a, (a < nb)%nat -> cells m a = cells (hv (wh w)) a) ->
     (length (hv (wh w)) <= length m)%nat -> refines n S (on_v w m) (f s') y) ->
  refines n S w (bindM (append_vars s xs) f) y.
Proof.
  intros B L H. apply refines_with_good. intros (_ & G1 & _).
  destruct (built_append (pqv w) nb grow_var zero_var _ s l xs B G1 L) as (B' & K & Q). pose proof K as (_ & KL & _). apply kept_pqv in K.
  apply (refines_run n S w (on_v w (snd (append_slice grow_var zero_var (hv (wh w)) s xs))) _ (fst (append_slice grow_var zero_var (hv (wh w)) s xs)));
    [|apply on_v_ext; exact K|apply on_v_good; exact K|].
  - unfold append_vars. destruct (append_slice grow_var zero_var (hv (wh w)) s xs). reflexivity.
  - apply H; [exact B' | apply on_v_ext; exact K | exact Q | exact KL].
Qed.
(** appending to a slice that is in use: only cells that may be overwritten are *)
Lemma append_fit_v {C D} n (S : world -> C -> D -> Prop) w s xs (f : slice -> M C) (y : res D) : fit_v w s ->
  (forall s' m, inb m s' -> view m s' = view (hv (wh w)) s ++ xs -> ext n w (on_v w m) -> refines n S (on_v w m) (f s') y) ->
  refines n S w (bindM (append_vars s xs) f) y.
Proof.
  intros (B & V & Q) H. apply refines_with_good. intros (_ & G1 & _ & G4).
  destruct (append_cases grow_var zero_var (hv (wh w)) s xs B) as (C1 & B' & V').
  assert (K : kept (pv w) (pv w) (hv (wh w)) (snd (append_slice grow_var zero_var (hv (wh w)) s xs))).
  { destruct (append_slice grow_var zero_var (hv (wh w)) s xs) as [s' mr]. cbn [fst snd] in *. destruct C1 as [m' H1 H2 H3 H4 H5|e l' H1 H2].
    - split; [|split; [lia | intros; apply H3]]. intros a j Hp. split; [exact Hp|]. apply H4. intro Sp. exact (G4 a j Hp (Q a j Sp)).
    - apply kept_app. intros a j Hp. apply (G1 a j). left. exact Hp. }
  apply (refines_run n S w (on_v w (snd (append_slice grow_var zero_var (hv (wh w)) s xs))) _ (fst (append_slice grow_var zero_var (hv (wh w)) s xs)));
    [|apply on_v_ext; exact K|apply on_v_good; exact K|].
  - unfold append_vars. destruct (append_slice grow_var zero_var (hv (wh w)) s xs). reflexivity.
  - apply H; [exact B' | exact V' | apply on_v_ext; exact K].
Qed.

(** *** monomials *)
Definition Bm (nb : nat) (w : world) (s : slice) (l : list Monomial) : Prop :=
  exists ms, built (pm w) nb (hm (wh w)) s ms /\ Forall (fit_m w) ms /\ map (rd_mono (wh w)) ms = l.
Lemma Bm_len nb w s l : Bm nb w s l -> s_len s = length l.
Proof. intros (ms & B & _ & <-). rewrite map_length. eapply built_len; exact B. Qed.
Lemma Bm_nil nb w : Bm nb w nil_slice [].
Proof. exists []. split; [apply built_nil | split; [constructor | reflexivity]]. Qed.
(** nested strict calls do not disturb it *)
Lemma Bm_ext n nb w w' s l : ext n w w' -> (n = lm w)%nat -> Bm nb w s l -> Bm nb w' s l.
Proof.
  intros E -> (ms & B & F & R). pose proof E as (_ & _ & K & _ & _ & Q). destruct (fit_ms_ext _ w w' ms E F) as [F' R'].
  exists ms. split; [|split; [exact F' | congruence]]. destruct B as (B & V & O). split; [eapply inb_kept; eassumption|].
  destruct (Nat.eq_dec (s_cap s) 0) as [Z|Z].
  - split; [|left; exact Z]. destruct B as [B _]. rewrite view_zero in * by lia. exact V.
  - assert (L : (s_arr s < lm w)%nat) by (apply B; lia). destruct (Q _ L) as [Q1 Q2]. split.
    + rewrite <- V. apply view_same. intros j _. unfold cell. rewrite Q1. reflexivity.
    + destruct O as [O|[O1 O2]]; [left; exact O | right; split; [exact O1|]]. intros j Hp. apply (O2 j). apply Q2. exact Hp.
Qed.
Lemma Bm_le nb nb' w s l : Bm nb w s l -> (nb' <= nb)%nat -> Bm nb' w s l.
Proof.
  intros (ms & (B & V & O) & F & R) L. exists ms. split; [|split; assumption]. split; [exact B | split; [exact V|]].
  destruct O as [O|[O1 O2]]; [left; exact O | right; split; [lia | exact O2]].
Qed.

Lemma build_make_m {C D} n (S : world -> C -> D -> Prop) w ms (f : slice -> M C) (y : res D) : Forall (fit_m w) ms -> (n <= lm w)%nat ->
  (forall s m, Bm (lm w) (on_m w m) s (map (rd_mono (wh w)) ms) -> ext n w (on_m w m) -> (lm w <= length m)%nat -> refines n S (on_m w m) (f s) y) ->
  refines n S w (bindM (make_monos ms) f) y.
Proof.
  intros F L H. apply refines_with_good. intro G. pose proof G as (_ & _ & G1 & _). pose proof (kept_app _ _ ms G1) as K.
  assert (E : ext n w (on_m w (hm (wh w) ++ [ms]))).
  { apply on_m_ext; [exact K|]. intros a Ha. apply cells_app_old. unfold lm in L. lia. }
  apply (refines_run n S w (on_m w (hm (wh w) ++ [ms])) _ (mkSlice (length (hm (wh w))) 0 (length ms) (length ms)));
    [reflexivity | exact E | apply on_m_good; exact K |].
  apply H; [|exact E|unfold lm; rewrite app_length; lia]. exists ms. destruct (fit_ms_ext n w _ ms E F) as [F' R']. split; [exact (built_alloc (pm w) _ ms G1)|]. split; [exact F' | exact R'].
Qed.
Lemma build_append_m {C D} n (S : world -> C -> D -> Prop) nb w s l xs (f : slice -> M C) (y : res D) : Bm nb w s l -> Forall (fit_m w) xs ->
  (n <= nb)%nat -> (nb <= lm w)%nat ->
  (forall s' m, Bm nb (on_m w m) s' (l ++ map (rd_mono (wh w)) xs) -> ext n w (on_m w m) -> (lm w <= length m)%nat -> refines n S (on_m w m) (f s') y) ->
  refines n S w (bindM (append_monos s xs) f) y.
Proof.
  intros (ms & B & F & R) Fx L1 L2 H. apply refines_with_good. intros (_ & _ & G1 & _).
  destruct (built_append (pm w) nb grow_mono zero_mono _ s ms xs B G1 L2) as (B' & K & Q).
  assert (E : ext n w (on_m w (snd (append_slice grow_mono zero_mono (hm (wh w)) s xs)))).
  { apply on_m_ext; [exact K|]. intros a Ha. apply Q. lia. }
  apply (refines_run n S w (on_m w (snd (append_slice grow_mono zero_mono (hm (wh w)) s xs))) _ (fst (append_slice grow_mono zero_mono (hm (wh w)) s xs)));
    [|exact E|apply on_m_good; exact K|].
  - unfold append_monos. destruct (append_slice grow_mono zero_mono (hm (wh w)) s xs). reflexivity.
  - apply H; [|exact E|apply K]. exists (ms ++ xs). split; [exact B'|].
    destruct (fit_ms_ext n w _ (ms ++ xs) E) as [F' R']; [apply Forall_app; split; assumption|]. split; [exact F'|].
    rewrite R', map_app, R. reflexivity.
Qed.
Lemma map_set_nth {X Y} (f : X -> Y) i x l : map f (set_nth i x l) = set_nth i (f x) (map f l).
Proof. revert i. induction l as [|a l IH]; intros [|i]; cbn; try reflexivity. rewrite IH. reflexivity. Qed.
Lemma Forall_set_nth {X} (P : X -> Prop) i x l : Forall P l -> P x -> Forall P (set_nth i x l).
Proof. intros H Px. revert i. induction H as [|a l Ha Hl IH]; intros [|i]; cbn; constructor; auto. Qed.
Lemma build_put_m {C D} n (S : world -> C -> D -> Prop) nb w s l i x (f : unit -> M C) (y : res D) : Bm nb w s l -> fit_m w x ->
  (n <= nb)%nat -> (i < length l)%nat ->
  (forall m, Bm nb (on_m w m) s (set_nth i (rd_mono (wh w) x) l) -> ext n w (on_m w m) -> (lm w <= length m)%nat -> refines n S (on_m w m) (f tt) y) ->
  refines n S w (bindM (put_mono s i x) f) y.
Proof.
  intros (ms & B & F & R) Fx L1 L2 H. assert (L3 : (i < length ms)%nat) by (rewrite <- R, map_length in L2; exact L2).
  destruct (built_put (pm w) nb _ s ms i x B L3) as (B' & K & Q).
  assert (E : ext n w (on_m w (store_at (hm (wh w)) (s_arr s) (s_off s + i) [x]))).
  { apply on_m_ext; [exact K|]. intros a Ha. apply Q. lia. }
  apply (refines_run n S w (on_m w (store_at (hm (wh w)) (s_arr s) (s_off s + i) [x])) _ tt); [|exact E|apply on_m_good; exact K|].
  - unfold put_mono. rewrite (built_len _ _ _ _ _ B). destruct (Nat.ltb_spec i (length ms)); [reflexivity | lia].
  - apply H; [|exact E|apply K]. exists (set_nth i x ms). split; [exact B'|].
    destruct (fit_ms_ext n w _ (set_nth i x ms) E) as [F' R']; [apply Forall_set_nth; assumption|]. split; [exact F'|].
    rewrite R', map_set_nth, R. reflexivity.
Qed.

(** ** Publication: a finished slice becomes protected *)
Lemma publish_m {C D} n (S : world -> C -> D -> Prop) w s l (x : M C) (y : res D) : Bm n w s l ->
  (forall w', ext n w w' -> wh w' = wh w -> Rp w' s l -> refines n S w' x y) -> refines n S w x y.
Proof.
  intros (ms & (B & V & O) & F & R) H G. set (w' := mkW (wh w) (pi w) (pv w) (qv w) (plus_vis (pm w) s)).
  assert (E : ext n w w').
  { split; [apply kept_refl|]. split; [apply kept_refl|]. split; [|split; [auto|split; [reflexivity|]]].
    - split; [|split; [apply Nat.le_refl|auto]]. intros a j Hp. split; [left; exact Hp | reflexivity].
    - intros a Ha. split; [reflexivity|]. intros j [Hp|[Hj1 Hj2]]; [exact Hp|]. destruct O as [O|[O1 _]]; [destruct B; lia | lia]. }
  destruct (fit_ms_ext n w w' ms E F) as [F' R'].
  destruct (H w' E eq_refl) as (w2 & E2 & G2 & Hh & Hr).
  - split; [|unfold rd_poly; cbn [wh w']; rewrite V; exact R]. split; [exact B|]. split; [intros a j Hj; right; exact Hj|]. cbn [wh w']. rewrite V. exact F'.
  - destruct G as (G1 & G2 & G3 & G4). split; [exact G1|]. split; [exact G2|]. split; [|exact G4].
    intros a j [Hp|Hj]; [exact (G3 a j Hp) | eapply vis_arr; eassumption].
  - exists w2. split; [eapply ext_trans; eassumption|]. auto.
Qed.
Lemma publish_mono n w c es vs nb l1 l2 : Bi w es l1 -> Bv nb w vs l2 -> refines n Rm w (ret (mkHM c es vs)) (Ok (mkMono c l1 l2)).
Proof.
  intros (B1 & V1 & O1) (B2 & V2 & O2) G. destruct G as (G1 & G2 & G3 & G4).
  assert (O2' : forall a j, (vis vs a j \/ spare vs a j) -> ~ pqv w a j).
  { intros a j H. destruct O2 as [O|[_ O]]; [destruct B2; destruct H as [[_ H]|[_ H]]; lia|]. destruct H as [[-> _]|[-> _]]; apply O. }
  set (w' := mkW (wh w) (plus_vis (pi w) es) (plus_vis (pv w) vs) (plus_spare (qv w) vs) (pm w)). exists w'. split; [|split; [|split]].
  - split; [|split; [|split; [apply kept_refl|split; [|split; [reflexivity|]]]]].
    + split; [|split; [apply Nat.le_refl|auto]]. intros a j Hp. split; [left; exact Hp | reflexivity].
    + split; [|split; [apply Nat.le_refl|auto]]. intros a j Hp. split; [left; exact Hp | reflexivity].
    + intros a j H. left. exact H.
    + intros a _. split; [reflexivity | auto].
  - split; [|split; [|split; [exact G3|]]].
    + intros a j [Hp|Hj]; [exact (G1 a j Hp) | exact (vis_arr _ _ _ _ B1 Hj)].
    + intros a j [[Hp|Hj]|[Hp|Hj]]; [apply (G2 a j); left; exact Hp | exact (vis_arr _ _ _ _ B2 Hj) | apply (G2 a j); right; exact Hp | exact (spare_arr _ _ _ _ B2 Hj)].
    + intros a j [Hp|Hj] [Hq|Hk].
      * exact (G4 a j Hp Hq).
      * apply (O2' a j); [right; exact Hk | left; exact Hp].
      * apply (O2' a j); [left; exact Hj | right; exact Hq].
      * destruct Hj as [_ Hj], Hk as [_ Hk]. lia.
  - reflexivity.
  - cbn [fst ret]. split; [split|].
    + split; [exact B1|]. intros a j Hj. right. exact Hj.
    + split; [exact B2|]. split; intros a j Hj; right; exact Hj.
    + unfold rd_mono. cbn [wh w' h_coeff h_exps h_vars]. rewrite V1, V2. reflexivity.
Qed.

End Worlds.
