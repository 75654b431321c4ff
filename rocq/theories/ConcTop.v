(** * All schedules *)

From Coq Require Import ZArith NArith Bool List Lia.
From Verif Require Import Num Syntax ModelScalar ModelHeap SpecHeap ModelConc SpecConc Base ArrPow HeapMem HeapProofs ConcRun ConcSim.
Import ListNotations.
Local Open Scope num_scope.

Section Top.
Context {NN : Num} {RT : Runtime}.

(** the number of steps when run alone *)
Fixpoint steps {A} (p : proc A) (h : heap) : nat := match p with Done _ => 0%nat | Act f k => S (steps (k h) (f h)) end.

Context (h0 : heap) (F : Prop) (roots : list hscalar) (programs : list (list instr)).
Context (Ha : Forall (Forall (allowed F)) programs) (Hr : Forall2 (sr h0 F (mkRen [] [] [])) roots roots).

Notation Rt := (fun r => Forall2 (sr h0 F r)).

(** goroutine [t] after [n] of its turns: it goes on as it would alone *)
Definition thread (r : ren) (g : heap) (q : proc (list hscalar)) (l : list instr) (n : nat) : Prop :=
  exists h p, HR h0 F r h g /\ psim h0 F Rt r p q /\ run p h = run (goroutine roots l) h0 /\ steps p h = (steps (goroutine roots l) h0 - n)%nat.

Definition inside (r : ren) (g : heap) : Prop :=
  Forall (fun a => length (hi h0) <= a < length (hi g))%nat (ri r) /\ Forall (fun a => length (hv h0) <= a < length (hv g))%nat (rv r) /\
  Forall (fun a => length (hm h0) <= a < length (hm g))%nat (rm r).
Definition disjoint (r r' : ren) : Prop :=
  (forall a, In a (ri r) -> In a (ri r') -> False) /\ (forall a, In a (rv r) -> In a (rv r') -> False) /\ (forall a, In a (rm r) -> In a (rm r') -> False).

Definition inv (c : cconfig) (n : nat -> nat) : Prop :=
  length (snd c) = length programs /\
  exists rs : nat -> ren,
    (forall t q l, nth_error (snd c) t = Some q -> nth_error programs t = Some l -> thread (rs t) (fst c) q l (n t)) /\
    (forall t, inside (rs t) (fst c)) /\ (forall t u, t <> u -> disjoint (rs t) (rs u)).

Lemma HR_start : HR h0 F (mkRen [] [] []) h0 h0.
Proof.
  assert (K : forall A (m : mem A) E, memrel m E [] m m).
  { intros A m E. split; [cbn; lia|]. split; [lia|]. split; [constructor|]. split; [constructor|]. split; [intros; split; reflexivity|]. intros [|k] a' H; discriminate. }
  split; [|split]; apply K.
Qed.

Lemma inv_start : inv (launch h0 roots programs) (fun _ => 0%nat).
Proof.
  split; [cbn; apply map_length|]. exists (fun _ => mkRen [] [] []). split; [|split].
  - intros t q l Hq Hl. cbn [launch snd fst] in *. rewrite nth_error_map, Hl in Hq. cbn in Hq. injection Hq as <-.
    exists h0, (goroutine roots l). split; [apply HR_start|]. split; [|split; [reflexivity | lia]]. apply goroutine_sim; [|exact Hr].
    eapply Forall_forall in Ha; [exact Ha|]. eapply nth_error_In. exact Hl.
  - intro t. repeat split; constructor.
  - intros t u _. repeat split; intros a [].
Qed.

Lemma HR_inside r h g : HR h0 F r h g -> inside r g.
Proof. intros (A & B & C). split; [apply A | split; [apply B | apply C]]. Qed.
Lemma HR_other r r1 r1' h g g' : HR h0 F r h g -> inside r1 g -> frame r1 r1' g g' -> disjoint r r1 -> HR h0 F r h g'.
Proof.
  intros (A & B & C) (I1 & I2 & I3) (F1 & F2 & F3) (D1 & D2 & D3).
  assert (L : forall a b l, Forall (fun x => a <= x < b)%nat l -> Forall (fun x => a <= x)%nat l) by (intros a b l G; eapply Forall_impl; [|exact G]; cbn; intros; lia).
  split; [|split]; eapply memrel_other; try eassumption; eapply L; eassumption.
Qed.
Lemma inside_grow r r1 r1' g g' : inside r g -> frame r1 r1' g g' -> inside r g'.
Proof.
  intros (I1 & I2 & I3) ((F1 & _) & (F2 & _) & (F3 & _)). split; [|split]; (eapply Forall_impl; [|eassumption]); cbn; intros; lia.
Qed.
Lemma disjoint_sym r r' : disjoint r r' -> disjoint r' r.
Proof. intros (A & B & C). split; [|split]; intros a X Y; eauto. Qed.
Lemma disjoint_step r r1 r1' g g' : inside r g -> frame r1 r1' g g' -> disjoint r r1 -> disjoint r r1'.
Proof.
  intros (I1 & I2 & I3) ((_ & (v1 & E1 & V1) & _) & (_ & (v2 & E2 & V2) & _) & (_ & (v3 & E3 & V3) & _)) (D1 & D2 & D3).
  assert (K : forall (b c : nat) l l1 l1' v, Forall (fun a => b <= a < c)%nat l -> l1' = l1 ++ v -> Forall (fun a => c <= a)%nat v -> (forall a, In a l -> In a l1 -> False) -> forall a, In a l -> In a l1' -> False).
  { intros b c l l1 l1' v G -> V D a X Y. apply in_app_or in Y. destruct Y as [Y|Y]; [exact (D a X Y)|]. rewrite Forall_forall in G, V. specialize (G a X). specialize (V a Y). cbn in *. lia. }
  split; [|split]; eapply K; eassumption.
Qed.

Definition bump (n : nat -> nat) (t : nat) : nat -> nat := fun u => if Nat.eqb u t then S (n u) else n u.

Lemma inv_step c n t : inv c n -> inv (cstep c t) (bump n t).
Proof.
  intros (Len & rs & T & I & D). unfold cstep.
  assert (Idle : (forall q l, nth_error (snd c) t = Some q -> nth_error programs t = Some l -> exists r, q = Done r) -> inv c (bump n t)).
  { intro Q. split; [exact Len|]. exists rs. split; [|split; assumption]. intros u q l Hq Hl. unfold bump. destruct (Nat.eqb_spec u t) as [->|N]; [|apply T; assumption].
    destruct (Q q l Hq Hl) as [r ->]. destruct (T t _ l Hq Hl) as (h & p & H1 & H2 & H3 & H4). destruct p as [x|f k]; [|cbn in H2; contradiction].
    exists h, (Done x). split; [exact H1|]. split; [exact H2|]. split; [exact H3|]. cbn [steps] in *. lia. }
  destruct (nth_error (snd c) t) as [[x|f k]|] eqn:E.
  - apply Idle. intros q l Hq _. injection Hq as <-. exists x. reflexivity.
  - assert (exists l, nth_error programs t = Some l) as [l Hl].
    { destruct (nth_error programs t) eqn:El; [eauto|]. apply nth_error_None in El. assert (t < length (snd c))%nat by (apply nth_error_Some; congruence). lia. }
    destruct (T t _ l E Hl) as (h & p & H1 & H2 & H3 & H4). destruct p as [x|f1 k1]; [cbn in H2; contradiction|]. cbn [psim] in H2. destruct (H2 h (fst c) H1) as (r' & K1 & K2 & K3).
    cbn [run steps] in H3, H4. split; [cbn [snd]; rewrite set_nth_length; exact Len|].
    exists (fun u => if Nat.eqb u t then r' else rs u). cbn [fst snd]. split; [|split].
    + intros u q l' Hq Hl'. unfold bump. destruct (Nat.eqb_spec u t) as [->|N].
      * rewrite ArrPow.set_nth_nth, Nat.eqb_refl in Hq by (apply nth_error_Some; congruence). injection Hq as <-. assert (l' = l) by congruence. subst l'.
        exists (f1 h), (k1 h). split; [exact K1|]. split; [exact K3|]. split; [exact H3 | lia].
      * rewrite ArrPow.set_nth_nth in Hq by (apply nth_error_Some; congruence). replace (Nat.eqb t u) with false in Hq by (symmetry; apply Nat.eqb_neq; congruence). destruct (T u q l' Hq Hl') as (h' & p' & A1 & A2 & A3 & A4). exists h', p'. split; [|split; [exact A2 | split; assumption]].
        eapply HR_other; [exact A1 | exact (I t) | exact K2 | apply D; exact N].
    + intro u. destruct (Nat.eqb_spec u t) as [->|N]; [eapply HR_inside; exact K1 | eapply inside_grow; [exact (I u) | exact K2]].
    + intros u v N. destruct (Nat.eqb_spec u t) as [->|Nu], (Nat.eqb_spec v t) as [->|Nv]; [contradiction | | | apply D; exact N].
      * apply disjoint_sym. eapply disjoint_step; [exact (I v) | exact K2 | apply D; exact Nv].
      * eapply disjoint_step; [exact (I u) | exact K2 | apply D; exact Nu].
  - apply Idle. intros q l Hq. discriminate.
Qed.

Lemma inv_ext c n n' : (forall t, n t = n' t) -> inv c n -> inv c n'.
Proof. intros E (L & rs & T & K). split; [exact L|]. exists rs. split; [|exact K]. intros t q l Hq Hl. rewrite <- E. apply T; assumption. Qed.
Lemma inv_run schedule : forall c n, inv c n -> inv (run_steps c schedule) (fun t => n t + turns schedule t)%nat.
Proof.
  induction schedule as [|t s IH]; intros c n H; unfold turns; cbn [run_steps fold_left count_occ].
  - eapply inv_ext; [|exact H]. intro t. lia.
  - eapply inv_ext; [|apply (IH _ (bump n t)), inv_step; exact H]. intro u. unfold bump, turns. cbn. destruct (Nat.eqb_spec u t) as [E|N], (Nat.eq_dec t u); try congruence; lia.
Qed.

Lemma view_kept {A} (m0 m : mem A) E s s' : (forall a, (a < length m0)%nat -> cells m a = cells m0 a) -> sl m0 E [] s s' -> view m s = view m0 s.
Proof.
  intros K (_ & _ & _ & L & [C|[(C & _)|(k & _ & C)]]); unfold view.
  - replace (s_len s) with 0%nat by lia. reflexivity.
  - rewrite K by exact C. reflexivity.
  - destruct k; discriminate.
Qed.
Definition kept (g : heap) : Prop :=
  (forall a, (a < length (hi h0))%nat -> cells (hi g) a = cells (hi h0) a) /\ (forall a, (a < length (hv h0))%nat -> cells (hv g) a = cells (hv h0) a) /\
  (forall a, (a < length (hm h0))%nat -> cells (hm g) a = cells (hm h0) a).
Lemma rd_mono_kept g m m' : kept g -> mr h0 F (mkRen [] [] []) m m' -> rd_mono g m = rd_mono h0 m.
Proof. intros (A & B & _) (_ & E1 & E2 & _). unfold rd_mono. rewrite (view_kept _ _ _ _ _ A E1), (view_kept _ _ _ _ _ B E2). reflexivity. Qed.
Lemma rd_kept g s : kept g -> sr h0 F (mkRen [] [] []) s s -> rd g s = rd h0 s.
Proof.
  intros K S. destruct s as [k|v|m|p]; cbn [rd sr] in *; [reflexivity | reflexivity | f_equal; eapply rd_mono_kept; eassumption | f_equal].
  unfold rd_poly. pose proof K as (_ & _ & C). rewrite (view_kept _ _ _ _ _ C S). apply map_ext_in. intros m Hm.
  destruct S as (_ & _ & _ & L & [C0|[(_ & _ & C1)|(k & _ & C0)]]).
  - unfold view in Hm. replace (s_len p) with 0%nat in Hm by lia. destruct Hm.
  - rewrite Forall_forall in C1. eapply rd_mono_kept; [exact K | exact (C1 m Hm)].
  - destruct k; discriminate.
Qed.

Lemma inv_kept c n t l : inv c n -> nth_error programs t = Some l -> kept (fst c).
Proof.
  intros (Len & rs & T & _) Hl. destruct (nth_error (snd c) t) as [q|] eqn:Hq.
  2: { apply nth_error_None in Hq. assert (t < length programs)%nat by (apply nth_error_Some; congruence). lia. }
  destruct (T t q l Hq Hl) as (h & p & ((_ & _ & _ & _ & A & _) & (_ & _ & _ & _ & B & _) & (_ & _ & _ & _ & C & _)) & _).
  split; [|split]; intros a H; [apply A | apply B | apply C]; exact H.
Qed.

Lemma no_programs c schedule : snd c = [] -> run_steps c schedule = c.
Proof.
  intro E. induction schedule as [|t s IH]; [reflexivity|]. cbn [run_steps fold_left]. unfold cstep at 2. rewrite E. destruct t; cbn [nth_error]; exact IH.
Qed.

Context (Le : all_legal h0 roots) (Se : separate h0 roots).

Lemma In_sr s : In s roots -> sr h0 F (mkRen [] [] []) s s.
Proof. intro H. apply In_nth_error in H. destruct H as [i Hi]. pose proof (F2_nth _ i _ _ Hr) as K. rewrite Hi in K. exact K. Qed.

Theorem shared_unchanged schedule s : In s roots -> rd (fst (run_steps (launch h0 roots programs) schedule)) s = rd h0 s.
Proof.
  intro Hs. destruct (nth_error programs 0) as [l|] eqn:E0.
  - apply rd_kept; [|apply In_sr; exact Hs]. eapply (inv_kept _ _ 0%nat l); [apply inv_run, inv_start | exact E0].
  - rewrite no_programs; [reflexivity|]. apply nth_error_None in E0. cbn. destruct programs; [reflexivity | cbn in E0; lia].
Qed.

Lemma allowed_not_derivative l : Forall (allowed F) l -> Forall not_derivative l.
Proof. apply Forall_impl. intros i [[_ H]|H]; [exact H|]. destruct i; cbn in *; tauto. Qed.

Theorem finished_value schedule t l x : nth_error programs t = Some l -> finished (run_steps (launch h0 roots programs) schedule) t x ->
  exists roots', x = Ok roots' /\ map (rd (fst (run_steps (launch h0 roots programs) schedule))) roots' = history_values (map (rd h0) roots) l.
Proof.
  intros Hl Hf. set (c := run_steps (launch h0 roots programs) schedule) in *. destruct (inv_run schedule _ _ inv_start) as (_ & rs & T & _). fold c in T.
  destruct (T t _ l Hf Hl) as (h & p & H1 & H2 & H3 & _). destruct p as [y|f k]; [|cbn in H2; contradiction]. cbn [run psim] in *.
  rewrite goroutine_run in H3. destruct (history h0 roots l) as [h1 roots1] eqn:E. injection H3 as -> ->. destruct x as [roots2|]; cbn [post] in H2; [|contradiction].
  assert (Hd : Forall not_derivative l) by (apply allowed_not_derivative; eapply Forall_forall in Ha; [exact Ha | eapply nth_error_In; exact Hl]).
  destruct (history_spec l h0 roots h1 roots1 Le Se (no_derivative_harmless l Hd _) E) as (V & _). exists roots2. split; [reflexivity|]. rewrite <- V.
  clear - H1 H2. induction H2 as [|a b l l' Hab H2 IH]; cbn; [reflexivity|]. rewrite IH, (sr_rd h0 F _ _ _ _ _ H1 Hab). reflexivity.
Qed.

Theorem finishes t l : nth_error programs t = Some l -> exists n, forall schedule, (n <= turns schedule t)%nat -> exists x, finished (run_steps (launch h0 roots programs) schedule) t x.
Proof.
  intro Hl. exists (steps (goroutine roots l) h0). intros schedule Hn. destruct (inv_run schedule _ _ inv_start) as (Len & rs & T & _). unfold finished.
  destruct (nth_error (snd (run_steps (launch h0 roots programs) schedule)) t) as [q|] eqn:Hq.
  2: { apply nth_error_None in Hq. assert (t < length programs)%nat by (apply nth_error_Some; congruence). lia. }
  destruct (T t q l Hq Hl) as (h & p & _ & H2 & _ & H4). destruct p as [y|f k]; [|cbn [steps] in H4; lia]. destruct q as [x|]; [|cbn in H2; contradiction]. exists x. reflexivity.
Qed.
End Top.

(** ** From the specification *)
Section Start.
Context {NN : Num} {RT : Runtime}.

Lemma in_memory_sl {A} (m : mem A) E s : in_memory m s -> Forall (fun x => E x x) (view m s) -> sl m E [] s s.
Proof.
  intros [L H] Fa. split; [reflexivity|]. split; [reflexivity|]. split; [reflexivity|]. split; [exact L|].
  destruct (s_cap s) as [|c]; [left; reflexivity|]. right. left. destruct (H ltac:(lia)) as [K _]. split; [exact K|]. split; [reflexivity | exact Fa].
Qed.
Lemma Forall_eq {A} (l : list A) : Forall (fun x => x = x) l.
Proof. apply Forall_forall. reflexivity. Qed.
Lemma legal_mr h (F : Prop) m : legal_mono h m -> (F -> s_cap (h_vars m) = s_len (h_vars m)) -> mr h F (mkRen [] [] []) m m.
Proof.
  intros [A B] C. split; [reflexivity|]. split; [apply in_memory_sl; [exact A | apply Forall_eq]|]. split; [apply in_memory_sl; [exact B | apply Forall_eq]|].
  intro f. right. exact (C f).
Qed.
Lemma legal_sr h (F : Prop) roots : all_legal h roots -> (F -> no_spare_variables h roots) -> Forall2 (sr h F (mkRen [] [] [])) roots roots.
Proof.
  intros L N. apply F2_refl. apply Forall_forall. intros s Hs. destruct (L s Hs) as [Lp Lm].
  assert (K : forall m, In m (monomials h s) -> mr h F (mkRen [] [] []) m m) by (intros m Hm; apply legal_mr; [apply Lm; exact Hm | intro f; exact (N f s m Hs Hm)]).
  destruct s as [k|v|m|p]; cbn [sr monomials] in *; [reflexivity | reflexivity | apply K; left; reflexivity|].
  apply in_memory_sl; [apply Lp; reflexivity|]. apply Forall_forall. exact K.
Qed.
Lemma no_spare_separate h roots : no_spare_variables h roots -> separate h roots.
Proof. intros N s t m m' a j Hs _ Hm _ [_ U] _. pose proof (N s m Hs Hm). lia. Qed.

Theorem concurrent_products h roots programs : all_legal h roots -> no_spare_variables h roots -> Forall (Forall not_derivative) programs ->
  forall schedule, (forall s, In s roots -> rd (fst (run_steps (launch h roots programs) schedule)) s = rd h s) /\
    forall t l x, nth_error programs t = Some l -> finished (run_steps (launch h roots programs) schedule) t x ->
      exists roots', x = Ok roots' /\ map (rd (fst (run_steps (launch h roots programs) schedule))) roots' = history_values (map (rd h) roots) l.
Proof.
  intros L N P schedule. assert (Ha : Forall (Forall (allowed True)) programs) by (eapply Forall_impl; [|exact P]; intro l; apply Forall_impl; intros i Hi; left; auto).
  pose proof (legal_sr h True roots L (fun _ => N)) as Hr. split.
  - intros s Hs. apply (shared_unchanged h True roots programs Ha Hr schedule s Hs).
  - intros t l x Hl Hf. apply (finished_value h True roots programs Ha Hr L (no_spare_separate h roots N) schedule t l x Hl Hf).
Qed.
Theorem concurrent_sums h roots programs : all_legal h roots -> separate h roots -> Forall (Forall additive) programs ->
  forall schedule, (forall s, In s roots -> rd (fst (run_steps (launch h roots programs) schedule)) s = rd h s) /\
    forall t l x, nth_error programs t = Some l -> finished (run_steps (launch h roots programs) schedule) t x ->
      exists roots', x = Ok roots' /\ map (rd (fst (run_steps (launch h roots programs) schedule))) roots' = history_values (map (rd h) roots) l.
Proof.
  intros L Se P schedule. assert (Ha : Forall (Forall (allowed False)) programs) by (eapply Forall_impl; [|exact P]; intro l; apply Forall_impl; intros i Hi; right; auto).
  pose proof (legal_sr h False roots L (fun f => match f with end)) as Hr. split.
  - intros s Hs. apply (shared_unchanged h False roots programs Ha Hr schedule s Hs).
  - intros t l x Hl Hf. apply (finished_value h False roots programs Ha Hr L Se schedule t l x Hl Hf).
Qed.
Theorem concurrent_finishes h roots programs : all_legal h roots -> (no_spare_variables h roots /\ Forall (Forall not_derivative) programs) \/ Forall (Forall additive) programs ->
  forall t, (t < length programs)%nat -> exists n, forall schedule, (n <= turns schedule t)%nat -> exists x, finished (run_steps (launch h roots programs) schedule) t x.
Proof.
  intros L C t Ht. destruct (nth_error programs t) as [l|] eqn:Hl; [|apply nth_error_None in Hl; lia]. destruct C as [[N P]|P].
  - assert (Ha : Forall (Forall (allowed True)) programs) by (eapply Forall_impl; [|exact P]; intro k; apply Forall_impl; intros i Hi; left; auto).
    exact (finishes h True roots programs Ha (legal_sr h True roots L (fun _ => N)) t l Hl).
  - assert (Ha : Forall (Forall (allowed False)) programs) by (eapply Forall_impl; [|exact P]; intro k; apply Forall_impl; intros i Hi; right; auto).
    exact (finishes h False roots programs Ha (legal_sr h False roots L (fun f => match f with end)) t l Hl).
Qed.

End Start.

(** ** After a history *)
Section Reached.
Context {NN : Num} {RT : Runtime}.

Theorem concurrent_sums_after (setup : list instr) programs h roots : harmless_history [] setup -> history empty_heap [] setup = (h, roots) -> Forall (Forall additive) programs ->
  forall schedule t l x, nth_error programs t = Some l -> finished (run_steps (launch h roots programs) schedule) t x ->
    exists roots', x = Ok roots' /\ map (rd (fst (run_steps (launch h roots programs) schedule))) roots' = history_values [] (setup ++ l).
Proof.
  intros H E P schedule t l x Hl Hf. destruct empty_legal as [Le Se]. destruct (history_spec setup _ _ _ _ Le Se H E) as (V & _ & L & S & _).
  destruct (concurrent_sums h roots programs L S P schedule) as [_ K]. destruct (K t l x Hl Hf) as (roots' & -> & W). exists roots'. split; [reflexivity|]. rewrite W, V.
  cbn [map]. clear. generalize (@nil scalar). induction setup as [|i s IH]; intro vals; cbn [history_values app]; [reflexivity|]. apply IH.
Qed.
Theorem concurrent_products_after (setup : list instr) programs h roots : harmless_history [] setup -> history empty_heap [] setup = (h, roots) -> no_spare_variables h roots -> Forall (Forall not_derivative) programs ->
  forall schedule t l x, nth_error programs t = Some l -> finished (run_steps (launch h roots programs) schedule) t x ->
    exists roots', x = Ok roots' /\ map (rd (fst (run_steps (launch h roots programs) schedule))) roots' = history_values [] (setup ++ l).
Proof.
  intros H E N P schedule t l x Hl Hf. destruct empty_legal as [Le Se]. destruct (history_spec setup _ _ _ _ Le Se H E) as (V & _ & L & S & _).
  destruct (concurrent_products h roots programs L N P schedule) as [_ K]. destruct (K t l x Hl Hf) as (roots' & -> & W). exists roots'. split; [reflexivity|]. rewrite W, V.
  cbn [map]. clear. generalize (@nil scalar). induction setup as [|i s IH]; intro vals; cbn [history_values app]; [reflexivity|]. apply IH.
Qed.
End Reached.
