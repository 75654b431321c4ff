(** * Which monomials in memory share exponents: an invariant of all calls *)

From Coq Require Import ZArith NArith Bool List Lia.
From Verif Require Import Num Syntax ModelScalar Spec ModelHeap SpecHeap SpecCopy HeapMem.
Import ListNotations.

Section Mem.
Context {A : Type}.
Implicit Types (m : mem A) (s : slice).

(** arrays never shrink *)
Definition sized m m' : Prop := length m <= length m' /\ forall a, a < length m -> length (cells m' a) = length (cells m a).
Lemma sized_refl m : sized m m.
Proof. split; auto. Qed.
Lemma sized_trans m m' m'' : sized m m' -> sized m' m'' -> sized m m''.
Proof. intros (L1 & C1) (L2 & C2). split; [lia|]. intros a H. rewrite C2 by lia. apply C1. exact H. Qed.
Lemma sized_inb m m' s : sized m m' -> inb m s -> inb m' s.
Proof. intros (L & C) (H1 & H2). split; [exact H1|]. intro P. destruct (H2 P) as (Q1 & Q2). split; [lia|]. rewrite C by exact Q1. exact Q2. Qed.
Lemma sized_app m l : sized m (m ++ [l]).
Proof. split; [rewrite app_length; lia|]. intros a H. rewrite cells_app. destruct (Nat.ltb_spec a (length m)); [reflexivity|lia]. Qed.
Lemma sized_store m a i xs : sized m (store_at m a i xs).
Proof. split; [rewrite store_length; lia|]. intros b H. apply store_cells_length. Qed.

(** a slice allocated since [m0] *)
Definition fresh m0 m s : Prop := inb m s /\ (0 < s_cap s -> length m0 <= s_arr s).
Lemma fresh_nil m0 m : fresh m0 m nil_slice.
Proof. split; [split; cbn; [lia|]|]; cbn; lia. Qed.
Lemma fresh_sized m0 m m' s : sized m m' -> fresh m0 m s -> fresh m0 m' s.
Proof. intros H (I & F). split; [exact (sized_inb _ _ _ H I) | exact F]. Qed.
Lemma fresh_alloc m0 m l : sized m0 m -> fresh m0 (m ++ [l]) (mkSlice (length m) 0 (length l) (length l)).
Proof. intros (L & _). split; [apply alloc_inb | cbn; lia]. Qed.
Lemma append_sized extra zero m s xs : sized m (snd (append_slice extra zero m s xs)).
Proof. unfold append_slice. destruct (Nat.leb _ _); cbn [snd]; [apply sized_store | apply sized_app]. Qed.
Lemma fresh_append extra zero m0 m s xs : sized m0 m -> fresh m0 m s -> fresh m0 (snd (append_slice extra zero m s xs)) (fst (append_slice extra zero m s xs)).
Proof.
  intros (L & _) (I & F). split; [apply append_cases; exact I|]. unfold append_slice. destruct (Nat.leb_spec (s_len s + length xs) (s_cap s)); cbn [fst s_cap s_arr]; [exact F | intros _; exact L].
Qed.
Lemma fresh_vis m0 m s t a j : fresh m0 m s -> inb m0 t -> vis s a j -> vis t a j -> False.
Proof. intros ((I1 & _) & F) (J1 & J2) (-> & V) (E & W). destruct (J2 ltac:(lia)) as (J3 & _). specialize (F ltac:(lia)). lia. Qed.
Lemma fresh_spare m0 m s t a j : fresh m0 m s -> inb m0 t -> spare s a j -> vis t a j -> False.
Proof. intros ((I1 & _) & F) (J1 & J2) (-> & V) (E & W). destruct (J2 ltac:(lia)) as (J3 & _). specialize (F ltac:(lia)). lia. Qed.
Lemma fresh_spare2 m0 m s t a j : fresh m0 m s -> inb m0 t -> vis s a j -> spare t a j -> False.
Proof. intros ((I1 & _) & F) (J1 & J2) (-> & V) (E & W). destruct (J2 ltac:(lia)) as (J3 & _). specialize (F ltac:(lia)). lia. Qed.

Lemma in_set i (x y : A) l : In y (set_nth i x l) -> y = x \/ In y l.
Proof.
  revert i. induction l as [|b l IH]; intros [|i]; cbn [set_nth In]; intro H; [contradiction | contradiction | |].
  - destruct H as [->|H]; auto.
  - destruct H as [->|H]; auto. destruct (IH i H); auto.
Qed.
Lemma in_overwrite xs : forall i (y : A) l, In y (overwrite i xs l) -> In y xs \/ In y l.
Proof. induction xs as [|x xs IH]; intros i y l H; cbn [overwrite] in H; [auto|]. destruct (IH _ _ _ H) as [H1|H1]; [left; right; exact H1|]. destruct (in_set _ _ _ _ H1) as [->|H2]; [left; left; reflexivity | auto]. Qed.
Lemma in_store m a i xs b (y : A) : In y (cells (store_at m a i xs) b) -> In y xs \/ exists c, In y (cells m c).
Proof.
  unfold store_at. rewrite cells_set. destruct (Nat.eqb a b && Nat.ltb b (length m)); intro H; [|right; exists b; exact H].
  destruct (in_overwrite _ _ _ _ H); [left; assumption | right; exists a; assumption].
Qed.
Lemma in_firstn n (y : A) l : In y (firstn n l) -> In y l.
Proof. intro H. rewrite <- (firstn_skipn n l). apply in_or_app. left. exact H. Qed.
Lemma in_skipn n (y : A) l : In y (skipn n l) -> In y l.
Proof. intro H. rewrite <- (firstn_skipn n l). apply in_or_app. right. exact H. Qed.
Lemma in_view m s (y : A) : In y (view m s) -> In y (cells m (s_arr s)).
Proof. intro H. apply in_firstn in H. exact (in_skipn _ _ _ H). Qed.
Lemma in_app_cells m l b (y : A) : In y (cells (m ++ [l]) b) -> In y l \/ exists c, In y (cells m c).
Proof. rewrite cells_app. destruct (Nat.ltb b (length m)); [right; exists b; assumption|]. destruct (Nat.eqb b (length m)); [left; assumption | intros []]. Qed.
Lemma in_append extra zero m s xs b (y : A) : In y (cells (snd (append_slice extra zero m s xs)) b) -> In y xs \/ y = zero \/ exists c, In y (cells m c).
Proof.
  unfold append_slice. destruct (Nat.leb _ _); cbn [snd]; intro H.
  - destruct (in_store _ _ _ _ _ _ H); auto.
  - destruct (in_app_cells _ _ _ _ H) as [H1|]; [|auto]. apply in_app_or in H1. destruct H1 as [H1|H1]; [right; right; exists (s_arr s); apply in_view; exact H1|].
    apply in_app_or in H1. destruct H1 as [H1|H1]; [auto|]. apply repeat_spec in H1. auto.
Qed.
End Mem.

Section Track.
Context {NN : Num} {RT : Runtime}.

(** the pairs of slices (exponents, variables) of the monomials in use, and the slices of the polynomials *)
Record live := mkLive { lm : slice -> slice -> Prop; lp : slice -> Prop }.
Definition on (S : live) (m : hmono) : Prop := lm S (h_exps m) (h_vars m).
Definition onp (S : live) (p : slice) : Prop := lp S p.
Definition sub (S S' : live) : Prop := (forall e v, lm S e v -> lm S' e v) /\ (forall p, lp S p -> lp S' p).
Definition on_s (S : live) (s : hscalar) : Prop := match s with HM m => on S m | HP p => onp S p | _ => True end.

Record tracked (h : heap) (S : live) : Prop := mkTracked {
  t_in : forall e v, lm S e v -> inb (hi h) e /\ inb (hv h) v;
  t_cells : forall a m, In m (cells (hm h) a) -> on S m;
  t_exps : forall e v e' v' a j, lm S e v -> lm S e' v' -> vis e a j -> vis e' a j -> e = e' /\ v = v';
  t_vars : forall e v e' v' a j, lm S e v -> lm S e' v' -> spare v a j -> vis v' a j -> False;
  t_nil : lm S nil_slice nil_slice;
  t_polys : forall p, lp S p -> inb (hm h) p;
  t_none : lp S nil_slice }.

Lemma tracked_other h h' S : tracked h S -> sized (hi h) (hi h') -> sized (hv h) (hv h') -> hm h' = hm h -> tracked h' S.
Proof.
  intros [T1 T2 T3 T4 T5 T6 T7] Hi Hv Hm. split; auto.
  - intros e v X. destruct (T1 e v X). split; eapply sized_inb; eauto.
  - rewrite Hm. exact T2.
  - rewrite Hm. exact T6.
Qed.
Lemma tracked_publish h h' S e v : tracked h S -> sized (hi h) (hi h') -> sized (hv h) (hv h') -> hm h' = hm h -> fresh (hi h) (hi h') e -> fresh (hv h) (hv h') v ->
  tracked h' (mkLive (fun e' v' => lm S e' v' \/ (e' = e /\ v' = v)) (lp S)).
Proof.
  intros T Hi Hv Hm Fe Fv. pose proof (tracked_other h h' S T Hi Hv Hm) as [T1 T2 T3 T4 T5 T6 T7]. split; cbn [lm lp].
  - intros e' v' [X|(-> & ->)]; [exact (T1 _ _ X) | split; [apply Fe | apply Fv]].
  - intros a m X. left. exact (T2 a m X).
  - intros e1 v1 e2 v2 a j [X|(-> & ->)] [Y|(-> & ->)] V W; [exact (T3 _ _ _ _ _ _ X Y V W) | | | auto]; exfalso.
    + exact (fresh_vis _ _ _ _ _ _ Fe (proj1 (t_in _ _ T _ _ X)) W V).
    + exact (fresh_vis _ _ _ _ _ _ Fe (proj1 (t_in _ _ T _ _ Y)) V W).
  - intros e1 v1 e2 v2 a j [X|(-> & ->)] [Y|(-> & ->)] V W; [exact (T4 _ _ _ _ _ _ X Y V W) | | |].
    + exact (fresh_spare2 _ _ _ _ _ _ Fv (proj2 (t_in _ _ T _ _ X)) W V).
    + exact (fresh_spare _ _ _ _ _ _ Fv (proj2 (t_in _ _ T _ _ Y)) V W).
    + destruct V as (_ & V), W as (_ & W). lia.
  - left. exact T5.
  - exact T6.
  - exact T7.
Qed.

Definition tr {A} (S : live) (x : M A) (P : live -> A -> Prop) : Prop :=
  forall h, tracked h S -> exists S', sub S S' /\ tracked (snd (x h)) S' /\ forall a, fst (x h) = Ok a -> P S' a.

Lemma sub_refl S : sub S S.
Proof. split; auto. Qed.
Lemma sub_trans S S' S'' : sub S S' -> sub S' S'' -> sub S S''.
Proof. intros (A1 & A2) (B1 & B2). split; auto. Qed.
Lemma on_sub S S' m : sub S S' -> on S m -> on S' m.
Proof. intros H X. apply H, X. Qed.
Lemma onp_sub S S' p : sub S S' -> onp S p -> onp S' p.
Proof. intros H X. apply H, X. Qed.
Lemma on_s_sub S S' s : sub S S' -> on_s S s -> on_s S' s.
Proof. intros H. destruct s; cbn; auto; [apply on_sub, H | apply onp_sub, H]. Qed.

Lemma tr_ret {A} S (a : A) (P : live -> A -> Prop) : P S a -> tr S (ret a) P.
Proof. intros H h T. exists S. split; [apply sub_refl|]. split; [exact T|]. cbn. intros b E. injection E as <-. exact H. Qed.
Lemma tr_fail {A} S p (P : live -> A -> Prop) : tr S (fail p) P.
Proof. intros h T. exists S. split; [apply sub_refl|]. split; [exact T|]. cbn. discriminate. Qed.
Lemma tr_reads {A} S (f : heap -> res A) (P : live -> A -> Prop) : (forall h a, tracked h S -> f h = Ok a -> P S a) -> tr S (reads f) P.
Proof. intros H h T. exists S. split; [apply sub_refl|]. split; [exact T|]. cbn. intros b E. exact (H h b T E). Qed.
Lemma tr_bind {A B} S (x : M A) (f : A -> M B) P Q : tr S x P -> (forall S' a, sub S S' -> P S' a -> tr S' (f a) Q) -> tr S (bindM x f) Q.
Proof.
  intros X F h T. destruct (X h T) as (S1 & U1 & T1 & P1). unfold bindM. destruct (x h) as [[a|p] h1]; cbn [fst snd] in *.
  - destruct (F S1 a U1 (P1 a eq_refl) h1 T1) as (S2 & U2 & T2 & P2). exists S2. split; [exact (sub_trans _ _ _ U1 U2)|]. auto.
  - exists S1. split; [exact U1|]. split; [exact T1|]. discriminate.
Qed.
Lemma tr_weak {A} S (x : M A) (P Q : live -> A -> Prop) : (forall S' a, sub S S' -> P S' a -> Q S' a) -> tr S x P -> tr S x Q.
Proof. intros H X h T. destruct (X h T) as (S1 & U1 & T1 & P1). exists S1. split; [exact U1|]. split; [exact T1|]. intros a E. apply H; auto. Qed.
Lemma tr_for {A B} (I : live -> B -> Prop) (body : B -> A -> M B) l : forall S acc,
  (forall S' acc a, sub S S' -> I S' acc -> tr S' (body acc a) I) -> I S acc -> tr S (forM body l acc) I.
Proof.
  induction l as [|a l IH]; intros S acc H X; [apply tr_ret, X|]. cbn [forM]. eapply tr_bind; [apply H; [apply sub_refl | exact X]|].
  intros S' acc' U Y. apply IH; [|exact Y]. intros S2 acc2 b U2. apply H. exact (sub_trans _ _ _ U U2).
Qed.

Lemma tr_get S s i : tr S (get_mono s i) on.
Proof.
  apply tr_reads. intros h m T E. unfold index in E. destruct (nth_error (view (hm h) s) i) as [x|] eqn:N; [|discriminate]. injection E as <-.
  apply (t_cells _ _ T (s_arr s)). apply in_view. exact (nth_error_In _ _ N).
Qed.
Lemma tr_put S s i x : on S x -> tr S (put_mono s i x) (fun _ _ => True).
Proof.
  intros X h T. exists S. split; [apply sub_refl|]. split; [|auto]. unfold put_mono. destruct (Nat.ltb i (s_len s)); cbn [snd]; [|exact T].
  destruct T as [T1 T2 T3 T4 T5 T6 T7]. split; auto; cbn [with_monos hm].
  - intros a m H. destruct (in_store _ _ _ _ _ _ H) as [[<-|[]]|(c & Y)]; [exact X | exact (T2 _ _ Y)].
  - intros p Hp. exact (sized_inb _ _ _ (sized_store _ _ _ _) (T6 p Hp)).
Qed.
Lemma tr_monos S (f : heap -> slice * mem hmono) : (forall h, tracked h S -> sized (hm h) (snd (f h)) /\ inb (snd (f h)) (fst (f h)) /\ forall a m, In m (cells (snd (f h)) a) -> on S m) ->
  tr S (fun h => let (s, m) := f h in (Ok s, with_monos h m)) onp.
Proof.
  intros H h T. destruct (H h T) as (Z & B & C). destruct (f h) as [s m]. cbn [fst snd] in *. exists (mkLive (lm S) (fun p => lp S p \/ p = s)). split; [split; cbn; auto|].
  split; [|intros a E; injection E as <-; right; reflexivity]. destruct T as [T1 T2 T3 T4 T5 T6 T7]. split; cbn [lm lp with_monos hm]; auto.
  intros p [Hp| ->]; [exact (sized_inb _ _ _ Z (T6 p Hp)) | exact B].
Qed.
Lemma tr_append S s xs : onp S s -> (forall m, In m xs -> on S m) -> tr S (append_monos s xs) onp.
Proof.
  intros Y X. apply tr_monos. intros h T. split; [apply append_sized|]. split; [apply append_cases; exact (t_polys _ _ T _ Y)|].
  intros a m H. destruct (in_append _ _ _ _ _ _ _ H) as [Z|[->|(c & Z)]]; [exact (X m Z) | exact (t_nil _ _ T) | exact (t_cells _ _ T _ _ Z)].
Qed.
Lemma tr_make S xs : (forall m, In m xs -> on S m) -> tr S (make_monos xs) onp.
Proof.
  intros X. apply tr_monos. intros h T. split; [apply sized_app|]. split; [apply alloc_inb|]. intros a m H.
  destruct (in_app_cells _ _ _ _ H) as [Y|(c & Y)]; [exact (X m Y) | exact (t_cells _ _ T _ _ Y)].
Qed.

(** ** Code that builds a monomial out of new arrays, or writes numbers *)
Definition quiet (h h' : heap) : Prop := sized (hi h) (hi h') /\ sized (hv h) (hv h') /\ hm h' = hm h.
Lemma quiet_refl h : quiet h h.
Proof. split; [apply sized_refl|]. split; [apply sized_refl | reflexivity]. Qed.
Lemma quiet_trans h h' h'' : quiet h h' -> quiet h' h'' -> quiet h h''.
Proof. intros (A1 & A2 & A3) (B1 & B2 & B3). split; [exact (sized_trans _ _ _ A1 B1)|]. split; [exact (sized_trans _ _ _ A2 B2) | congruence]. Qed.
(** started in a heap that [h0] has grown into, the code satisfies [P] *)
Definition qt {A} (h0 : heap) (x : M A) (P : heap -> A -> Prop) : Prop :=
  forall h, quiet h0 h -> quiet h0 (snd (x h)) /\ quiet h (snd (x h)) /\ forall a, fst (x h) = Ok a -> P (snd (x h)) a.
Lemma qt_frame {A} h0 (x : M A) : (forall h, quiet h (snd (x h))) -> qt h0 x (fun _ _ => True).
Proof. intros H h Q. split; [exact (quiet_trans _ _ _ Q (H h))|]. auto. Qed.
(** properties that survive later allocation *)
Definition stable {A} (P : heap -> A -> Prop) : Prop := forall h h' a, quiet h h' -> P h a -> P h' a.
Definition fresh_i (h0 h : heap) (s : slice) : Prop := fresh (hi h0) (hi h) s.
Definition fresh_v (h0 h : heap) (s : slice) : Prop := fresh (hv h0) (hv h) s.
Lemma fresh_i_quiet h0 h h' s : quiet h h' -> fresh_i h0 h s -> fresh_i h0 h' s.
Proof. intros (Q & _). apply fresh_sized, Q. Qed.
Lemma fresh_v_quiet h0 h h' s : quiet h h' -> fresh_v h0 h s -> fresh_v h0 h' s.
Proof. intros (_ & Q & _). apply fresh_sized, Q. Qed.

(** the code builds a monomial *)
Definition builds (x : M hmono) : Prop :=
  forall h m h', x h = (m, h') -> quiet h h' /\ forall c, m = Ok c -> fresh_i h h' (h_exps c) /\ fresh_v h h' (h_vars c).
Lemma tr_builds S x : builds x -> tr S x on.
Proof.
  intros B h T. destruct (x h) as [r h'] eqn:E. destruct (B h r h' E) as ((Q1 & Q2 & Q3) & F). cbn [fst snd]. destruct r as [c|p].
  - destruct (F c eq_refl) as (F1 & F2). exists (mkLive (fun e' v' => lm S e' v' \/ (e' = h_exps c /\ v' = h_vars c)) (lp S)). split; [split; cbn; auto|].
    split; [exact (tracked_publish _ _ _ _ _ T Q1 Q2 Q3 F1 F2)|]. intros a X. injection X as <-. right. auto.
  - exists S. split; [apply sub_refl|]. split; [exact (tracked_other _ _ _ T Q1 Q2 Q3)|]. discriminate.
Qed.
Lemma tr_quiet {A} S (x : M A) : (forall h, quiet h (snd (x h))) -> tr S x (fun _ _ => True).
Proof. intros H h T. exists S. split; [apply sub_refl|]. destruct (H h) as (Q1 & Q2 & Q3). split; [exact (tracked_other _ _ _ T Q1 Q2 Q3) | auto]. Qed.

Lemma quiet_ints h m : sized (hi h) m -> quiet h (with_ints h m).
Proof. intro H. split; [exact H|]. split; [apply sized_refl | reflexivity]. Qed.
Lemma quiet_vars h m : sized (hv h) m -> quiet h (with_vars h m).
Proof. intro H. split; [apply sized_refl|]. split; [exact H | reflexivity]. Qed.

Lemma new_mono_builds c es vs : builds (new_mono c es vs).
Proof.
  intros h r h' E. unfold new_mono, make_vars, make_ints, bindM, ret, alloc in E. injection E as <- <-. split.
  - split; [apply sized_app|]. split; [apply sized_app | reflexivity].
  - intros m X. injection X as <-. split; apply fresh_alloc, sized_refl.
Qed.
Lemma copy_builds m : builds (hmono_copy m).
Proof.
  intros h r h' E. unfold hmono_copy, make_vars, make_ints, bindM, reads, ret, alloc in E. injection E as <- <-. split.
  - split; [apply sized_app|]. split; [apply sized_app | reflexivity].
  - intros x X. injection X as <-. split; apply fresh_alloc, sized_refl.
Qed.
Lemma put_int_quiet s i x h : quiet h (snd (put_int s i x h)).
Proof. unfold put_int. destruct (Nat.ltb i (s_len s)); [apply quiet_ints, sized_store | apply quiet_refl]. Qed.
Lemma append_vars_quiet s xs h : quiet h (snd (append_vars s xs h)).
Proof.
  unfold append_vars. pose proof (append_sized grow_var zero_var (hv h) s xs) as H. destruct (append_slice grow_var zero_var (hv h) s xs) as [s' m]. apply quiet_vars, H.
Qed.
Lemma append_ints_quiet s xs h : quiet h (snd (append_ints s xs h)).
Proof.
  unfold append_ints. pose proof (append_sized grow_int 0%Z (hi h) s xs) as H. destruct (append_slice grow_int 0%Z (hi h) s xs) as [s' m]. apply quiet_ints, H.
Qed.
Lemma append_vars_fresh h0 s xs h s' h' : quiet h0 h -> fresh_v h0 h s -> append_vars s xs h = (Ok s', h') -> fresh_v h0 h' s'.
Proof.
  intros (_ & Q & _) F. unfold append_vars. pose proof (fresh_append grow_var zero_var _ _ _ xs Q F) as H. destruct (append_slice grow_var zero_var (hv h) s xs) as [t m]. intro E. injection E as <- <-. exact H.
Qed.
Lemma append_ints_fresh h0 s xs h s' h' : quiet h0 h -> fresh_i h0 h s -> append_ints s xs h = (Ok s', h') -> fresh_i h0 h' s'.
Proof.
  intros (Q & _) F. unfold append_ints. pose proof (fresh_append grow_int 0%Z _ _ _ xs Q F) as H. destruct (append_slice grow_int 0%Z (hi h) s xs) as [t m]. intro E. injection E as <- <-. exact H.
Qed.

(** sequencing of quiet code with a stable postcondition *)
Definition qok {A} (h0 h : heap) (P : heap -> A -> Prop) (o : res A * heap) : Prop := quiet h (snd o) /\ forall a, fst o = Ok a -> P (snd o) a.
Lemma qok_bind {A B} h0 h (x : M A) (f : A -> M B) (P : heap -> A -> Prop) (Q : heap -> B -> Prop) :
  qok h0 h P (x h) -> (forall a h1, quiet h h1 -> P h1 a -> qok h0 h1 Q (f a h1)) -> qok h0 h Q (bindM x f h).
Proof.
  intros (Q1 & P1) F. unfold bindM. destruct (x h) as [[a|p] h1]; cbn [fst snd] in *.
  - destruct (F a h1 Q1 (P1 a eq_refl)) as (Q2 & P2). split; [exact (quiet_trans _ _ _ Q1 Q2) | exact P2].
  - split; [exact Q1 | discriminate].
Qed.
Lemma qok_reads {A} h0 h (f : heap -> res A) (P : heap -> A -> Prop) : (forall a, P h a) -> qok h0 h P (reads f h).
Proof. intro H. split; [apply quiet_refl|]. intros a _. apply H. Qed.
Lemma qok_ret {A} h0 h (a : A) (P : heap -> A -> Prop) : P h a -> qok h0 h P (ret a h).
Proof. intro H. split; [apply quiet_refl|]. intros b E. injection E as <-. exact H. Qed.
Lemma qok_fail {A} h0 h p (P : heap -> A -> Prop) : qok h0 h P (fail p h).
Proof. split; [apply quiet_refl | discriminate]. Qed.
Lemma qok_for {A B} h0 (P : heap -> B -> Prop) (body : B -> A -> M B) l : forall h acc, quiet h0 h ->
  (forall h1 acc a, quiet h0 h1 -> P h1 acc -> qok h0 h1 P (body acc a h1)) -> P h acc -> qok h0 h P (forM body l acc h).
Proof.
  induction l as [|a l IH]; intros h acc Q H X; [apply qok_ret, X|]. cbn [forM]. eapply qok_bind; [apply H; [exact Q | exact X]|].
  intros acc' h1 Q1 X1. apply IH; [exact (quiet_trans _ _ _ Q Q1) | exact H | exact X1].
Qed.
Lemma qok_append_vars h0 h s xs : quiet h0 h -> fresh_v h0 h s -> qok h0 h (fresh_v h0) (append_vars s xs h).
Proof. intros Q F. split; [apply append_vars_quiet|]. intros a E. eapply append_vars_fresh; [exact Q | exact F|]. instantiate (1 := xs). destruct (append_vars s xs h); cbn in *; congruence. Qed.
Lemma qok_append_ints h0 h s xs : quiet h0 h -> fresh_i h0 h s -> qok h0 h (fresh_i h0) (append_ints s xs h).
Proof. intros Q F. split; [apply append_ints_quiet|]. intros a E. eapply append_ints_fresh; [exact Q | exact F|]. instantiate (1 := xs). destruct (append_ints s xs h); cbn in *; congruence. Qed.
Lemma qok_quiet {A} h0 h (x : M A) : quiet h (snd (x h)) -> qok h0 h (fun _ _ => True) (x h).
Proof. intro H. split; auto. Qed.
Lemma qok_builds (x : M hmono) : (forall h, qok h h (fun h' c => fresh_i h h' (h_exps c) /\ fresh_v h h' (h_vars c)) (x h)) -> builds x.
Proof. intros H h r h' E. specialize (H h). rewrite E in H. exact H. Qed.

Definition fresh_c (h0 h : heap) (c : hmono) : Prop := fresh_i h0 h (h_exps c) /\ fresh_v h0 h (h_vars c).
Lemma fresh_c_quiet h0 h h' c : quiet h h' -> fresh_c h0 h c -> fresh_c h0 h' c.
Proof. intros Q (F & G). split; [exact (fresh_i_quiet _ _ _ _ Q F) | exact (fresh_v_quiet _ _ _ _ Q G)]. Qed.
Lemma qok_copy h0 h m : quiet h0 h -> qok h0 h (fresh_c h0) (hmono_copy m h).
Proof.
  intro Q. destruct (hmono_copy m h) as [r h'] eqn:E. destruct (copy_builds m h r h' E) as (Q1 & F). split; [exact Q1|]. intros c X.
  destruct (F c X) as ((F1 & F2) & (G1 & G2)). destruct Q as ((L1 & _) & (L2 & _) & _). split; (split; [assumption|]); intro P; [specialize (F2 P) | specialize (G2 P)]; cbn; lia.
Qed.

Lemma mul_var_builds m v : builds (h_mono_mul_var m v).
Proof.
  apply qok_builds. intro h. unfold h_mono_mul_var, check_mono, check_var.
  eapply qok_bind; [apply qok_reads with (P := fun _ _ => True); auto|]. intros _ h1 Q1 _.
  eapply qok_bind; [apply qok_reads with (P := fun _ _ => True); auto|]. intros _ h2 Q2 _. pose proof (quiet_trans _ _ _ Q1 Q2) as Q02.
  eapply qok_bind; [apply (qok_copy h); exact Q02|]. intros c h3 Q3 F3. pose proof (quiet_trans _ _ _ Q02 Q3) as Q03.
  eapply qok_bind; [apply qok_reads with (P := fun _ _ => True); auto|]. intros [i|] h4 Q4 _; pose proof (quiet_trans _ _ _ Q03 Q4) as Q04; pose proof (fresh_c_quiet _ _ _ _ Q4 F3) as F4.
  - eapply qok_bind; [apply qok_reads with (P := fun _ _ => True); auto|]. intros e h5 Q5 _.
    eapply qok_bind; [apply qok_quiet; apply put_int_quiet|]. intros _ h6 Q6 _. apply qok_ret. exact (fresh_c_quiet _ _ _ _ Q6 (fresh_c_quiet _ _ _ _ Q5 F4)).
  - destruct F4 as (Fi & Fv). eapply qok_bind; [apply (qok_append_vars h); [exact Q04 | exact Fv]|]. intros vs h5 Q5 G5. pose proof (quiet_trans _ _ _ Q04 Q5) as Q05.
    eapply qok_bind; [apply (qok_append_ints h); [exact Q05 | exact (fresh_i_quiet _ _ _ _ Q5 Fi)]|]. intros es h6 Q6 G6. apply qok_ret. split; [exact G6 | exact (fresh_v_quiet _ _ _ _ Q6 G5)].
Qed.

Lemma qok_unique h0 h s : quiet h0 h -> qok h0 h (fresh_v h0) (h_unique s h).
Proof.
  intro Q. unfold h_unique. apply qok_for; [exact Q| |apply fresh_nil]. intros h1 acc i Q1 F1.
  eapply qok_bind; [apply qok_reads with (P := fun _ _ => True); auto|]. intros v h2 Q2 _.
  eapply qok_bind; [apply qok_reads with (P := fun _ _ => True); auto|]. intros k h3 Q3 _.
  pose proof (fresh_v_quiet _ _ _ _ (quiet_trans _ _ _ Q2 Q3) F1) as F3. destruct k.
  - apply qok_ret, F3.
  - apply qok_append_vars; [exact (quiet_trans _ _ _ Q1 (quiet_trans _ _ _ Q2 Q3)) | exact F3].
Qed.
Lemma degree_loop_quiet vs es vars deg h : quiet h (snd (h_degree_loop vs es vars deg h)).
Proof.
  assert (H : qok h h (fun _ _ => True) (h_degree_loop vs es vars deg h)); [|apply H].
  unfold h_degree_loop. apply qok_for; [apply quiet_refl| |auto]. intros h1 acc i Q1 _.
  eapply qok_bind; [apply qok_reads with (P := fun _ _ => True); auto|]. intros v h2 Q2 _.
  eapply qok_bind; [apply qok_reads with (P := fun _ _ => True); auto|]. intros [k|] h3 Q3 _; [|apply qok_fail].
  eapply qok_bind; [apply qok_reads with (P := fun _ _ => True); auto|]. intros e h4 Q4 _.
  eapply qok_bind; [apply qok_reads with (P := fun _ _ => True); auto|]. intros d h5 Q5 _. apply qok_quiet, put_int_quiet.
Qed.
Lemma mul_mono_builds m r : builds (h_mono_mul_mono m r).
Proof.
  apply qok_builds. intro h. unfold h_mono_mul_mono, check_mono.
  eapply qok_bind; [apply qok_reads with (P := fun _ _ => True); auto|]. intros _ h1 Q1 _.
  eapply qok_bind; [apply qok_reads with (P := fun _ _ => True); auto|]. intros _ h2 Q2 _. pose proof (quiet_trans _ _ _ Q1 Q2) as Q02.
  eapply qok_bind; [apply qok_reads with (P := fun _ _ => True); auto|]. intros rv h3 Q3 _. pose proof (quiet_trans _ _ _ Q02 Q3) as Q03.
  eapply qok_bind; [apply qok_quiet; apply append_vars_quiet|]. intros al h4 Q4 _. pose proof (quiet_trans _ _ _ Q03 Q4) as Q04.
  eapply qok_bind; [apply (qok_unique h); exact Q04|]. intros vars h5 Q5 F5. pose proof (quiet_trans _ _ _ Q04 Q5) as Q05.
  eapply qok_bind with (P := fun h' s => fresh_i h h' s).
  { unfold make_ints, alloc. split; cbn [fst snd]; [apply quiet_ints, sized_app|]. intros s E. injection E as <-. destruct Q05 as (Qi & _). apply fresh_alloc, Qi. }
  intros deg h6 Q6 F6.
  eapply qok_bind; [apply qok_quiet; apply degree_loop_quiet|]. intros _ h7 Q7 _.
  eapply qok_bind; [apply qok_quiet; apply degree_loop_quiet|]. intros _ h8 Q8 _. apply qok_ret. cbn [h_exps h_vars].
  split; [exact (fresh_i_quiet _ _ _ _ Q8 (fresh_i_quiet _ _ _ _ Q7 F6)) | exact (fresh_v_quiet _ _ _ _ Q8 (fresh_v_quiet _ _ _ _ Q7 (fresh_v_quiet _ _ _ _ Q6 F5)))].
Qed.
Lemma mul_k_builds m k : builds (h_mono_mul_k m k).
Proof.
  apply qok_builds. intro h. unfold h_mono_mul_k, check_mono.
  eapply qok_bind; [apply qok_reads with (P := fun _ _ => True); auto|]. intros _ h1 Q1 _.
  eapply qok_bind; [apply (qok_copy h); exact Q1|]. intros c h2 Q2 F2. apply qok_ret. exact F2.
Qed.

(** ** Every method preserves the invariant *)
Ltac use_sub :=
  repeat match goal with
  | U : sub ?S ?S', X : on ?S ?m |- _ => lazymatch goal with Y : on S' m |- _ => fail | _ => pose proof (on_sub _ _ _ U X) end
  | U : sub ?S ?S', X : onp ?S ?m |- _ => lazymatch goal with Y : onp S' m |- _ => fail | _ => pose proof (onp_sub _ _ _ U X) end
  | U : sub ?S ?S', X : on_s ?S ?m |- _ => lazymatch goal with Y : on_s S' m |- _ => fail | _ => pose proof (on_s_sub _ _ _ U X) end
  | U : sub ?S ?S', X : forall k, on ?S (hk_to_mono k) |- _ => lazymatch goal with Y : forall k, on S' (hk_to_mono k) |- _ => fail | _ => pose proof (fun k => on_sub _ _ _ U (X k)) end
  end.
Lemma on_k S h k : tracked h S -> on S (hk_to_mono k).
Proof. intro T. exact (t_nil _ _ T). Qed.
(** the empty slices are always in use *)
Lemma tr_k {A} S (x : M A) P : ((forall k, on S (hk_to_mono k)) -> onp S nil_slice -> tr S x P) -> tr S x P.
Proof. intros H h T. apply H; [intro k; exact (on_k S h k T) | exact (t_none _ _ T) | exact T]. Qed.

Ltac tstep :=
  lazymatch goal with
  | |- tr _ (ret _) _ => apply tr_ret
  | |- tr _ (fail _) _ => apply tr_fail
  | |- tr _ (bindM _ _) _ => eapply tr_bind
  | |- tr _ (get_mono _ _) _ => apply tr_get
  | |- tr _ (reads _) _ => apply tr_reads with (P := fun _ _ => True); auto
  | |- tr _ (check_mono _) _ => apply tr_reads with (P := fun _ _ => True); auto
  | |- tr _ (check_poly _) _ => apply tr_reads with (P := fun _ _ => True); auto
  | |- tr _ (check_var _) _ => apply tr_reads with (P := fun _ _ => True); auto
  | |- tr _ (check_scalar _) _ => apply tr_reads with (P := fun _ _ => True); auto
  | |- tr _ (get_var _ _) _ => apply tr_reads with (P := fun _ _ => True); auto
  | |- tr _ (get_int _ _) _ => apply tr_reads with (P := fun _ _ => True); auto
  | |- tr _ (put_mono _ _ _) _ => apply tr_put
  | |- tr _ (append_monos _ _) _ => apply tr_append
  | |- tr _ (make_monos _) _ => apply tr_make
  | |- tr _ (hmono_copy _) _ => apply tr_builds, copy_builds
  | |- tr _ (new_mono _ _ _) _ => apply tr_builds, new_mono_builds
  | |- tr _ (hvar_to_mono _) _ => apply tr_builds, new_mono_builds
  | |- tr _ (h_mono_mul_var _ _) _ => apply tr_builds, mul_var_builds
  | |- tr _ (h_mono_mul_k _ _) _ => apply tr_builds, mul_k_builds
  | |- tr _ (h_mono_mul_mono _ _) _ => apply tr_builds, mul_mono_builds
  | |- forall S' a, sub _ S' -> _ => let S := fresh "S" in let x := fresh "x" in let U := fresh "U" in let X := fresh "X" in intros S x U X; use_sub
  end.
Ltac ons := solve [exact I | auto | (intros ? [<-|[]]; auto) | (intros ? [<-|[<-|[]]]; auto)].
Ltac T := try ons; repeat (tstep; try ons).

Lemma view_tr S p : tr S (reads (fun h => Ok (view (hm h) p))) (fun S' l => forall m, In m l -> on S' m).
Proof. apply tr_reads. intros h l H E. injection E as <-. intros m X. exact (t_cells _ _ H _ _ (in_view _ _ _ X)). Qed.
Lemma poly_copy_tr S p : tr S (hpoly_copy p) onp.
Proof. unfold hpoly_copy. eapply tr_bind; [apply view_tr|]. intros S' l _ X. apply tr_make, X. Qed.
Lemma to_poly_tr S m : tr S (hmono_to_poly m) onp.
Proof. unfold hmono_to_poly. T. Qed.
Ltac cs := lazymatch goal with |- tr _ (if ?b then _ else _) _ => destruct b | |- tr _ (match ?b with _ => _ end) _ => destruct b end.
Lemma add_like_tr S acc m : onp S acc -> on S m -> tr S (h_add_like acc m) onp.
Proof. intros Y X. unfold h_add_like. T. cs; T. Qed.
Lemma simplify_tr S p : tr S (h_simplify p) onp.
Proof.
  apply tr_k. intros K K0. unfold h_simplify. eapply tr_bind; [tstep|]; tstep.
  eapply tr_bind with (P := fun S' (st : num * slice) => onp S' (snd st)).
  { apply tr_for with (I := fun S' (st : num * slice) => onp S' (snd st)); [|assumption]. intros S1 st a U1 O1. use_sub. eapply tr_bind; [tstep|]; tstep. eapply tr_bind; [tstep|]; tstep. cs; [T|]. eapply tr_bind; [apply add_like_tr; assumption|]; tstep. T. }
  tstep. eapply tr_bind with (P := onp); [cs; T|]. tstep.
  eapply tr_bind with (P := onp).
  { apply tr_for with (I := onp); [|assumption]. intros S3 st a U3 O3. use_sub. eapply tr_bind; [tstep|]; tstep. cs; T. }
  tstep. cs; T.
Qed.
Lemma mono_simplified_tr S m : on S m -> tr S (h_mono_simplified m) on_s.
Proof. intro X. unfold h_mono_simplified. T. destruct x; cbn; auto. Qed.
Lemma poly_simplified_tr S p : tr S (h_poly_simplified p) on_s.
Proof.
  unfold h_poly_simplified. eapply tr_bind; [apply simplify_tr|]; tstep. eapply tr_bind; [tstep|]; tstep. cs; [T|].
  eapply tr_bind with (P := fun _ _ => True); [cs; T; cs; T|]. tstep. cs; [T|]. cs; T.
Qed.
Lemma simplified_tr S s : on_s S s -> tr S (h_simplified s) on_s.
Proof. destruct s as [k|v|m|p]; intro X; cbn [h_simplified]; [apply tr_ret, X | apply tr_ret, X | apply mono_simplified_tr, X | apply poly_simplified_tr]. Qed.
Ltac simp := lazymatch goal with
  | |- tr _ (h_simplify _) _ => apply simplify_tr
  | |- tr _ (hpoly_copy _) _ => apply poly_copy_tr
  | |- tr _ (hmono_to_poly _) _ => apply to_poly_tr
  | |- tr _ (h_poly_simplified _) _ => apply poly_simplified_tr
  | |- tr _ (h_mono_simplified _) _ => apply mono_simplified_tr; ons
  | |- tr _ (h_simplified _) _ => apply simplified_tr; cbn [on_s]; ons
  end.
Ltac TT := try ons; repeat (first [tstep | simp]; try ons).
Lemma poly_plus_k_tr S p k : tr S (h_poly_plus_k p k) on_s.
Proof.
  apply tr_k. intros K K0. unfold h_poly_plus_k. eapply tr_bind; [tstep|]; tstep. eapply tr_bind; [simp|]; tstep. eapply tr_bind; [tstep|]; tstep. eapply tr_bind with (P := onp); [cs; TT|]. TT.
Qed.
Lemma poly_plus_var_tr S p v : tr S (h_poly_plus_var p v) on_s.
Proof.
  unfold h_poly_plus_var. eapply tr_bind; [tstep|]; tstep. eapply tr_bind; [tstep|]; tstep. eapply tr_bind; [simp|]; tstep. eapply tr_bind; [tstep|]; tstep. eapply tr_bind with (P := onp); [cs; TT|]. TT.
Qed.
Lemma poly_plus_poly_tr S p q : tr S (h_poly_plus_poly p q) on_s.
Proof.
  unfold h_poly_plus_poly. eapply tr_bind; [tstep|]; tstep. eapply tr_bind; [tstep|]; tstep. eapply tr_bind; [simp|]; tstep. eapply tr_bind; [apply view_tr|]; tstep. eapply tr_bind; [apply tr_append; [assumption | exact X2]|]; tstep. eapply tr_bind; [simp|]; tstep. simp.
Qed.
Lemma poly_plus_mono_tr S p m : on S m -> tr S (h_poly_plus_mono p m) on_s.
Proof. intro X. unfold h_poly_plus_mono. eapply tr_bind; [tstep|]; tstep. eapply tr_bind; [tstep|]; tstep. eapply tr_bind; [simp|]; tstep. eapply tr_bind; [simp|]; tstep. eapply tr_bind; [apply poly_plus_poly_tr|]; tstep. simp. Qed.
Lemma mono_plus_k_tr S m k : on S m -> tr S (h_mono_plus_k m k) on_s.
Proof. intro X. apply tr_k. intros K K0. unfold h_mono_plus_k. TT. cs; TT. Qed.
Lemma mono_plus_var_tr S m v : on S m -> tr S (h_mono_plus_var m v) on_s.
Proof. intro X. unfold h_mono_plus_var. TT. cs; TT. Qed.
Lemma mono_plus_mono_tr S m r : on S m -> on S r -> tr S (h_mono_plus_mono m r) on_s.
Proof. intros X Y. unfold h_mono_plus_mono. TT. cs; TT. Qed.
Lemma mono_plus_poly_tr S m p : on S m -> tr S (h_mono_plus_poly m p) on_s.
Proof. intros X. unfold h_mono_plus_poly. eapply tr_bind; [tstep|]; tstep. eapply tr_bind; [tstep|]; tstep. eapply tr_bind; [tstep|]; tstep. eapply tr_bind; [apply poly_plus_mono_tr; assumption|]; tstep. simp. Qed.
Lemma var_plus_k_tr S v k : tr S (h_var_plus_k v k) on_s.
Proof. apply tr_k. intros K K0. unfold h_var_plus_k. TT. Qed.
Lemma var_plus_var_tr S v r : tr S (h_var_plus_var v r) on_s.
Proof. unfold h_var_plus_var. TT. cs; TT. Qed.
Lemma plus_tr S s r : on_s S s -> on_s S r -> tr S (h_plus s r) on_s.
Proof.
  destruct s as [k|v|m|p], r as [k'|v'|m'|p']; cbn [h_plus on_s]; intros X Y; unfold h_k_plus;
    first [apply var_plus_k_tr | apply var_plus_var_tr | apply mono_plus_k_tr; assumption | apply mono_plus_var_tr; assumption | apply mono_plus_mono_tr; assumption
          | apply mono_plus_poly_tr; assumption | apply poly_plus_k_tr | apply poly_plus_var_tr | apply poly_plus_mono_tr; assumption | apply poly_plus_poly_tr | idtac].
  - TT.
  - eapply tr_bind; [tstep|]; tstep. apply var_plus_k_tr.
  - eapply tr_bind; [tstep|]; tstep. apply mono_plus_k_tr. assumption.
  - eapply tr_bind; [tstep|]; tstep. apply poly_plus_k_tr.
  - unfold h_var_plus_mono. eapply tr_bind; [tstep|]; tstep. eapply tr_bind; [apply mono_plus_var_tr; assumption|]; tstep. simp.
  - unfold h_var_plus_poly. eapply tr_bind; [tstep|]; tstep. eapply tr_bind; [apply poly_plus_var_tr|]; tstep. simp.
Qed.

Lemma map_in_place_tr S (f : hmono -> M hmono) c : (forall m, builds (f m)) -> tr S (h_map_in_place f c) (fun _ _ => True).
Proof.
  intro H. unfold h_map_in_place. apply tr_for with (I := fun _ _ => True); [|exact I]. intros S1 acc a U1 _. eapply tr_bind; [tstep|]; tstep. eapply tr_bind; [apply tr_builds, H|]; tstep. TT.
Qed.
Lemma poly_mul_k_tr S p k : tr S (h_poly_mul_k p k) on_s.
Proof. unfold h_poly_mul_k. eapply tr_bind; [tstep|]; tstep. eapply tr_bind; [simp|]; tstep. eapply tr_bind; [apply map_in_place_tr; intro; apply mul_k_builds|]; tstep. simp. Qed.
Lemma poly_mul_var_tr S p v : tr S (h_poly_mul_var p v) on_s.
Proof. unfold h_poly_mul_var. eapply tr_bind; [tstep|]; tstep. eapply tr_bind; [tstep|]; tstep. eapply tr_bind; [simp|]; tstep. eapply tr_bind; [apply map_in_place_tr; intro; apply mul_var_builds|]; tstep. simp. Qed.
Lemma poly_mul_mono_tr S p r : tr S (h_poly_mul_mono p r) on_s.
Proof.
  apply tr_k. intros K K0. unfold h_poly_mul_mono. eapply tr_bind; [tstep|]; tstep. eapply tr_bind; [tstep|]; tstep. eapply tr_bind; [simp|]; tstep.
  eapply tr_bind with (P := onp); [apply tr_for with (I := onp); [|assumption]; intros S3 acc a U3 O3; use_sub; TT|]. tstep. simp.
Qed.
Lemma poly_mul_poly_tr S p q : tr S (h_poly_mul_poly p q) on_s.
Proof.
  unfold h_poly_mul_poly. eapply tr_bind; [tstep|]; tstep. eapply tr_bind; [tstep|]; tstep. eapply tr_bind; [simp|]; tstep. eapply tr_bind with (P := on_s); [|tstep; simp].
  apply tr_for with (I := on_s); [|exact I]. intros S3 acc a U3 O3. use_sub. eapply tr_bind; [tstep|]; tstep. eapply tr_bind; [apply poly_mul_mono_tr|]; tstep. apply plus_tr; assumption.
Qed.
Lemma var_mul_k_tr S v k : tr S (h_var_mul_k v k) on_s.
Proof. unfold h_var_mul_k. TT. Qed.
Lemma var_mul_var_tr S v r : tr S (h_var_mul_var v r) on_s.
Proof. unfold h_var_mul_var. eapply tr_bind; [tstep|]; tstep. eapply tr_bind; [tstep|]; tstep. eapply tr_bind with (P := on); [cs; TT|]. tstep. simp. Qed.
Lemma as_HM_tr S x : builds x -> tr S (as_HM x) on_s.
Proof. intro H. unfold as_HM. eapply tr_bind; [apply tr_builds, H|]; tstep. TT. Qed.
Lemma mul_tr S s r : on_s S s -> on_s S r -> tr S (h_mul s r) on_s.
Proof.
  destruct s as [k|v|m|p], r as [k'|v'|m'|p']; cbn [h_mul on_s]; intros X Y; unfold h_k_mul;
    first [apply var_mul_k_tr | apply var_mul_var_tr | apply as_HM_tr; first [apply mul_k_builds | apply mul_var_builds | apply mul_mono_builds]
          | apply poly_mul_k_tr | apply poly_mul_var_tr | apply poly_mul_mono_tr | apply poly_mul_poly_tr | idtac].
  - TT.
  - eapply tr_bind; [tstep|]; tstep. apply var_mul_k_tr.
  - eapply tr_bind; [tstep|]; tstep. apply as_HM_tr, mul_k_builds.
  - eapply tr_bind; [tstep|]; tstep. apply poly_mul_k_tr.
  - unfold h_var_mul_mono. TT.
  - unfold h_var_mul_poly. eapply tr_bind; [tstep|]; tstep. eapply tr_bind; [tstep|]; tstep. eapply tr_bind; [apply poly_mul_var_tr|]; tstep. simp.
  - unfold h_mono_mul_poly. eapply tr_bind; [tstep|]; tstep. eapply tr_bind; [tstep|]; tstep. apply poly_mul_mono_tr.
Qed.
Lemma mul_float_tr S s f : on_s S s -> tr S (h_mul_float s f) on_s.
Proof.
  destruct s as [k|v|m|p]; cbn [h_mul_float on_s]; intros X.
  - unfold h_k_mul. TT.
  - eapply tr_bind; [apply var_mul_k_tr|]; tstep. simp.
  - apply as_HM_tr, mul_k_builds.
  - eapply tr_bind; [apply poly_mul_k_tr|]; tstep. simp.
Qed.
Lemma minus_tr S s r : on_s S s -> on_s S r -> tr S (h_minus s r) on_s.
Proof. intros X Y. unfold h_minus. eapply tr_bind; [tstep|]; tstep. eapply tr_bind; [tstep|]; tstep. eapply tr_bind; [apply mul_float_tr; assumption|]; tstep. apply plus_tr; assumption. Qed.
Lemma power_loop_tr n : forall S s r, on_s S s -> on_s S r -> tr S (h_power_loop s n r) on_s.
Proof.
  induction n as [|n IH]; intros S s r X Y; cbn [h_power_loop]; [apply tr_ret, Y|]. eapply tr_bind; [apply mul_tr; assumption|]; tstep. apply IH; assumption.
Qed.
Lemma power_tr S s n : on_s S s -> tr S (h_power s n) on_s.
Proof. intro X. unfold h_power. eapply tr_bind; [tstep|]; tstep. eapply tr_bind; [tstep|]; tstep. apply power_loop_tr; [assumption | exact I]. Qed.
Lemma var_substitute_tr S v u e : on_s S e -> tr S (h_var_substitute v u e) on_s.
Proof. intro X. unfold h_var_substitute. eapply tr_bind; [tstep|]; tstep. eapply tr_bind; [tstep|]; tstep. eapply tr_bind; [tstep|]; tstep. apply tr_ret. destruct (same_id v u && env_eqb (v_env v) (v_env u)); [assumption | exact I]. Qed.
Lemma mono_substitute_tr S m u e : on S m -> on_s S e -> tr S (h_mono_substitute m u e) on_s.
Proof.
  intros X Y. unfold h_mono_substitute. eapply tr_bind; [tstep|]; tstep. eapply tr_bind; [tstep|]; tstep. eapply tr_bind; [tstep|]; tstep. eapply tr_bind; [tstep|]; tstep. cs; [|TT]. unfold h_subst_loop.
  apply tr_for with (I := on_s); [|exact I]. intros S4 acc a U4 O4. use_sub. eapply tr_bind; [tstep|]; tstep. eapply tr_bind; [apply var_substitute_tr; assumption|]; tstep. eapply tr_bind; [tstep|]; tstep. eapply tr_bind; [apply power_tr; assumption|]; tstep. apply mul_tr; assumption.
Qed.
Lemma substitute_tr S s u e : on_s S s -> on_s S e -> tr S (h_substitute s u e) on_s.
Proof.
  destruct s as [k|v|m|p]; cbn [h_substitute on_s]; intros X Y; [apply tr_ret; exact I | apply var_substitute_tr, Y | apply mono_substitute_tr; assumption|].
  unfold h_poly_substitute. eapply tr_bind; [tstep|]; tstep. eapply tr_bind; [tstep|]; tstep. eapply tr_bind; [tstep|]; tstep. eapply tr_bind with (P := on_s); [|tstep; simp].
  apply tr_for with (I := on_s); [|exact I]. intros S3 acc a U3 O3. use_sub. eapply tr_bind; [tstep|]; tstep. eapply tr_bind; [apply mono_substitute_tr; assumption|]; tstep. apply plus_tr; assumption.
Qed.

(** ** DerivativeWrt *)
Definition drop_part (m : hmono) (k : nat) : M hmono :=
  st <~ forM (fun (st : slice * slice) i =>
               v <~ get_var (h_vars m) i ;;
               if Nat.eqb i k then ret st
               else
                 vs <~ append_vars (fst st) [v] ;;
                 x <~ get_int (h_exps m) i ;;
                 es <~ append_ints (snd st) [x] ;;
                 ret (vs, es))
             (indices (h_vars m)) (nil_slice, nil_slice) ;;
  ret (mkHM (h_coeff m) (snd st) (fst st)).
Lemma drop_builds m k : builds (drop_part m k).
Proof.
  apply qok_builds. intro h. unfold drop_part. eapply qok_bind with (P := fun h' (st : slice * slice) => fresh_i h h' (snd st) /\ fresh_v h h' (fst st)).
  - apply qok_for; [apply quiet_refl| |split; apply fresh_nil]. intros h1 st i Q1 (Fi & Fv).
    eapply qok_bind; [apply qok_reads with (P := fun h' _ => h' = h1); auto|]. intros v h2 _ ->. destruct (Nat.eqb i k); [apply qok_ret; auto|].
    eapply qok_bind; [apply (qok_append_vars h); [exact Q1 | exact Fv]|]. intros vs h3 Q3 F3. pose proof (quiet_trans _ _ _ Q1 Q3) as Q03. pose proof (fresh_i_quiet _ _ _ _ Q3 Fi) as F3i.
    eapply qok_bind; [apply qok_reads with (P := fun h' _ => h' = h3); auto|]. intros x h4 _ ->.
    eapply qok_bind; [apply (qok_append_ints h); [exact Q03 | exact F3i]|]. intros es h5 Q5 F5. apply qok_ret. split; [exact F5 | exact (fresh_v_quiet _ _ _ _ Q5 F3)].
  - intros st h1 Q1 F1. apply qok_ret. exact F1.
Qed.
Lemma mono_derivative_tr S m v : on S m -> tr S (h_mono_derivative m v) on_s.
Proof.
  intro X. unfold h_mono_derivative. T. destruct x1 as [k|]; [|T]. T. destruct (Z.eqb x1 1 && Nat.eqb (s_len (h_vars m)) 1); [T|].
  destruct (Z.eqb x1 1).
  - intros h TR. destruct (tr_builds _ _ (drop_builds m k) h TR) as (S' & U' & T' & P'). exists S'. split; [exact U'|]. revert T' P'. unfold drop_part, bindM.
    match goal with |- context [forM ?b ?l ?a h] => destruct (forM b l a h) as [[st|p] h1] end; cbn [fst snd ret]; intros T' P'; (split; [exact T'|]); [|discriminate].
    intros a E. injection E as <-. exact (P' _ eq_refl).
  - eapply tr_bind; [apply tr_quiet; intro; apply put_int_quiet|]. T.
Qed.
Lemma poly_derivative_tr S p v : tr S (h_poly_derivative p v) on_s.
Proof.
  apply tr_k. intros K K0. unfold h_poly_derivative. eapply tr_bind; [tstep|]; tstep. eapply tr_bind; [tstep|]; tstep. eapply tr_bind with (P := onp).
  - apply tr_for with (I := onp); [|assumption]. intros S3 acc a U3 O3. use_sub. eapply tr_bind; [tstep|]; tstep. eapply tr_bind; [tstep|]; tstep. cs; [T|]. eapply tr_bind; [apply mono_derivative_tr; assumption|]; tstep. cs; T. cs; T.
  - tstep. apply tr_ret. destruct (Nat.eqb (s_len x1) 0); [exact I | assumption].
Qed.
Lemma derivative_tr S s v : on_s S s -> tr S (h_derivative s v) on_s.
Proof.
  destruct s as [k|u|m|p]; cbn [h_derivative on_s]; intro X; [T | T | apply mono_derivative_tr, X | apply poly_derivative_tr].
Qed.

(** ** Histories *)
Lemma arg_tr S roots k : (forall s, In s roots -> on_s S s) -> tr S (reads (fun _ => arg roots k)) on_s.
Proof. intro H. apply tr_reads. intros h s _ E. unfold arg in E. destruct (nth_error roots k) as [x|] eqn:N; [|discriminate]. injection E as <-. exact (H x (nth_error_In _ _ N)). Qed.
Lemma exec_tr S roots i : (forall s, In s roots -> on_s S s) -> tr S (exec roots i) on_s.
Proof.
  intro H. assert (H' : forall S' s, sub S S' -> In s roots -> on_s S' s) by (intros S' s U X; exact (on_s_sub _ _ _ U (H s X))).
  destruct i; cbn [exec]; try (apply tr_ret; exact I).
  - T.
  - eapply tr_bind with (P := fun S' l => forall m, In m l -> on S' m); [apply tr_reads; intros h l _ E|].
    + revert l E. induction ms as [|k ms IH]; intros l E; cbn [mapM] in E; [injection E as <-; intros m []|].
      unfold arg in E at 1. destruct (nth_error roots k) as [s|] eqn:N; cbn [bind] in E; [|discriminate]. destruct (hmono_of s) as [m|] eqn:Hs; cbn [bind] in E; [|discriminate].
      destruct (mapM _ ms) as [l'|] eqn:Ms; cbn [bind] in E; [|discriminate]. injection E as <-. intros x [<-|Hx]; [|exact (IH l' eq_refl x Hx)].
      destruct s; try discriminate. injection Hs as <-. exact (H _ (nth_error_In _ _ N)).
    + tstep. T.
  - eapply tr_bind; [apply arg_tr, H|]. tstep. eapply tr_bind; [apply arg_tr; intros; apply H'; assumption|]. tstep. apply plus_tr; assumption.
  - eapply tr_bind; [apply arg_tr, H|]. tstep. eapply tr_bind; [apply arg_tr; intros; apply H'; assumption|]. tstep. apply minus_tr; assumption.
  - eapply tr_bind; [apply arg_tr, H|]. tstep. eapply tr_bind; [apply arg_tr; intros; apply H'; assumption|]. tstep. apply mul_tr; assumption.
  - eapply tr_bind; [apply arg_tr, H|]. tstep. apply power_tr; assumption.
  - eapply tr_bind; [apply arg_tr, H|]. tstep. apply simplified_tr; assumption.
  - eapply tr_bind; [apply arg_tr, H|]. tstep. eapply tr_bind; [apply arg_tr; intros; apply H'; assumption|]. tstep. apply substitute_tr; assumption.
  - eapply tr_bind; [apply arg_tr, H|]. tstep. apply derivative_tr; assumption.
Qed.
Definition sharing (h : heap) (roots : list hscalar) : Prop := exists S, tracked h S /\ forall s, In s roots -> on_s S s.
Lemma exec_sharing h roots i r h' : sharing h roots -> exec roots i h = (r, h') -> sharing h' (match r with Ok t => roots ++ [t] | Panic _ => roots end).
Proof.
  intros (S & T & O) E. destruct (exec_tr S roots i O h T) as (S' & U & T' & P). rewrite E in T', P. cbn [fst snd] in *. exists S'. split; [exact T'|].
  intros s X. destruct r as [t|p]; [|exact (on_s_sub _ _ _ U (O s X))]. apply in_app_or in X. destruct X as [X|[<-|[]]]; [exact (on_s_sub _ _ _ U (O s X)) | exact (P t eq_refl)].
Qed.
Lemma history_sharing l : forall h roots h' roots', sharing h roots -> history h roots l = (h', roots') -> sharing h' roots'.
Proof.
  induction l as [|i l IH]; intros h roots h' roots' S E; cbn [history] in E; [injection E as <- <-; exact S|].
  destruct (exec roots i h) as [r h1] eqn:X. exact (IH _ _ _ _ (exec_sharing _ _ _ _ _ S X) E).
Qed.
Lemma empty_sharing : sharing empty_heap [].
Proof.
  exists (mkLive (fun e v => e = nil_slice /\ v = nil_slice) (fun p => p = nil_slice)). split; [|intros s []]. split; cbn [lm lp].
  - intros e v (-> & ->). split; (split; cbn; lia).
  - intros a m H. unfold cells in H. cbn [hm empty_heap] in H. destruct a; destruct H.
  - intros e v e' v' a j (-> & ->) (-> & ->) _ _. auto.
  - intros e v e' v' a j (-> & ->) (-> & ->) (_ & H) _. cbn in H. lia.
  - auto.
  - intros p ->. split; cbn; lia.
  - auto.
Qed.
Lemma sharing_mono h S s m : tracked h S -> on_s S s -> In m (monomials h s) -> on S m.
Proof. intros T O X. destruct s as [k|v|x|p]; cbn [monomials] in X; [destruct X | destruct X | destruct X as [<-|[]]; exact O|]. exact (t_cells _ _ T _ _ (in_view _ _ _ X)). Qed.
Lemma sharing_separate h roots : sharing h roots -> separate h roots.
Proof. intros (S & T & O) s t m m' a j Hs Ht Hm Hm' U E. exact (t_vars _ _ T _ _ _ _ a j (sharing_mono _ _ _ _ T (O s Hs) Hm) (sharing_mono _ _ _ _ T (O t Ht) Hm') U E). Qed.
Lemma sharing_legal h roots : sharing h roots -> all_legal h roots.
Proof.
  intros (S & T & O) s Hs. split.
  - intros p ->. exact (t_polys _ _ T _ (O _ Hs)).
  - intros m Hm. exact (t_in _ _ T _ _ (sharing_mono _ _ _ _ T (O s Hs) Hm)).
Qed.
(** monomials that share a cell have the same factors *)
Lemma sharing_same h roots s t m m' : sharing h roots -> In s roots -> In t roots -> In m (monomials h s) -> In m' (monomials h t) -> share_exponents m m' ->
  h_exps m = h_exps m' /\ h_vars m = h_vars m'.
Proof.
  intros (S & T & O) Hs Ht Hm Hm' (a & j & E & E'). exact (t_exps _ _ T _ _ _ _ a j (sharing_mono _ _ _ _ T (O s Hs) Hm) (sharing_mono _ _ _ _ T (O t Ht) Hm') E E').
Qed.
End Track.
