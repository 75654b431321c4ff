(** * Proofs about copies *)

From Coq Require Import ZArith NArith Bool List Lia.
From Verif Require Import Num Syntax ModelScalar Spec ModelHeap SpecHeap HeapMem SpecCopy HeapRef HeapProofs HeapEffect.
Import ListNotations.
Local Open Scope num_scope.

Section Mem.
Context {A : Type}.
(** a slice of the memory before an allocation *)
Definition before (n : nat) (s : slice) : Prop := s_len s <= s_cap s /\ (0 < s_cap s -> s_arr s < n).
Lemma before_of (m : mem A) s : in_memory m s -> before (length m) s.
Proof. intros [H1 H2]. split; [exact H1|]. intro H. apply H2. exact H. Qed.
Lemma view_outside (m m' : mem A) s t : same_outside t m m' -> (forall a j, elements s a j -> ~ elements t a j /\ ~ unused t a j) -> view m' s = view m s.
Proof. intros H D. apply view_same. intros j Hj. destruct (D _ _ Hj) as [D1 D2]. exact (H _ _ D1 D2). Qed.
Lemma old_not_new n (s t : slice) a j : before n s -> n <= s_arr t -> elements s a j -> ~ elements t a j /\ ~ unused t a j.
Proof. intros [B1 B2] Hn [-> E]. split; intros [E1 _]; assert (s_arr s < n) by (apply B2; lia); lia. Qed.
Lemma new_not_old n (s t : slice) a j : before n t -> n <= s_arr s -> elements s a j -> ~ elements t a j /\ ~ unused t a j.
Proof. intros [B1 B2] Hn [-> E]. split; intros [E1 E2]; assert (s_arr t < n) by (apply B2; lia); lia. Qed.
Lemma view_alloc_old (m : mem A) l s : before (length m) s -> view (m ++ [l]) s = view m s.
Proof.
  intros [B1 B2]. destruct (Nat.eq_dec (s_cap s) 0) as [E|E]; [rewrite !view_zero by lia; reflexivity|]. unfold view. rewrite cells_app. destruct (Nat.ltb_spec (s_arr s) (length m)) as [_|X]; [reflexivity|]. specialize (B2 ltac:(lia)). lia.
Qed.
End Mem.

Section Copy.
Context {NN : Num} {RT : Runtime}.
Lemma copy_run m h : hmono_copy m h = (Ok (mkHM (h_coeff m) (mkSlice (length (hi h)) 0 (length (view (hi h) (h_exps m))) (length (view (hi h) (h_exps m)))) (mkSlice (length (hv h)) 0 (length (view (hv h) (h_vars m))) (length (view (hv h) (h_vars m))))),
  mkHeap (hi h ++ [view (hi h) (h_exps m)]) (hv h ++ [view (hv h) (h_vars m)]) (hm h) (hp h)).
Proof. reflexivity. Qed.
Lemma rd_old h h' s : legal h s -> hm h' = hm h -> (forall t, before (length (hi h)) t -> view (hi h') t = view (hi h) t) -> (forall t, before (length (hv h)) t -> view (hv h') t = view (hv h) t) -> rd h' s = rd h s.
Proof.
  intros [L1 L2] Em Ei Ev. assert (M : forall m, In m (monomials h s) -> rd_mono h' m = rd_mono h m).
  { intros m Hm. destruct (L2 m Hm) as [Q1 Q2]. unfold rd_mono. rewrite Ei, Ev by (eapply before_of; eassumption). reflexivity. }
  destruct s as [k|v|m|p]; cbn [rd]; try reflexivity; [rewrite M; [reflexivity | left; reflexivity]|]. unfold rd_poly. rewrite Em. f_equal. apply map_ext_in. exact M.
Qed.
Lemma monomial_copy h m : legal_mono h m -> exists c h1, hmono_copy m h = (Ok c, h1) /\ rd_mono h1 c = rd_mono h m /\ (forall s, legal h s -> rd h1 s = rd h s)
  /\ (forall t h2, legal_mono h t -> written_through h1 h2 t -> rd_mono h2 c = rd_mono h m) /\ (forall h2 s, written_through h1 h2 c -> legal h s -> rd h2 s = rd h s).
Proof.
  intros [L1 L2]. rewrite copy_run. eexists _, _. split; [reflexivity|].
  assert (R : forall h2, view (hi h2) (mkSlice (length (hi h)) 0 (length (view (hi h) (h_exps m))) (length (view (hi h) (h_exps m)))) = view (hi h) (h_exps m) ->
                         view (hv h2) (mkSlice (length (hv h)) 0 (length (view (hv h) (h_vars m))) (length (view (hv h) (h_vars m)))) = view (hv h) (h_vars m) ->
     rd_mono h2 (mkHM (h_coeff m) (mkSlice (length (hi h)) 0 (length (view (hi h) (h_exps m))) (length (view (hi h) (h_exps m)))) (mkSlice (length (hv h)) 0 (length (view (hv h) (h_vars m))) (length (view (hv h) (h_vars m))))) = rd_mono h m).
  { intros h2 E1 E2. unfold rd_mono. cbn [h_coeff h_exps h_vars]. rewrite E1, E2. reflexivity. }
  assert (K : forall s, legal h s -> rd (mkHeap (hi h ++ [view (hi h) (h_exps m)]) (hv h ++ [view (hv h) (h_vars m)]) (hm h) (hp h)) s = rd h s) by (intros s Ls; apply rd_old; [exact Ls | reflexivity | intros t; apply view_alloc_old | intros t; apply view_alloc_old]).
  split; [apply R; apply alloc_view|]. split; [exact K|]. split.
  - intros t h2 [T1 T2] (W1 & W2 & _). cbn [hi hv h_exps h_vars] in W1, W2. apply R.
    + rewrite (view_outside _ _ _ _ W1); [apply alloc_view|]. intros a j. apply (new_not_old (length (hi h))); [apply before_of; exact T1 | apply le_n].
    + rewrite (view_outside _ _ _ _ W2); [apply alloc_view|]. intros a j. apply (new_not_old (length (hv h))); [apply before_of; exact T2 | apply le_n].
  - intros h2 s (W1 & W2 & W3 & _) Ls. cbn [hi hv hm h_exps h_vars] in W1, W2, W3. apply rd_old; [exact Ls | exact W3 | |]; intros t Ht.
    + rewrite (view_outside _ _ _ _ W1); [apply view_alloc_old; exact Ht|]. intros a j. apply (old_not_new (length (hi h))); [exact Ht | apply le_n].
    + rewrite (view_outside _ _ _ _ W2); [apply view_alloc_old; exact Ht|]. intros a j. apply (old_not_new (length (hv h))); [exact Ht | apply le_n].
Qed.
Lemma polynomial_copy h p : legal h (HP p) -> exists q h1, hpoly_copy p h = (Ok q, h1) /\ rd_poly h1 q = rd_poly h p /\ (forall s, legal h s -> rd h1 s = rd h s)
  /\ (forall t h2, legal h (HP t) -> terms_replaced h1 h2 t -> rd_poly h2 q = rd_poly h p) /\ (forall h2 s, terms_replaced h1 h2 q -> legal h s -> rd h2 s = rd h s).
Proof.
  intros LP. unfold hpoly_copy, bindM, reads, make_monos. cbn [alloc]. eexists _, _. split; [reflexivity|].
  assert (RM : forall h2 l, hi h2 = hi h -> hv h2 = hv h -> map (rd_mono h2) l = map (rd_mono h) l) by (intros h2 l E1 E2; apply map_ext; intro m; unfold rd_mono; rewrite E1, E2; reflexivity).
  assert (RS : forall h2 s, legal h s -> hi h2 = hi h -> hv h2 = hv h -> (forall t, before (length (hm h)) t -> view (hm h2) t = view (hm h) t) -> rd h2 s = rd h s).
  { intros h2 s Ls E1 E2 E3. destruct s as [k|v|m|t]; cbn [rd]; try reflexivity; [unfold rd_mono; rewrite E1, E2; reflexivity|]. unfold rd_poly. rewrite E3, RM by (try assumption; apply before_of; apply Ls; reflexivity). reflexivity. }
  split; [unfold rd_poly; cbn [with_monos hm]; rewrite alloc_view; apply RM; reflexivity|].
  split; [intros s Ls; apply RS; [exact Ls | reflexivity | reflexivity | intros t Ht; apply view_alloc_old; exact Ht]|]. split.
  - intros t h2 Lt (W1 & W2 & W3 & _). cbn [with_monos hm hi hv] in *. unfold rd_poly. rewrite (view_outside _ _ _ _ W1), alloc_view; [apply RM; assumption|].
    intros a j. apply (new_not_old (length (hm h))); [apply before_of; apply Lt; reflexivity | apply le_n].
  - intros h2 s (W1 & W2 & W3 & _) Ls. cbn [with_monos hm hi hv] in *. apply RS; [exact Ls | exact W2 | exact W3|]. intros t Ht. rewrite (view_outside _ _ _ _ W1); [apply view_alloc_old; exact Ht|].
    intros a j. apply (old_not_new (length (hm h))); [exact Ht | apply le_n].
Qed.

(** copies can be used together with all the other expressions *)
Lemma copy_separate h roots m c h1 : all_legal h roots -> separate h roots -> legal_mono h m -> hmono_copy m h = (Ok c, h1) ->
  all_legal h1 (roots ++ [HM c]) /\ separate h1 (roots ++ [HM c]).
Proof.
  intros L S [L1 L2] E. rewrite copy_run in E. injection E as <- <-.
  assert (Gi : grown (hi h) (hi h ++ [view (hi h) (h_exps m)])) by (split; [rewrite app_length; lia | intros a Ha; apply cells_app_old; exact Ha]).
  assert (Gv : grown (hv h) (hv h ++ [view (hv h) (h_vars m)])) by (split; [rewrite app_length; lia | intros a Ha; apply cells_app_old; exact Ha]).
  assert (Mo : forall s x, In s roots -> In x (monomials (mkHeap (hi h ++ [view (hi h) (h_exps m)]) (hv h ++ [view (hv h) (h_vars m)]) (hm h) (hp h)) s) -> In x (monomials h s)) by (intros [ | | | ] x _ H; exact H).
  split.
  - intros s Hs. apply in_app_or in Hs. destruct Hs as [Hs|[<-|[]]].
    + destruct (L s Hs) as [A1 A2]. split; [exact A1|]. intros x Hx. destruct (A2 x (Mo s x Hs Hx)) as [X1 X2]. split; [eapply grown_inb; [exact Gi | exact X1] | eapply grown_inb; [exact Gv | exact X2]].
    + split; [intros q X; discriminate X|]. intros x [<-|[]]. split; apply alloc_inb.
  - intros s t x y a j Hs Ht Hx Hy Hu He. apply in_app_or in Hs. apply in_app_or in Ht. destruct Hs as [Hs|[<-|[]]].
    + destruct Ht as [Ht|[<-|[]]]; [exact (S s t x y a j Hs Ht (Mo _ _ Hs Hx) (Mo _ _ Ht Hy) Hu He)|]. destruct Hy as [<-|[]]. cbn [h_vars] in He. destruct He as [He _]. cbn [s_arr] in He. subst a.
      destruct (L s Hs) as [_ A2]. destruct (A2 x (Mo s x Hs Hx)) as [_ X2]. pose proof (spare_arr _ _ _ _ X2 Hu). lia.
    + destruct Hx as [<-|[]]. destruct Hu as [_ Hu]. cbn in Hu. lia.
Qed.
Lemma poly_copy_separate h roots p q h1 : all_legal h roots -> separate h roots -> In (HP p) roots -> hpoly_copy p h = (Ok q, h1) ->
  all_legal h1 (roots ++ [HP q]) /\ separate h1 (roots ++ [HP q]).
Proof.
  intros L S Hp E. unfold hpoly_copy, bindM, reads, make_monos in E. cbn [alloc] in E. injection E as <- <-.
  assert (G : grown (hm h) (hm h ++ [view (hm h) p])) by (split; [rewrite app_length; lia | intros a Ha; apply cells_app_old; exact Ha]).
  assert (Mo : forall s x, In s roots -> In x (monomials (with_monos h (hm h ++ [view (hm h) p])) s) -> In x (monomials h s)).
  { intros [ | | |t] x Hs H; try exact H. cbn [monomials with_monos hm] in *. destruct (L _ Hs) as [A1 _]. rewrite (grown_view _ _ _ G (A1 t eq_refl)) in H. exact H. }
  assert (Mq : forall x, In x (monomials (with_monos h (hm h ++ [view (hm h) p])) (HP (mkSlice (length (hm h)) 0 (length (view (hm h) p)) (length (view (hm h) p))))) -> In x (monomials h (HP p))).
  { intros x. cbn [monomials with_monos hm]. rewrite alloc_view. auto. }
  assert (Any : forall s, In s (roots ++ [HP (mkSlice (length (hm h)) 0 (length (view (hm h) p)) (length (view (hm h) p)))]) -> exists s', In s' roots /\ forall x, In x (monomials (with_monos h (hm h ++ [view (hm h) p])) s) -> In x (monomials h s')).
  { intros s Hs. apply in_app_or in Hs. destruct Hs as [Hs|[<-|[]]]; [exists s; split; [exact Hs | intros x; apply Mo; exact Hs] | exists (HP p); split; [exact Hp | exact Mq]]. }
  split.
  - intros s Hs. split.
    + intros t ->. apply in_app_or in Hs. destruct Hs as [Hs|[X|[]]]; [|injection X as <-; apply alloc_inb]. destruct (L _ Hs) as [A1 _]. eapply grown_inb; [exact G | apply A1; reflexivity].
    + intros x Hx. destruct (Any s Hs) as (s' & Hs' & M). destruct (L s' Hs') as [_ A2]. apply A2. apply M. exact Hx.
  - intros s t x y a j Hs Ht Hx Hy Hu He. destruct (Any s Hs) as (s' & Hs' & Ms), (Any t Ht) as (t' & Ht' & Mt). exact (S s' t' x y a j Hs' Ht' (Ms x Hx) (Mt y Hy) Hu He).
Qed.

(** differentiating a copy *)
Lemma copy_derivative h m c h1 v : legal_mono h m -> hmono_copy m h = (Ok c, h1) ->
  exists r h2, h_derivative (HM c) v h1 = (r, h2) /\ as_value h2 r = scalar_derivative (SM (rd_mono h m)) v /\ (forall t, legal h t -> rd h2 t = rd h t).
Proof.
  intros L E. destruct (monomial_copy h m L) as (c' & h1' & E' & R & K & _ & _). rewrite E in E'. injection E' as <- <-.
  destruct (copy_separate h [] m c h1) as [LC _]; [intros s [] | intros s t x y a j [] | exact L | exact E|].
  assert (O : own_exponents h1 v (HM c)). { intros i j x y N Hi Hj. exfalso. destruct i as [|[|i]], j as [|[|j]]; cbn in Hi, Hj; try discriminate; apply N; reflexivity. }
  destruct (derivative_anywhere h1 (HM c) v (LC _ (or_introl eq_refl)) O) as (r & h2 & D & V & F & _). exists r, h2. split; [exact D|]. split; [rewrite V; cbn [rd]; rewrite R; reflexivity|].
  intros t Lt. rewrite F; [apply K; exact Lt | |].
  - pose proof (copy_separate h [t] m c h1) as Q. destruct Lt as [T1 T2]. rewrite copy_run in E. injection E as Ec Eh. rewrite <- Eh.
    split; [exact T1|]. intros x Hx. assert (Hx' : In x (monomials h t)) by (destruct t; exact Hx). destruct (T2 x Hx') as [X1 X2].
    split; (eapply grown_inb; [|eassumption]); cbn [hi hv]; (split; [rewrite app_length; lia | intros a Ha; apply cells_app_old; exact Ha]).
  - intros x y Hx [<-|[]] _ (a & j & S1 & S2). rewrite copy_run in E. injection E as Ec Eh. assert (Hx' : In x (monomials h t)) by (rewrite <- Eh in Hx; destruct t; exact Hx). destruct Lt as [_ T2]. destruct (T2 x Hx') as [X1 _].
    pose proof (vis_arr _ _ _ _ X1 S1) as A. rewrite <- Ec in S2. destruct S2 as [S2 _]. cbn in S2. lia.
Qed.

(** successive derivatives *)
Lemma successive vs : forall h s, legal h s -> (forall v, own_exponents h v s) ->
  exists r h', h_derivatives s vs h = (r, h') /\ as_value h' r = derivatives (rd h s) vs /\ (forall t, legal h t -> no_shared_exponents h s t -> rd h' t = rd h t).
Proof.
  induction vs as [|v vs IH]; intros h s L O.
  - exists (Ok s), h. split; [reflexivity|]. split; [reflexivity|]. reflexivity.
  - destruct (derivative_anywhere h s v L (O v)) as (r & h1 & D & V & F & LL & Res & _). cbn [h_derivatives derivatives]. unfold bindM. rewrite D. rewrite <- V.
    assert (F' : forall t, legal h t -> no_shared_exponents h s t -> rd h1 t = rd h t). { intros t Lt N. apply F; [exact Lt|]. intros x y Hx Hy _. exact (N x y Hx Hy). }
    destruct r as [d|e]; cbn [as_value bind]; [|exists (Panic e), h1; auto].
    destruct (Res d eq_refl) as (Ld & Od & Sd). destruct (IH h1 d Ld Od) as (r2 & h2 & D2 & V2 & F2). exists r2, h2. split; [exact D2|]. split; [exact V2|].
    intros t Lt N. rewrite F2; [apply F'; assumption | apply LL; exact Lt|]. intros x y Hx Hy. exact (Sd t Lt N x y Hx Hy).
Qed.
End Copy.
