(** * Programs that call DerivativeWrt on any expression *)

From Coq Require Import ZArith NArith Bool List Lia.
From Verif Require Import Num Syntax ModelScalar Spec ModelHeap SpecHeap SpecCopy SpecProgram HeapMem HeapProofs HeapEffect HeapTrack.
Import ListNotations.

Section Program.
Context {NN : Num} {RT : Runtime}.

Lemma look_alike_same (m m' : Monomial) : m_vars m = m_vars m' -> m_exps m = m_exps m' -> look_alike m m' = true.
Proof. intros E1 E2. unfold look_alike. rewrite E1, E2. destruct (list_eq_dec N.eq_dec _ _) as [_|N]; [|contradiction]. destruct (list_eq_dec Z.eq_dec _ _) as [_|N]; [reflexivity | contradiction]. Qed.
Lemma look_alike_sym (m m' : Monomial) : look_alike m m' = true -> look_alike m' m = true.
Proof.
  unfold look_alike. destruct (list_eq_dec N.eq_dec (map v_id (m_vars m)) _) as [->|]; [|discriminate]. destruct (list_eq_dec Z.eq_dec (m_exps m) _) as [->|]; [|discriminate].
  intros _. destruct (list_eq_dec N.eq_dec _ _) as [_|N]; [|contradiction]. destruct (list_eq_dec Z.eq_dec _ _) as [_|N]; [reflexivity | contradiction].
Qed.
Lemma in_combine_nth {A B} (l : list A) : forall (l' : list B) a b, In (a, b) (combine l l') -> exists i, nth_error l i = Some a /\ nth_error l' i = Some b.
Proof.
  induction l as [|x l IH]; intros [|y l'] a b H; try destruct H as [H|H]; try contradiction; [injection H as -> ->; exists 0; split; reflexivity|].
  destruct (IH _ _ _ H) as (i & H1 & H2). exists (S i). split; assumption.
Qed.
Lemma nth_in_combine {A B} (l : list A) : forall (l' : list B) a b i, nth_error l i = Some a -> nth_error l' i = Some b -> In (a, b) (combine l l').
Proof.
  induction l as [|x l IH]; intros [|y l'] a b [|i] H1 H2; try discriminate; cbn in *; [left; congruence | right; exact (IH _ _ _ _ H1 H2)].
Qed.
Lemma nonlinear_spec v m : nonlinear v m = false <-> at_most_linear_in v (SM m).
Proof.
  unfold nonlinear. split.
  - intros H x i u e [<-|[]] H1 Hid H2. destruct (Z.eqb_spec e 1) as [E|N]; [exact E|]. exfalso. apply not_true_iff_false in H. apply H. apply existsb_exists. exists (u, e).
    split; [exact (nth_in_combine _ _ _ _ _ H1 H2)|]. cbn [fst snd]. unfold same_id. rewrite Hid, N.eqb_refl. destruct (Z.eqb_spec e 1); [contradiction | reflexivity].
  - intro H. apply not_true_iff_false. intro X. apply existsb_exists in X. destruct X as ((u & e) & Hin & T). cbn [fst snd] in T. apply andb_true_iff in T. destruct T as (T1 & T2).
    destruct (in_combine_nth _ _ _ _ Hin) as (i & H1 & H2). rewrite (H m i u e (or_introl eq_refl) H1 (proj1 (N.eqb_eq _ _) T1) H2) in T2. discriminate.
Qed.
Lemma nonlinear_true v m : ~ at_most_linear_in v (SM m) -> nonlinear v m = true.
Proof. intro H. destruct (nonlinear v m) eqn:E; [reflexivity|]. exfalso. apply H, nonlinear_spec, E. Qed.
Lemma monomials_rd h s : monomials_of (rd h s) = map (rd_mono h) (monomials h s).
Proof. destruct s; reflexivity. Qed.

Lemma repeated_nth v l : repeated v l = false -> forall i j m m', (i < j)%nat -> nth_error l i = Some m -> nth_error l j = Some m' -> nonlinear v m = true -> look_alike m m' = true -> False.
Proof.
  induction l as [|x l IH]; intros H i j m m' L Hi Hj N A; [destruct i; discriminate|]. cbn [repeated] in H. apply orb_false_iff in H. destruct H as (H1 & H2).
  destruct j as [|j]; [lia|]. destruct i as [|i]; cbn [nth_error] in Hi, Hj; [|exact (IH H2 i j m m' ltac:(lia) Hi Hj N A)].
  injection Hi as ->. rewrite N in H1. cbn [andb] in H1. apply not_true_iff_false in H1. apply H1. apply existsb_exists. exists m'. split; [exact (nth_error_In _ _ Hj) | exact A].
Qed.
Lemma alike_nonlinear v m m' : m_vars m = m_vars m' -> m_exps m = m_exps m' -> nonlinear v m = nonlinear v m'.
Proof. intros E1 E2. unfold nonlinear. rewrite E1, E2. reflexivity. Qed.

Lemma sharing_rd h roots s t m m' : sharing h roots -> In s roots -> In t roots -> In m (monomials h s) -> In m' (monomials h t) -> share_exponents m m' ->
  m_vars (rd_mono h m) = m_vars (rd_mono h m') /\ m_exps (rd_mono h m) = m_exps (rd_mono h m').
Proof. intros S Hs Ht Hm Hm' X. destruct (sharing_same _ _ _ _ _ _ S Hs Ht Hm Hm' X) as (E1 & E2). unfold rd_mono. cbn [m_vars m_exps]. rewrite E1, E2. split; reflexivity. Qed.

Lemma not_repeated_own h roots s v : sharing h roots -> In s roots -> repeated v (monomials_of (rd h s)) = false -> own_exponents h v s.
Proof.
  intros S Hs R i j m m' N Hi Hj NL X. rewrite monomials_rd in R. destruct (sharing_rd _ _ _ _ _ _ S Hs Hs (nth_error_In _ _ Hi) (nth_error_In _ _ Hj) X) as (E1 & E2).
  pose proof (nonlinear_true _ _ NL) as T'. assert (T : nonlinear v (rd_mono h m) = true) by (rewrite (alike_nonlinear v _ _ E1 E2); exact T').
  assert (Hi' : nth_error (map (rd_mono h) (monomials h s)) i = Some (rd_mono h m)) by (apply map_nth_error; exact Hi).
  assert (Hj' : nth_error (map (rd_mono h) (monomials h s)) j = Some (rd_mono h m')) by (apply map_nth_error; exact Hj).
  destruct (Nat.lt_total i j) as [L|[L|L]]; [|contradiction|].
  - exact (repeated_nth _ _ R i j _ _ L Hi' Hj' T (look_alike_same _ _ E1 E2)).
  - exact (repeated_nth _ _ R j i _ _ L Hj' Hi' T' (look_alike_same _ _ (eq_sym E1) (eq_sym E2))).
Qed.
Lemma safe_out_of_reach h roots s t v : sharing h roots -> In s roots -> In t roots -> endangered v (rd h s) (rd h t) = false -> out_of_reach h v s t.
Proof.
  intros S Hs Ht R m m' Hm Hm' NL X. destruct (sharing_rd _ _ _ _ _ _ S Ht Hs Hm Hm' X) as (E1 & E2). apply not_true_iff_false in R. apply R. unfold endangered. rewrite !monomials_rd.
  apply existsb_exists. exists (rd_mono h m). split; [apply in_map; exact Hm|]. apply existsb_exists. exists (rd_mono h m'). split; [apply in_map; exact Hm'|].
  rewrite (nonlinear_true _ _ NL), (look_alike_same _ _ E1 E2). reflexivity.
Qed.

(** the values known agree with the memory *)
Definition agrees (h : heap) (s : hscalar) (o : option scalar) : Prop := forall x, o = Some x -> rd h s = x.
Lemma agrees_nth h roots vals k : Forall2 (agrees h) roots vals -> given_up vals k = false -> nth_error (recall vals) k = nth_error (map (rd h) roots) k.
Proof.
  intro F. revert k. induction F as [|s o roots vals A F IH]; intros [|k] G; try reflexivity; cbn [recall map nth_error] in *.
  - destruct o as [x|]; [|discriminate]. rewrite (A x eq_refl). reflexivity.
  - apply IH. exact G.
Qed.
Lemma mapM_ext {A B} (f g : A -> res B) l : (forall a, In a l -> f a = g a) -> mapM f l = mapM g l.
Proof. induction l as [|a l IH]; intro H; cbn [mapM]; [reflexivity|]. rewrite (H a) by (left; reflexivity). destruct (g a); cbn [bind]; [|reflexivity]. rewrite IH by (intros; apply H; right; assumption). reflexivity. Qed.
Lemma exec_value_local vals vals' i : (forall k, In k (operands i) -> nth_error vals k = nth_error vals' k) -> exec_value vals i = exec_value vals' i.
Proof.
  intro H. destruct i; cbn [exec_value operands] in *; unfold arg; try reflexivity;
    repeat match goal with |- context [nth_error vals ?k] => rewrite (H k) by (cbn; auto) end; try reflexivity.
  rewrite (mapM_ext _ (fun k => s <- match nth_error vals' k with Some a => Ok a | None => Panic POther end ;; mono_of s)); [reflexivity|].
  intros k Hk. cbn beta. rewrite (H k Hk). reflexivity.
Qed.
Lemma known_operands h roots vals i : Forall2 (agrees h) roots vals -> existsb (given_up vals) (operands i) = false -> exec_value (recall vals) i = exec_value (map (rd h) roots) i.
Proof.
  intros F G. apply exec_value_local. intros k Hk. apply (agrees_nth _ _ _ _ F). apply not_true_iff_false. intro X. apply not_true_iff_false in G. apply G. apply existsb_exists. exists k. auto.
Qed.
Lemma agrees_kept h h' roots vals : (forall s, In s roots -> rd h' s = rd h s) -> Forall2 (agrees h) roots vals -> Forall2 (agrees h') roots vals.
Proof.
  intros K F. induction F as [|s o roots vals A F IH]; constructor; [|apply IH; intros; apply K; right; assumption].
  intros x E. rewrite K by (left; reflexivity). exact (A x E).
Qed.
Lemma agrees_nth_some h roots vals k s o : Forall2 (agrees h) roots vals -> nth_error roots k = Some s -> nth_error vals k = Some o -> agrees h s o.
Proof. intro F. revert k. induction F as [|s' o' roots vals A F IH]; intros [|k] H1 H2; try discriminate; [injection H1 as ->; injection H2 as ->; exact A | exact (IH k H1 H2)]. Qed.

Lemma program_step h roots vals i r h' : all_legal h roots -> sharing h roots -> Forall2 (agrees h) roots vals -> careful vals i = true -> exec roots i h = (r, h') ->
  as_value h' r = exec_value (recall vals) i /\ Forall2 (agrees h') roots (keep vals i) /\ all_legal h' (match r with Ok t => roots ++ [t] | Panic _ => roots end).
Proof.
  intros L S F C E. unfold careful in C. apply andb_true_iff in C. destruct C as (C1 & C2). apply negb_true_iff in C1. pose proof (known_operands h roots vals i F C1) as V.
  assert (Easy : harmless (map (rd h) roots) i -> as_value h' r = exec_value (recall vals) i /\ Forall2 (agrees h') roots vals /\ all_legal h' (match r with Ok t => roots ++ [t] | Panic _ => roots end)).
  { intro Ha. destruct (call_spec h roots i r h' L (sharing_separate _ _ S) Ha E) as (K & V' & L' & _). split; [rewrite V; exact V'|]. split; [exact (agrees_kept _ _ _ _ K F) | exact L']. }
  destruct i; try exact (Easy I). clear Easy. cbn [keep exec_value exec operands existsb] in *. rewrite orb_false_r in C1. rename i into k.
  destruct (nth_error roots k) as [s|] eqn:Hs.
  - destruct (nth_error vals k) as [[x|]|] eqn:Hv; [| | exfalso].
    + pose proof (agrees_nth_some _ _ _ _ _ _ F Hs Hv x eq_refl) as Ex. apply negb_true_iff in C2. pose proof (nth_error_In _ _ Hs) as Is. rewrite <- Ex in C2.
      destruct (derivative_anywhere h s v (L s Is) (not_repeated_own _ _ _ _ S Is C2)) as (r0 & h0 & D & Vd & Fr & LL & Res & _).
      unfold arg in E. unfold bindM, reads in E. rewrite Hs in E. rewrite D in E. injection E as <- <-. split; [|split].
      * rewrite V. unfold arg. rewrite nth_error_map, Hs. cbn [option_map bind]. exact Vd.
      * assert (G : forall t, In t roots -> endangered v (rd h s) (rd h t) = false -> rd h0 t = rd h t) by (intros t It N; apply Fr; [exact (L t It) | exact (safe_out_of_reach _ _ _ _ _ S Is It N)]).
        clear - F G Ex. induction F as [|t o roots vals A F IH]; cbn [map]; constructor; [|apply IH; intros; apply G; [right; assumption | assumption]].
        intros y Ey. destruct o as [z|]; cbn [give_up] in Ey; [|discriminate]. destruct (endangered v x z) eqn:N; [discriminate|]. injection Ey as <-.
        rewrite G; [exact (A z eq_refl) | left; reflexivity|]. rewrite (A z eq_refl), Ex. exact N.
      * intros t It. destruct r0 as [d|p]; [|exact (LL t (L t It))]. apply in_app_or in It. destruct It as [It|[<-|[]]]; [exact (LL t (L t It)) | apply (Res d eq_refl)].
    + exfalso. unfold given_up in C1. rewrite Hv in C1. discriminate.
    + clear - F Hs Hv. revert k Hs Hv. induction F as [|t o roots vals A F IH]; intros [|k] Hs Hv; try discriminate. exact (IH k Hs Hv).
  - assert (Hv : nth_error vals k = None) by (clear - F Hs; revert k Hs; induction F as [|t o roots vals A F IH]; intros [|k] Hs; try discriminate; [reflexivity | reflexivity | exact (IH k Hs)]).
    unfold arg in E. unfold bindM, reads in E. rewrite Hs in E. injection E as <- <-. rewrite Hv. split; [|split; [exact F | exact L]]. rewrite V. unfold arg. rewrite nth_error_map, Hs. reflexivity.
Qed.

Lemma program_run l : forall h roots vals h' roots' vals', all_legal h roots -> sharing h roots -> Forall2 (agrees h) roots vals -> history h roots l = (h', roots') -> program_values vals l = Some vals' ->
  Forall2 (agrees h') roots' vals' /\ all_legal h' roots' /\ sharing h' roots'.
Proof.
  induction l as [|i l IH]; intros h roots vals h' roots' vals' L S F E P; cbn [history program_values] in E, P; [injection E as <- <-; injection P as <-; auto|].
  destruct (careful vals i) eqn:C; [|discriminate]. destruct (exec roots i h) as [r h1] eqn:X. destruct (program_step _ _ _ _ _ _ L S F C X) as (V & F1 & L1).
  pose proof (exec_sharing _ _ _ _ _ S X) as S1. refine (IH _ _ _ _ _ _ L1 S1 _ E P). rewrite <- V. destruct r as [t|p]; cbn [as_value]; [|exact F1].
  apply Forall2_app; [exact F1|]. constructor; [|constructor]. intros x Y. injection Y as <-. reflexivity.
Qed.
Theorem program_correct l h roots vals : program_values [] l = Some vals -> history empty_heap [] l = (h, roots) -> Forall2 (fun s o => forall x, o = Some x -> rd h s = x) roots vals.
Proof. intros P E. exact (proj1 (program_run l _ _ [] _ _ _ (proj1 empty_legal) empty_sharing (Forall2_nil _) E P)). Qed.

(** programs without DerivativeWrt, and those of [harmless_history], give nothing up *)
Lemma recall_some vals : recall (map Some vals) = vals.
Proof. unfold recall. rewrite map_map. apply map_id. Qed.
Lemma given_up_some vals k : given_up (map Some vals) k = false.
Proof. unfold given_up. rewrite nth_error_map. destruct (nth_error vals k); reflexivity. Qed.
Lemma none_given_up vals l : existsb (given_up (map Some vals)) l = false.
Proof. apply not_true_iff_false. intro X. apply existsb_exists in X. destruct X as (k & _ & X). rewrite given_up_some in X. discriminate. Qed.
Lemma linear_monomials v s m : at_most_linear_in v s -> In m (monomials_of s) -> nonlinear v m = false.
Proof. intros H Hm. apply nonlinear_spec. intros x i u e [<-|[]]. apply H. destruct s; cbn [monomials_of terms] in *; try contradiction; assumption. Qed.
Lemma linear_repeated v l : (forall m, In m l -> nonlinear v m = false) -> repeated v l = false.
Proof. induction l as [|m l IH]; intro H; cbn [repeated]; [reflexivity|]. rewrite H by (left; reflexivity). cbn [andb orb]. apply IH. intros; apply H; right; assumption. Qed.
Lemma linear_endangered v s t : (forall m, In m (monomials_of s) -> nonlinear v m = false) -> endangered v s t = false.
Proof.
  intro H. apply not_true_iff_false. intro X. unfold endangered in X. apply existsb_exists in X. destruct X as (m & _ & X). apply existsb_exists in X. destruct X as (m' & Hm' & X).
  rewrite (H m' Hm') in X. discriminate.
Qed.
Theorem harmless_program l : forall vals, harmless_history vals l -> program_values (map Some vals) l = Some (map Some (history_values vals l)).
Proof.
  induction l as [|i l IH]; intros vals H; cbn [harmless_history program_values history_values] in *; [reflexivity|]. destruct H as (Hi & Hl).
  assert (C : careful (map Some vals) i = true).
  { unfold careful. rewrite none_given_up. cbn [negb andb]. destruct i; try reflexivity. rewrite nth_error_map. cbn [harmless] in Hi. destruct (nth_error vals i) as [s|]; cbn [option_map]; [|reflexivity].
    apply negb_true_iff, linear_repeated. intros m. apply linear_monomials, Hi. reflexivity. }
  assert (K : keep (map Some vals) i = map Some vals).
  { destruct i; try reflexivity. cbn [keep harmless] in *. rewrite nth_error_map. destruct (nth_error vals i) as [s|]; cbn [option_map]; [|reflexivity].
    rewrite map_map. apply map_ext. intro t. cbn [give_up]. rewrite linear_endangered; [reflexivity|]. intro m. apply linear_monomials, Hi. reflexivity. }
  rewrite C, K, recall_some. destruct (exec_value vals i) as [t|p]; [|exact (IH vals Hl)]. rewrite <- (IH _ Hl), map_app. reflexivity.
Qed.
End Program.

Section AnyProgram.
Context {NN : Num} {RT : Runtime}.
Theorem any_program l h roots : history empty_heap [] l = (h, roots) ->
  all_legal h roots /\ separate h roots /\
  (forall s t m m', In s roots -> In t roots -> In m (monomials h s) -> In m' (monomials h t) -> share_exponents m m' -> h_exps m = h_exps m' /\ h_vars m = h_vars m').
Proof.
  intro E. pose proof (history_sharing l _ _ _ _ empty_sharing E) as S. split; [exact (sharing_legal _ _ S)|]. split; [exact (sharing_separate _ _ S)|].
  intros s t m m'. apply sharing_same. exact S.
Qed.
Theorem any_call l h roots i r h' : history empty_heap [] l = (h, roots) -> harmless (map (rd h) roots) i -> exec roots i h = (r, h') ->
  (forall s, In s roots -> rd h' s = rd h s) /\ as_value h' r = exec_value (map (rd h) roots) i.
Proof. intros E Ha X. destruct (any_program l h roots E) as (L & S & _). destruct (call_spec h roots i r h' L S Ha X) as (K & V & _). split; assumption. Qed.
Theorem any_calls l1 l2 h1 roots1 h2 roots2 : history empty_heap [] l1 = (h1, roots1) -> Forall not_derivative l2 -> history h1 roots1 l2 = (h2, roots2) ->
  (forall s, In s roots1 -> rd h2 s = rd h1 s) /\ map (rd h2) roots2 = history_values (map (rd h1) roots1) l2.
Proof.
  intros E N X. destruct (any_program l1 h1 roots1 E) as (L & S & _). destruct (history_spec l2 _ _ _ _ L S (no_derivative_harmless l2 N _) X) as (V & K & _). split; assumption.
Qed.
(** DerivativeWrt after any program, in terms of the values *)
Theorem any_derivative l h roots s v : history empty_heap [] l = (h, roots) -> In s roots -> repeated v (monomials_of (rd h s)) = false ->
  exists r h', h_derivative s v h = (r, h') /\ as_value h' r = scalar_derivative (rd h s) v /\ forall t, In t roots -> endangered v (rd h s) (rd h t) = false -> rd h' t = rd h t.
Proof.
  intros E Hs R. pose proof (history_sharing l _ _ _ _ empty_sharing E) as S. pose proof (sharing_legal _ _ S) as L.
  destruct (derivative_anywhere h s v (L s Hs) (not_repeated_own _ _ _ _ S Hs R)) as (r & h' & D & V & F & _). exists r, h'. split; [exact D|]. split; [exact V|].
  intros t Ht N. apply F; [exact (L t Ht) | exact (safe_out_of_reach _ _ _ _ _ S Hs Ht N)].
Qed.
End AnyProgram.
