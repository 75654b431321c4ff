(** * Interleaved steps simulate uninterrupted ones

    A goroutine in the shared memory is compared with the same goroutine alone in a memory of its own that starts with the same contents.
    Addresses allocated by the goroutine are translated; the memory present at the start is never written. *)

From Coq Require Import ZArith NArith Bool List Lia.
From Verif Require Import Num Syntax ModelScalar ModelHeap SpecHeap ModelConc SpecConc HeapMem HeapOps.
Import ListNotations.
Local Open Scope num_scope.

Lemma F2_refl {A} (E : A -> A -> Prop) l : Forall (fun x => E x x) l -> Forall2 E l l.
Proof. intro F. induction F; constructor; assumption. Qed.
Lemma F2_len {A B} (E : A -> B -> Prop) l l' : Forall2 E l l' -> length l = length l'.
Proof. intro F. induction F; cbn; congruence. Qed.
Lemma F2_firstn {A B} (E : A -> B -> Prop) n l l' : Forall2 E l l' -> Forall2 E (firstn n l) (firstn n l').
Proof. intro F. revert n. induction F as [|x y l l' H F IH]; intros [|n]; cbn; constructor; auto. Qed.
Lemma F2_skipn {A B} (E : A -> B -> Prop) n l l' : Forall2 E l l' -> Forall2 E (skipn n l) (skipn n l').
Proof. intro F. revert n. induction F as [|x y l l' H F IH]; intros [|n]; cbn; try constructor; auto. Qed.
Lemma F2_set_nth {A B} (E : A -> B -> Prop) i x y l l' : E x y -> Forall2 E l l' -> Forall2 E (set_nth i x l) (set_nth i y l').
Proof. intros H F. revert i. induction F as [|a b l l' Hab F IH]; intros [|i]; cbn; constructor; auto. Qed.
Lemma F2_overwrite {A B} (E : A -> B -> Prop) i xs ys l l' : Forall2 E xs ys -> Forall2 E l l' -> Forall2 E (overwrite i xs l) (overwrite i ys l').
Proof. intro F. revert i l l'. induction F as [|a b xs ys Hab F IH]; intros i l l' G; cbn; [exact G|]. apply IH. apply F2_set_nth; assumption. Qed.
Lemma F2_nth {A B} (E : A -> B -> Prop) i l l' : Forall2 E l l' ->
  match nth_error l i, nth_error l' i with Some a, Some b => E a b | None, None => True | _, _ => False end.
Proof. intro F. revert i. induction F as [|x y l l' H F IH]; intros [|i]; cbn; auto. apply IH. Qed.
Lemma F2_app {A B} (E : A -> B -> Prop) a b a' b' : Forall2 E a a' -> Forall2 E b b' -> Forall2 E (a ++ b) (a' ++ b').
Proof. apply Forall2_app. Qed.
Lemma F2_eq {A} (l l' : list A) : Forall2 eq l l' -> l = l'.
Proof. intro F. induction F; congruence. Qed.
Lemma eq_F2 {A} (l : list A) : Forall2 eq l l.
Proof. induction l; constructor; auto. Qed.
Lemma F2_impl {A B} (E E' : A -> B -> Prop) l l' : (forall a b, E a b -> E' a b) -> Forall2 E l l' -> Forall2 E' l l'.
Proof. intros H F. induction F; constructor; auto. Qed.
Lemma set_nth_id {A} i (l : list A) d : set_nth i (nth i l d) l = l.
Proof. revert i. induction l as [|a l IH]; intros [|i]; cbn; try reflexivity. rewrite IH. reflexivity. Qed.
Lemma store_nil {A} (m : mem A) a i : store_at m a i [] = m.
Proof. unfold store_at. cbn [overwrite]. unfold cells. apply set_nth_id. Qed.

(** ** One memory *)
Section One.
Context {A : Type}.
Implicit Types (m : mem A) (E : A -> A -> Prop) (r : list nat) (s : slice).

(** [m0]: at the start; [m]: alone; [m']: shared; [r]: the addresses in [m'] of what the goroutine has allocated *)
Definition memrel m0 E r m m' : Prop :=
  length m = (length m0 + length r)%nat /\ (length m0 <= length m')%nat /\ NoDup r /\ Forall (fun a => length m0 <= a < length m')%nat r /\
  (forall a, (a < length m0)%nat -> cells m a = cells m0 a /\ cells m' a = cells m0 a) /\
  (forall k a', nth_error r k = Some a' -> Forall2 E (cells m (length m0 + k)) (cells m' a')).

Definition sl m0 E r s s' : Prop :=
  s_off s' = s_off s /\ s_len s' = s_len s /\ s_cap s' = s_cap s /\ (s_len s <= s_cap s)%nat /\
  (s_cap s = 0%nat \/ ((s_arr s < length m0)%nat /\ s_arr s' = s_arr s /\ Forall (fun x => E x x) (view m0 s)) \/
   exists k, s_arr s = (length m0 + k)%nat /\ nth_error r k = Some (s_arr s')).
Definition own m0 s : Prop := s_cap s = 0%nat \/ (length m0 <= s_arr s)%nat.

Definition frame1 r r' m m' : Prop :=
  (length m <= length m')%nat /\ (exists v, r' = r ++ v /\ Forall (fun a => length m <= a)%nat v) /\
  (forall a, (a < length m)%nat -> ~ In a r -> cells m' a = cells m a).

Lemma frame1_refl r m : frame1 r r m m.
Proof. split; [lia|]. split; [exists []; rewrite app_nil_r; split; [reflexivity | constructor]|]. reflexivity. Qed.

Definition ext1 r r' : Prop := exists v, r' = r ++ v.
Lemma ext1_refl r : ext1 r r.
Proof. exists []. rewrite app_nil_r. reflexivity. Qed.
Lemma ext1_trans r r' r'' : ext1 r r' -> ext1 r' r'' -> ext1 r r''.
Proof. intros [v ->] [v' ->]. exists (v ++ v'). rewrite app_assoc. reflexivity. Qed.
Lemma ext1_nth r r' k a : ext1 r r' -> nth_error r k = Some a -> nth_error r' k = Some a.
Proof. intros [v ->] H. rewrite nth_error_app1; [exact H|]. apply nth_error_Some. congruence. Qed.
Lemma frame1_ext r r' m m' : frame1 r r' m m' -> ext1 r r'.
Proof. intros (_ & (v & H & _) & _). exists v. exact H. Qed.

Lemma sl_ext m0 E E' r r' s s' : ext1 r r' -> (forall x y, E x y -> E' x y) -> sl m0 E r s s' -> sl m0 E' r' s s'.
Proof.
  intros X I (H1 & H2 & H3 & H4 & H5). repeat split; try assumption. destruct H5 as [H5|[(H5 & H6 & H7)|(k & H5 & H6)]].
  - left. exact H5.
  - right. left. repeat split; try assumption. eapply Forall_impl; [|exact H7]. intros x. apply I.
  - right. right. exists k. split; [exact H5 | eapply ext1_nth; eassumption].
Qed.
Lemma memrel_impl m0 E E' r m m' : (forall x y, E x y -> E' x y) -> memrel m0 E r m m' -> memrel m0 E' r m m'.
Proof. intros I (H1 & H2 & H3 & H4 & H5 & H6). repeat split; try assumption; try (apply H5; assumption). intros k a' H. eapply F2_impl; [exact I | apply H6; exact H]. Qed.

(** what others do *)
Lemma memrel_other m0 E r r1 r1' m m' m'' : memrel m0 E r m m' -> Forall (fun a => length m0 <= a)%nat r1 -> frame1 r1 r1' m' m'' -> (forall a, In a r -> In a r1 -> False) -> memrel m0 E r m m''.
Proof.
  intros (H1 & H2 & H3 & H4 & H5 & H6) O (F1 & _ & F3) D. split; [exact H1|]. split; [lia|]. split; [exact H3|].
  split; [eapply Forall_impl; [|exact H4]; cbn; intros a Ha; lia|]. split.
  - intros a Ha. split; [apply H5; exact Ha|]. rewrite F3; [apply H5; exact Ha | lia|]. intro Hr. eapply Forall_forall in O; [|exact Hr]. cbn in O. lia.
  - intros k a' Hk. pose proof (nth_error_In _ _ Hk) as Hi. rewrite F3; [apply H6; exact Hk | | intro Hr; exact (D a' Hi Hr)].
    eapply Forall_forall in H4; [|exact Hi]. cbn in H4. lia.
Qed.

Lemma view_rel m0 E r m m' s s' : memrel m0 E r m m' -> sl m0 E r s s' -> Forall2 E (view m s) (view m' s').
Proof.
  intros (H1 & H2 & H3 & H4 & H5 & H6) (S1 & S2 & S3 & S4 & S5). unfold view. rewrite S1, S2. destruct S5 as [S5|[(S5 & S6 & S7)|(k & S5 & S6)]].
  - replace (s_len s) with 0%nat by lia. constructor.
  - rewrite S6. destruct (H5 _ S5) as [-> ->]. apply F2_refl. exact S7.
  - apply F2_firstn, F2_skipn. rewrite S5. apply H6. exact S6.
Qed.

Lemma cells_new m l : cells (m ++ [l]) (length m) = l.
Proof. rewrite cells_app, Nat.ltb_irrefl, Nat.eqb_refl. reflexivity. Qed.
Lemma cells_old m l a : (a < length m)%nat -> cells (m ++ [l]) a = cells m a.
Proof. intro H. rewrite cells_app. destruct (Nat.ltb_spec a (length m)); [reflexivity | lia]. Qed.

(** allocation *)
Lemma alloc_rel m0 E r m m' l l' : memrel m0 E r m m' -> Forall2 E l l' ->
  memrel m0 E (r ++ [length m']) (m ++ [l]) (m' ++ [l']) /\ frame1 r (r ++ [length m']) m' (m' ++ [l']) /\
  (forall n c, (n <= c)%nat -> sl m0 E (r ++ [length m']) (mkSlice (length m) 0 n c) (mkSlice (length m') 0 n c)) /\ forall n c, own m0 (mkSlice (length m) 0 n c).
Proof.
  intros (H1 & H2 & H3 & H4 & H5 & H6) F. split; [|split; [|split]].
  - split; [rewrite !app_length, H1; cbn; lia|]. split; [rewrite app_length; lia|]. split.
    { clear - H3 H4. induction H3 as [|a r Hn H3 IH]; cbn; [repeat constructor; auto|].
      inversion H4 as [|? ? Ha H4']; subst. constructor; [|apply IH; exact H4']. intro Hi. apply in_app_or in Hi. destruct Hi as [Hi|[<-|[]]]; [exact (Hn Hi) | lia]. }
    split. { apply Forall_app. split; [eapply Forall_impl; [|exact H4]; cbn; intros a Ha; rewrite app_length; cbn; lia | constructor; [rewrite app_length; cbn; lia | constructor]]. }
    split. { intros a Ha. rewrite !cells_old by lia. apply H5. exact Ha. }
    intros k a' Hk. destruct (Nat.lt_ge_cases k (length r)) as [L|L].
    + rewrite nth_error_app1 in Hk by exact L. rewrite !cells_old; [apply H6; exact Hk | | lia]. apply nth_error_In in Hk. eapply Forall_forall in H4; [|exact Hk]. cbn in H4. lia.
    + rewrite nth_error_app2 in Hk by exact L. destruct (k - length r)%nat as [|d] eqn:Ed; [|destruct d; discriminate]. injection Hk as <-.
      replace (length m0 + k)%nat with (length m) by lia. rewrite !cells_new. exact F.
  - split; [rewrite app_length; lia|]. split; [exists [length m']; split; [reflexivity | constructor; [lia | constructor]]|].
    intros a Ha _. apply cells_old. exact Ha.
  - intros n c Hn. repeat split; cbn [s_len s_cap]; try exact Hn. right. right. exists (length r). cbn [s_arr]. split; [exact H1|]. rewrite nth_error_app2, Nat.sub_diag by lia. reflexivity.
  - intros n c. right. cbn. lia.
Qed.

(** a write to an array of one's own *)
Lemma store_rel m0 E r m m' s s' i xs xs' : memrel m0 E r m m' -> sl m0 E r s s' -> own m0 s -> s_cap s <> 0%nat -> Forall2 E xs xs' ->
  memrel m0 E r (store_at m (s_arr s) i xs) (store_at m' (s_arr s') i xs') /\ frame1 r r m' (store_at m' (s_arr s') i xs').
Proof.
  intros (H1 & H2 & H3 & H4 & H5 & H6) (S1 & S2 & S3 & S4 & S5) O C F.
  destruct S5 as [S5|[(S5 & _)|(k & Sk & Sn)]]; [contradiction | destruct O as [O|O]; [contradiction | lia]|].
  pose proof (nth_error_In _ _ Sn) as Hin. assert (Ra : (length m0 <= s_arr s' < length m')%nat) by (eapply Forall_forall in H4; [exact H4 | exact Hin]).
  assert (Ls : (s_arr s < length m)%nat). { rewrite Sk, H1. assert (k < length r)%nat by (apply nth_error_Some; congruence). lia. }
  split.
  - split; [rewrite store_length; exact H1|]. split; [rewrite store_length; exact H2|]. split; [exact H3|]. split; [rewrite store_length; exact H4|]. split.
    + intros a Ha. rewrite !store_cells_other by lia. apply H5. exact Ha.
    + intros j a' Hj. destruct (Nat.eq_dec j k) as [->|N].
      * assert (a' = s_arr s') by congruence. subst a'. rewrite <- Sk. unfold store_at. rewrite !cells_set, !Nat.eqb_refl. cbn [andb].
        destruct (Nat.ltb_spec (s_arr s) (length m)); [|lia]. destruct (Nat.ltb_spec (s_arr s') (length m')); [|lia].
        apply F2_overwrite; [exact F|]. rewrite Sk. apply H6. exact Sn.
      * rewrite !store_cells_other; [apply H6; exact Hj | | lia]. intros ->. apply N. eapply NoDup_nth_error; [exact H3 | apply nth_error_Some; congruence | congruence].
  - split; [rewrite store_length; lia|]. split; [exists []; rewrite app_nil_r; split; [reflexivity | constructor]|]. intros a Ha Hr. apply store_cells_other. intros ->. exact (Hr Hin).
Qed.

(** append, to an array of one's own or where the capacity is exhausted *)
Lemma append_rel extra zero m0 E r m m' s s' xs xs' : E zero zero -> memrel m0 E r m m' -> sl m0 E r s s' -> own m0 s \/ s_cap s = s_len s -> Forall2 E xs xs' ->
  exists r', memrel m0 E r' (snd (append_slice extra zero m s xs)) (snd (append_slice extra zero m' s' xs')) /\
    frame1 r r' m' (snd (append_slice extra zero m' s' xs')) /\
    sl m0 E r' (fst (append_slice extra zero m s xs)) (fst (append_slice extra zero m' s' xs')) /\
    (own m0 s -> own m0 (fst (append_slice extra zero m s xs))).
Proof.
  intros Ez H S O F. pose proof (F2_len _ _ _ F) as Lx. pose proof S as (S1 & S2 & S3 & S4 & S5). unfold append_slice. rewrite S1, S2, S3, <- Lx.
  destruct (Nat.leb_spec (s_len s + length xs) (s_cap s)) as [Hc|Hc]; cbn [fst snd].
  - exists r. destruct xs as [|x xs].
    + inversion F; subst. cbn [length] in *. rewrite Nat.add_0_r, !store_nil. split; [exact H|]. split; [apply frame1_refl|]. split; [|exact (fun X => X)].
      repeat split; assumption.
    + cbn [length] in *. destruct O as [O|O]; [|lia]. destruct (store_rel m0 E r m m' s s' (s_off s + s_len s) (x :: xs) xs' H S O ltac:(lia) F) as [K1 K2].
      split; [exact K1|]. split; [exact K2|]. split; [|exact (fun X => X)]. destruct S5 as [S5|[(S5 & _)|(k & Sk & Sn)]]; [lia | destruct O as [O|O]; lia|].
      repeat split; cbn [s_len s_cap s_arr s_off]; try assumption. right. right. exists k. split; assumption.
  - set (e := extra (s_cap s) (s_len s + length xs)%nat).
    assert (F' : Forall2 E (view m s ++ xs ++ repeat zero e) (view m' s' ++ xs' ++ repeat zero e)).
    { apply F2_app; [eapply view_rel; eassumption|]. apply F2_app; [exact F|]. apply F2_refl. apply Forall_forall. intros y Hy. apply repeat_spec in Hy. subst. exact Ez. }
    destruct (alloc_rel m0 E r m m' _ _ H F') as (K1 & K2 & K3 & K4). exists (r ++ [length m']). split; [exact K1|]. split; [exact K2|]. split; [apply K3; lia|]. intros _. apply K4.
Qed.

End One.

(** ** The whole memory *)
Section Whole.
Context {NN : Num} {RT : Runtime}.
Context (h0 : heap).
(** [F]: monomials may be multiplied by monomials, for which there must be no room in shared arrays of variables *)
Context (F : Prop).

Record ren := mkRen { ri : list nat; rv : list nat; rm : list nat }.
Implicit Types (r : ren) (h g : heap).

(** monomials: the same up to addresses; no room in an array of variables that is not one's own *)
Definition mr r (m m' : hmono) : Prop :=
  h_coeff m' = h_coeff m /\ sl (hi h0) eq (ri r) (h_exps m) (h_exps m') /\ sl (hv h0) eq (rv r) (h_vars m) (h_vars m') /\
  (F -> own (hv h0) (h_vars m) \/ s_cap (h_vars m) = s_len (h_vars m)).
Definition pr r (p p' : slice) : Prop := sl (hm h0) (mr r) (rm r) p p'.
Definition opr r (p p' : slice) : Prop := pr r p p' /\ own (hm h0) p.
Definition sr r (s s' : hscalar) : Prop :=
  match s, s' with
  | HK k, HK k' => k = k'
  | HV v, HV v' => v = v'
  | HM m, HM m' => mr r m m'
  | HP p, HP p' => pr r p p'
  | _, _ => False
  end.

Definition HR r h g : Prop :=
  memrel (hi h0) eq (ri r) (hi h) (hi g) /\ memrel (hv h0) eq (rv r) (hv h) (hv g) /\ memrel (hm h0) (mr r) (rm r) (hm h) (hm g).
Definition frame r r' g g' : Prop :=
  frame1 (ri r) (ri r') (hi g) (hi g') /\ frame1 (rv r) (rv r') (hv g) (hv g') /\ frame1 (rm r) (rm r') (hm g) (hm g').
Definition rext r r' : Prop := ext1 (ri r) (ri r') /\ ext1 (rv r) (rv r') /\ ext1 (rm r) (rm r').

Lemma rext_refl r : rext r r.
Proof. split; [|split]; apply ext1_refl. Qed.
Lemma rext_trans r r' r'' : rext r r' -> rext r' r'' -> rext r r''.
Proof. intros (A & B & C) (A' & B' & C'). repeat split; eapply ext1_trans; eassumption. Qed.
Lemma frame_rext r r' g g' : frame r r' g g' -> rext r r'.
Proof. intros (A & B & C). repeat split; eapply frame1_ext; eassumption. Qed.
Lemma frame_refl r g : frame r r g g.
Proof. split; [|split]; apply frame1_refl. Qed.

Lemma mr_ext r r' m m' : rext r r' -> mr r m m' -> mr r' m m'.
Proof. intros (A & B & C) (H1 & H2 & H3 & H4). split; [exact H1|]. split; [|split; [|exact H4]]; eapply sl_ext; try eassumption; auto. Qed.
Lemma pr_ext r r' m m' : rext r r' -> pr r m m' -> pr r' m m'.
Proof. intros X H. pose proof X as (_ & _ & C). eapply sl_ext; [exact C | | exact H]. intros x y. apply mr_ext. exact X. Qed.
Lemma opr_ext r r' m m' : rext r r' -> opr r m m' -> opr r' m m'.
Proof. intros X [H O]. split; [eapply pr_ext; eassumption | exact O]. Qed.
Lemma sr_ext r r' s s' : rext r r' -> sr r s s' -> sr r' s s'.
Proof. intros X H. destruct s, s'; cbn in *; try contradiction; try assumption; [eapply mr_ext | eapply pr_ext]; eassumption. Qed.

Lemma mr_rd r h g m m' : HR r h g -> mr r m m' -> rd_mono h m = rd_mono g m'.
Proof.
  intros (H1 & H2 & _) (M1 & M2 & M3 & _). unfold rd_mono. rewrite M1, (F2_eq _ _ (view_rel _ _ _ _ _ _ _ H1 M2)), (F2_eq _ _ (view_rel _ _ _ _ _ _ _ H2 M3)). reflexivity.
Qed.
Lemma pr_view r h g p p' : HR r h g -> pr r p p' -> Forall2 (mr r) (view (hm h) p) (view (hm g) p').
Proof. intros (_ & _ & H) P. eapply view_rel; eassumption. Qed.
Lemma mrs_rd r h g l l' : HR r h g -> Forall2 (mr r) l l' -> map (rd_mono h) l = map (rd_mono g) l'.
Proof. intros H Fa. induction Fa as [|x y l l' E Fa IH]; cbn; [reflexivity|]. rewrite (mr_rd r h g x y H E), IH. reflexivity. Qed.
Lemma pr_rd r h g p p' : HR r h g -> pr r p p' -> rd_poly h p = rd_poly g p'.
Proof. intros H P. apply (mrs_rd r); [exact H|]. eapply pr_view; eassumption. Qed.
Lemma sr_rd r h g s s' : HR r h g -> sr r s s' -> rd h s = rd g s'.
Proof.
  intros H S. destruct s, s'; cbn [sr rd] in *; try contradiction; [congruence | congruence | |].
  - rewrite (mr_rd r h g _ _ H S). reflexivity.
  - rewrite (pr_rd r h g _ _ H S). reflexivity.
Qed.

Lemma nil_pr r : opr r nil_slice nil_slice.
Proof. split; [|left; reflexivity]. unfold pr, sl. cbn. repeat split; auto. Qed.
Lemma nil_sl {A} (m0 : mem A) E (l : list nat) : sl m0 E l nil_slice nil_slice.
Proof. unfold sl. cbn. repeat split; auto. Qed.
Lemma hk_mr r k : mr r (hk_to_mono k) (hk_to_mono k).
Proof. split; [reflexivity|]. split; [apply nil_sl|]. split; [apply nil_sl|]. intros _. right. reflexivity. Qed.
Lemma zero_mr r : mr r zero_mono zero_mono.
Proof. apply hk_mr. Qed.
Lemma set_coeff_mr r m m' c : mr r m m' -> mr r (h_set_coeff m c) (h_set_coeff m' c).
Proof. intros (_ & H). split; [reflexivity | exact H]. Qed.
Lemma coeff_mr r m m' : mr r m m' -> h_coeff m' = h_coeff m.
Proof. intros (H & _). exact H. Qed.
Lemma pr_len r p p' : pr r p p' -> s_len p' = s_len p.
Proof. intros (_ & H & _). exact H. Qed.

(** ** Simulation of what remains to be done *)
Definition post {A} (R : ren -> A -> A -> Prop) r (x x' : res A) : Prop :=
  match x, x' with Ok a, Ok a' => R r a a' | Panic e, Panic e' => e = e' | _, _ => False end.

Fixpoint psim {A} (R : ren -> A -> A -> Prop) r (p p' : proc A) : Prop :=
  match p, p' with
  | Done x, Done x' => post R r x x'
  | Act f k, Act f' k' => forall h g, HR r h g -> exists r', HR r' (f h) (f' g) /\ frame r r' g (f' g) /\ psim R r' (k h) (k' g)
  | _, _ => False
  end.

Lemma psim_bind {A B} (R : ren -> A -> A -> Prop) (S : ren -> B -> B -> Prop) r p p' f f' : psim R r p p' ->
  (forall r' a a', rext r r' -> R r' a a' -> psim S r' (f a) (f' a')) -> psim S r (bindP p f) (bindP p' f').
Proof.
  revert r p'. induction p as [x|g k IH]; intros r [x'|g' k'] H K; cbn [psim] in H; try contradiction.
  - destruct x as [a|e], x' as [a'|e']; cbn [post] in H; try contradiction; cbn [bindP]; [apply K; [apply rext_refl | exact H]|]. exact H.
  - cbn [bindP psim]. intros h gg HH. destruct (H h gg HH) as (r1 & H1 & H2 & H3). exists r1. split; [exact H1|]. split; [exact H2|]. apply IH; [exact H3|].
    intros r' a a' X. apply K. eapply rext_trans; [eapply frame_rext; exact H2 | exact X].
Qed.
Lemma psim_ret {A} (R : ren -> A -> A -> Prop) r a a' : R r a a' -> psim R r (c_ret a) (c_ret a').
Proof. intro H. exact H. Qed.
Lemma psim_fail {A} (R : ren -> A -> A -> Prop) r e : psim R r (c_fail e) (c_fail e).
Proof. reflexivity. Qed.
Lemma psim_act {A} (R : ren -> A -> A -> Prop) r (x x' : M A) :
  (forall h g, HR r h g -> exists r', HR r' (snd (x h)) (snd (x' g)) /\ frame r r' g (snd (x' g)) /\ post R r' (fst (x h)) (fst (x' g))) ->
  psim R r (act x) (act x').
Proof. intro H. exact H. Qed.
Lemma psim_post {A} (R R' : ren -> A -> A -> Prop) r p p' : (forall r a a', R r a a' -> R' r a a') -> psim R r p p' -> psim R' r p p'.
Proof.
  intro I. revert r p'. induction p as [x|g k IH]; intros r [x'|g' k'] H; cbn [psim] in *; try contradiction.
  - destruct x, x'; cbn in *; auto.
  - intros h gg HH. destruct (H h gg HH) as (r1 & H1 & H2 & H3). exists r1. split; [exact H1|]. split; [exact H2|]. apply IH. exact H3.
Qed.
Lemma psim_reads_rel {A} (R : ren -> A -> A -> Prop) r f f' : (forall h g, HR r h g -> post R r (f h) (f' g)) -> psim R r (c_reads f) (c_reads f').
Proof. intro H. apply psim_act. intros h g HH. exists r. split; [exact HH|]. split; [apply frame_refl|]. apply H. exact HH. Qed.
Definition req {A} : ren -> A -> A -> Prop := fun _ => eq.
Lemma psim_reads {A} r (f f' : heap -> res A) : (forall h g, HR r h g -> f h = f' g) -> psim req r (c_reads f) (c_reads f').
Proof. intro H. apply psim_reads_rel. intros h g HH. rewrite (H h g HH). destruct (f' g); reflexivity. Qed.
Lemma psim_forM {A S} (J : ren -> S -> S -> Prop) (b b' : S -> A -> proc S) l : forall r s s', J r s s' ->
  (forall r' s s' a, rext r r' -> J r' s s' -> psim J r' (b s a) (b' s' a)) -> psim J r (c_forM b l s) (c_forM b' l s').
Proof.
  induction l as [|a l IH]; intros r s s' H K; cbn [c_forM]; [apply psim_ret; exact H|].
  eapply psim_bind; [apply K; [apply rext_refl | exact H]|]. intros r' t t' X HJ. apply IH; [exact HJ|]. intros r'' u u' c X'. apply K. eapply rext_trans; eassumption.
Qed.

(** ** Accesses *)
Lemma make_ints_sim r l : psim (fun r s s' => sl (hi h0) eq (ri r) s s' /\ own (hi h0) s) r (c_make_ints l) (c_make_ints l).
Proof.
  apply psim_act. intros h g (H1 & H2 & H3). cbn. destruct (alloc_rel _ _ _ _ _ l l H1 (eq_F2 l)) as (K1 & K2 & K3 & K4).
  exists (mkRen (ri r ++ [length (hi g)]) (rv r) (rm r)).
  assert (X : rext r (mkRen (ri r ++ [length (hi g)]) (rv r) (rm r))) by (split; [exists [length (hi g)]; reflexivity | split; apply ext1_refl]).
  split; [|split].
  - split; [exact K1|]. split; [exact H2|]. eapply memrel_impl; [|exact H3]. intros x y. apply mr_ext. exact X.
  - split; [exact K2|]. split; apply frame1_refl.
  - split; [apply K3; lia | apply K4].
Qed.
Lemma make_vars_sim r l : psim (fun r s s' => sl (hv h0) eq (rv r) s s' /\ own (hv h0) s) r (c_make_vars l) (c_make_vars l).
Proof.
  apply psim_act. intros h g (H1 & H2 & H3). cbn. destruct (alloc_rel _ _ _ _ _ l l H2 (eq_F2 l)) as (K1 & K2 & K3 & K4).
  exists (mkRen (ri r) (rv r ++ [length (hv g)]) (rm r)).
  assert (X : rext r (mkRen (ri r) (rv r ++ [length (hv g)]) (rm r))) by (split; [apply ext1_refl | split; [exists [length (hv g)]; reflexivity | apply ext1_refl]]).
  split; [|split].
  - split; [exact H1|]. split; [exact K1|]. eapply memrel_impl; [|exact H3]. intros x y. apply mr_ext. exact X.
  - split; [apply frame1_refl|]. split; [exact K2 | apply frame1_refl].
  - split; [apply K3; lia | apply K4].
Qed.
Lemma make_monos_sim r l l' : Forall2 (mr r) l l' -> psim opr r (c_make_monos l) (c_make_monos l').
Proof.
  intro Fa. apply psim_act. intros h g (H1 & H2 & H3). cbn. destruct (alloc_rel _ _ _ _ _ l l' H3 Fa) as (K1 & K2 & K3 & K4).
  exists (mkRen (ri r) (rv r) (rm r ++ [length (hm g)])). split; [|split].
  - split; [exact H1|]. split; [exact H2 | exact K1].
  - split; [apply frame1_refl|]. split; [apply frame1_refl | exact K2].
  - rewrite <- (F2_len _ _ _ Fa). split; [apply K3; lia | apply K4].
Qed.
Lemma append_ints_sim r s s' xs : sl (hi h0) eq (ri r) s s' -> own (hi h0) s ->
  psim (fun r s s' => sl (hi h0) eq (ri r) s s' /\ own (hi h0) s) r (c_append_ints s xs) (c_append_ints s' xs).
Proof.
  intros S O. apply psim_act. intros h g (H1 & H2 & H3). unfold append_ints.
  destruct (append_rel grow_int 0%Z _ _ _ _ _ _ _ xs xs eq_refl H1 S (or_introl O) (eq_F2 xs)) as (r1 & K1 & K2 & K3 & K4).
  destruct (append_slice grow_int 0%Z (hi h) s xs) as [t m1], (append_slice grow_int 0%Z (hi g) s' xs) as [t' m2]. cbn [fst snd] in *.
  exists (mkRen r1 (rv r) (rm r)). assert (X : rext r (mkRen r1 (rv r) (rm r))) by (split; [eapply frame1_ext; exact K2 | split; apply ext1_refl]).
  split; [|split].
  - split; [exact K1|]. split; [exact H2|]. eapply memrel_impl; [|exact H3]. intros x y. apply mr_ext. exact X.
  - split; [exact K2|]. split; apply frame1_refl.
  - split; [exact K3 | apply K4; exact O].
Qed.
Lemma append_vars_gen r s s' xs : sl (hv h0) eq (rv r) s s' -> own (hv h0) s \/ s_cap s = s_len s ->
  psim (fun r t t' => sl (hv h0) eq (rv r) t t' /\ (own (hv h0) s -> own (hv h0) t)) r (c_append_vars s xs) (c_append_vars s' xs).
Proof.
  intros S O. apply psim_act. intros h g (H1 & H2 & H3). unfold append_vars.
  destruct (append_rel grow_var zero_var _ _ _ _ _ _ _ xs xs eq_refl H2 S O (eq_F2 xs)) as (r1 & K1 & K2 & K3 & K4).
  destruct (append_slice grow_var zero_var (hv h) s xs) as [t m1], (append_slice grow_var zero_var (hv g) s' xs) as [t' m2]. cbn [fst snd] in *.
  exists (mkRen (ri r) r1 (rm r)). assert (X : rext r (mkRen (ri r) r1 (rm r))) by (split; [apply ext1_refl | split; [eapply frame1_ext; exact K2 | apply ext1_refl]]).
  split; [|split].
  - split; [exact H1|]. split; [exact K1|]. eapply memrel_impl; [|exact H3]. intros x y. apply mr_ext. exact X.
  - split; [apply frame1_refl|]. split; [exact K2 | apply frame1_refl].
  - split; [exact K3 | exact K4].
Qed.
Lemma append_vars_sim r s s' xs : sl (hv h0) eq (rv r) s s' -> own (hv h0) s ->
  psim (fun r s s' => sl (hv h0) eq (rv r) s s' /\ own (hv h0) s) r (c_append_vars s xs) (c_append_vars s' xs).
Proof.
  intros S O. eapply psim_post; [|apply append_vars_gen; [exact S | left; exact O]]. cbn. intros r' t t' [H1 H2]. split; [exact H1 | exact (H2 O)].
Qed.
Lemma append_monos_sim r s s' xs xs' : opr r s s' -> Forall2 (mr r) xs xs' -> psim opr r (c_append_monos s xs) (c_append_monos s' xs').
Proof.
  intros [S O] Fa. apply psim_act. intros h g (H1 & H2 & H3). unfold append_monos.
  destruct (append_rel grow_mono zero_mono _ _ _ _ _ _ _ xs xs' (zero_mr r) H3 S (or_introl O) Fa) as (r1 & K1 & K2 & K3 & K4).
  destruct (append_slice grow_mono zero_mono (hm h) s xs) as [t m1], (append_slice grow_mono zero_mono (hm g) s' xs') as [t' m2]. cbn [fst snd] in *.
  exists (mkRen (ri r) (rv r) r1). split; [|split].
  - split; [exact H1|]. split; [exact H2 | exact K1].
  - split; [apply frame1_refl|]. split; [apply frame1_refl | exact K2].
  - split; [exact K3 | apply K4; exact O].
Qed.

Lemma index_rel {A} (E : A -> A -> Prop) l l' i : Forall2 E l l' ->
  match index l i, index l' i with Ok a, Ok b => E a b | Panic e, Panic e' => e = e' | _, _ => False end.
Proof. intro Fa. unfold index. pose proof (F2_nth E i _ _ Fa). destruct (nth_error l i), (nth_error l' i); auto. Qed.
Lemma get_int_sim r s s' i : sl (hi h0) eq (ri r) s s' -> psim req r (c_get_int s i) (c_get_int s' i).
Proof. intro S. apply psim_reads. intros h g (H & _). rewrite (F2_eq _ _ (view_rel _ _ _ _ _ _ _ H S)). reflexivity. Qed.
Lemma get_var_sim r s s' i : sl (hv h0) eq (rv r) s s' -> psim req r (c_get_var s i) (c_get_var s' i).
Proof. intro S. apply psim_reads. intros h g (_ & H & _). rewrite (F2_eq _ _ (view_rel _ _ _ _ _ _ _ H S)). reflexivity. Qed.
Lemma get_mono_sim r s s' i : pr r s s' -> psim mr r (c_get_mono s i) (c_get_mono s' i).
Proof. intro S. apply psim_reads_rel. intros h g H. apply index_rel. eapply pr_view; eassumption. Qed.
Lemma put_int_sim r s s' i x : sl (hi h0) eq (ri r) s s' -> own (hi h0) s -> psim req r (c_put_int s i x) (c_put_int s' i x).
Proof.
  intros S O. apply psim_act. intros h g HH. pose proof HH as (H1 & H2 & H3). pose proof S as (S1 & S2 & S3 & S4 & S5). unfold put_int. rewrite S1, S2.
  destruct (Nat.ltb_spec i (s_len s)) as [L|L]; cbn [fst snd].
  - destruct (store_rel _ _ _ _ _ _ _ (s_off s + i) [x] [x] H1 S O ltac:(lia) (eq_F2 _)) as [K1 K2]. exists r. split; [split; [exact K1|]; split; assumption|].
    split; [split; [exact K2|]; split; apply frame1_refl | reflexivity].
  - exists r. split; [exact HH|]. split; [apply frame_refl | reflexivity].
Qed.
Lemma put_mono_sim r s s' i x x' : opr r s s' -> mr r x x' -> psim req r (c_put_mono s i x) (c_put_mono s' i x').
Proof.
  intros [S O] X. apply psim_act. intros h g HH. pose proof HH as (H1 & H2 & H3). pose proof S as (S1 & S2 & S3 & S4 & S5). unfold put_mono. rewrite S1, S2.
  destruct (Nat.ltb_spec i (s_len s)) as [L|L]; cbn [fst snd].
  - destruct (store_rel _ _ _ _ _ _ _ (s_off s + i) [x] [x'] H3 S O ltac:(lia)) as [K1 K2]; [constructor; [exact X | constructor]|]. exists r. split; [split; [exact H1|]; split; assumption|].
    split; [split; [apply frame1_refl|]; split; [apply frame1_refl | exact K2] | reflexivity].
  - exists r. split; [exact HH|]. split; [apply frame_refl | reflexivity].
Qed.
Lemma check_var_sim r v : psim req r (c_check_var v) (c_check_var v).
Proof. apply psim_reads. reflexivity. Qed.
Lemma check_mono_sim r m m' : mr r m m' -> psim req r (c_check_mono m) (c_check_mono m').
Proof. intro H. apply psim_reads. intros h g HH. rewrite (mr_rd r h g _ _ HH H). reflexivity. Qed.
Lemma check_poly_sim r m m' : pr r m m' -> psim req r (c_check_poly m) (c_check_poly m').
Proof. intro H. apply psim_reads. intros h g HH. rewrite (pr_rd r h g _ _ HH H). reflexivity. Qed.
Lemma check_scalar_sim r m m' : sr r m m' -> psim req r (c_check_scalar m) (c_check_scalar m').
Proof. intro H. apply psim_reads. intros h g HH. rewrite (sr_rd r h g _ _ HH H). reflexivity. Qed.


(** ** The functions, one by one *)

Ltac up1 X := match goal with
  | H : mr ?r ?a ?b |- _ => match type of X with rext r _ => apply (mr_ext _ _ _ _ X) in H end
  | H : opr ?r ?a ?b |- _ => match type of X with rext r _ => apply (opr_ext _ _ _ _ X) in H end
  | H : pr ?r ?a ?b |- _ => match type of X with rext r _ => apply (pr_ext _ _ _ _ X) in H end
  | H : sr ?r ?a ?b |- _ => match type of X with rext r _ => apply (sr_ext _ _ _ _ X) in H end
  | H : sl (hi h0) eq (ri ?r) ?a ?b |- _ => match type of X with rext r _ => apply (sl_ext _ _ eq _ _ _ _ (proj1 X) (fun _ _ e => e)) in H end
  | H : sl (hv h0) eq (rv ?r) ?a ?b |- _ => match type of X with rext r _ => apply (sl_ext _ _ eq _ _ _ _ (proj1 (proj2 X)) (fun _ _ e => e)) in H end
  end.
Ltac up X := repeat up1 X.
Ltac uneq H := match type of H with req _ ?a ?b => red in H; subst b | _ => idtac end.
(** bind: prove the first part, carry everything over to the extended renaming *)
Tactic Notation "step" constr(L) "as" ident(a) ident(a') ident(H) := eapply psim_bind; [eapply L; eauto|cbn beta]; let r' := fresh "r" in let X := fresh "X" in intros r' a a' X H; uneq H; up X; clear X.
Ltac sread := eapply psim_reads; let h := fresh "h" in let g := fresh "g" in let HH := fresh "HH" in intros h g HH.
Ltac srd := repeat match goal with
  | HH : HR ?r ?h ?g, H : mr ?r ?a ?b |- context [rd_mono ?h ?a] => rewrite (mr_rd r h g a b HH H)
  | HH : HR ?r ?h ?g, H : pr ?r ?a ?b |- context [rd_poly ?h ?a] => rewrite (pr_rd r h g a b HH H)
  | HH : HR ?r ?h ?g, H : opr ?r ?a ?b |- context [rd_poly ?h ?a] => rewrite (pr_rd r h g a b HH (proj1 H))
  | HH : HR ?r ?h ?g, H : sl (hv h0) eq (rv ?r) ?a ?b |- context [view (hv ?h) ?a] => rewrite (F2_eq _ _ (view_rel _ _ _ _ _ _ _ (proj1 (proj2 HH)) H))
  | HH : HR ?r ?h ?g, H : mr ?r ?a ?b |- context [view (hv ?h) (h_vars ?a)] => rewrite (F2_eq _ _ (view_rel _ _ _ _ _ _ _ (proj1 (proj2 HH)) (proj1 (proj2 (proj2 H)))))
  | HH : HR ?r ?h ?g, H : mr ?r ?a ?b |- context [view (hi ?h) (h_exps ?a)] => rewrite (F2_eq _ _ (view_rel _ _ _ _ _ _ _ (proj1 HH) (proj1 (proj2 H))))
  end; try reflexivity.
Tactic Notation "look" "as" ident(a) := eapply psim_bind; [eapply psim_reads; let h := fresh "h" in let g := fresh "g" in let HH := fresh "HH" in intros h g HH; srd|cbn beta]; let r' := fresh "r" in let X := fresh "X" in let H := fresh "H" in let u := fresh "dummy" in intros r' a u X H; uneq H; up X; clear X.
Ltac chk := eapply psim_bind; [first [eapply check_var_sim | eapply check_mono_sim; eassumption | eapply check_poly_sim; eassumption | eapply check_scalar_sim; eassumption]|cbn beta];
  let r' := fresh "r" in let X := fresh "X" in let H := fresh "H" in let u := fresh "dummy" in let v := fresh "dummy" in intros r' u v X H; uneq H; up X; clear X.

Lemma opr_pr r p p' : opr r p p' -> pr r p p'.
Proof. intros [H _]. exact H. Qed.
Lemma mr_exps r m m' : mr r m m' -> sl (hi h0) eq (ri r) (h_exps m) (h_exps m').
Proof. intros (_ & H & _). exact H. Qed.
Lemma mr_vars r m m' : mr r m m' -> sl (hv h0) eq (rv r) (h_vars m) (h_vars m').
Proof. intros (_ & _ & H & _). exact H. Qed.
Lemma one_mr r m m' : mr r m m' -> Forall2 (mr r) [m] [m'].
Proof. intro H. constructor; [exact H | constructor]. Qed.
Lemma two_mr r m m' n n' : mr r m m' -> mr r n n' -> Forall2 (mr r) [m; n] [m'; n'].
Proof. intros H K. constructor; [exact H | apply one_mr; exact K]. Qed.
Local Hint Resolve opr_pr mr_exps mr_vars one_mr two_mr hk_mr nil_pr set_coeff_mr : core.

(** a monomial made by the goroutine *)
Definition omr r m m' := mr r m m' /\ own (hv h0) (h_vars m) /\ own (hi h0) (h_exps m).
Lemma omr_mr r m m' : omr r m m' -> mr r m m'.
Proof. intros (H & _). exact H. Qed.
Local Hint Resolve omr_mr : core.

Lemma new_mono_sim r c es vs : psim omr r (c_new_mono c es vs) (c_new_mono c es vs).
Proof.
  unfold c_new_mono. step make_vars_sim as v v' Hv. destruct Hv as [Hv Ov]. step make_ints_sim as e e' He. destruct He as [He Oe]. apply psim_ret.
  split; [|split; assumption]. split; [reflexivity|]. split; [exact He|]. split; [exact Hv | intros _; left; exact Ov].
Qed.
Lemma new_mono_mr r c es vs : psim mr r (c_new_mono c es vs) (c_new_mono c es vs).
Proof. eapply psim_post; [|apply new_mono_sim]. apply omr_mr. Qed.
Lemma var_to_mono_sim r v : psim mr r (cvar_to_mono v) (cvar_to_mono v).
Proof. apply new_mono_mr. Qed.
Lemma mono_copy_sim r m m' : mr r m m' -> psim omr r (cmono_copy m) (cmono_copy m').
Proof.
  intro H. unfold cmono_copy. look as es. look as vs. step make_ints_sim as e e' He. destruct He as [He Oe]. step make_vars_sim as v v' Hv. destruct Hv as [Hv Ov].
  apply psim_ret. split; [|split; assumption]. split; [exact (coeff_mr _ _ _ H)|]. split; [exact He|]. split; [exact Hv | intros _; left; exact Ov].
Qed.
Lemma mono_copy_mr r m m' : mr r m m' -> psim mr r (cmono_copy m) (cmono_copy m').
Proof. intro H. eapply psim_post; [|apply mono_copy_sim; exact H]. apply omr_mr. Qed.
Lemma view_monos_sim r p p' : pr r p p' -> psim (fun r => Forall2 (mr r)) r (c_reads (fun h => Ok (view (hm h) p))) (c_reads (fun h => Ok (view (hm h) p'))).
Proof. intro H. apply psim_reads_rel. intros h g HH. eapply pr_view; eassumption. Qed.
Lemma poly_copy_sim r p p' : pr r p p' -> psim opr r (cpoly_copy p) (cpoly_copy p').
Proof. intro H. unfold cpoly_copy. step view_monos_sim as l l' Hl. apply make_monos_sim. exact Hl. Qed.
Lemma mono_to_poly_sim r m m' : mr r m m' -> psim opr r (cmono_to_poly m) (cmono_to_poly m').
Proof. intro H. unfold cmono_to_poly. step mono_copy_mr as c c' Hc. apply make_monos_sim. auto. Qed.

Lemma first_index_sim r (t : Monomial -> Monomial -> res bool) acc acc' m m' : pr r acc acc' -> mr r m m' ->
  psim req r (c_reads (fun h => first_index (fun e => t (rd_mono h e) (rd_mono h m)) (view (hm h) acc) 0)) (c_reads (fun h => first_index (fun e => t (rd_mono h e) (rd_mono h m')) (view (hm h) acc') 0)).
Proof.
  intros A H. sread. rewrite (first_index_map (rd_mono h) (fun x => t x (rd_mono h m))), (first_index_map (rd_mono g) (fun x => t x (rd_mono g m'))).
  pose proof (mrs_rd r h g _ _ HH (pr_view r h g _ _ HH A)) as ->. srd.
Qed.
Lemma add_like_sim r acc acc' m m' : opr r acc acc' -> mr r m m' -> psim opr r (c_add_like acc m) (c_add_like acc' m').
Proof.
  intros A H. unfold c_add_like. step first_index_sim as i i' Hi. destruct i as [i|].
  - step get_mono_sim as e e' He. rewrite (coeff_mr _ _ _ He), (coeff_mr _ _ _ H). step put_mono_sim as u u' Hu. apply psim_ret. exact A.
  - apply append_monos_sim; auto.
Qed.

Lemma indices_sl {A} (m0 : mem A) E (l : list nat) s s' : sl m0 E l s s' -> indices s' = indices s.
Proof. intros (_ & H & _). unfold indices. rewrite H. reflexivity. Qed.

Lemma simplify_sim r p p' : pr r p p' -> psim opr r (c_simplify p) (c_simplify p').
Proof.
  intro H. unfold c_simplify. chk. eapply psim_bind with (R := fun r (st st' : num * slice) => fst st = fst st' /\ opr r (snd st) (snd st')).
  { rewrite (indices_sl _ _ _ _ _ H). apply psim_forM; [split; [reflexivity | apply nil_pr]|]. intros rr1 s s' i X [J1 J2]. up X. clear X.
    step get_mono_sim as m m' Hm. look as c. destruct c.
    - apply psim_ret. cbn [fst snd]. rewrite J1, (coeff_mr _ _ _ Hm). split; [reflexivity | exact J2].
    - step add_like_sim as acc acc' Ha. apply psim_ret. split; [exact J1 | exact Ha]. }
  intros rr1 st st' X [J1 J2]. up X. clear X. rewrite <- J1.
  eapply psim_bind with (R := opr).
  { destruct (fst st =? n0); [apply psim_ret; apply nil_pr | apply append_monos_sim; auto]. }
  intros rr2 out out' X Ho. up X. clear X.
  eapply psim_bind with (R := opr).
  { rewrite (indices_sl _ _ _ _ _ (proj1 J2)). apply psim_forM; [exact Ho|]. intros rr3 s s' i X J. up X. clear X.
    step get_mono_sim as m m' Hm. rewrite (coeff_mr _ _ _ Hm). destruct (h_coeff m =? n0); [apply psim_ret; exact J | apply append_monos_sim; auto]. }
  intros rr3 o o' X Hoo. up X. clear X. rewrite (pr_len _ _ _ (proj1 Hoo)). destruct (Nat.eqb (s_len o) 0); [apply append_monos_sim; auto | apply psim_ret; exact Hoo].
Qed.

Lemma mono_simplified_sim r m m' : mr r m m' -> psim sr r (c_mono_simplified m) (c_mono_simplified m').
Proof. intro H. unfold c_mono_simplified. look as s. apply psim_ret. destruct s; cbn; auto. Qed.

Lemma poly_simplified_sim r p p' : pr r p p' -> psim sr r (c_poly_simplified p) (c_poly_simplified p').
Proof.
  intro H. unfold c_poly_simplified. step simplify_sim as q q' Hq. look as d. destruct (Z.eqb d 0).
  - look as c. apply psim_ret. reflexivity.
  - rewrite (pr_len _ _ _ (proj1 Hq)). eapply psim_bind with (R := req).
    { destruct (Z.eqb d 1 && Nat.eqb (s_len q) 1); [|apply psim_ret; reflexivity]. step get_mono_sim as m m' Hm. look as v0. look as b. destruct b; [|apply psim_ret; reflexivity].
      look as v. apply psim_ret. reflexivity. }
    intros rr1 o o' X Ho. uneq Ho. up X. clear X. destruct o as [v|]; [apply psim_ret; reflexivity|].
    destruct (Nat.eqb (s_len q) 1); [|apply psim_ret; exact (proj1 Hq)]. step get_mono_sim as m m' Hm. apply psim_ret. exact Hm.
Qed.

Lemma simplified_sim r s s' : sr r s s' -> psim sr r (c_simplified s) (c_simplified s').
Proof.
  intro H. destruct s, s'; cbn [sr] in H; try contradiction; cbn [c_simplified]; try (apply psim_ret; exact H); [apply mono_simplified_sim | apply poly_simplified_sim]; exact H.
Qed.
Lemma sr_HM r m m' : mr r m m' -> sr r (HM m) (HM m').
Proof. exact (fun H => H). Qed.
Lemma sr_HP r m m' : pr r m m' -> sr r (HP m) (HP m').
Proof. exact (fun H => H). Qed.
Lemma sr_HK r k : sr r (HK k) (HK k).
Proof. reflexivity. Qed.
Local Hint Resolve sr_HM sr_HP sr_HK : core.

Lemma poly_plus_k_sim r p p' k : pr r p p' -> psim sr r (c_poly_plus_k p k) (c_poly_plus_k p' k).
Proof.
  intro H. unfold c_poly_plus_k. chk. step poly_copy_sim as c c' Hc. look as i. eapply psim_bind with (R := opr).
  { destruct i as [i|]; [|apply append_monos_sim; auto]. step get_mono_sim as m m' Hm. rewrite (coeff_mr _ _ _ Hm). step put_mono_sim as u u' Hu. apply psim_ret. exact Hc. }
  intros rr1 o o' X Ho. apply poly_simplified_sim. auto.
Qed.
Lemma poly_plus_var_sim r p p' v : pr r p p' -> psim sr r (c_poly_plus_var p v) (c_poly_plus_var p' v).
Proof.
  intro H. unfold c_poly_plus_var. chk. chk. step poly_copy_sim as c c' Hc. look as i. eapply psim_bind with (R := opr).
  { destruct i as [i|]; [|step var_to_mono_sim as m m' Hm; apply append_monos_sim; auto]. step get_mono_sim as m m' Hm. rewrite (coeff_mr _ _ _ Hm). step put_mono_sim as u u' Hu. apply psim_ret. exact Hc. }
  intros rr1 o o' X Ho. apply poly_simplified_sim. auto.
Qed.
Lemma poly_plus_poly_sim r p p' q q' : pr r p p' -> pr r q q' -> psim sr r (c_poly_plus_poly p q) (c_poly_plus_poly p' q').
Proof.
  intros H K. unfold c_poly_plus_poly. chk. chk. step poly_copy_sim as c c' Hc.
  eapply psim_bind; [apply view_monos_sim; exact K|]. intros rr1 l l' X Hl. cbn beta in Hl. up X. clear X.
  step append_monos_sim as d d' Hd. step poly_simplified_sim as o o' Ho. apply simplified_sim. exact Ho.
Qed.
Lemma poly_plus_mono_sim r p p' m m' : pr r p p' -> mr r m m' -> psim sr r (c_poly_plus_mono p m) (c_poly_plus_mono p' m').
Proof.
  intros H K. unfold c_poly_plus_mono. chk. chk. step poly_copy_sim as c c' Hc. step mono_to_poly_sim as q q' Hq. step poly_plus_poly_sim as o o' Ho. apply simplified_sim. exact Ho.
Qed.
Lemma mono_plus_k_sim r m m' k : mr r m m' -> psim sr r (c_mono_plus_k m k) (c_mono_plus_k m' k).
Proof.
  intro H. unfold c_mono_plus_k. chk. look as c. destruct c; [rewrite (coeff_mr _ _ _ H); apply simplified_sim; reflexivity|].
  step mono_copy_mr as d d' Hd. step make_monos_sim as p p' Hp. apply simplified_sim. auto.
Qed.
Lemma mono_plus_var_sim r m m' v : mr r m m' -> psim sr r (c_mono_plus_var m v) (c_mono_plus_var m' v).
Proof.
  intro H. unfold c_mono_plus_var. chk. chk. look as b. step mono_copy_mr as d d' Hd. destruct b; [rewrite (coeff_mr _ _ _ Hd); apply simplified_sim; auto|].
  step var_to_mono_sim as w w' Hw. step make_monos_sim as p p' Hp. apply simplified_sim. auto.
Qed.
Lemma mono_plus_mono_sim r m m' n n' : mr r m m' -> mr r n n' -> psim sr r (c_mono_plus_mono m n) (c_mono_plus_mono m' n').
Proof.
  intros H K. unfold c_mono_plus_mono. chk. chk. look as b. step mono_copy_mr as d d' Hd. destruct b; [rewrite (coeff_mr _ _ _ Hd), (coeff_mr _ _ _ K); apply simplified_sim; auto|].
  step make_monos_sim as p p' Hp. apply simplified_sim. auto.
Qed.
Lemma mono_plus_poly_sim r m m' p p' : mr r m m' -> pr r p p' -> psim sr r (c_mono_plus_poly m p) (c_mono_plus_poly m' p').
Proof. intros H K. unfold c_mono_plus_poly. chk. chk. step mono_copy_mr as d d' Hd. step poly_plus_mono_sim as o o' Ho. apply simplified_sim. exact Ho. Qed.
Lemma var_plus_k_sim r v k : psim sr r (c_var_plus_k v k) (c_var_plus_k v k).
Proof. unfold c_var_plus_k. chk. step var_to_mono_sim as m m' Hm. step make_monos_sim as p p' Hp. apply poly_simplified_sim. auto. Qed.
Lemma var_plus_var_sim r v w : psim sr r (c_var_plus_var v w) (c_var_plus_var v w).
Proof.
  unfold c_var_plus_var. chk. destruct (same_id v w); [step new_mono_mr as m m' Hm; apply simplified_sim; exact Hm|].
  step var_to_mono_sim as m m' Hm. step var_to_mono_sim as n n' Hn. step make_monos_sim as p p' Hp. apply simplified_sim. auto.
Qed.
Lemma k_plus_sim r c s s' : sr r s s' -> psim sr r (c_k_plus c s) (c_k_plus c s').
Proof.
  intro H. unfold c_k_plus. chk. destruct s, s'; cbn [sr] in H; try contradiction; subst; [apply psim_ret; reflexivity | apply var_plus_k_sim | apply mono_plus_k_sim; exact H | apply poly_plus_k_sim; exact H].
Qed.
Lemma plus_sim r s s' t t' : sr r s s' -> sr r t t' -> psim sr r (c_plus s t) (c_plus s' t').
Proof.
  intros H K. destruct s as [c|v|m|p], s' as [c'|v'|m'|p']; cbn [sr] in H; try contradiction; subst; cbn [c_plus].
  - apply k_plus_sim. exact K.
  - destruct t, t'; cbn [sr] in K; try contradiction; subst; [apply var_plus_k_sim | apply var_plus_var_sim | |].
    + unfold c_var_plus_mono. chk. step mono_plus_var_sim as o o' Ho. apply simplified_sim. exact Ho.
    + unfold c_var_plus_poly. chk. step poly_plus_var_sim as o o' Ho. apply simplified_sim. exact Ho.
  - destruct t, t'; cbn [sr] in K; try contradiction; subst; [apply mono_plus_k_sim | apply mono_plus_var_sim | apply mono_plus_mono_sim | apply mono_plus_poly_sim]; assumption.
  - destruct t, t'; cbn [sr] in K; try contradiction; subst; [apply poly_plus_k_sim | apply poly_plus_var_sim | apply poly_plus_mono_sim | apply poly_plus_poly_sim]; assumption.
Qed.

Lemma mono_mul_k_sim r m m' k : mr r m m' -> psim mr r (c_mono_mul_k m k) (c_mono_mul_k m' k).
Proof. intro H. unfold c_mono_mul_k. chk. step mono_copy_mr as d d' Hd. apply psim_ret. rewrite (coeff_mr _ _ _ Hd). auto. Qed.
Lemma mono_mul_var_sim r m m' v : mr r m m' -> psim mr r (c_mono_mul_var m v) (c_mono_mul_var m' v).
Proof.
  intro H. unfold c_mono_mul_var. chk. chk. eapply psim_bind; [apply mono_copy_sim; exact H|]. intros rr1 d d' X (Hd & Ov & Oe). up X. clear X. look as i.
  pose proof Hd as (Dc & De & Dv & _). destruct i as [i|].
  - step get_int_sim as e e' He. step put_int_sim as u u' Hu. apply psim_ret. exact Hd.
  - step append_vars_sim as vs vs' Hvs. destruct Hvs as [Hvs Ovs]. step append_ints_sim as es es' Hes. destruct Hes as [Hes Oes]. apply psim_ret.
    split; [exact Dc|]. split; [exact Hes|]. split; [exact Hvs | intros _; left; exact Ovs].
Qed.
Lemma map_in_place_sim r f f' c c' : opr r c c' -> (forall r m m', mr r m m' -> psim mr r (f m) (f' m')) -> psim req r (c_map_in_place f c) (c_map_in_place f' c').
Proof.
  intros H Fa. unfold c_map_in_place. rewrite (indices_sl _ _ _ _ _ (proj1 H)). apply psim_forM; [reflexivity|]. intros rr1 u u' i X _. up X. clear X.
  step get_mono_sim as m m' Hm. step Fa as x x' Hx. apply put_mono_sim; assumption.
Qed.
Lemma poly_mul_k_sim r p p' k : pr r p p' -> psim sr r (c_poly_mul_k p k) (c_poly_mul_k p' k).
Proof.
  intro H. unfold c_poly_mul_k. chk. step poly_copy_sim as c c' Hc. eapply psim_bind; [apply map_in_place_sim; [exact Hc|]; intros; apply mono_mul_k_sim; assumption|].
  intros rr1 u u' X _. up X. clear X. apply poly_simplified_sim. auto.
Qed.
Lemma poly_mul_var_sim r p p' k : pr r p p' -> psim sr r (c_poly_mul_var p k) (c_poly_mul_var p' k).
Proof.
  intro H. unfold c_poly_mul_var. chk. chk. step poly_copy_sim as c c' Hc. eapply psim_bind; [apply map_in_place_sim; [exact Hc|]; intros; apply mono_mul_var_sim; assumption|].
  intros rr1 u u' X _. up X. clear X. apply poly_simplified_sim. auto.
Qed.
Lemma var_mul_k_sim r v k : psim sr r (c_var_mul_k v k) (c_var_mul_k v k).
Proof. unfold c_var_mul_k. chk. step new_mono_mr as m m' Hm. apply mono_simplified_sim. exact Hm. Qed.
Lemma as_HM_sim r p p' : psim mr r p p' -> psim sr r (c_as_HM p) (c_as_HM p').
Proof. intro H. unfold c_as_HM. eapply psim_bind; [exact H|]. intros rr1 m m' X Hm. apply psim_ret. exact Hm. Qed.
Lemma k_mul_sim r c s s' : sr r s s' -> psim sr r (c_k_mul c s) (c_k_mul c s').
Proof.
  intro H. unfold c_k_mul. chk. destruct s, s'; cbn [sr] in H; try contradiction; subst; [apply psim_ret; reflexivity | apply var_mul_k_sim | apply as_HM_sim, mono_mul_k_sim; exact H | apply poly_mul_k_sim; exact H].
Qed.
Lemma mul_float_sim r s s' f : sr r s s' -> psim sr r (c_mul_float s f) (c_mul_float s' f).
Proof.
  intro H. destruct s, s'; cbn [sr] in H; try contradiction; subst; cbn [c_mul_float].
  - apply k_mul_sim. reflexivity.
  - step var_mul_k_sim as o o' Ho. apply simplified_sim. exact Ho.
  - apply as_HM_sim, mono_mul_k_sim. exact H.
  - step poly_mul_k_sim as o o' Ho. apply simplified_sim. exact Ho.
Qed.
Lemma minus_sim r s s' t t' : sr r s s' -> sr r t t' -> psim sr r (c_minus s t) (c_minus s' t').
Proof. intros H K. unfold c_minus. chk. chk. step mul_float_sim as o o' Ho. apply plus_sim; assumption. Qed.
Lemma var_substitute_sim r v w s s' : sr r s s' -> psim sr r (c_var_substitute v w s) (c_var_substitute v w s').
Proof. intro H. unfold c_var_substitute. chk. chk. chk. apply psim_ret. destruct (same_id v w && env_eqb (v_env v) (v_env w)); [exact H | reflexivity]. Qed.
Section Products.
Context (pF : F).
Definition ovr r s s' := sl (hv h0) eq (rv r) s s' /\ own (hv h0) s.
Lemma unique_sim r s s' : sl (hv h0) eq (rv r) s s' -> psim ovr r (c_unique s) (c_unique s').
Proof.
  intro H. unfold c_unique. rewrite (indices_sl _ _ _ _ _ H). apply psim_forM; [split; [apply nil_sl | left; reflexivity]|].
  intros rr1 o o' i X [Ho Oo]. up X. clear X. step get_var_sim as v v' Hv. look as k. destruct k; [apply psim_ret; split; assumption | apply append_vars_sim; assumption].
Qed.
Lemma degree_loop_sim r vs vs' es es' ws ws' deg deg' : sl (hv h0) eq (rv r) vs vs' -> sl (hi h0) eq (ri r) es es' -> sl (hv h0) eq (rv r) ws ws' -> sl (hi h0) eq (ri r) deg deg' -> own (hi h0) deg ->
  psim req r (c_degree_loop vs es ws deg) (c_degree_loop vs' es' ws' deg').
Proof.
  intros H1 H2 H3 H4 O. unfold c_degree_loop. rewrite (indices_sl _ _ _ _ _ H1). apply psim_forM; [reflexivity|]. intros rr1 u u' i X _. up X. clear X.
  step get_var_sim as v v' Hv. look as k. destruct k; [|apply psim_fail]. step get_int_sim as e e' He. step get_int_sim as d d' Hd. apply put_int_sim; assumption.
Qed.
Lemma mono_mul_mono_sim r m m' n n' : mr r m m' -> mr r n n' -> psim mr r (c_mono_mul_mono m n) (c_mono_mul_mono m' n').
Proof.
  intros H K. unfold c_mono_mul_mono. chk. chk. look as vs. pose proof H as (_ & _ & Hv & Ho). specialize (Ho pF).
  eapply psim_bind; [apply append_vars_gen; [exact Hv | exact Ho]|]. intros rr3 all all' X [Ha _]. up X. clear X.
  eapply psim_bind; [apply unique_sim; exact Ha|]. intros rr4 us us' X [Hu Ou]. up X. clear X.
  replace (s_len us') with (s_len us) by (symmetry; apply Hu).
  step make_ints_sim as deg deg' Hd. destruct Hd as [Hd Od].
  step degree_loop_sim as u1 u1' H1. step degree_loop_sim as u2 u2' H2. apply psim_ret. rewrite <- (coeff_mr _ _ _ H), <- (coeff_mr _ _ _ K).
  split; [reflexivity|]. split; [exact Hd|]. split; [exact Hu | intros _; left; exact Ou].
Qed.
Lemma poly_mul_mono_sim r p p' m m' : pr r p p' -> mr r m m' -> psim sr r (c_poly_mul_mono p m) (c_poly_mul_mono p' m').
Proof.
  intros H K. unfold c_poly_mul_mono. chk. chk. step poly_copy_sim as c c' Hc. eapply psim_bind with (R := opr).
  { rewrite (indices_sl _ _ _ _ _ (proj1 Hc)). apply psim_forM; [apply nil_pr|]. intros rr1 o o' i X Ho. up X. clear X.
    step get_mono_sim as n n' Hn. step mono_mul_mono_sim as x x' Hx. apply append_monos_sim; auto. }
  intros rr1 o o' X Ho. apply poly_simplified_sim. auto.
Qed.
Lemma poly_mul_poly_sim r p p' q q' : pr r p p' -> pr r q q' -> psim sr r (c_poly_mul_poly p q) (c_poly_mul_poly p' q').
Proof.
  intros H K. unfold c_poly_mul_poly. chk. chk. step poly_copy_sim as c c' Hc. eapply psim_bind with (R := sr).
  { rewrite (indices_sl _ _ _ _ _ K). apply psim_forM; [reflexivity|]. intros rr1 a a' i X Ha. up X. clear X.
    step get_mono_sim as n n' Hn. step poly_mul_mono_sim as x x' Hx. apply plus_sim; assumption. }
  intros rr1 o o' X Ho. apply simplified_sim. exact Ho.
Qed.
Lemma mul_sim r s s' t t' : sr r s s' -> sr r t t' -> psim sr r (c_mul s t) (c_mul s' t').
Proof.
  intros H K. destruct s as [c|v|m|p], s' as [c'|v'|m'|p']; cbn [sr] in H; try contradiction; subst; cbn [c_mul].
  - apply k_mul_sim. exact K.
  - destruct t as [?|w|?|?], t' as [?|w'|?|?]; cbn [sr] in K; try contradiction; subst; [apply var_mul_k_sim | | |].
    + unfold c_var_mul_var. chk. chk. destruct (same_id w' v'); step new_mono_mr as m m' Hm; apply mono_simplified_sim; exact Hm.
    + unfold c_var_mul_mono. chk. chk. step mono_mul_var_sim as o o' Ho. apply mono_simplified_sim. exact Ho.
    + unfold c_var_mul_poly. chk. chk. step poly_mul_var_sim as o o' Ho. apply simplified_sim. exact Ho.
  - destruct t, t'; cbn [sr] in K; try contradiction; subst; [apply as_HM_sim, mono_mul_k_sim; assumption | apply as_HM_sim, mono_mul_var_sim; assumption | apply as_HM_sim, mono_mul_mono_sim; assumption|].
    unfold c_mono_mul_poly. chk. chk. apply poly_mul_mono_sim; assumption.
  - destruct t, t'; cbn [sr] in K; try contradiction; subst; [apply poly_mul_k_sim | apply poly_mul_var_sim | apply poly_mul_mono_sim | apply poly_mul_poly_sim]; assumption.
Qed.
Lemma power_loop_sim n : forall r b b' a a', sr r b b' -> sr r a a' -> psim sr r (c_power_loop b n a) (c_power_loop b' n a').
Proof. induction n as [|k IH]; intros r b b' a a' H K; cbn [c_power_loop]; [apply psim_ret; exact K|]. step mul_sim as o o' Ho. apply IH; assumption. Qed.
Lemma power_sim r s s' n : sr r s s' -> psim sr r (c_power s n) (c_power s' n).
Proof. intro H. unfold c_power. chk. look as w. apply power_loop_sim; [exact H | reflexivity]. Qed.
Lemma mono_substitute_sim r m m' w s s' : mr r m m' -> sr r s s' -> psim sr r (c_mono_substitute m w s) (c_mono_substitute m' w s').
Proof.
  intros H K. unfold c_mono_substitute. chk. chk. chk. look as i. destruct i as [i|]; [|apply psim_ret; exact H]. unfold c_subst_loop. rewrite (indices_sl _ _ _ _ _ (mr_vars _ _ _ H)), (coeff_mr _ _ _ H).
  apply psim_forM; [reflexivity|]. intros rr9 a a' j X Ha. up X. clear X. step get_var_sim as v v' Hv. step var_substitute_sim as b b' Hb. step get_int_sim as e e' He. step power_sim as q q' Hq. apply mul_sim; assumption.
Qed.
Lemma substitute_sim r s s' w t t' : sr r s s' -> sr r t t' -> psim sr r (c_substitute s w t) (c_substitute s' w t').
Proof.
  intros H K. destruct s as [c|v|m|p], s' as [c'|v'|m'|p']; cbn [sr] in H; try contradiction; subst; cbn [c_substitute].
  - apply psim_ret. reflexivity.
  - apply var_substitute_sim. exact K.
  - apply mono_substitute_sim; assumption.
  - unfold c_poly_substitute. chk. chk. chk. eapply psim_bind with (R := sr).
    { rewrite (indices_sl _ _ _ _ _ H). apply psim_forM; [reflexivity|]. intros rr9 a a' j X Ha. up X. clear X. step get_mono_sim as n n' Hn. step mono_substitute_sim as b b' Hb. apply plus_sim; assumption. }
    intros rr9 o o' X Ho. apply simplified_sim. exact Ho.
Qed.

End Products.

(** ** Calls and goroutines *)

Lemma arg_rel (E : hscalar -> hscalar -> Prop) l l' k : Forall2 E l l' ->
  match arg l k, arg l' k with Ok a, Ok b => E a b | Panic e, Panic e' => e = e' | _, _ => False end.
Proof. intro Fa. unfold arg. pose proof (F2_nth E k _ _ Fa). destruct (nth_error l k), (nth_error l' k); auto. Qed.
Lemma arg_sim r l l' k : Forall2 (sr r) l l' -> psim sr r (c_reads (fun _ => arg l k)) (c_reads (fun _ => arg l' k)).
Proof. intro Fa. apply psim_reads_rel. intros h g _. exact (arg_rel _ _ _ k Fa). Qed.
Lemma srs_ext r r' l l' : rext r r' -> Forall2 (sr r) l l' -> Forall2 (sr r') l l'.
Proof. intros X Fa. eapply F2_impl; [|exact Fa]. intros a b. apply sr_ext. exact X. Qed.
Lemma mapM_sim r l l' ms : Forall2 (sr r) l l' ->
  post (fun r => Forall2 (mr r)) r (mapM (fun k => s <- arg l k ;; hmono_of s) ms) (mapM (fun k => s <- arg l' k ;; hmono_of s) ms).
Proof.
  intro Fa. induction ms as [|k ms IH]; cbn [mapM]; [constructor|]. pose proof (arg_rel _ _ _ k Fa) as Hi.
  destruct (arg l k) as [s|e], (arg l' k) as [s'|e']; cbn [bind] in *; try contradiction; [|exact Hi].
  destruct s, s'; cbn [sr hmono_of bind] in *; try contradiction; try reflexivity.
  destruct (mapM (fun k => s <- arg l k ;; hmono_of s) ms) as [q|e], (mapM (fun k => s <- arg l' k ;; hmono_of s) ms) as [q'|e']; cbn [bind post] in *; try contradiction; [|exact IH].
  constructor; assumption.
Qed.
Definition allowed (i : instr) : Prop := (F /\ not_derivative i) \/ additive i.
Lemma exec_sim r l l' i : allowed i -> Forall2 (sr r) l l' -> psim sr r (c_exec l i) (c_exec l' i).
Proof.
  intros N Fa. destruct i; cbn [c_exec]; unfold allowed in N; cbn [not_derivative additive] in N; try (apply psim_ret; reflexivity);
    try (assert (pF : F) by tauto); try (exfalso; tauto).
  - step new_mono_mr as m m' Hm. apply psim_ret. exact Hm.
  - eapply psim_bind with (R := fun r => Forall2 (mr r)); [apply psim_reads_rel; intros h g _; apply mapM_sim; exact Fa|]. intros rr1 q q' X Hq. step make_monos_sim as p p' Hp. apply psim_ret. exact (proj1 Hp).
  - eapply psim_bind; [apply arg_sim; exact Fa|]. intros rr1 s s' X Hs. apply (srs_ext _ _ _ _ X) in Fa. step arg_sim as t t' Ht. apply plus_sim; assumption.
  - eapply psim_bind; [apply arg_sim; exact Fa|]. intros rr1 s s' X Hs. apply (srs_ext _ _ _ _ X) in Fa. step arg_sim as t t' Ht. apply minus_sim; assumption.
  - eapply psim_bind; [apply arg_sim; exact Fa|]. intros rr1 s s' X Hs. apply (srs_ext _ _ _ _ X) in Fa. step arg_sim as t t' Ht. apply mul_sim; assumption.
  - step arg_sim as s s' Hs. apply power_sim; assumption.
  - step arg_sim as s s' Hs. apply simplified_sim. exact Hs.
  - eapply psim_bind; [apply arg_sim; exact Fa|]. intros rr1 s s' X Hs. apply (srs_ext _ _ _ _ X) in Fa. step arg_sim as t t' Ht. apply substitute_sim; assumption.
Qed.
Lemma attempt_sim {A} (R : ren -> A -> A -> Prop) r p p' : psim R r p p' ->
  psim (fun r o o' => match o, o' with Some a, Some a' => R r a a' | None, None => True | _, _ => False end) r (attempt p) (attempt p').
Proof.
  revert r p'. induction p as [x|f k IH]; intros r [x'|f' k'] H; cbn [psim] in H; try contradiction.
  - destruct x, x'; cbn in *; try contradiction; auto.
  - cbn [attempt psim]. intros h g HH. destruct (H h g HH) as (r1 & H1 & H2 & H3). exists r1. split; [exact H1|]. split; [exact H2|]. apply IH. exact H3.
Qed.
Lemma goroutine_sim l : Forall allowed l -> forall r roots roots', Forall2 (sr r) roots roots' -> psim (fun r => Forall2 (sr r)) r (goroutine roots l) (goroutine roots' l).
Proof.
  intro N. induction N as [|i l Ni N IH]; intros r roots roots' Fa; cbn [goroutine]; [apply psim_ret; exact Fa|].
  eapply psim_bind; [apply attempt_sim, exec_sim; [exact Ni | exact Fa]|]. intros rr1 o o' X Ho. cbn beta in Ho. apply (srs_ext _ _ _ _ X) in Fa. apply IH.
  destruct o as [t|], o' as [t'|]; try contradiction; [|exact Fa]. apply F2_app; [exact Fa|]. constructor; [exact Ho | constructor].
Qed.

End Whole.
