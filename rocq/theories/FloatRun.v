(** * Every scalar operation on short coefficients gives the same result in binary64 and in rational numbers *)

From Coq Require Import ZArith NArith Bool List Lia.
From Coq Require Import QArith Qcanon.
From Coq.Floats Require Import SpecFloat.
From Verif Require Import Num Syntax ModelScalar Spec SpecProg SpecExact FloatExact FloatSim.
Import ListNotations.
Local Open Scope Z_scope.

Definition sim {A B} (rd : A -> B) (P : A -> Prop) (x : res A) (y : res B) : Prop :=
  match x with Ok a => P a /\ y = Ok (rd a) | Panic p => y = Panic p end.

Lemma sim_bind {A B A' B'} (rd : A -> B) (rd' : A' -> B') P Q x y f g :
  sim rd P x y -> (forall a, P a -> sim rd' Q (f a) (g (rd a))) -> sim rd' Q (bind x f) (bind y g).
Proof. destruct x as [a|p]; cbn [sim bind]; [intros [H ->] K; exact (K a H) | intros -> _; reflexivity]. Qed.
Lemma sim_check {A' B'} (rd' : A' -> B') Q b b' p f g :
  b' = b -> (b = true -> sim rd' Q (f tt) (g tt)) -> sim rd' Q (bind (check b p) f) (bind (check b' p) g).
Proof. intros -> K. destruct b; cbn [check bind]; [apply K; reflexivity | reflexivity]. Qed.
Lemma sim_ok {A B} (rd : A -> B) (P : A -> Prop) a b : P a -> b = rd a -> sim rd P (Ok a) (Ok b).
Proof. intros H ->. split; [exact H | reflexivity]. Qed.
Lemma sim_weak {A B} (rd : A -> B) (P Q : A -> Prop) x y : (forall a, P a -> Q a) -> sim rd P x y -> sim rd Q x y.
Proof. intros H. destruct x; cbn [sim]; [intros [K E]; split; [apply H; exact K | exact E] | trivial]. Qed.
Lemma sim_same {A} (x y : res A) : y = x -> sim (fun a => a) (fun _ => True) x y.
Proof. intros ->. destruct x; cbn [sim]; [split; [exact I | reflexivity] | reflexivity]. Qed.
Lemma sim_index {A B} (rd : A -> B) (P : A -> Prop) l i : (forall a, In a l -> P a) -> sim rd P (index l i) (index (map rd l) i).
Proof.
  intro H. unfold index. rewrite nth_error_map. destruct (nth_error l i) eqn:E; cbn [option_map sim]; [|reflexivity].
  split; [|reflexivity]. apply H. eapply nth_error_In. exact E.
Qed.
Lemma sim_foldM {A B C D} (rd : A -> B) (rc : C -> D) (P : list C -> A -> Prop) f g l :
  forall acc, (forall c l' a, (exists l0, l = l0 ++ c :: l') -> P (c :: l') a -> sim rd (P l') (f a c) (g (rd a) (rc c))) ->
  P l acc -> sim rd (P []) (foldM f acc l) (foldM g (rd acc) (map rc l)).
Proof.
  induction l as [|c l IH]; intros acc H HP; cbn [foldM map].
  - split; [exact HP | reflexivity].
  - eapply sim_bind; [apply H; [exists []; reflexivity | exact HP]|]. intros a Ha. cbn beta. apply IH; [|exact Ha].
    intros c' l' a' [l0 E] Ha'. apply H; [|exact Ha']. exists (c :: l0). rewrite E. reflexivity.
Qed.

(** ** Variables *)

Lemma var_check_sim v : numeric_var v -> @var_check G (rv v) = @var_check F v.
Proof.
  intros [Hl Hu]. unfold var_check. cbn [v_upper v_lower exact_var nleb QNum F64Num]. f_equal.
  unfold SFleb. rewrite (compare_exact _ _ Hu Hl). rewrite !exactly_qval. unfold Qc_leb. cbn [this Q2Qc].
  unfold Qle_bool. cbn [Qnum Qden].
  assert (E : Qle_bool (Qred (qval (v_upper v))) (Qred (qval (v_lower v))) = match Qcompare (qval (v_upper v)) (qval (v_lower v)) with Lt | Eq => true | Gt => false end).
  { apply eq_true_iff_eq. rewrite Qle_bool_iff. rewrite !Qred_correct. rewrite Qle_alt. destruct (Qcompare _ _); split; congruence || discriminate || (intros; discriminate). }
  unfold Qle_bool in E. exact E.
Qed.

Lemma same_id_sim v w : @same_id G (rv v) (rv w) = @same_id F v w. Proof. reflexivity. Qed.

Lemma find_loop_map {A B} (f : A -> B) (h : A -> bool) (h' : B -> bool) l ix loc : (forall a, h' (f a) = h a) ->
  find_loop h' (map f l) ix loc = find_loop h l ix loc.
Proof. intro H. revert ix loc; induction l as [|a l IH]; intros ix loc; cbn [find_loop map]; [reflexivity|]. rewrite H. apply IH. Qed.
Lemma find_var_sim v l : @find_var G (rv v) (map rv l) = @find_var F v l.
Proof. unfold find_var, find_in_slice. apply find_loop_map. intro a. reflexivity. Qed.

Lemma unique_loop_sim l out : @unique_vars_loop G (map rv l) (map rv out) = map rv (@unique_vars_loop F l out).
Proof.
  revert out; induction l as [|v l IH]; intro out; cbn [unique_vars_loop map]; [reflexivity|]. rewrite find_var_sim.
  destruct (find_var v out); [apply IH|]. rewrite <- IH, map_app. reflexivity.
Qed.
Lemma unique_sim l : @unique_vars G (map rv l) = map rv (@unique_vars F l).
Proof. apply (unique_loop_sim l []). Qed.

(** ** Terms *)

Lemma mono_check_sim m : @mono_check G (rm m) = @mono_check F m.
Proof. unfold mono_check. cbn [m_exps m_vars exact_mono]. rewrite map_length. reflexivity. Qed.
Lemma poly_check_sim p : @poly_check G (map rm p) = @poly_check F p.
Proof.
  assert (E : forallb (@mono_check G) (map rm p) = forallb (@mono_check F) p).
  { induction p as [|m p IH]; cbn [forallb map]; [reflexivity|]. rewrite mono_check_sim, IH. reflexivity. }
  destruct p; [reflexivity|]. exact E.
Qed.
Lemma is_constant_sim m : @mono_is_constant G (rm m) = @mono_is_constant F m.
Proof. unfold mono_is_constant. rewrite mono_check_sim. destruct m as [c e [|v l]]; reflexivity. Qed.

Lemma index_map {A B} (f : A -> B) l i : index (map f l) i = match index l i with Ok a => Ok (f a) | Panic p => Panic p end.
Proof. unfold index. rewrite nth_error_map. destruct (nth_error l i); reflexivity. Qed.

Lemma degree_one_sim m v : numeric_var v -> @mono_is_degree_one_in G (rm m) (rv v) = @mono_is_degree_one_in F m v.
Proof.
  intro H. unfold mono_is_degree_one_in. rewrite mono_check_sim, is_constant_sim, var_check_sim by exact H. cbn [m_vars m_exps exact_mono].
  rewrite index_map, map_length. destruct (check (mono_check m) PCheck); [|reflexivity]. cbn [bind]. destruct (check (var_check v) PCheck); [|reflexivity]. cbn [bind].
  destruct (mono_is_constant m) as [[|]|]; try reflexivity. cbn [bind]. destruct (index (m_vars m) 0); reflexivity.
Qed.

Lemma matches_loop_sim vs es es' vi : @matches_loop G (map rv vs) es es' (map rv vi) = @matches_loop F vs es es' vi.
Proof.
  revert es es'; induction vs as [|v vs IH]; intros es es'; cbn [matches_loop map]; [reflexivity|]. rewrite find_var_sim.
  destruct (find_var v vi); [|reflexivity]. destruct es, es'; try reflexivity. rewrite IH. reflexivity.
Qed.
Lemma matches_sim m m' : @mono_matches_form G (rm m) (rm m') = @mono_matches_form F m m'.
Proof.
  unfold mono_matches_form. rewrite !mono_check_sim. cbn [m_vars m_exps exact_mono]. rewrite !map_length, matches_loop_sim. reflexivity.
Qed.

(** ** Short lists of terms *)

Definition mon (k : Z) (m : @Monomial F) (z : Z) : Prop := (forall w, In w (m_vars m) -> numeric_var w) /\ grid k z (m_coeff m).

Inductive pol (k : Z) : list (@Monomial F) -> Z -> Prop :=
| pol_nil n : 0 <= n -> pol k [] n
| pol_cons m z l n n' : mon k m z -> pol k l n -> Z.abs z + n <= n' -> pol k (m :: l) n'.

Lemma pol_nonneg k l n : pol k l n -> 0 <= n.
Proof. induction 1; lia. Qed.
Lemma pol_le k l n n' : pol k l n -> n <= n' -> pol k l n'.
Proof. induction 1; intro L; [apply pol_nil; lia | eapply pol_cons; [eassumption | eassumption | lia]]. Qed.
Lemma pol_app k l1 n1 l2 n2 : pol k l1 n1 -> pol k l2 n2 -> pol k (l1 ++ l2) (n1 + n2).
Proof.
  induction 1 as [n Hn|m z l n n' Hm Hl IH L]; intro H2; cbn [app].
  - eapply pol_le; [exact H2|lia].
  - eapply pol_cons; [exact Hm | apply IH; exact H2 | lia].
Qed.
Lemma pol_app_inv k l1 l2 n : pol k (l1 ++ l2) n -> exists n1 n2, pol k l1 n1 /\ pol k l2 n2 /\ n1 + n2 <= n.
Proof.
  revert n; induction l1 as [|m l1 IH]; intros n H; cbn [app] in H.
  - exists 0, n. split; [apply pol_nil; lia|]. split; [exact H|lia].
  - inversion H as [|m0 z l n0 n' Hm Hl L]; subst. destruct (IH _ Hl) as (n1 & n2 & H1 & H2 & L2).
    exists (Z.abs z + n1), n2. split; [eapply pol_cons; [exact Hm | exact H1 | lia]|]. split; [exact H2 | lia].
Qed.
Lemma pol_single k m z n : mon k m z -> Z.abs z <= n -> pol k [m] n.
Proof. intros H L. eapply pol_cons; [exact H | apply (pol_nil k 0); lia | lia]. Qed.
Lemma pol_single_inv k m n : pol k [m] n -> exists z, mon k m z /\ Z.abs z <= n.
Proof. intro H. inversion H as [|m0 z l n0 n' Hm Hl L]; subst. exists z. split; [exact Hm|]. apply pol_nonneg in Hl. lia. Qed.
Lemma pol_in k l n m : pol k l n -> In m l -> exists z, mon k m z /\ Z.abs z <= n.
Proof.
  intros H K. apply in_split in K. destruct K as (l1 & l2 & ->). destruct (pol_app_inv _ _ _ _ H) as (n1 & n2 & H1 & H2 & L).
  inversion H2 as [|m0 z l n0 n' Hm Hl L2]; subst. exists z. split; [exact Hm|]. apply pol_nonneg in Hl. apply pol_nonneg in H1. lia.
Qed.
Lemma pol_vars k l n m w : pol k l n -> In m l -> In w (m_vars m) -> numeric_var w.
Proof. intros H K W. destruct (pol_in _ _ _ _ H K) as (z & [Hv _] & _). apply Hv. exact W. Qed.

Definition top : Z := 2 ^ 53.
Lemma top_pos : 1 <= top. Proof. unfold top. change (2 ^ 53) with 9007199254740992. lia. Qed.
#[global] Opaque top.
Lemma top_eq : top = 2 ^ 53. Proof. reflexivity. Qed.

Lemma rm_set_coeff m c : rm (set_coeff m c) = @set_coeff G (rm m) (exactly c). Proof. reflexivity. Qed.
Lemma mon_set k m z c z' : mon k m z -> grid k z' c -> mon k (set_coeff m c) z'.
Proof. intros [H _] K. split; assumption. Qed.

Lemma add_like_sim k acc n m z : 0 <= k <= 1000 -> pol k acc n -> mon k m z -> n + Z.abs z <= top ->
  sim (map rm) (fun l => pol k l (n + Z.abs z)) (@add_like_term F acc m) (@add_like_term G (map rm acc) (rm m)).
Proof.
  intros Hk H Hm. induction H as [n Hn|e ze l n n' He Hl IH L]; intro Ht; cbn [add_like_term map].
  - apply sim_ok; [|reflexivity]. eapply pol_single; [exact Hm | lia].
  - eapply sim_bind; [apply sim_same; apply matches_sim|]. intros b _. cbn beta. destruct b.
    + assert (Gr : grid k (ze + z) (@nadd F (m_coeff e) (m_coeff m))).
      { pose proof (pol_nonneg _ _ _ Hl). apply add_exact; [exact Hk | apply He | apply Hm | rewrite <- top_eq; lia]. }
      apply sim_ok.
      * eapply pol_cons; [eapply mon_set; [exact He | exact Gr] | exact Hl | lia].
      * cbn [map]. rewrite rm_set_coeff. f_equal. f_equal. cbn [m_coeff exact_mono nadd QNum F64Num]. symmetry. pose proof (pol_nonneg _ _ _ Hl).
        apply (rd_add k ze z); [exact Hk | apply He | apply Hm | rewrite <- top_eq; lia].
    + eapply sim_bind; [apply IH; lia|]. intros r Hr. cbn beta. apply sim_ok; [|reflexivity]. eapply pol_cons; [exact He | exact Hr | lia].
Qed.

Definition rpair (x : @num F * list (@Monomial F)) : @num G * list (@Monomial G) := (exactly (fst x), map rm (snd x)).

Lemma simplify_loop_sim k p np : 0 <= k <= 1000 -> pol k p np -> forall c zc acc na, grid k zc c -> pol k acc na -> np + Z.abs zc + na <= top ->
  sim rpair (fun x => exists z n, grid k z (fst x) /\ pol k (snd x) n /\ Z.abs z + n <= np + Z.abs zc + na)
    (@simplify_loop F p c acc) (@simplify_loop G (map rm p) (exactly c) (map rm acc)).
Proof.
  intros Hk H. induction H as [n Hn|m z l n n' Hm Hl IH L]; intros c zc acc na Hc Ha Ht; cbn [simplify_loop map].
  - apply sim_ok; [|reflexivity]. exists zc, na. cbn [fst snd]. split; [exact Hc|]. split; [exact Ha|lia].
  - pose proof (pol_nonneg _ _ _ Hl). pose proof (pol_nonneg _ _ _ Ha). eapply sim_bind; [apply sim_same; apply is_constant_sim|]. intros b _. cbn beta. destruct b.
    + assert (Gr : grid k (zc + z) (@nadd F c (m_coeff m))) by (apply add_exact; [exact Hk | exact Hc | apply Hm | rewrite <- top_eq; lia]).
      assert (E : @nadd G (exactly c) (@m_coeff G (rm m)) = exactly (@nadd F c (m_coeff m))).
      { cbn [m_coeff exact_mono nadd QNum F64Num]. symmetry. apply (rd_add k zc z); [exact Hk | exact Hc | apply Hm | rewrite <- top_eq; lia]. }
      rewrite E. eapply sim_weak; [|apply (IH _ _ _ _ Gr Ha); lia]. intros x (z' & n1 & G1 & P1 & L1). exists z', n1. split; [exact G1|]. split; [exact P1|lia].
    + eapply sim_bind; [apply (add_like_sim k acc na m z Hk Ha Hm); lia|]. intros acc' Ha'. cbn beta.
      eapply sim_weak; [|apply (IH _ _ _ _ Hc Ha'); lia]. intros x (z' & n1 & G1 & P1 & L1). exists z', n1. split; [exact G1|]. split; [exact P1|lia].
Qed.

Lemma filter_sim k l n : pol k l n ->
  filter (fun m => negb (@neqb G (m_coeff m) (@n0 G))) (map rm l) = map rm (filter (fun m => negb (@neqb F (m_coeff m) (@n0 F))) l)
  /\ pol k (filter (fun m => negb (@neqb F (m_coeff m) (@n0 F))) l) n.
Proof.
  induction 1 as [n Hn|m z l n n' Hm Hl IH L]; cbn [filter map]; [split; [reflexivity | apply pol_nil; exact Hn]|].
  destruct IH as [E P]. change (@m_coeff G (rm m)) with (exactly (m_coeff m)). rewrite (rd_eq0 k z) by apply Hm.
  destruct (@neqb F (m_coeff m) (@n0 F)); cbn [negb].
  - split; [exact E|]. eapply pol_le; [exact P|lia].
  - cbn [map]. rewrite E. split; [reflexivity|]. eapply pol_cons; [exact Hm | exact P | exact L].
Qed.

Lemma mon_const k c z : grid k z c -> mon k (@k_to_mono F c) z.
Proof. intro H. split; [intros w []|exact H]. Qed.

Lemma simplify_sim k p n : 0 <= k <= 1000 -> pol k p n -> n <= top ->
  sim (map rm) (fun q => pol k q n) (@poly_simplify F p) (@poly_simplify G (map rm p)).
Proof.
  intros Hk H Ht. unfold poly_simplify. apply sim_check; [apply poly_check_sim|]. intros _.
  eapply sim_bind; [apply (simplify_loop_sim k p n Hk H (@n0 F) 0 [] 0); [reflexivity | apply pol_nil; lia | cbn [Z.abs]; lia]|].
  intros [c l] (z & n1 & Gc & Pl & L). cbn [rpair fst snd] in *. cbn beta iota. cbn [Z.abs] in L.
  destruct (filter_sim _ _ _ Pl) as [E P]. rewrite E. rewrite (rd_eq0 k z c Gc).
  set (nc := filter (fun m : @Monomial F => negb (@neqb F (m_coeff m) (@n0 F))) l) in *.
  assert (D : pol k (match (if @neqb F c (@n0 F) then [] else [@k_to_mono F c]) ++ nc with [] => [@k_to_mono F (@n0 F)] | _ => (if @neqb F c (@n0 F) then [] else [@k_to_mono F c]) ++ nc end) n).
  { assert (P2 : pol k ((if @neqb F c (@n0 F) then [] else [@k_to_mono F c]) ++ nc) n).
    { destruct (@neqb F c (@n0 F)); [eapply pol_le; [exact P|lia]|]. cbn [app]. eapply pol_cons; [apply mon_const; exact Gc | exact P | lia]. }
    destruct ((if @neqb F c (@n0 F) then [] else [@k_to_mono F c]) ++ nc) eqn:Eo; [|exact P2].
    eapply pol_single; [apply mon_const; apply (grid_n0 k) | apply pol_nonneg in P2; cbn [Z.abs]; lia]. }
  apply sim_ok; [exact D|]. destruct (@neqb F c (@n0 F)); cbn [app]; [|reflexivity]. destruct nc; reflexivity.
Qed.

(** ** Simplified expressions *)

Definition sc (k n : Z) (s : @scalar F) : Prop :=
  match s with
  | SK c => exists z, grid k z c /\ Z.abs z <= n
  | SV v => numeric_var v /\ 2 ^ k <= n
  | SM m => exists z, mon k m z /\ Z.abs z <= n
  | SP p => pol k p n
  end.

Lemma sc_nonneg k n s : sc k n s -> 0 <= n.
Proof.
  destruct s as [c|v|m|p]; cbn [sc].
  - intros (z & _ & H). lia.
  - intros [_ H]. assert (0 <= 2 ^ k) by (apply Z.pow_nonneg; lia). lia.
  - intros (z & _ & H). lia.
  - apply pol_nonneg.
Qed.
Lemma sc_le k n n' s : sc k n s -> n <= n' -> sc k n' s.
Proof.
  destruct s as [c|v|m|p]; cbn [sc]; intros H L.
  - destruct H as (z & H & B). exists z. split; [exact H|lia].
  - split; [apply H | destruct H; lia].
  - destruct H as (z & H & B). exists z. split; [exact H|lia].
  - eapply pol_le; [exact H | exact L].
Qed.

Lemma fold_max_sim p d : foldM (fun d m => dm <- @mono_degree G m ;; Ok (if d <? dm then dm else d)) d (map rm p)
  = foldM (fun d m => dm <- @mono_degree F m ;; Ok (if d <? dm then dm else d)) d p.
Proof.
  revert d; induction p as [|m p IH]; intro d; cbn [foldM map]; [reflexivity|].
  assert (E : @mono_degree G (rm m) = @mono_degree F m) by (unfold mono_degree; rewrite mono_check_sim; reflexivity).
  rewrite E. destruct (mono_degree m) as [dm|]; cbn [bind]; [apply IH|reflexivity].
Qed.
Lemma poly_degree_sim p : @poly_degree G (map rm p) = @poly_degree F p.
Proof. unfold poly_degree. rewrite poly_check_sim, fold_max_sim. reflexivity. Qed.

Lemma first_index_map {A B} (rd : A -> B) (f : A -> res bool) (g : B -> res bool) l ix : (forall a, In a l -> g (rd a) = f a) ->
  first_index g (map rd l) ix = first_index f l ix.
Proof.
  revert ix; induction l as [|a l IH]; intros ix H; cbn [first_index map]; [reflexivity|]. rewrite (H a (or_introl eq_refl)).
  destruct (f a) as [[|]|]; cbn [bind]; try reflexivity. apply IH. intros b Hb. apply H. right. exact Hb.
Qed.
Lemma constant_index_sim p : @poly_constant_index G (map rm p) = @poly_constant_index F p.
Proof. unfold poly_constant_index. rewrite poly_check_sim. rewrite (first_index_map rm (@mono_is_constant F)) by (intros; apply is_constant_sim). reflexivity. Qed.
Lemma variable_index_sim p v : numeric_var v -> @poly_variable_index G (map rm p) (rv v) = @poly_variable_index F p v.
Proof.
  intro H. unfold poly_variable_index. rewrite poly_check_sim, var_check_sim by exact H.
  rewrite (first_index_map rm (fun m => @mono_is_degree_one_in F m v)) by (intros; apply degree_one_sim; exact H). reflexivity.
Qed.
Lemma poly_constant_sim k p n : pol k p n -> sim exactly (fun c => exists z, grid k z c /\ Z.abs z <= n) (@poly_constant F p) (@poly_constant G (map rm p)).
Proof.
  intro H. unfold poly_constant. apply sim_check; [apply poly_check_sim|]. intros _. eapply sim_bind; [apply sim_same; apply constant_index_sim|].
  intros [i|] _; cbn beta.
  - eapply sim_bind; [apply (sim_index rm (fun m => exists z, mon k m z /\ Z.abs z <= n)); intros a Ha; eapply pol_in; eassumption|].
    intros m (z & [_ Gz] & L). apply sim_ok; [|reflexivity]. exists z. split; assumption.
  - apply sim_ok; [|reflexivity]. exists 0. split; [reflexivity|]. apply pol_nonneg in H. cbn [Z.abs]. lia.
Qed.
Lemma poly_variables_sim p : @poly_variables G (map rm p) = map rv (@poly_variables F p).
Proof.
  unfold poly_variables. rewrite <- unique_sim. f_equal. induction p as [|m p IH]; cbn [flat_map map]; [reflexivity|]. rewrite map_app, IH. reflexivity.
Qed.
Lemma is_variable_sim k z m v : 0 <= k -> numeric_var v -> mon k m z -> @mono_is_variable G (rm m) (rv v) = @mono_is_variable F m v.
Proof.
  intros Hk Hv Hm. unfold mono_is_variable. rewrite mono_check_sim, var_check_sim, degree_one_sim by exact Hv. change (@m_coeff G (rm m)) with (exactly (m_coeff m)).
  destruct (rd_eq1 k z (m_coeff m) Hk (proj2 Hm)) as [E _]. rewrite E. reflexivity.
Qed.
Lemma to_variable_sim m : (forall w, In w (m_vars m) -> numeric_var w) -> sim rv (fun v => numeric_var v) (@mono_to_variable F m) (@mono_to_variable G (rm m)).
Proof.
  intro H. unfold mono_to_variable. apply sim_check; [apply mono_check_sim|]. intros _. cbn [m_vars exact_mono]. destruct (m_vars m) as [|v0 l] eqn:E; cbn [map]; [reflexivity|].
  assert (Hv : numeric_var v0) by (apply H; left; reflexivity).
  eapply sim_bind; [apply sim_same; apply degree_one_sim; exact Hv|]. intros [|] _; [|reflexivity]. apply sim_ok; [exact Hv|reflexivity].
Qed.

Lemma is_variable_one k z m v : 0 <= k -> mon k m z -> @mono_is_variable F m v = Ok true -> z = 2 ^ k.
Proof.
  intros Hk Hm E. unfold mono_is_variable in E. destruct (check (mono_check m) PCheck); [|discriminate]. cbn [bind] in E. destruct (check (var_check v) PCheck); [|discriminate]. cbn [bind] in E.
  destruct (mono_is_degree_one_in m v) as [b|]; [|discriminate]. cbn [bind] in E. injection E as E. apply andb_true_iff in E. destruct E as [_ E].
  destruct (rd_eq1 k z (m_coeff m) Hk (proj2 Hm)) as [_ K]. apply K. exact E.
Qed.

Lemma mono_simplified_sim k z m n : 0 <= k <= 1000 -> mon k m z -> Z.abs z <= n -> sim rs (sc k n) (@mono_simplified F m) (@mono_simplified G (rm m)).
Proof.
  intros Hk Hm L. unfold mono_simplified. apply sim_check; [apply mono_check_sim|]. intros _. eapply sim_bind; [apply sim_same; apply is_constant_sim|]. intros c _. cbn beta.
  change (@m_coeff G (rm m)) with (exactly (m_coeff m)). rewrite (rd_eq0 k z) by apply Hm. destruct (rd_eq1 k z (m_coeff m) (proj1 Hk) (proj2 Hm)) as [E1 K1].
  assert (HK : sc k n (SK (m_coeff m))) by (exists z; split; [apply Hm | exact L]).
  destruct c; [apply sim_ok; [exact HK | reflexivity]|]. destruct (@neqb F (m_coeff m) (@n0 F)).
  { apply sim_ok; [|reflexivity]. exists 0. split; [reflexivity|]. cbn [Z.abs]. lia. }
  eapply sim_bind; [apply sim_same; reflexivity|]. intros e0 _. cbn beta. cbn [m_vars exact_mono].
  eapply sim_bind; [apply (sim_index rv (fun w => numeric_var w)); intros w Hw; apply (proj1 Hm); exact Hw|]. intros v0 Hv0. cbn beta. rewrite map_length, E1.
  destruct (@neqb F (m_coeff m) (@n1 F)) eqn:Eo; cbn [andb].
  - specialize (K1 eq_refl). destruct (Nat.eqb (length (m_vars m)) 1 && (e0 =? 1)).
    + apply sim_ok; [|reflexivity]. split; [exact Hv0|]. rewrite K1 in L. assert (0 <= 2 ^ k) by (apply Z.pow_nonneg; lia). lia.
    + destruct (forallb (fun e => e =? 0) (m_exps m)) eqn:Ef; cbn [m_exps exact_mono]; rewrite Ef; apply sim_ok; try reflexivity; [exact HK|]. exists z. split; [exact Hm|exact L].
  - destruct (forallb (fun e => e =? 0) (m_exps m)) eqn:Ef; cbn [m_exps exact_mono]; rewrite Ef; apply sim_ok; try reflexivity; [exact HK|]. exists z. split; [exact Hm|exact L].
Qed.

Lemma poly_simplified_sim k p n : 0 <= k <= 1000 -> pol k p n -> n <= top -> sim rs (sc k n) (@poly_simplified F p) (@poly_simplified G (map rm p)).
Proof.
  intros Hk H Ht. unfold poly_simplified. eapply sim_bind; [apply (simplify_sim k p n Hk H Ht)|]. intros pr Hp. cbn beta.
  eapply sim_bind; [apply sim_same; apply poly_degree_sim|]. intros d _. cbn beta. destruct (d =? 0).
  { eapply sim_bind; [apply (poly_constant_sim k pr n Hp)|]. intros c Hc. apply sim_ok; [exact Hc | reflexivity]. }
  set (R := fun o : option (@var F) => match o with None => True | Some v => numeric_var v /\ 2 ^ k <= n end).
  eapply (sim_bind (option_map rv) rs R).
  - destruct (d =? 1); [|apply sim_ok; [exact I | reflexivity]]. destruct pr as [|m [|m2 l]]; cbn [map]; try (apply sim_ok; [exact I | reflexivity]).
    change (poly_variables [rm m]) with (@poly_variables G (map rm [m])). rewrite poly_variables_sim.
    destruct (pol_single_inv _ _ _ Hp) as (z & Hm & L).
    eapply sim_bind.
    { apply (sim_index rv (fun w => numeric_var w)). intros w Hw. apply (proj1 Hm).
      unfold poly_variables in Hw. cbn [flat_map] in Hw. rewrite app_nil_r in Hw.
      assert (U : forall l out, In w (unique_vars_loop l out) -> In w l \/ In w out).
      { clear. induction l as [|v l IH]; intros out Hw; cbn [unique_vars_loop] in Hw; [right; exact Hw|].
        destruct (find_var v out); [destruct (IH _ Hw); [left; right; assumption | right; assumption]|].
        destruct (IH _ Hw) as [K|K]; [left; right; exact K|]. apply in_app_or in K. destruct K as [K|[->|[]]]; [right; exact K | left; left; reflexivity]. }
      destruct (U _ _ Hw) as [K|[]]. exact K. }
    intros v0 Hv0. cbn beta. rewrite (is_variable_sim k z m v0 (proj1 Hk) Hv0 Hm). destruct (@mono_is_variable F m v0) as [[|]|] eqn:Ev; cbn [bind].
    + eapply sim_bind; [apply to_variable_sim; apply Hm|]. intros v Hv. apply sim_ok; [|reflexivity]. split; [exact Hv|].
      apply (is_variable_one k z m v0 (proj1 Hk) Hm) in Ev. subst z. assert (0 <= 2 ^ k) by (apply Z.pow_nonneg; lia). lia.
    + apply sim_ok; [exact I | reflexivity].
    + reflexivity.
  - intros [v|] Hv; cbn [option_map].
    + apply sim_ok; [exact Hv | reflexivity].
    + destruct pr as [|m [|m2 l]]; cbn [map]; apply sim_ok; try reflexivity; [exact Hp | | exact Hp]. apply pol_single_inv. exact Hp.
Qed.

Lemma simplified_sim k s n : 0 <= k <= 1000 -> sc k n s -> n <= top -> sim rs (sc k n) (@scalar_simplified F s) (@scalar_simplified G (rs s)).
Proof.
  intros Hk H Ht. destruct s as [c|v|m|p]; cbn [scalar_simplified exact_scalar].
  - apply sim_ok; [exact H | reflexivity].
  - apply sim_ok; [exact H | reflexivity].
  - destruct H as (z & Hm & L). eapply mono_simplified_sim; eassumption.
  - apply poly_simplified_sim; assumption.
Qed.
