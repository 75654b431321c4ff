(** * Proofs about comparisons and vector and matrix constraints *)

From Coq Require Import ZArith NArith Bool List Lia Permutation.
From Verif Require Import Num Syntax ModelScalar Spec Base ScalarValid Eval ScalarOps ScalarMore ScalarNorm Unamb ScalarLin SpecProg Programs
  ListFacts ScalarFacts ModelSC Order SCProofs SCImplies ModelShape ModelArith SpecArr Arr ArrPlus ArrMul ArrMulMat ArrMulAll ArrMulTop ArrTop ArrPow ArrShape
  ScalarOver ArrMisc ArrSub ArrFacts ModelConstr SpecCon.
Import ListNotations.
Local Open Scope num_scope.

Section ConProofs.
Context {NN : Num}.

Ltac cb := cbn [bind check].

Lemma sense_other s : s <> SenseOther -> sense_check s = true.
Proof. destruct s; congruence || reflexivity. Qed.

Lemma dims_eqb_refl d : dims_eqb d d = true.
Proof. unfold dims_eqb. rewrite !Nat.eqb_refl. reflexivity. Qed.

(** ** Checks of valid constraints *)

Lemma valid_vec_dims n v : valid_array (n, 1) (EV v) -> vec_check v = true /\ vec_len v = Ok n /\ vec_dims v = Ok (n, 1).
Proof.
  intro V. destruct (valid_array_check _ _ V) as [C D]. cbn [expr_check expr_dims] in C, D. split; [exact C|]. split; [|exact D].
  unfold vec_dims in D. destruct (vec_len v) as [m|]; [|discriminate]. cbn in D. congruence.
Qed.

Lemma valid_vec_cols d v : valid_array d (EV v) -> d = (fst d, 1).
Proof. intros V. pose proof V as (D1 & _). pose proof (valid_array_arr _ _ V) as A. pose proof (arr_EV_cols _ _ _ D1 A) as E. destruct d; cbn in *; congruence. Qed.

Lemma vc_check_ok n c : valid_con (n, 1) (CV c) -> vc_check c = Ok tt.
Proof.
  intros (V1 & V2 & S). cbn [con_left con_right con_sense] in *. destruct (valid_vec_dims _ _ V1) as (C1 & _ & D1). destruct (valid_vec_dims _ _ V2) as (C2 & _ & D2).
  unfold vc_check. rewrite C1, C2, (sense_other _ S), D1, D2. cb. rewrite dims_eqb_refl. reflexivity.
Qed.

Lemma valid_mat_dims d m : valid_array d (EM m) -> mat_check m = true /\ mat_dims m = Ok d.
Proof. intro V. exact (valid_array_check _ _ V). Qed.

Lemma mc_check_ok d c : valid_con d (CM c) -> mc_check c = Ok tt.
Proof.
  intros (V1 & V2 & S). cbn [con_left con_right con_sense] in *. destruct (valid_mat_dims _ _ V1) as (C1 & D1). destruct (valid_mat_dims _ _ V2) as (C2 & D2).
  unfold mc_check. rewrite C1, C2, D1, D2. cb. rewrite dims_eqb_refl, (sense_other _ S). reflexivity.
Qed.

Lemma valid_con_check d c : valid_con d c -> con_check c = Ok tt.
Proof.
  intro V. destruct c as [c|c|c]; cbn [con_check].
  - destruct V as (V1 & V2 & S). cbn in *. destruct (valid_array_check _ _ V1) as [C1 _]. destruct (valid_array_check _ _ V2) as [C2 _]. cbn in C1, C2.
    unfold sc_check. rewrite C1, C2, (sense_other _ S). reflexivity.
  - pose proof V as (V1 & _). cbn in V1. pose proof (valid_vec_cols _ _ V1) as E. rewrite E in V. exact (vc_check_ok _ _ V).
  - exact (mc_check_ok _ _ V).
Qed.

(** ** Entries and compilation *)

Lemma vc_at_vec_ok n c i : valid_con (n, 1) (CV c) -> i < n ->
  vc_at_vec c (Z.of_nat i) = Ok (mkSC (entry (EV (vc_left c)) i 0) (entry (EV (vc_right c)) i 0) (vc_sense c)).
Proof.
  intros V Hi. pose proof (vc_check_ok n c V) as C. destruct V as (V1 & V2 & S). cbn [con_left con_right con_sense] in *.
  unfold vc_at_vec, vc_len. rewrite C. cb. destruct (valid_vec_dims _ _ V1) as (_ & L & _). rewrite L. cb.
  rewrite in_range_nat. destruct (Nat.ltb_spec i n); [|lia]. cb.
  rewrite (vector_at_vec n _ i V1 Hi), (vector_at_vec n _ i V2 Hi). reflexivity.
Qed.

Lemma mc_at_ok d c i j : valid_con d (CM c) -> i < fst d -> j < snd d ->
  mc_at c (Z.of_nat i) (Z.of_nat j) = Ok (mkSC (entry (EM (mc_left c)) i j) (entry (EM (mc_right c)) i j) (mc_sense c)).
Proof.
  intros V Hi Hj. pose proof (mc_check_ok d c V) as C. destruct V as (V1 & V2 & S). cbn [con_left con_right con_sense] in *.
  unfold mc_at, mc_dims. rewrite C. cb. destruct (valid_mat_dims _ _ V1) as (_ & L). rewrite L. cb.
  rewrite !in_range_nat. destruct (Nat.ltb_spec i (fst d)); [|lia]. destruct (Nat.ltb_spec j (snd d)); [|lia]. cb.
  pose proof (array_at d _ i j V1 Hi Hj) as E1. pose proof (array_at d _ i j V2 Hi Hj) as E2. cbn [expr_at] in E1, E2. rewrite E1, E2. reflexivity.
Qed.

Lemma mapM_map {A B} (f : A -> res B) (g : A -> B) l : (forall a, In a l -> f a = Ok (g a)) -> mapM f l = Ok (map g l).
Proof.
  induction l as [|a l IH]; intro H; [reflexivity|]. cbn. rewrite (H a (or_introl eq_refl)). cb. rewrite IH; [reflexivity|]. intros b Hb. apply H. right. exact Hb.
Qed.

Lemma flat_map_one {A B} (f : A -> B) l : flat_map (fun a => [f a]) l = map f l.
Proof. induction l; cbn; congruence. Qed.

Lemma con_scalars_ok d c : valid_con d c -> con_scalars c = Ok (entry_constraints d c).
Proof.
  intro V. destruct c as [c|c|c]; cbn [con_scalars].
  - pose proof V as (V1 & _). pose proof (valid_array_ES _ _ V1) as ->. unfold entry_constraints. cbn. destruct c; reflexivity.
  - pose proof V as (V1 & _). cbn in V1. pose proof (valid_vec_cols _ _ V1) as E. rewrite E in *. clear E. set (n := fst d) in *.
    pose proof (vc_check_ok n c V) as C. unfold vc_len. rewrite C. cb. destruct (valid_vec_dims _ _ V1) as (_ & L & _). rewrite L. cb.
    unfold entry_constraints. cbn [fst snd seq map]. rewrite flat_map_one. apply mapM_map. intros i Hi. apply in_seq in Hi. apply (vc_at_vec_ok n c i V). lia.
  - pose proof V as (V1 & _). cbn in V1. pose proof (mc_check_ok d c V) as C. unfold mc_dims. rewrite C. cb. destruct (valid_mat_dims _ _ V1) as (_ & L). rewrite L. cb.
    rewrite (mapM_map _ (fun i => map (fun j => mkSC (entry (EM (mc_left c)) i j) (entry (EM (mc_right c)) i j) (mc_sense c)) (seq 0 (snd d)))).
    + cb. unfold entry_constraints. cbn [con_left con_right con_sense]. rewrite <- flat_map_concat_map. reflexivity.
    + intros i Hi. apply in_seq in Hi. apply mapM_map. intros j Hj. apply in_seq in Hj. apply (mc_at_ok d c i j V); lia.
Qed.

Lemma compile_ok ds l : Forall2 valid_con ds l -> compile_constraints l = Ok (concat (map (fun dc => entry_constraints (fst dc) (snd dc)) (combine ds l))).
Proof.
  intro H. unfold compile_constraints.
  assert (E : mapM con_scalars l = Ok (map (fun dc => entry_constraints (fst dc) (snd dc)) (combine ds l))).
  { induction H as [|d c ds l V _ IH]; [reflexivity|]. cbn [mapM combine map]. rewrite (con_scalars_ok d c V). cb. rewrite IH. reflexivity. }
  rewrite E. reflexivity.
Qed.

Lemma entry_constraints_in d c s : In s (entry_constraints d c) <->
  exists i j, i < fst d /\ j < snd d /\ s = mkSC (entry (con_left c) i j) (entry (con_right c) i j) (con_sense c).
Proof.
  unfold entry_constraints. rewrite in_flat_map. split.
  - intros (i & Hi & H). apply in_map_iff in H. destruct H as (j & <- & Hj). apply in_seq in Hi, Hj. exists i, j. repeat split; lia.
  - intros (i & j & Hi & Hj & ->). exists i. split; [apply in_seq; lia|]. apply in_map_iff. exists j. split; [reflexivity | apply in_seq; lia].
Qed.

Lemma entry_constraints_sat r d c : Forall (satisfies r) (entry_constraints d c) <-> con_sat r d c.
Proof.
  rewrite Forall_forall. split.
  - intros H i j Hi Hj. apply (H (mkSC (entry (con_left c) i j) (entry (con_right c) i j) (con_sense c))). apply entry_constraints_in. exists i, j. auto.
  - intros H s Hs. apply entry_constraints_in in Hs. destruct Hs as (i & j & Hi & Hj & ->). exact (H i j Hi Hj).
Qed.

Lemma entry_constraints_valid d c : valid_con d c -> Forall valid_constraint (entry_constraints d c).
Proof.
  intros ((_ & _ & _ & V1) & (_ & _ & _ & V2) & S). apply Forall_forall. intros s Hs. apply entry_constraints_in in Hs. destruct Hs as (i & j & Hi & Hj & ->).
  split; [|split]; cbn; auto.
Qed.

Lemma flat_map_const_length {A B} (f : A -> list B) n l : (forall a, length (f a) = n) -> length (flat_map f l) = (length l * n)%nat.
Proof. intro H. induction l as [|a l IH]; [reflexivity|]. cbn. rewrite app_length, H, IH. reflexivity. Qed.

Lemma entry_constraints_length d c : length (entry_constraints d c) = (fst d * snd d)%nat.
Proof. unfold entry_constraints. rewrite (flat_map_const_length _ (snd d)); [rewrite seq_length; reflexivity|]. intro i. rewrite map_length, seq_length. reflexivity. Qed.

Lemma compile_conjunction ds l : Forall2 valid_con ds l ->
  exists out, compile_constraints l = Ok out /\ Forall valid_constraint out /\ length out = entries_count ds
    /\ forall r, Forall (satisfies r) out <-> Forall2 (con_sat r) ds l.
Proof.
  intro H. eexists. split; [apply compile_ok; exact H|]. induction H as [|d c ds l V H (IH1 & IH2 & IH3)]; cbn [combine map concat].
  - split; [constructor|]. split; [reflexivity|]. intro r. split; constructor.
  - split; [|split].
    + apply Forall_app. split; [apply entry_constraints_valid; exact V | exact IH1].
    + rewrite app_length, IH2. cbn [fst snd]. rewrite entry_constraints_length. reflexivity.
    + intro r. rewrite Forall_app, (entry_constraints_sat r d c), (IH3 r). split.
      * intros [H1 H2]. constructor; assumption.
      * intro X. inversion X; subst. auto.
Qed.

Lemma compile_entries ds l : Forall2 valid_con ds l ->
  compile_constraints l = Ok (concat (map (fun dc => entry_constraints (fst dc) (snd dc)) (combine ds l))).
Proof. apply compile_ok. Qed.

(** ** Comparison *)

Lemma comparison_check_ok a g b da db s : valid_array da a -> valid_array db b -> means g = Some b -> (da = db \/ is_scalar a \/ is_scalar b) -> comparison_check a g s = Ok tt.
Proof.
  intros Va Vb M HB. unfold comparison_check.
  assert (X : as_expr g = Some b \/ exists z, g = GInt z) by (destruct g; cbn in M |- *; try (left; exact M); right; eauto).
  destruct X as [X|[z ->]]; [|reflexivity]. rewrite X. destruct (valid_array_check _ _ Vb) as [Cb Db]. destruct (valid_array_check _ _ Va) as [_ Da].
  rewrite Cb. cb. unfold comparison_dims. rewrite Da, Db. cb. destruct HB as [->|[H|H]].
  - rewrite dims_eqb_refl. reflexivity.
  - destruct a; try destruct H. cbn. rewrite orb_true_r. reflexivity.
  - destruct b; try destruct H. cbn. rewrite orb_true_r. reflexivity.
Qed.

Lemma constant_vector_ok n f : 1 <= n -> constant_vector n f = Ok (repeat (f * n1) n).
Proof.
  intro H. unfold constant_vector. rewrite (ones_vector_facts n H). cb. f_equal. clear H. induction n; cbn; congruence.
Qed.
Lemma map_repeat_any {A B} (f : A -> B) a n : map f (repeat a n) = repeat (f a) n.
Proof. induction n; cbn; congruence. Qed.
Lemma constant_matrix_ok d f : 1 <= fst d -> 1 <= snd d -> constant_matrix d f = Ok (repeat (repeat (f * n1) (snd d)) (fst d)).
Proof.
  intros H1 H2. unfold constant_matrix. destruct (ones_matrix_facts (fst d) (snd d) H1 H2) as (l & E & _). unfold ones_matrix in *.
  destruct (Nat.eqb_spec (fst d) 0); [lia|]. destruct (Nat.eqb_spec (snd d) 0); [lia|]. cbn [orb bind]. rewrite !map_repeat_any. reflexivity.
Qed.

Lemma repeat_vec_valid n k : 1 <= n -> valid_array (n, 1) (EV (VK (repeat k n))).
Proof.
  intro H. split; [exact H|]. split; [cbn; lia|]. split.
  - split; cbn; [rewrite map_length, repeat_length; reflexivity|]. apply Forall_forall. intros row Hr. apply in_map_iff in Hr. destruct Hr as (x & <- & _). reflexivity.
  - cbn [fst snd]. intros i j Hi Hj. unfold entry. cbn [rows]. assert (X : nth_error (repeat k n) i = Some k).
    { rewrite nth_error_nth' with (d := k) by (rewrite repeat_length; exact Hi). rewrite nth_repeat. reflexivity. }
    rewrite (nth_error_nth_eq _ i [SK k]); [|rewrite nth_error_map, X; reflexivity]. destruct j; [exact I|lia].
Qed.
Lemma repeat_vec_value r n k i : i < n -> value r (EV (VK (repeat k n))) i 0 = k.
Proof.
  intro Hi. unfold value, entry. cbn [rows]. assert (X : nth_error (repeat k n) i = Some k).
  { rewrite nth_error_nth' with (d := k) by (rewrite repeat_length; exact Hi). rewrite nth_repeat. reflexivity. }
  rewrite (nth_error_nth_eq _ i [SK k]); [|rewrite nth_error_map, X; reflexivity]. reflexivity.
Qed.

Lemma dense_repeat d k : dense_shape d (repeat (repeat k (snd d)) (fst d)).
Proof.
  split; [apply repeat_length|]. apply Forall_forall. intros row Hr. apply repeat_spec in Hr. subst. apply repeat_length.
Qed.
Lemma dense_repeat_value r d k i j : i < fst d -> j < snd d -> value r (EM (MK (repeat (repeat k (snd d)) (fst d)))) i j = k.
Proof.
  intros Hi Hj. rewrite dense_value. unfold dense_entry. rewrite (nth_indep _ [] (repeat k (snd d))) by (rewrite repeat_length; exact Hi).
  rewrite nth_repeat. rewrite (nth_indep _ n0 k) by (rewrite repeat_length; exact Hj). apply nth_repeat.
Qed.

Lemma means_as_expr g b : means g = Some b -> as_expr g = Some b \/ exists z, g = GInt z.
Proof. destruct g; cbn; intro M; try (left; exact M); right; eauto. Qed.

Lemma repeat_row_valid d k : 1 <= fst d -> 1 <= snd d -> valid_array d (EM (MK (repeat (repeat k (snd d)) (fst d)))).
Proof. intros H1 H2. apply dense_valid; [exact H1 | exact H2 | apply dense_repeat]. Qed.

Lemma broadcast_ok a b da db d : broadcast a b da db d -> da = db \/ is_scalar a \/ is_scalar b.
Proof. intros [[-> _]|[[H _]|[H _]]]; auto. Qed.

Lemma scalar_dims s d : valid_array d (ES s) -> d = (1, 1).
Proof. exact (valid_array_ES d s). Qed.

Lemma checked_scalar_arg g b db : valid_array db b -> means g = Some b -> (match as_expr g with None => Ok tt | Some b => check (expr_check b) PCheck end) = Ok tt.
Proof.
  intros Vb M. destruct (valid_array_check _ _ Vb) as [C _]. destruct (means_as_expr _ _ M) as [->|[z ->]]; [rewrite C|]; reflexivity.
Qed.

Definition right_of (n : nat) (d : nat * nat) (b : expr) (c : constraint) : Prop :=
  match c, b with
  | CV c, ES (SK k) => vc_right c = VK (repeat (k * n1) n)
  | CM c, ES (SK k) => mc_right c = MK (repeat (repeat (k * n1) (snd d)) (fst d))
  | CS c, ES t => sc_right c = t
  | CV c, EV w => vc_right c = w
  | CM c, EM w => mc_right c = w
  | _, _ => False
  end.

Lemma vec_comparison_spec n v g b db s : valid_array (n, 1) (EV v) -> valid_array db b -> means g = Some b -> ((n, 1) = db \/ is_scalar b) ->
  (exists c, vec_comparison v g s = Ok c /\ comparison_accepts (EV v) g = true /\ con_left c = EV v /\ con_sense c = s /\ right_of n (n, 1) b c)
  \/ (exists p, vec_comparison v g s = Panic p /\ comparison_accepts (EV v) g = false).
Proof.
  intros Va Vb M HB. unfold vec_comparison. destruct (valid_vec_dims _ _ Va) as (C & L & _). rewrite C. cb.
  rewrite (comparison_check_ok _ _ _ _ _ s Va Vb M) by (destruct HB; auto). cb. unfold vec_comparison_right. rewrite L. cb.
  pose proof Va as (H1 & _). cbn in H1. destruct v as [l|l|l|l]; destruct g as [f|z|w|w|w|w|[[k|x|m|p]|[w|w|w|w]|[w|w|w|w]]|]; cbn in M; inversion M; subst b;
    first [ right; eexists; split; reflexivity
          | left; try rewrite (constant_vector_ok _ _ H1); cb; eexists; split; [reflexivity|]; repeat split; reflexivity ].
Qed.

Lemma mat_comparison_spec d m g b db s : valid_array d (EM m) -> valid_array db b -> means g = Some b -> (d = db \/ is_scalar b) ->
  (exists c, mat_comparison m g s = Ok c /\ comparison_accepts (EM m) g = true /\ con_left c = EM m /\ con_sense c = s /\ right_of (fst d) d b c)
  \/ (exists p, mat_comparison m g s = Panic p /\ comparison_accepts (EM m) g = false).
Proof.
  intros Va Vb M HB. unfold mat_comparison. destruct (valid_mat_dims _ _ Va) as (C & L). rewrite C. cb.
  rewrite (comparison_check_ok _ _ _ _ _ s Va Vb M) by (destruct HB; auto). cb. unfold mat_comparison_right. rewrite L.
  pose proof Va as (H1 & H2 & _). destruct m as [l|l|l|l]; destruct g as [f|z|w|w|w|w|[[k|x|t|p]|[w|w|w|w]|[w|w|w|w]]|]; cbn in M; inversion M; subst b;
    cb; first [ right; eexists; split; reflexivity
          | left; try rewrite (constant_matrix_ok _ _ H1 H2); cb; eexists; split; [reflexivity|]; repeat split; reflexivity ].
Qed.

Lemma k_comparison_spec c g b db s : valid_array db b -> means g = Some b ->
  (exists o, k_comparison c g s = Ok o /\ comparison_accepts (ES (SK c)) g = true /\ con_sense o = s /\ con_right o = b
     /\ con_left o = match b with EV _ => EV (VK (repeat c (fst db))) | _ => ES (SK c) end /\ ~ is_matrix b)
  \/ (exists p, k_comparison c g s = Panic p /\ comparison_accepts (ES (SK c)) g = false).
Proof.
  intros Vb M. unfold k_comparison. rewrite (checked_scalar_arg _ _ _ Vb M). cb.
  pose proof Vb as (_ & _ & (LR & _) & _).
  destruct g as [f|z|w|w|w|w|[[k|x|m|p]|[w|w|w|w]|[w|w|w|w]]|]; cbn in M; inversion M; subst b; cbn [rows] in LR; try rewrite map_length in LR;
    first [ right; eexists; split; reflexivity
          | left; eexists; split; [reflexivity|]; repeat split; try reflexivity; try (intro X; exact X); cbn; rewrite ?LR; reflexivity ].
Qed.

Lemma scalar_comparison_spec a g b db s : valid a -> (match a with SK _ => False | _ => True end) -> valid_array db b -> means g = Some b ->
  (exists o, scalar_comparison a g s = Ok o /\ comparison_accepts (ES a) g = true /\ con_sense o = s /\ con_right o = b /\ con_left o = ES a /\ is_scalar b)
  \/ (exists p, scalar_comparison a g s = Panic p /\ comparison_accepts (ES a) g = false).
Proof.
  intros Va NK Vb M. assert (C : scalar_check a = true) by (exact (valid_check _ Va)).
  destruct a as [c|v|m|p]; [destruct NK|..]; unfold scalar_comparison; rewrite C; cb; rewrite (checked_scalar_arg _ _ _ Vb M); cb;
  destruct g as [f|z|w|w|w|w|[t|w|w]|]; cbn in M; inversion M; subst b;
    first [ right; eexists; split; reflexivity
          | left; eexists; split; [reflexivity|]; repeat split; try reflexivity ].
Qed.

(** The summary: every accepted comparison of matching dimensions succeeds, every other panics; the sides of the constraint *)
Lemma comparison_cases a g b da db d s : valid_array da a -> valid_array db b -> means g = Some b -> broadcast a b da db d ->
  (exists c, expr_comparison a g s = Ok c /\ comparison_accepts a g = true /\ con_sense c = s /\
     valid_array d (con_left c) /\ valid_array d (con_right c) /\
     (forall r i j, i < fst d -> j < snd d -> value r (con_left c) i j = bvalue r a i j) /\
     (forall r i j, i < fst d -> j < snd d -> value r (con_right c) i j = bvalue r b i j \/
        (~ is_scalar a /\ is_scalar b /\ value r (con_right c) i j = bvalue r b i j * n1)))
  \/ (exists p, expr_comparison a g s = Panic p /\ comparison_accepts a g = false).
Proof.
  intros Va Vb M HB. destruct a as [a|v|m]; cbn [expr_comparison].
  - pose proof (scalar_dims _ _ Va) as ->. assert (Va' : valid a) by (destruct Va as (_ & _ & _ & H); apply (H 0 0)%nat; cbn; lia).
    assert (D : d = db) by (destruct HB as [[E ->]|[[_ E]|[H E]]]; [exact E | exact E | destruct b; try destruct H; rewrite (scalar_dims _ _ Vb); exact E]). subst d. clear HB.
    assert (K : (exists c, a = SK c) \/ match a with SK _ => False | _ => True end) by (destruct a; eauto). destruct K as [[c ->]|NK].
    + destruct (k_comparison_spec c g b db s Vb M) as [(o & E & AC & SE & RI & LE & NM)|P]; [left|right; exact P].
      exists o. split; [exact E|]. split; [exact AC|]. split; [exact SE|]. rewrite RI, LE. clear RI LE. destruct b as [t|w|w]; [| |destruct (NM I)].
      * pose proof (scalar_dims _ _ Vb) as ->. split; [exact Va|]. split; [exact Vb|]. split; intros r i j Hi Hj; cbn in Hi, Hj.
        -- assert (i = 0%nat) by lia. assert (j = 0%nat) by lia. subst. reflexivity.
        -- left. assert (i = 0%nat) by lia. assert (j = 0%nat) by lia. subst. reflexivity.
      * pose proof (valid_vec_cols _ _ Vb) as ED. pose proof Vb as (H1 & _). split; [rewrite ED; apply repeat_vec_valid; exact H1|]. split; [exact Vb|]. split; intros r i j Hi Hj.
        -- rewrite ED in Hj. cbn in Hj. assert (j = 0%nat) by lia. subst. apply repeat_vec_value. exact Hi.
        -- left. reflexivity.
    + destruct (scalar_comparison_spec a g b db s Va' NK Vb M) as [(o & E & AC & SE & RI & LE & NM)|P]; [left|right; exact P].
      exists o. split; [exact E|]. split; [exact AC|]. split; [exact SE|]. rewrite RI, LE. clear RI LE. destruct b as [t|w|w]; try destruct NM.
      pose proof (scalar_dims _ _ Vb) as ->. split; [exact Va|]. split; [exact Vb|]. split; intros r i j Hi Hj; cbn in Hi, Hj.
      * assert (i = 0%nat) by lia. assert (j = 0%nat) by lia. subst. reflexivity.
      * left. assert (i = 0%nat) by lia. assert (j = 0%nat) by lia. subst. reflexivity.
  - pose proof (valid_vec_cols _ _ Va) as ED. remember (fst da) as n eqn:En. rewrite ED in *. clear ED En da.
    assert (X : d = (n, 1) /\ ((n, 1) = db \/ is_scalar b)) by (destruct HB as [[E ->]|[[[] _]|[H E]]]; auto). destruct X as [-> X]. clear HB.
    destruct (vec_comparison_spec n v g b db s Va Vb M X) as [(o & E & AC & LE & SE & RI)|P]; [left|right; exact P].
    exists o. split; [exact E|]. split; [exact AC|]. split; [exact SE|]. rewrite LE. split; [exact Va|]. destruct o as [o|o|o]; cbn in LE; try discriminate.
    pose proof Va as (H1 & _). cbn in H1. destruct b as [[k|y|y|y]|w|w]; cbn [con_right right_of] in *; try contradiction; rewrite RI; clear RI.
    + split; [apply repeat_vec_valid; exact H1|]. split; [reflexivity|]. intros r i j Hi Hj. cbn in Hi, Hj. assert (j = 0%nat) by lia. subst j. right. split; [intros []|]. split; [exact I|]. apply repeat_vec_value. exact Hi.
    + destruct X as [<-|[]]. split; [exact Vb|]. split; [reflexivity|]. intros r i j Hi Hj. left. reflexivity.
  - assert (X : d = da /\ (da = db \/ is_scalar b)) by (destruct HB as [[E ->]|[[[] _]|[H E]]]; auto). destruct X as [-> X]. clear HB.
    destruct (mat_comparison_spec da m g b db s Va Vb M X) as [(o & E & AC & LE & SE & RI)|P]; [left|right; exact P].
    exists o. split; [exact E|]. split; [exact AC|]. split; [exact SE|]. rewrite LE. split; [exact Va|]. destruct o as [o|o|o]; cbn in LE; try discriminate.
    pose proof Va as (H1 & H2 & _). destruct b as [[k|y|y|y]|w|w]; cbn [con_right right_of] in *; try contradiction; rewrite RI; clear RI.
    + split; [apply repeat_row_valid; assumption|]. split; [reflexivity|]. intros r i j Hi Hj. right. split; [intros []|]. split; [exact I|]. apply dense_repeat_value; assumption.
    + destruct X as [<-|[]]. split; [exact Vb|]. split; [reflexivity|]. intros r i j Hi Hj. left. reflexivity.
Qed.

Lemma comparison_total a g b da db d s : valid_array da a -> valid_array db b -> means g = Some b -> broadcast a b da db d -> comparison_accepts a g = true ->
  exists c, expr_comparison a g s = Ok c.
Proof.
  intros Va Vb M HB A. destruct (comparison_cases a g b da db d s Va Vb M HB) as [(c & E & _)|(p & _ & F)]; [eauto|congruence].
Qed.

Lemma comparison_unsupported a g b da db d s : valid_array da a -> valid_array db b -> means g = Some b -> broadcast a b da db d -> comparison_accepts a g = false ->
  exists p, expr_comparison a g s = Panic p.
Proof.
  intros Va Vb M HB A. destruct (comparison_cases a g b da db d s Va Vb M HB) as [(c & _ & F & _)|(p & E & _)]; [congruence|eauto].
Qed.

Lemma comparison_sense a g b da db d s c : valid_array da a -> valid_array db b -> means g = Some b -> broadcast a b da db d ->
  expr_comparison a g s = Ok c -> con_sense c = s /\ (s <> SenseOther -> valid_con d c).
Proof.
  intros Va Vb M HB E. destruct (comparison_cases a g b da db d s Va Vb M HB) as [(c' & E' & _ & S & V1 & V2 & _)|(p & E' & _)]; [|congruence].
  rewrite E in E'. inversion E'; subst c'. split; [exact S|]. intro NS. split; [exact V1|]. split; [exact V2|]. rewrite S. exact NS.
Qed.

Lemma comparison_means a g b da db d s c : valid_array da a -> valid_array db b -> means g = Some b -> broadcast a b da db d -> is_scalar a \/ ~ is_scalar b ->
  expr_comparison a g s = Ok c -> forall r, con_sat r d c <-> forall i j, i < fst d -> j < snd d -> holds (bvalue r a i j) s (bvalue r b i j).
Proof.
  intros Va Vb M HB SC E r. destruct (comparison_cases a g b da db d s Va Vb M HB) as [(c' & E' & _ & S & V1 & V2 & LE & RI)|(p & E' & _)]; [|congruence].
  rewrite E in E'. inversion E'; subst c'. unfold con_sat.
  assert (X : forall i j, i < fst d -> j < snd d -> holds (value r (con_left c) i j) (con_sense c) (value r (con_right c) i j) <-> holds (bvalue r a i j) s (bvalue r b i j)).
  { intros i j Hi Hj. rewrite (LE r i j Hi Hj), S. destruct (RI r i j Hi Hj) as [->|(NA & NB & _)]; [reflexivity|tauto]. }
  split; intros H i j Hi Hj; apply X; auto.
Qed.

Lemma comparison_means_exact (EX : ExactNum NN) a g b da db d s c : valid_array da a -> valid_array db b -> means g = Some b -> broadcast a b da db d ->
  expr_comparison a g s = Ok c -> forall r, con_sat r d c <-> forall i j, i < fst d -> j < snd d -> holds (bvalue r a i j) s (bvalue r b i j).
Proof.
  intros Va Vb M HB E r. destruct (comparison_cases a g b da db d s Va Vb M HB) as [(c' & E' & _ & S & V1 & V2 & LE & RI)|(p & E' & _)]; [|congruence].
  rewrite E in E'. inversion E'; subst c'. unfold con_sat.
  assert (X : forall i j, i < fst d -> j < snd d -> holds (value r (con_left c) i j) (con_sense c) (value r (con_right c) i j) <-> holds (bvalue r a i j) s (bvalue r b i j)).
  { intros i j Hi Hj. rewrite (LE r i j Hi Hj), S. destruct (RI r i j Hi Hj) as [->|(NA & NB & ->)]; [reflexivity|]. rewrite (exact_mul_1_r EX). reflexivity. }
  split; intros H i j Hi Hj; apply X; auto.
Qed.

Lemma comparison_mismatch a g b da db s : valid_array da a -> valid_array db b -> means g = Some b -> ~ is_scalar a -> ~ is_scalar b -> da <> db -> s <> SenseOther ->
  expr_comparison a g s = Panic PDim.
Proof.
  intros Va Vb M NA NB ND NS.
  assert (X : comparison_check a g s = Panic PDim).
  { unfold comparison_check. destruct (means_as_expr _ _ M) as [->|[z ->]].
    - destruct (valid_array_check _ _ Vb) as [Cb Db]. destruct (valid_array_check _ _ Va) as [_ Da]. rewrite Cb. cb. unfold comparison_dims. rewrite Da, Db. cb.
      assert (dims_eqb da db = false) as -> .
      { unfold dims_eqb. destruct (Nat.eqb_spec (fst da) (fst db)); [|reflexivity]. destruct (Nat.eqb_spec (snd da) (snd db)); [|reflexivity]. destruct da, db; cbn in *; congruence. }
      destruct a, b; cbn in NA, NB; try tauto; cbn; destruct s; try congruence; reflexivity.
    - cbn in M. inversion M; subst b. destruct NB. exact I. }
  destruct (valid_array_check _ _ Va) as [Ca _]. destruct a as [a|v|m]; [destruct NA; exact I|..]; cbn in Ca |- *; unfold vec_comparison, mat_comparison; rewrite Ca; cb; rewrite X; reflexivity.
Qed.

(** ** Never an Ok result from an invalid operand (C47) *)

Lemma comparison_receiver_check a g s : expr_check a = false -> exists p, expr_comparison a g s = Panic p.
Proof.
  intro C. destruct a as [a|v|m]; cbn in C |- *.
  - destruct a; cbn in C; try discriminate; unfold scalar_comparison; cbn [scalar_check]; rewrite C; eexists; reflexivity.
  - unfold vec_comparison. rewrite C. eexists; reflexivity.
  - unfold mat_comparison. rewrite C. eexists; reflexivity.
Qed.

Lemma comparison_operand_check a b s : expr_check b = false -> exists p, expr_comparison a (GExpr b) s = Panic p.
Proof.
  intro C. destruct a as [a|v|m]; cbn.
  - destruct a; unfold scalar_comparison, k_comparison; cbn [as_expr]; rewrite C; cb; try (eexists; reflexivity);
    match goal with |- context [check ?x _] => destruct x; cb end; eexists; reflexivity.
  - unfold vec_comparison, comparison_check. cbn [as_expr]. rewrite C. destruct (vec_check v); cb; eexists; reflexivity.
  - unfold mat_comparison, comparison_check. cbn [as_expr]. rewrite C. destruct (mat_check m); cb; eexists; reflexivity.
Qed.

Lemma comparison_other a s : exists p, expr_comparison a GOther s = Panic p.
Proof.
  destruct a as [[?|?|?|?]|v|m]; cbn; unfold scalar_comparison, vec_comparison, mat_comparison, comparison_check; cbn;
    try (eexists; reflexivity);
    match goal with |- context [check ?x _] => destruct x; cb; try (eexists; reflexivity) end.
  - unfold vec_comparison_right. destruct (vec_len v); cb; [destruct v|]; eexists; reflexivity.
  - destruct m; eexists; reflexivity.
Qed.

End ConProofs.
