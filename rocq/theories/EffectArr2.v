(** * Entrywise effect of Plus and of simplification: every type *)

From Coq Require Import ZArith NArith Bool List Lia Ring Field.
From Verif Require Import Num Syntax ModelScalar Spec SpecConv SpecEffect Base ScalarValid Eval ScalarOps ScalarMore ScalarNorm Canon ModelShape ModelArith SpecArr SpecEffectArr Arr ArrPlus Effect EffectArr.
Import ListNotations.
Local Open Scope num_scope.

Section EffectArr2.
Context {NN : Num}.

Local Notation den d A := (arr d (pt A)) (only parsing).

Lemma valid_array_pt d e : valid_array d e -> den d (entry e) e.
Proof. intro V. eapply arr_impl; [|exact (valid_array_arr d e V)]. intros i j s _ _ [<- Vs]. split; [exact Vs | reflexivity]. Qed.
Lemma arr_entry d P e i j : arr d P e -> i < fst d -> j < snd d -> P i j (entry e i j).
Proof.
  intros [L H] Hi Hj. destruct (H i Hi) as (row & E & Lr & Hr). destruct (Hr j Hj) as (s & Es & Hs).
  assert (X : entry e i j = s). { unfold entry. rewrite (nth_error_nth_eq _ _ _ [] E). apply nth_error_nth_eq. exact Es. }
  rewrite X. exact Hs.
Qed.
Lemma bA_bentry d e i j : valid_array d e -> bA e (entry e) i j = bentry e i j.
Proof. intros V. destruct e; reflexivity. Qed.

(** ** MonomialMatrix: the terms are listed one after the other *)

Definition tden (d : nat * nat) (L : nat -> nat -> list Monomial) (e : expr) : Prop := arr d (fun i j s => valid s /\ terms s = L i j) e.

Lemma mono_entry_terms m s : valid (SM m) -> valid s -> exists p, mono_mat_plus_entry m (terms s) = Ok p /\ valid (SP p) /\ p = m :: terms s.
Proof.
  intros Vm Vs. assert (V : valid (SP (m :: terms s))) by (split; [discriminate | constructor; [exact Vm | apply valid_terms; exact Vs]]).
  exists (m :: terms s). split; [|split; [exact V | reflexivity]].
  unfold mono_mat_plus_entry. rewrite (poly_simplify_ok (m :: terms s)); [reflexivity|]. apply valid_poly_check. exact V.
Qed.

Lemma mono_mat_all_terms d A l s : den d A (EM (MM l)) -> valid s ->
  exists e, mono_mat_plus_all l (terms s) = Ok e /\ tden d (fun i j => terms (A i j) ++ terms s) e.
Proof.
  intros Hl Hs. apply arr_EM in Hl. cbn [mat_rows] in Hl. apply (proj1 (grid_map _ _ _ _)) in Hl. unfold mono_mat_plus_all.
  destruct (mapM_col (fst d) (fun i => col (snd d) (fun j b => pt A i j (SM b))) (fun i => col (snd d) (fun j b => valid (SP b) /\ b = terms (A i j) ++ terms s))
              (mapM (fun m => mono_mat_plus_entry m (terms s))) l) as (rows & -> & Hrows).
  - intros i r _. apply mapM_col. intros j m _ [Vm <-]. destruct (mono_entry_terms m s Vm Hs) as (p & E & V & ->). exists (m :: terms s). split; [exact E|]. split; [exact V | reflexivity].
  - exact Hl.
  - cbn. exists (EM (MP rows)). split; [reflexivity|]. apply arr_EM. cbn [mat_rows]. apply grid_map. exact Hrows.
Qed.

Lemma mono_mat_plus_terms d db A B l g e : 1 <= fst d -> 1 <= snd d -> den d A (EM (MM l)) -> means g = Some e -> den db B e ->
  1 <= fst db -> 1 <= snd db -> (db = d \/ is_scalar e) -> mono_mat_plus_type g = true ->
  exists x, mono_mat_plus l g = Ok x /\ tden d (fun i j => terms (A i j) ++ terms (bA e B i j)) x.
Proof.
  intros H1 H2 Hl Hg He B1 B2 H HT. unfold mono_mat_plus. rewrite (mat_operand_pt d db A B (MM l) g e H1 H2 Hl Hg He B1 B2 H).
  rewrite (mat_check_grid d _ _ H1 (pt_valid A) (proj1 (arr_EM _ _ _) Hl)). cbn [check bind].
  assert (HS : forall s, e = ES s -> exists x, mono_mat_plus_all l (terms s) = Ok x /\ tden d (fun i j => terms (A i j) ++ terms (bA e B i j)) x).
  { intros s ->. rewrite (arr_ES_dims _ _ _ B1 He) in He. apply arr_ES in He. cbn [bA]. destruct He as [Vs <-]. apply mono_mat_all_terms; assumption. }
  assert (HM : forall m, e = EM m -> den d B (EM m)). { intros m ->. destruct H as [->|[]]. exact He. }
  destruct g as [f|z|l0|l0|l0|l0|[[k|x|mo|p]|v|[lk|lv|lm|lp]]|]; cbn in Hg; try discriminate Hg; try discriminate HT; injection Hg as <-.
  - exact (HS (SK f) eq_refl).
  - exact (HS (SK k) eq_refl).
  - exact (HS (SV x) eq_refl).
  - exact (HS (SM mo) eq_refl).
  - exact (HS (SP p) eq_refl).
  - cbn [bA]. pose proof (HM _ eq_refl) as Hp. apply arr_EM in Hp. apply arr_EM in Hl. cbn [mat_rows] in Hp, Hl. apply (proj1 (grid_map _ _ _ _)) in Hp. apply (proj1 (grid_map _ _ _ _)) in Hl.
    assert (X : forall i j m p, pt A i j (SM m) -> pt B i j (SP p) -> exists q, mono_mat_plus_entry m p = Ok q /\ valid (SP q) /\ q = terms (A i j) ++ terms (B i j)).
    { intros i j m p [Vm <-] [Vp <-]. destruct (mono_entry_terms m (SP p) Vm Vp) as (q & E & V & ->). exists (m :: p). split; [exact E|]. split; [exact V | reflexivity]. }
    destruct (enum_rows_good d _ _ (fun i j p => valid (SP p) /\ p = terms (A i j) ++ terms (B i j)) l lp mono_mat_plus_entry X Hl Hp) as (rows & -> & Hrows).
    cbn. exists (EM (MP rows)). split; [reflexivity|]. apply arr_EM. cbn [mat_rows]. apply grid_map. exact Hrows.
Qed.

(** ** Plus *)

Lemma broadcast_left a b da db d v : 1 <= fst da -> (forall s, a <> ES s) -> broadcast a b da db d -> v = a -> d = da /\ (db = da \/ is_scalar b).
Proof. intros _ Ha [[H1 H2]|[[H _]|[H1 H2]]] _; auto. destruct a; try destruct H. exfalso. exact (Ha s eq_refl). Qed.

Lemma mono_type_ok l g : plus_accepts (EM (MM l)) g = true -> mono_mat_plus_type g = true.
Proof. destruct g as [f|z|l0|l0|l0|l0|[[k|x|mo|p]|v0|[lk|lv|lm|lp]]|]; intro H; (exact H || reflexivity). Qed.

Lemma plus_listed (a b : expr) (g : goval) (da db d : nat * nat) (e : expr) : valid_array da a -> valid_array db b -> means g = Some b -> broadcast a b da db d ->
  lists_only a b = true -> expr_plus a g = Ok e -> forall i j, i < fst d -> j < snd d ->
  terms (entry e i j) = match a with ES _ => terms (bentry b i j) ++ terms (bentry a i j) | _ => terms (bentry a i j) ++ terms (bentry b i j) end.
Proof.
  intros Va Vb Hg HB HL E i j Hi Hj. pose proof (valid_array_pt da a Va) as Pa. pose proof (valid_array_pt db b Vb) as Pb.
  destruct Va as (A1 & A2 & Sa & Wa). destruct Vb as (B1 & B2 & Sb & Wb).
  destruct (plus_accepts a g) eqn:HT; [|exfalso; exact (expr_plus_unsupported a g HT e E)].
  destruct a as [[c|x|mo|p]|v|[l|l|l|l]]; try discriminate HL.
  - (* K *) destruct b as [s|v|[l|l|l|l]]; try discriminate HL.
    destruct g as [f|z|l0|l0|l0|l0|e0|]; try discriminate Hg. cbn in Hg. injection Hg as ->.
    assert (d = db). { destruct HB as [[H1 H2]|[[_ H]|[[] H2]]]; congruence. } subst d.
    cbn [expr_plus] in E. unfold k_plus_any in E. cbn [as_expr] in E. rewrite (expr_check_arr _ _ _ B1 B2 (pt_valid _) Pb) in E. cbn [check bind mat_plus] in E.
    destruct (mono_mat_plus_terms db (1, 1) (entry (EM (MM l))) (fun _ _ => SK c) l (GExpr (ES (SK c))) (ES (SK c))) as (x & Ex & Tx); try assumption; try reflexivity; try (cbn; lia); try (right; exact I).
    { apply arr_ES. split; [exact I | reflexivity]. }
    rewrite Ex in E. injection E as <-. exact (proj2 (arr_entry _ _ _ _ _ Tx Hi Hj)).
  - assert (d = da /\ (db = da \/ is_scalar b)) as [-> Hd]. { destruct HB as [[H1 H2]|[[[] _]|[H1 H2]]]; auto. }
    cbn [expr_plus mat_plus] in E.
    destruct (mono_mat_plus_terms da db (entry (EM (MM l))) (entry b) l g b A1 A2 Pa Hg Pb B1 B2 Hd (mono_type_ok l g HT)) as (x & Ex & Tx).
    rewrite Ex in E. injection E as <-. rewrite <- (bA_bentry db b i j) by (split; [exact B1 | split; [exact B2 | split; [exact Sb | exact Wb]]]).
    exact (proj2 (arr_entry _ _ _ _ _ Tx Hi Hj)).
Qed.

Lemma bentry_valid a b da db d i j : valid_array da a -> valid_array db b -> broadcast a b da db d -> i < fst d -> j < snd d -> valid (bentry a i j) /\ valid (bentry b i j).
Proof.
  intros Va Vb HB Hi Hj.
  assert (HE : forall e de, valid_array de e -> (de = d \/ is_scalar e) -> valid (bentry e i j)).
  { intros e de (H1 & H2 & HS & HV) [->|H]; [destruct e as [s|v|m]; cbn [bentry]; [|apply HV; assumption | apply HV; assumption]|].
    - exact (HV 0 0 H1 H2).
    - destruct e as [s|v|m]; try destruct H. exact (HV 0 0 H1 H2). }
  split; [apply (HE a da Va) | apply (HE b db Vb)]; destruct HB as [[-> ->]|[[H ->]|[H ->]]]; auto.
Qed.

Lemma bvalue_bentry r e i j : bvalue r e i j = eval r (bentry e i j).
Proof. destruct e; reflexivity. Qed.

(** what MonomialMatrix computes is right whatever the terms *)
Lemma plus_listed_value (a b : expr) (g : goval) (da db d : nat * nat) (e : expr) : ExactNum NN -> valid_array da a -> valid_array db b -> means g = Some b -> broadcast a b da db d ->
  lists_only a b = true -> expr_plus a g = Ok e -> forall r i j, i < fst d -> j < snd d -> value r e i j = bvalue r a i j + bvalue r b i j.
Proof.
  intros EX Va Vb Hg HB HL E r i j Hi Hj. rewrite !bvalue_bentry. unfold value. rewrite <- !(eval_terms r).
  rewrite (plus_listed a b g da db d e Va Vb Hg HB HL E i j Hi Hj).
  destruct a as [s|v|m]; rewrite eval_poly_app; [exact (Radd_comm (F_R (@ex_field NN EX)) _ _) | reflexivity | reflexivity].
Qed.

End EffectArr2.

Section EffectArr3.
Context {NN : Num} {EX : ExactNum NN}.
Local Notation den d A := (arr d (pt A)) (only parsing).

Lemma expr_plus_rgd (a b : expr) (g : goval) (da db d : nat * nat) : valid_array da a -> valid_array db b -> means g = Some b -> broadcast a b da db d ->
  lists_only a b = false -> rgd d (fun i j => listed_sum (bentry a i j) (bentry b i j)) (expr_plus a g).
Proof.
  intros Va Vb Hg HB HL. pose proof (valid_array_pt da a Va) as Pa. pose proof (valid_array_pt db b Vb) as Pb.
  assert (EB : forall i j, bA b (entry b) i j = bentry b i j) by (intros i j; exact (bA_bentry db b i j Vb)).
  destruct Va as (A1 & A2 & Sa & Wa). destruct Vb as (B1 & B2 & Sb & Wb).
  destruct (plus_accepts a g) eqn:HT; [|intros e E; exfalso; exact (expr_plus_unsupported a g HT e E)].
  destruct a as [s|v|m].
  - assert (d = db). { destruct HB as [[H1 H2]|[[_ H]|[H1 H2]]]; [congruence | exact H|]. destruct b; try destruct H1.
      rewrite (arr_ES_dims _ _ _ A1 Pa) in H2. rewrite (arr_ES_dims _ _ _ B1 Pb). exact H2. }
    subst d. cbn [bentry]. apply (rgd_ext db (fun i j => listed_sum s (bA b (entry b) i j))); [intros i j r _ _; rewrite EB; reflexivity|].
    apply plus_scalar_rgd; try assumption; try reflexivity.
    + exact (Wa 0 0 A1 A2).
    + destruct s; try exact I. destruct b as [|v|[l|l|l|l]]; try exact I. discriminate HL.
  - assert (d = da /\ (db = da \/ is_scalar b)) as [-> Hd]. { destruct HB as [[H1 H2]|[[[] _]|[H1 H2]]]; auto. }
    pose proof (arr_EV_cols _ _ _ A1 Pa) as E2. destruct da as [n c]. cbn in E2. subst c. cbn [expr_plus].
    apply (rgd_ext (n, 1) (fun i j => listed_sum (entry (EV v) i j) (bA b (entry b) i j))); [intros i j r _ _; rewrite EB; reflexivity|].
    apply gd_rgd. apply (vec_plus_gd n db); try assumption; destruct v; destruct g as [f|z|l0|l0|l0|l0|[[k|x|mo|p]|v0|[lk|lv|lm|lp]]|]; (exact HT || reflexivity).
  - assert (d = da /\ (db = da \/ is_scalar b)) as [-> Hd]. { destruct HB as [[H1 H2]|[[[] _]|[H1 H2]]]; auto. }
    cbn [expr_plus].
    apply (rgd_ext da (fun i j => listed_sum (entry (EM m) i j) (bA b (entry b) i j))); [intros i j r _ _; rewrite EB; reflexivity|].
    apply (mat_plus_rgd da db); try assumption.
Qed.

Lemma array_plus_effect (a b : expr) (g : goval) (da db d : nat * nat) (e : expr) : valid_array da a -> valid_array db b -> means g = Some b -> broadcast a b da db d ->
  lists_only a b = false -> expr_plus a g = Ok e -> forall r i j, i < fst d -> j < snd d -> value r e i j = eval_poly r (regroup (listed_sum (bentry a i j) (bentry b i j))).
Proof.
  intros Va Vb Hg HB HL E r i j Hi Hj. pose proof (expr_plus_rgd a b g da db d Va Vb Hg HB HL e E) as A.
  destruct (arr_entry _ _ _ _ _ A Hi Hj) as (_ & _ & H). unfold value. rewrite H, regroup_reg. reflexivity.
Qed.

Lemma array_plus_exactly_when (a b : expr) (g : goval) (da db d : nat * nat) (e : expr) : valid_array da a -> valid_array db b -> means g = Some b -> broadcast a b da db d ->
  lists_only a b = false -> expr_plus a g = Ok e -> forall i j, i < fst d -> j < snd d ->
  ((forall r, value r e i j = bvalue r a i j + bvalue r b i j)
   <-> forall m, valid_mono m -> coefficient m (SP (regroup (listed_sum (bentry a i j) (bentry b i j)))) = coefficient m (SP (listed_sum (bentry a i j) (bentry b i j)))).
Proof.
  intros Va Vb Hg HB HL E i j Hi Hj. pose proof (fun r => array_plus_effect a b g da db d e Va Vb Hg HB HL E r i j Hi Hj) as H.
  destruct (bentry_valid a b da db d i j Va Vb HB Hi Hj) as [Wa Wb]. pose proof (listed_sum_valid _ _ Wa Wb) as VT.
  rewrite <- (functions_determined (SP (regroup (listed_sum (bentry a i j) (bentry b i j)))) (SP (listed_sum (bentry a i j) (bentry b i j))) (regroup_valid _ VT) VT).
  unfold same_function. cbn [eval]. split; intros G r.
  - rewrite listed_sum_value, <- H, G, !bvalue_bentry. reflexivity.
  - rewrite H, G, listed_sum_value, !bvalue_bentry. reflexivity.
Qed.

(** ** Simplification *)

Lemma array_simplify_effect (e e' : expr) (d : nat * nat) : valid_array d e -> expr_simplified e = Ok e' ->
  forall r i j, i < fst d -> j < snd d -> value r e' i j = eval_poly r (regroup (terms (entry e i j))).
Proof.
  intros V E r i j Hi Hj. pose proof (valid_array_pt d e V) as P. destruct V as (A1 & A2 & _ & _).
  destruct (expr_simplified_gen d (pt (entry e)) (fun i j => lreg (terms (entry e i j))) e A1 A2 (pt_valid _)) as (x & Ex & Hx).
  - apply (lreg_by_terms (fun i j => terms (entry e i j))).
  - intros i0 j0 s [Vs <-]. exists (ssimplified s). split; [apply scalar_simplified_ok; exact Vs | apply lreg_simp; [exact Vs | reflexivity]].
  - exact P.
  - rewrite Ex in E. injection E as ->. destruct (arr_entry _ _ _ _ _ Hx Hi Hj) as (_ & _ & H). unfold value. rewrite H, regroup_reg. reflexivity.
Qed.

Lemma array_simplify_exactly_when (e e' : expr) (d : nat * nat) : valid_array d e -> expr_simplified e = Ok e' ->
  forall i j, i < fst d -> j < snd d ->
  ((forall r, value r e' i j = value r e i j) <-> forall m, valid_mono m -> coefficient m (SP (regroup (terms (entry e i j)))) = coefficient m (entry e i j)).
Proof.
  intros V E i j Hi Hj. pose proof (fun r => array_simplify_effect e e' d V E r i j Hi Hj) as H.
  destruct V as (_ & _ & _ & W). pose proof (W i j Hi Hj) as Ws. pose proof (proj1 (valid_terms_iff _) Ws) as VT.
  rewrite <- (functions_determined (SP (regroup (terms (entry e i j)))) (entry e i j) (regroup_valid _ VT) Ws). unfold same_function. cbn [eval].
  split; intros G r; [rewrite <- H, G; reflexivity | rewrite H, G; reflexivity].
Qed.

End EffectArr3.
