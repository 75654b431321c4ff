(** * When LinearCoeff panics *)

From Coq Require Import ZArith NArith Bool List Lia.
From Verif Require Import Num Syntax ModelScalar ModelShape Spec SpecArr SpecConv SpecForm Base Eval ScalarValid ScalarLin ScalarFacts Arr ArrTop.
Import ListNotations.

Section LinWhen.
Context {NN : Num}.

Lemma find_var_id (v : var) (w : list var) : (exists i, find_var v w = Some i) <-> In (v_id v) (map v_id w).
Proof.
  unfold find_var. split.
  - intros (i & H). apply find_in_slice_some in H. destruct H as (y & Hy & E & _). unfold same_id in E. apply N.eqb_eq in E. apply nth_error_In in Hy. apply in_map_iff. exists y. split; [symmetry; exact E | exact Hy].
  - intro H. destruct (find_in_slice same_id v w) as [i|] eqn:E; [exists i; reflexivity|]. exfalso. apply in_map_iff in H as (y & Ey & Hy). pose proof (proj1 (find_in_slice_none same_id v w) E y Hy) as X. unfold same_id in X. rewrite Ey, N.eqb_refl in X. discriminate X.
Qed.

Lemma mapM_ok_iff {A B} (f : A -> res B) (l : list A) : (exists l', mapM f l = Ok l') <-> forall x, In x l -> exists y, f x = Ok y.
Proof.
  induction l as [|x l IH]; cbn [mapM]; [split; [intros _ x [] | intros _; eexists; reflexivity]|]. split.
  - intros (l' & E) z [<-|Hz]; destruct (f x) as [y|] eqn:Ex; try discriminate E; [exists y; reflexivity|]. cbn [bind] in E. destruct (mapM f l) as [t|] eqn:El; [|discriminate E]. apply IH; [exists t; reflexivity | exact Hz].
  - intro H. destruct (H x) as (y & ->); [left; reflexivity|]. cbn [bind]. destruct (proj2 IH) as (t & ->); [intros z Hz; apply H; right; exact Hz|]. cbn [bind]. eexists. reflexivity.
Qed.

Theorem linear_coeff_when (s : scalar) (w : list var) : valid s -> Forall valid_var w ->
  ((exists cs, scalar_linear_coeff s [w] = Ok cs) <-> w <> [] /\ has_linear_variable s w).
Proof.
  intros V Vw. destruct w as [|y w].
  - split; [|intros [H _]; congruence]. intros (cs & E). exfalso. destruct s as [k|v|m|p]; cbn [scalar_linear_coeff] in E; [discriminate E | | |].
    + unfold var_linear_coeff in E. destruct (var_check v); discriminate E.
    + unfold mono_linear_coeff in E. destruct (mono_check m); discriminate E.
    + unfold poly_linear_coeff in E. destruct (poly_check p); discriminate E.
  - assert (Hw : y :: w <> []) by discriminate. destruct s as [k|v|m|p].
    + split; [intros _; split; [exact Hw | exact I] | intros _; destruct (linear_coeff_total (SK k) (y :: w) V ltac:(discriminate) Hw Vw) as (cs & E & _); exists cs; exact E].
    + split; [intros _; split; [exact Hw | exact I] | intros _; destruct (linear_coeff_total (SV v) (y :: w) V ltac:(discriminate) Hw Vw) as (cs & E & _); exists cs; exact E].
    + cbn [scalar_linear_coeff has_linear_variable]. unfold mono_linear_coeff. assert (C := valid_mono_check m V). rewrite C. cbn [check bind wrt_vars zeros_vector length]. unfold scalar_is_linear. cbn [scalar_degree].
      rewrite (mono_degree_ok m C). cbn [bind]. destruct (Z.leb_spec (tdeg m) 1) as [D|D].
      * destruct (m_vars m) as [|v vs]; [cbn [index nth_error bind]; split; [intros (cs & E); discriminate E | intros [_ H]; destruct (H D) as (v & l & H1 & _); discriminate H1]|].
        cbn [index nth_error bind]. split.
        -- intros (cs & E). split; [exact Hw|]. intros _. exists v, vs. split; [reflexivity|]. apply find_var_id. destruct (find_var v (y :: w)) as [i|]; [exists i; reflexivity | discriminate E].
        -- intros [_ H]. destruct (H D) as (v' & l & H1 & H2). injection H1 as <- <-. apply find_var_id in H2 as (i & ->). eexists. reflexivity.
      * split; [intros _; split; [exact Hw | intro; lia] | intros _; eexists; reflexivity].
    + split; [intros _; split; [exact Hw | exact I] | intros _; destruct (linear_coeff_total (SP p) (y :: w) V ltac:(discriminate) Hw Vw) as (cs & E & _); exists cs; exact E].
Qed.

Theorem vector_linear_coeff_when (v : vector) (n : nat) (w : list var) : valid_array (n, 1) (EV v) -> Forall valid_var w ->
  ((exists A, vec_linear_coeff v [w] = Ok A) <-> w <> [] /\ forall i, i < n -> has_linear_variable (entry (EV v) i 0) w).
Proof.
  intros Va Vw. pose proof (valid_array_arr _ _ Va) as Ha. destruct Va as (V1 & _). cbn [fst] in V1. apply arr_EV in Ha.
  set (P := fun i s => entry (EV v) i 0 = s /\ valid s) in Ha. assert (HP : forall i s, P i s -> valid s) by (intros i s [_ H]; exact H).
  unfold vec_linear_coeff. rewrite (vec_check_col n P v V1 HP Ha), (vec_len_col n P v V1 HP Ha). cbn [check bind].
  destruct w as [|y w]; [cbn [nonempty check bind]; split; [intros (A & E); discriminate E | intros [H _]; congruence]|]. cbn [nonempty check bind].
  assert (N0 : Nat.eqb n 0 = false) by (apply Nat.eqb_neq; lia). rewrite N0. cbn [negb check bind].
  assert (G : forall i, i < n -> exists s, vec_get v i = Ok s /\ P i s) by (intros i Hi; destruct (vec_get_col n P v i V1 HP Ha Hi) as (s & H1 & _ & H2); exists s; split; assumption).
  assert (H : (exists A, mapM (fun i => bind (vec_get v i) (fun a => scalar_linear_coeff a [y :: w])) (seq 0 n) = Ok A) <-> forall i, i < n -> exists cs, scalar_linear_coeff (entry (EV v) i 0) [y :: w] = Ok cs).
  { rewrite mapM_ok_iff. split.
    - intros H i Hi. destruct (H i) as (cs & E); [apply in_seq; lia|]. destruct (G i Hi) as (s & Es & <- & _). rewrite Es in E. exists cs. exact E.
    - intros H i Hi. apply in_seq in Hi. destruct (H i) as (cs & E); [lia|]. destruct (G i) as (s & Es & <- & _); [lia|]. rewrite Es. exists cs. exact E. }
  rewrite H. split.
  - intro X. split; [discriminate|]. intros i Hi. destruct (G i Hi) as (s & _ & E & Vs). apply (linear_coeff_when (entry (EV v) i 0) (y :: w)); [rewrite E; exact Vs | exact Vw | exact (X i Hi)].
  - intros [_ X] i Hi. destruct (G i Hi) as (s & _ & E & Vs). apply (linear_coeff_when (entry (EV v) i 0) (y :: w)); [rewrite E; exact Vs | exact Vw | split; [discriminate | exact (X i Hi)]].
Qed.
End LinWhen.
