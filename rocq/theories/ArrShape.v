(** * Indexing, transposition, stacking, concretisation *)

From Coq Require Import ZArith NArith Bool List Lia.
From Verif Require Import Num Syntax ModelScalar Spec Base ScalarValid Eval ScalarOps ScalarMore ModelShape ModelArith SpecArr Arr ArrPlus ArrMul ArrTop ArrPow.
Import ListNotations.
Local Open Scope num_scope.

Section ArrShape.
Context {NN : Num}.

(** ** At *)

Definition same (e : expr) (i j : nat) (s : scalar) : Prop := entry e i j = s /\ valid s.

Lemma same_valid e : forall i j s, same e i j s -> valid s.
Proof. intros i j s [_ H]. exact H. Qed.

Lemma vec_entry v i s : nth_error (vec_entries v) i = Some s -> entry (EV v) i 0 = s.
Proof. intro E. unfold entry. rewrite rows_EV. rewrite (nth_error_nth_eq (map (fun s => [s]) (vec_entries v)) i [s] []); [reflexivity|]. rewrite nth_error_map, E. reflexivity. Qed.

Lemma vec_at_ok v n (P : nat -> scalar -> Prop) i : 1 <= n -> (forall i s, P i s -> valid s) -> col n P (vec_entries v) -> i < n ->
  exists s, vec_at v (Z.of_nat i) 0 = Ok s /\ nth_error (vec_entries v) i = Some s /\ P i s.
Proof.
  intros Hn HP H Hi. pose proof (vec_check_col n P v Hn HP H) as C. pose proof (vec_len_col n P v Hn HP H) as L.
  destruct H as [Ln H]. destruct (H i Hi) as (s & E & Hs). exists s. split; [|auto]. unfold vec_at. rewrite C, L.
  assert (X : (match v with VK _ => true | _ => true end) = true) by (destruct v; reflexivity). rewrite X. cbn [check bind].
  rewrite in_range_nat. destruct (Nat.ltb_spec i n); [|lia]. cbn [andb]. change (in_range 0 1) with true. cbn [check bind].
  rewrite index_z_nat, (index_nth _ _ _ E). reflexivity.
Qed.

Lemma array_at d e i j : valid_array d e -> i < fst d -> j < snd d -> expr_at e (Z.of_nat i) (Z.of_nat j) = Ok (entry e i j).
Proof.
  intros V Hi Hj. pose proof (valid_array_arr d e V) as H. destruct V as (D1 & D2 & _). destruct e as [s|v|m]; cbn [expr_at].
  - pose proof (arr_ES_dims _ _ _ D1 H) as ->. cbn in Hi, Hj. replace i with 0 by lia. replace j with 0 by lia. apply arr_ES in H. destruct H as [_ V].
    unfold scalar_at. rewrite (valid_check s V). reflexivity.
  - pose proof (arr_EV_cols _ _ _ D1 H) as Hs. destruct d as [n c]. cbn in Hs, Hi, Hj, D1. subst c. replace j with 0 by lia. apply arr_EV in H.
    destruct (vec_at_ok v n _ i D1 (fun i s X => proj2 X) H Hi) as (s & E & En & _). rewrite (vec_entry v i s En). exact E.
  - apply (proj1 (arr_EM _ _ _)) in H. destruct (mat_get_grid d _ m i j D1 D2 (fun i j s X => proj2 X) H Hi Hj) as (s & E & <- & _). exact E.
Qed.

Lemma vector_at_vec n v i : valid_array (n, 1) (EV v) -> i < n -> vec_at_vec v (Z.of_nat i) = Ok (entry (EV v) i 0).
Proof.
  intros V Hi. pose proof (valid_array_arr _ _ V) as H. destruct V as (D1 & _). apply arr_EV in H.
  destruct (vec_get_col n _ v i D1 (fun i s X => proj2 X) H Hi) as (s & E & En & _). rewrite (vec_entry v i s En). exact E.
Qed.

Lemma index_z_range {A} (l : list A) z a : index_z l z = Ok a -> (0 <= z < Z.of_nat (length l))%Z.
Proof.
  unfold index_z. destruct (Z.ltb_spec z 0); [discriminate|]. unfold index. destruct (nth_error l (Z.to_nat z)) eqn:E; [|discriminate]. intros _.
  apply nth_error_bound in E. lia.
Qed.

Lemma rows_index_range {A} d (P : nat -> nat -> A -> Prop) l z w a : grid d P l -> rows_index l z w = Ok a -> (0 <= z < Z.of_nat (fst d))%Z /\ (0 <= w < Z.of_nat (snd d))%Z.
Proof.
  intros H E. unfold rows_index in E. destruct (index_z l z) as [r|] eqn:Er; [|discriminate]. cbn [bind] in E.
  pose proof (index_z_range _ _ _ Er) as R1. pose proof (index_z_range _ _ _ E) as R2. pose proof H as [L _]. rewrite L in R1. split; [exact R1|].
  assert (HI : In r l). { unfold index_z in Er. destruct (Z.ltb z 0); [discriminate|]. unfold index in Er. destruct (nth_error l (Z.to_nat z)) eqn:En; [|discriminate]. injection Er as <-. eapply nth_error_In. exact En. }
  pose proof (grid_row_lengths d P l H) as F. rewrite Forall_forall in F. rewrite (F r HI) in R2. exact R2.
Qed.

Lemma in_range_spec z n : in_range z n = true -> (0 <= z < Z.of_nat n)%Z.
Proof. unfold in_range. intro H. apply andb_true_iff in H. destruct H as [H1 H2]. apply Z.leb_le in H1. apply Z.ltb_lt in H2. lia. Qed.

Lemma array_at_range d e z w s : valid_array d e -> expr_at e z w = Ok s -> (0 <= z < Z.of_nat (fst d))%Z /\ (0 <= w < Z.of_nat (snd d))%Z.
Proof.
  intros V E. pose proof (valid_array_arr d e V) as H. destruct (valid_array_check d e V) as [C D]. destruct V as (D1 & D2 & _). destruct e as [t|v|m]; cbn [expr_at] in E.
  - pose proof (arr_ES_dims _ _ _ D1 H) as ->. unfold scalar_at in E. destruct (scalar_check t); [|discriminate]. cbn [check bind] in E.
    destruct (Z.eqb_spec z 0), (Z.eqb_spec w 0); try discriminate. subst. cbn. lia.
  - pose proof (arr_EV_cols _ _ _ D1 H) as Hs. unfold vec_at in E.
    destruct (check _ PCheck); [|discriminate]. cbn [bind] in E. cbn [expr_dims] in D. unfold vec_dims in D. destruct (vec_len v) as [n|]; [|discriminate]. cbn [bind] in E, D.
    injection D as <-. cbn [fst snd]. destruct (in_range z n && in_range w 1) eqn:R; [|discriminate]. apply andb_true_iff in R. destruct R as [R1 R2].
    apply in_range_spec in R1, R2. auto.
  - apply (proj1 (arr_EM _ _ _)) in H. destruct m as [l|l|l|l]; cbn [mat_rows mat_at] in *; rewrite grid_map in H.
    + rewrite (k_to_dense_grid d _ l D1 D2 H) in E. cbn [bind] in E. unfold dense_at in E.
      destruct (Z.ltb_spec z 0); [discriminate|]. destruct (nth_error l (Z.to_nat z)) as [r|] eqn:Er; [|discriminate].
      destruct (Z.ltb_spec w 0); [discriminate|]. destruct (nth_error r (Z.to_nat w)) as [x|] eqn:Ex; [|discriminate].
      pose proof (nth_error_bound _ _ _ Er). pose proof (nth_error_bound _ _ _ Ex). pose proof (grid_row_lengths d _ l H) as F. rewrite Forall_forall in F.
      rewrite (F r (nth_error_In _ _ Er)) in H3. destruct H as [L _]. lia.
    + destruct (check _ PCheck); [|discriminate]. cbn [bind] in E. destruct (rows_index l z w) eqn:Ei; [|discriminate]. exact (rows_index_range d _ l z w _ H Ei).
    + destruct (check _ PCheck); [|discriminate]. cbn [bind] in E. destruct (rows_index l z w) eqn:Ei; [|discriminate]. exact (rows_index_range d _ l z w _ H Ei).
    + destruct (check _ PCheck); [|discriminate]. cbn [bind] in E. destruct (mat_dims (MP l)); [|discriminate]. cbn [bind] in E. destruct (check _ PIndex); [|discriminate]. cbn [bind] in E.
      destruct (rows_index l z w) eqn:Ei; [|discriminate]. exact (rows_index_range d _ l z w _ H Ei).
Qed.

Lemma array_at_out d e z w : valid_array d e -> ~ ((0 <= z < Z.of_nat (fst d))%Z /\ (0 <= w < Z.of_nat (snd d))%Z) -> exists p, expr_at e z w = Panic p.
Proof. intros V N. destruct (expr_at e z w) as [s|p] eqn:E; [|eauto]. destruct N. exact (array_at_range d e z w s V E). Qed.

Lemma vector_at_vec_out n v z : valid_array (n, 1) (EV v) -> ~ (0 <= z < Z.of_nat n)%Z -> exists p, vec_at_vec v z = Panic p.
Proof.
  intros V N. destruct (vec_at_vec v z) as [s|p] eqn:E; [|eauto]. destruct N. pose proof (valid_array_arr _ _ V) as H. apply arr_EV in H. destruct H as [L _].
  destruct v as [l|l|l|l]; cbn [vec_at_vec vec_entries] in *; rewrite map_length in L; subst n;
    repeat match type of E with bind ?x _ = Ok _ => destruct x eqn:?; [cbn [bind] in E | discriminate E] end;
    match goal with H : index_z l z = Ok _ |- _ => exact (index_z_range _ _ _ H) end.
Qed.

(** ** Transpose *)

Lemma transpose_rows_grid {A} d (P : nat -> nat -> A -> Prop) l : grid d P l ->
  exists t, transpose_rows l (snd d) = Ok t /\ grid (snd d, fst d) (fun i j => P j i) t.
Proof.
  intro H. unfold transpose_rows. destruct (mapM_seq (fun j => mapM (fun r => index r j) l) (snd d) (fun j r => col (fst d) (fun i => P i j) r)) as (t & E & L & Ht).
  - intros j Hj. pose proof H as [L _]. destruct (mapM_nth (fun r => index r j) l (fun i a => P i j a)) as (r & E & Lr & Hr).
    + intros i row Er. destruct (col_nth _ _ _ _ _ H Er) as [X Y]. destruct (Y j Hj) as (a & Ea & Pa). exists a. split; [exact (index_nth _ _ _ Ea) | exact Pa].
    + exists r. split; [exact E|]. split; [congruence|]. rewrite L in Hr. exact Hr.
  - exists t. split; [exact E|]. split; [exact L | exact Ht].
Qed.

Lemma array_transpose_ok d (P : nat -> nat -> scalar -> Prop) e : 1 <= fst d -> 1 <= snd d -> (forall i j s, P i j s -> valid s) -> arr d P e ->
  exists t, expr_transpose e = Ok t /\ arr (snd d, fst d) (fun i j => P j i) t.
Proof.
  intros D1 D2 HP H. destruct e as [s|v|m]; cbn [expr_transpose].
  - pose proof (arr_ES_dims _ _ _ D1 H) as ->. apply arr_ES in H. exists (ES s). split; [|apply arr_ES; exact H]. pose proof (HP _ _ _ H) as V.
    destruct s; cbn [scalar_transpose]; [reflexivity | reflexivity | rewrite (valid_mono_check _ V); reflexivity | rewrite (valid_poly_check _ V); reflexivity].
  - pose proof (arr_EV_cols _ _ _ D1 H) as Hs. destruct d as [n c]. cbn in Hs, D1. subst c. cbn [fst snd]. apply arr_EV in H.
    assert (HP' : forall i s, P i 0 s -> valid s) by (intros; eapply HP; eassumption).
    pose proof (vec_check_col n _ v D1 HP' H) as C. pose proof (col_nonempty _ _ _ D1 H) as NE.
    assert (R : forall m, mat_rows m = [vec_entries v] -> arr (1, n) (fun i j => P j i) (EM m)).
    { intros m E. apply arr_EM. rewrite E. split; [reflexivity|]. intros [|i] Hi; [|cbn in Hi; lia]. exists (vec_entries v). split; [reflexivity | exact H]. }
    unfold vec_transpose. destruct v as [l|l|l|l]; cbn [vec_entries] in *; rewrite ?C.
    + destruct l; [discriminate NE|]. cbn. eexists. split; [reflexivity|]. apply R. reflexivity.
    + cbn [check bind]. eexists. split; [reflexivity|]. apply R. reflexivity.
    + cbn [check bind]. eexists. split; [reflexivity|]. apply R. reflexivity.
    + cbn [check bind]. eexists. split; [reflexivity|]. apply R. reflexivity.
  - apply (proj1 (arr_EM _ _ _)) in H. pose proof (mat_dims_grid d P m D1 HP H) as D. destruct m as [l|l|l|l]; cbn [mat_rows mat_transpose] in *; rewrite grid_map in H.
    + rewrite (k_to_dense_grid d _ l D1 D2 H). cbn [bind]. rewrite (rows_dims_grid d _ l D1 H). cbn [bind].
      destruct (transpose_rows_grid d _ l H) as (t & -> & Ht). cbn [bind]. eexists. split; [reflexivity|]. apply arr_EM. apply grid_map. exact Ht.
    + rewrite D. cbn [bind]. destruct (transpose_rows_grid d _ l H) as (t & -> & Ht). cbn [bind]. eexists. split; [reflexivity|]. apply arr_EM. apply grid_map. exact Ht.
    + rewrite D. cbn [bind]. destruct (transpose_rows_grid d _ l H) as (t & -> & Ht). cbn [bind]. eexists. split; [reflexivity|]. apply arr_EM. apply grid_map. exact Ht.
    + rewrite D. cbn [bind]. destruct (transpose_rows_grid d _ l H) as (t & -> & Ht). cbn [bind]. eexists. split; [reflexivity|]. apply arr_EM. apply grid_map. exact Ht.
Qed.

Lemma array_transpose d e : valid_array d e ->
  exists t, expr_transpose e = Ok t /\ valid_array (snd d, fst d) t /\ forall i j, i < snd d -> j < fst d -> entry t i j = entry e j i.
Proof.
  intro V. pose proof (valid_array_arr d e V) as H. destruct V as (D1 & D2 & _).
  destruct (array_transpose_ok d _ e D1 D2 (fun i j s X => proj2 X) H) as (t & E & Ht). exists t. split; [exact E|].
  split; [exact (arr_valid (snd d, fst d) _ t D2 D1 Ht (fun i j s X => proj2 X))|]. intros i j Hi Hj.
  destruct (arr_entry (snd d, fst d) _ t i j Ht Hi Hj) as [X _]. symmetry. exact X.
Qed.

Lemma array_transpose_twice d e t : valid_array d e -> expr_transpose e = Ok t ->
  exists u, expr_transpose t = Ok u /\ valid_array d u /\ forall i j, i < fst d -> j < snd d -> entry u i j = entry e i j.
Proof.
  intros V E. destruct (array_transpose d e V) as (t' & E' & Vt & Ht). rewrite E in E'. injection E' as <-.
  destruct (array_transpose _ t Vt) as (u & Eu & Vu & Hu). exists u. split; [exact Eu|]. destruct d as [n c]. cbn [fst snd] in *. split; [exact Vu|].
  intros i j Hi Hj. rewrite Hu by assumption. apply Ht; assumption.
Qed.

(** ** Concretisation *)

Definition like (f : nat -> nat -> scalar) (i j : nat) (s : scalar) : Prop := same_terms (f i j) s /\ valid s.

Lemma like_by_terms f : by_terms (like f).
Proof.
  intros i j a b H [E V]. split; [unfold same_terms in *; congruence|]. apply valid_terms_iff. unfold same_terms in H. rewrite H. apply valid_terms_iff. exact V.
Qed.
Lemma like_valid f : forall i j s, like f i j s -> valid s.
Proof. intros i j s [_ V]. exact V. Qed.

Lemma like_rows d (R : list (list scalar)) e : length R = fst d -> Forall (fun r => length r = snd d) R ->
  arr d (like (fun i j => nth j (nth i R []) (SK n0))) e -> Forall2 (Forall2 same_terms) R (rows e).
Proof.
  intros L HF [L' H]. assert (G : forall {A B} (Q : A -> B -> Prop) (l : list A) (l' : list B), length l = length l' ->
      (forall i a, nth_error l i = Some a -> exists b, nth_error l' i = Some b /\ Q a b) -> Forall2 Q l l').
  { intros A B Q l. induction l as [|a l IH]; intros [|b l'] HL HN; cbn in HL; try discriminate; constructor.
    - destruct (HN 0 a eq_refl) as (b' & Eb & Hb). cbn in Eb. congruence.
    - apply IH; [lia|]. intros i x Ex. exact (HN (S i) x Ex). }
  apply G; [congruence|]. intros i r Er. assert (Hi : i < fst d) by (rewrite <- L; eapply nth_error_bound; exact Er).
  destruct (H i Hi) as (row & Erow & Lrow & Hrow). exists row. split; [exact Erow|].
  assert (Lr : length r = snd d) by (rewrite Forall_forall in HF; apply HF; eapply nth_error_In; exact Er).
  apply G; [congruence|]. intros j a Ea. assert (Hj : j < snd d) by (rewrite <- Lr; eapply nth_error_bound; exact Ea).
  destruct (Hrow j Hj) as (b & Eb & Hb & _). exists b. split; [exact Eb|]. rewrite (nth_error_nth_eq _ _ _ [] Er), (nth_error_nth_eq _ _ _ _ Ea) in Hb. exact Hb.
Qed.

Lemma rows_grid d (R : list (list scalar)) : length R = fst d -> Forall (fun r => length r = snd d) R -> Forall (Forall valid) R ->
  grid d (like (fun i j => nth j (nth i R []) (SK n0))) R.
Proof.
  intros L HF HV. split; [exact L|]. intros i Hi. destruct (nth_error_lt R i) as [r Er]; [lia|]. exists r. split; [exact Er|].
  rewrite Forall_forall in HF, HV. pose proof (nth_error_In _ _ Er) as HI. split; [exact (HF r HI)|]. intros j Hj.
  destruct (nth_error_lt r j) as [a Ea]; [rewrite (HF r HI); exact Hj|]. exists a. split; [exact Ea|].
  unfold like. rewrite (nth_error_nth_eq _ _ _ [] Er), (nth_error_nth_eq _ _ _ _ Ea). split; [reflexivity|]. specialize (HV r HI). rewrite Forall_forall in HV. apply HV. eapply nth_error_In. exact Ea.
Qed.

Lemma concretize_rows_spec d (R : list (list scalar)) : 1 <= fst d -> 1 <= snd d -> length R = fst d -> Forall (fun r => length r = snd d) R -> Forall (Forall valid) R ->
  exists e, concretize_rows R = Ok e /\ valid_array d e /\ Forall2 (Forall2 same_terms) R (rows e).
Proof.
  intros D1 D2 L HF HV. destruct (concretize_rows_arr d _ R D1 D2 (like_by_terms _) (like_valid _) (rows_grid d R L HF HV)) as (e & E & H).
  exists e. split; [exact E|]. split; [exact (arr_valid d _ e D1 D2 H (like_valid _))|]. exact (like_rows d R e L HF H).
Qed.

Lemma concretize_slice_spec (l : list scalar) : l <> [] -> Forall valid l ->
  exists e, concretize_slice l = Ok e /\ valid_array (length l, 1) e /\ Forall2 (Forall2 same_terms) (map (fun s => [s]) l) (rows e).
Proof.
  intros Hl HV. set (R := map (fun s => [s]) l). assert (L1 : 1 <= length l) by (destruct l; [congruence | cbn; lia]).
  assert (L : length R = length l) by apply map_length.
  assert (HF : Forall (fun r => length r = 1) R) by (apply Forall_forall; intros r Hr; apply in_map_iff in Hr; destruct Hr as (s & <- & _); reflexivity).
  assert (HC : col (length l) (fun i => like (fun i j => nth j (nth i R []) (SK n0)) i 0) l).
  { split; [reflexivity|]. intros i Hi. destruct (nth_error_lt l i Hi) as [s Es]. exists s. split; [exact Es|].
    rewrite Forall_forall in HV. split; [|apply HV; eapply nth_error_In; exact Es].
    rewrite (nth_error_nth_eq R i [s] []); [reflexivity|]. unfold R. rewrite nth_error_map, Es. reflexivity. }
  destruct (concretize_slice_arr (length l) _ l L1 (like_by_terms _) (like_valid _) HC) as (e & E & H).
  exists e. split; [exact E|]. split; [exact (arr_valid (length l, 1) _ e L1 (le_n 1) H (like_valid _))|]. exact (like_rows (length l, 1) R e L HF H).
Qed.

Lemma kinds_cases (l : list scalar) k : smallest_kind l k <->
  k = if existsb is_p l then 3 else if existsb is_m l || (existsb is_k l && existsb is_v l) then 2 else if existsb is_v l then 1 else 0.
Proof.
  assert (X : forall f, existsb f l = false -> forall s, In s l -> f s = false).
  { intros f E s Hs. destruct (f s) eqn:F; [|reflexivity]. assert (existsb f l = true) by (apply existsb_exists; eauto). congruence. }
  assert (G : smallest_kind l (if existsb is_p l then 3 else if existsb is_m l || (existsb is_k l && existsb is_v l) then 2 else if existsb is_v l then 1 else 0)).
  { unfold smallest_kind, embeds. destruct (existsb is_p l) eqn:Ep.
    { split; [intros s _; destruct s; cbn; lia|]. intros k' H. apply existsb_exists in Ep. destruct Ep as (s & Hs & Es). specialize (H s Hs). destruct s; try discriminate. cbn in H. lia. }
    destruct (existsb is_m l) eqn:Em; cbn [orb].
    { split.
      - intros s Hs. pose proof (X _ Ep s Hs). destruct s; try discriminate; cbn; lia.
      - intros k' H. apply existsb_exists in Em. destruct Em as (s & Hs & Es). specialize (H s Hs). destruct s; try discriminate. cbn in H. lia. }
    destruct (existsb is_k l) eqn:Ek; destruct (existsb is_v l) eqn:Ev; cbn [andb].
    - split.
      + intros s Hs. pose proof (X _ Ep s Hs). destruct s; try discriminate; cbn; lia.
      + intros k' H. apply existsb_exists in Ek. destruct Ek as (s & Hs & Es). apply existsb_exists in Ev. destruct Ev as (t & Ht & Et).
        pose proof (H s Hs) as H1. pose proof (H t Ht) as H2. destruct s; try discriminate. destruct t; try discriminate. cbn in H1, H2. lia.
    - split; [|intros; lia]. intros s Hs. pose proof (X _ Ep s Hs). pose proof (X _ Em s Hs). pose proof (X _ Ev s Hs). destruct s; try discriminate; cbn; lia.
    - split.
      + intros s Hs. pose proof (X _ Ep s Hs). pose proof (X _ Em s Hs). pose proof (X _ Ek s Hs). destruct s; try discriminate; cbn; lia.
      + intros k' H. apply existsb_exists in Ev. destruct Ev as (t & Ht & Et). specialize (H t Ht). destruct t; try discriminate. cbn in H. lia.
    - split; [|intros; lia]. intros s Hs. pose proof (X _ Ep s Hs). pose proof (X _ Em s Hs). pose proof (X _ Ev s Hs). pose proof (X _ Ek s Hs). destruct s; discriminate. }
  split.
  - intros [H1 H2]. destruct G as [G1 G2]. pose proof (H2 _ G1). pose proof (G2 _ H1). lia.
  - intros ->. exact G.
Qed.

Lemma forallb_v_existsb (l : list scalar) : l <> [] -> forallb is_v l = true -> existsb is_v l = true.
Proof. destruct l as [|s l]; [congruence|]. cbn. intros _ H. apply andb_true_iff in H. destruct H as [-> _]. reflexivity. Qed.

Lemma concretize_vector_kind l v : concretize_vector l = Ok v -> smallest_kind l (vector_kind v).
Proof.
  unfold concretize_vector. intro E. apply kinds_cases. destruct l as [|s0 l0] eqn:El; [discriminate|]. rewrite <- El in *.
  assert (Hl : l <> []) by (rewrite El; discriminate). replace (nonempty l) with true in E by (rewrite El; reflexivity). cbn [check bind] in E. clear El.
  destruct (existsb is_p l) eqn:Ep; [injection E as <-; reflexivity|].
  destruct (existsb is_m l || (existsb is_k l && existsb is_v l)) eqn:Em.
  { destruct (mapM to_mono l); [|discriminate]. injection E as <-. reflexivity. }
  destruct (forallb is_v l) eqn:Ev.
  { destruct (mapM to_var l); [|discriminate]. injection E as <-. rewrite (forallb_v_existsb l Hl Ev). reflexivity. }
  destruct (existsb is_k l) eqn:Ek; [|discriminate]. destruct (mapM to_k l); [|discriminate]. injection E as <-.
  apply orb_false_iff in Em. destruct Em as [_ Em]. rewrite andb_true_l in Em. rewrite Em. reflexivity.
Qed.

Lemma concretize_matrix_kind R m : concat R <> [] -> concretize_matrix R = Ok m -> smallest_kind (concat R) (matrix_kind m).
Proof.
  unfold concretize_matrix. intros Hl E. apply kinds_cases. destruct R as [|r0 l0] eqn:El; [discriminate|]. rewrite <- El in *. clear El.
  destruct (check _ POther); [|discriminate]. cbn [bind] in E. cbv zeta in E.
  destruct (existsb is_p (concat R)) eqn:Ep; [injection E as <-; reflexivity|].
  destruct (existsb is_m (concat R) || (existsb is_k (concat R) && existsb is_v (concat R))) eqn:Em.
  { destruct (mapM (mapM to_mono) R); [|discriminate]. injection E as <-. reflexivity. }
  destruct (forallb is_v (concat R)) eqn:Ev.
  { destruct (mapM (mapM to_var) R); [|discriminate]. injection E as <-. rewrite (forallb_v_existsb _ Hl Ev). reflexivity. }
  destruct (existsb is_k (concat R)) eqn:Ek; [|discriminate]. destruct (mapM (mapM to_k) R); [|discriminate]. injection E as <-.
  apply orb_false_iff in Em. destruct Em as [_ Em]. rewrite andb_true_l in Em. rewrite Em. reflexivity.
Qed.

Lemma concretize_vector_spec l : l <> [] ->
  exists v, concretize_vector l = Ok v /\ Forall2 (Forall2 same_terms) (map (fun s => [s]) l) (rows (EV v)) /\ smallest_kind l (vector_kind v).
Proof.
  intro Hl. destruct (concretize_vector_terms l Hl) as (v & E & F). exists v. split; [exact E|]. split; [|exact (concretize_vector_kind l v E)].
  rewrite rows_EV. clear - F. induction F; cbn; constructor; [constructor; [assumption | constructor] | assumption].
Qed.

Lemma concretize_matrix_spec R c : R <> [] -> 1 <= c -> Forall (fun r => length r = c) R ->
  exists m, concretize_matrix R = Ok m /\ Forall2 (Forall2 same_terms) R (rows (EM m)) /\ smallest_kind (concat R) (matrix_kind m).
Proof.
  intros HR Hc HF. destruct (concretize_matrix_terms R c HR HF) as (m & E & F). exists m. split; [exact E|]. rewrite rows_EM. split; [exact F|].
  apply (concretize_matrix_kind R m); [|exact E]. destruct R as [|[|s r] R]; [congruence | inversion HF; cbn in *; lia | discriminate].
Qed.

Lemma concretize_vector_empty : concretize_vector [] = Panic POther.
Proof. reflexivity. Qed.

Lemma concretize_matrix_ragged R r1 r2 : In r1 R -> In r2 R -> length r1 <> length r2 -> exists p, concretize_matrix R = Panic p.
Proof.
  intros H1 H2 N. unfold concretize_matrix. destruct R as [|r0 R0] eqn:ER; [destruct H1|]. rewrite <- ER in *.
  destruct (forallb (fun r => Nat.eqb (length r) (length r0)) R) eqn:E; [|eexists; reflexivity]. rewrite forallb_forall in E.
  apply E in H1, H2. apply Nat.eqb_eq in H1, H2. congruence.
Qed.

(** ** Stacking *)

Lemma expr_row_ok d e i : valid_array d e -> i < fst d -> expr_row e (snd d) i = Ok (nth i (rows e) []).
Proof.
  intros V Hi. unfold expr_row. pose proof V as (_ & _ & (L & HF) & _).
  assert (Lr : length (nth i (rows e) []) = snd d) by (rewrite Forall_forall in HF; apply HF; apply nth_In; rewrite L; exact Hi).
  destruct (mapM_seq (fun j => expr_at e (Z.of_nat i) (Z.of_nat j)) (snd d) (fun j s => s = entry e i j)) as (r & E & Lr' & Hr).
  { intros j Hj. exists (entry e i j). split; [exact (array_at d e i j V Hi Hj) | reflexivity]. }
  rewrite E. f_equal. apply nth_ext with (d := SK n0) (d' := SK n0); [congruence|]. intros j Hj. rewrite Lr' in Hj.
  destruct (Hr j Hj) as (s & Es & ->). rewrite (nth_error_nth_eq _ _ _ _ Es). reflexivity.
Qed.

Lemma mapM_dims ds es : Forall2 valid_array ds es -> mapM expr_dims es = Ok ds.
Proof.
  intro H. induction H as [|d e ds es V _ IH]; cbn; [reflexivity|]. rewrite (proj2 (valid_array_check d e V)). cbn. rewrite IH. reflexivity.
Qed.

Lemma neighbours_all (l : list nat) n : Forall (fun x => x = n) l -> neighbours_eqb l = true.
Proof.
  intro H. unfold neighbours_eqb. apply forallb_forall. intros [a b] Hab. apply Nat.eqb_eq. rewrite Forall_forall in H. cbn.
  rewrite (H a) by (eapply in_combine_l; exact Hab). symmetry. apply H. apply in_combine_r in Hab. destruct l; [destruct Hab | right; exact Hab].
Qed.

Lemma neighbours_inv (l : list nat) a b : neighbours_eqb l = true -> In a l -> In b l -> a = b.
Proof.
  intro H. assert (G : forall x, In x l -> x = hd 0 l).
  { clear a b. induction l as [|y l IH]; [intros x []|]. intros x [<-|Hx]; [reflexivity|]. cbn [hd]. unfold neighbours_eqb in *. destruct l as [|z l]; [destruct Hx|].
    cbn [tl combine forallb] in H. apply andb_true_iff in H. destruct H as [H1 H2]. apply Nat.eqb_eq in H1. cbn in H1. rewrite (IH H2 x Hx). cbn. congruence. }
  intros Ha Hb. rewrite (G a Ha), (G b Hb). reflexivity.
Qed.

Lemma beside_props n ds es i : Forall2 valid_array ds es -> Forall (fun d => fst d = n) ds -> i < n ->
  length (beside es i) = list_sum (map snd ds) /\ Forall valid (beside es i)
  /\ mapM (fun ed => expr_row (fst ed) (snd (snd ed)) i) (combine es ds) = Ok (map (fun e => nth i (rows e) []) es).
Proof.
  intros H. induction H as [|d e ds es V _ IH]; intros HF Hi; [split; [reflexivity|]; split; [constructor | reflexivity]|].
  inversion HF as [|? ? Hd HF']; subst. destruct (IH HF' Hi) as (L & HV & E). unfold beside in *. cbn [map concat list_sum fold_right].
  pose proof V as (_ & _ & (Lr & HR) & _). rewrite Forall_forall in HR. assert (HIn : In (nth i (rows e) []) (rows e)) by (apply nth_In; rewrite Lr; exact Hi).
  split; [|split].
  - rewrite app_length, L, (HR _ HIn). reflexivity.
  - apply Forall_app. split; [|exact HV]. apply Forall_forall. intros s Hs. exact (valid_array_entry d e _ s V HIn Hs).
  - cbn [combine mapM fst snd]. rewrite (expr_row_ok d e i V Hi). cbn [bind]. rewrite E. reflexivity.
Qed.

Lemma hstack_spec n ds es : es <> [] -> Forall2 valid_array ds es -> Forall (fun d => fst d = n) ds ->
  exists e, hstack es = Ok e /\ valid_array (n, list_sum (map snd ds)) e
    /\ forall i, i < n -> Forall2 same_terms (beside es i) (nth i (rows e) []).
Proof.
  intros Hne H HF. unfold hstack. replace (nonempty es) with true by (destruct es; [congruence | reflexivity]). cbn [check bind].
  rewrite (mapM_dims ds es H). cbn [bind].
  assert (HN : neighbours_eqb (map fst ds) = true) by (apply (neighbours_all _ n); rewrite Forall_map; exact HF). rewrite HN. cbn [check bind].
  destruct ds as [|d0 ds'] eqn:Eds; [inversion H; subst; congruence|]. rewrite <- Eds in *.
  assert (E0 : index ds 0 = Ok d0) by (rewrite Eds; reflexivity). rewrite E0. cbn [bind].
  assert (F0 : fst d0 = n) by (rewrite Eds in HF; inversion HF; assumption). rewrite F0.
  assert (D0 : 1 <= n /\ 1 <= snd d0) by (rewrite Eds in H; inversion H as [|? ? ? ? (X & Y & _)]; subst; auto). destruct D0 as [N1 S1].
  assert (ER : mapM (fun i => parts <- mapM (fun ed => expr_row (fst ed) (snd (snd ed)) i) (combine es ds) ;; Ok (concat parts)) (seq 0 n) = Ok (map (beside es) (seq 0 n))).
  { apply mapM_map. intros i Hi. apply in_seq in Hi. destruct (beside_props n ds es i H HF) as (_ & _ & E); [lia|]. rewrite E. reflexivity. }
  rewrite ER. cbn [bind].
  destruct (concretize_rows_spec (n, list_sum (map snd ds)) (map (beside es) (seq 0 n))) as (e & E & V & F); cbn [fst snd].
  - exact N1.
  - rewrite Eds. cbn. lia.
  - rewrite map_length, seq_length. reflexivity.
  - apply Forall_map, Forall_forall. intros i Hi. apply in_seq in Hi. apply (beside_props n ds es i H HF). lia.
  - apply Forall_map, Forall_forall. intros i Hi. apply in_seq in Hi. apply (beside_props n ds es i H HF). lia.
  - exists e. split; [exact E|]. split; [exact V|]. intros i Hi.
    destruct (Forall2_nth _ _ _ i (beside es i) F) as (row & Erow & Hrow).
    + rewrite nth_error_map, nth_error_seq_at by exact Hi. reflexivity.
    + rewrite (nth_error_nth_eq _ _ _ [] Erow). exact Hrow.
Qed.

Lemma vstack_spec c ds es : es <> [] -> Forall2 valid_array ds es -> Forall (fun d => snd d = c) ds ->
  exists e, vstack es = Ok e /\ valid_array (list_sum (map fst ds), c) e /\ Forall2 (Forall2 same_terms) (concat (map rows es)) (rows e).
Proof.
  intros Hne H HF. unfold vstack. replace (nonempty es) with true by (destruct es; [congruence | reflexivity]). cbn [check bind].
  rewrite (mapM_dims ds es H). cbn [bind].
  assert (HN : neighbours_eqb (map snd ds) = true) by (apply (neighbours_all _ c); rewrite Forall_map; exact HF). rewrite HN. cbn [check bind].
  assert (ER : mapM (fun ed => mapM (fun i => expr_row (fst ed) (snd (snd ed)) i) (seq 0 (fst (snd ed)))) (combine es ds) = Ok (map rows es)
    /\ length (concat (map rows es)) = list_sum (map fst ds) /\ Forall (fun r => length r = c) (concat (map rows es)) /\ Forall (Forall valid) (concat (map rows es))).
  { clear HN Hne. induction H as [|d e ds es V _ IH]; [repeat split; constructor|]. inversion HF as [|? ? Hd HF']; subst. destruct (IH HF') as (E & L & F1 & F2).
    pose proof V as (_ & _ & (Lr & HR) & _). split; [|split; [|split]].
    - cbn [combine mapM map fst snd]. rewrite (mapM_map _ (fun i => nth i (rows e) [])).
      2:{ intros i Hi. apply in_seq in Hi. apply (expr_row_ok d e i V). lia. }
      cbn [bind]. rewrite E. cbn [bind]. f_equal. f_equal. rewrite <- Lr. clear. apply nth_ext with (d := []) (d' := []).
      + rewrite map_length, seq_length. reflexivity.
      + intros i Hi. rewrite map_length, seq_length in Hi. rewrite (nth_indep _ [] (nth 0 (rows e) [])) by (rewrite map_length, seq_length; exact Hi).
        rewrite (map_nth (fun i => nth i (rows e) [])). rewrite seq_nth by exact Hi. reflexivity.
    - cbn [map concat]. rewrite app_length, L, Lr. reflexivity.
    - cbn [map concat]. apply Forall_app. split; [exact HR | exact F1].
    - cbn [map concat]. apply Forall_app. split; [|exact F2]. apply Forall_forall. intros r Hr. apply Forall_forall. intros s Hs. exact (valid_array_entry d e r s V Hr Hs). }
  destruct ER as (E & L & F1 & F2). rewrite E. cbn [bind].
  destruct ds as [|d0 ds'] eqn:Eds; [inversion H; subst; congruence|]. rewrite <- Eds in *.
  assert (D0 : 1 <= fst d0 /\ 1 <= snd d0) by (rewrite Eds in H; inversion H as [|? ? ? ? (X & Y & _)]; subst; auto). destruct D0 as [N1 S1].
  assert (C1 : 1 <= c) by (rewrite Eds in HF; inversion HF; subst; exact S1).
  apply (concretize_rows_spec (list_sum (map fst ds), c)); cbn [fst snd]; try assumption. rewrite Eds. cbn. lia.
Qed.

Lemma hstack_mismatch ds es d1 d2 : Forall2 valid_array ds es -> In d1 ds -> In d2 ds -> fst d1 <> fst d2 -> hstack es = Panic PDim.
Proof.
  intros H H1 H2 N. unfold hstack. destruct es as [|e0 es0] eqn:E; [inversion H; subst; destruct H1|]. rewrite <- E in *. replace (nonempty es) with true by (rewrite E; reflexivity).
  cbn [check bind]. rewrite (mapM_dims ds es H). cbn [bind]. destruct (neighbours_eqb (map fst ds)) eqn:EN; [|reflexivity].
  destruct N. apply (neighbours_inv (map fst ds)); [exact EN | apply in_map; exact H1 | apply in_map; exact H2].
Qed.

Lemma vstack_mismatch ds es d1 d2 : Forall2 valid_array ds es -> In d1 ds -> In d2 ds -> snd d1 <> snd d2 -> vstack es = Panic PDim.
Proof.
  intros H H1 H2 N. unfold vstack. destruct es as [|e0 es0] eqn:E; [inversion H; subst; destruct H1|]. rewrite <- E in *. replace (nonempty es) with true by (rewrite E; reflexivity).
  cbn [check bind]. rewrite (mapM_dims ds es H). cbn [bind]. destruct (neighbours_eqb (map snd ds)) eqn:EN; [|reflexivity].
  destruct N. apply (neighbours_inv (map snd ds)); [exact EN | apply in_map; exact H1 | apply in_map; exact H2].
Qed.

(** the entries of the arguments *)
Lemma concat_nth_error {A} (ls : list (list A)) k l j : nth_error ls k = Some l -> j < length l ->
  nth_error (concat ls) (list_sum (map (@length A) (firstn k ls)) + j) = nth_error l j.
Proof.
  revert k. induction ls as [|l0 ls IH]; intros [|k] E Hj; cbn in E; try discriminate.
  - injection E as ->. cbn. rewrite nth_error_app1 by exact Hj. reflexivity.
  - cbn [firstn map concat]. rewrite <- (IH k E Hj). change (list_sum (length l0 :: map (@length A) (firstn k ls))) with (length l0 + list_sum (map (@length A) (firstn k ls)))%nat.
    rewrite nth_error_app2 by lia. f_equal. lia.
Qed.

Lemma same_terms_eval a b r : ExactNum NN -> same_terms a b -> eval r b = eval r a.
Proof. intros EX H. unfold same_terms in H. rewrite <- !eval_terms, H. reflexivity. Qed.

Lemma hstack_entry n ds es e k ek i j : ExactNum NN -> Forall2 valid_array ds es -> Forall (fun d => fst d = n) ds -> hstack es = Ok e ->
  nth_error es k = Some ek -> i < n -> j < snd (nth k ds (0, 0)) ->
  forall r, value r e i (list_sum (map snd (firstn k ds)) + j) = value r ek i j.
Proof.
  intros EX H HF E Ek Hi Hj r. destruct (hstack_spec n ds es) as (e' & E' & V & Hrows); [intros ->; destruct k; discriminate | exact H | exact HF|].
  rewrite E in E'. injection E' as <-. specialize (Hrows i Hi).
  assert (G : forall k, nth_error es k = Some ek -> length (nth i (rows ek) []) = snd (nth k ds (0, 0))).
  { clear - H HF Hi. induction H as [|d e ds es V _ IH]; intros [|k] Ek; cbn in Ek; try discriminate; inversion HF as [|? ? Hd HF']; subst.
    - injection Ek as ->. destruct V as (_ & _ & (L & HR) & _). rewrite Forall_forall in HR. apply HR. apply nth_In. rewrite L. exact Hi.
    - cbn [nth]. apply IH; assumption. }
  assert (LS : map (@length scalar) (firstn k (map (fun e => nth i (rows e) []) es)) = map snd (firstn k ds)).
  { clear - H HF Hi. revert k. induction H as [|d e ds es V _ IH]; intros [|k]; cbn; try reflexivity. inversion HF as [|? ? Hd HF']; subst. f_equal; [|apply IH; assumption].
    destruct V as (_ & _ & (L & HR) & _). rewrite Forall_forall in HR. apply HR. apply nth_In. rewrite L. exact Hi. }
  pose proof (concat_nth_error (map (fun e => nth i (rows e) []) es) k (nth i (rows ek) []) j) as X.
  rewrite nth_error_map, Ek in X. specialize (X eq_refl). rewrite (G k Ek) in X. specialize (X Hj). rewrite LS in X.
  destruct (nth_error_lt (nth i (rows ek) []) j) as [s Es]; [rewrite (G k Ek); exact Hj|]. rewrite Es in X.
  destruct (Forall2_nth _ _ _ _ _ Hrows X) as (t & Et & Hst). unfold value, entry.
  rewrite (nth_error_nth_eq _ _ _ _ Et), (nth_error_nth_eq _ _ _ _ Es). exact (same_terms_eval s t r EX Hst).
Qed.

Lemma vstack_entry c ds es e k ek i j : ExactNum NN -> Forall2 valid_array ds es -> Forall (fun d => snd d = c) ds -> vstack es = Ok e ->
  nth_error es k = Some ek -> i < fst (nth k ds (0, 0)) -> j < c ->
  forall r, value r e (list_sum (map fst (firstn k ds)) + i) j = value r ek i j.
Proof.
  intros EX H HF E Ek Hi Hj r. destruct (vstack_spec c ds es) as (e' & E' & V & Hrows); [intros ->; destruct k; discriminate | exact H | exact HF|].
  rewrite E in E'. injection E' as <-.
  assert (G : forall k, nth_error es k = Some ek -> length (rows ek) = fst (nth k ds (0, 0)) /\ Forall (fun r => length r = c) (rows ek)).
  { clear - H HF Hj. induction H as [|d e ds es V _ IH]; intros [|k] Ek; cbn in Ek; try discriminate; inversion HF as [|? ? Hd HF']; subst.
    - injection Ek as ->. destruct V as (_ & _ & (L & HR) & _). auto.
    - cbn [nth]. apply IH; assumption. }
  destruct (G k Ek) as [Lk Fk].
  assert (LS : map (@length (list scalar)) (firstn k (map rows es)) = map fst (firstn k ds)).
  { clear - H HF. revert k. induction H as [|d e ds es V _ IH]; intros [|k]; cbn; try reflexivity. inversion HF as [|? ? Hd HF']; subst. f_equal; [|apply IH; assumption].
    destruct V as (_ & _ & (L & _) & _). exact L. }
  pose proof (concat_nth_error (map rows es) k (rows ek) i) as X. rewrite nth_error_map, Ek in X. specialize (X eq_refl). rewrite Lk in X. specialize (X Hi). rewrite LS in X.
  destruct (nth_error_lt (rows ek) i) as [row Erow]; [rewrite Lk; exact Hi|]. rewrite Erow in X.
  destruct (Forall2_nth _ _ _ _ _ Hrows X) as (row' & Erow' & Hrr).
  destruct (nth_error_lt row j) as [s Es]. { rewrite Forall_forall in Fk. rewrite (Fk row (nth_error_In _ _ Erow)). exact Hj. }
  destruct (Forall2_nth _ _ _ _ _ Hrr Es) as (t & Et & Hst). unfold value, entry.
  rewrite (nth_error_nth_eq _ _ _ _ Erow'), (nth_error_nth_eq _ _ _ _ Et), (nth_error_nth_eq _ _ _ _ Erow), (nth_error_nth_eq _ _ _ _ Es). exact (same_terms_eval s t r EX Hst).
Qed.

End ArrShape.
