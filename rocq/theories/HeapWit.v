(** * Witnesses and refutations for expressions in memory *)

From Coq Require Import ZArith NArith Bool List Lia Reals.
From Verif Require Import Num Syntax ModelScalar ModelShape Spec SpecArr Base ScalarValid NumR Witness ScalarWit ArrWit ModelHeap SpecHeap HeapMem HeapRef HeapProofs HeapVec HeapTop.
Import ListNotations.
Local Open Scope num_scope.

(** ** Tests *)
Section Tests.
Context {NN : Num}.
Definition linb (v : var) (s : scalar) : bool :=
  forallb (fun m => forallb (fun ue => negb (N.eqb (v_id (fst ue)) (v_id v)) || Z.eqb (snd ue) 1) (combine (m_vars m) (m_exps m))) (terms s).
Lemma nth_combine {A B} (l : list A) (l' : list B) i a b : nth_error l i = Some a -> nth_error l' i = Some b -> nth_error (combine l l') i = Some (a, b).
Proof. revert l' i. induction l as [|x l IH]; intros [|y l'] [|i] H H'; cbn in *; try discriminate; [congruence | apply IH; assumption]. Qed.
Lemma linb_spec v s : linb v s = true -> at_most_linear_in v s.
Proof.
  unfold linb, at_most_linear_in. rewrite forallb_forall. intros H m i u e Hm Hu Id He. specialize (H m Hm). rewrite forallb_forall in H.
  specialize (H (u, e) (nth_error_In _ _ (nth_combine _ _ _ _ _ Hu He))). cbn in H. rewrite Id, N.eqb_refl in H. cbn in H. apply Z.eqb_eq. exact H.
Qed.
Definition harmlessb (vals : list scalar) (i : instr) : bool :=
  match i with IDeriv k v => match nth_error vals k with Some s => linb v s | None => true end | _ => true end.
Lemma harmlessb_spec vals i : harmlessb vals i = true -> harmless vals i.
Proof. destruct i; cbn; intro H; try exact I. intros s Hs. rewrite Hs in H. apply linb_spec. exact H. Qed.
Fixpoint historyb (vals : list scalar) (l : list instr) : bool :=
  match l with [] => true | i :: l' => harmlessb vals i && historyb (match exec_value vals i with Ok t => vals ++ [t] | Panic _ => vals end) l' end.
Lemma historyb_spec l : forall vals, historyb vals l = true -> harmless_history vals l.
Proof. induction l as [|i l IH]; intros vals H; cbn in *; [exact I|]. apply andb_prop in H as [H1 H2]. split; [apply harmlessb_spec; exact H1 | apply IH; exact H2]. Qed.

(** the heap after a history is legal *)
Lemma reached {RT : Runtime} l : harmless_history [] l -> let (h, roots) := history empty_heap [] l in all_legal h roots /\ separate h roots /\ map (rd h) roots = history_values [] l.
Proof.
  intro H. destruct (history empty_heap [] l) as [h roots] eqn:E. destruct empty_legal as [Le Se]. destruct (history_spec l _ _ _ _ Le Se H E) as (V & _ & L & S & _). auto.
Qed.
End Tests.

(** two times the capacity, as Go does for short slices *)
Definition doubling : Runtime := mkRuntime (fun c n => c) (fun c n => c) (fun c n => c).

Section Q.
Local Existing Instance QNum.
Local Existing Instance doubling.

(** x, y, x y, x y + x, (x y + x)^3, its derivative by z, (x y + x)(x y), x y + x with x := x y, and the derivative of x y + x by x *)
Definition w_calls : list instr := [IVar wx; IVar wy; IMul 0 1; IPlus 2 0; IPow 3 3; IDeriv 4 wz; IMul 3 2; ISubst 3 wx 2; IDeriv 3 wx; IMinus 4 6; ISimplify 4].
Lemma wit_calls : harmless_history [] w_calls.
Proof. apply historyb_spec. vm_compute. reflexivity. Qed.
Lemma wit_calls_value : nth_error (history_values [] w_calls) 7 = Some (SP [mkMono n1 [1; 2]%Z [wx; wy]; mkMono n1 [1; 1]%Z [wx; wy]]).
Proof. vm_compute. reflexivity. Qed.
Lemma wit_calls_derivative : harmless_history [] w_calls /\ In (IDeriv 3 wx) w_calls.
Proof. split; [exact wit_calls|]. do 8 right. left. reflexivity. Qed.
Lemma wit_calls_number : length (history_values [] w_calls) = 11%nat.
Proof. vm_compute. reflexivity. Qed.
(** the calls leave unused capacity behind, shared with earlier expressions *)
Lemma wit_calls_spare : let (h, roots) := history empty_heap [] w_calls in
  exists s m, In s roots /\ In m (monomials h s) /\ (s_len (h_vars m) < s_cap (h_vars m))%nat.
Proof.
  pose (H := existsb (fun s => existsb (fun m => Nat.ltb (s_len (h_vars m)) (s_cap (h_vars m))) (monomials (fst (history empty_heap [] w_calls)) s)) (snd (history empty_heap [] w_calls))).
  assert (E : H = true) by (vm_compute; reflexivity). unfold H in E. destruct (history empty_heap [] w_calls) as [h roots]. cbn [fst snd] in E.
  apply existsb_exists in E. destruct E as (s & Hs & E). apply existsb_exists in E. destruct E as (m & Hm & E). exists s, m. apply Nat.ltb_lt in E. auto.
Qed.
Lemma wit_no_derivative : Forall not_derivative [IVar wx; IVar wy; IMul 0 1; IPlus 2 0; IPow 3 3; IMul 3 2; ISubst 3 wx 2; IMinus 4 6; ISimplify 4].
Proof. repeat constructor. Qed.

(** a heap with two monomials that share an array of variables, and a call on them *)
Definition w_heap : heap := fst (history empty_heap [] w_calls).
Definition w_roots : list hscalar := snd (history empty_heap [] w_calls).
Lemma wit_call : all_legal w_heap w_roots /\ separate w_heap w_roots /\ harmless (map (rd w_heap) w_roots) (IMul 3 4).
Proof.
  pose proof (reached w_calls wit_calls) as R. unfold w_heap, w_roots. destruct (history empty_heap [] w_calls) as [h roots]. cbn [fst snd].
  destruct R as (R1 & R2 & _). split; [exact R1|]. split; [exact R2 | exact I].
Qed.
Lemma wit_twice : all_legal w_heap w_roots /\ separate w_heap w_roots /\ exists s, nth_error w_roots 3 = Some s /\ at_most_linear_in wx (rd w_heap s)
  /\ rd w_heap s = SP [mkMono n1 [1; 1]%Z [wx; wy]; mkMono n1 [1]%Z [wx]].
Proof.
  destruct wit_call as (R1 & R2 & _). split; [exact R1|]. split; [exact R2|].
  assert (E : map (rd w_heap) w_roots = history_values [] w_calls).
  { pose proof (reached w_calls wit_calls) as R. unfold w_heap, w_roots. destruct (history empty_heap [] w_calls) as [h roots]. apply R. }
  assert (V : nth_error (history_values [] w_calls) 3 = Some (SP [mkMono n1 [1; 1]%Z [wx; wy]; mkMono n1 [1]%Z [wx]])) by (vm_compute; reflexivity).
  rewrite <- E, nth_error_map in V. destruct (nth_error w_roots 3) as [s|]; [|discriminate V]. cbn [option_map] in V.
  assert (V' : rd w_heap s = SP [mkMono n1 [1; 1]%Z [wx; wy]; mkMono n1 [1]%Z [wx]]) by congruence.
  exists s. split; [reflexivity|]. split; [|exact V']. rewrite V'. apply linb_spec. reflexivity.
Qed.

(** 5 x^4 y *)
Definition w_power : list instr := [IMono (nofZ 5) [4; 1]%Z [wx; wy]].
Definition w_x4 : hmono := mkHM (nofZ 5) (mkSlice 0 0 2 2) (mkSlice 0 0 2 2).
Definition w_hx4 : heap := mkHeap [[4; 1]%Z] [[wx; wy]] [] [].
Lemma wit_effect : history empty_heap [] w_power = (w_hx4, [HM w_x4]) /\ legal_mono w_hx4 w_x4 /\ mono_check (rd_mono w_hx4 w_x4) = true /\ var_check wx = true /\
  find_var wx (m_vars (rd_mono w_hx4 w_x4)) = Some 0%nat /\ nth_error (m_exps (rd_mono w_hx4 w_x4)) 0 = Some 4%Z /\ (1 < 4 - Z.of_nat 3 + 1)%Z.
Proof. split; [reflexivity|]. split; [split; (split; [cbn; lia | cbn; lia])|]. repeat split; vm_compute; reflexivity. Qed.

End Q.

(** ** Vectors and matrices *)
Ltac falls := repeat match goal with |- Forall _ _ => constructor end.
Section Vectors.
Context {NN : Num}.
(** x y and x; 2 x and 1; the two vectors and matrices of monomials and of polynomials made of them.  The monomials x and 2 x share their arrays. *)
Definition w_h : heap :=
  mkHeap [[1; 1]; [1]]%Z [[wx; wy]; [wx]]
    [[mkHM n1 (mkSlice 0 0 2 2) (mkSlice 0 0 2 2); mkHM n1 (mkSlice 1 0 1 1) (mkSlice 1 0 1 1)];
     [mkHM n2 (mkSlice 1 0 1 1) (mkSlice 1 0 1 1); mkHM n1 nil_slice nil_slice]]
    [[mkSlice 0 0 2 2; mkSlice 1 0 2 2]].
Definition w_mv : slice := mkSlice 0 0 2 2.
Definition w_mm : list slice := [mkSlice 0 0 2 2; mkSlice 1 0 2 2].
Definition w_pv : slice := mkSlice 0 0 2 2.
Definition w_pm : list slice := [mkSlice 0 0 2 2].
Definition w_others : list hscalar := [HM (mkHM n1 (mkSlice 1 0 1 1) (mkSlice 1 0 1 1))].

Definition in_memb {A} (m : mem A) (s : slice) : bool :=
  Nat.leb (s_len s) (s_cap s) && (Nat.eqb (s_cap s) 0 || (Nat.ltb (s_arr s) (length m) && Nat.leb (s_off s + s_cap s) (length (cells m (s_arr s))))).
Lemma in_memb_spec {A} (m : mem A) s : in_memb m s = true -> in_memory m s.
Proof.
  unfold in_memb. intro H. apply andb_prop in H as [H1 H2]. apply Nat.leb_le in H1. split; [exact H1|]. intro C. apply orb_prop in H2 as [H2|H2]; [apply Nat.eqb_eq in H2; lia|].
  apply andb_prop in H2 as [H2 H3]. apply Nat.ltb_lt in H2. apply Nat.leb_le in H3. auto.
Qed.
Definition full (h : heap) (roots : list hscalar) : bool :=
  forallb (fun s => match s with HP p => in_memb (hm h) p | _ => true end
     && forallb (fun m => in_memb (hi h) (h_exps m) && in_memb (hv h) (h_vars m) && Nat.eqb (s_len (h_vars m)) (s_cap (h_vars m))) (monomials h s)) roots.
Lemma full_spec h roots : full h roots = true -> all_legal h roots /\ separate h roots.
Proof.
  unfold full. rewrite forallb_forall. intro H. assert (K : forall s m, In s roots -> In m (monomials h s) -> legal_mono h m /\ s_len (h_vars m) = s_cap (h_vars m)).
  { intros s m Hs Hm. specialize (H s Hs). apply andb_prop in H as [_ H]. rewrite forallb_forall in H. specialize (H m Hm). apply andb_prop in H as [H H3]. apply andb_prop in H as [H1 H2].
    split; [split; apply in_memb_spec; assumption | apply Nat.eqb_eq; exact H3]. }
  split.
  - intros s Hs. split; [|intros m Hm; apply (K s m Hs Hm)]. intros p ->. specialize (H _ Hs). apply andb_prop in H as [H _]. apply in_memb_spec. exact H.
  - intros s t m m' a j Hs Ht Hm Hm' [_ U] _. destruct (K s m Hs Hm) as [_ E]. lia.
Qed.
Lemma wit_vec_heap : (all_legal w_h (HP w_mv :: w_others) /\ separate w_h (HP w_mv :: w_others)) /\
  (all_legal w_h (map HP w_mm ++ w_others) /\ separate w_h (map HP w_mm ++ w_others)) /\
  (all_legal w_h (map HP (view (hp w_h) w_pv) ++ w_others) /\ separate w_h (map HP (view (hp w_h) w_pv) ++ w_others)) /\
  (all_legal w_h (map HP (concat (map (view (hp w_h)) w_pm)) ++ w_others) /\ separate w_h (map HP (concat (map (view (hp w_h)) w_pm)) ++ w_others)).
Proof. repeat match goal with |- (all_legal _ _ /\ separate _ _) /\ _ => split end; apply full_spec; reflexivity. Qed.
Context (Hv : forall i, valid_var (wvar i)).
Lemma w_mono_valid c es is : length es = length is -> Forall (fun e => (1 <= e)%Z) es -> NoDup is -> valid_mono (mkMono c es (map wvar is)).
Proof.
  intros H1 H2 H3. unfold valid_mono. cbn [m_exps m_vars]. rewrite map_length. split; [exact H1|]. split; [exact H2|]. rewrite map_map. cbn [wvar v_id]. rewrite map_id. split; [exact H3|].
  apply Forall_forall. intros v Hin. apply in_map_iff in Hin. destruct Hin as (i & <- & _). apply Hv.
Qed.
Lemma w_monos : valid_mono (mkMono n1 [1; 1]%Z [wx; wy]) /\ (forall c, valid_mono (mkMono c [1]%Z [wx])) /\ (forall c, valid_mono (mkMono c [] [])).
Proof.
  split; [apply (w_mono_valid n1 [1; 1]%Z [0; 1]%N); [reflexivity | repeat constructor; lia | repeat constructor; cbn; intuition discriminate]|].
  split; [intro c; apply (w_mono_valid c [1]%Z [0]%N); [reflexivity | repeat constructor; lia | repeat constructor; cbn; intuition discriminate]|].
  intro c. apply (w_mono_valid c [] []); constructor.
Qed.
Lemma wit_monovec : rd_poly w_h w_mv <> [] /\ Forall valid_mono (rd_poly w_h w_mv) /\ valid_var wx /\ Forall (fun m => at_most_linear_in wx (SM m)) (rd_poly w_h w_mv).
Proof.
  destruct w_monos as (V1 & V2 & V3). split; [discriminate|]. split; [falls; [exact V1 | apply V2]|]. split; [apply Hv|]. falls; apply linb_spec; reflexivity.
Qed.
Lemma wit_monomat : mat_check (MM (map (rd_poly w_h) w_mm)) = true /\ Forall (Forall valid_mono) (map (rd_poly w_h) w_mm) /\ valid_var wx /\
  Forall (Forall (fun m => at_most_linear_in wx (SM m))) (map (rd_poly w_h) w_mm).
Proof.
  destruct w_monos as (V1 & V2 & V3). split.
  - assert (C : forall m, valid_mono m -> mono_check m = true) by apply valid_mono_check. cbn. rewrite ?(C _ V1), ?(C _ (V2 _)), ?(C _ (V3 _)); reflexivity.
  - split; [falls; first [exact V1 | apply V2 | apply V3]|]. split; [apply Hv|]. falls; apply linb_spec; reflexivity.
Qed.
Context (H01 : n1 =? n0 = false) (H02 : n2 =? n0 = false).
Lemma wit_entries : Forall (fun p => valid_poly p /\ at_most_linear_in wx (SP p) /\ mentions wx p) (map (rd_poly w_h) (view (hp w_h) w_pv)).
Proof.
  destruct w_monos as (V1 & V2 & V3). falls; (split; [split; [discriminate | falls; first [exact V1 | apply V2 | apply V3]]|]); (split; [apply linb_spec; reflexivity|]).
  - exists (mkMono n1 [1; 1]%Z [wx; wy]), wx. split; [left; reflexivity|]. split; [exact H01|]. split; [left; reflexivity | reflexivity].
  - exists (mkMono n2 [1]%Z [wx]), wx. split; [left; reflexivity|]. split; [exact H02|]. split; [left; reflexivity | reflexivity].
Qed.
Lemma wit_polyvec : in_memory (hp w_h) w_pv /\ valid_var wx /\ Forall (fun p => valid_poly p /\ at_most_linear_in wx (SP p) /\ mentions wx p) (map (rd_poly w_h) (view (hp w_h) w_pv)).
Proof. split; [apply in_memb_spec; reflexivity|]. split; [apply Hv | apply wit_entries]. Qed.
Lemma wit_polymat : Forall (in_memory (hp w_h)) w_pm /\ valid_var wx /\ mat_check (MP (map (fun r => map (rd_poly w_h) (view (hp w_h) r)) w_pm)) = true /\
  Forall (Forall (fun p => valid_poly p /\ at_most_linear_in wx (SP p) /\ mentions wx p)) (map (fun r => map (rd_poly w_h) (view (hp w_h) r)) w_pm).
Proof.
  split; [constructor; [apply in_memb_spec; reflexivity | constructor]|]. split; [apply Hv|]. split; [|constructor; [apply wit_entries | constructor]].
  destruct w_monos as (V1 & V2 & V3). assert (C : forall m, valid_mono m -> mono_check m = true) by apply valid_mono_check. cbn. rewrite ?(C _ V1), ?(C _ (V2 _)), ?(C _ (V3 _)); reflexivity.
Qed.
End Vectors.

Section Rwit.
Local Existing Instance RNum.
Lemma r01 : n1 =? n0 = false.
Proof. destruct (n1 =? n0) eqn:E; [|reflexivity]. apply RNum_exact in E. cbn in E. destruct (R1_neq_R0 E). Qed.
Lemma r02 : n2 =? n0 = false.
Proof. destruct (n2 =? n0) eqn:E; [|reflexivity]. apply RNum_exact in E. exact (False_ind _ (IZR_neq 2 0 ltac:(discriminate) E)). Qed.
Definition wit_monovec_R := wit_monovec wvar_valid_R.
Definition wit_monomat_R := wit_monomat wvar_valid_R.
Definition wit_polyvec_R := wit_polyvec wvar_valid_R r01 r02.
Definition wit_polymat_R := wit_polymat wvar_valid_R r01 r02.
End Rwit.

(** ** Refutations, for every growth policy of append *)
Section Ref.
Context {NN : Num} {RT : Runtime}.
(** x y on an array of two variables, and x on the first of them *)
Definition r_h : heap := mkHeap [[1; 1]; [1]]%Z [[wx; wy]; [wx]] [] [].
Definition r_xy : hmono := mkHM n1 (mkSlice 0 0 2 2) (mkSlice 0 0 2 2).
Definition r_x : hmono := mkHM n1 (mkSlice 1 0 1 1) (mkSlice 0 0 1 2).
Definition r_xx : hmono := mkHM n1 (mkSlice 1 0 1 1) (mkSlice 1 0 1 1).
End Ref.

Definition same_at {NN : Num} (r : assignment) (a b : scalar) : bool := eval r a =? eval r b.

Lemma overlap_refuted : forall NN, NN = F64Num \/ NN = QNum -> forall RT : Runtime, exists (h : heap) (roots : list hscalar) (i j : nat) (s : hscalar) (r : assignment),
  all_legal h roots /\ In s roots /\ (forall t, In t roots -> valid (rd h t)) /\
  (exists p, fst (exec roots (IMul i j) h) = Ok p) /\ eval r (rd (snd (exec roots (IMul i j) h)) s) =? eval r (rd h s) = false.
Proof.
  assert (T : forall (NN : Num) (RT : Runtime), let h := r_h in let roots := [HM r_xy; HM r_x; HM r_xx] in
    validb (rd h (HM r_xy)) && validb (rd h (HM r_x)) && validb (rd h (HM r_xx)) && run_ok (fst (exec roots (IMul 1 2) h)) (fun _ => true)
    && negb (same_at (at3 2 3 5) (rd (snd (exec roots (IMul 1 2) h)) (HM r_xy)) (rd h (HM r_xy))) = true ->
    exists (h : heap) (roots : list hscalar) (i j : nat) (s : hscalar) (r : assignment),
      all_legal h roots /\ In s roots /\ (forall t, In t roots -> valid (rd h t)) /\
      (exists p, fst (exec roots (IMul i j) h) = Ok p) /\ eval r (rd (snd (exec roots (IMul i j) h)) s) =? eval r (rd h s) = false).
  { intros NN RT h roots H. apply andb_prop in H as [H H5]. apply andb_prop in H as [H H4]. apply andb_prop in H as [H H3]. apply andb_prop in H as [H1 H2].
    exists h, roots, 1%nat, 2%nat, (HM r_xy), (at3 2 3 5). split; [|split; [left; reflexivity|split; [|split; [apply ok_ex; exact H4 | apply negb_true_iff; exact H5]]]].
    - intros s Hs. destruct Hs as [<-|[<-|[<-|[]]]]; (split; [discriminate|]); intros m [<-|[]]; split; apply in_memb_spec; reflexivity.
    - intros t [<-|[<-|[<-|[]]]]; apply validb_spec; assumption. }
  intros NN [->| ->] RT; apply T; vm_compute; reflexivity.
Qed.

(** x^2 loses a power *)
Lemma derivative_refuted : forall NN, NN = F64Num \/ NN = QNum -> forall RT : Runtime,
  exists (l : list instr) (i : nat) (v : var) (h1 h2 : heap) (roots1 roots2 : list hscalar) (s : hscalar) (r : assignment),
    history empty_heap [] l = (h1, roots1) /\ history empty_heap [] (l ++ [IDeriv i v]) = (h2, roots2) /\ In s roots1 /\ valid (rd h1 s) /\ valid_var v /\
    eval r (rd h2 s) =? eval r (rd h1 s) = false.
Proof.
  assert (T : forall (NN : Num) (RT : Runtime), let l := [IMono n1 [2]%Z [wx]] in let st1 := history empty_heap [] l in let st2 := history empty_heap [] (l ++ [IDeriv 0 wx]) in
    match snd st1 with s :: _ => validb (rd (fst st1) s) && varb wx && negb (same_at (at3 3 0 0) (rd (fst st2) s) (rd (fst st1) s)) | [] => false end = true ->
    exists (l : list instr) (i : nat) (v : var) (h1 h2 : heap) (roots1 roots2 : list hscalar) (s : hscalar) (r : assignment),
    history empty_heap [] l = (h1, roots1) /\ history empty_heap [] (l ++ [IDeriv i v]) = (h2, roots2) /\ In s roots1 /\ valid (rd h1 s) /\ valid_var v /\
    eval r (rd h2 s) =? eval r (rd h1 s) = false).
  { intros NN RT l st1 st2 H. destruct st1 as [h1 roots1] eqn:E1, st2 as [h2 roots2] eqn:E2. cbn [fst snd] in H. destruct roots1 as [|s roots1]; [discriminate|].
    apply andb_prop in H as [H H3]. apply andb_prop in H as [H1 H2]. exists l, 0%nat, wx, h1, h2, (s :: roots1), roots2, s, (at3 3 0 0).
    split; [exact E1|]. split; [exact E2|]. split; [left; reflexivity|]. split; [apply validb_spec; exact H1|]. split; [apply varb_spec; exact H2 | apply negb_true_iff; exact H3]. }
  intros NN [->| ->] RT; apply T; vm_compute; reflexivity.
Qed.

(** a second call returns another expression *)
Lemma derivative_twice_refuted : forall NN, NN = F64Num \/ NN = QNum -> forall RT : Runtime,
  exists (l : list instr) (h h1 h2 : heap) (s d1 d2 : hscalar) (v : var) (r : assignment),
    history empty_heap [] l = (h, [s]) /\ valid (rd h s) /\ valid_var v /\ h_derivative s v h = (Ok d1, h1) /\ h_derivative s v h1 = (Ok d2, h2) /\
    eval r (rd h2 d2) =? eval r (rd h1 d1) = false.
Proof.
  assert (T : forall (NN : Num) (RT : Runtime), let l := [IMono n1 [2]%Z [wx]] in let st := history empty_heap [] l in
    match snd st with
    | [s] => validb (rd (fst st) s) && varb wx && (let x1 := h_derivative s wx (fst st) in let x2 := h_derivative s wx (snd x1) in
        run_ok (fst x1) (fun d1 => run_ok (fst x2) (fun d2 => negb (same_at (at3 3 0 0) (rd (snd x2) d2) (rd (snd x1) d1)))))
    | _ => false end = true ->
    exists (l : list instr) (h h1 h2 : heap) (s d1 d2 : hscalar) (v : var) (r : assignment),
    history empty_heap [] l = (h, [s]) /\ valid (rd h s) /\ valid_var v /\ h_derivative s v h = (Ok d1, h1) /\ h_derivative s v h1 = (Ok d2, h2) /\
    eval r (rd h2 d2) =? eval r (rd h1 d1) = false).
  { intros NN RT l st H. destruct st as [h roots] eqn:E. cbn [fst snd] in H. destruct roots as [|s [|t roots]]; try discriminate.
    apply andb_prop in H as [H H3]. apply andb_prop in H as [H1 H2]. cbv zeta in H3. destruct (h_derivative s wx h) as [x1 h1] eqn:E1. cbn [fst snd] in H3.
    destruct (h_derivative s wx h1) as [x2 h2] eqn:E2. cbn [fst snd] in H3. apply run_ok_spec in H3. destruct H3 as (d1 & -> & H3). apply run_ok_spec in H3. destruct H3 as (d2 & -> & H3).
    exists l, h, h1, h2, s, d1, d2, wx, (at3 3 0 0). split; [exact E|]. split; [apply validb_spec; exact H1|]. split; [apply varb_spec; exact H2|]. split; [exact E1|]. split; [exact E2|].
    apply negb_true_iff. exact H3. }
  intros NN [->| ->] RT; apply T; vm_compute; reflexivity.
Qed.

(** the derivative of the polynomial 1 x^2 changes the monomial it was made of *)
Lemma derivative_other_refuted : forall NN, NN = F64Num \/ NN = QNum -> forall RT : Runtime,
  exists (h1 h2 : heap) (m p d : hscalar) (v : var) (r : assignment),
    history empty_heap [] [IMono n1 [2]%Z [v]; IPoly [0%nat]] = (h1, [m; p]) /\ valid (rd h1 m) /\ valid (rd h1 p) /\ valid_var v /\ h_derivative p v h1 = (Ok d, h2) /\
    eval r (rd h2 m) =? eval r (rd h1 m) = false.
Proof.
  assert (T : forall (NN : Num) (RT : Runtime), let st := history empty_heap [] [IMono n1 [2]%Z [wx]; IPoly [0%nat]] in
    match snd st with
    | [m; p] => validb (rd (fst st) m) && validb (rd (fst st) p) && varb wx && (let x1 := h_derivative p wx (fst st) in
        run_ok (fst x1) (fun _ => negb (same_at (at3 3 0 0) (rd (snd x1) m) (rd (fst st) m))))
    | _ => false end = true ->
    exists (h1 h2 : heap) (m p d : hscalar) (v : var) (r : assignment),
    history empty_heap [] [IMono n1 [2]%Z [v]; IPoly [0%nat]] = (h1, [m; p]) /\ valid (rd h1 m) /\ valid (rd h1 p) /\ valid_var v /\ h_derivative p v h1 = (Ok d, h2) /\
    eval r (rd h2 m) =? eval r (rd h1 m) = false).
  { intros NN RT st H. destruct st as [h roots] eqn:E. cbn [fst snd] in H. destruct roots as [|m [|p [|t roots]]]; try discriminate.
    apply andb_prop in H as [H H4]. apply andb_prop in H as [H H3]. apply andb_prop in H as [H1 H2]. cbv zeta in H4. destruct (h_derivative p wx h) as [x1 h1] eqn:E1. cbn [fst snd] in H4.
    apply run_ok_spec in H4. destruct H4 as (d & -> & H4).
    exists h, h1, m, p, d, wx, (at3 3 0 0). split; [exact E|]. split; [apply validb_spec; exact H1|]. split; [apply validb_spec; exact H2|]. split; [apply varb_spec; exact H3|]. split; [exact E1|].
    apply negb_true_iff. exact H4. }
  intros NN [->| ->] RT; apply T; vm_compute; reflexivity.
Qed.

Section RefVec.
Context {NN : Num}.
(** the vector [x^2] *)
Definition r_hx2 : heap := mkHeap [[2]%Z] [[wx]] [[mkHM n1 (mkSlice 0 0 1 1) (mkSlice 0 0 1 1)]] [].
(** the polynomials y and x y, and vectors of one of each *)
Definition r_hp : heap :=
  mkHeap [[1]; [1; 1]]%Z [[wy]; [wx; wy]]
    [[mkHM n1 (mkSlice 0 0 1 1) (mkSlice 0 0 1 1)]; [mkHM n1 (mkSlice 1 0 2 2) (mkSlice 1 0 2 2)]]
    [[mkSlice 0 0 1 1]; [mkSlice 1 0 1 1]].
End RefVec.

Lemma monovec_refuted : forall NN, NN = F64Num \/ NN = QNum -> forall RT : Runtime,
  exists (h h' : heap) (mv : slice) (v : var) (m : Monomial) (x : hvector) (e d : scalar) (r : assignment),
    all_legal h [HP mv] /\ separate h [HP mv] /\ rd_poly h mv = [m] /\ valid_mono m /\ valid_var v /\
    h_monovec_derivative mv v h = (Ok x, h') /\ vec_entries (rd_vec h' x) = [e] /\ scalar_derivative (SM m) v = Ok d /\ eval r e =? eval r d = false.
Proof.
  assert (T : forall (NN : Num) (RT : Runtime), let h := r_hx2 in let m := mkMono n1 [2]%Z [wx] in
    validb (SM m) && varb wx && (let x := h_monovec_derivative (mkSlice 0 0 1 1) wx h in
      run_ok (fst x) (fun xv => match vec_entries (rd_vec (snd x) xv) with [e] => run_ok (scalar_derivative (SM m) wx) (fun d => negb (same_at (at3 3 0 0) e d)) | _ => false end)) = true ->
    exists (h h' : heap) (mv : slice) (v : var) (m : Monomial) (x : hvector) (e d : scalar) (r : assignment),
    all_legal h [HP mv] /\ separate h [HP mv] /\ rd_poly h mv = [m] /\ valid_mono m /\ valid_var v /\
    h_monovec_derivative mv v h = (Ok x, h') /\ vec_entries (rd_vec h' x) = [e] /\ scalar_derivative (SM m) v = Ok d /\ eval r e =? eval r d = false).
  { intros NN RT h m H. apply andb_prop in H as [H H3]. apply andb_prop in H as [H1 H2]. cbv zeta in H3. destruct (h_monovec_derivative (mkSlice 0 0 1 1) wx h) as [x h'] eqn:E. cbn [fst snd] in H3.
    apply run_ok_spec in H3. destruct H3 as (xv & -> & H3). destruct (vec_entries (rd_vec h' xv)) as [|e [|? ?]] eqn:Ee; try discriminate. apply run_ok_spec in H3. destruct H3 as (d & Hd & H3).
    exists h, h', (mkSlice 0 0 1 1), wx, m, xv, e, d, (at3 3 0 0). destruct (full_spec h [HP (mkSlice 0 0 1 1)] eq_refl) as [L S]. split; [exact L|]. split; [exact S|]. split; [reflexivity|].
    split; [apply (validb_spec (SM m)); exact H1|]. split; [apply varb_spec; exact H2|]. split; [exact E|]. split; [exact Ee|]. split; [exact Hd | apply negb_true_iff; exact H3]. }
  intros NN [->| ->] RT; apply T; vm_compute; reflexivity.
Qed.

(** the vector [y] differentiated by x *)
Lemma polyvec_panic_refuted : forall NN, NN = F64Num \/ NN = QNum -> forall RT : Runtime,
  exists (h : heap) (pv p : slice) (v : var), all_legal h [HP p] /\ separate h [HP p] /\ in_memory (hp h) pv /\ view (hp h) pv = [p] /\ valid_poly (rd_poly h p) /\ valid_var v /\
    fst (h_polyvec_derivative pv v h) = Panic PRuntime.
Proof.
  assert (T : forall (NN : Num) (RT : Runtime), let h := r_hp in let p := mkSlice 0 0 1 1 in
    validb (rd h (HP p)) && varb wx && match fst (h_polyvec_derivative (mkSlice 0 0 1 1) wx h) with Panic PRuntime => true | _ => false end = true ->
    exists (h : heap) (pv p : slice) (v : var), all_legal h [HP p] /\ separate h [HP p] /\ in_memory (hp h) pv /\ view (hp h) pv = [p] /\ valid_poly (rd_poly h p) /\ valid_var v /\
    fst (h_polyvec_derivative pv v h) = Panic PRuntime).
  { intros NN RT h p H. apply andb_prop in H as [H H3]. apply andb_prop in H as [H1 H2]. exists h, (mkSlice 0 0 1 1), p, wx. destruct (full_spec h [HP p] eq_refl) as [L S].
    split; [exact L|]. split; [exact S|]. split; [apply in_memb_spec; reflexivity|]. split; [reflexivity|]. split; [apply (validb_spec (rd h (HP p))); exact H1|]. split; [apply varb_spec; exact H2|].
    destruct (fst (h_polyvec_derivative (mkSlice 0 0 1 1) wx h)) as [|[]]; try discriminate. reflexivity. }
  intros NN [->| ->] RT; apply T; vm_compute; reflexivity.
Qed.

(** the vector [x y] is its own derivative afterwards *)
Lemma polyvec_overwrite_refuted : forall NN, NN = F64Num \/ NN = QNum -> forall RT : Runtime,
  exists (h h' : heap) (pv p : slice) (v : var) (x : hvector) (e e' : scalar) (r : assignment),
    all_legal h [HP p] /\ separate h [HP p] /\ in_memory (hp h) pv /\ view (hp h) pv = [p] /\ valid_poly (rd_poly h p) /\ valid_var v /\
    h_polyvec_derivative pv v h = (Ok x, h') /\ vec_entries (rd_vec h (HVP pv)) = [e] /\ vec_entries (rd_vec h' (HVP pv)) = [e'] /\ eval r e' =? eval r e = false.
Proof.
  assert (T : forall (NN : Num) (RT : Runtime), let h := r_hp in let pv := mkSlice 1 0 1 1 in let p := mkSlice 1 0 1 1 in
    validb (rd h (HP p)) && varb wx && (let x := h_polyvec_derivative pv wx h in run_ok (fst x) (fun _ =>
       match vec_entries (rd_vec h (HVP pv)), vec_entries (rd_vec (snd x) (HVP pv)) with [e], [e'] => negb (same_at (at3 3 5 0) e' e) | _, _ => false end)) = true ->
    exists (h h' : heap) (pv p : slice) (v : var) (x : hvector) (e e' : scalar) (r : assignment),
    all_legal h [HP p] /\ separate h [HP p] /\ in_memory (hp h) pv /\ view (hp h) pv = [p] /\ valid_poly (rd_poly h p) /\ valid_var v /\
    h_polyvec_derivative pv v h = (Ok x, h') /\ vec_entries (rd_vec h (HVP pv)) = [e] /\ vec_entries (rd_vec h' (HVP pv)) = [e'] /\ eval r e' =? eval r e = false).
  { intros NN RT h pv p H. apply andb_prop in H as [H H3]. apply andb_prop in H as [H1 H2]. cbv zeta in H3. destruct (h_polyvec_derivative pv wx h) as [x h'] eqn:E. cbn [fst snd] in H3.
    apply run_ok_spec in H3. destruct H3 as (xv & -> & H3). destruct (vec_entries (rd_vec h (HVP pv))) as [|e [|? ?]] eqn:E1; try discriminate. destruct (vec_entries (rd_vec h' (HVP pv))) as [|e' [|? ?]] eqn:E2; try discriminate.
    exists h, h', pv, p, wx, xv, e, e', (at3 3 5 0). destruct (full_spec h [HP p] eq_refl) as [L S].
    split; [exact L|]. split; [exact S|]. split; [apply in_memb_spec; reflexivity|]. split; [reflexivity|]. split; [apply (validb_spec (rd h (HP p))); exact H1|]. split; [apply varb_spec; exact H2|].
    split; [exact E|]. split; [exact E1|]. split; [exact E2|]. apply negb_true_iff. exact H3. }
  intros NN [->| ->] RT; apply T; vm_compute; reflexivity.
Qed.

(** the matrix [x^2 x^2] whose two entries are the same monomial: the second entry of the derivative is wrong *)
Lemma monomat_refuted : forall NN, NN = F64Num \/ NN = QNum -> forall RT : Runtime,
  exists (h h' : heap) (row : slice) (m : Monomial) (v : var) (x : matrix) (e1 e2 d : scalar) (r : assignment),
    all_legal h [HP row] /\ separate h [HP row] /\ rd_poly h row = [m; m] /\ valid_mono m /\ valid_var v /\
    h_monomat_derivative [row] v h = (Ok x, h') /\ mat_rows x = [[e1; e2]] /\ scalar_derivative (SM m) v = Ok d /\ eval r e2 =? eval r d = false.
Proof.
  assert (T : forall (NN : Num) (RT : Runtime), let c := mkHM n1 (mkSlice 0 0 1 1) (mkSlice 0 0 1 1) in let h := mkHeap [[2]%Z] [[wx]] [[c; c]] [] in let m := mkMono n1 [2]%Z [wx] in let row := mkSlice 0 0 2 2 in
    validb (SM m) && varb wx && (let x := h_monomat_derivative [row] wx h in run_ok (fst x) (fun y =>
       match mat_rows y with [[e1; e2]] => run_ok (scalar_derivative (SM m) wx) (fun d => negb (same_at (at3 3 5 0) e2 d)) | _ => false end)) = true ->
    exists (h h' : heap) (row : slice) (m : Monomial) (v : var) (x : matrix) (e1 e2 d : scalar) (r : assignment),
    all_legal h [HP row] /\ separate h [HP row] /\ rd_poly h row = [m; m] /\ valid_mono m /\ valid_var v /\
    h_monomat_derivative [row] v h = (Ok x, h') /\ mat_rows x = [[e1; e2]] /\ scalar_derivative (SM m) v = Ok d /\ eval r e2 =? eval r d = false).
  { intros NN RT c h m row H. apply andb_prop in H as [H H3]. apply andb_prop in H as [H1 H2]. cbv zeta in H3. destruct (h_monomat_derivative [row] wx h) as [x h'] eqn:E. cbn [fst snd] in H3.
    apply run_ok_spec in H3. destruct H3 as (y & -> & H3). destruct (mat_rows y) as [|[|e1 [|e2 [|? ?]]] [|? ?]] eqn:E1; try discriminate. apply run_ok_spec in H3. destruct H3 as (d & Hd & H3).
    exists h, h', row, m, wx, y, e1, e2, d, (at3 3 5 0). destruct (full_spec h [HP row] eq_refl) as [L S].
    split; [exact L|]. split; [exact S|]. split; [reflexivity|]. split; [apply (validb_spec (SM m)); exact H1|]. split; [apply varb_spec; exact H2|].
    split; [exact E|]. split; [exact E1|]. split; [exact Hd|]. apply negb_true_iff. exact H3. }
  intros NN [->| ->] RT; apply T; vm_compute; reflexivity.
Qed.

(** the matrix [y] differentiated by x *)
Lemma polymat_refuted : forall NN, NN = F64Num \/ NN = QNum -> forall RT : Runtime,
  exists (h : heap) (row p : slice) (v : var), all_legal h [HP p] /\ separate h [HP p] /\ in_memory (hp h) row /\ view (hp h) row = [p] /\ valid_poly (rd_poly h p) /\ valid_var v /\
    fst (h_polymat_derivative [row] v h) = Panic PRuntime.
Proof.
  assert (T : forall (NN : Num) (RT : Runtime), let h := r_hp in let p := mkSlice 0 0 1 1 in
    validb (rd h (HP p)) && varb wx && match fst (h_polymat_derivative [mkSlice 0 0 1 1] wx h) with Panic PRuntime => true | _ => false end = true ->
    exists (h : heap) (pv p : slice) (v : var), all_legal h [HP p] /\ separate h [HP p] /\ in_memory (hp h) pv /\ view (hp h) pv = [p] /\ valid_poly (rd_poly h p) /\ valid_var v /\
    fst (h_polymat_derivative [pv] v h) = Panic PRuntime).
  { intros NN RT h p H. apply andb_prop in H as [H H3]. apply andb_prop in H as [H1 H2]. exists h, (mkSlice 0 0 1 1), p, wx. destruct (full_spec h [HP p] eq_refl) as [L S].
    split; [exact L|]. split; [exact S|]. split; [apply in_memb_spec; reflexivity|]. split; [reflexivity|]. split; [apply (validb_spec (rd h (HP p))); exact H1|]. split; [apply varb_spec; exact H2|].
    destruct (fst (h_polymat_derivative [mkSlice 0 0 1 1] wx h)) as [|[]]; try discriminate. reflexivity. }
  intros NN [->| ->] RT; apply T; vm_compute; reflexivity.
Qed.
