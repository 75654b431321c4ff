(** * Witnesses and refutations for copies and for DerivativeWrt in memory *)

From Coq Require Import ZArith NArith Bool List Lia.
From Verif Require Import Num Syntax ModelScalar Spec ModelHeap SpecHeap HeapMem SpecCopy HeapEffect Witness ScalarWit ArrWit HeapWit CopyProofs.
Import ListNotations.
Local Open Scope num_scope.

Section Tests.
Context {NN : Num}.
(** no cell in common *)
Definition offb (s t : slice) : bool :=
  negb (Nat.eqb (s_arr s) (s_arr t)) || Nat.leb (s_off s + s_len s) (s_off t) || Nat.leb (s_off t + s_len t) (s_off s).
Lemma offb_spec s t a j : offb s t = true -> elements s a j -> elements t a j -> False.
Proof.
  unfold offb. intros H [-> H1] [E H2]. apply orb_prop in H as [H|H]; [apply orb_prop in H as [H|H]|].
  - rewrite E, Nat.eqb_refl in H. discriminate.
  - apply Nat.leb_le in H. lia.
  - apply Nat.leb_le in H. lia.
Qed.
Fixpoint ownb (l : list hmono) : bool :=
  match l with [] => true | m :: l' => forallb (fun m' => offb (h_exps m) (h_exps m')) l' && ownb l' end.
Lemma ownb_spec l : ownb l = true -> forall i j m m', i <> j -> nth_error l i = Some m -> nth_error l j = Some m' -> ~ share_exponents m m'.
Proof.
  induction l as [|x l IH]; intros H i j m m' N Hi Hj; [destruct i; discriminate|]. cbn in H. apply andb_prop in H as [H1 H2]. rewrite forallb_forall in H1.
  destruct i as [|i], j as [|j]; cbn in Hi, Hj; [congruence | | | apply (IH H2 i j); congruence].
  - injection Hi as <-. intros (a & c & X & Y). eapply offb_spec; [apply H1; eapply nth_error_In; exact Hj | exact X | exact Y].
  - injection Hj as <-. intros (a & c & X & Y). eapply offb_spec; [apply H1; eapply nth_error_In; exact Hi | exact Y | exact X].
Qed.
Lemma own_spec h s : ownb (monomials h s) = true -> forall v, own_exponents h v s.
Proof. intros H v i j m m' N Hi Hj _. exact (ownb_spec _ H i j m m' N Hi Hj). Qed.
Definition awayb (h : heap) (s t : hscalar) : bool := forallb (fun m => forallb (fun m' => offb (h_exps m) (h_exps m')) (monomials h s)) (monomials h t).
Lemma away_spec h s t : awayb h s t = true -> no_shared_exponents h s t.
Proof.
  unfold awayb. rewrite forallb_forall. intros H m m' Hm Hm' (a & j & X & Y). specialize (H m Hm). rewrite forallb_forall in H. eapply offb_spec; [apply H; exact Hm' | exact X | exact Y].
Qed.
End Tests.

Section Q.
Local Existing Instance QNum.
Local Existing Instance doubling.
(** (x y + x)^3, of degree 3 in x and in y *)
Lemma wit_cube : exists s t, nth_error w_roots 4 = Some s /\ nth_error w_roots 3 = Some t /\ legal w_heap s /\ (forall v, own_exponents w_heap v s) /\ legal w_heap t /\ no_shared_exponents w_heap s t /\
  length (terms (rd w_heap s)) = 4%nat /\ ~ at_most_linear_in wx (rd w_heap s).
Proof.
  destruct wit_call as (L & _ & _).
  assert (E : match nth_error w_roots 4, nth_error w_roots 3 with Some s, Some t => ownb (monomials w_heap s) && awayb w_heap s t && Nat.eqb (length (terms (rd w_heap s))) 4 && negb (linb wx (rd w_heap s)) && existsb (fun m => match m_vars m, m_exps m with u :: _, e :: _ => N.eqb (v_id u) (v_id wx) && Z.eqb e 3 | _, _ => false end) (terms (rd w_heap s)) | _, _ => false end = true) by (vm_compute; reflexivity).
  destruct (nth_error w_roots 4) as [s|] eqn:Es; [|discriminate]. destruct (nth_error w_roots 3) as [t|] eqn:Et; [|discriminate]. apply andb_prop in E as [E E4]. apply andb_prop in E as [E _]. apply andb_prop in E as [E E3]. apply andb_prop in E as [E1 E2].
  exists s, t. split; [reflexivity|]. split; [reflexivity|]. split; [apply L; eapply nth_error_In; exact Es|]. split; [apply own_spec; exact E1|]. split; [apply L; eapply nth_error_In; exact Et|]. split; [apply away_spec; exact E2|]. split; [apply Nat.eqb_eq; exact E3|].
  intro Li. apply existsb_exists in E4. destruct E4 as (m & Hm & E4). destruct (m_vars m) as [|u us] eqn:Eu; [discriminate|]. destruct (m_exps m) as [|e es] eqn:Ee; [discriminate|]. apply andb_prop in E4 as [E5 E6]. apply N.eqb_eq in E5. apply Z.eqb_eq in E6. subst e.
  assert (X : (3 = 1)%Z) by (apply (Li m 0%nat u 3%Z Hm); [rewrite Eu; reflexivity | exact E5 | rewrite Ee; reflexivity]). discriminate X.
Qed.
Lemma wit_cube_alone : exists s, nth_error w_roots 4 = Some s /\ legal w_heap s /\ (forall v, own_exponents w_heap v s) /\ ~ at_most_linear_in wx (rd w_heap s).
Proof. destruct wit_cube as (s & t & H1 & _ & H2 & H3 & _ & _ & _ & H4). exists s. auto. Qed.
Lemma wit_poly : exists p, In (HP p) w_roots /\ legal w_heap (HP p) /\ length (rd_poly w_heap p) = 4%nat.
Proof.
  destruct wit_call as (L & _ & _). assert (E : match nth_error w_roots 4 with Some (HP p) => Nat.eqb (length (rd_poly w_heap p)) 4 | _ => false end = true) by (vm_compute; reflexivity).
  destruct (nth_error w_roots 4) as [[k|v|m|p]|] eqn:Es; [discriminate E | discriminate E | discriminate E | | discriminate E]. exists p. assert (Hin : In (HP p) w_roots) by (eapply nth_error_In; exact Es). split; [exact Hin|]. split; [apply L; exact Hin | apply Nat.eqb_eq; exact E].
Qed.
Lemma wit_mono_legal : legal_mono w_hx4 w_x4 /\ rd_mono w_hx4 w_x4 = mkMono (nofZ 5) [4; 1]%Z [wx; wy].
Proof. split; [apply wit_effect | reflexivity]. Qed.
Lemma wit_written : exists c h1 h2, hmono_copy w_x4 w_hx4 = (Ok c, h1) /\ written_through h1 h2 w_x4 /\ rd_mono h2 w_x4 <> rd_mono h1 w_x4.
Proof.
  eexists _, _, (mkHeap [[7; 1]; [4; 1]]%Z [[wx; wy]; [wx; wy]] [] []). split; [reflexivity|]. split.
  - split; [|split; [intros a j _ _; reflexivity | split; reflexivity]]. intros a j Ne _. cbn [w_hx4 hi hv with_ints with_vars]. destruct a as [|a]; [|reflexivity]. destruct j as [|j]; [|reflexivity]. exfalso. apply Ne. split; cbn; lia.
  - discriminate.
Qed.
End Q.

(** ** Refutations *)

(** the "deep copy" x^2 + y changes when the original is differentiated *)
Lemma poly_copy_refuted : forall NN, NN = F64Num \/ NN = QNum -> forall RT : Runtime,
  exists (l : list instr) (h h1 h2 : heap) (roots : list hscalar) (p q : slice) (d : hscalar) (v : var) (r : assignment),
    history empty_heap [] l = (h, roots) /\ In (HP p) roots /\ valid (rd h (HP p)) /\ hpoly_copy p h = (Ok q, h1) /\ h_derivative (HP p) v h1 = (Ok d, h2) /\
    eval r (rd h2 (HP q)) =? eval r (rd h1 (HP q)) = false.
Proof.
  assert (T : forall (NN : Num) (RT : Runtime), let l := [IMono n1 [2]%Z [wx]; IMono n1 [1]%Z [wy]; IPoly [0; 1]%nat] in let st := history empty_heap [] l in
    match snd st with
    | [_; _; HP p] => validb (rd (fst st) (HP p)) && (let x1 := hpoly_copy p (fst st) in run_ok (fst x1) (fun q => let x2 := h_derivative (HP p) wx (snd x1) in
        run_ok (fst x2) (fun _ => negb (same_at (at3 3 0 0) (rd (snd x2) (HP q)) (rd (snd x1) (HP q))))))
    | _ => false end = true ->
    exists (l : list instr) (h h1 h2 : heap) (roots : list hscalar) (p q : slice) (d : hscalar) (v : var) (r : assignment),
    history empty_heap [] l = (h, roots) /\ In (HP p) roots /\ valid (rd h (HP p)) /\ hpoly_copy p h = (Ok q, h1) /\ h_derivative (HP p) v h1 = (Ok d, h2) /\
    eval r (rd h2 (HP q)) =? eval r (rd h1 (HP q)) = false).
  { intros NN RT l st H. destruct st as [h roots] eqn:E. cbn [fst snd] in H. destruct roots as [|a [|b [|[k|u|m|p] [|t roots]]]]; try discriminate.
    apply andb_prop in H as [H1 H2]. cbv zeta in H2. destruct (hpoly_copy p h) as [x1 h1] eqn:E1. cbn [fst snd] in H2. apply run_ok_spec in H2. destruct H2 as (q & -> & H2).
    destruct (h_derivative (HP p) wx h1) as [x2 h2] eqn:E2. cbn [fst snd] in H2. apply run_ok_spec in H2. destruct H2 as (d & -> & H2).
    exists l, h, h1, h2, [a; b; HP p], p, q, d, wx, (at3 3 0 0). split; [exact E|]. split; [right; right; left; reflexivity|]. split; [apply validb_spec; exact H1|]. split; [exact E1|]. split; [exact E2|]. apply negb_true_iff. exact H2. }
  intros NN [->| ->] RT; apply T; vm_compute; reflexivity.
Qed.

(** AsSimplifiedExpression of x^2 is not a copy *)
Lemma simplified_refuted : forall NN, NN = F64Num \/ NN = QNum -> forall RT : Runtime,
  exists (l : list instr) (h h1 h2 : heap) (s t d : hscalar) (v : var) (r : assignment),
    history empty_heap [] l = (h, [s]) /\ valid (rd h s) /\ h_simplified s h = (Ok t, h1) /\ h_derivative s v h1 = (Ok d, h2) /\ eval r (rd h2 t) =? eval r (rd h1 t) = false.
Proof.
  assert (T : forall (NN : Num) (RT : Runtime), let l := [IMono n1 [2]%Z [wx]] in let st := history empty_heap [] l in
    match snd st with
    | [s] => validb (rd (fst st) s) && (let x1 := h_simplified s (fst st) in run_ok (fst x1) (fun t => let x2 := h_derivative s wx (snd x1) in
        run_ok (fst x2) (fun _ => negb (same_at (at3 3 0 0) (rd (snd x2) t) (rd (snd x1) t)))))
    | _ => false end = true ->
    exists (l : list instr) (h h1 h2 : heap) (s t d : hscalar) (v : var) (r : assignment),
    history empty_heap [] l = (h, [s]) /\ valid (rd h s) /\ h_simplified s h = (Ok t, h1) /\ h_derivative s v h1 = (Ok d, h2) /\ eval r (rd h2 t) =? eval r (rd h1 t) = false).
  { intros NN RT l st H. destruct st as [h roots] eqn:E. cbn [fst snd] in H. destruct roots as [|s [|t roots]]; try discriminate.
    apply andb_prop in H as [H1 H2]. cbv zeta in H2. destruct (h_simplified s h) as [x1 h1] eqn:E1. cbn [fst snd] in H2. apply run_ok_spec in H2. destruct H2 as (t & -> & H2).
    destruct (h_derivative s wx h1) as [x2 h2] eqn:E2. cbn [fst snd] in H2. apply run_ok_spec in H2. destruct H2 as (d & -> & H2).
    exists l, h, h1, h2, s, t, d, wx, (at3 3 0 0). split; [exact E|]. split; [apply validb_spec; exact H1|]. split; [exact E1|]. split; [exact E2|]. apply negb_true_iff. exact H2. }
  intros NN [->| ->] RT; apply T; vm_compute; reflexivity.
Qed.

(** the polynomial of the two terms x^2 and x^2, one monomial used twice: the derivative read from memory is 2x + 1 *)
Lemma repeated_run {NN : Num} {RT : Runtime} : var_check wx = true -> n1 =? n0 = false ->
  let m := mkHM n1 (mkSlice 0 0 1 1) (mkSlice 0 0 1 1) in let h := mkHeap [[2]%Z] [[wx]] [[m; m]] [] in
  exists d h', history empty_heap [] [IMono n1 [2]%Z [wx]; IPoly [0; 0]%nat] = (h, [HM m; HP (mkSlice 0 0 2 2)]) /\ h_derivative (HP (mkSlice 0 0 2 2)) wx h = (Ok d, h') /\
    rd h' d = SP [mkMono (n1 * nofZ 2) [1]%Z [wx]; mkMono n1 [] []].
Proof.
  intros Hw Hn m h. set (p := mkSlice 0 0 2 2). set (d1 := mkHM (n1 * nofZ 2) (mkSlice 0 0 1 1) (mkSlice 0 0 1 1)).
  set (s1 := mkSlice 1 0 1 (1 + grow_mono 0 1)). set (h1 := mkHeap [[1]%Z] [[wx]] [[m; m]; d1 :: repeat zero_mono (grow_mono 0 1)] []).
  assert (B1 : deriv_body p wx nil_slice 0 h = (Ok s1, h1)).
  { unfold deriv_body, h_mono_derivative, bindM, reads, check_mono, check_var, get_mono, get_int, index, check. rewrite Hw. reflexivity. }
  assert (B2 : deriv_body p wx s1 1 h1 = append_monos s1 [hk_to_mono n1] h1).
  { unfold deriv_body, h_mono_derivative, bindM, reads, check_mono, check_var, get_mono, get_int, index, check. rewrite Hw. cbn -[append_monos]. rewrite Hn. reflexivity. }
  assert (I1 : inb (hm h1) s1). { split; cbn; [lia|]. intros _. rewrite repeat_length. lia. }
  pose proof (append_cases grow_mono zero_mono (hm h1) s1 [hk_to_mono n1] I1) as A. cbv zeta in A. unfold append_monos in B2. destruct (append_slice grow_mono zero_mono (hm h1) s1 [hk_to_mono n1]) as [s2 mm]. cbn [fst snd] in A. destruct A as (_ & A1 & A2).
  assert (V1 : view (hm h1) s1 = [d1]) by reflexivity. rewrite V1 in A2. cbn [app] in A2. pose proof (view_length _ _ A1) as Ln. rewrite A2 in Ln. cbn in Ln.
  exists (HP s2), (with_monos h1 mm). split; [reflexivity|]. split.
  - unfold h_derivative, h_poly_derivative. unfold bindM at 1 2, check_poly, check_var, reads, check. rewrite Hw. change (poly_check (rd_poly h p)) with true. cbn match.
    change (forM _ (indices p) nil_slice) with (forM (deriv_body p wx) [0; 1]%nat nil_slice). cbn [forM]. unfold bindM. rewrite B1, B2. cbn. rewrite <- Ln. reflexivity.
  - cbn [rd]. unfold rd_poly. cbn [with_monos hm]. rewrite A2. reflexivity.
Qed.
Lemma repeated_refuted : forall NN, NN = F64Num \/ NN = QNum -> forall RT : Runtime,
  exists (l : list instr) (h h' : heap) (roots : list hscalar) (s d : hscalar) (e : scalar) (v : var) (r : assignment),
    history empty_heap [] l = (h, roots) /\ In s roots /\ valid (rd h s) /\ valid_var v /\ h_derivative s v h = (Ok d, h') /\ scalar_derivative (rd h s) v = Ok e /\
    eval r (rd h' d) =? eval r e = false.
Proof.
  assert (T : forall (NN : Num) (RT : Runtime), let m2 := mkMono n1 [2]%Z [wx] in
    validb (SP [m2; m2]) && varb wx && var_check wx && negb (n1 =? n0) && run_ok (scalar_derivative (SP [m2; m2]) wx) (fun e => negb (same_at (at3 3 0 0) (SP [mkMono (n1 * nofZ 2) [1]%Z [wx]; mkMono n1 [] []]) e)) = true ->
    exists (l : list instr) (h h' : heap) (roots : list hscalar) (s d : hscalar) (e : scalar) (v : var) (r : assignment),
    history empty_heap [] l = (h, roots) /\ In s roots /\ valid (rd h s) /\ valid_var v /\ h_derivative s v h = (Ok d, h') /\ scalar_derivative (rd h s) v = Ok e /\
    eval r (rd h' d) =? eval r e = false).
  { intros NN RT m2 H. apply andb_prop in H as [H H5]. apply andb_prop in H as [H H4]. apply andb_prop in H as [H H3]. apply andb_prop in H as [H1 H2]. apply run_ok_spec in H5. destruct H5 as (e & E & H5). apply negb_true_iff in H4.
    destruct (repeated_run H3 H4) as (d & h' & R1 & R2 & R3). eexists _, _, h', _, (HP (mkSlice 0 0 2 2)), d, e, wx, (at3 3 0 0). split; [exact R1|]. split; [right; left; reflexivity|]. split; [apply validb_spec; exact H1|]. split; [apply varb_spec; exact H2|].
    split; [exact R2|]. split; [exact E|]. rewrite R3. apply negb_true_iff. exact H5. }
  intros NN [->| ->] RT; apply T; vm_compute; reflexivity.
Qed.
