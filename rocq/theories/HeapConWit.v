(** * Witnesses and refutations for sessions with constraints *)

From Coq Require Import ZArith NArith Bool List Lia.
From Verif Require Import Num Syntax ModelScalar ModelShape ModelArith ModelSC ModelConstr Spec SpecArr SpecCon SpecAProg ModelAProg Base Witness ScalarWit ArrWit AProgTop AProgWit LinProgWit SCWit ModelHeap SpecHeap
  ModelHeapArr SpecHeapArr ModelHeapCon SpecHeapCon HeapProofs HeapWit HeapArrProofs HeapArrWit HeapConProofs.
Import ListNotations.
Local Open Scope num_scope.

Section W.
Context {NN : Num}.
Definition charmlessb (es : list expr) (i : cinstr) : bool := match i with IExpr i => aharmlessb es i | _ => true end.
Fixpoint csessionb (es : list expr) (cs : list constraint) (l : list cinstr) : bool :=
  match l with
  | [] => true
  | i :: l' => charmlessb es i && csessionb (es ++ new_exprs (cexec_value es cs i)) (cs ++ new_cons (cexec_value es cs i)) l'
  end.
Lemma csessionb_spec l : forall es cs, csessionb es cs l = true -> charmless_session es cs l.
Proof.
  induction l as [|i l IH]; intros es cs H; cbn [csessionb charmless_session] in *; [exact I|]. apply andb_prop in H as [H1 H2]. split; [|apply IH; exact H2].
  destruct i; try exact I. apply aharmlessb_spec. exact H1.
Qed.
Lemma creached {RT : Runtime} l : charmless_session [] [] l -> let '((h, es, cs), t) := session empty_heap [] [] l in
  all_legal_arrays h (in_use es cs) /\ separate_arrays h (in_use es cs).
Proof.
  intro H. destruct (session empty_heap [] [] l) as [[[h es] cs] t] eqn:E. destruct empty_legal_session as [Le Se]. destruct (session_spec l _ _ _ _ _ _ _ Le Se H E) as (_ & _ & _ & L & S). auto.
Qed.

(** 3x, (1 2; 3 4) (x, y) + 3x <= (5, 6), its entries, matrices, implications, ... *)
Definition w_session : list cinstr :=
  [IExpr (JMono (nofZ 3) [1]%Z [wx]); IExpr (JKMatrix [[nofZ 1; nofZ 2]; [nofZ 3; nofZ 4]]); IExpr (JVVector [wx; wy]); IExpr (JMultiply 1 (OResult 2)); IExpr (JPlus 3 (OResult 0)); IExpr (JSimplify 4);
   ICompare 5 (OVecDense [nofZ 5; nofZ 6]) SenseLe; IInequality 0 [[wx; wy]]; IAtVec 0 1; ICompile [0; 1]%nat; IScale 1 (nofZ 2); ISimplifyCon 0; IImplies (fun _ _ _ l => l) 1 2; ILeft 0; IVariables (fun l => l) 0;
   IExpr (JDeriv 0 wx); ISubstCon 0 wy 0; ISubstMapCon 0 [(wx, 0%nat); (wy, 0%nat)] [(wy, 0%nat); (wx, 0%nat)]; ICompare 0 (OFloat (nofZ 4)) SenseEq; IEquality 9 [[wx]]; ICheck 0; IIsLinear 6; INonneg (fun _ l => l) 1].
(** x^2 <= 4 *)
Definition w_quadratic : list cinstr := [IExpr (JMono n1 [2]%Z [wx]); ICompare 0 (OFloat (nofZ 4)) SenseLe].

(** a later DerivativeWrt of the expression from which the constraint was made *)
Definition spoils {RT : Runtime} : bool :=
  let s1 := session empty_heap [] [] w_quadratic in let s2 := session empty_heap [] [] (w_quadratic ++ [IExpr (JDeriv 0 wx)]) in
  match nth_error (snd (fst s1)) 0 with
  | Some c => match rd_acon (fst (fst (fst s1))) c, rd_acon (fst (fst (fst s2))) c with
              | CS c1, CS c2 => sense_eqb (sc_sense c1) SenseLe && sense_eqb (sc_sense c2) SenseLe && negb (satb (at3 3 0 0) c1) && satb (at3 3 0 0) c2
              | _, _ => false
              end
  | None => false
  end.
End W.

Lemma wit_session (NN := QNum) : charmless_session [] [] w_session.
Proof. apply csessionb_spec. vm_compute. reflexivity. Qed.
Definition is_ok {T} (r : res T) : bool := match r with Ok _ => true | Panic _ => false end.
Lemma wit_session_answers (NN := QNum) : forallb is_ok (snd (session_values [] [] w_session)) = true /\ length (fst (fst (session_values [] [] w_session))) = 8%nat /\ length (snd (fst (session_values [] [] w_session))) = 10%nat.
Proof. vm_compute. auto. Qed.
Lemma wit_session_plain (NN := QNum) : Forall no_derivative_step (firstn 15 w_session).
Proof. repeat constructor. Qed.
Definition w_cheap (NN := QNum) (RT := doubling) : heap := fst (fst (fst (session empty_heap [] [] w_session))).
Definition w_ces (NN := QNum) (RT := doubling) : list aexpr := snd (fst (fst (session empty_heap [] [] w_session))).
Definition w_ccs (NN := QNum) (RT := doubling) : list acon := snd (fst (session empty_heap [] [] w_session)).
Lemma wit_ccall (NN := QNum) (RT := doubling) : all_legal_arrays w_cheap (in_use w_ces w_ccs) /\ separate_arrays w_cheap (in_use w_ces w_ccs) /\ charmless (map (rd_aexpr w_cheap) w_ces) (ICompile [0; 1; 2]%nat).
Proof.
  pose proof (creached (NN := QNum) (RT := doubling) w_session wit_session) as R. unfold w_cheap, w_ces, w_ccs. destruct (session empty_heap [] [] w_session) as [[[h es] cs] t]. cbn [fst snd].
  destruct R as (R1 & R2). split; [exact R1|]. split; [exact R2 | exact I].
Qed.

(** (1 2; 3 4) (x, y) + (3x, 2z) and (x, y) - (5, 6) *)
Definition w_lin (NN := QNum) : list ainstr :=
  [JKMatrix [[nofZ 1; nofZ 2]; [nofZ 3; nofZ 4]]; JVVector [wx; wy]; JKVector [nofZ 5; nofZ 6]; JMono (nofZ 3) [1]%Z [wx]; JMono (nofZ 2) [1]%Z [wz]; JMVector [3; 4]%nat].
Definition w_lheap (NN := QNum) (RT := doubling) : heap := fst (ahistory empty_heap [] w_lin).
Definition w_lroots (NN := QNum) (RT := doubling) : list aexpr := snd (ahistory empty_heap [] w_lin).
Definition lleaf (NN := QNum) (k : nat) : mprog := QLeaf (nth k w_lroots (AES (HK n0))).
Definition w_lp_mem (NN := QNum) : mprog := QPlus (QTimes (lleaf 0) (lleaf 1)) (lleaf 5).
Definition w_lq_mem (NN := QNum) : mprog := QMinus (lleaf 1) (lleaf 2).
Lemma wit_system (NN := QNum) (RT := doubling) : all_legal_arrays w_lheap w_lroots /\ separate_arrays w_lheap w_lroots /\ leaves_in w_lroots w_lp_mem /\ leaves_in w_lroots w_lq_mem /\
  linear_vector 2 [wz; wx; wy] (program_of w_lheap w_lp_mem) /\ linear_vector 2 [wz; wx; wy] (program_of w_lheap w_lq_mem) /\ Forall valid_var [wz; wx; wy] /\ NoDup (map v_id [wz; wx; wy]) /\
  (exists A b h', system_in_memory h_vc_linear_inequality w_lp_mem w_lq_mem SenseGe [wz; wx; wy] w_lheap = (Ok (A, b), h')) /\
  (exists A b h', system_in_memory h_vc_linear_equality w_lp_mem w_lq_mem SenseEq [wz; wx; wy] w_lheap = (Ok (A, b), h')).
Proof.
  assert (H : aharmless_history [] w_lin) by (apply ahistoryb_spec; vm_compute; reflexivity). pose proof (areached (NN := QNum) (RT := doubling) w_lin H) as R.
  assert (L : forall k, (k < 6)%nat -> In (nth k w_lroots (AES (HK n0))) w_lroots) by (intros k Hk; apply nth_In; replace (length w_lroots) with 6%nat; [exact Hk | vm_compute; reflexivity]).
  assert (Q : all_legal_arrays w_lheap w_lroots /\ separate_arrays w_lheap w_lroots) by (unfold w_lheap, w_lroots; destruct (ahistory empty_heap [] w_lin) as [h roots]; cbn [fst snd]; destruct R as (R1 & R2 & _); split; assumption).
  destruct Q as [Q1 Q2]. split; [exact Q1|]. split; [exact Q2|]. split; [cbn [leaves_in w_lp_mem lleaf]; split; [split|]; apply L; lia|]. split; [cbn [leaves_in w_lq_mem lleaf]; split; apply L; lia|].
  split; [apply linearb_spec; vm_compute; reflexivity|]. split; [apply linearb_spec; vm_compute; reflexivity|]. split; [apply Forall_forall; intros v Hv; apply varb_spec; destruct Hv as [<-|[<-|[<-|[]]]]; vm_compute; reflexivity|].
  split; [apply nodupb_spec; vm_compute; reflexivity|]. split.
  - assert (T : is_ok (fst (system_in_memory h_vc_linear_inequality w_lp_mem w_lq_mem SenseGe [wz; wx; wy] w_lheap)) = true) by (vm_compute; reflexivity).
    destruct (system_in_memory h_vc_linear_inequality w_lp_mem w_lq_mem SenseGe [wz; wx; wy] w_lheap) as [[[A b]|] h']; [eauto | discriminate T].
  - assert (T : is_ok (fst (system_in_memory h_vc_linear_equality w_lp_mem w_lq_mem SenseEq [wz; wx; wy] w_lheap)) = true) by (vm_compute; reflexivity).
    destruct (system_in_memory h_vc_linear_equality w_lp_mem w_lq_mem SenseEq [wz; wx; wy] w_lheap) as [[[A b]|] h']; [eauto | discriminate T].
Qed.

(** after x^2.LessEq(4), DerivativeWrt on x^2 turns the constraint into x <= 4 *)
Lemma spoiled_refuted : forall NN, NN = F64Num \/ NN = QNum -> forall RT : Runtime,
  exists (v : var) (h1 h2 : heap) (es1 es2 : list aexpr) (cs1 cs2 : list acon) (t1 t2 : list (res (outcome expr constraint))) (c : acon) (r : assignment),
  let l := [IExpr (JMono n1 [2]%Z [v]); ICompare 0 (OFloat (nofZ 4)) SenseLe] in
  session empty_heap [] [] l = ((h1, es1, cs1), t1) /\ session empty_heap [] [] (l ++ [IExpr (JDeriv 0 v)]) = ((h2, es2, cs2), t2) /\ nth_error cs1 0 = Some c /\
  ~ con_sat r (1, 1)%nat (rd_acon h1 c) /\ con_sat r (1, 1)%nat (rd_acon h2 c).
Proof.
  assert (T : forall (NN : Num) (RT : Runtime), spoils = true -> exists (v : var) (h1 h2 : heap) (es1 es2 : list aexpr) (cs1 cs2 : list acon) (t1 t2 : list (res (outcome expr constraint))) (c : acon) (r : assignment),
    let l := [IExpr (JMono n1 [2]%Z [v]); ICompare 0 (OFloat (nofZ 4)) SenseLe] in
    session empty_heap [] [] l = ((h1, es1, cs1), t1) /\ session empty_heap [] [] (l ++ [IExpr (JDeriv 0 v)]) = ((h2, es2, cs2), t2) /\ nth_error cs1 0 = Some c /\
    ~ con_sat r (1, 1)%nat (rd_acon h1 c) /\ con_sat r (1, 1)%nat (rd_acon h2 c)).
  { intros NN RT H. unfold spoils in H. destruct (session empty_heap [] [] w_quadratic) as [[[h1 es1] cs1] t1] eqn:E1, (session empty_heap [] [] (w_quadratic ++ [IExpr (JDeriv 0 wx)])) as [[[h2 es2] cs2] t2] eqn:E2. cbn [fst snd] in H.
    destruct (nth_error cs1 0) as [c|] eqn:En; [|discriminate H]. exists wx, h1, h2, es1, es2, cs1, cs2, t1, t2, c, (at3 3 0 0). split; [exact E1|]. split; [exact E2|]. split; [exact En|].
    destruct (rd_acon h1 c) as [c1| |]; try discriminate H. destruct (rd_acon h2 c) as [c2| |]; try discriminate H. apply andb_prop in H as [H H4]. apply andb_prop in H as [H H3]. apply andb_prop in H as [H1 H2].
    assert (S1 : sc_sense c1 = SenseLe) by (destruct (sc_sense c1); (reflexivity || discriminate H1)). assert (S2 : sc_sense c2 = SenseLe) by (destruct (sc_sense c2); (reflexivity || discriminate H2)).
    apply negb_true_iff in H3. split.
    - intro K. apply (satb_false _ _ (or_introl S1)) in H3. apply H3. exact (K 0%nat 0%nat (Nat.lt_0_succ _) (Nat.lt_0_succ _)).
    - apply (satb_spec _ _ (or_introl S2)) in H4. intros [|i] [|j] Hi Hj; cbn in Hi, Hj; try lia. exact H4. }
  intros NN [->| ->] RT; apply T; vm_compute; reflexivity.
Qed.
