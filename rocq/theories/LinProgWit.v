(** * Witnesses for the theorems on linear constraints between programs *)

From Coq Require Import ZArith NArith Bool List Lia.
From Coq Require Import QArith Qcanon.
From Verif Require Import Num Syntax ModelScalar ModelSC Spec SpecProg SpecExact Base ScalarValid Witness ScalarWit ModelShape ModelArith SpecArr ArrWit ModelConstr SpecCon SpecAProg ModelAProg AProgTop AProgCon AProgWit
  SpecExactArr FloatATop FloatLinProg ExactWit ExactArrWit.
Import ListNotations.
Local Open Scope num_scope.

Section W.
Context {NN : Num}.
(** (1 2; 3 4) (x, y) + (5, 6) and (y, z) - (1 2; 3 4) (5, 6) *)
Definition w_lp : aprog := APlus (ATimes (ALeaf (EM (MK w_Q))) (ALeaf (EV (VV [wx; wy])))) (ALeaf (EV (VK [nofZ 5; nofZ 6]))).
Definition w_lq : aprog := AMinus (ALeaf (EV (VV [wy; wz]))) (ALeaf (EV (VK [nofZ 5; nofZ 6]))).
(** (1 + 2 + 2x, 2x) and (1, 2) *)
Definition w_up : aprog := ALeaf (EV (VP [[mkMono (nofZ 1) [] []; mkMono (nofZ 2) [] []; mkMono (nofZ 2) [1%Z] [wx]]; [mkMono (nofZ 2) [1%Z] [wx]]])).
Definition w_uq : aprog := ALeaf (EV (VK [nofZ 1; nofZ 2])).

Definition amongb (xs : list var) (p : aprog) : bool :=
  match p with ALeaf e => forallb (forallb (fun s => forallb (fun m : Monomial => forallb (fun v => existsb (N.eqb (v_id v)) (map v_id xs)) (m_vars m)) (terms s))) (rows e) | _ => true end.
Lemma amongb_spec xs p : everyb (amongb xs) p = true -> leaves_among xs p.
Proof.
  apply everyb_spec. intros [e| | | | | | | |] H; try exact I. cbn [amongb] in H. intros i (row & s & R1 & R2 & m & M1 & M2). rewrite forallb_forall in H. specialize (H row R1). rewrite forallb_forall in H. specialize (H s R2).
  rewrite forallb_forall in H. specialize (H m M1). rewrite forallb_forall in H. apply in_map_iff in M2. destruct M2 as (v & <- & Hv). specialize (H v Hv). apply existsb_exists in H. destruct H as (j & Hj & E).
  apply N.eqb_eq in E. rewrite E. exact Hj.
Qed.
Definition linearb (n : nat) (xs : list var) (p : aprog) : bool :=
  everyb leafb p && match adims p with Some d => Nat.eqb (fst d) n && Nat.eqb (snd d) 1 | None => false end && Z.leb (adegree p) 1 && everyb (amongb xs) p.
Lemma linearb_spec n xs p : linearb n xs p = true -> linear_vector n xs p.
Proof.
  unfold linearb. intro H. apply andb_prop in H as [H H4]. apply andb_prop in H as [H H3]. apply andb_prop in H as [H1 H2]. split; [apply (everyb_spec leafb); [exact leafb_spec | exact H1]|]. split.
  - destruct (adims p) as [[d1 d2]|]; [|discriminate]. cbn [fst snd] in H2. apply andb_prop in H2 as [X Y]. apply Nat.eqb_eq in X, Y. subst. reflexivity.
  - split; [apply Z.leb_le; exact H3 | apply amongb_spec; exact H4].
Qed.
(** the constraint between the results *)
Definition made (p q : aprog) (s : sense) (t : vector_constraint -> bool) : bool :=
  match arun p with
  | Ok a => match arun q with Ok b => match expr_comparison a (GExpr b) s with Ok (CV c) => t c | _ => false end | _ => false end
  | _ => false
  end.
Lemma made_spec p q s t : made p q s t = true -> exists a b c, arun p = Ok a /\ arun q = Ok b /\ expr_comparison a (GExpr b) s = Ok (CV c) /\ t c = true.
Proof.
  unfold made. destruct (arun p) as [a|]; [|discriminate]. destruct (arun q) as [b|]; [|discriminate]. destruct (expr_comparison a (GExpr b) s) as [[|c|]|] eqn:E; try discriminate. intro H. exists a, b, c. auto.
Qed.
End W.

Lemma wit_linprog (NN := QNum) : linear_vector 2 [wz; wx; wy] w_lp /\ linear_vector 2 [wz; wx; wy] w_lq /\ Forall valid_var [wz; wx; wy] /\ NoDup (map v_id [wz; wx; wy]) /\ rows_vary 2 w_lp w_lq
  /\ exists a b c, arun (ASimplified w_lp) = Ok a /\ arun (ASimplified w_lq) = Ok b /\ expr_comparison a (GExpr b) SenseGe = Ok (CV c).
Proof.
  split; [apply linearb_spec; vm_compute; reflexivity|]. split; [apply linearb_spec; vm_compute; reflexivity|]. split; [apply Forall_forall; intros v Hv; apply varb_spec; destruct Hv as [<-|[<-|[<-|[]]]]; vm_compute; reflexivity|].
  split; [apply nodupb_spec; vm_compute; reflexivity|]. split.
  - intros [|[|i]] Hi; [| |lia]; exists (at3 0 0 0), (at3 1 0 0); intro E; apply (f_equal (fun q : Qc => Qnum (this q))) in E; vm_compute in E; discriminate.
  - assert (M : made (ASimplified w_lp) (ASimplified w_lq) SenseGe (fun _ => true) = true) by (vm_compute; reflexivity). apply made_spec in M as (a & b & c & E1 & E2 & E3 & _). exists a, b, c. auto.
Qed.

(** 0.5 2; 3 0.25 *)
Definition w_hp : @aprog F64Num := APlus (linear_map w_H w_xs) (ALeaf (EV (@VK F64Num [w_quarter; @nofZ F64Num 6]))).
Lemma wit_linprog_exact (NN := F64Num) : linear_vector 2 [wz; wx; wy] w_hp /\ linear_vector 2 [wz; wx; wy] w_lq /\ afits w_hp /\ afits w_lq
  /\ (aweight w_hp * 2 ^ (Z.max (abits w_hp) (abits w_lq) - abits w_hp) + 2 * (aweight w_lq * 2 ^ (Z.max (abits w_hp) (abits w_lq) - abits w_lq)) <= 2 ^ 53)%Z
  /\ Forall valid_var [wz; wx; wy] /\ Forall numeric_var [wz; wx; wy] /\ NoDup (map v_id [wz; wx; wy]) /\ @rows_vary QNum 2 (exact_aprog w_hp) (exact_aprog w_lq)
  /\ exists a b c, arun (ASimplified w_hp) = Ok a /\ arun (ASimplified w_lq) = Ok b /\ expr_comparison a (GExpr b) SenseLe = Ok (CV c).
Proof.
  split; [apply linearb_spec; vm_compute; reflexivity|]. split; [apply linearb_spec; vm_compute; reflexivity|]. split; [apply afits_by; vm_compute; reflexivity|]. split; [apply afits_by; vm_compute; reflexivity|].
  split; [apply Z.leb_le; vm_compute; reflexivity|]. split; [apply Forall_forall; intros v Hv; apply varb_spec; destruct Hv as [<-|[<-|[<-|[]]]]; vm_compute; reflexivity|].
  split; [apply Forall_forall; intros v Hv; apply nvarb_spec; destruct Hv as [<-|[<-|[<-|[]]]]; vm_compute; reflexivity|]. split; [apply nodupb_spec; vm_compute; reflexivity|]. split.
  - intros [|[|i]] Hi; [| |lia]; exists (@at3 QNum 0 0 0), (@at3 QNum 1 0 0); intro E; apply (f_equal (fun q : Qc => Qnum (this q))) in E; vm_compute in E; discriminate.
  - assert (M : made (ASimplified w_hp) (ASimplified w_lq) SenseLe (fun _ => true) = true) by (vm_compute; reflexivity). apply made_spec in M as (a & b & c & E1 & E2 & E3 & _). exists a, b, c. auto.
Qed.

Lemma two_rows (P : nat -> Prop) : P 0%nat -> P 1%nat -> forall i, (i < 2)%nat -> P i.
Proof. intros P0 P1 [|[|i]] Hi; [exact P0 | exact P1 | lia]. Qed.

(** 1 + 2 + 2x <= 1 is extracted as 2x <= 0 *)
Lemma unsimplified_refuted : forall NN, NN = F64Num \/ NN = QNum -> exists (w : list var) (p q : aprog) (a b : expr) (c : vector_constraint) (A : list (list num)) (rhs : list num) (r : assignment),
  linear_vector 2 w p /\ linear_vector 2 w q /\ Forall valid_var w /\ NoDup (map v_id w) /\ arun p = Ok a /\ arun q = Ok b /\ expr_comparison a (GExpr b) SenseLe = Ok (CV c)
  /\ vc_linear_inequality c [w] = Ok (A, rhs) /\ system_le r A w rhs /\ ~ holds (meaning r p 0 0) SenseLe (meaning r q 0 0).
Proof.
  assert (T : forall NN : Num, (linearb 2 [wx] w_up && linearb 2 [wx] w_uq && varb wx && made w_up w_uq SenseLe (fun c => match vc_linear_inequality c [[wx]] with
      | Ok (A, rhs) => Nat.eqb (length rhs) 2 && nleb (dot (at3 0 0 0) (nth 0 A []) [wx]) (nth 0 rhs n0) && nleb (dot (at3 0 0 0) (nth 1 A []) [wx]) (nth 1 rhs n0)
      | _ => false end)
      && negb (nleb (meaning (at3 0 0 0) w_up 0 0) (meaning (at3 0 0 0) w_uq 0 0)))%bool = true ->
    exists (w : list var) (p q : aprog) (a b : expr) (c : vector_constraint) (A : list (list num)) (rhs : list num) (r : assignment),
     linear_vector 2 w p /\ linear_vector 2 w q /\ Forall valid_var w /\ NoDup (map v_id w) /\ arun p = Ok a /\ arun q = Ok b /\ expr_comparison a (GExpr b) SenseLe = Ok (CV c)
     /\ vc_linear_inequality c [w] = Ok (A, rhs) /\ system_le r A w rhs /\ ~ holds (meaning r p 0 0) SenseLe (meaning r q 0 0)).
  { intros NN H. apply andb_prop in H as [H H5]. apply andb_prop in H as [H H4]. apply andb_prop in H as [H H3]. apply andb_prop in H as [H1 H2]. apply made_spec in H4 as (a & b & c & E1 & E2 & E3 & H4).
    destruct (vc_linear_inequality c [[wx]]) as [[A rhs]|] eqn:E4; [|discriminate]. apply andb_prop in H4 as [H4 H7]. apply andb_prop in H4 as [H4 H6]. apply Nat.eqb_eq in H4.
    exists [wx], w_up, w_uq, a, b, c, A, rhs, (at3 0 0 0). split; [apply linearb_spec; exact H1|]. split; [apply linearb_spec; exact H2|]. split; [constructor; [apply varb_spec; exact H3 | constructor]|].
    split; [apply nodupb_spec; reflexivity|]. split; [exact E1|]. split; [exact E2|]. split; [exact E3|]. split; [exact E4|]. split.
    - unfold system_le. rewrite H4. apply two_rows; assumption.
    - cbn [holds]. intro X. rewrite X in H5. discriminate. }
  both2 T.
Qed.
