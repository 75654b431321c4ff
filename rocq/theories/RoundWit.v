(** * Witnesses for the rounding of coefficients *)

From Coq Require Import ZArith NArith Bool List Lia.
From Verif Require Import Num Syntax ModelScalar Spec SpecEffect SpecRound Base ScalarValid ScalarNorm Witness ScalarWit ArrWit Round.
Import ListNotations.
Local Open Scope num_scope.

Section W.
Context {NN : Num}.
Definition w_tenth (k : Z) : num := nofZ k / nofZ 10.
(** 0.1 x y + 1 and 0.2 y x + x *)
Definition w_r1 : scalar := SP [mkMono (w_tenth 1) [1%Z; 1%Z] [wx; wy]; mkMono n1 [] []].
Definition w_r2 : scalar := SP [mkMono (w_tenth 2) [1%Z; 1%Z] [wy; wx]; mkMono n1 [1%Z] [wx]].
(** 0.3 x y *)
Definition w_r3 : scalar := SM (mkMono (w_tenth 3) [1%Z; 1%Z] [wx; wy]).
(** 0.1 x y + 0.2 y x + 0.3 x y *)
Definition w_r4 : scalar := SP [mkMono (w_tenth 1) [1%Z; 1%Z] [wx; wy]; mkMono (w_tenth 2) [1%Z; 1%Z] [wy; wx]; mkMono (w_tenth 3) [1%Z; 1%Z] [wx; wy]].
Definition w_rm : Monomial := mkMono n1 [1%Z; 1%Z] [wx; wy].
Definition one_is (l : list num) (c d : num) : bool := match l with [x] => (x =? c) && negb (x =? d) | _ => false end.
Definition ok2 (x y : res scalar) (f : scalar -> scalar -> bool) : bool := match x, y with Ok a, Ok b => f a b | _, _ => false end.
Definition ok1 (x : res scalar) (f : scalar -> bool) : bool := match x with Ok a => f a | _ => false end.

Lemma two_normal s t f : valid s -> valid t -> ok2 (scalar_simplified s) (scalar_simplified t) f = true ->
  exists a b, scalar_simplified s = Ok a /\ scalar_simplified t = Ok b /\ valid a /\ valid b /\ collected a /\ collected b /\ f a b = true.
Proof.
  intros Vs Vt H. destruct (simplified_normal s Vs) as (a & Ea & Va & Na). destruct (simplified_normal t Vt) as (b & Eb & Vb & Nb).
  apply normal_collected in Na, Nb. rewrite Ea, Eb in *. exists a, b. auto 10.
Qed.
Lemma ok1_ex x f : ok1 x f = true -> exists a, x = Ok a /\ f a = true.
Proof. destruct x as [a|]; [|discriminate]. intro H. exists a. split; [reflexivity | exact H]. Qed.
End W.

Lemma w_rm_valid (NN := F64Num) : valid_mono w_rm.
Proof. apply (validb_spec (SM w_rm)). vm_compute. reflexivity. Qed.

Definition float64b (s : @scalar F64Num) : bool := forallb (fun t : @Monomial F64Num => SpecFloat.valid_binary 53 1024 (m_coeff t)) (terms s).
Lemma float64b_spec s : float64b s = true -> float64s s.
Proof. intro H. unfold float64b in H. rewrite forallb_forall in H. apply Forall_forall. exact H. Qed.

Lemma wit_round_simplify (NN := F64Num) : valid w_r4 /\ valid_mono w_rm
  /\ exists s, scalar_simplified w_r4 = Ok s /\ one_is (coefficients w_rm s) (w_tenth 1 + w_tenth 2 + w_tenth 3) (w_tenth 1 + (w_tenth 2 + w_tenth 3)) = true.
Proof. split; [apply validb_spec; vm_compute; reflexivity|]. split; [exact w_rm_valid|]. apply ok1_ex. vm_compute. reflexivity. Qed.

Lemma wit_round_plus (NN := F64Num) : valid_mono w_rm
  /\ exists a b, valid a /\ valid b /\ collected a /\ collected b
  /\ exists s s', scalar_plus a b = Ok s /\ scalar_plus b a = Ok s' /\ one_is (coefficients w_rm s) (w_tenth 1 + w_tenth 2) (w_tenth 3) = true.
Proof.
  split; [exact w_rm_valid|].
  destruct (two_normal w_r1 w_r2 (fun a b => ok2 (scalar_plus a b) (scalar_plus b a) (fun s _ => one_is (coefficients w_rm s) (w_tenth 1 + w_tenth 2) (w_tenth 3))))
    as (a & b & _ & _ & Va & Vb & Na & Nb & H); [apply validb_spec; vm_compute; reflexivity | apply validb_spec; vm_compute; reflexivity | vm_compute; reflexivity|].
  exists a, b. split; [exact Va|]. split; [exact Vb|]. split; [exact Na|]. split; [exact Nb|].
  destruct (scalar_plus a b) as [s|]; [|discriminate H]. destruct (scalar_plus b a) as [s'|]; [|discriminate H]. exists s, s'. auto.
Qed.

Lemma wit_round_minus (NN := F64Num) : valid_mono w_rm
  /\ exists a b, valid a /\ valid b /\ collected a /\ collected b /\ float64s b
  /\ exists s, scalar_minus a b = Ok s /\ one_is (coefficients w_rm s) (w_tenth 3 - w_tenth 2) (w_tenth 1) = true.
Proof.
  split; [exact w_rm_valid|].
  destruct (two_normal w_r3 w_r2 (fun a b => float64b b && ok1 (scalar_minus a b) (fun s => one_is (coefficients w_rm s) (w_tenth 3 - w_tenth 2) (w_tenth 1))))
    as (a & b & _ & _ & Va & Vb & Na & Nb & H); [apply validb_spec; vm_compute; reflexivity | apply validb_spec; vm_compute; reflexivity | vm_compute; reflexivity|].
  apply andb_true_iff in H. destruct H as [H1 H2].
  exists a, b. split; [exact Va|]. split; [exact Vb|]. split; [exact Na|]. split; [exact Nb|]. split; [apply float64b_spec; exact H1|]. apply ok1_ex. exact H2.
Qed.

Lemma wit_round_multiply (NN := F64Num) : valid_mono w_rm /\ finite64 (nofZ 3)
  /\ exists a, valid a /\ collected a /\ exists s, scalar_mul_float a (nofZ 3) = Ok s /\ one_is (coefficients w_rm s) (w_tenth 1 * nofZ 3) (w_tenth 3) = true.
Proof.
  split; [exact w_rm_valid|]. split; [split; [vm_compute; reflexivity | exact I]|].
  destruct (two_normal w_r1 w_r1 (fun a _ => ok1 (scalar_mul_float a (nofZ 3)) (fun s => one_is (coefficients w_rm s) (w_tenth 1 * nofZ 3) (w_tenth 3))))
    as (a & _ & _ & _ & Va & _ & Na & _ & H); [apply validb_spec; vm_compute; reflexivity | apply validb_spec; vm_compute; reflexivity | vm_compute; reflexivity|].
  exists a. split; [exact Va|]. split; [exact Na|]. apply ok1_ex. exact H.
Qed.

Lemma SFltb_irrefl c : SpecFloat.SFltb c c = false.
Proof.
  unfold SpecFloat.SFltb, SpecFloat.SFcompare. destruct c as [b|b| |b m e]; try reflexivity; try (destruct b; reflexivity).
  rewrite Z.compare_refl. change (Pos.compare_cont Eq m m) with (Pos.compare m m). rewrite Pos.compare_refl. destruct b; reflexivity.
Qed.

(** the order of two additions matters *)
Lemma refute_round_assoc (NN := F64Num) : exists a b c ab bc s s' m, valid a /\ valid b /\ valid c /\ normal a /\ normal b /\ normal c /\ valid_mono m
  /\ scalar_plus a b = Ok ab /\ scalar_plus ab c = Ok s /\ scalar_plus b c = Ok bc /\ scalar_plus a bc = Ok s' /\ coefficients m s <> coefficients m s'.
Proof.
  set (x := fun k => @SM F64Num (mkMono (w_tenth k) [1%Z; 1%Z] [wx; wy])).
  assert (N : forall k, (@w_tenth F64Num k =? n0) = false -> normal (x k)).
  { intros k H. split; [discriminate|]. split; [exact H | intros [_ K]; discriminate K]. }
  assert (V : forall k, valid (x k)) by (intro k; exact w_rm_valid).
  assert (G : ok2 (scalar_plus (x 1%Z) (x 2%Z)) (scalar_plus (x 2%Z) (x 3%Z)) (fun ab bc => ok2 (scalar_plus ab (x 3%Z)) (scalar_plus (x 1%Z) bc)
     (fun s s' => match coefficients w_rm s, coefficients w_rm s' with [c], [d] => SpecFloat.SFltb d c | _, _ => false end)) = true) by (vm_compute; reflexivity).
  destruct (scalar_plus (x 1%Z) (x 2%Z)) as [ab|] eqn:E1; [|discriminate G]. destruct (scalar_plus (x 2%Z) (x 3%Z)) as [bc|] eqn:E2; [|discriminate G]. cbn [ok2] in G.
  destruct (scalar_plus ab (x 3%Z)) as [s|] eqn:E3; [|discriminate G]. destruct (scalar_plus (x 1%Z) bc) as [s'|] eqn:E4; [|discriminate G]. cbn [ok2] in G.
  exists (x 1%Z), (x 2%Z), (x 3%Z), ab, bc, s, s', w_rm.
  repeat (split; [first [apply V | apply N; vm_compute; reflexivity | exact w_rm_valid | assumption]|]).
  intro E. unfold NN in *. rewrite E in G. destruct (coefficients w_rm s') as [|c [|? ?]]; try discriminate G. rewrite SFltb_irrefl in G. discriminate G.
Qed.
