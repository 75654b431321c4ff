(** * Witnesses for the scalar theorems *)

From Coq Require Import ZArith NArith Bool List Lia Sorted QArith Qcanon Reals Lra.
From Verif Require Import Num NumR Syntax ModelScalar Spec SpecProg Base Unamb ScalarFacts Programs Witness.
Import ListNotations.
Local Open Scope num_scope.

(** ** Hypotheses are met *)
Section Q.
Local Existing Instance QNum.

Lemma wit_cubic_valid : valid w_cubic /\ valid w_cubic2.
Proof. split; wvalid. Qed.
Lemma wit_degree_program : valid_var wx /\ exists p, well_formed p /\ p = PSubst (PDeriv (PPow (PVar wx) 3) wx) wx (PPlus (PVar wy) (PConst n1)).
Proof. split; [wvalid|]. eexists. split; [|reflexivity]. cbn [well_formed]. split; [|split]; [split; [split; [wvalid | discriminate] | wvalid] | wvalid | split; [wvalid | exact I]]. Qed.
Lemma wit_cubic_sorted : sorted_terms w_cubic /\ sorted_terms w_cubic2.
Proof.
  assert (H : StronglySorted N.lt [0%N; 1%N]) by (repeat constructor).
  split; unfold sorted_terms; cbn; repeat constructor.
Qed.
Lemma wit_cubic_unambiguous : unambiguous (in_either w_cubic w_cubic2).
Proof.
  apply sorted_unambiguous. destruct wit_cubic_sorted as [H1 H2]. unfold sorted_terms in *. rewrite Forall_forall in *.
  intros m [Hm|Hm]; auto.
Qed.
Lemma wit_quad : valid w_quad /\ valid w_quad2 /\ degree_at_most 2 w_quad /\ degree_at_most 2 w_quad2.
Proof. split; [wvalid|]. split; [wvalid|]. split; wdeg. Qed.
Lemma wit_uni : valid w_uni /\ valid w_uni2 /\ only_variable 0 w_uni /\ only_variable 0 w_uni2.
Proof. split; [wvalid|]. split; [wvalid|]. split; wdeg. Qed.
Lemma wit_lin : valid w_lin /\ degree_at_most 1 w_lin.
Proof. split; [wvalid|]. wdeg. Qed.
Lemma wit_lin2 : valid w_lin /\ degree_at_most 1 w_lin /\ valid (SV wx) /\ degree_at_most 1 (SV wx) /\ (1 + 1 <= 2)%Z.
Proof. destruct wit_lin. split; [assumption|]. split; [assumption|]. split; [wvalid|]. split; [wdeg | lia]. Qed.
Lemma wit_product : valid w_lin /\ valid (SV wx) /\ unambiguous_exponents (product_terms w_lin (SV wx)).
Proof.
  destruct wit_lin as [V D]. split; [exact V|]. split; [wvalid|]. apply degree_exponents. intros f Hf L HN.
  assert (Dx : degree_at_most 1 (SV wx)) by wdeg.
  assert (Vx : valid (SV wx)) by wvalid.
  exact (product_terms_degree w_lin (SV wx) 1 1 V Vx D Dx f Hf L HN).
Qed.
Lemma wit_one_term : valid w_cubic2 /\ valid w_uni2 /\ one_term w_cubic2 /\ one_term w_uni2.
Proof. split; [wvalid|]. split; [wvalid|]. split; eexists; reflexivity. Qed.
Lemma wit_power : valid w_uni /\ (0 <= 7)%Z /\ unambiguous_exponents (power_terms w_uni (Z.to_nat 7)).
Proof. destruct wit_uni as (V & _ & O & _). split; [exact V|]. split; [lia|]. apply (power_terms_one_variable w_uni _ 0); assumption. Qed.
Lemma wit_power2 : valid w_lin /\ (0 <= 2)%Z /\ degree_at_most 1 w_lin /\ (2 * 1 <= 2)%Z.
Proof. destruct wit_lin. split; [assumption|]. split; [lia|]. split; [assumption | lia]. Qed.
Lemma wit_not_poly : valid w_cubic2 /\ (forall p, w_cubic2 <> SP p) /\ (0 <= 5)%Z.
Proof. split; [wvalid|]. split; [discriminate | lia]. Qed.
Lemma wit_simplify : valid w_twice /\ unambiguous (fun m => In m (terms w_twice)) /\ degree_at_most 2 w_twice /\ only_variable 0 w_twice.
Proof.
  assert (V : valid w_twice) by wvalid.
  assert (D : degree_at_most 2 w_twice) by wdeg.
  split; [exact V|]. split; [|split; [exact D|]].
  - intros m1 m2 H1 H2. apply (either_degree2 w_twice w_twice V V D D); left; assumption.
  - wdeg.
Qed.
Lemma wit_derivative : valid w_cubic /\ valid_var wx.
Proof. split; wvalid. Qed.
(** x is replaced by 2x + 3y + 7 in 2x + 3y + 7 *)
Lemma wit_substitute : valid w_lin /\ valid_var wx /\ valid w_lin /\ same_environment wx w_lin
  /\ unambiguous_exponents (substituted_terms (replacement wx w_lin) w_lin)
  /\ degree_at_most 1 w_lin /\ (1 <= 1)%Z /\ (1 * 1 <= 2)%Z.
Proof.
  destruct wit_lin as [V D]. split; [exact V|]. split; [wvalid|]. split; [exact V|]. split.
  { intros m w Hm Hw _. cbn in Hm. destruct Hm as [<-|[<-|[<-|[]]]]; cbn in Hw; intuition; subst; reflexivity. }
  split; [|split; [assumption|]; split; lia].
  apply (substituted_terms_degree _ w_lin 1 1 V); [lia | exact D | | lia]. intros m w Hm Hw. unfold replacement.
  destruct (N.eqb _ _); [split; assumption|]. split; [|wdeg].
  cbn in Hm. destruct Hm as [<-|[<-|[<-|[]]]]; cbn in Hw; intuition; subst; wvalid.
Qed.
Lemma wit_substitute_one : valid w_uni /\ valid_var wx /\ valid w_uni2 /\ same_environment wx w_uni
  /\ only_variable (v_id wx) w_uni /\ only_variable 0 w_uni2.
Proof.
  destruct wit_uni as (V & V2 & O & O2). split; [exact V|]. split; [wvalid|]. split; [exact V2|]. split; [|split; [exact O | exact O2]].
  intros m w Hm Hw _. cbn in Hm. destruct Hm as [<-|[<-|[]]]; cbn in Hw; intuition; subst; reflexivity.
Qed.

(** x -> y, y -> x : the two variables are exchanged *)
Definition w_swap : list (var * expr) := [(wx, ES (SV wy)); (wy, ES (SV wx))].
Lemma wit_swap : valid w_lin /\ valid_map w_swap /\ degree_at_most 1 w_lin
  /\ (forall k e, In (k, ES e) w_swap -> degree_at_most 1 e) /\ (1 <= 1)%Z /\ (1 * 1 <= 2)%Z
  /\ simultaneous (at3 3 5 0) w_swap w_lin (at3 5 3 0).
Proof.
  destruct wit_lin as [V D]. split; [exact V|]. split.
  { split.
    - cbn. constructor; [|constructor; [intros [] | constructor]]. intros [H|[]]. discriminate H.
    - intros k e [H|[H|[]]]; injection H as <- <-; (split; [wvalid|]); eexists; (split; [reflexivity | wvalid]). }
  split; [exact D|]. split.
  { intros k e [H|[H|[]]]; injection H as <- <-; wdeg. }
  split; [lia|]. split; [lia|]. intros m w Hm Hw. cbn in Hm. destruct Hm as [<-|[<-|[<-|[]]]]; cbn in Hw.
  - destruct Hw.
  - destruct Hw as [<-|[]]. split.
    + intros e [H|[H|[]]]; [apply (f_equal snd) in H | apply (f_equal (fun q => v_id (fst q))) in H; discriminate H].
      cbn [snd] in H. injection H as <-. reflexivity.
    + intro H. exfalso. apply (H (ES (SV wy))). left. reflexivity.
  - destruct Hw as [<-|[]]. split.
    + intros e [H|[H|[]]]; [apply (f_equal (fun q => v_id (fst q))) in H; discriminate H | apply (f_equal snd) in H].
      cbn [snd] in H. injection H as <-. reflexivity.
    + intro H. exfalso. apply (H (ES (SV wx))). right. left. reflexivity.
Qed.
(** the map x -> 2, y -> 3 on 3x^2y + x *)
Definition w_nums : list (var * expr) := [(wx, ES (SK (nofZ 2))); (wy, ES (SK (nofZ 3)))].
Lemma wit_nums : valid w_cubic /\ valid_map w_nums /\ maps_to_numbers w_nums w_cubic /\ numbers_of w_nums w_cubic (at3 2 3 0).
Proof.
  split; [apply wit_cubic_valid|]. split.
  { split.
    - cbn. constructor; [|constructor; [intros [] | constructor]]. intros [H|[]]. discriminate H.
    - intros k e [H|[H|[]]]; injection H as <- <-; (split; [wvalid|]); eexists; (split; [reflexivity | exact I]). }
  split.
  - intros m w Hm Hw. cbn in Hm. destruct Hm as [<-|[<-|[]]]; cbn in Hw; destruct Hw as [<-|Hw]; try (destruct Hw as [<-|[]]);
      try (eexists; left; reflexivity); try (eexists; right; left; reflexivity); destruct Hw.
  - intros m w k Hm Hw H. cbn in Hm. destruct H as [H|[H|[]]]; injection H as <- <-; reflexivity.
Qed.
(** LinearCoeff of 2x + 3y + 7 with respect to (y, x, z) *)
Lemma wit_linear : valid w_lin /\ degree_at_most 1 w_lin /\ collected w_lin
  /\ [wy; wx; wz] <> [] /\ Forall valid_var [wy; wx; wz] /\ NoDup (map v_id [wy; wx; wz])
  /\ (forall i, occurs i w_lin -> In i (map v_id [wy; wx; wz])).
Proof.
  destruct wit_lin as [V D]. split; [exact V|]. split; [exact D|]. split.
  { apply ScalarLin.apart_s_collected; [exact V|]. cbn. repeat constructor. }
  split; [discriminate|]. split; [wvalid|]. split; [wvalid|].
  intros i (m & Hm & Hi). cbn in Hm. destruct Hm as [<-|[<-|[<-|[]]]]; cbn in Hi |- *; intuition.
Qed.

Lemma wit_linear_total : valid w_lin /\ (forall m, w_lin <> SM m) /\ Forall valid_var [wz; wx].
Proof. split; [wvalid|]. split; [discriminate | wvalid]. Qed.

(** (2x + 3y + 7) * (x - y), built step by step *)
Definition w_prog : prog := PMul (PPlus (PPlus (PMul (PConst (nofZ 2)) px) (PMul (PConst (nofZ 3)) py)) (PConst (nofZ 7))) (PMinus px py).
Lemma wit_prog : well_formed w_prog /\ arithmetic w_prog /\ degree_bounded 2 w_prog /\ no_derivative w_prog.
Proof.
  split; [cbn; repeat split; wvalid|]. split; [cbn; repeat split|]. split; [|cbn; repeat split].
  cbn. repeat split; lia.
Qed.
(** ((x - 1)^5 * x - 3)^2 *)
Definition w_prog1 : prog := PPow (PMinus (PMul (PPow (PMinus px (PConst n1)) 5) px) (PConst (nofZ 3))) 2.
Lemma wit_prog1 : well_formed w_prog1 /\ arithmetic w_prog1 /\ mentions_only 0 w_prog1.
Proof. split; [cbn; repeat split; try lia; wvalid|]. cbn. repeat split. Qed.
(** 2x + 3y + 7 as a program *)
Definition w_prog2 : prog := PPlus (PPlus (PMul (PConst (nofZ 2)) px) (PMul (PConst (nofZ 3)) py)) (PConst (nofZ 7)).
Lemma wit_prog2 : well_formed w_prog2 /\ no_derivative w_prog2
  /\ exists s, run w_prog2 = Ok s /\ degree_at_most 1 s /\ forall i, occurs i s -> In i (map v_id [wy; wx]).
Proof.
  split; [cbn; repeat split; wvalid|]. split; [cbn; repeat split|].
  eexists. split; [reflexivity|]. split; [wdeg|].
  intros i (m & Hm & Hi). cbn in Hm. destruct Hm as [<-|[<-|[<-|[]]]]; cbn in Hi |- *; intuition.
Qed.
End Q.

(** over the reals *)
Lemma wvar_valid_R i : @valid_var RNum (wvar i).
Proof.
  unfold valid_var, wvar. cbn [v_upper v_lower nleb RNum nofZ]. unfold R_leb. destruct (Rle_dec _ _) as [H|H]; [|reflexivity].
  exfalso. apply le_IZR in H. vm_compute in H. apply H. reflexivity.
Qed.
Lemma wit_derivative_R : @valid RNum w_cubic /\ valid_var (NN := RNum) wx.
Proof.
  split; [|apply wvar_valid_R]. split; [discriminate|]. constructor; [|constructor; [|constructor]]; unfold valid_mono; cbn [m_exps m_vars length map v_id wx wy wvar].
  - split; [reflexivity|]. split; [repeat constructor; lia|]. split; [repeat constructor; cbn; intuition discriminate|]. repeat constructor; apply wvar_valid_R.
  - split; [reflexivity|]. split; [repeat constructor; lia|]. split; [repeat constructor; cbn; intuition discriminate|]. repeat constructor; apply wvar_valid_R.
Qed.

(** ** Refutations, at binary64 and in exact arithmetic *)
Ltac refute := vm_compute; repeat split; try reflexivity; try discriminate.

Section Generic.
Context {NN : Num}.
(** x*x*y and y*y*x *)
Definition p_xxy : prog := PMul (PMul px px) py.
Definition p_yyx : prog := PMul (PMul py py) px.
(** x^2 + y*x *)
Definition p_mul : prog := PPlus (PMul px px) (PMul py px).
(** the derivative with respect to z of x*x*y*z*z + y*y*z*z*x *)
Definition p_simp : prog := PDeriv (PPlus (PMul (PMul p_xxy pz) pz) (PMul (PMul (PMul (PMul py py) pz) pz) px)) wz.
(** x*x*z + y*y*x *)
Definition p_sub : prog := PPlus (PMul (PMul px px) pz) p_yyx.
(** the derivative with respect to x, then y, of x*x*y + y*x*x, that is 4x *)
Definition p_4x : prog := PDeriv (PDeriv (PPlus p_xxy (PMul (PMul py px) px)) wx) wy.

End Generic.

Ltac wf := cbn; repeat split; try lia; vm_compute; reflexivity.

(** both instances at once *)
Lemma two_instances (P : Num -> Prop) : P F64Num -> P QNum -> forall NN, NN = F64Num \/ NN = QNum -> P NN.
Proof. intros H1 H2 NN [->| ->]; assumption. Qed.

(** [run_ok x f]: x returns a value on which the boolean test f succeeds *)
Definition run_ok {A} (x : res A) (f : A -> bool) : bool := match x with Ok a => f a | Panic _ => false end.
Lemma run_ok_spec {A} (x : res A) f : run_ok x f = true -> exists a, x = Ok a /\ f a = true.
Proof. destruct x as [a|]; cbn; [|discriminate]. intro H. exists a. split; [reflexivity | exact H]. Qed.

Section Tests.
Context {NN : Num}.
Lemma binary_test (op : scalar -> scalar -> res scalar) (f : num -> num -> num) (p q : prog) (r : assignment) :
  well_formed p -> well_formed q ->
  run_ok (run p) (fun a => run_ok (run q) (fun b => run_ok (op a b) (fun s => negb (eval r s =? f (eval r a) (eval r b))))) = true ->
  exists (p q : prog) (r : assignment) (a b s : scalar),
  well_formed p /\ well_formed q /\ run p = Ok a /\ run q = Ok b /\ op a b = Ok s
  /\ (eval r s =? f (eval r a) (eval r b)) = false.
Proof.
  intros Wp Wq H. apply run_ok_spec in H as (a & Ha & H). apply run_ok_spec in H as (b & Hb & H). apply run_ok_spec in H as (s & Hs & H).
  exists p, q, r, a, b, s. apply negb_true_iff in H. repeat (split; [assumption|]). exact H.
Qed.
Lemma unary_test (op : scalar -> res scalar) (f : scalar -> num) (p : prog) (r : assignment) :
  well_formed p ->
  run_ok (run p) (fun a => run_ok (op a) (fun s => negb (eval r s =? f a))) = true ->
  exists (a s : scalar), well_formed p /\ run p = Ok a /\ op a = Ok s /\ (eval r s =? f a) = false.
Proof.
  intros Wp H. apply run_ok_spec in H as (a & Ha & H). apply run_ok_spec in H as (s & Hs & H).
  exists a, s. apply negb_true_iff in H. repeat (split; [assumption|]). exact H.
Qed.
Definition degree_test (d : Z) (s : scalar) : bool := forallb (fun m => Z.leb (tdeg m) d) (terms s).
Lemma degree_test_spec d s : degree_test d s = true -> degree_at_most d s.
Proof. unfold degree_test, degree_at_most. rewrite forallb_forall, Forall_forall. intros H m Hm. apply Z.leb_le, H, Hm. Qed.
Definition occurs_test (l : list N) (s : scalar) : bool := forallb (fun m => forallb (fun i => existsb (N.eqb i) l) (ids m)) (terms s).
Lemma occurs_test_spec l s : occurs_test l s = true -> forall i, occurs i s -> In i l.
Proof.
  unfold occurs_test. rewrite forallb_forall. intros H i (m & Hm & Hi). specialize (H m Hm). rewrite forallb_forall in H.
  specialize (H i Hi). rewrite existsb_exists in H. destruct H as (j & Hj & E). apply N.eqb_eq in E. subst j. exact Hj.
Qed.
End Tests.

Lemma plus_refuted : forall NN, NN = F64Num \/ NN = QNum -> exists (p q : prog) (r : assignment) (a b s : scalar),
  well_formed p /\ well_formed q /\ run p = Ok a /\ run q = Ok b /\ scalar_plus a b = Ok s
  /\ (eval r s =? eval r a + eval r b) = false.
Proof. apply two_instances; apply (binary_test scalar_plus nadd p_xxy p_yyx (at3 1 2 0)); [wf|wf|vm_compute; reflexivity|wf|wf|vm_compute; reflexivity]. Qed.
Lemma minus_refuted : forall NN, NN = F64Num \/ NN = QNum -> exists (p q : prog) (r : assignment) (a b s : scalar),
  well_formed p /\ well_formed q /\ run p = Ok a /\ run q = Ok b /\ scalar_minus a b = Ok s
  /\ (eval r s =? eval r a - eval r b) = false.
Proof. apply two_instances; apply (binary_test scalar_minus nsub p_xxy p_yyx (at3 1 2 0)); [wf|wf|vm_compute; reflexivity|wf|wf|vm_compute; reflexivity]. Qed.
Lemma mul_refuted : forall NN, NN = F64Num \/ NN = QNum -> exists (p q : prog) (r : assignment) (a b s : scalar),
  well_formed p /\ well_formed q /\ run p = Ok a /\ run q = Ok b /\ scalar_mul a b = Ok s
  /\ (eval r s =? eval r a * eval r b) = false.
Proof. apply two_instances; apply (binary_test scalar_mul nmul p_mul py (at3 1 2 0)); [wf|wf|vm_compute; reflexivity|wf|wf|vm_compute; reflexivity]. Qed.
Lemma power_refuted : forall NN, NN = F64Num \/ NN = QNum -> exists (p : prog) (n : Z) (r : assignment) (a s : scalar),
  well_formed p /\ (0 <= n)%Z /\ run p = Ok a /\ scalar_power a n = Ok s
  /\ (eval r s =? npow (eval r a) (Z.to_nat n)) = false.
Proof.
  apply two_instances.
  - destruct (unary_test (NN := F64Num) (fun a => scalar_power a 3) (fun a => npow (eval (at3 1 2 0) a) (Z.to_nat 3)) (PPlus px py) (at3 1 2 0)) as (a & s & H1 & H2 & H3 & H4);
      [wf | vm_compute; reflexivity|].
    exists (PPlus px py), 3%Z, (at3 1 2 0), a, s. split; [exact H1|]. split; [lia|]. auto.
  - destruct (unary_test (NN := QNum) (fun a => scalar_power a 3) (fun a => npow (eval (at3 1 2 0) a) (Z.to_nat 3)) (PPlus px py) (at3 1 2 0)) as (a & s & H1 & H2 & H3 & H4);
      [wf | vm_compute; reflexivity|].
    exists (PPlus px py), 3%Z, (at3 1 2 0), a, s. split; [exact H1|]. split; [lia|]. auto.
Qed.
Lemma simplify_refuted : forall NN, NN = F64Num \/ NN = QNum -> exists (p : prog) (r : assignment) (a s : scalar),
  well_formed p /\ run p = Ok a /\ scalar_simplified a = Ok s /\ (eval r s =? eval r a) = false.
Proof.
  apply two_instances; exists p_simp, (at3 1 2 3); apply unary_test; [wf|vm_compute; reflexivity|wf|vm_compute; reflexivity].
Qed.
Lemma substitute_test {NN : Num} (op : scalar -> var -> scalar -> res scalar) (p : prog) (v : var) (e : scalar) (r : assignment) :
  well_formed p -> valid_var v -> valid e ->
  run_ok (run p) (fun a => run_ok (op a v e) (fun s => negb (eval r s =? eval (update r (v_id v) (eval r e)) a))) = true ->
  exists (p : prog) (v : var) (e : scalar) (r : assignment) (a s : scalar),
  well_formed p /\ valid_var v /\ valid e /\ run p = Ok a /\ op a v e = Ok s
  /\ (eval r s =? eval (update r (v_id v) (eval r e)) a) = false.
Proof.
  intros Wp Vv Ve H. apply run_ok_spec in H as (a & Ha & H). apply run_ok_spec in H as (s & Hs & H).
  exists p, v, e, r, a, s. apply negb_true_iff in H. repeat (split; [assumption|]). exact H.
Qed.
Lemma substitute_refuted : forall NN, NN = F64Num \/ NN = QNum -> exists (p : prog) (v : var) (e : scalar) (r : assignment) (a s : scalar),
  well_formed p /\ valid_var v /\ valid e /\ run p = Ok a /\ scalar_substitute a v e = Ok s
  /\ (eval r s =? eval (update r (v_id v) (eval r e)) a) = false.
Proof.
  apply two_instances; apply (substitute_test scalar_substitute p_sub wz (SV wy) (at3 1 2 0));
    [wf|vm_compute; reflexivity|vm_compute; reflexivity|vm_compute; reflexivity|wf|vm_compute; reflexivity|vm_compute; reflexivity|vm_compute; reflexivity].
Qed.
Lemma substitute_map_refuted : forall NN, NN = F64Num \/ NN = QNum -> exists (p : prog) (v : var) (e : scalar) (r : assignment) (a s : scalar),
  well_formed p /\ valid_var v /\ valid e /\ run p = Ok a /\ scalar_substitute_map a [(v, ES e)] = Ok s
  /\ (eval r s =? eval (update r (v_id v) (eval r e)) a) = false.
Proof.
  apply two_instances; apply (substitute_test (fun a v e => scalar_substitute_map a [(v, ES e)]) p_sub wz (SV wy) (at3 1 2 0));
    [wf|vm_compute; reflexivity|vm_compute; reflexivity|vm_compute; reflexivity|wf|vm_compute; reflexivity|vm_compute; reflexivity|vm_compute; reflexivity].
Qed.
Lemma linear_test {NN : Num} (p : prog) (w : list var) (r : assignment) :
  well_formed p ->
  run_ok (run p) (fun a => degree_test 1 a && occurs_test (map v_id w) a
    && run_ok (scalar_linear_coeff a [w]) (fun cs => run_ok (scalar_constant a) (fun c => negb (eval r a =? dot r cs w + c)))) = true ->
  exists (p : prog) (a : scalar) (w : list var) (cs : list num) (c : num) (r : assignment),
  well_formed p /\ run p = Ok a /\ degree_at_most 1 a /\ (forall i, occurs i a -> In i (map v_id w))
  /\ scalar_linear_coeff a [w] = Ok cs /\ scalar_constant a = Ok c /\ (eval r a =? dot r cs w + c) = false.
Proof.
  intros Wp H. apply run_ok_spec in H as (a & Ha & H). apply andb_true_iff in H as [H H3]. apply andb_true_iff in H as [H1 H2].
  apply run_ok_spec in H3 as (cs & Hcs & H3). apply run_ok_spec in H3 as (c & Hc & H3). apply negb_true_iff in H3.
  exists p, a, w, cs, c, r. split; [exact Wp|]. split; [exact Ha|]. split; [apply degree_test_spec, H1|]. split; [apply occurs_test_spec, H2|].
  split; [exact Hcs|]. split; [exact Hc | exact H3].
Qed.
Lemma linear_refuted : forall NN, NN = F64Num \/ NN = QNum -> exists (p : prog) (a : scalar) (w : list var) (cs : list num) (c : num) (r : assignment),
  well_formed p /\ run p = Ok a /\ degree_at_most 1 a /\ (forall i, occurs i a -> In i (map v_id w))
  /\ scalar_linear_coeff a [w] = Ok cs /\ scalar_constant a = Ok c /\ (eval r a =? dot r cs w + c) = false.
Proof.
  apply two_instances; apply (linear_test p_4x [wx] (at3 1 2 0)); [wf|vm_compute; reflexivity|wf|vm_compute; reflexivity].
Qed.
(** the derivative of the above with respect to x, that is 4 *)
Lemma constant_refuted : forall NN, NN = F64Num \/ NN = QNum -> exists (p : prog) (a : scalar) (c : num),
  well_formed p /\ run p = Ok a /\ scalar_constant a = Ok c /\ (eval (fun _ => n0) a =? c) = false.
Proof.
  apply two_instances; exists (PDeriv p_4x wx).
  - assert (H : run_ok (run (NN := F64Num) (PDeriv p_4x wx)) (fun a => run_ok (scalar_constant a) (fun c => negb (eval (fun _ => n0) a =? c))) = true)
      by (vm_compute; reflexivity).
    apply run_ok_spec in H as (a & Ha & H). apply run_ok_spec in H as (c & Hc & H). apply negb_true_iff in H. exists a, c.
    split; [wf|]. auto.
  - assert (H : run_ok (run (NN := QNum) (PDeriv p_4x wx)) (fun a => run_ok (scalar_constant a) (fun c => negb (eval (fun _ => n0) a =? c))) = true)
      by (vm_compute; reflexivity).
    apply run_ok_spec in H as (a & Ha & H). apply run_ok_spec in H as (c & Hc & H). apply negb_true_iff in H. exists a, c.
    split; [wf|]. auto.
Qed.
(** 2x with respect to (y) *)
Lemma linear_total_refuted : forall NN, NN = F64Num \/ NN = QNum -> exists (p : prog) (a : scalar) (w : list var),
  well_formed p /\ run p = Ok a /\ degree_at_most 1 a /\ w <> [] /\ Forall valid_var w /\ scalar_linear_coeff a [w] = Panic PGonum.
Proof.
  assert (T : forall NN, run_ok (run (PMul (PConst (nofZ 2)) px))
            (fun a => degree_test 1 a && match scalar_linear_coeff (NN := NN) a [[wy]] with Panic PGonum => true | _ => false end) = true ->
          valid_var (NN := NN) wx -> valid_var wy -> exists (p : prog) (a : scalar) (w : list var),
    well_formed p /\ run p = Ok a /\ degree_at_most 1 a /\ w <> [] /\ Forall valid_var w /\ scalar_linear_coeff a [w] = Panic PGonum).
  { intros NN H Vx Vy. apply run_ok_spec in H as (a & Ha & H). apply andb_true_iff in H as [H1 H2].
    exists (PMul (PConst (nofZ 2)) px), a, [wy]. split; [split; [exact I | exact Vx]|]. split; [exact Ha|]. split; [apply degree_test_spec, H1|].
    split; [discriminate|]. split; [repeat constructor; exact Vy|].
    destruct (scalar_linear_coeff a [[wy]]) as [|[]]; try discriminate. reflexivity. }
  apply two_instances; apply T; vm_compute; reflexivity.
Qed.
