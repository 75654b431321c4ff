(** * Witnesses and refutations for the scalar constraint theorems *)

From Coq Require Import ZArith NArith Bool List Lia Sorted Permutation QArith Qcanon.
From Verif Require Import Num Syntax ModelScalar ModelSC Spec SpecProg Base Unamb ScalarLin ScalarNorm ScalarFacts Programs Witness ScalarWit Order SCProofs SCImplies.
Import ListNotations.
Local Open Scope num_scope.

(** ** More corollaries *)
Section Cor.
Context {NN : Num}.
Lemma simplify_keeps_degree2 c : ExactNum NN -> valid_constraint c -> degree_at_most 2 (sc_left c) -> degree_at_most 2 (sc_right c) ->
  exists c', sc_simplify c = Ok c' /\ valid_constraint c' /\ sc_sense c' = sc_sense c /\ (exists k, sc_right c' = SK k)
    /\ forall r, satisfies r c' <-> satisfies r c.
Proof. intros EX V D1 D2. pose proof V as (V1 & V2 & _). apply simplify_keeps; try assumption. apply either_degree2; assumption. Qed.
Lemma simplify_keeps_one_variable x c : ExactNum NN -> valid_constraint c -> only_variable x (sc_left c) -> only_variable x (sc_right c) ->
  exists c', sc_simplify c = Ok c' /\ valid_constraint c' /\ sc_sense c' = sc_sense c /\ (exists k, sc_right c' = SK k)
    /\ forall r, satisfies r c' <-> satisfies r c.
Proof. intros EX V D1 D2. pose proof V as (V1 & V2 & _). apply simplify_keeps; try assumption. apply (either_one_variable x); assumption. Qed.
Lemma scale_by_degree2 c f : ExactNum NN -> valid_constraint c -> f <> n0 -> degree_at_most 2 (sc_left c) -> degree_at_most 2 (sc_right c) ->
  exists c', sc_scale_by c f = Ok c' /\ valid_constraint c' /\ forall r, satisfies r c' <-> satisfies r c.
Proof. intros EX V Hf D1 D2. pose proof V as (V1 & V2 & _). apply scale_by_value; try assumption; apply self_degree2; assumption. Qed.
Lemma scale_by_one_variable x c f : ExactNum NN -> valid_constraint c -> f <> n0 -> only_variable x (sc_left c) -> only_variable x (sc_right c) ->
  exists c', sc_scale_by c f = Ok c' /\ valid_constraint c' /\ forall r, satisfies r c' <-> satisfies r c.
Proof. intros EX V Hf D1 D2. pose proof V as (V1 & V2 & _). apply scale_by_value; try assumption; apply (self_one_variable x); assumption. Qed.
Lemma scale_by_sense c f : valid_constraint c ->
  exists c', sc_scale_by c f = Ok c' /\ valid_constraint c'
    /\ sc_sense c' = match sc_sense c with SenseLe => if f <? n0 then SenseGe else SenseLe | SenseGe => if f <? n0 then SenseLe else SenseGe | s => s end.
Proof.
  intro V. destruct (scale_by_spec c f V) as (c' & E & V' & S & _). exists c'. split; [exact E|]. split; [exact V'|]. rewrite S. unfold flip.
  destruct (sc_sense c), (f <? n0); reflexivity.
Qed.
(** if variables with equal IDs are identical, no ID is listed twice *)
Lemma sc_variables_ids o c : ExactNum NN -> valid_constraint c -> permutes o ->
  (forall m1 m2 v1 v2, (In m1 (terms (sc_left c)) \/ In m1 (terms (sc_right c))) -> (In m2 (terms (sc_left c)) \/ In m2 (terms (sc_right c))) ->
     In v1 (m_vars m1) -> In v2 (m_vars m2) -> v_id v1 = v_id v2 -> v1 = v2) ->
  exists l, sc_variables o c = Ok l /\ NoDup (map v_id l).
Proof.
  intros EX V Ho HI. destruct (sc_variables_facts o c V Ho) as (l & E & _ & H2 & H3). exists l. split; [exact E|]. specialize (H3 EX). clear E.
  induction H3 as [|v l Hv HN IH]; [constructor|]. cbn. constructor; [|apply IH; intros w Hw; apply H2; right; exact Hw].
  intro Hi. apply in_map_iff in Hi. destruct Hi as (w & Ew & Hw). apply Hv.
  destruct (H2 v (or_introl eq_refl)) as (m1 & Hm1 & Hv1). destruct (H2 w (or_intror Hw)) as (m2 & Hm2 & Hw2).
  rewrite (HI m1 m2 v w Hm1 Hm2 Hv1 Hw2 (eq_sym Ew)). exact Hw.
Qed.
End Cor.

(** ** Hypotheses are met *)
Section Q.
Local Existing Instance QNum.
(** 2x + 3y + 7 >= z *)
Definition w_con : scalar_constraint := mkSC w_lin (SV wz) SenseGe.
Definition w_con_eq : scalar_constraint := mkSC w_lin (SV wz) SenseEq.
Lemma wit_con_valid s : s <> SenseOther -> valid_constraint (mkSC w_lin (SV wz) s).
Proof. intro H. split; [wvalid|]. split; [wvalid | exact H]. Qed.
Lemma wit_var_collected (v : var) : collected (SV v).
Proof. intros [|? [|]] m1 l2 m2 l3 H; try discriminate H. cbn in H. injection H as _ H. destruct l2; discriminate H. Qed.
Lemma wit_con_repr : degree_at_most 1 w_lin /\ degree_at_most 1 (SV wz) /\ collected w_lin /\ collected (SV wz)
  /\ [wz; wy; wx] <> [] /\ Forall valid_var [wz; wy; wx] /\ NoDup (map v_id [wz; wy; wx])
  /\ (forall i, occurs i w_lin \/ occurs i (SV wz) -> In i (map v_id [wz; wy; wx])).
Proof.
  destruct wit_linear as (V & D & C & _). split; [exact D|]. split; [wdeg|]. split; [exact C|]. split; [apply wit_var_collected|].
  split; [discriminate|]. split; [wvalid|]. split; [wvalid|].
  intros i [(m & Hm & Hi)|(m & Hm & Hi)].
  - cbn in Hm. destruct Hm as [<-|[<-|[<-|[]]]]; cbn in Hi |- *; intuition.
  - cbn in Hm. destruct Hm as [<-|[]]; cbn in Hi |- *; intuition.
Qed.
Lemma wit_con_nonlinear : valid_constraint (mkSC w_quad (SV wz) SenseLe) /\ ~ degree_at_most 1 w_quad.
Proof.
  split; [split; [wvalid|]; split; [wvalid | discriminate]|]. intro H. unfold degree_at_most in H. cbn in H. inversion H as [|? ? H1 _]. vm_compute in H1. apply H1. reflexivity.
Qed.
Lemma wit_con_quad : valid_constraint (mkSC w_quad w_quad2 SenseLe) /\ degree_at_most 2 w_quad /\ degree_at_most 2 w_quad2 /\ nofZ (-3) <> n0.
Proof. destruct wit_quad as (V1 & V2 & D1 & D2). split; [split; [exact V1|]; split; [exact V2 | discriminate]|]. split; [exact D1|]. split; [exact D2 | discriminate]. Qed.
Lemma wit_con_uni : valid_constraint (mkSC w_uni w_uni2 SenseGe) /\ only_variable 0 w_uni /\ only_variable 0 w_uni2.
Proof. destruct wit_uni as (V1 & V2 & D1 & D2). split; [split; [exact V1|]; split; [exact V2 | discriminate]|]. split; assumption. Qed.
Lemma wit_con_cubic : valid_constraint (mkSC w_cubic w_cubic2 SenseLe) /\ unambiguous (in_either w_cubic w_cubic2)
  /\ unambiguous (fun m => In m (terms w_cubic)) /\ unambiguous (fun m => In m (terms w_cubic2)).
Proof.
  destruct wit_cubic_valid as (V1 & V2). split; [split; [exact V1|]; split; [exact V2 | discriminate]|]. split; [apply wit_cubic_unambiguous|].
  split; intros m1 m2 H1 H2; apply wit_cubic_unambiguous; unfold in_either; tauto.
Qed.
(** 2x + 3y <= z + 7 and 2x >= 6 *)
Definition w_lin0 : scalar := SP [mkMono (nofZ 2) [1%Z] [wx]; mkMono (nofZ 3) [1%Z] [wy]].
Definition w_rhs : scalar := SP [mkMono n1 [1%Z] [wz]; mkMono (nofZ 7) [] []].
Definition w_2x : scalar := SM (mkMono (nofZ 2) [1%Z] [wx]).
Definition w_m3x : scalar := SM (mkMono (nofZ (-3)) [1%Z] [wx]).
Definition w_plain : scalar_constraint := mkSC w_lin0 w_rhs SenseLe.
Definition w_plain1 : scalar_constraint := mkSC w_2x (SK (nofZ 6)) SenseGe.
Definition w_plain2 : scalar_constraint := mkSC w_m3x (SK (nofZ 3)) SenseLe.
Definition w_nonneg : scalar_constraint := mkSC w_m3x (SK (nofZ 0)) SenseLe.
Lemma wit_k_collected (k : num) : collected (SK k).
Proof. intros [|? [|]] m1 l2 m2 l3 H; try discriminate H. cbn in H. injection H as _ H. destruct l2; discriminate H. Qed.
Lemma wit_plain : plain w_plain.
Proof.
  split; [split; [wvalid|]; split; [wvalid | discriminate]|]. split; [wdeg|]. split; [wdeg|]. split.
  - cbn [normal w_lin0 w_plain sc_left]. split; [cbn; lia|]. split; [intros m [<-|[<-|[]]]; reflexivity|]. split.
    + intros [|q1 [|q2 [|q3 q4]]] m l2 H Hm; try reflexivity; exfalso; cbn in H; try discriminate H; injection H as <- <- <-; discriminate Hm.
    + apply apart_s_collected; [wvalid|]. cbn. repeat constructor.
  - split; [apply apart_s_collected; [wvalid|]; cbn; repeat constructor|]. reflexivity.
Qed.
Lemma wit_plain_single z k s : s <> SenseOther -> z <> 0%Z -> z <> 1%Z -> (nofZ z =? n0) = false -> (nofZ z =? n1) = false ->
  plain (mkSC (SM (mkMono (nofZ z) [1%Z] [wx])) (SK k) s).
Proof.
  intros Hs H0 H1 E0 E1. split; [split; [wvalid|]; split; [exact I | exact Hs]|]. split; [unfold degree_at_most; cbn; repeat constructor; vm_compute; discriminate|].
  split; [unfold degree_at_most; cbn; repeat constructor; vm_compute; discriminate|]. split.
  - split; [discriminate|]. split; [exact E0|]. intros [H _]. cbn [m_coeff] in H. rewrite E1 in H. discriminate.
  - split; [apply wit_k_collected|]. cbn [sc_left eval]. unfold eval_mono. cbn [m_coeff m_exps m_vars eval_factors]. change (Z.to_nat 1) with 1%nat. cbn [npow].
    cbn [num nmul nofZ n0 n1 QNum]. ring.
Qed.
Lemma wit_plain1 : plain w_plain1 /\ plain w_plain2 /\ plain w_nonneg.
Proof. split; [|split]; apply wit_plain_single; (discriminate || reflexivity). Qed.
Definition reversed : nat -> list var -> list var := fun n l => if Nat.even n then rev l else l.
Lemma wit_orders : permuting reversed.
Proof. intros n l. unfold reversed. destruct (Nat.even n); [apply Permutation_sym, Permutation_rev | apply Permutation_refl]. Qed.
(** the answers are not always the same *)
Lemma wit_implies_runs :
  sc_implies reversed w_plain1 w_plain2 = Ok true /\ sc_implies reversed w_plain2 w_plain1 = Ok false /\ sc_implies reversed w_plain w_plain1 = Ok false
  /\ sc_is_nonnegativity reversed w_nonneg = Ok true /\ sc_is_nonnegativity reversed w_plain2 = Ok false.
Proof. vm_compute. repeat split. Qed.
Lemma wit_con_substitute : valid_constraint (mkSC w_lin w_lin SenseLe) /\ valid_var wx /\ valid w_lin /\ same_environment wx w_lin
  /\ unambiguous_exponents (substituted_terms (replacement wx w_lin) w_lin) /\ degree_at_most 1 w_lin /\ (1 <= 1)%Z /\ (1 * 1 <= 2)%Z.
Proof.
  destruct wit_substitute as (V & Vx & _ & S & U & D & H1 & H2). split; [split; [exact V|]; split; [exact V | discriminate]|]. auto 9.
Qed.
Lemma wit_con_map : valid_constraint (mkSC w_lin w_lin SenseLe) /\ valid_map w_swap /\ degree_at_most 1 w_lin
  /\ (forall k e, In (k, ES e) w_swap -> degree_at_most 1 e) /\ simultaneous (at3 3 5 0) w_swap w_lin (at3 5 3 0).
Proof. destruct wit_swap as (V & M & D & De & _ & _ & S). split; [split; [exact V|]; split; [exact V | discriminate]|]. auto. Qed.
Lemma wit_con_nums : valid_constraint (mkSC w_cubic w_cubic SenseLe) /\ valid_map w_nums /\ maps_to_numbers w_nums w_cubic /\ numbers_of w_nums w_cubic (at3 2 3 0).
Proof. destruct wit_nums as (V & M & D & S). split; [split; [exact V|]; split; [exact V | discriminate]|]. auto. Qed.
Lemma wit_con_ids : forall m1 m2 v1 v2, (In m1 (terms w_lin) \/ In m1 (terms (SV wz))) -> (In m2 (terms w_lin) \/ In m2 (terms (SV wz))) ->
     In v1 (m_vars m1) -> In v2 (m_vars m2) -> v_id v1 = v_id v2 -> v1 = v2.
Proof.
  assert (H : forall m v, (In m (terms w_lin) \/ In m (terms (SV wz))) -> In v (m_vars m) -> v = wvar (v_id v)).
  { intros m v [Hm|Hm] Hv; cbn in Hm.
    - destruct Hm as [<-|[<-|[<-|[]]]]; cbn in Hv; [destruct Hv | destruct Hv as [<-|[]]; reflexivity | destruct Hv as [<-|[]]; reflexivity].
    - destruct Hm as [<-|[]]. destruct Hv as [<-|[]]. reflexivity. }
  intros m1 m2 v1 v2 H1 H2 Hv1 Hv2 E. rewrite (H m1 v1 H1 Hv1), (H m2 v2 H2 Hv2), E. reflexivity.
Qed.
Lemma wit_con_programs : well_formed w_prog2 /\ well_formed pz /\ no_derivative w_prog2 /\ no_derivative pz
  /\ exists s, run w_prog2 = Ok s /\ degree_at_most 1 s /\ forall i, occurs i s -> In i (map v_id [wy; wx]).
Proof. destruct wit_prog2 as (W & N & H). split; [exact W|]. split; [vm_compute; reflexivity|]. split; [exact N|]. split; [exact I | exact H]. Qed.
End Q.

(** ** Refutations *)
Section Tests.
Context {NN : Num}.
Definition satb (r : assignment) (c : scalar_constraint) : bool :=
  match sc_sense c with
  | SenseLe => eval r (sc_left c) <=? eval r (sc_right c)
  | SenseGe => eval r (sc_right c) <=? eval r (sc_left c)
  | SenseEq => eval r (sc_left c) =? eval r (sc_right c)
  | SenseOther => false
  end.
Lemma satb_spec r c : sc_sense c = SenseLe \/ sc_sense c = SenseGe -> (satb r c = true <-> satisfies r c).
Proof. unfold satb, satisfies. intros [->| ->]; reflexivity. Qed.
Lemma satb_false r c : sc_sense c = SenseLe \/ sc_sense c = SenseGe -> satb r c = false -> ~ satisfies r c.
Proof. intros H E S. apply satb_spec in S; [congruence | exact H]. Qed.
(** two programs are run and their results are tested *)
Definition two_ok (p q : prog) (f : scalar -> scalar -> bool) : bool := run_ok (run p) (fun a => run_ok (run q) (fun b => f a b)).
Lemma two_ok_spec p q f : two_ok p q f = true -> exists a b, run p = Ok a /\ run q = Ok b /\ f a b = true.
Proof. intro H. apply run_ok_spec in H as (a & Ha & H). apply run_ok_spec in H as (b & Hb & H). eauto. Qed.
Definition p_4 : prog := PDeriv p_4x wx.
Definition pk (z : Z) : prog := PConst (nofZ z).
End Tests.

Ltac both T := apply two_instances; apply T; try (vm_compute; reflexivity); try wf.

Lemma inequality_refuted : forall NN, NN = F64Num \/ NN = QNum -> exists (p q : prog) (a b : scalar) (w : list var) (A : list num) (k : num) (r : assignment),
  well_formed p /\ well_formed q /\ run p = Ok a /\ run q = Ok b /\ degree_at_most 1 a /\ degree_at_most 1 b
  /\ (forall i, occurs i a \/ occurs i b -> In i (map v_id w))
  /\ sc_linear_inequality (mkSC a b SenseLe) [w] = Ok (A, k) /\ nleb (dot r A w) k = true /\ ~ satisfies r (mkSC a b SenseLe).
Proof.
  assert (T : forall NN, two_ok (NN := NN) p_4 px (fun a b => degree_test 1 a && degree_test 1 b && occurs_test (map v_id [wx]) a && occurs_test (map v_id [wx]) b
     && run_ok (sc_linear_inequality (mkSC a b SenseLe) [[wx]]) (fun Ak => nleb (dot (at3 3 0 0) (fst Ak) [wx]) (snd Ak) && negb (satb (at3 3 0 0) (mkSC a b SenseLe)))) = true ->
     well_formed (NN := NN) p_4 -> well_formed (NN := NN) px -> exists (p q : prog) (a b : scalar) (w : list var) (A : list num) (k : num) (r : assignment),
  well_formed p /\ well_formed q /\ run p = Ok a /\ run q = Ok b /\ degree_at_most 1 a /\ degree_at_most 1 b
  /\ (forall i, occurs i a \/ occurs i b -> In i (map v_id w))
  /\ sc_linear_inequality (mkSC a b SenseLe) [w] = Ok (A, k) /\ nleb (dot r A w) k = true /\ ~ satisfies r (mkSC a b SenseLe)).
  { intros NN H W1 W2. apply two_ok_spec in H as (a & b & Ha & Hb & H). apply andb_prop in H as [H H5]. apply andb_prop in H as [H H4]. apply andb_prop in H as [H H3].
    apply andb_prop in H as [H1 H2]. apply run_ok_spec in H5 as ((A & k) & HA & H5). apply andb_prop in H5 as [H5 H6]. apply negb_true_iff in H6.
    exists p_4, px, a, b, [wx], A, k, (at3 3 0 0). split; [exact W1|]. split; [exact W2|]. split; [exact Ha|]. split; [exact Hb|].
    split; [apply degree_test_spec, H1|]. split; [apply degree_test_spec, H2|]. split; [intros i [Hi|Hi]; [exact (occurs_test_spec _ _ H3 i Hi) | exact (occurs_test_spec _ _ H4 i Hi)]|].
    split; [exact HA|]. split; [exact H5|]. apply satb_false; [left; reflexivity | exact H6]. }
  both T.
Qed.
Lemma equality_refuted : forall NN, NN = F64Num \/ NN = QNum -> exists (p q : prog) (a b : scalar) (w : list var) (A : list num) (k : num) (r : assignment),
  well_formed p /\ well_formed q /\ run p = Ok a /\ run q = Ok b /\ degree_at_most 1 a /\ degree_at_most 1 b
  /\ (forall i, occurs i a \/ occurs i b -> In i (map v_id w))
  /\ sc_linear_equality (mkSC a b SenseEq) [w] = Ok (A, k) /\ (dot r A w =? k) = true /\ (eval r a =? eval r b) = false.
Proof.
  assert (T : forall NN, two_ok (NN := NN) p_4 px (fun a b => degree_test 1 a && degree_test 1 b && occurs_test (map v_id [wx]) a && occurs_test (map v_id [wx]) b
     && run_ok (sc_linear_equality (mkSC a b SenseEq) [[wx]]) (fun Ak => (dot (at3 2 0 0) (fst Ak) [wx] =? snd Ak) && negb (eval (at3 2 0 0) a =? eval (at3 2 0 0) b))) = true ->
     well_formed (NN := NN) p_4 -> well_formed (NN := NN) px -> exists (p q : prog) (a b : scalar) (w : list var) (A : list num) (k : num) (r : assignment),
  well_formed p /\ well_formed q /\ run p = Ok a /\ run q = Ok b /\ degree_at_most 1 a /\ degree_at_most 1 b
  /\ (forall i, occurs i a \/ occurs i b -> In i (map v_id w))
  /\ sc_linear_equality (mkSC a b SenseEq) [w] = Ok (A, k) /\ (dot r A w =? k) = true /\ (eval r a =? eval r b) = false).
  { intros NN H W1 W2. apply two_ok_spec in H as (a & b & Ha & Hb & H). apply andb_prop in H as [H H5]. apply andb_prop in H as [H H4]. apply andb_prop in H as [H H3].
    apply andb_prop in H as [H1 H2]. apply run_ok_spec in H5 as ((A & k) & HA & H5). apply andb_prop in H5 as [H5 H6]. apply negb_true_iff in H6.
    exists p_4, px, a, b, [wx], A, k, (at3 2 0 0). split; [exact W1|]. split; [exact W2|]. split; [exact Ha|]. split; [exact Hb|].
    split; [apply degree_test_spec, H1|]. split; [apply degree_test_spec, H2|]. split; [intros i [Hi|Hi]; [exact (occurs_test_spec _ _ H3 i Hi) | exact (occurs_test_spec _ _ H4 i Hi)]|].
    split; [exact HA|]. split; [exact H5 | exact H6]. }
  both T.
Qed.
(** x == 3 *)
Lemma inequality_accepts_equality : forall NN, NN = F64Num \/ NN = QNum -> exists (c : scalar_constraint) (w : list var) (A : list num) (k : num) (r : assignment),
  valid_constraint c /\ sc_sense c = SenseEq /\ sc_linear_inequality c [w] = Ok (A, k)
  /\ nleb (dot r A w) k = true /\ (eval r (sc_left c) =? eval r (sc_right c)) = false.
Proof.
  assert (T : forall NN, run_ok (sc_linear_inequality (NN := NN) (mkSC (SV wx) (SK (nofZ 3)) SenseEq) [[wx]])
                          (fun Ak => nleb (dot (at3 1 0 0) (fst Ak) [wx]) (snd Ak) && negb (eval (at3 1 0 0) (SV wx) =? nofZ 3)) = true ->
    valid_var (NN := NN) wx -> exists (c : scalar_constraint) (w : list var) (A : list num) (k : num) (r : assignment),
    valid_constraint c /\ sc_sense c = SenseEq /\ sc_linear_inequality c [w] = Ok (A, k)
    /\ nleb (dot r A w) k = true /\ (eval r (sc_left c) =? eval r (sc_right c)) = false).
  { intros NN H V. apply run_ok_spec in H as ((A & k) & HA & H). apply andb_prop in H as [H1 H2]. apply negb_true_iff in H2.
    exists (mkSC (SV wx) (SK (nofZ 3)) SenseEq), [wx], A, k, (at3 1 0 0). split; [split; [exact V|]; split; [exact I | discriminate]|].
    split; [reflexivity|]. split; [exact HA|]. split; [exact H1 | exact H2]. }
  both T.
Qed.
(** x + 1 <= y + 2: the simplified left hand side is x - y + 1 *)
Lemma simplify_constant_refuted : forall NN, NN = F64Num \/ NN = QNum -> exists (p q : prog) (a b : scalar) (c' : scalar_constraint) (k : num),
  well_formed p /\ well_formed q /\ run p = Ok a /\ run q = Ok b /\ sc_simplify (mkSC a b SenseLe) = Ok c'
  /\ scalar_constant (sc_left c') = Ok k /\ (k =? n0) = false.
Proof.
  assert (T : forall NN, two_ok (NN := NN) (PPlus px (pk 1)) (PPlus py (pk 2)) (fun a b => run_ok (sc_simplify (mkSC a b SenseLe))
        (fun c' => run_ok (scalar_constant (sc_left c')) (fun k => negb (k =? n0)))) = true ->
     well_formed (NN := NN) (PPlus px (pk 1)) -> well_formed (NN := NN) (PPlus py (pk 2)) -> exists (p q : prog) (a b : scalar) (c' : scalar_constraint) (k : num),
  well_formed p /\ well_formed q /\ run p = Ok a /\ run q = Ok b /\ sc_simplify (mkSC a b SenseLe) = Ok c'
  /\ scalar_constant (sc_left c') = Ok k /\ (k =? n0) = false).
  { intros NN H W1 W2. apply two_ok_spec in H as (a & b & Ha & Hb & H). apply run_ok_spec in H as (c' & Hc & H). apply run_ok_spec in H as (k & Hk & H). apply negb_true_iff in H.
    exists (PPlus px (pk 1)), (PPlus py (pk 2)), a, b, c', k. auto 8. }
  both T.
Qed.
Lemma simplify_feasible_refuted : forall NN, NN = F64Num \/ NN = QNum -> exists (p q : prog) (a b : scalar) (c' : scalar_constraint) (r : assignment),
  well_formed p /\ well_formed q /\ run p = Ok a /\ run q = Ok b /\ sc_simplify (mkSC a b SenseLe) = Ok c'
  /\ satisfies r c' /\ ~ satisfies r (mkSC a b SenseLe).
Proof.
  assert (T : forall NN, two_ok (NN := NN) p_xxy p_yyx (fun a b => run_ok (sc_simplify (mkSC a b SenseLe))
        (fun c' => sense_eqb (sc_sense c') SenseLe && satb (at3 2 1 0) c' && negb (satb (at3 2 1 0) (mkSC a b SenseLe)))) = true ->
     well_formed (NN := NN) p_xxy -> well_formed (NN := NN) p_yyx -> exists (p q : prog) (a b : scalar) (c' : scalar_constraint) (r : assignment),
  well_formed p /\ well_formed q /\ run p = Ok a /\ run q = Ok b /\ sc_simplify (mkSC a b SenseLe) = Ok c'
  /\ satisfies r c' /\ ~ satisfies r (mkSC a b SenseLe)).
  { intros NN H W1 W2. apply two_ok_spec in H as (a & b & Ha & Hb & H). apply run_ok_spec in H as (c' & Hc & H). apply andb_prop in H as [H H3]. apply andb_prop in H as [H1 H2].
    apply negb_true_iff in H3. exists p_xxy, p_yyx, a, b, c', (at3 2 1 0). do 5 (split; [assumption|]). split; [|apply satb_false; [left; reflexivity | exact H3]].
    apply satb_spec; [left; destruct (sc_sense c'); (reflexivity || discriminate) | exact H2]. }
  both T.
Qed.
Lemma scale_refuted : forall NN, NN = F64Num \/ NN = QNum -> exists (p q : prog) (a b : scalar) (f : num) (c' : scalar_constraint) (r : assignment),
  well_formed p /\ well_formed q /\ run p = Ok a /\ run q = Ok b /\ (f =? n0) = false /\ sc_scale_by (mkSC a b SenseLe) f = Ok c'
  /\ satisfies r c' /\ ~ satisfies r (mkSC a b SenseLe).
Proof.
  assert (T : forall NN, two_ok (NN := NN) p_simp (pk 30) (fun a b => run_ok (sc_scale_by (mkSC a b SenseLe) n2)
        (fun c' => negb (n2 =? n0) && sense_eqb (sc_sense c') SenseLe && satb (at3 1 2 3) c' && negb (satb (at3 1 2 3) (mkSC a b SenseLe)))) = true ->
     well_formed (NN := NN) p_simp -> well_formed (NN := NN) (pk 30) -> exists (p q : prog) (a b : scalar) (f : num) (c' : scalar_constraint) (r : assignment),
  well_formed p /\ well_formed q /\ run p = Ok a /\ run q = Ok b /\ (f =? n0) = false /\ sc_scale_by (mkSC a b SenseLe) f = Ok c'
  /\ satisfies r c' /\ ~ satisfies r (mkSC a b SenseLe)).
  { intros NN H W1 W2. apply two_ok_spec in H as (a & b & Ha & Hb & H). apply run_ok_spec in H as (c' & Hc & H). apply andb_prop in H as [H H3]. apply andb_prop in H as [H H2]. apply andb_prop in H as [H0 H1].
    apply negb_true_iff in H3. apply negb_true_iff in H0. exists p_simp, (pk 30), a, b, n2, c', (at3 1 2 3). do 6 (split; [assumption|]). split; [|apply satb_false; [left; reflexivity | exact H3]].
    apply satb_spec; [left; destruct (sc_sense c'); (reflexivity || discriminate) | exact H2]. }
  both T.
Qed.
(** the order that leaves the keys as inserted *)
Definition same_order {NN : Num} : orders := fun _ l => l.
Lemma same_order_ok {NN : Num} : permuting same_order.
Proof. intros n l. apply Permutation_refl. Qed.

Lemma implies_test {NN : Num} p q p' q' r : well_formed p -> well_formed q -> well_formed p' -> well_formed q' ->
  two_ok p q (fun a b => two_ok p' q' (fun a' b' => run_ok (sc_implies same_order (mkSC a b SenseLe) (mkSC a' b' SenseLe)) (fun x => x)
     && satb r (mkSC a b SenseLe) && negb (satb r (mkSC a' b' SenseLe)))) = true ->
  exists (o : orders) (a b a' b' : scalar) (r : assignment), well_formed p /\ well_formed q /\ well_formed p' /\ well_formed q' /\ run p = Ok a /\ run q = Ok b /\ run p' = Ok a' /\ run q' = Ok b'
    /\ permuting o /\ sc_implies o (mkSC a b SenseLe) (mkSC a' b' SenseLe) = Ok true /\ satisfies r (mkSC a b SenseLe) /\ ~ satisfies r (mkSC a' b' SenseLe).
Proof.
  intros W1 W2 W3 W4 H. apply two_ok_spec in H as (a & b & Ha & Hb & H). apply two_ok_spec in H as (a' & b' & Ha' & Hb' & H).
  apply andb_prop in H as [H H3]. apply andb_prop in H as [H1 H2]. apply run_ok_spec in H1 as (x & H1 & ->). apply negb_true_iff in H3.
  exists same_order, a, b, a', b', r. do 8 (split; [assumption|]). split; [apply same_order_ok|]. split; [exact H1|]. split; [apply satb_spec; [left; reflexivity | exact H2] | apply satb_false; [left; reflexivity | exact H3]].
Qed.
(** x - 5 <= 3 is said to imply x <= 3 *)
Lemma implies_refuted : forall NN, NN = F64Num \/ NN = QNum -> exists (p q p' q' : prog) (o : orders) (a b a' b' : scalar) (r : assignment),
  well_formed p /\ well_formed q /\ well_formed p' /\ well_formed q' /\ run p = Ok a /\ run q = Ok b /\ run p' = Ok a' /\ run q' = Ok b'
    /\ permuting o /\ sc_implies o (mkSC a b SenseLe) (mkSC a' b' SenseLe) = Ok true /\ satisfies r (mkSC a b SenseLe) /\ ~ satisfies r (mkSC a' b' SenseLe).
Proof.
  apply two_instances; exists (PMinus px (pk 5)), (pk 3), px, (pk 3); apply (implies_test _ _ _ _ (at3 8 0 0)); try (vm_compute; reflexivity); try wf.
Qed.
(** x <= 3 is said to imply x + x^2 <= 3 *)
Lemma implies_nonlinear_refuted : forall NN, NN = F64Num \/ NN = QNum -> exists (p q p' q' : prog) (o : orders) (a b a' b' : scalar) (r : assignment),
  well_formed p /\ well_formed q /\ well_formed p' /\ well_formed q' /\ run p = Ok a /\ run q = Ok b /\ run p' = Ok a' /\ run q' = Ok b'
    /\ permuting o /\ sc_implies o (mkSC a b SenseLe) (mkSC a' b' SenseLe) = Ok true /\ satisfies r (mkSC a b SenseLe) /\ ~ satisfies r (mkSC a' b' SenseLe).
Proof.
  apply two_instances; exists px, (pk 3), (PPlus px (PMul px px)), (pk 3); apply (implies_test _ _ _ _ (at3 3 0 0)); try (vm_compute; reflexivity); try wf.
Qed.
(** x + 5 >= 0 *)
Lemma nonneg_refuted : forall NN, NN = F64Num \/ NN = QNum -> exists (p q : prog) (o : orders) (a b : scalar) (r : assignment),
  well_formed p /\ well_formed q /\ run p = Ok a /\ run q = Ok b /\ permuting o
  /\ sc_is_nonnegativity o (mkSC a b SenseGe) = Ok true /\ satisfies r (mkSC a b SenseGe) /\ forall x, occurs x a -> nleb n0 (r x) = false.
Proof.
  assert (T : forall NN, two_ok (NN := NN) (PPlus px (pk 5)) (pk 0) (fun a b => run_ok (sc_is_nonnegativity same_order (mkSC a b SenseGe)) (fun x => x)
        && satb (at3 (-3) 0 0) (mkSC a b SenseGe) && occurs_test [0%N] a && negb (nleb n0 (at3 (-3) 0 0 0%N))) = true ->
     well_formed (NN := NN) (PPlus px (pk 5)) -> exists (p q : prog) (o : orders) (a b : scalar) (r : assignment),
  well_formed p /\ well_formed q /\ run p = Ok a /\ run q = Ok b /\ permuting o
  /\ sc_is_nonnegativity o (mkSC a b SenseGe) = Ok true /\ satisfies r (mkSC a b SenseGe) /\ forall x, occurs x a -> nleb n0 (r x) = false).
  { intros NN H W1. apply two_ok_spec in H as (a & b & Ha & Hb & H). apply andb_prop in H as [H H4]. apply andb_prop in H as [H H3]. apply andb_prop in H as [H1 H2].
    apply run_ok_spec in H1 as (x & H1 & ->). apply negb_true_iff in H4.
    exists (PPlus px (pk 5)), (pk 0), same_order, a, b, (at3 (-3) 0 0). split; [exact W1|]. split; [exact I|]. split; [exact Ha|]. split; [exact Hb|]. split; [apply same_order_ok|].
    split; [exact H1|]. split; [apply satb_spec; [right; reflexivity | exact H2]|]. intros x Hx. destruct (occurs_test_spec _ _ H3 x Hx) as [<-|[]]. exact H4. }
  both T.
Qed.
(** z := y in x*x*z + y*y*x <= 5 *)
Lemma con_substitute_refuted : forall NN, NN = F64Num \/ NN = QNum -> exists (p q : prog) (v : var) (e : scalar) (a b : scalar) (c' : scalar_constraint) (r : assignment),
  well_formed p /\ well_formed q /\ valid_var v /\ valid e /\ run p = Ok a /\ run q = Ok b /\ sc_substitute (mkSC a b SenseLe) v e = Ok c'
  /\ satisfies r c' /\ ~ satisfies (update r (v_id v) (eval r e)) (mkSC a b SenseLe).
Proof.
  assert (T : forall NN, two_ok (NN := NN) p_sub (pk 5) (fun a b => run_ok (sc_substitute (mkSC a b SenseLe) wz (SV wy))
        (fun c' => sense_eqb (sc_sense c') SenseLe && satb (at3 1 2 0) c' && negb (satb (update (at3 1 2 0) 2 (at3 1 2 0 1%N)) (mkSC a b SenseLe)))) = true ->
     well_formed (NN := NN) p_sub -> valid_var (NN := NN) wz -> valid_var (NN := NN) wy ->
     exists (p q : prog) (v : var) (e : scalar) (a b : scalar) (c' : scalar_constraint) (r : assignment),
  well_formed p /\ well_formed q /\ valid_var v /\ valid e /\ run p = Ok a /\ run q = Ok b /\ sc_substitute (mkSC a b SenseLe) v e = Ok c'
  /\ satisfies r c' /\ ~ satisfies (update r (v_id v) (eval r e)) (mkSC a b SenseLe)).
  { intros NN H W1 V1 V2. apply two_ok_spec in H as (a & b & Ha & Hb & H). apply run_ok_spec in H as (c' & Hc & H). apply andb_prop in H as [H H3]. apply andb_prop in H as [H1 H2].
    apply negb_true_iff in H3. exists p_sub, (pk 5), wz, (SV wy), a, b, c', (at3 1 2 0). split; [exact W1|]. split; [exact I|]. do 5 (split; [assumption|]).
    split; [|apply satb_false; [left; reflexivity | exact H3]].
    apply satb_spec; [left; destruct (sc_sense c'); (reflexivity || discriminate) | exact H2]. }
  both T.
Qed.
