(** * Constraints between vectors and matrices: theorems in final form, witnesses and refutations *)

From Coq Require Import ZArith NArith Bool List Lia Permutation.
From Verif Require Import Num Syntax ModelScalar Spec SpecProg Base ScalarNorm Unamb ScalarLin ScalarFacts Witness ScalarWit ModelSC SCProofs SCWit ModelShape ModelArith SpecArr Arr ArrTop ArrPow ArrShape ArrMisc ArrSub ArrFacts
  ArrWit ModelConstr SpecCon ConProofs ConVec ConMore.
Import ListNotations.
Local Open Scope num_scope.

Section Final.
Context {NN : Num}.

Lemma con_simplified_vectors n c : 2 <= n -> valid_con (n, 1) (CV c) -> exists c', con_simplified (CV c) = Ok c' /\ valid_con (n, 1) c' /\ con_sense c' = vc_sense c.
Proof. intros Hn V. destruct (vc_simplified_core n c Hn V) as (c' & E & V' & S & _). exists (CV c'). cbn [con_simplified]. rewrite E. auto. Qed.
Lemma con_simplified_one c : valid_con (1, 1) (CV c) -> exists p, con_simplified (CV c) = Panic p.
Proof. intro V. destruct (vc_simplified_one c V) as (p & E). exists p. cbn. rewrite E. reflexivity. Qed.
Lemma con_simplified_numbers d l r s : valid_con d (CM (mkMC (MK l) (MK r) s)) -> exists c', con_simplified (CM (mkMC (MK l) (MK r) s)) = Ok c'.
Proof. intro V. destruct (mc_simplified_numbers d l r s V) as (l' & r' & E). eexists. cbn [con_simplified]. rewrite E. reflexivity. Qed.
Lemma con_simplified_kinds d c s : valid_con d (CM c) -> (n0 + nm1 * n0 =? n0) = true -> s = EM (mc_left c) \/ s = EM (mc_right c) ->
  is_variable_matrix s = true \/ is_monomial_matrix s = true -> exists p, con_simplified (CM c) = Panic p.
Proof. intros V HZ H1 H2. destruct (mc_simplified_panics d c V HZ) as (p & E); [exists s; auto|]. exists p. cbn [con_simplified]. rewrite E. reflexivity. Qed.
Lemma con_simplified_feasible d c c' : ExactNum NN -> valid_con d c -> ~ is_scalar (con_left c) -> unambiguous_exponents (sum_exps (con_left c) (con_right c)) -> con_simplified c = Ok c' ->
  valid_con d c' /\ con_sense c' = con_sense c /\ forall r, con_sat r d c' <-> con_sat r d c.
Proof. intros EX V NS U E. apply con_simplified_sat; try assumption. destruct c; [apply NS; exact I | exact I | exact I]. Qed.
Lemma con_simplified_degree2 d c c' : ExactNum NN -> valid_con d c -> ~ is_scalar (con_left c) -> array_degree 2 (con_left c) -> array_degree 2 (con_right c) -> con_simplified c = Ok c' ->
  valid_con d c' /\ con_sense c' = con_sense c /\ forall r, con_sat r d c' <-> con_sat r d c.
Proof. intros EX V NS D1 D2 E. apply con_simplified_feasible; try assumption. destruct V as (V1 & V2 & _). exact (sum_exps_degree2 d d _ _ V1 V2 D1 D2). Qed.

Lemma con_substitute_map_arrays d c sm sm' : ExactNum NN -> valid_con d c -> ~ is_scalar (con_left c) -> valid_map sm -> Permutation sm sm' ->
  array_degree 2 (con_left c) -> array_degree 2 (con_right c) ->
  (forall k t, In (k, ES t) sm -> degree_at_most 1 t) ->
  (forall w, array_var w (con_left c) \/ array_var w (con_right c) \/ map_var w sm -> forall k, In k (map fst sm) -> v_id w = v_id k -> w = k) ->
  (forall k t k', In (k, ES t) sm -> In k' (map fst sm) -> ~ occurs (v_id k') t) ->
  exists c', con_substitute_map c sm sm' = Ok c' /\ valid_con d c' /\ con_sense c' = con_sense c
    /\ forall r r', (forall s, In s (entry_constraints d c) -> simultaneous r sm (sc_left s) r' /\ simultaneous r sm (sc_right s) r') -> (con_sat r d c' <-> con_sat r' d c).
Proof. intros EX V NS. apply con_substitute_map_value; try assumption. destruct c; [apply NS; exact I | exact I | exact I]. Qed.

Section Exact.
Context {EX : ExactNum NN}.
Lemma vec_inequality n c w A b : valid_con (n, 1) (CV c) -> vc_sense c = SenseLe \/ vc_sense c = SenseGe ->
  array_degree 1 (EV (vc_left c)) -> array_degree 1 (EV (vc_right c)) -> array_collected (EV (vc_left c)) -> array_collected (EV (vc_right c)) ->
  w <> [] -> Forall valid_var w -> NoDup (map v_id w) -> (forall i, array_occurs i (EV (vc_left c)) \/ array_occurs i (EV (vc_right c)) -> In i (map v_id w)) ->
  vc_linear_inequality c [w] = Ok (A, b) -> dense_shape (n, length w) A /\ length b = n /\ forall r, system_le r A w b <-> con_sat r (n, 1) (CV c).
Proof. intros V S D1 D2 C1 C2 H1 H2 H3 H4. apply (vc_inequality_ok n c w); [repeat split; assumption || apply V | exact S]. Qed.
Lemma vec_equality n c w A b : valid_con (n, 1) (CV c) -> vc_sense c = SenseEq ->
  array_degree 1 (EV (vc_left c)) -> array_degree 1 (EV (vc_right c)) -> array_collected (EV (vc_left c)) -> array_collected (EV (vc_right c)) ->
  w <> [] -> Forall valid_var w -> NoDup (map v_id w) -> (forall i, array_occurs i (EV (vc_left c)) \/ array_occurs i (EV (vc_right c)) -> In i (map v_id w)) ->
  vc_linear_equality c [w] = Ok (A, b) -> dense_shape (n, length w) A /\ length b = n /\ forall r, system_eq r A w b <-> con_sat r (n, 1) (CV c).
Proof. intros V S D1 D2 C1 C2 H1 H2 H3 H4. apply (vc_equality_ok n c w); [repeat split; assumption || apply V | exact S]. Qed.
Lemma vec_inequality_total n c w : 2 <= n -> valid_con (n, 1) (CV c) -> vc_sense c = SenseLe \/ vc_sense c = SenseGe ->
  array_degree 1 (EV (vc_left c)) -> array_degree 1 (EV (vc_right c)) -> array_collected (EV (vc_left c)) -> array_collected (EV (vc_right c)) ->
  w <> [] -> Forall valid_var w -> NoDup (map v_id w) -> (forall i, array_occurs i (EV (vc_left c)) \/ array_occurs i (EV (vc_right c)) -> In i (map v_id w)) ->
  involves_variables (n, 1) (CV c) -> exists A b, vc_linear_inequality c [w] = Ok (A, b).
Proof. intros Hn V S D1 D2 C1 C2 H1 H2 H3 H4. apply (vc_inequality_ok n c w); [repeat split; assumption || apply V | exact S | exact Hn]. Qed.
Lemma vec_equality_total n c w : 2 <= n -> valid_con (n, 1) (CV c) -> vc_sense c = SenseEq ->
  array_degree 1 (EV (vc_left c)) -> array_degree 1 (EV (vc_right c)) -> array_collected (EV (vc_left c)) -> array_collected (EV (vc_right c)) ->
  w <> [] -> Forall valid_var w -> NoDup (map v_id w) -> (forall i, array_occurs i (EV (vc_left c)) \/ array_occurs i (EV (vc_right c)) -> In i (map v_id w)) ->
  involves_variables (n, 1) (CV c) -> exists A b, vc_linear_equality c [w] = Ok (A, b).
Proof. intros Hn V S D1 D2 C1 C2 H1 H2 H3 H4. apply (vc_equality_ok n c w); [repeat split; assumption || apply V | exact S | exact Hn]. Qed.
End Exact.

Lemma vec_inequality_nonlinear n c w : valid_con (n, 1) (CV c) -> ~ array_degree 1 (EV (vc_left c)) \/ ~ array_degree 1 (EV (vc_right c)) -> vc_linear_inequality c w = Panic PLinearRequired.
Proof. intros V H. apply (vc_inequality_nonlinear n c w V). tauto. Qed.
Lemma vec_equality_nonlinear n c w : valid_con (n, 1) (CV c) -> ~ array_degree 1 (EV (vc_left c)) \/ ~ array_degree 1 (EV (vc_right c)) -> vc_linear_equality c w = Panic PLinearRequired.
Proof. intros V H. apply (vc_equality_nonlinear n c w V). tauto. Qed.

Lemma comparison_operands a b s : expr_check b = false -> forall c, expr_comparison a (GExpr b) s <> Ok c.
Proof. intros C c E. destruct (comparison_operand_check a b s C) as (p & X). congruence. Qed.
Lemma comparison_receivers a g s : expr_check a = false -> forall c, expr_comparison a g s <> Ok c.
Proof. intros C c E. destruct (comparison_receiver_check a g s C) as (p & X). congruence. Qed.
Lemma comparison_others a s : forall c, expr_comparison a GOther s <> Ok c.
Proof. intros c E. destruct (comparison_other a s) as (p & X). congruence. Qed.

(** ((2x + 3y + 7, 1), (x, 2)) and ((1, 2), (3, 4)) *)
Definition w_pm' : matrix := MP [[w_poly w_lin; [mkMono n1 [] []]]; [[var_to_mono wx]; [mkMono (nofZ 2) [] []]]].
Definition w_km' : matrix := MK [[nofZ 1; nofZ 2]; [nofZ 3; nofZ 4]].
End Final.

Section Q.
Local Existing Instance QNum.

(** (2x + 3y + 7, x) and (z, y) *)
Definition w_vc (s : sense) : vector_constraint := mkVC w_lv (VV [wz; wy]) s.
Definition w_mc (s : sense) : matrix_constraint := mkMC w_pm' w_km' s.
(** (2x, -3x) and (6, 3) *)
Definition w_pc : vector_constraint := mkVC (VM [mkMono (nofZ 2) [1%Z] [wx]; mkMono (nofZ (-3)) [1%Z] [wx]]) (VK [nofZ 6; nofZ 3]) SenseLe.

Lemma wit_compare : valid_array (2, 1) w_pv /\ valid_array (2, 1) w_vv /\ means (GExpr w_vv) = Some w_vv /\ broadcast w_pv w_vv (2, 1) (2, 1) (2, 1)
  /\ comparison_accepts w_pv (GExpr w_vv) = true /\ (is_scalar w_pv \/ ~ is_scalar w_vv) /\ exists c, expr_comparison w_pv (GExpr w_vv) SenseGe = Ok c.
Proof.
  split; [ar|]. split; [ar|]. split; [reflexivity|]. split; [left; split; reflexivity|]. split; [reflexivity|]. split; [right; intros []|]. apply ok_ex; vm_compute; reflexivity.
Qed.
(** (2x + 3y + 7, 2yx + 3x) against 3.0: a scalar on the right *)
Lemma wit_compare_broadcast : valid_array (2, 1) w_pv /\ valid_array (1, 1) (ES (SK (nofZ 3))) /\ means (GFloat (nofZ 3)) = Some (ES (SK (nofZ 3)))
  /\ broadcast w_pv (ES (SK (nofZ 3))) (2, 1) (1, 1) (2, 1) /\ comparison_accepts w_pv (GFloat (nofZ 3)) = true /\ exists c, expr_comparison w_pv (GFloat (nofZ 3)) SenseLe = Ok c.
Proof.
  split; [ar|]. split; [ar|]. split; [reflexivity|]. split; [right; right; split; [exact I | reflexivity]|]. split; [reflexivity|]. apply ok_ex; vm_compute; reflexivity.
Qed.
Lemma wit_compare_mismatch : valid_array (2, 2) w_vm /\ valid_array (2, 3) w_km3 /\ means (GExpr w_km3) = Some w_km3 /\ ~ is_scalar w_vm /\ ~ is_scalar w_km3 /\ (2, 2) <> (2, 3).
Proof. split; [ar|]. split; [ar|]. split; [reflexivity|]. split; [intros []|]. split; [intros []|]. discriminate. Qed.
Lemma wit_compare_unsupported : valid_array (2, 2) w_pm /\ means (GExpr w_pm) = Some w_pm /\ broadcast w_pm w_pm (2, 2) (2, 2) (2, 2) /\ comparison_accepts w_pm (GExpr w_pm) = false.
Proof. split; [ar|]. split; [reflexivity|]. split; [left; split; reflexivity | reflexivity]. Qed.

Lemma wit_vc_valid s : s <> SenseOther -> valid_con (2, 1) (CV (w_vc s)).
Proof. intro H. split; [ar|]. split; [ar|]. exact H. Qed.
Lemma wit_mc_valid s : s <> SenseOther -> valid_con (2, 2) (CM (w_mc s)).
Proof. intro H. split; [ar|]. split; [ar|]. exact H. Qed.
Lemma wit_compile : Forall2 valid_con [(2, 1); (1, 1); (2, 2)]%nat [CV (w_vc SenseGe); CS (mkSC w_lin (SV wz) SenseEq); CM (w_mc SenseLe)]
  /\ entries_count [(2, 1); (1, 1); (2, 2)]%nat = 7%nat.
Proof.
  split; [|reflexivity]. constructor; [apply wit_vc_valid; discriminate|]. constructor; [|constructor; [apply wit_mc_valid; discriminate | constructor]].
  split; [ar|]. split; [ar|]. discriminate.
Qed.
Lemma wit_vc_repr : 2 <= 2 /\ (forall s, s <> SenseOther -> valid_con (2, 1) (CV (w_vc s)))
  /\ array_degree 1 (EV w_lv) /\ array_degree 1 (EV (VV [wz; wy])) /\ array_collected (EV w_lv) /\ array_collected (EV (VV [wz; wy]))
  /\ [wz; wy; wx] <> [] /\ Forall valid_var [wz; wy; wx] /\ NoDup (map v_id [wz; wy; wx])
  /\ (forall i, array_occurs i (EV w_lv) \/ array_occurs i (EV (VV [wz; wy])) -> In i (map v_id [wz; wy; wx]))
  /\ (forall s, involves_variables (2, 1) (CV (w_vc s))).
Proof.
  split; [lia|]. split; [exact wit_vc_valid|]. split; [ar|]. split; [ar|]. split.
  { intros row s Hr Hs. cbn in Hr. destruct Hr as [<-|[<-|[]]]; destruct Hs as [<-|[]]; (apply apart_s_collected; [apply validb_spec; vm_compute; reflexivity|]; cbn; repeat constructor). }
  split. { intros row s Hr Hs. cbn in Hr. destruct Hr as [<-|[<-|[]]]; destruct Hs as [<-|[]]; apply wit_var_collected. }
  split; [discriminate|]. split; [repeat constructor; apply varb_spec; vm_compute; reflexivity|]. split; [apply nodupb_spec; reflexivity|]. split.
  - intros i [(row & s & Hr & Hs & m & Hm & Hi)|(row & s & Hr & Hs & m & Hm & Hi)]; cbn in Hr; (destruct Hr as [<-|[<-|[]]]; destruct Hs as [<-|[]]; cbn in Hm;
      repeat (destruct Hm as [<-|Hm]; [vm_compute in Hi |- *; intuition|]); destruct Hm).
  - intros s i Hi. exists (at3 0 0 0), (at3 1 0 0). cbn [fst] in Hi. destruct i as [|[|i]]; [| |lia]; vm_compute; discriminate.
Qed.
Lemma wit_vc_one : valid_con (1, 1) (CV (mkVC (VP [w_poly w_lin]) (VK [nofZ 3]) SenseLe)) /\ array_degree 1 (EV (VP [w_poly w_lin])) /\ array_degree 1 (EV (VK [nofZ 3])).
Proof. split; [split; [ar|]; split; [ar|]; discriminate|]. split; ar. Qed.
Lemma wit_vc_nonlinear : valid_con (2, 1) (CV (mkVC (VP [w_poly w_lin; w_poly w_quad2]) (VK [nofZ 3; nofZ 1]) SenseLe)) /\ ~ array_degree 1 (EV (VP [w_poly w_lin; w_poly w_quad2])).
Proof.
  split; [split; [ar|]; split; [ar|]; discriminate|]. intro H. specialize (H [SP (w_poly w_quad2)] (SP (w_poly w_quad2)) (or_intror (or_introl eq_refl)) (or_introl eq_refl)).
  unfold degree_at_most in H. cbn in H. inversion H as [|? ? H1 _]. vm_compute in H1. apply H1. reflexivity.
Qed.
Lemma wit_simplified : valid_con (2, 1) (CV (w_vc SenseGe)) /\ ~ is_scalar (con_left (CV (w_vc SenseGe))) /\ array_degree 2 (con_left (CV (w_vc SenseGe))) /\ array_degree 2 (con_right (CV (w_vc SenseGe)))
  /\ (exists c', con_simplified (CV (w_vc SenseGe)) = Ok c')
  /\ valid_con (2, 2) (CM (w_mc SenseLe)) /\ ~ is_scalar (con_left (CM (w_mc SenseLe))) /\ array_degree 2 (con_left (CM (w_mc SenseLe))) /\ array_degree 2 (con_right (CM (w_mc SenseLe)))
  /\ (exists c', con_simplified (CM (w_mc SenseLe)) = Ok c').
Proof.
  split; [apply wit_vc_valid; discriminate|]. split; [intros []|]. split; [ar|]. split; [ar|]. split; [apply ok_ex; vm_compute; reflexivity|].
  split; [apply wit_mc_valid; discriminate|]. split; [intros []|]. split; [ar|]. split; [ar|]. apply ok_ex; vm_compute; reflexivity.
Qed.
Lemma wit_simplified_unambiguous : unambiguous_exponents (sum_exps (con_left (CM (w_mc SenseLe))) (con_right (CM (w_mc SenseLe)))).
Proof. apply (sum_exps_degree2 (2, 2) (2, 2)); ar. Qed.
Lemma wit_simplified_kinds : valid_con (2, 2) (CM (mkMC (MV [[wx; wy]; [wz; wx]]) w_km' SenseLe)) /\ (n0 + nm1 * n0 =? n0) = true /\ is_variable_matrix (EM (MV [[wx; wy]; [wz; wx]])) = true
  /\ valid_con (2, 2) (CM (mkMC w_km' w_km' SenseEq)).
Proof. split; [split; [ar|]; split; [ar|]; discriminate|]. split; [reflexivity|]. split; [reflexivity|]. split; [ar|]; split; [ar|]; discriminate. Qed.
Lemma wit_f64_zero : (@neqb F64Num (nadd n0 (nmul nm1 n0)) n0) = true.
Proof. vm_compute. reflexivity. Qed.

Lemma wit_con_sub : valid_con (2, 1) (CV (w_vc SenseGe)) /\ valid_var wx /\ valid w_lin
  /\ (forall s, In s (entry_constraints (2, 1) (CV (w_vc SenseGe))) -> same_environment wx (sc_left s) /\ same_environment wx (sc_right s))
  /\ array_degree 1 (con_left (CV (w_vc SenseGe))) /\ array_degree 1 (con_right (CV (w_vc SenseGe))) /\ degree_at_most 1 w_lin /\ (1 <= 1)%Z /\ (1 * 1 <= 2)%Z.
Proof.
  split; [apply wit_vc_valid; discriminate|]. split; [apply varb_spec; vm_compute; reflexivity|]. split; [apply validb_spec; vm_compute; reflexivity|]. split.
  { intros s Hs. cbn in Hs. destruct Hs as [<-|[<-|[]]]; split; intros m w Hm Hw H; cbn in Hm;
      repeat (destruct Hm as [<-|Hm]; [cbn in Hw; repeat (destruct Hw as [<-|Hw]; [first [reflexivity | vm_compute in H; discriminate H]|]); destruct Hw|]); destruct Hm. }
  split; [ar|]. split; [ar|]. split; [apply degree_test_spec; vm_compute; reflexivity|]. split; lia.
Qed.

(** the map x -> 2z + 1, y -> 5 *)
Lemma wit_con_sub_map : valid_con (2, 1) (CV (w_vc SenseGe)) /\ ~ is_scalar (con_left (CV (w_vc SenseGe))) /\ valid_map w_arr_map /\ Permutation w_arr_map (rev w_arr_map)
  /\ array_degree 2 (con_left (CV (w_vc SenseGe))) /\ array_degree 2 (con_right (CV (w_vc SenseGe)))
  /\ (forall k t, In (k, ES t) w_arr_map -> degree_at_most 1 t)
  /\ (forall w, array_var w (con_left (CV (w_vc SenseGe))) \/ array_var w (con_right (CV (w_vc SenseGe))) \/ map_var w w_arr_map -> forall k, In k (map fst w_arr_map) -> v_id w = v_id k -> w = k)
  /\ (forall k t k', In (k, ES t) w_arr_map -> In k' (map fst w_arr_map) -> ~ occurs (v_id k') t).
Proof.
  destruct wit_arr_map as (_ & _ & M & _ & D & _ & F). split; [apply wit_vc_valid; discriminate|]. split; [intros []|]. split; [exact M|]. split; [apply Permutation_rev|].
  split; [ar|]. split; [ar|]. split; [exact D|]. split; [|exact F].
  assert (G : forall w, array_var w (con_left (CV (w_vc SenseGe))) \/ array_var w (con_right (CV (w_vc SenseGe))) \/ map_var w w_arr_map -> w = wx \/ w = wy \/ w = wz).
  { intros w [(row & s & m & Hr & Hs & Hm & Hw)|[(row & s & m & Hr & Hs & Hm & Hw)|[Hk|(k & t & m & Hk & Hm & Hw)]]].
    - cbn in Hr. destruct Hr as [<-|[<-|[]]]; destruct Hs as [<-|[]]; cbn in Hm; repeat (destruct Hm as [<-|Hm]; [cbn in Hw; repeat (destruct Hw as [<-|Hw]; [auto|]); destruct Hw|]); destruct Hm.
    - cbn in Hr. destruct Hr as [<-|[<-|[]]]; destruct Hs as [<-|[]]; cbn in Hm; repeat (destruct Hm as [<-|Hm]; [cbn in Hw; repeat (destruct Hw as [<-|Hw]; [auto|]); destruct Hw|]); destruct Hm.
    - cbn in Hk. destruct Hk as [<-|[<-|[]]]; auto.
    - destruct Hk as [H|[H|[]]]; injection H as <- <-; cbn in Hm; repeat (destruct Hm as [<-|Hm]; [cbn in Hw; repeat (destruct Hw as [<-|Hw]; [auto|]); destruct Hw|]); destruct Hm. }
  intros w Hw k Hk. destruct (G w Hw) as [->|[->| ->]]; cbn in Hk; destruct Hk as [<-|[<-|[]]]; intro H; try reflexivity; vm_compute in H; discriminate H.
Qed.

Lemma wit_con_vars : valid_con (2, 1) (CV (w_vc SenseGe)) /\ permutes (@rev var)
  /\ (forall v w, (array_var v (con_left (CV (w_vc SenseGe))) \/ array_var v (con_right (CV (w_vc SenseGe)))) ->
        (array_var w (con_left (CV (w_vc SenseGe))) \/ array_var w (con_right (CV (w_vc SenseGe)))) -> v_id v = v_id w -> v = w).
Proof.
  split; [apply wit_vc_valid; discriminate|]. split; [intro l; apply Permutation_sym, Permutation_rev|].
  assert (G : forall w, array_var w (con_left (CV (w_vc SenseGe))) \/ array_var w (con_right (CV (w_vc SenseGe))) -> w = wvar (v_id w)).
  { intros w [(row & s & m & Hr & Hs & Hm & Hw)|(row & s & m & Hr & Hs & Hm & Hw)];
    (cbn in Hr; destruct Hr as [<-|[<-|[]]]; destruct Hs as [<-|[]]; cbn in Hm; repeat (destruct Hm as [<-|Hm]; [cbn in Hw; repeat (destruct Hw as [<-|Hw]; [reflexivity|]); destruct Hw|]); destruct Hm). }
  intros v w Hv Hw E. rewrite (G v Hv), (G w Hw), E. reflexivity.
Qed.

Lemma wit_con_implies : valid_con (2, 1) (CV w_pc) /\ plain_con (2, 1) (CV w_pc) /\ plain_con (1, 1) (CS w_plain1)
  /\ con_implies (fun _ _ => reversed) (CV w_pc) (CS w_plain2) = Ok true /\ con_implies (fun _ _ => reversed) (CV w_pc) (CS w_plain1) = Ok false.
Proof.
  split; [split; [ar|]; split; [ar|]; discriminate|]. split.
  - intros s Hs. cbn in Hs. destruct Hs as [<-|[<-|[]]]; apply wit_plain_single; (discriminate || reflexivity).
  - split; [intros s [<-|[]]; exact (proj1 wit_plain1)|]. split; vm_compute; reflexivity.
Qed.
End Q.

(** ** Refutations *)

(** PolynomialMatrix against PolynomialMatrix, MonomialVector against PolynomialVector, a variable against a vector, a number against an int *)
Lemma comparison_refuted : forall NN, NN = F64Num \/ NN = QNum -> exists (m : matrix) (u v w : vector) (x : var) (k : num) (z : Z),
  valid_array (2, 2) (EM m) /\ valid_array (2, 1) (EV u) /\ valid_array (2, 1) (EV v) /\ valid_array (2, 1) (EV w) /\ valid_var x /\
  forall s, (exists p, expr_comparison (EM m) (GExpr (EM m)) s = Panic p) /\ (exists p, expr_comparison (EV u) (GExpr (EV v)) s = Panic p)
    /\ (exists p, expr_comparison (ES (SV x)) (GExpr (EV w)) s = Panic p) /\ (exists p, expr_comparison (ES (SK k)) (GInt z) s = Panic p).
Proof.
  pose (U := fun NN => @VM NN [mkMono (nofZ 2) [1%Z] [wx]; mkMono (nofZ 3) [] []]).
  pose (V := fun NN => @VP NN [w_poly w_lin; w_poly w_quad2]).
  pose (W := fun NN => @VV NN [wx; wy]).
  assert (T : forall NN, (arrayb (2, 2) (EM (w_pm' (NN := NN))) && arrayb (2, 1) (EV (U NN)) && arrayb (2, 1) (EV (V NN)) && arrayb (2, 1) (EV (W NN)) && varb (wx (NN := NN))
     && forallb (fun s => panics (expr_comparison (EM (w_pm' (NN := NN))) (GExpr (EM w_pm')) s) && panics (expr_comparison (EV (U NN)) (GExpr (EV (V NN))) s)
           && panics (expr_comparison (ES (SV (wx (NN := NN)))) (GExpr (EV (W NN))) s) && panics (expr_comparison (NN := NN) (ES (SK (nofZ 1))) (GInt 1) s)) [SenseLe; SenseGe; SenseEq; SenseOther]) = true ->
     exists (m : matrix) (u v w : vector) (x : var) (k : num) (z : Z),
       valid_array (2, 2) (EM m) /\ valid_array (2, 1) (EV u) /\ valid_array (2, 1) (EV v) /\ valid_array (2, 1) (EV w) /\ valid_var x /\
       forall s, (exists p, expr_comparison (EM m) (GExpr (EM m)) s = Panic p) /\ (exists p, expr_comparison (EV u) (GExpr (EV v)) s = Panic p)
         /\ (exists p, expr_comparison (ES (SV x)) (GExpr (EV w)) s = Panic p) /\ (exists p, expr_comparison (ES (SK k)) (GInt z) s = Panic p)).
  { intros NN H. apply andb_prop in H as [H H6]. apply andb_prop in H as [H H5]. apply andb_prop in H as [H H4]. apply andb_prop in H as [H H3]. apply andb_prop in H as [H1 H2].
    exists w_pm', (U NN), (V NN), (W NN), wx, (nofZ 1), 1%Z. split; [apply arrayb_spec; exact H1|]. split; [apply arrayb_spec; exact H2|]. split; [apply arrayb_spec; exact H3|].
    split; [apply arrayb_spec; exact H4|]. split; [apply varb_spec; exact H5|]. intro s. rewrite forallb_forall in H6.
    assert (Hs : In s [SenseLe; SenseGe; SenseEq; SenseOther]) by (destruct s; cbn; auto). specialize (H6 s Hs).
    apply andb_prop in H6 as [H6 H9]. apply andb_prop in H6 as [H6 H8]. apply andb_prop in H6 as [H6 H7]. repeat split; apply panics_spec; assumption. }
  both2 T.
Qed.

(** the constraints (x, y) <= (1) and (x) <= (1, 2), written as struct literals, pass Check *)
Lemma compile_refuted : forall NN, NN = F64Num \/ NN = QNum -> exists (a b : vector_constraint) (s : scalar_constraint) (p : panic),
  valid_array (2, 1) (EV (vc_left a)) /\ valid_array (1, 1) (EV (vc_right a)) /\ valid_array (1, 1) (EV (vc_left b)) /\ valid_array (2, 1) (EV (vc_right b)) /\
  con_check (CV a) = Ok tt /\ con_check (CV b) = Ok tt /\ compile_constraints [CV a] = Panic p /\ compile_constraints [CV b] = Ok [s].
Proof.
  pose (A := fun NN => @mkVC NN (VV [wx; wy]) (VK [nofZ 1]) SenseLe). pose (B := fun NN => @mkVC NN (VV [wx]) (VK [nofZ 1; nofZ 2]) SenseLe).
  assert (T : forall NN, (arrayb (2, 1) (EV (vc_left (A NN))) && arrayb (1, 1) (EV (vc_right (A NN))) && arrayb (1, 1) (EV (vc_left (B NN))) && arrayb (2, 1) (EV (vc_right (B NN)))
     && negb (panics (con_check (CV (A NN)))) && negb (panics (con_check (CV (B NN)))) && panics (compile_constraints [CV (A NN)]) && run_ok (compile_constraints [CV (B NN)]) (fun l => Nat.eqb (length l) 1)) = true ->
    exists (a b : vector_constraint) (s : scalar_constraint) (p : panic),
      valid_array (2, 1) (EV (vc_left a)) /\ valid_array (1, 1) (EV (vc_right a)) /\ valid_array (1, 1) (EV (vc_left b)) /\ valid_array (2, 1) (EV (vc_right b)) /\
      con_check (CV a) = Ok tt /\ con_check (CV b) = Ok tt /\ compile_constraints [CV a] = Panic p /\ compile_constraints [CV b] = Ok [s]).
  { intros NN H. apply andb_prop in H as [H H8]. apply andb_prop in H as [H H7]. apply andb_prop in H as [H H6]. apply andb_prop in H as [H H5]. apply andb_prop in H as [H H4].
    apply andb_prop in H as [H H3]. apply andb_prop in H as [H1 H2]. apply panics_spec in H7 as (p & E7). apply run_ok_spec in H8 as (l & E8 & H8). apply Nat.eqb_eq in H8.
    destruct l as [|s [|? ?]]; try discriminate H8. exists (A NN), (B NN), s, p. repeat (split; [apply arrayb_spec; assumption|]).
    apply negb_true_iff in H5, H6. destruct (con_check (CV (A NN))) as [[]|]; [|discriminate]. destruct (con_check (CV (B NN))) as [[]|]; [|discriminate]. auto. }
  both2 T.
Qed.

(** (x, 2) <= (y, 3): the second row has no variables; and (x) <= (3) *)
Lemma representation_refuted : forall NN, NN = F64Num \/ NN = QNum -> exists (c d : vector_constraint) (w : list var) (p q : panic),
  valid_con (2, 1) (CV c) /\ array_degree 1 (EV (vc_left c)) /\ array_degree 1 (EV (vc_right c)) /\ vc_sense c = SenseLe /\ Forall valid_var w /\ NoDup (map v_id w)
  /\ (forall i, array_occurs i (EV (vc_left c)) \/ array_occurs i (EV (vc_right c)) -> In i (map v_id w)) /\ vc_linear_inequality c [w] = Panic p
  /\ valid_con (1, 1) (CV d) /\ array_degree 1 (EV (vc_left d)) /\ array_degree 1 (EV (vc_right d)) /\ vc_sense d = SenseLe
  /\ (forall i, array_occurs i (EV (vc_left d)) \/ array_occurs i (EV (vc_right d)) -> In i (map v_id w)) /\ vc_linear_inequality d [w] = Panic q.
Proof.
  pose (C := fun NN => @mkVC NN (VM [mkMono (nofZ 2) [1%Z] [wx]; mkMono (nofZ 2) [] []]) (VK [nofZ 1; nofZ 3]) SenseLe). pose (D := fun NN => @mkVC NN (VV [wx]) (VK [nofZ 3]) SenseLe).
  assert (O : forall NN (i : N) e, In e [EV (vc_left (C NN)); EV (vc_right (C NN)); EV (vc_left (D NN)); EV (vc_right (D NN))] -> array_occurs i e -> In i (map v_id [wx (NN := NN)])).
  { intros NN i e He (row & s & Hr & Hs & m & Hm & Hi). cbn in He.
    repeat (destruct He as [<-|He]; [cbn in Hr; repeat (destruct Hr as [<-|Hr]; [cbn in Hs; destruct Hs as [<-|[]]; cbn in Hm; destruct Hm as [<-|[]]; cbn in Hi |- *; tauto|]); destruct Hr|]). destruct He. }
  assert (T : forall NN, (arrayb (2, 1) (EV (vc_left (C NN))) && arrayb (2, 1) (EV (vc_right (C NN))) && arrayb (1, 1) (EV (vc_left (D NN))) && arrayb (1, 1) (EV (vc_right (D NN)))
     && degb 1 (EV (vc_left (C NN))) && degb 1 (EV (vc_right (C NN))) && degb 1 (EV (vc_left (D NN))) && degb 1 (EV (vc_right (D NN))) && varb (wx (NN := NN))
     && panics (vc_linear_inequality (C NN) [[wx]]) && panics (vc_linear_inequality (D NN) [[wx]])) = true ->
    exists (c d : vector_constraint) (w : list var) (p q : panic),
  valid_con (2, 1) (CV c) /\ array_degree 1 (EV (vc_left c)) /\ array_degree 1 (EV (vc_right c)) /\ vc_sense c = SenseLe /\ Forall valid_var w /\ NoDup (map v_id w)
  /\ (forall i, array_occurs i (EV (vc_left c)) \/ array_occurs i (EV (vc_right c)) -> In i (map v_id w)) /\ vc_linear_inequality c [w] = Panic p
  /\ valid_con (1, 1) (CV d) /\ array_degree 1 (EV (vc_left d)) /\ array_degree 1 (EV (vc_right d)) /\ vc_sense d = SenseLe
  /\ (forall i, array_occurs i (EV (vc_left d)) \/ array_occurs i (EV (vc_right d)) -> In i (map v_id w)) /\ vc_linear_inequality d [w] = Panic q).
  { intros NN H. do 10 (apply andb_prop in H as [H ?]).
    repeat match goal with X : panics _ = true |- _ => apply panics_spec in X as (? & ?) end.
    exists (C NN), (D NN), [wx]. do 2 eexists. split; [split; [apply arrayb_spec; assumption|]; split; [apply arrayb_spec; assumption | discriminate]|].
    split; [apply degb_spec; assumption|]. split; [apply degb_spec; assumption|]. split; [reflexivity|]. split; [constructor; [apply varb_spec; assumption | constructor]|].
    split; [constructor; [intros [] | constructor]|]. split; [intros i [X|X]; eapply (O NN i); [|exact X| |exact X]; cbn; auto|]. split; [eassumption|].
    split; [split; [apply arrayb_spec; assumption|]; split; [apply arrayb_spec; assumption | discriminate]|].
    split; [apply degb_spec; assumption|]. split; [apply degb_spec; assumption|]. split; [reflexivity|]. split; [intros i [X|X]; eapply (O NN i); [|exact X| |exact X]; cbn; auto|]. eassumption. }
  both2 T.
Qed.

(** the constraint ((x, y), (z, x)) <= ((1, 2), (3, 4)), and a vector of length 1 *)
Lemma simplified_refuted : forall NN, NN = F64Num \/ NN = QNum -> exists (c : matrix_constraint) (v : vector_constraint) (p q : panic),
  valid_con (2, 2) (CM c) /\ con_simplified (CM c) = Panic p /\ valid_con (1, 1) (CV v) /\ con_simplified (CV v) = Panic q.
Proof.
  pose (C := fun NN => @mkMC NN (MV [[wx; wy]; [wz; wx]]) w_km' SenseLe). pose (D := fun NN => @mkVC NN (VV [wx]) (VK [nofZ 3]) SenseLe).
  assert (T : forall NN, (arrayb (2, 2) (EM (mc_left (C NN))) && arrayb (2, 2) (EM (mc_right (C NN))) && arrayb (1, 1) (EV (vc_left (D NN))) && arrayb (1, 1) (EV (vc_right (D NN)))
     && panics (con_simplified (CM (C NN))) && panics (con_simplified (CV (D NN)))) = true -> exists (c : matrix_constraint) (v : vector_constraint) (p q : panic),
     valid_con (2, 2) (CM c) /\ con_simplified (CM c) = Panic p /\ valid_con (1, 1) (CV v) /\ con_simplified (CV v) = Panic q).
  { intros NN H. do 5 (apply andb_prop in H as [H ?]). repeat match goal with X : panics _ = true |- _ => apply panics_spec in X as (? & ?) end.
    exists (C NN), (D NN). do 2 eexists. split; [split; [apply arrayb_spec; assumption|]; split; [apply arrayb_spec; assumption | discriminate]|]. split; [eassumption|].
    split; [split; [apply arrayb_spec; assumption|]; split; [apply arrayb_spec; assumption | discriminate]|]. eassumption. }
  both2 T.
Qed.
(** (x^2 y, 1) <= (y^2 x, 1) *)
Lemma simplified_feasible_refuted : forall NN, NN = F64Num \/ NN = QNum -> exists (c : vector_constraint) (c' : constraint) (r : assignment),
  valid_con (2, 1) (CV c) /\ con_simplified (CV c) = Ok c' /\ con_sat r (2, 1) c' /\ ~ con_sat r (2, 1) (CV c).
Proof.
  pose (C := fun NN => @mkVC NN r_a r_b SenseLe).
  assert (T : forall NN, (arrayb (2, 1) (EV (vc_left (C NN))) && arrayb (2, 1) (EV (vc_right (C NN)))
     && run_ok (con_simplified (CV (C NN))) (fun c' => nleb (value (at3 2 1 0) (con_left c') 0 0) (value (at3 2 1 0) (con_right c') 0 0) && nleb (value (at3 2 1 0) (con_left c') 1 0) (value (at3 2 1 0) (con_right c') 1 0)
          && sense_eqb (con_sense c') SenseLe)
     && negb (nleb (value (at3 2 1 0) (EV (vc_left (C NN))) 0 0) (value (at3 2 1 0) (EV (vc_right (C NN))) 0 0))) = true -> exists (c : vector_constraint) (c' : constraint) (r : assignment),
     valid_con (2, 1) (CV c) /\ con_simplified (CV c) = Ok c' /\ con_sat r (2, 1) c' /\ ~ con_sat r (2, 1) (CV c)).
  { intros NN H. do 3 (apply andb_prop in H as [H ?]).
    match goal with X : run_ok _ _ = true |- _ => apply run_ok_spec in X as (c' & E & X); apply andb_prop in X as [X S]; apply andb_prop in X as [X1 X2] end.
    exists (C NN), c', (at3 2 1 0). split; [split; [apply arrayb_spec; assumption|]; split; [apply arrayb_spec; assumption | discriminate]|]. split; [exact E|].
    assert (S' : con_sense c' = SenseLe) by (destruct (con_sense c'); [reflexivity|discriminate|discriminate|discriminate]). split.
    - intros i j Hi Hj. cbn in Hi, Hj. rewrite S'. destruct j; [|lia]. destruct i as [|[|i]]; [exact X1 | exact X2 | lia].
    - intro Y. specialize (Y 0%nat 0%nat). cbn [fst snd con_left con_right con_sense] in Y. assert (L1 : (0 < 2)%nat) by lia. assert (L2 : (0 < 1)%nat) by lia. specialize (Y L1 L2).
      match goal with X : negb _ = true |- _ => apply negb_true_iff in X; change (vc_sense (C NN)) with SenseLe in Y; cbn [holds] in Y; congruence end. }
  both2 T.
Qed.
