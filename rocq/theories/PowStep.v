(** * Powers are computed one factor after the other *)

From Coq Require Import ZArith NArith Bool List Lia.
From Verif Require Import Num Syntax ModelScalar Spec Base ScalarValid Eval ScalarOps ScalarMore ScalarNorm ScalarFacts ModelShape ModelArith SpecArr SpecCollect SpecSub SpecMat Arr ArrPlus ArrPow ArrTop CollectMat.
Import ListNotations.

Section PowStep.
Context {NN : Num}.
Local Open Scope num_scope.

Lemma power_loop_snoc a n : forall s, power_loop a (S n) s = (r <- power_loop a n s ;; scalar_mul r a).
Proof.
  induction n as [|n IH]; intro s; cbn [power_loop bind].
  - destruct (scalar_mul s a); reflexivity.
  - destruct (scalar_mul s a) as [r|]; [|reflexivity]. cbn [bind]. exact (IH r).
Qed.
Lemma power_step (a : scalar) (z : Z) : valid a -> (0 <= z)%Z -> exists s, scalar_power a z = Ok s /\ scalar_power a (z + 1) = scalar_mul s a.
Proof.
  intros V Hz. destruct (power_total a z V Hz) as (s & E & _). exists s. split; [exact E|]. unfold scalar_power in *. rewrite (valid_check a V) in *. cbn [check bind] in *.
  apply Z.leb_le in Hz as H1. rewrite H1 in E. cbn [check bind] in E. assert (H2 : (0 <=? z + 1)%Z = true) by (apply Z.leb_le; lia). rewrite H2. cbn [check bind].
  replace (Z.to_nat (z + 1)) with (S (Z.to_nat z)) by lia. rewrite power_loop_snoc, E. reflexivity.
Qed.

Lemma mat_power_loop_snoc me n : forall out, mat_power_loop me (S n) out = (p <- mat_power_loop me n out ;; e <- mat_mul p (GExpr (EM me)) ;; as_matrix e).
Proof.
  induction n as [|n IH]; intro out; cbn [mat_power_loop bind].
  - destruct (mat_mul out (GExpr (EM me))) as [e|]; [|reflexivity]. cbn [bind]. destruct (as_matrix e); reflexivity.
  - destruct (mat_mul out (GExpr (EM me))) as [e|]; [|reflexivity]. cbn [bind]. destruct (as_matrix e) as [m|]; [|reflexivity]. cbn [bind]. exact (IH m).
Qed.
Lemma matrix_power_step (n : nat) (me : matrix) (z : Z) : 2 <= n -> valid_array (n, n) (EM me) -> (0 <= z)%Z ->
  exists p, expr_power (EM me) z = Ok (EM p) /\ expr_power (EM me) (z + 1) = expr_mul (EM p) (GExpr (EM me)).
Proof.
  intros Hn V Hz. assert (Hz' : (0 <= z + 1)%Z) by lia. destruct (mat_power_ok n me z Hn V Hz) as (p & E & _). destruct (mat_power_ok n me (z + 1) Hn V Hz') as (p' & E' & _).
  exists p. cbn [expr_power expr_mul]. rewrite E. split; [reflexivity|]. rewrite E'. cbn [as_EM bind]. revert E E'. unfold mat_power.
  destruct (check (mat_check me) PCheck); [|discriminate]. cbn [bind]. destruct (mat_dims me) as [d|]; [|discriminate]. cbn [bind]. destruct (check (fst d =? snd d)%nat POther); [|discriminate]. cbn [bind].
  apply Z.leb_le in Hz. rewrite Hz. apply Z.leb_le in Hz'. rewrite Hz'. cbn [check bind]. destruct (identity_matrix (fst d)) as [i|]; [|discriminate]. cbn [bind].
  destruct (k_plus_any n0 (GDense i)) as [e|]; [|discriminate]. cbn [bind]. destruct (as_matrix e) as [o|]; [|discriminate]. cbn [bind]. intro E.
  apply Z.leb_le in Hz. replace (Z.to_nat (z + 1)) with (S (Z.to_nat z)) by lia. rewrite mat_power_loop_snoc, E. cbn [bind].
  destruct (mat_mul p (GExpr (EM me))) as [[s|v|m]|]; try discriminate. cbn [bind as_matrix]. intros [= ->]. reflexivity.
Qed.

(** the power 0 *)
Lemma matrix_power_zero (n : nat) (me : matrix) : ExactNum NN \/ NN = F64Num -> valid_array (n, n) (EM me) ->
  exists p, expr_power (EM me) 0 = Ok p /\ valid_array (n, n) p /\ forall i j, i < n -> j < n -> entry p i j = SK (if Nat.eqb i j then n1 else n0).
Proof.
  intros HN V. assert (HS : n0 * n1 + n0 = n0 /\ n0 * n1 + n1 = n1).
  { destruct HN as [EX| ->]; [|split; vm_compute; reflexivity]. pose proof (@ex_field NN EX) as EF. destruct EF as [ER _ _ _]. destruct ER. split.
    - rewrite Rmul_comm, Rmul_1_l. apply Radd_0_l.
    - rewrite Rmul_comm, Rmul_1_l. apply Radd_0_l. }
  clear HN. destruct HS as [S0 S1]. pose proof V as (N1 & _). cbn [fst] in N1.
  destruct (valid_array_check _ _ V) as [C D]. cbn [expr_check expr_dims] in C, D. cbn [expr_power]. unfold mat_power. rewrite C. cbn [check bind].
  rewrite D. cbn [bind fst snd]. rewrite Nat.eqb_refl. cbn [check bind Z.leb Z.compare Z.to_nat mat_power_loop].
  destruct (identity_matrix_grid n N1) as (l & El & Hl). rewrite El. cbn [bind].
  assert (G : grid (n, n) (fun i j s => valid s /\ s = SK (if Nat.eqb i j then n1 else n0)) (mat_rows (MK l))).
  { cbn [mat_rows]. apply grid_map. eapply grid_impl; [|exact Hl]. intros i j k _ _ ->. split; [exact I | reflexivity]. }
  assert (HV : forall i j s, valid s /\ s = SK (if Nat.eqb i j then n1 else n0) -> valid s) by (intros i j s [X _]; exact X).
  unfold k_plus_any. cbn [as_expr expr_check]. rewrite (mat_check_grid (n, n) _ (MK l) N1 HV G). cbn [check bind mat_plus]. unfold k_mat_plus.
  assert (O : operand_check dims_add (mat_dims (MK l)) (GExpr (ES (SK n0))) = Ok tt).
  { unfold operand_check. cbn [as_expr expr_check scalar_check check bind]. rewrite (mat_dims_grid (n, n) _ (MK l) N1 HV G). cbn. unfold dims_add. rewrite ?orb_true_r. reflexivity. }
  rewrite O. cbn [bind]. rewrite (rows_dims_grid (n, n) _ l N1 Hl). cbn [bind]. unfold k_mat_plus_float. rewrite (rows_dims_grid (n, n) _ l N1 Hl). cbn [bind fst snd].
  rewrite (ones_matrix_ok (n, n) N1 N1). cbn [bind fst snd]. rewrite (k_to_dense_grid (n, n) _ l N1 N1 Hl). cbn [bind]. unfold simplify_result. cbn [bind expr_simplified mat_simplified as_EM as_matrix].
  match goal with |- context [EM (MK ?r)] => assert (GR : grid (n, n) (fun i j k => k = if Nat.eqb i j then n1 else n0) r) end.
  { pose proof (grid_repeat (n, n) (fun _ _ x => x = n1) n1 (fun _ _ _ _ => eq_refl)) as Ho. cbn [fst snd] in Ho. set (o := repeat (repeat n1 n) n) in *. clearbody o.
    destruct Hl as [Ll Hl]. destruct Ho as [Lo Ho]. split; [rewrite map_length, combine_length; cbn in *; lia|]. intros i Hi.
    destruct (Hl i Hi) as (row & Er & Lr & Hr). destruct (Ho i Hi) as (orow & Eo & Lor & Hor).
    eexists. split; [rewrite nth_error_map, nth_error_combine, Eo, Er; reflexivity|]. cbn [fst snd].
    split; [rewrite map_length, combine_length; cbn in *; lia|]. intros j Hj. destruct (Hr j Hj) as (k & Ek & ->). destruct (Hor j Hj) as (o1 & Eo1 & ->).
    eexists. split; [rewrite nth_error_map, nth_error_combine, Eo1, Ek; reflexivity|]. cbn [fst snd]. destruct (Nat.eqb i j); assumption. }
  eexists. split; [reflexivity|].
  assert (A : arr (n, n) (fun i j s => valid s /\ s = SK (if Nat.eqb i j then n1 else n0)) (EM (MK (map (fun or => map (fun ox => n0 * fst ox + snd ox) (combine (fst or) (snd or))) (combine (repeat (repeat n1 n) n) l))))).
  { apply arr_EM. cbn [mat_rows]. apply grid_map. eapply grid_impl; [|exact GR]. intros i j k _ _ ->. split; [exact I | reflexivity]. }
  split; [exact (arr_valid (n, n) _ _ N1 N1 A HV)|]. intros i j Hi Hj. exact (proj2 (arr_entry (n, n) _ _ i j A Hi Hj)).
Qed.
End PowStep.

Section PowExact.
Context {NN : Num} {EX : ExactNum NN}.
Lemma matrix_power_exact (n : nat) (me : matrix) (z : Z) : 2 <= n -> valid_array (n, n) (EM me) -> (0 <= z)%Z ->
  exists p q, expr_power (EM me) z = Ok (EM p) /\ expr_power (EM me) (z + 1) = Ok (EM q)
   /\ forall i j, i < n -> j < n -> terms (entry (EM q) i j) = terms (row_times_column (EM p) (EM me) n i j).
Proof.
  intros Hn V Hz. destruct (matrix_power_step n me z Hn V Hz) as (p & E & E1). destruct (array_power_total n me z Hn V Hz) as (p' & E' & Vp). rewrite E in E'. injection E' as <-.
  destruct (product_exact (EM p) (EM me) (n, n) (n, n) Vp V eq_refl ltac:(destruct p; exact I)) as (e & Ee & Ve & He). rewrite Ee in E1.
  destruct (big_is_matrix (n, n) _ e Hn Hn (valid_array_arr _ _ Ve)) as [q ->]. exists p, q. split; [exact E|]. split; [exact E1 | exact He].
Qed.
End PowExact.
