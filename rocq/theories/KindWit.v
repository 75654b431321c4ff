(** * Witnesses and refutations for the kinds of results *)

From Coq Require Import ZArith NArith Bool List Lia.
From Verif Require Import Num Syntax ModelScalar ModelShape ModelArith Spec SpecArr SpecKind Base ScalarValid Witness ScalarWit ArrWit.
Import ListNotations.
Local Open Scope num_scope.

Section W.
Context {NN : Num}.
Definition k_row : expr := EM (MK [[nofZ 1; nofZ 2]]).
Definition k_column : expr := EM (MK [[nofZ 1]; [nofZ 2]]).
Definition p_column : expr := EM (MP [[[var_to_mono wx; mkMono n1 [] []]]; [[var_to_mono wy; mkMono n1 [] []]]]).
Definition kindb (k : nat) (r : res expr) : bool := match r with Ok (ES _) => Nat.eqb k 0 | Ok (EV _) => Nat.eqb k 1 | Ok (EM _) => Nat.eqb k 2 | _ => false end.
End W.
(** a row of numbers times a vector of variables; the sum and the difference of a vector and a scalar; a column beside a column; a row on a row *)
Lemma wit_kind (NN := QNum) : valid_array (1, 2)%nat k_row /\ valid_array (2, 1)%nat w_vv /\ means (GExpr w_vv) = Some w_vv /\ product_dims k_row w_vv (1, 2)%nat (2, 1)%nat (1, 1)%nat /\ (exists e, expr_mul k_row (GExpr w_vv) = Ok e)
  /\ valid_array (1, 1)%nat (ES (SV wx)) /\ broadcast w_vv (ES (SV wx)) (2, 1)%nat (1, 1)%nat (2, 1)%nat /\ (exists e, expr_plus w_vv (GExpr (ES (SV wx))) = Ok e) /\ (exists e, expr_minus w_vv (GExpr (ES (SV wx))) = Ok e)
  /\ Forall2 valid_array [(2, 1)%nat; (2, 2)%nat] [w_vv; w_vm] /\ (exists e, hstack [w_vv; w_vm] = Ok e) /\ (exists e, vstack [w_vm; w_vm] = Ok e) /\ natural (2, 2)%nat w_vm /\ (exists t, expr_transpose w_vm = Ok t).
Proof.
  assert (X : forall r : res expr, match r with Ok _ => true | _ => false end = true -> exists e, r = Ok e) by (intros [e|] H; [exists e; reflexivity | discriminate]).
  split; [apply arrayb_spec; vm_compute; reflexivity|]. split; [apply arrayb_spec; vm_compute; reflexivity|]. split; [reflexivity|]. split; [right; right; split; [intros []|split; [intros []|split; reflexivity]]|]. split; [apply X; vm_compute; reflexivity|].
  split; [apply arrayb_spec; vm_compute; reflexivity|]. split; [right; right; split; [exact I | reflexivity]|]. split; [apply X; vm_compute; reflexivity|]. split; [apply X; vm_compute; reflexivity|].
  split; [apply Forall2_cons; [|apply Forall2_cons; [|apply Forall2_nil]]; apply arrayb_spec; vm_compute; reflexivity|]. split; [apply X; vm_compute; reflexivity|]. split; [apply X; vm_compute; reflexivity|]. split; [cbn; lia|]. apply X; vm_compute; reflexivity.
Qed.
Lemma wit_kind_rows (NN := QNum) : [SV wx; SK (nofZ 3); w_lin] <> [] /\ Forall valid [SV wx; SK (nofZ 3); w_lin] /\ (exists e, concretize_slice [SV wx; SK (nofZ 3); w_lin] = Ok e)
  /\ Forall (Forall valid) [[SV wx]; [w_lin]] /\ (exists e, concretize_rows [[SV wx]; [w_lin]] = Ok e).
Proof.
  assert (X : forall r : res expr, match r with Ok _ => true | _ => false end = true -> exists e, r = Ok e) by (intros [e|] H; [exists e; reflexivity | discriminate]).
  split; [discriminate|]. split; [repeat (apply Forall_cons; [apply validb_spec; vm_compute; reflexivity|]); apply Forall_nil|]. split; [apply X; vm_compute; reflexivity|].
  split; [apply Forall_cons; [|apply Forall_cons; [|apply Forall_nil]]; (apply Forall_cons; [apply validb_spec; vm_compute; reflexivity | apply Forall_nil])|]. apply X; vm_compute; reflexivity.
Qed.
(** the transpose of a row is a matrix with one column; twice a column of numbers is a matrix, twice a column of polynomials a vector; and so for the sum with a number *)
Lemma kind_refuted : forall NN, NN = F64Num \/ NN = QNum -> exists a b c t e f u v : expr, valid_array (1, 2)%nat a /\ natural (1, 2)%nat a /\ expr_transpose a = Ok t /\ valid_array (2, 1)%nat t /\ is_matrix t
  /\ valid_array (2, 1)%nat b /\ valid_array (2, 1)%nat c /\ is_matrix b /\ is_matrix c /\ expr_mul b (GFloat (nofZ 2)) = Ok e /\ expr_mul c (GFloat (nofZ 2)) = Ok f /\ is_matrix e /\ is_vector f
  /\ expr_plus b (GFloat (nofZ 2)) = Ok u /\ expr_plus c (GFloat (nofZ 2)) = Ok v /\ is_matrix u /\ is_vector v.
Proof.
  assert (K : forall (NN : Num) (r : res expr) k, kindb k r = true -> exists e, r = Ok e /\ match k with 0 => is_scalar e | 1 => is_vector e | 2 => is_matrix e | _ => False end).
  { intros NN r k H. destruct r as [[s|v|m]|]; try discriminate; cbn in H; apply Nat.eqb_eq in H as ->; eexists; split; try reflexivity; exact I. }
  assert (T : forall NN : Num, arrayb (1, 2)%nat k_row && arrayb (2, 1)%nat k_column && arrayb (2, 1)%nat p_column && match expr_transpose k_row with Ok t => arrayb (2, 1)%nat t | _ => false end && kindb 2 (expr_transpose k_row)
    && kindb 2 (expr_mul k_column (GFloat (nofZ 2))) && kindb 1 (expr_mul p_column (GFloat (nofZ 2))) && kindb 2 (expr_plus k_column (GFloat (nofZ 2))) && kindb 1 (expr_plus p_column (GFloat (nofZ 2))) = true ->
    exists a b c t e f u v : expr, valid_array (1, 2)%nat a /\ natural (1, 2)%nat a /\ expr_transpose a = Ok t /\ valid_array (2, 1)%nat t /\ is_matrix t
    /\ valid_array (2, 1)%nat b /\ valid_array (2, 1)%nat c /\ is_matrix b /\ is_matrix c /\ expr_mul b (GFloat (nofZ 2)) = Ok e /\ expr_mul c (GFloat (nofZ 2)) = Ok f /\ is_matrix e /\ is_vector f
    /\ expr_plus b (GFloat (nofZ 2)) = Ok u /\ expr_plus c (GFloat (nofZ 2)) = Ok v /\ is_matrix u /\ is_vector v).
  { intros NN H. repeat (apply andb_prop in H as [H ?]). exists k_row, k_column, p_column.
    destruct (K _ _ 2%nat H4) as (t & Et & Mt). destruct (K _ _ 2%nat H3) as (e & Ee & Me). destruct (K _ _ 1%nat H2) as (f & Ef & Mf). destruct (K _ _ 2%nat H1) as (u & Eu & Mu). destruct (K _ _ 1%nat H0) as (v & Ev & Mv).
    exists t, e, f, u, v. rewrite Et in H5. split; [apply arrayb_spec; exact H|]. split; [cbn; lia|]. split; [exact Et|]. split; [apply arrayb_spec; exact H5|]. split; [exact Mt|]. split; [apply arrayb_spec; exact H7|]. split; [apply arrayb_spec; exact H6|]. split; [exact I|]. split; [exact I|]. auto 10. }
  intros NN [-> | ->]; apply T; vm_compute; reflexivity.
Qed.
