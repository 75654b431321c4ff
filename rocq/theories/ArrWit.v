(** * Witnesses and refutations for vectors and matrices *)

From Coq Require Import ZArith NArith Bool List Lia.
From Verif Require Import Num Syntax ModelScalar Spec SpecProg Base ScalarNorm Unamb Witness ScalarWit ModelShape ModelArith SpecArr Arr ArrTop ArrPow ArrShape ArrMisc ArrSub ArrFacts.
Import ListNotations.
Local Open Scope num_scope.

(** ** Boolean tests *)
Section Tests.
Context {NN : Num}.

Fixpoint nodupb (l : list N) : bool := match l with [] => true | x :: l' => negb (existsb (N.eqb x) l') && nodupb l' end.
Lemma nodupb_spec l : nodupb l = true -> NoDup l.
Proof.
  induction l as [|x l IH]; cbn; intro H; constructor; apply andb_prop in H as [H1 H2]; [|apply IH; exact H2].
  intro Hx. apply negb_true_iff in H1. assert (existsb (N.eqb x) l = true) by (apply existsb_exists; exists x; split; [exact Hx | apply N.eqb_refl]). congruence.
Qed.
Definition varb (v : var) : bool := negb (nleb (v_upper v) (v_lower v)).
Definition monob (m : Monomial) : bool :=
  Nat.eqb (length (m_exps m)) (length (m_vars m)) && forallb (fun e => Z.leb 1 e) (m_exps m) && nodupb (map v_id (m_vars m)) && forallb varb (m_vars m).
Lemma varb_spec v : varb v = true -> valid_var v.
Proof. intro H. apply negb_true_iff. exact H. Qed.
Lemma monob_spec m : monob m = true -> valid_mono m.
Proof.
  unfold monob. intro H. apply andb_prop in H as [H H4]. apply andb_prop in H as [H H3]. apply andb_prop in H as [H1 H2].
  split; [apply Nat.eqb_eq; exact H1|]. split; [rewrite forallb_forall in H2; apply Forall_forall; intros e He; apply Z.leb_le; exact (H2 e He)|].
  split; [apply nodupb_spec; exact H3|]. rewrite forallb_forall in H4. apply Forall_forall. intros v Hv. apply varb_spec. exact (H4 v Hv).
Qed.
Definition validb (s : scalar) : bool :=
  match s with SK _ => true | SV v => varb v | SM m => monob m | SP p => nonempty p && forallb monob p end.
Lemma validb_spec s : validb s = true -> valid s.
Proof.
  destruct s as [k|v|m|p]; cbn; intro H; [exact I | apply varb_spec; exact H | apply monob_spec; exact H |].
  apply andb_prop in H as [H1 H2]. split; [intros ->; discriminate H1|]. rewrite forallb_forall in H2. apply Forall_forall. intros m Hm. apply monob_spec. exact (H2 m Hm).
Qed.
Definition arrayb (d : nat * nat) (e : expr) : bool :=
  Nat.leb 1 (fst d) && Nat.leb 1 (snd d) && Nat.eqb (length (rows e)) (fst d) && forallb (fun r => Nat.eqb (length r) (snd d)) (rows e) && forallb (forallb validb) (rows e).
Lemma arrayb_spec d e : arrayb d e = true -> valid_array d e.
Proof.
  unfold arrayb. intro H. apply andb_prop in H as [H H5]. apply andb_prop in H as [H H4]. apply andb_prop in H as [H H3]. apply andb_prop in H as [H1 H2].
  apply Nat.leb_le in H1, H2. apply Nat.eqb_eq in H3. rewrite forallb_forall in H4.
  assert (F : Forall (fun r => length r = snd d) (rows e)) by (apply Forall_forall; intros r Hr; apply Nat.eqb_eq; exact (H4 r Hr)).
  split; [exact H1|]. split; [exact H2|]. split; [split; [exact H3 | exact F]|]. intros i j Hi Hj.
  rewrite forallb_forall in H5. unfold entry. apply validb_spec. assert (Hr : In (nth i (rows e) []) (rows e)) by (apply nth_In; lia).
  pose proof (H5 _ Hr) as Hb. rewrite forallb_forall in Hb. apply Hb. apply nth_In. rewrite Forall_forall in F. rewrite (F _ Hr). exact Hj.
Qed.
Definition degb (k : Z) (e : expr) : bool := forallb (forallb (degree_test k)) (rows e).
Lemma degb_spec k e : degb k e = true -> array_degree k e.
Proof.
  unfold degb. rewrite forallb_forall. intros H row s Hr Hs. specialize (H row Hr). rewrite forallb_forall in H. apply degree_test_spec. exact (H s Hs).
Qed.
Definition onlyb (x : N) (e : expr) : bool := forallb (forallb (fun s => forallb (fun m => forallb (N.eqb x) (ids m)) (terms s))) (rows e).
Lemma onlyb_spec x e : onlyb x e = true -> array_variable x e.
Proof.
  unfold onlyb. rewrite forallb_forall. intros H row s Hr Hs. specialize (H row Hr). rewrite forallb_forall in H. specialize (H s Hs). rewrite forallb_forall in H.
  apply Forall_forall. intros m Hm. specialize (H m Hm). rewrite forallb_forall in H. intros i Hi. symmetry. apply N.eqb_eq. exact (H i Hi).
Qed.

(** ** Concrete arrays *)
Definition w_poly (s : scalar) : Polynomial := match s with SP p => p | SM m => [m] | SV v => [var_to_mono v] | SK k => [k_to_mono k] end.
(** (2x + 3y + 7, 2yx + 3x) *)
Definition w_pv : expr := EV (VP [w_poly w_lin; w_poly w_quad2]).
(** (x, y) *)
Definition w_vv : expr := EV (VV [wx; wy]).
Definition w_kv : expr := EV (VK [nofZ 2; nofZ 3]).
(** (2x, 3) *)
Definition w_mv : expr := EV (VM [mkMono (nofZ 2) [1%Z] [wx]; mkMono (nofZ 3) [] []]).
(** (x y; z x) *)
Definition w_vm : expr := EM (MV [[wx; wy]; [wz; wx]]).
Definition w_km : expr := EM (MK [[nofZ 1; nofZ 2]; [nofZ 3; nofZ 4]]).
Definition w_km3 : expr := EM (MK [[nofZ 1; nofZ 2; nofZ 3]; [nofZ 4; nofZ 5; nofZ 6]]).
(** (2x 3; y 1) *)
Definition w_mm : expr := EM (MM [[mkMono (nofZ 2) [1%Z] [wx]; mkMono (nofZ 3) [] []]; [mkMono n1 [1%Z] [wy]; mkMono n1 [] []]]).
(** (2x + 3y + 7, 1; x, 2) *)
Definition w_pm : expr := EM (MP [[w_poly w_lin; [mkMono n1 [] []]]; [[var_to_mono wx]; [mkMono (nofZ 2) [] []]]]).
(** (x^3 + 5, 2x^2; x, 1) *)
Definition w_um : matrix := MP [[w_poly w_uni; w_poly w_uni2]; [[var_to_mono wx]; [mkMono n1 [] []]]].
(** (x^3 + 5, 2x^2) *)
Definition w_uv : expr := EV (VP [w_poly w_uni; w_poly w_uni2]).
End Tests.

Lemma ok_ex {A} (x : res A) : run_ok x (fun _ => true) = true -> exists e, x = Ok e.
Proof. intro H. apply run_ok_spec in H as (e & E & _). exists e. exact E. Qed.
Lemma ok_ex2 {A} (x : res A) (P : Prop) : run_ok x (fun _ => true) = true -> P -> exists e, x = Ok e /\ P.
Proof. intros H HP. apply run_ok_spec in H as (e & E & _). exists e. split; assumption. Qed.
Ltac ar := first [ apply arrayb_spec; vm_compute; reflexivity | apply degb_spec; vm_compute; reflexivity | apply onlyb_spec; vm_compute; reflexivity ].

(** ** The hypotheses are met *)
Section Q.
Local Existing Instance QNum.

Lemma wit_arr_plus : valid_array (2, 1) w_pv /\ valid_array (2, 1) w_vv /\ means (GExpr w_vv) = Some w_vv /\ broadcast w_pv w_vv (2, 1) (2, 1) (2, 1)
  /\ array_degree 2 w_pv /\ array_degree 2 w_vv /\ plus_accepts w_pv (GExpr w_vv) = true /\ variable_matrix_and_numbers w_pv w_vv = false
  /\ exists e, expr_plus w_pv (GExpr w_vv) = Ok e.
Proof.
  split; [ar|]. split; [ar|]. split; [reflexivity|]. split; [left; split; reflexivity|]. split; [ar|]. split; [ar|]. split; [reflexivity|]. split; [reflexivity|].
  apply ok_ex; vm_compute; reflexivity.
Qed.
Lemma wit_arr_unambiguous : unambiguous_exponents (sum_exps w_pv w_vv).
Proof. destruct wit_arr_plus as (V1 & V2 & _ & _ & D1 & D2 & _). exact (sum_exps_degree2 (2, 1) (2, 1) w_pv w_vv V1 V2 D1 D2). Qed.
(** x + (2x, 3): a scalar plus a vector *)
Lemma wit_arr_broadcast : valid_array (1, 1) (ES (SV wx)) /\ valid_array (2, 1) w_mv /\ means (GExpr w_mv) = Some w_mv /\ broadcast (ES (SV wx)) w_mv (1, 1) (2, 1) (2, 1)
  /\ exists e, expr_plus (ES (SV wx)) (GExpr w_mv) = Ok e.
Proof. split; [ar|]. split; [ar|]. split; [reflexivity|]. split; [right; left; split; [exact I | reflexivity]|]. apply ok_ex; vm_compute; reflexivity. Qed.
Lemma wit_arr_variable : valid_array (2, 1) w_uv /\ array_variable 0 w_uv /\ means (GExpr w_uv) = Some w_uv /\ broadcast w_uv w_uv (2, 1) (2, 1) (2, 1)
  /\ exists e, expr_plus w_uv (GExpr w_uv) = Ok e.
Proof. split; [ar|]. split; [ar|]. split; [reflexivity|]. split; [left; split; reflexivity|]. apply ok_ex; vm_compute; reflexivity. Qed.
Lemma wit_arr_vm_numbers : valid_array (2, 2) w_vm /\ valid_array (2, 2) w_km /\ means (GExpr w_km) = Some w_km /\ broadcast w_vm w_km (2, 2) (2, 2) (2, 2)
  /\ plus_accepts w_vm (GExpr w_km) = true /\ variable_matrix_and_numbers w_vm w_km = true /\ no_zero w_vm /\ no_zero w_km.
Proof.
  split; [ar|]. split; [ar|]. split; [reflexivity|]. split; [left; split; reflexivity|]. split; [reflexivity|]. split; [reflexivity|]. split.
  - intros row Hr. cbn in Hr. destruct Hr as [<-|[<-|[]]]; intros [H|[H|[]]]; discriminate H.
  - intros row Hr. cbn in Hr. destruct Hr as [<-|[<-|[]]]; intros [H|[H|[]]]; apply (f_equal (fun s => match s with SK k => neqb k n0 | _ => true end)) in H; vm_compute in H; discriminate H.
Qed.
Lemma wit_arr_mismatch : valid_array (2, 2) w_vm /\ valid_array (2, 3) w_km3 /\ means (GExpr w_km3) = Some w_km3 /\ (2, 2) <> (2, 3) /\ (2, 2) <> (1, 1) /\ (2, 3) <> (1, 1).
Proof. split; [ar|]. split; [ar|]. split; [reflexivity|]. repeat split; discriminate. Qed.

(** (1 2 3; 4 5 6) against (x y; z x): inner dimensions 3 and 2 *)
Lemma wit_mul_mismatch : valid_array (2, 3) w_km3 /\ valid_array (2, 2) w_vm /\ means (GExpr w_vm) = Some w_vm /\ snd (2, 3) <> fst (2, 2) /\ (2, 3) <> (1, 1) /\ (2, 2) <> (1, 1).
Proof. split; [ar|]. split; [ar|]. split; [reflexivity|]. repeat split; discriminate. Qed.
Lemma wit_mul : valid_array (2, 2) w_km /\ valid_array (2, 3) w_km3 /\ means (GExpr w_km3) = Some w_km3 /\ product_dims w_km w_km3 (2, 2) (2, 3) (2, 3)
  /\ multiply_accepts w_km (GExpr w_km3) = true /\ variable_matrix_times_number w_km w_km3 = false /\ monomial_matrix_times_variables w_km w_km3 = false
  /\ exists e, expr_mul w_km (GExpr w_km3) = Ok e.
Proof.
  split; [ar|]. split; [ar|]. split; [reflexivity|]. split; [right; right; repeat split; intros []|]. split; [reflexivity|]. split; [reflexivity|]. split; [reflexivity|].
  apply ok_ex; vm_compute; reflexivity.
Qed.
(** (2x + 3y + 7, 1; x, 2) (x y; z x) *)
Lemma wit_mul_degree2 : valid_array (2, 2) w_pm /\ valid_array (2, 2) w_vm /\ means (GExpr w_vm) = Some w_vm /\ product_dims w_pm w_vm (2, 2) (2, 2) (2, 2)
  /\ array_degree 1 w_pm /\ array_degree 1 w_vm /\ (1 + 1 <= 2)%Z /\ exists e, expr_mul w_pm (GExpr w_vm) = Ok e.
Proof.
  split; [ar|]. split; [ar|]. split; [reflexivity|]. split; [right; right; repeat split; intros []|]. split; [ar|]. split; [ar|]. split; [lia|].
  apply ok_ex; vm_compute; reflexivity.
Qed.
Lemma wit_mul_unambiguous : unambiguous_exponents (product_exps w_pm w_vm).
Proof. destruct wit_mul_degree2 as (V1 & V2 & _ & _ & D1 & D2 & H & _). exact (product_exps_degree2 (2, 2) (2, 2) w_pm w_vm 1 1 V1 V2 D1 D2 H). Qed.
Lemma wit_mul_variable : valid_array (2, 2) (EM w_um) /\ array_variable 0 (EM w_um) /\ product_dims (EM w_um) (EM w_um) (2, 2) (2, 2) (2, 2)
  /\ exists e, expr_mul (EM w_um) (GExpr (EM w_um)) = Ok e.
Proof. split; [ar|]. split; [ar|]. split; [right; right; repeat split; intros []|]. apply ok_ex; vm_compute; reflexivity. Qed.
Lemma wit_mul_number : valid_array (2, 2) w_vm /\ means (GFloat (nofZ 5)) = Some (ES (SK (nofZ 5))) /\ product_dims w_vm (ES (SK (nofZ 5))) (2, 2) (1, 1) (2, 2)
  /\ multiply_accepts w_vm (GFloat (nofZ 5)) = true /\ variable_matrix_times_number w_vm (ES (SK (nofZ 5))) = true /\ nofZ 5 <> n0 /\ nofZ 5 <> n1.
Proof.
  split; [ar|]. split; [reflexivity|]. split; [right; left; split; [exact I | reflexivity]|]. split; [reflexivity|]. split; [reflexivity|].
  split; intro H; apply ex_eqb in H; vm_compute in H; discriminate H.
Qed.

Lemma wit_minus : valid_array (2, 1) w_pv /\ valid_array (2, 1) w_vv /\ means (GExpr w_vv) = Some w_vv /\ broadcast w_pv w_vv (2, 1) (2, 1) (2, 1)
  /\ array_degree 2 w_pv /\ array_degree 2 w_vv /\ minus_accepts w_pv (GExpr w_vv) = true /\ exists e, expr_minus w_pv (GExpr w_vv) = Ok e.
Proof.
  split; [ar|]. split; [ar|]. split; [reflexivity|]. split; [left; split; reflexivity|]. split; [ar|]. split; [ar|]. split; [reflexivity|]. apply ok_ex; vm_compute; reflexivity.
Qed.

Lemma wit_pow : 2 <= 2 /\ valid_array (2, 2) (EM w_um) /\ (0 <= 3)%Z /\ array_variable 0 (EM w_um) /\ exists p, expr_power (EM w_um) 3 = Ok p.
Proof. split; [lia|]. split; [ar|]. split; [lia|]. split; [ar|]. apply ok_ex; vm_compute; reflexivity. Qed.
Lemma wit_pow_unambiguous : unambiguous_exponents (power_exps (EM w_um) (Z.to_nat 3)).
Proof.
  destruct wit_pow as (_ & V & _ & O & _). apply (one_variable_exponents _ 0). intros f i Hf Hi. exact (power_exps_variable (EM w_um) (2, 2) 0 3 f V O Hf i Hi).
Qed.
Lemma wit_vector_power : valid_array (1, 1) (EV (VP [w_poly w_uni])) /\ (0 <= 7)%Z /\ unambiguous_exponents (power_terms (entry (EV (VP [w_poly w_uni])) 0 0) (Z.to_nat 7)).
Proof. split; [ar|]. destruct wit_power as (_ & H & HU). split; [exact H | exact HU]. Qed.
Lemma wit_pow_numeric : 2 <= 2 /\ valid_array (2, 2) w_km /\ (0 <= 5)%Z /\ numeric w_km /\ exists p, expr_power w_km 5 = Ok p.
Proof. split; [lia|]. split; [ar|]. split; [lia|]. split; [apply numeric_dense|]. apply ok_ex; vm_compute; reflexivity. Qed.
Lemma wit_pow_degree2 : 2 <= 2 /\ valid_array (2, 2) w_pm /\ (0 <= 2)%Z /\ array_degree 1 w_pm /\ (0 <= 1)%Z /\ (1 * 2 <= 2)%Z /\ exists p, expr_power w_pm 2 = Ok p.
Proof. split; [lia|]. split; [ar|]. split; [lia|]. split; [ar|]. split; [lia|]. split; [lia|]. apply ok_ex; vm_compute; reflexivity. Qed.
Lemma wit_pow_bad : valid_array (2, 3) w_km3 /\ fst (2, 3) <> snd (2, 3) /\ valid_array (2, 2) w_vm /\ (-1 < 0)%Z /\ valid_array (2, 1) w_pv /\ 2 <> 1.
Proof. split; [ar|]. split; [discriminate|]. split; [ar|]. split; [lia|]. split; [ar | discriminate]. Qed.

Lemma wit_shapes : valid_array (2, 2) w_pm /\ valid_array (2, 1) w_pv /\ valid_array (2, 3) w_km3 /\ valid_array (2, 2) w_vm.
Proof. split; [ar|]. split; [ar|]. split; [ar | ar]. Qed.
Lemma wit_at_out : ~ ((0 <= -1 < Z.of_nat (fst (2, 2)%nat))%Z /\ (0 <= 0 < Z.of_nat (snd (2, 2)%nat))%Z).
Proof. lia. Qed.
Lemma wit_hstack : [w_pv; w_km3; w_vm] <> [] /\ Forall2 valid_array [(2, 1); (2, 3); (2, 2)] [w_pv; w_km3; w_vm] /\ Forall (fun d => fst d = 2) [(2, 1); (2, 3); (2, 2)].
Proof. split; [discriminate|]. split; [repeat (constructor; [ar|]); constructor | repeat constructor]. Qed.
Lemma wit_vstack : [w_pm; w_vm; w_km] <> [] /\ Forall2 valid_array [(2, 2); (2, 2); (2, 2)] [w_pm; w_vm; w_km] /\ Forall (fun d => snd d = 2) [(2, 2); (2, 2); (2, 2)].
Proof. split; [discriminate|]. split; [repeat (constructor; [ar|]); constructor | repeat constructor]. Qed.
Lemma wit_stack_mismatch : Forall2 valid_array [(2, 1); (1, 1)] [w_pv; ES (SV wx)] /\ In (2, 1) [(2, 1); (1, 1)] /\ In (1, 1) [(2, 1); (1, 1)] /\ fst (2, 1) <> fst (1, 1)
  /\ Forall2 valid_array [(2, 3); (2, 2)] [w_km3; w_vm] /\ snd (2, 3) <> snd (2, 2).
Proof.
  split; [repeat (constructor; [ar|]); constructor|]. split; [left; reflexivity|]. split; [right; left; reflexivity|]. split; [discriminate|].
  split; [repeat (constructor; [ar|]); constructor | discriminate].
Qed.
Lemma wit_concretize : [SV wx; SK (nofZ 3); w_lin] <> [] /\ Forall valid [SV wx; SK (nofZ 3); w_lin].
Proof. split; [discriminate|]. repeat apply Forall_cons; try apply Forall_nil; apply validb_spec; vm_compute; reflexivity. Qed.

Lemma wit_substitute_arr : valid_array (2, 1) w_pv /\ valid_var wx /\ valid (SV wz) /\ (forall i j, i < 2 -> j < 1 -> same_environment wx (entry w_pv i j))
  /\ array_degree 2 w_pv /\ degree_at_most 1 (SV wz) /\ (1 <= 1)%Z /\ (2 * 1 <= 2)%Z.
Proof.
  split; [ar|]. split; [apply varb_spec; vm_compute; reflexivity|]. split; [apply validb_spec; vm_compute; reflexivity|]. split.
  { intros i j Hi Hj m w Hm Hw _. destruct i as [|[|i]]; [| |lia]; (destruct j; [|lia]); cbn in Hm; repeat (destruct Hm as [<-|Hm]; [cbn in Hw; repeat (destruct Hw as [<-|Hw]; [reflexivity|]); destruct Hw|]); destruct Hm. }
  split; [ar|]. split; [apply degree_test_spec; vm_compute; reflexivity|]. split; lia.
Qed.
(** the map x -> 2z + 1, y -> 5 on (2x + 3y + 7, 2yx + 3x) *)
Definition w_arr_map : submap := [(wx, ES (SP [mkMono (nofZ 2) [1%Z] [wz]; mkMono n1 [] []])); (wy, ES (SK (nofZ 5)))].
Lemma wit_arr_map : valid_array (2, 1) w_pv /\ ~ is_scalar w_pv /\ valid_map w_arr_map /\ array_degree 2 w_pv
  /\ (forall k t, In (k, ES t) w_arr_map -> degree_at_most 1 t)
  /\ (forall w, array_var w w_pv \/ map_var w w_arr_map -> forall k, In k (map fst w_arr_map) -> v_id w = v_id k -> w = k)
  /\ (forall k t k', In (k, ES t) w_arr_map -> In k' (map fst w_arr_map) -> ~ occurs (v_id k') t).
Proof.
  split; [ar|]. split; [intros []|]. split.
  { split; [cbn; constructor; [intros [H|[]]; apply (f_equal v_id) in H; discriminate H | constructor; [intros [] | constructor]]|].
    intros k e [H|[H|[]]]; injection H as <- <-; (split; [apply varb_spec; vm_compute; reflexivity|]); eexists; (split; [reflexivity | apply validb_spec; vm_compute; reflexivity]). }
  split; [ar|]. split.
  { intros k t [H|[H|[]]]; injection H as <- <-; apply degree_test_spec; vm_compute; reflexivity. }
  split.
  - assert (G : forall w, array_var w w_pv \/ map_var w w_arr_map -> w = wx \/ w = wy \/ w = wz).
    { intros w [(row & s & m & Hr & Hs & Hm & Hw)|[Hk|(k & t & m & Hk & Hm & Hw)]].
      - cbn in Hr. destruct Hr as [<-|[<-|[]]]; destruct Hs as [<-|[]]; cbn in Hm; repeat (destruct Hm as [<-|Hm]; [cbn in Hw; repeat (destruct Hw as [<-|Hw]; [auto|]); destruct Hw|]); destruct Hm.
      - cbn in Hk. destruct Hk as [<-|[<-|[]]]; auto.
      - destruct Hk as [H|[H|[]]]; injection H as <- <-; cbn in Hm; repeat (destruct Hm as [<-|Hm]; [cbn in Hw; repeat (destruct Hw as [<-|Hw]; [auto|]); destruct Hw|]); destruct Hm. }
    intros w Hw k Hk. destruct (G w Hw) as [->|[->| ->]]; cbn in Hk; destruct Hk as [<-|[<-|[]]]; intro H; try reflexivity; vm_compute in H; discriminate H.
  - intros k t k' [H|[H|[]]] Hk' (m & Hm & Hi); injection H as <- <-; cbn in Hk'; destruct Hk' as [<-|[<-|[]]]; cbn in Hm; repeat (destruct Hm as [<-|Hm]; [vm_compute in Hi; intuition discriminate|]); destruct Hm.
Qed.

Lemma wit_arr_collected : valid_array (2, 1) w_pv /\ (forall i, i < 2 -> collected (entry w_pv i 0)) /\ valid_array (2, 2) w_pm /\ (forall i j, i < 2 -> j < 2 -> collected (entry w_pm i j)).
Proof.
  assert (V : valid_array (2, 1) w_pv) by ar. assert (V' : valid_array (2, 2) w_pm) by ar. split; [exact V|]. split.
  { intros i Hi. apply ScalarLin.apart_s_collected; [apply V; cbn; lia|]. destruct i as [|[|i]]; [| |lia]; cbn; repeat constructor. }
  split; [exact V'|]. intros i j Hi Hj. apply ScalarLin.apart_s_collected; [apply V'; cbn; lia|].
  destruct i as [|[|i]]; [| |lia]; (destruct j as [|[|j]]; [| |lia]); cbn; repeat constructor.
Qed.
(** (2x + 3y + 7, x) with respect to (y, x, z) *)
Definition w_lv : vector := VP [w_poly w_lin; [var_to_mono wx]].
Lemma wit_arr_linear : valid_array (2, 1) (EV w_lv) /\ array_degree 1 (EV w_lv)
  /\ (forall i, i < 2 -> collected (entry (EV w_lv) i 0) /\ match entry (EV w_lv) i 0 with SM m => m_vars m <> [] | _ => True end)
  /\ [wy; wx; wz] <> [] /\ Forall valid_var [wy; wx; wz] /\ NoDup (map v_id [wy; wx; wz]) /\ (forall i, array_occurs i (EV w_lv) -> In i (map v_id [wy; wx; wz])).
Proof.
  assert (V : valid_array (2, 1) (EV w_lv)) by ar. split; [exact V|]. split; [ar|]. split.
  { intros i Hi. split; [apply ScalarLin.apart_s_collected; [apply V; cbn; lia|]|]; (destruct i as [|[|i]]; [| |lia]); cbn; repeat constructor. }
  split; [discriminate|]. split; [repeat constructor; apply varb_spec; vm_compute; reflexivity|]. split; [apply nodupb_spec; reflexivity|].
  intros i (row & s & Hr & Hs & m & Hm & Hi). cbn in Hr. destruct Hr as [<-|[<-|[]]]; destruct Hs as [<-|[]]; cbn in Hm; repeat (destruct Hm as [<-|Hm]; [vm_compute in Hi |- *; intuition|]); destruct Hm.
Qed.
Lemma wit_arr_simplify : valid_array (2, 1) w_pv /\ (forall i j, i < 2 -> j < 1 -> unambiguous (fun m => In m (terms (entry w_pv i j)))).
Proof.
  assert (V : valid_array (2, 1) w_pv) by ar. assert (D : array_degree 2 w_pv) by ar. split; [exact V|]. intros i j Hi Hj.
  assert (HV : valid (entry w_pv i j)) by (apply V; assumption). destruct V as (_ & _ & S & _). destruct (entry_in (2, 1) w_pv i j S Hi Hj) as (row & R1 & R2).
  intros m1 m2 H1 H2. apply (ScalarFacts.either_degree2 _ _ HV HV (D row _ R1 R2) (D row _ R1 R2)); left; assumption.
Qed.

Lemma wit_identity : 1 <= 2 /\ (exists I2, identity_matrix 2 = Ok I2 /\ exists e, expr_mul (EM (MK I2)) (GExpr w_pm) = Ok e /\ exists e', expr_mul w_pm (GExpr (EM (MK I2))) = Ok e')
  /\ valid_array (2, 2) w_pm /\ fst (2, 2) = 2 /\ ~ is_scalar w_pm /\ unambiguous_exponents (has_term w_pm)
  /\ exists Z, zeros_matrix (fst (2, 2)) (snd (2, 2)) = Ok Z /\ means (GExpr (EM (MK Z))) = Some (EM (MK Z)) /\ exists e, expr_plus w_pm (GExpr (EM (MK Z))) = Ok e.
Proof.
  assert (V : valid_array (2, 2) w_pm) by ar.
  split; [lia|]. split; [eexists; split; [reflexivity|]; apply ok_ex2; [vm_compute; reflexivity | apply ok_ex; vm_compute; reflexivity]|].
  split; [exact V|]. split; [reflexivity|]. split; [intros []|]. split.
  - apply degree_exponents. apply (has_term_degree (2, 2) w_pm 2 V). ar.
  - eexists. split; [reflexivity|]. split; [reflexivity|]. apply ok_ex; vm_compute; reflexivity.
Qed.
Lemma wit_int : zero_laws /\ plus_accepts (ES (SV wx)) (GInt 3) = true /\ multiply_accepts (ES w_cubic2) (GInt 3) = true.
Proof. split; [apply zero_laws_exact; exact QNum_exact|]. split; reflexivity. Qed.
(** a monomial with two variables and one exponent; an empty polynomial *)
Lemma wit_invalid : expr_check (ES (SM (mkMono n1 [2%Z] [wx; wy]))) = false /\ expr_check (ES (SP [])) = false /\ both_variables (ES (SV wx)) (ES (SP [])) <> true.
Proof. split; [reflexivity|]. split; [reflexivity | discriminate]. Qed.
Lemma wit_from : vector_data (FInts [1; 2; 3]%Z) <> None /\ matrix_data (FRows [[nofZ 1; nofZ 2]; [nofZ 3; nofZ 4]]) <> None /\ matrix_data (FRows [[nofZ 1; nofZ 2]; [nofZ 3]]) = None.
Proof. split; [discriminate|]. split; [discriminate | reflexivity]. Qed.
End Q.

(** ** Refutations *)
Ltac both2 T := apply two_instances; apply T; vm_compute; reflexivity.

Section Ref.
Context {NN : Num}.
(** the vectors (x^2 y, 1) and (y^2 x, 1) *)
Definition r_a : vector := VM [mkMono n1 [2%Z; 1%Z] [wx; wy]; mkMono n1 [] []].
Definition r_b : vector := VM [mkMono n1 [2%Z; 1%Z] [wy; wx]; mkMono n1 [] []].
End Ref.

Lemma array_plus_refuted : forall NN, NN = F64Num \/ NN = QNum -> exists (a b : vector) (e : expr) (r : assignment),
  valid_array (2, 1) (EV a) /\ valid_array (2, 1) (EV b) /\ expr_plus (EV a) (GExpr (EV b)) = Ok e
  /\ (value r e 0 0 =? value r (EV a) 0 0 + value r (EV b) 0 0) = false.
Proof.
  assert (T : forall NN, (arrayb (NN := NN) (2, 1) (EV r_a) && arrayb (2, 1) (EV r_b) && run_ok (expr_plus (EV r_a) (GExpr (EV r_b)))
    (fun e => negb (value (at3 1 2 0) e 0 0 =? value (at3 1 2 0) (EV r_a) 0 0 + value (at3 1 2 0) (EV r_b) 0 0))) = true -> exists (a b : vector) (e : expr) (r : assignment),
    valid_array (2, 1) (EV a) /\ valid_array (2, 1) (EV b) /\ expr_plus (EV a) (GExpr (EV b)) = Ok e
    /\ (value r e 0 0 =? value r (EV a) 0 0 + value r (EV b) 0 0) = false).
  { intros NN H. apply andb_prop in H as [H H3]. apply andb_prop in H as [H1 H2]. apply run_ok_spec in H3 as (e & E & H3). apply negb_true_iff in H3.
    exists r_a, r_b, e, (at3 1 2 0). split; [apply arrayb_spec; exact H1|]. split; [apply arrayb_spec; exact H2|]. split; [exact E | exact H3]. }
  both2 T.
Qed.
Lemma array_plus_length_refuted : forall NN, NN = F64Num \/ NN = QNum -> exists (a b : vector) (e : expr),
  valid_array (1, 1) (EV a) /\ valid_array (2, 1) (EV b) /\ expr_plus (EV a) (GExpr (EV b)) = Ok e /\ valid_array (1, 1) e.
Proof.
  assert (T : forall NN, (arrayb (NN := NN) (1, 1) (EV (VK [nofZ 1])) && arrayb (2, 1) w_vv && run_ok (expr_plus (EV (VK [nofZ 1])) (GExpr w_vv)) (arrayb (1, 1))) = true ->
    exists (a b : vector) (e : expr), valid_array (1, 1) (EV a) /\ valid_array (2, 1) (EV b) /\ expr_plus (EV a) (GExpr (EV b)) = Ok e /\ valid_array (1, 1) e).
  { intros NN H. apply andb_prop in H as [H H3]. apply andb_prop in H as [H1 H2]. apply run_ok_spec in H3 as (e & E & H3).
    exists (VK [nofZ 1]), (VV [wx; wy]), e. split; [apply arrayb_spec; exact H1|]. split; [apply arrayb_spec; exact H2|]. split; [exact E | apply arrayb_spec; exact H3]. }
  both2 T.
Qed.
Definition panics {A} (x : res A) : bool := match x with Ok _ => false | Panic _ => true end.
Lemma panics_spec {A} (x : res A) : panics x = true -> exists p, x = Panic p.
Proof. destruct x; [discriminate|]. intros _. eexists. reflexivity. Qed.
Lemma array_plus_zero_refuted : forall NN, NN = F64Num \/ NN = QNum -> exists (a : matrix) (p : panic),
  valid_array (2, 2) (EM a) /\ plus_accepts (EM a) (GFloat n0) = true /\ expr_plus (EM a) (GFloat n0) = Panic p.
Proof.
  assert (T : forall NN, (arrayb (NN := NN) (2, 2) w_vm && panics (expr_plus w_vm (GFloat n0))) = true -> exists (a : matrix) (p : panic),
    valid_array (2, 2) (EM a) /\ plus_accepts (EM a) (GFloat n0) = true /\ expr_plus (EM a) (GFloat n0) = Panic p).
  { intros NN H. apply andb_prop in H as [H1 H2]. apply panics_spec in H2 as (p & E). exists (MV [[wx; wy]; [wz; wx]]), p. split; [apply arrayb_spec; exact H1|]. split; [reflexivity | exact E]. }
  both2 T.
Qed.
(** VariableMatrix - VariableMatrix and MonomialMatrix - MonomialMatrix *)
Lemma array_minus_refuted : forall NN, NN = F64Num \/ NN = QNum -> exists (a b : matrix) (p q : panic),
  valid_array (2, 2) (EM a) /\ valid_array (2, 2) (EM b) /\ expr_minus (EM a) (GExpr (EM a)) = Panic p /\ expr_minus (EM b) (GExpr (EM b)) = Panic q
  /\ is_variable_matrix (EM a) = true /\ matrix_kind b = 2.
Proof.
  assert (T : forall NN, (arrayb (NN := NN) (2, 2) w_vm && arrayb (2, 2) w_mm && panics (expr_minus w_vm (GExpr w_vm)) && panics (expr_minus w_mm (GExpr w_mm))) = true -> exists (a b : matrix) (p q : panic),
    valid_array (2, 2) (EM a) /\ valid_array (2, 2) (EM b) /\ expr_minus (EM a) (GExpr (EM a)) = Panic p /\ expr_minus (EM b) (GExpr (EM b)) = Panic q
    /\ is_variable_matrix (EM a) = true /\ matrix_kind b = 2).
  { intros NN H. apply andb_prop in H as [H H4]. apply andb_prop in H as [H H3]. apply andb_prop in H as [H1 H2]. apply panics_spec in H3 as (p & E). apply panics_spec in H4 as (q & E').
    unfold w_vm, w_mm in *. do 2 eexists. exists p, q. split; [apply arrayb_spec; exact H1|]. split; [apply arrayb_spec; exact H2|]. split; [exact E|]. split; [exact E'|]. split; reflexivity. }
  both2 T.
Qed.
Lemma array_multiply_refuted : forall NN, NN = F64Num \/ NN = QNum -> exists (a b : matrix) (e : expr) (r : assignment),
  valid_array (2, 2) (EM a) /\ valid_array (2, 2) (EM b) /\ expr_mul (EM a) (GExpr (EM b)) = Ok e
  /\ (value r e 0 0 =? product_value r (EM a) (EM b) 2 0 0) = false.
Proof.
  pose (A := fun NN => @MM NN [[mkMono n1 [2%Z] [wx]; mkMono n1 [2%Z] [wy]]; [mkMono n1 [] []; mkMono n1 [] []]]).
  pose (B := fun NN => @MV NN [[wy; wx]; [wx; wy]]).
  assert (T : forall NN, (arrayb (2, 2) (EM (A NN)) && arrayb (2, 2) (EM (B NN)) && run_ok (expr_mul (EM (A NN)) (GExpr (EM (B NN))))
    (fun e => negb (value (at3 1 2 0) e 0 0 =? product_value (at3 1 2 0) (EM (A NN)) (EM (B NN)) 2 0 0))) = true -> exists (a b : matrix) (e : expr) (r : assignment),
    valid_array (2, 2) (EM a) /\ valid_array (2, 2) (EM b) /\ expr_mul (EM a) (GExpr (EM b)) = Ok e
    /\ (value r e 0 0 =? product_value r (EM a) (EM b) 2 0 0) = false).
  { intros NN H. apply andb_prop in H as [H H3]. apply andb_prop in H as [H1 H2]. apply run_ok_spec in H3 as (e & E & H3). apply negb_true_iff in H3.
    exists (A NN), (B NN), e, (at3 1 2 0). split; [apply arrayb_spec; exact H1|]. split; [apply arrayb_spec; exact H2|]. split; [exact E | exact H3]. }
  both2 T.
Qed.
(** (2) (x, y): inner dimensions 1 and 2; (1 2) (x): inner dimensions 2 and 1 *)
Lemma array_multiply_length_refuted : forall NN, NN = F64Num \/ NN = QNum -> exists (a b c : vector) (m : matrix) (e e' : expr),
  valid_array (1, 1) (EV a) /\ valid_array (2, 1) (EV b) /\ expr_mul (EV a) (GExpr (EV b)) = Ok e /\ valid_array (1, 1) e
  /\ valid_array (1, 2) (EM m) /\ valid_array (1, 1) (EV c) /\ expr_mul (EM m) (GExpr (EV c)) = Ok e' /\ valid_array (1, 1) e'.
Proof.
  assert (T : forall NN, (arrayb (NN := NN) (1, 1) (EV (VK [nofZ 2])) && arrayb (2, 1) w_vv && run_ok (expr_mul (EV (VK [nofZ 2])) (GExpr w_vv)) (arrayb (1, 1))
     && (arrayb (1, 2) (EM (MK [[nofZ 1; nofZ 2]])) && arrayb (1, 1) (EV (VV [wx])) && run_ok (expr_mul (EM (MK [[nofZ 1; nofZ 2]])) (GExpr (EV (VV [wx])))) (arrayb (1, 1)))) = true ->
    exists (a b c : vector) (m : matrix) (e e' : expr),
    valid_array (1, 1) (EV a) /\ valid_array (2, 1) (EV b) /\ expr_mul (EV a) (GExpr (EV b)) = Ok e /\ valid_array (1, 1) e
    /\ valid_array (1, 2) (EM m) /\ valid_array (1, 1) (EV c) /\ expr_mul (EM m) (GExpr (EV c)) = Ok e' /\ valid_array (1, 1) e').
  { intros NN H. apply andb_prop in H as [H H']. apply andb_prop in H as [H H3]. apply andb_prop in H as [H1 H2]. apply run_ok_spec in H3 as (e & E & H3).
    apply andb_prop in H' as [H' H3']. apply andb_prop in H' as [H1' H2']. apply run_ok_spec in H3' as (e' & E' & H3').
    exists (VK [nofZ 2]), (VV [wx; wy]), (VV [wx]), (MK [[nofZ 1; nofZ 2]]), e, e'. 
    split; [apply arrayb_spec; exact H1|]. split; [apply arrayb_spec; exact H2|]. split; [exact E|]. split; [apply arrayb_spec; exact H3|].
    split; [apply arrayb_spec; exact H1'|]. split; [apply arrayb_spec; exact H2'|]. split; [exact E' | apply arrayb_spec; exact H3']. }
  both2 T.
Qed.
(** VariableMatrix times 1.0; MonomialMatrix times VariableVector *)
Lemma array_multiply_panic_refuted : forall NN, NN = F64Num \/ NN = QNum -> exists (a b : matrix) (v : vector) (p q : panic),
  valid_array (2, 2) (EM a) /\ multiply_accepts (EM a) (GFloat n1) = true /\ expr_mul (EM a) (GFloat n1) = Panic p
  /\ valid_array (2, 2) (EM b) /\ valid_array (2, 1) (EV v) /\ multiply_accepts (EM b) (GExpr (EV v)) = true /\ expr_mul (EM b) (GExpr (EV v)) = Panic q.
Proof.
  pose (B := fun NN => @MM NN [[mkMono n1 [2%Z] [wx]; mkMono (nofZ 0) [] []]; [mkMono n1 [] []; mkMono n1 [] []]]).
  assert (T : forall NN, (arrayb (NN := NN) (2, 2) w_vm && arrayb (2, 2) (EM (B NN)) && arrayb (NN := NN) (2, 1) w_vv && panics (expr_mul (NN := NN) w_vm (GFloat n1)) && panics (expr_mul (EM (B NN)) (GExpr w_vv))) = true ->
    exists (a b : matrix) (v : vector) (p q : panic),
    valid_array (2, 2) (EM a) /\ multiply_accepts (EM a) (GFloat n1) = true /\ expr_mul (EM a) (GFloat n1) = Panic p
    /\ valid_array (2, 2) (EM b) /\ valid_array (2, 1) (EV v) /\ multiply_accepts (EM b) (GExpr (EV v)) = true /\ expr_mul (EM b) (GExpr (EV v)) = Panic q).
  { intros NN H. apply andb_prop in H as [H H5]. apply andb_prop in H as [H H4]. apply andb_prop in H as [H H3]. apply andb_prop in H as [H1 H2].
    apply panics_spec in H4 as (p & E). apply panics_spec in H5 as (q & E'). unfold w_vm, w_vv in *. eexists. exists (B NN). eexists. exists p, q.
    split; [apply arrayb_spec; exact H1|]. split; [reflexivity|]. split; [exact E|]. split; [apply arrayb_spec; exact H2|]. split; [apply arrayb_spec; exact H3|]. split; [reflexivity | exact E']. }
  both2 T.
Qed.
(** the 1x1 matrix (3) to the power 1 *)
Lemma array_power_refuted : forall NN, NN = F64Num \/ NN = QNum -> exists (a : matrix) (p : panic),
  valid_array (1, 1) (EM a) /\ expr_power (EM a) 1 = Panic p.
Proof.
  assert (T : forall NN, (arrayb (NN := NN) (1, 1) (EM (MK [[nofZ 3]])) && panics (expr_power (NN := NN) (EM (MK [[nofZ 3]])) 1)) = true ->
    exists (a : matrix) (p : panic), valid_array (1, 1) (EM a) /\ expr_power (EM a) 1 = Panic p).
  { intros NN H. apply andb_prop in H as [H1 H2]. apply panics_spec in H2 as (p & E). exists (MK [[nofZ 3]]), p. split; [apply arrayb_spec; exact H1 | exact E]. }
  both2 T.
Qed.
(** (x+y, 0; 0, 0)^3 *)
Lemma array_power_value_refuted : forall NN, NN = F64Num \/ NN = QNum -> exists (a : matrix) (e : expr) (r : assignment),
  valid_array (2, 2) (EM a) /\ expr_power (EM a) 3 = Ok e /\ (value r e 0 0 =? mat_npow 2 (value r (EM a)) 3 0 0) = false.
Proof.
  pose (A := fun NN => @MP NN [[[var_to_mono wx; var_to_mono wy]; [k_to_mono n0]]; [[k_to_mono n0]; [k_to_mono n0]]]).
  assert (T : forall NN, (arrayb (2, 2) (EM (A NN)) && run_ok (expr_power (EM (A NN)) 3) (fun e => negb (value (at3 1 2 0) e 0 0 =? mat_npow 2 (value (at3 1 2 0) (EM (A NN))) 3 0 0))) = true ->
    exists (a : matrix) (e : expr) (r : assignment), valid_array (2, 2) (EM a) /\ expr_power (EM a) 3 = Ok e /\ (value r e 0 0 =? mat_npow 2 (value r (EM a)) 3 0 0) = false).
  { intros NN H. apply andb_prop in H as [H1 H2]. apply run_ok_spec in H2 as (e & E & H2). apply negb_true_iff in H2. exists (A NN), e, (at3 1 2 0). split; [apply arrayb_spec; exact H1|]. split; [exact E | exact H2]. }
  both2 T.
Qed.

(** x -> y, y -> 2 on the vector (x, x): the two iteration orders of the map give (2, 2) and (y, y) *)
Definition r_map {NN : Num} : submap := [(wx, ES (SV wy)); (wy, ES (SK (nofZ 2)))].
Lemma r_map_valid {NN : Num} : valid_var wx -> valid_var wy -> valid_map r_map.
Proof.
  intros Vx Vy. split; [cbn; constructor; [intros [H|[]]; apply (f_equal v_id) in H; discriminate H | constructor; [intros [] | constructor]]|].
  intros k e [H|[H|[]]]; injection H as <- <-; (split; [assumption|]); eexists; (split; [reflexivity | cbn; trivial]).
Qed.
Lemma array_substitute_map_refuted : forall NN, NN = F64Num \/ NN = QNum -> exists (a : vector) (sm : submap) (e e' : expr) (r : assignment),
  valid_array (2, 1) (EV a) /\ valid_map sm /\ expr_substitute_map (EV a) sm = Ok e /\ expr_substitute_map (EV a) (rev sm) = Ok e'
  /\ (value r e 0 0 =? value r e' 0 0) = false.
Proof.
  assert (T : forall NN, (arrayb (NN := NN) (2, 1) (EV (VV [wx; wx])) && varb wx && varb wy && run_ok (expr_substitute_map (NN := NN) (EV (VV [wx; wx])) r_map)
     (fun e => run_ok (expr_substitute_map (EV (VV [wx; wx])) (rev r_map)) (fun e' => negb (value (at3 1 5 0) e 0 0 =? value (at3 1 5 0) e' 0 0)))) = true ->
    exists (a : vector) (sm : submap) (e e' : expr) (r : assignment),
    valid_array (2, 1) (EV a) /\ valid_map sm /\ expr_substitute_map (EV a) sm = Ok e /\ expr_substitute_map (EV a) (rev sm) = Ok e'
    /\ (value r e 0 0 =? value r e' 0 0) = false).
  { intros NN H. apply andb_prop in H as [H H4]. apply andb_prop in H as [H H3]. apply andb_prop in H as [H1 H2]. apply run_ok_spec in H4 as (e & E & H4). apply run_ok_spec in H4 as (e' & E' & H4).
    apply negb_true_iff in H4. exists (VV [wx; wx]), r_map, e, e', (at3 1 5 0). split; [apply arrayb_spec; exact H1|]. split; [apply r_map_valid; apply varb_spec; assumption|]. split; [exact E|]. split; [exact E' | exact H4]. }
  both2 T.
Qed.

(** ((3)) + 2 keeps 3 + 2 as two terms *)
Lemma array_constant_refuted : forall NN, NN = F64Num \/ NN = QNum -> exists (a : matrix) (g : goval) (m : matrix) (c : list (list num)),
  valid_array (2, 2) (EM a) /\ expr_plus (EM a) g = Ok (EM m) /\ mat_constant m = Ok c /\ (dense_entry c 0 0 =? value (fun _ => n0) (EM m) 0 0) = false.
Proof.
  pose (A := fun NN => @MM NN [[mkMono (nofZ 3) [] []; mkMono n1 [1%Z] [wx]]; [mkMono n1 [] []; mkMono n1 [] []]]).
  assert (T : forall NN, (arrayb (2, 2) (EM (A NN)) && run_ok (expr_plus (EM (A NN)) (GFloat (nofZ 2))) (fun e => match e with EM m => run_ok (mat_constant m) (fun c => negb (dense_entry c 0 0 =? value (fun _ => n0) (EM m) 0 0)) | _ => false end)) = true ->
    exists (a : matrix) (g : goval) (m : matrix) (c : list (list num)),
    valid_array (2, 2) (EM a) /\ expr_plus (EM a) g = Ok (EM m) /\ mat_constant m = Ok c /\ (dense_entry c 0 0 =? value (fun _ => n0) (EM m) 0 0) = false).
  { intros NN H. apply andb_prop in H as [H1 H2]. apply run_ok_spec in H2 as (e & E & H2). destruct e as [|?|m]; [discriminate H2 | discriminate H2|]. apply run_ok_spec in H2 as (c & Ec & H2). apply negb_true_iff in H2.
    exists (A NN), (GFloat (nofZ 2)), m, c. split; [apply arrayb_spec; exact H1|]. split; [exact E|]. split; [exact Ec | exact H2]. }
  both2 T.
Qed.

(** a variable whose bounds are crossed *)
Definition r_bad {NN : Num} : var := mkVar 7 (nofZ 2) (nofZ 1) 67 Strings.String.EmptyString (Some 0%N).
Lemma operand_checked_refuted : forall NN, NN = F64Num \/ NN = QNum -> exists (v w : var) (e : expr),
  expr_check (ES (SV v)) = true /\ expr_check (ES (SV w)) = false /\ expr_plus (ES (SV v)) (GExpr (ES (SV w))) = Ok e.
Proof.
  assert (T : forall NN, (expr_check (NN := NN) (ES (SV wx)) && negb (expr_check (NN := NN) (ES (SV r_bad))) && run_ok (expr_plus (NN := NN) (ES (SV wx)) (GExpr (ES (SV r_bad)))) (fun _ => true)) = true ->
    exists (v w : var) (e : expr), expr_check (ES (SV v)) = true /\ expr_check (ES (SV w)) = false /\ expr_plus (ES (SV v)) (GExpr (ES (SV w))) = Ok e).
  { intros NN H. apply andb_prop in H as [H H3]. apply andb_prop in H as [H1 H2]. apply run_ok_spec in H3 as (e & E & _). apply negb_true_iff in H2. exists wx, r_bad, e. auto. }
  both2 T.
Qed.
Lemma int_refuted : forall NN, NN = F64Num \/ NN = QNum -> exists (s : scalar) (z : Z) (e e' : expr) (p q : panic),
  valid s /\ expr_plus (ES s) (GInt z) = Panic p /\ expr_plus (ES s) (GExpr (ES (SK (nofZ z)))) = Ok e
  /\ expr_mul (ES s) (GInt z) = Panic q /\ expr_mul (ES s) (GExpr (ES (SK (nofZ z)))) = Ok e'.
Proof.
  assert (T : forall NN, (validb (NN := NN) w_lin && panics (expr_plus (NN := NN) (ES w_lin) (GInt 3)) && run_ok (expr_plus (NN := NN) (ES w_lin) (GExpr (ES (SK (nofZ 3))))) (fun _ => true)
     && panics (expr_mul (NN := NN) (ES w_lin) (GInt 3)) && run_ok (expr_mul (NN := NN) (ES w_lin) (GExpr (ES (SK (nofZ 3))))) (fun _ => true)) = true ->
    exists (s : scalar) (z : Z) (e e' : expr) (p q : panic),
    valid s /\ expr_plus (ES s) (GInt z) = Panic p /\ expr_plus (ES s) (GExpr (ES (SK (nofZ z)))) = Ok e
    /\ expr_mul (ES s) (GInt z) = Panic q /\ expr_mul (ES s) (GExpr (ES (SK (nofZ z)))) = Ok e').
  { intros NN H. apply andb_prop in H as [H H5]. apply andb_prop in H as [H H4]. apply andb_prop in H as [H H3]. apply andb_prop in H as [H1 H2].
    apply run_ok_spec in H3 as (e & E & _). apply run_ok_spec in H5 as (e' & E' & _). apply panics_spec in H2 as (p & P). apply panics_spec in H4 as (q & Q).
    exists w_lin, 3%Z, e, e', p, q. split; [apply validb_spec; exact H1|]. auto. }
  both2 T.
Qed.
