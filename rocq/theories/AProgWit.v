(** * Programs over vectors and matrices: theorems in final form, witnesses and refutations *)

From Coq Require Import ZArith NArith Bool List Lia Ring.
From Verif Require Import Num Syntax ModelScalar Spec SpecProg Base ScalarValid Eval ScalarOps ScalarNorm Unamb ScalarLin ScalarFacts Witness ScalarWit ModelSC SCProofs SCWit ModelShape ModelArith SpecArr Arr ArrPlus ArrMul ArrMulMat ArrTop ArrPow ArrShape ArrMisc ArrSub ArrFacts
  ArrWit ModelConstr SpecCon ConProofs ConVec ConMore SpecAProg ModelAProg AProgProofs AProgTop AffineProofs.
Import ListNotations.
Local Open Scope num_scope.

Section Final.
Context {NN : Num}.

(** A.Multiply(x) *)
Lemma linear_map_final m n A xs : 2 <= m -> 1 <= n -> dense_shape (m, n) A -> length xs = n -> Forall valid_var xs ->
  exists v, expr_mul (EM (MK A)) (GExpr (EV (VV xs))) = Ok (EV v) /\ valid_array (m, 1) (EV v) /\ array_degree 1 (EV v)
   /\ (ExactNum NN -> forall r i, i < m -> value r (EV v) i 0 = sum_to (fun j => at_ij A i j * var_at r xs j) n).
Proof. intros Hm Hn HA L HV. destruct (linear_map_ok m n A xs Hm Hn HA L HV) as (v & E & V & D & _ & _ & H). exists v. auto. Qed.

(** A.Multiply(x).Plus(b) *)
Lemma affine_map_final m n A xs b : 2 <= m -> 1 <= n -> dense_shape (m, n) A -> length xs = n -> Forall valid_var xs -> length b = m ->
  exists v w, expr_mul (EM (MK A)) (GExpr (EV (VV xs))) = Ok (EV v) /\ expr_plus (EV v) (GExpr (EV (VK b))) = Ok (EV w) /\ valid_array (m, 1) (EV w) /\ array_degree 1 (EV w)
   /\ (ExactNum NN -> forall r i, i < m -> value r (EV w) i 0 = sum_to (fun j => at_ij A i j * var_at r xs j) n + nth i b n0).
Proof.
  intros Hm Hn HA L HV Lb. destruct (linear_map_ok m n A xs Hm Hn HA L HV) as (v & E & V & D & _ & O & H).
  destruct (affine_plus_ok m xs v b _ Hm Lb V D O H) as (w & Ew & Vw & Dw & _ & _ & Hw). exists v, w. auto.
Qed.

Lemma compare_numbers m v b s : 2 <= m -> valid_array (m, 1) (EV v) -> length b = m -> s <> SenseOther ->
  expr_comparison (EV v) (GExpr (EV (VK b))) s = Ok (CV (mkVC v (VK b) s)) /\ valid_con (m, 1) (CV (mkVC v (VK b) s))
  /\ array_degree 1 (EV (VK b)) /\ array_collected (EV (VK b)) /\ forall xs, occurs_in xs (EV (VK b)).
Proof.
  intros Hm V Lb HS. assert (Vb : valid_array (m, 1) (EV (VK b))) by (apply const_vec_valid; [lia | exact Lb]). split.
  - cbn [expr_comparison]. unfold vec_comparison. rewrite (proj1 (valid_array_check _ _ V) : vec_check v = true). cb.
    rewrite (comparison_check_ok (EV v) (GExpr (EV (VK b))) (EV (VK b)) _ _ s V Vb eq_refl (or_introl eq_refl)). cb. unfold vec_comparison_right.
    destruct (valid_vec_dims _ _ V) as (_ & L & _). rewrite L. cb. destruct v; reflexivity.
  - split; [split; [exact V | split; [exact Vb | exact HS]]|]. split; [|split].
    + intros row a R1 R2. cbn [rows] in R1. apply in_map_iff in R1. destruct R1 as (k & <- & _). destruct R2 as [<-|[]]. repeat constructor; cbn; lia.
    + intros row a R1 R2. cbn [rows] in R1. apply in_map_iff in R1. destruct R1 as (k & <- & _). destruct R2 as [<-|[]]. intros l1 m1 l2 m2 l3 E. cbn [terms] in E.
      apply (f_equal (@length _)) in E. rewrite !app_length in E. cbn [length] in E. rewrite app_length in E. cbn [length] in E. lia.
    + intros xs i (row & a & R1 & R2 & mm & M1 & M2). cbn [rows] in R1. apply in_map_iff in R1. destruct R1 as (k & <- & _). destruct R2 as [<-|[]]. destruct M1 as [<-|[]]. destruct M2.
Qed.

Section Exact.
Context (EX : ExactNum NN).
Add Ring wring : (@num_ring NN EX).

Lemma minus_list_nth c b m i : length c = m -> length b = m -> i < m -> nth i (minus_list c b) n0 = nth i c n0 - nth i b n0.
Proof.
  intros Lc Lb Hi. unfold minus_list. rewrite (nth_indep _ n0 ((fun xy => fst xy - snd xy) (n0, n0))) by (rewrite map_length, combine_length; lia).
  rewrite (map_nth (fun xy => fst xy - snd xy) (combine c b) (n0, n0) i). rewrite combine_nth by lia. reflexivity.
Qed.

(** the constraint A x + b (sense) c *)
Lemma affine_con m n A xs b v c s : 2 <= m -> dense_shape (m, n) A -> length xs = n -> Forall valid_var xs -> NoDup (map v_id xs) -> no_zero_row m n A -> length b = m -> length c = m -> s <> SenseOther ->
  valid_array (m, 1) (EV v) -> array_degree 1 (EV v) -> array_collected (EV v) -> occurs_in xs (EV v) ->
  (forall r i, i < m -> value r (EV v) i 0 = sum_to (fun j => at_ij A i j * var_at r xs j) n + nth i b n0) ->
  exists k, expr_comparison (EV v) (GExpr (EV (VK c))) s = Ok (CV k) /\
   match s with
   | SenseLe => vc_linear_inequality k [xs] = Ok (A, minus_list c b)
   | SenseGe => vc_linear_inequality k [xs] = Ok (map (map (fun x => - x)) A, map (fun x => - x) (minus_list c b))
   | _ => vc_linear_equality k [xs] = Ok (A, minus_list c b)
   end.
Proof.
  intros Hm HA L HV HN HZ Lb Lc HS V D C O H. subst n. destruct (compare_numbers m v c s Hm V Lc HS) as (E & VC & Dc & Cc & Oc). exists (mkVC v (VK c) s). split; [exact E|].
  assert (Lq : length (minus_list c b) = m) by (unfold minus_list; rewrite map_length, combine_length; lia).
  assert (HX : forall r i, i < m -> value r (EV v) i 0 - value r (EV (VK c)) i 0 = sum_to (fun j => at_ij A i j * var_at r xs j) (length xs) - nth i (minus_list c b) n0).
  { intros r i Hi. rewrite H by exact Hi. rewrite const_vec_value by lia. rewrite (minus_list_nth c b m) by assumption. ring. }
  destruct s; try (destruct (HS eq_refl)).
  all: match goal with |- vc_linear_equality _ _ = _ => apply (exact_equality m) | |- _ = Ok (map _ _, _) => apply (exact_inequality_ge m) | _ => apply (exact_inequality m) end.
  all: try assumption; try reflexivity; try exact (Oc xs); try exact HS.
Qed.

Lemma affine_constraint m n A xs b c s : 2 <= m -> dense_shape (m, n) A -> length xs = n -> Forall valid_var xs -> NoDup (map v_id xs) -> no_zero_row m n A -> length b = m -> length c = m -> s <> SenseOther ->
  exists v w k, expr_mul (EM (MK A)) (GExpr (EV (VV xs))) = Ok (EV v) /\ expr_plus (EV v) (GExpr (EV (VK b))) = Ok (EV w) /\ expr_comparison (EV w) (GExpr (EV (VK c))) s = Ok (CV k) /\
   match s with
   | SenseLe => vc_linear_inequality k [xs] = Ok (A, minus_list c b)
   | SenseGe => vc_linear_inequality k [xs] = Ok (map (map (fun x => - x)) A, map (fun x => - x) (minus_list c b))
   | _ => vc_linear_equality k [xs] = Ok (A, minus_list c b)
   end.
Proof.
  intros Hm HA L HV HN HZ Lb Lc HS. assert (Hn : 1 <= n) by (destruct (HZ 0%nat) as (j & Hj & _); lia).
  destruct (linear_map_ok m n A xs Hm Hn HA L HV) as (v & E & V & D & C & O & H).
  destruct (affine_plus_ok m xs v b _ Hm Lb V D O H) as (w & Ew & Vw & Dw & Cw & Ow & Hw).
  destruct (affine_con m n A xs b w c s Hm HA L HV HN HZ Lb Lc HS Vw Dw Cw Ow (Hw EX)) as (k & Ek & R). exists v, w, k. auto.
Qed.

Lemma linear_constraint m n A xs b s : 2 <= m -> dense_shape (m, n) A -> length xs = n -> Forall valid_var xs -> NoDup (map v_id xs) -> no_zero_row m n A -> length b = m -> s <> SenseOther ->
  exists v k, expr_mul (EM (MK A)) (GExpr (EV (VV xs))) = Ok (EV v) /\ expr_comparison (EV v) (GExpr (EV (VK b))) s = Ok (CV k) /\
   match s with
   | SenseLe => vc_linear_inequality k [xs] = Ok (A, b)
   | SenseGe => vc_linear_inequality k [xs] = Ok (map (map (fun x => - x)) A, map (fun x => - x) b)
   | _ => vc_linear_equality k [xs] = Ok (A, b)
   end.
Proof.
  intros Hm HA L HV HN HZ Lb HS. assert (Hn : 1 <= n) by (destruct (HZ 0%nat) as (j & Hj & _); lia).
  destruct (linear_map_ok m n A xs Hm Hn HA L HV) as (v & E & V & D & C & O & H).
  assert (Z : minus_list b (repeat n0 m) = b).
  { apply (nth_ext _ _ n0 n0); [unfold minus_list; rewrite map_length, combine_length, repeat_length; lia|]. intros i Hi.
    assert (Hi' : i < m) by (unfold minus_list in Hi; rewrite map_length, combine_length, repeat_length in Hi; lia).
    rewrite (minus_list_nth b (repeat n0 m) m) by (try rewrite repeat_length; auto). rewrite nth_repeat. ring. }
  destruct (affine_con m n A xs (repeat n0 m) v b s Hm HA L HV HN HZ (repeat_length _ _) Lb HS V D C O) as (k & Ek & R).
  { intros r i Hi. rewrite (H EX) by exact Hi. rewrite nth_repeat. ring. }
  exists v, k. rewrite Z in R. auto.
Qed.
End Exact.
End Final.

(** ** Witnesses *)
Section W.
Context {NN : Num}.
(** x' Q x + b' x, with x = (x, y), next to itself *)
Definition w_Q : list (list num) := [[nofZ 1; nofZ 2]; [nofZ 3; nofZ 4]].
Definition w_quadratic : aprog := quadratic_form [wx; wy] w_Q.
(** ((Q x) beside (Q x)) above Q, minus ... : a 4 x 2 program of degree 1 *)
Definition w_stack : aprog :=
  AAbove (ABeside (ATimes (ALeaf (EM (MK w_Q))) (ALeaf (EV (VV [wx; wy])))) (ASimplified (APlus (ATimes (ALeaf (EM (MK w_Q))) (ALeaf (EV (VV [wx; wy])))) (ALeaf (EV (VK [nofZ 5; nofZ 6]))))))
         (ALeaf (EM (MK w_Q))).
(** the third power of (x x; x x) *)
Definition w_cube : aprog := APower (ALeaf (EM (MV [[wx; wx]; [wx; wx]]))) 3.
(** a 2 x 2 matrix plus a vector of length 3 *)
Definition w_misfit : aprog := APlus (ALeaf (EM (MK w_Q))) (ALeaf (EV (VV [wx; wy; wz]))).
(** the third power of (x y; x y) *)
Definition w_pow3 : aprog := APower (ALeaf (EM (MV [[wx; wy]; [wx; wy]]))) 3.
(** 2x times (x, y) *)
Definition w_unsup : aprog := ATimes (ALeaf (ES (SM (mkMono (nofZ 2) [1%Z] [wx])))) (ALeaf (EV (VV [wx; wy]))).
Definition w_A3 : list (list num) := [[nofZ 1; nofZ 2; n0]; [n0; nofZ 4; nofZ 5]].
Definition w_zero : list (list num) := [[nofZ 2; n0]; [n0; n0]].

Definition leafb (p : aprog) : bool := match p with ALeaf e => arrayb (leaf_dims e) e && (if scalar_dims (leaf_dims e) then match e with ES _ => true | _ => false end else true) | _ => true end.
Fixpoint everyb (t : aprog -> bool) (p : aprog) : bool :=
  t p && match p with
  | ALeaf _ => true
  | APlus a b | AMinus a b | ATimes a b | ABeside a b | AAbove a b => everyb t a && everyb t b
  | APower a _ | ATransposed a | ASimplified a => everyb t a
  end.
Lemma everyb_spec t (Q : aprog -> Prop) p : (forall q, t q = true -> Q q) -> everyb t p = true -> everywhere Q p.
Proof. intro H. induction p; cbn [everyb everywhere]; intro E; repeat match goal with X : (_ && _)%bool = true |- _ => apply andb_prop in X as [? ?] end; auto. Qed.
Lemma leafb_spec q : leafb q = true -> proper_leaf q.
Proof.
  destruct q; cbn [leafb proper_leaf]; try (intros _; exact I). intro H. apply andb_prop in H as [H1 H2]. split; [apply arrayb_spec; exact H1|]. intro E. rewrite E in H2. cbn in H2. destruct e; try discriminate. exact I.
Qed.
End W.

Section Q.
Local Existing Instance QNum.
Lemma wit_stack : proper_leaves w_stack /\ (adegree w_stack <= 2)%Z /\ adims w_stack = Some (4, 2)%nat /\ exists e, arun w_stack = Ok e.
Proof. split; [apply (everyb_spec leafb); [exact leafb_spec | vm_compute; reflexivity]|]. split; [apply Z.leb_le; vm_compute; reflexivity|]. split; [vm_compute; reflexivity|]. apply ok_ex. vm_compute. reflexivity. Qed.
Lemma wit_quadratic : proper_leaves w_quadratic /\ (adegree w_quadratic <= 2)%Z /\ exists e, arun w_quadratic = Ok e.
Proof. split; [apply (everyb_spec leafb); [exact leafb_spec | vm_compute; reflexivity]|]. split; [apply Z.leb_le; vm_compute; reflexivity|]. apply ok_ex. vm_compute. reflexivity. Qed.
Lemma wit_cube : proper_leaves w_cube /\ leaves_only 0 w_cube /\ dims_of w_cube = (2, 2)%nat /\ exists e, arun w_cube = Ok e.
Proof.
  split; [apply (everyb_spec leafb); [exact leafb_spec | vm_compute; reflexivity]|]. split; [|split; [vm_compute; reflexivity | apply ok_ex; vm_compute; reflexivity]].
  apply (everyb_spec (fun p => match p with ALeaf e => onlyb 0 e | _ => true end)); [|vm_compute; reflexivity]. intros [e| | | | | | | |] H; try exact I. apply onlyb_spec. exact H.
Qed.
Lemma wit_misfit : proper_leaves w_misfit /\ adims w_misfit = None.
Proof. split; [apply (everyb_spec leafb); [exact leafb_spec | vm_compute; reflexivity] | vm_compute; reflexivity]. Qed.
Lemma wit_form : length [wx; wy] = 2%nat /\ Forall valid_var [wx; wy] /\ dense_shape (2, 2)%nat w_Q.
Proof. split; [reflexivity|]. split; [repeat constructor|]. split; [reflexivity | repeat constructor]. Qed.
Lemma wit_affine : dense_shape (2, 3)%nat w_A3 /\ Forall valid_var [wx; wy; wz] /\ NoDup (map v_id [wx; wy; wz]) /\ no_zero_row 2 3 w_A3 /\ length [nofZ 7; nofZ 8] = 2%nat.
Proof.
  split; [split; [reflexivity | repeat constructor]|]. split; [repeat constructor|]. split; [apply nodupb_spec; vm_compute; reflexivity|]. split; [|reflexivity].
  intros [|[|i]] Hi; [exists 0%nat | exists 1%nat | lia]; (split; [lia | intro E; discriminate E]).
Qed.
End Q.

(** ** Refutations *)
Lemma program_value_refuted : forall NN, NN = F64Num \/ NN = QNum -> exists (p : aprog) (e : expr) (r : assignment),
  proper_leaves p /\ adims p = Some (2, 2)%nat /\ arun p = Ok e /\ (value r e 0 0 =? meaning r p 0 0) = false.
Proof.
  assert (T : forall NN : Num, (everyb leafb w_pow3 && match adims w_pow3 with Some (2, 2)%nat => true | _ => false end && run_ok (arun w_pow3) (fun e => negb (value (at3 1 2 0) e 0 0 =? meaning (at3 1 2 0) w_pow3 0 0)))%bool = true ->
    exists (p : aprog) (e : expr) (r : assignment), proper_leaves p /\ adims p = Some (2, 2)%nat /\ arun p = Ok e /\ (value r e 0 0 =? meaning r p 0 0) = false).
  { intros NN H. apply andb_prop in H as [H H3]. apply andb_prop in H as [H1 H2]. apply run_ok_spec in H3 as (e & E & H3). exists w_pow3, e, (at3 1 2 0).
    split; [apply (everyb_spec leafb); [exact leafb_spec | exact H1]|]. split; [reflexivity|]. split; [exact E|]. apply negb_true_iff in H3. exact H3. }
  both2 T.
Qed.

Lemma program_total_refuted : forall NN, NN = F64Num \/ NN = QNum -> exists p : aprog,
  proper_leaves p /\ adims p = Some (2, 1)%nat /\ (adegree p <= 2)%Z /\ arun p = Panic PUnsupported.
Proof.
  assert (T : forall NN : Num, (everyb leafb w_unsup && match arun w_unsup with Panic PUnsupported => true | _ => false end)%bool = true ->
    exists p : aprog, proper_leaves p /\ adims p = Some (2, 1)%nat /\ (adegree p <= 2)%Z /\ arun p = Panic PUnsupported).
  { intros NN H. apply andb_prop in H as [H1 H2]. exists w_unsup. split; [apply (everyb_spec leafb); [exact leafb_spec | exact H1]|]. split; [reflexivity|]. split; [apply Z.leb_le; reflexivity|].
    destruct (arun w_unsup) as [|[]]; try discriminate. reflexivity. }
  both2 T.
Qed.

Lemma quadratic_one_refuted : forall NN, NN = F64Num \/ NN = QNum -> exists (x : var) (k : num), valid_var x /\ arun (quadratic_form [x] [[k]]) = Panic PUnsupported.
Proof.
  assert (T : forall NN : Num, (varb wx && match arun (quadratic_form [wx] [[nofZ 2]]) with Panic PUnsupported => true | _ => false end)%bool = true ->
    exists (x : var) (k : num), valid_var x /\ arun (quadratic_form [x] [[k]]) = Panic PUnsupported).
  { intros NN H. apply andb_prop in H as [H1 H2]. exists wx, (nofZ 2). split; [apply varb_spec; exact H1|]. destruct (arun _) as [|[]]; try discriminate. reflexivity. }
  both2 T.
Qed.

(** a row of zeros *)
Lemma zero_row_refuted : forall NN, NN = F64Num \/ NN = QNum -> exists (A : list (list num)) (xs : list var) (b : list num) (v : vector) (k : vector_constraint) (p : panic),
  dense_shape (2, 2)%nat A /\ Forall valid_var xs /\ NoDup (map v_id xs) /\ expr_mul (EM (MK A)) (GExpr (EV (VV xs))) = Ok (EV v)
  /\ expr_comparison (EV v) (GExpr (EV (VK b))) SenseLe = Ok (CV k) /\ vc_linear_inequality k [xs] = Panic p.
Proof.
  assert (T : forall NN : Num, (forallb varb [wx; wy] && nodupb (map v_id [wx; wy]) && match expr_mul (EM (MK w_zero)) (GExpr (EV (VV [wx; wy]))) with
      | Ok (EV v) => match expr_comparison (EV v) (GExpr (EV (VK [nofZ 3; nofZ 4]))) SenseLe with Ok (CV k) => match vc_linear_inequality k [[wx; wy]] with Panic _ => true | _ => false end | _ => false end
      | _ => false end)%bool = true ->
    exists (A : list (list num)) (xs : list var) (b : list num) (v : vector) (k : vector_constraint) (p : panic),
     dense_shape (2, 2)%nat A /\ Forall valid_var xs /\ NoDup (map v_id xs) /\ expr_mul (EM (MK A)) (GExpr (EV (VV xs))) = Ok (EV v)
     /\ expr_comparison (EV v) (GExpr (EV (VK b))) SenseLe = Ok (CV k) /\ vc_linear_inequality k [xs] = Panic p).
  { intros NN H. apply andb_prop in H as [H H3]. apply andb_prop in H as [H1 H2].
    destruct (expr_mul (EM (MK w_zero)) (GExpr (EV (VV [wx; wy])))) as [[|v|]|] eqn:Ev; try discriminate.
    destruct (expr_comparison (EV v) (GExpr (EV (VK [nofZ 3; nofZ 4]))) SenseLe) as [[|k|]|] eqn:Ek; try discriminate.
    destruct (vc_linear_inequality k [[wx; wy]]) as [|p] eqn:Ep; [discriminate|].
    exists w_zero, [wx; wy], [nofZ 3; nofZ 4], v, k, p. split; [split; [reflexivity | repeat constructor]|]. rewrite forallb_forall in H1.
    split; [apply Forall_forall; intros x Hx; apply varb_spec; exact (H1 x Hx)|]. split; [apply nodupb_spec; exact H2|]. auto. }
  both2 T.
Qed.
