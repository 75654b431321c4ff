(** * Zero, one and identity arrays, int operands, rejected operands, Variables and Constant of arrays, From *)

From Coq Require Import ZArith NArith Bool List Lia Ring Field.
From Verif Require Import Num Syntax ModelScalar Spec Base ScalarValid Eval ScalarOps ScalarMore ScalarNorm ScalarLin ScalarFacts Unamb ModelShape ModelArith SpecArr Arr ArrPlus ArrMul ArrMulMat ArrMulAll ArrMulTop ArrTop ArrPow ArrShape.
Import ListNotations.
Local Open Scope num_scope.

Section ArrMisc.
Context {NN : Num}.

(** ** Zeros, ones, identity *)

Lemma grid_dense d (f : nat -> nat -> num) l : grid d (fun i j k => k = f i j) l ->
  dense_shape d l /\ forall i j, i < fst d -> j < snd d -> dense_entry l i j = f i j.
Proof.
  intro H. split; [split; [apply H | exact (grid_row_lengths d _ l H)]|]. intros i j Hi Hj. destruct H as [_ H]. destruct (H i Hi) as (row & E & _ & Hr).
  destruct (Hr j Hj) as (k & Ek & ->). unfold dense_entry. rewrite (nth_error_nth_eq _ _ _ [] E). apply nth_error_nth_eq. exact Ek.
Qed.

Lemma repeat_grid d (k : num) : grid d (fun _ _ x => x = k) (repeat (repeat k (snd d)) (fst d)).
Proof.
  split; [apply repeat_length|]. intros i Hi. exists (repeat k (snd d)). split; [apply nth_error_repeat; exact Hi|]. split; [apply repeat_length|].
  intros j Hj. exists k. split; [apply nth_error_repeat; exact Hj | reflexivity].
Qed.

Lemma zeros_matrix_facts r c : 1 <= r -> 1 <= c ->
  exists l, zeros_matrix r c = Ok l /\ dense_shape (r, c) l /\ forall i j, i < r -> j < c -> dense_entry l i j = n0.
Proof. intros Hr Hc. destruct (zeros_matrix_arr r c Hr Hc) as (l & E & H). exists l. split; [exact E|]. exact (grid_dense (r, c) (fun _ _ => n0) l H). Qed.

Lemma ones_matrix_facts r c : 1 <= r -> 1 <= c ->
  exists l, ones_matrix r c = Ok l /\ dense_shape (r, c) l /\ forall i j, i < r -> j < c -> dense_entry l i j = n1.
Proof.
  intros Hr Hc. exists (repeat (repeat n1 c) r). split; [exact (ones_matrix_ok (r, c) Hr Hc)|]. exact (grid_dense (r, c) (fun _ _ => n1) _ (repeat_grid (r, c) n1)).
Qed.

Lemma identity_matrix_facts n : 1 <= n ->
  exists l, identity_matrix n = Ok l /\ dense_shape (n, n) l /\ forall i j, i < n -> j < n -> dense_entry l i j = if Nat.eqb i j then n1 else n0.
Proof. intro Hn. destruct (identity_matrix_grid n Hn) as (l & E & H). exists l. split; [exact E|]. exact (grid_dense (n, n) (fun i j => if Nat.eqb i j then n1 else n0) l H). Qed.

Lemma zeros_vector_facts n : 1 <= n -> zeros_vector n = Ok (repeat n0 n).
Proof. destruct n; [lia | reflexivity]. Qed.
Lemma ones_vector_facts n : 1 <= n -> ones_vector n = Ok (repeat n1 n).
Proof. destruct n; [lia | reflexivity]. Qed.

Lemma zero_dimensions : (forall r c, r = 0 \/ c = 0 -> zeros_matrix r c = Panic PGonum /\ ones_matrix r c = Panic PGonum)
  /\ identity_matrix 0 = Panic PGonum /\ zeros_vector 0 = Panic PGonum /\ ones_vector 0 = Panic PGonum.
Proof.
  split; [|repeat split]. intros r c H. unfold zeros_matrix, ones_matrix. assert (X : Nat.eqb r 0 || Nat.eqb c 0 = true).
  { apply orb_true_iff. destruct H as [->| ->]; [left | right]; reflexivity. } rewrite X. auto.
Qed.

Lemma dense_valid d l : 1 <= fst d -> 1 <= snd d -> dense_shape d l -> valid_array d (EM (MK l)).
Proof.
  intros D1 D2 [L H]. split; [exact D1|]. split; [exact D2|]. split.
  - split; [cbn; rewrite map_length; exact L|]. cbn. rewrite Forall_map. eapply Forall_impl; [|exact H]. intros r Hr. cbn in Hr. rewrite map_length. exact Hr.
  - intros i j Hi Hj. unfold entry. cbn. assert (X : forall (row : list num) j, valid (nth j (map SK row) (SK n0))).
    { induction row as [|k row IH]; intros [|j']; cbn; auto. }
    rewrite (nth_indep _ [] (map SK [])) by (rewrite map_length, L; exact Hi). rewrite map_nth. apply X.
Qed.

Lemma dense_value r l i j : value r (EM (MK l)) i j = dense_entry l i j.
Proof.
  unfold value, entry, dense_entry. cbn. change (@nil scalar) with (map SK []). rewrite map_nth. change (SK n0) with (SK n0). rewrite map_nth. reflexivity.
Qed.

Lemma numeric_dense l : numeric (EM (MK l)).
Proof. intros row s H1 H2. cbn in H1. apply in_map_iff in H1. destruct H1 as (ks & <- & _). apply in_map_iff in H2. destruct H2 as (k & <- & _). eauto. Qed.

Lemma numeric_term e f : numeric e -> has_term e f -> forall i, f i = 0%Z.
Proof. intros HN (row & s & m & H1 & H2 & H3 & H4) i. rewrite H4. destruct (HN row s H1 H2) as [k ->]. destruct H3 as [<-|[]]. reflexivity. Qed.

(** families of exponents that differ by zeros *)
Lemma unamb_ext (F G : (N -> Z) -> Prop) : (forall f, G f -> exists g, F g /\ forall i, f i = g i) -> unambiguous_exponents F -> unambiguous_exponents G.
Proof.
  intros H HF m1 m2 (V1 & f1 & A1 & B1) (V2 & f2 & A2 & B2). apply HF.
  - split; [exact V1|]. destruct (H f1 A1) as (g & Hg & E). exists g. split; [exact Hg|]. intro i. rewrite B1. apply E.
  - split; [exact V2|]. destruct (H f2 A2) as (g & Hg & E). exists g. split; [exact Hg|]. intro i. rewrite B2. apply E.
Qed.

Lemma unamb_product_numeric_l a b : numeric a -> unambiguous_exponents (has_term b) -> unambiguous_exponents (product_exps a b).
Proof. intros Ha. apply unamb_ext. intros f (g & h & Hg & Hh & E). exists h. split; [exact Hh|]. intro i. rewrite E, (numeric_term a g Ha Hg i). reflexivity. Qed.
Lemma unamb_product_numeric_r a b : numeric b -> unambiguous_exponents (has_term a) -> unambiguous_exponents (product_exps a b).
Proof. intros Hb. apply unamb_ext. intros f (g & h & Hg & Hh & E). exists g. split; [exact Hg|]. intro i. rewrite E, (numeric_term b h Hb Hh i). lia. Qed.
Lemma unamb_sum_numeric_r a b : numeric b -> unambiguous_exponents (has_term a) -> unambiguous_exponents (sum_exps a b).
Proof.
  intros Hb HU. apply (unambiguous_sub (sum_exps a b) (plus_zero (has_term a))); [|exact (plus_zero_unambiguous _ HU)].
  intros f [Hf|Hf]; [left; exact Hf | right; exact (numeric_term b f Hb Hf)].
Qed.

Lemma sum_to_pick_l (EX : ExactNum NN) n i (g : nat -> num) : sum_to (fun k => (if Nat.eqb i k then n1 else n0) * g k) n = if Nat.ltb i n then g i else n0.
Proof.
  induction n as [|n IH]; [reflexivity|]. cbn [sum_to]. rewrite IH. destruct (Nat.eqb_spec i n) as [->|N].
  - destruct (Nat.ltb_spec n n); [lia|]. destruct (Nat.ltb_spec n (S n)); [|lia]. rewrite ring_1_l. apply (Radd_0_l (F_R (@ex_field NN EX))).
  - rewrite ring_0_l. destruct (Nat.ltb_spec i n); destruct (Nat.ltb_spec i (S n)); try lia; apply ring_a0_r.
Qed.
Lemma sum_to_pick_r (EX : ExactNum NN) n j (g : nat -> num) : sum_to (fun k => g k * (if Nat.eqb k j then n1 else n0)) n = if Nat.ltb j n then g j else n0.
Proof.
  rewrite <- (sum_to_pick_l EX n j g). apply sum_to_ext. intros k _. rewrite (Nat.eqb_sym k j). apply (Rmul_comm (F_R (@ex_field NN EX))).
Qed.

Lemma identity_times n I b g d e : ExactNum NN -> 1 <= n -> identity_matrix n = Ok I -> valid_array d b -> fst d = n -> ~ is_scalar b -> means g = Some b ->
  unambiguous_exponents (has_term b) -> expr_mul (EM (MK I)) g = Ok e ->
  valid_array d e /\ forall r i j, i < fst d -> j < snd d -> value r e i j = value r b i j.
Proof.
  intros EX Hn EI Vb Hd Nb Hg HU E. destruct (identity_matrix_facts n Hn) as (l & El & Sl & Hl). rewrite EI in El. injection El as <-.
  pose proof (dense_valid (n, n) I Hn Hn Sl) as VI.
  assert (HD : product_dims (EM (MK I)) b (n, n) d d) by (right; right; split; [intros [] | split; [exact Nb | split; [cbn; congruence | destruct d; cbn in *; congruence]]]).
  split; [exact (array_multiply_shape _ b g (n, n) d d e VI Vb Hg HD E)|]. intros r i j Hi Hj.
  rewrite (array_multiply_value _ b g (n, n) d d e EX VI Vb Hg HD (unamb_product_numeric_l _ _ (numeric_dense I) HU) E r i j Hi Hj).
  assert (X : product_value r (EM (MK I)) b n i j = sum_to (fun k => value r (EM (MK I)) i k * value r b k j) n) by (destruct b; [exfalso; exact (Nb Logic.I) | reflexivity | reflexivity]).
  cbn [snd]. rewrite X. rewrite Hd in Hi.
  rewrite (sum_to_ext (fun k => value r (EM (MK I)) i k * value r b k j) (fun k => (if Nat.eqb i k then n1 else n0) * value r b k j)).
  - rewrite (sum_to_pick_l EX n i (fun k => value r b k j)). destruct (Nat.ltb_spec i n); [reflexivity | lia].
  - intros k Hk. rewrite dense_value, Hl by assumption. reflexivity.
Qed.

Lemma times_identity n I a d e : ExactNum NN -> 1 <= n -> identity_matrix n = Ok I -> valid_array d a -> snd d = n -> ~ is_scalar a ->
  unambiguous_exponents (has_term a) -> expr_mul a (GExpr (EM (MK I))) = Ok e ->
  valid_array d e /\ forall r i j, i < fst d -> j < snd d -> value r e i j = value r a i j.
Proof.
  intros EX Hn EI Va Hd Na HU E. destruct (identity_matrix_facts n Hn) as (l & El & Sl & Hl). rewrite EI in El. injection El as <-.
  pose proof (dense_valid (n, n) I Hn Hn Sl) as VI.
  assert (HD : product_dims a (EM (MK I)) d (n, n) d) by (right; right; split; [exact Na | split; [intros [] | split; [cbn; congruence | destruct d; cbn in *; congruence]]]).
  split; [exact (array_multiply_shape a _ (GExpr (EM (MK I))) d (n, n) d e Va VI eq_refl HD E)|]. intros r i j Hi Hj.
  rewrite (array_multiply_value a _ (GExpr (EM (MK I))) d (n, n) d e EX Va VI eq_refl HD (unamb_product_numeric_r _ _ (numeric_dense I) HU) E r i j Hi Hj).
  assert (X : product_value r a (EM (MK I)) n i j = sum_to (fun k => value r a i k * value r (EM (MK I)) k j) n) by (destruct a; [exfalso; exact (Na Logic.I) | reflexivity | reflexivity]).
  rewrite Hd, X. rewrite Hd in Hj.
  rewrite (sum_to_ext (fun k => value r a i k * value r (EM (MK I)) k j) (fun k => value r a i k * (if Nat.eqb k j then n1 else n0))).
  - rewrite (sum_to_pick_r EX n j (fun k => value r a i k)). destruct (Nat.ltb_spec j n); [reflexivity | lia].
  - intros k Hk. rewrite dense_value, Hl by assumption. reflexivity.
Qed.

Lemma plus_zeros d Z a g e : ExactNum NN -> zeros_matrix (fst d) (snd d) = Ok Z -> valid_array d a -> means g = Some (EM (MK Z)) -> ~ is_scalar a ->
  unambiguous_exponents (has_term a) -> expr_plus a g = Ok e ->
  valid_array d e /\ forall r i j, i < fst d -> j < snd d -> value r e i j = value r a i j.
Proof.
  intros EX EZ Va Hg Na HU E. pose proof Va as (D1 & D2 & _). destruct (zeros_matrix_facts (fst d) (snd d) D1 D2) as (l & El & Sl & Hl). rewrite EZ in El. injection El as <-.
  assert (Ed : (fst d, snd d) = d) by (destruct d; reflexivity). rewrite Ed in Sl.
  pose proof (dense_valid d Z D1 D2 Sl) as VZ. assert (HB : broadcast a (EM (MK Z)) d d d) by (left; split; reflexivity).
  split; [exact (array_plus_shape a _ g d d d e Va VZ Hg HB E)|]. intros r i j Hi Hj.
  rewrite (array_plus_value a _ g d d d e EX Va VZ Hg HB (unamb_sum_numeric_r a _ (numeric_dense Z) HU) E r i j Hi Hj).
  cbn [bvalue]. rewrite dense_value, Hl by assumption. rewrite ring_a0_r. destruct a; [destruct Na; exact I | reflexivity | reflexivity].
Qed.

(** ** int and float64 operands *)

Lemma simplify_twice (x : res scalar) : zero_laws -> (forall s, x = Ok s -> exists t, valid t /\ scalar_simplified t = Ok s) -> (out <- x ;; scalar_simplified out) = x.
Proof.
  intros Z H. destruct x as [s|]; [|reflexivity]. cbn [bind]. destruct (H s eq_refl) as (t & Vt & E). exact (simplified_idempotent t s Z Vt E).
Qed.

Lemma var_to_mono_valid v : valid_var v -> valid_mono (var_to_mono v).
Proof. intro H. repeat split; cbn; repeat constructor; try lia; [intros [] | exact H]. Qed.

Lemma plus_int_same (s : scalar) (z : Z) : zero_laws -> plus_accepts (ES s) (GInt z) = true ->
  expr_plus (ES s) (GInt z) = expr_plus (ES s) (GExpr (ES (SK (nofZ z)))).
Proof.
  intros Z0 H. destruct s as [k|v|m|p]; try discriminate H; cbn [expr_plus].
  - reflexivity.
  - unfold var_plus_any. destruct (var_check v) eqn:C; [|reflexivity]. cbn [check bind scalar_plus_float var_plus]. f_equal.
    apply simplify_twice; [exact Z0|]. intros s E. unfold var_plus_k in E. rewrite C in E. cbn [check bind] in E.
    exists (SP [var_to_mono v; k_to_mono (nofZ z)]). apply var_check_valid in C. split; [|exact E]. split; [discriminate|].
    constructor; [apply var_to_mono_valid; exact C | constructor; [apply valid_mono_k | constructor]].
Qed.

Lemma multiply_int_same (s : scalar) (z : Z) : zero_laws -> multiply_accepts (ES s) (GInt z) = true ->
  expr_mul (ES s) (GInt z) = expr_mul (ES s) (GExpr (ES (SK (nofZ z)))).
Proof.
  intros Z0 H. destruct s as [k|v|m|p]; try discriminate H; cbn [expr_mul].
  - reflexivity.
  - unfold var_mul_any. destruct (var_check v) eqn:C; [|reflexivity]. cbn [check bind scalar_mul_float var_mul operand_check as_expr expr_check scalar_check expr_dims].
    assert (X : check (dims_mul (1, 1) (1, 1)) PDim = Ok tt) by reflexivity. rewrite X. cbn [bind]. f_equal.
    apply simplify_twice; [exact Z0|]. intros s E. unfold var_mul_k in E. rewrite C in E. cbn [check bind] in E.
    exists (SM (mkMono (nofZ z) [1%Z] [v])). apply var_check_valid in C. split; [|exact E]. apply (var_to_mono_valid v C).
  - unfold mono_mul_any. destruct (mono_check m) eqn:C; reflexivity.
Qed.

Lemma plus_int_unsupported (s : scalar) (z : Z) : plus_accepts (ES s) (GInt z) = false -> expr_check (ES s) = true -> expr_plus (ES s) (GInt z) = Panic PUnsupported.
Proof. intros H C. destruct s as [k|v|m|p]; try discriminate H; cbn in C |- *; unfold mono_plus_any, poly_plus_any; rewrite C; reflexivity. Qed.

(** ** Rejected operands *)

Lemma bind_not_ok {A B} (x : res A) (f : A -> res B) : (forall a, x = Ok a -> forall b, f a <> Ok b) -> forall b, bind x f <> Ok b.
Proof. intros H b. destruct x as [a|]; [exact (H a eq_refl b) | discriminate]. Qed.

Lemma check_false {A} b p (f : unit -> res A) : b = false -> forall x, bind (check b p) f <> Ok x.
Proof. intros -> x. discriminate. Qed.

Lemma unsupported_minus a : expr_minus a GOther = (if expr_check a then Panic PUnsupported else Panic PCheck).
Proof. unfold expr_minus. destruct (expr_check a); reflexivity. Qed.

Lemma as_ES_not_ok x : (forall s, x <> Ok s) -> forall e, as_ES x <> Ok e.
Proof. intros H e. destruct x as [s|]; [exfalso; exact (H s eq_refl) | discriminate]. Qed.

Lemma receiver_checked_plus a g : expr_check a = false -> forall e, expr_plus a g <> Ok e.
Proof.
  intros C e. destruct a as [[k|v|m|p]|v|[l|l|l|l]]; cbn [expr_check scalar_check mat_check] in C; cbn [expr_plus mat_plus]; try discriminate C.
  - unfold var_plus_any. apply check_false. exact C.
  - unfold mono_plus_any. apply check_false. exact C.
  - unfold poly_plus_any. apply check_false. exact C.
  - unfold vec_plus. apply check_false. exact C.
  - unfold var_mat_plus. apply check_false. exact C.
  - unfold mono_mat_plus. apply check_false. exact C.
  - unfold poly_mat_plus. apply check_false. exact C.
Qed.

Lemma receiver_checked_mul a g : expr_check a = false -> forall e, expr_mul a g <> Ok e.
Proof.
  intros C e. destruct a as [[k|v|m|p]|v|[l|l|l|l]]; cbn [expr_check scalar_check mat_check] in C; cbn [expr_mul mat_mul]; try discriminate C.
  - unfold var_mul_any. apply check_false. exact C.
  - unfold mono_mul_any. apply check_false. exact C.
  - unfold poly_mul_any. apply check_false. exact C.
  - unfold vec_mul. apply check_false. exact C.
  - unfold var_mat_mul. apply check_false. exact C.
  - unfold mono_mat_mul. apply check_false. exact C.
  - unfold poly_mat_mul. apply check_false. exact C.
Qed.

Lemma receiver_checked_minus a g : expr_check a = false -> forall e, expr_minus a g <> Ok e.
Proof. intros C e. unfold expr_minus. apply check_false. exact C. Qed.

Lemma receiver_checked_power a z : expr_check a = false -> forall e, expr_power a z <> Ok e.
Proof.
  intros C e. destruct a as [s|v|m]; cbn [expr_check] in C; cbn [expr_power].
  - apply as_ES_not_ok. unfold scalar_power. apply check_false. exact C.
  - apply as_ES_not_ok. unfold vec_power. apply check_false. exact C.
  - unfold as_EM. apply bind_not_ok. intros m' E. exfalso. revert E. unfold mat_power. apply check_false. exact C.
Qed.

Lemma operand_check_rejects dims left b : expr_check b = false -> forall u, operand_check dims left (GExpr b) <> Ok u.
Proof. intros C u. unfold operand_check. cbn [as_expr]. apply check_false. exact C. Qed.

Lemma operand_bind {A} dims left b (f : unit -> res A) : expr_check b = false -> forall x, bind (operand_check dims left (GExpr b)) f <> Ok x.
Proof. intros C x. apply bind_not_ok. intros u E. exfalso. exact (operand_check_rejects dims left b C u E). Qed.

Lemma operand_checked_mul a b : expr_check b = false -> forall e, expr_mul a (GExpr b) <> Ok e.
Proof.
  intros C e. destruct a as [[k|v|m|p]|v|[l|l|l|l]]; cbn [expr_mul mat_mul].
  - unfold k_mul_any. cbn [as_expr]. apply check_false. exact C.
  - unfold var_mul_any. apply bind_not_ok. intros _ _. apply operand_bind. exact C.
  - unfold mono_mul_any. apply bind_not_ok. intros _ _. apply operand_bind. exact C.
  - unfold poly_mul_any. apply bind_not_ok. intros _ _. cbn [as_expr]. apply check_false. exact C.
  - unfold vec_mul. apply bind_not_ok. intros _ _. apply operand_bind. exact C.
  - unfold k_mat_mul. apply operand_bind. exact C.
  - unfold var_mat_mul. apply bind_not_ok. intros _ _. apply operand_bind. exact C.
  - unfold mono_mat_mul. apply bind_not_ok. intros _ _. apply operand_bind. exact C.
  - unfold poly_mat_mul. apply bind_not_ok. intros _ _. apply operand_bind. exact C.
Qed.

Lemma operand_checked_minus a b : expr_check b = false -> forall e, expr_minus a (GExpr b) <> Ok e.
Proof.
  intros C e. unfold expr_minus. apply bind_not_ok. intros _ _. cbn [as_expr].
  destruct a as [[k|v|m|p]|v|l]; first [apply check_false; exact C | apply operand_bind; exact C].
Qed.

Lemma mono_plus_var_checks m v : mono_check m = false -> forall e, mono_plus_var m v <> Ok e.
Proof. intros C e. unfold mono_plus_var. apply check_false. exact C. Qed.

Lemma poly_plus_var_checks p v : poly_check p = false -> forall e, poly_plus_var p v <> Ok e.
Proof. intros C e. unfold poly_plus_var. apply check_false. exact C. Qed.

Lemma operand_checked_plus a b : expr_check b = false -> both_variables a b <> true -> forall e, expr_plus a (GExpr b) <> Ok e.
Proof.
  intros C NS e. destruct a as [[k|v|m|p]|v|[l|l|l|l]]; cbn [expr_plus mat_plus].
  - unfold k_plus_any. cbn [as_expr]. apply check_false. exact C.
  - unfold var_plus_any. destruct (var_check v) eqn:Cv; [|discriminate]. cbn [check bind]. destruct b as [s|w|m]; [| |discriminate].
    + apply as_ES_not_ok. intro s'. destruct s as [k|w|m|p]; cbn [expr_check scalar_check] in C; [discriminate C| | |]; cbn [var_plus].
      * destruct (NS eq_refl).
      * unfold var_plus_mono. rewrite Cv. cbn [check bind]. apply bind_not_ok. intros o E. exfalso. exact (mono_plus_var_checks m v C o E).
      * unfold var_plus_poly. rewrite Cv. cbn [check bind]. apply bind_not_ok. intros o E. exfalso. exact (poly_plus_var_checks p v C o E).
    + unfold simplify_result. apply bind_not_ok. intros o E. exfalso. exact (receiver_checked_plus (EV w) (GExpr (ES (SV v))) C o E).
  - unfold mono_plus_any. apply bind_not_ok. intros _ _. apply operand_bind. exact C.
  - unfold poly_plus_any. apply bind_not_ok. intros _ _. cbn [as_expr]. apply check_false. exact C.
  - unfold vec_plus. apply bind_not_ok. intros _ _. apply operand_bind. exact C.
  - unfold k_mat_plus. apply operand_bind. exact C.
  - unfold var_mat_plus. apply bind_not_ok. intros _ _. apply operand_bind. exact C.
  - unfold mono_mat_plus. apply bind_not_ok. intros _ _. apply operand_bind. exact C.
  - unfold poly_mat_plus. apply bind_not_ok. intros _ _. apply operand_bind. exact C.
Qed.

(** ** From *)

Lemma kvector_from_facts i : match vector_data i with Some l => kvector_from i = Ok l | None => exists p, kvector_from i = Panic p end.
Proof.
  destruct i as [[f|z|l|l|l|l|[s|[l|l|l|l]|m]|]|l|l|l]; cbn; eauto; destruct l; cbn; eauto.
Qed.

Lemma kmatrix_from_facts i : match matrix_data i with Some l => kmatrix_from i = Ok l | None => exists p, kmatrix_from i = Panic p end.
Proof.
  destruct i as [[f|z|l|l|l|l|[s|v|[l|l|l|l]]|]|l|l|l]; cbn; eauto. destruct l as [|r0 l]; cbn; eauto. rewrite Nat.eqb_refl. cbn.
  unfold rectangular. destruct (forallb (fun r => Nat.eqb (length r) (length r0)) l); cbn; eauto.
Qed.

(** the tables of implemented types are exact *)
Definition never {A} (x : res A) : Prop := forall e, x <> Ok e.
Lemma never_bind {A B} (x : res A) (f : A -> res B) : (forall a, never (f a)) -> never (bind x f).
Proof. intros H e. destruct x as [a|]; [exact (H a e) | discriminate]. Qed.
Lemma never_panic {A} p : never (@Panic A p).
Proof. intros e. discriminate. Qed.
Lemma never_simplify x : never x -> never (simplify_result x).
Proof. intros H e. unfold simplify_result. destruct x as [a|]; [destruct (H a eq_refl) | discriminate]. Qed.

Ltac nev := cbv zeta; match goal with
  | |- never (Panic _) => apply never_panic
  | |- never (simplify_result _) => apply never_simplify; nev
  | |- never (bind _ _) => apply never_bind; intro; nev
  end.
Lemma plus_unsupported a g : plus_accepts a g = false -> forall e, expr_plus a g <> Ok e.
Proof.
  intros H. change (never (expr_plus a g)).
  destruct a as [[k|v|m|p]|[l|l|l|l]|[l|l|l|l]];
  destruct g as [f|z|l1|l1|l1|l1|[[k1|v1|m1|p1]|[l1|l1|l1|l1]|[l1|l1|l1|l1]]|]; try discriminate H;
  cbn [expr_plus mat_plus]; unfold k_plus_any, var_plus_any, mono_plus_any, poly_plus_any, vec_plus, k_mat_plus, var_mat_plus, mono_mat_plus, poly_mat_plus, vec_plus_template; nev.
Qed.
Lemma multiply_unsupported a g : multiply_accepts a g = false -> forall e, expr_mul a g <> Ok e.
Proof.
  intros H. change (never (expr_mul a g)).
  destruct a as [[k|v|m|p]|[l|l|l|l]|[l|l|l|l]];
  destruct g as [f|z|l1|l1|l1|l1|[[k1|v1|m1|p1]|[l1|l1|l1|l1]|[l1|l1|l1|l1]]|]; try discriminate H;
  cbn [expr_mul mat_mul]; unfold k_mul_any, var_mul_any, mono_mul_any, poly_mul_any, vec_mul, vec_mul_scalar; cbn [mat_mul]; unfold k_mat_mul, var_mat_mul, mono_mat_mul, poly_mat_mul; nev.
Qed.

Lemma array_minus_mismatch_means a b g da db : valid_array da a -> valid_array db b -> means g = Some b -> da <> db -> da <> (1, 1) -> db <> (1, 1) ->
  expr_minus a g = Panic PDim.
Proof.
  intros Va Vb M H1 H2 H3. apply (array_minus_mismatch a b g da db); try assumption. destruct g; cbn in M |- *; try assumption; try discriminate.
  injection M as <-. destruct H3. destruct Vb as (_ & _ & [L F] & _). cbn in L, F. inversion F as [|? ? F1 _]; subst. cbn in F1. destruct db; cbn in *; congruence.
Qed.

End ArrMisc.
