(** * Multiply, any receiver and any operand *)

From Coq Require Import ZArith NArith Bool List Lia Ring Field.
From Verif Require Import Num Syntax ModelScalar Spec Base ScalarValid Eval ScalarOps ScalarMore ModelShape ModelArith SpecArr Arr ArrPlus ArrMul ArrMulMat ArrMulAll.
Import ListNotations.
Local Open Scope num_scope.

Section ArrMulTop.
Context {NN : Num}.
Variables A B H : (N -> Z) -> Prop.
Hypothesis HZ : has_zero H.
Hypothesis HP : forall f g h, A g -> B h -> (forall i, f i = (g i + h i)%Z) -> H f.

Local Notation den d F phi := (arr d (fun i j => sden F (phi i j))) (only parsing).
Local Notation cA := (cden A H) (only parsing).
Local Notation cB := (cden B H) (only parsing).
Local Notation arrA d phi := (arr d (fun i j => cden A H (phi i j))) (only parsing).
Local Notation arrB d phi := (arr d (fun i j => cden B H (phi i j))) (only parsing).

(** the value of a product *)
Definition pval (a b : expr) (phi psi : nat -> nat -> assignment -> num) (n : nat) : nat -> nat -> assignment -> num :=
  match a, b with
  | ES _, _ | _, ES _ => fun i j r => bphi a phi i j r * bphi b psi i j r
  | _, _ => prod phi psi n
  end.

Lemma good_ES' F phi x : (exists s, x = Ok s /\ sden F (phi 0 0) s) -> good (1, 1) F phi (as_ES x).
Proof. intros (s & -> & Hs). exists (ES s). split; [reflexivity|]. apply arr_ES. exact Hs. Qed.

Lemma mul_scalar_good phi psi db a g b : cA phi a -> means g = Some b -> 1 <= fst db -> 1 <= snd db -> arrB db psi b -> multiply_accepts (ES a) g = true ->
  good db H (fun i j r => phi r * bphi b psi i j r) (expr_mul (ES a) g).
Proof.
  intros Ha Hg B1 B2 Hb HT. pose proof (expr_check_arr _ _ _ B1 B2 (cden_valid B H psi) Hb) as Cb.
  assert (OC : operand_check dims_mul (Ok (1, 1)) g = Ok tt) by (apply (operand_mul B H dims_mul _ (1, 1) g b db psi eq_refl Hg B1 B2 Hb (dims_mul_r _))).
  assert (CC : match as_expr g with Some e => check (expr_check e) PCheck | None => Ok tt end = Ok tt).
  { destruct (means_as_expr g b Hg) as [->|(z & -> & _)]; [rewrite Cb; reflexivity | reflexivity]. }
  assert (BS : forall s, b = ES s -> db = (1, 1) /\ cB (psi 0 0) s).
  { intros s ->. pose proof (arr_ES_dims _ _ _ B1 Hb) as ->. split; [reflexivity|]. apply arr_ES in Hb. exact Hb. }
  assert (Va : scalar_check a = true) by (apply valid_check; exact (proj1 Ha)).
  assert (SS : forall s, b = ES s -> good db H (fun i j r => phi r * bphi b psi i j r) (as_ES (scalar_mul a s))).
  { intros s E. destruct (BS s E) as [-> Hs]. subst b. apply good_ES'. exact (mul_den A B H HZ HP _ _ a s Ha Hs). }
  assert (SF : forall f, b = ES (SK f) -> good db H (fun i j r => phi r * bphi b psi i j r) (as_ES (scalar_mul_float a f))).
  { intros f E. destruct (BS _ E) as [-> Hs]. subst b. apply good_ES'. exact (mul_den_float A B H HZ HP _ _ a f Ha Hs). }
  assert (VS : forall w, b = EV w -> exists n, db = (n, 1) /\ 1 <= n /\ arrB (n, 1) psi (EV w)).
  { intros w ->. pose proof (arr_EV_cols _ _ _ B1 Hb) as E. destruct db as [n c]. cbn in E. subst c. eauto. }
  assert (HPs' := HPs A B H HP).
  destruct a as [c|x|mo|p]; cbn [expr_mul].
  - unfold k_mul_any. rewrite CC. cbn [bind].
    destruct g as [f|z|l0|l0|l0|l0|[s|w|m]|]; try discriminate HT; cbn in Hg; injection Hg as <-; apply SS; reflexivity.
  - unfold var_mul_any. cbn [scalar_check] in Va. rewrite Va. cbn [check bind]. rewrite OC. cbn [bind].
    assert (VX : forall w, b = EV w -> good db H (fun i j r => phi r * psi i j r) (var_mul_vec x w) /\ good db H (fun i j r => phi r * psi i j r) (simplify_result (vec_mul_template w (SV x)))).
    { intros w E. destruct (VS w E) as (n & -> & Hn & Hw). split.
      - apply sgood_good. exact (var_mul_vec_sgood A B H HZ HP n psi phi x w Hn Ha Hw).
      - apply good_simplify; [exact Hn | exact (le_n 1) | exact HZ|]. apply (good_mul_comm H (n, 1) psi (fun _ _ => phi)).
        apply sgood_good. exact (vec_mul_template_sgood B A H HZ HPs' n psi phi w (SV x) Hn Hw Ha). }
    destruct g as [f|z|l0|l0|l0|l0|[s|w|m]|]; try discriminate HT; cbn in Hg; injection Hg as <-; cbn [bphi].
    + apply SF. reflexivity.
    + apply SF. reflexivity.
    + apply good_simplify; [exact B1 | exact B2 | exact HZ|]. apply VX. reflexivity.
    + do 2 (apply good_simplify; [exact B1 | exact B2 | exact HZ|]). apply VX. reflexivity.
    + apply (SS s). reflexivity.
    + apply VX. reflexivity.
  - unfold mono_mul_any. cbn [scalar_check] in Va. rewrite Va. cbn [check bind]. rewrite OC. cbn [bind].
    destruct g as [f|z|l0|l0|l0|l0|[s|w|m]|]; try discriminate HT; cbn in Hg; injection Hg as <-;
      [apply SF; reflexivity | apply SF; reflexivity | apply (SS s); reflexivity].
  - unfold poly_mul_any. cbn [scalar_check] in Va. rewrite Va. cbn [check bind]. rewrite CC. cbn [bind].
    assert (Hp : arr (1, 1) (fun i j => cden A H (phi)) (ES (SP p))) by (apply arr_ES; exact Ha).
    destruct g as [f|z|l0|l0|l0|l0|[s|w|m]|]; try discriminate HT; cbn in Hg; injection Hg as <-; cbn [bphi].
    + apply SF. reflexivity.
    + apply (SS s). reflexivity.
    + destruct (VS w eq_refl) as (n & -> & Hn & Hw). apply good_simplify; [exact Hn | exact (le_n 1) | exact HZ|].
      apply (good_mul_comm H (n, 1) psi (fun _ _ => phi)).
      apply (vec_mul_good B A H HZ HPs' n psi (fun _ _ => phi) w (GExpr (ES (SP p))) (ES (SP p))); try assumption; [reflexivity | destruct w; reflexivity].
    + destruct m as [l|l|l|l]; try discriminate HT. apply good_simplify; [exact B1 | exact B2 | exact HZ|].
      apply (good_mul_comm H db psi (fun _ _ => phi)). cbn [mat_mul].
      apply (k_mat_mul_good B A H HZ HPs' db (1, 1) db psi (fun _ _ => phi) l (GExpr (ES (SP p))) (ES (SP p))); try assumption; try exact (le_n 1); try reflexivity.
      left. split; [exact I | reflexivity].
Qed.

Lemma pval_pphi a b phi psi n d x : ~ is_scalar a -> good d H (pphi b phi psi n) x -> good d H (pval a b phi psi n) x.
Proof. intros Ha G. destruct a; [destruct Ha; exact I| |]; destruct b; exact G. Qed.
Lemma pval_pphi_r a b phi psi n d x : ~ is_scalar a -> rgood d H (pphi b phi psi n) x -> rgood d H (pval a b phi psi n) x.
Proof. intros Ha G. destruct a; [destruct Ha; exact I| |]; destruct b; exact G. Qed.

Lemma product_operand a b da db d phi psi : 1 <= fst da -> 1 <= fst db -> arrA da phi a -> arrB db psi b ->
  product_dims a b da db d -> (is_scalar a /\ d = db) \/ (~ is_scalar a /\ operand_shape da db d b).
Proof.
  intros A1 B1 Ha Hb [[Hs ->]|[[Hs ->]|(Na & Nb & E & ->)]]; [left; auto| |right; split; [exact Na | right; auto]].
  destruct a as [a| |]; [left|right|right].
  - split; [exact I|]. destruct b; try destruct Hs. rewrite (arr_ES_dims _ _ _ A1 Ha), (arr_ES_dims _ _ _ B1 Hb). reflexivity.
  - split; [intros [] | left; auto].
  - split; [intros [] | left; auto].
Qed.

Lemma expr_mul_good da db d phi psi a g b : 1 <= fst da -> 1 <= snd da -> 1 <= fst db -> 1 <= snd db ->
  arrA da phi a -> means g = Some b -> arrB db psi b -> product_dims a b da db d -> multiply_accepts a g = true ->
  variable_matrix_times_number a b = false -> monomial_matrix_times_variables a b = false ->
  good d H (pval a b phi psi (snd da)) (expr_mul a g).
Proof.
  intros A1 A2 B1 B2 Ha Hg Hb HD HT HV HM. destruct (product_operand a b da db d phi psi A1 B1 Ha Hb HD) as [[Hs ->]|[Na Hd]].
  - destruct a as [a| |]; try destruct Hs. pose proof (arr_ES_dims _ _ _ A1 Ha) as ->. apply arr_ES in Ha.
    apply (mul_scalar_good (phi 0 0) psi db a g b); assumption.
  - apply pval_pphi; [exact Na|]. destruct a as [a|v|m]; [destruct Na; exact I| |]; cbn [expr_mul].
    + pose proof (arr_EV_cols _ _ _ A1 Ha) as E. destruct da as [n c]. cbn in E. subst c. cbn [fst snd] in *.
      apply (vec_mul_all_good A B H HZ HP n db); assumption.
    + destruct m as [l|l|l|l]; cbn [mat_mul].
      * apply (k_mat_mul_good A B H HZ HP da db d); assumption.
      * apply (var_mat_mul_good A B H HZ HP da db d); assumption.
      * apply (mono_mat_mul_rgood A B H HZ HP da db d phi psi l g b); assumption.
      * apply (poly_mat_mul_good A B H HZ HP da db d); assumption.
Qed.

Lemma expr_mul_unsupported a g : multiply_accepts a g = false -> forall e, expr_mul a g <> Ok e.
Proof.
  assert (BB : forall {A B} (x : res A) (f : A -> res B) e, (forall y, x = Ok y -> f y <> Ok e) -> bind x f <> Ok e).
  { intros A0 B0 [y|p] f e Hf; cbn; [apply Hf; reflexivity | discriminate]. }
  assert (PM : forall m p e, match m with MK _ => False | _ => True end -> mat_mul m (GExpr (ES (SP p))) <> Ok e).
  { intros m p e Hm. destruct m; try destruct Hm; cbn [mat_mul]; unfold var_mat_mul, mono_mat_mul, poly_mat_mul; repeat first [ discriminate | (apply BB; intros ? _) ]. }
  intros HT e. destruct a as [[c|x|mo|p]|[l|l|l|l]|[l|l|l|l]];
    destruct g as [f|z|l0|l0|l0|l0|[[k|x0|mo0|p0]|[lk0|lv0|lm0|lp0]|[lk|lv|lm|lp]]|]; try discriminate HT;
    cbn [expr_mul mat_mul]; unfold k_mul_any, var_mul_any, mono_mul_any, poly_mul_any, vec_mul, k_mat_mul, var_mat_mul, mono_mat_mul, poly_mat_mul;
    repeat first [ discriminate | (cbn [simplify_result bind]; discriminate) | (apply BB; intros ? E; try (match type of E with mat_mul ?m _ = _ => exact (False_ind _ (PM m _ _ I E)) end); clear E) ].
Qed.

Lemma expr_mul_rgood da db d phi psi a g b : 1 <= fst da -> 1 <= snd da -> 1 <= fst db -> 1 <= snd db ->
  arrA da phi a -> means g = Some b -> arrB db psi b -> product_dims a b da db d ->
  rgood d H (pval a b phi psi (snd da)) (expr_mul a g).
Proof.
  intros A1 A2 B1 B2 Ha Hg Hb HD. destruct (multiply_accepts a g) eqn:HT.
  2:{ intros e E. destruct (expr_mul_unsupported a g HT e E). }
  destruct (variable_matrix_times_number a b) eqn:HV; [|destruct (monomial_matrix_times_variables a b) eqn:HM].
  3:{ apply good_rgood. apply (expr_mul_good da db); assumption. }
  - destruct a as [a|v|[l|l|l|l]]; try discriminate HV. destruct (product_operand _ b da db d phi psi A1 B1 Ha Hb HD) as [[[] _]|[Na Hd]].
    apply pval_pphi_r; [exact Na|]. apply (var_mat_mul_number_rgood A B H HZ HP da db d); assumption.
  - destruct a as [a|v|[l|l|l|l]]; try discriminate HM. destruct (product_operand _ b da db d phi psi A1 B1 Ha Hb HD) as [[[] _]|[Na Hd]].
    apply pval_pphi_r; [exact Na|]. apply (mono_mat_mul_rgood A B H HZ HP da db d phi psi l g b); assumption.
Qed.

Lemma expr_mul_number_total da db d phi psi a g f : ExactNum NN -> 1 <= fst da -> 1 <= snd da -> 1 <= fst db -> 1 <= snd db ->
  arrA da phi a -> means g = Some (ES (SK f)) -> arrB db psi (ES (SK f)) -> product_dims a (ES (SK f)) da db d -> multiply_accepts a g = true ->
  variable_matrix_times_number a (ES (SK f)) = true -> f <> n0 -> f <> n1 -> exists e, expr_mul a g = Ok e.
Proof.
  intros EX A1 A2 B1 B2 Ha Hg Hb HD HT HV F0 F1. destruct a as [a|v|[l|l|l|l]]; try discriminate HV.
  destruct (product_operand _ _ da db d phi psi A1 B1 Ha Hb HD) as [[[] _]|[Na Hd]].
  exact (var_mat_mul_number_total A B H HZ HP da db d phi psi l g f EX A1 A2 B1 B2 Ha Hg Hb Hd HT F0 F1).
Qed.

End ArrMulTop.
