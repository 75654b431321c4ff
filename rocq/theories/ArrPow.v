(** * Differences and powers of arrays; identity, zero and one arrays *)

From Coq Require Import ZArith NArith Bool List Lia Ring Field.
From Verif Require Import Num Syntax ModelScalar Spec Base ScalarValid Eval ScalarOps ScalarMore Unamb ModelShape ModelArith SpecArr Arr ArrPlus ArrMul ArrMulMat ArrMulAll ArrMulTop ArrTop.
Import ListNotations.
Local Open Scope num_scope.

Section ArrPow.
Context {NN : Num}.

(** ** Minus *)

Lemma as_expr_means g e : as_expr g = Some e -> means g = Some e.
Proof. destruct g; cbn; congruence. Qed.

Lemma expr_minus_minus a g b e : expr_minus a g = Ok e -> means g = Some b -> minus a b = Ok e.
Proof.
  unfold expr_minus. intros E Hg. destruct (check (expr_check a) PCheck) as [u|]; [|discriminate]. cbn [bind] in E.
  destruct (as_expr g) as [b'|] eqn:Eg; [|discriminate]. apply as_expr_means in Eg. rewrite Hg in Eg. injection Eg as <-.
  match type of E with bind ?x _ = _ => destruct x as [u'|]; [|discriminate] end. cbn [bind] in E.
  destruct a as [a|[l|l|l|l]|m]; try exact E. destruct b; try exact E. discriminate.
Qed.

Lemma minus_rgood a b g da db d : valid_array da a -> valid_array db b -> means g = Some b -> broadcast a b da db d ->
  rgood d (plus_zero (sum_exps a b)) (fun i j r => bvalue r a i j - bvalue r b i j) (expr_minus a g).
Proof. intros Va Vb Hg HB e E. apply (minus_function_rgood a b da db d Va Vb HB). eapply expr_minus_minus; eassumption. Qed.

Lemma array_minus_shape a b g da db d e : valid_array da a -> valid_array db b -> means g = Some b -> broadcast a b da db d ->
  expr_minus a g = Ok e -> valid_array d e.
Proof.
  intros Va Vb Hg HB E. destruct (broadcast_pos a b da db d Va Vb HB) as [D1 D2].
  exact (proj1 (rgood_returns d _ _ _ D1 D2 (minus_rgood a b g da db d Va Vb Hg HB) e E)).
Qed.

Lemma array_minus_value a b g da db d e : ExactNum NN -> valid_array da a -> valid_array db b -> means g = Some b -> broadcast a b da db d ->
  unambiguous_exponents (sum_exps a b) -> expr_minus a g = Ok e ->
  forall r i j, i < fst d -> j < snd d -> value r e i j = bvalue r a i j - bvalue r b i j.
Proof.
  intros EX Va Vb Hg HB HU E. destruct (broadcast_pos a b da db d Va Vb HB) as [D1 D2].
  exact (proj2 (rgood_returns d _ _ _ D1 D2 (minus_rgood a b g da db d Va Vb Hg HB) e E) EX HU).
Qed.

Lemma array_minus_degree2 a b g da db d e : ExactNum NN -> valid_array da a -> valid_array db b -> means g = Some b -> broadcast a b da db d ->
  array_degree 2 a -> array_degree 2 b -> expr_minus a g = Ok e ->
  forall r i j, i < fst d -> j < snd d -> value r e i j = bvalue r a i j - bvalue r b i j.
Proof. intros EX Va Vb Hg HB Da Db. apply (array_minus_value a b g da db d e EX Va Vb Hg HB). apply (sum_exps_degree2 da db); assumption. Qed.

Lemma vec_mul_template_not_matrix v s x : vec_mul_template v s = Ok x -> not_matrix x.
Proof. unfold vec_mul_template. destruct (mapM _ _) as [l|]; [|discriminate]. exact (concretize_slice_not_matrix l x). Qed.

Lemma vec_mul_scalar_not_matrix v s x : vec_mul_scalar v s = Ok x -> not_matrix x.
Proof.
  unfold vec_mul_scalar. destruct (check (vec_check v) PCheck); [|discriminate]. cbn [bind]. destruct (operand_check _ _ _); [|discriminate]. cbn [bind].
  intro E. assert (E' : simplify_result (vec_mul_template v s) = Ok x) by (destruct v; try exact E; destruct s; first [exact E | discriminate E]).
  apply (simplified_not_matrix _ _ E'). intros e. apply vec_mul_template_not_matrix.
Qed.

Lemma vec_times_float_not_matrix v f t : expr_mul (EV v) (GFloat f) = Ok t -> not_matrix t.
Proof.
  cbn [expr_mul]. unfold vec_mul. destruct (check (vec_check v) PCheck); [|discriminate]. cbn [bind]. destruct (operand_check _ _ _); [|discriminate]. cbn [bind].
  intro E. destruct v as [l|l|l|l]; try (exact (vec_mul_scalar_not_matrix _ _ _ E));
    apply (simplified_not_matrix _ _ E); intros e; apply vec_mul_scalar_not_matrix.
Qed.

Lemma times_minus_one_good a b db : valid_array db b -> multiply_accepts b (GFloat nm1) = true -> variable_matrix_times_number b (ES (SK nm1)) = false ->
  exists t, expr_mul b (GFloat nm1) = Ok t /\ arr db (fun i j => sden (plus_zero (sum_exps a b)) (fun r => value r b i j * nm1)) t.
Proof.
  intros Vb HT HV. destruct (array_multiply_total b (ES (SK nm1)) (GFloat nm1) db (1, 1) db Vb) as (t & E).
  - split; [exact (le_n 1)|]. split; [exact (le_n 1)|]. split; [split; [reflexivity | repeat constructor]|]. intros [|i] [|j] Hi Hj; cbn in Hi, Hj; try lia; exact I.
  - reflexivity.
  - right. left. split; [exact I | reflexivity].
  - exact HT.
  - exact HV.
  - destruct b as [|[]|[]]; reflexivity.
  - exists t. split; [exact E|]. exact (times_minus_one a b db Vb t E).
Qed.

Lemma array_minus_total a b g da db d : valid_array da a -> valid_array db b -> means g = Some b -> broadcast a b da db d ->
  minus_accepts a g = true -> exists e, expr_minus a g = Ok e.
Proof.
  intros Va Vb Hg HB HT. destruct (valid_array_check da a Va) as [Ca Da]. destruct (valid_array_check db b Vb) as [Cb Db].
  assert (NM : not_matrix a /\ not_matrix b /\ as_expr g = Some b /\ (match a, b with ES (SM _), EV _ => False | _, _ => True end)).
  { destruct g as [f|z|l|l|l|l|[s|v|m]|]; destruct a as [[| | |]|[]|[]]; try discriminate HT; cbn in Hg; injection Hg as <-; repeat split; exact I. }
  destruct NM as (Na & Nb & Eg & HM).
  destruct (times_minus_one_good a b db Vb) as (t & Et & Ht).
  { destruct b as [[| | |]|[]|[]]; try destruct Nb; reflexivity. } { destruct b as [|[]|[]]; try destruct Nb; reflexivity. }
  assert (Nt : not_matrix t /\ (is_scalar b -> is_scalar t)).
  { destruct b as [s|v|m]; [|split; [exact (vec_times_float_not_matrix v nm1 t Et) | intros []]|destruct Nb].
    pose proof (mul_float_scalar _ _ _ Et). destruct t; try destruct H. split; auto. }
  destruct Nt as [Nt Hs].
  destruct (plus_dens a b da db Va Vb) as [Ha _]. pose proof Va as (A1 & A2 & _). pose proof Vb as (B1 & B2 & _).
  assert (HB' : broadcast a t da db d).
  { destruct HB as [X|[X|[X ->]]]; [left; exact X | right; left; exact X|]. right. right. auto. }
  assert (HP : exists e, expr_plus a (GExpr t) = Ok e).
  { destruct (expr_plus_good _ (plus_zero_zero _) da db d _ _ a (GExpr t) t A1 A2 B1 B2 Ha eq_refl Ht HB') as (e & E & _); [| |eauto].
    - destruct t as [t|t|t]; [| |destruct Nt]; destruct a as [[| | |]|[]|[]]; try destruct Na; try reflexivity.
      destruct b as [b|b|b]; [destruct (Hs I) | destruct HM | destruct Nb].
    - destruct t as [[]|[]|[]]; destruct a as [[]|[]|[]]; try destruct Na; try destruct Nt; reflexivity. }
  destruct HP as [e E]. exists e. unfold expr_minus. rewrite Ca. cbn [check bind]. rewrite Eg.
  assert (D : dims_add da db = true).
  { unfold dims_add. destruct HB as [[-> _]|[[X _]|[X _]]].
    - unfold dims_eqb. rewrite !Nat.eqb_refl. reflexivity.
    - destruct a; try destruct X. rewrite (valid_array_ES da _ Va). rewrite orb_true_iff. left. apply orb_true_r.
    - destruct b; try destruct X. rewrite (valid_array_ES db _ Vb). apply orb_true_r. }
  assert (O : operand_check dims_add (expr_dims a) (GExpr b) = Ok tt).
  { unfold operand_check. cbn [as_expr]. rewrite Cb. cbn [check bind]. rewrite Da. cbn [bind]. rewrite Db. cbn [bind]. rewrite D. reflexivity. }
  assert (M : minus a b = Ok e) by (unfold minus; rewrite Et; exact E).
  assert (O2 : match a with ES (SK _) | ES (SP _) => check (expr_check b) PCheck | _ => operand_check dims_add (expr_dims a) (GExpr b) end = Ok tt).
  { rewrite Cb. destruct a as [[]| |]; first [exact O | reflexivity]. }
  rewrite O2. cbn [bind]. destruct a as [[]|[]|[]]; try exact M. destruct b; [exact M | exact M | destruct Nb].
Qed.

Lemma array_minus_mismatch a b g da db : valid_array da a -> valid_array db b -> as_expr g = Some b ->
  da <> db -> da <> (1, 1) -> db <> (1, 1) -> expr_minus a g = Panic PDim.
Proof.
  intros Va Vb Eg N1 N2 N3. destruct (valid_array_check da a Va) as [Ca Da].
  assert (D : dims_add da db = false).
  { unfold dims_add. destruct (dims_eqb da db) eqn:E; [apply dims_eqb_eq in E; contradiction|].
    destruct (dims_scalar da) eqn:E1; [apply dims_scalar_eq in E1; contradiction|]. destruct (dims_scalar db) eqn:E2; [apply dims_scalar_eq in E2; contradiction | reflexivity]. }
  unfold expr_minus. rewrite Ca. cbn [check bind]. rewrite Eg.
  destruct a as [s|v|m]; [destruct N2; apply (valid_array_ES da s Va)| |]; rewrite (operand_mismatch dims_add _ da (GExpr b) b db Da eq_refl Vb D); reflexivity.
Qed.

(** ** Identity, zeros, ones *)

Lemma zeros_matrix_arr r c : 1 <= r -> 1 <= c -> exists l, zeros_matrix r c = Ok l /\ grid (r, c) (fun _ _ k => k = n0) l.
Proof.
  intros Hr Hc. exists (repeat (repeat n0 c) r). split; [unfold zeros_matrix; destruct (Nat.eqb_spec r 0); [lia|]; destruct (Nat.eqb_spec c 0); [lia | reflexivity]|].
  split; [apply repeat_length|]. intros i Hi. exists (repeat n0 c). split; [apply nth_error_repeat; exact Hi|]. split; [apply repeat_length|].
  intros j Hj. exists n0. split; [apply nth_error_repeat; exact Hj | reflexivity].
Qed.

Lemma set_nth_nth {A} (l : list A) i a j : i < length l -> nth_error (set_nth i a l) j = if Nat.eqb i j then Some a else nth_error l j.
Proof.
  revert i j. induction l as [|x l IH]; intros [|i] [|j] Hi; cbn in *; try lia; try reflexivity. apply IH. lia.
Qed.

Lemma set_nth_len {A} (l : list A) i a : length (set_nth i a l) = length l.
Proof. revert i. induction l as [|x l IH]; intros [|i]; cbn; congruence. Qed.

Lemma identity_matrix_grid n : 1 <= n -> exists l, identity_matrix n = Ok l /\ grid (n, n) (fun i j k => k = if Nat.eqb i j then n1 else n0) l.
Proof.
  intro Hn. destruct (zeros_matrix_arr n n Hn Hn) as (z & Ez & Lz & Hz). unfold identity_matrix. rewrite Ez. cbn [bind].
  eexists. split; [reflexivity|]. cbn [fst snd] in *. split.
  - rewrite map_length, combine_length, seq_length, Lz. cbn. lia.
  - intros i Hi. cbn [fst] in Hi. destruct (Hz i Hi) as (row & E & Lr & Hr). exists (set_nth i n1 row). split.
    + rewrite nth_error_map, nth_error_combine, E. rewrite nth_error_seq_at by exact Hi. reflexivity.
    + split; [rewrite set_nth_len; exact Lr|]. intros j Hj. cbn [snd] in *. rewrite set_nth_nth by lia. destruct (Nat.eqb i j); [eexists; split; reflexivity|].
      exact (Hr j Hj).
Qed.

(** ** Power *)

Definition pow_family (e : expr) (n : nat) : (N -> Z) -> Prop := plus_zero (power_exps e n).

Lemma pow_family_S e n f : pow_family e n f -> pow_family e (S n) f.
Proof. intros [H|H]; [left; left; exact H | right; exact H]. Qed.

Lemma pow_family_mono e n k f : pow_family e n f -> pow_family e (k + n)%nat f.
Proof. intro H. induction k as [|k IH]; [exact H|]. apply pow_family_S. exact IH. Qed.

Lemma power_exps_ext e n f g : power_exps e n g -> (forall i, f i = g i) -> power_exps e n f.
Proof.
  revert f g. induction n as [|n IH]; intros f g H E; cbn in *.
  - intro i. rewrite E. apply H.
  - destruct H as [H|(g1 & h & H1 & H2 & H3)]; [left; exact (IH f g H E)|]. right. exists g1, h. split; [exact H1|]. split; [exact H2|]. intro i. rewrite E. apply H3.
Qed.

Lemma power_exps_zero e n f : (forall i, f i = 0%Z) -> power_exps e n f.
Proof. intro H. induction n as [|n IH]; [exact H | left; exact IH]. Qed.

Lemma pow_HP e n : forall f g h, pow_family e n g -> has_term e h -> (forall i, f i = (g i + h i)%Z) -> pow_family e (S n) f.
Proof.
  intros f g h Hg Hh E. left. right. exists g, h. split; [|split; [exact Hh | exact E]]. destruct Hg as [Hg|Hg]; [exact Hg | apply power_exps_zero; exact Hg].
Qed.

Lemma big_is_matrix d P e : 2 <= fst d -> 2 <= snd d -> arr d P e -> exists m, e = EM m.
Proof.
  intros D1 D2 H. destruct e as [s|v|m]; [| |eauto].
  - pose proof (arr_ES_dims d P s ltac:(lia) H) as ->. cbn in D1. lia.
  - pose proof (arr_EV_cols d P v ltac:(lia) H). lia.
Qed.

Lemma mat_power_loop_ok n me k : 2 <= n -> valid_array (n, n) (EM me) -> forall c out,
  arr (n, n) (fun i j => sden (pow_family (EM me) c) (fun r => mat_npow n (value r (EM me)) c i j)) (EM out) ->
  exists p, mat_power_loop me k out = Ok p /\
    arr (n, n) (fun i j => sden (pow_family (EM me) (k + c)) (fun r => mat_npow n (value r (EM me)) (k + c) i j)) (EM p).
Proof.
  intros Hn V. induction k as [|k IH]; intros c out Ho; cbn [mat_power_loop].
  - exists out. split; [reflexivity | exact Ho].
  - pose proof (valid_array_cden (n, n) (EM me) (pow_family (EM me) (S c)) V) as Hm.
    assert (Ho' : arr (n, n) (fun i j => cden (pow_family (EM me) c) (pow_family (EM me) (S c)) (fun r => mat_npow n (value r (EM me)) c i j)) (EM out)).
    { eapply arr_impl; [|exact Ho]. intros i j s _ _ (Vs & Ws & Es). split; [exact Vs|]. split; [exact Ws|]. intros EX HU. apply Es; [exact EX|].
      eapply unambiguous_sub; [|exact HU]. apply pow_family_S. }
    assert (D : product_dims (EM out) (EM me) (n, n) (n, n) (n, n)) by (right; right; repeat split; intros []).
    assert (N1 : 1 <= n) by lia.
    destruct (expr_mul_good _ _ _ (plus_zero_zero (power_exps (EM me) (S c))) (pow_HP (EM me) c) (n, n) (n, n) (n, n) _ _ (EM out) (GExpr (EM me)) (EM me)
      N1 N1 N1 N1 Ho' eq_refl Hm D) as (e & E & He); try (destruct out; reflexivity).
    cbn [expr_mul] in E. rewrite E. cbn [bind].
    assert (exists m, e = EM m) as [m ->] by (apply (big_is_matrix (n, n) _ _ Hn Hn He)).
    cbn [as_matrix bind]. destruct (IH (S c) m) as (p & Ep & Hp).
    + eapply arr_impl; [|exact He]. intros i j s _ _. apply sden_ext. intros _ r. unfold pval. reflexivity.
    + exists p. split; [exact Ep|]. replace (S k + c)%nat with (k + S c)%nat by lia. exact Hp.
Qed.

Lemma mat_power_ok n me z : 2 <= n -> valid_array (n, n) (EM me) -> (0 <= z)%Z ->
  exists p, mat_power me z = Ok p /\
    arr (n, n) (fun i j => sden (pow_family (EM me) (Z.to_nat z)) (fun r => mat_npow n (value r (EM me)) (Z.to_nat z) i j)) (EM p).
Proof.
  intros Hn V Hz. destruct (valid_array_check _ _ V) as [C D]. cbn [expr_check expr_dims] in C, D. unfold mat_power. rewrite C. cbn [check bind].
  rewrite D. cbn [bind fst snd]. rewrite Nat.eqb_refl. cbn [check bind]. apply Z.leb_le in Hz. rewrite Hz. cbn [check bind].
  destruct (identity_matrix_grid n ltac:(lia)) as (l & El & Hl). rewrite El. cbn [bind].
  assert (HI : arr (n, n) (fun i j => sden (pow_family (EM me) 0) (fun r => if Nat.eqb i j then n1 else n0)) (EM (MK l))).
  { apply arr_EM. cbn [mat_rows]. apply grid_map. eapply grid_impl; [|exact Hl]. intros i j k _ _ ->. split; [exact I|]. split; [|reflexivity].
    intros m [<-|[]]. exists (fun _ => 0%Z). split; [right; reflexivity | reflexivity]. }
  assert (H0 : arr (1, 1) (fun i j => sden (pow_family (EM me) 0) (fun r => n0)) (ES (SK n0))).
  { apply arr_ES. split; [exact I|]. split; [|reflexivity]. intros m [<-|[]]. exists (fun _ => 0%Z). split; [right; reflexivity | reflexivity]. }
  assert (N1 : 1 <= n) by lia.
  assert (HB : broadcast (ES (SK n0)) (EM (MK l)) (1, 1) (n, n) (n, n)) by (right; left; split; [exact I | reflexivity]).
  destruct (expr_plus_good _ (plus_zero_zero (power_exps (EM me) 0)) (1, 1) (n, n) (n, n) _ _ (ES (SK n0)) (GDense l) (EM (MK l))
    (le_n 1) (le_n 1) N1 N1 H0 eq_refl HI HB eq_refl eq_refl) as (e & E & He).
  cbn [expr_plus] in E. rewrite E. cbn [bind].
  assert (exists m, e = EM m) as [m ->] by (apply (big_is_matrix (n, n) _ _ Hn Hn He)). cbn [as_matrix bind].
  destruct (mat_power_loop_ok n me (Z.to_nat z) Hn V 0 m) as (p & Ep & Hp).
  - eapply arr_impl; [|exact He]. intros i j s _ _. apply sden_ext. intros EX r. cbn [bphi mat_npow]. apply (Radd_0_l (F_R (@ex_field NN EX))).
  - exists p. rewrite Nat.add_0_r in Hp. split; [exact Ep | exact Hp].
Qed.

Lemma array_power_total n me z : 2 <= n -> valid_array (n, n) (EM me) -> (0 <= z)%Z -> exists p, expr_power (EM me) z = Ok p /\ valid_array (n, n) p.
Proof.
  intros Hn V Hz. destruct (mat_power_ok n me z Hn V Hz) as (p & E & H). exists (EM p). cbn [expr_power]. rewrite E. split; [reflexivity|].
  assert (N1 : 1 <= n) by lia. exact (arr_valid (n, n) _ _ N1 N1 H (den_valid _ (fun i j r => mat_npow n (value r (EM me)) (Z.to_nat z) i j))).
Qed.

Lemma array_power_value n me z p : ExactNum NN -> 2 <= n -> valid_array (n, n) (EM me) -> (0 <= z)%Z ->
  unambiguous_exponents (power_exps (EM me) (Z.to_nat z)) -> expr_power (EM me) z = Ok p ->
  forall r i j, i < n -> j < n -> value r p i j = mat_npow n (value r (EM me)) (Z.to_nat z) i j.
Proof.
  intros EX Hn V Hz HU E r i j Hi Hj. destruct (mat_power_ok n me z Hn V Hz) as (q & Eq & H). cbn [expr_power] in E. rewrite Eq in E. injection E as <-.
  destruct (arr_entry (n, n) _ _ i j H Hi Hj) as (_ & _ & Hv). exact (Hv EX (plus_zero_unambiguous _ HU) r).
Qed.

Lemma power_exps_numeric e n f : numeric e -> power_exps e n f -> forall i, f i = 0%Z.
Proof.
  intro HN. revert f. induction n as [|n IH]; cbn; intros f H i; [apply H|]. destruct H as [H|(g & h & Hg & (row & s & m & H1 & H2 & H3 & H4) & E)]; [exact (IH f H i)|].
  rewrite E, (IH g Hg i), H4. destruct (HN row s H1 H2) as [k ->]. destruct H3 as [<-|[]]. reflexivity.
Qed.

Lemma power_exps_variable e d x n f : valid_array d e -> array_variable x e -> power_exps e n f -> forall i, i <> x -> f i = 0%Z.
Proof.
  intros V HV. revert f. induction n as [|n IH]; cbn; intros f H i Hi; [apply H|]. destruct H as [H|(g & h & Hg & Hh & E)]; [exact (IH f H i Hi)|].
  rewrite E, (IH g Hg i Hi), (has_term_variable d e x h i V HV Hh Hi). reflexivity.
Qed.

Lemma power_exps_degree e d k n : valid_array d e -> array_degree k e -> (0 <= k)%Z -> degree_fn (power_exps e n) (k * Z.of_nat n).
Proof.
  intros V HD Hk. induction n as [|n IH]; intros f H L HN; cbn in H.
  - rewrite (sumL_ext L f (fun _ => 0%Z)) by (intros; apply H). clear. induction L; cbn in *; lia.
  - destruct H as [H|(g & h & Hg & Hh & E)].
    + specialize (IH f H L HN). lia.
    + rewrite (sumL_ext L f (fun i => (g i + h i)%Z)) by (intros; apply E). rewrite sumL_add. specialize (IH g Hg L HN).
      pose proof (has_term_degree d e k V HD h Hh L HN). lia.
Qed.

Lemma array_power_numeric n me z p : ExactNum NN -> 2 <= n -> valid_array (n, n) (EM me) -> (0 <= z)%Z -> numeric (EM me) -> expr_power (EM me) z = Ok p ->
  forall r i j, i < n -> j < n -> value r p i j = mat_npow n (value r (EM me)) (Z.to_nat z) i j.
Proof.
  intros EX Hn V Hz HN. apply (array_power_value n me z p EX Hn V Hz). apply zero_exponents. intros f i Hf. exact (power_exps_numeric _ _ f HN Hf i).
Qed.

Lemma array_power_variable x n me z p : ExactNum NN -> 2 <= n -> valid_array (n, n) (EM me) -> (0 <= z)%Z -> array_variable x (EM me) -> expr_power (EM me) z = Ok p ->
  forall r i j, i < n -> j < n -> value r p i j = mat_npow n (value r (EM me)) (Z.to_nat z) i j.
Proof.
  intros EX Hn V Hz HN. apply (array_power_value n me z p EX Hn V Hz). apply (one_variable_exponents _ x). intros f i Hf Hi. exact (power_exps_variable _ _ x _ f V HN Hf i Hi).
Qed.

Lemma array_power_degree2 k n me z p : ExactNum NN -> 2 <= n -> valid_array (n, n) (EM me) -> (0 <= z)%Z -> array_degree k (EM me) -> (0 <= k)%Z -> (k * z <= 2)%Z ->
  expr_power (EM me) z = Ok p ->
  forall r i j, i < n -> j < n -> value r p i j = mat_npow n (value r (EM me)) (Z.to_nat z) i j.
Proof.
  intros EX Hn V Hz HD Hk Hkz. apply (array_power_value n me z p EX Hn V Hz). apply degree_exponents. intros f Hf L HN.
  pose proof (power_exps_degree (EM me) _ k (Z.to_nat z) V HD Hk f Hf L HN). rewrite Z2Nat.id in H by exact Hz. lia.
Qed.

Lemma array_power_not_square me d z : valid_array d (EM me) -> fst d <> snd d -> expr_power (EM me) z = Panic POther.
Proof.
  intros V Hd. destruct (valid_array_check _ _ V) as [C D]. cbn [expr_check expr_dims expr_power] in *. unfold mat_power. rewrite C. cbn [check bind]. rewrite D. cbn [bind].
  destruct (Nat.eqb_spec (fst d) (snd d)); [contradiction | reflexivity].
Qed.

Lemma array_power_negative me n z : valid_array (n, n) (EM me) -> (z < 0)%Z -> expr_power (EM me) z = Panic PNegExp.
Proof.
  intros V Hz. destruct (valid_array_check _ _ V) as [C D]. cbn [expr_check expr_dims expr_power] in *. unfold mat_power. rewrite C. cbn [check bind]. rewrite D. cbn [bind fst snd].
  rewrite Nat.eqb_refl. cbn [check bind]. assert (X : Z.leb 0 z = false) by (apply Z.leb_gt; exact Hz). rewrite X. reflexivity.
Qed.

Lemma vector_power_length v n z : valid_array (n, 1) (EV v) -> n <> 1 -> (0 <= z)%Z -> expr_power (EV v) z = Panic POther.
Proof.
  intros V Hn Hz. destruct (valid_array_check _ _ V) as [C D]. cbn [expr_check expr_dims expr_power] in *. unfold vec_power. rewrite C. cbn [check bind].
  apply Z.leb_le in Hz. rewrite Hz. cbn [check bind]. unfold vec_dims in D. destruct (vec_len v) as [k|]; [|discriminate]. injection D as ->. cbn [bind].
  destruct (Nat.eqb_spec n 1); [contradiction | reflexivity].
Qed.

End ArrPow.
