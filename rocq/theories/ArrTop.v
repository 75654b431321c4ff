(** * Sums, differences and products of arrays: the statements *)

From Coq Require Import ZArith NArith Bool List Lia Ring Field.
From Verif Require Import Num Syntax ModelScalar Spec Base ScalarValid Eval ScalarOps ScalarMore Unamb ModelShape ModelArith SpecArr Arr ArrPlus ArrMul ArrMulMat ArrMulAll ArrMulTop.
Import ListNotations.
Local Open Scope num_scope.

Section ArrTop.
Context {NN : Num}.

Local Notation den d F phi := (arr d (fun i j => sden F (phi i j))) (only parsing).

(** ** Families of exponents *)

Lemma valid_array_entry d e row s : valid_array d e -> In row (rows e) -> In s row -> valid s.
Proof.
  intros (_ & _ & (L & HL) & V) Hr Hs. apply In_nth_error in Hr. destruct Hr as [i Hi]. apply In_nth_error in Hs. destruct Hs as [j Hj].
  assert (Li : i < fst d) by (rewrite <- L; eapply nth_error_bound; exact Hi).
  assert (Lr : length row = snd d) by (rewrite Forall_forall in HL; apply HL; eapply nth_error_In; exact Hi).
  assert (Lj : j < snd d) by (rewrite <- Lr; eapply nth_error_bound; exact Hj).
  specialize (V i j Li Lj). unfold entry in V. rewrite (nth_error_nth_eq _ _ _ [] Hi), (nth_error_nth_eq _ _ _ _ Hj) in V. exact V.
Qed.

Lemma has_term_valid d e f : valid_array d e -> has_term e f -> exists m, valid_mono m /\ forall i, f i = exponent m i.
Proof.
  intros V (row & s & m & H1 & H2 & H3 & H4). exists m. split; [|exact H4].
  pose proof (valid_terms s (valid_array_entry d e row s V H1 H2)) as HV. rewrite Forall_forall in HV. exact (HV m H3).
Qed.

Lemma has_term_degree d e k : valid_array d e -> array_degree k e -> degree_fn (has_term e) k.
Proof.
  intros V D f (row & s & m & H1 & H2 & H3 & H4) L HN. rewrite (sumL_ext L f (exponent m)) by (intros; apply H4).
  destruct (degree_terms s k (valid_array_entry d e row s V H1 H2) (D row s H1 H2) m H3) as [Vm Dm].
  pose proof (sumL_exponent_le m L Vm HN). lia.
Qed.

Lemma has_term_variable d e x f i : valid_array d e -> array_variable x e -> has_term e f -> i <> x -> f i = 0%Z.
Proof.
  intros V D (row & s & m & H1 & H2 & H3 & H4) Hi. rewrite H4.
  exact (only_variable_exponent x s m i (D row s H1 H2) (valid_array_entry d e row s V H1 H2) H3 Hi).
Qed.

Lemma sum_exps_degree2 da db a b : valid_array da a -> valid_array db b -> array_degree 2 a -> array_degree 2 b -> unambiguous_exponents (sum_exps a b).
Proof.
  intros Va Vb Ha Hb. apply degree_exponents. intros f [Hf|Hf]; [exact (has_term_degree da a 2 Va Ha f Hf) | exact (has_term_degree db b 2 Vb Hb f Hf)].
Qed.

Lemma sum_exps_variable da db a b x : valid_array da a -> valid_array db b -> array_variable x a -> array_variable x b -> unambiguous_exponents (sum_exps a b).
Proof.
  intros Va Vb Ha Hb. apply (one_variable_exponents _ x). intros f i [Hf|Hf] Hi; [exact (has_term_variable da a x f i Va Ha Hf Hi) | exact (has_term_variable db b x f i Vb Hb Hf Hi)].
Qed.

Lemma product_exps_degree2 da db a b ka kb : valid_array da a -> valid_array db b -> array_degree ka a -> array_degree kb b -> (ka + kb <= 2)%Z ->
  unambiguous_exponents (product_exps a b).
Proof.
  intros Va Vb Ha Hb Hk. apply degree_exponents. intros f (g & h & Hg & Hh & E) L HN.
  rewrite (sumL_ext L f (fun i => (g i + h i)%Z)) by (intros; apply E). rewrite sumL_add.
  pose proof (has_term_degree da a ka Va Ha g Hg L HN). pose proof (has_term_degree db b kb Vb Hb h Hh L HN). lia.
Qed.

Lemma product_exps_variable da db a b x : valid_array da a -> valid_array db b -> array_variable x a -> array_variable x b ->
  unambiguous_exponents (product_exps a b).
Proof.
  intros Va Vb Ha Hb. apply (one_variable_exponents _ x). intros f i (g & h & Hg & Hh & E) Hi.
  rewrite E, (has_term_variable da a x g i Va Ha Hg Hi), (has_term_variable db b x h i Vb Hb Hh Hi). reflexivity.
Qed.

(** ** Plus *)

Lemma bphi_bvalue r e i j : bphi e (fun i j r => value r e i j) i j r = bvalue r e i j.
Proof. destruct e; reflexivity. Qed.

Definition returns (d : nat * nat) (U : Prop) (phi : nat -> nat -> assignment -> num) (x : res expr) : Prop :=
  forall e, x = Ok e -> valid_array d e /\ (ExactNum NN -> U -> forall r i j, i < fst d -> j < snd d -> value r e i j = phi i j r).

Lemma broadcast_pos a b da db d : valid_array da a -> valid_array db b -> broadcast a b da db d -> 1 <= fst d /\ 1 <= snd d.
Proof. intros (A1 & A2 & _) (B1 & B2 & _) [[_ ->]|[[_ ->]|[_ ->]]]; auto. Qed.

Lemma rgood_returns d F phi x : 1 <= fst d -> 1 <= snd d -> rgood d (plus_zero F) phi x -> returns d (unambiguous_exponents F) phi x.
Proof.
  intros D1 D2 H e E. specialize (H e E). split; [exact (arr_valid d _ e D1 D2 H (den_valid _ phi))|].
  intros EX HU r i j Hi Hj. destruct (arr_entry d _ e i j H Hi Hj) as (_ & _ & Hv). exact (Hv EX (plus_zero_unambiguous F HU) r).
Qed.

Lemma plus_dens a b da db : valid_array da a -> valid_array db b ->
  den da (plus_zero (sum_exps a b)) (fun i j r => value r a i j) a /\ den db (plus_zero (sum_exps a b)) (fun i j r => value r b i j) b.
Proof.
  intros Va Vb. split; apply valid_array_den; try assumption; intros f Hf; left; [left | right]; exact Hf.
Qed.

Lemma plus_rgood a b g da db d : valid_array da a -> valid_array db b -> means g = Some b -> broadcast a b da db d ->
  rgood d (plus_zero (sum_exps a b)) (fun i j r => bvalue r a i j + bvalue r b i j) (expr_plus a g).
Proof.
  intros Va Vb Hg HB. destruct (plus_dens a b da db Va Vb) as [Ha Hb]. destruct Va as (A1 & A2 & _). destruct Vb as (B1 & B2 & _).
  intros e E. pose proof (expr_plus_rgood _ (plus_zero_zero _) da db d _ _ a g b A1 A2 B1 B2 Ha Hg Hb HB e E) as G.
  eapply arr_impl; [|exact G]. intros i j s _ _. apply sden_ext. intros _ r. rewrite !bphi_bvalue. reflexivity.
Qed.

Lemma array_plus_shape a b g da db d e : valid_array da a -> valid_array db b -> means g = Some b -> broadcast a b da db d ->
  expr_plus a g = Ok e -> valid_array d e.
Proof.
  intros Va Vb Hg HB E. destruct (broadcast_pos a b da db d Va Vb HB) as [D1 D2].
  exact (proj1 (rgood_returns d _ _ _ D1 D2 (plus_rgood a b g da db d Va Vb Hg HB) e E)).
Qed.

Lemma array_plus_value a b g da db d e : ExactNum NN -> valid_array da a -> valid_array db b -> means g = Some b -> broadcast a b da db d ->
  unambiguous_exponents (sum_exps a b) -> expr_plus a g = Ok e ->
  forall r i j, i < fst d -> j < snd d -> value r e i j = bvalue r a i j + bvalue r b i j.
Proof.
  intros EX Va Vb Hg HB HU E. destruct (broadcast_pos a b da db d Va Vb HB) as [D1 D2].
  exact (proj2 (rgood_returns d _ _ _ D1 D2 (plus_rgood a b g da db d Va Vb Hg HB) e E) EX HU).
Qed.

Lemma array_plus_degree2 a b g da db d e : ExactNum NN -> valid_array da a -> valid_array db b -> means g = Some b -> broadcast a b da db d ->
  array_degree 2 a -> array_degree 2 b -> expr_plus a g = Ok e ->
  forall r i j, i < fst d -> j < snd d -> value r e i j = bvalue r a i j + bvalue r b i j.
Proof. intros EX Va Vb Hg HB Da Db. apply (array_plus_value a b g da db d e EX Va Vb Hg HB). apply (sum_exps_degree2 da db); assumption. Qed.

Lemma array_plus_variable x a b g da db d e : ExactNum NN -> valid_array da a -> valid_array db b -> means g = Some b -> broadcast a b da db d ->
  array_variable x a -> array_variable x b -> expr_plus a g = Ok e ->
  forall r i j, i < fst d -> j < snd d -> value r e i j = bvalue r a i j + bvalue r b i j.
Proof. intros EX Va Vb Hg HB Da Db. apply (array_plus_value a b g da db d e EX Va Vb Hg HB). apply (sum_exps_variable da db a b x); assumption. Qed.

Lemma array_plus_total a b g da db d : valid_array da a -> valid_array db b -> means g = Some b -> broadcast a b da db d ->
  plus_accepts a g = true -> variable_matrix_and_numbers a b = false -> exists e, expr_plus a g = Ok e.
Proof.
  intros Va Vb Hg HB HT HV. destruct (plus_dens a b da db Va Vb) as [Ha Hb]. destruct Va as (A1 & A2 & _). destruct Vb as (B1 & B2 & _).
  destruct (expr_plus_good _ (plus_zero_zero _) da db d _ _ a g b A1 A2 B1 B2 Ha Hg Hb HB HT HV) as (e & E & _). eauto.
Qed.

Lemma array_plus_variable_matrix a b g da db d : ExactNum NN -> valid_array da a -> valid_array db b -> means g = Some b -> broadcast a b da db d ->
  plus_accepts a g = true -> variable_matrix_and_numbers a b = true -> no_zero a -> no_zero b -> exists e, expr_plus a g = Ok e.
Proof.
  intros EX Va Vb Hg HB HT HV Na Nb. destruct (plus_dens a b da db Va Vb) as [Ha Hb]. destruct Va as (A1 & A2 & _). destruct Vb as (B1 & B2 & _).
  exact (expr_plus_var_mat_total _ (plus_zero_zero _) da db d _ _ a g b EX A1 A2 B1 B2 Ha Hg Hb HB HT HV Na Nb).
Qed.

(** ** Mismatching dimensions *)

Lemma operand_mismatch dims left da g b db : left = Ok da -> as_expr g = Some b -> valid_array db b -> dims da db = false ->
  operand_check dims left g = Panic PDim.
Proof.
  intros El Eg Vb D. pose proof (valid_array_arr db b Vb) as Hb. destruct Vb as (B1 & B2 & _).
  assert (HV : forall i j s, entry b i j = s /\ valid s -> valid s) by (intros i j s [_ X]; exact X).
  unfold operand_check. rewrite Eg, (expr_check_arr _ _ _ B1 B2 HV Hb). cbn. rewrite El. cbn.
  rewrite (expr_dims_arr _ _ _ B1 B2 HV Hb). cbn. rewrite D. reflexivity.
Qed.

Lemma valid_array_check d e : valid_array d e -> expr_check e = true /\ expr_dims e = Ok d.
Proof.
  intro V. pose proof (valid_array_arr d e V) as H. destruct V as (B1 & B2 & _).
  assert (HV : forall i j s, entry e i j = s /\ valid s -> valid s) by (intros i j s [_ X]; exact X).
  split; [exact (expr_check_arr _ _ _ B1 B2 HV H) | exact (expr_dims_arr _ _ _ B1 B2 HV H)].
Qed.

Lemma valid_array_ES d s : valid_array d (ES s) -> d = (1, 1).
Proof. intro V. pose proof (valid_array_arr d _ V) as H. destruct V as (B1 & _). exact (arr_ES_dims _ _ _ B1 H). Qed.

Lemma dims_eqb_eq d d' : dims_eqb d d' = true -> d = d'.
Proof. destruct d, d'. unfold dims_eqb. cbn. intro H. apply andb_true_iff in H. destruct H as [H1 H2]. apply Nat.eqb_eq in H1, H2. congruence. Qed.

Lemma dims_scalar_eq d : dims_scalar d = true -> d = (1, 1).
Proof. apply dims_eqb_eq. Qed.

Lemma array_plus_mismatch a b g da db : valid_array da a -> valid_array db b -> means g = Some b ->
  da <> db -> da <> (1, 1) -> db <> (1, 1) -> expr_plus a g = Panic PDim.
Proof.
  intros Va Vb Hg N1 N2 N3. destruct (valid_array_check da a Va) as [Ca Da].
  assert (Eg : as_expr g = Some b). { destruct (means_as_expr g b Hg) as [E|(z & -> & ->)]; [exact E|]. destruct N3. apply (valid_array_ES db _ Vb). }
  assert (D : dims_add da db = false).
  { unfold dims_add. destruct (dims_eqb da db) eqn:E; [apply dims_eqb_eq in E; contradiction|].
    destruct (dims_scalar da) eqn:E1; [apply dims_scalar_eq in E1; contradiction|]. destruct (dims_scalar db) eqn:E2; [apply dims_scalar_eq in E2; contradiction | reflexivity]. }
  destruct a as [s|v|m]; [destruct N2; apply (valid_array_ES da s Va)| |]; cbn [expr_plus].
  - unfold vec_plus. cbn [expr_check] in Ca. rewrite Ca. cbn [check bind]. cbn [expr_dims] in Da. rewrite (operand_mismatch dims_add _ da g b db Da Eg Vb D). reflexivity.
  - cbn [expr_check] in Ca. cbn [expr_dims] in Da. destruct m as [l|l|l|l]; cbn [mat_plus]; unfold k_mat_plus, var_mat_plus, mono_mat_plus, poly_mat_plus;
      rewrite ?Ca; cbn [check bind]; rewrite (operand_mismatch dims_add _ da g b db Da Eg Vb D); reflexivity.
Qed.

Lemma array_multiply_mismatch a b g da db : valid_array da a -> valid_array db b -> means g = Some b ->
  snd da <> fst db -> da <> (1, 1) -> db <> (1, 1) -> expr_mul a g = Panic PDim.
Proof.
  intros Va Vb Hg N1 N2 N3. destruct (valid_array_check da a Va) as [Ca Da].
  assert (Eg : as_expr g = Some b). { destruct (means_as_expr g b Hg) as [E|(z & -> & ->)]; [exact E|]. destruct N3. apply (valid_array_ES db _ Vb). }
  assert (D : dims_mul da db = false).
  { unfold dims_mul. destruct (Nat.eqb_spec (snd da) (fst db)) as [E|_]; [contradiction|].
    destruct (dims_scalar da) eqn:E1; [apply dims_scalar_eq in E1; contradiction|]. destruct (dims_scalar db) eqn:E2; [apply dims_scalar_eq in E2; contradiction | reflexivity]. }
  destruct a as [s|v|m]; [destruct N2; apply (valid_array_ES da s Va)| |]; cbn [expr_mul].
  - unfold vec_mul. cbn [expr_check] in Ca. rewrite Ca. cbn [check bind]. cbn [expr_dims] in Da. rewrite (operand_mismatch dims_mul _ da g b db Da Eg Vb D). reflexivity.
  - cbn [expr_check] in Ca. cbn [expr_dims] in Da. destruct m as [l|l|l|l]; cbn [mat_mul]; unfold k_mat_mul, var_mat_mul, mono_mat_mul, poly_mat_mul;
      rewrite ?Ca; cbn [check bind]; rewrite (operand_mismatch dims_mul _ da g b db Da Eg Vb D); reflexivity.
Qed.

(** ** Multiply *)

Lemma valid_array_cden d e H : valid_array d e -> arr d (fun i j => cden (has_term e) H (fun r => value r e i j)) e.
Proof.
  intro V. pose proof (valid_array_den d e (has_term e) V (fun f X => X)) as G. pose proof (valid_array_arr d e V) as G2.
  destruct G as [L G]. destruct G2 as [_ G2]. split; [exact L|]. intros i Hi. destruct (G i Hi) as (row & E & Lr & Hr). destruct (G2 i Hi) as (row' & E' & _ & Hr').
  rewrite E in E'. injection E' as <-. exists row. split; [exact E|]. split; [exact Lr|]. intros j Hj. destruct (Hr j Hj) as (s & Es & Vs & Ws & _).
  destruct (Hr' j Hj) as (s' & Es' & Ee & _). rewrite Es in Es'. injection Es' as <-. exists s. split; [exact Es|]. split; [exact Vs|]. split; [exact Ws|].
  intros _ _ r. unfold value. rewrite Ee. reflexivity.
Qed.

Lemma product_HP a b : forall f g h, has_term a g -> has_term b h -> (forall i, f i = (g i + h i)%Z) -> plus_zero (product_exps a b) f.
Proof. intros f g h Hg Hh E. left. exists g, h. auto. Qed.

Lemma pval_product_value r a b n i j : pval a b (fun i j r => value r a i j) (fun i j r => value r b i j) n i j r = product_value r a b n i j.
Proof. destruct a, b; reflexivity. Qed.

Lemma product_pos a b da db d : valid_array da a -> valid_array db b -> product_dims a b da db d -> 1 <= fst d /\ 1 <= snd d.
Proof. intros (A1 & A2 & _) (B1 & B2 & _) [[_ ->]|[[_ ->]|(_ & _ & _ & ->)]]; auto. Qed.

Lemma multiply_rgood a b g da db d : valid_array da a -> valid_array db b -> means g = Some b -> product_dims a b da db d ->
  rgood d (plus_zero (product_exps a b)) (fun i j r => product_value r a b (snd da) i j) (expr_mul a g).
Proof.
  intros Va Vb Hg HB. pose proof (valid_array_cden da a (plus_zero (product_exps a b)) Va) as Ha. pose proof (valid_array_cden db b (plus_zero (product_exps a b)) Vb) as Hb.
  destruct Va as (A1 & A2 & _). destruct Vb as (B1 & B2 & _). intros e E.
  pose proof (expr_mul_rgood _ _ _ (plus_zero_zero _) (product_HP a b) da db d _ _ a g b A1 A2 B1 B2 Ha Hg Hb HB e E) as G.
  eapply arr_impl; [|exact G]. intros i j s _ _. apply sden_ext. intros _ r. apply pval_product_value.
Qed.

Lemma array_multiply_shape a b g da db d e : valid_array da a -> valid_array db b -> means g = Some b -> product_dims a b da db d ->
  expr_mul a g = Ok e -> valid_array d e.
Proof.
  intros Va Vb Hg HB E. destruct (product_pos a b da db d Va Vb HB) as [D1 D2].
  exact (proj1 (rgood_returns d _ _ _ D1 D2 (multiply_rgood a b g da db d Va Vb Hg HB) e E)).
Qed.

Lemma array_multiply_value a b g da db d e : ExactNum NN -> valid_array da a -> valid_array db b -> means g = Some b -> product_dims a b da db d ->
  unambiguous_exponents (product_exps a b) -> expr_mul a g = Ok e ->
  forall r i j, i < fst d -> j < snd d -> value r e i j = product_value r a b (snd da) i j.
Proof.
  intros EX Va Vb Hg HB HU E. destruct (product_pos a b da db d Va Vb HB) as [D1 D2].
  exact (proj2 (rgood_returns d _ _ _ D1 D2 (multiply_rgood a b g da db d Va Vb Hg HB) e E) EX HU).
Qed.

Lemma array_multiply_degree2 ka kb a b g da db d e : ExactNum NN -> valid_array da a -> valid_array db b -> means g = Some b -> product_dims a b da db d ->
  array_degree ka a -> array_degree kb b -> (ka + kb <= 2)%Z -> expr_mul a g = Ok e ->
  forall r i j, i < fst d -> j < snd d -> value r e i j = product_value r a b (snd da) i j.
Proof. intros EX Va Vb Hg HB Da Db Hk. apply (array_multiply_value a b g da db d e EX Va Vb Hg HB). apply (product_exps_degree2 da db a b ka kb); assumption. Qed.

Lemma array_multiply_variable x a b g da db d e : ExactNum NN -> valid_array da a -> valid_array db b -> means g = Some b -> product_dims a b da db d ->
  array_variable x a -> array_variable x b -> expr_mul a g = Ok e ->
  forall r i j, i < fst d -> j < snd d -> value r e i j = product_value r a b (snd da) i j.
Proof. intros EX Va Vb Hg HB Da Db. apply (array_multiply_value a b g da db d e EX Va Vb Hg HB). apply (product_exps_variable da db a b x); assumption. Qed.

Lemma array_multiply_total a b g da db d : valid_array da a -> valid_array db b -> means g = Some b -> product_dims a b da db d ->
  multiply_accepts a g = true -> variable_matrix_times_number a b = false -> monomial_matrix_times_variables a b = false -> exists e, expr_mul a g = Ok e.
Proof.
  intros Va Vb Hg HB HT HV HM. pose proof (valid_array_cden da a (plus_zero (product_exps a b)) Va) as Ha. pose proof (valid_array_cden db b (plus_zero (product_exps a b)) Vb) as Hb.
  destruct Va as (A1 & A2 & _). destruct Vb as (B1 & B2 & _).
  destruct (expr_mul_good _ _ _ (plus_zero_zero _) (product_HP a b) da db d _ _ a g b A1 A2 B1 B2 Ha Hg Hb HB HT HV HM) as (e & E & _). eauto.
Qed.

Lemma array_multiply_number a f g da d : ExactNum NN -> valid_array da a -> means g = Some (ES (SK f)) -> product_dims a (ES (SK f)) da (1, 1) d ->
  multiply_accepts a g = true -> variable_matrix_times_number a (ES (SK f)) = true -> f <> n0 -> f <> n1 -> exists e, expr_mul a g = Ok e.
Proof.
  intros EX Va Hg HB HT HV F0 F1. set (b := ES (SK f)) in *.
  assert (Vb : valid_array (1, 1) b). { split; [exact (le_n 1)|]. split; [exact (le_n 1)|]. split; [split; [reflexivity | repeat constructor]|]. intros [|i] [|j] Hi Hj; cbn in Hi, Hj; try lia; exact I. }
  pose proof (valid_array_cden da a (plus_zero (product_exps a b)) Va) as Ha. pose proof (valid_array_cden (1, 1) b (plus_zero (product_exps a b)) Vb) as Hb.
  destruct Va as (A1 & A2 & _).
  exact (expr_mul_number_total _ _ _ (plus_zero_zero _) (product_HP a b) da (1, 1) d _ _ a g f EX A1 A2 (le_n 1) (le_n 1) Ha Hg Hb HB HT HV F0 F1).
Qed.

(** ** Minus *)

Lemma minus_one_family F : has_zero F -> forall f g h, F g -> (fun k => forall i : N, k i = 0%Z) h -> (forall i, f i = (g i + h i)%Z) ->
  exists k, F k /\ forall i, f i = k i.
Proof. intros _ f g h Hg Hh E. exists g. split; [exact Hg|]. intro i. rewrite E, Hh. lia. Qed.

(** closure of a family under equality of functions *)
Lemma sum_exps_ext a b f g : plus_zero (sum_exps a b) g -> (forall i, f i = g i) -> plus_zero (sum_exps a b) f.
Proof.
  intros [[(row & s & m & H1 & H2 & H3 & H4)|(row & s & m & H1 & H2 & H3 & H4)]|H] E.
  - left. left. exists row, s, m. repeat split; auto. intro i. rewrite E. apply H4.
  - left. right. exists row, s, m. repeat split; auto. intro i. rewrite E. apply H4.
  - right. intro i. rewrite E. apply H.
Qed.

Lemma times_minus_one a b db : valid_array db b ->
  rgood db (plus_zero (sum_exps a b)) (fun i j r => value r b i j * nm1) (expr_mul b (GFloat nm1)).
Proof.
  intros Vb. set (H := plus_zero (sum_exps a b)).
  pose proof (valid_array_cden db b H Vb) as Hb. pose proof Vb as (B1 & B2 & _).
  assert (HP : forall f g h, has_term b g -> (fun k => forall i : N, k i = 0%Z) h -> (forall i, f i = (g i + h i)%Z) -> H f).
  { intros f g h Hg Hh E. apply (sum_exps_ext a b f g); [left; right; exact Hg|]. intro i. rewrite E, Hh. lia. }
  assert (Hm : arr (1, 1) (fun i j => cden (fun k => forall i : N, k i = 0%Z) H (fun r => nm1)) (ES (SK nm1))).
  { apply arr_ES. split; [exact I|]. split; [|reflexivity]. intros m [<-|[]]. exists (fun _ => 0%Z). split; [reflexivity|]. intro i. reflexivity. }
  assert (HD : product_dims b (ES (SK nm1)) db (1, 1) db) by (right; left; split; [exact I | reflexivity]).
  intros e E. pose proof (expr_mul_rgood _ _ H (plus_zero_zero _) HP db (1, 1) db _ _ b (GFloat nm1) (ES (SK nm1)) B1 B2 (le_n 1) (le_n 1) Hb eq_refl Hm HD e E) as G.
  eapply arr_impl; [|exact G]. intros i j s Hi Hj. apply sden_ext. intros _ r. unfold pval. destruct b as [b|v|m]; cbn [bphi]; try reflexivity.
  rewrite (arr_ES_dims _ _ _ B1 Hb) in Hi, Hj. cbn in Hi, Hj. replace i with 0 by lia. replace j with 0 by lia. reflexivity.
Qed.

Lemma mul_float_scalar s f e : expr_mul (ES s) (GFloat f) = Ok e -> is_scalar e.
Proof.
  intro E. destruct s; cbn [expr_mul] in E; unfold k_mul_any, var_mul_any, mono_mul_any, poly_mul_any in E;
    repeat match type of E with bind ?x _ = Ok _ => destruct x; [cbn [bind] in E | discriminate E] end;
    unfold as_ES in E; match type of E with bind ?x _ = _ => destruct x; [injection E as <-; exact I | discriminate E] end.
Qed.

Lemma minus_function_rgood a b da db d : valid_array da a -> valid_array db b -> broadcast a b da db d ->
  rgood d (plus_zero (sum_exps a b)) (fun i j r => bvalue r a i j - bvalue r b i j) (minus a b).
Proof.
  intros Va Vb HB e E. unfold minus in E. destruct (expr_mul b (GFloat nm1)) as [t|] eqn:Et; [|discriminate]. cbn [bind] in E.
  pose proof (times_minus_one a b db Vb t Et) as Ht. destruct (plus_dens a b da db Va Vb) as [Ha _].
  destruct Va as (A1 & A2 & _). pose proof Vb as (B1 & B2 & _).
  assert (HB' : broadcast a t da db d).
  { destruct HB as [X|[X|[X ->]]]; [left; exact X | right; left; exact X|]. right. right. split; [|reflexivity]. destruct b; try destruct X. exact (mul_float_scalar _ _ _ Et). }
  pose proof (expr_plus_rgood _ (plus_zero_zero _) da db d _ _ a (GExpr t) t A1 A2 B1 B2 Ha eq_refl Ht HB' e E) as G.
  eapply arr_impl; [|exact G]. intros i j s Hi Hj. apply sden_ext. intros EX r. rewrite bphi_bvalue, <- (@minus_value NN EX). f_equal.
  assert (V : bphi t (fun i j r => value r b i j * nm1) i j r = bvalue r b i j * nm1).
  { assert (HS : is_scalar b -> value r b 0 0 = bvalue r b i j) by (destruct b; intros []; reflexivity).
    destruct t as [t|v|m]; cbn [bphi].
    - pose proof (arr_ES_dims _ _ _ B1 Ht) as ->. destruct b as [b|v|m]; [reflexivity| |];
      (destruct HB as [[-> ->]|[[_ ->]|[[] _]]]; cbn in Hi, Hj; replace i with 0 by lia; replace j with 0 by lia; reflexivity).
    - destruct b as [b|w|m]; try reflexivity. destruct (mul_float_scalar _ _ _ Et).
    - destruct b as [b|w|m0]; try reflexivity. destruct (mul_float_scalar _ _ _ Et). }
  rewrite V. reflexivity.
Qed.

End ArrTop.
