(** * Proofs about the checks of dimensions and indices and about Check *)

From Coq Require Import ZArith NArith Bool Ascii String List Lia.
From Verif Require Import Num Syntax ModelScalar Spec ModelShape ModelArith ModelConstr SpecArr ArrTop ArrShape ArrMisc ArrPow ConProofs ModelSC ModelString ModelErrors SpecErrors StringProofs ErrorProofs.
Import ListNotations.

(** ** Dimensions and indices *)

Lemma dims_eqb_iff d d' : dims_eqb d d' = true <-> d = d'.
Proof. split; [apply dims_eqb_eq|]. intros <-. unfold dims_eqb. rewrite !Nat.eqb_refl. reflexivity. Qed.
Lemma dims_add_iff a b : dims_add a b = true <-> fit_for_sum a b.
Proof. unfold dims_add, fit_for_sum, scalar_dims, dims_scalar. rewrite !orb_true_iff, !dims_eqb_iff. tauto. Qed.
Lemma dims_mul_iff a b : dims_mul a b = true <-> fit_for_product a b.
Proof. unfold dims_mul, fit_for_product, scalar_dims, dims_scalar. rewrite !orb_true_iff, !dims_eqb_iff, Nat.eqb_eq. tauto. Qed.

Lemma sum_check op l r : (if dims_add (o_dims l) (o_dims r) then None else Some (MatrixDimensionError op l r)) = None <-> fit_for_sum (o_dims l) (o_dims r).
Proof. rewrite <- dims_add_iff. destruct (dims_add _ _); split; congruence. Qed.

Lemma addition_check l r : (check_addition l r = None <-> fit_for_sum (o_dims l) (o_dims r))
  /\ forall err, check_addition l r = Some err -> operation err = Some "Plus"%string /\ quantities err = dims_numbers (o_dims l) ++ dims_numbers (o_dims r).
Proof. split; [apply sum_check|]. unfold check_addition. intros err E. destruct (dims_add _ _); [discriminate|]. injection E as <-. split; reflexivity. Qed.
Lemma subtraction_check l r : (check_subtraction l r = None <-> fit_for_sum (o_dims l) (o_dims r))
  /\ forall err, check_subtraction l r = Some err -> operation err = Some "Minus"%string /\ quantities err = dims_numbers (o_dims l) ++ dims_numbers (o_dims r).
Proof. split; [apply sum_check|]. unfold check_subtraction. intros err E. destruct (dims_add _ _); [discriminate|]. injection E as <-. split; reflexivity. Qed.
Lemma multiplication_check l r : (check_multiplication l r = None <-> fit_for_product (o_dims l) (o_dims r))
  /\ forall err, check_multiplication l r = Some err -> operation err = Some "Multiply"%string /\ quantities err = dims_numbers (o_dims l) ++ dims_numbers (o_dims r).
Proof.
  unfold check_multiplication. split; [rewrite <- dims_mul_iff; destruct (dims_mul _ _); split; congruence|].
  intros err E. destruct (dims_mul _ _); [discriminate|]. injection E as <-. split; reflexivity.
Qed.

Lemma neighbours_ok op dim l : check_neighbours op dim l = None <-> forall a b, In a l -> In b l -> dim (o_dims a) = dim (o_dims b).
Proof.
  induction l as [|a [|b l] IH].
  - split; [intros _ a b []|reflexivity].
  - split; [intros _ x y [<-|[]] [<-|[]]; reflexivity | reflexivity].
  - cbn [check_neighbours] in *. destruct (Nat.eqb_spec (dim (o_dims b)) (dim (o_dims a))) as [E|E].
    + rewrite IH. split; intro H.
      * assert (K : forall x, In x (a :: b :: l) -> dim (o_dims x) = dim (o_dims b)).
        { intros x [<-|Hx]; [congruence | apply H; [exact Hx | left; reflexivity]]. }
        intros x y Hx Hy. rewrite (K x Hx), (K y Hy). reflexivity.
      * intros x y Hx Hy. apply H; right; assumption.
    + split; [discriminate|]. intro H. destruct E. apply H; cbn; auto.
Qed.
Lemma neighbours_error op dim l err : check_neighbours op dim l = Some err -> exists i a b, nth_error l i = Some a /\ nth_error l (S i) = Some b
  /\ dim (o_dims a) <> dim (o_dims b) /\ (forall k x, k <= i -> nth_error l k = Some x -> dim (o_dims x) = dim (o_dims a))
  /\ operation err = Some op /\ quantities err = dims_numbers (o_dims a) ++ dims_numbers (o_dims b).
Proof.
  induction l as [|a [|b l] IH]; cbn [check_neighbours]; try discriminate. intro E.
  destruct (Nat.eqb_spec (dim (o_dims b)) (dim (o_dims a))) as [D|D].
  - destruct (IH E) as (i & x & y & X & Y & N & F & R). exists (S i), x, y. split; [exact X|]. split; [exact Y|]. split; [exact N|]. split; [|exact R].
    intros [|k] z Hk Hz; [|apply (F k z); [lia | exact Hz]]. cbn in Hz. injection Hz as <-. rewrite <- D. apply (F 0 b); [lia | reflexivity].
  - injection E as <-. exists 0, a, b. split; [reflexivity|]. split; [reflexivity|]. split; [congruence|]. split; [|split; reflexivity].
    intros k x Hk Hx. assert (k = 0) by lia. subst k. cbn in Hx. congruence.
Qed.

Lemma index_vector_check i o : (check_index_vector i o = None <-> (0 <= i < Z.of_nat (fst (o_dims o)))%Z)
  /\ forall err, check_index_vector i o = Some err -> quantities err = i :: dims_numbers (o_dims o) /\ type_names err = [o_type o].
Proof.
  unfold check_index_vector. destruct (Z.ltb_spec i 0), (Z.leb_spec (Z.of_nat (fst (o_dims o))) i); cbn [orb]; (split; [split; [congruence || (intros _; lia) | lia || reflexivity]|]);
    intros err E; try discriminate; injection E as <-; split; reflexivity.
Qed.
Lemma index_matrix_check i j o : (check_index_matrix i j o = None <-> (0 <= i < Z.of_nat (fst (o_dims o)))%Z /\ (0 <= j < Z.of_nat (snd (o_dims o)))%Z)
  /\ forall err, check_index_matrix i j o = Some err -> quantities err = i :: j :: dims_numbers (o_dims o) /\ type_names err = [o_type o].
Proof.
  unfold check_index_matrix. destruct (Z.ltb_spec i 0), (Z.leb_spec (Z.of_nat (fst (o_dims o))) i); cbn [orb];
    destruct (Z.ltb_spec j 0), (Z.leb_spec (Z.of_nat (snd (o_dims o))) j); cbn [orb];
    (split; [split; [congruence || (intros _; lia) | lia || reflexivity]|]); intros err E; try discriminate; injection E as <-; split; reflexivity.
Qed.

(** ** Mentioned texts *)
Lemma sapp a b c : String.append (String.append a b) c = String.append a (String.append b c).
Proof. apply L_inj. rewrite !L_app, app_assoc. reflexivity. Qed.
Lemma mentions_at a t b : mentions (String.append a (String.append t b)) t.
Proof. exists a, b. reflexivity. Qed.
Lemma mentions_end a t : mentions (String.append a t) t.
Proof. exists a, ""%string. f_equal. apply L_inj. rewrite L_app. cbn. rewrite app_nil_r. reflexivity. Qed.
Lemma mentions_inside a t b u : mentions t u -> mentions (String.append a (String.append t b)) u.
Proof. intros (x & y & ->). exists (String.append a x), (String.append y b). rewrite !sapp. reflexivity. Qed.

Lemma error_mentions e t : operation e = Some t \/ In t (type_names e) \/ shown_object e = Some t -> mentions (error_text e) t.
Proof.
  intros H. destruct e as [op a b|op m n|x a r|i o|i j o|k|f ty|op|op|op ty|ty|ty|ty|s ty]; cbn [operation type_names shown_object] in H;
    destruct H as [H|[H|H]]; try discriminate; try contradiction; try (injection H as <-); try (destruct H as [<-|[]]); cbn [error_text];
    try apply mentions_at; try apply mentions_end.
  - do 2 rewrite <- sapp. apply mentions_at.
  - do 4 rewrite <- sapp. apply mentions_at.
  - do 2 rewrite <- sapp. apply mentions_end.
  - do 2 rewrite <- sapp. apply mentions_at.
  - do 2 rewrite <- sapp. apply mentions_at.
Qed.

(** ** Comparisons *)
(** the smErrors version: it needs vectors when both operands have one column *)
Lemma comparison_check l r t : fit_for_sum (o_dims l) (o_dims r) \/ snd (o_dims l) <> 1 \/ snd (o_dims r) <> 1 \/ o_len l = Some (fst (o_dims l)) /\ o_len r = Some (fst (o_dims r)) ->
  exists o, check_comparison l r t = Ok o /\ (o = None <-> fit_for_sum (o_dims l) (o_dims r))
  /\ forall err, o = Some err -> mentions (error_text err) t /\ (quantities err = dims_numbers (o_dims l) ++ dims_numbers (o_dims r)
       \/ snd (o_dims l) = 1 /\ snd (o_dims r) = 1 /\ quantities err = [Z.of_nat (fst (o_dims l)); Z.of_nat (fst (o_dims r))]).
Proof.
  intro H. unfold check_comparison. pose proof (dims_add_iff (o_dims l) (o_dims r)) as D. destruct (dims_add _ _).
  { exists None. split; [reflexivity|]. split; [split; [intros _; apply D; reflexivity | reflexivity] | discriminate]. }
  assert (N : ~ fit_for_sum (o_dims l) (o_dims r)) by (intro F; apply D in F; discriminate).
  destruct (Nat.eqb_spec (snd (o_dims l)) 1) as [A|A], (Nat.eqb_spec (snd (o_dims r)) 1) as [B|B]; cbn [andb].
  - destruct H as [H|[H|[H|[-> ->]]]]; try contradiction. eexists. split; [reflexivity|]. split; [split; [discriminate | contradiction]|].
    intros err E. injection E as <-. split; [|right; auto]. cbn [error_text]. apply mentions_inside. exact (mentions_at "Comparison (" t ")").
  - eexists. split; [reflexivity|]. split; [split; [discriminate | contradiction]|]. intros err E. injection E as <-. split; [apply mentions_at | left; reflexivity].
  - eexists. split; [reflexivity|]. split; [split; [discriminate | contradiction]|]. intros err E. injection E as <-. split; [apply mentions_at | left; reflexivity].
  - eexists. split; [reflexivity|]. split; [split; [discriminate | contradiction]|]. intros err E. injection E as <-. split; [apply mentions_at | left; reflexivity].
Qed.
Lemma comparison_check_panics l r t : check_comparison l r t = Panic PRuntime <->
  ~ fit_for_sum (o_dims l) (o_dims r) /\ snd (o_dims l) = 1 /\ snd (o_dims r) = 1 /\ (o_len l = None \/ o_len r = None).
Proof.
  unfold check_comparison. pose proof (dims_add_iff (o_dims l) (o_dims r)) as D. destruct (dims_add _ _).
  { split; [discriminate|]. intros [N _]. destruct N. apply D. reflexivity. }
  assert (N : ~ fit_for_sum (o_dims l) (o_dims r)) by (intro F; apply D in F; discriminate).
  destruct (Nat.eqb_spec (snd (o_dims l)) 1) as [A|A], (Nat.eqb_spec (snd (o_dims r)) 1) as [B|B]; cbn [andb];
    try (split; [discriminate | intros (_ & X & Y & _); contradiction]).
  destruct (o_len l), (o_len r); (split; [discriminate || (intros _; auto) | intros (_ & _ & _ & [X|X]); discriminate || reflexivity]).
Qed.

(** ** The calls *)
Section Calls.
Context {NN : Num}.

Lemma type_name_plain e : plain_name (type_name e).
Proof.
  assert (X : forall s, forallb name_char (L s) = true -> plain_name s).
  { intros s H c Hc K. apply (proj1 (forallb_forall _ _) H) in Hc. unfold name_char in Hc. apply negb_true_iff in Hc.
    assert (Y : existsb (Ascii.eqb c) [" "; "("; ")"]%char = true) by (apply existsb_exists; exists c; split; [exact K | apply Ascii.eqb_refl]). congruence. }
  apply X. destruct e as [[]|[]|[]]; reflexivity.
Qed.
Lemma type_name_numberless e : numberless (type_name e).
Proof. apply numberless_ok. destruct e as [[]|[]|[]]; reflexivity. Qed.

Lemma type_name_same e e' : type_name e = type_name e' <-> same_type e e'.
Proof. destruct e as [[]|[]|[]], e' as [[]|[]|[]]; cbn; split; intro H; try discriminate H; try contradiction; try exact I; reflexivity. Qed.

Lemma not_fit_sum a b : ~ fit_for_sum a b -> a <> b /\ a <> (1, 1) /\ b <> (1, 1).
Proof. unfold fit_for_sum, scalar_dims. tauto. Qed.

Lemma plus_reports a b g da db : valid_array da a -> valid_array db b -> means g = Some b -> ~ fit_for_sum da db ->
  expr_plus a g = Panic PDim /\ exists err, check_addition (operand_of a da) (operand_of b db) = Some err
    /\ mentions (error_text err) "Plus" /\ numbers (error_text err) = dims_numbers da ++ dims_numbers db.
Proof.
  intros Va Vb Hg N. destruct (not_fit_sum _ _ N) as (N1 & N2 & N3). split; [exact (array_plus_mismatch a b g da db Va Vb Hg N1 N2 N3)|].
  destruct (addition_check (operand_of a da) (operand_of b db)) as [A B]. cbn [o_dims operand_of] in A, B.
  unfold check_addition in *. cbn [o_dims operand_of] in *. destruct (dims_add da db); [destruct N; apply A; reflexivity|].
  eexists. split; [reflexivity|]. split; [apply mentions_at|]. apply error_numbers; [|constructor | reflexivity]. intros op E. injection E as <-. apply numberless_ok. reflexivity.
Qed.
Lemma minus_reports a b g da db : valid_array da a -> valid_array db b -> means g = Some b -> ~ fit_for_sum da db ->
  expr_minus a g = Panic PDim /\ exists err, check_subtraction (operand_of a da) (operand_of b db) = Some err
    /\ mentions (error_text err) "Minus" /\ numbers (error_text err) = dims_numbers da ++ dims_numbers db.
Proof.
  intros Va Vb Hg N. destruct (not_fit_sum _ _ N) as (N1 & N2 & N3). split; [exact (array_minus_mismatch_means a b g da db Va Vb Hg N1 N2 N3)|].
  destruct (subtraction_check (operand_of a da) (operand_of b db)) as [A B].
  unfold check_subtraction in *. cbn [o_dims operand_of] in *. destruct (dims_add da db); [destruct N; apply A; reflexivity|].
  eexists. split; [reflexivity|]. split; [apply mentions_at|]. apply error_numbers; [|constructor | reflexivity]. intros op E. injection E as <-. apply numberless_ok. reflexivity.
Qed.
Lemma multiply_reports a b g da db : valid_array da a -> valid_array db b -> means g = Some b -> ~ fit_for_product da db ->
  expr_mul a g = Panic PDim /\ exists err, check_multiplication (operand_of a da) (operand_of b db) = Some err
    /\ mentions (error_text err) "Multiply" /\ numbers (error_text err) = dims_numbers da ++ dims_numbers db.
Proof.
  intros Va Vb Hg N. assert (N' : snd da <> fst db /\ da <> (1, 1) /\ db <> (1, 1)) by (unfold fit_for_product, scalar_dims in N; tauto). destruct N' as (N1 & N2 & N3).
  split; [exact (array_multiply_mismatch a b g da db Va Vb Hg N1 N2 N3)|].
  destruct (multiplication_check (operand_of a da) (operand_of b db)) as [A B].
  unfold check_multiplication in *. cbn [o_dims operand_of] in *. destruct (dims_mul da db); [destruct N; apply A; reflexivity|].
  eexists. split; [reflexivity|]. split; [apply mentions_at|]. apply error_numbers; [|constructor | reflexivity]. intros op E. injection E as <-. apply numberless_ok. reflexivity.
Qed.

Lemma comparison_reports a b g da db s : valid_array da a -> valid_array db b -> means g = Some b -> ~ is_scalar a -> ~ is_scalar b -> da <> db -> s <> SenseOther ->
  expr_comparison a g s = Panic PDim /\ exists err t, check_comparison_sense a b da db s = Ok (Some err) /\ sense_string s = Ok t
    /\ mentions (error_text err) t /\ numbers (error_text err) = dims_numbers da ++ dims_numbers db.
Proof.
  intros Va Vb Hg Na Nb N Hs. split; [exact (comparison_mismatch a g b da db s Va Vb Hg Na Nb N Hs)|].
  assert (X : exists t, sense_string s = Ok t /\ numberless t) by (destruct s; try contradiction; eexists; (split; [reflexivity|]); apply numberless_ok; reflexivity).
  destruct X as (t & Et & Nt). unfold check_comparison_sense. rewrite Et. cbn [bind].
  assert (dims_eqb da db || scalar_type a || scalar_type b = false) as ->.
  { pose proof (dims_eqb_iff da db) as D. destruct (dims_eqb da db); [destruct N; apply D; reflexivity|]. destruct a, b; cbn in Na, Nb; try tauto; reflexivity. }
  eexists _, t. split; [reflexivity|]. split; [reflexivity|]. split.
  - cbn [error_text]. apply mentions_inside. exact (mentions_at "Comparison (" t ")").
  - apply error_numbers; [|constructor | reflexivity]. intros op E. injection E as <-. intros c Hc.
    change (In c (L (String.append "Comparison (" (String.append t ")")))) in Hc. rewrite !L_app, !in_app_iff in Hc.
    assert (H1 : numberless "Comparison (") by (apply numberless_ok; reflexivity). assert (H2 : numberless ")") by (apply numberless_ok; reflexivity).
    destruct Hc as [Hc|[Hc|Hc]]; auto.
Qed.
Lemma vector_column d v : valid_array d (EV v) -> snd d = 1.
Proof.
  intros (H1 & _ & [S1 S2] & _). unfold rows in S1, S2. destruct d as [n k]. cbn [fst snd] in *.
  destruct v as [l|l|l|l]; destruct l as [|x l]; cbn in S1; try lia; inversion S2; subst; reflexivity.
Qed.
Lemma vectors_reported a b da db t : valid_array da a -> valid_array db b -> is_vector a -> is_vector b -> ~ fit_for_sum da db -> numberless t ->
  exists err, check_comparison (operand_of a da) (operand_of b db) t = Ok (Some err) /\ mentions (error_text err) t
    /\ numbers (error_text err) = [Z.of_nat (fst da); Z.of_nat (fst db)].
Proof.
  intros Va Vb Ia Ib N Nt. destruct a as [|v|]; try contradiction. destruct b as [|w|]; try contradiction.
  pose proof (vector_column da v Va) as Ea. pose proof (vector_column db w Vb) as Eb.
  unfold check_comparison. cbn [o_dims operand_of o_len]. pose proof (dims_add_iff da db) as D. destruct (dims_add da db); [destruct N; apply D; reflexivity|].
  rewrite Ea, Eb. cbn [Nat.eqb andb]. eexists. split; [reflexivity|]. split.
  - cbn [error_text]. apply mentions_inside. exact (mentions_at "Comparison (" t ")").
  - apply error_numbers; [|constructor | reflexivity]. intros op E. injection E as <-. intros c Hc.
    change (In c (L (String.append "Comparison (" (String.append t ")")))) in Hc. rewrite !L_app, !in_app_iff in Hc.
    assert (H1 : numberless "Comparison (") by (apply numberless_ok; reflexivity). assert (H2 : numberless ")") by (apply numberless_ok; reflexivity).
    destruct Hc as [Hc|[Hc|Hc]]; auto.
Qed.
Lemma operands_nth ds es : length ds = length es -> forall i o, nth_error (operands ds es) i = Some o -> nth_error ds i = Some (o_dims o).
Proof.
  unfold operands. revert es. induction ds as [|d ds IH]; intros [|e es] E i o H; try discriminate; [destruct i; discriminate|].
  destruct i as [|i]; cbn in H |- *; [injection H as <-; reflexivity|]. apply (IH es); [injection E; auto | exact H].
Qed.
Lemma stack_reports op dim ds es : Forall2 valid_array ds es -> check_neighbours op dim (operands ds es) <> None -> numberless op ->
  exists err i d d', check_neighbours op dim (operands ds es) = Some err /\ nth_error ds i = Some d /\ nth_error ds (S i) = Some d' /\ dim d <> dim d'
    /\ (forall k x, k <= i -> nth_error ds k = Some x -> dim x = dim d)
    /\ mentions (error_text err) op /\ numbers (error_text err) = dims_numbers d ++ dims_numbers d'.
Proof.
  intros F N Hop. assert (Len : length ds = length es) by (clear - F; induction F; cbn; congruence).
  destruct (check_neighbours op dim (operands ds es)) as [err|] eqn:E; [|destruct N; reflexivity]. pose proof E as E0.
  apply neighbours_error in E as (i & a & b & A & B & D & P & O & Q). exists err, i, (o_dims a), (o_dims b). split; [reflexivity|].
  split; [exact (operands_nth ds es Len i a A)|]. split; [exact (operands_nth ds es Len (S i) b B)|]. split; [exact D|].
  split.
  { intros k x Hk Hx. assert (X : exists o, nth_error (operands ds es) k = Some o).
    { destruct (nth_error (operands ds es) k) as [o|] eqn:Y; [eauto|]. apply nth_error_None in Y. unfold operands in Y. rewrite map_length, combine_length, <- Len, Nat.min_id in Y.
      apply nth_error_None in Y. congruence. }
    destruct X as (o & Ho). pose proof (operands_nth ds es Len k o Ho) as Z. rewrite Hx in Z. injection Z as ->. exact (P k o Hk Ho). }
  split; [apply error_mentions; left; exact O|]. rewrite <- Q. assert (K : exists l r, err = MatrixDimensionError op l r).
  { clear - E0. revert E0. induction (operands ds es) as [|x [|y l] IH]; cbn [check_neighbours]; try discriminate. destruct (Nat.eqb _ _); [exact IH|]. intro E. injection E as <-. eauto. }
  destruct K as (l & r & ->). apply error_numbers; [|constructor | reflexivity]. intros o X. injection X as <-. exact Hop.
Qed.
Lemma stack_not_none op dim ds es : Forall2 valid_array ds es -> (exists d d', In d ds /\ In d' ds /\ dim d <> dim d') -> check_neighbours op dim (operands ds es) <> None.
Proof.
  intros F (d & d' & I1 & I2 & D) E. assert (Len : length ds = length es) by (clear - F; induction F; cbn; congruence).
  assert (X : forall x, In x ds -> exists o, In o (operands ds es) /\ o_dims o = x).
  { intros x Hx. apply In_nth_error in Hx as (k & Hk). destruct (nth_error es k) as [e|] eqn:He.
    - exists (operand_of e x). split; [|reflexivity]. unfold operands. apply in_map_iff. exists (x, e). split; [reflexivity|].
      clear - Hk He. revert es k Hk He. induction ds as [|y ds IH]; intros [|f es] [|k] Hk He; try discriminate; cbn in *; [left; congruence | right; exact (IH es k Hk He)].
    - apply nth_error_None in He. assert (k < length ds) by (apply nth_error_Some; congruence). lia. }
  destruct (X d I1) as (o & O1 & O2), (X d' I2) as (o' & O1' & O2'). apply D. subst. exact (proj1 (neighbours_ok op dim _) E o o' O1 O1').
Qed.
Lemma hstack_reports ds es : Forall2 valid_array ds es -> (exists d d', In d ds /\ In d' ds /\ fst d <> fst d') ->
  hstack es = Panic PDim /\ exists err i d d', check_hstack (operands ds es) = Some err /\ nth_error ds i = Some d /\ nth_error ds (S i) = Some d' /\ fst d <> fst d'
    /\ (forall k x, k <= i -> nth_error ds k = Some x -> fst x = fst d)
    /\ mentions (error_text err) "HStack" /\ numbers (error_text err) = dims_numbers d ++ dims_numbers d'.
Proof.
  intros F (d & d' & I1 & I2 & D). split; [exact (hstack_mismatch ds es d d' F I1 I2 D)|].
  apply (stack_reports "HStack" fst ds es F); [apply stack_not_none; [exact F | exists d, d'; auto] | apply numberless_ok; reflexivity].
Qed.
Lemma vstack_reports ds es : Forall2 valid_array ds es -> (exists d d', In d ds /\ In d' ds /\ snd d <> snd d') ->
  vstack es = Panic PDim /\ exists err i d d', check_vstack (operands ds es) = Some err /\ nth_error ds i = Some d /\ nth_error ds (S i) = Some d' /\ snd d <> snd d'
    /\ (forall k x, k <= i -> nth_error ds k = Some x -> snd x = snd d)
    /\ mentions (error_text err) "VStack" /\ numbers (error_text err) = dims_numbers d ++ dims_numbers d'.
Proof.
  intros F (d & d' & I1 & I2 & D). split; [exact (vstack_mismatch ds es d d' F I1 I2 D)|].
  apply (stack_reports "VStack" snd ds es F); [apply stack_not_none; [exact F | exists d, d'; auto] | apply numberless_ok; reflexivity].
Qed.

End Calls.
