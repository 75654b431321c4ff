(** * Proofs about error messages *)

From Coq Require Import ZArith NArith Bool Ascii String DecimalString DecimalZ DecimalNat List Lia.
From Verif Require Import Num Syntax ModelScalar Spec ModelShape SpecArr ArrTop ModelString ModelErrors SpecErrors StringProofs.
Import ListNotations.

(** ** Numbers in a text *)

Lemma stretches_cons l : exists s r, stretches l = s :: r.
Proof. induction l as [|c l IH]; cbn [stretches]; [eexists _, _; reflexivity|]. destruct IH as (s & r & E). destruct (number_char c); [rewrite E|]; eexists _, _; reflexivity. Qed.

Lemma stretches_break a c b : number_char c = false -> stretches (a ++ c :: b) = stretches a ++ stretches b.
Proof.
  intro H. induction a as [|d a IH]; cbn [app stretches]; [rewrite H; reflexivity|]. rewrite IH. destruct (stretches_cons a) as (s & r & E). rewrite E.
  destruct (number_char d); reflexivity.
Qed.

Lemma stretches_run a : Forall (fun c => number_char c = true) a -> stretches a = [a].
Proof. induction 1 as [|c a Hc Ha IH]; cbn [stretches]; [reflexivity|]. rewrite Hc, IH. reflexivity. Qed.

Definition nums (l : list ascii) : list Z := flat_map read_number (stretches l).
Lemma nums_break a c b : number_char c = false -> nums (a ++ c :: b) = nums a ++ nums b.
Proof. intro H. unfold nums. rewrite stretches_break by exact H. apply flat_map_app. Qed.
Lemma nums_skip c b : number_char c = false -> nums (c :: b) = nums b.
Proof. intro H. exact (nums_break [] c b H). Qed.
Lemma nums_none a b : Forall (fun c => number_char c = false) a -> nums (a ++ b) = nums b.
Proof. induction 1 as [|c a Hc Ha IH]; [reflexivity|]. cbn [app]. rewrite nums_skip by exact Hc. exact IH. Qed.

Lemma digit_number c : digit c = true -> number_char c = true.
Proof. unfold digit, number_char. cbn [existsb]. intro H. destruct (Ascii.eqb c "-"); [reflexivity|]. exact H. Qed.

Lemma print_int_chars z : Forall (fun c => number_char c = true) (L (print_int z)).
Proof.
  unfold print_int. destruct (Z.to_int z) as [d|d]; cbn; [|constructor; [reflexivity|]];
    (eapply Forall_impl; [|apply uint_digits]); intros c; apply digit_number.
Qed.

Lemma to_int_good z : Z.to_int z <> Decimal.Pos Decimal.Nil /\ Z.to_int z <> Decimal.Neg Decimal.Nil.
Proof.
  destruct z as [|p|p]; cbn; (split; [|]); try discriminate; intro H; injection H as H;
    exact (DecimalPos.Unsigned.to_uint_nonnil p H).
Qed.

Lemma print_int_zero z : print_int z = NilZero.string_of_int (Z.to_int z).
Proof. unfold print_int. destruct (to_int_good z) as [A B]. destruct (Z.to_int z) as [[]|[]]; reflexivity || congruence. Qed.

Lemma read_print_int z : read_number (L (print_int z)) = [z].
Proof.
  assert (N : L (print_int z) <> []).
  { unfold print_int. destruct (to_int_good z) as [A B]. destruct (Z.to_int z) as [[]|[]]; cbn; discriminate || congruence. }
  unfold read_number. destruct (L (print_int z)) as [|c l] eqn:E; [contradiction|]. rewrite <- E, string_of_list_ascii_of_string.
  rewrite print_int_zero. destruct (to_int_good z) as [A B]. rewrite NilZero.isi by assumption. rewrite DecimalZ.of_to. reflexivity.
Qed.

Lemma nums_int z : nums (L (print_int z)) = [z].
Proof. unfold nums. rewrite stretches_run by apply print_int_chars. cbn [flat_map]. rewrite read_print_int. reflexivity. Qed.
Lemma nums_int_then z c b : number_char c = false -> nums (L (print_int z) ++ c :: b) = z :: nums b.
Proof. intro H. rewrite nums_break by exact H. rewrite nums_int. reflexivity. Qed.

Lemma numberless_all s : numberless s -> Forall (fun c => number_char c = false) (L s).
Proof. intro H. apply Forall_forall. exact H. Qed.
(** a text that begins with no digit or minus sign *)
Lemma nums_ends s b : ends number_char b -> nums (L s ++ b) = nums (L s) ++ nums b.
Proof. destruct b as [|c b]; cbn [ends]; [rewrite !app_nil_r; reflexivity | intro H; rewrite nums_break, nums_skip by exact H; reflexivity]. Qed.
Lemma nums_number z b : ends number_char b -> nums (L (print_int z) ++ b) = z :: nums b.
Proof. intro H. rewrite nums_ends by exact H. rewrite nums_int. reflexivity. Qed.
Lemma nums_text s b : numberless s -> nums (L s ++ b) = nums b.
Proof. intro H. apply nums_none. apply numberless_all. exact H. Qed.

Lemma numbers_nums s : numbers s = nums (L s).
Proof. reflexivity. Qed.

(** decides that a literal text is free of digits *)
Definition numberless_test (s : string) : bool := forallb (fun c => negb (number_char c)) (L s).
Lemma numberless_ok s : numberless_test s = true -> numberless s.
Proof. intros H c Hc. apply (proj1 (forallb_forall _ _) H) in Hc. destruct (number_char c); [discriminate | reflexivity]. Qed.

Ltac lit := match goal with |- context[nums (L ?s ++ _)] => rewrite (nums_text s) by (apply numberless_ok; reflexivity) end.
Ltac last_lit := match goal with |- context[nums (L ?s)] => rewrite <- (app_nil_r (L s)); rewrite (nums_text s) by (apply numberless_ok; reflexivity) end.

Lemma nums_nil : nums [] = [].
Proof. reflexivity. Qed.

Lemma error_numbers e : (forall op, operation e = Some op -> numberless op) -> Forall numberless (type_names e) -> shown_object e = None ->
  numbers (error_text e) = quantities e.
Proof.
  intros Hop Hty Hs. rewrite numbers_nums.
  destruct e as [op a b|op m n|x a r|i o|i j o|k|f t|op|op|op t|t|t|t|s t]; cbn [error_text type_names operation quantities shown_object] in *; try discriminate;
    unfold dims_as_string, print_dims, print_nat, dims_numbers; rewrite ?L_app; rewrite <- ?app_assoc;
    try (specialize (Hop _ eq_refl)); try (pose proof (Forall_inv Hty) as Ht);
    repeat first [ lit | rewrite nums_number by (reflexivity || exact I) | rewrite nums_int | rewrite (nums_text op) by exact Hop | rewrite (nums_text f) by exact Hop
                 | rewrite (nums_text t) by exact Ht | rewrite (nums_text (o_type o)) by exact Ht | rewrite nums_nil
                 | match goal with |- context[nums (L t)] => rewrite <- (app_nil_r (L t)) end
                 | match goal with |- context[nums (L op)] => rewrite <- (app_nil_r (L op)) end ];
    try reflexivity.
Qed.

(** ** The parts of a text *)

Lemma span_end (P : ascii -> bool) (a b u v : list ascii) : Forall (fun c => P c = true) a -> Forall (fun c => P c = true) b -> ends P (rev u) -> ends P (rev v) ->
  u ++ a = v ++ b -> u = v /\ a = b.
Proof.
  intros Ha Hb Hu Hv E. apply (f_equal (@rev ascii)) in E. rewrite !rev_app_distr in E.
  destruct (span P (rev a) (rev b) (rev u) (rev v)) as [X Y]; auto using Forall_rev.
  split; [rewrite <- (rev_involutive u), <- (rev_involutive v), Y | rewrite <- (rev_involutive a), <- (rev_involutive b), X]; reflexivity.
Qed.

Definition name_char (c : ascii) : bool := negb (existsb (Ascii.eqb c) [" "; "("; ")"]%char).
Lemma plain_name_all t : plain_name t -> Forall (fun c => name_char c = true) (L t).
Proof.
  intro H. apply Forall_forall. intros c Hc. specialize (H c Hc). unfold name_char. destruct (existsb (Ascii.eqb c) _) eqn:E; [|reflexivity].
  apply existsb_exists in E as (d & Hd & E). apply Ascii.eqb_eq in E. subst d. contradiction.
Qed.

(** a number, respectively a name, at the beginning *)
Lemma front_int a b u v : ends number_char u -> ends number_char v -> L (print_int a) ++ u = L (print_int b) ++ v -> a = b /\ u = v.
Proof.
  intros Hu Hv E. destruct (span number_char _ _ u v (print_int_chars a) (print_int_chars b) Hu Hv E) as [X ->]. split; [|reflexivity].
  apply print_int_inj, L_inj, X.
Qed.
Lemma front_name a b u v : plain_name a -> plain_name b -> ends name_char u -> ends name_char v -> L a ++ u = L b ++ v -> a = b /\ u = v.
Proof.
  intros Ha Hb Hu Hv E. destruct (span name_char _ _ u v (plain_name_all a Ha) (plain_name_all b Hb) Hu Hv E) as [X ->]. split; [|reflexivity]. apply L_inj, X.
Qed.
(** at the end *)
Lemma back_int a b u v : ends number_char (rev u) -> ends number_char (rev v) -> u ++ L (print_int a) = v ++ L (print_int b) -> u = v /\ a = b.
Proof.
  intros Hu Hv E. destruct (span_end number_char _ _ u v (print_int_chars a) (print_int_chars b) Hu Hv E) as [-> X]. split; [reflexivity|].
  apply print_int_inj, L_inj, X.
Qed.
Lemma back_name a b u v : plain_name a -> plain_name b -> ends name_char (rev u) -> ends name_char (rev v) -> u ++ L a = v ++ L b -> u = v /\ a = b.
Proof.
  intros Ha Hb Hu Hv E. destruct (span_end name_char _ _ u v (plain_name_all a Ha) (plain_name_all b Hb) Hu Hv E) as [-> X]. split; [reflexivity|]. apply L_inj, X.
Qed.
(** a number that follows a text and is followed by a text *)
Lemma back_int_text a b x y s t : numberless_test s = true -> L s <> [] -> (x ++ L s) ++ L (print_int a) ++ t = (y ++ L s) ++ L (print_int b) ++ t -> x = y /\ a = b.
Proof.
  intros Hs Hn E. rewrite !(app_assoc (_ ++ L s)) in E. apply app_inv_tail in E.
  assert (K : forall w, ends number_char (rev (w ++ L s))).
  { intro w. rewrite rev_app_distr. destruct (rev (L s)) as [|c r] eqn:R.
    - apply (f_equal (@rev ascii)) in R. rewrite rev_involutive in R. destruct (Hn R).
    - cbn [app ends]. assert (Hc : In c (L s)) by (apply in_rev; rewrite R; left; reflexivity). exact (numberless_ok s Hs c Hc). }
  apply back_int in E; [|apply K | apply K]. destruct E as [E ->]. apply app_inv_tail in E. auto.
Qed.

Lemma back_dims x y d d' : x ++ L (dims_as_string d) = y ++ L (dims_as_string d') -> x = y /\ d = d'.
Proof.
  destruct d as [p q], d' as [p' q']. unfold dims_as_string, print_nat. cbn [fst snd]. rewrite !L_app. intro E.
  rewrite !app_assoc in E. rewrite <- (app_assoc _ (L (print_int (Z.of_nat q)))), <- (app_assoc _ (L (print_int (Z.of_nat q')))) in E.
  apply back_int_text in E; [|reflexivity | discriminate]. destruct E as [E E2].
  rewrite <- (app_nil_r (L (print_int (Z.of_nat p)))), <- (app_nil_r (L (print_int (Z.of_nat p')))) in E.
  apply back_int_text in E; [|reflexivity | discriminate]. destruct E as [E E1]. split; [exact E | f_equal; lia].
Qed.
Lemma back_nat x y s m n : numberless_test s = true -> L s <> [] -> x ++ L s ++ L (print_nat m) = y ++ L s ++ L (print_nat n) -> x = y /\ m = n.
Proof.
  intros Hs Hn E. rewrite <- (app_nil_r (L (print_nat m))), <- (app_nil_r (L (print_nat n))) in E. rewrite !(app_assoc _ (L s)) in E.
  apply back_int_text in E; [|exact Hs | exact Hn]. destruct E as [E1 E2]. split; [exact E1 | lia].
Qed.

Lemma front_dims d d' : print_dims d = print_dims d' -> d = d'.
Proof.
  intro E. apply (f_equal L) in E. unfold print_dims, print_nat in E. rewrite !L_app in E. cbn [L] in E. cbn [app] in E. injection E as E.
  apply front_int in E; [|reflexivity | reflexivity]. destruct E as [E1 E]. injection E as E. apply front_int in E; [|reflexivity | reflexivity]. destruct E as [E2 _].
  destruct d, d'. cbn in *. f_equal; lia.
Qed.

Definition read_type (l : list ascii) : nat :=
  match l with
  | c :: _ =>
      if Ascii.eqb c "d" then 0 else if Ascii.eqb c "v" then 1 else if Ascii.eqb c "m" then 2
      else if Ascii.eqb c "o" then (match nth_error l 27 with Some d => if Ascii.eqb d "(" then 4 else 3 | None => 3 end)
      else if Ascii.eqb c "r" then 5 else if Ascii.eqb c "u" then 6 else if Ascii.eqb c "E" then 7 else if Ascii.eqb c "I" then 8
      else if Ascii.eqb c "L" then 9
      else if Ascii.eqb c "e" then (match nth_error l 6 with Some d => if Ascii.eqb d "v" then 10 else 11 | None => 11 end)
      else if Ascii.eqb c "t" then 12 else 13
  | [] => 14
  end.
Lemma print_int_first z : exists c l, L (print_int z) = c :: l /\ number_char c = true.
Proof.
  pose proof (print_int_chars z) as H. pose proof (read_print_int z) as R. destruct (L (print_int z)) as [|c l]; [discriminate|]. exists c, l. split; [reflexivity|]. exact (Forall_inv H).
Qed.
Lemma read_type_text e : read_type (L (error_text e)) = error_type e.
Proof.
  destruct e; cbn [error_text error_type]; rewrite !L_app; try reflexivity.
  destruct (print_int_first index) as (c & l & E & Hc). rewrite E. cbn. destruct (Ascii.eqb_spec c "(") as [->|_]; [discriminate Hc | reflexivity].
Qed.

Ltac strip := match goal with H : ?a ++ ?b = ?a ++ ?c |- _ => apply app_inv_head in H end.
Lemma error_identified e e' : Forall plain_name (type_names e) -> Forall plain_name (type_names e') -> error_text e = error_text e' ->
  error_type e = error_type e' /\ operation e = operation e' /\ quantities e = quantities e' /\ type_names e = type_names e' /\ shown_object e = shown_object e'.
Proof.
  intros H H' E. apply (f_equal L) in E. assert (T : error_type e = error_type e') by (rewrite <- !read_type_text, E; reflexivity).
  destruct e as [op a b|op m n|x a r|i o|i j o|k|f t|op|op|op t|t|t|t|s t], e' as [op' a' b'|op' m' n'|x' a' r'|i' o'|i' j' o'|k'|f' t'|op'|op'|op' t'|t'|t'|t'|s' t'];
    try discriminate T; clear T; cbn [error_text type_names operation quantities shown_object error_type] in *; rewrite !L_app in E; strip;
    try (pose proof (Forall_inv H) as Ht); try (pose proof (Forall_inv H') as Ht').
  - rewrite !app_assoc in E. apply back_dims in E. destruct E as [E ->]. apply app_inv_tail in E. apply back_dims in E. destruct E as [E ->].
    apply app_inv_tail, L_inj in E. subst op'. auto.
  - assert (A : forall o B m C n : list ascii, o ++ B ++ m ++ C ++ n = (o ++ B ++ m) ++ C ++ n) by (intros; rewrite !app_assoc; reflexivity).
    rewrite !A in E. apply back_nat in E; [|reflexivity | discriminate]. destruct E as [E ->]. apply back_nat in E; [|reflexivity | discriminate]. destruct E as [E ->].
    apply L_inj in E. subst op'. auto.
  - unfold print_nat in E. apply front_int in E; [|reflexivity | reflexivity]. destruct E as [-> E]. strip. apply front_int in E; [|reflexivity | reflexivity]. destruct E as [-> E]. strip.
    apply L_inj, print_int_inj in E. rewrite E. auto.
  - apply front_int in E; [|reflexivity | reflexivity]. destruct E as [-> E]. strip. apply front_name in E; [|assumption | assumption | reflexivity | reflexivity]. destruct E as [-> E].
    strip. apply L_inj, front_dims in E. rewrite E. auto.
  - apply front_int in E; [|reflexivity | reflexivity]. destruct E as [-> E]. strip. apply front_int in E; [|reflexivity | reflexivity]. destruct E as [-> E]. strip.
    apply front_name in E; [|assumption | assumption | reflexivity | reflexivity]. destruct E as [-> E].
    strip. apply L_inj, front_dims in E. rewrite E. auto.
  - apply front_int in E; [|reflexivity | reflexivity]. destruct E as [-> E]. auto.
  - rewrite !app_assoc in E. apply back_name in E; [|assumption | assumption | rewrite rev_app_distr; reflexivity | rewrite rev_app_distr; reflexivity]. destruct E as [E ->].
    apply app_inv_tail, L_inj in E. subst f'. auto.
  - apply L_inj in E. subst op'. auto.
  - apply L_inj in E. subst op'. auto.
  - rewrite !app_assoc in E. apply app_inv_tail in E. apply back_name in E; [|assumption | assumption | rewrite rev_app_distr; reflexivity | rewrite rev_app_distr; reflexivity].
    destruct E as [E ->]. apply app_inv_tail, L_inj in E. subst op'. auto.
  - apply front_name in E; [|assumption | assumption | reflexivity | reflexivity]. destruct E as [-> _]. auto.
  - apply front_name in E; [|assumption | assumption | reflexivity | reflexivity]. destruct E as [-> _]. auto.
  - apply front_name in E; [|assumption | assumption | reflexivity | reflexivity]. destruct E as [-> _]. auto.
  - rewrite !app_assoc in E. apply app_inv_tail in E. apply back_name in E; [|assumption | assumption | rewrite rev_app_distr; reflexivity | rewrite rev_app_distr; reflexivity].
    destruct E as [E ->]. apply app_inv_tail, L_inj in E. subst s'. auto.
Qed.
