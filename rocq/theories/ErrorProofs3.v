(** * Proofs about the errors of Check *)

From Coq Require Import ZArith NArith Bool Ascii String List Lia.
From Verif Require Import Num Syntax ModelScalar Spec ModelShape ModelString ModelErrors SpecErrors StringProofs ErrorProofs.
Import ListNotations.

(** [f] reports exactly the faults, and its text holds the numbers that describe them *)
Definition reporter {A} (f : A -> option string) (fault : A -> list Z -> Prop) : Prop :=
  (forall x, f x = None -> ~ exists ns, fault x ns) /\ (forall x s, f x = Some s -> fault x (numbers s)).
Definition determined {A} (fault : A -> list Z -> Prop) : Prop := forall x ns ns', fault x ns -> fault x ns' -> ns = ns'.

Lemma first_error_some {A} (f : A -> option string) l : forall i0 i s, first_error f i0 l = Some (i, s) ->
  exists k a, i = i0 + k /\ nth_error l k = Some a /\ f a = Some s /\ forall j b, j < k -> nth_error l j = Some b -> f b = None.
Proof.
  induction l as [|a l IH]; intros i0 i s; cbn [first_error]; [discriminate|]. destruct (f a) as [t|] eqn:E.
  - intro H. injection H as <- <-. exists 0, a. split; [lia|]. split; [reflexivity|]. split; [exact E|]. intros j b Hj. lia.
  - intro H. apply IH in H as (k & b & -> & H1 & H2 & H3). exists (S k), b. split; [lia|]. split; [exact H1|]. split; [exact H2|].
    intros [|j] c Hj Hc; [cbn in Hc; congruence|]. apply (H3 j c); [lia | exact Hc].
Qed.
Lemma first_error_none {A} (f : A -> option string) l : forall i0, first_error f i0 l = None <-> forall a, In a l -> f a = None.
Proof.
  induction l as [|a l IH]; intro i0; cbn [first_error]; [split; [intros _ a [] | reflexivity]|]. destruct (f a) as [t|] eqn:E.
  - split; [discriminate|]. intro H. specialize (H a (or_introl eq_refl)). congruence.
  - rewrite IH. split; [intros H b [<-|Hb]; auto | intros H b Hb; apply H; right; exact Hb].
Qed.

Lemma numbers_position pre i mid s : numberless pre -> numberless mid -> mid <> ""%string ->
  numbers (String.append pre (String.append (print_nat i) (String.append mid s))) = Z.of_nat i :: numbers s.
Proof.
  intros H1 H2 H3. rewrite !numbers_nums, !L_app. rewrite nums_text by exact H1. unfold print_nat. rewrite nums_number.
  - f_equal. apply nums_text. exact H2.
  - destruct mid as [|c m]; [contradiction|]. cbn [L app ends]. apply (H2 c). left. reflexivity.
Qed.

Section Elements.
Context {A : Type} (f : A -> option string) (fault : A -> list Z -> Prop) (R : reporter f fault).

Lemma element_some l i s : first_error f 0 l = Some (i, s) -> element_fault fault l (Z.of_nat i :: numbers s).
Proof.
  intro H. apply first_error_some in H as (k & a & -> & H1 & H2 & H3). exists k, a, (numbers s). destruct R as [R1 R2]. split; [|split; [apply R2; exact H2 | reflexivity]].
  split; [exact H1|]. split; [intro N; apply N; exists (numbers s); apply R2; exact H2|]. intros j b Hj Hb. apply R1. exact (H3 j b Hj Hb).
Qed.
Lemma element_none l : first_error f 0 l = None -> ~ exists ns, element_fault fault l ns.
Proof.
  intros H (ns & i & a & ns' & (H1 & H2 & _) & H3 & _). apply (proj1 R a); [|exists ns'; exact H3]. apply (proj1 (first_error_none f l 0) H). exact (nth_error_In _ _ H1).
Qed.
Lemma element_reporter pre mid : numberless pre -> numberless mid -> mid <> ""%string ->
  reporter (fun l => match first_error f 0 l with Some (i, s) => Some (String.append pre (String.append (print_nat i) (String.append mid s))) | None => None end) (element_fault fault).
Proof.
  intros H1 H2 H3. split.
  - intros l E. apply element_none. destruct (first_error f 0 l) as [[i s]|]; [discriminate | reflexivity].
  - intros l s E. destruct (first_error f 0 l) as [[i t]|] eqn:X; [|discriminate]. injection E as <-. rewrite numbers_position by assumption. exact (element_some l i t X).
Qed.
End Elements.

Lemma element_determined {A} (fault : A -> list Z -> Prop) : determined fault -> determined (element_fault fault).
Proof.
  intros D l ns ns' (i & a & m & (H1 & H2 & H3) & H4 & ->) (i' & a' & m' & (H1' & H2' & H3') & H4' & ->).
  assert (E : i = i').
  { destruct (lt_eq_lt_dec i i') as [[C|C]|C]; [|exact C|].
    - destruct (H3' i a C H1). exists m. exact H4.
    - destruct (H3 i' a' C H1'). exists m'. exact H4'. }
  subst i'. rewrite H1 in H1'. injection H1' as <-. rewrite (D a m m' H4 H4'). reflexivity.
Qed.

Lemma element_nil {A} (fault : A -> list Z -> Prop) ns : ~ element_fault fault [] ns.
Proof. intros (i & a & m & (H & _) & _). destruct i; discriminate. Qed.

(** a list that must not be empty *)
Lemma nonempty_reporter {A} (f : list A -> option string) (fault : list A -> list Z -> Prop) t : numbers t = [] -> (forall ns, ~ fault [] ns) -> reporter f fault ->
  reporter (fun l => match l with [] => Some t | _ => f l end) (fun l ns => l = [] /\ ns = [] \/ fault l ns).
Proof.
  intros Ht N [R1 R2]. split.
  - intros [|a l] E; [discriminate|]. intros (ns & [[X _]|X]); [discriminate|]. apply (R1 _ E). exists ns. exact X.
  - intros [|a l] s E; [injection E as <-; left; auto | right; apply R2; exact E].
Qed.
Lemma nonempty_determined {A} (fault : list A -> list Z -> Prop) : (forall ns, ~ fault [] ns) -> determined fault -> determined (fun l ns => l = [] /\ ns = [] \/ fault l ns).
Proof. intros N D l ns ns' [[-> ->]|H] [[E ->]|H']; [reflexivity | destruct (N _ H') | subst l; destruct (N _ H) | exact (D l ns ns' H H')]. Qed.

Lemma reporter_ext {A} (f g : A -> option string) (fault fault' : A -> list Z -> Prop) : (forall x, f x = g x) -> (forall x ns, fault x ns <-> fault' x ns) -> reporter f fault -> reporter g fault'.
Proof.
  intros E F [R1 R2]. split.
  - intros x H (ns & Hn). apply (R1 x); [rewrite E; exact H | exists ns; apply F; exact Hn].
  - intros x s H. apply F, R2. rewrite E. exact H.
Qed.

Section Faults.
Context {NN : Num} (fmt : num -> string).

Lemma var_reporter : reporter (var_error fmt) (var_fault fmt).
Proof.
  split; intros v; unfold var_error, var_fault; destruct (v_upper v <=? v_lower v)%num.
  - discriminate.
  - intros _ (ns & H & _). discriminate.
  - intros s E. injection E as <-. split; [reflexivity|]. rewrite !numbers_nums.
    change (nums (L (String.append "lower bound (" (String.append (fmt (v_lower v)) (String.append ") of variable must be less than upper bound (" (String.append (fmt (v_upper v)) ")."))))) = nums (L (fmt (v_lower v))) ++ nums (L (fmt (v_upper v)))).
    rewrite !L_app. rewrite nums_text by (apply numberless_ok; reflexivity).
    rewrite nums_ends by reflexivity. f_equal. rewrite nums_text by (apply numberless_ok; reflexivity). rewrite nums_ends by reflexivity. apply app_nil_r.
  - intros s E. discriminate.
Qed.
Lemma mono_reporter : reporter mono_error mono_fault.
Proof.
  split; intros m; unfold mono_error, mono_fault; destruct (Nat.eqb_spec (List.length (m_exps m)) (List.length (m_vars m))) as [E|E].
  - intros _ (ns & H & _). contradiction.
  - discriminate.
  - discriminate.
  - intros s H. injection H as <-. split; [exact E|]. rewrite !numbers_nums.
    change (nums (L (String.append "the number of degrees (" (String.append (print_nat (List.length (m_exps m))) (String.append ") does not match the number of variables (" (String.append (print_nat (List.length (m_vars m))) ")"))))) = [Z.of_nat (List.length (m_exps m)); Z.of_nat (List.length (m_vars m))]).
    rewrite !L_app. rewrite nums_text by (apply numberless_ok; reflexivity). unfold print_nat. rewrite nums_number by reflexivity.
    rewrite nums_text by (apply numberless_ok; reflexivity). rewrite nums_number by reflexivity. reflexivity.
Qed.
Lemma var_determined : determined (var_fault fmt).
Proof. intros v ns ns' [_ ->] [_ ->]. reflexivity. Qed.
Lemma mono_determined : determined mono_fault.
Proof. intros v ns ns' [_ ->] [_ ->]. reflexivity. Qed.

Ltac textless := apply numberless_ok; reflexivity.
Lemma poly_reporter : reporter poly_error poly_fault.
Proof.
  refine (reporter_ext _ _ _ _ _ _ (nonempty_reporter _ _ "polynomial has no monomials" eq_refl (element_nil _) (element_reporter _ _ mono_reporter "error in monomial " ": " _ _ _))).
  - intros [|m p]; reflexivity.
  - intros p ns. reflexivity.
  - textless.
  - textless.
  - discriminate.
Qed.
Lemma poly_determined : determined poly_fault.
Proof. apply (nonempty_determined _ (element_nil _)). apply element_determined, mono_determined. Qed.

Lemma vv_reporter : reporter (fun l => vec_error fmt (VV l)) (element_fault (var_fault fmt)).
Proof. apply (element_reporter _ _ var_reporter "element " " has an issue: "); [textless | textless | discriminate]. Qed.
Lemma vm_reporter : reporter (fun l => vec_error fmt (VM l)) (fun l ns => l = [] /\ ns = [] \/ element_fault mono_fault l ns).
Proof.
  refine (reporter_ext _ _ _ _ _ _ (nonempty_reporter _ _ (error_text (EmptyVectorError (type_name (EV (VM []))))) eq_refl (element_nil _) (element_reporter _ _ mono_reporter "error in monomial " ": " _ _ _))).
  - intros [|m p]; reflexivity.
  - intros p ns. reflexivity.
  - textless.
  - textless.
  - discriminate.
Qed.
Lemma vp_reporter : reporter (fun l => vec_error fmt (VP l)) (fun l ns => l = [] /\ ns = [] \/ element_fault poly_fault l ns).
Proof.
  refine (reporter_ext _ _ _ _ _ _ (nonempty_reporter _ _ "polynomial vector has no polynomials" eq_refl (element_nil _) (element_reporter _ _ poly_reporter "error in polynomial " ": " _ _ _))).
  - intros [|m p]; reflexivity.
  - intros p ns. reflexivity.
  - textless.
  - textless.
  - discriminate.
Qed.
Lemma vec_reporter : reporter (vec_error fmt) (vec_fault fmt).
Proof.
  split.
  - intros [l|l|l|l] E; [intros (ns & []) | exact (proj1 vv_reporter l E) | exact (proj1 vm_reporter l E) | exact (proj1 vp_reporter l E)].
  - intros [l|l|l|l] s E; [discriminate | exact (proj2 vv_reporter l s E) | exact (proj2 vm_reporter l s E) | exact (proj2 vp_reporter l s E)].
Qed.
Lemma vec_determined : determined (vec_fault fmt).
Proof.
  intros [l|l|l|l] ns ns' H H'; [destruct H | exact (element_determined _ var_determined l ns ns' H H') | |].
  - exact (nonempty_determined _ (element_nil _) (element_determined _ mono_determined) l ns ns' H H').
  - exact (nonempty_determined _ (element_nil _) (element_determined _ poly_determined) l ns ns' H H').
Qed.

Lemma columns_some {A} n (l : list (list A)) : forall i0 s, columns_error n i0 l = Some s -> exists r row, nth_error l r = Some row /\ List.length row <> n
  /\ (forall k b, k < r -> nth_error l k = Some b -> List.length b = n) /\ numbers s = [Z.of_nat n; Z.of_nat (List.length row); Z.of_nat (i0 + r)].
Proof.
  induction l as [|row l IH]; intros i0 s; cbn [columns_error]; [discriminate|]. destruct (Nat.eqb_spec (List.length row) n) as [E|E].
  - intro H. apply IH in H as (r & b & H1 & H2 & H3 & H4). exists (S r), b. split; [exact H1|]. split; [exact H2|].
    split; [intros [|k] c Hk Hc; [cbn in Hc; congruence | apply (H3 k c); [lia | exact Hc]]|]. rewrite H4. do 3 f_equal. lia.
  - intro H. injection H as <-. exists 0, row. split; [reflexivity|]. split; [exact E|]. split; [intros k b Hk; lia|]. rewrite Nat.add_0_r.
    apply (error_numbers (MatrixColumnMismatchError n (List.length row) i0)); [discriminate | constructor | reflexivity].
Qed.
Lemma columns_none {A} n (l : list (list A)) : forall i0, columns_error n i0 l = None -> forall row, In row l -> List.length row = n.
Proof.
  induction l as [|row l IH]; intros i0 E b []; cbn [columns_error] in E; destruct (Nat.eqb_spec (List.length row) n) as [X|X]; try discriminate.
  - congruence.
  - exact (IH (S i0) E b H).
Qed.

Section Rows.
Context {A : Type} (f : A -> option string) (flt : A -> list Z -> Prop) (R : reporter f flt) (D : determined flt).
Context (before between after ty : string) (H1 : numberless before) (H2 : numberless between) (H3 : numberless after) (H4 : numberless ty).
Context (B : between <> ""%string) (C : after <> ""%string).

Lemma entries_reporter : reporter (entries_error f before between after) (element_fault (element_fault flt)).
Proof.
  apply (element_reporter _ _ (element_reporter f flt R "" after ltac:(textless) H3 C) before between H1 H2 B).
Qed.
Lemma rows_reporter : reporter (rows_error f before between after ty) (rows_fault flt).
Proof.
  split.
  - intros [|r0 l] E; cbn [rows_error] in E; [discriminate|]. destruct (columns_error (List.length r0) 0 (r0 :: l)) as [s|] eqn:X; [discriminate|].
    pose proof (columns_none _ _ _ X) as K. intros (ns & [[Y _]|[(r & row & (Y1 & Y2 & _) & _)|[_ Y]]]); [discriminate | |].
    + apply Y2. apply K. exact (nth_error_In _ _ Y1).
    + apply (proj1 entries_reporter _ E). exists ns. exact Y.
  - intros [|r0 l] s E; cbn [rows_error] in E.
    + left. injection E as <-. split; [reflexivity|]. apply (error_numbers (EmptyMatrixError ty)); [discriminate | constructor; [exact H4 | constructor] | reflexivity].
    + right. destruct (columns_error (List.length r0) 0 (r0 :: l)) as [t|] eqn:X.
      * left. injection E as <-. apply columns_some in X as (r & row & Y1 & Y2 & Y3 & Y4). exists r, row. split; [split; [exact Y1 | split; [exact Y2 | exact Y3]] | exact Y4].
      * right. split; [exact (columns_none _ _ _ X) | apply (proj2 entries_reporter); exact E].
Qed.
Lemma rows_determined : determined (rows_fault flt).
Proof.
  intros l ns ns' H H'. assert (N : forall ns, ~ rows_fault flt [] ns \/ ns = []).
  { intros m. destruct m; [right; reflexivity | left]. intros [[_ X]|[(r & row & (X & _) & _)|[_ X]]]; [discriminate | destruct r; discriminate | exact (element_nil _ _ X)]. }
  destruct l as [|r0 l]; [destruct (N ns) as [X|X]; [contradiction|]; destruct (N ns') as [X'|X']; [contradiction | congruence]|].
  destruct H as [[X _]|[(r & row & (X1 & X2 & X3) & ->)|[X1 X2]]]; [discriminate| |]; destruct H' as [[Y _]|[(r' & row' & (Y1 & Y2 & Y3) & ->)|[Y1 Y2]]]; try discriminate.
  - assert (E : r = r').
    { destruct (lt_eq_lt_dec r r') as [[W|W]|W]; [destruct (X2 (Y3 r row W X1)) | exact W | destruct (Y2 (X3 r' row' W Y1))]. }
    subst r'. rewrite X1 in Y1. injection Y1 as <-. reflexivity.
  - destruct X2. exact (Y1 row (nth_error_In _ _ X1)).
  - destruct Y2. exact (X1 row' (nth_error_In _ _ Y1)).
  - exact (element_determined _ (element_determined _ D) _ ns ns' X2 Y2).
Qed.
End Rows.

Lemma mat_reporter : reporter (mat_error fmt) (mat_fault fmt).
Proof.
  assert (RV : forall t, numberless t -> reporter (rows_error (var_error fmt) "error in entry (" ", " "): " t) (rows_fault (var_fault fmt))).
  { intros t Ht. apply rows_reporter; try textless; try discriminate; [exact var_reporter | exact Ht]. }
  assert (RM : forall t, numberless t -> reporter (rows_error mono_error "error in monomial " "," ": " t) (rows_fault mono_fault)).
  { intros t Ht. apply rows_reporter; try textless; try discriminate; [exact mono_reporter | exact Ht]. }
  assert (RP : forall t, numberless t -> reporter (rows_error poly_error "error in polynomial " "," ": " t) (rows_fault poly_fault)).
  { intros t Ht. apply rows_reporter; try textless; try discriminate; [exact poly_reporter | exact Ht]. }
  split.
  - intros [l|l|l|l] E; [intros (ns & []) | refine (proj1 (RV _ _) l E) | refine (proj1 (RM _ _) l E) | refine (proj1 (RP _ _) l E)]; textless.
  - intros [l|l|l|l] s E; [discriminate | refine (proj2 (RV _ _) l s E) | refine (proj2 (RM _ _) l s E) | refine (proj2 (RP _ _) l s E)]; textless.
Qed.
Lemma mat_determined : determined (mat_fault fmt).
Proof.
  intros [l|l|l|l] ns ns' H H'; [destruct H | exact (rows_determined _ var_determined l ns ns' H H') | exact (rows_determined _ mono_determined l ns ns' H H') | exact (rows_determined _ poly_determined l ns ns' H H')].
Qed.

Lemma expr_reporter : reporter (check_error fmt) (fault fmt).
Proof.
  split.
  - intros [[k|v|m|p]|v|m] E; [intros (ns & []) | exact (proj1 var_reporter v E) | exact (proj1 mono_reporter m E) | exact (proj1 poly_reporter p E)
                              | exact (proj1 vec_reporter v E) | exact (proj1 mat_reporter m E)].
  - intros [[k|v|m|p]|v|m] s E; [discriminate | exact (proj2 var_reporter v s E) | exact (proj2 mono_reporter m s E) | exact (proj2 poly_reporter p s E)
                              | exact (proj2 vec_reporter v s E) | exact (proj2 mat_reporter m s E)].
Qed.
Lemma expr_determined : determined (fault fmt).
Proof.
  intros [[k|v|m|p]|v|m] ns ns' H H'; [destruct H | exact (var_determined v ns ns' H H') | exact (mono_determined m ns ns' H H') | exact (poly_determined p ns ns' H H')
                              | exact (vec_determined v ns ns' H H') | exact (mat_determined m ns ns' H H')].
Qed.
Lemma check_error_locates e ns : fault fmt e ns <-> exists s, check_error fmt e = Some s /\ numbers s = ns.
Proof.
  split.
  - intro H. destruct (check_error fmt e) as [s|] eqn:E; [|destruct (proj1 expr_reporter e E); exists ns; exact H].
    exists s. split; [reflexivity|]. exact (expr_determined e _ _ (proj2 expr_reporter e s E) H).
  - intros (s & E & <-). exact (proj2 expr_reporter e s E).
Qed.

(** ** Check returns nil exactly if the test of the model succeeds *)
Lemma all_none {A} (f : A -> option string) (ok : A -> bool) l : (forall a, f a = None <-> ok a = true) -> ((forall a, In a l -> f a = None) <-> forallb ok l = true).
Proof. intro H. rewrite forallb_forall. split; intros K a Ha; apply H, K, Ha. Qed.
Lemma var_error_none v : var_error fmt v = None <-> var_check v = true.
Proof. unfold var_error, var_check. destruct (v_upper v <=? v_lower v)%num; split; (discriminate || reflexivity). Qed.
Lemma mono_error_none m : mono_error m = None <-> mono_check m = true.
Proof. unfold mono_error, mono_check. destruct (Nat.eqb _ _); split; (discriminate || reflexivity). Qed.
Lemma first_none {A} (f : A -> option string) (ok : A -> bool) l : (forall a, f a = None <-> ok a = true) -> (first_error f 0 l = None <-> forallb ok l = true).
Proof. intro H. rewrite first_error_none. apply all_none. exact H. Qed.
Lemma match_none {T} (x : option (nat * string)) (g : nat -> string -> T) : match x with Some (i, s) => Some (g i s) | None => None end = None <-> x = None.
Proof. destruct x as [[i s]|]; split; (discriminate || reflexivity). Qed.
Lemma poly_error_none p : poly_error p = None <-> poly_check p = true.
Proof. destruct p as [|m p]; [split; discriminate|]. unfold poly_error, poly_check. rewrite match_none. apply (first_none mono_error mono_check). exact mono_error_none. Qed.
Lemma columns_none_iff {A} n (l : list (list A)) : forall i0, columns_error n i0 l = None <-> forallb (fun r => Nat.eqb (List.length r) n) l = true.
Proof.
  induction l as [|row l IH]; intro i0; cbn [columns_error forallb]; [split; reflexivity|]. destruct (Nat.eqb (List.length row) n); [apply IH | split; discriminate].
Qed.
Lemma rows_error_none {A} (f : A -> option string) (ok : A -> bool) b1 b2 b3 ty l : (forall a, f a = None <-> ok a = true) -> (rows_error f b1 b2 b3 ty l = None <-> rows_check ok l = true).
Proof.
  intro H. destruct l as [|r0 l]; [split; discriminate|]. cbn [rows_error]. unfold rows_check. rewrite andb_true_iff. rewrite <- (columns_none_iff (List.length r0) (r0 :: l) 0).
  destruct (columns_error (List.length r0) 0 (r0 :: l)) as [s|]; [split; [discriminate | intros [X _]; discriminate]|].
  unfold entries_error. rewrite match_none. rewrite (first_none _ (forallb ok)); [tauto|]. intro row. rewrite match_none. apply first_none. exact H.
Qed.
Lemma check_error_none e : check_error fmt e = None <-> expr_check e = true.
Proof.
  destruct e as [[k|v|m|p]|[l|l|l|l]|[l|l|l|l]]; cbn [check_error expr_check scalar_error scalar_check vec_error vec_check mat_error mat_check].
  - split; reflexivity.
  - apply var_error_none.
  - apply mono_error_none.
  - apply poly_error_none.
  - split; reflexivity.
  - rewrite match_none. apply first_none. exact var_error_none.
  - destruct l as [|m l]; [split; discriminate|]. rewrite match_none. apply (first_none mono_error mono_check). exact mono_error_none.
  - destruct l as [|m l]; [split; discriminate|]. rewrite match_none. apply (first_none poly_error poly_check). exact poly_error_none.
  - split; reflexivity.
  - apply rows_error_none. exact var_error_none.
  - apply rows_error_none. exact mono_error_none.
  - apply rows_error_none. exact poly_error_none.
Qed.
End Faults.
