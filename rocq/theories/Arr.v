(** * Basic facts about the vector and matrix model *)

From Coq Require Import ZArith NArith Bool List Lia.
From Verif Require Import Num Syntax ModelScalar Spec Base ScalarValid Eval ScalarOps ScalarMore ModelShape ModelArith SpecArr.
Import ListNotations.
Local Open Scope num_scope.

(** ** Lists *)

Lemma mapM_nth {A B} (f : A -> res B) (l : list A) (P : nat -> B -> Prop) :
  (forall i a, nth_error l i = Some a -> exists b, f a = Ok b /\ P i b) ->
  exists l', mapM f l = Ok l' /\ length l' = length l /\ forall i, i < length l -> exists b, nth_error l' i = Some b /\ P i b.
Proof.
  revert P. induction l as [|a l IH]; intros P H.
  - exists []. split; [reflexivity|]. split; [reflexivity|]. cbn. lia.
  - destruct (H 0 a eq_refl) as (b & Eb & Pb).
    destruct (IH (fun i => P (S i))) as (l' & El & Ll & Hl); [intros i x Hx; exact (H (S i) x Hx)|].
    exists (b :: l'). cbn. rewrite Eb. cbn. rewrite El. cbn. split; [reflexivity|]. split; [lia|].
    intros [|i] Hi; [exists b; auto | cbn; apply Hl; lia].
Qed.

Lemma mapM_inv {A B} (f : A -> res B) (l : list A) l' :
  mapM f l = Ok l' -> length l' = length l /\ forall i a, nth_error l i = Some a -> exists b, nth_error l' i = Some b /\ f a = Ok b.
Proof.
  revert l'. induction l as [|a l IH]; intros l' H; cbn in H.
  - injection H as <-. split; [reflexivity|]. intros [|i] a; discriminate.
  - destruct (f a) as [b|] eqn:Eb; [|discriminate]. cbn in H. destruct (mapM f l) as [bs|] eqn:E; [|discriminate]. cbn in H.
    injection H as <-. destruct (IH bs eq_refl) as [H1 H2]. split; [cbn; lia|].
    intros [|i] x Hx; cbn in Hx |- *; [injection Hx as <-; exists b; auto | apply H2; exact Hx].
Qed.

Lemma nth_error_seq n i k : nth_error (seq 0 n) i = Some k -> k = i /\ i < n.
Proof.
  intro H. assert (Hi : i < n). { rewrite <- (seq_length n 0). apply nth_error_Some. congruence. }
  split; [|exact Hi]. rewrite (nth_error_nth' (seq 0 n) 0) in H by (rewrite seq_length; exact Hi).
  injection H as <-. rewrite seq_nth by exact Hi. reflexivity.
Qed.

Lemma mapM_seq {B} (f : nat -> res B) n (P : nat -> B -> Prop) :
  (forall i, i < n -> exists b, f i = Ok b /\ P i b) ->
  exists l', mapM f (seq 0 n) = Ok l' /\ length l' = n /\ forall i, i < n -> exists b, nth_error l' i = Some b /\ P i b.
Proof.
  intro H. destruct (mapM_nth f (seq 0 n) P) as (l' & E & L & Hl).
  - intros i a Ha. apply nth_error_seq in Ha. destruct Ha as [-> Hi]. apply H. exact Hi.
  - rewrite seq_length in L, Hl. exists l'. auto.
Qed.

Lemma nth_error_combine {A B} (l1 : list A) (l2 : list B) i :
  nth_error (combine l1 l2) i
  = match nth_error l1 i, nth_error l2 i with Some a, Some b => Some (a, b) | _, _ => None end.
Proof.
  revert l2 i. induction l1 as [|a l1 IH]; intros [|b l2] [|i]; cbn; try reflexivity.
  - destruct (nth_error l1 i); reflexivity.
  - apply IH.
Qed.

Lemma nth_error_enum {A} (l : list A) i p : nth_error (enum l) i = Some p -> fst p = i /\ nth_error l i = Some (snd p).
Proof.
  unfold enum. rewrite nth_error_combine. destruct (nth_error (seq 0 (length l)) i) as [k|] eqn:E; [|discriminate].
  apply nth_error_seq in E. destruct E as [-> _]. destruct (nth_error l i) as [a|]; [|discriminate].
  intro H. injection H as <-. auto.
Qed.

Lemma enum_length {A} (l : list A) : length (enum l) = length l.
Proof. unfold enum. rewrite combine_length, seq_length. lia. Qed.

Lemma mapM_enum {A B} (f : nat * A -> res B) (l : list A) (P : nat -> B -> Prop) :
  (forall i a, nth_error l i = Some a -> exists b, f (i, a) = Ok b /\ P i b) ->
  exists l', mapM f (enum l) = Ok l' /\ length l' = length l /\ forall i, i < length l -> exists b, nth_error l' i = Some b /\ P i b.
Proof.
  intro H. destruct (mapM_nth f (enum l) P) as (l' & E & L & Hl).
  - intros i [k a] Ha. apply nth_error_enum in Ha. cbn in Ha. destruct Ha as [-> Ha]. apply H. exact Ha.
  - rewrite enum_length in L, Hl. exists l'. auto.
Qed.

Lemma index_nth {A} (l : list A) i a : nth_error l i = Some a -> index l i = Ok a.
Proof. unfold index. intros ->. reflexivity. Qed.

Lemma index_z_nat {A} (l : list A) i : index_z l (Z.of_nat i) = index l i.
Proof. unfold index_z. destruct (Z.ltb_spec (Z.of_nat i) 0); [lia|]. rewrite Nat2Z.id. reflexivity. Qed.

Lemma nth_error_lt {A} (l : list A) i : i < length l -> exists a, nth_error l i = Some a.
Proof. intro H. destruct (nth_error l i) as [a|] eqn:E; [eauto|]. apply nth_error_None in E. lia. Qed.

Lemma nth_error_bound {A} (l : list A) i a : nth_error l i = Some a -> i < length l.
Proof. intro H. apply nth_error_Some. congruence. Qed.

Lemma nth_error_nth_eq {A} (l : list A) i a d : nth_error l i = Some a -> nth i l d = a.
Proof. apply nth_error_nth. Qed.

Section Arr.
Context {NN : Num}.

(** ** Scalars with a denotation *)

(** [s] is valid, its terms lie in the family [F] and, if the family is unambiguous, it denotes [phi] *)
Definition sden (F : (N -> Z) -> Prop) (phi : assignment -> num) (s : scalar) : Prop :=
  valid s /\ within F (terms s) /\ (ExactNum NN -> unambiguous_exponents F -> forall r, eval r s = phi r).

Lemma sden_valid F phi s : sden F phi s -> valid s.
Proof. intros [H _]. exact H. Qed.

Lemma sden_sub (F G : (N -> Z) -> Prop) phi s : (forall f, F f -> G f) -> sden F phi s -> sden G phi s.
Proof.
  intros H (V & W & E). split; [exact V|]. split; [eapply within_incl; eassumption|].
  intros EX HU. apply E; [exact EX|]. eapply unambiguous_sub; eassumption.
Qed.

Lemma sden_ext F phi psi s : (ExactNum NN -> forall r, phi r = psi r) -> sden F phi s -> sden F psi s.
Proof.
  intros H (V & W & E). split; [exact V|]. split; [exact W|]. intros EX HU r. rewrite (E EX HU r). apply H. exact EX.
Qed.

Lemma sden_self F s : valid s -> within F (terms s) -> sden F (fun r => eval r s) s.
Proof. intros V W. split; [exact V|]. split; [exact W|]. reflexivity. Qed.

Lemma within_const F k : has_zero F -> within F [mkMono k [] []].
Proof. intros (f & Hf & E) m [<-|[]]. exists f. split; [exact Hf|]. intro i. rewrite E. reflexivity. Qed.

Lemma sden_const F k : has_zero F -> sden F (fun _ => k) (SK k).
Proof. intro H. split; [exact I|]. split; [apply within_const; exact H|]. reflexivity. Qed.

Lemma sden_plus F phi psi a b : has_zero F -> sden F phi a -> sden F psi b ->
  exists s, scalar_plus a b = Ok s /\ sden F (fun r => phi r + psi r) s.
Proof.
  intros HZ (Va & Wa & Ea) (Vb & Wb & Eb). destruct (scalar_plus_within a b F Va Vb Wa Wb HZ) as (s & E & V & W & Es).
  exists s. split; [exact E|]. split; [exact V|]. split; [exact W|]. intros EX HU r.
  rewrite Es, Ea, Eb by assumption. reflexivity.
Qed.

Lemma fsum_l (F G : (N -> Z) -> Prop) f : has_zero G -> F f -> fsum F G f.
Proof. intros (z & Hz & Ez) Hf. exists f, z. split; [exact Hf|]. split; [exact Hz|]. intro i. rewrite Ez. lia. Qed.
Lemma fsum_r (F G : (N -> Z) -> Prop) f : has_zero F -> G f -> fsum F G f.
Proof. intros (z & Hz & Ez) Hf. exists z, f. split; [exact Hz|]. split; [exact Hf|]. intro i. rewrite Ez. lia. Qed.
Lemma fsum_zero F G : has_zero F -> has_zero G -> has_zero (fsum F G).
Proof.
  intros HF (z & Hz & Ez). exists z. split; [apply fsum_r; assumption | exact Ez].
Qed.

Lemma sden_mul F G phi psi a b : has_zero F -> has_zero G -> sden F phi a -> sden G psi b ->
  exists s, scalar_mul a b = Ok s /\ sden (fsum F G) (fun r => phi r * psi r) s.
Proof.
  intros ZF ZG (Va & Wa & Ea) (Vb & Wb & Eb). destruct (scalar_mul_within a b F G Va Vb Wa Wb ZF ZG) as (s & E & V & W & Es).
  exists s. split; [exact E|]. split; [exact V|]. split; [exact W|]. intros EX HU r. rewrite Es, Ea, Eb; try assumption; [reflexivity| |].
  - refine (unambiguous_sub _ (fsum F G) _ HU). intros f Hf. apply fsum_r; assumption.
  - refine (unambiguous_sub _ (fsum F G) _ HU). intros f Hf. apply fsum_l; assumption.
Qed.

Lemma sden_terms F phi a b : terms b = terms a -> sden F phi a -> sden F phi b.
Proof.
  intros H (V & W & E). split; [apply valid_terms_iff; rewrite H; apply valid_terms_iff; exact V|].
  split; [rewrite H; exact W|]. intros EX HU r. rewrite <- (E EX HU r), <- !eval_terms, H. reflexivity.
Qed.

Lemma sden_simplified F phi s : has_zero F -> sden F phi s -> exists s', scalar_simplified s = Ok s' /\ sden F phi s'.
Proof.
  intros HZ (V & W & E). exists (ssimplified s). split; [apply scalar_simplified_ok; exact V|].
  destruct (lred_simplified s V) as (V' & H & Hv).
  split; [apply ssimplified_valid; exact V|]. split; [exact (within_forms F _ _ HZ W H)|].
  intros EX HU r. rewrite <- (E EX HU r), <- eval_terms, Hv, eval_terms; [reflexivity | exact EX|].
  eapply within_coherent; [exact HU | exact W|]. apply valid_terms; exact V.
Qed.

(** ** Columns and grids *)

(** the list has [n] elements, the i-th satisfying [P i] *)
Definition col {A} (n : nat) (P : nat -> A -> Prop) (l : list A) : Prop :=
  length l = n /\ forall i, i < n -> exists s, nth_error l i = Some s /\ P i s.

Definition grid {A} (d : nat * nat) (P : nat -> nat -> A -> Prop) (g : list (list A)) : Prop :=
  col (fst d) (fun i => col (snd d) (P i)) g.

Definition arr (d : nat * nat) (P : nat -> nat -> scalar -> Prop) (e : expr) : Prop := grid d P (rows e).

Lemma col_impl {A} n (P Q : nat -> A -> Prop) l : (forall i a, i < n -> P i a -> Q i a) -> col n P l -> col n Q l.
Proof.
  intros H [L Hl]. split; [exact L|]. intros i Hi. destruct (Hl i Hi) as (s & E & Hs). exists s. auto.
Qed.

Lemma grid_impl {A} d (P Q : nat -> nat -> A -> Prop) g :
  (forall i j a, i < fst d -> j < snd d -> P i j a -> Q i j a) -> grid d P g -> grid d Q g.
Proof. intro H. apply col_impl. intros i l Hi. apply col_impl. intros j a Hj. apply H; assumption. Qed.

Lemma arr_impl d (P Q : nat -> nat -> scalar -> Prop) e :
  (forall i j a, i < fst d -> j < snd d -> P i j a -> Q i j a) -> arr d P e -> arr d Q e.
Proof. apply grid_impl. Qed.

Lemma col_nth {A} n (P : nat -> A -> Prop) l i a : col n P l -> nth_error l i = Some a -> P i a.
Proof.
  intros [L Hl] H. destruct (Hl i) as (b & Eb & Hb); [rewrite <- L; eapply nth_error_bound; exact H|]. congruence.
Qed.

Lemma col_in {A} n (P : nat -> A -> Prop) l a : col n P l -> In a l -> exists i, i < n /\ P i a.
Proof.
  intros H Hin. apply In_nth_error in Hin. destruct Hin as [i Hi]. exists i.
  split; [destruct H as [<- _]; eapply nth_error_bound; exact Hi | eapply col_nth; eassumption].
Qed.

Lemma col_map {A B} n (P : nat -> A -> Prop) (f : B -> A) l : col n P (map f l) <-> col n (fun i b => P i (f b)) l.
Proof.
  unfold col. rewrite map_length. split; intros [L H]; split; try exact L; intros i Hi; destruct (H i Hi) as (s & E & Hs).
  - rewrite nth_error_map in E. destruct (nth_error l i) as [b|]; [|discriminate]. injection E as <-. exists b. auto.
  - exists (f s). rewrite nth_error_map, E. auto.
Qed.

Lemma col_nonempty {A} n (P : nat -> A -> Prop) l : 1 <= n -> col n P l -> nonempty l = true.
Proof. intros H [L _]. destruct l; [cbn in L; lia | reflexivity]. Qed.

Lemma rows_EV v : rows (EV v) = map (fun s => [s]) (vec_entries v).
Proof. destruct v; cbn; rewrite map_map; reflexivity. Qed.
Lemma rows_EM m : rows (EM m) = mat_rows m.
Proof. destruct m; reflexivity. Qed.

Lemma col_single {A} (P : nat -> A -> Prop) a : col 1 P [a] <-> P 0 a.
Proof.
  split.
  - intro H. apply (col_nth 1 P [a] 0 a H). reflexivity.
  - intro H. split; [reflexivity|]. intros [|i] Hi; [exists a; auto | lia].
Qed.

Lemma arr_ES P s : arr (1, 1) P (ES s) <-> P 0 0 s.
Proof. unfold arr, grid. cbn [rows fst snd]. rewrite col_single. apply col_single. Qed.

Lemma arr_EV n P v : arr (n, 1) P (EV v) <-> col n (fun i => P i 0) (vec_entries v).
Proof.
  unfold arr, grid. rewrite rows_EV. cbn [fst snd]. rewrite col_map. unfold col at 1 3. split; intros [L H]; (split; [exact L|]);
    intros i Hi; destruct (H i Hi) as (s & E & Hs); exists s; (split; [exact E|]); apply col_single; exact Hs.
Qed.

Lemma arr_EM d P m : arr d P (EM m) <-> grid d P (mat_rows m).
Proof. unfold arr. rewrite rows_EM. reflexivity. Qed.

(** a vector has one column, a scalar one row and column *)
Lemma arr_EV_cols d P v : 1 <= fst d -> arr d P (EV v) -> snd d = 1.
Proof.
  intros Hd [L H]. destruct (H 0 Hd) as (row & E & [Lr _]). rewrite rows_EV, nth_error_map in E.
  destruct (nth_error (vec_entries v) 0); [|discriminate]. injection E as <-. cbn in Lr. lia.
Qed.
Lemma arr_ES_dims d P s : 1 <= fst d -> arr d P (ES s) -> d = (1, 1).
Proof.
  intros Hd [L H]. destruct (H 0 Hd) as (row & E & [Lr _]). cbn in L, E. injection E as <-. cbn in Lr.
  destruct d as [m n]. cbn in *. congruence.
Qed.

(** ** From and to the specification *)

Lemma valid_array_arr d e : valid_array d e -> arr d (fun i j s => entry e i j = s /\ valid s) e.
Proof.
  intros (_ & _ & (L & H) & V). split; [exact L|]. intros i Hi.
  destruct (nth_error_lt (rows e) i) as [row E]; [lia|]. exists row. split; [exact E|].
  assert (Lr : length row = snd d). { rewrite Forall_forall in H. apply H. eapply nth_error_In. exact E. }
  split; [exact Lr|]. intros j Hj. destruct (nth_error_lt row j) as [s Es]; [lia|]. exists s. split; [exact Es|].
  assert (X : entry e i j = s). { unfold entry. rewrite (nth_error_nth_eq _ _ _ [] E). apply nth_error_nth_eq. exact Es. }
  split; [exact X|]. rewrite <- X. apply V; assumption.
Qed.

Lemma arr_entry d P e i j : arr d P e -> i < fst d -> j < snd d -> P i j (entry e i j).
Proof.
  intros [L H] Hi Hj. destruct (H i Hi) as (row & E & Lr & Hr). destruct (Hr j Hj) as (s & Es & Hs).
  unfold entry. rewrite (nth_error_nth_eq _ _ _ [] E), (nth_error_nth_eq _ _ _ _ Es). exact Hs.
Qed.

Lemma arr_shape d P e : arr d P e -> shape d e.
Proof.
  intros H. split; [apply H|]. apply Forall_forall. intros row Hr. destruct (col_in _ _ _ _ H Hr) as (i & _ & [X _]). exact X.
Qed.

Lemma arr_valid d (P : nat -> nat -> scalar -> Prop) e : 1 <= fst d -> 1 <= snd d -> arr d P e -> (forall i j s, P i j s -> valid s) -> valid_array d e.
Proof.
  intros H1 H2 H HP. split; [exact H1|]. split; [exact H2|]. split; [eapply arr_shape; exact H|].
  intros i j Hi Hj. eapply HP. eapply arr_entry; eassumption.
Qed.

(** exponents of the terms of an expression *)
Definition plus_zero (F : (N -> Z) -> Prop) (f : N -> Z) : Prop := F f \/ forall i, f i = 0%Z.

Lemma plus_zero_zero F : has_zero (plus_zero F).
Proof. exists (fun _ => 0%Z). split; [right; reflexivity | reflexivity]. Qed.

Lemma zero_mono_empty m : valid_mono m -> (forall i, exponent m i = 0%Z) -> m_vars m = [].
Proof.
  intros V H. apply (is_const_exponent m V) in H. unfold is_const in H. destruct (m_vars m); [reflexivity | discriminate].
Qed.

Lemma plus_zero_unambiguous F : unambiguous_exponents F -> unambiguous_exponents (plus_zero F).
Proof.
  intros HU m1 m2 (V1 & f1 & F1 & E1) (V2 & f2 & F2 & E2) HL.
  destruct F1 as [F1|Z1]; destruct F2 as [F2|Z2].
  - apply HU; [split; eauto | split; eauto | exact HL].
  - assert (X : m_vars m2 = []) by (apply zero_mono_empty; [exact V2 | intro i; rewrite E2; apply Z2]).
    destruct HL as (_ & L & _). rewrite X in L. destruct (m_vars m1) eqn:Y; [|discriminate]. intro i. unfold exponent. rewrite X, Y. reflexivity.
  - assert (X : m_vars m1 = []) by (apply zero_mono_empty; [exact V1 | intro i; rewrite E1; apply Z1]).
    destruct HL as (_ & L & _). rewrite X in L. destruct (m_vars m2) eqn:Y; [|discriminate]. intro i. unfold exponent. rewrite X, Y. reflexivity.
  - intro i. rewrite E1, E2, Z1, Z2. reflexivity.
Qed.

Lemma has_term_within e row s (F : (N -> Z) -> Prop) : (forall f, has_term e f -> F f) -> In row (rows e) -> In s row -> within F (terms s).
Proof.
  intros H Hr Hs m Hm. exists (exponent m). split; [|reflexivity]. apply H. exists row, s, m. auto.
Qed.

(** the denotation of an expression at (i,j) *)
Lemma valid_array_den d e (F : (N -> Z) -> Prop) : valid_array d e -> (forall f, has_term e f -> F f) ->
  arr d (fun i j => sden F (fun r => value r e i j)) e.
Proof.
  intros V H. pose proof (valid_array_arr d e V) as A. split; [apply A|]. intros i Hi.
  destruct A as [L A]. destruct (A i Hi) as (row & E & Lr & Hr). exists row. split; [exact E|]. split; [exact Lr|].
  intros j Hj. destruct (Hr j Hj) as (s & Es & X & Vs). exists s. split; [exact Es|].
  unfold value. rewrite X. apply sden_self; [exact Vs|]. eapply has_term_within; [exact H | eapply nth_error_In; exact E | eapply nth_error_In; exact Es].
Qed.

(** ** Check, Len, Dims, At on arrays of valid entries *)

Definition vals (i : nat) (s : scalar) : Prop := valid s.

Lemma col_forallb {A} n (P : nat -> A -> Prop) (f : A -> bool) l : (forall i a, P i a -> f a = true) -> col n P l -> forallb f l = true.
Proof. intros H Hl. apply forallb_forall. intros a Ha. destruct (col_in _ _ _ _ Hl Ha) as (i & _ & Hi). eapply H. exact Hi. Qed.

Lemma vec_check_col n (P : nat -> scalar -> Prop) v : 1 <= n -> (forall i s, P i s -> valid s) -> col n P (vec_entries v) -> vec_check v = true.
Proof.
  intros Hn HP H. destruct v as [l|l|l|l]; cbn [vec_entries vec_check] in *; [reflexivity| | |]; rewrite col_map in H.
  - eapply col_forallb; [|exact H]. intros i a Ha. apply var_check_valid. exact (HP _ _ Ha).
  - rewrite (col_nonempty _ _ _ Hn H). cbn. eapply col_forallb; [|exact H]. intros i a Ha. apply valid_mono_check. exact (HP _ _ Ha).
  - rewrite (col_nonempty _ _ _ Hn H). cbn. eapply col_forallb; [|exact H]. intros i a Ha. apply valid_poly_check. exact (HP _ _ Ha).
Qed.

Lemma vec_len_col n (P : nat -> scalar -> Prop) v : 1 <= n -> (forall i s, P i s -> valid s) -> col n P (vec_entries v) -> vec_len v = Ok n.
Proof.
  intros Hn HP H. pose proof (vec_check_col n P v Hn HP H) as C. destruct H as [L _].
  destruct v as [l|l|l|l]; cbn [vec_entries] in L; rewrite map_length in L; cbn [vec_len]; rewrite ?C; cbn; rewrite L; reflexivity.
Qed.

Lemma vec_dims_col n (P : nat -> scalar -> Prop) v : 1 <= n -> (forall i s, P i s -> valid s) -> col n P (vec_entries v) -> vec_dims v = Ok (n, 1).
Proof. intros Hn HP H. unfold vec_dims. rewrite (vec_len_col n P v Hn HP H). reflexivity. Qed.

Lemma in_range_nat i n : in_range (Z.of_nat i) n = Nat.ltb i n.
Proof.
  unfold in_range. destruct (Z.leb_spec 0 (Z.of_nat i)); [|lia]. rewrite andb_true_l.
  destruct (Z.ltb_spec (Z.of_nat i) (Z.of_nat n)); destruct (Nat.ltb_spec i n); (reflexivity || lia).
Qed.

Lemma vec_get_col n (P : nat -> scalar -> Prop) v i : 1 <= n -> (forall i s, P i s -> valid s) -> col n P (vec_entries v) -> i < n ->
  exists s, vec_get v i = Ok s /\ nth_error (vec_entries v) i = Some s /\ P i s.
Proof.
  intros Hn HP H Hi. pose proof (vec_check_col n P v Hn HP H) as C. destruct H as [L H]. destruct (H i Hi) as (s & E & Hs).
  exists s. split; [|auto]. unfold vec_get.
  assert (R : forall m, m = n -> in_range (Z.of_nat i) m = true) by (intros m ->; rewrite in_range_nat; apply Nat.ltb_lt; exact Hi).
  destruct v as [l|l|l|l]; cbn [vec_entries vec_at_vec] in *; rewrite map_length in L; rewrite nth_error_map in E;
    destruct (nth_error l i) as [a|] eqn:Ea; try discriminate; injection E as <-;
    rewrite ?(R _ L), ?C, index_z_nat, (index_nth _ _ _ Ea); reflexivity.
Qed.

Lemma grid_rows_check {A} d (P : nat -> nat -> A -> Prop) (ok : A -> bool) l :
  1 <= fst d -> (forall i j a, P i j a -> ok a = true) -> grid d P l -> rows_check ok l = true.
Proof.
  intros Hd HP H. destruct l as [|r0 l]; [destruct H as [L _]; cbn in L; lia|]. unfold rows_check. apply andb_true_iff.
  assert (R0 : length r0 = snd d). { destruct (col_nth _ _ _ 0 r0 H eq_refl) as [X _]. exact X. }
  split; apply forallb_forall; intros r Hr; destruct (col_in _ _ _ _ H Hr) as (i & _ & [X Y]).
  - apply Nat.eqb_eq. lia.
  - eapply col_forallb; [|split; [exact X | exact Y]]. intros j a. apply HP.
Qed.

Lemma grid_map {A B} d (P : nat -> nat -> A -> Prop) (f : B -> A) l :
  grid d P (map (map f) l) <-> grid d (fun i j b => P i j (f b)) l.
Proof.
  unfold grid. rewrite col_map. split; apply col_impl; intros i r _; apply col_map.
Qed.

Lemma mat_check_grid d (P : nat -> nat -> scalar -> Prop) m : 1 <= fst d -> (forall i j s, P i j s -> valid s) -> grid d P (mat_rows m) -> mat_check m = true.
Proof.
  intros Hd HP H. destruct m as [l|l|l|l]; cbn [mat_rows mat_check] in *; [reflexivity| | |]; rewrite grid_map in H;
    (eapply grid_rows_check; [exact Hd | | exact H]); intros i j a Ha; apply HP in Ha.
  - apply var_check_valid. exact Ha.
  - apply valid_mono_check. exact Ha.
  - apply valid_poly_check. exact Ha.
Qed.

Lemma rows_dims_grid {A} d (P : nat -> nat -> A -> Prop) l : 1 <= fst d -> grid d P l -> rows_dims l = Ok d.
Proof.
  intros Hd [L H]. destruct (H 0 Hd) as (r & E & [X _]). unfold rows_dims. rewrite (index_nth _ _ _ E). cbn. rewrite L, X.
  destruct d; reflexivity.
Qed.

Lemma mat_dims_grid d (P : nat -> nat -> scalar -> Prop) m : 1 <= fst d -> (forall i j s, P i j s -> valid s) -> grid d P (mat_rows m) -> mat_dims m = Ok d.
Proof.
  intros Hd HP H. unfold mat_dims. rewrite (mat_check_grid d P m Hd HP H). cbn.
  destruct m as [l|l|l|l]; cbn [mat_rows] in H; rewrite grid_map in H; eapply rows_dims_grid; eassumption.
Qed.

Lemma k_to_dense_grid d P l : 1 <= fst d -> 1 <= snd d -> grid d P l -> k_to_dense l = Ok l.
Proof.
  intros Hd Hc H. unfold k_to_dense. rewrite (rows_dims_grid d P l Hd H). cbn.
  destruct (Nat.eqb_spec (snd d) 0) as [Z|_]; [lia|]. cbn. rewrite <- (map_id l) at 2. apply mapM_map.
  intros r Hr. destruct (col_in _ _ _ _ H Hr) as (i & _ & [X _]). rewrite X, Nat.leb_refl. cbn. f_equal. rewrite <- X. apply firstn_all.
Qed.

Lemma rows_index_grid {A} d (P : nat -> nat -> A -> Prop) l i j : grid d P l -> i < fst d -> j < snd d ->
  exists a, rows_index l (Z.of_nat i) (Z.of_nat j) = Ok a /\ P i j a
    /\ exists r, nth_error l i = Some r /\ nth_error r j = Some a.
Proof.
  intros [L H] Hi Hj. destruct (H i Hi) as (r & E & [X Y]). destruct (Y j Hj) as (a & Ea & Ha). exists a.
  split; [|split; [exact Ha | eauto]]. unfold rows_index. rewrite index_z_nat, (index_nth _ _ _ E). cbn.
  rewrite index_z_nat, (index_nth _ _ _ Ea). reflexivity.
Qed.

Lemma mat_get_grid d (P : nat -> nat -> scalar -> Prop) m i j : 1 <= fst d -> 1 <= snd d -> (forall i j s, P i j s -> valid s) -> grid d P (mat_rows m) ->
  i < fst d -> j < snd d -> exists s, mat_get m i j = Ok s /\ P i j s.
Proof.
  intros Hd Hc HP H Hi Hj. pose proof (mat_check_grid d P m Hd HP H) as C. pose proof (mat_dims_grid d P m Hd HP H) as D.
  unfold mat_get. destruct m as [l|l|l|l]; cbn [mat_rows mat_at] in *; rewrite grid_map in H;
    destruct (rows_index_grid d _ l i j H Hi Hj) as (a & E & Ha & r & Er & Ea).
  - exists (SK a). split; [|exact Ha]. rewrite (k_to_dense_grid d _ l Hd Hc H). cbn. unfold dense_at.
    destruct (Z.ltb_spec (Z.of_nat i) 0); [lia|]. rewrite Nat2Z.id, Er. destruct (Z.ltb_spec (Z.of_nat j) 0); [lia|].
    rewrite Nat2Z.id, Ea. reflexivity.
  - exists (SV a). split; [|exact Ha]. rewrite C. cbn. rewrite E. reflexivity.
  - exists (SM a). split; [|exact Ha]. rewrite C. cbn. rewrite E. reflexivity.
  - exists (SP a). split; [|exact Ha]. rewrite C. cbn. rewrite D. cbn. rewrite !in_range_nat.
    destruct (Nat.ltb_spec i (fst d)); [|lia]. destruct (Nat.ltb_spec j (snd d)); [|lia]. cbn. rewrite E. reflexivity.
Qed.

Lemma expr_check_arr d (P : nat -> nat -> scalar -> Prop) e : 1 <= fst d -> 1 <= snd d -> (forall i j s, P i j s -> valid s) -> arr d P e -> expr_check e = true.
Proof.
  intros Hd Hc HP H. destruct e as [s|v|m]; cbn [expr_check].
  - pose proof (arr_ES_dims _ _ _ Hd H) as ->. apply arr_ES in H. apply valid_check. eapply HP. exact H.
  - pose proof (arr_EV_cols _ _ _ Hd H) as Hs. destruct d as [n c]. cbn in Hs. subst c. apply arr_EV in H.
    eapply vec_check_col; [exact Hd | | exact H]. intros i s Hs. eapply HP. exact Hs.
  - apply arr_EM in H. eapply mat_check_grid; eassumption.
Qed.

Lemma expr_dims_arr d (P : nat -> nat -> scalar -> Prop) e : 1 <= fst d -> 1 <= snd d -> (forall i j s, P i j s -> valid s) -> arr d P e -> expr_dims e = Ok d.
Proof.
  intros Hd Hc HP H. destruct e as [s|v|m]; cbn [expr_dims].
  - pose proof (arr_ES_dims _ _ _ Hd H) as ->. reflexivity.
  - pose proof (arr_EV_cols _ _ _ Hd H) as Hs. destruct d as [n c]. cbn in Hs. subst c. apply arr_EV in H.
    eapply vec_dims_col; [exact Hd | | exact H]. intros i s Hs. eapply HP. exact Hs.
  - apply arr_EM in H. eapply mat_dims_grid; eassumption.
Qed.

(** ** Concretisation *)

Lemma to_poly_terms s : to_poly s = terms s.
Proof. destruct s; reflexivity. Qed.

Lemma mapM_to_mono l : existsb is_p l = false -> exists ms, mapM to_mono l = Ok ms /\ Forall2 same_terms l (map SM ms).
Proof.
  induction l as [|s l IH]; intro H.
  - exists []. split; [reflexivity | constructor].
  - cbn in H. apply orb_false_iff in H. destruct H as [Hs Hl]. destruct (IH Hl) as (ms & E & F). cbn.
    destruct s as [k|v|m|p]; cbn in Hs |- *; try discriminate; rewrite E; cbn;
      eexists; (split; [reflexivity|]); cbn; (constructor; [reflexivity | exact F]).
Qed.
Lemma mapM_to_var l : forallb is_v l = true -> exists vs, mapM to_var l = Ok vs /\ l = map SV vs.
Proof.
  induction l as [|s l IH]; intro H.
  - exists []. auto.
  - cbn in H. apply andb_true_iff in H. destruct H as [Hs Hl]. destruct (IH Hl) as (vs & E & ->). destruct s as [k|v|m|p]; try discriminate.
    cbn. rewrite E. exists (v :: vs). auto.
Qed.
Lemma mapM_to_k l : forallb is_k l = true -> exists ks, mapM to_k l = Ok ks /\ l = map SK ks.
Proof.
  induction l as [|s l IH]; intro H.
  - exists []. auto.
  - cbn in H. apply andb_true_iff in H. destruct H as [Hs Hl]. destruct (IH Hl) as (vs & E & ->). destruct s as [k|v|m|p]; try discriminate.
    cbn. rewrite E. exists (k :: vs). auto.
Qed.

Lemma same_terms_refl l : Forall2 same_terms l l.
Proof. induction l; constructor; [reflexivity | assumption]. Qed.

(** only constants are left *)
Lemma all_k l : existsb is_p l = false -> existsb is_m l || (existsb is_k l && existsb is_v l) = false -> forallb is_v l = false ->
  forallb is_k l = true /\ existsb is_k l = true.
Proof.
  intros H1 H2 H3. apply orb_false_iff in H2. destruct H2 as [H2 H4].
  assert (Hk : existsb is_k l = true).
  { destruct (existsb is_k l) eqn:E; [reflexivity|]. exfalso.
    assert (forallb is_v l = true); [|congruence]. apply forallb_forall. intros s Hs.
    destruct s as [k|v|m|p]; [| reflexivity | |].
    - assert (X : existsb is_k l = true) by (apply existsb_exists; exists (SK k); auto). congruence.
    - assert (X : existsb is_m l = true) by (apply existsb_exists; exists (SM m); auto). congruence.
    - assert (X : existsb is_p l = true) by (apply existsb_exists; exists (SP p); auto). congruence. }
  split; [|exact Hk]. rewrite Hk in H4. cbn in H4. apply forallb_forall. intros s Hs.
  destruct s as [k|v|m|p]; [reflexivity | | |].
  - assert (X : existsb is_v l = true) by (apply existsb_exists; exists (SV v); auto). congruence.
  - assert (X : existsb is_m l = true) by (apply existsb_exists; exists (SM m); auto). congruence.
  - assert (X : existsb is_p l = true) by (apply existsb_exists; exists (SP p); auto). congruence.
Qed.

Lemma concretize_vector_terms l : l <> [] ->
  exists v, concretize_vector l = Ok v /\ Forall2 same_terms l (vec_entries v).
Proof.
  intro Hl. unfold concretize_vector. destruct l as [|s0 l0] eqn:El; [congruence|]. rewrite <- El. cbn [nonempty check bind].
  replace (nonempty l) with true by (rewrite El; reflexivity). cbn [check bind].
  destruct (existsb is_p l) eqn:Hp.
  - eexists. split; [reflexivity|]. cbn [vec_entries]. rewrite map_map. clear. induction l as [|s l IH]; cbn; constructor; [|exact IH].
    unfold same_terms. cbn [terms]. apply to_poly_terms.
  - destruct (existsb is_m l || (existsb is_k l && existsb is_v l)) eqn:Hm.
    + destruct (mapM_to_mono l Hp) as (ms & -> & F). cbn. eexists. split; [reflexivity | exact F].
    + destruct (forallb is_v l) eqn:Hv.
      * destruct (mapM_to_var l Hv) as (vs & -> & E). cbn. eexists. split; [reflexivity|]. rewrite E. apply same_terms_refl.
      * destruct (all_k l Hp Hm Hv) as [H1 H2]. rewrite H2. destruct (mapM_to_k l H1) as (ks & -> & E). cbn.
        eexists. split; [reflexivity|]. rewrite E. apply same_terms_refl.
Qed.

Lemma existsb_concat_false {A} (f : A -> bool) ls : existsb f (concat ls) = false -> forall l, In l ls -> existsb f l = false.
Proof.
  intros H l Hl. destruct (existsb f l) eqn:E; [|reflexivity]. apply existsb_exists in E. destruct E as (a & Ha & Fa).
  assert (X : existsb f (concat ls) = true) by (apply existsb_exists; exists a; split; [apply in_concat; eauto | exact Fa]). congruence.
Qed.
Lemma forallb_concat {A} (f : A -> bool) ls : forallb f (concat ls) = true -> forall l, In l ls -> forallb f l = true.
Proof. intros H l Hl. rewrite forallb_forall in H. apply forallb_forall. intros a Ha. apply H. apply in_concat. eauto. Qed.

Lemma concretize_matrix_terms ls c : ls <> [] -> Forall (fun r => length r = c) ls ->
  exists m, concretize_matrix ls = Ok m /\ Forall2 (Forall2 same_terms) ls (mat_rows m).
Proof.
  intros Hl Hc. unfold concretize_matrix. destruct ls as [|r0 l0] eqn:El; [congruence|]. rewrite <- El in *.
  replace (forallb (fun r => Nat.eqb (length r) (length r0)) ls) with true.
  2:{ symmetry. apply forallb_forall. intros r Hr. apply Nat.eqb_eq. rewrite Forall_forall in Hc. rewrite (Hc r Hr).
      symmetry. apply Hc. rewrite El. left. reflexivity. }
  cbn [check bind]. cbv zeta. destruct (existsb is_p (concat ls)) eqn:Hp.
  - eexists. split; [reflexivity|]. cbn [mat_rows]. rewrite map_map. clear. induction ls as [|r ls IH]; cbn; constructor; [|exact IH].
    rewrite map_map. induction r as [|s r IHr]; cbn; constructor; [|exact IHr]. unfold same_terms. cbn [terms]. apply to_poly_terms.
  - destruct (existsb is_m (concat ls) || (existsb is_k (concat ls) && existsb is_v (concat ls))) eqn:Hm.
    + destruct (mapM_exists (mapM to_mono) (fun r ms => Forall2 same_terms r (map SM ms)) ls) as (mss & -> & F).
      { intros r Hr. apply mapM_to_mono. exact (existsb_concat_false _ _ Hp r Hr). }
      cbn. eexists. split; [reflexivity|]. cbn [mat_rows]. clear - F. induction F; cbn; constructor; assumption.
    + destruct (forallb is_v (concat ls)) eqn:Hv.
      * destruct (mapM_exists (mapM to_var) (fun r vs => r = map SV vs) ls) as (vss & -> & F).
        { intros r Hr. apply mapM_to_var. exact (forallb_concat _ _ Hv r Hr). }
        cbn. eexists. split; [reflexivity|]. cbn [mat_rows]. clear - F.
        induction F as [|r vs ls vss E _ IH]; cbn; constructor; [rewrite E; apply same_terms_refl | exact IH].
      * destruct (all_k _ Hp Hm Hv) as [H1 H2]. rewrite H2.
        destruct (mapM_exists (mapM to_k) (fun r ks => r = map SK ks) ls) as (kss & -> & F).
        { intros r Hr. apply mapM_to_k. exact (forallb_concat _ _ H1 r Hr). }
        cbn. eexists. split; [reflexivity|]. cbn [mat_rows]. clear - F.
        induction F as [|r vs ls vss E _ IH]; cbn; constructor; [rewrite E; apply same_terms_refl | exact IH].
Qed.

Lemma Forall2_nth {A B} (R : A -> B -> Prop) l l' i a : Forall2 R l l' -> nth_error l i = Some a ->
  exists b, nth_error l' i = Some b /\ R a b.
Proof.
  intro H. revert i. induction H as [|x y l l' Hxy _ IH]; intros [|i] E; cbn in E |- *; try discriminate.
  - injection E as <-. eauto.
  - apply IH. exact E.
Qed.

Lemma col_Forall2 {A B} n (P : nat -> A -> Prop) (Q : nat -> B -> Prop) (R : A -> B -> Prop) l l' :
  (forall i a b, i < n -> P i a -> R a b -> Q i b) -> col n P l -> Forall2 R l l' -> col n Q l'.
Proof.
  intros H [L Hl] F. split; [rewrite <- L; symmetry; clear - F; induction F; cbn; congruence|]. intros i Hi.
  destruct (Hl i Hi) as (a & Ea & Ha). destruct (Forall2_nth _ _ _ _ _ F Ea) as (b & Eb & Hb). exists b. eauto.
Qed.

(** [P] only depends on the terms *)
Definition by_terms (P : nat -> nat -> scalar -> Prop) : Prop := forall i j a b, same_terms a b -> P i j a -> P i j b.

Lemma sden_by_terms F (phi : nat -> nat -> assignment -> num) : by_terms (fun i j => sden F (phi i j)).
Proof. intros i j a b H. apply sden_terms. exact H. Qed.

Lemma concretize_vector_arr n (P : nat -> nat -> scalar -> Prop) l : 1 <= n -> by_terms P -> col n (fun i => P i 0) l ->
  exists v, concretize_vector l = Ok v /\ arr (n, 1) P (EV v).
Proof.
  intros Hn HP H. destruct (concretize_vector_terms l) as (v & E & F).
  - intros ->. destruct H as [L _]. cbn in L. lia.
  - exists v. split; [exact E|]. apply arr_EV. eapply col_Forall2; [|exact H | exact F]. intros i a b _ Ha Hab. exact (HP _ _ _ _ Hab Ha).
Qed.

Lemma grid_row_lengths {A} d (P : nat -> nat -> A -> Prop) g : grid d P g -> Forall (fun r => length r = snd d) g.
Proof. intro H. apply Forall_forall. intros r Hr. destruct (col_in _ _ _ _ H Hr) as (i & _ & [X _]). exact X. Qed.

Lemma concretize_matrix_arr d (P : nat -> nat -> scalar -> Prop) g : 1 <= fst d -> by_terms P -> grid d P g ->
  exists m, concretize_matrix g = Ok m /\ arr d P (EM m).
Proof.
  intros Hn HP H. destruct (concretize_matrix_terms g (snd d)) as (m & E & F).
  - intros ->. destruct H as [L _]. cbn in L. lia.
  - eapply grid_row_lengths. exact H.
  - exists m. split; [exact E|]. apply arr_EM. eapply col_Forall2; [|exact H | exact F]. intros i r r' _ Hr Hrr.
    eapply col_Forall2; [|exact Hr | exact Hrr]. intros j a b _ Ha Hab. exact (HP _ _ _ _ Hab Ha).
Qed.

Lemma concretize_slice_arr n (P : nat -> nat -> scalar -> Prop) l : 1 <= n -> by_terms P -> (forall i j s, P i j s -> valid s) -> col n (fun i => P i 0) l ->
  exists e, concretize_slice l = Ok e /\ arr (n, 1) P e.
Proof.
  intros Hn HP HV H. unfold concretize_slice. destruct (concretize_vector_arr n P l Hn HP H) as (v & -> & A). cbn.
  pose proof A as A'. apply arr_EV in A'. assert (HV' : forall i s, P i 0 s -> valid s) by (intros i s; apply HV).
  rewrite (vec_dims_col n _ v Hn HV' A'). cbn. destruct (Nat.eqb_spec n 1) as [->|_].
  - destruct (vec_get_col 1 _ v 0 Hn HV' A') as (s & _ & Es & Ps); [lia|]. exists (ES s). split; [|apply arr_ES; exact Ps].
    unfold vec_at. rewrite (vec_check_col 1 _ v Hn HV' A'), (vec_len_col 1 _ v Hn HV' A').
    destruct v; cbn [check bind in_range Z.leb Z.ltb Z.of_nat andb]; change (index_z ?l 0) with (index_z l (Z.of_nat 0));
      rewrite index_z_nat, (index_nth _ _ _ Es); reflexivity.
  - exists (EV v). split; [reflexivity | exact A].
Qed.

Lemma concretize_rows_arr d (P : nat -> nat -> scalar -> Prop) g : 1 <= fst d -> 1 <= snd d -> by_terms P -> (forall i j s, P i j s -> valid s) -> grid d P g ->
  exists e, concretize_rows g = Ok e /\ arr d P e.
Proof.
  intros Hn Hc HP HV H. unfold concretize_rows. destruct (concretize_matrix_arr d P g Hn HP H) as (m & -> & A). cbn.
  pose proof A as A'. apply arr_EM in A'. rewrite (mat_dims_grid d P m Hn HV A'). cbn.
  destruct (Nat.eqb_spec (snd d) 1) as [E1|E1].
  - destruct d as [n c]. cbn in E1 |- *. subst c. destruct (Nat.eqb_spec n 1) as [->|_]; cbn.
    + destruct (mat_get_grid (1, 1) P m 0 0 Hn Hc HV A') as (s & Es & Ps); [cbn; lia | cbn; lia|]. rewrite Es. cbn.
      exists (ES s). split; [reflexivity | apply arr_ES; exact Ps].
    + destruct (mapM_seq (fun i => mat_get m i 0) n (fun i s => P i 0 s)) as (l & -> & L & Hl).
      { intros i Hi. apply (mat_get_grid (n, 1) P m i 0 Hn Hc HV A'); cbn; lia. }
      cbn. destruct (concretize_vector_arr n P l) as (v & -> & Av); [exact Hn | exact HP | split; [exact L | exact Hl]|].
      cbn. exists (EV v). auto.
  - rewrite andb_false_r. exists (EM m). auto.
Qed.

(** ** Simplification *)

Lemma mapM_col {A B} n (P : nat -> A -> Prop) (Q : nat -> B -> Prop) (f : A -> res B) l :
  (forall i a, i < n -> P i a -> exists b, f a = Ok b /\ Q i b) -> col n P l -> exists l', mapM f l = Ok l' /\ col n Q l'.
Proof.
  intros H [L Hl]. destruct (mapM_nth f l Q) as (l' & E & L' & Hl').
  - intros i a Ha. destruct (Hl i) as (b & Eb & Hb); [rewrite <- L; eapply nth_error_bound; exact Ha|].
    assert (a = b) by congruence. subst b. apply H; [rewrite <- L; eapply nth_error_bound; exact Ha | exact Hb].
  - exists l'. split; [exact E|]. split; [lia|]. rewrite <- L. exact Hl'.
Qed.

Lemma expr_simplified_arr d F phi e : 1 <= fst d -> 1 <= snd d -> has_zero F ->
  arr d (fun i j => sden F (phi i j)) e -> exists e', expr_simplified e = Ok e' /\ arr d (fun i j => sden F (phi i j)) e'.
Proof.
  intros Hn Hc HZ H. set (P := fun i j => sden F (phi i j)) in *.
  assert (HV : forall i j s, P i j s -> valid s) by (intros i j s; apply sden_valid).
  assert (HS : forall i j s, P i j s -> exists s', scalar_simplified s = Ok s' /\ P i j s').
  { intros i j s. apply sden_simplified. exact HZ. }
  assert (HT : by_terms P) by (apply sden_by_terms). clearbody P.
  destruct e as [s|v|m]; cbn [expr_simplified].
  - pose proof (arr_ES_dims _ _ _ Hn H) as ->. apply arr_ES in H. destruct (HS 0 0 s H) as (s' & -> & Hs). cbn.
    exists (ES s'). split; [reflexivity | apply arr_ES; exact Hs].
  - pose proof (arr_EV_cols _ _ _ Hn H) as Hs. destruct d as [n c]. cbn in Hs. subst c. cbn [fst snd] in *. pose proof H as H0. apply arr_EV in H.
    assert (C : vec_check v = true). { eapply vec_check_col; [exact Hn | | exact H]. intros i s. apply HV. }
    destruct (mapM_col n (fun i => P i 0) (fun i => P i 0) scalar_simplified (vec_entries v)) as (l & El & Hl); [intros i a _; apply HS | exact H|].
    destruct (concretize_vector_arr n P l Hn HT Hl) as (v' & Ev & Hv').
    destruct v as [l0|l0|l0|l0]; unfold vec_simplified; try (eexists; split; [reflexivity | exact H0]);
      rewrite C; cbn [check bind]; rewrite El; cbn [bind]; rewrite Ev; cbn [bind]; eexists; (split; [reflexivity | exact Hv']).
  - pose proof H as H0. apply arr_EM in H. pose proof (mat_check_grid d P m Hn HV H) as C.
    destruct (mapM_col (fst d) (fun i => col (snd d) (P i)) (fun i => col (snd d) (P i)) (mapM scalar_simplified) (mat_rows m)) as (l & El & Hl).
    { intros i r _. apply mapM_col. intros j a _. apply HS. }
    { exact H. }
    destruct (concretize_matrix_arr d P l Hn HT Hl) as (m' & Em & Hm').
    destruct m as [l0|l0|l0|l0]; unfold mat_simplified; try (eexists; split; [reflexivity | exact H0]);
      rewrite C; cbn [check bind]; rewrite El; cbn [bind]; rewrite Em; cbn [bind]; eexists; (split; [reflexivity | exact Hm']).
Qed.

(** results *)
Definition good (d : nat * nat) (F : (N -> Z) -> Prop) (phi : nat -> nat -> assignment -> num) (x : res expr) : Prop :=
  exists e, x = Ok e /\ arr d (fun i j => sden F (phi i j)) e.

Lemma good_simplify d F phi x : 1 <= fst d -> 1 <= snd d -> has_zero F -> good d F phi x -> good d F phi (simplify_result x).
Proof.
  intros Hn Hc HZ (e & -> & H). destruct (expr_simplified_arr d F phi e Hn Hc HZ H) as (e' & E & H'). exists e'. auto.
Qed.

End Arr.
