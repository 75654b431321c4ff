(** * Facts about slices and arrays *)

From Coq Require Import ZArith NArith Bool List Lia.
From Verif Require Import Num Syntax ModelScalar ModelHeap.
Import ListNotations.

Lemma set_nth_length {A} i (x : A) l : length (set_nth i x l) = length l.
Proof. revert i. induction l as [|a l IH]; intros [|i]; cbn; auto. Qed.
Lemma set_nth_nth {A} i (x : A) l j : nth_error (set_nth i x l) j = if Nat.eqb i j && Nat.ltb j (length l) then Some x else nth_error l j.
Proof.
  revert i j. induction l as [|a l IH]; intros i j.
  - cbn [length]. destruct (Nat.ltb_spec j 0); [lia|]. rewrite andb_false_r. destruct i; reflexivity.
  - destruct i as [|i], j as [|j]; cbn [set_nth nth_error Nat.eqb andb length]; try reflexivity.
    rewrite IH. reflexivity.
Qed.
Lemma nth_error_ext {A} (l l' : list A) : (forall i, nth_error l i = nth_error l' i) -> l = l'.
Proof.
  revert l'. induction l as [|a l IH]; intros [|b l'] H; try reflexivity; try (specialize (H 0); discriminate).
  f_equal; [specialize (H 0); cbn in H; congruence | apply IH; intro i; apply (H (S i))].
Qed.
Lemma nth_error_firstn {A} n (l : list A) i : nth_error (firstn n l) i = if Nat.ltb i n then nth_error l i else None.
Proof.
  revert l i. induction n as [|n IH]; intros l i; [destruct i; reflexivity|]. destruct l as [|a l]; [destruct i as [|i]; cbn [firstn nth_error]; match goal with |- _ = (if ?b then _ else _) => destruct b end; reflexivity|].
  destruct i as [|i]; [reflexivity|]. cbn [firstn nth_error]. rewrite IH. reflexivity.
Qed.
Lemma nth_error_skipn {A} n (l : list A) i : nth_error (skipn n l) i = nth_error l (n + i).
Proof. revert l. induction n as [|n IH]; intros [|a l]; cbn; try reflexivity; [destruct i; reflexivity | apply IH]. Qed.
Lemma nth_error_app {A} (l l' : list A) i : nth_error (l ++ l') i = if Nat.ltb i (length l) then nth_error l i else nth_error l' (i - length l).
Proof.
  destruct (Nat.ltb_spec i (length l)) as [H|H]; [apply nth_error_app1; exact H | apply nth_error_app2; exact H].
Qed.

Section HeapMem.
Context {A : Type}.
Implicit Types (m : mem A) (s : slice) (l xs : list A).

(** the content of one cell *)
Definition cell m (a j : nat) : option A := nth_error (cells m a) j.

Definition vis s (a j : nat) : Prop := a = s_arr s /\ s_off s <= j < s_off s + s_len s.
Definition spare s (a j : nat) : Prop := a = s_arr s /\ s_off s + s_len s <= j < s_off s + s_cap s.
Definition inb m s : Prop := s_len s <= s_cap s /\ (0 < s_cap s -> s_arr s < length m /\ s_off s + s_cap s <= length (cells m (s_arr s))).

Lemma view_nth m s i : nth_error (view m s) i = if Nat.ltb i (s_len s) then cell m (s_arr s) (s_off s + i) else None.
Proof. unfold view, cell. rewrite nth_error_firstn, nth_error_skipn. reflexivity. Qed.

Lemma cell_some m s j : inb m s -> j < s_cap s -> exists x, cell m (s_arr s) (s_off s + j) = Some x.
Proof.
  intros [H1 H2] H. destruct H2 as [H2 H3]; [lia|]. unfold cell. destruct (nth_error (cells m (s_arr s)) (s_off s + j)) eqn:E; [eauto|].
  apply nth_error_None in E. lia.
Qed.

Lemma view_length m s : inb m s -> length (view m s) = s_len s.
Proof.
  intros [H1 H2]. unfold view. rewrite firstn_length, skipn_length. destruct (Nat.eq_dec (s_cap s) 0) as [E|E]; [lia|].
  destruct H2 as [H2 H3]; [lia|]. lia.
Qed.

Lemma view_same m m' s : (forall j, vis s (s_arr s) j -> cell m' (s_arr s) j = cell m (s_arr s) j) -> view m' s = view m s.
Proof.
  intro H. apply nth_error_ext. intro i. rewrite !view_nth. destruct (Nat.ltb_spec i (s_len s)); [|reflexivity].
  apply H. split; [reflexivity | lia].
Qed.

Lemma view_zero m s : s_len s = 0 -> view m s = [].
Proof. intro E. unfold view. rewrite E. reflexivity. Qed.

Lemma overwrite_length xs i l : length (overwrite i xs l) = length l.
Proof. revert i l. induction xs as [|x xs IH]; intros i l; cbn; [reflexivity|]. rewrite IH. apply set_nth_length. Qed.

Lemma overwrite_nth xs i l j :
  nth_error (overwrite i xs l) j = if Nat.leb i j && Nat.ltb j (i + length xs) && Nat.ltb j (length l) then nth_error xs (j - i) else nth_error l j.
Proof.
  revert i l. induction xs as [|x xs IH]; intros i l; cbn [overwrite length].
  - destruct (Nat.leb_spec i j), (Nat.ltb_spec j (i + 0)); cbn; try reflexivity. lia.
  - rewrite IH, set_nth_length, set_nth_nth.
    destruct (Nat.leb_spec (S i) j), (Nat.leb_spec i j), (Nat.ltb_spec j (S i + length xs)), (Nat.ltb_spec j (i + S (length xs))),
      (Nat.ltb_spec j (length l)), (Nat.eqb_spec i j); cbn [andb]; try lia; try reflexivity.
    + destruct (j - i) as [|d] eqn:E; [lia|]. cbn [nth_error]. f_equal. lia.
    + subst j. replace (i - i) with 0 by lia. reflexivity.
Qed.

Lemma cells_set m a l b : cells (set_nth a l m) b = if Nat.eqb a b && Nat.ltb b (length m) then l else cells m b.
Proof.
  unfold cells. destruct (Nat.ltb_spec b (length m)) as [H|H].
  - rewrite andb_true_r. pose proof (set_nth_nth a l m b) as E. destruct (Nat.ltb_spec b (length m)); [|lia]. rewrite andb_true_r in E.
    destruct (Nat.eqb a b).
    + apply nth_error_nth with (d := []) in E. exact E.
    + destruct (nth_error m b) eqn:F; [|apply nth_error_None in F; lia].
      apply nth_error_nth with (d := []) in F. apply nth_error_nth with (d := []) in E. congruence.
  - rewrite andb_false_r. rewrite !nth_overflow; [reflexivity | lia | rewrite set_nth_length; lia].
Qed.

Lemma store_length m a i xs : length (store_at m a i xs) = length m.
Proof. apply set_nth_length. Qed.
Lemma store_cells_length m a i xs b : length (cells (store_at m a i xs) b) = length (cells m b).
Proof.
  unfold store_at. rewrite cells_set. destruct (Nat.eqb_spec a b) as [->|]; [|reflexivity]. destruct (Nat.ltb b (length m)); cbn [andb]; [apply overwrite_length | reflexivity].
Qed.
Lemma store_cells_other m a i xs b : b <> a -> cells (store_at m a i xs) b = cells m b.
Proof. intro H. unfold store_at. rewrite cells_set. destruct (Nat.eqb_spec a b); [congruence|]. reflexivity. Qed.
Lemma store_cell m a i xs b j :
  cell (store_at m a i xs) b j =
  if Nat.eqb a b && Nat.leb i j && Nat.ltb j (i + length xs) && Nat.ltb j (length (cells m a)) then nth_error xs (j - i) else cell m b j.
Proof.
  unfold cell, store_at. rewrite cells_set. destruct (Nat.eqb_spec a b) as [<-|H]; cbn [andb]; [|reflexivity].
  destruct (Nat.ltb_spec a (length m)) as [L|L].
  - rewrite overwrite_nth. reflexivity.
  - assert (E : cells m a = []) by (unfold cells; apply nth_overflow; lia). rewrite E. cbn [length].
    destruct (_ && _ && _) eqn:F; [|reflexivity]. rewrite andb_false_r in F. discriminate.
Qed.

Lemma cells_app m l a : cells (m ++ [l]) a = if Nat.ltb a (length m) then cells m a else if Nat.eqb a (length m) then l else [].
Proof.
  unfold cells. destruct (Nat.ltb_spec a (length m)); [apply app_nth1; assumption|]. rewrite app_nth2 by lia.
  destruct (Nat.eqb_spec a (length m)) as [->|]; [rewrite Nat.sub_diag; reflexivity|]. destruct (a - length m) as [|d] eqn:E; [lia|]. cbn. destruct d; reflexivity.
Qed.

(** ** alloc *)
Lemma alloc_view m l : view (m ++ [l]) (mkSlice (length m) 0 (length l) (length l)) = l.
Proof.
  unfold view. cbn [s_len s_off s_arr skipn]. rewrite cells_app, Nat.ltb_irrefl, Nat.eqb_refl. apply firstn_all.
Qed.
Lemma alloc_inb m l : inb (m ++ [l]) (mkSlice (length m) 0 (length l) (length l)).
Proof.
  split; cbn [s_len s_off s_arr s_cap]; [lia|]. intros _. rewrite cells_app, Nat.ltb_irrefl, Nat.eqb_refl, app_length. cbn. lia.
Qed.

(** ** append: in place, or into a new array *)
Inductive appended m s xs : slice -> mem A -> Prop :=
| app_in_place m' :
    s_len s + length xs <= s_cap s ->
    length m' = length m -> (forall b, length (cells m' b) = length (cells m b)) ->
    (forall b j, ~ spare s b j -> cell m' b j = cell m b j) ->
    (forall b, b <> s_arr s -> cells m' b = cells m b) ->
    appended m s xs (mkSlice (s_arr s) (s_off s) (s_len s + length xs) (s_cap s)) m'
| app_fresh e l :
    s_cap s < s_len s + length xs -> length l = s_len s + length xs + e ->
    appended m s xs (mkSlice (length m) 0 (s_len s + length xs) (s_len s + length xs + e)) (m ++ [l]).

Lemma append_cases extra zero m s xs : inb m s ->
  let r := append_slice extra zero m s xs in
  appended m s xs (fst r) (snd r) /\ inb (snd r) (fst r) /\ view (snd r) (fst r) = view m s ++ xs.
Proof.
  intros B r. unfold append_slice in r. destruct (Nat.leb_spec (s_len s + length xs) (s_cap s)) as [H|H]; subst r; cbn [fst snd].
  - destruct B as [B1 B2]. split; [|split].
    + apply app_in_place; [exact H | apply store_length | intro b; apply store_cells_length | |].
      * intros b j N. rewrite store_cell. destruct (_ && _) eqn:E; [|reflexivity]. exfalso. apply N.
        apply andb_true_iff in E. destruct E as [E E4]. apply andb_true_iff in E. destruct E as [E E3]. apply andb_true_iff in E. destruct E as [E1 E2].
        apply Nat.eqb_eq in E1. apply Nat.leb_le in E2. apply Nat.ltb_lt in E3. split; [congruence | lia].
      * intros b N. apply store_cells_other. exact N.
    + split; cbn [s_len s_cap s_arr s_off]; [exact H|]. intro C. rewrite store_length, store_cells_length. apply B2. exact C.
    + apply nth_error_ext. intro i. rewrite view_nth. cbn [s_len s_cap s_arr s_off]. rewrite store_cell, Nat.eqb_refl. cbn [andb].
      rewrite nth_error_app. rewrite view_length by (split; assumption). rewrite view_nth.
      destruct (Nat.ltb_spec i (s_len s + length xs)) as [L|L].
      * destruct (Nat.ltb_spec i (s_len s)) as [L'|L'].
        -- destruct (Nat.leb_spec (s_off s + s_len s) (s_off s + i)); [lia|]. reflexivity.
        -- destruct (Nat.leb_spec (s_off s + s_len s) (s_off s + i)); [|lia].
           destruct (Nat.ltb_spec (s_off s + i) (s_off s + s_len s + length xs)); [|lia].
           destruct (Nat.ltb_spec (s_off s + i) (length (cells m (s_arr s)))); [cbn [andb]; f_equal; lia|]. exfalso. destruct B2; lia.
      * destruct (Nat.ltb_spec i (s_len s)); [lia|]. symmetry. apply nth_error_None. lia.
  - set (need := s_len s + length xs) in *. set (e := extra (s_cap s) need). pose proof (view_length m s B) as VL. split; [|split].
    + apply app_fresh; [exact H|]. rewrite !app_length, repeat_length, VL. lia.
    + split; cbn [s_len s_cap s_arr s_off]; [lia|]. intros _.
      rewrite cells_app, Nat.ltb_irrefl, Nat.eqb_refl, app_length. cbn [length]. rewrite !app_length, repeat_length, VL. unfold need. lia.
    + unfold view at 1. cbn [s_len s_cap s_arr s_off skipn]. rewrite cells_app, Nat.ltb_irrefl, Nat.eqb_refl, app_assoc.
      rewrite firstn_app. rewrite (app_length (view m s)), VL. replace (need - (s_len s + length xs)) with 0 by lia. cbn [firstn]. rewrite app_nil_r.
      apply firstn_all2. rewrite app_length, VL. lia.
Qed.

(** ** writing one cell *)
Lemma put_view m s i x : inb m s -> i < s_len s -> view (store_at m (s_arr s) (s_off s + i) [x]) s = set_nth i x (view m s).
Proof.
  intros B H. apply nth_error_ext. intro j. rewrite set_nth_nth, view_length by exact B. rewrite !view_nth, store_cell, Nat.eqb_refl. cbn [andb length].
  destruct B as [B1 B2]. destruct B2 as [B2 B3]; [lia|].
  destruct (Nat.ltb_spec j (s_len s)); [|rewrite andb_false_r; reflexivity]. rewrite andb_true_r.
  destruct (Nat.eqb_spec i j) as [<-|N].
  - rewrite Nat.leb_refl. destruct (Nat.ltb_spec (s_off s + i) (s_off s + i + 1)); [|lia].
    destruct (Nat.ltb_spec (s_off s + i) (length (cells m (s_arr s)))); [|lia]. cbn [andb]. rewrite Nat.sub_diag. reflexivity.
  - destruct (Nat.leb_spec (s_off s + i) (s_off s + j)), (Nat.ltb_spec (s_off s + j) (s_off s + i + 1)); cbn [andb]; try reflexivity. lia.
Qed.
Lemma put_other m s i x b j : ~ (b = s_arr s /\ j = s_off s + i) -> cell (store_at m (s_arr s) (s_off s + i) [x]) b j = cell m b j.
Proof.
  intro N. rewrite store_cell. cbn [length]. destruct (_ && _) eqn:E; [|reflexivity]. exfalso. apply N.
  apply andb_true_iff in E. destruct E as [E E4]. apply andb_true_iff in E. destruct E as [E E3]. apply andb_true_iff in E. destruct E as [E1 E2].
  apply Nat.eqb_eq in E1. apply Nat.leb_le in E2. apply Nat.ltb_lt in E3. split; [congruence | lia].
Qed.

End HeapMem.
