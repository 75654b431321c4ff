(** * DerivativeWrt with memory: exactly which expressions it changes, on any heap *)

From Coq Require Import ZArith NArith Bool List Lia.
From Verif Require Import Num Syntax ModelScalar Base Spec ScalarValid Deriv ModelHeap SpecHeap HeapMem HeapRef HeapDeriv HeapProofs SpecCopy.
Import ListNotations.
Local Open Scope num_scope.

(** ** One memory *)
Section One.
Context {A : Type}.
Implicit Types (m : mem A) (s : slice).
(** arrays are only added *)
Definition grown m m' : Prop := (length m <= length m')%nat /\ forall a, (a < length m)%nat -> cells m' a = cells m a.
Lemma grown_refl m : grown m m.
Proof. split; auto. Qed.
Lemma grown_trans m m' m'' : grown m m' -> grown m' m'' -> grown m m''.
Proof. intros [H1 H2] [K1 K2]. split; [lia|]. intros a Ha. rewrite K2 by lia. apply H2. exact Ha. Qed.
Lemma grown_view m m' s : grown m m' -> inb m s -> view m' s = view m s.
Proof. intros [H1 H2] [B1 B2]. apply view_same. intros j [_ Hj]. unfold cell. rewrite H2 by (apply B2; lia). reflexivity. Qed.
Lemma grown_inb m m' s : grown m m' -> inb m s -> inb m' s.
Proof. intros [H1 H2] [B1 B2]. split; [exact B1|]. intro C. destruct (B2 C) as [B3 B4]. rewrite H2 by exact B3. lia. Qed.
Definition free : prot := fun _ _ => False.
Lemma free_bounded m : bounded free m.
Proof. intros a j []. Qed.
(** appending to a slice that was built since [m0] *)
Lemma free_append m0 extra zero m s l xs : built free (length m0) m s l -> grown m0 m ->
  let r := append_slice extra zero m s xs in built free (length m0) (snd r) (fst r) (l ++ xs) /\ grown m0 (snd r).
Proof.
  intros B [G1 G2] r. destruct (built_append free (length m0) extra zero m s l xs B (free_bounded m) G1) as (B' & (_ & K & _) & C). fold r in B', K, C. split; [exact B'|].
  split; [lia|]. intros a Ha. rewrite C by exact Ha. apply G2. exact Ha.
Qed.
(** only cells in [W] of the arrays of [m] may differ *)
Definition stored (W : nat -> nat -> Prop) m m' : Prop :=
  (length m <= length m')%nat /\ (forall a, (a < length m)%nat -> length (cells m' a) = length (cells m a)) /\
  (forall a j, (a < length m)%nat -> ~ W a j -> cell m' a j = cell m a j).
Lemma grown_stored W m m' : grown m m' -> stored W m m'.
Proof. intros [H1 H2]. split; [exact H1|]. split; intros a; [intro Ha|intros j Ha _; unfold cell]; rewrite H2 by exact Ha; reflexivity. Qed.
Lemma stored_trans (W W' : nat -> nat -> Prop) m m' m'' : stored W m m' -> stored W' m' m'' -> stored (fun a j => W a j \/ W' a j) m m''.
Proof.
  intros (H1 & H2 & H3) (K1 & K2 & K3). split; [lia|]. split.
  - intros a Ha. rewrite K2 by lia. apply H2. exact Ha.
  - intros a j Ha N. rewrite K3, H3; [reflexivity | exact Ha | tauto | lia | tauto].
Qed.
Lemma stored_weak (W W' : nat -> nat -> Prop) m m' : (forall a j, W a j -> W' a j) -> stored W m m' -> stored W' m m'.
Proof. intros S (H1 & H2 & H3). split; [exact H1|]. split; [exact H2|]. intros a j Ha N. apply H3; auto. Qed.
Lemma stored_view W m m' s : stored W m m' -> inb m s -> (forall a j, vis s a j -> ~ W a j) -> view m' s = view m s.
Proof.
  intros (H1 & H2 & H3) [B1 B2] D. apply view_same. intros j Hj. apply H3; [|apply D; exact Hj]. destruct Hj as [_ Hj]. apply B2. lia.
Qed.
Lemma stored_inb W m m' s : stored W m m' -> inb m s -> inb m' s.
Proof. intros (H1 & H2 & H3) [B1 B2]. split; [exact B1|]. intro C. destruct (B2 C) as [B3 B4]. rewrite H2 by exact B3. lia. Qed.
End One.

Section Effect.
Context {NN : Num} {RT : Runtime}.

Lemma legal_inb h m : legal_mono h m <-> inb (hi h) (h_exps m) /\ inb (hv h) (h_vars m).
Proof. reflexivity. Qed.

(** ** Monomials *)

(** the loop that leaves out position [k] *)
Definition drop_body (m : hmono) (k : nat) (st : slice * slice) (i : nat) : M (slice * slice) :=
  v <~ get_var (h_vars m) i ;;
  if Nat.eqb i k then ret st
  else
    vs <~ append_vars (fst st) [v] ;;
    x <~ get_int (h_exps m) i ;;
    es <~ append_ints (snd st) [x] ;;
    ret (vs, es).
Lemma drop_loop h m k n : forall i st h1, legal_mono h m -> length (view (hi h) (h_exps m)) = length (view (hv h) (h_vars m)) -> (k < length (view (hv h) (h_vars m)))%nat ->
  (i + n = length (view (hv h) (h_vars m)))%nat -> grown (hi h) (hi h1) -> grown (hv h) (hv h1) -> hm h1 = hm h -> hp h1 = hp h ->
  built free (length (hv h)) (hv h1) (fst st) (remove_nth k (firstn i (view (hv h) (h_vars m)))) ->
  built free (length (hi h)) (hi h1) (snd st) (remove_nth k (firstn i (view (hi h) (h_exps m)))) ->
  exists st' h2, forM (drop_body m k) (seq i n) st h1 = (Ok st', h2) /\ grown (hi h) (hi h2) /\ grown (hv h) (hv h2) /\ hm h2 = hm h /\ hp h2 = hp h /\
    built free (length (hv h)) (hv h2) (fst st') (remove_nth k (view (hv h) (h_vars m))) /\
    built free (length (hi h)) (hi h2) (snd st') (remove_nth k (view (hi h) (h_exps m))).
Proof.
  induction n as [|n IH]; intros i st h1 [B1 B2] Len Lk Li G1 G2 E1 E2 Bv Bi.
  - exists st, h1. rewrite Nat.add_0_r in Li. rewrite Li in Bv, Bi. rewrite firstn_all in Bv. rewrite <- Len, firstn_all in Bi.
    split; [reflexivity|]. repeat (split; [assumption|]). assumption.
  - assert (Hv : exists x, nth_error (view (hv h) (h_vars m)) i = Some x) by (destruct (nth_error (view (hv h) (h_vars m)) i) eqn:X; [eauto | apply nth_error_None in X; lia]).
    assert (He : exists x, nth_error (view (hi h) (h_exps m)) i = Some x) by (destruct (nth_error (view (hi h) (h_exps m)) i) eqn:X; [eauto | apply nth_error_None in X; lia]).
    destruct Hv as [xv Hv], He as [xe He].
    assert (S : exists st' h2, drop_body m k st i h1 = (Ok st', h2) /\ grown (hi h) (hi h2) /\ grown (hv h) (hv h2) /\ hm h2 = hm h /\ hp h2 = hp h /\
      built free (length (hv h)) (hv h2) (fst st') (remove_nth k (firstn (S i) (view (hv h) (h_vars m)))) /\
      built free (length (hi h)) (hi h2) (snd st') (remove_nth k (firstn (S i) (view (hi h) (h_exps m))))).
    { unfold drop_body, bindM, get_var, reads, index. rewrite (grown_view _ _ _ G2 B2), Hv. destruct (Nat.eqb_spec i k) as [->|Nk].
      - exists st, h1. split; [reflexivity|]. rewrite !remove_firstn_hit by lia. repeat (split; [assumption|]). assumption.
      - unfold append_vars. pose proof (free_append (hv h) grow_var zero_var (hv h1) (fst st) _ [xv] Bv G2) as Q1. destruct (append_slice grow_var zero_var (hv h1) (fst st) [xv]) as [vs mv]. cbn [fst snd] in Q1. destruct Q1 as [Q1 Q2].
        unfold get_int, reads, index. cbn [with_vars hi]. rewrite (grown_view _ _ _ G1 B1), He.
        unfold append_ints. cbn [with_vars hi]. pose proof (free_append (hi h) grow_int 0%Z (hi h1) (snd st) _ [xe] Bi G1) as Q3. destruct (append_slice grow_int 0%Z (hi h1) (snd st) [xe]) as [es mi]. cbn [fst snd] in Q3. destruct Q3 as [Q3 Q4].
        eexists _, _. split; [reflexivity|]. cbn [with_vars with_ints hi hv hm hp fst snd]. rewrite (remove_firstn_miss _ _ _ _ Hv Nk), (remove_firstn_miss _ _ _ _ He Nk).
        repeat (split; [assumption|]). assumption. }
    destruct S as (st' & h2 & R & S1 & S2 & S3 & S4 & S5 & S6).
    destruct (IH (S i) st' h2 (conj B1 B2) Len Lk ltac:(lia) S1 S2 S3 S4 S5 S6) as (st2 & h3 & R2 & T). exists st2, h3. cbn [seq forM]. unfold bindM at 1. rewrite R. split; [exact R2 | exact T].
Qed.

(** the exponent of [v] in the monomial is written *)
Definition hits (v : var) (m : Monomial) : Prop := exists k e, find_var v (m_vars m) = Some k /\ nth_error (m_exps m) k = Some e /\ e <> 1%Z.
Definition lower (v : var) (m : Monomial) : Monomial :=
  match find_var v (m_vars m) with
  | Some k => match nth_error (m_exps m) k with Some e => if Z.eqb e 1 then m else mkMono (m_coeff m) (set_nth k (e - 1)%Z (m_exps m)) (m_vars m) | None => m end
  | None => m
  end.
Definition cells_hit (v : var) (h : heap) (m : hmono) : nat -> nat -> Prop := fun a j => hits v (rd_mono h m) /\ vis (h_exps m) a j.

Lemma mono_effect h m v : legal_mono h m ->
  exists r h', h_mono_derivative m v h = (r, h') /\ as_value h' r = mono_derivative (rd_mono h m) v /\
    hm h' = hm h /\ hp h' = hp h /\ grown (hv h) (hv h') /\ stored (cells_hit v h m) (hi h) (hi h') /\
    (mono_check (rd_mono h m) = true -> var_check v = true -> rd_mono h' m = lower v (rd_mono h m)) /\
    (forall d, r = Ok (HM d) -> legal_mono h' d /\ ((hits v (rd_mono h m) /\ h_exps d = h_exps m) \/ s_cap (h_exps d) = 0%nat \/ (length (hi h) <= s_arr (h_exps d))%nat)).
Proof.
  intros L. pose proof L as [B1 B2].
  destruct (mono_check (rd_mono h m)) eqn:C1.
  2:{ exists (Panic PCheck), h. unfold h_mono_derivative, mono_derivative, check_mono, bindM, reads, check. rewrite C1. split; [reflexivity|]. split; [reflexivity|].
      repeat (split; [reflexivity|]). split; [apply grown_refl|]. split; [apply grown_stored; apply grown_refl|]. split; [intro X; discriminate X | intros d X; discriminate X]. }
  destruct (var_check v) eqn:C2.
  2:{ exists (Panic PCheck), h. unfold h_mono_derivative, mono_derivative, check_mono, check_var, bindM, reads, check. rewrite C1, C2. split; [reflexivity|]. split; [reflexivity|].
      repeat (split; [reflexivity|]). split; [apply grown_refl|]. split; [apply grown_stored; apply grown_refl|]. split; [intros _ X; discriminate X | intros d X; discriminate X]. }
  assert (Len : length (view (hi h) (h_exps m)) = length (view (hv h) (h_vars m))) by (unfold mono_check in C1; apply Nat.eqb_eq in C1; exact C1).
  assert (Lv : s_len (h_vars m) = length (view (hv h) (h_vars m))) by (symmetry; apply view_length; exact B2).
  destruct (find_var v (view (hv h) (h_vars m))) as [k|] eqn:Hk.
  2:{ exists (Ok (HK n0)), h. unfold h_mono_derivative, mono_derivative, check_mono, check_var, bindM, reads, check. rewrite C1, C2. cbn [rd_mono m_vars m_exps bind]. rewrite Hk.
      split; [reflexivity|]. repeat (split; [reflexivity|]). split; [apply grown_refl|]. split; [apply grown_stored; apply grown_refl|]. split; [|intros d X; discriminate X].
      intros _ _. unfold lower. cbn [rd_mono m_vars]. rewrite Hk. reflexivity. }
  assert (Lk : (k < length (view (hv h) (h_vars m)))%nat). { pose proof Hk as Hk'. apply find_var_some in Hk'. destruct Hk' as (u & Hu & _). apply nth_error_Some. congruence. }
  destruct (nth_error (view (hi h) (h_exps m)) k) as [e|] eqn:He; [|apply nth_error_None in He; lia].
  destruct (Z.eqb_spec e 1) as [->|Ne].
  - destruct (Nat.eqb (length (view (hv h) (h_vars m))) 1) eqn:L1.
    + exists (Ok (HK (h_coeff m))), h. unfold h_mono_derivative, mono_derivative, check_mono, check_var, get_int, bindM, reads, check, index. rewrite C1, C2. cbn [rd_mono m_vars m_exps bind]. rewrite Hk, He. cbn [bind]. rewrite Lv, L1, Z.eqb_refl. cbn [andb].
      split; [reflexivity|]. repeat (split; [reflexivity|]). split; [apply grown_refl|]. split; [apply grown_stored; apply grown_refl|]. split; [|intros d X; discriminate X].
      intros _ _. unfold lower. cbn [rd_mono m_vars m_exps]. rewrite Hk, He, Z.eqb_refl. reflexivity.
    + destruct (drop_loop h m k (length (view (hv h) (h_vars m))) 0 (nil_slice, nil_slice) h L Len Lk eq_refl (grown_refl _) (grown_refl _) eq_refl eq_refl) as (st & h2 & R & G1 & G2 & E1 & E2 & Bv & Bi);
        [destruct k; apply built_nil | destruct k; apply built_nil|].
      exists (Ok (HM (mkHM (h_coeff m) (snd st) (fst st)))), h2. split.
      { unfold h_mono_derivative, check_mono, check_var, get_int, bindM at 1 2 3 4 5, reads, check, index. rewrite C1, C2. cbn [rd_mono m_vars m_exps bind]. rewrite Hk, He. rewrite Lv, L1, Z.eqb_refl. cbn [andb].
        unfold indices. rewrite Lv. fold (drop_body m k). unfold drop_body in R. unfold bindM at 1. unfold bindM at 1 in R. setoid_rewrite R. reflexivity. }
      split. { unfold mono_derivative, check, index. rewrite C1, C2. cbn [rd_mono m_vars m_exps m_coeff bind]. rewrite Hk, He. cbn [bind]. rewrite L1, Z.eqb_refl. cbn [andb as_value rd]. unfold rd_mono. cbn [h_coeff h_exps h_vars m_coeff].
        destruct Bv as (_ & -> & _), Bi as (_ & -> & _). reflexivity. }
      split; [exact E1|]. split; [exact E2|]. split; [exact G2|]. split; [apply grown_stored; exact G1|]. split.
      * intros _ _. unfold lower. cbn [rd_mono m_vars m_exps]. rewrite Hk, He, Z.eqb_refl. unfold rd_mono. rewrite (grown_view _ _ _ G1 B1), (grown_view _ _ _ G2 B2). reflexivity.
      * intros d X. injection X as <-. cbn [h_exps h_vars]. destruct Bv as (Bv & _), Bi as (Bi & _ & O). split; [split; [exact Bi | exact Bv]|]. right. destruct O as [O|[O _]]; [left | right]; exact O.
  - destruct (derivative_effect h m v k e L C1 C2 Hk He Ne) as (d & h' & R & V & S1 & S2 & S3 & E1 & E2 & E3 & W & L').
    assert (Ht : hits v (rd_mono h m)) by (exists k, e; auto).
    exists (Ok (HM d)), h'. split; [exact R|]. split.
    { cbn [as_value rd]. rewrite V. unfold mono_derivative, check, index. rewrite C1, C2. cbn [rd_mono m_vars m_exps bind]. rewrite Hk, He. cbn [bind]. destruct (Z.eqb_spec e 1); [contradiction|]. reflexivity. }
    split; [exact E2|]. split; [exact E3|]. split; [rewrite E1; apply grown_refl|]. split.
    { assert (Lk' : (k < s_len (h_exps m))%nat) by (rewrite <- (view_length _ _ B1); lia).
      assert (HI : hi h' = store_at (hi h) (s_arr (h_exps m)) (s_off (h_exps m) + k) [(e - 1)%Z]).
      { pose proof R as R'. unfold h_mono_derivative, check_mono, check_var, get_int, bindM, reads, check, index, put_int in R'. rewrite C1, C2 in R'. cbn [rd_mono m_vars m_exps bind] in R'. rewrite Hk, He in R'.
        destruct (Z.eqb_spec e 1); [contradiction|]. cbn [andb] in R'. destruct (Nat.ltb_spec k (s_len (h_exps m))); [|lia]. cbn in R'. injection R' as _ <-. reflexivity. }
      split; [rewrite HI, store_length; lia|]. split; [intros a Ha; rewrite HI; apply store_cells_length|]. intros a j Ha N. rewrite HI. apply put_other. intros [-> ->]. apply N. split; [exact Ht|]. split; [reflexivity | lia]. }
    split; [intros _ _; rewrite S3; unfold lower; cbn [rd_mono m_vars m_exps m_coeff]; rewrite Hk, He; destruct (Z.eqb_spec e 1); [contradiction | reflexivity]|].
    intros d' X. injection X as <-. split; [|left; split; [exact Ht | exact S1]]. destruct L' as [L1 L2]. split; [rewrite S1; exact L1 | rewrite S2; exact L2].
Qed.

(** ** Polynomials *)
Definition deriv_body (p : slice) (v : var) (out : slice) (i : nat) : M slice :=
  m <~ get_mono p i ;;
  c <~ reads (fun h => mono_is_constant (rd_mono h m)) ;;
  if c : bool then ret out
  else
    d <~ h_mono_derivative m v ;;
    match d with
    | HM dm => append_monos out [dm]
    | HK k => if k =? n0 then ret out else append_monos out [hk_to_mono k]
    | _ => fail POther
    end.
Definition value_body (v : var) (out : list Monomial) (m : Monomial) : res (list Monomial) :=
  c <- mono_is_constant m ;;
  if c : bool then Ok out else d <- mono_derivative m v ;;
    match d with SM dm => Ok (out ++ [dm]) | SK k => if k =? n0 then Ok out else Ok (out ++ [k_to_mono k]) | _ => Panic POther end.

(** the cells written for the terms before position [i] *)
Definition hit_before (v : var) (h : heap) (ms : list hmono) (i : nat) : nat -> nat -> Prop :=
  fun a j => exists t, In t (firstn i ms) /\ cells_hit v h t a j.
(** a monomial of the result does not contain cells of the other terms *)
Definition from_before (v : var) (h : heap) (ms : list hmono) (i : nat) (d : hmono) : Prop :=
  s_cap (h_exps d) = 0%nat \/ (length (hi h) <= s_arr (h_exps d))%nat \/ exists t, In t (firstn i ms) /\ hits v (rd_mono h t) /\ h_exps d = h_exps t.
Definition apart (v : var) (h : heap) (ms : list hmono) : Prop :=
  forall i j m m', i <> j -> nth_error ms i = Some m -> nth_error ms j = Some m' -> hits v (rd_mono h m') -> forall a c, vis (h_exps m) a c -> vis (h_exps m') a c -> False.

Lemma firstn_in_nth {X} i (l : list X) x : In x (firstn i l) -> exists k, (k < i)%nat /\ nth_error l k = Some x.
Proof.
  intro H. apply In_nth_error in H. destruct H as [k Hk]. rewrite nth_error_firstn in Hk. destruct (Nat.ltb_spec k i); [|discriminate]. exists k. auto.
Qed.

(** no two monomials have an exponent cell in common *)
Definition disjoint (ms : list hmono) : Prop :=
  forall i j m m', i <> j -> nth_error ms i = Some m -> nth_error ms j = Some m' -> forall a c, vis (h_exps m) a c -> vis (h_exps m') a c -> False.
Lemma disjoint_snoc ms d : disjoint ms -> (forall m a c, In m ms -> vis (h_exps m) a c -> vis (h_exps d) a c -> False) -> disjoint (ms ++ [d]).
Proof.
  intros D H i j m m' N Hi Hj a c Ha Hc. rewrite nth_error_app in Hi, Hj. destruct (Nat.ltb_spec i (length ms)) as [Li|Li], (Nat.ltb_spec j (length ms)) as [Lj|Lj].
  - exact (D i j m m' N Hi Hj a c Ha Hc).
  - destruct (j - length ms)%nat as [|[|n]]; try discriminate. injection Hj as <-. exact (H m a c (nth_error_In _ _ Hi) Ha Hc).
  - destruct (i - length ms)%nat as [|[|n]]; try discriminate. injection Hi as <-. exact (H m' a c (nth_error_In _ _ Hj) Hc Ha).
  - destruct (i - length ms)%nat as [|[|n]] eqn:Ei; try discriminate. destruct (j - length ms)%nat as [|[|n]] eqn:Ej; try discriminate. lia.
Qed.

(** the state of the loop *)
Record loop_state (v : var) (h : heap) (p : slice) (i : nat) (h1 : heap) (out : slice) (outv : list Monomial) : Prop := mkLS {
  ls_m : grown (hm h) (hm h1);
  ls_v : grown (hv h) (hv h1);
  ls_p : hp h1 = hp h;
  ls_i : stored (hit_before v h (view (hm h) p) i) (hi h) (hi h1);
  ls_out : exists mo, built free (length (hm h)) (hm h1) out mo /\ map (rd_mono h1) mo = outv /\ Forall (fun d => legal_mono h1 d /\ from_before v h (view (hm h) p) i d) mo /\ disjoint mo;
  ls_low : forall t, In t (firstn i (view (hm h) p)) -> (mono_is_constant (rd_mono h t) = Ok true -> find_var v (m_vars (rd_mono h t)) = None) -> mono_check (rd_mono h t) = true -> var_check v = true -> rd_mono h1 t = lower v (rd_mono h t) }.
(** the same when the loop panics *)
Record loop_frame (v : var) (h : heap) (p : slice) (h1 : heap) : Prop := mkLF {
  lf_m : grown (hm h) (hm h1);
  lf_v : grown (hv h) (hv h1);
  lf_p : hp h1 = hp h;
  lf_i : stored (hit_before v h (view (hm h) p) (length (view (hm h) p))) (hi h) (hi h1) }.

Lemma hit_le v h ms i j a c : (i <= j)%nat -> hit_before v h ms i a c -> hit_before v h ms j a c.
Proof.
  intros H (t & Ht & Hc). exists t. split; [|exact Hc]. destruct (firstn_in_nth _ _ _ Ht) as (k & Hk & Hn). apply (nth_error_In _ k). rewrite nth_error_firstn. destruct (Nat.ltb_spec k j); [exact Hn | lia].
Qed.
Lemma state_frame v h p i h1 out outv : (i <= length (view (hm h) p))%nat -> loop_state v h p i h1 out outv -> loop_frame v h p h1.
Proof. intros Hi [S1 S2 S3 S4 _ _]. split; try assumption. eapply stored_weak; [|exact S4]. intros a c. apply hit_le. exact Hi. Qed.

Lemma deriv_step v h p i h1 out outv t : legal h (HP p) -> apart v h (view (hm h) p) -> nth_error (view (hm h) p) i = Some t -> loop_state v h p i h1 out outv ->
  exists r h2, deriv_body p v out i h1 = (r, h2) /\
    match r, value_body v outv (rd_mono h t) with
    | Ok out', Ok outv' => loop_state v h p (S i) h2 out' outv'
    | Panic a, Panic b => a = b /\ loop_frame v h p h2
    | _, _ => False
    end.
Proof.
  intros LP Ap Ht LS. pose proof LS as [S1 S2 S3 S4 S5 S6]. destruct LP as [LP LM]. specialize (LP p eq_refl). pose proof LP as LPi.
  assert (Lt : legal_mono h t) by (apply LM; eapply nth_error_In; exact Ht).
  assert (Li : (i < length (view (hm h) p))%nat) by (apply nth_error_Some; congruence).
  assert (Dt : forall a c, vis (h_exps t) a c -> ~ hit_before v h (view (hm h) p) i a c).
  { intros a c Hv (t' & Hin & Hh & Hv'). destruct (firstn_in_nth _ _ _ Hin) as (k & Hk & Hn). eapply (Ap i k t t'); try eassumption. lia. }
  assert (Rt : rd_mono h1 t = rd_mono h t).
  { unfold rd_mono. rewrite (stored_view _ _ _ _ S4 (proj1 Lt) Dt), (grown_view _ _ _ S2 (proj2 Lt)). reflexivity. }
  assert (Lt1 : legal_mono h1 t) by (split; [eapply stored_inb; [exact S4 | apply Lt] | eapply grown_inb; [exact S2 | apply Lt]]).
  assert (In1 : forall x, In x (firstn (S i) (view (hm h) p)) <-> In x (firstn i (view (hm h) p)) \/ x = t).
  { intro x. rewrite (firstn_snoc _ _ _ Ht), in_app_iff. cbn. intuition. }
  unfold deriv_body, value_body, bindM at 1 2, get_mono, reads, index. rewrite (grown_view _ _ _ S1 LPi), Ht, Rt.
  destruct (mono_is_constant (rd_mono h t)) as [[|]|px] eqn:Ec; cbn [bind].
  - (* a constant term *)
    exists (Ok out), h1. split; [reflexivity|]. split; try assumption.
    + eapply stored_weak; [|exact S4]. intros a c. apply hit_le. lia.
    + destruct S5 as (mo & M1 & M2 & M3 & M4). exists mo. split; [exact M1|]. split; [exact M2|]. split; [|exact M4]. eapply Forall_impl; [|exact M3]. intros d [D1 D2]. split; [exact D1|].
      destruct D2 as [D2|[D2|(t' & D2 & D3)]]; [left | right; left | right; right; exists t'; split; [apply In1; left|]]; assumption.
    + intros x Hx Hc C1 C2. apply In1 in Hx. destruct Hx as [Hx| ->]; [apply S6; assumption|]. rewrite Rt. unfold lower. rewrite (Hc Ec). reflexivity.
  - (* any other term *)
    destruct (mono_effect h1 t v Lt1) as (r & h2 & R & V & E1 & E2 & G & St & Lo & Res). rewrite Rt in V, Lo, Res.
    assert (St' : stored (cells_hit v h t) (hi h1) (hi h2)). { eapply stored_weak; [|exact St]. intros a c [H1 H2]. rewrite Rt in H1. split; assumption. }
    assert (F : stored (hit_before v h (view (hm h) p) (S i)) (hi h) (hi h2)).
    { eapply stored_weak; [|eapply stored_trans; [exact S4 | exact St']]. intros a c [H|H]; [eapply hit_le; [|exact H]; lia|]. exists t. split; [apply In1; right; reflexivity | exact H]. }
    assert (G2 : grown (hv h) (hv h2)) by (eapply grown_trans; eassumption).
    destruct S5 as (mo & M1 & M2 & M3 & M4).
    assert (Keep : forall d, In d mo -> (legal_mono h2 d /\ from_before v h (view (hm h) p) (S i) d) /\ rd_mono h2 d = rd_mono h1 d).
    { intros d Hd. rewrite Forall_forall in M3. destruct (M3 d Hd) as [[D1 D2] D3]. split; [split|].
      - split; [eapply stored_inb; [exact St' | exact D1] | eapply grown_inb; [exact G | exact D2]].
      - destruct D3 as [D3|[D3|(t' & D3 & D4)]]; [left; exact D3 | right; left; exact D3|]. right; right. exists t'. split; [apply In1; left; exact D3 | exact D4].
      - unfold rd_mono. rewrite (grown_view _ _ _ G D2). rewrite (stored_view _ _ _ _ St' D1); [reflexivity|]. intros a c Hv [Hh Hw]. destruct D3 as [D3|[D3|(t' & D3 & D4 & D5)]].
        + destruct D1 as [D1 _], Hv as [_ Hv]. lia.
        + destruct Hv as [-> _]. pose proof (vis_arr _ _ _ _ (proj1 Lt) Hw). lia.
        + rewrite D5 in Hv. destruct (firstn_in_nth _ _ _ D3) as (k & Hk & Hn). eapply (Ap k i t' t); try eassumption. lia. }
    assert (M2' : map (rd_mono h2) mo = outv). { rewrite <- M2. apply map_ext_in. intros d Hd. apply Keep. exact Hd. }
    assert (M3' : Forall (fun d => legal_mono h2 d /\ from_before v h (view (hm h) p) (S i) d) mo) by (apply Forall_forall; intros d Hd; apply Keep; exact Hd).
    assert (Low : forall x, In x (firstn (S i) (view (hm h) p)) -> (mono_is_constant (rd_mono h x) = Ok true -> find_var v (m_vars (rd_mono h x)) = None) -> mono_check (rd_mono h x) = true -> var_check v = true -> rd_mono h2 x = lower v (rd_mono h x)).
    { intros x Hx Hc C1 C2. destruct (In_nth_error _ _ Hx) as [k Hk]. rewrite nth_error_firstn in Hk. destruct (Nat.ltb_spec k (S i)) as [Lk|]; [|discriminate]. destruct (Nat.eq_dec k i) as [->|Nk].
      - assert (x = t) by congruence. subst x. apply Lo; assumption.
      - rewrite <- S6; [|apply (nth_error_In _ k); rewrite nth_error_firstn; destruct (Nat.ltb_spec k i); [exact Hk | lia] | exact Hc | exact C1 | exact C2].
        assert (Lx : legal_mono h x) by (apply LM; eapply nth_error_In; exact Hk). unfold rd_mono. rewrite (grown_view (hv h1) _ _ G) by (eapply grown_inb; [exact S2 | apply Lx]).
        rewrite (stored_view _ _ _ _ St'); [reflexivity | eapply stored_inb; [exact S4 | apply Lx]|]. intros a c Hv [Hh Hw]. eapply (Ap k i x t); try eassumption. }
    unfold bindM. rewrite R. rewrite <- V. destruct r as [[k|u|d|q]|e]; cbn [as_value rd bind].
    + (* a constant derivative *)
      destruct (k =? n0).
      * exists (Ok out), h2. split; [reflexivity|]. split; try assumption; [rewrite E1; exact S1 | congruence|]. exists mo. rewrite E1. auto.
      * unfold append_monos. pose proof (free_append (hm h) grow_mono zero_mono (hm h2) out mo [hk_to_mono k]) as Q. rewrite E1 in Q. specialize (Q M1 S1). rewrite E1.
        destruct (append_slice grow_mono zero_mono (hm h1) out [hk_to_mono k]) as [s' mm]. cbn [fst snd] in Q. destruct Q as [Q1 Q2]. eexists _, _. split; [reflexivity|].
        split; cbn [with_monos hm hv hp hi]; try assumption; [congruence|]. exists (mo ++ [hk_to_mono k]). split; [exact Q1|]. rewrite map_app. split; [f_equal; exact M2'|].
        split; [apply Forall_app; split; [exact M3'|]; constructor; [|constructor]; split; [split; split; cbn; lia | left; reflexivity]|].
        apply disjoint_snoc; [exact M4|]. intros m a c _ _ [_ X]. cbn in X. lia.
    + exists (Panic POther), h2. split; [reflexivity|]. split; [reflexivity|]. split; [rewrite E1; exact S1 | exact G2 | congruence|]. eapply stored_weak; [|exact F]. intros a c. apply hit_le. exact Li.
    + unfold append_monos. pose proof (free_append (hm h) grow_mono zero_mono (hm h2) out mo [d]) as Q. rewrite E1 in Q. specialize (Q M1 S1). rewrite E1.
      destruct (append_slice grow_mono zero_mono (hm h1) out [d]) as [s' mm]. cbn [fst snd] in Q. destruct Q as [Q1 Q2]. eexists _, _. split; [reflexivity|].
      destruct (Res d eq_refl) as [Ld Fd].
      split; cbn [with_monos hm hv hp hi]; try assumption; [congruence|]. exists (mo ++ [d]). split; [exact Q1|]. rewrite map_app. split; [f_equal; exact M2'|].
      split.
      * apply Forall_app. split; [exact M3'|]. constructor; [|constructor]. split; [exact Ld|]. destruct Fd as [[F1 F2]|[F1|F1]]; [right; right; exists t; split; [apply In1; right; reflexivity | split; assumption] | left; exact F1|].
        right; left. destruct S4 as [S4 _]. lia.
      * apply disjoint_snoc; [exact M4|]. intros x a c Hx Hv Hw. rewrite Forall_forall in M3. destruct (M3 x Hx) as [[D1 D2] D3]. destruct Fd as [[F1 F2]|[F1|F1]].
        -- rewrite F2 in Hw. destruct D3 as [D3|[D3|(t' & D3 & D4 & D5)]].
           ++ destruct D1 as [D1 _], Hv as [_ Hv]. lia.
           ++ destruct Hv as [-> _]. pose proof (vis_arr _ _ _ _ (proj1 Lt) Hw). lia.
           ++ rewrite D5 in Hv. destruct (firstn_in_nth _ _ _ D3) as (k & Hk & Hn). eapply (Ap k i t' t); try eassumption. lia.
        -- destruct Ld as [[Ld _] _], Hw as [_ Hw]. lia.
        -- destruct Hw as [-> _]. pose proof (vis_arr _ _ _ _ D1 Hv). lia.
    + exists (Panic POther), h2. split; [reflexivity|]. split; [reflexivity|]. split; [rewrite E1; exact S1 | exact G2 | congruence|]. eapply stored_weak; [|exact F]. intros a c. apply hit_le. exact Li.
    + exists (Panic e), h2. split; [reflexivity|]. split; [reflexivity|]. split; [rewrite E1; exact S1 | exact G2 | congruence|]. eapply stored_weak; [|exact F]. intros a c. apply hit_le. exact Li.
  - exists (Panic px), h1. split; [reflexivity|]. split; [reflexivity|]. eapply state_frame; [|exact LS]. lia.
Qed.

Lemma deriv_loop v h p : legal h (HP p) -> apart v h (view (hm h) p) -> forall n i out outv h1, (i + n = length (view (hm h) p))%nat -> loop_state v h p i h1 out outv ->
  exists r h2, forM (deriv_body p v) (seq i n) out h1 = (r, h2) /\
    match r, foldM (value_body v) outv (map (rd_mono h) (skipn i (view (hm h) p))) with
    | Ok out', Ok outv' => loop_state v h p (length (view (hm h) p)) h2 out' outv'
    | Panic a, Panic b => a = b /\ loop_frame v h p h2
    | _, _ => False
    end.
Proof.
  intros LP Ap. induction n as [|n IH]; intros i out outv h1 Hi LS.
  - rewrite Nat.add_0_r in Hi. subst i. rewrite skipn_all. exists (Ok out), h1. split; [reflexivity | exact LS].
  - destruct (nth_error (view (hm h) p) i) as [t|] eqn:Ht; [|apply nth_error_None in Ht; lia].
    assert (Sk : skipn i (view (hm h) p) = t :: skipn (S i) (view (hm h) p)).
    { clear - Ht. revert i Ht. generalize (view (hm h) p) as l. induction l as [|a l IH]; intros [|i] H; cbn in *; try discriminate; [injection H as ->; reflexivity|]. rewrite (IH i H). destruct l; reflexivity. }
    rewrite Sk. cbn [map foldM seq forM]. destruct (deriv_step v h p i h1 out outv t LP Ap Ht LS) as (r & h2 & R & S). unfold bindM at 1. rewrite R.
    destruct r as [out'|a], (value_body v outv (rd_mono h t)) as [outv'|b]; cbn [bind]; try contradiction.
    + apply IH; [lia | exact S].
    + exists (Panic a), h2. split; [reflexivity | exact S].
Qed.

Lemma poly_effect h p v : legal h (HP p) -> apart v h (view (hm h) p) ->
  exists r h', h_poly_derivative p v h = (r, h') /\ as_value h' r = poly_derivative (rd_poly h p) v /\ loop_frame v h p h' /\
    (forall d, r = Ok d -> legal h' d /\ disjoint (monomials h' d) /\ Forall (from_before v h (view (hm h) p) (length (view (hm h) p))) (monomials h' d)) /\
    ((exists d, r = Ok d) -> (forall t, In t (view (hm h) p) -> mono_is_constant (rd_mono h t) = Ok true -> find_var v (m_vars (rd_mono h t)) = None) -> rd_poly h' p = map (lower v) (rd_poly h p)).
Proof.
  intros LP Ap. pose proof LP as [LPi LM]. specialize (LPi p eq_refl).
  assert (F0 : loop_frame v h p h) by (split; [apply grown_refl | apply grown_refl | reflexivity | apply grown_stored; apply grown_refl]).
  unfold h_poly_derivative, poly_derivative, check_poly, check_var, bindM at 1 2, reads, check.
  destruct (poly_check (rd_poly h p)) eqn:C1; cbn [bind].
  2:{ exists (Panic PCheck), h. split; [reflexivity|]. split; [reflexivity|]. split; [exact F0|]. split; [intros d X; discriminate X | intros [d X]; discriminate X]. }
  destruct (var_check v) eqn:C2; cbn [bind].
  2:{ exists (Panic PCheck), h. split; [reflexivity|]. split; [reflexivity|]. split; [exact F0|]. split; [intros d X; discriminate X | intros [d X]; discriminate X]. }
  replace (derivative_loop (rd_poly h p) v) with (r <- derivative_loop (rd_poly h p) v ;; Ok ([] ++ r)) by (destruct (derivative_loop (rd_poly h p) v); reflexivity).
  rewrite derivative_fold. fold (value_body v).
  assert (LS0 : loop_state v h p 0 h nil_slice []).
  { split; [apply grown_refl | apply grown_refl | reflexivity | apply grown_stored; apply grown_refl | | intros t []]. exists []. split; [apply built_nil|]. split; [reflexivity|]. split; [constructor|]. intros [|i] j m m' _ X; discriminate X. }
  destruct (deriv_loop v h p LP Ap (s_len p) 0 nil_slice [] h) as (r & h2 & R & S); [cbn; symmetry; apply view_length; exact LPi | exact LS0|]. cbn [skipn] in S. fold (rd_poly h p) in S.
  change (forM _ (indices p) nil_slice) with (forM (deriv_body p v) (seq 0 (s_len p)) nil_slice). unfold bindM at 1. rewrite R.
  change (foldM _ [] (rd_poly h p)) with (foldM (value_body v) [] (rd_poly h p)).
  destruct r as [out|a], (foldM (value_body v) [] (rd_poly h p)) as [outv|b]; cbn [bind]; try contradiction.
  - eexists _, h2. split; [reflexivity|]. pose proof S as [S1 S2 S3 S4 (mo & M1 & M2 & M3 & M4) S6]. pose proof (built_len _ _ _ _ _ M1) as Ln. destruct M1 as (M1 & M1v & _).
    assert (LR : legal h2 (HP out)). { split; [intros q X; injection X as <-; exact M1|]. cbn [monomials]. rewrite M1v. intros m Hm. rewrite Forall_forall in M3. apply M3. exact Hm. }
    split; [|split; [eapply state_frame; [|exact S]; lia|split]].
    + rewrite Ln. subst outv. destruct mo as [|x mo]; [reflexivity|]. cbn [length Nat.eqb as_value rd map]. unfold rd_poly. rewrite M1v. reflexivity.
    + intros d X. injection X as <-. destruct (Nat.eqb (s_len out) 0).
      * split; [split; [intros q X; discriminate X | intros m []]|]. split; [intros [|i] j m m' _ X; discriminate X | constructor].
      * split; [exact LR|]. cbn [monomials]. rewrite M1v. split; [exact M4|]. eapply Forall_impl; [|exact M3]. intros d [_ D]. exact D.
    + intros _ Hc. unfold rd_poly. rewrite (grown_view _ _ _ S1 LPi), map_map. apply map_ext_in. intros t Ht.
      rewrite firstn_all in S6. apply S6; [exact Ht | apply Hc; exact Ht | | exact C2].
      assert (K : poly_check (rd_poly h p) = true -> mono_check (rd_mono h t) = true); [|apply K; exact C1]. clear - Ht. unfold rd_poly, poly_check. intro H.
      assert (H' : forallb mono_check (map (rd_mono h) (view (hm h) p)) = true) by (destruct (map (rd_mono h) (view (hm h) p)); [reflexivity | exact H]). rewrite forallb_forall in H'. apply H'. apply in_map. exact Ht.
  - destruct S as [-> S]. exists (Panic b), h2. split; [reflexivity|]. split; [reflexivity|]. split; [exact S|]. split; [intros d X; discriminate X | intros [d X]; discriminate X].
Qed.

(** ** All scalar expressions *)
Lemma hits_nonlinear v m : hits v m -> ~ at_most_linear_in v (SM m).
Proof.
  intros (k & e & Hk & He & Ne) L. apply find_var_some in Hk. destruct Hk as (u & Hu & Id). apply Ne. eapply (L m k u e); [left; reflexivity | exact Hu | exact Id | exact He].
Qed.
Lemma constant_none (m : Monomial) v : mono_is_constant m = Ok true -> find_var v (m_vars m) = None.
Proof. unfold mono_is_constant. destruct (check (mono_check m) PCheck); cbn [bind]; [|discriminate]. destruct (m_vars m); [reflexivity | discriminate]. Qed.
Lemma lower_list v : forall us es k e, length es = length us -> NoDup (map v_id us) -> find_var v us = Some k -> nth_error es k = Some e ->
  map (fun ue => if same_id (fst ue) v && negb (Z.eqb (snd ue) 1) then (snd ue - 1)%Z else snd ue) (combine us es) = if Z.eqb e 1 then es else set_nth k (e - 1)%Z es.
Proof.
  assert (Z0 : forall v us es, length es = length us -> ~ In (v_id v) (map v_id us) -> map (fun ue => if same_id (fst ue) v && negb (Z.eqb (snd ue) 1) then (snd ue - 1)%Z else snd ue) (combine us es) = es).
  { clear. intros v us. induction us as [|u us IH]; intros [|x es] L Nin; cbn in L; try discriminate; [reflexivity|]. cbn [combine map fst snd].
    assert (same_id u v = false) as -> by (apply not_true_iff_false; rewrite same_id_iff; intro E; apply Nin; left; exact E). cbn [andb]. rewrite IH; [reflexivity | lia|]. intro H. apply Nin. right. exact H. }
  induction us as [|u us IH]; intros es k e L Nd Hk He; [apply find_var_some in Hk; destruct Hk as (w & Hw & _); destruct k; discriminate Hw|].
  destruct es as [|x es]; [discriminate L|]. cbn [combine map fst snd]. inversion Nd as [|? ? Nin Nd']; subst. destruct (same_id u v) eqn:Su.
  - pose proof Su as Su'. apply same_id_iff in Su'. assert (k = 0%nat).
    { pose proof (find_var_some _ _ _ Hk) as (w & Hw & Iw). destruct k as [|k]; [reflexivity|]. exfalso. apply Nin. rewrite Su', <- Iw. apply in_map. eapply nth_error_In. exact Hw. }
    subst k. cbn in He. injection He as ->. rewrite Z0 by (cbn in L; first [lia | rewrite <- Su'; exact Nin]). destruct (Z.eqb e 1); reflexivity.
  - destruct k as [|k]; [apply find_var_some in Hk; destruct Hk as (w & Hw & Iw); injection Hw as ->; apply same_id_iff in Iw; congruence|].
    cbn [nth_error] in He. cbn in L. rewrite (IH es k e); [destruct (Z.eqb e 1); reflexivity | lia | exact Nd' | | exact He].
    destruct (find_var v us) as [k'|] eqn:Hk'.
    + f_equal. pose proof (find_var_some _ _ _ Hk) as (w & Hw & Iw). pose proof (find_var_some _ _ _ Hk') as (w' & Hw' & Iw'). cbn in Hw.
      assert (N1 : nth_error (map v_id us) k = Some (v_id v)) by (rewrite nth_error_map, Hw; cbn; congruence). assert (N2 : nth_error (map v_id us) k' = Some (v_id v)) by (rewrite nth_error_map, Hw'; cbn; congruence).
      rewrite NoDup_nth_error in Nd'. apply Nd'; [apply nth_error_Some; congruence | congruence].
    + exfalso. apply find_var_none in Hk'. pose proof (find_var_some _ _ _ Hk) as (w & Hw & Iw). apply Hk'. rewrite <- Iw. apply in_map. eapply nth_error_In. exact Hw.
Qed.
Lemma lower_lowered v m : valid_mono m -> lower v m = lowered v m.
Proof.
  intros (L & _ & Nd & _). unfold lower, lowered. destruct m as [c es us]. cbn [m_coeff m_exps m_vars] in *. destruct (find_var v us) as [k|] eqn:Hk.
  - assert (Lk : (k < length us)%nat). { pose proof (find_var_some _ _ _ Hk) as (w & Hw & _). apply nth_error_Some. congruence. }
    destruct (nth_error es k) as [e|] eqn:He; [|apply nth_error_None in He; lia]. rewrite (lower_list v us es k e L Nd Hk He). destruct (Z.eqb e 1); reflexivity.
  - f_equal. clear Nd. apply find_var_none in Hk. revert es L. induction us as [|u us IH]; intros [|x es] L; cbn in L; try discriminate; [reflexivity|]. cbn [combine map fst snd].
    assert (same_id u v = false) as -> by (apply not_true_iff_false; rewrite same_id_iff; intro E; apply Hk; left; exact E). cbn [andb]. f_equal. apply IH; [intro H; apply Hk; right; exact H | lia].
Qed.

Lemma frame_rd v h h' s t : grown (hm h) (hm h') -> grown (hv h) (hv h') -> (forall a j, (forall m', In m' (monomials h s) -> ~ cells_hit v h m' a j) -> (a < length (hi h))%nat -> cell (hi h') a j = cell (hi h) a j) ->
  legal h t -> out_of_reach h v s t -> rd h' t = rd h t.
Proof.
  intros Gm Gv W [L1 L2] D. assert (M : forall m, In m (monomials h t) -> rd_mono h' m = rd_mono h m).
  { intros m Hm. destruct (L2 m Hm) as [B1 B2]. unfold rd_mono. rewrite (grown_view _ _ _ Gv B2). f_equal. apply view_same. intros j Hj. apply W; [|eapply vis_arr; [exact B1 | exact Hj]].
    intros m' Hm' [Hh Hw]. apply (D m m' Hm Hm' (hits_nonlinear _ _ Hh)). exists (s_arr (h_exps m)), j. split; assumption. }
  destruct t as [k|u|m|q]; cbn [rd]; try reflexivity; [rewrite M; [reflexivity | left; reflexivity]|]. unfold rd_poly. rewrite (grown_view _ _ _ Gm (L1 q eq_refl)). f_equal. apply map_ext_in. exact M.
Qed.

Theorem derivative_anywhere h s v : legal h s -> own_exponents h v s ->
  exists r h', h_derivative s v h = (r, h') /\ as_value h' r = scalar_derivative (rd h s) v /\
    (forall t, legal h t -> out_of_reach h v s t -> rd h' t = rd h t) /\
    (forall t, legal h t -> legal h' t) /\
    (forall d, r = Ok d -> legal h' d /\ (forall w, own_exponents h' w d) /\ (forall t, legal h t -> (forall m m', In m (monomials h t) -> In m' (monomials h s) -> ~ share_exponents m m') -> forall m m', In m (monomials h' t) -> In m' (monomials h' d) -> ~ share_exponents m m')) /\
    (valid (rd h s) -> valid_var v -> rd h' s = match s with HM _ | HP _ => lowered_scalar v (rd h s) | _ => rd h s end).
Proof.
  intros L Ow. destruct s as [k|u|m|p]; cbn [h_derivative].
  - exists (Ok (HK n0)), h. split; [reflexivity|]. split; [reflexivity|]. split; [reflexivity|]. split; [auto|]. split; [|reflexivity]. intros d X. injection X as <-. split; [split; [intros q X; discriminate X | intros m []] | split; [intros w [|i] j m m' _ X; discriminate X | intros t _ _ m m' _ []]].
  - cbn [rd scalar_derivative]. unfold check_var, var_derivative, bindM, reads, check. destruct (var_check u); cbn [bind]; [destruct (var_check v); cbn [bind]|].
    + exists (Ok (HK (if same_id u v then n1 else n0))), h. split; [reflexivity|]. split; [reflexivity|]. split; [reflexivity|]. split; [auto|]. split; [|reflexivity]. intros d X. injection X as <-. split; [split; [intros q X; discriminate X | intros m []] | split; [intros w [|i] j m m' _ X; discriminate X | intros t _ _ m m' _ []]].
    + exists (Panic PCheck), h. split; [reflexivity|]. split; [reflexivity|]. split; [reflexivity|]. split; [auto|]. split; [|reflexivity]. intros d X. discriminate X.
    + exists (Panic PCheck), h. split; [reflexivity|]. split; [reflexivity|]. split; [reflexivity|]. split; [auto|]. split; [|reflexivity]. intros d X. discriminate X.
  - assert (Lm : legal_mono h m) by (apply L; left; reflexivity). destruct (mono_effect h m v Lm) as (r & h' & R & V & E1 & E2 & G & St & Lo & Res).
    exists r, h'. split; [exact R|]. split; [exact V|]. split; [|split; [|split]].
    + intros t Lt Dt. eapply (frame_rd v h h' (HM m)); [rewrite E1; apply grown_refl | exact G | | exact Lt | exact Dt]. intros a j N La. destruct St as (_ & _ & St). apply St; [exact La|]. apply N. left. reflexivity.
    + intros t [T1 T2]. split; [intros q E; rewrite E1; apply T1; exact E|]. intros x Hx. assert (Hx' : In x (monomials h t)) by (destruct t; cbn [monomials] in *; rewrite ?E1 in Hx; exact Hx). destruct (T2 x Hx') as [X1 X2].
      split; [eapply stored_inb; [exact St | exact X1] | eapply grown_inb; [exact G | exact X2]].
    + intros d ->. destruct d as [k|u|d|q].
      * split; [split; [intros q X; discriminate X | intros x []] | split; [intros w [|i] j x y _ X; discriminate X | intros t _ _ x y _ []]].
      * split; [split; [intros q X; discriminate X | intros x []] | split; [intros w [|i] j x y _ X; discriminate X | intros t _ _ x y _ []]].
      * destruct (Res d eq_refl) as [Ld Fd]. split; [split; [intros q X; discriminate X | intros x [<-|[]]; exact Ld]|]. split.
        { intros w i j x y N Hi Hj. exfalso. destruct i as [|[|i]], j as [|[|j]]; cbn in Hi, Hj; try discriminate; apply N; reflexivity. }
        intros t [T1 T2] D x y Hx [<-|[]] (a & j & S1 & S2).
        assert (Hx' : In x (monomials h t)) by (destruct t; cbn [monomials] in *; rewrite ?E1 in Hx; exact Hx). destruct Fd as [[F1 F2]|[F1|F1]].
        -- apply (D x m Hx' (or_introl eq_refl)). exists a, j. rewrite F2 in S2. split; assumption.
        -- destruct Ld as [[Ld _] _], S2 as [_ S2]. lia.
        -- destruct S2 as [-> _]. pose proof (vis_arr _ _ _ _ (proj1 (T2 x Hx')) S1). lia.
      * exfalso. cbn [as_value rd] in V. unfold mono_derivative in V. destruct (check (mono_check (rd_mono h m)) PCheck); cbn [bind] in V; [|discriminate]. destruct (check (var_check v) PCheck); cbn [bind] in V; [|discriminate].
        destruct (find_var v (m_vars (rd_mono h m))); [|discriminate]. destruct (index (m_exps (rd_mono h m)) n) as [e|]; cbn [bind] in V; [|discriminate]. destruct (Z.eqb e 1 && Nat.eqb (length (m_vars (rd_mono h m))) 1); [discriminate|]. destruct (Z.eqb e 1); discriminate.
    + intros Vm Vv. cbn [rd lowered_scalar valid] in *. rewrite <- lower_lowered by exact Vm. rewrite Lo; [reflexivity | destruct Vm as (Lx & _); unfold mono_check; apply Nat.eqb_eq; exact Lx | apply var_check_valid; exact Vv].
  - assert (Ap : apart v h (view (hm h) p)). { intros i j x y Nij Hx Hy Hh a c Ha Hc. apply (Ow i j x y Nij Hx Hy (hits_nonlinear _ _ Hh)). exists a, c. split; assumption. }
    destruct (poly_effect h p v L Ap) as (r & h' & R & V & [F1 F2 F3 F4] & Res & Lo). exists r, h'. split; [exact R|]. split; [exact V|]. split; [|split; [|split]].
    + intros t Lt Dt. eapply (frame_rd v h h' (HP p)); [exact F1 | exact F2 | | exact Lt | exact Dt]. intros a j N La. destruct F4 as (_ & _ & St). apply St; [exact La|]. intros (x & Hx & Hc). rewrite firstn_all in Hx. exact (N x Hx Hc).
    + intros t [T1 T2]. split; [intros q E; eapply grown_inb; [exact F1 | apply T1; exact E]|]. intros x Hx.
      assert (Hx' : In x (monomials h t)) by (destruct t; cbn [monomials] in *; try exact Hx; rewrite (grown_view _ _ _ F1 (T1 _ eq_refl)) in Hx; exact Hx). destruct (T2 x Hx') as [X1 X2].
      split; [eapply stored_inb; [exact F4 | exact X1] | eapply grown_inb; [exact F2 | exact X2]].
    + intros d ->. destruct (Res d eq_refl) as (Ld & Dd & Fd). split; [exact Ld|]. split.
      * intros w i j x y N Hi Hj _ (a & c & S1 & S2). exact (Dd i j x y N Hi Hj a c S1 S2).
      * intros t [T1 T2] D x y Hx Hy (a & j & S1 & S2).
        assert (Hx' : In x (monomials h t)) by (destruct t; cbn [monomials] in *; try exact Hx; rewrite (grown_view _ _ _ F1 (T1 _ eq_refl)) in Hx; exact Hx).
        rewrite Forall_forall in Fd. destruct (Fd y Hy) as [F|[F|(t' & F & Fh & Fe)]].
        -- destruct Ld as [_ Ld]. destruct (Ld y Hy) as [[Ly _] _]. destruct S2 as [_ S2]. lia.
        -- destruct S2 as [-> _]. pose proof (vis_arr _ _ _ _ (proj1 (T2 x Hx')) S1). lia.
        -- rewrite firstn_all in F. apply (D x t' Hx' F). exists a, j. rewrite Fe in S2. split; assumption.
    + intros [Np Vp] Vv. cbn [rd lowered_scalar]. f_equal. rewrite Lo.
      * apply map_ext_in. intros x Hx. apply lower_lowered. rewrite Forall_forall in Vp. apply Vp. exact Hx.
      * assert (Q : exists d, poly_derivative (rd_poly h p) v = Ok d) by (destruct (scalar_derivative_valid (SP (rd_poly h p)) v (conj Np Vp) Vv) as (d & Hd & _); exists d; exact Hd). destruct Q as [d Q]. rewrite Q in V. destruct r as [d'|]; [eauto | discriminate V].
      * intros t _ X. eapply constant_none. exact X.
Qed.
End Effect.
