(** * Proofs about environments *)

From Coq Require Import ZArith NArith Bool List Lia DecimalNat Permutation.
From Coq Require String DecimalString.
From Verif Require Import Num Syntax ModelScalar Spec Base ScalarValid Eval ScalarOps ScalarMore ScalarFacts Unamb ScalarOver ModelEnv SpecEnv.
Import ListNotations.

Section EnvProofs.
Context {NN : Num}.

(** ** Sequential histories *)

Definition in_env (e : N) (v : var) : bool := match v_env v with Some a => N.eqb a e | None => false end.
Definition numbered (st : store) : Prop := forall e k v, nth_error (st e) k = Some v -> v_id v = N.of_nat k /\ v_env v = Some e /\ v_name v = index_name k.
Definition listed (st : store) (out : list var) : Prop := (forall e, st e = filter (in_env e) out) /\ forall v, In v out -> exists e, v_env v = Some e.

Lemma tracked_false (l : list var) v : (forall k w, nth_error l k = Some w -> v_id w = N.of_nat k) -> v_id v = N.of_nat (List.length l) -> tracked l v = false.
Proof.
  intros H E. unfold tracked. destruct (existsb _ l) eqn:X; [|reflexivity]. apply existsb_exists in X. destruct X as (w & Hw & Ew). apply N.eqb_eq in Ew.
  apply In_nth_error in Hw. destruct Hw as (k & Hk). pose proof (H k w Hk). assert (k < List.length l) by (apply nth_error_Some; congruence). lia.
Qed.
Lemma set_env_same st e l : set_env st e l e = l.
Proof. unfold set_env. rewrite N.eqb_refl. reflexivity. Qed.
Lemma set_env_other st e l a : a <> e -> set_env st e l a = st a.
Proof. intro H. unfold set_env. destruct (N.eqb_spec a e); [contradiction | reflexivity]. Qed.

Definition maker (mk : nat -> N -> var) : Prop := forall n e, v_id (mk n e) = N.of_nat n /\ v_env (mk n e) = Some e /\ v_name (mk n e) = index_name n.
Lemma maker_continuous : maker continuous.
Proof. repeat split. Qed.
Lemma maker_binary : maker binary.
Proof. repeat split. Qed.

Lemma new_variable_ok mk st out envs v st' : maker mk -> numbered st -> listed st out -> new_variable mk st envs = (v, st') ->
  numbered st' /\ listed st' (out ++ [v]) /\ v_env v = Some (current_env envs).
Proof.
  intros M HN [HL HE] E. unfold new_variable in E. set (e := current_env envs) in *. injection E as Ev Es. destruct (M (List.length (st e)) e) as (M1 & M2 & M3). rewrite Ev in M1, M2, M3, Es. subst st'. clear Ev.
  assert (T : tracked (st e) v = false) by (apply tracked_false; [intros k w Hk; exact (proj1 (HN e k w Hk)) | exact M1]).
  unfold track. rewrite T. cbn [snd]. split; [|split; [|exact M2]].
  - intros a k w Hk. destruct (N.eq_dec a e) as [->|Ha]; [|rewrite set_env_other in Hk by exact Ha; exact (HN a k w Hk)].
    rewrite set_env_same in Hk. destruct (Nat.lt_ge_cases k (List.length (st e))) as [L|G].
    + rewrite nth_error_app1 in Hk by exact L. exact (HN e k w Hk).
    + rewrite nth_error_app2 in Hk by exact G. destruct (k - List.length (st e)) as [|q] eqn:Q; [|destruct q; discriminate Hk]. injection Hk as <-. replace k with (List.length (st e)) by lia. repeat split; assumption.
  - split.
    + intro a. rewrite filter_app. cbn [filter]. unfold in_env at 2. rewrite M2. destruct (N.eqb_spec e a) as [<-|Ha].
      * rewrite set_env_same. rewrite <- HL. reflexivity.
      * rewrite set_env_other by congruence. rewrite app_nil_r. apply HL.
    + intros w Hw. apply in_app_iff in Hw. destruct Hw as [Hw|[<-|[]]]; [exact (HE w Hw) | exists e; exact M2].
Qed.
Lemma new_variables_ok n : forall st out e vs st', numbered st -> listed st out -> new_variables n st e = (vs, st') ->
  numbered st' /\ listed st' (out ++ vs) /\ List.length vs = n /\ forall v, In v vs -> v_env v = Some e.
Proof.
  induction n as [|n IH]; cbn [new_variables]; intros st out e vs st' HN HL E.
  - injection E as <- <-. rewrite app_nil_r. split; [exact HN|]. split; [exact HL|]. split; [reflexivity|]. intros v [].
  - destruct (new_variable continuous st [e]) as [v st1] eqn:E1. destruct (new_variables n st1 e) as [ws st2] eqn:E2. injection E as <- <-.
    destruct (new_variable_ok continuous st out [e] v st1 maker_continuous HN HL E1) as (N1 & L1 & V1).
    destruct (IH st1 (out ++ [v]) e ws st2 N1 L1 E2) as (N2 & L2 & Len & HV). rewrite <- app_assoc in L2. split; [exact N2|]. split; [exact L2|]. split; [cbn; lia|].
    intros w [<-|Hw]; [exact V1 | exact (HV w Hw)].
Qed.
Lemma new_rows_ok r c : forall st out e m st', numbered st -> listed st out -> new_rows r c st e = (m, st') ->
  numbered st' /\ listed st' (out ++ concat m) /\ List.length m = r /\ Forall (fun row => List.length row = c) m /\ forall v, In v (concat m) -> v_env v = Some e.
Proof.
  induction r as [|r IH]; cbn [new_rows]; intros st out e m st' HN HL E.
  - injection E as <- <-. cbn [concat]. rewrite app_nil_r. split; [exact HN|]. split; [exact HL|]. split; [reflexivity|]. split; [constructor|]. intros v [].
  - destruct (new_variables c st e) as [row st1] eqn:E1. destruct (new_rows r c st1 e) as [rows st2] eqn:E2. injection E as <- <-.
    destruct (new_variables_ok c st out e row st1 HN HL E1) as (N1 & L1 & Len1 & V1).
    destruct (IH st1 (out ++ row) e rows st2 N1 L1 E2) as (N2 & L2 & Len & F & HV). rewrite <- app_assoc in L2. cbn [concat]. split; [exact N2|]. split; [exact L2|]. split; [cbn; lia|].
    split; [constructor; assumption|]. intros w Hw. apply in_app_iff in Hw. destruct Hw as [Hw|Hw]; [exact (V1 w Hw) | exact (HV w Hw)].
Qed.

Lemma run_call_ok st out c vs st' : numbered st -> listed st out ->
  (forall e v, c = Track e v -> In v out /\ v_env v = Some e) -> run_call st c = (vs, st') -> numbered st' /\ listed st' (out ++ vs).
Proof.
  intros HN HL HT E. destruct c as [envs|envs|n envs|r c envs|e v]; cbn [run_call] in E.
  - destruct (new_variable continuous st envs) as [v st1] eqn:E1. injection E as <- <-. destruct (new_variable_ok _ _ _ _ _ _ maker_continuous HN HL E1) as (A & B & _). auto.
  - destruct (new_variable binary st envs) as [v st1] eqn:E1. injection E as <- <-. destruct (new_variable_ok _ _ _ _ _ _ maker_binary HN HL E1) as (A & B & _). auto.
  - unfold new_vector in E. destruct (new_variables_ok _ _ out _ _ _ HN HL E) as (A & B & _). auto.
  - destruct (new_matrix r c st envs) as [[m|p] st1] eqn:E1; injection E as <- <-; unfold new_matrix in E1.
    + assert (E2 : new_rows (Z.to_nat r) (Z.to_nat c) st (current_env envs) = (m, st1)).
      { destruct envs as [|e0 [|e1 envs]]; [| |discriminate E1]; (destruct (Z.ltb 0 r && Z.ltb c 0); [discriminate E1|]); destruct (new_rows _ _ _ _) as [m' st2]; injection E1 as -> ->; reflexivity. }
      destruct (new_rows_ok _ _ _ out _ _ _ HN HL E2) as (A & B & _). auto.
    + assert (st1 = st). { destruct envs as [|e0 [|e1 envs]]; [| |injection E1 as _ ->; reflexivity]; (destruct (Z.ltb 0 r && Z.ltb c 0); [injection E1 as _ ->; reflexivity|]); destruct (new_rows _ _ _ _) as [m' st2]; discriminate E1. }
      subst st1. rewrite app_nil_r. auto.
  - injection E as <- <-. rewrite app_nil_r. destruct (HT e v eq_refl) as [Hv Ev].
    assert (T : tracked (st e) v = true). { apply existsb_exists. exists v. split; [|apply N.eqb_refl]. rewrite (proj1 HL e). apply filter_In. split; [exact Hv|]. unfold in_env. rewrite Ev. apply N.eqb_refl. }
    unfold track. rewrite T. cbn [snd].
    assert (Q : forall a, set_env st e (st e) a = st a) by (intro a; destruct (N.eq_dec a e) as [->|Ha]; [apply set_env_same | apply set_env_other; exact Ha]).
    split; [intros a k w Hk; rewrite Q in Hk; exact (HN a k w Hk)|]. split; [intro a; rewrite Q; apply HL | apply HL].
Qed.

Lemma run_calls_app cs : forall st ds, run_calls st (cs ++ ds) = (let (vs, st1) := run_calls st cs in let (ws, st2) := run_calls st1 ds in (vs ++ ws, st2)).
Proof.
  induction cs as [|c cs IH]; intros st ds; cbn [app run_calls].
  - destruct (run_calls st ds). reflexivity.
  - destruct (run_call st c) as [vs st1]. rewrite IH. destruct (run_calls st1 cs) as [us st2]. destruct (run_calls st2 ds) as [ws st3]. rewrite app_assoc. reflexivity.
Qed.

Lemma numbered_empty : numbered empty_store.
Proof. intros e k v H. destruct k; discriminate H. Qed.
Lemma listed_empty : listed empty_store [].
Proof. split; [reflexivity | intros v []]. Qed.

Lemma history_ok cs : tracks_own cs -> numbered (snd (run_calls empty_store cs)) /\ listed (snd (run_calls empty_store cs)) (fst (run_calls empty_store cs)).
Proof.
  induction cs as [|c cs IH] using rev_ind; intro HT; [split; [exact numbered_empty | exact listed_empty]|].
  assert (HT' : tracks_own cs). { intros pre e v post H. apply (HT pre e v (post ++ [c])). rewrite H, <- app_assoc. reflexivity. }
  destruct (IH HT') as [HN HL]. rewrite run_calls_app. destruct (run_calls empty_store cs) as [vs st1] eqn:R. cbn [fst snd] in HN, HL. cbn [run_calls].
  destruct (run_call st1 c) as [ws st2] eqn:E. rewrite app_nil_r. cbn [fst snd].
  apply (run_call_ok st1 vs c ws st2 HN HL); [|exact E]. intros e v ->. specialize (HT cs e v [] eq_refl). rewrite R in HT. exact HT.
Qed.

Lemma listed_nodup st out : numbered st -> listed st out -> NoDup (map key out).
Proof.
  intros HN [HL HE]. assert (G : forall e, NoDup (map v_id (filter (in_env e) out))).
  { intro e. rewrite <- HL. apply NoDup_nth_error. intros i j Hi Hij. rewrite map_length in Hi. rewrite !nth_error_map in Hij.
    destruct (nth_error (st e) i) as [v|] eqn:Ei; [|apply nth_error_None in Ei; lia]. destruct (nth_error (st e) j) as [w|] eqn:Ej; [|discriminate Hij].
    cbn in Hij. pose proof (proj1 (HN e i v Ei)). pose proof (proj1 (HN e j w Ej)). injection Hij as Hij. lia. }
  clear HL. induction out as [|v out IH]; [constructor|]. cbn [map]. constructor.
  - intro H. apply in_map_iff in H. destruct H as (w & Ek & Hw). destruct (HE v (or_introl eq_refl)) as (e & Ev). specialize (G e). cbn [filter] in G. unfold key in Ek. injection Ek as E1 E2.
    unfold in_env at 1 in G. rewrite Ev, N.eqb_refl in G. cbn [map] in G. inversion G as [|? ? G1 _]; subst. apply G1. apply in_map_iff. exists w. split; [exact E2|]. apply filter_In. split; [exact Hw|].
    unfold in_env. rewrite E1, Ev. apply N.eqb_refl.
  - apply IH; [intros w Hw; apply HE; right; exact Hw|]. intro e. specialize (G e). cbn [filter] in G. destruct (in_env e v); [inversion G; assumption | exact G].
Qed.

Lemma index_name_inj a b : index_name a = index_name b -> a = b.
Proof.
  unfold index_name. intro H. cbn in H. injection H as H. apply (f_equal DecimalString.NilEmpty.uint_of_string) in H. rewrite !DecimalString.NilEmpty.usu in H. injection H as H.
  apply (f_equal Nat.of_uint) in H. rewrite !Unsigned.of_to in H. exact H.
Qed.

(** the statements of C39 *)
Lemma history_distinct cs : tracks_own cs -> NoDup (map key (fst (run_calls empty_store cs))).
Proof. intro H. destruct (history_ok cs H) as [HN HL]. exact (listed_nodup _ _ HN HL). Qed.
Lemma history_tracked cs e : tracks_own cs ->
  snd (run_calls empty_store cs) e = filter (fun v => match v_env v with Some a => N.eqb a e | None => false end) (fst (run_calls empty_store cs)).
Proof. intro H. destruct (history_ok cs H) as [_ HL]. exact (proj1 HL e). Qed.
Lemma history_numbered cs e k v : tracks_own cs -> nth_error (snd (run_calls empty_store cs) e) k = Some v -> v_id v = N.of_nat k /\ v_env v = Some e.
Proof. intros H Hk. destruct (history_ok cs H) as [HN _]. destruct (HN e k v Hk) as (A & B & _). auto. Qed.
Lemma history_names cs v w : tracks_own cs -> In v (fst (run_calls empty_store cs)) -> In w (fst (run_calls empty_store cs)) ->
  v_env v = v_env w -> v_name v = v_name w -> v = w.
Proof.
  intros H Hv Hw He Hn. destruct (history_ok cs H) as [HN [HL HE]]. destruct (HE v Hv) as (e & Ev).
  assert (F : forall u, In u (fst (run_calls empty_store cs)) -> v_env u = Some e -> exists k, nth_error (snd (run_calls empty_store cs) e) k = Some u).
  { intros u Hu Eu. apply In_nth_error. rewrite HL. apply filter_In. split; [exact Hu|]. unfold in_env. rewrite Eu. apply N.eqb_refl. }
  destruct (F v Hv Ev) as (i & Hi). destruct (F w Hw (eq_trans (eq_sym He) Ev)) as (j & Hj).
  destruct (HN e i v Hi) as (_ & _ & N1). destruct (HN e j w Hj) as (_ & _ & N2). assert (i = j) by (apply index_name_inj; congruence). congruence.
Qed.
Lemma new_vector_length n st envs : List.length (fst (new_vector n st envs)) = Z.to_nat n.
Proof.
  unfold new_vector. generalize (current_env envs). generalize st. induction (Z.to_nat n) as [|k IH]; intros s e; [reflexivity|]. cbn [new_variables].
  destruct (new_variable continuous s [e]) as [v s1]. specialize (IH s1 e). destruct (new_variables k s1 e). cbn in *. lia.
Qed.
Lemma new_matrix_dims r c st envs m st' : new_matrix r c st envs = (Ok m, st') -> List.length m = Z.to_nat r /\ Forall (fun row => List.length row = Z.to_nat c) m.
Proof.
  intro E. assert (G : exists e, new_rows (Z.to_nat r) (Z.to_nat c) st e = (m, st')).
  { exists (current_env envs). unfold new_matrix in E. destruct envs as [|e0 [|e1 envs]]; [| |discriminate E]; (destruct (Z.ltb 0 r && Z.ltb c 0); [discriminate E|]); destruct (new_rows _ _ _ _); injection E as -> ->; reflexivity. }
  destruct G as (e & G). clear E. revert st m st' G. induction (Z.to_nat r) as [|k IH]; intros st m st' G; cbn [new_rows] in G.
  - injection G as <- _. split; [reflexivity | constructor].
  - destruct (new_variables (Z.to_nat c) st e) as [row st1] eqn:E1. destruct (new_rows k (Z.to_nat c) st1 e) as [rows st2] eqn:E2. injection G as <- _. destruct (IH _ _ _ E2) as [L F].
    split; [cbn; lia|]. constructor; [|exact F]. pose proof (new_vector_length (Z.of_nat (Z.to_nat c)) st [e]) as X. unfold new_vector in X. rewrite Nat2Z.id in X. cbn [current_env] in X. rewrite E1 in X. exact X.
Qed.

(** ** Interleavings *)

Definition current (st : store) (g : goroutine) : Prop :=
  match g_todo g with
  | [] => True
  | e :: _ => match g_pc g with Idle => True | HaveLen n | NotFound n => n = List.length (st e) | Loaded n l => n = List.length (st e) /\ l = st e end
  end.
Definition settled (c : config) : Prop :=
  numbered (fst c) /\ NoDup (map key (obtained c)) /\ (forall v, In v (obtained c) -> exists e, v_env v = Some e /\ In v (fst c e))
  /\ Forall (current (fst c)) (snd c) /\ Forall (fun g => g_todo g = [] -> g_pc g = Idle) (snd c).

Lemma set_nth_concat {A} (f : goroutine -> list A) t g g' v : forall gs, nth_error gs t = Some g -> f g' = f g ++ [v] ->
  Permutation (v :: concat (map f gs)) (concat (map f (set_nth t g' gs))).
Proof.
  induction t as [|t IH]; intros [|h gs] H E; try discriminate H; cbn [nth_error] in H; cbn [set_nth map concat].
  - injection H as ->. rewrite E, <- app_assoc. apply (Permutation_middle (f g) (concat (map f gs)) v).
  - transitivity (f h ++ v :: concat (map f gs)); [apply Permutation_middle|]. apply Permutation_app_head. exact (IH gs H E).
Qed.
Lemma set_nth_concat_same {A} (f : goroutine -> list A) t g g' : forall gs, nth_error gs t = Some g -> f g' = f g -> concat (map f (set_nth t g' gs)) = concat (map f gs).
Proof.
  induction t as [|t IH]; intros [|h gs] H E; try discriminate H; cbn [nth_error] in H; cbn [set_nth map concat].
  - injection H as ->. rewrite E. reflexivity.
  - rewrite (IH gs H E). reflexivity.
Qed.
Lemma set_nth_nth {A} t (x : A) : forall l u, nth_error (set_nth t x l) u = if Nat.eqb u t then match nth_error l t with Some _ => Some x | None => None end else nth_error l u.
Proof.
  induction t as [|t IH]; intros [|h l] u; cbn [set_nth]; destruct u as [|u]; cbn [nth_error Nat.eqb]; try reflexivity.
  - destruct (Nat.eqb u t); reflexivity.
  - apply IH.
Qed.

Lemma exclusive_step c t : exclusive c -> exclusive (step c t) -> settled c -> settled (step c t).
Proof.
  intros X X' (HN & ND & HT & HC & HI). unfold step in *. destruct (nth_error (snd c) t) as [g|] eqn:Eg; [|exact (conj HN (conj ND (conj HT (conj HC HI))))].
  assert (Hg : In g (snd c)) by (apply nth_error_In in Eg; exact Eg).
  pose proof (proj1 (Forall_forall _ _) HC g Hg) as Cg. pose proof (proj1 (Forall_forall _ _) HI g Hg) as Ig.
  assert (FU : forall (P : goroutine -> Prop) g', P g' -> (forall u h, u <> t -> nth_error (snd c) u = Some h -> P h) -> Forall P (set_nth t g' (snd c))).
  { intros P g' Pg Ph. apply Forall_forall. intros h Hh. apply In_nth_error in Hh. destruct Hh as (u0 & Hu). rewrite set_nth_nth in Hu. destruct (Nat.eqb_spec u0 t) as [Hut|Hut].
    - rewrite Eg in Hu. injection Hu as <-. exact Pg.
    - exact (Ph u0 h Hut Hu). }
  unfold step_g in *. destruct (g_todo g) as [|e rest] eqn:Et.
  { cbn [fst snd] in *. split; [exact HN|]. assert (O : obtained (fst c, set_nth t g (snd c)) = obtained c) by (apply (set_nth_concat_same g_out t g g (snd c) Eg eq_refl)).
    rewrite O. split; [exact ND|]. split; [exact HT|]. split; cbn [fst snd].
    - apply FU; [exact Cg|]. intros u h _ Hh. exact (proj1 (Forall_forall _ _) HC h (nth_error_In _ _ Hh)).
    - apply FU; [intros _; exact (Ig eq_refl)|]. intros u h _ Hh. exact (proj1 (Forall_forall _ _) HI h (nth_error_In _ _ Hh)). }
  unfold current in Cg. rewrite Et in Cg.
  assert (KEEP : forall p, (match p with Idle => True | HaveLen n | NotFound n => n = List.length (fst c e) | Loaded n l => n = List.length (fst c e) /\ l = fst c e end) ->
    settled (fst c, set_nth t (goto g p) (snd c))).
  { intros p Hp. split; [exact HN|]. assert (O : obtained (fst c, set_nth t (goto g p) (snd c)) = obtained c) by (apply (set_nth_concat_same g_out t g (goto g p) (snd c) Eg eq_refl)).
    rewrite O. split; [exact ND|]. split; [exact HT|]. split; cbn [fst snd].
    - apply FU; [unfold current; cbn [goto g_todo g_pc]; rewrite Et; exact Hp|]. intros u h _ Hh. exact (proj1 (Forall_forall _ _) HC h (nth_error_In _ _ Hh)).
    - apply FU; [cbn [goto g_todo]; rewrite Et; discriminate|]. intros u h _ Hh. exact (proj1 (Forall_forall _ _) HI h (nth_error_In _ _ Hh)). }
  destruct (g_pc g) as [|n|n|n l] eqn:Ep.
  - apply (KEEP (HaveLen (List.length (fst c e)))). reflexivity.
  - subst n. assert (T : tracked (fst c e) (continuous (List.length (fst c e)) e) = false) by (apply tracked_false; [intros k w Hk; exact (proj1 (HN e k w Hk)) | reflexivity]).
    rewrite T in *. apply (KEEP (NotFound (List.length (fst c e)))). reflexivity.
  - apply (KEEP (Loaded n (fst c e))). split; [exact Cg | reflexivity].
  - destruct Cg as [-> ->]. set (v := continuous (List.length (fst c e)) e) in *. set (st' := set_env (fst c) e (fst c e ++ [v])) in *.
    assert (PO : Permutation (v :: obtained c) (obtained (st', set_nth t (finish g v) (snd c)))) by (apply (set_nth_concat g_out t g (finish g v) v (snd c) Eg eq_refl)).
    assert (NN' : numbered st').
    { intros a k w Hk. unfold st' in Hk. destruct (N.eq_dec a e) as [->|Ha]; [|rewrite set_env_other in Hk by exact Ha; exact (HN a k w Hk)].
      rewrite set_env_same in Hk. destruct (Nat.lt_ge_cases k (List.length (fst c e))) as [L|G].
      - rewrite nth_error_app1 in Hk by exact L. exact (HN e k w Hk).
      - rewrite nth_error_app2 in Hk by exact G. destruct (k - List.length (fst c e)) as [|q] eqn:Q; [|destruct q; discriminate Hk]. injection Hk as <-. replace k with (List.length (fst c e)) by lia. repeat split. }
    assert (MONO : forall a w, In w (fst c a) -> In w (st' a)).
    { intros a w Hw. unfold st'. destruct (N.eq_dec a e) as [->|Ha]; [rewrite set_env_same; apply in_app_iff; left; exact Hw | rewrite set_env_other by exact Ha; exact Hw]. }
    split; [exact NN'|]. split.
    { apply (Permutation_NoDup (Permutation_map key PO)). cbn [map]. constructor; [|exact ND]. intro H. apply in_map_iff in H. destruct H as (w & Ek & Hw). destruct (HT w Hw) as (a & Ea & Ha).
      injection Ek as E1 E2. rewrite Ea in E1. injection E1 as ->. apply In_nth_error in Ha. destruct Ha as (k & Hk). pose proof (proj1 (HN e k w Hk)) as Ik. assert (k < List.length (fst c e)) by (apply nth_error_Some; congruence).
      cbn in E2. lia. }
    split.
    { intros w Hw. apply (Permutation_in _ (Permutation_sym PO)) in Hw. destruct Hw as [<-|Hw].
      - exists e. split; [reflexivity|]. cbn [fst]. unfold st'. rewrite set_env_same. apply in_app_iff. right. left. reflexivity.
      - destruct (HT w Hw) as (a & Ea & Ha). exists a. split; [exact Ea | exact (MONO a w Ha)]. }
    cbn [fst snd]. split.
    { apply FU; [unfold current; cbn [finish g_todo g_pc]; destruct (tl (g_todo g)); exact I|]. intros u h Hut Hh.
      pose proof (proj1 (Forall_forall _ _) HC h (nth_error_In _ _ Hh)) as Ch. unfold current in *. destruct (g_todo h) as [|e' rest'] eqn:Eh; [exact I|].
      destruct (N.eq_dec e' e) as [->|Ne]; [|unfold st'; rewrite set_env_other by exact Ne; exact Ch].
      destruct (g_pc h) as [|n|n|n l] eqn:Ph; [exact I|..]; exfalso; apply Hut; symmetry;
      apply (X t u g h e Eg Hh); (split; [congruence | eexists; eassumption]). }
    { apply FU; [intros _; reflexivity|]. intros u h _ Hh. exact (proj1 (Forall_forall _ _) HI h (nth_error_In _ _ Hh)). }
Qed.

Lemma obtained_start ps : obtained (start ps) = [].
Proof. unfold obtained, start. cbn [snd]. induction ps; [reflexivity | exact IHps]. Qed.
Lemma settled_start ps : settled (start ps).
Proof.
  split; [exact numbered_empty|]. rewrite obtained_start. split; [constructor|]. split; [intros v []|]. unfold start. cbn [fst snd].
  split; apply Forall_forall; intros g Hg; apply in_map_iff in Hg; destruct Hg as (p & <- & _); [unfold current; cbn; destruct p; exact I | reflexivity].
Qed.

Lemma schedule_settled ps sched : (forall pre post, sched = pre ++ post -> exclusive (run_schedule (start ps) pre)) -> settled (run_schedule (start ps) sched).
Proof.
  induction sched as [|t sched IH] using rev_ind; intro H; [exact (settled_start ps)|].
  unfold run_schedule. rewrite fold_left_app. cbn [fold_left]. apply exclusive_step.
  - apply (H sched [t] eq_refl).
  - specialize (H (sched ++ [t]) []). rewrite app_nil_r in H. specialize (H eq_refl). unfold run_schedule in H. rewrite fold_left_app in H. exact H.
  - apply IH. intros pre post E. apply (H pre (post ++ [t])). rewrite E, app_assoc. reflexivity.
Qed.

Lemma exclusive_distinct ps sched : (forall pre post, sched = pre ++ post -> exclusive (run_schedule (start ps) pre)) ->
  NoDup (map key (obtained (run_schedule (start ps) sched)))
  /\ forall v, In v (obtained (run_schedule (start ps) sched)) -> exists e, v_env v = Some e /\ In v (fst (run_schedule (start ps) sched) e).
Proof. intro H. destruct (schedule_settled ps sched H) as (_ & A & B & _). auto. Qed.

(** goroutines with environments of their own *)
Definition within (ps : list (list N)) (c : config) : Prop := forall t g, nth_error (snd c) t = Some g -> exists p, nth_error ps t = Some p /\ incl (g_todo g) p.
Lemma within_step ps c t : within ps c -> within ps (step c t).
Proof.
  intros H u h Hu. unfold step in Hu. destruct (nth_error (snd c) t) as [g|] eqn:Eg; [|exact (H u h Hu)]. destruct (step_g (fst c) g) as [g' st'] eqn:E. cbn [snd] in Hu. rewrite set_nth_nth in Hu.
  destruct (Nat.eqb_spec u t) as [->|Hut]; [|exact (H u h Hu)]. rewrite Eg in Hu. injection Hu as <-. destruct (H t g Eg) as (p & Hp & Hi). exists p. split; [exact Hp|].
  unfold step_g in E. destruct (g_todo g) as [|e rest] eqn:Et; [injection E as <- _; rewrite Et; intros x []|].
  assert (I1 : incl rest p) by (intros x Hx; apply Hi; right; exact Hx).
  destruct (g_pc g); [injection E as <- _; cbn; rewrite Et; exact Hi | | injection E as <- _; cbn; rewrite Et; exact Hi | injection E as <- _; cbn; rewrite Et; exact I1].
  destruct (tracked _ _); injection E as <- _; cbn; rewrite Et; [exact I1 | exact Hi].
Qed.
Lemma separate_exclusive ps sched : (forall t u p q e, nth_error ps t = Some p -> nth_error ps u = Some q -> In e p -> In e q -> t = u) ->
  exclusive (run_schedule (start ps) sched).
Proof.
  intro HD. assert (W : within ps (run_schedule (start ps) sched)).
  { induction sched as [|t sched IH] using rev_ind.
    - intros t g Hg. unfold run_schedule, start in Hg. cbn [fold_left snd] in Hg. rewrite nth_error_map in Hg. destruct (nth_error ps t) as [p|]; [|discriminate Hg]. injection Hg as <-. exists p. split; [reflexivity | apply incl_refl].
    - unfold run_schedule. rewrite fold_left_app. apply within_step. exact IH. }
  intros t u gt gu e Ht Hu [_ (rt & Et)] [_ (ru & Eu)]. destruct (W t gt Ht) as (p & Hp & Ip). destruct (W u gu Hu) as (q & Hq & Iq).
  apply (HD t u p q e Hp Hq); [apply Ip; rewrite Et; left; reflexivity | apply Iq; rewrite Eu; left; reflexivity].
Qed.
Lemma separate_distinct ps sched : (forall t u p q e, nth_error ps t = Some p -> nth_error ps u = Some q -> In e p -> In e q -> t = u) ->
  NoDup (map key (obtained (run_schedule (start ps) sched)))
  /\ forall v, In v (obtained (run_schedule (start ps) sched)) -> exists e, v_env v = Some e /\ In v (fst (run_schedule (start ps) sched) e).
Proof. intro H. apply exclusive_distinct. intros pre post _. apply separate_exclusive. exact H. Qed.

(** ** Variables of several environments *)
Local Open Scope num_scope.

Definition assign_of (r : world) (vs : list var) : assignment := fun i => match find (fun v => N.eqb (v_id v) i) vs with Some v => r (v_env v) i | None => n0 end.
Lemma factors_in_of r vs : (forall v w, In v vs -> In w vs -> v_id v = v_id w -> v_env v = v_env w) -> forall ws es, incl ws vs ->
  factors_in r ws es = eval_factors (assign_of r vs) ws es.
Proof.
  intros HC ws. induction ws as [|w ws IH]; intros [|e es] HI; try reflexivity. cbn [factors_in eval_factors]. rewrite (IH es) by (intros x Hx; apply HI; right; exact Hx).
  f_equal. f_equal. unfold assign_of. destruct (find (fun v => N.eqb (v_id v) (v_id w)) vs) as [v|] eqn:F.
  - apply find_some in F as [F1 F2]. apply N.eqb_eq in F2. rewrite (HC v w F1 (HI w (or_introl eq_refl)) F2). reflexivity.
  - pose proof (find_none _ _ F w (HI w (or_introl eq_refl))) as X. cbn in X. rewrite N.eqb_refl in X. discriminate.
Qed.
Definition vars_of (s : scalar) : list var := concat (map m_vars (terms s)).
Lemma has_vars_of v s : In v (vars_of s) <-> has_var v s.
Proof.
  unfold vars_of, has_var. rewrite in_concat. split.
  - intros (l & Hl & Hv). apply in_map_iff in Hl. destruct Hl as (m & <- & Hm). eauto.
  - intros (m & Hm & Hv). exists (m_vars m). split; [apply in_map; exact Hm | exact Hv].
Qed.
Lemma eval_in_of r vs s : (forall v w, In v vs -> In w vs -> v_id v = v_id w -> v_env v = v_env w) -> over (fun v => In v vs) s -> eval_in r s = eval (assign_of r vs) s.
Proof.
  intros HC HO. destruct s as [k|v|m|p]; cbn [eval_in eval].
  - reflexivity.
  - assert (Hv : In v vs) by (apply (HO (var_to_mono v) v); [left; reflexivity | left; reflexivity]). unfold assign_of.
    destruct (find (fun w => N.eqb (v_id w) (v_id v)) vs) as [w|] eqn:F.
    + apply find_some in F as [F1 F2]. apply N.eqb_eq in F2. rewrite (HC w v F1 Hv F2). reflexivity.
    + pose proof (find_none _ _ F v Hv) as X. cbn in X. rewrite N.eqb_refl in X. discriminate.
  - unfold mono_in, eval_mono. f_equal. apply factors_in_of; [exact HC|]. intros w Hw. apply (HO m w); [left; reflexivity | exact Hw].
  - cbn in HO. unfold over in HO. cbn [terms] in HO. induction p as [|m p IH]; [reflexivity|]. cbn [poly_in eval_poly]. rewrite IH by (intros m' w Hm Hw; apply (HO m' w); [right; exact Hm | exact Hw]).
    f_equal. unfold mono_in, eval_mono. f_equal. apply factors_in_of; [exact HC|]. intros w Hw. apply (HO m w); [left; reflexivity | exact Hw].
Qed.

Lemma coherent_lift (f : num -> num -> num) (a b s : scalar) : coherent [a; b] -> over (fun v => has_var v a \/ has_var v b) s ->
  (forall r, eval r s = f (eval r a) (eval r b)) -> forall r, eval_in r s = f (eval_in r a) (eval_in r b).
Proof.
  intros HC HO HV r. set (vs := vars_of a ++ vars_of b).
  assert (HI : forall v, In v vs <-> has_var v a \/ has_var v b) by (intro v; unfold vs; rewrite in_app_iff, !has_vars_of; reflexivity).
  assert (C' : forall v w, In v vs -> In w vs -> v_id v = v_id w -> v_env v = v_env w).
  { intros v w Hv Hw. apply HI in Hv. apply HI in Hw. destruct Hv as [Hv|Hv], Hw as [Hw|Hw]; eapply HC; eauto; cbn; auto. }
  rewrite (eval_in_of r vs s C'), (eval_in_of r vs a C'), (eval_in_of r vs b C'); [apply HV | | |].
  - intros m w Hm Hw. apply HI. right. exists m. auto.
  - intros m w Hm Hw. apply HI. left. exists m. auto.
  - intros m w Hm Hw. apply HI. exact (HO m w Hm Hw).
Qed.
Lemma over_has a b : over (fun v => has_var v a \/ has_var v b) a /\ over (fun v => has_var v a \/ has_var v b) b.
Proof. split; intros m w Hm Hw; [left | right]; exists m; auto. Qed.

Lemma plus_worlds (a b : scalar) : ExactNum NN -> valid a -> valid b -> unambiguous (in_either a b) -> coherent [a; b] ->
  exists s, scalar_plus a b = Ok s /\ forall r, eval_in r s = eval_in r a + eval_in r b.
Proof.
  intros EX Va Vb U C. destruct (plus_value a b EX Va Vb U) as (s & E & X). exists s. split; [exact E|]. destruct (over_has a b) as [Oa Ob].
  exact (coherent_lift nadd a b s C (over_plus _ a b s Va Vb Oa Ob E) X).
Qed.
Lemma mul_worlds (a b : scalar) : ExactNum NN -> valid a -> valid b -> unambiguous_exponents (product_terms a b) -> coherent [a; b] ->
  exists s, scalar_mul a b = Ok s /\ forall r, eval_in r s = eval_in r a * eval_in r b.
Proof.
  intros EX Va Vb U C. destruct (mul_value a b EX Va Vb U) as (s & E & X). exists s. split; [exact E|]. destruct (over_has a b) as [Oa Ob].
  exact (coherent_lift nmul a b s C (over_mul _ a b s Va Vb Oa Ob E) X).
Qed.
End EnvProofs.
