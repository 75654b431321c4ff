(** * Variables, Degree, IsLinear, Constant, LinearCoeff and simplification of arrays *)

From Coq Require Import ZArith NArith Bool List Lia Ring Field.
From Verif Require Import Num Syntax ModelScalar Spec Base ScalarValid Eval ScalarOps ScalarMore ScalarNorm ScalarLin ScalarFacts Unamb ModelShape ModelArith SpecArr Arr ArrPlus ArrTop ArrShape ArrSub.
Import ListNotations.
Local Open Scope num_scope.

Section ArrFacts.
Context {NN : Num}.

Lemma valid_entries d e row s : valid_array d e -> In row (rows e) -> In s row -> valid s.
Proof.
  intros (_ & _ & [L F] & V) Hr Hs. rewrite Forall_forall in F. pose proof (F row Hr) as Lr.
  apply (In_nth _ _ []) in Hr. destruct Hr as (i & Hi & <-). apply (In_nth _ _ (SK n0)) in Hs. destruct Hs as (j & Hj & <-). apply V; lia.
Qed.

(** ** Variables *)

Lemma variables_list (l : list scalar) : Forall valid l ->
  NoDup (map v_id (unique_vars (flat_map scalar_variables l)))
  /\ (forall i, In i (map v_id (unique_vars (flat_map scalar_variables l))) <-> exists s, In s l /\ occurs i s)
  /\ (forall w, In w (unique_vars (flat_map scalar_variables l)) -> exists s m, In s l /\ In m (terms s) /\ In w (m_vars m)).
Proof.
  intro HV. rewrite Forall_forall in HV. split; [apply unique_vars_nodup|]. split.
  - intro i. rewrite unique_vars_in. rewrite in_map_iff. split.
    + intros (w & <- & Hw). apply in_flat_map in Hw. destruct Hw as (s & Hs & Hw). exists s. split; [exact Hs|]. apply scalar_variables_occurs; [exact (HV s Hs)|]. apply in_map. exact Hw.
    + intros (s & Hs & Ho). apply scalar_variables_occurs in Ho; [|exact (HV s Hs)]. apply in_map_iff in Ho. destruct Ho as (w & Ew & Hw). exists w. split; [exact Ew|]. apply in_flat_map. exists s. auto.
  - intros w Hw. apply unique_vars_incl in Hw. apply in_flat_map in Hw. destruct Hw as (s & Hs & Hw). apply scalar_variables_from in Hw. destruct Hw as (m & H1 & H2). exists s, m. auto.
Qed.

Lemma flat_map_map' {A B C} (f : A -> B) (g : B -> list C) l : flat_map g (map f l) = flat_map (fun x => g (f x)) l.
Proof. induction l; cbn; [reflexivity | rewrite IHl; reflexivity]. Qed.
Lemma flat_map_self {A} (l : list A) : flat_map (fun x => [x]) l = l.
Proof. induction l; cbn; [reflexivity | rewrite IHl; reflexivity]. Qed.
Lemma flat_map_nil {A B} (l : list A) : flat_map (fun _ => @nil B) l = [].
Proof. induction l; cbn; [reflexivity | exact IHl]. Qed.

Definition entries (e : expr) : list scalar := concat (rows e).
Lemma concat_single {A B} (f : A -> B) l : concat (map (fun x => [f x]) l) = map f l.
Proof. induction l; cbn; [reflexivity | rewrite IHl; reflexivity]. Qed.

Lemma expr_variables_eq d e : valid_array d e -> expr_variables e = Ok (unique_vars (flat_map scalar_variables (entries e))).
Proof.
  intro V. destruct (valid_array_check d e V) as [C _]. unfold entries. destruct e as [s|[l|l|l|l]|[l|l|l|l]]; cbn [expr_variables rows vec_variables mat_variables expr_check] in *.
  - cbn. rewrite app_nil_r. f_equal. symmetry. apply unique_vars_id. apply variables_facts. apply (valid_entries d (ES s) [s] s V); left; reflexivity.
  - rewrite concat_single, flat_map_map'. cbn [scalar_variables]. rewrite flat_map_nil. reflexivity.
  - rewrite concat_single, flat_map_map'. cbn [scalar_variables]. rewrite flat_map_self. reflexivity.
  - rewrite C. cbn [check bind]. rewrite concat_single, flat_map_map'. reflexivity.
  - rewrite concat_single, flat_map_map'. reflexivity.
  - rewrite <- concat_map, flat_map_map'. cbn [scalar_variables]. rewrite flat_map_nil. reflexivity.
  - rewrite C. cbn [check bind]. rewrite <- concat_map, flat_map_map'. cbn [scalar_variables]. rewrite flat_map_self. reflexivity.
  - rewrite C. cbn [check bind]. rewrite <- concat_map, flat_map_map'. reflexivity.
  - rewrite C. cbn [check bind]. rewrite <- concat_map, flat_map_map'. reflexivity.
Qed.

Lemma in_entries e s : In s (entries e) <-> exists row, In row (rows e) /\ In s row.
Proof. unfold entries. rewrite in_concat. firstorder. Qed.

Lemma array_variables e d : valid_array d e -> exists vs, expr_variables e = Ok vs
  /\ NoDup (map v_id vs) /\ (forall i, In i (map v_id vs) <-> array_occurs i e) /\ (forall w, In w vs -> array_var w e)
  /\ forall r r' : assignment, (forall v, In v vs -> r (v_id v) = r' (v_id v)) -> forall i j, i < fst d -> j < snd d -> value r e i j = value r' e i j.
Proof.
  intro V. rewrite (expr_variables_eq d e V). eexists. split; [reflexivity|].
  assert (HV : Forall valid (entries e)). { apply Forall_forall. intros s Hs. apply in_entries in Hs. destruct Hs as (row & H1 & H2). exact (valid_entries d e row s V H1 H2). }
  destruct (variables_list (entries e) HV) as (H1 & H2 & H3). split; [exact H1|]. split; [|split].
  - intro i. rewrite H2. split.
    + intros (s & Hs & Ho). apply in_entries in Hs. destruct Hs as (row & R1 & R2). exists row, s. auto.
    + intros (row & s & R1 & R2 & Ho). exists s. split; [apply in_entries; eauto | exact Ho].
  - intros w Hw. destruct (H3 w Hw) as (s & m & Hs & Hm & Hv). apply in_entries in Hs. destruct Hs as (row & R1 & R2). exists row, s, m. auto.
  - intros r r' HR i j Hi Hj. pose proof V as (_ & _ & HS & _). destruct (entry_in d e i j HS Hi Hj) as (row & R1 & R2). unfold value. apply eval_ext. intros q Ho.
    assert (Hq : In q (map v_id (unique_vars (flat_map scalar_variables (entries e))))). { apply H2. exists (entry e i j). split; [apply in_entries; eauto | exact Ho]. }
    apply in_map_iff in Hq. destruct Hq as (w & <- & Hw). apply HR. exact Hw.
Qed.

(** ** Degree *)

Lemma tdeg_nonneg m : valid_mono m -> (0 <= tdeg m)%Z.
Proof. intros (_ & H & _). unfold tdeg. induction (m_exps m) as [|e es IH]; cbn; [lia|]. inversion H; subst. specialize (IH H3). lia. Qed.

Lemma max_degree_ok l : Forall valid l -> l <> [] -> exists g, max_degree l = Ok g /\ (forall s, In s l -> degree_at_most g s) /\ exists s m, In s l /\ In m (terms s) /\ tdeg m = g.
Proof.
  intros HV HN. assert (G : forall l d0, Forall valid l -> exists g, foldM (fun d s => ds <- scalar_degree s ;; Ok (if Z.ltb d ds then ds else d)) d0 l = Ok g
    /\ (d0 <= g)%Z /\ (forall s, In s l -> degree_at_most g s) /\ (g = d0 \/ exists s m, In s l /\ In m (terms s) /\ tdeg m = g)).
  { clear. induction l as [|s l IH]; intros d0 HV; cbn [foldM].
    - exists d0. split; [reflexivity|]. split; [lia|]. split; [intros s []|]. left. reflexivity.
    - inversion HV as [|? ? V1 V2]; subst. destruct (scalar_degree_ok s V1) as (ds & E & Hm & m & Hin & Ed). rewrite E. cbn [bind].
      destruct (IH (if (d0 <? ds)%Z then ds else d0) V2) as (g & Eg & Hg & Ha & Hb). exists g. split; [exact Eg|].
      assert (HG : (d0 <= g)%Z /\ (ds <= g)%Z) by (destruct (Z.ltb_spec d0 ds); lia). split; [apply HG|]. split.
      + intros s' [<-|Hs]; [|exact (Ha s' Hs)]. apply Forall_forall. intros x Hx. specialize (Hm x Hx). lia.
      + destruct Hb as [Hb|(s' & m' & B1 & B2 & B3)]; [|right; exists s', m'; split; [right; exact B1 | auto]].
        destruct (Z.ltb_spec d0 ds); [right; exists s, m; split; [left; reflexivity | split; [exact Hin | lia]] | left; exact Hb]. }
  destruct (G l 0%Z HV) as (g & E & Hg & Ha & Hb). exists g. split; [exact E|]. split; [exact Ha|]. destruct Hb as [->|Hb]; [|exact Hb].
  destruct l as [|s l]; [congruence|]. inversion HV as [|? ? V1 V2]; subst. destruct (scalar_degree_ok s V1) as (ds & _ & Hm & m & Hin & Ed).
  exists s, m. split; [left; reflexivity|]. split; [exact Hin|]. pose proof (valid_terms s V1) as HT. rewrite Forall_forall in HT. pose proof (tdeg_nonneg m (HT m Hin)).
  pose proof (Ha s (or_introl eq_refl)) as HD. unfold degree_at_most in HD. rewrite Forall_forall in HD. specialize (HD m Hin). lia.
Qed.

Lemma array_degree_spec e d : valid_array d e -> exists g, expr_degree e = Ok g /\ array_degree g e
  /\ exists row s m, In row (rows e) /\ In s row /\ In m (terms s) /\ tdeg m = g.
Proof.
  intro V. pose proof V as (D1 & D2 & HS & VE). destruct (valid_array_check d e V) as [C _].
  assert (HV : Forall valid (entries e)). { apply Forall_forall. intros s Hs. apply in_entries in Hs. destruct Hs as (row & H1 & H2). exact (valid_entries d e row s V H1 H2). }
  assert (Hin : In (entry e 0 0) (entries e)). { destruct (entry_in d e 0 0 HS ltac:(lia) ltac:(lia)) as (row & R1 & R2). apply in_entries. eauto. }
  assert (HN : entries e <> []) by (intro E; rewrite E in Hin; destruct Hin).
  destruct (max_degree_ok (entries e) HV HN) as (g & Eg & Ha & s & m & Hs & Hm & Ed).
  assert (F : exists g, max_degree (entries e) = Ok g /\ array_degree g e /\ exists row s m, In row (rows e) /\ In s row /\ In m (terms s) /\ tdeg m = g).
  { exists g. split; [exact Eg|]. split.
    - intros row x R1 R2. apply Ha. apply in_entries. eauto.
    - apply in_entries in Hs. destruct Hs as (row & R1 & R2). exists row, s, m. auto. }
  assert (K : forall (T : Monomial -> Prop) g0, (forall x, In x (entries e) -> exists m0, terms x = [m0] /\ tdeg m0 = g0) ->
     array_degree g0 e /\ exists row s m, In row (rows e) /\ In s row /\ In m (terms s) /\ tdeg m = g0).
  { intros _ g0 HK. split.
    - intros row x R1 R2. destruct (HK x) as (m0 & E0 & T0); [apply in_entries; eauto|]. unfold degree_at_most. rewrite E0. constructor; [lia | constructor].
    - destruct (HK _ Hin) as (m0 & E0 & T0). apply in_entries in Hin. destruct Hin as (row & R1 & R2). exists row, (entry e 0 0), m0. rewrite E0. split; [exact R1|]. split; [exact R2|]. split; [left; reflexivity | exact T0]. }
  clear Hs Hm Ed Eg Ha. destruct e as [s0|[l|l|l|l]|[l|l|l|l]]; cbn [expr_degree vec_degree mat_degree expr_check] in *.
  - assert (Vs : valid s0) by (apply (valid_entries d (ES s0) [s0] s0 V); left; reflexivity). destruct (scalar_degree_ok s0 Vs) as (d0 & E & H1 & m0 & H2 & H3).
    exists d0. split; [exact E|]. split; [|exists [s0], s0, m0; cbn; auto]. intros row x [<-|[]] [<-|[]]. apply Forall_forall. exact H1.
  - exists 0%Z. split; [reflexivity|]. apply (K (fun _ => True)). intros x Hx. unfold entries in Hx. cbn [rows] in Hx. rewrite concat_single in Hx. apply in_map_iff in Hx. destruct Hx as (y & <- & _). eexists. split; reflexivity.
  - exists 1%Z. split; [reflexivity|]. apply (K (fun _ => True)). intros x Hx. unfold entries in Hx. cbn [rows] in Hx. rewrite concat_single in Hx. apply in_map_iff in Hx. destruct Hx as (y & <- & _). eexists. split; reflexivity.
  - rewrite C. cbn [check bind]. unfold entries in F. cbn [rows] in F. rewrite concat_single in F. exact F.
  - rewrite C. cbn [check bind]. unfold entries in F. cbn [rows] in F. rewrite concat_single in F. exact F.
  - exists 0%Z. split; [reflexivity|]. apply (K (fun _ => True)). intros x Hx. unfold entries in Hx. cbn [rows] in Hx. rewrite <- concat_map in Hx. apply in_map_iff in Hx. destruct Hx as (y & <- & _). eexists. split; reflexivity.
  - exists 1%Z. split; [reflexivity|]. apply (K (fun _ => True)). intros x Hx. unfold entries in Hx. cbn [rows] in Hx. rewrite <- concat_map in Hx. apply in_map_iff in Hx. destruct Hx as (y & <- & _). eexists. split; reflexivity.
  - rewrite C. cbn [check bind]. exact F.
  - rewrite C. cbn [check bind]. exact F.
Qed.

Lemma array_is_linear e d : valid_array d e -> exists b, expr_is_linear e = Ok b /\ (b = true <-> array_degree 1 e).
Proof.
  intro V. destruct (array_degree_spec e d V) as (g & E & Ha & row & s & m & R1 & R2 & R3 & R4). unfold expr_is_linear. rewrite E. cbn [bind]. eexists. split; [reflexivity|].
  rewrite Z.leb_le. split.
  - intros Hg row' x X1 X2. eapply Forall_impl; [|exact (Ha row' x X1 X2)]. intros y Hy. cbn in *. lia.
  - intro H. pose proof (H row s R1 R2) as HD. unfold degree_at_most in HD. rewrite Forall_forall in HD. specialize (HD m R3). lia.
Qed.

(** ** Constant *)

Lemma mapM_values {A} (f : A -> res num) (g : A -> num) l : (forall a, In a l -> f a = Ok (g a)) -> mapM f l = Ok (map g l).
Proof. intro H. induction l as [|a l IH]; cbn; [reflexivity|]. rewrite (H a (or_introl eq_refl)). cbn. rewrite IH by (intros; apply H; right; assumption). reflexivity. Qed.

Definition at0 (s : scalar) : num := eval (fun _ => n0) s.

Lemma vec_constant_eq {EX : ExactNum NN} n v : valid_array (n, 1) (EV v) -> (forall s, In s (vec_entries v) -> collected s) -> vec_constant v = Ok (map at0 (vec_entries v)).
Proof.
  intros V HC. destruct (valid_array_check _ _ V) as [C _]. cbn [expr_check] in C.
  assert (HV : forall s, In s (vec_entries v) -> scalar_constant s = Ok (at0 s)).
  { intros s Hs. apply constant_value; [|exact (HC s Hs)]. apply (valid_entries _ _ [s] s V); [|left; reflexivity]. rewrite rows_EV. apply in_map_iff. exists s. auto. }
  assert (HL : length (vec_entries v) = n) by (destruct V as (_ & _ & [L _] & _); rewrite rows_EV, map_length in L; exact L).
  destruct V as (D1 & _). cbn in D1.
  destruct v as [l|l|l|l]; cbn [vec_constant vec_entries] in *; rewrite map_length in HL.
  - destruct l as [|k l]; [cbn in HL; lia|]. cbn [nonempty check bind]. f_equal. rewrite map_map. rewrite <- (map_id (k :: l)) at 1. apply map_ext_in. intros a Ha.
    assert (E : scalar_constant (SK a) = Ok (at0 (SK a))) by (apply HV; apply in_map; exact Ha). cbn [scalar_constant] in E. congruence.
  - unfold zeros_vector. rewrite HL. destruct n as [|n]; [lia|]. f_equal. rewrite map_map. rewrite <- HL. clear HL.
    induction l as [|x l IH]; cbn [length repeat map]; [reflexivity|]. rewrite <- IH; [|intros s Hs; apply HC; right; exact Hs | cbn in C; apply andb_true_iff in C; exact (proj2 C) | intros s Hs; apply HV; right; exact Hs]. reflexivity.
  - rewrite C. cbn [check bind]. f_equal. rewrite map_map. apply map_ext_in. intros a Ha.
    assert (E : scalar_constant (SM a) = Ok (at0 (SM a))) by (apply HV; apply in_map; exact Ha). cbn [scalar_constant] in E. congruence.
  - rewrite C. cbn [check bind]. rewrite map_map. apply mapM_values. intros a Ha. exact (HV (SP a) (in_map SP _ _ Ha)).
Qed.

Lemma vector_constant {EX : ExactNum NN} v n : valid_array (n, 1) (EV v) -> (forall i, i < n -> collected (entry (EV v) i 0)) ->
  exists c, vec_constant v = Ok c /\ length c = n /\ forall i, i < n -> nth i c n0 = value (fun _ => n0) (EV v) i 0.
Proof.
  intros V HC. pose proof V as (_ & _ & [L _] & _). rewrite rows_EV, map_length in L. cbn in L.
  assert (HE : forall i, i < n -> entry (EV v) i 0 = nth i (vec_entries v) (SK n0)).
  { intros i Hi. unfold entry. rewrite rows_EV. rewrite (nth_indep _ [] [SK n0]) by (rewrite map_length; lia). rewrite (map_nth (fun s => [s])). reflexivity. }
  rewrite (vec_constant_eq n v V).
  - eexists. split; [reflexivity|]. rewrite map_length. split; [exact L|]. intros i Hi. unfold value. rewrite (HE i Hi).
    rewrite (nth_indep _ n0 (at0 (SK n0))) by (rewrite map_length; lia). rewrite (map_nth at0). reflexivity.
  - intros s Hs. apply (In_nth _ _ (SK n0)) in Hs. destruct Hs as (i & Hi & <-). rewrite <- HE by lia. apply HC. lia.
Qed.

Lemma mat_constant_eq {EX : ExactNum NN} d m : valid_array d (EM m) -> (forall row s, In row (mat_rows m) -> In s row -> collected s) -> mat_constant m = Ok (map (map at0) (mat_rows m)).
Proof.
  intros V HC. destruct (valid_array_check _ _ V) as [C D]. cbn [expr_check expr_dims] in C, D.
  assert (HV : forall row s, In row (mat_rows m) -> In s row -> scalar_constant s = Ok (at0 s)).
  { intros row s Hr Hs. apply constant_value; [|exact (HC row s Hr Hs)]. apply (valid_entries _ _ row s V); [rewrite rows_EM; exact Hr | exact Hs]. }
  destruct V as (D1 & D2 & [L F] & _). rewrite rows_EM in L, F.
  assert (Z : zeros_matrix (fst d) (snd d) = Ok (repeat (repeat n0 (snd d)) (fst d))).
  { unfold zeros_matrix. destruct (fst d) as [|a]; [lia|]. destruct (snd d) as [|b]; [lia|]. reflexivity. }
  destruct m as [l|l|l|l]; cbn [mat_constant mat_rows] in *.
  - rewrite (k_to_dense_grid d (fun _ _ _ => True) l D1 D2).
    + f_equal. rewrite map_map. rewrite <- (map_id l) at 1. apply map_ext_in. intros r Hr. rewrite map_map. rewrite <- (map_id r) at 1. apply map_ext_in. intros a Ha.
      assert (E : scalar_constant (SK a) = Ok (at0 (SK a))) by (apply (HV (map SK r)); apply in_map; assumption). cbn [scalar_constant] in E. congruence.
    + rewrite map_length in L. split; [exact L|]. intros i Hi. destruct (nth_error l i) as [r|] eqn:E; [|apply nth_error_None in E; lia]. exists r. split; [reflexivity|].
      assert (Lr : length r = snd d). { rewrite Forall_forall in F. rewrite <- (map_length SK r). apply F. apply in_map. eapply nth_error_In. exact E. }
      split; [exact Lr|]. intros j Hj. destruct (nth_error r j) as [a|] eqn:Ea; [|apply nth_error_None in Ea; lia]. exists a. auto.
  - rewrite D. cbn [bind]. rewrite Z. f_equal. rewrite map_map. rewrite map_length in L. rewrite <- L. clear D Z L D1 C.
    assert (HZ : forall r, In r l -> map at0 (map SV r) = repeat n0 (snd d)).
    { intros r Hr. rewrite Forall_forall in F. pose proof (F _ (in_map (map SV) _ _ Hr)) as Lr. rewrite map_length in Lr. rewrite <- Lr. rewrite map_map.
      assert (HX : forall x, In x r -> at0 (SV x) = n0). { intros x Hx. assert (E : scalar_constant (SV x) = Ok (at0 (SV x))) by (apply (HV (map SV r)); apply in_map; assumption). cbn [scalar_constant] in E. congruence. }
      clear - HX. induction r as [|x r IH]; cbn [length repeat map]; [reflexivity|]. rewrite HX by (left; reflexivity). f_equal. apply IH. intros y Hy. apply HX. right. exact Hy. }
    clear - HZ. induction l as [|r l IH]; cbn [length repeat map]; [reflexivity|]. rewrite HZ by (left; reflexivity). f_equal. apply IH. intros y Hy. apply HZ. right. exact Hy.
  - rewrite D. cbn [bind]. rewrite Z. cbn [bind]. f_equal. rewrite map_map. apply map_ext_in. intros r Hr. rewrite map_map. apply map_ext_in. intros a Ha.
    assert (E : scalar_constant (SM a) = Ok (at0 (SM a))) by (apply (HV (map SM r)); apply in_map; assumption). cbn [scalar_constant] in E. congruence.
  - rewrite D. cbn [bind]. rewrite Z. cbn [bind]. rewrite map_map. clear - HV. induction l as [|r l IH]; cbn [map mapM]; [reflexivity|].
    rewrite map_map. rewrite (mapM_values poly_constant (fun p => at0 (SP p)) r); [|intros a Ha; apply (HV (map SP r) (SP a)); [left; reflexivity | apply in_map; exact Ha]].
    cbn [bind]. rewrite IH; [reflexivity|]. intros row s Hr Hs. apply (HV row s); [right; exact Hr | exact Hs].
Qed.

Lemma matrix_constant {EX : ExactNum NN} m d : valid_array d (EM m) -> (forall i j, i < fst d -> j < snd d -> collected (entry (EM m) i j)) ->
  exists c, mat_constant m = Ok c /\ dense_shape d c /\ forall i j, i < fst d -> j < snd d -> dense_entry c i j = value (fun _ => n0) (EM m) i j.
Proof.
  intros V HC. pose proof V as (D1 & D2 & [L F] & _). rewrite rows_EM in L, F. rewrite Forall_forall in F.
  rewrite (mat_constant_eq d m V).
  - eexists. split; [reflexivity|]. split.
    + split; [rewrite map_length; exact L|]. apply Forall_forall. intros r Hr. apply in_map_iff in Hr. destruct Hr as (r0 & <- & Hr). rewrite map_length. exact (F r0 Hr).
    + intros i j Hi Hj. unfold dense_entry, value, entry. rewrite rows_EM. rewrite (map_nth (map at0) (mat_rows m) [] i : nth i (map (map at0) (mat_rows m)) [] = _).
      rewrite (nth_indep _ n0 (at0 (SK n0))); [rewrite (map_nth at0); reflexivity|]. rewrite map_length. rewrite F by (apply nth_In; lia). exact Hj.
  - intros row s Hr Hs. pose proof (F row Hr) as Lr. apply (In_nth _ _ []) in Hr. destruct Hr as (i & Hi & <-). apply (In_nth _ _ (SK n0)) in Hs. destruct Hs as (j & Hj & <-).
    pose proof (HC i j ltac:(lia) ltac:(lia)) as H. unfold entry in H. rewrite rows_EM in H. exact H.
Qed.

(** ** LinearCoeff *)

Lemma vector_linear_decomposition {EX : ExactNum NN} v n w : valid_array (n, 1) (EV v) -> array_degree 1 (EV v) ->
  (forall i, i < n -> collected (entry (EV v) i 0) /\ match entry (EV v) i 0 with SM m => m_vars m <> [] | _ => True end) ->
  w <> [] -> Forall valid_var w -> NoDup (map v_id w) -> (forall i, array_occurs i (EV v) -> In i (map v_id w)) ->
  exists A b, vec_linear_coeff v [w] = Ok A /\ vec_constant v = Ok b /\ dense_shape (n, length w) A /\ length b = n
    /\ forall r i, i < n -> value r (EV v) i 0 = dot r (nth i A []) w + nth i b n0.
Proof.
  intros V HD HC Hw Vw HN HO. pose proof V as (D1 & D2 & HS & VE). cbn [fst snd] in *.
  pose proof (valid_array_arr _ _ V) as A0. apply arr_EV in A0.
  assert (HV : forall (i : nat) s, entry (EV v) i 0 = s /\ valid s -> valid s) by (intros i s H; exact (proj2 H)).
  pose proof (vec_check_col n _ v D1 HV A0) as C. pose proof (vec_len_col n _ v D1 HV A0) as L.
  destruct (vector_constant v n V) as (b & Eb & Lb & Hb); [intros i Hi; apply (HC i Hi)|].
  destruct (mapM_seq (fun i => a <- vec_get v i ;; scalar_linear_coeff a [w]) n
     (fun i cs => length cs = length w /\ forall r, value r (EV v) i 0 = dot r cs w + nth i b n0)) as (A & EA & LA & HA).
  { intros i Hi. destruct (vec_get_col n _ v i D1 HV A0 Hi) as (a & Ea & _ & Xa & Va). rewrite Ea. cbn [bind]. destruct (HC i Hi) as [C1 C2].
    destruct (entry_in _ _ i 0 HS Hi D2) as (row & R1 & R2). 
    assert (Da : degree_at_most 1 a) by (rewrite <- Xa; exact (HD row _ R1 R2)).
    destruct (linear_decomposition a w Va Da) as (cs & c & E1 & E2 & E3 & E4).
    - rewrite <- Xa. exact C1.
    - rewrite <- Xa. exact C2.
    - exact Hw.
    - exact Vw.
    - exact HN.
    - intros q Hq. apply HO. exists row, a. rewrite Xa in R2. auto.
    - exists cs. split; [exact E1|]. split; [exact E3|]. intro r. rewrite (Hb i Hi). unfold value. rewrite Xa, E4. f_equal.
      rewrite constant_value in E2; [congruence | exact Va | rewrite <- Xa; exact C1]. }
  exists A, b. split; [|split; [exact Eb|]].
  - unfold vec_linear_coeff. rewrite C. cbn [check bind]. destruct w as [|w0 w']; [congruence|]. cbn [nonempty check bind]. rewrite L. cbn [bind].
    destruct (Nat.eqb_spec n 0); [lia|]. cbn [negb check bind]. exact EA.
  - split; [|split; [exact Lb|]].
    + split; [exact LA|]. apply Forall_forall. intros cs Hcs. apply (In_nth_error) in Hcs. destruct Hcs as (i & Ei). assert (Hi : i < n) by (rewrite <- LA; apply nth_error_Some; congruence).
      destruct (HA i Hi) as (cs' & E' & H1 & _). assert (cs' = cs) by congruence. subst cs'. exact H1.
    + intros r i Hi. destruct (HA i Hi) as (cs' & E' & _ & H2). rewrite (nth_error_nth _ _ [] E'). apply H2.
Qed.

(** ** AsSimplifiedExpression *)

Lemma expr_simplified_gen d (P Q : nat -> nat -> scalar -> Prop) e : 1 <= fst d -> 1 <= snd d -> by_terms Q -> (forall i j s, P i j s -> valid s) ->
  (forall i j s, i < fst d -> j < snd d -> P i j s -> exists s', scalar_simplified s = Ok s' /\ Q i j s') ->
  arr d P e -> exists e', expr_simplified e = Ok e' /\ arr d Q e'.
Proof.
  intros Hn Hc HT HV HS H.
  destruct e as [s|v|m]; cbn [expr_simplified].
  - pose proof (arr_ES_dims _ _ _ Hn H) as ->. apply arr_ES in H. destruct (HS 0 0 s Hn Hc H) as (s' & -> & Hs). cbn.
    exists (ES s'). split; [reflexivity | apply arr_ES; exact Hs].
  - pose proof (arr_EV_cols _ _ _ Hn H) as Hs. destruct d as [n c]. cbn in Hs. subst c. cbn [fst snd] in *. apply arr_EV in H.
    assert (C : vec_check v = true). { eapply vec_check_col; [exact Hn | | exact H]. intros i s. apply HV. }
    destruct (mapM_col n (fun i => P i 0) (fun i => Q i 0) scalar_simplified (vec_entries v)) as (l & El & Hl); [intros i a Hi; exact (HS i 0 a Hi Hc) | exact H|].
    destruct (concretize_vector_arr n Q l Hn HT Hl) as (v' & Ev & Hv').
    destruct v as [l0|l0|l0|l0]; unfold vec_simplified;
      [| | rewrite C; cbn [check bind]; rewrite El; cbn [bind]; rewrite Ev; cbn [bind]; exists (EV v'); (split; [reflexivity | exact Hv']) ..];
      (eexists; split; [reflexivity|]; apply arr_EV;
      apply (col_map_id n (fun i => P i 0) (fun i => Q i 0) scalar_simplified); [intros i s Hi; exact (HS i 0 s Hi Hc) | | exact H];
      intros s Hs; cbn in Hs; apply in_map_iff in Hs; destruct Hs as (k & <- & _); reflexivity).
  - apply (proj1 (arr_EM _ _ _)) in H. pose proof (mat_check_grid d P m Hn HV H) as C.
    destruct (mapM_col (fst d) (fun i => col (snd d) (P i)) (fun i => col (snd d) (Q i)) (mapM scalar_simplified) (mat_rows m)) as (l & El & Hl).
    { intros i r Hi. apply mapM_col. intros j a Hj. exact (HS i j a Hi Hj). }
    { exact H. }
    destruct (concretize_matrix_arr d Q l Hn HT Hl) as (m' & Em & Hm').
    destruct m as [l0|l0|l0|l0]; unfold mat_simplified;
      [| | rewrite C; cbn [check bind]; rewrite El; cbn [bind]; rewrite Em; cbn [bind]; exists (EM m'); (split; [reflexivity | exact Hm']) ..];
      (eexists; split; [reflexivity|]; apply arr_EM; destruct H as [L H]; split; [exact L|]; intros i Hi; destruct (H i Hi) as (row & E & HC); exists row; split; [exact E|];
      apply (col_map_id (snd d) (P i) (Q i) scalar_simplified); [intros j s Hj; exact (HS i j s Hi Hj) | | exact HC];
      intros s Hs; apply nth_error_In in E; cbn in E; apply in_map_iff in E; destruct E as (ks & <- & _); apply in_map_iff in Hs; destruct Hs as (k & <- & _); reflexivity).
Qed.

Lemma array_simplified_total e d : valid_array d e -> exists e', expr_simplified e = Ok e' /\ valid_array d e'
  /\ forall i, array_occurs i e' -> array_occurs i e.
Proof.
  intro V. pose proof V as (D1 & D2 & HS & VE).
  destruct (expr_simplified_gen d (fun i j s => entry e i j = s /\ valid s) (fun i j s => valid s /\ forall q, occurs q s -> array_occurs q e) e D1 D2) as (e' & E & H).
  - intros i j a b HT [Va Ho]. split; [apply valid_terms_iff; rewrite HT; apply valid_terms_iff; exact Va|]. unfold occurs in *. rewrite HT. exact Ho.
  - intros i j s H. exact (proj2 H).
  - intros i j s Hi Hj [<- Vs]. exists (ssimplified (entry e i j)). split; [apply scalar_simplified_ok; exact Vs|]. split; [apply ssimplified_valid; exact Vs|].
    intros q (m & Hm & Hq). destruct (entry_in d e i j HS Hi Hj) as (row & R1 & R2). exists row, (entry e i j). split; [exact R1|]. split; [exact R2|].
    destruct (lred_simplified _ Vs) as (_ & F & _). destruct (F m Hm) as [Hc|(m0 & H0 & [_ E0])].
    + unfold is_const in Hc. unfold ids in Hq. destruct (m_vars m); [destruct Hq | discriminate].
    + exists m0. split; [exact H0|]. unfold ids in *. rewrite <- E0. exact Hq.
  - exact (valid_array_arr d e V).
  - exists e'. split; [exact E|]. split; [apply (arr_valid d _ e' D1 D2 H); intros i j s Hs; exact (proj1 Hs)|].
    intros q (row & s & R1 & R2 & Ho). destruct H as [L H]. apply In_nth_error in R1. destruct R1 as (i & Ei). assert (Hi : i < fst d) by (rewrite <- L; apply nth_error_Some; congruence).
    destruct (H i Hi) as (row' & E' & Lr & Hr). assert (row' = row) by congruence. subst row'.
    apply In_nth_error in R2. destruct R2 as (j & Ej). assert (Hj : j < snd d) by (rewrite <- Lr; apply nth_error_Some; congruence).
    destruct (Hr j Hj) as (s' & Es & Hs). assert (s' = s) by congruence. subst s'. exact (proj2 Hs q Ho).
Qed.

Lemma array_simplified_value e d : ExactNum NN -> valid_array d e -> (forall i j, i < fst d -> j < snd d -> unambiguous (fun m => In m (terms (entry e i j)))) ->
  exists e', expr_simplified e = Ok e' /\ valid_array d e' /\ forall r i j, i < fst d -> j < snd d -> value r e' i j = value r e i j.
Proof.
  intros EX V HU. pose proof V as (D1 & D2 & HS & VE).
  destruct (expr_simplified_gen d (fun i j s => entry e i j = s /\ valid s) (fun i j s => valid s /\ forall r, eval r s = value r e i j) e D1 D2) as (e' & E & H).
  - intros i j a b HT [Va Ha]. split; [apply valid_terms_iff; rewrite HT; apply valid_terms_iff; exact Va|]. intro r. rewrite <- Ha, <- !eval_terms, HT. reflexivity.
  - intros i j s H. exact (proj2 H).
  - intros i j s Hi Hj [<- Vs]. destruct (simplify_value (entry e i j) EX Vs (HU i j Hi Hj)) as (s' & Es & Xs). exists s'. split; [exact Es|]. split; [|exact Xs].
    rewrite scalar_simplified_ok in Es by exact Vs. injection Es as <-. apply ssimplified_valid. exact Vs.
  - exact (valid_array_arr d e V).
  - exists e'. split; [exact E|]. split; [apply (arr_valid d _ e' D1 D2 H); intros i j s Hs; exact (proj1 Hs)|].
    intros r i j Hi Hj. apply (arr_entry d _ e' i j H Hi Hj).
Qed.

(** *** Simplifying twice *)

Lemma one_not_zero {EX : ExactNum NN} : (n1 =? n0) = false.
Proof. destruct (n1 =? n0) eqn:E; [|reflexivity]. apply ex_eqb in E. exfalso. exact (F_1_neq_0 (@ex_field NN EX) E). Qed.
Lemma eqb_refl {EX : ExactNum NN} x : (x =? x) = true.
Proof. apply ex_eqb. reflexivity. Qed.

Lemma re_mono {EX : ExactNum NN} s m : valid s -> normal s -> to_mono s = Ok m -> scalar_simplified (SM m) = Ok s.
Proof.
  intros V Hn E. assert (Vm : valid (SM m)). { apply valid_terms_iff. destruct s; cbn in E; try discriminate; injection E as <-; apply (proj1 (valid_terms_iff _)) in V; exact V. }
  rewrite scalar_simplified_ok by exact Vm. f_equal. destruct s as [k|v|m0|p]; cbn in E; try discriminate; injection E as <-.
  - reflexivity.
  - cbn. unfold msimplified. cbn [m_vars m_coeff var_to_mono]. rewrite one_not_zero. unfold is_plain_var. cbn. rewrite eqb_refl. reflexivity.
  - apply ssimplified_id; [apply zero_laws_exact; exact EX | exact V | exact Hn].
Qed.

Lemma re_poly {EX : ExactNum NN} s : valid s -> normal s -> scalar_simplified (SP (to_poly s)) = Ok s.
Proof.
  intros V Hn. assert (Vm : valid (SP (to_poly s))). { apply valid_terms_iff. apply (proj1 (valid_terms_iff _)) in V. destruct s; exact V. }
  rewrite scalar_simplified_ok by exact Vm. f_equal. pose proof (zero_laws_exact EX) as [Z0 Z1].
  destruct s as [k|v|m|p]; cbn [to_poly ssimplified].
  - unfold psimplified, psimp, k_to_poly. cbn [simp_pure is_const k_to_mono m_vars m_coeff]. rewrite (Radd_0_l (F_R (@ex_field NN EX))).
    destruct (k =? n0) eqn:E; cbn; [|reflexivity]. apply ex_eqb in E. subst k. reflexivity.
  - unfold psimplified, psimp, var_to_poly. cbn [simp_pure is_const var_to_mono m_vars add_pure]. rewrite Z0. cbn. unfold nonzero. cbn. rewrite one_not_zero. cbn. unfold is_plain_var. cbn. rewrite eqb_refl. reflexivity.
  - destruct Hn as (H1 & H2 & H3). unfold psimplified, psimp, mono_to_poly. cbn [simp_pure]. assert (Hc : is_const m = false) by (unfold is_const; destruct (m_vars m); [congruence | reflexivity]).
    rewrite Hc. cbn [add_pure]. rewrite Z0. cbn [app filter]. unfold nonzero. rewrite H2. cbn [negb]. rewrite Hc.
    pose proof (ssimplified_id (SM m) (conj Z0 Z1) V (conj H1 (conj H2 H3))) as X. cbn [ssimplified] in X. unfold msimplified in X. destruct (m_vars m) as [|v vs]; [congruence|]. rewrite H2 in X.
    destruct (is_plain_var m); [discriminate X | reflexivity].
  - exact (ssimplified_id (SP p) (conj Z0 Z1) V Hn).
Qed.

Lemma mapM_in {A B} (f : A -> res B) l l' y : mapM f l = Ok l' -> In y l' -> exists x, In x l /\ f x = Ok y.
Proof.
  revert l'. induction l as [|x l IH]; intros l' E Hy; cbn in E; [injection E as <-; destruct Hy|].
  destruct (f x) as [b|] eqn:Ef; [|discriminate E]. cbn in E. destruct (mapM f l) as [t|] eqn:Et; [|discriminate E]. injection E as <-.
  destruct Hy as [<-|Hy]; [exists x; split; [left; reflexivity | exact Ef]|]. destruct (IH t eq_refl Hy) as (x' & H1 & H2). exists x'. split; [right; exact H1 | exact H2].
Qed.

Lemma mapM_re {A} (f : scalar -> res A) (g : A -> scalar) l l' : (forall s a, In s l -> f s = Ok a -> scalar_simplified (g a) = Ok s) -> mapM f l = Ok l' -> mapM scalar_simplified (map g l') = Ok l.
Proof.
  revert l'. induction l as [|s l IH]; intros l' H E; cbn in E; [injection E as <-; reflexivity|].
  destruct (f s) as [a|] eqn:Ef; [|discriminate E]. cbn in E. destruct (mapM f l) as [t|] eqn:Et; [|discriminate E]. injection E as <-.
  cbn [map mapM]. rewrite (H s a (or_introl eq_refl) Ef). cbn [bind]. rewrite (IH t); [reflexivity | intros; eapply H; [right|]; eassumption | reflexivity].
Qed.

Lemma vec_resimplified {EX : ExactNum NN} l v : (forall s, In s l -> valid s /\ normal s) -> concretize_vector l = Ok v -> vec_check v = true -> vec_simplified v = Ok v.
Proof.
  intros HV E C. pose proof E as E0. unfold concretize_vector in E. destruct (nonempty l); [|discriminate E]. cbn [check bind] in E.
  destruct (existsb is_p l).
  - injection E as <-. cbn [vec_simplified]. rewrite C. cbn [check bind vec_entries].
    rewrite (mapM_re (fun s => Ok (to_poly s)) SP l (map to_poly l)); [exact E0 | |]. 
    + intros s a Hs Ha. injection Ha as <-. destruct (HV s Hs). apply re_poly; assumption.
    + clear. induction l as [|s l IH]; cbn; [reflexivity|]. rewrite IH. reflexivity.
  - destruct (_ || _).
    + destruct (mapM to_mono l) as [ms|] eqn:Em; [|discriminate E]. injection E as <-. cbn [vec_simplified]. rewrite C. cbn [check bind vec_entries].
      rewrite (mapM_re to_mono SM l ms); [exact E0 | | exact Em]. intros s a Hs Ha. destruct (HV s Hs). apply re_mono; assumption.
    + destruct (forallb is_v l); [destruct (mapM to_var l); [injection E as <-; reflexivity | discriminate E]|].
      destruct (existsb is_k l); [destruct (mapM to_k l); [injection E as <-; reflexivity | discriminate E] | discriminate E].
Qed.

Lemma mapM_re2 {A} (f : scalar -> res A) (g : A -> scalar) L L' : (forall row s a, In row L -> In s row -> f s = Ok a -> scalar_simplified (g a) = Ok s) ->
  mapM (mapM f) L = Ok L' -> mapM (mapM scalar_simplified) (map (map g) L') = Ok L.
Proof.
  revert L'. induction L as [|l L IH]; intros L' H E; cbn [mapM] in E; [injection E as <-; reflexivity|].
  destruct (mapM f l) as [a|] eqn:Ef; [|discriminate E]. cbn [bind] in E. destruct (mapM (mapM f) L) as [t|] eqn:Et; [|discriminate E]. injection E as <-.
  cbn [map mapM]. rewrite (mapM_re f g l a); [|intros s b Hs Hb; exact (H l s b (or_introl eq_refl) Hs Hb) | exact Ef]. cbn [bind].
  rewrite (IH t); [reflexivity | intros row s b Hr Hs Hb; exact (H row s b (or_intror Hr) Hs Hb) | reflexivity].
Qed.

Lemma mat_resimplified {EX : ExactNum NN} l m : (forall row s, In row l -> In s row -> valid s /\ normal s) -> concretize_matrix l = Ok m -> mat_check m = true -> mat_simplified m = Ok m.
Proof.
  intros HV E C. pose proof E as E0. unfold concretize_matrix in E. destruct l as [|r0 l]; [discriminate E|]. remember (r0 :: l) as L eqn:HL.
  destruct (forallb _ L); [|discriminate E]. cbn [check bind] in E. cbv zeta in E.
  destruct (existsb is_p (concat L)).
  - injection E as <-. cbn [mat_simplified]. rewrite C. cbn [check bind mat_rows].
    rewrite (mapM_re2 (fun s => Ok (to_poly s)) SP L (map (map to_poly) L)); [exact E0 | |].
    + intros row s a Hr Hs Ha. injection Ha as <-. destruct (HV row s Hr Hs). apply re_poly; assumption.
    + clear. induction L as [|r L IH]; cbn [mapM map]; [reflexivity|]. rewrite IH.
      assert (X : mapM (fun s => Ok (to_poly s)) r = Ok (map to_poly r)) by (clear; induction r as [|s r IH]; cbn; [reflexivity | rewrite IH; reflexivity]). rewrite X. reflexivity.
  - destruct (_ || _).
    + destruct (mapM (mapM to_mono) L) as [ms|] eqn:Em; [|discriminate E]. injection E as <-. cbn [mat_simplified]. rewrite C. cbn [check bind mat_rows].
      rewrite (mapM_re2 to_mono SM L ms); [exact E0 | | exact Em]. intros row s a Hr Hs Ha. destruct (HV row s Hr Hs). apply re_mono; assumption.
    + destruct (forallb is_v (concat L)); [destruct (mapM (mapM to_var) L); [injection E as <-; reflexivity | discriminate E]|].
      destruct (existsb is_k (concat L)); [destruct (mapM (mapM to_k) L); [injection E as <-; reflexivity | discriminate E] | discriminate E].
Qed.

Lemma array_simplified_twice e d e' : ExactNum NN -> valid_array d e -> expr_simplified e = Ok e' -> expr_simplified e' = Ok e'.
Proof.
  intros EX V E. destruct (array_simplified_total e d V) as (e2 & E2 & V' & _). rewrite E in E2. injection E2 as <-.
  destruct (valid_array_check d e' V') as [C _].
  assert (HN : forall s s', valid s -> scalar_simplified s = Ok s' -> valid s' /\ normal s').
  { intros s s' Vs Es. destruct (simplified_normal s Vs) as (s2 & E2 & V2 & N2). rewrite Es in E2. injection E2 as <-. auto. }
  destruct e as [s|v|m]; cbn [expr_simplified] in E.
  - destruct (scalar_simplified s) as [s'|] eqn:Es; [|discriminate E]. injection E as <-. cbn [expr_simplified].
    rewrite (simplified_idempotent s s' (zero_laws_exact EX)); [reflexivity | | exact Es]. apply (valid_entries d (ES s) [s] s V); left; reflexivity.
  - destruct (vec_simplified v) as [v'|] eqn:Ev; [|discriminate E]. injection E as <-. cbn [expr_simplified expr_check] in *.
    assert (X : vec_simplified v' = Ok v'); [|rewrite X; reflexivity].
    assert (HE : forall s, In s (vec_entries v) -> valid s). { intros s Hs. apply (valid_entries d (EV v) [s] s V); [|left; reflexivity]. rewrite rows_EV. apply in_map_iff. exists s. auto. }
    destruct v as [l|l|l|l]; cbn [vec_simplified] in Ev; [injection Ev as <-; reflexivity ..| |];
    (destruct (vec_check _); [|discriminate Ev]; cbn [check bind] in Ev; destruct (mapM scalar_simplified _) as [L|] eqn:EL; [|discriminate Ev]; cbn [bind] in Ev;
     apply (vec_resimplified L v'); [|exact Ev | exact C]; intros s Hs; destruct (mapM_in _ _ _ _ EL Hs) as (x & Hx & Ex); exact (HN x s (HE x Hx) Ex)).
  - destruct (mat_simplified m) as [m'|] eqn:Ev; [|discriminate E]. injection E as <-. cbn [expr_simplified expr_check] in *.
    assert (X : mat_simplified m' = Ok m'); [|rewrite X; reflexivity].
    assert (HE : forall row s, In row (mat_rows m) -> In s row -> valid s). { intros row s Hr Hs. apply (valid_entries d (EM m) row s V); [rewrite rows_EM; exact Hr | exact Hs]. }
    destruct m as [l|l|l|l]; cbn [mat_simplified] in Ev; [injection Ev as <-; reflexivity ..| |];
    (destruct (mat_check _); [|discriminate Ev]; cbn [check bind] in Ev; destruct (mapM (mapM scalar_simplified) _) as [L|] eqn:EL; [|discriminate Ev]; cbn [bind] in Ev;
     apply (mat_resimplified L m'); [|exact Ev | exact C]; intros row s Hr Hs; destruct (mapM_in _ _ _ _ EL Hr) as (r0 & Hr0 & Er); destruct (mapM_in _ _ _ _ Er Hs) as (x & Hx & Ex);
     exact (HN x s (HE r0 x Hr0 Hx) Ex)).
Qed.

(** the power of a vector with one entry is the power of the entry *)
Lemma vector_power_entry v z : valid_array (1, 1) (EV v) -> expr_power (EV v) z = expr_power (ES (entry (EV v) 0 0)) z.
Proof.
  intro V. destruct (valid_array_check _ _ V) as [C D]. assert (Vs : valid (entry (EV v) 0 0)) by (apply V; cbn; lia).
  cbn [expr_check expr_dims expr_power] in *. unfold vec_power, scalar_power. rewrite C, (valid_check _ Vs). cbn [check bind].
  destruct (Z.leb 0 z); [|reflexivity]. cbn [check bind]. unfold vec_dims in D. destruct (vec_len v) as [k|]; [|discriminate]. injection D as ->. cbn [bind Nat.eqb check].
  destruct V as (_ & _ & [L _] & _). cbn in L.
  destruct v as [l|l|l|l]; cbn [rows] in L; rewrite map_length in L; (destruct l as [|a [|b l]]; try discriminate L); cbn [entry rows map nth] in *;
    unfold vec_get, vec_at_vec; cbn [length]; rewrite ?C; reflexivity.
Qed.
Lemma vector_power_value v z : ExactNum NN -> valid_array (1, 1) (EV v) -> (0 <= z)%Z -> unambiguous_exponents (power_terms (entry (EV v) 0 0) (Z.to_nat z)) ->
  exists s, expr_power (EV v) z = Ok (ES s) /\ forall r, eval r s = npow (value r (EV v) 0 0) (Z.to_nat z).
Proof.
  intros EX V Hz HU. rewrite (vector_power_entry v z V). assert (Vs : valid (entry (EV v) 0 0)) by (apply V; cbn; lia).
  destruct (power_value _ z EX Vs Hz HU) as (s & E & H). exists s. split; [cbn [expr_power]; rewrite E; reflexivity | exact H].
Qed.

End ArrFacts.
