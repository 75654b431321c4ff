(** * The linear part of an expression of any degree *)

From Coq Require Import ZArith NArith Bool List Lia Ring_theory.
From Verif Require Import Num Syntax ModelScalar Spec Base ScalarValid Eval ScalarOps ScalarMore ScalarNorm Unamb ScalarLin SpecProg Programs SpecMore.
Import ListNotations.
Local Open Scope num_scope.

Section LinPart.
Context {NN : Num} {EX : ExactNum NN}.
Add Ring numring : num_ring.

Lemma lin_in_tdeg x m : lin_in x m = true -> tdeg m = 1%Z /\ In (v_id x) (ids m).
Proof.
  unfold lin_in, tdeg, ids. destruct (m_vars m) as [|w [|]]; try discriminate. destruct (m_exps m) as [|e [|]]; try discriminate.
  intro H. apply andb_true_iff in H as [H1 H2]. apply Z.eqb_eq in H2. apply same_id_iff in H1. subst e. cbn. split; [reflexivity|]. left. exact H1.
Qed.

Lemma poly_linear_part p w : Forall valid_mono p -> apart p -> NoDup (map v_id w) -> (forall m i, In m p -> tdeg m = 1%Z -> In i (ids m) -> In i (map v_id w)) ->
  forall r, eval_poly r p = dot r (map (lc p) w) w + pconst p + eval_poly r (filter (fun m => Z.ltb 1 (tdeg m)) p).
Proof.
  intros V A HN HC r.
  assert (S : forall q, eval_poly r q = eval_poly r (filter (fun m => negb (Z.ltb 1 (tdeg m))) q) + eval_poly r (filter (fun m => Z.ltb 1 (tdeg m)) q)).
  { intro q. induction q as [|m q IH]; cbn [eval_poly filter]; [ring|]. destruct (Z.ltb 1 (tdeg m)); cbn [negb eval_poly]; rewrite IH; ring. }
  rewrite (S p) at 1. f_equal. set (q := filter (fun m => negb (Z.ltb 1 (tdeg m))) p).
  assert (Hq : forall m, In m q -> In m p /\ (tdeg m <= 1)%Z).
  { intros m Hm. apply filter_In in Hm as [H1 H2]. apply negb_true_iff, Z.ltb_ge in H2. auto. }
  rewrite (lin_poly_value q w).
  - f_equal.
    + apply dot_ext. intros x _. unfold lc. subst q. clear - p. induction p as [|m p IH]; [reflexivity|]. cbn [filter find].
      destruct (Z.ltb 1 (tdeg m)) eqn:E; cbn [negb]; [|cbn [find]; destruct (lin_in x m); [reflexivity | exact IH]].
      destruct (lin_in x m) eqn:L; [|exact IH]. apply lin_in_tdeg in L as [L _]. rewrite L in E. discriminate.
    + unfold pconst. subst q. rewrite Forall_forall in V. clear - V. induction p as [|m p IH]; [reflexivity|]. cbn [filter first_const].
      assert (IH' : match first_const (filter (fun m => negb (1 <? tdeg m)%Z) p) with Some c => c | None => n0 end = match first_const p with Some c => c | None => n0 end)
        by (apply IH; intros; apply V; right; assumption).
      destruct (Z.ltb 1 (tdeg m)) eqn:E; cbn [negb first_const]; [|destruct (is_const m); [reflexivity | exact IH']].
      destruct (is_const m) eqn:C; [|exact IH']. rewrite (const_tdeg m (V m (or_introl eq_refl)) C) in E. discriminate.
  - rewrite Forall_forall in *. intros m Hm. apply V, Hq, Hm.
  - apply Forall_forall. intros m Hm. apply Hq, Hm.
  - subst q. clear - A. induction A as [|m p A1 A2 IH]; [constructor|]. cbn [filter]. destruct (negb _); [|exact IH]. constructor; [|exact IH].
    rewrite Forall_forall in *. intros x Hx. apply filter_In in Hx. apply A1, Hx.
  - exact HN.
  - intros m i Hm Hi. destruct (Hq m Hm) as [H1 H2]. apply (HC m i H1); [|exact Hi]. rewrite Forall_forall in V. pose proof (tdeg_nonneg m (V m H1)) as H0.
    destruct (Z.eq_dec (tdeg m) 0) as [E|E]; [|lia]. apply tdeg_const_iff in E; [|apply V; exact H1]. unfold is_const in E. unfold ids in Hi. destruct (m_vars m); [destruct Hi | discriminate].
Qed.

Lemma linear_part s w : valid s -> collected s -> (match s with SM m => m_vars m <> [] | _ => True end) ->
  w <> [] -> Forall valid_var w -> NoDup (map v_id w) -> (forall i, occurs_linearly i s -> In i (map v_id w)) ->
  exists cs c, scalar_linear_coeff s [w] = Ok cs /\ scalar_constant s = Ok c /\ length cs = length w
    /\ forall r, eval r s = dot r cs w + c + eval_poly r (higher_terms s).
Proof.
  intros V C HK Hw Vw HN HC. destruct s as [k|v|m|p].
  - destruct (linear_decomposition (SK k) w V) as (cs & c & E1 & E2 & E3 & E4); try assumption.
    { constructor; [cbn; lia | constructor]. }
    { intros i (m & [<-|[]] & []). }
    exists cs, c. repeat (split; [assumption|]). intro r. rewrite E4. cbn. ring.
  - destruct (linear_decomposition (SV v) w V) as (cs & c & E1 & E2 & E3 & E4); try assumption.
    { constructor; [cbn; lia | constructor]. }
    { intros i (m & Hm & Hi). apply HC. exists m. split; [exact Hm|]. destruct Hm as [<-|[]]. split; [reflexivity | exact Hi]. }
    exists cs, c. repeat (split; [assumption|]). intro r. rewrite E4. cbn. ring.
  - destruct (Z.ltb 1 (tdeg m)) eqn:E.
    + unfold higher_terms. cbn [terms filter]. rewrite E. exists (repeat n0 (length w)), n0. cbn [scalar_linear_coeff scalar_constant eval eval_poly]. split; [|split; [|split]].
      * unfold mono_linear_coeff. rewrite (valid_mono_check _ V). cbn [check bind wrt_vars]. destruct w as [|y w]; [congruence|]. cbn [zeros_vector length bind].
        unfold scalar_is_linear. cbn [scalar_degree]. rewrite mono_degree_ok by (apply valid_mono_check; exact V). cbn [bind]. apply Z.ltb_lt in E.
        destruct (Z.leb_spec (tdeg m) 1); [lia|]. reflexivity.
      * f_equal. unfold mono_constant. destruct (m_vars m); [congruence | reflexivity].
      * apply repeat_length.
      * intro r. assert (HZ : forall l : list var, dot r (repeat n0 (length l)) l = n0).
        { clear - EX. induction l as [|a l IH]; cbn; [reflexivity|]. rewrite IH. ring. }
        rewrite HZ. ring.
    + apply Z.ltb_ge in E. destruct (linear_decomposition (SM m) w V) as (cs & c & E1 & E2 & E3 & E4); try assumption.
      { constructor; [exact E | constructor]. }
      { intros i (m' & Hm & Hi). apply HC. exists m'. split; [exact Hm|]. destruct Hm as [<-|[]]. split; [|exact Hi].
        destruct (linear_term m V E) as [(k & Em)|(k & v & Em)]; subst m; [destruct Hi | reflexivity]. }
      exists cs, c. repeat (split; [assumption|]). intro r. rewrite E4. unfold higher_terms. cbn [terms filter]. destruct (Z.ltb_spec 1 (tdeg m)); [lia|]. cbn. ring.
  - exists (map (lc p) w), (pconst p). cbn [scalar_linear_coeff scalar_constant]. split; [apply poly_linear_coeff_ok; assumption|].
    split; [apply poly_constant_ok, valid_poly_check; exact V|]. split; [apply map_length|]. intro r. cbn [eval]. destruct V as [V0 V].
    apply poly_linear_part; [exact V | apply collected_apart; [exact V | exact C] | exact HN|].
    intros m i Hm Hd Hi. apply HC. exists m. auto.
Qed.
End LinPart.

Section Programs.
Context {NN : Num}.
Lemma run_linear_part p w : ExactNum NN -> well_formed p -> no_derivative p ->
  exists s, run p = Ok s /\
   (w <> [] -> Forall valid_var w -> NoDup (map v_id w) -> (forall i, occurs_linearly i s -> In i (map v_id w)) ->
    exists cs c, scalar_linear_coeff s [w] = Ok cs /\ scalar_constant s = Ok c /\ length cs = length w
      /\ forall r, eval r s = dot r cs w + c + eval_poly r (higher_terms s)).
Proof.
  intros EX W N. destruct (run_valid p W) as (s & E & V). exists s. split; [exact E|]. intros Hw Vw HN HC.
  apply linear_part; try assumption.
  - apply apart_s_collected; [exact V|]. exact (run_apart p s W N E).
  - exact (run_proper p s W E).
Qed.
End Programs.
