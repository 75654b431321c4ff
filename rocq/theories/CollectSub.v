(** * Substitution in vectors and matrices, entry by entry and key by key *)

From Coq Require Import ZArith NArith Bool List Lia.
From Verif Require Import Num Syntax ModelScalar Spec SpecConv SpecArr SpecEffect SpecCollect SpecSub Base ScalarValid Eval ScalarOps ScalarMore ScalarNorm ScalarFacts ModelShape ModelArith Arr ArrPlus ArrTop ArrSub Collect Collect2 Collect3.
Import ListNotations.

Section Entries.
Context {NN : Num}.
Local Open Scope num_scope.

Lemma array_substitute_entries e d x t : valid_array d e -> valid_var x -> valid t ->
  exists e', expr_substitute e x t = Ok e' /\ valid_array d e'
    /\ forall i j, i < fst d -> j < snd d -> exists s, scalar_substitute (entry e i j) x t = Ok s /\ terms (entry e' i j) = terms s.
Proof.
  intros V Vx Vt. pose proof V as (D1 & D2 & _).
  destruct (expr_substitute_arr d (fun i j s => entry e i j = s /\ valid s) (fun i j s => valid s /\ exists s0, scalar_substitute (entry e i j) x t = Ok s0 /\ terms s = terms s0) e x t D1 D2) as (e' & E & H & _).
  - intros i j a b HT (Va & s0 & E0 & T0). unfold same_terms in HT. split; [apply valid_terms_iff; rewrite HT; apply valid_terms_iff; exact Va|]. exists s0. split; [exact E0|]. rewrite HT. exact T0.
  - intros i j s H. exact (proj2 H).
  - exact Vx.
  - exact Vt.
  - intros i j s _ _ [-> Vs]. destruct (scalar_substitute_valid s x t Vs Vx Vt) as (s' & E & V'). exists s'. split; [exact E|]. split; [exact V'|]. exists s'. split; [exact E | reflexivity].
  - exact (valid_array_arr d e V).
  - exists e'. split; [exact E|]. split; [apply (arr_valid d _ e' D1 D2 H); intros i j s [X _]; exact X|].
    intros i j Hi Hj. exact (proj2 (arr_entry d _ e' i j H Hi Hj)).
Qed.

Lemma array_substitute_map_steps e d k t sm : valid_array d e -> ~ is_scalar e -> valid_map ((k, ES t) :: sm) ->
  exists e1, expr_substitute e k t = Ok e1 /\ expr_substitute_map e ((k, ES t) :: sm) = expr_substitute_map e1 sm.
Proof.
  intros V NS HM. assert (HM1 : valid_map sm). { destruct HM as [N H]. cbn [map] in N. inversion N; subst. split; [assumption|]. intros k' e' Hk. apply H. right. exact Hk. }
  assert (Hk : valid_var k /\ valid t). { destruct HM as [_ H]. destruct (H k (ES t) (or_introl eq_refl)) as (Vk & s & [= <-] & Vs). split; assumption. } destruct Hk as [Vk Vt].
  pose proof V as (D1 & D2 & _).
  destruct (expr_substitute_arr d (fun i j s => entry e i j = s /\ valid s) (fun i j s => valid s) e k t D1 D2) as (e1 & E1 & A1 & SC); try assumption.
  { intros i j a b HT Va. apply valid_terms_iff. rewrite HT. apply valid_terms_iff. exact Va. }
  { intros i j s H. exact (proj2 H). }
  { intros i j s _ _ [_ Vs]. exact (scalar_substitute_valid s k t Vs Vk Vt). }
  { exact (valid_array_arr d e V). }
  assert (V1 : valid_array d e1) by (apply (arr_valid d _ e1 D1 D2 A1); auto).
  assert (NS1 : ~ is_scalar e1) by (destruct e, e1; cbn in *; tauto).
  exists e1. split; [exact E1|].
  assert (G : forall sm e, ok_map sm -> valid_array d e -> exists e', foldM ArrSub.step e sm = Ok e').
  { clear. induction sm as [|[k x] sm IH]; intros e HM V; cbn [foldM]; [eauto|]. destruct (HM k x (or_introl eq_refl)) as (Vk & t & -> & Vt).
    unfold ArrSub.step at 1. cbn [snd fst as_scalar bind]. destruct (array_substitute_total e d k t V Vk Vt) as (e1 & E1 & V1). rewrite E1. cbn [bind].
    apply IH; [intros k' x' H'; apply HM; right; exact H' | exact V1]. }
  destruct (G sm e1 (valid_map_ok sm HM1) V1) as (e' & E').
  rewrite (substitute_map_fold e1 d sm e' V1 NS1 (valid_map_ok sm HM1) E').
  apply (substitute_map_fold e d _ e' V NS (valid_map_ok _ HM)). cbn [foldM]. unfold ArrSub.step at 1. cbn [fst snd as_scalar bind]. rewrite E1. cbn [bind]. exact E'.
Qed.
Lemma array_substitute_map_nothing e d : valid_array d e -> ~ is_scalar e -> expr_substitute_map e [] = Ok e.
Proof. intros V NS. apply (substitute_map_fold e d [] e V NS); [intros k x []|reflexivity]. Qed.
End Entries.

Section When.
Context {NN : Num} {EX : ExactNum NN}.
Lemma array_substitute_exact e d x t : valid_array d e -> valid_var x -> valid t ->
  exists e', expr_substitute e x t = Ok e' /\ valid_array d e' /\ forall i j, i < fst d -> j < snd d -> terms (entry e' i j) = terms (substituted x t (entry e i j)).
Proof.
  intros V Vx Vt. destruct (array_substitute_entries e d x t V Vx Vt) as (e' & E & V' & H). exists e'. split; [exact E|]. split; [exact V'|]. intros i j Hi Hj.
  destruct (H i j Hi Hj) as (s & Es & ->). rewrite substitute_exact in Es; [injection Es as <-; reflexivity| |exact Vx|exact Vt]. exact (proj2 (proj2 (proj2 V)) i j Hi Hj).
Qed.
Lemma array_substitute_when e d x t e' i j : valid_array d e -> valid_var x -> valid t -> expr_substitute e x t = Ok e' -> i < fst d -> j < snd d -> same_environment x (entry e i j) ->
  ((forall r, value r e' i j = value (update r (v_id x) (eval r t)) e i j)
   <-> forall m, valid_mono m -> coefficient m (substituted x t (entry e i j)) = coefficient m (SP (expansion (replaced x t) (entry e i j)))).
Proof.
  intros V Vx Vt E Hi Hj HE. destruct (array_substitute_entries e d x t V Vx Vt) as (e2 & E2 & V2 & H). rewrite E in E2. injection E2 as <-.
  destruct (H i j Hi Hj) as (s & Es & T). rewrite <- (substitute_when (entry e i j) x t s (proj2 (proj2 (proj2 V)) i j Hi Hj) Vx Vt HE Es). unfold value. split; intros X r; specialize (X r); rewrite <- X, <- (eval_terms r (entry e' i j)), T, eval_terms; reflexivity.
Qed.
End When.
