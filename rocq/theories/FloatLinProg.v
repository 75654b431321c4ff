(** * Linear constraints between programs over vectors, with short coefficients *)

From Coq Require Import ZArith NArith Bool List Lia.
From Coq Require Import QArith Qcanon.
From Coq.Floats Require Import SpecFloat.
From Verif Require Import Num Syntax ModelScalar ModelSC Spec Base SpecProg SpecExact ScalarValid FloatExact FloatSim FloatRun FloatOps FloatLin FloatProg ModelShape ModelArith SpecArr Arr ArrFacts ModelConstr SpecCon ConProofs SpecAProg ModelAProg AProgProofs AProgTop AProgCon
  SpecExactArr FloatArr FloatArrPlus FloatArrMul FloatAProg FloatARun FloatACon FloatATop.
Import ListNotations.
Local Open Scope Z_scope.

Lemma occurs_exact e i : @array_occurs G i (rx e) <-> @array_occurs F i e.
Proof.
  split; intros (row & s & R1 & R2 & m & M1 & M2).
  - rewrite rows_rx in R1. apply in_map_iff in R1. destruct R1 as (r & <- & Hr). apply in_map_iff in R2. destruct R2 as (t & <- & Ht).
    rewrite exact_terms in M1. apply in_map_iff in M1. destruct M1 as (m' & <- & M1). rewrite exact_ids in M2. exists r, t. split; [exact Hr|]. split; [exact Ht|]. exists m'. auto.
  - exists (map rs row), (rs s). rewrite rows_rx. split; [apply in_map; exact R1|]. split; [apply in_map; exact R2|]. exists (rm m). rewrite exact_terms. split; [apply in_map; exact M1|]. rewrite exact_ids. exact M2.
Qed.
Lemma ids_exact w : map v_id (map rv w) = map v_id w.
Proof. rewrite map_map. apply map_ext. reflexivity. Qed.
Lemma among_exact w p : @leaves_among F w p -> @leaves_among G (map rv w) (exact_aprog p).
Proof.
  unfold leaves_among. induction p as [e|a IHa b IHb|a IHa b IHb|a IHa b IHb|a IHa n|a IHa|a IHa|a IHa b IHb|a IHa b IHb]; cbn [everywhere exact_aprog]; try (intros [_ H]; split; [exact I | tauto]).
  intros [H _]. split; [|exact I]. intros i Hi. rewrite ids_exact. apply H. apply occurs_exact. exact Hi.
Qed.
Lemma linear_vector_exact n w p : @linear_vector F n w p -> afits p -> @linear_vector G n (map rv w) (exact_aprog p).
Proof.
  intros (HP & D & DG & HL) FI. split; [apply proper_exact; assumption|]. split; [rewrite adims_exact; exact D|]. split; [rewrite adegree_exact; exact DG|]. apply among_exact. exact HL.
Qed.
Lemma afits_simplified p : afits p -> afits (ASimplified p).
Proof. intro H. split; [|exact H]. destruct p; destruct H as [(H1 & H2 & _) _]; (split; [exact H1|]; split; [exact H2 | exact I]). Qed.

Section Con.
Context (n : nat) (w : list (@var F)) (p q : @aprog F) (s : sense) (a b : @expr F) (c : @vector_constraint F).
Context (Hn : (2 <= n)%nat) (Hp : @linear_vector F n w p) (Hq : @linear_vector F n w q) (Fp : afits p) (Fq : afits q).
Context (Hb : aweight p * 2 ^ (Z.max (abits p) (abits q) - abits p) + 2 * (aweight q * 2 ^ (Z.max (abits p) (abits q) - abits q)) <= 2 ^ 53).
Context (Hw : w <> []) (Vw : Forall (@valid_var F) w) (Nw : Forall numeric_var w) (HN : NoDup (map v_id w)).
Context (Ea : @arun F (ASimplified p) = Ok a) (Eb : @arun F (ASimplified q) = Ok b) (Ec : @expr_comparison F a (GExpr b) s = Ok (CV c)).

Lemma w_exact : map rv w <> [] /\ Forall (@valid_var G) (map rv w) /\ NoDup (map v_id (map rv w)).
Proof.
  split; [destruct w; [congruence | discriminate]|]. split; [|rewrite ids_exact; exact HN]. rewrite Forall_map. rewrite Forall_forall in *. intros v Hv. apply exact_valid_var; auto.
Qed.
Lemma numeric_w : numeric_lists [w].
Proof. intros l v [<-|[]] Hv. rewrite Forall_forall in Nw. auto. Qed.

Lemma con_exact : @arun G (ASimplified (exact_aprog p)) = Ok (rx a) /\ @arun G (ASimplified (exact_aprog q)) = Ok (rx b)
  /\ @expr_comparison G (rx a) (GExpr (rx b)) s = Ok (CV (exact_vc c))
  /\ sim exact_system (fun _ => True) (@vc_linear_inequality F c [w]) (@vc_linear_inequality G (exact_vc c) [map rv w])
  /\ sim exact_system (fun _ => True) (@vc_linear_equality F c [w]) (@vc_linear_equality G (exact_vc c) [map rv w]).
Proof.
  set (K := Z.max (abits p) (abits q)) in *. set (na := aweight p * 2 ^ (K - abits p)) in *. set (nb := aweight q * 2 ^ (K - abits q)) in *.
  destruct (afits_head p Fp) as [Bp Wp]. destruct (afits_head q Fq) as [Bq Wq].
  assert (HK : 0 <= K <= 1000) by (unfold K; lia). assert (Na : 0 <= na) by (apply Z.mul_nonneg_nonneg; [lia | apply Z.pow_nonneg; lia]). assert (Nb : 0 <= nb) by (apply Z.mul_nonneg_nonneg; [lia | apply Z.pow_nonneg; lia]).
  destruct (@ready_result F n w p a Hp Ea) as (V1 & _). destruct (@ready_result F n w q b Hq Eb) as (V2 & _).
  destruct (@comparison_vectors F a b s c Ec (@column_not_scalar F n a Hn V1) (@column_not_scalar F n b Hn V2)) as (v & u & Xa & Xb & Xc).
  pose proof (arun_sim (ASimplified p) (conj I (proj1 Hp)) (afits_simplified p Fp)) as S1. rewrite Ea in S1. destruct S1 as [A1 E1]. cbn [abits aweight exact_aprog] in A1, E1.
  pose proof (arun_sim (ASimplified q) (conj I (proj1 Hq)) (afits_simplified q Fq)) as S2. rewrite Eb in S2. destruct S2 as [A2 E2]. cbn [abits aweight exact_aprog] in A2, E2.
  apply (ax_to (abits p) (aweight p) a K) in A1; [|lia | unfold K; lia]. apply (ax_to (abits q) (aweight q) b K) in A2; [|lia | unfold K; lia]. fold na in A1. fold nb in A2.
  split; [exact E1|]. split; [exact E2|]. subst a b c. assert (HT : na + 2 * nb <= top) by (rewrite top_eq; exact Hb).
  pose proof (vec_compare_sim K na nb v u s A1 A2) as SC. rewrite Ec in SC. destruct SC as [_ SC]. split; [exact SC|].
  pose proof numeric_w as NL. split.
  - exact (vc_inequality_sim K na nb HK Na Nb HT v u s A1 A2 [w] NL).
  - exact (vc_equality_sim K na nb HK Na Nb HT v u s A1 A2 [w] NL).
Qed.

Lemma program_inequality_exact A rhs : s = SenseLe \/ s = SenseGe -> @vc_linear_inequality F c [w] = Ok (A, rhs) ->
  @dense_shape F (n, length w) A /\ length rhs = n /\ forall r : @assignment G,
   @system_le G r (map (map exactly) A) (map rv w) (map exactly rhs) <-> forall i, (i < n)%nat -> @Spec.holds G (@meaning G r (exact_aprog p) i 0) s (@meaning G r (exact_aprog q) i 0).
Proof.
  intros HS E. destruct con_exact as (E1 & E2 & E3 & SI & _). rewrite E in SI. destruct SI as [_ SI]. destruct w_exact as (W1 & W2 & W3).
  destruct (@program_inequality G QNum_exact n (map rv w) (exact_aprog p) (exact_aprog q) s (rx a) (rx b) (exact_vc c) Hn (linear_vector_exact n w p Hp Fp) (linear_vector_exact n w q Hq Fq) W1 W2 W3 E1 E2 E3 _ _ HS SI) as ((S1 & S2) & L & H).
  cbn [exact_system fst snd] in S1, S2, L, H. rewrite map_length in S1, L, S2. split; [split; [exact S1|]|].
  - rewrite Forall_map in S2. eapply Forall_impl; [|exact S2]. cbn [fst snd]. intros x Hx. rewrite map_length in Hx. exact Hx.
  - split; [exact L | exact H].
Qed.
Lemma program_equality_exact A rhs : s = SenseEq -> @vc_linear_equality F c [w] = Ok (A, rhs) ->
  @dense_shape F (n, length w) A /\ length rhs = n /\ forall r : @assignment G,
   @system_eq G r (map (map exactly) A) (map rv w) (map exactly rhs) <-> forall i, (i < n)%nat -> @Spec.holds G (@meaning G r (exact_aprog p) i 0) s (@meaning G r (exact_aprog q) i 0).
Proof.
  intros HS E. destruct con_exact as (E1 & E2 & E3 & _ & SI). rewrite E in SI. destruct SI as [_ SI]. destruct w_exact as (W1 & W2 & W3).
  destruct (@program_equality G QNum_exact n (map rv w) (exact_aprog p) (exact_aprog q) s (rx a) (rx b) (exact_vc c) Hn (linear_vector_exact n w p Hp Fp) (linear_vector_exact n w q Hq Fq) W1 W2 W3 E1 E2 E3 _ _ HS SI) as ((S1 & S2) & L & H).
  cbn [exact_system fst snd] in S1, S2, L, H. rewrite map_length in S1, L, S2. split; [split; [exact S1|]|].
  - rewrite Forall_map in S2. eapply Forall_impl; [|exact S2]. cbn [fst snd]. intros x Hx. rewrite map_length in Hx. exact Hx.
  - split; [exact L | exact H].
Qed.
Lemma program_inequality_exact_total : s = SenseLe \/ s = SenseGe -> @rows_vary G n (exact_aprog p) (exact_aprog q) -> exists A rhs, @vc_linear_inequality F c [w] = Ok (A, rhs).
Proof.
  intros HS HR. destruct con_exact as (E1 & E2 & E3 & SI & _). destruct w_exact as (W1 & W2 & W3).
  destruct (@program_inequality_total G QNum_exact n (map rv w) (exact_aprog p) (exact_aprog q) s (rx a) (rx b) (exact_vc c) Hn (linear_vector_exact n w p Hp Fp) (linear_vector_exact n w q Hq Fq) W1 W2 W3 E1 E2 E3 HS HR) as (A & rhs & EG).
  destruct (@vc_linear_inequality F c [w]) as [[A' rhs']|x]; [exists A', rhs'; reflexivity|]. cbn [sim] in SI. congruence.
Qed.
Lemma program_equality_exact_total : s = SenseEq -> @rows_vary G n (exact_aprog p) (exact_aprog q) -> exists A rhs, @vc_linear_equality F c [w] = Ok (A, rhs).
Proof.
  intros HS HR. destruct con_exact as (E1 & E2 & E3 & _ & SI). destruct w_exact as (W1 & W2 & W3).
  destruct (@program_equality_total G QNum_exact n (map rv w) (exact_aprog p) (exact_aprog q) s (rx a) (rx b) (exact_vc c) Hn (linear_vector_exact n w p Hp Fp) (linear_vector_exact n w q Hq Fq) W1 W2 W3 E1 E2 E3 HS HR) as (A & rhs & EG).
  destruct (@vc_linear_equality F c [w]) as [[A' rhs']|x]; [exists A', rhs'; reflexivity|]. cbn [sim] in SI. congruence.
Qed.
End Con.
