(** * A vector or matrix times a number: every coefficient of every entry is multiplied once *)

From Coq Require Import ZArith NArith Bool List Lia.
From Verif Require Import Num Syntax ModelScalar Spec SpecConv SpecEffect Base ScalarValid Eval ScalarOps ScalarMore ScalarNorm ScalarFacts ModelShape ModelArith SpecArr SpecEffectArr SpecPoint Arr ArrPlus ArrMul ArrMulAll EffectArr EffectArr2 SpecRound Round.
Import ListNotations.
Local Open Scope num_scope.

Section PointMul.
Context {NN : Num} (FL : float_laws) (MC : forall x y : num, x * y = y * x) (f : num) (F1 : n1 * f = f).
Let ZL : zero_laws := proj1 FL.
Ltac cb := cbn [bind check].
Ltac vv Vv v := pose proof Vv as Hv; (apply (proj1 (var_check_valid v)) in Hv || apply (proj2 (var_check_valid v)) in Hv); rewrite Hv; clear Hv.

Definition mulc (s t : scalar) : Prop :=
  valid t /\ (collected t /\ forall x, In x (terms t) -> is_const x = true \/ formed (terms s) x) /\ forall m, valid_mono m -> nz (cs m (terms t)) = nz (map (fun c => c * f) (cs m (terms s))).

Lemma collected_terms s t : terms t = terms s -> collected s -> collected t.
Proof. intros H C l1 m1 l2 m2 l3 E. rewrite H in E. exact (C l1 m1 l2 m2 l3 E). Qed.
Lemma mulc_valid s t : mulc s t -> valid t.
Proof. intros [H _]. exact H. Qed.
Lemma mulc_terms s a b : terms b = terms a -> mulc s a -> mulc s b.
Proof.
  intros H (V & C & E). split; [apply valid_terms_iff; rewrite H; apply valid_terms_iff; exact V|]. split; [|rewrite H; exact E]. split; [exact (collected_terms _ _ H (proj1 C)) | rewrite H; exact (proj2 C)].
Qed.
Lemma mulc_by_terms (A : nat -> nat -> scalar) : by_terms (fun i j => mulc (A i j)).
Proof. intros i j a b H. apply mulc_terms. exact H. Qed.
Lemma mulc_simplified s t : mulc s t -> exists t', scalar_simplified t = Ok t' /\ mulc s t'.
Proof.
  intros (V & C & E). exists (ssimplified t). split; [apply scalar_simplified_ok; exact V|]. split; [apply ssimplified_valid; exact V|].
  split. { split; [apply normal_collected, ssimplified_normal; exact V|]. intros x Hx. destruct (proj1 (proj2 (lred_simplified t V)) x Hx) as [K|K]; [left; exact K | exact (formed_trans _ _ _ K (proj2 C))]. }
  destruct C as [C _]. intros m Vm. rewrite <- E by exact Vm. apply (ssimplified_cs FL); [exact V | exact Vm | apply normal_cs; assumption].
Qed.

Lemma mulc_k k : mulc (SK k) (SK (k * f)).
Proof.
  split; [exact I|]. split; [split; [apply collected_not_poly; exact I | intros x [<-|[]]; left; reflexivity]|]. intros m Vm. cbn [terms]. rewrite !cs_one.
  rewrite (Effect.alike_form (mkMono (k * f) [] []) (mkMono k [] []) m) by (split; reflexivity). destruct (alike (mkMono k [] []) m); reflexivity.
Qed.
Lemma mulc_var v : valid_var v -> exists t, var_mul_k v f = Ok t /\ mulc (SV v) t.
Proof.
  intro V. unfold var_mul_k. vv V v. cb. assert (Vm : valid_mono (mkMono f [1%Z] [v])) by (apply valid_mono_var; [exact V | lia]).
  rewrite mono_simplified_ok by exact Vm. eexists. split; [reflexivity|]. split; [apply msimplified_valid; exact Vm|].
  split. { split; [apply normal_collected, msimplified_normal; exact Vm|]. intros x Hx. destruct (proj1 (proj2 (lred_simplified (SM (mkMono f [1%Z] [v])) Vm)) x Hx) as [K|(x0 & [<-|[]] & K)]; [left; exact K|].
    right. exists (mkMono n1 [1%Z] [v]). split; [left; reflexivity | exact K]. }
  intros m Vm'. rewrite (msimplified_cs FL) by exact Vm. cbn [terms]. rewrite !cs_one. rewrite (Effect.alike_form (mkMono f [1%Z] [v]) (mkMono n1 [1%Z] [v]) m) by (split; reflexivity).
  destruct (alike (mkMono n1 [1%Z] [v]) m); cbn [map m_coeff]; [rewrite F1|]; reflexivity.
Qed.
Lemma mulc_mono u : valid_mono u -> exists t, mono_mul_k u f = Ok t /\ mulc (SM u) (SM t).
Proof.
  intro V. unfold mono_mul_k. rewrite (valid_mono_check u V). cb. eexists. split; [reflexivity|]. split; [exact V|]. split; [split; [apply collected_not_poly; exact I | intros x [<-|[]]; right; exists u; split; [left; reflexivity | split; reflexivity]]|].
  intros m Vm. cbn [terms]. f_equal. exact (cs_scale [u] f m).
Qed.
Lemma mulc_poly p : valid (SP p) -> collected (SP p) -> exists t, poly_mul_k p f = Ok t /\ mulc (SP p) t.
Proof.
  intros V C. unfold poly_mul_k. rewrite (valid_poly_check p V). cb. rewrite scale_ok_f by apply V. cb.
  set (q := map (fun m => set_coeff m (m_coeff m * f)) p). assert (Vq : valid_poly q).
  { destruct V as [V0 V]. split; [destruct p; [congruence | discriminate]|]. apply Forall_map. eapply Forall_impl; [|exact V]. intros m Hm. exact Hm. }
  rewrite poly_simplified_ok by exact Vq. eexists. split; [reflexivity|]. split; [apply psimplified_valid; apply Vq|].
  split. { split; [apply normal_collected, psimplified_normal; apply Vq|]. intros x Hx. destruct (proj1 (proj2 (lred_simplified (SP q) Vq)) x Hx) as [K|(x0 & H0 & K)]; [left; exact K|].
    right. unfold q in H0. apply in_map_iff in H0 as (x1 & <- & H1). exists x1. split; [exact H1 | exact K]. }
  intros m Vm. rewrite (psimplified_terms_f FL) by apply Vq. rewrite psimp_cs by (try apply Vq; assumption). unfold q. rewrite cs_scale. cbn [terms].
  apply (collect_one FL). rewrite map_length. exact (normal_cs (SP p) m V C Vm).
Qed.
Lemma mulc_scalar s : valid s -> collected s -> exists t, scalar_mul s (SK f) = Ok t /\ mulc s t.
Proof.
  intros V C. destruct s as [k|v|u|p]; cbn [scalar_mul].
  - exists (SK (k * f)). split; [reflexivity | apply mulc_k].
  - apply mulc_var. exact V.
  - destruct (mulc_mono u V) as (t & E & H). cbn [mono_mul]. rewrite E. exists (SM t). split; [reflexivity | exact H].
  - apply mulc_poly; assumption.
Qed.

(** the entry is [A i j], with like terms collected *)
Definition ptc (A : nat -> nat -> scalar) (i j : nat) (s : scalar) : Prop := valid s /\ collected s /\ s = A i j.
Lemma ptc_valid A : forall i j s, ptc A i j s -> valid s.
Proof. intros i j s [H _]. exact H. Qed.
Lemma ptc_valid0 A : forall i s, ptc A i 0 s -> valid s.
Proof. intros i s [H _]. exact H. Qed.
Lemma mulc_pt A i j s : ptc A i j s -> exists t, scalar_mul s (SK f) = Ok t /\ mulc (A i j) t.
Proof. intros (V & C & <-). apply mulc_scalar; assumption. Qed.
Local Notation mden d A := (arr d (fun i j => mulc (A i j))) (only parsing).

(** if the call returns, its entries are the multiples *)
Definition rm (d : nat * nat) (A : nat -> nat -> scalar) (x : res expr) : Prop := forall e, x = Ok e -> mden d A e.
Definition gm (d : nat * nat) (A : nat -> nat -> scalar) (x : res expr) : Prop := exists e, x = Ok e /\ mden d A e.
Lemma gm_rm d A x : gm d A x -> rm d A x.
Proof. intros (e & E & H) e' E'. congruence. Qed.
Lemma rm_simplify d A x : 1 <= fst d -> 1 <= snd d -> rm d A x -> rm d A (simplify_result x).
Proof.
  intros H1 H2 G. destruct x as [e|p]; [|intros e' E; discriminate E].
  destruct (expr_simplified_gen d (fun i j => mulc (A i j)) (fun i j => mulc (A i j)) e H1 H2) as (e' & E & H');
    [intros i j s; apply mulc_valid | apply mulc_by_terms | intros i j s; apply mulc_simplified | exact (G e eq_refl)|].
  intros e'' E''. cbn in E''. assert (e'' = e') by congruence. subst e''. exact H'.
Qed.
Lemma rm_bind_unit d A (u : res unit) x : rm d A x -> rm d A (_ <- u ;; x).
Proof. intros H. destruct u; [exact H | intros e E; discriminate E]. Qed.
Lemma rm_ES A x : (forall t, x = Ok t -> mulc (A 0 0) t) -> rm (1, 1)%nat A (as_ES x).
Proof. intros H e E. destruct x as [t|]; [|discriminate]. injection E as <-. apply arr_ES. apply H. reflexivity. Qed.

Lemma vec_mul_template_rm n A v : 1 <= n -> arr (n, 1)%nat (ptc A) (EV v) -> rm (n, 1)%nat A (vec_mul_template v (SK f)).
Proof.
  intros Hn Hv. apply arr_EV in Hv. unfold vec_mul_template.
  destruct (mapM_col n _ (fun i => mulc (A i 0)) (fun a => scalar_mul a (SK f)) _ (fun i a _ Ha => mulc_pt A i 0 a Ha) Hv) as (l & -> & Hl). cbn [bind].
  apply gm_rm. apply (concretize_slice_arr n (fun i j => mulc (A i j))); [exact Hn | apply mulc_by_terms | intros i j a; apply mulc_valid | exact Hl].
Qed.
Lemma vec_mul_scalar_rm n A v : 1 <= n -> arr (n, 1)%nat (ptc A) (EV v) -> rm (n, 1)%nat A (vec_mul_scalar v (SK f)).
Proof.
  intros Hn Hv. unfold vec_mul_scalar. repeat apply rm_bind_unit.
  assert (G : rm (n, 1)%nat A (simplify_result (vec_mul_template v (SK f)))) by (apply rm_simplify; [exact Hn | exact (le_n 1) | apply vec_mul_template_rm; assumption]).
  destruct v; exact G.
Qed.
Lemma vec_mul_rm n A v g : 1 <= n -> arr (n, 1)%nat (ptc A) (EV v) -> means g = Some (ES (SK f)) -> rm (n, 1)%nat A (vec_mul v g).
Proof.
  intros Hn Hv Hg. unfold vec_mul. repeat apply rm_bind_unit. pose proof (vec_mul_scalar_rm n A v Hn Hv) as G.
  assert (G' : rm (n, 1)%nat A (simplify_result (vec_mul_scalar v (SK f)))) by (apply rm_simplify; [exact Hn | exact (le_n 1) | exact G]).
  destruct g as [f'|z|l|l|l|l|[[k|x|mo|p]|w|m]|]; cbn in Hg; try discriminate Hg; injection Hg as Hg; subst; destruct v; try (intros e E; discriminate E); first [exact G | exact G'].
Qed.

Lemma k_mat_mul_float_rm d A l : 1 <= fst d -> 1 <= snd d -> arr d (ptc A) (EM (MK l)) -> rm d A (k_mat_mul_float l f).
Proof.
  intros H1 H2 H. apply arr_EM in H. cbn [mat_rows] in H. apply (proj1 (grid_map _ _ _ _)) in H. unfold k_mat_mul_float. rewrite (k_to_dense_grid d _ l H1 H2 H). cbn [bind].
  intros e E. injection E as <-. apply arr_EM. cbn [mat_rows]. apply grid_map. apply grid_map. revert H. apply grid_impl. intros i j k _ _ (_ & _ & <-). rewrite MC. apply mulc_k.
Qed.
Lemma mat_mul_rm d A m g : 1 <= fst d -> 1 <= snd d -> arr d (ptc A) (EM m) -> means g = Some (ES (SK f)) -> rm d A (mat_mul m g).
Proof.
  intros H1 H2 H Hg. pose proof (proj1 (arr_EM _ _ _) H) as Hr. destruct m as [l|l|l|l]; cbn [mat_mul mat_rows] in *; apply (proj1 (grid_map _ _ _ _)) in Hr.
  - unfold k_mat_mul. apply rm_bind_unit. pose proof (k_mat_mul_float_rm d A l H1 H2 H) as G.
    destruct g as [f'|z|l0|l0|l0|l0|[[k|x|mo|p]|w|m]|]; cbn in Hg; try discriminate Hg; injection Hg as Hg; subst; try (intros e E; discriminate E);
      repeat (apply rm_simplify; [assumption | assumption|]); exact G.
  - unfold var_mat_mul. repeat apply rm_bind_unit.
    assert (G : rm d A (var_mat_mul_k l f)).
    { intros e E. unfold var_mat_mul_k in E. match type of E with bind ?t _ = _ => destruct t as [rows|] eqn:Er; [|discriminate E] end. cbn [bind] in E. injection E as <-.
      apply arr_EM. cbn [mat_rows]. apply grid_map. unfold grid in *.
      eapply mapM_inv_col; [|exact Hr | exact Er]. intros i x y Hx Ey. eapply mapM_inv_col; [|exact Hx | exact Ey].
      intros j b t (V & _ & <-) Et. cbn beta in Et. destruct (mulc_var b V) as (t0 & E0 & H0). rewrite E0 in Et. cbn [bind] in Et. destruct t0; try discriminate Et; injection Et as <-; exact H0. }
    destruct g as [f'|z|l0|l0|l0|l0|[[k|x|mo|p]|w|m]|]; cbn in Hg; try discriminate Hg; injection Hg as Hg; subst; try (intros e E; discriminate E);
      repeat (apply rm_simplify; [assumption | assumption|]); exact G.
  - unfold mono_mat_mul. repeat apply rm_bind_unit.
    assert (G : rm d A (rows <- mapM (mapM (fun m => mono_mul_k m f)) l ;; Ok (EM (MM rows)))).
    { destruct (mapM_col (fst d) (fun i => col (snd d) (fun j b => ptc A i j (SM b))) (fun i => col (snd d) (fun j b => mulc (A i j) (SM b))) (mapM (fun m => mono_mul_k m f)) l) as (rows & -> & Hrows).
      - intros i r _. apply mapM_col. intros j b _ (V & _ & <-). apply mulc_mono. exact V.
      - exact Hr.
      - intros e E. injection E as <-. apply arr_EM. cbn [mat_rows]. apply grid_map. exact Hrows. }
    destruct g as [f'|z|l0|l0|l0|l0|[[k|x|mo|p]|w|m]|]; cbn in Hg; try discriminate Hg; injection Hg as Hg; subst; try (intros e E; discriminate E); exact G.
  - unfold poly_mat_mul. repeat apply rm_bind_unit.
    assert (G : rm d A (poly_mat_mul_k l f)).
    { unfold poly_mat_mul_k. destruct (mapM_col (fst d) (fun i => col (snd d) (fun j b => ptc A i j (SP b))) (fun i => col (snd d) (fun j => mulc (A i j))) (mapM (fun p => poly_mul_k p f)) l) as (rows & -> & Hrows).
      - intros i r _. apply mapM_col. intros j b _ (V & C & <-). apply mulc_poly; assumption.
      - exact Hr.
      - cbn [bind]. apply rm_simplify; [assumption | assumption|]. apply gm_rm. apply (concretize_rows_arr d (fun i j => mulc (A i j))); [exact H1 | exact H2 | apply mulc_by_terms | intros i j a; apply mulc_valid | exact Hrows]. }
    destruct g as [f'|z|l0|l0|l0|l0|[[k|x|mo|p]|w|m]|]; cbn in Hg; try discriminate Hg; injection Hg as Hg; subst; try (intros e E; discriminate E);
      repeat (apply rm_simplify; [assumption | assumption|]); exact G.
Qed.

Lemma expr_mul_rm d A e g : 1 <= fst d -> 1 <= snd d -> arr d (ptc A) e -> means g = Some (ES (SK f)) -> rm d A (expr_mul e g).
Proof.
  intros H1 H2 H Hg. destruct e as [s|v|m].
  - pose proof (arr_ES_dims _ _ _ H1 H) as ->. apply arr_ES in H. destruct (mulc_pt A 0 0 s H) as (t & Et & Ht).
    assert (S1 : forall t', scalar_mul s (SK f) = Ok t' -> mulc (A 0 0) t') by (intros t' E; congruence).
    assert (S2 : forall t', (u <- scalar_mul s (SK f) ;; scalar_simplified u) = Ok t' -> mulc (A 0 0) t').
    { intros t' E. rewrite Et in E. cbn [bind] in E. destruct (mulc_simplified _ t Ht) as (t2 & E2 & H2'). congruence. }
    destruct s as [k|v|u|p]; cbn [expr_mul]; [unfold k_mul_any | unfold var_mul_any | unfold mono_mul_any | unfold poly_mul_any]; repeat apply rm_bind_unit;
    (destruct g as [f'|z|l0|l0|l0|l0|[[k0|x|mo|p0]|w|m]|]; cbn in Hg; try discriminate Hg; injection Hg as Hg; subst; try (intros e E; discriminate E));
    apply rm_ES; unfold scalar_mul_float; try rewrite Hg; first [exact S1 | exact S2].
  - pose proof (arr_EV_cols _ _ _ H1 H) as E2. destruct d as [n c]. cbn in E2. subst c. apply vec_mul_rm; assumption.
  - apply mat_mul_rm; assumption.
Qed.
End PointMul.
