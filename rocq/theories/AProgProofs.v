(** * Programs over vectors and matrices: dimensions, degrees and values *)

From Coq Require Import ZArith NArith Bool List Lia Ring Field.
From Verif Require Import Num Syntax ModelScalar Spec Base ScalarValid Eval ScalarOps ScalarMore Unamb ModelShape ModelArith SpecArr Arr ArrPlus ArrMul ArrMulMat ArrMulAll ArrMulTop ArrTop ArrPow ArrShape ArrSub ArrFacts ArrOne SpecAProg ModelAProg.
Import ListNotations.
Local Open Scope num_scope.

Section AProgProofs.
Context {NN : Num}.

(** ** Dimensions *)

Lemma same_dims_spec d1 d2 : reflect (d1 = d2) (same_dims d1 d2).
Proof.
  destruct d1 as [a b], d2 as [c d]. unfold same_dims. cbn. destruct (Nat.eqb_spec a c) as [->|N]; cbn; [|constructor; congruence].
  destruct (Nat.eqb_spec b d) as [->|N]; constructor; congruence.
Qed.

Lemma scalar_dims_spec d : reflect (d = (1, 1)%nat) (scalar_dims d).
Proof. apply same_dims_spec. Qed.

(** ** Families of exponents, graded by the degree *)

Context (T : Z -> (N -> Z) -> Prop).
Context (T_ext : forall k f g, T k f -> (forall i, g i = f i) -> T k g).
Context (T_zero : forall k f, (0 <= k)%Z -> (forall i, f i = 0%Z) -> T k f).
Context (T_le : forall k k' f, (k <= k')%Z -> T k f -> T k' f).
Context (T_add : forall k k' f g h, T k f -> T k' g -> (forall i, h i = (f i + g i)%Z) -> T (k + k')%Z h).

Definition holds (d : nat * nat) (k : Z) (phi : nat -> nat -> assignment -> num) (e : expr) : Prop :=
  valid_array d e /\ (d = (1, 1)%nat -> is_scalar e) /\ (forall f, has_term e f -> T k f)
  /\ (ExactNum NN -> unambiguous_exponents (T k) -> forall r i j, i < fst d -> j < snd d -> value r e i j = phi i j r).

Lemma unambiguous_le k k' : (k <= k')%Z -> unambiguous_exponents (T k') -> unambiguous_exponents (T k).
Proof. intro L. apply unambiguous_sub. intros f. apply T_le. exact L. Qed.

Lemma has_term_arr d F phi e f : arr d (fun i j => sden F (phi i j)) e -> has_term e f -> exists g, F g /\ forall i, f i = g i.
Proof.
  intros [L H] (row & s & m & H1 & H2 & H3 & H4). apply In_nth_error in H1. destruct H1 as (i & Ei). assert (Hi : i < fst d) by (rewrite <- L; eapply nth_error_bound; exact Ei).
  destruct (H i Hi) as (row' & E' & Lr & Hr). assert (row' = row) by congruence. subst row'. apply In_nth_error in H2. destruct H2 as (j & Ej).
  assert (Hj : j < snd d) by (rewrite <- Lr; eapply nth_error_bound; exact Ej). destruct (Hr j Hj) as (s' & Es & (_ & W & _)). assert (s' = s) by congruence. subst s'.
  destruct (W m H3) as (g & Hg & Eg). exists g. split; [exact Hg|]. intro q. rewrite H4. apply Eg.
Qed.

(** a result with its terms in a family inside the grade [k] *)
Lemma den_holds d k (F : (N -> Z) -> Prop) phi e : 1 <= fst d -> 1 <= snd d -> (d = (1, 1)%nat -> is_scalar e) -> (forall f, F f -> T k f) -> arr d (fun i j => sden F (phi i j)) e -> holds d k phi e.
Proof.
  intros D1 D2 HS HF H. split; [exact (arr_valid d _ e D1 D2 H (den_valid F phi))|]. split; [exact HS|]. split.
  - intros f Hf. destruct (has_term_arr d F phi e f H Hf) as (g & Hg & Eg). exact (T_ext k g f (HF g Hg) Eg).
  - intros EX HU r i j Hi Hj. destruct (arr_entry d _ e i j H Hi Hj) as (_ & _ & Hv). apply Hv; [exact EX|]. exact (unambiguous_sub F (T k) HF HU).
Qed.

Lemma holds_value d k k' phi e : holds d k phi e -> (k <= k')%Z -> ExactNum NN -> unambiguous_exponents (T k') -> forall r i j, i < fst d -> j < snd d -> value r e i j = phi i j r.
Proof. intros (_ & _ & _ & H) L EX HU. apply (H EX). exact (unambiguous_le k k' L HU). Qed.

Lemma holds_scalar d k phi e : holds d k phi e -> is_scalar e -> d = (1, 1)%nat.
Proof. intros (V & _) S. destruct e; try destruct S. exact (valid_array_ES d s V). Qed.

Lemma holds_spread d k k' phi e : holds d k phi e -> (k <= k')%Z -> ExactNum NN -> unambiguous_exponents (T k') ->
  forall r i j, (scalar_dims d = false -> i < fst d /\ j < snd d) -> bvalue r e i j = spread d (fun i j => phi i j r) i j.
Proof.
  intros H L EX HU r i j B. pose proof (holds_value d k k' phi e H L EX HU r) as HV. unfold spread. destruct (scalar_dims_spec d) as [->|N].
  - destruct H as (_ & S & _). specialize (S eq_refl). destruct e; try destruct S. cbn [bvalue]. rewrite <- (HV 0%nat 0%nat); [reflexivity | apply le_n | apply le_n].
  - destruct (B eq_refl) as [Hi Hj]. rewrite <- (HV i j Hi Hj). destruct e as [s|v|m]; try reflexivity. destruct N. exact (holds_scalar d k phi _ H I).
Qed.

(** ** Sums *)

Lemma plus_zero_family k (F : (N -> Z) -> Prop) f : (0 <= k)%Z -> (forall f, F f -> T k f) -> plus_zero F f -> T k f.
Proof. intros Hk HF [H|H]; [exact (HF f H) | exact (T_zero k f Hk H)]. Qed.

Lemma sum_family ka kb a b da db pa pb f : (0 <= ka)%Z -> (0 <= kb)%Z -> holds da ka pa a -> holds db kb pb b -> plus_zero (sum_exps a b) f -> T (Z.max ka kb) f.
Proof.
  intros Ka Kb (_ & _ & Ha & _) (_ & _ & Hb & _). apply plus_zero_family; [lia|]. intros g [Hg|Hg]; [apply (T_le ka); [lia | exact (Ha g Hg)] | apply (T_le kb); [lia | exact (Hb g Hg)]].
Qed.

Lemma sum_dims_broadcast da db d ka kb pa pb a b : holds da ka pa a -> holds db kb pb b -> sum_dims da db = Some d -> broadcast a b da db d.
Proof.
  intros (_ & Sa & _) (_ & Sb & _). unfold sum_dims. destruct (scalar_dims_spec da) as [E|N1]; [intros [= <-]; right; left; auto|].
  destruct (scalar_dims_spec db) as [E|N2]; [intros [= <-]; right; right; auto|]. destruct (same_dims_spec da db) as [->|N3]; [intros [= <-]; left; auto | discriminate].
Qed.

Lemma sum_dims_scalar da db ka kb pa pb a b : holds da ka pa a -> holds db kb pb b -> sum_dims da db = Some (1, 1)%nat -> is_scalar a /\ is_scalar b.
Proof.
  intros (_ & Sa & _) (_ & Sb & _). unfold sum_dims. destruct (scalar_dims_spec da) as [E|N1]; [intros [= ->]; auto|].
  destruct (scalar_dims_spec db) as [E|N2]; [intros [= ->]; congruence|]. destruct (same_dims_spec da db) as [->|N3]; [intros [= ->]; congruence | discriminate].
Qed.

Lemma sum_dims_pos da db d : 1 <= fst da -> 1 <= snd da -> 1 <= fst db -> 1 <= snd db -> sum_dims da db = Some d -> 1 <= fst d /\ 1 <= snd d.
Proof. unfold sum_dims. intros. destruct (scalar_dims da), (scalar_dims db), (same_dims da db); try discriminate; injection H3 as <-; auto. Qed.

Lemma sum_dims_in da db d i j : sum_dims da db = Some d -> i < fst d -> j < snd d ->
  (scalar_dims da = false -> i < fst da /\ j < snd da) /\ (scalar_dims db = false -> i < fst db /\ j < snd db).
Proof.
  unfold sum_dims. destruct (scalar_dims_spec da) as [->|N1]; destruct (scalar_dims_spec db) as [->|N2].
  - intros [= <-] Hi Hj. split; discriminate.
  - intros [= <-] Hi Hj. split; [discriminate | auto].
  - intros [= <-] Hi Hj. split; [auto | discriminate].
  - destruct (same_dims_spec da db) as [->|N3]; [|discriminate]. intros [= <-] Hi Hj. auto.
Qed.

Lemma plus_holds da db ka kb pa pb a b e : (0 <= ka)%Z -> (0 <= kb)%Z -> holds da ka pa a -> holds db kb pb b -> expr_plus a (GExpr b) = Ok e ->
  exists d, sum_dims da db = Some d
    /\ holds d (Z.max ka kb) (fun i j r => spread da (fun i j => pa i j r) i j + spread db (fun i j => pb i j r) i j) e.
Proof.
  intros Ka Kb Ha Hb E. pose proof Ha as (Va & Sa & _). pose proof Hb as (Vb & Sb & _).
  destruct (sum_dims da db) as [d|] eqn:D.
  2:{ exfalso. unfold sum_dims in D. destruct (scalar_dims_spec da); [discriminate|]. destruct (scalar_dims_spec db); [discriminate|]. destruct (same_dims_spec da db); [discriminate|].
      rewrite (array_plus_mismatch a b (GExpr b) da db Va Vb eq_refl) in E by assumption. discriminate E. }
  exists d. split; [reflexivity|]. pose proof (sum_dims_broadcast _ _ _ _ _ _ _ _ _ Ha Hb D) as B.
  pose proof (sum_dims_pos da db d ltac:(apply Va) ltac:(apply Va) ltac:(apply Vb) ltac:(apply Vb) D) as [D1 D2].
  assert (H : holds d (Z.max ka kb) (fun i j r => bvalue r a i j + bvalue r b i j) e).
  { apply (den_holds d _ (plus_zero (sum_exps a b))); [exact D1 | exact D2 | | intros f; exact (sum_family ka kb a b da db pa pb f Ka Kb Ha Hb) | exact (plus_rgood a b (GExpr b) da db d Va Vb eq_refl B e E)].
    intros ->. destruct (sum_dims_scalar _ _ _ _ _ _ _ _ Ha Hb D) as [S1 S2]. destruct a; try destruct S1. destruct b; try destruct S2. exact (plus_scalars _ _ _ E). }
  destruct H as (H1 & H2 & H3 & H4). split; [exact H1|]. split; [exact H2|]. split; [exact H3|]. intros EX HU r i j Hi Hj. rewrite (H4 EX HU r i j Hi Hj).
  destruct (sum_dims_in da db d i j D Hi Hj) as [B1 B2].
  rewrite (holds_spread da ka (Z.max ka kb) pa a Ha ltac:(lia) EX HU r i j B1), (holds_spread db kb (Z.max ka kb) pb b Hb ltac:(lia) EX HU r i j B2). reflexivity.
Qed.

Lemma minus_holds da db ka kb pa pb a b e : (0 <= ka)%Z -> (0 <= kb)%Z -> holds da ka pa a -> holds db kb pb b -> expr_minus a (GExpr b) = Ok e ->
  exists d, sum_dims da db = Some d
    /\ holds d (Z.max ka kb) (fun i j r => spread da (fun i j => pa i j r) i j - spread db (fun i j => pb i j r) i j) e.
Proof.
  intros Ka Kb Ha Hb E. pose proof Ha as (Va & Sa & _). pose proof Hb as (Vb & Sb & _).
  destruct (sum_dims da db) as [d|] eqn:D.
  2:{ exfalso. unfold sum_dims in D. destruct (scalar_dims_spec da); [discriminate|]. destruct (scalar_dims_spec db); [discriminate|]. destruct (same_dims_spec da db); [discriminate|].
      rewrite (array_minus_mismatch a b (GExpr b) da db Va Vb eq_refl) in E by assumption. discriminate E. }
  exists d. split; [reflexivity|]. pose proof (sum_dims_broadcast _ _ _ _ _ _ _ _ _ Ha Hb D) as B.
  pose proof (sum_dims_pos da db d ltac:(apply Va) ltac:(apply Va) ltac:(apply Vb) ltac:(apply Vb) D) as [D1 D2].
  assert (H : holds d (Z.max ka kb) (fun i j r => bvalue r a i j - bvalue r b i j) e).
  { apply (den_holds d _ (plus_zero (sum_exps a b))); [exact D1 | exact D2 | | intros f; exact (sum_family ka kb a b da db pa pb f Ka Kb Ha Hb) | exact (minus_rgood a b (GExpr b) da db d Va Vb eq_refl B e E)].
    intros ->. destruct (sum_dims_scalar _ _ _ _ _ _ _ _ Ha Hb D) as [S1 S2]. destruct a; try destruct S1. destruct b; try destruct S2. exact (minus_scalars _ _ _ E). }
  destruct H as (H1 & H2 & H3 & H4). split; [exact H1|]. split; [exact H2|]. split; [exact H3|]. intros EX HU r i j Hi Hj. rewrite (H4 EX HU r i j Hi Hj).
  destruct (sum_dims_in da db d i j D Hi Hj) as [B1 B2].
  rewrite (holds_spread da ka (Z.max ka kb) pa a Ha ltac:(lia) EX HU r i j B1), (holds_spread db kb (Z.max ka kb) pb b Hb ltac:(lia) EX HU r i j B2). reflexivity.
Qed.

(** ** Products *)

Lemma product_family ka kb a b da db pa pb f : (0 <= ka)%Z -> (0 <= kb)%Z -> holds da ka pa a -> holds db kb pb b -> plus_zero (product_exps a b) f -> T (ka + kb) f.
Proof.
  intros Ka Kb (_ & _ & Ha & _) (_ & _ & Hb & _). apply plus_zero_family; [lia|]. intros g (g1 & g2 & H1 & H2 & E). exact (T_add ka kb g1 g2 g (Ha g1 H1) (Hb g2 H2) E).
Qed.

Lemma sum_to_ext f g n : (forall k, k < n -> f k = g k) -> sum_to f n = sum_to g n.
Proof. intro H. induction n as [|n IH]; cbn [sum_to]; [reflexivity|]. rewrite IH by (intros k Hk; apply H; lia). rewrite (H n) by lia. reflexivity. Qed.

Lemma times_holds da db ka kb pa pb a b e : (0 <= ka)%Z -> (0 <= kb)%Z -> holds da ka pa a -> holds db kb pb b -> expr_mul a (GExpr b) = Ok e ->
  exists d, mul_dims da db = Some d
    /\ holds d (ka + kb) (fun i j r =>
         if scalar_dims da || scalar_dims db then spread da (fun i j => pa i j r) i j * spread db (fun i j => pb i j r) i j
         else sum_to (fun k => pa i k r * pb k j r) (snd da)) e.
Proof.
  intros Ka Kb Ha Hb E. pose proof Ha as (Va & Sa & _). pose proof Hb as (Vb & Sb & _).
  assert (NSa : scalar_dims da = false -> ~ is_scalar a) by (destruct (scalar_dims_spec da) as [|N]; [discriminate|]; intros _ S; apply N; exact (holds_scalar _ _ _ _ Ha S)).
  assert (NSb : scalar_dims db = false -> ~ is_scalar b) by (destruct (scalar_dims_spec db) as [|N]; [discriminate|]; intros _ S; apply N; exact (holds_scalar _ _ _ _ Hb S)).
  destruct (mul_dims da db) as [d|] eqn:D.
  2:{ exfalso. unfold mul_dims in D. destruct (scalar_dims_spec da); [discriminate|]. destruct (scalar_dims_spec db); [discriminate|]. destruct (Nat.eqb_spec (snd da) (fst db)); [discriminate|].
      rewrite (array_multiply_mismatch a b (GExpr b) da db Va Vb eq_refl) in E by assumption. discriminate E. }
  exists d. split; [reflexivity|].
  assert (B : product_dims a b da db d).
  { unfold mul_dims in D. destruct (scalar_dims_spec da) as [X|N1]; [injection D as <-; left; auto|]. destruct (scalar_dims_spec db) as [X|N2]; [injection D as <-; right; left; auto|].
    destruct (Nat.eqb_spec (snd da) (fst db)) as [X|]; [|discriminate]. injection D as <-. right; right. auto. }
  destruct (product_pos a b da db d Va Vb B) as [D1 D2].
  assert (H : holds d (ka + kb) (fun i j r => product_value r a b (snd da) i j) e).
  { apply (den_holds d _ (plus_zero (product_exps a b))); [exact D1 | exact D2 | | intros f; exact (product_family ka kb a b da db pa pb f Ka Kb Ha Hb) | exact (multiply_rgood a b (GExpr b) da db d Va Vb eq_refl B e E)].
    intros ->. unfold mul_dims in D. destruct (scalar_dims_spec da) as [X|N1].
    - injection D as ->. specialize (Sa X). specialize (Sb eq_refl). destruct a; try destruct Sa. destruct b; try destruct Sb. exact (mul_scalars _ _ _ E).
    - destruct (scalar_dims_spec db) as [X|N2]; [injection D as ->; congruence|]. destruct (Nat.eqb_spec (snd da) (fst db)) as [X|]; [|discriminate].
      destruct da as [da1 n], db as [n' db2]. cbn [fst snd] in *. subst n'. injection D as -> ->. assert (Hn : 2 <= n). { destruct Va as (_ & Hn & _). cbn in Hn. destruct n as [|[|]]; [lia | congruence | lia]. }
      destruct a as [s|v|m]; [destruct (NSa eq_refl I)| |exact (row_times_column m b n e Hn Va Vb E)].
      pose proof (arr_EV_cols _ _ _ ltac:(apply Va) (valid_array_arr _ _ Va)) as X. cbn in X. lia. }
  destruct H as (H1 & H2 & H3 & H4). split; [exact H1|]. split; [exact H2|]. split; [exact H3|]. intros EX HU r i j Hi Hj. rewrite (H4 EX HU r i j Hi Hj).
  pose proof (holds_value da ka (ka + kb) pa a Ha ltac:(lia) EX HU r) as HVa. pose proof (holds_value db kb (ka + kb) pb b Hb ltac:(lia) EX HU r) as HVb.
  pose proof (holds_spread da ka (ka + kb) pa a Ha ltac:(lia) EX HU r i j) as HSa. pose proof (holds_spread db kb (ka + kb) pb b Hb ltac:(lia) EX HU r i j) as HSb.
  unfold mul_dims in D. destruct (scalar_dims da) eqn:Ca; [|destruct (scalar_dims db) eqn:Cb]; cbn [orb].
  - injection D as ->. rewrite <- HSa by discriminate. rewrite <- HSb by auto. assert (S : is_scalar a) by (apply Sa; destruct (scalar_dims_spec da); congruence). destruct a; try destruct S. reflexivity.
  - injection D as ->. rewrite <- HSa by auto. rewrite <- HSb by discriminate. assert (S : is_scalar b) by (apply Sb; destruct (scalar_dims_spec db); congruence). destruct b; try destruct S. destruct a; reflexivity.
  - destruct (Nat.eqb_spec (snd da) (fst db)) as [X|]; [|discriminate]. injection D as <-. cbn [fst snd] in Hi, Hj.
    specialize (NSa eq_refl). specialize (NSb eq_refl). transitivity (sum_to (fun k => value r a i k * value r b k j) (snd da)).
    + destruct a; [destruct NSa; exact I| |]; (destruct b; [destruct NSb; exact I| |]); reflexivity.
    + apply sum_to_ext. intros k Hk. rewrite HVa, HVb by (try assumption; lia). reflexivity.
Qed.

(** ** Powers *)

Lemma mat_npow_ext d v w n : (forall i j, i < d -> j < d -> v i j = w i j) -> forall i j, i < d -> j < d -> mat_npow d v n i j = mat_npow d w n i j.
Proof.
  intro H. induction n as [|n IH]; intros i j Hi Hj; cbn [mat_npow]; [reflexivity|]. apply sum_to_ext. intros k Hk. rewrite IH, H by assumption. reflexivity.
Qed.

Lemma power_family k e n f : (0 <= k)%Z -> (forall f, has_term e f -> T k f) -> power_exps e n f -> T (k * Z.of_nat n) f.
Proof.
  intros Hk He. revert f. induction n as [|n IH]; intros f H; cbn [power_exps] in H.
  - apply T_zero; [lia | exact H].
  - destruct H as [H|(g & h & Hg & Hh & E)].
    + apply (T_le (k * Z.of_nat n)); [lia | exact (IH f H)].
    + replace (k * Z.of_nat (S n))%Z with (k * Z.of_nat n + k)%Z by lia. exact (T_add _ _ g h f (IH g Hg) (He h Hh) E).
Qed.

Lemma power_loop_sden k s : (0 <= k)%Z -> valid s -> (forall f, has_term (ES s) f -> T k f) -> forall n c acc t,
  sden (T (k * Z.of_nat c)) (fun r => mat_npow 1 (fun _ _ => eval r s) c 0 0) acc -> power_loop s n acc = Ok t ->
  sden (T (k * Z.of_nat (n + c))) (fun r => mat_npow 1 (fun _ _ => eval r s) (n + c) 0 0) t.
Proof.
  intros Hk Vs Hs. induction n as [|n IH]; intros c acc t Ha E; cbn [power_loop] in E; [injection E as <-; exact Ha|].
  assert (Hb : sden (T k) (fun r => eval r s) s).
  { apply sden_self; [exact Vs|]. intros m Hm. exists (exponent m). split; [|reflexivity]. apply Hs. exists [s], s, m. split; [left; reflexivity|]. split; [left; reflexivity|]. split; [exact Hm | reflexivity]. }
  assert (Z1 : has_zero (T (k * Z.of_nat c))) by (exists (fun _ => 0%Z); split; [apply T_zero; [lia | reflexivity] | reflexivity]).
  assert (Z2 : has_zero (T k)) by (exists (fun _ => 0%Z); split; [apply T_zero; [lia | reflexivity] | reflexivity]).
  destruct (sden_mul _ _ _ _ acc s Z1 Z2 Ha Hb) as (u & Eu & Hu). rewrite Eu in E. cbn [bind] in E.
  replace (S n + c)%nat with (n + S c)%nat by lia. apply (IH (S c) u t); [|exact E].
  eapply sden_ext; [|eapply sden_sub; [|exact Hu]].
  - intros EX r. cbn [mat_npow sum_to]. symmetry. apply (Radd_0_l (F_R (@ex_field NN EX))).
  - intros f (g & h & Hg & Hh & Ef). replace (k * Z.of_nat (S c))%Z with (k * Z.of_nat c + k)%Z by lia. exact (T_add _ _ g h f Hg Hh Ef).
Qed.

Lemma power_holds d k phi a n e : (0 <= k)%Z -> holds d k phi a -> expr_power a (Z.of_nat n) = Ok e ->
  fst d = snd d /\ holds d (k * Z.of_nat n) (fun i j r => mat_npow (fst d) (fun i j => phi i j r) n i j) e.
Proof.
  intros Hk Ha E. pose proof Ha as (Va & Sa & Fa & _).
  assert (FIN : (exists m, d = (m, m) /\ holds d (k * Z.of_nat n) (fun i j r => mat_npow m (value r a) n i j) e) -> fst d = snd d /\ holds d (k * Z.of_nat n) (fun i j r => mat_npow (fst d) (fun i j => phi i j r) n i j) e).
  { intros (m & -> & H1 & H2 & H3 & H4). split; [reflexivity|]. split; [exact H1|]. split; [exact H2|]. split; [exact H3|]. intros EX HU r i j Hi Hj.
    rewrite (H4 EX HU r i j Hi Hj). cbn [fst snd] in *. destruct n as [|n]; [reflexivity|]. apply mat_npow_ext; [|exact Hi | exact Hj]. intros i' j' Hi' Hj'.
    apply (holds_value (m, m) k (k * Z.of_nat (S n)) phi a Ha); [lia | exact EX | exact HU | exact Hi' | exact Hj']. }
  destruct a as [s|v|m].
  - pose proof (valid_array_ES _ _ Va) as ->. apply FIN. exists 1%nat. split; [reflexivity|]. cbn [expr_power] in E. unfold as_ES in E.
    destruct (scalar_power s (Z.of_nat n)) as [t|] eqn:Et; [|discriminate]. cbn [bind] in E. injection E as <-.
    assert (Vs : valid s) by (destruct Va as (_ & _ & _ & H); apply (H 0%nat 0%nat); apply le_n).
    unfold scalar_power in Et. destruct (check (scalar_check s) PCheck); [|discriminate]. cbn [bind] in Et. destruct (check (0 <=? Z.of_nat n)%Z PNegExp); [|discriminate]. cbn [bind] in Et.
    rewrite Nat2Z.id in Et. apply (den_holds (1, 1)%nat _ (T (k * Z.of_nat n))); [apply le_n | apply le_n | intros _; exact I | auto|].
    apply (power_loop_sden k s Hk Vs Fa n 0 (SK n1) t) in Et.
    + rewrite Nat.add_0_r in Et. split; [reflexivity|]. intros i Hi. cbn [fst] in Hi. replace i with 0%nat by lia. exists [t]. split; [reflexivity|]. split; [reflexivity|].
      intros j Hj. cbn [snd] in Hj. replace j with 0%nat by lia. exists t. split; [reflexivity|]. eapply sden_ext; [|exact Et]. intros _ r. apply mat_npow_ext; try apply le_n.
      intros i' j' Hi' Hj'. replace i' with 0%nat by lia. replace j' with 0%nat by lia. reflexivity.
    + split; [exact I|]. split; [|reflexivity]. intros q [<-|[]]. exists (fun _ => 0%Z). split; [apply T_zero; [lia | reflexivity] | reflexivity].
  - exfalso. pose proof (arr_EV_cols _ _ _ ltac:(apply Va) (valid_array_arr _ _ Va)) as C. destruct d as [l c]. cbn in C. subst c.
    assert (N : l <> 1%nat) by (intros ->; destruct (Sa eq_refl)). rewrite (vector_power_length v l (Z.of_nat n) Va N ltac:(lia)) in E. discriminate E.
  - destruct (Nat.eq_dec (fst d) (snd d)) as [Q|Q].
    2:{ rewrite (array_power_not_square m d (Z.of_nat n) Va Q) in E. discriminate E. }
    destruct d as [l c]. cbn in Q. subst c. assert (L : 2 <= l). { destruct Va as (L & _). cbn in L. destruct l as [|[|]]; [lia | destruct (Sa eq_refl) | lia]. }
    apply FIN. exists l. split; [reflexivity|]. destruct (mat_power_ok l m (Z.of_nat n) L Va ltac:(lia)) as (p & Ep & Hp). cbn [expr_power] in E. rewrite Ep in E. injection E as <-.
    rewrite Nat2Z.id in Hp. apply (den_holds (l, l) _ (pow_family (EM m) n)); [cbn; lia | cbn; lia | intros [= ->]; lia | | exact Hp].
    intros f. apply plus_zero_family; [lia|]. intros g. apply power_family; assumption.
Qed.

(** ** Transpose, simplification *)

Lemma holds_in d k phi e row s : holds d k phi e -> In row (rows e) -> In s row -> forall m, In m (terms s) -> T k (exponent m).
Proof. intros (_ & _ & F & _) H1 H2 m Hm. apply F. exists row, s, m. split; [exact H1|]. split; [exact H2|]. split; [exact Hm | reflexivity]. Qed.

Lemma entry_of d e row s : shape d e -> In row (rows e) -> In s row -> exists i j, i < fst d /\ j < snd d /\ entry e i j = s.
Proof.
  intros [L H] H1 H2. apply In_nth_error in H1. destruct H1 as (i & Ei). apply In_nth_error in H2. destruct H2 as (j & Ej). exists i, j.
  split; [rewrite <- L; eapply nth_error_bound; exact Ei|]. split.
  - rewrite Forall_forall in H. rewrite <- (H row) by (eapply nth_error_In; exact Ei). eapply nth_error_bound; exact Ej.
  - unfold entry. rewrite (nth_error_nth_eq _ _ _ [] Ei), (nth_error_nth_eq _ _ _ _ Ej). reflexivity.
Qed.

Lemma transpose_holds d k phi a e : holds d k phi a -> expr_transpose a = Ok e -> holds (snd d, fst d) k (fun i j r => phi j i r) e.
Proof.
  intros Ha E. pose proof Ha as (Va & Sa & Fa & Ea). destruct (array_transpose d a Va) as (t & Et & Vt & Ht). rewrite E in Et. injection Et as <-.
  split; [exact Vt|]. split; [|split].
  - intros X. assert (D : d = (1, 1)%nat) by (destruct d; cbn in X; congruence). specialize (Sa D). destruct a; try destruct Sa. cbn [expr_transpose] in E.
    destruct (scalar_transpose s); [|discriminate]. injection E as <-. exact I.
  - intros f (row & s & m & H1 & H2 & H3 & H4). destruct (entry_of _ e row s ltac:(apply Vt) H1 H2) as (i & j & Hi & Hj & <-). cbn [fst snd] in Hi, Hj. rewrite (Ht i j Hi Hj) in H3.
    destruct (entry_in d a j i ltac:(apply Va) Hj Hi) as (row' & R1 & R2). apply Fa. exists row', (entry a j i), m. auto.
  - intros EX HU r i j Hi Hj. cbn [fst snd] in Hi, Hj. unfold value. rewrite (Ht i j Hi Hj). exact (Ea EX HU r j i Hj Hi).
Qed.

Lemma simplified_holds d k phi a e : (0 <= k)%Z -> holds d k phi a -> expr_simplified a = Ok e -> holds d k phi e.
Proof.
  intros Hk Ha E. pose proof Ha as (Va & Sa & Fa & Ea). pose proof Va as (D1 & D2 & _).
  assert (Z0 : has_zero (T k)) by (exists (fun _ => 0%Z); split; [apply T_zero; [lia | reflexivity] | reflexivity]).
  destruct (expr_simplified_arr d (T k) (fun i j r => value r a i j) a D1 D2 Z0 (valid_array_den d a (T k) Va Fa)) as (e' & E' & H). rewrite E in E'. injection E' as <-.
  assert (G : holds d k (fun i j r => value r a i j) e).
  { apply (den_holds d k (T k)); [exact D1 | exact D2 | | auto | exact H]. intros D. specialize (Sa D). pose proof (simplified_kind a e E) as K. destruct a; try destruct Sa. exact K. }
  destruct G as (H1 & H2 & H3 & H4). split; [exact H1|]. split; [exact H2|]. split; [exact H3|]. intros EX HU r i j Hi Hj. rewrite (H4 EX HU r i j Hi Hj). exact (Ea EX HU r i j Hi Hj).
Qed.

(** ** Stacking *)

Lemma same_terms_in l1 l2 s m : Forall2 same_terms l1 l2 -> In s l2 -> In m (terms s) -> exists s', In s' l1 /\ In m (terms s').
Proof.
  intros H Hs Hm. induction H as [|a b l1 l2 E H IH]; [destruct Hs|]. destruct Hs as [<-|Hs].
  - exists a. split; [left; reflexivity|]. unfold same_terms in E. rewrite <- E. exact Hm.
  - destruct (IH Hs) as (s' & H1 & H2). exists s'. split; [right; exact H1 | exact H2].
Qed.

Lemma hstack_holds da db ka kb pa pb a b e : holds da ka pa a -> holds db kb pb b -> hstack [a; b] = Ok e ->
  fst da = fst db /\ holds (fst da, snd da + snd db)%nat (Z.max ka kb) (fun i j r => if Nat.ltb j (snd da) then pa i j r else pb i (j - snd da)%nat r) e.
Proof.
  intros Ha Hb E. pose proof Ha as (Va & Sa & Fa & Ea). pose proof Hb as (Vb & Sb & Fb & Eb).
  assert (F2 : Forall2 valid_array [da; db] [a; b]) by (constructor; [exact Va | constructor; [exact Vb | constructor]]).
  destruct (Nat.eq_dec (fst da) (fst db)) as [Q|Q].
  2:{ rewrite (hstack_mismatch [da; db] [a; b] da db F2 (or_introl eq_refl) (or_intror (or_introl eq_refl)) Q) in E. discriminate E. }
  split; [exact Q|].
  assert (FD : Forall (fun d => fst d = fst da) [da; db]) by (constructor; [reflexivity | constructor; [congruence | constructor]]).
  destruct (hstack_spec (fst da) [da; db] [a; b] ltac:(discriminate) F2 FD) as (e' & E' & Ve & He). rewrite E in E'. injection E' as <-.
  cbn [map list_sum fold_right] in Ve. rewrite Nat.add_0_r in Ve. split; [exact Ve|]. split; [|split].
  - intros [= X Y]. destruct Va as (_ & A2 & _). destruct Vb as (_ & B2 & _). lia.
  - intros f (row & s & m & H1 & H2 & H3 & H4). apply In_nth_error in H1. destruct H1 as (i & Ei).
    assert (Hi : i < fst da). { destruct Ve as (_ & _ & [L _] & _). cbn in L. rewrite <- L. eapply nth_error_bound; exact Ei. }
    specialize (He i Hi). rewrite (nth_error_nth_eq _ _ _ [] Ei) in He. destruct (same_terms_in _ _ s m He H2 H3) as (s' & I1 & I2).
    unfold beside in I1. cbn [map concat] in I1. rewrite app_nil_r in I1. apply in_app_iff in I1. destruct I1 as [I1|I1].
    + apply (T_le ka); [lia|]. apply Fa. exists (nth i (rows a) []), s', m. split; [|auto]. apply nth_In. destruct Va as (_ & _ & [L _] & _). lia.
    + apply (T_le kb); [lia|]. apply Fb. exists (nth i (rows b) []), s', m. split; [|auto]. apply nth_In. destruct Vb as (_ & _ & [L _] & _). lia.
  - intros EX HU r i j Hi Hj. cbn [fst snd] in Hi, Hj. destruct (Nat.ltb_spec j (snd da)) as [L|L].
    + pose proof (hstack_entry (fst da) [da; db] [a; b] e 0 a i j EX F2 FD E eq_refl Hi L r) as X. cbn in X. rewrite X.
      exact (holds_value da ka (Z.max ka kb) pa a Ha ltac:(lia) EX HU r i j Hi L).
    + pose proof (hstack_entry (fst da) [da; db] [a; b] e 1 b i (j - snd da)%nat EX F2 FD E eq_refl Hi) as X. cbn [nth firstn map list_sum fold_right] in X.
      rewrite Nat.add_0_r in X. specialize (X ltac:(lia) r). replace (snd da + (j - snd da))%nat with j in X by lia. rewrite X.
      apply (holds_value db kb (Z.max ka kb) pb b Hb ltac:(lia) EX HU r i (j - snd da)%nat); lia.
Qed.

Lemma vstack_holds da db ka kb pa pb a b e : holds da ka pa a -> holds db kb pb b -> vstack [a; b] = Ok e ->
  snd da = snd db /\ holds (fst da + fst db, snd da)%nat (Z.max ka kb) (fun i j r => if Nat.ltb i (fst da) then pa i j r else pb (i - fst da)%nat j r) e.
Proof.
  intros Ha Hb E. pose proof Ha as (Va & Sa & Fa & Ea). pose proof Hb as (Vb & Sb & Fb & Eb).
  assert (F2 : Forall2 valid_array [da; db] [a; b]) by (constructor; [exact Va | constructor; [exact Vb | constructor]]).
  destruct (Nat.eq_dec (snd da) (snd db)) as [Q|Q].
  2:{ rewrite (vstack_mismatch [da; db] [a; b] da db F2 (or_introl eq_refl) (or_intror (or_introl eq_refl)) Q) in E. discriminate E. }
  split; [exact Q|].
  assert (FD : Forall (fun d => snd d = snd da) [da; db]) by (constructor; [reflexivity | constructor; [congruence | constructor]]).
  destruct (vstack_spec (snd da) [da; db] [a; b] ltac:(discriminate) F2 FD) as (e' & E' & Ve & He). rewrite E in E'. injection E' as <-.
  cbn [map list_sum fold_right] in Ve. rewrite Nat.add_0_r in Ve. split; [exact Ve|]. split; [|split].
  - intros [= X Y]. destruct Va as (A2 & _). destruct Vb as (B2 & _). lia.
  - intros f (row & s & m & H1 & H2 & H3 & H4). cbn [map concat] in He. rewrite app_nil_r in He.
    assert (G : exists row', In row' (rows a ++ rows b) /\ Forall2 same_terms row' row).
    { clear - He H1. induction He as [|x y l1 l2 R H IH]; [destruct H1|]. destruct H1 as [<-|H1]; [exists x; split; [left; reflexivity | exact R]|].
      destruct (IH H1) as (row' & I1 & I2). exists row'. split; [right; exact I1 | exact I2]. }
    destruct G as (row' & I1 & I2). destruct (same_terms_in _ _ s m I2 H2 H3) as (s' & J1 & J2). apply in_app_iff in I1. destruct I1 as [I1|I1].
    + apply (T_le ka); [lia|]. apply Fa. exists row', s', m. auto.
    + apply (T_le kb); [lia|]. apply Fb. exists row', s', m. auto.
  - intros EX HU r i j Hi Hj. cbn [fst snd] in Hi, Hj. destruct (Nat.ltb_spec i (fst da)) as [L|L].
    + pose proof (vstack_entry (snd da) [da; db] [a; b] e 0 a i j EX F2 FD E eq_refl L Hj r) as X. cbn in X. rewrite X.
      exact (holds_value da ka (Z.max ka kb) pa a Ha ltac:(lia) EX HU r i j L Hj).
    + pose proof (vstack_entry (snd da) [da; db] [a; b] e 1 b (i - fst da)%nat j EX F2 FD E eq_refl) as X. cbn [nth firstn map list_sum fold_right] in X.
      rewrite Nat.add_0_r in X. specialize (X ltac:(lia) Hj r). replace (fst da + (i - fst da))%nat with i in X by lia. rewrite X.
      apply (holds_value db kb (Z.max ka kb) pb b Hb ltac:(lia) EX HU r (i - fst da)%nat j); lia.
Qed.

(** ** Programs *)

Lemma fold_max_nonneg l : (0 <= fold_right Z.max 0 l)%Z.
Proof. induction l; cbn; lia. Qed.

Lemma adegree_nonneg p : (0 <= adegree p)%Z.
Proof. induction p; cbn [adegree]; try lia. apply fold_max_nonneg. Qed.

Lemma everywhere_here Q p : everywhere Q p -> Q p.
Proof. destruct p; cbn [everywhere]; intros [H _]; exact H. Qed.

Lemma arun_holds p e : proper_leaves p -> everywhere (fun q => match q with ALeaf e => forall f, has_term e f -> T (leaf_degree e) f | _ => True end) p ->
  arun p = Ok e -> exists d, adims p = Some d /\ holds d (adegree p) (fun i j r => meaning r p i j) e.
Proof.
  unfold proper_leaves. revert e. induction p as [l|a IHa b IHb|a IHa b IHb|a IHa b IHb|a IHa n|a IHa|a IHa|a IHa b IHb|a IHa b IHb]; intros e HL HT E; cbn [arun] in E; cbn [everywhere] in HL, HT.
  - injection E as <-. destruct HL as [[V S] _]. destruct HT as [HT _]. exists (leaf_dims l). split; [reflexivity|]. split; [exact V|]. split; [exact S|]. split; [exact HT|]. reflexivity.
  - destruct HL as (_ & La & Lb). destruct HT as (_ & Ta & Tb). destruct (arun a) as [x|]; [|discriminate]. cbn [bind] in E. destruct (arun b) as [y|]; [|discriminate]. cbn [bind] in E.
    destruct (IHa x La Ta eq_refl) as (da & Da & Ha). destruct (IHb y Lb Tb eq_refl) as (db & Db & Hb).
    destruct (plus_holds da db _ _ _ _ x y e (adegree_nonneg a) (adegree_nonneg b) Ha Hb E) as (d & D & H). exists d. cbn [adims adegree meaning]. unfold dims_of. rewrite Da, Db. split; [exact D | exact H].
  - destruct HL as (_ & La & Lb). destruct HT as (_ & Ta & Tb). destruct (arun a) as [x|]; [|discriminate]. cbn [bind] in E. destruct (arun b) as [y|]; [|discriminate]. cbn [bind] in E.
    destruct (IHa x La Ta eq_refl) as (da & Da & Ha). destruct (IHb y Lb Tb eq_refl) as (db & Db & Hb).
    destruct (minus_holds da db _ _ _ _ x y e (adegree_nonneg a) (adegree_nonneg b) Ha Hb E) as (d & D & H). exists d. cbn [adims adegree meaning]. unfold dims_of. rewrite Da, Db. split; [exact D | exact H].
  - destruct HL as (_ & La & Lb). destruct HT as (_ & Ta & Tb). destruct (arun a) as [x|]; [|discriminate]. cbn [bind] in E. destruct (arun b) as [y|]; [|discriminate]. cbn [bind] in E.
    destruct (IHa x La Ta eq_refl) as (da & Da & Ha). destruct (IHb y Lb Tb eq_refl) as (db & Db & Hb).
    destruct (times_holds da db _ _ _ _ x y e (adegree_nonneg a) (adegree_nonneg b) Ha Hb E) as (d & D & H). exists d. cbn [adims adegree meaning]. unfold dims_of. rewrite Da, Db. split; [exact D | exact H].
  - destruct HL as (_ & La). destruct HT as (_ & Ta). destruct (arun a) as [x|]; [|discriminate]. cbn [bind] in E. destruct (IHa x La Ta eq_refl) as (da & Da & Ha).
    destruct (power_holds da _ _ x n e (adegree_nonneg a) Ha E) as (Q & H). exists da. cbn [adims adegree meaning]. unfold dims_of. rewrite Da, Q, Nat.eqb_refl. split; [reflexivity|]. rewrite Q in H. exact H.
  - destruct HL as (_ & La). destruct HT as (_ & Ta). destruct (arun a) as [x|]; [|discriminate]. cbn [bind] in E. destruct (IHa x La Ta eq_refl) as (da & Da & Ha).
    exists (snd da, fst da). cbn [adims adegree meaning]. rewrite Da. split; [reflexivity|]. exact (transpose_holds da _ _ x e Ha E).
  - destruct HL as (_ & La). destruct HT as (_ & Ta). destruct (arun a) as [x|]; [|discriminate]. cbn [bind] in E. destruct (IHa x La Ta eq_refl) as (da & Da & Ha).
    exists da. cbn [adims adegree meaning]. rewrite Da. split; [reflexivity|]. exact (simplified_holds da _ _ x e (adegree_nonneg a) Ha E).
  - destruct HL as (_ & La & Lb). destruct HT as (_ & Ta & Tb). destruct (arun a) as [x|]; [|discriminate]. cbn [bind] in E. destruct (arun b) as [y|]; [|discriminate]. cbn [bind] in E.
    destruct (IHa x La Ta eq_refl) as (da & Da & Ha). destruct (IHb y Lb Tb eq_refl) as (db & Db & Hb).
    destruct (hstack_holds da db _ _ _ _ x y e Ha Hb E) as (Q & H). exists (fst da, snd da + snd db)%nat. cbn [adims adegree meaning]. unfold dims_of. rewrite Da, Db. cbn [both].
    rewrite Q, Nat.eqb_refl. split; [reflexivity|]. rewrite Q in H. exact H.
  - destruct HL as (_ & La & Lb). destruct HT as (_ & Ta & Tb). destruct (arun a) as [x|]; [|discriminate]. cbn [bind] in E. destruct (arun b) as [y|]; [|discriminate]. cbn [bind] in E.
    destruct (IHa x La Ta eq_refl) as (da & Da & Ha). destruct (IHb y Lb Tb eq_refl) as (db & Db & Hb).
    destruct (vstack_holds da db _ _ _ _ x y e Ha Hb E) as (Q & H). exists (fst da + fst db, snd da)%nat. cbn [adims adegree meaning]. unfold dims_of. rewrite Da, Db. cbn [both].
    rewrite Q, Nat.eqb_refl. split; [reflexivity|]. rewrite Q in H. exact H.
Qed.

End AProgProofs.
