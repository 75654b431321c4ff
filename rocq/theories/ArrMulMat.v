(** * Multiply on matrices *)

From Coq Require Import ZArith NArith Bool List Lia Ring Field.
From Verif Require Import Num Syntax ModelScalar Spec Base ScalarValid Eval ScalarOps ScalarMore ModelShape ModelArith SpecArr Arr ArrPlus ArrMul.
Import ListNotations.
Local Open Scope num_scope.

Lemma fold_left_nth {A B} (g : A -> B -> A) (l : list B) acc (I : nat -> A -> Prop) :
  (forall k b acc, nth_error l k = Some b -> I k acc -> I (S k) (g acc b)) -> I 0 acc -> I (length l) (fold_left g l acc).
Proof.
  revert acc I. induction l as [|b l IH]; intros acc I H H0; [exact H0|]. cbn [fold_left length].
  apply (IH (g acc b) (fun k => I (S k))); [|exact (H 0 b acc eq_refl H0)]. intros k b' a Hb Ha. exact (H (S k) b' a Hb Ha).
Qed.

Section ArrMulMat.
Context {NN : Num}.

Local Notation den d F phi := (arr d (fun i j => sden F (phi i j))) (only parsing).

Lemma sum_to_ext f g n : (forall i, i < n -> f i = g i) -> sum_to f n = sum_to g n.
Proof.
  induction n as [|n IH]; intro H; cbn; [reflexivity|]. rewrite IH, (H n) by (intros; try apply H; lia). reflexivity.
Qed.

Lemma sum_products_sum_to a b n : length a = n -> length b = n -> sum_products a b = sum_to (fun l => nth l a n0 * nth l b n0) n.
Proof.
  intros La Lb. unfold sum_products.
  assert (L : length (combine a b) = n) by (rewrite combine_length; lia). rewrite <- L at 1.
  apply (fold_left_nth _ (combine a b) n0 (fun k acc => acc = sum_to (fun l => nth l a n0 * nth l b n0) k)); [|reflexivity].
  intros k [x y] acc E ->. rewrite nth_error_combine in E.
  destruct (nth_error a k) as [x'|] eqn:Ex; [|discriminate]. destruct (nth_error b k) as [y'|] eqn:Ey; [|discriminate]. injection E as -> ->. cbn.
  rewrite (nth_error_nth_eq _ _ _ n0 Ex), (nth_error_nth_eq _ _ _ n0 Ey). reflexivity.
Qed.

Variables A B H : (N -> Z) -> Prop.
Hypothesis HZ : has_zero H.
Hypothesis HP : forall f g h, A g -> B h -> (forall i, f i = (g i + h i)%Z) -> H f.

Local Notation cA := (cden A H) (only parsing).
Local Notation cB := (cden B H) (only parsing).
Local Notation arrA d phi := (arr d (fun i j => cden A H (phi i j))) (only parsing).
Local Notation arrB d phi := (arr d (fun i j => cden B H (phi i j))) (only parsing).

(** a number known to be [phi] *)
Lemma sden_num phi k : (ExactNum NN -> unambiguous_exponents H -> forall r, k = phi r) -> sden H phi (SK k).
Proof. intro E. destruct (sden_const H k HZ) as (V & W & _). split; [exact V|]. split; [exact W|]. intros EX HU r. exact (E EX HU r). Qed.

(** ** The template *)

Lemma mat_mul_entry_good da db phi psi m r i j : 1 <= fst da -> 1 <= snd da -> 1 <= fst db -> 1 <= snd db -> snd da = fst db ->
  arrA da phi (EM m) -> arrB db psi (EM r) -> i < fst da -> j < snd db ->
  exists s, mat_mul_entry m r (snd da) i j = Ok s /\ sden H (prod phi psi (snd da) i j) s.
Proof.
  intros A1 A2 B1 B2 E Hm Hr Hi Hj. apply arr_EM in Hm. apply arr_EM in Hr. unfold mat_mul_entry.
  match goal with |- context [foldM ?g _ _] =>
    destruct (foldM_nth g (seq 0 (snd da)) (SK n0) (fun k acc => sden H (prod phi psi k i j) acc)) as (out & -> & Ho)
  end.
  - intros k b acc Hk Ha. assert (Hk' : k < snd da) by (apply nth_error_bound in Hk; rewrite seq_length in Hk; exact Hk).
    rewrite nth_error_seq_at in Hk by exact Hk'. injection Hk as <-. cbn [Nat.add].
    destruct (mat_get_grid da _ m i k A1 A2 (cden_valid A H phi) Hm Hi Hk') as (a & -> & Sa). cbn [bind].
    destruct (mat_get_grid db _ r k j B1 B2 (cden_valid B H psi) Hr) as (b & -> & Sb); [lia | exact Hj|]. cbn [bind].
    destruct (mul_den A B H HZ HP _ _ a b Sa Sb) as (t & -> & Ht). cbn [bind].
    destruct (sden_plus H _ _ acc t HZ Ha Ht) as (s & E1 & Hs). exists s. split; [exact E1 | exact Hs].
  - exact (sden_const H n0 HZ).
  - cbn [bind]. rewrite seq_length in Ho. exact (sden_simplified H _ out HZ Ho).
Qed.

Lemma rows_seq_good d phi (f : nat -> nat -> res scalar) : 1 <= fst d -> 1 <= snd d ->
  (forall i j, i < fst d -> j < snd d -> exists s, f i j = Ok s /\ sden H (phi i j) s) ->
  good d H phi (l <- mapM (fun i => mapM (f i) (seq 0 (snd d))) (seq 0 (fst d)) ;; concretize_rows l).
Proof.
  intros D1 D2 Hf. destruct (mapM_seq (fun i => mapM (f i) (seq 0 (snd d))) (fst d) (fun i => col (snd d) (fun j => sden H (phi i j)))) as (l & -> & L & Hl).
  - intros i Hi. destruct (mapM_seq (f i) (snd d) (fun j => sden H (phi i j))) as (row & Er & Lr & Hrow); [intros j Hj; apply Hf; assumption|].
    exists row. split; [exact Er|]. split; assumption.
  - cbn [bind]. apply concretize_rows_good; try assumption. split; assumption.
Qed.

Lemma mat_mul_template_good da db phi psi m r : 1 <= fst da -> 1 <= snd da -> 1 <= fst db -> 1 <= snd db -> snd da = fst db ->
  arrA da phi (EM m) -> arrB db psi (EM r) -> good (fst da, snd db) H (prod phi psi (snd da)) (mat_mul_template m r).
Proof.
  intros A1 A2 B1 B2 E Hm Hr. pose proof (proj1 (arr_EM _ _ _) Hm) as Gm. pose proof (proj1 (arr_EM _ _ _) Hr) as Gr. unfold mat_mul_template.
  rewrite (mat_check_grid da _ m A1 (cden_valid A H phi) Gm), (mat_check_grid db _ r B1 (cden_valid B H psi) Gr). cbn [check bind].
  rewrite (mat_dims_grid da _ m A1 (cden_valid A H phi) Gm), (mat_dims_grid db _ r B1 (cden_valid B H psi) Gr). cbn [bind].
  rewrite E, Nat.eqb_refl. cbn [check bind]. rewrite <- E.
  apply (rows_seq_good (fst da, snd db) (prod phi psi (snd da))); [exact A1 | exact B2|]. intros i j Hi Hj.
  apply (mat_mul_entry_good da db); assumption.
Qed.

(** the operand check of a matrix *)
Lemma mat_operand da db phi psi m g b : 1 <= fst da -> 1 <= snd da -> arrA da phi (EM m) -> means g = Some b -> 1 <= fst db -> 1 <= snd db ->
  arrB db psi b -> dims_mul da db = true -> operand_check dims_mul (mat_dims m) g = Ok tt.
Proof.
  intros A1 A2 Hm Hg B1 B2 Hb D. apply arr_EM in Hm.
  apply (operand_mul B H dims_mul _ da g b db psi (mat_dims_grid da _ m A1 (cden_valid A H phi) Hm) Hg B1 B2 Hb D).
Qed.

(** ** KMatrix *)

Lemma k_mat_mul_float_good d phi psi l f : 1 <= fst d -> 1 <= snd d -> arrA d phi (EM (MK l)) -> cB psi (SK f) ->
  good d H (fun i j r => phi i j r * psi r) (k_mat_mul_float l f).
Proof.
  intros D1 D2 Hl (_ & _ & Ef). apply arr_EM in Hl. cbn [mat_rows] in Hl. apply grid_map in Hl. unfold k_mat_mul_float.
  rewrite (k_to_dense_grid d _ l D1 D2 Hl). cbn [bind]. eexists. split; [reflexivity|]. apply arr_EM. cbn [mat_rows]. apply grid_map, grid_map.
  eapply col_impl; [|exact Hl]. intros i row _. apply col_impl. intros j k _ (_ & _ & Ek). apply sden_num. intros EX HU r.
  rewrite <- (Ef EX HU r), <- (Ek EX HU r). apply (Rmul_comm (F_R (@ex_field NN EX))).
Qed.

Lemma k_mat_mul_poly_good d phi psi l p : 1 <= fst d -> 1 <= snd d -> arrA d phi (EM (MK l)) -> cB psi (SP p) ->
  good d H (fun i j r => phi i j r * psi r) (k_mat_mul_poly l p).
Proof.
  intros D1 D2 Hl Hp. apply arr_EM in Hl. cbn [mat_rows] in Hl. apply grid_map in Hl. unfold k_mat_mul_poly.
  rewrite (rows_dims_grid d _ l D1 Hl). cbn [bind].
  apply (rows_seq_good d (fun i j r => phi i j r * psi r) (fun i j => r <- index l i ;; k <- index r j ;; poly_mul_poly (k_to_poly k) p)); try assumption.
  intros i j Hi Hj. destruct (rows_index_grid d _ l i j Hl Hi Hj) as (k & _ & Hk & row & E1 & E2).
  rewrite (index_nth _ _ _ E1). cbn [bind]. rewrite (index_nth _ _ _ E2). cbn [bind].
  apply (mul_den A B H HZ HP _ _ (SP (k_to_poly k)) (SP p)); [|exact Hp]. apply (cden_terms A H _ (SK k)); [reflexivity | exact Hk].
Qed.

(** sums of products of numbers *)
Lemma sum_products_good n phi psi i j (a b : list num) :
  col n (fun l k => cA (phi i l) (SK k)) a -> col n (fun l k => cB (psi l j) (SK k)) b -> sden H (prod phi psi n i j) (SK (sum_products a b)).
Proof.
  intros [La Ha] [Lb Hb]. apply sden_num. intros EX HU r. rewrite (sum_products_sum_to a b n La Lb). unfold prod. apply sum_to_ext.
  intros l Hl. destruct (Ha l Hl) as (x & Ex & _ & _ & Vx). destruct (Hb l Hl) as (y & Ey & _ & _ & Vy).
  rewrite (nth_error_nth_eq _ _ _ n0 Ex), (nth_error_nth_eq _ _ _ n0 Ey). rewrite <- (Vx EX HU r), <- (Vy EX HU r). reflexivity.
Qed.

Lemma k_mat_mul_vec_good d phi psi l x : 1 <= fst d -> 1 <= snd d -> arrA d phi (EM (MK l)) -> arrB (snd d, 1) psi (EV (VK x)) ->
  good (fst d, 1) H (prod phi psi (snd d)) (k_mat_mul_vec l x).
Proof.
  intros D1 D2 Hl Hx. apply arr_EM in Hl. cbn [mat_rows] in Hl. apply grid_map in Hl.
  apply arr_EV in Hx. cbn [vec_entries] in Hx. apply col_map in Hx. unfold k_mat_mul_vec.
  rewrite (k_to_dense_grid d _ l D1 D2 Hl). cbn [bind]. unfold dense_mul_vec. rewrite (rows_dims_grid d _ l D1 Hl). cbn [bind].
  destruct Hx as [Lx Hx]. rewrite Lx, Nat.eqb_refl. cbn [check bind].
  assert (G : arr (fst d, 1) (fun i j => sden H (prod phi psi (snd d) i j)) (EV (VK (map (fun r => sum_products r x) l)))).
  { apply arr_EV. cbn [vec_entries]. apply col_map, col_map. eapply col_impl; [|exact Hl]. intros i row _ Hrow.
    apply sum_products_good; [exact Hrow|]. split; [exact Lx | exact Hx]. }
  destruct (map (fun r => sum_products r x) l) as [|k [|k' y]] eqn:Ey; cbn [good]; eexists; (split; [reflexivity|]); try exact G.
Qed.

Lemma k_mat_mul_dense_good d db phi psi l b : 1 <= fst d -> 1 <= snd d -> 1 <= fst db -> 1 <= snd db -> snd d = fst db ->
  arrA d phi (EM (MK l)) -> arrB db psi (EM (MK b)) -> good (fst d, snd db) H (prod phi psi (snd d)) (k_mat_mul_dense l b).
Proof.
  intros D1 D2 B1 B2 E Hl Hb. apply arr_EM in Hl. cbn [mat_rows] in Hl. apply grid_map in Hl.
  apply arr_EM in Hb. cbn [mat_rows] in Hb. apply grid_map in Hb. unfold k_mat_mul_dense.
  rewrite (k_to_dense_grid d _ l D1 D2 Hl). cbn [bind]. unfold dense_mul.
  rewrite (rows_dims_grid d _ l D1 Hl), (rows_dims_grid db _ b B1 Hb). cbn [bind]. rewrite E, Nat.eqb_refl. cbn [check bind]. rewrite <- E.
  unfold transpose_rows.
  destruct (mapM_seq (fun j => mapM (fun r => index r j) b) (snd db) (fun j => col (fst db) (fun l k => cB (psi l j) (SK k)))) as (bt & -> & Lt & Ht).
  { intros j Hj. destruct (mapM_col (fst db) (fun i => col (snd db) (fun j b => cB (psi i j) (SK b))) (fun i k => cB (psi i j) (SK k)) (fun r => index r j) b) as (c & Ec & Hc).
    - intros i row Hi [_ Hrow]. destruct (Hrow j Hj) as (k & Ek & Hk). exists k. split; [apply index_nth; exact Ek | exact Hk].
    - exact Hb.
    - exists c. auto. }
  cbn [bind].
  assert (Gt : grid (fst d, snd db) (fun i j k => sden H (prod phi psi (snd d) i j) (SK k)) (map (fun r => map (sum_products r) bt) l)).
  { unfold grid. cbn [fst snd]. apply col_map. eapply col_impl; [|exact Hl]. intros i row _ Hrow. apply col_map. split; [exact Lt|].
    intros j Hj. destruct (Ht j Hj) as (c & Ec & Hc). exists c. split; [exact Ec|]. apply sum_products_good; [exact Hrow | rewrite E; exact Hc]. }
  set (y := map (fun r => map (sum_products r) bt) l) in *. clearbody y.
  assert (Ga : den (fst d, snd db) H (prod phi psi (snd d)) (EM (MK y))) by (apply arr_EM; cbn [mat_rows]; apply grid_map; exact Gt).
  assert (GC : good (fst d, snd db) H (prod phi psi (snd d))
    (dd <- rows_dims y ;; if Nat.eqb (snd dd) 1 then c <- mapM (fun r => index r 0) y ;; Ok (EV (VK c)) else Ok (EM (MK y)))).
  { rewrite (rows_dims_grid (fst d, snd db) _ y D1 Gt). cbn [bind snd]. destruct (Nat.eqb_spec (snd db) 1) as [E1|_].
    - rewrite E1 in Gt. destruct (mapM_col (fst d) _ (fun i k => sden H (prod phi psi (snd d) i 0) (SK k)) (fun r => index r 0) y
        (fun i row _ Hrow => match proj2 Hrow 0 (le_n 1) with ex_intro _ k (conj Ek Hk) => ex_intro _ k (conj (index_nth _ _ _ Ek) Hk) end) Gt) as (c & -> & Hc).
      cbn [bind]. eexists. split; [reflexivity|]. rewrite E1. apply arr_EV. cbn [vec_entries]. apply col_map. exact Hc.
    - eexists. split; [reflexivity | exact Ga]. }
  destruct y as [|[|k [|k' row]] [|row' y']]; try exact GC.
  eexists. split; [reflexivity | exact Ga].
Qed.

(** ** Accumulating expressions *)

Lemma as_ES_not_matrix x e : as_ES x = Ok e -> not_matrix e.
Proof. unfold as_ES. destruct x; [|discriminate]. intros [= <-]. exact I. Qed.

(** an array that is a slice: a scalar or a vector of length at least two *)
Definition slice (n : nat) phi e : Prop := den (n, 1) H phi e /\ not_matrix e /\ (n = 1 -> is_scalar e).

Lemma concretize_slice_slice n phi l e : 1 <= n -> col n (fun i => sden H (phi i 0)) l -> concretize_slice l = Ok e -> slice n phi e.
Proof.
  intros Hn Hl E. destruct (concretize_slice_good H n phi l Hn Hl) as (e' & E' & He). rewrite E in E'. injection E' as <-.
  split; [exact He|]. split; [exact (concretize_slice_not_matrix _ _ E)|]. intros ->.
  destruct (concretize_vector_arr 1 (fun i j => sden H (phi i j)) l Hn (sden_by_terms H phi) Hl) as (v & Ev & Hv). unfold concretize_slice in E. rewrite Ev in E. cbn [bind] in E.
  rewrite (vec_dims_col 1 _ v Hn (den_valid0 H phi) (proj1 (arr_EV _ _ _) Hv)) in E. cbn [bind fst Nat.eqb] in E.
  destruct (vec_at v 0 0); [|discriminate]. cbn in E. injection E as <-. exact I.
Qed.

Lemma simplify_slice n phi e : 1 <= n -> slice n phi e -> exists e', expr_simplified e = Ok e' /\ slice n phi e'.
Proof.
  intros Hn (He & NM & IS). destruct (expr_simplified_arr (n, 1) H phi e Hn (le_n 1) HZ He) as (e' & E & He').
  exists e'. split; [exact E|]. split; [exact He'|]. pose proof (simplified_kind e e' E) as K. destruct e as [s|v|m]; [| |destruct NM].
  - destruct e'; try destruct K. split; [exact I|]. intros _. exact I.
  - destruct e'; try destruct K. split; [exact I|]. exact IS.
Qed.

Definition sgood (n : nat) phi (x : res expr) : Prop := exists e, x = Ok e /\ slice n phi e.

Lemma sgood_simplify n phi x : 1 <= n -> sgood n phi x -> sgood n phi (simplify_result x).
Proof. intros Hn (e & -> & He). cbn [simplify_result bind]. exact (simplify_slice n phi e Hn He). Qed.

Lemma sgood_good n phi x : sgood n phi x -> good (n, 1) H phi x.
Proof. intros (e & E & He & _). exists e. auto. Qed.

Lemma vec_mul_template_sgood n phi psi v s : 1 <= n -> arrA (n, 1) phi (EV v) -> cB psi s ->
  sgood n (fun i j r => phi i j r * psi r) (vec_mul_template v s).
Proof.
  intros Hn Hv Hs. apply arr_EV in Hv. unfold vec_mul_template.
  destruct (mapM_col n _ (fun i => sden H (fun r => phi i 0 r * psi r)) (fun a => scalar_mul a s) _ (fun i a _ Ha => mul_den A B H HZ HP _ _ a s Ha Hs) Hv) as (l & -> & Hl).
  cbn [bind]. destruct (concretize_slice_good H n (fun i j r => phi i j r * psi r) l Hn Hl) as (e & E & _). exists e. split; [exact E|].
  apply (concretize_slice_slice n _ l); assumption.
Qed.

Lemma vec_mul_var_sgood n phi psi v x : 1 <= n -> arrA (n, 1) phi (EV (VV v)) -> cB psi (SV x) ->
  sgood n (fun i j r => phi i j r * psi r) (vec_mul (VV v) (GExpr (ES (SV x)))).
Proof.
  intros Hn Hv Hx. pose proof (proj1 (arr_EV _ _ _) Hv) as Hv'. pose proof (vec_dims_col n _ _ Hn (cden_valid0 A H phi) Hv') as Ed.
  unfold vec_mul. rewrite (vec_check_col n _ _ Hn (cden_valid0 A H phi) Hv'). cbn [check bind].
  rewrite (operand_scalar dims_mul _ (n, 1) (SV x) Ed (proj1 Hx) (dims_mul_l _)). cbn [bind].
  unfold vec_mul_scalar. rewrite (vec_check_col n _ _ Hn (cden_valid0 A H phi) Hv'). cbn [check bind].
  rewrite (operand_scalar dims_mul _ (n, 1) (SV x) Ed (proj1 Hx) (dims_mul_l _)). cbn [bind].
  apply sgood_simplify; [exact Hn|]. apply vec_mul_template_sgood; assumption.
Qed.

(** slices of the same length are added as slices *)
Lemma plus_slice n phi psi a b : 1 <= n -> slice n phi a -> slice n psi b -> sgood n (fun i j r => phi i j r + psi i j r) (expr_plus a (GExpr b)).
Proof.
  intros Hn (Ha & Na & Sa) (Hb & Nb & Sb). destruct a as [a|v|m]; [| |destruct Na].
  - pose proof (arr_ES_dims (n, 1) _ _ Hn Ha) as E. injection E as ->. specialize (Sb eq_refl). destruct b as [b| |]; try destruct Sb.
    assert (G : good (1, 1) H (fun i j r => bphi (ES a) phi i j r + bphi (ES b) psi i j r) (expr_plus (ES a) (GExpr (ES b)))).
    { apply (expr_plus_good H HZ (1, 1) (1, 1) (1, 1)); try assumption; try exact (le_n 1); [reflexivity | left; auto | destruct a; reflexivity | destruct a; reflexivity]. }
    destruct G as (e & E & He).
    exists e. split; [exact E|]. assert (is_scalar e) by (clear - E; destruct a; cbn [expr_plus] in E; unfold k_plus_any, var_plus_any, mono_plus_any, poly_plus_any in E;
      repeat match type of E with bind ?x _ = Ok _ => destruct x; [cbn [bind] in E | discriminate E] end;
      (unfold as_ES in E; match type of E with bind ?x _ = _ => destruct x; [injection E as <-; exact I | discriminate E] end)).
    split; [eapply arr_impl; [|exact He]; intros i j s Hi Hj Hs; cbn in Hi, Hj; replace i with 0 by lia; replace j with 0 by lia; exact Hs|].
    split; [destruct e; try exact I; assumption | intros _; assumption].
  - assert (n <> 1). { intros ->. destruct (Sa eq_refl). } destruct b as [b|w|]; [| |destruct Nb].
    { pose proof (arr_ES_dims (n, 1) _ _ Hn Hb) as E. injection E as ->. congruence. }
    assert (G : good (n, 1) H (fun i j r => bphi (EV v) phi i j r + bphi (EV w) psi i j r) (expr_plus (EV v) (GExpr (EV w)))).
    { apply (expr_plus_good H HZ (n, 1) (n, 1) (n, 1)); try assumption; try exact (le_n 1); [reflexivity | left; auto | destruct v; reflexivity | reflexivity]. }
    destruct G as (e & E & He).
    exists e. split; [exact E|]. split; [exact He|]. split; [exact (vec_plus_not_matrix _ _ _ E) | congruence].
Qed.

Lemma mapM_column {T} d (P : nat -> nat -> T -> Prop) (l : list (list T)) c : grid d P l -> c < snd d ->
  exists out, mapM (fun r => index r c) l = Ok out /\ col (fst d) (fun i => P i c) out.
Proof.
  intros Hl Hc. apply (mapM_col (fst d) (fun i => col (snd d) (P i)) (fun i => P i c) (fun r => index r c) l); [|exact Hl].
  intros i row _ [_ Hrow]. destruct (Hrow c Hc) as (t & Et & Ht). exists t. split; [apply index_nth; exact Et | exact Ht].
Qed.

Lemma zeros_vector_ok n : 1 <= n -> zeros_vector n = Ok (repeat n0 n).
Proof. intro Hn. destruct n; [lia | reflexivity]. Qed.

Lemma slice_zero n : 2 <= n -> slice n (fun _ _ _ => n0) (EV (VK (repeat n0 n))).
Proof.
  intro Hn. split; [|split; [exact I | lia]]. apply arr_EV. cbn [vec_entries]. apply col_map. split; [apply repeat_length|].
  intros i Hi. exists n0. split; [|exact (sden_const H n0 HZ)].
  rewrite (nth_error_nth' _ n0) by (rewrite repeat_length; exact Hi). f_equal. apply nth_repeat_lt. exact Hi.
Qed.

End ArrMulMat.

Section ArrMulMat2.
Context {NN : Num}.
Variables A B H : (N -> Z) -> Prop.
Hypothesis HZ : has_zero H.
Hypothesis HP : forall f g h, A g -> B h -> (forall i, f i = (g i + h i)%Z) -> H f.

Lemma HPs : forall f g h, B g -> A h -> (forall i, f i = (g i + h i)%Z) -> H f.
Proof. intros f g h Hg Hh E. apply (HP f h g Hh Hg). intro i. rewrite E. lia. Qed.

Local Notation den d F phi := (arr d (fun i j => sden F (phi i j))) (only parsing).
Local Notation cA := (cden A H) (only parsing).
Local Notation cB := (cden B H) (only parsing).
Local Notation arrA d phi := (arr d (fun i j => cden A H (phi i j))) (only parsing).
Local Notation arrB d phi := (arr d (fun i j => cden B H (phi i j))) (only parsing).

Lemma good_mul_comm d phi psi x : good d H (fun i j r => phi i j r * psi i j r) x -> good d H (fun i j r => psi i j r * phi i j r) x.
Proof. apply good_ext. intros EX i j r. apply (Rmul_comm (F_R (@ex_field NN EX))). Qed.

Lemma sgood_ext n phi psi x : (ExactNum NN -> forall i j r, phi i j r = psi i j r) -> sgood H n phi x -> sgood H n psi x.
Proof.
  intros E (e & Ee & He & K). exists e. split; [exact Ee|]. split; [|exact K]. eapply arr_impl; [|exact He]. intros i j s _ _. apply sden_ext.
  intros EX r. apply E. exact EX.
Qed.

(** Variable.Multiply on a vector *)
Lemma var_mul_vec_sgood n phi psi x v : 1 <= n -> cA psi (SV x) -> arrB (n, 1) phi (EV v) ->
  sgood H n (fun i j r => psi r * phi i j r) (var_mul_vec x v).
Proof.
  intros Hn Hx Hv. pose proof (proj1 (arr_EV _ _ _) Hv) as Hv'. unfold var_mul_vec.
  rewrite (proj2 (var_check_valid x) (proj1 Hx)). cbn [check bind].
  rewrite (operand_check_ok dims_mul (Ok (1, 1)) (1, 1) (GExpr (EV v)) (EV v) (n, 1) _ eq_refl eq_refl Hn (le_n 1) (cden_valid B H phi) Hv (dims_mul_r _)).
  cbn [bind]. apply (sgood_ext n (fun i j r => phi i j r * psi r)); [intros EX i j r; apply (Rmul_comm (F_R (@ex_field NN EX)))|].
  apply sgood_simplify; [exact HZ | exact Hn|]. apply (vec_mul_template_sgood B A H HZ HPs); assumption.
Qed.

End ArrMulMat2.

Section ArrMulMat3.
Context {NN : Num}.
Variables A B H : (N -> Z) -> Prop.
Hypothesis HZ : has_zero H.
Hypothesis HP : forall f g h, A g -> B h -> (forall i, f i = (g i + h i)%Z) -> H f.

Local Notation den d F phi := (arr d (fun i j => sden F (phi i j))) (only parsing).
Local Notation cA := (cden A H) (only parsing).
Local Notation cB := (cden B H) (only parsing).
Local Notation arrA d phi := (arr d (fun i j => cden A H (phi i j))) (only parsing).
Local Notation arrB d phi := (arr d (fun i j => cden B H (phi i j))) (only parsing).

(** a row times a column of variables, scalar by scalar *)
Lemma row_vars_fold {T} n phi psi i (f : T -> scalar) (row : list T) (xs : list var) (g : scalar -> nat * var -> res scalar) :
  col n (fun l t => cA (phi i l) (f t)) row -> col n (fun l x => cB (psi l 0) (SV x)) xs ->
  (forall acc l x t a, nth_error row l = Some a -> nth_error xs l = Some x -> (exists s, scalar_plus acc t = Ok s /\ sden H (prod phi psi (S l) i 0) s) ->
     (scalar_mul (SV x) (f a) = Ok t) -> exists s, g acc (l, x) = Ok s /\ sden H (prod phi psi (S l) i 0) s) ->
  exists s, foldM g (SK n0) (enum xs) = Ok s /\ sden H (prod phi psi n i 0) s.
Proof.
  intros [Lr Hr] [Lx Hx] Hg.
  destruct (foldM_nth g (enum xs) (SK n0) (fun k acc => sden H (prod phi psi k i 0) acc)) as (out & E & Ho).
  - intros k cx acc Ek Ha. assert (Hk : k < n) by (apply nth_error_bound in Ek; rewrite enum_length in Ek; lia).
    destruct (Hr k Hk) as (t & Et & Ht). destruct (Hx k Hk) as (x & Ex & Sx).
    apply nth_error_enum in Ek. destruct cx as [k' x']. cbn in Ek. destruct Ek as [-> Ek]. rewrite Ex in Ek. injection Ek as <-.
    destruct (mul_den_swap A B H HZ HP _ _ (f t) (SV x) Ht Sx) as (p & Ep & Hp).
    apply (Hg acc k x p t Et Ex); [exact (sden_plus H _ _ acc p HZ Ha Hp) | exact Ep].
  - exact (sden_const H n0 HZ).
  - exists out. split; [exact E|]. rewrite enum_length, Lx in Ho. exact Ho.
Qed.

Lemma good_row n phi psi (x : res scalar) : (exists s, x = Ok s /\ sden H (prod phi psi n 0 0) s) -> good (1, 1) H (prod phi psi n) (as_ES x).
Proof. intros (s & -> & Hs). exists (ES s). split; [reflexivity|]. apply arr_ES. exact Hs. Qed.

Lemma k_mat_mul_vars_good d phi psi l xs : 1 <= fst d -> 1 <= snd d -> arrA d phi (EM (MK l)) -> arrB (snd d, 1) psi (EV (VV xs)) ->
  good (fst d, 1) H (prod phi psi (snd d)) (k_mat_mul_vars l xs).
Proof.
  intros D1 D2 Hl Hx. apply arr_EM in Hl. cbn [mat_rows] in Hl. apply grid_map in Hl.
  apply arr_EV in Hx. cbn [vec_entries] in Hx. apply col_map in Hx. unfold k_mat_mul_vars. rewrite (rows_dims_grid d _ l D1 Hl). cbn [bind].
  destruct (Nat.eqb_spec (fst d) 1) as [E1|E1].
  - rewrite E1. apply good_row. destruct (proj2 Hl 0 D1) as (row & Er & Hrow).
    apply (row_vars_fold (snd d) phi psi 0 SK row xs); [exact Hrow | exact Hx|].
    intros acc k x t a Ea Ex (s & Es & Hs) Em. cbn [fst snd]. rewrite (index_nth _ _ _ Er). cbn [bind]. rewrite (index_nth _ _ _ Ea). cbn [bind].
    cbn [scalar_mul var_mul] in Em. rewrite Em. cbn [bind]. eauto.
  - rewrite (zeros_vector_ok (fst d) D1). cbn [bind].
    match goal with |- context [foldM ?g _ _] =>
      destruct (foldM_nth g (seq 0 (snd d)) (EV (VK (repeat n0 (fst d)))) (fun k acc => slice H (fst d) (prod phi psi k) acc)) as (out & -> & Ho)
    end.
    + intros k c acc Ec Ha. assert (Hk : k < snd d) by (apply nth_error_bound in Ec; rewrite seq_length in Ec; exact Ec).
      rewrite nth_error_seq_at in Ec by exact Hk. injection Ec as <-. cbn [Nat.add].
      rewrite (k_to_dense_grid d _ l D1 D2 Hl). cbn [bind]. destruct (mapM_column d _ l k Hl Hk) as (column & -> & Hc). cbn [bind].
      destruct (proj2 Hx k Hk) as (x & Ex & Sx). rewrite (index_nth _ _ _ Ex). cbn [bind].
      assert (Hcol : arrA (fst d, 1) (fun i _ => phi i k) (EV (VK column))) by (apply arr_EV; cbn [vec_entries]; apply col_map; exact Hc).
      destruct (sgood_simplify H HZ (fst d) _ _ D1 (sgood_simplify H HZ (fst d) _ _ D1
                  (var_mul_vec_sgood B A H HZ (HPs A B H HP) (fst d) (fun i _ => phi i k) (psi k 0) x (VK column) D1 Sx Hcol))) as (t & -> & Ht).
      cbn [bind].
      destruct (plus_slice H HZ (fst d) _ _ acc t D1 Ha Ht) as (s & Es & Hs & Ks). exists s. split; [exact Es|]. split; [|exact Ks].
      eapply arr_impl; [|exact Hs]. intros i j a _ Hj. cbn in Hj. replace j with 0 by lia. apply sden_ext. intros EX r. unfold prod. cbn [sum_to].
      f_equal. apply (Rmul_comm (F_R (@ex_field NN EX))).
    + destruct (slice_zero H HZ (fst d)) as [S1 S2]; [lia|]. split; [exact S1 | exact S2].
    + exists out. split; [reflexivity|]. rewrite seq_length in Ho. exact (proj1 Ho).
Qed.

Lemma k_mat_mul_good da db d phi psi l g b : 1 <= fst da -> 1 <= snd da -> 1 <= fst db -> 1 <= snd db -> arrA da phi (EM (MK l)) ->
  means g = Some b -> arrB db psi b -> (is_scalar b /\ d = da \/ ~ is_scalar b /\ snd da = fst db /\ d = (fst da, snd db)) ->
  multiply_accepts (EM (MK l)) g = true ->
  good d H (match b with ES _ => fun i j r => phi i j r * psi 0 0 r | _ => prod phi psi (snd da) end) (k_mat_mul l g).
Proof.
  intros A1 A2 B1 B2 Hl Hg Hb Hd HT. unfold k_mat_mul.
  assert (D : dims_mul da db = true).
  { destruct Hd as [[Hs _]|(_ & Hs & _)]; [|apply dims_mul_inner; exact Hs]. destruct b; try destruct Hs. rewrite (arr_ES_dims _ _ _ B1 Hb). apply dims_mul_l. }
  rewrite (mat_operand A B H da db phi psi (MK l) g b A1 A2 Hl Hg B1 B2 Hb D). cbn [bind].
  assert (BS : forall s, b = ES s -> d = da /\ cB (psi 0 0) s).
  { intros s ->. split; [|pose proof (arr_ES_dims _ _ _ B1 Hb); subst db; apply arr_ES in Hb; exact Hb].
    destruct Hd as [[_ Hd]|[Hn _]]; [exact Hd | destruct Hn; exact I]. }
  assert (BN : ~ is_scalar b -> snd da = fst db /\ d = (fst da, snd db)). { intro Hn. destruct Hd as [[Hs _]|(_ & Hd)]; [contradiction | exact Hd]. }
  assert (BV : forall v, b = EV v -> d = (fst da, 1) /\ arrB (snd da, 1) psi (EV v)).
  { intros v ->. destruct BN as [E ->]; [intros []|]. pose proof (arr_EV_cols _ _ _ B1 Hb) as E2. split; [congruence|].
    destruct db as [n c]. cbn in *. subst. exact Hb. }
  assert (BM : forall m, b = EM m -> snd da = fst db /\ d = (fst da, snd db)) by (intros m ->; apply BN; intros []).
  assert (D1 : 1 <= fst d) by (destruct Hd as [[_ ->]|(_ & _ & ->)]; exact A1).
  assert (D2 : 1 <= snd d) by (destruct Hd as [[_ ->]|(_ & _ & ->)]; assumption).
  destruct g as [f|z|l0|l0|l0|l0|[[k|x|mo|p]|[lk|lv|lm|lp]|r]|]; try discriminate HT; cbn in Hg; injection Hg as <-;
    repeat (apply good_simplify; [exact D1 | exact D2 | exact HZ|]).
  - destruct (BS _ eq_refl) as [-> Hf]. apply (k_mat_mul_float_good A B H HZ); assumption.
  - destruct (BV _ eq_refl) as [-> Hv]. apply (k_mat_mul_vec_good A B H HZ); assumption.
  - destruct (BM _ eq_refl) as [E ->]. apply (k_mat_mul_dense_good A B H HZ da db); assumption.
  - destruct (BM _ eq_refl) as [E ->]. apply (k_mat_mul_dense_good A B H HZ da db); assumption.
  - destruct (BS _ eq_refl) as [-> Hf]. apply (k_mat_mul_float_good A B H HZ); assumption.
  - destruct (BS _ eq_refl) as [-> Hf]. apply (k_mat_mul_poly_good A B H HZ HP); assumption.
  - destruct (BV _ eq_refl) as [-> Hv]. apply k_mat_mul_vars_good; assumption.
  - destruct (BM _ eq_refl) as [E ->]. apply (mat_mul_template_good A B H HZ HP da db); assumption.
Qed.

End ArrMulMat3.
