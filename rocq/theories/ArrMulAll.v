(** * Multiply on every receiver and operand *)

From Coq Require Import ZArith NArith Bool List Lia Ring Field.
From Verif Require Import Num Syntax ModelScalar Spec Base ScalarValid Eval ScalarOps ScalarMore ModelShape ModelArith SpecArr Arr ArrPlus ArrMul ArrMulMat.
Import ListNotations.
Local Open Scope num_scope.

Section ArrMulAll.
Context {NN : Num}.
Variables A B H : (N -> Z) -> Prop.
Hypothesis HZ : has_zero H.
Hypothesis HP : forall f g h, A g -> B h -> (forall i, f i = (g i + h i)%Z) -> H f.

Local Notation den d F phi := (arr d (fun i j => sden F (phi i j))) (only parsing).
Local Notation cA := (cden A H) (only parsing).
Local Notation cB := (cden B H) (only parsing).
Local Notation arrA d phi := (arr d (fun i j => cden A H (phi i j))) (only parsing).
Local Notation arrB d phi := (arr d (fun i j => cden B H (phi i j))) (only parsing).

Lemma rgood_simplify d phi x : 1 <= fst d -> 1 <= snd d -> rgood d H phi x -> rgood d H phi (simplify_result x).
Proof.
  intros D1 D2 Hx e' E. unfold simplify_result in E. destruct x as [e|]; [|discriminate]. cbn [bind] in E.
  destruct (expr_simplified_arr d H phi e D1 D2 HZ (Hx e eq_refl)) as (e2 & E2 & He2). congruence.
Qed.

Lemma good_product d (b : expr) phi psi n x : match b with ES _ => good d H (fun i j r => phi i j r * psi 0 0 r) x | _ => good d H (prod phi psi n) x end ->
  good d H (match b with ES _ => fun i j r => phi i j r * psi 0 0 r | _ => prod phi psi n end) x.
Proof. destruct b; exact (fun X => X). Qed.

(** ** VariableMatrix *)

Lemma mapM_inv_col {X Y} n (P : nat -> X -> Prop) (Q : nat -> Y -> Prop) (f : X -> res Y) l out :
  (forall i x y, P i x -> f x = Ok y -> Q i y) -> col n P l -> mapM f l = Ok out -> col n Q out.
Proof.
  intros Hf [L Hl] E. apply mapM_inv in E. destruct E as [Lo Ho]. split; [lia|]. intros i Hi. destruct (Hl i Hi) as (x & Ex & Hx).
  destruct (Ho i x Ex) as (y & Ey & Efy). exists y. split; [exact Ey|]. exact (Hf i x y Hx Efy).
Qed.

Lemma var_mat_mul_k_rgood d phi psi l f : arrA d phi (EM (MV l)) -> cB psi (SK f) ->
  rgood d H (fun i j r => phi i j r * psi r) (var_mat_mul_k l f).
Proof.
  intros Hl Hf e E. apply arr_EM in Hl. cbn [mat_rows] in Hl. apply grid_map in Hl. unfold var_mat_mul_k in E.
  match type of E with (x <- ?t ;; _) = _ => destruct t as [rows|] eqn:Er; [|discriminate] end. cbn [bind] in E. injection E as <-.
  apply arr_EM. cbn [mat_rows]. apply grid_map. eapply mapM_inv_col; [|exact Hl | exact Er]. intros i row out Hrow Erow.
  eapply mapM_inv_col; [|exact Hrow | exact Erow]. intros j x m Hx E. cbn beta in E.
  destruct (mul_den A B H HZ HP _ _ (SV x) (SK f) Hx Hf) as (s & Es & Hs). cbn [scalar_mul var_mul] in Es. rewrite Es in E. cbn [bind] in E.
  destruct s; try discriminate. injection E as <-. exact Hs.
Qed.

Lemma var_mul_k_mono x k : ExactNum NN -> valid_var x -> k <> n0 -> k <> n1 -> exists m, var_mul_k x k = Ok (SM m).
Proof.
  intros EX Hx K0 K1. unfold var_mul_k. pose proof Hx as Cx. apply var_check_valid in Cx. rewrite Cx. cbn [check bind].
  assert (E0 : (k =? n0) = false) by (apply eqb_false_iff; exact K0). assert (E1 : (k =? n1) = false) by (apply eqb_false_iff; exact K1).
  assert (C : mono_check (mkMono k [1%Z] [x]) = true) by reflexivity.
  unfold mono_simplified, mono_is_constant. rewrite C. cbn. rewrite E0, E1. cbn. eexists. reflexivity.
Qed.

Lemma var_mat_mul_k_total d phi l f : ExactNum NN -> arrA d phi (EM (MV l)) -> f <> n0 -> f <> n1 -> exists e, var_mat_mul_k l f = Ok e.
Proof.
  intros EX Hl F0 F1. apply arr_EM in Hl. cbn [mat_rows] in Hl. apply grid_map in Hl. unfold var_mat_mul_k.
  match goal with |- context [mapM ?g l] => destruct (mapM_col (fst d) (fun i => col (snd d) (fun j b => cA (phi i j) (SV b))) (fun _ _ => True) g l) as (rows & -> & _) end.
  - intros i row _ Hrow.
    match goal with |- context [mapM ?g row] => destruct (mapM_col (snd d) (fun j b => cA (phi i j) (SV b)) (fun _ _ => True) g row) as (out & -> & _) end.
    + intros j x _ Hx. destruct (var_mul_k_mono x f EX (proj1 Hx) F0 F1) as (m & ->). cbn [bind]. eauto.
    + exact Hrow.
    + eauto.
  - exact Hl.
  - cbn [bind]. eauto.
Qed.

Lemma var_mat_mul_kvec_good d phi psi l ks : 1 <= fst d -> 1 <= snd d -> arrA d phi (EM (MV l)) -> arrB (snd d, 1) psi (EV (VK ks)) ->
  good (fst d, 1) H (prod phi psi (snd d)) (var_mat_mul_kvec l ks).
Proof.
  intros D1 D2 Hl Hk. pose proof (proj1 (arr_EM _ _ _) Hl) as Gl. pose proof Gl as Gl'. cbn [mat_rows] in Gl'. apply grid_map in Gl'.
  apply arr_EV in Hk. cbn [vec_entries] in Hk. apply col_map in Hk. unfold var_mat_mul_kvec.
  rewrite (mat_dims_grid d _ _ D1 (cden_valid A H phi) Gl). cbn [bind].
  match goal with |- context [mapM ?g l] =>
    destruct (mapM_col (fst d) (fun i => col (snd d) (fun j b => cA (phi i j) (SV b))) (fun i => sden H (prod phi psi (snd d) i 0)) g l) as (p & -> & Hp)
  end.
  - intros i row _ [Lr Hrow].
    match goal with |- exists b, foldM ?g _ _ = _ /\ _ => destruct (foldM_nth g (seq 0 (snd d)) (SK n0) (fun k acc => sden H (prod phi psi k i 0) acc)) as (out & E & Ho) end.
    + intros k c acc Ec Ha. assert (Hk' : k < snd d) by (apply nth_error_bound in Ec; rewrite seq_length in Ec; exact Ec).
      rewrite nth_error_seq_at in Ec by exact Hk'. injection Ec as <-. cbn [Nat.add].
      destruct (Hrow k Hk') as (x & Ex & Hx). rewrite (index_nth _ _ _ Ex). cbn [bind].
      destruct (proj2 Hk k Hk') as (c & Ec & Hc). rewrite (index_nth _ _ _ Ec). cbn [bind].
      destruct (mul_den A B H HZ HP _ _ (SV x) (SK c) Hx Hc) as (t & Et & Ht). cbn [scalar_mul var_mul] in Et. rewrite Et. cbn [bind].
      exact (sden_plus H _ _ acc t HZ Ha Ht).
    + exact (sden_const H n0 HZ).
    + exists out. split; [exact E|]. rewrite seq_length in Ho. exact Ho.
  - exact Gl'.
  - cbn [bind]. apply concretize_slice_good; assumption.
Qed.

Lemma zero_plus_slice n phi b : 1 <= n -> slice H n phi b -> sgood H n (fun i j r => n0 + phi i j r) (expr_plus (ES (SK n0)) (GExpr b)).
Proof.
  intros Hn (Hb & Nb & Sb). destruct (Nat.eq_dec n 1) as [->|Hn1].
  - apply (plus_slice H HZ 1 (fun _ _ _ => n0) phi (ES (SK n0)) b Hn); [|split; auto].
    split; [apply arr_ES; exact (sden_const H n0 HZ)|]. split; [exact I | intros _; exact I].
  - destruct b as [b|v|]; [| |destruct Nb]. { pose proof (arr_ES_dims (n, 1) _ _ Hn Hb) as E. injection E as ->. congruence. }
    destruct (expr_plus_good H HZ (1, 1) (n, 1) (n, 1) (fun _ _ _ => n0) phi (ES (SK n0)) (GExpr (EV v)) (EV v) (le_n 1) (le_n 1) Hn (le_n 1)
                (den_ES_intro H _ _ (sden_const H n0 HZ)) eq_refl Hb (or_intror (or_introl (conj I eq_refl))) eq_refl eq_refl) as (e & E & He).
    exists e. split; [exact E|]. split; [exact He|]. split; [|congruence].
    cbn [expr_plus] in E. unfold k_plus_any in E. cbn [as_expr] in E. destruct (check (expr_check (EV v)) PCheck); [|discriminate E]. exact (vec_plus_not_matrix _ _ _ E).
Qed.

Lemma var_mat_mul_vars_good d phi psi l xs : 1 <= fst d -> 1 <= snd d -> arrA d phi (EM (MV l)) -> arrB (snd d, 1) psi (EV (VV xs)) ->
  good (fst d, 1) H (prod phi psi (snd d)) (var_mat_mul_vars l xs).
Proof.
  intros D1 D2 Hl Hx. pose proof (proj1 (arr_EM _ _ _) Hl) as Gl. pose proof Gl as Gl'. cbn [mat_rows] in Gl'. apply grid_map in Gl'.
  apply arr_EV in Hx. cbn [vec_entries] in Hx. apply col_map in Hx. unfold var_mat_mul_vars.
  rewrite (mat_dims_grid d _ _ D1 (cden_valid A H phi) Gl). cbn [bind].
  match goal with |- context [foldM ?g _ _] =>
    destruct (foldM_nth g (seq 0 (snd d)) (ES (SK n0)) (fun k acc => match k with O => acc = ES (SK n0) | S _ => slice H (fst d) (prod phi psi k) acc end)) as (out & -> & Ho)
  end.
  - intros k c acc Ec Ha. assert (Hk : k < snd d) by (apply nth_error_bound in Ec; rewrite seq_length in Ec; exact Ec).
    rewrite nth_error_seq_at in Ec by exact Hk. injection Ec as <-. cbn [Nat.add].
    destruct (mapM_column d _ l k Gl' Hk) as (column & -> & Hc). cbn [bind].
    destruct (proj2 Hx k Hk) as (x & Ex & Sx). rewrite (index_nth _ _ _ Ex). cbn [bind].
    assert (Hcol : arrA (fst d, 1) (fun i _ => phi i k) (EV (VV column))) by (apply arr_EV; cbn [vec_entries]; apply col_map; exact Hc).
    destruct (vec_mul_var_sgood A B H HZ HP (fst d) (fun i _ => phi i k) (psi k 0) column x D1 Hcol Sx) as (t & -> & Ht). cbn [bind].
    assert (G : sgood H (fst d) (fun i j r => prod phi psi k i 0 r + phi i k r * psi k 0 r) (expr_plus acc (GExpr t))).
    { destruct k as [|k].
      - subst acc. apply (zero_plus_slice (fst d) (fun i j r => phi i 0 r * psi 0 0 r)); assumption.
      - apply (plus_slice H HZ (fst d) (fun i _ => prod phi psi (S k) i 0) (fun i _ r => phi i (S k) r * psi (S k) 0 r) acc t D1); [|exact Ht].
        destruct Ha as [Ha Ka]. split; [|exact Ka]. eapply arr_impl; [|exact Ha]. intros i j a _ Hj Hs. cbn in Hj. replace j with 0 in Hs by lia. exact Hs. }
    destruct G as (s & Es & Hs & Ks). exists s. split; [exact Es|]. split; [|exact Ks].
    eapply arr_impl; [|exact Hs]. intros i j a _ Hj Hs'. cbn in Hj. replace j with 0 by lia. exact Hs'.
  - reflexivity.
  - rewrite seq_length in Ho. destruct (snd d) as [|n]; [lia|]. exists out. split; [reflexivity | exact (proj1 Ho)].
Qed.

(** ** What the operand looks like *)
Definition operand_shape (da db d : nat * nat) (b : expr) : Prop :=
  is_scalar b /\ d = da \/ ~ is_scalar b /\ snd da = fst db /\ d = (fst da, snd db).

Lemma operand_dims da db d psi b : 1 <= fst db -> arrB db psi b -> operand_shape da db d b -> dims_mul da db = true.
Proof.
  intros B1 Hb [[Hs _]|(_ & Hs & _)]; [|apply dims_mul_inner; exact Hs]. destruct b; try destruct Hs. rewrite (arr_ES_dims _ _ _ B1 Hb). apply dims_mul_l.
Qed.
Lemma operand_ES da db d psi s : 1 <= fst db -> arrB db psi (ES s) -> operand_shape da db d (ES s) -> d = da /\ cB (psi 0 0) s.
Proof.
  intros B1 Hb Hd. split; [|pose proof (arr_ES_dims _ _ _ B1 Hb); subst db; apply arr_ES in Hb; exact Hb].
  destruct Hd as [[_ Hd]|[Hn _]]; [exact Hd | destruct Hn; exact I].
Qed.
Lemma operand_EV da db d psi v : 1 <= fst db -> arrB db psi (EV v) -> operand_shape da db d (EV v) -> d = (fst da, 1) /\ arrB (snd da, 1) psi (EV v).
Proof.
  intros B1 Hb [[[] _]|(_ & E & ->)]. pose proof (arr_EV_cols _ _ _ B1 Hb) as E2. split; [congruence|]. destruct db as [n c]. cbn in *. subst. exact Hb.
Qed.
Lemma operand_EM da db d m : operand_shape da db d (EM m) -> snd da = fst db /\ d = (fst da, snd db).
Proof. intros [[[] _]|(_ & Hd)]. exact Hd. Qed.
Lemma operand_pos da db d b : 1 <= fst da -> 1 <= snd da -> 1 <= snd db -> operand_shape da db d b -> 1 <= fst d /\ 1 <= snd d.
Proof. intros A1 A2 B2 [[_ ->]|(_ & _ & ->)]; auto. Qed.

Definition pphi (b : expr) (phi psi : nat -> nat -> assignment -> num) (n : nat) : nat -> nat -> assignment -> num :=
  match b with ES _ => fun i j r => phi i j r * psi 0 0 r | _ => prod phi psi n end.

Lemma var_mat_mul_good da db d phi psi l g b : 1 <= fst da -> 1 <= snd da -> 1 <= fst db -> 1 <= snd db -> arrA da phi (EM (MV l)) ->
  means g = Some b -> arrB db psi b -> operand_shape da db d b -> multiply_accepts (EM (MV l)) g = true -> variable_matrix_times_number (EM (MV l)) b = false ->
  good d H (pphi b phi psi (snd da)) (var_mat_mul l g).
Proof.
  intros A1 A2 B1 B2 Hl Hg Hb Hd HT HV. unfold var_mat_mul. pose proof (proj1 (arr_EM _ _ _) Hl) as Gl.
  rewrite (mat_check_grid da _ _ A1 (cden_valid A H phi) Gl). cbn [check bind].
  pose proof (operand_dims da db d psi b B1 Hb Hd) as D. rewrite (mat_operand A B H da db phi psi (MV l) g b A1 A2 Hl Hg B1 B2 Hb D). cbn [bind].
  destruct (operand_pos da db d b A1 A2 B2 Hd) as [D1 D2].
  assert (KV : forall ks, b = EV (VK ks) -> good d H (prod phi psi (snd da)) (var_mat_mul_kvec_call l ks)).
  { intros ks ->. unfold var_mat_mul_kvec_call. rewrite (mat_check_grid da _ _ A1 (cden_valid A H phi) Gl). cbn [check bind].
    rewrite (mat_operand A B H da db phi psi (MV l) (GExpr (EV (VK ks))) (EV (VK ks)) A1 A2 Hl eq_refl B1 B2 Hb D). cbn [bind].
    destruct (operand_EV da db d psi _ B1 Hb Hd) as [-> Hk]. apply good_simplify; [exact D1 | exact D2 | exact HZ|]. apply var_mat_mul_kvec_good; assumption. }
  assert (KM : forall ks, b = EM (MK ks) -> good d H (prod phi psi (snd da)) (var_mat_mul_mat l (MK ks))).
  { intros ks ->. unfold var_mat_mul_mat. rewrite (mat_check_grid da _ _ A1 (cden_valid A H phi) Gl). cbn [check bind].
    rewrite (mat_operand A B H da db phi psi (MV l) (GExpr (EM (MK ks))) (EM (MK ks)) A1 A2 Hl eq_refl B1 B2 Hb D). cbn [bind].
    destruct (operand_EM da db d _ Hd) as [E ->]. apply good_simplify; [exact D1 | exact D2 | exact HZ|]. apply (mat_mul_template_good A B H HZ HP da db); assumption. }
  destruct g as [f|z|l0|l0|l0|l0|[[k|x|mo|p]|[lk|lv|lm|lp]|r]|]; try discriminate HT; cbn in Hg; injection Hg as <-; try discriminate HV;
    (apply good_simplify; [exact D1 | exact D2 | exact HZ|]).
  - apply KV. reflexivity.
  - apply KV. reflexivity.
  - apply KM. reflexivity.
  - apply KM. reflexivity.
  - destruct (operand_EV da db d psi _ B1 Hb Hd) as [-> Hk]. apply var_mat_mul_kvec_good; assumption.
  - destruct (operand_EV da db d psi _ B1 Hb Hd) as [-> Hk]. apply var_mat_mul_vars_good; assumption.
  - destruct (operand_EM da db d _ Hd) as [E ->]. apply (mat_mul_template_good A B H HZ HP da db); assumption.
Qed.

Lemma var_mat_mul_number_rgood da db d phi psi l g b : 1 <= fst da -> 1 <= snd da -> 1 <= fst db -> 1 <= snd db -> arrA da phi (EM (MV l)) ->
  means g = Some b -> arrB db psi b -> operand_shape da db d b -> multiply_accepts (EM (MV l)) g = true -> variable_matrix_times_number (EM (MV l)) b = true ->
  rgood d H (pphi b phi psi (snd da)) (var_mat_mul l g).
Proof.
  intros A1 A2 B1 B2 Hl Hg Hb Hd HT HV. unfold var_mat_mul. pose proof (proj1 (arr_EM _ _ _) Hl) as Gl.
  rewrite (mat_check_grid da _ _ A1 (cden_valid A H phi) Gl). cbn [check bind].
  pose proof (operand_dims da db d psi b B1 Hb Hd) as D. rewrite (mat_operand A B H da db phi psi (MV l) g b A1 A2 Hl Hg B1 B2 Hb D). cbn [bind].
  destruct (operand_pos da db d b A1 A2 B2 Hd) as [D1 D2].
  destruct g as [f|z|l0|l0|l0|l0|[[k|x|mo|p]|[lk|lv|lm|lp]|r]|]; try discriminate HT; cbn in Hg; injection Hg as <-; try discriminate HV;
    destruct (operand_ES da db d psi _ B1 Hb Hd) as [-> Hf]; repeat (apply rgood_simplify; [exact D1 | exact D2|]);
    apply (var_mat_mul_k_rgood da phi (psi 0 0)); assumption.
Qed.

Lemma var_mat_mul_number_total da db d phi psi l g f : ExactNum NN -> 1 <= fst da -> 1 <= snd da -> 1 <= fst db -> 1 <= snd db -> arrA da phi (EM (MV l)) ->
  means g = Some (ES (SK f)) -> arrB db psi (ES (SK f)) -> operand_shape da db d (ES (SK f)) -> multiply_accepts (EM (MV l)) g = true -> f <> n0 -> f <> n1 ->
  exists e, var_mat_mul l g = Ok e.
Proof.
  intros EX A1 A2 B1 B2 Hl Hg Hb Hd HT F0 F1. unfold var_mat_mul. pose proof (proj1 (arr_EM _ _ _) Hl) as Gl.
  rewrite (mat_check_grid da _ _ A1 (cden_valid A H phi) Gl). cbn [check bind].
  pose proof (operand_dims da db d psi _ B1 Hb Hd) as D. rewrite (mat_operand A B H da db phi psi (MV l) g _ A1 A2 Hl Hg B1 B2 Hb D). cbn [bind].
  destruct (operand_ES da db d psi _ B1 Hb Hd) as [-> Hf].
  destruct (var_mat_mul_k_total da phi l f EX Hl F0 F1) as (e & E).
  assert (G : good da H (fun i j r => phi i j r * psi 0 0 r) (var_mat_mul_k l f)).
  { exists e. split; [exact E|]. exact (var_mat_mul_k_rgood da phi (psi 0 0) l f Hl Hf e E). }
  destruct (good_simplify _ _ _ _ A1 A2 HZ G) as (e1 & E1 & _). destruct (good_simplify _ _ _ _ A1 A2 HZ (good_simplify _ _ _ _ A1 A2 HZ G)) as (e2 & E2 & _).
  destruct g as [f0|z|l0|l0|l0|l0|[[k|x|mo|p]|[lk|lv|lm|lp]|r]|]; try discriminate HT; try discriminate Hg; cbn in Hg; injection Hg as ->; eauto.
Qed.

(** ** MonomialMatrix *)

(** a row times a column of variables *)
Lemma row_fold {T} n phi psi i (f : T -> scalar) (row : list T) (xs : list var) (g : scalar -> nat * T -> res scalar) :
  col n (fun l t => cA (phi i l) (f t)) row -> col n (fun l x => cB (psi l 0) (SV x)) xs ->
  (forall acc l x t a, nth_error row l = Some a -> nth_error xs l = Some x -> scalar_mul (f a) (SV x) = Ok t -> g acc (l, a) = scalar_plus acc t) ->
  exists s, foldM g (SK n0) (enum row) = Ok s /\ sden H (prod phi psi n i 0) s.
Proof.
  intros [Lr Hr] [Lx Hx] Hg.
  destruct (foldM_nth g (enum row) (SK n0) (fun k acc => sden H (prod phi psi k i 0) acc)) as (out & E & Ho).
  - intros k ct acc Ek Ha. assert (Hk : k < n) by (apply nth_error_bound in Ek; rewrite enum_length in Ek; lia).
    destruct (Hr k Hk) as (t & Et & Ht). destruct (Hx k Hk) as (x & Ex & Sx).
    apply nth_error_enum in Ek. destruct ct as [k' t']. cbn in Ek. destruct Ek as [-> Ek]. rewrite Et in Ek. injection Ek as <-.
    destruct (mul_den A B H HZ HP _ _ (f t) (SV x) Ht Sx) as (p & Ep & Hp).
    rewrite (Hg acc k x p t Et Ex Ep). exact (sden_plus H _ _ acc p HZ Ha Hp).
  - exact (sden_const H n0 HZ).
  - exists out. split; [exact E|]. rewrite enum_length, Lr in Ho. exact Ho.
Qed.

Lemma mono_row_good d phi psi l xs : 1 <= fst d -> length l = 1 -> arrA d phi (EM (MM l)) -> arrB (snd d, 1) psi (EV (VV xs)) ->
  good (fst d, 1) H (prod phi psi (snd d)) (mono_mat_mul_vars l xs).
Proof.
  intros D1 L1 Hl Hx. apply arr_EM in Hl. cbn [mat_rows] in Hl. apply grid_map in Hl.
  apply arr_EV in Hx. cbn [vec_entries] in Hx. apply col_map in Hx. unfold mono_mat_mul_vars. rewrite L1, Nat.eqb_refl.
  assert (E1 : fst d = 1) by (destruct Hl as [Ll _]; lia). rewrite E1. destruct (proj2 Hl 0 D1) as (row & Er & Hrow).
  rewrite (index_nth _ _ _ Er). cbn [bind].
  match goal with |- context [foldM ?g _ _] => destruct (row_fold (snd d) phi psi 0 SM row xs g Hrow Hx) as (s & -> & Hs) end.
  - intros acc k x t a Ea Ex Et. cbn [fst snd]. rewrite (index_nth _ _ _ Ex). cbn [bind]. cbn [scalar_mul mono_mul] in Et. unfold as_SM in Et.
    destruct (mono_mul_var a x) as [m|]; [|discriminate Et]. cbn [bind] in Et |- *. injection Et as <-. reflexivity.
  - cbn [bind]. apply (good_row H). exact (sden_simplified H _ s HZ Hs).
Qed.

Lemma mono_rows_rgood d phi psi l xs : 1 <= fst d -> 1 <= snd d -> arrA d phi (EM (MM l)) -> arrB (snd d, 1) psi (EV (VV xs)) ->
  rgood (fst d, 1) H (prod phi psi (snd d)) (mono_mat_mul_vars l xs).
Proof.
  intros D1 D2 Hl Hx. destruct (Nat.eqb_spec (length l) 1) as [L1|L1]. { apply good_rgood. apply mono_row_good; assumption. }
  apply arr_EM in Hl. cbn [mat_rows] in Hl. apply grid_map in Hl.
  apply arr_EV in Hx. cbn [vec_entries] in Hx. apply col_map in Hx. unfold mono_mat_mul_vars. destruct (Nat.eqb_spec (length l) 1) as [|_]; [contradiction|].
  intros e E. match type of E with (p <- ?t ;; _) = _ => destruct t as [p|] eqn:Ep; [|discriminate] end. cbn [bind] in E.
  assert (Hp : col (fst d) (fun i => sden H (prod phi psi (snd d) i 0)) p).
  { eapply mapM_inv_col; [|exact Hl | exact Ep]. clear Ep E. intros i row out [Lr Hrow] E. cbn beta in E.
    destruct (Hrow 0 D2) as (m0 & E0 & H0). destruct (proj2 Hx 0 D2) as (x0 & X0 & HX0).
    rewrite (index_nth _ _ _ E0) in E. cbn [bind] in E. rewrite (index_nth _ _ _ X0) in E. cbn [bind] in E.
    destruct (mul_den A B H HZ HP _ _ (SP (mono_to_poly m0)) (SV x0) (cden_terms A H _ (SM m0) (SP (mono_to_poly m0)) eq_refl H0) HX0) as (s0 & Es0 & Hs0).
    cbn [scalar_mul poly_mul] in Es0. rewrite Es0 in E. cbn [bind] in E.
    match type of E with foldM ?g _ _ = _ => pose proof (foldM_inv g (seq 1 (length row - 1)) s0 out (fun k acc => sden H (prod phi psi (S k) i 0) acc)) as HF end.
    rewrite seq_length, Lr in HF. replace (S (snd d - 1)) with (snd d) in HF by lia. apply HF; [| |rewrite <- Lr; exact E].
    - clear HF E. intros k c acc acc' Ec Ha E. assert (Hk : k < snd d - 1) by (apply nth_error_bound in Ec; rewrite seq_length in Ec; exact Ec).
      rewrite nth_error_seq_at in Ec by exact Hk. injection Ec as <-. cbn [Nat.add] in E.
      destruct (Hrow (S k)) as (m & Em & Hm); [lia|]. destruct (proj2 Hx (S k)) as (x & Ex & HX); [lia|].
      rewrite (index_nth _ _ _ Em) in E. cbn [bind] in E. rewrite (index_nth _ _ _ Ex) in E. cbn [bind] in E.
      destruct (mul_den A B H HZ HP _ _ (SP (mono_to_poly m)) (SV x) (cden_terms A H _ (SM m) (SP (mono_to_poly m)) eq_refl Hm) HX) as (t & Et & Ht).
      cbn [scalar_mul poly_mul] in Et. rewrite Et in E. cbn [bind] in E.
      destruct (sden_plus H _ _ acc t HZ Ha Ht) as (s & Es & Hs). rewrite Es in E. cbn [bind] in E. destruct s; try discriminate E. injection E as <-. exact Hs.
    - eapply sden_ext; [|exact Hs0]. intros EX r. symmetry. apply (prod_1 phi psi i 0 EX). }
  unfold as_EV in E. destruct (concretize_vector_arr (fst d) (fun i j => sden H (prod phi psi (snd d) i j)) p D1 (sden_by_terms H _) Hp) as (v & Ev & Hv).
  rewrite Ev in E. cbn [bind] in E. injection E as <-. exact Hv.
Qed.

Lemma mono_mat_mul_rgood da db d phi psi l g b : 1 <= fst da -> 1 <= snd da -> 1 <= fst db -> 1 <= snd db -> arrA da phi (EM (MM l)) ->
  means g = Some b -> arrB db psi b -> operand_shape da db d b -> multiply_accepts (EM (MM l)) g = true ->
  rgood d H (pphi b phi psi (snd da)) (mono_mat_mul l g) /\
  (monomial_matrix_times_variables (EM (MM l)) b = false -> good d H (pphi b phi psi (snd da)) (mono_mat_mul l g)).
Proof.
  intros A1 A2 B1 B2 Hl Hg Hb Hd HT. unfold mono_mat_mul. pose proof (proj1 (arr_EM _ _ _) Hl) as Gl.
  rewrite (mat_check_grid da _ _ A1 (cden_valid A H phi) Gl). cbn [check bind].
  pose proof (operand_dims da db d psi b B1 Hb Hd) as D. rewrite (mat_operand A B H da db phi psi (MM l) g b A1 A2 Hl Hg B1 B2 Hb D). cbn [bind].
  assert (KS : forall f, b = ES (SK f) -> good d H (fun i j r => phi i j r * psi 0 0 r) (rows <- mapM (mapM (fun m => mono_mul_k m f)) l ;; Ok (EM (MM rows)))).
  { intros f ->. destruct (operand_ES da db d psi _ B1 Hb Hd) as [-> Hf]. cbn [mat_rows] in Gl. apply grid_map in Gl.
    destruct (mapM_col (fst da) (fun i => col (snd da) (fun j b => cA (phi i j) (SM b))) (fun i => col (snd da) (fun j b => sden H (fun r => phi i j r * psi 0 0 r) (SM b)))
                (mapM (fun m => mono_mul_k m f)) l) as (rows & -> & Hr).
    - intros i row _ Hrow. apply (mapM_col (snd da) (fun j b => cA (phi i j) (SM b)) (fun j b => sden H (fun r => phi i j r * psi 0 0 r) (SM b)) (fun m => mono_mul_k m f)); [|exact Hrow].
      intros j m _ Hm. destruct (mul_den A B H HZ HP _ _ (SM m) (SK f) Hm Hf) as (s & Es & Hs). cbn [scalar_mul mono_mul] in Es. unfold as_SM in Es.
      destruct (mono_mul_k m f) as [m'|]; [|discriminate Es]. cbn [bind] in Es. injection Es as <-. eauto.
    - exact Gl.
    - cbn [bind]. eexists. split; [reflexivity|]. apply arr_EM. cbn [mat_rows]. apply grid_map. exact Hr. }
  destruct g as [f|z|l0|l0|l0|l0|[[k|x|mo|p]|[lk|lv|lm|lp]|r]|]; try discriminate HT; cbn in Hg; injection Hg as <-; cbn [pphi].
  - split; [apply good_rgood | intros _]; apply KS; reflexivity.
  - split; [apply good_rgood | intros _]; apply KS; reflexivity.
  - destruct (operand_EV da db d psi _ B1 Hb Hd) as [-> Hk]. split; [apply mono_rows_rgood; assumption|].
    cbn. intro L1. apply negb_false_iff, Nat.eqb_eq in L1. apply mono_row_good; assumption.
  - destruct (operand_EM da db d _ Hd) as [E ->]. split; [apply good_rgood | intros _]; apply (mat_mul_template_good A B H HZ HP da db); assumption.
Qed.

(** ** PolynomialMatrix *)

Lemma poly_row_good n phi psi i row xs : col n (fun l t => cA (phi i l) (SP t)) row -> col n (fun l x => cB (psi l 0) (SV x)) xs ->
  exists s, poly_row_mul_vars row xs = Ok s /\ sden H (prod phi psi n i 0) s.
Proof.
  intros Hrow Hx. unfold poly_row_mul_vars. apply (row_fold n phi psi i SP row xs); [exact Hrow | exact Hx|].
  intros acc k x t a Ea Ex Et. cbn [fst snd]. rewrite (index_nth _ _ _ Ex). cbn [bind]. cbn [scalar_mul poly_mul] in Et. rewrite Et. reflexivity.
Qed.

Lemma poly_mat_mul_k_good d phi psi l f : 1 <= fst d -> 1 <= snd d -> arrA d phi (EM (MP l)) -> cB psi (SK f) ->
  good d H (fun i j r => phi i j r * psi r) (poly_mat_mul_k l f).
Proof.
  intros D1 D2 Hl Hf. apply arr_EM in Hl. cbn [mat_rows] in Hl. apply grid_map in Hl. unfold poly_mat_mul_k.
  destruct (mapM_col (fst d) (fun i => col (snd d) (fun j b => cA (phi i j) (SP b))) (fun i => col (snd d) (fun j => sden H (fun r => phi i j r * psi r)))
              (mapM (fun p => poly_mul_k p f)) l) as (rows & -> & Hr).
  - intros i row _ Hrow. apply (mapM_col (snd d) (fun j b => cA (phi i j) (SP b)) (fun j => sden H (fun r => phi i j r * psi r)) (fun p => poly_mul_k p f)); [|exact Hrow].
    intros j p _ Hp. exact (mul_den A B H HZ HP _ _ (SP p) (SK f) Hp Hf).
  - exact Hl.
  - cbn [bind]. apply good_simplify; [exact D1 | exact D2 | exact HZ|]. apply concretize_rows_good; assumption.
Qed.

Lemma poly_mat_mul_good da db d phi psi l g b : 1 <= fst da -> 1 <= snd da -> 1 <= fst db -> 1 <= snd db -> arrA da phi (EM (MP l)) ->
  means g = Some b -> arrB db psi b -> operand_shape da db d b -> multiply_accepts (EM (MP l)) g = true ->
  good d H (pphi b phi psi (snd da)) (poly_mat_mul l g).
Proof.
  intros A1 A2 B1 B2 Hl Hg Hb Hd HT. unfold poly_mat_mul. pose proof (proj1 (arr_EM _ _ _) Hl) as Gl.
  rewrite (mat_check_grid da _ _ A1 (cden_valid A H phi) Gl). cbn [check bind].
  pose proof (operand_dims da db d psi b B1 Hb Hd) as D. rewrite (mat_operand A B H da db phi psi (MP l) g b A1 A2 Hl Hg B1 B2 Hb D). cbn [bind].
  destruct (operand_pos da db d b A1 A2 B2 Hd) as [D1 D2].
  destruct g as [f|z|l0|l0|l0|l0|[[k|x|mo|p]|[lk|lv|lm|lp]|r]|]; try discriminate HT; cbn in Hg; injection Hg as <-; cbn [pphi].
  - destruct (operand_ES da db d psi _ B1 Hb Hd) as [-> Hf]. apply good_simplify; [exact D1 | exact D2 | exact HZ|]. apply poly_mat_mul_k_good; assumption.
  - destruct (operand_ES da db d psi _ B1 Hb Hd) as [-> Hf]. apply poly_mat_mul_k_good; assumption.
  - destruct (operand_EV da db d psi _ B1 Hb Hd) as [-> Hk]. cbn [mat_rows] in Gl. apply grid_map in Gl.
    apply arr_EV in Hk. cbn [vec_entries] in Hk. apply col_map in Hk. destruct (Nat.eqb_spec (length l) 1) as [L1|L1].
    + destruct (proj2 Gl 0 A1) as (row & Er & Hrow). rewrite (index_nth _ _ _ Er). cbn [bind].
      apply good_simplify; [exact D1 | exact D2 | exact HZ|]. assert (E1 : fst da = 1) by (destruct Gl; lia). rewrite E1. apply (good_row H).
      exact (poly_row_good (snd da) phi psi 0 row lv Hrow Hk).
    + destruct (mapM_col (fst da) (fun i => col (snd da) (fun j b => cA (phi i j) (SP b))) (fun i => sden H (prod phi psi (snd da) i 0)) (fun r => poly_row_mul_vars r lv) l) as (p & -> & Hp).
      * intros i row _ Hrow. exact (poly_row_good (snd da) phi psi i row lv Hrow Hk).
      * exact Gl.
      * cbn [bind]. apply concretize_slice_good; assumption.
  - destruct (operand_EM da db d _ Hd) as [E ->]. apply (mat_mul_template_good A B H HZ HP da db); assumption.
Qed.

(** ** Vector receivers *)

Lemma vec_mul_all_good n db d phi psi v g b : 1 <= n -> 1 <= fst db -> 1 <= snd db -> arrA (n, 1) phi (EV v) ->
  means g = Some b -> arrB db psi b -> operand_shape (n, 1) db d b -> multiply_accepts (EV v) g = true ->
  good d H (pphi b phi psi 1) (vec_mul v g).
Proof.
  intros Hn B1 B2 Hv Hg Hb Hd HT.
  assert (Hm : match b with EM _ => False | _ => True end).
  { destruct b as [| |m]; try exact I. destruct g as [f|z|l0|l0|l0|l0|e|]; cbn in Hg; try discriminate Hg; destruct v; try discriminate HT; injection Hg as ->; discriminate HT. }
  assert (Eb : arrB (1, 1) psi b /\ d = (n, 1)).
  { destruct b as [s|w|m]; [| |destruct Hm].
    - destruct (operand_ES _ _ _ psi _ B1 Hb Hd) as [-> _]. pose proof (arr_ES_dims _ _ _ B1 Hb) as ->. auto.
    - destruct (operand_EV _ _ _ psi _ B1 Hb Hd) as [-> Hw]. auto. }
  destruct Eb as [Hb' ->]. pose proof (vec_mul_good A B H HZ HP n phi psi v g b Hn Hv Hg Hb' HT) as G.
  destruct b as [s|w|m]; cbn [pphi]; [exact G | | destruct Hm].
  eapply good_ext_in; [|exact G]. intros EX i j r _ Hj. cbn in Hj. replace j with 0 by lia. symmetry. apply (prod_1 phi psi i 0 EX).
Qed.

End ArrMulAll.
