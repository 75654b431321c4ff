(** * Multiply on vectors and matrices *)

From Coq Require Import ZArith NArith Bool List Lia Ring Field.
From Verif Require Import Num Syntax ModelScalar Spec Base ScalarValid Eval ScalarOps ScalarMore ModelShape ModelArith SpecArr Arr ArrPlus.
Import ListNotations.
Local Open Scope num_scope.

Lemma foldM_nth {A B} (g : A -> B -> res A) (l : list B) acc (I : nat -> A -> Prop) :
  (forall k b acc, nth_error l k = Some b -> I k acc -> exists acc', g acc b = Ok acc' /\ I (S k) acc') -> I 0 acc ->
  exists out, foldM g acc l = Ok out /\ I (length l) out.
Proof.
  revert acc I. induction l as [|b l IH]; intros acc I H H0.
  - exists acc. auto.
  - destruct (H 0 b acc eq_refl H0) as (acc' & E & H1). cbn [foldM]. rewrite E. cbn [bind length].
    apply (IH acc' (fun k => I (S k))); [|exact H1]. intros k b' a Hb Ha. exact (H (S k) b' a Hb Ha).
Qed.

Lemma foldM_inv {A B} (g : A -> B -> res A) (l : list B) acc out (I : nat -> A -> Prop) :
  (forall k b acc acc', nth_error l k = Some b -> I k acc -> g acc b = Ok acc' -> I (S k) acc') -> I 0 acc ->
  foldM g acc l = Ok out -> I (length l) out.
Proof.
  revert acc I. induction l as [|b l IH]; intros acc I H H0 E; cbn in E.
  - injection E as <-. exact H0.
  - destruct (g acc b) as [acc'|] eqn:E1; [|discriminate]. cbn in E. cbn [length].
    apply (IH acc' (fun k => I (S k))); [|exact (H 0 b acc acc' eq_refl H0 E1) | exact E]. intros k b' a a' Hb Ha. exact (H (S k) b' a a' Hb Ha).
Qed.

Lemma nth_error_seq_at s n k : k < n -> nth_error (seq s n) k = Some (s + k)%nat.
Proof.
  intro H. rewrite (nth_error_nth' (seq s n) 0) by (rewrite seq_length; exact H). rewrite seq_nth by exact H. reflexivity.
Qed.

Section ArrMul.
Context {NN : Num}.

Local Notation den d F phi := (arr d (fun i j => sden F (phi i j))) (only parsing).

(** terms in [A]; the value is [phi] if [H] is unambiguous *)
Definition cden (A H : (N -> Z) -> Prop) (phi : assignment -> num) (s : scalar) : Prop :=
  valid s /\ within A (terms s) /\ (ExactNum NN -> unambiguous_exponents H -> forall r, eval r s = phi r).

Lemma cden_terms A H phi a b : terms b = terms a -> cden A H phi a -> cden A H phi b.
Proof.
  intros E0 (V & W & E). split; [apply valid_terms_iff; rewrite E0; apply valid_terms_iff; exact V|].
  split; [rewrite E0; exact W|]. intros EX HU r. rewrite <- (E EX HU r), <- !eval_terms, E0. reflexivity.
Qed.

Lemma cden_valid A H (phi : nat -> nat -> assignment -> num) : forall i j s, cden A H (phi i j) s -> valid s.
Proof. intros i j s [V _]. exact V. Qed.
Lemma cden_valid0 A H (phi : nat -> nat -> assignment -> num) : forall i s, cden A H (phi i 0) s -> valid s.
Proof. intros i s [V _]. exact V. Qed.

Lemma cden_ext A H phi psi s : (ExactNum NN -> forall r, phi r = psi r) -> cden A H phi s -> cden A H psi s.
Proof. intros E (V & W & X). split; [exact V|]. split; [exact W|]. intros EX HU r. rewrite (X EX HU r). apply E. exact EX. Qed.

Variables A B H : (N -> Z) -> Prop.
Hypothesis HZ : has_zero H.
Hypothesis HP : forall f g h, A g -> B h -> (forall i, f i = (g i + h i)%Z) -> H f.

Local Notation cA := (cden A H) (only parsing).
Local Notation cB := (cden B H) (only parsing).

Lemma mul_den phi psi a b : cA phi a -> cB psi b -> exists s, scalar_mul a b = Ok s /\ sden H (fun r => phi r * psi r) s.
Proof.
  intros (Va & Wa & Ea) (Vb & Wb & Eb).
  destruct (scalar_mul_spec a b Va Vb) as (s & L & -> & V & (H1 & H2 & H3) & H4 & H5). exists s.
  split; [reflexivity|]. split; [exact V|].
  assert (HL : within H L).
  { intros m Hm. destruct (H4 m Hm) as [[_ C]|(Vm & m1 & m2 & D1 & D2 & D3)].
    - destruct HZ as (z & Hz & Ez). exists z. split; [exact Hz|]. intro i. rewrite Ez. apply const_exponent. exact C.
    - destruct (Wa m1 D1) as (f1 & Hf1 & Ef1). destruct (Wb m2 D2) as (f2 & Hf2 & Ef2).
      exists (fun i => (f1 i + f2 i)%Z). split; [apply (HP _ f1 f2); auto|]. intro i. rewrite D3, Ef1, Ef2. reflexivity. }
  split; [apply (within_forms _ L); assumption|].
  intros EX HU r. rewrite <- eval_terms, H3, H5, !eval_terms, Ea, Eb; try assumption; [reflexivity|].
  apply (within_coherent H); [exact HU | exact HL|]. apply Forall_forall. intros m Hm.
  destruct (H4 m Hm) as [[C _]|[C _]]; exact C.
Qed.

Lemma mul_den_swap phi psi a b : cA phi a -> cB psi b -> exists s, scalar_mul b a = Ok s /\ sden H (fun r => phi r * psi r) s.
Proof.
  intros (Va & Wa & Ea) (Vb & Wb & Eb).
  destruct (scalar_mul_spec b a Vb Va) as (s & L & -> & V & (H1 & H2 & H3) & H4 & H5). exists s.
  split; [reflexivity|]. split; [exact V|].
  assert (HL : within H L).
  { intros m Hm. destruct (H4 m Hm) as [[_ C]|(Vm & m1 & m2 & D1 & D2 & D3)].
    - destruct HZ as (z & Hz & Ez). exists z. split; [exact Hz|]. intro i. rewrite Ez. apply const_exponent. exact C.
    - destruct (Wb m1 D1) as (f1 & Hf1 & Ef1). destruct (Wa m2 D2) as (f2 & Hf2 & Ef2).
      exists (fun i => (f1 i + f2 i)%Z). split; [apply (HP _ f2 f1); auto; intro i; lia|]. intro i. rewrite D3, Ef1, Ef2. reflexivity. }
  split; [apply (within_forms _ L); assumption|].
  intros EX HU r. rewrite <- eval_terms, H3, H5, !eval_terms, Ea, Eb; try assumption; [apply (Rmul_comm (F_R (@ex_field NN EX)))|].
  apply (within_coherent H); [exact HU | exact HL|]. apply Forall_forall. intros m Hm.
  destruct (H4 m Hm) as [[C _]|[C _]]; exact C.
Qed.

(** a number is in every family *)
Lemma mul_den_float phi psi a f : cA phi a -> cB psi (SK f) -> exists s, scalar_mul_float a f = Ok s /\ sden H (fun r => phi r * psi r) s.
Proof.
  intros Ha Hf. destruct (mul_den phi psi a (SK f) Ha Hf) as (s & E & Hs). destruct (sden_simplified H _ s HZ Hs) as (s' & E' & Hs').
  destruct a; cbn [scalar_mul var_mul mono_mul poly_mul] in E; cbn [scalar_mul_float]; try rewrite E; cbn [bind]; eauto.
Qed.

(** ** Sums *)
Lemma plus_step n chi acc t : sden H (fun r => sum_to (fun l => chi l r) n) acc -> sden H (chi n) t ->
  exists s, scalar_plus acc t = Ok s /\ sden H (fun r => sum_to (fun l => chi l r) (S n)) s.
Proof. intros Ha Ht. exact (sden_plus H _ _ acc t HZ Ha Ht). Qed.

Lemma sum_start (chi : nat -> assignment -> num) : sden H (fun r => sum_to (fun l => chi l r) 0) (SK n0).
Proof. exact (sden_const H n0 HZ). Qed.

Definition prod (phi psi : nat -> nat -> assignment -> num) (n : nat) (i j : nat) : assignment -> num :=
  fun r => sum_to (fun l => phi i l r * psi l j r) n.

(** the product with a column of a sum over one index *)
Lemma prod_1 phi psi i j : ExactNum NN -> forall r, prod phi psi 1 i j r = phi i 0 r * psi 0 j r.
Proof. intros EX r. unfold prod. cbn. apply (Radd_0_l (F_R (@ex_field NN EX))). Qed.

(** ** Kinds of results *)
Definition slice_like (n : nat) (e : expr) : Prop := match e with ES _ => n = 1 | EV _ => 2 <= n | EM _ => False end.

Lemma concretize_slice_not_matrix l e : concretize_slice l = Ok e -> not_matrix e.
Proof.
  unfold concretize_slice. destruct (concretize_vector l) as [v|]; [|discriminate]. cbn. destruct (vec_dims v) as [d|]; [|discriminate]. cbn.
  destruct (Nat.eqb (fst d) 1).
  - destruct (vec_at v 0 0); [|discriminate]. cbn. intros [= <-]. exact I.
  - intros [= <-]. exact I.
Qed.

Lemma simplified_kind e e' : expr_simplified e = Ok e' ->
  match e with ES _ => is_scalar e' | EV _ => is_vector e' | EM _ => is_matrix e' end.
Proof.
  destruct e as [s|v|m]; cbn [expr_simplified].
  - destruct (scalar_simplified s); [|discriminate]. intros [= <-]. exact I.
  - destruct (vec_simplified v); [|discriminate]. intros [= <-]. exact I.
  - destruct (mat_simplified m); [|discriminate]. intros [= <-]. exact I.
Qed.

Lemma simplified_not_matrix x e' : simplify_result x = Ok e' -> (forall e, x = Ok e -> not_matrix e) -> not_matrix e'.
Proof.
  unfold simplify_result. destruct x as [e|]; [|discriminate]. cbn. intros E Hx. specialize (Hx e eq_refl).
  pose proof (simplified_kind e e' E). destruct e; try destruct Hx; destruct e'; try exact I; assumption.
Qed.

Lemma vec_plus_not_matrix v t e : vec_plus v (GExpr t) = Ok e -> not_matrix e.
Proof.
  unfold vec_plus. destruct (check (vec_check v) PCheck); [|discriminate]. cbn [bind]. destruct (operand_check _ _ _); [|discriminate]. cbn [bind].
  intro E. apply (simplified_not_matrix _ _ E). intros e0 E0. destruct t as [s|w|m]; cbn [vec_plus_template] in E0; [| |discriminate].
  - destruct (mapM _ _); [|discriminate]. exact (concretize_slice_not_matrix _ _ E0).
  - destruct (mapM _ _); [|discriminate]. exact (concretize_slice_not_matrix _ _ E0).
Qed.

(** ** Vectors *)

Lemma concretize_slice_good F n phi l : 1 <= n -> col n (fun i => sden F (phi i 0)) l -> good (n, 1) F phi (concretize_slice l).
Proof. intros Hn Hl. apply (concretize_slice_arr n (fun i j => sden F (phi i j))); [exact Hn | apply sden_by_terms | apply den_valid | exact Hl]. Qed.

Lemma vec_mul_template_good n phi psi v s : 1 <= n -> arr (n, 1) (fun i j => cA (phi i j)) (EV v) -> cB psi s ->
  good (n, 1) H (fun i j r => phi i j r * psi r) (vec_mul_template v s).
Proof.
  intros Hn Hv Hs. apply arr_EV in Hv. unfold vec_mul_template.
  destruct (mapM_col n _ (fun i => sden H (fun r => phi i 0 r * psi r)) (fun a => scalar_mul a s) _ (fun i a _ Ha => mul_den _ _ a s Ha Hs) Hv) as (l & -> & Hl).
  cbn [bind]. apply concretize_slice_good; assumption.
Qed.

Lemma dims_mul_l d : dims_mul d (1, 1) = true.
Proof. unfold dims_mul, dims_scalar, dims_eqb. cbn. rewrite orb_true_r. reflexivity. Qed.
Lemma dims_mul_r d : dims_mul (1, 1) d = true.
Proof. unfold dims_mul, dims_scalar, dims_eqb. cbn. rewrite orb_true_r. reflexivity. Qed.
Lemma dims_mul_inner da db : snd da = fst db -> dims_mul da db = true.
Proof. intros E. unfold dims_mul. rewrite E, Nat.eqb_refl. reflexivity. Qed.

Lemma operand_scalar dims left da s : left = Ok da -> valid s -> dims da (1, 1) = true -> operand_check dims left (GExpr (ES s)) = Ok tt.
Proof. intros E V D. unfold operand_check. cbn [as_expr expr_check]. rewrite (valid_check s V). cbn. rewrite E. cbn. rewrite D. reflexivity. Qed.

Lemma vec_mul_scalar_good n phi psi v s : 1 <= n -> arr (n, 1) (fun i j => cA (phi i j)) (EV v) -> cB psi s ->
  multiply_accepts (EV v) (GExpr (ES s)) = true ->
  good (n, 1) H (fun i j r => phi i j r * psi r) (vec_mul_scalar v s).
Proof.
  intros Hn Hv Hs HT. pose proof (proj1 (arr_EV _ _ _) Hv) as Hv'. unfold vec_mul_scalar.
  rewrite (vec_check_col n _ v Hn (cden_valid0 A H phi) Hv'). cbn [check bind].
  rewrite (operand_scalar dims_mul _ (n, 1) s (vec_dims_col n _ v Hn (cden_valid0 A H phi) Hv') (proj1 Hs) (dims_mul_l _)). cbn [bind].
  assert (G : good (n, 1) H (fun i j r => phi i j r * psi r) (simplify_result (vec_mul_template v s))).
  { apply good_simplify; [exact Hn | cbn; lia | exact HZ|]. apply vec_mul_template_good; assumption. }
  destruct v as [l|l|l|l]; destruct s as [k|x|m|p]; try exact G; discriminate HT.
Qed.

(** the operand of a product *)
Lemma operand_mul dims left da g b db psi : left = Ok da -> means g = Some b -> 1 <= fst db -> 1 <= snd db ->
  arr db (fun i j => cB (psi i j)) b -> dims da db = true -> operand_check dims left g = Ok tt.
Proof.
  intros El Hg B1 B2 Hb D. destruct (means_as_expr g b Hg) as [Eg|(z & -> & _)]; [|reflexivity].
  exact (operand_check_ok dims left da g b db _ El Eg B1 B2 (cden_valid B H psi) Hb D).
Qed.

(** vector times scalar or vector of length one *)
Lemma vec_mul_good n phi psi v g b : 1 <= n -> arr (n, 1) (fun i j => cA (phi i j)) (EV v) -> means g = Some b ->
  arr (1, 1) (fun i j => cB (psi i j)) b -> multiply_accepts (EV v) g = true ->
  good (n, 1) H (fun i j r => phi i j r * psi 0 0 r) (vec_mul v g).
Proof.
  intros Hn Hv Hg Hb HT. pose proof (proj1 (arr_EV _ _ _) Hv) as Hv'. unfold vec_mul.
  rewrite (vec_check_col n _ v Hn (cden_valid0 A H phi) Hv'). cbn [check bind].
  pose proof (vec_dims_col n _ v Hn (cden_valid0 A H phi) Hv') as Ed.
  rewrite (operand_mul dims_mul _ (n, 1) g b (1, 1) psi Ed Hg (le_n 1) (le_n 1) Hb (dims_mul_l _)). cbn [bind].
  assert (HS : forall s, cB (psi 0 0) s -> multiply_accepts (EV v) (GExpr (ES s)) = true -> good (n, 1) H (fun i j r => phi i j r * psi 0 0 r) (vec_mul_scalar v s)).
  { intros s Hs HT'. apply vec_mul_scalar_good; assumption. }
  assert (HS' : forall s, cB (psi 0 0) s -> multiply_accepts (EV v) (GExpr (ES s)) = true -> good (n, 1) H (fun i j r => phi i j r * psi 0 0 r) (simplify_result (vec_mul_scalar v s))).
  { intros s Hs HT'. apply good_simplify; [exact Hn | cbn; lia | exact HZ | apply HS; assumption]. }
  assert (BS : forall s, b = ES s -> cB (psi 0 0) s). { intros s ->. apply arr_ES in Hb. exact Hb. }
  assert (BV : forall w, b = EV w -> exists s, nth_error (vec_entries w) 0 = Some s /\ vec_get w 0 = Ok s /\ cB (psi 0 0) s).
  { intros w ->. apply arr_EV in Hb. destruct (vec_get_col 1 _ w 0 (le_n 1) (cden_valid0 B H psi) Hb) as (s & E1 & E2 & Hs); [lia|]. exists s. auto. }
  assert (BK : forall l r, v = VK l -> b = EV (VK r) -> good (n, 1) H (fun i j r => phi i j r * psi 0 0 r) (k_vec_mul_vec l r)).
  { intros l r -> Eb. destruct (BV _ Eb) as (s & E & _ & Hs). unfold k_vec_mul_vec.
    rewrite (operand_mul dims_mul _ (n, 1) (GExpr (EV (VK r))) b (1, 1) psi Ed (f_equal Some (eq_sym Eb)) (le_n 1) (le_n 1) Hb (dims_mul_l _)). cbn [bind].
    cbn [vec_entries] in E. rewrite nth_error_map in E. destruct (nth_error r 0) as [k|] eqn:E0; [|discriminate]. cbn in E. injection E as <-.
    rewrite (index_nth _ _ _ E0). cbn [bind]. apply HS'; [exact Hs | reflexivity]. }
  destruct g as [f|z|l0|l0|l0|l0|e|]; cbn in Hg; try discriminate Hg; injection Hg as <-.
  - (* float64 *) destruct v as [l|l|l|l]; try (apply HS'; [apply BS; reflexivity | reflexivity]). apply HS; [apply BS; reflexivity | reflexivity].
  - destruct v as [l|l|l|l]; discriminate HT.
  - destruct v as [l|l|l|l]; try discriminate HT. apply good_simplify; [exact Hn | cbn; lia | exact HZ|]. apply BK; reflexivity.
  - destruct v as [l|l|l|l]; try discriminate HT. do 2 (apply good_simplify; [exact Hn | cbn; lia | exact HZ|]). apply BK; reflexivity.
  - destruct v as [l|l|l|l]; discriminate HT.
  - destruct v as [l|l|l|l]; discriminate HT.
  - destruct e as [s|w|m]; [| |destruct v as [l|l|l|l]; discriminate HT].
    + assert (G : good (n, 1) H (fun i j r => phi i j r * psi 0 0 r) (vec_mul_scalar v s)) by (apply HS; [apply BS; reflexivity | exact HT]).
      destruct v as [l|l|l|l]; exact G.
    + destruct (BV w eq_refl) as (s & E & Eg & Hs). destruct v as [l|l|l|l].
      * destruct w as [r|r|r|r]; try discriminate HT.
        -- apply BK; reflexivity.
        -- cbn [vec_entries] in E. rewrite nth_error_map in E. destruct (nth_error r 0) as [x|] eqn:E0; [|discriminate]. cbn in E. injection E as <-.
           rewrite (index_nth _ _ _ E0). cbn [bind]. apply HS'; [exact Hs | reflexivity].
      * rewrite Eg. cbn [bind]. apply HS'; [exact Hs | reflexivity].
      * destruct w; discriminate HT.
      * destruct w as [r|r|r|r]; try discriminate HT.
        cbn [vec_entries] in E. rewrite nth_error_map in E. destruct (nth_error r 0) as [x|] eqn:E0; [|discriminate]. cbn in E. injection E as <-.
        rewrite (index_nth _ _ _ E0). cbn [bind]. apply HS'; [exact Hs | reflexivity].
Qed.

End ArrMul.
