(** * Vectors and matrices with short coefficients: checks, indexing, concretisation, simplification, transposition and stacking
      in binary64 and in rational numbers side by side *)

From Coq Require Import ZArith NArith Bool List Lia.
From Coq Require Import QArith Qcanon.
From Coq.Floats Require Import SpecFloat.
From Verif Require Import Num Syntax ModelScalar Spec SpecProg SpecExact FloatExact FloatSim FloatRun FloatOps ModelShape ModelArith SpecArr SpecAProg SpecExactArr.
Import ListNotations.
Local Open Scope Z_scope.

Notation ra := exact_vector.
Notation ro := exact_matrix.
Notation rx := exact_expr.
Notation rg := exact_operand.

(** ** Loops *)

Lemma sim_mapM {A B C D} (rc : A -> B) (rd : C -> D) (P : C -> Prop) f g l :
  (forall a, In a l -> sim rd P (f a) (g (rc a))) -> sim (map rd) (Forall P) (mapM f l) (mapM g (map rc l)).
Proof.
  induction l as [|a l IH]; intro H; cbn [mapM map].
  - apply sim_ok; [constructor | reflexivity].
  - eapply sim_bind; [apply H; left; reflexivity|]. intros b Hb. eapply sim_bind; [apply IH; intros x Hx; apply H; right; exact Hx|].
    intros bs Hbs. apply sim_ok; [constructor; assumption | reflexivity].
Qed.
Lemma sim_mapM_same {A C D} (rd : C -> D) (P : C -> Prop) (f : A -> res C) (g : A -> res D) l :
  (forall a, In a l -> sim rd P (f a) (g a)) -> sim (map rd) (Forall P) (mapM f l) (mapM g l).
Proof. intro H. rewrite <- (map_id l) at 2. apply sim_mapM. exact H. Qed.
Lemma sim_foldM_same {A B C} (rd : A -> B) (P : list C -> A -> Prop) (f : A -> C -> res A) (g : B -> C -> res B) l acc :
  (forall c l' a, (exists l0, l = l0 ++ c :: l') -> P (c :: l') a -> sim rd (P l') (f a c) (g (rd a) c)) ->
  P l acc -> sim rd (P []) (foldM f acc l) (foldM g (rd acc) l).
Proof. intros H K. rewrite <- (map_id l) at 2. apply sim_foldM; assumption. Qed.

Lemma sim_eq {A A' B'} (rd' : A' -> B') Q (x y : res A) f g :
  y = x -> (forall a, x = Ok a -> sim rd' Q (f a) (g a)) -> sim rd' Q (bind x f) (bind y g).
Proof. intros -> H. destruct x as [a|p]; cbn [bind]; [apply H; reflexivity | reflexivity]. Qed.

Lemma sim_index_F {A B} (rd : A -> B) (P : A -> Prop) l i : Forall P l -> sim rd P (index l i) (index (map rd l) i).
Proof. intro H. apply sim_index. apply Forall_forall. exact H. Qed.

(** ** Entries *)

Definition av (k n : Z) (v : @vector F) : Prop := Forall (sc k n) (vec_entries v).
Definition am (k n : Z) (m : @matrix F) : Prop := Forall (Forall (sc k n)) (mat_rows m).
Definition ax (k n : Z) (e : @expr F) : Prop := match e with ES s => sc k n s | EV v => av k n v | EM m => am k n m end.

Lemma entries_exact v : @vec_entries G (ra v) = map rs (@vec_entries F v).
Proof. destruct v; cbn [vec_entries exact_vector]; rewrite !map_map; reflexivity. Qed.
Lemma rows_exact m : @mat_rows G (ro m) = map (map rs) (@mat_rows F m).
Proof. destruct m; cbn [mat_rows exact_matrix]; rewrite !map_map; apply map_ext; intro l'; rewrite !map_map; reflexivity. Qed.

Lemma av_le k n n' v : av k n v -> n <= n' -> av k n' v.
Proof. intros H L. eapply Forall_impl; [|exact H]. intros s Hs. eapply sc_le; eassumption. Qed.
Lemma am_le k n n' v : am k n v -> n <= n' -> am k n' v.
Proof. intros H L. eapply Forall_impl; [|exact H]. intros r Hr. eapply Forall_impl; [|exact Hr]. intros s Hs. eapply sc_le; eassumption. Qed.
Lemma ax_le k n n' e : ax k n e -> n <= n' -> ax k n' e.
Proof. destruct e; [apply sc_le | apply av_le | apply am_le]. Qed.
Lemma av_regrid k j v n : 0 <= k -> 0 <= j -> av k n v -> av (k + j) (n * 2 ^ j) v.
Proof. intros Hk Hj H. eapply Forall_impl; [|exact H]. intros s Hs. apply sc_regrid; assumption. Qed.
Lemma am_regrid k j v n : 0 <= k -> 0 <= j -> am k n v -> am (k + j) (n * 2 ^ j) v.
Proof. intros Hk Hj H. eapply Forall_impl; [|exact H]. intros r Hr. eapply Forall_impl; [|exact Hr]. intros s Hs. apply sc_regrid; assumption. Qed.
Lemma ax_regrid k j e n : 0 <= k -> 0 <= j -> ax k n e -> ax (k + j) (n * 2 ^ j) e.
Proof. destruct e; [apply sc_regrid | apply av_regrid | apply am_regrid]. Qed.

(** ** Checks and dimensions *)

Lemma forallb_map_ext {A B} (f : A -> B) (h : B -> bool) (h' : A -> bool) l : (forall a, In a l -> h (f a) = h' a) -> forallb h (map f l) = forallb h' l.
Proof. induction l as [|a l IH]; intro H; cbn [map forallb]; [reflexivity|]. rewrite H by (left; reflexivity). rewrite IH; [reflexivity|]. intros x Hx. apply H. right. exact Hx. Qed.
Lemma existsb_map_ext {A B} (f : A -> B) (h : B -> bool) (h' : A -> bool) l : (forall a, h (f a) = h' a) -> existsb h (map f l) = existsb h' l.
Proof. intro H. induction l as [|a l IH]; cbn [map existsb]; [reflexivity|]. rewrite H, IH. reflexivity. Qed.
Lemma nonempty_map {A B} (f : A -> B) l : nonempty (map f l) = nonempty l.
Proof. destruct l; reflexivity. Qed.

Lemma vec_check_sim k n v : av k n v -> @vec_check G (ra v) = @vec_check F v.
Proof.
  unfold av. destruct v as [l|l|l|l]; cbn [vec_check exact_vector vec_entries]; intro H; rewrite ?nonempty_map.
  - reflexivity.
  - apply forallb_map_ext. intros x Hx. apply var_check_sim. rewrite Forall_map, Forall_forall in H. exact (proj1 (H x Hx)).
  - f_equal. apply forallb_map_ext. intros. apply mono_check_sim.
  - f_equal. apply forallb_map_ext. intros. apply poly_check_sim.
Qed.

Lemma rows_check_sim {A B} (f : A -> B) ok ok' l : (forall r a, In r l -> In a r -> ok' (f a) = ok a) -> rows_check ok' (map (map f) l) = rows_check ok l.
Proof.
  destruct l as [|r0 l]; [reflexivity|]. intro H. unfold rows_check. cbn [map]. change (map f r0 :: map (map f) l) with (map (map f) (r0 :: l)). f_equal.
  - apply forallb_map_ext. intros r _. rewrite !map_length. reflexivity.
  - apply forallb_map_ext. intros r Hr. apply forallb_map_ext. intros a Ha. exact (H r a Hr Ha).
Qed.
Lemma mat_check_sim k n m : am k n m -> @mat_check G (ro m) = @mat_check F m.
Proof.
  unfold am. destruct m as [l|l|l|l]; cbn [mat_check exact_matrix mat_rows]; intro H.
  - reflexivity.
  - apply rows_check_sim. intros r x Hr Hx. apply var_check_sim. rewrite Forall_map, Forall_forall in H. specialize (H r Hr). cbn beta in H. rewrite Forall_map, Forall_forall in H. exact (proj1 (H x Hx)).
  - apply rows_check_sim. intros. apply mono_check_sim.
  - apply rows_check_sim. intros. apply poly_check_sim.
Qed.
Lemma expr_check_sim k n e : ax k n e -> @expr_check G (rx e) = @expr_check F e.
Proof. destruct e; cbn [expr_check exact_expr ax]; [apply scalar_check_sim | apply vec_check_sim | apply mat_check_sim]. Qed.

Lemma vec_len_sim v k n : av k n v -> @vec_len G (ra v) = @vec_len F v.
Proof.
  destruct v as [l|l|l|l]; cbn [vec_len exact_vector]; rewrite ?map_length; try reflexivity. intro H.
  pose proof (vec_check_sim k n (VP l) H) as E. cbn [exact_vector] in E. rewrite E. reflexivity.
Qed.
Lemma vec_dims_sim k n v : av k n v -> @vec_dims G (ra v) = @vec_dims F v.
Proof. intro H. unfold vec_dims. rewrite (vec_len_sim v k n H). reflexivity. Qed.
Lemma rows_dims_map {A B} (f : A -> B) l : rows_dims (map (map f) l) = rows_dims l.
Proof. destruct l as [|r l]; [reflexivity|]. unfold rows_dims. cbn. rewrite !map_length. reflexivity. Qed.
Lemma mat_dims_sim k n m : am k n m -> @mat_dims G (ro m) = @mat_dims F m.
Proof. intro H. unfold mat_dims. rewrite (mat_check_sim k n m H). destruct m; cbn [exact_matrix]; rewrite rows_dims_map; reflexivity. Qed.
Lemma expr_dims_sim k n e : ax k n e -> @expr_dims G (rx e) = @expr_dims F e.
Proof. destruct e; cbn [expr_dims exact_expr ax]; [reflexivity | apply vec_dims_sim | apply mat_dims_sim]. Qed.

(** ** Operands *)
Definition ag (k n : Z) (g : @goval F) : Prop :=
  match g with
  | GFloat f => sc k n (SK f)
  | GInt z => Z.abs z * 2 ^ k <= n
  | GVec l | GVecP l => av k n (VK l)
  | GDense l | GDenseP l => am k n (MK l)
  | GExpr e => ax k n e
  | GOther => 0 <= n
  end.
Lemma as_expr_sim k n g : ag k n g -> match @as_expr F g with Some e => @as_expr G (rg g) = Some (rx e) /\ ax k n e | None => @as_expr G (rg g) = None end.
Proof. destruct g; cbn [ag as_expr exact_operand]; auto. Qed.

Lemma operand_check_sim k n dims d d' g : ag k n g -> d' = d -> @operand_check G dims d' (rg g) = @operand_check F dims d g.
Proof.
  intros Hg ->. unfold operand_check. pose proof (as_expr_sim k n g Hg) as H. destruct (@as_expr F g) as [e|]; [|rewrite H; reflexivity].
  destruct H as [-> He]. rewrite (expr_check_sim k n e He), (expr_dims_sim k n e He). reflexivity.
Qed.
Lemma expr_operand_check_sim k n dims d d' e : ax k n e -> d' = d -> @operand_check G dims d' (@GExpr G (rx e)) = @operand_check F dims d (GExpr e).
Proof. intros He E. exact (operand_check_sim k n dims d d' (GExpr e) He E). Qed.

(** ** Indexing *)

Lemma sim_index_z {A B} (rd : A -> B) (P : A -> Prop) l i : Forall P l -> sim rd P (index_z l i) (index_z (map rd l) i).
Proof. intro H. unfold index_z. destruct (i <? 0); [reflexivity | apply sim_index_F; exact H]. Qed.

Lemma av_inv {A} (f : A -> @scalar F) k n l : Forall (sc k n) (map f l) -> Forall (fun a => sc k n (f a)) l.
Proof. exact (proj1 (Forall_map f (sc k n) l)). Qed.
Lemma am_inv {A} (f : A -> @scalar F) k n l : Forall (Forall (sc k n)) (map (map f) l) -> Forall (Forall (fun a => sc k n (f a))) l.
Proof. rewrite Forall_map. intro H. eapply Forall_impl; [|exact H]. intros r Hr. exact (proj1 (Forall_map f (sc k n) r) Hr). Qed.
Lemma am_intro {A} (f : A -> @scalar F) k n l : Forall (Forall (fun a => sc k n (f a))) l -> Forall (Forall (sc k n)) (map (map f) l).
Proof. rewrite Forall_map. intro H. eapply Forall_impl; [|exact H]. intros r Hr. exact (proj2 (Forall_map f (sc k n) r) Hr). Qed.

Lemma vec_at_vec_sim k n v i : av k n v -> sim rs (sc k n) (@vec_at_vec F v i) (@vec_at_vec G (ra v) i).
Proof.
  intro H. pose proof (vec_check_sim k n v H) as C. destruct v as [l|l|l|l]; cbn [exact_vector] in C; cbn [vec_at_vec exact_vector]; unfold av in H; cbn [vec_entries] in H; apply av_inv in H; rewrite ?C, ?map_length.
  - apply sim_check; [reflexivity|]. intros _. eapply sim_bind; [apply (sim_index_z exactly _ l i H)|]. intros c Hc. apply sim_ok; [exact Hc | reflexivity].
  - apply sim_check; [reflexivity|]. intros _. eapply sim_bind; [apply (sim_index_z rv _ l i H)|]. intros c Hc. apply sim_ok; [exact Hc | reflexivity].
  - apply sim_check; [reflexivity|]. intros _. eapply sim_bind; [apply (sim_index_z rm _ l i H)|]. intros c Hc. apply sim_ok; [exact Hc | reflexivity].
  - apply sim_check; [reflexivity|]. intros _. apply sim_check; [reflexivity|]. intros _. eapply sim_bind; [apply (sim_index_z (map rm) _ l i H)|]. intros c Hc. apply sim_ok; [exact Hc | reflexivity].
Qed.
Lemma vec_get_sim k n v i : av k n v -> sim rs (sc k n) (@vec_get F v i) (@vec_get G (ra v) i).
Proof. apply vec_at_vec_sim. Qed.
Lemma vec_at_sim k n v i j : av k n v -> sim rs (sc k n) (@vec_at F v i j) (@vec_at G (ra v) i j).
Proof.
  intro H. unfold vec_at. apply sim_check; [rewrite <- (vec_check_sim k n v H); destruct v; reflexivity|]. intros _.
  apply sim_eq; [apply (vec_len_sim v k n H)|]. intros len _. apply sim_check; [reflexivity|]. intros _. rewrite entries_exact.
  eapply sim_bind; [apply (sim_index_z rs (sc k n)); exact H|]. intros s Hs. apply sim_ok; [exact Hs | reflexivity].
Qed.

Definition cs (k n : Z) (c : @num F) : Prop := sc k n (SK c).
Lemma firstn_Forall {A} (P : A -> Prop) j l : Forall P l -> Forall P (firstn j l).
Proof. intro H. rewrite <- (firstn_skipn j l) in H. apply Forall_app in H. apply H. Qed.
Lemma k_to_dense_sim k n l : Forall (Forall (cs k n)) l -> sim (map (map exactly)) (Forall (Forall (cs k n))) (@k_to_dense F l) (@k_to_dense G (map (map exactly) l)).
Proof.
  intro H. unfold k_to_dense. apply sim_eq; [exact (@rows_dims_map (@num F) (@num G) exactly l)|]. intros d _. apply sim_check; [reflexivity|]. intros _.
  apply sim_mapM. intros r Hr. rewrite map_length. apply sim_check; [reflexivity|]. intros _. apply sim_ok.
  - apply firstn_Forall. rewrite Forall_forall in H. exact (H r Hr).
  - apply firstn_map.
Qed.
Definition pick {A} (l : list (list A)) (i j : Z) : res A :=
  match (if Z.ltb i 0 then None else nth_error l (Z.to_nat i)) with
  | Some r => match (if Z.ltb j 0 then None else nth_error r (Z.to_nat j)) with Some x => Ok x | None => Panic PGonum end
  | None => Panic PGonum
  end.
Lemma pick_sim {A B} (rd : A -> B) (P : A -> Prop) l i j : Forall (Forall P) l -> sim rd P (pick l i j) (pick (map (map rd) l) i j).
Proof.
  intro H. unfold pick. destruct (i <? 0); [reflexivity|]. rewrite nth_error_map. destruct (nth_error l (Z.to_nat i)) as [r|] eqn:E; cbn [option_map]; [|reflexivity].
  destruct (j <? 0); [reflexivity|]. rewrite nth_error_map. destruct (nth_error r (Z.to_nat j)) as [x|] eqn:E'; cbn [option_map]; [|reflexivity].
  apply sim_ok; [|reflexivity]. rewrite Forall_forall in H. specialize (H r (nth_error_In _ _ E)). rewrite Forall_forall in H. exact (H x (nth_error_In _ _ E')).
Qed.
Lemma dense_at_sim k n l i j : Forall (Forall (cs k n)) l -> sim exactly (cs k n) (@dense_at F l i j) (@dense_at G (map (map exactly) l) i j).
Proof. intro H. exact (@pick_sim (@num F) (@num G) exactly (cs k n) l i j H). Qed.
Lemma rows_index_sim {A B} (rd : A -> B) (P : A -> Prop) l i j : Forall (Forall P) l -> sim rd P (rows_index l i j) (rows_index (map (map rd) l) i j).
Proof. intro H. unfold rows_index. eapply sim_bind; [apply (sim_index_z (map rd) (Forall P)); exact H|]. intros r Hr. apply sim_index_z. exact Hr. Qed.

Lemma mat_at_sim k n m i j : am k n m -> sim rs (sc k n) (@mat_at F m i j) (@mat_at G (ro m) i j).
Proof.
  intro H. pose proof (mat_check_sim k n m H) as C. pose proof (mat_dims_sim k n m H) as D. destruct m as [l|l|l|l]; cbn [exact_matrix] in C, D; cbn [mat_at exact_matrix]; unfold am in H; cbn [mat_rows] in H; apply am_inv in H; rewrite ?C, ?D.
  - eapply sim_bind; [apply (k_to_dense_sim k n l H)|]. intros d Hd. eapply sim_bind; [apply (dense_at_sim k n d i j Hd)|]. intros c Hc. apply sim_ok; [exact Hc | reflexivity].
  - apply sim_check; [reflexivity|]. intros _. eapply sim_bind; [apply (rows_index_sim rv _ l i j H)|]. intros c Hc. apply sim_ok; [exact Hc | reflexivity].
  - apply sim_check; [reflexivity|]. intros _. eapply sim_bind; [apply (rows_index_sim rm _ l i j H)|]. intros c Hc. apply sim_ok; [exact Hc | reflexivity].
  - apply sim_check; [reflexivity|]. intros _. apply sim_eq; [reflexivity|]. intros d _. apply sim_check; [reflexivity|]. intros _.
    eapply sim_bind; [apply (rows_index_sim (map rm) _ l i j H)|]. intros c Hc. apply sim_ok; [exact Hc | reflexivity].
Qed.
Lemma mat_get_sim k n m i j : am k n m -> sim rs (sc k n) (@mat_get F m i j) (@mat_get G (ro m) i j).
Proof. apply mat_at_sim. Qed.
Lemma expr_at_sim k n e i j : ax k n e -> sim rs (sc k n) (@expr_at F e i j) (@expr_at G (rx e) i j).
Proof.
  destruct e as [s|v|m]; cbn [expr_at exact_expr ax]; [|apply vec_at_sim|apply mat_at_sim]. intro H. unfold scalar_at.
  apply sim_check; [apply (scalar_check_sim k n s H)|]. intros _. apply sim_check; [reflexivity|]. intros _. apply sim_ok; [exact H | reflexivity].
Qed.

(** ** Concretisation *)

Lemma is_k_exact s : @is_k G (rs s) = @is_k F s. Proof. destruct s; reflexivity. Qed.
Lemma is_v_exact s : @is_v G (rs s) = @is_v F s. Proof. destruct s; reflexivity. Qed.
Lemma is_m_exact s : @is_m G (rs s) = @is_m F s. Proof. destruct s; reflexivity. Qed.
Lemma is_p_exact s : @is_p G (rs s) = @is_p F s. Proof. destruct s; reflexivity. Qed.

Lemma to_poly_exact s : @to_poly G (rs s) = map rm (@to_poly F s).
Proof. destruct s; cbn [to_poly exact_scalar]; try reflexivity. unfold var_to_poly. cbn [map]. rewrite rm_var. reflexivity. Qed.
Lemma to_poly_sc k n s : 0 <= k -> sc k n s -> sc k n (SP (to_poly s)).
Proof.
  intro Hk. destruct s as [c|v|m|p]; cbn [sc to_poly].
  - intros (z & Hz & L). eapply pol_single; [apply mon_const; exact Hz | exact L].
  - intros [Hv L]. eapply pol_single; [apply (mon_var k v Hk Hv) | rewrite abs_2k by exact Hk; exact L].
  - intros (z & Hz & L). eapply pol_single; [exact Hz | exact L].
  - auto.
Qed.
Definition msc (k n : Z) (m : @Monomial F) : Prop := sc k n (SM m).
Definition vsc (k n : Z) (v : @var F) : Prop := sc k n (SV v).
Definition psc (k n : Z) (p : @Polynomial F) : Prop := sc k n (SP p).
Lemma to_mono_sim k n s : 0 <= k -> sc k n s -> sim rm (msc k n) (@to_mono F s) (@to_mono G (rs s)).
Proof.
  intro Hk. destruct s as [c|v|m|p]; cbn [sc to_mono exact_scalar].
  - intros (z & Hz & L). apply sim_ok; [|reflexivity]. exists z. split; [apply mon_const; exact Hz | exact L].
  - intros [Hv L]. apply sim_ok; [|rewrite rm_var; reflexivity]. exists (2 ^ k). split; [apply (mon_var k v Hk Hv) | rewrite abs_2k by exact Hk; exact L].
  - intros H. apply sim_ok; [exact H | reflexivity].
  - intros _. reflexivity.
Qed.
Lemma to_var_sim k n s : sc k n s -> sim rv (vsc k n) (@to_var F s) (@to_var G (rs s)).
Proof. destruct s as [c|v|m|p]; cbn [to_var exact_scalar]; intro H; try reflexivity. apply sim_ok; [exact H | reflexivity]. Qed.
Lemma to_k_sim k n s : sc k n s -> sim exactly (cs k n) (@to_k F s) (@to_k G (rs s)).
Proof. destruct s as [c|v|m|p]; cbn [to_k exact_scalar]; intro H; try reflexivity. apply sim_ok; [exact H | reflexivity]. Qed.

Lemma concretize_vector_sim k n l : 0 <= k -> Forall (sc k n) l -> sim ra (av k n) (@concretize_vector F l) (@concretize_vector G (map rs l)).
Proof.
  intros Hk H. pose proof H as H'. rewrite Forall_forall in H'. unfold concretize_vector. rewrite nonempty_map. apply sim_check; [reflexivity|]. intros _.
  rewrite (existsb_map_ext rs is_p is_p l is_p_exact), (existsb_map_ext rs is_m is_m l is_m_exact), (existsb_map_ext rs is_k is_k l is_k_exact), (existsb_map_ext rs is_v is_v l is_v_exact).
  rewrite (forallb_map_ext rs is_v is_v l) by (intros; apply is_v_exact).
  destruct (existsb is_p l).
  - apply sim_ok.
    + unfold av. cbn [vec_entries]. rewrite Forall_map, Forall_map. eapply Forall_impl; [|exact H]. intros s. apply to_poly_sc. exact Hk.
    + cbn [exact_vector]. do 2 f_equal. rewrite !map_map. apply map_ext. exact to_poly_exact.
  - destruct (existsb is_m l || _).
    + eapply sim_bind; [apply (sim_mapM rs rm (msc k n)); intros a Ha; apply to_mono_sim; [exact Hk | exact (H' a Ha)]|]. intros ms Hm. apply sim_ok; [|reflexivity]. unfold av. cbn [vec_entries]. rewrite Forall_map. exact Hm.
    + destruct (forallb is_v l).
      * eapply sim_bind; [apply (sim_mapM rs rv (vsc k n)); intros a Ha; apply to_var_sim; exact (H' a Ha)|]. intros ms Hm. apply sim_ok; [|reflexivity]. unfold av. cbn [vec_entries]. rewrite Forall_map. exact Hm.
      * destruct (existsb is_k l); [|reflexivity].
        eapply sim_bind; [apply (sim_mapM rs exactly (cs k n)); intros a Ha; apply (to_k_sim k n); exact (H' a Ha)|]. intros ms Hm. apply sim_ok; [|reflexivity]. unfold av. cbn [vec_entries]. rewrite Forall_map. exact Hm.
Qed.

Lemma concat_map_map {A B} (f : A -> B) l : concat (map (map f) l) = map f (concat l).
Proof. induction l as [|r l IH]; cbn [map concat]; [reflexivity|]. rewrite map_app, IH. reflexivity. Qed.

Lemma sim_mapM2 {A B C D} (rc : A -> B) (rd : C -> D) (P : C -> Prop) f g l :
  (forall r a, In r l -> In a r -> sim rd P (f a) (g (rc a))) -> sim (map (map rd)) (Forall (Forall P)) (mapM (mapM f) l) (mapM (mapM g) (map (map rc) l)).
Proof. intro H. apply sim_mapM. intros r Hr. apply sim_mapM. intros a Ha. exact (H r a Hr Ha). Qed.

Lemma concretize_matrix_sim k n l : 0 <= k -> Forall (Forall (sc k n)) l -> sim ro (am k n) (@concretize_matrix F l) (@concretize_matrix G (map (map rs) l)).
Proof.
  intros Hk H. assert (H' : forall r a, In r l -> In a r -> sc k n a). { intros r a Hr Ha. rewrite Forall_forall in H. specialize (H r Hr). rewrite Forall_forall in H. exact (H a Ha). }
  unfold concretize_matrix. destruct l as [|r0 l0]; [reflexivity|]. remember (r0 :: l0) as l eqn:El. cbn [map]. replace (map (map rs) l) with (map rs r0 :: map (map rs) l0) by (rewrite El; reflexivity).
  cbn iota. replace (map rs r0 :: map (map rs) l0) with (map (map rs) l) by (rewrite El; reflexivity).
  apply sim_check.
  { apply forallb_map_ext. intros r _. rewrite !map_length. reflexivity. }
  intros _. cbv zeta. rewrite concat_map_map.
  rewrite (existsb_map_ext rs is_p is_p _ is_p_exact), (existsb_map_ext rs is_m is_m _ is_m_exact), (existsb_map_ext rs is_k is_k _ is_k_exact), (existsb_map_ext rs is_v is_v _ is_v_exact).
  rewrite (forallb_map_ext rs is_v is_v _) by (intros; apply is_v_exact).
  destruct (existsb is_p _).
  - apply sim_ok.
    + unfold am. cbn [mat_rows]. apply am_intro. rewrite Forall_map. eapply Forall_impl; [|exact H]. intros r Hr. rewrite Forall_map. eapply Forall_impl; [|exact Hr]. intros s. apply to_poly_sc. exact Hk.
    + cbn [exact_matrix]. do 2 f_equal. rewrite !map_map. apply map_ext. intro r. rewrite !map_map. apply map_ext. exact to_poly_exact.
  - destruct (existsb is_m _ || _).
    + eapply sim_bind; [apply (sim_mapM2 rs rm (msc k n)); intros r a Hr Ha; apply to_mono_sim; [exact Hk | exact (H' r a Hr Ha)]|]. intros ms Hm. apply sim_ok; [|reflexivity]. apply am_intro. exact Hm.
    + destruct (forallb is_v _).
      * eapply sim_bind; [apply (sim_mapM2 rs rv (vsc k n)); intros r a Hr Ha; apply to_var_sim; exact (H' r a Hr Ha)|]. intros ms Hm. apply sim_ok; [|reflexivity]. apply am_intro. exact Hm.
      * destruct (existsb is_k _); [|reflexivity].
        eapply sim_bind; [apply (sim_mapM2 rs exactly (cs k n)); intros r a Hr Ha; apply (to_k_sim k n); exact (H' r a Hr Ha)|]. intros ms Hm. apply sim_ok; [|reflexivity]. apply am_intro. exact Hm.
Qed.

Lemma concretize_slice_sim k n l : 0 <= k -> Forall (sc k n) l -> sim rx (ax k n) (@concretize_slice F l) (@concretize_slice G (map rs l)).
Proof.
  intros Hk H. unfold concretize_slice. eapply sim_bind; [apply (concretize_vector_sim k n l Hk H)|]. intros v Hv. cbn beta.
  apply sim_eq; [apply (vec_dims_sim k n v Hv)|]. intros d _. destruct (Nat.eqb (fst d) 1).
  - eapply sim_bind; [apply (vec_at_sim k n v 0 0 Hv)|]. intros s Hs. apply sim_ok; [exact Hs | reflexivity].
  - apply sim_ok; [exact Hv | reflexivity].
Qed.
Lemma concretize_rows_sim k n l : 0 <= k -> Forall (Forall (sc k n)) l -> sim rx (ax k n) (@concretize_rows F l) (@concretize_rows G (map (map rs) l)).
Proof.
  intros Hk H. unfold concretize_rows. eapply sim_bind; [apply (concretize_matrix_sim k n l Hk H)|]. intros m Hm. cbn beta.
  apply sim_eq; [apply (mat_dims_sim k n m Hm)|]. intros d _. destruct (Nat.eqb (fst d) 1 && Nat.eqb (snd d) 1).
  - eapply sim_bind; [apply (mat_get_sim k n m 0 0 Hm)|]. intros s Hs. apply sim_ok; [exact Hs | reflexivity].
  - destruct (Nat.eqb (snd d) 1).
    + eapply sim_bind; [apply (sim_mapM_same rs (sc k n)); intros i _; apply (mat_get_sim k n m i 0 Hm)|]. intros col Hc. eapply sim_bind; [apply (concretize_vector_sim k n col Hk Hc)|].
      intros v Hv. apply sim_ok; [exact Hv | reflexivity].
    + apply sim_ok; [exact Hm | reflexivity].
Qed.

(** ** AsSimplifiedExpression *)

Lemma vec_simplified_sim k n v : 0 <= k <= 1000 -> n <= top -> av k n v -> sim ra (av k n) (@vec_simplified F v) (@vec_simplified G (ra v)).
Proof.
  intros Hk Ht H. pose proof (vec_check_sim k n v H) as C. pose proof (entries_exact v) as E.
  assert (S : sim ra (av k n) (_ <- check (@vec_check F v) PCheck ;; l <- mapM scalar_simplified (vec_entries v) ;; concretize_vector l)
    (_ <- check (@vec_check G (ra v)) PCheck ;; l <- mapM scalar_simplified (vec_entries (ra v)) ;; concretize_vector l)).
  { apply sim_check; [exact C|]. intros _. rewrite E. eapply sim_bind; [apply (sim_mapM rs rs (sc k n)); intros a Ha; apply simplified_sim; [exact Hk | | exact Ht]; unfold av in H; rewrite Forall_forall in H; exact (H a Ha)|].
    intros l Hl. apply concretize_vector_sim; [lia | exact Hl]. }
  destruct v as [l|l|l|l]; try exact S; apply sim_ok; [exact H | reflexivity | exact H | reflexivity].
Qed.
Lemma mat_simplified_sim k n m : 0 <= k <= 1000 -> n <= top -> am k n m -> sim ro (am k n) (@mat_simplified F m) (@mat_simplified G (ro m)).
Proof.
  intros Hk Ht H. pose proof (mat_check_sim k n m H) as C. pose proof (rows_exact m) as E.
  assert (S : sim ro (am k n) (_ <- check (@mat_check F m) PCheck ;; l <- mapM (mapM scalar_simplified) (mat_rows m) ;; concretize_matrix l)
    (_ <- check (@mat_check G (ro m)) PCheck ;; l <- mapM (mapM scalar_simplified) (mat_rows (ro m)) ;; concretize_matrix l)).
  { apply sim_check; [exact C|]. intros _. rewrite E. eapply sim_bind; [apply (sim_mapM2 rs rs (sc k n)); intros r a Hr Ha; apply simplified_sim; [exact Hk | | exact Ht]; unfold am in H; rewrite Forall_forall in H; specialize (H r Hr); rewrite Forall_forall in H; exact (H a Ha)|].
    intros l Hl. apply concretize_matrix_sim; [lia | exact Hl]. }
  destruct m as [l|l|l|l]; try exact S; apply sim_ok; [exact H | reflexivity | exact H | reflexivity].
Qed.
Lemma expr_simplified_sim k n e : 0 <= k <= 1000 -> n <= top -> ax k n e -> sim rx (ax k n) (@expr_simplified F e) (@expr_simplified G (rx e)).
Proof.
  intros Hk Ht. destruct e as [s|v|m]; cbn [ax expr_simplified exact_expr]; intro H.
  - eapply sim_bind; [apply (simplified_sim k s n Hk H Ht)|]. intros a Ha. apply sim_ok; [exact Ha | reflexivity].
  - eapply sim_bind; [apply (vec_simplified_sim k n v Hk Ht H)|]. intros a Ha. apply sim_ok; [exact Ha | reflexivity].
  - eapply sim_bind; [apply (mat_simplified_sim k n m Hk Ht H)|]. intros a Ha. apply sim_ok; [exact Ha | reflexivity].
Qed.
Lemma simplify_result_sim k n x y : 0 <= k <= 1000 -> n <= top -> sim rx (ax k n) x y -> sim rx (ax k n) (@simplify_result F x) (@simplify_result G y).
Proof. intros Hk Ht H. unfold simplify_result. eapply sim_bind; [exact H|]. intros e He. apply expr_simplified_sim; assumption. Qed.

(** ** Transpose *)

Lemma transpose_rows_sim {A B} (rd : A -> B) (P : A -> Prop) l c : Forall (Forall P) l -> sim (map (map rd)) (Forall (Forall P)) (transpose_rows l c) (transpose_rows (map (map rd) l) c).
Proof.
  intro H. unfold transpose_rows. apply sim_mapM_same. intros j _. apply sim_mapM. intros r Hr. apply sim_index_F. rewrite Forall_forall in H. exact (H r Hr).
Qed.
Lemma vec_transpose_sim k n v : av k n v -> sim ro (am k n) (@vec_transpose F v) (@vec_transpose G (ra v)).
Proof.
  intro H. pose proof (vec_check_sim k n v H) as C. destruct v as [l|l|l|l]; cbn [vec_transpose exact_vector] in *.
  - apply sim_check; [apply nonempty_map|]. intros _. apply sim_ok; [|reflexivity]. constructor; [exact H | constructor].
  - apply sim_check; [exact C|]. intros _. apply sim_ok; [|reflexivity]. constructor; [exact H | constructor].
  - apply sim_check; [exact C|]. intros _. apply sim_ok; [|reflexivity]. constructor; [exact H | constructor].
  - apply sim_check; [exact C|]. intros _. apply sim_ok; [|reflexivity]. constructor; [exact H | constructor].
Qed.
Lemma mat_transpose_sim k n m : am k n m -> sim ro (am k n) (@mat_transpose F m) (@mat_transpose G (ro m)).
Proof.
  intro H. pose proof (mat_dims_sim k n m H) as D. destruct m as [l|l|l|l]; cbn [mat_transpose exact_matrix] in *; unfold am in H; cbn [mat_rows] in H; apply am_inv in H.
  - eapply sim_bind; [apply (k_to_dense_sim k n l H)|]. intros dd Hd. apply sim_eq; [exact (@rows_dims_map (@num F) (@num G) exactly dd)|]. intros d _.
    eapply sim_bind; [apply (transpose_rows_sim exactly (cs k n)); exact Hd|]. intros t Ht. apply sim_ok; [apply am_intro; exact Ht | reflexivity].
  - apply sim_eq; [exact D|]. intros d _. eapply sim_bind; [apply (transpose_rows_sim rv (vsc k n)); exact H|]. intros t Ht. apply sim_ok; [apply am_intro; exact Ht | reflexivity].
  - apply sim_eq; [exact D|]. intros d _. eapply sim_bind; [apply (transpose_rows_sim rm (msc k n)); exact H|]. intros t Ht. apply sim_ok; [apply am_intro; exact Ht | reflexivity].
  - apply sim_eq; [exact D|]. intros d _. eapply sim_bind; [apply (transpose_rows_sim (map rm) (psc k n)); exact H|]. intros t Ht. apply sim_ok; [apply am_intro; exact Ht | reflexivity].
Qed.
Lemma expr_transpose_sim k n e : ax k n e -> sim rx (ax k n) (@expr_transpose F e) (@expr_transpose G (rx e)).
Proof.
  destruct e as [s|v|m]; cbn [ax expr_transpose exact_expr]; intro H.
  - assert (S : sim rs (sc k n) (@scalar_transpose F s) (@scalar_transpose G (rs s))).
    { pose proof (scalar_check_sim k n s H) as C. destruct s; cbn [scalar_transpose exact_scalar scalar_check] in *; [apply sim_ok; [exact H | reflexivity] | apply sim_ok; [exact H | reflexivity] | |];
        (apply sim_check; [exact C|]; intros _; apply sim_ok; [exact H | reflexivity]). }
    eapply sim_bind; [exact S|]. intros a Ha. apply sim_ok; [exact Ha | reflexivity].
  - eapply sim_bind; [apply (vec_transpose_sim k n v H)|]. intros a Ha. apply sim_ok; [exact Ha | reflexivity].
  - eapply sim_bind; [apply (mat_transpose_sim k n m H)|]. intros a Ha. apply sim_ok; [exact Ha | reflexivity].
Qed.

(** ** Stacking *)

Lemma expr_row_sim k n e c i : ax k n e -> sim (map rs) (Forall (sc k n)) (@expr_row F e c i) (@expr_row G (rx e) c i).
Proof. intro H. unfold expr_row. apply sim_mapM_same. intros j _. apply expr_at_sim. exact H. Qed.

Lemma dims_all_sim k n es : Forall (ax k n) es -> mapM (@expr_dims G) (map rx es) = mapM (@expr_dims F) es.
Proof. induction 1 as [|e es He Hes IH]; cbn [map mapM]; [reflexivity|]. rewrite (expr_dims_sim k n e He), IH. reflexivity. Qed.
Lemma combine_map_l {A B C} (f : A -> B) l (l' : list C) : combine (map f l) l' = map (fun xy => (f (fst xy), snd xy)) (combine l l').
Proof. revert l'. induction l as [|a l IH]; intros [|c l']; cbn [map combine fst snd]; try reflexivity. rewrite IH. reflexivity. Qed.

Lemma hstack_sim k n es : 0 <= k -> Forall (ax k n) es -> sim rx (ax k n) (@hstack F es) (@hstack G (map rx es)).
Proof.
  intros Hk H. unfold hstack. apply sim_check; [apply nonempty_map|]. intros _. apply sim_eq; [apply (dims_all_sim k n es H)|]. intros ds _.
  apply sim_check; [reflexivity|]. intros _. apply sim_eq; [reflexivity|]. intros d0 _.
  eapply sim_bind; [apply (sim_mapM_same (map rs) (Forall (sc k n)))|].
  - intros i _. rewrite combine_map_l. eapply sim_bind.
    + apply (sim_mapM (fun xy => (rx (fst xy), snd xy)) (map rs) (Forall (sc k n))). intros [e d] Hed. cbn [fst snd]. apply expr_row_sim. rewrite Forall_forall in H. apply H. exact (in_combine_l _ _ _ _ Hed).
    + intros parts Hp. apply sim_ok; [apply Forall_concat; exact Hp | rewrite concat_map_map; reflexivity].
  - intros rows Hr. apply concretize_rows_sim; assumption.
Qed.
Lemma vstack_sim k n es : 0 <= k -> Forall (ax k n) es -> sim rx (ax k n) (@vstack F es) (@vstack G (map rx es)).
Proof.
  intros Hk H. unfold vstack. apply sim_check; [apply nonempty_map|]. intros _. apply sim_eq; [apply (dims_all_sim k n es H)|]. intros ds _.
  apply sim_check; [reflexivity|]. intros _.
  eapply sim_bind.
  - rewrite combine_map_l. apply (sim_mapM (fun xy => (rx (fst xy), snd xy)) (map (map rs)) (Forall (Forall (sc k n)))). intros [e d] Hed. cbn [fst snd]. apply sim_mapM_same. intros i _.
    apply expr_row_sim. rewrite Forall_forall in H. apply H. exact (in_combine_l _ _ _ _ Hed).
  - intros blocks Hb. cbn beta. rewrite concat_map_map. apply concretize_rows_sim; [exact Hk | apply Forall_concat; exact Hb].
Qed.
