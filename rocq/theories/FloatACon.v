(** * Linear vector constraints with short coefficients, in binary64 and in rational numbers side by side *)

From Coq Require Import ZArith NArith Bool List Lia.
From Coq Require Import QArith Qcanon.
From Coq.Floats Require Import SpecFloat.
From Verif Require Import Num Syntax ModelScalar ModelSC Spec Base SpecProg SpecExact FloatExact FloatSim FloatRun FloatOps FloatLin FloatProg ModelShape ModelArith SpecArr ModelConstr SpecAProg
  SpecExactArr FloatArr FloatArrPlus FloatArrMul FloatAProg FloatARun.
Import ListNotations.
Local Open Scope Z_scope.

Lemma vec_constant_sim k n v : 0 <= n -> av k n v -> sim (map exactly) (Forall (cs k n)) (@vec_constant F v) (@vec_constant G (ra v)).
Proof.
  intros Hn H. pose proof (vec_check_sim k n v H) as C. destruct v as [l|l|l|l]; cbn [vec_constant exact_vector] in *; unfold av in H; cbn [vec_entries] in H.
  - apply sim_check; [apply nonempty_map|]. intros _. apply sim_ok; [|reflexivity]. exact (av_inv SK k n l H).
  - rewrite map_length. apply zeros_sim. exact Hn.
  - apply sim_check; [exact C|]. intros _. apply av_inv in H. rewrite Forall_forall in H. apply sim_ok; [|rewrite !map_map; apply map_ext; intro m; unfold mono_constant; cbn [m_vars exact_mono m_coeff]; destruct (m_vars m); reflexivity].
    rewrite Forall_map, Forall_forall. intros m Hm. destruct (H m Hm) as (z & [_ Gz] & L). unfold mono_constant. destruct (m_vars m); [exists z; auto | apply cf0; exact Hn].
  - apply sim_check; [exact C|]. intros _. apply av_inv in H. rewrite Forall_forall in H. apply sim_mapM. intros p Hp. apply poly_constant_sim. apply H. exact Hp.
Qed.

Lemma max_degree_sim l : @max_degree G (map rs l) = @max_degree F l.
Proof.
  unfold max_degree. generalize 0%Z. induction l as [|s l IH]; intro d; cbn [foldM map]; [reflexivity|]. rewrite degree_sim. destruct (@scalar_degree F s); [cbn [bind]; apply IH | reflexivity].
Qed.
Lemma vec_degree_sim k n v : av k n v -> @vec_degree G (ra v) = @vec_degree F v.
Proof.
  intro H. pose proof (vec_check_sim k n v H) as C. pose proof (max_degree_sim (vec_entries v)) as M. rewrite <- entries_exact in M.
  destruct v as [l|l|l|l]; cbn [vec_degree exact_vector] in *; try reflexivity; rewrite C; rewrite M; reflexivity.
Qed.
Lemma vec_is_linear_sim k n v : av k n v -> @vec_is_linear G (ra v) = @vec_is_linear F v.
Proof. intro H. unfold vec_is_linear. rewrite (vec_degree_sim k n v H). reflexivity. Qed.

Lemma vec_variables_sim k n v : av k n v -> sim (map rv) (fun l => forall w, In w l -> numeric_var w) (@vec_variables F v) (@vec_variables G (ra v)).
Proof.
  intro H. pose proof (vec_check_sim k n v H) as C. unfold av in H. destruct v as [l|l|l|l]; cbn [vec_variables exact_vector vec_entries] in *.
  - apply sim_ok; [intros w [] | reflexivity].
  - apply av_inv in H. rewrite Forall_forall in H. apply sim_ok; [|apply unique_sim]. intros w Hw. apply unique_loop_in in Hw. destruct Hw as [Hw|[]]. apply (H w Hw).
  - apply sim_check; [exact C|]. intros _. apply av_inv in H. rewrite Forall_forall in H. apply sim_ok.
    + intros w Hw. apply unique_loop_in in Hw. destruct Hw as [Hw|[]]. apply in_flat_map in Hw. destruct Hw as (m & Hm & Hi). destruct (H m Hm) as (z & [Hv _] & _). auto.
    + rewrite <- unique_sim. f_equal. clear. induction l as [|m l IH]; cbn [flat_map map]; [reflexivity|]. rewrite map_app, IH. reflexivity.
  - apply av_inv in H. rewrite Forall_forall in H. apply sim_ok.
    + intros w Hw. apply unique_loop_in in Hw. destruct Hw as [Hw|[]]. apply in_flat_map in Hw. destruct Hw as (p & Hp & Hi). unfold poly_variables in Hi. apply unique_loop_in in Hi. destruct Hi as [Hi|[]].
      apply in_flat_map in Hi. destruct Hi as (m & Hm & Hi). exact (pol_vars k p n m w (H p Hp) Hm Hi).
    + rewrite <- unique_sim. f_equal. clear. induction l as [|p l IH]; cbn [flat_map map]; [reflexivity|]. rewrite map_app, IH, poly_variables_sim. reflexivity.
Qed.

Lemma vec_linear_coeff_sim k n v wrt : 0 <= k -> 0 <= n -> av k n v -> numeric_lists wrt ->
  sim (map (map exactly)) (Forall (Forall (cs k n))) (@vec_linear_coeff F v wrt) (@vec_linear_coeff G (ra v) (map (map rv) wrt)).
Proof.
  intros Hk Hn H Hw. unfold vec_linear_coeff. apply sim_check; [apply (vec_check_sim k n v H)|]. intros _.
  eapply (sim_bind (map rv) (map (map exactly)) (fun l => forall w, In w l -> numeric_var w)).
  - destruct wrt as [|w [|w' t]]; cbn [map]; [apply (vec_variables_sim k n v H) | apply sim_ok; [intros x; apply Hw; left; reflexivity | reflexivity] | reflexivity].
  - intros w Hw'. cbn beta. apply sim_check; [apply nonempty_map|]. intros _. apply sim_eq; [apply (vec_len_sim v k n H)|]. intros j _. apply sim_check; [reflexivity|]. intros _.
    apply sim_mapM_same. intros i _. eapply sim_bind; [apply (vec_get_sim k n v i H)|]. intros s Hs. cbn beta. apply (linear_coeff_sim k n s [w]); [exact Hk | exact Hs|]. intros l x [<-|[]]. apply Hw'.
Qed.

(** ** The representation of a linear constraint *)
Lemma as_vector_sim k n x y : sim rx (ax k n) x y -> sim ra (av k n) (bind x (@as_vector F)) (bind y (@as_vector G)).
Proof. intro H. destruct x as [e|p]; [|rewrite H; reflexivity]. destruct H as [He ->]. cbn [bind]. destruct e as [s|v|m]; cbn [as_vector exact_expr]; [reflexivity | apply sim_ok; [exact He | reflexivity] | reflexivity]. Qed.

Lemma without_constant_sim k n v : 0 <= k <= 1000 -> 0 <= n -> 2 * n <= top -> av k n v -> sim rx (ax k (2 * n)) (@vec_without_constant F v) (@vec_without_constant G (ra v)).
Proof.
  intros Hk Hn Ht H. unfold vec_without_constant. eapply sim_bind; [apply (vec_constant_sim k n v Hn H)|]. intros c Hc. cbn beta. replace (2 * n) with (n + n) by lia.
  apply (expr_minus_sim k n n (EV v) (GVec c)); try lia; [exact H|]. unfold ag, av. cbn [vec_entries]. rewrite Forall_map. exact Hc.
Qed.

Section Con.
Context (k na nb : Z) (Hk : 0 <= k <= 1000) (Na : 0 <= na) (Nb : 0 <= nb) (Ht : na + 2 * nb <= top).
Context (a b : @vector F) (s : sense) (Ha : av k na a) (Hb : av k nb b).

Lemma moved_sim : sim ra (av k (na + 2 * nb)) (@vc_moved F (mkVC a b s)) (@vc_moved G (mkVC (ra a) (ra b) s)).
Proof.
  unfold vc_moved. cbn [vc_left vc_right]. eapply (sim_bind rx ra (ax k (2 * nb))); [apply without_constant_sim; [exact Hk | exact Nb | lia | exact Hb]|]. intros r Hr. cbn beta.
  eapply (sim_bind ra ra (av k (2 * nb))); [destruct r as [x|v|m]; cbn [as_vector exact_expr]; [reflexivity | apply sim_ok; [exact Hr | reflexivity] | reflexivity]|]. intros v Hv. cbn beta.
  apply as_vector_sim. apply (expr_minus_sim k na (2 * nb) (EV a) (GExpr (EV v))); try lia; assumption.
Qed.
Lemma constants_sim : sim (map exactly) (Forall (cs k (na + nb))) (@vc_constants F (mkVC a b s)) (@vc_constants G (mkVC (ra a) (ra b) s)).
Proof.
  unfold vc_constants. cbn [vc_left vc_right]. apply sim_eq; [apply (vec_len_sim a k na Ha)|]. intros n _. apply sim_check; [reflexivity|]. intros _.
  eapply sim_bind; [apply (vec_constant_sim k nb b Nb Hb)|]. intros r Hr. cbn beta. eapply sim_bind; [apply (vec_constant_sim k na a Na Ha)|]. intros l Hl. cbn beta.
  unfold sub_vec. rewrite !map_length. apply sim_check; [reflexivity|]. intros _.
  assert (E : @combine (@num G) (@num G) (map exactly r) (map exactly l) = map (fun xy : @num F * @num F => (exactly (fst xy), exactly (snd xy))) (combine r l)).
  { clear. revert l. induction r as [|x r IH]; intros [|y l]; cbn [map combine]; try reflexivity. rewrite IH. reflexivity. }
  rewrite E, map_map. cbn [fst snd]. rewrite Forall_forall in Hr, Hl.
  assert (X : forall xy, In xy (combine r l) -> exists z z', grid k z (fst xy) /\ grid k z' (snd xy) /\ Z.abs (z - z') <= na + nb).
  { intros [x y] Hxy. destruct (Hr x (in_combine_l _ _ _ _ Hxy)) as (z & G1 & L1). destruct (Hl y (in_combine_r _ _ _ _ Hxy)) as (z' & G2 & L2). exists z, z'. cbn [fst snd]. split; [exact G1|]. split; [exact G2 | lia]. }
  rewrite top_eq in Ht. apply sim_ok.
  - rewrite Forall_map, Forall_forall. intros xy Hxy. destruct (X xy Hxy) as (z & z' & G1 & G2 & L). exists (z - z'). split; [|exact L]. apply sub_exact; [exact Hk | exact G1 | exact G2 | lia].
  - rewrite map_map. apply map_ext_in. intros xy Hxy. destruct (X xy Hxy) as (z & z' & G1 & G2 & L). symmetry. apply (rd_sub k z z'); [exact Hk | exact G1 | exact G2 | lia].
Qed.
Lemma vc_check_sim : @vc_check G (mkVC (ra a) (ra b) s) = @vc_check F (mkVC a b s).
Proof. unfold vc_check. cbn [vc_left vc_right vc_sense]. rewrite (vec_check_sim k na a Ha), (vec_check_sim k nb b Hb), (vec_dims_sim k na a Ha), (vec_dims_sim k nb b Hb). reflexivity. Qed.
Lemma vc_require_linear_sim : @vc_require_linear G (mkVC (ra a) (ra b) s) = @vc_require_linear F (mkVC a b s).
Proof. unfold vc_require_linear, vc_is_linear. cbn [vc_left vc_right]. rewrite (vec_is_linear_sim k na a Ha), (vec_is_linear_sim k nb b Hb). reflexivity. Qed.

Lemma opposite_sim n c : cs k n c -> n <= top -> exactly (@nmul F (@nm1 F) c) = @nmul G (@nm1 G) (exactly c).
Proof.
  intros (z & Gz & Lz) Hn. assert (E : @nm1 G = exactly (@nm1 F)) by (symmetry; apply rd_ofZ; lia). rewrite E.
  cbn [nmul QNum F64Num]. apply (rd_mul 0 k (-1) z); [lia | lia | lia | apply ofZ_exact; lia | exact Gz | rewrite <- top_eq; lia].
Qed.

Lemma vc_inequality_sim wrt : numeric_lists wrt ->
  sim exact_system (fun _ => True) (@vc_linear_inequality F (mkVC a b s) wrt) (@vc_linear_inequality G (mkVC (ra a) (ra b) s) (map (map rv) wrt)).
Proof.
  intro Hw. unfold vc_linear_inequality. cbn [vc_left vc_right vc_sense]. eapply sim_bind; [apply sim_same; apply vc_check_sim|]. intros _ _. cbn beta.
  eapply sim_bind; [apply sim_same; apply vc_require_linear_sim|]. intros _ _. cbn beta. apply sim_check; [reflexivity|]. intros _.
  eapply sim_bind; [apply moved_sim|]. intros l Hl. cbn beta. eapply sim_bind; [apply (vec_linear_coeff_sim k (na + 2 * nb) l wrt); [lia | lia | exact Hl | exact Hw]|]. intros A HA. cbn beta zeta.
  eapply sim_bind; [apply constants_sim|]. intros c Hc. cbn beta. apply sim_ok; [exact I|]. unfold exact_system. cbn [fst snd]. destruct (sense_eqb s SenseGe); [|reflexivity]. rewrite Forall_forall in HA, Hc. f_equal.
  - rewrite !map_map. apply map_ext_in. intros r Hr. rewrite !map_map. apply map_ext_in. intros x Hx. pose proof (HA r Hr) as HR. rewrite Forall_forall in HR. symmetry. apply (opposite_sim (na + 2 * nb)); [exact (HR x Hx) | exact Ht].
  - rewrite !map_map. apply map_ext_in. intros x Hx. symmetry. apply (opposite_sim (na + nb)); [exact (Hc x Hx) | lia].
Qed.
Lemma vc_equality_sim wrt : numeric_lists wrt ->
  sim exact_system (fun _ => True) (@vc_linear_equality F (mkVC a b s) wrt) (@vc_linear_equality G (mkVC (ra a) (ra b) s) (map (map rv) wrt)).
Proof.
  intro Hw. unfold vc_linear_equality. cbn [vc_left vc_right vc_sense]. eapply sim_bind; [apply sim_same; apply vc_check_sim|]. intros _ _. cbn beta.
  eapply sim_bind; [apply sim_same; apply vc_require_linear_sim|]. intros _ _. cbn beta. apply sim_check; [reflexivity|]. intros _.
  eapply sim_bind; [apply moved_sim|]. intros l Hl. cbn beta. eapply sim_bind; [apply (vec_linear_coeff_sim k (na + 2 * nb) l wrt); [lia | lia | exact Hl | exact Hw]|]. intros A HA. cbn beta zeta.
  eapply sim_bind; [apply constants_sim|]. intros c Hc. cbn beta. apply sim_ok; [exact I|]. reflexivity.
Qed.

(** comparison of two vectors *)
Definition exact_con (c : @constraint F) : @constraint G :=
  match c with
  | CS c => CS (@mkSC G (rs (sc_left c)) (rs (sc_right c)) (sc_sense c))
  | CV c => CV (exact_vc c)
  | CM c => CM (@mkMC G (ro (mc_left c)) (ro (mc_right c)) (mc_sense c))
  end.
Lemma vec_compare_sim : sim exact_con (fun c => c = CV (mkVC a b s)) (@expr_comparison F (EV a) (GExpr (EV b)) s) (@expr_comparison G (EV (ra a)) (GExpr (EV (ra b))) s).
Proof.
  cbn [expr_comparison]. unfold vec_comparison. apply sim_check; [apply (vec_check_sim k na a Ha)|]. intros _.
  eapply sim_bind.
  { apply sim_same. unfold comparison_check. cbn [as_expr]. change (@expr_check G (EV (ra b))) with (@expr_check G (rx (EV b))). rewrite (expr_check_sim k nb (EV b) Hb).
    unfold comparison_dims. change (@expr_dims G (EV (ra a))) with (@expr_dims G (rx (EV a))). change (@expr_dims G (EV (ra b))) with (@expr_dims G (rx (EV b))). rewrite (expr_dims_sim k na (EV a) Ha), (expr_dims_sim k nb (EV b) Hb). reflexivity. }
  intros _ _. cbn beta. eapply (sim_bind ra exact_con (fun w => w = b)).
  - unfold vec_comparison_right. apply sim_eq; [apply (vec_len_sim a k na Ha)|]. intros n _. destruct a, b; cbn [exact_vector]; try (apply sim_ok; reflexivity); reflexivity.
  - intros w ->. apply sim_ok; reflexivity.
Qed.
End Con.
