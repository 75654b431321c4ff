(** * Linear coefficients and linear constraints on short coefficients *)

From Coq Require Import ZArith NArith Bool List Lia.
From Coq Require Import QArith Qcanon.
From Coq.Floats Require Import SpecFloat.
From Verif Require Import Num Syntax ModelScalar ModelSC Spec SpecProg SpecExact Base ScalarValid Unamb ScalarLin Programs Degrees SCProofs SCImplies FloatExact FloatSim FloatRun FloatOps FloatSub FloatProg.
Import ListNotations.
Local Open Scope Z_scope.

(** ** Subtraction and the sign *)

Lemma opp_exact k z f : grid k z f -> grid k (- z) (SFopp f).
Proof.
  destruct f as [s|s| |s m e]; cbn [grid SFopp]; try contradiction; [intros ->; reflexivity|]. intros (D & E & V). split; [exact D|]. split; [exact E|].
  rewrite dy_opp, <- V, <- dy_opp. destruct s; reflexivity.
Qed.
Lemma rd_opp k z f : grid k z f -> exactly (@nopp F f) = @nopp G (exactly f).
Proof.
  intro H. cbn [nopp F64Num QNum]. rewrite (grid_value k (- z)) by (apply opp_exact; exact H). rewrite (grid_value k z f H).
  apply Qc_is_canon. cbn [Q2Qc this Qcopp]. rewrite !Qred_correct. change scaled with dy. apply dy_opp.
Qed.
Lemma sub_exact k a b f g : 0 <= k <= 1000 -> grid k a f -> grid k b g -> Z.abs (a - b) <= 2 ^ 53 -> grid k (a - b) (SFsub 53 1024 f g).
Proof.
  intros Hk Hf Hg Hs. destruct f as [sf|sf| |sf mf ef], g as [sg|sg| |sg mg eg]; try contradiction.
  - cbn [grid] in *. subst. cbn [SFsub]. destruct (Bool.eqb sf (negb sg)); reflexivity.
  - cbn [SFsub]. cbn [grid] in Hf. subst a. exact (opp_exact k b (S754_finite sg mg eg) Hg).
  - cbn [SFsub]. cbn [grid] in Hg. subst b. rewrite Z.sub_0_r. exact Hf.
  - cbn [SFsub]. destruct Hf as [Df [Ef Vf]], Hg as [Dg [Eg Vg]]. apply normalize_exact; [exact Hk | exact Hs |].
    rewrite !shl_align_min by lia. unfold Z.sub. rewrite <- dy_add, <- dy_add, !dy_opp. rewrite !cond_Zopp_mul.
    rewrite <- Vf, <- Vg. set (ez := Z.min ef eg).
    rewrite (dy_shift (cond_Zopp sf (Zpos mf)) ef (ef - ez)) by lia. rewrite (dy_shift (cond_Zopp sg (Zpos mg)) eg (eg - ez)) by lia.
    replace (ef - (ef - ez)) with ez by lia. replace (eg - (eg - ez)) with ez by lia. reflexivity.
Qed.
Lemma rd_sub k a b f g : 0 <= k <= 1000 -> grid k a f -> grid k b g -> Z.abs (a - b) <= 2 ^ 53 -> exactly (@nsub F f g) = @nsub G (exactly f) (exactly g).
Proof.
  intros Hk Hf Hg Hs. cbn [nsub F64Num QNum]. rewrite (grid_value k (a - b)) by (apply sub_exact; assumption). rewrite (grid_value k a f Hf), (grid_value k b g Hg).
  apply Qc_is_canon. unfold Qcminus. cbn [Q2Qc this Qcopp Qcplus]. rewrite !Qred_correct. change scaled with dy. unfold Z.sub. rewrite <- dy_add, dy_opp. reflexivity.
Qed.

(** ** Constant, Degree, LinearCoeff *)

Definition cf (k n : Z) (c : @num F) : Prop := exists z, grid k z c /\ Z.abs z <= n.
Lemma cf0 k n : 0 <= n -> cf k n (@n0 F).
Proof. intro H. exists 0. split; [reflexivity | cbn [Z.abs]; exact H]. Qed.

Lemma constant_sim k n s : sc k n s -> sim exactly (cf k n) (@scalar_constant F s) (@scalar_constant G (rs s)).
Proof.
  intro H. pose proof (sc_nonneg _ _ _ H). destruct s as [c|v|m|p]; cbn [scalar_constant exact_scalar sc] in *.
  - apply sim_ok; [exact H | reflexivity].
  - apply sim_ok; [apply cf0; assumption | reflexivity].
  - destruct H as (z & [_ Gz] & L). unfold mono_constant. cbn [m_vars exact_mono m_coeff]. destruct (m_vars m); cbn [map]; apply sim_ok; try reflexivity; [exists z; auto | apply cf0; lia].
  - apply poly_constant_sim. exact H.
Qed.
Lemma degree_sim s : @scalar_degree G (rs s) = @scalar_degree F s.
Proof.
  destruct s as [c|v|m|p]; cbn [scalar_degree exact_scalar]; try reflexivity; [|apply poly_degree_sim].
  unfold mono_degree. rewrite mono_check_sim. reflexivity.
Qed.
Lemma is_linear_sim s : @scalar_is_linear G (rs s) = @scalar_is_linear F s.
Proof. unfold scalar_is_linear. rewrite degree_sim. reflexivity. Qed.

Lemma wrt_sim d wrt : (forall w, In w d -> numeric_var w) -> (forall l w, In l wrt -> In w l -> numeric_var w) ->
  sim (map rv) (fun l => forall w, In w l -> numeric_var w) (@wrt_vars F d wrt) (@wrt_vars G (map rv d) (map (map rv) wrt)).
Proof.
  intros Hd Hw. destruct wrt as [|l [|l' t]]; cbn [wrt_vars map].
  - apply sim_ok; [exact Hd | reflexivity].
  - apply sim_ok; [intros w; apply Hw; left; reflexivity | reflexivity].
  - reflexivity.
Qed.

Lemma zeros_map n : repeat (@n0 G) n = map exactly (repeat (@n0 F) n).
Proof. induction n; cbn [repeat map]; [reflexivity|]. rewrite IHn. reflexivity. Qed.
Lemma zeros_cf k n j : 0 <= n -> Forall (cf k n) (repeat (@n0 F) j).
Proof. intro H. induction j; constructor; [apply cf0; exact H | assumption]. Qed.
Lemma zeros_sim k n j : 0 <= n -> sim (map exactly) (Forall (cf k n)) (@zeros_vector F j) (@zeros_vector G j).
Proof. intro H. unfold zeros_vector. destruct j; [reflexivity|]. apply sim_ok; [apply zeros_cf; exact H | apply zeros_map]. Qed.
Lemma Forall_set_nth {A} (P : A -> Prop) l i x : Forall P l -> P x -> Forall P (set_nth i x l).
Proof. intros H Hx. revert i. induction H as [|a l Ha Hl IH]; intros [|i]; cbn [set_nth]; constructor; auto. Qed.

Lemma linear_coeff_sim k n s wrt : 0 <= k -> sc k n s -> (forall l w, In l wrt -> In w l -> numeric_var w) ->
  sim (map exactly) (Forall (cf k n)) (@scalar_linear_coeff F s wrt) (@scalar_linear_coeff G (rs s) (map (map rv) wrt)).
Proof.
  intros Hk H Hw. pose proof (sc_nonneg _ _ _ H) as Nn. destruct s as [c|v|m|p]; cbn [scalar_linear_coeff exact_scalar sc] in *.
  - unfold k_linear_coeff. destruct wrt as [|l t]; cbn [map]; [reflexivity|]. destruct l as [|w l]; cbn [map]; [reflexivity|]. cbn [length]. rewrite map_length. apply zeros_sim. exact Nn.
  - destruct H as [Hv L]. unfold var_linear_coeff. apply sim_check; [apply var_check_sim; exact Hv|]. intros _.
    eapply sim_bind; [apply (wrt_sim [v]); [intros w [<-|[]]; exact Hv | exact Hw]|]. intros l Hl. cbn beta.
    assert (E : forall l0, map (fun x => if @same_id G (rv v) x then @n1 G else @n0 G) (map rv l0) = map exactly (map (fun x => if @same_id F v x then @n1 F else @n0 F) l0)).
    { intro l0. rewrite !map_map. apply map_ext. intro x. change (@same_id G (rv v) (rv x)) with (@same_id F v x). destruct (@same_id F v x); [symmetry; apply rd_one | reflexivity]. }
    destruct l as [|w l]; [reflexivity|]. change (map rv (w :: l)) with (rv w :: map rv l). cbn iota. change (rv w :: map rv l) with (map rv (w :: l)). rewrite E. apply sim_ok; [|reflexivity].
    apply Forall_forall. intros c Hc. apply in_map_iff in Hc. destruct Hc as (x & <- & _). destruct (@same_id F v x); [|apply cf0; exact Nn]. exists (2 ^ k). split; [apply grid_one; exact Hk | rewrite abs_2k by exact Hk; exact L].
  - destruct H as (z & Hm & L). unfold mono_linear_coeff. apply sim_check; [apply mono_check_sim|]. intros _.
    eapply sim_bind; [apply (wrt_sim (m_vars m)); [apply (proj1 Hm) | exact Hw]|]. intros l Hl. cbn beta. destruct l as [|w l]; [reflexivity|]. cbn [map]. cbn [length]. rewrite map_length.
    eapply sim_bind; [apply (zeros_sim k n); exact Nn|]. intros zs Hzs. cbn beta. change (@SM G (rm m)) with (rs (@SM F m)). eapply sim_bind; [apply sim_same; apply is_linear_sim|]. intros [|] _; cbn beta iota.
    + cbn [m_vars exact_mono]. eapply sim_bind; [apply (sim_index rv (fun _ => True)); intros; exact I|]. intros v0 _. cbn beta. change (rv w :: map rv l) with (map rv (w :: l)). rewrite find_var_sim.
      destruct (find_var v0 (w :: l)) as [j|]; [|reflexivity]. apply sim_ok; [apply Forall_set_nth; [exact Hzs | exists z; split; [apply Hm | exact L]] | exact (set_nth_map exactly j (m_coeff m) zs)].
    + apply sim_ok; [exact Hzs | reflexivity].
  - unfold poly_linear_coeff. apply sim_check; [apply poly_check_sim|]. intros _. rewrite poly_variables_sim.
    eapply sim_bind; [apply (wrt_sim (@poly_variables F p)); [|exact Hw]|].
    { intros w Hw0. unfold poly_variables in Hw0. apply unique_loop_in in Hw0. destruct Hw0 as [Hw0|[]]. apply in_flat_map in Hw0. destruct Hw0 as (m & Hm & Hi). eapply pol_vars; eassumption. }
    intros l Hl. cbn beta. destruct l as [|w l]; [reflexivity|]. change (map rv (w :: l)) with (rv w :: map rv l). cbn iota. change (rv w :: map rv l) with (map rv (w :: l)).
    assert (M : forall l0, (forall w, In w l0 -> numeric_var w) -> sim (map exactly) (Forall (cf k n)) (mapM (@poly_linear_coeff_at F p) l0) (mapM (@poly_linear_coeff_at G (map rm p)) (map rv l0))).
    { induction l0 as [|x l0 IH]; intro Hx; cbn [mapM map]; [apply sim_ok; [constructor | reflexivity]|].
      eapply (sim_bind exactly (map exactly) (cf k n)).
      - unfold poly_linear_coeff_at. eapply sim_bind; [apply sim_same; apply variable_index_sim; apply Hx; left; reflexivity|]. intros [i|] _; cbn beta iota.
        + eapply sim_bind; [apply (sim_index rm (fun m => cf k n (m_coeff m))); intros m Hm; destruct (pol_in _ _ _ _ H Hm) as (z & [_ Gz] & Lz); exists z; auto|]. intros m Hm. apply sim_ok; [exact Hm | reflexivity].
        + apply sim_ok; [apply cf0; exact Nn | reflexivity].
      - intros c Hc. cbn beta. eapply sim_bind; [apply IH; intros w0 H0; apply Hx; right; exact H0|]. intros cs Hcs. apply sim_ok; [constructor; assumption | reflexivity]. }
    apply M. exact Hl.
Qed.

(** ** Linear constraints *)

Definition exact_row (x : list (@num F) * @num F) : list (@num G) * @num G := (map exactly (fst x), exactly (snd x)).

Lemma sc_check_sim k na nb a b s : sc k na a -> sc k nb b -> @sc_check G (mkSC (rs a) (rs b) s) = @sc_check F (mkSC a b s).
Proof. intros Ha Hb. unfold sc_check. cbn [sc_left sc_right sc_sense]. rewrite (scalar_check_sim _ _ _ Ha), (scalar_check_sim _ _ _ Hb). reflexivity. Qed.
Lemma require_linear_sim a b s : @sc_require_linear G (mkSC (rs a) (rs b) s) = @sc_require_linear F (mkSC a b s).
Proof. unfold sc_require_linear, sc_is_linear. cbn [sc_left sc_right]. rewrite !is_linear_sim. reflexivity. Qed.
Lemma rhs_sim k na nb a b s : 0 <= k <= 1000 -> sc k na a -> sc k nb b -> na + nb <= top ->
  sim exactly (cf k (na + nb)) (@sc_rhs F (mkSC a b s)) (@sc_rhs G (mkSC (rs a) (rs b) s)).
Proof.
  intros Hk Ha Hb Ht. unfold sc_rhs. cbn [sc_left sc_right]. eapply sim_bind; [apply (constant_sim k nb); exact Hb|]. intros r (zr & Gr & Lr). cbn beta.
  eapply sim_bind; [apply (constant_sim k na); exact Ha|]. intros l (zl & Gl & Ll). cbn beta. apply sim_ok.
  - exists (zr - zl). split; [|lia]. apply sub_exact; [exact Hk | exact Gr | exact Gl | rewrite <- top_eq; lia].
  - symmetry. apply (rd_sub k zr zl); [exact Hk | exact Gr | exact Gl | rewrite <- top_eq; lia].
Qed.

Lemma inequality_sim k na nb a b s wrt : 0 <= k <= 1000 -> sc k na a -> sc k nb b -> na + nb <= top -> (forall l w, In l wrt -> In w l -> numeric_var w) ->
  sim exact_row (fun _ => True) (@sc_linear_inequality F (mkSC a b s) wrt) (@sc_linear_inequality G (mkSC (rs a) (rs b) s) (map (map rv) wrt)).
Proof.
  intros Hk Ha Hb Ht Hw. unfold sc_linear_inequality. cbn [sc_left sc_right sc_sense]. apply sim_check; [eapply sc_check_sim; eassumption|]. intros _.
  eapply sim_bind; [apply sim_same; apply require_linear_sim|]. intros _ _. cbn beta. eapply sim_bind; [apply (minus_sim k a na b nb); assumption|]. intros d Hd. cbn beta.
  eapply sim_bind; [apply (linear_coeff_sim k (na + nb)); [lia | exact Hd | exact Hw]|]. intros A HA. cbn beta. eapply sim_bind; [apply (rhs_sim k na nb); assumption|]. intros c (zc & Gc & Lc). cbn beta.
  apply sim_ok; [exact I|]. unfold exact_row. cbn [fst snd]. destruct (sense_eqb s SenseGe); [|reflexivity]. f_equal; [|symmetry; apply (rd_opp k zc); exact Gc].
  rewrite !map_map. apply map_ext_in. intros x Hx. rewrite Forall_forall in HA. destruct (HA x Hx) as (z & Gz & Lz). assert (E : @nm1 G = exactly (@nm1 F)) by (symmetry; apply rd_ofZ; lia). rewrite E.
  cbn [nmul QNum F64Num]. symmetry. apply (rd_mul 0 k (-1) z); [lia | lia | lia | apply ofZ_exact; lia | exact Gz | rewrite <- top_eq; lia].
Qed.
Lemma equality_sim k na nb a b s wrt : 0 <= k <= 1000 -> sc k na a -> sc k nb b -> na + nb <= top -> (forall l w, In l wrt -> In w l -> numeric_var w) ->
  sim exact_row (fun _ => True) (@sc_linear_equality F (mkSC a b s) wrt) (@sc_linear_equality G (mkSC (rs a) (rs b) s) (map (map rv) wrt)).
Proof.
  intros Hk Ha Hb Ht Hw. unfold sc_linear_equality. cbn [sc_left sc_right sc_sense]. apply sim_check; [eapply sc_check_sim; eassumption|]. intros _.
  eapply sim_bind; [apply sim_same; apply require_linear_sim|]. intros _ _. cbn beta. apply sim_check; [reflexivity|]. intros _. eapply sim_bind; [apply (minus_sim k a na b nb); assumption|]. intros d Hd. cbn beta.
  eapply sim_bind; [apply (linear_coeff_sim k (na + nb)); [lia | exact Hd | exact Hw]|]. intros A HA. cbn beta. eapply sim_bind; [apply (rhs_sim k na nb); assumption|]. intros c _. cbn beta.
  apply sim_ok; [exact I|]. reflexivity.
Qed.

(** ** Programs *)

Lemma exact_terms s : terms (rs s) = map rm (terms s).
Proof.
  destruct s as [c|v|m|p]; cbn [terms exact_scalar map]; try reflexivity.
  unfold exact_mono. cbn [m_coeff m_exps m_vars map]. rewrite rd_one. reflexivity.
Qed.
Lemma exact_ids m : ids (rm m) = ids m.
Proof. unfold ids. cbn [m_vars exact_mono]. rewrite map_map. reflexivity. Qed.
Lemma exact_occurs i s : occurs i (rs s) <-> occurs i s.
Proof.
  unfold occurs. rewrite exact_terms. split.
  - intros (m & Hm & Hi). apply in_map_iff in Hm. destruct Hm as (m0 & <- & Hm). exists m0. rewrite exact_ids in Hi. auto.
  - intros (m & Hm & Hi). exists (rm m). rewrite exact_ids. split; [apply in_map; exact Hm | exact Hi].
Qed.
Lemma exact_degree_at_most d s : degree_at_most d (rs s) <-> degree_at_most d s.
Proof. unfold degree_at_most. rewrite exact_terms, Forall_map. reflexivity. Qed.
Lemma exact_w w : Forall (@valid_var F) w -> Forall numeric_var w -> Forall (@valid_var G) (map rv w).
Proof. intros V N. rewrite Forall_map. rewrite Forall_forall in *. intros v Hv. apply exact_valid_var; auto. Qed.
Lemma exact_ids_w w : map v_id (map rv w) = map v_id w.
Proof. rewrite map_map. reflexivity. Qed.
Lemma numeric_wrt w : Forall numeric_var w -> forall l x, In l [w] -> In x l -> numeric_var x.
Proof. intros N l x [<-|[]] Hx. rewrite Forall_forall in N. auto. Qed.
Lemma arithmetic_no_derivative {NN : Num} p : arithmetic p -> no_derivative p.
Proof. induction p; cbn [arithmetic no_derivative]; tauto. Qed.
Lemma degree_bounded_raise {NN : Num} d e p : d <= e -> degree_bounded d p -> degree_bounded e p.
Proof.
  intro L. induction p; cbn [degree_bounded]; intros [H1 H2]; (split; [lia|]); tauto.
Qed.
Lemma degree_bounded_text {NN : Num} d p : degree_bounded d p -> text_degree p <= d.
Proof. destruct p; cbn [degree_bounded]; tauto. Qed.
Lemma exact_no_derivative p : @no_derivative F p -> @no_derivative G (exact_prog p).
Proof. induction p; cbn [no_derivative exact_prog]; tauto. Qed.

Lemma short_weaken k k' n s : 0 <= k <= k' -> k' <= 1000 -> n * 2 ^ (k' - k) <= 2 ^ 53 -> short k n s -> sc k' (n * 2 ^ (k' - k)) s.
Proof.
  intros Hk Hk' Ht H. pose proof (short_nonneg H) as Nn. pose proof (Z.pow_pos_nonneg 2 (k' - k) ltac:(lia) ltac:(lia)).
  assert (E : k' = k + (k' - k)) by lia. rewrite E at 1.
  apply sc_regrid; [lia | lia |]. apply short_sc; [lia | nia | exact H].
Qed.

Lemma sides_exact p q : @well_formed F p -> @well_formed F q -> fits (PMinus p q) ->
  exists k na nb a b, 0 <= k <= 1000 /\ @run F p = Ok a /\ @run F q = Ok b /\ @valid F a /\ @valid F b /\ sc k na a /\ sc k nb b /\ na + nb <= top
    /\ @run G (exact_prog p) = Ok (rs a) /\ @run G (exact_prog q) = Ok (rs b) /\ fits p /\ fits q.
Proof.
  intros Wp Wq (Hk & Ht & Fp & Fq). cbn [fraction_bits weight] in Hk, Ht. set (k := Z.max (fraction_bits p) (fraction_bits q)) in *.
  pose proof (fits_head p Fp) as [Kp _]. pose proof (fits_head q Fq) as [Kq _].
  destruct (run_exact p Wp Fp) as (a & Ea & Va & Sa & Xa). destruct (run_exact q Wq Fq) as (b & Eb & Vb & Sb & Xb).
  pose proof (short_nonneg Sa). pose proof (short_nonneg Sb).
  pose proof (Z.pow_pos_nonneg 2 (k - fraction_bits p) ltac:(lia) ltac:(lia)). pose proof (Z.pow_pos_nonneg 2 (k - fraction_bits q) ltac:(lia) ltac:(lia)).
  exists k, (weight p * 2 ^ (k - fraction_bits p)), (weight q * 2 ^ (k - fraction_bits q)), a, b.
  split; [exact Hk|]. split; [exact Ea|]. split; [exact Eb|]. split; [exact Va|]. split; [exact Vb|].
  split; [apply short_weaken; [lia | lia | nia | exact Sa]|]. split; [apply short_weaken; [lia | lia | nia | exact Sb]|].
  rewrite top_eq. auto.
Qed.

Lemma inequality_exact p q s w : @well_formed F p -> @well_formed F q -> no_derivative p -> no_derivative q -> fits (PMinus p q) -> s = SenseLe \/ s = SenseGe ->
  w <> [] -> Forall (@valid_var F) w -> Forall numeric_var w -> NoDup (map v_id w) ->
  exists a b, @run F p = Ok a /\ @run F q = Ok b /\ @run G (exact_prog p) = Ok (rs a) /\ @run G (exact_prog q) = Ok (rs b) /\
    (degree_at_most 1 a -> degree_at_most 1 b -> (forall i, occurs i a \/ occurs i b -> In i (map v_id w)) ->
     exists A k, @sc_linear_inequality F (mkSC a b s) [w] = Ok (A, k) /\ length A = length w
       /\ forall r : @assignment G, nleb (dot r (map exactly A) (map rv w)) (exactly k) = true <-> @satisfies G r (mkSC (rs a) (rs b) s)).
Proof.
  intros Wp Wq Np Nq FI Hs Hw Vw Nw HN. destruct (sides_exact p q Wp Wq FI) as (k & na & nb & a & b & Hk & Ea & Eb & Va & Vb & Sa & Sb & Ht & Xa & Xb & Fp & Fq).
  exists a, b. split; [exact Ea|]. split; [exact Eb|]. split; [exact Xa|]. split; [exact Xb|]. intros Da Db HC.
  destruct (@inequality_programs G (exact_prog p) (exact_prog q) s (map rv w) QNum_exact (exact_well_formed p Wp Fp) (exact_well_formed q Wq Fq) (exact_no_derivative p Np) (exact_no_derivative q Nq) Hs)
    as (a' & b' & Xa' & Xb' & X); [destruct w; [contradiction | discriminate] | apply exact_w; assumption | rewrite exact_ids_w; exact HN |].
  rewrite Xa in Xa'. injection Xa' as <-. rewrite Xb in Xb'. injection Xb' as <-.
  destruct X as (A & c & EA & LA & X); [apply exact_degree_at_most; exact Da | apply exact_degree_at_most; exact Db | intros i Hi; rewrite exact_ids_w; apply HC; rewrite <- !exact_occurs; exact Hi |].
  pose proof (inequality_sim k na nb a b s [w] Hk Sa Sb Ht (numeric_wrt w Nw)) as H. cbn [map] in H. rewrite EA in H. unfold sim in H.
  destruct (@sc_linear_inequality F (mkSC a b s) [w]) as [[A0 c0]|] eqn:E; [|discriminate H]. destruct H as [_ H]. unfold exact_row in H. cbn [fst snd] in H. injection H as -> ->.
  exists A0, c0. rewrite !map_length in LA. auto.
Qed.
Lemma equality_exact p q w : @well_formed F p -> @well_formed F q -> no_derivative p -> no_derivative q -> fits (PMinus p q) ->
  w <> [] -> Forall (@valid_var F) w -> Forall numeric_var w -> NoDup (map v_id w) ->
  exists a b, @run F p = Ok a /\ @run F q = Ok b /\ @run G (exact_prog p) = Ok (rs a) /\ @run G (exact_prog q) = Ok (rs b) /\
    (degree_at_most 1 a -> degree_at_most 1 b -> (forall i, occurs i a \/ occurs i b -> In i (map v_id w)) ->
     exists A k, @sc_linear_equality F (mkSC a b SenseEq) [w] = Ok (A, k) /\ length A = length w
       /\ forall r : @assignment G, dot r (map exactly A) (map rv w) = exactly k <-> @satisfies G r (mkSC (rs a) (rs b) SenseEq)).
Proof.
  intros Wp Wq Np Nq FI Hw Vw Nw HN. destruct (sides_exact p q Wp Wq FI) as (k & na & nb & a & b & Hk & Ea & Eb & Va & Vb & Sa & Sb & Ht & Xa & Xb & Fp & Fq).
  exists a, b. split; [exact Ea|]. split; [exact Eb|]. split; [exact Xa|]. split; [exact Xb|]. intros Da Db HC.
  destruct (@equality_programs G (exact_prog p) (exact_prog q) (map rv w) QNum_exact (exact_well_formed p Wp Fp) (exact_well_formed q Wq Fq) (exact_no_derivative p Np) (exact_no_derivative q Nq))
    as (a' & b' & Xa' & Xb' & X); [destruct w; [contradiction | discriminate] | apply exact_w; assumption | rewrite exact_ids_w; exact HN |].
  rewrite Xa in Xa'. injection Xa' as <-. rewrite Xb in Xb'. injection Xb' as <-.
  destruct X as (A & c & EA & LA & X); [apply exact_degree_at_most; exact Da | apply exact_degree_at_most; exact Db | intros i Hi; rewrite exact_ids_w; apply HC; rewrite <- !exact_occurs; exact Hi |].
  pose proof (equality_sim k na nb a b SenseEq [w] Hk Sa Sb Ht (numeric_wrt w Nw)) as H. cbn [map] in H. rewrite EA in H. unfold sim in H.
  destruct (@sc_linear_equality F (mkSC a b SenseEq) [w]) as [[A0 c0]|] eqn:E; [|discriminate H]. destruct H as [_ H]. unfold exact_row in H. cbn [fst snd] in H. injection H as -> ->.
  exists A0, c0. rewrite !map_length in LA. auto.
Qed.

(** text that is linear: the row and the right-hand side describe the inequality that was written *)
Lemma inequality_text p q s w : @well_formed F p -> @well_formed F q -> arithmetic p -> arithmetic q -> degree_bounded 1 p -> degree_bounded 1 q -> fits (PMinus p q) -> s = SenseLe \/ s = SenseGe ->
  w <> [] -> Forall (@valid_var F) w -> Forall numeric_var w -> NoDup (map v_id w) ->
  exists a b, @run F p = Ok a /\ @run F q = Ok b /\
    ((forall i, occurs i a \/ occurs i b -> In i (map v_id w)) ->
     exists A k, @sc_linear_inequality F (mkSC a b s) [w] = Ok (A, k) /\ length A = length w
       /\ forall r : @assignment G, nleb (dot r (map exactly A) (map rv w)) (exactly k) = true <-> @holds G (denote r (exact_prog p)) s (denote r (exact_prog q))).
Proof.
  intros Wp Wq Ap Aq Dp Dq FI Hs Hw Vw Nw HN.
  destruct (inequality_exact p q s w Wp Wq (arithmetic_no_derivative p Ap) (arithmetic_no_derivative q Aq) FI Hs Hw Vw Nw HN) as (a & b & Ea & Eb & _ & _ & X).
  destruct (run_degree p Wp) as (a' & Ea' & _ & Da). rewrite Ea in Ea'. injection Ea' as <-. destruct (run_degree q Wq) as (b' & Eb' & _ & Db). rewrite Eb in Eb'. injection Eb' as <-.
  pose proof (degree_bounded_text _ _ Dp). pose proof (degree_bounded_text _ _ Dq).
  destruct FI as (_ & _ & Fp & Fq). destruct (run_exact_degree2 p Wp Fp Ap (degree_bounded_raise 1 2 p ltac:(lia) Dp)) as (a' & Ea' & _ & Ra). rewrite Ea in Ea'. injection Ea' as <-.
  destruct (run_exact_degree2 q Wq Fq Aq (degree_bounded_raise 1 2 q ltac:(lia) Dq)) as (b' & Eb' & _ & Rb). rewrite Eb in Eb'. injection Eb' as <-.
  exists a, b. split; [exact Ea|]. split; [exact Eb|]. intro HC.
  destruct X as (A & k & EA & LA & X); [eapply Forall_impl; [|exact Da]; cbn beta; intros; lia | eapply Forall_impl; [|exact Db]; cbn beta; intros; lia | exact HC |].
  exists A, k. split; [exact EA|]. split; [exact LA|]. intro r. rewrite X. unfold satisfies. cbn [sc_left sc_right sc_sense]. rewrite Ra, Rb. reflexivity.
Qed.
Lemma equality_text p q w : @well_formed F p -> @well_formed F q -> arithmetic p -> arithmetic q -> degree_bounded 1 p -> degree_bounded 1 q -> fits (PMinus p q) ->
  w <> [] -> Forall (@valid_var F) w -> Forall numeric_var w -> NoDup (map v_id w) ->
  exists a b, @run F p = Ok a /\ @run F q = Ok b /\
    ((forall i, occurs i a \/ occurs i b -> In i (map v_id w)) ->
     exists A k, @sc_linear_equality F (mkSC a b SenseEq) [w] = Ok (A, k) /\ length A = length w
       /\ forall r : @assignment G, dot r (map exactly A) (map rv w) = exactly k <-> denote r (exact_prog p) = denote r (exact_prog q)).
Proof.
  intros Wp Wq Ap Aq Dp Dq FI Hw Vw Nw HN.
  destruct (equality_exact p q w Wp Wq (arithmetic_no_derivative p Ap) (arithmetic_no_derivative q Aq) FI Hw Vw Nw HN) as (a & b & Ea & Eb & _ & _ & X).
  destruct (run_degree p Wp) as (a' & Ea' & _ & Da). rewrite Ea in Ea'. injection Ea' as <-. destruct (run_degree q Wq) as (b' & Eb' & _ & Db). rewrite Eb in Eb'. injection Eb' as <-.
  pose proof (degree_bounded_text _ _ Dp). pose proof (degree_bounded_text _ _ Dq).
  destruct FI as (_ & _ & Fp & Fq). destruct (run_exact_degree2 p Wp Fp Ap (degree_bounded_raise 1 2 p ltac:(lia) Dp)) as (a' & Ea' & _ & Ra). rewrite Ea in Ea'. injection Ea' as <-.
  destruct (run_exact_degree2 q Wq Fq Aq (degree_bounded_raise 1 2 q ltac:(lia) Dq)) as (b' & Eb' & _ & Rb). rewrite Eb in Eb'. injection Eb' as <-.
  exists a, b. split; [exact Ea|]. split; [exact Eb|]. intro HC.
  destruct X as (A & k & EA & LA & X); [eapply Forall_impl; [|exact Da]; cbn beta; intros; lia | eapply Forall_impl; [|exact Db]; cbn beta; intros; lia | exact HC |].
  exists A, k. split; [exact EA|]. split; [exact LA|]. intro r. rewrite X. unfold satisfies, holds. cbn [sc_left sc_right sc_sense]. rewrite Ra, Rb. reflexivity.
Qed.

(** LinearCoeff and Constant *)
Lemma linear_text p w : @well_formed F p -> arithmetic p -> degree_bounded 1 p -> fits p ->
  w <> [] -> Forall (@valid_var F) w -> Forall numeric_var w -> NoDup (map v_id w) ->
  exists s, @run F p = Ok s /\
    ((forall i, occurs i s -> In i (map v_id w)) ->
     exists L c, @scalar_linear_coeff F s [w] = Ok L /\ @scalar_constant F s = Ok c /\ length L = length w
       /\ forall r : @assignment G, denote r (exact_prog p) = nadd (dot r (map exactly L) (map rv w)) (exactly c)).
Proof.
  intros Wp Ap Dp FI Hw Vw Nw HN. destruct (run_exact p Wp FI) as (s & E & V & S & X). pose proof (fits_head p FI) as [Hk Ht].
  destruct (run_degree p Wp) as (s' & E' & _ & D). rewrite E in E'. injection E' as <-. pose proof (degree_bounded_text _ _ Dp).
  destruct (run_exact_degree2 p Wp FI Ap (degree_bounded_raise 1 2 p ltac:(lia) Dp)) as (s' & E' & _ & R). rewrite E in E'. injection E' as <-.
  exists s. split; [exact E|]. intro HC.
  destruct (@run_linear G (exact_prog p) (map rv w) QNum_exact (exact_well_formed p Wp FI) (exact_no_derivative p (arithmetic_no_derivative p Ap))) as (s' & E' & Y). rewrite X in E'. injection E' as <-.
  destruct Y as (cs & c & E1 & E2 & L & Y); [apply exact_degree_at_most; eapply Forall_impl; [|exact D]; cbn beta; intros; lia | destruct w; [contradiction | discriminate] | apply exact_w; assumption | rewrite exact_ids_w; exact HN | intros i Hi; rewrite exact_ids_w; apply HC; rewrite <- exact_occurs; exact Hi |].
  assert (Sc : sc (fraction_bits p) (weight p) s) by (apply short_sc; assumption).
  pose proof (linear_coeff_sim _ _ s [w] (proj1 Hk) Sc (numeric_wrt w Nw)) as H1. cbn [map] in H1. rewrite E1 in H1. unfold sim in H1.
  destruct (@scalar_linear_coeff F s [w]) as [L0|]; [|discriminate H1]. destruct H1 as [_ H1]. injection H1 as ->.
  pose proof (constant_sim _ _ s Sc) as H2. rewrite E2 in H2. unfold sim in H2.
  destruct (@scalar_constant F s) as [c0|]; [|discriminate H2]. destruct H2 as [_ H2]. injection H2 as ->.
  exists L0, c0. rewrite !map_length in L. split; [reflexivity|]. split; [reflexivity|]. split; [exact L|]. intro r. rewrite <- R. apply Y.
Qed.
