(** * Programs over vectors and matrices with short coefficients, in binary64 and in rational numbers side by side *)

From Coq Require Import ZArith NArith Bool List Lia.
From Coq Require Import QArith Qcanon.
From Coq.Floats Require Import SpecFloat.
From Verif Require Import Num Syntax ModelScalar Spec Base SpecProg SpecExact FloatExact FloatSim FloatRun FloatOps FloatLin FloatProg ModelShape ModelArith SpecArr Arr ArrMulTop ArrTop ArrPow ArrFacts SpecAProg ModelAProg AProgProofs AProgTop
  SpecExactArr FloatArr FloatArrPlus FloatArrMul.
Import ListNotations.
Local Open Scope Z_scope.

(** ** Minus *)
Lemma minus_arr_sim k na nb e r : 0 <= k <= 1000 -> 0 <= na -> 0 <= nb -> na + nb <= top -> ax k na e -> ax k nb r -> sim rx (ax k (na + nb)) (@minus F e r) (@minus G (rx e) (rx r)).
Proof.
  intros Hk Na Nb Ht He Hr. unfold minus. assert (E : @nm1 G = exactly (@nm1 F)) by (symmetry; apply rd_ofZ; lia). rewrite E.
  assert (Gm : ag 0 1 (@GFloat F (@nm1 F))) by (exists (-1); split; [apply ofZ_exact; lia | cbn; lia]). pose proof top_pos.
  eapply sim_bind.
  - apply (expr_mul_sim k nb 0 1 1) with (g := @GFloat F (@nm1 F)); try lia; try assumption; try discriminate.
  - intros t Hs. cbn beta. replace (k + 0) with k in Hs by lia. replace (1 * (nb * 1)) with nb in Hs by lia. apply (expr_plus_sim k na nb Hk Na Nb Ht e (GExpr t)); assumption.
Qed.
Lemma expr_minus_sim k na nb e g : 0 <= k <= 1000 -> 0 <= na -> 0 <= nb -> na + nb <= top -> ax k na e -> ag k nb g -> sim rx (ax k (na + nb)) (@expr_minus F e g) (@expr_minus G (rx e) (rg g)).
Proof.
  intros Hk Na Nb Ht He Hg. unfold expr_minus. apply sim_check; [apply (expr_check_sim k na e He)|]. intros _. pose proof (as_expr_sim k nb g Hg) as A.
  destruct (@as_expr F g) as [r|]; [|rewrite A; reflexivity]. destruct A as [-> Hr].
  apply sim_eq.
  { pose proof (expr_operand_check_sim k nb dims_add _ _ r Hr (expr_dims_sim k na e He)) as O. destruct e as [[c|x|m|p]|v|m]; cbn [exact_expr exact_scalar] in *; try exact O; rewrite (expr_check_sim k nb r Hr); reflexivity. }
  intros _ _. pose proof (minus_arr_sim k na nb e r Hk Na Nb Ht He Hr) as M. destruct e as [s|[l|l|l|l]|m]; try exact M. destruct r as [s'|v'|m']; try exact M. reflexivity.
Qed.

(** ** Power *)
Lemma vec_power_sim k b nb n : 0 <= k -> av k nb b -> nb <= top -> n * k <= 1000 -> nb ^ n <= top -> sim rs (sc (n * k) (nb ^ n)) (@vec_power F b n) (@vec_power G (ra b) n).
Proof.
  intros Hk Hb Htb Hs Ht. unfold vec_power. apply sim_check; [apply (vec_check_sim k nb b Hb)|]. intros _. apply sim_check; [reflexivity|]. intro Hn. apply Z.leb_le in Hn.
  apply sim_eq; [apply (vec_len_sim b k nb Hb)|]. intros len _. apply sim_check; [reflexivity|]. intros _. eapply sim_bind; [apply (vec_get_sim k nb b 0 Hb)|]. intros s Hs'.
  rewrite <- rd_one. change (@SK G (exactly (@n1 F))) with (rs (@SK F (@n1 F))). pose proof top_pos.
  assert (G1 : sc 0 1 (@SK F (@n1 F))) by (exists 1; split; [apply (grid_one 0); lia | cbn; lia]).
  pose proof (power_loop_sim k s nb Hk Hs' Htb (Z.to_nat n) 0 (@SK F (@n1 F)) 1 ltac:(lia)) as P. rewrite Z2Nat.id in P by lia. rewrite Z.mul_1_l in P. cbn [Z.add] in P. apply P; [lia | exact G1 | lia | exact Ht].
Qed.

Lemma mat_power_loop_sim k me nb n : 0 <= k -> am k nb me -> 0 <= nb <= top -> (2 <= n)%nat -> @valid_array F (n, n) (EM me) -> forall c kr out nr,
  0 <= kr -> kr + Z.of_nat c * k <= 1000 -> am kr nr out -> 0 <= nr <= top -> @valid_array F (n, n) (EM out) -> nr * (Z.of_nat n * nb) ^ Z.of_nat c <= top ->
  sim ro (am (kr + Z.of_nat c * k) (nr * (Z.of_nat n * nb) ^ Z.of_nat c)) (@mat_power_loop F me c out) (@mat_power_loop G (ro me) c (ro out)).
Proof.
  intros Hk Hm Hnb Hn V. set (B := Z.of_nat n * nb). assert (HB : 0 <= B) by (unfold B; nia).
  induction c as [|c IH]; intros kr out nr Hkr Hs Ho Hnr Vo Ht; cbn [mat_power_loop].
  - apply sim_ok; [|reflexivity]. change (Z.of_nat 0) with 0. replace (kr + 0 * k) with kr by lia. rewrite Z.pow_0_r. eapply am_le; [exact Ho | lia].
  - rewrite Nat2Z.inj_succ in *. rewrite Z.pow_succ_r in * by lia. assert (HP : 0 <= B ^ Z.of_nat c) by (apply Z.pow_nonneg; lia). pose proof top_pos.
    assert (T1 : nr * B <= top).
    { destruct (Z.eq_dec B 0) as [E|E]; [nia|]. assert (1 <= B ^ Z.of_nat c) by (change 1 with (Z.succ 0); apply Z.le_succ_l; apply Z.pow_pos_nonneg; lia). nia. }
    assert (T2 : Z.of_nat n * (nr * nb) <= top) by (unfold B in T1; nia).
    eapply sim_bind.
    + apply sim_keep. change (@GExpr G (@EM G (ro me))) with (rg (@GExpr F (@EM F me))). apply (mat_mul_sim kr nr k nb (Z.of_nat n)); try lia; try assumption.
      intros _ d Ed. destruct (valid_array_check _ _ Vo) as [_ D]. cbn [expr_dims] in D. rewrite D in Ed. injection Ed as <-. cbn [snd]. lia.
    + intros e [He Ee]. cbn beta.
      assert (Ve : @valid_array F (n, n) e).
      { apply (@array_multiply_shape F (EM out) (EM me) (GExpr (EM me)) (n, n) (n, n) (n, n) e Vo V eq_refl); [right; right; repeat split; intros [] | exact Ee]. }
      destruct e as [s|v|m]; cbn [as_matrix exact_expr bind]; [reflexivity | reflexivity|]. cbn [ax] in He.
      assert (He' : am (kr + k) (nr * B) m) by (eapply am_le; [exact He | unfold B; nia]).
      replace (kr + Z.succ (Z.of_nat c) * k) with (kr + k + Z.of_nat c * k) by lia. replace (nr * (B * B ^ Z.of_nat c)) with (nr * B * B ^ Z.of_nat c) by lia.
      apply IH; [lia | nia | exact He' | nia | exact Ve | nia].
Qed.

Lemma identity_sim n : sim (map (map exactly)) (Forall (Forall (cs 0 1))) (@identity_matrix F n) (@identity_matrix G n).
Proof.
  unfold identity_matrix, zeros_matrix. destruct (_ || _); [reflexivity|]. cbn [bind].
  assert (Z0 : cs 0 1 (@n0 F)) by (exists 0; split; [reflexivity | cbn; lia]). assert (Z1 : cs 0 1 (@n1 F)) by (exists 1; split; [apply (grid_one 0); lia | cbn; lia]).
  assert (E : @repeat (list (@num G)) (repeat (@n0 G) n) n = map (map exactly) (repeat (repeat (@n0 F) n) n)).
  { rewrite map_repeat. f_equal. symmetry. exact (@map_repeat (@num F) (@num G) exactly (@n0 F) n). }
  rewrite E, combine_map_r, map_map. cbn [fst snd]. apply sim_ok.
  - rewrite Forall_map. apply Forall_forall. intros [i r] Hir. cbn [fst snd]. apply Forall_set_nth; [|exact Z1]. apply in_combine_r in Hir. apply repeat_spec in Hir. subst r. apply Forall_forall. intros x Hx. apply repeat_spec in Hx. subst x. exact Z0.
  - rewrite map_map. apply map_ext. intros [i r]. cbn [fst snd]. rewrite <- rd_one. apply (set_nth_map exactly).
Qed.

Lemma mat_power_sim k me nb n c : 0 <= k -> am k nb me -> 0 <= nb <= top -> (2 <= n)%nat -> @valid_array F (n, n) (EM me) -> Z.of_nat c * k <= 1000 -> (Z.of_nat n * nb) ^ Z.of_nat c <= top ->
  sim ro (am (Z.of_nat c * k) ((Z.of_nat n * nb) ^ Z.of_nat c)) (@mat_power F me (Z.of_nat c)) (@mat_power G (ro me) (Z.of_nat c)).
Proof.
  intros Hk Hm Hnb Hn V Hs Ht. destruct (valid_array_check _ _ V) as [_ D]. cbn [expr_dims] in D. pose proof top_pos.
  unfold mat_power. apply sim_check; [apply (mat_check_sim k nb me Hm)|]. intros _. apply sim_eq; [apply (mat_dims_sim k nb me Hm)|]. intros d Ed. rewrite D in Ed. injection Ed as <-. cbn [fst snd].
  apply sim_check; [reflexivity|]. intros _. apply sim_check; [reflexivity|]. intros _. eapply sim_bind; [apply sim_keep; apply identity_sim|]. intros i [Hi Ei]. cbn beta.
  eapply sim_bind.
  - apply sim_keep. change (@n0 G) with (exactly (@n0 F)). apply (k_plus_any_sim 0 0 1) with (g := @GDense F i); try lia; [exists 0; split; [reflexivity | cbn; lia] | exact (am_intro SK 0 1 i Hi)].
  - intros e [He Ee]. cbn beta. assert (N1 : (1 <= n)%nat) by lia.
    assert (Ve : @valid_array F (n, n) e).
    { apply (@array_plus_shape F (ES (SK (@n0 F))) (EM (MK i)) (GDense i) (1, 1)%nat (n, n) (n, n) e); [| | reflexivity | right; left; split; [exact I | reflexivity] | exact Ee].
      - split; [exact (le_n 1)|]. split; [exact (le_n 1)|]. split; [split; [reflexivity | repeat constructor]|]. intros [|a] [|b] Ha Hb; cbn in Ha, Hb; try lia; exact I.
      - destruct (@identity_matrix_grid F n N1) as (l & El & Hl). rewrite El in Ei. injection Ei as <-.
        apply (@arr_valid F (n, n) (fun _ _ s => valid s) (EM (MK l)) N1 N1); [|auto]. apply (@arr_EM F). cbn [mat_rows]. apply grid_map. eapply grid_impl; [|exact Hl]. intros; exact I. }
    destruct e as [s|v|m]; cbn [as_matrix exact_expr bind]; [reflexivity | reflexivity|]. cbn [ax] in He. rewrite Nat2Z.id.
    pose proof (mat_power_loop_sim k me nb n Hk Hm Hnb Hn V c 0 m 1 ltac:(lia) ltac:(lia) He ltac:(lia) Ve) as P. rewrite Z.mul_1_l in P. apply P. exact Ht.
Qed.
