(** * DerivativeWrt of vectors and matrices in memory: the conclusions in terms of derivatives *)

From Coq Require Import ZArith NArith Bool List Lia Reals.
From Verif Require Import Num Syntax ModelScalar ModelShape Spec SpecArr Base ScalarValid Eval NumR Deriv Arr ArrShape ModelHeap SpecHeap HeapMem HeapRef HeapOps HeapOps2 HeapDeriv HeapProofs HeapVec.
Import ListNotations.
Local Open Scope num_scope.

Section Any.
Context {NN : Num} {RT : Runtime}.

Lemma derivative_loop_nonempty p v : Forall valid_mono p -> valid_var v -> mentions v p -> exists q, derivative_loop p v = Ok q /\ q <> [].
Proof.
  intros V Vv (m & u & Hm & Hc & Hu & Id). induction p as [|x p IH]; [contradiction|]. inversion V as [|? ? V1 V2]; subst. cbn [derivative_loop].
  rewrite mono_is_constant_ok by (apply valid_mono_check; exact V1). cbn [bind]. destruct (derivative_loop_ok p v V2 Vv) as (q & Eq & _). rewrite Eq.
  destruct (mono_derivative_ok x v V1 Vv) as (d & Ed & Hd). destruct Hm as [->|Hm].
  - assert (Ec : is_const m = false) by (unfold is_const; destruct (m_vars m); [contradiction | reflexivity]). rewrite Ec, Ed. cbn [bind].
    destruct Hd as [Na| | |]; [|rewrite Hc| |]; try (eexists; split; [reflexivity | discriminate]).
    destruct Na. rewrite <- Id. unfold ids. apply in_map. exact Hu.
  - destruct (IH V2 Hm) as (q' & Eq' & Nq). rewrite Eq in Eq'. injection Eq' as <-. destruct (is_const x); [eauto|]. rewrite Ed. cbn [bind].
    destruct Hd as [| | |]; cbn [bind]; try (eexists; split; [reflexivity | discriminate]).
    + destruct (n0 =? n0); [eauto|]. eexists. split; [reflexivity | discriminate].
    + destruct (m_coeff x =? n0); [eauto|]. eexists. split; [reflexivity | discriminate].
Qed.
Lemma poly_derivative_poly p v : valid_poly p -> valid_var v -> mentions v p -> exists q, poly_derivative p v = Ok (SP q).
Proof.
  intros V Vv H. unfold poly_derivative. rewrite (valid_poly_check p V), (proj2 (var_check_valid v) Vv). cbn [check bind].
  destruct (derivative_loop_nonempty p v (proj2 V) Vv H) as (q & -> & Nq). cbn [bind]. destruct q; [congruence | eauto].
Qed.

Theorem polyvec_total h roots pv v : all_legal h (map HP (view (hp h) pv) ++ roots) -> separate h (map HP (view (hp h) pv) ++ roots) -> in_memory (hp h) pv -> valid_var v ->
  Forall (fun p => valid_poly p /\ at_most_linear_in v (SP p) /\ mentions v p) (map (rd_poly h) (view (hp h) pv)) ->
  exists ds h', h_polyvec_derivative pv v h = (Ok (HVP pv), h') /\ vec_entries (rd_vec h' (HVP pv)) = ds /\
    Forall2 (fun p d => scalar_derivative (SP p) v = Ok d) (map (rd_poly h) (view (hp h) pv)) ds /\
    (forall p, In p (view (hp h) pv) -> rd_poly h' p = rd_poly h p) /\ (forall s, In s roots -> rd h' s = rd h s).
Proof.
  intros Le Se B Vv F.
  assert (Q : exists qs, Forall2 (fun l q => poly_derivative l v = Ok (SP q)) (map (rd_poly h) (view (hp h) pv)) qs).
  { induction F as [|p l (Vp & _ & Mp) F (qs & IH)]; [exists []; constructor|]. destruct (poly_derivative_poly p v Vp Vv Mp) as (q & Hq). exists (q :: qs). constructor; assumption. }
  destruct Q as (qs & Q). destruct (polyvec_derivative h roots pv v qs Le Se B) with (2 := Q) as (h' & X & R & K1 & K2).
  { eapply Forall_impl; [|exact F]. intros p (_ & Lp & _). exact Lp. }
  exists (map SP qs), h'. split; [exact X|]. rewrite R. split; [reflexivity|]. split; [|split; assumption].
  clear - Q. induction Q; constructor; assumption.
Qed.

(** PolynomialMatrix.DerivativeWrt *)
Lemma mapM_rows {A B} (f : A -> res B) ll rows : Forall2 (Forall2 (fun a b => f a = Ok b)) ll rows -> mapM (mapM f) ll = Ok rows.
Proof.
  assert (K : forall l r, Forall2 (fun a b => f a = Ok b) l r -> mapM f l = Ok r).
  { intros l r F. induction F as [|a b l r H F IH]; [reflexivity|]. cbn. rewrite H. cbn. rewrite IH. reflexivity. }
  intro F. induction F as [|l r ll rows H F IH]; [reflexivity|]. cbn. rewrite (K _ _ H). cbn. rewrite IH. reflexivity.
Qed.

Lemma polymat_refines n w pm lll v :
  Forall2 (fun r ll => inb (hp (wh w)) r /\ Forall2 (Rp w) (view (hp (wh w)) r) ll) pm lll -> Forall (Forall (Forall (mild_mono v))) lll -> (n <= lm w)%nat ->
  refines n (fun w' => Forall2 (Forall2 (Rp w'))) w (h_polymat_derivative pm v)
    (_ <- check (mat_check (MP lll)) PCheck ;; _ <- check (var_check v) PCheck ;; mapM (mapM (fun p => d <- poly_derivative p v ;; polys_of d)) lll).
Proof.
  intros R Mi L. unfold h_polymat_derivative.
  assert (Er : map (fun r => map (rd_poly (wh w)) (view (hp (wh w)) r)) pm = lll).
  { clear - R. induction R as [|r ll pm lll [_ R1] R IH]; [reflexivity|]. cbn [map]. rewrite IH. f_equal. clear - R1. induction R1 as [|p b ps ll [_ <-] R IH]; [reflexivity|]. cbn [map]. rewrite IH. reflexivity. }
  apply refines_reads; [rewrite Er; reflexivity|]. intros [] _. apply refines_check_var. rewrite (mapM_fold0 (mapM _)).
  assert (R' : Forall2 (fun r ll => (inb (hp (wh w)) r /\ Forall2 (Rp w) (view (hp (wh w)) r) ll) /\ Forall (Forall (mild_mono v)) ll) pm lll).
  { clear - R Mi. induction R as [|r l mm ll Rr R IH]; [constructor|]. inversion Mi; subst. constructor; [split; assumption | apply IH; assumption]. }
  eapply (loop_list n w pm lll (fun w r ll => (inb (hp (wh w)) r /\ Forall2 (Rp w) (view (hp (wh w)) r) ll) /\ Forall (Forall (mild_mono v)) ll)); [exact R' | | constructor|].
  - intros w' x y E [[H0 H1] H2]. assert (Hp : hp (wh w') = hp (wh w)) by apply E. rewrite Hp. split; [split; [exact H0|] | exact H2].
    clear - H1 E. induction H1; constructor; [eapply Rp_ext; eassumption | assumption].
  - intros w1 rows rowsp r ll E J [[B Rr] Ml]. eapply refines_bind; [eapply polymat_row; [exact B | reflexivity | exact Rr | exact Ml | lms]|]. intros w2 row rowp E2 R2. apply refines_ret.
    apply Forall2_app; [|constructor; [exact R2 | constructor]]. clear - J E2. induction J as [|x y l l' H J IH]; constructor; [|exact IH]. clear - H E2. induction H; constructor; [eapply Rp_ext; eassumption | assumption].
Qed.

Theorem polymat_total h roots pm v : all_legal h (map HP (concat (map (view (hp h)) pm)) ++ roots) -> separate h (map HP (concat (map (view (hp h)) pm)) ++ roots) ->
  Forall (in_memory (hp h)) pm -> valid_var v ->
  let entries := map (fun r => map (rd_poly h) (view (hp h) r)) pm in
  mat_check (MP entries) = true -> Forall (Forall (fun p => valid_poly p /\ at_most_linear_in v (SP p) /\ mentions v p)) entries ->
  exists ds h', h_polymat_derivative pm v h = (Ok ds, h') /\
    Forall2 (Forall2 (fun p d => scalar_derivative (SP p) v = Ok (SP (rd_poly h' d)))) entries ds /\
    map (fun r => map (rd_poly h') (view (hp h') r)) pm = entries /\ (forall s, In s roots -> rd h' s = rd h s).
Proof.
  intros Le Se B Vv entries Ck F. set (roots' := map HP (concat (map (view (hp h)) pm)) ++ roots) in *. set (w := world_of h roots').
  assert (R1 : forall r p, In r pm -> In p (view (hp h) r) -> Rp w p (rd_poly h p)).
  { intros r p Hr Hp. split; [|reflexivity]. apply (world_fit h roots' (HP p) Le). apply in_or_app. left. apply in_map. apply in_concat. exists (view (hp h) r). split; [apply in_map; exact Hr | exact Hp]. }
  assert (R : Forall2 (fun r ll => inb (hp (wh w)) r /\ Forall2 (Rp w) (view (hp (wh w)) r) ll) pm entries).
  { change (wh w) with h. unfold entries. clear - R1 B. revert R1. generalize w. intros w0 R1. induction pm as [|r pm IH]; cbn; [constructor|]. inversion B as [|? ? B1 B2]; subst. constructor.
    - split; [exact B1|]. assert (R2 : forall p, In p (view (hp h) r) -> Rp w0 p (rd_poly h p)) by (intros p Hp; apply (R1 r p); [left; reflexivity | exact Hp]).
      clear - R2. induction (view (hp h) r) as [|p l IH]; cbn; constructor; [apply R2; left; reflexivity | apply IH; intros; apply R2; right; assumption].
    - apply IH; [exact B2|]. intros r' p Hr Hp. apply (R1 r' p); [right; exact Hr | exact Hp]. }
  assert (Mi : Forall (Forall (Forall (mild_mono v))) entries).
  { eapply Forall_impl; [|exact F]. intros l Hl. eapply Forall_impl; [|exact Hl]. intros p (_ & Lp & _). exact (linear_mild v (SP p) Lp). }
  destruct (polymat_refines 0 w pm entries v R Mi ltac:(lia) (world_good _ _ Le Se)) as (w' & E & G & Hh & Hr).
  rewrite Ck, (proj2 (var_check_valid v) Vv) in Hr. cbn [check bind] in Hr.
  assert (Q : exists qs, Forall2 (Forall2 (fun p q => poly_derivative p v = Ok (SP q))) entries qs).
  { clear - F Vv. induction F as [|l ll Hl F (qs & IH)]; [exists []; constructor|]. assert (Q : exists q, Forall2 (fun p q => poly_derivative p v = Ok (SP q)) l q).
    { clear - Hl Vv. induction Hl as [|p l (Vp & _ & Mp) F (qs & IH)]; [exists []; constructor|]. destruct (poly_derivative_poly p v Vp Vv Mp) as (q & Hq). exists (q :: qs). constructor; assumption. }
    destruct Q as (q & Q). exists (q :: qs). constructor; assumption. }
  destruct Q as (qs & Q). rewrite (mapM_rows (fun p => d <- poly_derivative p v ;; polys_of d) entries qs) in Hr.
  2:{ clear - Q. induction Q as [|l r ll rows H F IH]; constructor; [|exact IH]. clear - H. induction H as [|p q l r H F IH]; constructor; [rewrite H; reflexivity | exact IH]. }
  change (wh w) with h in *. destruct (h_polymat_derivative pm v h) as [[ds|p] h'] eqn:Ey; cbn [fst snd] in *; [|contradiction]. subst h'. exists ds, (wh w').
  assert (Hp : hp (wh w') = hp h) by apply E.
  split; [reflexivity|]. split; [|split].
  - clear - Q Hr. revert ds Hr. induction Q as [|l r ll rows H F IH]; intros ds Hr; inversion Hr as [|d ? ds' ? Hd Hds]; subst; constructor; [|apply IH; exact Hds].
    clear - H Hd. revert d Hd. induction H as [|p q l r H F IH]; intros d Hd; inversion Hd as [|x ? d' ? Hx Hd']; subst; constructor; [|apply IH; exact Hd'].
    destruct Hx as [_ ->]. exact H.
  - rewrite Hp. unfold entries. apply map_ext_in. intros r Hrr. apply map_ext_in. intros p Hpp. apply (Rp_ext 0 w w' p _ E (R1 r p Hrr Hpp)).
  - intros s Hs. apply (fit_ext 0 w w' s E). apply world_fit; [exact Le | apply in_or_app; right; exact Hs].
Qed.

End Any.

(** ** Over the real numbers *)
Section R.
Local Existing Instance RNum.
Context {RT : Runtime}.

Lemma derivative_of_scalar v s d : valid s -> valid_var v -> scalar_derivative s v = Ok d -> derivative_of v s d.
Proof. intros V Vv H r. destruct (scalar_derivative_derivable s v r V Vv) as (d' & E & _ & D). rewrite H in E. injection E as <-. exact D. Qed.

Theorem monovec_real h roots mv v : all_legal h (HP mv :: roots) -> separate h (HP mv :: roots) ->
  rd_poly h mv <> [] -> Forall valid_mono (rd_poly h mv) -> valid_var v -> Forall (fun m => at_most_linear_in v (SM m)) (rd_poly h mv) ->
  exists x h', h_monovec_derivative mv v h = (Ok x, h') /\
    Forall2 (fun m e => derivative_of v (SM m) e) (rd_poly h mv) (vec_entries (rd_vec h' x)) /\
    rd_poly h' mv = rd_poly h mv /\ (forall s, In s roots -> rd h' s = rd h s).
Proof.
  intros Le Se Ne Va Vv Li. destruct (monovec_derivative h roots mv v Le Se Ne Va Vv Li) as (x & h' & X & F & K). exists x, h'. split; [exact X|]. split; [|exact K].
  clear - F Va Vv. induction F as [|m e l es (d & Hd & T) F IH]; [constructor|]. inversion Va as [|? ? V1 V2]; subst. constructor; [|apply IH; exact V2].
  intro r. rewrite (same_terms_eval d e r RNum_exact T). apply (derivative_of_scalar v (SM m) d V1 Vv Hd).
Qed.

Theorem monomat_real h roots mm v : all_legal h (map HP mm ++ roots) -> separate h (map HP mm ++ roots) ->
  mat_check (MM (map (rd_poly h) mm)) = true -> Forall (Forall valid_mono) (map (rd_poly h) mm) -> valid_var v ->
  Forall (Forall (fun m => at_most_linear_in v (SM m))) (map (rd_poly h) mm) ->
  exists x h', h_monomat_derivative mm v h = (Ok x, h') /\
    Forall2 (Forall2 (fun m e => derivative_of v (SM m) e)) (map (rd_poly h) mm) (mat_rows x) /\
    (forall r, In r mm -> rd_poly h' r = rd_poly h r) /\ (forall s, In s roots -> rd h' s = rd h s).
Proof.
  intros Le Se Ck Va Vv Li. destruct (monomat_derivative h roots mm v Le Se Ck Va Vv Li) as (x & h' & X & F & K). exists x, h'. split; [exact X|]. split; [|exact K].
  clear - F Va Vv. induction F as [|l es ll rows H F IH]; [constructor|]. inversion Va as [|? ? V1 V2]; subst. constructor; [|apply IH; exact V2].
  clear - H V1 Vv. induction H as [|m e l es (d & Hd & T) F IH]; [constructor|]. inversion V1 as [|? ? W1 W2]; subst. constructor; [|apply IH; exact W2].
  intro r. rewrite (same_terms_eval d e r RNum_exact T). apply (derivative_of_scalar v (SM m) d W1 Vv Hd).
Qed.

Theorem polyvec_real h roots pv v : all_legal h (map HP (view (hp h) pv) ++ roots) -> separate h (map HP (view (hp h) pv) ++ roots) -> in_memory (hp h) pv -> valid_var v ->
  Forall (fun p => valid_poly p /\ at_most_linear_in v (SP p) /\ mentions v p) (map (rd_poly h) (view (hp h) pv)) ->
  exists h', h_polyvec_derivative pv v h = (Ok (HVP pv), h') /\
    Forall2 (fun p d => derivative_of v (SP p) d) (map (rd_poly h) (view (hp h) pv)) (vec_entries (rd_vec h' (HVP pv))) /\
    (forall p, In p (view (hp h) pv) -> rd_poly h' p = rd_poly h p) /\ (forall s, In s roots -> rd h' s = rd h s).
Proof.
  intros Le Se B Vv F. destruct (polyvec_total h roots pv v Le Se B Vv F) as (ds & h' & X & <- & D & K). exists h'. split; [exact X|]. split; [|exact K].
  clear - D F Vv. induction D as [|p d l ds H D IH]; [constructor|]. inversion F as [|? ? (V1 & _) F2]; subst. constructor; [|apply IH; exact F2].
  apply derivative_of_scalar; [exact V1 | exact Vv | exact H].
Qed.

Theorem polymat_real h roots pm v : all_legal h (map HP (concat (map (view (hp h)) pm)) ++ roots) -> separate h (map HP (concat (map (view (hp h)) pm)) ++ roots) ->
  Forall (in_memory (hp h)) pm -> valid_var v ->
  let entries := map (fun r => map (rd_poly h) (view (hp h) r)) pm in
  mat_check (MP entries) = true -> Forall (Forall (fun p => valid_poly p /\ at_most_linear_in v (SP p) /\ mentions v p)) entries ->
  exists ds h', h_polymat_derivative pm v h = (Ok ds, h') /\
    Forall2 (Forall2 (fun p d => derivative_of v (SP p) (SP (rd_poly h' d)))) entries ds /\
    map (fun r => map (rd_poly h') (view (hp h') r)) pm = entries /\ (forall s, In s roots -> rd h' s = rd h s).
Proof.
  intros Le Se B Vv entries Ck F. destruct (polymat_total h roots pm v Le Se B Vv Ck F) as (ds & h' & X & D & K). exists ds, h'. split; [exact X|]. split; [|exact K].
  fold entries in D. clear - D F Vv. induction D as [|l d ll ds H D IH]; [constructor|]. inversion F as [|? ? F1 F2]; subst. constructor; [|apply IH; exact F2].
  clear - H F1 Vv. induction H as [|p q l d H D IH]; [constructor|]. inversion F1 as [|? ? (V1 & _) F2]; subst. constructor; [|apply IH; exact F2].
  apply derivative_of_scalar; [exact V1 | exact Vv | exact H].
Qed.
End R.

(** ** Histories, in the order of arguments used by the theorems *)
Section Hist.
Context {NN : Num} {RT : Runtime}.
Lemma history_kept l1 l2 h1 h2 roots1 roots2 : harmless_history [] (l1 ++ l2) ->
  history empty_heap [] l1 = (h1, roots1) -> history empty_heap [] (l1 ++ l2) = (h2, roots2) -> forall s, In s roots1 -> rd h2 s = rd h1 s.
Proof. intros H X1 X2. exact (history_values_kept l1 l2 h1 roots1 h2 roots2 H X1 X2). Qed.
Lemma arithmetic_keeps l1 l2 h1 h2 roots1 roots2 : Forall not_derivative (l1 ++ l2) ->
  history empty_heap [] l1 = (h1, roots1) -> history empty_heap [] (l1 ++ l2) = (h2, roots2) -> forall s, In s roots1 -> rd h2 s = rd h1 s.
Proof. intros H. apply history_kept. apply no_derivative_harmless. exact H. Qed.
Lemma call_ok h h' roots i r : all_legal h roots -> separate h roots -> harmless (map (rd h) roots) i -> exec roots i h = (r, h') ->
  (forall s, In s roots -> rd h' s = rd h s) /\ as_value h' r = exec_value (map (rd h) roots) i /\
  (let roots' := match r with Ok t => roots ++ [t] | Panic _ => roots end in all_legal h' roots' /\ separate h' roots').
Proof. apply call_spec. Qed.
Lemma derivative_again h h1 h2 roots i v s r1 r2 : all_legal h roots -> separate h roots -> nth_error roots i = Some s -> at_most_linear_in v (rd h s) ->
  h_derivative s v h = (r1, h1) -> h_derivative s v h1 = (r2, h2) ->
  as_value h2 r2 = as_value h1 r1 /\ as_value h2 r2 = scalar_derivative (rd h s) v /\ (forall t, In t roots -> rd h2 t = rd h t).
Proof. apply derivative_twice. Qed.
End Hist.
