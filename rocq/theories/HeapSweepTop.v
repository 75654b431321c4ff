(** * DerivativeWrt of vectors and matrices, whatever the exponents: the theorems *)

From Coq Require Import ZArith NArith Bool List Lia Reals Lra.
From Verif Require Import Num NumR Syntax ModelScalar ModelShape Spec SpecArr Base ScalarValid Deriv Arr ModelHeap SpecHeap HeapMem HeapRef HeapOps HeapOps2 HeapDeriv HeapProofs HeapVec ArrShape HeapTop SpecCopy HeapEffect SpecSweep HeapSweep.
Import ListNotations.
Local Open Scope num_scope.

Section Top.
Context {NN : Num} {RT : Runtime}.

Lemma own_apart h v ms : own_exponents_in h v ms -> apart v h ms.
Proof. intros Ow i j m m' N Hi Hj Hh a c Ha Hc. apply (Ow i j m m' N Hi Hj (hits_nonlinear _ _ Hh)). exists a, c. split; assumption. Qed.
Lemma moved_frame h v ms h' t : moved v h ms h h' -> legal h t -> out_of_reach_of h v ms t -> rd h' t = rd h t.
Proof.
  intros M [L1 L2] D. destruct t as [k|u|m|p]; cbn [rd]; [reflexivity | reflexivity | f_equal | f_equal; unfold rd_poly; rewrite (grown_view _ _ _ (mv_m _ _ _ _ _ M) (L1 p eq_refl)); apply map_ext_in; intros m Hm];
  (eapply moved_mono; [exact M | apply L2; first [left; reflexivity | exact Hm]|]; intros u a j Hu Hh Hv Hw; apply (D m u); [first [left; reflexivity | exact Hm] | exact Hu | apply hits_nonlinear; exact Hh | exists a, j; split; assumption]).
Qed.

(** ** MonomialVector *)
Definition to_mono (s : hscalar) : hmono := match s with HM m => m | HK k => hk_to_mono k | _ => hk_to_mono n0 end.
Definition number_or_mono (s : hscalar) : Prop := match s with HK _ | HM _ => True | _ => False end.
Definition out_body (out : slice) (d : hscalar) : M slice :=
  match d with HM m => append_monos out [m] | HK k => append_monos out [hk_to_mono k] | _ => fail PUnsupported end.
Lemma out_loop m0 : forall ss h1 out mo, Forall number_or_mono ss -> built free (length m0) (hm h1) out mo -> grown m0 (hm h1) ->
  exists out' h2, forM out_body ss out h1 = (Ok out', h2) /\ built free (length m0) (hm h2) out' (mo ++ map to_mono ss) /\ grown m0 (hm h2) /\ hi h2 = hi h1 /\ hv h2 = hv h1 /\ hp h2 = hp h1.
Proof.
  induction ss as [|s ss IH]; intros h1 out mo K B G.
  - exists out, h1. rewrite app_nil_r. split; [reflexivity|]. auto.
  - pose proof (Forall_inv K) as Ks. pose proof (Forall_inv_tail K) as K'.
    destruct (free_append m0 grow_mono zero_mono (hm h1) out mo [to_mono s] B G) as [B1 G1].
    destruct (append_slice grow_mono zero_mono (hm h1) out [to_mono s]) as [out1 m1] eqn:Ea. cbn [fst snd] in B1, G1.
    destruct (IH (with_monos h1 m1) out1 (mo ++ [to_mono s]) K' B1 G1) as (out' & h2 & X & B2 & G2 & E1 & E2 & E3).
    exists out', h2. split; [|split; [rewrite <- app_assoc in B2; exact B2 | split; [exact G2 | auto]]].
    cbn [forM]. unfold bindM at 1. destruct s as [k|u|m|p]; try contradiction; cbn [out_body to_mono] in *; unfold append_monos; rewrite Ea; exact X.
Qed.
Definition num_body (ks : list num) (d : hscalar) : M (list num) := match d with HK k => ret (ks ++ [k]) | _ => fail PRuntime end.
Lemma number_loop : forall (ss : list hscalar) ks h1 acc, ss = map HK ks -> forM num_body ss acc h1 = (Ok (acc ++ ks), h1).
Proof.
  intros ss ks h1. revert ss. induction ks as [|k ks IH]; intros ss acc ->; cbn [map forM]; [rewrite app_nil_r; reflexivity|]. unfold bindM. cbn [num_body ret]. unfold ret. rewrite (IH (map HK ks) (acc ++ [k]) eq_refl), <- app_assoc. reflexivity.
Qed.

Theorem monovec_effect h mv v : legal h (HP mv) -> own_exponents h v (HP mv) -> rd_poly h mv <> [] -> Forall valid_mono (rd_poly h mv) -> valid_var v ->
  exists x h', h_monovec_derivative mv v h = (Ok x, h') /\
    Forall2 (fun m e => exists d, scalar_derivative (SM (lowered v m)) v = Ok d /\ same_terms d e) (rd_poly h mv) (vec_entries (rd_vec h' x)) /\
    rd_poly h' mv = map (fun m => lowered v (lowered v m)) (rd_poly h mv) /\ (forall t, legal h t -> out_of_reach h v (HP mv) t -> rd h' t = rd h t).
Proof.
  intros [L1 L2] Ow Ne Va Vv. specialize (L1 mv eq_refl). cbn [monomials] in L2. pose proof (own_apart h v _ Ow) as Ap. cbn [monomials] in Ap. set (ms := view (hm h) mv) in *.
  assert (Vm : Forall (good_entry h) ms) by (apply (proj1 (Forall_map (rd_mono h) valid_mono ms)); exact Va).
  destruct (mv_loop v h ms Ap L2 mv Vv L1 ms [] h false [] [] eq_refl eq_refl Vm eq_refl eq_refl (moved_refl v h [] h) (Forall2_nil _)) as (h2 & b & ss & d1s & d2s & X & Hm & Hp & M & K & Hb & T & Ln & Lo & _).
  cbn [app orb] in *.
  assert (Ck : vec_check (rd_vec h (HVM mv)) = true).
  { cbn [rd_vec vec_check]. fold ms. unfold rd_poly in Ne, Va. fold ms in Ne, Va. destruct (map (rd_mono h) ms) as [|m l] eqn:El; [congruence|]. cbn [nonempty andb]. apply forallb_forall. intros y Hy. apply valid_mono_check. eapply Forall_forall in Va; eassumption. }
  assert (Kk : Forall number_or_mono ss).
  { clear - K T Ln. assert (D2 : Forall (fun d => (exists k, d = SK k) \/ exists m, d = SM m) d2s).
    { clear K. revert d1s d2s Ln T. induction ms as [|t l IH]; intros [|x1 d1s] [|x2 d2s] Ln T; cbn in *; try discriminate; inversion T; subst; constructor.
      - match goal with H : twice _ _ _ _ _ |- _ => destruct H as [_ H]; cbn [snd] in H; exact (mono_derivative_kinds _ _ _ H) end.
      - eapply IH; [|eassumption]. lia. }
    clear T Ln. revert D2. induction K as [|s x ss xs (K1 & _) K IH]; intro D2; [constructor|]. inversion D2 as [|? ? H D2']; subst. constructor; [|apply IH; assumption].
    destruct s; cbn [rd] in H; destruct H as [[? H]|[? H]]; try discriminate; exact I. }
  assert (Res : exists x h3, (if b then out <~ forM out_body ss nil_slice ;; ret (HVM out) else ks <~ forM num_body ss [] ;; ret (HVK ks)) h2 = (Ok x, h3) /\
    hi h3 = hi h2 /\ hv h3 = hv h2 /\ grown (hm h2) (hm h3) /\ Forall2 same_terms (map (rd h2) ss) (vec_entries (rd_vec h3 x))).
  { destruct b.
    - destruct (out_loop (hm h2) ss h2 nil_slice []) as (out & h3 & Y & (B3 & V3 & _) & G3 & E1 & E2 & _); [exact Kk | split; [split; [cbn; lia | cbn; lia]|]; split; [reflexivity | left; reflexivity] | apply grown_refl|].
      exists (HVM out), h3. split; [unfold bindM; rewrite Y; reflexivity|]. split; [exact E1|]. split; [exact E2|]. split; [exact G3|].
      cbn [rd_vec vec_entries]. cbn [app] in V3. rewrite V3. clear - Kk E1 E2. induction ss as [|s ss IH]; cbn [map]; constructor; [|apply IH; apply (Forall_inv_tail Kk)].
      pose proof (Forall_inv Kk) as Ks. destruct s; try contradiction; cbn [rd to_mono]; [reflexivity|]. unfold rd_mono. rewrite E1, E2. reflexivity.
    - assert (Hk : exists ks, ss = map HK ks).
      { assert (D : Forall (fun d => exists k, d = SK k) d2s).
        { clear - T Ln Hb. revert d1s d2s Ln T Hb. induction ms as [|t l IH]; intros [|x1 d1s] [|x2 d2s] Ln T Hb; cbn in *; try discriminate; inversion T as [|? ? ? ? H T']; subst; constructor.
          - destruct H as [H1 H2]. cbn [fst snd] in *. symmetry in Hb. apply orb_false_iff in Hb as [Hb _]. destruct (mono_derivative_kinds _ _ _ H1) as [[k ->]|[m ->]]; [|discriminate Hb].
            rewrite (not_hit_lower v _ (number_not_hit v _ k H1)) in H2. exists k. congruence.
          - eapply (IH d1s); [lia | exact T' |]. symmetry in Hb. apply orb_false_iff in Hb as [_ Hb]. auto. }
        clear - K D. revert D. induction K as [|s x ss xs (K1 & _) K IH]; intro D; [exists []; reflexivity|]. inversion D as [|? ? (k & H) D']; subst. destruct (IH D') as [ks ->]. exists (k :: ks). destruct s; cbn [rd] in H; try discriminate. injection H as ->. reflexivity. }
      destruct Hk as [ks ->]. exists (HVK ks), h2. split; [unfold bindM; rewrite (number_loop (map HK ks) ks h2 [] eq_refl); reflexivity|]. split; [reflexivity|]. split; [reflexivity|]. split; [apply grown_refl|].
      cbn [rd_vec vec_entries]. rewrite map_map. cbn [rd]. clear. induction ks; cbn [map]; constructor; [reflexivity | assumption]. }
  destruct Res as (x & h3 & Y & E1 & E2 & G & F). exists x, h3.
  assert (Rm : forall t, rd_mono h3 t = rd_mono h2 t) by (intro t; unfold rd_mono; rewrite E1, E2; reflexivity).
  assert (M3 : moved v h ms h h3) by (destruct M as [A1 A2 A3]; split; [eapply grown_trans; eassumption | rewrite E2; exact A2 | rewrite E1; exact A3]).
  split; [|split; [|split]].
  - unfold h_monovec_derivative. unfold bindM at 1. unfold reads at 1. rewrite Ck. cbn [check]. unfold bindM at 1. unfold indices. rewrite <- (view_length _ _ L1). fold ms. cbn [length] in X.
    change (forM _ (seq 0 (length ms)) (false, []) h) with (forM (mv_body v mv) (seq 0 (length ms)) (false, []) h). rewrite X. cbn [fst snd]. exact Y.
  - assert (E : map (rd h2) ss = d2s) by (clear - K; induction K as [|s x ss xs (K1 & _) K IH]; [reflexivity | cbn; congruence]). rewrite E in F. unfold rd_poly. fold ms. clear - F T Ln Vm. revert d1s d2s Ln T F. generalize (vec_entries (rd_vec h3 x)).
    induction ms as [|t l IH]; intros es [|x1 d1s] [|x2 d2s] Ln T F; cbn in *; try discriminate; inversion T as [|? ? ? ? H T']; subst; inversion F as [|? e ? es' Fe F']; subst; constructor.
    + exists x2. split; [|exact Fe]. destruct H as [_ H]. cbn [snd] in H. cbn [scalar_derivative]. rewrite <- lower_lowered by exact (Forall_inv Vm). exact H.
    + eapply (IH (Forall_inv_tail Vm)); [|eassumption | exact F']. lia.
  - unfold rd_poly. rewrite (grown_view _ _ _ (mv_m _ _ _ _ _ M3) L1). fold ms. rewrite map_map. apply map_ext_in. intros t Ht. rewrite Rm, (Lo t Ht). rewrite Forall_forall in Vm. specialize (Vm t Ht).
    rewrite (lower_lowered v _ Vm). apply lower_lowered. apply valid_lowered. exact Vm.
  - intros t Lt D. apply (moved_frame h v ms h3 t M3 Lt). exact D.
Qed.

(** ** MonomialMatrix *)
Theorem monomat_effect h mm v : Forall (fun r => legal h (HP r)) mm -> own_exponents_in h v (monomials_in h mm) ->
  mat_check (MM (map (rd_poly h) mm)) = true -> Forall (Forall valid_mono) (map (rd_poly h) mm) -> valid_var v ->
  exists x h', h_monomat_derivative mm v h = (Ok x, h') /\
    Forall2 (Forall2 (fun m e => exists d, scalar_derivative (SM m) v = Ok d /\ same_terms d e)) (map (rd_poly h) mm) (mat_rows x) /\
    map (rd_poly h') mm = map (map (lowered v)) (map (rd_poly h) mm) /\ (forall t, legal h t -> out_of_reach_of h v (monomials_in h mm) t -> rd h' t = rd h t).
Proof.
  intros Le Ow Ck Va Vv. unfold monomials_in in *. pose proof (own_apart h v _ Ow) as Ap. set (ms := flat_map (view (hm h)) mm) in *.
  assert (Lb : Forall (inb (hm h)) mm) by (eapply Forall_impl; [|exact Le]; intros r [L _]; exact (L r eq_refl)).
  assert (Lg : forall m, In m ms -> legal_mono h m). { intros m Hm. apply in_flat_map in Hm as (r & Hr & Hm). rewrite Forall_forall in Le. apply (Le r Hr). exact Hm. }
  assert (Vm : Forall (fun r => Forall (good_entry h) (view (hm h) r)) mm).
  { apply (proj1 (Forall_map (rd_poly h) (Forall valid_mono) mm)) in Va. eapply Forall_impl; [|exact Va]. intros r Hr. exact (proj1 (Forall_map (rd_mono h) valid_mono _) Hr). }
  destruct (rows_loop v h ms Ap Lg Vv mm [] [] h [] Lb) as (h2 & rows & dss & X & Hm & Hp & M & K & D & Lo); [rewrite app_nil_r; reflexivity | exact Vm | reflexivity | reflexivity | apply moved_refl|].
  cbn [app] in *. fold ms in M, K, Lo.
  assert (Er : map (map (rd h2)) rows = dss).
  { clear - K. induction K as [|ss ds rows dss K1 K IH]; [reflexivity|]. cbn [map]. rewrite IH. f_equal. clear - K1. induction K1 as [|s x ss xs (K1 & _) K IH]; [reflexivity | cbn; congruence]. }
  assert (F : Forall2 (Forall2 (fun m d => mono_derivative m v = Ok d)) (map (rd_poly h) mm) dss).
  { clear - D. induction D as [|r ds mm dss D1 D IH]; cbn [map]; constructor; [|exact IH]. unfold rd_poly. clear - D1. induction D1; cbn [map]; constructor; assumption. }
  assert (Xc : exists x, concretize_matrix dss = Ok x /\ Forall2 (Forall2 same_terms) dss (mat_rows x)).
  { cbn [mat_check] in Ck. destruct (map (rd_poly h) mm) as [|l0 ll'] eqn:El; [discriminate|]. cbn [rows_check] in Ck. apply andb_true_iff in Ck. destruct Ck as [Ck _].
    apply (concretize_matrix_terms dss (length l0)); [intro Z; rewrite Z in F; inversion F|]. rewrite forallb_forall in Ck. clear - F Ck. remember (l0 :: ll') as l1. clear Heql1.
    induction F as [|a b l1 rows H F IH]; [constructor|]. constructor; [|apply IH; intros; apply Ck; right; assumption]. rewrite <- (F2_length _ _ _ H). apply Nat.eqb_eq. apply Ck. left. reflexivity. }
  destruct Xc as (x & Hx & Tx). exists x, h2. split; [|split; [|split]].
  - unfold h_monomat_derivative. unfold bindM at 1. unfold reads at 1. change (map (fun r => map (rd_mono h) (view (hm h) r)) mm) with (map (rd_poly h) mm). rewrite Ck. cbn [check]. unfold bindM at 1. unfold check_var. rewrite (proj2 (var_check_valid v) Vv). cbn [check]. unfold reads at 1.
    unfold bindM at 1. change (forM _ mm [] h) with (forM (rows_body v) mm [] h). rewrite X. unfold reads. rewrite Er, Hx. reflexivity.
  - clear - F Tx. revert Tx. generalize (mat_rows x). induction F as [|l ds ll rows Hd F IH]; intros es T; inversion T as [|? e ? es' H1 H2]; subst; constructor; [|apply IH; assumption].
    clear - Hd H1. revert e H1. induction Hd as [|m d l ds Hmd F IH]; intros es T; inversion T; subst; constructor; [eauto | apply IH; assumption].
  - rewrite map_map. apply map_ext_in. intros r Hr. unfold rd_poly. rewrite Hm, map_map. apply map_ext_in. intros t Ht. rewrite (Lo t) by (apply in_flat_map; exists r; split; assumption).
    apply lower_lowered. rewrite Forall_forall in Vm. specialize (Vm r Hr). rewrite Forall_forall in Vm. exact (Vm t Ht).
  - intros t Lt Dt. exact (moved_frame h v ms h2 t M Lt Dt).
Qed.

(** ** PolynomialVector *)
Lemma kept_polys h v h2 l new qs : Forall2 (kept v h h2 l) (map HP new) (map SP qs) -> map (rd_poly h2) new = qs.
Proof.
  revert qs. induction new as [|s new IH]; intros [|q qs] F; cbn [map] in *; inversion F as [|? ? ? ? (K1 & _) F']; subst; [reflexivity|]. cbn [rd] in K1. injection K1 as K1. rewrite K1, (IH qs F'). reflexivity.
Qed.
Lemma lowered_polys h h2 v ps : Forall (inb (hm h)) ps -> grown (hm h) (hm h2) -> Forall (Forall valid_mono) (map (rd_poly h) ps) ->
  (forall t, In t (flat_map (view (hm h)) ps) -> rd_mono h2 t = lower v (rd_mono h t)) -> forall p, In p ps -> rd_poly h2 p = map (lowered v) (rd_poly h p).
Proof.
  intros B G Va Lo p Hp. unfold rd_poly. rewrite Forall_forall in B. rewrite (grown_view _ _ _ G (B p Hp)), map_map. apply map_ext_in. intros t Ht. rewrite (Lo t) by (apply in_flat_map; exists p; split; assumption).
  apply lower_lowered. apply (proj1 (Forall_map (rd_poly h) (Forall valid_mono) ps)) in Va. rewrite Forall_forall in Va. specialize (Va p Hp). apply (proj1 (Forall_map (rd_mono h) valid_mono _)) in Va. rewrite Forall_forall in Va. exact (Va t Ht).
Qed.

Theorem polyvec_effect h pv v qs : in_memory (hp h) pv -> let ps := view (hp h) pv in Forall (fun p => legal h (HP p)) ps -> own_exponents_in h v (monomials_in h ps) ->
  Forall valid_poly (map (rd_poly h) ps) -> Forall2 (fun p q => scalar_derivative (SP p) v = Ok (SP q)) (map (rd_poly h) ps) qs ->
  exists h', h_polyvec_derivative pv v h = (Ok (HVP pv), h') /\ rd_vec h' (HVP pv) = VP qs /\
    (forall p, In p ps -> rd_poly h' p = map (lowered v) (rd_poly h p)) /\ (forall t, legal h t -> out_of_reach_of h v (monomials_in h ps) t -> rd h' t = rd h t).
Proof.
  intros B ps Le Ow Va D. unfold monomials_in in *. pose proof (own_apart h v _ Ow) as Ap. set (ms := flat_map (view (hm h)) ps) in *.
  assert (Lb : Forall (inb (hm h)) ps) by (eapply Forall_impl; [|exact Le]; intros r [L _]; exact (L r eq_refl)).
  assert (Lg : forall m, In m ms -> legal_mono h m). { intros m Hm. apply in_flat_map in Hm as (r & Hr & Hm). rewrite Forall_forall in Le. apply (Le r Hr). exact Hm. }
  assert (D' : Forall2 (fun p q => poly_derivative (rd_poly h p) v = Ok (SP q)) ps qs).
  { clear - D. revert qs D. induction ps as [|p l IH]; intros qs D; cbn [map] in D; inversion D; subst; constructor; [assumption | apply IH; assumption]. }
  destruct (pv_loop v h ms Ap Lg pv ps [] [] [] [] h qs B) as (h2 & new & X & B2 & V2 & M & K & Lo); [cbn [app]; rewrite app_nil_r; reflexivity | exact Lb | cbn [app]; rewrite app_nil_r; reflexivity | apply moved_refl | exact D'|].
  cbn [app length] in *. rewrite app_nil_r in V2. fold ms in M, K, Lo. exists h2. split; [|split; [|split]].
  - unfold h_polyvec_derivative. unfold bindM at 1. unfold indices. rewrite <- (view_length _ _ B). fold ps. change (forM _ (seq 0 (length ps)) tt h) with (forM (pv_body v pv) (seq 0 (length ps)) tt h). rewrite X. reflexivity.
  - cbn [rd_vec]. rewrite V2. f_equal. eapply kept_polys. exact K.
  - apply (lowered_polys h h2 v ps Lb (mv_m _ _ _ _ _ M)); [|exact Lo]. eapply Forall_impl; [|exact Va]. intros p [_ Hp]. exact Hp.
  - intros t Lt Dt. exact (moved_frame h v ms h2 t M Lt Dt).
Qed.

Lemma forM_app {A S} (body : S -> A -> M S) l1 l2 acc h : forM body (l1 ++ l2) acc h = (acc' <~ forM body l1 acc ;; forM body l2 acc') h.
Proof.
  revert acc h. induction l1 as [|a l1 IH]; intros acc h; [reflexivity|]. cbn [app forM]. unfold bindM. destruct (body acc a h) as [[x|p] h1]; [|reflexivity]. rewrite IH. unfold bindM. reflexivity.
Qed.
(** the first entry whose derivative is a number makes the call panic *)
Theorem polyvec_panic h pv v l1 p l2 qs k : in_memory (hp h) pv -> let ps := view (hp h) pv in ps = l1 ++ p :: l2 -> Forall (fun p => legal h (HP p)) ps -> own_exponents_in h v (monomials_in h ps) ->
  Forall2 (fun p q => scalar_derivative (SP p) v = Ok (SP q)) (map (rd_poly h) l1) qs -> scalar_derivative (SP (rd_poly h p)) v = Ok (SK k) ->
  exists h', h_polyvec_derivative pv v h = (Panic PRuntime, h') /\ 
    exists new, view (hp h') pv = new ++ p :: l2 /\ map (rd_poly h') new = qs.
Proof.
  intros B ps Eps Le Ow D Dp. unfold monomials_in in *. pose proof (own_apart h v _ Ow) as Ap. set (ms := flat_map (view (hm h)) ps) in *.
  assert (Lb : Forall (inb (hm h)) ps) by (eapply Forall_impl; [|exact Le]; intros r [L _]; exact (L r eq_refl)).
  assert (Lg : forall m, In m ms -> legal_mono h m). { intros m Hm. apply in_flat_map in Hm as (r & Hr & Hm). rewrite Forall_forall in Le. apply (Le r Hr). exact Hm. }
  assert (D' : Forall2 (fun p q => poly_derivative (rd_poly h p) v = Ok (SP q)) l1 qs).
  { clear - D. revert qs D. induction l1 as [|p l IH]; intros qs D; cbn [map] in D; inversion D; subst; constructor; [assumption | apply IH; assumption]. }
  assert (Em : ms = [] ++ flat_map (view (hm h)) l1 ++ view (hm h) p ++ flat_map (view (hm h)) l2) by (unfold ms; rewrite Eps, flat_map_app; reflexivity).
  assert (Lb1 : Forall (inb (hm h)) l1 /\ inb (hm h) p). { rewrite Eps in Lb. apply Forall_app in Lb as [A1 A2]. split; [exact A1 | exact (Forall_inv A2)]. }
  destruct (pv_loop v h ms Ap Lg pv l1 (p :: l2) [] [] (view (hm h) p ++ flat_map (view (hm h)) l2) h qs B) as (h2 & new & X & B2 & V2 & M & K & Lo); [exact Eps | apply Lb1 | exact Em | apply moved_refl | exact D'|].
  cbn [app length] in *. assert (Ln : length new = length l1).
  { assert (L : length (view (hp h2) pv) = length ps) by (unfold ps; rewrite !view_length by assumption; reflexivity). rewrite V2, Eps, !app_length in L. cbn in L. lia. }
  destruct (call_poly v h ms Ap Lg (flat_map (view (hm h)) l1) (flat_map (view (hm h)) l2) h2 p) as (r & h3 & R & Vr & Hp & M3 & K3 & _); [apply Lb1 | exact Em | exact M|].
  cbn [scalar_derivative] in Dp. rewrite Dp in Vr. destruct r as [d|]; [|discriminate Vr]. cbn [as_value] in Vr. injection Vr as Vr. destruct d as [k'|u|m|s]; cbn [rd] in Vr; try discriminate Vr.
  exists h3. split.
  - unfold h_polyvec_derivative. unfold bindM at 1. unfold indices. rewrite <- (view_length _ _ B). fold ps. change (forM _ (seq 0 (length ps)) tt h) with (forM (pv_body v pv) (seq 0 (length ps)) tt h).
    rewrite Eps, app_length, seq_app, forM_app. unfold bindM at 1. rewrite X. cbn [length seq forM]. unfold bindM at 1. unfold pv_body at 1. unfold bindM at 1. unfold get_poly, reads, index. rewrite V2. cbn [Nat.add]. rewrite <- Ln, nth_error_app2, Nat.sub_diag by lia. cbn [nth_error].
    unfold bindM at 1. rewrite R. reflexivity.
  - exists new. split; [rewrite Hp; exact V2|]. apply (kept_polys h v h3 (flat_map (view (hm h)) l1 ++ view (hm h) p)).
    eapply F2_impl; [|exact K]. intros s x Kx. exact (kept_step v h ms Ap Lg _ _ _ h2 h3 s x Em M M3 Kx).
Qed.

(** ** PolynomialMatrix *)
Theorem polymat_effect h pm v qss : Forall (in_memory (hp h)) pm -> let ps := flat_map (view (hp h)) pm in let entries := map (fun r => map (rd_poly h) (view (hp h) r)) pm in
  Forall (fun p => legal h (HP p)) ps -> own_exponents_in h v (monomials_in h ps) -> mat_check (MP entries) = true -> valid_var v ->
  Forall (Forall valid_poly) entries -> Forall2 (Forall2 (fun p q => scalar_derivative (SP p) v = Ok (SP q))) entries qss ->
  exists ds h', h_polymat_derivative pm v h = (Ok ds, h') /\ map (map (rd_poly h')) ds = qss /\
    map (fun r => map (rd_poly h') (view (hp h') r)) pm = map (map (map (lowered v))) entries /\ (forall t, legal h t -> out_of_reach_of h v (monomials_in h ps) t -> rd h' t = rd h t).
Proof.
  intros B ps entries Le Ow Ck Vv Va D. unfold monomials_in in *. pose proof (own_apart h v _ Ow) as Ap. set (ms := flat_map (view (hm h)) ps) in *.
  assert (Lb : Forall (inb (hm h)) ps) by (eapply Forall_impl; [|exact Le]; intros r [L _]; exact (L r eq_refl)).
  assert (Lg : forall m, In m ms -> legal_mono h m). { intros m Hm. apply in_flat_map in Hm as (r & Hr & Hm). rewrite Forall_forall in Le. apply (Le r Hr). exact Hm. }
  assert (D' : Forall2 (fun r qs => Forall2 (fun p q => poly_derivative (rd_poly h p) v = Ok (SP q)) (view (hp h) r) qs) pm qss).
  { clear - D. unfold entries in D. revert qss D. induction pm as [|r l IH]; intros qss D; cbn [map] in D; inversion D as [|? qs ? qss' H D2]; subst; constructor; [|apply IH; assumption].
    clear - H. revert qs H. induction (view (hp h) r) as [|p l IH]; intros qs D; cbn [map] in D; inversion D; subst; constructor; [assumption | apply IH; assumption]. }
  destruct (prows_loop v h ms Ap Lg pm [] [] h [] qss B Lb) as (h2 & new & X & Hp & M & K & Lo); [rewrite app_nil_r; reflexivity | apply moved_refl | exact D'|].
  cbn [app] in *. fold ps in M, K, Lo. fold ms in M, K, Lo. exists new, h2. split; [|split; [|split]].
  - unfold h_polymat_derivative. unfold bindM at 1. unfold reads at 1. fold entries. rewrite Ck. cbn [check]. unfold bindM at 1. unfold check_var. rewrite (proj2 (var_check_valid v) Vv). cbn [check]. unfold reads at 1. exact X.
  - clear - K. induction K as [|l qs new qss K1 K IH]; [reflexivity|]. cbn [map]. rewrite IH. f_equal. eapply kept_polys. exact K1.
  - unfold entries. rewrite map_map. apply map_ext_in. intros r Hr. rewrite Hp, map_map. apply map_ext_in. intros p Hpp.
    apply (lowered_polys h h2 v ps Lb (mv_m _ _ _ _ _ M)); [|exact Lo | apply in_flat_map; exists r; split; assumption].
    apply Forall_map. rewrite Forall_forall. intros q Hq. apply in_flat_map in Hq as (r' & Hr' & Hq). unfold entries in Va. rewrite Forall_forall in Va. specialize (Va _ (in_map _ _ _ Hr')). rewrite Forall_forall in Va. apply (Va _ (in_map _ _ _ Hq)).
  - intros t Lt Dt. exact (moved_frame h v ms h2 t M Lt Dt).
Qed.
Lemma sweep_polys l v : Forall (fun p => valid_poly p /\ mentions v p) l -> valid_var v -> exists qs, Forall2 (fun p q => scalar_derivative (SP p) v = Ok (SP q)) l qs.
Proof.
  intros F Vv. induction F as [|p l [V Mp] F (qs & IH)]; [exists []; constructor|]. destruct (poly_derivative_poly p v V Vv Mp) as (q & Hq). exists (q :: qs). constructor; assumption.
Qed.

Theorem polyvec_any h pv v : in_memory (hp h) pv -> let ps := view (hp h) pv in Forall (fun p => legal h (HP p)) ps -> own_exponents_in h v (monomials_in h ps) ->
  Forall (fun p => valid_poly p /\ mentions v p) (map (rd_poly h) ps) -> valid_var v ->
  exists h', h_polyvec_derivative pv v h = (Ok (HVP pv), h') /\ Forall2 (fun p d => scalar_derivative (SP p) v = Ok d) (map (rd_poly h) ps) (vec_entries (rd_vec h' (HVP pv))) /\
    (forall p, In p ps -> rd_poly h' p = map (lowered v) (rd_poly h p)) /\ (forall t, legal h t -> out_of_reach_of h v (monomials_in h ps) t -> rd h' t = rd h t).
Proof.
  intros B ps Le Ow Va Vv. destruct (sweep_polys _ v Va Vv) as (qs & Q).
  assert (V : Forall valid_poly (map (rd_poly h) ps)) by (eapply Forall_impl; [|exact Va]; intros p [Vp _]; exact Vp).
  destruct (polyvec_effect h pv v qs B Le Ow V Q) as (h' & X & R & K). exists h'. split; [exact X|]. split; [|exact K]. rewrite R. cbn [vec_entries]. clear - Q. induction Q; cbn [map]; constructor; assumption.
Qed.
Theorem polymat_any h pm v : Forall (in_memory (hp h)) pm -> let ps := flat_map (view (hp h)) pm in let entries := map (fun r => map (rd_poly h) (view (hp h) r)) pm in
  Forall (fun p => legal h (HP p)) ps -> own_exponents_in h v (monomials_in h ps) -> mat_check (MP entries) = true -> valid_var v -> Forall (Forall (fun p => valid_poly p /\ mentions v p)) entries ->
  exists ds h', h_polymat_derivative pm v h = (Ok ds, h') /\ Forall2 (Forall2 (fun p d => scalar_derivative (SP p) v = Ok (SP (rd_poly h' d)))) entries ds /\
    map (fun r => map (rd_poly h') (view (hp h') r)) pm = map (map (map (lowered v))) entries /\ (forall t, legal h t -> out_of_reach_of h v (monomials_in h ps) t -> rd h' t = rd h t).
Proof.
  intros B ps entries Le Ow Ck Vv Va.
  assert (Q : exists qss, Forall2 (Forall2 (fun p q => scalar_derivative (SP p) v = Ok (SP q))) entries qss).
  { clear - Va Vv. induction Va as [|l ll F Va (qss & IH)]; [exists []; constructor|]. destruct (sweep_polys _ v F Vv) as (qs & Q). exists (qs :: qss). constructor; assumption. }
  destruct Q as (qss & Q). assert (V : Forall (Forall valid_poly) entries) by (eapply Forall_impl; [|exact Va]; intros l Hl; eapply Forall_impl; [|exact Hl]; intros p [Vp _]; exact Vp).
  destruct (polymat_effect h pm v qss B Le Ow Ck Vv V Q) as (ds & h' & X & R & K). exists ds, h'. split; [exact X|]. split; [|exact K].
  clear - Q R. fold entries in Q. revert ds R. induction Q as [|l qs ll qss H Q IH]; intros [|d ds] R; cbn [map] in R; try discriminate R; [constructor|]. injection R as R1 R2. constructor; [|apply (IH ds R2)].
  clear - H R1. revert d R1. induction H as [|p q l qs H Q IH]; intros [|d ds] R; cbn [map] in R; try discriminate R; [constructor|]. injection R as R1 R2. constructor; [|apply (IH ds R2)].
  rewrite R1. exact H.
Qed.
End Top.

(** ** Over the real numbers *)
Section Real.
Local Existing Instance RNum.
Context {RT : Runtime}.

Lemma linear_or_hits (v : var) m : valid_mono m -> at_most_linear_in v (SM m) \/ hits v m.
Proof.
  intros (L & E & Nd & Fv). destruct (find_var v (m_vars m)) as [k|] eqn:Ek.
  - pose proof (find_var_some _ _ _ Ek) as (w & Hw & Iw). assert (Lk : (k < length (m_exps m))%nat) by (rewrite L; apply nth_error_Some; congruence).
    destruct (nth_error (m_exps m) k) as [e|] eqn:Ee; [|apply nth_error_None in Ee; lia]. destruct (Z.eq_dec e 1) as [->|Ne]; [left | right; exists k, e; auto].
    intros m' i u x [<-|[]] Hu Iu Hx. assert (i = k).
    { rewrite NoDup_nth_error in Nd. apply Nd; [rewrite map_length; apply nth_error_Some; congruence|]. rewrite !nth_error_map, Hu, Hw. cbn [option_map]. congruence. }
    subst i. congruence.
  - left. intros m' i u x [<-|[]] Hu Iu Hx. apply find_var_none in Ek. exfalso. apply Ek. rewrite <- Iu. apply in_map. eapply nth_error_In; exact Hu.
Qed.
Definition ones : assignment := fun _ => 1%R.
Lemma pow_ones n : npow (1%R : num) n = (1%R : num).
Proof. induction n as [|n IH]; [reflexivity|]. cbn [npow]. rewrite IH. apply Rmult_1_l. Qed.
Lemma factors_ones vs es : eval_factors ones vs es = (1%R : num).
Proof. revert es. induction vs as [|u vs IH]; intros [|e es]; cbn [eval_factors]; try reflexivity. rewrite IH. unfold ones. rewrite pow_ones. apply Rmult_1_l. Qed.
Lemma mono_ones m : eval ones (SM m) = m_coeff m.
Proof. cbn [eval]. unfold eval_mono. rewrite factors_ones. apply Rmult_1_r. Qed.
Lemma derivative_ones m v k e d : mono_derivative m v = Ok d -> find_var v (m_vars m) = Some k -> nth_error (m_exps m) k = Some e -> eval ones d = (m_coeff m * IZR e)%R.
Proof.
  unfold mono_derivative. destruct (check (mono_check m) PCheck); cbn [bind]; [|discriminate]. destruct (check (var_check v) PCheck); cbn [bind]; [|discriminate].
  intros H Hk He. rewrite Hk in H. unfold index in H. rewrite He in H. cbn [bind] in H. destruct (Z.eqb_spec e 1) as [->|Ne]; cbn [andb] in H.
  - destruct (Nat.eqb (length (m_vars m)) 1); injection H as <-; [cbn [eval]; symmetry; apply Rmult_1_r|]. rewrite mono_ones. cbn [m_coeff]. symmetry. apply Rmult_1_r.
  - injection H as <-. rewrite mono_ones. reflexivity.
Qed.

Theorem monovec_effect_real h mv v : legal h (HP mv) -> own_exponents h v (HP mv) -> rd_poly h mv <> [] -> Forall valid_mono (rd_poly h mv) -> valid_var v ->
  exists x h', h_monovec_derivative mv v h = (Ok x, h') /\
    Forall2 (fun m e => derivative_of v (SM (lowered v m)) e) (rd_poly h mv) (vec_entries (rd_vec h' x)) /\
    (Forall2 (fun m e => derivative_of v (SM m) e) (rd_poly h mv) (vec_entries (rd_vec h' x)) <-> Forall (fun m => m_coeff m = 0%R \/ at_most_linear_in v (SM m)) (rd_poly h mv)).
Proof.
  intros L Ow Ne Va Vv. destruct (monovec_effect h mv v L Ow Ne Va Vv) as (x & h' & X & F & _). exists x, h'. split; [exact X|].
  assert (F' : Forall2 (fun m e => derivative_of v (SM (lowered v m)) e) (rd_poly h mv) (vec_entries (rd_vec h' x))).
  { clear - F Va Vv. induction F as [|m e l es (d & Hd & T) F IH]; [constructor|]. inversion Va as [|? ? V1 V2]; subst. constructor; [|apply IH; exact V2].
    intro r. rewrite (same_terms_eval d e r RNum_exact T). apply (derivative_of_scalar v (SM (lowered v m)) d (valid_lowered v m V1) Vv Hd). }
  split; [exact F'|]. clear F X. revert Va F'. generalize (vec_entries (rd_vec h' x)). generalize (rd_poly h mv). intros l es Va F.
  assert (K : forall m e, valid_mono m -> derivative_of v (SM (lowered v m)) e -> (derivative_of v (SM m) e <-> m_coeff m = 0%R \/ at_most_linear_in v (SM m))).
  { clear - Vv. intros m e V D. split.
    - intro D'. destruct (linear_or_hits v m V) as [Li|Hh]; [right; exact Li|]. left. pose proof Hh as (k & z & Hk & Hz & Nz).
      destruct (mono_derivative_ok m v V Vv) as (d1 & X1 & _). destruct (mono_derivative_ok _ v (valid_lowered v m V) Vv) as (d2 & X2 & _).
      pose proof (derivative_of_scalar v (SM m) d1 V Vv X1 ones) as Y1. pose proof (derivative_of_scalar v (SM (lowered v m)) d2 (valid_lowered v m V) Vv X2 ones) as Y2.
      pose proof (uniqueness_limite _ _ _ _ Y1 (D' ones)) as Z1. pose proof (uniqueness_limite _ _ _ _ Y2 (D ones)) as Z2. rewrite (derivative_ones m v k z d1 X1 Hk Hz) in Z1.
      assert (Q : lowered v m = mkMono (m_coeff m) (set_nth k (z - 1)%Z (m_exps m)) (m_vars m)).
      { rewrite <- lower_lowered by exact V. unfold lower. rewrite Hk, Hz. destruct (Z.eqb_spec z 1); [contradiction | reflexivity]. }
      assert (Lk : (k < length (m_exps m))%nat) by (apply nth_error_Some; congruence).
      rewrite (derivative_ones (lowered v m) v k (z - 1)%Z d2 X2) in Z2; [|rewrite Q; exact Hk | rewrite Q; cbn [m_exps]; rewrite set_nth_nth, Nat.eqb_refl, (proj2 (Nat.ltb_lt _ _) Lk); reflexivity].
      rewrite Q in Z2. cbn [m_coeff] in Z2. rewrite minus_IZR in Z2. rewrite <- Z1 in Z2. lra.
    - intros [C|Li].
      + assert (Z0 : forall r, eval r (SM (lowered v m)) = eval r (SM m)) by (intro r; cbn [eval]; unfold eval_mono, lowered; cbn [m_coeff]; rewrite C; change (0 * eval_factors r (m_vars m) (map (fun ue => if same_id (fst ue) v && negb (snd ue =? 1)%Z then (snd ue - 1)%Z else snd ue) (combine (m_vars m) (m_exps m))) = 0 * eval_factors r (m_vars m) (m_exps m))%R; rewrite !Rmult_0_l; reflexivity).
        intros r. pose proof (D r) as D1. intros eps He. destruct (D1 eps He) as (dl & Hd). exists dl. intros y Hy1 Hy2. specialize (Hd y Hy1 Hy2). rewrite !Z0 in Hd. exact Hd.
      + assert (Q : lowered v m = m). { rewrite <- lower_lowered by exact V. apply not_hit_lower. intro Hh. exact (hits_nonlinear _ _ Hh Li). } rewrite Q in D. exact D. }
  induction F as [|m e l es D F IH]; [split; intros _; constructor|]. inversion Va as [|? ? V1 V2]; subst. specialize (K m e V1 D). specialize (IH V2). split; intro H; inversion H; subst; constructor; tauto.
Qed.

Theorem monomat_effect_real h mm v : Forall (fun r => legal h (HP r)) mm -> own_exponents_in h v (monomials_in h mm) ->
  mat_check (MM (map (rd_poly h) mm)) = true -> Forall (Forall valid_mono) (map (rd_poly h) mm) -> valid_var v ->
  exists x h', h_monomat_derivative mm v h = (Ok x, h') /\ Forall2 (Forall2 (fun m e => derivative_of v (SM m) e)) (map (rd_poly h) mm) (mat_rows x).
Proof.
  intros Le Ow Ck Va Vv. destruct (monomat_effect h mm v Le Ow Ck Va Vv) as (x & h' & X & F & _). exists x, h'. split; [exact X|].
  clear - F Va Vv. induction F as [|l e ll es F1 F IH]; [constructor|]. inversion Va as [|? ? V1 V2]; subst. constructor; [|apply IH; exact V2].
  clear - F1 V1 Vv. induction F1 as [|m e l es (d & Hd & T) F IH]; [constructor|]. inversion V1 as [|? ? W1 W2]; subst. constructor; [|apply IH; exact W2].
  intro r. rewrite (same_terms_eval d e r RNum_exact T). apply (derivative_of_scalar v (SM m) d W1 Vv Hd).
Qed.
Theorem polyvec_effect_real h pv v : in_memory (hp h) pv -> let ps := view (hp h) pv in Forall (fun p => legal h (HP p)) ps -> own_exponents_in h v (monomials_in h ps) ->
  Forall (fun p => valid_poly p /\ mentions v p) (map (rd_poly h) ps) -> valid_var v ->
  exists h', h_polyvec_derivative pv v h = (Ok (HVP pv), h') /\ Forall2 (fun p d => derivative_of v (SP p) d) (map (rd_poly h) ps) (vec_entries (rd_vec h' (HVP pv))).
Proof.
  intros B ps Le Ow Va Vv. destruct (sweep_polys _ v Va Vv) as (qs & Q).
  assert (V : Forall valid_poly (map (rd_poly h) ps)) by (eapply Forall_impl; [|exact Va]; intros p [Vp _]; exact Vp).
  destruct (polyvec_effect h pv v qs B Le Ow V Q) as (h' & X & R & _). exists h'. split; [exact X|]. rewrite R. cbn [vec_entries].
  clear - V Vv Q. induction Q as [|p q l qs H Q IH]; cbn [map]; constructor; [|apply IH; apply (Forall_inv_tail V)]. apply derivative_of_scalar; [exact (Forall_inv V) | exact Vv | exact H].
Qed.

Theorem polymat_effect_real h pm v : Forall (in_memory (hp h)) pm -> let ps := flat_map (view (hp h)) pm in let entries := map (fun r => map (rd_poly h) (view (hp h) r)) pm in
  Forall (fun p => legal h (HP p)) ps -> own_exponents_in h v (monomials_in h ps) -> mat_check (MP entries) = true -> valid_var v -> Forall (Forall (fun p => valid_poly p /\ mentions v p)) entries ->
  exists ds h', h_polymat_derivative pm v h = (Ok ds, h') /\ Forall2 (Forall2 (fun p d => derivative_of v (SP p) (SP (rd_poly h' d)))) entries ds.
Proof.
  intros B ps entries Le Ow Ck Vv Va.
  assert (Q : exists qss, Forall2 (Forall2 (fun p q => scalar_derivative (SP p) v = Ok (SP q))) entries qss).
  { clear - Va Vv. induction Va as [|l ll F Va (qss & IH)]; [exists []; constructor|]. destruct (sweep_polys _ v F Vv) as (qs & Q). exists (qs :: qss). constructor; assumption. }
  destruct Q as (qss & Q). assert (V : Forall (Forall valid_poly) entries) by (eapply Forall_impl; [|exact Va]; intros l Hl; eapply Forall_impl; [|exact Hl]; intros p [Vp _]; exact Vp).
  destruct (polymat_effect h pm v qss B Le Ow Ck Vv V Q) as (ds & h' & X & R & _). exists ds, h'. split; [exact X|].
  clear - V Vv Q R. fold entries in Q, V. revert ds R. induction Q as [|l qs ll qss H Q IH]; intros [|d ds] R; cbn [map] in R; try discriminate R; [constructor|]. injection R as R1 R2. constructor; [|apply (IH (Forall_inv_tail V) ds R2)].
  pose proof (Forall_inv V) as V1. clear - V1 Vv H R1. revert d R1. induction H as [|p q l qs H Q IH]; intros [|d ds] R; cbn [map] in R; try discriminate R; [constructor|]. injection R as R1 R2. constructor; [|apply (IH (Forall_inv_tail V1) ds R2)].
  rewrite R1. apply derivative_of_scalar; [exact (Forall_inv V1) | exact Vv | exact H].
Qed.
End Real.
