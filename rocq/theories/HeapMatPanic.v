(** * When DerivativeWrt of a PolynomialMatrix panics *)

From Coq Require Import ZArith NArith Bool List Lia.
From Verif Require Import Num Syntax ModelScalar ModelShape Spec SpecArr Base ScalarValid Deriv Arr ModelHeap SpecHeap HeapMem HeapRef HeapOps HeapOps2 HeapDeriv HeapProofs HeapVec HeapTop SpecCopy HeapEffect SpecSweep HeapSweep HeapSweepTop.
Import ListNotations.
Local Open Scope num_scope.

Section MatPanic.
Context {NN : Num} {RT : Runtime}.

Lemma derivatives_poly h v l qs : Forall2 (fun p q => scalar_derivative (SP p) v = Ok (SP q)) (map (rd_poly h) l) qs -> Forall2 (fun p q => poly_derivative (rd_poly h p) v = Ok (SP q)) l qs.
Proof. revert qs. induction l as [|p l IH]; intros qs D; cbn [map] in D; inversion D; subst; constructor; [assumption | apply IH; assumption]. Qed.

Theorem polymat_panic h pm v rs1 r rs2 l1 p l2 qss qs k : Forall (in_memory (hp h)) pm -> pm = rs1 ++ r :: rs2 -> view (hp h) r = l1 ++ p :: l2 ->
  let ps := flat_map (view (hp h)) pm in let entries := map (fun r => map (rd_poly h) (view (hp h) r)) pm in
  Forall (fun p => legal h (HP p)) ps -> own_exponents_in h v (monomials_in h ps) -> mat_check (MP entries) = true -> valid_var v ->
  Forall2 (Forall2 (fun p q => scalar_derivative (SP p) v = Ok (SP q))) (map (fun r => map (rd_poly h) (view (hp h) r)) rs1) qss ->
  Forall2 (fun p q => scalar_derivative (SP p) v = Ok (SP q)) (map (rd_poly h) l1) qs -> scalar_derivative (SP (rd_poly h p)) v = Ok (SK k) ->
  exists h', h_polymat_derivative pm v h = (Panic PRuntime, h') /\ map (view (hp h')) pm = map (view (hp h)) pm
    /\ (forall t, legal h t -> out_of_reach_of h v (monomials_in h ps) t -> rd h' t = rd h t).
Proof.
  intros B Epm Er ps entries Le Ow Ck Vv D1 D2 Dp. unfold monomials_in in *. pose proof (own_apart h v _ Ow) as Ap. set (ms := flat_map (view (hm h)) ps) in *.
  assert (Lb : Forall (inb (hm h)) ps) by (eapply Forall_impl; [|exact Le]; intros x [L _]; exact (L x eq_refl)).
  assert (Lg : forall m, In m ms -> legal_mono h m). { intros m Hm. apply in_flat_map in Hm as (x & Hx & Hm). rewrite Forall_forall in Le. apply (Le x Hx). exact Hm. }
  assert (Eps : ps = flat_map (view (hp h)) rs1 ++ l1 ++ p :: (l2 ++ flat_map (view (hp h)) rs2)).
  { unfold ps. rewrite Epm, flat_map_app. cbn [flat_map]. rewrite Er, <- app_assoc. reflexivity. }
  set (q1 := flat_map (view (hp h)) rs1) in *. set (q2 := l2 ++ flat_map (view (hp h)) rs2) in *.
  assert (Em : ms = flat_map (view (hm h)) q1 ++ flat_map (view (hm h)) l1 ++ view (hm h) p ++ flat_map (view (hm h)) q2) by (unfold ms; rewrite Eps, !flat_map_app; reflexivity).
  assert (LB : Forall (inb (hm h)) q1 /\ Forall (inb (hm h)) l1 /\ inb (hm h) p).
  { rewrite Eps in Lb. apply Forall_app in Lb as [A1 A2]. apply Forall_app in A2 as [A2 A3]. split; [exact A1|]. split; [exact A2 | exact (Forall_inv A3)]. }
  destruct LB as (Lq & Ll & Lp).
  assert (Bp : Forall (inb (hp h)) rs1 /\ inb (hp h) r). { rewrite Epm in B. apply Forall_app in B as [A1 A2]. split; [exact A1 | exact (Forall_inv A2)]. }
  destruct Bp as [B1 Br].
  assert (D1' : Forall2 (fun r qs => Forall2 (fun p q => poly_derivative (rd_poly h p) v = Ok (SP q)) (view (hp h) r) qs) rs1 qss).
  { clear - D1. revert qss D1. induction rs1 as [|x l IH]; intros qss D; cbn [map] in D; inversion D; subst; constructor; [apply derivatives_poly; assumption | apply IH; assumption]. }
  destruct (prows_loop v h ms Ap Lg rs1 [] (flat_map (view (hm h)) l1 ++ view (hm h) p ++ flat_map (view (hm h)) q2) h [] qss B1 Lq Em (moved_refl v h [] h) D1') as (h2 & new & X & Hp & M & _).
  cbn [app] in X. fold q1 in M.
  destruct (prow_loop v h ms Ap Lg r l1 (p :: l2) [] (flat_map (view (hm h)) q1) (view (hm h) p ++ flat_map (view (hm h)) q2) h2 [] qs) as (h3 & row & X3 & Hp3 & M3 & _);
    [rewrite Hp; exact Er | exact Ll | exact Em | exact M | exact (derivatives_poly h v l1 qs D2)|].
  cbn [app length] in X3. pose proof (moved_app _ _ _ _ _ _ _ M M3) as M4.
  destruct (call_poly v h ms Ap Lg (flat_map (view (hm h)) q1 ++ flat_map (view (hm h)) l1) (flat_map (view (hm h)) q2) h3 p) as (x & h4 & R & Vr & Hp4 & M5 & _);
    [exact Lp | rewrite <- app_assoc; exact Em | exact M4|].
  cbn [scalar_derivative] in Dp. rewrite Dp in Vr. destruct x as [d|]; [|discriminate Vr]. cbn [as_value] in Vr. injection Vr as Vr. destruct d as [k'|u|m|s]; cbn [rd] in Vr; try discriminate Vr.
  assert (EH : hp h4 = hp h) by (rewrite Hp4, Hp3, Hp; reflexivity).
  exists h4. split; [|split].
  - unfold h_polymat_derivative. unfold bindM at 1. unfold reads at 1. fold entries. rewrite Ck. cbn [check]. unfold bindM at 1. unfold check_var. rewrite (proj2 (var_check_valid v) Vv). cbn [check]. unfold reads at 1.
    change (forM _ pm [] h) with (forM (prows_body v) pm [] h). rewrite Epm, forM_app. unfold bindM at 1. rewrite X. cbn [forM]. unfold bindM at 1. unfold prows_body at 1. unfold bindM at 1.
    unfold indices. rewrite <- (view_length _ _ Br), Er, app_length, seq_app, forM_app. unfold bindM at 1. rewrite X3. cbn [length seq forM]. unfold bindM at 1. unfold prow_body at 1. unfold bindM at 1.
    unfold get_poly, reads, index. rewrite Hp3, Hp, Er. cbn [Nat.add]. rewrite nth_error_app2, Nat.sub_diag by lia. cbn [nth_error]. unfold bindM at 1. rewrite R. reflexivity.
  - rewrite EH. reflexivity.
  - intros t Lt Dt. apply (moved_frame h v ms h4 t); [|exact Lt | exact Dt]. eapply moved_in; [|exact (moved_app _ _ _ _ _ _ _ M4 M5)]. intros y Hy. rewrite Em. rewrite !in_app_iff in *. tauto.
Qed.
End MatPanic.
