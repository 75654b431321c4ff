(** * Properties C09, C10 and C52: DerivativeWrt of vectors and matrices, whatever the exponents *)

From Coq Require Import ZArith NArith Bool List Reals.
From Verif Require Import Num NumR Syntax ModelScalar ModelShape Spec SpecArr ModelHeap SpecHeap SpecCopy SpecSweep HeapSweepTop HeapMatPanic Witness SweepWit HeapWit.
Import ListNotations.
Local Open Scope num_scope.

(** ** C09 MonomialVector.DerivativeWrt *)

(** Every entry is differentiated twice.  So the entries of the result are the derivatives of the entries in which the exponent of the variable was first
    lowered by one (unless it is one), and the receiver ends up with exponents lowered twice.  Nothing else changes.
    The entries must not share their exponents with each other. *)
Theorem C09_effect : forall {NN : Num} {RT : Runtime} (h : heap) (mv : slice) (v : var),
  legal h (HP mv) -> own_exponents h v (HP mv) -> rd_poly h mv <> [] -> Forall valid_mono (rd_poly h mv) -> valid_var v ->
  exists x h', h_monovec_derivative mv v h = (Ok x, h') /\
    Forall2 (fun m e => exists d, scalar_derivative (SM (lowered v m)) v = Ok d /\ same_terms d e) (rd_poly h mv) (vec_entries (rd_vec h' x)) /\
    rd_poly h' mv = map (fun m => lowered v (lowered v m)) (rd_poly h mv) /\
    (forall t, legal h t -> out_of_reach h v (HP mv) t -> rd h' t = rd h t).
Proof. exact @monovec_effect. Qed.
Print Assumptions C09_effect.
(** Over the reals: the result is the vector of the derivatives exactly when every entry is zero or at most linear in the variable. *)
Theorem C09_exactly_when : forall {RT : Runtime} (h : @heap RNum) (mv : slice) (v : var),
  legal h (HP mv) -> own_exponents h v (HP mv) -> rd_poly h mv <> [] -> Forall valid_mono (rd_poly h mv) -> valid_var v ->
  exists x h', h_monovec_derivative mv v h = (Ok x, h') /\
    Forall2 (fun m e => derivative_of v (SM (lowered v m)) e) (rd_poly h mv) (vec_entries (rd_vec h' x)) /\
    (Forall2 (fun m e => derivative_of v (SM m) e) (rd_poly h mv) (vec_entries (rd_vec h' x)) <->
     Forall (fun m => m_coeff m = n0 \/ at_most_linear_in v (SM m)) (rd_poly h mv)).
Proof. exact @monovec_effect_real. Qed.
Print Assumptions C09_exactly_when.
Example C09_effect_nonvacuous (NN := RNum) : legal u_h (HP u_mv) /\ own_exponents u_h wx (HP u_mv) /\
  rd_poly u_h u_mv = [mkMono n2 [3; 1]%Z [wx; wy]; mkMono n1 [2]%Z [wx]; mkMono n1 [1]%Z [wx]; mkMono n1 [1]%Z [wy]] /\ Forall valid_mono (rd_poly u_h u_mv) /\ valid_var wx.
Proof. exact wit_u_mv_R. Qed.

(** ** C10 PolynomialVector.DerivativeWrt *)

(** Any exponents.  The result, which is the receiver's own slice, holds the derivatives.  The polynomials it held before lose a power in every term that
    is not linear in the variable.
    missing: entries whose derivative is a number (C10_panics_when), terms that share exponents, the receiver keeping its value (C10_overwrite_refuted) *)
Theorem C10_any_exponents_partial : forall {NN : Num} {RT : Runtime} (h : heap) (pv : slice) (v : var), in_memory (hp h) pv ->
  let ps := view (hp h) pv in
  Forall (fun p => legal h (HP p)) ps -> own_exponents_in h v (monomials_in h ps) -> Forall (fun p => valid_poly p /\ mentions v p) (map (rd_poly h) ps) -> valid_var v ->
  exists h', h_polyvec_derivative pv v h = (Ok (HVP pv), h') /\
    Forall2 (fun p d => scalar_derivative (SP p) v = Ok d) (map (rd_poly h) ps) (vec_entries (rd_vec h' (HVP pv))) /\
    (forall p, In p ps -> rd_poly h' p = map (lowered v) (rd_poly h p)) /\
    (forall t, legal h t -> out_of_reach_of h v (monomials_in h ps) t -> rd h' t = rd h t).
Proof. exact @polyvec_any. Qed.
Print Assumptions C10_any_exponents_partial.
Theorem C10_any_exponents_real_partial : forall {RT : Runtime} (h : @heap RNum) (pv : slice) (v : var), in_memory (hp h) pv ->
  let ps := view (hp h) pv in
  Forall (fun p => legal h (HP p)) ps -> own_exponents_in h v (monomials_in h ps) -> Forall (fun p => valid_poly p /\ mentions v p) (map (rd_poly h) ps) -> valid_var v ->
  exists h', h_polyvec_derivative pv v h = (Ok (HVP pv), h') /\ Forall2 (fun p d => derivative_of v (SP p) d) (map (rd_poly h) ps) (vec_entries (rd_vec h' (HVP pv))).
Proof. exact @polyvec_effect_real. Qed.
Print Assumptions C10_any_exponents_real_partial.
Example C10_any_exponents_nonvacuous (NN := RNum) : in_memory (hp u_h) u_pv /\ Forall (fun p => legal u_h (HP p)) (view (hp u_h) u_pv) /\ own_exponents_in u_h wx (monomials_in u_h (view (hp u_h) u_pv)) /\
  Forall (fun p => valid_poly p /\ mentions wx p) (map (rd_poly u_h) (view (hp u_h) u_pv)) /\ valid_var wx.
Proof. exact wit_u_pv_R. Qed.
(** The first entry whose derivative is a number ends the call with a panic.  The entries before it have been replaced by their derivatives, the others are
    still there. *)
Theorem C10_panics_when : forall {NN : Num} {RT : Runtime} (h : heap) (pv : slice) (v : var) (l1 : list slice) (p : slice) (l2 : list slice) (qs : list Polynomial) (k : num),
  in_memory (hp h) pv -> let ps := view (hp h) pv in ps = l1 ++ p :: l2 ->
  Forall (fun p => legal h (HP p)) ps -> own_exponents_in h v (monomials_in h ps) ->
  Forall2 (fun p q => scalar_derivative (SP p) v = Ok (SP q)) (map (rd_poly h) l1) qs -> scalar_derivative (SP (rd_poly h p)) v = Ok (SK k) ->
  exists h', h_polyvec_derivative pv v h = (Panic PRuntime, h') /\ exists new, view (hp h') pv = new ++ p :: l2 /\ map (rd_poly h') new = qs.
Proof. exact @polyvec_panic. Qed.
Print Assumptions C10_panics_when.
Example C10_panics_nonvacuous (NN := QNum) : in_memory (hp u_h) u_bad /\ view (hp u_h) u_bad = [mkSlice 0 0 2 2; mkSlice 0 3 1 1] /\ Forall (fun p => legal u_h (HP p)) (view (hp u_h) u_bad) /\
  own_exponents_in u_h wx (monomials_in u_h (view (hp u_h) u_bad)) /\
  (exists q, scalar_derivative (SP (rd_poly u_h (mkSlice 0 0 2 2))) wx = Ok (SP q)) /\ scalar_derivative (SP (rd_poly u_h (mkSlice 0 3 1 1))) wx = Ok (SK n0).
Proof. exact wit_u_bad. Qed.

(** ** C52 DerivativeWrt of matrices *)

(** missing: entries that share their exponents (C52_shared_refuted) *)
Theorem C52_monomials_any_partial : forall {NN : Num} {RT : Runtime} (h : heap) (mm : list slice) (v : var),
  Forall (fun r => legal h (HP r)) mm -> own_exponents_in h v (monomials_in h mm) ->
  mat_check (MM (map (rd_poly h) mm)) = true -> Forall (Forall valid_mono) (map (rd_poly h) mm) -> valid_var v ->
  exists x h', h_monomat_derivative mm v h = (Ok x, h') /\
    Forall2 (Forall2 (fun m e => exists d, scalar_derivative (SM m) v = Ok d /\ same_terms d e)) (map (rd_poly h) mm) (mat_rows x) /\
    map (rd_poly h') mm = map (map (lowered v)) (map (rd_poly h) mm) /\
    (forall t, legal h t -> out_of_reach_of h v (monomials_in h mm) t -> rd h' t = rd h t).
Proof. exact @monomat_effect. Qed.
Print Assumptions C52_monomials_any_partial.
Theorem C52_monomials_any_real_partial : forall {RT : Runtime} (h : @heap RNum) (mm : list slice) (v : var),
  Forall (fun r => legal h (HP r)) mm -> own_exponents_in h v (monomials_in h mm) ->
  mat_check (MM (map (rd_poly h) mm)) = true -> Forall (Forall valid_mono) (map (rd_poly h) mm) -> valid_var v ->
  exists x h', h_monomat_derivative mm v h = (Ok x, h') /\ Forall2 (Forall2 (fun m e => derivative_of v (SM m) e)) (map (rd_poly h) mm) (mat_rows x).
Proof. exact @monomat_effect_real. Qed.
Print Assumptions C52_monomials_any_real_partial.
Example C52_monomials_any_nonvacuous (NN := RNum) : Forall (fun r => legal u_h (HP r)) u_mm /\ own_exponents_in u_h wx (monomials_in u_h u_mm) /\ mat_check (MM (map (rd_poly u_h) u_mm)) = true /\
  Forall (Forall valid_mono) (map (rd_poly u_h) u_mm) /\ valid_var wx.
Proof. exact wit_u_mm_R. Qed.
(** missing: entries whose derivative is a number (C52_panic_refuted), terms that share exponents *)
Theorem C52_polynomials_any_partial : forall {NN : Num} {RT : Runtime} (h : heap) (pm : list slice) (v : var), Forall (in_memory (hp h)) pm ->
  let ps := flat_map (view (hp h)) pm in let entries := map (fun r => map (rd_poly h) (view (hp h) r)) pm in
  Forall (fun p => legal h (HP p)) ps -> own_exponents_in h v (monomials_in h ps) -> mat_check (MP entries) = true -> valid_var v ->
  Forall (Forall (fun p => valid_poly p /\ mentions v p)) entries ->
  exists ds h', h_polymat_derivative pm v h = (Ok ds, h') /\
    Forall2 (Forall2 (fun p d => scalar_derivative (SP p) v = Ok (SP (rd_poly h' d)))) entries ds /\
    map (fun r => map (rd_poly h') (view (hp h') r)) pm = map (map (map (lowered v))) entries /\
    (forall t, legal h t -> out_of_reach_of h v (monomials_in h ps) t -> rd h' t = rd h t).
Proof. exact @polymat_any. Qed.
Print Assumptions C52_polynomials_any_partial.
Theorem C52_polynomials_any_real_partial : forall {RT : Runtime} (h : @heap RNum) (pm : list slice) (v : var), Forall (in_memory (hp h)) pm ->
  let ps := flat_map (view (hp h)) pm in let entries := map (fun r => map (rd_poly h) (view (hp h) r)) pm in
  Forall (fun p => legal h (HP p)) ps -> own_exponents_in h v (monomials_in h ps) -> mat_check (MP entries) = true -> valid_var v ->
  Forall (Forall (fun p => valid_poly p /\ mentions v p)) entries ->
  exists ds h', h_polymat_derivative pm v h = (Ok ds, h') /\ Forall2 (Forall2 (fun p d => derivative_of v (SP p) (SP (rd_poly h' d)))) entries ds.
Proof. exact @polymat_effect_real. Qed.
Print Assumptions C52_polynomials_any_real_partial.
Example C52_polynomials_any_nonvacuous (NN := RNum) : Forall (in_memory (hp u_h)) u_pm /\ Forall (fun p => legal u_h (HP p)) (flat_map (view (hp u_h)) u_pm) /\
  own_exponents_in u_h wx (monomials_in u_h (flat_map (view (hp u_h)) u_pm)) /\ mat_check (MP (map (fun r => map (rd_poly u_h) (view (hp u_h) r)) u_pm)) = true /\ valid_var wx /\
  Forall (Forall (fun p => valid_poly p /\ mentions wx p)) (map (fun r => map (rd_poly u_h) (view (hp u_h) r)) u_pm).
Proof. exact wit_u_pm_R. Qed.

(** in reading order, the first entry whose derivative is a number makes the call panic; the matrix still holds the same entries, and what shares no
    exponents with them is unchanged *)
Theorem C52_polynomials_panics_when : forall {NN : Num} {RT : Runtime} (h : heap) (pm : list slice) (v : var) (rs1 : list slice) (r : slice) (rs2 : list slice) (l1 : list slice) (p : slice) (l2 : list slice)
  (qss : list (list Polynomial)) (qs : list Polynomial) (k : num),
  Forall (in_memory (hp h)) pm -> pm = rs1 ++ r :: rs2 -> view (hp h) r = l1 ++ p :: l2 ->
  let ps := flat_map (view (hp h)) pm in let entries := map (fun r => map (rd_poly h) (view (hp h) r)) pm in
  Forall (fun p => legal h (HP p)) ps -> own_exponents_in h v (monomials_in h ps) -> mat_check (MP entries) = true -> valid_var v ->
  Forall2 (Forall2 (fun p q => scalar_derivative (SP p) v = Ok (SP q))) (map (fun r => map (rd_poly h) (view (hp h) r)) rs1) qss ->
  Forall2 (fun p q => scalar_derivative (SP p) v = Ok (SP q)) (map (rd_poly h) l1) qs -> scalar_derivative (SP (rd_poly h p)) v = Ok (SK k) ->
  exists h', h_polymat_derivative pm v h = (Panic PRuntime, h') /\ map (view (hp h')) pm = map (view (hp h)) pm /\
    (forall t, legal h t -> out_of_reach_of h v (monomials_in h ps) t -> rd h' t = rd h t).
Proof. exact @polymat_panic. Qed.
Print Assumptions C52_polynomials_panics_when.
(** a matrix with the row of C10_panics_nonvacuous *)
Example C52_polynomials_panics_nonvacuous (NN := QNum) : Forall (in_memory (hp u_h)) [u_bad] /\ mat_check (MP (map (fun r => map (rd_poly u_h) (view (hp u_h) r)) [u_bad])) = true /\ valid_var wx.
Proof. exact wit_u_badmat. Qed.
