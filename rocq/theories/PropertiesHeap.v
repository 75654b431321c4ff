(** * Properties of expressions in memory

    [Runtime] is the unspecified growth policy of append: the theorems hold for every policy. *)

From Coq Require Import ZArith NArith Bool List.
From Verif Require Import Num Syntax ModelScalar ModelShape Spec SpecArr NumR Witness ScalarWit ModelHeap SpecHeap HeapProofs HeapVec HeapTop HeapWit.
Import ListNotations.
Local Open Scope num_scope.

(** ** C43 arithmetic does not modify its operands *)

(** histories of calls on expressions built by the library, from nothing: literals own their slices, everything else comes from calls *)
Theorem C43_history_unchanged : forall {NN : Num} {RT : Runtime} (l1 l2 : list instr) (h1 h2 : heap) (roots1 roots2 : list hscalar),
  Forall not_derivative (l1 ++ l2) -> history empty_heap [] l1 = (h1, roots1) -> history empty_heap [] (l1 ++ l2) = (h2, roots2) ->
  forall s, In s roots1 -> rd h2 s = rd h1 s.
Proof. exact @arithmetic_keeps. Qed.
Print Assumptions C43_history_unchanged.
Example C43_history_nonvacuous (NN := QNum) : Forall not_derivative [IVar wx; IVar wy; IMul 0 1; IPlus 2 0; IPow 3 3; IMul 3 2; ISubst 3 wx 2; IMinus 4 6; ISimplify 4].
Proof. exact wit_no_derivative. Qed.
(** every expression the history made has the value that the same calls make without memory *)
Theorem C43_history_values : forall {NN : Num} {RT : Runtime} (l : list instr) (h : heap) (roots : list hscalar),
  harmless_history [] l -> history empty_heap [] l = (h, roots) -> map (rd h) roots = history_values [] l.
Proof. exact @history_correct. Qed.
Print Assumptions C43_history_values.
Example C43_history_values_nonvacuous (NN := QNum) : harmless_history [] w_calls.
Proof. exact wit_calls. Qed.
Example C43_history_values_length (NN := QNum) : length (history_values [] w_calls) = 11%nat.
Proof. exact wit_calls_number. Qed.

(** one call on any heap.  missing: heaps in which unused capacity of one expression overlaps the variables of another (C43_overlap_refuted) *)
Theorem C43_call_partial : forall {NN : Num} {RT : Runtime} (h h' : heap) (roots : list hscalar) (i : instr) (r : res hscalar),
  all_legal h roots -> separate h roots -> harmless (map (rd h) roots) i -> exec roots i h = (r, h') ->
  (forall s, In s roots -> rd h' s = rd h s)
  /\ as_value h' r = exec_value (map (rd h) roots) i
  /\ (let roots' := match r with Ok t => roots ++ [t] | Panic _ => roots end in all_legal h' roots' /\ separate h' roots').
Proof. exact @call_ok. Qed.
Print Assumptions C43_call_partial.
Example C43_call_nonvacuous (NN := QNum) (RT := doubling) : all_legal w_heap w_roots /\ separate w_heap w_roots /\ harmless (map (rd w_heap) w_roots) (IMul 3 4).
Proof. exact wit_call. Qed.
(** unused capacity does arise from the library's own calls *)
Example C43_spare_capacity (NN := QNum) (RT := doubling) : let (h, roots) := history empty_heap [] w_calls in
  exists s m, In s roots /\ In m (monomials h s) /\ (s_len (h_vars m) < s_cap (h_vars m))%nat.
Proof. exact wit_calls_spare. Qed.

Theorem C43_overlap_refuted : forall NN, NN = F64Num \/ NN = QNum -> forall RT : Runtime, exists (h : heap) (roots : list hscalar) (i j : nat) (s : hscalar) (r : assignment),
  all_legal h roots /\ In s roots /\ (forall t, In t roots -> valid (rd h t)) /\
  (exists p, fst (exec roots (IMul i j) h) = Ok p) /\ eval r (rd (snd (exec roots (IMul i j) h)) s) =? eval r (rd h s) = false.
Proof. exact overlap_refuted. Qed.
Print Assumptions C43_overlap_refuted.

(** ** C08 DerivativeWrt leaves its receiver unchanged *)

(** missing: receivers in which the variable has an exponent other than 1 (C08_receiver_refuted) *)
Theorem C08_history_partial : forall {NN : Num} {RT : Runtime} (l1 l2 : list instr) (h1 h2 : heap) (roots1 roots2 : list hscalar),
  harmless_history [] (l1 ++ l2) -> history empty_heap [] l1 = (h1, roots1) -> history empty_heap [] (l1 ++ l2) = (h2, roots2) ->
  forall s, In s roots1 -> rd h2 s = rd h1 s.
Proof. exact @history_kept. Qed.
Print Assumptions C08_history_partial.
Example C08_history_nonvacuous (NN := QNum) : harmless_history [] w_calls /\ In (IDeriv 3 wx) w_calls.
Proof. exact wit_calls_derivative. Qed.

Theorem C08_twice_partial : forall {NN : Num} {RT : Runtime} (h h1 h2 : heap) (roots : list hscalar) (i : nat) (v : var) (s : hscalar) (r1 r2 : res hscalar),
  all_legal h roots -> separate h roots -> nth_error roots i = Some s -> at_most_linear_in v (rd h s) ->
  h_derivative s v h = (r1, h1) -> h_derivative s v h1 = (r2, h2) ->
  as_value h2 r2 = as_value h1 r1 /\ as_value h2 r2 = scalar_derivative (rd h s) v /\ (forall t, In t roots -> rd h2 t = rd h t).
Proof. exact @derivative_again. Qed.
Print Assumptions C08_twice_partial.
Example C08_twice_nonvacuous (NN := QNum) (RT := doubling) : all_legal w_heap w_roots /\ separate w_heap w_roots
  /\ exists s, nth_error w_roots 3 = Some s /\ at_most_linear_in wx (rd w_heap s) /\ rd w_heap s = SP [mkMono n1 [1; 1]%Z [wx; wy]; mkMono n1 [1]%Z [wx]].
Proof. exact wit_twice. Qed.

(** what happens instead: the receiver loses a power, and exactly one cell of memory changes *)
Theorem C08_effect : forall {NN : Num} {RT : Runtime} (h : heap) (m : hmono) (v : var) (k : nat) (e : Z),
  legal_mono h m -> mono_check (rd_mono h m) = true -> var_check v = true ->
  find_var v (m_vars (rd_mono h m)) = Some k -> nth_error (m_exps (rd_mono h m)) k = Some e -> e <> 1%Z ->
  exists d h', h_mono_derivative m v h = (Ok (HM d), h') /\
    SM (rd_mono h' d) = SM (mkMono (m_coeff (rd_mono h m) * nofZ e) (set_nth k (e - 1)%Z (m_exps (rd_mono h m))) (m_vars (rd_mono h m))) /\
    h_exps d = h_exps m /\ h_vars d = h_vars m /\
    rd_mono h' m = mkMono (m_coeff (rd_mono h m)) (set_nth k (e - 1)%Z (m_exps (rd_mono h m))) (m_vars (rd_mono h m)) /\
    hv h' = hv h /\ hm h' = hm h /\ hp h' = hp h /\
    (forall a j, nth_error (cells (hi h') a) j = if Nat.eqb a (s_arr (h_exps m)) && Nat.eqb j (s_off (h_exps m) + k) then Some (e - 1)%Z else nth_error (cells (hi h) a) j) /\
    legal_mono h' m.
Proof. exact @derivative_effect. Qed.
Print Assumptions C08_effect.
(** c calls in a row: the i-th result has the coefficient c0 (e - i), and all of them share the exponents of the receiver, which end at e - c *)
Theorem C08_repeated : forall {NN : Num} {RT : Runtime} (c : nat) (h : heap) (m : hmono) (v : var) (k : nat) (e : Z),
  legal_mono h m -> mono_check (rd_mono h m) = true -> var_check v = true ->
  find_var v (m_vars (rd_mono h m)) = Some k -> nth_error (m_exps (rd_mono h m)) k = Some e -> (1 < e - Z.of_nat c + 1)%Z ->
  exists ds h', differentiate c m v h = (Ok ds, h') /\
    map (rd h') ds =
      map (fun i => SM (mkMono (h_coeff m * nofZ (e - Z.of_nat i)) (set_nth k (e - Z.of_nat c)%Z (m_exps (rd_mono h m))) (m_vars (rd_mono h m)))) (seq 0 c) /\
    rd_mono h' m = mkMono (h_coeff m) (set_nth k (e - Z.of_nat c)%Z (m_exps (rd_mono h m))) (m_vars (rd_mono h m)).
Proof. exact @repeated_calls. Qed.
Print Assumptions C08_repeated.
Example C08_effect_nonvacuous (NN := QNum) (RT := doubling) : history empty_heap [] w_power = (w_hx4, [HM w_x4]) /\ legal_mono w_hx4 w_x4 /\ mono_check (rd_mono w_hx4 w_x4) = true /\ var_check wx = true /\
  find_var wx (m_vars (rd_mono w_hx4 w_x4)) = Some 0%nat /\ nth_error (m_exps (rd_mono w_hx4 w_x4)) 0 = Some 4%Z /\ (1 < 4 - Z.of_nat 3 + 1)%Z.
Proof. exact wit_effect. Qed.

Theorem C08_receiver_refuted : forall NN, NN = F64Num \/ NN = QNum -> forall RT : Runtime,
  exists (l : list instr) (i : nat) (v : var) (h1 h2 : heap) (roots1 roots2 : list hscalar) (s : hscalar) (r : assignment),
    history empty_heap [] l = (h1, roots1) /\ history empty_heap [] (l ++ [IDeriv i v]) = (h2, roots2) /\ In s roots1 /\ valid (rd h1 s) /\ valid_var v /\
    eval r (rd h2 s) =? eval r (rd h1 s) = false.
Proof. exact derivative_refuted. Qed.
Print Assumptions C08_receiver_refuted.
Theorem C08_twice_refuted : forall NN, NN = F64Num \/ NN = QNum -> forall RT : Runtime,
  exists (l : list instr) (h h1 h2 : heap) (s d1 d2 : hscalar) (v : var) (r : assignment),
    history empty_heap [] l = (h, [s]) /\ valid (rd h s) /\ valid_var v /\ h_derivative s v h = (Ok d1, h1) /\ h_derivative s v h1 = (Ok d2, h2) /\
    eval r (rd h2 d2) =? eval r (rd h1 d1) = false.
Proof. exact derivative_twice_refuted. Qed.
Print Assumptions C08_twice_refuted.
Theorem C08_other_refuted : forall NN, NN = F64Num \/ NN = QNum -> forall RT : Runtime,
  exists (h1 h2 : heap) (m p d : hscalar) (v : var) (r : assignment),
    history empty_heap [] [IMono n1 [2]%Z [v]; IPoly [0%nat]] = (h1, [m; p]) /\ valid (rd h1 m) /\ valid (rd h1 p) /\ valid_var v /\ h_derivative p v h1 = (Ok d, h2) /\
    eval r (rd h2 m) =? eval r (rd h1 m) = false.
Proof. exact derivative_other_refuted. Qed.
Print Assumptions C08_other_refuted.

(** ** C09 MonomialVector.DerivativeWrt.  A MonomialVector is a slice of monomials. *)

(** missing: entries in which the variable has an exponent other than 1 (C09_refuted) *)
Theorem C09_entries_partial : forall {RT : Runtime} (h : @heap RNum) (roots : list hscalar) (mv : slice) (v : var),
  all_legal h (HP mv :: roots) -> separate h (HP mv :: roots) ->
  rd_poly h mv <> [] -> Forall valid_mono (rd_poly h mv) -> valid_var v -> Forall (fun m => at_most_linear_in v (SM m)) (rd_poly h mv) ->
  exists x h', h_monovec_derivative mv v h = (Ok x, h') /\
    Forall2 (fun m e => derivative_of v (SM m) e) (rd_poly h mv) (vec_entries (rd_vec h' x)) /\
    rd_poly h' mv = rd_poly h mv /\ (forall s, In s roots -> rd h' s = rd h s).
Proof. exact @monovec_real. Qed.
Print Assumptions C09_entries_partial.
(** the same for any numbers: the entries have the terms of the derivatives of the entries *)
Theorem C09_terms_partial : forall {NN : Num} {RT : Runtime} (h : heap) (roots : list hscalar) (mv : slice) (v : var),
  all_legal h (HP mv :: roots) -> separate h (HP mv :: roots) ->
  rd_poly h mv <> [] -> Forall valid_mono (rd_poly h mv) -> valid_var v -> Forall (fun m => at_most_linear_in v (SM m)) (rd_poly h mv) ->
  exists x h', h_monovec_derivative mv v h = (Ok x, h') /\
    Forall2 (fun m e => exists d, scalar_derivative (SM m) v = Ok d /\ same_terms d e) (rd_poly h mv) (vec_entries (rd_vec h' x)) /\
    rd_poly h' mv = rd_poly h mv /\ (forall s, In s roots -> rd h' s = rd h s).
Proof. exact @monovec_derivative. Qed.
Print Assumptions C09_terms_partial.
Example C09_nonvacuous_heap (NN := RNum) : all_legal w_h (HP w_mv :: w_others) /\ separate w_h (HP w_mv :: w_others).
Proof. exact (proj1 wit_vec_heap). Qed.
Example C09_nonvacuous (NN := RNum) : rd_poly w_h w_mv <> [] /\ Forall valid_mono (rd_poly w_h w_mv) /\ valid_var wx /\ Forall (fun m => at_most_linear_in wx (SM m)) (rd_poly w_h w_mv).
Proof. exact wit_monovec_R. Qed.

Theorem C09_refuted : forall NN, NN = F64Num \/ NN = QNum -> forall RT : Runtime,
  exists (h h' : heap) (mv : slice) (v : var) (m : Monomial) (x : hvector) (e d : scalar) (r : assignment),
    all_legal h [HP mv] /\ separate h [HP mv] /\ rd_poly h mv = [m] /\ valid_mono m /\ valid_var v /\
    h_monovec_derivative mv v h = (Ok x, h') /\ vec_entries (rd_vec h' x) = [e] /\ scalar_derivative (SM m) v = Ok d /\ eval r e =? eval r d = false.
Proof. exact monovec_refuted. Qed.
Print Assumptions C09_refuted.

(** ** C10 PolynomialVector.DerivativeWrt.  A PolynomialVector is a slice of polynomials. *)

(** missing: entries without the variable (C10_panic_refuted), exponents other than 1; the receiver is overwritten (C10_overwrite_refuted) *)
Theorem C10_entries_partial : forall {RT : Runtime} (h : @heap RNum) (roots : list hscalar) (pv : slice) (v : var),
  all_legal h (map HP (view (hp h) pv) ++ roots) -> separate h (map HP (view (hp h) pv) ++ roots) -> in_memory (hp h) pv -> valid_var v ->
  Forall (fun p => valid_poly p /\ at_most_linear_in v (SP p) /\ mentions v p) (map (rd_poly h) (view (hp h) pv)) ->
  exists h', h_polyvec_derivative pv v h = (Ok (HVP pv), h') /\
    Forall2 (fun p d => derivative_of v (SP p) d) (map (rd_poly h) (view (hp h) pv)) (vec_entries (rd_vec h' (HVP pv))) /\
    (forall p, In p (view (hp h) pv) -> rd_poly h' p = rd_poly h p) /\ (forall s, In s roots -> rd h' s = rd h s).
Proof. exact @polyvec_real. Qed.
Print Assumptions C10_entries_partial.
Theorem C10_total_partial : forall {NN : Num} {RT : Runtime} (h : heap) (roots : list hscalar) (pv : slice) (v : var),
  all_legal h (map HP (view (hp h) pv) ++ roots) -> separate h (map HP (view (hp h) pv) ++ roots) -> in_memory (hp h) pv -> valid_var v ->
  Forall (fun p => valid_poly p /\ at_most_linear_in v (SP p) /\ mentions v p) (map (rd_poly h) (view (hp h) pv)) ->
  exists ds h', h_polyvec_derivative pv v h = (Ok (HVP pv), h') /\ vec_entries (rd_vec h' (HVP pv)) = ds /\
    Forall2 (fun p d => scalar_derivative (SP p) v = Ok d) (map (rd_poly h) (view (hp h) pv)) ds /\
    (forall p, In p (view (hp h) pv) -> rd_poly h' p = rd_poly h p) /\ (forall s, In s roots -> rd h' s = rd h s).
Proof. exact @polyvec_total. Qed.
Print Assumptions C10_total_partial.
Example C10_nonvacuous_heap (NN := RNum) : all_legal w_h (map HP (view (hp w_h) w_pv) ++ w_others) /\ separate w_h (map HP (view (hp w_h) w_pv) ++ w_others).
Proof. exact (proj1 (proj2 (proj2 wit_vec_heap))). Qed.
Example C10_nonvacuous (NN := RNum) : in_memory (hp w_h) w_pv /\ valid_var wx /\ Forall (fun p => valid_poly p /\ at_most_linear_in wx (SP p) /\ mentions wx p) (map (rd_poly w_h) (view (hp w_h) w_pv)).
Proof. exact wit_polyvec_R. Qed.

Theorem C10_panic_refuted : forall NN, NN = F64Num \/ NN = QNum -> forall RT : Runtime,
  exists (h : heap) (pv p : slice) (v : var), all_legal h [HP p] /\ separate h [HP p] /\ in_memory (hp h) pv /\ view (hp h) pv = [p] /\ valid_poly (rd_poly h p) /\ valid_var v /\
    fst (h_polyvec_derivative pv v h) = Panic PRuntime.
Proof. exact polyvec_panic_refuted. Qed.
Print Assumptions C10_panic_refuted.
Theorem C10_overwrite_refuted : forall NN, NN = F64Num \/ NN = QNum -> forall RT : Runtime,
  exists (h h' : heap) (pv p : slice) (v : var) (x : hvector) (e e' : scalar) (r : assignment),
    all_legal h [HP p] /\ separate h [HP p] /\ in_memory (hp h) pv /\ view (hp h) pv = [p] /\ valid_poly (rd_poly h p) /\ valid_var v /\
    h_polyvec_derivative pv v h = (Ok x, h') /\ vec_entries (rd_vec h (HVP pv)) = [e] /\ vec_entries (rd_vec h' (HVP pv)) = [e'] /\ eval r e' =? eval r e = false.
Proof. exact polyvec_overwrite_refuted. Qed.
Print Assumptions C10_overwrite_refuted.

(** ** C52 DerivativeWrt of matrices *)

(** missing: exponents other than 1 (C52_shared_refuted) *)
Theorem C52_monomials_partial : forall {RT : Runtime} (h : @heap RNum) (roots : list hscalar) (mm : list slice) (v : var),
  all_legal h (map HP mm ++ roots) -> separate h (map HP mm ++ roots) ->
  mat_check (MM (map (rd_poly h) mm)) = true -> Forall (Forall valid_mono) (map (rd_poly h) mm) -> valid_var v ->
  Forall (Forall (fun m => at_most_linear_in v (SM m))) (map (rd_poly h) mm) ->
  exists x h', h_monomat_derivative mm v h = (Ok x, h') /\
    Forall2 (Forall2 (fun m e => derivative_of v (SM m) e)) (map (rd_poly h) mm) (mat_rows x) /\
    (forall r, In r mm -> rd_poly h' r = rd_poly h r) /\ (forall s, In s roots -> rd h' s = rd h s).
Proof. exact @monomat_real. Qed.
Print Assumptions C52_monomials_partial.
Example C52_monomials_nonvacuous_heap (NN := RNum) : all_legal w_h (map HP w_mm ++ w_others) /\ separate w_h (map HP w_mm ++ w_others).
Proof. exact (proj1 (proj2 wit_vec_heap)). Qed.
Example C52_monomials_nonvacuous (NN := RNum) : mat_check (MM (map (rd_poly w_h) w_mm)) = true /\ Forall (Forall valid_mono) (map (rd_poly w_h) w_mm) /\ valid_var wx /\
  Forall (Forall (fun m => at_most_linear_in wx (SM m))) (map (rd_poly w_h) w_mm).
Proof. exact wit_monomat_R. Qed.
(** missing: entries without the variable (C52_panic_refuted), exponents other than 1 *)
Theorem C52_polynomials_partial : forall {RT : Runtime} (h : @heap RNum) (roots : list hscalar) (pm : list slice) (v : var),
  all_legal h (map HP (concat (map (view (hp h)) pm)) ++ roots) -> separate h (map HP (concat (map (view (hp h)) pm)) ++ roots) ->
  Forall (in_memory (hp h)) pm -> valid_var v ->
  let entries := map (fun r => map (rd_poly h) (view (hp h) r)) pm in
  mat_check (MP entries) = true -> Forall (Forall (fun p => valid_poly p /\ at_most_linear_in v (SP p) /\ mentions v p)) entries ->
  exists ds h', h_polymat_derivative pm v h = (Ok ds, h') /\
    Forall2 (Forall2 (fun p d => derivative_of v (SP p) (SP (rd_poly h' d)))) entries ds /\
    map (fun r => map (rd_poly h') (view (hp h') r)) pm = entries /\ (forall s, In s roots -> rd h' s = rd h s).
Proof. exact @polymat_real. Qed.
Print Assumptions C52_polynomials_partial.
Example C52_polynomials_nonvacuous_heap (NN := RNum) :
  all_legal w_h (map HP (concat (map (view (hp w_h)) w_pm)) ++ w_others) /\ separate w_h (map HP (concat (map (view (hp w_h)) w_pm)) ++ w_others).
Proof. exact (proj2 (proj2 (proj2 wit_vec_heap))). Qed.
Example C52_polynomials_nonvacuous (NN := RNum) : Forall (in_memory (hp w_h)) w_pm /\ valid_var wx /\ mat_check (MP (map (fun r => map (rd_poly w_h) (view (hp w_h) r)) w_pm)) = true /\
  Forall (Forall (fun p => valid_poly p /\ at_most_linear_in wx (SP p) /\ mentions wx p)) (map (fun r => map (rd_poly w_h) (view (hp w_h) r)) w_pm).
Proof. exact wit_polymat_R. Qed.
Theorem C52_shared_refuted : forall NN, NN = F64Num \/ NN = QNum -> forall RT : Runtime,
  exists (h h' : heap) (row : slice) (m : Monomial) (v : var) (x : matrix) (e1 e2 d : scalar) (r : assignment),
    all_legal h [HP row] /\ separate h [HP row] /\ rd_poly h row = [m; m] /\ valid_mono m /\ valid_var v /\
    h_monomat_derivative [row] v h = (Ok x, h') /\ mat_rows x = [[e1; e2]] /\ scalar_derivative (SM m) v = Ok d /\ eval r e2 =? eval r d = false.
Proof. exact monomat_refuted. Qed.
Print Assumptions C52_shared_refuted.
Theorem C52_panic_refuted : forall NN, NN = F64Num \/ NN = QNum -> forall RT : Runtime,
  exists (h : heap) (row p : slice) (v : var), all_legal h [HP p] /\ separate h [HP p] /\ in_memory (hp h) row /\ view (hp h) row = [p] /\ valid_poly (rd_poly h p) /\ valid_var v /\
    fst (h_polymat_derivative [row] v h) = Panic PRuntime.
Proof. exact polymat_refuted. Qed.
Print Assumptions C52_panic_refuted.
