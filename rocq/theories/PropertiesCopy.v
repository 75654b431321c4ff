(** * Theorems: copies (C59), DerivativeWrt on any heap (C08) *)

From Coq Require Import ZArith NArith Bool List.
From Verif Require Import Num Syntax ModelScalar Spec Witness ScalarWit ModelHeap SpecHeap SpecCopy HeapWit HeapEffect CopyProofs CopyWit.
Import ListNotations.
Local Open Scope num_scope.

(** ** C59 Monomial.Copy and Polynomial.Copy *)

(** The copy has the value of the original and nothing else changes.  Later writes to any expression that existed before do not reach
    the copy, and later writes to the copy reach no expression that existed before. *)
Theorem C59_monomial : forall {NN : Num} (h : heap) (m : hmono), legal_mono h m ->
  exists c h1, hmono_copy m h = (Ok c, h1) /\ rd_mono h1 c = rd_mono h m /\ (forall s, legal h s -> rd h1 s = rd h s)
    /\ (forall t h2, legal_mono h t -> written_through h1 h2 t -> rd_mono h2 c = rd_mono h m)
    /\ (forall h2 s, written_through h1 h2 c -> legal h s -> rd h2 s = rd h s).
Proof. exact @monomial_copy. Qed.
Print Assumptions C59_monomial.
Example C59_monomial_nonvacuous (NN := QNum) : legal_mono w_hx4 w_x4 /\ rd_mono w_hx4 w_x4 = mkMono (nofZ 5) [4; 1]%Z [wx; wy].
Proof. exact wit_mono_legal. Qed.
Example C59_monomial_written_nonvacuous (NN := QNum) : exists c h1 h2, hmono_copy w_x4 w_hx4 = (Ok c, h1) /\ written_through h1 h2 w_x4 /\ rd_mono h2 w_x4 <> rd_mono h1 w_x4.
Proof. exact wit_written. Qed.

(** the copy can take part in all later calls (the hypotheses of C43_call_partial hold again) *)
Theorem C59_monomial_used : forall {NN : Num} (h : heap) (roots : list hscalar) (m c : hmono) (h1 : heap),
  all_legal h roots -> separate h roots -> legal_mono h m -> hmono_copy m h = (Ok c, h1) -> all_legal h1 (roots ++ [HM c]) /\ separate h1 (roots ++ [HM c]).
Proof. exact @copy_separate. Qed.
Print Assumptions C59_monomial_used.
Example C59_monomial_used_nonvacuous (NN := QNum) (RT := doubling) : all_legal w_heap w_roots /\ separate w_heap w_roots /\ harmless (map (rd w_heap) w_roots) (IMul 3 4).
Proof. exact wit_call. Qed.

(** DerivativeWrt on a copy returns the derivative of the original, whatever the exponents, and changes nothing that existed before *)
Theorem C59_monomial_derivative : forall {NN : Num} {RT : Runtime} (h : heap) (m c : hmono) (h1 : heap) (v : var), legal_mono h m -> hmono_copy m h = (Ok c, h1) ->
  exists r h2, h_derivative (HM c) v h1 = (r, h2) /\ as_value h2 r = scalar_derivative (SM (rd_mono h m)) v /\ (forall t, legal h t -> rd h2 t = rd h t).
Proof. exact @copy_derivative. Qed.
Print Assumptions C59_monomial_derivative.
Example C59_monomial_derivative_nonvacuous (NN := QNum) : legal_mono w_hx4 w_x4 /\ rd_mono w_hx4 w_x4 = mkMono (nofZ 5) [4; 1]%Z [wx; wy].
Proof. exact wit_mono_legal. Qed.

(** missing: writes to the exponents or variables of a term, which the copy shares with the original (C59_polynomial_refuted) *)
Theorem C59_polynomial_partial : forall {NN : Num} (h : heap) (p : slice), legal h (HP p) ->
  exists q h1, hpoly_copy p h = (Ok q, h1) /\ rd_poly h1 q = rd_poly h p /\ (forall s, legal h s -> rd h1 s = rd h s)
    /\ (forall t h2, legal h (HP t) -> terms_replaced h1 h2 t -> rd_poly h2 q = rd_poly h p)
    /\ (forall h2 s, terms_replaced h1 h2 q -> legal h s -> rd h2 s = rd h s).
Proof. exact @polynomial_copy. Qed.
Print Assumptions C59_polynomial_partial.
Example C59_polynomial_nonvacuous (NN := QNum) (RT := doubling) : exists p, In (HP p) w_roots /\ legal w_heap (HP p) /\ length (rd_poly w_heap p) = 4%nat.
Proof. exact wit_poly. Qed.

Theorem C59_polynomial_used : forall {NN : Num} (h : heap) (roots : list hscalar) (p q : slice) (h1 : heap),
  all_legal h roots -> separate h roots -> In (HP p) roots -> hpoly_copy p h = (Ok q, h1) -> all_legal h1 (roots ++ [HP q]) /\ separate h1 (roots ++ [HP q]).
Proof. exact @poly_copy_separate. Qed.
Print Assumptions C59_polynomial_used.
Example C59_polynomial_used_nonvacuous (NN := QNum) (RT := doubling) : exists p, In (HP p) w_roots /\ legal w_heap (HP p) /\ length (rd_poly w_heap p) = 4%nat.
Proof. exact wit_poly. Qed.

(** Polynomial.Copy is documented as a deep copy; differentiating the original changes the copy *)
Theorem C59_polynomial_refuted : forall NN, NN = F64Num \/ NN = QNum -> forall RT : Runtime,
  exists (l : list instr) (h h1 h2 : heap) (roots : list hscalar) (p q : slice) (d : hscalar) (v : var) (r : assignment),
    history empty_heap [] l = (h, roots) /\ In (HP p) roots /\ valid (rd h (HP p)) /\ hpoly_copy p h = (Ok q, h1) /\ h_derivative (HP p) v h1 = (Ok d, h2) /\
    eval r (rd h2 (HP q)) =? eval r (rd h1 (HP q)) = false.
Proof. exact poly_copy_refuted. Qed.
Print Assumptions C59_polynomial_refuted.
(** AsSimplifiedExpression of a monomial is no copy either *)
Theorem C59_simplified_refuted : forall NN, NN = F64Num \/ NN = QNum -> forall RT : Runtime,
  exists (l : list instr) (h h1 h2 : heap) (s t d : hscalar) (v : var) (r : assignment),
    history empty_heap [] l = (h, [s]) /\ valid (rd h s) /\ h_simplified s h = (Ok t, h1) /\ h_derivative s v h1 = (Ok d, h2) /\ eval r (rd h2 t) =? eval r (rd h1 t) = false.
Proof. exact simplified_refuted. Qed.
Print Assumptions C59_simplified_refuted.

(** ** C08 DerivativeWrt on any heap and any receiver, whatever the exponents *)

(** The result has the value of the derivative.  Every expression that shares no exponents with a term that is not linear in the variable keeps its
    value.  The receiver loses a power of the variable in every term that is not linear in it.
    missing: receivers two of whose terms share their exponents (C08_repeated_refuted), and expressions that share exponents with the receiver (C08_other_refuted) *)
Theorem C08_anywhere_partial : forall {NN : Num} {RT : Runtime} (h : heap) (s : hscalar) (v : var), legal h s -> own_exponents h v s ->
  exists r h', h_derivative s v h = (r, h') /\ as_value h' r = scalar_derivative (rd h s) v /\
    (forall t, legal h t -> out_of_reach h v s t -> rd h' t = rd h t) /\
    (forall t, legal h t -> legal h' t) /\
    (forall d, r = Ok d -> legal h' d /\ (forall w, own_exponents h' w d) /\
       (forall t, legal h t -> no_shared_exponents h s t -> no_shared_exponents h' d t)) /\
    (valid (rd h s) -> valid_var v -> rd h' s = match s with HM _ | HP _ => lowered_scalar v (rd h s) | _ => rd h s end).
Proof. exact @derivative_anywhere. Qed.
Print Assumptions C08_anywhere_partial.
Example C08_anywhere_nonvacuous (NN := QNum) (RT := doubling) :
  exists s, nth_error w_roots 4 = Some s /\ legal w_heap s /\ (forall v, own_exponents w_heap v s) /\ ~ at_most_linear_in wx (rd w_heap s).
Proof. exact wit_cube_alone. Qed.

(** Derivatives of derivatives, of any order.
    missing: receivers two of whose terms share their exponents (C08_repeated_refuted) *)
Theorem C08_successive_partial : forall {NN : Num} {RT : Runtime} (vs : list var) (h : heap) (s : hscalar), legal h s -> (forall v, own_exponents h v s) ->
  exists r h', h_derivatives s vs h = (r, h') /\ as_value h' r = derivatives (rd h s) vs /\ (forall t, legal h t -> no_shared_exponents h s t -> rd h' t = rd h t).
Proof. exact @successive. Qed.
Print Assumptions C08_successive_partial.
Example C08_successive_nonvacuous (NN := QNum) (RT := doubling) :
  exists s t, nth_error w_roots 4 = Some s /\ nth_error w_roots 3 = Some t /\ legal w_heap s /\ (forall v, own_exponents w_heap v s) /\ legal w_heap t /\ no_shared_exponents w_heap s t /\
    length (terms (rd w_heap s)) = 4%nat /\ ~ at_most_linear_in wx (rd w_heap s).
Proof. exact wit_cube. Qed.

(** a polynomial that contains one monomial twice has a wrong derivative *)
Theorem C08_repeated_refuted : forall NN, NN = F64Num \/ NN = QNum -> forall RT : Runtime,
  exists (l : list instr) (h h' : heap) (roots : list hscalar) (s d : hscalar) (e : scalar) (v : var) (r : assignment),
    history empty_heap [] l = (h, roots) /\ In s roots /\ valid (rd h s) /\ valid_var v /\ h_derivative s v h = (Ok d, h') /\ scalar_derivative (rd h s) v = Ok e /\
    eval r (rd h' d) =? eval r e = false.
Proof. exact repeated_refuted. Qed.
Print Assumptions C08_repeated_refuted.
