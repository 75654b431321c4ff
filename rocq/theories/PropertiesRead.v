(** * C38, C35 with memory

    Each theorem is proved in another file; the identifiers are those of properties.jsonl. *)

From Coq Require Import ZArith NArith Bool List.
From Verif Require Import Num Syntax ModelScalar ModelShape ModelHeap ModelHeapArr Witness ReadHeap.
Import ListNotations.

(** ** C38, C35: At, AtVec and Transpose write nothing, whether they return or panic, and the value they return is that of the entries in memory at
    the time of the call.  There is no condition: the expression may be malformed and its slices may overlap. *)
Theorem C38_at_memory : forall {NN : Num} (e : aexpr) (i j : Z) (h : heap), snd (aexpr_at e i j h) = h /\ expr_at (rd_aexpr h e) i j = (s <- fst (aexpr_at e i j h) ;; Ok (rd h s)).
Proof. exact @at_reads. Qed.
Print Assumptions C38_at_memory.
Theorem C38_at_vec_memory : forall {NN : Num} (v : avec) (i : Z) (h : heap), snd (avec_at_vec v i h) = h /\ vec_at_vec (rd_avec h v) i = (s <- fst (avec_at_vec v i h) ;; Ok (rd h s)).
Proof. exact @at_vec_reads_thm. Qed.
Print Assumptions C38_at_vec_memory.
Theorem C35_transpose_memory : forall {NN : Num} (e : aexpr) (h : heap), snd (aexpr_transpose e h) = h /\ expr_transpose (rd_aexpr h e) = (t <- fst (aexpr_transpose e h) ;; Ok (rd_aexpr h t)).
Proof. exact @transpose_reads. Qed.
Print Assumptions C35_transpose_memory.
(** the row of 2x and 3y^2: the entries are returned themselves, not copied *)
Example C38_memory_nonvacuous (NN := QNum) : expr_check (rd_aexpr rh_h (AEM (AMP [[rh_p; rh_q]]))) = true /\ aexpr_at (AEM (AMP [[rh_p; rh_q]])) 0 1 rh_h = (Ok (HP rh_q), rh_h)
  /\ aexpr_transpose (AEM (AMP [[rh_p; rh_q]])) rh_h = (Ok (AEM (AMP [[rh_p]; [rh_q]])), rh_h) /\ fst (avec_at_vec (AVP [rh_p; rh_q]) 2 rh_h) = Panic PIndex.
Proof. exact wit_read. Qed.
