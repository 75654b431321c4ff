(** * At, AtVec and Transpose write nothing and read what the memory holds *)

From Coq Require Import ZArith NArith Bool List Lia.
From Verif Require Import Num Syntax ModelScalar ModelShape ModelArith ModelHeap ModelHeapArr Witness RejectWit RejectHeap.
Import ListNotations.

Section ReadHeap.
Context {NN : Num}.

Lemma index_map {A B} (f : A -> B) l i : index (map f l) i = (a <- index l i ;; Ok (f a)).
Proof. unfold index. rewrite nth_error_map. destruct (nth_error l i); reflexivity. Qed.
Lemma index_z_map {A B} (f : A -> B) l i : index_z (map f l) i = (a <- index_z l i ;; Ok (f a)).
Proof. unfold index_z. destruct (Z.ltb i 0); [reflexivity|apply index_map]. Qed.
Lemma rows_index_map {A B} (f : A -> B) l i j : rows_index (map (map f) l) i j = (a <- rows_index l i j ;; Ok (f a)).
Proof. unfold rows_index. rewrite index_z_map. destruct (index_z l i) as [r|p]; cbn [bind]; [apply index_z_map|reflexivity]. Qed.

(** the call returns the value of the pure function and leaves the heap *)
Definition reads_as {A B} (read : heap -> A -> B) (x : M A) (r : res B) (h : heap) : Prop :=
  snd (x h) = h /\ r = (a <- fst (x h) ;; Ok (read h a)).

Lemma reads_as_check {A B} (read : heap -> A -> B) {C} (f : heap -> res C) (c : res C) (k : C -> M A) (r : C -> res B) h :
  f h = c -> (forall a, reads_as read (k a) (r a) h) -> reads_as read (bindM (reads f) k) (a <- c ;; r a) h.
Proof. intros <- H. unfold reads_as, bindM, reads. destruct (f h) as [a|p]; cbn [bind]; [apply H|split; reflexivity]. Qed.
Lemma reads_as_ret {A B} (read : heap -> A -> B) a b h : read h a = b -> reads_as read (ret a) (Ok b) h.
Proof. intros <-. split; reflexivity. Qed.
(** an entry of a slice of entries *)
Lemma reads_as_entry {C A B D} (read : heap -> A -> B) (g : C -> D) (q : res C) (q' : res D) (mk : C -> A) (mk' : D -> B) h :
  q' = (a <- q ;; Ok (g a)) -> (forall a, read h (mk a) = mk' (g a)) -> reads_as read (bindM (pure q) (fun a => ret (mk a))) (b <- q' ;; Ok (mk' b)) h.
Proof. intros -> H. unfold reads_as, bindM, pure, reads. destruct q as [a|p]; cbn [bind]; [|split; reflexivity]. split; [reflexivity|]. cbn. rewrite H. reflexivity. Qed.
Lemma id_entry {C} (q : res C) : q = (a <- q ;; Ok a).
Proof. destruct q; reflexivity. Qed.

Lemma at_vec_reads (v : avec) (i : Z) (h : heap) : reads_as rd (avec_at_vec v i) (vec_at_vec (rd_avec h v) i) h.
Proof.
  destruct v as [l|l|l|l]; cbn [avec_at_vec rd_avec vec_at_vec].
  - apply reads_as_check; [reflexivity|intros _]. apply (reads_as_entry rd (fun a => a)); [apply id_entry|reflexivity].
  - apply reads_as_check; [reflexivity|intros _]. apply (reads_as_entry rd (fun a => a)); [apply id_entry|reflexivity].
  - apply reads_as_check; [reflexivity|intros _]. apply (reads_as_entry rd (rd_mono h)); [apply index_z_map|reflexivity].
  - apply reads_as_check; [reflexivity|intros _]. rewrite map_length. apply reads_as_check; [reflexivity|intros _].
    apply (reads_as_entry rd (rd_poly h)); [apply index_z_map|reflexivity].
Qed.
Lemma entries_rd h v : vec_entries (rd_avec h v) = map (rd h) (av_entries v).
Proof. destruct v; cbn [rd_avec vec_entries av_entries]; rewrite ?map_map; reflexivity. Qed.
Lemma vec_at_reads (v : avec) (i j : Z) (h : heap) : reads_as rd (avec_at v i j) (vec_at (rd_avec h v) i j) h.
Proof.
  unfold avec_at, vec_at. apply reads_as_check; [destruct v; reflexivity|intros _]. apply reads_as_check; [reflexivity|intro n].
  apply reads_as_check; [reflexivity|intros _]. rewrite entries_rd, index_z_map. unfold reads_as, pure, reads. destruct (index_z (av_entries v) i); split; reflexivity.
Qed.
Lemma mat_at_reads (m : amat) (i j : Z) (h : heap) : reads_as rd (amat_at m i j) (mat_at (rd_amat h m) i j) h.
Proof.
  destruct m as [l|l|l|l]; cbn [amat_at rd_amat mat_at].
  - apply reads_as_check; [reflexivity|intro d]. apply (reads_as_entry rd (fun a => a)); [apply id_entry|reflexivity].
  - apply reads_as_check; [reflexivity|intros _]. apply (reads_as_entry rd (fun a => a)); [apply id_entry|reflexivity].
  - apply reads_as_check; [reflexivity|intros _]. apply (reads_as_entry rd (rd_mono h)); [apply rows_index_map|reflexivity].
  - apply reads_as_check; [reflexivity|intros _]. apply reads_as_check; [reflexivity|intro d]. apply reads_as_check; [reflexivity|intros _].
    apply (reads_as_entry rd (rd_poly h)); [apply rows_index_map|reflexivity].
Qed.
Theorem at_reads (e : aexpr) (i j : Z) (h : heap) : snd (aexpr_at e i j h) = h /\ expr_at (rd_aexpr h e) i j = (s <- fst (aexpr_at e i j h) ;; Ok (rd h s)).
Proof.
  destruct e as [s|v|m]; cbn [aexpr_at rd_aexpr expr_at].
  - unfold h_scalar_at, scalar_at. apply (reads_as_check rd); [reflexivity|intros _]. apply reads_as_check; [reflexivity|intros _]. apply reads_as_ret. reflexivity.
  - apply vec_at_reads.
  - apply mat_at_reads.
Qed.
Theorem at_vec_reads_thm (v : avec) (i : Z) (h : heap) : snd (avec_at_vec v i h) = h /\ vec_at_vec (rd_avec h v) i = (s <- fst (avec_at_vec v i h) ;; Ok (rd h s)).
Proof. apply at_vec_reads. Qed.

Lemma mapM_after {A B C} (f : A -> res B) (f' : A -> res C) (g : B -> C) l : (forall a, f' a = (b <- f a ;; Ok (g b))) -> mapM f' l = (bs <- mapM f l ;; Ok (map g bs)).
Proof.
  intro H. induction l as [|a l IH]; [reflexivity|]. cbn [mapM]. rewrite H, IH. destruct (f a) as [b|p]; [|reflexivity]. cbn [bind]. destruct (mapM f l); reflexivity.
Qed.
Lemma mapM_before {A B C} (f : B -> res C) (g : A -> B) l : mapM f (map g l) = mapM (fun a => f (g a)) l.
Proof. induction l as [|a l IH]; [reflexivity|]. cbn [map mapM]. rewrite IH. reflexivity. Qed.
Lemma transpose_rows_map {A B} (f : A -> B) l n : transpose_rows (map (map f) l) n = (t <- transpose_rows l n ;; Ok (map (map f) t)).
Proof.
  unfold transpose_rows. apply mapM_after. intro j. rewrite mapM_before. apply mapM_after. intro r. apply index_map.
Qed.
Theorem transpose_reads (e : aexpr) (h : heap) : snd (aexpr_transpose e h) = h /\ expr_transpose (rd_aexpr h e) = (t <- fst (aexpr_transpose e h) ;; Ok (rd_aexpr h t)).
Proof.
  destruct e as [[k|v|m|p]|[l|l|l|l]|[l|l|l|l]]; cbn [aexpr_transpose rd_aexpr rd rd_avec rd_amat expr_transpose h_transpose scalar_transpose avec_transpose vec_transpose amat_transpose mat_transpose];
    unfold bindM, check_mono, check_poly, check_avec, check_amat, amat_dims, pure, reads, ret; cbn [rd_avec rd_amat];
    repeat first [split; reflexivity | rewrite transpose_rows_map
      | match goal with |- context [match ?x with Ok _ => _ | Panic _ => _ end] => destruct x eqn:?; cbn [bind] end].
Qed.

End ReadHeap.

(** the polynomials 2x and 3y^2 in memory *)
Definition rh_h {NN : Num} : heap :=
  mkHeap [[1%Z]; [2%Z]] [[wx]; [wy]] [[mkHM (nadd n1 n1) (mkSlice 0 0 1 1) (mkSlice 0 0 1 1)]; [mkHM (nadd n1 (nadd n1 n1)) (mkSlice 1 0 1 1) (mkSlice 1 0 1 1)]] [].
Definition rh_p : slice := mkSlice 0 0 1 1.
Definition rh_q : slice := mkSlice 1 0 1 1.
Lemma wit_read (NN := QNum) : expr_check (rd_aexpr rh_h (AEM (AMP [[rh_p; rh_q]]))) = true /\ aexpr_at (AEM (AMP [[rh_p; rh_q]])) 0 1 rh_h = (Ok (HP rh_q), rh_h)
  /\ aexpr_transpose (AEM (AMP [[rh_p; rh_q]])) rh_h = (Ok (AEM (AMP [[rh_p]; [rh_q]])), rh_h) /\ fst (avec_at_vec (AVP [rh_p; rh_q]) 2 rh_h) = Panic PIndex.
Proof. vm_compute. repeat split. Qed.
