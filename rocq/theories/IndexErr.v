(** * The error of an index outside the dimensions *)

From Coq Require Import ZArith NArith Bool List Lia.
From Verif Require Import Num Syntax ModelScalar ModelShape Spec SpecArr Base Arr ArrFacts ArrTop ArrShape.
Import ListNotations.

Section IndexErr.
Context {NN : Num}.

Lemma index_z_err {A} (l : list A) i p : index_z l i = Panic p -> p = PRuntime.
Proof. unfold index_z, index. destruct (Z.ltb i 0); [intro H; injection H as <-; reflexivity|]. destruct (nth_error l (Z.to_nat i)); intro H; [discriminate H|]. injection H as <-. reflexivity. Qed.
Lemma rows_index_err {A} (l : list (list A)) i j p : rows_index l i j = Panic p -> p = PRuntime.
Proof.
  unfold rows_index. destruct (index_z l i) as [r|q] eqn:E; cbn [bind]; intro H; [exact (index_z_err _ _ _ H)|]. injection H as <-. exact (index_z_err _ _ _ E).
Qed.
Lemma in_range_iff z n : in_range z n = true <-> (0 <= z < Z.of_nat n)%Z.
Proof. unfold in_range. rewrite andb_true_iff, Z.leb_le, Z.ltb_lt. reflexivity. Qed.

Theorem at_out_error (d : nat * nat) (e : expr) (z w : Z) : valid_array d e -> ~ ((0 <= z < Z.of_nat (fst d))%Z /\ (0 <= w < Z.of_nat (snd d))%Z) ->
  expr_at e z w = Panic (match e with EM (MK _) => PGonum | EM (MV _) | EM (MM _) => PRuntime | _ => PIndex end).
Proof.
  intros V H. destruct (array_at_out d e z w V H) as [p E]. destruct (valid_array_check _ _ V) as [C D]. rewrite E. f_equal.
  destruct e as [s|v|[l|l|l|l]]; cbn [expr_check] in C; cbn [expr_at] in E.
  - unfold scalar_at in E. rewrite C in E. cbn [check bind] in E. destruct (Z.eqb z 0 && Z.eqb w 0); [discriminate E|]. injection E as <-. reflexivity.
  - unfold vec_at in E. assert (C' : (match v with VK _ => true | _ => vec_check v end) = true) by (destruct v; [reflexivity | exact C..]). rewrite C' in E. cbn [check bind] in E. cbn [expr_dims] in D. unfold vec_dims in D.
    destruct (vec_len v) as [n|q]; [|discriminate D]. cbn [bind] in *. injection D as <-. cbn [fst snd] in H.
    destruct (in_range z n && in_range w 1) eqn:R; [exfalso|injection E as <-; reflexivity]. apply H. apply andb_true_iff in R as [R1 R2]. split; apply in_range_iff; assumption.
  - cbn [mat_at] in E. pose proof (valid_array_arr d _ V) as G. apply (proj1 (arr_EM _ _ _)) in G. cbn [mat_rows] in G. rewrite grid_map in G. destruct V as (D1 & D2 & _).
    rewrite (k_to_dense_grid d _ l D1 D2 G) in E. cbn [bind] in E. unfold dense_at in E.
    destruct (if Z.ltb z 0 then None else nth_error l (Z.to_nat z)) as [r|]; [|injection E as <-; reflexivity].
    destruct (if Z.ltb w 0 then None else nth_error r (Z.to_nat w)); [discriminate E | injection E as <-; reflexivity].
  - cbn [mat_at] in E. rewrite C in E. cbn [check bind] in E. destruct (rows_index l z w) as [x|q] eqn:R; [discriminate E|]. injection E as <-. exact (rows_index_err _ _ _ _ R).
  - cbn [mat_at] in E. rewrite C in E. cbn [check bind] in E. destruct (rows_index l z w) as [x|q] eqn:R; [discriminate E|]. injection E as <-. exact (rows_index_err _ _ _ _ R).
  - cbn [mat_at] in E. rewrite C in E. cbn [check bind] in E. cbn [expr_dims] in D. rewrite D in E. cbn [bind] in E.
    destruct (in_range z (fst d) && in_range w (snd d)) eqn:R; [exfalso|injection E as <-; reflexivity]. apply H. apply andb_true_iff in R as [R1 R2]. split; apply in_range_iff; assumption.
Qed.
Theorem at_vec_out_error (n : nat) (v : vector) (z : Z) : valid_array (n, 1)%nat (EV v) -> ~ (0 <= z < Z.of_nat n)%Z -> vec_at_vec v z = Panic (match v with VM _ => PRuntime | _ => PIndex end).
Proof.
  intros V H. destruct (vector_at_vec_out n v z V H) as [p E]. destruct (valid_array_check _ _ V) as [C _]. cbn [expr_check] in C. pose proof (valid_array_arr _ _ V) as G. apply arr_EV in G. destruct G as [L _].
  rewrite E. f_equal. destruct v as [l|l|l|l]; cbn [vec_at_vec vec_entries] in *; rewrite map_length in L; subst n.
  - destruct (in_range z (length l)) eqn:R; [exfalso; apply H; apply in_range_iff; exact R | injection E as <-; reflexivity].
  - destruct (in_range z (length l)) eqn:R; [exfalso; apply H; apply in_range_iff; exact R | injection E as <-; reflexivity].
  - rewrite C in E. cbn [check bind] in E. destruct (index_z l z) as [x|q] eqn:R; [discriminate E|]. injection E as <-. exact (index_z_err _ _ _ R).
  - rewrite C in E. cbn [check bind] in E. destruct (in_range z (length l)) eqn:R; [exfalso; apply H; apply in_range_iff; exact R | injection E as <-; reflexivity].
Qed.
End IndexErr.
