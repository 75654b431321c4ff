(** * Further properties *)

From Coq Require Import ZArith NArith Bool List.
From Verif Require Import Num Syntax ModelScalar Spec SpecProg SpecMore Programs Witness ScalarWit LinPart MoreWit.
Import ListNotations.
Local Open Scope num_scope.

(** ** C53 linear part of nonlinear expressions *)

(** missing: sums with uncollected like terms (C18_linear_refuted), and constant monomials, for which LinearCoeff panics *)
Theorem C53_linear_part_partial : forall {NN : Num} {EX : ExactNum NN} (s : scalar) (w : list var), valid s -> collected s ->
  match s with SM m => m_vars m <> [] | _ => True end ->
  w <> [] -> Forall valid_var w -> NoDup (map v_id w) -> (forall i, occurs_linearly i s -> In i (map v_id w)) ->
  exists cs c, scalar_linear_coeff s [w] = Ok cs /\ scalar_constant s = Ok c /\ length cs = length w
    /\ forall r, eval r s = dot r cs w + c + eval_poly r (higher_terms s).
Proof. exact @linear_part. Qed.
Print Assumptions C53_linear_part_partial.
Example C53_linear_part_nonvacuous (NN := QNum) : valid w_quad2 /\ collected w_quad2 /\ w_quad2 <> SK n0 /\ [wx; wz] <> [] /\ Forall valid_var [wx; wz] /\ NoDup (map v_id [wx; wz])
  /\ (forall i, occurs_linearly i w_quad2 -> In i (map v_id [wx; wz])) /\ length (higher_terms w_quad2) = 1%nat /\ length (terms w_quad2) = 2%nat.
Proof. exact wit_linear_part. Qed.
Example C53_linear_part_nonvacuous_mono (NN := QNum) : let s := SM (mkMono (nofZ 3) [2%Z; 1%Z] [wx; wy]) in valid s /\ collected s /\ m_vars (mkMono (nofZ 3) [2%Z; 1%Z] [wx; wy]) <> [] /\ ~ degree_at_most 1 s
  /\ scalar_linear_coeff s [[wy; wx]] = Ok [n0; n0].
Proof. exact wit_linear_part_mono. Qed.

(** every expression the API builds without DerivativeWrt *)
Theorem C53_linear_part_programs : forall {NN : Num} (p : prog) (w : list var), ExactNum NN -> well_formed p -> no_derivative p ->
  exists s, run p = Ok s /\
   (w <> [] -> Forall valid_var w -> NoDup (map v_id w) -> (forall i, occurs_linearly i s -> In i (map v_id w)) ->
    exists cs c, scalar_linear_coeff s [w] = Ok cs /\ scalar_constant s = Ok c /\ length cs = length w
      /\ forall r, eval r s = dot r cs w + c + eval_poly r (higher_terms s)).
Proof. exact @run_linear_part. Qed.
Print Assumptions C53_linear_part_programs.
