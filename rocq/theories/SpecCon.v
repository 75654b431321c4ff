(** * Specification: what constraints between scalars, vectors and matrices mean

    Nothing in this file refers to the model's functions, only to its data types. *)

From Coq Require Import ZArith NArith Bool List.
From Verif Require Import Num Syntax Spec SpecArr.
Import ListNotations.
Local Open Scope num_scope.

Section SpecCon.
Context {NN : Num}.

Definition con_left (c : constraint) : expr :=
  match c with CS c => ES (sc_left c) | CV c => EV (vc_left c) | CM c => EM (mc_left c) end.
Definition con_right (c : constraint) : expr :=
  match c with CS c => ES (sc_right c) | CV c => EV (vc_right c) | CM c => EM (mc_right c) end.
Definition con_sense (c : constraint) : sense :=
  match c with CS c => sc_sense c | CV c => vc_sense c | CM c => mc_sense c end.

(** both sides are valid and have the dimensions [d], and the sense is one of <=, >=, = *)
Definition valid_con (d : nat * nat) (c : constraint) : Prop :=
  valid_array d (con_left c) /\ valid_array d (con_right c) /\ con_sense c <> SenseOther.

(** the relation holds between the values of all entries *)
Definition con_sat (r : assignment) (d : nat * nat) (c : constraint) : Prop :=
  forall i j, i < fst d -> j < snd d -> holds (value r (con_left c) i j) (con_sense c) (value r (con_right c) i j).

(** one scalar constraint for each entry, row by row *)
Definition entry_constraints (d : nat * nat) (c : constraint) : list scalar_constraint :=
  flat_map (fun i => map (fun j => mkSC (entry (con_left c) i j) (entry (con_right c) i j) (con_sense c)) (seq 0 (snd d))) (seq 0 (fst d)).

(** number of entries of a list of arrays *)
Definition entries_count (ds : list (nat * nat)) : nat := list_sum (map (fun d => fst d * snd d)%nat ds).

(** The type pairs for which Comparison, LessEq, GreaterEq and Eq are implemented: receiver, argument *)
Definition comparison_accepts (a : expr) (g : goval) : bool :=
  match a, g with
  | ES (SK _), (GFloat _ | GVec _ | GVecP _ | GExpr (ES _) | GExpr (EV (VK _)) | GExpr (EV (VV _))) => true
  | ES (SV _ | SM _ | SP _), (GFloat _ | GInt _ | GExpr (ES _)) => true
  | EV (VK _), (GFloat _ | GInt _ | GVec _ | GVecP _ | GExpr (ES (SK _)) | GExpr (EV _)) => true
  | EV (VV _), (GVec _ | GVecP _ | GExpr (EV _)) => true
  | EV (VM _), (GFloat _ | GExpr (ES (SK _)) | GExpr (EV (VK _)) | GExpr (EV (VV _)) | GExpr (EV (VM _))) => true
  | EV (VP _), (GFloat _ | GVec _ | GVecP _ | GExpr (ES (SK _)) | GExpr (EV _)) => true
  | EM (MK _), (GDense _ | GDenseP _ | GExpr (ES (SK _)) | GExpr (EM _)) => true
  | EM (MV _), (GFloat _ | GDense _ | GExpr (ES (SK _)) | GExpr (EM _)) => true
  | EM (MM _), (GFloat _ | GDense _ | GDenseP _ | GExpr (ES (SK _)) | GExpr (EM _)) => true
  | EM (MP _), (GFloat _ | GDense _ | GDenseP _ | GExpr (ES (SK _)) | GExpr (EM (MK _))) => true
  | _, _ => false
  end.

(** the conjunction A x <= b, and C x = d *)
Definition system_le (r : assignment) (A : list (list num)) (w : list var) (b : list num) : Prop :=
  forall i, i < length b -> nleb (dot r (nth i A []) w) (nth i b n0) = true.
Definition system_eq (r : assignment) (A : list (list num)) (w : list var) (b : list num) : Prop :=
  forall i, i < length b -> dot r (nth i A []) w = nth i b n0.

(** the terms of every entry have been collected *)
Definition array_collected (e : expr) : Prop := forall row s, In row (rows e) -> In s row -> collected s.

(** in every row the two sides differ by more than a constant *)
Definition involves_variables (d : nat * nat) (c : constraint) : Prop :=
  forall i, i < fst d -> exists r r', value r (con_left c) i 0 - value r (con_right c) i 0 <> value r' (con_left c) i 0 - value r' (con_right c) i 0.

(** every entry is a plain constraint *)
Definition plain_con (d : nat * nat) (c : constraint) : Prop :=
  forall s, In s (entry_constraints d c) -> plain s.

Definition is_monomial_matrix (e : expr) : bool := match e with EM (MM _) => true | _ => false end.

End SpecCon.
