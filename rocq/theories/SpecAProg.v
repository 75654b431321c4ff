(** * Specification: programs over vectors and matrices

    A program applies the operations of the library to given expressions.  Its dimensions and its value are those of matrix algebra.
    Nothing in this file refers to the model's functions, only to its data types. *)

From Coq Require Import ZArith NArith Bool List.
From Verif Require Import Num Syntax Spec SpecArr.
Import ListNotations.
Local Open Scope num_scope.

Section SpecAProg.
Context {NN : Num}.

Inductive aprog : Type :=
| ALeaf (e : expr)
| APlus (a b : aprog)
| AMinus (a b : aprog)
| ATimes (a b : aprog)
| APower (a : aprog) (n : nat)
| ATransposed (a : aprog)
| ASimplified (a : aprog)
| ABeside (a b : aprog)
| AAbove (a b : aprog).

(** ** Dimensions *)

Definition one_one : nat * nat := (1, 1)%nat.
Definition same_dims (d1 d2 : nat * nat) : bool := Nat.eqb (fst d1) (fst d2) && Nat.eqb (snd d1) (snd d2).
Definition scalar_dims (d : nat * nat) : bool := same_dims d one_one.

(** number of rows and columns of an expression *)
Definition leaf_dims (e : expr) : nat * nat := (length (rows e), length (hd [] (rows e))).

(** a sum: equal dimensions, or one of the operands is a scalar *)
Definition sum_dims (da db : nat * nat) : option (nat * nat) :=
  if scalar_dims da then Some db else if scalar_dims db then Some da else if same_dims da db then Some da else None.
(** a product: as many columns as rows, or one of the operands is a scalar *)
Definition mul_dims (da db : nat * nat) : option (nat * nat) :=
  if scalar_dims da then Some db else if scalar_dims db then Some da
  else if Nat.eqb (snd da) (fst db) then Some (fst da, snd db) else None.

Definition both (f : nat * nat -> nat * nat -> option (nat * nat)) (x y : option (nat * nat)) : option (nat * nat) :=
  match x, y with Some d1, Some d2 => f d1 d2 | _, _ => None end.

(** the dimensions of the result, if the dimensions of all operands fit *)
Fixpoint adims (p : aprog) : option (nat * nat) :=
  match p with
  | ALeaf e => Some (leaf_dims e)
  | APlus a b | AMinus a b => both sum_dims (adims a) (adims b)
  | ATimes a b => both mul_dims (adims a) (adims b)
  | APower a n => match adims a with Some d => if Nat.eqb (fst d) (snd d) then Some d else None | None => None end
  | ATransposed a => match adims a with Some d => Some (snd d, fst d) | None => None end
  | ASimplified a => adims a
  | ABeside a b => both (fun d1 d2 => if Nat.eqb (fst d1) (fst d2) then Some (fst d1, snd d1 + snd d2)%nat else None) (adims a) (adims b)
  | AAbove a b => both (fun d1 d2 => if Nat.eqb (snd d1) (snd d2) then Some (fst d1 + fst d2, snd d1)%nat else None) (adims a) (adims b)
  end.

Definition dims_of (p : aprog) : nat * nat := match adims p with Some d => d | None => (0, 0)%nat end.

(** ** Values *)

(** a scalar has its value at every position *)
Definition spread (d : nat * nat) (v : nat -> nat -> num) (i j : nat) : num := if scalar_dims d then v 0%nat 0%nat else v i j.

(** entry (i,j) of the result, at the assignment [r] *)
Fixpoint meaning (r : assignment) (p : aprog) (i j : nat) : num :=
  match p with
  | ALeaf e => value r e i j
  | APlus a b => spread (dims_of a) (meaning r a) i j + spread (dims_of b) (meaning r b) i j
  | AMinus a b => spread (dims_of a) (meaning r a) i j - spread (dims_of b) (meaning r b) i j
  | ATimes a b =>
      if scalar_dims (dims_of a) || scalar_dims (dims_of b)
      then spread (dims_of a) (meaning r a) i j * spread (dims_of b) (meaning r b) i j
      else sum_to (fun k => meaning r a i k * meaning r b k j) (snd (dims_of a))
  | APower a n => mat_npow (fst (dims_of a)) (meaning r a) n i j
  | ATransposed a => meaning r a j i
  | ASimplified a => meaning r a i j
  | ABeside a b => if Nat.ltb j (snd (dims_of a)) then meaning r a i j else meaning r b i (j - snd (dims_of a))%nat
  | AAbove a b => if Nat.ltb i (fst (dims_of a)) then meaning r a i j else meaning r b (i - fst (dims_of a))%nat j
  end.

(** ** Degrees *)

(** the largest degree of a term of an entry *)
Definition leaf_degree (e : expr) : Z := fold_right Z.max 0%Z (map tdeg (flat_map terms (concat (rows e)))).

(** an upper bound on the degree of the result, read off the text of the program *)
Fixpoint adegree (p : aprog) : Z :=
  match p with
  | ALeaf e => leaf_degree e
  | APlus a b | AMinus a b | ABeside a b | AAbove a b => Z.max (adegree a) (adegree b)
  | ATimes a b => (adegree a + adegree b)%Z
  | APower a n => (adegree a * Z.of_nat n)%Z
  | ATransposed a | ASimplified a => adegree a
  end.

(** [Q] holds of the program and of all its parts *)
Fixpoint everywhere (Q : aprog -> Prop) (p : aprog) : Prop :=
  Q p /\
  match p with
  | ALeaf _ => True
  | APlus a b | AMinus a b | ATimes a b | ABeside a b | AAbove a b => everywhere Q a /\ everywhere Q b
  | APower a _ | ATransposed a | ASimplified a => everywhere Q a
  end.

(** The expressions the program starts from are valid, and those with one row and one column are of a scalar type *)
Definition proper_leaf (p : aprog) : Prop :=
  match p with ALeaf e => valid_array (leaf_dims e) e /\ (leaf_dims e = one_one -> is_scalar e) | _ => True end.
Definition proper_leaves : aprog -> Prop := everywhere proper_leaf.

(** the variable [x] is the only one in the expressions the program starts from *)
Definition leaves_only (x : N) : aprog -> Prop := everywhere (fun p => match p with ALeaf e => array_variable x e | _ => True end).

(** ** Quadratic forms and affine maps *)

(** x.Transpose().Multiply(Q).Multiply(x) *)
Definition quadratic_form (xs : list var) (Q : list (list num)) : aprog :=
  ATimes (ATimes (ATransposed (ALeaf (EV (VV xs)))) (ALeaf (EM (MK Q)))) (ALeaf (EV (VV xs))).
(** A.Multiply(x) *)
Definition linear_map (A : list (list num)) (xs : list var) : aprog := ATimes (ALeaf (EM (MK A))) (ALeaf (EV (VV xs))).
(** A.Multiply(x).Plus(b) *)
Definition affine_map (A : list (list num)) (xs : list var) (b : list num) : aprog := APlus (linear_map A xs) (ALeaf (EV (VK b))).

(** entry (i,j) of a matrix of numbers and the value of the i-th variable of a list *)
Definition at_ij (Q : list (list num)) (i j : nat) : num := nth j (nth i Q []) n0.
Definition var_at (r : assignment) (xs : list var) (i : nat) : num := nth i (map (fun x => r (v_id x)) xs) n0.

(** every row of the [m] x [n] matrix has a non-zero entry *)
Definition no_zero_row (m n : nat) (M : list (list num)) : Prop := forall i, i < m -> exists j, j < n /\ at_ij M i j <> n0.

(** all variables of the expression are in the list *)
Definition occurs_in (xs : list var) (e : expr) : Prop := forall i, array_occurs i e -> In i (map v_id xs).
(** the list contains all variables the program starts from *)
Definition leaves_among (xs : list var) : aprog -> Prop := everywhere (fun p => match p with ALeaf e => occurs_in xs e | _ => True end).
(** a program for a vector of length [n] that is linear in the variables [xs] *)
Definition linear_vector (n : nat) (xs : list var) (p : aprog) : Prop := proper_leaves p /\ adims p = Some (n, 1)%nat /\ (adegree p <= 1)%Z /\ leaves_among xs p.
(** in each of the [n] rows the two programs differ by more than a constant *)
Definition rows_vary (n : nat) (p q : aprog) : Prop :=
  forall i, i < n -> exists r r', meaning r p i 0%nat - meaning r q i 0%nat <> meaning r' p i 0%nat - meaning r' q i 0%nat.
(** entry by entry *)
Definition minus_list (c b : list num) : list num := map (fun xy => fst xy - snd xy) (combine c b).

End SpecAProg.
