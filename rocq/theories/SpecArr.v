(** * Specification: what vector and matrix expressions mean

    Nothing in this file refers to the model's functions, only to its data types. *)

From Coq Require Import ZArith NArith Bool List.
From Verif Require Import Num Syntax Spec.
Import ListNotations.
Local Open Scope num_scope.

Section SpecArr.
Context {NN : Num}.

(** ** Entries and dimensions *)

(** The entries of an expression, row by row.  A scalar is a 1x1 array, a vector is a column. *)
Definition rows (e : expr) : list (list scalar) :=
  match e with
  | ES s => [[s]]
  | EV (VK l) => map (fun k => [SK k]) l
  | EV (VV l) => map (fun x => [SV x]) l
  | EV (VM l) => map (fun m => [SM m]) l
  | EV (VP l) => map (fun p => [SP p]) l
  | EM (MK l) => map (map SK) l
  | EM (MV l) => map (map SV) l
  | EM (MM l) => map (map SM) l
  | EM (MP l) => map (map SP) l
  end.

(** the expression has [fst d] rows and [snd d] columns *)
Definition shape (d : nat * nat) (e : expr) : Prop :=
  length (rows e) = fst d /\ Forall (fun row => length row = snd d) (rows e).

Definition entry (e : expr) (i j : nat) : scalar := nth j (nth i (rows e) []) (SK n0).

(** the value of entry (i,j) *)
Definition value (r : assignment) (e : expr) (i j : nat) : num := eval r (entry e i j).

(** a non-empty array whose entries are valid *)
Definition valid_array (d : nat * nat) (e : expr) : Prop :=
  1 <= fst d /\ 1 <= snd d /\ shape d e /\ forall i j, i < fst d -> j < snd d -> valid (entry e i j).

Definition is_scalar (e : expr) : Prop := match e with ES _ => True | _ => False end.
Definition is_vector (e : expr) : Prop := match e with EV _ => True | _ => False end.
Definition is_matrix (e : expr) : Prop := match e with EM _ => True | _ => False end.

(** ** Operands *)

(** the expression a Go value stands for as an operand *)
Definition means (g : goval) : option expr :=
  match g with
  | GFloat f => Some (ES (SK f))
  | GInt z => Some (ES (SK (nofZ z)))
  | GVec l | GVecP l => Some (EV (VK l))
  | GDense l | GDenseP l => Some (EM (MK l))
  | GExpr e => Some e
  | GOther => None
  end.

(** ** Broadcasting: a scalar takes the dimensions of the other operand *)
Definition broadcast (a b : expr) (da db d : nat * nat) : Prop :=
  (da = db /\ d = da) \/ (is_scalar a /\ d = db) \/ (is_scalar b /\ d = da).

(** value of entry (i,j), of a scalar at every position *)
Definition bvalue (r : assignment) (e : expr) (i j : nat) : num :=
  match e with ES s => eval r s | _ => value r e i j end.

(** The type pairs for which Plus is implemented: receiver, argument *)
Definition plus_accepts (a : expr) (g : goval) : bool :=
  match a, g with
  | ES (SK _), GOther => false
  | ES (SK _), _ => true
  | ES (SV _), (GFloat _ | GInt _ | GVec _ | GVecP _ | GExpr (ES _) | GExpr (EV _)) => true
  | ES (SM _), (GFloat _ | GExpr (ES _)) => true
  | ES (SP _), (GFloat _ | GExpr _) => true
  | EV _, (GFloat _ | GExpr (ES _) | GExpr (EV _)) => true
  | EV (VV _ | VM _), GInt _ => true
  | EV (VK _ | VV _), (GVec _ | GVecP _) => true
  | EM (MK _), (GFloat _ | GDense _ | GDenseP _ | GExpr (ES (SK _)) | GExpr (ES (SV _)) | GExpr (EM _)) => true
  | EM (MV _), (GFloat _ | GExpr (ES (SK _)) | GExpr (EM (MK _))) => true
  | EM (MM _), (GFloat _ | GExpr (ES _) | GExpr (EM (MP _))) => true
  | EM (MP _), (GFloat _ | GExpr (ES (SK _)) | GExpr (ES (SM _)) | GExpr (ES (SP _)) | GExpr (EM (MK _)) | GExpr (EM (MP _))) => true
  | _, _ => false
  end.

(** The pairs of scalars and vectors for which Minus is implemented: receiver, argument *)
Definition minus_accepts (a : expr) (g : goval) : bool :=
  match a, g with
  | ES (SM _), (GFloat _ | GExpr (ES _)) => true
  | ES (SM _), _ => false
  | (ES _ | EV _), (GFloat _ | GVec _ | GVecP _ | GExpr (ES _) | GExpr (EV _)) => true
  | _, _ => false
  end.

(** The type pairs for which Multiply is implemented: receiver, argument *)
Definition multiply_accepts (a : expr) (g : goval) : bool :=
  match a, g with
  | ES (SK _ | SM _), (GFloat _ | GInt _ | GExpr (ES _)) => true
  | ES (SV _), (GFloat _ | GInt _ | GVec _ | GVecP _ | GExpr (ES _) | GExpr (EV _)) => true
  | ES (SP _), (GFloat _ | GExpr (ES _) | GExpr (EV _) | GExpr (EM (MK _))) => true
  | EV (VP _), (GExpr (ES (SV _)) | GExpr (ES (SM _))) => false
  | EV _, (GFloat _ | GExpr (ES _)) => true
  | EV (VK _), (GVec _ | GVecP _ | GExpr (EV (VK _)) | GExpr (EV (VV _))) => true
  | EV (VV _), GExpr (EV _) => true
  | EV (VP _), GExpr (EV (VP _)) => true
  | EM (MK _), (GFloat _ | GVecP _ | GDense _ | GDenseP _ | GExpr (ES (SK _)) | GExpr (ES (SP _)) | GExpr (EV (VV _)) | GExpr (EM _)) => true
  | EM (MV _), (GFloat _ | GVec _ | GVecP _ | GDense _ | GDenseP _ | GExpr (ES (SK _)) | GExpr (EV (VK _)) | GExpr (EV (VV _)) | GExpr (EM _)) => true
  | EM (MM _ | MP _), (GFloat _ | GExpr (ES (SK _)) | GExpr (EV (VV _)) | GExpr (EM _)) => true
  | _, _ => false
  end.

Definition is_variable_matrix (e : expr) : bool := match e with EM (MV _) => true | _ => false end.
Definition is_number (e : expr) : bool := match e with ES (SK _) | EM (MK _) => true | _ => false end.
(** VariableMatrix plus numbers, or K plus VariableMatrix *)
Definition variable_matrix_and_numbers (a b : expr) : bool :=
  is_variable_matrix a && is_number b || (match a with ES (SK _) => true | _ => false end) && is_variable_matrix b.
(** no entry is the number 0 *)
Definition no_zero (e : expr) : Prop := forall row, In row (rows e) -> ~ In (SK n0) row.

(** ** Terms *)

(** [f] is the exponent function of a term of some entry *)
Definition has_term (e : expr) (f : N -> Z) : Prop :=
  exists row s m, In row (rows e) /\ In s row /\ In m (terms s) /\ forall i, f i = exponent m i.

(** ... of one of two expressions *)
Definition sum_exps (a b : expr) (f : N -> Z) : Prop := has_term a f \/ has_term b f.

(** ... of a product of a term of [a] and a term of [b] *)
Definition product_exps (a b : expr) (f : N -> Z) : Prop :=
  exists g h, has_term a g /\ has_term b h /\ forall i, f i = (g i + h i)%Z.

(** ... of a product of at most [n] terms *)
Fixpoint power_exps (e : expr) (n : nat) (f : N -> Z) : Prop :=
  match n with
  | O => forall i, f i = 0%Z
  | S n' => power_exps e n' f \/ exists g h, power_exps e n' g /\ has_term e h /\ forall i, f i = (g i + h i)%Z
  end.

(** every entry has degree at most [d] *)
Definition array_degree (d : Z) (e : expr) : Prop :=
  forall row s, In row (rows e) -> In s row -> degree_at_most d s.

(** every entry involves no variable other than [x] *)
Definition array_variable (x : N) (e : expr) : Prop :=
  forall row s, In row (rows e) -> In s row -> only_variable x s.

(** all entries are numbers *)
Definition numeric (e : expr) : Prop := forall row s, In row (rows e) -> In s row -> exists k, s = SK k.

(** ** Sums and products of matrices *)

(** f 0 + ... + f (n-1) *)
Fixpoint sum_to (f : nat -> num) (n : nat) : num :=
  match n with O => n0 | S n' => sum_to f n' + f n' end.

(** the dimensions of a product: a scalar keeps the dimensions of the other operand *)
Definition product_dims (a b : expr) (da db d : nat * nat) : Prop :=
  (is_scalar a /\ d = db) \/ (is_scalar b /\ d = da) \/
  (~ is_scalar a /\ ~ is_scalar b /\ snd da = fst db /\ d = (fst da, snd db)).

(** entry (i,j) of a product: a scalar multiplies every entry; otherwise the matrix product with inner dimension [n] *)
Definition product_value (r : assignment) (a b : expr) (n i j : nat) : num :=
  match a, b with
  | ES _, _ | _, ES _ => bvalue r a i j * bvalue r b i j
  | _, _ => sum_to (fun k => value r a i k * value r b k j) n
  end.

(** VariableMatrix times a number *)
Definition variable_matrix_times_number (a b : expr) : bool :=
  match a, b with EM (MV _), ES (SK _) => true | _, _ => false end.
(** MonomialMatrix with at least two rows times VariableVector *)
Definition monomial_matrix_times_variables (a b : expr) : bool :=
  match a, b with EM (MM l), EV (VV _) => negb (Nat.eqb (length l) 1) | _, _ => false end.

(** entry (i,j) of the n-th power of the [d] x [d] matrix [v] *)
Fixpoint mat_npow (d : nat) (v : nat -> nat -> num) (n : nat) (i j : nat) : num :=
  match n with
  | O => if Nat.eqb i j then n1 else n0
  | S n' => sum_to (fun k => mat_npow d v n' i k * v k j) d
  end.

(** ** Numeric arrays *)
Definition dense_shape (d : nat * nat) (l : list (list num)) : Prop :=
  length l = fst d /\ Forall (fun row => length row = snd d) l.
Definition dense_entry (l : list (list num)) (i j : nat) : num := nth j (nth i l []) n0.

(** the smallest of the types K, Variable, Monomial, Polynomial (0 to 3) in which all the given entries can be represented.  A Variable
    and a K have only Monomial in common. *)
Definition kind (s : scalar) : nat := match s with SK _ => 0 | SV _ => 1 | SM _ => 2 | SP _ => 3 end.
Definition vector_kind (v : vector) : nat := match v with VK _ => 0 | VV _ => 1 | VM _ => 2 | VP _ => 3 end.
Definition matrix_kind (m : matrix) : nat := match m with MK _ => 0 | MV _ => 1 | MM _ => 2 | MP _ => 3 end.
Definition embeds (k1 k2 : nat) : Prop := k1 = k2 \/ 2 <= k2 /\ k1 <= k2.
Definition smallest_kind (l : list scalar) (k : nat) : Prop :=
  (forall s, In s l -> embeds (kind s) k) /\ forall k', (forall s, In s l -> embeds (kind s) k') -> k <= k'.

(** representing an entry in a larger type keeps its terms *)
Definition same_terms (a b : scalar) : Prop := terms b = terms a.

(** row [i] of the arguments side by side *)
Definition beside (es : list expr) (i : nat) : list scalar := concat (map (fun e => nth i (rows e) []) es).

(** the variable with ID [i] is a factor of a term of some entry *)
Definition array_occurs (i : N) (e : expr) : Prop := exists row s, In row (rows e) /\ In s row /\ occurs i s.

(** the variable [w], with all its fields, is a factor of a term of some entry *)
Definition array_var (w : var) (e : expr) : Prop :=
  exists row s m, In row (rows e) /\ In s row /\ In m (terms s) /\ In w (m_vars m).
(** ... is a key of the substitution map or a factor of a term of one of the replacements *)
Definition map_var (w : var) (sm : list (var * expr)) : Prop :=
  In w (map fst sm) \/ exists k t m, In (k, ES t) sm /\ In m (terms t) /\ In w (m_vars m).

(** ** The data given to the From helpers *)
(** getKVector.From takes a KVector, a mat.VecDense or a pointer to one, a non-empty []float64 or []int *)
Definition vector_data (i : from_input) : option (list num) :=
  match i with
  | FVal (GExpr (EV (VK l))) | FVal (GVec l) | FVal (GVecP l) => Some l
  | FFloats (x :: l) => Some (x :: l)
  | FInts (x :: l) => Some (map nofZ (x :: l))
  | _ => None
  end.
(** all rows as long as the first *)
Definition rectangular (l : list (list num)) : bool :=
  match l with [] => false | r0 :: l' => forallb (fun r => Nat.eqb (length r) (length r0)) l' end.
(** getKMatrix.From takes a KMatrix, a mat.Dense or a pointer to one, a rectangular [][]float64 with at least one row *)
Definition matrix_data (i : from_input) : option (list (list num)) :=
  match i with
  | FVal (GExpr (EM (MK l))) | FVal (GDense l) | FVal (GDenseP l) => Some l
  | FRows l => if rectangular l then Some l else None
  | _ => None
  end.

Definition both_variables (a b : expr) : bool := match a, b with ES (SV _), ES (SV _) => true | _, _ => false end.

End SpecArr.
