(** * Specification: what an error message tells *)

From Coq Require Import ZArith NArith Bool Ascii String DecimalString List.
From Verif Require Import Num Syntax Spec ModelErrors.
Import ListNotations.

(** ** The whole numbers in a text, from left to right: the longest stretches of digits and minus signs *)
Definition number_char (c : ascii) : bool :=
  existsb (Ascii.eqb c) ["-"; "0"; "1"; "2"; "3"; "4"; "5"; "6"; "7"; "8"; "9"]%char.
Fixpoint stretches (l : list ascii) : list (list ascii) :=
  match l with
  | [] => [[]]
  | c :: l' =>
      if number_char c then match stretches l' with s :: r => (c :: s) :: r | [] => [[c]] end
      else [] :: stretches l'
  end.
Definition read_number (l : list ascii) : list Z :=
  match l with
  | [] => []
  | _ => match NilZero.int_of_string (string_of_list_ascii l) with Some d => [Z.of_int d] | None => [] end
  end.
Definition numbers (s : string) : list Z := flat_map read_number (stretches (list_ascii_of_string s)).
(** a text without digits or minus signs *)
Definition numberless (s : string) : Prop := forall c, In c (list_ascii_of_string s) -> number_char c = false.
(** the text [t] occurs in [s] *)
Definition mentions (s t : string) : Prop := exists a b, s = String.append a (String.append t b).

(** the name of a type: without spaces and round brackets *)
Definition plain_name (t : string) : Prop := forall c, In c (list_ascii_of_string t) -> ~ In c [" "; "("; ")"]%char.

(** the names of types in an error *)
Definition type_names (e : sm_error) : list string :=
  match e with
  | InvalidVectorIndexError _ o | InvalidMatrixIndexError _ _ o => [o_type o]
  | UnsupportedInputError _ t | LinearExpressionRequiredError _ t | EmptyVectorError t | EmptyMatrixError t | EmptyLinearCoeffsError t
  | CanNotGetLinearCoeffOfConstantError _ t => [t]
  | _ => []
  end.
(** the name of an operation or function in an error *)
Definition operation (e : sm_error) : option string :=
  match e with
  | MatrixDimensionError op _ _ | VectorDimensionError op _ _ | EqualityConstraintRequiredError op | InequalityConstraintRequiredError op
  | LinearExpressionRequiredError op _ | UnsupportedInputError op _ => Some op
  | _ => None
  end.
(** the numbers in an error, in the order of its fields *)
Definition dims_numbers (d : nat * nat) : list Z := [Z.of_nat (fst d); Z.of_nat (snd d)].
Definition quantities (e : sm_error) : list Z :=
  match e with
  | MatrixDimensionError _ a b => dims_numbers (o_dims a) ++ dims_numbers (o_dims b)
  | VectorDimensionError _ m n => [Z.of_nat m; Z.of_nat n]
  | MatrixColumnMismatchError e a r => [Z.of_nat e; Z.of_nat a; Z.of_nat r]
  | InvalidVectorIndexError i o => i :: dims_numbers (o_dims o)
  | InvalidMatrixIndexError i j o => i :: j :: dims_numbers (o_dims o)
  | NegativeExponentError k => [k]
  | _ => []
  end.
(** the printed object, if the error holds one *)
Definition shown_object (e : sm_error) : option string :=
  match e with CanNotGetLinearCoeffOfConstantError s _ => Some s | _ => None end.
(** the error types, numbered *)
Definition error_type (e : sm_error) : nat :=
  match e with
  | MatrixDimensionError _ _ _ => 0 | VectorDimensionError _ _ _ => 1 | MatrixColumnMismatchError _ _ _ => 2
  | InvalidVectorIndexError _ _ => 3 | InvalidMatrixIndexError _ _ _ => 4 | NegativeExponentError _ => 5 | UnsupportedInputError _ _ => 6
  | EqualityConstraintRequiredError _ => 7 | InequalityConstraintRequiredError _ => 8 | LinearExpressionRequiredError _ _ => 9
  | EmptyVectorError _ => 10 | EmptyMatrixError _ => 11 | EmptyLinearCoeffsError _ => 12 | CanNotGetLinearCoeffOfConstantError _ _ => 13
  end.

(** the two expressions are of the same Go type *)
Definition same_type {NN : Num} (e e' : expr) : Prop :=
  match e, e' with
  | ES s, ES s' => match s, s' with SK _, SK _ | SV _, SV _ | SM _, SM _ | SP _, SP _ => True | _, _ => False end
  | EV v, EV v' => match v, v' with VK _, VK _ | VV _, VV _ | VM _, VM _ | VP _, VP _ => True | _, _ => False end
  | EM m, EM m' => match m, m' with MK _, MK _ | MV _, MV _ | MM _, MM _ | MP _, MP _ => True | _, _ => False end
  | _, _ => False
  end.

(** ** Dimensions *)
Definition scalar_dims (d : nat * nat) : Prop := d = (1, 1).
Definition fit_for_sum (a b : nat * nat) : Prop := a = b \/ scalar_dims a \/ scalar_dims b.
Definition fit_for_product (a b : nat * nat) : Prop := snd a = fst b \/ scalar_dims a \/ scalar_dims b.

(** the arguments of HStack or VStack, with the dimensions that Dims returns *)
Definition operands {NN : Num} (ds : list (nat * nat)) (es : list expr) : list operand := map (fun de => operand_of (snd de) (fst de)) (combine ds es).

(** ** The first fault of an expression *)

(** [a] is the first element of the list that is not ok, at position [i] *)
Definition first_fault {A} (ok : A -> Prop) (l : list A) (i : nat) (a : A) : Prop :=
  nth_error l i = Some a /\ ~ ok a /\ forall k b, k < i -> nth_error l k = Some b -> ok b.
Local Notation "# n" := (Z.of_nat n) (at level 1).

Section Faults.
Context {NN : Num} (fmt : num -> string).

(** [mono_fault m ns]: the monomial is faulty, and [ns] are the numbers that describe its first fault; similarly for the other types *)
Definition mono_fault (m : Monomial) (ns : list Z) : Prop :=
  List.length (m_exps m) <> List.length (m_vars m) /\ ns = [#(List.length (m_exps m)); #(List.length (m_vars m))].
Definition var_fault (v : var) (ns : list Z) : Prop :=
  (v_upper v <=? v_lower v)%num = true /\ ns = numbers (fmt (v_lower v)) ++ numbers (fmt (v_upper v)).
(** some element is faulty: the position of the first, followed by the description of its fault *)
Definition element_fault {A} (fault : A -> list Z -> Prop) (l : list A) (ns : list Z) : Prop :=
  exists i a ns', first_fault (fun x => ~ exists k, fault x k) l i a /\ fault a ns' /\ ns = #i :: ns'.
Definition poly_fault (p : Polynomial) (ns : list Z) : Prop := p = [] /\ ns = [] \/ element_fault mono_fault p ns.
Definition vec_fault (v : vector) (ns : list Z) : Prop :=
  match v with
  | VK _ => False
  | VV l => element_fault var_fault l ns
  | VM l => l = [] /\ ns = [] \/ element_fault mono_fault l ns
  | VP l => l = [] /\ ns = [] \/ element_fault poly_fault l ns
  end.
(** no rows; or a first row whose length is not that of row 0, described by the two lengths and its position; or rows of equal length and
    a first row with a faulty entry, described by the positions of the row and of its first faulty entry *)
Definition rows_fault {A} (fault : A -> list Z -> Prop) (l : list (list A)) (ns : list Z) : Prop :=
  l = [] /\ ns = []
  \/ (exists r row, first_fault (fun row => List.length row = List.length (hd [] l)) l r row
      /\ ns = [#(List.length (hd [] l)); #(List.length row); #r])
  \/ (forall row, In row l -> List.length row = List.length (hd [] l)) /\ element_fault (element_fault fault) l ns.
Definition mat_fault (m : matrix) (ns : list Z) : Prop :=
  match m with
  | MK _ => False
  | MV l => rows_fault var_fault l ns
  | MM l => rows_fault mono_fault l ns
  | MP l => rows_fault poly_fault l ns
  end.
Definition fault (e : expr) (ns : list Z) : Prop :=
  match e with
  | ES (SK _) => False | ES (SV v) => var_fault v ns | ES (SM m) => mono_fault m ns | ES (SP p) => poly_fault p ns
  | EV v => vec_fault v ns
  | EM m => mat_fault m ns
  end.

End Faults.
