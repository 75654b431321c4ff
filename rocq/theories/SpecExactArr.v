(** * Specification: vectors, matrices and programs over them, read exactly, and arrays whose coefficients are short

    Nothing in this file refers to the model's functions, only to its data types. *)

From Coq Require Import ZArith NArith Bool List.
From Coq.Floats Require Import SpecFloat.
From Verif Require Import Num Syntax Spec SpecProg SpecArr SpecAProg SpecExact.
Import ListNotations.
Local Open Scope Z_scope.

(** ** Reading float64 as rational numbers *)
Definition exact_vector (v : @vector F64Num) : @vector QNum :=
  match v with
  | VK l => @VK QNum (map exactly l)
  | VV l => @VV QNum (map exact_var l)
  | VM l => @VM QNum (map exact_mono l)
  | VP l => @VP QNum (map (map exact_mono) l)
  end.
Definition exact_matrix (m : @matrix F64Num) : @matrix QNum :=
  match m with
  | MK l => @MK QNum (map (map exactly) l)
  | MV l => @MV QNum (map (map exact_var) l)
  | MM l => @MM QNum (map (map exact_mono) l)
  | MP l => @MP QNum (map (map (map exact_mono)) l)
  end.
Definition exact_expr (e : @expr F64Num) : @expr QNum :=
  match e with
  | ES s => @ES QNum (exact_scalar s)
  | EV v => @EV QNum (exact_vector v)
  | EM m => @EM QNum (exact_matrix m)
  end.
(** operands of any Go type *)
Definition exact_operand (g : @goval F64Num) : @goval QNum :=
  match g with
  | GFloat f => @GFloat QNum (exactly f)
  | GInt z => @GInt QNum z
  | GVec l => @GVec QNum (map exactly l)
  | GVecP l => @GVecP QNum (map exactly l)
  | GDense l => @GDense QNum (map (map exactly) l)
  | GDenseP l => @GDenseP QNum (map (map exactly) l)
  | GExpr e => @GExpr QNum (exact_expr e)
  | GOther => @GOther QNum
  end.
Fixpoint exact_aprog (p : @aprog F64Num) : @aprog QNum :=
  match p with
  | ALeaf e => @ALeaf QNum (exact_expr e)
  | APlus a b => APlus (exact_aprog a) (exact_aprog b)
  | AMinus a b => AMinus (exact_aprog a) (exact_aprog b)
  | ATimes a b => ATimes (exact_aprog a) (exact_aprog b)
  | APower a n => APower (exact_aprog a) n
  | ATransposed a => ATransposed (exact_aprog a)
  | ASimplified a => ASimplified (exact_aprog a)
  | ABeside a b => ABeside (exact_aprog a) (exact_aprog b)
  | AAbove a b => AAbove (exact_aprog a) (exact_aprog b)
  end.
Definition exact_vc (c : @vector_constraint F64Num) : @vector_constraint QNum :=
  @mkVC QNum (exact_vector (vc_left c)) (exact_vector (vc_right c)) (vc_sense c).

(** ** Short arrays: every entry is short, with the same units and the same bound *)
Definition short_array (k n : Z) (e : @expr F64Num) : Prop := Forall (Forall (short k n)) (rows e).
Definition short_operand (k n : Z) (g : @goval F64Num) : Prop :=
  match g with
  | GFloat f => short k n (SK f)
  | GInt z => Z.abs z * 2 ^ k <= n
  | GVec l | GVecP l => Forall (fun c => short k n (SK c)) l
  | GDense l | GDenseP l => Forall (Forall (fun c => short k n (SK c))) l
  | GExpr e => short_array k n e
  | GOther => 0 <= n
  end.

(** A call on float64 operands ends like the same call on the rational numbers behind them *)
Definition same_array (k n : Z) (x : res (@expr F64Num)) (y : res (@expr QNum)) : Prop :=
  match x with Ok e => short_array k n e /\ y = Ok (exact_expr e) | Panic p => y = Panic p end.

(** ** Programs *)

(** binary digits after the point, and the weight of an expression in units of the last of them *)
Definition scalar_bits (s : @scalar F64Num) : Z := fold_right Z.max 0 (map (fun m : @Monomial F64Num => snd (written (m_coeff m))) (terms s)).
Definition scalar_weight (k : Z) (s : @scalar F64Num) : Z :=
  fold_right Z.add 0 (map (fun m : @Monomial F64Num => fst (written (m_coeff m)) * 2 ^ (k - snd (written (m_coeff m)))) (terms s)).
Definition leaf_bits (e : @expr F64Num) : Z := fold_right Z.max 0 (map scalar_bits (concat (rows e))).
Definition leaf_weight (e : @expr F64Num) : Z := fold_right Z.max 0 (map (scalar_weight (leaf_bits e)) (concat (rows e))).
Definition finite_numeric (s : @scalar F64Num) : Prop :=
  forall m : @Monomial F64Num, In m (terms s) -> (forall w, In w (m_vars m) -> numeric_var w) /\ numeric (m_coeff m) /\ forall g, m_coeff m <> S754_infinity g.

(** number of products added up in one entry of a product *)
Definition inner (a b : @aprog F64Num) : Z := if scalar_dims (dims_of a) || scalar_dims (dims_of b) then 1 else Z.of_nat (snd (dims_of a)).

Fixpoint abits (p : @aprog F64Num) : Z :=
  match p with
  | ALeaf e => leaf_bits e
  | APlus a b | AMinus a b | ABeside a b | AAbove a b => Z.max (abits a) (abits b)
  | ATimes a b => abits a + abits b
  | APower a n => Z.of_nat n * abits a
  | ATransposed a | ASimplified a => abits a
  end.

(** a bound on the sum of the absolute values of the coefficients of one entry, in units of 2^-abits *)
Fixpoint aweight (p : @aprog F64Num) : Z :=
  match p with
  | ALeaf e => leaf_weight e
  | APlus a b | AMinus a b =>
      aweight a * 2 ^ (Z.max (abits a) (abits b) - abits a) + aweight b * 2 ^ (Z.max (abits a) (abits b) - abits b)
  | ABeside a b | AAbove a b =>
      Z.max (aweight a * 2 ^ (Z.max (abits a) (abits b) - abits a)) (aweight b * 2 ^ (Z.max (abits a) (abits b) - abits b))
  | ATimes a b => inner a b * (aweight a * aweight b)
  | APower a n => (Z.of_nat (fst (dims_of a)) * aweight a) ^ Z.of_nat n
  | ATransposed a | ASimplified a => aweight a
  end.

(** every intermediate result fits into 53 bits *)
Definition afits_here (p : @aprog F64Num) : Prop :=
  abits p <= 1000 /\ aweight p <= 2 ^ 53 /\
  match p with ALeaf e => Forall (Forall finite_numeric) (rows e) | _ => True end.
Definition afits : @aprog F64Num -> Prop := everywhere afits_here.

(** ** Linear systems *)
Definition exact_system (x : list (list (@num F64Num)) * list (@num F64Num)) : list (list (@num QNum)) * list (@num QNum) :=
  (map (map exactly) (fst x), map exactly (snd x)).
(** -x, exactly *)
Definition opposite (x : @num F64Num) : @num QNum := @nopp QNum (exactly x).
(** the bounds of all listed variables are numbers or infinite *)
Definition numeric_lists (wrt : list (list (@var F64Num))) : Prop := forall l w, In l wrt -> In w l -> numeric_var w.
(** both calls return the same system, or panic alike *)
Definition same_system (x : res (list (list (@num F64Num)) * list (@num F64Num))) (y : res (list (list (@num QNum)) * list (@num QNum))) : Prop :=
  match x with Ok s => y = Ok (exact_system s) | Panic p => y = Panic p end.

(** ** Orders of summation *)

(** a way to add up products: gonum chooses one according to the processor and the length of the row *)
Inductive summation :=
| Nothing
| Product (x y : @num F64Num)
| Together (a b : summation).
Fixpoint add_up (t : summation) : @num F64Num :=
  match t with
  | Nothing => @n0 F64Num
  | Product x y => @nmul F64Num x y
  | Together a b => @nadd F64Num (add_up a) (add_up b)
  end.
Fixpoint products (t : summation) : list (@num F64Num * @num F64Num) :=
  match t with
  | Nothing => []
  | Product x y => [(x, y)]
  | Together a b => products a ++ products b
  end.
