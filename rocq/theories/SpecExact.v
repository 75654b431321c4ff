(** * Specification: the rational numbers behind binary64 numbers, and expressions whose coefficients are short

    Nothing in this file refers to the model's functions, only to its data types. *)

From Coq Require Import ZArith NArith Bool List.
From Coq Require Import QArith Qcanon.
From Coq.Floats Require Import SpecFloat.
From Verif Require Import Num Syntax Spec SpecProg.
Import ListNotations.
Local Open Scope Z_scope.

(** the rational number m * 2^e *)
Definition scaled (m e : Z) : Q := (inject_Z m * Qpower 2 e)%Q.

(** The rational number that a float64 stands for.  An infinity, which may only occur as the bound of a variable, is read as a number
    above (below) all finite ones; NaN is excluded everywhere. *)
Definition exactly (f : spec_float) : Qc :=
  match f with
  | S754_zero _ => 0%Qc
  | S754_finite s m e => Q2Qc (scaled (if s then Zneg m else Zpos m) e)
  | S754_infinity s => Q2Qc (scaled (if s then -1 else 1) 1024)
  | S754_nan => 0%Qc
  end.

(** the float64 numbers other than NaN: SpecFloat's type also contains mantissas of the wrong length *)
Definition numeric (f : spec_float) : Prop := valid_binary 53 1024 f = true /\ f <> S754_nan.

(** [f] is a finite float64, equal to z * 2^-k *)
Definition in_units (k : Z) (f : spec_float) (z : Z) : Prop :=
  numeric f /\ (forall s, f <> S754_infinity s) /\ exactly f = Q2Qc (scaled z (- k)).

(** ** Reading float64 as rational numbers in variables, terms, expressions and programs *)
Definition exact_var (v : @var F64Num) : @var QNum :=
  @mkVar QNum (v_id v) (exactly (v_lower v)) (exactly (v_upper v)) (v_type v) (v_name v) (v_env v).
Definition exact_mono (m : @Monomial F64Num) : @Monomial QNum :=
  @mkMono QNum (exactly (m_coeff m)) (m_exps m) (map exact_var (m_vars m)).
Definition exact_scalar (s : @scalar F64Num) : @scalar QNum :=
  match s with
  | SK k => @SK QNum (exactly k)
  | SV v => @SV QNum (exact_var v)
  | SM m => @SM QNum (exact_mono m)
  | SP p => @SP QNum (map exact_mono p)
  end.
Fixpoint exact_prog (p : @prog F64Num) : @prog QNum :=
  match p with
  | PConst k => @PConst QNum (exactly k)
  | PVar v => @PVar QNum (exact_var v)
  | PPlus a b => PPlus (exact_prog a) (exact_prog b)
  | PMinus a b => PMinus (exact_prog a) (exact_prog b)
  | PMul a b => PMul (exact_prog a) (exact_prog b)
  | PPow a n => PPow (exact_prog a) n
  | PSimplify a => PSimplify (exact_prog a)
  | PDeriv a v => PDeriv (exact_prog a) (exact_var v)
  | PSubst a v e => PSubst (exact_prog a) (exact_var v) (exact_prog e)
  end.

(** ** Short coefficients *)

Definition numeric_var (v : @var F64Num) : Prop := numeric (v_lower v) /\ numeric (v_upper v).

Fixpoint sum_abs (zs : list Z) : Z := match zs with [] => 0 | z :: zs' => Z.abs z + sum_abs zs' end.

(** The coefficients are multiples of 2^-k, and the sum of their absolute values is at most n * 2^-k *)
Definition short (k n : Z) (s : @scalar F64Num) : Prop :=
  (forall m w, In m (terms s) -> In w (m_vars m) -> numeric_var w)
  /\ exists zs, Forall2 (fun (m : @Monomial F64Num) (z : Z) => in_units k (m_coeff m) z) (terms s) zs /\ sum_abs zs <= n.

(** A call on float64 operands ends like the same call on the rational numbers behind them: with the same expression, whose coefficients
    are short again, or with the same panic *)
Definition same_exactly (k n : Z) (x : res (@scalar F64Num)) (y : res (@scalar QNum)) : Prop :=
  match x with Ok s => short k n s /\ y = Ok (exact_scalar s) | Panic p => y = Panic p end.

(** ** Programs *)

(** m * 2^e as z * 2^-k with the least k >= 0 *)
Fixpoint shortest (m : positive) (e : Z) : Z * Z :=
  match m with
  | xO m' => if e <? 0 then shortest m' (e + 1) else (Zpos m * 2 ^ e, 0)
  | _ => if e <? 0 then (Zpos m, - e) else (Zpos m * 2 ^ e, 0)
  end.
(** the absolute value of a finite float64, written as z * 2^-k with the least k >= 0 *)
Definition written (f : spec_float) : Z * Z :=
  match f with S754_finite _ m e => shortest m e | _ => (0, 0) end.

(** [fraction_bits] bounds the number of binary digits after the point that the coefficients of the result need, [weight] the sum of
    their absolute values in units of the last of these digits *)
Fixpoint fraction_bits (p : @prog F64Num) : Z :=
  match p with
  | PConst k => snd (written k)
  | PVar _ => 0
  | PPlus a b | PMinus a b => Z.max (fraction_bits a) (fraction_bits b)
  | PMul a b => fraction_bits a + fraction_bits b
  | PPow a n => n * fraction_bits a
  | PSimplify a | PDeriv a _ => fraction_bits a
  | PSubst a _ e => fraction_bits a + fraction_bits e * text_degree a
  end.

Fixpoint weight (p : @prog F64Num) : Z :=
  match p with
  | PConst k => fst (written k)
  | PVar _ => 1
  | PPlus a b | PMinus a b =>
      let k := Z.max (fraction_bits a) (fraction_bits b) in
      weight a * 2 ^ (k - fraction_bits a) + weight b * 2 ^ (k - fraction_bits b)
  | PMul a b => weight a * weight b
  | PPow a n => weight a ^ n
  | PSimplify a => weight a
  | PDeriv a _ => weight a * Z.max 1 (text_degree a)
  | PSubst a _ e => Z.max 1 (weight a) * Z.max (2 ^ fraction_bits e) (weight e) ^ text_degree a
  end.

(** every intermediate result fits into 53 bits; constants are finite; bounds of variables are not NaN *)
Fixpoint fits (p : @prog F64Num) : Prop :=
  0 <= fraction_bits p <= 1000 /\ weight p <= 2 ^ 53 /\
  match p with
  | PConst k => numeric k /\ forall s, k <> S754_infinity s
  | PVar v => numeric_var v
  | PPlus a b | PMinus a b | PMul a b => fits a /\ fits b
  | PPow a _ | PSimplify a => fits a
  | PDeriv a v => fits a /\ numeric_var v /\ text_degree a <= 2 ^ 53
  | PSubst a v e => fits a /\ numeric_var v /\ fits e
  end.
