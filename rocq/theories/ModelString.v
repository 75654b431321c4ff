(** * Model of the String methods

    Files: constant.go, variable.go, monomial.go, polynomial.go, the vector and matrix types, scalar_constraint.go, constr_sense.go.

    [fmt f] stands for fmt.Sprintf("%v", f) of a float64 [f]. *)

From Coq Require Import ZArith NArith Bool List Ascii String DecimalString.
From Verif Require Import Num Syntax ModelScalar ModelShape ModelSC.
Import ListNotations.
Local Open Scope string_scope.
Local Open Scope num_scope.

(** fmt.Sprintf("%v", z) of an int *)
Definition print_int (z : Z) : string := NilEmpty.string_of_int (Z.to_int z).
Definition newline : string := String (ascii_of_nat 10) "".

Section ModelString.
Context {NN : Num} (fmt : num -> string).

(** monomial.go:603-608: the name of the variable (variable.go:490-492) and the exponent; [m.Exponents[ii]] may be out of range *)
Fixpoint factors_string (vs : list var) (es : list Z) : res string :=
  match vs, es with
  | [], _ => Ok ""
  | v :: vs', e :: es' =>
      r <- factors_string vs' es' ;;
      Ok (v_name v ++ (if Z.eqb e 1 then "" else "^" ++ print_int e) ++ r)
  | _ :: _, [] => Panic PRuntime
  end.

(** monomial.go:583-612 *)
Definition mono_string (m : Monomial) : res string :=
  _ <- check (mono_check m) PCheck ;;
  f <- factors_string (m_vars m) (m_exps m) ;;
  Ok ((if negb (m_coeff m =? n1) || negb (nonempty (m_vars m))
       then fmt (m_coeff m) ++ (if nonempty (m_vars m) then " " else "") else "") ++ f).

(** polynomial.go:694-709, the terms after the first *)
Fixpoint more_string (p : list Monomial) : res string :=
  match p with
  | [] => Ok ""
  | m :: p' =>
      s <- mono_string (mkMono (nabs (m_coeff m)) (m_exps m) (m_vars m)) ;;
      r <- more_string p' ;;
      Ok (" " ++ (if n0 <=? m_coeff m then "+" else "-") ++ " " ++ s ++ r)
  end.
(** polynomial.go:678-715 *)
Definition poly_string (p : Polynomial) : res string :=
  _ <- check (poly_check p) PCheck ;;
  match p with
  | [] => Ok ""
  | m :: p' => s <- mono_string m ;; r <- more_string p' ;; Ok (s ++ r)
  end.

(** constant.go:326-328, variable.go:490-492 *)
Definition scalar_string (s : scalar) : res string :=
  match s with SK k => Ok (fmt k) | SV v => Ok (v_name v) | SM m => mono_string m | SP p => poly_string p end.

(** a loop over [l] that writes [sep] after an entry, or [fin] if its index is [n - 1] *)
Fixpoint print_list {A} (f : A -> res string) (sep fin : string) (n i : nat) (l : list A) : res string :=
  match l with
  | [] => Ok ""
  | a :: l' =>
      s <- f a ;;
      r <- print_list f sep fin n (S i) l' ;;
      Ok (s ++ (if Nat.eqb (S i) n then fin else sep) ++ r)
  end.
Definition enclose (before after : string) (x : res string) : res string := s <- x ;; Ok (before ++ s ++ after).

(** constant_vector.go:421-436, variable_vector.go:396-414, monomial_vector.go:418-436, polynomial_vector.go:444-461 *)
Definition vec_string (v : vector) : res string :=
  match v with
  | VK l => enclose "[" "]" (print_list (fun k => Ok (fmt k)) ", " "" (List.length l) 0 l)
  | VV l => _ <- check (vec_check v) PCheck ;; enclose "VariableVector = [" "]" (print_list (fun x => Ok (v_name x)) ", " "" (List.length l) 0 l)
  | VM l => _ <- check (vec_check v) PCheck ;; enclose "MonomialVector = [" "]" (print_list mono_string ", " "" (List.length l) 0 l)
  | VP l => _ <- check (vec_check v) PCheck ;; enclose "PolynomialVector = [" "]" (print_list poly_string ", " "" (List.length l) 0 l)
  end.

(** constant_matrix.go:481-507 (the opening bracket of every row but the first is written twice), variable_matrix.go:460-484,
    monomial_matrix.go:515-542, polynomial_matrix.go:520-550 *)
Definition mat_string (m : matrix) : res string :=
  match m with
  | MK l =>
      d <- mat_dims m ;;
      enclose "[" "" (print_list (fun row => enclose "[" "]" (print_list (fun k => Ok (fmt k)) "," "" (snd d) 0 row)) ("," ++ newline ++ " [") ("]" ++ newline) (fst d) 0 l)
  | MV l =>
      _ <- check (mat_check m) PCheck ;;
      enclose "[" "]" (print_list (fun row => enclose "[" "]" (print_list (fun x => Ok (v_name x)) ", " "" (List.length row) 0 row)) ", " "" (List.length l) 0 l)
  | MM l =>
      d <- mat_dims m ;;
      enclose ("MonomialMatrix =" ++ newline ++ "[ ") " ]"
        (print_list (fun row => enclose "[ " "]," (print_list mono_string ", " "" (snd d) 0 row)) ("," ++ newline ++ " ") "" (List.length l) 0 l)
  | MP l =>
      d <- mat_dims m ;;
      enclose ("PolynomialMatrix =" ++ newline ++ "[") "]"
        (print_list (fun row => enclose "[" "]" (print_list poly_string ", " "" (snd d) 0 row)) ("," ++ newline) "" (fst d) 0 l)
  end.

Definition expr_string (e : expr) : res string := match e with ES s => scalar_string s | EV v => vec_string v | EM m => mat_string m end.

(** constr_sense.go:18-29 *)
Definition sense_string (s : sense) : res string :=
  match s with SenseEq => Ok "=" | SenseLe => Ok "<=" | SenseGe => Ok ">=" | SenseOther => Panic POther end.

(** scalar_constraint.go:233-242 *)
Definition sc_string (c : scalar_constraint) : res string :=
  _ <- check (sc_check c) PCheck ;;
  l <- scalar_string (sc_left c) ;;
  s <- sense_string (sc_sense c) ;;
  r <- scalar_string (sc_right c) ;;
  Ok (l ++ " " ++ s ++ " " ++ r).

End ModelString.
