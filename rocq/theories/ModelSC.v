(** * Model of scalar_constraint.go and of the constraint helpers of constraint.go that scalar constraints use *)

From Coq Require Import ZArith NArith Bool List.
From Verif Require Import Num Syntax ModelScalar.
Import ListNotations.
Local Open Scope num_scope.

Section ModelSC.
Context {NN : Num}.

(** constr_sense.go:32-43 *)
Definition sense_check (s : sense) : bool := match s with SenseOther => false | _ => true end.

(** Go's == on senses; two bytes outside the three senses are not distinguished here, they never pass Check *)
Definition sense_eqb (a b : sense) : bool :=
  match a, b with
  | SenseLe, SenseLe | SenseGe, SenseGe | SenseEq, SenseEq | SenseOther, SenseOther => true
  | _, _ => false
  end.

(** scalar_constraint.go:65-86 *)
Definition sc_check (c : scalar_constraint) : bool :=
  scalar_check (sc_left c) && scalar_check (sc_right c) && sense_check (sc_sense c).

(** scalar_constraint.go:31-33 *)
Definition sc_is_linear (c : scalar_constraint) : res bool :=
  r <- scalar_is_linear (sc_right c) ;;
  if r : bool then scalar_is_linear (sc_left c) else Ok false.

(** scalar_constraint.go:37-57; AsSimplifiedConstraint 245-247 is the same function *)
Definition sc_simplify (c : scalar_constraint) : res scalar_constraint :=
  match sc_right c with
  | SK _ => Ok c
  | r =>
      d <- scalar_minus (sc_left c) r ;;
      k <- scalar_constant r ;;
      lhs <- scalar_plus_float d k ;;
      k' <- scalar_constant r ;;
      Ok (mkSC lhs (SK k') (sc_sense c))
  end.

(** scalar_constraint.go:99-113 and 148-162: the panic on nonlinear constraints *)
Definition sc_require_linear (c : scalar_constraint) : res unit :=
  lin <- sc_is_linear c ;;
  if lin : bool then Ok tt
  else
    l <- scalar_is_linear (sc_left c) ;;
    _ <- check l PLinearRequired ;;
    r <- scalar_is_linear (sc_right c) ;;
    check r PLinearRequired.

(** scalar_constraint.go:126, 179 *)
Definition sc_rhs (c : scalar_constraint) : res num :=
  r <- scalar_constant (sc_right c) ;;
  l <- scalar_constant (sc_left c) ;;
  Ok (r - l).

(** scalar_constraint.go:91-135; ScaleVec multiplies every entry by the factor *)
Definition sc_linear_inequality (c : scalar_constraint) (wrt : list (list var)) : res (list num * num) :=
  _ <- check (sc_check c) PCheck ;;
  _ <- sc_require_linear c ;;
  d <- scalar_minus (sc_left c) (sc_right c) ;;
  a <- scalar_linear_coeff d wrt ;;
  let a := if sense_eqb (sc_sense c) SenseGe then map (fun x => nm1 * x) a else a in
  b <- sc_rhs c ;;
  Ok (a, if sense_eqb (sc_sense c) SenseGe then - b else b).

(** scalar_constraint.go:140-184 *)
Definition sc_linear_equality (c : scalar_constraint) (wrt : list (list var)) : res (list num * num) :=
  _ <- check (sc_check c) PCheck ;;
  _ <- sc_require_linear c ;;
  _ <- check (sense_eqb (sc_sense c) SenseEq) PEqRequired ;;
  d <- scalar_minus (sc_left c) (sc_right c) ;;
  a <- scalar_linear_coeff d wrt ;;
  b <- sc_rhs c ;;
  Ok (a, b).

(** scalar_constraint.go:188-207 *)
Definition sc_substitute (c : scalar_constraint) (v : var) (e : scalar) : res scalar_constraint :=
  _ <- check (sc_check c) PCheck ;;
  l <- scalar_substitute (sc_left c) v e ;;
  r <- scalar_substitute (sc_right c) v e ;;
  Ok (mkSC l r (sc_sense c)).

(** scalar_constraint.go:211-230 *)
Definition sc_substitute_map (c : scalar_constraint) (sm : list (var * expr)) : res scalar_constraint :=
  _ <- check (sc_check c) PCheck ;;
  l <- scalar_substitute_map (sc_left c) sm ;;
  r <- scalar_substitute_map (sc_right c) sm ;;
  Ok (mkSC l r (sc_sense c)).

(** scalar_constraint.go:256-285 *)
Definition sc_scale_by (c : scalar_constraint) (f : num) : res scalar_constraint :=
  _ <- check (sc_check c) PCheck ;;
  l <- scalar_mul_float (sc_left c) f ;;
  r <- scalar_mul_float (sc_right c) f ;;
  Ok (mkSC l r
        (if f <? n0
         then match sc_sense c with SenseLe => SenseGe | SenseGe => SenseLe | s => s end
         else sc_sense c)).

(** constraint.go:57, 66-73: the keys of the map varsMap, in order of insertion; keys are compared with == on the whole struct *)
Fixpoint insert_keys (l : list var) (keys : list var) : list var :=
  match l with
  | [] => keys
  | v :: l' => insert_keys l' (if existsb (var_eqb v) keys then keys else keys ++ [v])
  end.

(** constraint.go:55-82 VariablesInThisConstraint on a scalar constraint, also called Variables (scalar_constraint.go:250-252).  [order] is the order in which the Go runtime
    iterates over the map in this call: any permutation. *)
Definition sc_variables (order : list var -> list var) (c : scalar_constraint) : res (list var) :=
  _ <- check (sc_check c) PCheck ;;
  Ok (order (insert_keys (scalar_variables (sc_right c)) (insert_keys (scalar_variables (sc_left c)) []))).

(** A family of iteration orders, one per call *)
Definition orders := nat -> list var -> list var.

(** scalar_constraint.go:337-380 *)
Definition sc_compare_bounds (s1 s2 : sense) (b1 b2 : num) : res bool :=
  match s1 with
  | SenseLe => match s2 with SenseLe => Ok (b1 <=? b2) | _ => Ok false end
  | SenseGe => match s2 with SenseGe => Ok (b2 <=? b1) | _ => Ok false end
  | SenseEq => match s2 with
               | SenseEq => Ok (b1 =? b2)
               | SenseLe => Ok (b1 <=? b2)
               | SenseGe => Ok (b2 <=? b1)
               | SenseOther => Ok false
               end
  | SenseOther => Panic POther
  end.

(** scalar_constraint.go:288-393 ImpliesThisIsAlsoSatisfied with a scalar constraint as argument.  Short-circuit evaluation of && on line 310
    is kept: the second call of Variables is made only if the first list has length 1. *)
Definition sc_implies (o : orders) (c other : scalar_constraint) : res bool :=
  _ <- check (sc_check c) PCheck ;;
  _ <- check (sc_check other) PCheck ;;
  c <- sc_simplify c ;;
  other <- sc_simplify other ;;
  v1 <- sc_variables (o 0) c ;;
  one <- (if Nat.eqb (length v1) 1
          then v2 <- sc_variables (o 1) other ;; Ok (Nat.eqb (length v2) 1)
          else Ok false) ;;
  u1 <- sc_variables (o 2) c ;;
  u2 <- sc_variables (o 3) other ;;
  if one && Nat.eqb (length (union_of_variables [u1; u2])) 1 then
    w1 <- sc_variables (o 4) c ;;
    a1 <- scalar_linear_coeff (sc_left c) [w1] ;;
    x1 <- index a1 0 ;;
    w2 <- sc_variables (o 5) other ;;
    a2 <- scalar_linear_coeff (sc_left other) [w2] ;;
    x2 <- index a2 0 ;;
    c <- sc_scale_by c (n1 / x1) ;;
    other <- sc_scale_by other (n1 / x2) ;;
    if sense_eqb (sc_sense c) (sc_sense other) || sense_eqb (sc_sense c) SenseEq || sense_eqb (sc_sense other) SenseEq then
      (* the constants of the right hand sides are computed in the branch that needs them; they cannot panic there *)
      b1 <- scalar_constant (sc_right c) ;;
      b2 <- scalar_constant (sc_right other) ;;
      sc_compare_bounds (sc_sense c) (sc_sense other) b1 b2
    else Ok false
  else Ok false.

(** scalar_constraint.go:398-448 *)
Definition sc_is_nonnegativity (o : orders) (c : scalar_constraint) : res bool :=
  _ <- check (sc_check c) PCheck ;;
  s <- sc_simplify c ;;
  v <- sc_variables (o 0) s ;;
  if negb (Nat.eqb (length v) 1) then Ok false
  else
    d <- scalar_degree (sc_left s) ;;
    if negb (Z.eqb d 1) then Ok false
    else
      match sc_right s with
      | SK k =>
          if negb (k =? n0) then Ok false
          else
            a <- scalar_linear_coeff (sc_left s) [] ;;
            x <- index a 0 ;;
            Ok (((n0 <? x) && sense_eqb (sc_sense s) SenseGe) || ((x <? n0) && sense_eqb (sc_sense s) SenseLe))
      | _ => Panic PRuntime
      end.

End ModelSC.
