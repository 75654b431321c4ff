(** * Model of the scalar expressions: constant.go, variable.go, monomial.go, polynomial.go,
      scalar_expression.go and the helpers of utils.go.

    Conventions.  A Go method [T.Method] is the definition [t_method].  Every [panic(err)] after a
    failed [Check] is [check ... PCheck].  [Copy] methods are the identity here, because values are immutable in this model; slice
    sharing is the subject of the Heap files.  Indices returned as -1 are [None].  [int] is [Z], [uint64] is [N]. *)

From Coq Require Import ZArith NArith Bool List.
From Coq Require String.
From Verif Require Import Num Syntax.
Import ListNotations.
Local Open Scope num_scope.

Section ModelScalar.
Context {NN : Num}.

(** ** utils.go *)

(** utils.go:30-34, 51-55, 65-69, 84-89: the search loop of FindInSlice, which keeps the last hit *)
Fixpoint find_loop {A} (hit : A -> bool) (l : list A) (ix : nat) (loc : option nat) : option nat :=
  match l with
  | [] => loc
  | y :: l' => find_loop hit l' (S ix) (if hit y then Some ix else loc)
  end.

(** utils.go:12-102 FindInSlice on matching types; the type-mismatch errors are not modelled (no caller in the package triggers them) *)
Definition find_in_slice {A} (eqb : A -> A -> bool) (x : A) (l : list A) : option nat :=
  find_loop (eqb x) l 0 None.

(** utils.go:86: variables are compared by ID only *)
Definition same_id (v w : var) : bool := N.eqb (v_id v) (v_id w).

(** utils.go:73-91 *)
Definition find_var (v : var) (l : list var) : option nat := find_in_slice same_id v l.

(** utils.go:105-126 Unique.  The first iteration appends unconditionally. *)
Fixpoint unique_ids_loop (l : list N) (out : list N) : list N :=
  match l with
  | [] => out
  | x :: l' =>
      match find_in_slice N.eqb x out with
      | None => unique_ids_loop l' (out ++ [x])
      | Some _ => unique_ids_loop l' out
      end
  end.
Definition unique_ids (l : list N) : list N :=
  match l with [] => [] | x :: l' => unique_ids_loop l' [x] end.

(** variable.go:258-271 UniqueVars *)
Fixpoint unique_vars_loop (l : list var) (out : list var) : list var :=
  match l with
  | [] => out
  | v :: l' =>
      match find_var v out with
      | None => unique_vars_loop l' (out ++ [v])
      | Some _ => unique_vars_loop l' out
      end
  end.
Definition unique_vars (l : list var) : list var := unique_vars_loop l [].

(** variable.go:576-582 UnionOfVariables *)
Definition union_of_variables (ls : list (list var)) : list var := unique_vars (List.concat ls).

(** Go's == on the struct Variable (variable.go:12-20), used for map keys *)
Definition var_eqb (v w : var) : bool :=
  N.eqb (v_id v) (v_id w) && (v_lower v =? v_lower w) && (v_upper v =? v_upper w)
  && N.eqb (v_type v) (v_type w) && String.eqb (v_name v) (v_name w)
  && match v_env v, v_env w with
     | None, None => true
     | Some a, Some b => N.eqb a b
     | _, _ => false
     end.

(** ** Check methods *)

(** variable.go:359-370: an error iff Lower >= Upper *)
Definition var_check (v : var) : bool := negb (v_upper v <=? v_lower v).

(** monomial.go:27-38 *)
Definition mono_check (m : Monomial) : bool := Nat.eqb (length (m_exps m)) (length (m_vars m)).

(** polynomial.go:25-41 *)
Definition poly_check (p : Polynomial) : bool :=
  match p with [] => false | _ => forallb mono_check p end.

(** The Check method of the ScalarExpression interface; constant.go:26-28 for K *)
Definition scalar_check (s : scalar) : bool :=
  match s with
  | SK _ => true
  | SV v => var_check v
  | SM m => mono_check m
  | SP p => poly_check p
  end.

(** ** Conversions *)

(** constant.go:300-306 K.ToMonomial *)
Definition k_to_mono (k : num) : Monomial := mkMono k [] [].
(** variable.go:446-452 Variable.ToMonomial *)
Definition var_to_mono (v : var) : Monomial := mkMono n1 [1%Z] [v].
(** constant.go:309-313 *)
Definition k_to_poly (k : num) : Polynomial := [k_to_mono k].
(** variable.go:455-459 *)
Definition var_to_poly (v : var) : Polynomial := [var_to_mono v].
(** monomial.go:549-557 Monomial.ToPolynomial *)
Definition mono_to_poly (m : Monomial) : Polynomial := [m].

Definition set_coeff (m : Monomial) (c : num) : Monomial := mkMono c (m_exps m) (m_vars m).

(** ** Predicates of Monomial *)

(** monomial.go:370-379 IsConstant *)
Definition mono_is_constant (m : Monomial) : res bool :=
  _ <- check (mono_check m) PCheck ;;
  Ok (match m_vars m with [] => true | _ => false end).

(** monomial.go:382-391 IsZero *)
Definition mono_is_zero (m : Monomial) : res bool :=
  _ <- check (mono_check m) PCheck ;;
  Ok (m_coeff m =? n0).

(** monomial.go:395-422 IsDegreeOneContainingVariable *)
Definition mono_is_degree_one_in (m : Monomial) (v : var) : res bool :=
  _ <- check (mono_check m) PCheck ;;
  _ <- check (var_check v) PCheck ;;
  c <- mono_is_constant m ;;
  if c then Ok false
  else
    v0 <- index (m_vars m) 0 ;;
    e0 <- index (m_exps m) 0 ;;
    Ok (Nat.eqb (length (m_vars m)) 1 && same_id v0 v && Z.eqb e0 1).

(** monomial.go:425-440 IsVariable *)
Definition mono_is_variable (m : Monomial) (v : var) : res bool :=
  _ <- check (mono_check m) PCheck ;;
  _ <- check (var_check v) PCheck ;;
  b <- mono_is_degree_one_in m v ;;
  Ok (b && (m_coeff m =? n1)).

(** monomial.go:461-473, the loop of MatchesFormOf.  [es] and [es'] are the not yet visited parts of m.Exponents and mIn.Exponents:
    both are read at the same position [ii] (line 468). *)
Fixpoint matches_loop (vs : list var) (es es' : list Z) (vars_in : list var) : res bool :=
  match vs with
  | [] => Ok true
  | v :: vs' =>
      match find_var v vars_in with
      | None => Ok false
      | Some _ =>
          match es, es' with
          | e :: es1, e' :: es1' => if Z.eqb e e' then matches_loop vs' es1 es1' vars_in else Ok false
          | _, _ => Panic PRuntime
          end
      end
  end.

(** monomial.go:444-477 MatchesFormOf *)
Definition mono_matches_form (m mIn : Monomial) : res bool :=
  _ <- check (mono_check m) PCheck ;;
  _ <- check (mono_check mIn) PCheck ;;
  if Nat.eqb (length (m_vars m)) (length (m_vars mIn))
  then matches_loop (m_vars m) (m_exps m) (m_exps mIn) (m_vars mIn)
  else Ok false.

(** ** Degree *)

(** monomial.go:531-546 *)
Definition mono_degree (m : Monomial) : res Z :=
  _ <- check (mono_check m) PCheck ;;
  Ok (fold_left Z.add (m_exps m) 0%Z).

(** polynomial.go:605-620 *)
Definition poly_degree (p : Polynomial) : res Z :=
  _ <- check (poly_check p) PCheck ;;
  foldM (fun d m => dm <- mono_degree m ;; Ok (if Z.ltb d dm then dm else d)) 0%Z p.

(** constant.go:321, variable.go:485 *)
Definition scalar_degree (s : scalar) : res Z :=
  match s with
  | SK _ => Ok 0%Z
  | SV _ => Ok 1%Z
  | SM m => mono_degree m
  | SP p => poly_degree p
  end.

(** expression.go:129-138 IsLinear; all four scalar types are PolynomialLike *)
Definition scalar_is_linear (s : scalar) : res bool :=
  d <- scalar_degree s ;; Ok (Z.leb d 1).
(** expression.go:144-153 IsQuadratic *)
Definition scalar_is_quadratic (s : scalar) : res bool :=
  d <- scalar_degree s ;; Ok (Z.leb d 2).

(** ** Variables *)

(** polynomial.go:44-50 *)
Definition poly_variables (p : Polynomial) : list var := unique_vars (flat_map m_vars p).

(** constant.go:32, variable.go:23, monomial.go:42-44, polynomial.go:44-50 *)
Definition scalar_variables (s : scalar) : list var :=
  match s with
  | SK _ => []
  | SV v => [v]
  | SM m => m_vars m
  | SP p => poly_variables p
  end.

(** expression.go:81-90 VariableIDs *)
Definition scalar_variable_ids (s : scalar) : list N := map v_id (scalar_variables s).

(** ** Lookups in a polynomial *)

(** The first index at which [f] holds; [f] may panic *)
Fixpoint first_index {A} (f : A -> res bool) (l : list A) (ix : nat) : res (option nat) :=
  match l with
  | [] => Ok None
  | a :: l' => b <- f a ;; if b then Ok (Some ix) else first_index f l' (S ix)
  end.

(** polynomial.go:226-242 *)
Definition poly_constant_index (p : Polynomial) : res (option nat) :=
  _ <- check (poly_check p) PCheck ;;
  first_index mono_is_constant p 0.

(** polynomial.go:245-266 *)
Definition poly_variable_index (p : Polynomial) (v : var) : res (option nat) :=
  _ <- check (poly_check p) PCheck ;;
  _ <- check (var_check v) PCheck ;;
  first_index (fun m => mono_is_degree_one_in m v) p 0.

(** polynomial.go:270-291 *)
Definition poly_monomial_index (p : Polynomial) (mIn : Monomial) : res (option nat) :=
  _ <- check (poly_check p) PCheck ;;
  _ <- check (mono_check mIn) PCheck ;;
  first_index (fun m => mono_matches_form m mIn) p 0.

(** ** Constant *)

(** monomial.go:320-326 *)
Definition mono_constant (m : Monomial) : num :=
  match m_vars m with [] => m_coeff m | _ => n0 end.

(** polynomial.go:453-467 *)
Definition poly_constant (p : Polynomial) : res num :=
  _ <- check (poly_check p) PCheck ;;
  i <- poly_constant_index p ;;
  match i with
  | None => Ok n0
  | Some i => m <- index p i ;; Ok (m_coeff m)
  end.

(** constant.go:38, variable.go:29 *)
Definition scalar_constant (s : scalar) : res num :=
  match s with
  | SK k => Ok k
  | SV _ => Ok n0
  | SM m => Ok (mono_constant m)
  | SP p => poly_constant p
  end.

(** polynomial.go:666-675 *)
Definition poly_is_constant (p : Polynomial) : res bool :=
  _ <- check (poly_check p) PCheck ;;
  Ok (match poly_variables p with [] => true | _ => false end).

(** ** Simplification *)

(** polynomial.go:489-505: add the coefficient to the first existing monomial that matches, else append *)
Fixpoint add_like_term (acc : list Monomial) (m : Monomial) : res (list Monomial) :=
  match acc with
  | [] => Ok [m]
  | e :: acc' =>
      b <- mono_matches_form e m ;;
      if b then Ok (set_coeff e (m_coeff e + m_coeff m) :: acc')
      else r <- add_like_term acc' m ;; Ok (e :: r)
  end.

(** polynomial.go:485-507: the loop; [c] is constantMonomials.Coefficient *)
Fixpoint simplify_loop (p : list Monomial) (c : num) (acc : list Monomial) : res (num * list Monomial) :=
  match p with
  | [] => Ok (c, acc)
  | m :: p' =>
      b <- mono_is_constant m ;;
      if b then simplify_loop p' (c + m_coeff m) acc
      else acc' <- add_like_term acc m ;; simplify_loop p' c acc'
  end.

(** polynomial.go:472-530 Simplify *)
Definition poly_simplify (p : Polynomial) : res Polynomial :=
  _ <- check (poly_check p) PCheck ;;
  r <- simplify_loop p n0 [] ;;
  let '(c, nonconst) := r in
  let out := (if c =? n0 then [] else [k_to_mono c])
             ++ filter (fun m => negb (m_coeff m =? n0)) nonconst in
  Ok (match out with [] => [k_to_mono n0] | _ => out end).

(** monomial.go:561-580 ToVariable *)
Definition mono_to_variable (m : Monomial) : res var :=
  _ <- check (mono_check m) PCheck ;;
  match m_vars m with
  | [] => Panic POther
  | v0 :: _ => b <- mono_is_degree_one_in m v0 ;; if b then Ok v0 else Panic POther
  end.

(** monomial.go:728-764 Monomial.AsSimplifiedExpression *)
Definition mono_simplified (m : Monomial) : res scalar :=
  _ <- check (mono_check m) PCheck ;;
  c <- mono_is_constant m ;;
  if c then Ok (SK (m_coeff m))
  else if m_coeff m =? n0 then Ok (SK n0)
  else
    e0 <- index (m_exps m) 0 ;;
    v0 <- index (m_vars m) 0 ;;
    if (m_coeff m =? n1) && Nat.eqb (length (m_vars m)) 1 && Z.eqb e0 1 then Ok (SV v0)
    else if forallb (fun e => Z.eqb e 0) (m_exps m) then Ok (SK (m_coeff m))
    else Ok (SM m).

(** polynomial.go:534-557 Polynomial.AsSimplifiedExpression *)
Definition poly_simplified (p : Polynomial) : res scalar :=
  pr <- poly_simplify p ;;
  d <- poly_degree pr ;;
  if Z.eqb d 0 then c <- poly_constant pr ;; Ok (SK c)
  else
    as_var <-
      (if Z.eqb d 1 then
         match pr with
         | [m] =>
             v0 <- index (poly_variables pr) 0 ;;
             b <- mono_is_variable m v0 ;;
             if b then v <- mono_to_variable m ;; Ok (Some v) else Ok None
         | _ => Ok None
         end
       else Ok None) ;;
    match as_var with
    | Some v => Ok (SV v)
    | None => match pr with [m] => Ok (SM m) | _ => Ok (SP pr) end
    end.

(** The method AsSimplifiedExpression; constant.go:363, variable.go:585 *)
Definition scalar_simplified (s : scalar) : res scalar :=
  match s with
  | SK k => Ok (SK k)
  | SV v => Ok (SV v)
  | SM m => mono_simplified m
  | SP p => poly_simplified p
  end.

(** ** Plus *)

(** polynomial.go:92-109, 186: Polynomial.Plus(K) *)
Definition poly_plus_k (p : Polynomial) (k : num) : res scalar :=
  _ <- check (poly_check p) PCheck ;;
  i <- poly_constant_index p ;;
  match i with
  | None => poly_simplified (p ++ [k_to_mono k])
  | Some i =>
      m <- index p i ;;
      poly_simplified (set_nth i (set_coeff m (m_coeff m + k)) p)
  end.

(** polynomial.go:111-129, 186: Polynomial.Plus(Variable) *)
Definition poly_plus_var (p : Polynomial) (v : var) : res scalar :=
  _ <- check (poly_check p) PCheck ;;
  _ <- check (var_check v) PCheck ;;
  i <- poly_variable_index p v ;;
  match i with
  | None => poly_simplified (p ++ [var_to_mono v])
  | Some i =>
      m <- index p i ;;
      poly_simplified (set_nth i (set_coeff m (m_coeff m + n1)) p)
  end.

(** polynomial.go:133-139, 186: Polynomial.Plus(Polynomial) simplifies twice *)
Definition poly_plus_poly (p q : Polynomial) : res scalar :=
  _ <- check (poly_check p) PCheck ;;
  _ <- check (poly_check q) PCheck ;;
  out <- poly_simplified (p ++ q) ;;
  scalar_simplified out.

(** polynomial.go:131-132, 186: Polynomial.Plus(Monomial) *)
Definition poly_plus_mono (p : Polynomial) (m : Monomial) : res scalar :=
  _ <- check (poly_check p) PCheck ;;
  _ <- check (mono_check m) PCheck ;;
  out <- poly_plus_poly p (mono_to_poly m) ;;
  scalar_simplified out.

(** monomial.go:78-85, 117: Monomial.Plus(K) *)
Definition mono_plus_k (m : Monomial) (k : num) : res scalar :=
  _ <- check (mono_check m) PCheck ;;
  c <- mono_is_constant m ;;
  scalar_simplified (if c then SK (m_coeff m + k) else SP [m; k_to_mono k]).

(** monomial.go:86-95, 117: Monomial.Plus(Variable) *)
Definition mono_plus_var (m : Monomial) (v : var) : res scalar :=
  _ <- check (mono_check m) PCheck ;;
  _ <- check (var_check v) PCheck ;;
  b <- mono_is_degree_one_in m v ;;
  scalar_simplified (if b then SM (set_coeff m (m_coeff m + n1)) else SP [m; var_to_mono v]).

(** monomial.go:96-105, 117: Monomial.Plus(Monomial) *)
Definition mono_plus_mono (m r : Monomial) : res scalar :=
  _ <- check (mono_check m) PCheck ;;
  _ <- check (mono_check r) PCheck ;;
  b <- mono_matches_form m r ;;
  scalar_simplified (if b then SM (set_coeff m (m_coeff m + m_coeff r)) else SP [m; r]).

(** monomial.go:106-107, 117: Monomial.Plus(Polynomial) *)
Definition mono_plus_poly (m : Monomial) (p : Polynomial) : res scalar :=
  _ <- check (mono_check m) PCheck ;;
  _ <- check (poly_check p) PCheck ;;
  out <- poly_plus_mono p m ;;
  scalar_simplified out.

(** variable.go:87-93, 131: Variable.Plus(K) *)
Definition var_plus_k (v : var) (k : num) : res scalar :=
  _ <- check (var_check v) PCheck ;;
  poly_simplified [var_to_mono v; k_to_mono k].

(** variable.go:94-108, 131: Variable.Plus(Variable); the right operand is not checked *)
Definition var_plus_var (v r : var) : res scalar :=
  _ <- check (var_check v) PCheck ;;
  scalar_simplified
    (if same_id v r then SM (mkMono n2 [1%Z] [v]) else SP [var_to_mono v; var_to_mono r]).

(** variable.go:109-110, 131: Variable.Plus(Monomial) *)
Definition var_plus_mono (v : var) (m : Monomial) : res scalar :=
  _ <- check (var_check v) PCheck ;;
  out <- mono_plus_var m v ;;
  scalar_simplified out.

(** variable.go:111-112, 131: Variable.Plus(Polynomial) *)
Definition var_plus_poly (v : var) (p : Polynomial) : res scalar :=
  _ <- check (var_check v) PCheck ;;
  out <- poly_plus_var p v ;;
  scalar_simplified out.

(** constant.go:67-96: K.Plus on scalars *)
Definition k_plus (c : num) (r : scalar) : res scalar :=
  _ <- check (scalar_check r) PCheck ;;
  match r with
  | SK k => Ok (SK (c + k))
  | SV v => var_plus_k v c
  | SM m => mono_plus_k m c
  | SP p => poly_plus_k p c
  end.

Definition var_plus (v : var) (r : scalar) : res scalar :=
  match r with
  | SK k => var_plus_k v k
  | SV w => var_plus_var v w
  | SM m => var_plus_mono v m
  | SP p => var_plus_poly v p
  end.

Definition mono_plus (m : Monomial) (r : scalar) : res scalar :=
  match r with
  | SK k => mono_plus_k m k
  | SV v => mono_plus_var m v
  | SM r => mono_plus_mono m r
  | SP p => mono_plus_poly m p
  end.

Definition poly_plus (p : Polynomial) (r : scalar) : res scalar :=
  match r with
  | SK k => poly_plus_k p k
  | SV v => poly_plus_var p v
  | SM m => poly_plus_mono p m
  | SP q => poly_plus_poly p q
  end.

(** The method Plus with a ScalarExpression argument: dynamic dispatch on the receiver *)
Definition scalar_plus (s r : scalar) : res scalar :=
  match s with
  | SK c => k_plus c r
  | SV v => var_plus v r
  | SM m => mono_plus m r
  | SP p => poly_plus p r
  end.

(** ** Multiply *)

(** monomial.go:183-187: Monomial.Multiply(K) *)
Definition mono_mul_k (m : Monomial) (k : num) : res Monomial :=
  _ <- check (mono_check m) PCheck ;;
  Ok (set_coeff m (m_coeff m * k)).

Definition add_at (i : nat) (d : Z) (l : list Z) : list Z :=
  match nth_error l i with Some e => set_nth i (e + d)%Z l | None => l end.

(** monomial.go:188-197: Monomial.Multiply(Variable) *)
Definition mono_mul_var (m : Monomial) (v : var) : res Monomial :=
  _ <- check (mono_check m) PCheck ;;
  _ <- check (var_check v) PCheck ;;
  match find_var v (m_vars m) with
  | None => Ok (mkMono (m_coeff m) (m_exps m ++ [1%Z]) (m_vars m ++ [v]))
  | Some i => Ok (mkMono (m_coeff m) (add_at i 1%Z (m_exps m)) (m_vars m))
  end.

(** monomial.go:207-212 and 215-220: accumulate the exponents in multiDegree *)
Fixpoint degree_loop (vs : list var) (es : list Z) (variables : list var) (deg : list Z) : res (list Z) :=
  match vs with
  | [] => Ok deg
  | v :: vs' =>
      match find_var v variables, es with
      | Some i, e :: es' => degree_loop vs' es' variables (add_at i e deg)
      | _, _ => Panic PRuntime
      end
  end.

(** monomial.go:198-227: Monomial.Multiply(Monomial) *)
Definition mono_mul_mono (m r : Monomial) : res Monomial :=
  _ <- check (mono_check m) PCheck ;;
  _ <- check (mono_check r) PCheck ;;
  let variables := unique_vars (m_vars m ++ m_vars r) in
  d1 <- degree_loop (m_vars m) (m_exps m) variables (map (fun _ => 0%Z) variables) ;;
  d2 <- degree_loop (m_vars r) (m_exps r) variables d1 ;;
  Ok (mkMono (m_coeff m * m_coeff r) d2 variables).

(** polynomial.go:319-325, 375: Polynomial.Multiply(K) *)
Definition poly_mul_k (p : Polynomial) (k : num) : res scalar :=
  _ <- check (poly_check p) PCheck ;;
  q <- mapM (fun m => mono_mul_k m k) p ;;
  poly_simplified q.

(** polynomial.go:326-332, 375: Polynomial.Multiply(Variable) *)
Definition poly_mul_var (p : Polynomial) (v : var) : res scalar :=
  _ <- check (poly_check p) PCheck ;;
  _ <- check (var_check v) PCheck ;;
  q <- mapM (fun m => mono_mul_var m v) p ;;
  poly_simplified q.

(** polynomial.go:333-342, 375: Polynomial.Multiply(Monomial) *)
Definition poly_mul_mono (p : Polynomial) (r : Monomial) : res scalar :=
  _ <- check (poly_check p) PCheck ;;
  _ <- check (mono_check r) PCheck ;;
  q <- mapM (fun m => mono_mul_mono m r) p ;;
  poly_simplified q.

(** polynomial.go:343-355, 375: Polynomial.Multiply(Polynomial) *)
Definition poly_mul_poly (p q : Polynomial) : res scalar :=
  _ <- check (poly_check p) PCheck ;;
  _ <- check (poly_check q) PCheck ;;
  out <- foldM (fun acc m => t <- poly_mul_mono p m ;; scalar_plus acc t) (SK n0) q ;;
  scalar_simplified out.

(** variable.go:301-308, 349: Variable.Multiply(K) *)
Definition var_mul_k (v : var) (k : num) : res scalar :=
  _ <- check (var_check v) PCheck ;;
  mono_simplified (mkMono k [1%Z] [v]).

(** variable.go:309-324, 349: Variable.Multiply(Variable) *)
Definition var_mul_var (v r : var) : res scalar :=
  _ <- check (var_check v) PCheck ;;
  _ <- check (var_check r) PCheck ;;
  mono_simplified
    (if same_id r v then mkMono n1 [2%Z] [v] else mkMono n1 [1%Z; 1%Z] [v; r]).

(** variable.go:325-327, 349: Variable.Multiply(Monomial) *)
Definition var_mul_mono (v : var) (m : Monomial) : res scalar :=
  _ <- check (var_check v) PCheck ;;
  _ <- check (mono_check m) PCheck ;;
  out <- mono_mul_var m v ;;
  mono_simplified out.

(** variable.go:328-330, 349: Variable.Multiply(Polynomial) *)
Definition var_mul_poly (v : var) (p : Polynomial) : res scalar :=
  _ <- check (var_check v) PCheck ;;
  _ <- check (poly_check p) PCheck ;;
  out <- poly_mul_var p v ;;
  scalar_simplified out.

(** monomial.go:228-229: Monomial.Multiply(Polynomial) *)
Definition mono_mul_poly (m : Monomial) (p : Polynomial) : res scalar :=
  _ <- check (mono_check m) PCheck ;;
  _ <- check (poly_check p) PCheck ;;
  poly_mul_mono p m.

Definition as_SM (r : res Monomial) : res scalar := m <- r ;; Ok (SM m).

(** constant.go:245-278: K.Multiply on scalars *)
Definition k_mul (c : num) (r : scalar) : res scalar :=
  _ <- check (scalar_check r) PCheck ;;
  match r with
  | SK k => Ok (SK (c * k))
  | SV v => var_mul_k v c
  | SM m => as_SM (mono_mul_k m c)
  | SP p => poly_mul_k p c
  end.

Definition var_mul (v : var) (r : scalar) : res scalar :=
  match r with
  | SK k => var_mul_k v k
  | SV w => var_mul_var v w
  | SM m => var_mul_mono v m
  | SP p => var_mul_poly v p
  end.

Definition mono_mul (m : Monomial) (r : scalar) : res scalar :=
  match r with
  | SK k => as_SM (mono_mul_k m k)
  | SV v => as_SM (mono_mul_var m v)
  | SM r => as_SM (mono_mul_mono m r)
  | SP p => mono_mul_poly m p
  end.

Definition poly_mul (p : Polynomial) (r : scalar) : res scalar :=
  match r with
  | SK k => poly_mul_k p k
  | SV v => poly_mul_var p v
  | SM m => poly_mul_mono p m
  | SP q => poly_mul_poly p q
  end.

(** The method Multiply with a ScalarExpression argument *)
Definition scalar_mul (s r : scalar) : res scalar :=
  match s with
  | SK c => k_mul c r
  | SV v => var_mul v r
  | SM m => mono_mul m r
  | SP p => poly_mul p r
  end.

(** The method Multiply with a float64 argument: constant.go:266, variable.go:297 (simplified again at 349), monomial.go:179,
    polynomial.go:317 (simplified again at 375) *)
Definition scalar_mul_float (s : scalar) (f : num) : res scalar :=
  match s with
  | SK c => k_mul c (SK f)
  | SV v => out <- var_mul_k v f ;; scalar_simplified out
  | SM m => as_SM (mono_mul_k m f)
  | SP p => out <- poly_mul_k p f ;; scalar_simplified out
  end.

(** The method Plus with a float64 argument: constant.go:87, variable.go:83, monomial.go:76, polynomial.go:90 *)
Definition scalar_plus_float (s : scalar) (f : num) : res scalar :=
  match s with
  | SK c => k_plus c (SK f)
  | SV v => out <- var_plus_k v f ;; scalar_simplified out
  | SM m => out <- mono_plus_k m f ;; scalar_simplified out
  | SP p => out <- poly_plus_k p f ;; scalar_simplified out
  end.

(** ** Minus: expression.go:119-123 behind the checks of constant.go:125-141, variable.go:136-158,
    monomial.go:121-143, polynomial.go:190-212 *)
Definition scalar_minus (s r : scalar) : res scalar :=
  _ <- check (scalar_check s) PCheck ;;
  _ <- check (scalar_check r) PCheck ;;
  t <- scalar_mul_float r nm1 ;;
  scalar_plus s t.

(** ** Power: scalar_expression.go:147-167 ScalarPowerTemplate, called by constant.go:341-343, variable.go:547-549, monomial.go:696-698,
    polynomial.go:769-771 *)
Fixpoint power_loop (base : scalar) (n : nat) (result : scalar) : res scalar :=
  match n with
  | O => Ok result
  | S n' => r <- scalar_mul result base ;; power_loop base n' r
  end.
Definition scalar_power (base : scalar) (exponent : Z) : res scalar :=
  _ <- check (scalar_check base) PCheck ;;
  _ <- check (Z.leb 0 exponent) PNegExp ;;
  power_loop base (Z.to_nat exponent) (SK n1).

(** ** DerivativeWrt (as a function of values; see Heap.v for its effect on memory) *)

Fixpoint remove_nth {A} (i : nat) (l : list A) : list A :=
  match l, i with
  | [], _ => []
  | _ :: l', O => l'
  | a :: l', S i' => a :: remove_nth i' l'
  end.

(** monomial.go:484-528 *)
Definition mono_derivative (m : Monomial) (v : var) : res scalar :=
  _ <- check (mono_check m) PCheck ;;
  _ <- check (var_check v) PCheck ;;
  match find_var v (m_vars m) with
  | None => Ok (SK n0)
  | Some i =>
      e <- index (m_exps m) i ;;
      if Z.eqb e 1 && Nat.eqb (length (m_vars m)) 1 then Ok (SK (m_coeff m))
      else if Z.eqb e 1 then Ok (SM (mkMono (m_coeff m) (remove_nth i (m_exps m)) (remove_nth i (m_vars m))))
      else Ok (SM (mkMono (m_coeff m * nofZ e) (set_nth i (e - 1)%Z (m_exps m)) (m_vars m)))
  end.

(** polynomial.go:574-594: the loop *)
Fixpoint derivative_loop (p : list Monomial) (v : var) : res (list Monomial) :=
  match p with
  | [] => Ok []
  | m :: p' =>
      c <- mono_is_constant m ;;
      if c then derivative_loop p' v
      else
        d <- mono_derivative m v ;;
        match d with
        | SM dm => r <- derivative_loop p' v ;; Ok (dm :: r)
        | SK k =>
            if k =? n0 then derivative_loop p' v
            else r <- derivative_loop p' v ;; Ok (k_to_mono k :: r)
        | _ => Panic POther
        end
  end.

(** polynomial.go:560-602 *)
Definition poly_derivative (p : Polynomial) (v : var) : res scalar :=
  _ <- check (poly_check p) PCheck ;;
  _ <- check (var_check v) PCheck ;;
  d <- derivative_loop p v ;;
  Ok (match d with [] => SK n0 | _ => SP d end).

(** variable.go:464-482 *)
Definition var_derivative (w v : var) : res scalar :=
  _ <- check (var_check w) PCheck ;;
  _ <- check (var_check v) PCheck ;;
  Ok (SK (if same_id w v then n1 else n0)).

(** constant.go:316-318 *)
Definition scalar_derivative (s : scalar) (v : var) : res scalar :=
  match s with
  | SK _ => Ok (SK n0)
  | SV w => var_derivative w v
  | SM m => mono_derivative m v
  | SP p => poly_derivative p v
  end.

(** ** Substitute *)

Definition env_eqb (a b : option N) : bool :=
  match a, b with None, None => true | Some x, Some y => N.eqb x y | _, _ => false end.

(** variable.go:495-523: both the ID and the environment must agree *)
Definition var_substitute (v vIn : var) (e : scalar) : res scalar :=
  _ <- check (var_check v) PCheck ;;
  _ <- check (var_check vIn) PCheck ;;
  _ <- check (scalar_check e) PCheck ;;
  Ok (if same_id v vIn && env_eqb (v_env v) (v_env vIn) then e else SV v).

(** The product loops monomial.go:659-661 and 685-689; [sub] substitutes in one factor *)
Fixpoint subst_loop (sub : var -> res scalar) (vs : list var) (es : list Z) (prod : scalar) : res scalar :=
  match vs with
  | [] => Ok prod
  | v :: vs' =>
      match es with
      | e :: es' =>
          b <- sub v ;;
          pw <- scalar_power b e ;;
          prod' <- scalar_mul prod pw ;;
          subst_loop sub vs' es' prod'
      | [] => Panic PRuntime
      end
  end.

(** monomial.go:630-665 *)
Definition mono_substitute (m : Monomial) (vIn : var) (e : scalar) : res scalar :=
  _ <- check (mono_check m) PCheck ;;
  _ <- check (var_check vIn) PCheck ;;
  _ <- check (scalar_check e) PCheck ;;
  match find_var vIn (m_vars m) with
  | None => Ok (SM m)
  | Some _ => subst_loop (fun v => var_substitute v vIn e) (m_vars m) (m_exps m) (SK (m_coeff m))
  end.

(** polynomial.go:718-743 *)
Definition poly_substitute (p : Polynomial) (vIn : var) (e : scalar) : res scalar :=
  _ <- check (poly_check p) PCheck ;;
  _ <- check (var_check vIn) PCheck ;;
  _ <- check (scalar_check e) PCheck ;;
  out <- foldM (fun acc m => t <- mono_substitute m vIn e ;; scalar_plus acc t) (SK n0) p ;;
  scalar_simplified out.

(** constant.go:331-333 *)
Definition scalar_substitute (s : scalar) (vIn : var) (e : scalar) : res scalar :=
  match s with
  | SK k => Ok (SK k)
  | SV v => var_substitute v vIn e
  | SM m => mono_substitute m vIn e
  | SP p => poly_substitute p vIn e
  end.

(** ** SubstituteAccordingTo.  A map[Variable]Expression is an association list whose keys are pairwise different
    under struct equality; its order is the iteration order. *)
Definition submap := list (var * expr).

(** utils.go:151-189 CheckSubstitutionMap: keys valid, values valid and scalar.  The failing cases all lead the callers to panic
    with the returned error. *)
Definition check_submap (sm : submap) : bool :=
  forallb (fun kv => var_check (fst kv) && match snd kv with ES s => scalar_check s | _ => false end) sm.

(** subMap[v] *)
Fixpoint lookup (sm : submap) (v : var) : option expr :=
  match sm with
  | [] => None
  | (k, e) :: sm' => if var_eqb v k then Some e else lookup sm' v
  end.

(** variable.go:526-544.  The check has established that the value is a scalar. *)
Definition var_substitute_map (v : var) (sm : submap) : res scalar :=
  _ <- check (var_check v) PCheck ;;
  _ <- check (check_submap sm) PCheck ;;
  match lookup sm v with
  | Some (ES s) => Ok s
  | Some _ => Panic PRuntime
  | None => Ok (SV v)
  end.

(** monomial.go:668-693 *)
Definition mono_substitute_map (m : Monomial) (sm : submap) : res scalar :=
  _ <- check (mono_check m) PCheck ;;
  _ <- check (check_submap sm) PCheck ;;
  subst_loop (fun v => var_substitute_map v sm) (m_vars m) (m_exps m) (SK (m_coeff m)).

(** polynomial.go:746-766 (the result is not simplified again) *)
Definition poly_substitute_map (p : Polynomial) (sm : submap) : res scalar :=
  _ <- check (poly_check p) PCheck ;;
  _ <- check (check_submap sm) PCheck ;;
  foldM (fun acc m => t <- mono_substitute_map m sm ;; scalar_plus acc t) (SK n0) p.

(** constant.go:336-338 *)
Definition scalar_substitute_map (s : scalar) (sm : submap) : res scalar :=
  match s with
  | SK k => Ok (SK k)
  | SV v => var_substitute_map v sm
  | SM m => mono_substitute_map m sm
  | SP p => poly_substitute_map p sm
  end.

(** ** LinearCoeff.  [wrt] is the variadic argument, a list of variable lists. *)

(** constant_vector.go:404-412 ZerosVector; gonum's NewVecDense panics on length 0 *)
Definition zeros_vector (n : nat) : res (list num) :=
  match n with O => Panic PGonum | _ => Ok (repeat n0 n) end.

Definition wrt_vars (dflt : list var) (wrt : list (list var)) : res (list var) :=
  match wrt with
  | [] => Ok dflt
  | [w] => Ok w
  | _ => Panic POther
  end.

(** constant.go:44-64: extra arguments are ignored *)
Definition k_linear_coeff (wrt : list (list var)) : res (list num) :=
  let w := match wrt with [] => [] | w :: _ => w end in
  match w with
  | [] => Panic PNoLinearCoeff
  | _ => zeros_vector (length w)
  end.

(** variable.go:35-69 *)
Definition var_linear_coeff (v : var) (wrt : list (list var)) : res (list num) :=
  _ <- check (var_check v) PCheck ;;
  w <- wrt_vars [v] wrt ;;
  match w with
  | [] => Panic PNoLinearCoeff
  | _ => Ok (map (fun x => if same_id v x then n1 else n0) w)
  end.

(** monomial.go:330-367.  SetVec with a negative index panics in gonum. *)
Definition mono_linear_coeff (m : Monomial) (wrt : list (list var)) : res (list num) :=
  _ <- check (mono_check m) PCheck ;;
  w <- wrt_vars (m_vars m) wrt ;;
  match w with
  | [] => Panic PNoLinearCoeff
  | _ =>
      z <- zeros_vector (length w) ;;
      lin <- scalar_is_linear (SM m) ;;
      if lin : bool then
        v0 <- index (m_vars m) 0 ;;
        match find_var v0 w with
        | None => Panic PGonum
        | Some i => Ok (set_nth i (m_coeff m) z)
        end
      else Ok z
  end.

(** polynomial.go:653-659: one coefficient *)
Definition poly_linear_coeff_at (p : Polynomial) (x : var) : res num :=
  i <- poly_variable_index p x ;;
  match i with
  | None => Ok n0
  | Some i => m <- index p i ;; Ok (m_coeff m)
  end.

(** polynomial.go:626-662 *)
Definition poly_linear_coeff (p : Polynomial) (wrt : list (list var)) : res (list num) :=
  _ <- check (poly_check p) PCheck ;;
  w <- wrt_vars (poly_variables p) wrt ;;
  match w with
  | [] => Panic PNoLinearCoeff
  | _ => mapM (poly_linear_coeff_at p) w
  end.

Definition scalar_linear_coeff (s : scalar) (wrt : list (list var)) : res (list num) :=
  match s with
  | SK _ => k_linear_coeff wrt
  | SV v => var_linear_coeff v wrt
  | SM m => mono_linear_coeff m wrt
  | SP p => poly_linear_coeff p wrt
  end.

(** ** At: constant.go:350-360, variable.go:555-572, monomial.go:702-716, polynomial.go:777-792 with
    smErrors/out_of_bounds_error.go:60-81 for dimensions (1,1) *)
Definition scalar_at (s : scalar) (i j : Z) : res scalar :=
  _ <- check (scalar_check s) PCheck ;;
  _ <- check (Z.eqb i 0 && Z.eqb j 0) PIndex ;;
  Ok s.

(** Transpose: constant.go:295, variable.go:373, monomial.go:239-247, polynomial.go:379-387 *)
Definition scalar_transpose (s : scalar) : res scalar :=
  match s with
  | SK _ | SV _ => Ok s
  | SM m => _ <- check (mono_check m) PCheck ;; Ok s
  | SP p => _ <- check (poly_check p) PCheck ;; Ok s
  end.

End ModelScalar.
