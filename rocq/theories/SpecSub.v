(** * What substitution returns, term by term *)

From Coq Require Import ZArith NArith Bool List.
From Verif Require Import Num Syntax Spec SpecEffect SpecCollect.
Import ListNotations.

Section SpecSub.
Context {NN : Num}.
Local Open Scope num_scope.

Definition environments_agree (v w : var) : bool :=
  match v_env v, v_env w with
  | Some a, Some b => N.eqb a b
  | None, None => true
  | _, _ => false
  end.

(** what is put in place of the variable [w] when [v] is replaced by [e]: a variable with the same ID from another environment stays *)
Definition replaced (v : var) (e : scalar) (w : var) : scalar :=
  if N.eqb (v_id w) (v_id v) && environments_agree w v then e else SV w.

(** the factors of a term: its variables with their exponents *)
Definition factors (m : Monomial) : list (var * nat) := map (fun x => (fst x, Z.to_nat (snd x))) (combine (m_vars m) (m_exps m)).

(** a term in which every variable [w] is replaced by [image w]: its coefficient, multiplied on the right by one power after the other *)
Definition term_image (image : var -> scalar) (m : Monomial) : scalar :=
  fold_left (fun s x => multiplied s (powered (image (fst x)) (snd x))) (factors m) (SK (m_coeff m)).

(** the images of the terms, added from left to right *)
Definition added (l : list scalar) : scalar := fold_left (fun s t => simplest (summed s t)) l (SK n0).

(** Substitute: a term without the ID of [v] is left as it is *)
Definition term_substituted (v : var) (e : scalar) (m : Monomial) : scalar :=
  if existsb (fun w => N.eqb (v_id w) (v_id v)) (m_vars m) then term_image (replaced v e) m else SM m.
Definition substituted (v : var) (e : scalar) (s : scalar) : scalar :=
  match s with
  | SK k => SK k
  | SV w => replaced v e w
  | SM m => term_substituted v e m
  | SP p => added (map (term_substituted v e) p)
  end.

(** SubstituteAccordingTo *)
Definition mapped (image : var -> scalar) (s : scalar) : scalar :=
  match s with
  | SK k => SK k
  | SV w => image w
  | SM m => term_image image m
  | SP p => added (map (term_image image) p)
  end.

(** the same with everything multiplied out and nothing collected *)
Definition term_expansion (image : var -> scalar) (m : Monomial) : list Monomial :=
  fold_left (fun l x => expanded (SP l) (SP (expanded_power (image (fst x)) (snd x)))) (factors m) [mkMono (m_coeff m) [] []].
Definition expansion (image : var -> scalar) (s : scalar) : list Monomial := flat_map (term_expansion image) (terms s).

(** variables of [s] with the same ID have the same image *)
Definition consistent (image : var -> scalar) (s : scalar) : Prop :=
  forall m w m' w', In m (terms s) -> In w (m_vars m) -> In m' (terms s) -> In w' (m_vars m') -> v_id w = v_id w' -> image w = image w'.

End SpecSub.
