(** * Witnesses for the theorems on exact float64 arithmetic of vectors and matrices *)

From Coq Require Import ZArith NArith Bool List Lia Permutation.
From Coq Require Import QArith Qcanon.
From Coq.Floats Require Import SpecFloat.
From Verif Require Import Num Syntax ModelScalar ModelSC Spec SpecProg SpecExact Base ScalarValid FloatProg ModelShape ModelArith SpecArr ModelConstr SpecCon SpecAProg ModelAProg AProgTop AProgWit
  SpecExactArr FloatArr FloatARun FloatATop Witness ScalarWit ArrWit ExactWit.
Import ListNotations.
Local Open Scope Z_scope.

Section W.
Local Existing Instance F64Num.

(** 0.5 2; 3 0.25 *)
Definition w_H : list (list num) := [[w_half; nofZ 2]; [nofZ 3; w_quarter]].
Definition w_xs : list var := [wx; wy].
(** x' H x *)
Definition w_hq : aprog := quadratic_form w_xs w_H.
(** ((H x) beside (H x + (0.25, 6))) above H *)
Definition w_hstack : aprog :=
  AAbove (ABeside (ATimes (ALeaf (EM (MK w_H))) (ALeaf (EV (VV w_xs)))) (ASimplified (APlus (ATimes (ALeaf (EM (MK w_H))) (ALeaf (EV (VV w_xs)))) (ALeaf (EV (VK [w_quarter; nofZ 6]))))))
         (ALeaf (EM (MK w_H))).
(** the third power of (x 0.5x; x x) *)
Definition w_hcube : aprog := APower (AMinus (ALeaf (EM (MV [[wx; wx]; [wx; wx]]))) (ALeaf (EM (MK w_H)))) 3.
(** (2^53 1; 1 1) (x, x) *)
Definition w_big : list (list num) := [[nofZ (2 ^ 53); nofZ 1]; [nofZ 1; nofZ 1]].
Definition w_bigp : aprog := ATimes (ALeaf (EM (MK w_big))) (ALeaf (EV (VV [wx; wx]))).

Definition numb (c : spec_float) : bool := valid_binary 53 1024 c && match c with S754_nan => false | _ => true end.
Definition finb (c : spec_float) : bool := match c with S754_infinity _ => false | _ => true end.
Definition nvarb (v : var) : bool := numb (v_lower v) && numb (v_upper v).
Definition fnb (s : scalar) : bool := forallb (fun m : Monomial => forallb nvarb (m_vars m) && numb (m_coeff m) && finb (m_coeff m)) (terms s).
Definition hereb (p : aprog) : bool := Z.leb (abits p) 1000 && Z.leb (aweight p) (2 ^ 53) && match p with ALeaf e => forallb (forallb fnb) (rows e) | _ => true end.

Lemma numb_spec c : numb c = true -> SpecExact.numeric c.
Proof. unfold numb. intro H. apply andb_prop in H as [H1 H2]. split; [exact H1|]. intros ->. discriminate. Qed.
Lemma nvarb_spec v : nvarb v = true -> numeric_var v.
Proof. unfold nvarb. intro H. apply andb_prop in H as [H1 H2]. split; apply numb_spec; assumption. Qed.
Lemma fnb_spec s : fnb s = true -> finite_numeric s.
Proof.
  unfold fnb, finite_numeric. rewrite forallb_forall. intros H m Hm. specialize (H m Hm). apply andb_prop in H as [H H3]. apply andb_prop in H as [H1 H2]. rewrite forallb_forall in H1.
  split; [intros w Hw; apply nvarb_spec; auto|]. split; [apply numb_spec; exact H2|]. intros g E. rewrite E in H3. discriminate.
Qed.
Lemma hereb_spec p : hereb p = true -> afits_here p.
Proof.
  unfold hereb, afits_here. intro H. apply andb_prop in H as [H H3]. apply andb_prop in H as [H1 H2]. apply Z.leb_le in H1, H2. split; [exact H1|]. split; [exact H2|].
  destruct p; try exact I. rewrite forallb_forall in H3. apply Forall_forall. intros r Hr. specialize (H3 r Hr). rewrite forallb_forall in H3. apply Forall_forall. intros s Hs. apply fnb_spec. auto.
Qed.
Lemma afits_by p : everyb hereb p = true -> afits p.
Proof. apply everyb_spec. exact hereb_spec. Qed.
Lemma proper_by p : everyb leafb p = true -> proper_leaves p.
Proof. apply everyb_spec. exact leafb_spec. Qed.
Ltac wb := first [apply afits_by | apply proper_by]; vm_compute; reflexivity.

Lemma wit_hstack : proper_leaves w_hstack /\ afits w_hstack /\ adegree w_hstack <= 2 /\ adims w_hstack = Some (4, 2)%nat /\ exists e, arun w_hstack = Ok e.
Proof. split; [wb|]. split; [wb|]. split; [apply Z.leb_le; vm_compute; reflexivity|]. split; [vm_compute; reflexivity|]. apply ok_ex. vm_compute. reflexivity. Qed.
Lemma wit_hcube : proper_leaves w_hcube /\ afits w_hcube /\ leaves_only 0 w_hcube /\ dims_of w_hcube = (2, 2)%nat /\ exists e, arun w_hcube = Ok e.
Proof.
  split; [wb|]. split; [wb|]. split; [|split; [vm_compute; reflexivity | apply ok_ex; vm_compute; reflexivity]].
  apply (everyb_spec (fun p => match p with ALeaf e => onlyb 0 e | _ => true end)); [|vm_compute; reflexivity]. intros [e| | | | | | | |] H; try exact I. apply onlyb_spec. exact H.
Qed.

Definition short_numb (k w : Z) (c : spec_float) : bool := numb c && finb c && Z.leb (snd (written c)) k && Z.leb (fst (written c) * 2 ^ (k - snd (written c))) w.
Lemma short_numb_spec k w c : 0 <= k <= 1000 -> w <= 2 ^ 53 -> short_numb k w c = true -> short k w (SK c).
Proof.
  intros Hk Hw H. unfold short_numb in H. apply andb_prop in H as [H H4]. apply andb_prop in H as [H H3]. apply andb_prop in H as [H1 H2]. apply Z.leb_le in H3, H4. destruct (written_nonneg c) as [W1 W2].
  set (z := fst (written c)) in *. set (j := snd (written c)) in *. assert (P : 1 <= 2 ^ (k - j)) by (change 1 with (Z.succ 0); apply Z.le_succ_l; apply Z.pow_pos_nonneg; lia).
  apply sc_short; [lia|]. apply (sc_raise k (z * 2 ^ (k - j))); [exact H4|]. apply sc_to; [lia | lia|]. apply written_short; [apply numb_spec; exact H1 | intros s E; rewrite E in H2; discriminate | lia | change (z <= 2 ^ 53); nia].
Qed.
Lemma short_rowsb_spec k w A : 0 <= k <= 1000 -> w <= 2 ^ 53 -> forallb (forallb (short_numb k w)) A = true -> Forall (Forall (fun c => short k w (SK c))) A.
Proof.
  intros Hk Hw H. rewrite forallb_forall in H. apply Forall_forall. intros r Hr. specialize (H r Hr). rewrite forallb_forall in H. apply Forall_forall. intros c Hc. apply short_numb_spec; auto.
Qed.

Lemma w_xs_valid : Forall valid_var w_xs.
Proof. apply Forall_forall. intros v Hv. apply (proj1 (var_check_valid _)). destruct Hv as [<-|[<-|[]]]; vm_compute; reflexivity. Qed.
Lemma w_xs_numeric : Forall numeric_var w_xs.
Proof. apply Forall_forall. intros v Hv. apply nvarb_spec. destruct Hv as [<-|[<-|[]]]; vm_compute; reflexivity. Qed.
Lemma wit_hq : length w_xs = 2%nat /\ Forall valid_var w_xs /\ Forall numeric_var w_xs /\ dense_shape (2, 2)%nat w_H /\ Forall (Forall (fun c => short 2 12 (SK c))) w_H.
Proof.
  split; [reflexivity|]. split; [exact w_xs_valid|]. split; [exact w_xs_numeric|]. split; [split; [reflexivity | repeat constructor]|]. apply short_rowsb_spec; [lia | lia | vm_compute; reflexivity].
Qed.
Lemma wit_hcon : length w_xs = 2%nat /\ Forall valid_var w_xs /\ Forall numeric_var w_xs /\ NoDup (map v_id w_xs) /\ dense_shape (2, 2)%nat w_H
  /\ @no_zero_row QNum 2 2 (map (map exactly) w_H) /\ Forall (Forall (fun c => short 2 24 (SK c))) w_H /\ Forall (fun c => short 2 24 (SK c)) [w_quarter; nofZ 6].
Proof.
  split; [reflexivity|]. split; [exact w_xs_valid|]. split; [exact w_xs_numeric|]. split; [apply nodupb_spec; vm_compute; reflexivity|]. split; [split; [reflexivity | repeat constructor]|]. split.
  - intros [|[|i]] Hi; [exists 0%nat | exists 0%nat | lia]; (split; [lia|]); intro E; apply (f_equal (fun q : Qc => Qnum (this q))) in E; vm_compute in E; discriminate.
  - split; [apply short_rowsb_spec; [lia | lia | vm_compute; reflexivity]|]. apply Forall_forall. intros c Hc. apply short_numb_spec; [lia | lia|]. destruct Hc as [<-|[<-|[]]]; vm_compute; reflexivity.
Qed.
Lemma wit_hops : valid_array (2, 2)%nat (EM (MK w_H)) /\ short_array 2 12 (EM (MK w_H)) /\ short_operand 2 24 (GVec [w_quarter; nofZ 6]).
Proof.
  split; [apply arrayb_spec; vm_compute; reflexivity|]. split.
  - unfold short_array. cbn [rows]. rewrite Forall_map. eapply Forall_impl; [|exact (short_rowsb_spec 2 12 w_H ltac:(lia) ltac:(lia) ltac:(vm_compute; reflexivity))]. intros r Hr. rewrite Forall_map. exact Hr.
  - apply wit_hcon.
Qed.
Lemma wit_hvc : short_array 2 24 (EV (VK [w_quarter; nofZ 6])) /\ short_array 2 24 (EV (VV w_xs)) /\ numeric_lists [w_xs].
Proof.
  split; [|split].
  - unfold short_array. cbn [rows]. pose proof wit_hcon as (_ & _ & _ & _ & _ & _ & _ & H). rewrite Forall_map. eapply Forall_impl; [|exact H]. intros c Hc. constructor; [exact Hc | constructor].
  - apply ax_short_array; [lia|]. pose proof (vars_ax 2 w_xs ltac:(lia) w_xs_numeric) as H. unfold ax, av in *. cbn [vec_entries] in *. eapply Forall_impl; [|exact H]. intros s. apply sc_raise. lia.
  - intros l w [<-|[]] Hw. pose proof w_xs_numeric as H. rewrite Forall_forall in H. auto.
Qed.
Lemma wit_horder : Forall (fun x => short 2 24 (SK x)) [w_quarter; nofZ 6]
  /\ Permutation (products (Together (Product (nofZ 6) w_quarter) (Together Nothing (Product w_quarter (nofZ 6))))) (combine [w_quarter; nofZ 6] [nofZ 6; w_quarter]).
Proof. split; [apply wit_hcon|]. cbn [products app combine]. apply perm_swap. Qed.
End W.

Definition differb (e : @expr F64Num) (e' : @expr QNum) : bool :=
  match e, e' with EV (VM (x :: _)), EV (VM (y :: _)) => negb (Z.eqb (Qnum (this (m_coeff y))) (Qnum (this (exactly (m_coeff x))))) | _, _ => false end.
Lemma differb_same e : differb e (exact_expr e) = false.
Proof. destruct e as [s|[l|l|[|y l]|l]|m]; try reflexivity. cbn [differb exact_expr exact_vector map exact_mono m_coeff]. rewrite Z.eqb_refl. reflexivity. Qed.
Definition run_differb (x : res (@expr F64Num)) (y : res (@expr QNum)) : bool := match x, y with Ok e, Ok e' => differb e e' | _, _ => false end.

Lemma array_large_refuted : exists (a b : @aprog F64Num) (e : @expr F64Num) (e' : @expr QNum), @proper_leaves F64Num (ATimes a b) /\ afits a /\ afits b /\ abits (ATimes a b) = 0
  /\ @arun F64Num (ATimes a b) = Ok e /\ @arun QNum (exact_aprog (ATimes a b)) = Ok e' /\ e' <> exact_expr e.
Proof.
  exists (@ALeaf F64Num (EM (MK w_big))), (@ALeaf F64Num (EV (VV [@wx F64Num; @wx F64Num]))).
  assert (E : exists e, @arun F64Num w_bigp = Ok e) by (apply ok_ex; vm_compute; reflexivity). destruct E as [e E].
  assert (E' : exists e, @arun QNum (exact_aprog w_bigp) = Ok e) by (apply ok_ex; vm_compute; reflexivity). destruct E' as [e' E'].
  exists e, e'. split; [apply proper_by; vm_compute; reflexivity|]. split; [apply afits_by; vm_compute; reflexivity|]. split; [apply afits_by; vm_compute; reflexivity|]. split; [vm_compute; reflexivity|].
  split; [exact E|]. split; [exact E'|]. intros ->.
  assert (X : run_differb (@arun F64Num w_bigp) (@arun QNum (exact_aprog w_bigp)) = true) by (vm_compute; reflexivity).
  rewrite E, E' in X. unfold run_differb in X. rewrite differb_same in X. discriminate.
Qed.
