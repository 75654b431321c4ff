(** * Dimensions, numbers of variables and Check of constraints *)

From Coq Require Import ZArith NArith Bool List Lia.
From Verif Require Import Num Syntax ModelScalar ModelShape ModelArith ModelSC ModelConstr ModelMeasure Spec SpecArr SpecCon SpecMeasure Base ScalarValid Witness ScalarWit ArrTop ArrFacts ArrWit ConProofs.
Import ListNotations.
Local Open Scope num_scope.

Section MeasureProofs.
Context {NN : Num}.

Theorem dims_spec d e : valid_array d e -> expr_check e = true /\ expr_dims e = Ok d.
Proof. apply valid_array_check. Qed.
Theorem len_spec n v : valid_array (n, 1)%nat (EV v) -> vec_len v = Ok n.
Proof. intro V. apply valid_vec_dims. exact V. Qed.
Theorem dims_invalid m : mat_check m = false -> expr_dims (EM m) = Panic PCheck.
Proof. intro H. cbn [expr_dims]. unfold mat_dims. rewrite H. reflexivity. Qed.
Theorem len_invalid l : vec_check (VP l) = false -> vec_len (VP l) = Panic PCheck.
Proof. intro H. unfold vec_len. rewrite H. reflexivity. Qed.
(** the other three types have a length even if they are invalid *)
Theorem len_unchecked v : match v with VP _ => False | _ => True end -> vec_len v = Ok (length (vec_entries v)).
Proof. destruct v; intro H; try destruct H; cbn; rewrite map_length; reflexivity. Qed.
Theorem ids_spec e d : valid_array d e -> exists l, variable_ids e = Ok l /\ NoDup l /\ (forall i, In i l <-> array_occurs i e) /\ num_variables e = Ok (length l).
Proof.
  intro V. destruct (array_variables e d V) as (vs & E & N & O & _). exists (map v_id vs). unfold variable_ids, num_variables. rewrite E. cbn [bind]. split; [reflexivity|]. split; [exact N|]. split; [exact O|]. rewrite map_length. reflexivity.
Qed.
Theorem constraint_dims d c : valid_con d c -> con_check c = Ok tt /\ match c with CS _ => d = (1, 1)%nat | CV c => vc_dims c = Ok d /\ vc_len c = Ok (fst d) /\ snd d = 1%nat | CM c => mc_dims c = Ok d end.
Proof.
  intro V. pose proof (valid_con_check d c V) as C. split; [exact C|]. destruct V as (L & _ & _). destruct c as [c|c|c]; cbn [con_check con_left] in *.
  - apply (scalar_dims _ _ L).
  - pose proof (valid_vec_cols _ _ L) as E. rewrite E in L. unfold vc_dims, vc_len. rewrite C. cbn [bind]. split; [rewrite E; exact (proj2 (dims_spec _ _ L)) | split]; [apply len_spec; exact L | rewrite E; reflexivity].
  - unfold mc_dims. rewrite C. cbn [bind]. apply valid_mat_dims. exact L.
Qed.
Theorem check_sound c : con_check c = Ok tt -> expr_check (con_left c) = true /\ expr_check (con_right c) = true /\ con_sense c <> SenseOther /\
  exists dl dr, expr_dims (con_left c) = Ok dl /\ expr_dims (con_right c) = Ok dr /\ (dl = dr \/ match c with CV _ => dl = (1, 1)%nat \/ dr = (1, 1)%nat | _ => False end).
Proof.
  assert (E : forall a b, dims_eqb a b = true -> a = b) by (intros [a1 a2] [b1 b2] H; unfold dims_eqb in H; cbn in H; apply andb_prop in H as [H1 H2]; apply Nat.eqb_eq in H1, H2; congruence).
  assert (Sn : forall s, sense_check s = true -> s <> SenseOther) by (intros [] H; discriminate).
  destruct c as [c|c|c]; cbn [con_check con_left con_right con_sense expr_check expr_dims].
  - destruct (sc_check c) eqn:C; [|discriminate]. intros _. unfold sc_check in C. apply andb_prop in C as [C C3]. apply andb_prop in C as [C1 C2]. split; [exact C1|]. split; [exact C2|]. split; [apply Sn; exact C3|]. exists (1, 1)%nat, (1, 1)%nat. auto.
  - unfold vc_check. destruct (vec_check (vc_left c)); [|discriminate]. destruct (vec_check (vc_right c)); [|discriminate]. cbn [check bind]. destruct (sense_check (vc_sense c)) eqn:S; [|discriminate]. cbn [check bind].
    destruct (vec_dims (vc_left c)) as [dl|]; [|discriminate]. destruct (vec_dims (vc_right c)) as [dr|]; [|discriminate]. cbn [bind].
    destruct (dims_eqb dl dr || dims_scalar dl || dims_scalar dr) eqn:D; [|discriminate]. intros _. split; [reflexivity|]. split; [reflexivity|]. split; [apply Sn; exact S|]. exists dl, dr. split; [reflexivity|]. split; [reflexivity|].
    apply orb_prop in D as [D|D]; [apply orb_prop in D as [D|D]|]; [left | right; left | right; right]; apply E; exact D.
  - unfold mc_check. destruct (mat_check (mc_left c)) eqn:CL; [|discriminate]. destruct (mat_check (mc_right c)) eqn:CR; [|discriminate]. cbn [check bind]. destruct (mat_dims (mc_left c)) as [dl|]; [|discriminate]. destruct (mat_dims (mc_right c)) as [dr|]; [|discriminate]. cbn [bind].
    destruct (dims_eqb dl dr) eqn:D; [|discriminate]. cbn [check bind]. destruct (sense_check (mc_sense c)) eqn:S; [|discriminate]. intros _. split; [reflexivity|]. split; [reflexivity|]. split; [apply Sn; exact S|]. exists dl, dr. split; [reflexivity|]. split; [reflexivity|]. left. apply E. exact D.
Qed.
Theorem constraint_mismatch dl dr c : valid_array dl (con_left c) -> valid_array dr (con_right c) -> dl <> dr -> match c with CV _ => dl <> (1, 1)%nat /\ dr <> (1, 1)%nat | _ => True end ->
  exists p, con_check c = Panic p /\ match c with CS _ => False | CV c => vc_dims c = Panic p /\ vc_len c = Panic p | CM c => mc_dims c = Panic p end.
Proof.
  intros L R ND NS. destruct (valid_array_check _ _ L) as [_ EL]. destruct (valid_array_check _ _ R) as [_ ER].
  destruct (con_check c) as [[]|p] eqn:C.
  - destruct (check_sound c C) as (_ & _ & _ & dl' & dr' & E1 & E2 & [E|E]); [congruence|]. destruct c; try destruct E; destruct NS; congruence.
  - exists p. split; [reflexivity|]. destruct c as [c|c|c]; cbn [con_check con_left con_right] in *.
    + apply ND. rewrite (scalar_dims _ _ L), (scalar_dims _ _ R). reflexivity.
    + unfold vc_dims, vc_len. rewrite C. split; reflexivity.
    + unfold mc_dims. rewrite C. reflexivity.
Qed.
Theorem submap_check sm : valid_map sm -> check_submap sm = true.
Proof.
  intros [_ H]. unfold check_submap. apply forallb_forall. intros [k e] Hk. destruct (H k e Hk) as (Vk & s & -> & Vs). cbn [fst snd]. rewrite (proj2 (var_check_valid k) Vk), (valid_check s Vs). reflexivity.
Qed.
Theorem submap_spec sm : check_submap sm = true <-> forall k e, In (k, e) sm -> valid_var k /\ exists s, e = ES s /\ scalar_check s = true.
Proof.
  unfold check_submap. rewrite forallb_forall. split.
  - intros H k e Hk. specialize (H (k, e) Hk). cbn [fst snd] in H. apply andb_prop in H as [H1 H2]. split; [apply var_check_valid; exact H1|]. destruct e as [s|v|m]; try discriminate. exists s. auto.
  - intros H [k e] Hk. cbn [fst snd]. destruct (H k e Hk) as (Vk & s & -> & Cs). rewrite (proj2 (var_check_valid k) Vk), Cs. reflexivity.
Qed.
Lemma bad_map_check sm : bad_map sm -> check_submap sm = false.
Proof.
  intros (k & e & Hk & B). destruct (check_submap sm) eqn:C; [|reflexivity]. exfalso. destruct (proj1 (submap_spec sm) C k e Hk) as (Vk & s & -> & Cs). destruct B as [B|[B|B]]; [apply B; exact Vk | apply B; exact I | cbn [expr_check] in B; congruence].
Qed.
Theorem submap_rejected_scalar s sm : bad_map sm -> valid s -> match s with SK _ => scalar_substitute_map s sm = Ok s | _ => scalar_substitute_map s sm = Panic PCheck end.
Proof.
  intros B V. apply bad_map_check in B. pose proof (valid_check s V) as C. destruct s as [k|v|m|q]; cbn [scalar_check] in C; cbn [scalar_substitute_map]; [reflexivity|..]; unfold var_substitute_map, mono_substitute_map, poly_substitute_map; rewrite C; cbn [check bind]; rewrite B; reflexivity.
Qed.
Theorem submap_rejected_vector d v sm : bad_map sm -> valid_array d (EV v) -> match v with VK _ => vec_substitute_map v sm = Ok v | _ => vec_substitute_map v sm = Panic PCheck end.
Proof.
  intros B V. apply bad_map_check in B. destruct (valid_array_check _ _ V) as [C _]. cbn [expr_check] in C. unfold vec_substitute_map. destruct v; [reflexivity|..]; rewrite C; cbn [check bind]; rewrite B; reflexivity.
Qed.
Theorem submap_rejected_matrix d m sm : bad_map sm -> valid_array d (EM m) -> match m with MK _ => mat_substitute_map m sm = Ok m | _ => mat_substitute_map m sm = Panic PCheck end.
Proof.
  intros B V. apply bad_map_check in B. destruct (valid_array_check _ _ V) as [C _]. cbn [expr_check] in C. unfold mat_substitute_map. destruct m; [reflexivity|..]; rewrite C; cbn [check bind]; rewrite B; reflexivity.
Qed.
End MeasureProofs.
