(** C65: the Fortran interface. *)
From Coq Require Import String Ascii ZArith List Bool Lia.
From Verif Require Import Base FieldsModel ParamsModel MembersModel SvdsFieldsModel SvdsParamsModel SvdsMembersModel
  SpecMembers SpecSvdsMembers PropsMembers PropsSvdsMembers FortranModel.
Import ListNotations.
Open Scope Z_scope.

(** The name of a constant as the compiler sees it: Fortran does not tell cases apart. *)
Definition lower_char (c : ascii) : ascii :=
  let n := nat_of_ascii c in
  if ((65 <=? n) && (n <=? 90))%nat then ascii_of_nat (n + 32) else c.
Fixpoint lower (s : string) : string :=
  match s with EmptyString => EmptyString | String c t => String (lower_char c) (lower t) end.

(** The documented constant for a member: its path in the structure with underscores for
    dots (primme_f77.c 113-119).  The structures are projectionParams, restartingParams
    and correctionParams, which the names of members shorten. *)
Definition path (nm : string) : string :=
  (if prefix "projection_" nm then "projectionParams" ++ substring 10 (String.length nm) nm
  else if prefix "restarting_" nm then "restartingParams" ++ substring 10 (String.length nm) nm
  else if prefix "correction_" nm then "correctionParams" ++ substring 10 (String.length nm) nm
  else nm)%string.
Definition constant_for (nm : string) : string := lower ("PRIMME_" ++ path nm)%string.
Definition svds_constant_for (nm : string) : string := lower ("PRIMME_SVDS_" ++ nm)%string.

(** The value of a constant declared twice is not defined: here none is. *)
Definition declares (t : list (string * Z)) (s : string) (v : Z) : Prop :=
  In (s, v) t /\ forall v', In (s, v') t -> v' = v.

Definition has (t : list (string * Z)) (s : string) (v : Z) : bool :=
  existsb (fun c => String.eqb (fst c) s && (snd c =? v)) t
  && forallb (fun c => negb (String.eqb (fst c) s) || (snd c =? v)) t.
Lemma has_spec : forall t s v, has t s v = true -> declares t s v.
Proof.
  intros t s v H. apply andb_true_iff in H. destruct H as [H1 H2]. split.
  - apply existsb_exists in H1. destruct H1 as ([a b] & I & E). apply andb_true_iff in E. cbn in E.
    destruct E as [E1 E2]. apply String.eqb_eq in E1. apply Z.eqb_eq in E2. subst; auto.
  - intros v' I. rewrite forallb_forall in H2. apply H2 in I. cbn in I. rewrite String.eqb_refl in I. cbn in I.
    apply Z.eqb_eq in I. auto.
Qed.

(** The constant of that one has a name of its own, and the number of the C library. *)
Theorem C65_shifts_member : forall l t fs, In (l, ("ShiftsForPreconditioner"%string, t, fs)) labels ->
  declares f77_eigs "primme_shiftforpreconditioner" l.
Proof.
  intros l t fs H.
  assert (T : forallb (fun r => negb (String.eqb (fst (fst (snd r))) "ShiftsForPreconditioner")
      || has f77_eigs "primme_shiftforpreconditioner" (fst r)) labels = true) by (vm_compute; reflexivity).
  rewrite forallb_forall in T. specialize (T _ H). cbn [fst snd] in T. apply has_spec. exact T.
Qed.

(** Each member has its constant in both versions of the interface, with the number of
    the C library, except one of FORTRAN 77. *)
Theorem C65_members : forall l nm t fs, In (l, (nm, t, fs)) labels ->
  (nm <> "ShiftsForPreconditioner"%string -> declares f77_eigs (constant_for nm) l) /\
  declares f90_eigs (constant_for nm) l.
Proof.
  intros l nm t fs H.
  assert (T : forallb (fun r => let nm := fst (fst (snd r)) in
      (String.eqb nm "ShiftsForPreconditioner" || has f77_eigs (constant_for nm) (fst r))
      && has f90_eigs (constant_for nm) (fst r)) labels = true) by (vm_compute; reflexivity).
  rewrite forallb_forall in T. specialize (T _ H). cbn [fst snd] in T. apply andb_true_iff in T. destruct T as [T1 T2].
  split; [|apply has_spec; exact T2]. intros N. apply has_spec. apply orb_true_iff in T1. destruct T1 as [T1|T1]; [|exact T1].
  apply String.eqb_eq in T1. contradiction.
Qed.
Theorem C65_svds_members : forall l nm t fs, In (l, (nm, t, fs)) svds_labels ->
  declares f77_svds (svds_constant_for nm) l /\ declares f90_svds (svds_constant_for nm) l.
Proof.
  intros l nm t fs H.
  assert (T : forallb (fun r => let nm := fst (fst (snd r)) in
      has f77_svds (svds_constant_for nm) (fst r) && has f90_svds (svds_constant_for nm) (fst r)) svds_labels = true)
    by (vm_compute; reflexivity).
  rewrite forallb_forall in T. specialize (T _ H). cbn [fst snd] in T. apply andb_true_iff in T. destruct T as [T1 T2].
  split; apply has_spec; [exact T1|exact T2].
Qed.

(** Those without a constant: two events and how the basis is orthogonalized. *)
Definition undeclared : list string :=
  ["primme_event_message"; "primme_event_profile";
   "primme_orth_default"; "primme_orth_implicit_I"; "primme_orth_explicit_I"]%string.

(** The other enumerations. *)
Theorem C65_constants : forall cs i s, In cs enumerations -> nth_error cs i = Some s -> ~ In s undeclared ->
  declares f77_eigs (lower s) (Z.of_nat i) /\ declares f90_eigs (lower s) (Z.of_nat i).
Proof.
  intros cs i s H N U.
  assert (T : forallb (fun cs => forallb (fun k =>
     match nth_error cs k with
     | None => true
     | Some s => existsb (String.eqb s) undeclared
                 || (has f77_eigs (lower s) (Z.of_nat k) && has f90_eigs (lower s) (Z.of_nat k))
     end) (seq 0 (List.length cs))) enumerations = true) by (vm_compute; reflexivity).
  rewrite forallb_forall in T. specialize (T _ H). cbv beta in T.
  rewrite forallb_forall in T. specialize (T i). rewrite N in T.
  assert (L : (i < List.length cs)%nat) by (apply nth_error_Some; congruence).
  specialize (T ltac:(apply in_seq; lia)). apply orb_true_iff in T. destruct T as [T|T].
  - apply existsb_exists in T. destruct T as (x & I & E). apply String.eqb_eq in E. subst. contradiction.
  - apply andb_true_iff in T. destruct T as [T1 T2]. split; apply has_spec; [exact T1|exact T2].
Qed.
Theorem C65_svds_constants : forall cs i s, In cs svds_enumerations -> nth_error cs i = Some s ->
  declares f77_svds (lower s) (Z.of_nat i) /\ declares f90_svds (lower s) (Z.of_nat i).
Proof.
  intros cs i s H N.
  assert (T : forallb (fun cs => forallb (fun k =>
     match nth_error cs k with
     | None => true
     | Some s => has f77_svds (lower s) (Z.of_nat k) && has f90_svds (lower s) (Z.of_nat k)
     end) (seq 0 (List.length cs))) svds_enumerations = true) by (vm_compute; reflexivity).
  rewrite forallb_forall in T. specialize (T _ H). cbv beta in T.
  rewrite forallb_forall in T. specialize (T i). rewrite N in T.
  assert (L : (i < List.length cs)%nat) by (apply nth_error_Some; congruence).
  specialize (T ltac:(apply in_seq; lia)). apply andb_true_iff in T. destruct T as [T1 T2]. split; apply has_spec; [exact T1|exact T2].
Qed.

(** A program includes both headers: no name is declared with two values. *)
Theorem C65_no_conflict : forall s v v',
  (In (s, v) (f77_eigs ++ f77_svds) -> In (s, v') (f77_eigs ++ f77_svds) -> v = v') /\
  (In (s, v) (f90_eigs ++ f90_svds) -> In (s, v') (f90_eigs ++ f90_svds) -> v = v').
Proof.
  assert (T : forall t, forallb (fun c => has t (fst c) (snd c)) t = true ->
     forall s v v', In (s, v) t -> In (s, v') t -> v = v').
  { intros t T s v v' I J. rewrite forallb_forall in T. specialize (T _ I). apply has_spec in T. cbn in T.
    symmetry. apply (proj2 T). auto. }
  intros s v v'. split; apply T; vm_compute; reflexivity.
Qed.

(** What a program sets with the constant of a member is what the solver finds in it, what
    the program reads back with it, and nothing else changes. *)
Theorem C65_set_then_get : forall p l nm t fs vs c, In (l, (nm, t, fs)) labels -> ~ In l [13; 15; 59; 61] ->
  nm <> "ShiftsForPreconditioner"%string ->
  In (constant_for nm, c) f77_eigs -> List.length vs = List.length fs -> Forall (fits t) vs ->
  exists q, f77_set_member (Some p) c vs = Some (0, Some q) /\
    f77_get_member (Some q) c = Some (0, vs) /\ map q fs = vs /\
    forall l', l' <> c -> f77_get_member (Some q) l' = f77_get_member (Some p) l'.
Proof.
  intros p l nm t fs vs c H X N C L F.
  destruct (proj1 (C65_members l nm t fs H) N) as [_ D]. apply D in C. subst c.
  destruct (C20_set_then_get p l nm t fs vs H X L F) as (q & Q1 & Q2 & Q3).
  cbn [In] in X.
  destruct (C20_set_writes_member p l nm t fs vs H ltac:(clear - X; lia) ltac:(clear - X; lia) L F) as (q' & R1 & R2 & _).
  rewrite Q1 in R1. injection R1 as <-.
  exists q. unfold f77_set_member, f77_get_member. cbn [bind]. rewrite Q1. cbn [bind fst snd].
  split; [reflexivity|]. split; [now rewrite Q2|]. split; [auto|]. intros l' D'. now rewrite Q3.
Qed.
Theorem C65_svds_set_then_get : forall p l nm t fs vs c, In (l, (nm, t, fs)) svds_labels -> ~ In l unsettable ->
  In (svds_constant_for nm, c) f77_svds -> List.length vs = List.length fs -> Forall (fits t) vs ->
  exists q, f77_svds_set_member (Some p) c vs = Some (0, Some q) /\
    f77_svds_get_member (Some q) c = Some (0, Values vs) /\
    forall l', l' <> c -> f77_svds_get_member (Some q) l' = f77_svds_get_member (Some p) l'.
Proof.
  intros p l nm t fs vs c H X C L F.
  destruct (proj1 (C65_svds_members l nm t fs H)) as [_ D]. apply D in C. subst c.
  destruct (C48_set_then_get p l nm t fs vs H X L F) as (q & Q1 & Q2 & Q3).
  exists q. unfold f77_svds_set_member, f77_svds_get_member. cbn [bind]. rewrite Q1. cbn [bind fst snd].
  split; [reflexivity|]. split; [now rewrite Q2|]. intros l' D'. now rewrite Q3.
Qed.

(** The shift of the i-th vector, counted from one. *)
Theorem C65_shift : forall R (shifts : list R) i, 1 <= i <= Z.of_nat (List.length shifts) ->
  exists x, f77_get_prec_shift shifts i = Some x /\
    exists a b, shifts = a ++ x :: b /\ Z.of_nat (List.length a) = i - 1.
Proof.
  intros R shifts i H. unfold f77_get_prec_shift. replace (i - 1 <? 0) with false by (symmetry; apply Z.ltb_ge; lia).
  destruct (nth_error shifts (Z.to_nat (i - 1))) as [x|] eqn:E.
  - exists x. split; auto. apply nth_error_split in E. destruct E as (a & b & -> & L). exists a, b. split; auto. lia.
  - apply nth_error_None in E. lia.
Qed.

(** Not declared: in FORTRAN 77 the shifts of the preconditioner under their name, and in
    both versions [undeclared]. *)
Theorem C65_undeclared_refuted :
  (forall v, ~ In (constant_for "ShiftsForPreconditioner", v) f77_eigs) /\
  (forall s v, In s undeclared -> ~ In (lower s, v) f77_eigs /\ ~ In (lower s, v) f90_eigs).
Proof.
  assert (T : forall s t, existsb (String.eqb s) (map fst t) = false -> forall v : Z, ~ In (s, v) t).
  { intros s t H v I. assert (X : existsb (String.eqb s) (map fst t) = true); [|congruence].
    apply existsb_exists. exists s. split; [apply in_map_iff; exists (s, v); auto|apply String.eqb_refl]. }
  split; [apply T; vm_compute; reflexivity|].
  intros s v I. cbn [undeclared In] in I.
  repeat (destruct I as [<-|I]; [split; apply T; vm_compute; reflexivity|]). destruct I.
Qed.

(** Without memory primme_initialize_f77 says nothing, and the first member set is written
    through a NULL pointer. *)
Theorem C65_no_memory_refuted : forall l v, f77_set_member (f77_initialize false) l v = None.
Proof. reflexivity. Qed.

Example C65_case : exists q,
  f77_set_member (f77_initialize true) 16 [5] = Some (0, Some q) /\ f77_get_member (Some q) 16 = Some (0, [5]).
Proof. eexists. split; reflexivity. Qed.
