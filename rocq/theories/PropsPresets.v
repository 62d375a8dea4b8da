(** Property theorems C31 and C32: initial values and preset methods. *)
From Coq Require Import ZArith List Bool Lia.
From Verif Require Import Base FieldsModel ParamsModel ParamsProofs DefaultsProofs SpecPresets.
Import ListNotations.
Open Scope Z_scope.

(* ================================================================ *)
(** * C31: initial values *)

(** Every member gets a value: nothing of the memory's previous content
    survives. *)
Theorem C31_every_member_set : forall g g' out f,
  primme_initialize_over g out f = primme_initialize_over g' out f.
Proof. intros g g' out f. destruct f; reflexivity. Qed.

(** The documented initial values. *)
Theorem C31_documented_values : forall g out f v,
  In (f, v) (documented_initial out) -> primme_initialize_over g out f = v.
Proof.
  intros g out f v H. unfold documented_initial, int_max in H. cbn [In] in H.
  repeat (destruct H as [H|H]; [injection H as <- <-; reflexivity|]). contradiction.
Qed.

(** The members documented with another value than the one they get.  All but
    the three estimates are "undecided" marks that [primme_set_method] or
    [primme_set_defaults] replaces later (C01, C02). *)
Theorem C31_documented_values_refuted : forall g out f v,
  In (f, v) documented_initial_elsewhere -> primme_initialize_over g out f <> v.
Proof.
  intros g out f v H. unfold documented_initial_elsewhere in H. cbn [In] in H.
  repeat (destruct H as [H|H]; [injection H as <- <-; vm_compute; discriminate|]). contradiction.
Qed.

(** globalSumReal is documented to point to an internal function. *)
Theorem C31_global_sum_refuted : forall g out,
  primme_initialize_over g out P_globalSumReal = 0.
Proof. reflexivity. Qed.

(** What the undecided members get instead, and that the estimates start at
    the opposite infinities. *)
Theorem C31_undecided_values : forall g out,
  let q := primme_initialize_over g out in
  q P_dynamicMethodSwitch = -1 /\ q P_maxBlockSize = 0 /\ q P_initBasisMode = 0 /\
  q P_maxPrevRetain = -1 /\ q P_precondition = -1 /\
  q P_maxInnerIterations = - int_max /\
  q P_estimateMinEVal = - 9218868437227405312 /\
  q P_estimateMaxEVal = 9218868437227405312 /\
  q P_estimateLargestSVal = - 9218868437227405312 /\
  q P_estimateBNorm = - 9218868437227405312 /\
  q P_estimateInvBNorm = - 9218868437227405312 /\
  q P_estimateResidualError = 0 /\ q P_ShiftsForPreconditioner = 0 /\
  q P_flopsDense = 0 /\ q P_timeDense = 0 /\ q P_profile = 0.
Proof. intros; cbv zeta; repeat split; reflexivity. Qed.

(** The two lists and the members named above are all there is. *)
Theorem C31_list_complete : forall out f,
  listed f (documented_initial out) <> None \/
  listed f documented_initial_elsewhere <> None \/
  In f [P_globalSumReal; P_estimateBNorm; P_estimateInvBNorm; P_estimateResidualError;
        P_ShiftsForPreconditioner; P_flopsDense; P_timeDense; P_profile].
Proof.
  intros out f. destruct f;
  first [ left; vm_compute; discriminate
        | right; left; vm_compute; discriminate
        | right; right; cbn [In]; tauto ].
Qed.

Example C31_nonvacuous :
  primme_initialize_over (fun f => fidx f + 1000) 77 P_maxMatvecs = 2147483647 /\
  primme_initialize_over (fun f => fidx f + 1000) 77 P_outputFile = 77.
Proof. split; reflexivity. Qed.

(* ================================================================ *)
(** * C32: preset methods *)

Definition preset_writes : list field :=
  [P_dynamicMethodSwitch; P_maxBlockSize; P_precondition;
   P_maxPrevRetain; P_maxInnerIterations; P_robustShifts; P_LeftQ; P_LeftX; P_RightQ;
   P_RightX; P_SkewQ; P_SkewX; P_convTest; P_relTolBase;
   P_initBasisMode; P_maxBasisSize; P_minRestartSize; P_locking].

(** The structure after the assignments of preset [m], before the defaults. *)
Definition assigned (m : Z) (p : params) : option params :=
  method_specific (resolve_method m p) (method_common (resolve_method m p) p).

Lemma valid_cases : forall m, 0 <= m <= 15 ->
  m = 0 \/ m = 1 \/ m = 2 \/ m = 3 \/ m = 4 \/ m = 5 \/ m = 6 \/ m = 7 \/ m = 8 \/ m = 9 \/
  m = 10 \/ m = 11 \/ m = 12 \/ m = 13 \/ m = 14 \/ m = 15.
Proof. intros; lia. Qed.

Lemma assigned_other : forall m p q f,
  assigned m p = Some q -> ~ In f preset_writes -> q f = p f.
Proof.
  intros m p q f H N.
  assert (NE : forall g, In g preset_writes -> g <> f) by (intros g G X; subst g; auto).
  assert (C : method_common (resolve_method m p) p f = p f).
  { unfold method_common. rewrite !set_if_neq by (apply NE; cbn; tauto).
    rewrite set_neq by (apply NE; cbn; tauto). reflexivity. }
  unfold assigned in H. rewrite <- C. revert H.
  generalize (method_common (resolve_method m p) p) as p'.
  generalize (resolve_method m p) as m'. clear - NE. intros m' p'.
  unfold method_specific.
  repeat match goal with
  | |- (if ?c then _ else _) = _ -> _ => destruct c
  end; intro K; inversion K; subst; clear K;
  unfold plusK_retain, leftQ_by_precond; cbn [sets]; unfold set_if;
  repeat match goal with |- context [if ?c then _ else _] => destruct c end;
  repeat rewrite set_neq by (apply NE; cbn; tauto); reflexivity.
Qed.

Lemma listed_other : forall m p f, 0 <= m <= 15 -> ~ In f preset_writes ->
  listed f (settings p m) = None.
Proof.
  intros m p f V N.
  assert (NE : forall g, In g preset_writes -> field_eqb g f = false).
  { intros g G. destruct (field_eqb g f) eqn:E; auto. apply field_eqb_eq in E. now subst g. }
  assert (L : forall l, (forall g v, In (g, v) l -> In g preset_writes) -> listed f l = None).
  { induction l as [|[g v] t IH]; intros A; cbn [listed]; auto.
    rewrite (NE g) by (eapply A; left; reflexivity). apply IH. intros; eapply A; right; eauto. }
  apply L. intros g v. clear - V.
  destruct (valid_cases m V) as [->|[->|[->|[->|[->|[->|[->|[->|[->|[->|[->|[->|[->|[->|[->| ->]]]]]]]]]]]]]]];
  cbn [settings]; unfold dynamic, gd_olsen, jdqmr, common;
  repeat match goal with |- context [if ?c then (_ :: _) else _] => destruct c end;
  cbn [app In]; intro H;
  repeat (destruct H as [H|H]; [injection H as <- _; cbn; tauto|]); contradiction.
Qed.

Lemma specific_listed : forall m p q f, m = 1 \/ 4 <= m <= 15 ->
  method_specific m (method_common m p) = Some q -> In f preset_writes ->
  q f = match listed f (settings p m) with Some v => v | None => p f end.
Proof.
  intros m p q f V H I. unfold preset_writes in I. cbn [In] in I.
  assert (V' : m = 1 \/ m = 4 \/ m = 5 \/ m = 6 \/ m = 7 \/ m = 8 \/ m = 9 \/
    m = 10 \/ m = 11 \/ m = 12 \/ m = 13 \/ m = 14 \/ m = 15) by lia.
  destruct V' as [->|[->|[->|[->|[->|[->|[->|[->|[->|[->|[->|[->| ->]]]]]]]]]]]];
  unfold method_specific in H; unfold_methods;
  repeat match type of H with
  | (if ?a =? ?b then _ else _) = _ =>
      let r := eval vm_compute in (a =? b) in change (a =? b) with r in H; cbv iota in H
  end;
  injection H as <-;
  cbn [settings]; unfold dynamic, gd_olsen, jdqmr, common; cbn [app];
  unfold plusK_retain, leftQ_by_precond, method_common, is_extremal, nonnull;
  repeat (destruct I as [I|I]; [subst f; fields; unfold retain_k, jdqmr_retain, with_prec,
    precond, extremal, block; cbn [listed app]; repeat fields1;
    change PRIMME_DYNAMIC with 1; unfold INT_MAX, int_max, primme_smallest, primme_largest,
      primme_closest_leq, primme_closest_geq in *;
    try reflexivity; zcases; try reflexivity; try lia|]); try contradiction.
  all: exfalso; destruct (p P_precondition =? -1);
    destruct (p P_applyPreconditioner =? 0); cbn [negb] in *; lia.
Qed.

Lemma settings_resolved : forall m p, 0 <= m <= 15 ->
  settings p (resolve_method m p) = settings p m.
Proof.
  intros m p V.
  destruct (valid_cases m V) as [->|[->|[->|[->|[->|[->|[->|[->|[->|[->|[->|[->|[->|[->|[->| ->]]]]]]]]]]]]]]];
  try reflexivity.
  unfold resolve_method, is_extremal. cbn [settings]. unfold extremal.
  unfold primme_smallest, primme_largest.
  change (2 =? PRIMME_DEFAULT_METHOD) with false.
  change (2 =? PRIMME_DEFAULT_MIN_MATVECS) with false.
  change (2 =? PRIMME_DEFAULT_MIN_TIME) with true. cbv iota zeta.
  destruct ((p P_target =? 0) || (p P_target =? 1)); reflexivity.
Qed.

Lemma assigned_listed : forall m p q f, 0 <= m <= 15 -> assigned m p = Some q ->
  q f = match listed f (settings p m) with Some v => v | None => p f end.
Proof.
  intros m p q f V H.
  destruct (in_dec field_dec f preset_writes) as [I|N].
  - rewrite <- (settings_resolved m p V).
    apply (specific_listed _ p q f (resolve_range m p V) H I).
  - rewrite (listed_other m p f V N). exact (assigned_other m p q f H N).
Qed.

Lemma method_assigned : forall m p r q, primme_set_method m p = Some (r, q) -> 0 <= m <= 15 ->
  exists s, assigned m p = Some s /\ q = fill_defaults s.
Proof.
  intros m p r q H V. unfold primme_set_method in H. rewrite set_method_with_total in H.
  cbv zeta in H. unfold assigned.
  destruct (method_specific (resolve_method m p) (method_common (resolve_method m p) p)) as [s|] eqn:E.
  - exists s. split; auto. now injection H as _ <-.
  - destruct (method_specific_some (resolve_method m p)
      (method_common (resolve_method m p) p) (resolve_range m p V)) as [q' E']. congruence.
Qed.

(** A valid preset gives every member listed for it the listed value, and
    leaves every other member as it was; the six members of [completed_later]
    are excepted because the call also completes them. *)
Theorem C32_preset_settings : forall m p r q f,
  primme_set_method m p = Some (r, q) -> 0 <= m <= 15 -> ~ In f completed_later ->
  q f = match listed f (settings p m) with Some v => v | None => p f end.
Proof.
  intros m p r q f H V N. destruct (method_assigned m p r q H V) as (s & A & ->).
  rewrite fill_other by (intro X; apply N; unfold completed_later; cbn [In];
    intuition congruence).
  exact (assigned_listed m p s f V A).
Qed.

(** A listed value other than 0 ("undecided") survives the completion. *)
Theorem C32_preset_sizes : forall m p r q f v,
  primme_set_method m p = Some (r, q) -> 0 <= m <= 15 ->
  listed f (settings p m) = Some v -> v <> 0 -> q f = v.
Proof.
  intros m p r q f v H V L NZ.
  destruct (in_dec field_dec f completed_later) as [I|N].
  - destruct (method_assigned m p r q H V) as (s & A & ->).
    pose proof (assigned_listed m p s f V A) as E. rewrite L in E.
    unfold completed_later in I. cbn [In] in I.
    destruct I as [<-|[<-|[<-|[<-|[<-|[<-|[]]]]]]].
    + exfalso. rewrite (listed_other m p P_ldevecs V) in L; [discriminate|].
      unfold preset_writes; cbn [In]; intuition discriminate.
    + exfalso. rewrite (listed_other m p P_projection V) in L; [discriminate|].
      unfold preset_writes; cbn [In]; intuition discriminate.
    + rewrite fill_initBasisMode, E. destruct (Z.eqb_spec v 0); [contradiction|reflexivity].
    + rewrite fill_basis. unfold filled_basis. rewrite E.
      destruct (Z.eqb_spec v 0); [contradiction|reflexivity].
    + rewrite fill_restart. unfold filled_restart. rewrite E.
      destruct (Z.eqb_spec v 0); [contradiction|reflexivity].
    + assert (V1 : v = 1).
      { clear - L V. destruct (valid_cases m V) as
          [->|[->|[->|[->|[->|[->|[->|[->|[->|[->|[->|[->|[->|[->|[->| ->]]]]]]]]]]]]]]];
        cbn [settings] in L; unfold dynamic, gd_olsen, jdqmr, common in L;
        repeat match type of L with context [if ?c then (_ :: _) else _] => destruct c end;
        cbn [app listed] in L; vm_compute in L; congruence. }
      rewrite V1 in *. rewrite fill_locking. unfold filled_locking. rewrite E. reflexivity.
  - rewrite (C32_preset_settings m p r q f H V N). now rewrite L.
Qed.

Example C32_nonvacuous :
  exists q, primme_set_method 13 (primme_initialize 77 <+ P_n := 100 <+ P_numEvals := 5)
    = Some (0, q) /\
    settings (primme_initialize 77 <+ P_n := 100 <+ P_numEvals := 5) 13 <> [] /\
    q P_maxBasisSize = 10 /\ q P_maxBlockSize = 5 /\ q P_locking = 1 /\ q P_RightX = 1.
Proof. eexists; repeat split; try reflexivity. vm_compute; discriminate. Qed.

(** ** Sentences of the documentation the code does not follow *)

(** "locking = 0" (Arnoldi, GD, GD+k, JDQMR, LOBPCG): an interior target
    selects locking. *)
Theorem C32_locking_refuted : forall m, In m [4; 5; 6; 7; 8; 11; 12; 15] ->
  exists p q, primme_set_method m p = Some (0, q) /\ q P_locking = 1.
Proof.
  intros m I.
  exists (sets (primme_initialize 7) [(P_n, 100); (P_numEvals, 5); (P_target, 4)]).
  cbn [In] in I.
  repeat (destruct I as [<-|I]; [eexists; split; vm_compute; reflexivity|]). contradiction.
Qed.

(** "JDQMR_ETol makes the same changes as JDQMR and sets convTest": SkewX
    differs, for every structure. *)
Theorem C32_jdqmr_etol_refuted : forall p r q r' q',
  primme_set_method 11 p = Some (r, q) -> primme_set_method 12 p = Some (r', q') ->
  q P_SkewX = 1 /\ q' P_SkewX = 0.
Proof.
  intros p r q r' q' H H'. split.
  - rewrite (C32_preset_settings 11 p r q P_SkewX H); [reflexivity|lia|].
    unfold completed_later; cbn [In]; intuition discriminate.
  - rewrite (C32_preset_settings 12 p r' q' P_SkewX H'); [reflexivity|lia|].
    unfold completed_later; cbn [In]; intuition discriminate.
Qed.

(** "DYNAMIC makes the same changes as DEFAULT_MIN_TIME". *)
Theorem C32_dynamic_refuted : exists p q q',
  primme_set_method 1 p = Some (0, q) /\ primme_set_method 2 p = Some (0, q') /\
  q P_maxPrevRetain = 2 /\ q' P_maxPrevRetain = 1.
Proof.
  exists (sets (primme_initialize 7) [(P_n, 100); (P_numEvals, 5)]).
  eexists _, _. repeat split; vm_compute; reflexivity.
Qed.

(** "maxPrevRetain = 1 if it is 0" (JDQMR) and "maxInnerIterations = 10 if it
    is 0" (JDQR): a zero is kept. *)
Theorem C32_zero_kept_refuted : exists p q q',
  p P_maxPrevRetain = 0 /\ p P_maxInnerIterations = 0 /\
  primme_set_method 11 p = Some (0, q) /\ q P_maxPrevRetain = 0 /\
  primme_set_method 10 p = Some (0, q') /\ q' P_maxInnerIterations = 0.
Proof.
  exists (sets (primme_initialize 7)
            [(P_n, 100); (P_numEvals, 5); (P_maxPrevRetain, 0); (P_maxInnerIterations, 0)]).
  eexists _, _. repeat split; vm_compute; reflexivity.
Qed.

(** GD+k with a mass matrix: 2 vectors although the block size is larger. *)
Theorem C32_mass_matrix_retain_refuted : exists p q,
  p P_maxBlockSize = 4 /\ primme_set_method 6 p = Some (0, q) /\ q P_maxPrevRetain = 2.
Proof.
  exists (sets (primme_initialize 7)
            [(P_n, 100); (P_numEvals, 5); (P_maxBlockSize, 4); (P_massMatrixMatvec, 99)]).
  eexists. repeat split; vm_compute; reflexivity.
Qed.

Print Assumptions C31_every_member_set.
Print Assumptions C31_documented_values.
Print Assumptions C31_documented_values_refuted.
Print Assumptions C31_undecided_values.
Print Assumptions C31_list_complete.
Print Assumptions C32_preset_settings.
Print Assumptions C32_preset_sizes.
Print Assumptions C32_locking_refuted.
Print Assumptions C32_jdqmr_etol_refuted.
Print Assumptions C32_dynamic_refuted.
Print Assumptions C32_zero_kept_refuted.
Print Assumptions C32_mass_matrix_retain_refuted.
