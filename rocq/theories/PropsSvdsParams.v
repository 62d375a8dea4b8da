(** Property theorems C46 and C47: initial values of the singular value solver,
    choice of the method, and the settings its eigensolvers receive. *)
From Coq Require Import ZArith List Bool Lia.
From Verif Require Import Base FieldsModel ParamsModel ParamsProofs DefaultsProofs SpecPresets
  PropsParams PropsPresets SvdsFieldsModel SvdsParamsModel SpecSvdsParams.
Import ListNotations.
Open Scope Z_scope.

(* ================================================================ *)
(** * C46: initial values *)

Theorem C46_documented_values : forall g out,
  (forall f v, In (f, v) (documented_svds_initial out) ->
     own (svds_initialize_over g out) f = v) /\
  (forall f v, In (f, v) (documented_initial out) ->
     st1 (svds_initialize_over g out) f = v /\ st2 (svds_initialize_over g out) f = v).
Proof.
  intros g out. split.
  - intros f v H. unfold documented_svds_initial in H. cbn [In] in H.
    repeat (destruct H as [H|H]; [injection H as <- <-; reflexivity|]). contradiction.
  - intros f v H. split; exact (C31_documented_values _ out f v H).
Qed.

(** Nothing of the previous contents of the memory survives, except in
    [stats.lockingIssue]. *)
Theorem C46_every_member_set : forall g g' out,
  (forall f, f <> S_lockingIssue ->
     own (svds_initialize_over g out) f = own (svds_initialize_over g' out) f) /\
  (forall f, st1 (svds_initialize_over g out) f = st1 (svds_initialize_over g' out) f /\
             st2 (svds_initialize_over g out) f = st2 (svds_initialize_over g' out) f).
Proof.
  intros g g' out. split.
  - intros f H. destruct f;
      try (exfalso; apply H; reflexivity); vm_compute; reflexivity.
  - intro f. split; apply C31_every_member_set.
Qed.

(** [stats.lockingIssue] is documented to start at 0 and keeps what the memory
    held: with a structure on the stack it may start at any value. *)
Theorem C46_locking_issue_refuted : forall out v, exists g,
  own (svds_initialize_over g out) S_lockingIssue = v.
Proof. intros out v. exists (Svds (fun _ => v) (fun _ => 0) (fun _ => 0)). reflexivity. Qed.

(** The target starts as "largest" instead of the documented "smallest", the use
    of the preconditioner as undecided (-1) instead of off, and the global sum as
    NULL instead of an internal function. *)
Theorem C46_documented_values_refuted : forall g out,
  (forall f v, In (f, v) documented_svds_elsewhere ->
     own (svds_initialize_over g out) f <> v) /\
  own (svds_initialize_over g out) S_target = 0 /\
  own (svds_initialize_over g out) S_precondition = -1 /\
  own (svds_initialize_over g out) S_globalSumReal = 0.
Proof.
  intros g out. split; [|repeat split; reflexivity].
  intros f v H. unfold documented_svds_elsewhere in H. cbn [In] in H.
  repeat (destruct H as [H|H]; [injection H as <- <-; vm_compute; discriminate|]). contradiction.
Qed.

Example C46_ex :
  own (svds_initialize_over (Svds (fun _ => 5) (fun _ => 6) (fun _ => 7)) 77) S_maxMatvecs = 2147483647 /\
  st2 (svds_initialize_over (Svds (fun _ => 5) (fun _ => 6) (fun _ => 7)) 77) P_nLocal = -1 /\
  In (S_maxMatvecs, 2147483647) (documented_svds_initial 77).
Proof. repeat split; try reflexivity. cbn [documented_svds_initial In]. tauto. Qed.

(* ================================================================ *)
(** * Reading a member of the transferred structure *)

Lemma set_if_eq : forall c p f v, set_if c p f v f = if c then v else p f.
Proof. intros. unfold set_if. apply set_eq. Qed.

Ltac rd := repeat first [rewrite set_if_neq by discriminate | rewrite set_neq by discriminate
                         | rewrite set_if_eq | rewrite set_eq].

Section Transfer.
Variables (sq root2 : Z -> Z) (gsum bcast : Z).
Notation copy_params := (copy_params sq root2 gsum bcast).
Notation copy_both := (copy_both sq root2 gsum bcast).
Notation svds_set_defaults := (svds_set_defaults sq root2 gsum bcast).
Notation svds_set_method := (svds_set_method sq root2 gsum bcast).

(** The operators a stage may solve with. *)
Definition is_operator (op : Z) : Prop := op = 1 \/ op = 2 \/ op = 3.

Definition w_sizes := [P_numEvals; P_aNorm; P_eps; P_initSize; P_maxBasisSize; P_maxBlockSize;
  P_maxMatvecs; P_printLevel; P_outputFile; P_numOrthoConst].
Definition w_parallel := [P_procID; P_numProcs; P_commInfo; P_globalSumReal; P_broadcastReal].
Definition w_dims := [P_n; P_nLocal].
Definition w_target := [P_target; P_numTargetShifts].
Definition w_modes := [P_initBasisMode; P_projection; P_locking; P_precondition].

Lemma sizes_other : forall op s p f, ~ In f w_sizes -> copy_sizes sq root2 op s p f = p f.
Proof.
  intros op s p f H. unfold w_sizes in H. cbn [In] in H. unfold copy_sizes. cbv zeta.
  repeat first [rewrite set_if_neq by tauto | rewrite set_neq by tauto].
  reflexivity.
Qed.
Lemma parallel_other : forall s p f, ~ In f w_parallel -> copy_parallel gsum bcast s p f = p f.
Proof.
  intros s p f H. unfold w_parallel in H. cbn [In] in H. unfold copy_parallel. cbv zeta.
  repeat first [rewrite set_if_neq by tauto | rewrite set_neq by tauto].
  reflexivity.
Qed.
Lemma dims_other : forall op s p f, ~ In f w_dims -> copy_dims op s p f = p f.
Proof.
  intros op s p f H. unfold w_dims in H. cbn [In] in H. unfold copy_dims. cbv zeta.
  destruct (op =? op_AtA); [|destruct (op =? op_AAt); [|destruct (op =? op_augmented); [|reflexivity]]];
  repeat first [rewrite set_if_neq by tauto | rewrite set_neq by tauto];
  reflexivity.
Qed.
Lemma target_other : forall op s p f, ~ In f w_target -> copy_target op s p f = p f.
Proof.
  intros op s p f H. unfold w_target in H. cbn [In] in H. unfold copy_target.
  destruct (s S_target =? primme_svds_largest); [|destruct (s S_target =? primme_svds_smallest);
    [|destruct (s S_target =? primme_svds_closest_abs); [|reflexivity]]];
  repeat first [rewrite set_if_neq by tauto | rewrite set_neq by tauto];
  reflexivity.
Qed.
Lemma modes_other' : forall b op s p f, ~ In f w_modes -> copy_modes b op s p f = p f.
Proof.
  intros b op s p f H. unfold w_modes in H. cbn [In] in H. unfold copy_modes. cbv zeta.
  destruct (s S_precondition >=? 0).
  2: match goal with |- (if ?c then _ else _) _ = _ => destruct c end.
  all: repeat first [rewrite set_if_neq by tauto | rewrite set_neq by tauto];
  reflexivity.
Qed.

Lemma copy_active : forall b s p,
  (if b : bool then s S_methodStage2 else s S_method) <> 0 ->
  copy_params b s p =
  let op := if b then s S_methodStage2 else s S_method in
  copy_modes b op s (copy_target op s (copy_dims op s (copy_parallel gsum bcast s (copy_sizes sq root2 op s p)))).
Proof.
  intros b s p H. unfold SvdsParamsModel.copy_params. cbv zeta.
  destruct (Z.eqb_spec (if b then s S_methodStage2 else s S_method) op_none) as [E|E]; [contradiction|reflexivity].
Qed.

Ltac other := repeat first
  [ rewrite modes_other' by (unfold w_modes; cbn [In]; intuition discriminate)
  | rewrite target_other by (unfold w_target; cbn [In]; intuition discriminate)
  | rewrite dims_other by (unfold w_dims; cbn [In]; intuition discriminate)
  | rewrite parallel_other by (unfold w_parallel; cbn [In]; intuition discriminate)
  | rewrite sizes_other by (unfold w_sizes; cbn [In]; intuition discriminate) ].

(** ** Values of the members after a copy *)
Section Copy.
Variables (b : bool) (s : sparams) (p : params).
Let op := if b then s S_methodStage2 else s S_method.
Hypothesis A : op <> 0.

Lemma copy_eq : copy_params b s p =
  copy_modes b op s (copy_target op s (copy_dims op s (copy_parallel gsum bcast s (copy_sizes sq root2 op s p)))).
Proof. apply copy_active. exact A. Qed.

Ltac value := rewrite copy_eq; other; unfold copy_sizes, copy_parallel; cbv zeta; rd.

Lemma copy_plain : forall f v,
  In (f, v) [ (P_numEvals, s S_numSvals); (P_eps, s S_eps); (P_initSize, s S_initSize);
    (P_maxMatvecs, s S_maxMatvecs); (P_printLevel, s S_printLevel); (P_outputFile, s S_outputFile);
    (P_numOrthoConst, s S_numOrthoConst) ] -> copy_params b s p f = v.
Proof.
  intros f v H. cbn [In] in H.
  repeat (destruct H as [H|H]; [injection H as <- <-; value; reflexivity|]). contradiction.
Qed.

Lemma copy_n : is_operator op -> copy_params b s p P_n = order op (s S_m) (s S_n).
Proof.
  intro O. rewrite copy_eq. other. unfold copy_dims. cbv zeta.
  destruct O as [->|[->| ->]]; cbn [Z.eqb Pos.eqb op_AtA op_AAt op_augmented order]; rd; reflexivity.
Qed.

Lemma copy_nLocal : is_operator op -> copy_params b s p P_nLocal =
  if (p P_nLocal =? -1) && negb (negb (op =? 1) && (s S_mLocal =? -1))
     && negb (negb (op =? 2) && (s S_nLocal =? -1))
  then local_rows op (s S_mLocal) (s S_nLocal) else p P_nLocal.
Proof.
  intro O. rewrite copy_eq. other. unfold copy_dims. cbv zeta.
  destruct O as [->|[->| ->]];
    cbn [Z.eqb Pos.eqb op_AtA op_AAt op_augmented local_rows negb andb]; rd; other;
    destruct (p P_nLocal =? -1); cbn [andb negb]; try reflexivity;
    destruct (s S_mLocal =? -1), (s S_nLocal =? -1); reflexivity.
Qed.

Lemma copy_target_val : 0 <= s S_target <= 2 ->
  copy_params b s p P_target = eigen_target op (s S_target).
Proof.
  intro T. rewrite copy_eq. other. unfold copy_target.
  assert (C : s S_target = 0 \/ s S_target = 1 \/ s S_target = 2) by lia.
  destruct C as [->|[->| ->]];
    cbn [Z.eqb Pos.eqb primme_svds_largest primme_svds_smallest primme_svds_closest_abs eigen_target]; rd;
    reflexivity.
Qed.

Lemma copy_shifts : copy_params b s p P_numTargetShifts =
  if s S_target =? 2 then s S_numTargetShifts else p P_numTargetShifts.
Proof.
  rewrite copy_eq. other. unfold copy_target, primme_svds_largest, primme_svds_smallest, primme_svds_closest_abs.
  destruct (Z.eqb_spec (s S_target) 0) as [E|E]; [rewrite E; cbn [Z.eqb]; rd; other; reflexivity|].
  destruct (Z.eqb_spec (s S_target) 1) as [E1|E1]; [rewrite E1; cbn [Z.eqb Pos.eqb]; rd; other; reflexivity|].
  destruct (s S_target =? 2); rd; other; reflexivity.
Qed.

Lemma copy_aNorm : is_operator op -> copy_params b s p P_aNorm =
  if 0 <? s S_aNorm then (if op =? 3 then root2 (s S_aNorm) else sq (s S_aNorm)) else p P_aNorm.
Proof.
  intro O. value. rewrite Z.gtb_ltb. destruct (0 <? s S_aNorm); [|reflexivity].
  destruct O as [->|[->| ->]]; reflexivity.
Qed.

Lemma copy_par : forall f v,
  In (f, v) [ (P_numProcs, s S_numProcs); (P_procID, s S_procID); (P_commInfo, s S_commInfo) ] ->
  copy_params b s p f = if 1 <? s S_numProcs then v else p f.
Proof.
  intros f v H. cbn [In] in H.
  repeat (destruct H as [H|H]; [injection H as <- <-; value; other; rewrite Z.gtb_ltb; reflexivity|]).
  contradiction.
Qed.

Lemma copy_sizes_val : forall f v,
  In (f, v) [ (P_maxBasisSize, s S_maxBasisSize); (P_maxBlockSize, s S_maxBlockSize) ] ->
  copy_params b s p f = if 0 <? v then v else p f.
Proof.
  intros f v H. cbn [In] in H.
  repeat (destruct H as [H|H]; [injection H as <- <-; value; rewrite Z.gtb_ltb; reflexivity|]).
  contradiction.
Qed.

Lemma copy_gsum : copy_params b s p P_globalSumReal = if s S_globalSumReal =? 0 then p P_globalSumReal else gsum.
Proof. value. other. unfold nonnull. destruct (s S_globalSumReal =? 0); reflexivity. Qed.

Lemma copy_bcast : copy_params b s p P_broadcastReal = if s S_broadcastReal =? 0 then p P_broadcastReal else bcast.
Proof. value. other. unfold nonnull. destruct (s S_broadcastReal =? 0); reflexivity. Qed.

Lemma copy_locking : copy_params b s p P_locking = if 0 <=? s S_locking then s S_locking else p P_locking.
Proof.
  rewrite copy_eq. unfold copy_modes. cbv zeta.
  destruct (s S_precondition >=? 0).
  2: match goal with |- (if ?c then _ else _) _ = _ => destruct c end.
  all: rd; other; rewrite Z.geb_leb; reflexivity.
Qed.

Lemma copy_mode : copy_params b s p P_initBasisMode =
  if b && (p P_initBasisMode =? 0) then 3 else p P_initBasisMode.
Proof.
  rewrite copy_eq. unfold copy_modes. cbv zeta.
  destruct (s S_precondition >=? 0).
  2: match goal with |- (if ?c then _ else _) _ = _ => destruct c end.
  all: rd; other; reflexivity.
Qed.

Lemma copy_projection : copy_params b s p P_projection =
  if (((op =? 3) && negb (s S_target =? 0)) || (s S_target =? 2)) && (p P_projection =? 0)
  then 3 else p P_projection.
Proof.
  rewrite copy_eq. unfold copy_modes. cbv zeta.
  destruct (s S_precondition >=? 0).
  2: match goal with |- (if ?c then _ else _) _ = _ => destruct c end.
  all: rd; other; reflexivity.
Qed.

Lemma copy_precond : copy_params b s p P_precondition =
  if 0 <=? s S_precondition then s S_precondition
  else if p P_precondition <? 0 then (if s S_applyPreconditioner =? 0 then 0 else 1)
  else p P_precondition.
Proof.
  rewrite copy_eq. unfold copy_modes. cbv zeta. rewrite Z.geb_leb.
  destruct (0 <=? s S_precondition); [rd; reflexivity|]. rd; other.
  destruct (p P_precondition <? 0); rd; other; [|reflexivity].
  unfold nonnull. destruct (s S_applyPreconditioner =? 0); reflexivity.
Qed.

Lemma copy_other : forall f, ~ In f (w_sizes ++ w_parallel ++ w_dims ++ w_target ++ w_modes) ->
  copy_params b s p f = p f.
Proof.
  intros f H. rewrite !in_app_iff in H. rewrite copy_eq.
  rewrite modes_other', target_other, dims_other, parallel_other, sizes_other by tauto. reflexivity.
Qed.
End Copy.

(* ================================================================ *)
(** * C47: the method and the settings of the two eigensolvers *)

(** [stage_has l p]: the structure [p] has the values of the list [l]. *)
Definition stage_has (l : list (field * Z)) (p : params) : Prop :=
  forall f v, In (f, v) l -> p f = v.

(** The operators are valid, or the first one is still to be chosen. *)
Definition operators_ok (s : sparams) : Prop :=
  0 <= s S_method <= 3 /\ 0 <= s S_methodStage2 <= 3.

Lemma copy_problem : forall b s p,
  is_operator (if b : bool then s S_methodStage2 else s S_method) -> 0 <= s S_target <= 2 ->
  stage_has (stage_problem sq root2 (if b then s S_methodStage2 else s S_method) s) (copy_params b s p).
Proof.
  intros b s p O T f v H.
  assert (A : (if b then s S_methodStage2 else s S_method) <> 0).
  { destruct O as [O|[O|O]]; rewrite O; discriminate. }
  unfold stage_problem in H. rewrite !in_app_iff in H.
  destruct H as [H|[H|[H|H]]].
  - cbn [In] in H.
    destruct H as [H|[H|[H|H]]].
    + injection H as <- <-. apply copy_n; assumption.
    + injection H as <- <-. apply copy_plain; [exact A|cbn [In]; tauto].
    + injection H as <- <-. apply copy_target_val; assumption.
    + apply copy_plain; [exact A|]. cbn [In]. tauto.
  - destruct (1 <? s S_numProcs) eqn:E; [|contradiction].
    rewrite (copy_par b s p A f v), E; [reflexivity|]. exact H.
  - destruct (s S_target =? 2) eqn:E; [|contradiction].
    destruct H as [H|[]]. injection H as <- <-. rewrite copy_shifts, E by exact A. reflexivity.
  - destruct (0 <? s S_aNorm) eqn:E; [|contradiction].
    destruct H as [H|[]]. injection H as <- <-. rewrite copy_aNorm, E by assumption. reflexivity.
Qed.

Lemma copy_choices : forall b s p,
  is_operator (if b : bool then s S_methodStage2 else s S_method) ->
  stage_has (stage_choices s) (copy_params b s p).
Proof.
  intros b s p O f v H.
  assert (A : (if b then s S_methodStage2 else s S_method) <> 0).
  { destruct O as [O|[O|O]]; rewrite O; discriminate. }
  unfold stage_choices in H. rewrite !in_app_iff in H.
  destruct H as [H|[H|[H|H]]];
    match type of H with In _ (if ?c then _ else _) => destruct c eqn:E; [|contradiction] end;
    destruct H as [H|[]]; injection H as <- <-.
  - rewrite (copy_sizes_val b s p A _ (s S_maxBasisSize)), E; [reflexivity|cbn [In]; tauto].
  - rewrite (copy_sizes_val b s p A _ (s S_maxBlockSize)), E; [reflexivity|cbn [In]; tauto].
  - rewrite copy_locking, E by exact A. reflexivity.
  - rewrite copy_precond, E by exact A. reflexivity.
Qed.

(** ** Termination of the two mutually recursive functions *)
Lemma set_method_some : forall m p, exists r q, primme_set_method m p = Some (r, q).
Proof.
  intros m p. unfold primme_set_method. rewrite set_method_with_total. cbv zeta.
  destruct (method_specific _ _); eauto.
Qed.

Definition keeps (p q : params) : Prop := forall f, In f problem_members -> q f = p f.

Lemma keeps_refl : forall p, keeps p p.
Proof. intros p f _. reflexivity. Qed.

Lemma set_method_keeps : forall m p r q, primme_set_method m p = Some (r, q) -> keeps p q.
Proof. intros m p r q H f I. exact (C01_presets_keep_problem m p r q f H I). Qed.

Lemma with_defaults : forall d preset m1 m2 s s1,
  d (Svds (choose_method preset (own s)) (st1 s) (st2 s)) = Some s1 ->
  exists q, svds_set_method_with d preset m1 m2 s = Some (0, q) /\ own q = own s1 /\
    (exists r, primme_set_method m1 (st1 s1) = Some (r, st1 q)) /\
    (own s1 S_methodStage2 = 0 /\ st2 q = st2 s1 \/
     exists r, primme_set_method (if (m2 =? 0) && negb (own s1 S_target =? 0) then 11 else m2)
                 (st2 s1) = Some (r, st2 q)).
Proof.
  intros d preset m1 m2 s s1 H. unfold svds_set_method_with. rewrite H. cbn [bind].
  destruct (set_method_some m1 (st1 s1)) as (r1 & q1 & E1). rewrite E1. cbn [bind snd own st1 st2].
  cbv zeta. cbn [own st1 st2].
  destruct (Z.eqb_spec (own s1 S_methodStage2) op_none) as [Z|Z].
  - eexists; split; [reflexivity|]. cbn [own st1 st2]. split; [reflexivity|]. split; eauto.
  - unfold PRIMME_DEFAULT_METHOD, primme_svds_largest, PRIMME_JDQMR.
    destruct (set_method_some (if (m2 =? 0) && negb (own s1 S_target =? 0) then 11 else m2) (st2 s1))
      as (r2 & q2 & E2).
    rewrite E2. cbn [bind snd]. eexists; split; [reflexivity|]. cbn [own st1 st2].
    split; [reflexivity|]. split; eauto.
Qed.

Lemma choose_valid : forall preset s, 0 <= preset <= 3 ->
  (choose_method preset s S_method, choose_method preset s S_methodStage2)
  = documented_methods preset (s S_m) (s S_n).
Proof.
  intros preset s H.
  assert (C : preset = 0 \/ preset = 1 \/ preset = 2 \/ preset = 3) by lia.
  destruct C as [->|[->|[->| ->]]]; unfold choose_method, documented_methods;
    cbn [Z.eqb Pos.eqb orb primme_svds_default primme_svds_hybrid primme_svds_normalequations
         primme_svds_augmented ssets];
    rewrite ?sset_eq, ?sset_neq by discriminate; rewrite ?sset_eq, ?sset_neq by discriminate;
    reflexivity.
Qed.

Lemma choose_other : forall preset s f, f <> S_method -> f <> S_methodStage2 ->
  choose_method preset s f = s f.
Proof.
  intros preset s f N1 N2. unfold choose_method. cbv zeta.
  repeat match goal with |- (if ?c then ssets _ _ else _) _ = _ => destruct c end;
  cbn [ssets]; rewrite ?sset_neq by congruence; reflexivity.
Qed.

Lemma choose_ok : forall preset s, operators_ok s -> operators_ok (choose_method preset s).
Proof.
  intros preset s O.
  destruct (Z_le_dec 0 preset) as [L|L]; [destruct (Z_le_dec preset 3) as [U|U]|].
  - pose proof (choose_valid preset s (conj L U)) as H. unfold documented_methods in H.
    unfold operators_ok.
    assert (C : preset = 0 \/ preset = 1 \/ preset = 2 \/ preset = 3) by lia.
    pose proof (f_equal fst H) as H1. pose proof (f_equal snd H) as H2. cbn [fst snd] in H1, H2.
    rewrite H1, H2.
    destruct C as [->|[->|[->| ->]]]; cbn [fst snd]; destruct (s S_n <=? s S_m); lia.
  - unfold choose_method. cbv zeta. unfold primme_svds_default, primme_svds_hybrid,
      primme_svds_normalequations, primme_svds_augmented.
    destruct (Z.eqb_spec preset 0); [lia|]. destruct (Z.eqb_spec preset 1); [lia|].
    destruct (Z.eqb_spec preset 2); [lia|]. destruct (Z.eqb_spec preset 3); [lia|]. exact O.
  - unfold choose_method. cbv zeta. unfold primme_svds_default, primme_svds_hybrid,
      primme_svds_normalequations, primme_svds_augmented.
    destruct (Z.eqb_spec preset 0); [lia|]. destruct (Z.eqb_spec preset 1); [lia|].
    destruct (Z.eqb_spec preset 2); [lia|]. destruct (Z.eqb_spec preset 3); [lia|]. exact O.
Qed.

Lemma choose_default : forall s,
  choose_method 0 s S_method <> 0 /\ choose_method 0 s S_methodStage2 = 3.
Proof.
  intro s. pose proof (choose_valid 0 s ltac:(lia)) as H.
  pose proof (f_equal fst H) as H1. pose proof (f_equal snd H) as H2. cbn [fst snd] in H1, H2.
  rewrite H1, H2. unfold documented_methods. cbn [fst snd].
  split; [destruct (_ <=? _); discriminate|reflexivity].
Qed.

Lemma copy_both_own : forall s, own (copy_both s) = own s.
Proof. intro s. unfold SvdsParamsModel.copy_both. cbv zeta. cbn [own]. destruct (_ =? _); reflexivity. Qed.

Lemma copy_both_st1 : forall s, st1 (copy_both s) = copy_params false (own s) (st1 s).
Proof. intro s. unfold SvdsParamsModel.copy_both. cbv zeta. cbn [own]. destruct (_ =? _); reflexivity. Qed.

Lemma copy_both_st2 : forall s, own s S_methodStage2 <> 0 ->
  st2 (copy_both s) = copy_params true (own s) (st2 s).
Proof.
  intros s H. unfold SvdsParamsModel.copy_both. cbv zeta. cbn [own].
  destruct (Z.eqb_spec (own s S_methodStage2) op_none) as [E|E]; [contradiction|reflexivity].
Qed.

Lemma copy_both_none : forall s, own s S_methodStage2 = 0 -> st2 (copy_both s) = st2 s.
Proof.
  intros s H. unfold SvdsParamsModel.copy_both. cbv zeta. cbn [own].
  destruct (Z.eqb_spec (own s S_methodStage2) op_none) as [E|E]; [reflexivity|contradiction].
Qed.

Lemma defaults_chosen : forall k s, own s S_method <> 0 ->
  svds_defaults_fuel sq root2 gsum bcast (S k) s = Some (copy_both s).
Proof.
  intros k s H. cbn [svds_defaults_fuel].
  destruct (Z.eqb_spec (own s S_method) op_none) as [E|E]; [contradiction|reflexivity].
Qed.

(** What the second function does before its copies. *)
Definition prepared_by (s s1 : svds) : Prop :=
  (own s S_method <> 0 /\ s1 = s) \/
  (own s S_method = 0 /\
   own s1 = choose_method 0 (own s) /\
   (exists r, primme_set_method 0 (copy_params false (own s1) (st1 s)) = Some (r, st1 s1)) /\
   (exists r, primme_set_method (if own s S_target =? 0 then 0 else 11)
                (copy_params true (own s1) (st2 s)) = Some (r, st2 s1))).

Lemma defaults_eq : forall s, exists s1, prepared_by s s1 /\ svds_set_defaults s = Some (copy_both s1).
Proof.
  intro s. unfold SvdsParamsModel.svds_set_defaults.
  destruct (Z.eq_dec (own s S_method) 0) as [E|E].
  - destruct (choose_default (own s)) as [V1 V2].
    change (svds_defaults_fuel sq root2 gsum bcast 2 s) with
      (s1 <- (if own s S_method =? op_none
           then r <- svds_set_method_with (svds_defaults_fuel sq root2 gsum bcast 1) primme_svds_default
                       PRIMME_DEFAULT_METHOD PRIMME_DEFAULT_METHOD s ;
                Some (snd r)
           else Some s) ;
       Some (copy_both s1)).
    rewrite E. cbn [Z.eqb op_none].
    destruct (with_defaults (svds_defaults_fuel sq root2 gsum bcast 1) 0 0 0 s _
      (defaults_chosen 0 (Svds (choose_method 0 (own s)) (st1 s) (st2 s)) V1)) as (q & Q & O & M1 & M2).
    unfold primme_svds_default, PRIMME_DEFAULT_METHOD. rewrite Q. cbn [bind snd].
    exists q. split; [|reflexivity]. right. split; [exact E|].
    rewrite copy_both_own in *. cbn [own] in O. split; [exact O|].
    rewrite copy_both_st1 in M1. cbn [own st1] in M1. rewrite O. split; [exact M1|].
    cbn [own] in M2. destruct M2 as [[Z _]|M2]; [rewrite V2 in Z; discriminate|].
    rewrite copy_both_st2 in M2 by (cbn [own]; rewrite V2; discriminate). cbn [own st2] in M2.
    rewrite choose_other in M2 by discriminate. cbn [Z.eqb] in M2.
    destruct (own s S_target =? 0); exact M2.
  - exists s. split; [left; auto|]. apply defaults_chosen. exact E.
Qed.

Lemma prepared_own : forall s s1, prepared_by s s1 -> operators_ok (own s) ->
  own s1 S_method <> 0 /\ operators_ok (own s1) /\
  (forall f, f <> S_method -> f <> S_methodStage2 -> own s1 f = own s f).
Proof.
  intros s s1 [[N ->]|(E & O & _)] K.
  - auto.
  - rewrite O. split; [|split].
    + apply choose_default.
    + apply choose_ok. exact K.
    + intros. apply choose_other; assumption.
Qed.

Lemma op_cases : forall z, 0 <= z <= 3 -> z <> 0 -> is_operator z.
Proof. intros z H N. unfold is_operator. lia. Qed.

(** ** The theorems *)

(** Both functions always return; the preset function always with 0. *)
Theorem C47_total : forall preset m1 m2 s,
  (exists q, svds_set_defaults s = Some q) /\
  (exists q, svds_set_method preset m1 m2 s = Some (0, q)).
Proof.
  intros preset m1 m2 s. split.
  - destruct (defaults_eq s) as (s1 & _ & E). eauto.
  - destruct (defaults_eq (Svds (choose_method preset (own s)) (st1 s) (st2 s))) as (s1 & _ & E).
    destruct (with_defaults svds_set_defaults preset m1 m2 s _ E) as (q & Q & _). exists q. exact Q.
Qed.

(** A preset selects the documented problems for the two stages. *)
Theorem C47_methods : forall preset m1 m2 s r q, 0 <= preset <= 3 ->
  svds_set_method preset m1 m2 s = Some (r, q) ->
  (own q S_method, own q S_methodStage2) = documented_methods preset (own s S_m) (own s S_n).
Proof.
  intros preset m1 m2 s r q V H.
  destruct (defaults_eq (Svds (choose_method preset (own s)) (st1 s) (st2 s))) as (s1 & P & E).
  destruct (with_defaults svds_set_defaults preset m1 m2 s _ E) as (q' & Q & O & _).
  unfold SvdsParamsModel.svds_set_method in H. rewrite Q in H. injection H as _ <-.
  rewrite O, copy_both_own.
  pose proof (choose_valid preset (own s) V) as C. rewrite <- C.
  destruct P as [[N ->]|(Z & _)]; [reflexivity|].
  exfalso. cbn [own] in Z. rewrite Z in C. unfold documented_methods in C.
  assert (D : preset = 0 \/ preset = 1 \/ preset = 2 \/ preset = 3) by lia.
  apply (f_equal fst) in C. cbn [fst] in C.
  destruct D as [->|[->|[->| ->]]]; cbn [fst] in C; try discriminate;
    destruct (own s S_n <=? own s S_m); discriminate.
Qed.

(** Without a preset the defaults select the hybrid method, and they keep a
    selection already made. *)
Theorem C47_default_method : forall s q, svds_set_defaults s = Some q ->
  (own s S_method = 0 ->
     (own q S_method, own q S_methodStage2) = documented_methods 1 (own s S_m) (own s S_n)) /\
  (own s S_method <> 0 ->
     own q S_method = own s S_method /\ own q S_methodStage2 = own s S_methodStage2).
Proof.
  intros s q H. destruct (defaults_eq s) as (s1 & P & E). rewrite E in H. injection H as <-.
  rewrite copy_both_own. destruct P as [[N ->]|(Z & O & _)].
  - split; [contradiction|auto].
  - split; [|contradiction]. intros _. rewrite O. apply (choose_valid 0). lia.
Qed.

(** No other setting of the singular value solver changes. *)
Theorem C47_settings_kept : forall preset m1 m2 s r q q' f, operators_ok (own s) ->
  f <> S_method -> f <> S_methodStage2 ->
  svds_set_method preset m1 m2 s = Some (r, q) -> svds_set_defaults s = Some q' ->
  own q f = own s f /\ own q' f = own s f.
Proof.
  intros preset m1 m2 s r q q' f K N1 N2 H H'. split.
  - destruct (defaults_eq (Svds (choose_method preset (own s)) (st1 s) (st2 s))) as (s1 & P & E).
    destruct (with_defaults svds_set_defaults preset m1 m2 s _ E) as (q1 & Q & O & _).
    unfold SvdsParamsModel.svds_set_method in H. rewrite Q in H. injection H as _ <-.
    rewrite O, copy_both_own.
    destruct (prepared_own _ _ P (choose_ok preset _ K)) as (_ & _ & X). rewrite X by assumption.
    apply choose_other; assumption.
  - destruct (defaults_eq s) as (s1 & P & E). rewrite E in H'. injection H' as <-.
    rewrite copy_both_own. destruct (prepared_own _ _ P K) as (_ & _ & X). apply X; assumption.
Qed.

(** [for_stages C s]: [C operator stage] holds of the first stage, and of the
    second one when the method has two. *)
Definition for_stages (C : Z -> params -> Prop) (s : svds) : Prop :=
  C (own s S_method) (st1 s) /\ (own s S_methodStage2 <> 0 -> C (own s S_methodStage2) (st2 s)).

Lemma after_defaults : forall (C : Z -> params -> Prop) s q, operators_ok (own s) ->
  svds_set_defaults s = Some q ->
  (forall b p, let op := if b : bool then own q S_methodStage2 else own q S_method in
     is_operator op -> C op (copy_params b (own q) p)) ->
  for_stages C q.
Proof.
  intros C s q K H F. destruct (defaults_eq s) as (s1 & P & E). rewrite E in H. injection H as <-.
  destruct (prepared_own _ _ P K) as (N & (K1 & K2) & _).
  rewrite copy_both_own in F. split.
  - rewrite copy_both_own, copy_both_st1. apply (F false). apply op_cases; assumption.
  - intro N2. rewrite copy_both_own in *. rewrite copy_both_st2 by assumption.
    apply (F true). apply op_cases; assumption.
Qed.

Lemma after_method : forall (C : Z -> params -> Prop) preset m1 m2 s r q, operators_ok (own s) ->
  svds_set_method preset m1 m2 s = Some (r, q) ->
  (forall op p p', keeps p p' -> C op p -> C op p') ->
  (forall b p, let op := if b : bool then own q S_methodStage2 else own q S_method in
     is_operator op -> C op (copy_params b (own q) p)) ->
  for_stages C q.
Proof.
  intros C preset m1 m2 s r q K H I F.
  destruct (defaults_eq (Svds (choose_method preset (own s)) (st1 s) (st2 s))) as (s1 & P & E).
  destruct (with_defaults svds_set_defaults preset m1 m2 s _ E) as (q1 & Q & O & (r1 & M1) & M2).
  unfold SvdsParamsModel.svds_set_method in H. rewrite Q in H. injection H as _ <-.
  assert (G : for_stages C (copy_both s1)).
  { apply (after_defaults C (Svds (choose_method preset (own s)) (st1 s) (st2 s))).
    - cbn [own]. apply choose_ok. exact K.
    - exact E.
    - rewrite O in F. exact F. }
  destruct G as [G1 G2]. unfold for_stages. rewrite O. split.
  - eapply I; [|exact G1]. eapply set_method_keeps. exact M1.
  - intro N. specialize (G2 N). destruct M2 as [[Z _]|[r2 M2]]; [contradiction|].
    eapply I; [|exact G2]. eapply set_method_keeps. exact M2.
Qed.

Lemma problem_in : forall op s f v, In (f, v) (stage_problem sq root2 op s) -> In f problem_members.
Proof.
  intros op s f v H. unfold stage_problem in H. rewrite !in_app_iff in H. unfold problem_members.
  destruct H as [H|[H|[H|H]]].
  - cbn [In] in H. repeat (destruct H as [H|H]; [injection H as <- _; cbn [In]; tauto|]). contradiction.
  - destruct (1 <? s S_numProcs); [|contradiction]. cbn [In] in H.
    repeat (destruct H as [H|H]; [injection H as <- _; cbn [In]; tauto|]). contradiction.
  - destruct (s S_target =? 2); [|contradiction]. destruct H as [H|[]]. injection H as <- _. cbn [In]; tauto.
  - destruct (0 <? s S_aNorm); [|contradiction]. destruct H as [H|[]]. injection H as <- _. cbn [In]; tauto.
Qed.

(** After either function each stage has the order, the number of wanted pairs,
    the target, the tolerances and limits, the guesses and constraints, the
    process layout and the shifts and norm of the operator it solves with. *)
Theorem C47_problem : forall preset m1 m2 s r q q', operators_ok (own s) -> 0 <= own s S_target <= 2 ->
  svds_set_method preset m1 m2 s = Some (r, q) -> svds_set_defaults s = Some q' ->
  for_stages (fun op p => stage_has (stage_problem sq root2 op (own q)) p) q /\
  for_stages (fun op p => stage_has (stage_problem sq root2 op (own q')) p) q'.
Proof.
  intros preset m1 m2 s r q q' K T H H'.
  destruct (C47_settings_kept preset m1 m2 s r q q' S_target K ltac:(discriminate) ltac:(discriminate) H H')
    as [T1 T2].
  split.
  - eapply after_method; [exact K|exact H| |].
    + intros op p p' X Y f v I. rewrite (X f) by (eapply problem_in; exact I). apply Y. exact I.
    + intros b p op O. apply copy_problem; [exact O|]. rewrite T1. exact T.
  - eapply after_defaults; [exact K|exact H'|].
    intros b p op O. apply copy_problem; [exact O|]. rewrite T2. exact T.
Qed.

(** After the defaults each stage has the user's basis size, block size, locking
    and preconditioning choices. *)
Theorem C47_choices : forall s q, operators_ok (own s) -> svds_set_defaults s = Some q ->
  for_stages (fun _ p => stage_has (stage_choices (own q)) p) q.
Proof.
  intros s q K H. eapply after_defaults; [exact K|exact H|].
  intros b p op O. apply copy_choices. exact O.
Qed.

(** Both parallel callbacks of each stage are the wrappers when the user gave
    theirs. *)
Theorem C47_callbacks : forall preset m1 m2 s r q, operators_ok (own s) ->
  svds_set_method preset m1 m2 s = Some (r, q) ->
  for_stages (fun _ p =>
    (own q S_globalSumReal <> 0 -> p P_globalSumReal = gsum) /\
    (own q S_broadcastReal <> 0 -> p P_broadcastReal = bcast)) q.
Proof.
  intros preset m1 m2 s r q K H. eapply after_method; [exact K|exact H| |].
  - intros op p p' X [Y1 Y2]. split; intro N;
      rewrite X by (unfold problem_members; cbn [In]; tauto); auto.
  - intros b p op O. assert (A : op <> 0) by (destruct O as [O|[O|O]]; rewrite O; discriminate).
    split; intro N.
    + rewrite copy_gsum by exact A. destruct (Z.eqb_spec (own q S_globalSumReal) 0); [contradiction|reflexivity].
    + rewrite copy_bcast by exact A. destruct (Z.eqb_spec (own q S_broadcastReal) 0); [contradiction|reflexivity].
Qed.

(** The local rows of each stage are right, if they were not set before. *)
Theorem C47_local_rows : forall s q, operators_ok (own s) -> svds_set_defaults s = Some q ->
  st1 s P_nLocal = -1 -> st2 s P_nLocal = -1 -> 0 <= own s S_mLocal -> 0 <= own s S_nLocal ->
  for_stages (fun op p => p P_nLocal = local_rows op (own s S_mLocal) (own s S_nLocal)) q.
Proof.
  intros s q K H L1 L2 Lm Ln.
  destruct (defaults_eq s) as (s1 & P & E). rewrite E in H. injection H as <-.
  destruct (prepared_own _ _ P K) as (N & (K1 & K2) & X).
  assert (Xm : own s1 S_mLocal = own s S_mLocal) by (apply X; discriminate).
  assert (Xn : own s1 S_nLocal = own s S_nLocal) by (apply X; discriminate).
  assert (F : forall (b : bool) p, is_operator (if b then own s1 S_methodStage2 else own s1 S_method) ->
    (p P_nLocal = -1 \/ p P_nLocal = local_rows (if b then own s1 S_methodStage2 else own s1 S_method)
       (own s S_mLocal) (own s S_nLocal)) ->
    copy_params b (own s1) p P_nLocal =
    local_rows (if b then own s1 S_methodStage2 else own s1 S_method) (own s S_mLocal) (own s S_nLocal)).
  { intros b p O D.
    assert (A : (if b then own s1 S_methodStage2 else own s1 S_method) <> 0)
      by (destruct O as [O|[O|O]]; rewrite O; discriminate).
    rewrite copy_nLocal by assumption. rewrite Xm, Xn.
    destruct (Z.eqb_spec (own s S_mLocal) (-1)); [lia|].
    destruct (Z.eqb_spec (own s S_nLocal) (-1)); [lia|].
    rewrite !andb_false_r. cbn [negb andb]. rewrite !andb_true_r.
    destruct (Z.eqb_spec (p P_nLocal) (-1)) as [Y|Y]; [reflexivity|]. destruct D; [contradiction|assumption]. }
  assert (O1 : is_operator (own s1 S_method)) by (apply op_cases; assumption).
  unfold for_stages. rewrite copy_both_own. split.
  - rewrite copy_both_st1. apply (F false); [exact O1|].
    destruct P as [[_ ->]|(_ & _ & (r1 & M1) & _)]; [left; exact L1|]. right.
    rewrite (set_method_keeps _ _ _ _ M1) by (unfold problem_members; cbn [In]; tauto).
    apply (F false); [exact O1|left; exact L1].
  - intro N2. assert (O2 : is_operator (own s1 S_methodStage2)) by (apply op_cases; assumption).
    rewrite copy_both_st2 by assumption. apply (F true); [exact O2|].
    destruct P as [[_ ->]|(_ & _ & _ & (r2 & M2))]; [left; exact L2|]. right.
    rewrite (set_method_keeps _ _ _ _ M2) by (unfold problem_members; cbn [In]; tauto).
    apply (F true); [exact O2|left; exact L2].
Qed.

(** A second completion changes nothing. *)
Lemma copy_twice : forall b s p f,
  (is_operator (if b : bool then s S_methodStage2 else s S_method) \/
   (if b then s S_methodStage2 else s S_method) = 0) -> 0 <= s S_target <= 2 ->
  copy_params b s (copy_params b s p) f = copy_params b s p f.
Proof.
  intros b s p f [O|Z] T.
  - assert (A : (if b then s S_methodStage2 else s S_method) <> 0)
      by (destruct O as [O|[O|O]]; rewrite O; discriminate).
    destruct (in_dec field_dec f (w_sizes ++ w_parallel ++ w_dims ++ w_target ++ w_modes)) as [I|N].
    2: apply copy_other; assumption.
    cbn [w_sizes w_parallel w_dims w_target w_modes app In] in I.
    repeat (destruct I as [<-|I];
      [first [ erewrite (copy_plain b s _ A) by (cbn [In]; tauto);
               symmetry; apply copy_plain; [exact A|cbn [In]; tauto]
             | rewrite !copy_aNorm by assumption
             | erewrite !(copy_sizes_val b s _ A) by (cbn [In]; tauto)
             | erewrite !(copy_par b s _ A) by (cbn [In]; tauto)
             | rewrite !copy_gsum by assumption | rewrite !copy_bcast by assumption
             | rewrite !copy_n by assumption | rewrite !copy_nLocal by assumption
             | rewrite !copy_target_val by assumption | rewrite !copy_shifts by assumption
             | rewrite !copy_mode by assumption | rewrite !copy_projection by assumption
             | rewrite !copy_locking by assumption | rewrite !copy_precond by assumption ];
       try reflexivity;
       repeat match goal with |- context [if ?c then _ else _] =>
         match c with context [if _ then _ else _] => fail 1 | _ => destruct c eqn:? end end;
       cbn [andb orb negb] in *; try reflexivity; try discriminate; try congruence|]);
    try contradiction.
  - unfold SvdsParamsModel.copy_params. cbv zeta. rewrite Z. cbn [Z.eqb op_none].
    destruct (field_dec P_maxMatvecs f) as [<-|N]; [rewrite !set_eq; reflexivity|].
    rewrite !set_neq by exact N. reflexivity.
Qed.

Theorem C47_idempotent : forall s q q', operators_ok (own s) -> 0 <= own s S_target <= 2 ->
  svds_set_defaults s = Some q -> svds_set_defaults q = Some q' ->
  own q' = own q /\ same (st1 q') (st1 q) /\ same (st2 q') (st2 q).
Proof.
  intros s q q' K T H H'. destruct (defaults_eq s) as (s1 & P & E). rewrite E in H. injection H as <-.
  destruct (prepared_own _ _ P K) as (N & (K1 & K2) & X).
  unfold SvdsParamsModel.svds_set_defaults in H'.
  rewrite defaults_chosen in H' by (rewrite copy_both_own; exact N). injection H' as <-.
  assert (T1 : 0 <= own s1 S_target <= 2) by (rewrite X by discriminate; exact T).
  rewrite copy_both_own. split; [reflexivity|]. split.
  - intro f. rewrite copy_both_st1, copy_both_own, copy_both_st1.
    apply copy_twice; [left; apply op_cases; assumption|exact T1].
  - intro f. destruct (Z.eq_dec (own s1 S_methodStage2) 0) as [Z|Z].
    + rewrite (copy_both_none (copy_both s1)) by (rewrite copy_both_own; exact Z). reflexivity.
    + rewrite copy_both_st2 by (rewrite copy_both_own; exact Z).
      rewrite copy_both_own, copy_both_st2 by exact Z.
      apply copy_twice; [left; apply op_cases; assumption|exact T1].
Qed.

Lemma preset_precondition : forall m p r q, m = 0 \/ m = 11 ->
  primme_set_method m p = Some (r, q) -> 0 <= p P_precondition ->
  q P_precondition = p P_precondition.
Proof.
  intros m p r q M H L.
  rewrite (C32_preset_settings m p r q P_precondition H) by
    (try lia; unfold completed_later; cbn [In]; intuition discriminate).
  destruct M as [->| ->]; unfold settings, dynamic, jdqmr, common; cbn [app];
    unfold listed; cbn [field_eqb fidx Z.eqb Pos.eqb]; unfold precond;
    destruct (Z.eqb_spec (p P_precondition) (-1)); [lia|reflexivity|lia|reflexivity].
Qed.

(** A fresh structure uses the preconditioner exactly if the user gave one. *)
Theorem C47_precondition : forall s q, operators_ok (own s) -> svds_set_defaults s = Some q ->
  own s S_precondition < 0 -> st1 s P_precondition < 0 -> st2 s P_precondition < 0 ->
  for_stages (fun _ p => p P_precondition = if own s S_applyPreconditioner =? 0 then 0 else 1) q.
Proof.
  intros s q K H L L1 L2. destruct (defaults_eq s) as (s1 & P & E). rewrite E in H. injection H as <-.
  destruct (prepared_own _ _ P K) as (N & (K1 & K2) & X).
  assert (Xp : own s1 S_precondition = own s S_precondition) by (apply X; discriminate).
  assert (Xa : own s1 S_applyPreconditioner = own s S_applyPreconditioner) by (apply X; discriminate).
  assert (F : forall (b : bool) p, (if b then own s1 S_methodStage2 else own s1 S_method) <> 0 ->
    (p P_precondition < 0 \/ p P_precondition = if own s S_applyPreconditioner =? 0 then 0 else 1) ->
    copy_params b (own s1) p P_precondition = if own s S_applyPreconditioner =? 0 then 0 else 1).
  { intros b p A D. rewrite copy_precond by exact A. rewrite Xp, Xa.
    destruct (Z.leb_spec 0 (own s S_precondition)); [lia|].
    destruct (Z.ltb_spec (p P_precondition) 0); [reflexivity|]. destruct D; [lia|assumption]. }
  assert (F0 : forall (b : bool) p, (if b then own s1 S_methodStage2 else own s1 S_method) <> 0 ->
    p P_precondition < 0 -> 0 <= copy_params b (own s1) p P_precondition).
  { intros b p A D. rewrite (F b p A (or_introl D)). destruct (_ =? _); lia. }
  unfold for_stages. rewrite copy_both_own. split.
  - rewrite copy_both_st1. apply (F false); [exact N|].
    destruct P as [[_ ->]|(_ & _ & (r1 & M1) & _)]; [left; exact L1|]. right.
    rewrite (preset_precondition 0 _ _ _ (or_introl eq_refl) M1) by (apply (F0 false); assumption).
    apply (F false); [exact N|left; exact L1].
  - intro N2. rewrite copy_both_st2 by assumption. apply (F true); [exact N2|].
    destruct P as [[_ ->]|(_ & _ & _ & (r2 & M2))]; [left; exact L2|]. right.
    assert (C : (if own s S_target =? 0 then 0 else 11) = 0 \/
                (if own s S_target =? 0 then 0 else 11) = 11)
      by (destruct (own s S_target =? 0); [left|right]; reflexivity).
    rewrite (preset_precondition _ _ _ _ C M2) by (apply (F0 true); assumption).
    apply (F true); [exact N2|left; exact L2].
Qed.

(** The second stage starts from the vectors of the first one. *)
Theorem C47_second_stage_guesses : forall s q, operators_ok (own s) -> svds_set_defaults s = Some q ->
  own s S_method <> 0 -> own q S_methodStage2 <> 0 -> st2 s P_initBasisMode = 0 ->
  st2 q P_initBasisMode = 3 /\ st2 q P_initSize = own q S_initSize.
Proof.
  intros s q K H M N2 I.
  destruct (defaults_eq s) as (s1 & P & E). rewrite E in H. injection H as <-.
  rewrite copy_both_own in N2 |- *. rewrite copy_both_st2 by assumption.
  destruct P as [[_ ->]|(Z & _)]; [|contradiction]. split.
  - rewrite copy_mode by exact N2. rewrite I. reflexivity.
  - apply copy_plain; [exact N2|cbn [In]; tauto].
Qed.
End Transfer.

(** ** Examples and counterexamples: doubles as codes; the products are not
    looked at, the wrappers are at addresses 501 and 502. *)
Notation defaults := (svds_set_defaults (fun x => x) (fun x => x) 501 502).
Notation method := (svds_set_method (fun x => x) (fun x => x) 501 502).

(** Twenty columns, thirty rows, three of the smallest values, two processes. *)
Definition sample_svds : svds :=
  let z := svds_initialize 77 in
  Svds (ssets (own z) [(S_m, 30); (S_n, 20); (S_mLocal, 15); (S_nLocal, 10); (S_numSvals, 3);
          (S_target, 1); (S_numProcs, 2); (S_procID, 1); (S_globalSumReal, 300);
          (S_maxBasisSize, 12); (S_applyPreconditioner, 301)]) (st1 z) (st2 z).

Example C47_ex_hyps :
  operators_ok (own sample_svds) /\ 0 <= own sample_svds S_target <= 2 /\
  own sample_svds S_precondition < 0 /\ st1 sample_svds P_precondition < 0 /\
  st2 sample_svds P_precondition < 0 /\ st1 sample_svds P_nLocal = -1 /\
  st2 sample_svds P_nLocal = -1 /\ 0 <= own sample_svds S_mLocal /\ 0 <= own sample_svds S_nLocal.
Proof. unfold operators_ok. vm_compute. intuition discriminate. Qed.

Example C47_ex :
  match defaults sample_svds with
  | Some q =>
      own q S_method = 1 /\ own q S_methodStage2 = 3 /\
      st1 q P_n = 20 /\ st1 q P_nLocal = 10 /\ st1 q P_target = 0 /\ st1 q P_numEvals = 3 /\
      st1 q P_maxBasisSize = 12 /\ st1 q P_precondition = 1 /\ st1 q P_globalSumReal = 501 /\
      st2 q P_n = 50 /\ st2 q P_nLocal = 25 /\ st2 q P_target = 2 /\ st2 q P_numProcs = 2 /\
      st2 q P_projection = 3 /\ st2 q P_initBasisMode = 3 /\ st2 q P_maxInnerIterations = -1
  | None => False
  end.
Proof. vm_compute. intuition. Qed.

(** Changing the method of a structure that was completed before leaves the
    local rows of the first problem in the eigensolver of the second. *)
Theorem C47_change_method_refuted :
  match method 2 0 0 sample_svds with
  | Some (0, q1) =>
      match method 3 0 0 q1 with
      | Some (0, q2) => match defaults q2 with
          | Some q => own q S_method = 3 /\ st1 q P_n = 50 /\ st1 q P_nLocal = 10 /\
                      local_rows 3 (own q S_mLocal) (own q S_nLocal) = 25
          | None => False
          end
      | _ => False
      end
  | _ => False
  end.
Proof. vm_compute. intuition. Qed.

(** A preconditioner given after a preset was chosen is not used. *)
Theorem C47_late_preconditioner_refuted :
  match method 0 0 0 (Svds (sset (own sample_svds) S_applyPreconditioner 0) (st1 sample_svds) (st2 sample_svds)) with
  | Some (0, q1) =>
      match defaults (Svds (sset (own q1) S_applyPreconditioner 301) (st1 q1) (st2 q1)) with
      | Some q => own q S_applyPreconditioner = 301 /\ own q S_precondition = -1 /\
                  st1 q P_precondition = 0 /\ st2 q P_precondition = 0
      | None => False
      end
  | _ => False
  end.
Proof. vm_compute. intuition. Qed.

(** Sizes given after a preset was chosen do not change the choice between the
    two normal equations: with 20 rows and 30 columns the larger one is solved. *)
Theorem C47_late_sizes_refuted :
  match method 2 0 0 (svds_initialize 77) with
  | Some (0, q1) =>
      match defaults (Svds (ssets (own q1) [(S_m, 20); (S_n, 30)]) (st1 q1) (st2 q1)) with
      | Some q => own q S_method = 1 /\ st1 q P_n = 30 /\
                  fst (documented_methods 2 (own q S_m) (own q S_n)) = 2
      | None => False
      end
  | _ => False
  end.
Proof. vm_compute. intuition. Qed.

(** An eigensolver preset that does not exist is rejected by the eigensolver and
    accepted here. *)
Theorem C47_unknown_preset_refuted : forall m p s, ~ (0 <= m <= 15) ->
  (exists q, primme_set_method m p = Some (-1, q)) /\ (exists q, method 1 m m s = Some (0, q)).
Proof.
  intros m p s N. split; [|apply C47_total].
  unfold primme_set_method. rewrite set_method_with_total. cbv zeta.
  rewrite resolve_invalid by exact N. rewrite method_specific_none by exact N. eauto.
Qed.

(** The user's block size is lost between a block preset and the completion. *)
Theorem C47_block_size_refuted :
  match method 3 14 0 (Svds (sset (own sample_svds) S_maxBlockSize 2) (st1 sample_svds) (st2 sample_svds)) with
  | Some (0, q) => own q S_maxBlockSize = 2 /\ st1 q P_maxBlockSize = 3 /\
      match defaults q with Some q' => st1 q' P_maxBlockSize = 2 | None => False end
  | _ => False
  end.
Proof. vm_compute. intuition. Qed.
