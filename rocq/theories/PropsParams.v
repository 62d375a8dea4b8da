(** Property theorems C01-C06: presets, defaults, validation, driver, seeds. *)
From Coq Require Import ZArith List Bool Lia.
From Verif Require Import Base FieldsModel ParamsModel SpecParams ParamsProofs CheckProofs
  DefaultsProofs.
Import ListNotations.
Open Scope Z_scope.

(* ================================================================ *)
(** * C01: presets *)

(** [primme_set_method] always returns; it returns 0 exactly for the sixteen
    documented presets and -1 for every other number. *)
Theorem C01_set_method_result : forall m p,
  exists r q, primme_set_method m p = Some (r, q) /\
    (0 <= m <= 15 -> r = 0) /\ (~ (0 <= m <= 15) -> r = -1).
Proof.
  intros m p. unfold primme_set_method. rewrite set_method_with_total. cbv zeta.
  destruct (Z_le_dec 0 m); [destruct (Z_le_dec m 15)|].
  - destruct (method_specific_some (resolve_method m p)
      (method_common (resolve_method m p) p) (resolve_range m p ltac:(lia))) as [q ->].
    exists 0, (fill_defaults q). repeat split; auto; lia.
  - rewrite resolve_invalid by lia. rewrite method_specific_none by lia.
    eexists (-1), _. repeat split; auto; lia.
  - rewrite resolve_invalid by lia. rewrite method_specific_none by lia.
    eexists (-1), _. repeat split; auto; lia.
Qed.

(** An accepted preset decides every member that [primme_initialize] leaves
    undecided: dynamic switching (on exactly for the default and DYNAMIC
    presets), block size, retained vectors, use of the preconditioner, inner
    iterations, locking, projection and initial basis. *)
Theorem C01_presets_complete : forall m p q,
  primme_set_method m p = Some (0, q) ->
  0 <= p P_maxBlockSize -> 1 <= p P_numEvals ->
  (m = 0 \/ m = 1 -> q P_dynamicMethodSwitch = 1) /\
  (~ (m = 0 \/ m = 1) -> q P_dynamicMethodSwitch = 0) /\
  1 <= q P_maxBlockSize /\ 0 <= q P_maxPrevRetain /\
  q P_precondition <> -1 /\ q P_maxInnerIterations <> - 2147483647 /\
  0 <= q P_locking /\ q P_projection <> 0 /\ q P_initBasisMode <> 0.
Proof.
  intros m p q H B N.
  assert (V : 0 <= m <= 15).
  { destruct (C01_set_method_result m p) as (r & q' & E & _ & K).
    rewrite H in E. inversion E; subst r q'. destruct (Z_le_dec 0 m); [|lia].
    destruct (Z_le_dec m 15); lia. }
  unfold primme_set_method in H. rewrite set_method_with_total in H. cbv zeta in H.
  destruct (method_specific (resolve_method m p) (method_common (resolve_method m p) p)) as [s|] eqn:E;
    [|discriminate].
  injection H as <-.
  destruct (method_common_facts (resolve_method m p) p B) as (F1 & F2 & F3).
  destruct (method_specific_decided _ _ _ E F1 ltac:(lia) F2) as (D1 & D2 & D3 & D4).
  pose proof (method_specific_dyn _ _ _ E) as DY. rewrite method_common_dyn in DY.
  pose proof (resolve_dynamic m p V) as RD.
  rewrite fill_projection, fill_initBasisMode.
  rewrite !fill_other by discriminate.
  repeat split; try assumption.
  - intro. rewrite DY. apply RD in H. rewrite H. reflexivity.
  - intro X. rewrite DY. destruct (Z.eqb_spec (resolve_method m p) PRIMME_DYNAMIC); auto.
    apply RD in e. contradiction.
  - apply fill_locking_nonneg.
  - destruct (Z.eqb_spec (s P_projection) 0); lia.
  - destruct (Z.eqb_spec (s P_initBasisMode) 0); lia.
Qed.

(** Members that identify the problem are never touched by a preset. *)
Definition problem_members : list field :=
  [P_n; P_numEvals; P_target; P_numTargetShifts; P_targetShifts; P_matrixMatvec;
   P_massMatrixMatvec; P_applyPreconditioner; P_numOrthoConst; P_initSize; P_eps; P_aNorm;
   P_numProcs; P_procID; P_nLocal; P_maxMatvecs; P_maxOuterIterations; P_printLevel; P_orth;
   P_outputFile; P_commInfo; P_globalSumReal; P_broadcastReal; P_matrix; P_massMatrix;
   P_preconditioner; P_BNorm; P_invBNorm; P_internalPrecision; P_ldOPs; P_convTestFun; P_convtest;
   P_monitorFun; P_monitor; P_iseed0; P_iseed1; P_iseed2; P_iseed3].

Theorem C01_presets_keep_problem : forall m p r q f,
  primme_set_method m p = Some (r, q) -> In f problem_members -> q f = p f.
Proof.
  intros m p r q f H I.
  assert (NF : forall g, In f [P_ldevecs; P_projection; P_initBasisMode; P_maxBasisSize;
     P_minRestartSize; P_locking; P_dynamicMethodSwitch; P_maxBlockSize; P_precondition;
     P_maxPrevRetain; P_maxInnerIterations; P_robustShifts; P_LeftQ; P_LeftX; P_RightQ;
     P_RightX; P_SkewQ; P_SkewX; P_convTest; P_relTolBase] -> g).
  { intros g J. exfalso. unfold problem_members in I. cbn [In] in I, J.
    repeat (destruct I as [I|I]; [subst f; repeat (destruct J as [J|J]; [discriminate J|]); exact J|]);
    contradiction. }
  assert (NE : forall g, In g [P_ldevecs; P_projection; P_initBasisMode; P_maxBasisSize;
     P_minRestartSize; P_locking; P_dynamicMethodSwitch; P_maxBlockSize; P_precondition;
     P_maxPrevRetain; P_maxInnerIterations; P_robustShifts; P_LeftQ; P_LeftX; P_RightQ;
     P_RightX; P_SkewQ; P_SkewX; P_convTest; P_relTolBase] -> g <> f).
  { intros g G X. subst g. apply NF. exact G. }
  clear NF.
  assert (C : method_common (resolve_method m p) p f = p f).
  { unfold method_common. rewrite !set_if_neq by (apply NE; cbn; tauto).
    rewrite set_neq by (apply NE; cbn; tauto). reflexivity. }
  assert (MS : forall m' p' s, method_specific m' p' = Some s -> s f = p' f).
  { intros m' p' s. unfold method_specific.
    repeat match goal with
    | |- (if ?c then _ else _) = _ -> _ => destruct c
    end; intro K; inversion K; subst; clear K;
    unfold plusK_retain, leftQ_by_precond; cbn [sets]; unfold set_if;
    repeat match goal with |- context [if ?c then _ else _] => destruct c end;
    repeat rewrite set_neq by (apply NE; cbn; tauto); reflexivity. }
  unfold primme_set_method in H. rewrite set_method_with_total in H. cbv zeta in H.
  destruct (method_specific (resolve_method m p) (method_common (resolve_method m p) p)) as [s|] eqn:E.
  - injection H as _ <-.
    rewrite fill_other by (apply not_eq_sym, NE; cbn; tauto). rewrite <- C.
    exact (MS _ _ _ E).
  - injection H as _ <-. exact C.
Qed.

Example C01_nonvacuous :
  exists q, primme_set_method 8 (primme_initialize 77 <+ P_n := 100 <+ P_numEvals := 5)
    = Some (0, q) /\ q P_maxPrevRetain = 2 /\ q P_maxBasisSize = 15 /\ q P_minRestartSize = 6
      /\ q P_locking = 0 /\ q P_robustShifts = 1.
Proof. eexists; split; [reflexivity|]; repeat split; reflexivity. Qed.

(** Without the hypothesis on [numEvals] the block size may be left at zero:
    steepest descent copies [numEvals] into it. *)
Theorem C01_block_size_zero_refuted :
  exists p q, 0 <= p P_maxBlockSize /\ primme_set_method 13 p = Some (0, q)
    /\ q P_maxBlockSize = 0.
Proof.
  exists (primme_initialize 77 <+ P_n := 10 <+ P_numEvals := 0).
  eexists; split; [|split; [reflexivity|reflexivity]]. cbn; lia.
Qed.

(* ================================================================ *)
(** * C02: defaults honour explicit choices and are idempotent *)

(** Once a method is chosen, only members at their "unset" value change. *)
Theorem C02_defaults_keep_choices : forall p,
  0 <= p P_dynamicMethodSwitch ->
  exists q, primme_set_defaults p = Some q /\ forall f, q f <> p f -> unset p f.
Proof.
  intros p H. rewrite set_defaults_total.
  destruct (Z.ltb_spec (p P_dynamicMethodSwitch) 0); [lia|].
  eexists; split; [reflexivity|]. intros f D.
  destruct (field_dec f P_ldevecs).
  { subst. constructor. rewrite fill_ldevecs in D.
    destruct (Z.eqb_spec (p P_ldevecs) (-1)); auto. cbn in D. congruence. }
  destruct (field_dec f P_projection).
  { subst. constructor. rewrite fill_projection in D.
    destruct (Z.eqb_spec (p P_projection) 0); auto. congruence. }
  destruct (field_dec f P_initBasisMode).
  { subst. constructor. rewrite fill_initBasisMode in D.
    destruct (Z.eqb_spec (p P_initBasisMode) 0); auto. congruence. }
  destruct (field_dec f P_maxBasisSize).
  { subst. constructor. rewrite fill_basis in D. unfold filled_basis in D.
    destruct (Z.eqb_spec (p P_maxBasisSize) 0); auto. congruence. }
  destruct (field_dec f P_minRestartSize).
  { subst. constructor. rewrite fill_restart in D. unfold filled_restart in D.
    destruct (Z.eqb_spec (p P_minRestartSize) 0); auto. congruence. }
  destruct (field_dec f P_locking).
  { subst. constructor. rewrite fill_locking in D. unfold filled_locking in D.
    destruct (Z.geb_spec (p P_locking) 0); auto. congruence. }
  exfalso. apply D. now apply fill_other.
Qed.

(** With no method chosen the call also applies the DYNAMIC preset, which may
    write only the listed members besides the unset ones. *)
Theorem C02_defaults_without_method : forall p,
  p P_dynamicMethodSwitch < 0 ->
  exists q, primme_set_defaults p = Some q /\
    forall f, q f <> p f -> unset p f \/ In f
      [P_dynamicMethodSwitch; P_maxBlockSize; P_precondition; P_maxPrevRetain;
       P_maxInnerIterations; P_LeftQ; P_LeftX; P_RightQ; P_RightX; P_SkewQ; P_SkewX;
       P_convTest].
Proof.
  intros p H. rewrite set_defaults_total.
  destruct (Z.ltb_spec (p P_dynamicMethodSwitch) 0); [|lia].
  eexists; split; [reflexivity|]. intros f D. rewrite fill_idem in D.
  destruct (in_dec field_dec f dyn_writes) as [I|I]; [right; exact I|left].
  assert (Y : 0 <= dynamic_preset p P_dynamicMethodSwitch).
  { rewrite dynamic_preset_eq. unfold plusK_retain, leftQ_by_precond, method_common. fields.
    discriminate. }
  destruct (C02_defaults_keep_choices _ Y) as (q & Q & K).
  rewrite set_defaults_total in Q.
  destruct (Z.ltb_spec (dynamic_preset p P_dynamicMethodSwitch) 0); [lia|].
  injection Q as <-.
  rewrite <- (dyn_other p f I) in D. specialize (K f D).
  destruct K as [K|K|K|K|K|K]; rewrite dyn_other in K by exact I; constructor; exact K.
Qed.

(** Calling it again changes nothing. *)
Theorem C02_defaults_idempotent : forall p,
  exists q, primme_set_defaults p = Some q /\
  exists q', primme_set_defaults q = Some q' /\ forall f, q' f = q f.
Proof.
  intros p. rewrite set_defaults_total.
  eexists; split; [reflexivity|].
  set (q := if p P_dynamicMethodSwitch <? 0
            then fill_defaults (fill_defaults (dynamic_preset p)) else fill_defaults p).
  assert (Y : 0 <= q P_dynamicMethodSwitch).
  { subst q. destruct (Z.ltb_spec (p P_dynamicMethodSwitch) 0); rewrite !fill_other by discriminate; auto.
    rewrite dynamic_preset_eq. unfold plusK_retain, leftQ_by_precond, method_common. fields.
    discriminate. }
  rewrite set_defaults_total. destruct (Z.ltb_spec (q P_dynamicMethodSwitch) 0); [lia|].
  eexists; split; [reflexivity|]. intro f.
  subst q. destruct (p P_dynamicMethodSwitch <? 0); apply fill_idem.
Qed.

(** The full claim fails when no method was chosen: an explicit choice of the
    inner convergence test is overwritten. *)
Theorem C02_explicit_choice_overwritten_refuted :
  exists p q, primme_set_defaults p = Some q /\
    p P_convTest = primme_decreasing_LTolerance /\ q P_convTest <> p P_convTest.
Proof.
  exists (primme_initialize 77 <+ P_n := 100 <+ P_convTest := 1).
  eexists; split; [reflexivity|]; split; [reflexivity|]. vm_compute. discriminate.
Qed.

Example C02_nonvacuous :
  exists q, primme_set_defaults
    (primme_initialize 77 <+ P_n := 100 <+ P_dynamicMethodSwitch := 0
       <+ P_maxBlockSize := 4 <+ P_maxPrevRetain := 2 <+ P_minRestartSize := 9) = Some q /\
    q P_minRestartSize = 9 /\ q P_maxBasisSize = 20 /\ q P_locking = 0.
Proof. eexists; split; [reflexivity|]; repeat split; reflexivity. Qed.

(* ================================================================ *)
(** * C03: default sizes are admissible *)

(** [user_fields] are the members a user may set; all others are as left by
    [primme_initialize].  The driver's preparation then produces a structure
    which the driver's own validation accepts. *)
Theorem C03_defaults_accepted : forall stdout_ptr e o p,
  (forall f, ~ In f user_fields -> p f = primme_initialize stdout_ptr f) ->
  0 < e_meps e <= e_default_eps e -> 1 <= e_block e ->
  p P_eps = 0 \/ e_meps e <= p P_eps ->
  0 <= p P_numEvals <= p P_n ->
  0 <= p P_target <= 5 ->
  (2 <= p P_target -> 0 < p P_numTargetShifts /\ p P_targetShifts <> 0) ->
  p P_matrixMatvec <> 0 ->
  0 <= p P_numOrthoConst <= p P_n ->
  p P_numProcs = 1 \/ (1 < p P_numProcs /\ 0 <= p P_nLocal <= p P_n) ->
  ((p P_maxBlockSize = 0 \/ p P_maxBlockSize = 1)
     /\ (p P_numOrthoConst = 0 \/ 7 <= p P_n - p P_numOrthoConst))
  \/ (1 <= p P_maxBlockSize /\ 35 <= p P_n - p P_numOrthoConst
      /\ 7 * p P_maxBlockSize <= p P_n - p P_numOrthoConst) ->
  o_evals o <> 0 -> o_evecs o <> 0 -> o_badptr o = false -> o_resNorms o <> 0 ->
  exists q, wrapper_prepare e o p = Some q /\
    check_input (e_meps e) o (default_callbacks e (reset_seeds q)) = 0.
Proof. exact defaults_accepted. Qed.

Definition sample_env : driver_env := {|
  e_op_scalar := primme_op_double; e_block := 512; e_meps := 4372995238176751616;
  e_default_eps := 4427494640230039552; e_absolute_fun := 501; e_monitor_fun := 502;
  e_coherence := fun _ => 0; e_astype_evals := fun _ => 0; e_astype_evecs := fun _ => 0;
  e_astype_resNorms := fun _ => 0;
  e_main_iter := fun p => (0, -3, p <+ P_initSize := 2);
  e_copy_evals := fun _ => 0; e_copy_evecs := fun _ => 0; e_free_evecs := fun _ => 0;
  e_copy_resNorms := fun _ => 0 |}.
Definition sample_out : outputs :=
  {| o_evals := 11; o_evecs := 12; o_resNorms := 13; o_badptr := false |}.
Definition sample_params : params :=
  primme_initialize 77 <+ P_n := 60 <+ P_numEvals := 8 <+ P_target := 4
    <+ P_numTargetShifts := 1 <+ P_targetShifts := 900 <+ P_matrixMatvec := 901
    <+ P_maxBlockSize := 4.

Example C03_nonvacuous :
  (forall f, ~ In f user_fields -> sample_params f = primme_initialize 77 f) /\
  exists q, wrapper_prepare sample_env sample_out sample_params = Some q /\
    q P_maxBasisSize = 35 /\ q P_minRestartSize = 19 /\ q P_maxPrevRetain = 4 /\
    q P_locking = 1.
Proof.
  split.
  - intros f H. unfold sample_params.
    repeat rewrite set_neq by (intro; subst f; apply H; cbn; tauto). reflexivity.
  - eexists; split; [reflexivity|]. vm_compute. auto.
Qed.

(** With few free dimensions after the constraints the defaults are rejected:
    n = 10 with 4 constraints, two interior eigenpairs wanted. *)
Theorem C03_constrained_defaults_refuted :
  exists p q, (forall f, ~ In f user_fields -> p f = primme_initialize 77 f) /\
    p P_n = 10 /\ p P_numOrthoConst = 4 /\ p P_numEvals = 2 /\ p P_maxBlockSize = 0 /\
    wrapper_prepare sample_env sample_out p = Some q /\
    check_input (e_meps sample_env) sample_out
      (default_callbacks sample_env (reset_seeds q)) = -25.
Proof.
  exists (primme_initialize 77 <+ P_n := 10 <+ P_numEvals := 2 <+ P_target := 4
    <+ P_numTargetShifts := 1 <+ P_targetShifts := 900 <+ P_matrixMatvec := 901
    <+ P_numOrthoConst := 4).
  eexists; repeat split; try reflexivity.
  intros f H. repeat rewrite set_neq by (intro; subst f; apply H; cbn; tauto). reflexivity.
Qed.

(** With a block close to the matrix size the default restart size is negative. *)
Theorem C03_large_block_defaults_refuted :
  exists p q, (forall f, ~ In f user_fields -> p f = primme_initialize 77 f) /\
    p P_n = 10 /\ p P_numEvals = 8 /\ p P_maxBlockSize = 8 /\
    wrapper_prepare sample_env sample_out p = Some q /\ q P_minRestartSize = -6 /\
    check_input (e_meps sample_env) sample_out
      (default_callbacks sample_env (reset_seeds q)) = -18.
Proof.
  exists (primme_initialize 77 <+ P_n := 10 <+ P_numEvals := 8 <+ P_matrixMatvec := 901
    <+ P_maxBlockSize := 8).
  eexists; repeat split; try reflexivity.
  intros f H. repeat rewrite set_neq by (intro; subst f; apply H; cbn; tauto). reflexivity.
Qed.

(* ================================================================ *)
(** * C04: validation *)

(** A rejection names a documented situation that really holds, except that a
    negative tolerance is reported as -12 and a generalised problem with a
    projection other than Rayleigh-Ritz as the undocumented -39. *)
Theorem C04_rejection_is_justified : forall meps o p c,
  check_input meps o p = c -> c <> 0 ->
  violates p (o_evals o) (o_evecs o) (o_resNorms o) (o_badptr o = true) meps c
  \/ (c = -12 /\ p P_convTestFun <> 0 /\ p P_eps < 0)
  \/ (c = -39 /\ p P_massMatrixMatvec <> 0 /\ p P_projection <> 1).
Proof.
  intros meps o p c H N.
  destruct (check_input_cases meps o p) as [[Z0 _]|(E1 & P & E2 & A & HP & _)]; [congruence|].
  rewrite H in A. apply (enforced_documented meps o p c P); auto.
  rewrite A. apply in_or_app. right; left; reflexivity.
Qed.

(** An accepted structure violates no documented constraint, except possibly
    that the restart size equals the matrix size. *)
Theorem C04_acceptance_is_justified : forall meps o p c,
  check_input meps o p = 0 ->
  violates p (o_evals o) (o_evecs o) (o_resNorms o) (o_badptr o = true) meps c ->
  c = -26 /\ p P_minRestartSize = p P_n.
Proof.
  intros meps o p c H V.
  destruct (documented_enforced meps o p c V) as [(P & I & HP)|]; auto. exfalso.
  destruct (check_input_cases meps o p) as [[_ F]|(E1 & Q & E2 & A & HQ & _)].
  - rewrite Forall_forall in F. exact (F _ I HP).
  - rewrite H in A. apply (enforced_nonzero meps o p 0 Q); auto.
    rewrite A. apply in_or_app. right; left; reflexivity.
Qed.

(** Exactness: accepted if and only if none of the documented situations holds
    (with the three deviations above spelled out). *)
Theorem C04_accepts_exactly : forall meps o p,
  check_input meps o p = 0 <->
  (forall c, violates p (o_evals o) (o_evecs o) (o_resNorms o) (o_badptr o = true) meps c ->
     c = -26 /\ p P_minRestartSize = p P_n)
  /\ ~ (p P_convTestFun <> 0 /\ p P_eps < 0 /\ p P_eps < meps)
  /\ ~ (p P_massMatrixMatvec <> 0 /\ p P_projection <> 1).
Proof.
  intros meps o p. split.
  - intro H. split; [intros c; apply C04_acceptance_is_justified; auto|].
    assert (F : Forall (fun e => ~ snd e) (enforced meps o p)).
    { destruct (check_input_cases meps o p) as [[_ F]|(E1 & Q & E2 & A & HQ & _)]; auto.
      exfalso. rewrite H in A. apply (enforced_nonzero meps o p 0 Q); auto.
      rewrite A. apply in_or_app. right; left; reflexivity. }
    rewrite Forall_forall in F. split; intro X.
    + apply (F (-12, p P_convTestFun <> 0 /\ p P_eps <> 0 /\ p P_eps < meps)).
      * unfold enforced; cbn [In]. do 6 right. left. reflexivity.
      * cbn. lia.
    + apply (F (-39, p P_massMatrixMatvec <> 0 /\ p P_projection <> 1)); auto.
      unfold enforced; cbn [In]. do 28 right. left. reflexivity.
  - intros (V & N12 & N39).
    destruct (check_input_cases meps o p) as [[Z0 _]|(E1 & P & E2 & A & HP & _)]; auto.
    exfalso.
    assert (I : In (check_input meps o p, P) (enforced meps o p))
      by (rewrite A; apply in_or_app; right; left; reflexivity).
    destruct (enforced_documented meps o p _ P I HP) as [W|[W|W]].
    + destruct (V _ W) as [C R]. rewrite C in I. clear A W V.
      unfold enforced in I. cbn [In] in I.
      repeat (destruct I as [I|I];
        [first [discriminate I | injection I as <-; lia]|]). contradiction.
    + destruct W as (C & W1 & W2). rewrite C in I. clear A V.
      unfold enforced in I. cbn [In] in I.
      repeat (destruct I as [I|I];
        [first [discriminate I | injection I as <-; apply N12; lia]|]). contradiction.
    + apply N39. tauto.
Qed.

(** The code returned is the first in the reporting order: no documented
    situation with an earlier code holds. *)
Theorem C04_first_violation : forall meps o p c,
  check_input meps o p = c -> c <> 0 ->
  forall c', reported_before c' c ->
  violates p (o_evals o) (o_evecs o) (o_resNorms o) (o_badptr o = true) meps c' ->
  c' = -26 /\ p P_minRestartSize = p P_n.
Proof.
  intros meps o p c H N c' (l1 & l2 & l3 & RB) V.
  destruct (documented_enforced meps o p c' V) as [(P & I & HP)|]; auto. exfalso.
  destruct (check_input_cases meps o p) as [[Z0 _]|(E1 & Q & E2 & A & HQ & F)]; [congruence|].
  rewrite H in A.
  assert (M : map fst E1 ++ c :: map fst E2 = l1 ++ c' :: l2 ++ c :: l3).
  { rewrite <- RB, <- (enforced_codes meps o p), A, map_app. reflexivity. }
  assert (ND : NoDup report_order).
  { unfold report_order. repeat constructor; cbn; intuition discriminate. }
  assert (U : forall (x : Z) a b a' b', NoDup (a ++ x :: b) ->
     a ++ x :: b = a' ++ x :: b' -> a = a').
  { intros x a. induction a as [|y a IH]; intros b [|y' a'] b' D E; cbn in *; auto.
    - injection E as E1' E2'. subst. inversion D as [|? ? NI]; subst. exfalso. apply NI.
      apply in_or_app; right; left; auto.
    - injection E as E1' E2'. subst. inversion D as [|? ? NI]; subst. exfalso. apply NI.
      apply in_or_app; right; left; auto.
    - injection E as -> E. inversion D; subst. f_equal. eapply IH; eauto. }
  assert (IN1 : In c' (map fst E1)).
  { assert (map fst E1 = l1 ++ c' :: l2).
    { apply (U c _ (map fst E2) _ l3).
      - rewrite M, <- RB. exact ND.
      - rewrite M, <- app_assoc. reflexivity. }
    rewrite H0. apply in_or_app; right; left; auto. }
  apply in_map_iff in IN1. destruct IN1 as ([c2 P2] & EQ & IN2). cbn in EQ; subst c2.
  assert (P2 = P).
  { assert (IN2' : In (c', P2) (enforced meps o p)) by (rewrite A; apply in_or_app; auto).
    assert (ND' : NoDup (map fst (enforced meps o p))) by (rewrite enforced_codes; exact ND).
    revert I IN2' ND'. generalize (enforced meps o p). clear.
    intros E. induction E as [|[d X] E IH]; cbn; [tauto|].
    intros [A|A] [B|B] D; inversion D; subst.
    - congruence.
    - injection A as -> ->. exfalso. apply H1. apply (in_map fst) in B. exact B.
    - injection B as -> ->. exfalso. apply H1. apply (in_map fst) in A. exact A.
    - auto. }
  subst P2. rewrite Forall_forall in F. exact (F _ IN2 HP).
Qed.

Definition accepted_params : params :=
  match wrapper_prepare sample_env sample_out sample_params with
  | Some q => default_callbacks sample_env (reset_seeds q)
  | None => sample_params end.

Example C04_nonvacuous :
  check_input (e_meps sample_env) sample_out accepted_params = 0 /\
  check_input (e_meps sample_env) sample_out (accepted_params <+ P_initSize := 9) = -24.
Proof. split; vm_compute; reflexivity. Qed.

(** The documentation lists -26 for a restart size of at least n; the code
    accepts equality. *)
Theorem C04_restart_equal_n_refuted : exists p,
  violates p (o_evals sample_out) (o_evecs sample_out) (o_resNorms sample_out)
    (o_badptr sample_out = true) (e_meps sample_env) (-26)
  /\ check_input (e_meps sample_env) sample_out p = 0.
Proof.
  exists (accepted_params <+ P_minRestartSize := 60 <+ P_maxBasisSize := 80).
  split; [apply v26; vm_compute; intuition discriminate | vm_compute; reflexivity].
Qed.

(** A negative tolerance is documented as acceptable but is rejected, and a
    structure violating nothing documented can be rejected with -39. *)
Theorem C04_undocumented_rejections_refuted :
  (exists p, check_input (e_meps sample_env) sample_out p = -12 /\
     forall c, ~ violates p (o_evals sample_out) (o_evecs sample_out)
       (o_resNorms sample_out) (o_badptr sample_out = true) (e_meps sample_env) c) /\
  (exists p, check_input (e_meps sample_env) sample_out p = -39 /\
     forall c, ~ violates p (o_evals sample_out) (o_evecs sample_out)
       (o_resNorms sample_out) (o_badptr sample_out = true) (e_meps sample_env) c).
Proof.
  assert (X : forall p, check_input (e_meps sample_env) sample_out
      (p <+ P_eps := 0 <+ P_projection := 1) = 0 ->
      p P_minRestartSize <> p P_n -> p P_eps <= 0 \/ e_meps sample_env <= p P_eps ->
      forall c, ~ violates p (o_evals sample_out) (o_evecs sample_out)
       (o_resNorms sample_out) (o_badptr sample_out = true) (e_meps sample_env) c).
  { intros p H R E c V.
    assert (V' : violates (p <+ P_eps := 0 <+ P_projection := 1)
       (o_evals sample_out) (o_evecs sample_out)
       (o_resNorms sample_out) (o_badptr sample_out = true) (e_meps sample_env) c \/ c = -12).
    { destruct V; try solve [left; constructor; unfold wants_shifts in *; fields; assumption].
      right; reflexivity. }
    destruct V' as [V'|V'].
    - destruct (C04_acceptance_is_justified _ _ _ _ H V') as [_ Y]. revert Y. fields. exact R.
    - subst c. inversion V. lia. }
  split.
  - exists (accepted_params <+ P_eps := -5). split; [vm_compute; reflexivity|].
    apply X; vm_compute; try reflexivity; try discriminate. left; discriminate.
  - exists (accepted_params <+ P_massMatrixMatvec := 5 <+ P_projection := 2).
    split; [vm_compute; reflexivity|].
    apply X; vm_compute; try reflexivity; try discriminate. right; discriminate.
Qed.

(* ================================================================ *)
(** * C05: failed calls report no returned vectors *)

(** Whatever the stages do, a driver call ends; a non-zero number of returned
    vectors implies that no stage failed, and the code is then the status
    reported by the main iteration. *)
Theorem C05_failed_call_returns_none : forall ops env_for o p,
  exists ret q, driver ops env_for o p = Some (ret, q) /\
   (q P_initSize <> 0 ->
     exists e p1 p2, env_for (if operator_types ops p P_internalPrecision =? 0 then ops
                              else operator_types ops p P_internalPrecision) = Some e /\
       e_coherence e p1 = 0 /\ check_input (e_meps e) o p1 = 0 /\
       e_main_iter e p1 = (0, ret, p2) /\ q P_initSize = p2 P_initSize).
Proof.
  intros ops env_for o p. unfold driver. cbv zeta. unfold primme_op_default.
  set (p0 := operator_types ops p). clearbody p0.
  destruct (env_for (if p0 P_internalPrecision =? 0 then ops else p0 P_internalPrecision)) as [e|].
  2:{ eexists _, _; split; [reflexivity|]. rewrite set_eq. congruence. }
  unfold wrapper, wrapper_prepare. rewrite set_defaults_total. cbn [bind].
  match goal with |- context [is_null_query o] => destruct (is_null_query o) end.
  { eexists _, _; split; [reflexivity|]. rewrite set_eq. congruence. }
  unfold wrapper_run. cbv zeta.
  set (p1 := default_callbacks e (reset_seeds _)). clearbody p1.
  destruct (Z.eqb_spec (e_coherence e p1) 0); cbn [negb].
  2:{ eexists _, _; split; [reflexivity|]. rewrite set_eq. congruence. }
  destruct (Z.eqb_spec (check_input (e_meps e) o p1) 0); cbn [negb].
  2:{ eexists _, _; split; [reflexivity|]. rewrite set_eq. congruence. }
  destruct (e_astype_evals e p1 =? 0); cbn [negb].
  2:{ eexists _, _; split; [reflexivity|]. rewrite set_eq. congruence. }
  destruct (e_astype_evecs e p1 =? 0); cbn [negb].
  2:{ eexists _, _; split; [reflexivity|]. rewrite set_eq. congruence. }
  destruct (e_astype_resNorms e p1 =? 0); cbn [negb].
  2:{ eexists _, _; split; [reflexivity|]. rewrite set_eq. congruence. }
  destruct (e_main_iter e p1) as [[err ret] p2] eqn:MI.
  destruct (Z.eqb_spec err 0); cbn [negb].
  2:{ eexists _, _; split; [reflexivity|]. rewrite set_eq. congruence. }
  destruct (e_copy_evals e p2 =? 0); cbn [negb].
  2:{ eexists _, _; split; [reflexivity|]. rewrite set_eq. congruence. }
  destruct (e_copy_evecs e p2 =? 0); cbn [negb].
  2:{ eexists _, _; split; [reflexivity|]. rewrite set_eq. congruence. }
  destruct (e_free_evecs e p2 =? 0); cbn [negb].
  2:{ eexists _, _; split; [reflexivity|]. rewrite set_eq. congruence. }
  destruct (e_copy_resNorms e p2 =? 0); cbn [negb].
  2:{ eexists _, _; split; [reflexivity|]. rewrite set_eq. congruence. }
  eexists _, _; split; [reflexivity|]. rewrite set_eq. intros _.
  exists e, p1, p2. subst err. auto.
Qed.

(** A rejected structure gives exactly the validation code and 0 vectors. *)
Theorem C05_rejected_call : forall ops env_for e o p q,
  env_for (if operator_types ops p P_internalPrecision =? 0 then ops
           else operator_types ops p P_internalPrecision) = Some e ->
  wrapper_prepare e o (operator_types ops p) = Some q ->
  let v := default_callbacks e (reset_seeds q) in
  ~ (o_evals o = 0 /\ o_evecs o = 0 /\ o_resNorms o = 0) ->
  e_coherence e v = 0 -> check_input (e_meps e) o v <> 0 ->
  exists q', driver ops env_for o p = Some (check_input (e_meps e) o v, q') /\
    q' P_initSize = 0.
Proof.
  intros ops env_for e o p q E W v NQ CO CI. unfold driver. cbv zeta.
  unfold primme_op_default. rewrite E. unfold wrapper. rewrite W. cbn [bind].
  assert (is_null_query o = false).
  { unfold is_null_query. destruct (Z.eqb_spec (o_evals o) 0); auto.
    destruct (Z.eqb_spec (o_evecs o) 0); auto.
    destruct (Z.eqb_spec (o_resNorms o) 0); auto. exfalso; auto. }
  rewrite H. unfold wrapper_run. cbv zeta. fold v. rewrite CO. cbn [Z.eqb negb].
  destruct (Z.eqb_spec (check_input (e_meps e) o v) 0); [contradiction|]. cbn [negb].
  eexists; split; [reflexivity|]. now rewrite set_eq.
Qed.

(** The query with three NULL pointers returns 0 whatever the iteration would
    do, and reports 0 vectors. *)
Theorem C05_null_query : forall ops env_for e o p,
  env_for (if operator_types ops p P_internalPrecision =? 0 then ops
           else operator_types ops p P_internalPrecision) = Some e ->
  o_evals o = 0 -> o_evecs o = 0 -> o_resNorms o = 0 ->
  exists d q, wrapper_prepare e o (operator_types ops p) = Some d /\
    driver ops env_for o p = Some (0, q) /\
    q P_initSize = 0 /\ forall f, f <> P_initSize -> q f = d f.
Proof.
  intros ops env_for e o p E A B C. unfold driver. cbv zeta.
  unfold primme_op_default. rewrite E. unfold wrapper, wrapper_prepare.
  rewrite set_defaults_total. cbn [bind].
  assert (is_null_query o = true) by (unfold is_null_query; rewrite A, B, C; reflexivity).
  rewrite H. eexists _, _. split; [reflexivity|]. split; [reflexivity|].
  split; [apply set_eq|]. intros f F. rewrite !set_neq by congruence. reflexivity.
Qed.

Example C05_nonvacuous :
  match driver primme_op_double (fun _ => Some sample_env) sample_out sample_params with
  | Some (ret, q) => ret = -3 /\ q P_initSize = 2
  | None => False end.
Proof. vm_compute. auto. Qed.

(* ================================================================ *)
(** * C06: random seeds *)

Definition seeds (p : params) : list Z :=
  [p P_iseed0; p P_iseed1; p P_iseed2; p P_iseed3].

(** Legal seeds for every non-negative rank, user seeds in range kept, nothing
    else changed. *)
Theorem C06_seeds_legal : forall p, 0 <= p P_procID ->
  Forall (fun s => 0 <= s <= 4095) (seeds (reset_seeds p)) /\
  (forall f, In f [P_iseed0; P_iseed1; P_iseed2; P_iseed3] -> 0 <= p f <= 4095 ->
     reset_seeds p f = p f) /\
  (forall f, ~ In f [P_iseed0; P_iseed1; P_iseed2; P_iseed3] -> reset_seeds p f = p f).
Proof.
  intros p R. destruct (reset_seeds_val p) as (A & B & C & D).
  split; [|split].
  - unfold seeds. rewrite A, B, C, D.
    repeat constructor;
    match goal with |- context [(p ?f <? 0) || (p ?f >? 4095)] =>
      destruct (Z.ltb_spec (p f) 0); destruct (Z.gtb_spec (p f) 4095); cbn [orb];
      try (pose proof (seed_range (p P_procID) 0 R); pose proof (seed_range (p P_procID) 1 R);
           pose proof (seed_range (p P_procID) 2 R); pose proof (seed_range (p P_procID) 3 R); lia)
    end.
  - intros f [<-|[<-|[<-|[<-|[]]]]] H;
    [rewrite A|rewrite B|rewrite C|rewrite D];
    match goal with |- context [(p ?f <? 0) || (p ?f >? 4095)] =>
      destruct (Z.ltb_spec (p f) 0); destruct (Z.gtb_spec (p f) 4095); cbn [orb]; lia
    end.
  - intros f H. now apply seeds_other.
Qed.

(** The last default seed is odd, as the generator requires. *)
Theorem C06_default_last_seed_odd : forall p, 0 <= p P_procID ->
  ~ (0 <= p P_iseed3 <= 4095) -> Z.odd (reset_seeds p P_iseed3) = true.
Proof.
  intros p R H. destruct (reset_seeds_val p) as (_ & _ & _ & D). rewrite D.
  destruct (Z.ltb_spec (p P_iseed3) 0); destruct (Z.gtb_spec (p P_iseed3) 4095);
  cbn [orb]; try lia; apply seed_odd; auto.
Qed.

(** Two processes that leave the seeds unset get different seeds, for all ranks
    below 2^47. *)
Theorem C06_default_seeds_distinct : forall p q,
  Forall (fun s => ~ (0 <= s <= 4095)) (seeds p) ->
  Forall (fun s => ~ (0 <= s <= 4095)) (seeds q) ->
  0 <= p P_procID < 2 ^ 47 -> 0 <= q P_procID < 2 ^ 47 ->
  seeds (reset_seeds p) = seeds (reset_seeds q) -> p P_procID = q P_procID.
Proof.
  intros p q Hp Hq Rp Rq E.
  assert (V : forall x, Forall (fun s => ~ (0 <= s <= 4095)) (seeds x) ->
     seeds (reset_seeds x) = map (seed_of_rank (x P_procID)) [0;1;2;3]%nat).
  { intros x F. destruct (reset_seeds_val x) as (A & B & C & D).
    unfold seeds in *. rewrite A, B, C, D. cbn [map].
    inversion F as [|? ? F1 T1]; subst. inversion T1 as [|? ? F2 T2]; subst.
    inversion T2 as [|? ? F3 T3]; subst. inversion T3 as [|? ? F4 T4]; subst.
    assert (K : forall v, ~ (0 <= v <= 4095) -> ((v <? 0) || (v >? 4095)) = true).
    { intros v Hv. destruct (Z.ltb_spec v 0); destruct (Z.gtb_spec v 4095); cbn; auto; lia. }
    rewrite !K by assumption. reflexivity. }
  rewrite V in E by auto. rewrite V in E by auto.
  assert (E' : forall i, In i [0;1;2;3]%nat ->
     seed_of_rank (p P_procID) i = seed_of_rank (q P_procID) i).
  { cbn [map] in E. pose proof (f_equal (fun l => nth 0 l 0) E) as E0.
    pose proof (f_equal (fun l => nth 1 l 0) E) as E1.
    pose proof (f_equal (fun l => nth 2 l 0) E) as E2.
    pose proof (f_equal (fun l => nth 3 l 0) E) as E3. cbn [nth] in *.
    intros i [<-|[<-|[<-|[<-|[]]]]]; assumption. }
  change (2 ^ 47) with (2048 * 4096 * 4096 * 4096) in *.
  rewrite (seed_decode (p P_procID)) by lia. rewrite !E' by (cbn; tauto).
  symmetry. apply seed_decode. lia.
Qed.

Example C06_nonvacuous :
  seeds (reset_seeds (primme_initialize 0 <+ P_procID := 5000)) = [904; 2; 2; 1].
Proof. reflexivity. Qed.

(** A user seed with an even last entry passes through, although the generator
    requires it odd; a negative rank (never validated) gives illegal seeds. *)
Theorem C06_user_even_seed_refuted :
  exists p, 0 <= p P_procID /\ Z.odd (reset_seeds p P_iseed3) = false.
Proof. exists (primme_initialize 0 <+ P_iseed3 := 4). split; [cbn; lia | reflexivity]. Qed.

Theorem C06_negative_rank_refuted :
  exists p, ~ (0 <= reset_seeds p P_iseed0 <= 4095) /\
    check_input (e_meps sample_env) sample_out
     (accepted_params <+ P_procID := p P_procID <+ P_numProcs := 2) = 0.
Proof.
  exists (primme_initialize 0 <+ P_procID := -1).
  split; vm_compute; [intros [H _]; apply H; reflexivity | reflexivity].
Qed.

Print Assumptions C01_set_method_result.
Print Assumptions C01_presets_complete.
Print Assumptions C01_presets_keep_problem.
Print Assumptions C01_block_size_zero_refuted.
Print Assumptions C02_defaults_keep_choices.
Print Assumptions C02_defaults_without_method.
Print Assumptions C02_defaults_idempotent.
Print Assumptions C02_explicit_choice_overwritten_refuted.
Print Assumptions C03_defaults_accepted.
Print Assumptions C03_constrained_defaults_refuted.
Print Assumptions C03_large_block_defaults_refuted.
Print Assumptions C04_rejection_is_justified.
Print Assumptions C04_acceptance_is_justified.
Print Assumptions C04_accepts_exactly.
Print Assumptions C04_first_violation.
Print Assumptions C04_restart_equal_n_refuted.
Print Assumptions C04_undocumented_rejections_refuted.
Print Assumptions C05_failed_call_returns_none.
Print Assumptions C05_rejected_call.
Print Assumptions C05_null_query.
Print Assumptions C06_seeds_legal.
Print Assumptions C06_default_last_seed_odd.
Print Assumptions C06_default_seeds_distinct.
Print Assumptions C06_user_even_seed_refuted.
Print Assumptions C06_negative_rank_refuted.
