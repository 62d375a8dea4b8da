(** The members of the parameter structure of the singular value solver.

    Models [struct primme_svds_params] and the nested [primme_svds_stats]
    (include/primme_svds.h 65-163), except the two eigensolver structures
    [primme] and [primmeStage2], which SvdsParamsModel adds.  Contents as in
    FieldsModel: numbers, addresses with 0 for NULL, and order-preserving codes
    for doubles. *)
From Coq Require Import ZArith List Bool.
Import ListNotations.
Open Scope Z_scope.

Inductive sfield : Set :=
| S_m
| S_n
| S_matrixMatvec
| S_matrixMatvec_type
| S_applyPreconditioner
| S_applyPreconditioner_type
| S_numProcs
| S_procID
| S_mLocal
| S_nLocal
| S_commInfo
| S_globalSumReal
| S_globalSumReal_type
| S_broadcastReal
| S_broadcastReal_type
| S_numSvals
| S_target
| S_numTargetShifts
| S_targetShifts
| S_method
| S_methodStage2
| S_matrix
| S_preconditioner
| S_locking
| S_numOrthoConst
| S_aNorm
| S_eps
| S_precondition
| S_initSize
| S_maxBasisSize
| S_maxBlockSize
| S_maxMatvecs
| S_iseed0
| S_iseed1
| S_iseed2
| S_iseed3
| S_printLevel
| S_internalPrecision
| S_outputFile
| S_numOuterIterations
| S_numRestarts
| S_numMatvecs
| S_numPreconds
| S_numGlobalSum
| S_numBroadcast
| S_volumeGlobalSum
| S_volumeBroadcast
| S_numOrthoInnerProds
| S_elapsedTime
| S_timeMatvec
| S_timePrecond
| S_timeOrtho
| S_timeGlobalSum
| S_timeBroadcast
| S_lockingIssue
| S_convTestFun
| S_convTestFun_type
| S_convtest
| S_monitorFun
| S_monitorFun_type
| S_monitor
| S_queue
| S_profile.

(** Position of a member, used only to compare members. *)
Definition sidx (f : sfield) : Z :=
  match f with
  | S_m => 0
  | S_n => 1
  | S_matrixMatvec => 2
  | S_matrixMatvec_type => 3
  | S_applyPreconditioner => 4
  | S_applyPreconditioner_type => 5
  | S_numProcs => 6
  | S_procID => 7
  | S_mLocal => 8
  | S_nLocal => 9
  | S_commInfo => 10
  | S_globalSumReal => 11
  | S_globalSumReal_type => 12
  | S_broadcastReal => 13
  | S_broadcastReal_type => 14
  | S_numSvals => 15
  | S_target => 16
  | S_numTargetShifts => 17
  | S_targetShifts => 18
  | S_method => 19
  | S_methodStage2 => 20
  | S_matrix => 21
  | S_preconditioner => 22
  | S_locking => 23
  | S_numOrthoConst => 24
  | S_aNorm => 25
  | S_eps => 26
  | S_precondition => 27
  | S_initSize => 28
  | S_maxBasisSize => 29
  | S_maxBlockSize => 30
  | S_maxMatvecs => 31
  | S_iseed0 => 32
  | S_iseed1 => 33
  | S_iseed2 => 34
  | S_iseed3 => 35
  | S_printLevel => 36
  | S_internalPrecision => 37
  | S_outputFile => 38
  | S_numOuterIterations => 39
  | S_numRestarts => 40
  | S_numMatvecs => 41
  | S_numPreconds => 42
  | S_numGlobalSum => 43
  | S_numBroadcast => 44
  | S_volumeGlobalSum => 45
  | S_volumeBroadcast => 46
  | S_numOrthoInnerProds => 47
  | S_elapsedTime => 48
  | S_timeMatvec => 49
  | S_timePrecond => 50
  | S_timeOrtho => 51
  | S_timeGlobalSum => 52
  | S_timeBroadcast => 53
  | S_lockingIssue => 54
  | S_convTestFun => 55
  | S_convTestFun_type => 56
  | S_convtest => 57
  | S_monitorFun => 58
  | S_monitorFun_type => 59
  | S_monitor => 60
  | S_queue => 61
  | S_profile => 62
  end.

Definition all_sfields : list sfield :=
  [ S_m; S_n; S_matrixMatvec;
    S_matrixMatvec_type; S_applyPreconditioner; S_applyPreconditioner_type; S_numProcs;
    S_procID; S_mLocal; S_nLocal; S_commInfo; S_globalSumReal; S_globalSumReal_type;
    S_broadcastReal; S_broadcastReal_type; S_numSvals; S_target; S_numTargetShifts;
    S_targetShifts; S_method; S_methodStage2; S_matrix; S_preconditioner; S_locking;
    S_numOrthoConst; S_aNorm; S_eps; S_precondition; S_initSize; S_maxBasisSize;
    S_maxBlockSize; S_maxMatvecs; S_iseed0; S_iseed1; S_iseed2; S_iseed3; S_printLevel;
    S_internalPrecision; S_outputFile; S_numOuterIterations; S_numRestarts; S_numMatvecs;
    S_numPreconds; S_numGlobalSum; S_numBroadcast; S_volumeGlobalSum; S_volumeBroadcast;
    S_numOrthoInnerProds; S_elapsedTime; S_timeMatvec; S_timePrecond; S_timeOrtho;
    S_timeGlobalSum; S_timeBroadcast; S_lockingIssue; S_convTestFun; S_convTestFun_type;
    S_convtest; S_monitorFun; S_monitorFun_type; S_monitor; S_queue; S_profile ].

Definition sfield_eqb (f g : sfield) : bool := sidx f =? sidx g.
Definition sparams : Type := sfield -> Z.
Definition sset (p : sparams) (f : sfield) (v : Z) : sparams :=
  fun g => if sfield_eqb f g then v else p g.
Fixpoint ssets (p : sparams) (l : list (sfield * Z)) : sparams :=
  match l with [] => p | (f, v) :: t => ssets (sset p f v) t end.

Lemma sidx_nth : forall f, nth_error all_sfields (Z.to_nat (sidx f)) = Some f.
Proof. destruct f; reflexivity. Qed.

Lemma sfield_eqb_eq : forall f g, sfield_eqb f g = true <-> f = g.
Proof.
  intros f g. unfold sfield_eqb. rewrite Z.eqb_eq. split; [|intros; subst; auto].
  intro H. pose proof (sidx_nth f) as A. pose proof (sidx_nth g) as B. rewrite H in A. congruence.
Qed.

Lemma sset_eq : forall p f v, sset p f v f = v.
Proof. intros; unfold sset, sfield_eqb; now rewrite Z.eqb_refl. Qed.

Lemma sset_neq : forall p f g v, f <> g -> sset p f v g = p g.
Proof.
  intros; unfold sset. destruct (sfield_eqb f g) eqn:E; auto.
  apply sfield_eqb_eq in E; contradiction.
Qed.
