(** The members of the eigensolver parameter structure.

    Models [struct primme_params] and the nested structures [primme_stats],
    [restarting_params], [correction_params], [JD_projectors] and
    [projection_params] (include/primme_eigs.h).  Every scalar member is one
    constructor; the four entries of [iseed] are four constructors.

    A parameter structure is the function from members to their contents:
    - integers and enumeration values are their number;
    - pointers and callbacks are an integer address, 0 being NULL;
    - [double] members hold an order-preserving integer code of the IEEE
      number, with the code of +0 and -0 equal to 0 and a NaN coded above
      +infinity; only comparisons are ever made on them here, and a comparison
      "x < c" or "x <= c" with a NaN x is false, as it is on the codes. *)
From Coq Require Import ZArith List Bool Lia PeanoNat.
Import ListNotations.
Open Scope Z_scope.

Inductive field : Set :=
| P_n
| P_matrixMatvec
| P_matrixMatvec_type
| P_applyPreconditioner
| P_applyPreconditioner_type
| P_massMatrixMatvec
| P_massMatrixMatvec_type
| P_numProcs
| P_procID
| P_commInfo
| P_nLocal
| P_globalSumReal
| P_globalSumReal_type
| P_broadcastReal
| P_broadcastReal_type
| P_numEvals
| P_target
| P_numTargetShifts
| P_targetShifts
| P_locking
| P_initSize
| P_numOrthoConst
| P_maxBasisSize
| P_minRestartSize
| P_maxBlockSize
| P_maxMatvecs
| P_maxOuterIterations
| P_iseed0
| P_iseed1
| P_iseed2
| P_iseed3
| P_aNorm
| P_BNorm
| P_invBNorm
| P_eps
| P_orth
| P_internalPrecision
| P_printLevel
| P_outputFile
| P_matrix
| P_massMatrix
| P_preconditioner
| P_ShiftsForPreconditioner
| P_initBasisMode
| P_projection
| P_maxPrevRetain
| P_precondition
| P_robustShifts
| P_maxInnerIterations
| P_LeftQ
| P_LeftX
| P_RightQ
| P_RightX
| P_SkewQ
| P_SkewX
| P_convTest
| P_relTolBase
| P_numOuterIterations
| P_numRestarts
| P_numMatvecs
| P_numPreconds
| P_numGlobalSum
| P_volumeGlobalSum
| P_numBroadcast
| P_volumeBroadcast
| P_flopsDense
| P_numOrthoInnerProds
| P_elapsedTime
| P_timeMatvec
| P_timePrecond
| P_timeOrtho
| P_timeGlobalSum
| P_timeBroadcast
| P_timeDense
| P_estimateMinEVal
| P_estimateMaxEVal
| P_estimateLargestSVal
| P_estimateBNorm
| P_estimateInvBNorm
| P_maxConvTol
| P_lockingIssue
| P_dynamicMethodSwitch
| P_convTestFun
| P_convTestFun_type
| P_convtest
| P_ldevecs
| P_ldOPs
| P_monitorFun
| P_monitorFun_type
| P_monitor
| P_queue
| P_profile
| P_estimateResidualError.

(** Position of a member, used only to compare members. *)
Definition fidx (f : field) : Z :=
  match f with
  | P_n => 0
  | P_matrixMatvec => 1
  | P_matrixMatvec_type => 2
  | P_applyPreconditioner => 3
  | P_applyPreconditioner_type => 4
  | P_massMatrixMatvec => 5
  | P_massMatrixMatvec_type => 6
  | P_numProcs => 7
  | P_procID => 8
  | P_commInfo => 9
  | P_nLocal => 10
  | P_globalSumReal => 11
  | P_globalSumReal_type => 12
  | P_broadcastReal => 13
  | P_broadcastReal_type => 14
  | P_numEvals => 15
  | P_target => 16
  | P_numTargetShifts => 17
  | P_targetShifts => 18
  | P_locking => 19
  | P_initSize => 20
  | P_numOrthoConst => 21
  | P_maxBasisSize => 22
  | P_minRestartSize => 23
  | P_maxBlockSize => 24
  | P_maxMatvecs => 25
  | P_maxOuterIterations => 26
  | P_iseed0 => 27
  | P_iseed1 => 28
  | P_iseed2 => 29
  | P_iseed3 => 30
  | P_aNorm => 31
  | P_BNorm => 32
  | P_invBNorm => 33
  | P_eps => 34
  | P_orth => 35
  | P_internalPrecision => 36
  | P_printLevel => 37
  | P_outputFile => 38
  | P_matrix => 39
  | P_massMatrix => 40
  | P_preconditioner => 41
  | P_ShiftsForPreconditioner => 42
  | P_initBasisMode => 43
  | P_projection => 44
  | P_maxPrevRetain => 45
  | P_precondition => 46
  | P_robustShifts => 47
  | P_maxInnerIterations => 48
  | P_LeftQ => 49
  | P_LeftX => 50
  | P_RightQ => 51
  | P_RightX => 52
  | P_SkewQ => 53
  | P_SkewX => 54
  | P_convTest => 55
  | P_relTolBase => 56
  | P_numOuterIterations => 57
  | P_numRestarts => 58
  | P_numMatvecs => 59
  | P_numPreconds => 60
  | P_numGlobalSum => 61
  | P_volumeGlobalSum => 62
  | P_numBroadcast => 63
  | P_volumeBroadcast => 64
  | P_flopsDense => 65
  | P_numOrthoInnerProds => 66
  | P_elapsedTime => 67
  | P_timeMatvec => 68
  | P_timePrecond => 69
  | P_timeOrtho => 70
  | P_timeGlobalSum => 71
  | P_timeBroadcast => 72
  | P_timeDense => 73
  | P_estimateMinEVal => 74
  | P_estimateMaxEVal => 75
  | P_estimateLargestSVal => 76
  | P_estimateBNorm => 77
  | P_estimateInvBNorm => 78
  | P_maxConvTol => 79
  | P_lockingIssue => 80
  | P_dynamicMethodSwitch => 81
  | P_convTestFun => 82
  | P_convTestFun_type => 83
  | P_convtest => 84
  | P_ldevecs => 85
  | P_ldOPs => 86
  | P_monitorFun => 87
  | P_monitorFun_type => 88
  | P_monitor => 89
  | P_queue => 90
  | P_profile => 91
  | P_estimateResidualError => 92
  end.

Definition all_fields : list field :=
  [P_n; P_matrixMatvec; P_matrixMatvec_type; P_applyPreconditioner; P_applyPreconditioner_type; P_massMatrixMatvec; P_massMatrixMatvec_type; P_numProcs; P_procID; P_commInfo; P_nLocal; P_globalSumReal; P_globalSumReal_type; P_broadcastReal; P_broadcastReal_type; P_numEvals; P_target; P_numTargetShifts; P_targetShifts; P_locking; P_initSize; P_numOrthoConst; P_maxBasisSize; P_minRestartSize; P_maxBlockSize; P_maxMatvecs; P_maxOuterIterations; P_iseed0; P_iseed1; P_iseed2; P_iseed3; P_aNorm; P_BNorm; P_invBNorm; P_eps; P_orth; P_internalPrecision; P_printLevel; P_outputFile; P_matrix; P_massMatrix; P_preconditioner; P_ShiftsForPreconditioner; P_initBasisMode; P_projection; P_maxPrevRetain; P_precondition; P_robustShifts; P_maxInnerIterations; P_LeftQ; P_LeftX; P_RightQ; P_RightX; P_SkewQ; P_SkewX; P_convTest; P_relTolBase; P_numOuterIterations; P_numRestarts; P_numMatvecs; P_numPreconds; P_numGlobalSum; P_volumeGlobalSum; P_numBroadcast; P_volumeBroadcast; P_flopsDense; P_numOrthoInnerProds; P_elapsedTime; P_timeMatvec; P_timePrecond; P_timeOrtho; P_timeGlobalSum; P_timeBroadcast; P_timeDense; P_estimateMinEVal; P_estimateMaxEVal; P_estimateLargestSVal; P_estimateBNorm; P_estimateInvBNorm; P_maxConvTol; P_lockingIssue; P_dynamicMethodSwitch; P_convTestFun; P_convTestFun_type; P_convtest; P_ldevecs; P_ldOPs; P_monitorFun; P_monitorFun_type; P_monitor; P_queue; P_profile; P_estimateResidualError].

Definition field_eqb (f g : field) : bool := fidx f =? fidx g.

Definition params := field -> Z.

(** Assignment [primme->f = v]. *)
Definition set (p : params) (f : field) (v : Z) : params :=
  fun g => if field_eqb f g then v else p g.

(** Several assignments whose right-hand sides do not depend on each other. *)
Fixpoint sets (p : params) (l : list (field * Z)) : params :=
  match l with [] => p | (f, v) :: t => sets (set p f v) t end.

(** Two structures with the same contents. *)
Definition same (p q : params) : Prop := forall f, p f = q f.

Lemma fidx_nth : forall f, nth_error all_fields (Z.to_nat (fidx f)) = Some f.
Proof. destruct f; reflexivity. Qed.

Lemma fidx_inj : forall f g, fidx f = fidx g -> f = g.
Proof.
  intros f g H. pose proof (fidx_nth f) as A. pose proof (fidx_nth g) as B.
  rewrite H in A. congruence.
Qed.

Lemma field_eqb_eq : forall f g, field_eqb f g = true <-> f = g.
Proof.
  intros; unfold field_eqb; rewrite Z.eqb_eq; split; intros.
  - apply fidx_inj; auto.
  - subst; auto.
Qed.

Lemma set_eq : forall p f v, set p f v f = v.
Proof. intros; unfold set, field_eqb; now rewrite Z.eqb_refl. Qed.

Lemma set_neq : forall p f g v, f <> g -> set p f v g = p g.
Proof.
  intros; unfold set. destruct (field_eqb f g) eqn:E; auto.
  apply field_eqb_eq in E; contradiction.
Qed.

Lemma field_dec : forall f g : field, {f = g} + {f <> g}.
Proof.
  intros f g. destruct (field_eqb f g) eqn:E.
  - left. now apply field_eqb_eq.
  - right. intro H. apply field_eqb_eq in H. congruence.
Defined.
