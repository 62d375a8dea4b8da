(** Specification of the initial values of the singular value solver, of its
    preset methods and of the settings its two eigensolvers must receive,
    transcribed from doc/source/appendixsvds.rst.  It uses only the names of the
    members; enumerators are written as their numbers in include/primme_svds.h
    and include/primme_eigs.h. *)
From Coq Require Import ZArith List Bool.
From Verif Require Import FieldsModel SvdsFieldsModel.
Import ListNotations.
Open Scope Z_scope.

(** Documented initial values; NULL, 0.0 and the "..._default" and "..._none"
    enumerators are 0. *)
Definition documented_svds_initial (out : Z) : list (sfield * Z) :=
  [ (S_m, 0); (S_n, 0); (S_matrixMatvec, 0); (S_matrixMatvec_type, 0);
    (S_applyPreconditioner, 0); (S_applyPreconditioner_type, 0); (S_numProcs, 1);
    (S_procID, 0); (S_mLocal, -1); (S_nLocal, -1); (S_commInfo, 0);
    (S_globalSumReal_type, 0); (S_broadcastReal, 0); (S_broadcastReal_type, 0);
    (S_numSvals, 1); (S_internalPrecision, 0); (S_numTargetShifts, 0); (S_targetShifts, 0);
    (S_printLevel, 1); (S_aNorm, 0); (S_eps, 0); (S_outputFile, out); (S_locking, -1);
    (S_initSize, 0); (S_numOrthoConst, 0); (S_maxBasisSize, 0); (S_maxBlockSize, 0);
    (S_maxMatvecs, 2147483647); (S_iseed0, -1); (S_iseed1, -1); (S_iseed2, -1);
    (S_iseed3, -1); (S_matrix, 0); (S_preconditioner, 0); (S_method, 0);
    (S_methodStage2, 0); (S_convTestFun, 0); (S_convTestFun_type, 0); (S_convtest, 0);
    (S_monitorFun, 0); (S_monitorFun_type, 0); (S_monitor, 0);
    (S_numOuterIterations, 0); (S_numRestarts, 0); (S_numMatvecs, 0); (S_numPreconds, 0);
    (S_numGlobalSum, 0); (S_volumeGlobalSum, 0); (S_numBroadcast, 0);
    (S_volumeBroadcast, 0); (S_numOrthoInnerProds, 0); (S_elapsedTime, 0);
    (S_timeMatvec, 0); (S_timePrecond, 0); (S_timeOrtho, 0); (S_timeGlobalSum, 0);
    (S_timeBroadcast, 0); (S_queue, 0) ].

(** Documented initial values that the code does not give: the target is
    documented as primme_svds_smallest, and preconditioning as off. *)
Definition documented_svds_elsewhere : list (sfield * Z) :=
  [ (S_target, 1); (S_precondition, 0) ].

(** "Preset Methods": the problems of the two stages, as operator numbers
    (0 none, 1 A'A, 2 AA', 3 augmented), for the presets 0 default, 1 hybrid,
    2 normal equations, 3 augmented. *)
Definition documented_methods (preset m n : Z) : Z * Z :=
  let normal := if n <=? m then 1 else 2 in
  match preset with
  | 0 | 1 => (normal, 3)
  | 2 => (normal, 0)
  | _ => (3, 0)
  end.

(** The order of the eigenvalue problem of an operator. *)
Definition order (op m n : Z) : Z :=
  match op with 1 => n | 2 => m | _ => m + n end.

(** Where the wanted singular values sit in the spectrum: the largest ones are
    the largest eigenvalues of each operator; the smallest ones the smallest
    eigenvalues of A'A and AA', and the first eigenvalues from the shift up of
    the augmented operator; those closest to a shift, the eigenvalues closest to
    a shift.  Targets of the eigensolver: 0 smallest, 1 largest, 2 closest above,
    4 closest. *)
Definition eigen_target (op target : Z) : Z :=
  match target with
  | 0 => 1
  | 1 => if op =? 3 then 2 else 0
  | _ => 4
  end.

Section Stage.
Variables (square times_sqrt2 : Z -> Z).   (* of doubles *)

(** What describes the problem: the stage that solves with operator [op] must
    have these values. *)
Definition stage_problem (op : Z) (s : sparams) : list (field * Z) :=
  [ (P_n, order op (s S_m) (s S_n)); (P_numEvals, s S_numSvals);
    (P_target, eigen_target op (s S_target)); (P_eps, s S_eps);
    (P_initSize, s S_initSize); (P_maxMatvecs, s S_maxMatvecs);
    (P_printLevel, s S_printLevel); (P_outputFile, s S_outputFile);
    (P_numOrthoConst, s S_numOrthoConst) ]
  ++ (if 1 <? s S_numProcs
      then [ (P_numProcs, s S_numProcs); (P_procID, s S_procID); (P_commInfo, s S_commInfo) ]
      else [])
  ++ (if s S_target =? 2 then [ (P_numTargetShifts, s S_numTargetShifts) ] else [])
  ++ (if 0 <? s S_aNorm
      then [ (P_aNorm, if op =? 3 then times_sqrt2 (s S_aNorm) else square (s S_aNorm)) ]
      else []).

(** Choices of the user about the method. *)
Definition stage_choices (s : sparams) : list (field * Z) :=
  (if 0 <? s S_maxBasisSize then [ (P_maxBasisSize, s S_maxBasisSize) ] else [])
  ++ (if 0 <? s S_maxBlockSize then [ (P_maxBlockSize, s S_maxBlockSize) ] else [])
  ++ (if 0 <=? s S_locking then [ (P_locking, s S_locking) ] else [])
  ++ (if 0 <=? s S_precondition then [ (P_precondition, s S_precondition) ] else []).
End Stage.

(** The rows of a process in the problem of an operator. *)
Definition local_rows (op mLocal nLocal : Z) : Z :=
  match op with 1 => nLocal | 2 => mLocal | _ => mLocal + nLocal end.
