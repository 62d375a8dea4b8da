(** What each label of the singular value solver stands for, read off
    include/primme_svds.h (165-231) alone: the label's number, its name, the
    declared C type (66-163) and the member of the structure with that name.
    Independent of the interface code.  The labels 1 and 2 stand for the two
    nested eigensolver structures. *)
From Coq Require Import String ZArith List.
From Verif Require Import SvdsFieldsModel SpecMembers.
Import ListNotations.
Open Scope Z_scope.

Definition svds_labels : list (Z * (string * ctype * list sfield)) := [
  (3, ("m"%string, Clong, [S_m]));
  (4, ("n"%string, Clong, [S_n]));
  (5, ("matrixMatvec"%string, Cpointer, [S_matrixMatvec]));
  (6, ("matrixMatvec_type"%string, Cenum, [S_matrixMatvec_type]));
  (7, ("applyPreconditioner"%string, Cpointer, [S_applyPreconditioner]));
  (8, ("applyPreconditioner_type"%string, Cenum, [S_applyPreconditioner_type]));
  (9, ("numProcs"%string, Cint, [S_numProcs]));
  (10, ("procID"%string, Cint, [S_procID]));
  (11, ("mLocal"%string, Clong, [S_mLocal]));
  (12, ("nLocal"%string, Clong, [S_nLocal]));
  (13, ("commInfo"%string, Cpointer, [S_commInfo]));
  (14, ("globalSumReal"%string, Cpointer, [S_globalSumReal]));
  (15, ("globalSumReal_type"%string, Cenum, [S_globalSumReal_type]));
  (16, ("broadcastReal"%string, Cpointer, [S_broadcastReal]));
  (17, ("broadcastReal_type"%string, Cenum, [S_broadcastReal_type]));
  (18, ("numSvals"%string, Cint, [S_numSvals]));
  (19, ("target"%string, Cenum, [S_target]));
  (20, ("numTargetShifts"%string, Cint, [S_numTargetShifts]));
  (21, ("targetShifts"%string, Cpointer, [S_targetShifts]));
  (22, ("method"%string, Cenum, [S_method]));
  (23, ("methodStage2"%string, Cenum, [S_methodStage2]));
  (24, ("matrix"%string, Cpointer, [S_matrix]));
  (25, ("preconditioner"%string, Cpointer, [S_preconditioner]));
  (26, ("locking"%string, Cint, [S_locking]));
  (27, ("numOrthoConst"%string, Cint, [S_numOrthoConst]));
  (28, ("aNorm"%string, Cdouble, [S_aNorm]));
  (29, ("eps"%string, Cdouble, [S_eps]));
  (30, ("precondition"%string, Cint, [S_precondition]));
  (31, ("initSize"%string, Cint, [S_initSize]));
  (32, ("maxBasisSize"%string, Cint, [S_maxBasisSize]));
  (33, ("maxBlockSize"%string, Cint, [S_maxBlockSize]));
  (34, ("maxMatvecs"%string, Clong, [S_maxMatvecs]));
  (35, ("iseed"%string, Clong, [S_iseed0; S_iseed1; S_iseed2; S_iseed3]));
  (36, ("printLevel"%string, Cint, [S_printLevel]));
  (37, ("internalPrecision"%string, Cenum, [S_internalPrecision]));
  (38, ("outputFile"%string, Cpointer, [S_outputFile]));
  (39, ("stats_numOuterIterations"%string, Clong, [S_numOuterIterations]));
  (40, ("stats_numRestarts"%string, Clong, [S_numRestarts]));
  (41, ("stats_numMatvecs"%string, Clong, [S_numMatvecs]));
  (42, ("stats_numPreconds"%string, Clong, [S_numPreconds]));
  (43, ("stats_numGlobalSum"%string, Clong, [S_numGlobalSum]));
  (44, ("stats_volumeGlobalSum"%string, Clong, [S_volumeGlobalSum]));
  (45, ("stats_numBroadcast"%string, Clong, [S_numBroadcast]));
  (46, ("stats_volumeBroadcast"%string, Clong, [S_volumeBroadcast]));
  (47, ("stats_numOrthoInnerProds"%string, Cdouble, [S_numOrthoInnerProds]));
  (48, ("stats_elapsedTime"%string, Cdouble, [S_elapsedTime]));
  (49, ("stats_timeMatvec"%string, Cdouble, [S_timeMatvec]));
  (50, ("stats_timePrecond"%string, Cdouble, [S_timePrecond]));
  (51, ("stats_timeOrtho"%string, Cdouble, [S_timeOrtho]));
  (52, ("stats_timeGlobalSum"%string, Cdouble, [S_timeGlobalSum]));
  (53, ("stats_timeBroadcast"%string, Cdouble, [S_timeBroadcast]));
  (54, ("stats_lockingIssue"%string, Clong, [S_lockingIssue]));
  (55, ("convTestFun"%string, Cpointer, [S_convTestFun]));
  (56, ("convTestFun_type"%string, Cenum, [S_convTestFun_type]));
  (57, ("convtest"%string, Cpointer, [S_convtest]));
  (58, ("monitorFun"%string, Cpointer, [S_monitorFun]));
  (59, ("monitorFun_type"%string, Cenum, [S_monitorFun_type]));
  (60, ("monitor"%string, Cpointer, [S_monitor]));
  (61, ("queue"%string, Cpointer, [S_queue]));
  (62, ("profile"%string, Cpointer, [S_profile]))].

(** The kind and the number of the values of a member, as the interface
    announces them: integers 0, doubles 1, pointers 2, strings 3.
    [targetShifts] is an array of doubles of unknown length (0), [iseed] has
    four integers. *)
Definition svds_type_of (nm : string) (t : ctype) (fs : list sfield) : Z * Z :=
  match t with
  | Cdouble => (1, 1)
  | Cpointer => if String.eqb nm "targetShifts" then (1, 0)
                else if String.eqb nm "profile" then (3, 1) else (2, 1)
  | _ => (0, Z.of_nat (length fs))
  end.

(** The enumerations of the header (46-64): a constant's value is its position. *)
Definition svds_enumerations : list (list string) := [
  ["primme_svds_largest"%string; "primme_svds_smallest"%string; "primme_svds_closest_abs"%string];
  ["primme_svds_default"%string; "primme_svds_hybrid"%string; "primme_svds_normalequations"%string; "primme_svds_augmented"%string];
  ["primme_svds_op_none"%string; "primme_svds_op_AtA"%string; "primme_svds_op_AAt"%string; "primme_svds_op_augmented"%string]].
