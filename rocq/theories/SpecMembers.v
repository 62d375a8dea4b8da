(** What each label stands for, read off include/primme_eigs.h (286-378) alone:
    the label's number, its documented name, the member of the structure with
    that name and the declared C type of the member (109-254).  Independent of
    the interface code. *)
From Coq Require Import String ZArith List.
From Verif Require Import FieldsModel.
Import ListNotations.
Open Scope Z_scope.

Inductive ctype := Cint | Clong | Cenum | Cdouble | Cpointer.

Definition labels : list (Z * (string * ctype * list field)) := [
  (1, ("n"%string, Clong, [P_n]));
  (2, ("matrixMatvec"%string, Cpointer, [P_matrixMatvec]));
  (3, ("matrixMatvec_type"%string, Cenum, [P_matrixMatvec_type]));
  (4, ("applyPreconditioner"%string, Cpointer, [P_applyPreconditioner]));
  (5, ("applyPreconditioner_type"%string, Cenum, [P_applyPreconditioner_type]));
  (6, ("massMatrixMatvec"%string, Cpointer, [P_massMatrixMatvec]));
  (7, ("massMatrixMatvec_type"%string, Cenum, [P_massMatrixMatvec_type]));
  (8, ("numProcs"%string, Cint, [P_numProcs]));
  (9, ("procID"%string, Cint, [P_procID]));
  (10, ("commInfo"%string, Cpointer, [P_commInfo]));
  (11, ("nLocal"%string, Clong, [P_nLocal]));
  (12, ("globalSumReal"%string, Cpointer, [P_globalSumReal]));
  (13, ("globalSumReal_type"%string, Cenum, [P_globalSumReal_type]));
  (14, ("broadcastReal"%string, Cpointer, [P_broadcastReal]));
  (15, ("broadcastReal_type"%string, Cenum, [P_broadcastReal_type]));
  (16, ("numEvals"%string, Cint, [P_numEvals]));
  (17, ("target"%string, Cenum, [P_target]));
  (18, ("numTargetShifts"%string, Cint, [P_numTargetShifts]));
  (19, ("targetShifts"%string, Cpointer, [P_targetShifts]));
  (20, ("locking"%string, Cint, [P_locking]));
  (21, ("initSize"%string, Cint, [P_initSize]));
  (22, ("numOrthoConst"%string, Cint, [P_numOrthoConst]));
  (23, ("maxBasisSize"%string, Cint, [P_maxBasisSize]));
  (24, ("minRestartSize"%string, Cint, [P_minRestartSize]));
  (25, ("maxBlockSize"%string, Cint, [P_maxBlockSize]));
  (26, ("maxMatvecs"%string, Clong, [P_maxMatvecs]));
  (27, ("maxOuterIterations"%string, Clong, [P_maxOuterIterations]));
  (28, ("iseed"%string, Clong, [P_iseed0; P_iseed1; P_iseed2; P_iseed3]));
  (29, ("aNorm"%string, Cdouble, [P_aNorm]));
  (30, ("BNorm"%string, Cdouble, [P_BNorm]));
  (31, ("invBNorm"%string, Cdouble, [P_invBNorm]));
  (32, ("eps"%string, Cdouble, [P_eps]));
  (33, ("orth"%string, Cenum, [P_orth]));
  (34, ("internalPrecision"%string, Cenum, [P_internalPrecision]));
  (35, ("printLevel"%string, Cint, [P_printLevel]));
  (36, ("outputFile"%string, Cpointer, [P_outputFile]));
  (37, ("matrix"%string, Cpointer, [P_matrix]));
  (38, ("massMatrix"%string, Cpointer, [P_massMatrix]));
  (39, ("preconditioner"%string, Cpointer, [P_preconditioner]));
  (40, ("ShiftsForPreconditioner"%string, Cpointer, [P_ShiftsForPreconditioner]));
  (41, ("initBasisMode"%string, Cenum, [P_initBasisMode]));
  (42, ("projection_projection"%string, Cenum, [P_projection]));
  (43, ("restarting_maxPrevRetain"%string, Cint, [P_maxPrevRetain]));
  (44, ("correction_precondition"%string, Cint, [P_precondition]));
  (45, ("correction_robustShifts"%string, Cint, [P_robustShifts]));
  (46, ("correction_maxInnerIterations"%string, Cint, [P_maxInnerIterations]));
  (47, ("correction_projectors_LeftQ"%string, Cint, [P_LeftQ]));
  (48, ("correction_projectors_LeftX"%string, Cint, [P_LeftX]));
  (49, ("correction_projectors_RightQ"%string, Cint, [P_RightQ]));
  (50, ("correction_projectors_RightX"%string, Cint, [P_RightX]));
  (51, ("correction_projectors_SkewQ"%string, Cint, [P_SkewQ]));
  (52, ("correction_projectors_SkewX"%string, Cint, [P_SkewX]));
  (53, ("correction_convTest"%string, Cenum, [P_convTest]));
  (54, ("correction_relTolBase"%string, Cdouble, [P_relTolBase]));
  (55, ("stats_numOuterIterations"%string, Clong, [P_numOuterIterations]));
  (56, ("stats_numRestarts"%string, Clong, [P_numRestarts]));
  (57, ("stats_numMatvecs"%string, Clong, [P_numMatvecs]));
  (58, ("stats_numPreconds"%string, Clong, [P_numPreconds]));
  (59, ("stats_numGlobalSum"%string, Clong, [P_numGlobalSum]));
  (60, ("stats_volumeGlobalSum"%string, Clong, [P_volumeGlobalSum]));
  (61, ("stats_numBroadcast"%string, Clong, [P_numBroadcast]));
  (62, ("stats_volumeBroadcast"%string, Clong, [P_volumeBroadcast]));
  (63, ("stats_flopsDense"%string, Cdouble, [P_flopsDense]));
  (64, ("stats_numOrthoInnerProds"%string, Cdouble, [P_numOrthoInnerProds]));
  (65, ("stats_elapsedTime"%string, Cdouble, [P_elapsedTime]));
  (66, ("stats_timeMatvec"%string, Cdouble, [P_timeMatvec]));
  (67, ("stats_timePrecond"%string, Cdouble, [P_timePrecond]));
  (68, ("stats_timeOrtho"%string, Cdouble, [P_timeOrtho]));
  (69, ("stats_timeGlobalSum"%string, Cdouble, [P_timeGlobalSum]));
  (70, ("stats_timeBroadcast"%string, Cdouble, [P_timeBroadcast]));
  (71, ("stats_timeDense"%string, Cdouble, [P_timeDense]));
  (72, ("stats_estimateMinEVal"%string, Cdouble, [P_estimateMinEVal]));
  (73, ("stats_estimateMaxEVal"%string, Cdouble, [P_estimateMaxEVal]));
  (74, ("stats_estimateLargestSVal"%string, Cdouble, [P_estimateLargestSVal]));
  (75, ("stats_estimateBNorm"%string, Cdouble, [P_estimateBNorm]));
  (76, ("stats_estimateInvBNorm"%string, Cdouble, [P_estimateInvBNorm]));
  (77, ("stats_maxConvTol"%string, Cdouble, [P_maxConvTol]));
  (78, ("stats_lockingIssue"%string, Clong, [P_lockingIssue]));
  (79, ("dynamicMethodSwitch"%string, Cint, [P_dynamicMethodSwitch]));
  (80, ("convTestFun"%string, Cpointer, [P_convTestFun]));
  (81, ("convTestFun_type"%string, Cenum, [P_convTestFun_type]));
  (82, ("convtest"%string, Cpointer, [P_convtest]));
  (83, ("ldevecs"%string, Clong, [P_ldevecs]));
  (84, ("ldOPs"%string, Clong, [P_ldOPs]));
  (85, ("monitorFun"%string, Cpointer, [P_monitorFun]));
  (86, ("monitorFun_type"%string, Cenum, [P_monitorFun_type]));
  (87, ("monitor"%string, Cpointer, [P_monitor]));
  (88, ("queue"%string, Cpointer, [P_queue]));
  (89, ("profile"%string, Cpointer, [P_profile]))].

(** Values a member of each type can hold. *)
Definition fits (t : ctype) (v : Z) : Prop :=
  match t with
  | Cint => - 2147483648 <= v <= 2147483647
  | Clong => - 9223372036854775808 <= v <= 9223372036854775807
  | Cenum => 0 <= v <= 4294967295
  | _ => True
  end.

(** The enumerations of the header: constant and value. *)
Definition enumerations : list (list string) := [
  ["primme_smallest"%string; "primme_largest"%string; "primme_closest_geq"%string; "primme_closest_leq"%string; "primme_closest_abs"%string; "primme_largest_abs"%string];
  ["primme_proj_default"%string; "primme_proj_RR"%string; "primme_proj_harmonic"%string; "primme_proj_refined"%string];
  ["primme_init_default"%string; "primme_init_krylov"%string; "primme_init_random"%string; "primme_init_user"%string];
  ["primme_full_LTolerance"%string; "primme_decreasing_LTolerance"%string; "primme_adaptive_ETolerance"%string; "primme_adaptive"%string];
  ["primme_event_outer_iteration"%string; "primme_event_inner_iteration"%string; "primme_event_restart"%string; "primme_event_reset"%string; "primme_event_converged"%string; "primme_event_locked"%string; "primme_event_message"%string; "primme_event_profile"%string];
  ["primme_orth_default"%string; "primme_orth_implicit_I"%string; "primme_orth_explicit_I"%string];
  ["primme_op_default"%string; "primme_op_half"%string; "primme_op_float"%string; "primme_op_double"%string; "primme_op_quad"%string; "primme_op_int"%string];
  ["PRIMME_DEFAULT_METHOD"%string; "PRIMME_DYNAMIC"%string; "PRIMME_DEFAULT_MIN_TIME"%string; "PRIMME_DEFAULT_MIN_MATVECS"%string; "PRIMME_Arnoldi"%string; "PRIMME_GD"%string; "PRIMME_GD_plusK"%string; "PRIMME_GD_Olsen_plusK"%string; "PRIMME_JD_Olsen_plusK"%string; "PRIMME_RQI"%string; "PRIMME_JDQR"%string; "PRIMME_JDQMR"%string; "PRIMME_JDQMR_ETol"%string; "PRIMME_STEEPEST_DESCENT"%string; "PRIMME_LOBPCG_OrthoBasis"%string; "PRIMME_LOBPCG_OrthoBasis_Window"%string]].
