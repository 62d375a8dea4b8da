(** The generic member interface of the eigensolver parameters.

    Models primme_get_member, primme_set_member, primme_member_info,
    primme_constant_info and primme_enum_member_info
    (src/eigs/primme_interface.c, lines 776-1046, 1070-1366, 1388-1627,
    1647-1719 and 1743-1837).  Each [switch] is the list of its cases in source
    order; the tables are transcribed case by case.  Labels are the numbers of
    [primme_params_label] (include/primme_eigs.h 286-378).

    Simplifications: the memory behind the [void *value] argument is the list
    of integers it holds (doubles as their codes, see FieldsModel; pointers as
    addresses); [PRIMME_INT] is 64 bits and enumerations are stored as unsigned
    32-bit numbers, as gcc and clang do. *)
From Coq Require Import String ZArith List Bool Lia.
From Verif Require Import Base FieldsModel ParamsModel.
Import ListNotations.
Open Scope Z_scope.

(** The C type of the member behind a label. *)
Inductive kind := KInt32 | KInt64 | KEnum | KDouble | KPtr.

(** The cases of primme_get_member: label, members copied out. *)
Definition get_cases : list (Z * list field) := [
  (1, [P_n]);
  (2, [P_matrixMatvec]);
  (3, [P_matrixMatvec_type]);
  (6, [P_massMatrixMatvec]);
  (7, [P_massMatrixMatvec_type]);
  (4, [P_applyPreconditioner]);
  (5, [P_applyPreconditioner_type]);
  (8, [P_numProcs]);
  (9, [P_procID]);
  (10, [P_commInfo]);
  (11, [P_nLocal]);
  (12, [P_globalSumReal]);
  (14, [P_broadcastReal]);
  (16, [P_numEvals]);
  (17, [P_target]);
  (18, [P_numTargetShifts]);
  (19, [P_targetShifts]);
  (40, [P_ShiftsForPreconditioner]);
  (20, [P_locking]);
  (21, [P_initSize]);
  (22, [P_numOrthoConst]);
  (79, [P_dynamicMethodSwitch]);
  (23, [P_maxBasisSize]);
  (24, [P_minRestartSize]);
  (25, [P_maxBlockSize]);
  (26, [P_maxMatvecs]);
  (27, [P_maxOuterIterations]);
  (28, [P_iseed0; P_iseed1; P_iseed2; P_iseed3]);
  (29, [P_aNorm]);
  (30, [P_BNorm]);
  (31, [P_invBNorm]);
  (32, [P_eps]);
  (33, [P_orth]);
  (34, [P_internalPrecision]);
  (35, [P_printLevel]);
  (36, [P_outputFile]);
  (37, [P_matrix]);
  (38, [P_massMatrix]);
  (39, [P_preconditioner]);
  (41, [P_initBasisMode]);
  (42, [P_projection]);
  (43, [P_maxPrevRetain]);
  (44, [P_precondition]);
  (45, [P_robustShifts]);
  (46, [P_maxInnerIterations]);
  (47, [P_LeftQ]);
  (48, [P_LeftX]);
  (49, [P_RightQ]);
  (50, [P_RightX]);
  (51, [P_SkewQ]);
  (52, [P_SkewX]);
  (53, [P_convTest]);
  (54, [P_relTolBase]);
  (55, [P_numOuterIterations]);
  (56, [P_numRestarts]);
  (57, [P_numMatvecs]);
  (58, [P_numPreconds]);
  (59, [P_numGlobalSum]);
  (61, [P_numBroadcast]);
  (60, [P_volumeGlobalSum]);
  (62, [P_volumeBroadcast]);
  (63, [P_flopsDense]);
  (64, [P_numOrthoInnerProds]);
  (65, [P_elapsedTime]);
  (66, [P_timeMatvec]);
  (67, [P_timePrecond]);
  (68, [P_timeOrtho]);
  (69, [P_timeGlobalSum]);
  (70, [P_timeBroadcast]);
  (71, [P_timeDense]);
  (72, [P_estimateMinEVal]);
  (73, [P_estimateMaxEVal]);
  (74, [P_estimateLargestSVal]);
  (75, [P_estimateBNorm]);
  (76, [P_estimateInvBNorm]);
  (77, [P_maxConvTol]);
  (78, [P_lockingIssue]);
  (83, [P_ldevecs]);
  (84, [P_ldOPs]);
  (80, [P_convTestFun]);
  (81, [P_convTestFun_type]);
  (82, [P_convtest]);
  (85, [P_monitorFun]);
  (86, [P_monitorFun_type]);
  (87, [P_monitor]);
  (88, [P_queue]);
  (89, [P_profile])].

(** The cases of primme_set_member: label, type of the conversion, members. *)
Definition set_cases : list (Z * (kind * list field)) := [
  (1, (KInt64, [P_n]));
  (2, (KPtr, [P_matrixMatvec]));
  (3, (KEnum, [P_matrixMatvec_type]));
  (6, (KPtr, [P_massMatrixMatvec]));
  (7, (KEnum, [P_massMatrixMatvec_type]));
  (4, (KPtr, [P_applyPreconditioner]));
  (5, (KEnum, [P_applyPreconditioner_type]));
  (8, (KInt32, [P_numProcs]));
  (9, (KInt32, [P_procID]));
  (10, (KPtr, [P_commInfo]));
  (11, (KInt64, [P_nLocal]));
  (12, (KPtr, [P_globalSumReal]));
  (13, (KEnum, [P_globalSumReal_type]));
  (14, (KPtr, [P_broadcastReal]));
  (15, (KEnum, [P_broadcastReal_type]));
  (16, (KInt32, [P_numEvals]));
  (17, (KEnum, [P_target]));
  (18, (KInt32, [P_numTargetShifts]));
  (19, (KPtr, [P_targetShifts]));
  (40, (KPtr, [P_ShiftsForPreconditioner]));
  (20, (KInt32, [P_locking]));
  (21, (KInt32, [P_initSize]));
  (22, (KInt32, [P_numOrthoConst]));
  (79, (KInt32, [P_dynamicMethodSwitch]));
  (23, (KInt32, [P_maxBasisSize]));
  (24, (KInt32, [P_minRestartSize]));
  (25, (KInt32, [P_maxBlockSize]));
  (26, (KInt64, [P_maxMatvecs]));
  (27, (KInt64, [P_maxOuterIterations]));
  (28, (KInt64, [P_iseed0; P_iseed1; P_iseed2; P_iseed3]));
  (29, (KDouble, [P_aNorm]));
  (30, (KDouble, [P_BNorm]));
  (31, (KDouble, [P_invBNorm]));
  (32, (KDouble, [P_eps]));
  (33, (KEnum, [P_orth]));
  (34, (KEnum, [P_internalPrecision]));
  (35, (KInt32, [P_printLevel]));
  (36, (KPtr, [P_outputFile]));
  (37, (KPtr, [P_matrix]));
  (38, (KPtr, [P_massMatrix]));
  (39, (KPtr, [P_preconditioner]));
  (41, (KEnum, [P_initBasisMode]));
  (42, (KEnum, [P_projection]));
  (43, (KInt32, [P_maxPrevRetain]));
  (44, (KInt32, [P_precondition]));
  (45, (KInt32, [P_robustShifts]));
  (46, (KInt32, [P_maxInnerIterations]));
  (47, (KInt32, [P_LeftQ]));
  (48, (KInt32, [P_LeftX]));
  (49, (KInt32, [P_RightQ]));
  (50, (KInt32, [P_RightX]));
  (51, (KInt32, [P_SkewQ]));
  (52, (KInt32, [P_SkewX]));
  (53, (KEnum, [P_convTest]));
  (54, (KDouble, [P_relTolBase]));
  (55, (KInt64, [P_numOuterIterations]));
  (56, (KInt64, [P_numRestarts]));
  (57, (KInt64, [P_numMatvecs]));
  (58, (KInt64, [P_numPreconds]));
  (60, (KInt64, [P_volumeGlobalSum]));
  (62, (KInt64, [P_volumeBroadcast]));
  (63, (KDouble, [P_flopsDense]));
  (64, (KDouble, [P_numOrthoInnerProds]));
  (65, (KDouble, [P_elapsedTime]));
  (66, (KDouble, [P_timeMatvec]));
  (67, (KDouble, [P_timePrecond]));
  (68, (KDouble, [P_timeOrtho]));
  (69, (KDouble, [P_timeGlobalSum]));
  (70, (KDouble, [P_timeBroadcast]));
  (71, (KDouble, [P_timeDense]));
  (72, (KDouble, [P_estimateMinEVal]));
  (73, (KDouble, [P_estimateMaxEVal]));
  (74, (KDouble, [P_estimateLargestSVal]));
  (75, (KDouble, [P_estimateBNorm]));
  (76, (KDouble, [P_estimateInvBNorm]));
  (77, (KDouble, [P_maxConvTol]));
  (78, (KInt64, [P_lockingIssue]));
  (80, (KPtr, [P_convTestFun]));
  (81, (KEnum, [P_convTestFun_type]));
  (82, (KPtr, [P_convtest]));
  (83, (KInt64, [P_ldevecs]));
  (84, (KInt64, [P_ldOPs]));
  (85, (KPtr, [P_monitorFun]));
  (86, (KEnum, [P_monitorFun_type]));
  (87, (KPtr, [P_monitor]));
  (88, (KPtr, [P_queue]));
  (89, (KPtr, [P_profile]))].

(** The IF_IS lines of primme_member_info (1410-1498): name, label. *)
Definition info_cases : list (string * Z) := [
  ("n"%string, 1);
  ("matrixMatvec"%string, 2);
  ("matrixMatvec_type"%string, 3);
  ("massMatrixMatvec"%string, 6);
  ("massMatrixMatvec_type"%string, 7);
  ("applyPreconditioner"%string, 4);
  ("applyPreconditioner_type"%string, 5);
  ("numProcs"%string, 8);
  ("procID"%string, 9);
  ("commInfo"%string, 10);
  ("nLocal"%string, 11);
  ("globalSumReal"%string, 12);
  ("broadcastReal"%string, 14);
  ("numEvals"%string, 16);
  ("target"%string, 17);
  ("numTargetShifts"%string, 18);
  ("targetShifts"%string, 19);
  ("locking"%string, 20);
  ("initSize"%string, 21);
  ("numOrthoConst"%string, 22);
  ("dynamicMethodSwitch"%string, 79);
  ("maxBasisSize"%string, 23);
  ("minRestartSize"%string, 24);
  ("maxBlockSize"%string, 25);
  ("maxMatvecs"%string, 26);
  ("maxOuterIterations"%string, 27);
  ("iseed"%string, 28);
  ("aNorm"%string, 29);
  ("BNorm"%string, 30);
  ("invBNorm"%string, 31);
  ("eps"%string, 32);
  ("orth"%string, 33);
  ("internalPrecision"%string, 34);
  ("printLevel"%string, 35);
  ("outputFile"%string, 36);
  ("matrix"%string, 37);
  ("massMatrix"%string, 38);
  ("preconditioner"%string, 39);
  ("ShiftsForPreconditioner"%string, 40);
  ("initBasisMode"%string, 41);
  ("projection_projection"%string, 42);
  ("restarting_maxPrevRetain"%string, 43);
  ("correction_precondition"%string, 44);
  ("correction_robustShifts"%string, 45);
  ("correction_maxInnerIterations"%string, 46);
  ("correction_projectors_LeftQ"%string, 47);
  ("correction_projectors_LeftX"%string, 48);
  ("correction_projectors_RightQ"%string, 49);
  ("correction_projectors_RightX"%string, 50);
  ("correction_projectors_SkewQ"%string, 51);
  ("correction_projectors_SkewX"%string, 52);
  ("correction_convTest"%string, 53);
  ("correction_relTolBase"%string, 54);
  ("stats_numOuterIterations"%string, 55);
  ("stats_numRestarts"%string, 56);
  ("stats_numMatvecs"%string, 57);
  ("stats_numPreconds"%string, 58);
  ("stats_numGlobalSum"%string, 59);
  ("stats_volumeGlobalSum"%string, 60);
  ("stats_numBroadcast"%string, 61);
  ("stats_volumeBroadcast"%string, 62);
  ("stats_flopsDense"%string, 63);
  ("stats_numOrthoInnerProds"%string, 64);
  ("stats_elapsedTime"%string, 65);
  ("stats_timeMatvec"%string, 66);
  ("stats_timePrecond"%string, 67);
  ("stats_timeOrtho"%string, 68);
  ("stats_timeGlobalSum"%string, 69);
  ("stats_timeBroadcast"%string, 70);
  ("stats_timeDense"%string, 71);
  ("stats_estimateMinEVal"%string, 72);
  ("stats_estimateMaxEVal"%string, 73);
  ("stats_estimateLargestSVal"%string, 74);
  ("stats_estimateBNorm"%string, 75);
  ("stats_estimateInvBNorm"%string, 76);
  ("stats_maxConvTol"%string, 77);
  ("stats_lockingIssue"%string, 78);
  ("convTestFun"%string, 80);
  ("convTestFun_type"%string, 81);
  ("convtest"%string, 82);
  ("ldevecs"%string, 83);
  ("ldOPs"%string, 84);
  ("monitorFun"%string, 85);
  ("monitorFun_type"%string, 86);
  ("monitor"%string, 87);
  ("queue"%string, 88);
  ("profile"%string, 89)].

(** The cases of the type switch of primme_member_info (1505-1624): label,
    [primme_type], arity. *)
Definition primme_int := 0.
Definition primme_double := 1.
Definition primme_pointer := 2.
Definition primme_string := 3.
Definition type_cases : list (Z * (Z * Z)) := [
  (3, (primme_int, 1));
  (5, (primme_int, 1));
  (13, (primme_int, 1));
  (15, (primme_int, 1));
  (7, (primme_int, 1));
  (1, (primme_int, 1));
  (16, (primme_int, 1));
  (17, (primme_int, 1));
  (20, (primme_int, 1));
  (21, (primme_int, 1));
  (22, (primme_int, 1));
  (79, (primme_int, 1));
  (23, (primme_int, 1));
  (24, (primme_int, 1));
  (25, (primme_int, 1));
  (26, (primme_int, 1));
  (27, (primme_int, 1));
  (41, (primme_int, 1));
  (33, (primme_int, 1));
  (34, (primme_int, 1));
  (42, (primme_int, 1));
  (43, (primme_int, 1));
  (44, (primme_int, 1));
  (45, (primme_int, 1));
  (46, (primme_int, 1));
  (47, (primme_int, 1));
  (48, (primme_int, 1));
  (49, (primme_int, 1));
  (50, (primme_int, 1));
  (51, (primme_int, 1));
  (52, (primme_int, 1));
  (53, (primme_int, 1));
  (55, (primme_int, 1));
  (56, (primme_int, 1));
  (57, (primme_int, 1));
  (58, (primme_int, 1));
  (59, (primme_int, 1));
  (60, (primme_int, 1));
  (61, (primme_int, 1));
  (62, (primme_int, 1));
  (78, (primme_int, 1));
  (8, (primme_int, 1));
  (9, (primme_int, 1));
  (11, (primme_int, 1));
  (18, (primme_int, 1));
  (35, (primme_int, 1));
  (83, (primme_int, 1));
  (84, (primme_int, 1));
  (86, (primme_int, 1));
  (81, (primme_int, 1));
  (28, (primme_int, 4));
  (29, (primme_double, 1));
  (30, (primme_double, 1));
  (31, (primme_double, 1));
  (32, (primme_double, 1));
  (54, (primme_double, 1));
  (64, (primme_double, 1));
  (66, (primme_double, 1));
  (67, (primme_double, 1));
  (68, (primme_double, 1));
  (69, (primme_double, 1));
  (70, (primme_double, 1));
  (63, (primme_double, 1));
  (71, (primme_double, 1));
  (65, (primme_double, 1));
  (72, (primme_double, 1));
  (73, (primme_double, 1));
  (74, (primme_double, 1));
  (75, (primme_double, 1));
  (76, (primme_double, 1));
  (77, (primme_double, 1));
  (19, (primme_double, 0));
  (40, (primme_double, 0));
  (2, (primme_pointer, 1));
  (4, (primme_pointer, 1));
  (10, (primme_pointer, 1));
  (12, (primme_pointer, 1));
  (14, (primme_pointer, 1));
  (6, (primme_pointer, 1));
  (36, (primme_pointer, 1));
  (37, (primme_pointer, 1));
  (38, (primme_pointer, 1));
  (39, (primme_pointer, 1));
  (80, (primme_pointer, 1));
  (82, (primme_pointer, 1));
  (85, (primme_pointer, 1));
  (87, (primme_pointer, 1));
  (88, (primme_pointer, 1));
  (89, (primme_string, 1))].

(** The IF_IS lines of primme_constant_info (1652-1714): name, value. *)
Definition constant_cases : list (string * Z) := [
  ("PRIMME_DEFAULT_METHOD"%string, 0);
  ("PRIMME_DYNAMIC"%string, 1);
  ("PRIMME_DEFAULT_MIN_TIME"%string, 2);
  ("PRIMME_DEFAULT_MIN_MATVECS"%string, 3);
  ("PRIMME_Arnoldi"%string, 4);
  ("PRIMME_GD"%string, 5);
  ("PRIMME_GD_plusK"%string, 6);
  ("PRIMME_GD_Olsen_plusK"%string, 7);
  ("PRIMME_JD_Olsen_plusK"%string, 8);
  ("PRIMME_RQI"%string, 9);
  ("PRIMME_JDQR"%string, 10);
  ("PRIMME_JDQMR"%string, 11);
  ("PRIMME_JDQMR_ETol"%string, 12);
  ("PRIMME_STEEPEST_DESCENT"%string, 13);
  ("PRIMME_LOBPCG_OrthoBasis"%string, 14);
  ("PRIMME_LOBPCG_OrthoBasis_Window"%string, 15);
  ("primme_smallest"%string, 0);
  ("primme_largest"%string, 1);
  ("primme_closest_geq"%string, 2);
  ("primme_closest_leq"%string, 3);
  ("primme_closest_abs"%string, 4);
  ("primme_largest_abs"%string, 5);
  ("primme_proj_default"%string, 0);
  ("primme_proj_RR"%string, 1);
  ("primme_proj_harmonic"%string, 2);
  ("primme_proj_refined"%string, 3);
  ("primme_init_default"%string, 0);
  ("primme_init_krylov"%string, 1);
  ("primme_init_random"%string, 2);
  ("primme_init_user"%string, 3);
  ("primme_full_LTolerance"%string, 0);
  ("primme_decreasing_LTolerance"%string, 1);
  ("primme_adaptive_ETolerance"%string, 2);
  ("primme_adaptive"%string, 3);
  ("primme_event_outer_iteration"%string, 0);
  ("primme_event_inner_iteration"%string, 1);
  ("primme_event_restart"%string, 2);
  ("primme_event_reset"%string, 3);
  ("primme_event_converged"%string, 4);
  ("primme_event_locked"%string, 5);
  ("primme_event_message"%string, 6);
  ("primme_event_profile"%string, 7);
  ("primme_orth_default"%string, 0);
  ("primme_orth_explicit_I"%string, 2);
  ("primme_orth_implicit_I"%string, 1);
  ("primme_op_default"%string, 0);
  ("primme_op_quad"%string, 4);
  ("primme_op_double"%string, 3);
  ("primme_op_float"%string, 2);
  ("primme_op_half"%string, 1);
  ("primme_op_int"%string, 5)].

(** The cases of primme_enum_member_info (1758-1826): labels, names and values. *)
Definition enum_cases : list (list Z * list (string * Z)) := [
  ([10],
   [("PRIMME_DEFAULT_METHOD"%string, 0);
    ("PRIMME_DYNAMIC"%string, 1);
    ("PRIMME_DEFAULT_MIN_TIME"%string, 2);
    ("PRIMME_DEFAULT_MIN_MATVECS"%string, 3);
    ("PRIMME_Arnoldi"%string, 4);
    ("PRIMME_GD"%string, 5);
    ("PRIMME_GD_plusK"%string, 6);
    ("PRIMME_GD_Olsen_plusK"%string, 7);
    ("PRIMME_JD_Olsen_plusK"%string, 8);
    ("PRIMME_RQI"%string, 9);
    ("PRIMME_JDQR"%string, 10);
    ("PRIMME_JDQMR"%string, 11);
    ("PRIMME_JDQMR_ETol"%string, 12);
    ("PRIMME_STEEPEST_DESCENT"%string, 13);
    ("PRIMME_LOBPCG_OrthoBasis"%string, 14);
    ("PRIMME_LOBPCG_OrthoBasis_Window"%string, 15)]);
  ([17],
   [("primme_smallest"%string, 0);
    ("primme_largest"%string, 1);
    ("primme_closest_geq"%string, 2);
    ("primme_closest_leq"%string, 3);
    ("primme_closest_abs"%string, 4);
    ("primme_largest_abs"%string, 5)]);
  ([42],
   [("primme_proj_default"%string, 0);
    ("primme_proj_RR"%string, 1);
    ("primme_proj_harmonic"%string, 2);
    ("primme_proj_refined"%string, 3)]);
  ([41],
   [("primme_init_default"%string, 0);
    ("primme_init_krylov"%string, 1);
    ("primme_init_random"%string, 2);
    ("primme_init_user"%string, 3)]);
  ([53],
   [("primme_full_LTolerance"%string, 0);
    ("primme_decreasing_LTolerance"%string, 1);
    ("primme_adaptive_ETolerance"%string, 2);
    ("primme_adaptive"%string, 3)]);
  ([33],
   [("primme_orth_default"%string, 0);
    ("primme_orth_explicit_I"%string, 2);
    ("primme_orth_implicit_I"%string, 1)]);
  ([3; 5; 13; 15; 7],
   [("primme_op_default"%string, 0);
    ("primme_op_quad"%string, 4);
    ("primme_op_double"%string, 3);
    ("primme_op_float"%string, 2);
    ("primme_op_half"%string, 1);
    ("primme_op_int"%string, 5)])].

(** [switch (label)] over cases with distinct labels: first match. *)
Fixpoint switch {A} (cases : list (Z * A)) (l : Z) : option A :=
  match cases with
  | [] => None
  | (k, a) :: rest => if k =? l then Some a else switch rest l
  end.

(** Stored value of each conversion: [(int)] wraps modulo 2^32 to the signed
    range (reached only for v <= INT_MAX), an enumeration cast wraps to the
    unsigned range, the others copy. *)
Definition wrap32 (v : Z) : Z := (v + 2147483648) mod 4294967296 - 2147483648.
Definition stored (k : kind) (v : Z) : Z :=
  match k with
  | KInt32 => wrap32 v
  | KEnum => v mod 4294967296
  | _ => v
  end.

(** primme_get_member (776-1046): return code and the values written. *)
Definition get_member (p : params) (label : Z) : Z * list Z :=
  match switch get_cases label with
  | Some fs => (0, map p fs)
  | None => (1, [])
  end.

Fixpoint store_all (k : kind) (fs : list field) (vs : list Z) (p : params) : option params :=
  match fs, vs with
  | [], _ => Some p
  | f :: fs', v :: vs' => store_all k fs' vs' (set p f (stored k v))
  | _ :: _, [] => None
  end.

(** primme_set_member (1070-1366).  [None]: the value memory is too short. *)
Definition set_member (p : params) (label : Z) (vs : list Z) : option (Z * params) :=
  match switch set_cases label with
  | None => Some (1, p)
  | Some (k, fs) =>
      let too_big := match k with
                     | KInt32 => match vs with v :: _ => v >? INT_MAX | [] => false end
                     | _ => false end in
      if too_big then Some (1, p)
      else q <- store_all k fs vs p; Some (0, q)
  end.

(** One IF_IS line of primme_member_info (1403-1408): the state is the label
    (if the pointer is not NULL), the name (if the pointer is not NULL; the
    inner option is the string, [None] for NULL) and [set]. *)
Definition info_state : Type := option Z * option (option string) * bool.
Definition info_step (st : info_state) (c : string * Z) : info_state :=
  let '(lab, nam, found) := st in
  let '(F, num) := c in
  let name_is := match nam with Some (Some s) => String.eqb F s | _ => false end in
  let label_is := match lab with Some l => l =? num | None => false end in
  if name_is || label_is then
    (match lab with Some _ => Some num | None => None end,
     match nam with Some _ => Some (Some F) | None => None end, true)
  else st.

(** primme_member_info (1388-1627).  [None]: NULL pointer dereferenced
    (the type switch reads the label through a NULL pointer).  Result: code, label, name, type
    and arity written. *)
Definition member_info (lab : option Z) (nam : option (option string))
  : option (Z * option Z * option (option string) * option (Z * Z)) :=
  let no_name := match nam with Some (Some _) => false | _ => true end in
  if (match lab with None => true | Some _ => false end) && no_name then
    Some (1, lab, nam, None)
  else
    let '(lab', nam', found) := fold_left info_step info_cases (lab, nam, false) in
    if negb found then Some (1, lab', nam', None)
    else match lab' with
         | None => None
         | Some l => match switch type_cases l with
                     | Some ta => Some (0, lab', nam', Some ta)
                     | None => Some (1, lab', nam', None)
                     end
         end.

(** primme_constant_info (1647-1719): code and value written. *)
Fixpoint lookup_name (cases : list (string * Z)) (s : string) : option Z :=
  match cases with
  | [] => None
  | (n, v) :: rest => if String.eqb n s then Some v else lookup_name rest s
  end.
Definition constant_info (s : string) : Z * option Z :=
  match lookup_name constant_cases s with Some v => (0, Some v) | None => (1, None) end.

(** primme_enum_member_info (1743-1837), both pointers non-NULL: code, value
    and name after the call. *)
Fixpoint enum_scan (cases : list (string * Z)) (v : Z) (s : option string)
  : option (Z * string) :=
  match cases with
  | [] => None
  | (n, k) :: rest =>
      if (v =? k) || match s with Some x => String.eqb n x | None => false end
      then Some (k, n) else enum_scan rest v s
  end.
Fixpoint enum_switch (cases : list (list Z * list (string * Z))) (l : Z)
  : list (string * Z) :=
  match cases with
  | [] => []
  | (ls, body) :: rest => if existsb (Z.eqb l) ls then body else enum_switch rest l
  end.
Definition enum_member_info (l v : Z) (s : option string) : Z * Z * option string :=
  let named := match s with Some _ => true | None => false end in
  if ((v >=? 0) && named) || ((v <? 0) && negb named) then (-1, v, s)
  else match enum_scan (enum_switch enum_cases l) v s with
       | Some (k, n) => (0, k, Some n)
       | None => (-2, v, s)
       end.
