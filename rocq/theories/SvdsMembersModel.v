(** The generic member interface of the singular value solver's parameters.

    Models primme_svds_get_member, primme_svds_set_member,
    primme_svds_member_info, primme_svds_constant_info and
    primme_svds_enum_member_info (src/svds/primme_svds_interface.c, lines
    575-774, 795-995, 1017-1199, 1219-1244 and 1267-1312).  Each [switch] is the list
    of its cases in source order; the tables are transcribed case by case.
    Labels are the numbers of [primme_svds_params_label] (include/primme_svds.h
    165-231).  The helpers shared with the eigensolver's interface ([switch],
    [stored], [info_step], [enum_scan] ...) are those of MembersModel: the two
    files repeat the same macros and conversions.

    Simplifications: as in MembersModel. *)
From Coq Require Import String ZArith List Bool Lia.
From Verif Require Import Base FieldsModel ParamsModel MembersModel SvdsFieldsModel SvdsParamsModel.
Import ListNotations.
Open Scope Z_scope.

(** What a successful get leaves in the caller's variable: the values of a
    member, or the address of the eigensolver structure of a stage. *)
Inductive got := Values (vs : list Z) | Stage1 | Stage2.
Inductive source := Own (fs : list sfield) | Nested1 | Nested2.

(** The cases of primme_svds_get_member (575-774): label, members copied out. *)
Definition sget_cases : list (Z * source) := [
  (1, Nested1);
  (2, Nested2);
  (3, Own [S_m]);
  (4, Own [S_n]);
  (5, Own [S_matrixMatvec]);
  (6, Own [S_matrixMatvec_type]);
  (7, Own [S_applyPreconditioner]);
  (8, Own [S_applyPreconditioner_type]);
  (9, Own [S_numProcs]);
  (10, Own [S_procID]);
  (11, Own [S_mLocal]);
  (12, Own [S_nLocal]);
  (13, Own [S_commInfo]);
  (14, Own [S_globalSumReal]);
  (15, Own [S_globalSumReal_type]);
  (16, Own [S_broadcastReal]);
  (17, Own [S_broadcastReal_type]);
  (37, Own [S_internalPrecision]);
  (18, Own [S_numSvals]);
  (19, Own [S_target]);
  (20, Own [S_numTargetShifts]);
  (21, Own [S_targetShifts]);
  (22, Own [S_method]);
  (23, Own [S_methodStage2]);
  (24, Own [S_matrix]);
  (25, Own [S_preconditioner]);
  (26, Own [S_locking]);
  (27, Own [S_numOrthoConst]);
  (28, Own [S_aNorm]);
  (29, Own [S_eps]);
  (30, Own [S_precondition]);
  (31, Own [S_initSize]);
  (32, Own [S_maxBasisSize]);
  (33, Own [S_maxBlockSize]);
  (34, Own [S_maxMatvecs]);
  (35, Own [S_iseed0; S_iseed1; S_iseed2; S_iseed3]);
  (36, Own [S_printLevel]);
  (38, Own [S_outputFile]);
  (39, Own [S_numOuterIterations]);
  (40, Own [S_numRestarts]);
  (41, Own [S_numMatvecs]);
  (42, Own [S_numPreconds]);
  (43, Own [S_numGlobalSum]);
  (44, Own [S_volumeGlobalSum]);
  (45, Own [S_numBroadcast]);
  (46, Own [S_volumeBroadcast]);
  (47, Own [S_numOrthoInnerProds]);
  (48, Own [S_elapsedTime]);
  (49, Own [S_timeMatvec]);
  (50, Own [S_timePrecond]);
  (51, Own [S_timeOrtho]);
  (52, Own [S_timeGlobalSum]);
  (53, Own [S_timeBroadcast]);
  (54, Own [S_lockingIssue]);
  (55, Own [S_convTestFun]);
  (56, Own [S_convTestFun_type]);
  (57, Own [S_convtest]);
  (58, Own [S_monitorFun]);
  (59, Own [S_monitorFun_type]);
  (60, Own [S_monitor]);
  (61, Own [S_queue]);
  (62, Own [S_profile])].

(** The cases of primme_svds_set_member (795-995): label, conversion and members;
    [None]: [return 1]. *)
Definition sset_cases : list (Z * option (kind * list sfield)) := [
  (1, None);
  (2, None);
  (3, Some (KInt64, [S_m]));
  (4, Some (KInt64, [S_n]));
  (5, Some (KPtr, [S_matrixMatvec]));
  (6, Some (KEnum, [S_matrixMatvec_type]));
  (7, Some (KPtr, [S_applyPreconditioner]));
  (8, Some (KEnum, [S_applyPreconditioner_type]));
  (9, Some (KInt32, [S_numProcs]));
  (10, Some (KInt32, [S_procID]));
  (11, Some (KInt64, [S_mLocal]));
  (12, Some (KInt64, [S_nLocal]));
  (13, Some (KPtr, [S_commInfo]));
  (14, Some (KPtr, [S_globalSumReal]));
  (15, Some (KEnum, [S_globalSumReal_type]));
  (16, Some (KPtr, [S_broadcastReal]));
  (37, Some (KEnum, [S_internalPrecision]));
  (17, Some (KEnum, [S_broadcastReal_type]));
  (18, Some (KInt32, [S_numSvals]));
  (19, Some (KEnum, [S_target]));
  (20, Some (KInt32, [S_numTargetShifts]));
  (21, Some (KPtr, [S_targetShifts]));
  (22, Some (KEnum, [S_method]));
  (23, Some (KEnum, [S_methodStage2]));
  (24, Some (KPtr, [S_matrix]));
  (25, Some (KPtr, [S_preconditioner]));
  (26, Some (KInt32, [S_locking]));
  (27, Some (KInt32, [S_numOrthoConst]));
  (28, Some (KDouble, [S_aNorm]));
  (29, Some (KDouble, [S_eps]));
  (30, Some (KInt32, [S_precondition]));
  (31, Some (KInt32, [S_initSize]));
  (32, Some (KInt32, [S_maxBasisSize]));
  (33, Some (KInt32, [S_maxBlockSize]));
  (34, Some (KInt64, [S_maxMatvecs]));
  (35, Some (KInt64, [S_iseed0; S_iseed1; S_iseed2; S_iseed3]));
  (36, Some (KInt32, [S_printLevel]));
  (38, Some (KPtr, [S_outputFile]));
  (39, Some (KInt64, [S_numOuterIterations]));
  (40, Some (KInt64, [S_numRestarts]));
  (41, Some (KInt64, [S_numMatvecs]));
  (42, Some (KInt64, [S_numPreconds]));
  (44, Some (KInt64, [S_volumeGlobalSum]));
  (46, Some (KInt64, [S_volumeBroadcast]));
  (47, Some (KDouble, [S_numOrthoInnerProds]));
  (48, Some (KDouble, [S_elapsedTime]));
  (49, Some (KDouble, [S_timeMatvec]));
  (50, Some (KDouble, [S_timePrecond]));
  (51, Some (KDouble, [S_timeOrtho]));
  (52, Some (KDouble, [S_timeGlobalSum]));
  (53, Some (KDouble, [S_timeBroadcast]));
  (55, Some (KPtr, [S_convTestFun]));
  (56, Some (KEnum, [S_convTestFun_type]));
  (57, Some (KPtr, [S_convtest]));
  (58, Some (KPtr, [S_monitorFun]));
  (59, Some (KEnum, [S_monitorFun_type]));
  (60, Some (KPtr, [S_monitor]));
  (61, Some (KPtr, [S_queue]));
  (62, Some (KPtr, [S_profile]))].

(** The IF_IS lines of primme_svds_member_info (1036-1097): name, label. *)
Definition sinfo_cases : list (string * Z) := [
  ("primme"%string, 1);
  ("primmeStage2"%string, 2);
  ("m"%string, 3);
  ("n"%string, 4);
  ("matrixMatvec"%string, 5);
  ("matrixMatvec_type"%string, 6);
  ("applyPreconditioner"%string, 7);
  ("applyPreconditioner_type"%string, 8);
  ("numProcs"%string, 9);
  ("procID"%string, 10);
  ("mLocal"%string, 11);
  ("nLocal"%string, 12);
  ("commInfo"%string, 13);
  ("globalSumReal"%string, 14);
  ("globalSumReal_type"%string, 15);
  ("broadcastReal"%string, 16);
  ("broadcastReal_type"%string, 17);
  ("internalPrecision"%string, 37);
  ("numSvals"%string, 18);
  ("target"%string, 19);
  ("numTargetShifts"%string, 20);
  ("targetShifts"%string, 21);
  ("method"%string, 22);
  ("methodStage2"%string, 23);
  ("matrix"%string, 24);
  ("preconditioner"%string, 25);
  ("locking"%string, 26);
  ("numOrthoConst"%string, 27);
  ("aNorm"%string, 28);
  ("eps"%string, 29);
  ("precondition"%string, 30);
  ("initSize"%string, 31);
  ("maxBasisSize"%string, 32);
  ("maxBlockSize"%string, 33);
  ("maxMatvecs"%string, 34);
  ("iseed"%string, 35);
  ("printLevel"%string, 36);
  ("outputFile"%string, 38);
  ("stats_numOuterIterations"%string, 39);
  ("stats_numRestarts"%string, 40);
  ("stats_numMatvecs"%string, 41);
  ("stats_numPreconds"%string, 42);
  ("stats_numGlobalSum"%string, 43);
  ("stats_volumeGlobalSum"%string, 44);
  ("stats_numBroadcast"%string, 45);
  ("stats_volumeBroadcast"%string, 46);
  ("stats_numOrthoInnerProds"%string, 47);
  ("stats_elapsedTime"%string, 48);
  ("stats_timeMatvec"%string, 49);
  ("stats_timePrecond"%string, 50);
  ("stats_timeOrtho"%string, 51);
  ("stats_timeGlobalSum"%string, 52);
  ("stats_timeBroadcast"%string, 53);
  ("stats_lockingIssue"%string, 54);
  ("convTestFun"%string, 55);
  ("convTestFun_type"%string, 56);
  ("convtest"%string, 57);
  ("monitorFun"%string, 58);
  ("monitorFun_type"%string, 59);
  ("monitor"%string, 60);
  ("queue"%string, 61);
  ("profile"%string, 62)].

(** The cases of the type switch of primme_svds_member_info (1105-1196): label,
    [primme_type], arity. *)
Definition stype_cases : list (Z * (Z * Z)) := [
  (6, (primme_int, 1));
  (8, (primme_int, 1));
  (15, (primme_int, 1));
  (17, (primme_int, 1));
  (37, (primme_int, 1));
  (3, (primme_int, 1));
  (4, (primme_int, 1));
  (18, (primme_int, 1));
  (19, (primme_int, 1));
  (22, (primme_int, 1));
  (23, (primme_int, 1));
  (26, (primme_int, 1));
  (27, (primme_int, 1));
  (30, (primme_int, 1));
  (31, (primme_int, 1));
  (32, (primme_int, 1));
  (33, (primme_int, 1));
  (34, (primme_int, 1));
  (36, (primme_int, 1));
  (39, (primme_int, 1));
  (40, (primme_int, 1));
  (41, (primme_int, 1));
  (42, (primme_int, 1));
  (43, (primme_int, 1));
  (44, (primme_int, 1));
  (45, (primme_int, 1));
  (46, (primme_int, 1));
  (54, (primme_int, 1));
  (35, (primme_int, 1));
  (9, (primme_int, 1));
  (10, (primme_int, 1));
  (11, (primme_int, 1));
  (12, (primme_int, 1));
  (20, (primme_int, 1));
  (56, (primme_int, 1));
  (59, (primme_int, 1));
  (28, (primme_double, 1));
  (29, (primme_double, 1));
  (48, (primme_double, 1));
  (47, (primme_double, 1));
  (49, (primme_double, 1));
  (50, (primme_double, 1));
  (51, (primme_double, 1));
  (52, (primme_double, 1));
  (53, (primme_double, 1));
  (21, (primme_double, 0));
  (1, (primme_pointer, 1));
  (2, (primme_pointer, 1));
  (5, (primme_pointer, 1));
  (7, (primme_pointer, 1));
  (13, (primme_pointer, 1));
  (14, (primme_pointer, 1));
  (16, (primme_pointer, 1));
  (24, (primme_pointer, 1));
  (25, (primme_pointer, 1));
  (38, (primme_pointer, 1));
  (55, (primme_pointer, 1));
  (57, (primme_pointer, 1));
  (58, (primme_pointer, 1));
  (60, (primme_pointer, 1));
  (61, (primme_pointer, 1));
  (62, (primme_string, 1))].

(** The IF_IS lines of primme_svds_constant_info (1219-1244): name, value. *)
Definition sconstant_cases : list (string * Z) := [
  ("primme_svds_default"%string, 0);
  ("primme_svds_hybrid"%string, 1);
  ("primme_svds_normalequations"%string, 2);
  ("primme_svds_augmented"%string, 3);
  ("primme_svds_largest"%string, 0);
  ("primme_svds_smallest"%string, 1);
  ("primme_svds_closest_abs"%string, 2);
  ("primme_svds_op_none"%string, 0);
  ("primme_svds_op_AtA"%string, 1);
  ("primme_svds_op_AAt"%string, 2);
  ("primme_svds_op_augmented"%string, 3)].

(** The cases of primme_svds_enum_member_info (1267-1312): labels, names and values. *)
Definition senum_cases : list (list Z * list (string * Z)) := [
  ([13],
   [("primme_svds_default"%string, 0);
    ("primme_svds_hybrid"%string, 1);
    ("primme_svds_normalequations"%string, 2);
    ("primme_svds_augmented"%string, 3)]);
  ([19],
   [("primme_svds_largest"%string, 0);
    ("primme_svds_smallest"%string, 1);
    ("primme_svds_closest_abs"%string, 2)]);
  ([22; 23],
   [("primme_svds_op_none"%string, 0);
    ("primme_svds_op_AtA"%string, 1);
    ("primme_svds_op_AAt"%string, 2);
    ("primme_svds_op_augmented"%string, 3)])].

(** primme_svds_get_member (575-774): return code and what was written. *)
Definition svds_get_member (p : svds) (label : Z) : Z * got :=
  match switch sget_cases label with
  | Some (Own fs) => (0, Values (map (own p) fs))
  | Some Nested1 => (0, Stage1)
  | Some Nested2 => (0, Stage2)
  | None => (1, Values [])
  end.

Fixpoint sstore_all (k : kind) (fs : list sfield) (vs : list Z) (p : sparams) : option sparams :=
  match fs, vs with
  | [], _ => Some p
  | f :: fs', v :: vs' => sstore_all k fs' vs' (sset p f (stored k v))
  | _ :: _, [] => None
  end.

(** primme_svds_set_member (795-995).  [None]: the value memory is too short. *)
Definition svds_set_member (p : svds) (label : Z) (vs : list Z) : option (Z * svds) :=
  match switch sset_cases label with
  | None | Some None => Some (1, p)
  | Some (Some (k, fs)) =>
      let too_big := match k with
                     | KInt32 => match vs with v :: _ => v >? INT_MAX | [] => false end
                     | _ => false end in
      if too_big then Some (1, p)
      else q <- sstore_all k fs vs (own p); Some (0, Svds q (st1 p) (st2 p))
  end.

(** primme_svds_member_info (1017-1199).  [None]: NULL pointer dereferenced (the type
    switch reads the label through a NULL pointer).  Result: code, label, name,
    type and arity written. *)
Definition svds_member_info (lab : option Z) (nam : option (option string))
  : option (Z * option Z * option (option string) * option (Z * Z)) :=
  let no_name := match nam with Some (Some _) => false | _ => true end in
  if (match lab with None => true | Some _ => false end) && no_name then
    Some (1, lab, nam, None)
  else
    let '(lab', nam', found) := fold_left info_step sinfo_cases (lab, nam, false) in
    if negb found then Some (1, lab', nam', None)
    else match lab' with
         | None => None
         | Some l => match switch stype_cases l with
                     | Some ta => Some (0, lab', nam', Some ta)
                     | None => Some (1, lab', nam', None)
                     end
         end.

(** primme_svds_constant_info (1219-1244): code and value written; names it does not
    know are passed on to primme_constant_info. *)
Definition svds_constant_info (s : string) : Z * option Z :=
  match lookup_name sconstant_cases s with
  | Some v => (0, Some v)
  | None => constant_info s
  end.

(** primme_svds_enum_member_info (1267-1312), both pointers non-NULL: code, value and
    name after the call. *)
Definition svds_enum_member_info (l v : Z) (s : option string) : Z * Z * option string :=
  let named := match s with Some _ => true | None => false end in
  if ((v >=? 0) && named) || ((v <? 0) && negb named) then (-1, v, s)
  else match enum_scan (enum_switch senum_cases l) v s with
       | Some (k, n) => (0, k, Some n)
       | None => (-2, v, s)
       end.
