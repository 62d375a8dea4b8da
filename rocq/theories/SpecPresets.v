(** Specification of the initial values and of the preset methods, transcribed
    from doc/source/appendix.rst (the sentences "primme_initialize sets this
    field to ..." and the section "Preset Methods").  It uses only the names of
    the members, none of the model's functions; enumerators are written as
    their numbers in include/primme_eigs.h. *)
From Coq Require Import ZArith List Bool.
From Verif Require Import FieldsModel.
Import ListNotations.
Open Scope Z_scope.

Definition int_max : Z := 2147483647.

(** Documented initial values.  NULL and 0.0 are 0; [out] is the address of the
    standard output stream; primme_smallest = 0, primme_adaptive_ETolerance = 2
    and every "..._default" enumerator = 0. *)
Definition documented_initial (out : Z) : list (field * Z) :=
  [ (P_n, 0); (P_matrixMatvec, 0); (P_matrixMatvec_type, 0);
    (P_applyPreconditioner, 0); (P_applyPreconditioner_type, 0);
    (P_massMatrixMatvec, 0); (P_massMatrixMatvec_type, 0);
    (P_numProcs, 1); (P_procID, 0); (P_nLocal, -1); (P_commInfo, 0);
    (P_globalSumReal_type, 0); (P_broadcastReal, 0); (P_broadcastReal_type, 0);
    (P_internalPrecision, 0); (P_numEvals, 1); (P_target, 0);
    (P_numTargetShifts, 0); (P_targetShifts, 0); (P_printLevel, 1);
    (P_aNorm, 0); (P_BNorm, 0); (P_invBNorm, 0); (P_eps, 0); (P_orth, 0);
    (P_outputFile, out); (P_locking, -1); (P_initSize, 0); (P_ldevecs, -1);
    (P_numOrthoConst, 0); (P_maxBasisSize, 0); (P_minRestartSize, 0);
    (P_maxMatvecs, int_max); (P_maxOuterIterations, int_max);
    (P_iseed0, -1); (P_iseed1, -1); (P_iseed2, -1); (P_iseed3, -1);
    (P_matrix, 0); (P_massMatrix, 0); (P_preconditioner, 0);
    (P_projection, 0); (P_robustShifts, 0); (P_relTolBase, 0);
    (P_convTest, 2); (P_LeftQ, 0); (P_LeftX, 0); (P_RightQ, 0);
    (P_RightX, 0); (P_SkewQ, 0); (P_SkewX, 0); (P_ldOPs, -1);
    (P_monitorFun, 0); (P_monitorFun_type, 0); (P_monitor, 0);
    (P_convTestFun, 0); (P_convTestFun_type, 0); (P_convtest, 0); (P_queue, 0);
    (P_numOuterIterations, 0); (P_numRestarts, 0); (P_numMatvecs, 0);
    (P_numPreconds, 0); (P_numGlobalSum, 0); (P_volumeGlobalSum, 0);
    (P_numBroadcast, 0); (P_volumeBroadcast, 0); (P_numOrthoInnerProds, 0);
    (P_elapsedTime, 0); (P_timeMatvec, 0); (P_timePrecond, 0);
    (P_timeOrtho, 0); (P_timeGlobalSum, 0); (P_timeBroadcast, 0);
    (P_maxConvTol, 0); (P_lockingIssue, 0) ].

(** Documented initial values that the code does not give. *)
Definition documented_initial_elsewhere : list (field * Z) :=
  [ (P_dynamicMethodSwitch, 0); (P_maxBlockSize, 1);
    (P_initBasisMode, 1 (* primme_init_krylov *)); (P_maxPrevRetain, 0);
    (P_precondition, 0); (P_maxInnerIterations, 0);
    (P_estimateMinEVal, 0); (P_estimateMaxEVal, 0); (P_estimateLargestSVal, 0) ].

Section Presets.
  Variable p : params.   (* the structure before the call *)

  (** The block size and the use of the preconditioner once the undecided
      values (0 and -1) are replaced. *)
  Definition block : Z := if p P_maxBlockSize =? 0 then 1 else p P_maxBlockSize.
  Definition precond : Z :=
    if p P_precondition =? -1 then if p P_applyPreconditioner =? 0 then 0 else 1
    else p P_precondition.

  (** "maxPrevRetain = 2 if maxBlockSize is 1 and numEvals > 1; otherwise it
      sets maxPrevRetain to maxBlockSize".  The code also takes 2 with a mass
      matrix, and keeps a positive value chosen by the user. *)
  Definition retain_k : Z :=
    if 0 <? p P_maxPrevRetain then p P_maxPrevRetain
    else if (block =? 1) && (1 <? p P_numEvals) || negb (p P_massMatrixMatvec =? 0)
         then 2 else block.

  Definition extremal : bool := (p P_target =? 0) || (p P_target =? 1).

  Definition common (dyn : Z) : list (field * Z) :=
    [ (P_dynamicMethodSwitch, dyn); (P_maxBlockSize, block); (P_precondition, precond) ].

  Definition jdqmr_retain : Z :=
    if p P_maxPrevRetain <? 0 then 1 else p P_maxPrevRetain.

  (** LeftQ "= precondition", as a truth value. *)
  Definition with_prec : Z := if precond =? 0 then 0 else 1.

  Definition jdqmr (skewX conv : Z) : list (field * Z) :=
    [ (P_maxPrevRetain, jdqmr_retain); (P_maxInnerIterations, -1);
      (P_LeftQ, with_prec); (P_LeftX, 1); (P_RightQ, 0); (P_RightX, 0);
      (P_SkewQ, 0); (P_SkewX, skewX); (P_convTest, conv) ].

  Definition gd_olsen : list (field * Z) :=
    [ (P_maxPrevRetain, retain_k); (P_maxInnerIterations, 0);
      (P_RightX, 1); (P_SkewX, 0) ].

  Definition dynamic : list (field * Z) :=
    [ (P_maxPrevRetain, retain_k); (P_maxInnerIterations, -1);
      (P_LeftQ, with_prec); (P_LeftX, 1); (P_RightQ, 0); (P_RightX, 0);
      (P_SkewQ, 0); (P_SkewX, 0); (P_convTest, if extremal then 2 else 3) ].

  (** The settings of preset number [m]; the first entry of a member counts.
      relTolBase = 1.5 is written as the bit pattern of the double. *)
  Definition settings (m : Z) : list (field * Z) :=
    match m with
    | 0 (* DEFAULT_METHOD *) | 1 (* DYNAMIC *) => dynamic ++ common 1
    | 2 (* DEFAULT_MIN_TIME *) =>
        (if extremal then jdqmr 0 2 else jdqmr 1 3) ++ common 0
    | 3 (* DEFAULT_MIN_MATVECS *) => gd_olsen ++ common 0
    | 4 (* Arnoldi *) =>
        [ (P_maxPrevRetain, 0); (P_precondition, 0); (P_maxInnerIterations, 0) ]
        ++ common 0
    | 5 (* GD *) =>
        [ (P_maxPrevRetain, 0); (P_robustShifts, 1); (P_maxInnerIterations, 0);
          (P_RightX, 0); (P_SkewX, 0) ] ++ common 0
    | 6 (* GD_plusK *) =>
        [ (P_maxPrevRetain, retain_k); (P_maxInnerIterations, 0);
          (P_RightX, 0); (P_SkewX, 0) ] ++ common 0
    | 7 (* GD_Olsen_plusK *) => gd_olsen ++ common 0
    | 8 (* JD_Olsen_plusK *) =>
        [ (P_maxPrevRetain, retain_k); (P_maxInnerIterations, 0);
          (P_robustShifts, 1); (P_RightX, 1); (P_SkewX, 1) ] ++ common 0
    | 9 (* RQI *) =>
        [ (P_locking, 1); (P_maxPrevRetain, 0); (P_robustShifts, 1);
          (P_maxInnerIterations, -1); (P_LeftQ, 1); (P_LeftX, 1); (P_RightQ, 0);
          (P_RightX, 1); (P_SkewQ, 0); (P_SkewX, 0);
          (P_convTest, 0 (* primme_full_LTolerance *)) ] ++ common 0
    | 10 (* JDQR; the code's "unset" number of inner iterations is -INT_MAX *) =>
        [ (P_locking, 1); (P_maxPrevRetain, 1); (P_robustShifts, 0);
          (P_maxInnerIterations,
             if p P_maxInnerIterations =? - int_max then 10
             else p P_maxInnerIterations);
          (P_LeftQ, 0); (P_LeftX, 1); (P_RightQ, 1); (P_RightX, 1);
          (P_SkewQ, 1); (P_SkewX, 1); (P_relTolBase, 4609434218613702656);
          (P_convTest, 0) ] ++ common 0
    | 11 (* JDQMR *) => jdqmr 1 3 ++ common 0
    | 12 (* JDQMR_ETol *) => jdqmr 0 2 ++ common 0
    | 13 (* STEEPEST_DESCENT *) =>
        [ (P_locking, 1); (P_maxBasisSize, p P_numEvals * 2);
          (P_minRestartSize, p P_numEvals); (P_maxBlockSize, p P_numEvals);
          (P_maxPrevRetain, 0); (P_robustShifts, 0); (P_maxInnerIterations, 0);
          (P_RightX, 1); (P_SkewX, 0) ] ++ common 0
    | 14 (* LOBPCG_OrthoBasis *) =>
        [ (P_maxBasisSize, p P_numEvals * 3); (P_minRestartSize, p P_numEvals);
          (P_maxBlockSize, p P_numEvals); (P_maxPrevRetain, p P_numEvals);
          (P_robustShifts, 0); (P_maxInnerIterations, 0); (P_RightX, 1);
          (P_SkewX, 0); (P_initBasisMode, 2 (* primme_init_random *)) ] ++ common 0
    | 15 (* LOBPCG_OrthoBasis_Window; one-sided targets with a single vector
            restart with two *) =>
        (if (block =? 1) && ((p P_target =? 2) || (p P_target =? 3))
         then [ (P_maxBasisSize, 4); (P_minRestartSize, 2); (P_maxPrevRetain, 1) ]
         else [ (P_maxBasisSize, block * 3); (P_minRestartSize, block);
                (P_maxPrevRetain, block) ]) ++
        [ (P_robustShifts, 0); (P_maxInnerIterations, 0); (P_RightX, 1);
          (P_SkewX, 0); (P_initBasisMode, 2) ] ++ common 0
    | _ => []
    end.
End Presets.

(** First value listed for a member. *)
Fixpoint listed (f : field) (l : list (field * Z)) : option Z :=
  match l with
  | [] => None
  | (g, v) :: t => if field_eqb g f then Some v else listed f t
  end.

(** Members that [primme_set_defaults] may complete after the preset. *)
Definition completed_later : list field :=
  [P_ldevecs; P_projection; P_initBasisMode; P_maxBasisSize; P_minRestartSize; P_locking].
