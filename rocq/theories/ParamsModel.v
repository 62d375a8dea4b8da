(** Eigensolver parameters: initialisation, presets, defaults, validation and
    the driver around the main iteration.

    Conventions: C integers are [Z] (no wrap-around; the sizes involved are
    sums and small multiples of members, far from overflow for the sizes the
    library supports).  Doubles are order-preserving codes, see FieldsModel. *)
From Coq Require Import ZArith List Bool Lia.
From Verif Require Import Base FieldsModel.
Import ListNotations.
Open Scope Z_scope.

Notation "a <+ f := v" := (set a f v) (at level 62, left associativity, f at level 9).

(** [if (c) primme->f = v;] — written as one assignment that stores the old
    value when the condition fails, which has the same effect. *)
Definition set_if (c : bool) (p : params) (f : field) (v : Z) : params :=
  p <+ f := (if c then v else p f).

Definition INT_MAX : Z := 2147483647.

(** include/primme_eigs.h 60-130: enumeration values. *)
Definition primme_smallest := 0.
Definition primme_largest := 1.
Definition primme_closest_geq := 2.
Definition primme_closest_leq := 3.
Definition primme_closest_abs := 4.
Definition primme_largest_abs := 5.
Definition primme_proj_default := 0.
Definition primme_proj_RR := 1.
Definition primme_proj_harmonic := 2.
Definition primme_proj_refined := 3.
Definition primme_init_default := 0.
Definition primme_init_krylov := 1.
Definition primme_init_random := 2.
Definition primme_init_user := 3.
Definition primme_full_LTolerance := 0.
Definition primme_decreasing_LTolerance := 1.
Definition primme_adaptive_ETolerance := 2.
Definition primme_adaptive := 3.
Definition primme_orth_default := 0.
Definition primme_orth_implicit_I := 1.
Definition primme_orth_explicit_I := 2.
Definition primme_op_default := 0.
Definition primme_op_half := 1.
Definition primme_op_float := 2.
Definition primme_op_double := 3.
Definition primme_op_quad := 4.

(** include/primme_eigs.h, [primme_preset_method]. *)
Definition PRIMME_DEFAULT_METHOD := 0.
Definition PRIMME_DYNAMIC := 1.
Definition PRIMME_DEFAULT_MIN_TIME := 2.
Definition PRIMME_DEFAULT_MIN_MATVECS := 3.
Definition PRIMME_Arnoldi := 4.
Definition PRIMME_GD := 5.
Definition PRIMME_GD_plusK := 6.
Definition PRIMME_GD_Olsen_plusK := 7.
Definition PRIMME_JD_Olsen_plusK := 8.
Definition PRIMME_RQI := 9.
Definition PRIMME_JDQR := 10.
Definition PRIMME_JDQMR := 11.
Definition PRIMME_JDQMR_ETol := 12.
Definition PRIMME_STEEPEST_DESCENT := 13.
Definition PRIMME_LOBPCG_OrthoBasis := 14.
Definition PRIMME_LOBPCG_OrthoBasis_Window := 15.

(** Codes of the doubles 1.0, 1.5 and of HUGE_VAL (the IEEE bit patterns). *)
Definition code_1 : Z := 4607182418800017408.
Definition code_1_5 : Z := 4609434218613702656.
Definition code_huge : Z := 9218868437227405312.

Definition is_extremal (p : params) : bool :=
  (p P_target =? primme_smallest) || (p P_target =? primme_largest).

Definition nonnull (v : Z) : bool := negb (v =? 0).

(** primme_interface.c 101-217, [primme_initialize]: one assignment per member,
    over whatever the memory [g] held.  [stdout_ptr] is the address of the
    standard output stream. *)
Definition primme_initialize_over (g : params) (stdout_ptr : Z) : params :=
  sets g
    [ (P_n, 0); (P_numEvals, 1); (P_target, primme_smallest); (P_aNorm, 0);
      (P_BNorm, 0); (P_invBNorm, 0); (P_eps, 0); (P_matrixMatvec, 0);
      (P_matrixMatvec_type, primme_op_default); (P_applyPreconditioner, 0);
      (P_applyPreconditioner_type, primme_op_default);
      (P_massMatrixMatvec, 0); (P_massMatrixMatvec_type, primme_op_default);
      (P_numTargetShifts, 0); (P_targetShifts, 0); (P_numProcs, 1);
      (P_procID, 0); (P_nLocal, -1); (P_commInfo, 0); (P_globalSumReal, 0);
      (P_globalSumReal_type, primme_op_default); (P_broadcastReal, 0);
      (P_broadcastReal_type, primme_op_default); (P_initSize, 0);
      (P_numOrthoConst, 0); (P_projection, primme_proj_default);
      (P_initBasisMode, primme_init_default); (P_locking, -1);
      (P_dynamicMethodSwitch, -1); (P_maxBasisSize, 0);
      (P_minRestartSize, 0); (P_maxBlockSize, 0); (P_maxMatvecs, INT_MAX);
      (P_maxOuterIterations, INT_MAX); (P_maxPrevRetain, -1);
      (P_orth, primme_orth_default);
      (P_internalPrecision, primme_op_default); (P_precondition, -1);
      (P_robustShifts, 0); (P_maxInnerIterations, - INT_MAX); (P_LeftQ, 0);
      (P_LeftX, 0); (P_RightQ, 0); (P_RightX, 0); (P_SkewQ, 0); (P_SkewX, 0);
      (P_relTolBase, 0); (P_convTest, primme_adaptive_ETolerance);
      (P_outputFile, stdout_ptr); (P_printLevel, 1);
      (P_numOuterIterations, 0); (P_numRestarts, 0); (P_numMatvecs, 0);
      (P_numPreconds, 0); (P_numGlobalSum, 0); (P_flopsDense, 0);
      (P_timeDense, 0); (P_volumeGlobalSum, 0); (P_numBroadcast, 0);
      (P_volumeBroadcast, 0); (P_numOrthoInnerProds, 0); (P_elapsedTime, 0);
      (P_timeMatvec, 0); (P_timePrecond, 0); (P_timeOrtho, 0);
      (P_timeGlobalSum, 0); (P_timeBroadcast, 0);
      (P_estimateMinEVal, - code_huge); (P_estimateMaxEVal, code_huge);
      (P_estimateLargestSVal, - code_huge); (P_estimateBNorm, - code_huge);
      (P_estimateInvBNorm, - code_huge); (P_maxConvTol, 0);
      (P_estimateResidualError, 0);
      (P_lockingIssue, 0); (P_matrix, 0); (P_preconditioner, 0);
      (P_massMatrix, 0); (P_iseed0, -1); (P_iseed1, -1); (P_iseed2, -1);
      (P_iseed3, -1); (P_ShiftsForPreconditioner, 0); (P_convTestFun, 0);
      (P_convTestFun_type, primme_op_default); (P_convtest, 0);
      (P_ldevecs, -1); (P_ldOPs, -1); (P_monitorFun, 0);
      (P_monitorFun_type, primme_op_default); (P_monitor, 0); (P_queue, 0);
      (P_profile, 0) ].

(** On zeroed memory; [PropsInitialize] shows the memory does not matter. *)
Definition primme_initialize (stdout_ptr : Z) : params :=
  primme_initialize_over (fun _ => 0) stdout_ptr.

(** primme_interface.c 338-349 (and the same text in 353-363, 367-377,
    491-501): number of previous vectors kept by the "+k" methods. *)
Definition plusK_retain (p : params) : params :=
  set_if (p P_maxPrevRetain <=? 0) p P_maxPrevRetain
    (if ((p P_maxBlockSize =? 1) && (p P_numEvals >? 1))
        || nonnull (p P_massMatrixMatvec)
     then 2 else p P_maxBlockSize).

(** primme_interface.c 432-436, 451-455, 503-508: projector on the locked
    vectors only with a preconditioner. *)
Definition leftQ_by_precond (p : params) : params :=
  p <+ P_LeftQ := (if nonnull (p P_precondition) then 1 else 0).

(** primme_interface.c 295-313: resolution of the three "default" presets. *)
Definition resolve_method (m : Z) (p : params) : Z :=
  let m := if m =? PRIMME_DEFAULT_METHOD then PRIMME_DYNAMIC else m in
  if m =? PRIMME_DEFAULT_MIN_MATVECS then PRIMME_GD_Olsen_plusK
  else if m =? PRIMME_DEFAULT_MIN_TIME then
    if is_extremal p then PRIMME_JDQMR_ETol else PRIMME_JDQMR
  else m.

(** primme_interface.c 314-326: settings common to all presets. *)
Definition method_common (m : Z) (p : params) : params :=
  let p := p <+ P_dynamicMethodSwitch := (if m =? PRIMME_DYNAMIC then 1 else 0) in
  let p := set_if (p P_maxBlockSize =? 0) p P_maxBlockSize 1 in
  set_if (p P_precondition =? -1) p P_precondition
    (if nonnull (p P_applyPreconditioner) then 1 else 0).

(** primme_interface.c 328-524: per-method settings; [None] is the final
    [else return -1]. *)
Definition method_specific (m : Z) (p : params) : option params :=
  if m =? PRIMME_Arnoldi then
    Some (sets p [(P_maxPrevRetain, 0); (P_precondition, 0);
                  (P_maxInnerIterations, 0)])
  else if m =? PRIMME_GD then
    Some (sets p [(P_maxPrevRetain, 0); (P_robustShifts, 1);
                  (P_maxInnerIterations, 0); (P_RightX, 0); (P_SkewX, 0)])
  else if m =? PRIMME_GD_plusK then
    Some (sets (plusK_retain p)
            [(P_maxInnerIterations, 0); (P_RightX, 0); (P_SkewX, 0)])
  else if m =? PRIMME_GD_Olsen_plusK then
    Some (sets (plusK_retain p)
            [(P_maxInnerIterations, 0); (P_RightX, 1); (P_SkewX, 0)])
  else if m =? PRIMME_JD_Olsen_plusK then
    Some (sets (plusK_retain p)
            [(P_robustShifts, 1); (P_maxInnerIterations, 0);
             (P_RightX, 1); (P_SkewX, 1)])
  else if m =? PRIMME_RQI then
    Some (sets p [(P_locking, 1); (P_maxPrevRetain, 0); (P_robustShifts, 1);
                  (P_maxInnerIterations, -1);
                  (P_LeftQ, 1); (P_LeftX, 1); (P_RightQ, 0); (P_RightX, 1);
                  (P_SkewQ, 0); (P_SkewX, 0);
                  (P_convTest, primme_full_LTolerance)])
  else if m =? PRIMME_JDQR then
    let p := sets p [(P_locking, 1); (P_maxPrevRetain, 1); (P_robustShifts, 0)] in
    let p := set_if (p P_maxInnerIterations =? - INT_MAX) p P_maxInnerIterations 10 in
    Some (sets p [(P_LeftQ, 0); (P_LeftX, 1); (P_RightQ, 1); (P_RightX, 1);
                  (P_SkewQ, 1); (P_SkewX, 1); (P_relTolBase, code_1_5);
                  (P_convTest, primme_full_LTolerance)])
  else if m =? PRIMME_JDQMR then
    let p := set_if (p P_maxPrevRetain <? 0) p P_maxPrevRetain 1 in
    let p := leftQ_by_precond (p <+ P_maxInnerIterations := -1) in
    Some (sets p [(P_LeftX, 1); (P_RightQ, 0); (P_RightX, 0); (P_SkewQ, 0);
                  (P_SkewX, 1); (P_convTest, primme_adaptive)])
  else if m =? PRIMME_JDQMR_ETol then
    let p := set_if (p P_maxPrevRetain <? 0) p P_maxPrevRetain 1 in
    let p := leftQ_by_precond (p <+ P_maxInnerIterations := -1) in
    Some (sets p [(P_LeftX, 1); (P_RightQ, 0); (P_RightX, 0); (P_SkewQ, 0);
                  (P_SkewX, 0); (P_convTest, primme_adaptive_ETolerance)])
  else if m =? PRIMME_STEEPEST_DESCENT then
    Some (sets p [(P_locking, 1); (P_maxBasisSize, p P_numEvals * 2);
                  (P_minRestartSize, p P_numEvals);
                  (P_maxBlockSize, p P_numEvals); (P_maxPrevRetain, 0);
                  (P_robustShifts, 0); (P_maxInnerIterations, 0);
                  (P_RightX, 1); (P_SkewX, 0)])
  else if m =? PRIMME_LOBPCG_OrthoBasis then
    Some (sets p [(P_maxBasisSize, p P_numEvals * 3);
                  (P_minRestartSize, p P_numEvals);
                  (P_maxBlockSize, p P_numEvals);
                  (P_maxPrevRetain, p P_numEvals);
                  (P_robustShifts, 0); (P_maxInnerIterations, 0);
                  (P_RightX, 1); (P_SkewX, 0);
                  (P_initBasisMode, primme_init_random)])
  else if m =? PRIMME_LOBPCG_OrthoBasis_Window then
    let one := (p P_maxBlockSize =? 1)
               && ((p P_target =? primme_closest_leq)
                   || (p P_target =? primme_closest_geq)) in
    let p := sets p
      [(P_maxBasisSize, if one then 4 else p P_maxBlockSize * 3);
       (P_minRestartSize, if one then 2 else p P_maxBlockSize);
       (P_maxPrevRetain, if one then 1 else p P_maxBlockSize)] in
    Some (sets p [(P_robustShifts, 0); (P_maxInnerIterations, 0);
                  (P_RightX, 1); (P_SkewX, 0);
                  (P_initBasisMode, primme_init_random)])
  else if m =? PRIMME_DYNAMIC then
    let p := plusK_retain p in
    let p := leftQ_by_precond (p <+ P_maxInnerIterations := -1) in
    let p := sets p [(P_LeftX, 1); (P_RightQ, 0); (P_RightX, 0); (P_SkewQ, 0);
                     (P_SkewX, 0)] in
    Some (p <+ P_convTest :=
            (if is_extremal p then primme_adaptive_ETolerance else primme_adaptive))
  else None.

(** primme_interface.c 556-571: maximum basis size.  [(int)2.5 * r] in C casts
    the literal first, so it is [2 * r]; likewise [(int)1.7 * r] is [1 * r]. *)
Definition default_basis (p : params) : Z :=
  if is_extremal p then
    Z.min (p P_n - p P_numOrthoConst)
          (Z.max (Z.max 15 (4 * p P_maxBlockSize + p P_maxPrevRetain))
                 (2 * p P_minRestartSize + p P_maxPrevRetain))
  else
    Z.min (p P_n - p P_numOrthoConst)
          (Z.max (Z.max 35 (5 * p P_maxBlockSize + p P_maxPrevRetain))
                 (1 * p P_minRestartSize + p P_maxPrevRetain)).

(** primme_interface.c 574-580: [(int)(0.5 + 0.4*m)] and [(int)(0.5 + 0.6*m)].
    The C truncation goes towards zero, and 4m+5, 6m+5 are odd, so the exact
    quotient is never within 1/10 of an integer and double rounding cannot
    change the result. *)
Definition default_restart0 (p : params) : Z :=
  if p P_n <=? 3 then p P_n - p P_numOrthoConst
  else if is_extremal p then Z.quot (5 + 4 * p P_maxBasisSize) 10
  else Z.quot (5 + 6 * p P_maxBasisSize) 10.

(** primme_interface.c 582-594: round so that a whole number of blocks fits
    between restarts.  [r] is the value from [default_restart0]. *)
Definition default_restart (p : params) (r : Z) : Z :=
  if p P_maxBlockSize >? 1 then
    if p P_maxPrevRetain >? 0 then
      p P_maxBasisSize
      - p P_maxBlockSize
        * (1 + Z.quot (p P_maxBasisSize - r - 1 - p P_maxPrevRetain) (p P_maxBlockSize))
      - p P_maxPrevRetain
    else
      p P_maxBasisSize
      - p P_maxBlockSize
        * (1 + Z.quot (p P_maxBasisSize - r - 1) (p P_maxBlockSize))
  else r.

(** primme_interface.c 600-616: soft or hard locking. *)
Definition default_locking (p : params) : Z :=
  if p P_locking >=? 0 then p P_locking
  else if negb (is_extremal p) then 1
  else if p P_numEvals >? p P_minRestartSize then 1
  else 0.

(** primme_interface.c 548-553. *)
Definition fill_modes (p : params) : params :=
  let p := set_if ((p P_ldevecs =? -1) && negb (p P_nLocal =? -1))
                  p P_ldevecs (p P_nLocal) in
  let p := set_if (p P_projection =? primme_proj_default)
                  p P_projection primme_proj_RR in
  set_if (p P_initBasisMode =? primme_init_default)
         p P_initBasisMode primme_init_krylov.

(** primme_interface.c 556-571. *)
Definition fill_basis_size (p : params) : params :=
  set_if (p P_maxBasisSize =? 0) p P_maxBasisSize (default_basis p).

(** primme_interface.c 573-595. *)
Definition fill_restart_size (p : params) : params :=
  set_if (p P_minRestartSize =? 0)
         p P_minRestartSize (default_restart p (default_restart0 p)).

(** primme_interface.c 548-617: [primme_set_defaults] after the call to
    [primme_set_method]. *)
Definition fill_defaults (p : params) : params :=
  let p := fill_restart_size (fill_basis_size (fill_modes p)) in
  p <+ P_locking := default_locking p.

(** primme_interface.c 293-531 [primme_set_method] with the final call to
    [primme_set_defaults] as an argument; result code and structure.  On the
    error path the structure keeps the changes of [method_common]. *)
Definition set_method_with (defaults : params -> option params) (m : Z) (p : params)
  : option (Z * params) :=
  let m := resolve_method m p in
  let p := method_common m p in
  match method_specific m p with
  | None => Some (-1, p)
  | Some p => q <- defaults p ; Some (0, q)
  end.

(** primme_interface.c 543-617 [primme_set_defaults]; the two functions call
    each other, [fuel] bounds the nesting and [None] means it was exceeded. *)
Fixpoint set_defaults_fuel (fuel : nat) (p : params) : option params :=
  match fuel with
  | O => None
  | S k =>
    p1 <- (if p P_dynamicMethodSwitch <? 0
           then r <- set_method_with (set_defaults_fuel k) PRIMME_DYNAMIC p ;
                Some (snd r)
           else Some p) ;
    Some (fill_defaults p1)
  end.

Definition primme_set_defaults (p : params) : option params := set_defaults_fuel 2 p.

Definition primme_set_method (m : Z) (p : params) : option (Z * params) :=
  set_method_with (set_defaults_fuel 2) m p.

(** Output arguments of a driver call: the three pointers, and whether the
    eigenvector pointer has the wrong kind of address ([Num_check_pointer]). *)
Record outputs := { o_evals : Z; o_evecs : Z; o_resNorms : Z; o_badptr : bool }.

(** primme_c.c 438-535, [check_input], for a non-NULL structure (the caller
    has dereferenced it).  [meps] is the code of MACHINE_EPSILON. *)
Definition check_input (meps : Z) (o : outputs) (p : params) : Z :=
  if (p P_n <? 0) || (p P_nLocal <? 0) || (p P_nLocal >? p P_n) then -5
  else if p P_numProcs <? 1 then -6
  else if p P_matrixMatvec =? 0 then -7
  else if (p P_applyPreconditioner =? 0) && (p P_precondition >? 0) then -8
  else if p P_numEvals >? p P_n then -10
  else if p P_numEvals <? 0 then -11
  else if nonnull (p P_convTestFun) && negb (p P_eps =? 0) && (p P_eps <? meps) then -12
  else if negb (p P_target =? primme_smallest)
       && negb (p P_target =? primme_largest)
       && negb (p P_target =? primme_largest_abs)
       && negb (p P_target =? primme_closest_geq)
       && negb (p P_target =? primme_closest_leq)
       && negb (p P_target =? primme_closest_abs) then -13
  else if (p P_numOrthoConst <? 0) || (p P_numOrthoConst >? p P_n) then -16
  else if (p P_maxBasisSize <? 2) && (p P_n >? 2) then -17
  else if (p P_minRestartSize <? 0)
       || ((p P_minRestartSize =? 0) && (p P_n >? 2) && (p P_numEvals >? 0)) then -18
  else if (p P_maxBlockSize <? 0)
       || ((p P_maxBlockSize =? 0) && (p P_numEvals >? 0)) then -19
  else if p P_maxPrevRetain <? 0 then -20
  else if p P_initSize <? 0 then -22
  else if (p P_locking =? 0) && (p P_initSize >? p P_maxBasisSize) then -23
  else if (p P_locking >? 0) && (p P_initSize >? p P_numEvals) then -24
  else if (p P_minRestartSize + p P_maxPrevRetain >=? p P_maxBasisSize)
       && (p P_n >? p P_maxBasisSize) then -25
  else if (p P_minRestartSize >? p P_n) && (p P_n >? 2) then -26
  else if (p P_printLevel <? 0) || (p P_printLevel >? 5) then -27
  else if negb (p P_convTest =? primme_full_LTolerance)
       && negb (p P_convTest =? primme_decreasing_LTolerance)
       && negb (p P_convTest =? primme_adaptive_ETolerance)
       && negb (p P_convTest =? primme_adaptive) then -28
  else if (p P_convTest =? primme_decreasing_LTolerance)
       && (p P_relTolBase <=? code_1) then -29
  else if o_evals o =? 0 then -30
  else if (o_evecs o =? 0) || o_badptr o then -31
  else if o_resNorms o =? 0 then -32
  else if (p P_locking =? 0) && (p P_minRestartSize <? p P_numEvals)
       && (p P_n >? 2) then -33
  else if p P_ldevecs <? p P_nLocal then -34
  else if negb (p P_ldOPs =? 0) && (p P_ldOPs <? p P_nLocal) then -35
  else if (p P_locking =? 0) && ((p P_target =? primme_closest_leq)
                                 || (p P_target =? primme_closest_geq)) then -38
  else if nonnull (p P_massMatrixMatvec)
       && negb (p P_projection =? primme_proj_RR) then -39
  else if (p P_target =? primme_largest_abs) || (p P_target =? primme_closest_geq)
       || (p P_target =? primme_closest_leq) || (p P_target =? primme_closest_abs) then
    if p P_numTargetShifts <=? 0 then -14
    else if p P_targetShifts =? 0 then -15
    else 0
  else 0.

(** primme_c.c 342-349: seeds out of range are replaced, per entry.  C [%] and
    [/] on [int] truncate towards zero. *)
Definition seed_of_rank (r : Z) (i : nat) : Z :=
  match i with
  | 0%nat => Z.rem r 4096
  | 1%nat => Z.rem (Z.quot r 4096 + 1) 4096
  | 2%nat => Z.rem (Z.quot (Z.quot r 4096) 4096 + 2) 4096
  | _ => Z.rem (2 * Z.quot (Z.quot (Z.quot r 4096) 4096) 4096 + 1) 4096
  end.

Definition reseed1 (f : field) (i : nat) (p : params) : params :=
  set_if ((p f <? 0) || (p f >? 4095)) p f (seed_of_rank (p P_procID) i).

Definition reset_seeds (p : params) : params :=
  reseed1 P_iseed3 3 (reseed1 P_iseed2 2 (reseed1 P_iseed1 1 (reseed1 P_iseed0 0 p))).

(** What the driver cannot see: compile-time constants and the outcomes of the
    stages it calls. *)
Record driver_env := {
  e_op_scalar : Z;                   (* PRIMME_OP_SCALAR of the working type *)
  e_block : Z;                       (* PRIMME_BLOCK_SIZE *)
  e_meps : Z;                        (* MACHINE_EPSILON *)
  e_default_eps : Z;                 (* MACHINE_EPSILON*1e4, or 0.1 if >= 1 *)
  e_absolute_fun : Z;                (* address of convTestFunAbsolute *)
  e_monitor_fun : Z;                 (* address of default_monitor *)
  e_coherence : params -> Z;         (* coordinated_exit(check_params_coherence) *)
  e_astype_evals : params -> Z;      (* the three conversions in *)
  e_astype_evecs : params -> Z;
  e_astype_resNorms : params -> Z;
  e_main_iter : params -> Z * Z * params;  (* error, *ret, structure afterwards *)
  e_copy_evals : params -> Z;        (* the copies back *)
  e_copy_evecs : params -> Z;
  e_free_evecs : params -> Z;
  e_copy_resNorms : params -> Z }.

(** primme_c.c 288-296: sequential programs need not set the local size. *)
Definition sequential_defaults (o : outputs) (p : params) : params :=
  let c := (p P_numProcs <=? 1) && nonnull (o_evals o) && nonnull (o_evecs o)
           && nonnull (o_resNorms o) in
  set_if c (set_if c p P_nLocal (p P_n)) P_procID 0.

(** primme_c.c 312-318. *)
Definition default_orth (e : driver_env) (p : params) : params :=
  set_if (p P_orth =? primme_orth_default) p P_orth
    (if (e_op_scalar e <=? primme_op_float) || (p P_maxBlockSize >? 1)
     then primme_orth_explicit_I else primme_orth_implicit_I).

(** primme_c.c 324-331. *)
Definition default_ldOPs (e : driver_env) (p : params) : params :=
  set_if (p P_ldOPs =? -1) p P_ldOPs
    (if e_block e <? INT_MAX
     then Z.min (Z.quot (p P_nLocal + e_block e - 1) (e_block e) * e_block e)
                (p P_nLocal)
     else p P_nLocal).

(** primme_c.c 351-367: default convergence test and monitor. *)
Definition default_callbacks (e : driver_env) (p : params) : params :=
  let c := negb (nonnull (p P_convTestFun)) in
  let p := set_if c p P_convTestFun (e_absolute_fun e) in
  let p := set_if c p P_convTestFun_type (e_op_scalar e) in
  let p := set_if (c && (p P_eps =? 0)) p P_eps (e_default_eps e) in
  let c := negb (nonnull (p P_monitorFun)) in
  set_if c (set_if c p P_monitorFun (e_monitor_fun e)) P_monitorFun_type (e_op_scalar e).

(** primme_c.c 288-367: everything the wrapper does to the structure before
    validating it, except the return of the null query. *)
Definition wrapper_prepare (e : driver_env) (o : outputs) (p : params) : option params :=
  p <- primme_set_defaults (sequential_defaults o p) ;
  Some (default_ldOPs e (default_orth e p)).

Definition is_null_query (o : outputs) : bool :=
  (o_evals o =? 0) && (o_evecs o =? 0) && (o_resNorms o =? 0).

(** The stages after the null query, in order, each a possible early return
    (CHKERR); primme_c.c 371-421.  Result: code, returned vectors, structure. *)
Definition wrapper_run (e : driver_env) (o : outputs) (p : params) : Z * Z * params :=
  let p := default_callbacks e (reset_seeds p) in
  if negb (e_coherence e p =? 0) then (e_coherence e p, 0, p)
  else if negb (check_input (e_meps e) o p =? 0) then (check_input (e_meps e) o p, 0, p)
  else if negb (e_astype_evals e p =? 0) then (e_astype_evals e p, 0, p)
  else if negb (e_astype_evecs e p =? 0) then (e_astype_evecs e p, 0, p)
  else if negb (e_astype_resNorms e p =? 0) then (e_astype_resNorms e p, 0, p)
  else
    let '(err, ret, q) := e_main_iter e p in
    if negb (err =? 0) then (err, 0, q)
    else if negb (e_copy_evals e q =? 0) then (e_copy_evals e q, 0, q)
    else if negb (e_copy_evecs e q =? 0) then (e_copy_evecs e q, 0, q)
    else if negb (e_free_evecs e q =? 0) then (e_free_evecs e q, 0, q)
    else if negb (e_copy_resNorms e q =? 0) then (e_copy_resNorms e q, 0, q)
    else (ret, q P_initSize, q).

(** primme_c.c 278-422, [wrapper_Sprimme]. *)
Definition wrapper (e : driver_env) (o : outputs) (p : params) : option (Z * Z * params) :=
  p <- wrapper_prepare e o p ;
  Some (if is_null_query o then (0, 0, p) else wrapper_run e o p).

(** primme_c.c 168-181: operators without an explicit type get the call's. *)
Definition default_type (ops : Z) (fn ty : field) (p : params) : params :=
  set_if (nonnull (p fn) && (p ty =? primme_op_default)) p ty ops.

Definition operator_types (ops : Z) (p : params) : params :=
  default_type ops P_monitorFun P_monitorFun_type
 (default_type ops P_convTestFun P_convTestFun_type
 (default_type ops P_broadcastReal P_broadcastReal_type
 (default_type ops P_globalSumReal P_globalSumReal_type
 (default_type ops P_applyPreconditioner P_applyPreconditioner_type
 (default_type ops P_massMatrixMatvec P_massMatrixMatvec_type
 (default_type ops P_matrixMatvec P_matrixMatvec_type p)))))).

Definition PRIMME_FUNCTION_UNAVAILABLE : Z := -44.

(** primme_c.c 159-243, [Xprimme_aux_Sprimme], compiled with [SUPPORTED_TYPE].
    [ops] is the type of the called variant; [env_for t] is the compiled
    instance for working precision [t], if any.  The allocation frames of the
    context are modelled in FrameModel. *)
Definition driver (ops : Z) (env_for : Z -> option driver_env) (o : outputs) (p : params)
  : option (Z * params) :=
  let p := operator_types ops p in
  let t := if p P_internalPrecision =? primme_op_default then ops
           else p P_internalPrecision in
  match env_for t with
  | None => Some (PRIMME_FUNCTION_UNAVAILABLE, p <+ P_initSize := 0)
  | Some e =>
    r <- wrapper e o p ;
    let '(ret, n, q) := r in Some (ret, q <+ P_initSize := n)
  end.
