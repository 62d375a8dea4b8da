(** Parameters of the singular value solver: initial values, preset methods,
    and the transfer of the settings to the eigensolvers of the two stages
    (src/svds/primme_svds_interface.c 106-412). *)
From Coq Require Import ZArith List Bool.
From Verif Require Import Base FieldsModel ParamsModel SvdsFieldsModel.
Import ListNotations.
Open Scope Z_scope.

(** include/primme_svds.h 45-63: enumerators. *)
Definition primme_svds_largest := 0.
Definition primme_svds_smallest := 1.
Definition primme_svds_closest_abs := 2.
Definition primme_svds_default := 0.
Definition primme_svds_hybrid := 1.
Definition primme_svds_normalequations := 2.
Definition primme_svds_augmented := 3.
Definition op_none := 0.
Definition op_AtA := 1.
Definition op_AAt := 2.
Definition op_augmented := 3.

(** include/primme_svds.h 84-163: the structure; [st1] is the member [primme]
    and [st2] the member [primmeStage2]. *)
Record svds := Svds { own : sparams; st1 : params; st2 : params }.

(** primme_svds_interface.c 106-186, [primme_svds_initialize], over whatever
    the memory [g] held. *)
Definition svds_initialize_over (g : svds) (stdout_ptr : Z) : svds :=
  Svds (ssets (own g)
    [ (S_m, 0); (S_n, 0); (S_numSvals, 1); (S_target, primme_svds_largest);
      (S_method, op_none); (S_methodStage2, op_none);
      (S_numTargetShifts, 0); (S_targetShifts, 0);
      (S_numProcs, 1); (S_procID, 0); (S_mLocal, -1); (S_nLocal, -1); (S_commInfo, 0);
      (S_globalSumReal, 0); (S_globalSumReal_type, primme_op_default);
      (S_broadcastReal, 0); (S_broadcastReal_type, primme_op_default);
      (S_internalPrecision, primme_op_default);
      (S_matrix, 0); (S_preconditioner, 0);
      (S_matrixMatvec, 0); (S_matrixMatvec_type, primme_op_default);
      (S_applyPreconditioner, 0); (S_applyPreconditioner_type, primme_op_default);
      (S_aNorm, 0); (S_eps, 0); (S_precondition, -1); (S_initSize, 0);
      (S_maxBasisSize, 0); (S_maxBlockSize, 0); (S_maxMatvecs, INT_MAX); (S_printLevel, 1);
      (S_outputFile, stdout_ptr); (S_locking, -1); (S_numOrthoConst, 0);
      (S_numOuterIterations, 0); (S_numRestarts, 0); (S_numMatvecs, 0); (S_numPreconds, 0);
      (S_numGlobalSum, 0); (S_volumeGlobalSum, 0); (S_numBroadcast, 0);
      (S_volumeBroadcast, 0); (S_numOrthoInnerProds, 0); (S_elapsedTime, 0);
      (S_timeMatvec, 0); (S_timePrecond, 0); (S_timeOrtho, 0); (S_timeGlobalSum, 0);
      (S_timeBroadcast, 0);
      (S_iseed0, -1); (S_iseed1, -1); (S_iseed2, -1); (S_iseed3, -1);
      (S_convTestFun, 0); (S_convTestFun_type, primme_op_default); (S_convtest, 0);
      (S_monitorFun, 0); (S_monitorFun_type, primme_op_default); (S_monitor, 0);
      (S_queue, 0); (S_profile, 0) ])
    (primme_initialize_over (st1 g) stdout_ptr)
    (primme_initialize_over (st2 g) stdout_ptr).

(** On zeroed memory. *)
Definition svds_initialize (stdout_ptr : Z) : svds :=
  svds_initialize_over (Svds (fun _ => 0) (fun _ => 0) (fun _ => 0)) stdout_ptr.

Section Transfer.
(** The two products of doubles, on the codes of the doubles: [x*x] and
    [x*sqrt(2.0)]; and the addresses of the two wrappers of the parallel
    callbacks, [globalSumRealSvds] and [broadcastRealSvds]. *)
Variables (sq root2 : Z -> Z) (globalSumSvds broadcastSvds : Z).

(** primme_svds_interface.c 314-336. *)
Definition copy_sizes (op : Z) (s : sparams) (p : params) : params :=
  let p := p <+ P_numEvals := s S_numSvals in
  let p := set_if ((s S_aNorm >? 0) && ((op =? op_AtA) || (op =? op_AAt))) p P_aNorm (sq (s S_aNorm)) in
  let p := set_if ((s S_aNorm >? 0) && (op =? op_augmented)) p P_aNorm (root2 (s S_aNorm)) in
  let p := p <+ P_eps := s S_eps in
  let p := p <+ P_initSize := s S_initSize in
  let p := set_if (s S_maxBasisSize >? 0) p P_maxBasisSize (s S_maxBasisSize) in
  let p := set_if (s S_maxBlockSize >? 0) p P_maxBlockSize (s S_maxBlockSize) in
  let p := p <+ P_maxMatvecs := s S_maxMatvecs in
  let p := p <+ P_printLevel := s S_printLevel in
  let p := p <+ P_outputFile := s S_outputFile in
  p <+ P_numOrthoConst := s S_numOrthoConst.

(** 341-351. *)
Definition copy_parallel (s : sparams) (p : params) : params :=
  let c := s S_numProcs >? 1 in
  let p := set_if c p P_procID (s S_procID) in
  let p := set_if c p P_numProcs (s S_numProcs) in
  let p := set_if c p P_commInfo (s S_commInfo) in
  let p := set_if (nonnull (s S_globalSumReal)) p P_globalSumReal globalSumSvds in
  set_if (nonnull (s S_broadcastReal)) p P_broadcastReal broadcastSvds.

(** 353-374. *)
Definition copy_dims (op : Z) (s : sparams) (p : params) : params :=
  if op =? op_AtA then
    let p := p <+ P_n := s S_n in
    set_if ((p P_nLocal =? -1) && negb (s S_nLocal =? -1)) p P_nLocal (s S_nLocal)
  else if op =? op_AAt then
    let p := p <+ P_n := s S_m in
    set_if ((p P_nLocal =? -1) && negb (s S_mLocal =? -1)) p P_nLocal (s S_mLocal)
  else if op =? op_augmented then
    let p := p <+ P_n := s S_m + s S_n in
    set_if ((p P_nLocal =? -1) && negb (s S_mLocal =? -1) && negb (s S_nLocal =? -1))
           p P_nLocal (s S_mLocal + s S_nLocal)
  else p.

(** 376-388. *)
Definition copy_target (op : Z) (s : sparams) (p : params) : params :=
  if s S_target =? primme_svds_largest then p <+ P_target := primme_largest
  else if s S_target =? primme_svds_smallest then
    p <+ P_target := (if op =? op_augmented then primme_closest_geq else primme_smallest)
  else if s S_target =? primme_svds_closest_abs then
    p <+ P_target := primme_closest_abs <+ P_numTargetShifts := s S_numTargetShifts
  else p.

(** 390-411. *)
Definition copy_modes (second : bool) (op : Z) (s : sparams) (p : params) : params :=
  let p := set_if (second && (p P_initBasisMode =? primme_init_default))
                  p P_initBasisMode primme_init_user in
  let p := set_if ((((op =? op_augmented) && negb (s S_target =? primme_svds_largest))
                    || (s S_target =? primme_svds_closest_abs))
                   && (p P_projection =? primme_proj_default))
                  p P_projection primme_proj_refined in
  let p := set_if (s S_locking >=? 0) p P_locking (s S_locking) in
  if s S_precondition >=? 0 then p <+ P_precondition := s S_precondition
  else if p P_precondition <? 0
  then p <+ P_precondition := (if nonnull (s S_applyPreconditioner) then 1 else 0)
  else p.

(** primme_svds_interface.c 298-412, [copy_params_from_svds]; [second] is
    [stage == 1]. *)
Definition copy_params (second : bool) (s : sparams) (p : params) : params :=
  let op := if second then s S_methodStage2 else s S_method in
  if op =? op_none then p <+ P_maxMatvecs := 1
  else copy_modes second op s
         (copy_target op s (copy_dims op s (copy_parallel s (copy_sizes op s p)))).

(** 274-283: the copies at the end of [primme_svds_set_defaults]. *)
Definition copy_both (s : svds) : svds :=
  let s := Svds (own s) (copy_params false (own s) (st1 s)) (st2 s) in
  if own s S_methodStage2 =? op_none then s
  else Svds (own s) (st1 s) (copy_params true (own s) (st2 s)).

(** 223-240: the switch on the preset; another number changes nothing. *)
Definition choose_method (preset : Z) (s : sparams) : sparams :=
  let normal := if s S_n <=? s S_m then op_AtA else op_AAt in
  if (preset =? primme_svds_default) || (preset =? primme_svds_hybrid) then
    ssets s [(S_method, normal); (S_methodStage2, op_augmented)]
  else if preset =? primme_svds_normalequations then
    ssets s [(S_method, normal); (S_methodStage2, op_none)]
  else if preset =? primme_svds_augmented then
    ssets s [(S_method, op_augmented); (S_methodStage2, op_none)]
  else s.

(** primme_svds_interface.c 219-256 [primme_svds_set_method] with the call of
    [primme_svds_set_defaults] as an argument.  The results of the two calls of
    [primme_set_method] are ignored, as in the code. *)
Definition svds_set_method_with (defaults : svds -> option svds) (preset m1 m2 : Z) (s : svds)
  : option (Z * svds) :=
  s <- defaults (Svds (choose_method preset (own s)) (st1 s) (st2 s)) ;
  r1 <- primme_set_method m1 (st1 s) ;
  let s := Svds (own s) (snd r1) (st2 s) in
  let m2 := if (m2 =? PRIMME_DEFAULT_METHOD) && negb (own s S_target =? primme_svds_largest)
            then PRIMME_JDQMR else m2 in
  if own s S_methodStage2 =? op_none then Some (0, s)
  else r2 <- primme_set_method m2 (st2 s) ;
       Some (0, Svds (own s) (st1 s) (snd r2)).

(** primme_svds_interface.c 268-284 [primme_svds_set_defaults]; the two call
    each other, [fuel] bounds the nesting and [None] means it was exceeded. *)
Fixpoint svds_defaults_fuel (fuel : nat) (s : svds) : option svds :=
  match fuel with
  | O => None
  | S k =>
    s1 <- (if own s S_method =? op_none
           then r <- svds_set_method_with (svds_defaults_fuel k) primme_svds_default
                       PRIMME_DEFAULT_METHOD PRIMME_DEFAULT_METHOD s ;
                Some (snd r)
           else Some s) ;
    Some (copy_both s1)
  end.

Definition svds_set_defaults (s : svds) : option svds := svds_defaults_fuel 2 s.

Definition svds_set_method (preset m1 m2 : Z) (s : svds) : option (Z * svds) :=
  svds_set_method_with svds_set_defaults preset m1 m2 s.
End Transfer.
