(** The messages for the error codes in the Python, R and MATLAB interfaces, copied from the tables of
    the sources. *)
From Coq Require Import Bool String List ZArith.
Import ListNotations.
Local Open Scope string_scope.
Local Open Scope Z_scope.

(** Python/primme.pyx 1497-1540 *)
Definition python_eigs : list (Z * string) :=
  [ (0, "success");
    (-1, "unexpected internal error; please consider to set 'printLevel' to a value larger than 0 to see the call stack and to report these errors because they may be bugs");
    (-2, "memory allocation failure");
    (-3, "maximum iterations or matvecs reached");
    (-4, "argument 'primme' is NULL");
    (-5, "'n' < 0 or 'nLocal' < 0 or 'nLocal' > 'n'");
    (-6, "'numProcs' < 1");
    (-7, "'matrixMatvec' is NULL");
    (-8, "'applyPreconditioner' is NULL and 'precondition' is not NULL");
    (-9, "'not used");
    (-10, "'numEvals' > 'n'");
    (-11, "'numEvals' < 0");
    (-12, "'eps' > 0 and 'eps' < machine precision");
    (-13, "'target' is not properly defined");
    (-14, "'target' is one of 'primme_largest_abs', 'primme_closest_geq', 'primme_closest_leq' or 'primme_closest_abs' but 'numTargetShifts' <= 0 (no shifts)");
    (-15, "'target' is one of 'primme_largest_abs', 'primme_closest_geq', 'primme_closest_leq' or 'primme_closest_abs' but 'targetShifts' is NULL  (no shifts array)");
    (-16, "'numOrthoConst' < 0 or 'numOrthoConst' > 'n'. (no free dimensions left)");
    (-17, "'maxBasisSize' < 2");
    (-18, "'minRestartSize' < 0 or 'minRestartSize' shouldn't be zero");
    (-19, "'maxBlockSize' < 0 or 'maxBlockSize' shouldn't be zero");
    (-20, "'maxPrevRetain' < 0");
    (-21, "'scheme' is not one of *primme_thick* or *primme_dtr*");
    (-22, "'initSize' < 0");
    (-23, "'locking' == 0 and 'initSize' > 'maxBasisSize'");
    (-24, "'locking' and 'initSize' > 'numEvals'");
    (-25, "'maxPrevRetain' + 'minRestartSize' >= 'maxBasisSize'");
    (-26, "'minRestartSize' >= 'n'");
    (-27, "'printLevel' < 0 or 'printLevel' > 5");
    (-28, "'convTest' is not one of 'primme_full_LTolerance', 'primme_decreasing_LTolerance', 'primme_adaptive_ETolerance' or 'primme_adaptive'");
    (-29, "'convTest' == 'primme_decreasing_LTolerance' and 'relTolBase' <= 1");
    (-30, "'evals' is NULL");
    (-31, "'evecs' is NULL");
    (-32, "'resNorms' is NULL");
    (-33, "'locking' == 0 and 'minRestartSize' < 'numEvals'");
    (-34, "'ldevecs' is less than 'nLocal'");
    (-35, "'ldOPs' is non-zero and less than 'nLocal'");
    (-38, "'locking' == 0 and 'target' is 'primme_closest_leq' or 'primme_closet_geq'");
    (-40, "some LAPACK function performing a factorization returned an error code; set 'printLevel' > 0 to see the error code and the call stack");
    (-41, "error happened at the matvec or applying the preconditioner");
    (-42, "the matrix provided in 'lock' is not full rank");
    (-43, "parallel failure");
    (-44, "unavailable functionality; PRIMME was not compiled with support for the requesting precision or for GPUs") ].

(** Python/primme.pyx 1542-1567 *)
Definition python_svds : list (Z * string) :=
  [ (0, "success");
    (-1, "unexpected internal error; please consider to set 'printLevel' to a value larger than 0 to see the call stack and to report these errors because they may be bugs");
    (-2, "memory allocation failure");
    (-3, "maximum iterations or matvecs reached");
    (-4, "primme_svds is NULL");
    (-5, "Wrong value for m or n or mLocal or nLocal");
    (-6, "Wrong value for numProcs");
    (-7, "matrixMatvec is not set");
    (-8, "applyPreconditioner is not set but precondition == 1 ");
    (-9, "numProcs >1 but globalSumDouble is not set");
    (-10, "Wrong value for numSvals, it's larger than min(m, n)");
    (-11, "Wrong value for numSvals, it's smaller than 1");
    (-13, "Wrong value for target");
    (-14, "Wrong value for method");
    (-15, "Not supported combination of method and methodStage2");
    (-16, "Wrong value for printLevel");
    (-17, "svals is not set");
    (-18, "svecs is not set");
    (-19, "resNorms is not set");
    (-40, "some LAPACK function performing a factorization returned an error code; set 'printLevel' > 0 to see the error code and the call stack");
    (-41, "error happened at the matvec or applying the preconditioner");
    (-42, "the matrix provided in 'lock' is not full rank");
    (-43, "parallel failure");
    (-44, "unavailable functionality; PRIMME was not compiled with support for the requesting precision or for GPUs") ].

(** R/R/eigs.R 394-437 *)
Definition r_eigs : list (Z * string) :=
  [ (0, "success");
    (-1, "unexpected internal error; please consider to set 'printLevel' to a value larger than 0 to see the call stack and to report these errors because they may be bugs");
    (-2, "memory allocation failure");
    (-3, "maximum iterations or matvecs reached");
    (-4, "argument 'primme' is NULL");
    (-5, "'n' < 0 or 'nLocal' < 0 or 'nLocal' > 'n'");
    (-6, "'numProcs' < 1");
    (-7, "'matrixMatvec' is NULL");
    (-8, "'applyPreconditioner' is NULL and 'precondition' is not NULL");
    (-9, "'not used");
    (-10, "'numEvals' > 'n'");
    (-11, "'numEvals' < 0");
    (-12, "'eps' > 0 and 'eps' < machine precision");
    (-13, "'target' is not properly defined");
    (-14, "'target' is one of 'primme_largest_abs', 'primme_closest_geq', 'primme_closest_leq' or 'primme_closest_abs' but 'numTargetShifts' <= 0 (no shifts)");
    (-15, "'target' is one of 'primme_largest_abs', 'primme_closest_geq', 'primme_closest_leq' or 'primme_closest_abs' but 'targetShifts' is NULL  (no shifts array)");
    (-16, "'numOrthoConst' < 0 or 'numOrthoConst' > 'n'. (no free dimensions left)");
    (-17, "'maxBasisSize' < 2");
    (-18, "'minRestartSize' < 0 or 'minRestartSize' shouldn't be zero");
    (-19, "'maxBlockSize' < 0 or 'maxBlockSize' shouldn't be zero");
    (-20, "'maxPrevRetain' < 0");
    (-21, "'scheme' is not one of *primme_thick* or *primme_dtr*");
    (-22, "'initSize' < 0");
    (-23, "'locking' == 0 and 'initSize' > 'maxBasisSize'");
    (-24, "'locking' and 'initSize' > 'numEvals'");
    (-25, "'maxPrevRetain' + 'minRestartSize' >= 'maxBasisSize'");
    (-26, "'minRestartSize' >= 'n'");
    (-27, "'printLevel' < 0 or 'printLevel' > 5");
    (-28, "'convTest' is not one of 'primme_full_LTolerance', 'primme_decreasing_LTolerance', 'primme_adaptive_ETolerance' or 'primme_adaptive'");
    (-29, "'convTest' == 'primme_decreasing_LTolerance' and 'relTolBase' <= 1");
    (-30, "'evals' is NULL");
    (-31, "'evecs' is NULL");
    (-32, "'resNorms' is NULL");
    (-33, "'locking' == 0 and 'minRestartSize' < 'numEvals'");
    (-34, "'ldevecs' is less than 'nLocal'");
    (-35, "'ldOPs' is non-zero and less than 'nLocal'");
    (-38, "'locking' == 0 and 'target' is 'primme_closest_leq' or 'primme_closet_geq'");
    (-40, "some LAPACK function performing a factorization returned an error code; set 'printLevel' > 0 to see the error code and the call stack");
    (-41, "error happened at the matvec or applying the preconditioner");
    (-42, "the matrix provided in 'lock' is not full rank");
    (-43, "parallel failure");
    (-44, "unavailable functionality; PRIMME was not compiled with support for the requesting precision or for GPUs") ].

(** R/R/svds.R 395-420 *)
Definition r_svds : list (Z * string) :=
  [ (0, "success");
    (-1, "unexpected internal error; please consider to set 'printLevel' to a value larger than 0 to see the call stack and to report these errors because they may be bugs");
    (-2, "memory allocation failure");
    (-3, "maximum iterations or matvecs reached");
    (-4, "primme_svds is NULL");
    (-5, "Wrong value for m or n or mLocal or nLocal");
    (-6, "Wrong value for numProcs");
    (-7, "matrixMatvec is not set");
    (-8, "applyPreconditioner is not set but precondition == 1 ");
    (-9, "numProcs >1 but globalSumDouble is not set");
    (-10, "Wrong value for numSvals, it's larger than min(m, n)");
    (-11, "Wrong value for numSvals, it's smaller than 1");
    (-13, "Wrong value for target");
    (-14, "Wrong value for method");
    (-15, "Not supported combination of method and methodStage2");
    (-16, "Wrong value for printLevel");
    (-17, "svals is not set");
    (-18, "svecs is not set");
    (-19, "resNorms is not set");
    (-40, "some LAPACK function performing a factorization returned an error code; set 'printLevel' > 0 to see the error code and the call stack");
    (-41, "error happened at the matvec or applying the preconditioner");
    (-42, "the matrix provided in 'lock' is not full rank");
    (-43, "parallel failure");
    (-44, "unavailable functionality; PRIMME was not compiled with support for the requesting precision or for GPUs") ].

(** What a cell of MATLAB holds: a text, or zeros: the comparison of a text with the number 1, which
    is what the code for -6 evaluates (its quotes are misplaced), has a false for each character. *)
Inductive cell := Text (s : string) | Zeros (n : nat).

(** Matlab/primme_eigs.m 858-904 *)
Definition matlab_eigs : list (Z * cell) :=
  [ (0, Text "success");
    (-1, Text "unexpected internal error; please consider to set ""printLevel"" to a value larger than 0 to see the call stack and to report these errors because they may be bugs");
    (-2, Text "memory allocation failure");
    (-3, Text "maximum iterations or matvecs reached");
    (-4, Text "argument primme is NULL");
    (-5, Text "n < 0 or nLocal < 0 or nLocal > n");
    (-6, Zeros 8);
    (-7, Text "matrixMatvec is NULL");
    (-8, Text "applyPreconditioner is NULL and precondition is not NULL");
    (-9, Text "not used");
    (-10, Text "numEvals > n");
    (-11, Text "numEvals < 0");
    (-12, Text "eps > 0 and eps < machine precision");
    (-13, Text "target is not properly defined");
    (-14, Text "target is one of primme_largest_abs, primme_closest_geq, primme_closest_leq or primme_closest_abs but numTargetShifts <= 0 (no shifts)");
    (-15, Text "target is one of primme_largest_abs primme_closest_geq primme_closest_leq or primme_closest_abs but targetShifts is NULL  (no shifts array)");
    (-16, Text "numOrthoConst < 0 or numOrthoConst > n (no free dimensions left)");
    (-17, Text "maxBasisSize < 2");
    (-18, Text "minRestartSize < 0 or minRestartSize shouldn't be zero");
    (-19, Text "maxBlockSize < 0 or maxBlockSize shouldn't be zero");
    (-20, Text "maxPrevRetain < 0");
    (-21, Text "scheme is not one of *primme_thick* or *primme_dtr*");
    (-22, Text "initSize < 0");
    (-23, Text "locking == 0 and initSize > maxBasisSize");
    (-24, Text "locking and initSize > numEvals");
    (-25, Text "maxPrevRetain + minRestartSize >= maxBasisSize");
    (-26, Text "minRestartSize >= n");
    (-27, Text "printLevel < 0 or printLevel > 5");
    (-28, Text "convTest is not one of primme_full_LTolerance primme_decreasing_LTolerance primme_adaptive_ETolerance or primme_adaptive");
    (-29, Text "convTest == primme_decreasing_LTolerance and relTolBase <= 1");
    (-30, Text "evals is NULL, but not evecs and resNorms");
    (-31, Text "evecs is NULL, but not evals and resNorms");
    (-32, Text "resNorms is NULL, but not evecs and evals");
    (-33, Text "locking == 0 and minRestartSize < numEvals");
    (-34, Text "ldevecs is less than nLocal");
    (-35, Text "ldOPs is non-zero and less than nLocal");
    (-36, Text "not enough memory for realWork");
    (-37, Text "not enough memory for intWork");
    (-38, Text "locking == 0 and target is primme_closest_leq or primme_closet_geq");
    (-40, Text "some LAPACK function performing a factorization returned an error code; set ""printLevel"" > 0 to see the error code and the call stack");
    (-41, Text "user cancelled execution");
    (-42, Text "the matrix provided in ""orthoConst"" is not full rank");
    (-43, Text "parallel failure");
    (-44, Text "unavailable functionality; PRIMME was not compiled with support for the requesting precision or for GPUs") ].

(** Matlab/primme_svds.m 939-986 *)
Definition matlab_stage : list (Z * cell) :=
  [ (0, Text "success");
    (1, Text "reported only amount of required memory");
    (-1, Text "unexpected failure");
    (-2, Text "memory allocation failure");
    (-3, Text "iteration error; usually maximum iterations or matvecs reached");
    (-4, Text "argument primme is NULL");
    (-5, Text "n < 0 or nLocal < 0 or nLocal > n");
    (-6, Zeros 8);
    (-7, Text "matrixMatvec is NULL");
    (-8, Text "applyPreconditioner is NULL and precondition is not NULL");
    (-9, Text "not used");
    (-10, Text "numEvals > n");
    (-11, Text "numEvals < 0");
    (-12, Text "eps > 0 and eps < machine precision");
    (-13, Text "target is not properly defined");
    (-14, Text "target is one of primme_largest_abs, primme_closest_geq, primme_closest_leq or primme_closest_abs but numTargetShifts <= 0 (no shifts)");
    (-15, Text "target is one of primme_largest_abs primme_closest_geq primme_closest_leq or primme_closest_abs but targetShifts is NULL  (no shifts array)");
    (-16, Text "numOrthoConst < 0 or numOrthoConst > n (no free dimensions left)");
    (-17, Text "maxBasisSize < 2");
    (-18, Text "minRestartSize < 0 or minRestartSize shouldn't be zero");
    (-19, Text "maxBlockSize < 0 or maxBlockSize shouldn't be zero");
    (-20, Text "maxPrevRetain < 0");
    (-21, Text "scheme is not one of *primme_thick* or *primme_dtr*");
    (-22, Text "initSize < 0");
    (-23, Text "locking == 0 and initSize > maxBasisSize");
    (-24, Text "locking and initSize > numEvals");
    (-25, Text "maxPrevRetain + minRestartSize >= maxBasisSize");
    (-26, Text "minRestartSize >= n");
    (-27, Text "printLevel < 0 or printLevel > 5");
    (-28, Text "convTest is not one of primme_full_LTolerance primme_decreasing_LTolerance primme_adaptive_ETolerance or primme_adaptive");
    (-29, Text "convTest == primme_decreasing_LTolerance and relTolBase <= 1");
    (-30, Text "evals is NULL, but not evecs and resNorms");
    (-31, Text "evecs is NULL, but not evals and resNorms");
    (-32, Text "resNorms is NULL, but not evecs and evals");
    (-33, Text "locking == 0 and minRestartSize < numEvals");
    (-34, Text "ldevecs is less than nLocal");
    (-35, Text "ldOPs is non-zero and less than nLocal");
    (-36, Text "not enough memory for realWork");
    (-37, Text "not enough memory for intWork");
    (-38, Text "locking == 0 and target is primme_closest_leq or primme_closet_geq");
    (-40, Text "factorization failure");
    (-41, Text "user cancelled execution");
    (-42, Text "orthogonalization failure");
    (-43, Text "parallel failure");
    (-44, Text "unavailable functionality") ].

(** Matlab/primme_svds.m 996-1023 *)
Definition matlab_svds : list (Z * cell) :=
  [ (0, Text "success");
    (-1, Text "unexpected failure");
    (-2, Text "memory allocation failure");
    (-3, Text "iteration error; usually maximum iterations or matvecs reached");
    (-4, Text "primme_svds is NULL");
    (-5, Text "Wrong value for m or n or mLocal or nLocal");
    (-6, Text "Wrong value for numProcs");
    (-7, Text "matrixMatvec is not set");
    (-8, Text "applyPreconditioner is not set but precondition == 1 ");
    (-9, Text "numProcs >1 but globalSumDouble is not set");
    (-10, Text "Wrong value for numSvals, it's larger than min(m, n)");
    (-11, Text "Wrong value for numSvals, it's smaller than 1");
    (-13, Text "Wrong value for target");
    (-14, Text "Wrong value for method");
    (-15, Text "Not supported combination of method and methodStage2");
    (-16, Text "Wrong value for printLevel");
    (-17, Text "svals is not set");
    (-18, Text "svecs is not set");
    (-19, Text "resNorms is not set");
    (-20, Text "not enough memory for realWork");
    (-21, Text "not enough memory for intWork");
    (-40, Text "factorization failure");
    (-41, Text "user cancel execution");
    (-42, Text "orthogonalization failure");
    (-43, Text "parallel failure");
    (-44, Text "unavailable functionality") ].

Definition assoc {X} (c : Z) (l : list (Z * X)) : option X := option_map snd (find (fun e => fst e =? c) l).

(** An exception of Python: of the module, with the code and a text, or KeyError. *)
Inductive raised := Primme (code : Z) (text : string) | KeyError.
Definition or_key (c : Z) (t : option string) : raised := match t with Some t => Primme c t | None => KeyError end.

(** primme.pyx 1570-1576; the text is the one after the code in the message. *)
Definition py_error (err : Z) : raised := or_key err (assoc err python_eigs).
(** primme.pyx 1578-1591 *)
Definition py_svds_error (err : Z) : raised :=
  if err >=? -100 then or_key err (assoc err python_svds)
  else if err >=? -200 then
    or_key err (option_map (fun t => "Error from PRIMME first stage: " ++ t)%string (assoc (err + 100) python_eigs))
  else if err >=? -300 then
    or_key err (option_map (fun t => "Error from PRIMME second stage: " ++ t)%string (assoc (err + 200) python_eigs))
  else Primme err "".

(** eigs.R 438 and 388: the element of a list that is not there is NULL, and stop(NULL) has no text. *)
Definition r_error (n : Z) : string := match assoc n r_eigs with Some t => t | None => "" end.
(** svds.R 421-428; paste takes NULL for an empty text. *)
Definition r_svds_error (n : Z) : string :=
  if n >=? -100 then match assoc n r_svds with Some t => t | None => "" end
  else if n >=? -200 then "Error from PRIMME first stage: " ++ r_error (n + 100)
  else if n >=? -300 then "Error from PRIMME second stage: " ++ r_error (n + 200)
  else "Unknown error code".

(** The largest index of a cell array filled by the table. *)
Definition numel (l : list (Z * cell)) : Z := fold_right (fun e m => Z.max (45 + fst e) m) 0 l.
(** Cells in between that are not set are empty. *)
Definition cell_at (l : list (Z * cell)) (c : Z) : cell := match assoc c l with Some t => t | None => Text "" end.
(** primme_eigs.m 906-911 and primme_svds.m 988-993 *)
Definition mat_error (l : list (Z * cell)) (err : Z) : cell :=
  if (45 + err >? 0) && (45 + err <=? numel l) then cell_at l err else Text "Unknown error code".
(** primme_svds.m 1025-1036; the prefix and the cell that is joined to it. *)
Definition mat_svds_error (err : Z) : string * cell :=
  if err >=? -100 then
    ("", if (45 + err >? 0) && (45 + err <? numel matlab_svds) then cell_at matlab_svds err else Text "Unknown error code")
  else if err >=? -200 then ("Error from first stage: ", mat_error matlab_stage (err + 100))
  else ("Error from second stage: ", mat_error matlab_stage (err + 200)).
