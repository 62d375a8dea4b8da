(** Specification of the documented constraints on the eigensolver parameters,
    transcribed from doc/source/appendix.rst, section "Error Codes".  It uses
    only the names of the members, none of the model's functions. *)
From Coq Require Import ZArith List.
From Verif Require Import FieldsModel.
Import ListNotations.
Open Scope Z_scope.

Section Documented.
  (** The structure, the three output pointers (0 is NULL), whether the
      eigenvector pointer is of the wrong kind, and the machine precision. *)
  Variables (p : params) (evals evecs resNorms : Z) (wrong_kind : Prop) (meps : Z).

  (** Targets are numbered as in include/primme_eigs.h. *)
  Definition wants_shifts : Prop :=
    p P_target = 2 \/ p P_target = 3 \/ p P_target = 4 \/ p P_target = 5.

  (** [violates c]: the situation documented for error code [c] holds. *)
  Inductive violates : Z -> Prop :=
  | v5 : p P_n < 0 \/ p P_nLocal < 0 \/ p P_nLocal > p P_n -> violates (-5)
  | v6 : p P_numProcs < 1 -> violates (-6)
  | v7 : p P_matrixMatvec = 0 -> violates (-7)
  | v8 : p P_applyPreconditioner = 0 /\ p P_precondition > 0 -> violates (-8)
  | v10 : p P_numEvals > p P_n -> violates (-10)
  | v11 : p P_numEvals < 0 -> violates (-11)
  | v12 : p P_convTestFun <> 0 /\ p P_eps > 0 /\ p P_eps < meps -> violates (-12)
  | v13 : ~ (0 <= p P_target <= 5) -> violates (-13)
  | v14 : wants_shifts /\ p P_numTargetShifts <= 0 -> violates (-14)
  | v15 : wants_shifts /\ p P_targetShifts = 0 -> violates (-15)
  | v16 : p P_numOrthoConst < 0 \/ p P_numOrthoConst > p P_n -> violates (-16)
  | v17 : p P_maxBasisSize < 2 /\ p P_n > 2 -> violates (-17)
  | v18 : p P_minRestartSize < 0
          \/ (p P_minRestartSize = 0 /\ p P_n > 2 /\ p P_numEvals > 0) -> violates (-18)
  | v19 : p P_maxBlockSize < 0
          \/ (p P_maxBlockSize = 0 /\ p P_numEvals > 0) -> violates (-19)
  | v20 : p P_maxPrevRetain < 0 -> violates (-20)
  | v22 : p P_initSize < 0 -> violates (-22)
  | v23 : p P_locking = 0 /\ p P_initSize > p P_maxBasisSize -> violates (-23)
  | v24 : p P_locking > 0 /\ p P_initSize > p P_numEvals -> violates (-24)
  | v25 : p P_maxPrevRetain + p P_minRestartSize >= p P_maxBasisSize
          /\ p P_n > p P_maxBasisSize -> violates (-25)
  | v26 : p P_minRestartSize >= p P_n /\ p P_n > 2 -> violates (-26)
  | v27 : p P_printLevel < 0 \/ p P_printLevel > 5 -> violates (-27)
  | v28 : ~ (0 <= p P_convTest <= 3) -> violates (-28)
  | v29 : p P_convTest = 1 /\ p P_relTolBase <= 4607182418800017408 (* code of 1.0 *)
          -> violates (-29)
  | v30 : evals = 0 -> violates (-30)
  | v31 : evecs = 0 \/ wrong_kind -> violates (-31)
  | v32 : resNorms = 0 -> violates (-32)
  | v33 : p P_locking = 0 /\ p P_minRestartSize < p P_numEvals /\ p P_n > 2
          -> violates (-33)
  | v34 : p P_ldevecs < p P_nLocal -> violates (-34)
  | v35 : p P_ldOPs <> 0 /\ p P_ldOPs < p P_nLocal -> violates (-35)
  | v38 : p P_locking = 0 /\ (p P_target = 3 \/ p P_target = 2) -> violates (-38).
End Documented.

(** The order in which violations are reported: the order of the codes in the
    documentation, except that missing shifts (-14, -15) come last. *)
Definition report_order : list Z :=
  [-5; -6; -7; -8; -10; -11; -12; -13; -16; -17; -18; -19; -20; -22; -23; -24;
   -25; -26; -27; -28; -29; -30; -31; -32; -33; -34; -35; -38; -39; -14; -15].

Definition reported_before (c d : Z) : Prop :=
  exists l1 l2 l3, report_order = l1 ++ c :: l2 ++ d :: l3.

(** A member of the structure still has the value by which PRIMME recognises
    that the user did not choose one. *)
Inductive unset (p : params) : field -> Prop :=
| u_ldevecs : p P_ldevecs = -1 -> unset p P_ldevecs
| u_projection : p P_projection = 0 -> unset p P_projection
| u_init : p P_initBasisMode = 0 -> unset p P_initBasisMode
| u_basis : p P_maxBasisSize = 0 -> unset p P_maxBasisSize
| u_restart : p P_minRestartSize = 0 -> unset p P_minRestartSize
| u_locking : p P_locking < 0 -> unset p P_locking.
